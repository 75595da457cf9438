(** * Properties of posterior tables and of weights for a new prior (C180, C181) *)
From Coq Require Import String List Bool Arith Lia.
From Coq Require Import Reals Lra.
From Verif Require Import PyDict PyReal Post_Model.
Import ListNotations.
Open Scope R_scope.
Open Scope list_scope.
Open Scope nat_scope.

(** ** C180 *)
(** The cell of a table in the column [k] and row [i]. *)
Definition cell (f : frame) (k : string) (i : nat) : option (option R) :=
  match dget f k with Some c => nth_error c i | None => None end.
(** The keys the priors fix. *)
Definition fixes (e : pentry) : bool := match e with EDelta _ | EFloat _ => true | _ => false end.
Definition fixed_keys (p : dict pentry) : list string := dkeys (filter (fun kv => fixes (snd kv)) p).
Definition height (n : nat) (f : frame) : Prop := forall k c, dget f k = Some c -> length c = n.

Lemma table_keys s keys : forall j, dkeys (table_from s j keys) = keys.
Proof. induction keys as [|k t IH]; intros j; [reflexivity|]; unfold dkeys in *; cbn. now rewrite IH. Qed.
Lemma table_get s keys : NoDup keys -> forall j0 j k, nth_error keys j = Some k ->
  dget (table_from s j0 keys) k = Some (map (fun row => nth_error row (j0 + j)) s).
Proof.
  induction keys as [|a t IH]; intros N j0 j k; [destruct j; discriminate|]. apply NoDup_cons_iff in N as [N1 N2].
  destruct j as [|j]; cbn.
  - intros [= ->]. rewrite String.eqb_refl, Nat.add_0_r. reflexivity.
  - intros H. destruct (String.eqb_spec k a) as [Ea|Ne].
    + exfalso; apply N1. subst a. eapply nth_error_In; eauto.
    + rewrite (IH N2 (S j0) j k H). now rewrite Nat.add_succ_r.
Qed.
Lemma height_set n f k c : length c = n -> height n f -> height n (dset f k c).
Proof.
  intros L H k' c'. destruct (String.eqb_spec k' k) as [->|Ne].
  - rewrite dget_set_eq. now intros [= <-].
  - rewrite dget_set_ne by exact Ne. apply H.
Qed.
Lemma height_table s keys : forall j, height (length s) (table_from s j keys).
Proof.
  induction keys as [|a t IH]; intros j k c; cbn; [discriminate|]. destruct (String.eqb k a); [intros [= <-]; apply map_length|apply IH].
Qed.

Lemma add_fixed_spec n p : NoDup (dkeys p) -> forall f,
  (forall k, ~ In k (fixed_keys p) -> dget (add_fixed n f p) k = dget f k) /\
  (forall k v, In (k, EDelta v) p \/ In (k, EFloat v) p -> dget (add_fixed n f p) k = Some (repeat (Some v) n)) /\
  ((forall k, In k (dkeys f) -> ~ In k (fixed_keys p)) -> dkeys (add_fixed n f p) = dkeys f ++ fixed_keys p) /\
  (height n f -> height n (add_fixed n f p)).
Proof.
  induction p as [|[a e] t IH]; intros N f.
  - cbn. repeat apply conj; auto. + intros k v [[]|[]]. + intros _. now rewrite app_nil_r.
  - apply NoDup_cons_iff in N as [N1 N2]. cbn [fst map] in N1.
    assert (Na : ~ In a (fixed_keys t)).
    { intros I. apply N1. unfold fixed_keys, dkeys in I |- *. apply in_map_iff in I as [kv [E I]]. apply filter_In in I as [I _]. apply in_map_iff. eauto. }
    assert (St : forall v, e = EDelta v \/ e = EFloat v -> add_fixed n f ((a, e) :: t) = add_fixed n (dset f a (repeat (Some v) n)) t /\ fixed_keys ((a, e) :: t) = a :: fixed_keys t).
    { intros v [->| ->]; split; reflexivity. }
    destruct (fixes e) eqn:Fe.
    + assert (Hv : exists v, e = EDelta v \/ e = EFloat v) by (destruct e; try discriminate; eauto).
      destruct Hv as [v Hv]. destruct (St v Hv) as [-> ->]. destruct (IH N2 (dset f a (repeat (Some v) n))) as (A & B & C & D).
      repeat apply conj.
      * intros k Nk. rewrite A by (intros I; apply Nk; now right). apply dget_set_ne. intros ->. apply Nk; now left.
      * intros k w Hw. destruct (String.eqb_spec k a) as [->|Ne].
        -- rewrite A by exact Na. rewrite dget_set_eq.
           assert (Iv : forall e', In (a, e') ((a, e) :: t) -> e' = e).
           { intros e' [I|I]; [congruence|]. exfalso; apply N1. apply (in_map fst) in I. exact I. }
           destruct Hw as [Hw|Hw]; apply Iv in Hw; destruct Hv as [Hv|Hv]; rewrite Hv in Hw; try discriminate Hw; injection Hw as ->; reflexivity.
        -- apply B. destruct Hw as [[Hw|Hw]|[Hw|Hw]]; try congruence; auto.
      * intros Hd. rewrite C.
        -- rewrite dkeys_set. replace (dmem f a) with false. { now rewrite <- app_assoc. }
           symmetry. apply not_true_is_false. rewrite dmem_in. intros I. apply (Hd a I). now left.
        -- intros k I. apply dkeys_set_in in I as [->|I]; [exact Na|]. intros J. apply (Hd k I). now right.
      * intros Hh. apply D. apply height_set; [apply repeat_length|exact Hh].
    + assert (Ea : add_fixed n f ((a, e) :: t) = add_fixed n f t /\ fixed_keys ((a, e) :: t) = fixed_keys t).
      { destruct e; try discriminate; split; reflexivity. }
      destruct Ea as [-> ->]. destruct (IH N2 f) as (A & B & C & D). repeat apply conj; auto.
      intros k v [[Hw|Hw]|[Hw|Hw]]; try (apply B; auto; fail); injection Hw as -> ->; discriminate.
Qed.

Lemma set_column_get n f name v f' : set_column n f name v = Some f' ->
  (forall k, k <> name -> dget f' k = dget f k) /\
  (forall i, i < n -> cell f' name i = Some (match v with Some l => nth_error l i | None => None end)) /\
  (~ In name (dkeys f) -> dkeys f' = dkeys f ++ [name]) /\ (height n f -> height n f').
Proof.
  unfold set_column. intros H. assert (H' : exists c, f' = dset f name c /\ length c = n /\ forall i, i < n -> nth_error c i = Some (match v with Some l => nth_error l i | None => None end)).
  { destruct v as [l|].
    - destruct (Nat.eqb_spec (length l) n) as [L|]; [|discriminate]. injection H as <-. eexists. split; [reflexivity|]. split; [now rewrite map_length|].
      intros i Hi. rewrite nth_error_map. destruct (nth_error l i) eqn:E; [reflexivity|]. apply nth_error_None in E. lia.
    - injection H as <-. eexists. split; [reflexivity|]. split; [apply repeat_length|]. intros i Hi. now rewrite nth_error_repeat. }
  destruct H' as (c & -> & L & G). repeat apply conj.
  - intros k Nk. now apply dget_set_ne.
  - intros i Hi. unfold cell. rewrite dget_set_eq. now apply G.
  - intros Nn. rewrite dkeys_set. replace (dmem f name) with false; [reflexivity|]. symmetry. apply not_true_is_false. now rewrite dmem_in.
  - now apply height_set.
Qed.

Section MakeProps.
Variable lnp : dict R -> R.

(** The table has one row for each sample. In the row of a sample the search parameters have that sample's
    values, the parameters fixed by the priors their fixed values, and the two last columns its log likelihood
    and its log prior, the one recorded or the one the priors give it. *)
Theorem C180_rows : forall samples keys logl logp priors,
  NoDup keys -> (forall row, In row samples -> length row = length keys) ->
  NoDup (dkeys priors) ->
  (forall k, In k keys -> ~ In k (fixed_keys priors)) ->
  (forall k, In k (keys ++ fixed_keys priors) -> k <> "log_likelihood"%string /\ k <> "log_prior"%string) ->
  (forall l, logl = Some l -> length l = length samples) -> (forall l, logp = Some l -> length l = length samples) ->
  exists f, samples_to_posterior lnp samples keys logl logp (Some priors) = Some f /\
    dkeys f = keys ++ fixed_keys priors ++ ["log_likelihood"; "log_prior"]%string /\
    (forall k c, dget f k = Some c -> length c = length samples) /\
    forall i row, nth_error samples i = Some row ->
      (forall j k, nth_error keys j = Some k -> cell f k i = Some (nth_error row j)) /\
      (forall k v, In (k, EDelta v) priors \/ In (k, EFloat v) priors -> cell f k i = Some (Some v)) /\
      cell f "log_likelihood" i = Some (match logl with Some l => nth_error l i | None => None end) /\
      cell f "log_prior" i = Some (match logp with Some l => nth_error l i | None => Some (lnp (combine keys row)) end).
Proof.
  intros s keys ll lp priors Nk Hr Np Hd Hn Hl Hp.
  assert (Df : data_frame s keys = Some (table_from s 0 keys)).
  { unfold data_frame. replace (forallb _ s) with true; [reflexivity|]. symmetry. apply forallb_forall. intros row I. apply Nat.eqb_eq. now apply Hr. }
  set (n := length s) in *. destruct (add_fixed_spec n priors Np (table_from s 0 keys)) as (A & B & C & D).
  set (f1 := add_fixed n (table_from s 0 keys) priors) in *.
  rewrite table_keys in C. specialize (C Hd). specialize (D (height_table s keys 0)).
  assert (S2 : exists f2, set_column n f1 "log_likelihood" ll = Some f2).
  { unfold set_column. destruct ll as [l|]; [|eauto]. rewrite (Hl l eq_refl), Nat.eqb_refl. eauto. }
  destruct S2 as [f2 E2]. destruct (set_column_get _ _ _ _ _ E2) as (A2 & B2 & C2 & D2).
  set (lp' := match lp with Some l => Some l | None => Some (map (fun row => lnp (zip_row keys row)) s) end).
  assert (S3 : exists f3, set_column n f2 "log_prior" lp' = Some f3).
  { unfold set_column, lp'. destruct lp as [l|].
    - rewrite (Hp l eq_refl), Nat.eqb_refl. eauto.
    - rewrite map_length. fold n. rewrite Nat.eqb_refl. eauto. }
  destruct S3 as [f3 E3]. destruct (set_column_get _ _ _ _ _ E3) as (A3 & B3 & C3 & D3).
  assert (Hn' : forall k, In k (dkeys f1) -> k <> "log_likelihood"%string /\ k <> "log_prior"%string) by (rewrite C; exact Hn).
  assert (K2 : dkeys f2 = dkeys f1 ++ ["log_likelihood"%string]) by (apply C2; intros I; now destruct (Hn' _ I)).
  exists f3. split; [|split; [|split]].
  - unfold samples_to_posterior. rewrite Df. cbn [bindo]. fold n f1. rewrite E2. cbn [bindo]. rewrite <- E3. unfold lp'. now destruct lp.
  - rewrite C3, K2, C, <- !app_assoc; [reflexivity|]. rewrite K2. intros I. apply in_app_or in I as [I|[I|[]]]; [now destruct (Hn' _ I)|discriminate].
  - apply D3, D2, D.
  - intros i row Hi. assert (Li : i < n) by (apply nth_error_Some; unfold n; congruence).
    assert (Keep : forall k, In k (dkeys f1) -> dget f3 k = dget f1 k).
    { intros k I. destruct (Hn' k I). rewrite A3, A2; auto. }
    repeat apply conj.
    + intros j k Hk. assert (Ik : In k keys) by (eapply nth_error_In; eauto). unfold cell. rewrite Keep by (rewrite C; apply in_or_app; auto).
      rewrite A by (apply Hd, Ik). rewrite (table_get s keys Nk 0 j k Hk). rewrite nth_error_map, Hi. reflexivity.
    + intros k v Hv. unfold cell. rewrite Keep, (B k v Hv).
      * now rewrite nth_error_repeat.
      * rewrite C. apply in_or_app; right. unfold fixed_keys, dkeys. destruct Hv as [Hv|Hv]; apply in_map_iff; eexists; (split; [|apply filter_In; split; [exact Hv|reflexivity]]); reflexivity.
    + unfold cell. rewrite A3 by discriminate. exact (B2 i Li).
    + rewrite (B3 i Li). unfold lp'. destruct lp as [l|]; [reflexivity|]. rewrite nth_error_map, Hi. reflexivity.
Qed.

(** Without priors nothing is added but the two last columns. *)
Theorem C180_no_priors : forall samples keys l p, NoDup keys -> (forall row, In row samples -> length row = length keys) ->
  ~ In "log_likelihood"%string keys -> ~ In "log_prior"%string keys ->
  length l = length samples -> length p = length samples ->
  exists f, samples_to_posterior lnp samples keys (Some l) (Some p) None = Some f /\
    dkeys f = keys ++ ["log_likelihood"; "log_prior"]%string /\
    forall i row, nth_error samples i = Some row ->
      (forall j k, nth_error keys j = Some k -> cell f k i = Some (nth_error row j)) /\
      cell f "log_likelihood" i = Some (nth_error l i) /\ cell f "log_prior" i = Some (nth_error p i).
Proof.
  intros s keys l p Nk Hr H1 H2 Ll Lp.
  destruct (C180_rows s keys (Some l) (Some p) [] Nk Hr) as (f & E & K & _ & G).
  - constructor.
  - cbn; auto.
  - cbn. rewrite app_nil_r. intros k I. split; intros ->; contradiction.
  - now intros ? [= <-].
  - now intros ? [= <-].
  - exists f. split; [exact E|]. split; [exact K|]. intros i row Hi. destruct (G i row Hi) as (a & _ & b & c). auto.
Qed.

(** A table is made only from rows as long as the list of keys, and from as many recorded values as rows. *)
Theorem C180_refused : forall samples keys logl logp priors row, In row samples -> length row <> length keys ->
  samples_to_posterior lnp samples keys logl logp priors = None.
Proof.
  intros s keys ll lp priors row I L. unfold samples_to_posterior, data_frame. replace (forallb _ s) with false; [reflexivity|].
  symmetry. apply not_true_is_false. intros H. rewrite forallb_forall in H. specialize (H row I). apply Nat.eqb_eq in H. contradiction.
Qed.
Theorem C180_refused_lengths : forall samples keys l logp priors, length l <> length samples ->
  samples_to_posterior lnp samples keys (Some l) logp priors = None /\ samples_to_posterior lnp samples keys logp (Some l) priors = None.
Proof.
  intros s keys l lp priors L. unfold samples_to_posterior. destruct (data_frame s keys); cbn [bindo]; [|auto].
  assert (Q : forall f name, set_column (length s) f name (Some l) = None) by (intros; unfold set_column; apply Nat.eqb_neq in L; now rewrite L).
  rewrite Q. split; [reflexivity|]. destruct (set_column _ _ _ lp); cbn [bindo]; [|reflexivity]. apply Q.
Qed.
(** A delta-function prior that depends on another parameter leaves no column; a search parameter which the
    priors fix loses its samples. *)
Theorem C180_overwritten : forall samples k v logl logp f i,
  (forall row, In row samples -> length row = 1) -> k <> "log_likelihood"%string -> k <> "log_prior"%string -> i < length samples ->
  samples_to_posterior lnp samples [k] logl logp (Some [(k, EDelta v)]) = Some f -> cell f k i = Some (Some v).
Proof.
  intros s k v ll lp f i Hr N1 N2 Li. unfold samples_to_posterior. destruct (data_frame s [k]) as [f0|] eqn:E0; cbn [bindo]; [|discriminate].
  destruct (set_column _ _ "log_likelihood" ll) as [f2|] eqn:E2; cbn [bindo]; [|discriminate].
  destruct (set_column_get _ _ _ _ _ E2) as (A2 & _).
  assert (Q : forall q, set_column (length s) f2 "log_prior" q = Some f -> cell f k i = Some (Some v)).
  { intros q E3. destruct (set_column_get _ _ _ _ _ E3) as (A3 & _). unfold cell. rewrite A3, A2 by assumption. cbn [add_fixed].
    rewrite dget_set_eq. now rewrite nth_error_repeat. }
  destruct lp; apply Q.
Qed.
End MakeProps.
Example C180_ex :
  samples_to_posterior (fun d => 7%R) [[1%R; 2%R]; [3%R; 4%R]] ["m"; "q"]%string (Some [5%R; 6%R]) None
    (Some [("m", EPrior); ("q", EPrior); ("z", EDelta 9%R); ("w", ECondDelta)]%string) =
  Some [("m", [Some 1%R; Some 3%R]); ("q", [Some 2%R; Some 4%R]); ("z", [Some 9%R; Some 9%R]);
        ("log_likelihood", [Some 5%R; Some 6%R]); ("log_prior", [Some 7%R; Some 7%R])]%string.
Proof. reflexivity. Qed.

(** ** C181 *)
Section WeightProps.
Variables old new : dict (R -> R).
Variable constraints : dict R -> R.
(** The ratio of the new prior of a parameter to the old one. *)
Definition ratio (k : string) (v : R) : R :=
  match dget new k, dget old k with Some fn, Some fo => (fn v / fo v)%R | _, _ => 0%R end.
Definition product (l : list R) : R := fold_right Rmult 1%R l.
(** the values of the shared parameters in a row *)
Definition picked (keys : list string) (row : dict R) : dict R := map (fun k => (k, match dget row k with Some v => v | None => 0%R end)) keys.
Definition value (row : dict R) (k : string) : R := match dget row k with Some v => v | None => 0%R end.
(** A row that can be weighted: it has all shared parameters, where the old priors do not vanish. *)
Definition usable (keys : list string) (row : dict R) : Prop :=
  forall k, In k keys -> exists v fo, dget row k = Some v /\ dget old k = Some fo /\ fo v <> 0%R.

Lemma row_values_spec p i row keys : find (fun r => Nat.eqb (fst r) i) p = Some (i, row) ->
  (forall k, In k keys -> exists v, dget row k = Some v) -> row_values p i keys = Some (picked keys row).
Proof.
  intros F. induction keys as [|k t IH]; intros H; [reflexivity|]. cbn [row_values]. unfold by_label at 1. rewrite F. cbn [snd].
  destruct (H k (or_introl eq_refl)) as [v Hv]. rewrite Hv. cbn [bindo]. rewrite IH by (intros; apply H; now right). cbn. now rewrite Hv.
Qed.
Lemma weight_loop_spec p i row params keys : find (fun r => Nat.eqb (fst r) i) p = Some (i, row) -> usable keys row ->
  (forall k, In k keys -> In k (dkeys new)) -> forall w,
  weight_loop old new constraints p i params keys w =
    Some (w * (constraints params ^ length keys * product (map (fun k => ratio k (value row k)) keys)))%R.
Proof.
  intros F. induction keys as [|k t IH]; intros U N w; cbn [weight_loop].
  - f_equal. cbn. ring.
  - unfold by_label. rewrite F. cbn [snd]. destruct (U k (or_introl eq_refl)) as (v & fo & Hv & Ho & Nz). rewrite Hv. cbn [bindo].
    assert (Nk : dmem new k = true) by (apply dmem_in, N; now left). unfold dmem in Nk. destruct (dget new k) as [fn|] eqn:En; [|discriminate].
    rewrite Ho. rewrite pdiv_some by exact Nz. cbn [bindo]. rewrite IH by (intros k' I; (apply U || apply N); now right).
    f_equal. cbn [map product fold_right length pow]. replace (ratio k (value row k)) with (fn v / fo v)%R by (unfold ratio, value; now rewrite En, Ho, Hv). unfold product. ring.
Qed.
Lemma all_weights_spec p keys is rows : (forall k, In k keys -> In k (dkeys new)) ->
  length is = length rows ->
  (forall j i row, nth_error is j = Some i -> nth_error rows j = Some row -> find (fun r => Nat.eqb (fst r) i) p = Some (i, row) /\ usable keys row) ->
  all_weights old new constraints p keys is =
    Some (map (fun row => (constraints (picked keys row) ^ length keys * product (map (fun k => ratio k (value row k)) keys))%R) rows).
Proof.
  intros N. revert rows. induction is as [|i is IH]; intros [|row rows] L H; try discriminate; [reflexivity|].
  destruct (H 0 i row eq_refl eq_refl) as [F U]. cbn [all_weights].
  rewrite (row_values_spec p i row keys F) by (intros k I; destruct (U k I) as (v & _ & Hv & _); eauto). cbn [bindo].
  rewrite (weight_loop_spec p i row _ keys F U N). cbn [bindo].
  rewrite (IH rows) by (try (cbn in L; lia); intros j i' row' H1 H2; exact (H (S j) i' row' H1 H2)). cbn [bindo map]. do 2 f_equal. ring.
Qed.
Lemma shared_in names k : In k (shared old new names) <-> In k (dkeys new) /\ In k (dkeys old) /\ (forall l, names = Some l -> In k l).
Proof.
  unfold shared. rewrite filter_In, andb_true_iff, dmem_in.
  assert (Q : match names with Some l => existsb (String.eqb k) l | None => true end = true <-> forall l, names = Some l -> In k l).
  { destruct names as [l|].
    - rewrite existsb_exists. split.
      + intros (x & I & E) l' [= <-]. apply String.eqb_eq in E. now subst x.
      + intros H. exists k. split; [now apply H|apply String.eqb_refl].
    - split; [discriminate|reflexivity]. }
  rewrite Q. tauto.
Qed.

Lemma find_label (rows : list (dict R)) : forall n j row, nth_error rows j = Some row ->
  find (fun r => Nat.eqb (fst r) (n + j)) (combine (seq n (length rows)) rows) = Some (n + j, row).
Proof.
  induction rows as [|r rows IH]; intros n j row; [destruct j; discriminate|]. destruct j as [|j]; cbn.
  - intros [= ->]. now rewrite Nat.add_0_r, Nat.eqb_refl.
  - intros H. destruct (Nat.eqb_spec n (n + S j)) as [E|_]; [lia|]. rewrite <- plus_n_Sm. apply (IH (S n) j row H).
Qed.

(** With rows numbered in their order, each sample's weight is the product over the parameters which both
    dictionaries have (and which are listed, if a list is given) of the ratio of the new prior to the old one,
    and zero if the new constraints are broken. *)
Theorem C181_weight : forall rows names, 
  let keys := shared old new names in
  (forall k, In k keys <-> In k (dkeys new) /\ In k (dkeys old) /\ (forall l, names = Some l -> In k l)) /\
  ((forall row, In row rows -> usable keys row) -> (forall d, constraints d = 0%R \/ constraints d = 1%R) -> keys <> [] ->
   weights_by_new_prior old new constraints (combine (seq 0 (length rows)) rows) names =
     Some (map (fun row => (constraints (picked keys row) * product (map (fun k => ratio k (value row k)) keys))%R) rows)).
Proof.
  intros rows names keys. split; [intros k; apply shared_in|]. intros U Cz Nn. unfold weights_by_new_prior. fold keys.
  rewrite combine_length, seq_length, Nat.min_id.
  rewrite (all_weights_spec _ keys _ rows).
  - f_equal. apply map_ext. intros row. f_equal. destruct keys as [|k t]; [congruence|]. cbn [length].
    destruct (Cz (picked (k :: t) row)) as [->| ->]; [cbn; ring|now rewrite pow1].
  - intros k I. now apply shared_in in I.
  - apply seq_length.
  - intros j i row Hi Hr. assert (Lj : j < length rows) by (apply nth_error_Some; congruence).
    assert (i = j). { rewrite (nth_error_nth' _ 0) in Hi by (rewrite seq_length; exact Lj). rewrite seq_nth in Hi by exact Lj. injection Hi as <-. reflexivity. }
    subst i. split; [exact (find_label rows 0 j row Hr)|]. apply U. eapply nth_error_In; eauto.
Qed.

(** With no shared parameter every weight is one, whatever the new constraints say. *)
Theorem C181_nothing_shared : forall p names, shared old new names = [] ->
  weights_by_new_prior old new constraints p names = Some (repeat 1%R (length p)).
Proof.
  intros p names E. unfold weights_by_new_prior. rewrite E. generalize 0. induction (length p) as [|n IH]; intros s; [reflexivity|].
  cbn [seq all_weights row_values weight_loop bindo]. rewrite IH. reflexivity.
Qed.

(** In general weight [i] is that of the row labelled [i]: the weights of a table whose rows have been put into
    another order come out in the order of the labels, not of the rows. *)
Theorem C181_by_label : forall p names rows, let keys := shared old new names in
  length rows = length p ->
  (forall i row, nth_error rows i = Some row -> find (fun r => Nat.eqb (fst r) i) p = Some (i, row)) ->
  (forall row, In row rows -> usable keys row) -> (forall d, constraints d = 1%R) ->
  weights_by_new_prior old new constraints p names = Some (map (fun row => product (map (fun k => ratio k (value row k)) keys)) rows).
Proof.
  intros p names rows keys L F U Cz. unfold weights_by_new_prior. fold keys. rewrite (all_weights_spec _ keys _ rows).
  - f_equal. apply map_ext. intros row. rewrite Cz, pow1. ring.
  - intros k I. now apply shared_in in I.
  - now rewrite seq_length.
  - intros j i row Hi Hr. assert (Lj : j < length p) by (rewrite <- L; apply nth_error_Some; congruence).
    assert (i = j). { rewrite (nth_error_nth' _ 0) in Hi by (rewrite seq_length; exact Lj). rewrite seq_nth in Hi by exact Lj. injection Hi as <-. reflexivity. }
    subst i. split; [now apply F|]. apply U. eapply nth_error_In; eauto.
Qed.
(** A table from which rows have been removed, so that a label below the number of rows is missing, is
    refused. *)
Theorem C181_missing_label : forall p names i, i < length p -> (forall r, In r p -> fst r <> i) -> shared old new names <> [] ->
  weights_by_new_prior old new constraints p names = None.
Proof.
  intros p names i Hi Hm Hk. unfold weights_by_new_prior. set (keys := shared old new names) in *.
  assert (B : forall k, by_label p k i = None).
  { intros k. unfold by_label. destruct (find _ p) as [r|] eqn:E; [|reflexivity]. apply find_some in E as [I E]. apply Nat.eqb_eq in E. now destruct (Hm r I). }
  assert (A : forall is, In i is -> all_weights old new constraints p keys is = None).
  { induction is as [|a is IH]; [easy|]. intros [->|I]; cbn [all_weights].
    - destruct keys as [|k t]; [congruence|]. cbn [row_values]. now rewrite B.
    - destruct (row_values p a keys); cbn [bindo]; [|reflexivity]. destruct (weight_loop _ _ _ _ _ _ _ _); cbn [bindo]; [|reflexivity]. now rewrite (IH I). }
  apply A. apply in_seq. lia.
Qed.
End WeightProps.

Lemma product_one {A} (f : A -> R) l : (forall x, In x l -> f x = 1%R) -> product (map f l) = 1%R.
Proof. induction l as [|x l IH]; intros H; [reflexivity|]. cbn. unfold product in IH. rewrite (H x (or_introl eq_refl)), IH by (intros; apply H; now right). ring. Qed.
(** Going to the same priors changes nothing. *)
Theorem C181_same : forall old rows names, (forall row, In row rows -> usable old (shared old old names) row) ->
  weights_by_new_prior old old (fun _ => 1%R) (combine (seq 0 (length rows)) rows) names = Some (repeat 1%R (length rows)).
Proof.
  intros old rows names U. rewrite (C181_by_label old old (fun _ => 1%R) _ names rows).
  - f_equal. rewrite <- (map_length (fun _ => 1%R) rows). 
    assert (E : map (fun row => product (map (fun k => ratio old old k (value row k)) (shared old old names))) rows = map (fun _ => 1%R) rows).
    { apply map_ext_in. intros row I. apply product_one. intros k Ik. destruct (U row I k Ik) as (v & fo & Hv & Ho & Nz). unfold ratio, value. rewrite Ho, Hv. field. exact Nz. }
    rewrite E. clear. induction rows; [reflexivity|]. cbn. now f_equal.
  - now rewrite combine_length, seq_length, Nat.min_id.
  - intros i row H. exact (find_label rows 0 i row H).
  - exact U.
  - reflexivity.
Qed.
(** Going from one set of priors to another and then to a third multiplies the weights. *)
Theorem C181_compose : forall a b c rows, dkeys a = dkeys b -> dkeys b = dkeys c -> 
  (forall row, In row rows -> usable a (dkeys a) row /\ usable b (dkeys a) row) ->
  exists w1 w2 w3, weights_by_new_prior a b (fun _ => 1%R) (combine (seq 0 (length rows)) rows) None = Some w1 /\
    weights_by_new_prior b c (fun _ => 1%R) (combine (seq 0 (length rows)) rows) None = Some w2 /\
    weights_by_new_prior a c (fun _ => 1%R) (combine (seq 0 (length rows)) rows) None = Some w3 /\
    length w3 = length rows /\ w3 = map (fun xy => (fst xy * snd xy)%R) (combine w1 w2).
Proof.
  intros a b c rows E1 E2 U.
  assert (Sh : forall o n, dkeys o = dkeys n -> shared o n None = dkeys n).
  { intros o n E. unfold shared. rewrite <- E. 
    assert (G : forall l, (forall k, In k l -> In k (dkeys o)) -> filter (fun k => dmem o k && true) l = l).
    { induction l as [|k l IH]; intros H; [reflexivity|]. cbn. replace (dmem o k) with true by (symmetry; apply dmem_in, H; now left). cbn. f_equal. apply IH. intros; apply H; now right. }
    apply G. auto. }
  assert (W : forall o n, dkeys o = dkeys n -> (forall row, In row rows -> usable o (dkeys n) row) ->
    weights_by_new_prior o n (fun _ => 1%R) (combine (seq 0 (length rows)) rows) None = Some (map (fun row => product (map (fun k => ratio o n k (value row k)) (dkeys n))) rows)).
  { intros o n E Uo. rewrite (C181_by_label o n (fun _ => 1%R) _ None rows).
    - now rewrite (Sh o n E).
    - now rewrite combine_length, seq_length, Nat.min_id.
    - intros i row H. exact (find_label rows 0 i row H).
    - rewrite (Sh o n E). exact Uo.
    - reflexivity. }
  do 3 eexists. split; [apply W; [exact E1|]|]. { rewrite <- E1. intros row I. now apply U. }
  split; [apply W; [exact E2|]|]. { rewrite <- E2, <- E1. intros row I. now apply U. }
  split; [apply W; [congruence|]|]. { rewrite <- E2, <- E1. intros row I. now apply U. }
  split; [apply map_length|].
  rewrite <- E2, <- E1. 
  assert (G : forall l, (forall row, In row l -> usable a (dkeys a) row /\ usable b (dkeys a) row) ->
    map (fun row => product (map (fun k => ratio a c k (value row k)) (dkeys a))) l =
    map (fun xy => (fst xy * snd xy)%R) (combine (map (fun row => product (map (fun k => ratio a b k (value row k)) (dkeys a))) l) (map (fun row => product (map (fun k => ratio b c k (value row k)) (dkeys a))) l))).
  { induction l as [|row l IH]; intros H; [reflexivity|]. cbn [map combine fst snd]. rewrite IH by (intros; apply H; now right). f_equal.
    destruct (H row (or_introl eq_refl)) as [Ua Ub].
    assert (Q : forall ks, (forall k, In k ks -> In k (dkeys a)) -> product (map (fun k => ratio a c k (value row k)) ks) =
       (product (map (fun k => ratio a b k (value row k)) ks) * product (map (fun k => ratio b c k (value row k)) ks))%R).
    { induction ks as [|k ks IHk]; intros Hk; [cbn; ring|]. cbn [map product fold_right]. unfold product in IHk. rewrite IHk by (intros; apply Hk; now right).
      destruct (Ua k (Hk k (or_introl eq_refl))) as (v & fa & Hv & Ha & Na). destruct (Ub k (Hk k (or_introl eq_refl))) as (v' & fb & Hv' & Hb & Nb).
      rewrite Hv in Hv'. injection Hv' as <-. destruct (dget c k) as [fc|] eqn:Ec.
      - replace (ratio a c k (value row k)) with (fc v / fa v)%R by (unfold ratio, value; now rewrite Ha, Ec, Hv).
        replace (ratio a b k (value row k)) with (fb v / fa v)%R by (unfold ratio, value; now rewrite Ha, Hb, Hv).
        replace (ratio b c k (value row k)) with (fc v / fb v)%R by (unfold ratio, value; now rewrite Hb, Ec, Hv).
        field. split; assumption.
      - exfalso. apply dget_none in Ec. apply Ec. rewrite <- E2, <- E1. apply Hk; now left. }
    apply Q. auto. }
  apply G. exact U.
Qed.
Example C181_ex : exists w, weights_by_new_prior [("x", fun _ => 2%R); ("y", fun _ => 5%R)]%string [("x", fun v => v)]%string (fun _ => 1%R)
    [(1, [("x", 8%R)]%string); (0, [("x", 6%R)]%string)] None = Some w /\ w = [3%R; 4%R].
Proof.
  eexists. split.
  - refine (C181_by_label _ _ (fun _ => 1%R) [(1, [("x", 8%R)]%string); (0, [("x", 6%R)]%string)] None [[("x", 6%R)]%string; [("x", 8%R)]%string] eq_refl _ _ _).
    + intros [|[|i]] row; cbn; try (now intros [= <-]). destruct i; discriminate.
    + intros row [<-|[<-|[]]] k [<-|[]]; cbn; do 2 eexists; (split; [reflexivity|]); (split; [reflexivity|]); lra.
    + reflexivity.
  - cbn. unfold ratio, value; cbn. f_equal; [|f_equal]; unfold ratio, value; cbn; lra.
Qed.

(** ** Assumptions of every theorem above *)
Definition Post_Props_all :=
  (@C180_rows,
   @C180_no_priors,
   @C180_refused,
   @C180_refused_lengths,
   @C180_overwritten,
   @C181_weight,
   @C181_nothing_shared,
   @C181_by_label,
   @C181_missing_label,
   @C181_same,
   @C181_compose).
Print Assumptions Post_Props_all.
