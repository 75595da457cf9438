(** C219: settings, saved weights and buffers of the multi-banded likelihood. *)
From Coq Require Import String Reals List Bool Arith Permutation Sorted Lra Lia DecimalString DecimalNat.
From Verif Require Import PyDict MbSave_Model.
Import ListNotations.
Open Scope string_scope.
Open Scope list_scope.
Open Scope R_scope.

(** ** Saving and restoring *)
Section Weights.
Context {A : Type}.
Variable fmax : R -> R -> R.
Notation value := (value A).
Notation obj := (obj A).
Notation load_one := (@load_one A fmax).
Notation load_all := (@load_all A fmax).
Notation setup_from_weights := (@setup_from_weights A fmax).

Definition saved_keys (lin : bool) : list string :=
  ["reference_chirp_mass"; "highest_mode"; "linear_interpolation"; "accuracy_factor"; "time_offset"; "delta_f_end";
   "maximum_banding_frequency"; "minimum_banding_duration"; "durations"; "fb_dfb"; "Nbs"; "Mbs"; "Ks_Ke"; "banded_frequency_points";
   "start_end_idxs"; "unique_to_original_frequencies"; "linear_coeffs"; "waveform_frequencies"] ++
  (if lin then ["quadratic_coeffs"] else ["Tbhats"; "windows"; "square_root_windows"; "wths"; "hbcs"; "Ibcs"]).
(** a likelihood which has been set up: every attribute is there, numbers are numbers and
    the maximum banding frequency is below its limit, as its setter ensures *)
Record complete (o : obj) (lin : bool) : Prop := {
  c_all : forall k, In k (saved_keys lin) -> exists v, dget o (attr k) = Some v;
  c_lin : dget o "linear_interpolation" = Some (VBool lin);
  c_num : forall k, In k ["reference_chirp_mass"; "highest_mode"; "accuracy_factor"; "time_offset"; "delta_f_end";
                          "maximum_banding_frequency"; "minimum_banding_duration"] -> exists x, dget o k = Some (VNum x);
  c_max : forall m c x, dget o "highest_mode" = Some (VNum m) -> dget o "reference_chirp_mass" = Some (VNum c) ->
          dget o "maximum_banding_frequency" = Some (VNum x) -> x <= fmax m c;
  c_band : lin = false -> forall k, In k ["wths"; "hbcs"; "Ibcs"] -> exists d, dget o k = Some (VByBand d) }.

Lemma str_inj i j : str i = str j -> i = j.
Proof.
  unfold str. intro H. assert (E : Nat.to_uint i = Nat.to_uint j).
  { assert (S : NilEmpty.uint_of_string (NilEmpty.string_of_uint (Nat.to_uint i)) = NilEmpty.uint_of_string (NilEmpty.string_of_uint (Nat.to_uint j))) by now rewrite H.
    rewrite !NilEmpty.usu in S. now injection S. }
  now apply Unsigned.to_uint_inj.
Qed.
Lemma enumerate_from (l : list A) : forall a pre, (forall i, (a <= i)%nat -> dget pre (str i) = None) ->
  gather (pre ++ combine (map str (seq a (length l))) l) (seq a (length l)) = Ok l.
Proof.
  induction l as [|x l IH]; intros a pre H; [reflexivity|]. cbn [length seq map combine gather].
  assert (G : forall (p q : dict A) k, dget p k = None -> dget (p ++ q) k = dget q k).
  { induction p as [|[k' v'] p IHp]; intros q k; cbn; [reflexivity|]. destruct (String.eqb k k'); [discriminate | apply IHp]. }
  rewrite G by (apply H; lia). cbn. rewrite String.eqb_refl.
  replace (pre ++ (str a, x) :: combine (map str (seq (S a) (length l))) l) with ((pre ++ [(str a, x)]) ++ combine (map str (seq (S a) (length l))) l)
    by (rewrite <- app_assoc; reflexivity).
  rewrite IH; [reflexivity|]. intros i Hi. rewrite G by (apply H; lia). cbn. destruct (String.eqb_spec (str i) (str a)) as [E|]; [apply str_inj in E; lia | reflexivity].
Qed.
Lemma gather_enumerate (l : list A) : gather (enumerate l) (seq 0 (length (enumerate l))) = Ok l.
Proof.
  assert (L : length (enumerate l) = length l) by (unfold enumerate; rewrite combine_length, map_length, seq_length; lia).
  rewrite L. exact (enumerate_from l 0 [] (fun _ _ => eq_refl)).
Qed.
Lemma gather_saved (d : dict (list A)) : gather_all (dmap enumerate d) = Ok d.
Proof.
  induction d as [|[i l] d IH]; [reflexivity|]. cbn [dmap map fst snd gather_all]. rewrite gather_enumerate.
  change (map (fun kv => (fst kv, enumerate (snd kv))) d) with (dmap (@enumerate A) d). rewrite IH. reflexivity.
Qed.
Lemma collect_ok (o : obj) keys : (forall k, In k keys -> exists v, dget o (attr k) = Some v) ->
  exists w, collect o keys = Ok w /\ dkeys w = keys /\ forall k v, In (k, v) w -> exists v0, dget o (attr k) = Some v0 /\ v = save_value k v0.
Proof.
  induction keys as [|k keys IH]; intro H; [exists []; cbn; repeat split; contradiction|].
  destruct (H k (or_introl eq_refl)) as [v Hv]. destruct IH as (w & E & D & F); [intros; apply H; right; assumption|].
  cbn [collect]. rewrite Hv, E. exists ((k, save_value k v) :: w). split; [reflexivity|]. split; [cbn; f_equal; exact D|].
  intros k' v' [X | X]; [injection X as <- <-; exists v; auto | apply F; exact X].
Qed.
Definition good (o s : obj) (k : string) : Prop := dget s (attr k) = dget o (attr k).
Lemma good_set o s k k' v : dget o (attr k') = Some v -> good o s k -> good o (dset s (attr k') v) k.
Proof.
  intros E G. unfold good in *. destruct (string_dec (attr k) (attr k')) as [-> | N]; [rewrite dget_set_eq; congruence | rewrite dget_set_ne by assumption; exact G].
Qed.
Lemma good_here o s k v : dget o (attr k) = Some v -> good o (dset s (attr k) v) k.
Proof. intro E. unfold good. rewrite dget_set_eq. congruence. Qed.

Lemma load_one_good o lin s k v0 : complete o lin -> In k (saved_keys lin) -> dget o (attr k) = Some v0 ->
  (k = "maximum_banding_frequency" -> good o s "highest_mode" /\ good o s "reference_chirp_mass") ->
  load_one s (k, save_value k v0) = Ok (dset s (attr k) v0).
Proof.
  intros C I E M. pose proof (c_num _ _ C) as Nu. pose proof (c_band _ _ C) as Ba.
  assert (Sv : has k by_band = false -> save_value k v0 = v0) by (intro H; unfold save_value; rewrite H; destruct v0; reflexivity).
  assert (Num : forall k', In k' ["reference_chirp_mass"; "highest_mode"; "accuracy_factor"; "time_offset"; "delta_f_end";
                          "maximum_banding_frequency"; "minimum_banding_duration"] -> dget o k' = Some v0 -> exists x, v0 = VNum x).
  { intros k' H1 H2. destruct (Nu k' H1) as [x Hx]. exists x. congruence. }
  destruct (string_dec k "maximum_banding_frequency") as [-> | Nm].
  { destruct (M eq_refl) as [G1 G2]. unfold good in G1, G2. change (attr "maximum_banding_frequency") with "maximum_banding_frequency" in E.
    change (attr "highest_mode") with "highest_mode" in G1. change (attr "reference_chirp_mass") with "reference_chirp_mass" in G2.
    destruct (Nu "highest_mode" ltac:(cbn; tauto)) as [m Hm]. destruct (Nu "reference_chirp_mass" ltac:(cbn; tauto)) as [c Hc].
    destruct (Nu "maximum_banding_frequency" ltac:(cbn; tauto)) as [x Hx].
    assert (V : v0 = VNum x) by congruence. subst v0. pose proof (c_max _ _ C m c x Hm Hc Hx) as Le.
    rewrite Sv by reflexivity. unfold MbSave_Model.load_one. cbn [has by_band existsb String.eqb Ascii.eqb Bool.eqb orb].
    unfold set_attr. cbn [String.eqb Ascii.eqb Bool.eqb]. rewrite G1, G2, Hm, Hc.
    change (attr "maximum_banding_frequency") with "maximum_banding_frequency".
    destruct (Rlt_dec x (fmax m c)); [reflexivity|]. replace (fmax m c) with x by lra. reflexivity. }
  clear M. unfold saved_keys in I. cbn [app In] in I.
  repeat (destruct I as [<- | I];
    [ try (exfalso; apply Nm; reflexivity); rewrite Sv by reflexivity;
      first [ reflexivity
            | match type of E with dget _ (attr ?n) = _ => destruct (Num n ltac:(cbn; tauto) E) as [x ->] end; reflexivity
            | change (attr "linear_interpolation") with "linear_interpolation" in E; rewrite (c_lin _ _ C) in E; injection E as <-; reflexivity ] |]).
  destruct lin; cbn [In] in I.
  - destruct I as [<- | []]. rewrite Sv by reflexivity. reflexivity.
  - do 3 (destruct I as [<- | I]; [rewrite Sv by reflexivity; reflexivity|]).
    destruct I as [<- | [<- | [<- | []]]].
    + destruct (Ba eq_refl "wths" ltac:(cbn; tauto)) as [d Hd]. change (attr "wths") with "wths" in E. assert (v0 = VByBand d) by congruence. subst v0.
      unfold MbSave_Model.load_one, save_value. change (has "wths" by_band) with true. cbn iota. rewrite gather_saved. reflexivity.
    + destruct (Ba eq_refl "hbcs" ltac:(cbn; tauto)) as [d Hd]. change (attr "hbcs") with "hbcs" in E. assert (v0 = VByBand d) by congruence. subst v0.
      unfold MbSave_Model.load_one, save_value. change (has "hbcs" by_band) with true. cbn iota. rewrite gather_saved. reflexivity.
    + destruct (Ba eq_refl "Ibcs" ltac:(cbn; tauto)) as [d Hd]. change (attr "Ibcs") with "Ibcs" in E. assert (v0 = VByBand d) by congruence. subst v0.
      unfold MbSave_Model.load_one, save_value. change (has "Ibcs" by_band) with true. cbn iota. rewrite gather_saved. reflexivity.
Qed.

(** highest_mode is read before maximum_banding_frequency, whose setter needs it; true of the
    order of the dictionary and of the alphabetical order of a file *)
Definition mode_first (w : dict value) : Prop :=
  forall a v b, w = a ++ ("maximum_banding_frequency", v) :: b -> In "highest_mode" (dkeys a).
Lemma load_all_good o lin : complete o lin -> forall L s,
  (forall k v, In (k, v) L -> In k (saved_keys lin) /\ exists v0, dget o (attr k) = Some v0 /\ v = save_value k v0) ->
  good o s "reference_chirp_mass" ->
  (forall a v b, L = a ++ ("maximum_banding_frequency", v) :: b -> good o s "highest_mode" \/ In "highest_mode" (dkeys a)) ->
  exists s', load_all s L = Ok s' /\ forall k, good o s k \/ In k (dkeys L) -> good o s' k.
Proof.
  intros C. induction L as [|[k v] L IH]; intros s H G O.
  - exists s. split; [reflexivity|]. intros k [X | []]. exact X.
  - destruct (H k v (or_introl eq_refl)) as (Ik & v0 & E & ->).
    assert (O1 : load_one s (k, save_value k v0) = Ok (dset s (attr k) v0)).
    { apply (load_one_good o lin); try assumption. intros ->. split; [|exact G].
      destruct (O [] (save_value "maximum_banding_frequency" v0) L eq_refl) as [X | []]. exact X. }
    destruct (IH (dset s (attr k) v0)) as (s' & A1 & A2).
    + intros k' v' X. apply H. right. exact X.
    + apply good_set; assumption.
    + intros a u b Eq. destruct (O ((k, save_value k v0) :: a) u b) as [X | X]; [rewrite Eq; reflexivity | left; apply good_set; assumption |].
      cbn in X. destruct X as [-> | X]; [left; apply good_here; exact E | right; exact X].
    + exists s'. split; [cbn [MbSave_Model.load_all]; rewrite O1; exact A1|]. intros k' [X | X].
      * apply A2. left. apply good_set; assumption.
      * cbn in X. destruct X as [-> | X]; [apply A2; left; apply good_here; exact E | apply A2; right; exact X].
Qed.
Lemma saved_nodup lin : NoDup (saved_keys lin).
Proof. destruct lin; unfold saved_keys; cbn [app]; repeat (constructor; [cbn; intuition discriminate|]); constructor. Qed.
Lemma in_del {V} (d : dict V) k k' v : In (k', v) (ddel d k) -> In (k', v) d.
Proof.
  induction d as [|[j u] d IH]; cbn; [tauto|]. destruct (String.eqb k j); cbn; [tauto|]. intros [X | X]; [left; exact X | right; auto].
Qed.
Lemma del_split (d : dict value) k a v b : wf d -> "maximum_banding_frequency" <> k -> ddel d k = a ++ ("maximum_banding_frequency", v) :: b ->
  exists a' b', d = a' ++ ("maximum_banding_frequency", v) :: b' /\ forall j, j <> k -> In j (dkeys a') -> In j (dkeys a).
Proof.
  revert a. induction d as [|[j u] d IH]; intros a W N E; [destruct a; discriminate|]. cbn in E. destruct (String.eqb_spec k j) as [-> | Nj].
  - exists ((j, u) :: a), b. split; [cbn; f_equal; exact E|]. intros i Hi X. cbn in X. destruct X as [-> | X]; [contradiction | exact X].
  - destruct a as [|[j' u'] a]; cbn in E.
    + injection E as -> -> E. exists [], d. split; [reflexivity|]. intros i _ [].
    + injection E as -> -> E. inversion W; subst. destruct (IH a) as (a' & b' & E1 & E2); try assumption.
      exists ((j', u') :: a'), b'. split; [cbn; f_equal; exact E1|]. intros i Hi X. cbn in X |- *. destruct X as [-> | X]; [left; reflexivity | right; apply E2; assumption].
Qed.
(** Weights saved and restored, from the dictionary or from a file which returns them in
    another order, give every attribute its old value, for either algorithm and any number of
    bands (keys '10', '11', ... included). *)
Theorem C219_restore o lin : complete o lin -> exists w, weights o = Ok w /\ dkeys w = saved_keys lin /\
  forall w' o0, Permutation w w' -> mode_first w' ->
  exists o', setup_from_weights o0 w' = Ok o' /\ forall k, In k (saved_keys lin) -> dget o' (attr k) = dget o (attr k).
Proof.
  intro C. destruct (collect_ok o (saved_keys lin) (c_all _ _ C)) as (w & E & D & F).
  exists w. split; [|split; [exact D|]].
  { unfold weights. rewrite (c_lin _ _ C). rewrite <- E. destruct lin; reflexivity. }
  intros w' o0 P MF.
  assert (W : wf w) by (unfold wf; rewrite D; apply saved_nodup).
  assert (W' : wf w') by (unfold wf, dkeys; apply (Permutation_NoDup (l := map fst w)); [apply Permutation_map, P | exact W]).
  assert (F' : forall k v, In (k, v) w' -> In k (saved_keys lin) /\ exists v0, dget o (attr k) = Some v0 /\ v = save_value k v0).
  { intros k v X. apply (Permutation_in _ (Permutation_sym P)) in X. split; [|apply F; exact X]. rewrite <- D. unfold dkeys. apply in_map_iff. exists (k, v). auto. }
  assert (K' : forall k, In k (saved_keys lin) -> In k (dkeys w')).
  { intros k X. rewrite <- D in X. unfold dkeys in *. apply (Permutation_in _ (Permutation_map fst P)). exact X. }
  destruct (c_num _ _ C "reference_chirp_mass" ltac:(cbn; tauto)) as [x Hx].
  assert (R : dget w' "reference_chirp_mass" = Some (VNum x)).
  { destruct (dget w' "reference_chirp_mass") as [v|] eqn:Ev.
    - apply dget_some_in in Ev. destruct (F' _ _ Ev) as (_ & v0 & X & ->). change (attr "reference_chirp_mass") with "reference_chirp_mass" in X.
      rewrite Hx in X. injection X as <-. reflexivity.
    - apply dget_none in Ev. exfalso. apply Ev, K'. cbn. tauto. }
  unfold MbSave_Model.setup_from_weights. rewrite R. change (set_attr fmax o0 "reference_chirp_mass" (VNum x)) with (Ok (dset o0 "reference_chirp_mass" (@VNum A x))).
  cbn iota beta.
  destruct (load_all_good o lin C (ddel w' "reference_chirp_mass") (dset o0 "reference_chirp_mass" (VNum x))) as (o' & A1 & A2).
  - intros k v X. apply in_del in X. apply F'. exact X.
  - exact (good_here o o0 "reference_chirp_mass" (VNum x) Hx).
  - intros a v b Eq. right. destruct (del_split w' "reference_chirp_mass" a v b W' ltac:(discriminate) Eq) as (a' & b' & E1 & E2).
    apply E2; [discriminate|]. apply (MF a' v b' E1).
  - exists o'. split; [exact A1|]. intros k Hk. destruct (string_dec k "reference_chirp_mass") as [-> | N].
    + apply A2. left. exact (good_here o o0 "reference_chirp_mass" (VNum x) Hx).
    + apply A2. right. apply dkeys_del_in; [exact W' | split; [exact N | apply K'; exact Hk]].
Qed.
(** The order the dictionary is made in is one of those. *)
Theorem C219_own_order o lin w : complete o lin -> weights o = Ok w -> mode_first w.
Proof.
  intros C E a v b ->. destruct (C219_restore o lin C) as (w & E1 & D & _). rewrite E in E1. injection E1 as <-.
  unfold dkeys in D. rewrite map_app in D. cbn [map fst] in D.
  destruct (in_dec string_dec "highest_mode" (dkeys a)) as [I|N]; [exact I|]. exfalso.
  destruct a as [|[k1 v1] [|[k2 v2] a]]; cbn in D.
  - discriminate D.
  - inversion D.
  - inversion D; subst. apply N. cbn. tauto.
Qed.
(** So is the alphabetical order in which an HDF5 file lists its members. *)
Theorem C219_file_order (w : dict value) : In "highest_mode" (dkeys w) -> StronglySorted (fun a b => String.compare a b <> Gt) (dkeys w) -> mode_first w.
Proof.
  intros I S a v b ->. unfold dkeys in *. rewrite map_app in I, S. cbn [map fst] in I, S. apply in_app_or in I.
  destruct I as [I | [I | I]]; [exact I | discriminate I |]. exfalso.
  assert (T : StronglySorted (fun a b => String.compare a b <> Gt) ("maximum_banding_frequency" :: map fst b)).
  { clear I. induction (map fst a) as [|x l IH]; [exact S | apply IH; inversion S; assumption]. }
  inversion T as [|? ? _ F]; subst. rewrite Forall_forall in F. apply (F _ I). reflexivity.
Qed.
(** With the mode after the frequency the weights cannot be restored. *)
Theorem C219_order_refuted (w : dict value) c x : dget w "reference_chirp_mass" = Some (VNum c) ->
  (exists t, ddel w "reference_chirp_mass" = ("maximum_banding_frequency", VNum x) :: t) ->
  setup_from_weights [] w = Err AttributeError.
Proof. intros H [t T]. unfold MbSave_Model.setup_from_weights. rewrite H. cbn [set_attr]. unfold set_attr at 1. cbn [String.eqb Ascii.eqb Bool.eqb has settings existsb orb]. rewrite T. reflexivity. Qed.
(** Eleven bands: the file lists '10' before '2', yet the arrays come back in order. *)
Example C219_example (a : nat -> A) (d : dict A) : Permutation (enumerate (map a (seq 0 11))) d ->
  nth_error (enumerate (map a (seq 0 11))) 10 = Some ("10", a 10%nat) /\ gather d (seq 0 (length d)) = Ok (map a (seq 0 11)).
Proof.
  intro P. split; [reflexivity|]. rewrite <- (Permutation_length P).
  assert (W : wf (enumerate (map a (seq 0 11)))).
  { unfold wf, dkeys, enumerate. cbn. repeat (constructor; [cbn; intuition discriminate|]). constructor. }
  assert (G : forall bs, gather d bs = gather (enumerate (map a (seq 0 11))) bs).
  { induction bs as [|b bs IH]; [reflexivity|]. cbn [gather]. rewrite <- (dget_perm _ _ (str b) W P), IH. reflexivity. }
  rewrite G. apply gather_enumerate.
Qed.
End Weights.

(** ** Defaults *)
(** The default time offset covers every arrival: for a time in the prior and a light travel
    time to a detector of at most Re / c from the centre of the Earth (2 Re / c between
    detectors) the signal arrives at most that long before the end of the data.  The default
    taper is at least 100 times the inverse of the shortest such time. *)
Theorem C219_defaults Re c edge (geo : bool) lo hi t delay d : 0 < c -> 0 <= Re -> lo <= t <= hi -> Rabs delay <= (if geo then Re / c else 2 * Re / c) ->
  edge - (t + delay) <= time_offset Re c edge geo (Some lo) /\
  (hi + (if geo then Re / c else 2 * Re / c) < edge -> delta_f_end Re c edge geo (Some hi) = Ok d -> 0 < d /\ 100 <= d * (edge - (t + delay))).
Proof.
  intros Hc HR Ht Hd. assert (- (if geo then Re / c else 2 * Re / c) <= delay <= (if geo then Re / c else 2 * Re / c)).
  { split; [|eapply Rle_trans; [apply Rle_abs | exact Hd]]. pose proof (Rle_abs (- delay)) as Q. rewrite Rabs_Ropp in Q. lra. }
  split; [unfold time_offset, safety; lra|]. intros He E. unfold delta_f_end, safety in E.
  set (s := if geo then Re / c else 2 * Re / c) in *. destruct (Req_EM_T (edge - hi - s) 0) as [Z|Z]; [discriminate|]. injection E as <-.
  assert (P : 0 < edge - hi - s) by lra. split; [apply Rdiv_lt_0_compat; lra|].
  apply (Rmult_le_reg_l (edge - hi - s)); [exact P|]. replace ((edge - hi - s) * (100 / (edge - hi - s) * (edge - (t + delay)))) with (100 * (edge - (t + delay))) by (field; lra).
  lra.
Qed.
(** A prior that reaches to the end of the data gives a negative taper, unnoticed. *)
Theorem C219_taper_refuted Re c edge geo hi : 0 < c -> 0 < Re -> edge <= hi -> exists d, delta_f_end Re c edge geo (Some hi) = Ok d /\ d < 0.
Proof.
  intros Hc HR He. unfold delta_f_end, safety. assert (S : 0 < (if geo then Re / c else 2 * Re / c)).
  { destruct geo; apply Rdiv_lt_0_compat; lra. }
  set (s := if geo then Re / c else 2 * Re / c) in *. destruct (Req_EM_T (edge - hi - s) 0) as [Z|Z]; [lra|].
  eexists. split; [reflexivity|]. unfold Rdiv. rewrite <- (Ropp_involutive (/ _)), <- Rinv_opp.
  assert (0 < / - (edge - hi - s)) by (apply Rinv_0_lt_compat; lra). lra.
Qed.

(** ** Buffers *)
Lemma write_length {X} s (v buf : list X) : (s + length v <= length buf)%nat -> length (write s v buf) = length buf.
Proof. intro H. unfold write. rewrite !app_length, firstn_length, skipn_length. lia. Qed.
Lemma skipn_add {X} a b (l : list X) : skipn a (skipn b l) = skipn (b + a) l.
Proof. revert l. induction b as [|b IH]; intros l; [reflexivity|]. destruct l; cbn; [apply skipn_nil | apply IH]. Qed.
Lemma write_write {X} s (u v buf : list X) : length u = length v -> (s + length v <= length buf)%nat -> write s v (write s u buf) = write s v buf.
Proof.
  intros L H. unfold write.
  assert (F : length (firstn s buf) = s) by (rewrite firstn_length; lia).
  rewrite firstn_app, F, Nat.sub_diag, firstn_O, app_nil_r, firstn_firstn, Nat.min_id. f_equal. f_equal.
  rewrite skipn_app, F. rewrite (skipn_all2 (firstn s buf)) by lia. cbn [app]. replace (s + length v - s)%nat with (length v) by lia.
  rewrite skipn_app, <- L, skipn_all, Nat.sub_diag. cbn [app skipn]. reflexivity.
Qed.
(** The arrays kept between evaluations carry nothing over: each evaluation sees what it
    would see as the first one. *)
Theorem C219_buffers {X} s n (vals : list (list X)) buf : (forall v, In v vals -> length v = n) -> (s + n <= length buf)%nat ->
  evaluations s buf vals = map (fun v => write s v buf) vals.
Proof.
  revert buf. induction vals as [|v vals IH]; intros buf H Hn; [reflexivity|]. cbn [evaluations map].
  assert (Lv : length v = n) by (apply H; left; reflexivity). f_equal.
  rewrite IH; [|intros; apply H; right; assumption | rewrite write_length; lia].
  apply map_ext_in. intros u Hu. assert (length u = n) by (apply H; right; exact Hu). apply write_write; lia.
Qed.

(** ** Assumptions of every theorem above *)
Definition MbSave_Props_all :=
  (@C219_restore,
   @C219_own_order,
   @C219_file_order,
   @C219_order_refuted,
   @C219_defaults,
   @C219_taper_refuted,
   @C219_buffers).
Print Assumptions MbSave_Props_all.
