(** * The set of tempered samplers (C203), rejection to zero temperature (C204), stopping and starting (C205) *)
From Coq Require Import Reals Lra Lia List Bool ZArith Arith.
From Verif Require Import Samples_Model Result_Model Result_Proofs Result_Props Evidence_Model Evidence_Props PtSamp_Model.
Import ListNotations.
Open Scope list_scope.
Open Scope R_scope.

(** ** C203: the ladder *)
Lemma betas_length t n : length (initial_betas t n) = n.
Proof. unfold initial_betas. now rewrite map_length, seq_length. Qed.
Lemma betas_ends t n : 0 < t -> (2 <= n)%nat -> nth 0 (initial_betas t n) 0 = 1 /\ nth (n - 1) (initial_betas t n) 0 = / t.
Proof.
  intros T N. assert (L10 : 0 < ln 10) by (rewrite <- ln_1; apply ln_increasing; lra). assert (Np : 0 < INR (n - 1)) by (apply lt_0_INR; lia).
  assert (G : forall k, (k < n)%nat -> nth k (initial_betas t n) 0 = exp (- (INR k / INR (n - 1)) * ln t)).
  { intros k Hk. unfold initial_betas. set (h := fun j : nat => _). rewrite nth_indep with (d' := h 0%nat) by (rewrite map_length, seq_length; exact Hk). rewrite map_nth, seq_nth by exact Hk. unfold h, Rpower. f_equal. simpl plus. field. lra. }
  split; rewrite G by lia.
  - replace (- (INR 0 / INR (n - 1)) * ln t) with 0; [apply exp_0|]. cbn [INR]. field. lra.
  - replace (- (INR (n - 1) / INR (n - 1)) * ln t) with (- ln t) by (field; lra). rewrite exp_Ropp, exp_ln by exact T. reflexivity.
Qed.
Theorem C203_ladder p ndim : match get_initial_betas p ndim with
  | Good l => length l = ntemps p /\ (ntemps p = 1%nat -> l = [1]) /\
      (ntemps p <> 1%nat -> (forall g, given_betas p = Some g -> l = g) /\
        ((2 <= ntemps p)%nat -> given_betas p = None -> (forall t, tmax p = Some t -> 0 < t -> nth 0 l 0 = 1 /\ nth (ntemps p - 1) l 0 = / t) /\
           (forall s, tmax p = None -> from_snr p = Some s -> s <> 0 -> (1 <= ndim)%nat -> nth 0 l 0 = 1 /\ nth (ntemps p - 1) l 0 = INR ndim / (s * s))))
  | NoLadder => ntemps p <> 1%nat /\ given_betas p = None /\ tmax p = None /\ from_snr p = None
  | WrongNumber => ntemps p <> 1%nat /\ exists g, given_betas p = Some g /\ length g <> ntemps p
  end.
Proof.
  unfold get_initial_betas. destruct (ntemps p =? 1)%nat eqn:E1.
  - apply Nat.eqb_eq in E1. rewrite E1. cbn [length Nat.eqb]. split; [reflexivity|]. split; [reflexivity|]. intros C. now contradiction C.
  - apply Nat.eqb_neq in E1. destruct (given_betas p) as [g|].
    + destruct (length g =? ntemps p)%nat eqn:E2; [apply Nat.eqb_eq in E2|apply Nat.eqb_neq in E2; split; [assumption|exists g; auto]]. split; [assumption|]. split; [intros; contradiction|]. intros _. split; [intros g' H; congruence|discriminate].
    + destruct (tmax p) as [t|].
      * rewrite betas_length, Nat.eqb_refl. split; [apply betas_length|]. split; [intros; contradiction|]. intros _. split; [discriminate|]. intros N _. split; [|discriminate]. intros t' H T. assert (t' = t) by congruence. subst. now apply betas_ends.
      * destruct (from_snr p) as [s|]; [|auto]. rewrite betas_length, Nat.eqb_refl. split; [apply betas_length|]. split; [intros; contradiction|]. intros _. split; [discriminate|]. intros N _. split; [discriminate|]. intros s' _ H S0 D. assert (s' = s) by congruence. subst.
        assert (D0 : 0 < INR ndim) by (apply lt_0_INR; lia). assert (SS : 0 < s * s) by (destruct (Rtotal_order s 0) as [|[|]]; nra). assert (T : 0 < s * s / (2 * (INR ndim / 2))) by (apply Rdiv_lt_0_compat; lra). destruct (betas_ends _ (ntemps p) T N) as [A B]. split; [exact A|]. rewrite B. field. split; lra.
Qed.

Section Sets.
Variable S : Type.
Variable fresh : R -> nat -> nat -> S.
Definition placed (d : list (list (sampler S))) : Prop := forall i row, nth_error d i = Some row -> forall j s, nth_error row j = Some s -> tindex s = i /\ eindex s = j.
Lemma setup_row p l i row : nth_error (setup S fresh p l) i = Some row -> exists b, nth_error l i = Some b /\ row = map (fun e => mkSampler b i e (fresh b i e)) (seq 0 (members p b)).
Proof using Type.
  unfold setup. rewrite nth_error_map. destruct (nth_error (combine (seq 0 (length l)) l) i) as [[k b]|] eqn:E; [|discriminate]. cbn. intros H. assert (NN : nth_error l i = Some b /\ k = i).
  { clear H. assert (G : forall a (l : list R) i, nth_error (combine (seq a (length l)) l) i = Some (k, b) -> nth_error l i = Some b /\ k = (a + i)%nat).
    { intros a l0. revert a. induction l0 as [|x l0 IH]; intros a [|j] Q; cbn in Q; try discriminate; [split; cbn; [congruence|]; assert (a = k) by congruence; lia|]. destruct (IH _ _ Q) as [A B]. split; [exact A|lia]. }
    destruct (G 0%nat l i E) as [A B]. auto. }
  destruct NN as [A ->]. exists b. split; [exact A|]. congruence.
Qed.
Lemma members_nth (b : R) (i : nat) n j : nth_error (map (fun e => mkSampler b i e (fresh b i e)) (seq 0 n)) j = if (j <? n)%nat then Some (mkSampler b i j (fresh b i j)) else None.
Proof using Type. rewrite nth_error_map. destruct (j <? n)%nat eqn:E; [apply Nat.ltb_lt in E|apply Nat.ltb_ge in E]. - rewrite (nth_error_nth' _ 0%nat) by (rewrite seq_length; lia). rewrite seq_nth by lia. reflexivity. - assert (H : nth_error (seq 0 n) j = None) by (apply nth_error_None; rewrite seq_length; lia). now rewrite H. Qed.
(** Every sampler carries the indices of its place. *)
Theorem C203_places p l : placed (setup S fresh p l) /\ length (setup S fresh p l) = length l /\
  forall i b, nth_error l i = Some b -> exists row, nth_error (setup S fresh p l) i = Some row /\ length row = (if pt_ensemble p then nensemble p else if Req_EM_T b 1 then nensemble p else 1%nat) /\ forall s, In s row -> beta s = b.
Proof using Type.
  split; [|split].
  - intros i row H j s Hs. destruct (setup_row p l i row H) as (b & _ & ->). rewrite members_nth in Hs. destruct (j <? _)%nat; [|discriminate]. assert (s = mkSampler b i j (fresh b i j)) by congruence. subst. auto.
  - unfold setup. rewrite map_length, combine_length, seq_length. lia.
  - intros i b H. destruct (nth_error (setup S fresh p l) i) as [row|] eqn:E.
    + exists row. split; [reflexivity|]. destruct (setup_row p l i row E) as (b' & H' & ->). assert (b' = b) by congruence. subst b'. split.
      * rewrite map_length, seq_length. unfold members, is_one. destruct (Req_EM_T b 1), (pt_ensemble p); reflexivity.
      * intros s I. apply in_map_iff in I. destruct I as (e & <- & _). reflexivity.
    + exfalso. apply nth_error_None in E. assert (i < length l)%nat by (apply nth_error_Some; congruence). unfold setup in E. rewrite map_length, combine_length, seq_length in E. lia.
Qed.
Lemma put_at_app {A} (a : list A) x y b : put_at (length a) x (a ++ y :: b) = Some (a ++ x :: b).
Proof using Type. induction a as [|c a IH]; [reflexivity|]. cbn. now rewrite IH. Qed.
Lemma nth_error_mid {A} (a : list A) x b : nth_error (a ++ x :: b) (length a) = Some x.
Proof using Type. rewrite nth_error_app2, Nat.sub_diag by lia. reflexivity. Qed.
(** What comes back from a pool is what stepping every sampler in place gives. *)
Theorem C203_pool f d : placed d -> (forall s, tindex (f s) = tindex s /\ eindex (f s) = eindex s) -> step_pool S f d = Some (step_serial S f d) /\ placed (step_serial S f d).
Proof using Type.
  intros P F. split.
  - unfold step_pool, set_sampler_list, sampler_list, step_serial.
    assert (Row : forall pre post b a, (forall j s, nth_error b j = Some s -> tindex s = length pre /\ eindex s = (length a + j)%nat) ->
      fold_left (fun acc s => match acc with None => None | Some d => put_sampler S d s end) (map f b) (Some (pre ++ (a ++ b) :: post)) = Some (pre ++ (a ++ map f b) :: post)).
    { intros pre post b. induction b as [|s b IH]; intros a H; [reflexivity|]. cbn [map fold_left]. destruct (H 0%nat s eq_refl) as [T E]. rewrite Nat.add_0_r in E. destruct (F s) as [FT FE].
      unfold put_sampler at 2. rewrite FT, FE, T, E, nth_error_mid, put_at_app, put_at_app. specialize (IH (a ++ [f s])). rewrite <- app_assoc in IH. cbn [app] in IH. rewrite IH; [rewrite <- app_assoc; reflexivity|].
      intros j s' Hj. destruct (H (Datatypes.S j) s' Hj) as [A B]. split; [exact A|]. rewrite app_length. cbn. lia. }
    assert (All : forall post pre, (forall i row, nth_error post i = Some row -> forall j s, nth_error row j = Some s -> tindex s = (length pre + i)%nat /\ eindex s = j) ->
      fold_left (fun acc s => match acc with None => None | Some d => put_sampler S d s end) (map f (concat post)) (Some (pre ++ post)) = Some (pre ++ map (map f) post)).
    { induction post as [|row post IH]; intros pre H; [reflexivity|]. cbn [concat map]. rewrite map_app, fold_left_app. specialize (Row pre post row []). cbn [app length] in Row. rewrite Row; [|intros j s Hj; destruct (H 0%nat row eq_refl j s Hj) as [A B]; split; lia].
      specialize (IH (pre ++ [map f row])). rewrite <- !app_assoc in IH. cbn [app] in IH. apply IH. intros i r Hi j s Hj. destruct (H (Datatypes.S i) r Hi j s Hj) as [A B]. rewrite app_length. cbn. split; lia. }
    apply (All d []). intros i row H j s Hj. apply (P i row H j s Hj).
  - intros i row H j s Hs. unfold step_serial in H. rewrite nth_error_map in H. destruct (nth_error d i) as [r|] eqn:E; [|discriminate]. cbn in H. assert (row = map f r) by congruence. subst row. rewrite nth_error_map in Hs. destruct (nth_error r j) as [s0|] eqn:E2; [|discriminate]. cbn in Hs. assert (s = f s0) by congruence. subst s. destruct (F s0) as [-> ->]. apply (P i r E j s0 E2).
Qed.
(** The ladders the swaps and the evidence run over: every rung present. *)
Theorem C203_columns p l : (1 <= nensemble p)%nat -> forall c, In c (tempered_lists S p (setup S fresh p l)) -> length c = length l /\
  exists e, (e < nensemble p)%nat /\ forall i b, nth_error l i = Some b -> nth_error c i = Some (Some (mkSampler b i e (fresh b i e))).
Proof using Type.
  intros N c I. destruct (C203_places p l) as (_ & L & _).
  assert (G : forall e, (pt_ensemble p = true -> (e < nensemble p)%nat) -> (pt_ensemble p = false -> e = 0%nat) -> length (column S (setup S fresh p l) e) = length l /\ forall i b, nth_error l i = Some b -> nth_error (column S (setup S fresh p l) e) i = Some (Some (mkSampler b i e (fresh b i e)))).
  { intros e E1 E2. unfold column. rewrite map_length. split; [exact L|]. intros i b H. rewrite nth_error_map. destruct (nth_error (setup S fresh p l) i) as [row|] eqn:E; [|exfalso; apply nth_error_None in E; assert (i < length l)%nat by (apply nth_error_Some; congruence); lia].
    destruct (setup_row p l i row E) as (b' & H' & ->). assert (b' = b) by congruence. subst b'. cbn [option_map]. rewrite members_nth. assert (LT : (e < members p b)%nat) by (unfold members, is_one; destruct (pt_ensemble p); [rewrite orb_true_r; now apply E1|rewrite (E2 eq_refl); destruct (Req_EM_T b 1); cbn; lia]). apply Nat.ltb_lt in LT. now rewrite LT. }
  unfold tempered_lists in I. destruct (pt_ensemble p).
  - apply in_map_iff in I. destruct I as (e & <- & I). apply in_seq in I. destruct (G e) as [A B]; [lia|discriminate|]. split; [exact A|]. exists e. split; [lia|exact B].
  - destruct I as [<-|[]]. destruct (G 0%nat) as [A B]; [discriminate|auto|]. split; [exact A|]. exists 0%nat. split; [lia|exact B].
Qed.
(** A ladder that starts at 1 and goes down: the first list is the zero temperature one, the rest the tempered. *)
Lemma setup_from p a l : forall k, map (fun tb => map (fun e => mkSampler (snd tb) (fst tb) e (fresh (snd tb) (fst tb) e)) (seq 0 (members p (snd tb)))) (combine (seq k (length (a :: l))) (a :: l))
  = map (fun e => mkSampler a k e (fresh a k e)) (seq 0 (members p a)) :: map (fun tb => map (fun e => mkSampler (snd tb) (fst tb) e (fresh (snd tb) (fst tb) e)) (seq 0 (members p (snd tb)))) (combine (seq (Datatypes.S k) (length l)) l).
Proof using Type. reflexivity. Qed.
Lemma hot_rows p : forall l k, (forall b, In b l -> b < 1) ->
  let rest := concat (map (fun tb => map (fun e => mkSampler (snd tb) (fst tb) e (fresh (snd tb) (fst tb) e)) (seq 0 (members p (snd tb)))) (combine (seq k (length l)) l)) in
  filter (fun s => is_one (beta s)) rest = [] /\ filter (fun s => is_hot (beta s)) rest = rest.
Proof using Type.
  induction l as [|a l IH]; intros k H rest; [split; reflexivity|]. assert (A : a < 1) by (apply H; left; reflexivity). destruct (IH (Datatypes.S k) (fun b I => H b (or_intror I))) as [I1 I2]. unfold rest. rewrite setup_from. cbn [concat]. rewrite !filter_app, I1, I2.
  assert (Q : filter (fun s : sampler S => is_one (beta s)) (map (fun e => mkSampler a k e (fresh a k e)) (seq 0 (members p a))) = [] /\ filter (fun s : sampler S => is_hot (beta s)) (map (fun e => mkSampler a k e (fresh a k e)) (seq 0 (members p a))) = map (fun e => mkSampler a k e (fresh a k e)) (seq 0 (members p a))).
  { generalize (seq 0 (members p a)). intros q. induction q as [|e q [J1 J2]]; [split; reflexivity|]. cbn [map filter beta]. unfold is_one at 1, is_hot at 1. destruct (Req_EM_T a 1); [lra|]. destruct (Rlt_dec a 1); [|contradiction]. rewrite J1, J2. split; reflexivity. }
  destruct Q as [-> ->]. split; reflexivity.
Qed.
Theorem C203_lists p hot : (forall b, In b hot -> b < 1) -> let d := setup S fresh p (1 :: hot) in
  length (zerotemp S d) = nensemble p /\ (forall s, In s (zerotemp S d) -> tindex s = 0%nat /\ beta s = 1) /\ zerotemp S d ++ tempered S d = sampler_list S d.
Proof using Type.
  intros H d. unfold d, setup, zerotemp, tempered, sampler_list. rewrite setup_from. cbn [concat]. rewrite !filter_app. destruct (hot_rows p hot 1 H) as [-> ->].
  set (row := map (fun e => mkSampler 1 0 e (fresh 1 0 e)) (seq 0 (members p 1))). assert (M : members p 1 = nensemble p) by (unfold members, is_one; destruct (Req_EM_T 1 1); [reflexivity|contradiction]).
  assert (Q : filter (fun s : sampler S => is_one (beta s)) row = row /\ filter (fun s : sampler S => is_hot (beta s)) row = []).
  { unfold row. generalize (seq 0 (members p 1)). intros q. induction q as [|e q [J1 J2]]; [split; reflexivity|]. cbn [map filter beta]. unfold is_one at 1, is_hot at 1. destruct (Req_EM_T 1 1); [|contradiction]. destruct (Rlt_dec 1 1); [lra|]. rewrite J1, J2. split; reflexivity. }
  destruct Q as [-> ->]. rewrite app_nil_r. cbn [app]. split; [unfold row; rewrite map_length, seq_length; exact M|]. split; [|reflexivity]. intros s I. apply in_map_iff in I. destruct I as (e & <- & _). auto.
Qed.
(** ** the count and the samples *)
Variable Row : Type.
Variable count : sampler S -> nat.
Variable own kept : sampler S -> list Row.
Lemma total_app a b : total (a ++ b) = (total a + total b)%nat.
Proof using Type. unfold total. induction a as [|x a IH]; cbn [fold_right app]; [reflexivity|]. rewrite IH. apply Nat.add_assoc. Qed.
Lemma length_concat_map (g : sampler S -> list Row) l : length (concat (map g l)) = total (map (fun s => length (g s)) l).
Proof using Type. induction l as [|a l IH]; [reflexivity|]. cbn. rewrite app_length, IH. reflexivity. Qed.
(** The count is that of the samples returned plus, once more, what rejection keeps of every member of the zero temperature ensemble but the first. *)
Theorem C203_count p hot rows : (forall b, In b hot -> b < 1) -> (1 <= nensemble p)%nat -> (forall s, count s = length (own s)) -> let d := setup S fresh p (1 :: hot) in
  all_samples S Row own kept true d = Some rows ->
  calculate_nsamples S Row count kept true d = (length rows + total (map (fun s => length (kept s)) (tl (zerotemp S d))))%nat /\
  forall rows0, all_samples S Row own kept false d = Some rows0 -> calculate_nsamples S Row count kept false d = length rows0.
Proof using Type.
  intros H N C d A. destruct (C203_lists p hot H) as (L & Z1 & D). fold d in L, Z1, D. unfold all_samples, calculate_nsamples in *. rewrite <- D.
  assert (ZS : concat (map (samples_of S Row own kept) (zerotemp S d)) = concat (map own (zerotemp S d))). { f_equal. apply map_ext_in. intros s I. unfold samples_of, is_one. destruct (Req_EM_T (beta s) 1) as [|E]; [reflexivity|destruct (Z1 s I); contradiction]. }
  assert (HS : concat (map (samples_of S Row own kept) (tempered S d)) = concat (map kept (tempered S d))). { f_equal. apply map_ext_in. intros s I. unfold tempered in I. apply filter_In in I. destruct I as [_ I]. unfold samples_of, is_one. unfold is_hot in I. destruct (Rlt_dec (beta s) 1); [|discriminate]. destruct (Req_EM_T (beta s) 1); [lra|reflexivity]. }
  assert (CC : total (map count (zerotemp S d)) = length (concat (map own (zerotemp S d)))) by (rewrite length_concat_map; f_equal; apply map_ext; exact C).
  destruct (zerotemp S d) as [|z zs] eqn:EZ; [cbn in L; lia|]. split.
  - cbn [app tl] in A |- *. assert (R1 : rows = concat (map (samples_of S Row own kept) (z :: zs ++ tempered S d))) by congruence. change (z :: zs ++ tempered S d) with ((z :: zs) ++ tempered S d) in R1. rewrite map_app, concat_app, ZS, HS in R1. rewrite R1, app_length, <- CC, (length_concat_map kept), map_app, total_app. lia.
  - intros rows0 A0. cbn [app] in A0. rewrite app_nil_r in A0. assert (R0 : rows0 = concat (map (samples_of S Row own kept) (z :: zs))) by congruence. rewrite R0, ZS, CC. lia.
Qed.
(** With nothing at temperature one there is nothing to return and nothing to count. *)
Theorem C203_no_zero_refuted p l : (forall b, In b l -> b <> 1) -> all_samples S Row own kept false (setup S fresh p l) = None /\ calculate_nsamples S Row count kept false (setup S fresh p l) = 0%nat.
Proof using Type.
  intros H. assert (Z : zerotemp S (setup S fresh p l) = []).
  { unfold zerotemp. destruct (filter _ _) as [|s r] eqn:E; [reflexivity|]. exfalso. assert (I : In s (filter (fun s => is_one (beta s)) (sampler_list S (setup S fresh p l)))) by (rewrite E; left; reflexivity). apply filter_In in I. destruct I as [I O]. unfold sampler_list in I. apply in_concat in I. destruct I as (row & Ir & Is). apply In_nth_error in Ir. destruct Ir as [i Ir]. destruct (setup_row p l i row Ir) as (b & Hb & ->). apply in_map_iff in Is. destruct Is as (e & <- & _). cbn [beta] in O. unfold is_one in O. destruct (Req_EM_T b 1) as [->|]; [|discriminate]. apply nth_error_In in Hb. now apply (H 1 Hb). }
  unfold all_samples, calculate_nsamples. rewrite Z. split; reflexivity.
Qed.
(** A signal-to-noise ratio below the square root of the dimension gives rungs colder than one, whose samplers are in neither list. *)
Theorem C203_snr_refuted p ndim s l : ntemps p = 2%nat -> (1 <= nensemble p)%nat -> given_betas p = None -> tmax p = None -> from_snr p = Some s -> s <> 0 -> s * s < INR ndim -> get_initial_betas p ndim = Good l ->
  exists b, l = [1; b] /\ 1 < b /\ zerotemp S (setup S fresh p l) ++ tempered S (setup S fresh p l) <> sampler_list S (setup S fresh p l).
Proof using Type.
  intros N NE G T SN S0 D E. pose proof (C203_ladder p ndim) as C. rewrite E in C. destruct C as (L & _ & C). rewrite N in *. destruct (C ltac:(lia)) as [_ C2]. destruct (C2 ltac:(lia) G) as [_ C3]. assert (SS : 0 < s * s) by (destruct (Rtotal_order s 0) as [|[|]]; nra).
  assert (ND : (1 <= ndim)%nat) by (destruct ndim; [cbn in D; lra|lia]). destruct (C3 s T SN S0 ND) as [A B]. destruct l as [|a [|b [|]]]; try discriminate. cbn in A, B. subst a b. exists (INR ndim / (s * s)).
  assert (B1 : 1 < INR ndim / (s * s)) by (apply Rmult_lt_reg_r with (s * s); [assumption|]; unfold Rdiv; rewrite Rmult_assoc, Rinv_l by lra; lra). split; [reflexivity|]. split; [exact B1|].
  set (b := INR ndim / (s * s)) in *. intros Q. set (d := setup S fresh p [1; b]) in *.
  assert (H : In (mkSampler b 1 0 (fresh b 1 0)) (sampler_list S d)).
  { unfold sampler_list, d, setup. cbn [length seq combine map concat fst snd app]. rewrite app_nil_r. apply in_or_app. right. assert (M : (1 <= members p b)%nat) by (unfold members; destruct (is_one b || pt_ensemble p); lia). destruct (members p b); [lia|]. left. reflexivity. }
  assert (I : In (mkSampler b 1 0 (fresh b 1 0)) (zerotemp S d ++ tempered S d)) by (rewrite Q; exact H). apply in_app_or in I. destruct I as [I|I]; apply filter_In in I; destruct I as [_ I]; cbn [beta] in I; unfold is_one, is_hot in I; [destruct (Req_EM_T b 1); [lra|discriminate]|destruct (Rlt_dec b 1); [lra|discriminate]].
Qed.
End Sets.
(** two members at temperature one, each with one sample in three rows: 2 samples are returned, 5 are counted *)
Definition two_members := {| ntemps := 1; nensemble := 2; pt_ensemble := false; given_betas := None; tmax := None; from_snr := None |}.
Theorem C203_count_refuted : let d := setup unit (fun _ _ _ => tt) two_members [1] in
  all_samples unit nat (fun _ => [1]%nat) (fun _ => [1; 2; 3]%nat) true d = Some [1; 1]%nat /\
  calculate_nsamples unit nat (fun _ => 1%nat) (fun _ => [1; 2; 3]%nat) true d = 5%nat.
Proof.
  cbv zeta. destruct (C203_lists unit (fun _ _ _ => tt) two_members [] ltac:(intros b [])) as (L & Z1 & D). set (d := setup unit (fun _ _ _ => tt) two_members [1]) in *.
  assert (ZT : zerotemp unit d = [mkSampler 1 0 0 tt; mkSampler 1 0 1 tt] /\ tempered unit d = []).
  { unfold d, setup, zerotemp, tempered, sampler_list, members, is_one, is_hot. cbn [combine seq length map fst snd]. destruct (Req_EM_T 1 1); [|contradiction]. cbn. destruct (Req_EM_T 1 1); [|contradiction]. destruct (Rlt_dec 1 1); [lra|]. split; reflexivity. }
  destruct ZT as [ZT TT]. unfold all_samples, calculate_nsamples. rewrite <- D, ZT, TT. cbn. unfold samples_of, is_one. cbn. destruct (Req_EM_T 1 1); [split; reflexivity|contradiction].
Qed.
Example C203_ladder_example : get_initial_betas two_members 3 = Good [1] /\ get_initial_betas {| ntemps := 3; nensemble := 1; pt_ensemble := false; given_betas := Some [1; / 2]; tmax := Some 20; from_snr := None |} 3 = WrongNumber.
Proof. split; reflexivity. Qed.
Example C203_pool_example : step_pool nat (fun s => mkSampler (beta s) (tindex s) (eindex s) (inner s + 1)%nat) (setup nat (fun _ t e => (10 * t + e)%nat) two_members [1]) =
  Some [[mkSampler 1 0 0 1%nat; mkSampler 1 0 1 2%nat]].
Proof.
  destruct (C203_pool nat (fun s => mkSampler (beta s) (tindex s) (eindex s) (inner s + 1)%nat) (setup nat (fun _ t e => (10 * t + e)%nat) two_members [1])) as [-> _]; [apply C203_places|intros; split; reflexivity|].
  unfold setup, members, is_one. cbn [combine seq length map fst snd]. destruct (Req_EM_T 1 1); [reflexivity|contradiction].
Qed.

(** ** Assumptions of every theorem above *)
Definition PtSamp_Props_all :=
  (@C203_ladder,
   @C203_places,
   @C203_pool,
   @C203_columns,
   @C203_lists,
   @C203_count,
   @C203_no_zero_refuted,
   @C203_snr_refuted,
   @C203_count_refuted).
Print Assumptions PtSamp_Props_all.
