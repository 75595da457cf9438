(** * Further statements about models of other files: modes of a multivariate Gaussian, starting points, the tempered ensemble, default offsets *)
From Coq Require Import String Bool List Reals Arith Lra Lia.
From Verif Require Import PyDict Joint_Model.
From Verif Require Mvg_Model Mvg_Props Start_Model PtSteps_Model MbSave_Model NestKw_Model NestKw_Props Series_Model Series_Proofs Mband3_Model Mband3_Props Mband2_Model Dft_Proofs RoqMb_Model RoqMb_Props Sampler_Model Sampler_Props EnsKw_Model EnsKw_Props.
Import ListNotations.
Open Scope list_scope.

(** ** C217 With several modes, mode i is made of the i-th elements of the lists that are given *)
Section Modes.
Import Mvg_Model Mvg_Props.
Variable eigs : mat -> option (list R).
Variable normal : mat -> bool.
Variable n : nat.
Definition element (v : option (list nest)) (i : nat) : option nest := match v with Some l => nth_error l i | None => None end.
Theorem C217_elements m lm ls lr lc (lw : option (list R)) d i : (2 <= m)%nat ->
  init eigs normal n m (option_map (Seq CList) lm) (option_map (Seq CList) ls) (option_map (Seq CList) lr) (option_map (Seq CList) lc) (option_map (fun w => Seq CList (map Num w)) lw) = Ok d -> (i < m)%nat ->
  mode_is eigs normal n d i (mkArgs (element lm i) (element ls i) (element lr i) (element lc i) (match lw with Some w => nth_error w i | None => Some 1%R end)).
Proof.
  intros Hm E Hi. destruct (C217_several _ _ _ _ _ _ _ _ _ _ Hm E) as (_ & _ & _ & _ & Lw & _ & _ & H). specialize (H i Hi).
  unfold mode_args in H. assert (I : forall l, item (option_map (Seq CList) l) i = element l i) by (intros [l|]; reflexivity). rewrite !I in H.
  destruct lw as [w|]; cbn [option_map item] in *; [|exact H]. rewrite nth_error_map in H. destruct (nth_error w i) as [x|] eqn:N; cbn [option_map] in H; [exact H|]. exfalso.
  destruct (Lw _ eq_refl) as (l & K & L). injection K as <-. rewrite map_length in L. apply nth_error_None in N. lia.
Qed.
(** ** C217 Rows of different lengths are refused, as means and as a covariance *)
Theorem C217_ragged k kr1 kr2 (r1 r2 : list R) rest vs vr vc vw : length r1 <> length r2 ->
  init eigs normal n 1 (Some (Seq k (Seq kr1 (map Num r1) :: Seq kr2 (map Num r2) :: rest))) vs vr vc vw = Err ValueError /\
  init eigs normal n 1 None None vr (Some (Seq CList (Seq kr1 (map Num r1) :: Seq kr2 (map Num r2) :: rest))) vw = Err ValueError.
Proof.
  intros H. assert (F : forall (l : list R), common (map shape (map Num l)) = Some []).
  { intros [|x l]; [reflexivity|]. cbn [map shape common]. rewrite map_map. replace (forallb _ _) with true; [reflexivity|]. symmetry. apply forallb_forall. intros y Hy. apply in_map_iff in Hy as (z & <- & _). reflexivity. }
  assert (S0 : forall k, shape (Seq k (Seq kr1 (map Num r1) :: Seq kr2 (map Num r2) :: rest)) = None).
  { intros c. cbn [shape map]. rewrite !F, !map_length. cbn [common forallb same_dims]. destruct (list_eq_dec Nat.eq_dec [length r1] [length r2]) as [Q|Q]; [injection Q as Q; contradiction|reflexivity]. }
  split; unfold init; cbn [Nat.eqb opt].
  - unfold wrap_vector. rewrite S0. reflexivity.
  - cbn [bind]. unfold wrap_matrix. rewrite S0. reflexivity.
Qed.
End Modes.

(** ** C227 Without points from the user the walkers start at the draws from the prior, all of them, and the bad ones are reported *)
Theorem C227_draws (V : Type) (zero : V) good nwalkers keys draws : exists warned, Start_Model.set_pos0 zero good nwalkers keys draws None = Start_Model.Ok (draws, warned) /\ forall r, In r warned <-> In r draws /\ good r = false.
Proof. eexists. split; [reflexivity|]. intros r. rewrite filter_In, negb_true_iff. reflexivity. Qed.

(** ** C219 Without a prior for the time: 2.12 s and 53 Hz *)
Theorem C219_without_prior Re c edge geo : MbSave_Model.delta_f_end Re c edge geo None = MbSave_Model.Ok 53%R /\ MbSave_Model.time_offset Re c edge geo None = (2 + 12 / 100)%R.
Proof. split; [reflexivity|]. unfold MbSave_Model.time_offset. lra. Qed.

(** ** C219 Weights without a chirp mass raise KeyError *)
Theorem C219_no_mass {A} (power : R -> R -> R) (o : MbSave_Model.obj A) (w : dict (MbSave_Model.value A)) : ~ In "reference_chirp_mass"%string (dkeys w) -> MbSave_Model.setup_from_weights power o w = MbSave_Model.Err MbSave_Model.KeyError.
Proof. intros H. apply dget_none in H. unfold MbSave_Model.setup_from_weights. rewrite H. reflexivity. Qed.

(** ** C229 No setting of ultranest, whatever its name, reaches both calls, and each of the two only gets settings that are there, unchanged *)
Theorem C229_one_call V (is_none : V -> bool) (d : dict V) k :
  (dget (NestKw_Model.ultranest_init V is_none d) k = None \/ dget (NestKw_Model.ultranest_run V is_none d) k = None) /\
  (forall v, dget (NestKw_Model.ultranest_init V is_none d) k = Some v \/ dget (NestKw_Model.ultranest_run V is_none d) k = Some v -> dget d k = Some v).
Proof.
  unfold NestKw_Model.ultranest_init, NestKw_Model.ultranest_run. rewrite !NestKw_Props.dget_pick.
  assert (D : forall a b : list string, forallb (fun x => negb (existsb (String.eqb x) b)) a = true -> existsb (String.eqb k) a = false \/ existsb (String.eqb k) b = false).
  { intros a b F. destruct (existsb (String.eqb k) a) eqn:E; [right|left; reflexivity]. apply existsb_exists in E as (x & X & Y). apply String.eqb_eq in Y. subst x. rewrite forallb_forall in F. apply negb_true_iff, (F k X). }
  split.
  - destruct (NestKw_Model.live_points V is_none d); [match goal with |- context [existsb _ ?a] => match goal with |- _ \/ (if existsb _ ?b then _ else _) = _ => destruct (D a b eq_refl) as [E|E] end end|match goal with |- context [existsb _ ?a] => match goal with |- _ \/ (if existsb _ ?b then _ else _) = _ => destruct (D a b eq_refl) as [E|E] end end]; rewrite E; auto.
  - intros v [H|H]; destruct (existsb _ _); solve [exact H|discriminate].
Qed.

(** ** C230 The samples used for autocorrelation start after the last adaptation: the index kept is the position of the primary chain at that call *)
Section Adapt.
Import PtSteps_Model.
Open Scope nat_scope.
Definition is_adapt (e : event) : bool := match e with Adapt _ => true | _ => false end.
Fixpoint last_adapted (acc : nat) (ps : list nat) (evs : list (list event)) : nat :=
  match ps, evs with p :: ps, ev :: evs => last_adapted (if existsb is_adapt ev then p else acc) ps evs | _, _ => acc end.
Lemma one_index ne nt L2 t10 p s : let r := step_all_chains ne nt L2 t10 p s in min_adapt (snd r) = (if existsb is_adapt (fst r) then p else min_adapt s) /\
  (existsb is_adapt (fst r) = true -> p < t10 /\ adapt s = true /\ adapt (snd r) = true).
Proof.
  cbv zeta. unfold step_all_chains. destruct s as [a b c d ad mi]. cbn [temperature l2_temperature ensemble l2_ensemble adapt min_adapt].
  destruct ((1 <? ne) && (L2 <=? d)); cbn [temperature l2_temperature ensemble l2_ensemble adapt min_adapt]; destruct ((1 <? nt) && (L2 <=? b)); cbn [temperature l2_temperature ensemble l2_ensemble adapt min_adapt];
    try destruct (Nat.ltb_spec p t10); try destruct ad; cbn; repeat split; try reflexivity; try discriminate; auto.
Qed.
Theorem C230_last_adapted ne nt L2 t10 ps : forall s, min_adapt (snd (calls ne nt L2 t10 ps s)) = last_adapted (min_adapt s) ps (fst (calls ne nt L2 t10 ps s)).
Proof.
  induction ps as [|p ps IH]; intros s; [reflexivity|]. cbn [calls]. pose proof (one_index ne nt L2 t10 p s) as [O _]. destruct (step_all_chains ne nt L2 t10 p s) as [ev s1]. specialize (IH s1).
  destruct (calls ne nt L2 t10 ps s1) as [evs s2]. cbn [fst snd last_adapted] in *. rewrite IH, O. reflexivity.
Qed.
(** ** C230 After a round of swaps at or beyond ten times adapt_t0 the ladder is never adapted again, even if a chain were to get shorter *)
Theorem C230_off ne nt L2 t10 ps : forall s, adapt s = false -> adapt (snd (calls ne nt L2 t10 ps s)) = false /\ List.Forall (fun ev => existsb is_adapt ev = false) (fst (calls ne nt L2 t10 ps s)).
Proof.
  assert (K : forall p s, adapt s = false -> adapt (snd (step_all_chains ne nt L2 t10 p s)) = false).
  { intros p [a b c d ad mi] A. cbn in A. subst ad. unfold step_all_chains. cbn [temperature l2_temperature ensemble l2_ensemble adapt min_adapt].
    destruct ((1 <? ne) && (L2 <=? d)); cbn [temperature l2_temperature ensemble l2_ensemble adapt min_adapt]; destruct ((1 <? nt) && (L2 <=? b)); cbn [temperature l2_temperature ensemble l2_ensemble adapt min_adapt]; try destruct (p <? t10); reflexivity. }
  induction ps as [|p ps IH]; intros s A; [split; [exact A|constructor]|]. cbn [calls]. pose proof (one_index ne nt L2 t10 p s) as [_ O]. specialize (K p s A). destruct (step_all_chains ne nt L2 t10 p s) as [ev s1]. destruct (IH s1 K) as [I1 I2].
  destruct (calls ne nt L2 t10 ps s1) as [evs s2]. cbn [fst snd] in *. split; [exact I1|]. constructor; [|exact I2]. destruct (existsb is_adapt ev); [|reflexivity]. destruct (O eq_refl) as (_ & X & _). congruence.
Qed.
Theorem C230_stops ne nt L2 t10 p s ev s1 : step_all_chains ne nt L2 t10 p s = (ev, s1) -> In Swaps ev -> t10 <= p -> adapt s1 = false.
Proof.
  intros E I H. revert E. unfold step_all_chains. destruct s as [a b c d ad mi]. cbn [temperature l2_temperature ensemble l2_ensemble adapt min_adapt].
  destruct ((1 <? ne) && (L2 <=? d)); cbn [temperature l2_temperature ensemble l2_ensemble adapt min_adapt]; destruct ((1 <? nt) && (L2 <=? b)); cbn [temperature l2_temperature ensemble l2_ensemble adapt min_adapt];
    try (rewrite (proj2 (Nat.ltb_ge _ _) H)); try destruct ad; intros E; injection E as <- <-; try reflexivity; cbn in I; intuition discriminate.
Qed.
Example C230_adapt_example : let r := calls 1 2 2 10 [1; 2; 5; 6; 12; 3; 4] (start 2 true) in min_adapt (snd r) = 5 /\ adapt (snd r) = false.
Proof. split; reflexivity. Qed.
End Adapt.

(** ** C220 When no band is shortened, (h, h) is the plain sum over the bands, the first one and the later ones alike *)
Section Bands.
Import Series_Model Series_Proofs Mband3_Model Mband3_Props.
Local Open Scope R_scope.
Definition plain_term (T : R) (psd : list R) (mask : list bool) (b : qband) : R :=
  4 / T * rsum (length (q_strain b)) (fun i =>
    if nth (q_Ks b + i) mask false then nth i (q_win b) 0 * sq (nth i (q_strain b) (0, 0)) / nth (q_Ks b + i) psd 0 else 0).
Definition unshortened (N : nat) (b : qband) : Prop := exists mu, q_M b = (2 * mu)%nat /\ q_N b = (2 * mu)%nat /\ (2 * mu <= N)%nat /\
  (0 < q_Ks b <= q_Ke b)%nat /\ (q_Ke b < mu)%nat /\ length (q_strain b) = (q_Ke b + 1 - q_Ks b)%nat /\ (forall i, 0 <= nth i (q_win b) 0).
Theorem C220_unshortened T N psd mask bs : 0 < T -> (forall b, In b (tl bs) -> unshortened N b) ->
  optimal_snr_squared T N psd mask bs = Some (fold_right Rplus 0 (map (plain_term T psd mask) bs)).
Proof.
  intros HT H. destruct bs as [|b bs]; [reflexivity|]. cbn [tl] in H. cbn [optimal_snr_squared map fold_right].
  assert (L : later_bands T (full_inv_psd N psd mask) bs = Some (fold_right Rplus 0 (map (plain_term T psd mask) bs))).
  { induction bs as [|c bs IH]; [reflexivity|]. destruct (H c (or_introl eq_refl)) as (mu & E1 & E2 & HN & HK & HKe & HL & Hw).
    cbn [later_bands map fold_right]. rewrite IH by (intros; apply H; right; assumption). rewrite E1, E2.
    assert (LI : length (full_inv_psd N psd mask) = (N / 2 + 1)%nat) by (unfold full_inv_psd; now rewrite map_length, seq_length).
    assert (HD : (mu <= N / 2)%nat) by (apply Nat.div_le_lower_bound; lia).
    rewrite (C220_full_length T (q_Ks c) (q_Ke c) mu (q_win c) (q_strain c) (full_inv_psd N psd mask) HT ltac:(lia) ltac:(lia) ltac:(rewrite LI; lia) Hw).
    apply f_equal. apply (f_equal (fun v => v + _)). unfold plain_term. apply (f_equal (Rmult (4 / T))). rewrite HL. apply rsum_ext. intros i Hi.
    assert (Q : nth (q_Ks c + i) (full_inv_psd N psd mask) 0 = if nth (q_Ks c + i) mask false then 1 / nth (q_Ks c + i) psd 0 else 0).
    { apply nth_error_nth. unfold full_inv_psd. rewrite nth_error_map, (nth_error_nth' _ O) by (rewrite seq_length; lia). rewrite seq_nth by lia. reflexivity. }
    rewrite Q. destruct (nth (q_Ks c + i) mask false); unfold Rdiv; ring. }
  rewrite L. apply f_equal. apply (f_equal (fun v => v + _)). unfold first_band, plain_term. apply (f_equal (Rmult (4 / T))). apply rsum_ext. intros i _.
  destruct (nth (q_Ks b + i) mask false); unfold Rdiv; ring.
Qed.
Example C220_first_example : optimal_snr_squared 4 8 [9; 2; 5] [true; true; false] [mkQ 1 2 8 8 [1; 1] [(3, 4); (6, 8)]] = Some (25 / 2).
Proof. rewrite C220_unshortened by (try lra; intros b []). apply f_equal. unfold plain_term, sq, rsum. cbn. field. Qed.
End Bands.

(** ** C221 zeus: what is given as rstate0 is the setting start, what is given as lnprob0 is log_prob0 *)
Section Zeus.
Import Sampler_Model Sampler_Props EnsKw_Model EnsKw_Props.
Open Scope string_scope.
Theorem C221_zeus_user {V} (defaults user : dict V) new old : wf defaults -> wf user -> dkeys defaults = zeus_keys ->
  In (new, old) [("start", "rstate0"); ("log_prob0", "lnprob0"); ("iterations", "nsteps")] ->
  (forall v, dget user new = Some v -> dget (set_kwargs defaults zeus_rules user) new = Some v) /\
  (forall v, dget user new = None -> dget user old = Some v -> dget (set_kwargs defaults zeus_rules user) new = Some v) /\
  (dget user new = None -> dget user old = None -> dget (set_kwargs defaults zeus_rules user) new = dget defaults new).
Proof.
  intros Wd Wu K I. destruct (@rules_disjoint) as [_ Dj].
  assert (R : In (new, [old]) zeus_rules /\ In new (dkeys defaults)).
  { rewrite K. cbn in I. destruct I as [E | [E | [E | []]]]; injection E as <- <-; cbn; tauto. }
  destruct R as [R1 R2]. destruct (C53_alias defaults zeus_rules user new [old] Wd Wu Dj R1 R2) as (o & C1 & C2). rewrite C2. clear C2.
  inversion C1 as [w E | A1 a A2 w E1 E2 E3 E4 | E1 E2]; subst o.
  - repeat split; intros; congruence.
  - destruct A1 as [|x1 A1]; cbn in E2; [|destruct A1; discriminate]. injection E2 as <- <-. repeat split; intros; congruence.
  - specialize (E2 old (or_introl eq_refl)). repeat split; intros; congruence.
Qed.
End Zeus.

(** ** C235 The quadratic weights themselves, one band of full length: the sum over the band of the element times 4 over the duration over the spectrum, at unmasked frequencies *)
Section Quadratic.
Import Series_Model Series_Proofs Dft_Proofs Mband2_Model Mband3_Model RoqMb_Model RoqMb_Props.
Open Scope R_scope.
Lemma dot_sum : forall (row : list R) f s n, length row = n -> rdot row (map f (seq s n)) = rsum n (fun i => nth i row 0 * f (s + i)%nat).
Proof.
  induction row as [|r row IH]; intros f s n <-; [reflexivity|]. cbn [length seq map rdot]. rewrite (IH f (S s) (length row) eq_refl).
  replace (S (length row)) with (1 + length row)%nat by lia. rewrite rsum_split. cbn [rsum]. rewrite Nat.add_0_r. cbn [nth].
  replace (0 + r * f s) with (r * f s) by ring. apply (f_equal (Rplus _)). apply rsum_ext. intros i _. cbn [Nat.add nth]. now rewrite Nat.add_succ_r.
Qed.
Theorem C235_quadratic_weights m b psd mask rows w : (0 < m)%nat -> (Ke b <= m)%nat ->
  quadratic_multiband m [(b, m)] psd mask rows = Some w ->
  length w = length rows /\
  forall j row, nth_error rows j = Some row -> length row = (Ke b + 1 - Ks b)%nat ->
  nth_error w j = Some (rsum (Ke b + 1 - Ks b) (fun i => nth i row 0 * (if nth (Ks b + i) mask false then 4 / dur b * (1 / nth (Ks b + i) psd 0) else 0))).
Proof.
  intros Hm HK E. unfold quadratic_multiband in E. destruct (inverse_psd m psd mask) as [P|] eqn:EP; [|discriminate].
  destruct (irfft _) as [x|] eqn:EX; [|discriminate]. injection E as <-. split; [apply map_length|]. intros j row J L.
  rewrite nth_error_map, J. cbn [option_map]. apply f_equal. unfold inverse_psd in EP. destruct (beyond m mask); [discriminate|]. injection EP as <-.
  assert (D : ((2 * m) / 2 = m)%nat) by (rewrite Nat.mul_comm; apply Nat.div_mul; lia).
  assert (LI : length (full_inv_psd (2 * m) psd mask) = (m + 1)%nat) by (unfold full_inv_psd; rewrite map_length, seq_length, D; reflexivity).
  cbn [flat_map]. rewrite app_nil_r. match goal with |- rdot row ?l = _ => change l with (quadratic_band x (b, m)) end.
  destruct (C235_quadratic m m 1 _ b x LI EX Hm ltac:(lia) ltac:(lia) HK) as [_ Q]. rewrite (Q eq_refl). rewrite dot_sum by exact L.
  apply rsum_ext. intros i Hi. apply (f_equal (Rmult _)).
  assert (N : nth (Ks b + i) (full_inv_psd (2 * m) psd mask) 0 = if nth (Ks b + i) mask false then 1 / nth (Ks b + i) psd 0 else 0).
  { apply nth_error_nth. unfold full_inv_psd. rewrite nth_error_map, (nth_error_nth' _ O) by (rewrite seq_length; lia). rewrite seq_nth by lia. reflexivity. }
  rewrite N. destruct (nth (Ks b + i) mask false); [reflexivity|ring].
Qed.
End Quadratic.

(** ** Assumptions of every theorem above *)
Definition Recheck3_Props_all :=
  (@C217_elements,
   @C217_ragged,
   @C227_draws,
   @C219_without_prior,
   @C219_no_mass,
   @C229_one_call,
   @C230_last_adapted,
   @C230_off,
   @C230_stops,
   @C220_unshortened,
   @C221_zeus_user,
   @C235_quadratic_weights).
Print Assumptions Recheck3_Props_all.
