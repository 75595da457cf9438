(** Properties of the gravitational-wave likelihood: phase, distance and calibration marginalisation *)
From Coq Require Import String Reals List Bool Lra Lia ZArith.
From Coquelicot Require Import Hierarchy RInt RInt_analysis Derive AutoDerive Continuity Complex.
From Verif Require Import PyReal GwInner_Model GwInner_Proofs GwGen_Model GwBbh_Props GwLik_Model GwLik_Proofs GwLik_Props.
Import ListNotations.
Open Scope R_scope.
Open Scope list_scope.

(** ** C91 phase marginalisation *)
Ltac rr := match goal with |- ?a = ?b => change (@eq R a b) end.
Section Bessel.
Variable r : R.
Definition gb (t : R) : R := exp (r * cos t).
Lemma gb_cont t : continuous gb t.
Proof. apply (ex_derive_continuous gb). unfold gb. auto_derive. exact I. Qed.
Lemma gb_ex a b : ex_RInt gb a b.
Proof. apply (ex_RInt_continuous gb). intros. apply gb_cont. Qed.
Lemma chasles a b c : RInt gb a b + RInt gb b c = RInt gb a c.
Proof. exact (RInt_Chasles gb a b c (gb_ex a b) (gb_ex b c)). Qed.
Lemma gb_period a : RInt gb (2 * PI) (a + 2 * PI) = RInt gb 0 a.
Proof.
  pose proof (RInt_comp_lin gb 1 (2 * PI) 0 a (gb_ex _ _)) as H. replace (1 * 0 + 2 * PI) with (2 * PI) in H by ring. replace (1 * a + 2 * PI) with (a + 2 * PI) in H by ring.
  rewrite <- H. apply RInt_ext. intros x _. change (1 * gb (1 * x + 2 * PI) = gb x). unfold gb. rewrite !Rmult_1_l. f_equal. f_equal. rewrite <- (cos_period x 1). f_equal. cbn. ring.
Qed.
Lemma gb_turn a : RInt gb a (a + 2 * PI) = RInt gb 0 (2 * PI).
Proof.
  rewrite <- (chasles a 0 (a + 2 * PI)), <- (chasles 0 (2 * PI) (a + 2 * PI)), gb_period. pose proof (chasles a 0 a) as H.
  rewrite (RInt_point a gb) in H. change (zero : R) with 0 in H. lra.
Qed.
Lemma gb_half : RInt gb 0 (2 * PI) = 2 * RInt gb 0 PI.
Proof.
  rewrite <- (chasles 0 PI (2 * PI)). pose proof (RInt_comp_lin gb (-1) (2 * PI) PI 0 (gb_ex _ _)) as H.
  replace (-1 * PI + 2 * PI) with PI in H by ring. replace (-1 * 0 + 2 * PI) with (2 * PI) in H by ring.
  assert (H2 : RInt gb PI (2 * PI) = RInt gb 0 PI).
  { rewrite <- H. transitivity (RInt (fun t => scal (-1) (gb t)) PI 0).
    - apply RInt_ext. intros x _. f_equal. unfold gb. f_equal. f_equal. replace (-1 * x + 2 * PI) with (- (x - 2 * INR 1 * PI)) by (cbn; ring). rewrite cos_neg.
      rewrite <- (cos_period (x - 2 * INR 1 * PI) 1). f_equal. ring.
    - transitivity (scal (-1) (RInt gb PI 0)); [exact (RInt_scal gb PI 0 (-1) (gb_ex _ _))|].
      pose proof (opp_RInt_swap gb PI 0 (gb_ex _ _)) as W. change (- RInt gb PI 0 = RInt gb 0 PI) in W. change (-1 * RInt gb PI 0 = RInt gb 0 PI). lra. }
  rewrite H2. rr; ring.
Qed.
Lemma gb_double al : RInt (fun phi => exp (r * cos (2 * phi + al))) 0 (2 * PI) = 2 * RInt gb 0 PI.
Proof.
  pose proof (RInt_comp_lin gb 2 al 0 (2 * PI) (gb_ex _ _)) as H. replace (2 * 0 + al) with al in H by ring. replace (2 * (2 * PI) + al) with (al + 2 * PI + 2 * PI) in H by ring.
  assert (E : RInt gb al (al + 2 * PI + 2 * PI) = 2 * (2 * RInt gb 0 PI)).
  { rewrite <- (chasles al (al + 2 * PI)), !gb_turn, gb_half. rr; ring. }
  rewrite E in H. assert (X : ex_RInt (fun y => gb (2 * y + al)) 0 (2 * PI)).
  { apply (ex_RInt_continuous (fun y => gb (2 * y + al))). intros z _. apply (ex_derive_continuous (fun y => gb (2 * y + al))). unfold gb. auto_derive. exact I. }
  pose proof (RInt_scal (fun y => gb (2 * y + al)) 0 (2 * PI) 2 X) as Y.
  assert (Z : 2 * RInt (fun y => gb (2 * y + al)) 0 (2 * PI) = 2 * (2 * RInt gb 0 PI)) by (etransitivity; [symmetry; exact Y|exact H]).
  unfold gb at 1 in Z. apply (Rmult_eq_reg_l 2); [exact Z|lra].
Qed.
Lemma I0_range : 1 <= I0 r <= exp (Rabs r).
Proof.
  pose proof PI_RGT_0 as PP. unfold I0. change (RInt (fun t => exp (r * cos t)) 0 PI) with (RInt gb 0 PI). split.
  - assert (A : RInt (fun t => 1 + r * cos t) 0 PI <= RInt gb 0 PI).
    { apply RInt_le; [lra| |apply gb_ex|].
      - apply (ex_RInt_continuous (fun t => 1 + r * cos t)). intros z _. apply (ex_derive_continuous (fun t => 1 + r * cos t)). auto_derive. exact I.
      - intros x _. apply exp_ineq1_le. }
    assert (B : RInt (fun t => 1 + r * cos t) 0 PI = PI).
    { apply is_RInt_unique. replace PI with ((PI + r * sin PI) - (0 + r * sin 0)) at 2 by (rewrite sin_PI, sin_0; ring).
      apply (is_RInt_derive (fun t => t + r * sin t)).
      - intros x _. auto_derive; [exact I|ring].
      - intros x _. apply (ex_derive_continuous (fun t => 1 + r * cos t)). auto_derive. exact I. }
    rewrite B in A. apply (Rmult_le_reg_l PI); [lra|]. rewrite <- Rmult_assoc, Rinv_r, Rmult_1_l, Rmult_1_r by lra. exact A.
  - assert (A : RInt gb 0 PI <= RInt (fun _ => exp (Rabs r)) 0 PI).
    { apply RInt_le; [lra|apply gb_ex|apply ex_RInt_const|]. intros x _. unfold gb. destruct (Rle_lt_dec (r * cos x) (Rabs r)) as [H|H].
      - destruct H as [H|H]; [left; apply exp_increasing; exact H|rewrite H; lra].
      - exfalso. pose proof (COS_bound x). unfold Rabs in H. destruct (Rcase_abs r); nra. }
    rewrite RInt_const in A. change (scal (PI - 0) (exp (Rabs r))) with ((PI - 0) * exp (Rabs r)) in A.
    apply (Rmult_le_reg_l PI); [lra|]. rewrite <- Rmult_assoc, Rinv_r, Rmult_1_l by lra. lra.
Qed.
End Bessel.
(** ln_i0 is the logarithm of the Bessel function, without overflow of exp *)
Lemma exp_ln_i0 x : exp (ln_i0 x) = I0 x.
Proof.
  unfold ln_i0, i0e. pose proof (I0_range x). rewrite exp_plus, exp_ln by (apply Rmult_lt_0_compat; [apply exp_pos|lra]).
  rewrite Rmult_comm, <- Rmult_assoc, <- exp_plus, Rplus_opp_r, exp_0. ring.
Qed.
Lemma polar z : exists al, z = (Cmod z * cos al, Cmod z * sin al).
Proof.
  destruct z as [x y]. exists (azimuth y x). destruct (C62_azimuth x y) as [_ [A B]]. unfold Cmod. cbn [fst snd]. rewrite A, B. reflexivity.
Qed.
Lemma mean_phase z s : s = 1 \/ s = -1 -> / (2 * PI) * RInt (fun phi => exp (fst (z * cis (s * 2 * phi))%C)) 0 (2 * PI) = I0 (Cmod z).
Proof.
  intros Hs. pose proof PI_RGT_0 as PP. destruct (polar z) as [al E].
  rewrite (RInt_ext _ (fun phi => exp (Cmod z * cos (2 * phi + s * al)))).
  - rewrite gb_double. unfold I0, gb. field. lra.
  - intros phi _. f_equal. rewrite E at 1. cbn. destruct Hs as [-> | ->].
    + replace (1 * 2 * phi) with (2 * phi) by ring. rewrite Rmult_1_l, cos_plus. ring.
    + replace (-1 * 2 * phi) with (- (2 * phi)) by ring. replace (2 * phi + -1 * al) with (2 * phi - al) by ring. rewrite cos_minus, cos_neg, sin_neg. ring.
Qed.
Definition phased : cfg := mkCfg false false true false.
Definition phase_ll (n : nat) (T : R) (N : net) : lres := ll_ratio n T phased no_table 1 1 (mkTP 0 0 (fun _ => 0)) 0 0 N.
Definition rotated (th : R) : net -> net := mapnet (times_c (cis th)).
Lemma plain_rotated n T N th : plain_ll n T (rotated th N) = Val (fst (d_inner_h n T N * cis (- th))%C - opt_snr_sq n T N / 2).
Proof.
  unfold plain_ll, ll_ratio, base_ll. cbn [tmarg dmarg pmarg plain]. unfold rotated. rewrite d_inner_h_times_c, opt_times_c, cis_norm, cis_conj, Cmult_comm. do 2 f_equal. lra.
Qed.
(** the phase marginalised likelihood is the mean over phi in [0, 2 pi] of the likelihoods of the templates turned by
    e^{2 i phi} or by e^{-2 i phi} *)
Theorem C91_mean_over_phase n T N s : s = 1 \/ s = -1 ->
  lik (phase_ll n T N) = / (2 * PI) * RInt (fun phi => lik (plain_ll n T (rotated (s * 2 * phi) N))) 0 (2 * PI).
Proof.
  intros Hs. unfold phase_ll, ll_ratio, base_ll. cbn [tmarg dmarg pmarg phased lik].
  set (z := d_inner_h n T N). set (h := opt_snr_sq n T N).
  set (F := fun phi => exp (fst (z * cis (- s * 2 * phi))%C)).
  assert (X : ex_RInt F 0 (2 * PI)).
  { apply (ex_RInt_continuous F). intros x _. apply (ex_derive_continuous F). unfold F, cis. cbn. auto_derive. exact I. }
  pose proof (RInt_scal F 0 (2 * PI) (exp (- (h / 2))) X) as Y.
  assert (Z : RInt (fun phi => lik (plain_ll n T (rotated (s * 2 * phi) N))) 0 (2 * PI) = exp (- (h / 2)) * RInt F 0 (2 * PI)).
  { etransitivity; [|exact Y]. apply RInt_ext. intros phi _. rewrite plain_rotated. cbn [lik]. fold z h. unfold Rminus. rewrite exp_plus.
    replace (- (s * 2 * phi)) with (- s * 2 * phi) by ring. fold (F phi). change (F phi * exp (- (h / 2)) = exp (- (h / 2)) * F phi). ring. }
  unfold Rminus. rewrite exp_plus, exp_ln_i0, <- (mean_phase z (- s)) by lra. fold F. transitivity (/ (2 * PI) * (exp (- (h / 2)) * RInt F 0 (2 * PI))); [rr; ring|].
  f_equal. symmetry. exact Z.
Qed.
(** it does not depend on the phase of the template, and lies between the values at SNR 0 and at the best phase *)
Theorem C91_phase_free n T N th : phase_ll n T (rotated th N) = phase_ll n T N.
Proof.
  unfold phase_ll, ll_ratio, base_ll. cbn [tmarg dmarg pmarg phased]. unfold rotated. rewrite d_inner_h_times_c, opt_times_c, cis_norm, cis_conj, Cmod_mult, Cmod_cis.
  rewrite !Rmult_1_l. reflexivity.
Qed.
Theorem C91_range n T N x : phase_ll n T N = Val x -> - (opt_snr_sq n T N / 2) <= x <= Cmod (d_inner_h n T N) - opt_snr_sq n T N / 2.
Proof.
  unfold phase_ll, ll_ratio, base_ll. cbn [tmarg dmarg pmarg phased]. intros E. injection E as <-. set (z := Cmod (d_inner_h n T N)).
  pose proof (I0_range z) as [A B]. rewrite <- exp_ln_i0 in A, B. rewrite (Rabs_pos_eq z) in B by apply Cmod_ge_0.
  assert (L : 0 <= ln_i0 z). { destruct (Rle_lt_dec 0 (ln_i0 z)) as [H|H]; [exact H|]. apply exp_increasing in H. rewrite exp_0 in H. lra. }
  assert (U : ln_i0 z <= z). { destruct (Rle_lt_dec (ln_i0 z) z) as [H|H]; [exact H|]. apply exp_increasing in H. lra. }
  lra.
Qed.
(** reconstruction: the weight of phi is the likelihood of the template turned by e^{+2 i phi} ... *)
Theorem C91_reconstruction n T N phi : phase_weight n T N phi = lik (plain_ll n T (rotated (2 * phi) N)).
Proof.
  rewrite plain_rotated. unfold phase_weight. cbn [lik]. f_equal. replace (- 2 * phi) with (- (2 * phi)) by ring. set (z := (d_inner_h n T N * cis (- (2 * phi)))%C). cbn. ring.
Qed.
(** ... not, as documented, e^{-2 i phi} *)
Theorem C91_sign_refuted : exists N phi, phase_weight 3 1 N phi <> lik (plain_ll 3 1 (rotated (- (2 * phi)) N)).
Proof.
  exists (rotated (PI / 2) ex_net), (PI / 4). rewrite C91_reconstruction.
  assert (E : forall a b, rotated a (rotated b ex_net) = rotated (a + b) ex_net).
  { intros a b. unfold rotated, mapnet, ex_net. cbn [map fst snd]. do 2 f_equal. apply FunctionalExtensionality.functional_extensionality. intros j. unfold times_c. rewrite <- cis_add. ring. }
  rewrite !E, !plain_rotated. cbn [lik]. intros H. apply exp_inv in H.
  replace (- (2 * (PI / 4) + PI / 2)) with (- PI) in H by field. replace (- (- (2 * (PI / 4)) + PI / 2)) with 0 in H by field.
  destruct C88_example as [X _]. unfold plain_ll, ll_ratio, base_ll in X. cbn [tmarg dmarg pmarg plain] in X. injection X as X.
  assert (D : d_inner_h 3 1 ex_net = RtoC 4).
  { unfold d_inner_h, ex_net. cbn [map csum fold_right fst snd]. unfold inner. cbn [Sg msk ex_det Nat.eqb psd dat]. unfold ex_h. cbn [Nat.eqb]. apply injective_projections; cbn; field. }
  rewrite D in H. cbn in H. rewrite cos_neg, sin_neg, cos_PI, sin_PI, cos_0, sin_0 in H. lra.
Qed.
Theorem C91_example : phase_ll 3 1 ex_net = Val (ln_i0 4 - 2) /\ 0 <= ln_i0 4 <= 4.
Proof.
  assert (D : d_inner_h 3 1 ex_net = RtoC 4).
  { unfold d_inner_h, ex_net. cbn [map csum fold_right fst snd]. unfold inner. cbn [Sg msk ex_det Nat.eqb psd dat]. unfold ex_h. cbn [Nat.eqb]. apply injective_projections; cbn; field. }
  assert (O : opt_snr_sq 3 1 ex_net = 4).
  { unfold opt_snr_sq, ex_net. cbn [map rsum fold_right fst snd]. rewrite inner_self. cbn [Sr msk ex_det Nat.eqb psd fst RtoC]. unfold ex_h, cnorm2. cbn. field. }
  assert (E : phase_ll 3 1 ex_net = Val (ln_i0 4 - 2)).
  { unfold phase_ll, ll_ratio, base_ll. cbn [tmarg dmarg pmarg phased]. rewrite D, O, Cmod_R, (Rabs_pos_eq 4) by lra. f_equal. lra. }
  split; [exact E|]. apply C91_range in E. rewrite D, O, Cmod_R, (Rabs_pos_eq 4) in E by lra. lra.
Qed.

(** ** C92 distance marginalisation *)
Definition grid_ok (grid : list (R * R)) (dd : R) : Prop := List.Forall (fun t => 0 < fst t /\ 0 <= snd t) grid /\ 0 < rsum (map snd grid) /\ 0 < dd.
Definition entry_at (pm : bool) (ref d h D : R) : R := (if pm then ln_i0 (Rabs (d * (ref / D))) else d * (ref / D)) - h * (ref / D) ^ 2 / 2.
Lemma lse_val l s : List.Forall (fun t => 0 <= snd t) l -> rsum (map (fun t => snd t * expo (fst t)) l) = s -> 0 < s -> lse l = Val (ln s).
Proof.
  intros H E P. destruct l as [|t l]; [cbn in E; lra|]. unfold lse. cbv zeta. rewrite E. destruct (Rle_dec s 0); [lra|reflexivity].
Qed.
Lemma weighted_pos (grid : list (R * R)) (w : R -> R) : List.Forall (fun t => 0 < fst t /\ 0 <= snd t) grid -> 0 < rsum (map snd grid) -> (forall D, 0 < w D) ->
  0 < rsum (map (fun t => snd t * w (fst t)) grid).
Proof.
  intros HF HP HW. induction HF as [|t g [Ht Hp] HF IH]; cbn [map] in *; [cbn in HP; lra|]. rewrite rsum_cons in HP |- *.
  assert (A : 0 <= rsum (map snd g)). { apply rsum_nonneg. apply Forall_forall. intros x Hx. apply in_map_iff in Hx. destruct Hx as [y [<- Hy]]. rewrite Forall_forall in HF. apply HF. exact Hy. }
  assert (B : 0 <= rsum (map (fun t => snd t * w (fst t)) g)).
  { apply rsum_nonneg. apply Forall_forall. intros x Hx. apply in_map_iff in Hx. destruct Hx as [y [<- Hy]]. rewrite Forall_forall in HF. apply Rmult_le_pos; [apply HF; exact Hy|left; apply HW]. }
  specialize (HW (fst t)). destruct (Rle_lt_or_eq_dec 0 (snd t) Hp) as [L|L].
  - apply Rplus_lt_le_0_compat; [apply Rmult_lt_0_compat; assumption|exact B].
  - rewrite <- L in *. assert (0 < rsum (map (fun t => snd t * w (fst t)) g)) by (apply IH; lra). lra.
Qed.
Lemma dist_entry_val pm grid dd ref d h : grid_ok grid dd ->
  dist_entry pm grid dd ref d h = Val (ln (rsum (map (fun t => snd t * exp (entry_at pm ref d h (fst t))) grid) / rsum (map snd grid))).
Proof.
  intros [HF [HP HD]]. unfold dist_entry.
  assert (N : forall f : R -> option R, List.Forall (fun t : option R * R => 0 <= snd t) (map (fun t : R * R => (f (fst t), snd t * dd)) grid)).
  { intros f. apply Forall_forall. intros x Hx. apply in_map_iff in Hx. destruct Hx as [y [<- Hy]]. cbn. rewrite Forall_forall in HF. apply Rmult_le_pos; [apply HF; exact Hy|lra]. }
  assert (Q : forall w : R -> R, rsum (map (fun t => snd t * expo (fst t)) (map (fun t : R * R => (Some (w (fst t)), snd t * dd)) grid)) = dd * rsum (map (fun t => snd t * exp (w (fst t))) grid)).
  { intros w. rewrite map_map, <- rsum_scal. f_equal. apply map_ext. intros t. cbn. ring. }
  rewrite (lse_val _ (dd * rsum (map snd grid)) (N (fun D => Some (0 / D)))).
  3:{ apply Rmult_lt_0_compat; lra. }
  2:{ rewrite (Q (fun D => 0 / D)). f_equal. f_equal. apply map_ext. intros t. unfold Rdiv. rewrite Rmult_0_l, exp_0. ring. }
  pose proof (weighted_pos grid (fun D => exp (entry_at pm ref d h D)) HF HP (fun D => exp_pos _)) as WP.
  match goal with |- context [lminus _ ?v] => match goal with |- _ = ?w => change (lminus (lse (map (fun t : R * R => (Some (entry_at pm ref d h (fst t)), snd t * dd)) grid)) v = w) end end.
  rewrite (lse_val _ (dd * rsum (map (fun t => snd t * exp (entry_at pm ref d h (fst t))) grid)) (N (fun D => Some (entry_at pm ref d h D))) (Q _)).
  2:{ apply Rmult_lt_0_compat; lra. }
  cbn [lminus]. f_equal. unfold Rdiv. rewrite !ln_mult, ln_Rinv by (try apply Rinv_0_lt_compat; lra). ring.
Qed.
Definition dist_cfg (pm : bool) : cfg := mkCfg false true pm false.
Definition fixed_cfg (pm : bool) : cfg := mkCfg false false pm false.
Lemma Cmod_scal r z : Cmod (RtoC r * z)%C = Rabs r * Cmod z.
Proof. rewrite Cmod_mult, Cmod_R. reflexivity. Qed.
Lemma fixed_scaled n T margd d0 ref tp s j N pm a : 0 <= a ->
  ll_ratio n T (fixed_cfg pm) margd d0 ref tp s j (mapnet (times_c (RtoC a)) N) =
  Val ((if pm then ln_i0 (a * Cmod (d_inner_h n T N)) else a * fst (d_inner_h n T N)) - a ^ 2 * opt_snr_sq n T N / 2).
Proof.
  intros Ha. unfold ll_ratio, base_ll. cbn [tmarg dmarg pmarg fixed_cfg]. rewrite d_inner_h_times_c, opt_times_c, Cconj_R.
  assert (E : cnorm2 (RtoC a) = a ^ 2) by (unfold cnorm2; cbn; ring). rewrite E. destruct pm.
  - rewrite Cmod_scal, Rabs_pos_eq by exact Ha. reflexivity.
  - do 2 f_equal. cbn. ring.
Qed.
(** the prior-weighted mean over the distance grid of the likelihoods of the template moved to each distance, if
    the interpolated table is exact at the point; so the choice of the reference distance does not matter *)
Theorem C92_mean_over_distance n T N (pm : bool) grid dd margd d0 ref tp s j :
  grid_ok grid dd -> 0 < d0 -> 0 < ref ->
  (let x := if pm then Cmod (d_inner_h n T N) * d0 / ref else fst (d_inner_h n T N) * d0 / ref in
   let h := opt_snr_sq n T N * d0 ^ 2 / ref ^ 2 in exists y, dist_entry pm grid dd ref x h = Val y /\ margd x h = Some y) ->
  lik (ll_ratio n T (dist_cfg pm) margd d0 ref tp s j N) =
  rsum (map (fun t => snd t * lik (ll_ratio n T (fixed_cfg pm) margd d0 ref tp s j (mapnet (times_c (RtoC (d0 / fst t))) N))) grid) / rsum (map snd grid).
Proof.
  intros G Hd0 Hr [y [E M]]. unfold ll_ratio at 1, base_ll. cbn [tmarg dmarg pmarg dist_cfg].
  assert (Hsc : (d_inner_h n T N * RtoC d0 / RtoC ref)%C = (RtoC (d0 / ref) * d_inner_h n T N)%C).
  { rewrite RtoC_div by lra. unfold Cdiv. ring. }
  rewrite Hsc. assert (Hx : (if pm then Cmod (RtoC (d0 / ref) * d_inner_h n T N)%C else fst (RtoC (d0 / ref) * d_inner_h n T N)%C) =
     (if pm then Cmod (d_inner_h n T N) * d0 / ref else fst (d_inner_h n T N) * d0 / ref)).
  { destruct pm; [rewrite Cmod_scal, Rabs_pos_eq by (apply Rlt_le, Rdiv_lt_0_compat; lra); field; lra|]. cbn. field. lra. }
  rewrite Hx, M. cbn [lik]. rewrite (dist_entry_val _ _ _ _ _ _ G) in E. injection E as <-. destruct G as [HF [HP HD]].
  rewrite exp_ln.
  2:{ apply Rdiv_lt_0_compat; [|exact HP]. apply (weighted_pos grid (fun D => exp (entry_at pm ref (if pm then Cmod (d_inner_h n T N) * d0 / ref else fst (d_inner_h n T N) * d0 / ref) (opt_snr_sq n T N * d0 ^ 2 / ref ^ 2) D)) HF HP). intros. apply exp_pos. }
  f_equal. f_equal. apply map_ext_in. intros t Ht. rewrite Forall_forall in HF. destruct (HF t Ht) as [Dp _]. f_equal.
  rewrite fixed_scaled by (apply Rlt_le, Rdiv_lt_0_compat; lra). cbn [lik]. f_equal. unfold entry_at. f_equal.
  - destruct pm; [|field; lra]. f_equal. replace (Cmod (d_inner_h n T N) * d0 / ref * (ref / fst t)) with (d0 / fst t * Cmod (d_inner_h n T N)) by (field; lra).
    apply Rabs_pos_eq. apply Rmult_le_pos; [apply Rlt_le, Rdiv_lt_0_compat; lra|apply Cmod_ge_0].
  - field. lra.
Qed.
(** reconstruction: prior times likelihood at that distance; the weights add up to the marginalised likelihood *)
Theorem C92_reconstruction n T N pm d0 D p margd ref tp s j : 0 < d0 -> 0 < D ->
  dist_weight n T pm N d0 D p = p * lik (ll_ratio n T (fixed_cfg pm) margd d0 ref tp s j (mapnet (times_c (RtoC (d0 / D))) N)).
Proof.
  intros Hd HD. rewrite fixed_scaled by (apply Rlt_le, Rdiv_lt_0_compat; lra). unfold dist_weight. cbn [lik]. rewrite Rmult_comm. f_equal. f_equal.
  assert (E : (d_inner_h n T N * RtoC d0 / RtoC D)%C = (RtoC (d0 / D) * d_inner_h n T N)%C) by (rewrite RtoC_div by lra; unfold Cdiv; ring).
  cbv zeta. rewrite E. f_equal.
  - destruct pm; [rewrite Cmod_scal, Rabs_pos_eq by (apply Rlt_le, Rdiv_lt_0_compat; lra); reflexivity|]. cbn. ring.
  - field. lra.
Qed.
(** outside its range the table answers -inf: weak templates get no likelihood at all, though theirs is close to 1 *)
Theorem C92_weak_template_refuted n T N pm spl d0 ref tp s j : 0 < ref -> opt_snr_sq n T N * d0 ^ 2 / ref ^ 2 < / 10 ^ 5 ->
  ll_ratio n T (dist_cfg pm) (bounded pm spl) d0 ref tp s j N = NegInf.
Proof.
  intros Hr H. unfold ll_ratio, base_ll. cbn [tmarg dmarg pmarg dist_cfg]. unfold bounded. repeat destruct (Rlt_dec _ _); try reflexivity. contradiction.
Qed.
Theorem C92_example : (* two distances with prior 1 and 3, reference distance 2, unphased *)
  dist_entry false [(1, 1); (2, 3)] 1 2 4 8 = Val (ln ((exp (-8) + 3 * exp 0) / 4)) /\
  dist_entry false [(1, 1); (2, 3)] 1 2 0 0 = Val 0.
Proof.
  assert (G : grid_ok [(1, 1); (2, 3)] 1) by (split; [repeat constructor; cbn; lra|cbn; lra]).
  split; rewrite (dist_entry_val _ _ _ _ _ _ G); unfold entry_at; cbn [map fst snd]; rewrite !rsum_cons; cbn [rsum fold_right].
  - replace (4 * (2 / 1) - 8 * (2 / 1) ^ 2 / 2) with (-8) by field. replace (4 * (2 / 2) - 8 * (2 / 2) ^ 2 / 2) with 0 by field. do 2 f_equal. field.
  - f_equal. replace (0 * (2 / 1) - 0 * (2 / 1) ^ 2 / 2) with 0 by field. replace (0 * (2 / 2) - 0 * (2 / 2) ^ 2 / 2) with 0 by field. rewrite exp_0.
    replace ((1 * 1 + (3 * 1 + 0)) / (1 + (3 + 0))) with 1 by field. apply ln_1.
Qed.

(** ** C93 which distance table is used *)
Definition near (a b : R) : Prop := Rabs (a - b) <= / 10 ^ 8 + / 10 ^ 15 * Rabs b.
Lemma close_near a b : close a b = true <-> near a b.
Proof. unfold close, near. destruct (Rle_dec _ _); split; intros; try discriminate; try contradiction; auto. Qed.
Lemma close_refl a : close a a = true.
Proof. apply close_near. unfold near. rewrite Rminus_eq_0, Rabs_R0. pose proof (Rabs_pos a). lra. Qed.
Lemma allclose_spec a b : allclose a b = Some true <-> Forall2 near a b.
Proof.
  unfold allclose. split.
  - destruct (Nat.eqb_spec (List.length a) (List.length b)) as [E|E]; [|discriminate]. intros H. injection H as H. revert b E H.
    induction a as [|x a IH]; intros [|y b] E H; cbn in E; try discriminate; [constructor|]. cbn [combine forallb fst snd] in H. apply andb_true_iff in H. destruct H as [A B].
    constructor; [apply close_near; exact A|]. apply IH; [congruence|exact B].
  - intros H. assert (L : List.length a = List.length b) by (induction H; cbn; congruence). rewrite L, Nat.eqb_refl. clear L. f_equal. induction H as [|x y a b A B IH]; [reflexivity|]. cbn [combine forallb fst snd]. rewrite IH, (proj2 (close_near x y) A). reflexivity.
Qed.
Definition matches (D p : list R) (ref : R) (ph : bool) (t : ltab) : Prop :=
  exists x y r, lt_dist t = Some x /\ Forall2 near x D /\ lt_prior t = Some y /\ Forall2 near y p /\
    lt_ref t = Some r /\ near r ref /\ lt_phase t = Some ph.
Lemma test_matches D p ref ph t : test_table D p ref ph t = Some true <-> matches D p ref ph t.
Proof.
  unfold test_table, matches. split.
  - intros H. destruct (lt_dist t) as [x|]; [|discriminate]. destruct (allclose x D) as [[]|] eqn:A; try discriminate.
    destruct (lt_prior t) as [y|]; [|discriminate]. destruct (allclose y p) as [[]|] eqn:B; try discriminate.
    destruct (lt_ref t) as [r|]; [|discriminate]. destruct (close r ref) eqn:C0; [|discriminate]. destruct (lt_phase t) as [q|]; [|discriminate].
    injection H as H. exists x, y, r. apply allclose_spec in A, B. apply close_near in C0. repeat (split; [reflexivity || assumption|]).
    f_equal. apply close_near in H. unfold near in H. destruct q, ph; cbn in H; auto; exfalso; revert H; unfold Rabs; repeat destruct (Rcase_abs _); lra.
  - intros [x [y [r [-> [A [-> [B [-> [C0 ->]]]]]]]]]. apply allclose_spec in A, B. rewrite A, B, (proj2 (close_near r ref) C0), close_refl. reflexivity.
Qed.
(** a table found by file name is used exactly if distances, prior, reference distance and phase flag all agree
    (to 1e-8), otherwise a new one is made *)
Theorem C93_file D p ref ph t i : lt_table t = Some i -> test_table D p ref ph t <> None ->
  (matches D p ref ph t -> setup_table D p ref ph (ByName (Some t)) = UseTable i) /\
  (~ matches D p ref ph t -> setup_table D p ref ph (ByName (Some t)) = Create) /\
  setup_table D p ref ph (ByName None) = Create.
Proof.
  intros Ht Hn. unfold setup_table, use_dict. split; [|split; [|reflexivity]]; intros M.
  - apply test_matches in M. rewrite M, Ht. reflexivity.
  - destruct (test_table D p ref ph t) as [[]|] eqn:E; [exfalso; apply M; apply test_matches; exact E|reflexivity|contradiction].
Qed.
(** the file a likelihood wrote is accepted by one with the same settings *)
Theorem C93_own_file D p ref ph i : setup_table D p ref ph (ByName (Some (mkLT (Some D) (Some p) (Some ref) (Some ph) (Some i)))) = UseTable i.
Proof.
  assert (M : matches D p ref ph (mkLT (Some D) (Some p) (Some ref) (Some ph) (Some i))).
  { assert (Q : forall l, Forall2 near l l) by (induction l; constructor; auto; apply close_near, close_refl). exists D, p, ref. cbn. repeat split; auto. apply close_near, close_refl. }
  apply C93_file; [reflexivity| |exact M]. rewrite (proj2 (test_matches D p ref ph _) M). discriminate.
Qed.
(** a table handed over as a dictionary is used whatever it was made for *)
Theorem C93_dictionary_refuted D p ref ph t i : lt_table t = Some i -> test_table D p ref ph t <> None ->
  setup_table D p ref ph (ByDict t) = UseTable i.
Proof. intros Ht Hn. unfold setup_table, use_dict. destruct (test_table D p ref ph t); [|contradiction]. rewrite Ht. reflexivity. Qed.
(** the tolerance is absolute: priors that differ by less than 1e-8 everywhere share a table, even if one is twice the other *)
Theorem C93_small_densities_refuted D ref ph i m : 
  setup_table D (repeat (2 / 10 ^ 9) m) ref ph (ByName (Some (mkLT (Some D) (Some (repeat (1 / 10 ^ 9) m)) (Some ref) (Some ph) (Some i)))) = UseTable i.
Proof.
  assert (M : matches D (repeat (2 / 10 ^ 9) m) ref ph (mkLT (Some D) (Some (repeat (1 / 10 ^ 9) m)) (Some ref) (Some ph) (Some i))).
  { assert (Q : forall l, Forall2 near l l) by (induction l; constructor; auto; apply close_near, close_refl). exists D, (repeat (1 / 10 ^ 9) m), ref. cbn. repeat split; auto.
    - induction m; cbn; constructor; auto. unfold near. unfold Rabs. repeat destruct (Rcase_abs _); lra.
    - apply close_near, close_refl. }
  apply C93_file; [reflexivity| |exact M]. rewrite (proj2 (test_matches _ _ _ _ _) M). discriminate.
Qed.
Theorem C93_example : let t := mkLT (Some [1; 2]) (Some [/ 2; / 2]) (Some 1) (Some true) (Some 7%nat) in
  setup_table [1; 2] [/ 2; / 2] (3 / 2) true (ByName (Some t)) = Create /\ setup_table [1; 2] [/ 2; / 2] (3 / 2) true (ByDict t) = UseTable 7.
Proof.
  cbv zeta. set (t := mkLT _ _ _ _ _).
  assert (K : test_table [1; 2] [/ 2; / 2] (3 / 2) true t = Some false).
  { unfold test_table, t. cbn [lt_dist lt_prior lt_ref lt_phase]. unfold allclose. cbn [List.length Nat.eqb combine forallb fst snd]. rewrite !close_refl. cbn [andb].
    unfold close. destruct (Rle_dec _ _) as [H|H]; [|reflexivity]. exfalso. revert H. unfold Rabs. repeat destruct (Rcase_abs _); lra. }
  unfold setup_table, use_dict. rewrite K. split; reflexivity.
Qed.

(** ** C94 calibration marginalisation *)
Lemma cal_dih n T N c : d_inner_h_cal n T N c = Cconj (d_inner_h n T (recalibrate N c)).
Proof.
  unfold d_inner_h_cal, d_inner_h, recalibrate. rewrite csum_conj, !map_map. f_equal. apply map_ext. intros [[d h] q]. cbn [fst snd].
  unfold inner. rewrite Cconj_scal, Sg_conj, Sg_scal. apply Sg_ext. intros j _. destruct (msk d j); [|cring].
  rewrite <- cdivr_conj, <- Cmult_assoc, cdivr_scal_r. do 2 f_equal. ring.
Qed.
Lemma cal_opt n T N c : opt_snr_sq_cal n T N c = opt_snr_sq n T (recalibrate N c).
Proof.
  unfold opt_snr_sq_cal, opt_snr_sq, recalibrate. rewrite !map_map. f_equal. apply map_ext. intros [[d h] q]. cbn [fst snd].
  rewrite inner_self. cbn [fst RtoC]. rewrite Sr_scal. apply Sr_ext. intros j _. destruct (msk d j); [|ring]. rewrite cnorm2_mult, <- rdivr_scal. ring.
Qed.
Lemma cal_tc n T N c k : d_inner_h_tc_cal n T N c k = d_inner_h_tc n T (recalibrate N c) k.
Proof.
  unfold d_inner_h_tc_cal, d_inner_h_tc, recalibrate. rewrite !map_map. f_equal. apply map_ext. intros [[d h] q]. cbn [fst snd]. f_equal. apply Sg_ext. intros j _.
  f_equal. rewrite cdivr_scal_r. destruct (msk d j); f_equal; ring.
Qed.
Lemma rows_spec {A} (f : A -> lres) l : (forall x, In x l -> f x <> Raise) ->
  exists r, rows (map f l) = Some r /\ map expo r = map (fun x => lik (f x)) l /\ List.length r = List.length l.
Proof.
  induction l as [|x l IH]; intros H; [exists []; repeat split|]. destruct IH as [r [E [M L]]]; [intros; apply H; right; assumption|].
  cbn [map rows]. rewrite E. pose proof (H x (or_introl eq_refl)) as Hx. destruct (f x) as [v| |] eqn:F; [| |contradiction].
  - exists (Some v :: r). split; [reflexivity|]. split; cbn; [f_equal; exact M|f_equal; exact L].
  - exists (None :: r). split; [reflexivity|]. split; cbn; [f_equal; exact M|f_equal; exact L].
Qed.
Lemma rows_raise {A} (f : A -> lres) l x : In x l -> f x = Raise -> rows (map f l) = None.
Proof.
  induction l as [|y l IH]; intros H E; [destruct H|]. cbn [map rows]. destruct H as [-> | H]; [rewrite E; reflexivity|].
  rewrite (IH H E). destruct (to_entry (f y)); reflexivity.
Qed.
(** the value of one curve is that of the network with its responses multiplied by the curve *)
Lemma row_recal n T c margd d0 ref tp s j N nc i : tmarg c = false \/ dmarg c = false ->
  (if tmarg c then
      if dmarg c then
        if Nat.eqb nc 1 then time_marg n T (fun d => base_ll c margd d0 ref d (opt_snr_sq_cal n T N 0)) tp s j (d_inner_h_tc_cal n T N i)
        else if Nat.eqb (List.length (filter (fun k => in_tc tp (tc_label n T s j k)) (seq 0 (n - 1)))) nc then
          lse (map (fun q => (base_ll c margd d0 ref (d_inner_h_tc_cal n T N i (snd q)) (opt_snr_sq_cal n T N (fst q)), tp_prob tp (tc_label n T s j (snd q)) * delta_tc n T))
                   (combine (seq 0 nc) (filter (fun k => in_tc tp (tc_label n T s j k)) (seq 0 (n - 1)))))
        else Raise
      else time_marg n T (fun d => base_ll c margd d0 ref d (opt_snr_sq_cal n T N i)) tp s j (d_inner_h_tc_cal n T N i)
    else match base_ll c margd d0 ref (d_inner_h_cal n T N i) (opt_snr_sq_cal n T N i) with Some x => Val x | None => NegInf end)
  = ll_ratio n T c margd d0 ref tp s j (recalibrate N i).
Proof.
  intros H. unfold ll_ratio. rewrite (cal_opt n T N i), cal_dih, base_ll_conj. destruct (tmarg c); [|reflexivity]. destruct H as [H|H]; [discriminate|]. rewrite H.
  unfold time_marg. f_equal. apply map_ext. intros k. rewrite cal_tc. reflexivity.
Qed.
(** the calibration marginalised likelihood is the plain mean over the response curves of the likelihood of the
    recalibrated template, with or without phase and distance or time marginalisation *)
Theorem C94_mean_over_curves n T c margd d0 ref tp s j N nc : tmarg c = false \/ dmarg c = false -> (0 < nc)%nat ->
  (forall i, (i < nc)%nat -> ll_ratio n T c margd d0 ref tp s j (recalibrate N i) <> Raise) ->
  lik (cal_marg n T c margd d0 ref tp s j N nc) =
  rsum (map (fun i => lik (ll_ratio n T c margd d0 ref tp s j (recalibrate N i))) (seq 0 nc)) / INR nc.
Proof.
  intros Hc Hn HR. unfold cal_marg. rewrite (map_ext _ (fun i => ll_ratio n T c margd d0 ref tp s j (recalibrate N i))).
  2:{ intros i. apply row_recal. exact Hc. }
  destruct (rows_spec (fun i => ll_ratio n T c margd d0 ref tp s j (recalibrate N i)) (seq 0 nc)) as [r [E [M L]]].
  { intros i Hi. apply in_seq in Hi. apply HR. lia. }
  rewrite E, <- M. rewrite seq_length in L.
  pose proof (lse_lik (map (fun v => (v, 1)) r)) as W. rewrite map_map in W. cbn [fst snd] in W.
  assert (P : 0 < INR nc) by (apply lt_0_INR; lia).
  assert (F : List.Forall (fun t : option R * R => 0 <= snd t) (map (fun v => (v, 1)) r)).
  { apply Forall_forall. intros x Hx. apply in_map_iff in Hx. destruct Hx as [y [<- _]]. cbn. lra. }
  specialize (W F). assert (Q : rsum (map (fun x => 1 * expo x) r) = rsum (map expo r)) by (f_equal; apply map_ext; intros; ring). rewrite Q in W. rewrite <- W.
  destruct (lse (map (fun v => (v, 1)) r)) as [v| |] eqn:G; cbn [lminus lik].
  - unfold Rminus. rewrite exp_plus, exp_Ropp, exp_ln by exact P. reflexivity.
  - unfold Rdiv. ring.
  - apply lse_raise in G. destruct r; [cbn in L; lia|discriminate].
Qed.
(** with time and distance marginalisation together the call fails, unless there is one curve or as many curves as
    times in the prior *)
Theorem C94_time_distance_refuted n T c margd d0 ref tp s j N nc : tmarg c = true -> dmarg c = true -> (1 < nc)%nat ->
  List.length (filter (fun k => in_tc tp (tc_label n T s j k)) (seq 0 (n - 1))) <> nc ->
  cal_marg n T c margd d0 ref tp s j N nc = Raise.
Proof.
  intros Ht Hd Hn Hl. unfold cal_marg. rewrite Ht, Hd.
  replace (Nat.eqb nc 1) with false by (symmetry; apply Nat.eqb_neq; lia). rewrite (proj2 (Nat.eqb_neq _ _) Hl).
  destruct nc as [|m]; [lia|]. cbn [seq map rows to_entry]. reflexivity.
Qed.
(** after a curve has been drawn the index stays among the parameters and the likelihood cannot be evaluated *)
Theorem C94_index_left_refuted n T c margd d0 ref tp s j N nc : tmarg c = false -> cal_marg_params n T true c margd d0 ref tp s j N nc = Raise.
Proof. intros H. unfold cal_marg_params. rewrite H. reflexivity. Qed.
(** the curve is drawn with probability proportional to its likelihood *)
Theorem C94_reconstruction l : l <> [] ->
  rsum (cal_post l) = 1 /\ forall i, (i < List.length l)%nat -> nth i (cal_post l) 0 * rsum (map exp l) = exp (nth i l 0).
Proof.
  intros Hl. unfold cal_post. set (m := fold_right Rmax (hd 0 l) l).
  assert (E : rsum (map (fun x => exp (x - m)) l) = exp (- m) * rsum (map exp l)).
  { rewrite <- rsum_scal. f_equal. apply map_ext. intros x. unfold Rminus. rewrite exp_plus. ring. }
  assert (P : 0 < rsum (map exp l)).
  { destruct l as [|x l]; [contradiction|]. cbn [map]. rewrite rsum_cons. pose proof (exp_pos x). assert (0 <= rsum (map exp l)); [|lra].
    apply rsum_nonneg. apply Forall_forall. intros y Hy. apply in_map_iff in Hy. destruct Hy as [z [<- _]]. left. apply exp_pos. }
  pose proof (exp_pos (- m)) as Pm. split.
  - rewrite (map_ext (fun x => x / rsum (map (fun x => exp (x - m)) l)) (fun x => / rsum (map (fun x => exp (x - m)) l) * x)) by (intros; unfold Rdiv; ring).
    rewrite (rsum_scal _ (fun x => x)), map_id, E. apply Rinv_l. apply Rgt_not_eq. apply Rmult_lt_0_compat; assumption.
  - intros i Hi. rewrite map_map. rewrite (nth_indep _ 0 (exp (0 - m) / rsum (map (fun x => exp (x - m)) l))) by (rewrite map_length; exact Hi).
    rewrite (map_nth (fun x => exp (x - m) / rsum (map (fun x => exp (x - m)) l))), E. unfold Rminus. rewrite exp_plus. field. split; apply Rgt_not_eq; assumption.
Qed.
Theorem C94_example : (* two curves, factors 1 and -1, on the example detector: mean of e^2 and e^-6 *)
  lik (cal_marg 3 1 (mkCfg false false false true) no_table 1 1 ex_tp 0 0 [(ex_det 1, ex_h 1, fun c _ => if Nat.eqb c 0 then RtoC 1 else RtoC (-1))] 2) = (exp 2 + exp (-6)) / 2.
Proof.
  rewrite C94_mean_over_curves; [|left; reflexivity|lia|intros i _; unfold ll_ratio, base_ll; cbn; discriminate].
  cbn [seq map]. rewrite !rsum_cons. unfold ll_ratio, base_ll. cbn [tmarg dmarg pmarg lik recalibrate map fst snd].
  unfold d_inner_h, opt_snr_sq. cbn [map csum fold_right rsum fst snd]. rewrite !inner_self. unfold inner. cbn [Sg Sr msk ex_det Nat.eqb psd dat fst snd RtoC].
  unfold ex_h, cnorm2. cbn. 
  match goal with |- (exp ?a + (exp ?b + 0)) / _ = _ => replace a with 2 by field; replace b with (-6) by field end. field.
Qed.

(** ** Assumptions of every theorem above *)
Definition GwLik2_Props_all :=
  (@C91_mean_over_phase,
   @C91_phase_free,
   @C91_range,
   @C91_reconstruction,
   @C91_sign_refuted,
   @C91_example,
   @C92_mean_over_distance,
   @C92_reconstruction,
   @C92_weak_template_refuted,
   @C92_example,
   @C93_file,
   @C93_own_file,
   @C93_dictionary_refuted,
   @C93_small_densities_refuted,
   @C93_example,
   @C94_mean_over_curves,
   @C94_time_distance_refuted,
   @C94_index_left_refuted,
   @C94_reconstruction,
   @C94_example).
Print Assumptions GwLik2_Props_all.
