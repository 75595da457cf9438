(** Proofs about the gravitational-wave priors. *)
From Coq Require Import String Reals List Lra Lia Bool Psatz.
From Coquelicot Require Import Coquelicot.
From Verif Require Import PyReal GwMass_Model GwMass_Proofs Prior_Model GwPrior_Model.
Import ListNotations.
Open Scope R_scope.
Open Scope list_scope.

Lemma in_range_true mn mx x : mn <= x <= mx -> in_prior_range mn mx x = true.
Proof. intros [H1 H2]. unfold in_prior_range. destruct (Rle_dec mn x); [|lra]. destruct (Rle_dec x mx); [reflexivity|lra]. Qed.
Lemma in_range_false mn mx x : x < mn \/ mx < x -> in_prior_range mn mx x = false.
Proof. intros H. unfold in_prior_range. destruct (Rle_dec mn x); [|reflexivity]. destruct (Rle_dec x mx); [lra|reflexivity]. Qed.
Lemma npow_pos x y : 0 < x -> npow x y = Rpower x y.
Proof. intros H. unfold npow. destruct (Req_EM_T x 0); [lra|reflexivity]. Qed.
Lemma Rpower_2' x : 0 < x -> Rpower x (1 + 1) = x ^ 2.
Proof. intros H. rewrite Rpower_plus, Rpower_1 by exact H. ring. Qed.

(** ** masses *)
Lemma uic_chirp mn mx x : 0 < mn -> mn < mx -> mn <= x <= mx ->
  UICChirpMass_prob mn mx x = 2 * x / (mx ^ 2 - mn ^ 2).
Proof.
  intros H0 H1 H2. unfold UICChirpMass_prob, PowerLaw_prob. rewrite in_range_true by exact H2.
  destruct (Req_EM_T 1 (-1)); [lra|].
  rewrite !npow_pos by lra. rewrite Rpower_1 by lra. rewrite !Rpower_2' by lra.
  assert (mx ^ 2 - mn ^ 2 <> 0) by nra. field. exact H.
Qed.

Definition fm1 (x y : R) := x * Rpower (1 + y) (12/10) / Rpower y (6/10) / (1 + y).
Definition fm2 (x y : R) := fm1 x y * y.
Lemma fm_conv x y : 0 < x -> 0 < y ->
  chirp_mass_and_mass_ratio_to_component_masses x y = Some (fm1 x y, fm2 x y).
Proof.
  intros Hx Hy. unfold chirp_mass_and_mass_ratio_to_component_masses, chirp_mass_and_mass_ratio_to_total_mass,
    total_mass_and_mass_ratio_to_component_masses.
  rewrite !ppow_some by lra. cbn [bindo].
  rewrite pdiv_some by (apply Rgt_not_eq, Rpower_pos). cbn [bindo].
  rewrite pdiv_some by lra. reflexivity.
Qed.
Lemma fm1_pos x y : 0 < x -> 0 < y -> 0 < fm1 x y.
Proof.
  intros. unfold fm1. apply Rdiv_lt_0_compat; [|lra]. apply Rdiv_lt_0_compat; [|apply Rpower_pos].
  apply Rmult_lt_0_compat; [lra|apply Rpower_pos].
Qed.
Lemma fm1_dx x y : 0 < x -> 0 < y -> is_derive (fun x => fm1 x y) x (fm1 x y / x).
Proof.
  intros Hx Hy. unfold fm1. pose proof (Rpower_pos y (6/10)). auto_derive; [exact I|]. field. lra.
Qed.
Lemma fm1_dy x y : 0 < x -> 0 < y ->
  is_derive (fun y => fm1 x y) y (fm1 x y * (1 / (5 * (1 + y)) - 3 / (5 * y))).
Proof.
  intros Hx Hy. unfold fm1, Rpower.
  pose proof (exp_pos (6 / 10 * ln y)). auto_derive; [repeat split; lra|].
  field. repeat split; try lra.
Qed.
Lemma fm2_dx x y : 0 < x -> 0 < y -> is_derive (fun x => fm2 x y) x (fm2 x y / x).
Proof.
  intros Hx Hy. unfold fm2, fm1. pose proof (Rpower_pos y (6/10)). auto_derive; [exact I|]. field. lra.
Qed.
Lemma fm2_dy x y : 0 < x -> 0 < y ->
  is_derive (fun y => fm2 x y) y (fm2 x y * (1 / (5 * (1 + y)) + 2 / (5 * y))).
Proof.
  intros Hx Hy. unfold fm2, fm1, Rpower.
  pose proof (exp_pos (6 / 10 * ln y)). auto_derive; [repeat split; lra|].
  field. repeat split; try lra.
Qed.
Lemma fm_det x y : 0 < x -> 0 < y ->
  (fm1 x y / x) * (fm2 x y * (1 / (5 * (1 + y)) + 2 / (5 * y))) -
  (fm1 x y * (1 / (5 * (1 + y)) - 3 / (5 * y))) * (fm2 x y / x) = fm1 x y ^ 2 / x.
Proof. intros Hx Hy. unfold fm2. field. lra. Qed.
Lemma fm1_sq x y : 0 < x -> 0 < y -> fm1 x y ^ 2 / x = x * (Rpower (1 + y) (2/5) / Rpower y (6/5)).
Proof.
  intros Hx Hy. unfold fm1.
  assert (E1 : Rpower (1 + y) (12/10) ^ 2 = (1 + y) ^ 2 * Rpower (1 + y) (2/5)).
  { rewrite Rpower_pow' by lra. rewrite <- (Rpower_pow 2 (1 + y)) by lra. rewrite <- Rpower_plus.
    f_equal. simpl; lra. }
  assert (E2 : Rpower y (6/10) ^ 2 = Rpower y (6/5)).
  { rewrite Rpower_pow' by lra. f_equal. simpl; lra. }
  pose proof (Rpower_pos y (6/10)). pose proof (Rpower_pos y (6/5)).
  unfold Rdiv at 1 2 3. rewrite !Rpow_mult_distr, !pow_inv, E1, E2. field. lra.
Qed.

Section MR.
Variables (hyp : R -> R) (B : R).
(** the differentiation formula of the hypergeometric function *)
Hypothesis hyp_spec : forall q, 0 < q < B ->
  is_derive (MR_integral hyp) q (Rpower (1 + q) (2/5) / Rpower q (6/5)).
Let dens (q : R) := Rpower (1 + q) (2/5) / Rpower q (6/5).
Lemma dens_pos q : 0 < dens q.
Proof. unfold dens. apply Rdiv_lt_0_compat; apply Rpower_pos. Qed.
Lemma dens_cont q : 0 < q -> continuous dens q.
Proof.
  intros Hq. apply (ex_derive_continuous dens). unfold dens, Rpower.
  pose proof (exp_pos (6/5 * ln q)). auto_derive. repeat split; lra.
Qed.
Lemma MR_int a b : 0 < a -> a <= b -> b < B -> is_RInt dens a b (MR_integral hyp b - MR_integral hyp a).
Proof using hyp_spec.
  intros Ha Hab Hb. apply (is_RInt_derive (MR_integral hyp) dens); intros x; rewrite Rmin_left, Rmax_right by lra; intros Hx.
  - apply hyp_spec. lra.
  - apply dens_cont. lra.
Qed.
Lemma MR_incr a b : 0 < a -> a < b -> b < B -> MR_integral hyp a < MR_integral hyp b.
Proof using hyp_spec.
  intros Ha Hab Hb.
  destruct (MVT_gen (MR_integral hyp) a b dens) as (c & Hc & E).
  - intros x. rewrite Rmin_left, Rmax_right by lra. intros Hx. apply hyp_spec. lra.
  - intros x. rewrite Rmin_left, Rmax_right by lra. intros Hx. apply continuity_pt_filterlim.
    apply (ex_derive_continuous (MR_integral hyp)). eexists. apply hyp_spec. lra.
  - pose proof (dens_pos c). assert (0 < dens c * (b - a)) by (apply Rmult_lt_0_compat; lra). lra.
Qed.
Lemma MR_norm_pos mn mx : 0 < mn -> mn < mx -> mx < B -> 0 < MR_norm hyp mn mx.
Proof using hyp_spec. intros. unfold MR_norm. pose proof (MR_incr mn mx H H0 H1). lra. Qed.
Lemma MR_prob_in mn mx v : mn <= v <= mx -> MR_prob hyp mn mx v = dens v / MR_norm hyp mn mx.
Proof. intros H. unfold MR_prob. rewrite in_range_true by exact H. unfold dens. lra. Qed.
Lemma MR_prob_int mn mx v : 0 < mn -> mn < mx -> mx < B -> mn <= v <= mx ->
  is_RInt (MR_prob hyp mn mx) mn v (MR_cdf hyp mn mx v).
Proof using hyp_spec.
  intros H0 H1 HB H2.
  apply (is_RInt_ext (fun q => scal (/ MR_norm hyp mn mx) (dens q))).
  - intros x. rewrite Rmin_left, Rmax_right by lra. intros Hx. rewrite MR_prob_in by lra.
    unfold scal; cbn; unfold mult; cbn. unfold Rdiv. apply Rmult_comm.
  - evar_last; [apply (is_RInt_scal dens mn v (/ MR_norm hyp mn mx)), MR_int; lra|].
    unfold MR_cdf, scal; cbn; unfold mult; cbn. unfold Rdiv. apply Rmult_comm.
Qed.
Lemma MR_cdf_incr mn mx a b : 0 < mn -> mn < mx -> mx < B -> 0 < a -> a < b -> b < B ->
  MR_cdf hyp mn mx a < MR_cdf hyp mn mx b.
Proof using hyp_spec.
  intros H0 H1 HB Ha Hab Hb. unfold MR_cdf. pose proof (MR_norm_pos mn mx H0 H1 HB).
  pose proof (MR_incr a b Ha Hab Hb). apply Rmult_lt_compat_r; [apply Rinv_0_lt_compat; exact H|lra].
Qed.
Lemma MR_cdf_mn mn mx : MR_cdf hyp mn mx mn = 0.
Proof. unfold MR_cdf. unfold Rminus. rewrite Rplus_opp_r. unfold Rdiv. apply Rmult_0_l. Qed.
Lemma MR_cdf_mx mn mx : 0 < mn -> mn < mx -> mx < B -> MR_cdf hyp mn mx mx = 1.
Proof using hyp_spec. intros. unfold MR_cdf. pose proof (MR_norm_pos mn mx H H0 H1). unfold MR_norm in *. field. lra. Qed.
End MR.

(** ** spins *)
Lemma log_uniform_in mn mx x : mn <= x <= mx -> LogUniform_prob mn mx x = 1 / x / ln (mx / mn).
Proof.
  intros H. unfold LogUniform_prob, PowerLaw_prob. rewrite in_range_true by exact H.
  destruct (Req_EM_T (-1) (-1)); [reflexivity|lra].
Qed.
Lemma log_uniform_out mn mx x : x < mn \/ mx < x -> LogUniform_prob mn mx x = 0.
Proof. intros H. unfold LogUniform_prob, PowerLaw_prob. rewrite in_range_false by exact H. reflexivity. Qed.
Lemma ln_ratio_pos a b : 0 < a -> a < b -> 0 < ln (b / a).
Proof.
  intros Ha Hb. rewrite <- ln_1. apply ln_increasing; [lra|].
  apply Rmult_lt_reg_r with a; [exact Ha|]. unfold Rdiv. rewrite Rmult_assoc, Rinv_l by lra. lra.
Qed.
(** the density of the aligned component for a uniform magnitude below [amax]
    and an isotropic orientation *)
Definition aligned_density (amax chi : R) : R := ln (amax / Rabs chi) / (2 * amax).
Lemma uniform_in mn mx x : mn <= x <= mx -> Uniform_prob mn mx x = 1 / (mx - mn).
Proof. intros H. unfold Uniform_prob. rewrite in_range_true by exact H. reflexivity. Qed.
Lemma uniform_out mn mx x : x < mn \/ mx < x -> Uniform_prob mn mx x = 0.
Proof. intros H. unfold Uniform_prob. rewrite in_range_false by exact H. unfold Rdiv. ring. Qed.
Lemma abs_div_le x a : 0 < a -> Rabs x <= a -> -1 <= x / a <= 1.
Proof.
  intros Ha H. apply Rabs_le_between in H. split.
  - apply Rmult_le_reg_r with a; [lra|]. unfold Rdiv. rewrite Rmult_assoc, Rinv_l by lra. lra.
  - apply Rmult_le_reg_r with a; [lra|]. unfold Rdiv. rewrite Rmult_assoc, Rinv_l by lra. lra.
Qed.
Lemma abs_div_gt x a : 0 < a -> a < Rabs x -> x / a < -1 \/ 1 < x / a.
Proof.
  intros Ha H. unfold Rabs in H. destruct (Rcase_abs x).
  - left. apply Rmult_lt_reg_r with a; [lra|]. unfold Rdiv. rewrite Rmult_assoc, Rinv_l by lra. lra.
  - right. apply Rmult_lt_reg_r with a; [lra|]. unfold Rdiv. rewrite Rmult_assoc, Rinv_l by lra. lra.
Qed.
Lemma chasles (f : R -> R) (a b c l1 l2 : R) : is_RInt f a b l1 -> is_RInt f b c l2 -> is_RInt f a c (l1 + l2).
Proof. intros H1 H2. exact (is_RInt_Chasles f a b c l1 l2 H1 H2). Qed.
Lemma zero_int (f : R -> R) a b : a <= b -> (forall x, a < x < b -> f x = 0) -> is_RInt f a b 0.
Proof.
  intros Hab H. apply (is_RInt_ext (fun _ => 0)).
  - intros x. rewrite Rmin_left, Rmax_right by lra. intros Hx. symmetry. apply H; exact Hx.
  - pose proof (is_RInt_const a b 0) as K. unfold scal in K; cbn in K; unfold mult in K; cbn in K.
    rewrite Rmult_0_r in K. exact K.
Qed.
Lemma inv_int c a b : 0 < a -> a <= b -> is_RInt (fun x => c / x) a b (c * ln (b / a)).
Proof.
  intros Ha Hab.
  replace (c * ln (b / a)) with (minus (c * ln b) (c * ln a)).
  2:{ unfold minus, plus, opp; cbn. unfold Rdiv. rewrite ln_mult, ln_Rinv by (try apply Rinv_0_lt_compat; lra). ring. }
  apply (is_RInt_derive (fun x => c * ln x) (fun x => c / x)); intros x; rewrite Rmin_left, Rmax_right by lra; intros Hx.
  - auto_derive; [lra|]. field. lra.
  - apply (ex_derive_continuous (fun x => c / x)). auto_derive. lra.
Qed.
Lemma aligned_int amax eps chi : 0 < eps -> eps <= Rabs chi -> Rabs chi <= amax ->
  is_RInt (AlignedSpin_integrand (Uniform_prob 0 amax) (Uniform_prob (-1) 1) chi) eps amax (aligned_density amax chi).
Proof.
  intros H0 H1 H2.
  replace (aligned_density amax chi) with (0 + 1 / (2 * amax) * ln (amax / Rabs chi)).
  2:{ unfold aligned_density. field. lra. }
  apply (chasles _ eps (Rabs chi) amax).
  - apply zero_int; [lra|]. intros x Hx. unfold AlignedSpin_integrand.
    rewrite (uniform_out (-1) 1) by (apply abs_div_gt; lra). ring.
  - apply (is_RInt_ext (fun a => 1 / (2 * amax) / a)).
    + intros x. rewrite Rmin_left, Rmax_right by lra. intros Hx. unfold AlignedSpin_integrand.
      rewrite uniform_in by lra. rewrite uniform_in by (apply abs_div_le; lra).
      match goal with |- ?a = ?b => change (@eq R a b) end. field. lra.
    + apply inv_int; lra.
Qed.
Lemma chi_joint amax chi a : 0 < Rabs chi -> Rabs chi <= a -> a <= amax -> Rabs chi < amax ->
  aligned_density amax chi * ChiMag_prob amax chi a = 1 / (2 * a * amax).
Proof.
  intros H0 H1 H2 H3. unfold ChiMag_prob, aligned_density. rewrite log_uniform_in by lra.
  pose proof (ln_ratio_pos (Rabs chi) amax H0 H3). field. lra.
Qed.
Lemma chi_marginal amax a : 0 < a -> a < amax ->
  is_RInt (fun chi => aligned_density amax chi * ChiMag_prob amax chi a) (- amax) amax (1 / amax).
Proof.
  intros Ha Hm.
  assert (Z : forall u v, u <= v -> (v <= - a \/ a <= u) ->
    is_RInt (fun chi => aligned_density amax chi * ChiMag_prob amax chi a) u v 0).
  { intros u v Huv HH. apply zero_int; [exact Huv|]. intros x Hx. unfold ChiMag_prob.
    rewrite log_uniform_out; [ring|]. left. unfold Rabs. destruct (Rcase_abs x); lra. }
  assert (C : forall u v, u <= v -> - a <= u -> v <= a -> (v <= 0 \/ 0 <= u) ->
    is_RInt (fun chi => aligned_density amax chi * ChiMag_prob amax chi a) u v ((v - u) * (1 / (2 * a * amax)))).
  { intros u v Huv H1 H2 HH. apply (is_RInt_ext (fun _ => 1 / (2 * a * amax))).
    - intros x. rewrite Rmin_left, Rmax_right by lra. intros Hx.
      symmetry. apply chi_joint; try lra; unfold Rabs; destruct (Rcase_abs x); lra.
    - apply (is_RInt_const u v (1 / (2 * a * amax))). }
  replace (1 / amax) with (0 + ((0 - - a) * (1 / (2 * a * amax)) + ((a - 0) * (1 / (2 * a * amax)) + 0))).
  2:{ field. lra. }
  apply (chasles _ _ (- a)); [apply Z; lra|].
  apply (chasles _ _ 0); [apply C; lra|].
  apply (chasles _ _ a); [apply C; lra|apply Z; lra].
Qed.

Section InPlane.
Variables (amax chi : R).
Hypothesis (Hc : 0 < Rabs chi) (Hm : Rabs chi < amax).
Let c := Rabs chi.
Let L := ln (amax / c).
Let mx := sqrt (amax ^ 2 - chi ^ 2).
Lemma ip_csq : c ^ 2 = chi ^ 2.
Proof. unfold c. apply pow2_abs. Qed.
Lemma ip_dpos : 0 < amax ^ 2 - chi ^ 2.
Proof using Hc Hm. rewrite <- ip_csq. fold c in Hc, Hm. nra. Qed.
Lemma ip_L : 0 < L.
Proof using Hc Hm. apply ln_ratio_pos; assumption. Qed.
Lemma ip_mx : InPlane_maximum amax chi = Some mx.
Proof using Hc Hm. unfold InPlane_maximum. apply psqrt_some. pose proof ip_dpos. lra. Qed.
Lemma ip_mxpos : 0 < mx.
Proof using Hc Hm. apply sqrt_lt_R0, ip_dpos. Qed.
Lemma ip_mxsq : mx ^ 2 = amax ^ 2 - c ^ 2.
Proof using Hc Hm. unfold mx. pose proof ip_dpos. rewrite ip_csq. rewrite <- (sqrt_sqrt (amax ^ 2 - chi ^ 2)) at 2 by lra. ring. Qed.
Lemma ip_prob v : InPlane_prob amax chi v =
  Some (if in_prior_range 0 mx v then v / (c ^ 2 + v ^ 2) / L else 0).
Proof using Hc Hm.
  unfold InPlane_prob. rewrite ip_mx. cbn [bindo]. fold c in Hc, Hm |- *.
  assert (0 < amax / c) by (apply Rdiv_lt_0_compat; lra).
  rewrite (pdiv_some amax c) by lra. cbn [bindo]. rewrite (plog_some (amax / c)) by assumption. cbn [bindo].
  assert (0 < c ^ 2 + v ^ 2) by nra.
  rewrite pdiv_some by lra. cbn [bindo]. pose proof ip_L. fold L. rewrite pdiv_some by lra.
  f_equal. destruct (in_prior_range 0 mx v); field; lra.
Qed.
Lemma ip_cdf v : InPlane_cdf amax chi v =
  Some (if in_prior_range 0 mx v then Rmax (Rmin (ln (1 + (v / c) ^ 2) / 2 / L) 1) 0 else 0).
Proof using Hc Hm.
  unfold InPlane_cdf. rewrite ip_mx. cbn [bindo]. fold c in Hc, Hm |- *.
  assert (0 < amax / c) by (apply Rdiv_lt_0_compat; lra).
  rewrite (pdiv_some v c) by lra. cbn [bindo].
  rewrite plog_some by nra. cbn [bindo].
  rewrite (pdiv_some amax c) by lra. cbn [bindo]. rewrite (plog_some (amax / c)) by assumption. cbn [bindo].
  fold L. pose proof ip_L. rewrite pdiv_some by lra. cbn [bindo]. f_equal.
  destruct (in_prior_range 0 mx v).
  - do 2 f_equal. field. lra.
  - replace (0 * ln (1 + (v / c) ^ 2) / 2 / L) with 0 by (field; lra).
    rewrite Rmin_left by lra. apply Rmax_left. lra.
Qed.
Lemma ip_lnpos v : 0 <= ln (1 + (v / c) ^ 2).
Proof.
  destruct (Req_dec ((v / c) ^ 2) 0) as [E|E]; [rewrite E, Rplus_0_r, ln_1; lra|].
  rewrite <- ln_1. left. apply ln_increasing; [lra|]. assert (0 <= (v / c) ^ 2) by apply pow2_ge_0. lra.
Qed.
Lemma ip_ln_max : ln (1 + (mx / c) ^ 2) = 2 * L.
Proof using Hc Hm.
  fold c in Hc, Hm. unfold Rdiv at 1. rewrite Rpow_mult_distr, ip_mxsq, pow_inv.
  replace (1 + (amax ^ 2 - c ^ 2) * / c ^ 2) with ((amax / c) * (amax / c)) by (field; lra).
  rewrite ln_mult by (apply Rdiv_lt_0_compat; lra). unfold L. ring.
Qed.
Lemma ip_ln_le v : 0 <= v <= mx -> ln (1 + (v / c) ^ 2) <= 2 * L.
Proof using Hc Hm.
  intros Hv. fold c in Hc, Hm. rewrite <- ip_ln_max.
  assert (0 <= v / c) by (apply Rmult_le_pos; [lra|left; apply Rinv_0_lt_compat; lra]).
  assert (v / c <= mx / c) by (apply Rmult_le_compat_r; [left; apply Rinv_0_lt_compat; lra|lra]).
  assert ((v / c) ^ 2 <= (mx / c) ^ 2) by (apply pow_incr; lra).
  destruct (Req_dec ((v / c) ^ 2) ((mx / c) ^ 2)) as [E|E]; [rewrite E; lra|].
  left. apply ln_increasing; [|lra]. pose proof (pow2_ge_0 (v / c)). lra.
Qed.
Lemma ip_cdf_in v : 0 <= v <= mx -> InPlane_cdf amax chi v = Some (ln (1 + (v / c) ^ 2) / (2 * L)).
Proof using Hc Hm.
  intros Hv. rewrite ip_cdf, in_range_true by exact Hv. f_equal. pose proof ip_L as HL.
  pose proof (ip_lnpos v). pose proof (ip_ln_le v Hv).
  replace (ln (1 + (v / c) ^ 2) / 2 / L) with (ln (1 + (v / c) ^ 2) / (2 * L)) by (field; lra).
  assert (ln (1 + (v / c) ^ 2) / (2 * L) <= 1).
  { apply Rmult_le_reg_r with (2 * L); [lra|]. unfold Rdiv. rewrite Rmult_assoc, Rinv_l by lra. lra. }
  rewrite Rmin_left by lra. apply Rmax_left.
  apply Rmult_le_pos; [lra|left; apply Rinv_0_lt_compat; lra].
Qed.
Lemma ip_prob_int v : 0 <= v <= mx ->
  is_RInt (fun x => x / (c ^ 2 + x ^ 2) / L) 0 v (ln (1 + (v / c) ^ 2) / (2 * L)).
Proof using Hc Hm.
  intros Hv. pose proof ip_L as HL. fold c in Hc, Hm.
  replace (ln (1 + (v / c) ^ 2) / (2 * L)) with
    (minus (ln (1 + (v / c) ^ 2) / (2 * L)) (ln (1 + (0 / c) ^ 2) / (2 * L))).
  2:{ unfold minus, plus, opp; cbn [AbelianGroup.plus AbelianGroup.opp]; cbn.
      replace (1 + 0 / c * (0 / c * 1)) with 1 by (field; lra). rewrite ln_1. field. lra. }
  apply (is_RInt_derive (fun x => ln (1 + (x / c) ^ 2) / (2 * L)) (fun x => x / (c ^ 2 + x ^ 2) / L));
    intros x _.
  - assert (0 < c ^ 2 + x ^ 2) by nra. assert (0 < 1 + (x / c) ^ 2) by (pose proof (pow2_ge_0 (x / c)); lra).
    auto_derive; [repeat split; try lra; unfold Rdiv in *; lra|]. unfold Rdiv in *. field. repeat split; try lra.
  - apply (ex_derive_continuous (fun x => x / (c ^ 2 + x ^ 2) / L)).
    assert (0 < c ^ 2 + x ^ 2) by nra. auto_derive. lra.
Qed.
Lemma ip_rescale u : 0 <= u <= 1 -> exists v, InPlane_rescale amax chi u = Some v /\ 0 <= v <= mx /\
  1 + (v / c) ^ 2 = Rpower (amax / c) (2 * u).
Proof using Hc Hm.
  intros Hu. fold c in Hc, Hm. assert (Hr : 1 < amax / c).
  { apply Rmult_lt_reg_r with c; [lra|]. unfold Rdiv. rewrite Rmult_assoc, Rinv_l by lra. lra. }
  assert (Hp1 : 1 <= Rpower (amax / c) (2 * u)).
  { rewrite <- (Rpower_O (amax / c)) by lra. apply Rle_Rpower; lra. }
  assert (Hp2 : Rpower (amax / c) (2 * u) <= (amax / c) ^ 2).
  { rewrite <- (Rpower_pow 2) by lra. apply Rle_Rpower; [lra|]. simpl; lra. }
  set (p := Rpower (amax / c) (2 * u)) in *.
  exists (c * sqrt (p - 1)). split; [|split].
  - unfold InPlane_rescale. fold c. rewrite pdiv_some by lra. cbn [bindo]. rewrite ppow_some by lra. cbn [bindo].
    fold p. rewrite psqrt_some by lra. reflexivity.
  - split; [apply Rmult_le_pos; [lra|apply sqrt_pos]|].
    rewrite <- (sqrt_pow2 (c * sqrt (p - 1))) by (apply Rmult_le_pos; [lra|apply sqrt_pos]).
    unfold mx. apply sqrt_le_1_alt. rewrite <- ip_csq.
    rewrite Rpow_mult_distr. rewrite pow2_sqrt by lra.
    assert (c ^ 2 * p <= amax ^ 2); [|lra].
    replace (amax ^ 2) with (c ^ 2 * (amax / c) ^ 2) by (field; lra).
    apply Rmult_le_compat_l; [apply pow2_ge_0|exact Hp2].
  - replace (c * sqrt (p - 1) / c) with (sqrt (p - 1)) by (field; lra).
    rewrite pow2_sqrt by lra. lra.
Qed.
Lemma ip_rescale_cdf u : 0 <= u <= 1 -> exists v, InPlane_rescale amax chi u = Some v /\ 0 <= v <= mx /\
  InPlane_cdf amax chi v = Some u.
Proof using Hc Hm.
  intros Hu. destruct (ip_rescale u Hu) as (v & E & Hv & HE). exists v. split; [exact E|]. split; [exact Hv|].
  rewrite ip_cdf_in by exact Hv. f_equal. rewrite HE. pose proof ip_L. unfold Rpower. rewrite ln_exp. fold L.
  field. lra.
Qed.
Lemma ip_cdf_rescale v : 0 <= v <= mx -> exists u, InPlane_cdf amax chi v = Some u /\ 0 <= u <= 1 /\
  InPlane_rescale amax chi u = Some v.
Proof using Hc Hm.
  intros Hv. fold c in Hc, Hm. pose proof ip_L as HL. pose proof (ip_lnpos v). pose proof (ip_ln_le v Hv).
  exists (ln (1 + (v / c) ^ 2) / (2 * L)). split; [apply ip_cdf_in; exact Hv|]. split.
  - split; [apply Rmult_le_pos; [lra|left; apply Rinv_0_lt_compat; lra]|].
    apply Rmult_le_reg_r with (2 * L); [lra|]. unfold Rdiv. rewrite Rmult_assoc, Rinv_l by lra. lra.
  - assert (0 < amax / c) by (apply Rdiv_lt_0_compat; lra).
    unfold InPlane_rescale. fold c. rewrite pdiv_some by lra. cbn [bindo]. rewrite ppow_some by assumption. cbn [bindo].
    assert (E : Rpower (amax / c) (2 * (ln (1 + (v / c) ^ 2) / (2 * L))) = 1 + (v / c) ^ 2).
    { unfold Rpower. fold L. replace (2 * (ln (1 + (v / c) ^ 2) / (2 * L)) * L) with (ln (1 + (v / c) ^ 2)) by (field; lra).
      apply exp_ln. pose proof (pow2_ge_0 (v / c)). lra. }
    rewrite E. replace (1 + (v / c) ^ 2 - 1) with ((v / c) ^ 2) by ring.
    rewrite psqrt_some by apply pow2_ge_0. cbn [bindo]. f_equal.
    rewrite sqrt_pow2; [field; lra|]. apply Rmult_le_pos; [lra|left; apply Rinv_0_lt_compat; lra].
Qed.
End InPlane.
