(** C74: the Gaussian family of priors; C68: normalisation of the Gaussian likelihood. *)
From Coq Require Import Reals Lra List Psatz.
From Coquelicot Require Import Coquelicot.
From Verif Require Import PyReal Prior_Model PriorSpec GaussInt GaussPrior_Model GaussPrior_Proofs Lik_Model Lik_Proofs.
Open Scope R_scope.

Section Family.
Variable erfinv : R -> R.
(** what is assumed of scipy.special.erfinv *)
Hypothesis erfinv_spec : forall y, -1 < y < 1 -> erf (erfinv y) = y.

(** Rescaling uniform numbers gives samples of the density: the mass between two quantiles is the
    difference of the unit values. *)
Theorem C74_Gaussian_samples mu sigma : 0 < sigma -> inverse_transform (Gaussian_prob mu sigma) (Gaussian_rescale erfinv mu sigma) open01.
Proof. intros H. apply (inverse_transform_cdf _ _ _ _ (Gaussian_density mu sigma H)). intros u Hu. now apply Gaussian_quantile. Qed.
Theorem C74_Truncated_samples mu sigma mn mx : 0 < sigma -> mn < mx ->
  inverse_transform (Trunc_prob mu sigma mn mx) (Trunc_rescale erfinv mu sigma mn mx) closed01
  /\ (forall u, 0 <= u <= 1 -> exists x, Trunc_rescale erfinv mu sigma mn mx u = Finite x /\ mn <= x <= mx)
  /\ Trunc_rescale erfinv mu sigma mn mx 0 = Finite mn /\ Trunc_rescale erfinv mu sigma mn mx 1 = Finite mx.
Proof.
  intros Hs Hm. pose proof (Trunc_bounded erfinv erfinv_spec mu sigma mn mx Hs Hm) as B. split; [exact (bounded_prior_inverse _ _ _ _ _ B)|].
  destruct B as (_ & _ & _ & _ & Q & Q0 & Q1). split; [|auto]. intros u Hu. destruct (Q u Hu) as (x & E & Hx & _). eauto.
Qed.
Theorem C74_Half_samples sigma : 0 < sigma ->
  inverse_transform (Half_prob sigma) (Half_rescale erfinv sigma) (fun u => 0 <= u < 1)
  /\ (forall u, 0 <= u < 1 -> exists x, Half_rescale erfinv sigma u = Finite x /\ 0 <= x) /\ Half_rescale erfinv sigma 0 = Finite 0 /\ Half_rescale erfinv sigma 1 = p_infty.
Proof.
  intros Hs. split; [|split; [|split]].
  - apply (inverse_transform_cdf _ _ _ _ (Trunc_inf_density 0 sigma 0 Hs)). intros u Hu. destruct (Trunc_inf_quantile erfinv erfinv_spec 0 sigma 0 u Hs Hu) as (x & E & _ & F). eauto.
  - intros u Hu. destruct (Trunc_inf_quantile erfinv erfinv_spec 0 sigma 0 u Hs Hu) as (x & E & L & _). eauto.
  - unfold Half_rescale, Trunc_rescale. replace ((0 - 0) / sqrt 2 / sigma) with 0 by (pose proof sqrt2_pos; field; split; lra). rewrite erf_0, Rmult_0_r, Rmult_0_l, Rplus_0_r.
    destruct (Req_EM_T 0 1); [lra|]. f_equal. assert (Z : erfinv 0 = 0) by (apply erf_inj; rewrite erfinv_spec, erf_0 by lra; reflexivity). rewrite Z. ring.
  - unfold Half_rescale, Trunc_rescale, Trunc_normalisation. cbn [scaled erfb]. replace ((0 - 0) / sqrt 2 / sigma) with 0 by (pose proof sqrt2_pos; field; split; lra). rewrite erf_0.
    destruct (Req_EM_T _ 1) as [|N]; [reflexivity|]. exfalso. apply N. lra.
Qed.
Theorem C74_LogNormal_samples mu sigma : 0 < sigma ->
  inverse_transform (LogNormal_prob mu sigma) (LogNormal_rescale erfinv mu sigma) (fun u => 0 <= u < 1)
  /\ (forall u, 0 <= u < 1 -> exists x, LogNormal_rescale erfinv mu sigma u = Finite x /\ 0 <= x).
Proof.
  intros Hs. split.
  - apply (inverse_transform_cdf _ _ _ _ (LogNormal_density mu sigma Hs)). intros u Hu. destruct (LogNormal_quantile erfinv erfinv_spec mu sigma u Hs Hu) as (x & E & _ & F). eauto.
  - intros u Hu. destruct (LogNormal_quantile erfinv erfinv_spec mu sigma u Hs Hu) as (x & E & L & _). eauto.
Qed.
(** cdf is the distribution function of prob (which integrates to one) and undoes rescale. *)
Theorem C74_Gaussian_cdf mu sigma : 0 < sigma -> density_cdf (Gaussian_prob mu sigma) (Gaussian_cdf mu sigma)
  /\ forall u, 0 < u < 1 -> exists x, Gaussian_rescale erfinv mu sigma u = Finite x /\ Gaussian_cdf mu sigma x = u.
Proof. intros H. split; [now apply Gaussian_density|]. intros u Hu. now apply Gaussian_quantile. Qed.
Theorem C74_Truncated_cdf mu sigma mn mx : 0 < sigma -> mn < mx -> density_cdf (Trunc_prob mu sigma mn mx) (Trunc_cdf mu sigma mn mx)
  /\ is_RInt (Trunc_prob mu sigma mn mx) mn mx 1 /\ (forall x, x < mn \/ mx < x -> Trunc_prob mu sigma mn mx x = 0)
  /\ forall u, 0 <= u <= 1 -> exists x, Trunc_rescale erfinv mu sigma mn mx u = Finite x /\ Trunc_cdf mu sigma mn mx x = u.
Proof.
  intros Hs Hm. destruct (Trunc_bounded erfinv erfinv_spec mu sigma mn mx Hs Hm) as (D & Z & F0 & F1 & Q & _). split; auto. split; [|split; auto].
  - apply (total_mass _ _ mn mx D); [apply F0; lra|apply F1; lra].
  - intros u Hu. destruct (Q u Hu) as (x & E & _ & F). eauto.
Qed.
Theorem C74_Half_cdf sigma : 0 < sigma -> density_cdf (Half_prob sigma) (Half_cdf sigma)
  /\ forall u, 0 <= u < 1 -> exists x, Half_rescale erfinv sigma u = Finite x /\ Half_cdf sigma x = u.
Proof.
  intros H. split; [now apply Trunc_inf_density|]. intros u Hu. destruct (Trunc_inf_quantile erfinv erfinv_spec 0 sigma 0 u H Hu) as (x & E & _ & F). eauto.
Qed.
Theorem C74_LogNormal_cdf mu sigma : 0 < sigma -> density_cdf (LogNormal_prob mu sigma) (LogNormal_cdf mu sigma)
  /\ forall u, 0 <= u < 1 -> exists x, LogNormal_rescale erfinv mu sigma u = Finite x /\ LogNormal_cdf mu sigma x = u.
Proof.
  intros H. split; [now apply LogNormal_density|]. intros u Hu. destruct (LogNormal_quantile erfinv erfinv_spec mu sigma u H Hu) as (x & E & _ & F). eauto.
Qed.
End Family.
(** erf is a strictly increasing bijection from the reals to (-1, 1), so there is exactly one function as assumed. *)
Theorem C74_erf_bijective y : -1 < y < 1 <-> exists! x, erf x = y.
Proof.
  split.
  - intros H. destruct (erf_onto y H) as [x E]. exists x. split; auto. intros z Ez. apply erf_inj. congruence.
  - intros (x & <- & _). apply erf_range.
Qed.
(** ln_prob is the logarithm of prob. *)
Theorem C74_ln_prob mu sigma x : 0 < sigma ->
  Gaussian_ln_prob mu sigma x = ln (Gaussian_prob mu sigma x)
  /\ LogNormal_ln_prob mu sigma x = generic_ln_prob (LogNormal_prob mu sigma) x.
Proof. intros H. split; [now apply Gaussian_ln|]. now apply LogNormal_ln. Qed.
(** A log-normal variable is the exponential of a Gaussian one, and a half Gaussian is the Gaussian folded at zero. *)
Theorem C74_relations mu sigma x : 0 < sigma ->
  (0 < x -> LogNormal_cdf mu sigma x = Gaussian_cdf mu sigma (ln x))
  /\ (0 <= x -> Half_prob sigma x = 2 * Gaussian_prob 0 sigma x).
Proof.
  intros Hs. split; intros Hx.
  - rewrite LogNormal_cdf_prim, Gaussian_cdf_prim by (auto; lra). reflexivity.
  - unfold Half_prob. rewrite Trunc_prob_eq, norm_prim_inf. destruct (Rle_dec 0 x); [|contradiction]. cbn [below]. unfold prim, sc. replace ((0 - 0) / sqrt 2 / sigma) with 0 by (pose proof sqrt2_pos; field; split; lra).
    rewrite erf_0. field.
Qed.
(** Refuted: "prob is never negative and ln_prob is its logarithm": a Gaussian accepts a negative sigma, with
    which prob is negative while ln_prob is that of the absolute value. *)
Theorem C74_negative_sigma_refuted mu sigma x : sigma < 0 ->
  Gaussian_prob mu sigma x < 0 /\ Gaussian_ln_prob mu sigma x = ln (- Gaussian_prob mu sigma x).
Proof.
  intros Hs. assert (H : Gaussian_prob mu sigma x = - Gaussian_prob mu (- sigma) x).
  { unfold Gaussian_prob. assert (0 < sqrt (2 * PI)) by (apply sqrt_lt_R0; pose proof PI_RGT_0; lra). replace ((- sigma)^2) with (sigma^2) by ring. field. split; lra. }
  pose proof (Gaussian_prob_pos mu (- sigma) x ltac:(lra)) as P. rewrite H. split; [lra|]. rewrite Ropp_involutive. rewrite <- Gaussian_ln by lra. unfold Gaussian_ln_prob. replace ((- sigma)^2) with (sigma^2) by ring. reflexivity.
Qed.
Example C74_example (erfinv : R -> R) : (forall y, -1 < y < 1 -> erf (erfinv y) = y) ->
  Gaussian_rescale erfinv 3 2 (1/2) = Finite 3 /\ LogNormal_cdf 0 1 1 = 1/2 /\ Half_prob 2 (-1) = 0.
Proof.
  intros H. split; [|split].
  - unfold Gaussian_rescale. destruct (Req_EM_T (1/2) 0); [lra|]. destruct (Req_EM_T (1/2) 1); [lra|]. replace (2 * (1/2) - 1) with 0 by field.
    assert (Z : erfinv 0 = 0) by (apply erf_inj; rewrite H, erf_0 by lra; reflexivity). rewrite Z. f_equal. ring.
  - rewrite LogNormal_cdf_prim by lra. rewrite ln_1. unfold prim, sc. replace ((0 - 0) / sqrt 2 / 1) with 0 by (pose proof sqrt2_pos; field; lra). rewrite erf_0. field.
  - unfold Half_prob. rewrite Trunc_prob_eq. destruct (Rle_dec 0 (-1)); [lra|]. ring.
Qed.

(** The density of the Gaussian likelihood in a datum integrates to one over the real line. *)
Theorem C68_normalised m sigma : sigma <> 0 -> exists p : R -> R,
  (forall y, exists v, gaussian (residual (y :: nil) (m :: nil)) (Some (Known sigma)) = Val v /\ p y = exp v)
  /\ exists F, (forall x y, is_RInt p x y (F y - F x)) /\ is_lim F m_infty 0 /\ is_lim F p_infty 1.
Proof.
  intros Hs. assert (Ha : 0 < Rabs sigma) by (now apply Rabs_pos_lt). exists (Gaussian_prob m (Rabs sigma)). split.
  - intros y. eexists. split.
    + apply gaussian_val. intros x Hx. cbn in Hx. destruct Hx as [<-|[]]. exact Hs.
    + cbn. rewrite Rplus_0_r, gauss_term_pdf by auto. unfold normal_pdf, Gaussian_prob.
      assert (0 < sqrt (2 * PI)) by (apply sqrt_lt_R0; pose proof PI_RGT_0; lra). replace (- (m - y)^2) with (- (y - m)^2) by ring. field. split; lra.
  - exists (Gaussian_cdf m (Rabs sigma)). apply (Gaussian_density m (Rabs sigma) Ha).
Qed.

(** ** Assumptions of every theorem above *)
Definition GaussPrior_Props_all :=
  (@C74_Gaussian_samples,
   @C74_Truncated_samples,
   @C74_Half_samples,
   @C74_LogNormal_samples,
   @C74_Gaussian_cdf,
   @C74_Truncated_cdf,
   @C74_Half_cdf,
   @C74_LogNormal_cdf,
   @C74_erf_bijective,
   @C74_ln_prob,
   @C74_relations,
   @C74_negative_sigma_refuted,
   @C68_normalised).
Print Assumptions GaussPrior_Props_all.
