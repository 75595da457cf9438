(** C01-C05: analytic priors. *)
From Coq Require Import Reals Lra Psatz.
From Coquelicot Require Import Coquelicot.
From Verif Require Import PyReal Prior_Model PriorSpec Prior_Proofs Prior_Proofs2 Prior_Proofs3.
Open Scope R_scope.

(** C01: [prob] gives the interval between [rescale u] and [rescale v] the mass [v - u]. *)
Theorem C01_Uniform mn mx : mn < mx ->
  inverse_transform (Uniform_prob mn mx) (fun u => Finite (Uniform_rescale mn mx u)) closed01.
Proof. intros H. exact (bounded_prior_inverse _ _ _ _ _ (Uniform_bounded mn mx H)). Qed.
Theorem C01_PowerLaw alpha mn mx : 0 < mn < mx ->
  inverse_transform (PowerLaw_prob alpha mn mx) (fun u => Finite (PowerLaw_rescale alpha mn mx u)) closed01.
Proof. intros H. exact (bounded_prior_inverse _ _ _ _ _ (PowerLaw_bounded alpha mn mx H)). Qed.
Theorem C01_PowerLaw_zero_minimum alpha mx : -1 < alpha -> 0 < mx ->
  inverse_transform (PowerLaw_prob alpha 0 mx) (fun u => Finite (PowerLaw_rescale alpha 0 mx u)) (fun u => 0 < u <= 1).
Proof. exact (PowerLaw0_inverse alpha mx). Qed.
Theorem C01_LogUniform mn mx : 0 < mn < mx ->
  inverse_transform (LogUniform_prob mn mx) (fun u => Finite (LogUniform_rescale mn mx u)) closed01.
Proof. intros H. exact (bounded_prior_inverse _ _ _ _ _ (PowerLaw_bounded (-1) mn mx H)). Qed.
Theorem C01_SymmetricLogUniform mn mx : 0 < mn < mx ->
  inverse_transform (SymLogUniform_prob mn mx) (fun u => Finite (SymLogUniform_rescale mn mx u)) closed01.
Proof. intros H. exact (bounded_prior_inverse _ _ _ _ _ (SymLogUniform_bounded mn mx H)). Qed.
Theorem C01_Exponential mu : 0 < mu ->
  inverse_transform (Exponential_prob mu) (Exponential_rescale mu) (fun u => 0 <= u < 1).
Proof.
  intros H. apply (inverse_transform_cdf _ _ _ _ (Exponential_density mu H)).
  intros u Hu. destruct (Exponential_quantile mu u H Hu) as (x & E & _ & F). eauto.
Qed.
Theorem C01_Logistic mu scale : 0 < scale ->
  inverse_transform (Logistic_prob mu scale) (Logistic_rescale mu scale) open01.
Proof.
  intros H. apply (inverse_transform_cdf _ _ _ _ (Logistic_density mu scale H)).
  intros u Hu. exact (Logistic_quantile mu scale u H Hu).
Qed.
Theorem C01_Cauchy alpha beta : 0 < beta ->
  inverse_transform (Cauchy_prob alpha beta) (Cauchy_rescale alpha beta) open01.
Proof.
  intros H. apply (inverse_transform_cdf _ _ _ _ (Cauchy_density alpha beta H)).
  intros u Hu. exact (Cauchy_quantile alpha beta u H Hu).
Qed.
Theorem C01_FermiDirac sigma r : 0 < sigma ->
  inverse_transform (FermiDirac_prob sigma r) (FermiDirac_rescale sigma r) (fun u => 0 <= u < 1).
Proof.
  intros H. apply (inverse_transform_cdf _ _ _ _ (FermiDirac_density sigma r H)).
  intros u Hu. destruct (FermiDirac_quantile sigma r u H Hu) as (x & E & _ & F). eauto.
Qed.
Theorem C01_Triangular mode mn mx : mn <= mode <= mx -> mn < mx ->
  inverse_transform (Tri_prob mode mn mx) (fun u => toR (Tri_rescale mode mn mx u)) closed01.
Proof. intros H L. exact (bounded_prior_inverse _ _ _ _ _ (Tri_bounded mode mn mx H L)). Qed.
(** the densities are normalised *)
Theorem C01_densities_normalised :
  (forall mn mx, mn < mx -> is_RInt (Uniform_prob mn mx) mn mx 1) /\
  (forall alpha mn mx, 0 < mn < mx -> is_RInt (PowerLaw_prob alpha mn mx) mn mx 1) /\
  (forall mn mx, 0 < mn < mx -> is_RInt (SymLogUniform_prob mn mx) (- mx) mx 1) /\
  (forall mode mn mx, mn <= mode <= mx -> mn < mx -> is_RInt (Tri_prob mode mn mx) mn mx 1).
Proof.
  assert (G : forall p F q mn mx, bounded_prior p F q mn mx -> is_RInt p mn mx 1).
  { intros p F q mn mx (HD & _ & H0 & H1 & _).
    apply (total_mass p F mn mx HD); [apply H0|apply H1]; apply Rle_refl. }
  split; [|split; [|split]].
  - intros mn mx H. exact (G _ _ _ _ _ (Uniform_bounded mn mx H)).
  - intros a mn mx H. exact (G _ _ _ _ _ (PowerLaw_bounded a mn mx H)).
  - intros mn mx H. exact (G _ _ _ _ _ (SymLogUniform_bounded mn mx H)).
  - intros m mn mx H L. exact (G _ _ _ _ _ (Tri_bounded m mn mx H L)).
Qed.
Example C01_example : exists x y,
  SymLogUniform_rescale 1 2 (1/4) = x /\ SymLogUniform_rescale 1 2 (3/4) = y /\
  is_RInt (SymLogUniform_prob 1 2) x y (1/2).
Proof.
  destruct (C01_SymmetricLogUniform 1 2 ltac:(lra) (1/4) (3/4)) as (x & y & Ex & Ey & _ & I);
    [unfold closed01; lra|unfold closed01; lra|lra|].
  injection Ex as Ex. injection Ey as Ey. exists x, y. split; [exact Ex|]. split; [exact Ey|].
  replace (1/2) with (3/4 - 1/4) by lra. exact I.
Qed.

(** C02: samples stay in the support, both ends are hit, rescale is strictly increasing. *)
Theorem C02_Uniform mn mx : mn < mx -> stays_in_support (fun u => Finite (Uniform_rescale mn mx u)) mn mx.
Proof. intros H. exact (bounded_prior_range _ _ _ _ _ (Uniform_bounded mn mx H)). Qed.
Theorem C02_PowerLaw alpha mn mx : 0 < mn < mx ->
  stays_in_support (fun u => Finite (PowerLaw_rescale alpha mn mx u)) mn mx.
Proof. intros H. exact (bounded_prior_range _ _ _ _ _ (PowerLaw_bounded alpha mn mx H)). Qed.
Theorem C02_PowerLaw_zero_minimum alpha mx : -1 < alpha -> 0 < mx ->
  PowerLaw_rescale alpha 0 mx 0 = 0 /\ PowerLaw_rescale alpha 0 mx 1 = mx /\
  forall u, 0 < u <= 1 -> 0 < PowerLaw_rescale alpha 0 mx u <= mx.
Proof.
  intros Ha Hm. destruct (PowerLaw0_ends alpha mx Ha Hm) as [E0 E1]. split; [exact E0|]. split; [exact E1|].
  intros u Hu. exact (proj2 (PowerLaw0_rescale alpha mx u Ha Hm Hu)).
Qed.
Theorem C02_LogUniform mn mx : 0 < mn < mx -> stays_in_support (fun u => Finite (LogUniform_rescale mn mx u)) mn mx.
Proof. exact (C02_PowerLaw (-1) mn mx). Qed.
Theorem C02_SymmetricLogUniform mn mx : 0 < mn < mx ->
  stays_in_support (fun u => Finite (SymLogUniform_rescale mn mx u)) (- mx) mx /\
  (forall u, 0 <= u <= 1 -> 0 < SymLogUniform_prob mn mx (SymLogUniform_rescale mn mx u)).
Proof.
  intros H. split; [exact (bounded_prior_range _ _ _ _ _ (SymLogUniform_bounded mn mx H))|].
  intros u Hu. exact (SymLogUniform_support mn mx u H Hu).
Qed.
Theorem C02_Triangular mode mn mx : mn <= mode <= mx -> mn < mx ->
  stays_in_support (fun u => toR (Tri_rescale mode mn mx u)) mn mx.
Proof. intros H L. exact (bounded_prior_range _ _ _ _ _ (Tri_bounded mode mn mx H L)). Qed.
(** Cosine and Sine on every sub-range of their natural range *)
Theorem C02_Cosine mn mx u : - (PI / 2) <= mn /\ mn < mx /\ mx <= PI / 2 -> 0 <= u <= 1 ->
  (exists x, Cosine_rescale mn mx u = Some x /\ mn <= x <= mx) /\
  Cosine_rescale mn mx 0 = Some mn /\ Cosine_rescale mn mx 1 = Some mx.
Proof.
  intros H Hu. split; [|exact (Cosine_ends mn mx H)].
  destruct (Cosine_cdf_rescale mn mx u H Hu) as (x & E & B & _). eauto.
Qed.
Theorem C02_Sine mn mx u : 0 <= mn /\ mn < mx /\ mx <= PI -> 0 <= u <= 1 ->
  (exists x, Sine_rescale mn mx u = Some x /\ mn <= x <= mx) /\
  Sine_rescale mn mx 0 = Some mn /\ Sine_rescale mn mx 1 = Some mx.
Proof.
  intros H Hu. split; [|exact (Sine_ends mn mx H)].
  destruct (Sine_cdf_rescale mn mx u H Hu) as (x & E & B & _). eauto.
Qed.
(** half-line priors *)
Theorem C02_Exponential mu u : 0 < mu -> 0 <= u < 1 -> exists x, Exponential_rescale mu u = Finite x /\ 0 <= x.
Proof. intros H Hu. destruct (Exponential_quantile mu u H Hu) as (x & E & B & _). eauto. Qed.
Theorem C02_FermiDirac sigma r u : 0 < sigma -> 0 <= u < 1 -> exists x, FermiDirac_rescale sigma r u = Finite x /\ 0 <= x.
Proof. intros H Hu. destruct (FermiDirac_quantile sigma r u H Hu) as (x & E & B & _). eauto. Qed.
Example C02_example : 1 <= PowerLaw_rescale (-3) 1 2 (1/3) <= 2.
Proof.
  destruct (C02_PowerLaw (-3) 1 2 ltac:(lra)) as (H & _).
  destruct (H (1/3)) as (x & E & B); [unfold closed01; lra|]. injection E as ->. exact B.
Qed.

(** C03: [cdf] is the distribution function of [prob] and inverts [rescale]. *)
Theorem C03_Uniform mn mx : mn < mx ->
  cdf_correct (Uniform_prob mn mx) (Uniform_cdf mn mx) (fun u => Finite (Uniform_rescale mn mx u)) closed01 /\
  forall x, is_RInt (Uniform_prob mn mx) mn x (Uniform_cdf mn mx x).
Proof. intros H. exact (bounded_prior_cdf _ _ _ _ _ (Uniform_bounded mn mx H)). Qed.
(** PowerLaw / LogUniform: at every positive argument *)
Theorem C03_PowerLaw alpha mn mx : 0 < mn < mx ->
  (forall x, 0 < x -> exists c, PowerLaw_cdf alpha mn mx x = Some c /\ 0 <= c <= 1 /\
     is_RInt (PowerLaw_prob alpha mn mx) mn x c) /\
  (forall u, 0 <= u <= 1 -> PowerLaw_cdf alpha mn mx (PowerLaw_rescale alpha mn mx u) = Some u).
Proof.
  intros H. destruct (bounded_prior_cdf _ _ _ _ _ (PowerLaw_bounded alpha mn mx H)) as [(HD & HR & HQ) HI]. split.
  - intros x Hx. exists (PLC alpha mn mx x). split; [exact (PowerLaw_cdf_PLC alpha mn mx x H Hx)|]. split; [apply HR|apply HI].
  - intros u Hu. destruct (C02_PowerLaw alpha mn mx H) as (HS & _). destruct (HS u Hu) as (x & E & B).
    destruct (HQ u Hu) as (x' & E' & F). injection E as E. injection E' as E'. subst x x'.
    rewrite PowerLaw_cdf_PLC; [f_equal; exact F|exact H|lra].
Qed.
Theorem C03_PowerLaw_zero_minimum alpha mx x y : -1 < alpha -> 0 < mx -> 0 < x -> x <= y -> y <= mx ->
  exists cx cy, PowerLaw_cdf alpha 0 mx x = Some cx /\ PowerLaw_cdf alpha 0 mx y = Some cy /\
    is_RInt (PowerLaw_prob alpha 0 mx) x y (cy - cx).
Proof.
  intros Ha Hm Hx Hxy Hy.
  assert (B : forall z, 0 < z <= mx -> 0 <= Rpower (z / mx) (1 + alpha) <= 1).
  { intros z Hz. split; [left; apply exp_pos|].
    apply Rle_trans with (Rpower 1 (1 + alpha)); [|right; apply Rpower_1_base].
    apply Rle_Rpower_l; [lra|]. split; [apply Rdiv_pos; lra|apply Rdiv_le_1'; lra]. }
  exists (Rpower (x / mx) (1 + alpha)), (Rpower (y / mx) (1 + alpha)).
  rewrite !PowerLaw0_cdf, !clamp01_id by (try apply B; lra).
  split; [reflexivity|]. split; [reflexivity|]. apply PowerLaw0_integral; assumption.
Qed.
(** the same formula evaluated below zero is wrong: a point two units below the
    support of a linear density gets cumulative probability one, and for
    alpha = -1 the result is nan *)
Theorem C03_PowerLaw_negative_refuted :
  (exists alpha mn mx x, 0 < mn < mx /\ x < mn /\ PowerLaw_cdf alpha mn mx x = Some 1) /\
  (exists alpha mn mx, 0 < mn < mx /\ forall x, x < 0 -> PowerLaw_cdf alpha mn mx x = None).
Proof.
  split.
  - exists 1, 1, 2, (-2). repeat split; try lra. exact PowerLaw_cdf_negative.
  - exists (-1), 1, 2. split; [lra|]. exact PowerLaw_cdf_nan.
Qed.
Theorem C03_SymmetricLogUniform mn mx : 0 < mn < mx ->
  cdf_correct (SymLogUniform_prob mn mx) (SymLogUniform_cdf mn mx) (fun u => Finite (SymLogUniform_rescale mn mx u)) closed01 /\
  forall x, is_RInt (SymLogUniform_prob mn mx) (- mx) x (SymLogUniform_cdf mn mx x).
Proof. intros H. exact (bounded_prior_cdf _ _ _ _ _ (SymLogUniform_bounded mn mx H)). Qed.
Theorem C03_Exponential mu : 0 < mu ->
  cdf_correct (Exponential_prob mu) (Exponential_cdf mu) (Exponential_rescale mu) (fun u => 0 <= u < 1).
Proof.
  intros H. pose proof (Exponential_density mu H) as HD. split; [exact HD|]. split; [exact (density_cdf_range _ _ HD)|].
  intros u Hu. destruct (Exponential_quantile mu u H Hu) as (x & E & _ & F). eauto.
Qed.
Theorem C03_Logistic mu scale : 0 < scale ->
  cdf_correct (Logistic_prob mu scale) (Logistic_cdf mu scale) (Logistic_rescale mu scale) open01.
Proof.
  intros H. pose proof (Logistic_density mu scale H) as HD. split; [exact HD|]. split; [exact (density_cdf_range _ _ HD)|].
  intros u Hu. exact (Logistic_quantile mu scale u H Hu).
Qed.
Theorem C03_Cauchy alpha beta : 0 < beta ->
  cdf_correct (Cauchy_prob alpha beta) (Cauchy_cdf alpha beta) (Cauchy_rescale alpha beta) open01.
Proof.
  intros H. pose proof (Cauchy_density alpha beta H) as HD. split; [exact HD|]. split; [exact (density_cdf_range _ _ HD)|].
  intros u Hu. exact (Cauchy_quantile alpha beta u H Hu).
Qed.
Theorem C03_Triangular mode mn mx : mn <= mode <= mx -> mn < mx ->
  cdf_correct (Tri_prob mode mn mx) (Tri_cdf mode mn mx) (fun u => toR (Tri_rescale mode mn mx u)) closed01 /\
  forall x, is_RInt (Tri_prob mode mn mx) mn x (Tri_cdf mode mn mx x).
Proof. intros H L. exact (bounded_prior_cdf _ _ _ _ _ (Tri_bounded mode mn mx H L)). Qed.
Example C03_example : Logistic_cdf 1 2 1 = 1/2 /\ Tri_cdf 1 0 3 2 = 5/6.
Proof.
  split.
  - unfold Logistic_cdf. replace (- (1 - 1) / 2) with 0 by lra. rewrite exp_0. lra.
  - rewrite Tri_cdf_split by lra. unfold TrC1, TrC2.
    destruct (Rle_dec 2 0); [lra|]. destruct (Rle_dec 2 1); [lra|]. destruct (Rle_dec 2 3); [|lra]. field.
Qed.

(** C04: Cosine and Sine on a truncated range. *)
Theorem C04_Cosine_mass mn mx u v : - (PI / 2) <= mn /\ mn < mx /\ mx <= PI / 2 -> 0 <= u -> u <= v -> v <= 1 ->
  exists x y, Cosine_rescale mn mx u = Some x /\ Cosine_rescale mn mx v = Some y /\ x <= y /\
    Cosine_cdf mn mx x = u /\ Cosine_cdf mn mx y = v /\
    is_RInt (Cosine_prob mn mx) x y ((v - u) * ((sin mx - sin mn) / 2)).
Proof.
  intros H Hu Huv Hv. destruct (Cosine_mass mn mx u v H Hu Huv Hv) as (x & y & Ex & Ey & L & I).
  destruct (Cosine_cdf_rescale mn mx u H ltac:(lra)) as (x' & Ex' & _ & Fx).
  destruct (Cosine_cdf_rescale mn mx v H ltac:(lra)) as (y' & Ey' & _ & Fy).
  rewrite Ex in Ex'. rewrite Ey in Ey'. injection Ex' as <-. injection Ey' as <-. exists x, y. repeat split; assumption.
Qed.
Theorem C04_Sine_mass mn mx u v : 0 <= mn /\ mn < mx /\ mx <= PI -> 0 <= u -> u <= v -> v <= 1 ->
  exists x y, Sine_rescale mn mx u = Some x /\ Sine_rescale mn mx v = Some y /\ x <= y /\
    Sine_cdf mn mx x = u /\ Sine_cdf mn mx y = v /\
    is_RInt (Sine_prob mn mx) x y ((v - u) * ((cos mn - cos mx) / 2)).
Proof.
  intros H Hu Huv Hv. destruct (Sine_mass mn mx u v H Hu Huv Hv) as (x & y & Ex & Ey & L & I).
  destruct (Sine_cdf_rescale mn mx u H ltac:(lra)) as (x' & Ex' & _ & Fx).
  destruct (Sine_cdf_rescale mn mx v H ltac:(lra)) as (y' & Ey' & _ & Fy).
  rewrite Ex in Ex'. rewrite Ey in Ey'. injection Ex' as <-. injection Ey' as <-. exists x, y. repeat split; assumption.
Qed.
Theorem C04_Cosine_normalised_iff mn mx : - (PI / 2) <= mn /\ mn < mx /\ mx <= PI / 2 ->
  (is_RInt (Cosine_prob mn mx) mn mx 1 <-> mn = - (PI / 2) /\ mx = PI / 2).
Proof. exact (Cosine_norm_iff mn mx). Qed.
Theorem C04_Sine_normalised_iff mn mx : 0 <= mn /\ mn < mx /\ mx <= PI ->
  (is_RInt (Sine_prob mn mx) mn mx 1 <-> mn = 0 /\ mx = PI).
Proof. exact (Sine_norm_iff mn mx). Qed.
Theorem C04_Cosine_default : inverse_transform (Cosine_prob (- (PI / 2)) (PI / 2))
  (fun u => toR (Cosine_rescale (- (PI / 2)) (PI / 2) u)) closed01.
Proof. exact (bounded_prior_inverse _ _ _ _ _ Cosine_bounded). Qed.
Theorem C04_Sine_default : inverse_transform (Sine_prob 0 PI) (fun u => toR (Sine_rescale 0 PI u)) closed01.
Proof. exact (bounded_prior_inverse _ _ _ _ _ Sine_bounded). Qed.
(** hence a truncated Cosine prior hands out samples of a density it does not report *)
Theorem C04_truncated_refuted : exists mn mx, - (PI / 2) <= mn /\ mn < mx /\ mx <= PI / 2 /\
  ~ inverse_transform (Cosine_prob mn mx) (fun u => toR (Cosine_rescale mn mx u)) closed01.
Proof.
  pose proof PI_RGT_0. exists 0, (PI / 2). repeat split; try lra. intros HI.
  assert (HR : cos_range 0 (PI / 2)) by (unfold cos_range; lra).
  destruct (HI 0 1) as (x & y & Ex & Ey & _ & I); [unfold closed01; lra|unfold closed01; lra|lra|].
  destruct (Cosine_ends 0 (PI / 2) HR) as [E0 E1]. rewrite E0 in Ex. rewrite E1 in Ey.
  injection Ex as <-. injection Ey as <-. replace (1 - 0) with 1 in I by ring.
  apply (Cosine_norm_iff 0 (PI / 2) HR) in I. lra.
Qed.
Example C04_example : is_RInt (Cosine_prob 0 (PI / 2)) 0 (PI / 2) (1/2).
Proof.
  pose proof PI_RGT_0. eapply is_RInt_val; [apply (Cosine_prob_integral 0 (PI / 2)); unfold cos_range; lra|].
  rewrite sin_0, sin_PI2. lra.
Qed.

(** C05: ln_prob is the logarithm of prob. *)
Theorem C05_Uniform mn mx : mn < mx -> ln_prob_correct (Uniform_prob mn mx) (Uniform_ln_prob mn mx).
Proof. exact (Uniform_ln mn mx). Qed.
Theorem C05_PowerLaw alpha mn mx : 0 < mn < mx -> ln_prob_correct (PowerLaw_prob alpha mn mx) (PowerLaw_ln_prob alpha mn mx).
Proof. exact (PowerLaw_ln alpha mn mx). Qed.
Theorem C05_LogUniform mn mx : 0 < mn < mx -> ln_prob_correct (LogUniform_prob mn mx) (LogUniform_ln_prob mn mx).
Proof. exact (PowerLaw_ln (-1) mn mx). Qed.
Theorem C05_Exponential mu : 0 < mu -> ln_prob_correct (Exponential_prob mu) (Exponential_ln_prob mu).
Proof. exact (Exponential_ln mu). Qed.
Theorem C05_Cauchy alpha beta x : 0 < beta -> Cauchy_ln_prob alpha beta x = ln (Cauchy_prob alpha beta x).
Proof. exact (Cauchy_ln alpha beta x). Qed.
Theorem C05_FermiDirac sigma r : 0 < sigma -> ln_prob_correct (FermiDirac_prob sigma r) (FermiDirac_ln_prob sigma r).
Proof. exact (FermiDirac_ln sigma r). Qed.
Theorem C05_SymmetricLogUniform_in_support big mn mx x : 0 < mn < mx -> 0 < SymLogUniform_prob mn mx x ->
  SymLogUniform_ln_prob big mn mx x = Finite (ln (SymLogUniform_prob mn mx x)).
Proof. exact (SymLogUniform_ln big mn mx x). Qed.
Theorem C05_SymmetricLogUniform_refuted big mn mx x : 0 < mn < mx -> Rabs x < mn \/ mx < Rabs x ->
  SymLogUniform_prob mn mx x = 0 /\ exists l : R, SymLogUniform_ln_prob big mn mx x = Finite l.
Proof. exact (SymLogUniform_ln_outside big mn mx x). Qed.
Example C05_example : Uniform_ln_prob 0 2 1 = Finite (0 - ln (2 - 0)) /\ Uniform_ln_prob 0 2 3 = m_infty.
Proof.
  unfold Uniform_ln_prob. rewrite in_range_true, in_range_false by lra. split; reflexivity.
Qed.

(** ** Assumptions of every theorem above *)
Definition Prior_Props_all :=
  (@C01_Uniform,
   @C01_PowerLaw,
   @C01_PowerLaw_zero_minimum,
   @C01_LogUniform,
   @C01_SymmetricLogUniform,
   @C01_Exponential,
   @C01_Logistic,
   @C01_Cauchy,
   @C01_FermiDirac,
   @C01_Triangular,
   @C01_densities_normalised,
   @C02_Uniform,
   @C02_PowerLaw,
   @C02_PowerLaw_zero_minimum,
   @C02_LogUniform,
   @C02_SymmetricLogUniform,
   @C02_Triangular,
   @C02_Cosine,
   @C02_Sine,
   @C02_Exponential,
   @C02_FermiDirac,
   @C03_Uniform,
   @C03_PowerLaw,
   @C03_PowerLaw_zero_minimum,
   @C03_PowerLaw_negative_refuted,
   @C03_SymmetricLogUniform,
   @C03_Exponential,
   @C03_Logistic,
   @C03_Cauchy,
   @C03_Triangular,
   @C04_Cosine_mass,
   @C04_Sine_mass,
   @C04_Cosine_normalised_iff,
   @C04_Sine_normalised_iff,
   @C04_Cosine_default,
   @C04_Sine_default,
   @C04_truncated_refuted,
   @C05_Uniform,
   @C05_PowerLaw,
   @C05_LogUniform,
   @C05_Exponential,
   @C05_Cauchy,
   @C05_FermiDirac,
   @C05_SymmetricLogUniform_in_support,
   @C05_SymmetricLogUniform_refuted).
Print Assumptions Prior_Props_all.
