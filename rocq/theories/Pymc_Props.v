(** Properties C210 to C212: what bilby hands to PyMC. *)
From Coq Require Import String Reals Lra List Bool Arith Lia.
From Coquelicot Require Import Coquelicot.
From Verif Require Import PyDict PyReal Prior_Model GaussPrior_Model GaussPrior_Proofs Lik_Model Pymc_Model.
Import ListNotations.
Open Scope string_scope.
Open Scope list_scope.
Open Scope R_scope.

(** ** C210 The log density PyMC samples from is that of the bilby prior, at every point. *)
Section C210.
Variable gammaln : R -> R.
(** PyMC gets a distribution, and its log density is [f]. *)
Definition becomes (class : string) (attrs : dict R) (f : R -> Rbar) (where_ : R -> Prop) : Prop :=
  exists d, set_prior class attrs = Ok d /\ forall x, where_ x -> pymc_logp gammaln d x = Some (f x).
Definition everywhere (x : R) : Prop := True.

Lemma sqrt2pi_pos : 0 < sqrt (2 * PI).
Proof. apply sqrt_lt_R0. pose proof PI_RGT_0. lra. Qed.
Lemma ln_root x : 0 < x -> ln (sqrt x) = ln x / 2.
Proof. intros H. rewrite <- (sqrt_sqrt x) at 2 by lra. rewrite ln_mult by (apply sqrt_lt_R0, H). lra. Qed.
Lemma ln_over x y : 0 < x -> 0 < y -> ln (x / y) = ln x - ln y.
Proof. intros. unfold Rdiv. rewrite ln_mult, ln_Rinv; auto with real. Qed.
Lemma normal_gauss mu sigma x : 0 < sigma -> normal_logp mu sigma x = ln (Gaussian_prob mu sigma x).
Proof.
  intros S. pose proof sqrt2pi_pos. unfold normal_logp, Gaussian_prob. rewrite !ln_over, ln_exp; try apply exp_pos; try assumption.
  2: apply Rdiv_lt_0_compat; [apply exp_pos | assumption]. f_equal. f_equal. field. lra.
Qed.
Lemma cdf_prim mu sigma x : 0 < sigma -> normal_cdf mu sigma x = / 2 + prim mu sigma x.
Proof. intros S. pose proof sqrt2_pos. unfold normal_cdf, prim, sc. replace ((x - mu) / (sigma * sqrt 2)) with ((x - mu) / sqrt 2 / sigma) by (field; lra). field. Qed.
Lemma le_true a b : le a b = true <-> a <= b.
Proof. unfold le. destruct (Rle_dec a b); split; intros; try reflexivity; try assumption; try discriminate; contradiction. Qed.
Lemma in_range mn mx x : in_prior_range mn mx x = le mn x && le x mx.
Proof. unfold in_prior_range, le. destruct (Rle_dec mn x), (Rle_dec x mx); reflexivity. Qed.
Lemma generic_pos p x : 0 < p x -> generic_ln_prob p x = Finite (ln (p x)).
Proof. intros H. unfold generic_ln_prob. destruct (Rlt_dec 0 (p x)); [reflexivity | contradiction]. Qed.
Lemma generic_zero p x : p x = 0 -> generic_ln_prob p x = m_infty.
Proof. intros H. unfold generic_ln_prob. destruct (Rlt_dec 0 (p x)); [lra | reflexivity]. Qed.

Lemma some_eq (a b : Rbar) : a = b -> Some a = Some b.
Proof. intros ->. reflexivity. Qed.
Lemma fin_eq a b : a = b -> Finite a = Finite b.
Proof. intros ->. reflexivity. Qed.
Theorem C210_gaussian mu sigma : 0 < sigma ->
  (forall c, In c ["Gaussian"; "Normal"] -> becomes c [("mu", mu); ("sigma", sigma)] (fun x => Finite (Gaussian_ln_prob mu sigma x)) everywhere) /\
  (forall c mn mx, In c ["TruncatedGaussian"; "TruncatedNormal"] -> mn < mx ->
     becomes c [("mu", mu); ("sigma", sigma); ("minimum", mn); ("maximum", mx)] (generic_ln_prob (Trunc_prob mu sigma mn (Finite mx))) everywhere) /\
  (forall c, In c ["HalfGaussian"; "HalfNormal"] ->
     becomes c [("sigma", sigma); ("mu", 0); ("minimum", 0)] (generic_ln_prob (Half_prob sigma)) everywhere) /\
  (forall c, In c ["LogNormal"; "LogGaussian"] -> becomes c [("mu", mu); ("sigma", sigma)] (LogNormal_ln_prob mu sigma) everywhere).
Proof.
  intros S. pose proof sqrt2pi_pos as R2. split; [|split; [|split]].
  - intros c I. assert (G : forall x, Some (Finite (normal_logp mu sigma x)) = Some (Finite (Gaussian_ln_prob mu sigma x))) by (intros x; rewrite normal_gauss, Gaussian_ln by exact S; reflexivity).
    destruct I as [<- | [<- | []]]; (eexists; split; [reflexivity|]; intros x _; exact (G x)).
  - intros c mn mx I L. assert (G : forall x, Some (when_in (le mn x && le x mx) (normal_logp mu sigma x - ln (normal_cdf mu sigma mx - normal_cdf mu sigma mn)))
      = Some (generic_ln_prob (Trunc_prob mu sigma mn (Finite mx)) x)).
    { intros x. f_equal. pose proof (prim_increasing mu sigma mn mx S L) as P. pose proof (Gaussian_prob_pos mu sigma x S) as Q.
      assert (E : Trunc_prob mu sigma mn (Finite mx) x = if le mn x && le x mx then Gaussian_prob mu sigma x / (prim mu sigma mx - prim mu sigma mn) else 0).
      { rewrite Trunc_prob_eq, norm_prim, below_fin. unfold le. destruct (Rle_dec mn x); cbn [andb]; [|ring]. destruct (Rle_dec x mx); ring. }
      unfold when_in. destruct (le mn x && le x mx).
      - rewrite generic_pos by (rewrite E; apply Rdiv_lt_0_compat; lra). f_equal. rewrite E, ln_over, normal_gauss, !cdf_prim by lra.
        f_equal. f_equal. ring.
      - rewrite generic_zero by exact E. reflexivity. }
    destruct I as [<- | [<- | []]]; (eexists; split; [reflexivity|]; intros x _; exact (G x)).
  - intros c I. assert (G : forall x, Some (when_in (le 0 x) (- (1 / 2) * (x / sigma) ^ 2 + ln (sqrt (2 / PI) / sigma))) = Some (generic_ln_prob (Half_prob sigma) x)).
    { intros x. f_equal. pose proof (Gaussian_prob_pos 0 sigma x S) as Q. unfold Half_prob.
      assert (P0 : prim 0 sigma 0 = 0) by (unfold prim, sc; replace ((0 - 0) / sqrt 2 / sigma) with 0 by (pose proof sqrt2_pos; field; lra); rewrite erf_0; field).
      assert (E : Trunc_prob 0 sigma 0 p_infty x = if le 0 x then 2 * Gaussian_prob 0 sigma x else 0).
      { rewrite Trunc_prob_eq, norm_prim_inf, P0. unfold below, le. destruct (Rle_dec 0 x); field. }
      unfold when_in. destruct (le 0 x).
      - rewrite generic_pos by (rewrite E; lra). f_equal. rewrite E, ln_mult, <- normal_gauss by lra. unfold normal_logp.
        pose proof PI_RGT_0. rewrite ln_over by (try (apply sqrt_lt_R0, Rdiv_lt_0_compat); lra). rewrite !ln_root by (try apply Rdiv_lt_0_compat; lra). rewrite ln_over, ln_mult by lra.
        replace ((x - 0) / sigma) with (x / sigma) by (field; lra). lra.
      - rewrite generic_zero by exact E. reflexivity. }
    destruct I as [<- | [<- | []]]; (eexists; split; [reflexivity|]; intros x _; exact (G x)).
  - intros c I. assert (G : forall x, Some (when_in (lt 0 x) (normal_logp mu sigma (ln x) - ln x)) = Some (LogNormal_ln_prob mu sigma x)).
    { intros x. f_equal. unfold LogNormal_ln_prob, when_in, lt. destruct (Rlt_dec 0 x) as [P|P], (Rle_dec x 0) as [Q|Q]; try lra; [|reflexivity].
      f_equal. unfold normal_logp. rewrite !ln_mult by (try apply Rmult_lt_0_compat; assumption). replace (- (1 / 2) * ((ln x - mu) / sigma) ^ 2) with (- (ln x - mu) ^ 2 / sigma ^ 2 / 2) by (field; lra). ring. }
    destruct I as [<- | [<- | []]]; (eexists; split; [reflexivity|]; intros x _; exact (G x)).
Qed.
Theorem C210_others :
  (forall mn mx, mn < mx -> becomes "Uniform" [("minimum", mn); ("maximum", mx)] (Uniform_ln_prob mn mx) everywhere) /\
  (forall mu, 0 < mu -> becomes "Exponential" [("mu", mu); ("minimum", 0)] (Exponential_ln_prob mu) everywhere) /\
  (forall df mu scale, 0 < df -> 0 < scale -> becomes "StudentT" [("df", df); ("mu", mu); ("scale", scale)] (fun x => Finite (StudentT_ln_prob gammaln df mu scale x)) everywhere) /\
  (forall mu scale, 0 < scale -> becomes "Logistic" [("mu", mu); ("scale", scale)] (fun x => Finite (Logistic_ln_prob mu scale x)) everywhere) /\
  (forall c alpha beta, In c ["Cauchy"; "Lorentzian"] -> 0 < beta -> becomes c [("alpha", alpha); ("beta", beta)] (fun x => Finite (Cauchy_ln_prob alpha beta x)) everywhere) /\
  (forall k theta, 0 < k -> 0 < theta -> becomes "Gamma" [("k", k); ("theta", theta); ("minimum", 0)] (Gamma_ln_prob gammaln k theta) (fun x => x <> 0)) /\
  (forall nu, (0 < nu)%nat -> becomes "ChiSquared" [("k", INR nu / 2); ("theta", 2); ("nu", INR nu)] (Gamma_ln_prob gammaln (INR nu / 2) 2) (fun x => x <> 0)) /\
  (forall a b, 0 < a -> 0 < b -> becomes "Beta" [("minimum", 0); ("maximum", 1); ("alpha", a); ("beta", b)] (Beta_ln_prob gammaln a b 0 1) (fun x => x <> 0 /\ x <> 1)) /\
  (forall mn mx, 0 < mn < mx -> becomes "LogUniform" [("alpha", -1); ("minimum", mn); ("maximum", mx)] (LogUniform_ln_prob mn mx) everywhere).
Proof.
  pose proof PI_RGT_0 as PP. split; [|split; [|split; [|split; [|split; [|split; [|split; [|split]]]]]]].
  - intros mn mx L. eexists. split; [reflexivity|]. intros x _. simpl. unfold transform. simpl. apply some_eq. unfold Uniform_ln_prob, when_in. rewrite in_range. destruct (le mn x && le x mx); [apply fin_eq; ring | reflexivity].
  - intros mu L. eexists. split; [reflexivity|]. intros x _. simpl. apply some_eq. unfold Exponential_ln_prob, when_in, le, transform. simpl.
    destruct (Rle_dec 0 x), (Rlt_dec x 0); try lra; [|reflexivity]. apply fin_eq. rewrite ln_over, ln_1 by lra. field. lra.
  - intros df mu scale L1 L2. assert (G : forall x, gammaln ((df + 1) / 2) + ln (/ scale ^ 2 / (df * PI)) / 2 - gammaln (df / 2) - (df + 1) / 2 * ln (1 + / scale ^ 2 * (x - mu) ^ 2 / df) = StudentT_ln_prob gammaln df mu scale x).
    { intros x. unfold StudentT_ln_prob. assert (0 < scale * scale) by (apply Rmult_lt_0_compat; assumption). assert (0 < df * PI) by (apply Rmult_lt_0_compat; assumption).
      replace (1 / 2 * (df + 1)) with ((df + 1) / 2) by field. replace (1 / 2 * df) with (df / 2) by field. replace (scale ^ 2) with (scale * scale) by ring.
      replace (PI * df) with (df * PI) by ring. rewrite (ln_over (/ (scale * scale))) by (try apply Rinv_0_lt_compat; assumption). rewrite ln_Rinv, ln_mult by assumption.
      rewrite (ln_mult (sqrt (df * PI))), ln_root by (try apply sqrt_lt_R0; assumption).
      replace (/ (scale * scale) * (x - mu) ^ 2 / df) with (((x - mu) / scale) ^ 2 / df) by (field; lra). lra. }
    eexists. split; [reflexivity|]. intros x _. exact (f_equal (fun r => Some (Finite r)) (G x)).
  - intros mu scale L. assert (G : forall x, - (x - mu) / scale - ln scale - 2 * ln (1 + exp (- (x - mu) / scale)) = Logistic_ln_prob mu scale x) by (intros x; unfold Logistic_ln_prob; ring).
    eexists. split; [reflexivity|]. intros x _. exact (f_equal (fun r => Some (Finite r)) (G x)).
  - intros c a b I L. assert (G : forall x, Some (Finite (- ln PI - ln b - ln (1 + ((x - a) / b) ^ 2))) = Some (Finite (Cauchy_ln_prob a b x))).
    { intros x. f_equal. f_equal. unfold Cauchy_ln_prob. rewrite (ln_mult b PI) by lra. ring. }
    destruct I as [<- | [<- | []]]; (eexists; split; [reflexivity|]; intros x _; exact (G x)).
  - intros k theta L1 L2. eexists. split; [reflexivity|]. intros x Hx. simpl. unfold transform. simpl. apply some_eq. unfold gamma_logp, Gamma_ln_prob, when_in, le.
    destruct (Rle_dec 0 x), (Rlt_dec x 0); try lra; [|reflexivity]. apply fin_eq. rewrite ln_over, ln_1 by lra. field. lra.
  - intros nu L. eexists. split; [reflexivity|]. intros x Hx. simpl. unfold transform. simpl. apply some_eq. unfold gamma_logp, Gamma_ln_prob, when_in, le.
    destruct (Rle_dec 0 x), (Rlt_dec x 0); try lra; [|reflexivity]. apply fin_eq. rewrite ln_over, ln_1 by lra. field.
  - intros a b L1 L2. eexists. split; [reflexivity|]. intros x Hx. simpl. unfold transform. simpl. apply some_eq. unfold Beta_ln_prob, when_in. rewrite in_range.
    destruct (le 0 x && le x 1); [|reflexivity]. apply fin_eq. replace (1 - 0) with 1 by ring. replace (x - 0) with x by ring. rewrite ln_1. ring.
  - intros mn mx L. unfold becomes, set_prior. simpl. destruct (Rlt_dec (-1) (-1)); [lra|]. eexists. split; [reflexivity|]. intros x _. simpl. apply some_eq.
    unfold LogUniform_ln_prob, PowerLaw_ln_prob, PowerLaw_normalising, when_in. rewrite in_range. destruct (le mn x && le x mx); [|reflexivity]. apply fin_eq. destruct (Req_EM_T (-1) (-1)); [ring | lra].
Qed.

(** ** C210 For the sine, the cosine and power laws above -1 the log densities differ by a constant: by nothing on the default ranges of the sine and cosine. *)
Definition shifted (c : R) (b : Rbar) : Rbar := match b with Finite x => Finite (x + c) | b => b end.
Lemma cos_gap lo hi : 0 <= lo -> lo < hi -> hi <= PI -> 0 < cos lo - cos hi.
Proof. intros. assert (cos hi < cos lo) by (apply cos_decreasing_1; lra). lra. Qed.
Lemma sin_gap lo hi : - (PI / 2) <= lo -> lo < hi -> hi <= PI / 2 -> 0 < sin hi - sin lo.
Proof. intros. assert (sin lo < sin hi) by (apply sin_increasing_1; lra). lra. Qed.
Lemma npow_grows a x y : 0 < a -> 0 <= x -> x < y -> npow x a < npow y a.
Proof.
  intros Ha Hx Hy. unfold npow. destruct (Req_EM_T y 0); [lra|]. destruct (Req_EM_T x 0).
  - destruct (Req_EM_T a 0); [lra|]. apply exp_pos.
  - unfold Rpower. apply exp_increasing, Rmult_lt_compat_l; [exact Ha|]. apply ln_increasing; lra.
Qed.
Theorem C210_constant :
  (forall mn mx, 0 <= mn -> mn < mx -> mx <= PI ->
     becomes "Sine" [("minimum", mn); ("maximum", mx)] (fun x => shifted (ln 2 - ln (cos mn - cos mx)) (generic_ln_prob (Sine_prob mn mx) x)) everywhere) /\
  (forall mn mx, - (PI / 2) <= mn -> mn < mx -> mx <= PI / 2 ->
     becomes "Cosine" [("minimum", mn); ("maximum", mx)] (fun x => shifted (ln 2 - ln (sin mx - sin mn)) (generic_ln_prob (Cosine_prob mn mx) x)) everywhere) /\
  (forall alpha mn mx, -1 < alpha -> 0 <= mn -> mn < mx ->
     becomes "PowerLaw" [("alpha", alpha); ("minimum", mn); ("maximum", mx)] (fun x => shifted (- 2 * ln (1 + alpha)) (PowerLaw_ln_prob alpha mn mx x)) everywhere).
Proof.
  split; [|split].
  - intros mn mx L1 L2 L3. pose proof (cos_gap mn mx L1 L2 L3) as G. unfold becomes, set_prior. simpl. destruct (Rle_dec mx mn); [lra|]. eexists. split; [reflexivity|].
    intros x _. simpl. f_equal. unfold generic_ln_prob, Sine_prob, blog. rewrite in_range. destruct (le mn x && le x mx); [|destruct (Rlt_dec 0 0); [lra | reflexivity]].
    destruct (Rlt_dec 0 (sin x / (cos mn - cos mx))) as [P|P], (Rlt_dec 0 (sin x / 2)) as [Q|Q].
    + simpl. f_equal. rewrite !ln_over by lra. ring.
    + exfalso. apply Q. assert (0 < sin x). { replace (sin x) with (sin x / (cos mn - cos mx) * (cos mn - cos mx)) by (field; lra). apply Rmult_lt_0_compat; assumption. } lra.
    + exfalso. apply P. apply Rdiv_lt_0_compat; lra.
    + reflexivity.
  - intros mn mx L1 L2 L3. pose proof (sin_gap mn mx L1 L2 L3) as G. unfold becomes, set_prior. simpl. destruct (Rle_dec mx mn); [lra|]. eexists. split; [reflexivity|].
    intros x _. simpl. f_equal. unfold generic_ln_prob, Cosine_prob, blog. rewrite in_range. destruct (le mn x && le x mx); [|destruct (Rlt_dec 0 0); [lra | reflexivity]].
    destruct (Rlt_dec 0 (cos x / (sin mx - sin mn))) as [P|P], (Rlt_dec 0 (cos x / 2)) as [Q|Q].
    + simpl. f_equal. rewrite !ln_over by lra. ring.
    + exfalso. apply Q. assert (0 < cos x). { replace (cos x) with (cos x / (sin mx - sin mn) * (sin mx - sin mn)) by (field; lra). apply Rmult_lt_0_compat; assumption. } lra.
    + exfalso. apply P. apply Rdiv_lt_0_compat; lra.
    + reflexivity.
  - intros al mn mx L1 L2 L3. unfold becomes, set_prior. simpl. destruct (Rlt_dec al (-1)); [lra|]. eexists. split; [reflexivity|]. intros x _. simpl. f_equal.
    unfold PowerLaw_ln_prob, PowerLaw_normalising, when_in. rewrite in_range. destruct (le mn x && le x mx); [|reflexivity]. simpl. f_equal.
    destruct (Req_EM_T al (-1)); [lra|]. assert (P : 0 < npow mx (1 + al) - npow mn (1 + al)) by (pose proof (npow_grows (1 + al) mn mx); lra).
    rewrite !ln_over, ln_1, ln_mult by (try apply Rmult_lt_0_compat; lra). ring.
Qed.
Theorem C210_default_range x :
  pymc_logp gammaln (PymcSine 0 PI) x = Some (generic_ln_prob (Sine_prob 0 PI) x) /\ pymc_logp gammaln (PymcCosine (- PI / 2) (PI / 2)) x = Some (generic_ln_prob (Cosine_prob (- PI / 2) (PI / 2)) x).
Proof.
  split; simpl; f_equal; unfold generic_ln_prob, Sine_prob, Cosine_prob, blog; rewrite in_range.
  - replace (cos 0 - cos PI) with 2 by (rewrite cos_0, cos_PI; ring). destruct (le 0 x && le x PI); [reflexivity|]. destruct (Rlt_dec 0 0); [lra | reflexivity].
  - replace (- PI / 2) with (- (PI / 2)) by field. rewrite sin_neg, sin_PI2. replace (1 - - (1)) with 2 by ring. destruct (le (- (PI / 2)) x && le x (PI / 2)); [reflexivity|]. destruct (Rlt_dec 0 0); [lra | reflexivity].
Qed.

(** ** C210 Power laws below -1 get the bounds the wrong way round: no point of the range has a density. The Beta prior loses its bounds. *)
Theorem C210_powerlaw_refuted alpha mn mx : alpha < -1 -> 0 < mn < mx ->
  becomes "PowerLaw" [("alpha", alpha); ("minimum", mn); ("maximum", mx)] (fun _ => m_infty) everywhere /\
  exists x l, PowerLaw_ln_prob alpha mn mx x = Finite l.
Proof.
  intros A L. split.
  - unfold becomes, set_prior. simpl. destruct (Rlt_dec alpha (-1)); [|contradiction]. eexists. split; [reflexivity|]. intros x _. simpl. f_equal. unfold when_in, le.
    destruct (Rle_dec mx x), (Rle_dec x mn); try lra; reflexivity.
  - exists mn, (alpha * ln mn + ln (PowerLaw_normalising alpha mn mx) + 0). unfold PowerLaw_ln_prob. rewrite in_range. unfold le. destruct (Rle_dec mn mn), (Rle_dec mn mx); try lra. simpl. reflexivity.
Qed.
Theorem C210_beta_refuted : exists x d l, set_prior "Beta" [("minimum", 0); ("maximum", 10); ("alpha", 2); ("beta", 2)] = Ok d /\
  pymc_logp gammaln d x = Some m_infty /\ Beta_ln_prob gammaln 2 2 0 10 x = Finite l.
Proof.
  exists 5. eexists. exists ((2 - 1) * ln (5 - 0) + (2 - 1) * ln (10 - 5) - (gammaln 2 + gammaln 2 - gammaln (2 + 2)) - (2 + 2 - 1) * ln (10 - 0)). split; [reflexivity|]. split.
  - simpl. unfold transform. simpl. apply some_eq. unfold when_in, le. destruct (Rle_dec 0 5), (Rle_dec 5 1); try lra; reflexivity.
  - unfold Beta_ln_prob, when_in. rewrite in_range. unfold le. destruct (Rle_dec 0 5), (Rle_dec 5 10); try lra. simpl. reflexivity.
Qed.

(** ** C210 Priors are recognised by the exact name of their class; all others are refused. *)
Definition known_classes :=
  ["Gaussian"; "TruncatedGaussian"; "HalfGaussian"; "Uniform"; "LogNormal"; "Exponential"; "StudentT"; "Beta"; "Logistic"; "Cauchy"; "Gamma"; "ChiSquared";
   "Normal"; "TruncatedNormal"; "HalfNormal"; "LogGaussian"; "Lorentzian"; "DeltaFunction"; "Sine"; "Cosine"; "PowerLaw"; "LogUniform"].
Theorem C210_names c : (forall attrs, set_prior c attrs = Err ValueError) <-> (~ In c known_classes).
Proof.
  split.
  - intros H I. specialize (H []). unfold set_prior in H. unfold known_classes in I. simpl in I. repeat (destruct I as [<- | I]; [discriminate H|]). contradiction.
  - intros N attrs. unfold set_prior. replace (dget prior_map c) with (@None mapping); [reflexivity|]. symmetry. apply dget_none. exact N.
Qed.
Example C210_names_example : set_prior "Constraint" [("minimum", 0); ("maximum", 1)] = Err ValueError /\ set_prior "ConditionalUniform" [] = Err ValueError /\
  set_prior "Triangular" [] = Err ValueError /\ set_prior "DeltaFunction" [("peak", 3)] = Ok (Number 3).
Proof. repeat split. Qed.
End C210.

(** ** Assumptions of every theorem above *)
Definition Pymc_Props_all :=
  (@C210_gaussian,
   @C210_others,
   @C210_constant,
   @C210_default_range,
   @C210_powerlaw_refuted,
   @C210_beta_refuted,
   @C210_names).
Print Assumptions Pymc_Props_all.
