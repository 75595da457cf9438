From Coq Require Import Reals Lra Psatz.
From Coquelicot Require Import Coquelicot.
From Verif Require Import PyReal Prior_Model PriorSpec Prior_Proofs Prior_Proofs2.
Open Scope R_scope.

Definition toR (o : option R) : Rbar := match o with Some x => Finite x | None => p_infty end.

(** ** Cosine *)
Lemma sin_lt x y : - (PI / 2) <= x -> x < y -> y <= PI / 2 -> sin x < sin y.
Proof. intros. apply sin_increasing_1; lra. Qed.
Lemma cos_lt x y : 0 <= x -> x < y -> y <= PI -> cos y < cos x.
Proof. intros. apply cos_decreasing_1; lra. Qed.
Definition cos_range (mn mx : R) := - (PI / 2) <= mn /\ mn < mx /\ mx <= PI / 2.
Definition sin_range (mn mx : R) := 0 <= mn /\ mn < mx /\ mx <= PI.
Lemma Cosine_rescale_eq mn mx u : cos_range mn mx -> 0 <= u <= 1 ->
  Cosine_rescale mn mx u = Some (asin (sin mn + u * (sin mx - sin mn))) /\
  mn <= asin (sin mn + u * (sin mx - sin mn)) <= mx /\
  sin (asin (sin mn + u * (sin mx - sin mn))) = sin mn + u * (sin mx - sin mn).
Proof.
  intros (H1 & H2 & H3) Hu. pose proof (sin_lt mn mx H1 H2 H3) as HL.
  pose proof (SIN_bound mn) as B1. pose proof (SIN_bound mx) as B2.
  assert (B : -1 <= sin mn + u * (sin mx - sin mn) <= 1) by (split; nra).
  assert (E : sin (asin (sin mn + u * (sin mx - sin mn))) = sin mn + u * (sin mx - sin mn)) by (apply sin_asin; exact B).
  split; [|split; [|exact E]].
  - unfold Cosine_rescale. rewrite pdiv_some by lra. simpl.
    rewrite pdiv_some.
    + simpl. replace (u / (1 / (sin mx - sin mn)) + sin mn) with (sin mn + u * (sin mx - sin mn)) by (field; lra).
      apply pasin_some; exact B.
    + apply Rgt_not_eq, Rdiv_pos; lra.
  - destruct (asin_bound (sin mn + u * (sin mx - sin mn))) as [A1 A2].
    set (z := asin (sin mn + u * (sin mx - sin mn))) in *. split.
    + destruct (Rle_dec mn z); [assumption|]. pose proof (sin_lt z mn ltac:(lra) ltac:(lra) ltac:(lra)). nra.
    + destruct (Rle_dec z mx); [assumption|]. pose proof (sin_lt mx z ltac:(lra) ltac:(lra) ltac:(lra)). nra.
Qed.
Lemma Cosine_ends mn mx : cos_range mn mx -> Cosine_rescale mn mx 0 = Some mn /\ Cosine_rescale mn mx 1 = Some mx.
Proof.
  intros H. destruct (Cosine_rescale_eq mn mx 0 H ltac:(lra)) as [-> _].
  destruct (Cosine_rescale_eq mn mx 1 H ltac:(lra)) as [-> _]. destruct H as (H1 & H2 & H3). split; f_equal.
  - rewrite Rmult_0_l, Rplus_0_r. apply asin_sin. lra.
  - replace (sin mn + 1 * (sin mx - sin mn)) with (sin mx) by ring. apply asin_sin. lra.
Qed.
Lemma Cosine_cdf_rescale mn mx u : cos_range mn mx -> 0 <= u <= 1 ->
  exists x, Cosine_rescale mn mx u = Some x /\ mn <= x <= mx /\ Cosine_cdf mn mx x = u.
Proof.
  intros H Hu. destruct (Cosine_rescale_eq mn mx u H Hu) as (E & B & S). eexists. split; [exact E|]. split; [exact B|].
  destruct H as (H1 & H2 & H3). pose proof (sin_lt mn mx H1 H2 H3) as HL.
  unfold Cosine_cdf. destruct (Rlt_dec _ mn); [lra|]. destruct (Rlt_dec mx _); [lra|]. rewrite S. field. lra.
Qed.
Lemma Cosine_prob_integral mn mx x y : cos_range mn mx -> mn <= x -> x <= y -> y <= mx ->
  is_RInt (Cosine_prob mn mx) x y ((sin y - sin x) / 2).
Proof.
  intros _ Hx Hxy Hy. eapply is_RInt_val.
  - apply (ftc_ext _ (fun z => cos z / 2) (fun z => sin z / 2)); [exact Hxy| | |].
    + intros z Hz. auto_derive; [trivial|]. field.
    + intros z Hz. apply cont_of_derive. auto_derive. trivial.
    + intros z Hz. unfold Cosine_prob. rewrite in_range_true by lra. reflexivity.
  - field.
Qed.
Lemma Cosine_mass mn mx u v : cos_range mn mx -> 0 <= u -> u <= v -> v <= 1 ->
  exists x y, Cosine_rescale mn mx u = Some x /\ Cosine_rescale mn mx v = Some y /\ x <= y /\
    is_RInt (Cosine_prob mn mx) x y ((v - u) * ((sin mx - sin mn) / 2)).
Proof.
  intros H Hu Huv Hv. destruct (Cosine_rescale_eq mn mx u H ltac:(lra)) as (Eu & Bu & Su).
  destruct (Cosine_rescale_eq mn mx v H ltac:(lra)) as (Ev & Bv & Sv).
  set (x := asin (sin mn + u * (sin mx - sin mn))) in *. set (y := asin (sin mn + v * (sin mx - sin mn))) in *.
  assert (HR := H). destruct H as (H1 & H2 & H3). pose proof (sin_lt mn mx H1 H2 H3) as HL.
  assert (L : x <= y).
  { destruct (Rle_dec x y); [assumption|]. pose proof (sin_lt y x ltac:(lra) ltac:(lra) ltac:(lra)). nra. }
  exists x, y. repeat split; try assumption.
  eapply is_RInt_val; [apply (Cosine_prob_integral mn mx); [exact HR|lra|exact L|lra]|]. rewrite Su, Sv. field.
Qed.
Lemma Cosine_norm_iff mn mx : cos_range mn mx ->
  is_RInt (Cosine_prob mn mx) mn mx 1 <-> mn = - (PI / 2) /\ mx = PI / 2.
Proof.
  intros H. pose proof (Cosine_prob_integral mn mx mn mx H ltac:(lra) ltac:(destruct H; lra) ltac:(lra)) as HI.
  destruct H as (H1 & H2 & H3). split.
  - intros H. pose proof (is_RInt_uniq _ _ _ _ _ H HI) as HE.
    assert (E : sin mx - sin mn = 2) by lra.
    pose proof (SIN_bound mn). pose proof (SIN_bound mx).
    destruct (Req_dec mn (- (PI / 2))) as [->|N].
    + split; [reflexivity|]. destruct (Req_dec mx (PI / 2)) as [|N]; [assumption|].
      pose proof (sin_lt mx (PI / 2) ltac:(lra) ltac:(lra) ltac:(lra)) as L. rewrite sin_PI2 in L. lra.
    + pose proof (sin_lt (- (PI / 2)) mn ltac:(lra) ltac:(lra) ltac:(lra)) as L. rewrite sin_neg, sin_PI2 in L. lra.
  - intros [-> ->]. eapply is_RInt_val; [exact HI|]. rewrite sin_neg, sin_PI2. field.
Qed.
Lemma Cosine_bounded : bounded_prior (Cosine_prob (- (PI / 2)) (PI / 2)) (Cosine_cdf (- (PI / 2)) (PI / 2))
   (fun u => toR (Cosine_rescale (- (PI / 2)) (PI / 2) u)) (- (PI / 2)) (PI / 2).
Proof.
  pose proof PI_RGT_0. set (mn := - (PI / 2)). set (mx := PI / 2).
  assert (HR : cos_range mn mx) by (unfold cos_range, mn, mx; lra).
  assert (Hl : mn < mx) by (unfold mn, mx; lra).
  assert (S1 : sin mn = -1) by (unfold mn; rewrite sin_neg, sin_PI2; ring).
  assert (S2 : sin mx = 1) by (unfold mx; apply sin_PI2).
  assert (C0 : forall x, x <= mn -> Cosine_cdf mn mx x = 0).
  { intros x Hx. unfold Cosine_cdf. destruct (Rlt_dec x mn); [reflexivity|]. destruct (Rlt_dec mx x); [lra|].
    replace x with mn by lra. unfold Rdiv. ring. }
  assert (C1 : forall x, mn <= x <= mx -> Cosine_cdf mn mx x = (sin x + 1) / 2).
  { intros x Hx. unfold Cosine_cdf. destruct (Rlt_dec x mn); [lra|]. destruct (Rlt_dec mx x); [lra|]. rewrite S1, S2. field. }
  assert (C2 : forall x, mx <= x -> Cosine_cdf mn mx x = 1).
  { intros x Hx. unfold Cosine_cdf. destruct (Rlt_dec x mn); [lra|]. destruct (Rlt_dec mx x); [reflexivity|].
    replace x with mx by lra. rewrite S1, S2. field. }
  apply bounded_prior_intro; [lra| | | |exact C0|exact C2| | |].
  - intros x. unfold Cosine_prob. destruct (in_range_cases mn mx x) as [[-> Hx]|[-> Hx]]; [|lra].
    assert (0 <= cos x) by (apply cos_ge_0; unfold mn, mx in Hx; lra). lra.
  - apply (interval_density _ (fun x => cos x / 2) (fun x => sin x / 2) mn mx).
    + lra.
    + intros z Hz. auto_derive; [trivial|]. field.
    + intros z Hz. apply cont_of_derive. auto_derive. trivial.
    + intros z Hz. unfold Cosine_prob. rewrite in_range_true by lra. reflexivity.
    + intros z Hz. unfold Cosine_prob. rewrite in_range_false by lra. reflexivity.
    + exact C0.
    + intros x Hx. rewrite C1, S1 by exact Hx. field.
    + intros x Hx. rewrite C2, S1, S2 by exact Hx. field.
  - intros z Hz. unfold Cosine_prob. rewrite in_range_false by lra. reflexivity.
  - intros u Hu. destruct (Cosine_cdf_rescale mn mx u HR ltac:(lra)) as (x & E & _ & F). exists x. rewrite E. split; [reflexivity|exact F].
  - destruct (Cosine_ends mn mx HR) as [-> _]. reflexivity.
  - destruct (Cosine_ends mn mx HR) as [_ ->]. reflexivity.
Qed.

(** ** Sine *)
Lemma Sine_rescale_eq mn mx u : sin_range mn mx -> 0 <= u <= 1 ->
  Sine_rescale mn mx u = Some (acos (cos mn - u * (cos mn - cos mx))) /\
  mn <= acos (cos mn - u * (cos mn - cos mx)) <= mx /\
  cos (acos (cos mn - u * (cos mn - cos mx))) = cos mn - u * (cos mn - cos mx).
Proof.
  intros (H1 & H2 & H3) Hu. pose proof (cos_lt mn mx H1 H2 H3) as HL.
  pose proof (COS_bound mn) as B1. pose proof (COS_bound mx) as B2.
  assert (B : -1 <= cos mn - u * (cos mn - cos mx) <= 1) by (split; nra).
  assert (E : cos (acos (cos mn - u * (cos mn - cos mx))) = cos mn - u * (cos mn - cos mx)) by (apply cos_acos; exact B).
  split; [|split; [|exact E]].
  - unfold Sine_rescale. rewrite pdiv_some by lra. simpl.
    rewrite pdiv_some.
    + simpl. replace (cos mn - u / (1 / (cos mn - cos mx))) with (cos mn - u * (cos mn - cos mx)) by (field; lra).
      apply pacos_some; exact B.
    + apply Rgt_not_eq, Rdiv_pos; lra.
  - destruct (acos_bound (cos mn - u * (cos mn - cos mx))) as [A1 A2].
    set (z := acos (cos mn - u * (cos mn - cos mx))) in *. split.
    + destruct (Rle_dec mn z); [assumption|]. pose proof (cos_lt z mn ltac:(lra) ltac:(lra) ltac:(lra)). nra.
    + destruct (Rle_dec z mx); [assumption|]. pose proof (cos_lt mx z ltac:(lra) ltac:(lra) ltac:(lra)). nra.
Qed.
Lemma Sine_ends mn mx : sin_range mn mx -> Sine_rescale mn mx 0 = Some mn /\ Sine_rescale mn mx 1 = Some mx.
Proof.
  intros H. destruct (Sine_rescale_eq mn mx 0 H ltac:(lra)) as [-> _].
  destruct (Sine_rescale_eq mn mx 1 H ltac:(lra)) as [-> _]. destruct H as (H1 & H2 & H3). split; f_equal.
  - rewrite Rmult_0_l, Rminus_0_r. apply acos_cos. lra.
  - replace (cos mn - 1 * (cos mn - cos mx)) with (cos mx) by ring. apply acos_cos. lra.
Qed.
Lemma Sine_cdf_rescale mn mx u : sin_range mn mx -> 0 <= u <= 1 ->
  exists x, Sine_rescale mn mx u = Some x /\ mn <= x <= mx /\ Sine_cdf mn mx x = u.
Proof.
  intros H Hu. destruct (Sine_rescale_eq mn mx u H Hu) as (E & B & S). eexists. split; [exact E|]. split; [exact B|].
  destruct H as (H1 & H2 & H3). pose proof (cos_lt mn mx H1 H2 H3) as HL.
  unfold Sine_cdf. destruct (Rlt_dec _ mn); [lra|]. destruct (Rlt_dec mx _); [lra|]. rewrite S. field. lra.
Qed.
Lemma Sine_prob_integral mn mx x y : sin_range mn mx -> mn <= x -> x <= y -> y <= mx ->
  is_RInt (Sine_prob mn mx) x y ((cos x - cos y) / 2).
Proof.
  intros _ Hx Hxy Hy. eapply is_RInt_val.
  - apply (ftc_ext _ (fun z => sin z / 2) (fun z => - cos z / 2)); [exact Hxy| | |].
    + intros z Hz. auto_derive; [trivial|]. field.
    + intros z Hz. apply cont_of_derive. auto_derive. trivial.
    + intros z Hz. unfold Sine_prob. rewrite in_range_true by lra. reflexivity.
  - field.
Qed.
Lemma Sine_mass mn mx u v : sin_range mn mx -> 0 <= u -> u <= v -> v <= 1 ->
  exists x y, Sine_rescale mn mx u = Some x /\ Sine_rescale mn mx v = Some y /\ x <= y /\
    is_RInt (Sine_prob mn mx) x y ((v - u) * ((cos mn - cos mx) / 2)).
Proof.
  intros H Hu Huv Hv. destruct (Sine_rescale_eq mn mx u H ltac:(lra)) as (Eu & Bu & Su).
  destruct (Sine_rescale_eq mn mx v H ltac:(lra)) as (Ev & Bv & Sv).
  set (x := acos (cos mn - u * (cos mn - cos mx))) in *. set (y := acos (cos mn - v * (cos mn - cos mx))) in *.
  assert (HR := H). destruct H as (H1 & H2 & H3). pose proof (cos_lt mn mx H1 H2 H3) as HL.
  assert (L : x <= y).
  { destruct (Rle_dec x y); [assumption|]. pose proof (cos_lt y x ltac:(lra) ltac:(lra) ltac:(lra)). nra. }
  exists x, y. repeat split; try assumption.
  eapply is_RInt_val; [apply (Sine_prob_integral mn mx); [exact HR|lra|exact L|lra]|]. rewrite Su, Sv. field.
Qed.
Lemma Sine_norm_iff mn mx : sin_range mn mx ->
  is_RInt (Sine_prob mn mx) mn mx 1 <-> mn = 0 /\ mx = PI.
Proof.
  intros H. pose proof (Sine_prob_integral mn mx mn mx H ltac:(lra) ltac:(destruct H; lra) ltac:(lra)) as HI.
  destruct H as (H1 & H2 & H3). pose proof PI_RGT_0. split.
  - intros H'. pose proof (is_RInt_uniq _ _ _ _ _ H' HI) as HE.
    assert (E : cos mn - cos mx = 2) by lra.
    pose proof (COS_bound mn). pose proof (COS_bound mx).
    destruct (Req_dec mn 0) as [->|N].
    + split; [reflexivity|]. destruct (Req_dec mx PI) as [|N]; [assumption|].
      pose proof (cos_lt mx PI ltac:(lra) ltac:(lra) ltac:(lra)) as L. rewrite cos_PI in L. lra.
    + pose proof (cos_lt 0 mn ltac:(lra) ltac:(lra) ltac:(lra)) as L. rewrite cos_0 in L. lra.
  - intros [-> ->]. eapply is_RInt_val; [exact HI|]. rewrite cos_0, cos_PI. field.
Qed.
Lemma Sine_bounded : bounded_prior (Sine_prob 0 PI) (Sine_cdf 0 PI) (fun u => toR (Sine_rescale 0 PI u)) 0 PI.
Proof.
  pose proof PI_RGT_0 as HP.
  assert (HR : sin_range 0 PI) by (unfold sin_range; lra).
  assert (C0 : forall x, x <= 0 -> Sine_cdf 0 PI x = 0).
  { intros x Hx. unfold Sine_cdf. destruct (Rlt_dec x 0); [reflexivity|]. destruct (Rlt_dec PI x); [lra|].
    replace x with 0 by lra. unfold Rdiv. ring. }
  assert (C1 : forall x, 0 <= x <= PI -> Sine_cdf 0 PI x = (1 - cos x) / 2).
  { intros x Hx. unfold Sine_cdf. destruct (Rlt_dec x 0); [lra|]. destruct (Rlt_dec PI x); [lra|]. rewrite cos_0, cos_PI. field. }
  assert (C2 : forall x, PI <= x -> Sine_cdf 0 PI x = 1).
  { intros x Hx. unfold Sine_cdf. destruct (Rlt_dec x 0); [lra|]. destruct (Rlt_dec PI x); [reflexivity|].
    replace x with PI by lra. rewrite cos_0, cos_PI. field. }
  apply bounded_prior_intro; [lra| | | |exact C0|exact C2| | |].
  - intros x. unfold Sine_prob. destruct (in_range_cases 0 PI x) as [[-> Hx]|[-> Hx]]; [|lra].
    assert (0 <= sin x) by (apply sin_ge_0; lra). lra.
  - apply (interval_density _ (fun x => sin x / 2) (fun x => - cos x / 2) 0 PI).
    + lra.
    + intros z Hz. auto_derive; [trivial|]. field.
    + intros z Hz. apply cont_of_derive. auto_derive. trivial.
    + intros z Hz. unfold Sine_prob. rewrite in_range_true by lra. reflexivity.
    + intros z Hz. unfold Sine_prob. rewrite in_range_false by lra. reflexivity.
    + exact C0.
    + intros x Hx. rewrite C1, cos_0 by exact Hx. field.
    + intros x Hx. rewrite C2, cos_0, cos_PI by exact Hx. field.
  - intros z Hz. unfold Sine_prob. rewrite in_range_false by lra. reflexivity.
  - intros u Hu. destruct (Sine_cdf_rescale 0 PI u HR ltac:(lra)) as (x & E & _ & F). exists x. rewrite E. split; [reflexivity|exact F].
  - destruct (Sine_ends 0 PI HR) as [-> _]. reflexivity.
  - destruct (Sine_ends 0 PI HR) as [_ ->]. reflexivity.
Qed.

(** ** Limits of exponentials *)
Lemma lim_affine_p a b : 0 < a -> is_lim (fun x => a * x + b) p_infty p_infty.
Proof.
  intros Ha P [M HM]. exists ((M - b) / a). intros x Hx. apply HM.
  apply Rmult_lt_compat_l with (r := a) in Hx; [|exact Ha].
  replace (a * ((M - b) / a)) with (M - b) in Hx by (field; lra). lra.
Qed.
Lemma lim_exp_neg a b : 0 < a -> is_lim (fun x => exp (b - x / a)) p_infty 0.
Proof.
  intros Ha. apply (is_lim_comp exp (fun x => b - x / a) p_infty 0 m_infty).
  - apply is_lim_exp_m.
  - intros P [M HM]. exists (a * (b - M)). intros x Hx. apply HM.
    apply Rmult_lt_compat_l with (r := / a) in Hx; [|apply Rinv_0_lt_compat; exact Ha].
    replace (/ a * (a * (b - M))) with (b - M) in Hx by (field; lra). unfold Rdiv. rewrite (Rmult_comm x). lra.
  - exists 0. intros x _. discriminate.
Qed.

(** ** Exponential *)
Lemma Exponential_density mu : 0 < mu -> density_cdf (Exponential_prob mu) (Exponential_cdf mu).
Proof.
  intros H. split; [|split; [|split]].
  - intros x. unfold Exponential_prob. destruct (Rlt_dec x 0); [lra|].
    left. apply Rdiv_pos; [apply exp_pos|exact H].
  - apply (halfline_density _ (fun x => exp (- x / mu) / mu) (fun x => - exp (- x / mu)) 0).
    + intros x Hx. auto_derive; [trivial|]. unfold Rdiv. field. lra.
    + intros x Hx. apply cont_of_derive. auto_derive. trivial.
    + intros x Hx. unfold Exponential_prob. destruct (Rlt_dec x 0); [lra|reflexivity].
    + intros x Hx. unfold Exponential_prob. destruct (Rlt_dec x 0); [reflexivity|lra].
    + intros x Hx. unfold Exponential_cdf. destruct (Rlt_dec x 0); [reflexivity|].
      replace x with 0 by lra. replace (- 0 / mu) with 0 by (field; lra). rewrite exp_0. ring.
    + intros x Hx. unfold Exponential_cdf. destruct (Rlt_dec x 0); [lra|].
      replace (- 0 / mu) with 0 by (field; lra). rewrite exp_0. ring.
  - apply (lim_m_const _ (-1)). intros x Hx. unfold Exponential_cdf. destruct (Rlt_dec x 0); [reflexivity|lra].
  - apply (is_lim_ext_loc (fun x => 1 - exp (0 - x / mu))).
    + exists 0. intros x Hx. unfold Exponential_cdf. destruct (Rlt_dec x 0); [lra|]. do 2 f_equal. unfold Rdiv. ring.
    + replace (Finite 1) with (Finite (1 - 0)) by (f_equal; ring).
      apply (is_lim_minus' (fun _ => 1) (fun x => exp (0 - x / mu))); [apply is_lim_const|apply lim_exp_neg; exact H].
Qed.
Lemma Exponential_quantile mu u : 0 < mu -> 0 <= u < 1 ->
  exists x, Exponential_rescale mu u = Finite x /\ 0 <= x /\ Exponential_cdf mu x = u.
Proof.
  intros H Hu. unfold Exponential_rescale. destruct (Req_EM_T u 1); [lra|]. eexists. split; [reflexivity|].
  assert (L : ln (1 + - u) <= 0). { rewrite <- ln_1. apply ln_le'; lra. }
  split; [nra|]. unfold Exponential_cdf. destruct (Rlt_dec _ 0); [nra|].
  replace (- (- mu * ln (1 + - u)) / mu) with (ln (1 + - u)) by (field; lra). rewrite exp_ln by lra. ring.
Qed.
Lemma Exponential_ln mu : 0 < mu -> ln_prob_correct (Exponential_prob mu) (Exponential_ln_prob mu).
Proof.
  intros H x. unfold Exponential_prob, Exponential_ln_prob. destruct (Rlt_dec x 0); split; intros Hp; try lra; try reflexivity.
  - f_equal. rewrite ln_div by (try apply exp_pos; lra). rewrite ln_exp. reflexivity.
  - pose proof (Rdiv_pos _ _ (exp_pos (- x / mu)) H). lra.
Qed.

(** ** Logistic *)
Lemma Logistic_prob_eq mu s x : 0 < s ->
  Logistic_prob mu s x = exp (- (x - mu) / s) / (1 + exp (- (x - mu) / s)) ^ 2 / s.
Proof.
  intros H. unfold Logistic_prob, Logistic_ln_prob. set (e := exp (- (x - mu) / s)).
  assert (He : 0 < e) by apply exp_pos.
  replace (- (x - mu) / s - 2 * ln (1 + e) - ln s) with (- (x - mu) / s + (- ln (1 + e) + (- ln (1 + e) + - ln s))) by ring.
  rewrite !exp_plus, !exp_Ropp, !exp_ln by lra. fold e. field. lra.
Qed.
Lemma Logistic_density mu s : 0 < s -> density_cdf (Logistic_prob mu s) (Logistic_cdf mu s).
Proof.
  intros H. split; [|split; [|split]].
  - intros x. left. apply exp_pos.
  - apply line_density.
    + intros x. rewrite Logistic_prob_eq by exact H. unfold Logistic_cdf. auto_derive.
      * pose proof (exp_pos (- (x + - mu) * / s)). lra.
      * replace (- (x + - mu) * / s) with (- (x - mu) / s) by (unfold Rdiv; ring).
        pose proof (exp_pos (- (x - mu) / s)). field. lra.
    + intros x. apply cont_of_derive. unfold Logistic_prob, Logistic_ln_prob. auto_derive.
      pose proof (exp_pos (- (x + - mu) * / s)). lra.
  - apply (is_lim_ext (fun x => / (1 + exp (- (x - mu) / s)))).
    { intros x. unfold Logistic_cdf, Rdiv. ring. }
    replace (Finite 0) with (Rbar_inv p_infty) by reflexivity. apply is_lim_inv; [|discriminate].
    apply (is_lim_plus (fun _ => 1) (fun x => exp (- (x - mu) / s)) m_infty 1 p_infty); [apply is_lim_const| |reflexivity].
    apply (is_lim_comp exp _ m_infty p_infty p_infty); [apply is_lim_exp_p| |exists 0; intros; discriminate].
    intros P [M HM]. exists (mu - s * M). intros x Hx. apply HM.
    apply Rmult_lt_reg_l with s; [exact H|]. replace (s * (- (x - mu) / s)) with (mu - x) by (field; lra). lra.
  - apply (is_lim_ext (fun x => / (1 + exp (mu / s - x / s)))).
    { intros x. unfold Logistic_cdf, Rdiv. rewrite Rmult_1_l. do 3 f_equal. ring. }
    replace (Finite 1) with (Rbar_inv (Finite (1 + 0))) by (simpl; f_equal; field).
    apply is_lim_inv; [|simpl; intros E; injection E; lra].
    apply (is_lim_plus' (fun _ => 1) (fun x => exp (mu / s - x / s))); [apply is_lim_const|apply lim_exp_neg; exact H].
Qed.
Lemma Logistic_quantile mu s u : 0 < s -> 0 < u < 1 ->
  exists x, Logistic_rescale mu s u = Finite x /\ Logistic_cdf mu s x = u.
Proof.
  intros H Hu. unfold Logistic_rescale. destruct (Req_EM_T u 0); [lra|]. destruct (Req_EM_T u 1); [lra|].
  eexists. split; [reflexivity|]. unfold Logistic_cdf.
  replace (- (mu + s * ln (u / (1 - u)) - mu) / s) with (- ln (u / (1 - u))) by (field; lra).
  rewrite exp_Ropp, exp_ln by (apply Rdiv_pos; lra). field. lra.
Qed.

(** ** Cauchy *)
Lemma Cauchy_den_pos a b x : 0 < 1 + ((x - a) / b) ^ 2.
Proof. pose proof (pow2_ge_0 ((x - a) / b)). lra. Qed.
Lemma lim_atan_p : is_lim atan p_infty (PI / 2).
Proof.
  apply is_lim_spec. intros eps. pose proof PI_RGT_0 as HP. pose proof (cond_pos eps) as He.
  set (d := Rmin (eps / 2) (PI / 4)).
  assert (0 < d <= eps / 2) by (split; [apply Rmin_glb_lt; lra|apply Rmin_l]).
  assert (d <= PI / 4) by apply Rmin_r.
  exists (tan (PI / 2 - d)). intros x Hx. destruct (atan_bound x) as [_ B].
  apply atan_increasing in Hx. rewrite atan_tan in Hx by lra. rewrite Rabs_left; lra.
Qed.
Lemma lim_atan_m : is_lim atan m_infty (- (PI / 2)).
Proof.
  apply is_lim_spec. intros eps. pose proof PI_RGT_0 as HP. pose proof (cond_pos eps) as He.
  set (d := Rmin (eps / 2) (PI / 4)).
  assert (0 < d <= eps / 2) by (split; [apply Rmin_glb_lt; lra|apply Rmin_l]).
  assert (d <= PI / 4) by apply Rmin_r.
  exists (tan (- (PI / 2) + d)). intros x Hx. destruct (atan_bound x) as [B _].
  apply atan_increasing in Hx. rewrite atan_tan in Hx by lra. rewrite Rabs_pos_eq; lra.
Qed.
Lemma Cauchy_density a b : 0 < b -> density_cdf (Cauchy_prob a b) (Cauchy_cdf a b).
Proof.
  intros H. pose proof PI_RGT_0 as HP. split; [|split; [|split]].
  - intros x. unfold Cauchy_prob. left.
    apply Rdiv_pos; [apply Rdiv_pos; [apply Rdiv_pos; lra|exact HP]|apply Cauchy_den_pos].
  - apply line_density.
    + intros x. unfold Cauchy_cdf, Cauchy_prob. auto_derive; [trivial|].
      pose proof (Cauchy_den_pos a b x) as D.
      replace ((x + - a) * / b) with ((x - a) / b) by (unfold Rdiv; ring).
      set (z := (x - a) / b) in *. unfold Rsqr. field. repeat split; nra.
    + intros x. unfold Cauchy_prob. apply cont_of_derive. auto_derive.
      pose proof (Cauchy_den_pos a b x) as D. replace ((x + - a) * / b) with ((x - a) / b) by (unfold Rdiv; ring).
      simpl in D. lra.
  - apply (is_lim_ext (fun x => 1/2 + / PI * atan ((x - a) / b))).
    { intros x. unfold Cauchy_cdf, Rdiv. ring. }
    replace (Finite 0) with (Finite (1/2 + / PI * (- (PI / 2)))) by (f_equal; field; lra).
    apply (is_lim_plus' (fun _ => 1/2)); [apply is_lim_const|].
    apply (is_lim_scal_l (fun x => atan ((x - a) / b)) (/ PI) m_infty (- (PI / 2))).
    apply (is_lim_comp atan _ m_infty (- (PI / 2)) m_infty); [|..|exists 0; intros; discriminate].
    + apply lim_atan_m.
    + intros P [M HM]. exists (a + b * M). intros x Hx. apply HM.
      apply Rmult_lt_reg_l with b; [exact H|]. replace (b * ((x - a) / b)) with (x - a) by (field; lra). lra.
  - apply (is_lim_ext (fun x => 1/2 + / PI * atan ((x - a) / b))).
    { intros x. unfold Cauchy_cdf, Rdiv. ring. }
    replace (Finite 1) with (Finite (1/2 + / PI * (PI / 2))) by (f_equal; field; lra).
    apply (is_lim_plus' (fun _ => 1/2)); [apply is_lim_const|].
    apply (is_lim_scal_l (fun x => atan ((x - a) / b)) (/ PI) p_infty (PI / 2)).
    apply (is_lim_comp atan _ p_infty (PI / 2) p_infty); [apply lim_atan_p| |exists 0; intros; discriminate].
    intros P [M HM]. exists (a + b * M). intros x Hx. apply HM.
    apply Rmult_lt_reg_l with b; [exact H|]. replace (b * ((x - a) / b)) with (x - a) by (field; lra). lra.
Qed.
Lemma Cauchy_quantile a b u : 0 < b -> 0 < u < 1 ->
  exists x, Cauchy_rescale a b u = Finite x /\ Cauchy_cdf a b x = u.
Proof.
  intros H Hu. unfold Cauchy_rescale. destruct (Req_EM_T u 0); [lra|]. destruct (Req_EM_T u 1); [lra|].
  eexists. split; [reflexivity|]. unfold Cauchy_cdf. pose proof PI_RGT_0.
  replace ((a + b * tan (PI * (u - 1/2)) - a) / b) with (tan (PI * (u - 1/2))) by (field; lra).
  rewrite atan_tan.
  - field. lra.
  - split; nra.
Qed.
Lemma Cauchy_ln a b x : 0 < b -> Cauchy_ln_prob a b x = ln (Cauchy_prob a b x).
Proof.
  intros H. pose proof PI_RGT_0. pose proof (Cauchy_den_pos a b x). unfold Cauchy_ln_prob, Cauchy_prob.
  set (d := 1 + ((x - a) / b) ^ 2) in *.
  replace (1 / b / PI / d) with (/ (b * PI) * / d) by (field; lra).
  assert (0 < b * PI) by nra. rewrite (ln_mult (/ (b * PI)) (/ d)) by (apply Rinv_0_lt_compat; assumption).
  rewrite !ln_Rinv by assumption. ring.
Qed.

(** ** Fermi-Dirac; its distribution function (the code only has prob and rescale) *)
Definition FD_cdf (sigma r x : R) : R :=
  if Rlt_dec x 0 then 0 else 1 - ln (1 + exp (r - x / sigma)) / ln (1 + exp r).
Lemma FD_L_pos r : 0 < ln (1 + exp r).
Proof. rewrite <- ln_1. apply ln_increasing; [lra|]. pose proof (exp_pos r). lra. Qed.
Lemma FD_prob_eq sigma r x : 0 < sigma -> 0 <= x ->
  FermiDirac_prob sigma r x = 1 / (sigma * ln (1 + exp r)) / (1 + exp (x / sigma - r)).
Proof.
  intros H Hx. pose proof (FD_L_pos r) as HL. unfold FermiDirac_prob, FermiDirac_ln_prob. cbv zeta.
  destruct (Rlt_dec x 0); [lra|]. rewrite exp_0.
  assert (0 < sigma * ln (1 + exp r)) by (apply Rmult_lt_0_compat; assumption).
  pose proof (exp_pos (x / sigma - r)).
  unfold Rminus at 1. rewrite exp_plus, !exp_Ropp, !exp_ln by lra. rewrite (Rplus_comm (exp _) 1). field. lra.
Qed.
Lemma FermiDirac_density sigma r : 0 < sigma -> density_cdf (FermiDirac_prob sigma r) (FD_cdf sigma r).
Proof.
  intros H. pose proof (FD_L_pos r) as HL.
  assert (P : forall x, x < 0 -> FermiDirac_prob sigma r x = 0).
  { intros x Hx. unfold FermiDirac_prob, FermiDirac_ln_prob. cbv zeta. destruct (Rlt_dec x 0); [reflexivity|lra]. }
  split; [|split; [|split]].
  - intros x. destruct (Rlt_dec x 0) as [L|L]; [rewrite P; lra|]. rewrite FD_prob_eq by lra.
    pose proof (exp_pos (x / sigma - r)). left.
    apply Rdiv_pos; [apply Rdiv_pos; [lra|apply Rmult_lt_0_compat; assumption]|lra].
  - apply (halfline_density _ (fun x => 1 / (sigma * ln (1 + exp r)) / (1 + exp (x / sigma - r)))
       (fun x => - ln (1 + exp (r - x / sigma)) / ln (1 + exp r)) 0).
    + intros x Hx. auto_derive.
      * pose proof (exp_pos (r + - (x * / sigma))). lra.
      * replace (x / sigma - r) with (- (r + - (x * / sigma))) by (unfold Rdiv; ring).
        rewrite exp_Ropp. pose proof (exp_pos (r + - (x * / sigma))) as He.
        set (e := exp (r + - (x * / sigma))) in *. field. repeat split; lra.
    + intros x Hx. apply cont_of_derive. auto_derive. pose proof (exp_pos (x * / sigma + - r)). repeat split; lra.
    + intros x Hx. apply FD_prob_eq; lra.
    + exact P.
    + intros x Hx. unfold FD_cdf. destruct (Rlt_dec x 0); [reflexivity|]. replace x with 0 by lra.
      replace (r - 0 / sigma) with r by (field; lra). field. lra.
    + intros x Hx. unfold FD_cdf. destruct (Rlt_dec x 0); [lra|].
      replace (r - 0 / sigma) with r by (field; lra). field. lra.
  - apply (lim_m_const _ (-1)). intros x Hx. unfold FD_cdf. destruct (Rlt_dec x 0); [reflexivity|lra].
  - apply (is_lim_ext_loc (fun x => 1 - / ln (1 + exp r) * ln (1 + exp (r - x / sigma)))).
    + exists 0. intros x Hx. unfold FD_cdf. destruct (Rlt_dec x 0); [lra|]. unfold Rdiv. ring.
    + replace (Finite 1) with (Finite (1 - / ln (1 + exp r) * ln (1 + 0))) by (rewrite Rplus_0_r, ln_1; f_equal; ring).
      apply (is_lim_minus' (fun _ => 1)); [apply is_lim_const|].
      apply (is_lim_scal_l (fun x => ln (1 + exp (r - x / sigma))) (/ ln (1 + exp r)) p_infty (ln (1 + 0))).
      apply (is_lim_comp_continuous (fun x => exp (r - x / sigma)) (fun z => ln (1 + z)) p_infty 0).
      * apply lim_exp_neg; exact H.
      * apply cont_of_derive. auto_derive. lra.
Qed.
Lemma FermiDirac_quantile sigma r u : 0 < sigma -> 0 <= u < 1 ->
  exists x, FermiDirac_rescale sigma r u = Finite x /\ 0 <= x /\ FD_cdf sigma r x = u.
Proof.
  intros H Hu. pose proof (FD_L_pos r) as HL. pose proof (exp_pos r) as He.
  unfold FermiDirac_rescale. cbv zeta.
  set (w := Rpower (1 + exp r) (- u)).
  assert (Ew : exp (-1 * r) = / exp r) by (replace (-1 * r) with (- r) by ring; apply exp_Ropp).
  rewrite Ew. set (e := exp r) in *.
  assert (W1 : w <= 1).
  { unfold w, Rpower. apply Rle_trans with (exp 0); [|right; apply exp_0]. destruct (Req_dec u 0) as [->|]; [right; f_equal; ring|].
    left. apply exp_increasing. fold e. nra. }
  assert (W0 : / (1 + e) < w).
  { unfold w, Rpower. replace (/ (1 + e)) with (exp (- ln (1 + e))).
    - apply exp_increasing. fold e. nra.
    - rewrite exp_Ropp, exp_ln by lra. reflexivity. }
  assert (HI : 0 < - / e + w + / e * w).
  { apply Rmult_lt_reg_l with e; [exact He|].
    replace (e * (- / e + w + / e * w)) with (w * (1 + e) - 1) by (field; lra).
    apply Rmult_lt_compat_r with (r := 1 + e) in W0; [|lra]. rewrite Rinv_l in W0 by lra. lra. }
  set (i := - / e + w + / e * w) in *.
  assert (HI1 : i <= 1).
  { assert (0 < / e) by (apply Rinv_0_lt_compat; exact He). unfold i. nra. }
  destruct (Rlt_dec i 0); [lra|]. destruct (Req_EM_T i 0); [lra|].
  assert (L : ln i <= 0) by (rewrite <- ln_1; apply ln_le'; lra).
  eexists. split; [reflexivity|]. split; [nra|].
  unfold FD_cdf. destruct (Rlt_dec (- sigma * ln i) 0); [nra|].
  replace (r - - sigma * ln i / sigma) with (r + ln i) by (field; lra).
  rewrite exp_plus, exp_ln by lra. fold e.
  replace (1 + e * i) with (w * (1 + e)) by (unfold i; field; lra).
  rewrite ln_mult by (try apply Rpower_pos; lra). unfold w, Rpower. rewrite ln_exp. fold e. field. lra.
Qed.
Lemma FermiDirac_quantile_1 sigma r : FermiDirac_rescale sigma r 1 = p_infty.
Proof.
  unfold FermiDirac_rescale. cbv zeta. pose proof (exp_pos r).
  assert (E : - exp (-1 * r) + Rpower (1 + exp r) (- (1)) + exp (-1 * r) * Rpower (1 + exp r) (- (1)) = 0).
  { rewrite Rpower_Ropp, Rpower_1 by lra. replace (-1 * r) with (- r) by ring. rewrite exp_Ropp. field. lra. }
  rewrite E. destruct (Rlt_dec 0 0); [reflexivity|]. destruct (Req_EM_T 0 0); [reflexivity|lra].
Qed.
Lemma FermiDirac_ln sigma r : 0 < sigma -> ln_prob_correct (FermiDirac_prob sigma r) (FermiDirac_ln_prob sigma r).
Proof.
  intros H x. unfold FermiDirac_prob, FermiDirac_ln_prob. cbv zeta. destruct (Rlt_dec x 0); split; intros Hp; try lra; try reflexivity.
  - rewrite ln_exp. reflexivity.
  - match type of Hp with exp ?a = 0 => pose proof (exp_pos a) end. lra.
Qed.

(** ** Triangular *)
Definition Trp1 (mode mn mx x : R) : R := if Rlt_dec x mode then if Rle_dec mn x then 2 * (x - mn) / (mode - mn) / (mx - mn) else 0 else 0.
Definition Trp2 (mode mn mx x : R) : R := if Rle_dec mode x then if Rle_dec x mx then 2 * (mx - x) / (mx - mode) / (mx - mn) else 0 else 0.
Definition TrC1 (mode mn mx x : R) : R :=
  if Rle_dec x mn then 0 else if Rle_dec x mode then (x - mn) ^ 2 / ((mode - mn) * (mx - mn)) else (mode - mn) / (mx - mn).
Definition TrC2 (mode mn mx x : R) : R :=
  if Rle_dec x mode then 0 else if Rle_dec x mx then (mx - mode) / (mx - mn) - (mx - x) ^ 2 / ((mx - mode) * (mx - mn)) else (mx - mode) / (mx - mn).
Lemma Tri_int1 mode mn mx : mn <= mode <= mx -> mn < mx -> forall x y, is_RInt (Trp1 mode mn mx) x y (TrC1 mode mn mx y - TrC1 mode mn mx x).
Proof.
  intros H Hl. destruct (Req_dec mn mode) as [E|N].
  - intros x y. replace (TrC1 mode mn mx y - TrC1 mode mn mx x) with 0.
    + apply is_RInt_zero_ext. intros z _. unfold Trp1. destruct (Rlt_dec z mode); [|reflexivity].
      destruct (Rle_dec mn z); [lra|reflexivity].
    + assert (forall z, TrC1 mode mn mx z = 0) as ->; [|assert (forall z, TrC1 mode mn mx z = 0) as ->; [|ring]];
      intros z; unfold TrC1; rewrite <- E; destruct (Rle_dec z mn); try reflexivity; unfold Rdiv; ring.
  - assert (Hm : mn < mode) by lra.
    apply (interval_density _ (fun x => 2 * (x - mn) / (mode - mn) / (mx - mn)) (fun x => (x - mn) ^ 2 / ((mode - mn) * (mx - mn))) mn mode).
    + lra.
    + intros x Hx. auto_derive; [trivial|]. field. lra.
    + intros x Hx. apply cont_of_derive. auto_derive. trivial.
    + intros x Hx. unfold Trp1. destruct (Rlt_dec x mode); [|lra]. destruct (Rle_dec mn x); [reflexivity|lra].
    + intros x Hx. unfold Trp1. destruct (Rlt_dec x mode); [|reflexivity]. destruct (Rle_dec mn x); [lra|reflexivity].
    + intros x Hx. unfold TrC1. destruct (Rle_dec x mn); [reflexivity|lra].
    + intros x Hx. unfold TrC1. destruct (Rle_dec x mn); [replace x with mn by lra; unfold Rdiv; ring|].
      destruct (Rle_dec x mode); [field; lra|lra].
    + intros x Hx. unfold TrC1. destruct (Rle_dec x mn); [lra|].
      destruct (Rle_dec x mode); [replace x with mode by lra|]; field; lra.
Qed.
Lemma Tri_int2 mode mn mx : mn <= mode <= mx -> mn < mx -> forall x y, is_RInt (Trp2 mode mn mx) x y (TrC2 mode mn mx y - TrC2 mode mn mx x).
Proof.
  intros H Hl. destruct (Req_dec mode mx) as [E|N].
  - intros x y. replace (TrC2 mode mn mx y - TrC2 mode mn mx x) with 0.
    + subst mode. apply is_RInt_zero_ext. intros z _. unfold Trp2. destruct (Rle_dec mx z); [|reflexivity].
      destruct (Rle_dec z mx); [|reflexivity]. replace z with mx by lra. unfold Rdiv. ring.
    + assert (forall z, TrC2 mode mn mx z = 0) as ->; [|assert (forall z, TrC2 mode mn mx z = 0) as ->; [|ring]];
      intros z; unfold TrC2; rewrite E; destruct (Rle_dec z mx); try reflexivity; unfold Rdiv; ring.
  - assert (Hm : mode < mx) by lra.
    apply (interval_density _ (fun x => 2 * (mx - x) / (mx - mode) / (mx - mn)) (fun x => - (mx - x) ^ 2 / ((mx - mode) * (mx - mn))) mode mx).
    + lra.
    + intros x Hx. auto_derive; [trivial|]. field. lra.
    + intros x Hx. apply cont_of_derive. auto_derive. trivial.
    + intros x Hx. unfold Trp2. destruct (Rle_dec mode x); [|lra]. destruct (Rle_dec x mx); [reflexivity|lra].
    + intros x Hx. unfold Trp2. destruct (Rle_dec mode x); [|reflexivity]. destruct (Rle_dec x mx); [lra|reflexivity].
    + intros x Hx. unfold TrC2. destruct (Rle_dec x mode); [reflexivity|lra].
    + intros x Hx. unfold TrC2. destruct (Rle_dec x mode); [replace x with mode by lra; field; lra|].
      destruct (Rle_dec x mx); [field; lra|lra].
    + intros x Hx. unfold TrC2. destruct (Rle_dec x mode); [lra|].
      destruct (Rle_dec x mx); [replace x with mx by lra|]; field; lra.
Qed.
Lemma Tri_prob_split mode mn mx x : mn <= mode -> mode < mx ->
  Tri_prob mode mn mx x = Trp1 mode mn mx x + Trp2 mode mn mx x.
Proof.
  intros H H'. unfold Tri_prob, Trp1, Trp2, Tri_rmin, Tri_rmax, Tri_scale. cbv zeta.
  rewrite (ind_false (Req_EM_T mx mode)) by lra.
  destruct (Rlt_dec x mode); destruct (Rle_dec mn x); destruct (Rle_dec mode x); destruct (Rle_dec x mx);
    try lra; rewrite ?(ind_true (left _)), ?(ind_false (right _)); simpl;
    try (destruct (Req_EM_T mn mode) as [E|E]; simpl; try lra; field; lra).
Qed.
Lemma Tri_prob_top mn mx x : mn < mx -> mn <= x < mx ->
  Tri_prob mx mn mx x = 2 * (x - mn) / (mx - mn) / (mx - mn).
Proof.
  intros H Hx. unfold Tri_prob, Tri_rmin, Tri_rmax, Tri_scale. cbv zeta.
  rewrite (ind_false (Req_EM_T mn mx)), (ind_true (Rlt_dec x mx)), (ind_true (Rle_dec mn x)), (ind_false (Rle_dec mx x)) by lra.
  replace (mn - 0 * (mx - mn)) with mn by ring. unfold Rdiv. ring.
Qed.
Lemma Tri_prob_out mode mn mx x : mn <= mode <= mx -> mn < mx -> x < mn \/ mx < x -> Tri_prob mode mn mx x = 0.
Proof.
  intros H Hl Hx. unfold Tri_prob. cbv zeta. destruct Hx.
  - rewrite (ind_false (Rle_dec mn x)), (ind_false (Rle_dec mode x)) by lra. unfold Rdiv. ring.
  - rewrite (ind_false (Rlt_dec x mode)), (ind_false (Rle_dec x mx)) by lra. unfold Rdiv. ring.
Qed.
Lemma Tri_cdf_split mode mn mx x : mn <= mode <= mx -> mn < mx ->
  Tri_cdf mode mn mx x = TrC1 mode mn mx x + TrC2 mode mn mx x.
Proof.
  intros H Hl. unfold Tri_cdf, TrC1, TrC2, Tri_rmin, Tri_rmax, Tri_scale.
  destruct (Rgt_dec x mode) as [G|G].
  - rewrite (ind_true (left G)) by exact G. rewrite (ind_true (Rgt_dec x mn)) by lra. rewrite (ind_false (Rle_dec x mode)) by lra.
    destruct (Rle_dec x mn); [lra|]. destruct (Rle_dec x mode); [lra|].
    destruct (Rle_dec x mx) as [M|M].
    + rewrite (ind_true (left M)) by exact M. rewrite (ind_false (Req_EM_T mx mode)) by lra.
      replace ((mx + 0 * (mx - mn) - x)) with (mx - x) by ring. replace (mode - (mx + 0 * (mx - mn))) with (mode - mx) by ring.
      destruct (Req_EM_T mn mode); simpl; field; lra.
    + rewrite (ind_false (right M)) by exact M. match goal with |- _ + _ * ?k = _ => generalize k end. intros k. field. lra.
  - rewrite (ind_false (right G)) by exact G. rewrite (ind_true (Rle_dec x mode)) by lra.
    destruct (Rle_dec x mode); [|lra]. rewrite (ind_true (Rle_dec x mx)) by lra.
    destruct (Rle_dec x mn).
    + rewrite (ind_false (Rgt_dec x mn)) by lra. unfold Rdiv at 1. ring.
    + rewrite (ind_true (Rgt_dec x mn)) by lra. rewrite (ind_false (Req_EM_T mn mode)) by lra. 
      replace (x - (mn - 0 * (mx - mn))) with (x - mn) by ring. replace (mode - (mn - 0 * (mx - mn))) with (mode - mn) by ring.
      match goal with |- context [0 * ?a / ?b] => replace (0 * a / b) with 0 by (unfold Rdiv; ring) end. field. lra.
Qed.
Lemma sqrt_sq_div x a b : 0 <= x -> 0 < a -> 0 < b -> sqrt (x * b * a) ^ 2 = x * b * a.
Proof. intros. apply pow2_sqrt. apply Rmult_le_pos; [apply Rmult_le_pos|]; lra. Qed.
Lemma Tri_rescale_def mode mn mx u : mn <= mode <= mx -> mn < mx -> 0 <= u <= 1 ->
  Tri_rescale mode mn mx u =
    Some (if Rlt_dec u ((mode - mn) / (mx - mn)) then mn + sqrt (u * (mx - mn) * (mode - mn))
          else mx - sqrt ((1 - u) * (mx - mn) * (mx - mode))).
Proof.
  intros H Hl Hu. unfold Tri_rescale, Tri_scale, Tri_fractional_mode.
  rewrite !psqrt_some by (repeat apply Rmult_le_pos; lra). simpl. f_equal.
  destruct (Rlt_dec u ((mode - mn) / (mx - mn))) as [L|L].
  - rewrite (ind_true (left L)) by exact L. rewrite (ind_false (Rge_dec _ _)) by lra. ring.
  - rewrite (ind_false (right L)) by exact L. rewrite (ind_true (Rge_dec _ _)) by lra. ring.
Qed.
Lemma Tri_bounded mode mn mx : mn <= mode <= mx -> mn < mx ->
  bounded_prior (Tri_prob mode mn mx) (Tri_cdf mode mn mx) (fun u => toR (Tri_rescale mode mn mx u)) mn mx.
Proof.
  intros H Hl. apply bounded_prior_intro; [lra| | | | | | | |].
  - intros x. destruct (Req_dec mode mx) as [->|N].
    + destruct (Rlt_dec x mn) as [L|L]; [rewrite Tri_prob_out by lra; lra|].
      destruct (Rlt_dec mx x) as [M|M]; [rewrite Tri_prob_out by lra; lra|].
      destruct (Req_dec x mx) as [->|N].
      * unfold Tri_prob, Tri_rmin, Tri_rmax, Tri_scale. cbv zeta.
        rewrite (ind_false (Rlt_dec mx mx)), (ind_true (Rle_dec mx mx)), (ind_true (Req_EM_T mx mx)) by lra.
        match goal with |- context [0 * ?a * ?b / ?c] => replace (0 * a * b / c) with 0 by (unfold Rdiv; ring) end.
        replace (1 * 1 * (mx + 1 * (mx - mn) - mx) / (mx + 1 * (mx - mn) - mx)) with 1 by (field; lra).
        apply Rdiv_nonneg; lra.
      * rewrite Tri_prob_top by lra. apply Rdiv_nonneg; [apply Rdiv_nonneg|]; lra.
    + rewrite Tri_prob_split by lra. apply Rplus_le_le_0_compat; unfold Trp1, Trp2.
      * destruct (Rlt_dec x mode); [|lra]. destruct (Rle_dec mn x); [|lra]. apply Rdiv_nonneg; [apply Rdiv_nonneg|]; lra.
      * destruct (Rle_dec mode x); [|lra]. destruct (Rle_dec x mx); [|lra]. apply Rdiv_nonneg; [apply Rdiv_nonneg|]; lra.
  - destruct (Req_dec mode mx) as [->|N].
    + assert (E : forall x, Tri_cdf mx mn mx x = TrC1 mx mn mx x).
      { intros x. rewrite Tri_cdf_split by lra. unfold TrC2. destruct (Rle_dec x mx); [ring|]. unfold Rdiv. ring. }
      apply (interval_density _ (fun x => 2 * (x - mn) / (mx - mn) / (mx - mn)) (fun x => (x - mn) ^ 2 / ((mx - mn) * (mx - mn))) mn mx).
      * lra.
      * intros x Hx. auto_derive; [trivial|]. field. lra.
      * intros x Hx. apply cont_of_derive. auto_derive. trivial.
      * intros x Hx. apply Tri_prob_top; lra.
      * intros x Hx. apply Tri_prob_out; lra.
      * intros x Hx. rewrite E. unfold TrC1. destruct (Rle_dec x mn); [reflexivity|lra].
      * intros x Hx. rewrite E. unfold TrC1. destruct (Rle_dec x mn); [replace x with mn by lra; unfold Rdiv; ring|].
        destruct (Rle_dec x mx); [field; lra|lra].
      * intros x Hx. rewrite E. unfold TrC1. destruct (Rle_dec x mn); [lra|].
        destruct (Rle_dec x mx); [replace x with mx by lra|]; field; lra.
    + apply (sum_density (Trp1 mode mn mx) (Trp2 mode mn mx) (TrC1 mode mn mx) (TrC2 mode mn mx)).
      * apply Tri_int1; assumption.
      * apply Tri_int2; assumption.
      * intros x. apply Tri_prob_split; lra.
      * intros x. apply Tri_cdf_split; assumption.
  - intros x Hx. apply Tri_prob_out; assumption.
  - intros x Hx. rewrite Tri_cdf_split by assumption. unfold TrC1, TrC2.
    destruct (Rle_dec x mn); [|lra]. destruct (Rle_dec x mode); lra.
  - intros x Hx. rewrite Tri_cdf_split by assumption. unfold TrC1, TrC2.
    destruct (Rle_dec x mn); [lra|]. destruct (Rle_dec x mode).
    + replace x with mx by lra. replace mode with mx by lra. field. lra.
    + destruct (Rle_dec x mx); [replace x with mx by lra|]; field; lra.
  - intros u Hu. rewrite Tri_rescale_def by lra. simpl. eexists. split; [reflexivity|].
    rewrite Tri_cdf_split by assumption. unfold TrC1, TrC2.
    assert (Ef : (mx - mn) * ((mode - mn) / (mx - mn)) = mode - mn) by (field; lra).
    destruct (Rlt_dec u ((mode - mn) / (mx - mn))) as [L|L].
    + assert (Hm : u * (mx - mn) < mode - mn) by nra.
      set (s := sqrt (u * (mx - mn) * (mode - mn))).
      assert (Hs : 0 < s) by (apply sqrt_lt_R0; apply Rmult_lt_0_compat; [apply Rmult_lt_0_compat|]; nra).
      assert (Hs2 : s ^ 2 = u * (mx - mn) * (mode - mn)) by (apply pow2_sqrt; repeat apply Rmult_le_pos; lra).
      assert (s <= mode - mn) by nra.
      destruct (Rle_dec (mn + s) mn); [lra|]. destruct (Rle_dec (mn + s) mode); [|lra].
      replace (mn + s - mn) with s by ring. rewrite Hs2. field. nra.
    + assert (Hm : mode - mn <= u * (mx - mn)) by nra.
      set (s := sqrt ((1 - u) * (mx - mn) * (mx - mode))).
      assert (Hs : 0 <= s) by apply sqrt_pos.
      assert (Hs2 : s ^ 2 = (1 - u) * (mx - mn) * (mx - mode)) by (apply pow2_sqrt; repeat apply Rmult_le_pos; lra).
      assert (Hs3 : s <= mx - mode) by nra.
      destruct (Rle_dec (mx - s) mn).
      { exfalso. assert (mode = mn) by lra. assert (s = mx - mn) by lra. subst mode. rewrite H1 in Hs2.
        assert (u * (mx - mn) ^ 2 = 0) by lra. assert (0 < u * (mx - mn) ^ 2); [|lra].
        apply Rmult_lt_0_compat; [lra|]. apply pow_lt; lra. }
      destruct (Rle_dec (mx - s) mode).
      * assert (E : s = mx - mode) by lra. rewrite E in *.
        assert (mx - mode <> 0) by nra.
        assert ((1 - u) * (mx - mn) = mx - mode).
        { apply Rmult_eq_reg_r with (mx - mode); [|assumption]. lra. }
        replace (mx - (mx - mode) - mn) with (mode - mn) by ring.
        replace u with ((mode - mn) / (mx - mn)).
        -- field. nra.
        -- apply Rmult_eq_reg_l with (mx - mn); [|lra]. rewrite Ef. lra.
      * destruct (Rle_dec (mx - s) mx); [|lra].
        replace (mx - (mx - s)) with s by ring. rewrite Hs2. field. nra.
  - rewrite Tri_rescale_def by lra. simpl. f_equal.
    destruct (Rlt_dec 0 ((mode - mn) / (mx - mn))) as [L|L].
    + rewrite !Rmult_0_l, sqrt_0. ring.
    + assert (mode = mn). { destruct (Req_dec mode mn); [assumption|]. exfalso. apply L, Rdiv_pos; lra. }
      subst mode. replace ((1 - 0) * (mx - mn) * (mx - mn)) with ((mx - mn) ^ 2) by ring. rewrite sqrt_pow2 by lra. ring.
  - rewrite Tri_rescale_def by lra. simpl. f_equal.
    destruct (Rlt_dec 1 ((mode - mn) / (mx - mn))) as [L|L].
    + exfalso. pose proof (Rdiv_le_1' (mode - mn) (mx - mn) ltac:(lra) ltac:(lra)). lra.
    + replace ((1 - 1) * (mx - mn) * (mx - mode)) with 0 by ring. rewrite sqrt_0. ring.
Qed.
