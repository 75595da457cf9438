From Coq Require Import Reals Lra Psatz.
From Coquelicot Require Import Coquelicot.
From Verif Require Import PyReal Prior_Model PriorSpec Prior_Proofs.
Open Scope R_scope.

(** ** PowerLaw with minimum 0 and alpha > -1 *)
Lemma PowerLaw0_prob_eq alpha mx x : -1 < alpha -> 0 < mx -> 0 < x <= mx ->
  PowerLaw_prob alpha 0 mx x = Rpower x alpha * (1 + alpha) / Rpower mx (1 + alpha).
Proof.
  intros Ha Hm Hx. unfold PowerLaw_prob. rewrite in_range_true by lra.
  destruct (Req_EM_T alpha (-1)); [lra|]. rewrite (npow_pos x), (npow_pos mx), npow_0 by lra.
  rewrite Rminus_0_r. reflexivity.
Qed.
Lemma PowerLaw0_rescale alpha mx u : -1 < alpha -> 0 < mx -> 0 < u <= 1 ->
  PowerLaw_rescale alpha 0 mx u = mx * Rpower u (1 / (1 + alpha)) /\ 0 < PowerLaw_rescale alpha 0 mx u <= mx.
Proof.
  intros Ha Hm Hu.
  assert (E : PowerLaw_rescale alpha 0 mx u = mx * Rpower u (1 / (1 + alpha))).
  { unfold PowerLaw_rescale. destruct (Req_EM_T alpha (-1)); [lra|].
    rewrite npow_0 by lra. rewrite (npow_pos mx) by lra. rewrite Rplus_0_l, Rminus_0_r.
    rewrite npow_pos by (apply Rmult_lt_0_compat; [lra|apply Rpower_pos]).
    rewrite <- Rpower_mult_distr by (try apply Rpower_pos; lra).
    rewrite Rpower_root by lra. ring. }
  split; [exact E|]. rewrite E. pose proof (Rpower_pos u (1 / (1 + alpha))).
  assert (Rpower u (1 / (1 + alpha)) <= 1).
  { destruct (Req_dec u 1) as [->|]; [right; apply Rpower_1_base|].
    apply Rle_trans with (Rpower 1 (1 / (1 + alpha))); [|right; apply Rpower_1_base].
    left. apply Rpower_lt_base; [apply Rdiv_pos; lra|lra]. }
  split; nra.
Qed.
Lemma PowerLaw0_integral alpha mx x y : -1 < alpha -> 0 < mx -> 0 < x -> x <= y -> y <= mx ->
  is_RInt (PowerLaw_prob alpha 0 mx) x y (Rpower (y / mx) (1 + alpha) - Rpower (x / mx) (1 + alpha)).
Proof.
  intros Ha Hm Hx Hxy Hy.
  apply (ftc_ext _ (fun z => Rpower z alpha * (1 + alpha) / Rpower mx (1 + alpha)) (fun z => Rpower (z / mx) (1 + alpha)));
    [exact Hxy| | |].
  - intros z Hz. unfold Rpower at 1.
    auto_derive; [apply Rdiv_pos; lra|].
    replace (exp ((1 + alpha) * ln (z * / mx))) with (Rpower z (1 + alpha) / Rpower mx (1 + alpha)).
    + rewrite Rpower_plus, Rpower_1 by lra. field. split; [|lra]. pose proof (Rpower_pos mx (1 + alpha)); lra.
    + rewrite <- Rpower_div by lra. reflexivity.
  - intros z Hz. apply cont_of_derive. unfold Rpower at 1. auto_derive. lra.
  - intros z Hz. apply PowerLaw0_prob_eq; lra.
Qed.
Lemma PowerLaw0_inverse alpha mx : -1 < alpha -> 0 < mx ->
  inverse_transform (PowerLaw_prob alpha 0 mx) (fun u => Finite (PowerLaw_rescale alpha 0 mx u)) (fun u => 0 < u <= 1).
Proof.
  intros Ha Hm u v Hu Hv Huv.
  destruct (PowerLaw0_rescale alpha mx u Ha Hm Hu) as [Eu Ru].
  destruct (PowerLaw0_rescale alpha mx v Ha Hm Hv) as [Ev Rv].
  exists (PowerLaw_rescale alpha 0 mx u), (PowerLaw_rescale alpha 0 mx v).
  assert (L : PowerLaw_rescale alpha 0 mx u <= PowerLaw_rescale alpha 0 mx v).
  { rewrite Eu, Ev. destruct (Req_dec u v) as [->|]; [lra|].
    assert (Rpower u (1 / (1 + alpha)) < Rpower v (1 / (1 + alpha))); [|nra].
    apply Rpower_lt_base; [apply Rdiv_pos; lra|lra]. }
  repeat split; try reflexivity; [exact L|].
  eapply is_RInt_val; [apply PowerLaw0_integral; lra|]. rewrite Eu, Ev.
  replace (mx * Rpower v (1 / (1 + alpha)) / mx) with (Rpower v (1 / (1 + alpha))) by (field; lra).
  replace (mx * Rpower u (1 / (1 + alpha)) / mx) with (Rpower u (1 / (1 + alpha))) by (field; lra).
  rewrite !Rpower_root' by lra. reflexivity.
Qed.
Lemma PowerLaw0_ends alpha mx : -1 < alpha -> 0 < mx ->
  PowerLaw_rescale alpha 0 mx 0 = 0 /\ PowerLaw_rescale alpha 0 mx 1 = mx.
Proof.
  intros Ha Hm. split.
  - unfold PowerLaw_rescale. destruct (Req_EM_T alpha (-1)); [lra|].
    rewrite npow_0 by lra. rewrite Rmult_0_l, Rplus_0_l. apply npow_0.
    apply Rgt_not_eq, Rdiv_pos; lra.
  - destruct (PowerLaw0_rescale alpha mx 1 Ha Hm ltac:(lra)) as [-> _]. rewrite Rpower_1_base. ring.
Qed.
Lemma PowerLaw0_cdf alpha mx x : -1 < alpha -> 0 < mx -> 0 < x -> PowerLaw_cdf alpha 0 mx x = Some (clamp01 (Rpower (x / mx) (1 + alpha))).
Proof.
  intros Ha Hm Hx. unfold PowerLaw_cdf. destruct (Req_EM_T alpha (-1)); [lra|].
  unfold vpow. destruct (Rlt_dec 0 x); [|lra]. cbv beta iota delta [bindo].
  rewrite (npow_pos mx), npow_0 by lra.
  pose proof (Rpower_pos mx (alpha + 1)). rewrite pdiv_some by lra. rewrite !Rminus_0_r.
  rewrite <- Rpower_div by lra. rewrite (Rplus_comm 1 alpha). reflexivity.
Qed.

(** ** SymmetricLogUniform *)
Definition SLp1 (mn mx x : R) : R := if in_prior_range (- mx) (- mn) x then (1/2) / (- x) / ln (mx / mn) else 0.
Definition SLp2 (mn mx x : R) : R := if in_prior_range mn mx x then (1/2) / x / ln (mx / mn) else 0.
Definition SLC1 (mn mx x : R) : R :=
  if Rle_dec x (- mx) then 0 else if Rle_dec x (- mn) then - ((1/2) / ln (mx / mn)) * ln (- x / mx) else 1/2.
Definition SLC2 (mn mx x : R) : R :=
  if Rle_dec x mn then 0 else if Rle_dec x mx then (1/2) / ln (mx / mn) * ln (x / mn) else 1/2.
Lemma SL_prob_split mn mx x : 0 < mn < mx -> SymLogUniform_prob mn mx x = SLp1 mn mx x + SLp2 mn mx x.
Proof.
  intros H. unfold SymLogUniform_prob, SLp1, SLp2. destruct (Rle_dec 0 x) as [P|N].
  - rewrite Rabs_pos_eq by exact P. rewrite (in_range_false (- mx) (- mn) x) by lra. ring.
  - rewrite Rabs_left by lra. rewrite (in_range_false mn mx x) by lra.
    destruct (in_range_cases mn mx (- x)) as [[-> Hx]|[-> Hx]].
    + rewrite in_range_true by lra. ring.
    + rewrite in_range_false by lra. ring.
Qed.
Lemma ln_le' x y : 0 < x -> x <= y -> ln x <= ln y.
Proof. intros Hx [L| ->]; [left; apply ln_increasing; assumption|right; reflexivity]. Qed.
Lemma SL_int1 mn mx : 0 < mn < mx -> forall x y, is_RInt (SLp1 mn mx) x y (SLC1 mn mx y - SLC1 mn mx x).
Proof.
  intros H. pose proof (ln_ratio_pos mn mx H) as HL.
  assert (E1 : ln (- - mx / mx) = 0) by (replace (- - mx / mx) with 1 by (field; lra); apply ln_1).
  assert (E2 : ln (- - mn / mx) = - ln (mx / mn)).
  { replace (- - mn / mx) with (/ (mx / mn)) by (field; lra). apply ln_Rinv, Rdiv_pos; lra. }
  apply (interval_density _ (fun x => (1/2) / (- x) / ln (mx / mn)) (fun x => - ((1/2) / ln (mx / mn)) * ln (- x / mx)) (- mx) (- mn)).
  - lra.
  - intros x Hx. auto_derive.
    + apply Rdiv_pos; lra.
    + field. repeat split; lra.
  - intros x Hx. apply cont_of_derive. auto_derive. lra.
  - intros x Hx. unfold SLp1. rewrite in_range_true by lra. reflexivity.
  - intros x Hx. unfold SLp1. rewrite in_range_false by lra. reflexivity.
  - intros x Hx. unfold SLC1. destruct (Rle_dec x (- mx)); [reflexivity|lra].
  - intros x Hx. rewrite E1. unfold SLC1. destruct (Rle_dec x (- mx)).
    + replace x with (- mx) by lra. rewrite E1. ring.
    + destruct (Rle_dec x (- mn)); [ring|lra].
  - intros x Hx. rewrite E1, E2. unfold SLC1. destruct (Rle_dec x (- mx)); [lra|].
    destruct (Rle_dec x (- mn)).
    + replace x with (- mn) by lra. rewrite E2. field. lra.
    + field. lra.
Qed.
Lemma SL_int2 mn mx : 0 < mn < mx -> forall x y, is_RInt (SLp2 mn mx) x y (SLC2 mn mx y - SLC2 mn mx x).
Proof.
  intros H. pose proof (ln_ratio_pos mn mx H) as HL.
  assert (E1 : ln (mn / mn) = 0) by (replace (mn / mn) with 1 by (field; lra); apply ln_1).
  apply (interval_density _ (fun x => (1/2) / x / ln (mx / mn)) (fun x => (1/2) / ln (mx / mn) * ln (x / mn)) mn mx).
  - lra.
  - intros x Hx. auto_derive.
    + apply Rdiv_pos; lra.
    + field. repeat split; lra.
  - intros x Hx. apply cont_of_derive. auto_derive. lra.
  - intros x Hx. unfold SLp2. rewrite in_range_true by lra. reflexivity.
  - intros x Hx. unfold SLp2. rewrite in_range_false by lra. reflexivity.
  - intros x Hx. unfold SLC2. destruct (Rle_dec x mn); [reflexivity|lra].
  - intros x Hx. rewrite E1. unfold SLC2. destruct (Rle_dec x mn).
    + replace x with mn by lra. rewrite E1. ring.
    + destruct (Rle_dec x mx); [ring|lra].
  - intros x Hx. rewrite E1. unfold SLC2. destruct (Rle_dec x mn); [lra|].
    destruct (Rle_dec x mx).
    + replace x with mx by lra. ring.
    + field. lra.
Qed.
Lemma SL_cdf_split mn mx x : 0 < mn < mx -> SymLogUniform_cdf mn mx x = SLC1 mn mx x + SLC2 mn mx x.
Proof.
  intros H. pose proof (ln_ratio_pos mn mx H) as HL. unfold SymLogUniform_cdf, SLC1, SLC2. cbv zeta.
  destruct (Rlt_dec mx x).
  { destruct (Rle_dec x (- mx)); [lra|]. destruct (Rle_dec x (- mn)); [lra|].
    destruct (Rle_dec x mn); [lra|]. destruct (Rle_dec x mx); lra. }
  destruct (in_range_cases mn mx x) as [[-> Hx]|[-> Hx]].
  { destruct (Rle_dec x (- mx)); [lra|]. destruct (Rle_dec x (- mn)); [lra|].
    destruct (Rle_dec x mn).
    - replace x with mn by lra. replace (mn / mn) with 1 by (field; lra). rewrite ln_1. ring.
    - destruct (Rle_dec x mx); [ring|lra]. }
  destruct (Rle_dec x mn); [|lra].
  destruct (Rlt_dec (- mn) x).
  { destruct (Rlt_dec x mn); [|lra]. destruct (Rle_dec x (- mx)); [lra|]. destruct (Rle_dec x (- mn)); [lra|]. ring. }
  destruct (in_range_cases (- mx) (- mn) x) as [[-> Hx']|[-> Hx']].
  - destruct (Rle_dec x (- mx)).
    + replace x with (- mx) by lra. replace (- - mx / mx) with 1 by (field; lra). rewrite ln_1. ring.
    + destruct (Rle_dec x (- mn)); [ring|lra].
  - destruct (Rle_dec x (- mx)); [ring|lra].
Qed.
Lemma SymLogUniform_bounded mn mx : 0 < mn < mx ->
  bounded_prior (SymLogUniform_prob mn mx) (SymLogUniform_cdf mn mx) (fun u => Finite (SymLogUniform_rescale mn mx u)) (- mx) mx.
Proof.
  intros H. pose proof (ln_ratio_pos mn mx H) as HL.
  apply bounded_prior_intro; [lra| | | | | | | |].
  - intros x. unfold SymLogUniform_prob. destruct (in_range_cases mn mx (Rabs x)) as [[-> Hx]|[-> Hx]]; [|lra].
    apply Rdiv_nonneg; [apply Rdiv_nonneg; lra|exact HL].
  - apply (sum_density (SLp1 mn mx) (SLp2 mn mx) (SLC1 mn mx) (SLC2 mn mx)).
    + apply SL_int1, H.
    + apply SL_int2, H.
    + intros x. apply SL_prob_split, H.
    + intros x. apply SL_cdf_split, H.
  - intros x Hx. unfold SymLogUniform_prob. rewrite in_range_false; [reflexivity|right].
    destruct Hx; [rewrite Rabs_left; lra|rewrite Rabs_pos_eq; lra].
  - intros x Hx. rewrite SL_cdf_split by exact H. unfold SLC1, SLC2.
    destruct (Rle_dec x (- mx)); [|lra]. destruct (Rle_dec x mn); lra.
  - intros x Hx. rewrite SL_cdf_split by exact H. unfold SLC1, SLC2.
    destruct (Rle_dec x (- mx)); [lra|]. destruct (Rle_dec x (- mn)); [lra|].
    destruct (Rle_dec x mn); [lra|]. destruct (Rle_dec x mx); [|lra].
    replace x with mx by lra. field. lra.
  - intros u Hu. eexists. split; [reflexivity|]. rewrite SL_cdf_split by exact H.
    unfold SymLogUniform_rescale. destruct (Rlt_dec u (1/2)) as [L|L].
    + set (z := exp (-2 * u * ln (mx / mn))).
      assert (Hz : mn / mx < z < 1).
      { unfold z. split.
        - replace (mn / mx) with (exp (- ln (mx / mn))).
          + apply exp_increasing. nra.
          + rewrite exp_Ropp, exp_ln by (apply Rdiv_pos; lra). field. lra.
        - rewrite <- exp_0. apply exp_increasing. nra. }
      assert (mn < mx * z < mx).
      { assert (mx * (mn / mx) = mn) by (field; lra). split; nra. }
      unfold SLC1, SLC2. destruct (Rle_dec (- mx * z) (- mx)); [lra|].
      destruct (Rle_dec (- mx * z) (- mn)); [|lra]. destruct (Rle_dec (- mx * z) mn); [|lra].
      replace (- (- mx * z) / mx) with z by (field; lra). unfold z. rewrite ln_exp. field. lra.
    + set (z := exp (ln (mx / mn) * (2 * u - 1))).
      assert (Hz : 1 <= z < mx / mn).
      { unfold z. split.
        - rewrite <- exp_0 at 1. destruct (Req_dec u (1/2)) as [->|]; [right; f_equal; lra|].
          left. apply exp_increasing. nra.
        - rewrite <- (exp_ln (mx / mn)) at 2 by (apply Rdiv_pos; lra). apply exp_increasing. nra. }
      assert (mn <= mn * z < mx).
      { assert (mn * (mx / mn) = mx) by (field; lra). split; nra. }
      unfold SLC1, SLC2. destruct (Rle_dec (mn * z) (- mx)); [lra|].
      destruct (Rle_dec (mn * z) (- mn)); [lra|]. destruct (Rle_dec (mn * z) mn).
      * assert (Z1 : z = 1) by nra. assert (Z2 : ln z = 0) by (rewrite Z1; apply ln_1).
        unfold z in Z2. rewrite ln_exp in Z2. apply Rmult_integral in Z2. lra.
      * destruct (Rle_dec (mn * z) mx); [|lra].
        replace (mn * z / mn) with z by (field; lra). unfold z. rewrite ln_exp. field. lra.
  - f_equal. unfold SymLogUniform_rescale. destruct (Rlt_dec 0 (1/2)); [|lra].
    replace (-2 * 0 * ln (mx / mn)) with 0 by ring. rewrite exp_0. ring.
  - f_equal. unfold SymLogUniform_rescale. destruct (Rlt_dec 1 (1/2)); [lra|].
    replace (ln (mx / mn) * (2 * 1 - 1)) with (ln (mx / mn)) by ring.
    rewrite exp_ln by (apply Rdiv_pos; lra). field. lra.
Qed.
(** every value returned by rescale has positive density: never in the gap *)
Lemma SymLogUniform_support mn mx u : 0 < mn < mx -> 0 <= u <= 1 ->
  0 < SymLogUniform_prob mn mx (SymLogUniform_rescale mn mx u).
Proof.
  intros H Hu. pose proof (ln_ratio_pos mn mx H) as HL.
  assert (R : mn <= Rabs (SymLogUniform_rescale mn mx u) <= mx).
  { unfold SymLogUniform_rescale. destruct (Rlt_dec u (1/2)) as [L|L].
    - set (z := exp (-2 * u * ln (mx / mn))).
      assert (Hz : mn / mx < z <= 1).
      { unfold z. split.
        - replace (mn / mx) with (exp (- ln (mx / mn))).
          + apply exp_increasing. nra.
          + rewrite exp_Ropp, exp_ln by (apply Rdiv_pos; lra). field. lra.
        - rewrite <- exp_0. destruct (Req_dec u 0) as [->|]; [right; f_equal; lra|left; apply exp_increasing; nra]. }
      assert (mx * (mn / mx) = mn) by (field; lra). rewrite Rabs_left by nra. nra.
    - set (z := exp (ln (mx / mn) * (2 * u - 1))).
      assert (Hz : 1 <= z <= mx / mn).
      { unfold z. split.
        - rewrite <- exp_0 at 1. destruct (Req_dec u (1/2)) as [->|]; [right; f_equal; lra|left; apply exp_increasing; nra].
        - rewrite <- (exp_ln (mx / mn)) at 2 by (apply Rdiv_pos; lra).
          destruct (Req_dec u 1) as [->|]; [right; f_equal; lra|left; apply exp_increasing; nra]. }
      assert (mn * (mx / mn) = mx) by (field; lra). rewrite Rabs_pos_eq by nra. nra. }
  unfold SymLogUniform_prob. rewrite in_range_true by exact R.
  apply Rdiv_pos; [apply Rdiv_pos; lra|exact HL].
Qed.
Lemma SymLogUniform_ln big mn mx x : 0 < mn < mx -> 0 < SymLogUniform_prob mn mx x ->
  SymLogUniform_ln_prob big mn mx x = Finite (ln (SymLogUniform_prob mn mx x)).
Proof.
  intros H. pose proof (ln_ratio_pos mn mx H) as HL. unfold SymLogUniform_prob, SymLogUniform_ln_prob.
  destruct (in_range_cases mn mx (Rabs x)) as [[-> Hx]|[-> Hx]]; [|lra]. intros _.
  destruct (Req_EM_T x 0) as [->|N]; [rewrite Rabs_R0 in Hx; lra|]. f_equal.
  rewrite (ln_div _ (ln (mx / mn))) by (try apply Rdiv_pos; lra). f_equal.
  rewrite ln_div, ln_mult by lra. replace (1/2) with (/2) by lra. rewrite ln_Rinv by lra. ring.
Qed.
(** outside the support prob is 0 but ln_prob is finite, at every such point *)
Lemma SymLogUniform_ln_outside big mn mx x : 0 < mn < mx -> Rabs x < mn \/ mx < Rabs x ->
  SymLogUniform_prob mn mx x = 0 /\ exists l : R, SymLogUniform_ln_prob big mn mx x = Finite l.
Proof.
  intros H Hx. split.
  - unfold SymLogUniform_prob. rewrite in_range_false by exact Hx. reflexivity.
  - unfold SymLogUniform_ln_prob. destruct (Req_EM_T x 0); eauto.
Qed.
