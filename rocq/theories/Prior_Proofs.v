From Coq Require Import Reals Lra Psatz.
From Coquelicot Require Import Coquelicot.
From Verif Require Import PyReal Prior_Model PriorSpec.
Open Scope R_scope.

Lemma in_range_true mn mx x : mn <= x <= mx -> in_prior_range mn mx x = true.
Proof. intros [H1 H2]. unfold in_prior_range. destruct (Rle_dec mn x); [|lra]. destruct (Rle_dec x mx); [reflexivity|lra]. Qed.
Lemma in_range_false mn mx x : x < mn \/ mx < x -> in_prior_range mn mx x = false.
Proof. intros H. unfold in_prior_range. destruct (Rle_dec mn x); [|reflexivity]. destruct (Rle_dec x mx); [lra|reflexivity]. Qed.
Lemma in_range_cases mn mx x : (in_prior_range mn mx x = true /\ mn <= x <= mx) \/ (in_prior_range mn mx x = false /\ (x < mn \/ mx < x)).
Proof. unfold in_prior_range. destruct (Rle_dec mn x); [destruct (Rle_dec x mx)|]; [left|right|right]; split; auto; lra. Qed.
Lemma clamp01_id c : 0 <= c <= 1 -> clamp01 c = c.
Proof. intros H. unfold clamp01. rewrite Rmin_left, Rmax_left; lra. Qed.
Lemma clamp01_low c : c <= 0 -> clamp01 c = 0.
Proof. intros H. unfold clamp01. rewrite Rmin_left, Rmax_right; lra. Qed.
Lemma clamp01_high c : 1 <= c -> clamp01 c = 1.
Proof. intros H. unfold clamp01. rewrite Rmin_right, Rmax_left; lra. Qed.
Lemma Rdiv_pos a b : 0 < a -> 0 < b -> 0 < a / b.
Proof. intros. apply Rmult_lt_0_compat; [|apply Rinv_0_lt_compat]; assumption. Qed.
Lemma Rdiv_nonneg a b : 0 <= a -> 0 < b -> 0 <= a / b.
Proof. intros. apply Rmult_le_pos; [assumption|left; apply Rinv_0_lt_compat; assumption]. Qed.
Lemma Rdiv_le_1' a b : a <= b -> 0 < b -> a / b <= 1.
Proof. intros H Hb. apply Rmult_le_reg_r with b; [exact Hb|]. unfold Rdiv. rewrite Rmult_assoc, Rinv_l; lra. Qed.
Lemma Rdiv_ge_1' a b : b <= a -> 0 < b -> 1 <= a / b.
Proof. intros H Hb. apply Rmult_le_reg_r with b; [exact Hb|]. unfold Rdiv. rewrite Rmult_assoc, Rinv_l; lra. Qed.
Lemma Rdiv_nonpos a b : a <= 0 -> 0 < b -> a / b <= 0.
Proof. intros H Hb. apply Rmult_le_reg_r with b; [exact Hb|]. unfold Rdiv. rewrite Rmult_assoc, Rinv_l; lra. Qed.

(** ** Uniform *)
Lemma Uniform_bounded mn mx : mn < mx ->
  bounded_prior (Uniform_prob mn mx) (Uniform_cdf mn mx) (fun u => Finite (Uniform_rescale mn mx u)) mn mx.
Proof.
  intros H. apply bounded_prior_intro; [lra| | | | | | | |].
  - intros x. unfold Uniform_prob. destruct (in_prior_range mn mx x); apply Rdiv_nonneg; lra.
  - apply (interval_density (Uniform_prob mn mx) (fun _ => 1 / (mx - mn)) (fun x => x / (mx - mn)) mn mx).
    + lra.
    + intros x _. auto_derive; [trivial|]. field. lra.
    + intros x _. apply continuous_const.
    + intros x Hx. unfold Uniform_prob. rewrite in_range_true by lra. reflexivity.
    + intros x Hx. unfold Uniform_prob. rewrite in_range_false by exact Hx. lra.
    + intros x Hx. unfold Uniform_cdf. apply clamp01_low, Rdiv_nonpos; lra.
    + intros x Hx. unfold Uniform_cdf. rewrite clamp01_id; [field; lra|].
      split; [apply Rdiv_nonneg|apply Rdiv_le_1']; lra.
    + intros x Hx. unfold Uniform_cdf. rewrite clamp01_high; [field; lra|]. apply Rdiv_ge_1'; lra.
  - intros x Hx. unfold Uniform_prob. rewrite in_range_false by exact Hx. lra.
  - intros x Hx. unfold Uniform_cdf. apply clamp01_low, Rdiv_nonpos; lra.
  - intros x Hx. unfold Uniform_cdf. apply clamp01_high, Rdiv_ge_1'; lra.
  - intros u Hu. eexists. split; [reflexivity|]. unfold Uniform_cdf, Uniform_rescale.
    replace ((mn + u * (mx - mn) - mn) / (mx - mn)) with u by (field; lra). apply clamp01_id; lra.
  - unfold Uniform_rescale. f_equal. ring.
  - unfold Uniform_rescale. f_equal. ring.
Qed.
Lemma Uniform_ln mn mx : mn < mx -> ln_prob_correct (Uniform_prob mn mx) (Uniform_ln_prob mn mx).
Proof.
  intros H x. unfold Uniform_prob, Uniform_ln_prob. destruct (in_prior_range mn mx x); split; intros Hp.
  - f_equal. rewrite ln_div by lra. rewrite ln_1. ring.
  - pose proof (Rdiv_pos 1 (mx - mn) ltac:(lra) ltac:(lra)). lra.
  - lra.
  - reflexivity.
Qed.

(** ** Powers *)
Lemma npow_pos x a : 0 < x -> npow x a = Rpower x a.
Proof. intros H. unfold npow. destruct (Req_EM_T x 0); [lra|reflexivity]. Qed.
Lemma npow_0 a : a <> 0 -> npow 0 a = 0.
Proof. intros H. unfold npow. destruct (Req_EM_T 0 0); [|lra]. destruct (Req_EM_T a 0); [contradiction|reflexivity]. Qed.
Lemma Rpower_lt_base a x y : 0 < a -> 0 < x < y -> Rpower x a < Rpower y a.
Proof. intros Ha [Hx Hy]. apply Rlt_Rpower_l; lra. Qed.
Lemma Rpower_lt_base_neg a x y : a < 0 -> 0 < x < y -> Rpower y a < Rpower x a.
Proof.
  intros Ha [Hx Hy]. unfold Rpower. apply exp_increasing.
  pose proof (ln_increasing x y Hx Hy). nra.
Qed.
Lemma Rpower_root x a : a <> 0 -> 0 < x -> Rpower (Rpower x a) (1 / a) = x.
Proof. intros Ha Hx. rewrite Rpower_mult. replace (a * (1 / a)) with 1 by (field; exact Ha). apply Rpower_1; exact Hx. Qed.
Lemma Rpower_root' x a : a <> 0 -> 0 < x -> Rpower (Rpower x (1 / a)) a = x.
Proof. intros Ha Hx. rewrite Rpower_mult. replace (1 / a * a) with 1 by (field; exact Ha). apply Rpower_1; exact Hx. Qed.
Lemma PL_norm_sign a mn mx : a <> 0 -> 0 < mn < mx -> 0 < a / (Rpower mx a - Rpower mn a).
Proof.
  intros Ha H. destruct (Rlt_dec 0 a) as [P|N].
  - pose proof (Rpower_lt_base a mn mx P H). apply Rdiv_pos; lra.
  - assert (a < 0) by lra. pose proof (Rpower_lt_base_neg a mn mx H0 H).
    replace (a / (Rpower mx a - Rpower mn a)) with ((- a) / (Rpower mn a - Rpower mx a)) by (field; lra).
    apply Rdiv_pos; lra.
Qed.
Lemma PL_norm_ne a mn mx : a <> 0 -> 0 < mn < mx -> Rpower mx a - Rpower mn a <> 0.
Proof.
  intros Ha H E. pose proof (PL_norm_sign a mn mx Ha H) as L. rewrite E in L.
  unfold Rdiv in L. rewrite Rinv_0, Rmult_0_r in L. lra.
Qed.
(** the cdf before clamping *)
Definition PLF (alpha mn mx x : R) : R :=
  if Req_EM_T alpha (-1) then ln (x / mn) / ln (mx / mn)
  else (Rpower x (alpha + 1) - Rpower mn (alpha + 1)) / (Rpower mx (alpha + 1) - Rpower mn (alpha + 1)).
Definition PLf (alpha mn mx x : R) : R :=
  if Req_EM_T alpha (-1) then 1 / x / ln (mx / mn)
  else Rpower x alpha * (1 + alpha) / (Rpower mx (1 + alpha) - Rpower mn (1 + alpha)).
Lemma ln_ratio_pos mn mx : 0 < mn < mx -> 0 < ln (mx / mn).
Proof. intros H. rewrite <- ln_1. apply ln_increasing; [lra|]. apply Rmult_lt_reg_r with mn; [lra|]. unfold Rdiv. rewrite Rmult_assoc, Rinv_l; lra. Qed.
Lemma PLF_derive alpha mn mx x : 0 < mn < mx -> 0 < x -> is_derive (PLF alpha mn mx) x (PLf alpha mn mx x).
Proof.
  intros H Hx. unfold PLF, PLf. destruct (Req_EM_T alpha (-1)) as [E|E].
  - pose proof (ln_ratio_pos mn mx H). auto_derive.
    + apply Rmult_lt_0_compat; [lra|apply Rinv_0_lt_compat; lra].
    + field. repeat split; lra.
  - assert (Ha : alpha + 1 <> 0) by lra. pose proof (PL_norm_ne (alpha + 1) mn mx Ha H) as Hn.
    rewrite (Rplus_comm 1 alpha).
    assert (E2 : Rpower x alpha = Rpower x (alpha + 1) / x).
    { rewrite Rpower_plus, Rpower_1 by exact Hx. field. lra. }
    rewrite E2. unfold Rpower at 1. auto_derive; [exact Hx|]. fold (Rpower x (alpha + 1)).
    field. split; [lra|exact Hn].
Qed.
Lemma PLf_cont alpha mn mx x : 0 < mn < mx -> 0 < x -> continuous (PLf alpha mn mx) x.
Proof.
  intros H Hx. unfold PLf. destruct (Req_EM_T alpha (-1)) as [E|E].
  - apply cont_of_derive. auto_derive; lra.
  - apply cont_of_derive. unfold Rpower at 1. auto_derive; lra.
Qed.
Lemma PLf_pos alpha mn mx x : 0 < mn < mx -> 0 < x -> 0 < PLf alpha mn mx x.
Proof.
  intros H Hx. unfold PLf. destruct (Req_EM_T alpha (-1)) as [E|E].
  - apply Rdiv_pos; [apply Rdiv_pos; lra|apply ln_ratio_pos; exact H].
  - pose proof (PL_norm_sign (1 + alpha) mn mx ltac:(lra) H) as L.
    replace (Rpower x alpha * (1 + alpha) / (Rpower mx (1 + alpha) - Rpower mn (1 + alpha)))
      with (Rpower x alpha * ((1 + alpha) / (Rpower mx (1 + alpha) - Rpower mn (1 + alpha)))).
    + apply Rmult_lt_0_compat; [apply Rpower_pos|exact L].
    + unfold Rdiv. ring.
Qed.
Lemma PLF_mn alpha mn mx : 0 < mn < mx -> PLF alpha mn mx mn = 0.
Proof.
  intros H. unfold PLF. destruct (Req_EM_T alpha (-1)) as [E|E].
  - replace (mn / mn) with 1 by (field; lra). rewrite ln_1. unfold Rdiv; ring.
  - unfold Rdiv. ring.
Qed.
Lemma PLF_mx alpha mn mx : 0 < mn < mx -> PLF alpha mn mx mx = 1.
Proof.
  intros H. unfold PLF. destruct (Req_EM_T alpha (-1)) as [E|E].
  - apply Rinv_r. pose proof (ln_ratio_pos mn mx H). lra.
  - apply Rinv_r. apply PL_norm_ne; [lra|exact H].
Qed.
Lemma PLF_mono alpha mn mx x y : 0 < mn < mx -> 0 < x <= y -> PLF alpha mn mx x <= PLF alpha mn mx y.
Proof.
  intros H [Hx Hy].
  assert (0 <= PLF alpha mn mx y - PLF alpha mn mx x); [|lra].
  apply (is_RInt_le (fun _ => 0) (PLf alpha mn mx) x y); [exact Hy| | |].
  - apply is_RInt_zero_ext. reflexivity.
  - apply (ftc_ext _ (PLf alpha mn mx)); [exact Hy| | |reflexivity]; intros z Hz.
    + apply PLF_derive; [exact H|lra].
    + apply PLf_cont; [exact H|lra].
  - intros z Hz. left. apply PLf_pos; [exact H|lra].
Qed.
Lemma PowerLaw_cdf_eq alpha mn mx x : 0 < mn < mx -> 0 < x -> PowerLaw_cdf alpha mn mx x = Some (clamp01 (PLF alpha mn mx x)).
Proof.
  intros H Hx. unfold PowerLaw_cdf, PLF. pose proof (ln_ratio_pos mn mx H). destruct (Req_EM_T alpha (-1)).
  - rewrite plog_some by (apply Rdiv_pos; lra). simpl. rewrite pdiv_some by lra. reflexivity.
  - unfold vpow. destruct (Rlt_dec 0 x); [|lra]. simpl. rewrite !npow_pos by lra.
    rewrite pdiv_some by (apply PL_norm_ne; lra). reflexivity.
Qed.
Lemma PowerLaw_prob_eq alpha mn mx x : 0 < mn < mx ->
  PowerLaw_prob alpha mn mx x = if in_prior_range mn mx x then PLf alpha mn mx x else 0.
Proof.
  intros H. unfold PowerLaw_prob, PLf. destruct (in_range_cases mn mx x) as [[-> Hx]|[-> Hx]]; [|reflexivity].
  destruct (Req_EM_T alpha (-1)); [reflexivity|]. rewrite !npow_pos by lra. reflexivity.
Qed.
Lemma PowerLaw_cdf_inverse alpha mn mx u : 0 < mn < mx -> 0 < u < 1 ->
  mn <= PowerLaw_rescale alpha mn mx u <= mx /\ PLF alpha mn mx (PowerLaw_rescale alpha mn mx u) = u.
Proof.
  intros H Hu. unfold PowerLaw_rescale, PLF. destruct (Req_EM_T alpha (-1)) as [E|E].
  - pose proof (ln_ratio_pos mn mx H) as HL. split.
    + assert (1 <= exp (u * ln (mx / mn)) <= mx / mn).
      { split.
        - rewrite <- exp_0. left. apply exp_increasing. apply Rmult_lt_0_compat; lra.
        - rewrite <- (exp_ln (mx / mn)) at 2 by (apply Rdiv_pos; lra). left. apply exp_increasing. nra. }
      assert (mn * (mx / mn) = mx) by (field; lra). nra.
    + replace (mn * exp (u * ln (mx / mn)) / mn) with (exp (u * ln (mx / mn))) by (field; lra).
      rewrite ln_exp. field. lra.
  - set (a := 1 + alpha). assert (Ha : a <> 0) by (unfold a; lra).
    rewrite !npow_pos with (x := mn) by lra. rewrite !npow_pos with (x := mx) by lra.
    replace (alpha + 1) with a by (unfold a; ring).
    pose proof (PL_norm_ne a mn mx Ha H) as Hn.
    set (z := Rpower mn a + u * (Rpower mx a - Rpower mn a)).
    pose proof (Rpower_pos mn a). pose proof (Rpower_pos mx a).
    assert (Hz : 0 < z) by (unfold z; nra).
    rewrite npow_pos by exact Hz. rewrite Rpower_root' by assumption. split.
    + rewrite <- (Rpower_root mn a) at 1 by lra. rewrite <- (Rpower_root mx a) by lra.
      destruct (Rlt_dec 0 a) as [P|N].
      * pose proof (Rpower_lt_base a mn mx P H).
        assert (0 < 1 / a) by (apply Rdiv_pos; lra).
        split; left; apply Rpower_lt_base; try assumption; unfold z; split; try nra.
      * assert (N' : a < 0) by lra. pose proof (Rpower_lt_base_neg a mn mx N' H).
        assert (1 / a < 0). { unfold Rdiv. rewrite Rmult_1_l. apply Rinv_lt_0_compat; exact N'. }
        split; left; apply Rpower_lt_base_neg; try assumption; unfold z; split; try nra.
    + unfold z. field. exact Hn.
Qed.
Lemma PLF_below alpha mn mx x : 0 < mn < mx -> 0 < x <= mn -> PLF alpha mn mx x <= 0.
Proof. intros H Hx. rewrite <- (PLF_mn alpha mn mx H). apply PLF_mono; [exact H|lra]. Qed.
Lemma PLF_above alpha mn mx x : 0 < mn < mx -> mx <= x -> 1 <= PLF alpha mn mx x.
Proof. intros H Hx. rewrite <- (PLF_mx alpha mn mx H). apply PLF_mono; [exact H|lra]. Qed.
Lemma PLF_in alpha mn mx x : 0 < mn < mx -> mn <= x <= mx -> 0 <= PLF alpha mn mx x <= 1.
Proof.
  intros H Hx. rewrite <- (PLF_mn alpha mn mx H) at 1. rewrite <- (PLF_mx alpha mn mx H).
  split; apply PLF_mono; lra.
Qed.
(** distribution function on the whole line *)
Definition PLC (alpha mn mx x : R) : R := if Rle_dec x mn then 0 else clamp01 (PLF alpha mn mx x).
Lemma PowerLaw_bounded alpha mn mx : 0 < mn < mx ->
  bounded_prior (PowerLaw_prob alpha mn mx) (PLC alpha mn mx) (fun u => Finite (PowerLaw_rescale alpha mn mx u)) mn mx.
Proof.
  intros H.
  assert (C0 : forall x, x <= mn -> PLC alpha mn mx x = 0).
  { intros x Hx. unfold PLC. destruct (Rle_dec x mn); [reflexivity|lra]. }
  assert (C1 : forall x, mn <= x <= mx -> PLC alpha mn mx x = PLF alpha mn mx x).
  { intros x Hx. unfold PLC. destruct (Rle_dec x mn).
    - replace x with mn by lra. rewrite PLF_mn by exact H. reflexivity.
    - apply clamp01_id, PLF_in; lra. }
  assert (C2 : forall x, mx <= x -> PLC alpha mn mx x = 1).
  { intros x Hx. unfold PLC. destruct (Rle_dec x mn); [lra|]. apply clamp01_high, PLF_above; lra. }
  apply bounded_prior_intro; [lra| | | |exact C0|exact C2| | |].
  - intros x. rewrite PowerLaw_prob_eq by exact H.
    destruct (in_range_cases mn mx x) as [[-> Hx]|[-> Hx]]; [|lra]. left. apply PLf_pos; lra.
  - apply (interval_density _ (PLf alpha mn mx) (PLF alpha mn mx) mn mx).
    + lra.
    + intros x Hx. apply PLF_derive; lra.
    + intros x Hx. apply PLf_cont; lra.
    + intros x Hx. rewrite PowerLaw_prob_eq, in_range_true by lra. reflexivity.
    + intros x Hx. rewrite PowerLaw_prob_eq, in_range_false by lra. reflexivity.
    + exact C0.
    + intros x Hx. rewrite PLF_mn, C1 by lra. ring.
    + intros x Hx. rewrite PLF_mn, PLF_mx, C2 by lra. ring.
  - intros x Hx. rewrite PowerLaw_prob_eq, in_range_false by lra. reflexivity.
  - intros u Hu. eexists. split; [reflexivity|].
    destruct (PowerLaw_cdf_inverse alpha mn mx u H Hu) as [R E]. rewrite C1 by exact R. exact E.
  - f_equal. unfold PowerLaw_rescale. destruct (Req_EM_T alpha (-1)).
    + rewrite Rmult_0_l, exp_0. ring.
    + rewrite !(npow_pos mn), !(npow_pos mx) by lra.
      rewrite Rmult_0_l, Rplus_0_r, npow_pos by apply Rpower_pos. apply Rpower_root; lra.
  - f_equal. unfold PowerLaw_rescale. destruct (Req_EM_T alpha (-1)).
    + rewrite Rmult_1_l, exp_ln by (apply Rdiv_pos; lra). field. lra.
    + rewrite !(npow_pos mn), !(npow_pos mx) by lra.
      replace (Rpower mn (1 + alpha) + 1 * (Rpower mx (1 + alpha) - Rpower mn (1 + alpha))) with (Rpower mx (1 + alpha)) by ring.
      rewrite npow_pos by apply Rpower_pos. apply Rpower_root; lra.
Qed.
Lemma PowerLaw_cdf_PLC alpha mn mx x : 0 < mn < mx -> 0 < x -> PowerLaw_cdf alpha mn mx x = Some (PLC alpha mn mx x).
Proof.
  intros H Hx. rewrite PowerLaw_cdf_eq by assumption. f_equal. unfold PLC. destruct (Rle_dec x mn); [|reflexivity].
  apply clamp01_low, PLF_below; lra.
Qed.
Lemma PowerLaw_ln alpha mn mx : 0 < mn < mx -> ln_prob_correct (PowerLaw_prob alpha mn mx) (PowerLaw_ln_prob alpha mn mx).
Proof.
  intros H x. rewrite PowerLaw_prob_eq by exact H. unfold PowerLaw_ln_prob.
  destruct (in_range_cases mn mx x) as [[-> Hx]|[-> Hx]]; split; intros Hp.
  - f_equal. unfold PLf, PowerLaw_normalising. destruct (Req_EM_T alpha (-1)) as [E|E].
    + pose proof (ln_ratio_pos mn mx H). subst alpha.
      rewrite (ln_div (1 / x) (ln (mx / mn))), (ln_div 1 x), (ln_div 1 (ln (mx / mn))) by (try apply Rdiv_pos; lra).
      rewrite ln_1. ring.
    + rewrite !npow_pos by lra.
      replace (Rpower x alpha * (1 + alpha) / (Rpower mx (1 + alpha) - Rpower mn (1 + alpha)))
        with (Rpower x alpha * ((1 + alpha) / (Rpower mx (1 + alpha) - Rpower mn (1 + alpha)))) by (unfold Rdiv; ring).
      rewrite ln_mult; [|apply Rpower_pos|apply PL_norm_sign; lra]. unfold Rpower at 3. rewrite ln_exp. ring.
  - pose proof (PLf_pos alpha mn mx x H ltac:(lra)). lra.
  - lra.
  - reflexivity.
Qed.
(** the cdf of a power law at a point far below the support *)
Lemma PowerLaw_cdf_negative : PowerLaw_cdf 1 1 2 (-2) = Some 1.
Proof.
  unfold PowerLaw_cdf. destruct (Req_EM_T 1 (-1)); [lra|].
  unfold vpow. destruct (Rlt_dec 0 (-2)); [lra|]. destruct (Req_EM_T (-2) 0); [lra|].
  assert (E : Int_part (1 + 1) = 2%Z). { apply Int_part_unique. simpl. lra. }
  rewrite E. destruct (Req_EM_T (1 + 1) (IZR 2)); [|exfalso; lra]. cbv beta iota delta [bindo].
  rewrite !npow_pos by lra.
  assert (E1 : forall x, 0 < x -> Rpower x (1 + 1) = x * x).
  { intros x Hx. rewrite Rpower_plus, Rpower_1 by exact Hx. reflexivity. }
  rewrite !E1 by lra. rewrite pdiv_some by lra. f_equal. apply clamp01_high. simpl. lra.
Qed.
Lemma PowerLaw_cdf_nan x : x < 0 -> PowerLaw_cdf (-1) 1 2 x = None.
Proof.
  intros Hx. unfold PowerLaw_cdf. destruct (Req_EM_T (-1) (-1)); [|lra].
  unfold plog. destruct (Rle_dec (x / 1) 0); [reflexivity|lra].
Qed.
