(** Lemmas on the error function and the Gaussian family of priors. *)
From Coq Require Import Reals Lra Psatz.
From Coquelicot Require Import Coquelicot.
From Verif Require Import PyReal Prior_Model PriorSpec GaussInt GaussPrior_Model.
Open Scope R_scope.

Lemma exp_le_compat x y : x <= y -> exp x <= exp y.
Proof. intros [H| ->]; [left; now apply exp_increasing|lra]. Qed.
Lemma sqrtpi_pos : 0 < sqrt PI.
Proof. apply sqrt_lt_R0, PI_RGT_0. Qed.
Lemma sqrt2_pos : 0 < sqrt 2.
Proof. apply sqrt_lt_R0. lra. Qed.
Lemma sqrt2pi : sqrt (2 * PI) = sqrt 2 * sqrt PI.
Proof. pose proof PI_RGT_0. rewrite sqrt_mult_alt by lra. reflexivity. Qed.
Lemma sqr2 : sqrt 2 * sqrt 2 = 2.
Proof. apply sqrt_sqrt. lra. Qed.
(** *** erf *)
Lemma erf_derive x : is_derive erf x (2 / sqrt PI * exp (- x^2)).
Proof. unfold erf. apply (is_derive_scal bellint x (2 / sqrt PI) (bell x)). apply bellint_derive. Qed.
Lemma erf_increasing x y : x < y -> erf x < erf y.
Proof.
  intros H. pose proof sqrtpi_pos. apply (incr_function erf m_infty p_infty (fun x => 2 / sqrt PI * exp (- x^2))); cbn; auto; intros; [apply erf_derive|].
  apply Rmult_lt_0_compat; [apply Rdiv_lt_0_compat; lra|apply exp_pos].
Qed.
Lemma erf_0 : erf 0 = 0.
Proof. unfold erf, bellint. rewrite RInt_point. unfold zero; cbn. ring. Qed.
Lemma erf_odd x : erf (- x) = - erf x.
Proof.
  unfold erf. rewrite !bellint_scale. rewrite (RInt_ext (fun t => bell (- x * t)) (fun t => bell (x * t))); [ring|].
  intros t _. unfold bell. f_equal. f_equal. ring.
Qed.
Lemma erf_lim_p : is_lim erf p_infty 1.
Proof.
  pose proof sqrtpi_pos. replace (Finite 1) with (Rbar_mult (2 / sqrt PI) (sqrt PI / 2)) by (cbn; f_equal; field; lra).
  apply (is_lim_scal_l bellint (2 / sqrt PI) p_infty (sqrt PI / 2)), gauss_integral.
Qed.
Lemma erf_lim_m : is_lim erf m_infty (-1).
Proof.
  apply (is_lim_ext (fun x => - erf (- x))); [intros; rewrite erf_odd; ring|].
  apply (is_lim_opp (fun x => erf (- x)) m_infty 1).
  apply (is_lim_comp erf (fun x => - x) m_infty 1 p_infty); [apply erf_lim_p| |exists 0; intros; discriminate].
  apply (is_lim_opp (fun x => x) m_infty m_infty). apply is_lim_id.
Qed.
Lemma erf_range x : -1 < erf x < 1.
Proof.
  assert (U : forall x, erf x < 1).
  { intros z. apply Rlt_le_trans with (erf (z + 1)); [apply erf_increasing; lra|].
    apply (is_lim_le_loc (fun _ => erf (z + 1)) erf p_infty (erf (z + 1)) 1); [|apply is_lim_const|apply erf_lim_p].
    exists (z + 1). intros y Hy. left. now apply erf_increasing. }
  split; auto. pose proof (U (- x)) as H. rewrite erf_odd in H. lra.
Qed.
Lemma erf_inj x y : erf x = erf y -> x = y.
Proof. intros E. destruct (Rtotal_order x y) as [H|[H|H]]; auto; apply erf_increasing in H; lra. Qed.
(** erf takes every value between -1 and 1: the hypothesis on erfinv below can be met *)
Lemma erf_onto y : -1 < y < 1 -> exists x, erf x = y.
Proof.
  intros H.
  assert (E : exists a, erf a < y).
  { assert (L := erf_lim_m). destruct (L (fun z => z < y)) as [M HM].
    - exists (mkposreal (y + 1) ltac:(lra)). intros z Hz. unfold ball in Hz; cbn in Hz; unfold AbsRing_ball, abs, minus, plus, opp in Hz; cbn in Hz. apply Rabs_def2 in Hz. lra.
    - exists (M - 1). apply HM. lra. }
  assert (E' : exists b, y < erf b).
  { assert (L := erf_lim_p). destruct (L (fun z => y < z)) as [M HM].
    - exists (mkposreal (1 - y) ltac:(lra)). intros z Hz. unfold ball in Hz; cbn in Hz; unfold AbsRing_ball, abs, minus, plus, opp in Hz; cbn in Hz. apply Rabs_def2 in Hz. lra.
    - exists (M + 1). apply HM. lra. }
  destruct E as [a Ha]. destruct E' as [b Hb].
  assert (ab : a < b) by (destruct (Rlt_or_le a b) as [|K]; auto; destruct K as [K|K]; [apply erf_increasing in K; lra|subst; lra]).
  destruct (IVT (fun x => erf x - y) a b) as (x & Hx & Ex); auto; try lra.
  - intros z. apply continuity_pt_minus; [|apply continuity_pt_const; intros ? ?; reflexivity].
    apply continuity_pt_filterlim. apply (ex_derive_continuous (V := R_NormedModule)). eexists. apply erf_derive.
  - exists x. lra.
Qed.

(** *** Gaussian *)
Definition sc (mu sigma x : R) : R := (x - mu) / sqrt 2 / sigma.
Definition prim (mu sigma x : R) : R := erf (sc mu sigma x) / 2.
Lemma prim_derive mu sigma x : sigma <> 0 -> is_derive (prim mu sigma) x (Gaussian_prob mu sigma x).
Proof.
  intros Hs. pose proof sqrt2_pos as S2. pose proof sqrtpi_pos as SP. unfold prim, Gaussian_prob.
  apply (is_derive_ext (fun x => / 2 * erf (sc mu sigma x))); [intros t; cbv beta; match goal with |- ?a = ?b => change (@eq R a b) end; field|].
  replace (exp (- (mu - x)^2 / (2 * sigma^2)) / sqrt (2 * PI) / sigma) with (/ 2 * (/ sqrt 2 / sigma * (2 / sqrt PI * exp (- (sc mu sigma x)^2)))).
  - apply (is_derive_scal (fun x => erf (sc mu sigma x))). apply (is_derive_comp erf (sc mu sigma) x (2 / sqrt PI * exp (- (sc mu sigma x)^2)) (/ sqrt 2 / sigma)).
    + apply erf_derive.
    + unfold sc. auto_derive; [auto|]. field. split; lra.
  - replace (- (sc mu sigma x)^2) with (- (mu - x)^2 / (2 * sigma^2)).
    + rewrite sqrt2pi. field. repeat split; lra.
    + unfold sc. replace (2 * sigma^2) with ((sqrt 2 * sqrt 2) * sigma^2) by (rewrite sqr2; ring). field. split; lra.
Qed.
Lemma Gaussian_prob_cont mu sigma x : sigma <> 0 -> continuous (Gaussian_prob mu sigma) x.
Proof.
  intros Hs. unfold Gaussian_prob. apply (ex_derive_continuous (V := R_NormedModule)). auto_derive.
  assert (0 < sqrt (2 * PI)) by (apply sqrt_lt_R0; pose proof PI_RGT_0; lra). repeat split; auto; lra.
Qed.
Lemma sc_increasing mu sigma x y : 0 < sigma -> x < y -> sc mu sigma x < sc mu sigma y.
Proof. intros Hs H. pose proof sqrt2_pos. unfold sc, Rdiv. apply Rmult_lt_compat_r; [now apply Rinv_0_lt_compat|]. apply Rmult_lt_compat_r; [now apply Rinv_0_lt_compat|]. lra. Qed.
Lemma prim_increasing mu sigma x y : 0 < sigma -> x < y -> prim mu sigma x < prim mu sigma y.
Proof. intros Hs H. unfold prim. pose proof (erf_increasing _ _ (sc_increasing mu sigma x y Hs H)). lra. Qed.
Lemma prim_range mu sigma x : - / 2 < prim mu sigma x < / 2.
Proof. unfold prim. pose proof (erf_range (sc mu sigma x)). lra. Qed.
Lemma sc_lim_p mu sigma : 0 < sigma -> is_lim (sc mu sigma) p_infty p_infty.
Proof.
  intros Hs. pose proof sqrt2_pos as S2. set (k := / (sqrt 2 * sigma)). assert (K : 0 < k) by (apply Rinv_0_lt_compat; now apply Rmult_lt_0_compat).
  apply (is_lim_ext (fun x => k * (x + - mu))); [intros x; unfold sc, k; field; split; lra|].
  replace p_infty with (Rbar_mult k p_infty) at 2 by (cbn; destruct (Rle_dec 0 k); [destruct (Rle_lt_or_eq_dec 0 k r); [reflexivity|exfalso; lra]|exfalso; lra]).
  apply is_lim_scal_l. apply (is_lim_plus _ _ _ p_infty (- mu)); [apply is_lim_id|apply is_lim_const|reflexivity].
Qed.
Lemma sc_lim_m mu sigma : 0 < sigma -> is_lim (sc mu sigma) m_infty m_infty.
Proof.
  intros Hs. pose proof sqrt2_pos as S2. set (k := / (sqrt 2 * sigma)). assert (K : 0 < k) by (apply Rinv_0_lt_compat; now apply Rmult_lt_0_compat).
  apply (is_lim_ext (fun x => k * (x + - mu))); [intros x; unfold sc, k; field; split; lra|].
  replace m_infty with (Rbar_mult k m_infty) at 2 by (cbn; destruct (Rle_dec 0 k); [destruct (Rle_lt_or_eq_dec 0 k r); [reflexivity|exfalso; lra]|exfalso; lra]).
  apply is_lim_scal_l. apply (is_lim_plus _ _ _ m_infty (- mu)); [apply is_lim_id|apply is_lim_const|reflexivity].
Qed.
Lemma prim_lim_p mu sigma : 0 < sigma -> is_lim (prim mu sigma) p_infty (/ 2).
Proof.
  intros Hs. apply (is_lim_ext (fun x => / 2 * erf (sc mu sigma x))); [intros; unfold prim; field|].
  replace (Finite (/ 2)) with (Rbar_mult (/ 2) 1) by (cbn; f_equal; ring). apply is_lim_scal_l.
  apply (is_lim_comp erf (sc mu sigma) p_infty 1 p_infty); [apply erf_lim_p|now apply sc_lim_p|exists 0; intros; discriminate].
Qed.
Lemma prim_lim_m mu sigma : 0 < sigma -> is_lim (prim mu sigma) m_infty (- / 2).
Proof.
  intros Hs. apply (is_lim_ext (fun x => / 2 * erf (sc mu sigma x))); [intros; unfold prim; field|].
  replace (Finite (- / 2)) with (Rbar_mult (/ 2) (-1)) by (cbn; f_equal; ring). apply is_lim_scal_l.
  apply (is_lim_comp erf (sc mu sigma) m_infty (-1) m_infty); [apply erf_lim_m|now apply sc_lim_m|exists 0; intros; discriminate].
Qed.
Lemma Gaussian_cdf_prim mu sigma x : sigma <> 0 -> Gaussian_cdf mu sigma x = / 2 + prim mu sigma x.
Proof.
  intros Hs. pose proof sqrt2_pos. unfold Gaussian_cdf, prim. replace ((mu - x) / sqrt 2 / sigma) with (- sc mu sigma x) by (unfold sc; field; split; lra). rewrite erf_odd. lra.
Qed.
Lemma Gaussian_prob_pos mu sigma x : 0 < sigma -> 0 < Gaussian_prob mu sigma x.
Proof.
  intros Hs. unfold Gaussian_prob. assert (0 < sqrt (2 * PI)) by (apply sqrt_lt_R0; pose proof PI_RGT_0; lra).
  apply Rdiv_lt_0_compat; auto. apply Rdiv_lt_0_compat; auto. apply exp_pos.
Qed.
Lemma prim_int mu sigma x y : sigma <> 0 -> is_RInt (Gaussian_prob mu sigma) x y (prim mu sigma y - prim mu sigma x).
Proof. intros Hs. apply line_density; intros; [now apply prim_derive|now apply Gaussian_prob_cont]. Qed.
Lemma lim_shift (f : R -> R) (c : R) (p : Rbar) (l l' : R) : is_lim f p l -> c + l = l' -> is_lim (fun x => c + f x) p l'.
Proof. intros H <-. apply (is_lim_plus _ _ _ c l); [apply is_lim_const|exact H|reflexivity]. Qed.
Lemma Gaussian_density mu sigma : 0 < sigma -> density_cdf (Gaussian_prob mu sigma) (Gaussian_cdf mu sigma).
Proof.
  intros Hs. assert (Hn : sigma <> 0) by lra. repeat split.
  - intros x. left. now apply Gaussian_prob_pos.
  - intros x y. rewrite !Gaussian_cdf_prim by auto. eapply is_RInt_val; [now apply prim_int|ring].
  - apply (is_lim_ext (fun x => / 2 + prim mu sigma x)); [intros; now rewrite Gaussian_cdf_prim|]. eapply lim_shift; [now apply prim_lim_m|lra].
  - apply (is_lim_ext (fun x => / 2 + prim mu sigma x)); [intros; now rewrite Gaussian_cdf_prim|]. eapply lim_shift; [now apply prim_lim_p|lra].
Qed.
Lemma Gaussian_ln mu sigma x : 0 < sigma -> Gaussian_ln_prob mu sigma x = ln (Gaussian_prob mu sigma x).
Proof.
  intros Hs. pose proof PI_RGT_0 as P. assert (S0 : 0 < sqrt (2 * PI)) by (apply sqrt_lt_R0; lra).
  assert (E : exp (Gaussian_ln_prob mu sigma x) = Gaussian_prob mu sigma x); [|rewrite <- E; symmetry; apply ln_exp].
  unfold Gaussian_ln_prob, Gaussian_prob.
  replace (2 * PI * sigma^2) with ((sqrt (2 * PI) * sigma) * (sqrt (2 * PI) * sigma)).
  2:{ replace (sqrt (2 * PI) * sigma * (sqrt (2 * PI) * sigma)) with ((sqrt (2 * PI) * sqrt (2 * PI)) * sigma^2) by ring. rewrite sqrt_sqrt by lra. ring. }
  assert (Q : 0 < sqrt (2 * PI) * sigma) by (now apply Rmult_lt_0_compat). rewrite !ln_mult by auto.
  replace (- (1/2) * ((mu - x)^2 / sigma^2 + (ln (sqrt (2 * PI)) + ln sigma + (ln (sqrt (2 * PI)) + ln sigma))))
    with (- (mu - x)^2 / (2 * sigma^2) + - (ln (sqrt (2 * PI)) + ln sigma)) by (field; lra).
  rewrite exp_plus, exp_Ropp, exp_plus, !exp_ln by auto. field. lra.
Qed.

Section Inv.
Variable erfinv : R -> R.
Hypothesis erfinv_spec : forall y, -1 < y < 1 -> erf (erfinv y) = y.
Lemma erfinv_erf x : erfinv (erf x) = x.
Proof. apply erf_inj. apply erfinv_spec, erf_range. Qed.
Lemma prim_back mu sigma z : 0 < sigma -> prim mu sigma (z * sqrt 2 * sigma + mu) = erf z / 2.
Proof. intros Hs. pose proof sqrt2_pos. unfold prim, sc. f_equal. f_equal. field. split; lra. Qed.
Lemma Gaussian_quantile mu sigma u : 0 < sigma -> 0 < u < 1 -> exists x, Gaussian_rescale erfinv mu sigma u = Finite x /\ Gaussian_cdf mu sigma x = u.
Proof.
  intros Hs Hu. unfold Gaussian_rescale. destruct (Req_EM_T u 0); [lra|]. destruct (Req_EM_T u 1); [lra|]. eexists. split; [reflexivity|].
  rewrite Gaussian_cdf_prim by lra. rewrite Rplus_comm with (r1 := mu). rewrite prim_back, erfinv_spec by lra. lra.
Qed.

(** *** TruncatedGaussian *)
Lemma norm_prim mu sigma mn mx : Trunc_normalisation mu sigma mn (Finite mx) = prim mu sigma mx - prim mu sigma mn.
Proof. unfold Trunc_normalisation, prim, sc. cbn [scaled erfb]. lra. Qed.
Lemma norm_prim_inf mu sigma mn : Trunc_normalisation mu sigma mn p_infty = / 2 - prim mu sigma mn.
Proof. unfold Trunc_normalisation, prim, sc. cbn [scaled erfb]. lra. Qed.
Lemma below_fin x mx : below x (Finite mx) = if Rle_dec x mx then true else false.
Proof. reflexivity. Qed.
Lemma Trunc_prob_eq mu sigma mn mx x : Trunc_prob mu sigma mn mx x = Gaussian_prob mu sigma x / Trunc_normalisation mu sigma mn mx * (if Rle_dec mn x then if below x mx then 1 else 0 else 0).
Proof. reflexivity. Qed.
Lemma Trunc_cdf_eq mu sigma mn mx x : Trunc_cdf mu sigma mn mx x =
  if Rlt_dec x mn then 0 else if below x mx then (prim mu sigma x - prim mu sigma mn) / Trunc_normalisation mu sigma mn mx else 1.
Proof.
  unfold Trunc_cdf. destruct (Rlt_dec x mn); auto. destruct (below x mx); auto. f_equal. unfold prim, sc. lra.
Qed.
Lemma scaled_derive mu sigma N x : sigma <> 0 -> is_derive (fun x => prim mu sigma x / N) x (Gaussian_prob mu sigma x / N).
Proof.
  intros Hs. apply (is_derive_ext (fun x => / N * prim mu sigma x)); [intros; unfold Rdiv; match goal with |- ?a = ?b => change (@eq R a b) end; ring|].
  replace (Gaussian_prob mu sigma x / N) with (/ N * Gaussian_prob mu sigma x) by (unfold Rdiv; ring). apply (is_derive_scal (prim mu sigma)). now apply prim_derive.
Qed.
Lemma scaled_cont mu sigma N x : sigma <> 0 -> continuous (fun x => Gaussian_prob mu sigma x / N) x.
Proof.
  intros Hs. apply (continuous_ext (fun x => scal (/ N) (Gaussian_prob mu sigma x))); [intros; unfold scal; cbn; unfold mult; cbn; unfold Rdiv; ring|].
  apply (continuous_scal_r (/ N) (Gaussian_prob mu sigma)). now apply Gaussian_prob_cont.
Qed.
Lemma Trunc_bounded mu sigma mn mx : 0 < sigma -> mn < mx ->
  bounded_prior (Trunc_prob mu sigma mn mx) (Trunc_cdf mu sigma mn mx) (Trunc_rescale erfinv mu sigma mn mx) mn mx.
Proof.
  intros Hs Hm. assert (Hn : sigma <> 0) by lra. pose proof (prim_increasing mu sigma mn mx Hs Hm) as Hp.
  assert (HN : 0 < Trunc_normalisation mu sigma mn mx) by (rewrite norm_prim; lra). set (N := Trunc_normalisation mu sigma mn mx) in *.
  assert (Back : forall x, erfinv (2 * prim mu sigma x) * sqrt 2 * sigma + mu = x).
  { intros x. replace (2 * prim mu sigma x) with (erf (sc mu sigma x)) by (unfold prim; field). rewrite erfinv_erf. unfold sc. pose proof sqrt2_pos. field. split; lra. }
  assert (Arg : forall u, 2 * u * N + erf ((mn - mu) / sqrt 2 / sigma) = 2 * (prim mu sigma mn + u * N)) by (intros u; unfold prim, sc; field).
  assert (Q : forall u, 0 <= u <= 1 -> Trunc_rescale erfinv mu sigma mn mx u = Finite (erfinv (2 * (prim mu sigma mn + u * N)) * sqrt 2 * sigma + mu)
              /\ -1 < 2 * (prim mu sigma mn + u * N) < 1).
  { intros u Hu. assert (B : -1 < 2 * (prim mu sigma mn + u * N) < 1).
    { pose proof (prim_range mu sigma mn). pose proof (prim_range mu sigma mx). assert (E : N = prim mu sigma mx - prim mu sigma mn) by apply norm_prim. nra. }
    split; auto. unfold Trunc_rescale. fold N. rewrite Arg. destruct (Req_EM_T _ 1); [lra|reflexivity]. }
  apply bounded_prior_intro; try lra.
  - intros x. rewrite Trunc_prob_eq. pose proof (Gaussian_prob_pos mu sigma x Hs). apply Rmult_le_pos; [left; now apply Rdiv_lt_0_compat|]. destruct (Rle_dec mn x); [|lra]. destruct (below x mx); lra.
  - apply (interval_density (Trunc_prob mu sigma mn mx) (fun x => Gaussian_prob mu sigma x / N) (fun x => prim mu sigma x / N) mn mx); try lra.
    + intros x _. now apply scaled_derive.
    + intros x _. now apply scaled_cont.
    + intros x Hx. rewrite Trunc_prob_eq, below_fin. destruct (Rle_dec mn x); [|lra]. destruct (Rle_dec x mx); [|lra]. fold N. ring.
    + intros x Hx. rewrite Trunc_prob_eq, below_fin. destruct (Rle_dec mn x); [|ring]. destruct (Rle_dec x mx); [lra|ring].
    + intros x Hx. rewrite Trunc_cdf_eq. destruct (Rlt_dec x mn); auto. assert (x = mn) by lra. subst. rewrite below_fin. destruct (Rle_dec mn mx); [|lra]. unfold Rdiv. rewrite Rminus_eq_0. ring.
    + intros x Hx. rewrite Trunc_cdf_eq, below_fin. destruct (Rlt_dec x mn); [lra|]. destruct (Rle_dec x mx); [|lra]. fold N. unfold Rdiv. ring.
    + intros x Hx. rewrite Trunc_cdf_eq, below_fin. destruct (Rlt_dec x mn); [lra|]. fold N. assert (E : N = prim mu sigma mx - prim mu sigma mn) by apply norm_prim.
      destruct (Rle_dec x mx).
      * assert (x = mx) by lra. subst x. unfold Rdiv. ring.
      * rewrite E. field. lra.
  - intros x Hx. rewrite Trunc_prob_eq, below_fin. destruct (Rle_dec mn x); [|ring]. destruct (Rle_dec x mx); [lra|ring].
  - intros x Hx. rewrite Trunc_cdf_eq. destruct (Rlt_dec x mn); auto. assert (x = mn) by lra. subst. rewrite below_fin. destruct (Rle_dec mn mx); [|lra]. unfold Rdiv. rewrite Rminus_eq_0. ring.
  - intros x Hx. rewrite Trunc_cdf_eq, below_fin. destruct (Rlt_dec x mn); [lra|]. destruct (Rle_dec x mx); auto. assert (x = mx) by lra. subst x. rewrite <- norm_prim. fold N. field. lra.
  - intros u Hu. destruct (Q u) as [E B]; [lra|]. eexists. split; [exact E|]. set (y := prim mu sigma mn + u * N) in *. set (x := erfinv (2 * y) * sqrt 2 * sigma + mu).
    assert (Px : prim mu sigma x = y) by (unfold x; rewrite prim_back, erfinv_spec by auto; lra).
    assert (EN : N = prim mu sigma mx - prim mu sigma mn) by apply norm_prim.
    assert (L : mn < x).
    { destruct (Rtotal_order mn x) as [H|[H|H]]; auto; exfalso; [assert (Px2 : prim mu sigma mn = y) by (rewrite H; exact Px); unfold y in Px2; nra|]. apply (prim_increasing mu sigma) in H; auto. unfold y in Px. nra. }
    assert (U : x < mx).
    { destruct (Rtotal_order x mx) as [H|[H|H]]; auto; exfalso; [assert (Px2 : prim mu sigma mx = y) by (rewrite <- H; exact Px); unfold y in Px2; nra|]. apply (prim_increasing mu sigma) in H; auto. unfold y in Px. nra. }
    rewrite Trunc_cdf_eq, below_fin. destruct (Rlt_dec x mn); [lra|]. destruct (Rle_dec x mx); [|lra]. rewrite Px. fold N. unfold y. field. lra.
  - destruct (Q 0) as [E _]; [lra|]. rewrite E. f_equal. rewrite Rmult_0_l, Rplus_0_r. apply Back.
  - destruct (Q 1) as [E _]; [lra|]. rewrite E. f_equal. rewrite Rmult_1_l. assert (EN : N = prim mu sigma mx - prim mu sigma mn) by apply norm_prim. rewrite EN.
    replace (prim mu sigma mn + (prim mu sigma mx - prim mu sigma mn)) with (prim mu sigma mx) by ring. apply Back.
Qed.
(** with an infinite maximum *)
Lemma Trunc_inf_density mu sigma mn : 0 < sigma -> density_cdf (Trunc_prob mu sigma mn p_infty) (Trunc_cdf mu sigma mn p_infty).
Proof.
  intros Hs. assert (Hn : sigma <> 0) by lra. pose proof (prim_range mu sigma mn) as Hp.
  assert (HN : 0 < Trunc_normalisation mu sigma mn p_infty) by (rewrite norm_prim_inf; lra). set (N := Trunc_normalisation mu sigma mn p_infty) in *.
  split; [|split; [|split]].
  - intros x. rewrite Trunc_prob_eq. pose proof (Gaussian_prob_pos mu sigma x Hs). apply Rmult_le_pos; [left; now apply Rdiv_lt_0_compat|]. destruct (Rle_dec mn x); cbn; lra.
  - apply (halfline_density (Trunc_prob mu sigma mn p_infty) (fun x => Gaussian_prob mu sigma x / N) (fun x => prim mu sigma x / N) mn).
    + intros x _. now apply scaled_derive.
    + intros x _. now apply scaled_cont.
    + intros x Hx. rewrite Trunc_prob_eq. destruct (Rle_dec mn x); [|lra]. cbn [below]. fold N. ring.
    + intros x Hx. rewrite Trunc_prob_eq. destruct (Rle_dec mn x); [lra|ring].
    + intros x Hx. rewrite Trunc_cdf_eq. destruct (Rlt_dec x mn); auto. assert (x = mn) by lra. subst. cbn [below]. unfold Rdiv. rewrite Rminus_eq_0. ring.
    + intros x Hx. rewrite Trunc_cdf_eq. destruct (Rlt_dec x mn); [lra|]. cbn [below]. fold N. unfold Rdiv. ring.
  - apply (lim_m_const _ (mn - 1)). intros x Hx. rewrite Trunc_cdf_eq. destruct (Rlt_dec x mn); auto. lra.
  - apply (is_lim_ext_loc (fun x => / N * (- prim mu sigma mn + prim mu sigma x))).
    + exists mn. intros x Hx. rewrite Trunc_cdf_eq. destruct (Rlt_dec x mn); [lra|]. cbn [below]. fold N. unfold Rdiv. ring.
    + replace (Finite 1) with (Rbar_mult (/ N) N) by (cbn; f_equal; field; lra). apply is_lim_scal_l. eapply lim_shift; [now apply prim_lim_p|]. unfold N. rewrite norm_prim_inf. ring.
Qed.
Lemma Trunc_inf_quantile mu sigma mn u : 0 < sigma -> 0 <= u < 1 -> exists x, Trunc_rescale erfinv mu sigma mn p_infty u = Finite x /\ mn <= x /\ Trunc_cdf mu sigma mn p_infty x = u.
Proof.
  intros Hs Hu. assert (Hn : sigma <> 0) by lra. pose proof (prim_range mu sigma mn) as Hp.
  assert (HN : 0 < Trunc_normalisation mu sigma mn p_infty) by (rewrite norm_prim_inf; lra). set (N := Trunc_normalisation mu sigma mn p_infty) in *.
  assert (EN : N = / 2 - prim mu sigma mn) by apply norm_prim_inf.
  unfold Trunc_rescale. fold N. replace (2 * u * N + erf ((mn - mu) / sqrt 2 / sigma)) with (2 * (prim mu sigma mn + u * N)) by (unfold prim, sc; field).
  set (y := prim mu sigma mn + u * N). assert (B : -1 < 2 * y < 1) by (unfold y; nra). destruct (Req_EM_T (2 * y) 1); [lra|]. eexists. split; [reflexivity|].
  set (x := erfinv (2 * y) * sqrt 2 * sigma + mu). assert (Px : prim mu sigma x = y) by (unfold x; rewrite prim_back, erfinv_spec by auto; lra).
  assert (L : mn <= x).
  { destruct (Rle_or_lt mn x) as [H|H]; auto. exfalso. apply (prim_increasing mu sigma) in H; auto. unfold y in Px. nra. }
  split; auto. rewrite Trunc_cdf_eq. destruct (Rlt_dec x mn); [lra|]. cbn [below]. rewrite Px. fold N. unfold y. field. lra.
Qed.

(** *** LogNormal *)
Lemma LogNormal_prob_gauss mu sigma x : 0 < sigma -> 0 < x -> LogNormal_prob mu sigma x = Gaussian_prob mu sigma (ln x) / x.
Proof.
  intros Hs Hx. unfold LogNormal_prob, Gaussian_prob. destruct (Rle_dec x 0); [lra|].
  assert (0 < sqrt (2 * PI)) by (apply sqrt_lt_R0; pose proof PI_RGT_0; lra).
  replace (- (ln x - mu)^2 / sigma^2 / 2) with (- (mu - ln x)^2 / (2 * sigma^2)) by (field; lra). field. repeat split; lra.
Qed.
Lemma LogNormal_cdf_prim mu sigma x : 0 < sigma -> 0 < x -> LogNormal_cdf mu sigma x = / 2 + prim mu sigma (ln x).
Proof.
  intros Hs Hx. unfold LogNormal_cdf, prim. destruct (Rle_dec x 0); [lra|]. pose proof sqrt2_pos. replace ((ln x - mu) / sigma / sqrt 2) with (sc mu sigma (ln x)) by (unfold sc; field; split; lra). lra.
Qed.
Lemma LogNormal_derive mu sigma x : 0 < sigma -> 0 < x -> is_derive (LogNormal_cdf mu sigma) x (LogNormal_prob mu sigma x).
Proof.
  intros Hs Hx. apply (is_derive_ext_loc (fun x => / 2 + prim mu sigma (ln x))).
  - exists (mkposreal x Hx). intros y Hy. unfold ball in Hy; cbn in Hy; unfold AbsRing_ball, abs, minus, plus, opp in Hy; cbn in Hy. apply Rabs_def2 in Hy. symmetry. apply LogNormal_cdf_prim; lra.
  - rewrite LogNormal_prob_gauss by auto. replace (Gaussian_prob mu sigma (ln x) / x) with (0 + (/ x * Gaussian_prob mu sigma (ln x))) by (unfold Rdiv; ring).
    apply (is_derive_plus (fun _ => / 2) (fun x => prim mu sigma (ln x))); [apply (is_derive_const (/ 2))|].
    apply (is_derive_comp (prim mu sigma) ln x); [apply prim_derive; lra|]. apply is_derive_Reals, derivable_pt_lim_ln. auto.
Qed.
Lemma LogNormal_bound mu sigma x : 0 < sigma -> 0 < x -> LogNormal_prob mu sigma x <= exp (2 * sigma^2 - 2 * mu) / sqrt (2 * PI) / sigma * x.
Proof.
  intros Hs Hx. assert (S0 : 0 < sqrt (2 * PI)) by (apply sqrt_lt_R0; pose proof PI_RGT_0; lra). rewrite LogNormal_prob_gauss by auto. unfold Gaussian_prob.
  set (z := ln x - mu). assert (Ex : x = exp (z + mu)) by (unfold z; replace (ln x - mu + mu) with (ln x) by ring; now rewrite exp_ln).
  apply Rle_trans with (exp (z + 2 * sigma^2 - mu) / sqrt (2 * PI) / sigma).
  - replace (exp (- (mu - ln x)^2 / (2 * sigma^2)) / sqrt (2 * PI) / sigma / x) with (exp (- (mu - ln x)^2 / (2 * sigma^2)) * / x / sqrt (2 * PI) / sigma) by (field; repeat split; lra).
    rewrite Ex at 2. rewrite <- exp_Ropp, <- exp_plus. unfold Rdiv. apply Rmult_le_compat_r; [left; now apply Rinv_0_lt_compat|]. apply Rmult_le_compat_r; [left; now apply Rinv_0_lt_compat|].
    apply exp_le_compat. replace (- (mu - ln x)^2) with (- z^2) by (unfold z; ring).
    assert (H : 0 <= (z + 2 * sigma^2)^2 / (2 * sigma^2)).
    { unfold Rdiv. apply Rmult_le_pos; [rewrite <- Rsqr_pow2; apply Rle_0_sqr|left; apply Rinv_0_lt_compat; nra]. }
    replace ((z + 2 * sigma^2)^2 / (2 * sigma^2)) with (z^2 / (2 * sigma^2) + 2 * z + 2 * sigma^2) in H by (field; lra). unfold Rdiv in *. lra.
  - right. rewrite Ex. replace (z + 2 * sigma^2 - mu) with (2 * sigma^2 - 2 * mu + (z + mu)) by ring. rewrite exp_plus. field. split; lra.
Qed.
Lemma LogNormal_nonneg mu sigma x : 0 < sigma -> 0 <= LogNormal_prob mu sigma x.
Proof.
  intros Hs. unfold LogNormal_prob. destruct (Rle_dec x 0); [lra|]. assert (0 < sqrt (2 * PI)) by (apply sqrt_lt_R0; pose proof PI_RGT_0; lra).
  left. repeat (apply Rdiv_lt_0_compat; auto); try lra. apply exp_pos.
Qed.
Lemma LogNormal_cont mu sigma x : 0 < sigma -> continuous (LogNormal_prob mu sigma) x.
Proof.
  intros Hs. destruct (Rtotal_order x 0) as [H|[H|H]].
  - apply (continuous_ext_loc _ (fun _ => 0)); [|apply continuous_const].
    assert (Hx : 0 < - x) by lra. exists (mkposreal (- x) Hx). intros y Hy. unfold ball in Hy; cbn in Hy; unfold AbsRing_ball, abs, minus, plus, opp in Hy; cbn in Hy. apply Rabs_def2 in Hy.
    unfold LogNormal_prob. destruct (Rle_dec y 0); [reflexivity|lra].
  - subst x. set (K := exp (2 * sigma^2 - 2 * mu) / sqrt (2 * PI) / sigma).
    assert (K0 : 0 < K) by (unfold K; repeat apply Rdiv_lt_0_compat; auto; [apply exp_pos|apply sqrt_lt_R0; pose proof PI_RGT_0; lra]).
    assert (Z : LogNormal_prob mu sigma 0 = 0) by (unfold LogNormal_prob; destruct (Rle_dec 0 0); [reflexivity|lra]).
    unfold continuous. rewrite Z. intros P [eps HP]. assert (D : 0 < eps / K) by (apply Rdiv_lt_0_compat; [apply cond_pos|auto]). exists (mkposreal _ D). intros y Hy. apply HP.
    unfold ball in *; cbn in *; unfold AbsRing_ball, abs, minus, plus, opp in *; cbn in *. rewrite Ropp_0, Rplus_0_r in *.
    pose proof (LogNormal_nonneg mu sigma y Hs) as N0. rewrite Rabs_right by lra.
    destruct (Rle_or_lt y 0) as [L|L].
    + unfold LogNormal_prob. destruct (Rle_dec y 0); [apply cond_pos|lra].
    + apply Rle_lt_trans with (K * y); [now apply LogNormal_bound|]. rewrite Rabs_right in Hy by lra. apply (Rmult_lt_compat_l K) in Hy; auto. replace (K * (eps / K)) with (pos eps) in Hy by (field; lra). exact Hy.
  - apply (continuous_ext_loc _ (fun x => exp (- (ln x - mu)^2 / sigma^2 / 2) / sqrt (2 * PI) / x / sigma)).
    + exists (mkposreal x H). intros y Hy. unfold ball in Hy; cbn in Hy; unfold AbsRing_ball, abs, minus, plus, opp in Hy; cbn in Hy. apply Rabs_def2 in Hy.
      unfold LogNormal_prob. destruct (Rle_dec y 0); [lra|reflexivity].
    + apply (ex_derive_continuous (V := R_NormedModule)). assert (0 < sqrt (2 * PI)) by (apply sqrt_lt_R0; pose proof PI_RGT_0; lra). auto_derive. repeat split; lra.
Qed.
(** the distribution function is continuous at the left end *)
Lemma ln_lim_0 : filterlim ln (at_right 0) (Rbar_locally m_infty).
Proof. apply is_lim_ln_0. Qed.
Lemma LogNormal_cdf_right0 mu sigma : 0 < sigma -> filterlim (LogNormal_cdf mu sigma) (at_right 0) (locally 0).
Proof.
  intros Hs. apply (filterlim_ext_loc (fun x => / 2 + prim mu sigma (ln x))).
  - exists (mkposreal 1 Rlt_0_1). intros y _ Hy. symmetry. now apply LogNormal_cdf_prim.
  - apply (filterlim_comp _ _ _ ln (fun y => / 2 + prim mu sigma y) (at_right 0) (Rbar_locally m_infty) (locally 0)); [apply ln_lim_0|].
    apply (lim_shift (prim mu sigma) (/ 2) m_infty (- / 2) 0); [now apply prim_lim_m|lra].
Qed.
Lemma LogNormal_int mu sigma a y : 0 < sigma -> 0 < a <= y -> is_RInt (LogNormal_prob mu sigma) a y (LogNormal_cdf mu sigma y - LogNormal_cdf mu sigma a).
Proof.
  intros Hs Ha. apply (is_RInt_derive (LogNormal_cdf mu sigma)); intros x Hx; rewrite Rmin_left, Rmax_right in Hx by lra; [apply LogNormal_derive; lra|now apply LogNormal_cont].
Qed.
Lemma LogNormal_int0 mu sigma y : 0 < sigma -> 0 < y -> is_RInt (LogNormal_prob mu sigma) 0 y (LogNormal_cdf mu sigma y).
Proof.
  intros Hs Hy. set (p := LogNormal_prob mu sigma). set (F := LogNormal_cdf mu sigma).
  assert (I : forall a b, ex_RInt p a b) by (intros; apply (ex_RInt_continuous (V := R_CompleteNormedModule)); intros; now apply LogNormal_cont).
  assert (E : forall a, 0 < a <= y -> RInt p a y = F y - F a) by (intros a Ha; apply is_RInt_unique; now apply LogNormal_int).
  assert (L1 : filterlim (fun a => RInt p a y) (at_right 0) (locally (RInt p 0 y))).
  { apply (filterlim_filter_le_1 (F := locally 0) (G := at_right 0) (fun a => RInt p a y)); [apply filter_le_within|].
    apply (ex_derive_continuous (V := R_NormedModule) (fun a => RInt p a y) 0). exists (opp (p 0)). apply (is_derive_RInt' p (fun a => RInt p a y) 0 y).
    - apply filter_forall. intros z. apply (RInt_correct (V := R_CompleteNormedModule)). apply I.
    - now apply LogNormal_cont. }
  assert (L2 : filterlim (fun a => RInt p a y) (at_right 0) (locally (F y))).
  { apply (filterlim_ext_loc (fun a => F y + - F a)).
    - exists (mkposreal y Hy). intros a Ha Ha0. unfold ball in Ha; cbn in Ha; unfold AbsRing_ball, abs, minus, plus, opp in Ha; cbn in Ha. apply Rabs_def2 in Ha. rewrite E by lra. reflexivity.
    - assert (EF : plus (F y) (opp 0) = F y) by (unfold plus, opp; cbn; ring). cut (filterlim (fun a => F y + - F a) (at_right 0) (locally (plus (F y) (opp 0)))); [intros X; now rewrite EF in X|].
      apply (filterlim_comp_2 (fun _ => F y) (fun a => opp (F a)) plus (F := at_right 0) (G := locally (F y)) (H := locally (opp 0))); [apply filterlim_const| |apply (filterlim_plus (V := R_NormedModule))].
      apply (filterlim_comp _ _ _ F opp (at_right 0) (locally 0) (locally (opp 0))); [now apply LogNormal_cdf_right0|apply (filterlim_opp (V := R_NormedModule))]. }
  assert (U : RInt p 0 y = F y).
  { apply (filterlim_locally_unique (F := at_right 0) (fun a => RInt p a y)); auto. }
  rewrite <- U. apply (RInt_correct (V := R_CompleteNormedModule)). apply I.
Qed.
Lemma LogNormal_density mu sigma : 0 < sigma -> density_cdf (LogNormal_prob mu sigma) (LogNormal_cdf mu sigma).
Proof.
  intros Hs. assert (Z : forall x, x <= 0 -> LogNormal_cdf mu sigma x = 0) by (intros x Hx; unfold LogNormal_cdf; destruct (Rle_dec x 0); [reflexivity|lra]).
  split; [|split; [|split]].
  - intros x. now apply LogNormal_nonneg.
  - apply (from_base _ _ 0). intros x. destruct (Rle_or_lt x 0) as [H|H].
    + rewrite Z by auto. apply is_RInt_zero_ext. intros z Hz. rewrite Rmax_left in Hz by auto. unfold LogNormal_prob. destruct (Rle_dec z 0); [reflexivity|lra].
    + now apply LogNormal_int0.
  - apply (lim_m_const _ 0). exact Z.
  - apply (is_lim_ext_loc (fun x => / 2 + prim mu sigma (ln x))).
    + exists 0. intros x Hx. symmetry. now apply LogNormal_cdf_prim.
    + apply (lim_shift (fun x => prim mu sigma (ln x)) (/ 2) p_infty (/ 2) 1); [|lra].
      apply (is_lim_comp (prim mu sigma) ln p_infty (/ 2) p_infty); [now apply prim_lim_p|apply is_lim_ln_p|exists 0; intros; discriminate].
Qed.
Lemma LogNormal_quantile mu sigma u : 0 < sigma -> 0 <= u < 1 -> exists x, LogNormal_rescale erfinv mu sigma u = Finite x /\ 0 <= x /\ LogNormal_cdf mu sigma x = u.
Proof.
  intros Hs Hu. unfold LogNormal_rescale. destruct (Req_EM_T u 0) as [->|]; [exists 0; split; [reflexivity|]; split; [lra|]; unfold LogNormal_cdf; destruct (Rle_dec 0 0); [reflexivity|lra]|].
  destruct (Req_EM_T u 1); [lra|]. eexists. split; [reflexivity|]. pose proof (exp_pos (mu + sqrt (2 * sigma^2) * erfinv (2 * u - 1))) as E. split; [lra|].
  rewrite LogNormal_cdf_prim, ln_exp by auto. replace (mu + sqrt (2 * sigma^2) * erfinv (2 * u - 1)) with (erfinv (2 * u - 1) * sqrt 2 * sigma + mu).
  - rewrite prim_back, erfinv_spec by lra. lra.
  - rewrite sqrt_mult_alt by lra. rewrite <- Rsqr_pow2, sqrt_Rsqr by lra. ring.
Qed.
Lemma LogNormal_ln mu sigma x : 0 < sigma -> LogNormal_ln_prob mu sigma x = generic_ln_prob (LogNormal_prob mu sigma) x.
Proof.
  intros Hs. unfold LogNormal_ln_prob, generic_ln_prob, LogNormal_prob. destruct (Rle_dec x 0); [destruct (Rlt_dec 0 0); [lra|reflexivity]|].
  assert (S0 : 0 < sqrt (2 * PI)) by (apply sqrt_lt_R0; pose proof PI_RGT_0; lra). assert (X : 0 < x) by lra. pose proof (exp_pos (- (ln x - mu)^2 / sigma^2 / 2)) as E.
  destruct (Rlt_dec 0 _) as [P|P]; [|exfalso; apply P; repeat (apply Rdiv_lt_0_compat; auto)]. f_equal.
  unfold Rdiv at 3 4 5. rewrite !ln_mult, !ln_Rinv, ln_exp; auto; repeat apply Rmult_lt_0_compat; auto; try (apply Rinv_0_lt_compat; auto). lra.
Qed.
End Inv.
