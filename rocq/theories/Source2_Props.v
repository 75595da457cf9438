(** Properties C195, C196: burst source models. *)
From Coq Require Import String Ascii ZArith Lia Reals Lra List Bool.
From Coquelicot Require Import Coquelicot.
From Verif Require Import PyDict PyReal GaussInt Source_Model.
Import ListNotations.
Open Scope list_scope.
Open Scope R_scope.

(** ** C195: the sine-Gaussian *)
Section SineGaussian.
Variables (hrss Q f0 : R).
Hypothesis Q_pos : 0 < Q.
Hypothesis f0_pos : 0 < f0.
Definition wave (f : R) : option (R * C) := sinegaussian hrss Q f0 f.
Definition sg_s : R := Q / f0.
Definition near (f : R) : R := exp (- (sg_s * (f - f0)) ^ 2 / 2).
Definition far (f : R) : R := exp (- (sg_s * (f + f0)) ^ 2 / 2).
(** the two amplitudes; [e] is +1 or -1 times exp(-Q^2) *)
Definition amp (e : R) : R := sqrt (sg_s / (2 * sqrt PI * (1 + e))).
Lemma sg_s_pos : 0 < sg_s.
Proof. unfold sg_s. apply Rdiv_lt_0_compat; assumption. Qed.
Lemma exp_small : 0 < exp (- Q ^ 2) < 1.
Proof. split; [apply exp_pos|]. rewrite <- exp_0. apply exp_increasing. nra. Qed.
Lemma root_pi_pos : 0 < sqrt PI.
Proof. apply sqrt_lt_R0, PI_RGT_0. Qed.
Lemma root_pi_sq : sqrt PI * sqrt PI = PI.
Proof. apply sqrt_sqrt. left. apply PI_RGT_0. Qed.
Lemma root2_pos : 0 < sqrt 2.
Proof. apply sqrt_lt_R0. lra. Qed.
Lemma root2_sq : sqrt 2 * sqrt 2 = 2.
Proof. apply sqrt_sqrt. lra. Qed.
Lemma amp_value e : 0 < 1 + e -> / sqrt (Q / (4 * sqrt PI * f0) * (1 + e)) * (sqrt PI * (Q / (sqrt 2 * PI * f0)) / 2) = amp e.
Proof.
  intros He. pose proof PI_RGT_0 as P. pose proof root_pi_pos as RP. pose proof root_pi_sq as RS. pose proof root2_pos as TP. pose proof root2_sq as TS.
  assert (T : 0 < Q / (4 * sqrt PI * f0) * (1 + e)) by (apply Rmult_lt_0_compat; [apply Rdiv_lt_0_compat; [assumption|nra]|assumption]).
  apply Rsqr_inj.
  - apply Rmult_le_pos; [left; apply Rinv_0_lt_compat, sqrt_lt_R0; exact T|]. left.
    assert (0 < Q / (sqrt 2 * PI * f0)) by (apply Rdiv_lt_0_compat; [assumption|]; apply Rmult_lt_0_compat; [apply Rmult_lt_0_compat|]; assumption).
    apply Rdiv_lt_0_compat; [apply Rmult_lt_0_compat; assumption|lra].
  - apply sqrt_pos.
  - unfold amp. rewrite Rsqr_mult, Rsqr_inv' , Rsqr_sqrt by lra. rewrite Rsqr_sqrt.
    2: { left. apply Rdiv_lt_0_compat; [apply sg_s_pos|]. repeat apply Rmult_lt_0_compat; lra. }
    unfold sg_s, Rsqr. replace (sqrt PI * (Q / (sqrt 2 * PI * f0)) / 2 * (sqrt PI * (Q / (sqrt 2 * PI * f0)) / 2)) with ((sqrt PI * sqrt PI) * Q ^ 2 / ((sqrt 2 * sqrt 2) * PI ^ 2 * f0 ^ 2 * 4)) by (field; lra).
    rewrite RS, TS. set (r := sqrt PI) in *. clearbody r. rewrite <- RS. field. lra.
Qed.
Lemma wave_value f : wave f = Some (hrss * amp (exp (- Q ^ 2)) * (near f + far f), (0, - (hrss * amp (- exp (- Q ^ 2)) * (near f - far f)))).
Proof.
  pose proof PI_RGT_0 as P. pose proof root_pi_pos as RP. pose proof root2_pos as TP. pose proof root2_sq as TS. pose proof exp_small as ES. unfold wave, sinegaussian.
  rewrite pdiv_some by (apply Rgt_not_eq; apply Rmult_lt_0_compat; [apply Rmult_lt_0_compat|]; assumption). cbn [bindo].
  rewrite pdiv_some by (apply Rgt_not_eq; repeat apply Rmult_lt_0_compat; try assumption; lra). cbn [bindo]. cbv zeta.
  assert (T : 0 < Q / (4 * sqrt PI * f0)) by (apply Rdiv_lt_0_compat; [assumption|nra]).
  rewrite psqrt_some by (apply Rmult_le_pos; lra). cbn [bindo]. rewrite pdiv_some by (apply Rgt_not_eq, sqrt_lt_R0, Rmult_lt_0_compat; lra). cbn [bindo].
  rewrite psqrt_some by (apply Rmult_le_pos; lra). cbn [bindo]. rewrite pdiv_some by (apply Rgt_not_eq, sqrt_lt_R0, Rmult_lt_0_compat; lra). cbn [bindo].
  assert (EX : forall x, exp (- x ^ 2 * PI ^ 2 * (Q / (sqrt 2 * PI * f0)) ^ 2) = exp (- (sg_s * x) ^ 2 / 2)).
  { intros x. f_equal. unfold sg_s. replace ((Q / (sqrt 2 * PI * f0)) ^ 2) with (Q ^ 2 / ((sqrt 2 * sqrt 2) * PI ^ 2 * f0 ^ 2)) by (field; lra). rewrite TS. field. lra. }
  rewrite !EX. fold (near f) (far f). f_equal. pose proof (amp_value (exp (- Q ^ 2)) ltac:(lra)) as A1. pose proof (amp_value (- exp (- Q ^ 2)) ltac:(lra)) as A2.
  replace (1 - exp (- Q ^ 2)) with (1 + - exp (- Q ^ 2)) by ring. rewrite <- A1, <- A2. unfold Rdiv. f_equal; [ring|f_equal; ring].
Qed.
Lemma amp_sq e : 0 < 1 + e -> amp e ^ 2 = sg_s / (2 * sqrt PI * (1 + e)).
Proof.
  intros H. unfold amp. rewrite pow2_sqrt; [reflexivity|]. left. pose proof root_pi_pos. apply Rdiv_lt_0_compat; [apply sg_s_pos|]. repeat apply Rmult_lt_0_compat; lra.
Qed.
(** the square of the sum or difference of the two bells *)
Lemma square_bells sign f : sign ^ 2 = 1 -> (near f + sign * far f) ^ 2 = bell (sg_s * (f - f0)) + 2 * sign * exp (- Q ^ 2) * bell (sg_s * f) + bell (sg_s * (f + f0)).
Proof.
  intros S2. unfold near, far, bell.
  assert (E1 : exp (- (sg_s * (f - f0)) ^ 2) = exp (- (sg_s * (f - f0)) ^ 2 / 2) ^ 2) by (replace (- (sg_s * (f - f0)) ^ 2) with (- (sg_s * (f - f0)) ^ 2 / 2 + - (sg_s * (f - f0)) ^ 2 / 2) at 1 by field; rewrite exp_plus; ring).
  assert (E2 : exp (- (sg_s * (f + f0)) ^ 2) = exp (- (sg_s * (f + f0)) ^ 2 / 2) ^ 2) by (replace (- (sg_s * (f + f0)) ^ 2) with (- (sg_s * (f + f0)) ^ 2 / 2 + - (sg_s * (f + f0)) ^ 2 / 2) at 1 by field; rewrite exp_plus; ring).
  assert (E3 : exp (- Q ^ 2) * exp (- (sg_s * f) ^ 2) = exp (- (sg_s * (f - f0)) ^ 2 / 2) * exp (- (sg_s * (f + f0)) ^ 2 / 2)).
  { rewrite <- !exp_plus. f_equal. unfold sg_s. field. lra. }
  rewrite E1, E2. replace (2 * sign * exp (- Q ^ 2) * exp (- (sg_s * f) ^ 2)) with (2 * sign * (exp (- Q ^ 2) * exp (- (sg_s * f) ^ 2))) by ring. rewrite E3.
  set (a := exp (- (sg_s * (f - f0)) ^ 2 / 2)). set (b := exp (- (sg_s * (f + f0)) ^ 2 / 2)). replace ((a + sign * b) ^ 2) with (a ^ 2 + 2 * sign * (a * b) + sign ^ 2 * b ^ 2) by ring. rewrite S2. ring.
Qed.
Definition primitive (sign f : R) : R := (bellint (sg_s * (f - f0)) + 2 * sign * exp (- Q ^ 2) * bellint (sg_s * f) + bellint (sg_s * (f + f0))) / sg_s.
Lemma primitive_derive sign f : sign ^ 2 = 1 -> is_derive (primitive sign) f ((near f + sign * far f) ^ 2).
Proof.
  intros S2. rewrite (square_bells sign f S2). pose proof sg_s_pos as SP. unfold primitive.
  assert (D : forall c, is_derive (fun x => bellint (sg_s * (x + c))) f (sg_s * bell (sg_s * (f + c)))).
  { intros c. apply (is_derive_comp bellint (fun x => sg_s * (x + c)) f (bell (sg_s * (f + c))) sg_s); [apply bellint_derive|]. auto_derive; [exact I|]. now rewrite Rmult_1_r, ?Rmult_1_l. }
  assert (D0 : is_derive (fun x => bellint (sg_s * x)) f (sg_s * bell (sg_s * f))).
  { apply (is_derive_comp bellint (fun x => sg_s * x) f (bell (sg_s * f)) sg_s); [apply bellint_derive|]. auto_derive; [exact I|]. now rewrite Rmult_1_r, ?Rmult_1_l. }
  apply (is_derive_ext (fun x => / sg_s * (bellint (sg_s * (x + - f0)) + 2 * sign * exp (- Q ^ 2) * bellint (sg_s * x) + bellint (sg_s * (x + f0))))).
  { intros t. match goal with |- ?a = ?b => change (@eq R a b) end. unfold Rdiv, Rminus. ring. }
  replace (bell (sg_s * (f - f0)) + 2 * sign * exp (- Q ^ 2) * bell (sg_s * f) + bell (sg_s * (f + f0)))
    with (/ sg_s * (sg_s * bell (sg_s * (f + - f0)) + 2 * sign * exp (- Q ^ 2) * (sg_s * bell (sg_s * f)) + sg_s * bell (sg_s * (f + f0)))) by (unfold Rminus; field; lra).
  apply is_derive_scal. apply (is_derive_plus (K := R_AbsRing) (V := R_NormedModule)); [|apply D]. apply (is_derive_plus (K := R_AbsRing) (V := R_NormedModule)); [apply D|]. apply is_derive_scal. exact D0.
Qed.
Lemma bells_cont sign f : continuous (fun f => (near f + sign * far f) ^ 2) f.
Proof. unfold near, far. apply (ex_derive_continuous (V := R_NormedModule)). auto_derive. auto. Qed.
Lemma bells_int sign B : sign ^ 2 = 1 -> is_RInt (fun f => (near f + sign * far f) ^ 2) (- B) B (primitive sign B - primitive sign (- B)).
Proof.
  intros S2. apply (is_RInt_derive (V := R_CompleteNormedModule) (primitive sign)); [intros; apply primitive_derive; exact S2|intros; apply bells_cont].
Qed.
Lemma bellint_odd x : bellint (- x) = - bellint x.
Proof.
  unfold bellint.
  pose proof (RInt_comp_lin bell (-1) 0 0 x) as C1. replace (-1 * 0 + 0) with 0 in C1 by ring. replace (-1 * x + 0) with (- x) in C1 by ring.
  rewrite <- C1 by apply bell_int. change (- RInt bell 0 x) with (opp (RInt bell 0 x)).
  rewrite <- (RInt_opp (V := R_CompleteNormedModule) bell 0 x) by apply bell_int. apply RInt_ext. intros t _. unfold scal, opp. cbn. unfold mult. cbn. unfold bell.
  replace ((-1 * t + 0) ^ 2) with (t ^ 2) by ring. ring.
Qed.
Lemma bellint_lim c : is_lim (fun B => bellint (sg_s * (B + c))) p_infty (sqrt PI / 2).
Proof.
  apply (is_lim_comp bellint (fun B => sg_s * (B + c)) p_infty (sqrt PI / 2) p_infty); [apply gauss_integral| |exists 0; intros; discriminate].
  pose proof sg_s_pos as SP. apply is_lim_spec. intros M. exists (M / sg_s - c). intros x Hx. apply (Rmult_lt_compat_l sg_s) in Hx; [|exact SP].
  replace (sg_s * (M / sg_s - c)) with (M - sg_s * c) in Hx by (field; lra). lra.
Qed.
Lemma primitive_diff sign B : primitive sign B - primitive sign (- B) =
  (2 * bellint (sg_s * (B + - f0)) + 2 * (2 * sign * exp (- Q ^ 2)) * bellint (sg_s * (B + 0)) + 2 * bellint (sg_s * (B + f0))) / sg_s.
Proof.
  unfold primitive. replace (sg_s * (- B - f0)) with (- (sg_s * (B + f0))) by ring. replace (sg_s * - B) with (- (sg_s * (B + 0))) by ring.
  replace (sg_s * (- B + f0)) with (- (sg_s * (B + - f0))) by ring. rewrite !bellint_odd. replace (sg_s * B) with (sg_s * (B + 0)) by ring. replace (B - f0) with (B + - f0) by ring. field. apply Rgt_not_eq, sg_s_pos.
Qed.
Lemma primitive_lim sign : is_lim (fun B => primitive sign B - primitive sign (- B)) p_infty (2 * sqrt PI * (1 + sign * exp (- Q ^ 2)) / sg_s).
Proof.
  pose proof sg_s_pos as SP.
  apply (is_lim_ext (fun B => / sg_s * (2 * bellint (sg_s * (B + - f0)) + 2 * (2 * sign * exp (- Q ^ 2)) * bellint (sg_s * (B + 0)) + 2 * bellint (sg_s * (B + f0))))).
  { intros B. rewrite primitive_diff. unfold Rdiv. ring. }
  replace (2 * sqrt PI * (1 + sign * exp (- Q ^ 2)) / sg_s) with (/ sg_s * (2 * (sqrt PI / 2) + 2 * (2 * sign * exp (- Q ^ 2)) * (sqrt PI / 2) + 2 * (sqrt PI / 2))) by (field; lra).
  apply (is_lim_scal_l _ (/ sg_s) p_infty (2 * (sqrt PI / 2) + 2 * (2 * sign * exp (- Q ^ 2)) * (sqrt PI / 2) + 2 * (sqrt PI / 2))).
  apply (is_lim_plus' _ _ p_infty (2 * (sqrt PI / 2) + 2 * (2 * sign * exp (- Q ^ 2)) * (sqrt PI / 2)) (2 * (sqrt PI / 2))).
  - apply (is_lim_plus' _ _ p_infty (2 * (sqrt PI / 2)) (2 * (2 * sign * exp (- Q ^ 2)) * (sqrt PI / 2))).
    + apply (is_lim_scal_l _ 2 p_infty (sqrt PI / 2)), bellint_lim.
    + apply (is_lim_scal_l _ (2 * (2 * sign * exp (- Q ^ 2))) p_infty (sqrt PI / 2)), bellint_lim.
  - apply (is_lim_scal_l _ 2 p_infty (sqrt PI / 2)), bellint_lim.
Qed.
Definition plus_power (f : R) : R := match wave f with Some (p, _) => p ^ 2 | None => 0 end.
Definition cross_power (f : R) : R := match wave f with Some (_, c) => Cmod c ^ 2 | None => 0 end.
(** hrss is the root sum square: over all frequencies the squared modulus of each polarisation integrates to hrss^2. *)
Theorem C195_energy : (forall f, wave f <> None) /\
  (exists I, (forall B, is_RInt plus_power (- B) B (I B)) /\ is_lim I p_infty (hrss ^ 2)) /\
  (exists I, (forall B, is_RInt cross_power (- B) B (I B)) /\ is_lim I p_infty (hrss ^ 2)).
Proof.
  pose proof exp_small as ES. pose proof sg_s_pos as SP. pose proof root_pi_pos as RP.
  split; [intros f; rewrite wave_value; discriminate|]. split.
  - exists (fun B => (hrss * amp (exp (- Q ^ 2))) ^ 2 * (primitive 1 B - primitive 1 (- B))). split.
    + intros B. apply (is_RInt_ext (fun f => scal ((hrss * amp (exp (- Q ^ 2))) ^ 2) ((near f + 1 * far f) ^ 2))).
      { intros f _. unfold plus_power. rewrite wave_value. unfold scal. cbn. unfold mult. cbn. ring. }
      apply (is_RInt_scal (V := R_NormedModule) _ _ _ ((hrss * amp (exp (- Q ^ 2))) ^ 2) (primitive 1 B - primitive 1 (- B))). apply bells_int. ring.
    + replace (Finite (hrss ^ 2)) with (Rbar_mult ((hrss * amp (exp (- Q ^ 2))) ^ 2) (2 * sqrt PI * (1 + 1 * exp (- Q ^ 2)) / sg_s)).
      { apply is_lim_scal_l. apply primitive_lim. }
      cbn [Rbar_mult Rbar_mult']. f_equal. rewrite Rpow_mult_distr, amp_sq by lra. field. lra.
  - exists (fun B => (hrss * amp (- exp (- Q ^ 2))) ^ 2 * (primitive (-1) B - primitive (-1) (- B))). split.
    + intros B. apply (is_RInt_ext (fun f => scal ((hrss * amp (- exp (- Q ^ 2))) ^ 2) ((near f + -1 * far f) ^ 2))).
      { intros f _. unfold cross_power. rewrite wave_value. unfold Cmod. cbn [fst snd]. rewrite pow2_sqrt by (apply Rplus_le_le_0_compat; apply pow2_ge_0). unfold scal. cbn. unfold mult. cbn. ring. }
      apply (is_RInt_scal (V := R_NormedModule) _ _ _ ((hrss * amp (- exp (- Q ^ 2))) ^ 2) (primitive (-1) B - primitive (-1) (- B))). apply bells_int. ring.
    + replace (Finite (hrss ^ 2)) with (Rbar_mult ((hrss * amp (- exp (- Q ^ 2))) ^ 2) (2 * sqrt PI * (1 + -1 * exp (- Q ^ 2)) / sg_s)).
      { apply is_lim_scal_l. apply primitive_lim. }
      cbn [Rbar_mult Rbar_mult']. f_equal. rewrite Rpow_mult_distr, amp_sq by lra. field. lra.
Qed.
(** the plus polarisation is real and even, the cross polarisation purely imaginary and odd: the time series are real *)
Theorem C195_reflect f p c : wave f = Some (p, c) -> fst c = 0 /\ wave (- f) = Some (p, Copp c).
Proof.
  rewrite !wave_value. intros E. apply some_inj in E. assert (E1 := f_equal fst E). assert (E2 := f_equal snd E). cbn [fst snd] in E1, E2. subst p c. split; [reflexivity|].
  assert (N : near (- f) = far f) by (unfold near, far; f_equal; field). assert (F : far (- f) = near f) by (unfold near, far; f_equal; field). rewrite N, F.
  f_equal. f_equal; [ring|]. unfold Copp. cbn [fst snd]. f_equal; ring.
Qed.
(** above the peak frequency the plus polarisation falls, below it the cross polarisation grows from zero *)
Lemma amp_pos e : 0 < 1 + e -> 0 < amp e.
Proof. intros H. apply sqrt_lt_R0. apply Rdiv_lt_0_compat; [apply sg_s_pos|]. pose proof root_pi_pos. apply Rmult_lt_0_compat; lra. Qed.
Lemma bell_falls x y : 0 <= x -> x < y -> exp (- y ^ 2 / 2) < exp (- x ^ 2 / 2).
Proof. intros. apply exp_increasing. nra. Qed.
Lemma near_far_falls f g : f0 <= f -> f < g -> near g < near f /\ far g < far f.
Proof.
  intros A B. pose proof sg_s_pos as SP. split; apply bell_falls; try (apply Rmult_le_pos; lra); apply Rmult_lt_compat_l; lra.
Qed.
Lemma near_grows f g : f < g -> g <= f0 -> near f < near g.
Proof.
  intros A B. pose proof sg_s_pos as SP. unfold near. replace ((sg_s * (f - f0)) ^ 2) with ((sg_s * (f0 - f)) ^ 2) by ring. replace ((sg_s * (g - f0)) ^ 2) with ((sg_s * (f0 - g)) ^ 2) by ring.
  apply bell_falls; [apply Rmult_le_pos; lra|apply Rmult_lt_compat_l; lra].
Qed.
Lemma far_falls f g : 0 <= f -> f < g -> far g < far f.
Proof. intros A B. pose proof sg_s_pos as SP. apply bell_falls; [apply Rmult_le_pos; lra|apply Rmult_lt_compat_l; lra]. Qed.
Theorem C195_shape f g p c q d : 0 < hrss -> f < g -> wave f = Some (p, c) -> wave g = Some (q, d) ->
  (f0 <= f -> q < p) /\ (0 <= f -> g <= f0 -> Cmod c < Cmod d) /\ (f = 0 -> c = RtoC 0).
Proof.
  intros H L. rewrite !wave_value. intros E E'. apply some_inj in E, E'.
  assert (E1 := f_equal fst E). assert (E2 := f_equal snd E). assert (E3 := f_equal fst E'). assert (E4 := f_equal snd E'). cbn [fst snd] in E1, E2, E3, E4. subst p c q d.
  pose proof exp_small as ES. pose proof (amp_pos (exp (- Q ^ 2)) ltac:(lra)) as AP. pose proof (amp_pos (- exp (- Q ^ 2)) ltac:(lra)) as AC.
  assert (KP : 0 < hrss * amp (exp (- Q ^ 2))) by (apply Rmult_lt_0_compat; assumption). assert (KC : 0 < hrss * amp (- exp (- Q ^ 2))) by (apply Rmult_lt_0_compat; assumption).
  set (kp := hrss * amp (exp (- Q ^ 2))) in *. set (kc := hrss * amp (- exp (- Q ^ 2))) in *. split; [|split].
  - intros A. destruct (near_far_falls f g A L) as [N F]. apply Rmult_lt_compat_l; lra.
  - intros A B. pose proof (near_grows f g L B) as N. pose proof (far_falls f g A L) as F.
    assert (Z : far f <= near f).
    { destruct (Req_dec f 0) as [->|NZ]; [right; unfold near, far; f_equal; field|]. left.
      apply Rlt_trans with (far 0); [apply far_falls; lra|]. replace (far 0) with (near 0) by (unfold near, far; f_equal; field). apply near_grows; lra. }
    assert (M : forall y, Cmod (0, - y) = Rabs y) by (intros y; unfold Cmod; cbn [fst snd]; rewrite <- sqrt_Rsqr_abs; f_equal; unfold Rsqr; ring).
    rewrite !M. rewrite !Rabs_pos_eq by (apply Rmult_le_pos; lra). apply Rmult_lt_compat_l; lra.
  - intros ->. replace (far 0) with (near 0) by (unfold near, far; f_equal; field). unfold RtoC. f_equal. ring.
Qed.
End SineGaussian.
(** the strain is proportional to hrss *)
Theorem C195_scale hrss k Q f0 f : sinegaussian (k * hrss) Q f0 f = match sinegaussian hrss Q f0 f with Some (p, c) => Some (k * p, Cmult (RtoC k) c) | None => None end.
Proof.
  unfold sinegaussian. destruct (pdiv Q (sqrt 2 * PI * f0)) as [tau|]; cbn [bindo]; [|reflexivity]. destruct (pdiv Q (4 * sqrt PI * f0)) as [temp|]; cbn [bindo]; [|reflexivity]. cbv zeta.
  destruct (psqrt (temp * (1 + exp (- Q ^ 2)))) as [rp|]; cbn [bindo]; [|reflexivity]. unfold pdiv at 1 3. destruct (Req_EM_T rp 0); cbn [bindo]; [reflexivity|].
  destruct (psqrt (temp * (1 - exp (- Q ^ 2)))) as [rc|]; cbn [bindo]; [|reflexivity]. unfold pdiv. destruct (Req_EM_T rc 0); cbn [bindo]; [reflexivity|].
  f_equal. unfold Cmult, RtoC, Rdiv. cbn [fst snd]. f_equal; [ring|]. f_equal; ring.
Qed.
(** a vanishing quality factor or frequency, or opposite signs, give no strain *)
Theorem C195_refused hrss Q f0 f : Q = 0 \/ f0 = 0 \/ Q * f0 < 0 -> sinegaussian hrss Q f0 f = None.
Proof.
  pose proof PI_RGT_0 as P. pose proof root_pi_pos as RP. pose proof root2_pos as TP. intros H. unfold sinegaussian.
  destruct (Req_dec f0 0) as [->|F].
  { unfold pdiv at 1. destruct (Req_EM_T (sqrt 2 * PI * 0) 0) as [_|N]; [reflexivity|]. exfalso. apply N. ring. }
  assert (D1 : sqrt 2 * PI * f0 <> 0) by (apply Rmult_integral_contrapositive_currified; [apply Rmult_integral_contrapositive_currified; apply Rgt_not_eq; assumption|assumption]).
  assert (D2 : 4 * sqrt PI * f0 <> 0) by (repeat apply Rmult_integral_contrapositive_currified; lra).
  rewrite (pdiv_some _ _ D1). cbn [bindo]. rewrite (pdiv_some _ _ D2). cbn [bindo]. cbv zeta. pose proof (exp_pos (- Q ^ 2)) as E.
  destruct (Req_dec Q 0) as [->|NQ].
  - rewrite psqrt_some by (right; field; lra). cbn [bindo]. replace (0 / (4 * sqrt PI * f0) * (1 + exp (- 0 ^ 2))) with 0 by (field; lra). rewrite sqrt_0. unfold pdiv at 1. destruct (Req_EM_T 0 0) as [_|N]; [reflexivity|now destruct N].
  - assert (S : Q / (4 * sqrt PI * f0) < 0).
    { replace (Q / (4 * sqrt PI * f0)) with ((Q * f0) * / (4 * sqrt PI * (f0 * f0))) by (field; lra). assert (K : 0 < / (4 * sqrt PI * (f0 * f0))) by (apply Rinv_0_lt_compat; nra). destruct H as [H|[H|H]]; [lra|lra|nra]. }
    rewrite psqrt_none by nra. reflexivity.
Qed.
(** The "peak frequency" is not where the plus polarisation is largest when the quality factor is small. *)
Theorem C195_peak_refuted : exists Q, 0 < Q /\ forall hrss f0, 0 < hrss -> 0 < f0 ->
  exists p0 c0 p c, sinegaussian hrss Q f0 0 = Some (p0, c0) /\ sinegaussian hrss Q f0 f0 = Some (p, c) /\ p < p0.
Proof.
  assert (LN : 0 < ln (10 / 9)) by (rewrite <- ln_1; apply ln_increasing; lra).
  exists (sqrt (2 * ln (10 / 9))). assert (QP : 0 < sqrt (2 * ln (10 / 9))) by (apply sqrt_lt_R0; lra). split; [exact QP|]. intros hrss f0 H F.
  assert (Q2 : sqrt (2 * ln (10 / 9)) ^ 2 = 2 * ln (10 / 9)) by (apply pow2_sqrt; lra). set (Q := sqrt (2 * ln (10 / 9))) in *.
  pose proof (wave_value hrss Q f0 QP F) as V. unfold wave in V. rewrite !V. do 4 eexists. split; [reflexivity|]. split; [reflexivity|].
  pose proof (exp_small Q QP) as ES. pose proof (amp_pos Q f0 QP F (exp (- Q ^ 2)) ltac:(lra)) as AP. apply Rmult_lt_compat_l; [apply Rmult_lt_0_compat; assumption|].
  assert (X : forall t, exp (- (t * ln (10 / 9))) = Rpower (9 / 10) t).
  { intros t. unfold Rpower. f_equal. replace (9 / 10) with (/ (10 / 9)) by field. rewrite ln_Rinv by lra. ring. }
  unfold near, far, sg_s. replace (- (Q / f0 * (f0 - f0)) ^ 2 / 2) with 0 by (field; lra). rewrite exp_0.
  replace (- (Q / f0 * (f0 + f0)) ^ 2 / 2) with (- (4 * ln (10 / 9))) by (replace (- (Q / f0 * (f0 + f0)) ^ 2 / 2) with (- (2 * Q ^ 2)) by (field; lra); rewrite Q2; ring).
  replace (- (Q / f0 * (0 - f0)) ^ 2 / 2) with (- (1 * ln (10 / 9))) by (replace (- (Q / f0 * (0 - f0)) ^ 2 / 2) with (- (Q ^ 2 / 2)) by (field; lra); rewrite Q2; field).
  replace (- (Q / f0 * (0 + f0)) ^ 2 / 2) with (- (1 * ln (10 / 9))) by (replace (- (Q / f0 * (0 + f0)) ^ 2 / 2) with (- (Q ^ 2 / 2)) by (field; lra); rewrite Q2; field).
  rewrite !X, Rpower_1 by lra. replace 4 with (INR 4) by (cbn; ring). rewrite Rpower_pow by lra. lra.
Qed.
(** with Q = 1 and unit hrss at 100 Hz: the two polarisations there *)
Example C195_example : wave 1 1 100 100 = Some (1 * amp 1 100 (exp (-1)) * (1 + exp (-2)), (0, - (1 * amp 1 100 (- exp (-1)) * (1 - exp (-2))))) /\ (exists I, (forall B, is_RInt (plus_power 1 1 100) (- B) B (I B)) /\ is_lim I p_infty 1).
Proof.
  split.
  - rewrite wave_value by lra. unfold near, far, sg_s. replace (- (1 / 100 * (100 - 100)) ^ 2 / 2) with 0 by field. replace (- (1 / 100 * (100 + 100)) ^ 2 / 2) with (-2) by field. rewrite exp_0. replace (- (1 ^ 2)) with (-1) by ring. reflexivity.
  - destruct (C195_energy 1 1 100) as [_ [[I [A B]] _]]; try lra. exists I. split; [exact A|]. replace (1 ^ 2) with 1 in B by ring. exact B.
Qed.

(** ** C196: supernova models *)
(** Both polarisations come sample by sample from the file, scaled with the inverse distance; the scale is 1 at a distance of 0.01 *)
Theorem C196_scale rows d : d <> 0 -> supernova rows d =
  Some (map (fun r => match r with (a, b, _, _) => Cmult (RtoC (0.01 / d)) (a, b) end) rows, map (fun r => match r with (_, _, c, e) => Cmult (RtoC (0.01 / d)) (c, e) end) rows).
Proof.
  intros D. unfold supernova. rewrite pdiv_some by exact D. cbn [bindo]. f_equal. f_equal; apply map_ext; intros [[[a b] c] e]; unfold Cmult, RtoC; cbn [fst snd]; replace 1e-3 with (1/1000) by lra; replace 0.01 with (1/100) by lra; f_equal; field; exact D.
Qed.
Theorem C196_length rows d hp hc : supernova rows d = Some (hp, hc) -> length hp = length rows /\ length hc = length rows.
Proof. unfold supernova. destruct (pdiv 10 d); cbn [bindo]; [|discriminate]. intros E. apply some_inj in E. injection E as <- <-. now rewrite !map_length. Qed.
Theorem C196_zero rows coeffs pcs : supernova rows 0 = None /\ supernova_pca coeffs pcs 0 = None.
Proof. unfold supernova, supernova_pca, pdiv. destruct (Req_EM_T 0 0) as [_|N]; [now split|now destruct N]. Qed.
(** the file is a simulation at 10 kpc and the parameter is documented in kpc; at a distance of 10 the strain is not the simulated one *)
Theorem C196_kpc_refuted : exists rows hp hc, supernova rows 10 = Some (hp, hc) /\ hp <> map (fun r => match r with (a, b, _, _) => (a, b) end) rows.
Proof.
  exists [(1, 0, 0, 0)]. do 2 eexists. split; [rewrite C196_scale by lra; reflexivity|]. cbn [map]. intros E. injection E as E1 E2. cbn [fst snd RtoC] in E1. lra.
Qed.
Theorem C196_unit rows : supernova rows 0.01 = Some (map (fun r => match r with (a, b, _, _) => (a, b) end) rows, map (fun r => match r with (_, _, c, e) => (c, e) end) rows).
Proof.
  rewrite C196_scale by lra. f_equal. f_equal; apply map_ext; intros [[[a b] c] e]; unfold Cmult, RtoC; cbn [fst snd]; replace 0.01 with (1/100) by lra; f_equal; field.
Qed.
(** the principal-component model: both polarisations are the same linear combination of the components *)
Definition addl (a b : list R) : list R := map (fun p => fst p + snd p) (combine a b).
Lemma pca_add a b row : length a = length b -> pca_strain (addl a b) row = Cplus (pca_strain a row) (pca_strain b row).
Proof.
  revert b row. induction a as [|x a IH]; intros [|y b] row L; try discriminate L.
  - unfold pca_strain. cbn. unfold Cplus, RtoC. cbn. f_equal; ring.
  - destruct row as [|z row]; [unfold pca_strain; cbn; unfold Cplus, RtoC; cbn; f_equal; ring|]. specialize (IH b row ltac:(now injection L)). unfold pca_strain, addl in *. cbn [combine map fold_right fst snd]. rewrite IH.
    unfold Cplus, Cmult, RtoC. cbn [fst snd]. f_equal; ring.
Qed.
Lemma pca_scale k a row : pca_strain (map (Rmult k) a) row = Cmult (RtoC k) (pca_strain a row).
Proof.
  revert row. induction a as [|x a IH]; intros row; [unfold pca_strain; cbn; unfold Cmult, RtoC; cbn; f_equal; ring|].
  destruct row as [|z row]; [unfold pca_strain; cbn; unfold Cmult, RtoC; cbn; f_equal; ring|]. specialize (IH row). unfold pca_strain in *. cbn [combine map fold_right fst snd]. rewrite IH. unfold Cplus, Cmult, RtoC. cbn [fst snd]. f_equal; ring.
Qed.
Theorem C196_linear a b k pcs d hp hc hp' hc' : length a = length b -> supernova_pca a pcs d = Some (hp, hc) -> supernova_pca b pcs d = Some (hp', hc') ->
  hp = hc /\ supernova_pca (addl (map (Rmult k) a) b) pcs d = Some (let h := map (fun p => Cplus (Cmult (RtoC k) (fst p)) (snd p)) (combine hp hp') in (h, h)).
Proof.
  intros L. unfold supernova_pca. destruct (pdiv 10 d) as [s|]; cbn [bindo]; [|discriminate]. cbv zeta. intros E E'. apply some_inj in E, E'.
  assert (E1 := f_equal fst E). assert (E2 := f_equal snd E). assert (E3 := f_equal fst E'). cbn [fst snd] in E1, E2, E3. subst hp hc hp'. split; [reflexivity|]. f_equal.
  assert (G : map (fun row => Cmult (RtoC (1e-23 * s)) (pca_strain (addl (map (Rmult k) a) b) row)) pcs =
    map (fun p => Cplus (Cmult (RtoC k) (fst p)) (snd p)) (combine (map (fun row => Cmult (RtoC (1e-23 * s)) (pca_strain a row)) pcs) (map (fun row => Cmult (RtoC (1e-23 * s)) (pca_strain b row)) pcs))).
  { clear E E'. induction pcs as [|row pcs IH]; [reflexivity|]. cbn [map combine fst snd]. f_equal; [|exact IH]. rewrite pca_add by (now rewrite map_length). rewrite pca_scale. unfold Cplus, Cmult, RtoC. cbn [fst snd]. f_equal; ring. }
  now rewrite G.
Qed.
(** one component at a time: the coefficient 1 alone at a distance of 10 gives that component times 1e-23 *)
Lemma pca_unit j n row c : (j < n)%nat -> nth_error row j = Some c -> pca_strain (map (fun i => if Nat.eqb i j then 1 else 0) (seq 0 n)) row = c.
Proof.
  enough (G : forall n o row, pca_strain (map (fun i => if Nat.eqb i j then 1 else 0) (seq o n)) row = match (if (Nat.leb o j && Nat.ltb j (o + n))%bool then nth_error row (j - o) else None) with Some c => c | None => RtoC 0 end).
  { intros Hj E. rewrite G. rewrite Nat.sub_0_r, E. destruct (Nat.leb_spec 0 j); [|lia]. destruct (Nat.ltb_spec j (0 + n)); [reflexivity|lia]. }
  clear. induction n as [|n IH]; intros o row.
  - cbn [seq map]. unfold pca_strain. cbn [combine map fold_right]. destruct (Nat.leb_spec o j); destruct (Nat.ltb_spec j (o + 0)); try lia; reflexivity.
  - destruct row as [|z row]; [unfold pca_strain; cbn [seq map combine fold_right]; destruct (_ && _)%bool; [destruct (j - o)%nat|]; reflexivity|].
    specialize (IH (S o) row). unfold pca_strain in *. cbn [seq map combine fold_right fst snd]. rewrite IH. destruct (Nat.eqb_spec o j) as [->|N].
    + replace (Nat.leb (S j) j) with false by (symmetry; apply Nat.leb_gt; lia). cbn [andb]. rewrite Nat.leb_refl. replace (Nat.ltb j (j + S n)) with true by (symmetry; apply Nat.ltb_lt; lia). cbn [andb]. rewrite Nat.sub_diag. cbn [nth_error]. destruct z as [u v]. unfold Cplus, Cmult, RtoC. cbn [fst snd]. f_equal; ring.
    + replace (S o + n)%nat with (o + S n)%nat by lia. destruct (Nat.leb_spec (S o) j); destruct (Nat.leb_spec o j); try lia; cbn [andb].
      * destruct (Nat.ltb j (o + S n)); [|unfold Cplus, Cmult, RtoC; destruct z; cbn [fst snd]; f_equal; ring]. replace (j - o)%nat with (S (j - S o)) by lia. cbn [nth_error]. destruct (nth_error row (j - S o)) as [[u v]|]; destruct z; unfold Cplus, Cmult, RtoC; cbn [fst snd]; f_equal; ring.
      * destruct z; unfold Cplus, Cmult, RtoC; cbn [fst snd]; f_equal; ring.
Qed.
Theorem C196_component j n pcs h : (j < n)%nat -> Forall2 (fun row c => nth_error row j = Some c) pcs h ->
  supernova_pca (map (fun i => if Nat.eqb i j then 1 else 0) (seq 0 n)) pcs 10 = Some (map (Cmult (RtoC 1e-23)) h, map (Cmult (RtoC 1e-23)) h).
Proof.
  intros L F. unfold supernova_pca. rewrite pdiv_some by lra. cbn [bindo]. cbv zeta.
  assert (G : map (fun row => Cmult (RtoC (1e-23 * (10 / 10))) (pca_strain (map (fun i => if Nat.eqb i j then 1 else 0) (seq 0 n)) row)) pcs = map (Cmult (RtoC 1e-23)) h).
  { induction F as [|row c pcs h E F IH]; [reflexivity|]. cbn [map]. f_equal; [|exact IH]. rewrite (pca_unit j n row c L E). f_equal. f_equal. lra. }
  now rewrite G.
Qed.
Example C196_example : supernova [(1, 2, 3, 4); (5, 6, 7, 8)] 0.02 = Some ([(1/2, 1); (5/2, 3)], [(3/2, 2); (7/2, 4)]) /\
  supernova_pca [2; 1] [[(1, 0); (0, 1)]] 5 = Some ([(4e-23, 2e-23)], [(4e-23, 2e-23)]).
Proof.
  split.
  - rewrite C196_scale by lra. cbn [map]. unfold Cmult, RtoC. cbn [fst snd]. replace 0.01 with (1/100) by lra. replace 0.02 with (2/100) by lra. repeat match goal with |- Some _ = Some _ => apply f_equal | |- (_, _) = (_, _) => apply f_equal2 | |- _ :: _ = _ :: _ => apply f_equal2 | |- [] = [] => reflexivity end; field.
  - unfold supernova_pca. rewrite pdiv_some by lra. cbn [bindo map]. unfold pca_strain. cbn [combine map fold_right fst snd]. unfold Cmult, Cplus, RtoC. cbn [fst snd]. repeat match goal with |- Some _ = Some _ => apply f_equal | |- (_, _) = (_, _) => apply f_equal2 | |- _ :: _ = _ :: _ => apply f_equal2 | |- [] = [] => reflexivity end; lra.
Qed.

(** ** Assumptions of every theorem above *)
Definition Source2_Props_all :=
  (@C195_energy,
   @C195_reflect,
   @C195_shape,
   @C195_scale,
   @C195_refused,
   @C195_peak_refuted,
   @C196_scale,
   @C196_length,
   @C196_zero,
   @C196_kpc_refuted,
   @C196_unit,
   @C196_linear,
   @C196_component).
Print Assumptions Source2_Props_all.
