(** * Equations of stellar structure and the tidal Love number (C200) *)
From Coq Require Import Reals Lra Lia List Bool Psatz.
From Coquelicot Require Import Coquelicot.
From Verif Require Import PyReal Eos_Model.
Open Scope R_scope.

Lemma pdiv_inv a b v : pdiv a b = Some v -> b <> 0 /\ v = a / b.
Proof. unfold pdiv. destruct (Req_EM_T b 0); [discriminate|]. intros H. apply some_inj in H. split; [assumption|now symmetry]. Qed.
Lemma bind_inv {A B} (o : option A) (f : A -> option B) v : bindo o f = Some v -> exists a, o = Some a /\ f a = Some v.
Proof. destruct o as [a|]; [|discriminate]. intros H. exists a. split; [reflexivity|exact H]. Qed.
Lemma tov_inv eps p dd m r H B dm dr dH dB : tov_eqns eps p dd m r H B = Some (dm, dr, dH, dB) ->
  m + 4 * PI * r ^ 3 * p <> 0 /\ r <> 0 /\ r <> 2 * m /\
  dm = - (4 * PI * eps * r ^ 3 * (r - 2 * m) / (m + 4 * PI * r ^ 3 * p)) /\ dr = - (r * (r - 2 * m) / (m + 4 * PI * r ^ 3 * p)) /\ dH = B * dr /\
  dB = - ((2 / r + / (1 - 2 * m / r) * (2 * m / r ^ 2 + 4 * PI * r * (p - eps))) * B
         + (/ (1 - 2 * m / r) * (- 6 / r ^ 2 + 4 * PI * (eps + p) * dd + 4 * PI * (5 * eps + 9 * p)) - (2 * (m + 4 * PI * r ^ 3 * p) / (r ^ 2 - 2 * m * r)) ^ 2) * H) * dr.
Proof.
  unfold tov_eqns. intros E.
  apply bind_inv in E. destruct E as (x1 & E1 & E). apply pdiv_inv in E1. destruct E1 as [N1 E1].
  apply bind_inv in E. destruct E as (x2 & E2 & E). apply pdiv_inv in E2. destruct E2 as [_ E2].
  apply bind_inv in E. destruct E as (x3 & E3 & E). apply pdiv_inv in E3. destruct E3 as [N3 E3].
  apply bind_inv in E. destruct E as (x4 & E4 & E). apply pdiv_inv in E4. destruct E4 as [N4 E4].
  apply bind_inv in E. destruct E as (x5 & E5 & E). apply pdiv_inv in E5. destruct E5 as [_ E5].
  apply bind_inv in E. destruct E as (x6 & E6 & E). apply pdiv_inv in E6. destruct E6 as [_ E6].
  apply bind_inv in E. destruct E as (x7 & E7 & E). apply pdiv_inv in E7. destruct E7 as [_ E7].
  apply bind_inv in E. destruct E as (x8 & E8 & E). apply pdiv_inv in E8. destruct E8 as [_ E8].
  assert (Edm : - x1 = dm) by congruence. assert (Edr : - x2 = dr) by congruence.
  assert (EdH : B * - x2 = dH) by congruence.
  assert (EdB : - ((x6 + x4 * (x5 + 4 * PI * r * (p - eps))) * B + (x4 * (x7 + 4 * PI * (eps + p) * dd + 4 * PI * (5 * eps + 9 * p)) - x8 ^ 2) * H) * - x2 = dB) by congruence.
  split; [exact N1|]. split; [exact N3|]. split; [intros R2; apply N4; rewrite E3, <- R2; field; exact N3|].
  split; [rewrite <- Edm, E1; reflexivity|]. split; [rewrite <- Edr, E2; reflexivity|]. split; [rewrite <- EdH, <- Edr; reflexivity|].
  rewrite <- EdB, <- Edr. rewrite E4, E5, E6, E7, E8, E3. unfold Rdiv. rewrite (Rmult_1_l (/ (1 - _))). reflexivity.
Qed.
(** The steps in the pseudo-enthalpy are the equations of Tolman, Oppenheimer and Volkoff: with dp/dh = energy density + pressure, the mass grows with 4 pi r^2 times the energy density and the pressure falls as in hydrostatic equilibrium. *)
Theorem C200_tov eps p dd m r H B dm dr dH dB : tov_eqns eps p dd m r H B = Some (dm, dr, dH, dB) ->
  dr <> 0 /\ dm / dr = 4 * PI * r ^ 2 * eps /\ (eps + p) / dr = - ((eps + p) * (m + 4 * PI * r ^ 3 * p) / (r * (r - 2 * m))) /\ dH / dr = B.
Proof.
  intros E. apply tov_inv in E. destruct E as (N & R0 & R2 & -> & -> & -> & _).
  assert (ND : - (r * (r - 2 * m) / (m + 4 * PI * r ^ 3 * p)) <> 0).
  { intros Z. assert (Z' : r * (r - 2 * m) = 0) by (apply (f_equal (fun t => - t * (m + 4 * PI * r ^ 3 * p))) in Z; rewrite Ropp_involutive in Z; unfold Rdiv in Z; rewrite Rmult_assoc, Rinv_l in Z by exact N; lra). apply Rmult_integral in Z'. destruct Z'; [contradiction|lra]. }
  split; [exact ND|]. assert (r - 2 * m <> 0) by lra. split; [field; repeat split; assumption|]. split; [field; repeat split; assumption|field; repeat split; assumption].
Qed.
(** Outwards and inwards: inside a star with positive pressure and density the radius and the mass grow as the pseudo-enthalpy falls. *)
Theorem C200_outwards eps p dd m r H B dm dr dH dB : tov_eqns eps p dd m r H B = Some (dm, dr, dH, dB) -> 0 < eps -> 0 <= p -> 0 < m -> 2 * m < r -> dm < 0 /\ dr < 0.
Proof.
  intros E PE PP PM RM. apply tov_inv in E. destruct E as (N & R0 & R2 & -> & -> & _). pose proof PI_RGT_0. assert (R3 : 0 < r ^ 3) by (apply pow_lt; lra).
  assert (ND : 0 < m + 4 * PI * r ^ 3 * p). { assert (0 <= 4 * PI * r ^ 3 * p) by (apply Rmult_le_pos; [apply Rmult_le_pos; [lra|lra]|exact PP]). lra. }
  split; apply Ropp_lt_gt_0_contravar; apply Rdiv_lt_0_compat; try exact ND.
  - apply Rmult_lt_0_compat; [|lra]. apply Rmult_lt_0_compat; [|exact R3]. apply Rmult_lt_0_compat; lra.
  - apply Rmult_lt_0_compat; lra.
Qed.
(** The perturbation: y = r B / H, the quantity that fixes the Love number, obeys its own first-order equation. *)
Theorem C200_riccati eps p dd m r H B dm dr dH dB : tov_eqns eps p dd m r H B = Some (dm, dr, dH, dB) -> H <> 0 ->
  let y := r * B / H in let el := / (1 - 2 * m / r) in
  let y' := B / H + r * (dB / dr) / H - r * B * (dH / dr) / H ^ 2 in
  r * y' + y ^ 2 + y * el * (1 + 4 * PI * r ^ 2 * (p - eps))
  + r ^ 2 * (el * (4 * PI * (5 * eps + 9 * p + (eps + p) * dd) - 6 / r ^ 2) - (2 * (m + 4 * PI * r ^ 3 * p) / (r * (r - 2 * m))) ^ 2) = 0.
Proof.
  intros E HZ. destruct (C200_tov _ _ _ _ _ _ _ _ _ _ _ E) as (DR & _ & _ & DH). apply tov_inv in E. destruct E as (N & R0 & R2 & _ & _ & _ & DB). cbv zeta. rewrite DH.
  assert (EB : dB / dr = - ((2 / r + / (1 - 2 * m / r) * (2 * m / r ^ 2 + 4 * PI * r * (p - eps))) * B
         + (/ (1 - 2 * m / r) * (- 6 / r ^ 2 + 4 * PI * (eps + p) * dd + 4 * PI * (5 * eps + 9 * p)) - (2 * (m + 4 * PI * r ^ 3 * p) / (r ^ 2 - 2 * m * r)) ^ 2) * H)) by (rewrite DB; field; repeat split; try assumption; try nra; intros Z; apply R2; nra).
  rewrite EB. assert (r - 2 * m <> 0) by lra. replace (r ^ 2 - 2 * m * r) with (r * (r - 2 * m)) by ring. field. repeat split; assumption.
Qed.
(** *** the start at the centre *)
Theorem C200_start eps p dedh h0 m r H B : start eps p dedh h0 = Some (m, r, H, B) -> r <> 0 -> r * B / H = 2.
Proof.
  unfold start. destruct (centre eps p dedh _) as [[m' r']|]; [|discriminate]. cbn [bindo]. intros E RZ. assert (r' = r) by congruence. assert (r' ^ 2 = H) by congruence. assert (2 * r' = B) by congruence. subst. field. exact RZ.
Qed.
(** Close to the centre the star is a ball of constant density in hydrostatic equilibrium: the corrections are of the order of the distance in pseudo-enthalpy. *)
Theorem C200_centre eps p dedh : 0 < eps -> 0 <= p -> exists K, 0 <= K /\ forall d m r, 0 < d <= 1 -> centre eps p dedh d = Some (m, r) ->
  Rabs (r ^ 2 - 3 * d / (2 * PI * (eps + 3 * p))) <= K * d ^ 2 /\ Rabs (m - 4 * PI / 3 * eps * r ^ 3) <= K * d * Rabs (r ^ 3).
Proof.
  intros PE PP. pose proof PI_RGT_0 as PIP. set (a := 0.25 * (eps - 3 * p - 3 / 5 * dedh) / (eps + 3 * p)). set (b := 3 / 5 * dedh / eps). set (s := 3 / (2 * PI * (eps + 3 * p))).
  assert (SP : 0 < s) by (unfold s; apply Rdiv_lt_0_compat; [lra|apply Rmult_lt_0_compat; lra]).
  exists (s * (2 * Rabs a + a ^ 2) + 4 * PI / 3 * eps * Rabs b). pose proof (Rabs_pos a). pose proof (Rabs_pos b). pose proof (pow2_ge_0 a).
  assert (P1 : 0 <= s * (2 * Rabs a + a ^ 2)) by (apply Rmult_le_pos; lra). assert (P2 : 0 <= 4 * PI / 3 * eps * Rabs b) by (apply Rmult_le_pos; [|lra]; apply Rmult_le_pos; lra). split; [lra|].
  intros d m r D E. unfold centre in E. rewrite pdiv_some in E by (apply Rgt_not_eq; apply Rmult_lt_0_compat; lra). cbn [bindo] in E.
  assert (QP : 0 <= 3 * d / (2 * PI * (eps + 3 * p))) by (left; apply Rdiv_lt_0_compat; [lra|apply Rmult_lt_0_compat; lra]). rewrite psqrt_some in E by exact QP. cbn [bindo] in E. rewrite pdiv_some in E by lra. cbn [bindo] in E. rewrite pdiv_some in E by lra. cbn [bindo] in E.
  set (q := sqrt (3 * d / (2 * PI * (eps + 3 * p)))) in *. assert (Q2 : q * q = s * d) by (unfold q; rewrite sqrt_sqrt by exact QP; unfold s; field; split; lra).
  apply some_inj in E. assert (ER : r = q * (1 - a * d)) by (apply (f_equal snd) in E; cbn in E; rewrite <- E; unfold a; field; lra).
  assert (EM : m = 4 * PI / 3 * eps * r ^ 3 * (1 - b * d)) by (pose proof (f_equal fst E) as E1; pose proof (f_equal snd E) as E2; cbn [fst snd] in E1, E2; rewrite <- E1, E2; unfold b; field; lra).
  replace (3 * d / (2 * PI * (eps + 3 * p))) with (s * d) by (unfold s; field; split; lra). split.
  - replace (r ^ 2 - s * d) with (s * d ^ 2 * (a * a * d - 2 * a)) by (rewrite ER; replace ((q * (1 - a * d)) ^ 2) with (q * q * (1 - a * d) ^ 2) by ring; rewrite Q2; ring).
    rewrite Rabs_mult. assert (0 <= d ^ 2) by nra. rewrite (Rabs_pos_eq (s * d ^ 2)) by (apply Rmult_le_pos; lra).
    assert (Rabs (a * a * d - 2 * a) <= 2 * Rabs a + a ^ 2). { eapply Rle_trans; [apply Rabs_triang|]. rewrite Rabs_Ropp, (Rabs_mult 2 a), (Rabs_pos_eq 2) by lra. rewrite Rabs_pos_eq by nra. nra. }
    assert (s * d ^ 2 * Rabs (a * a * d - 2 * a) <= s * d ^ 2 * (2 * Rabs a + a ^ 2)) by (apply Rmult_le_compat_l; [apply Rmult_le_pos; lra|assumption]). nra.
  - replace (m - 4 * PI / 3 * eps * r ^ 3) with (- (4 * PI / 3 * eps * b * d * r ^ 3)) by (rewrite EM; ring). rewrite Rabs_Ropp, !Rabs_mult. rewrite (Rabs_pos_eq d), (Rabs_pos_eq eps) by lra. rewrite (Rabs_pos_eq (4 * PI / 3)) by lra.
    apply Rmult_le_compat_r; [apply Rabs_pos|]. assert (0 <= s * (2 * Rabs a + a ^ 2) * d) by (apply Rmult_le_pos; lra). nra.
Qed.
(** *** the Love number *)
(** Hinderer's formula. *)
Theorem C200_k2 radius beta h C : h <> 0 -> C < 1 / 2 ->
  let y := radius * beta / h in
  let num := 8 * C ^ 5 / 5 * (1 - 2 * C) ^ 2 * (2 + 2 * C * (y - 1) - y) in
  let den := 2 * C * (6 - 3 * y + 3 * C * (5 * y - 8)) + 4 * C ^ 3 * (13 - 11 * y + C * (3 * y - 2) + 2 * C ^ 2 * (1 + y)) + 3 * (1 - 2 * C) ^ 2 * (2 - y + 2 * C * (y - 1)) * ln (1 - 2 * C) in
  calc_k2 radius beta h C = if Req_EM_T den 0 then None else Some (num / den).
Proof.
  intros HZ CH. cbv zeta. unfold calc_k2. rewrite pdiv_some by exact HZ. cbn [bindo]. destruct (Rlt_dec C (1 / 2)); [|contradiction]. unfold pdiv. set (y := radius * beta / h).
  assert (D : k2_denominator y C = 2 * C * (6 - 3 * y + 3 * C * (5 * y - 8)) + 4 * C ^ 3 * (13 - 11 * y + C * (3 * y - 2) + 2 * C ^ 2 * (1 + y)) + 3 * (1 - 2 * C) ^ 2 * (2 - y + 2 * C * (y - 1)) * ln (1 - 2 * C)).
  { unfold k2_denominator. replace (ln (1 / (1 - 2 * C))) with (- ln (1 - 2 * C)) by (unfold Rdiv; rewrite Rmult_1_l, ln_Rinv by lra; reflexivity). ring. }
  rewrite <- D. destruct (Req_EM_T (k2_denominator y C) 0); [reflexivity|]. f_equal. f_equal. unfold k2_numerator. field.
Qed.
(** the logarithm to fifth order *)
Definition log_rest (x : R) : R := - ln (1 - x) - (x + x ^ 2 / 2 + x ^ 3 / 3 + x ^ 4 / 4 + x ^ 5 / 5).
Lemma log_rest_derive x : x < 1 -> is_derive log_rest x (x ^ 5 / (1 - x)).
Proof. intros H. unfold log_rest. auto_derive; [lra|]. field. lra. Qed.
Lemma log_rest_bound x : Rabs x <= 1 / 2 -> Rabs (log_rest x) <= 2 * Rabs x ^ 6.
Proof.
  intros H. assert (HX : - (1 / 2) <= x <= 1 / 2) by (unfold Rabs in H; destruct (Rcase_abs x); lra).
  destruct (MVT_gen log_rest 0 x (fun x => x ^ 5 / (1 - x))) as (z & Z & M).
  - intros t T. apply log_rest_derive. unfold Rmin, Rmax in T. destruct (Rle_dec 0 x); lra.
  - intros t T. apply continuity_pt_filterlim. apply (ex_derive_continuous (V := R_NormedModule) log_rest). eexists. apply log_rest_derive. unfold Rmin, Rmax in T. destruct (Rle_dec 0 x); lra.
  - assert (L0 : log_rest 0 = 0) by (unfold log_rest; rewrite Rminus_0_r, ln_1; field). rewrite L0, !Rminus_0_r in M. rewrite M.
    assert (ZB : Rabs z <= Rabs x /\ 1 / 2 <= 1 - z) by (unfold Rmin, Rmax in Z; unfold Rabs; destruct (Rle_dec 0 x); destruct (Rcase_abs z); destruct (Rcase_abs x); lra). destruct ZB as [ZB Z1].
    rewrite Rabs_mult. replace (2 * Rabs x ^ 6) with (2 * Rabs x ^ 5 * Rabs x) by ring. apply Rmult_le_compat_r; [apply Rabs_pos|]. unfold Rdiv. rewrite Rabs_mult, <- RPow_abs. rewrite (Rabs_pos_eq (/ (1 - z))) by (left; apply Rinv_0_lt_compat; lra).
    assert (/ (1 - z) <= 2) by (replace 2 with (/ (1 / 2)) by field; apply Rinv_le_contravar; lra). assert (0 < / (1 - z)) by (apply Rinv_0_lt_compat; lra). pose proof (pow_incr (Rabs z) (Rabs x) 5 (conj (Rabs_pos z) ZB)) as PI5. pose proof (pow_le (Rabs z) 5 (Rabs_pos z)).
    rewrite (Rmult_comm 2). apply Rmult_le_compat; lra.
Qed.
Lemma denominator_expand y C : C < 1 / 2 -> k2_denominator y C =
  C ^ 5 * (16 / 5 * (y + 3) + C * (64 - 176 / 5 * y + C * ((672 * y - 1056) / 5 + C * (768 / 5 * (1 - y))))) - 3 * (1 - 2 * C) ^ 2 * (2 * C * (y - 1) - y + 2) * log_rest (2 * C).
Proof.
  intros H. unfold k2_denominator, log_rest. replace (ln (1 / (1 - 2 * C))) with (- ln (1 - 2 * C)) by (unfold Rdiv; rewrite Rmult_1_l, ln_Rinv by lra; reflexivity). field.
Qed.
(** For stars that are not compact the Love number is Newton's: (2 - y) / (2 (y + 3)). *)
Theorem C200_newtonian y : y <> -3 -> is_lim (fun C => k2_numerator y C / k2_denominator y C) 0 ((2 - y) / (2 * (y + 3))).
Proof.
  intros HY.
  set (N := fun C : R => 8 / 5 * (1 - 2 * C) ^ 2 * (2 * C * (y - 1) - y + 2)).
  set (D := fun C : R => (16 / 5 * (y + 3) + C * (64 - 176 / 5 * y + C * ((672 * y - 1056) / 5 + C * (768 / 5 * (1 - y))))) - 3 * (1 - 2 * C) ^ 2 * (2 * C * (y - 1) - y + 2) * (log_rest (2 * C) / C ^ 5)).
  apply (is_lim_ext_loc (fun C => N C / D C)).
  { exists (mkposreal (1 / 4) ltac:(lra)). intros C HC CZ. change (Rabs (C - 0) < 1 / 4) in HC. rewrite Rminus_0_r in HC. apply Rabs_def2 in HC. assert (C5 : C ^ 5 <> 0) by (apply pow_nonzero; exact CZ).
    assert (EN : k2_numerator y C = C ^ 5 * N C) by (unfold k2_numerator, N; ring). assert (ED : k2_denominator y C = C ^ 5 * D C) by (rewrite denominator_expand by lra; unfold D; field; exact CZ). rewrite EN, ED.
    destruct (Req_dec (D C) 0) as [Z|Z]; [rewrite Z; unfold Rdiv; rewrite Rmult_0_r, Rinv_0; ring|field; split; assumption]. }
  assert (LN : is_lim N 0 (N 0)).
  { apply is_lim_continuity. apply continuity_pt_filterlim. apply (ex_derive_continuous (V := R_NormedModule) N). unfold N. auto_derive. exact I. }
  assert (LA : is_lim (fun C => 128 * Rabs C) 0 0).
  { pose proof (is_lim_scal_l Rabs 128 0 (Rabs 0) (is_lim_continuity Rabs 0 (Rcontinuity_abs 0))) as L. change (Rbar_mult 128 (Rabs 0)) with (Finite (128 * Rabs 0)) in L. rewrite Rabs_R0, Rmult_0_r in L. exact L. }
  assert (LR : is_lim (fun C => log_rest (2 * C) / C ^ 5) 0 0).
  { apply (is_lim_le_le_loc (fun C => - (128 * Rabs C)) (fun C => 128 * Rabs C)).
    - exists (mkposreal (1 / 4) ltac:(lra)). intros C HC CZ. change (Rabs (C - 0) < 1 / 4) in HC. rewrite Rminus_0_r in HC. pose proof (log_rest_bound (2 * C)) as B. rewrite Rabs_mult, (Rabs_pos_eq 2) in B by lra. specialize (B ltac:(lra)).
      assert (CP : 0 < Rabs C) by (apply Rabs_pos_lt; exact CZ). assert (P5 : 0 < Rabs C ^ 5) by (apply pow_lt; exact CP).
      assert (B' : Rabs (log_rest (2 * C) / C ^ 5) <= 128 * Rabs C). { unfold Rdiv. rewrite Rabs_mult, Rabs_Rinv by (apply pow_nonzero; exact CZ). rewrite <- RPow_abs. apply (Rmult_le_reg_r (Rabs C ^ 5)); [exact P5|]. rewrite Rmult_assoc, Rinv_l by lra. rewrite Rmult_1_r. replace (128 * Rabs C * Rabs C ^ 5) with (2 * (2 * Rabs C) ^ 6) by ring. exact B. }
      unfold Rabs in B' at 1. destruct (Rcase_abs _); lra.
    - pose proof (is_lim_opp (fun C => 128 * Rabs C) 0 0 LA) as L. cbn [Rbar_opp] in L. rewrite Ropp_0 in L. exact L.
    - exact LA. }
  set (D1 := fun C : R => 16 / 5 * (y + 3) + C * (64 - 176 / 5 * y + C * ((672 * y - 1056) / 5 + C * (768 / 5 * (1 - y))))). set (D2 := fun C : R => 3 * (1 - 2 * C) ^ 2 * (2 * C * (y - 1) - y + 2)).
  assert (LD : is_lim D 0 (16 / 5 * (y + 3))).
  { replace (16 / 5 * (y + 3)) with (D1 0 - D2 0 * 0) by (unfold D1; ring). apply (is_lim_minus' D1 (fun C => D2 C * (log_rest (2 * C) / C ^ 5))).
    - apply is_lim_continuity. apply continuity_pt_filterlim. apply (ex_derive_continuous (V := R_NormedModule) D1). unfold D1. auto_derive. exact I.
    - apply (is_lim_mult D2 (fun C => log_rest (2 * C) / C ^ 5) 0 (D2 0) 0); [|exact LR|exact I]. apply is_lim_continuity. apply continuity_pt_filterlim. apply (ex_derive_continuous (V := R_NormedModule) D2). unfold D2. auto_derive. exact I. }
  replace (Finite ((2 - y) / (2 * (y + 3)))) with (Finite (N 0 / (16 / 5 * (y + 3)))) by (f_equal; unfold N; field; lra).
  apply (is_lim_div N D 0 (N 0) (16 / 5 * (y + 3)) LN LD); [|exact I]. intros E. injection E as E. lra.
Qed.
(** A star of constant density (y = -1) has the Love number 3/4 in this limit; at compactness 1/4 and y = 1 the formula gives a definite value. *)
Example C200_ex : is_lim (fun C => k2_numerator (-1) C / k2_denominator (-1) C) 0 (3 / 4) /\
  exists dm dr dH dB, tov_eqns 1 0 2 1 4 1 3 = Some (dm, dr, dH, dB) /\ dr = -8 /\ dH = -24.
Proof.
  split; [replace (3 / 4) with ((2 - -1) / (2 * (-1 + 3))) by field; apply C200_newtonian; lra|].
  pose proof PI_RGT_0. unfold tov_eqns. rewrite !pdiv_some by lra. cbn [bindo]. rewrite !pdiv_some by lra. cbn [bindo]. do 4 eexists. split; [reflexivity|]. split; field; lra.
Qed.

(** ** Assumptions of every theorem above *)
Definition Eos4_Props_all :=
  (@C200_tov,
   @C200_outwards,
   @C200_riccati,
   @C200_start,
   @C200_centre,
   @C200_k2,
   @C200_newtonian).
Print Assumptions Eos4_Props_all.
