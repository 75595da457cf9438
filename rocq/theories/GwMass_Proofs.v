(** Specifications and proofs for the mass / tidal conversions. *)
From Coq Require Import Reals Lra Psatz.
From Verif Require Import PyReal GwMass_Model.
Open Scope R_scope.

(** ** Specification: the physical relations, as polynomial equations *)
Definition is_chirp_mass (mc m1 m2 : R) := 0 < mc /\ mc ^ 5 * (m1 + m2) = (m1 * m2) ^ 3.
Definition is_mass_ratio (q m1 m2 : R) := q * m1 = m2.
Definition is_sym_ratio (eta m1 m2 : R) := eta * (m1 + m2) ^ 2 = m1 * m2.

(** ** Auxiliary facts *)
Lemma pow_incr_strict n x y : (0 < n)%nat -> 0 <= x -> x < y -> x ^ n < y ^ n.
Proof.
  intros Hn Hx Hxy. destruct n as [|n]; [inversion Hn|]. clear Hn.
  induction n as [|n IH]; [simpl; lra|].
  change (x ^ S (S n)) with (x * x ^ S n). change (y ^ S (S n)) with (y * y ^ S n).
  assert (0 <= x ^ S n) by (apply pow_le; exact Hx).
  apply Rle_lt_trans with (x * y ^ S n); [apply Rmult_le_compat_l; lra|].
  apply Rmult_lt_compat_r; [|exact Hxy]. apply pow_lt; lra.
Qed.
Lemma pow_inj_pos n x y : (0 < n)%nat -> 0 <= x -> 0 <= y -> x ^ n = y ^ n -> x = y.
Proof.
  intros Hn Hx Hy H. destruct (Rtotal_order x y) as [L|[E|G]]; [|exact E|].
  - pose proof (pow_incr_strict n x y Hn Hx L). lra.
  - pose proof (pow_incr_strict n y x Hn Hy G). lra.
Qed.
Lemma Rpower_pow' n x y : 0 < x -> (Rpower x y) ^ n = Rpower x (INR n * y).
Proof.
  intros Hx. rewrite <- Rpower_pow by apply Rpower_pos.
  rewrite Rpower_mult. f_equal. ring.
Qed.
Lemma chirp_unique a b m1 m2 : 0 < m1 -> 0 < m2 ->
  is_chirp_mass a m1 m2 -> is_chirp_mass b m1 m2 -> a = b.
Proof.
  intros H1 H2 [Ha Ea] [Hb Eb]. apply (pow_inj_pos 5); try lra; try (auto with arith).
  apply Rmult_eq_reg_r with (m1 + m2); [|lra]. congruence.
Qed.

Lemma chirp_spec m1 m2 : 0 < m1 -> 0 < m2 ->
  exists mc, component_masses_to_chirp_mass m1 m2 = Some mc /\ is_chirp_mass mc m1 m2.
Proof.
  intros H1 H2. assert (Hp : 0 < m1 * m2) by (apply Rmult_lt_0_compat; assumption).
  assert (Hs : 0 < m1 + m2) by lra.
  unfold component_masses_to_chirp_mass.
  rewrite !ppow_some by assumption. cbn [bindo].
  pose proof (Rpower_pos (m1 + m2) (2/10)) as Hd. pose proof (Rpower_pos (m1 * m2) (6/10)) as Hn.
  rewrite pdiv_some by lra. eexists; split; [reflexivity|]. split.
  - apply Rdiv_lt_0_compat; assumption.
  - unfold Rdiv at 1. rewrite Rpow_mult_distr. rewrite pow_inv.
    rewrite !Rpower_pow' by assumption.
    replace (INR 5 * (6/10)) with (INR 3) by (simpl; lra).
    replace (INR 5 * (2/10)) with 1 by (simpl; lra).
    rewrite Rpower_1 by exact Hs. rewrite Rpower_pow by exact Hp. field. lra.
Qed.

Lemma total_q_spec M q : 0 < M -> 0 < q ->
  exists m1 m2, total_mass_and_mass_ratio_to_component_masses M q = Some (m1, m2) /\
    0 < m1 /\ 0 < m2 /\ m1 + m2 = M /\ is_mass_ratio q m1 m2 /\ (q <= 1 -> m2 <= m1).
Proof.
  intros HM Hq. unfold total_mass_and_mass_ratio_to_component_masses.
  rewrite pdiv_some by lra. cbn [bindo].
  assert (0 < M / (1 + q)) by (apply Rdiv_lt_0_compat; lra).
  exists (M / (1 + q)), (M / (1 + q) * q). split; [reflexivity|].
  split; [assumption|]. split; [apply Rmult_lt_0_compat; assumption|].
  split; [field; lra|]. split; [unfold is_mass_ratio; ring|].
  intros Hq1. rewrite <- Rmult_1_r. apply Rmult_le_compat_l; lra.
Qed.

Lemma mc_q_total_spec mc q : 0 < mc -> 0 < q ->
  exists M, chirp_mass_and_mass_ratio_to_total_mass mc q = Some M /\ 0 < M /\
    M ^ 5 * q ^ 3 = mc ^ 5 * (1 + q) ^ 6.
Proof.
  intros Hm Hq. unfold chirp_mass_and_mass_ratio_to_total_mass.
  rewrite !ppow_some by lra. cbn [bindo].
  pose proof (Rpower_pos (1 + q) (12/10)) as Ha. pose proof (Rpower_pos q (6/10)) as Hb.
  rewrite pdiv_some by lra. eexists; split; [reflexivity|]. split.
  - apply Rdiv_lt_0_compat; [apply Rmult_lt_0_compat|]; assumption.
  - unfold Rdiv at 1. rewrite !Rpow_mult_distr, pow_inv, !Rpower_pow' by lra.
    replace (INR 5 * (12/10)) with (INR 6) by (simpl; lra).
    replace (INR 5 * (6/10)) with (INR 3) by (simpl; lra).
    rewrite !Rpower_pow by lra. field. lra.
Qed.

Lemma mc_q_spec mc q : 0 < mc -> 0 < q ->
  exists m1 m2, chirp_mass_and_mass_ratio_to_component_masses mc q = Some (m1, m2) /\
    0 < m1 /\ 0 < m2 /\ is_chirp_mass mc m1 m2 /\ is_mass_ratio q m1 m2 /\ (q <= 1 -> m2 <= m1).
Proof.
  intros Hm Hq. destruct (mc_q_total_spec mc q Hm Hq) as (M & E & HM & EM).
  destruct (total_q_spec M q HM Hq) as (m1 & m2 & E2 & H1 & H2 & HS & HQ & HL).
  exists m1, m2. unfold chirp_mass_and_mass_ratio_to_component_masses.
  rewrite E. cbn [bindo]. rewrite E2. repeat split; try assumption.
  unfold is_mass_ratio in HQ.
  assert (EM1 : M = m1 * (1 + q)) by (rewrite <- HS, <- HQ; ring).
  assert (Hq6 : 0 < (1 + q) ^ 5) by (apply pow_lt; lra).
  apply Rmult_eq_reg_r with ((1 + q) ^ 5); [|lra].
  transitivity (m1 * (mc ^ 5 * (1 + q) ^ 6)); [rewrite <- HQ; ring|].
  rewrite <- EM, EM1, <- HQ. ring.
Qed.

(** conversely, starting from component masses *)
Lemma mc_q_inverse m1 m2 mc q : 0 < m1 -> 0 < m2 ->
  is_chirp_mass mc m1 m2 -> is_mass_ratio q m1 m2 ->
  chirp_mass_and_mass_ratio_to_component_masses mc q = Some (m1, m2).
Proof.
  intros H1 H2 HC HQ. assert (Hq : 0 < q).
  { apply Rmult_lt_reg_r with m1; [exact H1|]. unfold is_mass_ratio in HQ. lra. }
  destruct (mc_q_spec mc q (proj1 HC) Hq) as (a & b & E & Ha & Hb & HC' & HQ' & _).
  rewrite E. unfold is_mass_ratio in *. destruct HC as [Hm Em]. destruct HC' as [_ Em'].
  assert (a = m1).
  { apply Rmult_eq_reg_l with (mc ^ 5 * (1 + q)).
    2:{ apply Rgt_not_eq. apply Rmult_lt_0_compat; [apply pow_lt|]; lra. }
    assert (Ca : mc ^ 5 * (1 + q) * a = (a * (q * a)) ^ 3) by (rewrite HQ', <- Em', <- HQ'; ring).
    assert (Cm : mc ^ 5 * (1 + q) * m1 = (m1 * (q * m1)) ^ 3) by (rewrite HQ, <- Em, <- HQ; ring).
    assert (Ea : a ^ 5 = m1 ^ 5).
    { apply Rmult_eq_reg_l with (q ^ 3); [|apply Rgt_not_eq, pow_lt; exact Hq].
      apply Rmult_eq_reg_l with a; [|lra].
      transitivity (mc ^ 5 * (1 + q) * a); [rewrite Ca; ring|].
      transitivity (a * (mc ^ 5 * (1 + q))); [ring|]. f_equal.
      apply Rmult_eq_reg_r with m1; [|lra]. rewrite Cm. ring. }
    f_equal. apply (pow_inj_pos 5); auto with arith; lra. }
  subst a. rewrite HQ in HQ'. subst b. reflexivity.
Qed.
Lemma total_q_inverse m1 m2 q : 0 < m1 -> 0 < m2 -> is_mass_ratio q m1 m2 ->
  total_mass_and_mass_ratio_to_component_masses (m1 + m2) q = Some (m1, m2).
Proof.
  intros H1 H2 HQ. unfold is_mass_ratio in HQ.
  assert (Hq : 0 < q) by (apply Rmult_lt_reg_r with m1; lra).
  unfold total_mass_and_mass_ratio_to_component_masses. rewrite pdiv_some by lra. cbn [bindo].
  rewrite <- HQ. apply f_equal. apply f_equal2; field; lra.
Qed.

Lemma sym_to_q_spec eta : 0 < eta <= 1/4 ->
  exists q, symmetric_mass_ratio_to_mass_ratio eta = Some q /\ 0 < q <= 1 /\ eta * (1 + q) ^ 2 = q.
Proof.
  intros [H0 H1]. unfold symmetric_mass_ratio_to_mass_ratio.
  rewrite pdiv_some by lra. cbn [bindo].
  set (t := 1 / eta / 2 - 1). assert (Ht : 1 <= t).
  { unfold t. apply Rmult_le_reg_r with eta; [exact H0|]. field_simplify; [|lra]. lra. }
  assert (Ht2 : 0 <= t ^ 2 - 1) by nra.
  rewrite psqrt_some by exact Ht2. cbn [bindo].
  exists (t - sqrt (t ^ 2 - 1)). split; [reflexivity|].
  pose proof (sqrt_sqrt _ Ht2) as HS. pose proof (sqrt_pos (t ^ 2 - 1)) as HP.
  set (s := sqrt (t ^ 2 - 1)) in *.
  assert (E : (t - s) * (t + s) = 1) by nra.
  assert (Hpos : 0 < t - s) by nra.
  repeat split; [exact Hpos|nra|].
  (* q^2 - 2 t q + 1 = 0 *)
  assert (Eq : (t - s) ^ 2 - 2 * t * (t - s) + 1 = 0) by nra.
  set (q := t - s) in *.
  assert (Et : t = 1 / eta / 2 - 1) by reflexivity.
  assert (E2 : 2 * (t + 1) * eta = 1) by (rewrite Et; field; lra).
  replace ((1 + q) ^ 2) with (2 * (t + 1) * q) by nra.
  replace (eta * (2 * (t + 1) * q)) with (2 * (t + 1) * eta * q) by ring. rewrite E2. ring.
Qed.
Lemma sym_to_q_none eta : 1/4 < eta -> symmetric_mass_ratio_to_mass_ratio eta = None.
Proof.
  intros H. unfold symmetric_mass_ratio_to_mass_ratio. rewrite pdiv_some by lra. cbn [bindo].
  rewrite psqrt_none; [reflexivity|].
  assert (0 < 1 / eta / 2) by (apply Rdiv_lt_0_compat; [apply Rdiv_lt_0_compat|]; lra).
  assert (1 / eta / 2 < 2) by (apply Rmult_lt_reg_r with eta; [lra|]; field_simplify; lra).
  nra.
Qed.
Lemma q_eta_unique eta q q' : 0 < q <= 1 -> 0 < q' <= 1 ->
  eta * (1 + q) ^ 2 = q -> eta * (1 + q') ^ 2 = q' -> q = q'.
Proof.
  intros Hq Hq' E E'.
  assert (q * (1 + q') ^ 2 = q' * (1 + q) ^ 2) by (rewrite <- E at 1; rewrite <- E' at 2; ring).
  assert ((q - q') * (1 - q * q') = 0) by nra.
  apply Rmult_integral in H0 as [H0|H0]; [lra|].
  assert (q * q' = 1) by lra. nra.
Qed.
Lemma sym_to_q_inverse m1 m2 eta q : 0 < m2 <= m1 -> is_sym_ratio eta m1 m2 -> is_mass_ratio q m1 m2 ->
  symmetric_mass_ratio_to_mass_ratio eta = Some q.
Proof.
  intros [H2 H12] HE HQ. unfold is_sym_ratio, is_mass_ratio in *.
  assert (Hq : 0 < q <= 1) by (split; [apply Rmult_lt_reg_r with m1|apply Rmult_le_reg_r with m1]; lra).
  assert (E : eta * (1 + q) ^ 2 = q).
  { apply Rmult_eq_reg_r with (m1 * m1); [|nra]. rewrite <- HQ in HE.
    transitivity (eta * (m1 + q * m1) ^ 2); [ring|]. rewrite HE. ring. }
  assert (He : 0 < eta <= 1/4).
  { assert (0 < (1 + q) ^ 2) by (apply pow_lt; lra).
    split; [apply Rmult_lt_reg_r with ((1 + q) ^ 2)|apply Rmult_le_reg_r with ((1 + q) ^ 2)];
      try assumption; rewrite E; nra. }
  destruct (sym_to_q_spec eta He) as (q' & E1 & Hq' & E2). rewrite E1. f_equal.
  apply (q_eta_unique eta); assumption.
Qed.

Lemma eta_spec m1 m2 : 0 < m1 -> 0 < m2 ->
  exists eta, component_masses_to_symmetric_mass_ratio m1 m2 = Some eta /\
    is_sym_ratio eta m1 m2 /\ 0 < eta <= 1/4.
Proof.
  intros H1 H2. unfold component_masses_to_symmetric_mass_ratio.
  assert (Hd : 0 < (m1 + m2) ^ 2) by (apply pow_lt; lra).
  rewrite pdiv_some by lra. cbn [bindo].
  assert (Hle : m1 * m2 / (m1 + m2) ^ 2 <= 1/4).
  { apply Rmult_le_reg_r with ((m1 + m2) ^ 2); [exact Hd|].
    replace (m1 * m2 / (m1 + m2) ^ 2 * (m1 + m2) ^ 2) with (m1 * m2) by (field; lra).
    pose proof (pow2_ge_0 (m1 - m2)). nra. }
  exists (m1 * m2 / (m1 + m2) ^ 2). rewrite Rmin_left by exact Hle.
  split; [reflexivity|]. split.
  - unfold is_sym_ratio. field. lra.
  - split; [|exact Hle]. apply Rdiv_lt_0_compat; [apply Rmult_lt_0_compat|]; assumption.
Qed.

Lemma mc_M_eta_spec m1 m2 mc : 0 < m1 -> 0 < m2 -> is_chirp_mass mc m1 m2 ->
  exists eta, chirp_mass_and_total_mass_to_symmetric_mass_ratio mc (m1 + m2) = Some eta /\
    is_sym_ratio eta m1 m2.
Proof.
  intros H1 H2 [Hm Em]. unfold chirp_mass_and_total_mass_to_symmetric_mass_ratio.
  rewrite pdiv_some by lra. cbn [bindo].
  assert (Hr : 0 < mc / (m1 + m2)) by (apply Rdiv_lt_0_compat; lra).
  rewrite ppow_some by exact Hr. eexists; split; [reflexivity|].
  unfold is_sym_ratio.
  assert (Hp : 0 < m1 * m2) by (apply Rmult_lt_0_compat; assumption).
  apply (pow_inj_pos 3); [auto with arith| |lra|].
  { apply Rmult_le_pos; [left; apply Rpower_pos|]. apply pow_le; lra. }
  rewrite Rpow_mult_distr, Rpower_pow' by exact Hr.
  replace (INR 3 * (5/3)) with (INR 5) by (simpl; lra). rewrite Rpower_pow by exact Hr.
  rewrite <- Em. field. lra.
Qed.

(** ** The cubic q^3 = t (1 + q) *)
Lemma cubic_root_unique t q q' : 0 < q -> 0 < q' -> 0 < t ->
  q ^ 3 = t * (1 + q) -> q' ^ 3 = t * (1 + q') -> q = q'.
Proof.
  intros Hq Hq' Ht E E'.
  assert (q ^ 3 * (1 + q') = q' ^ 3 * (1 + q)) by (rewrite E, E'; ring).
  assert ((q - q') * (q ^ 2 + q * q' + q' ^ 2 + q * q' * (q + q')) = 0) by nra.
  apply Rmult_integral in H0 as [H0|H0]; [lra|].
  assert (0 < q * q') by (apply Rmult_lt_0_compat; assumption). nra.
Qed.

(** u + v solves the cubic when u v = t/3 and u^3 + v^3 = t *)
Lemma cardano u v t : 3 * (u * v) = t -> u ^ 3 + v ^ 3 = t -> (u + v) ^ 3 = t * (1 + (u + v)).
Proof.
  intros E1 E2. transitivity (u ^ 3 + v ^ 3 + 3 * (u * v) * (u + v)); [ring|].
  rewrite E1, E2. ring.
Qed.

Lemma disc_sign t : 0 < t -> (0 <= 27 * t ^ 2 - 4 * t ^ 3 <-> t <= 27/4).
Proof.
  intros Ht. assert (0 < t ^ 2) by (apply pow_lt; exact Ht).
  replace (27 * t ^ 2 - 4 * t ^ 3) with (t ^ 2 * (27 - 4 * t)) by ring.
  split; intros H0; nra.
Qed.

Lemma third_cube x : 0 < x -> Rpower x (1/3) ^ 3 = x.
Proof.
  intros Hx. rewrite Rpower_pow' by exact Hx.
  replace (INR 3 * (1/3)) with 1 by (simpl; lra). apply Rpower_1; exact Hx.
Qed.

Lemma m1_mc_q_root m1 mc : 0 < m1 -> 0 < mc -> (mc / m1) ^ 5 <= 27/4 ->
  exists q, mass_1_and_chirp_mass_to_mass_ratio m1 mc = Some q /\ 0 < q /\
    q ^ 3 = (mc / m1) ^ 5 * (1 + q).
Proof.
  intros H1 Hm Hle. unfold mass_1_and_chirp_mass_to_mass_ratio.
  rewrite pdiv_some by lra. cbn [bindo].
  assert (Ht : 0 < (mc / m1) ^ 5) by (apply pow_lt, Rdiv_lt_0_compat; lra).
  set (t := (mc / m1) ^ 5) in *.
  assert (Hdisc : 0 <= 27 * t ^ 2 - 4 * t ^ 3) by (apply disc_sign; assumption).
  rewrite (psqrt_some 3) by lra. cbn [bindo].
  rewrite (psqrt_some _ Hdisc). cbn [bindo].
  assert (Hs : (sqrt 3 * sqrt (27 * t ^ 2 - 4 * t ^ 3)) ^ 2 = 3 * (27 * t ^ 2 - 4 * t ^ 3)).
  { rewrite Rpow_mult_distr, !pow2_sqrt by lra. reflexivity. }
  assert (Hs0 : 0 <= sqrt 3 * sqrt (27 * t ^ 2 - 4 * t ^ 3))
    by (apply Rmult_le_pos; apply sqrt_pos).
  set (s := sqrt 3 * sqrt (27 * t ^ 2 - 4 * t ^ 3)) in *.
  assert (Hw : 0 < s + 9 * t) by lra. set (w := s + 9 * t) in *.
  rewrite pdiv_some by lra. cbn [bindo].
  assert (Hx : 0 < 2 / 3 / w) by (apply Rdiv_lt_0_compat; lra).
  assert (Hy : 0 < w / (2 * 3 ^ 2)) by (apply Rdiv_lt_0_compat; lra).
  rewrite !ppow_some by assumption. cbn [bindo].
  eexists; split; [reflexivity|].
  pose proof (third_cube _ Hx) as Cx. pose proof (third_cube _ Hy) as Cy.
  assert (Cxy : Rpower (2 / 3 / w) (1/3) * Rpower (w / (2 * 3 ^ 2)) (1/3) = 1/3).
  { rewrite Rpower_mult_distr by assumption.
    replace (2 / 3 / w * (w / (2 * 3 ^ 2))) with ((1/3) ^ 3) by (field; lra).
    rewrite <- Rpower_pow by lra. rewrite Rpower_mult.
    replace (INR 3 * (1/3)) with 1 by (simpl; lra). apply Rpower_1; lra. }
  pose proof (Rpower_pos (2/3/w) (1/3)) as Px. pose proof (Rpower_pos (w / (2 * 3 ^ 2)) (1/3)) as Py.
  set (u := Rpower (2/3/w) (1/3)) in *. set (v := Rpower (w / (2 * 3 ^ 2)) (1/3)) in *.
  split; [apply Rplus_lt_0_compat; [apply Rmult_lt_0_compat|]; assumption|].
  apply cardano.
  - replace (3 * (u * t * v)) with (3 * (u * v) * t) by ring. rewrite Cxy. lra.
  - rewrite Rpow_mult_distr, Cx, Cy.
    assert (Ew : w ^ 2 = 18 * t * w - 12 * t ^ 3) by (unfold w; nra).
    apply Rmult_eq_reg_r with (18 * w); [|lra].
    transitivity (12 * t ^ 3 + w ^ 2); [field; lra|]. rewrite Ew. ring.
Qed.

Lemma m1_mc_q_none m1 mc : 0 < m1 -> 0 < mc -> 27/4 < (mc / m1) ^ 5 ->
  mass_1_and_chirp_mass_to_mass_ratio m1 mc = None.
Proof.
  intros H1 Hm Hlt. unfold mass_1_and_chirp_mass_to_mass_ratio.
  rewrite pdiv_some by lra. cbn [bindo]. rewrite (psqrt_some 3) by lra. cbn [bindo].
  set (t := (mc / m1) ^ 5) in *. rewrite psqrt_none; [reflexivity|].
  assert (0 < t ^ 2) by (apply pow_lt; lra).
  replace (27 * t ^ 2 - 4 * t ^ 3) with (t ^ 2 * (27 - 4 * t)) by ring. nra.
Qed.

(** the ratio (mc/m1)^5 in terms of r = m2/m1 *)
Lemma chirp_t mc m1 m2 : 0 < m1 -> 0 < m2 -> is_chirp_mass mc m1 m2 ->
  (m2 / m1) ^ 3 = (mc / m1) ^ 5 * (1 + m2 / m1).
Proof.
  intros H1 H2 [Hm Em].
  apply Rmult_eq_reg_r with (m1 ^ 6); [|apply Rgt_not_eq, pow_lt; exact H1].
  transitivity ((m1 * m2) ^ 3); [field; lra|]. rewrite <- Em. field. lra.
Qed.
Lemma t_le_iff t r : 0 < r -> 0 < t -> r ^ 3 = t * (1 + r) -> (t <= 27/4 <-> r <= 3).
Proof.
  intros Hr Ht E. split; intros H.
  - destruct (Rle_lt_dec r 3) as [L|G]; [exact L|exfalso].
    assert (r ^ 3 <= 27/4 * (1 + r)) by (rewrite E; apply Rmult_le_compat_r; lra). nra.
  - destruct (Rle_lt_dec t (27/4)) as [L|G]; [exact L|exfalso].
    assert (27/4 * (1 + r) < r ^ 3) by (rewrite E; apply Rmult_lt_compat_r; lra). nra.
Qed.

Lemma chirp_swap mc m1 m2 : is_chirp_mass mc m1 m2 -> is_chirp_mass mc m2 m1.
Proof. intros [H E]. split; [exact H|]. rewrite (Rplus_comm m2), (Rmult_comm m2). exact E. Qed.

Lemma m1_mc_inverse mc m1 m2 : 0 < m1 -> 0 < m2 -> m2 <= 3 * m1 -> is_chirp_mass mc m1 m2 ->
  mass_1_and_chirp_mass_to_mass_ratio m1 mc = Some (m2 / m1).
Proof.
  intros H1 H2 H3 HC. pose proof (chirp_t _ _ _ H1 H2 HC) as E.
  assert (Hr : 0 < m2 / m1) by (apply Rdiv_lt_0_compat; assumption).
  assert (Ht : 0 < (mc / m1) ^ 5) by (apply pow_lt, Rdiv_lt_0_compat; [apply HC|exact H1]).
  assert (Hr3 : m2 / m1 <= 3).
  { apply Rmult_le_reg_r with m1; [exact H1|]. unfold Rdiv. rewrite Rmult_assoc, Rinv_l; lra. }
  pose proof (proj2 (t_le_iff _ _ Hr Ht E) Hr3) as Hle.
  destruct (m1_mc_q_root m1 mc H1 (proj1 HC) Hle) as (q & Eq & Hq & Cq).
  rewrite Eq. f_equal. apply (cubic_root_unique ((mc / m1) ^ 5)); assumption.
Qed.
Lemma m1_mc_fails mc m1 m2 : 0 < m1 -> 0 < m2 -> 3 * m1 < m2 -> is_chirp_mass mc m1 m2 ->
  mass_1_and_chirp_mass_to_mass_ratio m1 mc = None.
Proof.
  intros H1 H2 H3 HC. pose proof (chirp_t _ _ _ H1 H2 HC) as E.
  assert (Hr : 0 < m2 / m1) by (apply Rdiv_lt_0_compat; assumption).
  assert (Ht : 0 < (mc / m1) ^ 5) by (apply pow_lt, Rdiv_lt_0_compat; [apply HC|exact H1]).
  apply m1_mc_q_none; [exact H1|apply HC|].
  apply Rnot_le_lt. intros Hle. apply (proj1 (t_le_iff _ _ Hr Ht E)) in Hle.
  apply Rmult_le_compat_r with (r := m1) in Hle; [|lra].
  unfold Rdiv in Hle. rewrite Rmult_assoc, Rinv_l in Hle; lra.
Qed.
Lemma m2_mc_inverse mc m1 m2 : 0 < m1 -> 0 < m2 -> is_chirp_mass mc m1 m2 ->
  (m1 <= 3 * m2 -> mass_2_and_chirp_mass_to_mass_ratio m2 mc = Some (m2 / m1)) /\
  (3 * m2 < m1 -> mass_2_and_chirp_mass_to_mass_ratio m2 mc = None).
Proof.
  intros H1 H2 HC. unfold mass_2_and_chirp_mass_to_mass_ratio. split; intros H.
  - rewrite (m1_mc_inverse mc m2 m1) by (try assumption; apply chirp_swap; exact HC).
    cbn [bindo]. rewrite pdiv_some; [f_equal; field; lra|].
    apply Rgt_not_eq, Rdiv_lt_0_compat; assumption.
  - rewrite (m1_mc_fails mc m2 m1); [reflexivity|assumption..|apply chirp_swap; exact HC].
Qed.

(** the second implementation of the same cubic agrees with the first *)
Lemma cbrt_mult a b : 0 < a -> 0 < b -> cbrt (a * b) = cbrt a * cbrt b.
Proof.
  intros Ha Hb. rewrite !cbrt_pos by (try assumption; apply Rmult_lt_0_compat; assumption).
  symmetry. apply Rpower_mult_distr; assumption.
Qed.
Lemma cbrt_gt0 a : 0 < a -> 0 < cbrt a.
Proof. intros H. rewrite cbrt_pos by exact H. apply Rpower_pos. Qed.
Lemma cbrt_cube' a : cbrt a ^ 3 = a.
Proof. rewrite <- (cbrt_cube a) at 2. ring. Qed.

Lemma primary_root mc m1 : 0 < m1 -> 0 < mc -> (mc / m1) ^ 5 <= 27/4 ->
  exists q, chirp_mass_and_primary_mass_to_mass_ratio mc m1 = Some q /\ 0 < q /\
    q ^ 3 = (mc / m1) ^ 5 * (1 + q).
Proof.
  intros H1 Hm Hle. unfold chirp_mass_and_primary_mass_to_mass_ratio.
  rewrite pdiv_some by lra. cbn [bindo].
  assert (Ht : 0 < (mc / m1) ^ 5) by (apply pow_lt, Rdiv_lt_0_compat; lra).
  set (t := (mc / m1) ^ 5) in *.
  assert (Hdisc : 0 <= 27 * t ^ 2 - 4 * t ^ 3) by (apply disc_sign; assumption).
  rewrite (psqrt_some 3) by lra. cbn [bindo]. rewrite (psqrt_some _ Hdisc). cbn [bindo].
  assert (Hs : (sqrt 3 * sqrt (27 * t ^ 2 - 4 * t ^ 3)) ^ 2 = 3 * (27 * t ^ 2 - 4 * t ^ 3)).
  { rewrite Rpow_mult_distr, !pow2_sqrt by lra. reflexivity. }
  assert (Hs0 : 0 <= sqrt 3 * sqrt (27 * t ^ 2 - 4 * t ^ 3))
    by (apply Rmult_le_pos; apply sqrt_pos).
  set (s := sqrt 3 * sqrt (27 * t ^ 2 - 4 * t ^ 3)) in *.
  assert (Hw : 0 < 9 * t + s) by lra. set (w := 9 * t + s) in *.
  rewrite (ppow_some 3) by lra. cbn [bindo].
  pose proof (cbrt_gt0 w Hw) as Pw. pose proof (cbrt_gt0 2 ltac:(lra)) as P2.
  pose proof (Rpower_pos 3 (2/3)) as P3. pose proof (cbrt_gt0 (2/3) ltac:(lra)) as P23.
  rewrite !pdiv_some by (apply Rgt_not_eq; try assumption; apply Rmult_lt_0_compat; assumption).
  cbn [bindo]. eexists; split; [reflexivity|].
  assert (C3 : Rpower 3 (2/3) ^ 3 = 9).
  { rewrite Rpower_pow' by lra. replace (INR 3 * (2/3)) with (INR 2) by (simpl; lra).
    rewrite Rpower_pow by lra. lra. }
  (* cbrt(2/3) / (cbrt 2 * 3^(2/3)) = 1/3 *)
  assert (E13 : 3 * cbrt (2/3) = cbrt 2 * Rpower 3 (2/3)).
  { apply (pow_inj_pos 3); [auto with arith|lra|apply Rlt_le, Rmult_lt_0_compat; assumption|].
    rewrite !Rpow_mult_distr, !cbrt_cube', C3. lra. }
  set (c2 := cbrt 2) in *. set (c3 := Rpower 3 (2/3)) in *. set (c23 := cbrt (2/3)) in *.
  set (t0 := cbrt w) in *.
  split.
  { apply Rplus_lt_0_compat; apply Rdiv_lt_0_compat; try assumption; apply Rmult_lt_0_compat; assumption. }
  apply cardano.
  - transitivity (3 * c23 / (c2 * c3) * t); [field; lra|]. rewrite E13. field. lra.
  - assert (Ew : w ^ 2 = 18 * t * w - 12 * t ^ 3) by (unfold w; nra).
    assert (Cw : t0 ^ 3 = w) by apply cbrt_cube'.
    assert (C2 : c2 ^ 3 = 2) by apply cbrt_cube'.
    assert (C23 : c23 ^ 3 = 2/3) by apply cbrt_cube'.
    transitivity (c23 ^ 3 * t ^ 3 / t0 ^ 3 + t0 ^ 3 / (c2 ^ 3 * c3 ^ 3)); [field; lra|].
    rewrite Cw, C2, C3, C23.
    apply Rmult_eq_reg_r with (18 * w); [|lra].
    transitivity (12 * t ^ 3 + w ^ 2); [field; lra|]. rewrite Ew. ring.
Qed.
Lemma primary_inverse mc m1 m2 : 0 < m1 -> 0 < m2 -> m2 <= 3 * m1 -> is_chirp_mass mc m1 m2 ->
  chirp_mass_and_primary_mass_to_mass_ratio mc m1 = Some (m2 / m1).
Proof.
  intros H1 H2 H3 HC. pose proof (chirp_t _ _ _ H1 H2 HC) as E.
  assert (Hr : 0 < m2 / m1) by (apply Rdiv_lt_0_compat; assumption).
  assert (Ht : 0 < (mc / m1) ^ 5) by (apply pow_lt, Rdiv_lt_0_compat; [apply HC|exact H1]).
  assert (Hr3 : m2 / m1 <= 3).
  { apply Rmult_le_reg_r with m1; [exact H1|]. unfold Rdiv. rewrite Rmult_assoc, Rinv_l; lra. }
  pose proof (proj2 (t_le_iff _ _ Hr Ht E) Hr3) as Hle.
  destruct (primary_root mc m1 H1 (proj1 HC) Hle) as (q & Eq & Hq & Cq).
  rewrite Eq. f_equal. apply (cubic_root_unique ((mc / m1) ^ 5)); assumption.
Qed.

(** ** Tides *)
Lemma tides_roundtrip l1 l2 m1 m2 lt dlt : 0 < m1 -> 0 < m2 ->
  lambda_1_lambda_2_to_lambda_tilde l1 l2 m1 m2 = Some lt ->
  lambda_1_lambda_2_to_delta_lambda_tilde l1 l2 m1 m2 = Some dlt ->
  forall r, lambda_tilde_delta_lambda_tilde_to_lambda_1_lambda_2 lt dlt m1 m2 = Some r -> r = (l1, l2).
Proof.
  intros H1 H2. destruct (eta_spec m1 m2 H1 H2) as (eta & Ee & _ & [He0 He1]).
  unfold lambda_1_lambda_2_to_lambda_tilde, lambda_1_lambda_2_to_delta_lambda_tilde,
    lambda_tilde_delta_lambda_tilde_to_lambda_1_lambda_2.
  rewrite Ee. cbn [bindo]. rewrite psqrt_some by lra. cbn [bindo].
  intros E1 E2. apply some_inj in E1. apply some_inj in E2. subst lt dlt.
  set (s := sqrt (1 - 4 * eta)).
  set (c1 := 1 + 7 * eta - 31 * eta ^ 2). set (c2 := s * (1 + 9 * eta - 11 * eta ^ 2)).
  set (c3 := s * (1 - 13272 / 1319 * eta + 8944 / 1319 * eta ^ 2)).
  set (c4 := 1 - 15910 / 1319 * eta + 32850 / 1319 * eta ^ 2 + 3380 / 1319 * eta ^ 3).
  intros r. unfold pdiv.
  destruct (Req_EM_T ((c1 + c2) * (c3 - c4) - (c1 - c2) * (c3 + c4)) 0) as [E|N1]; cbn [bindo]; [discriminate|].
  destruct (Req_EM_T ((c1 - c2) * (c3 + c4) - (c1 + c2) * (c3 - c4)) 0) as [E|N2]; cbn [bindo]; [discriminate|].
  intros E. apply some_inj in E. subst r. apply f_equal2; field; assumption.
Qed.
Lemma tides_inverse_defined lt dlt m1 m2 r : 0 < m1 -> 0 < m2 ->
  lambda_tilde_delta_lambda_tilde_to_lambda_1_lambda_2 lt dlt m1 m2 = Some r ->
  lambda_1_lambda_2_to_lambda_tilde (fst r) (snd r) m1 m2 = Some lt /\
  lambda_1_lambda_2_to_delta_lambda_tilde (fst r) (snd r) m1 m2 = Some dlt.
Proof.
  intros H1 H2. destruct (eta_spec m1 m2 H1 H2) as (eta & Ee & _ & [He0 He1]).
  unfold lambda_1_lambda_2_to_lambda_tilde, lambda_1_lambda_2_to_delta_lambda_tilde,
    lambda_tilde_delta_lambda_tilde_to_lambda_1_lambda_2.
  rewrite Ee. cbn [bindo]. rewrite psqrt_some by lra. cbn [bindo].
  set (s := sqrt (1 - 4 * eta)).
  set (c1 := 1 + 7 * eta - 31 * eta ^ 2). set (c2 := s * (1 + 9 * eta - 11 * eta ^ 2)).
  set (c3 := s * (1 - 13272 / 1319 * eta + 8944 / 1319 * eta ^ 2)).
  set (c4 := 1 - 15910 / 1319 * eta + 32850 / 1319 * eta ^ 2 + 3380 / 1319 * eta ^ 3).
  unfold pdiv.
  destruct (Req_EM_T ((c1 + c2) * (c3 - c4) - (c1 - c2) * (c3 + c4)) 0) as [E|N1]; cbn [bindo]; [discriminate|].
  destruct (Req_EM_T ((c1 - c2) * (c3 + c4) - (c1 + c2) * (c3 - c4)) 0) as [E|N2]; cbn [bindo]; [discriminate|].
  intros E. apply some_inj in E. subst r. cbn [fst snd]. split; apply f_equal; field; split; assumption.
Qed.
(** for equal masses the inverse is defined (determinant does not vanish) *)
Lemma tides_equal_mass lt dlt m : 0 < m ->
  exists r, lambda_tilde_delta_lambda_tilde_to_lambda_1_lambda_2 lt dlt m m = Some r.
Proof.
  intros H. destruct (eta_spec m m H H) as (eta & Ee & He & _).
  assert (eta = 1/4).
  { unfold is_sym_ratio in He. apply Rmult_eq_reg_r with ((m + m) ^ 2); [rewrite He; field|].
    apply Rgt_not_eq, pow_lt; lra. }
  subst eta. unfold lambda_tilde_delta_lambda_tilde_to_lambda_1_lambda_2. rewrite Ee. cbn [bindo].
  replace (1 - 4 * (1/4)) with 0 by lra. rewrite psqrt_some by lra. cbn [bindo].
  rewrite sqrt_0. rewrite pdiv_some by lra. cbn [bindo]. rewrite pdiv_some by lra. cbn [bindo].
  eexists; reflexivity.
Qed.

Lemma tides_common lt m1 m2 l1 l2 : 0 < m1 -> 0 < m2 ->
  lambda_tilde_to_lambda_1_lambda_2 lt m1 m2 = Some (l1, l2) ->
  l1 * m1 ^ 5 = l2 * m2 ^ 5 /\
  lambda_1_lambda_2_to_lambda_tilde l1 l2 m1 m2 = Some lt.
Proof.
  intros H1 H2. destruct (eta_spec m1 m2 H1 H2) as (eta & Ee & _ & [He0 He1]).
  unfold lambda_tilde_to_lambda_1_lambda_2, lambda_1_lambda_2_to_lambda_tilde.
  rewrite Ee. cbn [bindo]. rewrite (pdiv_some m2 m1) by lra. cbn [bindo].
  assert (Hq : 0 < m2 / m1) by (apply Rdiv_lt_0_compat; assumption).
  assert (Hq5 : 0 < (m2 / m1) ^ 5) by (apply pow_lt; exact Hq).
  rewrite (pdiv_some 1) by lra. cbn [bindo]. rewrite psqrt_some by lra. cbn [bindo].
  set (s := sqrt (1 - 4 * eta)). set (c1 := 1 + 7 * eta - 31 * eta ^ 2).
  set (c2 := s * (1 + 9 * eta - 11 * eta ^ 2)).
  set (D := c1 * (1 + 1 / (m2 / m1) ^ 5) + c2 * (1 - 1 / (m2 / m1) ^ 5)).
  unfold pdiv at 1. destruct (Req_EM_T D 0) as [E|N]; cbn [bindo]; [discriminate|].
  rewrite pdiv_some by lra. cbn [bindo]. intros E. apply some_inj in E. apply pair_equal_spec in E as [<- <-]. split.
  - field. repeat split; try lra; try assumption.
  - apply f_equal. set (q5 := (m2 / m1) ^ 5) in *.
    assert (LD : 13 / 8 * lt / D * D = 13 / 8 * lt) by (field; exact N).
    remember (13 / 8 * lt / D) as L eqn:EL. clear EL.
    transitivity (8 / 13 * (L * D)); [unfold D; field; lra|]. rewrite LD. field.
Qed.

Lemma sym_antisym_roundtrip l1 l2 :
  lambda_symmetric_lambda_antisymmetric_to_lambda_1_lambda_2
    (lambda_1_lambda_2_to_lambda_symmetric l1 l2)
    (lambda_1_lambda_2_to_lambda_antisymmetric l1 l2) = (l1, l2).
Proof.
  unfold lambda_symmetric_lambda_antisymmetric_to_lambda_1_lambda_2,
    lambda_symmetric_lambda_antisymmetric_to_lambda_1, lambda_symmetric_lambda_antisymmetric_to_lambda_2,
    lambda_1_lambda_2_to_lambda_symmetric, lambda_1_lambda_2_to_lambda_antisymmetric.
  f_equal; lra.
Qed.
Lemma sym_antisym_roundtrip' ls la :
  let (l1, l2) := lambda_symmetric_lambda_antisymmetric_to_lambda_1_lambda_2 ls la in
  lambda_1_lambda_2_to_lambda_symmetric l1 l2 = ls /\
  lambda_1_lambda_2_to_lambda_antisymmetric l1 l2 = la.
Proof.
  unfold lambda_symmetric_lambda_antisymmetric_to_lambda_1_lambda_2,
    lambda_symmetric_lambda_antisymmetric_to_lambda_1, lambda_symmetric_lambda_antisymmetric_to_lambda_2,
    lambda_1_lambda_2_to_lambda_symmetric, lambda_1_lambda_2_to_lambda_antisymmetric.
  split; lra.
Qed.

(** the exact set of masses where the tidal inverse exists *)
Lemma tides_det eta : 0 <= 1 - 4 * eta ->
  let s := sqrt (1 - 4 * eta) in
  let c1 := 1 + 7 * eta - 31 * eta ^ 2 in
  let c2 := s * (1 + 9 * eta - 11 * eta ^ 2) in
  let c3 := s * (1 - 13272 / 1319 * eta + 8944 / 1319 * eta ^ 2) in
  let c4 := 1 - 15910 / 1319 * eta + 32850 / 1319 * eta ^ 2 + 3380 / 1319 * eta ^ 3 in
  (c1 + c2) * (c3 - c4) - (c1 - c2) * (c3 + c4) = 2 * eta ^ 4 * (498316 * eta - 9646) / 1319.
Proof.
  intros H s c1 c2 c3 c4. assert (Hs : s * s = 1 - 4 * eta) by (apply sqrt_sqrt; exact H).
  transitivity (2 * (s * s * ((1 + 9 * eta - 11 * eta ^ 2) * (1 - 13272 / 1319 * eta + 8944 / 1319 * eta ^ 2)) - c1 * c4)).
  - unfold c2, c3. ring.
  - rewrite Hs. unfold c1, c4. field.
Qed.
Lemma tides_inverse_iff lt dlt m1 m2 eta : 0 < m1 -> 0 < m2 -> is_sym_ratio eta m1 m2 ->
  (exists r, lambda_tilde_delta_lambda_tilde_to_lambda_1_lambda_2 lt dlt m1 m2 = Some r) <->
  eta <> 4823 / 249158.
Proof.
  intros H1 H2 HE. destruct (eta_spec m1 m2 H1 H2) as (e & Ee & He & [He0 He1]).
  assert (eta = e).
  { unfold is_sym_ratio in *. apply Rmult_eq_reg_r with ((m1 + m2) ^ 2); [congruence|].
    apply Rgt_not_eq, pow_lt; lra. }
  subst e. unfold lambda_tilde_delta_lambda_tilde_to_lambda_1_lambda_2. rewrite Ee. cbn [bindo].
  rewrite psqrt_some by lra. cbn [bindo]. pose proof (tides_det eta ltac:(lra)) as HD. cbv zeta in HD.
  set (s := sqrt (1 - 4 * eta)) in *.
  set (c1 := 1 + 7 * eta - 31 * eta ^ 2) in *. set (c2 := s * (1 + 9 * eta - 11 * eta ^ 2)) in *.
  set (c3 := s * (1 - 13272 / 1319 * eta + 8944 / 1319 * eta ^ 2)) in *.
  set (c4 := 1 - 15910 / 1319 * eta + 32850 / 1319 * eta ^ 2 + 3380 / 1319 * eta ^ 3) in *.
  assert (P4 : 0 < eta ^ 4) by (apply pow_lt; exact He0).
  unfold pdiv. split.
  - intros [r Hr] E.
    destruct (Req_EM_T ((c1 + c2) * (c3 - c4) - (c1 - c2) * (c3 + c4)) 0) as [E0|N0]; [discriminate|].
    apply N0. rewrite HD, E. field.
  - intros N.
    destruct (Req_EM_T ((c1 + c2) * (c3 - c4) - (c1 - c2) * (c3 + c4)) 0) as [E0|N0].
    + exfalso. rewrite HD in E0. apply N.
      assert (E1 : 2 * eta ^ 4 * (498316 * eta - 9646) = 0)
        by (apply Rmult_eq_reg_r with (/ 1319); [rewrite Rmult_0_l; exact E0|lra]).
      apply Rmult_integral in E1 as [E1|E1]; lra.
    + cbn [bindo].
      destruct (Req_EM_T ((c1 - c2) * (c3 + c4) - (c1 + c2) * (c3 - c4)) 0) as [E0|N1]; [exfalso; apply N0; lra|].
      eexists; reflexivity.
Qed.
Lemma tides_common_defined lt m1 m2 : 0 < m1 -> 0 < m2 ->
  exists r, lambda_tilde_to_lambda_1_lambda_2 lt m1 m2 = Some r.
Proof.
  intros H1 H2. destruct (eta_spec m1 m2 H1 H2) as (eta & Ee & He & [He0 He1]).
  unfold lambda_tilde_to_lambda_1_lambda_2. rewrite Ee. cbn [bindo].
  rewrite (pdiv_some m2 m1) by lra. cbn [bindo].
  assert (Hq : 0 < m2 / m1) by (apply Rdiv_lt_0_compat; assumption).
  assert (Hq5 : 0 < (m2 / m1) ^ 5) by (apply pow_lt; exact Hq).
  rewrite (pdiv_some 1) by lra. cbn [bindo]. rewrite psqrt_some by lra. cbn [bindo].
  assert (Hs : sqrt (1 - 4 * eta) * sqrt (1 - 4 * eta) = 1 - 4 * eta) by (apply sqrt_sqrt; lra).
  pose proof (sqrt_pos (1 - 4 * eta)) as Hs0. set (s := sqrt (1 - 4 * eta)) in *.
  assert (Hp : 0 < 1 / (m2 / m1) ^ 5) by (apply Rdiv_lt_0_compat; lra). set (p := 1 / (m2 / m1) ^ 5) in *.
  set (c1 := 1 + 7 * eta - 31 * eta ^ 2). set (c2 := s * (1 + 9 * eta - 11 * eta ^ 2)).
  assert (Hc1 : 0 < c1) by (unfold c1; nra).
  assert (Hc2 : 0 <= c2) by (unfold c2; apply Rmult_le_pos; [exact Hs0|nra]).
  assert (Hc : c2 < c1).
  { apply Rnot_le_lt. intros L.
    assert (c1 * c1 <= c2 * c2) by (apply Rmult_le_compat; lra).
    assert (E : c2 * c2 = (1 - 4 * eta) * (1 + 9 * eta - 11 * eta ^ 2) ^ 2) by (unfold c2; rewrite <- Hs; ring).
    assert (E2 : c1 * c1 - c2 * c2 = 48 * eta ^ 4 + 484 * eta ^ 5) by (rewrite E; unfold c1; ring).
    assert (0 < eta ^ 4) by (apply pow_lt; exact He0). assert (0 < eta ^ 5) by (apply pow_lt; exact He0). lra. }
  assert (HD : 0 < c1 * (1 + p) + c2 * (1 - p)) by nra.
  rewrite pdiv_some by lra. cbn [bindo]. rewrite pdiv_some by lra. cbn [bindo]. eexists; reflexivity.
Qed.
