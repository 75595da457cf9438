(** Property theorems: mass and tidal conversions (C34, C35, C36). *)
From Coq Require Import Reals Lra.
From Verif Require Import PyReal GwMass_Model GwMass_Proofs.
Open Scope R_scope.

(** C34 *)
Theorem C34_component_masses_to_chirp_mass m1 m2 : 0 < m1 -> 0 < m2 ->
  exists mc, component_masses_to_chirp_mass m1 m2 = Some mc /\ is_chirp_mass mc m1 m2.
Proof. exact (chirp_spec m1 m2). Qed.

Theorem C34_component_masses_to_symmetric_mass_ratio m1 m2 : 0 < m1 -> 0 < m2 ->
  exists eta, component_masses_to_symmetric_mass_ratio m1 m2 = Some eta /\
    is_sym_ratio eta m1 m2 /\ 0 < eta <= 1/4.
Proof. exact (eta_spec m1 m2). Qed.

Theorem C34_component_masses_to_mass_ratio m1 m2 : 0 < m1 -> 0 < m2 ->
  exists q M, component_masses_to_mass_ratio m1 m2 = Some q /\ component_masses_to_total_mass m1 m2 = Some M /\ is_mass_ratio q m1 m2 /\
    total_mass_and_mass_ratio_to_component_masses M q = Some (m1, m2).
Proof.
  intros H1 H2. exists (m2 / m1), (m1 + m2). unfold component_masses_to_mass_ratio, component_masses_to_total_mass. rewrite pdiv_some by lra.
  assert (Q : is_mass_ratio (m2 / m1) m1 m2) by (unfold is_mass_ratio; field; lra). repeat (split; [reflexivity || exact Q|]). apply total_q_inverse; assumption.
Qed.

Theorem C34_chirp_mass_and_mass_ratio mc q : 0 < mc -> 0 < q ->
  exists m1 m2, chirp_mass_and_mass_ratio_to_component_masses mc q = Some (m1, m2) /\
    0 < m1 /\ 0 < m2 /\ is_chirp_mass mc m1 m2 /\ is_mass_ratio q m1 m2 /\ (q <= 1 -> m2 <= m1).
Proof. exact (mc_q_spec mc q). Qed.

Theorem C34_chirp_mass_and_mass_ratio_inverse m1 m2 mc q : 0 < m1 -> 0 < m2 ->
  is_chirp_mass mc m1 m2 -> is_mass_ratio q m1 m2 ->
  chirp_mass_and_mass_ratio_to_component_masses mc q = Some (m1, m2).
Proof. exact (mc_q_inverse m1 m2 mc q). Qed.

Theorem C34_total_mass_and_mass_ratio M q : 0 < M -> 0 < q ->
  exists m1 m2, total_mass_and_mass_ratio_to_component_masses M q = Some (m1, m2) /\
    0 < m1 /\ 0 < m2 /\ m1 + m2 = M /\ is_mass_ratio q m1 m2 /\ (q <= 1 -> m2 <= m1).
Proof. exact (total_q_spec M q). Qed.

Theorem C34_total_mass_and_mass_ratio_inverse m1 m2 q : 0 < m1 -> 0 < m2 -> is_mass_ratio q m1 m2 ->
  total_mass_and_mass_ratio_to_component_masses (m1 + m2) q = Some (m1, m2).
Proof. exact (total_q_inverse m1 m2 q). Qed.

Theorem C34_symmetric_mass_ratio_to_mass_ratio m1 m2 eta q : 0 < m2 <= m1 ->
  is_sym_ratio eta m1 m2 -> is_mass_ratio q m1 m2 ->
  symmetric_mass_ratio_to_mass_ratio eta = Some q.
Proof. exact (sym_to_q_inverse m1 m2 eta q). Qed.

Theorem C34_symmetric_mass_ratio_domain eta :
  (0 < eta <= 1/4 -> exists q, symmetric_mass_ratio_to_mass_ratio eta = Some q /\ 0 < q <= 1 /\ eta * (1 + q) ^ 2 = q) /\
  (1/4 < eta -> symmetric_mass_ratio_to_mass_ratio eta = None).
Proof. exact (conj (sym_to_q_spec eta) (sym_to_q_none eta)). Qed.

Theorem C34_chirp_mass_and_total_mass m1 m2 mc : 0 < m1 -> 0 < m2 -> is_chirp_mass mc m1 m2 ->
  exists eta, chirp_mass_and_total_mass_to_symmetric_mass_ratio mc (m1 + m2) = Some eta /\
    is_sym_ratio eta m1 m2.
Proof. exact (mc_M_eta_spec m1 m2 mc). Qed.

Theorem C34_chirp_mass_unique a b m1 m2 : 0 < m1 -> 0 < m2 ->
  is_chirp_mass a m1 m2 -> is_chirp_mass b m1 m2 -> a = b.
Proof. exact (chirp_unique a b m1 m2). Qed.

(** the hypotheses are met by a non trivial binary *)
Example C34_example : exists mc, is_chirp_mass mc 36 29 /\
  chirp_mass_and_mass_ratio_to_component_masses mc (29/36) = Some (36, 29).
Proof.
  destruct (chirp_spec 36 29 ltac:(lra) ltac:(lra)) as (mc & _ & H). exists mc. split; [exact H|].
  apply mc_q_inverse; try lra; [exact H|]. unfold is_mass_ratio. lra.
Qed.
Example C34_example_eta : symmetric_mass_ratio_to_mass_ratio (2/9) = Some (1/2).
Proof. apply (sym_to_q_inverse 2 1); unfold is_sym_ratio, is_mass_ratio; lra. Qed.

(** C35 *)
Theorem C35_mass_1_and_chirp_mass mc m1 m2 : 0 < m1 -> 0 < m2 -> m2 <= 3 * m1 -> is_chirp_mass mc m1 m2 ->
  mass_1_and_chirp_mass_to_mass_ratio m1 mc = Some (m2 / m1).
Proof. exact (m1_mc_inverse mc m1 m2). Qed.

Theorem C35_chirp_mass_and_primary_mass mc m1 m2 : 0 < m1 -> 0 < m2 -> m2 <= 3 * m1 -> is_chirp_mass mc m1 m2 ->
  chirp_mass_and_primary_mass_to_mass_ratio mc m1 = Some (m2 / m1).
Proof. exact (primary_inverse mc m1 m2). Qed.

(** works exactly for mass ratios m2/m1 >= 1/3; no finite answer below *)
Theorem C35_mass_2_and_chirp_mass mc m1 m2 : 0 < m1 -> 0 < m2 -> is_chirp_mass mc m1 m2 ->
  (m1 <= 3 * m2 -> mass_2_and_chirp_mass_to_mass_ratio m2 mc = Some (m2 / m1)) /\
  (3 * m2 < m1 -> mass_2_and_chirp_mass_to_mass_ratio m2 mc = None).
Proof. exact (m2_mc_inverse mc m1 m2). Qed.

Theorem C35_cubic_root mc m1 : 0 < m1 -> 0 < mc -> (mc / m1) ^ 5 <= 27/4 ->
  exists q, mass_1_and_chirp_mass_to_mass_ratio m1 mc = Some q /\ 0 < q /\
    q ^ 3 = (mc / m1) ^ 5 * (1 + q).
Proof. exact (m1_mc_q_root m1 mc). Qed.

Theorem C35_mass_2_and_chirp_mass_refuted :
  exists m1 m2 mc, 0 < m2 < m1 /\ component_masses_to_chirp_mass m1 m2 = Some mc /\
    mass_2_and_chirp_mass_to_mass_ratio m2 mc = None.
Proof.
  destruct (chirp_spec 40 10 ltac:(lra) ltac:(lra)) as (mc & E & H).
  exists 40, 10, mc. repeat split; try lra; [exact E|].
  exact (proj2 (m2_mc_inverse mc 40 10 ltac:(lra) ltac:(lra) H) ltac:(lra)).
Qed.

(** C36 *)
Theorem C36_tides_roundtrip l1 l2 m1 m2 lt dlt : 0 < m1 -> 0 < m2 ->
  lambda_1_lambda_2_to_lambda_tilde l1 l2 m1 m2 = Some lt ->
  lambda_1_lambda_2_to_delta_lambda_tilde l1 l2 m1 m2 = Some dlt ->
  forall r, lambda_tilde_delta_lambda_tilde_to_lambda_1_lambda_2 lt dlt m1 m2 = Some r -> r = (l1, l2).
Proof. exact (tides_roundtrip l1 l2 m1 m2 lt dlt). Qed.

Theorem C36_tides_roundtrip_back lt dlt m1 m2 r : 0 < m1 -> 0 < m2 ->
  lambda_tilde_delta_lambda_tilde_to_lambda_1_lambda_2 lt dlt m1 m2 = Some r ->
  lambda_1_lambda_2_to_lambda_tilde (fst r) (snd r) m1 m2 = Some lt /\
  lambda_1_lambda_2_to_delta_lambda_tilde (fst r) (snd r) m1 m2 = Some dlt.
Proof. exact (tides_inverse_defined lt dlt m1 m2 r). Qed.

Theorem C36_tides_inverse_defined_iff lt dlt m1 m2 eta : 0 < m1 -> 0 < m2 -> is_sym_ratio eta m1 m2 ->
  (exists r, lambda_tilde_delta_lambda_tilde_to_lambda_1_lambda_2 lt dlt m1 m2 = Some r) <->
  eta <> 4823 / 249158.
Proof. exact (tides_inverse_iff lt dlt m1 m2 eta). Qed.

Theorem C36_common_eos lt m1 m2 : 0 < m1 -> 0 < m2 ->
  exists l1 l2, lambda_tilde_to_lambda_1_lambda_2 lt m1 m2 = Some (l1, l2) /\
    l1 * m1 ^ 5 = l2 * m2 ^ 5 /\
    lambda_1_lambda_2_to_lambda_tilde l1 l2 m1 m2 = Some lt.
Proof.
  intros H1 H2. destruct (tides_common_defined lt m1 m2 H1 H2) as [[l1 l2] E].
  exists l1, l2. split; [exact E|exact (tides_common lt m1 m2 l1 l2 H1 H2 E)].
Qed.

Theorem C36_symmetric_antisymmetric l1 l2 :
  lambda_symmetric_lambda_antisymmetric_to_lambda_1_lambda_2
    (lambda_1_lambda_2_to_lambda_symmetric l1 l2)
    (lambda_1_lambda_2_to_lambda_antisymmetric l1 l2) = (l1, l2).
Proof. exact (sym_antisym_roundtrip l1 l2). Qed.
Theorem C36_symmetric_antisymmetric_back ls la :
  let (l1, l2) := lambda_symmetric_lambda_antisymmetric_to_lambda_1_lambda_2 ls la in
  lambda_1_lambda_2_to_lambda_symmetric l1 l2 = ls /\
  lambda_1_lambda_2_to_lambda_antisymmetric l1 l2 = la.
Proof. exact (sym_antisym_roundtrip' ls la). Qed.

Example C36_example : exists lt dlt,
  lambda_1_lambda_2_to_lambda_tilde 400 600 (16/10) (12/10) = Some lt /\
  lambda_1_lambda_2_to_delta_lambda_tilde 400 600 (16/10) (12/10) = Some dlt /\
  lambda_tilde_delta_lambda_tilde_to_lambda_1_lambda_2 lt dlt (16/10) (12/10) = Some (400, 600).
Proof.
  destruct (eta_spec (16/10) (12/10) ltac:(lra) ltac:(lra)) as (eta & Ee & He & [H0 H1]).
  assert (D1 : exists lt, lambda_1_lambda_2_to_lambda_tilde 400 600 (16/10) (12/10) = Some lt).
  { unfold lambda_1_lambda_2_to_lambda_tilde. rewrite Ee. cbn [bindo]. rewrite psqrt_some by lra. eexists; reflexivity. }
  assert (D2 : exists lt, lambda_1_lambda_2_to_delta_lambda_tilde 400 600 (16/10) (12/10) = Some lt).
  { unfold lambda_1_lambda_2_to_delta_lambda_tilde. rewrite Ee. cbn [bindo]. rewrite psqrt_some by lra. eexists; reflexivity. }
  destruct D1 as [lt E1], D2 as [dlt E2]. exists lt, dlt. split; [exact E1|]. split; [exact E2|].
  assert (N : eta <> 4823 / 249158) by (intros ->; unfold is_sym_ratio in He; lra).
  destruct (proj2 (tides_inverse_iff lt dlt (16/10) (12/10) eta ltac:(lra) ltac:(lra) He) N) as [r Er].
  rewrite Er. f_equal. exact (tides_roundtrip 400 600 (16/10) (12/10) lt dlt ltac:(lra) ltac:(lra) E1 E2 r Er).
Qed.

(** ** Assumptions of every theorem above *)
Definition GwMass_Props_all :=
  (@C34_component_masses_to_chirp_mass,
   @C34_component_masses_to_symmetric_mass_ratio,
   @C34_component_masses_to_mass_ratio,
   @C34_chirp_mass_and_mass_ratio,
   @C34_chirp_mass_and_mass_ratio_inverse,
   @C34_total_mass_and_mass_ratio,
   @C34_total_mass_and_mass_ratio_inverse,
   @C34_symmetric_mass_ratio_to_mass_ratio,
   @C34_symmetric_mass_ratio_domain,
   @C34_chirp_mass_and_total_mass,
   @C34_chirp_mass_unique,
   @C35_mass_1_and_chirp_mass,
   @C35_chirp_mass_and_primary_mass,
   @C35_mass_2_and_chirp_mass,
   @C35_cubic_root,
   @C35_mass_2_and_chirp_mass_refuted,
   @C36_tides_roundtrip,
   @C36_tides_roundtrip_back,
   @C36_tides_inverse_defined_iff,
   @C36_common_eos,
   @C36_symmetric_antisymmetric,
   @C36_symmetric_antisymmetric_back).
Print Assumptions GwMass_Props_all.
