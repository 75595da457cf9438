(** Property C214: what the checks of a ROQ likelihood guarantee. *)
From Coq Require Import String Reals Lra Lia List Bool Arith Psatz.
From Verif Require Import PyDict PyReal GwMass_Model GwMass_Proofs GwPrior_Model GwPrior_Props RoqCheck_Model.
Import ListNotations.
Open Scope string_scope.
Open Scope list_scope.
Open Scope R_scope.

Lemma check_all_ok f l : check_all f l = Ok tt <-> forall d, In d l -> f d = Ok tt.
Proof.
  induction l as [|a l IH]; simpl; [split; [intros _ d []|reflexivity]|]. destruct (f a) as [[]|e] eqn:E.
  - rewrite IH. split; intros H; [intros d [<- | I]; [exact E|apply H, I]|intros d I; apply H; right; exact I].
  - split; [discriminate|]. intros H. rewrite <- E. apply H. left. reflexivity.
Qed.
Lemma div_le a b s : 0 < s -> (a / s <= b <-> a <= b * s).
Proof.
  intros S. split; intros H.
  - apply (Rmult_le_compat_r s) in H; [|lra]. unfold Rdiv in H. rewrite Rmult_assoc, Rinv_l in H by lra. lra.
  - apply (Rmult_le_reg_r s); [exact S|]. unfold Rdiv. rewrite Rmult_assoc, Rinv_l by lra. lra.
Qed.
Lemma le_div a b s : 0 < s -> (b <= a / s <-> b * s <= a).
Proof.
  intros S. split; intros H.
  - apply (Rmult_le_compat_r s) in H; [|lra]. unfold Rdiv in H. rewrite Rmult_assoc, Rinv_l in H by lra. lra.
  - apply (Rmult_le_reg_r s); [exact S|]. unfold Rdiv. rewrite Rmult_assoc, Rinv_l by lra. lra.
Qed.

(** ** C214 When the check passes, the data rescaled by roq_scale_factor lie in the band of the basis and have its length,
    and so does every binary the priors allow, as far as the basis gives bounds and the priors determine the limits. *)
Theorem C214_data s p q d : 0 < s -> perform_roq_params_check true s p q d = Ok tt ->
  flow p <= minimum_frequency d / s /\ maximum_frequency d / s <= fhigh p /\ duration d * s = seglen p.
Proof.
  intros S. unfold perform_roq_params_check. cbn [negb]. destruct (Rgt_dec _ _) as [|A]; [discriminate|]. destruct (Rlt_dec _ _) as [|B]; [discriminate|]. destruct (Req_EM_T _ _) as [C|]; [|discriminate].
  intros _. split; [apply le_div; lra|]. split; [apply div_le; lra|]. rewrite C. field. lra.
Qed.
Theorem C214_binaries s p q d m1 m2 mc r : 0 < s -> cbc q = true -> positive_limits (lims q) -> perform_roq_params_check true s p q d = Ok tt -> within (lims q) m1 m2 mc r ->
  (forall b, chirpmassmin p = Some b -> minimum_chirp_mass (lims q) <> None -> b <= mc * s) /\
  (forall b, chirpmassmax p = Some b -> maximum_chirp_mass (lims q) <> None -> mc * s <= b) /\
  (forall b, compmin p = Some b -> minimum_component_mass (lims q) <> None -> b <= m2 * s /\ (r <= 1 -> b <= m1 * s)).
Proof.
  intros S Cb P H W. unfold perform_roq_params_check in H. cbn [negb] in H. destruct (Rgt_dec _ _); [discriminate|]. destruct (Rlt_dec _ _); [discriminate|]. destruct (Req_EM_T _ _); [|discriminate].
  rewrite Cb in H. cbn [negb] in H. unfold below, above in H. destruct (C105_chirp_mass_limits _ _ _ _ _ P W) as (L & U).
  split; [|split]; intros b E N.
  - rewrite E in H. destruct (minimum_chirp_mass (lims q)) as [l|]; [|congruence]. destruct (Rlt_dec l (b / s)) as [|G]; [discriminate|]. specialize (L l eq_refl). apply div_le; lra.
  - destruct (match chirpmassmin p with Some _ => _ | None => _ end); [discriminate|]. rewrite E in H. destruct (maximum_chirp_mass (lims q)) as [l|]; [|congruence]. destruct (Rgt_dec l (b / s)) as [|G]; [discriminate|]. specialize (U l eq_refl). apply le_div; lra.
  - destruct (match chirpmassmin p with Some _ => _ | None => _ end); [discriminate|]. destruct (match chirpmassmax p with Some _ => _ | None => _ end); [discriminate|]. rewrite E in H.
    destruct (minimum_component_mass (lims q)) as [l|] eqn:El; [|congruence]. destruct (Rlt_dec l (b / s)) as [|G]; [discriminate|].
    destruct (C105_minimum_component_mass (lims q) m1 m2 mc r l P W El) as (A & B). split; [apply div_le; lra|]. intros R1. specialize (B R1). apply div_le; lra.
Qed.
(** it is not needlessly strict: failing a check means that data or a limit are outside *)
Theorem C214_fails s p q d e : 0 < s -> perform_roq_params_check true s p q d = Err e -> e = BilbyROQParamsRangeError /\
  (minimum_frequency d / s < flow p \/ fhigh p < maximum_frequency d / s \/ duration d * s <> seglen p \/
   (exists b l, chirpmassmin p = Some b /\ minimum_chirp_mass (lims q) = Some l /\ l * s < b) \/
   (exists b l, chirpmassmax p = Some b /\ maximum_chirp_mass (lims q) = Some l /\ b < l * s) \/
   (exists b l, compmin p = Some b /\ minimum_component_mass (lims q) = Some l /\ l * s < b)).
Proof.
  intros S. unfold perform_roq_params_check, below, above. cbn [negb].
  assert (LT : forall l b, l < b / s -> l * s < b) by (intros l b L; apply Rnot_le_lt; intros K; apply (div_le b l s S) in K; lra).
  assert (GT : forall l b, l > b / s -> b < l * s) by (intros l b L; apply Rnot_le_lt; intros K; apply (le_div b l s S) in K; lra).
  destruct (Rgt_dec _ _) as [A|].
  { intros Q. injection Q as <-. split; [reflexivity|]. right. left. apply Rnot_le_lt. intros K. apply div_le in K; lra. }
  destruct (Rlt_dec _ _) as [A|].
  { intros Q. injection Q as <-. split; [reflexivity|]. left. apply Rnot_le_lt. intros K. apply le_div in K; lra. }
  destruct (Req_EM_T _ _) as [|A].
  2:{ intros Q. injection Q as <-. split; [reflexivity|]. right. right. left. intros K. apply A. rewrite <- K. field. lra. }
  destruct (negb (cbc q)); [discriminate|].
  destruct (chirpmassmin p) as [b1|], (minimum_chirp_mass (lims q)) as [l1|]; try (destruct (Rlt_dec l1 (b1 / s)) as [A|]; [intros Q; injection Q as <-; split; [reflexivity|]; right; right; right; left; eauto 6|]).
  all: destruct (chirpmassmax p) as [b2|], (maximum_chirp_mass (lims q)) as [l2|]; try (destruct (Rgt_dec l2 (b2 / s)) as [A|]; [intros Q; injection Q as <-; split; [reflexivity|]; right; right; right; right; left; eauto 6|]).
  all: destruct (compmin p) as [b3|], (minimum_component_mass (lims q)) as [l3|]; try discriminate; try (destruct (Rlt_dec l3 (b3 / s)) as [A|]; [intros Q; injection Q as <-; split; [reflexivity|]; right; right; right; right; right; eauto 6|discriminate]).
Qed.
(** ** C214 Priors in total mass and mass ratio are not checked against the chirp masses of the basis at all. *)
Theorem C214_undetermined_refuted : exists p q d m1 m2 mc r b, cbc q = true /\ positive_limits (lims q) /\ perform_roq_params_check true 1 p q d = Ok tt /\
  within (lims q) m1 m2 mc r /\ lims q "total_mass" = Some (2, 2) /\ m1 + m2 = 2 /\ chirpmassmin p = Some b /\ mc < b.
Proof.
  destruct (chirp_spec 1 1) as (mc & _ & M); [lra|lra|].
  exists {| flow := 20; fhigh := 1024; seglen := 4; chirpmassmin := Some (mc + 1); chirpmassmax := None; compmin := None |},
    {| cbc := true; lims := fun k => if String.eqb k "total_mass" then Some (2, 2) else if String.eqb k "mass_ratio" then Some (1, 1) else None |},
    {| minimum_frequency := 20; maximum_frequency := 1024; duration := 4 |}, 1, 1, mc, 1, (mc + 1).
  split; [reflexivity|]. split.
  - intros k b. simpl. destruct (String.eqb k "total_mass"); [intros Q; injection Q as <-; simpl; lra|]. destruct (String.eqb k "mass_ratio"); [intros Q; injection Q as <-; simpl; lra|discriminate].
  - split; [|split; [|repeat split; simpl; lra]].
    + unfold perform_roq_params_check. simpl. destruct (Rgt_dec _ _); [lra|]. destruct (Rlt_dec _ _); [lra|]. destruct (Req_EM_T _ _) as [|A]; [reflexivity|]. exfalso. apply A. field.
    + split; [lra|]. split; [lra|]. split; [exact M|]. split; [unfold is_mass_ratio; lra|]. simpl. repeat split; intros; try discriminate. all: injection H as <-; simpl; lra.
Qed.

(** ** C214 Two basis files without roq_params: the data must lie in the bands of both, and be as long as the shorter says - the other may be longer. *)
Theorem C214_two_files s a b q ds : 0 < s -> init_check false true s None (Some a) (Some b) q ds = Ok tt -> forall d, In d ds -> forall f, f = a \/ f = b ->
  fst (fst f) <= minimum_frequency d / s /\ maximum_frequency d / s <= snd (fst f) /\ duration d * s <= snd f.
Proof.
  intros S H d I f F. unfold init_check in H. cbn [merge] in H. rewrite check_all_ok in H. specialize (H d I). apply C214_data in H; [|exact S]. cbn [flow fhigh seglen] in H. destruct H as (A & B & C).
  pose proof (Rmax_l (fst (fst a)) (fst (fst b))). pose proof (Rmax_r (fst (fst a)) (fst (fst b))). pose proof (Rmin_l (snd (fst a)) (snd (fst b))). pose proof (Rmin_r (snd (fst a)) (snd (fst b))).
  pose proof (Rmin_l (snd a) (snd b)). pose proof (Rmin_r (snd a) (snd b)). destruct F as [-> | ->]; lra.
Qed.
Theorem C214_length_refuted : exists a b q d, init_check false true 1 None (Some a) (Some b) q [d] = Ok tt /\ duration d <> snd a.
Proof.
  exists (20, 1024, 8), (20, 1024, 4), {| cbc := false; lims := fun _ => None |}, {| minimum_frequency := 20; maximum_frequency := 1024; duration := 4 |}. split; [|simpl; lra].
  unfold init_check. cbn [merge check_all fst snd]. unfold perform_roq_params_check. cbn [negb flow fhigh seglen cbc minimum_frequency maximum_frequency duration].
  rewrite (Rmin_right 1024 1024), (Rmax_right 20 20), (Rmin_right 8 4) by lra. destruct (Rgt_dec _ _); [lra|]. destruct (Rlt_dec _ _); [lra|]. destruct (Req_EM_T _ _) as [|A]; [reflexivity|]. exfalso. apply A. field.
Qed.
(** ** C214 What a file says of itself is not looked at when roq_params are given, and nothing is with weights or without either. *)
Theorem C214_given check s p l1 q1 l2 q2 q ds : init_check false check s (Some p) l1 q1 q ds = init_check false check s (Some p) l2 q2 q ds.
Proof. reflexivity. Qed.
Theorem C214_unchecked check s given l u q ds : init_check true check s given l u q ds = Ok tt /\ init_check false check s None None None q ds = Ok tt /\ (forall d, In d ds -> init_check false false s given l u q ds = Ok tt).
Proof.
  split; [reflexivity|]. split; [reflexivity|]. intros d _. unfold init_check. destruct (merge given l u); [|reflexivity]. apply check_all_ok. intros; reflexivity.
Qed.
(** ** C214 Every basis of several has its frequency nodes and one prior range for each parameter; one basis takes them from the weights or from the waveform arguments, the weights first. *)
Theorem C214_nodes node n ranges (nodes : option (list node)) arg l : nodes_after node n ranges nodes arg = Ok l ->
  ((1 < n)%nat -> length l = n /\ nodes = Some l /\ exists r, ranges = Some r /\ forall k m, In (k, m) r -> m = n) /\
  ((n <= 1)%nat -> nodes = Some l \/ (nodes = None /\ exists a, arg = Some a /\ l = [a])).
Proof.
  unfold nodes_after. destruct (1 <? n)%nat eqn:E; [apply Nat.ltb_lt in E|apply Nat.ltb_ge in E].
  - intros H. split; [intros _|lia]. unfold verify_numbers in H. destruct ranges as [r|]; [|discriminate]. destruct (existsb _ r) eqn:X; [discriminate|]. destruct nodes as [l'|]; [|discriminate].
    destruct (length l' =? n)%nat eqn:L; [|discriminate]. apply Nat.eqb_eq in L. injection H as ->. split; [exact L|]. split; [reflexivity|]. exists r. split; [reflexivity|]. intros k m I.
    destruct (Nat.eq_dec m n) as [|N]; [assumption|]. exfalso. rewrite <- not_true_iff_false in X. apply X. apply existsb_exists. exists (k, m). split; [exact I|]. apply Nat.eqb_neq in N. cbn [snd]. rewrite N. reflexivity.
  - intros H. split; [lia|]. intros _. unfold single_basis in H. destruct nodes as [[|x t]|], arg as [a|]; try discriminate; injection H as <-; eauto.
Qed.
Example C214_example : perform_roq_params_check true 2 {| flow := 20; fhigh := 1024; seglen := 8; chirpmassmin := Some 10; chirpmassmax := Some 30; compmin := None |}
    {| cbc := true; lims := fun k => if String.eqb k "chirp_mass" then Some (6, 14) else None |} {| minimum_frequency := 40; maximum_frequency := 2048; duration := 4 |} = Ok tt /\
  perform_roq_params_check true 2 {| flow := 20; fhigh := 1024; seglen := 8; chirpmassmin := Some 10; chirpmassmax := Some 30; compmin := None |}
    {| cbc := true; lims := fun k => if String.eqb k "chirp_mass" then Some (6, 16) else None |} {| minimum_frequency := 40; maximum_frequency := 2048; duration := 4 |} = Err BilbyROQParamsRangeError.
Proof.
  split; unfold perform_roq_params_check, below, above; simpl; repeat (destruct (Rgt_dec _ _); try lra); repeat (destruct (Rlt_dec _ _); try lra); destruct (Req_EM_T _ _); try lra; reflexivity.
Qed.

(** ** Assumptions of every theorem above *)
Definition RoqCheck_Props_all :=
  (@C214_data,
   @C214_binaries,
   @C214_fails,
   @C214_undetermined_refuted,
   @C214_two_files,
   @C214_length_refuted,
   @C214_given,
   @C214_unchecked,
   @C214_nodes).
Print Assumptions RoqCheck_Props_all.
