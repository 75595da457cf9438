(** Properties C11 (conditional prior state machine) and C12 (Dirichlet priors). *)
From Coq Require Import Reals Lra Psatz String List Bool Arith Lia Permutation.
From Coquelicot Require Import Coquelicot.
From Verif Require Import PyReal PyDict PriorSpec CondPrior_Model CondPrior_Proofs.
Import ListNotations.
Open Scope string_scope.
Open Scope list_scope.
Open Scope nat_scope.

(** ** C11 *)
(** full set of required variables, in any order, after any history: the attributes
    used are the initial ones overridden by what the condition function derives from the
    reference parameters, provided the function always returns the same names *)
Theorem C11_full {A V} (ref : dict A) required (cf : dict A -> dict V -> dict A) attrs0 (K : string -> Prop) l rv :
  wf ref -> (forall k v, dget ref k = Some v -> dget attrs0 k = Some v) ->
  (forall rv, wf (cf ref rv) /\ forall k, In k (dkeys (cf ref rv)) <-> K k) ->
  Permutation (dkeys rv) required ->
  exists a, snd (update_conditions ref required cf (crun ref required cf attrs0 l) rv) = Some a /\
    forall k, dget a k = match dget (cf ref rv) k with Some v => Some v | None => dget attrs0 k end.
Proof.
  intros W HR HC P. destruct (history_free ref required cf attrs0 K l rv W HR HC P) as (a & E & H).
  exists a. split; [exact E|]. intros k. rewrite H. apply set_all_get, HC.
Qed.
(** a wrong non-empty set raises and changes nothing *)
Theorem C11_wrong {A V} (ref : dict A) required (cf : dict A -> dict V -> dict A) attrs rv :
  ~ Permutation (dkeys rv) required -> rv <> [] -> update_conditions ref required cf attrs rv = (attrs, None).
Proof. apply upd_wrong. Qed.
(** no variables: the attributes of the last evaluation are used *)
Theorem C11_none {A V} (ref : dict A) required (cf : dict A -> dict V -> dict A) attrs rv :
  required <> [] -> Permutation (dkeys rv) required ->
  snd (update_conditions ref required cf (fst (update_conditions ref required cf attrs rv)) []) =
  snd (update_conditions ref required cf attrs rv).
Proof. intros N P. rewrite (upd_full ref required cf attrs rv P). simpl fst. rewrite (upd_none ref required cf _ N). reflexivity. Qed.
(** reset restores every reference parameter, whatever happened before *)
Theorem C11_reset {A V} (ref : dict A) required (cf : dict A -> dict V -> dict A) attrs0 l k v :
  wf ref -> dget ref k = Some v -> dget (crun ref required cf attrs0 (l ++ [CReset])) k = Some v.
Proof.
  intros W E. unfold crun. rewrite fold_left_app. simpl. unfold reset_to_reference_parameters. rewrite set_all_get by exact W. rewrite E. reflexivity.
Qed.
(** FINDING: contrary to the parameter description ("If none are given,
    self.reference_params will be used") *)
Theorem C11_none_uses_reference_refuted : exists (ref : dict nat) required (cf : dict nat -> dict nat -> dict nat) rv a k,
  snd (update_conditions ref required cf (fst (update_conditions ref required cf ref rv)) []) = Some a /\ dget a k <> dget ref k.
Proof.
  exists [("minimum", 0)], ["y"], (fun ref rv => match dget rv "y" with Some y => [("minimum", y)] | None => ref end), [("y", 5)], [("minimum", 5)], "minimum".
  split; [reflexivity|discriminate].
Qed.
(** FINDING: a condition function that returns some parameter only sometimes makes a
    full evaluation depend on the history *)
Theorem C11_partial_condition_refuted : exists (ref : dict nat) required (cf : dict nat -> dict nat -> dict nat) l rv,
  Permutation (dkeys rv) required /\
  snd (update_conditions ref required cf (crun ref required cf ref l) rv) <> snd (update_conditions ref required cf ref rv).
Proof.
  exists [("minimum", 0); ("maximum", 9)], ["y"],
    (fun ref rv => match dget rv "y" with Some 0 => [("minimum", 1)] | _ => [("minimum", 2); ("maximum", 3)] end),
    [CEval [("y", 7)]], [("y", 0)]. split; [reflexivity|discriminate].
Qed.
Definition ex_cf (ref : dict nat) (rv : dict nat) : dict nat :=
  match dget rv "y", dget rv "z", dget ref "minimum" with Some y, Some z, Some m => [("minimum", m + y); ("maximum", m + y + z)] | _, _, _ => [("minimum", 0); ("maximum", 0)] end.
Example C11_ex : snd (update_conditions [("minimum", 1); ("maximum", 2)] ["y"; "z"] ex_cf
   (crun [("minimum", 1); ("maximum", 2)] ["y"; "z"] ex_cf [("name", 0); ("minimum", 1); ("maximum", 2)]
      [CEval [("y", 3); ("z", 4)]; CReset; CEval [("y", 8)]; CEval [("z", 1); ("y", 9)]]) [("z", 20); ("y", 10)])
  = Some [("name", 0); ("minimum", 11); ("maximum", 31)].
Proof. reflexivity. Qed.

(** ** C12 *)
Open Scope R_scope.
(** every component in [0,1], every partial sum in [0,1], one component per unit value;
    the derived last component 1 - sum closes the simplex *)
Theorem C12_simplex btdtri n us :
  (forall b u, 0 <= u <= 1 -> 0 <= btdtri b u <= 1) -> (forall u, In u us -> 0 <= u <= 1) ->
  let r := dirichlet_rescale btdtri n [] us in
  (forall x, In x r -> 0 <= x <= 1) /\ (forall m, 0 <= fold_right Rplus 0 (firstn m r) <= 1) /\ length r = length us /\
  0 <= dirichlet_remaining r <= 1 /\ fold_right Rplus 0 (r ++ [dirichlet_remaining r]) = 1.
Proof.
  intros HB HU r. destruct (rescale_simplex btdtri n [] us HB HU ltac:(intros x []) ltac:(simpl; lra)) as (A & B & C & _).
  fold r in A, B, C. split; [exact A|]. split; [exact B|]. split; [exact C|].
  specialize (B (length r)). rewrite firstn_all in B. unfold dirichlet_remaining. split; [lra|]. rewrite total_app. simpl. ring.
Qed.
(** each element's rescale inverts its own distribution: the density on [0, remaining]
    gives the interval between the images of u and v the mass v - u *)
Theorem C12_element n order prev u v : (order + 1 < n)%nat -> 0 < dirichlet_remaining prev -> 0 <= u -> u <= v -> v <= 1 ->
  is_RInt (elem_density (n - order - 1) (dirichlet_remaining prev))
    (dirichlet_element_rescale beta1_quantile n order prev u) (dirichlet_element_rescale beta1_quantile n order prev v) (v - u) /\
  (forall x, 0 <= x < dirichlet_remaining prev ->
     ln (elem_density (n - order - 1) (dirichlet_remaining prev) x) = dirichlet_element_ln_prob n order prev x).
Proof.
  intros Hn Hm H0 H1 H2. split; [|intros x Hx; apply elem_density_ln; assumption].
  unfold dirichlet_element_rescale. rewrite Rminus_0_r, !Rplus_0_r. apply elem_mass; auto. lia.
Qed.
(** the product of the conditional densities is constant, (n-1)!, in the interior of the simplex *)
Theorem C12_uniform n xs : length xs = (n - 1)%nat -> (forall m, (m <= length xs)%nat -> fold_right Rplus 0 (firstn m xs) < 1) ->
  joint_ln n [] xs = ln (INR (fact (n - 1))).
Proof.
  intros L H. rewrite (joint_telescopes n xs []).
  - rewrite L. simpl. rewrite Rminus_0_r, ln_1. ring.
  - simpl. exact L.
  - intros m Hm. simpl. specialize (H m Hm). lra.
Qed.
Example C12_ex : joint_ln 3 [] [/2; /4] = ln 2.
Proof.
  rewrite C12_uniform; [simpl; f_equal; ring|reflexivity|]. intros [|[|[|m]]] Hm; simpl in *; try lra; lia.
Qed.
Example C12_ex_rescale : dirichlet_rescale beta1_quantile 3 [] [1; /2] = [1; 0].
Proof.
  simpl. unfold dirichlet_element_rescale, dirichlet_remaining, beta1_quantile. simpl.
  destruct (Req_EM_T 1 1); [|lra]. f_equal; [lra|]. f_equal. ring.
Qed.

(** ** Assumptions of every theorem above *)
Definition CondPrior_Props_all :=
  (@C11_full,
   @C11_wrong,
   @C11_none,
   @C11_reset,
   @C11_none_uses_reference_refuted,
   @C11_partial_condition_refuted,
   @C12_simplex,
   @C12_element,
   @C12_uniform).
Print Assumptions CondPrior_Props_all.
