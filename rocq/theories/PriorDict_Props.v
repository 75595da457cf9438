(** Properties C06 (joint probability), C07 (constrained sampling) and C10
    (constraint normalisation cache) of bilby.core.prior.dict.PriorDict. *)
From Coq Require Import Reals Lra String List Bool Arith Permutation Lia.
From Coquelicot Require Import Rbar.
From Verif Require Import PyReal PyDict PriorDict_Model PriorDict_Proofs.
Import ListNotations.
Open Scope R_scope.
Open Scope string_scope.

(** ** C06 *)
(** prob is the product of the individual densities times the normalisation
    factor of the key tuple, and zero when a constraint is violated *)
Theorem C06_product ratio pd conv s r : product_density pd s r ->
  (~ violated pd (conv s) -> PriorDict_prob ratio pd conv s = Some (ratio (dkeys s) * r)) /\
  (violated pd (conv s) -> PriorDict_prob ratio pd conv s = Some 0).
Proof. apply prob_spec. Qed.
(** it is defined exactly on samples whose keys are all in the dictionary *)
Theorem C06_defined ratio pd conv s :
  (exists p, PriorDict_prob ratio pd conv s = Some p) <-> (forall k, In k (dkeys s) -> In k (dkeys pd)).
Proof. apply prob_defined. Qed.
(** independent of the order of the dictionary and of the sample, up to the
    normalisation factors of the two key tuples *)
Theorem C06_order ratio pd pd' conv s s' p p' :
  wf pd -> conv_respects_order conv -> Permutation pd pd' -> Permutation s s' ->
  PriorDict_prob ratio pd conv s = Some p -> PriorDict_prob ratio pd' conv s' = Some p' ->
  p * ratio (dkeys s') = p' * ratio (dkeys s).
Proof. apply prob_order. Qed.
Theorem C06_order_unconstrained pd pd' conv s s' p p' :
  wf pd -> conv_respects_order conv -> Permutation pd pd' -> Permutation s s' ->
  PriorDict_prob (fun _ => 1) pd conv s = Some p -> PriorDict_prob (fun _ => 1) pd' conv s' = Some p' -> p = p'.
Proof. intros W C P1 P2 E E'. pose proof (prob_order _ _ _ _ _ _ _ _ W C P1 P2 E E') as H. simpl in H. lra. Qed.
(** ln_prob is the logarithm of prob (minus infinity for zero) *)
Theorem C06_ln_prob ratio pd conv s p :
  (forall keys, 0 < ratio keys) -> (forall k e, dget pd k = Some e -> entry_ok e) ->
  PriorDict_prob ratio pd conv s = Some p ->
  0 <= p /\ PriorDict_ln_prob true ratio pd conv s = Some (XR (ln_ext p)).
Proof. apply ln_prob_is_ln. Qed.
(** array-valued samples are evaluated row by row *)
Theorem C06_prob_rows ratio pd conv rows probs : length rows = length probs ->
  check_prob_vec ratio pd conv rows probs = map (fun sp => check_prob ratio pd conv (fst sp) (snd sp)) (combine rows probs).
Proof. apply check_prob_vec_rows. Qed.
Theorem C06_ln_prob_rows ratio pd conv rows ls : length rows = length ls -> ~ In (XR p_infty) ls ->
  check_ln_prob_vec ratio pd conv rows ls = map (fun sp => check_ln_prob ratio pd conv (fst sp) (snd sp)) (combine rows ls).
Proof. apply check_ln_prob_vec_rows. Qed.

Definition unif02 : entry := EPrior (fun x => if Rle_dec 0 x then if Rle_dec x 2 then /2 else 0 else 0)
   (fun x => if Rle_dec 0 x then if Rle_dec x 2 then Finite (ln (/2)) else m_infty else m_infty).
(** a prior whose density is unbounded at 0, as Gamma with k < 1: ln_prob(0) = inf *)
Definition spiky : entry := EPrior (fun x => 0) (fun x => if Req_EM_T x 0 then p_infty else m_infty).
Definition ex_pd : priordict := [("a", unif02); ("s", EConstraint 0 1); ("b", unif02)].
(** the converted sample carries the sum a + b under the name s *)
Definition ex_conv (s : sample) : sample :=
  match dget s "a", dget s "b" with Some a, Some b => ("s", a + b) :: s | _, _ => s end.
Lemma unif02_in x : 0 <= x <= 2 -> entry_prob unif02 x = /2.
Proof. intros H. simpl. destruct (Rle_dec 0 x); [|lra]. destruct (Rle_dec x 2); [reflexivity|lra]. Qed.
Example C06_ex_inside : PriorDict_prob (fun _ => 3) ex_pd ex_conv [("b", /4); ("a", /4)] = Some (3 * /4).
Proof.
  replace (/4) with (/2 * (/2 * 1)) at 3 by lra.
  apply (proj1 (C06_product (fun _ => 3) ex_pd ex_conv [("b", /4); ("a", /4)] (/2 * (/2 * 1)) ltac:(
    rewrite <- (unif02_in (/4)) by lra; repeat (econstructor; [reflexivity|]); constructor))).
  intros (k & mn & mx & v & H & E & V). unfold ex_pd in H. simpl in H. destruct H as [H|[H|[H|[]]]]; try discriminate.
  injection H as <- <- <-. simpl in E. injection E as <-. lra.
Qed.
Example C06_ex_outside : PriorDict_prob (fun _ => 3) ex_pd ex_conv [("b", 1); ("a", 1)] = Some 0.
Proof.
  apply (proj2 (C06_product (fun _ => 3) ex_pd ex_conv [("b", 1); ("a", 1)] (/2 * (/2 * 1)) ltac:(
    rewrite <- (unif02_in 1) by lra; repeat (econstructor; [reflexivity|]); constructor))).
  exists "s", 0, 1, (1 + 1). split; [right; left; reflexivity|]. split; [reflexivity|lra].
Qed.
Example C06_ex_entry_ok : forall k e, dget ex_pd k = Some e -> entry_ok e.
Proof.
  assert (U : entry_ok unif02).
  { intros x. unfold ln_ext. destruct (Rle_dec 0 x); [destruct (Rle_dec x 2)|].
    - destruct (Rlt_dec 0 (/2)); [split; [lra|reflexivity]|lra].
    - destruct (Rlt_dec 0 0); [lra|split; [lra|reflexivity]].
    - destruct (Rlt_dec 0 0); [lra|split; [lra|reflexivity]]. }
  intros k e H. unfold ex_pd, dget in H. destruct (String.eqb k "a"); [injection H as <-; exact U|].
  destruct (String.eqb k "s"); [injection H as <-; exact I|].
  destruct (String.eqb k "b"); [injection H as <-; exact U|discriminate].
Qed.
(** FINDING: when the summed ln_prob is +inf the constraints are not evaluated at all *)
Theorem C06_constraint_bypass_refuted : exists pd conv s, violated pd (conv s) /\
  PriorDict_ln_prob true (fun _ => 1) pd conv s = Some (XR p_infty).
Proof.
  exists [("x", spiky); ("c", EConstraint 1 2)], (fun s => ("c", 5) :: s), [("x", 0)]. split.
  - exists "c", 1, 2, 5. split; [right; left; reflexivity|]. split; [reflexivity|lra].
  - apply ln_prob_plus_infinity with [p_infty]; [|reflexivity]. simpl. destruct (Req_EM_T 0 0); [reflexivity|lra].
Qed.
(** in an array with one finite row the same +inf row is checked: scalar and array results differ *)
Theorem C06_bypass_array_differs_refuted : exists pd conv rows ls,
  check_ln_prob_vec 1 pd conv rows ls <> map (fun sp => check_ln_prob 1 pd conv (fst sp) (snd sp)) (combine rows ls).
Proof.
  exists [("c", EConstraint 1 2)], (fun s => s), [[("c", 5)]; [("c", 5)]], [XR p_infty; XR (Finite 0)].
  unfold check_ln_prob_vec, check_ln_prob, evaluate_constraints. simpl. unfold constraint_prob.
  destruct (Rlt_dec 1 5); [|lra]. destruct (Rlt_dec 5 2); [lra|]. simpl. intros H. discriminate.
Qed.
(** FINDING: the factor is cached per ordered key tuple, so two orders of the same
    sample can get different probabilities *)
Theorem C06_order_dependent_factor_refuted : exists ratio pd conv s s' p p',
  wf pd /\ conv_respects_order conv /\ Permutation s s' /\ (forall ks, 0 < ratio ks) /\
  PriorDict_prob ratio pd conv s = Some p /\ PriorDict_prob ratio pd conv s' = Some p' /\ p <> p'.
Proof.
  set (pd := [("a", unif02); ("b", unif02)]).
  set (ratio := fun ks : list string => match ks with "a" :: _ => 2 | _ => 3 end).
  exists ratio, pd, (fun s => []), [("a", 1); ("b", 1)], [("b", 1); ("a", 1)], (2 * (/2 * (/2 * 1))), (3 * (/2 * (/2 * 1))).
  assert (PD : forall k k', (k = "a" \/ k = "b") -> (k' = "a" \/ k' = "b") -> product_density pd [(k, 1); (k', 1)] (/2 * (/2 * 1))).
  { intros k k' H H'. rewrite <- (unif02_in 1) by lra. repeat (apply pdens_cons; [destruct H as [->| ->], H' as [->| ->]; reflexivity|]). constructor. }
  assert (NV : ~ violated pd []) by (intros (k & mn & mx & v & _ & E & _); discriminate).
  split; [repeat constructor; simpl; intuition discriminate|]. split; [intros s s' k _; reflexivity|].
  split; [constructor|]. split; [|split; [|split]].
  - intros ks. unfold ratio. repeat match goal with |- context [match ?x with _ => _ end] => destruct x; try lra end.
  - apply (proj1 (prob_spec ratio pd (fun s => []) [("a", 1); ("b", 1)] _ (PD "a" "b" (or_introl eq_refl) (or_intror eq_refl)))), NV.
  - apply (proj1 (prob_spec ratio pd (fun s => []) [("b", 1); ("a", 1)] _ (PD "b" "a" (or_intror eq_refl) (or_introl eq_refl)))), NV.
  - lra.
Qed.

(** ** C07 *)
(** the sample formed by row [i] of the columns *)
Definition row (keys : list string) (cols : string -> list R) (i : nat) : sample := map (fun k => (k, nth i (cols k) 0)) keys.
(** evaluate_constraints row by row *)
Definition keep_is_constraints pd conv keys (batch : nat -> string -> list R) (keep : nat -> list bool) : Prop :=
  forall t j b, nth_error (keep t) j = Some b -> b = evaluate_constraints pd conv (row keys (batch t) j).
(** whenever it returns: exactly [needed] samples for every key, constraint keys
    dropped from the key list, and every returned row is one row of one drawn batch
    that satisfies all constraints *)
Theorem C07_sound pd conv batch keep is_c keys needed fuel keys' r :
  (forall t k, length (batch t k) = needed) -> (forall t, length (keep t) = needed) ->
  keep_is_constraints pd conv (filter (fun k => negb (is_c k)) keys) batch keep ->
  sample_batch batch keep is_c keys needed fuel = Some (Some (keys', r)) ->
  keys' = filter (fun k => negb (is_c k)) keys /\
  (forall k, length (r k) = needed) /\
  (forall i, (i < needed)%nat -> ~ violated pd (conv (row keys' r i))) /\
  (forall i, (i < needed)%nat -> exists t j, forall k, nth_error (r k) i = nth_error (batch t k) j).
Proof.
  intros HL HK HC H. destruct (sampling_sound _ _ _ _ _ _ _ _ HL HK H) as (E & L & _ & HR).
  split; [exact E|]. split; [exact L|]. split.
  - intros i Hi. destruct (HR i Hi) as (t & j & Hk & Hn). apply evaluate_constraints_spec.
    rewrite <- E in HC. replace (row keys' r i) with (row keys' (batch t) j); [symmetry; apply (HC t j true Hk)|].
    apply map_ext. intros k. f_equal. specialize (Hn k). 
    destruct (nth_error (r k) i) as [x|] eqn:E1; [|apply nth_error_None in E1; rewrite L in E1; lia].
    rewrite (nth_error_nth _ _ 0 E1). apply nth_error_nth. congruence.
  - intros i Hi. destruct (HR i Hi) as (t & j & _ & Hn). eauto.
Qed.
(** they are the first [needed] accepted draws, in the order of the random stream *)
Theorem C07_first_accepted batch keep is_c keys needed fuel keys' r :
  (forall t k, length (batch t k) = needed) -> (forall t, length (keep t) = needed) ->
  sample_batch batch keep is_c keys needed fuel = Some (Some (keys', r)) ->
  exists n, forall k, r k = firstn needed (accepted batch keep 0 n k).
Proof. intros HL HK H. apply (sampling_sound _ _ _ _ _ _ _ _ HL HK H). Qed.
(** and it does return as soon as enough draws are accepted *)
Theorem C07_terminates batch keep is_c keys needed fuel k0 ks n :
  filter (fun k => negb (is_c k)) keys = k0 :: ks -> (n <= fuel)%nat ->
  (needed <= length (accepted batch keep 0 n k0))%nat ->
  exists r, sample_batch batch keep is_c keys needed fuel = Some (Some (k0 :: ks, r)).
Proof.
  intros E Hf Hl. unfold sample_batch. rewrite E.
  destruct (loop_terminates batch keep needed n fuel 0 k0 (fun _ => []) Hf Hl) as [r ->]. eauto.
Qed.
(** size None or 1: the first draw that satisfies the constraints *)
Theorem C07_scalar {A} (draw : nat -> A) ok fuel x : sample_one draw ok fuel 0 = Some x ->
  exists n, x = draw n /\ ok x = true /\ forall m, (m < n)%nat -> ok (draw m) = false.
Proof. intros H. destruct (sample_one_spec draw ok fuel 0 x H) as (n & _ & E & O & M). exists n. repeat split; auto. intros m Hm. apply M. lia. Qed.
Theorem C07_scalar_terminates {A} (draw : nat -> A) ok n : ok (draw n) = true -> exists x, sample_one draw ok (S n) 0 = Some x.
Proof. intros H. apply (sample_one_terminates draw ok n 0 (S n)); auto; lia. Qed.
(** FINDING: the caller's list is edited in place *)
Theorem C07_keys_unchanged_refuted : exists batch keep is_c keys needed fuel keys' r,
  sample_batch batch keep is_c keys needed fuel = Some (Some (keys', r)) /\ keys' <> keys.
Proof.
  exists (fun _ _ => [1; 2]), (fun _ => [true; true]), (String.eqb "c"), ["x"; "c"], 2%nat, 3%nat, ["x"].
  eexists. split; [reflexivity|discriminate].
Qed.
Definition ex_batch (t : nat) (k : string) : list R :=
  if String.eqb k "x" then [INR t; INR t + 10] else [INR t + 20; INR t + 30].
Definition ex_keep (t : nat) : list bool := match t with O => [false; true] | S O => [false; false] | _ => [true; true] end.
Example C07_ex : exists r, sample_batch ex_batch ex_keep (String.eqb "c") ["x"; "c"; "y"] 2 9 = Some (Some (["x"; "y"], r)) /\
  r "x" = [INR 0 + 10; INR 2] /\ r "y" = [INR 0 + 30; INR 2 + 20].
Proof. eexists. split; [reflexivity|]. split; reflexivity. Qed.
Example C07_ex_scalar : sample_one (fun n => n) (fun n => Nat.ltb 4 n) 10 0 = Some 5%nat.
Proof. reflexivity. Qed.

(** ** C10 *)
(** once computed, the factor of a key tuple never changes, whatever happens next *)
Theorem C10_factor_fixed active est st l keys f st' :
  normalize_constraint_factor active est st keys = (f, st') ->
  fst (normalize_constraint_factor active est (nrun active est st' l) keys) = f.
Proof. apply factor_fixed. Qed.
(** a fresh factor is the estimate for the dictionary of that moment, or 1 without constraints *)
Theorem C10_first_use active est st l keys :
  (forall k, In k (n_cache (nrun active est st l)) -> fst k <> keys) ->
  let st1 := nrun active est st l in
  fst (normalize_constraint_factor active est st1 keys) =
    if active (n_pd st1) keys then est (n_time st1) (n_pd st1) keys else 1.
Proof.
  intros H st1. unfold normalize_constraint_factor. destruct (cget (n_cache st1) keys) as [g|] eqn:E; [|reflexivity].
  exfalso. fold st1 in H. clearbody st1. induction (n_cache st1) as [|[k v] c IH]; simpl in E; [discriminate|].
  destruct (list_eqb keys k) eqn:K.
  - apply list_eqb_spec in K. apply (H (k, v)); [left; reflexivity|]. auto.
  - apply IH; auto. intros k' Hk. apply H. right. exact Hk.
Qed.
Theorem C10_no_constraint active est st keys l : n_cache st = [] -> (forall pd ks, active pd ks = false) ->
  fst (normalize_constraint_factor active est (nrun active est st l) keys) = 1.
Proof. apply factor_one. Qed.
(** FINDING: after replacing or deleting a constraint the factor is still the old one *)
Theorem C10_follows_edits_refuted : exists active est st keys e,
  let st1 := snd (normalize_constraint_factor active est st keys) in
  let st2 := nstep active est st1 (NSet "c" e) in
  fst (normalize_constraint_factor active est st2 keys) <> est (n_time st2) (n_pd st2) keys /\
  active (n_pd st2) keys = true.
Proof.
  exists (fun _ _ => true),
    (fun _ pd _ => match dget pd "c" with Some (EConstraint mn mx) => / (mx - mn) | _ => 1 end),
    {| n_pd := [("c", EConstraint 0 (/2))]; n_cache := []; n_time := 0 |}, ["x"], (EConstraint 0 (/4)).
  simpl. split; [|reflexivity]. lra.
Qed.
Example C10_ex : let act := fun (pd : priordict) (_ : list string) => dmem pd "c" in
  let st := {| n_pd := [("c", EConstraint 0 1)]; n_cache := []; n_time := 0 |} in
  fst (normalize_constraint_factor act (fun t _ _ => INR t + 2) (nrun act (fun t _ _ => INR t + 2) st [NFactor ["x"]; NFactor ["y"]; NDel "c"]) ["y"]) = INR 1 + 2.
Proof. reflexivity. Qed.

(** *** C66: PriorDict.rescale *)
(** Entry i is the rescaled coordinate i of the prior of key i. *)
Theorem C66_coordinatewise resc keys theta l : PriorDict_rescale resc keys theta = Some l -> length keys = length theta ->
  length l = length keys /\ forall i k u, nth_error keys i = Some k -> nth_error theta i = Some u ->
    exists q, resc k = Some q /\ nth_error l i = Some (q u).
Proof. apply rescale_spec. Qed.
(** It raises exactly if a key is unknown. *)
Theorem C66_raises resc keys theta : length keys = length theta ->
  (PriorDict_rescale resc keys theta = None <-> exists k, In k keys /\ resc k = None).
Proof.
  revert theta. induction keys as [|k ks IH]; intros [|u us] L; try discriminate L; simpl.
  - split; [discriminate|]. intros (k & [] & _).
  - injection L as L. specialize (IH us L). destruct (resc k) as [q|] eqn:E.
    + destruct (PriorDict_rescale resc ks us) as [l|].
      * split; [discriminate|]. intros (k' & [<-|Hk] & Hn); [congruence|]. destruct IH as (_ & IH). discriminate IH. eauto.
      * split; auto. intros _. destruct IH as (IH & _). destruct (IH eq_refl) as (k' & Hk & Hn). eauto.
    + split; eauto.
Qed.
(** A coordinate changes its own value only. *)
Theorem C66_local resc keys theta theta' l l' i : PriorDict_rescale resc keys theta = Some l -> PriorDict_rescale resc keys theta' = Some l' ->
  length keys = length theta -> length keys = length theta' -> nth_error theta i = nth_error theta' i -> nth_error l i = nth_error l' i.
Proof.
  intros H H' L L' E. destruct (rescale_spec _ _ _ _ H L) as (Ll & S). destruct (rescale_spec _ _ _ _ H' L') as (Ll' & S').
  destruct (nth_error keys i) as [k|] eqn:K.
  - destruct (nth_error theta i) as [u|] eqn:T.
    + destruct (S i k u K T) as (q & Q & ->). destruct (S' i k u K (eq_sym E)) as (q' & Q' & ->). congruence.
    + apply nth_error_None in T. rewrite <- L in T. apply nth_error_None in T. congruence.
  - apply nth_error_None in K. rewrite (proj2 (nth_error_None l i)) by lia. rewrite (proj2 (nth_error_None l' i)) by lia. reflexivity.
Qed.
(** With lists of different length the excess is ignored silently. *)
Theorem C66_short_refuted : exists resc keys theta l, PriorDict_rescale resc keys theta = Some l /\ (length l < length keys)%nat.
Proof. exists (fun _ => Some (fun u => u)), ["a"; "b"]%string, [1], [1]. split; [reflexivity|simpl; lia]. Qed.
Example C66_ex : PriorDict_rescale (fun k => if String.eqb k "a" then Some (fun u => u + 1) else Some (fun u => 2 * u)) ["b"; "a"]%string [3; 5] = Some [2 * 3; 5 + 1].
Proof. reflexivity. Qed.

(** ** Assumptions of every theorem above *)
Definition PriorDict_Props_all :=
  (@C06_product,
   @C06_defined,
   @C06_order,
   @C06_order_unconstrained,
   @C06_ln_prob,
   @C06_prob_rows,
   @C06_ln_prob_rows,
   @C06_constraint_bypass_refuted,
   @C06_bypass_array_differs_refuted,
   @C06_order_dependent_factor_refuted,
   @C07_sound,
   @C07_first_accepted,
   @C07_terminates,
   @C07_scalar,
   @C07_scalar_terminates,
   @C07_keys_unchanged_refuted,
   @C10_factor_fixed,
   @C10_first_use,
   @C10_no_constraint,
   @C10_follows_edits_refuted,
   @C66_coordinatewise,
   @C66_raises,
   @C66_local,
   @C66_short_refuted).
Print Assumptions PriorDict_Props_all.
