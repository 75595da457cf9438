(** Properties C08 (resolution order), C09 (rescale and its index cache), C38 (joint
    probability) and C39 (sampling) of bilby.core.prior.dict.ConditionalPriorDict. *)
From Coq Require Import Reals Lra String List Bool Arith Lia Permutation Relations.
From Verif Require Import PyDict CondDict_Model CondDict_Proofs CondDict_Proofs2.
Import ListNotations.
Open Scope string_scope.
Open Scope list_scope.

(** a concrete instance: real values, unit values real *)
Definition un (q : R -> R) : cprior R R := {| c_req := None; c_fixed := false; c_q := fun _ => q; c_p := fun _ _ => 1%R |}.
Definition fixed_at : cprior R R := {| c_req := None; c_fixed := true; c_q := fun _ u => u; c_p := fun _ _ => 1%R |}.
(** value = u + sum of the required variables; density = sum of the required variables *)
Definition sumv (vars : dict R) : R := fold_right Rplus 0%R (dvals vars).
Definition con (l : list string) : cprior R R :=
  {| c_req := Some l; c_fixed := false; c_q := fun vars u => (u + sumv vars)%R; c_p := fun vars _ => sumv vars |}.

(** ** C08 *)
(** each conditional key comes after every variable it requires *)
Theorem C08_order {V U} (pd : dict (cprior V U)) unc cond ok : resolve_conditions pd = (unc, cond, ok) ->
  forall a k b, cond = a ++ k :: b -> exists p, dget pd k = Some p /\ incl (reqs p) (unc ++ a).
Proof.
  intros H a k b E. destruct (resolve_spec _ _ _ _ H) as [rest [_ _ O _ _]]. rewrite E in O. exact (ordered_split _ _ _ _ _ O).
Qed.
(** when resolved, the sorted keys are exactly the keys of the dictionary, once each *)
Theorem C08_complete {V U} (pd : dict (cprior V U)) unc cond : wf pd -> resolve_conditions pd = (unc, cond, true) ->
  NoDup (unc ++ cond) /\ Permutation (dkeys pd) (unc ++ cond) /\
  (forall k, In k unc <-> exists p, In (k, p) pd /\ c_req p = None).
Proof.
  intros W H. destruct (good_sorted (Build_cstate pd unc cond true [] [] []) (conj W H) eq_refl) as (A & B & _).
  split; [exact A|]. split; [exact B|]. intros k. destruct (resolve_spec _ _ _ _ H) as [rest [EU _ _ _ _]]. rewrite EU.
  unfold unconditional. rewrite in_map_iff. split.
  - intros ((k' & p) & <- & Hf). apply filter_In in Hf as [Hf F]. exists p. split; [exact Hf|]. unfold is_cond in F. simpl in F. destruct (c_req p); [discriminate|reflexivity].
  - intros (p & Hp & E). exists (k, p). split; [reflexivity|]. apply filter_In. split; [exact Hp|]. unfold is_cond. simpl. rewrite E. reflexivity.
Qed.
(** resolution fails exactly when a required variable is missing or there is a cycle *)
Theorem C08_unresolved_iff {V U} (pd : dict (cprior V U)) unc cond ok : wf pd -> resolve_conditions pd = (unc, cond, ok) ->
  (ok = false <-> (exists k r, dep pd k r /\ ~ In r (dkeys pd)) \/ (exists k, clos_trans string (dep pd) k k)).
Proof. apply unresolved_iff. Qed.
(** and then rescale and prob raise, leaving the object as it was *)
Theorem C08_unresolved_raises {V U} (st : cstate V U) keys theta s : s_resolved st = false ->
  rescale st keys theta = (st, None) /\ cond_prob st s = (st, None).
Proof. intros H. unfold rescale, cond_prob. rewrite H. destruct s; auto. Qed.
(** the order is kept up to date through every history of item assignments and deletions *)
Theorem C08_history {V U} (pd : dict (cprior V U)) lrs0 l : wf pd ->
  let st := run (new_dict pd lrs0) l in
  resolve_conditions (s_pd st) = (s_unc st, s_cond st, s_resolved st).
Proof. intros W st. apply (run_good (new_dict pd lrs0) l). apply new_good, W. Qed.
(** FINDING: dict.update bypasses the resolution: the flag stays True although a
    required variable is missing *)
Theorem C08_update_refuted : exists (st : cstate R R) k p,
  good st /\ s_resolved st = true /\ s_resolved (update_item st k p None) = true /\
  missing (s_pd (update_item st k p None)).
Proof.
  exists (new_dict [("x", un (fun u => u))] []), "y", (con ["z"]). split; [apply new_good; repeat constructor; simpl; tauto|].
  split; [reflexivity|]. split; [reflexivity|]. exists "y", "z". split; [exists (con ["z"]); split; [reflexivity|left; reflexivity]|].
  simpl. intuition discriminate.
Qed.
Definition ex_pd : dict (cprior R R) := [("c", con ["b"; "a"]); ("b", con ["a"; "d"]); ("a", un (fun u => 2 * u)%R); ("d", fixed_at)].
Example C08_ex : resolve_conditions ex_pd = (["a"; "d"], ["b"; "c"], true).
Proof. reflexivity. Qed.
Example C08_ex_cycle : resolve_conditions (("a2", con ["e"]) :: ("e", con ["a2"]) :: ex_pd) = (["a"; "d"], ["b"; "c"], false).
Proof. reflexivity. Qed.

(** ** C09 *)
(** A call of rescale that succeeds returns, for every key in the order given, the value
    of its prior's quantile function at that key's unit value, under the values
    returned (or held fixed) for the required variables.  This holds whenever the
    key list differs from the last one, and always when the index cache is valid. *)
Theorem C09_correct {V U} (st : cstate V U) keys theta st' out :
  good st -> (keys <> s_rkeys st \/ cache_ok st) -> NoDup keys -> rescale st keys theta = (st', Some out) ->
  exists fin, explains (s_pd st) keys theta fin /\ not_rescaled (s_pd st) fin (s_lrs st) /\
    Forall2 (fun k v => dget fin k = Some v) keys out.
Proof. intros G C N H. destruct (rescale_correct st keys theta st' out G C N H) as (A & B & D & _). eauto. Qed.
(** the cache is valid after every history without edits, from construction on *)
Theorem C09_history {V U} (pd : dict (cprior V U)) lrs0 l keys theta st' out : wf pd ->
  forallb (fun o => negb (is_edit o)) l = true -> NoDup keys ->
  rescale (run (new_dict pd lrs0) l) keys theta = (st', Some out) ->
  exists fin, explains pd keys theta fin /\ Forall2 (fun k v => dget fin k = Some v) keys out.
Proof.
  intros W H N E. destruct (new_good pd lrs0 W) as [G C]. destruct (run_no_edit (new_dict pd lrs0) l H) as [S K].
  destruct (C09_correct _ _ _ _ _ (run_good _ l G) (or_intror (K C)) N E) as (fin & A & _ & B). exists fin. split; [|exact B].
  destruct S as (S1 & _). rewrite S1 in A. unfold new_dict in A. rewrite resolve_pd in A. exact A.
Qed.
(** it does succeed for a resolved dictionary and one unit value per free parameter *)
Theorem C09_total {V U} (st : cstate V U) keys theta : good st -> cache_ok st \/ keys <> s_rkeys st -> s_resolved st = true ->
  (forall k, In k keys <-> exists p, dget (s_pd st) k = Some p /\ c_fixed p = false) ->
  length keys <= length theta ->
  (forall k p, dget (s_pd st) k = Some p -> c_fixed p = true -> exists v, dget (s_lrs st) k = Some v) ->
  exists out, snd (rescale st keys theta) = Some out.
Proof. apply rescale_total. Qed.
(** the values are determined by the unit values and the fixed parameters: the order
    in which the keys are passed does not matter *)
Theorem C09_order_independent {V U} (pd : dict (cprior V U)) keys theta keys' theta' fin fin' lrs :
  wf pd -> (forall k, In k (dkeys pd) -> Resolvable pd k) ->
  explains pd keys theta fin -> explains pd keys' theta' fin' -> not_rescaled pd fin lrs -> not_rescaled pd fin' lrs ->
  (forall k p, dget pd k = Some p -> c_fixed p = false -> In k keys /\ In k keys') ->
  (forall i i' k, nth_error keys i = Some k -> nth_error keys' i' = Some k -> nth_error theta i = nth_error theta' i') ->
  forall k, In k (dkeys pd) -> dget fin k = dget fin' k.
Proof. apply explains_unique. Qed.
Example C09_ex : snd (rescale (new_dict ex_pd [("d", 7%R)]) ["c"; "a"; "b"] [10; 1; 3]%R) =
  Some [10 + ((3 + (2 * 1 + (7 + 0))) + (2 * 1 + 0)); 2 * 1; 3 + (2 * 1 + (7 + 0))]%R.
Proof. reflexivity. Qed.
Example C09_ex_second_order :
  snd (rescale (run (new_dict ex_pd [("d", 7%R)]) [ORescale ["c"; "a"; "b"] [0; 0; 0]%R]) ["a"; "b"; "c"] [1; 3; 10]%R) =
  Some [2 * 1; 3 + (2 * 1 + (7 + 0)); 10 + ((3 + (2 * 1 + (7 + 0))) + (2 * 1 + 0))]%R.
Proof. reflexivity. Qed.
(** FINDING: redefining which of two parameters depends on the other, with the same
    keys, leaves the old index list in place and hands each prior the other's unit value *)
Theorem C09_stale_cache_refuted : exists (st : cstate R R) keys theta st' out,
  good st /\ NoDup keys /\ s_resolved st = true /\ rescale st keys theta = (st', Some out) /\
  ~ exists fin, explains (s_pd st) keys theta fin /\ Forall2 (fun k v => dget fin k = Some v) keys out.
Proof.
  set (st := run (new_dict [("x", un (fun u => u)); ("y", con ["x"])] [])
     [ORescale ["x"; "y"] [0; 0]%R; OSet "y" (un (fun u => u)) None; OSet "x" (con ["y"]) None]).
  exists st, ["x"; "y"], [1; 5]%R.
  eexists. exists [5 + (1 + 0); 1]%R. split; [apply run_good, new_good; repeat constructor; simpl; intuition discriminate|].
  split; [repeat constructor; simpl; intuition discriminate|]. split; [reflexivity|]. split; [reflexivity|].
  intros (fin & X & F). inversion F as [|? ? ? ? F1 F2]; subst. inversion F2 as [|? ? ? ? F3 F4]; subst.
  destruct (X 1%nat "y" eq_refl) as (p & u & vars & E & Eu & _ & _ & _ & Q). simpl in Eu. injection Eu as <-.
  vm_compute in E. injection E as <-. rewrite F3 in Q. simpl in Q. injection Q as Q. lra.
Qed.

(** ** C38: the joint probability is the product of the conditional densities *)
Theorem C38_joint {V U} (st : cstate V U) s st' r : wf s -> cond_prob st s = (st', Some r) ->
  joint (s_pd st) (fun k => match dget s k with Some v => Some v | None => dget (s_lrs st) k end) s r.
Proof. intros W H. apply (cond_prob_spec st s st' r W H). Qed.
(** it does not depend on the history when the sample holds every required variable *)
Theorem C38_history_free {V U} (pd : dict (cprior V U)) st1 st2 s st1' st2' r1 r2 : wf s ->
  s_pd st1 = pd -> s_pd st2 = pd ->
  (forall k p q, In k (dkeys s) -> dget pd k = Some p -> In q (reqs p) -> In q (dkeys s)) ->
  cond_prob st1 s = (st1', Some r1) -> cond_prob st2 s = (st2', Some r2) -> r1 = r2.
Proof.
  intros W E1 E2 HC H1 H2. apply C38_joint in H1; [|exact W]. apply C38_joint in H2; [|exact W]. rewrite E1 in H1. rewrite E2 in H2.
  apply (joint_fun _ _ _ _ _ _ H1 H2). intros k p q Hk Ep Hq. destruct (dget s q) eqn:E; [reflexivity|].
  apply dget_none in E. exfalso. apply E. eapply HC; eauto.
Qed.
(** FINDING: when a required variable is left out of the sample, the value of the last
    draw or evaluation is used silently *)
Theorem C38_history_refuted : exists (pd : dict (cprior R R)) s l1 l2 r1 r2, wf pd /\
  snd (cond_prob (run (new_dict pd []) l1) s) = Some r1 /\ snd (cond_prob (run (new_dict pd []) l2) s) = Some r2 /\ r1 <> r2.
Proof.
  exists [("x", un (fun u => u)); ("y", con ["x"])], [("y", 0%R)], [OProb [("x", 1%R)]], [OProb [("x", 2%R)]], ((1 + 0) * 1)%R, ((2 + 0) * 1)%R.
  split; [repeat constructor; simpl; intuition discriminate|]. split; [reflexivity|]. split; [reflexivity|lra].
Qed.
Example C38_ex : snd (cond_prob (new_dict ex_pd [("d", 7%R)]) [("c", 1); ("b", 4); ("a", 2)]%R) =
  Some ((4 + (2 + 0)) * ((2 + (7 + 0)) * (1 * 1)))%R.
Proof. reflexivity. Qed.

(** ** C39: sampling *)
(** every sampled value is drawn under the conditions given by the other values of the
    same draw, or by the value held by a DeltaFunction; other variables are an error *)
Theorem C39_sample {V U} (st : cstate V U) delta keys (draw : string -> U) st' res : wf (s_pd st) -> NoDup keys ->
  sample_subset st delta keys draw = (st', Some res) ->
  (forall k, In k (dkeys res) -> In k keys) /\
  forall k, In k keys -> exists p vars, dget (s_pd st) k = Some p /\ map fst vars = reqs p /\
    (forall r v, In (r, v) vars -> In r keys -> dget res r = Some v) /\
    (forall r v, In (r, v) vars -> ~ In r keys -> In r delta /\ dget (s_lrs st) r = Some v) /\
    dget res k = Some (c_q p vars (draw k)).
Proof. apply sample_correct. Qed.
Example C39_ex : snd (sample_subset (new_dict ex_pd [("d", 7%R)]) ["d"] ["b"; "a"] (fun k => if String.eqb k "a" then 1 else 3)%R) =
  Some [("a", 2 * 1); ("b", 3 + (2 * 1 + (7 + 0)))]%R.
Proof. reflexivity. Qed.
Example C39_ex_error : snd (sample_subset (new_dict ex_pd [("d", 7%R)]) ["d"] ["c"; "b"] (fun _ => 1)%R) = None.
Proof. reflexivity. Qed.
(** FINDING: drawing an array of samples leaves an array in a DeltaFunction's stored
    value; a later scalar rescale of a prior depending on it uses that array.
    Values are arrays here, a scalar being an array of one element. *)
Definition delta1 : cprior (list R) (list R) :=
  {| c_req := None; c_fixed := true; c_q := fun _ u => map (fun _ => 1%R) u; c_p := fun _ _ => 1%R |}.
Definition shift1 : cprior (list R) (list R) :=
  {| c_req := Some ["d"]; c_fixed := false;
     c_q := fun vars u => match vars with
                          | [(_, v)] => map (fun x => (x + hd 0 u)%R) v | _ => u end;
     c_p := fun _ _ => 1%R |}.
Theorem C39_delta_array_refuted : exists (pd : dict (cprior (list R) (list R))) lrs0 draw st1 res (out1 out2 : list R),
  sample_subset (new_dict pd lrs0) ["d"] ["x"; "d"] draw = (st1, Some res) /\
  snd (rescale (new_dict pd lrs0) ["x"] [[5%R]]) = Some [out1] /\ length out1 = 1 /\
  snd (rescale st1 ["x"] [[5%R]]) = Some [out2] /\ length out2 = 3.
Proof.
  exists [("d", delta1); ("x", shift1)], [("d", [1%R])], (fun _ => [0; 0; 0]%R).
  do 4 eexists. split; [reflexivity|]. split; [reflexivity|]. split; [reflexivity|]. split; reflexivity.
Qed.

(** ** Assumptions of every theorem above *)
Definition CondDict_Props_all :=
  (@C08_order,
   @C08_complete,
   @C08_unresolved_iff,
   @C08_unresolved_raises,
   @C08_history,
   @C08_update_refuted,
   @C09_correct,
   @C09_history,
   @C09_total,
   @C09_order_independent,
   @C09_stale_cache_refuted,
   @C38_joint,
   @C38_history_free,
   @C38_history_refuted,
   @C39_sample,
   @C39_delta_array_refuted).
Print Assumptions CondDict_Props_all.
