From Coq Require Import Reals String List Bool Arith Lia Permutation Relations Wellfounded.
From Verif Require Import PyDict CondDict_Model.
Import ListNotations.
Open Scope string_scope.
Open Scope list_scope.

Lemma mem_in k l : mem k l = true <-> In k l.
Proof.
  unfold mem. rewrite existsb_exists. split.
  - intros (x & H & E). apply String.eqb_eq in E. subst. exact H.
  - intros H. exists k. split; [exact H|apply String.eqb_refl].
Qed.
Section P.
Context {V U : Type}.
Notation cprior := (cprior V U).
Notation cstate := (cstate V U).
Implicit Types pd : dict cprior.

(** [k] requires the variable [r] *)
Definition dep pd (k r : string) : Prop := exists p, dget pd k = Some p /\ In r (reqs p).
Inductive Resolvable pd : string -> Prop :=
| Resolvable_intro k p : dget pd k = Some p -> (forall r, In r (reqs p) -> Resolvable pd r) -> Resolvable pd k.
(** every key of [l] comes after the variables it requires, [base] being given *)
Inductive ordered pd : list string -> list string -> Prop :=
| ord_nil base : ordered pd base []
| ord_cons base k t p : dget pd k = Some p -> incl (reqs p) base -> ordered pd (base ++ [k]) t -> ordered pd base (k :: t).
Lemma ordered_app pd base a b : ordered pd base a -> ordered pd (base ++ a) b -> ordered pd base (a ++ b).
Proof.
  intros H. induction H as [base|base k t p E I H IH]; intros Hb; simpl; [rewrite app_nil_r in Hb; exact Hb|].
  econstructor; eauto. apply IH. rewrite <- app_assoc. exact Hb.
Qed.
Lemma ordered_split pd base a k b : ordered pd base (a ++ k :: b) -> exists p, dget pd k = Some p /\ incl (reqs p) (base ++ a).
Proof.
  revert base. induction a as [|x a IH]; intros base H; inversion H; subst.
  - exists p. rewrite app_nil_r. auto.
  - destruct (IH _ H5) as (p' & E & I). exists p'. split; [exact E|]. rewrite <- app_assoc in I. exact I.
Qed.
Lemma check_spec pd k l : check_conditions_resolved pd k l = true <-> exists p, dget pd k = Some p /\ incl (reqs p) l.
Proof.
  unfold check_conditions_resolved. destruct (dget pd k) as [p|]; [|split; [discriminate|intros (p & H & _); discriminate]].
  rewrite forallb_forall. split.
  - intros H. exists p. split; [reflexivity|]. intros r Hr. apply mem_in, H, Hr.
  - intros (p' & E & I) r Hr. injection E as <-. apply mem_in, I, Hr.
Qed.
Lemma pass_spec pd unc cond todo c r : pass pd unc cond todo = (c, r) ->
  exists new, c = cond ++ new /\ Permutation todo (new ++ r) /\ ordered pd (unc ++ cond) new /\
    (new = [] -> r = todo /\ forall k, In k todo -> check_conditions_resolved pd k (unc ++ cond) = false).
Proof.
  revert cond c r. induction todo as [|k t IH]; intros cond c r; simpl.
  - intros H. injection H as <- <-. exists []. rewrite app_nil_r. repeat split; auto; [constructor|intros k []].
  - destruct (check_conditions_resolved pd k (unc ++ cond)) eqn:E.
    + intros H. destruct (IH _ _ _ H) as (new & -> & P & O & _). exists (k :: new). repeat split.
      * rewrite <- app_assoc. reflexivity.
      * simpl. constructor. exact P.
      * apply check_spec in E as (p & E & I). econstructor; eauto. rewrite <- app_assoc. exact O.
      * discriminate.
      * discriminate.
    + destruct (pass pd unc cond t) as [c' r'] eqn:EP. intros H. injection H as <- <-.
      destruct (IH _ _ _ EP) as (new & -> & P & O & N). exists new. split; [reflexivity|]. split; [|split; [exact O|]].
      * rewrite P. apply Permutation_middle.
      * intros ->. destruct (N eq_refl) as [-> F]. split; [reflexivity|]. intros k' [<-|H']; auto.
Qed.
Lemma pass_stuck pd unc cond todo : (forall k, In k todo -> check_conditions_resolved pd k (unc ++ cond) = false) ->
  pass pd unc cond todo = (cond, todo).
Proof.
  induction todo as [|k t IH]; intros H; simpl; [reflexivity|]. rewrite (H k) by (left; reflexivity).
  rewrite IH; [reflexivity|]. intros k' Hk. apply H. right. exact Hk.
Qed.
Lemma passes_spec pd unc n cond todo c r : passes pd unc n cond todo = (c, r) ->
  exists new, c = cond ++ new /\ Permutation todo (new ++ r) /\ ordered pd (unc ++ cond) new.
Proof.
  revert cond todo. induction n as [|n IH]; intros cond todo; simpl.
  - intros H. injection H as <- <-. exists []. rewrite app_nil_r. repeat split; auto. constructor.
  - destruct (pass pd unc cond todo) as [c1 r1] eqn:E. intros H. destruct (pass_spec _ _ _ _ _ _ E) as (n1 & -> & P1 & O1 & _).
    destruct (IH _ _ H) as (n2 & -> & P2 & O2). exists (n1 ++ n2). repeat split.
    + rewrite app_assoc. reflexivity.
    + rewrite P1, P2, app_assoc. reflexivity.
    + apply ordered_app; [exact O1|]. rewrite <- app_assoc. exact O2.
Qed.
Lemma passes_fix pd unc n cond todo c r : length todo <= n -> passes pd unc n cond todo = (c, r) ->
  forall k, In k r -> check_conditions_resolved pd k (unc ++ c) = false.
Proof.
  revert cond todo. induction n as [|n IH]; intros cond todo L; simpl.
  - intros H. injection H as <- <-. destruct todo; [intros k []|simpl in L; lia].
  - destruct (pass pd unc cond todo) as [c1 r1] eqn:E. intros H. destruct (pass_spec _ _ _ _ _ _ E) as (n1 & -> & P1 & O1 & N1).
    destruct n1 as [|x n1].
    + destruct (N1 eq_refl) as [-> F]. rewrite app_nil_r in *.
      assert (S : forall m, passes pd unc m cond todo = (cond, todo)).
      { induction m as [|m IHm]; simpl; [reflexivity|]. rewrite (pass_stuck _ _ _ _ F). exact IHm. }
      rewrite S in H. injection H as <- <-. exact F.
    + apply (IH (cond ++ x :: n1) r1); [|exact H]. apply Permutation_length in P1. rewrite app_length in P1. simpl in P1. lia.
Qed.

Lemma keys_partition pd k : In k (dkeys pd) <-> In k (unconditional pd) \/ In k (conditional pd).
Proof.
  unfold dkeys, unconditional, conditional. rewrite !in_map_iff. split.
  - intros ((k' & p) & <- & H). destruct (is_cond p) eqn:E; [right|left]; exists (k', p); (split; [reflexivity|]);
      apply filter_In; split; auto; simpl; rewrite E; reflexivity.
  - intros [((k' & p) & <- & H)|((k' & p) & <- & H)]; apply filter_In in H as [H _]; exists (k', p); auto.
Qed.
Lemma unconditional_reqs pd k p : wf pd -> In k (unconditional pd) -> dget pd k = Some p -> reqs p = [].
Proof.
  intros W H E. unfold unconditional in H. apply in_map_iff in H as ((k' & p') & <- & H). apply filter_In in H as [H N].
  apply (dget_in _ _ _ W) in H. simpl in *. rewrite E in H. injection H as <-. unfold is_cond in N. unfold reqs. destruct (c_req p); [discriminate|reflexivity].
Qed.
Lemma filter_length_le {A} (f : A -> bool) l : length (filter f l) <= length l.
Proof. induction l as [|x l IH]; simpl; [lia|]. destruct (f x); simpl; lia. Qed.
Lemma NoDup_map_filter {A B} (g : A -> B) (f : A -> bool) l : NoDup (map g l) -> NoDup (map g (filter f l)).
Proof.
  induction l as [|x l IH]; simpl; intros H; [constructor|]. inversion H as [|? ? N H']; subst. destruct (f x); simpl; [|auto].
  constructor; auto. intros C. apply N. apply in_map_iff in C as (y & E & C). apply filter_In in C as [C _]. apply in_map_iff. eauto.
Qed.

(** everything one needs to know about the outcome of the resolution *)
Record resolution pd (unc cond rest : list string) (ok : bool) : Prop := {
  res_unc : unc = unconditional pd;
  res_perm : Permutation (conditional pd) (cond ++ rest);
  res_ord : ordered pd unc cond;
  res_stuck : forall k, In k rest -> check_conditions_resolved pd k (unc ++ cond) = false;
  res_ok : ok = true <-> rest = [] }.
Lemma resolve_spec pd unc cond ok : resolve_conditions pd = (unc, cond, ok) -> exists rest, resolution pd unc cond rest ok.
Proof.
  unfold resolve_conditions. destruct (passes pd (unconditional pd) (List.length pd) [] (conditional pd)) as [c r] eqn:E.
  intros H. injection H as <- <- <-. exists r. destruct (passes_spec _ _ _ _ _ _ _ E) as (new & -> & P & O). constructor; auto.
  - rewrite app_nil_r in O. exact O.
  - apply (passes_fix _ _ _ _ _ _ _ ltac:(unfold conditional; rewrite map_length; apply filter_length_le) E).
  - destruct r; split; intros; try discriminate; reflexivity.
Qed.
Lemma ordered_resolvable pd base l : (forall k, In k base -> Resolvable pd k) -> ordered pd base l -> forall k, In k l -> Resolvable pd k.
Proof.
  intros HB H. induction H as [base|base k t p E I H IH]; [intros k []|].
  assert (Rk : Resolvable pd k) by (econstructor; [exact E|]; intros r Hr; apply HB, I, Hr).
  intros k' [<-|Hk]; [exact Rk|]. apply IH; [|exact Hk]. intros k'' H''. apply in_app_or in H'' as [H''|[<-|[]]]; auto.
Qed.
Lemma resolution_complete pd unc cond rest ok : wf pd -> resolution pd unc cond rest ok ->
  forall k, Resolvable pd k -> In k (unc ++ cond).
Proof.
  intros W [EU P O S K] k H. induction H as [k p E HR IH].
  assert (HK : In k (dkeys pd)) by (apply (dget_in _ _ _ W) in E; change k with (fst (k, p)); apply in_map, E).
  apply keys_partition in HK as [HK|HK]; [apply in_or_app; left; rewrite EU; exact HK|].
  apply (Permutation_in _ P) in HK. apply in_app_or in HK as [HK|HK]; [apply in_or_app; auto|].
  exfalso. assert (C : check_conditions_resolved pd k (unc ++ cond) = true) by (apply check_spec; exists p; split; [exact E|]; exact IH).
  rewrite (S k HK) in C. discriminate.
Qed.
Lemma unconditional_resolvable pd k : wf pd -> In k (unconditional pd) -> Resolvable pd k.
Proof.
  intros W H. assert (HK : In k (dkeys pd)) by (apply keys_partition; auto).
  destruct (dget pd k) as [p|] eqn:E; [|apply dget_none in E; contradiction].
  econstructor; [exact E|]. rewrite (unconditional_reqs pd k p W H E). intros r [].
Qed.
Lemma resolution_nodup pd unc cond rest ok : wf pd -> resolution pd unc cond rest ok -> NoDup (unc ++ cond).
Proof.
  intros W [EU P O S K].
  assert (N1 : NoDup (unconditional pd)) by (apply NoDup_map_filter, W).
  assert (N2 : NoDup (cond ++ rest)) by (apply (Permutation_NoDup P), NoDup_map_filter, W).
  assert (D : forall k, In k (unconditional pd) -> ~ In k (conditional pd)).
  { intros k H1 H2. unfold unconditional, conditional in *. apply in_map_iff in H1 as ((k1 & p1) & <- & H1). apply in_map_iff in H2 as ((k2 & p2) & E & H2).
    simpl in E. subst k2. apply filter_In in H1 as [H1 F1]. apply filter_In in H2 as [H2 F2]. simpl in *.
    apply (dget_in _ _ _ W) in H1. apply (dget_in _ _ _ W) in H2. rewrite H1 in H2. injection H2 as <-. rewrite F2 in F1. discriminate. }
  rewrite EU. clear EU O S K. induction (unconditional pd) as [|k t IH]; simpl.
  - clear - N2. induction cond as [|x l IH]; simpl in *; [constructor|]. inversion N2; subst. constructor; auto. intros H; apply H1, in_or_app; auto.
  - inversion N1 as [|? ? A B]; subst. constructor; [|apply IH; auto; intros k' H'; apply D; right; exact H'].
    intros H. apply in_app_or in H as [H|H]; [contradiction|]. apply (D k); [left; reflexivity|].
    apply (Permutation_in _ (Permutation_sym P)), in_or_app. auto.
Qed.
(** resolved <-> every key is resolvable *)
Lemma resolved_iff pd unc cond ok : wf pd -> resolve_conditions pd = (unc, cond, ok) ->
  (ok = true <-> forall k, In k (dkeys pd) -> Resolvable pd k).
Proof.
  intros W H. destruct (resolve_spec _ _ _ _ H) as [rest R]. pose proof R as [EU P O S K]. rewrite K. split.
  - intros -> k HK. rewrite app_nil_r in P. apply keys_partition in HK as [HK|HK]; [apply unconditional_resolvable; assumption|].
    apply (Permutation_in _ P) in HK. apply (ordered_resolvable pd unc cond); auto.
    intros k' Hk. rewrite EU in Hk. apply unconditional_resolvable; assumption.
  - intros HR. destruct rest as [|k t]; [reflexivity|]. exfalso.
    assert (HK : In k (dkeys pd)).
    { apply keys_partition. right. apply (Permutation_in _ (Permutation_sym P)), in_or_app. right. left. reflexivity. }
    pose proof (resolution_complete _ _ _ _ _ W R k (HR k HK)) as HC.
    assert (N2 : NoDup (cond ++ k :: t)) by (apply (Permutation_NoDup P), NoDup_map_filter, W).
    apply in_app_or in HC as [HC|HC].
    + assert (HC' : In k (conditional pd)) by (apply (Permutation_in _ (Permutation_sym P)), in_or_app; right; left; reflexivity).
      rewrite EU in HC. unfold unconditional, conditional in *. apply in_map_iff in HC as ((k1 & p1) & E1 & H1). apply in_map_iff in HC' as ((k2 & p2) & E2 & H2).
      simpl in *. subst k1 k2. apply filter_In in H1 as [H1 F1]. apply filter_In in H2 as [H2 F2]. simpl in *.
      apply (dget_in _ _ _ W) in H1. apply (dget_in _ _ _ W) in H2. rewrite H1 in H2. injection H2 as <-. rewrite F2 in F1. discriminate.
    + apply NoDup_remove_2 in N2. apply N2, in_or_app. left. exact HC.
Qed.

(** cycles and missing variables *)
Definition missing pd : Prop := exists k r, dep pd k r /\ ~ In r (dkeys pd).
Definition cyclic pd : Prop := exists k, clos_trans string (dep pd) k k.
Lemma resolvable_acc pd k : Resolvable pd k -> Acc (fun r k => dep pd k r) k.
Proof. intros H. induction H as [k p E HR IH]. constructor. intros r (p' & E' & Hr). rewrite E in E'. injection E' as <-. auto. Qed.
Lemma acc_irrefl {A} (R : A -> A -> Prop) x : Acc R x -> ~ R x x.
Proof. intros H. induction H as [x H IH]. intros C. exact (IH x C C). Qed.
Lemma clos_trans_flip {A} (R : A -> A -> Prop) x y : clos_trans A R x y -> clos_trans A (fun a b => R b a) y x.
Proof. intros H. induction H; [apply t_step; assumption|eapply t_trans; eassumption]. Qed.
Lemma resolvable_no_cycle pd k : Resolvable pd k -> ~ clos_trans string (dep pd) k k.
Proof.
  intros H C. apply resolvable_acc, Acc_clos_trans in H. apply (acc_irrefl _ _ H).
  apply clos_trans_flip in C. exact C.
Qed.
(** pigeonhole: a finite set where everybody has a successor contains a cycle *)
Inductive path {A} (R : A -> A -> Prop) : list A -> Prop :=
| path_one x : path R [x]
| path_cons x y l : R x y -> path R (y :: l) -> path R (x :: y :: l).
Lemma path_clos {A} (R : A -> A -> Prop) x l y : path R (x :: l) -> In y l -> clos_trans A R x y.
Proof.
  revert x. induction l as [|z l IH]; intros x H I; [destruct I|]. inversion H; subst. destruct I as [<-|I]; [apply t_step; assumption|].
  eapply t_trans; [apply t_step; eassumption|]. apply IH; assumption.
Qed.
Lemma path_tail {A} (R : A -> A -> Prop) x l : path R (x :: l) -> l <> [] -> path R l.
Proof. intros H N. inversion H; subst; [contradiction|assumption]. Qed.
Lemma dup_cycle (R : string -> string -> Prop) l : path R l -> ~ NoDup l -> exists x, clos_trans string R x x.
Proof.
  induction l as [|x l IH]; intros H N; [exfalso; apply N; constructor|].
  destruct (in_dec string_dec x l) as [I|I]; [exists x; apply (path_clos R x l x H I)|].
  destruct l as [|y l]; [exfalso; apply N; repeat constructor; simpl; tauto|].
  apply IH; [apply (path_tail R x); [exact H|discriminate]|]. intros D. apply N. constructor; assumption.
Qed.
Lemma long_path (R : string -> string -> Prop) S : (forall x, In x S -> exists y, In y S /\ R x y) ->
  forall n x, In x S -> exists l, path R (x :: l) /\ length l = n /\ incl (x :: l) S.
Proof.
  intros HS n. induction n as [|n IH]; intros x Hx.
  - exists []. repeat split; [constructor|]. intros z [<-|[]]; exact Hx.
  - destruct (HS x Hx) as (y & Hy & Rxy). destruct (IH y Hy) as (l & P & L & I). exists (y :: l). repeat split.
    + constructor; assumption.
    + simpl. congruence.
    + intros z [<-|Hz]; [exact Hx|apply I, Hz].
Qed.
Lemma pigeon_cycle (R : string -> string -> Prop) S x : In x S -> (forall x, In x S -> exists y, In y S /\ R x y) -> exists z, clos_trans string R z z.
Proof.
  intros Hx HS. destruct (long_path R S HS (length S) x Hx) as (l & P & L & I). apply (dup_cycle R (x :: l) P).
  intros N. pose proof (NoDup_incl_length N I) as H. simpl in H. lia.
Qed.
Lemma resolvable_in pd k : wf pd -> Resolvable pd k -> In k (dkeys pd).
Proof. intros W H. inversion H; subst. apply (dget_in _ _ _ W) in H0. change k with (fst (k, p)). apply in_map, H0. Qed.
Lemma unresolved_iff pd unc cond ok : wf pd -> resolve_conditions pd = (unc, cond, ok) ->
  (ok = false <-> missing pd \/ cyclic pd).
Proof.
  intros W H. pose proof (resolved_iff _ _ _ _ W H) as RI. split.
  - intros ->. destruct (resolve_spec _ _ _ _ H) as [rest R]. pose proof R as [EU P O S K].
    destruct rest as [|k0 t]; [destruct K as [_ K]; specialize (K eq_refl); discriminate|]. set (rest := k0 :: t) in *.
    assert (X : forall k, In k rest -> exists r, dep pd k r /\ ~ In r (unc ++ cond)).
    { intros k Hk. pose proof (S k Hk) as C.
      assert (HK : In k (dkeys pd)) by (apply keys_partition; right; apply (Permutation_in _ (Permutation_sym P)), in_or_app; auto).
      destruct (dget pd k) as [p|] eqn:E; [|apply dget_none in E; contradiction].
      unfold check_conditions_resolved in C. rewrite E in C.
      assert (Y : exists r, In r (reqs p) /\ mem r (unc ++ cond) = false).
      { clear - C. induction (reqs p) as [|r l IH]; simpl in C; [discriminate|]. apply andb_false_iff in C as [C|C].
        - exists r. split; [left; reflexivity|exact C].
        - destruct (IH C) as (r' & I & M). exists r'. split; [right; exact I|exact M]. }
      destruct Y as (r & I & M). exists r. split; [exists p; auto|]. intros C'. apply mem_in in C'. congruence. }
    destruct (existsb (fun k => match dget pd k with Some p => existsb (fun r => negb (mem r (dkeys pd))) (reqs p) | None => false end) rest) eqn:EX.
    + left. apply existsb_exists in EX as (k & Hk & EX). destruct (dget pd k) as [p|] eqn:E; [|discriminate].
      apply existsb_exists in EX as (r & Hr & M). exists k, r. split; [exists p; auto|]. intros C. apply mem_in in C. rewrite C in M. discriminate.
    + right. apply (pigeon_cycle (dep pd) rest k0); [left; reflexivity|]. intros k Hk. destruct (X k Hk) as (r & (p & E & Hr) & N).
      exists r. split; [|exists p; auto].
      assert (Mr : mem r (dkeys pd) = true).
      { destruct (mem r (dkeys pd)) eqn:M; [reflexivity|]. exfalso.
        assert (Y : existsb (fun k => match dget pd k with Some p => existsb (fun r => negb (mem r (dkeys pd))) (reqs p) | None => false end) rest = true).
        { apply existsb_exists. exists k. split; [exact Hk|]. rewrite E. apply existsb_exists. exists r. rewrite M. auto. }
        congruence. }
      apply mem_in, keys_partition in Mr as [Mr|Mr]; [exfalso; apply N, in_or_app; left; rewrite EU; exact Mr|].
      apply (Permutation_in _ P), in_app_or in Mr as [Mr|Mr]; [exfalso; apply N, in_or_app; auto|exact Mr].
  - intros HMC. destruct ok; [|reflexivity]. exfalso. destruct RI as [RI _]. specialize (RI eq_refl).
    destruct HMC as [(k & r & (p & E & Hr) & N)|(k & C)].
    + assert (HK : In k (dkeys pd)) by (apply (dget_in _ _ _ W) in E; change k with (fst (k, p)); apply in_map, E).
      specialize (RI k HK). inversion RI; subst. rewrite E in H0. injection H0 as <-. apply N, resolvable_in; auto.
    + assert (HK : In k (dkeys pd)).
      { apply clos_trans_t1n in C. assert (D : exists y, dep pd k y) by (inversion C; subst; eauto). destruct D as (y & p & E & _).
        apply (dget_in _ _ _ W) in E. change k with (fst (k, p)). apply in_map, E. }
      exact (resolvable_no_cycle pd k (RI k HK) C).
Qed.
End P.
