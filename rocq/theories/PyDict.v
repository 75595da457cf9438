(** Python dictionaries with string keys, insertion ordered, as association
    lists without duplicate keys. *)
From Coq Require Import List String Bool Permutation Lia Arith.
Import ListNotations.
Open Scope string_scope.

Definition dict (V : Type) := list (string * V).
Section D.
Context {V : Type}.
Fixpoint dget (d : dict V) (k : string) : option V :=
  match d with [] => None | (k', v) :: t => if String.eqb k k' then Some v else dget t k end.
Definition dmem (d : dict V) (k : string) : bool := match dget d k with Some _ => true | None => false end.
(** [d[k] = v]: replace in place, or append at the end *)
Fixpoint dset (d : dict V) (k : string) (v : V) : dict V :=
  match d with
  | [] => [(k, v)]
  | (k', v') :: t => if String.eqb k k' then (k', v) :: t else (k', v') :: dset t k v
  end.
Fixpoint ddel (d : dict V) (k : string) : dict V :=
  match d with
  | [] => []
  | (k', v') :: t => if String.eqb k k' then t else (k', v') :: ddel t k
  end.
Definition dkeys (d : dict V) : list string := map fst d.
Definition dvals (d : dict V) : list V := map snd d.
Definition wf (d : dict V) : Prop := NoDup (dkeys d).

Lemma dget_in d k v : wf d -> (dget d k = Some v <-> In (k, v) d).
Proof.
  unfold wf. induction d as [|[k' v'] t IH]; simpl; intros W; [split; [discriminate|tauto]|].
  inversion W as [|? ? N W']; subst. destruct (String.eqb_spec k k') as [->|E].
  - split; [intros H; injection H as ->; left; reflexivity|]. intros [H|H]; [congruence|].
    exfalso. apply N. change k' with (fst (k', v)). apply in_map. exact H.
  - rewrite IH by exact W'. split; [auto|]. intros [H|H]; [congruence|exact H].
Qed.
Lemma dget_none d k : dget d k = None <-> ~ In k (dkeys d).
Proof.
  induction d as [|[k' v'] t IH]; simpl; [tauto|]. destruct (String.eqb_spec k k') as [->|E].
  - split; [discriminate|]. intros H; exfalso; apply H; auto.
  - rewrite IH. split; [intros H [H'|H']; [congruence|auto]|auto].
Qed.
Lemma dmem_in d k : dmem d k = true <-> In k (dkeys d).
Proof.
  unfold dmem. destruct (dget d k) eqn:E.
  - split; [|reflexivity]. intros _. destruct (in_dec string_dec k (dkeys d)); [assumption|].
    apply dget_none in n. congruence.
  - apply dget_none in E. split; [discriminate|tauto].
Qed.
Lemma dget_some_in d k v : dget d k = Some v -> In (k, v) d.
Proof.
  induction d as [|[k' v'] t IH]; simpl; [discriminate|]. destruct (String.eqb_spec k k') as [->|E].
  - intros H; injection H as ->; auto.
  - auto.
Qed.
Lemma dget_set_eq d k v : dget (dset d k v) k = Some v.
Proof.
  induction d as [|[k' v'] t IH]; simpl; [rewrite String.eqb_refl; reflexivity|].
  destruct (String.eqb_spec k k') as [->|E]; simpl.
  - rewrite String.eqb_refl. reflexivity.
  - destruct (String.eqb_spec k k'); [contradiction|exact IH].
Qed.
Lemma dget_set_ne d k k' v : k <> k' -> dget (dset d k' v) k = dget d k.
Proof.
  intros N. induction d as [|[a w] t IH]; simpl.
  - destruct (String.eqb_spec k k'); [contradiction|reflexivity].
  - destruct (String.eqb_spec k' a) as [->|E]; simpl.
    + destruct (String.eqb_spec k a); [contradiction|reflexivity].
    + destruct (String.eqb_spec k a); [reflexivity|exact IH].
Qed.
Lemma dkeys_set d k v : dkeys (dset d k v) = if dmem d k then dkeys d else (dkeys d ++ [k])%list.
Proof.
  induction d as [|[a w] t IH]; [reflexivity|]. unfold dmem in *; simpl.
  destruct (String.eqb_spec k a) as [->|E]; simpl; [reflexivity|].
  unfold dkeys in *. simpl. rewrite IH. destruct (dget t k); reflexivity.
Qed.
Lemma wf_set d k v : wf d -> wf (dset d k v).
Proof.
  intros W. unfold wf. rewrite dkeys_set. destruct (dmem d k) eqn:E; [exact W|].
  assert (N : ~ In k (dkeys d)). { rewrite <- dmem_in, E. discriminate. }
  apply Permutation_NoDup with (k :: dkeys d); [apply Permutation_cons_append|].
  constructor; assumption.
Qed.
Lemma dkeys_set_in d k v a : In a (dkeys (dset d k v)) <-> a = k \/ In a (dkeys d).
Proof.
  rewrite dkeys_set. destruct (dmem d k) eqn:E.
  - apply dmem_in in E. split; [auto|intros [->|H]; assumption].
  - rewrite in_app_iff. simpl. split; [intros [H|[H|[]]]; auto|intros [H|H]; auto].
Qed.
Lemma dget_del_ne d k k' : k <> k' -> dget (ddel d k') k = dget d k.
Proof.
  intros N. induction d as [|[a w] t IH]; simpl; [reflexivity|].
  destruct (String.eqb_spec k' a) as [->|E]; simpl.
  - destruct (String.eqb_spec k a); [contradiction|reflexivity].
  - destruct (String.eqb_spec k a); [reflexivity|exact IH].
Qed.
Lemma dkeys_del_in d k a : wf d -> (In a (dkeys (ddel d k)) <-> a <> k /\ In a (dkeys d)).
Proof.
  unfold wf. induction d as [|[b w] t IH]; simpl; intros W; [tauto|].
  inversion W as [|? ? N W']; subst. destruct (String.eqb_spec k b) as [->|E]; simpl.
  - split; [intros H; split; [intros ->; contradiction|auto]|]. intros [H [H'|H']]; [congruence|assumption].
  - rewrite IH by assumption. split.
    + intros [->|[H H']]; [split; auto|split; auto].
    + intros [H [->|H']]; auto.
Qed.
Lemma wf_del d k : wf d -> wf (ddel d k).
Proof.
  unfold wf. induction d as [|[b w] t IH]; simpl; intros W; [constructor|].
  inversion W as [|? ? N W']; subst. destruct (String.eqb_spec k b) as [->|E]; simpl; [assumption|].
  constructor; [|auto]. intros H. apply dkeys_del_in in H; [tauto|assumption].
Qed.
Lemma dget_del_eq d k : wf d -> dget (ddel d k) k = None.
Proof. intros W. apply dget_none. rewrite dkeys_del_in by exact W. tauto. Qed.
Lemma dget_perm d d' k : wf d -> Permutation d d' -> dget d k = dget d' k.
Proof.
  intros W P.
  assert (W' : wf d') by (unfold wf, dkeys in *; eapply Permutation_NoDup; [apply Permutation_map; exact P|exact W]).
  destruct (dget d k) eqn:E.
  - symmetry. apply dget_in; [exact W'|]. eapply Permutation_in; [exact P|]. apply dget_in; assumption.
  - symmetry. apply dget_none. apply dget_none in E. intros H. apply E.
    eapply Permutation_in; [apply Permutation_sym, Permutation_map, P|exact H].
Qed.
End D.
(** [{k: f v}] *)
Definition dmap {A B} (f : A -> B) (d : dict A) : dict B := map (fun kv => (fst kv, f (snd kv))) d.
Lemma dkeys_map {A B} (f : A -> B) d : dkeys (dmap f d) = dkeys d.
Proof. unfold dkeys, dmap. rewrite map_map. reflexivity. Qed.
Lemma dget_map {A B} (f : A -> B) d k : dget (dmap f d) k = option_map f (dget d k).
Proof.
  induction d as [|[a w] t IH]; simpl; [reflexivity|]. destruct (String.eqb k a); [reflexivity|exact IH].
Qed.
