(** Marginalisation and evaluation on the grid. *)
From Coq Require Import Reals String List Bool Arith Lia Lra Permutation.
From Verif Require Import PyReal PyDict Grid_Model Grid_Proofs.
Import ListNotations.
Open Scope R_scope.
Open Scope list_scope.

Lemma mem_in k l : mem k l = true <-> In k l.
Proof.
  unfold mem. rewrite existsb_exists. split.
  - intros (x & Hx & E). apply String.eqb_eq in E. now subst.
  - intros H. exists k. split; auto. apply String.eqb_refl.
Qed.
Lemma index_of_in l k : In k l -> exists i, index_of l k = Some i.
Proof.
  induction l as [|x t IH]; simpl; [tauto|]. destruct (String.eqb_spec k x) as [E|E]; [eauto|].
  intros [H|H]; [congruence|]. destruct (IH H) as (i & ->). simpl. eauto.
Qed.
Lemma index_of_none l k : ~ In k l -> index_of l k = None.
Proof.
  induction l as [|x t IH]; simpl; auto. intros H. destruct (String.eqb_spec k x) as [->|E]; [exfalso; auto|].
  rewrite IH; auto.
Qed.
Lemma index_of_lt l k i : index_of l k = Some i -> (i < List.length l)%nat.
Proof.
  revert i. induction l as [|x t IH]; simpl; [discriminate|]. intros i. destruct (String.eqb_spec k x).
  - intros H; injection H as <-. lia.
  - destruct (index_of t k) as [j|]; simpl; [|discriminate]. intros H; injection H as <-. specialize (IH j eq_refl). lia.
Qed.
Lemma index_of_nth l k i : index_of l k = Some i -> nth_error l i = Some k.
Proof.
  revert i. induction l as [|x t IH]; simpl; [discriminate|]. intros i. destruct (String.eqb_spec k x) as [->|].
  - intros H; injection H as <-. reflexivity.
  - destruct (index_of t k) as [j|]; simpl; [|discriminate]. intros H; injection H as <-. simpl. auto.
Qed.
Definition without (p : string) (l : list string) : list string := filter (fun n => negb (String.eqb n p)) l.
Lemma without_notin p l : ~ In p l -> without p l = l.
Proof.
  unfold without. induction l as [|x t IH]; simpl; auto. intros H. destruct (String.eqb_spec x p) as [->|E]; [exfalso; auto|].
  simpl. rewrite IH; auto.
Qed.
Lemma remove_at_without l k i : NoDup l -> index_of l k = Some i -> remove_at i l = without k l.
Proof.
  revert i. induction l as [|x t IH]; simpl; [discriminate|]. intros i ND. inversion ND as [|? ? N ND']; subst.
  destruct (String.eqb_spec k x) as [->|E].
  - intros H; injection H as <-. unfold without, remove_at. simpl. rewrite String.eqb_refl. simpl. symmetry. now apply without_notin.
  - destruct (index_of t k) as [j|]; simpl; [|discriminate]. intros H; injection H as <-.
    unfold without. simpl. destruct (String.eqb_spec x k); [congruence|]. simpl. unfold remove_at. simpl.
    f_equal. apply (IH j); auto.
Qed.
Lemma map_upd_notin e p j l : ~ In p l -> map (upd e p j) l = map e l.
Proof. intros H. apply map_ext_in. intros n Hn. unfold upd. destruct (String.eqb_spec n p) as [->|]; [contradiction|reflexivity]. Qed.
Lemma insert_map l k i e j : NoDup l -> index_of l k = Some i ->
  insert_at i j (map e (without k l)) = map (upd e k j) l.
Proof.
  revert i. induction l as [|x t IH]; simpl; [discriminate|]. intros i ND. inversion ND as [|? ? N ND']; subst.
  destruct (String.eqb_spec k x) as [->|E].
  - intros H; injection H as <-. unfold without, insert_at. simpl. rewrite String.eqb_refl. simpl.
    change (filter (fun n => negb (String.eqb n x)) t) with (without x t).
    rewrite without_notin, map_upd_notin by auto. unfold upd. rewrite String.eqb_refl. reflexivity.
  - destruct (index_of t k) as [i'|]; simpl; [|discriminate]. intros H; injection H as <-.
    destruct (String.eqb_spec x k); [congruence|]. simpl. unfold insert_at. simpl.
    f_equal; [unfold upd; destruct (String.eqb_spec x k); congruence|]. apply (IH i'); auto.
Qed.
Lemma without_in p l n : In n (without p l) <-> In n l /\ n <> p.
Proof. unfold without. rewrite filter_In, negb_true_iff, String.eqb_neq. tauto. Qed.
Lemma without_nodup p l : NoDup l -> NoDup (without p l).
Proof. apply NoDup_filter. Qed.

Section G.
Variable names : list string.
Variable pts : string -> list R.
Definition valid (e : string -> nat) : Prop := forall n, In n names -> (e n < List.length (pts n))%nat.
(** an array over the parameters [rem]: right shape, no nan *)
Definition good (rem : list string) (a : arr) : Prop :=
  shape a = map (fun n => List.length (pts n)) rem /\ forall e, valid e -> is_nan (val a (map e rem)) = false.
Definition mass (rem : list string) (a : arr) (e : string -> nat) : R := lexp (val a (map e rem)).
Lemma mass_envext rem a : envext (mass rem a).
Proof. intros e e' H. unfold mass. do 2 f_equal. apply map_ext. exact H. Qed.
Lemma valid_upd e p j : valid e -> (j < List.length (pts p))%nat -> valid (upd e p j).
Proof. intros V J n Hn. unfold upd. destruct (String.eqb_spec n p) as [->|]; auto. Qed.
Lemma integral_ext_valid ps F G : (forall e, valid e -> F e = G e) ->
  forall e, valid e -> integral pts ps F e = integral pts ps G e.
Proof.
  intros H. induction ps as [|p t IH]; intros e V; simpl; auto. apply trap_ext. intros j J. apply IH. now apply valid_upd.
Qed.
Hypothesis Hinc : forall n, In n names -> pts n <> [] /\ increasing (pts n).

Lemma nth_remove_map (f : string -> nat) rem i k : index_of rem k = Some i -> nth i (map f rem) 0%nat = f k.
Proof.
  intros H. apply index_of_nth in H. rewrite (nth_error_nth (map f rem) i (x := f k)); auto.
  rewrite nth_error_map, H. reflexivity.
Qed.
Lemma remove_at_map (f : string -> nat) rem i : remove_at i (map f rem) = map f (remove_at i rem).
Proof. unfold remove_at. now rewrite firstn_map, skipn_map, map_app. Qed.
Lemma single_val a p rem : NoDup rem -> incl rem names -> In p rem -> good rem a ->
  exists out, marginalize_single names pts a p rem = Some (out, without p rem) /\ good (without p rem) out /\
    forall e, valid e -> mass (without p rem) out e = trap (pts p) (fun j => mass rem a (upd e p j)).
Proof.
  intros ND I Hp (Sh & Nn).
  unfold marginalize_single. rewrite (proj2 (mem_in p names) (I _ Hp)).
  destruct (index_of_in rem p Hp) as (i & Ei). rewrite Ei. cbn [bindo].
  replace (Nat.ltb i (List.length (shape a))) with true
    by (symmetry; apply Nat.ltb_lt; rewrite Sh, map_length; eapply index_of_lt; eauto).
  cbv zeta. rewrite Sh, (nth_remove_map _ _ _ _ Ei), remove_at_map, (remove_at_without _ _ _ ND Ei).
  destruct (Hinc p (I _ Hp)) as (Ne & Inc).
  assert (En : forall e, entries a i (map e (without p rem)) = map (fun j => val a (map (upd e p j) rem)) (seq 0 (List.length (pts p)))).
  { intros e. unfold entries. rewrite Sh, (nth_remove_map _ _ _ _ Ei). apply map_ext. intros j. f_equal. now apply insert_map. }
  destruct (Nat.ltb_spec 1 (List.length (pts p))) as [Lt|Ge].
  - match goal with |- context [forallb ?f ?l] => replace (forallb f l) with true end.
    2:{ symmetry. apply forallb_forall. intros idx _. unfold entries. rewrite Sh, (nth_remove_map _ _ _ _ Ei).
        destruct (logtrapzexp_defined (map (fun j => val a (insert_at i j idx)) (seq 0 (List.length (pts p)))) (diff (pts p))) as (v & ->); auto.
        - intros X. apply (f_equal (@List.length R)) in X. rewrite diff_length in X. simpl in X. lia.
        - rewrite map_length, seq_length, diff_length. lia. }
    eexists. split; [reflexivity|].
    assert (V : forall e, valid e -> exists v, logtrapzexp (entries a i (map e (without p rem))) (diff (pts p)) = Some v /\
      is_nan v = false /\ lexp v = trap (pts p) (fun j => mass rem a (upd e p j))).
    { intros e Ve. rewrite En.
      apply (logtrapzexp_val (pts p) (fun j => val a (map (upd e p j) rem))); auto.
      intros j J. apply Nn. now apply valid_upd. }
    split; [split; [reflexivity|]|]; intros e Ve; destruct (V e Ve) as (v & E & N & X).
    + cbn [val]. rewrite E. exact N.
    + unfold mass at 1. cbn [val]. rewrite E. exact X.
  - assert (L1 : List.length (pts p) = 1%nat) by (destruct (pts p); [congruence|simpl in *; lia]).
    rewrite L1. cbn [Nat.eqb]. eexists. split; [reflexivity|].
    assert (Iu : forall e, insert_at i 0%nat (map e (without p rem)) = map (upd e p 0%nat) rem) by (intros; now apply insert_map).
    split; [split; [reflexivity|]|]; intros e Ve.
    + cbn [val]. rewrite Iu. apply Nn. apply valid_upd; auto. lia.
    + unfold mass at 1. cbn [val]. rewrite Iu. destruct (pts p) as [|x [|y t]]; simpl in L1; try lia. reflexivity.
Qed.
Definition remaining (ps rem : list string) : list string := filter (fun n => negb (mem n ps)) rem.
Lemma remaining_cons p t rem : remaining t (without p rem) = remaining (p :: t) rem.
Proof.
  unfold remaining, without. induction rem as [|x r IH]; auto. simpl.
  destruct (String.eqb_spec x p) as [->|E]; simpl.
  - rewrite IH. reflexivity.
  - change (mem x t) with (existsb (String.eqb x) t). destruct (existsb (String.eqb x) t) eqn:Q; simpl; [exact IH|f_equal; exact IH].
Qed.
Lemma marg_loop_val params : forall a rem, NoDup rem -> incl rem names -> good rem a -> NoDup params -> incl params rem ->
  exists out, marg_loop names pts a rem params = Some out /\ good (remaining params rem) out /\
    forall e, valid e -> mass (remaining params rem) out e = integral pts (rev params) (mass rem a) e.
Proof.
  induction params as [|p t IH]; intros a rem ND I Gd NDp Ip.
  - exists a. assert (R0 : remaining [] rem = rem).
    { unfold remaining. clear. induction rem as [|x r IHr]; [reflexivity|]. cbn [filter]. change (mem x []) with false. cbn [negb]. f_equal. exact IHr. }
    rewrite R0. simpl. auto.
  - inversion NDp as [|? ? Np NDt]; subst.
    destruct (single_val a p rem ND I (Ip _ (or_introl eq_refl)) Gd) as (a1 & E1 & G1 & V1).
    destruct (IH a1 (without p rem)) as (out & E & Go & Vo); auto.
    + now apply without_nodup.
    + intros n Hn. apply without_in in Hn. apply I, Hn.
    + intros n Hn. apply without_in. split; [apply Ip; now right|]. intros ->. contradiction.
    + exists out. cbn [marg_loop]. rewrite E1. cbn [bindo fst snd]. rewrite <- remaining_cons. split; [exact E|]. split; [exact Go|].
      intros e Ve. rewrite Vo by exact Ve. cbn [rev]. rewrite integral_app.
      apply integral_ext_valid; auto.
Qed.
End G.
