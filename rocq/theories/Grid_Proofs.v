(** Lemmas on trapezoid sums, arrays and names for the grid. *)
From Coq Require Import Reals String List Bool Arith Lia Lra Permutation.
From Verif Require Import PyReal PyDict Grid_Model.
Import ListNotations.
Open Scope R_scope.
Open Scope list_scope.

(** ** The trapezoid rule, independent of the model *)
Fixpoint trap_from (xs : list R) (f : nat -> R) : R :=
  match xs with
  | x :: ((y :: _) as t) => (y - x) * (f 0%nat + f 1%nat) / 2 + trap_from t (fun i => f (S i))
  | _ => 0
  end.
(** a single point is not integrated over *)
Definition trap (xs : list R) (f : nat -> R) : R := match xs with [_] => f 0%nat | _ => trap_from xs f end.
Definition upd (e : string -> nat) (p : string) (j : nat) : string -> nat := fun n => if String.eqb n p then j else e n.
Fixpoint integral (pts : string -> list R) (ps : list string) (F : (string -> nat) -> R) (e : string -> nat) : R :=
  match ps with [] => F e | p :: t => trap (pts p) (fun j => integral pts t F (upd e p j)) end.
Definition envext (F : (string -> nat) -> R) : Prop := forall e e', (forall n, e n = e' n) -> F e = F e'.

Lemma trap_from_cons x y t f : trap_from (x :: y :: t) f = (y - x) * (f 0%nat + f 1%nat) / 2 + trap_from (y :: t) (fun i => f (S i)).
Proof. reflexivity. Qed.
Lemma trap_from_ext xs f g : (forall i, (i < List.length xs)%nat -> f i = g i) -> trap_from xs f = trap_from xs g.
Proof.
  revert f g. induction xs as [|x [|y t] IH]; intros f g H; auto. rewrite !trap_from_cons.
  rewrite (H 0%nat), (H 1%nat) by (simpl; lia). f_equal. apply IH. intros i Hi. apply H. simpl in *. lia.
Qed.
Lemma trap_ext xs f g : (forall i, (i < List.length xs)%nat -> f i = g i) -> trap xs f = trap xs g.
Proof.
  intros H. destruct xs as [|x [|y t]]; [reflexivity|apply H; simpl; lia|].
  change (trap_from (x :: y :: t) f = trap_from (x :: y :: t) g). now apply trap_from_ext.
Qed.
Lemma trap_from_plus xs f g : trap_from xs (fun i => f i + g i) = trap_from xs f + trap_from xs g.
Proof.
  revert f g. induction xs as [|x [|y t] IH]; intros f g; [simpl; lra|simpl; lra|]. rewrite !trap_from_cons.
  rewrite (IH (fun i => f (S i)) (fun i => g (S i))). field.
Qed.
Lemma trap_from_scal xs c f : trap_from xs (fun i => c * f i) = c * trap_from xs f.
Proof.
  revert f. induction xs as [|x [|y t] IH]; intros f; [simpl; lra|simpl; lra|]. rewrite !trap_from_cons.
  rewrite (IH (fun i => f (S i))). field.
Qed.
Lemma trap_plus xs f g : trap xs (fun i => f i + g i) = trap xs f + trap xs g.
Proof. destruct xs as [|x [|y t]]; [simpl; lra|simpl; lra|]. apply (trap_from_plus (x :: y :: t)). Qed.
Lemma trap_scal xs c f : trap xs (fun i => c * f i) = c * trap xs f.
Proof. destruct xs as [|x [|y t]]; [simpl; lra|simpl; lra|]. apply (trap_from_scal (x :: y :: t)). Qed.
Lemma trap_zero xs : trap xs (fun _ => 0) = 0.
Proof. rewrite (trap_ext xs _ (fun _ => 0 * 0)) by (intros; lra). rewrite (trap_scal xs 0). lra. Qed.
Lemma trap_from_swap xs ys (F : nat -> nat -> R) :
  trap_from xs (fun i => trap ys (fun j => F i j)) = trap ys (fun j => trap_from xs (fun i => F i j)).
Proof.
  revert F. induction xs as [|x [|y t] IH]; intros F; try (symmetry; apply trap_zero). rewrite trap_from_cons.
  rewrite (IH (fun i => F (S i))).
  rewrite (trap_ext ys (fun j => trap_from (x :: y :: t) (fun i => F i j))
     (fun j => ((y - x) / 2) * F 0%nat j + ((y - x) / 2 * F 1%nat j + (fun j => trap_from (y :: t) (fun i => F (S i) j)) j)))
    by (intros; rewrite trap_from_cons; field).
  rewrite (trap_plus ys (fun j => _ * _) (fun j => _ + _)), (trap_plus ys (fun j => _ * _) (fun j => trap_from _ _)).
  rewrite !(trap_scal ys ((y - x) / 2)). cbv beta. change (fun j => F 0%nat j) with (F 0%nat). change (fun j => F 1%nat j) with (F 1%nat). field.
Qed.
Lemma trap_swap xs ys (F : nat -> nat -> R) :
  trap xs (fun i => trap ys (fun j => F i j)) = trap ys (fun j => trap xs (fun i => F i j)).
Proof. destruct xs as [|x [|y t]]; [symmetry; apply trap_zero|reflexivity|]. apply (trap_from_swap (x :: y :: t)). Qed.
Definition increasing (xs : list R) : Prop := forall i, (S i < List.length xs)%nat -> nth i xs 0 < nth (S i) xs 0.
Lemma increasing_tl x xs : increasing (x :: xs) -> increasing xs.
Proof. intros H i Hi. apply (H (S i)). simpl. lia. Qed.
Lemma trap_from_le xs f g : increasing xs -> (forall i, (i < List.length xs)%nat -> f i <= g i) -> trap_from xs f <= trap_from xs g.
Proof.
  revert f g. induction xs as [|x [|y t] IH]; intros f g I H; try (simpl; lra).
  assert (D : x < y) by (apply (I 0%nat); simpl; lia).
  pose proof (H 0%nat ltac:(simpl; lia)) as H0. pose proof (H 1%nat ltac:(simpl; lia)) as H1.
  pose proof (IH (fun i => f (S i)) (fun i => g (S i)) (increasing_tl _ _ I) (fun i Hi => H (S i) ltac:(simpl in *; lia))).
  rewrite !trap_from_cons. assert ((y - x) * (f 0%nat + f 1%nat) <= (y - x) * (g 0%nat + g 1%nat)) by (apply Rmult_le_compat_l; lra). lra.
Qed.
Lemma trap_le xs f g : increasing xs -> (forall i, (i < List.length xs)%nat -> f i <= g i) -> trap xs f <= trap xs g.
Proof.
  intros I H. destruct xs as [|x [|y t]]; [simpl; lra|simpl; apply H; simpl; lia|].
  apply (trap_from_le (x :: y :: t)); auto.
Qed.
Lemma trap_const xs c : trap_from xs (fun _ => c) = c * (last xs 0 - hd 0 xs).
Proof.
  induction xs as [|x [|y t] IH]; [simpl; lra|simpl; lra|].
  rewrite trap_from_cons. cbv beta.
  rewrite IH. change (last (x :: y :: t) 0) with (last (y :: t) 0). simpl hd. field.
Qed.

(** ** Integrals over several parameters *)
Lemma integral_ext pts ps F G e : (forall e, F e = G e) -> integral pts ps F e = integral pts ps G e.
Proof. intros H. revert e. induction ps as [|p t IH]; intros e; simpl; auto. apply trap_ext. auto. Qed.
Lemma integral_envext pts ps F : envext F -> envext (integral pts ps F).
Proof.
  intros X. induction ps as [|p t IH]; simpl; auto. intros e e' E. apply trap_ext. intros j _. apply IH.
  intros n. unfold upd. destruct (String.eqb n p); auto.
Qed.
Lemma integral_swap pts p q ps F e : envext F -> p <> q -> integral pts (p :: q :: ps) F e = integral pts (q :: p :: ps) F e.
Proof.
  intros X N. simpl. rewrite trap_swap. apply trap_ext. intros j _. apply trap_ext. intros i _.
  apply integral_envext; auto. intros n. unfold upd.
  destruct (String.eqb_spec n p) as [E1|E1], (String.eqb_spec n q) as [E2|E2]; try reflexivity. congruence.
Qed.
Lemma integral_perm pts ps qs F : envext F -> NoDup ps -> Permutation ps qs -> forall e, integral pts ps F e = integral pts qs F e.
Proof.
  intros X ND P. induction P; intros e; auto.
  - simpl. apply trap_ext. intros j _. apply IHP. now inversion ND.
  - apply integral_swap; auto. inversion ND as [|? ? N _]; subst. intros ->. apply N. now left.
  - rewrite IHP1 by auto. apply IHP2. now apply Permutation_NoDup with l.
Qed.
Lemma integral_app pts ps qs F e : integral pts (ps ++ qs) F e = integral pts ps (integral pts qs F) e.
Proof. revert e. induction ps as [|p t IH]; intros e; simpl; auto. apply trap_ext. auto. Qed.
Lemma upd_valid (pts : string -> list R) e p j :
  (forall n, (e n < List.length (pts n))%nat) -> (j < List.length (pts p))%nat -> forall n, (upd e p j n < List.length (pts n))%nat.
Proof. intros H J n. unfold upd. destruct (String.eqb_spec n p) as [->|]; auto. Qed.

(** ** Logarithms *)
Lemma lexp_np_log x : 0 <= x -> lexp (np_log x) = x.
Proof.
  intros H. unfold np_log. destruct (Rlt_dec x 0); [lra|]. destruct (Req_EM_T x 0); simpl; [lra|]. apply exp_ln. lra.
Qed.
Lemma np_log_nan x : 0 <= x -> is_nan (np_log x) = false.
Proof. intros H. unfold np_log. destruct (Rlt_dec x 0); [lra|]. destruct (Req_EM_T x 0); reflexivity. Qed.
Lemma lexp_ladd a b : lexp (ladd a b) = lexp a * lexp b.
Proof. destruct a, b; simpl; try lra. apply exp_plus. Qed.
Lemma ladd_nan a b : is_nan a = false -> is_nan b = false -> is_nan (ladd a b) = false.
Proof. destruct a, b; simpl; congruence. Qed.
Lemma lexp_pos a : 0 <= lexp a.
Proof. destruct a; simpl; try lra. left. apply exp_pos. Qed.
Lemma lexp_inj a b : is_nan a = false -> is_nan b = false -> lexp a = lexp b -> a = b.
Proof.
  destruct a as [x| |], b as [y| |]; simpl; intros; try congruence.
  - f_equal. now apply exp_inv.
  - pose proof (exp_pos x). lra.
  - pose proof (exp_pos y). lra.
Qed.
Definition rsum (l : list R) : R := fold_right Rplus 0 l.
Lemma rsum_pos l : (forall x, In x l -> 0 <= x) -> 0 <= rsum l.
Proof.
  unfold rsum. induction l as [|a t IH]; simpl; intros H; [lra|].
  pose proof (H a (or_introl eq_refl)). pose proof (IH (fun x h => H x (or_intror h))). lra.
Qed.
Lemma logsumexp_val l : l <> [] -> (forall a, In a l -> is_nan a = false) ->
  exists v, logsumexp l = Some v /\ is_nan v = false /\ lexp v = rsum (map lexp l).
Proof.
  intros N H. destruct l as [|a t]; [congruence|]. unfold logsumexp.
  assert (E : existsb is_nan (a :: t) = false).
  { apply not_true_is_false. intros X. apply existsb_exists in X. destruct X as (b & Hb & Hn). rewrite H in Hn; congruence. }
  rewrite E. eexists. split; [reflexivity|].
  assert (P : 0 <= rsum (map lexp (a :: t))).
  { apply rsum_pos. intros x Hx. apply in_map_iff in Hx. destruct Hx as (b & <- & _). apply lexp_pos. }
  split; [apply np_log_nan, P|apply lexp_np_log, P].
Qed.
Lemma map2_length {A B C} (f : A -> B -> C) l m : List.length l = List.length m -> List.length (map2 f l m) = List.length l.
Proof. revert m. induction l as [|a t IH]; intros [|b m] H; simpl in *; try reflexivity; try discriminate. rewrite IH; congruence. Qed.
Lemma map2_in {A B C} (f : A -> B -> C) l m c : In c (map2 f l m) -> exists a b, In a l /\ In b m /\ c = f a b.
Proof.
  revert m. induction l as [|a t IH]; intros [|b m] H; simpl in *; try contradiction.
  destruct H as [<-|H]; [exists a, b; auto|]. destruct (IH _ H) as (x & y & Hx & Hy & ->). exists x, y; auto.
Qed.
Lemma removelast_length {A} (l : list A) : List.length (removelast l) = (List.length l - 1)%nat.
Proof. induction l as [|a [|b t] IH]; simpl in *; auto. rewrite IH. lia. Qed.
Lemma in_removelast {A} (x : A) l : In x (removelast l) -> In x l.
Proof. induction l as [|a [|b t] IH]; [simpl; tauto|simpl; tauto|]. intros H. change (removelast (a :: b :: t)) with (a :: removelast (b :: t)) in H. destruct H; [left|right]; auto. Qed.
Lemma diff_length xs : List.length (diff xs) = (List.length xs - 1)%nat.
Proof. induction xs as [|x [|y t] IH]; auto. change (S (List.length (diff (y :: t))) = (List.length (x :: y :: t) - 1)%nat). rewrite IH. simpl. lia. Qed.
Lemma diff_pos xs d : increasing xs -> In d (diff xs) -> 0 < d.
Proof.
  induction xs as [|x [|y t] IH]; intros I H; simpl in H; try contradiction.
  destruct H as [<-|H]; [|apply IH; auto; eapply increasing_tl; eauto].
  pose proof (I 0%nat ltac:(simpl; lia)) as D. simpl in D. lra.
Qed.
Lemma logtrapzexp_defined lnf dx : dx <> [] -> List.length lnf = S (List.length dx) -> exists v, logtrapzexp lnf dx = Some v.
Proof.
  intros N H. unfold logtrapzexp. replace (Nat.eqb (List.length dx + 1) (List.length lnf)) with true
    by (symmetry; apply Nat.eqb_eq; lia).
  destruct lnf as [|a [|b t]]; simpl in H; try lia; destruct dx as [|d dx]; try congruence; simpl in H; try lia.
  cbv zeta. unfold logsumexp2. simpl. eauto.
Qed.
Lemma rsum_trap xs (f : nat -> R) (fs : list R) :
  fs = map f (seq 0 (List.length xs)) ->
  rsum (map2 Rmult (removelast fs) (diff xs)) + rsum (map2 Rmult (tl fs) (diff xs)) = 2 * trap_from xs f.
Proof.
  revert f fs. induction xs as [|x [|y t] IH]; intros f fs ->; [simpl; lra|simpl; lra|].
  specialize (IH (fun i => f (S i)) _ eq_refl).
  cbn [List.length seq map]. cbn [List.length seq map] in IH.
  rewrite <- seq_shift, map_map in IH.
  rewrite <- (seq_shift (List.length t) 1), map_map, <- seq_shift, map_map.
  set (rest := map (fun i => f (S (S i))) (seq 0 (List.length t))) in *.
  rewrite trap_from_cons. change (diff (x :: y :: t)) with ((y - x) :: diff (y :: t)). cbn [tl].
  change (removelast (f 0%nat :: f 1%nat :: rest)) with (f 0%nat :: removelast (f 1%nat :: rest)).
  cbn [map2]. unfold rsum in *. cbn [fold_right]. cbn [tl] in IH.
  lra.
Qed.
Lemma logtrapzexp_val xs (f : nat -> lnum) : (1 < List.length xs)%nat -> increasing xs ->
  (forall i, (i < List.length xs)%nat -> is_nan (f i) = false) ->
  exists v, logtrapzexp (map f (seq 0 (List.length xs))) (diff xs) = Some v /\ is_nan v = false /\
    lexp v = trap xs (fun i => lexp (f i)).
Proof.
  intros L I N. set (lnf := map f (seq 0 (List.length xs))).
  assert (Ll : List.length lnf = List.length xs) by (unfold lnf; rewrite map_length, seq_length; reflexivity).
  assert (Nn : forall a, In a lnf -> is_nan a = false).
  { unfold lnf. intros a Ha. apply in_map_iff in Ha. destruct Ha as (i & <- & Hi). apply in_seq in Hi. apply N. lia. }
  assert (Nd : forall a, In a (map np_log (diff xs)) -> is_nan a = false).
  { intros a Ha. apply in_map_iff in Ha. destruct Ha as (d & <- & Hd). apply np_log_nan. left. eapply diff_pos; eauto. }
  assert (K : forall l, List.length l = (List.length xs - 1)%nat -> (forall a, In a l -> In a lnf) ->
    exists v, logsumexp (map2 ladd l (map np_log (diff xs))) = Some v /\ is_nan v = false /\
      lexp v = rsum (map2 Rmult (map lexp l) (diff xs))).
  { intros l Hl Hi.
    destruct (logsumexp_val (map2 ladd l (map np_log (diff xs)))) as (v & Hv & Hn & He).
    - intros E. apply (f_equal (@List.length lnum)) in E. rewrite map2_length in E by (rewrite map_length, diff_length; exact Hl).
      simpl in E. lia.
    - intros a Ha. apply map2_in in Ha. destruct Ha as (x & y & Hx & Hy & ->). apply ladd_nan; auto.
    - exists v. split; [exact Hv|]. split; [exact Hn|]. rewrite He. f_equal.
      assert (Dp : forall d, In d (diff xs) -> 0 <= d) by (intros d Hd; left; eapply diff_pos; eauto).
      clear -Dp. revert Dp. generalize (diff xs) as ds. induction l as [|a l IH]; intros [|d ds] Dp; simpl; auto.
      rewrite lexp_ladd, lexp_np_log by (apply Dp; left; reflexivity). f_equal. apply IH. intros; apply Dp; now right. }
  destruct (K (removelast lnf)) as (v1 & E1 & N1 & X1).
  { rewrite removelast_length, Ll. reflexivity. } { intros a; apply in_removelast. }
  destruct (K (tl lnf)) as (v2 & E2 & N2 & X2).
  { destruct lnf; simpl in *; lia. } { destruct lnf; simpl; auto. }
  unfold logtrapzexp. replace (Nat.eqb (List.length (diff xs) + 1) (List.length lnf)) with true
    by (symmetry; apply Nat.eqb_eq; rewrite diff_length, Ll; lia).
  cbv zeta. unfold logsumexp2. rewrite E1. cbn [bindo]. rewrite E2. cbn [bindo].
  destruct (logsumexp_val [v1; v2]) as (s & Es & Ns & Xs); [discriminate| |].
  { intros a [<-|[<-|[]]]; auto. }
  rewrite Es. cbn [bindo]. eexists. split; [reflexivity|]. split; [apply ladd_nan; auto|].
  rewrite lexp_ladd, Xs. unfold rsum at 1. cbn [map fold_right]. rewrite X1, X2.
  assert (Hm : map lexp lnf = map (fun i => lexp (f i)) (seq 0 (List.length xs))).
  { unfold lnf. rewrite map_map. reflexivity. }
  pose proof (rsum_trap xs (fun i => lexp (f i)) (map lexp lnf) Hm) as T.
  assert (Hr : map lexp (removelast lnf) = removelast (map lexp lnf)).
  { clear. induction lnf as [|a [|b t] IH]; auto. change (lexp a :: map lexp (removelast (b :: t)) = lexp a :: removelast (map lexp (b :: t))). now rewrite IH. }
  assert (Ht : map lexp (tl lnf) = tl (map lexp lnf)) by (destruct lnf; reflexivity).
  rewrite Hr, Ht. simpl lexp. rewrite exp_Ropp, exp_ln by lra.
  destruct xs as [|x [|y t]]; simpl in L; try lia.
  change (trap (x :: y :: t)) with (trap_from (x :: y :: t)). lra.
Qed.
