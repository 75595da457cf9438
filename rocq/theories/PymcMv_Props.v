(** C236: multivariate Gaussian priors and PyMC. *)
From Coq Require Import String Reals List Bool Arith Lra Lia.
From Verif Require Import PyDict Mvg_Model PymcMv_Model.
Import ListNotations.
Open Scope list_scope.
Open Scope R_scope.

(** ** C236 A prior as it is constructed, without an attribute mvg added by the user, always raises AttributeError *)
Theorem C236_attribute s k p l : extra p = [] -> set_priors s ((k, p) :: l) = (s, inr AttributeErr).
Proof. intros H. cbn [set_priors]. unfold multivariate_normal_prior. rewrite H. reflexivity. Qed.
(** whatever comes before: there is never a result *)
Theorem C236_never s l k p : In (k, p) l -> extra p = [] -> exists e, snd (set_priors s l) = inr e.
Proof.
  revert s. induction l as [|[k' p'] l IH]; intros s I H; [contradiction|]. cbn [set_priors]. destruct I as [E|I].
  - injection E as -> ->. unfold multivariate_normal_prior. rewrite H. exists AttributeErr. reflexivity.
  - destruct (multivariate_normal_prior s k' p') as [s1 [v|e]]; [|exists e; reflexivity]. destruct (IH s1 I H) as [e E]. destruct (set_priors s1 l) as [s2 [r|e2]]; cbn [snd] in E; [discriminate|]. exists e2. reflexivity.
Qed.

Lemma register_new d n w P T lo up k : forall a m, (forall v, In v m -> match v with Comp i _ _ _ => (i < a)%nat | Mixture _ _ _ _ => False end) ->
  register m (map (fun m => Comp m (nth m (means d) []) lo up) (seq a k) ++ [Mixture n w P T]) = (m ++ map (fun m => Comp m (nth m (means d) []) lo up) (seq a k) ++ [Mixture n w P T], true).
Proof.
  induction k as [|k IH]; intros a m H; cbn [seq map app register].
  - replace (existsb _ m) with false; [reflexivity|]. symmetry. apply not_true_is_false. intros E. apply existsb_exists in E as (v & I & E). specialize (H v I). destruct v; [discriminate|contradiction].
  - replace (existsb _ m) with false.
    + rewrite IH; [rewrite <- app_assoc; reflexivity|]. intros v I. apply in_app_or in I as [I|[<-|[]]]; [specialize (H v I); destruct v; [lia|exact H]|lia].
    + symmetry. apply not_true_is_false. intros E. apply existsb_exists in E as (v & I & E). specialize (H v I). destruct v as [i ? ? ?|]; [|discriminate]. cbn [clash] in E. apply Nat.eqb_eq in E. lia.
Qed.
Lemma enter_spec (l : list string) (n : nat) : forall a (s : dict (nat * nat)) k, NoDup l ->
  dget (fold_left (fun (s : dict (nat * nat)) (q : nat * string) => dset s (snd q) (n, fst q)) (combine (seq a (length l)) l) s) k = match find (fun q : nat * string => String.eqb (snd q) k) (combine (seq a (length l)) l) with Some q => Some (n, fst q) | None => dget s k end.
Proof.
  induction l as [|x l IH]; intros a s k N; [reflexivity|]. inversion N as [|? ? N1 N2]; subst. cbn [length seq combine fold_left find fst snd]. rewrite IH by exact N2.
  destruct (String.eqb_spec x k) as [->|D].
  - replace (find _ _) with (@None (nat * string)); [cbn [snd fst]; rewrite dget_set_eq; reflexivity|]. symmetry. destruct (find _ _) as [[i y]|] eqn:F; [|reflexivity]. apply find_some in F as [F1 F2]. cbn [snd] in F2. apply String.eqb_eq in F2. subst y. apply in_combine_r in F1. contradiction.
  - destruct (find _ _); [reflexivity|]. cbn [fst snd]. apply dget_set_ne. congruence.
Qed.
Lemma find_index (l : list string) : forall a k, In k l -> exists i, find (fun q : nat * string => String.eqb (snd q) k) (combine (seq a (length l)) l) = Some (i, k) /\ nth_error l (i - a) = Some k /\ (a <= i)%nat.
Proof.
  induction l as [|x l IH]; intros a k I; [contradiction|]. cbn [length seq combine find fst snd]. destruct (String.eqb_spec x k) as [->|D].
  - exists a. split; [reflexivity|]. rewrite Nat.sub_diag. split; [reflexivity|lia].
  - destruct I as [I|I]; [contradiction|]. destruct (IH (S a) k I) as (i & F & G & H). exists i. split; [exact F|]. split; [|lia]. replace (i - a)%nat with (S (i - S a)) by lia. exact G.
Qed.
Section One.
Variable d : mvg.
Hypothesis unique : NoDup (names d).
Definition after : st := St (variables d 0) (enter d 0 []) 1.
Lemma in_after k : In k (names d) -> exists i, dget (sets after) k = Some (0%nat, i) /\ nth_error (names d) i = Some k.
Proof.
  intros I. destruct (find_index (names d) 0 k I) as (i & F & G & _). exists i. rewrite Nat.sub_0_r in G. split; [|exact G]. unfold after, enter. cbn [sets]. rewrite enter_spec by exact unique. rewrite F. reflexivity.
Qed.
Lemma step s k p : s = start \/ s = after -> dget (extra p) "mvg" = Some d -> In k (names d) ->
  exists i, multivariate_normal_prior s k p = (after, inl (0%nat, i)) /\ nth_error (names d) i = Some k.
Proof.
  intros A E I. destruct (in_after k I) as (i & G & H). exists i. split; [|exact H]. unfold multivariate_normal_prior. rewrite E. destruct A as [-> | ->].
  - replace (forallb (fun k => dmem (sets start) k) (names d)) with false by (destruct (names d); [contradiction|reflexivity]). cbn [num_sets start model sets]. unfold variables. rewrite register_new by (intros v []). cbn [app].
    cbv zeta beta. change (dget (sets after) k = Some (0%nat, i)) in G. unfold after, sets in G. cbn [sets]. rewrite G. reflexivity.
  - replace (forallb (fun k => dmem (sets after) k) (names d)) with true; [rewrite G; reflexivity|]. symmetry. apply forallb_forall. intros x X. destruct (in_after x X) as (j & J & _). unfold dmem. rewrite J. reflexivity.
Qed.
(** ** C236 With the attribute: whatever the order in which the parameters of one distribution come, every one gets its own component of one and the same mixture, which is made once *)
Theorem C236_one l : l <> [] -> (forall k p, In (k, p) l -> dget (extra p) "mvg" = Some d /\ In k (names d)) ->
  exists r, set_priors start l = (after, inl r) /\ Forall2 (fun q v => fst v = 0%nat /\ nth_error (names d) (snd v) = Some (fst q)) l r.
Proof.
  intros NE H. assert (G : forall l s, (s = after \/ (s = start /\ l <> [])) -> (forall k p, In (k, p) l -> dget (extra p) "mvg" = Some d /\ In k (names d)) ->
    exists r, set_priors s l = (after, inl r) /\ Forall2 (fun q v => fst v = 0%nat /\ nth_error (names d) (snd v) = Some (fst q)) l r).
  { clear l NE H. induction l as [|[k p] l IH]; intros s A H.
    - destruct A as [-> |[_ A]]; [|contradiction]. exists []. split; [reflexivity|constructor].
    - destruct (H k p (or_introl eq_refl)) as [E I]. destruct (step s k p) as (i & S1 & S2); [tauto|exact E|exact I|]. destruct (IH after (or_introl eq_refl)) as (r & R1 & R2); [intros; apply H; right; assumption|].
      exists ((0%nat, i) :: r). cbn [set_priors]. rewrite S1, R1. split; [reflexivity|]. constructor; [split; [reflexivity|exact S2]|exact R2]. }
  apply G; [right; split; [reflexivity|exact NE]|exact H].
Qed.
(** ** C236 A second distribution never works: its components have the names of those of the first *)
Theorem C236_second_refuted d2 l k p : means d <> [] -> means d2 <> [] -> l <> [] -> (forall k p, In (k, p) l -> dget (extra p) "mvg" = Some d /\ In k (names d)) ->
  dget (extra p) "mvg" = Some d2 -> In k (names d2) -> ~ In k (names d) -> snd (set_priors start (l ++ [(k, p)])) = inr ValueErr.
Proof.
  intros M1 M2 NE H E I NI. destruct (C236_one l NE H) as (r & R & _).
  assert (A : forall l s s1 r, set_priors s l = (s1, inl r) -> snd (multivariate_normal_prior s1 k p) = inr ValueErr -> snd (set_priors s (l ++ [(k, p)])) = inr ValueErr).
  { clear. induction l as [|[k' p'] l IH]; intros s s1 r E F.
    - injection E as <- <-. cbn [app set_priors]. destruct (multivariate_normal_prior s k p) as [s2 [v|e]]; cbn [snd] in F; [discriminate|injection F as ->; reflexivity].
    - cbn [app set_priors] in *. destruct (multivariate_normal_prior s k' p') as [s2 [v|e]]; [|discriminate]. destruct (set_priors s2 l) as [s3 [r3|e3]] eqn:G; [|discriminate]. injection E as <- _.
      specialize (IH s2 s3 r3 G F). destruct (set_priors s2 (l ++ [(k, p)])) as [s4 [r4|e4]]; cbn [snd] in *; [discriminate|exact IH]. }
  apply (A l start after r R). unfold multivariate_normal_prior. rewrite E.
  replace (forallb (fun k => dmem (sets after) k) (names d2)) with false.
  - cbn [after num_sets model sets]. destruct (means d2) as [|m2 ms2] eqn:V2; [contradiction|]. unfold variables at 2. rewrite V2. cbn [length seq map app register].
    replace (existsb _ (variables d 0)) with true; [reflexivity|]. symmetry. apply existsb_exists. unfold variables. destruct (means d) as [|m1 ms1]; [contradiction|]. cbn [length seq map app]. eexists. split; [left; reflexivity|reflexivity].
  - symmetry. apply not_true_is_false. intros F. rewrite forallb_forall in F. specialize (F k I). unfold dmem, after, enter in F. cbn [sets] in F. rewrite enter_spec in F by exact unique.
    destruct (find _ _) as [[i y]|] eqn:Q; [|discriminate]. apply find_some in Q as [Q1 Q2]. cbn [snd] in Q2. apply String.eqb_eq in Q2. subst y. apply in_combine_r in Q1. contradiction.
Qed.
End One.

(** ** C236 Finite bounds are kept; infinite ones become 100 standard deviations beyond every mode *)
Lemma largest_ge l x : In x l -> x <= largest l.
Proof.
  destruct l as [|y l]; [contradiction|]. cbn [largest]. intros I. assert (G : forall l y, y <= fold_left Rmax l y /\ forall x, In x l -> x <= fold_left Rmax l y).
  { clear. induction l as [|z l IH]; intros y; [split; [apply Rle_refl|contradiction]|]. cbn [fold_left]. destruct (IH (Rmax y z)) as [A B]. split; [eapply Rle_trans; [apply Rmax_l|exact A]|]. intros x [<-|I]; [eapply Rle_trans; [apply Rmax_r|exact A]|apply B, I]. }
  destruct I as [<-|I]; [exact (proj1 (G l y))|exact (proj2 (G l y) x I)].
Qed.
Lemma smallest_le l x : In x l -> smallest l <= x.
Proof.
  destruct l as [|y l]; [contradiction|]. cbn [smallest]. intros I. assert (G : forall l y, fold_left Rmin l y <= y /\ forall x, In x l -> fold_left Rmin l y <= x).
  { clear. induction l as [|z l IH]; intros y; [split; [apply Rle_refl|contradiction]|]. cbn [fold_left]. destruct (IH (Rmin y z)) as [A B]. split; [eapply Rle_trans; [exact A|apply Rmin_l]|]. intros x [<-|I]; [eapply Rle_trans; [exact A|apply Rmin_r]|apply B, I]. }
  destruct I as [<-|I]; [exact (proj1 (G l y))|exact (proj2 (G l y) x I)].
Qed.
Theorem C236_bounds d i lo hi : nth_error (bounds d) i = Some (lo, hi) ->
  (forall x, lo = Fin x -> lower_of d i = x) /\ (forall x, hi = Fin x -> upper_of d i = x) /\
  forall m mu sg, nth_error (means d) m = Some mu -> nth_error (devs d) m = Some sg ->
    (lo = MInf -> lower_of d i <= nth i mu 0 - 100 * nth i sg 0) /\ (hi = PInf -> nth i mu 0 + 100 * nth i sg 0 <= upper_of d i).
Proof.
  intros B. unfold lower_of, upper_of. rewrite (nth_error_nth _ _ _ B). cbn [fst snd]. split; [intros x ->; reflexivity|]. split; [intros x ->; reflexivity|]. intros m mu sg M S1.
  assert (I1 : In (nth i mu 0) (column (means d) i)) by (apply (in_map (fun r => nth i r 0)), (nth_error_In _ _ M)). assert (I2 : In (nth i sg 0) (column (devs d) i)) by (apply (in_map (fun r => nth i r 0)), (nth_error_In _ _ S1)).
  pose proof (largest_ge _ _ I2). split; intros ->; cbn [isinf].
  - pose proof (smallest_le _ _ I1). lra.
  - pose proof (largest_ge _ _ I1). lra.
Qed.
(** ** C236 The test value is strictly inside the bounds of the distribution *)
Definition inside (x : R) (b : ext * ext) : Prop := match fst b with MInf => True | Fin l => l < x | PInf => False end /\ match snd b with PInf => True | Fin u => x < u | MInf => False end.
Theorem C236_test lo hi : ele hi lo = false -> inside (test_value (lo, hi)) (lo, hi).
Proof.
  unfold inside, test_value. destruct lo as [|l|], hi as [|u|]; cbn; intros H; try discriminate; try (split; try exact I; lra).
  destruct (Rle_dec u l); [discriminate|]. lra.
Qed.
(** but it may be outside the bounds that PyMC is given, and these may exclude everything *)
Theorem C236_test_refuted : exists d, bounds d = [(MInf, PInf)] /\ means d = [[1000]] /\ devs d = [[1]] /\ map test_value (bounds d) = [0] /\ 0 < lower_of d 0.
Proof. exists (Dist ["x"%string] [(MInf, PInf)] [[1000]] [[1]] [1]). repeat (split; [reflexivity|]). cbn. lra. Qed.
Theorem C236_empty_refuted : exists d, bounds d = [(MInf, Fin 50)] /\ means d = [[200]] /\ devs d = [[1]] /\ upper_of d 0 < lower_of d 0.
Proof. exists (Dist ["x"%string] [(MInf, Fin 50)] [[200]] [[1]] [1]). repeat (split; [reflexivity|]). cbn. lra. Qed.
(** ** C236 An example: two parameters, two modes *)
Definition e_dist := Dist ["a"; "b"]%string [(MInf, PInf); (Fin 0, Fin 8)] [[1; 2]; [5; 3]] [[1; 1]; [2; 1]] [1; 1].
Example C236_example : let p := Prior e_dist [("mvg"%string, e_dist)] in
  snd (set_priors start [("b"%string, p); ("a"%string, p)]) = inl [(0%nat, 1%nat); (0%nat, 0%nat)] /\ lower_of e_dist 0 = -199 /\ upper_of e_dist 0 = 205 /\ lower_of e_dist 1 = 0 /\ map test_value (bounds e_dist) = [0; 4].
Proof.
  split; [reflexivity|]. unfold lower_of, upper_of, e_dist. cbn [nth bounds fst snd isinf the means devs column map smallest largest fold_left].
  rewrite Rmin_left, !Rmax_right by lra. repeat (split; [lra|]). cbn. repeat (apply f_equal2; try reflexivity); lra.
Qed.

(** ** Assumptions of every theorem above *)
Definition PymcMv_Props_all :=
  (@C236_attribute,
   @C236_never,
   @C236_one,
   @C236_second_refuted,
   @C236_bounds,
   @C236_test,
   @C236_test_refuted,
   @C236_empty_refuted).
Print Assumptions PymcMv_Props_all.
