(** * Properties of the jump proposals: boundaries, cycles, moves (C171, C172, C173) *)
From Coq Require Import String Reals List Bool Arith Lra Lia ZArith.
From Verif Require Import PyReal PyDict Jump_Model.
Import ListNotations.
Open Scope R_scope. Open Scope list_scope.

(** ** C171: boundaries *)
Lemma outside_true p x : outside p x = true <-> mx p < x \/ x < mn p.
Proof.
  unfold outside. destruct (Rlt_dec (mx p) x); [tauto|]. destruct (Rlt_dec x (mn p)); [tauto|].
  split; [discriminate|tauto].
Qed.
Lemma outside_false p x : outside p x = false <-> mn p <= x <= mx p.
Proof.
  unfold outside. destruct (Rlt_dec (mx p) x); [split; [discriminate|lra]|].
  destruct (Rlt_dec x (mn p)); [split; [discriminate|lra]|]. split; [lra|reflexivity].
Qed.
Lemma is_bnd_eq b b' : is_bnd b b' = true <-> b = b'.
Proof. destruct b, b'; split; intros; try discriminate; reflexivity. Qed.
Lemma keys_with_spec b priors ks :
  (forall k, In k ks -> dget priors k <> None) ->
  exists r, keys_with b priors ks = Some r /\
    (forall k, In k r <-> In k ks /\ exists p, dget priors k = Some p /\ bd p = b) /\ (NoDup ks -> NoDup r).
Proof.
  induction ks as [|k ks IH]; intros H.
  - exists []. repeat split; auto; try (intros []); tauto.
  - destruct IH as (r & E & I & N); [intros a Ha; apply H; right; exact Ha|].
    destruct (dget priors k) as [p|] eqn:Ep; [|destruct (H k (or_introl eq_refl) Ep)].
    cbn [keys_with]. rewrite Ep, E. cbn [bind].
    exists (if is_bnd (bd p) b then k :: r else r). split; [reflexivity|]. split.
    + intros a. destruct (is_bnd (bd p) b) eqn:Eb.
      * cbn [In]. rewrite I. split.
        -- intros [<-|[A B]]; [split; [auto|exists p; split; [exact Ep|apply is_bnd_eq; exact Eb]]|auto].
        -- intros [[<-|A] B]; auto.
      * rewrite I. cbn [In]. split; [intros [A B]; auto|]. intros [[<-|A] B]; [|auto].
        destruct B as (q & Eq & Bq). rewrite Ep in Eq. assert (p = q) by congruence. subst q.
        apply is_bnd_eq in Bq. congruence.
    + intros Nd. inversion Nd as [|? ? Nk Nd']; subst. destruct (is_bnd (bd p) b); [|auto].
      constructor; [|auto]. intros Hi. apply I in Hi. tauto.
Qed.
Lemma dkeys_set_mem {V} (d : dict V) k v : In k (dkeys d) -> dkeys (dset d k v) = dkeys d.
Proof. intros H. rewrite dkeys_set. apply dmem_in in H. rewrite H. reflexivity. Qed.
Lemma move_spec f priors : forall ks s, NoDup ks ->
  (forall k, In k ks -> dget priors k <> None /\ In k (dkeys s)) ->
  exists s', move f priors ks s = Some s' /\ dkeys s' = dkeys s /\
    (forall k, ~ In k ks -> dget s' k = dget s k) /\
    (forall k p x, In k ks -> dget priors k = Some p -> dget s k = Some x -> dget s' k = Some (f p x)).
Proof.
  induction ks as [|k ks IH]; intros s Nd H.
  - exists s. repeat split; auto. intros k p x [].
  - inversion Nd as [|? ? Nk Nd']; subst.
    destruct (H k (or_introl eq_refl)) as [Hp Hk].
    destruct (dget priors k) as [p|] eqn:Ep; [|tauto].
    destruct (dget s k) as [x|] eqn:Ex; [|apply dget_none in Ex; tauto].
    destruct (IH (dset s k (f p x)) Nd') as (s' & E & K & Other & Mine).
    { intros a Ha. split; [apply H; right; exact Ha|]. rewrite dkeys_set_mem by exact Hk. apply H. right. exact Ha. }
    exists s'. cbn [move]. rewrite Ep, Ex. cbn [bind]. split; [exact E|].
    split; [rewrite K; apply dkeys_set_mem; exact Hk|]. split.
    + intros a Na. cbn [In] in Na. rewrite Other by tauto. apply dget_set_ne. intros ->. tauto.
    + intros a q y [<-|Ha] Eq Ey.
      * rewrite Other by exact Nk. rewrite dget_set_eq. congruence.
      * apply Mine; [exact Ha|exact Eq|]. rewrite dget_set_ne; [exact Ey|]. intros ->. tauto.
Qed.
(** The value a key ends up with. *)
Definition final (p : pr) (x : R) : R :=
  match bd p with Free => x | Periodic => wrap1 p x | Reflective => reflect1 p x end.
Lemma apply_spec priors s : wf s -> (forall k, In k (dkeys s) -> dget priors k <> None) ->
  exists s', apply_boundaries priors s = Some s' /\ dkeys s' = dkeys s /\
    forall k p x, dget priors k = Some p -> dget s k = Some x -> dget s' k = Some (final p x).
Proof.
  intros W H. unfold apply_boundaries, move_periodic_keys.
  destruct (keys_with_spec Periodic priors (dkeys s) H) as (ks & E & I & N). rewrite E. cbn [bind].
  destruct (move_spec wrap1 priors ks s (N W)) as (s1 & E1 & K1 & O1 & M1).
  { intros k Hk. apply I in Hk. destruct Hk as [Hk (p & Ep & _)]. split; [congruence|exact Hk]. }
  rewrite E1. cbn [bind]. unfold move_reflecting_keys.
  destruct (keys_with_spec Reflective priors (dkeys s1)) as (ks2 & E2 & I2 & N2); [intros k Hk; apply H; rewrite <- K1; exact Hk|].
  rewrite E2. cbn [bind].
  destruct (move_spec reflect1 priors ks2 s1) as (s2 & E3 & K2 & O2 & M2).
  { apply N2. unfold wf in W. rewrite K1. exact W. }
  { intros k Hk. apply I2 in Hk. destruct Hk as [Hk (p & Ep & _)]. split; [congruence|exact Hk]. }
  exists s2. split; [exact E3|]. split; [congruence|].
  intros k p x Ep Ex.
  assert (Hk : In k (dkeys s)) by (apply dmem_in; unfold dmem; rewrite Ex; reflexivity).
  unfold final. destruct (bd p) eqn:Eb.
  - rewrite O2, O1; [exact Ex| |].
    + intros Hi. apply I in Hi. destruct Hi as [_ (q & Eq & Bq)]. congruence.
    + intros Hi. apply I2 in Hi. destruct Hi as [_ (q & Eq & Bq)]. congruence.
  - rewrite O2. { apply M1; [apply I; split; [exact Hk|exists p; auto]|exact Ep|exact Ex]. }
    intros Hi. apply I2 in Hi. destruct Hi as [_ (q & Eq & Bq)]. congruence.
  - apply M2; [apply I2; split; [rewrite K1; exact Hk|exists p; auto]|exact Ep|].
    rewrite O1; [exact Ex|]. intros Hi. apply I in Hi. destruct Hi as [_ (q & Eq & Bq)]. congruence.
Qed.

Lemma wrap1_spec p x : mn p < mx p ->
  (mn p <= x <= mx p -> wrap1 p x = x) /\
  (~ mn p <= x <= mx p -> mn p <= wrap1 p x < mx p /\ exists k, wrap1 p x = x + IZR k * (mx p - mn p)).
Proof.
  intros L. unfold wrap1. split.
  - intros H. apply outside_false in H. rewrite H. reflexivity.
  - intros H. assert (O : outside p x = true) by (apply outside_true; lra). rewrite O.
    pose proof (rmod_range (x - mn p) (mx p - mn p) ltac:(lra)). split; [lra|].
    destruct (rmod_congr (x - mn p) (mx p - mn p)) as [k Ek]. exists (- k)%Z. rewrite Ek, opp_IZR. ring.
Qed.
(** [y] is an image of [x] in the pair of mirrors at [mn p] and [mx p]. *)
Definition mirror_image (p : pr) (x y : R) : Prop :=
  exists k, y = x + 2 * IZR k * (mx p - mn p) \/ y - mn p = 2 * IZR k * (mx p - mn p) - (x - mn p).
Definition odd_place (p : pr) (x : R) : Prop := exists k, x = mn p + (2 * IZR k + 1) * (mx p - mn p).
Lemma reflect1_spec p x : mn p < mx p ->
  (mn p <= x <= mx p -> reflect1 p x = x) /\
  (~ mn p <= x <= mx p -> odd_place p x -> reflect1 p x = x) /\
  (~ mn p <= x <= mx p -> ~ odd_place p x -> mn p <= reflect1 p x < mx p /\ mirror_image p x (reflect1 p x)).
Proof.
  intros L. unfold reflect1. set (r := mx p - mn p). assert (Hr : 0 < r) by (unfold r; lra).
  pose proof (rmod_range (x - mn p) (2 * r) ltac:(lra)) as Rg.
  destruct (rmod_congr (x - mn p) (2 * r)) as [k Ek].
  repeat split.
  - intros H. apply outside_false in H. rewrite H. reflexivity.
  - intros H [j Hj]. assert (O : outside p x = true) by (apply outside_true; lra). rewrite O.
    assert (Em : rmod (x - mn p) (2 * r) = r).
    { apply (rmod_unique _ (2 * r) r j); [lra|lra|]. rewrite Hj. fold r. ring. }
    rewrite Em. destruct (Rlt_dec r r); [lra|]. destruct (Rlt_dec r r); [lra|reflexivity].
  - assert (O : outside p x = true) by (apply outside_true; lra). rewrite O.
    assert (Ne : rmod (x - mn p) (2 * r) <> r).
    { intros Em. apply H0. exists k. fold r. rewrite Em in Ek. lra. }
    destruct (Rlt_dec r (rmod (x - mn p) (2 * r))); [unfold r in *; lra|].
    destruct (Rlt_dec (rmod (x - mn p) (2 * r)) r); unfold r in *; lra.
  - assert (O : outside p x = true) by (apply outside_true; lra). rewrite O.
    assert (Ne : rmod (x - mn p) (2 * r) <> r).
    { intros Em. apply H0. exists k. fold r. rewrite Em in Ek. lra. }
    destruct (Rlt_dec r (rmod (x - mn p) (2 * r))); [unfold r in *; lra|].
    destruct (Rlt_dec (rmod (x - mn p) (2 * r)) r); unfold r in *; lra.
  - assert (O : outside p x = true) by (apply outside_true; lra). rewrite O.
    assert (Ne : rmod (x - mn p) (2 * r) <> r).
    { intros Em. apply H0. exists k. fold r. rewrite Em in Ek. lra. }
    unfold mirror_image. fold r.
    destruct (Rlt_dec r (rmod (x - mn p) (2 * r))).
    + exists (k + 1)%Z. right. rewrite Ek, plus_IZR. unfold r. ring.
    + destruct (Rlt_dec (rmod (x - mn p) (2 * r)) r); [|lra].
      exists (- k)%Z. left. rewrite Ek, opp_IZR. ring.
Qed.

(** JumpProposal.__call__: the same keys; a parameter without boundary and every value already in range are
    kept; periodic values are shifted by whole widths into the range, reflective ones mirrored into it. *)
Theorem C171_boundaries priors s : wf s ->
  (forall k, In k (dkeys s) -> exists p, dget priors k = Some p /\ mn p < mx p) ->
  exists s', apply_boundaries priors s = Some s' /\ dkeys s' = dkeys s /\
    forall k p x, dget priors k = Some p -> dget s k = Some x ->
      exists y, dget s' k = Some y /\
        (bd p = Free -> y = x) /\
        (mn p <= x <= mx p -> y = x) /\
        (bd p = Periodic -> ~ mn p <= x <= mx p -> mn p <= y < mx p /\ exists n, y = x + IZR n * (mx p - mn p)) /\
        (bd p = Reflective -> ~ mn p <= x <= mx p -> ~ odd_place p x -> mn p <= y < mx p /\ mirror_image p x y).
Proof.
  intros W H. destruct (apply_spec priors s W) as (s' & E & K & F).
  { intros k Hk. destruct (H k Hk) as (p & Ep & _). congruence. }
  exists s'. split; [exact E|]. split; [exact K|]. intros k p x Ep Ex.
  exists (final p x). split; [apply F; assumption|].
  assert (L : mn p < mx p).
  { assert (Hk : In k (dkeys s)) by (apply dmem_in; unfold dmem; rewrite Ex; reflexivity).
    destruct (H k Hk) as (q & Eq & Lq). congruence. }
  destruct (wrap1_spec p x L) as [W1 W2]. destruct (reflect1_spec p x L) as (R1 & R2 & R3).
  unfold final. destruct (bd p); repeat split; intros; try discriminate; auto;
    try (apply W2; assumption); try (apply R3; assumption).
Qed.
(** The exception: a reflective value a further odd number of widths away from the minimum is handed back
    as it is, outside the prior. *)
Theorem C171_odd_place priors s k p x s' : wf s -> (forall a, In a (dkeys s) -> dget priors a <> None) ->
  apply_boundaries priors s = Some s' -> dget priors k = Some p -> dget s k = Some x ->
  mn p < mx p -> bd p = Reflective -> odd_place p x -> x <> mx p ->
  dget s' k = Some x /\ ~ mn p <= x <= mx p.
Proof.
  intros W H E Ep Ex L B O Nx. destruct (apply_spec priors s W H) as (s2 & E2 & K & F).
  assert (s2 = s') by congruence. subst s2.
  assert (Out : ~ mn p <= x <= mx p).
  { destruct O as [n Hn]. intros [A C]. apply Nx. set (w := mx p - mn p) in *.
    assert (Hw : 0 < w) by (unfold w; lra).
    assert (B1 : 0 <= (2 * IZR n + 1) * w) by lra. assert (B2 : (2 * IZR n + 1) * w <= w) by (unfold w in *; lra).
    assert (n = 0)%Z.
    { assert (-1 < 2 * IZR n + 1)%R by nra. assert (2 * IZR n + 1 < 2)%R by nra.
      assert (IZR (-1) < IZR n)%R by lra. assert (IZR n < IZR 1)%R by lra.
      apply lt_IZR in H2. apply lt_IZR in H3. lia. }
    subst n. rewrite Hn. unfold w. ring. }
  split; [|exact Out]. rewrite (F k p x Ep Ex). unfold final. rewrite B.
  f_equal. apply (proj1 (proj2 (reflect1_spec p x L))); assumption.
Qed.
Theorem C171_refuted : exists priors s s' k p y, apply_boundaries priors s = Some s' /\
  dget priors k = Some p /\ bd p = Reflective /\ mn p < mx p /\ dget s' k = Some y /\ ~ mn p <= y <= mx p.
Proof.
  set (p := mkPr Reflective 0 1).
  destruct (apply_spec [("a"%string, p)] [("a"%string, 3)]) as (s' & E & K & F).
  { repeat constructor. intros []. }
  { intros k [<-|[]]. cbn. discriminate. }
  exists [("a"%string, p)], [("a"%string, 3)], s', "a"%string, p, 3.
  split; [exact E|]. split; [reflexivity|]. split; [reflexivity|]. split; [cbn; lra|].
  rewrite (F "a"%string p 3 eq_refl eq_refl). split; [|cbn; lra].
  unfold final. cbn [bd p]. f_equal. apply (proj1 (proj2 (reflect1_spec p 3 ltac:(cbn; lra)))); [cbn; lra|].
  exists 1%Z. cbn. lra.
Qed.
(** A second application changes nothing. *)
Theorem C171_idempotent priors s s' : wf s ->
  (forall k, In k (dkeys s) -> exists p, dget priors k = Some p /\ mn p < mx p) ->
  apply_boundaries priors s = Some s' ->
  forall k, exists s'', apply_boundaries priors s' = Some s'' /\ dget s'' k = dget s' k.
Proof.
  intros W H E k. destruct (apply_spec priors s W) as (t & Et & K & F).
  { intros a Ha. destruct (H a Ha) as (p & Ep & _). congruence. }
  assert (t = s') by congruence. subst t.
  destruct (apply_spec priors s') as (s'' & E2 & K2 & F2).
  { unfold wf. rewrite K. exact W. }
  { intros a Ha. rewrite K in Ha. destruct (H a Ha) as (p & Ep & _). congruence. }
  exists s''. split; [exact E2|].
  destruct (dget s' k) as [y|] eqn:Ey.
  2:{ apply dget_none. rewrite K2. apply dget_none. exact Ey. }
  assert (Hk : In k (dkeys s)) by (rewrite <- K; apply dmem_in; unfold dmem; rewrite Ey; reflexivity).
  destruct (H k Hk) as (p & Ep & L). rewrite (F2 k p y Ep Ey). f_equal.
  destruct (dget s k) as [x|] eqn:Ex; [|apply dget_none in Ex; tauto].
  pose proof (F k p x Ep Ex) as Fy. rewrite Ey in Fy. assert (Y : y = final p x) by congruence.
  destruct (wrap1_spec p x L) as [W1 W2]. destruct (reflect1_spec p x L) as (R1 & R2 & R3).
  unfold final in *. destruct (bd p); [reflexivity| |].
  - destruct (outside p x) eqn:O.
    + apply outside_true in O. destruct (W2 ltac:(lra)) as [Rg _]. apply (proj1 (wrap1_spec p y L)). lra.
    + apply outside_false in O. rewrite (W1 O) in Y. subst y. apply W1; exact O.
  - destruct (outside p x) eqn:O.
    + apply outside_true in O.
      destruct (Req_dec (reflect1 p x) x) as [Er|Nr]; [rewrite Y, Er; exact Er|].
      assert (~ odd_place p x) by (intros Od; apply Nr; apply R2; [lra|exact Od]).
      destruct (R3 ltac:(lra) H0) as [Rg _]. apply (proj1 (reflect1_spec p y L)). lra.
    + apply outside_false in O. rewrite (R1 O) in Y. subst y. apply R1; exact O.
Qed.
(** A parameter without a prior is a KeyError. *)
Theorem C171_missing priors s : (exists k, In k (dkeys s) /\ dget priors k = None) -> apply_boundaries priors s = None.
Proof.
  intros (k & Hk & Ek). unfold apply_boundaries, move_periodic_keys.
  assert (E : keys_with Periodic priors (dkeys s) = None).
  { induction (dkeys s) as [|a ks IH]; [destruct Hk|]. cbn [keys_with]. destruct Hk as [->|Hk].
    - rewrite Ek. reflexivity.
    - rewrite IH by exact Hk. destruct (dget priors a); reflexivity. }
  rewrite E. reflexivity.
Qed.
Example C171_ex : exists s', apply_boundaries
    [("phase"%string, mkPr Periodic 0 6); ("q"%string, mkPr Reflective 0 1); ("m"%string, mkPr Free 1 2)]
    [("phase"%string, 7); ("q"%string, 5/4); ("m"%string, 9)] = Some s' /\
  dget s' "phase" = Some 1 /\ dget s' "q" = Some (3/4) /\ dget s' "m" = Some 9.
Proof.
  destruct (apply_spec [("phase"%string, mkPr Periodic 0 6); ("q"%string, mkPr Reflective 0 1); ("m"%string, mkPr Free 1 2)]
    [("phase"%string, 7); ("q"%string, 5/4); ("m"%string, 9)]) as (s' & E & K & F).
  { repeat constructor; cbn [map fst In]; intuition discriminate. }
  { intros k [<-|[<-|[<-|[]]]]; cbn; discriminate. }
  exists s'. split; [exact E|].
  rewrite (F "phase"%string _ _ eq_refl eq_refl), (F "q"%string _ _ eq_refl eq_refl), (F "m"%string _ _ eq_refl eq_refl).
  unfold final. cbn [bd]. repeat split; f_equal.
  - unfold wrap1. replace (outside (mkPr Periodic 0 6) 7) with true by (symmetry; apply outside_true; cbn; lra).
    cbn [mn mx]. replace (rmod (7 - 0) (6 - 0)) with 1; [lra|]. symmetry. apply (rmod_unique _ _ _ 1); lra.
  - unfold reflect1. replace (outside (mkPr Reflective 0 1) (5/4)) with true by (symmetry; apply outside_true; cbn; lra).
    cbn [mn mx]. replace (rmod (5/4 - 0) (2 * (1 - 0))) with (5/4) by (symmetry; apply (rmod_unique _ _ _ 0); lra).
    destruct (Rlt_dec (1 - 0) (5/4)); lra.
Qed.

(** ** Assumptions of every theorem above *)
Definition Jump_Props_all :=
  (@C171_boundaries,
   @C171_odd_place,
   @C171_refuted,
   @C171_idempotent,
   @C171_missing).
Print Assumptions Jump_Props_all.
