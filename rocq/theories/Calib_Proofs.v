(** Lemmas about Calib_Model: the linear system of the spline, its pieces, the stored parameters. *)
From Coq Require Import String Reals List Bool ZArith Lia Lra.
From Coquelicot Require Import Coquelicot.
From Verif Require Import PyDict PyReal Calib_Model.
Import ListNotations.
Open Scope R_scope.
Open Scope list_scope.

Lemma Sr_ext n f g : (forall j, (j < n)%nat -> f j = g j) -> Sr n f = Sr n g.
Proof. induction n as [|n IH]; intros H; [reflexivity|]. cbn [Sr]. rewrite IH by (intros; apply H; lia). rewrite (H n) by lia. reflexivity. Qed.
Lemma Sr_zero n f : (forall j, (j < n)%nat -> f j = 0) -> Sr n f = 0.
Proof. induction n as [|n IH]; intros H; [reflexivity|]. cbn [Sr]. rewrite IH by (intros; apply H; lia). rewrite H by lia. ring. Qed.
Lemma Sr_tail k n f : (k <= n)%nat -> (forall j, (k <= j < n)%nat -> f j = 0) -> Sr n f = Sr k f.
Proof.
  induction n as [|n IH]; intros L H; [replace k with 0%nat by lia; reflexivity|].
  destruct (Nat.eq_dec k (S n)) as [->|N]; [reflexivity|]. cbn [Sr]. rewrite IH by (try lia; intros; apply H; lia). rewrite H by lia. ring.
Qed.
Lemma Sr_three n a f : (a + 2 < n)%nat -> (forall j, (j < n)%nat -> j <> a -> j <> (a + 1)%nat -> j <> (a + 2)%nat -> f j = 0) ->
  Sr n f = f a + f (a + 1)%nat + f (a + 2)%nat.
Proof.
  intros L H. rewrite (Sr_tail (a + 3) n) by (try lia; intros; apply H; lia).
  replace (a + 3)%nat with (S (S (S a))) by lia. cbn [Sr]. rewrite Sr_zero by (intros; apply H; lia).
  replace (a + 1)%nat with (S a) by lia. replace (a + 2)%nat with (S (S a)) by lia. ring.
Qed.
Ltac eqbs := repeat match goal with |- context [Nat.eqb ?x ?y] => destruct (Nat.eqb_spec x y); try lia end.
(** the rows of the system *)
Definition rows_ok (n : nat) (p m : nat -> R) : Prop :=
  m 0%nat + m 2%nat = 2 * m 1%nat /\ m (n - 3)%nat + m (n - 1)%nat = 2 * m (n - 2)%nat /\
  forall i, (1 <= i <= n - 2)%nat -> m (i - 1)%nat + 4 * m i + m (i + 1)%nat = 6 * (p (i - 1)%nat - 2 * p i + p (i + 1)%nat).
Lemma solves_rows n p m : (4 <= n)%nat -> (solves n p m <-> rows_ok n p m).
Proof.
  intros Hn.
  assert (L0 : Sr n (fun j => tmp1 n 0 j * m j) = - m 0%nat + 2 * m 1%nat - m 2%nat).
  { rewrite (Sr_three n 0) by (try lia; intros; unfold tmp1; eqbs; ring). unfold tmp1. eqbs. cbn [Nat.add]. ring. }
  assert (R0 : Sr n (fun j => tmp2 n 0 j * p j) = 0) by (apply Sr_zero; intros; unfold tmp2; eqbs; ring).
  assert (L1 : Sr n (fun j => tmp1 n (n - 1) j * m j) = - m (n - 3)%nat + 2 * m (n - 2)%nat - m (n - 1)%nat).
  { rewrite (Sr_three n (n - 3)) by (try lia; intros; unfold tmp1; eqbs; ring). unfold tmp1. eqbs.
    replace (n - 3 + 1)%nat with (n - 2)%nat by lia. replace (n - 3 + 2)%nat with (n - 1)%nat by lia. ring. }
  assert (R1 : Sr n (fun j => tmp2 n (n - 1) j * p j) = 0) by (apply Sr_zero; intros; unfold tmp2; eqbs; ring).
  assert (LI : forall i, (1 <= i <= n - 2)%nat -> Sr n (fun j => tmp1 n i j * m j) = (m (i - 1)%nat + 4 * m i + m (i + 1)%nat) / 6).
  { intros i Hi. rewrite (Sr_three n (i - 1)) by (try lia; intros; unfold tmp1; eqbs; ring). unfold tmp1. eqbs.
    replace (i - 1 + 1)%nat with i by lia. replace (i - 1 + 2)%nat with (i + 1)%nat by lia. field. }
  assert (RI : forall i, (1 <= i <= n - 2)%nat -> Sr n (fun j => tmp2 n i j * p j) = p (i - 1)%nat - 2 * p i + p (i + 1)%nat).
  { intros i Hi. rewrite (Sr_three n (i - 1)) by (try lia; intros; unfold tmp2; eqbs; ring). unfold tmp2. eqbs.
    replace (i - 1 + 1)%nat with i by lia. replace (i - 1 + 2)%nat with (i + 1)%nat by lia. ring. }
  split.
  - intros H. split; [|split].
    + pose proof (H 0%nat ltac:(lia)) as E. rewrite L0, R0 in E. lra.
    + pose proof (H (n - 1)%nat ltac:(lia)) as E. rewrite L1, R1 in E. lra.
    + intros i Hi. pose proof (H i ltac:(lia)) as E. rewrite LI, RI in E by lia. lra.
  - intros (A & B & D) i Hi. destruct (Nat.eq_dec i 0) as [->|N0]; [rewrite L0, R0; lra|].
    destruct (Nat.eq_dec i (n - 1)) as [->|N1]; [rewrite L1, R1; lra|]. rewrite LI, RI by lia. rewrite D by lia. field.
Qed.
(** the homogeneous recursion started with 0, 1 grows *)
Fixpoint grow (k : nat) : R * R := match k with O => (0, 1) | S j => let '(a, b) := grow j in (b, - 4 * b - a) end.
Lemma grow_ne k : Rabs (fst (grow k)) < Rabs (snd (grow k)).
Proof.
  induction k as [|k IH]; cbn [grow]; [cbn; rewrite Rabs_R0, Rabs_R1; lra|]. destruct (grow k) as [a b]. cbn [fst snd] in *.
  unfold Rabs in *. repeat destruct (Rcase_abs _); lra.
Qed.
Lemma grow_snd_ne k : snd (grow k) <> 0.
Proof. intros E. pose proof (grow_ne k) as H. rewrite E, Rabs_R0 in H. pose proof (Rabs_pos (fst (grow k))). lra. Qed.
(** a sequence with the recursion without right hand side *)
Lemma homog m N : (forall i, (2 <= i <= N)%nat -> m (i - 1)%nat + 4 * m i + m (i + 1)%nat = 0) -> m 1%nat = 0 ->
  forall k, (k + 1 <= N)%nat -> m (k + 1)%nat = m 2%nat * fst (grow k) /\ m (k + 2)%nat = m 2%nat * snd (grow k).
Proof.
  intros H H1. induction k as [|k IH]; intros L; cbn [grow].
  - cbn. rewrite H1. split; ring.
  - destruct IH as [A B]; [lia|]. destruct (grow k) as [a b]. cbn [fst snd] in *. replace (S k + 1)%nat with (k + 2)%nat by lia. split; [exact B|].
    pose proof (H (k + 2)%nat ltac:(lia)) as E. replace (k + 2 - 1)%nat with (k + 1)%nat in E by lia. replace (S k + 2)%nat with (k + 2 + 1)%nat by lia. lra.
Qed.
Lemma rows_unique n p m m' : (4 <= n)%nat -> rows_ok n p m -> rows_ok n p m' -> forall i, (i < n)%nat -> m i = m' i.
Proof.
  intros Hn (A & B & D) (A' & B' & D'). set (e := fun i => m i - m' i).
  assert (E0 : e 0%nat + e 2%nat = 2 * e 1%nat) by (unfold e; lra).
  assert (EN : e (n - 3)%nat + e (n - 1)%nat = 2 * e (n - 2)%nat) by (unfold e; lra).
  assert (EI : forall i, (1 <= i <= n - 2)%nat -> e (i - 1)%nat + 4 * e i + e (i + 1)%nat = 0).
  { intros i Hi. pose proof (D i Hi). pose proof (D' i Hi). unfold e. lra. }
  assert (E1 : e 1%nat = 0). { pose proof (EI 1%nat ltac:(lia)) as H. cbn in H. lra. }
  assert (EL : e (n - 2)%nat = 0).
  { pose proof (EI (n - 2)%nat ltac:(lia)) as H. replace (n - 2 - 1)%nat with (n - 3)%nat in H by lia. replace (n - 2 + 1)%nat with (n - 1)%nat in H by lia. lra. }
  assert (HH := homog e (n - 2) ltac:(intros; apply EI; lia) E1).
  assert (E2 : e 2%nat = 0).
  { destruct (HH (n - 4)%nat ltac:(lia)) as [_ Z]. replace (n - 4 + 2)%nat with (n - 2)%nat in Z by lia. rewrite EL in Z.
    symmetry in Z. apply Rmult_integral in Z. destruct Z as [Z|Z]; [exact Z|]. exfalso. exact (grow_snd_ne _ Z). }
  assert (G : forall i, (i < n)%nat -> e i = 0).
  { intros i Hi. destruct i as [|[|i]]; [lra|exact E1|]. destruct (Nat.eq_dec (S (S i)) (n - 1)) as [Q|Q].
    - rewrite Q. destruct (HH (n - 4)%nat ltac:(lia)) as [Z _]. replace (n - 4 + 1)%nat with (n - 3)%nat in Z by lia. rewrite E2 in Z. lra.
    - destruct (HH i ltac:(lia)) as [_ Z]. replace (i + 2)%nat with (S (S i)) in Z by lia. rewrite Z, E2. ring. }
  intros i Hi. pose proof (G i Hi) as Z. unfold e in Z. lra.
Qed.
(** the recursion with right hand side [r], started with [a], [b] *)
Fixpoint shoot (r : nat -> R) (a b : R) (k : nat) : R * R := match k with O => (a, b) | S j => let '(x, y) := shoot r a b j in (y, r j - 4 * y - x) end.
Lemma shoot_affine r a b k : shoot r a b k = (fst (shoot r a 0 k) + b * fst (grow k), snd (shoot r a 0 k) + b * snd (grow k)).
Proof.
  induction k as [|k IH]; cbn [shoot grow]; [cbn; f_equal; ring|]. rewrite IH. destruct (shoot r a 0 k), (grow k). cbn [fst snd]. f_equal; ring.
Qed.
Lemma rows_exist n p : (4 <= n)%nat -> exists m, rows_ok n p m.
Proof.
  intros Hn. set (r := fun i => 6 * (p (i - 1)%nat - 2 * p i + p (i + 1)%nat)).
  (* m1 and m(n-2) are known; m2 is chosen so that the recursion arrives there *)
  set (rr := fun j => r (j + 2)%nat). set (m1 := r 1%nat / 6). set (target := r (n - 2)%nat / 6).
  set (b := (target - snd (shoot rr m1 0 (n - 4))) / snd (grow (n - 4))).
  set (s := fun k => fst (shoot rr m1 b k)).
  assert (Sn : forall k, s (S k) = snd (shoot rr m1 b k)) by (intros k; unfold s; cbn [shoot]; destruct (shoot rr m1 b k); reflexivity).
  assert (SS : forall k, s (S (S k)) = rr k - 4 * s (S k) - s k) by (intros k; rewrite !Sn; unfold s; cbn [shoot]; destruct (shoot rr m1 b k); reflexivity).
  assert (ST : s (n - 3)%nat = target).
  { replace (n - 3)%nat with (S (n - 4)) by lia. rewrite Sn, shoot_affine. cbn [snd]. unfold b. field. apply grow_snd_ne. }
  set (m := fun i => if Nat.eqb i 0 then 2 * s 0%nat - s 1%nat else if Nat.eqb i (n - 1) then 2 * s (n - 3)%nat - s (n - 4)%nat else s (i - 1)%nat).
  exists m.
  assert (MI : forall i, (1 <= i <= n - 2)%nat -> m i = s (i - 1)%nat) by (intros i Hi; unfold m; eqbs; reflexivity).
  assert (M0 : m 0%nat = 2 * s 0%nat - s 1%nat) by reflexivity.
  assert (ML : m (n - 1)%nat = 2 * s (n - 3)%nat - s (n - 4)%nat) by (unfold m; eqbs; reflexivity).
  split; [|split].
  - rewrite M0, !MI by lia. cbn. ring.
  - rewrite ML, !MI by lia. replace (n - 3 - 1)%nat with (n - 4)%nat by lia. replace (n - 2 - 1)%nat with (n - 3)%nat by lia. ring.
  - intros i Hi. fold (r i). destruct (Nat.eq_dec i 1) as [->|N1].
    + rewrite (MI 1%nat), (MI (1 + 1)%nat) by lia. replace (1 - 1)%nat with 0%nat by lia. rewrite M0. cbn [Nat.add Nat.sub].
      replace (s 0%nat) with m1 by reflexivity. unfold m1. field.
    + destruct (Nat.eq_dec i (n - 2)) as [->|N2].
      * rewrite (MI (n - 2)%nat), (MI (n - 2 - 1)%nat) by lia. replace (n - 2 + 1)%nat with (n - 1)%nat by lia. rewrite ML.
        replace (n - 2 - 1)%nat with (n - 3)%nat by lia. replace (n - 3 - 1)%nat with (n - 4)%nat by lia. rewrite ST. unfold target. field.
      * rewrite !MI by lia. pose proof (SS (i - 2)%nat) as Z. replace (S (S (i - 2))) with i in Z by lia. replace (S (i - 2)) with (i - 1)%nat in Z by lia.
        unfold rr in Z. replace (i - 2 + 2)%nat with i in Z by lia. replace (i - 1 - 1)%nat with (i - 2)%nat by lia. replace (i + 1 - 1)%nat with i by lia. lra.
Qed.

(** ** pieces *)
Definition piece (p m : nat -> R) (k : nat) (u : R) : R :=
  let b := u - INR k in let a := 1 - b in a * p k + b * p (k + 1)%nat + (a ^ 3 - a) / 6 * m k + (b ^ 3 - b) / 6 * m (k + 1)%nat.
Definition piece1 (p m : nat -> R) (k : nat) (u : R) : R :=
  let b := u - INR k in let a := 1 - b in p (k + 1)%nat - p k - (3 * a ^ 2 - 1) / 6 * m k + (3 * b ^ 2 - 1) / 6 * m (k + 1)%nat.
Definition piece2 (m : nat -> R) (k : nat) (u : R) : R :=
  let b := u - INR k in let a := 1 - b in a * m k + b * m (k + 1)%nat.
Lemma spline_piece n p m u : spline n p m u = piece p m (previous n u) u.
Proof. reflexivity. Qed.
Lemma piece_d p m k u : is_derive (piece p m k) u (piece1 p m k u).
Proof. unfold piece, piece1. auto_derive; [exact I|]. field. Qed.
Lemma piece_d2 p m k u : is_derive (piece1 p m k) u (piece2 m k u).
Proof. unfold piece1, piece2. auto_derive; [exact I|]. field. Qed.
Lemma piece_d3 m k u : is_derive (piece2 m k) u (m (k + 1)%nat - m k).
Proof. unfold piece2. auto_derive; [exact I|]. ring. Qed.

Lemma previous_spec n u : (2 <= n)%nat -> let k := previous n u in
  (k <= n - 2)%nat /\ (k = 0%nat \/ INR k <= u) /\ (k = (n - 2)%nat \/ u < INR k + 1).
Proof.
  intros Hn. unfold previous. destruct (base_Int_part u) as [A B]. set (z := Int_part u) in *. cbv zeta.
  set (k := Z.to_nat _). assert (Ek : Z.of_nat k = Z.min (Z.max z 0) (Z.of_nat (n - 2))) by (unfold k; rewrite Z2Nat.id; lia).
  rewrite INR_IZR_INZ, Ek. split; [lia|]. split.
  - destruct (Z.le_gt_cases z 0) as [C|C]; [left; lia|right]. apply Rle_trans with (IZR z); [apply IZR_le; lia|exact A].
  - destruct (Z.le_gt_cases (Z.of_nat (n - 2)) z) as [C|C]; [left; lia|right].
    replace (Z.min (Z.max z 0) (Z.of_nat (n - 2))) with (Z.max z 0) by lia.
    assert (IZR z <= IZR (Z.max z 0)) by (apply IZR_le; lia). lra.
Qed.
Lemma previous_unique n u k : (2 <= n)%nat -> (k <= n - 2)%nat -> (k = 0%nat \/ INR k <= u) -> (k = (n - 2)%nat \/ u < INR k + 1) -> previous n u = k.
Proof.
  intros Hn L A B. destruct (previous_spec n u Hn) as (L' & A' & B'). set (j := previous n u) in *.
  destruct (Nat.lt_trichotomy j k) as [C|[C|C]]; [|exact C|].
  - exfalso. destruct A as [A|A]; [lia|]. destruct B' as [B'|B']; [lia|]. assert (INR j + 1 <= INR k) by (rewrite <- S_INR; apply le_INR; lia). lra.
  - exfalso. destruct A' as [A'|A']; [lia|]. destruct B as [B|B]; [lia|]. assert (INR k + 1 <= INR j) by (rewrite <- S_INR; apply le_INR; lia). lra.
Qed.
(** gluing *)
Lemma glue_derive (f g h : R -> R) x l (d : R) : 0 < d -> (forall y, x - d < y <= x -> f y = g y) -> (forall y, x <= y < x + d -> f y = h y) ->
  is_derive g x l -> is_derive h x l -> is_derive f x l.
Proof.
  intros Hd Hg Hh Dg Dh. apply is_derive_Reals in Dg. apply is_derive_Reals in Dh. apply is_derive_Reals.
  intros e He. destruct (Dg e He) as [dg Ag]. destruct (Dh e He) as [dh Ah].
  assert (P : 0 < Rmin d (Rmin dg dh)) by (repeat apply Rmin_glb_lt; [exact Hd|apply cond_pos|apply cond_pos]).
  exists (mkposreal _ P). intros t Nt Lt. cbn in Lt. assert (L1 := Rlt_le_trans _ _ _ Lt (Rmin_l _ _)). assert (L2 := Rlt_le_trans _ _ _ Lt (Rmin_r _ _)).
  assert (L3 := Rlt_le_trans _ _ _ L2 (Rmin_l _ _)). assert (L4 := Rlt_le_trans _ _ _ L2 (Rmin_r _ _)).
  unfold Rabs in L1. destruct (Rcase_abs t) as [N|N].
  - rewrite (Hg (x + t)), (Hg x) by lra. apply Ag; assumption.
  - rewrite (Hh (x + t)), (Hh x) by lra. apply Ah; assumption.
Qed.
Section Glue.
Variables (n : nat) (p m : nat -> R).
Hypothesis Hn : (4 <= n)%nat.
Hypothesis HR : rows_ok n p m.
(** around every point there is one piece on the left and one on the right, and they fit up to the second derivative *)
Lemma around u : exists i j d, 0 < d /\ (forall y, u - d < y <= u -> previous n y = i \/ y = u) /\ (forall y, u <= y < u + d -> previous n y = j) /\
  piece p m i u = piece p m j u /\ piece1 p m i u = piece1 p m j u /\ piece2 m i u = piece2 m j u.
Proof using Hn HR.
  destruct (previous_spec n u ltac:(lia)) as (L & A & B). set (k := previous n u) in *.
  assert (Rt : exists d, 0 < d /\ forall y, u <= y < u + d -> previous n y = k).
  { destruct B as [B|B].
    - exists 1. split; [lra|]. intros y Hy. apply previous_unique; [lia|lia| |left; exact B]. destruct A; [left; assumption|right; lra].
    - exists (INR k + 1 - u). split; [lra|]. intros y Hy. apply previous_unique; [lia|lia| |right; lra]. destruct A; [left; assumption|right; lra]. }
  destruct Rt as [d1 [P1 R1]].
  destruct (Nat.eq_dec k 0) as [K0|K0].
  - exists k, k, d1. split; [exact P1|]. split; [|split; [exact R1|repeat split]]. intros y Hy. left. apply previous_unique; [lia|lia|left; exact K0|].
    destruct B; [left; assumption|right; lra].
  - destruct A as [A|A]; [lia|]. destruct (Rle_lt_or_eq_dec _ _ A) as [A'|A'].
    + exists k, k, (Rmin d1 (u - INR k)). split; [apply Rmin_glb_lt; lra|]. pose proof (Rmin_l d1 (u - INR k)). pose proof (Rmin_r d1 (u - INR k)).
      split; [|split; [intros y Hy; apply R1; lra|repeat split]]. intros y Hy. left. apply previous_unique; [lia|lia|right; lra|]. destruct B; [left; assumption|right; lra].
    + exists (k - 1)%nat, k, (Rmin d1 1). split; [apply Rmin_glb_lt; lra|]. pose proof (Rmin_l d1 1). pose proof (Rmin_r d1 1).
      assert (EK : INR (k - 1) = INR k - 1) by (rewrite minus_INR by lia; cbn; ring).
      split; [|split; [intros y Hy; apply R1; lra|]].
      * intros y Hy. destruct (Req_dec y u) as [E|E]; [right; exact E|left]. apply previous_unique; [lia|lia| |right; rewrite EK; lra].
        right. rewrite EK. lra.
      * destruct HR as (_ & _ & RI). pose proof (RI k ltac:(lia)) as Z. unfold piece, piece1, piece2. cbv zeta. rewrite EK, <- A'. replace (k - 1 + 1)%nat with k by lia.
        split; [|split].
        -- replace (INR k - (INR k - 1)) with 1 by ring. replace (INR k - INR k) with 0 by ring. field.
        -- replace (INR k - (INR k - 1)) with 1 by ring. replace (INR k - INR k) with 0 by ring. lra.
        -- replace (INR k - (INR k - 1)) with 1 by ring. replace (INR k - INR k) with 0 by ring. ring.
Qed.
Lemma glue_at (F dF : nat -> R -> R) u :
  (forall k x, is_derive (F k) x (dF k x)) ->
  (forall i j, piece p m i u = piece p m j u -> piece1 p m i u = piece1 p m j u -> piece2 m i u = piece2 m j u -> F i u = F j u /\ dF i u = dF j u) ->
  is_derive (fun x => F (previous n x) x) u (dF (previous n u) u).
Proof using Hn HR.
  intros HD HM. destruct (around u) as (i & j & d & Pd & Li & Rj & E0 & E1 & E2). destruct (HM i j E0 E1 E2) as [F0 F1].
  rewrite (Rj u) by lra. apply (glue_derive _ (F i) (F j) u _ d Pd).
  - intros y Hy. destruct (Li y Hy) as [E|E]; [rewrite E; reflexivity|]. rewrite E, (Rj u) by lra. symmetry. exact F0.
  - intros y Hy. rewrite Rj by exact Hy. reflexivity.
  - rewrite <- F1. apply HD.
  - apply HD.
Qed.
Lemma spline_d1 u : is_derive (spline n p m) u (piece1 p m (previous n u) u).
Proof using Hn HR. apply (glue_at (piece p m) (piece1 p m)); [apply piece_d|]. intros. split; assumption. Qed.
Lemma spline_d2 u : is_derive (fun x => piece1 p m (previous n x) x) u (piece2 m (previous n u) u).
Proof using Hn HR. apply (glue_at (piece1 p m) (fun k => piece2 m k)); [apply piece_d2|]. intros. split; assumption. Qed.
Lemma spline_c2 u : continuous (fun x => piece2 m (previous n x) x) u.
Proof using Hn HR.
  destruct (around u) as (i & j & d & Pd & Li & Rj & _ & _ & E2).
  assert (Ci : continuous (piece2 m i) u) by (apply (ex_derive_continuous (piece2 m i)); eexists; apply piece_d3).
  assert (Cj : continuous (piece2 m j) u) by (apply (ex_derive_continuous (piece2 m j)); eexists; apply piece_d3).
  intros P HP. cbv beta in HP. rewrite (Rj u) in HP by lra.
  assert (HPi : locally (piece2 m i u) P) by (rewrite E2; exact HP). specialize (Ci P HPi). specialize (Cj P HP). unfold filtermap in *.
  destruct Ci as [a Ha]. destruct Cj as [b Hb]. assert (Q : 0 < Rmin d (Rmin a b)) by (repeat apply Rmin_glb_lt; [exact Pd|apply cond_pos|apply cond_pos]).
  exists (mkposreal _ Q). intros y Hy. assert (Hy' : Rabs (y - u) < Rmin d (Rmin a b)) by exact Hy.
  assert (L1 := Rlt_le_trans _ _ _ Hy' (Rmin_l _ _)). assert (L2 := Rlt_le_trans _ _ _ Hy' (Rmin_r _ _)).
  assert (L3 := Rlt_le_trans _ _ _ L2 (Rmin_l _ _)). assert (L4 := Rlt_le_trans _ _ _ L2 (Rmin_r _ _)).
  assert (D : u - d < y < u + d) by (unfold Rabs in L1; destruct (Rcase_abs _); lra).
  destruct (Rle_dec y u) as [C|C].
  - destruct (Li y ltac:(lra)) as [E|E]; [rewrite E; apply Ha; exact L3|]. rewrite (Rj y) by lra. apply Hb. exact L4.
  - rewrite (Rj y) by lra. apply Hb. exact L4.
Qed.
End Glue.
