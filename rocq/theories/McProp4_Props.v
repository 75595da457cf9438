(** Theorems about the ensemble step of bilby_mcmc (C208) *)
From Coq Require Import String Bool List Reals ZArith Lia Lra Arith.
From Verif Require Import PyReal PyDict Propose_Model Propose_Props McProp_Model.
Import ListNotations.
Open Scope list_scope.
Open Scope R_scope.

Section E.
Variables (logp logl : list R -> option R) (bound : list R -> list R) (beta a : R).
Notation mstep := (member_step logp logl bound beta a).
Notation estep := (ensemble_step logp logl bound beta a).
Notation eloop := (ensemble_loop logp logl bound beta a).
Notation satep := (step_at logp logl bound beta a).

Lemma replace_len {A} i (v : A) l : length (replace i v l) = length l.
Proof. revert i. induction l as [|x t IH]; intros [|i]; simpl; auto. Qed.
Lemma replace_nth {A} i (v : A) l k : nth_error (replace i v l) k = if Nat.eqb k i then match nth_error l i with Some _ => Some v | None => None end else nth_error l k.
Proof.
  revert i k. induction l as [|x t IH]; intros [|i] [|k]; simpl; try reflexivity; try (destruct (Nat.eqb k i); reflexivity). apply IH.
Qed.
Lemma without_nth {A} i (l : list A) j : nth_error (without i l) j = if Nat.ltb j i then nth_error l j else nth_error l (S j).
Proof.
  revert i j. induction l as [|x t IH]; intros i j.
  - assert (Z : forall n, nth_error (@nil A) n = None) by (intros [|n]; reflexivity). destruct i; cbn [without]; rewrite !Z; match goal with |- context [if ?b then _ else _] => destruct b; reflexivity | |- _ => reflexivity end.
  - destruct i as [|i]; [reflexivity|]. destruct j as [|j]; [reflexivity|]. simpl without. cbn [nth_error]. rewrite IH.
    change (Nat.ltb (S j) (S i)) with (Nat.ltb j i). reflexivity.
Qed.
(** the member that the index j in the complement of member i stands for *)
Definition other (i j : nat) : nat := if Nat.ltb j i then j else S j.
Lemma other_ne i j : other i j <> i.
Proof. unfold other. destruct (Nat.ltb_spec j i); lia. Qed.
Lemma step_at_spec i d ms ms' : satep i d ms = Some ms' ->
  exists m c, nth_error ms i = Some m /\ nth_error ms (other i (fst (fst d))) = Some c /\
    ms' = replace i (mstep m (cur c) (snd (fst d)) (snd d)) ms.
Proof.
  unfold step_at. destruct d as [[j uz] u]. cbn [fst snd]. destruct (nth_error ms i) as [m|] eqn:M; [|discriminate].
  rewrite without_nth. unfold other. intros H.
  destruct (Nat.ltb j i); [destruct (nth_error ms j) as [c|] eqn:C | destruct (nth_error ms (S j)) as [c|] eqn:C]; try discriminate; injection H as <-; exists m, c; auto.
Qed.
Lemma loop_spec ds : forall i ms ms', eloop i ds ms = Some ms' ->
  length ms' = length ms /\
  (forall k, (k < i \/ i + length ds <= k)%nat -> nth_error ms' k = nth_error ms k) /\
  (forall k d, nth_error ds k = Some d -> exists m c,
     nth_error ms (i + k) = Some m /\
     nth_error (if Nat.ltb (other (i + k) (fst (fst d))) (i + k) then ms' else ms) (other (i + k) (fst (fst d))) = Some c /\
     nth_error ms' (i + k) = Some (mstep m (cur c) (snd (fst d)) (snd d))).
Proof.
  induction ds as [|d ds IH]; simpl ensemble_loop; intros i ms ms' H.
  - injection H as <-. split; [reflexivity|]. split; [auto|]. intros [|k] d K; discriminate K.
  - destruct (satep i d ms) as [ms1|] eqn:S1; [|discriminate]. apply step_at_spec in S1. destruct S1 as (m & c & M & C & E).
    destruct (IH _ _ _ H) as (L & F & P). split; [|split].
    + rewrite L, E. apply replace_len.
    + intros k Hk. rewrite F by (simpl in Hk; lia). rewrite E, replace_nth. destruct (Nat.eqb_spec k i); [simpl in Hk; lia | reflexivity].
    + intros [|k] d' K.
      * injection K as <-. rewrite Nat.add_0_r. exists m, c. split; [exact M|]. split.
        -- destruct (Nat.ltb_spec (other i (fst (fst d))) i) as [Lt | Ge]; [|exact C].
           rewrite F by lia. rewrite E, replace_nth. destruct (Nat.eqb_spec (other i (fst (fst d))) i); [lia | exact C].
        -- rewrite F by lia. rewrite E, replace_nth, Nat.eqb_refl, M. reflexivity.
      * simpl in K. destruct (P k d' K) as (m' & c' & M' & C' & R'). replace (i + Datatypes.S k)%nat with (Datatypes.S i + k)%nat by lia.
        set (o := other (Datatypes.S i + k) (fst (fst d'))) in *. assert (On : o <> (Datatypes.S i + k)%nat) by apply other_ne.
        exists m', c'. split; [|split; [|exact R']].
        -- rewrite <- M'. rewrite E, replace_nth. destruct (Nat.eqb_spec (Datatypes.S i + k) i); [lia | reflexivity].
        -- destruct (Nat.ltb_spec o (Datatypes.S i + k)) as [Lt | Ge]; [exact C'|]. rewrite <- C'. rewrite E, replace_nth. destruct (Nat.eqb_spec o i); [lia | reflexivity].
Qed.

(** ** C208 One step of an ensemble moves the members in turn: member i against another member, in its new state if it comes before i and in its old state if after. A single member does not move. *)
Theorem C208_sequential ds ms ms' : (1 < length ms <= length ds)%nat -> estep ds ms = Some ms' ->
  length ms' = length ms /\
  forall i j uz u m, nth_error ms i = Some m -> nth_error ds i = Some (j, uz, u) ->
    exists o c, o <> i /\ (o = j \/ o = S j) /\ nth_error (if Nat.ltb o i then ms' else ms) o = Some c /\ nth_error ms' i = Some (mstep m (cur c) uz u).
Proof.
  intros L H. unfold ensemble_step in H. destruct (Nat.ltb_spec 1 (length ms)); [|lia].
  destruct (loop_spec _ _ _ _ H) as (L' & _ & P). split; [exact L'|]. intros i j uz u m M D.
  assert (Li : (i < length ms)%nat) by (apply nth_error_Some; congruence).
  assert (D' : nth_error (firstn (length ms) ds) i = Some (j, uz, u)).
  { rewrite <- D. clear - Li. revert i Li. generalize (length ms) as n. induction ds as [|d t IH]; intros [|n] [|i] Li; try lia; try reflexivity. simpl. apply IH. lia. }
  destruct (P i _ D') as (m' & c & M' & C & R'). simpl in M', C, R'. assert (m' = m) by congruence. subst m'.
  exists (other i j), c. split; [apply other_ne|]. split; [unfold other; destruct (Nat.ltb j i); auto|]. split; [exact C | exact R'].
Qed.
Theorem C208_single ds ms : (length ms <= 1)%nat -> estep ds ms = Some ms.
Proof. intros L. unfold ensemble_step. destruct (Nat.ltb_spec 1 (length ms)); [lia | reflexivity]. Qed.

(** ** C208 Each member of an ensemble gets exactly one new entry in its chain, which is its current point, and counts it as accepted or rejected; the point changes only when accepted. *)
Lemma mstep_cases m c uz u :
  (mstep m c uz u = reject m) \/
  (exists lp ll, let y := fst (propose_point bound a (cur m) c uz) in logp y = Some lp /\ logl y = Some ll /\ mstep m c uz u = accept m y /\
    u <= exp (snd (propose_point bound a (cur m) c uz) + beta * ll + lp - beta * finite (logl (cur m)) - finite (logp (cur m)))).
Proof.
  unfold member_step. destruct (propose_point bound a (cur m) c uz) as [y lf]. simpl. destruct (logp y) as [lp|] eqn:P; [|auto]. destruct (logl y) as [ll|] eqn:Q; [|auto].
  destruct (Rle_dec u _) as [H | H]; [right; exists lp, ll; auto | auto].
Qed.
Theorem C208_one_each ds ms ms' i m m' : (1 < length ms <= length ds)%nat -> estep ds ms = Some ms' ->
  nth_error ms i = Some m -> nth_error ms' i = Some m' ->
  chain m' = chain m ++ [cur m'] /\
  ((cur m' = cur m /\ accepted m' = accepted m /\ rejected m' = S (rejected m)) \/ (accepted m' = S (accepted m) /\ rejected m' = rejected m)).
Proof.
  intros L H M M'. destruct (C208_sequential ds ms ms' L H) as [L' P].
  assert (Li : (i < length ds)%nat). { assert (i < length ms)%nat by (apply nth_error_Some; congruence). lia. }
  destruct (nth_error ds i) as [[[j uz] u]|] eqn:D; [|apply nth_error_None in D; lia].
  destruct (P i j uz u m M D) as (o & c & _ & _ & _ & R'). assert (m' = mstep m (cur c) uz u) by congruence. subst m'.
  destruct (mstep_cases m (cur c) uz u) as [-> | (lp & ll & _ & _ & -> & _)]; simpl; auto.
Qed.
(** ** C208 A step never leaves the support of the prior. *)
Theorem C208_support ds ms ms' : (1 < length ms <= length ds)%nat -> estep ds ms = Some ms' ->
  (forall m, In m ms -> logp (cur m) <> None) -> forall m, In m ms' -> logp (cur m) <> None.
Proof.
  intros L H S m I. destruct (C208_sequential ds ms ms' L H) as [L' P]. apply In_nth_error in I. destruct I as [i I].
  assert (Li : (i < length ms)%nat). { rewrite <- L'. apply nth_error_Some. congruence. }
  destruct (nth_error ms i) as [m0|] eqn:M; [|apply nth_error_None in M; lia].
  destruct (nth_error ds i) as [[[j uz] u]|] eqn:D; [|apply nth_error_None in D; lia].
  destruct (P i j uz u m0 M D) as (o & c & _ & _ & _ & R'). assert (m = mstep m0 (cur c) uz u) by congruence. subst m.
  destruct (mstep_cases m0 (cur c) uz u) as [-> | (lp & ll & Hp & _ & -> & _)]; simpl; [|congruence].
  apply S. apply nth_error_In in M. exact M.
Qed.
End E.

(** ** C208 The acceptance of a member is the stretch rule for the tempered posterior: the point z times further from the other member is accepted when u <= z^(n-1) (L'/L)^beta p'/p. *)
Theorem C208_rule logp logl bound beta a m c uz u lp ll lp0 ll0 :
  let z := stretch_z a uz in let y := stretch_point (cur m) c z in
  0 < z -> stretch_log_factor (length (cur m)) z <> 0 ->
  logp y = Some lp -> logl y = Some ll -> logp (cur m) = Some lp0 -> logl (cur m) = Some ll0 ->
  member_step logp logl bound beta a m c uz u =
  if Rle_dec u (Rpower z (INR (length (cur m)) - 1) * Rpower (exp ll / exp ll0) beta * (exp lp / exp lp0)) then accept m y else reject m.
Proof.
  intros z y Z NF P Q P0 Q0. unfold member_step, propose_point, stretch_move. fold z y.
  destruct (Req_EM_T (stretch_log_factor (length (cur m)) z) 0) as [E | E]; [contradiction|]. rewrite P, Q, P0, Q0. simpl finite.
  assert (E2 : exp (stretch_log_factor (length (cur m)) z + beta * ll + lp - beta * ll0 - lp0) =
               Rpower z (INR (length (cur m)) - 1) * Rpower (exp ll / exp ll0) beta * (exp lp / exp lp0)).
  { unfold Rpower, stretch_log_factor. unfold Rdiv. rewrite <- !exp_Ropp, <- !exp_plus, ln_exp. f_equal. ring. }
  rewrite E2. reflexivity.
Qed.
Example C208_example :
  let ms := [mkM [0] [] 0 0; mkM [1] [] 0 0; mkM [4] [] 0 0] in
  ensemble_step (fun _ => Some 0) (fun _ => Some 0) (fun x => x) 1 4 [(1%nat, 0, 0); (0%nat, 0, 0); (1%nat, 0, 0)] ms =
  Some [mkM [3] [[3]] 1 0; mkM [5 / 2] [[5 / 2]] 1 0; mkM [23 / 8] [[23 / 8]] 1 0].
Proof.
  cbn zeta. assert (Z : stretch_z 4 0 = / 4) by (unfold stretch_z; field).
  assert (S : forall x c, member_step (fun _ => Some 0) (fun _ => Some 0) (fun x => x) 1 4 (mkM [x] [] 0 0) [c] 0 0 = mkM [c + (x - c) * / 4] [[c + (x - c) * / 4]] 1 0).
  { intros x c. unfold member_step, propose_point, stretch_move, stretch_point, stretch_log_factor. rewrite Z. cbn [cur combine map fst snd length INR].
    assert (E : (1 - 1) * ln (/ 4) = 0) by ring. rewrite E. destruct (Req_EM_T 0 0); [|congruence].
    destruct (Rle_dec 0 _) as [H | H]; [reflexivity|]. exfalso. apply H. left. apply exp_pos. }
  unfold ensemble_step. simpl Nat.ltb. cbv iota. cbn [firstn length ensemble_loop].
  unfold step_at at 1. cbn [nth_error without replace cur]. rewrite S.
  unfold step_at at 1. cbn [nth_error without replace cur]. rewrite S.
  unfold step_at at 1. cbn [nth_error without replace cur]. rewrite S.
  replace (4 + (0 - 4) * / 4) with 3 by field. replace (3 + (1 - 3) * / 4) with (5 / 2) by field. replace (5 / 2 + (4 - 5 / 2) * / 4) with (23 / 8) by field.
  reflexivity.
Qed.

(** ** Assumptions of every theorem above *)
Definition McProp4_Props_all :=
  (@C208_sequential,
   @C208_single,
   @C208_one_each,
   @C208_support,
   @C208_rule).
Print Assumptions McProp4_Props_all.
