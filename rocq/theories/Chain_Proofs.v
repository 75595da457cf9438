(** Specification and lemmas for chain storage *)
From Coq Require Import ZArith List Bool Lia Reals Lra Psatz.
From Verif Require Import Chain_Model.
Import ListNotations.
Open Scope Z_scope.

Section C30.
Context {S : Type}.
Variables (zero : S) (better : S -> S -> bool).
(** the chain as a list: appends add at the end, valid assignments overwrite *)
Definition valid (n : nat) (i : Z) : Prop := - Z.of_nat n <= i < Z.of_nat n.
Definition norm (n : nat) (i : Z) : nat := Z.to_nat (if i <? 0 then i + Z.of_nat n else i).
Definition spec_step (l : list S) (o : op) : list S :=
  match o with
  | Append s => l ++ [s]
  | SetItem i s => firstn (norm (length l) i) l ++ s :: skipn (Datatypes.S (norm (length l) i)) l
  end.
Fixpoint spec_valid (l : list S) (os : list op) : Prop :=
  match os with [] => True | o :: os' =>
    match o with Append _ => True | SetItem i _ => valid (length l) i end /\ spec_valid (spec_step l o) os' end.
Definition spec_run (l : list S) (os : list op) : list S := fold_left spec_step os l.
(** last appended sample *)
Fixpoint last_app (d : S) (os : list op) : S :=
  match os with [] => d | Append s :: os' => last_app s os' | SetItem _ _ :: os' => last_app d os' end.

(** what relates a chain to the list it stores *)
Definition refines (c : @chain S) (l : list S) : Prop :=
  (1 <= block c)%nat /\ position c = Z.of_nat (length l) - 1 /\ arr_len c = length (arr c) /\
  exists pad, arr c = l ++ pad.
Lemma set_nth_app (a b : list S) x s : set_nth (a ++ x :: b) (length a) s = a ++ s :: b.
Proof. induction a as [|y a IH]; [reflexivity|]. simpl. rewrite IH. reflexivity. Qed.
Lemma set_nth_split s (pad l : list S) : forall n, (n < length l)%nat -> set_nth (l ++ pad) n s = (firstn n l ++ s :: skipn (Datatypes.S n) l) ++ pad.
Proof.
  induction l as [|x l IH]; intros n N1; [simpl in N1; lia|]. destruct n; [reflexivity|].
  change (x :: set_nth (l ++ pad) n s = x :: (firstn n l ++ s :: skipn (Datatypes.S n) l) ++ pad). f_equal. apply IH. simpl in N1. lia.
Qed.
Lemma np_index_in (a : list S) n : (n < length a)%nat -> np_index a (Z.of_nat n) = Some n.
Proof.
  intros H. unfold np_index. destruct (Z.leb_spec 0 (Z.of_nat n)); [|lia]. destruct (Z.ltb_spec (Z.of_nat n) (Z.of_nat (length a))); [|lia]. simpl. f_equal. lia.
Qed.
Lemma append_refines c l s : refines c l -> exists c', append zero better c s = inl c' /\ refines c' (l ++ [s]) /\ cur c' = s /\ block c' = block c.
Proof.
  intros (HB & HP & HL & pad & HA). unfold append. simpl. rewrite HP, HL.
  assert (LA : length (arr c) = (length l + length pad)%nat) by (rewrite HA, app_length; reflexivity).
  set (c1 := mkChain (block c) (arr c) (length (arr c)) (Z.of_nat (length l) - 1 + 1) (cur c) (best c)).
  destruct (Z.geb_spec (Z.of_nat (length l) - 1 + 1) (Z.of_nat (length (arr c)))) as [G|G].
  - assert (pad = []) by (destruct pad; [reflexivity|simpl in LA; lia]). subst pad. rewrite app_nil_r in HA.
    unfold extend. simpl. unfold np_set. replace (Z.of_nat (length l) - 1 + 1) with (Z.of_nat (length l)) by lia.
    rewrite np_index_in by (rewrite app_length, repeat_length, HA; lia). rewrite HA. destruct (block c) as [|b] eqn:EB; [lia|]. simpl repeat.
    rewrite set_nth_app. eexists. split; [reflexivity|]. split; [|split; reflexivity]. split; [simpl; lia|]. split; [simpl; rewrite app_length; simpl; lia|].
    split; [simpl; rewrite !app_length; simpl; rewrite repeat_length; lia|]. simpl. exists (repeat zero b). rewrite <- app_assoc. reflexivity.
  - simpl. unfold np_set. replace (Z.of_nat (length l) - 1 + 1) with (Z.of_nat (length l)) by lia. rewrite np_index_in by lia.
    destruct pad as [|x pad]; [simpl in LA; lia|]. rewrite HA, set_nth_app. eexists. split; [reflexivity|]. split; [|split; reflexivity].
    split; [simpl; exact HB|]. split; [simpl; rewrite app_length; simpl; lia|]. split; [simpl; rewrite !app_length; simpl; lia|]. simpl. exists pad. rewrite <- app_assoc. reflexivity.
Qed.
Lemma norm_valid n i : valid n i -> (norm n i < n)%nat /\ (if i <? 0 then i + (Z.of_nat n - 1) + 1 else i) = Z.of_nat (norm n i).
Proof. unfold valid, norm. destruct (Z.ltb_spec i 0); lia. Qed.
Lemma set_refines c l i s : refines c l -> valid (length l) i -> exists c', setitem c i s = inl c' /\ refines c' (spec_step l (SetItem i s)) /\ cur c' = cur c /\ block c' = block c.
Proof.
  intros (HB & HP & HL & pad & HA) V. destruct (norm_valid _ _ V) as [N1 N2]. unfold setitem. rewrite HP, N2. unfold np_set.
  set (n := norm (length l) i) in *. rewrite np_index_in by (rewrite HA, app_length; lia).
  eexists. split; [reflexivity|]. split; [|split; reflexivity]. cbn [spec_step]. fold n.
  assert (E : set_nth (arr c) n s = (firstn n l ++ s :: skipn (Datatypes.S n) l) ++ pad).
  { rewrite HA. apply set_nth_split. exact N1. }
  assert (LE : length (firstn n l ++ s :: skipn (Datatypes.S n) l) = length l).
  { rewrite app_length, firstn_length. change (length (s :: skipn (Datatypes.S n) l)) with (Datatypes.S (length (skipn (Datatypes.S n) l))). rewrite skipn_length. lia. }
  split; [exact HB|]. cbn [position arr arr_len]. rewrite E. split; [rewrite LE; reflexivity|]. split; [rewrite HL, HA, (app_length l pad), (app_length (firstn n l ++ s :: skipn (Datatypes.S n) l) pad), LE; reflexivity|]. exists pad. reflexivity.
Qed.
Lemma init_refines bl s : (1 <= bl)%nat -> exists c, init zero better bl s = inl c /\ refines c [s] /\ cur c = s.
Proof.
  intros H. unfold init. destruct (append_refines (mkChain bl (repeat zero bl) bl (-1) s None) [] s) as (c & A & B & C & _).
  - split; [exact H|]. split; [reflexivity|]. split; [simpl; rewrite repeat_length; reflexivity|]. exists (repeat zero bl). reflexivity.
  - exists c. auto.
Qed.
Lemma run_refines os c l : refines c l -> spec_valid l os -> exists c', run zero better c os = inl c' /\ refines c' (spec_run l os) /\ cur c' = last_app (cur c) os.
Proof.
  revert c l. induction os as [|[s|i s] os IH]; intros c l H V; [exists c; auto|  |].
  - destruct V as [_ V]. destruct (append_refines c l s H) as (c1 & A & B & C & _). destruct (IH c1 _ B V) as (c' & A' & B' & C'). exists c'. cbn [run step]. rewrite A. split; [exact A'|]. split; [exact B'|]. rewrite C', C. reflexivity.
  - destruct V as [V0 V]. destruct (set_refines c l i s H V0) as (c1 & A & B & C & _). destruct (IH c1 _ B V) as (c' & A' & B' & C'). exists c'. cbn [run step]. rewrite A. split; [exact A'|]. split; [exact B'|]. rewrite C', C. reflexivity.
Qed.
End C30.

(** ** Lemmas about swaps *)
Section PTL.
Variables (S Rnd : Type) (logl : S -> R) (move : R -> list S -> S -> Rnd -> S).
(** what a swap never touches *)
Definition frozen (c : tchain S) : R * S * nat := (beta S c, tcur S c, length (hist S c)).
Lemma swap_pair_frozen ci cj u : frozen (fst (swap_pair S logl ci cj u)) = frozen ci /\ frozen (snd (swap_pair S logl ci cj u)) = frozen cj.
Proof.
  unfold swap_pair. destruct (Rle_dec _ _); split; try reflexivity; unfold frozen; simpl; f_equal; unfold set_last; simpl;
    [destruct (hist S ci)|destruct (hist S cj)]; reflexivity.
Qed.
Lemma swap_from_frozen us : forall c cs, map frozen (swap_from S logl c cs us) = map frozen (c :: cs).
Proof.
  induction us as [|u us IH]; intros c cs; [destruct cs; reflexivity|]. destruct cs as [|cj cs]; [reflexivity|]. simpl.
  pose proof (swap_pair_frozen c cj u) as [A B]. destruct (swap_pair S logl c cj u) as [ci' cj']. simpl in *. rewrite IH, A. simpl. rewrite B. reflexivity.
Qed.
Lemma swap_frozen cs us : map frozen (swap_tempered_chains S logl cs us) = map frozen cs.
Proof. destruct cs; [reflexivity|]. apply swap_from_frozen. Qed.
End PTL.
