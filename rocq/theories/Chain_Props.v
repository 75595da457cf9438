(** * Storage of a Markov chain (C30) and temperature swaps (C31) *)
From Coq Require Import ZArith List Bool Lia Reals Lra Psatz.
From Verif Require Import Chain_Model Chain_Proofs.
Import ListNotations.
Open Scope Z_scope.

(** ** C30 *)
Section C30.
Context {S : Type}.
Variables (zero : S) (better : S -> S -> bool).
(** after any sequence of appends and valid assignments the chain never fails, stores
    exactly the specified list whatever the block length, and current_sample is the last
    sample appended (assignments do not change it) *)
Theorem C30_chain_is_list bl s0 os : (1 <= bl)%nat -> spec_valid [s0] os ->
  exists c0 c, init zero better bl s0 = inl c0 /\ run zero better c0 os = inl c /\
    stored c = spec_run [s0] os /\ cur c = last_app s0 os /\
    (forall i, valid (length (spec_run [s0] os)) i -> getitem zero c i = inl (nth (norm (length (spec_run [s0] os)) i) (spec_run [s0] os) zero)) /\
    (forall i, Z.of_nat (length (spec_run [s0] os)) <= i -> getitem zero c i = inr SamplerError).
Proof.
  intros H V. destruct (init_refines zero better bl s0 H) as (c0 & A0 & B0 & C0). destruct (run_refines zero better os c0 [s0] B0 V) as (c & A & B & C).
  exists c0, c. split; [exact A0|]. split; [exact A|]. set (l := spec_run [s0] os) in *. destruct B as (HB & HP & HL & pad & HA).
  split; [unfold stored; rewrite HP, HA; replace (Z.to_nat (Z.of_nat (length l) - 1 + 1)) with (length l) by lia; rewrite firstn_app, firstn_all, Nat.sub_diag; simpl; apply app_nil_r|].
  split; [rewrite C, C0; reflexivity|]. split.
  - intros i Vi. destruct (norm_valid _ _ Vi) as [N1 N2]. unfold getitem. rewrite HP, N2. destruct (Z.leb_spec (Z.of_nat (norm (length l) i)) (Z.of_nat (length l) - 1)); [|lia].
    unfold np_get. rewrite np_index_in by (rewrite HA, app_length; lia). rewrite HA, app_nth1 by exact N1. reflexivity.
  - intros i Hi. unfold getitem. rewrite HP. destruct (Z.ltb_spec i 0); [lia|]. destruct (Z.leb_spec i (Z.of_nat (length l) - 1)); [lia|]. reflexivity.
Qed.
(** [best]: after appends only, the sample whose log likelihood no appended one exceeds *)
Hypothesis better_trans : forall a b c, better a b = false -> better b c = false -> better a c = false.
Hypothesis better_irrefl : forall a, better a a = false.
Hypothesis better_asym : forall a b, better a b = true -> better b a = false.
Theorem C30_maximum bl s0 ss : (1 <= bl)%nat ->
  exists c0 c b, init zero better bl s0 = inl c0 /\ run zero better c0 (map Append ss) = inl c /\ best c = Some b /\
    In b (s0 :: ss) /\ forall s, In s (s0 :: ss) -> better s b = false.
Proof.
  intros H. destruct (init_refines zero better bl s0 H) as (c0 & A0 & B0 & C0).
  assert (B1 : best c0 = Some s0).
  { unfold init, append in A0. simpl in A0. destruct (np_set _ _ s0) eqn:E; [|discriminate]. injection A0 as <-. destruct (0 >=? Z.of_nat bl); reflexivity. }
  assert (G : forall ss c l b, refines c l -> best c = Some b -> exists c' b', run zero better c (map Append ss) = inl c' /\ best c' = Some b' /\ (b' = b \/ In b' ss) /\ better b b' = false /\ forall s, In s ss -> better s b' = false).
  { clear - better_trans better_irrefl better_asym. induction ss as [|s ss IH]; intros c l b HR Hb; [exists c, b; simpl; auto 10|].
    destruct (append_refines zero better c l s HR) as (c1 & A & B & C & _). cbn [map run step]. rewrite A.
    assert (Hb1 : best c1 = if better s b then Some s else Some b).
    { unfold append in A. cbv zeta in A. destruct (np_set _ _ s) eqn:E; [|discriminate]. injection A as <-. simpl.
      match goal with |- context [if ?x then extend zero ?y else _] => destruct x end; simpl; rewrite Hb; reflexivity. }
    destruct (better s b) eqn:EB.
    - destruct (IH c1 _ s B Hb1) as (c' & b' & R1 & R2 & R3 & R4 & R5). exists c', b'. split; [exact R1|]. split; [exact R2|].
      split; [destruct R3 as [->|R3]; [right; left; reflexivity|right; right; exact R3]|]. split; [apply better_trans with s; [apply better_asym; exact EB|exact R4]|]. intros x [<-|Hx]; auto.
    - destruct (IH c1 _ b B Hb1) as (c' & b' & R1 & R2 & R3 & R4 & R5). exists c', b'. split; [exact R1|]. split; [exact R2|].
      split; [destruct R3 as [->|R3]; [left; reflexivity|right; right; exact R3]|]. split; [exact R4|]. intros x [<-|Hx]; [apply better_trans with b; assumption|auto]. }
  destruct (G ss c0 [s0] s0 B0 B1) as (c & b & R1 & R2 & R3 & R4 & R5). exists c0, c, b. split; [exact A0|]. split; [exact R1|]. split; [exact R2|]. split; [destruct R3 as [->|R3]; [left; reflexivity|right; exact R3]|].
  intros s [<-|Hs]; auto.
Qed.
(** [samples] leaves out the newest sample: it is the thinned list without its last
    element, for every minimum index and thinning factor *)
Theorem C30_samples_drop_last (c : @chain S) (l : list S) x mi thin : refines c (l ++ [x]) -> samples c mi thin = slice l mi (length l) thin.
Proof.
  intros (HB & HP & HL & pad & HA). unfold samples, slice. rewrite HP, HA, app_length. simpl length.
  replace (Z.to_nat (Z.of_nat (length l + 1) - 1)) with (length l) by lia. rewrite <- app_assoc, firstn_app, Nat.sub_diag. simpl. rewrite app_nil_r. reflexivity.
Qed.
End C30.

(** a block of two, four appends and an assignment to the last entry *)
Example C30_ex : exists c0 c, init 0 Z.gtb 2 7 = inl c0 /\ run 0 Z.gtb c0 [Append 5; Append 9; Append 4; SetItem (-1) 8] = inl c /\
  stored c = [7; 5; 9; 8] /\ arr c = [7; 5; 9; 8] /\ cur c = 4 /\ best c = Some 9 /\ samples c 0 1 = [7; 5; 9] /\ samples c 0 2 = [7; 9].
Proof. do 2 eexists. split; [vm_compute; reflexivity|]. split; [vm_compute; reflexivity|]. vm_compute. repeat split. Qed.
(** the restriction to -n <= i is needed: one appended sample, block length 3, index -2
    returns a padding row of zeros instead of raising *)
Theorem C30_negative_index_refuted : exists c, init 0 Z.gtb 3 7 = inl c /\ stored c = [7] /\ getitem 0 c (-2) = inl 0 /\ ~ In 0 (stored c).
Proof. eexists. split; [vm_compute; reflexivity|]. split; [reflexivity|]. split; [reflexivity|]. intros [H|[]]; discriminate. Qed.
(** and so is a positive block length *)
Theorem C30_block_zero_fails (S : Type) (zero : S) better s : init zero better 0 s = inr IndexError.
Proof. reflexivity. Qed.
(** an assignment does not refresh the maximum: the largest stored value exceeds it *)
Theorem C30_setitem_maximum_refuted : exists c0 c, init 0 Z.gtb 2 7 = inl c0 /\ run 0 Z.gtb c0 [SetItem (-1) 8] = inl c /\ stored c = [8] /\ best c = Some 7.
Proof. do 2 eexists. split; [vm_compute; reflexivity|]. split; [vm_compute; reflexivity|]. split; reflexivity. Qed.

(** ** C31 *)
Section C31.
Variables (S Rnd : Type) (logl : S -> R) (move : R -> list S -> S -> Rnd -> S).
Notation tchain := (tchain S).
(** an accepted swap exchanges the stored last samples *)
Theorem C31_swap_exchanges (ci cj : tchain) u : hist S ci <> [] -> hist S cj <> [] ->
  (u <= exp ((beta S cj - beta S ci) * (logl (last_sample S ci) - logl (last_sample S cj))))%R ->
  let '(ci', cj') := swap_pair S logl ci cj u in
  last_sample S ci' = last_sample S cj /\ last_sample S cj' = last_sample S ci /\
  tl (hist S ci') = tl (hist S ci) /\ tl (hist S cj') = tl (hist S cj) /\
  accepted S ci' = Datatypes.S (accepted S ci) /\ rejected S ci' = rejected S ci.
Proof.
  intros Hi Hj Hu. unfold swap_pair. destruct (Rle_dec _ _) as [_|N]; [|contradiction N; exact Hu].
  unfold last_sample, set_last. destruct (hist S ci) eqn:E; [congruence|]. destruct (hist S cj) eqn:F; [congruence|]. simpl. auto 10.
Qed.
(** a rejected one leaves every stored sample where it is *)
Theorem C31_swap_rejected (ci cj : tchain) u :
  (exp ((beta S cj - beta S ci) * (logl (last_sample S ci) - logl (last_sample S cj))) < u)%R ->
  let '(ci', cj') := swap_pair S logl ci cj u in
  hist S ci' = hist S ci /\ cj' = cj /\ rejected S ci' = Datatypes.S (rejected S ci) /\ accepted S ci' = accepted S ci.
Proof.
  intros Hu. unfold swap_pair. destruct (Rle_dec _ _) as [Y|_]; [exfalso; unfold alpha_swap in Y; apply Rlt_not_le in Hu; contradiction|]. simpl. auto.
Qed.
(** after any round of swaps, over any number of temperatures and any random numbers, the
    current sample and temperature of every chain are those before the round *)
Theorem C31_swap_keeps_current (cs : list tchain) us :
  map (fun c => (beta S c, tcur S c)) (swap_tempered_chains S logl cs us) = map (fun c => (beta S c, tcur S c)) cs.
Proof.
  pose proof (swap_frozen S logl cs us) as H. apply (f_equal (map fst)) in H. rewrite !map_map in H. exact H.
Qed.
(** so the next step of every chain starts from its own pre-swap current sample, whatever
    was written into the stored chain *)
Theorem C31_next_step_start (cs : list tchain) us k c c' r :
  nth_error cs k = Some c -> nth_error (swap_tempered_chains S logl cs us) k = Some c' ->
  tcur S (mcmc_step S Rnd move c' r) = fold_left (move (beta S c) (hist S c')) r (tcur S c).
Proof.
  intros H H'. pose proof (C31_swap_keeps_current cs us) as E. apply (f_equal (fun l => nth_error l k)) in E.
  rewrite !nth_error_map, H, H' in E. simpl in E. injection E as E1 E2. simpl. rewrite E1, E2. reflexivity.
Qed.
(** for proposals that do not read the stored chain, removing all swaps from a run of any
    length changes no current sample of any chain: the temperatures never communicate *)
Definition no_swaps (l : list (action Rnd)) : list (action Rnd) := filter (fun a => match a with StepAll _ _ => true | SwapAll _ _ => false end) l.
Theorem C31_swaps_have_no_effect (cs : list tchain) l :
  (forall b h h' s r, move b h s r = move b h' s r) ->
  map (tcur S) (pt_run S Rnd logl move cs l) = map (tcur S) (pt_run S Rnd logl move cs (no_swaps l)).
Proof.
  intros HF.
  assert (FL : forall b h h' r s, fold_left (move b h) r s = fold_left (move b h') r s).
  { intros b h h' r. induction r as [|x r IH]; intros s; [reflexivity|]. simpl. rewrite (HF b h h'). apply IH. }
  set (view := fun c : tchain => (beta S c, tcur S c)).
  assert (ST : forall cs1 cs2 rs, map view cs1 = map view cs2 -> map view (step_each S Rnd move cs1 rs) = map view (step_each S Rnd move cs2 rs)).
  { induction cs1 as [|c1 cs1 IH]; intros [|c2 cs2] rs E; try discriminate; [reflexivity|]. destruct rs as [|r rs]; [exact E|].
    simpl in E |- *. injection E as E1 E2 E3. rewrite (IH cs2 rs E3). f_equal. unfold view; simpl. rewrite E1, E2, (FL _ (hist S c1) (hist S c2)). reflexivity. }
  assert (G : forall l cs1 cs2, map view cs1 = map view cs2 -> map view (pt_run S Rnd logl move cs1 l) = map view (pt_run S Rnd logl move cs2 (no_swaps l))).
  { induction l0 as [|[rs|us] l0 IH]; intros cs1 cs2 E; [exact E| |].
    - cbn. apply IH. apply ST. exact E.
    - cbn. apply IH. unfold view. rewrite C31_swap_keeps_current. exact E. }
  specialize (G l cs cs eq_refl). apply (f_equal (map snd)) in G. rewrite !map_map in G. exact G.
Qed.
End C31.
(** two chains, an always accepted swap, and a step adding 1: the expected exchange of
    states would give 21 and 11 *)
Definition add1 (b : R) (h : list Z) (s : Z) (r : unit) : Z := s + 1.
Definition two := [mkT Z 1%R [10] 10 0 0; mkT Z (1/2)%R [20] 20 0 0].
Theorem C31_swapped_state_used_refuted :
  map (hist Z) (pt_run Z unit (fun _ => 0%R) add1 two [SwapAll unit [0%R]]) = [[20]; [10]] /\
  map (hist Z) (pt_run Z unit (fun _ => 0%R) add1 two [SwapAll unit [0%R]; StepAll unit [[tt]; [tt]]]) = [[11; 20]; [21; 10]].
Proof.
  assert (E : swap_tempered_chains Z (fun _ => 0%R) two [0%R] = [mkT Z 1%R [20] 10 1 0; mkT Z (1/2)%R [10] 20 0 0]).
  { unfold swap_tempered_chains, two. cbn [swap_from]. unfold swap_pair. destruct (Rle_dec _ _) as [_|N]; [reflexivity|].
    exfalso. apply N. unfold alpha_swap. left. apply exp_pos. }
  split; cbn [pt_run fold_left act]; rewrite E; reflexivity.
Qed.

(** ** Assumptions of every theorem above *)
Definition Chain_Props_all :=
  (@C30_chain_is_list,
   @C30_maximum,
   @C30_samples_drop_last,
   @C30_negative_index_refuted,
   @C30_block_zero_fails,
   @C30_setitem_maximum_refuted,
   @C31_swap_exchanges,
   @C31_swap_rejected,
   @C31_swap_keeps_current,
   @C31_next_step_start,
   @C31_swaps_have_no_effect,
   @C31_swapped_state_used_refuted).
Print Assumptions Chain_Props_all.
