(** C239: the signal-to-noise ratios of the detectors and their sum over the network. *)
From Coq Require Import Reals List Arith Bool Lra Lia Permutation.
From Coquelicot Require Import Complex.
From Verif Require Import SnrSum_Model.
Import ListNotations.
Open Scope list_scope.
Open Scope R_scope.

Definition csum (l : list C) : C := fold_right Cplus (RtoC 0) l.
Definition rsum (l : list R) : R := fold_right Rplus 0 l.

(** ** One kind of array *)
Section Arrays.
Context {X : Type} (plus : X -> X -> X) (zero : X).
Hypothesis plus_0_l : forall x, plus zero x = x.
Hypothesis plus_0_r : forall x, plus x zero = x.
Definition elem (a : option (list X)) (i : nat) : X := match a with Some l => nth i l zero | None => zero end.
Definition sized (n : nat) (a : option (list X)) : Prop := forall l, a = Some l -> length l = n.
Lemma iadd_array_ok n a b : sized n a -> sized n b -> exists r, iadd_array plus a b = Some r /\ sized n r /\ (r = None <-> a = None /\ b = None) /\
  forall i, (i < n)%nat -> elem r i = plus (elem a i) (elem b i).
Proof.
  intros Ha Hb. destruct a as [a|]; destruct b as [b|]; cbn [iadd_array].
  - specialize (Ha _ eq_refl). specialize (Hb _ eq_refl). unfold array_add. rewrite Ha, Hb, Nat.eqb_refl. eexists. split; [reflexivity|]. split; [|split].
    + intros l E. injection E as <-. rewrite map_length, combine_length. lia.
    + split; [discriminate | intros [Q _]; discriminate Q].
    + intros i Hi. cbn [elem]. apply nth_error_nth. rewrite nth_error_map.
      assert (Q : nth_error (combine a b) i = Some (nth i a zero, nth i b zero)).
      { rewrite (nth_error_nth' _ (zero, zero)) by (rewrite combine_length; lia). rewrite combine_nth by lia. reflexivity. }
      rewrite Q. reflexivity.
  - eexists. split; [reflexivity|]. split; [exact Ha|]. split; [split; [discriminate | intros [Q _]; discriminate Q]|]. intros i _. cbn [elem]. rewrite plus_0_r. reflexivity.
  - eexists. split; [reflexivity|]. split; [exact Hb|]. split; [split; [discriminate | intros [_ Q]; discriminate Q]|]. intros i _. cbn [elem]. rewrite plus_0_l. reflexivity.
  - eexists. split; [reflexivity|]. split; [exact Hb|]. split; [tauto|]. intros i _. cbn [elem]. rewrite plus_0_l. reflexivity.
Qed.
End Arrays.

(** ** C239 The total is the sum over the detectors, element by element for the arrays; an array is missing only if no detector has one *)
Definition fitting (n m : nat) (s : snrs) : Prop := sized n (d_array s) /\ sized m (o_array s).
Lemma total_from n m dets : Forall (fitting n m) dets -> forall t0, fitting n m t0 ->
  exists t, fold_left (fun t o => match t with Some t => iadd t o | None => None end) dets (Some t0) = Some t /\ fitting n m t /\
  d_inner_h t = Cplus (d_inner_h t0) (csum (map d_inner_h dets)) /\ optimal_snr_squared t = optimal_snr_squared t0 + rsum (map optimal_snr_squared dets) /\
  matched_filter t = Cplus (matched_filter t0) (csum (map matched_filter dets)) /\
  (d_array t = None <-> d_array t0 = None /\ forall o, In o dets -> d_array o = None) /\ (o_array t = None <-> o_array t0 = None /\ forall o, In o dets -> o_array o = None) /\
  (forall i, (i < n)%nat -> elem (RtoC 0) (d_array t) i = Cplus (elem (RtoC 0) (d_array t0) i) (csum (map (fun o => elem (RtoC 0) (d_array o) i) dets))) /\
  (forall i, (i < m)%nat -> elem 0 (o_array t) i = elem 0 (o_array t0) i + rsum (map (fun o => elem 0 (o_array o) i) dets)).
Proof.
  induction dets as [|o dets IH]; intros F t0 F0.
  - exists t0. cbn [fold_left map csum rsum fold_right]. split; [reflexivity|]. split; [exact F0|].
    assert (Z : forall z, Cplus z (RtoC 0) = z) by (intros z; apply Cplus_0_r).
    rewrite !Z, Rplus_0_r. do 3 (split; [reflexivity|]). split; [split; [intros H; split; [exact H | intros o []] | tauto]|]. split; [split; [intros H; split; [exact H | intros o []] | tauto]|].
    split; intros i _; [symmetry; apply Z | ring].
  - inversion F as [|? ? Fo Fd]; subst. destruct F0 as [F1 F2]. destruct Fo as [G1 G2].
    destruct (iadd_array_ok Cplus (RtoC 0) Cplus_0_l Cplus_0_r n _ _ F1 G1) as (da & E1 & S1 & N1 & V1).
    destruct (iadd_array_ok Rplus 0 Rplus_0_l Rplus_0_r m _ _ F2 G2) as (oa & E2 & S2 & N2 & V2).
    cbn [fold_left]. unfold iadd at 2. rewrite E1, E2.
    destruct (IH Fd _ (conj S1 S2 : fitting n m (Snrs (Cplus (d_inner_h t0) (d_inner_h o)) (optimal_snr_squared t0 + optimal_snr_squared o) (Cplus (matched_filter t0) (matched_filter o)) da oa))) as (t & E & Ft & A & B & D & A0 & B0 & A1 & B1).
    exists t. split; [exact E|]. split; [exact Ft|]. cbn [d_inner_h optimal_snr_squared matched_filter d_array o_array] in *. cbn [map csum rsum fold_right]. fold (csum (map d_inner_h dets)) (csum (map matched_filter dets)) (rsum (map optimal_snr_squared dets)).
    split; [rewrite A; symmetry; apply Cplus_assoc|]. split; [rewrite B; symmetry; symmetry; ring|]. split; [rewrite D; symmetry; apply Cplus_assoc|].
    split; [rewrite A0, N1; split; [intros [[P Q] R0]; split; [exact P | intros x [<-|Hx]; auto] | intros [P Q]; split; [split; [exact P | apply Q; left; reflexivity] | intros x Hx; apply Q; right; exact Hx]]|].
    split; [rewrite B0, N2; split; [intros [[P Q] R0]; split; [exact P | intros x [<-|Hx]; auto] | intros [P Q]; split; [split; [exact P | apply Q; left; reflexivity] | intros x Hx; apply Q; right; exact Hx]]|].
    split; intros i Hi.
    + rewrite A1, V1 by exact Hi. symmetry. apply Cplus_assoc.
    + rewrite B1, V2 by exact Hi. unfold rsum. ring.
Qed.
Theorem C239_total n m dets : Forall (fitting n m) dets ->
  exists t, total dets = Some t /\ d_inner_h t = csum (map d_inner_h dets) /\ optimal_snr_squared t = rsum (map optimal_snr_squared dets) /\ matched_filter t = csum (map matched_filter dets) /\
  (d_array t = None <-> forall o, In o dets -> d_array o = None) /\ (o_array t = None <-> forall o, In o dets -> o_array o = None) /\
  (forall a, d_array t = Some a -> length a = n /\ forall i, (i < n)%nat -> nth i a (RtoC 0) = csum (map (fun o => match d_array o with Some l => nth i l (RtoC 0) | None => RtoC 0 end) dets)) /\
  (forall a, o_array t = Some a -> length a = m /\ forall i, (i < m)%nat -> nth i a 0 = rsum (map (fun o => match o_array o with Some l => nth i l 0 | None => 0 end) dets)).
Proof.
  intros F. assert (F0 : fitting n m zero_snrs) by (split; intros l Q; discriminate Q).
  destruct (total_from n m dets F zero_snrs F0) as (t & E & [S1 S2] & A & B & D & A0 & B0 & A1 & B1). cbn [d_inner_h optimal_snr_squared matched_filter d_array o_array zero_snrs elem] in *.
  exists t. split; [exact E|]. rewrite Cplus_0_l in A, D. rewrite Rplus_0_l in B. split; [exact A|]. split; [exact B|]. split; [exact D|].
  split; [rewrite A0; tauto|]. split; [rewrite B0; tauto|]. split; intros a Ea.
  - split; [apply S1; exact Ea|]. intros i Hi. specialize (A1 i Hi). rewrite Ea, Cplus_0_l in A1. exact A1.
  - split; [apply S2; exact Ea|]. intros i Hi. specialize (B1 i Hi). rewrite Ea, Rplus_0_l in B1. exact B1.
Qed.
(** ** C239 The order of the detectors does not matter *)
Lemma csum_perm l l' : Permutation l l' -> csum l = csum l'.
Proof.
  induction 1 as [|x l l' _ IH|x y l|l1 l2 l3 _ IH1 _ IH2]; [reflexivity | | | congruence].
  - cbn. fold (csum l) (csum l'). rewrite IH. reflexivity.
  - cbn. fold (csum l). rewrite !Cplus_assoc. rewrite (Cplus_comm y x). reflexivity.
Qed.
Lemma rsum_perm l l' : Permutation l l' -> rsum l = rsum l'.
Proof. induction 1 as [|x l l' _ IH|x y l|l1 l2 l3 _ IH1 _ IH2]; [reflexivity | | | congruence]; cbn; [fold (rsum l) (rsum l'); rewrite IH; reflexivity | ring]. Qed.
Theorem C239_order n m dets dets' : Forall (fitting n m) dets -> Permutation dets dets' -> exists t, total dets = Some t /\ total dets' = Some t.
Proof.
  intros F P. assert (F' : Forall (fitting n m) dets') by (rewrite Forall_forall in *; intros x Hx; apply F; apply (Permutation_in _ (Permutation_sym P) Hx)).
  destruct (C239_total n m dets F) as (t & E & A & B & D & A0 & B0 & A1 & B1). destruct (C239_total n m dets' F') as (t' & E' & A' & B' & D' & A0' & B0' & A1' & B1').
  exists t. split; [exact E|]. rewrite E'. apply f_equal. symmetry.
  assert (I : forall o, In o dets <-> In o dets') by (intros o; split; intros H; [apply (Permutation_in _ P H) | apply (Permutation_in _ (Permutation_sym P) H)]).
  destruct t as [a b d da oa]. destruct t' as [a' b' d' da' oa']. cbn [d_inner_h optimal_snr_squared matched_filter d_array o_array] in *.
  assert (Q1 : a = a') by (rewrite A, A'; apply csum_perm, Permutation_map, P).
  assert (Q2 : b = b') by (rewrite B, B'; apply rsum_perm, Permutation_map, P).
  assert (Q3 : d = d') by (rewrite D, D'; apply csum_perm, Permutation_map, P).
  assert (Q4 : da = da').
  { destruct da as [l|]; destruct da' as [l'|]; [| | |reflexivity].
    - destruct (A1 _ eq_refl) as [L V]. destruct (A1' _ eq_refl) as [L' V']. apply f_equal. apply (nth_ext _ _ (RtoC 0) (RtoC 0)); [congruence|]. intros i Hi. rewrite L in Hi. rewrite V, V' by exact Hi. apply csum_perm, Permutation_map, P.
    - exfalso. assert (X : Some l = None); [|discriminate X]. apply A0. intros o Ho. apply (proj1 A0' eq_refl). apply I. exact Ho.
    - exfalso. assert (X : Some l' = None); [|discriminate X]. apply A0'. intros o Ho. apply (proj1 A0 eq_refl). apply I. exact Ho. }
  assert (Q5 : oa = oa').
  { destruct oa as [l|]; destruct oa' as [l'|]; [| | |reflexivity].
    - destruct (B1 _ eq_refl) as [L V]. destruct (B1' _ eq_refl) as [L' V']. apply f_equal. apply (nth_ext _ _ 0 0); [congruence|]. intros i Hi. rewrite L in Hi. rewrite V, V' by exact Hi. apply rsum_perm, Permutation_map, P.
    - exfalso. assert (X : Some l = None); [|discriminate X]. apply B0. intros o Ho. apply (proj1 B0' eq_refl). apply I. exact Ho.
    - exfalso. assert (X : Some l' = None); [|discriminate X]. apply B0'. intros o Ho. apply (proj1 B0 eq_refl). apply I. exact Ho. }
  rewrite Q1, Q2, Q3, Q4, Q5. reflexivity.
Qed.
(** arrays of different lengths above one are refused *)
Theorem C239_lengths a b l l' : d_array a = Some l -> d_array b = Some l' -> (2 <= length l)%nat -> (2 <= length l')%nat -> length l <> length l' -> iadd a b = None.
Proof.
  intros E E' L L' N. unfold iadd. rewrite E, E'. cbn [iadd_array]. unfold array_add. destruct (Nat.eqb_spec (length l) (length l')) as [Q|_]; [contradiction|].
  destruct l as [|x [|y l]]; cbn in L; try lia. destruct l' as [|x' [|y' l']]; cbn in L'; try lia. reflexivity.
Qed.

(** ** C239 From the columns matched_filter_snr and optimal_snr of the detectors: the log likelihood ratio, and the network's optimal SNR *)
Definition from_snrs (p : C * R) : R := snd p * fst (fst p) - snd p ^ 2 / 2.
Theorem C239_likelihood prods dets n m : Forall (fitting n m) dets -> Forall2 (fun p s => of_detector (fst p) (snd p) (d_array s) (o_array s) = Some s) prods dets ->
  exists t, total dets = Some t /\ log_likelihood_ratio t = rsum (map (fun s => from_snrs (snrs_as_sample s)) dets) /\
    snd (snrs_as_sample t) ^ 2 = rsum (map (fun s => snd (snrs_as_sample s) ^ 2) dets) /\
    d_inner_h t = csum (map fst prods) /\ optimal_snr_squared t = rsum (map snd prods).
Proof.
  intros F H. destruct (C239_total n m dets F) as (t & E & A & B & _). exists t. split; [exact E|].
  assert (O : Forall2 (fun p s => 0 < snd p /\ d_inner_h s = fst p /\ optimal_snr_squared s = snd p /\ matched_filter s = Cdiv (fst p) (RtoC (sqrt (snd p)))) prods dets).
  { clear - H. induction H as [|p s ps ss Hp _ IH]; constructor; [|exact IH]. unfold of_detector in Hp. destruct (Rlt_dec 0 (snd p)) as [P|]; [|discriminate Hp]. injection Hp as Hp. rewrite <- Hp. cbn. auto. }
  unfold log_likelihood_ratio, snrs_as_sample. rewrite A, B. cbn [fst snd]. clear E A B F H t.
  assert (Pos : 0 <= rsum (map optimal_snr_squared dets)).
  { induction O as [|p s ps ss (P & _ & Q & _) _ IH]; cbn; [lra|]. fold (rsum (map optimal_snr_squared ss)). lra. }
  rewrite pow2_sqrt by exact Pos. clear Pos.
  induction O as [|p s ps ss (P & Q1 & Q2 & Q3) _ IH]; [cbn; repeat split; lra|].
  destruct IH as (I1 & I2 & I3 & I4). cbn [map csum rsum fold_right]. fold (csum (map d_inner_h ss)) (rsum (map optimal_snr_squared ss)) (csum (map fst ps)) (rsum (map snd ps)).
  fold (rsum (map (fun s0 => sqrt (optimal_snr_squared s0) ^ 2) ss)). fold (rsum (map (fun s0 => from_snrs (matched_filter s0, sqrt (optimal_snr_squared s0))) ss)).
  assert (SQ : sqrt (snd p) * sqrt (snd p) = snd p) by (apply sqrt_sqrt; lra). assert (SP : 0 < sqrt (snd p)) by (apply sqrt_lt_R0; exact P).
  repeat match goal with |- _ /\ _ => split end.
  - rewrite <- I1. unfold from_snrs. cbn [fst snd]. rewrite Q1, Q2, Q3. unfold Cdiv, Cinv, Cmult, Cplus, RtoC. cbn [fst snd].
    rewrite pow2_sqrt by lra. set (r := sqrt (snd p)) in *. replace (r * (fst (fst p) * (r / (snd p + 0 ^ 2)) - snd (fst p) * (- 0 / (snd p + 0 ^ 2)))) with (fst (fst p)); [lra|].
    transitivity (fst (fst p) * (r * r) / snd p); [rewrite SQ; field; lra | field; lra].
  - rewrite <- I2, Q2, pow2_sqrt by lra. reflexivity.
  - rewrite I3, Q1. reflexivity.
  - rewrite I4, Q2. reflexivity.
Qed.
(** ** C239 The summed matched_filter_snr is that of the network for one detector, not for two *)
Theorem C239_network_refuted : (forall dh hh da oa s t, of_detector dh hh da oa = Some s -> total [s] = Some t -> fst (snrs_as_sample t) = Cdiv (d_inner_h t) (RtoC (sqrt (optimal_snr_squared t)))) /\
  exists a b t, of_detector (RtoC 1) 1 None None = Some a /\ of_detector (RtoC 4) 4 None None = Some b /\ total [a; b] = Some t /\ fst (snrs_as_sample t) <> Cdiv (d_inner_h t) (RtoC (sqrt (optimal_snr_squared t))).
Proof.
  split.
  - intros dh hh da oa s t H. unfold of_detector in H. destruct (Rlt_dec 0 hh) as [P|]; [|discriminate H]. injection H as <-. unfold total, iadd. cbn [fold_left zero_snrs d_array o_array iadd_array d_inner_h optimal_snr_squared matched_filter].
    intros H. injection H as <-. unfold snrs_as_sample. cbn [fst d_inner_h optimal_snr_squared matched_filter]. rewrite !Cplus_0_l, Rplus_0_l. reflexivity.
  - unfold of_detector. destruct (Rlt_dec 0 1) as [_|]; [|lra]. destruct (Rlt_dec 0 4) as [_|]; [|lra]. do 3 eexists. split; [reflexivity|]. split; [reflexivity|]. split; [reflexivity|].
    unfold snrs_as_sample. cbn [fst d_inner_h optimal_snr_squared matched_filter zero_snrs]. intros Q. apply (f_equal fst) in Q. unfold Cdiv, Cinv, Cmult, Cplus, RtoC in Q. cbn [fst snd] in Q.
    assert (S1 : sqrt 1 = 1) by apply sqrt_1. assert (S4 : sqrt 4 = 2) by (replace 4 with (2 * 2) by lra; apply sqrt_square; lra).
    rewrite S1, S4 in Q. replace (0 + 1 + 4) with 5 in Q by lra. assert (S5 : sqrt 5 * sqrt 5 = 5) by (apply sqrt_sqrt; lra). assert (P5 : 0 < sqrt 5) by (apply sqrt_lt_R0; lra).
    assert (Q' : 3 = 5 / sqrt 5).
    { transitivity (0 + (1 * (1 / (1 ^ 2 + 0 ^ 2)) - 0 * (- 0 / (1 ^ 2 + 0 ^ 2))) + (4 * (2 / (2 ^ 2 + 0 ^ 2)) - 0 * (- 0 / (2 ^ 2 + 0 ^ 2)))); [field|]. rewrite Q. field. nra. }
    assert (3 * sqrt 5 = 5) by (rewrite Q' at 1; field; lra). nra.
Qed.
Example C239_example : let one := Snrs (RtoC 1) 4 (RtoC (1 / 2)) (Some [RtoC 1; RtoC 2]) None in let two := Snrs (RtoC 3) 9 (RtoC 1) None (Some [5]) in
  exists t, total [one; two; one] = Some t /\ optimal_snr_squared t = 17 /\ o_array t = Some [5] /\ log_likelihood_ratio t = - 7 / 2 /\ option_map (map fst) (d_array t) = Some [2; 4] /\ iadd one (Snrs (RtoC 0) 0 (RtoC 0) (Some [RtoC 0; RtoC 0; RtoC 0]) None) = None.
Proof.
  cbv zeta. eexists. split; [reflexivity|]. unfold log_likelihood_ratio. cbn [optimal_snr_squared o_array d_array d_inner_h zero_snrs]. repeat match goal with |- _ /\ _ => split end; try reflexivity.
  - lra.
  - unfold Cplus, RtoC. cbn [fst snd]. lra.
  - cbn [map combine option_map fst snd]. unfold Cplus, RtoC. cbn [fst snd]. apply f_equal. apply (f_equal2 cons); [lra|]. apply (f_equal2 cons); [lra | reflexivity].
Qed.

(** ** Assumptions of every theorem above *)
Definition SnrSum_Props_all :=
  (@C239_total,
   @C239_order,
   @C239_lengths,
   @C239_likelihood,
   @C239_network_refuted).
Print Assumptions SnrSum_Props_all.
