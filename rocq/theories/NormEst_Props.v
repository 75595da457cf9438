(** C242: the estimated factor of a constrained prior. *)
From Coq Require Import Reals ZArith List Bool Arith Lra Lia.
From Verif Require Import NormEst_Model.
Import ListNotations.
Open Scope R_scope. Open Scope list_scope.

Definition accepted (l : list bool) : nat := count_occ bool_dec l true.
Lemma count_accepted l : count l = accepted l.
Proof. unfold count, accepted. induction l as [|[] l IH]; cbn; [reflexivity| |exact IH]. rewrite IH. reflexivity. Qed.
Lemma accepted_le l : (accepted l <= length l)%nat.
Proof. unfold accepted. induction l as [|[] l IH]; cbn; lia. Qed.
Lemma accepted_app a b : accepted (a ++ b) = (accepted a + accepted b)%nat.
Proof. unfold accepted. apply count_occ_app. Qed.
(** the draws of the batches 1 to k *)
Definition from_second (batch : nat -> list bool) (k : nat) : list bool := concat (map batch (seq 1 k)).
Lemma from_second_S batch k : from_second batch (S k) = from_second batch k ++ batch (S k).
Proof. unfold from_second. rewrite seq_S, map_app, concat_app. cbn [map concat Nat.add]. now rewrite app_nil_r. Qed.
Lemma collect_spec batch min : forall fuel k keep r, collect batch fuel (S k) min (from_second batch k) keep = Some r ->
  (r = keep /\ (min <= accepted keep)%nat) \/
  ((accepted keep < min)%nat /\ exists n, (k < n)%nat /\ r = from_second batch n /\ (min <= accepted r)%nat /\ forall j, (k < j < n)%nat -> (accepted (from_second batch j) < min)%nat).
Proof.
  induction fuel as [|f IH]; intros k keep r E; cbn [collect] in E; rewrite count_accepted in E; destruct (Nat.leb_spec min (accepted keep)) as [L|L].
  - injection E as <-. left. split; [reflexivity | exact L].
  - discriminate.
  - injection E as <-. left. split; [reflexivity | exact L].
  - right. split; [exact L|]. rewrite <- from_second_S in E. apply IH in E as [[-> M] | [M (n & N1 & N2 & N3 & N4)]].
    + exists (S k). repeat split; [lia | exact M |]. intros j J. lia.
    + exists n. repeat split; [lia | exact N2 | exact N3 |]. intros j J. destruct (Nat.eq_dec j (S k)) as [->|D]; [exact M | apply N4; lia].
Qed.
(** ** C242 An estimate is the number of draws over that of accepted ones, of the first batch if that has
    enough accepted ones; else of the batches after it, until there are enough *)
Theorem C242_value batch fuel min x : (1 <= min)%nat -> length (batch 0%nat) <> 1%nat -> estimate true batch fuel min = Some x ->
  exists used, x = INR (length used) / INR (accepted used) /\ (min <= accepted used)%nat /\ 1 <= x /\
  ((used = batch 0%nat) \/
   ((accepted (batch 0%nat) < min)%nat /\ exists n, (0 < n)%nat /\ used = from_second batch n /\ forall j, (0 < j < n)%nat -> (accepted (from_second batch j) < min)%nat)).
Proof.
  intros M L E. unfold estimate in E. apply Nat.eqb_neq in L. rewrite L in E. destruct (collect batch fuel 1 min [] (batch 0%nat)) as [r|] eqn:EC; [|discriminate].
  injection E as <-. rewrite count_accepted. pose proof (collect_spec batch min fuel 0 (batch 0%nat) r EC) as H. exists r. split; [reflexivity|].
  assert (A : (min <= accepted r)%nat) by (destruct H as [[-> H] | [_ (n & _ & _ & H & _)]]; exact H). split; [exact A|]. split.
  - assert (0 < INR (accepted r)) by (apply lt_0_INR; lia). pose proof (le_INR _ _ (accepted_le r)) as W. apply Rmult_le_reg_r with (INR (accepted r)); [assumption|]. unfold Rdiv. rewrite Rmult_assoc, Rinv_l by lra. lra.
  - destruct H as [[-> _] | [B (n & N1 & N2 & _ & N4)]]; [left; reflexivity | right]. split; [exact B|]. exists n. repeat split; [exact N1 | exact N2 | exact N4].
Qed.
(** ** C242 It ends as soon as there are enough accepted draws, and never if none is ever accepted *)
Lemma collect_enough batch min : forall n k fuel keep, (n <= fuel)%nat -> (min <= accepted (from_second batch (k + n)))%nat -> (n = 0%nat -> (min <= accepted keep)%nat) -> exists r, collect batch fuel (S k) min (from_second batch k) keep = Some r.
Proof.
  induction n as [|n IH]; intros k fuel keep F A K.
  - specialize (K eq_refl). rewrite <- count_accepted in K. apply Nat.leb_le in K. destruct fuel; cbn [collect]; rewrite K; eexists; reflexivity.
  - destruct fuel as [|f]; [lia|]. cbn [collect]. destruct (min <=? count keep)%nat; [eexists; reflexivity|]. rewrite <- from_second_S. apply IH; [lia | now replace (S k + n)%nat with (k + S n)%nat by lia |].
    intros ->. now replace (k + 1)%nat with (S k) in A by lia.
Qed.
Theorem C242_ends batch min n fuel : (n <= fuel)%nat -> (0 < n)%nat -> (min <= accepted (from_second batch n))%nat -> exists x, estimate true batch fuel min = Some x.
Proof.
  intros F N A. unfold estimate. destruct (length (batch 0%nat) =? 1)%nat; [eexists; reflexivity|].
  destruct (collect_enough batch min n 0 fuel (batch 0%nat) F A ltac:(lia)) as [r E]. change (from_second batch 0) with (@nil bool) in E. rewrite E. eexists. reflexivity.
Qed.
Theorem C242_never batch min fuel : (1 <= min)%nat -> length (batch 0%nat) <> 1%nat -> (forall k, accepted (batch k) = 0%nat) -> estimate true batch fuel min = None.
Proof.
  intros M L Z. destruct (estimate true batch fuel min) as [x|] eqn:E; [|reflexivity]. destruct (C242_value batch fuel min x M L E) as (u & _ & A & _ & H).
  assert (N : forall n, accepted (from_second batch n) = 0%nat) by (induction n as [|n IH]; [reflexivity | rewrite from_second_S, accepted_app, IH, Z; reflexivity]).
  destruct H as [-> | [_ (n & _ & -> & _)]]; [rewrite Z in A | rewrite N in A]; lia.
Qed.
(** ** C242 A first batch with too few accepted draws is thrown away *)
Theorem C242_first_dropped b1 b2 min fuel : (forall k, (0 < k)%nat -> b1 k = b2 k) -> length (b1 0%nat) <> 1%nat -> length (b2 0%nat) <> 1%nat -> (accepted (b1 0%nat) < min)%nat -> (accepted (b2 0%nat) < min)%nat ->
  estimate true b1 fuel min = estimate true b2 fuel min.
Proof.
  intros H L1 L2 A1 A2. unfold estimate. apply Nat.eqb_neq in L1, L2. rewrite L1, L2.
  assert (G : forall f i all keep, (0 < i)%nat -> collect b1 f i min all keep = collect b2 f i min all keep).
  { induction f as [|f IH]; intros i all keep I; cbn [collect]; [reflexivity|]. destruct (min <=? count keep)%nat; [reflexivity|]. rewrite (H i I). apply IH. lia. }
  assert (E : collect b1 fuel 1 min [] (b1 0%nat) = collect b2 fuel 1 min [] (b2 0%nat)); [|rewrite E; reflexivity].
  rewrite G by lia. rewrite <- count_accepted in A1, A2. apply Nat.leb_gt in A1, A2. destruct fuel; cbn [collect]; rewrite A1, A2; reflexivity.
Qed.
(** ** C242 The factor is 1 without constraints - and with them if the draws are made one at a time *)
Theorem C242_unconstrained batch fuel min : estimate false batch fuel min = Some 1.
Proof. reflexivity. Qed.
Theorem C242_one_draw_refuted batch fuel min : length (batch 0%nat) = 1%nat -> estimate true batch fuel min = Some 1.
Proof. intros L. unfold estimate. rewrite L. reflexivity. Qed.

(** ** Rounding *)
Lemma pow_ten s : 0 < s -> powerRZ 10 (Int_part (ln s / ln 10)) <= s.
Proof.
  intros H. rewrite powerRZ_Rpower by lra. unfold Rpower. rewrite <- (exp_ln s H) at 2. assert (P : 0 < ln 10) by (rewrite <- ln_1; apply ln_increasing; lra).
  destruct (base_Int_part (ln s / ln 10)) as [B _]. assert (V : IZR (Int_part (ln s / ln 10)) * ln 10 <= ln s).
  { apply Rmult_le_compat_r with (r := ln 10) in B; [|lra]. unfold Rdiv in B at 2. rewrite Rmult_assoc, Rinv_l in B by lra. lra. }
  destruct V as [V|V]; [left; apply exp_increasing, V | right; now rewrite V].
Qed.
Section Round.
Variable round_to : R -> Z -> R.
(** np.round: a multiple of the last digit, at most half of it away *)
Hypothesis rounds : forall x d, (exists z, round_to x d = IZR z * powerRZ 10 (- d)) /\ Rabs (round_to x d - x) <= powerRZ 10 (- d) / 2.
(** ** C242 Rounding moves the mean by at most one and a half standard deviations, and not at all if the estimates agree *)
Theorem C242_rounded l : Rabs (factor round_to l - mean l) <= 3 / 2 * std l.
Proof.
  unfold factor. destruct (Rlt_dec 0 (std l)) as [P|P].
  - destruct (rounds (mean l) (decimals (std l))) as [_ B]. eapply Rle_trans; [exact B|]. unfold decimals. rewrite Z.opp_involutive.
    pose proof (pow_ten (3 * std l) ltac:(lra)). lra.
  - replace (mean l - mean l) with 0 by ring. rewrite Rabs_R0. pose proof (sqrt_pos (mean (map (fun x => (x - mean l) * (x - mean l)) l))). unfold std. lra.
Qed.
Theorem C242_agree x n : (0 < n)%nat -> factor round_to (repeat x n) = x.
Proof.
  intros N. assert (S0 : forall (y : R) k, fold_right Rplus 0 (repeat y k) = INR k * y).
  { intros y. induction k as [|k IH]; [cbn; ring|]. cbn [repeat fold_right]. rewrite IH, S_INR. ring. }
  assert (M : forall y, mean (repeat y n) = y). { intros y. unfold mean. rewrite S0, repeat_length. field. apply not_0_INR. lia. }
  assert (T : std (repeat x n) = 0).
  { unfold std. rewrite M. assert (Q : map (fun z => (z - x) * (z - x)) (repeat x n) = repeat 0 n) by (clear; induction n as [|k IH]; [reflexivity|]; cbn [repeat map]; rewrite IH; f_equal; ring). rewrite Q, M. apply sqrt_0. }
  unfold factor. rewrite T. destruct (Rlt_dec 0 0) as [C|_]; [lra | apply M].
Qed.
(** ** C242 The factor may come out as zero: nine estimates 1 and one of 113 have mean 12.2, scatter 33.6 *)
Theorem C242_zero_refuted : factor round_to (repeat 1 9 ++ [113]) = 0.
Proof.
  set (l := repeat 1 9 ++ [113]). assert (M : mean l = 122 / 10) by (unfold mean, l; cbn; field).
  assert (T : std l = 336 / 10).
  { unfold std. rewrite M. assert (Q : mean (map (fun x => (x - 122 / 10) * (x - 122 / 10)) l) = (336 / 10) * (336 / 10)) by (unfold mean, l; cbn; field). rewrite Q. apply sqrt_square. lra. }
  assert (D : decimals (std l) = (-2)%Z).
  { unfold decimals. rewrite T. assert (P : 0 < ln 10) by (rewrite <- ln_1; apply ln_increasing; lra).
    assert (L2 : ln 100 = 2 * ln 10) by (replace 100 with (10 * 10) by ring; rewrite ln_mult by lra; ring).
    assert (L3 : ln 1000 = 3 * ln 10) by (replace 1000 with (100 * 10) by ring; rewrite ln_mult, L2 by lra; ring).
    assert (I : Int_part (ln (3 * (336 / 10)) / ln 10) = 2%Z).
    { unfold Int_part. assert (U1 : ln 100 < ln (3 * (336 / 10))) by (apply ln_increasing; lra). assert (U2 : ln (3 * (336 / 10)) < ln 1000) by (apply ln_increasing; lra).
      rewrite L2 in U1. rewrite L3 in U2. set (y := ln (3 * (336 / 10))) in *. assert (Y : y / ln 10 * ln 10 = y) by (field; lra).
      rewrite <- (tech_up (y / ln 10) 3); [reflexivity | |]; nra. }
    rewrite I. reflexivity. }
  unfold factor. destruct (Rlt_dec 0 (std l)) as [_|C]; [|rewrite T in C; lra]. rewrite D, M. destruct (rounds (122 / 10) (-2)) as [[z E] B]. rewrite E in B |- *. clear E.
  change (powerRZ 10 (- -2)) with (10 ^ 2) in B |- *. assert (Z0 : z = 0%Z).
  { assert ((z < 1)%Z /\ (-1 < z)%Z); [|lia]. unfold Rabs in B. destruct (Rcase_abs _) in B; split; apply lt_IZR; lra. }
  rewrite Z0. ring.
Qed.
End Round.
(** 1 of 2 draws accepted is too few for 2; the next two batches of 2 have 1 and 2 accepted: 4 / 3. *)
Example C242_example : estimate true (fun k => match k with O => [true; false] | 1%nat => [false; true] | _ => [true; true] end) 5 2 = Some (4 / 3).
Proof. unfold estimate. cbn. f_equal. field. Qed.

(** ** Assumptions of every theorem above *)
Definition NormEst_Props_all :=
  (@C242_value,
   @C242_ends,
   @C242_never,
   @C242_first_dropped,
   @C242_unconstrained,
   @C242_one_draw_refuted,
   @C242_rounded,
   @C242_agree,
   @C242_zero_refuted).
Print Assumptions NormEst_Props_all.
