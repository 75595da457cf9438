(** * Burn-in (C201), autocorrelation time and number of samples (C202) of a chain *)
From Coq Require Import Reals Lra Lia List Bool ZArith Arith.
From Verif Require Import Mband_Model Ensemble_Model Ensemble2_Props Ifo_Model Samples_Model Result_Proofs Tau_Model.
Import ListNotations.
Open Scope list_scope.
Open Scope R_scope.

Section Books.
Variable act : list R -> option R.
Variable st : settings.
Hypothesis discard_nonneg : (0 <= discard st)%Z.

(** ** C201 *)
Lemma trunc_ge_int x z : (0 <= z)%Z -> IZR z <= x -> (z <= trunc x)%Z.
Proof using Type.
  intros Z0 H. assert (0 <= x) by (apply IZR_le in Z0; lra). rewrite trunc_nonneg by assumption. pose proof (zfloor_bounds x). assert (z < zfloor x + 1)%Z by (apply lt_IZR; rewrite plus_IZR; lra). lia.
Qed.
(** The index is the whole part of the largest of its sources. *)
Theorem C201_sources b m b' : minimum_index act st b = (m, b') -> pos b <> fst (last_min b) -> (discard st <= Z.of_nat (pos b))%Z -> (0 <= by_proposal b)%Z -> (0 <= by_adapt b)%Z ->
  (discard st <= m)%Z /\ (by_proposal b <= m)%Z /\ (by_adapt b <= m)%Z /\ (forall i, z_index st (lpost b) = Some i -> (Z.of_nat i <= m)%Z) /\
  (forall t, burn_tau act st b = Some t -> burn_in st * t < IZR m + 1) /\
  (exists x, IZR m <= x < IZR m + 1 /\ (x = IZR (discard st) \/ x = IZR (by_proposal b) \/ x = IZR (by_adapt b) \/ (exists i, z_index st (lpost b) = Some i /\ x = INR i) \/ (exists t, burn_tau act st b = Some t /\ x = burn_in st * t))) /\
  minimum_index act st b' = (m, b').
Proof using discard_nonneg.
  intros H NP GE P0 A0. unfold minimum_index in H. destruct (pos b =? fst (last_min b))%nat eqn:E; [apply Nat.eqb_eq in E; contradiction|]. destruct (Z.of_nat (pos b) <? discard st)%Z eqn:E2; [apply Z.ltb_lt in E2; lia|].
  assert (Hm : m = trunc (rmax_list (sources act st b))) by congruence. assert (Hb : b' = mkBook (pos b) (columns b) (lpost b) (pos b, m) (by_proposal b) (by_adapt b) (taus b) (cached b)) by congruence. clear H.
  assert (G : forall x, In x (sources act st b) -> x <= rmax_list (sources act st b)) by (intros; now apply rmax_ge).
  assert (I1 : In (IZR (discard st)) (sources act st b)) by (left; reflexivity).
  assert (I2 : In (IZR (by_proposal b)) (sources act st b)) by (right; rewrite !in_app_iff; right; right; left; reflexivity).
  assert (I3 : In (IZR (by_adapt b)) (sources act st b)) by (right; rewrite !in_app_iff; right; right; right; left; reflexivity).
  assert (I4 : forall i, z_index st (lpost b) = Some i -> In (INR i) (sources act st b)) by (intros i Hi; right; rewrite !in_app_iff; right; left; rewrite Hi; left; reflexivity).
  assert (I5 : forall t, burn_tau act st b = Some t -> In (burn_in st * t) (sources act st b)) by (intros t Ht; right; rewrite !in_app_iff; left; rewrite Ht; left; reflexivity).
  assert (M0 : 0 <= rmax_list (sources act st b)) by (pose proof (G _ I1); apply IZR_le in discard_nonneg; lra).
  split; [rewrite Hm; apply trunc_ge_int; [assumption|now apply G]|]. split; [rewrite Hm; apply trunc_ge_int; [assumption|now apply G]|]. split; [rewrite Hm; apply trunc_ge_int; [assumption|now apply G]|].
  split; [intros i Hi; rewrite Hm; apply trunc_ge_int; [lia|rewrite <- INR_IZR_INZ; apply G, I4, Hi]|].
  rewrite trunc_nonneg in Hm by exact M0. pose proof (zfloor_bounds (rmax_list (sources act st b))) as B. rewrite <- Hm in B.
  split; [intros t Ht; pose proof (G _ (I5 t Ht)); lra|]. split.
  - exists (rmax_list (sources act st b)). split; [lra|]. pose proof (rmax_in (sources act st b) ltac:(discriminate)) as I. unfold sources in I at 2. destruct I as [I|I]; [left; symmetry; exact I|]. rewrite !in_app_iff in I. destruct I as [I|[I|I]].
    + destruct (burn_tau act st b) as [t|]; [|destruct I]. destruct I as [I|[]]. do 4 right. exists t. split; [reflexivity|symmetry; exact I].
    + destruct (z_index st (lpost b)) as [i|]; [|destruct I]. destruct I as [I|[]]. do 3 right. left. exists i. split; [reflexivity|symmetry; exact I].
    + destruct I as [I|[I|[]]]; [right; left|right; right; left]; symmetry; exact I.
  - rewrite Hb. unfold minimum_index. cbn [pos last_min fst snd]. rewrite Nat.eqb_refl. reflexivity.
Qed.
(** *** the invariant of all histories *)
Definition sound (b : book) : Prop :=
  (fst (last_min b) <= pos b)%nat /\ (fst (last_min b) = 0%nat -> snd (last_min b) = 0%Z) /\ (fst (last_min b) <> 0%nat -> (discard st <= snd (last_min b))%Z) /\
  (0 <= by_proposal b)%Z /\ (0 <= by_adapt b)%Z /\ (cached b <= 50)%nat.
(** what reading a property leaves alone *)
Definition same_data (b b' : book) : Prop := pos b' = pos b /\ columns b' = columns b /\ lpost b' = lpost b /\ by_proposal b' = by_proposal b /\ by_adapt b' = by_adapt b.
Lemma same_refl b : same_data b b.
Proof using Type. repeat split. Qed.
Lemma same_trans a b c : same_data a b -> same_data b c -> same_data a c.
Proof using Type. unfold same_data. intuition congruence. Qed.
Lemma min_shape b : exists m lm, minimum_index act st b = (m, mkBook (pos b) (columns b) (lpost b) lm (by_proposal b) (by_adapt b) (taus b) (cached b)).
Proof using Type.
  unfold minimum_index. destruct (pos b =? fst (last_min b))%nat eqn:E; [exists (snd (last_min b)), (last_min b); destruct b; reflexivity|].
  destruct (Z.of_nat (pos b) <? discard st)%Z eqn:E2; [exists (discard st), (last_min b); destruct b; reflexivity|]. eexists _, _. reflexivity.
Qed.
Lemma min_sound b m b' : sound b -> minimum_index act st b = (m, b') ->
  sound b' /\ same_data b b' /\ taus b' = taus b /\ cached b' = cached b /\ (pos b = 0%nat -> m = 0%Z /\ b' = b) /\ (pos b <> 0%nat -> (discard st <= m)%Z) /\ minimum_index act st b' = (m, b').
Proof using discard_nonneg.
  intros (S0 & S1 & S2 & S3 & S4 & S5) EM. pose proof EM as EM'. unfold minimum_index in EM'. destruct (pos b =? fst (last_min b))%nat eqn:E.
  - assert (m = snd (last_min b)) by congruence. assert (b' = b) by congruence. subst. apply Nat.eqb_eq in E. repeat split; try assumption; try reflexivity; [now rewrite S1 by congruence|intros; apply S2; congruence].
  - destruct (Z.of_nat (pos b) <? discard st)%Z eqn:E2.
    + assert (m = discard st) by congruence. assert (b' = b) by congruence. subst. repeat split; try assumption; try reflexivity; try lia. apply Nat.eqb_neq in E. lia.
    + apply Nat.eqb_neq in E. apply Z.ltb_ge in E2. pose proof (C201_sources b m b' EM E E2 S3 S4) as (D & _ & _ & _ & _ & _ & Again).
      assert (HB : b' = mkBook (pos b) (columns b) (lpost b) (pos b, m) (by_proposal b) (by_adapt b) (taus b) (cached b)) by congruence. rewrite HB in *. clear HB EM'.
      repeat split; cbn; try assumption; try reflexivity; try lia.
Qed.
Lemma nocache_sound b t b' : sound b -> tau_nocache act st b = (t, b') -> sound b' /\ same_data b b' /\ look (pos b) (taus b') = Some t /\ cached b' = 0%nat.
Proof using discard_nonneg.
  intros S H. unfold tau_nocache in H. destruct (minimum_index act st b) as [m b1] eqn:EM. destruct (min_sound b m b1 S EM) as (Hs & D & _ & _ & _ & _ & _).
  assert (Ht : t = calc_tau act st b1 m) by congruence. assert (HB : b' = mkBook (pos b1) (columns b1) (lpost b1) (last_min b1) (by_proposal b1) (by_adapt b1) (put (pos b1) t (taus b1)) 0) by congruence. rewrite HB. clear H HB.
  destruct Hs as (S0 & S1 & S2 & S3 & S4 & S5). repeat split; cbn; try assumption; try lia; try (apply D).
  destruct D as (-> & _). clear. induction (taus b1) as [|[k v] l IH]; cbn; [now rewrite Nat.eqb_refl|]. destruct (pos b =? k)%nat eqn:E; cbn; [now rewrite Nat.eqb_refl|now rewrite E].
Qed.
Lemma set_sound b z : sound b -> sound (set_proposal b z) /\ sound (set_adapt b z).
Proof using Type. intros (S0 & S1 & S2 & S3 & S4 & S5). unfold set_proposal, set_adapt. split; [destruct (by_proposal b <? z)%Z eqn:E|destruct (by_adapt b <? z)%Z eqn:E]; repeat split; cbn; try assumption; apply Z.ltb_lt in E; lia. Qed.

(** ** C202: one evaluation of tau: known at this position, taken over (at most 50 times), or worked out and stored *)
Theorem C202_lookup b t b' : sound b -> tau act st b = (t, b') ->
  sound b' /\ same_data b b' /\
  ((look (pos b) (taus b) = Some t /\ b' = b) \/
   (look (pos b) (taus b) = None /\ t <> None /\ tau_last b = t /\ (cached b < 50)%nat /\ cached b' = S (cached b) /\ taus b' = taus b) \/
   (look (pos b) (taus b) = None /\ look (pos b) (taus b') = Some t /\ cached b' = 0%nat)).
Proof using discard_nonneg.
  intros S H. unfold tau in H. destruct (look (pos b) (taus b)) as [v|] eqn:EL.
  - assert (v = t) by congruence. assert (b' = b) by congruence. subst. split; [assumption|]. split; [apply same_refl|]. left. auto.
  - assert (NC : forall b0, sound b0 -> same_data b b0 -> tau_nocache act st b0 = (t, b') -> sound b' /\ same_data b b' /\ (None = Some t /\ b' = b \/ None = @None (option R) /\ t <> None /\ tau_last b = t /\ (cached b < 50)%nat /\ cached b' = Datatypes.S (cached b) /\ taus b' = taus b \/ None = @None (option R) /\ look (pos b) (taus b') = Some t /\ cached b' = 0%nat)).
    { intros b0 S0 D0 H0. destruct (nocache_sound b0 t b' S0 H0) as (A1 & A2 & A3 & A4). split; [assumption|]. split; [eapply same_trans; eassumption|]. right. right. destruct D0 as (<- & _). auto. }
    destruct (tau_last b) as [v|] eqn:TL; [|now apply (NC b); [|apply same_refl|]]. destruct (cached b <? 50)%nat eqn:EC; [|now apply (NC b); [|apply same_refl|]]. apply Nat.ltb_lt in EC.
    unfold nsamples_last in H. destruct (minimum_index act st b) as [m b1] eqn:EM. destruct (min_sound b m b1 S EM) as (Hs & D & T & C & _ & _ & _).
    destruct (50 <? _)%Z eqn:EN; [|now apply (NC b1)]. assert (t = Some v) by congruence. assert (HB : b' = mkBook (pos b1) (columns b1) (lpost b1) (last_min b1) (by_proposal b1) (by_adapt b1) (taus b1) (Datatypes.S (cached b1))) by congruence. subst t. rewrite HB. clear H HB.
    destruct Hs as (S0 & S1 & S2 & S3 & S4 & S5). split; [repeat split; cbn; try assumption; lia|]. split; [repeat split; cbn; apply D|]. right. left. cbn. repeat split; try assumption; try lia; try congruence.
Qed.
Lemma tau_sound b : sound b -> sound (snd (tau act st b)) /\ same_data b (snd (tau act st b)).
Proof using discard_nonneg. intros S. destruct (tau act st b) as [t b'] eqn:E. destruct (C202_lookup b t b' S E) as (A & B & _). auto. Qed.
Lemma thin_sound b k b' : sound b -> thin act st b = (k, b') -> sound b' /\ same_data b b'.
Proof using discard_nonneg.
  intros S H. unfold thin in H. destruct (tau act st b) as [t b1] eqn:E1. destruct (C202_lookup b t b1 S E1) as (A & B & _). destruct t as [t|]; [|assert (b' = b1) by congruence; subst; auto].
  destruct (tau act st b1) as [t2 b2] eqn:E2. destruct (C202_lookup b1 t2 b2 A E2) as (A2 & B2 & _). assert (b' = b2) by (destruct t2; congruence). subst. split; [assumption|eapply same_trans; eassumption].
Qed.
Lemma step_sound b o : sound b -> sound (step act st b o).
Proof using discard_nonneg.
  intros S. destruct o as [r lp| | | | | | |z|z]; cbn [step].
  - destruct S as (S0 & S1 & S2 & S3 & S4 & S5). repeat split; cbn; try assumption. lia.
  - destruct (minimum_index act st b) as [m b'] eqn:E. apply (min_sound b m b' S E).
  - apply tau_sound, S.
  - destruct (tau_nocache act st b) as [m b'] eqn:E. apply (nocache_sound b m b' S E).
  - destruct (thin act st b) as [m b'] eqn:E. apply (thin_sound b m b' S E).
  - unfold nsamples. destruct (minimum_index act st b) as [m b1] eqn:E. destruct (min_sound b m b1 S E) as (A & _). pose proof (tau_sound b1 A) as (T & _). destruct (tau act st b1) as [t b2]. exact T.
  - unfold samples. destruct (minimum_index act st b) as [m b1] eqn:E. destruct (min_sound b m b1 S E) as (A & _). destruct (thin act st b1) as [t b2] eqn:E2. apply (thin_sound b1 t b2 A E2).
  - apply set_sound, S.
  - apply set_sound, S.
Qed.
Lemma run_sound os : forall b, sound b -> sound (run act st b os).
Proof using discard_nonneg. induction os as [|o os IH]; intros b S; [exact S|]. apply IH, step_sound, S. Qed.
Lemma init_sound row lp : sound (init row lp).
Proof using Type. repeat split; cbn; try lia. Qed.
(** Whatever was done before, the burn-in covers the fixed discard once there is more than the first point, and reading it twice is reading it once. *)
Theorem C201_discard row lp os m b' : let b := run act st (init row lp) os in minimum_index act st b = (m, b') ->
  (pos b <> 0%nat -> (discard st <= m)%Z) /\ (pos b = 0%nat -> m = 0%Z) /\ minimum_index act st b' = (m, b') /\ same_data b b'.
Proof using discard_nonneg. intros b H. destruct (min_sound b m b' (run_sound os _ (init_sound row lp)) H) as (_ & D & _ & _ & P0 & P & A). repeat split; try assumption; try apply D. intros Z. now apply P0. Qed.
(** At the first point it is 0 whatever the discard. *)
Theorem C201_discard_refuted row lp : fst (minimum_index act st (init row lp)) = 0%Z.
Proof using Type. reflexivity. Qed.
(** The setters only raise: after any number of them the index is the largest value. *)
Theorem C201_setters zs b : by_proposal (fold_left set_proposal zs b) = fold_left Z.max zs (by_proposal b) /\ by_adapt (fold_left set_adapt zs b) = fold_left Z.max zs (by_adapt b) /\
  by_adapt (fold_left set_proposal zs b) = by_adapt b /\ by_proposal (fold_left set_adapt zs b) = by_proposal b.
Proof using Type.
  revert b. induction zs as [|z zs IH]; intros b; [cbn; auto|]. cbn [fold_left]. destruct (IH (set_proposal b z)) as (A & _ & C & _). destruct (IH (set_adapt b z)) as (_ & B & _ & D). rewrite A, B, C, D.
  unfold set_proposal, set_adapt. repeat split; [f_equal; destruct (by_proposal b <? z)%Z eqn:E; cbn; [apply Z.ltb_lt in E|apply Z.ltb_ge in E]; lia|f_equal; destruct (by_adapt b <? z)%Z eqn:E; cbn; [apply Z.ltb_lt in E|apply Z.ltb_ge in E]; lia|now destruct (_ <? _)%Z|now destruct (_ <? _)%Z].
Qed.
(** A raised index is not seen where the minimum has been read already; it is from the next point on. *)
Theorem C201_stale_refuted b z : fst (last_min b) = pos b ->
  fst (minimum_index act st (set_adapt b z)) = fst (minimum_index act st b) /\
  forall row lp, sound b -> (discard st <= Z.of_nat (S (pos b)))%Z -> (z <= fst (minimum_index act st (append (set_adapt b z) row lp)))%Z.
Proof using discard_nonneg.
  intros L. split; [unfold minimum_index, set_adapt; destruct (by_adapt b <? z)%Z; cbn [pos last_min]; rewrite L, Nat.eqb_refl; reflexivity|].
  intros row lp S D. pose proof (set_sound b z S) as (_ & (S0 & S1 & S2 & S3 & S4 & S5)). destruct (minimum_index act st (append (set_adapt b z) row lp)) as [m b'] eqn:E.
  assert (PE : pos (set_adapt b z) = pos b /\ last_min (set_adapt b z) = last_min b) by (unfold set_adapt; destruct (_ <? _)%Z; auto). destruct PE as [PE LE].
  destruct (C201_sources _ m b' E) as (_ & _ & A & _); cbn [append pos last_min by_proposal by_adapt]; rewrite ?PE, ?LE; try assumption; [lia|]. cbn [fst]. cbn [append by_adapt] in A.
  pose proof (C201_setters [z] b) as (_ & B & _). cbn [fold_left] in B. rewrite B in A. lia.
Qed.
(** The rule on the log posterior: the first point, from the hundredth on, where the mean of the hundred values up to it is within half the
    dimension of the largest value seen, and none before it; the index is one more. *)
Lemma window_length lp i : (99 <= i < length lp)%nat -> length (window_ending lp i) = 100%nat /\ forall k, (k < 100)%nat -> nth k (window_ending lp i) 0 = nth (i - 99 + k) lp 0.
Proof using Type.
  intros H. unfold window_ending. split; [rewrite firstn_length, skipn_length; lia|]. intros k Hk. rewrite <- (firstn_skipn 100 (skipn (i - 99) lp)) at 1.
  assert (E : nth k (firstn 100 (skipn (i - 99) lp) ++ skipn 100 (skipn (i - 99) lp)) 0 = nth k (firstn 100 (skipn (i - 99) lp)) 0) by (rewrite app_nth1; [reflexivity|rewrite firstn_length, skipn_length; lia]).
  rewrite firstn_skipn in *. rewrite <- E. rewrite <- (firstn_skipn (i - 99) lp) at 2. rewrite app_nth2; rewrite firstn_length; [f_equal; lia|lia].
Qed.
Lemma first_filter {A} (p : A -> bool) (l : list A) x r : filter p l = x :: r -> exists l1 l2, l = l1 ++ x :: l2 /\ p x = true /\ forall y, In y l1 -> p y = false.
Proof using Type.
  induction l as [|a l IH]; cbn; [discriminate|]. destruct (p a) eqn:E.
  - intros H. assert (a = x) by congruence. subst. exists [], l. repeat split; [assumption|intros y []].
  - intros H. destruct (IH H) as (l1 & l2 & -> & P & Q). exists (a :: l1), l2. repeat split; [assumption|]. intros y [<-|I]; auto.
Qed.
Definition settled (lp : list R) (i : nat) : Prop := exists w, length w = 100%nat /\ (forall k, (k < 100)%nat -> nth k w 0 = nth (i - 99 + k) lp 0) /\ rmax_list lp - fold_right Rplus 0 w / 100 < INR (dim st) / 2.
Lemma passes_settled lp i : (99 <= i < length lp)%nat -> (passes st lp i = true <-> settled lp i).
Proof using Type.
  intros H. destruct (window_length lp i H) as [L N]. assert (ML : mean (window_ending lp i) = fold_right Rplus 0 (window_ending lp i) / 100) by (unfold mean; rewrite L; f_equal; change 100%nat with (Z.to_nat 100); rewrite INR_IZR_INZ; f_equal; lia).
  unfold passes. rewrite ML. split.
  - destruct (Rlt_dec _ _) as [G|]; [|discriminate]. intros _. exists (window_ending lp i). auto.
  - intros (w & Lw & Nw & G). assert (w = window_ending lp i) by (apply (nth_ext _ _ 0 0); [congruence|intros k Hk; rewrite Lw in Hk; rewrite Nw, N by assumption; reflexivity]). subst w. destruct (Rlt_dec _ _); [reflexivity|contradiction].
Qed.
Theorem C201_settled lp : match z_index st lp with
  | Some j => (100 <= j <= length lp)%nat /\ settled lp (j - 1) /\ forall i, (99 <= i < j - 1)%nat -> ~ settled lp i
  | None => forall i, (99 <= i < length lp)%nat -> ~ settled lp i end.
Proof using Type.
  unfold z_index. destruct (filter (passes st lp) (seq 99 (length lp - 99))) as [|i r] eqn:E.
  - intros i Hi G. assert (I : In i (filter (passes st lp) (seq 99 (length lp - 99)))) by (apply filter_In; split; [apply in_seq; lia|apply passes_settled; assumption]). rewrite E in I. destruct I.
  - destruct (first_filter _ _ _ _ E) as (l1 & l2 & HS & P & Q). assert (Hi : In i (seq 99 (length lp - 99))) by (rewrite HS; apply in_or_app; right; left; reflexivity). apply in_seq in Hi.
    cbn [Nat.sub]. rewrite Nat.sub_0_r. split; [lia|]. split; [apply passes_settled; [lia|assumption]|]. intros k Hk G. assert (K : In k l1).
    { assert (Ks : In k (seq 99 (length lp - 99))) by (apply in_seq; lia). assert (L1 : length l1 = (i - 99)%nat).
      { assert (LL : (length l1 < length lp - 99)%nat) by (apply (f_equal (@length nat)) in HS; rewrite seq_length, app_length in HS; cbn in HS; lia).
        assert (NN : nth (length l1) (seq 99 (length lp - 99)) 0%nat = i) by (rewrite HS, app_nth2, Nat.sub_diag by lia; reflexivity). rewrite seq_nth in NN by assumption. lia. }
      assert (NK : nth (k - 99) (seq 99 (length lp - 99)) 0%nat = k) by (rewrite seq_nth by lia; lia). rewrite HS, app_nth1 in NK by lia. rewrite <- NK. apply nth_In. lia. }
    apply passes_settled in G; [|lia]. rewrite (Q k K) in G. discriminate.
Qed.
End Books.

(** ** Examples *)
Example C201_setters_example b : by_adapt (fold_left set_adapt [3; 9; 5]%Z (set_adapt b 4)) = Z.max (by_adapt b) 9.
Proof. destruct (C201_setters [4; 3; 9; 5]%Z b) as (_ & H & _). cbn [fold_left] in *. rewrite H. lia. Qed.

(** ** Assumptions of every theorem above *)
Definition Tau_Props_all :=
  (@C201_sources,
   @C202_lookup,
   @C201_discard,
   @C201_discard_refuted,
   @C201_setters,
   @C201_stale_refuted,
   @C201_settled).
Print Assumptions Tau_Props_all.
