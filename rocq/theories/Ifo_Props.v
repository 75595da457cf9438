(** * Safe durations and injection into a time series (C185), whitening (C186) *)
From Coq Require Import String Ascii Reals List ZArith Bool Lra Lia Psatz Permutation.
From Coquelicot Require Import Complex.
From Verif Require Import PyReal PyDict Interp_Model Series_Model Series_Proofs GwInner_Model GwInner_Proofs GwInner_Props Ifo_Model.
Import ListNotations.
Open Scope R_scope.
Open Scope list_scope.

(** ** C185: the safe duration *)
Lemma ln2_pos : 0 < ln 2. Proof. rewrite <- ln_1. apply ln_increasing; lra. Qed.
Lemma log2_pow (k : nat) : ln (2 ^ k) / ln 2 = INR k.
Proof. pose proof ln2_pos. rewrite ln_pow by lra. field. lra. Qed.
Lemma trunc_pos x : 0 <= x -> IZR (trunc x) <= x < IZR (trunc x) + 1.
Proof. intros H. unfold trunc. destruct (Rlt_dec x 0); [lra|]. apply Int_part_spec. Qed.
Lemma trunc_neg x : x < 0 -> (trunc x <= 0)%Z.
Proof. intros H. unfold trunc. destruct (Rlt_dec x 0); [|lra]. pose proof (Int_part_spec (- x)). assert (IZR (Int_part (- x)) > -1) by lra.
  apply Rgt_lt in H1. change (-1) with (IZR (-1)) in H1. apply lt_IZR in H1. lia. Qed.
Lemma log2_lt t k : 0 < t -> ln t / ln 2 < INR k -> t < 2 ^ k.
Proof.
  intros H E. pose proof ln2_pos. apply ln_lt_inv; [auto|apply pow_lt; lra|].
  rewrite ln_pow by lra. apply Rmult_lt_reg_r with (/ ln 2); [now apply Rinv_0_lt_compat|].
  replace (INR k * ln 2 * / ln 2) with (INR k) by (field; lra). exact E.
Qed.
Lemma log2_ge t k : 0 < t -> INR k <= ln t / ln 2 -> 2 ^ k <= t.
Proof.
  intros H E. pose proof ln2_pos. apply Rnot_lt_le. intros C. apply ln_increasing in C; [|auto].
  rewrite ln_pow in C by lra. apply (Rmult_le_compat_r (ln 2)) in E; [|lra].
  replace (ln t / ln 2 * ln 2) with (ln t) in E by (field; lra). lra.
Qed.
Lemma safe_cases t : 0 < t -> exists k : nat, (2 <= k)%nat /\ safe_duration t = Some (2 ^ k) /\ t < 2 ^ k /\ (k = 2%nat \/ 2 ^ (k - 1) <= t).
Proof.
  intros H. unfold safe_duration. destruct (Rlt_dec 0 t) as [_|]; [|lra].
  set (x := ln t / ln 2).
  destruct (Rlt_dec x 1) as [L|L].
  - exists 2%nat. split; [lia|]. split; [|split; [|now left]].
    + f_equal. rewrite Rmax_right; [lra|]. assert (Hz : (trunc x + 1 <= 1)%Z).
      { destruct (Rlt_dec x 0) as [N|N]; [pose proof (trunc_neg x N); lia|].
        pose proof (trunc_pos x ltac:(lra)) as [A _]. assert (IZR (trunc x) < 1) by lra. apply lt_IZR in H0. lia. }
      destruct (trunc x + 1)%Z as [|p|p]; cbn [powerRZ]; [lra| |].
      * assert (p = 1%positive) by lia. subst p. change (Pos.to_nat 1) with 1%nat. simpl. lra.
      * apply Rle_trans with 1; [|lra]. rewrite <- Rinv_1. apply Rinv_le_contravar; [lra|]. apply pow_R1_Rle. lra.
    + apply (log2_lt t 2 H). fold x. simpl. lra.
  - pose proof (trunc_pos x ltac:(lra)) as [A B]. assert (Hz : (1 <= trunc x)%Z).
    { assert (0 < IZR (trunc x)) by lra. apply (lt_IZR 0) in H0. lia. }
    exists (Z.to_nat (trunc x + 1)). split; [lia|].
    assert (E : powerRZ 2 (trunc x + 1) = 2 ^ Z.to_nat (trunc x + 1)).
    { rewrite <- (Z2Nat.id (trunc x + 1)) at 1 by lia. now rewrite <- pow_powerRZ. }
    split; [|split].
    + f_equal. rewrite Rmax_left; [exact E|]. rewrite E. replace (Z.to_nat (trunc x + 1)) with (2 + Z.to_nat (trunc x - 1))%nat by lia.
      rewrite pow_add. pose proof (pow_R1_Rle 2 (Z.to_nat (trunc x - 1)) ltac:(lra)). simpl (2 ^ 2). lra.
    + apply (log2_lt t _ H). fold x. rewrite INR_IZR_INZ, Z2Nat.id by lia. rewrite plus_IZR. lra.
    + right. apply (log2_ge t _ H). fold x. replace (Z.to_nat (trunc x + 1) - 1)%nat with (Z.to_nat (trunc x)) by lia.
      rewrite INR_IZR_INZ, Z2Nat.id by lia. lra.
Qed.
(** the result is a power of two, at least four seconds and longer than the signal *)
Theorem C185_power : forall t, 0 < t -> exists k : nat, safe_duration t = Some (2 ^ k) /\ 4 <= 2 ^ k /\ t < 2 ^ k.
Proof.
  intros t H. destruct (safe_cases t H) as (k & K & E & L & _). exists k. split; [exact E|]. split; [|exact L].
  replace k with (2 + (k - 2))%nat by lia. rewrite pow_add. pose proof (pow_R1_Rle 2 (k - 2) ltac:(lra)). simpl (2 ^ 2). lra.
Qed.
(** beyond four seconds half of it is not longer than the signal *)
Theorem C185_tight : forall t s, safe_duration t = Some s -> 4 < s -> s / 2 <= t.
Proof.
  intros t s E G. assert (H : 0 < t) by (unfold safe_duration in E; destruct (Rlt_dec 0 t); [auto|discriminate]).
  destruct (safe_cases t H) as (k & K & E2 & L & [Q|Q]); rewrite E in E2; apply some_inj in E2; subst s.
  - subst k. simpl in G. lra.
  - replace k with (S (k - 1)) by lia. simpl (2 ^ S _). lra.
Qed.
(** these two facts leave one value, so a longer signal never gets a shorter duration *)
Theorem C185_monotone : forall t t' s s', t <= t' -> safe_duration t = Some s -> safe_duration t' = Some s' -> s <= s'.
Proof.
  intros t t' s s' L E E'. assert (H : 0 < t) by (unfold safe_duration in E; destruct (Rlt_dec 0 t); [auto|discriminate]).
  assert (H' : 0 < t') by lra.
  destruct (safe_cases t H) as (k & K & E2 & A & B), (safe_cases t' H') as (k' & K' & E2' & A' & B').
  rewrite E in E2. rewrite E' in E2'. apply some_inj in E2. apply some_inj in E2'. subst.
  apply Rle_pow; [lra|]. destruct B as [->|B]; [lia|]. apply Nat.nlt_ge. intros C.
  assert (2 ^ k' <= 2 ^ (k - 1)) by (apply Rle_pow; [lra|lia]). lra.
Qed.
(** there is no result exactly when the chirp time is not positive *)
Theorem C185_raises : forall t, safe_duration t = None <-> t <= 0.
Proof. intros t. unfold safe_duration. destruct (Rlt_dec 0 t); split; intros; try discriminate; try lra; reflexivity. Qed.
(** "the signal duration rounded up to the nearest power of 2": a power of two is doubled *)
Theorem C185_rounded_up_refuted : forall k : nat, (2 <= k)%nat -> safe_duration (2 ^ k) = Some (2 ^ (k + 1)) /\ 2 ^ k < 2 ^ (k + 1).
Proof.
  intros k K. assert (P : 0 < 2 ^ k) by (apply pow_lt; lra).
  destruct (safe_cases (2 ^ k) P) as (j & J & E & L & B).
  assert (j = (k + 1)%nat).
  { assert (k < j)%nat by (apply Nat.nle_gt; intros C; assert (2 ^ j <= 2 ^ k) by (apply Rle_pow; [lra|lia]); lra).
    destruct B as [->|B]; [lia|]. assert (j - 1 <= k)%nat; [|lia]. apply Nat.nlt_ge. intros C.
    assert (2 ^ k < 2 ^ (j - 1)) by (apply Rlt_pow; [lra|lia]). lra. }
  subst j. split; [exact E|exact L].
Qed.
Example C185_safe_ex : safe_duration (1/2) = Some 4 /\ safe_duration 5 = Some 8 /\ safe_duration 8 = Some 16.
Proof.
  split; [|split].
  - destruct (C185_power (1/2) ltac:(lra)) as (k & E & F & _). rewrite E. f_equal. apply Rle_antisym; [|exact F].
    apply Rnot_lt_le. intros C. pose proof (C185_tight _ _ E C). lra.
  - destruct (safe_cases 5 ltac:(lra)) as (k & K & E & A & B). rewrite E. f_equal. destruct B as [->|B]; [simpl in A; lra|].
    assert (k = 3%nat); [|subst; simpl; lra]. destruct (Nat.lt_trichotomy k 3) as [C|[C|C]]; [|exact C|].
    + assert (2 ^ k <= 2 ^ 2) by (apply Rle_pow; [lra|lia]). simpl (2 ^ 2) in *. lra.
    + assert (2 ^ 3 <= 2 ^ (k - 1)) by (apply Rle_pow; [lra|lia]). simpl (2 ^ 3) in *. lra.
  - replace 8 with (2 ^ 3) by (simpl; lra). replace 16 with (2 ^ (3 + 1)) by (simpl; lra). apply (C185_rounded_up_refuted 3). lia.
Qed.

(** ** C185: the injection *)
Lemma roll_len l n : length (np_roll l n) = length l. Proof. unfold np_roll. now rewrite map_length, seq_length. Qed.
Lemma roll_nth l n i : (i < length l)%nat ->
  nth i (np_roll l n) 0 = nth (Z.to_nat ((Z.of_nat i - n) mod Z.of_nat (length l))) l 0.
Proof. intros H. unfold np_roll. now rewrite nth_map_seq. Qed.
Lemma roll_index (n : Z) (i N : nat) : (i < N)%nat -> (Z.to_nat ((Z.of_nat i - n) mod Z.of_nat N) < N)%nat.
Proof. intros H. pose proof (Z.mod_pos_bound (Z.of_nat i - n) (Z.of_nat N) ltac:(lia)). lia. Qed.
(** rolling keeps every value: it is a permutation of the samples *)
Lemma roll_roll l a b : np_roll (np_roll l a) b = np_roll l (a + b).
Proof.
  apply nth_ext with (d := 0) (d' := 0); [now rewrite !roll_len|]. intros i Hi. rewrite !roll_len in Hi.
  rewrite roll_nth, roll_len by (now rewrite roll_len). rewrite !roll_nth; [|auto|now apply roll_index].
  f_equal. f_equal. pose proof (Z.mod_pos_bound (Z.of_nat i - b) (Z.of_nat (length l)) ltac:(lia)).
  rewrite Z2Nat.id by lia. rewrite Zminus_mod_idemp_l. f_equal. lia.
Qed.
Lemma roll_0 l : np_roll l 0 = l.
Proof.
  apply nth_ext with (d := 0) (d' := 0); [apply roll_len|]. intros i Hi. rewrite roll_len in Hi. rewrite roll_nth by auto.
  rewrite Z.sub_0_r, Z.mod_small by lia. now rewrite Nat2Z.id.
Qed.
Lemma roll_full l : np_roll l (Z.of_nat (length l)) = l.
Proof.
  destruct (length l) as [|N] eqn:E; [change (Z.of_nat 0) with 0%Z; apply roll_0|]. rewrite <- E.
  rewrite <- (roll_0 l) at 3. apply nth_ext with (d := 0) (d' := 0); [now rewrite !roll_len|]. intros i Hi. rewrite roll_len in Hi.
  rewrite !roll_nth by auto. f_equal. f_equal. rewrite Z.sub_0_r.
  replace (Z.of_nat i - Z.of_nat (length l))%Z with (Z.of_nat i + (-1) * Z.of_nat (length l))%Z by lia. apply Z.mod_add. lia.
Qed.
Lemma map_nth_seq (l : list R) : l = map (fun i => nth i l 0) (seq 0 (length l)).
Proof. apply nth_ext with (d := 0) (d' := 0); [now rewrite map_length, seq_length|]. intros i Hi. now rewrite nth_map_seq. Qed.
Lemma nodup_map_in {A B} (f : A -> B) l : NoDup l -> (forall a b, In a l -> In b l -> f a = f b -> a = b) -> NoDup (map f l).
Proof.
  induction 1 as [|a l N D IH]; intros I; cbn [map]; constructor.
  - intros J. apply in_map_iff in J. destruct J as (b & E & Ib). apply I in E; [subst; auto|now right|now left].
  - apply IH. intros x y Hx Hy. apply I; now right.
Qed.
Lemma roll_perm l n : Permutation (np_roll l n) l.
Proof.
  rewrite (map_nth_seq l) at 2. unfold np_roll. destruct (Nat.eq_dec (length l) 0) as [E|E]; [rewrite E; constructor|].
  set (N := length l) in *. set (g := fun i => Z.to_nat ((Z.of_nat i - n) mod Z.of_nat N)).
  change (Permutation (map (fun i => nth (g i) l 0) (seq 0 N)) (map (fun i => nth i l 0) (seq 0 N))).
  rewrite <- (map_map g (fun i => nth i l 0)). apply Permutation_map.
  apply NoDup_Permutation_bis; [|now rewrite map_length|].
  - apply nodup_map_in; [apply seq_NoDup|]. intros a b Ia Ib Q. apply in_seq in Ia. apply in_seq in Ib. unfold g in Q.
    pose proof (Z.mod_pos_bound (Z.of_nat a - n) (Z.of_nat N) ltac:(lia)). pose proof (Z.mod_pos_bound (Z.of_nat b - n) (Z.of_nat N) ltac:(lia)).
    apply Z2Nat.inj in Q; try lia.
    pose proof (Z.div_mod (Z.of_nat a - n) (Z.of_nat N) ltac:(lia)). pose proof (Z.div_mod (Z.of_nat b - n) (Z.of_nat N) ltac:(lia)).
    assert (Z.of_nat a - Z.of_nat b = Z.of_nat N * ((Z.of_nat a - n) / Z.of_nat N - (Z.of_nat b - n) / Z.of_nat N))%Z by lia.
    assert ((Z.of_nat a - n) / Z.of_nat N - (Z.of_nat b - n) / Z.of_nat N = 0)%Z by nia. lia.
  - intros j Ij. apply in_map_iff in Ij. destruct Ij as (i & <- & Ii). apply in_seq in Ii. apply in_seq. pose proof (roll_index n i N ltac:(lia)). unfold g. lia.
Qed.

(** the response to the signal at sample j: polarisations weighted with the antenna responses *)
Definition response (modes : list (list R * R)) (j : nat) : R := fold_right (fun pr acc => nth j (fst pr) 0 * snd pr + acc) 0 modes.
Lemma add_mode_none modes : fold_left add_mode modes None = None. Proof. induction modes; auto. Qed.
Lemma project_gen modes : forall acc s, fold_left add_mode modes (Some acc) = Some s ->
  length s = length acc /\ (forall j, (j < length acc)%nat -> nth j s 0 = nth j acc 0 + response modes j).
Proof.
  induction modes as [|[p r] modes IH]; cbn [fold_left]; intros acc s E.
  - apply some_inj in E. subst s. split; auto. intros. cbn. ring.
  - cbn [add_mode fst snd] in E. destruct (Nat.eqb_spec (length acc) (length p)) as [L|L]; [|rewrite add_mode_none in E; discriminate].
    apply IH in E. rewrite map_length, combine_length, <- L, Nat.min_id in E. destruct E as [E1 E2]. split; [exact E1|].
    intros j Hj. rewrite E2 by auto. cbn [response fold_right fst snd]. fold (response modes j).
    set (g := fun t : R * R => _). rewrite (nth_indep _ 0 (g (0, 0))) by (rewrite map_length, combine_length, <- L, Nat.min_id; auto).
    rewrite map_nth, combine_nth by auto. unfold g. cbn [fst snd]. ring.
Qed.
Lemma project_spec n modes s : project n modes = Some s -> length s = n /\ forall j, (j < n)%nat -> nth j s 0 = response modes j.
Proof.
  intros E. apply project_gen in E. rewrite repeat_length in E. destruct E as [A B]. split; auto.
  intros j Hj. rewrite B by auto. rewrite nth_repeat. ring.
Qed.
Lemma round_even_close x : Rabs (IZR (round_even x) - x) <= 1 / 2.
Proof.
  pose proof (Int_part_spec x). unfold round_even. destruct (Rlt_dec _ _); [apply Rabs_le; lra|].
  destruct (Rlt_dec _ _); [rewrite plus_IZR; apply Rabs_le; lra|]. destruct (Z.even _); [|rewrite plus_IZR]; apply Rabs_le; lra.
Qed.
Lemma Int_part_shift x z : Int_part (x + IZR z) = (Int_part x + z)%Z.
Proof. pose proof (Int_part_spec x). apply Int_part_eq. rewrite plus_IZR. lra. Qed.
Lemma round_even_shift x z : Z.even z = true -> round_even (x + IZR z) = (round_even x + z)%Z.
Proof.
  intros E. unfold round_even. rewrite Int_part_shift. rewrite plus_IZR.
  replace (x + IZR z - (IZR (Int_part x) + IZR z)) with (x - IZR (Int_part x)) by ring.
  destruct (Rlt_dec _ _); [reflexivity|]. destruct (Rlt_dec _ _); [lia|].
  rewrite Z.even_add, E. destruct (Z.even (Int_part x)); cbn [Bool.eqb]; lia.
Qed.
(** what is added to the data is the response, moved by the whole number of samples nearest to the
    arrival time, round the end of the segment *)
Theorem C185_added : forall i x dur chirp modes g delay t0 rate fs out m,
  inject_series i x dur chirp modes g delay t0 rate fs = Some (out, m) ->
  length out = length x /\
  exists n : Z, Rabs (IZR n - (g + delay - t0) * rate) <= 1 / 2 /\
    forall j, (j < length x)%nat ->
      nth j out 0 = nth j x 0 + response modes (Z.to_nat ((Z.of_nat j - n) mod Z.of_nat (length x))).
Proof.
  intros i x dur chirp modes g delay t0 rate fs out m. unfold inject_series. destruct (safe_duration chirp); [|discriminate].
  destruct (project (length x) modes) as [s|] eqn:P; [|discriminate]. intros E. apply some_inj in E.
  apply (f_equal fst) in E. cbn [fst] in E. subst out. apply project_spec in P. destruct P as [L V].
  split; [now rewrite map_length, combine_length, roll_len, L, Nat.min_id|].
  exists (round_even ((g + delay - t0) * rate)). split; [apply round_even_close|]. intros j Hj.
  set (f := fun t : R * R => _). rewrite (nth_indep _ 0 (f (0, 0))) by (rewrite map_length, combine_length, roll_len, L, Nat.min_id; auto).
  rewrite map_nth, combine_nth by (now rewrite roll_len). unfold f. cbn [fst snd]. f_equal.
  rewrite roll_nth by (now rewrite L). rewrite L. apply V. now apply roll_index.
Qed.
(** so no energy is gained or lost, wherever the signal is placed *)
Definition sumsq (l : list R) : R := fold_right Rplus 0 (map (fun v => v * v) l).
Lemma sumsq_perm a b : Permutation a b -> sumsq a = sumsq b.
Proof. induction 1; unfold sumsq in *; cbn [map fold_right] in *; lra. Qed.
Theorem C185_energy : forall i x dur chirp modes g delay t0 rate fs out m,
  inject_series i x dur chirp modes g delay t0 rate fs = Some (out, m) ->
  sumsq (map (fun t => fst t - snd t) (combine out x)) = sumsq (map (response modes) (seq 0 (length x))).
Proof.
  intros i x dur chirp modes g delay t0 rate fs out m. unfold inject_series. destruct (safe_duration chirp); [|discriminate].
  destruct (project (length x) modes) as [s|] eqn:P; [|discriminate]. intros E. apply some_inj in E.
  apply (f_equal fst) in E. cbn [fst] in E. subst out. apply project_spec in P. destruct P as [L V].
  replace (map (response modes) (seq 0 (length x))) with s.
  2: { rewrite (map_nth_seq s), L. apply map_ext_in. intros j Ij. apply in_seq in Ij. apply V. lia. }
  set (n := round_even _). rewrite <- (sumsq_perm _ _ (roll_perm s n)). f_equal.
  assert (Q : length x = length (np_roll s n)) by (now rewrite roll_len). revert Q. generalize (np_roll s n) as y. clear.
  induction x as [|a x IH]; intros [|b y] H; cbn in H; try discriminate; [reflexivity|]. cbn [combine map fst snd]. f_equal; [ring|]. apply IH. lia.
Qed.
(** a segment of an even number of samples: placing the signal one segment later changes nothing *)
Theorem C185_wraps : forall i x dur chirp modes g delay t0 rate fs, rate <> 0 -> Nat.Even (length x) ->
  inject_series i x dur chirp modes (g + INR (length x) / rate) delay t0 rate fs = inject_series i x dur chirp modes g delay t0 rate fs.
Proof.
  intros i x dur chirp modes g delay t0 rate fs Hr He. unfold inject_series. destruct (safe_duration chirp); [|reflexivity].
  destruct (project (length x) modes) as [s|] eqn:P; [|reflexivity]. cbv zeta. do 3 f_equal. apply project_spec in P. destruct P as [L _].
  replace ((g + INR (length x) / rate + delay - t0) * rate) with ((g + delay - t0) * rate + IZR (Z.of_nat (length x))) by (rewrite <- INR_IZR_INZ; field; auto).
  rewrite round_even_shift by (destruct He as [h ->]; rewrite Nat2Z.inj_mul; now rewrite Z.even_mul).
  rewrite Z.add_comm, <- L, <- roll_roll, roll_full. reflexivity.
Qed.
(** a signal longer than the data is not refused: the lengths of data and signal play no part *)
Theorem C185_never_too_long : forall i x dur dur' chirp chirp' modes g delay t0 rate fs, 0 < chirp -> 0 < chirp' ->
  inject_series i x dur chirp modes g delay t0 rate fs = inject_series i x dur' chirp' modes g delay t0 rate fs.
Proof.
  intros i x dur dur' chirp chirp' modes g delay t0 rate fs H H'.
  destruct (C185_power _ H) as (k & E & _), (C185_power _ H') as (k' & E' & _). unfold inject_series. now rewrite E, E'.
Qed.
(** the reported ratios do not depend on when the signal arrives ... *)
Theorem C185_meta_time : forall i x dur chirp modes g delay t0 rate g' delay' t0' rate' fs out out' m m',
  inject_series i x dur chirp modes g delay t0 rate fs = Some (out, m) ->
  inject_series i x dur chirp modes g' delay' t0' rate' fs = Some (out', m') -> m = m'.
Proof.
  intros i x dur chirp modes g delay t0 rate g' delay' t0' rate' fs out out' m m'. unfold inject_series.
  destruct (safe_duration chirp); [|discriminate]. destruct (project (length x) modes); [|discriminate].
  intros E E'. apply some_inj in E. apply some_inj in E'. apply (f_equal snd) in E. apply (f_equal snd) in E'. cbn [snd] in *. congruence.
Qed.
(** ... and the matched filter is against the data before the injection: without noise it is zero (or nan),
    whatever was injected *)
Lemma select_len {A} m (l r : list A) : select m l = Some r -> length r = count_mask m.
Proof.
  unfold select. destruct (Nat.eqb_spec (length m) (length l)) as [E|]; [|discriminate]. intros Q. apply some_inj in Q. subst r.
  rewrite map_length. unfold count_mask. revert l E. induction m as [|b m IH]; intros [|a l] E; cbn in E; try discriminate; auto.
  cbn [combine filter fst]. destruct b; cbn [length]; now rewrite IH by lia.
Qed.
Lemma select_in {A} m (l r : list A) v : select m l = Some r -> In v r -> In v l.
Proof.
  unfold select. destruct (Nat.eqb_spec (length m) (length l)) as [E|]; [|discriminate]. intros Q. apply some_inj in Q. subst r.
  intros I. apply in_map_iff in I. destruct I as ([b w] & Ew & I). cbn in Ew. subst w. apply filter_In in I. eapply in_combine_r. apply I.
Qed.
Lemma cdivr_0 s : cdivr (RtoC 0) s = RtoC 0.
Proof. destruct s; [|reflexivity]. unfold cdivr, RtoC. cbn [fst snd]. unfold Rdiv. now rewrite !Rmult_0_l. Qed.
Lemma nwip_zero a d S T z : (forall v, In v d -> v = RtoC 0) -> nwip a d S T = Some z -> z = RtoC 0.
Proof.
  intros Z. unfold nwip, integrand. destruct (_ && _); [|discriminate]. intros E. apply some_inj in E. subst z.
  replace (csum _) with (RtoC 0); [now rewrite Cmult_0_r|]. symmetry. unfold csum.
  assert (Q : forall l, (forall t, In t l -> snd (fst t) = RtoC 0) ->
    fold_right Cplus (RtoC 0) (map (fun t : C * C * ext => cdivr (Cconj (fst (fst t)) * snd (fst t))%C (snd t)) l) = RtoC 0).
  { induction l as [|t l IH]; intros H; cbn [map fold_right]; [reflexivity|]. rewrite IH by (intros; apply H; now right).
    rewrite (H t) by (now left). rewrite Cmult_0_r, cdivr_0, Cplus_0_r. reflexivity. }
  apply Q. intros [[u v] s] I. cbn. apply Z. apply in_combine_l in I. now apply in_combine_r in I.
Qed.
Theorem C185_matched_filter_refuted : forall i x dur chirp modes g delay t0 rate fs out m,
  (forall v, In v (i_data i) -> v = RtoC 0) ->
  inject_series i x dur chirp modes g delay t0 rate fs = Some (out, m) ->
  m_mf m = CNan \/ m_mf m = CRaise \/ m_mf m = Ok (RtoC 0).
Proof.
  intros i x dur chirp modes g delay t0 rate fs out m Z. unfold inject_series. destruct (safe_duration chirp); [|discriminate].
  destruct (project (length x) modes); [|discriminate]. intros E. apply some_inj in E. apply (f_equal snd) in E. cbn [snd] in E. subst m. cbn [m_mf].
  unfold ifo_matched_filter_snr. destruct (select (i_mask i) (fst _)) as [a|]; [|auto]. destruct (select (i_mask i) (i_data i)) as [d|] eqn:D; [|auto].
  destruct (select (i_mask i) (psd_array i)) as [Sx|]; [|auto]. unfold matched_filter_snr. destruct (nwip a d Sx (i_T i)) as [z|] eqn:N; [|auto].
  destruct (optimal_snr_squared _ _ _) as [y|]; [|auto]. destruct (Ceq_dec y (RtoC 0)) as [|Ny]; [auto|]. right. right. f_equal.
  assert (Hz : z = RtoC 0); [|rewrite Hz; unfold Cdiv; apply Cmult_0_l].
  eapply nwip_zero; [|exact N]. intros v I. apply Z. eapply select_in; eauto.
Qed.

(** two samples without noise; the signal (1, -1) has optimal ratio one and a reported matched filter of zero;
    it arrives one sample late and is added as (-1, 1) *)
Example C185_inject_ex :
  inject_series (mkI [false; true] [Fin 1; Fin 1] 1 4 [RtoC 0; RtoC 0]) [0; 0] 1 1 [([1; -1], 1)] 1 (1/2) 1 2 2
  = Some ([-1; 1], mkMeta (Some 1) (Ok (RtoC 0))).
Proof.
  unfold inject_series. destruct (C185_power 1 ltac:(lra)) as (k & -> & _).
  replace (round_even ((1 + 1/2 - 1) * 2)) with 1%Z by (symmetry; replace ((1 + 1/2 - 1) * 2) with (IZR 1) by lra; apply round_even_IZR).
  cbn [length project fold_left add_mode repeat Nat.eqb combine map fst snd].
  set (sg := [0 + 1 * 1; 0 + -1 * 1]).
  assert (F : fst (nfft sg 2) = [RtoC 0; RtoC 1]).
  { unfold nfft, rfft, sg, angle. cbn [length Nat.div Nat.divmod Nat.add seq map fst snd rsum nth INR].
    replace (2 * PI * (0 * 0) / (1 + 1)) with 0 by field. replace (2 * PI * (1 * 0) / (1 + 1)) with 0 by field.
    replace (2 * PI * (0 * 1) / (1 + 1)) with 0 by field. replace (2 * PI * (1 * 1) / (1 + 1)) with PI by field.
    rewrite cos_0, sin_0, cos_PI, sin_PI. unfold RtoC. f_equal; [|f_equal]; f_equal; field. }
  rewrite F.
  assert (O : ifo_optimal_snr_squared (mkI [false; true] [Fin 1; Fin 1] 1 4 [RtoC 0; RtoC 0]) [RtoC 0; RtoC 1] = Some (RtoC 1)).
  { unfold ifo_optimal_snr_squared, psd_array, select, optimal_snr_squared, nwip, integrand. cbn. f_equal. unfold RtoC, Cmult, Cplus, Cconj. cbn. f_equal; field. }
  assert (Q : csqrt (RtoC 1) = RtoC 1).
  { unfold csqrt, RtoC. cbn [fst snd]. replace (Cmod (1, 0)) with 1 by (change (1, 0) with (RtoC 1); rewrite Cmod_R, Rabs_R1; reflexivity).
    destruct (Rle_dec 0 0); [|lra]. replace ((1 + 1) / 2) with 1 by field. replace ((1 - 1) / 2) with 0 by field. rewrite sqrt_1, sqrt_0. f_equal. ring. }
  rewrite O. cbn [option_map]. rewrite Q. f_equal. f_equal.
  - unfold np_roll, sg. cbn -[Rplus Rmult Ropp IZR]. change (Pos.to_nat 1) with 1%nat. cbv beta iota. f_equal; [|f_equal]; lra.
  - f_equal. unfold ifo_matched_filter_snr. set (d0 := mkI _ _ _ _ _).
    change (select (i_mask d0) [RtoC 0; RtoC 1]) with (Some [RtoC 1]). change (select (i_mask d0) (i_data d0)) with (Some [RtoC 0]).
    change (select (i_mask d0) (psd_array d0)) with (Some [Fin (1 * 1)]). change (i_T d0) with 4. unfold matched_filter_snr.
    change (optimal_snr_squared [RtoC 1] [Fin (1 * 1)] 4) with (ifo_optimal_snr_squared d0 [RtoC 0; RtoC 1]). fold d0 in O. rewrite O.
    destruct (nwip [RtoC 1] [RtoC 0] [Fin (1 * 1)] 4) as [z|] eqn:N; [|discriminate].
    destruct (Ceq_dec (RtoC 1) (RtoC 0)) as [C|_]; [apply (f_equal fst) in C; cbn in C; lra|]. f_equal.
    assert (Hz : z = RtoC 0) by (eapply nwip_zero; [|exact N]; intros v [<-|[]]; reflexivity). rewrite Hz. unfold Cdiv. apply Cmult_0_l.
Qed.

(** ** C186: whitening *)
Definition good (i : ifo) : Prop := List.Forall psd_pos (i_psd i) /\ 0 < i_wf i /\ 0 < i_T i.
Definition abs2 (z : C) : R := fst z ^ 2 + snd z ^ 2.
(** every bin: whitening divides by a positive number, so the phase is kept, and the squared size is
    4 |h|^2 / (T S) with S the spectral density times the window factor; where S is infinite it is zero *)
Theorem C186_bin : forall i h w k, good i -> whiten i h = Some w -> (k < length h)%nat ->
  match nth k (i_psd i) Inf with
  | Fin s => exists c, 0 < c /\ nth k w (RtoC 0) = (c * fst (nth k h (RtoC 0)), c * snd (nth k h (RtoC 0)))
             /\ c ^ 2 * (i_T i * (s * i_wf i)) = 4
  | Inf => nth k w (RtoC 0) = RtoC 0
  end.
Proof.
  intros i h w k (P & W & T) E Hk. unfold whiten in E. unfold asd_array in E. rewrite map_length in E.
  destruct (Nat.eqb_spec (length h) (length (i_psd i))) as [L|]; [|discriminate]. apply some_inj in E. subst w.
  set (g := fun t : C * ext => _). set (q := fun s : ext => _).
  rewrite (nth_indep _ (RtoC 0) (g (RtoC 0, q Inf))) by (rewrite map_length, combine_length, map_length, L, Nat.min_id; now rewrite <- L).
  rewrite map_nth, combine_nth by (now rewrite map_length). rewrite map_nth. unfold g, q. cbn [fst snd].
  assert (Q : psd_pos (nth k (i_psd i) Inf)). { rewrite List.Forall_forall in P. apply P. apply nth_In. lia. }
  destruct (nth k (i_psd i) Inf) as [s|]; cbn [root_ext scale_ext cdivr psd_pos] in *; [|reflexivity].
  assert (Hc : 0 < sqrt s * sqrt (i_wf i) * sqrt (i_T i / 4)) by (repeat apply Rmult_lt_0_compat; apply sqrt_lt_R0; lra).
  exists (/ (sqrt s * sqrt (i_wf i) * sqrt (i_T i / 4))). split; [now apply Rinv_0_lt_compat|]. split; [f_equal; field; repeat split; apply Rgt_not_eq; apply sqrt_lt_R0; lra|].
  rewrite pow_inv by lra. rewrite !Rpow_mult_distr. simpl (_ ^ 2). rewrite !Rmult_1_r, !sqrt_sqrt by lra. field. lra.
Qed.

Definition sel {A} (m : list bool) (l : list A) : list A := map snd (filter fst (combine m l)).
Lemma select_sel {A} m (l : list A) : length m = length l -> select m l = Some (sel m l).
Proof. intros E. unfold select. now rewrite E, Nat.eqb_refl. Qed.
Lemma sel_length {A B} m (l : list A) (r : list B) : length m = length l -> length m = length r -> length (sel m l) = length (sel m r).
Proof. intros E F. pose proof (select_len m l _ (select_sel m l E)). pose proof (select_len m r _ (select_sel m r F)). congruence. Qed.
Definition rsuml (l : list R) : R := fold_right Rplus 0 l.
Lemma white_energy wf T m : 0 < wf -> 0 < T -> forall (h : list C) (S : list ext), List.Forall psd_pos S -> length m = length h -> length h = length S ->
  4 / T * n2 (sel m h) (sel m (map (scale_ext wf) S))
  = rsuml (map abs2 (sel m (map (fun t => cdivr (fst t) (scale_ext (sqrt (T / 4)) (snd t))) (combine h (map (fun s => scale_ext (sqrt wf) (root_ext s)) S))))).
Proof.
  intros W HT. induction m as [|b m IH]; intros [|z h] [|s S] P A B; cbn in A, B; try discriminate; [cbn; ring|].
  inversion P as [|? ? Ps P']; subst. specialize (IH h S P' ltac:(lia) ltac:(lia)). unfold sel in *. cbn [map combine filter fst].
  destruct b; [|exact IH]. cbn [map snd rsuml fold_right]. fold (rsuml (map abs2 (map snd (filter fst (combine m (map (fun t => cdivr (fst t) (scale_ext (sqrt (T / 4)) (snd t))) (combine h (map (fun s => scale_ext (sqrt wf) (root_ext s)) S)))))))).
  rewrite <- IH. destruct s as [s|]; cbn [scale_ext root_ext cdivr n2 psd_pos] in *.
  - rewrite Rmult_plus_distr_l. f_equal. unfold abs2. cbn [fst snd]. unfold Rdiv. rewrite !Rpow_mult_distr, !pow_inv, !Rpow_mult_distr.
    simpl (_ ^ 2). rewrite !Rmult_1_r, !sqrt_sqrt by lra. field. lra.
  - unfold abs2, RtoC. cbn [fst snd]. ring.
Qed.
(** over the analysed bins the squared sizes of the whitened series add up to the squared optimal
    signal-to-noise ratio of the series *)
Theorem C186_energy : forall i h w, good i -> whiten i h = Some w -> length (i_mask i) = length h ->
  ifo_optimal_snr_squared i h = Some (RtoC (rsuml (map abs2 (map snd (filter fst (combine (i_mask i) w)))))).
Proof.
  intros i h w (P & W & T) E M. unfold whiten, asd_array in E. rewrite map_length in E.
  destruct (Nat.eqb_spec (length h) (length (i_psd i))) as [L|]; [|discriminate]. apply some_inj in E. subst w.
  change (map snd (filter fst (combine (i_mask i) ?w))) with (sel (i_mask i) w).
  unfold ifo_optimal_snr_squared. rewrite (select_sel _ h) by auto. rewrite (select_sel _ (psd_array i)) by (unfold psd_array; rewrite map_length; lia).
  unfold optimal_snr_squared. rewrite nwip_self by (apply sel_length; [auto|unfold psd_array; rewrite map_length; lia]).
  unfold psd_array. f_equal. f_equal. apply white_energy; auto.
Qed.

(** *** the whitened time series *)
Lemma angle_alt n j k : (0 < n)%nat -> angle n j k = INR j * (2 * PI * INR k / INR n).
Proof. intros H. unfold angle. field. apply not_0_INR. lia. Qed.
Lemma sin_cos_sum n p k : (0 < p)%nat -> (p + k < n)%nat ->
  rsum n (fun j => sin (angle n j p) * cos (angle n j k)) = 0.
Proof.
  intros Hp Hk. assert (Hn : INR n <> 0) by (apply not_0_INR; lia).
  rewrite (rsum_ext _ _ (fun j => (1/2) * (sin (INR j * (2 * PI * INR (p + k) / INR n)) + sin (INR j * (2 * PI * (INR p - INR k) / INR n))))).
  - rewrite rsum_scal, rsum_plus, diff_sin, full_sin by lia. ring.
  - intros j _. rewrite !angle_alt by lia.
    replace (INR j * (2 * PI * (INR p - INR k) / INR n)) with (INR j * (2 * PI * INR p / INR n) - INR j * (2 * PI * INR k / INR n)) by (field; auto).
    replace (INR j * (2 * PI * INR (p + k) / INR n)) with (INR j * (2 * PI * INR p / INR n) + INR j * (2 * PI * INR k / INR n)) by (rewrite plus_INR; field; auto).
    rewrite sin_minus, sin_plus. field.
Qed.
Lemma sin_sin_sum n p k : (0 < p)%nat -> (p + k < n)%nat ->
  rsum n (fun j => sin (angle n j p) * sin (angle n j k)) = if Nat.eq_dec k p then INR n / 2 else 0.
Proof.
  intros Hp Hk. assert (Hn : INR n <> 0) by (apply not_0_INR; lia).
  rewrite (rsum_ext _ _ (fun j => (1/2) * (cos (INR j * (2 * PI * (INR p - INR k) / INR n)) + -1 * cos (INR j * (2 * PI * INR (p + k) / INR n))))).
  - rewrite rsum_scal, rsum_plus, rsum_scal, diff_cos, full_cos by lia. destruct (Nat.eq_dec k p); field.
  - intros j _. rewrite !angle_alt by lia.
    replace (INR j * (2 * PI * (INR p - INR k) / INR n)) with (INR j * (2 * PI * INR p / INR n) - INR j * (2 * PI * INR k / INR n)) by (field; auto).
    replace (INR j * (2 * PI * INR (p + k) / INR n)) with (INR j * (2 * PI * INR p / INR n) + INR j * (2 * PI * INR k / INR n)) by (rewrite plus_INR; field; auto).
    rewrite cos_minus, cos_plus. field.
Qed.
Lemma rsum_S m f : rsum (S m) f = rsum m f + f m. Proof. reflexivity. Qed.
Lemma rsum_1 n : rsum n (fun _ => 1) = INR n.
Proof. induction n as [|n IH]; [reflexivity|]. rewrite rsum_S, IH, S_INR. ring. Qed.
Lemma cos_cos n p k : (0 < p)%nat -> (p + k < n)%nat ->
  rsum n (fun j => cos (angle n j p) * cos (angle n j k)) = if Nat.eq_dec k p then INR n / 2 else 0.
Proof. intros A B. rewrite <- (cos_cos_sum n p k) by auto. apply rsum_ext. intros j _. now rewrite (angle_alt n j p) by lia. Qed.
Lemma cos_sin n p k : (0 < p)%nat -> (p + k < n)%nat -> rsum n (fun j => cos (angle n j p) * sin (angle n j k)) = 0.
Proof. intros A B. rewrite <- (cos_sin_sum n p k) by auto. apply rsum_ext. intros j _. now rewrite (angle_alt n j p) by lia. Qed.
Lemma cos0 n k : (0 < n)%nat -> (k < n)%nat -> rsum n (fun j => cos (angle n j k)) = if Nat.eq_dec k 0 then INR n else 0.
Proof.
  intros A B. rewrite (rsum_ext _ _ (fun j => cos (INR j * (2 * PI * INR k / INR n)))) by (intros; now rewrite angle_alt).
  destruct (Nat.eq_dec k 0) as [->|]; [apply full_cos_0|apply full_cos; lia].
Qed.
Lemma sin0 n k : (0 < n)%nat -> (k < n)%nat -> rsum n (fun j => sin (angle n j k)) = 0.
Proof.
  intros A B. destruct (Nat.eq_dec k 0) as [->|].
  - rewrite (rsum_ext _ _ (fun _ => 0)); [apply rsum_0|]. intros. unfold angle. simpl (INR 0). rewrite !Rmult_0_r. unfold Rdiv. rewrite Rmult_0_l. apply sin_0.
  - rewrite (rsum_ext _ _ (fun j => sin (INR j * (2 * PI * INR k / INR n)))) by (intros; now rewrite angle_alt). apply full_sin; lia.
Qed.
Lemma nyq_sin m j : (0 < m)%nat -> sin (angle (2 * m) j m) = 0.
Proof. intros H. replace (angle (2 * m) j m) with (INR j * PI); [apply sin_INR_PI|]. unfold angle. rewrite mult_INR. simpl (INR 2). field. apply not_0_INR. lia. Qed.
Lemma nyq_cos m j : (0 < m)%nat -> cos (angle (2 * m) j m) * cos (angle (2 * m) j m) = 1.
Proof. intros H. pose proof (sin2_cos2 (angle (2 * m) j m)) as Q. unfold Rsqr in Q. rewrite (nyq_sin m j H) in Q. lra. Qed.
Lemma rsum_pick m k (f : nat -> R) : (forall i, (i < m)%nat -> S i <> k -> f i = 0) ->
  rsum m f = if Nat.eq_dec k 0 then 0 else if le_dec k m then f (k - 1)%nat else 0.
Proof.
  intros H. destruct (Nat.eq_dec k 0) as [->|Nk].
  - rewrite (rsum_ext _ _ (fun _ => 0)); [apply rsum_0|]. intros i Hi. apply H; [auto|discriminate].
  - destruct (le_dec k m) as [L|L].
    + apply rsum_delta; [lia|]. intros i Hi Hne. apply H; [auto|lia].
    + rewrite (rsum_ext _ _ (fun _ => 0)); [apply rsum_0|]. intros i Hi. apply H; [auto|lia].
Qed.
(** numpy's rfft after irfft gives the spectrum back, when its ends are real *)
Lemma rfft_irfft (X : list (R * R)) m x : length X = S m -> (0 < m)%nat -> snd (nth 0 X (0, 0)) = 0 -> snd (nth m X (0, 0)) = 0 ->
  irfft X = Some x -> length x = (2 * m)%nat /\ rfft x = X.
Proof.
  intros LX Hm I0 Im E. unfold irfft in E. rewrite LX in E. replace (S m - 1)%nat with m in E by lia.
  destruct (Nat.eqb_spec m 0) as [|Nm]; [lia|]. apply some_inj in E. set (n := (2 * m)%nat) in *.
  assert (Hn : INR n <> 0) by (apply not_0_INR; unfold n; lia).
  set (re := fun k => fst (nth k X (0, 0))) in *. set (im := fun k => snd (nth k X (0, 0))) in *.
  assert (Lx : length x = n) by (rewrite <- E, map_length, seq_length; reflexivity).
  assert (Vx : forall j, (j < n)%nat -> nth j x 0 = / INR n * (re 0%nat + 2 * rsum (m - 1) (fun i => re (S i) * cos (angle n j (S i)) - im (S i) * sin (angle n j (S i))) + re m * cos (angle n j m))).
  { intros j Hj. rewrite <- E. rewrite nth_map_seq by auto. unfold Rdiv, re, im. cbv beta. ring. }
  split; [exact Lx|]. assert (Hh : (length x / 2 = m)%nat) by (rewrite Lx; unfold n; rewrite Nat.mul_comm; apply Nat.div_mul; lia).
  apply nth_ext with (d := (0, 0)) (d' := (0, 0)); [rewrite rfft_length, Hh; lia|]. intros k Hk. rewrite rfft_length, Hh in Hk.
  rewrite rfft_nth by lia. rewrite Lx. rewrite (surjective_pairing (nth k X (0, 0))). fold (re k) (im k).
  assert (G : forall t : nat -> R, rsum n (fun j => nth j x 0 * t j)
     = / INR n * (re 0%nat * rsum n t + 2 * rsum (m - 1) (fun i => re (S i) * rsum n (fun j => cos (angle n j (S i)) * t j) - im (S i) * rsum n (fun j => sin (angle n j (S i)) * t j)) + re m * rsum n (fun j => cos (angle n j m) * t j))).
  { intros t. rewrite (rsum_ext n _ (fun j => / INR n * (re 0%nat * t j + (2 * rsum (m - 1) (fun i => re (S i) * (cos (angle n j (S i)) * t j) + (- im (S i)) * (sin (angle n j (S i)) * t j)) + re m * (cos (angle n j m) * t j))))).
    2: { intros j Hj. rewrite Vx by auto. rewrite (rsum_ext _ (fun i => re (S i) * (cos (angle n j (S i)) * t j) + (- im (S i)) * (sin (angle n j (S i)) * t j)) (fun i => t j * (re (S i) * cos (angle n j (S i)) - im (S i) * sin (angle n j (S i))))) by (intros; ring).
         rewrite rsum_scal. ring. }
    rewrite rsum_scal, !rsum_plus, !rsum_scal. f_equal. rewrite Rplus_assoc. do 3 f_equal.
    rewrite rsum_swap. apply rsum_ext. intros i _. rewrite rsum_plus, !rsum_scal. ring. }
  f_equal.
  - rewrite G. rewrite cos0 by (unfold n; lia).
    rewrite (rsum_pick (m - 1) k).
    2: { intros i Hi Hne. rewrite cos_cos, sin_cos_sum by (unfold n; lia). destruct (Nat.eq_dec k (S i)); [lia|]. ring. }
    assert (Hend : rsum n (fun j => cos (angle n j m) * cos (angle n j k)) = if Nat.eq_dec k m then INR n else 0).
    { destruct (Nat.eq_dec k m) as [->|]; [|rewrite cos_cos by (unfold n; lia); destruct (Nat.eq_dec k m); [lia|reflexivity]].
      rewrite (rsum_ext _ _ (fun _ => 1)) by (intros; apply nyq_cos; lia). apply rsum_1. }
    rewrite Hend. destruct (Nat.eq_dec k 0) as [->|N0].
    + destruct (Nat.eq_dec 0 m); [lia|]. field. auto.
    + destruct (le_dec k (m - 1)) as [Lk|Lk].
      * destruct (Nat.eq_dec k m); [lia|]. rewrite cos_cos, sin_cos_sum by (unfold n; lia). replace (S (k - 1)) with k by lia.
        destruct (Nat.eq_dec k k); [|lia]. field. auto.
      * assert (k = m) by lia. subst k. destruct (Nat.eq_dec m m); [|lia]. field. auto.
  - rewrite G. rewrite sin0 by (unfold n; lia).
    rewrite (rsum_pick (m - 1) k).
    2: { intros i Hi Hne. rewrite cos_sin, sin_sin_sum by (unfold n; lia). destruct (Nat.eq_dec k (S i)); [lia|]. ring. }
    assert (Hend : rsum n (fun j => cos (angle n j m) * sin (angle n j k)) = 0).
    { destruct (Nat.eq_dec k m) as [->|]; [|apply cos_sin; unfold n; lia].
      rewrite (rsum_ext _ _ (fun _ => 0)); [apply rsum_0|]. intros. unfold n. rewrite nyq_sin by lia. ring. }
    rewrite Hend. destruct (Nat.eq_dec k 0) as [->|N0]; [unfold im; rewrite I0; ring|].
    destruct (le_dec k (m - 1)) as [Lk|Lk].
    + rewrite cos_sin, sin_sin_sum by (unfold n; lia). replace (S (k - 1)) with k by lia. destruct (Nat.eq_dec k k); [|lia]. field. auto.
    + assert (k = m) by lia. subst k. unfold im. rewrite Im. ring.
Qed.

(** the sum of the squares of the whitened time series, in terms of the whitened spectrum (Parseval) *)
Theorem C186_time_energy : forall i w y m, whitened_time_series i w = Some y ->
  length w = S m -> length (i_mask i) = S m -> snd (nth 0 w (RtoC 0)) = 0 -> snd (nth m w (RtoC 0)) = 0 ->
  length y = (2 * m)%nat /\ (0 < m)%nat /\
  rsum (2 * m) (fun j => nth j y 0 * nth j y 0)
  = INR (S m) ^ 2 / INR (count_mask (i_mask i)) / INR (2 * m)
    * (abs2 (nth 0 w (RtoC 0)) + 2 * rsum (m - 1) (fun k => abs2 (nth (S k) w (RtoC 0))) + abs2 (nth m w (RtoC 0))).
Proof.
  intros i w y m E Lw Lm I0 Im. unfold whitened_time_series in E. cbv zeta in E.
  destruct (irfft w) as [x|] eqn:Ex; [|discriminate]. cbn [bindo] in E.
  destruct (Nat.eqb_spec (count_mask (i_mask i)) 0) as [|NM]; [discriminate|]. apply some_inj in E.
  assert (Lw' : @length (R * R) w = S m) by exact Lw.
  assert (Hm : (0 < m)%nat). { unfold irfft in Ex. rewrite Lw' in Ex. replace (S m - 1)%nat with m in Ex by lia. destruct (Nat.eqb_spec m 0); [discriminate|lia]. }
  destruct (rfft_irfft w m x Lw Hm I0 Im Ex) as [Lx Fx].
  assert (HM : 0 < INR (count_mask (i_mask i))) by (apply lt_0_INR; lia). set (M := INR (count_mask (i_mask i))) in *.
  assert (HL : 0 < INR (S m)) by (apply lt_0_INR; lia). rewrite Lm in E.
  split; [rewrite <- E, map_length; exact Lx|]. split; [exact Hm|].
  rewrite (rsum_ext _ _ (fun j => INR (S m) ^ 2 / M * (nth j x 0 * nth j x 0))).
  2: { intros j Hj. rewrite <- E. set (g := fun v => _). rewrite (nth_indep _ 0 (g 0)) by (rewrite map_length, Lx; auto). rewrite map_nth. unfold g.
       replace (nth j x 0 * sqrt M / (M / INR (S m)) * (nth j x 0 * sqrt M / (M / INR (S m))))
         with (sqrt M * sqrt M * (INR (S m) ^ 2 / M ^ 2 * (nth j x 0 * nth j x 0))) by (field; lra).
       rewrite sqrt_sqrt by lra. field. lra. }
  rewrite rsum_scal. pose proof (parseval_rfft x m Lx Hm) as P. cbv zeta in P. rewrite Fx in P. change (0, 0) with (RtoC 0) in P. change (R * R)%type with C in P.
  assert (Hn : INR (2 * m) <> 0) by (apply not_0_INR; lia).
  replace (rsum (2 * m) (fun j => nth j x 0 * nth j x 0)) with (/ INR (2 * m) * (INR (2 * m) * rsum (2 * m) (fun j => nth j x 0 * nth j x 0))) by (field; auto).
  rewrite P. unfold abs2. rewrite I0, Im.
  match goal with |- context [rsum (m - 1) ?f] => match goal with |- context [rsum (m - 1) (fun k => fst (@nth C (S k) w (RtoC 0)) ^ 2 + snd (nth (S k) w (RtoC 0)) ^ 2)] =>
    replace (rsum (m - 1) (fun k => fst (@nth C (S k) w (RtoC 0)) ^ 2 + snd (nth (S k) w (RtoC 0)) ^ 2)) with (rsum (m - 1) f) by (apply rsum_ext; intros; simpl; ring) end end.
  field. split; first [assumption|lra].
Qed.
Lemma rsum_shift0 n f : rsum (S n) f = f 0%nat + rsum n (fun k => f (S k)).
Proof. induction n as [|n IH]; [cbn; ring|]. rewrite rsum_S, IH, rsum_S. ring. Qed.
(** data that vanish outside the analysed band: the squares of the whitened strain in time add up to L^2 / (M m) times the
    squared optimal signal-to-noise ratio of the data *)
Lemma nth_zero_off (m : list bool) (w : list C) : length m = length w -> (forall k, nth k m false = false -> nth k w (RtoC 0) = RtoC 0) ->
  rsuml (map abs2 (map snd (filter fst (combine m w)))) = rsum (length w) (fun k => abs2 (nth k w (RtoC 0))).
Proof.
  revert w. induction m as [|b m IH]; intros [|z w] L H; try discriminate L; [reflexivity|].
  assert (IH' := IH w ltac:(now injection L) (fun k => H (S k))). cbn [combine filter fst length]. rewrite rsum_shift0. cbn [nth]. rewrite <- IH'. destruct b; cbn [map snd rsuml fold_right].
  - reflexivity.
  - specialize (H 0%nat eq_refl). cbn in H. rewrite H. unfold abs2, RtoC. cbn [fst snd]. ring.
Qed.
Theorem C186_strain : forall i y m rho, good i -> whitened_strain i = Some y ->
  length (i_data i) = S m -> length (i_mask i) = S m -> nth 0 (i_mask i) false = false -> nth m (i_mask i) false = false ->
  (forall k, nth k (i_mask i) false = false -> nth k (i_data i) (RtoC 0) = RtoC 0) ->
  ifo_optimal_snr_squared i (i_data i) = Some (RtoC rho) ->
  length y = (2 * m)%nat /\ rsum (2 * m) (fun j => nth j y 0 * nth j y 0) = INR (S m) ^ 2 / (INR (count_mask (i_mask i)) * INR m) * rho.
Proof.
  intros i y m rho G E Ld Lm M0 Mm Z SN. unfold whitened_strain in E. destruct (whiten i (i_data i)) as [w|] eqn:Ew; [|discriminate]. cbn [bindo] in E.
  assert (Lw : length w = S m).
  { unfold whiten in Ew. destruct (Nat.eqb_spec (length (i_data i)) (length (asd_array i))) as [L|]; [|discriminate]. apply some_inj in Ew. rewrite <- Ew, map_length, combine_length, <- L, Nat.min_id. exact Ld. }
  assert (Zw : forall k, nth k (i_mask i) false = false -> nth k w (RtoC 0) = RtoC 0).
  { intros k Hk. destruct (le_lt_dec (S m) k) as [Lk|Lk]; [apply nth_overflow; rewrite Lw; exact Lk|]. pose proof (C186_bin i (i_data i) w k G Ew ltac:(rewrite Ld; exact Lk)) as B.
    destruct (nth k (i_psd i) Inf); [|exact B]. destruct B as (c & _ & B & _). rewrite B, (Z k Hk). unfold RtoC. cbn [fst snd]. f_equal; ring. }
  rewrite (C186_energy i (i_data i) w G Ew ltac:(rewrite Lm, Ld; reflexivity)) in SN. apply some_inj in SN. assert (SN' := f_equal fst SN). cbn [fst RtoC] in SN'.
  rewrite (nth_zero_off _ _ ltac:(rewrite Lm, Lw; reflexivity) Zw) in SN'. rewrite Lw in SN'.
  destruct (C186_time_energy i w y m E Lw Lm ltac:(now rewrite (Zw 0%nat M0)) ltac:(now rewrite (Zw m Mm))) as (Ly & Hm & P). split; [exact Ly|]. rewrite P. rewrite <- SN'.
  destruct m as [|m]; [lia|]. rewrite rsum_shift0, rsum_S. cbn [Nat.sub]. rewrite Nat.sub_0_r. rewrite (Zw 0%nat M0), (Zw (S m) Mm).
  replace (abs2 (RtoC 0)) with 0 by (unfold abs2, RtoC; cbn [fst snd]; ring).
  assert (HM : INR (count_mask (i_mask i)) <> 0).
  { unfold whitened_time_series in E. cbv zeta in E. destruct (irfft w); [|discriminate]. cbn [bindo] in E.
    destruct (Nat.eqb_spec (count_mask (i_mask i)) 0) as [|NM]; [discriminate|]. now apply not_0_INR. }
  assert (HS : INR (S m) <> 0) by (apply not_0_INR; lia). rewrite mult_INR. simpl (INR 2). field. split; assumption.
Qed.
(** unit variance is missed by the factor L / (L - 1), with L the number of frequencies: when the squared
    sizes in band add up to two for each of the M analysed bins, the mean square is (L / (L - 1))^2 *)
Theorem C186_unit_variance_refuted : forall i w y m, whitened_time_series i w = Some y ->
  length w = S m -> length (i_mask i) = S m -> nth 0 w (RtoC 0) = RtoC 0 -> nth m w (RtoC 0) = RtoC 0 ->
  rsum (m - 1) (fun k => abs2 (nth (S k) w (RtoC 0))) = 2 * INR (count_mask (i_mask i)) ->
  rsum (length y) (fun j => nth j y 0 * nth j y 0) / INR (length y) = (INR (S m) / INR m) ^ 2 /\ 1 < (INR (S m) / INR m) ^ 2.
Proof.
  intros i w y m E Lw Lm W0 Wm V.
  destruct (C186_time_energy i w y m E Lw Lm ltac:(now rewrite W0) ltac:(now rewrite Wm)) as (Ly & Hm & P).
  rewrite Ly, P, V, W0, Wm. assert (0 < INR m) by (apply lt_0_INR; lia).
  assert (HM : INR (count_mask (i_mask i)) <> 0).
  { unfold whitened_time_series in E. cbv zeta in E. destruct (irfft w); [|discriminate]. cbn [bindo] in E.
    destruct (Nat.eqb_spec (count_mask (i_mask i)) 0) as [|NM]; [discriminate|]. now apply not_0_INR. }
  split.
  - unfold abs2, RtoC. cbn [fst snd]. rewrite mult_INR. simpl (INR 2). field. split; [lra|auto].
  - rewrite S_INR. replace ((INR m + 1) / INR m) with (1 + / INR m) by (field; lra). assert (0 < / INR m) by (now apply Rinv_0_lt_compat). simpl. nra.
Qed.
(** three frequencies, one in band: the whitened value of 1 is 2 / sqrt (T S); in time the values 3 cos (pi j / 2) for
    a whitened 2 at the middle bin *)
Example C186_ex :
  whiten (mkI [false; true; false] [Inf; Fin 4; Fin 1] 1 4 []) [RtoC 1; RtoC 6; RtoC 0] = Some [RtoC 0; RtoC 3; RtoC 0]
  /\ whitened_time_series (mkI [false; true; false] [Inf; Fin 4; Fin 1] 1 4 []) [RtoC 0; RtoC 2; RtoC 0] = Some [3; 0; -3; 0].
Proof.
  split.
  - unfold whiten, asd_array. cbn [i_psd i_wf i_T map length Nat.eqb combine fst snd root_ext scale_ext cdivr].
    replace (sqrt 4) with 2 by (replace 4 with (2 * 2) by ring; rewrite sqrt_square; lra).
    replace (4 / 4) with 1 by field. rewrite sqrt_1. unfold RtoC. cbn [fst snd]. repeat f_equal; field.
  - unfold whitened_time_series, irfft, count_mask. cbn -[INR IZR Rplus Rmult Rdiv Rinv cos sin sqrt angle RtoC Rminus].
    f_equal. unfold RtoC, angle. cbn [fst snd]. simpl INR.
    replace (2 * PI * (0 * 1) / (1 + 1 + 1 + 1)) with 0 by field. replace (2 * PI * (1 * 1) / (1 + 1 + 1 + 1)) with (PI / 2) by field.
    replace (2 * PI * ((1 + 1) * 1) / (1 + 1 + 1 + 1)) with PI by field. replace (2 * PI * ((1 + 1 + 1) * 1) / (1 + 1 + 1 + 1)) with (3 * (PI / 2)) by field.
    rewrite cos_0, cos_PI2, cos_PI, cos_3PI2, sqrt_1. repeat (f_equal; try field).
Qed.

(** ** Assumptions of every theorem above *)
Definition Ifo_Props_all :=
  (@C185_power,
   @C185_tight,
   @C185_monotone,
   @C185_raises,
   @C185_rounded_up_refuted,
   @C185_added,
   @C185_energy,
   @C185_wraps,
   @C185_never_too_long,
   @C185_meta_time,
   @C185_matched_filter_refuted,
   @C186_bin,
   @C186_energy,
   @C186_time_energy,
   @C186_strain,
   @C186_unit_variance_refuted).
Print Assumptions Ifo_Props_all.
