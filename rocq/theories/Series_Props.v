(** * Fourier helpers (C17), time and frequency arrays (C18), the coupled series object (C48) *)
From Coq Require Import Reals List ZArith Bool Lra Lia Psatz.
From Verif Require Import PyReal Interp_Model Series_Model Series_Proofs.
Import ListNotations.
Open Scope R_scope.

(** ** C17: Fourier round trip *)
Theorem C17_round_trip : forall (x : list R) (fs : R), Nat.Even (length x) -> x <> [] -> fs <> 0 ->
  infft (fst (nfft x fs)) fs = Some x.
Proof.
  intros x fs [m Hm] Hx Hfs. assert (0 < m)%nat by (destruct x; [congruence|simpl in Hm; lia]).
  unfold infft, nfft. cbn [fst]. rewrite (irfft_scaled _ fs x) by (apply (irfft_rfft x m); auto).
  f_equal. rewrite map_map. rewrite <- map_id. apply map_ext. intros v. field; auto.
Qed.
(** one sample is silently lost for odd lengths *)
Theorem C17_odd_loses_sample : forall (x : list R) (fs : R), Nat.Odd (length x) -> (3 <= length x)%nat ->
  exists y, infft (fst (nfft x fs)) fs = Some y /\ S (length y) = length x.
Proof.
  intros x fs [m Hm] H3. unfold infft, nfft. cbn [fst]. unfold irfft. rewrite map_length, rfft_length.
  assert (Hh : (length x / 2 = m)%nat).
  { rewrite Hm. replace (2 * m + 1)%nat with (1 + m * 2)%nat by lia. rewrite Nat.div_add by lia. reflexivity. }
  rewrite Hh. replace (m + 1 - 1)%nat with m by lia. destruct (Nat.eqb_spec m 0); [lia|].
  eexists. split; [reflexivity|]. rewrite !map_length, seq_length. lia.
Qed.
(** energy: sum x^2 dt = df (|X_0|^2 + 2 sum |X_k|^2 + |X_N/2|^2) *)
Theorem C17_parseval : forall (x : list R) (fs : R), Nat.Even (length x) -> x <> [] -> 0 < fs ->
  let X := fst (nfft x fs) in let m := (length x / 2)%nat in
  let e k := fst (nth k X (0,0)) * fst (nth k X (0,0)) + snd (nth k X (0,0)) * snd (nth k X (0,0)) in
  rsum (length x) (fun j => nth j x 0 * nth j x 0) * (1 / fs)
  = (fs / INR (length x)) * (e 0%nat + 2 * rsum (m - 1) (fun i => e (S i)) + e m).
Proof.
  intros x fs [m0 Hm] Hx Hfs X m e.
  assert (Hh : (length x / 2 = m0)%nat) by (rewrite Hm, Nat.mul_comm; apply Nat.div_mul; lia).
  unfold m. rewrite Hh. clear m. rename m0 into m.
  assert (Hpos : (0 < m)%nat) by (destruct x; [congruence|simpl in Hm; lia]).
  pose proof (parseval_rfft x m Hm Hpos) as P. cbv zeta in P.
  set (re := fun k => fst (nth k (rfft x) (0,0))). set (im := fun k => snd (nth k (rfft x) (0,0))).
  assert (Hi : forall k, (k = 0 \/ k = m)%nat -> im k = 0).
  { intros k Hk. unfold im. rewrite rfft_nth by lia. cbn [snd]. rewrite Hm.
    rewrite (rsum_ext _ _ (fun _ => 0)), rsum_0; [lra|]. intros j _.
    replace (sin (angle (2*m) j k)) with 0; [ring|]. destruct Hk as [->| ->].
    - unfold angle. simpl (INR 0). rewrite Rmult_0_r, Rmult_0_r. unfold Rdiv. rewrite Rmult_0_l, sin_0. reflexivity.
    - replace (angle (2*m) j m) with (INR j * PI); [symmetry; apply sin_INR_PI|].
      unfold angle. rewrite mult_INR. simpl (INR 2). field. apply not_0_INR; lia. }
  assert (E : forall k, e k = / (fs * fs) * (re k * re k + im k * im k)).
  { intros k. unfold e, X, nfft. cbn [fst]. rewrite nth_scaled. cbn [fst snd]. unfold re, im. field. lra. }
  rewrite (rsum_ext _ (fun i => e (S i)) (fun i => / (fs*fs) * (re (S i) * re (S i) + im (S i) * im (S i)))) by (intros; apply E).
  rewrite rsum_scal, !E, (Hi 0%nat), (Hi m) by auto. rewrite Hm.
  assert (Hn : INR (2*m) <> 0) by (apply not_0_INR; lia).
  apply Rmult_eq_reg_l with (INR (2*m)); [|auto]. rewrite <- Rmult_assoc, P. unfold re, im. field. split; [lra|auto].
Qed.
(** the tone cos (2 pi f t), f = p fs / n, sampled at the n times t = j / fs *)
Definition tone (n p : nat) (fs : R) : list R := map (fun j => cos (2 * PI * (INR p * fs / INR n) * (INR j / fs))) (seq 0 n).
Theorem C17_tone_bin : forall (n p k : nat) (fs : R), 0 < fs -> (0 < p)%nat -> (2 * p < n)%nat -> (2 * k <= n)%nat ->
  nth k (fst (nfft (tone n p fs) fs)) (0, 0) = if Nat.eq_dec k p then (INR n / (2 * fs), 0) else (0, 0).
Proof.
  intros n p k fs Hfs Hp Hpn Hk.
  assert (Hn : INR n <> 0) by (apply not_0_INR; lia).
  assert (L : length (tone n p fs) = n) by (unfold tone; rewrite map_length, seq_length; auto).
  assert (Hk' : (k <= n / 2)%nat) by (apply Nat.div_le_lower_bound; lia).
  assert (V : forall j, (j < n)%nat -> nth j (tone n p fs) 0 = cos (INR j * (2 * PI * INR p / INR n))).
  { intros j Hj. unfold tone. rewrite nth_map_seq by auto. f_equal. field. split; [auto|lra]. }
  unfold nfft. cbn [fst]. rewrite nth_scaled, rfft_nth by (rewrite L; lia). cbn [fst snd]. rewrite L.
  rewrite (rsum_ext n _ (fun j => cos (INR j * (2 * PI * INR p / INR n)) * cos (angle n j k))) by (intros; rewrite V; auto).
  rewrite (rsum_ext n (fun j => _ * sin _) (fun j => cos (INR j * (2 * PI * INR p / INR n)) * sin (angle n j k))) by (intros; rewrite V; auto).
  rewrite cos_cos_sum, cos_sin_sum by lia. destruct (Nat.eq_dec k p); f_equal; field; lra.
Qed.
(** the frequency array of nfft: right for even n, wrong in every bin but the first for odd n *)
Theorem C17_labels : forall (x : list R) (fs : R) (k : nat), 0 < fs -> (2 <= length x)%nat -> (k <= length x / 2)%nat ->
  let label := nth k (snd (nfft x fs)) 0 in let true_frequency := INR k * fs / INR (length x) in
  (Nat.Even (length x) -> label = true_frequency) /\ (Nat.Odd (length x) -> (0 < k)%nat -> true_frequency < label).
Proof.
  intros x fs k Hfs H2 Hk label tf.
  assert (Hl : label = INR k * (fs / 2 / INR (length x / 2))).
  { unfold label, nfft. cbn [snd]. rewrite map_length, rfft_length, linspace_nth by lia.
    replace (length x / 2 + 1 - 1)%nat with (length x / 2)%nat by lia. rewrite Rminus_0_r. ring. }
  rewrite Hl. unfold tf. split.
  - intros [m Hm]. assert (Hh : (length x / 2 = m)%nat) by (rewrite Hm, Nat.mul_comm; apply Nat.div_mul; lia).
    rewrite Hh, Hm, mult_INR. simpl (INR 2). field. apply not_0_INR. lia.
  - intros [m Hm] Hk0.
    assert (Hh : (length x / 2 = m)%nat).
    { rewrite Hm. replace (2 * m + 1)%nat with (1 + m * 2)%nat by lia. rewrite Nat.div_add by lia. reflexivity. }
    rewrite Hh in *. rewrite Hm, plus_INR, mult_INR. simpl (INR 2). simpl (INR 1).
    assert (0 < INR m) by (apply lt_0_INR; lia). assert (0 < INR k) by (apply lt_0_INR; lia).
    replace (INR k * (fs / 2 / INR m)) with (INR k * fs / (2 * INR m)) by (field; lra).
    unfold Rdiv. apply Rmult_lt_compat_l; [nra|]. apply Rinv_lt_contravar; nra.
Qed.
Example C17_ex : infft (fst (nfft [1; 2; 5; -3] 4)) 4 = Some [1; 2; 5; -3] /\ nth 0 (fst (nfft [1; 2; 5; -3] 4)) (0,0) = (5/4, 0).
Proof.
  split.
  - apply C17_round_trip; [exists 2%nat; reflexivity|discriminate|lra].
  - unfold nfft, rfft, angle. cbn. rewrite !Rmult_0_r. unfold Rdiv. rewrite !Rmult_0_l, cos_0, sin_0. f_equal; lra.
Qed.
Example C17_ex_odd : exists y, infft (fst (nfft [1; 2; 5] 4)) 4 = Some y /\ length y = 2%nat.
Proof. destruct (C17_odd_loses_sample [1;2;5] 4) as [y [H1 H2]]; [exists 1%nat; reflexivity|simpl; lia|]. exists y. simpl in H2. auto. Qed.
Example C17_ex_tone : nth 2 (fst (nfft (tone 7 2 16) 16)) (0,0) = (7/32, 0) /\ nth 2 (snd (nfft (tone 7 2 16) 16)) 0 = 16/3.
Proof.
  split.
  - rewrite C17_tone_bin by (lra || lia). cbn. f_equal; lra.
  - unfold nfft, tone, linspace, rfft. cbn. lra.
Qed.

(** ** C18: time and frequency arrays *)
Lemma prod_nat fs T n : T * fs = INR n -> T * fs = IZR (Z.of_nat n) /\ fs * T = IZR (Z.of_nat n).
Proof. intros H. rewrite <- INR_IZR_INZ. split; [auto|rewrite Rmult_comm; auto]. Qed.
Theorem C18_time_array : forall (fs T t0 : R) (n : nat), 0 < fs -> (0 < n)%nat -> T * fs = INR n ->
  exists l, create_time_series fs T t0 = Some l /\ length l = n /\ forall k, (k < n)%nat -> nth k l 0 = t0 + INR k / fs.
Proof.
  intros fs T t0 n Hfs Hn H. destruct (prod_nat _ _ _ H) as [Ha Hb]. unfold create_time_series.
  rewrite (legal_IZR _ _ _ Hb), Ha, trunc_IZR, Nat2Z.id. eexists. split; [reflexivity|].
  split; [apply linspace_length|]. intros k Hk. rewrite linspace_nth by auto.
  destruct (Nat.eq_dec n 1) as [->|Hn1].
  - replace k with 0%nat by lia. simpl (INR 0). unfold Rdiv. ring.
  - replace T with (INR n / fs) by (rewrite <- H; field; lra). rewrite minus_INR by lia. simpl (INR 1). field.
    split; [lra|]. assert (INR 1 < INR n) by (apply lt_INR; lia). simpl in *. lra.
Qed.
Lemma nf_even m : Z.to_nat (trunc (IZR (round_even (IZR (Z.of_nat (2 * m)) / 2)) + 1)) = (m + 1)%nat.
Proof.
  replace (IZR (Z.of_nat (2*m)) / 2) with (IZR (Z.of_nat m)) by (rewrite Nat2Z.inj_mul, mult_IZR; simpl (IZR (Z.of_nat 2)); field).
  rewrite round_even_IZR, <- plus_IZR, trunc_IZR. lia.
Qed.
Lemma nf_odd m : Z.to_nat (trunc (IZR (round_even (IZR (Z.of_nat (2 * m + 1)) / 2)) + 1)) = if Nat.even m then (m + 1)%nat else (m + 2)%nat.
Proof.
  replace (IZR (Z.of_nat (2*m+1)) / 2) with (IZR (Z.of_nat m) + 1/2)
    by (rewrite Nat2Z.inj_add, Nat2Z.inj_mul, plus_IZR, mult_IZR; simpl (IZR (Z.of_nat 2)); simpl (IZR (Z.of_nat 1)); field).
  rewrite round_even_half.
  replace (Z.even (Z.of_nat m)) with (Nat.even m).
  - destruct (Nat.even m); rewrite <- plus_IZR, trunc_IZR; lia.
  - clear. assert (E : Nat.even m = true <-> Z.even (Z.of_nat m) = true).
    { rewrite Nat.even_spec, Z.even_spec. split; intros [k Hk]; [exists (Z.of_nat k)|exists (Z.to_nat k)]; lia. }
    destruct (Nat.even m), (Z.even (Z.of_nat m)); intuition congruence.
Qed.
(** even number of samples: n/2 + 1 frequencies k / duration, the last the Nyquist frequency *)
Theorem C18_frequency_array_even : forall (fs T : R) (n : nat), 0 < fs -> (0 < n)%nat -> Nat.Even n -> T * fs = INR n ->
  exists l, create_frequency_series fs T = Some l /\ length l = (n / 2 + 1)%nat
    /\ (forall k, (k <= n / 2)%nat -> nth k l 0 = INR k / T) /\ last l 0 = fs / 2.
Proof.
  intros fs T n Hfs Hn [m Hm] H. destruct (prod_nat _ _ _ H) as [Ha Hb]. unfold create_frequency_series.
  assert (Hh : (n / 2 = m)%nat) by (rewrite Hm, Nat.mul_comm; apply Nat.div_mul; lia).
  rewrite (legal_IZR _ _ _ Hb), Ha, round_even_IZR, Hm, nf_even, <- Hm, Hh. eexists. split; [reflexivity|].
  assert (Hm0 : 0 < INR m) by (apply lt_0_INR; lia).
  assert (HT : T = 2 * INR m / fs) by (apply Rmult_eq_reg_r with fs; [|lra]; rewrite H, Hm, mult_INR; simpl (INR 2); field; lra).
  split; [apply linspace_length|].
  assert (N : forall k, (k <= m)%nat -> nth k (linspace 0 (fs / 2) (m + 1)) 0 = INR k / T).
  { intros k Hk. rewrite linspace_nth by lia. replace (m + 1 - 1)%nat with m by lia. rewrite HT. field. lra. }
  split; [exact N|].
  assert (La : forall l : list R, l <> [] -> last l 0 = nth (length l - 1) l 0).
  { induction l as [|a l IH]; [congruence|]. intros _. destruct l as [|b l]; [reflexivity|].
    change (last (a :: b :: l) 0) with (last (b :: l) 0). rewrite IH by discriminate. simpl. rewrite Nat.sub_0_r. reflexivity. }
  rewrite La, linspace_length. 2:{ intros E. apply (f_equal (@length R)) in E. rewrite linspace_length in E. simpl in E. lia. }
  replace (m + 1 - 1)%nat with m by lia. rewrite N by lia. rewrite HT. field. lra.
Qed.
(** odd n = 2 m + 1: half-to-even rounding gives m + 1 points for even m but m + 2 for odd m,
    so the array fits the transform of an n-sample series only when n = 1 mod 4; the spacing
    is never 1 / duration *)
Theorem C18_frequency_array_odd : forall (fs T : R) (m : nat), 0 < fs -> (0 < m)%nat -> T * fs = INR (2 * m + 1) ->
  exists l, create_frequency_series fs T = Some l
    /\ (forall x, length x = (2 * m + 1)%nat -> (length l = length (fst (nfft x fs)) <-> Nat.Even m))
    /\ nth 1 l 0 <> 1 / T.
Proof.
  intros fs T m Hfs Hm H. destruct (prod_nat _ _ _ H) as [Ha Hb]. unfold create_frequency_series.
  rewrite (legal_IZR _ _ _ Hb), Ha, round_even_IZR, nf_odd. eexists. split; [reflexivity|]. split.
  - intros x Hx. rewrite linspace_length. unfold nfft. cbn [fst]. rewrite map_length, rfft_length, Hx.
    assert (Hh : ((2*m+1) / 2 = m)%nat).
    { replace (2 * m + 1)%nat with (1 + m * 2)%nat by lia. rewrite Nat.div_add by lia. reflexivity. }
    rewrite Hh, <- Nat.even_spec. destruct (Nat.even m); split; intros; auto; try lia; discriminate.
  - set (q := if Nat.even m then (m + 1)%nat else (m + 2)%nat).
    assert (Hq : q = (m + 1)%nat \/ q = (m + 2)%nat) by (unfold q; destruct (Nat.even m); auto).
    rewrite linspace_nth by lia. simpl (INR 1).
    assert (HT : T = (2 * INR m + 1) / fs).
    { apply Rmult_eq_reg_r with fs; [|lra]. rewrite H, plus_INR, mult_INR. simpl (INR 2). simpl (INR 1). field. lra. }
    assert (Hm0 : 0 < INR m) by (apply lt_0_INR; lia). rewrite HT. intros E.
    assert (E' : INR (q - 1) * 2 = 2 * INR m + 1).
    { assert (Hq0 : 0 < INR (q - 1)) by (apply lt_0_INR; lia).
      apply Rmult_eq_reg_l with (fs / (2 * INR (q-1) * (2 * INR m + 1))).
      2:{ apply Rgt_not_eq, Rdiv_lt_0_compat; [lra|]. apply Rmult_lt_0_compat; lra. }
      transitivity (1 / ((2 * INR m + 1) / fs)); [field; split; lra|]. rewrite <- E. field. split; lra. }
    apply (f_equal (fun r => r)) in E'.
    assert (E2 : INR ((q - 1) * 2) = INR (2 * m + 1)) by (rewrite plus_INR, !mult_INR; simpl (INR 2); simpl (INR 1); lra).
    apply INR_eq in E2. lia.
Qed.
(** within the accepted tolerance below an integer, the time array is one sample short *)
Theorem C18_time_truncation : forall (fs T t0 : R) (n : nat), (0 < n)%nat ->
  INR n - / 10 ^ 14 <= T * fs < INR n ->
  exists l, create_time_series fs T t0 = Some l /\ length l = (n - 1)%nat.
Proof.
  intros fs T t0 n Hn H.
  assert (P : 0 < / 10 ^ 14) by (apply Rinv_0_lt_compat, pow_lt; lra).
  assert (P2 : / 10 ^ 14 < 1/2) by (replace (1/2) with (/ 2) by lra; apply Rinv_lt_contravar; lra).
  assert (Hr : round_even (fs * T) = Z.of_nat n).
  { apply round_even_near. rewrite <- INR_IZR_INZ, Rmult_comm. apply Rabs_def1; lra. }
  unfold create_time_series, legal. rewrite Hr, <- INR_IZR_INZ, (Rmult_comm fs T).
  destruct (Rlt_dec _ _) as [L|_]; [rewrite Rabs_left in L; lra|].
  eexists. split; [reflexivity|]. rewrite linspace_length.
  assert (N1 : 1 <= INR n) by (change 1 with (INR 1); apply le_INR; lia).
  unfold trunc. destruct (Rlt_dec _ _); [lra|].
  rewrite (Int_part_eq _ (Z.of_nat n - 1)); [lia|]. rewrite minus_IZR, <- INR_IZR_INZ. simpl. lra.
Qed.
(** a product further than the tolerance from every integer is rejected by both functions *)
Theorem C18_illegal_rejected : forall (fs T t0 : R), (forall z : Z, / 10 ^ 14 < Rabs (fs * T - IZR z)) ->
  create_time_series fs T t0 = None /\ create_frequency_series fs T = None.
Proof.
  intros fs T t0 H. assert (L : legal fs T = false).
  { unfold legal. destruct (Rlt_dec _ _) as [_|L]; auto. exfalso. apply L, H. }
  unfold create_time_series, create_frequency_series. rewrite L. auto.
Qed.
(** reading the sampling frequency and duration back from the arrays (up to the rounding to
    14 decimals) *)
Theorem C18_read_back : forall (fs T t0 : R) (n : nat) (a b : Z), 0 < fs -> (2 <= n)%nat -> Nat.Even n -> T * fs = INR n ->
  fs * 10 ^ 14 = IZR a -> T * 10 ^ 14 = IZR b ->
  (exists l, create_time_series fs T t0 = Some l /\ from_time_array l = Some (fs, T))
  /\ (exists l, create_frequency_series fs T = Some l /\ from_frequency_array l = Some (fs, T)).
Proof.
  intros fs T t0 n a b Hfs Hn [m Hm] H Hra Hrb. destruct (prod_nat _ _ _ H) as [Ha Hb].
  assert (Hn0 : 2 <= INR n) by (change 2 with (INR 2); apply le_INR; lia).
  assert (HT : T = INR n / fs) by (rewrite <- H; field; lra).
  assert (HTp : 0 < T) by (rewrite HT; apply Rdiv_lt_0_compat; lra).
  split.
  - unfold create_time_series. rewrite (legal_IZR _ _ _ Hb), Ha, trunc_IZR, Nat2Z.id. eexists. split; [reflexivity|].
    destruct n as [|[|n]]; [lia|lia|]. rewrite from_time_linspace. cbv zeta.
    assert (0 < INR (S n)) by (apply lt_0_INR; lia).
    replace (1 / ((T + t0 - 1 / fs - t0) / INR (S n))) with fs.
    2:{ rewrite HT, (S_INR (S n)). field. repeat split; lra. }
    rewrite (round14_exact _ _ Hra). rewrite HT at 1. reflexivity.
  - unfold create_frequency_series. rewrite (legal_IZR _ _ _ Hb), Ha, round_even_IZR, Hm, nf_even. eexists. split; [reflexivity|].
    destruct m as [|m]; [lia|]. replace (S m + 1)%nat with (S (S m)) by lia. rewrite from_freq_linspace. cbv zeta.
    assert (Hm0 : 0 < INR (S m)) by (apply lt_0_INR; lia).
    assert (Hnm : INR n = 2 * INR (S m)) by (rewrite Hm, mult_INR; reflexivity).
    replace (1 / ((fs / 2 - 0) / INR (S m))) with T by (rewrite HT, Hnm; field; lra).
    rewrite (round14_exact _ _ Hrb).
    replace (2 * (INR (S (S m)) - 1) / T) with fs by (rewrite (S_INR (S m)), HT, Hnm; field; lra).
    rewrite (round14_exact _ _ Hra). reflexivity.
Qed.
Example C18_ex : (exists l, create_time_series 4 2 10 = Some l /\ length l = 8%nat /\ nth 3 l 0 = 10 + 3/4)
  /\ (exists l, create_frequency_series 4 2 = Some l /\ length l = 5%nat /\ nth 3 l 0 = 3/2).
Proof.
  split.
  - destruct (C18_time_array 4 2 10 8) as [l [H1 [H2 H3]]]; [lra|lia|simpl; lra|]. exists l. split; auto. split; auto.
    rewrite H3 by lia. simpl. lra.
  - destruct (C18_frequency_array_even 4 2 8) as [l [H1 [H2 [H3 _]]]]; [lra|lia|exists 4%nat; reflexivity|simpl; lra|].
    exists l. split; auto. split; auto. rewrite H3 by (cbn; lia). simpl. lra.
Qed.
(** 7 samples: 5 frequencies instead of the 4 of the transform *)
Example C18_ex_odd : exists l, create_frequency_series 7 1 = Some l /\ length l <> length (fst (nfft [1;2;3;4;5;6;7] 7)).
Proof.
  destruct (C18_frequency_array_odd 7 1 3) as [l [H1 [H2 _]]]; [lra|lia|simpl; lra|]. exists l. split; auto.
  rewrite (H2 [1;2;3;4;5;6;7]) by reflexivity. intros [k Hk]. lia.
Qed.

(** ** C48: cached arrays of the coupled series object *)
Section C48.
Context {D F A : Type}.
Variable mkf : D -> D -> option F.
Variable mkt : D -> D -> D -> option A.
Variable off : F -> option (D * D).
Variable oft : A -> option (D * D).
Variable t0of : A -> D.
Notation run := (crun mkf mkt off oft t0of).
(** the arrays that belong to the current attributes *)
Definition fresh_f (s : @cts D F A) : option F := match c_fs s, c_T s with Some fs, Some T => mkf fs T | _, _ => None end.
Definition fresh_t (s : @cts D F A) : option A := match c_fs s, c_T s with Some fs, Some T => mkt fs T (c_t0 s) | _, _ => None end.
Definition scalar_op (o : @cop D F A) : Prop := match o with SetF _ | SetTime _ => False | _ => True end.
Definition coherent (s : @cts D F A) : Prop := (c_fok s = true -> c_f s = fresh_f s) /\ (c_tok s = true -> c_t s = fresh_t s).
Lemma coherent_step s o : scalar_op o -> coherent s -> coherent (cstep mkf mkt off oft t0of s o).
Proof.
  intros Ho [H1 H2]. destruct s as [fs T t0 f fo t to]. destruct o; simpl in Ho; try contradiction; unfold coherent, fresh_f, fresh_t, cstep, get_f, get_t in *; simpl in *.
  - split; discriminate.
  - split; discriminate.
  - split; [auto|discriminate].
  - destruct fo; simpl; auto. destruct fs as [fs|], T as [T|]; simpl; auto. destruct (mkf fs T) eqn:E; simpl; rewrite ?E; auto.
  - destruct to; simpl; auto. destruct fs as [fs|], T as [T|]; simpl; auto. destruct (mkt fs T t0) eqn:E; simpl; rewrite ?E; auto.
Qed.
Lemma coherent_run l : forall s, List.Forall scalar_op l -> coherent s -> coherent (run s l).
Proof. induction l as [|o l IH]; intros s Hl Hs; [auto|]. inversion Hl; subst. apply IH; auto. apply coherent_step; auto. Qed.
Lemma coherent_get s : coherent s -> fst (get_f mkf s) = fresh_f s /\ fst (get_t mkt s) = fresh_t s.
Proof.
  intros [H1 H2]. destruct s as [fs T t0 f fo t to]. unfold fresh_f, fresh_t, get_f, get_t in *. simpl in *. split.
  - destruct fo; simpl; auto. destruct fs as [fs|], T as [T|]; simpl; auto. destruct (mkf fs T); auto.
  - destruct to; simpl; auto. destruct fs as [fs|], T as [T|]; simpl; auto. destruct (mkt fs T t0); auto.
Qed.
(** after any sequence of operations [pre] (including array assignments), once the duration or the
    sampling frequency is assigned, and through any further reads and scalar assignments, both
    arrays are those of the current attributes; likewise for a new object *)
Theorem C48_scalar_assignments_refresh : forall s0 pre o post,
  (exists T, o = SetT T) \/ (exists fs, o = SetFs fs) -> List.Forall scalar_op post ->
  let s := run s0 (pre ++ o :: post) in fst (get_f mkf s) = fresh_f s /\ fst (get_t mkt s) = fresh_t s.
Proof.
  intros s0 pre o post Ho Hp s. apply coherent_get. unfold s, crun. rewrite fold_left_app. simpl.
  apply (coherent_run post); auto. destruct Ho as [[T ->]|[fs ->]]; split; discriminate.
Qed.
Theorem C48_new_object : forall fs T t0 l, List.Forall scalar_op l ->
  let s := run (new_cts fs T t0) l in fst (get_f mkf s) = fresh_f s /\ fst (get_t mkt s) = fresh_t s.
Proof. intros fs T t0 l Hl s. apply coherent_get, coherent_run; auto. split; discriminate. Qed.
(** an accepted array is returned as assigned, with its own attributes, through any reads and
    start-time assignments *)
Definition keeps_f (o : @cop D F A) : Prop := match o with GetF | GetTime | SetT0 _ => True | _ => False end.
Theorem C48_assigned_frequency_array : forall s f fs T post, off f = Some (fs, T) -> List.Forall keeps_f post ->
  let s' := run s (SetF f :: post) in fst (get_f mkf s') = Some f /\ c_fs s' = Some fs /\ c_T s' = Some T.
Proof.
  intros s f fs T post Hf Hp s'.
  assert (G : forall post s, List.Forall keeps_f post -> c_f s = Some f /\ c_fok s = true /\ c_fs s = Some fs /\ c_T s = Some T ->
    let s' := run s post in c_f s' = Some f /\ c_fok s' = true /\ c_fs s' = Some fs /\ c_T s' = Some T).
  { clear. induction post as [|o l IH]; intros s Hl Hs; [exact Hs|]. inversion Hl; subst. apply (IH (cstep mkf mkt off oft t0of s o)); auto.
    destruct s as [a b c d e g h]. simpl in Hs. destruct Hs as [-> [-> [-> ->]]]. destruct o; simpl in *; try contradiction; auto.
    unfold get_t. simpl. destruct h; simpl; auto. destruct (mkt fs T c); simpl; auto. }
  destruct (G post (cstep mkf mkt off oft t0of s (SetF f)) Hp) as [H1 [H2 [H3 H4]]].
  { simpl. rewrite Hf. simpl. auto. }
  unfold get_f. fold (run s (SetF f :: post)) in *. change (run (cstep mkf mkt off oft t0of s (SetF f)) post) with s' in *.
  rewrite H2. auto.
Qed.
End C48.

(** the real arrays *)
Notation real_run := (crun create_frequency_series create_time_series from_frequency_array from_time_array (fun t : list R => nth 0 t 0)).
(** assigning a frequency array leaves an already computed time array in place *)
Theorem C48_stale_time_array_refuted : exists s f,
  let s' := real_run s [GetTime; SetF f] in
  fst (get_t create_time_series s') <> fresh_t create_time_series s' /\ from_frequency_array f = Some (8, 1).
Proof.
  destruct (C18_read_back 8 1 0 8 800000000000000 100000000000000) as [_ [l [Hl1 Hl2]]]; [lra|lia|exists 4%nat; reflexivity|simpl; lra|simpl; lra|simpl; lra|].
  exists (new_cts (Some 4) (Some 1) 0), l. cbv zeta. split; [|exact Hl2].
  destruct (C18_time_array 4 1 0 4) as [u [U1 [U2 _]]]; [lra|lia|simpl; lra|].
  destruct (C18_time_array 8 1 0 8) as [v [V1 [V2 _]]]; [lra|lia|simpl; lra|].
  unfold crun. simpl fold_left. unfold get_t. simpl. rewrite U1. simpl. rewrite Hl2. simpl. unfold fresh_t. simpl. rewrite V1.
  intros E. apply some_inj in E. rewrite E in U2. congruence.
Qed.
(** assigning a time array leaves an already computed frequency array in place *)
Theorem C48_stale_frequency_array_refuted : exists s t,
  let s' := real_run s [GetF; SetTime t] in
  fst (get_f create_frequency_series s') <> fresh_f create_frequency_series s' /\ from_time_array t = Some (8, 1).
Proof.
  destruct (C18_read_back 8 1 0 8 800000000000000 100000000000000) as [[l [Hl1 Hl2]] _]; [lra|lia|exists 4%nat; reflexivity|simpl; lra|simpl; lra|simpl; lra|].
  exists (new_cts (Some 4) (Some 1) 0), l. cbv zeta. split; [|exact Hl2].
  destruct (C18_frequency_array_even 4 1 4) as [u [U1 [U2 _]]]; [lra|lia|exists 2%nat; reflexivity|simpl; lra|].
  destruct (C18_frequency_array_even 8 1 8) as [v [V1 [V2 _]]]; [lra|lia|exists 4%nat; reflexivity|simpl; lra|].
  unfold crun. simpl fold_left. unfold get_f. simpl. rewrite U1. simpl. rewrite Hl2. simpl. unfold fresh_f. simpl. rewrite V1.
  intros E. apply some_inj in E. rewrite E in U2. rewrite V2 in U2. discriminate.
Qed.
(** an unevenly spaced frequency array is refused with an exception, but when the cache was
    valid the next read returns the refused array *)
Theorem C48_refused_array_kept_refuted : exists s f, from_frequency_array f = None /\
  fst (get_f create_frequency_series (real_run s [GetF; SetF f])) = Some f.
Proof.
  exists (new_cts (Some 4) (Some 1) 0), [0; 1; 5].
  assert (H : from_frequency_array [0; 1; 5] = None).
  { unfold from_frequency_array, spread, diffs. simpl fold_right.
    destruct (Rlt_dec _ _) as [L|L]; [reflexivity|]. exfalso. apply L.
    rewrite Rmax_left, Rmin_right by lra.
    assert (/ 10 ^ 10 < / 1) by (apply Rinv_lt_contravar; lra). lra. }
  split; [exact H|]. revert H. generalize [0; 1; 5]. intros f H.
  destruct (C18_frequency_array_even 4 1 4) as [u [U1 _]]; [lra|lia|exists 2%nat; reflexivity|simpl; lra|].
  unfold crun. simpl fold_left. unfold get_f. simpl. rewrite U1. simpl. rewrite H. reflexivity.
Qed.
(** 4 Hz for 1 s, read, then 8 Hz: 5 frequencies *)
Example C48_ex : exists l, fst (get_f create_frequency_series (real_run (new_cts (Some 4) (Some 1) 0) [GetF; GetTime; SetFs 8; SetT0 3])) = Some l /\ length l = 5%nat.
Proof.
  pose proof (C48_scalar_assignments_refresh create_frequency_series create_time_series from_frequency_array from_time_array (fun t : list R => nth 0 t 0)
    (new_cts (Some 4) (Some 1) 0) [GetF; GetTime] (SetFs 8) [SetT0 3]) as H. cbv zeta in H. destruct H as [H _]; [right; eauto|repeat constructor|].
  destruct (C18_frequency_array_even 8 1 8) as [v [V1 [V2 _]]]; [lra|lia|exists 4%nat; reflexivity|simpl; lra|].
  exists v. split; [|exact V2]. simpl app in H. rewrite H.
  assert (G1 : forall s : @cts R (list R) (list R), c_T (snd (get_f create_frequency_series s)) = c_T s).
  { intros s. unfold get_f. destruct (c_fok s), (c_fs s) as [a|] eqn:?, (c_T s) as [b|] eqn:?; simpl; auto. destruct (create_frequency_series a b); auto. }
  assert (G2 : forall s : @cts R (list R) (list R), c_T (snd (get_t create_time_series s)) = c_T s).
  { intros s. unfold get_t. destruct (c_tok s), (c_fs s) as [a|] eqn:?, (c_T s) as [b|] eqn:?; simpl; auto. destruct (create_time_series a b _); auto. }
  unfold crun. cbn [fold_left cstep]. unfold fresh_f. cbn [c_fs c_T]. rewrite G2, G1. exact V1.
Qed.

(** ** Assumptions of every theorem above *)
Definition Series_Props_all :=
  (@C17_round_trip,
   @C17_odd_loses_sample,
   @C17_parseval,
   @C17_tone_bin,
   @C17_labels,
   @C18_time_array,
   @C18_frequency_array_even,
   @C18_frequency_array_odd,
   @C18_time_truncation,
   @C18_illegal_rejected,
   @C18_read_back,
   @C48_scalar_assignments_refresh,
   @C48_new_object,
   @C48_assigned_frequency_array,
   @C48_stale_time_array_refuted,
   @C48_stale_frequency_array_refuted,
   @C48_refused_array_kept_refuted).
Print Assumptions Series_Props_all.
