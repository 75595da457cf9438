(** The real Fourier transform undoes its inverse; transforms of the end of a series. *)
From Coq Require Import Reals List ZArith Bool Lra Lia.
From Verif Require Import PyReal Interp_Model Series_Model Series_Proofs.
Import ListNotations.
Open Scope R_scope.

Lemma angle_eq n j k : angle n j k = INR j * (2 * PI * INR k / INR n).
Proof. unfold angle, Rdiv. ring. Qed.
Definition Csum (n d : nat) : R := rsum n (fun j => cos (angle n j d)).
Definition Ssum (n d : nat) : R := rsum n (fun j => sin (angle n j d)).
Lemma Csum_0 n : Csum n 0 = INR n.
Proof. unfold Csum. rewrite <- full_cos_0. apply rsum_ext. intros j _. now rewrite angle_eq. Qed.
Lemma Csum_mid n d : (0 < d < n)%nat -> Csum n d = 0.
Proof. intro H. unfold Csum. rewrite <- (full_cos n d H). apply rsum_ext. intros j _. now rewrite angle_eq. Qed.
Lemma Ssum_mid n d : (0 < d < n)%nat -> Ssum n d = 0.
Proof. intro H. unfold Ssum. rewrite <- (full_sin n d H). apply rsum_ext. intros j _. now rewrite angle_eq. Qed.
Lemma angle_0 n j : angle n j 0 = 0.
Proof. unfold angle. simpl (INR 0). rewrite Rmult_0_r. unfold Rdiv. ring. Qed.
Lemma angle_n n j : (0 < n)%nat -> angle n j n = 0 + 2 * INR j * PI.
Proof. intro H. unfold angle. field. apply not_0_INR. lia. Qed.
Lemma Ssum_0 n : Ssum n 0 = 0.
Proof. unfold Ssum. rewrite (rsum_ext _ _ (fun _ => 0)); [apply rsum_0|]. intros j _. rewrite angle_0. apply sin_0. Qed.
Lemma Csum_n n : (0 < n)%nat -> Csum n n = INR n.
Proof.
  intro H. rewrite <- Csum_0. apply rsum_ext. intros j _. rewrite angle_n by assumption. rewrite cos_period, angle_0. reflexivity.
Qed.
Lemma Ssum_n n : (0 < n)%nat -> Ssum n n = 0.
Proof.
  intro H. rewrite <- (Ssum_0 n). apply rsum_ext. intros j _. rewrite angle_n by assumption. rewrite sin_period, angle_0. reflexivity.
Qed.
Lemma Ssum_all n d : (d <= n)%nat -> Ssum n d = 0.
Proof.
  intro H. destruct (Nat.eq_dec d 0) as [-> | H0]; [apply Ssum_0|]. destruct (Nat.eq_dec d n) as [-> | Hn]; [apply Ssum_n; lia|].
  apply Ssum_mid. lia.
Qed.
Lemma angle_plus n j k l : angle n j (k + l) = angle n j k + angle n j l.
Proof. unfold angle. rewrite plus_INR. unfold Rdiv. ring. Qed.
Lemma angle_minus n j k l : (l <= k)%nat -> angle n j (k - l) = angle n j k - angle n j l.
Proof. intro H. unfold angle. rewrite minus_INR by assumption. unfold Rdiv. ring. Qed.

Lemma cc_eq n k l : (l <= k)%nat -> rsum n (fun j => cos (angle n j k) * cos (angle n j l)) = (Csum n (k - l) + Csum n (k + l)) / 2.
Proof.
  intro H. unfold Csum. rewrite <- rsum_plus. unfold Rdiv. rewrite Rmult_comm, <- rsum_scal. apply rsum_ext. intros j _.
  rewrite angle_minus, angle_plus, cos_minus, cos_plus by assumption. lra.
Qed.
Lemma ss_eq n k l : (l <= k)%nat -> rsum n (fun j => sin (angle n j k) * sin (angle n j l)) = (Csum n (k - l) - Csum n (k + l)) / 2.
Proof.
  intro H. replace (Csum n (k - l) - Csum n (k + l)) with (Csum n (k - l) + -1 * Csum n (k + l)) by ring.
  unfold Csum. rewrite <- rsum_scal, <- rsum_plus. unfold Rdiv. rewrite Rmult_comm, <- rsum_scal. apply rsum_ext. intros j _.
  rewrite angle_minus, angle_plus, cos_minus, cos_plus by assumption. lra.
Qed.
Lemma sc_eq n k l : (l <= k)%nat -> rsum n (fun j => sin (angle n j k) * cos (angle n j l)) = (Ssum n (k + l) + Ssum n (k - l)) / 2.
Proof.
  intro H. unfold Ssum. rewrite <- rsum_plus. unfold Rdiv. rewrite Rmult_comm, <- rsum_scal. apply rsum_ext. intros j _.
  rewrite angle_minus, angle_plus, sin_minus, sin_plus by assumption. lra.
Qed.
Lemma cs_eq n k l : (l <= k)%nat -> rsum n (fun j => cos (angle n j k) * sin (angle n j l)) = (Ssum n (k + l) - Ssum n (k - l)) / 2.
Proof.
  intro H. replace (Ssum n (k + l) - Ssum n (k - l)) with (Ssum n (k + l) + -1 * Ssum n (k - l)) by ring.
  unfold Ssum. rewrite <- rsum_scal, <- rsum_plus. unfold Rdiv. rewrite Rmult_comm, <- rsum_scal. apply rsum_ext. intros j _.
  rewrite angle_minus, angle_plus, sin_minus, sin_plus by assumption. lra.
Qed.

Section Orthogonality.
Variable m : nat.
Hypothesis Hm : (0 < m)%nat.
Notation n := (2 * m)%nat.
Lemma sin_cos_0 k l : (k <= m)%nat -> (l <= m)%nat -> rsum n (fun j => sin (angle n j k) * cos (angle n j l)) = 0.
Proof.
  intros Hk Hl. destruct (le_ge_dec l k) as [H|H].
  - rewrite sc_eq by assumption. rewrite !Ssum_all by lia. lra.
  - rewrite (rsum_ext _ _ (fun j => cos (angle n j l) * sin (angle n j k))) by (intros; ring).
    rewrite cs_eq by assumption. rewrite !Ssum_all by lia. lra.
Qed.
Lemma cos_cos_ne k l : (k <= m)%nat -> (l <= m)%nat -> k <> l -> rsum n (fun j => cos (angle n j k) * cos (angle n j l)) = 0.
Proof.
  intros Hk Hl N. destruct (le_ge_dec l k) as [H|H].
  - rewrite cc_eq by assumption. rewrite !Csum_mid by lia. lra.
  - rewrite (rsum_ext _ _ (fun j => cos (angle n j l) * cos (angle n j k))) by (intros; ring).
    rewrite cc_eq by assumption. rewrite !Csum_mid by lia. lra.
Qed.
Lemma sin_sin_ne k l : (k <= m)%nat -> (l <= m)%nat -> k <> l -> rsum n (fun j => sin (angle n j k) * sin (angle n j l)) = 0.
Proof.
  intros Hk Hl N. destruct (le_ge_dec l k) as [H|H].
  - rewrite ss_eq by assumption. rewrite !Csum_mid by lia. lra.
  - rewrite (rsum_ext _ _ (fun j => sin (angle n j l) * sin (angle n j k))) by (intros; ring).
    rewrite ss_eq by assumption. rewrite !Csum_mid by lia. lra.
Qed.
Lemma cos_cos_mid k : (0 < k < m)%nat -> rsum n (fun j => cos (angle n j k) * cos (angle n j k)) = INR n / 2.
Proof. intro H. rewrite cc_eq by lia. rewrite Nat.sub_diag, Csum_0, Csum_mid by lia. lra. Qed.
Lemma sin_sin_mid k : (0 < k < m)%nat -> rsum n (fun j => sin (angle n j k) * sin (angle n j k)) = INR n / 2.
Proof. intro H. rewrite ss_eq by lia. rewrite Nat.sub_diag, Csum_0, Csum_mid by lia. lra. Qed.
Lemma cos_cos_end k : k = 0%nat \/ k = m -> rsum n (fun j => cos (angle n j k) * cos (angle n j k)) = INR n.
Proof.
  intros [-> | ->]; rewrite cc_eq by lia; rewrite Nat.sub_diag, Csum_0.
  - rewrite Nat.add_0_r, Csum_0. lra.
  - replace (m + m)%nat with n by lia. rewrite Csum_n by lia. lra.
Qed.
Lemma sin_end j k : k = 0%nat \/ k = m -> sin (angle n j k) = 0.
Proof.
  intros [-> | ->]; [rewrite angle_0; apply sin_0|]. unfold angle. replace (2 * PI * (INR j * INR m) / INR n) with (INR j * PI); [apply sin_INR_PI|].
  rewrite mult_INR. change (INR 2) with (1 + 1). field. apply not_0_INR. lia.
Qed.

(** one sum against the samples of the inverse transform *)
Variables (re im : nat -> R).
Definition sample (j : nat) : R :=
  (re 0%nat + 2 * rsum (m - 1) (fun i => re (S i) * cos (angle n j (S i)) - im (S i) * sin (angle n j (S i))) + re m * cos (angle n j m)) / INR n.
Lemma against (g : nat -> R) : rsum n (fun j => sample j * g j) =
  (re 0%nat * rsum n (fun j => cos (angle n j 0) * g j)
   + 2 * rsum (m - 1) (fun i => re (S i) * rsum n (fun j => cos (angle n j (S i)) * g j) - im (S i) * rsum n (fun j => sin (angle n j (S i)) * g j))
   + re m * rsum n (fun j => cos (angle n j m) * g j)) / INR n.
Proof.
  unfold sample. unfold Rdiv at 2. rewrite Rmult_comm.
  rewrite (rsum_ext n (fun j => _ / _ * _) (fun j => / INR n * (re 0%nat * (cos (angle n j 0) * g j) +
    (2 * rsum (m - 1) (fun i => re (S i) * (cos (angle n j (S i)) * g j) + - im (S i) * (sin (angle n j (S i)) * g j)) + re m * (cos (angle n j m) * g j))))).
  - rewrite rsum_scal. f_equal. rewrite !rsum_plus, !rsum_scal. rewrite rsum_swap.
    rewrite (rsum_ext (m - 1) _ (fun i => re (S i) * rsum n (fun j => cos (angle n j (S i)) * g j) - im (S i) * rsum n (fun j => sin (angle n j (S i)) * g j))); [ring|].
    intros i _. rewrite rsum_plus, !rsum_scal. ring.
  - intros j _. rewrite angle_0, cos_0. unfold Rdiv.
    rewrite (rsum_ext (m - 1) (fun i => re (S i) * (cos (angle n j (S i)) * g j) + - im (S i) * (sin (angle n j (S i)) * g j))
      (fun i => g j * (re (S i) * cos (angle n j (S i)) - im (S i) * sin (angle n j (S i))))) by (intros; ring).
    rewrite rsum_scal. ring.
Qed.
Lemma rsum_zero k f : (forall i, (i < k)%nat -> f i = 0) -> rsum k f = 0.
Proof. intro H. rewrite (rsum_ext _ _ (fun _ => 0)) by assumption. apply rsum_0. Qed.
Lemma n_pos : INR n <> 0.
Proof. apply not_0_INR. lia. Qed.
Lemma real_back k : (k <= m)%nat -> rsum n (fun j => sample j * cos (angle n j k)) = re k.
Proof.
  intro Hk. rewrite against. pose proof n_pos.
  destruct (Nat.eq_dec k 0) as [-> | K0]; [|destruct (Nat.eq_dec k m) as [-> | Km]].
  - rewrite (cos_cos_end 0) by auto. rewrite (cos_cos_ne m 0) by lia. rewrite rsum_zero; [field; assumption|].
    intros i Hi. rewrite (cos_cos_ne (S i) 0), (sin_cos_0 (S i) 0) by lia. ring.
  - rewrite (cos_cos_end m) by auto. rewrite (cos_cos_ne 0 m) by lia. rewrite rsum_zero; [field; assumption|].
    intros i Hi. rewrite (cos_cos_ne (S i) m), (sin_cos_0 (S i) m) by lia. ring.
  - rewrite (cos_cos_ne 0 k), (cos_cos_ne m k) by lia.
    rewrite (rsum_delta (m - 1) (k - 1)); [| lia |].
    + replace (S (k - 1)) with k by lia. rewrite cos_cos_mid, sin_cos_0 by lia. field. assumption.
    + intros i Hi N. rewrite (cos_cos_ne (S i) k), (sin_cos_0 (S i) k) by lia. ring.
Qed.
Lemma imag_back k : (k <= m)%nat -> - rsum n (fun j => sample j * sin (angle n j k)) = if Nat.eqb k 0 || Nat.eqb k m then 0 else im k.
Proof.
  intro Hk. destruct (Nat.eqb k 0 || Nat.eqb k m) eqn:E.
  - apply orb_true_iff in E. rewrite !Nat.eqb_eq in E. rewrite rsum_zero; [ring|]. intros j _. rewrite sin_end by assumption. ring.
  - apply orb_false_iff in E. rewrite !Nat.eqb_neq in E. rewrite against. pose proof n_pos.
    assert (C : forall l, (l <= m)%nat -> rsum n (fun j => cos (angle n j l) * sin (angle n j k)) = 0).
    { intros l Hl. rewrite (rsum_ext _ _ (fun j => sin (angle n j k) * cos (angle n j l))) by (intros; ring). apply sin_cos_0; lia. }
    rewrite (C 0%nat), (C m) by lia. rewrite (rsum_delta (m - 1) (k - 1)); [| lia |].
    + replace (S (k - 1)) with k by lia. rewrite C, sin_sin_mid by lia. field. assumption.
    + intros i Hi N. rewrite C, sin_sin_ne by lia. ring.
Qed.
End Orthogonality.

(** numpy.fft.rfft undoes numpy.fft.irfft, except for the imaginary parts of the two ends *)
Lemma rfft_irfft (X : list (R * R)) x : irfft X = Some x -> forall k, (k < length X)%nat ->
  length x = (2 * (length X - 1))%nat /\
  nth k (rfft x) (0, 0) = (fst (nth k X (0, 0)), if Nat.eqb k 0 || Nat.eqb k (length X - 1) then 0 else snd (nth k X (0, 0))).
Proof.
  unfold irfft. set (m := (length X - 1)%nat). destruct (Nat.eqb m 0) eqn:E; [discriminate|]. apply Nat.eqb_neq in E.
  intros H k Hk. injection H as H.
  assert (L : length x = (2 * m)%nat) by (rewrite <- H, map_length, seq_length; lia).
  split; [exact L|]. rewrite rfft_nth by (rewrite L, Nat.mul_comm, Nat.div_mul; lia). rewrite L.
  set (re := fun k => fst (nth k X (0, 0))). set (im := fun k => snd (nth k X (0, 0))).
  assert (S0 : forall j, (j < 2 * m)%nat -> nth j x 0 = sample m re im j).
  { intros j Hj. rewrite <- H. replace (m + (m + 0))%nat with (2 * m)%nat by lia.
    rewrite (nth_map_seq _ (2 * m)) by assumption. reflexivity. }
  f_equal.
  - rewrite (rsum_ext _ _ (fun j => sample m re im j * cos (angle (2 * m) j k))) by (intros j Hj; rewrite S0 by assumption; reflexivity).
    apply (real_back m ltac:(lia) re im k). lia.
  - rewrite (rsum_ext _ _ (fun j => sample m re im j * sin (angle (2 * m) j k))) by (intros j Hj; rewrite S0 by assumption; reflexivity).
    apply (imag_back m ltac:(lia) re im k). lia.
Qed.

(** the transform of the last samples at index k is that of the series at the index
    times the ratio of the lengths, less the contribution of the samples left out *)
Lemma rsum_split a b f : rsum (a + b) f = rsum a f + rsum b (fun i => f (a + i)%nat).
Proof.
  induction b as [|b IH]; [rewrite Nat.add_0_r; simpl; lra|]. rewrite Nat.add_succ_r. simpl. rewrite IH. lra.
Qed.
Lemma shifted_angle M q j k : (0 < M)%nat -> (0 < q)%nat ->
  angle (q * M) ((q - 1) * M + j) (k * q) = angle M j k + 2 * INR ((q - 1) * k) * PI.
Proof.
  intros HM Hq. unfold angle. rewrite plus_INR, !mult_INR. field.
  split; apply not_0_INR; lia.
Qed.
Lemma tail_transform (x : list R) M q k : (0 < M)%nat -> (0 < q)%nat -> length x = (q * M)%nat -> (k <= M / 2)%nat ->
  let f j := angle (q * M) j (k * q) in
  nth k (rfft (skipn (length x - M) x)) (0, 0) =
  (rsum (q * M) (fun j => nth j x 0 * cos (f j)) - rsum ((q - 1) * M) (fun j => nth j x 0 * cos (f j)),
   - rsum (q * M) (fun j => nth j x 0 * sin (f j)) + rsum ((q - 1) * M) (fun j => nth j x 0 * sin (f j))).
Proof.
  intros HM Hq L Hk f.
  assert (D : (length x - M = (q - 1) * M)%nat) by (rewrite L; nia).
  assert (LS : length (skipn (length x - M) x) = M) by (rewrite skipn_length; nia).
  rewrite rfft_nth by (rewrite LS; lia). rewrite LS, D.
  assert (N : forall j, nth j (skipn ((q - 1) * M) x) 0 = nth ((q - 1) * M + j) x 0).
  { intro j. generalize ((q - 1) * M)%nat. intro a. clear. revert x. induction a as [|a IH]; intros x; [reflexivity|].
    destruct x as [|y x]; [destruct j; reflexivity|]. simpl. apply IH. }
  assert (QM : (q * M = (q - 1) * M + M)%nat) by nia.
  assert (C : forall j, cos (f ((q - 1) * M + j)%nat) = cos (angle M j k)) by (intro j; unfold f; rewrite shifted_angle by assumption; apply cos_period).
  assert (Sn : forall j, sin (f ((q - 1) * M + j)%nat) = sin (angle M j k)) by (intro j; unfold f; rewrite shifted_angle by assumption; apply sin_period).
  rewrite QM, !rsum_split. 
  rewrite (rsum_ext M (fun i => nth ((q - 1) * M + i) x 0 * cos (f ((q - 1) * M + i)%nat)) (fun j => nth j (skipn ((q - 1) * M) x) 0 * cos (angle M j k)))
    by (intros j _; rewrite N, C; reflexivity).
  rewrite (rsum_ext M (fun i => nth ((q - 1) * M + i) x 0 * sin (f ((q - 1) * M + i)%nat)) (fun j => nth j (skipn ((q - 1) * M) x) 0 * sin (angle M j k)))
    by (intros j _; rewrite N, Sn; reflexivity).
  f_equal; ring.
Qed.
