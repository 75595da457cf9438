(** C220: (h, h) of the multi-banded likelihood by the IFFT-FFT algorithm. *)
From Coq Require Import Reals List Arith ZArith Bool Lra Lia.
From Coquelicot Require Import Complex.
From Verif Require Mband_Model.
From Verif Require Import Mband_Props.
From Verif Require Import Series_Model Series_Proofs Dft_Proofs Mband3_Model.
Import ListNotations.
Open Scope list_scope.
Open Scope R_scope.

(** ** Weighted sums over half a spectrum *)
Definition W (m : nat) (F : nat -> R) : R := F 0%nat + 2 * rsum (m - 1) (fun i => F (S i)) + F m.
Lemma W_ext m F G : (0 < m)%nat -> (forall k, (k <= m)%nat -> F k = G k) -> W m F = W m G.
Proof. intros Hm H. unfold W. rewrite !H by lia. f_equal. f_equal. f_equal. apply rsum_ext. intros i Hi. apply H. lia. Qed.
Lemma W_scal m c F : W m (fun k => c * F k) = c * W m F.
Proof. unfold W. rewrite rsum_scal. ring. Qed.
Lemma W_plus m F G : W m (fun k => F k + G k) = W m F + W m G.
Proof. unfold W. rewrite rsum_plus. ring. Qed.
Lemma W_sum m n F : W m (fun k => rsum n (fun j => F k j)) = rsum n (fun j => W m (fun k => F k j)).
Proof. unfold W. rewrite !rsum_plus, rsum_scal. f_equal. f_equal. f_equal. apply rsum_swap. Qed.
Lemma rsum_S n f : rsum (S n) f = f 0%nat + rsum n (fun i => f (S i)).
Proof. induction n as [|n IH]; [simpl; ring|]. change (rsum (S (S n)) f) with (rsum (S n) f + f (S n)). rewrite IH. simpl. ring. Qed.
Lemma half_sum m F : (0 < m)%nat -> F 0%nat = 0 -> F m = 0 -> rsum (m + 1) F = W m F / 2.
Proof.
  intros Hm H0 H1. unfold W. rewrite Nat.add_1_r, rsum_S, H0. destruct m as [|m]; [lia|]. cbn [rsum]. rewrite H1. replace (S m - 1)%nat with m by lia. field.
Qed.

(** real and imaginary part of the transform of [M] samples which start at sample [a] of [n] *)
Definition Re_at (n a M : nat) (x : list R) (k : nat) : R := rsum M (fun j => nth j x 0 * cos (angle n (a + j) k)).
Definition Im_at (n a M : nat) (x : list R) (k : nat) : R := rsum M (fun j => nth j x 0 * sin (angle n (a + j) k)).
Definition power (n a M : nat) (x : list R) (k : nat) : R := Re_at n a M x k * Re_at n a M x k + Im_at n a M x k * Im_at n a M x k.
Definition lag (j l : nat) : nat := (Nat.max j l - Nat.min j l)%nat.
Lemma angle_lag n a j l k : cos (angle n (a + j) k) * cos (angle n (a + l) k) + sin (angle n (a + j) k) * sin (angle n (a + l) k) = cos (angle n (lag j l) k).
Proof.
  rewrite <- cos_minus. unfold lag. destruct (le_lt_dec l j) as [H|H].
  - rewrite Nat.max_l, Nat.min_r by lia. f_equal. unfold angle. rewrite minus_INR, !plus_INR by lia. unfold Rdiv. ring.
  - rewrite Nat.max_r, Nat.min_l by lia. rewrite <- cos_neg. f_equal. unfold angle. rewrite minus_INR, !plus_INR by lia. unfold Rdiv. ring.
Qed.
Lemma rsum_prod n f g : rsum n f * rsum n g = rsum n (fun j => rsum n (fun l => f j * g l)).
Proof.
  rewrite (Rmult_comm (rsum n f)), <- rsum_scal. apply rsum_ext. intros j _. rewrite Rmult_comm, <- rsum_scal. reflexivity.
Qed.
Lemma power_lags n a M x k : power n a M x k = rsum M (fun j => rsum M (fun l => nth j x 0 * nth l x 0 * cos (angle n (lag j l) k))).
Proof.
  unfold power, Re_at, Im_at. rewrite !rsum_prod, <- rsum_plus. apply rsum_ext. intros j _. rewrite <- rsum_plus. apply rsum_ext. intros l _.
  rewrite <- (angle_lag n a j l k). ring.
Qed.
(** the power spectrum against a spectrum needs its inverse transform only at the lags of the samples *)
Lemma correlation m n a M x P : W m (fun k => P k * power n a M x k) =
  rsum M (fun j => rsum M (fun l => nth j x 0 * nth l x 0 * W m (fun k => P k * cos (angle n (lag j l) k)))).
Proof.
  rewrite (rsum_ext M _ (fun j => W m (fun k => rsum M (fun l => nth j x 0 * nth l x 0 * (P k * cos (angle n (lag j l) k)))))).
  - rewrite <- W_sum. unfold W. assert (E : forall k, P k * power n a M x k = rsum M (fun j => rsum M (fun l => nth j x 0 * nth l x 0 * (P k * cos (angle n (lag j l) k))))).
    { intro k. rewrite power_lags, <- rsum_scal. apply rsum_ext. intros j _. rewrite <- rsum_scal. apply rsum_ext. intros l _. ring. }
    rewrite !E. f_equal. f_equal. f_equal. apply rsum_ext. intros i _. apply E.
  - intros j _. rewrite W_sum. apply rsum_ext. intros l _. rewrite W_scal. reflexivity.
Qed.

(** ** Inverse transforms *)
Lemma some_inj {X} (a b : X) : Some a = Some b -> a = b.
Proof. intro H. now injection H. Qed.
Lemma irfft_real (P : list R) m x : length P = (m + 1)%nat -> (0 < m)%nat -> irfft (map (fun p => (p, 0)) P) = Some x ->
  length x = (2 * m)%nat /\ forall d, (d < 2 * m)%nat -> INR (2 * m) * nth d x 0 = W m (fun k => nth k P 0 * cos (angle (2 * m) d k)).
Proof.
  intros L Hm E. unfold irfft in E. rewrite map_length, L in E. replace (m + 1 - 1)%nat with m in E by lia.
  destruct (Nat.eqb_spec m 0) as [Z|_]; [lia|]. apply some_inj in E. subst x. split; [now rewrite map_length, seq_length|].
  intros d Hd. rewrite nth_map_seq by assumption.
  assert (N : forall k, nth k (map (fun p : R => (p, 0)) P) (0, 0) = (nth k P 0, 0)) by (intro k; apply (map_nth (fun p : R => (p, 0)))).
  rewrite !N. cbn [fst]. unfold W. rewrite angle_0, cos_0. rewrite (rsum_ext _ _ (fun i => nth (S i) P 0 * cos (angle (2 * m) d (S i)))).
  - field. apply not_0_INR. lia.
  - intros i _. rewrite N. cbn [fst snd]. ring.
Qed.
(** the inverse transform of the real parts of a transform *)
Lemma real_parts (y : list R) m d : length y = (2 * m)%nat -> (0 < m)%nat -> (0 < d < 2 * m)%nat ->
  W m (fun k => fst (nth k (rfft y) (0, 0)) * cos (angle (2 * m) d k)) = INR (2 * m) * ((nth d y 0 + nth (2 * m - d) y 0) / 2).
Proof.
  intros L Hm Hd.
  assert (B : forall j, (j < 2 * m)%nat -> W m (fun k => fst (nth k (rfft y) (0, 0)) * cos (angle (2 * m) j k) - snd (nth k (rfft y) (0, 0)) * sin (angle (2 * m) j k)) = nth j y 0 * INR (2 * m)).
  { intros j Hj. rewrite <- (conv_kernel y m j Hm Hj), <- (bracket y m j L Hm). unfold W. rewrite angle_0, cos_0, sin_0.
    rewrite (sin_end m Hm j m) by (right; reflexivity). ring. }
  pose proof (B d ltac:(lia)) as B1. pose proof (B (2 * m - d)%nat ltac:(lia)) as B2.
  assert (C : forall k, cos (angle (2 * m) (2 * m - d) k) = cos (angle (2 * m) d k) /\ sin (angle (2 * m) (2 * m - d) k) = - sin (angle (2 * m) d k)).
  { intro k. assert (A : angle (2 * m) (2 * m - d) k = - angle (2 * m) d k + 2 * INR k * PI).
    { unfold angle. rewrite minus_INR by lia. field. apply not_0_INR. lia. }
    rewrite A, cos_period, sin_period, cos_neg, sin_neg. auto. }
  rewrite (W_ext m _ (fun k => fst (nth k (rfft y) (0, 0)) * cos (angle (2 * m) d k) + snd (nth k (rfft y) (0, 0)) * sin (angle (2 * m) d k))) in B2.
  2: assumption. 2: { intros k _. destruct (C k) as [-> ->]. ring. }
  transitivity ((W m (fun k => fst (nth k (rfft y) (0, 0)) * cos (angle (2 * m) d k) - snd (nth k (rfft y) (0, 0)) * sin (angle (2 * m) d k)) +
    W m (fun k => fst (nth k (rfft y) (0, 0)) * cos (angle (2 * m) d k) + snd (nth k (rfft y) (0, 0)) * sin (angle (2 * m) d k))) / 2).
  - rewrite <- W_plus. unfold Rdiv. rewrite Rmult_comm, <- W_scal. apply W_ext; [assumption|]. intros k _. lra.
  - rewrite B1, B2. field.
Qed.
Lemma real_parts_0 (y : list R) m : length y = (2 * m)%nat -> (0 < m)%nat ->
  W m (fun k => fst (nth k (rfft y) (0, 0)) * cos (angle (2 * m) 0 k)) = INR (2 * m) * nth 0 y 0.
Proof.
  intros L Hm. rewrite Rmult_comm, <- (conv_kernel y m 0 Hm ltac:(lia)), <- (bracket y m 0 L Hm). unfold W.
  assert (Z : forall k, angle (2 * m) 0 k = 0) by (intro k; unfold angle; simpl (INR 0); unfold Rdiv; ring).
  rewrite !Z, cos_0. rewrite (rsum_ext (m - 1) (fun i => fst (nth (S i) (rfft y) (0, 0)) * cos (angle (2 * m) 0 (S i)))
    (fun i => fst (nth (S i) (rfft y) (0, 0)) * cos (angle (2 * m) 0 (S i)) - snd (nth (S i) (rfft y) (0, 0)) * sin (angle (2 * m) 0 (S i)))).
  - ring.
  - intros i _. rewrite Z, sin_0. ring.
Qed.

(** ** Shortened lags and padded series *)
Lemma near_whole x m : length x = (2 * m)%nat -> (1 < m)%nat -> near_lags (2 * m) x = x.
Proof.
  intros L Hm. unfold near_lags, last_ones. replace (2 * m / 2)%nat with m by (rewrite Nat.mul_comm, Nat.div_mul; lia).
  destruct (Nat.eqb_spec (2 * m - m - 1) 0); [lia|]. rewrite L. replace (2 * m - (2 * m - m - 1))%nat with (m + 1)%nat by lia. apply firstn_skipn.
Qed.
Lemma near_length x M n : length x = n -> (2 * M <= n)%nat -> (1 < M)%nat -> length (near_lags (2 * M) x) = (2 * M)%nat.
Proof.
  intros L Hn HM. unfold near_lags, last_ones. replace (2 * M / 2)%nat with M by (rewrite Nat.mul_comm, Nat.div_mul; lia).
  destruct (Nat.eqb_spec (2 * M - M - 1) 0); [lia|]. rewrite app_length, firstn_length, skipn_length, L. lia.
Qed.
Lemma near_low x M n d : length x = n -> (2 * M <= n)%nat -> (1 < M)%nat -> (d <= M)%nat -> nth d (near_lags (2 * M) x) 0 = nth d x 0.
Proof.
  intros L Hn HM Hd. unfold near_lags. replace (2 * M / 2)%nat with M by (rewrite Nat.mul_comm, Nat.div_mul; lia).
  rewrite app_nth1 by (rewrite firstn_length; lia).
  rewrite <- (firstn_skipn (M + 1) x) at 2. rewrite app_nth1 by (rewrite firstn_length; lia). reflexivity.
Qed.
Lemma nth_skip {X} k (l : list X) i d : nth i (skipn k l) d = nth (k + i) l d.
Proof. revert l. induction k as [|k IH]; intro l; [reflexivity|]. destruct l; [cbn; destruct i; reflexivity | apply IH]. Qed.
Lemma near_high x M n d : length x = n -> (2 * M <= n)%nat -> (1 < M)%nat -> (0 < d < M)%nat -> nth (2 * M - d) (near_lags (2 * M) x) 0 = nth (n - d) x 0.
Proof.
  intros L Hn HM Hd. unfold near_lags, last_ones. replace (2 * M / 2)%nat with M by (rewrite Nat.mul_comm, Nat.div_mul; lia).
  destruct (Nat.eqb_spec (2 * M - M - 1) 0); [lia|].
  rewrite app_nth2 by (rewrite firstn_length; lia). rewrite firstn_length, nth_skip. f_equal. lia.
Qed.
Lemma padded_re x M Nh k : length x = M -> (M <= Nh)%nat -> (k <= Nh / 2)%nat ->
  sq (nth k (rfft (hbc M Nh x)) (0, 0)) = power Nh (Nh - M) M x k.
Proof.
  intros L Hn Hk. assert (Ln : length (hbc M Nh x) = Nh) by (unfold hbc; rewrite app_length, repeat_length; lia).
  rewrite rfft_nth by (rewrite Ln; lia). rewrite Ln. unfold sq, power. cbn [fst snd].
  assert (G : forall g : nat -> R, rsum Nh (fun j => nth j (hbc M Nh x) 0 * g j) = rsum M (fun j => nth j x 0 * g (Nh - M + j)%nat)).
  { intro g. replace Nh with ((Nh - M) + M)%nat at 1 by lia. rewrite rsum_split, rsum_zero.
    - rewrite Rplus_0_l. apply rsum_ext. intros i _. unfold hbc. rewrite app_nth2 by (rewrite repeat_length; lia). rewrite repeat_length.
      replace (Nh - M + i - (Nh - M))%nat with i by lia. reflexivity.
    - intros i Hi. unfold hbc. rewrite app_nth1 by (rewrite repeat_length; lia). rewrite nth_repeat. ring. }
  rewrite !G. unfold Re_at, Im_at. ring.
Qed.
(** ** Samples whose transform vanishes at the ends *)
Lemma power_0 n a M x : rsum M (fun j => nth j x 0) = 0 -> power n a M x 0 = 0.
Proof.
  intro H. unfold power, Re_at, Im_at. rewrite (rsum_ext M _ (fun j => nth j x 0)) by (intros; rewrite angle_0, cos_0; ring). rewrite H.
  rewrite rsum_zero; [ring|]. intros. rewrite angle_0, sin_0. ring.
Qed.
Lemma angle_mid m j : (0 < m)%nat -> angle (2 * m) j m = INR j * PI.
Proof. intro H. unfold angle. rewrite mult_INR. change (INR 2) with (1 + 1). field. apply not_0_INR. lia. Qed.
Lemma power_mid m a M x : (0 < m)%nat -> rsum M (fun j => nth j x 0 * cos (INR j * PI)) = 0 -> power (2 * m) a M x m = 0.
Proof.
  intros Hm H. unfold power, Re_at, Im_at.
  rewrite (rsum_ext M (fun j => nth j x 0 * sin (angle (2 * m) (a + j) m)) (fun _ => 0)), rsum_0 by (intros; rewrite angle_mid, sin_INR_PI by assumption; ring).
  rewrite (rsum_ext M _ (fun j => cos (INR a * PI) * (nth j x 0 * cos (INR j * PI)))), rsum_scal, H; [ring|].
  intros j _. rewrite angle_mid by assumption. rewrite plus_INR, Rmult_plus_distr_r, cos_plus, !sin_INR_PI. ring.
Qed.
(** (h, h) of one band is independent of how long the padding is, as long as the lags fit *)
Lemma same_inner T mu n M x inv coef v : (1 < mu)%nat -> M = (2 * mu)%nat -> length x = M ->
  (n = M \/ 2 * M <= n)%nat -> Nat.even n = true -> length inv = (n / 2 + 1)%nat -> 0 < T ->
  rsum M (fun j => nth j x 0) = 0 -> rsum M (fun j => nth j x 0 * cos (INR j * PI)) = 0 ->
  inv_psd_coeffs n (Nhat M n) inv = Some coef ->
  v = 4 / That T M n * rsum (length (rfft (hbc M (Nhat M n) x))) (fun j => sq (nth j (rfft (hbc M (Nhat M n) x)) (0, 0)) * fst (nth j coef (0, 0))) ->
  v = 4 / T * rsum (n / 2 + 1) (fun k => nth k inv 0 * power n 0 M x k).
Proof.
  intros Hmu HM Lx Hn Ev Li HT S0 S1 C ->.
  set (m := (n / 2)%nat) in *. assert (En : n = (2 * m)%nat) by (apply even_half; exact Ev). clearbody m. subst n.
  assert (HmM : (M <= 2 * m)%nat) by lia. unfold That. set (mh := if Nat.eqb (2 * m) M then mu else M).
  assert (Enh : Nhat M (2 * m) = (2 * mh)%nat) by (unfold mh, Nhat; destruct (Nat.eqb_spec (2 * m) M); lia).
  assert (Hmh : (0 < mh)%nat) by (unfold mh; destruct (Nat.eqb_spec (2 * m) M); lia).
  rewrite Enh in *. unfold inv_psd_coeffs in C. destruct (irfft _) as [I|] eqn:EI; [|discriminate]. apply some_inj in C. subst coef.
  replace (2 * m / 2)%nat with m in EI by (rewrite Nat.mul_comm, Nat.div_mul; lia).
  rewrite firstn_all2 in EI by lia. destruct (irfft_real inv m I Li ltac:(lia) EI) as [LI HI].
  set (y := near_lags (2 * mh) I).
  assert (Ly : length y = (2 * mh)%nat).
  { unfold y, mh. destruct (Nat.eqb_spec (2 * m) M) as [E|E]; [replace (2 * mu)%nat with (2 * m)%nat by lia; rewrite near_whole by lia; exact LI|].
    eapply near_length; [exact LI | lia | lia]. }
  assert (Yl : forall d, (d < M)%nat -> nth d y 0 = nth d I 0).
  { intros d Hd. unfold y, mh. destruct (Nat.eqb_spec (2 * m) M) as [E|E]; [replace (2 * mu)%nat with (2 * m)%nat by lia; rewrite near_whole by lia; reflexivity|].
    eapply near_low; [exact LI | lia | lia | lia]. }
  assert (Yh : forall d, (0 < d < M)%nat -> nth (2 * mh - d) y 0 = nth (2 * m - d) I 0).
  { intros d Hd. unfold y, mh. destruct (Nat.eqb_spec (2 * m) M) as [E|E]; [replace (2 * mu)%nat with (2 * m)%nat by lia; rewrite near_whole by lia; reflexivity|].
    eapply near_high; [exact LI | lia | lia | lia]. }
  assert (Isym : forall d, (0 < d < 2 * m)%nat -> nth (2 * m - d) I 0 = nth d I 0).
  { intros d Hd. assert (Hne : INR (2 * m) <> 0) by (apply not_0_INR; lia). apply (Rmult_eq_reg_l (INR (2 * m))); [|exact Hne].
    rewrite !HI by lia. apply W_ext; [lia|]. intros k _. f_equal.
    assert (A : angle (2 * m) (2 * m - d) k = - angle (2 * m) d k + 2 * INR k * PI) by (unfold angle; rewrite minus_INR by lia; field; exact Hne).
    rewrite A, cos_period, cos_neg. reflexivity. }
  assert (Lh : length (hbc M (2 * mh) x) = (2 * mh)%nat).
  { unfold hbc. rewrite app_length, repeat_length. unfold mh. destruct (Nat.eqb_spec (2 * m) M); lia. }
  assert (HMh : (M <= 2 * mh)%nat) by (unfold mh; destruct (Nat.eqb_spec (2 * m) M); lia).
  rewrite rfft_length, Lh. replace (2 * mh / 2)%nat with mh by (rewrite Nat.mul_comm, Nat.div_mul; lia).
  rewrite (rsum_ext (mh + 1) _ (fun k => fst (nth k (rfft y) (0, 0)) * power (2 * mh) (2 * mh - M) M x k)).
  2: { intros k Hk. rewrite padded_re; [apply Rmult_comm | exact Lx | lia |]. rewrite Nat.mul_comm, Nat.div_mul; lia. }
  assert (P0 : forall n' a, power n' a M x 0 = 0) by (intros; apply power_0; exact S0).
  assert (P1 : forall m' a, (0 < m')%nat -> power (2 * m') a M x m' = 0) by (intros; apply power_mid; assumption).
  rewrite (half_sum mh); [|exact Hmh | rewrite P0; ring | rewrite P1 by exact Hmh; ring].
  rewrite (half_sum m); [|lia | rewrite P0; ring | rewrite P1 by lia; ring].
  rewrite !correlation. set (Sm := rsum M (fun j => rsum M (fun l => nth j x 0 * nth l x 0 * nth (lag j l) I 0))).
  assert (Eh : rsum M (fun j => rsum M (fun l => nth j x 0 * nth l x 0 * W mh (fun k => fst (nth k (rfft y) (0, 0)) * cos (angle (2 * mh) (lag j l) k)))) = INR (2 * mh) * Sm).
  { unfold Sm. rewrite <- rsum_scal. apply rsum_ext. intros j Hj. rewrite <- rsum_scal. apply rsum_ext. intros l Hl.
    assert (Hlag : (lag j l < M)%nat) by (unfold lag; lia).
    destruct (Nat.eq_dec (lag j l) 0) as [Z|Z].
    - rewrite Z, (real_parts_0 y mh Ly Hmh). rewrite Yl by lia. ring.
    - rewrite (real_parts y mh (lag j l) Ly Hmh) by lia. rewrite Yl, Yh, Isym by lia. field. }
  assert (En : rsum M (fun j => rsum M (fun l => nth j x 0 * nth l x 0 * W m (fun k => nth k inv 0 * cos (angle (2 * m) (lag j l) k)))) = INR (2 * m) * Sm).
  { unfold Sm. rewrite <- rsum_scal. apply rsum_ext. intros j Hj. rewrite <- rsum_scal. apply rsum_ext. intros l Hl.
    assert (Hlag : (lag j l < M)%nat) by (unfold lag; lia). rewrite <- HI by lia. ring. }
  rewrite Eh, En. field. repeat split; try lra; apply not_0_INR; lia.
Qed.

(** ** One band *)
(** the transform on [n] points of a time series, at index k *)
Definition transform (n : nat) (x : list R) (k : nat) : R * R :=
  (rsum (length x) (fun j => nth j x 0 * cos (angle n j k)), - rsum (length x) (fun j => nth j x 0 * sin (angle n j k))).
(** the waveform times the root of the window, zero outside the band *)
Definition windowed (Ks Ke : nat) (roots : list R) (strain : list (R * R)) (k : nat) : R * R :=
  if (Ks <=? k)%nat && (k <=? Ke)%nat
  then (nth (k - Ks) roots 0 * fst (nth (k - Ks) strain (0, 0)), nth (k - Ks) roots 0 * snd (nth (k - Ks) strain (0, 0))) else (0, 0).
Lemma inv_firstn n Nh inv : inv_psd_coeffs n Nh inv = inv_psd_coeffs n Nh (firstn (n / 2 + 1) inv).
Proof. unfold inv_psd_coeffs. rewrite firstn_firstn, Nat.min_id. reflexivity. Qed.
Lemma wth_nth Ks Ke M roots strain k : (k <= M / 2)%nat -> nth k (wth Ks Ke M roots strain) (0, 0) = windowed Ks Ke roots strain k.
Proof. intro H. unfold wth, windowed. rewrite nth_map_seq by lia. reflexivity. Qed.
Lemma wth_length Ks Ke M roots strain : length (wth Ks Ke M roots strain) = (M / 2 + 1)%nat.
Proof. unfold wth. now rewrite map_length, seq_length. Qed.
Lemma windowed_out Ks Ke roots strain k : (k < Ks \/ Ke < k)%nat -> windowed Ks Ke roots strain k = (0, 0).
Proof.
  intro H. unfold windowed. destruct (Nat.leb_spec Ks k), (Nat.leb_spec k Ke); cbn [andb]; try reflexivity. lia.
Qed.
(** There is a real time series as long as the shortened data whose transform is the waveform
    times the root of the window at every banded frequency, and the contribution to (h, h) is 4 / T
    times the sum, over all frequencies of the unshortened grid, of the power of that transform
    over the spectrum: between banded frequencies the series is what interpolates. *)
Theorem C220_band T Ks Ke mu q roots strain inv : 0 < T -> (0 < Ks)%nat -> (Ks <= Ke < mu)%nat -> (0 < q)%nat ->
  (q * (2 * mu) / 2 + 1 <= length inv)%nat -> let n := (q * (2 * mu))%nat in
  exists x, irfft (wth Ks Ke (2 * mu) roots strain) = Some x /\ length x = (2 * mu)%nat /\
  (forall k, (k <= mu)%nat -> transform n x (k * q) = windowed Ks Ke roots strain k) /\
  later_band T Ks Ke (2 * mu) n roots strain inv = Some (4 / T * rsum (n / 2 + 1) (fun k => nth k inv 0 * sq (transform n x k))).
Proof.
  intros HT HKs HK Hq Li n. set (X := wth Ks Ke (2 * mu) roots strain).
  assert (Hh : (2 * mu / 2 = mu)%nat) by (rewrite Nat.mul_comm, Nat.div_mul; lia).
  assert (LX : length X = (mu + 1)%nat) by (unfold X; rewrite wth_length, Hh; reflexivity).
  destruct (irfft X) as [x|] eqn:EX.
  2: { exfalso. unfold irfft in EX. replace (length X - 1)%nat with mu in EX by (rewrite LX; lia). destruct (Nat.eqb_spec mu 0); [lia | discriminate EX]. }
  assert (Lx : length x = (2 * mu)%nat) by (destruct (rfft_irfft X x EX 0) as [E _]; [rewrite LX; lia | rewrite E, LX; lia]).
  assert (Bk : forall k, (k <= mu)%nat -> transform (2 * mu) x k = windowed Ks Ke roots strain k).
  { intros k Hk. destruct (rfft_irfft X x EX k) as [_ E]; [rewrite LX; lia|]. rewrite rfft_nth in E by (rewrite Lx, Hh; lia).
    unfold transform. rewrite Lx in E |- *. rewrite E. unfold X. rewrite wth_length, Hh. rewrite wth_nth by (rewrite Hh; exact Hk).
    replace (mu + 1 - 1)%nat with mu by lia.
    destruct (Nat.eqb_spec k 0) as [-> | K0]; [rewrite windowed_out by lia; reflexivity|].
    destruct (Nat.eqb_spec k mu) as [-> | K1]; [rewrite windowed_out by lia; reflexivity|]. cbn [orb]. now rewrite <- surjective_pairing. }
  exists x. split; [reflexivity|]. split; [exact Lx|]. split.
  - intros k Hk. rewrite <- Bk by exact Hk. unfold transform.
    assert (A : forall j, angle n j (k * q) = angle (2 * mu) j k).
    { intro j. unfold angle, n. rewrite !mult_INR. change (INR 2) with (1 + 1). field. split; apply not_0_INR; lia. }
    f_equal; [|f_equal]; apply rsum_ext; intros j _; rewrite A; reflexivity.
  - assert (S0 : rsum (2 * mu) (fun j => nth j x 0) = 0).
    { pose proof (Bk 0%nat ltac:(lia)) as E. rewrite windowed_out in E by lia. apply (f_equal fst) in E. cbn [transform fst] in E. rewrite Lx in E. etransitivity; [|exact E].
      apply rsum_ext. intros j _. rewrite angle_0, cos_0. ring. }
    assert (S1 : rsum (2 * mu) (fun j => nth j x 0 * cos (INR j * PI)) = 0).
    { pose proof (Bk mu ltac:(lia)) as E. rewrite windowed_out in E by lia. apply (f_equal fst) in E. cbn [transform fst] in E. rewrite Lx in E. etransitivity; [|exact E].
      apply rsum_ext. intros j _. rewrite angle_mid by lia. reflexivity. }
    assert (Ev : Nat.even n = true) by (apply Nat.even_spec; exists (q * mu)%nat; unfold n; lia).
    unfold later_band. fold X. rewrite EX. rewrite inv_firstn.
    destruct (inv_psd_coeffs n (Nhat (2 * mu) n) (firstn (n / 2 + 1) inv)) as [coef|] eqn:C.
    2: { exfalso. unfold inv_psd_coeffs in C. destruct (irfft (map _ (firstn _ (firstn _ inv)))) as [|] eqn:E; [discriminate C|]. clear C. unfold irfft in E.
         rewrite map_length, !firstn_length in E. destruct (Nat.eqb_spec (Nat.min (n / 2 + 1) (Nat.min (n / 2 + 1) (length inv)) - 1) 0) as [Z|Z]; [|discriminate E].
         assert (n = 2 * (n / 2))%nat by (apply even_half; exact Ev). unfold n in *. nia. }
    apply (f_equal Some).
    rewrite (same_inner T mu n (2 * mu) x (firstn (n / 2 + 1) inv) coef _ ltac:(lia) eq_refl Lx); try eassumption; try reflexivity.
    + apply (f_equal (Rmult (4 / T))). apply rsum_ext. intros k Hk. f_equal.
      * rewrite <- (firstn_skipn (n / 2 + 1) inv) at 2. rewrite app_nth1; [reflexivity|]. rewrite firstn_length. fold n in Li. lia.
      * unfold power, Re_at, Im_at, sq, transform. cbn [fst snd]. rewrite Lx. cbn [Nat.add]. ring.
    + unfold n. destruct q as [|[|q]]; [lia | left; lia | right; nia].
    + rewrite firstn_length. fold n in Li. lia.
Qed.
(** A band as long as the data needs no interpolation: the sum over its own frequencies is exact. *)
Theorem C220_full_length T Ks Ke mu win strain inv : 0 < T -> (0 < Ks)%nat -> (Ks <= Ke < mu)%nat -> (mu + 1 <= length inv)%nat ->
  (forall i, 0 <= nth i win 0) ->
  later_band T Ks Ke (2 * mu) (2 * mu) (map sqrt win) strain inv =
    Some (4 / T * rsum (Ke + 1 - Ks) (fun i => nth (Ks + i) inv 0 * (nth i win 0 * sq (nth i strain (0, 0))))).
Proof.
  intros HT HKs HK Li Hw. assert (Hh : (1 * (2 * mu) / 2 = mu)%nat) by (rewrite Nat.mul_1_l, Nat.mul_comm, Nat.div_mul; lia).
  destruct (C220_band T Ks Ke mu 1 (map sqrt win) strain inv HT HKs HK ltac:(lia) ltac:(rewrite Hh; exact Li)) as (x & _ & _ & B & E).
  replace (1 * (2 * mu))%nat with (2 * mu)%nat in * by lia. rewrite E. apply (f_equal Some). apply (f_equal (Rmult (4 / T))).
  replace (2 * mu / 2)%nat with mu by (rewrite Nat.mul_comm, Nat.div_mul; lia).
  rewrite (rsum_ext _ _ (fun k => nth k inv 0 * sq (windowed Ks Ke (map sqrt win) strain k))).
  2: { intros k Hk. rewrite <- B by lia. rewrite Nat.mul_1_r. reflexivity. }
  replace (mu + 1)%nat with (Ks + ((Ke + 1 - Ks) + (mu - Ke)))%nat by lia. rewrite !rsum_split.
  rewrite (rsum_zero Ks), (rsum_zero (mu - Ke)).
  - rewrite Rplus_0_l, Rplus_0_r. apply rsum_ext. intros i Hi. f_equal. unfold windowed. destruct (Nat.leb_spec Ks (Ks + i)); [|lia].
    destruct (Nat.leb_spec (Ks + i) Ke); [|lia]. cbn [andb]. replace (Ks + i - Ks)%nat with i by lia. unfold sq. cbn [fst snd].
    assert (S : nth i (map sqrt win) 0 = sqrt (nth i win 0)) by (rewrite <- sqrt_0 at 1; apply map_nth). rewrite S.
    replace (sqrt (nth i win 0) * fst (nth i strain (0, 0)) * (sqrt (nth i win 0) * fst (nth i strain (0, 0))) +
      sqrt (nth i win 0) * snd (nth i strain (0, 0)) * (sqrt (nth i win 0) * snd (nth i strain (0, 0)))) with
      (sqrt (nth i win 0) * sqrt (nth i win 0) * (fst (nth i strain (0, 0)) * fst (nth i strain (0, 0)) + snd (nth i strain (0, 0)) * snd (nth i strain (0, 0)))) by ring.
    rewrite sqrt_sqrt by apply Hw. reflexivity.
  - intros i Hi. rewrite windowed_out by lia. unfold sq. cbn [fst snd]. ring.
  - intros i Hi. rewrite windowed_out by lia. unfold sq. cbn [fst snd]. ring.
Qed.

(** ** The indices of a band *)
(** The last index of every band is below the Nyquist frequency of its shortened data. *)
Theorem C220_below_nyquist T fn b : 0 < T -> 0 <= fn -> (2 * Mband_Model.Ke fn (T / 2 ^ b) < Mband_Model.Mb T fn b)%Z.
Proof.
  intros TP FP. destruct (C130_integers T fn b TP FP) as (_ & Big & _ & MM & _). unfold Mband_Model.Ke.
  assert (PB : 0 < 2 ^ b) by (apply pow_lt; lra). destruct (floor_spec (fn * (T / 2 ^ b))) as [F1 F2].
  rewrite <- MM, mult_IZR, pow2_R in Big. apply lt_IZR. rewrite mult_IZR. apply (Rmult_lt_reg_r (2 ^ b)); [exact PB|].
  assert (IZR (Mband_Model.zfloor (fn * (T / 2 ^ b))) * 2 ^ b <= fn * T). { apply Rle_trans with (fn * (T / 2 ^ b) * 2 ^ b); [apply Rmult_le_compat_r; lra|]. right. field. lra. }
  lra.
Qed.

(** ** All bands *)
Definition fits (N : nat) (b : qband) : Prop := exists mu q, q_M b = (2 * mu)%nat /\ (0 < q)%nat /\ q_N b = (q * (2 * mu))%nat /\
  (0 < q_Ks b <= q_Ke b)%nat /\ (q_Ke b < mu)%nat /\ (q_N b <= N)%nat /\ (forall i, 0 <= nth i (q_win b) 0).
Lemma sq_pos z : 0 <= sq z.
Proof. unfold sq. nra. Qed.
Lemma rsum_pos n f : (forall i, (i < n)%nat -> 0 <= f i) -> 0 <= rsum n f.
Proof. induction n as [|n IH]; intro H; cbn [rsum]; [lra|]. specialize (H n ltac:(lia)) as H1. assert (0 <= rsum n f) by (apply IH; intros; apply H; lia). lra. Qed.
(** With any number of bands (h, h) is a number and not negative. *)
Theorem C220_positive T N psd mask bs : 0 < T -> (forall k, 0 <= nth k psd 0) -> List.Forall (fits N) bs ->
  exists v, optimal_snr_squared T N psd mask bs = Some v /\ 0 <= v.
Proof.
  intros HT Hp F. assert (Hdiv : forall x y, 0 <= x -> 0 <= y -> 0 <= x / y).
  { intros x y Hx [Hy|Hy]; [apply Rmult_le_pos; [exact Hx | left; apply Rinv_0_lt_compat; exact Hy]|]. subst y. unfold Rdiv. rewrite Rinv_0. lra. }
  assert (L : forall l, List.Forall (fits N) l -> exists r, later_bands T (full_inv_psd N psd mask) l = Some r /\ 0 <= r).
  { induction l as [|b l IH]; intro Fl; [exists 0; split; [reflexivity | lra]|]. inversion Fl as [|? ? (mu & q & E1 & Hq & E2 & HK & HKe & HN & Hw) Fl']; subst.
    destruct (IH Fl') as (r & Er & Pr). cbn [later_bands]. rewrite E1, E2 in *.
    assert (LI : length (full_inv_psd N psd mask) = (N / 2 + 1)%nat) by (unfold full_inv_psd; now rewrite map_length, seq_length).
    assert (HD : (q * (2 * mu) / 2 <= N / 2)%nat) by (apply Nat.div_le_mono; lia).
    destruct (C220_band T (q_Ks b) (q_Ke b) mu q (map sqrt (q_win b)) (q_strain b) (full_inv_psd N psd mask) HT ltac:(lia) ltac:(lia) Hq ltac:(rewrite LI; lia)) as (x & _ & _ & _ & E).
    rewrite E, Er. eexists. split; [reflexivity|]. apply Rplus_le_le_0_compat; [|exact Pr].
    apply Rmult_le_pos; [apply Hdiv; lra|]. apply rsum_pos. intros k Hk. apply Rmult_le_pos; [|apply sq_pos].
    unfold full_inv_psd. rewrite nth_map_seq by lia. destruct (nth k mask false); [apply Hdiv; [lra | apply Hp] | lra]. }
  destruct bs as [|b bs]; [exists 0; split; [reflexivity | lra]|]. inversion F as [|? ? Fb Fl]; subst. destruct (L bs Fl) as (r & Er & Pr).
  cbn [optimal_snr_squared]. rewrite Er. eexists. split; [reflexivity|]. apply Rplus_le_le_0_compat; [|exact Pr].
  unfold first_band. apply Rmult_le_pos; [apply Hdiv; lra|]. apply rsum_pos. intros i _. apply Rmult_le_pos; [apply sq_pos|].
  apply Hdiv; [|apply Hp]. destruct Fb as (_ & _ & _ & _ & _ & _ & _ & _ & Hw). specialize (Hw i). destruct (nth (q_Ks b + i) mask false); lra.
Qed.

(** One frequency of four shortened samples out of eight: its power counts with the
    neighbours' spectra too, half each. *)
Example C220_example T (p0 p1 p2 p3 p4 : R) : 0 < T ->
  later_band T 1 1 4 8 [1] [(1, 0)] [p0; p1; p2; p3; p4] = Some (4 / T * (p1 / 2 + p2 + p3 / 2)).
Proof.
  intro HT. destruct (C220_band T 1 1 2 2 [1] [(1, 0)] [p0; p1; p2; p3; p4] HT ltac:(lia) ltac:(lia) ltac:(lia) ltac:(cbn; lia)) as (x & Ex & Lx & _ & E).
  change (2 * (2 * 2))%nat with 8%nat in E. change (2 * 2)%nat with 4%nat in E, Ex, Lx. rewrite E. apply (f_equal Some). apply (f_equal (Rmult (4 / T))).
  assert (A4 : forall j, angle (2 * 2) j 1 = INR j * (PI / 2)) by (intro j; unfold angle; simpl (INR (2 * 2)); simpl (INR 1); field).
  assert (c2 : cos (2 * (PI / 2)) = -1) by (replace (2 * (PI / 2)) with PI by field; apply cos_PI).
  assert (s2 : sin (2 * (PI / 2)) = 0) by (replace (2 * (PI / 2)) with PI by field; apply sin_PI).
  assert (c3 : cos (3 * (PI / 2)) = 0) by apply cos_3PI2.
  assert (X : x = [1 / 2; 0; - (1 / 2); 0]).
  { unfold irfft, wth in Ex. cbn [Nat.div Nat.divmod fst Nat.add seq map Nat.leb andb Nat.sub length Nat.eqb nth snd rsum Nat.mul] in Ex. apply some_inj in Ex. rewrite <- Ex.
    change 4%nat with (2 * 2)%nat. rewrite !A4. simpl (INR 0). simpl (INR 1). simpl (INR 2). simpl (INR 3). simpl (INR (2 * 2)).
    replace (1 + 1) with 2 by ring. replace (2 + 1) with 3 by ring. rewrite c2, c3, !Rmult_0_l, ?Rmult_1_l, cos_0, cos_PI2.
    repeat (f_equal; [field|]). f_equal. field. }
  subst x. change (8 / 2 + 1)%nat with 5%nat. unfold transform, sq. cbn [fst rsum nth length snd].
  assert (A8 : forall k, angle 8 2 k = INR k * (PI / 2)) by (intro k; unfold angle; simpl (INR 8); simpl (INR 2); field).
  assert (A0 : forall k, angle 8 0 k = 0) by (intro k; unfold angle; simpl (INR 0); unfold Rdiv; ring).
  rewrite !A8, !A0, cos_0, sin_0. simpl (INR 0). simpl (INR 1). simpl (INR 2). simpl (INR 3). simpl (INR 4).
  replace (1 + 1) with 2 by ring. replace (2 + 1) with 3 by ring. replace (3 + 1) with 4 by ring. replace (4 * (PI / 2)) with (2 * PI) by field.
  rewrite c2, s2, c3, sin_3PI2, cos_2PI, sin_2PI, ?(Rmult_0_l (PI / 2)), ?(Rmult_1_l (PI / 2)), cos_0, sin_0, cos_PI2, sin_PI2. field.
Qed.

(** ** Assumptions of every theorem above *)
Definition Mband3_Props_all :=
  (@C220_band,
   @C220_full_length,
   @C220_below_nyquist,
   @C220_positive).
Print Assumptions Mband3_Props_all.
