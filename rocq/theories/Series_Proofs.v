(** Finite Fourier sums. *)
From Coq Require Import Reals List ZArith Bool Lra Lia Psatz.
From Verif Require Import PyReal Interp_Model Series_Model.
Import ListNotations.
Open Scope R_scope.

Lemma rsum_ext n f g : (forall i, (i < n)%nat -> f i = g i) -> rsum n f = rsum n g.
Proof. induction n; intros H; simpl; auto. rewrite IHn, H; auto. Qed.
Lemma rsum_plus n f g : rsum n (fun i => f i + g i) = rsum n f + rsum n g.
Proof. induction n; simpl; [lra|rewrite IHn; lra]. Qed.
Lemma rsum_scal n c f : rsum n (fun i => c * f i) = c * rsum n f.
Proof. induction n; simpl; [lra|rewrite IHn; lra]. Qed.
Lemma rsum_0 n : rsum n (fun _ => 0) = 0.
Proof. induction n; simpl; [|rewrite IHn]; lra. Qed.
Lemma rsum_swap n m f : rsum n (fun i => rsum m (fun j => f i j)) = rsum m (fun j => rsum n (fun i => f i j)).
Proof. induction n; simpl; [symmetry; apply rsum_0|]. rewrite IHn, <- rsum_plus. reflexivity. Qed.
Lemma rsum_delta n j (f : nat -> R) : (j < n)%nat -> (forall i, (i < n)%nat -> i <> j -> f i = 0) -> rsum n f = f j.
Proof.
  induction n; intros Hj H; [lia|]. simpl. destruct (Nat.eq_dec j n) as [->|Hne].
  - rewrite (rsum_ext n f (fun _ => 0)), rsum_0; [lra|]. intros i Hi. apply H; lia.
  - rewrite IHn; [|lia|intros; apply H; lia]. rewrite (H n); [lra|lia|lia].
Qed.
Lemma rsum_tele n (u : nat -> R) : rsum n (fun i => u (S i) - u i) = u n - u 0%nat.
Proof. induction n; simpl; [lra|rewrite IHn; lra]. Qed.

Lemma sin_INR_PI k : sin (INR k * PI) = 0.
Proof. induction k; [simpl; rewrite Rmult_0_l; apply sin_0|]. rewrite S_INR, Rmult_plus_distr_r, Rmult_1_l, neg_sin, IHk. lra. Qed.

(** 1 + 2 sum_{k=1}^{m-1} cos (k t) + cos (m t) *)
Definition kernel (m : nat) (t : R) : R := 1 + 2 * rsum (m - 1) (fun i => cos (INR (S i) * t)) + cos (INR m * t).
Lemma kernel_0 m : (0 < m)%nat -> kernel m 0 = INR (2 * m).
Proof.
  intros H. unfold kernel. rewrite Rmult_0_r, cos_0.
  rewrite (rsum_ext _ _ (fun _ => 1)) by (intros; rewrite Rmult_0_r; apply cos_0).
  assert (E : forall n, rsum n (fun _ => 1) = INR n).
  { induction n as [|n IH]; [reflexivity|]. rewrite S_INR. simpl. rewrite IH. reflexivity. }
  rewrite E, minus_INR, mult_INR by lia. simpl. lra.
Qed.
(** the kernel times sin (t/2) *)
Lemma kernel_sin m t : (0 < m)%nat -> sin (t / 2) * kernel m t = sin (INR m * t) * cos (t / 2).
Proof.
  intros H. unfold kernel.
  assert (E : sin (t/2) * (1 + 2 * rsum (m-1) (fun i => cos (INR (S i) * t))) = sin ((INR m - 1/2) * t)).
  { replace (INR m) with (INR (m - 1) + 1) by (rewrite minus_INR by lia; simpl; lra).
    generalize (m - 1)%nat as n. intros n.
    rewrite Rmult_plus_distr_l, Rmult_1_r, <- Rmult_assoc, <- rsum_scal.
    rewrite (rsum_ext _ _ (fun i => (fun k => sin ((INR k + 1/2) * t)) (S i) - (fun k => sin ((INR k + 1/2) * t)) i)).
    2:{ intros i _. cbv beta.
        replace ((INR (S i) + 1/2) * t) with (INR (S i) * t + t/2) by lra.
        replace ((INR i + 1/2) * t) with (INR (S i) * t - t/2) by (rewrite S_INR; lra).
        rewrite sin_plus, sin_minus. lra. }
    rewrite (rsum_tele n (fun k => sin ((INR k + 1/2) * t))). simpl (INR 0).
    replace ((0 + 1/2) * t) with (t/2) by lra.
    replace ((INR n + 1 - 1/2) * t) with ((INR n + 1/2) * t) by lra. lra. }
  rewrite Rmult_plus_distr_l, E.
  replace ((INR m - 1/2) * t) with (INR m * t - t/2) by lra. rewrite sin_minus. lra.
Qed.
(** t = 2 pi d / (2 m) for an integer 0 < d < 2 m *)
Lemma kernel_off m d : (0 < m)%nat -> (0 < d < 2 * m)%nat -> kernel m (2 * PI * INR d / INR (2 * m)) = 0.
Proof.
  intros Hm Hd. set (t := 2 * PI * INR d / INR (2*m)).
  assert (Hm' : 0 < INR (2*m)) by (apply lt_0_INR; lia).
  assert (Hd' : 0 < INR d) by (apply lt_0_INR; lia).
  assert (Hlt : INR d < INR (2*m)) by (apply lt_INR; lia).
  assert (E2 : t / 2 = PI * (INR d / INR (2*m))) by (unfold t; field; lra).
  assert (Em : INR m * t = INR d * PI).
  { unfold t. rewrite mult_INR. simpl (INR 2). field. apply not_0_INR. lia. }
  assert (Hs : 0 < sin (t/2)).
  { rewrite E2. pose proof PI_RGT_0 as HP. apply sin_gt_0.
    - apply Rmult_lt_0_compat; [lra|]. apply Rdiv_lt_0_compat; lra.
    - rewrite <- (Rmult_1_r PI) at 2. apply Rmult_lt_compat_l; [lra|].
      apply Rmult_lt_reg_r with (INR (2*m)); [lra|]. unfold Rdiv. rewrite Rmult_assoc, Rinv_l; lra. }
  pose proof (kernel_sin m t Hm) as K. rewrite Em, sin_INR_PI, Rmult_0_l in K.
  apply Rmult_integral in K. destruct K; lra.
Qed.
Lemma kernel_neg m t : kernel m (- t) = kernel m t.
Proof.
  unfold kernel. rewrite (rsum_ext _ (fun i => cos (INR (S i) * - t)) (fun i => cos (INR (S i) * t))).
  - rewrite Ropp_mult_distr_r_reverse, cos_neg. reflexivity.
  - intros. rewrite Ropp_mult_distr_r_reverse. apply cos_neg.
Qed.
(** orthogonality of the sample points *)
Lemma kernel_points m j l : (0 < m)%nat -> (j < 2*m)%nat -> (l < 2*m)%nat ->
  kernel m (2 * PI * (INR j - INR l) / INR (2*m)) = if Nat.eq_dec j l then INR (2*m) else 0.
Proof.
  intros Hm Hj Hl. destruct (Nat.eq_dec j l) as [->|Hne].
  - replace (2 * PI * (INR l - INR l) / INR (2*m)) with 0 by (unfold Rdiv; ring). apply kernel_0; auto.
  - destruct (le_lt_dec l j) as [H|H].
    + rewrite <- minus_INR by lia. apply kernel_off; lia.
    + replace (2 * PI * (INR j - INR l) / INR (2*m)) with (- (2 * PI * INR (l - j) / INR (2*m)))
        by (rewrite minus_INR by lia; unfold Rdiv; ring).
      rewrite kernel_neg. apply kernel_off; lia.
Qed.

Lemma rfft_length x : length (rfft x) = (length x / 2 + 1)%nat.
Proof. unfold rfft. rewrite map_length, seq_length. reflexivity. Qed.
Lemma rfft_nth x k : (k < length x / 2 + 1)%nat ->
  nth k (rfft x) (0,0) = (rsum (length x) (fun j => nth j x 0 * cos (angle (length x) j k)),
                          - rsum (length x) (fun j => nth j x 0 * sin (angle (length x) j k))).
Proof.
  intros H. unfold rfft.
  set (g := fun k => _). rewrite (nth_indep _ (0,0) (g 0%nat)) by (rewrite map_length, seq_length; auto).
  rewrite map_nth, seq_nth by auto. reflexivity.
Qed.
Lemma even_half n : Nat.even n = true -> (n = 2 * (n / 2))%nat.
Proof. intros H. apply Nat.even_spec in H. destruct H as [m ->]. rewrite Nat.mul_comm, Nat.div_mul by lia. lia. Qed.

(** the inner bracket of irfft (rfft x) at sample j is sum_l x_l kernel (j - l) *)
Lemma bracket x m j : length x = (2 * m)%nat -> (0 < m)%nat ->
  let n := (2*m)%nat in let X := rfft x in
  let re k := fst (nth k X (0,0)) in let im k := snd (nth k X (0,0)) in
  re 0%nat + 2 * rsum (m-1) (fun i => re (S i) * cos (angle n j (S i)) - im (S i) * sin (angle n j (S i))) + re m * cos (angle n j m)
  = rsum n (fun l => nth l x 0 * kernel m (2 * PI * (INR j - INR l) / INR n)).
Proof.
  intros Hx Hm n X re im.
  assert (Hh : (length x / 2 = m)%nat) by (rewrite Hx, Nat.mul_comm; apply Nat.div_mul; lia).
  assert (Hn : INR n <> 0) by (apply not_0_INR; unfold n; lia).
  assert (Hpt : forall k, (k <= m)%nat ->
     re k * cos (angle n j k) - im k * sin (angle n j k) = rsum n (fun l => nth l x 0 * cos (INR k * (2 * PI * (INR j - INR l) / INR n)))).
  { intros k Hk. unfold re, im, X. rewrite rfft_nth by lia. rewrite Hx. fold n. cbn [fst snd].
    rewrite <- Ropp_mult_distr_l. unfold Rminus at 1. rewrite Ropp_involutive.
    rewrite !(Rmult_comm (rsum _ _)), <- !rsum_scal, <- rsum_plus. apply rsum_ext. intros l _.
    replace (INR k * (2 * PI * (INR j - INR l) / INR n)) with (angle n j k - angle n l k) by (unfold angle; field; auto).
    rewrite cos_minus. ring. }
  assert (H0 : re 0%nat = rsum n (fun l => nth l x 0)).
  { unfold re, X. rewrite rfft_nth by lia. rewrite Hx. cbn [fst]. apply rsum_ext. intros l _.
    unfold angle. simpl (INR 0). rewrite Rmult_0_r, Rmult_0_r. unfold Rdiv. rewrite Rmult_0_l, cos_0. ring. }
  assert (Hsm : sin (angle n j m) = 0).
  { replace (angle n j m) with (INR j * PI); [apply sin_INR_PI|].
    unfold angle, n. rewrite mult_INR. simpl (INR 2). field. apply not_0_INR; lia. }
  assert (HM : re m * cos (angle n j m) = rsum n (fun l => nth l x 0 * cos (INR m * (2 * PI * (INR j - INR l) / INR n)))).
  { rewrite <- Hpt by lia. rewrite Hsm. ring. }
  rewrite H0, HM.
  rewrite (rsum_ext (m-1) _ (fun i => rsum n (fun l => nth l x 0 * cos (INR (S i) * (2 * PI * (INR j - INR l) / INR n)))))
    by (intros i Hi; apply Hpt; lia).
  rewrite rsum_swap, <- rsum_scal, <- !rsum_plus. apply rsum_ext. intros l _.
  rewrite rsum_scal. unfold kernel. ring.
Qed.

Lemma conv_kernel x m j : (0 < m)%nat -> (j < 2*m)%nat ->
  rsum (2*m) (fun l => nth l x 0 * kernel m (2 * PI * (INR j - INR l) / INR (2*m))) = nth j x 0 * INR (2*m).
Proof.
  intros Hm Hj. rewrite (rsum_delta _ j); auto.
  - rewrite kernel_points by auto. destruct (Nat.eq_dec j j); [reflexivity|congruence].
  - intros l Hl Hne. rewrite kernel_points by auto. destruct (Nat.eq_dec j l); [congruence|ring].
Qed.

Lemma nth_map_seq {B} (g : nat -> B) n k d : (k < n)%nat -> nth k (map g (seq 0 n)) d = g k.
Proof. intros H. rewrite (nth_indep _ d (g 0%nat)) by (rewrite map_length, seq_length; auto). rewrite map_nth, seq_nth by auto. reflexivity. Qed.

Lemma irfft_rfft x m : length x = (2 * m)%nat -> (0 < m)%nat -> irfft (rfft x) = Some x.
Proof.
  intros Hx Hm. unfold irfft. rewrite rfft_length.
  assert (Hh : (length x / 2 = m)%nat) by (rewrite Hx, Nat.mul_comm; apply Nat.div_mul; lia).
  rewrite Hh. replace (m + 1 - 1)%nat with m by lia.
  destruct (Nat.eqb_spec m 0) as [?|_]; [lia|]. f_equal.
  apply nth_ext with (d := 0) (d' := 0).
  - rewrite map_length, seq_length. auto.
  - intros j Hj. rewrite map_length, seq_length in Hj. rewrite nth_map_seq by auto.
    rewrite (bracket x m j Hx Hm), (conv_kernel x m j Hm Hj). field. apply not_0_INR; lia.
Qed.

(** Parseval for the real transform of even length *)
Lemma parseval_rfft x m : length x = (2 * m)%nat -> (0 < m)%nat ->
  let re k := fst (nth k (rfft x) (0,0)) in let im k := snd (nth k (rfft x) (0,0)) in
  INR (2*m) * rsum (2*m) (fun j => nth j x 0 * nth j x 0)
  = re 0%nat * re 0%nat + 2 * rsum (m-1) (fun i => re (S i) * re (S i) + im (S i) * im (S i)) + re m * re m.
Proof.
  intros Hx Hm re im. set (n := (2*m)%nat).
  assert (Hh : (length x / 2 = m)%nat) by (rewrite Hx, Nat.mul_comm; apply Nat.div_mul; lia).
  assert (Hre : forall k, (k <= m)%nat -> re k = rsum n (fun j => nth j x 0 * cos (angle n j k))).
  { intros k Hk. unfold re. rewrite rfft_nth, Hx by lia. reflexivity. }
  assert (Him : forall k, (k <= m)%nat -> im k = - rsum n (fun j => nth j x 0 * sin (angle n j k))).
  { intros k Hk. unfold im. rewrite rfft_nth, Hx by lia. reflexivity. }
  transitivity (rsum n (fun j => nth j x 0 * (re 0%nat + 2 * rsum (m-1) (fun i => re (S i) * cos (angle n j (S i)) - im (S i) * sin (angle n j (S i))) + re m * cos (angle n j m)))).
  { rewrite <- rsum_scal. apply rsum_ext. intros j Hj.
    unfold re, im, n. rewrite (bracket x m j Hx Hm), (conv_kernel x m j Hm Hj). ring. }
  rewrite (rsum_ext n _ (fun j => re 0%nat * (nth j x 0 * cos (angle n j 0)) + 2 * rsum (m-1) (fun i => re (S i) * (nth j x 0 * cos (angle n j (S i))) + (- im (S i)) * (nth j x 0 * sin (angle n j (S i)))) + re m * (nth j x 0 * cos (angle n j m)))).
  2:{ intros j _.
      replace (cos (angle n j 0)) with 1
        by (unfold angle; simpl (INR 0); rewrite Rmult_0_r, Rmult_0_r; unfold Rdiv; rewrite Rmult_0_l, cos_0; reflexivity).
      rewrite Rmult_plus_distr_l, Rmult_plus_distr_l.
      replace (nth j x 0 * (2 * rsum (m-1) (fun i => re (S i) * cos (angle n j (S i)) - im (S i) * sin (angle n j (S i)))))
        with (2 * rsum (m-1) (fun i => re (S i) * (nth j x 0 * cos (angle n j (S i))) + - im (S i) * (nth j x 0 * sin (angle n j (S i))))).
      2:{ rewrite <- Rmult_assoc, (Rmult_comm (nth j x 0) 2), Rmult_assoc. f_equal. rewrite <- rsum_scal.
          apply rsum_ext. intros; ring. }
      ring. }
  rewrite !rsum_plus, !rsum_scal, rsum_swap.
  rewrite <- (Hre 0%nat), <- (Hre m) by lia. f_equal. f_equal. f_equal. rewrite <- rsum_plus. apply rsum_ext. intros i Hi.
  rewrite rsum_plus, !rsum_scal, <- Hre by lia. pose proof (Him (S i) ltac:(lia)) as E.
  set (s := rsum n _) in *. rewrite E. ring.
Qed.

(** ** full-period sums *)
Lemma sum_cos_sin n t : sin (t/2) * rsum n (fun j => cos (INR j * t)) = (sin (INR n * t - t/2) + sin (t/2)) / 2.
Proof.
  rewrite <- rsum_scal.
  rewrite (rsum_ext _ _ (fun i => (fun k => sin (INR k * t - t/2) / 2) (S i) - (fun k => sin (INR k * t - t/2) / 2) i)).
  2:{ intros i _. cbv beta. replace (INR (S i) * t - t/2) with (INR i * t + t/2) by (rewrite S_INR; lra).
      rewrite sin_plus, sin_minus. lra. }
  rewrite (rsum_tele n (fun k => sin (INR k * t - t/2) / 2)). simpl (INR 0).
  replace (0 * t - t/2) with (- (t/2)) by lra. rewrite sin_neg. lra.
Qed.
Lemma sum_sin_sin n t : sin (t/2) * rsum n (fun j => sin (INR j * t)) = (cos (t/2) - cos (INR n * t - t/2)) / 2.
Proof.
  rewrite <- rsum_scal.
  rewrite (rsum_ext _ _ (fun i => (fun k => - cos (INR k * t - t/2) / 2) (S i) - (fun k => - cos (INR k * t - t/2) / 2) i)).
  2:{ intros i _. cbv beta. replace (INR (S i) * t - t/2) with (INR i * t + t/2) by (rewrite S_INR; lra).
      rewrite cos_plus, cos_minus. lra. }
  rewrite (rsum_tele n (fun k => - cos (INR k * t - t/2) / 2)). simpl (INR 0).
  replace (0 * t - t/2) with (- (t/2)) by lra. rewrite cos_neg. lra.
Qed.
Lemma sin_half_pos n d : (0 < d < n)%nat -> 0 < sin ((2 * PI * INR d / INR n) / 2).
Proof.
  intros Hd. assert (Hn : 0 < INR n) by (apply lt_0_INR; lia). assert (Hd' : 0 < INR d) by (apply lt_0_INR; lia).
  assert (INR d < INR n) by (apply lt_INR; lia). pose proof PI_RGT_0.
  replace ((2 * PI * INR d / INR n) / 2) with (PI * (INR d / INR n)) by (field; lra).
  apply sin_gt_0.
  - apply Rmult_lt_0_compat; [lra|]. apply Rdiv_lt_0_compat; lra.
  - rewrite <- (Rmult_1_r PI) at 2. apply Rmult_lt_compat_l; [lra|].
    apply Rmult_lt_reg_r with (INR n); [lra|]. unfold Rdiv. rewrite Rmult_assoc, Rinv_l; lra.
Qed.
Lemma full_cos n d : (0 < d < n)%nat -> rsum n (fun j => cos (INR j * (2 * PI * INR d / INR n))) = 0.
Proof.
  intros Hd. pose proof (sin_half_pos n d Hd) as Hs. set (t := 2 * PI * INR d / INR n) in *.
  assert (Hn : INR n <> 0) by (apply not_0_INR; lia).
  pose proof (sum_cos_sin n t) as E.
  replace (INR n * t - t/2) with (- (t/2) + 2 * INR d * PI) in E by (unfold t; field; auto).
  rewrite sin_period, sin_neg in E.
  replace ((- sin (t/2) + sin (t/2)) / 2) with 0 in E by lra. apply Rmult_integral in E. destruct E; lra.
Qed.
Lemma full_sin n d : (0 < d < n)%nat -> rsum n (fun j => sin (INR j * (2 * PI * INR d / INR n))) = 0.
Proof.
  intros Hd. pose proof (sin_half_pos n d Hd) as Hs. set (t := 2 * PI * INR d / INR n) in *.
  assert (Hn : INR n <> 0) by (apply not_0_INR; lia).
  pose proof (sum_sin_sin n t) as E.
  replace (INR n * t - t/2) with (- (t/2) + 2 * INR d * PI) in E by (unfold t; field; auto).
  rewrite cos_period, cos_neg in E.
  replace ((cos (t/2) - cos (t/2)) / 2) with 0 in E by lra. apply Rmult_integral in E. destruct E; lra.
Qed.
Lemma full_cos_0 n : rsum n (fun j => cos (INR j * (2 * PI * INR 0 / INR n))) = INR n.
Proof.
  induction n as [|n IH]; [reflexivity|].
  assert (E : forall m q, rsum m (fun j => cos (INR j * (2 * PI * INR 0 / q))) = INR m).
  { intros m q. rewrite (rsum_ext _ _ (fun _ => 1)).
    - clear. induction m as [|m IH]; [reflexivity|]. rewrite S_INR. simpl. rewrite IH. reflexivity.
    - intros j _. simpl (INR 0). rewrite Rmult_0_r. unfold Rdiv. rewrite Rmult_0_l, Rmult_0_r. apply cos_0. }
  apply E.
Qed.

(** ** rounding *)
Lemma Int_part_eq x z : IZR z <= x < IZR z + 1 -> Int_part x = z.
Proof.
  intros [H1 H2]. unfold Int_part. assert (E : (z + 1)%Z = up x).
  { apply tech_up; rewrite plus_IZR; simpl; lra. }
  rewrite <- E. lia.
Qed.
Lemma round_even_IZR z : round_even (IZR z) = z.
Proof. unfold round_even. rewrite (Int_part_eq (IZR z) z) by lra. destruct (Rlt_dec _ _); [auto|lra]. Qed.
Lemma round_even_half z : round_even (IZR z + 1/2) = if Z.even z then z else (z + 1)%Z.
Proof.
  unfold round_even. rewrite (Int_part_eq _ z) by lra.
  destruct (Rlt_dec _ _); [lra|]. destruct (Rlt_dec _ _); [lra|]. reflexivity.
Qed.
Lemma round_even_near x z : Rabs (x - IZR z) < 1/2 -> round_even x = z.
Proof.
  intros H. apply Rabs_def2 in H. destruct H as [H1 H2]. unfold round_even.
  destruct (Rle_dec (IZR z) x) as [H|H].
  - rewrite (Int_part_eq x z) by lra. destruct (Rlt_dec _ _); [auto|lra].
  - rewrite (Int_part_eq x (z - 1)) by (rewrite minus_IZR; simpl; lra).
    destruct (Rlt_dec _ _) as [L|L]; [rewrite minus_IZR in L; simpl in L; lra|].
    destruct (Rlt_dec _ _) as [L'|L']; [lia|rewrite minus_IZR in L'; simpl in L'; lra].
Qed.
Lemma round14_exact x z : x * 10 ^ 14 = IZR z -> round14 x = x.
Proof. intros H. unfold round14. rewrite H, round_even_IZR, <- H. field. Qed.
Lemma trunc_IZR z : trunc (IZR z) = z.
Proof.
  unfold trunc. destruct (Rlt_dec _ _).
  - rewrite <- opp_IZR, (Int_part_eq _ (- z)) by lra. lia.
  - apply Int_part_eq; lra.
Qed.
Lemma legal_IZR fs T z : fs * T = IZR z -> legal fs T = true.
Proof.
  intros H. unfold legal. rewrite H, round_even_IZR, Rminus_eq_0, Rabs_R0.
  destruct (Rlt_dec _ _) as [L|]; auto.
  assert (0 < / 10 ^ 14) by (apply Rinv_0_lt_compat, pow_lt; lra). lra.
Qed.

(** ** evenly spaced arrays *)
Lemma linspace_length a b n : length (linspace a b n) = n.
Proof. unfold linspace. rewrite map_length, seq_length. reflexivity. Qed.
Lemma linspace_nth a b n k : (k < n)%nat -> nth k (linspace a b n) 0 = a + INR k * ((b - a) / INR (n - 1)).
Proof. intros H. unfold linspace. apply (nth_map_seq (fun i => a + INR i * ((b - a) / INR (n - 1)))); auto. Qed.
Lemma diffs_seq a h s n : List.Forall (fun d => d = h) (diffs (map (fun i => a + INR i * h) (seq s n))).
Proof.
  revert s. induction n as [|n IH]; intros s; [constructor|]. destruct n as [|n]; [constructor|].
  change (List.Forall (fun d => d = h) (((a + INR (S s) * h) - (a + INR s * h)) :: diffs (map (fun i => a + INR i * h) (seq (S s) (S n))))).
  constructor; [rewrite S_INR; ring|apply IH].
Qed.
Lemma spread_const h l : List.Forall (fun d => d = h) l -> spread l = 0.
Proof.
  intros H. destruct l as [|a t]; [reflexivity|]. inversion H as [|? ? Ha Ht]; subst. unfold spread.
  assert (E : fold_right Rmax h t = h /\ fold_right Rmin h t = h).
  { clear H. induction Ht as [|b t Hb Ht [I1 I2]]; [auto|]. subst b. simpl. rewrite I1, I2.
    split; [apply Rmax_left; lra|apply Rmin_left; lra]. }
  destruct E as [-> ->]. lra.
Qed.
Lemma linspace_spread a b n : spread (diffs (linspace a b n)) = 0.
Proof. apply (spread_const ((b - a) / INR (n - 1))). apply diffs_seq. Qed.
Lemma linspace_head a b n : linspace a b (S (S n)) =
  a :: (a + (b - a) / INR (S n)) :: map (fun i => a + INR i * ((b - a) / INR (S n))) (seq 2 n).
Proof.
  unfold linspace. replace (S (S n) - 1)%nat with (S n) by lia.
  change (seq 0 (S (S n))) with (0%nat :: 1%nat :: seq 2 n). rewrite !map_cons. f_equal; [simpl (INR 0); ring|].
  f_equal. simpl (INR 1). ring.
Qed.
Lemma tol10 : 0 < / 10 ^ 10.
Proof. apply Rinv_0_lt_compat, pow_lt. lra. Qed.
Lemma from_time_linspace a b n : from_time_array (linspace a b (S (S n))) =
  let fs := round14 (1 / ((b - a) / INR (S n))) in Some (fs, INR (S (S n)) / fs).
Proof.
  pose proof (linspace_spread a b (S (S n))) as H. pose proof (linspace_length a b (S (S n))) as L.
  rewrite linspace_head in *. unfold from_time_array. rewrite H, L.
  destruct (Rlt_dec _ _) as [B|B]; [pose proof tol10; lra|].
  replace (a + (b - a) / INR (S n) - a) with ((b - a) / INR (S n)) by ring. reflexivity.
Qed.
Lemma from_freq_linspace a b n : from_frequency_array (linspace a b (S (S n))) =
  let T := round14 (1 / ((b - a) / INR (S n))) in Some (round14 (2 * (INR (S (S n)) - 1) / T), T).
Proof.
  pose proof (linspace_spread a b (S (S n))) as H. pose proof (linspace_length a b (S (S n))) as L.
  rewrite linspace_head in *. unfold from_frequency_array. rewrite H, L.
  destruct (Rlt_dec _ _) as [B|B]; [pose proof tol10; lra|].
  replace (a + (b - a) / INR (S n) - a) with ((b - a) / INR (S n)) by ring. reflexivity.
Qed.

Lemma diff_cos n p k : (p < n)%nat -> (k < n)%nat ->
  rsum n (fun j => cos (INR j * (2 * PI * (INR p - INR k) / INR n))) = if Nat.eq_dec k p then INR n else 0.
Proof.
  intros Hp Hk. destruct (Nat.eq_dec k p) as [->|Hne].
  - transitivity (rsum n (fun j => cos (INR j * (2 * PI * INR 0 / INR n)))); [|apply full_cos_0].
    apply rsum_ext. intros j _. rewrite Rminus_eq_0. reflexivity.
  - destruct (le_lt_dec k p) as [H|H].
    + rewrite <- minus_INR by lia. apply full_cos. lia.
    + rewrite <- (full_cos n (k - p)) by lia. apply rsum_ext. intros j _. rewrite <- cos_neg. f_equal.
      rewrite minus_INR by lia. unfold Rdiv. ring.
Qed.
Lemma diff_sin n p k : (p < n)%nat -> (k < n)%nat ->
  rsum n (fun j => sin (INR j * (2 * PI * (INR p - INR k) / INR n))) = 0.
Proof.
  intros Hp Hk. destruct (le_lt_dec k p) as [H|H].
  - rewrite <- minus_INR by lia. destruct (Nat.eq_dec (p - k) 0) as [->|]; [|apply full_sin; lia].
    rewrite (rsum_ext _ _ (fun _ => 0)), rsum_0; auto. intros j _. simpl (INR 0). rewrite Rmult_0_r. unfold Rdiv.
    rewrite Rmult_0_l, Rmult_0_r. apply sin_0.
  - rewrite (rsum_ext _ _ (fun j => -1 * sin (INR j * (2 * PI * INR (k - p) / INR n)))).
    + rewrite rsum_scal, full_sin by lia. ring.
    + intros j _. replace (INR j * (2 * PI * (INR p - INR k) / INR n)) with (- (INR j * (2 * PI * INR (k - p) / INR n)))
        by (rewrite minus_INR by lia; unfold Rdiv; ring). rewrite sin_neg. ring.
Qed.
Lemma cos_cos_sum n p k : (0 < p)%nat -> (p + k < n)%nat ->
  rsum n (fun j => cos (INR j * (2 * PI * INR p / INR n)) * cos (angle n j k)) = if Nat.eq_dec k p then INR n / 2 else 0.
Proof.
  intros Hp Hk. assert (Hn : INR n <> 0) by (apply not_0_INR; lia).
  rewrite (rsum_ext _ _ (fun j => (1/2) * (cos (INR j * (2 * PI * (INR p - INR k) / INR n)) + cos (INR j * (2 * PI * INR (p + k) / INR n))))).
  - rewrite rsum_scal, rsum_plus, diff_cos, full_cos by lia. destruct (Nat.eq_dec k p); field.
  - intros j _. replace (angle n j k) with (INR j * (2 * PI * INR k / INR n)) by (unfold angle; field; auto).
    replace (INR j * (2 * PI * (INR p - INR k) / INR n)) with (INR j * (2 * PI * INR p / INR n) - INR j * (2 * PI * INR k / INR n)) by (field; auto).
    replace (INR j * (2 * PI * INR (p + k) / INR n)) with (INR j * (2 * PI * INR p / INR n) + INR j * (2 * PI * INR k / INR n)) by (rewrite plus_INR; field; auto).
    rewrite cos_minus, cos_plus. field.
Qed.
Lemma cos_sin_sum n p k : (0 < p)%nat -> (p + k < n)%nat ->
  rsum n (fun j => cos (INR j * (2 * PI * INR p / INR n)) * sin (angle n j k)) = 0.
Proof.
  intros Hp Hk. assert (Hn : INR n <> 0) by (apply not_0_INR; lia).
  rewrite (rsum_ext _ _ (fun j => (1/2) * (sin (INR j * (2 * PI * INR (p + k) / INR n)) + -1 * sin (INR j * (2 * PI * (INR p - INR k) / INR n))))).
  - rewrite rsum_scal, rsum_plus, rsum_scal, diff_sin, full_sin by lia. ring.
  - intros j _. replace (angle n j k) with (INR j * (2 * PI * INR k / INR n)) by (unfold angle; field; auto).
    replace (INR j * (2 * PI * (INR p - INR k) / INR n)) with (INR j * (2 * PI * INR p / INR n) - INR j * (2 * PI * INR k / INR n)) by (field; auto).
    replace (INR j * (2 * PI * INR (p + k) / INR n)) with (INR j * (2 * PI * INR p / INR n) + INR j * (2 * PI * INR k / INR n)) by (rewrite plus_INR; field; auto).
    rewrite sin_minus, sin_plus. field.
Qed.
(** scaling commutes with the inverse transform *)
Lemma nth_scaled (X : list (R * R)) c k : nth k (map (fun z => (fst z / c, snd z / c)) X) (0, 0) = (fst (nth k X (0,0)) / c, snd (nth k X (0,0)) / c).
Proof.
  rewrite <- (map_nth (fun z => (fst z / c, snd z / c)) X (0,0) k). f_equal. cbn [fst snd]. unfold Rdiv. rewrite Rmult_0_l. reflexivity.
Qed.
Lemma irfft_scaled X c y : irfft X = Some y -> irfft (map (fun z => (fst z / c, snd z / c)) X) = Some (map (fun v => v / c) y).
Proof.
  unfold irfft. rewrite map_length. destruct (Nat.eqb _ 0); [discriminate|]. intros E. apply some_inj in E. rewrite <- E. f_equal.
  rewrite map_map. apply map_ext. intros j. rewrite !nth_scaled. cbn [fst snd].
  set (n := (2 * (length X - 1))%nat).
  rewrite (rsum_ext _ _ (fun i => / c * (fst (nth (S i) X (0,0)) * cos (angle n j (S i)) - snd (nth (S i) X (0,0)) * sin (angle n j (S i))))).
  2:{ intros i _. rewrite !nth_scaled. cbn [fst snd]. unfold Rdiv. ring. }
  rewrite rsum_scal. unfold Rdiv. ring.
Qed.
