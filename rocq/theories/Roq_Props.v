(** Properties C131 - C136: the reduced-order-quadrature likelihood. Model: Roq_Model.v. *)
From Coq Require Import Ascii String Reals ZArith List Bool Lra Lia Sorted.
From Coquelicot Require Import Complex.
From Verif Require Import PyDict Mband_Model Mband_Props Roq_Model.
Import ListNotations.
Open Scope list_scope.
Open Scope R_scope.

(** ** C131: interpolation between the time samples *)

Lemma trunc_nonneg x : 0 <= x -> trunc x = zfloor x.
Proof. intros H. unfold trunc. destruct (Rle_dec 0 x); [reflexivity|contradiction]. Qed.
Lemma trunc_floor x : (1 <= trunc x)%Z -> trunc x = zfloor x.
Proof.
  unfold trunc. destruct (Rle_dec 0 x) as [H|H]; [reflexivity|]. intros Q. exfalso.
  assert (0 < zceil x)%Z as A by lia. apply ceil_gt in A. simpl in A. lra.
Qed.
Lemma floor_unique x k : IZR k <= x < IZR k + 1 -> zfloor x = k.
Proof.
  intros [A B]. destruct (floor_spec x) as [F G].
  assert (IZR k < IZR (zfloor x + 1)) by (rewrite plus_IZR; lra). assert (IZR (zfloor x) < IZR (k + 1)) by (rewrite plus_IZR; lra).
  apply lt_IZR in H, H0. lia.
Qed.
Lemma floor_ge x j : IZR j <= x -> (j <= zfloor x)%Z.
Proof. intros H. destruct (Z.le_gt_cases j (zfloor x)); [assumption|]. apply floor_lt in H0. lra. Qed.

Lemma in_bounds_iff n c : in_bounds n c = true <-> (2 <= c /\ c + 2 < n)%Z.
Proof. unfold in_bounds. rewrite andb_true_iff, Z.leb_le, Z.ltb_lt. lia. Qed.

(** A time is within bounds exactly between the third sample and the one but last. *)
Theorem C131_in_bounds V n s0 dt t : 0 < dt ->
  ((exists v, dinnerh V n s0 dt t = Some v) <-> s0 + 2 * dt <= t < s0 + IZR (n - 2) * dt).
Proof.
  intros D.
  assert (K : forall a, a * dt <= t - s0 <-> a <= (t - s0) / dt).
  { intros a. split; intros H. - apply (Rmult_le_reg_r dt); [exact D|]. unfold Rdiv. rewrite Rmult_assoc, Rinv_l by lra. lra.
    - apply (Rmult_le_compat_r dt) in H; [|lra]. unfold Rdiv in H. rewrite Rmult_assoc, Rinv_l in H by lra. lra. }
  assert (E : (exists v, dinnerh V n s0 dt t = Some v) <-> in_bounds n (closest s0 dt t) = true).
  { unfold dinnerh. destruct (in_bounds n (closest s0 dt t)); split; intros H; try reflexivity; try discriminate.
    - eexists; reflexivity. - destruct H; discriminate. }
  rewrite E, in_bounds_iff. unfold closest. split.
  - intros [A B]. assert (TF : trunc ((t - s0) / dt) = zfloor ((t - s0) / dt)) by (apply trunc_floor; lia). rewrite TF in A, B. destruct (floor_spec ((t - s0) / dt)) as [F G].
    pose proof (IZR_le _ _ A). split. + assert (2 <= (t - s0) / dt) by (simpl in H; lra). apply K in H0. lra.
    + destruct (Rlt_le_dec t (s0 + IZR (n - 2) * dt)); [assumption|]. exfalso.
      assert (IZR (n - 2) * dt <= t - s0) as Q by lra. apply K, floor_ge in Q. lia.
  - intros [A B]. assert (2 * dt <= t - s0) as A' by lra. apply K in A'.
    rewrite trunc_nonneg by lra. split. + apply (floor_ge _ 2). simpl. lra.
    + destruct (floor_spec ((t - s0) / dt)) as [F G].
      destruct (Z.lt_ge_cases (zfloor ((t - s0) / dt) + 2) n); [assumption|]. exfalso.
      assert (n - 2 <= zfloor ((t - s0) / dt))%Z as Q by lia. apply IZR_le in Q.
      assert (IZR (n - 2) <= (t - s0) / dt) as Q' by lra. apply K in Q'. lra.
Qed.

(** Interpolation is exact for every cubic polynomial of time. *)
Theorem C131_cubic c0 c1 c2 c3 V n s0 dt t v :
  0 < dt -> (forall k, V k = let x := s0 + IZR k * dt in c0 + c1 * x + c2 * x ^ 2 + c3 * x ^ 3) ->
  dinnerh V n s0 dt t = Some v -> v = c0 + c1 * t + c2 * t ^ 2 + c3 * t ^ 3.
Proof.
  intros D HV E. unfold dinnerh in E. destruct (in_bounds n (closest s0 dt t)); [|discriminate].
  apply (f_equal (fun o => match o with Some x => x | None => 0 end)) in E. subst v. rewrite !HV.
  set (c := closest s0 dt t). cbv zeta. unfold interp5. rewrite !minus_IZR, !plus_IZR. set (x := IZR c). clearbody x.
  field. lra.
Qed.
(** Not for quartics: the interpolated value of t^4 half way between samples differs from the truth. *)
Theorem C131_quartic_refuted :
  exists v, dinnerh (fun k => IZR k ^ 4) 10 0 1 (4 + / 2) = Some v /\ v <> (4 + / 2) ^ 4.
Proof.
  assert (F : zfloor (4 + / 2) = 4%Z) by (apply floor_unique; lra).
  assert (CL : closest 0 1 (4 + / 2) = 4%Z).
  { unfold closest. replace ((4 + / 2 - 0) / 1) with (4 + / 2) by field. rewrite trunc_nonneg by lra. exact F. }
  eexists. split. - unfold dinnerh. rewrite CL. reflexivity.
  - unfold interp5. simpl. lra.
Qed.
(** At a sample the value is the one stored, whatever the neighbours; and on either side of a sample the same value is
    approached: the last argument need not be reached. *)
Theorem C131_nodes V n s0 dt k : 0 < dt -> (2 <= k)%Z -> (k + 2 < n)%Z ->
  dinnerh V n s0 dt (s0 + IZR k * dt) = Some (V k).
Proof.
  intros D A B. assert (X : (s0 + IZR k * dt - s0) / dt = IZR k) by (field; lra).
  pose proof (IZR_le _ _ A) as A'. simpl in A'.
  assert (CL : closest s0 dt (s0 + IZR k * dt) = k).
  { unfold closest. rewrite X, trunc_nonneg by lra. apply floor_unique. lra. }
  unfold dinnerh. rewrite CL. assert (IB : in_bounds n k = true) by (apply in_bounds_iff; lia). rewrite IB. f_equal.
  unfold interp5. rewrite !minus_IZR, !plus_IZR. field. lra.
Qed.
Theorem C131_continuous V n s0 dt k : 0 < dt -> (2 <= k)%Z -> (k + 2 < n)%Z -> forall eps, 0 < eps ->
  exists del, 0 < del /\ forall t v, s0 + IZR k * dt - del < t -> t < s0 + IZR k * dt ->
    dinnerh V n s0 dt t = Some v -> Rabs (v - V k) < eps.
Proof.
  intros D A B eps EP.
  (* in the interval before sample k the value is a polynomial in b that is V k at b = 1 *)
  set (r1 := (- V (k - 3)%Z + 8 * V (k - 2)%Z - 14 * V (k - 1)%Z + 8 * V k - V (k + 1)%Z) / 4).
  set (r2 := V (k - 1)%Z - 2 * V k + V (k + 1)%Z).
  set (M := Rabs (V (k - 1)%Z) + Rabs (V k) + Rabs r1 + Rabs r2 + 1).
  assert (MP : 0 < M). { unfold M. pose proof (Rabs_pos (V (k - 1)%Z)). pose proof (Rabs_pos (V k)). pose proof (Rabs_pos r1). pose proof (Rabs_pos r2). lra. }
  exists (dt * Rmin 1 (eps / M)). assert (QP : 0 < Rmin 1 (eps / M)).
  { apply Rmin_glb_lt; [lra|]. apply Rdiv_lt_0_compat; lra. }
  split. { apply Rmult_lt_0_compat; lra. }
  intros t v T1 T2 E.
  set (a := (s0 + IZR k * dt - t) / dt).
  assert (AT : t = s0 + IZR k * dt - a * dt) by (unfold a; field; lra).
  assert (A0 : 0 < a). { unfold a. apply Rdiv_lt_0_compat; lra. }
  assert (AR : a < Rmin 1 (eps / M)).
  { apply (Rmult_lt_reg_r dt); [exact D|]. lra. }
  pose proof (Rmin_l 1 (eps / M)). pose proof (Rmin_r 1 (eps / M)).
  pose proof (IZR_le _ _ A) as A'. simpl in A'.
  assert (CL : closest s0 dt t = (k - 1)%Z).
  { unfold closest. assert (X : (t - s0) / dt = IZR k - a) by (rewrite AT; field; lra). rewrite X.
    rewrite trunc_nonneg by lra. apply floor_unique. rewrite minus_IZR. lra. }
  unfold dinnerh in E. rewrite CL in E. destruct (in_bounds n (k - 1)); [|discriminate].
  apply (f_equal (fun o => match o with Some x => x | None => 0 end)) in E. subst v.
  replace (k - 1 - 2)%Z with (k - 3)%Z by lia. replace (k - 1 - 1)%Z with (k - 2)%Z by lia.
  replace (k - 1 + 1)%Z with k by lia. replace (k - 1 + 2)%Z with (k + 1)%Z by lia.
  assert (EQ : interp5 (s0 + IZR (k - 2) * dt - (s0 + IZR (k - 3) * dt)) (s0 + IZR k * dt) (V (k - 3)%Z) (V (k - 2)%Z)
             (V (k - 1)%Z) (V k) (V (k + 1)%Z) t - V k
           = a * (V (k - 1)%Z - V k + (a ^ 2 - 1) / 6 * r1 - (1 - a) * (2 - a) / 6 * r2)).
  { unfold interp5. fold r1 r2. rewrite AT. rewrite !minus_IZR. clearbody r1 r2. clearbody a. field. lra. }
  rewrite EQ, Rabs_mult, (Rabs_right a) by lra.
  assert (BD : Rabs (V (k - 1)%Z - V k + (a ^ 2 - 1) / 6 * r1 - (1 - a) * (2 - a) / 6 * r2) < M).
  { assert (a2 : 0 <= a ^ 2 <= 1) by nra.
    assert (P1 : Rabs ((a ^ 2 - 1) / 6 * r1) <= Rabs r1).
    { rewrite Rabs_mult. assert (Rabs ((a ^ 2 - 1) / 6) <= 1) by (apply Rabs_le; lra). pose proof (Rabs_pos r1). nra. }
    assert (P2 : Rabs ((1 - a) * (2 - a) / 6 * r2) <= Rabs r2).
    { rewrite Rabs_mult. assert (Rabs ((1 - a) * (2 - a) / 6) <= 1) by (apply Rabs_le; nra). pose proof (Rabs_pos r2). nra. }
    unfold M. set (x := V (k - 1)%Z) in *. set (y := V k) in *. set (p := (a ^ 2 - 1) / 6 * r1) in *. set (q := (1 - a) * (2 - a) / 6 * r2) in *.
    clearbody x y p q. clear - P1 P2.
    assert (Rabs (x - y + p - q) <= Rabs x + Rabs y + Rabs p + Rabs q).
    { unfold Rminus. eapply Rle_trans; [apply Rabs_triang|]. rewrite Rabs_Ropp. pose proof (Rabs_triang (x + - y) p). pose proof (Rabs_triang x (- y)). rewrite Rabs_Ropp in H0. lra. }
    lra. }
  assert (AE : a * M < eps).
  { assert (a < eps / M) by lra. apply (Rmult_lt_compat_r M) in H1; [|exact MP]. unfold Rdiv in H1. rewrite Rmult_assoc, Rinv_l in H1 by lra. lra. }
  pose proof (Rabs_pos (V (k - 1)%Z - V k + (a ^ 2 - 1) / 6 * r1 - (1 - a) * (2 - a) / 6 * r2)). nra.
Qed.

(** The array version gives the same number at every time within bounds. *)
Theorem C131_array_agrees V n s0 dt t v : 0 < dt -> dinnerh V n s0 dt t = Some v -> dinnerh_arr V n s0 dt t = Some v.
Proof.
  intros D E. unfold dinnerh in E. destruct (in_bounds n (closest s0 dt t)) eqn:IB; [|discriminate].
  apply in_bounds_iff in IB. assert (CF : closest s0 dt t = zfloor ((t - s0) / dt)) by (apply trunc_floor; unfold closest in IB; lia).
  unfold dinnerh_arr. rewrite CF in *. set (k := zfloor ((t - s0) / dt)) in *.
  assert (G : forall i, (0 <= i < n)%Z -> np_get V n i = Some (V i)).
  { intros i Hi. unfold np_get. assert (H1 : (0 <=? i)%Z = true) by (apply Z.leb_le; lia). assert (H2 : (i <? n)%Z = true) by (apply Z.ltb_lt; lia). rewrite H1, H2. reflexivity. }
  rewrite !G by lia. rewrite <- E. f_equal. unfold interp5. rewrite !minus_IZR, !plus_IZR.
  clearbody k. field. lra.
Qed.
(** Outside it does not answer -inf: near the start it reads the other end of the array. *)
Theorem C131_wraps_refuted :
  exists V t v, dinnerh V 10 0 1 t = None /\ dinnerh_arr V 10 0 1 t = Some v /\ v <> 0 /\
    (forall k, (k < 9)%Z -> V k = 0).
Proof.
  exists (fun k => if Z.eqb k 9 then 1 else 0), (1 + / 2).
  assert (F : zfloor (1 + / 2) = 1%Z) by (apply floor_unique; lra).
  eexists. split; [|split; [|split]].
  - unfold dinnerh, closest. replace ((1 + / 2 - 0) / 1) with (1 + / 2) by field. rewrite trunc_nonneg by lra. rewrite F. reflexivity.
  - unfold dinnerh_arr. replace ((1 + / 2 - 0) / 1) with (1 + / 2) by field. rewrite F. reflexivity.
  - simpl. lra.
  - intros k H. destruct (Z.eqb_spec k 9); [lia|reflexivity].
Qed.

Example C131_ex :
  dinnerh (fun k => IZR k ^ 3) 10 0 1 (4 + / 2) = Some ((4 + / 2) ^ 3) /\
  dinnerh (fun k => IZR k) 10 0 1 (1 + / 2) = None.
Proof.
  split.
  - assert (X : 0 + 2 * 1 <= 4 + / 2 < 0 + IZR (10 - 2) * 1) by (simpl; lra).
    apply (proj2 (C131_in_bounds (fun k => IZR k ^ 3) 10 0 1 _ Rlt_0_1)) in X. destruct X as [v E]. rewrite E. f_equal.
    assert (P : forall k, IZR k ^ 3 = let x := 0 + IZR k * 1 in 0 + 0 * x + 0 * x ^ 2 + 1 * x ^ 3) by (intros k; cbv zeta; ring).
    rewrite (C131_cubic 0 0 0 1 (fun k => IZR k ^ 3) _ _ _ _ _ Rlt_0_1 P E). ring.
  - assert (F : zfloor (1 + / 2) = 1%Z) by (apply floor_unique; lra).
    unfold dinnerh, closest. replace ((1 + / 2 - 0) / 1) with (1 + / 2) by field. rewrite trunc_nonneg by lra. rewrite F. reflexivity.
Qed.

(** ** C132: the time samples cover the prior; the grid of the time marginalization *)

Lemma round_up2_spec x : 1 <= x -> x <= IZR (round_up2 x) /\ exists k, (0 <= k)%Z /\ round_up2 x = (2 ^ k)%Z.
Proof.
  intros X. assert (L2 : 0 < ln 2) by (rewrite <- ln_1; apply ln_increasing; lra).
  assert (LX : 0 <= ln x). { destruct (Req_dec x 1) as [->|]; [rewrite ln_1; lra|]. left. rewrite <- ln_1. apply ln_increasing; lra. }
  assert (Q : 0 <= ln x / ln 2) by (apply Rmult_le_pos; [assumption|left; apply Rinv_0_lt_compat; assumption]).
  destruct (ceil_spec (ln x / ln 2)) as [A B].
  assert (K : (0 <= zceil (ln x / ln 2))%Z). { apply le_IZR. simpl. lra. }
  split; [|exists (zceil (ln x / ln 2)); split; [exact K|reflexivity]].
  unfold round_up2. set (k := zceil (ln x / ln 2)) in *.
  assert (P : IZR (2 ^ k) = exp (IZR k * ln 2)).
  { rewrite <- (Z2Nat.id k) by exact K. rewrite <- pow_IZR, <- INR_IZR_INZ. rewrite <- Rpower_pow by lra. reflexivity. }
  rewrite P. rewrite <- (exp_ln x) at 1 by lra.
  assert (ln x <= IZR k * ln 2). { apply (Rmult_le_compat_r (ln 2)) in A; [|lra]. unfold Rdiv in A. rewrite Rmult_assoc, Rinv_l in A by lra. lra. }
  destruct H as [H|H]; [left; apply exp_increasing; exact H|right; rewrite H; reflexivity].
Qed.

(** The step never exceeds the one asked for, the number of steps is a power of two and exceeds the position of every
    frequency of the data, so that no frequency falls outside the buffer of the inverse Fourier transform. *)
Theorem C132_resolution T delta fny : 0 < T -> 0 < delta -> 0 <= fny ->
  resolution T delta fny <= delta /\ (exists k, (0 <= k)%Z /\ n_samples T delta fny = (2 ^ k)%Z) /\
  fny * T < IZR (n_samples T delta fny) /\ IZR (n_samples T delta fny) * resolution T delta fny = T.
Proof.
  intros TP DP F. assert (X : 1 <= Rmax (T / delta) (fny * T + 1)).
  { eapply Rle_trans; [|apply Rmax_r]. pose proof (Rmult_le_pos fny T F (Rlt_le _ _ TP)). lra. }
  destruct (round_up2_spec _ X) as [A B]. fold (n_samples T delta fny) in *.
  assert (NP : 0 < IZR (n_samples T delta fny)) by lra.
  pose proof (Rmax_l (T / delta) (fny * T + 1)). pose proof (Rmax_r (T / delta) (fny * T + 1)).
  repeat split.
  - unfold resolution. apply (Rmult_le_reg_r (IZR (n_samples T delta fny))); [exact NP|].
    unfold Rdiv at 1. rewrite Rmult_assoc, Rinv_l by lra.
    assert (H1 : T / delta <= IZR (n_samples T delta fny)) by lra.
    apply (Rmult_le_compat_r delta) in H1; [|lra]. unfold Rdiv in H1. rewrite Rmult_assoc, Rinv_l in H1 by lra. lra.
  - exact B.
  - lra.
  - unfold resolution. field. lra.
Qed.

(** For every time within the prior, shifted by a delay not longer than the crossing time of the Earth, the value is
    interpolated and never -inf, provided the segment of data contains prior and margin. *)
Theorem C132_covered V tmin tmax t0 cross ts n t dt_ :
  0 < ts -> 0 <= cross -> tmin <= t <= tmax -> - cross <= dt_ <= cross ->
  t0 + margin cross ts <= tmin -> tmax + margin cross ts + ts <= t0 + IZR (n - 1) * ts ->
  let s := start_idx tmin t0 cross ts in let e := end_idx tmax t0 cross ts n in
  exists v, dinnerh V (n_time s e) (sample s ts 0) ts (t - t0 + dt_) = Some v.
Proof.
  intros D CR TT DT SEG1 SEG2 s e. apply C131_in_bounds; [exact D|].
  assert (DV : forall x, x / ts * ts = x) by (intros x; unfold Rdiv; rewrite Rmult_assoc, Rinv_l by lra; ring).
  assert (Q : forall x, 0 <= x -> 0 <= x / ts) by (intros x H; apply Rmult_le_pos; [exact H|left; apply Rinv_0_lt_compat; exact D]).
  set (x := (tmin - margin cross ts - t0) / ts). set (y := (tmax + margin cross ts - t0) / ts).
  assert (XP : 0 <= x) by (apply Q; lra).
  destruct (floor_spec x) as [F1 F2]. destruct (ceil_spec y) as [G1 G2].
  assert (S : s = zfloor x). { unfold s, start_idx. fold x. apply Z.max_r. apply (floor_ge x 0). simpl. lra. }
  assert (E : e = zceil y).
  { unfold e, end_idx. fold y. apply Z.min_r. apply le_IZR. assert (y * ts = tmax + margin cross ts - t0) by apply DV.
    assert (y + 1 <= IZR (n - 1)). { apply (Rmult_le_reg_r ts); [exact D|]. nra. } lra. }
  unfold n_time, sample, margin in *. rewrite S, E in *. rewrite !plus_IZR. simpl (IZR 0).
  assert (XD : x * ts = tmin - (cross + 5 * ts) - t0) by apply DV.
  assert (YD : y * ts = tmax + (cross + 5 * ts) - t0) by apply DV.
  assert (FT : IZR (zfloor x) * ts <= x * ts) by (apply Rmult_le_compat_r; lra).
  assert (GT : y * ts <= IZR (zceil y) * ts) by (apply Rmult_le_compat_r; lra).
  split; [lra|].
  assert (NN : (zceil y + 1 - zfloor x <= Z.max 0 (zceil y + 1 - zfloor x))%Z) by lia.
  apply IZR_le in NN. rewrite minus_IZR, plus_IZR in NN. rewrite minus_IZR.
  set (nn := IZR (Z.max 0 (zceil y + 1 - zfloor x))) in *.
  assert ((IZR (zceil y) + 1 - IZR (zfloor x) - 2) * ts <= (nn - 2) * ts) by (apply Rmult_le_compat_r; lra). simpl. lra.
Qed.
(** Without room in the segment the claim fails: a prior that starts with the data gives -inf at its start. *)
Theorem C132_edge_refuted : exists V t, 0 <= t <= 1 /\
  dinnerh V (n_time (start_idx 0 0 (/ 25) (/ 8)) (end_idx 1 0 (/ 25) (/ 8) 64)) (sample (start_idx 0 0 (/ 25) (/ 8)) (/ 8) 0) (/ 8) (t - 0 + 0) = None.
Proof.
  exists (fun _ => 0), 0. split; [lra|].
  assert (S : start_idx 0 0 (/ 25) (/ 8) = 0%Z).
  { unfold start_idx, margin. apply Z.max_l. assert (zfloor ((0 - (/ 25 + 5 * / 8) - 0) / / 8) < 1)%Z; [|lia].
    apply floor_lt. simpl. lra. }
  rewrite S. unfold dinnerh, closest, sample. replace ((0 - 0 + 0 - IZR (0 + 0) * / 8) / / 8) with 0 by (simpl; field).
  rewrite trunc_nonneg by lra. rewrite (floor_unique 0 0) by (simpl; lra). reflexivity.
Qed.

(** The grid of the time marginalization: not coarser than asked for, and cells of equal width centred on the times
    fill the prior range exactly; with a jitter of at most half a cell no time leaves the prior. *)
Theorem C132_time_grid tmin tmax delta : tmin < tmax -> 0 < delta ->
  let d := tc_delta tmin tmax delta in let N := tc_number tmin tmax delta in
  (1 <= N)%Z /\ 0 < d <= delta /\
  (forall k, (0 <= k < N)%Z -> tmin < tc_time tmin tmax delta k < tmax) /\
  (forall t, tmin <= t < tmax -> exists! k, (0 <= k < N)%Z /\ tc_time tmin tmax delta k - d / 2 <= t < tc_time tmin tmax delta k + d / 2) /\
  (forall k j, (0 <= k < N)%Z -> - (d / 2) <= j <= d / 2 -> tmin <= tc_time tmin tmax delta k + j <= tmax).
Proof.
  intros TT DP d N.
  assert (X : 0 < (tmax - tmin) / delta) by (apply Rdiv_lt_0_compat; lra).
  assert (N1 : (0 < N)%Z) by (apply ceil_gt; exact X).
  destruct (ceil_spec ((tmax - tmin) / delta)) as [A B]. fold (tc_number tmin tmax delta) N in A, B.
  assert (NP : 1 <= IZR N) by (apply (IZR_le 1); lia).
  assert (ND : IZR N * d = tmax - tmin) by (unfold d, tc_delta; fold N; field; lra).
  assert (D0 : 0 < d) by (unfold d, tc_delta; fold N; apply Rdiv_lt_0_compat; lra).
  assert (K : forall k, tc_time tmin tmax delta k = tmin + d / 2 + IZR k * d) by reflexivity.
  assert (KB : forall k, (0 <= k < N)%Z -> 0 <= IZR k * d /\ IZR k * d + d <= tmax - tmin).
  { intros k [H1 H2]. assert (H3 : (k + 1 <= N)%Z) by lia. apply IZR_le in H1, H3. rewrite plus_IZR in H3. split.
    - apply Rmult_le_pos; [exact H1|lra]. - rewrite <- ND. replace (IZR k * d + d) with ((IZR k + 1) * d) by ring. apply Rmult_le_compat_r; lra. }
  split; [lia|]. split; [split; [exact D0|]|split; [|split]].
  - apply (Rmult_le_reg_l (IZR N)); [lra|]. rewrite ND. apply (Rmult_le_compat_r delta) in A; [|lra].
    unfold Rdiv in A. rewrite Rmult_assoc, Rinv_l in A by lra. lra.
  - intros k Hk. destruct (KB k Hk). rewrite K. lra.
  - intros t Ht. exists (zfloor ((t - tmin) / d)).
    assert (Y : (t - tmin) / d * d = t - tmin) by (field; lra). set (y := (t - tmin) / d) in *.
    destruct (floor_spec y) as [F G]. split; [split|].
    + split. * apply (floor_ge y 0). apply (Rmult_le_reg_r d); [exact D0|]. simpl. lra.
      * apply floor_lt. apply (Rmult_lt_reg_r d); [exact D0|]. lra.
    + rewrite K. assert (IZR (zfloor y) * d <= y * d) by (apply Rmult_le_compat_r; lra).
      assert (y * d < (IZR (zfloor y) + 1) * d) by (apply Rmult_lt_compat_r; lra). lra.
    + intros k' [_ [H1 H2]]. rewrite K in H1, H2. apply floor_unique. split.
      * apply (Rmult_le_reg_r d); [exact D0|]. lra. * apply (Rmult_lt_reg_r d); [exact D0|]. lra.
  - intros k j Hk Hj. destruct (KB k Hk). rewrite K. lra.
Qed.

Example C132_ex : tc_number 0 1 (3 / 10) = 4%Z /\ tc_delta 0 1 (3 / 10) = / 4 /\ tc_time 0 1 (3 / 10) 3 = 7 / 8.
Proof.
  assert (N : tc_number 0 1 (3 / 10) = 4%Z).
  { unfold tc_number. assert (3 < zceil ((1 - 0) / (3 / 10)))%Z by (apply ceil_gt; simpl; lra).
    destruct (ceil_spec ((1 - 0) / (3 / 10))) as [_ B]. assert (IZR (zceil ((1 - 0) / (3 / 10))) < IZR 5) by (simpl; lra). apply lt_IZR in H0. lia. }
  unfold tc_time, tc_delta. rewrite N. simpl. repeat split; lra.
Qed.

(** ** C133: the weights reproduce the inner products *)

Section Sums.
Local Open Scope C_scope.
Context {A : Type}.
Lemma csum_ext (f g : A -> C) l : (forall x, In x l -> f x = g x) -> csum f l = csum g l.
Proof. induction l as [|a l IH]; intros H; [reflexivity|]. simpl. rewrite H by (left; reflexivity). rewrite IH; [reflexivity|]. intros x Hx. apply H. right. exact Hx. Qed.
Lemma csum_plus (f g : A -> C) l : csum (fun x => f x + g x) l = csum f l + csum g l.
Proof. induction l as [|a l IH]; simpl; [ring|]. rewrite IH. ring. Qed.
Lemma csum_scal c (f : A -> C) l : csum (fun x => c * f x) l = c * csum f l.
Proof. induction l as [|a l IH]; simpl; [ring|]. rewrite IH. ring. Qed.
Lemma csum_zero (l : list A) : csum (fun _ => RtoC 0) l = RtoC 0.
Proof. induction l as [|a l IH]; simpl; [reflexivity|]. rewrite IH. ring. Qed.
Lemma csum_app (f : A -> C) l m : csum f (l ++ m) = csum f l + csum f m.
Proof. induction l as [|a l IH]; simpl; [ring|]. rewrite IH. ring. Qed.
Lemma rsum_ext (f g : A -> R) l : (forall x, In x l -> f x = g x) -> rsum f l = rsum g l.
Proof. induction l as [|a l IH]; intros H; [reflexivity|]. simpl. rewrite H by (left; reflexivity). rewrite IH; [reflexivity|]. intros x Hx. apply H. right. exact Hx. Qed.
Local Open Scope R_scope.
Lemma rsum_cons (f : A -> R) a l : rsum f (a :: l) = f a + rsum f l.
Proof. reflexivity. Qed.
Lemma rsum_plus (f g : A -> R) l : rsum (fun x => f x + g x) l = rsum f l + rsum g l.
Proof. induction l as [|a l IH]; simpl; [ring|]. rewrite IH. ring. Qed.
Lemma rsum_scal c (f : A -> R) l : rsum (fun x => c * f x) l = c * rsum f l.
Proof. induction l as [|a l IH]; simpl; [ring|]. rewrite IH. ring. Qed.
Lemma rsum_zero (l : list A) : rsum (fun _ => 0) l = 0.
Proof. induction l as [|a l IH]; simpl; [reflexivity|]. rewrite IH. ring. Qed.
End Sums.

Lemma cconj_plus a b : Cconj (a + b)%C = (Cconj a + Cconj b)%C.
Proof. destruct a, b. unfold Cconj, Cplus. simpl. f_equal. ring. Qed.
Lemma cconj_mult a b : Cconj (a * b)%C = (Cconj a * Cconj b)%C.
Proof. destruct a, b. unfold Cconj, Cmult. simpl. f_equal; ring. Qed.
Lemma cconj_0 : Cconj (RtoC 0) = RtoC 0.
Proof. unfold Cconj, RtoC. simpl. f_equal. ring. Qed.
Lemma cconj_cis x : Cconj (cis (- x)) = cis x.
Proof. unfold Cconj, cis. simpl. rewrite cos_neg, sin_neg. f_equal. ring. Qed.

Lemma csum_aset (x : nat -> C) k v (e : nat -> C) N : (k < N)%nat -> x k = RtoC 0 ->
  csum (fun j => (aset x k v j * e j)%C) (seq 0 N) = (csum (fun j => (x j * e j)%C) (seq 0 N) + v * e k)%C.
Proof.
  intros K X. induction N as [|N IH]; [lia|]. rewrite seq_S. simpl plus. rewrite !csum_app. simpl.
  destruct (Nat.eq_dec k N) as [->|NE].
  - unfold aset at 2. rewrite Nat.eqb_refl, X.
    rewrite (csum_ext (fun j => (aset x N v j * e j)%C) (fun j => (x j * e j)%C)); [ring|].
    intros j Hj. apply in_seq in Hj. unfold aset. destruct (Nat.eqb_spec j N); [lia|reflexivity].
  - rewrite IH by lia. unfold aset. destruct (Nat.eqb_spec N k); [lia|]. ring.
Qed.

Section WeightProofs.
Variables (strain : nat -> C) (psd : nat -> R) (off N : nat) (T : R) (pairs : list (nat * nat)).

Definition wval (belem : nat -> C) (jq : nat * nat) : C := (strain (fst jq) / RtoC (psd (fst jq)) * Cconj (belem (snd jq)))%C.
Lemma fill_other x b l k : (forall jq, In jq l -> (fst jq + off)%nat <> k) -> fill strain psd off l x b k = x k.
Proof.
  unfold fill. revert x. induction l as [|jq l IH]; intros x H; [reflexivity|]. simpl. rewrite IH by (intros; apply H; right; assumption).
  unfold aset. destruct (Nat.eqb_spec k (fst jq + off)); [|reflexivity]. exfalso. apply (H jq); [left; reflexivity|auto].
Qed.
Lemma fill_snoc x b l jq : fill strain psd off (l ++ [jq]) x b = aset (fill strain psd off l x b) (fst jq + off) (wval b jq).
Proof. unfold fill. rewrite fold_left_app. reflexivity. Qed.
(** what was in the buffer at the positions written does not matter *)
Lemma fill_over x y b l k : (x k = y k \/ exists jq, In jq l /\ (fst jq + off)%nat = k) -> fill strain psd off l x b k = fill strain psd off l y b k.
Proof.
  induction l as [|jq l IH] using rev_ind; intros H.
  - destruct H as [H|[jq [[] _]]]. exact H.
  - rewrite !fill_snoc. unfold aset. destruct (Nat.eqb_spec k (fst jq + off)); [reflexivity|]. apply IH.
    destruct H as [H|[q [I Q]]]; [left; exact H|right]. apply in_app_iff in I. destruct I as [I|[<-|[]]]; [exists q; split; assumption|lia].
Qed.
Lemma fill_sum b (e : nat -> C) l : NoDup (map fst l) -> (forall jq, In jq l -> (fst jq + off < N)%nat) ->
  csum (fun j => (fill strain psd off l (fun _ => RtoC 0) b j * e j)%C) (seq 0 N) = csum (fun jq => (wval b jq * e (fst jq + off)%nat)%C) l.
Proof.
  induction l as [|jq l IH] using rev_ind; intros ND BD.
  - unfold fill. simpl. erewrite csum_ext; [apply csum_zero|]. intros. simpl. ring.
  - rewrite fill_snoc, csum_app. rewrite map_app in ND. simpl in ND.
    pose proof (NoDup_remove _ _ _ ND) as [ND1 NI]. rewrite app_nil_r in ND1, NI.
    rewrite csum_aset.
    + rewrite IH; [simpl; ring|exact ND1|]. intros q Hq. apply BD. apply in_app_iff. left. exact Hq.
    + apply BD. apply in_app_iff. right. left. reflexivity.
    + rewrite fill_other; [reflexivity|]. intros q Hq EQ. apply NI. assert (fst q = fst jq) by lia. rewrite <- H. apply in_map. exact Hq.
Qed.

Hypothesis (NP : (0 < N)%nat) (TP : 0 < T) (ND : NoDup (map fst pairs)) (BD : forall jq, In jq pairs -> (fst jq + off < N)%nat).

(** The interpolant of the waveform from its values at the nodes: sum_i h_i B_i(q). *)
Definition interpolant (basis : list (nat -> C)) (h : list C) (q : nat) : C :=
  csum (fun hb => (fst hb * snd hb q)%C) (combine h basis).

Lemma loop_sum buf basis : (forall k, buf k = RtoC 0 \/ exists jq, In jq pairs /\ (fst jq + off)%nat = k) -> forall h n,
  csum (fun hw => (Cconj (fst hw) * snd hw n)%C) (combine h (weights_loop strain psd off N T pairs buf basis)) =
  (RtoC (4 / T) * csum (fun jq => Cconj (interpolant basis h (snd jq)) * (strain (fst jq) / RtoC (psd (fst jq)))
                      * cis (2 * PI * INR (fst jq + off) * INR n / INR N)) pairs)%C.
Proof.
  revert buf. induction basis as [|b basis IH]; intros buf HB h n.
  - unfold interpolant. destruct h; simpl; rewrite cconj_0;
      rewrite (csum_ext _ (fun _ => RtoC 0)) by (intros; ring); rewrite csum_zero; ring.
  - destruct h as [|x h].
    { unfold interpolant. simpl. rewrite cconj_0. rewrite (csum_ext _ (fun _ => RtoC 0)) by (intros; ring). rewrite csum_zero. ring. }
    cbn [weights_loop combine]. unfold csum at 1. cbn [fold_right fst snd]. fold (csum (fun hw : C * (nat -> C) => (Cconj (fst hw) * snd hw n)%C)
      (combine h (weights_loop strain psd off N T pairs (fill strain psd off pairs buf b) basis))).
    rewrite IH.
    + unfold interpolant. cbn [combine].
      rewrite (csum_ext (fun jq => (Cconj (csum (fun hb => fst hb * snd hb (snd jq)) ((x, b) :: combine h basis)) * (strain (fst jq) / RtoC (psd (fst jq)))
                      * cis (2 * PI * INR (fst jq + off) * INR n / INR N))%C)
              (fun jq => (Cconj x * (wval b jq * cis (2 * PI * INR (fst jq + off) * INR n / INR N))
                       + Cconj (csum (fun hb => fst hb * snd hb (snd jq)) (combine h basis)) * (strain (fst jq) / RtoC (psd (fst jq)))
                      * cis (2 * PI * INR (fst jq + off) * INR n / INR N))%C)).
      2:{ intros jq _. unfold csum. cbn [fold_right fst snd]. rewrite cconj_plus, cconj_mult. unfold wval. ring. }
      rewrite csum_plus, csum_scal. unfold ifft.
      rewrite (csum_ext _ (fun k => (fill strain psd off pairs (fun _ => RtoC 0) b k * cis (2 * PI * INR k * INR n / INR N))%C)).
      2:{ intros k _. f_equal. apply fill_over. destruct (HB k); [left; assumption|right; assumption]. }
      rewrite (fill_sum b (fun k => cis (2 * PI * INR k * INR n / INR N)) pairs ND BD).
      replace (RtoC (4 * INR N / T)) with (RtoC (4 / T) * RtoC (INR N))%C by (rewrite <- RtoC_mult; f_equal; field; lra).
      assert (I1 : (RtoC (INR N) * RtoC (/ INR N))%C = RtoC 1).
      { rewrite <- RtoC_mult. f_equal. apply Rinv_r. apply not_0_INR. lia. }
      set (S := csum (fun jq => (wval b jq * cis (2 * PI * INR (fst jq + off) * INR n / INR N))%C) pairs).
      transitivity (RtoC (4 / T) * (Cconj x * S) * (RtoC (INR N) * RtoC (/ INR N)) + RtoC (4 / T) *
         csum (fun jq => Cconj (csum (fun hb => fst hb * snd hb (snd jq)) (combine h basis)) * (strain (fst jq) / RtoC (psd (fst jq)))
                      * cis (2 * PI * INR (fst jq + off) * INR n / INR N)) pairs)%C; [ring|].
      rewrite I1. ring.
    + intros k. destruct (in_dec Nat.eq_dec k (map (fun jq => (fst jq + off)%nat) pairs)) as [I|I].
      * right. apply in_map_iff in I. destruct I as [jq [E I]]. exists jq. split; assumption.
      * left. rewrite fill_other. -- destruct (HB k) as [H|[jq [J E]]]; [exact H|]. exfalso. apply I. apply in_map_iff. exists jq. split; assumption.
        -- intros jq J E. apply I. apply in_map_iff. exists jq. split; assumption.
Qed.

(** If the basis reproduces the waveform H at every frequency from its values h at the nodes, the ROQ inner product at
    time sample n is the inner product 4/T sum conj(H(f) exp(-2 pi i f t)) d(f) / S(f) with t = n T / N. *)
Theorem C133_linear basis h (H : nat -> C) n :
  (forall jq, In jq pairs -> H (fst jq + off)%nat = interpolant basis h (snd jq)) ->
  d_inner_h strain psd off N T pairs basis h n =
  (RtoC (4 / T) * csum (fun jq => let f := (INR (fst jq + off) / T)%R in let t := (INR n * T / INR N)%R in
      Cconj (H (fst jq + off)%nat * cis (- (2 * PI * f * t))) * strain (fst jq) / RtoC (psd (fst jq))) pairs)%C.
Proof.
  intros HH. unfold d_inner_h, weights_linear. rewrite loop_sum by (intros; left; reflexivity).
  f_equal. apply csum_ext. intros jq Hj. cbv zeta. rewrite cconj_mult, cconj_cis, <- HH by exact Hj.
  replace (2 * PI * (INR (fst jq + off) / T) * (INR n * T / INR N)) with (2 * PI * INR (fst jq + off) * INR n / INR N).
  - unfold Cdiv. ring.
  - field. split; [apply not_0_INR; lia|lra].
Qed.

(** If the real parts of the quadratic basis reproduce |H|^2, the ROQ value is 4/T sum |H|^2 / S. *)
Theorem C133_quadratic basis h (H : nat -> C) :
  length h = length basis ->
  (forall jq, In jq pairs -> Cmod (H (fst jq + off)%nat) ^ 2 = rsum (fun hb => Cmod (fst hb) ^ 2 * fst (snd hb (snd jq))) (combine h basis)) ->
  optimal_snr_squared psd T pairs basis h = 4 / T * rsum (fun jq => Cmod (H (fst jq + off)%nat) ^ 2 / psd (fst jq)) pairs.
Proof.
  clear ND BD NP. intros L HH. unfold optimal_snr_squared, weights_quadratic.
  rewrite (rsum_ext (fun jq => Cmod (H (fst jq + off)%nat) ^ 2 / psd (fst jq))
            (fun jq => rsum (fun hb => Cmod (fst hb) ^ 2 * fst (snd hb (snd jq))) (combine h basis) / psd (fst jq))).
  2:{ intros jq Hj. rewrite HH by exact Hj. reflexivity. }
  clear HH H. revert h L. induction basis as [|b basis IH]; intros [|x h] L; try discriminate L.
  - simpl. rewrite (rsum_ext _ (fun _ => 0)), rsum_zero; [ring|]. intros; unfold Rdiv; ring.
  - cbn [map combine]. unfold rsum at 1. cbn [fold_right fst snd].
    change (fold_right (fun (a : C * R) (s : R) => Cmod (fst a) ^ 2 * snd a + s) 0) with (rsum (fun a : C * R => Cmod (fst a) ^ 2 * snd a)).
    rewrite IH by (simpl in L; lia).
    rewrite (rsum_ext (fun jq => rsum (fun hb => Cmod (fst hb) ^ 2 * fst (snd hb (snd jq))) ((x, b) :: combine h basis) / psd (fst jq))
       (fun jq => Cmod x ^ 2 * (fst (b (snd jq)) * (1 / psd (fst jq))) + rsum (fun hb => Cmod (fst hb) ^ 2 * fst (snd hb (snd jq))) (combine h basis) / psd (fst jq))).
    + rewrite rsum_plus, rsum_scal. ring.
    + intros jq _. rewrite rsum_cons. cbn [fst snd]. unfold Rdiv. ring.
Qed.
End WeightProofs.

(** One basis element, two frequencies at positions 1 and 2 of an array of four samples. *)
Example C133_ex :
  d_inner_h (fun _ => RtoC 3) (fun _ => 2) 1 4 1 [(0, 0); (1, 1)]%nat [fun q => if Nat.eqb q 0 then RtoC 1 else RtoC 2] [RtoC 5] 0
  = RtoC 90 /\
  optimal_snr_squared (fun _ => 2) 1 [(0, 0); (1, 1)]%nat [fun q => if Nat.eqb q 0 then RtoC 1 else RtoC 2] [RtoC 5] = 150.
Proof.
  split.
  - rewrite (C133_linear _ _ 1 4 1 [(0, 0); (1, 1)]%nat ltac:(lia) Rlt_0_1 ltac:(repeat constructor; simpl; intuition lia)
       ltac:(simpl; intros jq [<-|[<-|[]]]; simpl; lia) _ _ (fun k => if Nat.eqb k 1 then RtoC 5 else RtoC 10)).
    + cbn [csum fold_right fst snd]. simpl Nat.eqb. cbv iota zeta. rewrite !cconj_mult, !cconj_cis.
      assert (Z : forall f, 2 * PI * f * (INR 0 * 1 / INR 4) = 0) by (intros; simpl; field). rewrite !Z.
      unfold cis. rewrite cos_0, sin_0. unfold Cconj, RtoC, Cmult, Cplus, Cdiv, Cinv. simpl. f_equal; field.
    + simpl. intros jq [<-|[<-|[]]]; unfold interpolant; simpl; unfold RtoC, Cmult, Cplus; simpl; f_equal; ring.
  - unfold optimal_snr_squared, weights_quadratic. simpl. rewrite Cmod_R, Rabs_right by lra. field.
Qed.

(** ** C134: frequency nodes *)

Lemma insert_in x y l : In y (insert x l) <-> y = x \/ In y l.
Proof.
  induction l as [|z l IH]; simpl; [intuition|]. destruct (Rlt_dec x z); [simpl; intuition|].
  destruct (Req_EM_T x z) as [->|]; simpl; [intuition|]. rewrite IH. intuition.
Qed.
Lemma insert_sorted x l : StronglySorted Rlt l -> StronglySorted Rlt (insert x l).
Proof.
  induction 1 as [|y l S IH F]; simpl; [repeat constructor|]. destruct (Rlt_dec x y) as [L|L].
  - constructor; [constructor; assumption|]. constructor; [exact L|]. eapply Forall_impl; [|exact F]. simpl. intros. lra.
  - destruct (Req_EM_T x y); [constructor; assumption|]. constructor; [exact IH|]. apply Forall_forall. intros z Hz. apply insert_in in Hz.
    destruct Hz as [->|Hz]; [lra|]. rewrite Forall_forall in F. apply F. exact Hz.
Qed.
Lemma unique_sorted l : StronglySorted Rlt (unique l).
Proof. induction l as [|x l IH]; [apply SSorted_nil|]. apply insert_sorted. exact IH. Qed.
Lemma unique_in f l : In f (unique l) <-> In f l.
Proof. induction l as [|x l IH]; [reflexivity|]. change (unique (x :: l)) with (insert x (unique l)). rewrite insert_in, IH. simpl. intuition. Qed.
Lemma position_nth x l d : In x l -> nth (position x l) l d = x /\ (position x l < length l)%nat.
Proof.
  induction l as [|y l IH]; intros H; [destruct H|]. simpl. destruct (Req_EM_T x y) as [E|E]; [split; [symmetry; exact E|lia]|].
  destruct H as [H|H]; [congruence|]. destruct (IH H). split; [assumption|lia].
Qed.

(** The unique nodes are the nodes of both bases in increasing order, each once, and the indices recover the linear and
    the quadratic nodes in their own order. *)
Theorem C134_unique lin quad u il iq : unique_nodes lin quad = (u, il, iq) ->
  StronglySorted Rlt u /\ (forall f, In f u <-> In f lin \/ In f quad) /\
  map (fun i => nth i u 0) il = lin /\ map (fun i => nth i u 0) iq = quad /\
  length il = length lin /\ length iq = length quad /\ (forall i, In i il \/ In i iq -> (i < length u)%nat).
Proof.
  unfold unique_nodes. intros E. apply pair_equal_spec in E. destruct E as [E Q]. apply pair_equal_spec in E. destruct E as [U L].
  assert (S : StronglySorted Rlt u). { rewrite <- U. apply unique_sorted. }
  assert (I : forall f, In f u <-> In f (lin ++ quad)).
  { intros f. rewrite <- U. apply unique_in. }
  rewrite U in L, Q. rewrite map_app in L, Q.
  rewrite firstn_app, map_length, Nat.sub_diag, firstn_O, app_nil_r in L. rewrite firstn_all2 in L by (rewrite map_length; lia).
  rewrite skipn_app, map_length, Nat.sub_diag, skipn_O in Q. rewrite skipn_all2 in Q by (rewrite map_length; lia). simpl in Q.
  assert (P : forall l, (forall f, In f l -> In f u) -> map (fun i => nth i u 0) (map (fun x => position x u) l) = l /\
              (forall i, In i (map (fun x => position x u) l) -> (i < length u)%nat)).
  { intros l Hl. split.
    - rewrite map_map. induction l as [|x l IH]; [reflexivity|]. simpl. destruct (position_nth x u 0) as [E _]; [apply Hl; left; reflexivity|].
      rewrite E. f_equal. apply IH. intros; apply Hl; right; assumption.
    - intros i Hi. apply in_map_iff in Hi. destruct Hi as [x [<- Hx]]. apply (position_nth x u 0). apply Hl. exact Hx. }
  destruct (P lin) as [A1 A2]; [intros; apply I, in_app_iff; left; assumption|].
  destruct (P quad) as [B1 B2]; [intros; apply I, in_app_iff; right; assumption|].
  subst il iq. repeat split; try assumption; try apply map_length.
  - intros H. apply I, in_app_iff in H. exact H.
  - intros H. apply I, in_app_iff. exact H.
  - intros i [H|H]; [apply A2|apply B2]; exact H.
Qed.
Example C134_ex : unique_nodes [3; 1] [1; 2] = ([1; 2; 3], [2%nat; 0%nat], [0%nat; 1%nat]).
Proof.
  unfold unique_nodes, unique. cbn [app fold_right insert]. 
  repeat (cbn [insert position map firstn skipn length];
    match goal with
    | |- context [Rlt_dec ?a ?b] => destruct (Rlt_dec a b); try lra
    | |- context [Req_EM_T ?a ?b] => destruct (Req_EM_T a b); try lra
    end). reflexivity.
Qed.

(** ** C135: choice of the basis *)

Lemma geb_true x y : geb x y = true <-> y <= x.
Proof. unfold geb. destruct (Rle_dec y x); split; intros; try assumption; try reflexivity; try discriminate; contradiction. Qed.

(** Basis i contains the parameters: every parameter that occurs lies within its closed range. *)
Definition contains (rs : ranges) (i : nat) (par : string -> option R) : Prop :=
  forall k l v, In (k, l) rs -> par k = Some v -> fst (nth i l (0, 0)) <= v <= snd (nth i l (0, 0)).
(** Range i meets the prior. *)
Definition meets (rs : ranges) (i : nat) (pri : string -> option (R * R)) : Prop :=
  forall k l lo hi, In (k, l) rs -> pri k = Some (lo, hi) -> exists v, fst (nth i l (0, 0)) <= v <= snd (nth i l (0, 0)) /\ lo <= v <= hi.

Lemma contains_iff rs i par : all_params (upd_cond par) rs i = true <-> contains rs i par.
Proof.
  unfold all_params, contains, upd_cond. rewrite forallb_forall. split.
  - intros H k l v I E. specialize (H (k, l) I). simpl in H. rewrite E in H. apply andb_true_iff in H. destruct H as [A B].
    apply geb_true in A. apply geb_true in B. split; assumption.
  - intros H [k l] I. simpl. destruct (par k) as [v|] eqn:E; [|reflexivity]. destruct (H k l v I E) as [A B].
    apply andb_true_iff. split; apply geb_true; assumption.
Qed.

(** The basis used is the first that contains the parameters; an IndexError means that none does. *)
Theorem C135_choose par rs n : (n <> 1)%nat ->
  match choose par rs n with
  | Some i => (i < n)%nat /\ contains rs i par /\ forall j, (j < i)%nat -> ~ contains rs j par
  | None => forall j, (j < n)%nat -> ~ contains rs j par
  end.
Proof.
  intros N1. unfold choose. destruct (Nat.eqb_spec n 1); [contradiction|].
  assert (G : forall m a, match hd_error (filter (all_params (upd_cond par) rs) (seq a m)) with
     | Some i => (a <= i < a + m)%nat /\ contains rs i par /\ forall j, (a <= j < i)%nat -> ~ contains rs j par
     | None => forall j, (a <= j < a + m)%nat -> ~ contains rs j par end).
  { induction m as [|m IH]; intros a; simpl; [intros j H; lia|].
    destruct (all_params (upd_cond par) rs a) eqn:E; simpl.
    - apply contains_iff in E. split; [lia|]. split; [exact E|]. intros j H. lia.
    - assert (NC : ~ contains rs a par). { intros H. apply contains_iff in H. congruence. }
      specialize (IH (S a)). destruct (hd_error _).
      + destruct IH as [A [B D]]. split; [lia|]. split; [exact B|]. intros j H. destruct (Nat.eq_dec j a) as [->|]; [exact NC|apply D; lia].
      + intros j H. destruct (Nat.eq_dec j a) as [->|]; [exact NC|apply IH; lia]. }
  specialize (G n 0%nat). destruct (hd_error _).
  - destruct G as [A [B D]]. split; [lia|]. split; [exact B|]. intros; apply D; lia.
  - intros; apply G; lia.
Qed.

(** Selecting bases by the prior drops none that a point of the prior needs. *)
Theorem C135_select_keeps pri rs i par : (i < count rs)%nat -> contains rs i par ->
  (forall k l lo hi, In (k, l) rs -> pri k = Some (lo, hi) -> exists v, par k = Some v /\ lo <= v <= hi) ->
  In i (select_idxs pri rs).
Proof.
  intros L CT HP. unfold select_idxs. apply filter_In. split; [apply in_seq; lia|].
  unfold all_params. apply forallb_forall. intros [k l] I. simpl. unfold sel_cond. destruct (pri k) as [[lo hi]|] eqn:E; [|reflexivity].
  destruct (HP k l lo hi I E) as [v [P V]]. destruct (CT k l v I P). apply andb_true_iff. split; apply geb_true; lra.
Qed.
(** and keeps exactly those whose every range meets the prior (for ranges and priors that are not empty). *)
Theorem C135_select_exact pri rs i : (forall k l, In (k, l) rs -> fst (nth i l (0, 0)) <= snd (nth i l (0, 0))) ->
  (forall k lo hi, pri k = Some (lo, hi) -> lo <= hi) ->
  (In i (select_idxs pri rs) <-> (i < count rs)%nat /\ meets rs i pri).
Proof.
  intros NE PE. unfold select_idxs. rewrite filter_In, in_seq. unfold all_params. rewrite forallb_forall. split.
  - intros [A B]. split; [lia|]. intros k l lo hi I E. specialize (B (k, l) I). simpl in B. unfold sel_cond in B. rewrite E in B.
    apply andb_true_iff in B. destruct B as [B1 B2]. apply geb_true in B1. apply geb_true in B2.
    specialize (NE k l I). specialize (PE k lo hi E). exists (Rmax (fst (nth i l (0, 0))) lo).
    pose proof (Rmax_l (fst (nth i l (0, 0))) lo). pose proof (Rmax_r (fst (nth i l (0, 0))) lo).
    assert (Rmax (fst (nth i l (0, 0))) lo <= snd (nth i l (0, 0))) by (apply Rmax_lub; assumption).
    assert (Rmax (fst (nth i l (0, 0))) lo <= hi) by (apply Rmax_lub; assumption). lra.
  - intros [A B]. split; [lia|]. intros [k l] I. simpl. unfold sel_cond. destruct (pri k) as [[lo hi]|] eqn:E; [|reflexivity].
    destruct (B k l lo hi I E) as [v [V1 V2]]. apply andb_true_iff. split; apply geb_true; lra.
Qed.

(** The check at construction only looks at the outer bounds: ranges with a gap pass, and a point of the prior in the gap
    has no basis. *)
Theorem C135_gap_refuted : exists rs pri par,
  verify pri rs = true /\ (forall k lo hi, pri k = (lo, hi) -> exists v, par k = Some v /\ lo <= v <= hi) /\
  choose par rs 2 = None.
Proof.
  exists [("chirp_mass"%string, [(0, 1); (2, 3)])], (fun _ => (0, 3)), (fun _ => Some (3 / 2)). split; [|split].
  - unfold verify. simpl. rewrite andb_true_r. apply andb_true_iff. split; apply geb_true.
    + unfold Rmin. destruct (Rle_dec 0 2); lra. + unfold Rmax. destruct (Rle_dec 1 3); lra.
  - intros k lo hi E. injection E as <- <-. exists (3 / 2). split; [reflexivity|lra].
  - unfold choose. simpl. unfold all_params, upd_cond. simpl. unfold geb.
    destruct (Rle_dec (3 / 2) 1); [lra|]. destruct (Rle_dec 2 (3 / 2)); [lra|]. rewrite andb_false_r. reflexivity.
Qed.
(** A sufficient condition: without gaps every point that passes the check has a basis, when one parameter is ranged over. *)
Theorem C135_no_gap k l (par : string -> option R) v : (length l <> 1)%nat -> par k = Some v ->
  (forall i, (S i < length l)%nat -> fst (nth (S i) l (0, 0)) <= snd (nth i l (0, 0))) ->
  fst (nth 0 l (0, 0)) <= v <= snd (nth (length l - 1) l (0, 0)) -> l <> nil ->
  exists i, choose par [(k, l)] (length l) = Some i /\ fst (nth i l (0, 0)) <= v <= snd (nth i l (0, 0)).
Proof.
  intros N1 P GAP RG NN. pose proof (C135_choose par [(k, l)] (length l) N1) as H.
  assert (CT : forall i, contains [(k, l)] i par <-> fst (nth i l (0, 0)) <= v <= snd (nth i l (0, 0))).
  { intros i. unfold contains. split.
    - intros Q. apply (Q k l v); [left; reflexivity|exact P].
    - intros Q k' l' v' [E|[]] E'. injection E as <- <-. rewrite P in E'. injection E' as <-. exact Q. }
  destruct (choose par [(k, l)] (length l)) as [i|].
  - exists i. split; [reflexivity|]. apply CT. apply H.
  - exfalso. assert (LP : (0 < length l)%nat) by (destruct l; [contradiction|simpl; lia]).
    assert (G : forall i, (i < length l)%nat -> fst (nth i l (0, 0)) <= v /\ snd (nth i l (0, 0)) < v).
    { induction i as [|i IH]; intros L.
      - split; [lra|]. specialize (H 0%nat L). rewrite CT in H. lra.
      - destruct (IH ltac:(lia)) as [_ B]. specialize (GAP i L). split; [lra|]. specialize (H (S i) L). rewrite CT in H. lra. }
    destruct (G (length l - 1)%nat ltac:(lia)). lra.
Qed.

(** The cache: over any sequence of readings without an IndexError, a reading gives the basis number that the parameters
    call for, and leaves a cache that does so again. *)
Section CacheProofs.
Context {P : Type} (peq : forall p q : P, {p = q} + {p <> q}) (lin quad : P -> option nat).
Definition consistent (c : cache P) : Prop := forall p, c_par c = Some p -> c_lin c = lin p /\ c_quad c = quad p.
Fixpoint reads (ops : list (bool * P)) (c : cache P) : option (list nat * cache P) :=
  match ops with
  | nil => Some (nil, c)
  | (b, p) :: t => match read peq lin quad (if b then c_lin (P := P) else c_quad (P := P)) p c with
                   | (Some i, c') => match reads t c' with Some (l, c'') => Some (i :: l, c'') | None => None end
                   | (None, _) => None
                   end
  end.
Theorem C135_cache ops l c' : reads ops (cache0 (P := P)) = Some (l, c') ->
  map Some l = map (fun bp => (if fst bp : bool then lin else quad) (snd bp)) ops.
Proof.
  assert (G : forall ops c l c', consistent c -> reads ops c = Some (l, c') ->
     map Some l = map (fun bp => (if fst bp : bool then lin else quad) (snd bp)) ops).
  { clear ops l c'. induction ops as [|[b p] t IH]; intros c l c' CS E; simpl in E.
    - injection E as <- <-. reflexivity.
    - unfold read in E. destruct (fresh peq p c) eqn:F.
      + unfold fresh in F. destruct (c_par c) as [q|] eqn:CP; [|discriminate]. destruct (peq p q); [|discriminate]. subst q.
        destruct (CS p CP) as [A B].
        destruct ((if b then c_lin (P := P) else c_quad (P := P)) c) as [i|] eqn:EI; [|discriminate].
        destruct (reads t c) as [[l1 c1]|] eqn:RT; [|discriminate]. injection E as <- <-. simpl.
        rewrite (IH c l1 c1 CS RT). f_equal. destruct b; simpl in *; congruence.
      + unfold update in E. destruct (lin p) as [i|] eqn:LP; [|discriminate]. destruct (quad p) as [q|] eqn:QP; [|discriminate].
        assert (CS' : consistent {| c_par := Some p; c_lin := Some i; c_quad := Some q |}).
        { intros p' E'. simpl in *. injection E' as <-. rewrite LP, QP. split; reflexivity. }
        destruct b; simpl in E; destruct (reads t _) as [[l1 c1]|] eqn:RT; try discriminate; injection E as <- <-; simpl; rewrite (IH _ _ _ CS' RT); f_equal; congruence. }
  apply G. intros p E. discriminate E.
Qed.
(** A failed look-up leaves a wrong linear number behind for the parameters of the reading before: the exception matters. *)
Theorem C135_cache_after_error_refuted p q i j k : p <> q ->
  lin p = Some i -> lin q = Some j -> i <> j -> quad p = Some k -> quad q = None ->
  let (r1, c1) := read peq lin quad (c_lin (P := P)) p (cache0 (P := P)) in
  let (r2, c2) := read peq lin quad (c_lin (P := P)) q c1 in
  let (r3, c3) := read peq lin quad (c_lin (P := P)) p c2 in
  r1 = Some i /\ r2 = None /\ r3 = Some j.
Proof.
  intros NE L1 L2 IJ Q1 Q2. unfold read, fresh, update. simpl. rewrite L1, Q1. simpl.
  destruct (peq q p); [congruence|]. rewrite L2, Q2. simpl. destruct (peq p p); [|congruence]. auto.
Qed.
End CacheProofs.

Example C135_ex :
  let rs := [("chirp_mass"%string, [(0, 1); (1, 2); (2, 3)])] in
  choose (fun _ => Some 2) rs 3 = Some 1%nat /\
  select_idxs (fun _ => Some (3 / 2, 5 / 2)) rs = [1; 2]%nat /\
  reads Nat.eq_dec (fun p => Some p) (fun p => Some (p + 1)%nat) [(true, 4); (false, 4); (true, 7); (true, 4)]%nat cache0
  = Some ([4; 5; 7; 4], {| c_par := Some 4; c_lin := Some 4; c_quad := Some 5 |})%nat.
Proof.
  cbv zeta. split; [|split; [|reflexivity]].
  - unfold choose, all_params, upd_cond. simpl. unfold geb.
    destruct (Rle_dec 2 1); [lra|]. destruct (Rle_dec 2 2); [|lra]. destruct (Rle_dec 1 2); [|lra]. rewrite !andb_false_r. reflexivity.
  - unfold select_idxs, all_params, sel_cond. simpl. unfold geb.
    repeat match goal with |- context [Rle_dec ?a ?b] => destruct (Rle_dec a b); try lra end. reflexivity.
Qed.

(** ** C136: saving and loading weights *)

(** Weights of [n] bases: every list has n entries. *)
Definition shaped (n : nat) (w : wts) : Prop :=
  match w_rng w with Some rs => rs <> nil /\ (forall k l, In (k, l) rs -> length l = n) | None => n = 1%nat end /\
  match w_nodes w with Some l => length l = n | None => True end /\
  (forall k l, In (k, l) (w_ifo w) -> length l = n).

Lemma find_group {A} (l : list A) a i : 
  find (fun kv => Nat.eqb (fst kv) (a + i)) (combine (seq a (length l)) l) = match nth_error l i with Some x => Some ((a + i)%nat, x) | None => None end.
Proof.
  revert a i. induction l as [|x l IH]; intros a i; simpl; [destruct i; reflexivity|].
  destruct i as [|i]; simpl.
  - rewrite Nat.add_0_r, Nat.eqb_refl. reflexivity.
  - destruct (Nat.eqb_spec a (a + S i)); [lia|]. rewrite <- Nat.add_succ_comm. rewrite (IH (S a) i). reflexivity.
Qed.
Lemma from_to_group {A} (l : list A) i : from_group (to_group l) i = nth_error l i.
Proof. unfold from_group, to_group. pose proof (find_group l 0 i) as F. simpl plus in F. rewrite F. destruct (nth_error l i); reflexivity. Qed.
Lemma read_to_group {A} (d : A) (l : list A) idxs : (forall i, In i idxs -> (i < length l)%nat) ->
  read_group idxs (to_group l) = Some (take d idxs l).
Proof.
  unfold read_group, take. induction idxs as [|i t IH]; intros H; [reflexivity|]. simpl. rewrite from_to_group.
  rewrite (nth_error_nth' l d) by (apply H; left; reflexivity). rewrite IH by (intros; apply H; right; assumption). reflexivity.
Qed.
Lemma take_all {A} (d : A) l : take d (seq 0 (length l)) l = l.
Proof.
  unfold take. apply (nth_ext _ _ d d); [rewrite map_length, seq_length; reflexivity|]. intros i Hi. rewrite map_length, seq_length in Hi.
  rewrite (nth_indep _ d (nth 0%nat l d)) by (rewrite map_length, seq_length; exact Hi).
  rewrite (map_nth (fun i => nth i l d)). rewrite seq_nth by exact Hi. reflexivity.
Qed.
Lemma read_ifos_save idxs n d : (forall i, In i idxs -> (i < n)%nat) -> (forall k l, In (k, l) d -> length l = n) ->
  read_ifos idxs (dmap to_group d) = Some (dmap (take nil idxs) d).
Proof.
  intros B. induction d as [|[k l] t IH]; intros H; [reflexivity|].
  change (dmap to_group ((k, l) :: t)) with ((k, to_group l) :: dmap to_group t). cbn [read_ifos].
  rewrite (read_to_group nil) by (intros i Hi; rewrite (H k l (or_introl eq_refl)); apply B; exact Hi).
  rewrite IH by (intros k' l' I; apply (H k' l'); right; exact I). reflexivity.
Qed.

(** HDF5 file: loading under any prior gives, for every interferometer and for nodes and ranges alike, the entries of
    those bases that meet the prior, in their order. *)
Theorem C136_load pri n w : shaped n w ->
  let idxs := match w_rng w with Some rs => select_idxs pri rs | None => [0%nat] end in
  hdf5_load pri (hdf5_save w) = Some
    {| w_rng := option_map (dmap (take (0, 0) idxs)) (w_rng w); w_nodes := option_map (take nil idxs) (w_nodes w);
       w_ifo := dmap (take nil idxs) (w_ifo w) |}.
Proof.
  intros [S1 [S2 S3]] idxs. unfold hdf5_load, hdf5_save. cbn [h_rng h_nodes h_ifo].
  assert (B : forall i, In i idxs -> (i < n)%nat).
  { unfold idxs. destruct (w_rng w) as [rs|]; [|intros i [<-|[]]; lia]. intros i Hi. apply filter_In in Hi. destruct Hi as [Hi _]. apply in_seq in Hi.
    destruct S1 as [NN L]. destruct rs as [|[k l] rs]; [contradiction|]. simpl in Hi. rewrite (L k l (or_introl eq_refl)) in Hi. lia. }
  fold idxs. rewrite (read_ifos_save idxs n (w_ifo w) B S3).
  destruct (w_nodes w) as [l|]; cbn [option_map].
  - rewrite (read_to_group nil) by (intros i Hi; rewrite S2; apply B; exact Hi).
    f_equal. f_equal. unfold idxs, select_ranges. destruct (w_rng w); reflexivity.
  - f_equal. f_equal. unfold idxs, select_ranges. destruct (w_rng w); reflexivity.
Qed.
(** In particular saving and loading is the identity when every basis meets the prior, as after _set_weights. *)
Theorem C136_round_trip pri n w : shaped n w ->
  (forall rs, w_rng w = Some rs -> forall i, (i < n)%nat -> all_params (sel_cond pri) rs i = true) ->
  hdf5_load pri (hdf5_save w) = Some w.
Proof.
  intros S M. rewrite (C136_load pri n w S). destruct S as [S1 [S2 S3]].
  assert (I : match w_rng w with Some rs => select_idxs pri rs | None => [0%nat] end = seq 0 n).
  { destruct (w_rng w) as [rs|]; [|rewrite S1; reflexivity]. destruct S1 as [NN L].
    assert (CT : count rs = n). { destruct rs as [|[k l] rs]; [contradiction|]. exact (L k l (or_introl eq_refl)). }
    unfold select_idxs. rewrite CT. assert (FA : forall l, (forall i, In i l -> (i < n)%nat) -> filter (all_params (sel_cond pri) rs) l = l).
    { induction l as [|i l IH]; intros H; [reflexivity|]. simpl. rewrite (M rs eq_refl i) by (apply H; left; reflexivity). f_equal. apply IH. intros; apply H; right; assumption. }
    apply FA. intros i Hi. apply in_seq in Hi. lia. }
  rewrite I. f_equal. destruct w as [r nd f]. simpl in *.
  assert (DM : forall A (d0 : A) (d : dict (list A)), (forall k l, In (k, l) d -> length l = n) -> dmap (take d0 (seq 0 n)) d = d).
  { intros A d0 d. induction d as [|[k l] t IH]; intros H; [reflexivity|]. change (dmap (take d0 (seq 0 n)) ((k, l) :: t)) with ((k, take d0 (seq 0 n) l) :: dmap (take d0 (seq 0 n)) t). rewrite IH by (intros k' l' J; apply (H k' l'); right; exact J).
    f_equal. f_equal. rewrite <- (H k l (or_introl eq_refl)). apply take_all. }
  f_equal.
  - destruct r as [rs|]; [|reflexivity]. simpl. f_equal. apply DM. apply S1.
  - destruct nd as [l|]; [|reflexivity]. simpl. f_equal. rewrite <- S2. apply take_all.
  - apply DM. exact S3.
Qed.
(** Selecting again what was selected changes nothing. *)
Theorem C136_selected_stable pri rs i : (i < length (select_idxs pri rs))%nat ->
  (forall k l, In (k, l) rs -> length l = count rs) ->
  all_params (sel_cond pri) (select_ranges pri rs) i = true.
Proof.
  intros L H. unfold all_params, select_ranges. apply forallb_forall. intros [k l] I. unfold dmap in I. apply in_map_iff in I.
  destruct I as [[k' l'] [E I]]. simpl in E. injection E as <- <-. simpl. unfold take.
  set (idxs := select_idxs pri rs) in *.
  assert (IX : In (nth i idxs 0%nat) idxs) by (apply nth_In; exact L).
  assert (NE : nth i (map (fun i => nth i l' (0, 0)) idxs) (0, 0) = nth (nth i idxs 0%nat) l' (0, 0)).
  { rewrite (nth_indep _ (0, 0) (nth 0%nat l' (0, 0))) by (rewrite map_length; exact L). rewrite (map_nth (fun i => nth i l' (0, 0))). reflexivity. }
  rewrite NE. unfold idxs, select_idxs in IX. apply filter_In in IX. destruct IX as [_ Q]. fold (select_idxs pri rs) idxs in Q.
  unfold all_params in Q. rewrite forallb_forall in Q. exact (Q (k', l') I).
Qed.

(** npz and json files keep the weights of the single basis but not its nodes. *)
Theorem C136_npz nl nq w f : npz_save nl nq w = Some f -> (forall k l, In (k, l) (w_ifo w) -> length l = 1%nat) ->
  npz_load f = {| w_rng := None; w_nodes := None; w_ifo := w_ifo w |}.
Proof.
  unfold npz_save, npz_load. destruct (_ || _)%bool; [discriminate|]. intros E H. apply (f_equal (fun o => match o with Some x => x | None => nil end)) in E. subst f.
  f_equal. unfold dmap. rewrite map_map. induction (w_ifo w) as [|[k l] t IH]; [reflexivity|]. rewrite map_cons. rewrite IH by (intros k' l' I; apply (H k' l'); right; exact I). cbn [fst snd].
  f_equal. f_equal. specialize (H k l (or_introl eq_refl)). destruct l as [|x [|y l]]; try discriminate. reflexivity.
Qed.
Theorem C136_npz_loses_nodes_refuted : exists w f, npz_save 1 1 w = Some f /\ w_nodes w <> None /\ npz_load f <> w.
Proof.
  exists {| w_rng := None; w_nodes := Some [[20]]; w_ifo := [("H1"%string, [[RtoC 1]])] |}. eexists. split; [reflexivity|].
  split; discriminate.
Qed.

(** The name that is written: when it ends in the format the file can be loaded without naming the format. *)
Theorem C136_name fmt name : In fmt ["json"; "npz"; "hdf5"]%string -> substr fmt name = false ->
  load_format (save_name fmt name) = Some fmt.
Proof.
  intros I S. unfold save_name. rewrite S.
  assert (G : forall s acc tl, last_part acc (s ++ String "."%char tl) = last_part EmptyString tl).
  { induction s as [|c s IH]; intros acc tl; simpl.
    - reflexivity.
    - destruct (Ascii.eqb c "."%char); apply IH. }
  unfold load_format. change ("." ++ fmt)%string with (String "."%char fmt). rewrite G.
  destruct I as [<-|[<-|[<-|[]]]]; reflexivity.
Qed.
(** A name that contains the format elsewhere is written as it is and then not recognised. *)
Theorem C136_name_refuted : save_name "hdf5" "my_hdf5_weights" = "my_hdf5_weights"%string /\ load_format "my_hdf5_weights" = None.
Proof. vm_compute. split; reflexivity. Qed.

Example C136_ex : 
  let w := {| w_rng := Some [("chirp_mass"%string, [(0, 1); (1, 2)])]; w_nodes := Some [[20]; [30]];
              w_ifo := [("H1"%string, [[RtoC 1]; [RtoC 2]])] |} in
  hdf5_load (fun _ => Some (3 / 2, 2)) (hdf5_save w) =
    Some {| w_rng := Some [("chirp_mass"%string, [(1, 2)])]; w_nodes := Some [[30]]; w_ifo := [("H1"%string, [[RtoC 2]])] |} /\
  hdf5_load (fun _ => None) (hdf5_save w) = Some w /\ save_name "hdf5" "weights" = "weights.hdf5"%string.
Proof.
  cbv zeta. assert (S : shaped 2 {| w_rng := Some [("chirp_mass"%string, [(0, 1); (1, 2)])]; w_nodes := Some [[20]; [30]];
              w_ifo := [("H1"%string, [[RtoC 1]; [RtoC 2]])] |}).
  { split; [|split]; simpl. - split; [discriminate|]. intros k l [E|[]]. injection E as <- <-. reflexivity. - reflexivity.
    - intros k l [E|[]]. injection E as <- <-. reflexivity. }
  split; [|split; [|reflexivity]].
  - rewrite (C136_load _ 2 _ S). cbn [w_rng w_nodes w_ifo].
    assert (E : select_idxs (fun _ => Some (3 / 2, 2)) [("chirp_mass"%string, [(0, 1); (1, 2)])] = [1%nat]).
    { unfold select_idxs, all_params, sel_cond. simpl. unfold geb.
      repeat match goal with |- context [Rle_dec ?a ?b] => destruct (Rle_dec a b); try lra end. reflexivity. }
    rewrite E. reflexivity.
  - apply (C136_round_trip _ 2 _ S). intros rs E i Hi. apply (f_equal (fun o => match o with Some x => x | None => nil end)) in E. simpl in E. subst rs. reflexivity.
Qed.

(** ** Assumptions of every theorem above *)
Definition Roq_Props_all :=
  (@C131_in_bounds,
   @C131_cubic,
   @C131_quartic_refuted,
   @C131_nodes,
   @C131_continuous,
   @C131_array_agrees,
   @C131_wraps_refuted,
   @C132_resolution,
   @C132_covered,
   @C132_edge_refuted,
   @C132_time_grid,
   @C133_linear,
   @C133_quadratic,
   @C134_unique,
   @C135_choose,
   @C135_select_keeps,
   @C135_select_exact,
   @C135_gap_refuted,
   @C135_no_gap,
   @C135_cache,
   @C135_cache_after_error_refuted,
   @C136_load,
   @C136_round_trip,
   @C136_selected_stable,
   @C136_npz,
   @C136_npz_loses_nodes_refuted,
   @C136_name,
   @C136_name_refuted).
Print Assumptions Roq_Props_all.
