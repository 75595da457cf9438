(** C235: weights of a multi-banded ROQ basis. *)
From Coq Require Import Reals List Arith Bool Lra Lia.
From Coquelicot Require Import Complex.
From Verif Require Import Roq_Model Roq_Props Series_Model Series_Proofs Dft_Proofs Mband2_Model Mband2_Props Mband3_Model RoqMb_Model.
Import ListNotations.
Open Scope list_scope.
Open Scope R_scope.

(** the series whose transform the data over the spectrum are *)
Definition series (fd : list C) (j : nat) : R := match irfft fd with Some x => nth j x 0 | None => 0 end.
(** what the samples before the last [M] would contribute *)
Definition before (n M : nat) (fd : list C) (k : nat) : C :=
  (rsum (n - M) (fun j => series fd j * cos (angle n j k)), - rsum (n - M) (fun j => series fd j * sin (angle n j k))).
(** at the highest frequency of the basis only the real part of the data is kept *)
Definition kept (m : nat) (fd : list C) (k : nat) : C := if Nat.eqb k m then (fst (nth k fd (RtoC 0)), 0) else nth k fd (RtoC 0).

Lemma nth_skipn_eq {X} k (l : list X) i d : nth i (skipn k l) d = nth (k + i) l d.
Proof. revert l. induction k as [|k IH]; intro l; [reflexivity|]. destruct l; [cbn; destruct i; reflexivity | apply IH]. Qed.
Lemma last_ones_skip {X} k (x : list X) : (0 < k)%nat -> last_ones k x = skipn (length x - k) x.
Proof. intros H. unfold last_ones. destruct (Nat.eqb_spec k 0); [lia|reflexivity]. Qed.
Lemma fddata_length m strain psd mask : @length (R * R) (fddata (2 * m) strain psd mask) = (m + 1)%nat.
Proof. unfold fddata. rewrite map_length, seq_length, Nat.mul_comm, Nat.div_mul by lia. reflexivity. Qed.
Lemma phase_eq T t b k q : dur b <> 0 -> T = INR q * dur b -> (0 < q)%nat -> cis (2 * PI * (INR k / dur b) * (t - T + dur b)) = cis (2 * PI * (INR k / dur b) * t).
Proof.
  intros D E Hq. set (y := 2 * PI * (INR k / dur b) * (t - T + dur b)).
  assert (Y : 2 * PI * (INR k / dur b) * t = y + 2 * INR ((q - 1) * k) * PI) by (unfold y; rewrite E, mult_INR, minus_INR by lia; cbn [INR]; field; exact D).
  rewrite Y. unfold cis. rewrite cos_period, sin_period. reflexivity.
Qed.
Lemma transform_at (fd : list C) m M q k x : @length (R * R) fd = (m + 1)%nat -> irfft fd = Some x -> (0 < M)%nat -> (0 < q)%nat -> (2 * m = q * M)%nat -> (0 < k <= M / 2)%nat ->
  length x = (2 * m)%nat /\ nth k (rfft (last_ones M x)) (0, 0) = Cminus (kept m fd (k * q)) (before (2 * m) M fd (k * q)).
Proof.
  intros L E HM Hq HN Hk. assert (KQ : (k * q <= m)%nat) by (pose proof (Nat.mul_div_le M 2 ltac:(lia)); nia).
  destruct (rfft_irfft _ x E (k * q)) as [Lx F]; [rewrite L; lia|]. rewrite L in Lx. replace (m + 1 - 1)%nat with m in Lx by lia. split; [exact Lx|].
  rewrite last_ones_skip by exact HM. rewrite (tail_transform x M q k HM Hq) by (rewrite ?Lx; lia). rewrite <- HN.
  rewrite rfft_nth in F by (rewrite Lx, (Nat.mul_comm 2 m), Nat.div_mul by lia; lia). rewrite Lx, L in F. replace (m + 1 - 1)%nat with m in F by lia.
  replace (Nat.eqb (k * q) 0) with false in F by (symmetry; apply Nat.eqb_neq; nia). cbn [orb] in F. apply pair_equal_spec in F as [F1 F2].
  unfold kept, before, series. rewrite E. replace (2 * m - M)%nat with ((q - 1) * M)%nat by nia. change (RtoC 0) with ((0, 0) : C).
  unfold Cminus, Cplus, Copp. cbn [fst snd]. destruct (Nat.eqb (k * q) m); cbn [fst snd]; rewrite F1, F2, Ropp_involutive; reflexivity.
Qed.
(** ** C235 The data of index k of a band are 4 / Tb times data over spectrum at k / Tb, less the part of the series before the last Tb seconds, turned by exp(2 pi i f t);
    at the highest frequency of the basis the imaginary part of the data is lost *)
Theorem C235_data T t m fd b M q x : @length (R * R) fd = (m + 1)%nat -> irfft fd = Some x -> (0 < M)%nat -> (0 < q)%nat -> (2 * m = q * M)%nat -> (0 < Ks b)%nat -> (Ke b <= M / 2)%nat ->
  dur b <> 0 -> T = INR q * dur b ->
  shifted_band T t x (b, M) = map (fun k => Cmult (Cmult (RtoC (4 / dur b)) (Cminus (kept m fd (k * q)) (before (2 * m) M fd (k * q)))) (cis (2 * PI * (INR k / dur b) * t))) (seq (Ks b) (Ke b + 1 - Ks b)).
Proof.
  intros L E HM Hq HN HKs HKe D ET. unfold shifted_band. cbv zeta.
  assert (Q : seq (Ks b) (Ke b + 1 - Ks b) = map (fun i => (Ks b + i)%nat) (seq 0 (Ke b + 1 - Ks b))).
  { generalize (Ke b + 1 - Ks b)%nat. intros n. generalize (Ks b). clear. induction n as [|n IH]; intros a; [reflexivity|]. cbn [seq map]. rewrite Nat.add_0_r. apply f_equal. rewrite IH, <- seq_shift, map_map. apply map_ext. intros i. lia. }
  rewrite Q, map_map. apply map_ext_in. intros i I. apply in_seq in I.
  rewrite (proj2 (transform_at fd m M q (Ks b + i) x L E HM Hq HN ltac:(lia))). rewrite (phase_eq T t b _ q D ET Hq). reflexivity.
Qed.
(** the series has nothing before its last [M] samples *)
Definition at_end (n M : nat) (fd : list C) : Prop := forall j, (j < n - M)%nat -> series fd j = 0.
Lemma before_0 n M fd k : at_end n M fd -> before n M fd k = RtoC 0.
Proof. intro H. unfold before, RtoC. f_equal; [|rewrite <- Ropp_0; f_equal]; apply rsum_zero; intros j Hj; rewrite (H j Hj); ring. Qed.
(** ** C235 If the basis reproduces the waveform at the points of the bands, the weights give its inner product with the shifted data *)
Definition pick (l : list C) (i : nat) : C := nth i l (RtoC 0).
Lemma dot_nth a : forall c, dot a c = Csum_list (map (fun i => Cmult (pick a i) (pick c i)) (seq 0 (Nat.min (length a) (length c)))).
Proof.
  induction a as [|x a IH]; intros [|y c]; try reflexivity. cbn [dot length Nat.min seq map]. unfold Csum_list in *. cbn [fold_right]. rewrite IH. apply (f_equal (Cplus _)). rewrite <- seq_shift, map_map. reflexivity.
Qed.
Lemma dot_cons_l x a y c : dot (x :: a) (y :: c) = Cplus (Cmult x y) (dot a c). Proof. reflexivity. Qed.
Lemma dot_scale z a : forall c, dot (map (Cmult z) a) c = Cmult z (dot a c).
Proof. induction a as [|x a IH]; intros [|y c]; cbn [map dot]; try (ring). rewrite IH. ring. Qed.
Fixpoint addl (a b : list C) : list C := match a, b with x :: a, y :: b => Cplus x y :: addl a b | _, _ => [] end.
Lemma addl_length a : forall b, length a = length b -> length (addl a b) = length a.
Proof. induction a as [|x a IH]; intros [|y b] H; try discriminate; [reflexivity|]. cbn. rewrite IH by (injection H; auto). reflexivity. Qed.
Lemma dot_addl a : forall b c, length a = length b -> dot (addl a b) c = Cplus (dot a c) (dot b c).
Proof. induction a as [|x a IH]; intros [|y b] c H; try discriminate; [cbn; ring|]. destruct c as [|z c]; [cbn; ring|]. cbn [addl dot]. rewrite IH by (injection H; auto). ring. Qed.
(** sum_j h_j row_j *)
Fixpoint combination (n : nat) (rows : list (list C)) (h : list C) : list C :=
  match rows, h with r :: rows, z :: h => addl (map (Cmult z) r) (combination n rows h) | _, _ => repeat (RtoC 0) n end.
Lemma combination_length n rows : forall h, List.Forall (fun r => length r = n) rows -> length (combination n rows h) = n.
Proof. induction rows as [|r rows IH]; intros [|z h] F; cbn; try apply repeat_length. inversion F; subst. rewrite addl_length; rewrite map_length; [reflexivity|]. rewrite IH by assumption. reflexivity. Qed.
Lemma dot_zeros n : forall c, dot (map Cconj (repeat (RtoC 0) n)) c = RtoC 0.
Proof. induction n as [|n IH]; intros [|y c]; try reflexivity. cbn [repeat map dot]. rewrite IH, conj_real. ring. Qed.
Lemma conj_addl a : forall b, map Cconj (addl a b) = addl (map Cconj a) (map Cconj b).
Proof. induction a as [|x a IH]; intros [|y b]; try reflexivity. cbn. rewrite IH, conj_plus. reflexivity. Qed.
Theorem C235_inner T m bs strain psd mask rows times w h H n i t : linear_multiband T m bs strain psd mask rows times = Some w -> List.Forall (fun r => length r = n) rows -> length h = length rows ->
  combination n rows h = H -> nth_error times i = Some t ->
  exists wi x, nth_error w i = Some wi /\ irfft (fddata (2 * m) strain psd mask) = Some x /\ length wi = length rows /\ dot (map Cconj h) wi = dot (map Cconj H) (shifted_data T t x bs).
Proof.
  unfold linear_multiband. intros E F Lh <- I. destruct (whitened m strain psd mask) as [fd|] eqn:W; [|discriminate]. assert (FD : fd = fddata (2 * m) strain psd mask) by (unfold whitened in W; destruct (beyond m mask); [discriminate|injection W as <-; reflexivity]). subst fd.
  destruct (irfft _) as [x|] eqn:X; [|discriminate]. injection E as <-. eexists _, x. split; [rewrite nth_error_map, I; reflexivity|]. split; [reflexivity|]. split; [apply map_length|].
  clear I. generalize (shifted_data T t x bs). intros D. revert h Lh. induction F as [|r rows Lr F IH]; intros [|z h] Lh; try discriminate; [cbn [map combination dot]; rewrite dot_zeros; reflexivity|].
  cbn [map combination]. rewrite dot_cons_l, IH by (injection Lh; auto). rewrite conj_addl, dot_addl by (rewrite !map_length, combination_length by exact F; exact Lr).
  apply (f_equal (fun v => Cplus v _)). rewrite map_map, <- dot_scale. f_equal. rewrite map_map. apply map_ext. intros y. symmetry. apply conj_mult.
Qed.
(** ** C235 One band of full length: the weights are those of the basis without bands but for the highest frequency *)
Theorem C235_single T t m fd b x : (0 < m)%nat -> @length (R * R) fd = (m + 1)%nat -> irfft fd = Some x -> (0 < Ks b)%nat -> (Ke b < m)%nat -> dur b <> 0 -> T = dur b ->
  shifted_band T t x (b, (2 * m)%nat) = map (fun k => Cmult (Cmult (RtoC (4 / T)) (nth k fd (RtoC 0))) (cis (2 * PI * (INR k / T) * t))) (seq (Ks b) (Ke b + 1 - Ks b)).
Proof.
  intros Hm L E HKs HKe D ET. rewrite (C235_data T t m fd b (2 * m) 1 x L E) by (try lia; try assumption; try (rewrite Nat.mul_comm, Nat.div_mul; lia); cbn [INR]; lra). rewrite <- ET.
  apply map_ext_in. intros k I. apply in_seq in I. rewrite before_0 by (intros j J; lia). unfold kept. rewrite Nat.mul_1_r. destruct (Nat.eqb_spec k m); [lia|]. rewrite minus_0. reflexivity.
Qed.
(** ** C235 The highest frequency of the basis: data that are imaginary there give weight nothing *)
Theorem C235_top_refuted : exists b x, irfft ([RtoC 0; (0, 1)] : list C) = Some x /\ Ks b = 1%nat /\ Ke b = 1%nat /\ dur b = 1 /\ forall t, shifted_band 1 t x (b, 2%nat) = [RtoC 0].
Proof.
  destruct (irfft ([RtoC 0; (0, 1)] : list C)) as [x|] eqn:E; [|discriminate]. exists (mkBand 1 1 1), x. split; [reflexivity|]. repeat (split; [reflexivity|]). intros t.
  rewrite (C235_data 1 t 1 ([RtoC 0; (0, 1)] : list C) (mkBand 1 1 1) 2 1 x) by (try reflexivity; try exact E; cbn; try lia; lra).
  cbn [Ks Ke dur Nat.add Nat.sub seq map]. rewrite before_0 by (intros j J; cbn in J; lia). unfold kept. cbn [Nat.mul Nat.add Nat.eqb nth fst]. apply (f_equal (fun z => [z])). change ((0, 0) : C) with (RtoC 0). ring.
Qed.
(** ** C235 A mask that goes beyond the basis raises *)
Theorem C235_beyond T m bs strain psd mask rows qrows times k : (m < k)%nat -> nth k mask false = true ->
  linear_multiband T m bs strain psd mask rows times = None /\ quadratic_multiband m bs psd mask qrows = None.
Proof.
  intros H K. assert (B : beyond m mask = true). { unfold beyond. apply existsb_exists. exists k. split; [|exact K]. apply in_seq. destruct (lt_dec k (length mask)) as [L|L]; [lia|]. rewrite nth_overflow in K by lia. discriminate. }
  unfold linear_multiband, whitened, quadratic_multiband, inverse_psd. rewrite B. split; reflexivity.
Qed.
(** ** C235 The quadratic coefficients: 4 / Tb times the inverse spectrum at k / Tb, less the lags of half a band and more; exact for one band of full length *)
Theorem C235_quadratic m Mh q P b x : length P = (m + 1)%nat -> irfft (map (fun p => (p, 0)) P) = Some x -> (0 < Mh)%nat -> (0 < q)%nat -> (m = q * Mh)%nat -> (Ke b <= Mh)%nat ->
  quadratic_band x (b, Mh) = map (fun k => 4 / dur b * (nth (k * q) P 0 - rsum (2 * m - 2 * Mh) (fun d => nth (Mh + d) x 0 * cos (angle (2 * m) (Mh + d) (k * q))))) (seq (Ks b) (Ke b + 1 - Ks b)) /\
  (q = 1%nat -> quadratic_band x (b, Mh) = map (fun k => 4 / dur b * nth k P 0) (seq (Ks b) (Ke b + 1 - Ks b))).
Proof.
  intros L E HM Hq HN HKe.
  assert (LM : length (map (fun p : R => (p, 0)) P) = (m + 1)%nat) by (rewrite map_length; exact L).
  assert (Lx : length x = (2 * m)%nat) by (destruct (rfft_irfft _ x E 0) as [A _]; [rewrite LM; lia|]; rewrite A, LM; lia).
  set (M := (2 * Mh)%nat). assert (QM : (2 * m = q * M)%nat) by (unfold M; nia). set (y := firstn Mh x ++ last_ones Mh x).
  assert (Ly : length y = M) by (unfold y; rewrite last_ones_skip by exact HM; rewrite app_length, firstn_length, skipn_length; unfold M; nia).
  assert (V : forall k, (k <= Mh)%nat -> fst (nth k (rfft y) (0, 0)) = nth (k * q) P 0 - rsum (2 * m - 2 * Mh) (fun d => nth (Mh + d) x 0 * cos (angle (2 * m) (Mh + d) (k * q)))).
  { intros k Hk. destruct (rfft_irfft _ x E (k * q)) as [_ F]; [rewrite LM; nia|]. rewrite rfft_nth in F by (rewrite Lx, (Nat.mul_comm 2 m), Nat.div_mul by lia; nia). apply pair_equal_spec in F as [F1 _].
    rewrite Lx in F1. rewrite (map_nth (fun p : R => (p, 0)) P 0) in F1. cbn [fst] in F1. rewrite <- F1.
    rewrite rfft_nth by (rewrite Ly; unfold M; rewrite (Nat.mul_comm 2 Mh), Nat.div_mul by lia; lia). cbn [fst]. rewrite Ly.
    replace (2 * m)%nat with (Mh + ((2 * m - 2 * Mh) + Mh))%nat at 1 by nia. unfold M at 1. replace (2 * Mh)%nat with (Mh + Mh)%nat at 1 by lia. rewrite !rsum_split.
    assert (A1 : rsum Mh (fun j => nth j y 0 * cos (angle M j k)) = rsum Mh (fun j => nth j x 0 * cos (angle (2 * m) j (k * q)))).
    { apply rsum_ext. intros j Hj. unfold y. rewrite app_nth1 by (rewrite firstn_length; nia). rewrite nth_firstn_lt by exact Hj. f_equal. f_equal. rewrite QM. unfold angle. rewrite !mult_INR. field. split; apply not_0_INR; unfold M; lia. }
    assert (A2 : rsum Mh (fun i => nth (Mh + i) y 0 * cos (angle M (Mh + i) k)) = rsum Mh (fun i => nth (Mh + (2 * m - 2 * Mh + i)) x 0 * cos (angle (2 * m) (Mh + (2 * m - 2 * Mh + i)) (k * q)))).
    { apply rsum_ext. intros j Hj. unfold y. rewrite app_nth2 by (rewrite firstn_length; nia). rewrite firstn_length. replace (Mh + j - Nat.min Mh (length x))%nat with j by nia. rewrite last_ones_skip by exact HM. rewrite nth_skipn_eq. rewrite Lx.
      replace (2 * m - Mh + j)%nat with (Mh + (2 * m - 2 * Mh + j))%nat by nia. f_equal.
      replace (Mh + (2 * m - 2 * Mh + j))%nat with ((q - 1) * M + (Mh + j))%nat by (unfold M; nia). rewrite QM. rewrite shifted_angle by (unfold M; lia). rewrite cos_period. reflexivity. }
    rewrite A1, A2. ring. }
  assert (S0 : seq (Ks b) (Ke b + 1 - Ks b) = map (fun i => (Ks b + i)%nat) (seq 0 (Ke b + 1 - Ks b))).
  { generalize (Ke b + 1 - Ks b)%nat. intros n. generalize (Ks b). clear. induction n as [|n IH]; intros a; [reflexivity|]. cbn [seq map]. rewrite Nat.add_0_r. apply f_equal. rewrite IH, <- seq_shift, map_map. apply map_ext. intros i. lia. }
  unfold quadratic_band. fold y. rewrite S0, !map_map. split.
  - apply map_ext_in. intros i I. apply in_seq in I. rewrite V by lia. reflexivity.
  - intros ->. apply map_ext_in. intros i I. apply in_seq in I. rewrite V by lia. rewrite Nat.mul_1_r. replace (2 * m - 2 * Mh)%nat with 0%nat by nia. cbn [rsum]. f_equal. ring.
Qed.

(** ** C235 An example: two basis elements, data at one frequency, two times *)
Definition e_band := mkBand 1 1 1.
Example C235_example : linear_multiband 1 2 [(e_band, 4%nat)] ([RtoC 7; RtoC 4; RtoC 9] : list C) [1; 2; 3] [false; true; false] [[RtoC 1]; [(0, 1)]] [0; / 4] =
  Some [[RtoC 8; (0, -8)]; [(0, 8); RtoC 8]].
Proof.
  unfold linear_multiband. change (whitened 2 _ _ _) with (Some (fddata (2 * 2) ([RtoC 7; RtoC 4; RtoC 9] : list C) [1; 2; 3] [false; true; false])). cbv beta iota.
  pose proof (fddata_length 2 ([RtoC 7; RtoC 4; RtoC 9] : list C) [1; 2; 3] [false; true; false]) as L.
  pose proof (nth_fddata (2 * 2) ([RtoC 7; RtoC 4; RtoC 9] : list C) [1; 2; 3] [false; true; false] 1 ltac:(cbn; lia)) as V.
  set (fd := fddata _ _ _ _) in *. destruct (irfft fd) as [x|] eqn:E.
  - assert (B : forall t, shifted_data 1 t x [(e_band, 4%nat)] = [Cmult (RtoC 8) (cis (2 * PI * t))]).
    { intros t. unfold shifted_data. cbn [flat_map]. rewrite app_nil_r. change 4%nat with (2 * 2)%nat. rewrite (C235_single 1 t 2 fd e_band x) by (try exact L; try exact E; cbn; try lia; lra). cbn [e_band Ks Ke Nat.add Nat.sub seq map]. etransitivity; [apply (f_equal (fun z => [Cmult (Cmult (RtoC (4 / 1)) z) (cis (2 * PI * (INR 1 / 1) * t))])); exact V|]. cbn [nth]. apply (f_equal (fun z => [z])).
      replace (2 * PI * (INR 1 / 1) * t) with (2 * PI * t) by (cbn [INR]; field). apply (f_equal (fun z => Cmult z _)). unfold RtoC, Cdiv, Cmult, Cinv. cbn [fst snd]. apply (f_equal2 pair); field. }
    cbn [map]. rewrite !B. apply (f_equal Some). cbn [dot]. unfold cis, Cconj, Cmult, Cplus, RtoC. cbn [fst snd].
    replace (2 * PI * 0) with 0 by ring. replace (2 * PI * / 4) with (PI / 2) by field. rewrite cos_0, sin_0, cos_PI2, sin_PI2.
    repeat (apply (f_equal2 cons)); try reflexivity; apply (f_equal2 pair); ring.
  - exfalso. unfold irfft in E. rewrite L in E. cbn [Nat.add Nat.sub Nat.eqb] in E. discriminate.
Qed.

(** ** Assumptions of every theorem above *)
Definition RoqMb_Props_all :=
  (@C235_data,
   @C235_inner,
   @C235_single,
   @C235_top_refuted,
   @C235_beyond,
   @C235_quadratic).
Print Assumptions RoqMb_Props_all.
