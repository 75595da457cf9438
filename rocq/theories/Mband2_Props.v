(** C218: evaluation points and linear coefficients of the multi-banded likelihood. *)
From Coq Require Import Reals List Arith Bool Sorted Lra Lia.
From Coquelicot Require Import Complex.
From Verif Require Import Roq_Model Roq_Props Series_Model Series_Proofs Dft_Proofs Mband2_Model.
Import ListNotations.
Open Scope list_scope.
Open Scope R_scope.

Definition proper (bs : list band) : Prop := List.Forall (fun b => (Ks b <= Ke b)%nat) bs.
Lemma band_points_length b : length (band_points b) = (Ke b + 1 - Ks b)%nat.
Proof. unfold band_points. now rewrite map_length, seq_length. Qed.
Lemma cut_app {A} (l m r : list A) a n : length l = a -> length m = n -> firstn n (skipn a (l ++ m ++ r)) = m.
Proof.
  intros <- <-. rewrite skipn_app, skipn_all, Nat.sub_diag. cbn [app skipn]. rewrite firstn_app, Nat.sub_diag, firstn_all, firstn_O. apply app_nil_r.
Qed.
Lemma idxs_from bs : forall pre i b, proper bs -> nth_error bs i = Some b ->
  exists s e, nth_error (start_end_idxs (length pre) bs) i = Some (s, e) /\ (e + 1 = s + (Ke b + 1 - Ks b))%nat /\
    firstn (e + 1 - s) (skipn s (pre ++ banded_frequency_points bs)) = band_points b.
Proof.
  induction bs as [|b0 bs IH]; intros pre i b P H; [destruct i; discriminate|]. inversion P as [|? ? P0 P1]; subst.
  destruct i as [|i].
  - injection H as <-. exists (length pre), (length pre + Ke b0 - Ks b0)%nat. cbn. split; [reflexivity|]. split; [lia|].
    change (flat_map band_points bs) with (banded_frequency_points bs). apply cut_app; [reflexivity|]. rewrite band_points_length. lia.
  - destruct (IH (pre ++ band_points b0) i b P1 H) as (s & e & A & B & C). exists s, e.
    cbn [start_end_idxs nth_error]. replace (S (length pre + Ke b0 - Ks b0)) with (length (pre ++ band_points b0)) by (rewrite app_length, band_points_length; lia).
    split; [exact A|]. split; [exact B|]. rewrite <- app_assoc in C. exact C.
Qed.
(** The start and end indices of a band cut the band's own frequencies, k over its
    duration for k from Ks to Ke, out of the list of all points. *)
Theorem C218_points bs i b : proper bs -> nth_error bs i = Some b ->
  exists s e, nth_error (start_end_idxs 0 bs) i = Some (s, e) /\ (e + 1 = s + (Ke b + 1 - Ks b))%nat /\
    firstn (e + 1 - s) (skipn s (banded_frequency_points bs)) = map (fun k => INR k / dur b) (seq (Ks b) (Ke b + 1 - Ks b)).
Proof. intros P H. exact (idxs_from bs [] i b P H). Qed.

Lemma position_nth x l : In x l -> nth_error l (position x l) = Some x.
Proof.
  induction l as [|y l IH]; [contradiction|]. cbn. destruct (Req_EM_T x y) as [-> | N]; [reflexivity|].
  intros [E | H]; [congruence | apply IH; assumption].
Qed.
(** The waveform is asked for at increasing frequencies without repetition, exactly
    the banded ones; its values there, put back in order, are its values at the banded points. *)
Theorem C218_waveform bs (h : R -> C) : StronglySorted Rlt (waveform_frequencies bs) /\
  (forall f, In f (waveform_frequencies bs) <-> In f (banded_frequency_points bs)) /\
  at_banded bs (map h (waveform_frequencies bs)) = map h (banded_frequency_points bs).
Proof.
  split; [apply unique_sorted|]. split; [intro f; apply unique_in|].
  unfold at_banded, unique_to_original. rewrite map_map. apply map_ext_in. intros x Hx.
  assert (I : In x (waveform_frequencies bs)) by (apply unique_in; exact Hx).
  apply nth_error_nth. rewrite nth_error_map, (position_nth _ _ I). reflexivity.
Qed.

(** ** Coefficients *)
Lemma band_data_length m fd : (m + 1 <= length fd)%nat -> length (band_data (2 * m) fd) = (m + 1)%nat.
Proof.
  intro H. unfold band_data. replace (2 * m / 2)%nat with m by (rewrite Nat.mul_comm, Nat.div_mul; lia).
  rewrite app_length, firstn_length, firstn_length. cbn. lia.
Qed.
Lemma nth_firstn_lt {A} (l : list A) d n k : (k < n)%nat -> nth k (firstn n l) d = nth k l d.
Proof. revert n k. induction l as [|x l IH]; intros [|n] [|k] H; try lia; cbn; try reflexivity. apply IH. lia. Qed.
Lemma band_data_nth m fd k : (m + 1 <= length fd)%nat -> (k < m)%nat -> nth k (band_data (2 * m) fd) (0, 0) = nth k fd (0, 0).
Proof.
  intros H Hk. unfold band_data. replace (2 * m / 2)%nat with m by (rewrite Nat.mul_comm, Nat.div_mul; lia).
  rewrite firstn_length. rewrite app_nth1 by (rewrite firstn_length, firstn_length; lia).
  rewrite nth_firstn_lt by lia. apply nth_firstn_lt. lia.
Qed.
(** the inverse transform of the data of a band *)
Definition band_time (Nb : nat) (fd : list C) (j : nat) : R := match irfft (band_data Nb fd) with Some x => nth j x 0 | None => 0 end.
(** what the samples before the last [M] would contribute at index [k] of [N] *)
Definition left_out (N M : nat) (fd : list C) (k : nat) : C :=
  (rsum (N - M) (fun j => band_time N fd j * cos (angle N j k)), - rsum (N - M) (fun j => band_time N fd j * sin (angle N j k))).

Lemma nth_error_ext_eq {A} (l m : list A) : length l = length m -> (forall i, (i < length l)%nat -> nth_error l i = nth_error m i) -> l = m.
Proof.
  revert m. induction l as [|x l IH]; intros [|y m] L H; try discriminate; [reflexivity|].
  pose proof (H 0%nat ltac:(cbn; lia)) as H0. injection H0 as ->. f_equal. apply IH; [cbn in L; lia|].
  intros i Hi. apply (H (S i)). cbn. lia.
Qed.
Section Band.
Variables (b : band) (m M q : nat) (win : nat -> R) (fd : list C).
(** the band has 2 m samples, 1/q of which are kept *)
Hypothesis HM : (0 < M)%nat.
Hypothesis Hq : (0 < q)%nat.
Hypothesis HN : (2 * m = q * M)%nat.
Hypothesis Hm : (0 < m)%nat.
Hypothesis Hfd : (m + 1 <= length fd)%nat.
Hypothesis HKs : (0 < Ks b)%nat.
Hypothesis HKe : (Ke b <= M / 2)%nat.
Hypothesis HNy : (Ke b * q < m)%nat.
Lemma band_spec : exists l, band_coeffs b (2 * m) M win fd = Some l /\ length l = (Ke b + 1 - Ks b)%nat /\
  forall i, (i < Ke b + 1 - Ks b)%nat -> nth_error l i =
    Some (Cmult (RtoC (4 / dur b * win i)) (Cconj (Cminus (nth ((Ks b + i) * q) fd (RtoC 0)) (left_out (2 * m) M fd ((Ks b + i) * q))))).
Proof.
  assert (L : @length (R * R) (band_data (2 * m) fd) = (m + 1)%nat) by exact (band_data_length m fd Hfd).
  destruct (irfft (band_data (2 * m) fd)) as [x|] eqn:E.
  2:{ unfold irfft in E. rewrite L in E. replace (m + 1 - 1)%nat with m in E by lia. destruct (Nat.eqb m 0) eqn:Z; [apply Nat.eqb_eq in Z; lia | discriminate]. }
  unfold band_coeffs, band_series. rewrite E. eexists. split; [reflexivity|]. split; [now rewrite map_length, seq_length|].
  intros i Hi. rewrite nth_error_map. rewrite (nth_error_nth' _ 0%nat) by (rewrite seq_length; lia). rewrite seq_nth by lia. cbn [option_map].
  apply (f_equal Some). f_equal. f_equal. rewrite Nat.add_0_l. set (k := (Ks b + i)%nat).
  assert (Hk : (0 < k <= Ke b)%nat) by (unfold k; lia).
  destruct (rfft_irfft _ x E (k * q)) as [Lx F]; [rewrite L; nia|]. rewrite L in Lx. replace (m + 1 - 1)%nat with m in Lx by lia.
  rewrite (tail_transform x M q k HM Hq) by (rewrite ?Lx; lia). rewrite <- HN.
  rewrite rfft_nth in F by (rewrite Lx, (Nat.mul_comm 2 m), Nat.div_mul by lia; nia). rewrite Lx, L in F.
  replace (Nat.eqb (k * q) 0 || Nat.eqb (k * q) (m + 1 - 1)) with false in F
    by (symmetry; apply orb_false_iff; split; apply Nat.eqb_neq; nia).
  rewrite band_data_nth in F by (assumption || nia). apply pair_equal_spec in F as [F1 F2].
  unfold left_out, band_time. rewrite E. replace (2 * m - M)%nat with ((q - 1) * M)%nat by nia.
  change (RtoC 0) with ((0, 0) : C).
  unfold Cminus, Cplus, Copp. cbn [fst snd]. rewrite <- F1, <- F2. f_equal; ring.
Qed.
End Band.

(** The coefficient of index k is (4 / duration) times the window times the conjugate of
    the whitened data at frequency k / duration, less what the samples before the end of
    the data would contribute: nothing else is lost. *)
Theorem C218_coefficient b m M q win fd l i : (0 < M)%nat -> (0 < q)%nat -> (2 * m = q * M)%nat -> (m + 1 <= length fd)%nat ->
  (0 < Ks b)%nat -> (Ke b <= M / 2)%nat -> (Ke b * q < m)%nat -> band_coeffs b (2 * m) M win fd = Some l -> (i < Ke b + 1 - Ks b)%nat ->
  length l = (Ke b + 1 - Ks b)%nat /\
  nth_error l i = Some (Cmult (RtoC (4 / dur b * win i)) (Cconj (Cminus (nth ((Ks b + i) * q) fd (RtoC 0)) (left_out (2 * m) M fd ((Ks b + i) * q))))).
Proof.
  intros HM Hq HN Hfd HKs HKe HNy E Hi. destruct (band_spec b m M q win fd) as (l' & A & B & D); try assumption; [nia|].
  rewrite E in A. injection A as <-. split; [exact B | apply D; exact Hi].
Qed.

(** the series is confined to its last [M] samples *)
Definition confined (N M : nat) (fd : list C) : Prop := forall j, (j < N - M)%nat -> band_time N fd j = 0.
Lemma confined_left_out N M fd k : confined N M fd -> left_out N M fd k = RtoC 0.
Proof.
  intro H. unfold left_out, RtoC. f_equal; [|rewrite <- Ropp_0; f_equal]; apply rsum_zero; intros j Hj; rewrite (H j Hj); ring.
Qed.
(** what a well-formed set-up guarantees for each band (C130), and that the whitened data
    of the band live in the last samples *)
Inductive fits (fd : list C) : band * nat * nat * (nat -> R) -> Prop :=
  Fits b m M q win : (0 < M)%nat -> (0 < q)%nat -> (2 * m = q * M)%nat -> (m + 1 <= length fd)%nat ->
    (0 < Ks b <= Ke b)%nat -> (Ke b <= M / 2)%nat -> (Ke b * q < m)%nat -> confined (2 * m) M fd -> fits fd (b, (2 * m)%nat, M, win).
Definition Csum_list (l : list C) : C := fold_right Cplus (RtoC 0) l.
(** the exact banded inner product: 4 / duration times the sum of window, conjugate
    waveform and whitened data at the frequencies of each band *)
Definition banded_inner (h : R -> C) (fd : list C) (e : band * nat * nat * (nat -> R)) : C :=
  let '(b, Nb, Mb, win) := e in
  Csum_list (map (fun k => Cmult (RtoC (4 / dur b * win (k - Ks b)%nat)) (Cmult (Cconj (h (INR k / dur b))) (nth (k * (Nb / Mb)) fd (RtoC 0))))
                 (seq (Ks b) (Ke b + 1 - Ks b))).
Lemma dot_app a a' c c' : length a = length c -> dot (a ++ a') (c ++ c') = Cplus (dot a c) (dot a' c').
Proof.
  revert c. induction a as [|x a IH]; intros [|y c] H; try discriminate; cbn; [ring|]. rewrite IH by (cbn in H; lia). ring.
Qed.
Lemma conj_plus a c : Cconj (Cplus a c) = Cplus (Cconj a) (Cconj c).
Proof. destruct a, c. unfold Cconj, Cplus. cbn. f_equal. ring. Qed.
Lemma conj_mult a c : Cconj (Cmult a c) = Cmult (Cconj a) (Cconj c).
Proof. destruct a, c. unfold Cconj, Cmult. cbn. f_equal; ring. Qed.
Lemma conj_conj a : Cconj (Cconj a) = a.
Proof. destruct a. unfold Cconj. cbn. now rewrite Ropp_involutive. Qed.
Lemma conj_real x : Cconj (RtoC x) = RtoC x.
Proof. unfold Cconj, RtoC. cbn. now rewrite Ropp_0. Qed.
Lemma dot_maps (f g : nat -> C) l : Cconj (dot (map f l) (map g l)) = Csum_list (map (fun k => Cmult (Cconj (f k)) (Cconj (g k))) l).
Proof.
  induction l as [|x l IH]; cbn; [apply conj_real|]. rewrite conj_plus, conj_mult. unfold Csum_list in IH. rewrite IH. reflexivity.
Qed.
Lemma minus_0 (z : C) : Cminus z (RtoC 0) = z.
Proof. ring. Qed.
Lemma band_inner h fd b m M q win l : fits fd (b, (2 * m)%nat, M, win) -> (2 * m = q * M)%nat -> band_coeffs b (2 * m) M win fd = Some l ->
  length l = length (band_points b) /\ Cconj (dot (map h (band_points b)) l) = banded_inner h fd (b, (2 * m)%nat, M, win).
Proof.
  intros F HN E. inversion F as [? ? ? q' ? HM Hq HN' Hfd HKs HKe HNy Co]; subst.
  assert (m0 = m) by lia. subst m0. assert (q' = q) by nia. subst q'. assert (Q : (2 * m / M = q)%nat) by (rewrite HN; apply Nat.div_mul; lia).
  destruct (band_spec b m M q win fd) as (l' & A & B & D); try assumption; try nia; try lia. rewrite E in A. injection A as <-.
  split; [now rewrite band_points_length|].
  assert (L : l = map (fun k => Cmult (RtoC (4 / dur b * win (k - Ks b)%nat)) (Cconj (nth (k * q) fd (RtoC 0)))) (seq (Ks b) (Ke b + 1 - Ks b))).
  { apply nth_error_ext_eq; [rewrite map_length, seq_length; exact B|]. intros i Hi. rewrite B in Hi. rewrite (D i Hi), confined_left_out, minus_0 by assumption.
    rewrite nth_error_map, (nth_error_nth' _ 0%nat) by (rewrite seq_length; lia). rewrite seq_nth by lia. cbn [option_map].
    replace (Ks b + i - Ks b)%nat with i by lia. reflexivity. }
  rewrite L. unfold band_points. rewrite map_map, dot_maps. unfold banded_inner. rewrite Q.
  f_equal. apply map_ext. intro k. rewrite conj_mult, conj_conj, conj_real. ring.
Qed.
(** If in every band the whitened data are confined to the samples kept, the inner product
    of data and waveform is exactly the banded sum, whatever the waveform. *)
Theorem C218_inner es h fd coeffs : List.Forall (fits fd) es -> linear_coeffs es fd = Some coeffs ->
  d_inner_h (map h (banded_frequency_points (map (fun e => fst (fst (fst e))) es))) coeffs = Csum_list (map (banded_inner h fd) es).
Proof.
  revert coeffs. induction es as [|[[[b Nb] M] win] es IH]; intros coeffs F E.
  - injection E as <-. cbn. unfold d_inner_h. cbn. apply conj_real.
  - inversion F as [|? ? F0 F1]; subst. cbn [linear_coeffs] in E. destruct (band_coeffs b Nb M win fd) as [l|] eqn:E0; [|discriminate].
    destruct (linear_coeffs es fd) as [r|] eqn:E1; [|discriminate]. injection E as <-.
    assert (exists m q, Nb = (2 * m)%nat /\ (2 * m = q * M)%nat) as (m & q & -> & HN).
    { inversion F0 as [? m' ? q' ? ? ? HN']; subst. exists m', q'. split; [reflexivity | exact HN']. }
    destruct (band_inner h fd b m M q win l F0 HN E0) as [L S].
    cbn [map fst banded_frequency_points flat_map]. rewrite map_app. unfold d_inner_h. rewrite dot_app by (rewrite map_length; congruence).
    rewrite conj_plus. fold (d_inner_h (map h (banded_frequency_points (map (fun e => fst (fst (fst e))) es))) r).
    unfold d_inner_h in IH. cbn [Csum_list fold_right]. rewrite S. f_equal. apply (IH r F1 eq_refl).
Qed.

(** ** One band: the ordinary inner product *)
Lemma whole_confined m fd : confined (2 * m) (2 * m) fd.
Proof. intros j Hj. lia. Qed.
Lemma nth_fddata N strain psd mask k : (k <= N / 2)%nat ->
  nth k (fddata N strain psd mask) (RtoC 0) = if nth k mask false then Cdiv (nth k strain (RtoC 0)) (RtoC (nth k psd 0)) else RtoC 0.
Proof.
  intro H. unfold fddata. apply nth_error_nth. rewrite nth_error_map, (nth_error_nth' _ 0%nat) by (rewrite seq_length; lia).
  rewrite seq_nth by lia. reflexivity.
Qed.
(** With a single band (the full duration T) the inner product is exactly 4 / T times the
    sum over the mask of window, conjugate waveform and data over spectrum. *)
Theorem C218_single b m win strain psd mask h l : (0 < m)%nat -> (0 < Ks b <= Ke b)%nat -> (Ke b < m)%nat ->
  linear_coeffs [(b, (2 * m)%nat, (2 * m)%nat, win)] (fddata (2 * m) strain psd mask) = Some l ->
  d_inner_h (map h (banded_frequency_points [b])) l =
    Csum_list (map (fun k => Cmult (RtoC (4 / dur b * win (k - Ks b)%nat)) (Cmult (Cconj (h (INR k / dur b)))
                     (if nth k mask false then Cdiv (nth k strain (RtoC 0)) (RtoC (nth k psd 0)) else RtoC 0)))
                   (seq (Ks b) (Ke b + 1 - Ks b))).
Proof.
  intros Hm HK HKe E.
  assert (D : (2 * m / 2 = m)%nat) by (rewrite Nat.mul_comm, Nat.div_mul; lia).
  assert (Lf : length (fddata (2 * m) strain psd mask) = (m + 1)%nat) by (unfold fddata; rewrite map_length, seq_length, D; reflexivity).
  pose proof (C218_inner [(b, (2 * m)%nat, (2 * m)%nat, win)] h (fddata (2 * m) strain psd mask) l) as I. cbn [map fst] in I. rewrite I.
  - cbn [Csum_list fold_right]. unfold banded_inner. rewrite Nat.div_same by lia.
    assert (P0 : forall z : C, Cplus z (RtoC 0) = z) by (intro; ring). rewrite P0. f_equal. apply map_ext_in. intros k Hk. apply in_seq in Hk.
    rewrite Nat.mul_1_r, nth_fddata by (rewrite D; lia). reflexivity.
  - constructor; [|constructor]. apply (Fits _ b m (2 * m) 1 win); rewrite ?Lf, ?D; try lia; apply whole_confined.
  - exact E.
Qed.

(** Without confinement the shortened transform leaks: data at a single frequency, index 1
    of 8 samples, appear at index 1 of the 4 samples kept, that is at index 2 of 8. *)
Theorem C218_leak_refuted : exists b l z, Ks b = 1%nat /\ Ke b = 1%nat /\ 
  band_coeffs b 8 4 (fun _ => 1) [RtoC 0; RtoC 1; RtoC 0; RtoC 0; RtoC 0] = Some l /\ nth_error l 0 = Some z /\ fst z = - 1.
Proof.
  set (fd := [RtoC 0; RtoC 1; RtoC 0; RtoC 0; RtoC 0]). set (b := mkBand 1 1 1).
  destruct (band_spec b 4 4 2 (fun _ => 1) fd) as (l & A & B & D); cbn; try lia.
  exists b, l. eexists. split; [reflexivity|]. split; [reflexivity|]. split; [exact A|]. split; [apply (D 0%nat); cbn; lia|].
  assert (T : forall j, (j < 8)%nat -> band_time 8 fd j = cos (angle 8 j 1) / 4).
  { intros j Hj. unfold band_time, band_data. cbn [Nat.div Nat.divmod fst firstn length Nat.sub app fd Nat.add].
    unfold irfft. cbn [length Nat.sub Nat.eqb]. rewrite (nth_map_seq _ 8) by exact Hj. cbn [rsum nth fst snd RtoC Nat.mul Nat.add].
    replace (INR 8) with 8 by (cbn; lra). lra. }
  cbn [Ks Nat.add Nat.mul b nth fd]. unfold left_out. cbn [Nat.sub Nat.mul Nat.add rsum].
  rewrite !T by lia. unfold angle. replace (INR 8) with 8 by (cbn; lra). cbn [INR].
  replace (2 * PI * (0 * 1) / 8) with 0 by field. replace (2 * PI * (0 * (1 + 1)) / 8) with 0 by field.
  replace (2 * PI * (1 * (1 + 1)) / 8) with (PI / 2) by field. replace (2 * PI * ((1 + 1) * 1) / 8) with (PI / 2) by field.
  replace (2 * PI * ((1 + 1) * (1 + 1)) / 8) with PI by field. replace (2 * PI * ((1 + 1 + 1) * (1 + 1)) / 8) with (3 * (PI / 2)) by field.
  rewrite cos_0, cos_PI2, cos_PI, cos_3PI2. cbn. lra.
Qed.

(** Two bands of durations 4 and 2: the points and what the waveform is asked for. *)
Example C218_example : banded_frequency_points [mkBand 4 4 6; mkBand 2 3 5] = [4 / 4; 5 / 4; 6 / 4; 3 / 2; 4 / 2; 5 / 2] /\
  start_end_idxs 0 [mkBand 4 4 6; mkBand 2 3 5] = [(0%nat, 2%nat); (3%nat, 5%nat)] /\
  waveform_frequencies [mkBand 4 4 6; mkBand 2 3 5] = [4 / 4; 5 / 4; 3 / 2; 4 / 2; 5 / 2] /\
  unique_to_original [mkBand 4 4 6; mkBand 2 3 5] = [0%nat; 1%nat; 2%nat; 2%nat; 3%nat; 4%nat].
Proof.
  assert (P : banded_frequency_points [mkBand 4 4 6; mkBand 2 3 5] = [4 / 4; 5 / 4; 6 / 4; 3 / 2; 4 / 2; 5 / 2]).
  { unfold banded_frequency_points, band_points. cbn [flat_map dur Ks Ke Nat.add Nat.sub seq map app]. cbn [INR]. repeat f_equal; lra. }
  assert (U : waveform_frequencies [mkBand 4 4 6; mkBand 2 3 5] = [4 / 4; 5 / 4; 3 / 2; 4 / 2; 5 / 2]).
  { unfold waveform_frequencies. rewrite P. unfold unique. cbn [fold_right].
    repeat (cbn [insert]; match goal with
      | |- context [Rlt_dec ?a ?b] => destruct (Rlt_dec a b); try lra
      | |- context [Req_EM_T ?a ?b] => destruct (Req_EM_T a b); try lra
      end). reflexivity. }
  split; [exact P|]. split; [reflexivity|]. split; [exact U|]. unfold unique_to_original. rewrite U, P. cbn [map].
  repeat (cbn [position]; match goal with |- context [Req_EM_T ?a ?b] => destruct (Req_EM_T a b); try lra end). reflexivity.
Qed.

(** ** Assumptions of every theorem above *)
Definition Mband2_Props_all :=
  (@C218_points,
   @C218_waveform,
   @C218_coefficient,
   @C218_inner,
   @C218_single,
   @C218_leak_refuted).
Print Assumptions Mband2_Props_all.
