(** C223: simulated noise. *)
From Coq Require Import Reals List ZArith Bool Lra Lia.
From Coquelicot Require Import Complex.
From Verif Require Import PyReal GwInner_Model GwInner_Proofs Series_Model Series_Proofs Series_Props Dft_Proofs SimNoise_Model.
Import ListNotations.
Open Scope R_scope.

Lemma set_last_nth {A} (l : list A) v d k : nth k (set_last l v) d = if Nat.eqb (S k) (length l) then v else nth k l d.
Proof.
  revert k. induction l as [|x [|y t] IH]; intro k; [destruct k; reflexivity| destruct k as [|[|k]]; reflexivity|].
  change (set_last (x :: y :: t) v) with (x :: set_last (y :: t) v). destruct k as [|k]; [reflexivity|]. cbn [nth]. rewrite IH. reflexivity.
Qed.
Lemma set_last_length {A} (l : list A) v : length (set_last l v) = length l.
Proof. induction l as [|x [|y t] IH]; [reflexivity|reflexivity|]. change (set_last (x :: y :: t) v) with (x :: set_last (y :: t) v). cbn [length] in *. now rewrite IH. Qed.
Lemma set_first_length {A} (l : list A) v : length (set_first l v) = length l.
Proof. destruct l; reflexivity. Qed.
Lemma set_first_nth {A} (l : list A) v d k : l <> [] -> nth k (set_first l v) d = if Nat.eqb k 0 then v else nth k l d.
Proof. intro H. destruct l; [congruence|]. destruct k; reflexivity. Qed.

Lemma nth_map_seq {A} (f : nat -> A) m k d : (k < m)%nat -> nth k (map f (seq 0 m)) d = f k.
Proof. intro H. rewrite (nth_indep _ _ (f 0%nat)) by (rewrite map_length, seq_length; exact H). rewrite map_nth, seq_nth by exact H. reflexivity. Qed.

Lemma rsum_front m f : rsum (S m) f = f 0%nat + rsum m (fun i => f (S i)).
Proof. induction m as [|m IH]; [cbn; ring|]. change (rsum (S (S m)) f) with (rsum (S m) f + f (S m)). rewrite IH. cbn [rsum]. ring. Qed.

Section Even.
Context (fs T : R) (n : nat) (Hfs : 0 < fs) (Hn : (0 < n)%nat) (He : Nat.Even n) (HT : T * fs = INR n).
Lemma T_pos : 0 < T.
Proof. assert (0 < INR n) by (apply lt_0_INR; lia). apply (Rmult_lt_reg_r fs); lra. Qed.
Lemma even_round : Z.even (round_even (T * fs)) = true.
Proof.
  rewrite HT, INR_IZR_INZ, round_even_IZR. destruct He as [m ->]. rewrite Nat2Z.inj_mul. apply Z.even_spec. exists (Z.of_nat m). reflexivity.
Qed.
Lemma noise_form S lo hi re im : exists X F, noise_realisation S lo hi fs T re im = Some (X, F) /\ create_frequency_series fs T = Some F /\
  length X = (n / 2 + 1)%nat /\ length F = (n / 2 + 1)%nat /\ (forall k, (k <= n / 2)%nat -> nth k F 0 = INR k / T) /\
  forall k, (k <= n / 2)%nat -> nth k X (RtoC 0) =
    if Nat.eqb k 0 || Nat.eqb k (n / 2) then RtoC 0 else
    if Rlt_dec (INR k / T) lo then RtoC 0 else if Rlt_dec hi (INR k / T) then RtoC 0 else
      (sqrt (S (INR k / T)) * (/ 2 * sqrt T) * re k, sqrt (S (INR k / T)) * (/ 2 * sqrt T) * im k).
Proof.
  destruct (C18_frequency_array_even fs T n Hfs Hn He HT) as (F & EF & LF & NF & _). unfold noise_realisation, white_noise. rewrite EF, even_round.
  eexists. exists F. split; [reflexivity|]. split; [reflexivity|].
  set (w := map _ (seq 0 (length F))). assert (Lw : length w = length F) by (unfold w; now rewrite map_length, seq_length).
  assert (Lw' : length (set_last (set_first w (RtoC 0)) (RtoC 0)) = length F) by (rewrite set_last_length, set_first_length; exact Lw).
  split; [rewrite map_length, combine_length, Lw', LF; lia|]. split; [exact LF|]. split; [exact NF|]. intros k Hk.
  set (g := fun p : C * R => _). rewrite (nth_indep _ _ (g (RtoC 0, 0))) by (rewrite map_length, combine_length, Lw', LF; lia).
  rewrite map_nth, combine_nth by exact Lw'. unfold g. cbn [fst snd]. rewrite (NF k Hk), set_last_nth, set_first_length, Lw, LF.
  replace (Nat.eqb (Datatypes.S k) (n / 2 + 1)) with (Nat.eqb k (n / 2)) by (destruct (Nat.eqb_spec k (n / 2)), (Nat.eqb_spec (Datatypes.S k) (n / 2 + 1)); lia || reflexivity).
  assert (w <> []) by (intro E; rewrite E in Lw; cbn in Lw; lia). rewrite set_first_nth by assumption.
  destruct (Nat.eqb k (n / 2)) eqn:E2; [rewrite orb_true_r | rewrite orb_false_r].
  - destruct (Rlt_dec _ _); [reflexivity|]. destruct (Rlt_dec _ _); [reflexivity|]. unfold Cmult, RtoC. cbn. f_equal; ring.
  - destruct (Nat.eqb k 0) eqn:E0.
    + destruct (Rlt_dec _ _); [reflexivity|]. destruct (Rlt_dec _ _); [reflexivity|]. unfold Cmult, RtoC. cbn. f_equal; ring.
    + destruct (Rlt_dec _ _); [reflexivity|]. destruct (Rlt_dec _ _); [reflexivity|].
      unfold w. rewrite nth_map_seq by (rewrite LF; lia). unfold Cmult, RtoC. cbn. f_equal; ring.
Qed.
(** For an even number n of samples the noise has n/2+1 values at k/T; those at frequency zero, at the Nyquist
    frequency and outside the curve are 0, the real and imaginary parts of the others are independent draws
    times sqrt(S T / 4): the mean square is S T / 2. *)
Theorem C223_values S lo hi re im : (forall f, 0 <= S f) -> exists X F, noise_realisation S lo hi fs T re im = Some (X, F) /\
  length X = (n / 2 + 1)%nat /\ create_frequency_series fs T = Some F /\
  (forall k, (0 < k < n / 2)%nat -> lo <= INR k / T <= hi ->
     nth k X (RtoC 0) = (sqrt (S (INR k / T) * T / 4) * re k, sqrt (S (INR k / T) * T / 4) * im k)) /\
  (forall k, (k = 0 \/ k = n / 2)%nat \/ INR k / T < lo \/ hi < INR k / T -> nth k X (RtoC 0) = RtoC 0).
Proof.
  intro HS. destruct (noise_form S lo hi re im) as (X & F & E & EF & LX & LF & NF & V). exists X, F. split; [exact E|]. split; [exact LX|]. split; [exact EF|].
  pose proof T_pos as TP. split.
  - intros k Hk Hf. rewrite V by lia. destruct (Nat.eqb_spec k 0); [lia|]. destruct (Nat.eqb_spec k (n / 2)); [lia|]. cbn [orb].
    destruct (Rlt_dec _ _); [lra|]. destruct (Rlt_dec _ _); [lra|].
    assert (Q : sqrt (S (INR k / T) * T / 4) = sqrt (S (INR k / T)) * (/ 2 * sqrt T)).
    { pose proof (HS (INR k / T)) as Sp. pose proof (sqrt_sqrt (S (INR k / T)) Sp) as Q1. pose proof (sqrt_sqrt T ltac:(lra)) as Q2. apply sqrt_lem_1.
      - assert (0 <= S (INR k / T) * T) by (apply Rmult_le_pos; lra). lra.
      - pose proof (sqrt_pos (S (INR k / T))). pose proof (sqrt_pos T). apply Rmult_le_pos; lra.
      - transitivity ((sqrt (S (INR k / T)) * sqrt (S (INR k / T))) * (sqrt T * sqrt T) / 4); [field|]. rewrite Q1, Q2. reflexivity. }
    rewrite Q. reflexivity.
  - intros k Hk. destruct (le_gt_dec k (n / 2)) as [L|G]; [|apply nth_overflow; lia]. rewrite V by exact L.
    destruct Hk as [[-> | ->] | [H | H]].
    + reflexivity.
    + rewrite Nat.eqb_refl, orb_true_r. reflexivity.
    + destruct (_ || _); [reflexivity|]. destruct (Rlt_dec _ _); [reflexivity | lra].
    + destruct (_ || _); [reflexivity|]. destruct (Rlt_dec _ _); [reflexivity|]. destruct (Rlt_dec _ _); [reflexivity | lra].
Qed.
Lemma ip_sum a b S : length a = length b -> length b = length S -> ip a b S =
  (rsum (length a) (fun k => fst (cdivr (Cconj (nth k a (RtoC 0)) * nth k b (RtoC 0))%C (nth k S Inf))), rsum (length a) (fun k => snd (cdivr (Cconj (nth k a (RtoC 0)) * nth k b (RtoC 0))%C (nth k S Inf)))).
Proof.
  revert b S. induction a as [|x a IH]; intros [|y b] [|s S] H1 H2; cbn in H1, H2; try lia; [reflexivity|]. cbn [ip]. rewrite IH by lia. cbn [length].
  rewrite !rsum_front. cbn [nth]. unfold Cplus. cbn [fst snd]. reflexivity.
Qed.
(** Whitened, it is the draws themselves: <n, n> is the sum of the squares of the draws in the curve's range,
    whatever the curve, the duration and the sampling frequency. *)
Theorem C223_whitened S lo hi re im X F : (forall f, 0 < S f) -> noise_realisation S lo hi fs T re im = Some (X, F) ->
  optimal_snr_squared X (psd_values S lo hi F) T =
    Some (RtoC (rsum (n / 2 - 1) (fun i => let f := INR (i + 1) / T in if Rlt_dec f lo then 0 else if Rlt_dec hi f then 0 else re (i + 1)%nat ^ 2 + im (i + 1)%nat ^ 2))).
Proof.
  intros HS E0. destruct (noise_form S lo hi re im) as (X' & F' & E & EF & LX & LF & NF & V). rewrite E in E0. injection E0 as -> ->. pose proof T_pos as TP.
  assert (LP : length (psd_values S lo hi F) = (n / 2 + 1)%nat) by (unfold psd_values; now rewrite map_length).
  unfold optimal_snr_squared. rewrite nwip_ip by congruence. rewrite ip_sum, LX by congruence. f_equal.
  set (term := fun k => let f := INR k / T in if Nat.eqb k 0 || Nat.eqb k (n / 2) then 0 else if Rlt_dec f lo then 0 else if Rlt_dec hi f then 0 else T / 4 * (re k ^ 2 + im k ^ 2)).
  assert (N : forall k, (k <= n / 2)%nat -> nth k (psd_values S lo hi F) Inf = if Rlt_dec (INR k / T) lo then Inf else if Rlt_dec hi (INR k / T) then Inf else Fin (S (INR k / T))).
  { intros k Hk. unfold psd_values. set (g := fun f => _). rewrite (nth_indep _ _ (g 0)) by (rewrite map_length, LF; lia). rewrite map_nth, (NF k Hk). reflexivity. }
  assert (P : forall k, (k <= n / 2)%nat -> cdivr (Cconj (nth k X (RtoC 0)) * nth k X (RtoC 0))%C (nth k (psd_values S lo hi F) Inf) = (term k, 0)).
  { intros k Hk. rewrite (N k Hk), (V k Hk). unfold term. cbv zeta. destruct (_ || _).
    - destruct (Rlt_dec _ _); [reflexivity|]. destruct (Rlt_dec _ _); [reflexivity|]. unfold cdivr, Cconj, Cmult, RtoC. cbn. f_equal; unfold Rdiv; ring.
    - destruct (Rlt_dec _ _); [reflexivity|]. destruct (Rlt_dec _ _); [reflexivity|]. unfold cdivr, Cconj, Cmult. cbn [fst snd].
      pose proof (HS (INR k / T)) as Sp. pose proof (sqrt_sqrt (S (INR k / T)) ltac:(lra)) as Q1. pose proof (sqrt_sqrt T ltac:(lra)) as Q2.
      f_equal; [|unfold Rdiv; ring]. apply (Rmult_eq_reg_r (S (INR k / T))); [|lra].
      transitivity ((sqrt (S (INR k / T)) * sqrt (S (INR k / T))) * (sqrt T * sqrt T) / 4 * (re k ^ 2 + im k ^ 2)); [field; lra|]. rewrite Q1, Q2. field. }
  rewrite (rsum_ext _ _ term) by (intros k Hk; rewrite P by lia; reflexivity).
  rewrite (rsum_ext _ (fun k => snd _) (fun _ => 0)) by (intros k Hk; rewrite P by lia; reflexivity). rewrite rsum_0.
  change (rsum (n / 2 + 1) term, 0) with (RtoC (rsum (n / 2 + 1) term)). rewrite <- RtoC_mult. apply f_equal.
  destruct He as [m Hm]. assert (Hh : (n / 2 = m)%nat) by (rewrite Hm, Nat.mul_comm; apply Nat.div_mul; lia). rewrite Hh in *.
  replace (m + 1)%nat with (Datatypes.S (Datatypes.S (m - 1))) by lia. rewrite rsum_front. cbn [rsum]. replace (Datatypes.S (m - 1)) with m by lia.
  assert (T0 : term 0%nat = 0) by reflexivity. assert (Tm : term m = 0) by (unfold term; rewrite Hh, Nat.eqb_refl, orb_true_r; reflexivity).
  rewrite T0, Tm, Rplus_0_l, Rplus_0_r, <- rsum_scal. apply rsum_ext. intros i Hi. replace (Datatypes.S i) with (i + 1)%nat by lia. unfold term. cbv zeta. rewrite Hh.
  destruct (Nat.eqb_spec (i + 1) 0); [lia|]. destruct (Nat.eqb_spec (i + 1) m); [lia|]. cbn [orb]. destruct (Rlt_dec _ _); [ring|]. destruct (Rlt_dec _ _); [ring|]. field. lra.
Qed.
(** It is the transform of a real series: transforming to time and back returns the same noise. *)
Theorem C223_time S lo hi re im X F : noise_realisation S lo hi fs T re im = Some (X, F) ->
  exists x, infft X fs = Some x /\ length x = n /\ fst (nfft x fs) = X.
Proof.
  intro E0. destruct (noise_form S lo hi re im) as (X' & F' & E & EF & LX & LF & NF & V). rewrite E in E0. injection E0 as -> ->.
  destruct He as [m Hm]. assert (Hh : (n / 2 = m)%nat) by (rewrite Hm, Nat.mul_comm; apply Nat.div_mul; lia). rewrite Hh in *.
  assert (LX' : @length (R * R) X = (m + 1)%nat) by exact LX.
  assert (Ex : exists y, irfft X = Some y) by (unfold irfft; rewrite LX'; replace (m + 1 - 1)%nat with m by lia; destruct (Nat.eqb_spec m 0); [lia|]; eexists; reflexivity).
  destruct Ex as (y & Ey). unfold infft. rewrite Ey. eexists. split; [reflexivity|]. rewrite map_length.
  assert (Ly : length y = n) by (destruct (rfft_irfft X y Ey 0) as [L _]; [rewrite LX'; lia | rewrite L, LX'; lia]). split; [exact Ly|].
  unfold nfft. cbn [fst].
  assert (LR : forall z : list R, length z = n -> length (rfft z) = @length (R * R) X) by (intros z Lz; rewrite rfft_length, Lz, Hh, LX'; reflexivity).
  apply nth_ext with (d := ((fun z => (fst z / fs, snd z / fs)) (0, 0))) (d' := (0, 0)).
  - rewrite map_length. apply LR. now rewrite map_length.
  - intros k Hk. rewrite map_length, (LR (map (fun v => v * fs) y)) in Hk by now rewrite map_length. rewrite (map_nth (fun z => (fst z / fs, snd z / fs))).
    assert (Sc : nth k (rfft (map (fun v => v * fs) y)) (0, 0) = (fst (nth k (rfft y) (0, 0)) * fs, snd (nth k (rfft y) (0, 0)) * fs)).
    { rewrite !rfft_nth by (rewrite ?map_length, Ly, Hh; lia). rewrite map_length. cbn [fst snd]. f_equal.
      - rewrite Rmult_comm, <- rsum_scal. apply rsum_ext. intros j Hj. rewrite (nth_indep _ _ (0 * fs)) by (now rewrite map_length). rewrite (map_nth (fun v => v * fs)). ring.
      - rewrite (Rmult_comm _ fs). rewrite <- ?Ropp_mult_distr_r, <- rsum_scal. try apply f_equal. apply rsum_ext. intros j Hj. rewrite (nth_indep _ _ (0 * fs)) by (now rewrite map_length). rewrite (map_nth (fun v => v * fs)). ring. }
    rewrite Sc. cbn [fst snd]. destruct (rfft_irfft X y Ey k Hk) as [_ R1]. rewrite R1.
    assert (Z : (Nat.eqb k 0 || Nat.eqb k (@length (R * R) X - 1))%bool = true -> snd (nth k X (0, 0)) = 0).
    { intro B. change (nth k X (0, 0)) with (nth k X (RtoC 0)). rewrite V by lia. rewrite LX' in B. replace (m + 1 - 1)%nat with m in B by lia. rewrite B. reflexivity. }
    cbn [fst snd]. transitivity (fst (@nth (R * R) k X (0, 0)), snd (@nth (R * R) k X (0, 0))); [|symmetry; apply surjective_pairing].
    destruct (_ || _).
    - pose proof (Z eq_refl) as Z0. f_equal; [field; lra | transitivity 0; [field; lra | symmetry; exact Z0]].
    - f_equal; field; lra.
Qed.
(** A curve c^2 times as high gives c times the noise for the same draws. *)
Theorem C223_scale S lo hi re im c X F : 0 <= c -> (forall f, 0 <= S f) -> noise_realisation S lo hi fs T re im = Some (X, F) ->
  exists Y, noise_realisation (fun f => c ^ 2 * S f) lo hi fs T re im = Some (Y, F) /\ length Y = length X /\ forall k, nth k Y (RtoC 0) = (RtoC c * nth k X (RtoC 0))%C.
Proof.
  intros Hc HS E0. destruct (noise_form S lo hi re im) as (X' & F' & E & EF & LX & LF & NF & V). rewrite E in E0. injection E0 as -> ->.
  destruct (noise_form (fun f => c ^ 2 * S f) lo hi re im) as (Y & F' & EY & EF' & LY & _ & _ & VY). rewrite EF in EF'. injection EF' as <-. exists Y. split; [exact EY|]. split; [congruence|].
  intro k. destruct (le_gt_dec k (n / 2)) as [L|G]; [|rewrite !nth_overflow by lia; ring]. rewrite (V k L), (VY k L).
  destruct (_ || _); [ring|]. destruct (Rlt_dec _ _); [ring|]. destruct (Rlt_dec _ _); [ring|].
  assert (Q : sqrt (c ^ 2 * S (INR k / T)) = c * sqrt (S (INR k / T))) by (rewrite sqrt_mult by (try apply HS; nra); replace (c ^ 2) with (c * c) by ring; rewrite sqrt_square by exact Hc; reflexivity).
  rewrite Q. unfold Cmult, RtoC. cbn [fst snd]. f_equal; ring.
Qed.
End Even.
(** With an odd number of samples the frequencies are not multiples of 1/T and the last value is kept. *)
Theorem C223_odd_refuted : exists F X, white_noise 3 1 (fun _ => 1) (fun _ => 0) = Some (X, F) /\ nth 1 F 0 <> 1 / 1 /\ last X (RtoC 0) <> RtoC 0.
Proof.
  assert (R3 : round_even (1 * 3) = 3%Z) by (replace (1 * 3) with (IZR 3) by ring; apply round_even_IZR).
  destruct (C18_frequency_array_odd 3 1 1 ltac:(lra) ltac:(lia) ltac:(simpl; lra)) as (F & EF & LF & NF). unfold white_noise. rewrite EF, R3. cbn [Z.even].
  exists F. eexists. split; [reflexivity|]. split; [replace (1 / 1) with (1 / 1) by reflexivity; exact NF|].
  assert (L : length F = 3%nat).
  { unfold create_frequency_series in EF. destruct (legal 3 1); [|discriminate EF]. injection EF as <-. rewrite linspace_length. rewrite R3.
    assert (round_even (3 / 2) = 2%Z).
    { unfold round_even. assert (Int_part (3 / 2) = 1%Z) as ->. { unfold Int_part. assert (up (3 / 2) = 2%Z) as ->; [symmetry; apply tech_up; lra | reflexivity]. } 
      destruct (Rlt_dec _ _); [lra|]. destruct (Rlt_dec _ _); [lra|]. reflexivity. }
    rewrite H. replace (2 + 1) with (IZR 3) by ring. rewrite trunc_IZR. reflexivity. }
  rewrite L. cbn. intro Z. injection Z as Z _. rewrite sqrt_1 in Z. lra.
Qed.
(** Four samples in one second with the curve 4 at all frequencies: one value, 2 * 1/2 times the draw. *)
Example C223_example re im : exists F, noise_realisation (fun _ => 4) 0 10 4 1 re im = Some ([(0, 0); (re 1%nat, im 1%nat); (0, 0)], F).
Proof.
  destruct (C223_values 4 1 4 ltac:(lra) ltac:(lia) ltac:(exists 2%nat; reflexivity) ltac:(simpl; lra) (fun _ => 4) 0 10 re im ltac:(intro; lra)) as (X & F & E & LX & _ & V1 & V0).
  exists F. rewrite E. apply f_equal. apply (f_equal (fun a => (a, F))). cbn in LX. destruct X as [|x0 [|x1 [|x2 [|]]]]; try discriminate LX.
  assert (Q : sqrt (4 * 1 / 4) = 1) by (replace (4 * 1 / 4) with 1 by field; apply sqrt_1).
  pose proof (V0 0%nat ltac:(tauto)) as A0. pose proof (V0 2%nat ltac:(left; right; reflexivity)) as A2. pose proof (V1 1%nat ltac:(cbn; lia) ltac:(simpl; lra)) as A1.
  cbn [nth] in A0, A1, A2. rewrite Q, !Rmult_1_l in A1. subst. reflexivity.
Qed.

(** ** Assumptions of every theorem above *)
Definition SimNoise_Props_all :=
  (@C223_values,
   @C223_whitened,
   @C223_time,
   @C223_scale,
   @C223_odd_refuted).
Print Assumptions SimNoise_Props_all.
