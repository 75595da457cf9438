(** C79, C80: noise-weighted inner product, signal-to-noise ratios and overlap (gw/utils.py). *)
From Coq Require Import Reals List ZArith Bool Lra Lia.
From Coquelicot Require Import Complex.
From Verif Require Import PyReal Series_Model GwInner_Model GwInner_Proofs.
Import ListNotations.
Open Scope R_scope.

(** *** C79 *)
(** It raises exactly for arrays of different lengths. *)
Theorem C79_raises a b S T : nwip a b S T = None <-> ~ (length a = length b /\ length b = length S).
Proof. apply nwip_none. Qed.
(** Hermitian symmetry *)
Theorem C79_hermitian a b S T : nwip b a S T = option_map Cconj (nwip a b S T).
Proof.
  destruct (nwip a b S T) as [z|] eqn:E.
  - assert (H : length a = length b /\ length b = length S).
    { destruct (Nat.eq_dec (length a) (length b)) as [|N]; [|exfalso; assert (nwip a b S T = None) by (apply nwip_none; tauto); congruence].
      destruct (Nat.eq_dec (length b) (length S)) as [|N]; [auto|exfalso; assert (nwip a b S T = None) by (apply nwip_none; tauto); congruence]. }
    destruct H as [H1 H2]. rewrite nwip_ip in E by assumption. injection E as <-. rewrite nwip_ip by congruence. cbn. now rewrite ip_conj, Cconj_scal.
  - cbn. apply nwip_none. apply nwip_none in E. intros [H1 H2]. apply E. split; congruence.
Qed.
(** linear in the second argument (hence antilinear in the first) *)
Theorem C79_linear a x y S T c d X Y : nwip a x S T = Some X -> nwip a y S T = Some Y ->
  nwip a (map (fun p => (c * fst p + d * snd p)%C) (combine x y)) S T = Some (c * X + d * Y)%C.
Proof.
  intros HX HY. assert (G : forall b z, nwip a b S T = Some z -> length a = length b /\ length b = length S).
  { intros b z E. destruct (Nat.eq_dec (length a) (length b)) as [|N]; [|exfalso; assert (nwip a b S T = None) by (apply nwip_none; tauto); congruence].
    destruct (Nat.eq_dec (length b) (length S)) as [|N]; [auto|exfalso; assert (nwip a b S T = None) by (apply nwip_none; tauto); congruence]. }
  destruct (G _ _ HX) as [H1 H2], (G _ _ HY) as [H3 H4]. rewrite nwip_ip in HX, HY by assumption. injection HX as <-. injection HY as <-.
  fold (lin c d x y). rewrite nwip_ip; [|rewrite lin_length; congruence|rewrite lin_length; congruence]. f_equal. rewrite ip_lin by congruence. ring.
Qed.
(** bins where the PSD is infinite do not count *)
Theorem C79_outside_band a a' b b' S T :
  length a = length S -> length a' = length S -> length b = length S -> length b' = length S ->
  (forall i x, nth_error S i = Some (Fin x) -> nth_error a i = nth_error a' i /\ nth_error b i = nth_error b' i) ->
  nwip a b S T = nwip a' b' S T.
Proof.
  intros Ha Ha' Hb Hb' H. rewrite !nwip_ip by congruence. f_equal. f_equal.
  revert a a' b b' Ha Ha' Hb Hb' H. induction S as [|s S IH]; intros [|x a] [|x' a'] [|y b] [|y' b']; cbn [length]; intros Ha Ha' Hb Hb' H; try lia; [reflexivity|].
  cbn [ip]. f_equal; [|apply IH; try lia; intros i z Hi; apply (H (Datatypes.S i) z Hi)].
  destruct s as [s|]; [|reflexivity]. destruct (H O s eq_refl) as [E1 E2]. cbn in E1, E2. injection E1 as ->. injection E2 as ->. reflexivity.
Qed.
(** <a|a> is a real number >= 0, and 0 exactly if a vanishes wherever the PSD is finite *)
Theorem C79_norm a S T : length a = length S -> Forall psd_pos S -> 0 < T ->
  exists v, optimal_snr_squared a S T = Some (RtoC v) /\ 0 <= v
  /\ (v = 0 <-> forall i x z, nth_error S i = Some (Fin x) -> nth_error a i = Some z -> z = RtoC 0).
Proof.
  intros Hl HS HT. exists (4 / T * n2 a S). assert (H4 : 0 < 4 / T) by (apply Rdiv_lt_0_compat; lra). pose proof (n2_nonneg a S HS) as Hn.
  split; [now apply nwip_self|]. split; [apply Rmult_le_pos; lra|].
  assert (E : 4 / T * n2 a S = 0 <-> n2 a S = 0). { split; [intros E; apply Rmult_integral in E; destruct E; lra|intros ->; ring]. }
  rewrite E, n2_zero by assumption. clear. split.
  - revert a. induction S as [|s S IH]; intros [|y a] H [|i] x z; cbn; try discriminate; inversion H; subst.
    + intros K1 K2. injection K1 as ->. injection K2 as ->. assumption.
    + intros K1 K2. eapply IH; eauto.
  - revert a. induction S as [|s S IH]; intros [|y a] H; cbn; constructor.
    + cbn. destruct s as [x|]; [|exact I]. exact (H O x y eq_refl eq_refl).
    + apply IH. intros i x z K1 K2. exact (H (Datatypes.S i) x z K1 K2).
Qed.
(** Cauchy-Schwarz *)
Theorem C79_cauchy_schwarz a b S T z u v : Forall psd_pos S -> 0 < T ->
  nwip a b S T = Some z -> nwip a a S T = Some u -> nwip b b S T = Some v -> Cmod z ^ 2 <= Re u * Re v.
Proof.
  intros HS HT Hz Hu Hv.
  assert (H1 : length a = length b /\ length b = length S).
  { destruct (Nat.eq_dec (length a) (length b)) as [|N]; [|exfalso; assert (nwip a b S T = None) by (apply nwip_none; tauto); congruence].
    destruct (Nat.eq_dec (length b) (length S)) as [|N]; [auto|exfalso; assert (nwip a b S T = None) by (apply nwip_none; tauto); congruence]. }
  destruct H1 as [H1 H2]. rewrite nwip_self in Hu, Hv by congruence. rewrite nwip_ip in Hz by assumption. injection Hz as <-. injection Hu as <-. injection Hv as <-.
  assert (H4 : 0 < 4 / T) by (apply Rdiv_lt_0_compat; lra). rewrite Cmod_mult, Cmod_R, Rabs_pos_eq by lra. unfold Re. cbn [fst RtoC].
  pose proof (ip_cs a b S ltac:(congruence) H2 HS) as K. pose proof (Cmod_ge_0 (ip a b S)) as G.
  pose proof (n2_nonneg a S HS) as Na. pose proof (n2_nonneg b S HS) as Nb.
  assert (K2 : Cmod (ip a b S) ^ 2 <= n2 a S * n2 b S).
  { replace (n2 a S * n2 b S) with ((sqrt (n2 a S) * sqrt (n2 b S)) ^ 2); [apply pow_incr; split; assumption|].
    rewrite Rpow_mult_distr, !pow2_sqrt by assumption. reflexivity. }
  replace ((4 / T * Cmod (ip a b S)) ^ 2) with ((4 / T) ^ 2 * Cmod (ip a b S) ^ 2) by ring.
  replace (4 / T * n2 a S * (4 / T * n2 b S)) with ((4 / T) ^ 2 * (n2 a S * n2 b S)) by ring. apply Rmult_le_compat_l; [nra|exact K2].
Qed.
(** The matched filter SNR of any template is at most the norm of the data. *)
Theorem C79_snr_at_most_data_norm s d S T rho v : length s = length S -> length d = length S -> Forall psd_pos S -> 0 < T ->
  matched_filter_snr s d S T = Ok rho -> optimal_snr_squared d S T = Some (RtoC v) -> Cmod rho ^ 2 <= v.
Proof.
  intros Hs Hd HS HT. rewrite snr_ok by assumption. destruct (Req_EM_T (n2 s S) 0) as [|N]; [discriminate|]. intros E1 E2. injection E1 as <-.
  unfold optimal_snr_squared in E2. rewrite nwip_self in E2 by assumption. assert (v = 4 / T * n2 d S) as -> by (apply RtoC_inj; injection E2; congruence).
  assert (H4 : 0 < 4 / T) by (apply Rdiv_lt_0_compat; lra). pose proof (n2_nonneg s S HS) as Ns. pose proof (n2_nonneg d S HS) as Nd.
  assert (P : 0 < 4 / T * n2 s S) by (apply Rmult_lt_0_compat; lra). pose proof (sqrt_lt_R0 _ P) as Q.
  rewrite Cmod_div by (apply RtoC_neq; lra). rewrite Cmod_mult, !Cmod_R, !Rabs_pos_eq by lra.
  replace ((4 / T * Cmod (ip s d S) / sqrt (4 / T * n2 s S)) ^ 2) with ((4 / T) ^ 2 * Cmod (ip s d S) ^ 2 / (sqrt (4 / T * n2 s S)) ^ 2) by (field; lra).
  rewrite pow2_sqrt by lra. pose proof (ip_cs s d S Hs Hd HS) as K. pose proof (Cmod_ge_0 (ip s d S)) as G.
  assert (K2 : Cmod (ip s d S) ^ 2 <= n2 s S * n2 d S).
  { replace (n2 s S * n2 d S) with ((sqrt (n2 s S) * sqrt (n2 d S)) ^ 2); [apply pow_incr; split; assumption|].
    rewrite Rpow_mult_distr, !pow2_sqrt by assumption. reflexivity. }
  apply (Rmult_le_reg_r (4 / T * n2 s S)); [exact P|]. replace ((4 / T) ^ 2 * Cmod (ip s d S) ^ 2 / (4 / T * n2 s S) * (4 / T * n2 s S)) with ((4 / T) ^ 2 * Cmod (ip s d S) ^ 2).
  2:{ field. split; lra. }
  replace (4 / T * n2 d S * (4 / T * n2 s S)) with ((4 / T) ^ 2 * (n2 s S * n2 d S)) by ring. apply Rmult_le_compat_l; [nra|exact K2].
Qed.
(** If the data are c times the template, the matched filter SNR is c times the optimal SNR; with c = 1 the
    two coincide. *)
Theorem C79_snr_of_pure_signal s S T c v : length s = length S -> Forall psd_pos S -> 0 < T ->
  optimal_snr_squared s S T = Some (RtoC v) -> v <> 0 ->
  matched_filter_snr s (map (fun z => (c * z)%C) s) S T = Ok (c * RtoC (sqrt v))%C.
Proof.
  intros Hs HS HT E2 Hv. unfold optimal_snr_squared in E2. rewrite nwip_self in E2 by assumption.
  assert (v = 4 / T * n2 s S) as -> by (apply RtoC_inj; injection E2; congruence). assert (H4 : 0 < 4 / T) by (apply Rdiv_lt_0_compat; lra).
  pose proof (n2_nonneg s S HS) as Ns. rewrite snr_ok by (try assumption; rewrite map_length; assumption).
  destruct (Req_EM_T (n2 s S) 0) as [E|N]; [exfalso; apply Hv; rewrite E; ring|]. f_equal. fold (scalv c s). rewrite ip_scal_r, ip_self by assumption.
  assert (P : 0 < 4 / T * n2 s S) by (apply Rmult_lt_0_compat; lra). pose proof (sqrt_lt_R0 _ P) as Q.
  transitivity (c * (RtoC (4 / T) * RtoC (n2 s S) / RtoC (sqrt (4 / T * n2 s S))))%C; [field; apply RtoC_neq; lra|]. f_equal.
  rewrite <- RtoC_mult, <- RtoC_div by lra. f_equal. rewrite <- (sqrt_sqrt (4 / T * n2 s S)) at 1 by lra. field. lra.
Qed.
(** Rescaling the template by c changes the SNR by the phase of conj(c) only: the modulus does not depend on
    the amplitude or overall phase of the template. *)
Theorem C79_snr_scale_invariant s d S T c rho : length s = length S -> length d = length S -> Forall psd_pos S -> 0 < T ->
  c <> RtoC 0 -> matched_filter_snr s d S T = Ok rho ->
  matched_filter_snr (map (fun z => (c * z)%C) s) d S T = Ok (Cconj c / RtoC (Cmod c) * rho)%C.
Proof.
  intros Hs Hd HS HT Hc. fold (scalv c s). rewrite !snr_ok by (try assumption; unfold scalv; rewrite map_length; assumption).
  destruct (Req_EM_T (n2 s S) 0) as [|N]; [discriminate|]. intros E. injection E as <-.
  assert (Hn : n2 (scalv c s) S = Cmod c ^ 2 * n2 s S).
  { apply RtoC_inj. rewrite <- ip_self by (unfold scalv; rewrite map_length; assumption). rewrite ip_scal_l, ip_scal_r, ip_self by assumption.
    rewrite RtoC_mult, Cmult_assoc. f_equal. unfold Cmod. rewrite pow2_sqrt by nra. unfold Cconj, Cmult, RtoC; cbn; f_equal; ring. }
  pose proof (Cmod_gt_0 c) as [Hm _]. specialize (Hm Hc). rewrite Hn.
  destruct (Req_EM_T (Cmod c ^ 2 * n2 s S) 0) as [E|_]; [exfalso; apply Rmult_integral in E; destruct E; [nra|lra]|].
  assert (H4 : 0 < 4 / T) by (apply Rdiv_lt_0_compat; lra). pose proof (n2_nonneg s S HS) as Ns.
  assert (P : 0 < 4 / T * n2 s S) by (apply Rmult_lt_0_compat; lra). pose proof (sqrt_lt_R0 _ P) as Q.
  f_equal. replace (4 / T * (Cmod c ^ 2 * n2 s S)) with (Cmod c ^ 2 * (4 / T * n2 s S)) by ring. rewrite sqrt_mult by nra. rewrite sqrt_pow2 by lra.
  rewrite ip_scal_l, RtoC_mult. field. split; apply RtoC_neq; lra.
Qed.
(** nan exactly for templates that vanish in band *)
Theorem C79_snr_nan s d S T : length s = length S -> length d = length S -> Forall psd_pos S -> 0 < T ->
  (matched_filter_snr s d S T = CNan <-> optimal_snr_squared s S T = Some (RtoC 0)).
Proof.
  intros Hs Hd HS HT. rewrite snr_ok by assumption. unfold optimal_snr_squared. rewrite nwip_self by assumption. assert (H4 : 0 < 4 / T) by (apply Rdiv_lt_0_compat; lra).
  destruct (Req_EM_T (n2 s S) 0) as [E|N]; split; intros H; try discriminate; [rewrite E, Rmult_0_r; reflexivity|reflexivity|].
  exfalso. apply N. assert (K : RtoC (4 / T * n2 s S) = RtoC 0) by (injection H; congruence). apply RtoC_inj in K. apply Rmult_integral in K. destruct K; lra.
Qed.
Theorem C79_example :
  nwip [(1, 1); (0, 2)] [(2, 0); (3, 0)] [Fin 2; Inf] 4 = Some (1, -1)
  /\ matched_filter_snr [(3, 0)] [(0, 1)] [Fin 1] 4 = Ok (0, 1).
Proof.
  split.
  - rewrite nwip_ip by reflexivity. f_equal. cbn [ip cdivr]. unfold Cmult, Cplus, Cconj, RtoC. cbn [fst snd]. f_equal; field.
  - rewrite snr_ok; [|reflexivity|reflexivity|constructor; [cbn; lra|constructor]|lra]. cbn [n2 fst snd].
    replace ((3 ^ 2 + 0 ^ 2) / 1 + 0) with 9 by field. destruct (Req_EM_T 9 0); [lra|]. f_equal. replace (4 / 4 * 9) with (3 * 3) by field. rewrite sqrt_square by lra.
    cbn [ip cdivr]. unfold Cdiv, Cinv, Cmult, Cplus, Cconj, RtoC. cbn [fst snd]. f_equal; field.
Qed.

(** *** C80 overlap *)
Lemma slice_length {A} lo hi (l : list A) : length (slice lo hi l) = Nat.min (hi - lo) (length l - lo).
Proof. unfold slice. rewrite firstn_length, skipn_length. reflexivity. Qed.
Lemma slice_map {A B} (f : A -> B) lo hi l : slice lo hi (map f l) = map f (slice lo hi l).
Proof. unfold slice. now rewrite <- firstn_map, <- skipn_map. Qed.
Lemma skipn_combine {A B} n (x : list A) (y : list B) : skipn n (combine x y) = combine (skipn n x) (skipn n y).
Proof.
  revert x y. induction n as [|n IH]; intros x y; [reflexivity|]. destruct x as [|u x]; [reflexivity|]. destruct y as [|v y]; [cbn; now rewrite combine_nil|]. cbn. apply IH.
Qed.
Lemma slice_combine {A B} lo hi (x : list A) (y : list B) : slice lo hi (combine x y) = combine (slice lo hi x) (slice lo hi y).
Proof. unfold slice. rewrite skipn_combine. apply combine_firstn. Qed.
Lemma csum_overlap a b S df na nb : length a = length b -> length b = length S ->
  csum (map (fun t : C * ext => ((RtoC (4 * df) * cdivr (fst t) (snd t)) / RtoC na / RtoC nb)%C) (combine (map (fun t : C * C => (Cconj (fst t) * snd t)%C) (combine a b)) S))
  = (RtoC (4 * df) * ip a b S / RtoC na / RtoC nb)%C.
Proof.
  revert b S. induction a as [|x a IH]; intros [|y b] [|s S]; cbn [length]; intros Ha Hb; try lia; cbn [combine map csum fold_right ip fst snd].
  - unfold Cdiv. ring.
  - fold (csum (map (fun t : C * ext => ((RtoC (4 * df) * cdivr (fst t) (snd t)) / RtoC na / RtoC nb)%C) (combine (map (fun t : C * C => (Cconj (fst t) * snd t)%C) (combine a b)) S))).
    rewrite IH by lia. unfold Cdiv. ring.
Qed.
(** The overlap is the real part of the inner product of the two signals restricted to the bins
    int(lower / df) .. int(upper / df) - 1, over the two norms. *)
Theorem C80_inner_product a b S df lo hi na nb z : length a = length S -> length b = length S -> 0 < df -> na <> 0 -> nb <> 0 ->
  let cut := fun A (l : list A) => slice (Z.to_nat (trunc (lo / df))) (Z.to_nat (trunc (hi / df))) l in
  nwip (cut C a) (cut C b) (cut ext S) (1 / df) = Some z -> overlap a b S df lo hi na nb = Some (Re z / na / nb).
Proof.
  intros Ha Hb Hd Hna Hnb cut Hz. unfold overlap. rewrite Ha, Hb, Nat.eqb_refl. set (l := Z.to_nat (trunc (lo / df))) in *. set (u := Z.to_nat (trunc (hi / df))) in *.
  rewrite slice_map, slice_combine. unfold cut in Hz.
  assert (L1 : length (slice l u a) = length (slice l u b)) by (rewrite !slice_length; lia).
  assert (L2 : length (slice l u b) = length (slice l u S)) by (rewrite !slice_length; lia).
  rewrite map_length, combine_length, L1, L2, Nat.min_id, Nat.eqb_refl. rewrite csum_overlap by assumption.
  rewrite nwip_ip in Hz by assumption. injection Hz as <-. f_equal. replace (4 / (1 / df)) with (4 * df) by (field; lra).
  unfold Re, Cdiv. rewrite <- !RtoC_inv by assumption. unfold Cmult, RtoC. cbn [fst snd]. unfold Rdiv. ring.
Qed.
Lemma cut_total a b S df lo hi : length a = length S -> length b = length S ->
  let cut := fun A (l : list A) => slice (Z.to_nat (trunc (lo / df))) (Z.to_nat (trunc (hi / df))) l in
  length (cut C a) = length (cut ext S) /\ length (cut C b) = length (cut ext S).
Proof. cbn. rewrite !slice_length. lia. Qed.
Lemma Forall_slice {A} (P : A -> Prop) lo hi l : Forall P l -> Forall P (slice lo hi l).
Proof. rewrite !Forall_forall. intros H x Hx. apply H. unfold slice in Hx. assert (K : In x (skipn lo l)) by (rewrite <- (firstn_skipn (hi - lo)); apply in_or_app; now left). rewrite <- (firstn_skipn lo). apply in_or_app. now right. Qed.
(** Normalised with the norms over the same band, the overlap lies in [-1, 1], is 1 for a signal and any
    positive multiple of it, and is symmetric. *)
Theorem C80_normalised a b S df lo hi na nb : length a = length S -> length b = length S -> Forall psd_pos S -> 0 < df ->
  let cut := fun A (l : list A) => slice (Z.to_nat (trunc (lo / df))) (Z.to_nat (trunc (hi / df))) l in
  optimal_snr_squared (cut C a) (cut ext S) (1 / df) = Some (RtoC (na ^ 2)) ->
  optimal_snr_squared (cut C b) (cut ext S) (1 / df) = Some (RtoC (nb ^ 2)) -> 0 < na -> 0 < nb ->
  exists o, overlap a b S df lo hi na nb = Some o /\ -1 <= o <= 1 /\ overlap b a S df lo hi nb na = Some o.
Proof.
  intros Ha Hb HS Hd cut Ea Eb Hna Hnb. destruct (cut_total a b S df lo hi Ha Hb) as [L1 L2]. change (length (cut C a) = length (cut ext S)) in L1. change (length (cut C b) = length (cut ext S)) in L2.
  assert (Ez : exists z, nwip (cut C a) (cut C b) (cut ext S) (1 / df) = Some z) by (eexists; apply nwip_ip; congruence). destruct Ez as [z Ez].
  assert (Ez' : nwip (cut C b) (cut C a) (cut ext S) (1 / df) = Some (Cconj z)) by (rewrite C79_hermitian, Ez; reflexivity).
  exists (Re z / na / nb). split; [apply C80_inner_product; try assumption; lra|]. split.
  - assert (T : 0 < 1 / df) by (apply Rdiv_lt_0_compat; lra). assert (HS' : Forall psd_pos (cut ext S)) by (apply Forall_slice; exact HS).
    pose proof (C79_cauchy_schwarz (cut C a) (cut C b) (cut ext S) (1 / df) z _ _ HS' T Ez Ea Eb) as K. unfold Re at 1 2 in K. cbn [fst RtoC] in K.
    assert (K2 : Re z ^ 2 <= (na * nb) ^ 2). { unfold Cmod in K. rewrite pow2_sqrt in K by nra. unfold Re. nra. }
    assert (P : 0 < na * nb) by nra. replace (Re z / na / nb) with (Re z / (na * nb)) by (field; lra).
    assert (- (na * nb) <= Re z <= na * nb) by (split; nra). split; apply (Rmult_le_reg_r (na * nb)); try exact P; unfold Rdiv; rewrite Rmult_assoc, Rinv_l by lra; lra.
  - rewrite (C80_inner_product b a S df lo hi nb na (Cconj z)) by (try assumption; lra). f_equal. unfold Re, Cconj. cbn [fst]. field. lra.
Qed.
Theorem C80_self a S df lo hi na : length a = length S -> 0 < df ->
  let cut := fun A (l : list A) => slice (Z.to_nat (trunc (lo / df))) (Z.to_nat (trunc (hi / df))) l in
  optimal_snr_squared (cut C a) (cut ext S) (1 / df) = Some (RtoC (na ^ 2)) -> 0 < na -> overlap a a S df lo hi na na = Some 1.
Proof.
  intros Ha Hd cut E Hn. rewrite (C80_inner_product a a S df lo hi na na (RtoC (na ^ 2))) by (try assumption; lra). f_equal. unfold Re. cbn [fst RtoC]. field. lra.
Qed.
(** Which frequencies count.  With the k-th entry at frequency k df, an entry that influences the result has
    lower - df < k df <= upper - df. *)
Theorem C80_bins a b b' S df lo hi na nb : length a = length S -> length b = length S -> length b' = length S ->
  0 < df -> 0 <= lo -> 0 <= hi ->
  (forall k, lo - df < INR k * df -> INR k * df <= hi - df -> nth_error b k = nth_error b' k) ->
  overlap a b S df lo hi na nb = overlap a b' S df lo hi na nb.
Proof.
  intros Ha Hb Hb' Hd Hlo Hhi H. unfold overlap. rewrite Ha, Hb, Hb', Nat.eqb_refl.
  set (l := Z.to_nat (trunc (lo / df))). set (u := Z.to_nat (trunc (hi / df))).
  assert (E : slice l u b = slice l u b').
  { apply nth_ext with (RtoC 0) (RtoC 0); [rewrite !slice_length; congruence|]. intros n Hn. rewrite slice_length in Hn. unfold slice.
    assert (G : forall x : list C, (n < Nat.min (u - l) (length x - l))%nat -> nth n (firstn (u - l) (skipn l x)) (RtoC 0) = nth (l + n) x (RtoC 0)).
    { intros x Hx. rewrite <- (firstn_skipn l x) at 2. rewrite app_nth2; rewrite firstn_length; [|lia]. replace (l + n - Nat.min l (length x))%nat with n by lia.
      rewrite <- (firstn_skipn (u - l) (skipn l x)) at 2. rewrite app_nth1; [reflexivity|]. rewrite firstn_length, skipn_length. lia. }
    rewrite !G by (rewrite ?Hb', ?Hb in *; lia). assert (K : nth_error b (l + n) = nth_error b' (l + n)).
    { assert (T : forall x, 0 <= x -> trunc (x / df) = Int_part (x / df)). { intros x Hx. unfold trunc. destruct (Rlt_dec (x / df) 0) as [N|]; [|reflexivity]. exfalso. assert (0 <= x / df) by (apply Rmult_le_pos; [lra|left; now apply Rinv_0_lt_compat]). lra. }
      pose proof (base_Int_part (lo / df)) as [A1 A2]. pose proof (base_Int_part (hi / df)) as [B1 B2]. rewrite <- T in * by assumption.
      assert (Q1 : lo = lo / df * df) by (field; lra). assert (Q2 : hi = hi / df * df) by (field; lra).
      assert (Pl : 0 <= lo / df) by (apply Rmult_le_pos; [lra|left; now apply Rinv_0_lt_compat]). assert (Ph : 0 <= hi / df) by (apply Rmult_le_pos; [lra|left; now apply Rinv_0_lt_compat]).
      assert (Zl : (0 <= trunc (lo / df))%Z). { rewrite T by exact Hlo. assert (IZR (-1) < IZR (Int_part (lo / df))) by (rewrite <- T by exact Hlo; lra). apply lt_IZR in H0. lia. }
      assert (Zh : (0 <= trunc (hi / df))%Z). { rewrite T by exact Hhi. assert (IZR (-1) < IZR (Int_part (hi / df))) by (rewrite <- T by exact Hhi; lra). apply lt_IZR in H0. lia. }
      assert (El : INR l = IZR (trunc (lo / df))) by (unfold l; rewrite INR_IZR_INZ, Z2Nat.id by exact Zl; reflexivity).
      assert (Eu : INR u = IZR (trunc (hi / df))) by (unfold u; rewrite INR_IZR_INZ, Z2Nat.id by exact Zh; reflexivity).
      apply H.
      - rewrite plus_INR. pose proof (pos_INR n). rewrite El. apply Rlt_le_trans with (IZR (trunc (lo / df)) * df); [|nra]. replace (lo - df) with ((lo / df - 1) * df) by (field; lra). apply Rmult_lt_compat_r; lra.
      - assert (I : INR (l + n) + 1 <= INR u) by (rewrite <- S_INR; apply le_INR; lia). replace (hi - df) with ((hi / df - 1) * df) by (field; lra). apply Rmult_le_compat_r; lra. }
    destruct (nth_error b (l + n)) as [v|] eqn:Ev; symmetry in K.
    - erewrite !nth_error_nth by eassumption. reflexivity.
    - apply nth_error_None in Ev. rewrite Hb in *. lia. }
  rewrite !slice_map, !slice_combine, E. reflexivity.
Qed.
(** Refuted: "the integral runs from lower_cut_off to upper_cut_off": the bin below a lower cut-off that is
    not a bin counts, and the bin at the upper cut-off does not. *)
Theorem C80_cut_offs_refuted :
  let one := [(1, 0); (1, 0); (1, 0); (1, 0)] in let S := [Fin 1; Fin 1; Fin 1; Fin 1] in
  overlap one [(0, 0); (1, 0); (0, 0); (0, 0)] S 1 (3/2) 3 1 1 = Some 4
  /\ overlap one [(0, 0); (0, 0); (0, 0); (1, 0)] S 1 (3/2) 3 1 1 = Some 0.
Proof.
  assert (E1 : trunc (3/2/1) = 1%Z).
  { unfold trunc. destruct (Rlt_dec (3/2/1) 0); [lra|]. pose proof (base_Int_part (3/2/1)) as [P1 P2]. assert (H1 : IZR (Int_part (3/2/1)) < IZR 2) by lra. assert (H2 : IZR 0 < IZR (Int_part (3/2/1))) by lra. apply lt_IZR in H1, H2. lia. }
  assert (E2 : trunc (3/1) = 3%Z). { unfold trunc. destruct (Rlt_dec (3/1) 0); [lra|]. pose proof (base_Int_part (3/1)) as [P1 P2]. assert (H1 : IZR (Int_part (3/1)) < IZR 4) by lra. assert (H2 : IZR 2 < IZR (Int_part (3/1))) by lra. apply lt_IZR in H1, H2. lia. }
  cbv zeta. unfold overlap. rewrite E1, E2. change (Z.to_nat 1) with 1%nat. change (Z.to_nat 3) with 3%nat.
  cbn [length Nat.eqb combine map slice skipn firstn Nat.sub fst snd csum fold_right]. unfold Cdiv, Cinv, Cmult, Cplus, Cconj, RtoC, cdivr. cbn [fst snd]. split; f_equal; field.
Qed.
(** psd_from_freq_series is 4 df |x|^2, and asd its square root *)
Theorem C80_psd_from_freq_series x df : 0 <= df ->
  psd_from_freq_series x df = map (fun z => 4 * df * Cmod z ^ 2) x
  /\ asd_from_freq_series x df = map sqrt (psd_from_freq_series x df).
Proof.
  intros H. unfold psd_from_freq_series, asd_from_freq_series. rewrite !map_map. split; apply map_ext; intros z.
  - rewrite !Rpow_mult_distr, pow2_sqrt by exact H. ring.
  - symmetry. apply sqrt_pow2. pose proof (Cmod_ge_0 z). pose proof (sqrt_pos df). nra.
Qed.

(** ** Assumptions of every theorem above *)
Definition GwInner_Props_all :=
  (@C79_raises,
   @C79_hermitian,
   @C79_linear,
   @C79_outside_band,
   @C79_norm,
   @C79_cauchy_schwarz,
   @C79_snr_at_most_data_norm,
   @C79_snr_of_pure_signal,
   @C79_snr_scale_invariant,
   @C79_snr_nan,
   @C79_example,
   @C80_inner_product,
   @C80_normalised,
   @C80_self,
   @C80_bins,
   @C80_cut_offs_refuted,
   @C80_psd_from_freq_series).
Print Assumptions GwInner_Props_all.
