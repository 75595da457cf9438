(** Lemmas on the noise-weighted inner product *)
From Coq Require Import Reals List ZArith Bool Lra Lia.
From Coquelicot Require Import Complex.
From Verif Require Import PyReal Series_Model GwInner_Model.
Import ListNotations.
Open Scope R_scope.

Definition psd_pos (s : ext) : Prop := match s with Fin x => 0 < x | Inf => True end.
(** reference: sum of conj(a) b / S, by recursion *)
Fixpoint ip (a b : list C) (S : list ext) : C :=
  match a, b, S with
  | x :: a', y :: b', s :: S' => (cdivr (Cconj x * y) s + ip a' b' S')%C
  | _, _, _ => RtoC 0
  end.
(** sum of |a|^2 / S *)
Fixpoint n2 (a : list C) (S : list ext) : R :=
  match a, S with
  | x :: a', Fin s :: S' => (fst x ^ 2 + snd x ^ 2) / s + n2 a' S'
  | _ :: a', Inf :: S' => n2 a' S'
  | _, _ => 0
  end.
Lemma nwip_ip a b S T : length a = length b -> length b = length S -> nwip a b S T = Some (RtoC (4 / T) * ip a b S)%C.
Proof.
  intros Ha Hb. unfold nwip, integrand. rewrite Ha, Hb, !Nat.eqb_refl. cbn [andb]. repeat f_equal.
  revert b S Ha Hb. induction a as [|x a IH]; intros [|y b] [|s S] Ha Hb; cbn in *; try lia; [reflexivity|]. f_equal. apply IH; lia.
Qed.
Lemma nwip_none a b S T : nwip a b S T = None <-> ~ (length a = length b /\ length b = length S).
Proof.
  unfold nwip, integrand. destruct (Nat.eqb_spec (length a) (length b)), (Nat.eqb_spec (length b) (length S)); cbn; split; intros H; try easy; try lia. all: exfalso; apply H; auto.
Qed.
Lemma cdivr_conj x y s : cdivr (Cconj y * x)%C s = Cconj (cdivr (Cconj x * y)%C s).
Proof. destruct s; cbn; unfold Cconj, Cmult, RtoC; cbn; f_equal; unfold Rdiv; ring. Qed.
Lemma Cconj_plus a b : Cconj (a + b)%C = (Cconj a + Cconj b)%C.
Proof. unfold Cconj, Cplus; cbn; f_equal; ring. Qed.
Lemma Cconj_scal r a : Cconj (RtoC r * a)%C = (RtoC r * Cconj a)%C.
Proof. unfold Cconj, Cmult, RtoC; cbn; f_equal; ring. Qed.
Lemma ip_conj a b S : ip b a S = Cconj (ip a b S).
Proof.
  revert b S. induction a as [|x a IH]; intros [|y b] [|s S]; cbn [ip]; try (unfold Cconj, RtoC; cbn; f_equal; ring).
  rewrite IH, cdivr_conj, Cconj_plus. reflexivity.
Qed.
(** elementwise combination of two arrays *)
Definition lin (c d : C) (x y : list C) : list C := map (fun p => (c * fst p + d * snd p)%C) (combine x y).
Definition scalv (c : C) (x : list C) : list C := map (fun z => (c * z)%C) x.
Lemma lin_length c d x y : length x = length y -> length (lin c d x y) = length x.
Proof. intros H. unfold lin. rewrite map_length, combine_length, <- H. lia. Qed.
Lemma ip_lin a x y S c d : length x = length a -> length y = length a ->
  ip a (lin c d x y) S = (c * ip a x S + d * ip a y S)%C.
Proof.
  revert x y S. induction a as [|u a IH]; intros [|v x] [|w y] [|s S] Hx Hy; cbn in Hx, Hy; try lia; cbn [lin map combine ip fst snd]; try ring.
  fold (lin c d x y). rewrite IH by lia. destruct s; cbn [cdivr].
  - unfold Cplus, Cmult, Cconj; cbn; f_equal; unfold Rdiv; ring.
  - ring.
Qed.
Lemma ip_scal_r a b S c : ip a (scalv c b) S = (c * ip a b S)%C.
Proof.
  revert b S. induction a as [|u a IH]; intros [|v b] [|s S]; cbn [scalv map ip]; try ring. fold (scalv c b). rewrite IH. destruct s; cbn [cdivr]; [|ring].
  unfold Cplus, Cmult, Cconj; cbn; f_equal; unfold Rdiv; ring.
Qed.
Lemma Cconj_mult a b : Cconj (a * b)%C = (Cconj a * Cconj b)%C.
Proof. unfold Cconj, Cmult; cbn; f_equal; ring. Qed.
Lemma Cconj_conj a : Cconj (Cconj a) = a.
Proof. destruct a. unfold Cconj; cbn. f_equal. ring. Qed.
Lemma ip_scal_l a b S c : ip (scalv c a) b S = (Cconj c * ip a b S)%C.
Proof. rewrite ip_conj, ip_scal_r, Cconj_mult, <- ip_conj. reflexivity. Qed.
Lemma ip_self a S : length a = length S -> ip a a S = RtoC (n2 a S).
Proof.
  revert S. induction a as [|x a IH]; intros [|s S] H; cbn in H; try lia; cbn [ip n2]; [reflexivity|]. rewrite IH by lia.
  destruct s; cbn [cdivr]; unfold Cplus, Cmult, Cconj, RtoC; cbn; f_equal; unfold Rdiv; ring.
Qed.
Lemma n2_nonneg a S : Forall psd_pos S -> 0 <= n2 a S.
Proof.
  intros H. revert a. induction H as [|s S Hs H IH]; intros [|x a]; cbn [n2]; try lra. destruct s as [s|]; [|apply IH]. cbn in Hs.
  assert (0 <= (fst x ^ 2 + snd x ^ 2) / s).
  { apply Rmult_le_pos; [pose proof (pow2_ge_0 (fst x)); pose proof (pow2_ge_0 (snd x)); lra|left; now apply Rinv_0_lt_compat]. } specialize (IH a). lra.
Qed.
Lemma n2_zero a S : length a = length S -> Forall psd_pos S ->
  (n2 a S = 0 <-> Forall (fun p => match snd p with Fin _ => fst p = RtoC 0 | Inf => True end) (combine a S)).
Proof.
  intros Hl H. revert a Hl. induction H as [|s S Hs H IH]; intros [|x a] Hl; cbn in Hl; try lia; cbn [n2 combine]; [split; auto|].
  destruct s as [s|]; cbn in Hs.
  - assert (E : 0 <= (fst x ^ 2 + snd x ^ 2) / s).
    { apply Rmult_le_pos; [pose proof (pow2_ge_0 (fst x)); pose proof (pow2_ge_0 (snd x)); lra|left; now apply Rinv_0_lt_compat]. }
    pose proof (n2_nonneg a S H) as G. split.
    + intros K. constructor; [|apply IH; [lia|lra]]. cbn. assert (K2 : (fst x ^ 2 + snd x ^ 2) / s = 0) by lra.
      assert (K3 : fst x ^ 2 + snd x ^ 2 = 0). { replace (fst x ^ 2 + snd x ^ 2) with (((fst x ^ 2 + snd x ^ 2) / s) * s) by (field; lra). rewrite K2. ring. }
      destruct x as [u v]. cbn in K3. assert (u = 0 /\ v = 0) as [-> ->]; [|reflexivity]. split; nra.
    + intros K. inversion K as [|? ? K1 K2]; subst. cbn in K1. subst x. apply IH in K2; [|lia]. rewrite K2. cbn. field. lra.
  - split; intros K; [constructor; [exact I|apply IH; [lia|exact K]]|]. inversion K; subst. apply IH; [lia|assumption].
Qed.
Lemma sqrt_cs A B a b : 0 <= A -> 0 <= B -> 0 <= a -> 0 <= b -> sqrt A * sqrt B + sqrt a * sqrt b <= sqrt (A + a) * sqrt (B + b).
Proof.
  intros. rewrite <- (sqrt_mult (A + a)) by lra. apply Rsqr_incr_0_var; [|apply sqrt_pos].
  rewrite Rsqr_sqrt by (apply Rmult_le_pos; lra). unfold Rsqr.
  pose proof (sqrt_sqrt A H) as EA. pose proof (sqrt_sqrt B H0) as EB. pose proof (sqrt_sqrt a H1) as Ea. pose proof (sqrt_sqrt b H2) as Eb.
  set (p := sqrt A) in *. set (q := sqrt B) in *. set (r := sqrt a) in *. set (t := sqrt b) in *. rewrite <- EA, <- EB, <- Ea, <- Eb.
  pose proof (pow2_ge_0 (p * t - q * r)). nra.
Qed.
Lemma Cmod_cdivr x y s : 0 < s -> Cmod (cdivr (Cconj x * y)%C (Fin s)) = sqrt ((fst x ^ 2 + snd x ^ 2) / s) * sqrt ((fst y ^ 2 + snd y ^ 2) / s).
Proof.
  intros Hs. assert (Hx : 0 <= (fst x ^ 2 + snd x ^ 2) / s) by (apply Rmult_le_pos; [nra|left; now apply Rinv_0_lt_compat]).
  assert (Hy : 0 <= (fst y ^ 2 + snd y ^ 2) / s) by (apply Rmult_le_pos; [nra|left; now apply Rinv_0_lt_compat]).
  rewrite <- sqrt_mult by assumption. unfold Cmod. f_equal. cbn [cdivr fst snd Cmult Cconj]. field. lra.
Qed.
Lemma ip_cs a b S : length a = length S -> length b = length S -> Forall psd_pos S ->
  Cmod (ip a b S) <= sqrt (n2 a S) * sqrt (n2 b S).
Proof.
  intros Ha Hb H. revert a b Ha Hb. induction H as [|s S Hs H IH]; intros [|x a] [|y b] Ha Hb; cbn in Ha, Hb; try lia; cbn [ip n2].
  { rewrite Cmod_0, sqrt_0. lra. }
  specialize (IH a b ltac:(lia) ltac:(lia)). destruct s as [s|].
  - cbn in Hs. eapply Rle_trans; [apply Cmod_triangle|]. rewrite Cmod_cdivr by exact Hs.
    eapply Rle_trans; [apply Rplus_le_compat_l, IH|]. apply sqrt_cs; try (now apply n2_nonneg); apply Rmult_le_pos; try nra; left; now apply Rinv_0_lt_compat.
  - cbn [cdivr]. rewrite Cplus_0_l. exact IH.
Qed.
Lemma csqrt_pos v : 0 <= v -> csqrt (RtoC v) = RtoC (sqrt v).
Proof.
  intros H. unfold csqrt. rewrite Cmod_R, Rabs_pos_eq by exact H. cbn [fst snd RtoC]. unfold RtoC. f_equal.
  - f_equal. field.
  - replace ((v - v) / 2) with 0 by field. rewrite sqrt_0. ring.
Qed.
Lemma nwip_self a S T : length a = length S -> nwip a a S T = Some (RtoC (4 / T * n2 a S)).
Proof. intros H. rewrite nwip_ip by auto. rewrite ip_self by exact H. now rewrite RtoC_mult. Qed.
Lemma RtoC_neq v : v <> 0 -> RtoC v <> RtoC 0.
Proof. intros H E. apply H. now apply RtoC_inj. Qed.
Lemma snr_ok s d S T : length s = length S -> length d = length S -> Forall psd_pos S -> 0 < T ->
  matched_filter_snr s d S T = if Req_EM_T (n2 s S) 0 then CNan else Ok (RtoC (4 / T) * ip s d S / RtoC (sqrt (4 / T * n2 s S)))%C.
Proof.
  intros Hs Hd HS HT. unfold matched_filter_snr, optimal_snr_squared. rewrite (nwip_self s) by exact Hs. rewrite nwip_ip by congruence.
  assert (H4 : 0 < 4 / T) by (apply Rdiv_lt_0_compat; lra). pose proof (n2_nonneg s S HS) as Hn.
  destruct (Ceq_dec _ _) as [E|E], (Req_EM_T (n2 s S) 0) as [F|F]; try reflexivity.
  - exfalso. apply RtoC_inj in E. apply F. apply Rmult_integral in E. destruct E; lra.
  - exfalso. apply E. rewrite F. now rewrite Rmult_0_r.
  - rewrite csqrt_pos; [reflexivity|]. apply Rmult_le_pos; lra.
Qed.
