(** Lemmas on the gravitational-wave likelihood *)
From Coq Require Import String Reals List Bool Lra Lia FunctionalExtensionality.
From Coquelicot Require Import Hierarchy RInt RInt_analysis Derive Continuity Complex.
From Verif Require Import PyReal GwInner_Model GwInner_Proofs GwLik_Model.
Import ListNotations.
Open Scope R_scope.
Open Scope list_scope.

Ltac cring := apply injective_projections; cbn; ring.
Ltac cfield := apply injective_projections; cbn; field.

Lemma Sg_ext n f g : (forall j, (j < n)%nat -> f j = g j) -> Sg n f = Sg n g.
Proof. induction n as [|n IH]; intros H; cbn; [reflexivity|]. rewrite IH, H by (intros; try apply H; lia). reflexivity. Qed.
Lemma Sr_ext n f g : (forall j, (j < n)%nat -> f j = g j) -> Sr n f = Sr n g.
Proof. induction n as [|n IH]; intros H; cbn; [reflexivity|]. rewrite IH, H by (intros; try apply H; lia). reflexivity. Qed.
Lemma Sg_scal n c f : (c * Sg n f)%C = Sg n (fun j => (c * f j)%C).
Proof. induction n as [|n IH]; cbn [Sg]; [cring|]. rewrite <- IH. cring. Qed.
Lemma Sr_scal n c f : c * Sr n f = Sr n (fun j => c * f j).
Proof. induction n as [|n IH]; cbn; [ring|]. rewrite <- IH. ring. Qed.
Lemma Sr_plus n f g : Sr n f + Sr n g = Sr n (fun j => f j + g j).
Proof. induction n as [|n IH]; cbn; [ring|]. rewrite <- IH. ring. Qed.
Lemma Sg_conj n f : Cconj (Sg n f) = Sg n (fun j => Cconj (f j)).
Proof. induction n as [|n IH]; cbn [Sg]; [cring|]. rewrite <- IH. cring. Qed.
Lemma Sg_fst n f : fst (Sg n f) = Sr n (fun j => fst (f j)).
Proof. induction n as [|n IH]; cbn; [reflexivity|]. rewrite <- IH. reflexivity. Qed.
Lemma Sg_snd n f : snd (Sg n f) = Sr n (fun j => snd (f j)).
Proof. induction n as [|n IH]; cbn; [reflexivity|]. rewrite <- IH. reflexivity. Qed.
Lemma Sr_0 n f : (forall j, (j < n)%nat -> f j = 0) -> Sr n f = 0.
Proof. induction n as [|n IH]; intros H; cbn; [reflexivity|]. rewrite IH, H by (intros; try apply H; lia). ring. Qed.
Lemma Sr_nonneg n f : (forall j, (j < n)%nat -> 0 <= f j) -> 0 <= Sr n f.
Proof. induction n as [|n IH]; intros H; cbn; [lra|]. assert (0 <= f n) by (apply H; lia). assert (0 <= Sr n f) by (apply IH; intros; apply H; lia). lra. Qed.
Lemma Sr_nonneg_0 n f : (forall j, (j < n)%nat -> 0 <= f j) -> Sr n f = 0 -> forall j, (j < n)%nat -> f j = 0.
Proof.
  induction n as [|n IH]; intros H E j Hj; cbn in E; [lia|]. assert (A : 0 <= f n) by (apply H; lia).
  assert (B : 0 <= Sr n f) by (apply Sr_nonneg; intros; apply H; lia).
  destruct (Nat.eq_dec j n) as [->|N]; [lra|]. apply IH; [intros; apply H; lia|lra|lia].
Qed.
Lemma fst_csum l : fst (csum l) = rsum (map fst l).
Proof. induction l; cbn; [reflexivity|]. f_equal. exact IHl. Qed.
Lemma snd_csum l : snd (csum l) = rsum (map snd l).
Proof. induction l; cbn; [reflexivity|]. f_equal. exact IHl. Qed.
Lemma csum_conj l : Cconj (csum l) = csum (map Cconj l).
Proof. induction l; cbn [csum fold_right map]; [cring|]. fold (csum l). rewrite Cconj_plus. f_equal. exact IHl. Qed.
Lemma csum_scal c l : (c * csum l)%C = csum (map (Cmult c) l).
Proof. induction l; cbn [csum fold_right map]; [cring|]. fold (csum l). rewrite Cmult_plus_distr_l. f_equal. exact IHl. Qed.
Lemma rsum_cons x l : rsum (x :: l) = x + rsum l.
Proof. reflexivity. Qed.
Lemma rsum_app a b : rsum (a ++ b) = rsum a + rsum b.
Proof. induction a as [|x a IH]; cbn [app]; [cbn; ring|]. rewrite !rsum_cons, IH. ring. Qed.
Lemma rsum_scal {A} c (f : A -> R) l : rsum (map (fun x => c * f x) l) = c * rsum (map f l).
Proof. induction l as [|x l IH]; cbn [map]; [cbn; ring|]. rewrite !rsum_cons, IH. ring. Qed.
Lemma rsum_plus {A} (f g : A -> R) l : rsum (map (fun x => f x + g x) l) = rsum (map f l) + rsum (map g l).
Proof. induction l as [|x l IH]; cbn [map]; [cbn; ring|]. rewrite !rsum_cons, IH. ring. Qed.
Lemma rsum_nonneg l : Forall (Rle 0) l -> 0 <= rsum l.
Proof. induction 1; [cbn; lra|]. rewrite rsum_cons. lra. Qed.

Lemma cis_add a b : (cis a * cis b)%C = cis (a + b).
Proof. unfold cis, Cmult; cbn. rewrite cos_plus, sin_plus. f_equal; ring. Qed.
Lemma cis_conj a : Cconj (cis a) = cis (- a).
Proof. unfold cis, Cconj; cbn. rewrite cos_neg, sin_neg. reflexivity. Qed.
Lemma cis_norm a : cnorm2 (cis a) = 1.
Proof. unfold cnorm2, cis; cbn. pose proof (sin2_cos2 a) as H. unfold Rsqr in H. lra. Qed.
Lemma cis_0 : cis 0 = RtoC 1.
Proof. unfold cis. rewrite cos_0, sin_0. reflexivity. Qed.
Lemma Cmod_cis a : Cmod (cis a) = 1.
Proof. unfold Cmod. change (fst (cis a) ^ 2 + snd (cis a) ^ 2) with (cnorm2 (cis a)). rewrite cis_norm. apply sqrt_1. Qed.
Lemma Cmod_conj z : Cmod (Cconj z) = Cmod z.
Proof. unfold Cmod, Cconj; cbn. f_equal. ring. Qed.

Definition psd_ok (d : det) : Prop := forall j, psd_pos (psd d j).
(** the response is zero outside the mask, as [response] is *)
Definition banded (p : det * (nat -> C)) : Prop := forall j, msk (fst p) j = false -> snd p j = RtoC 0.
Lemma response_banded T modes dt cal d : banded (d, response T modes dt cal (msk d)).
Proof. intros j H. cbn in *. unfold response. rewrite H. reflexivity. Qed.

Lemma cdivr_scal_r z s c : (cdivr z s * c)%C = cdivr (z * c)%C s.
Proof. destruct s; [cring || (apply injective_projections; cbn; unfold Rdiv; ring)|cring]. Qed.
Lemma cdivr_0 s : cdivr (RtoC 0) s = RtoC 0.
Proof. destruct s; apply injective_projections; cbn; unfold Rdiv; ring. Qed.
Lemma cdivr_fst z s : fst (cdivr z s) = rdivr (fst z) s.
Proof. destruct s; reflexivity. Qed.
Lemma rdivr_nonneg x s : psd_pos s -> 0 <= x -> 0 <= rdivr x s.
Proof. destruct s as [v|]; cbn; intros H X; [|lra]. apply Rmult_le_pos; [exact X|]. left. apply Rinv_0_lt_compat. exact H. Qed.
Lemma cnorm2_nonneg z : 0 <= cnorm2 z.
Proof. unfold cnorm2. nra. Qed.
Lemma cnorm2_mult a b : cnorm2 (a * b)%C = cnorm2 a * cnorm2 b.
Proof. unfold cnorm2; cbn. ring. Qed.
Lemma cnorm2_0 z : cnorm2 z = 0 -> z = RtoC 0.
Proof. unfold cnorm2. intros H. apply injective_projections; cbn; nra. Qed.
Lemma rdivr_scal x s c : rdivr x s * c = rdivr (x * c) s.
Proof. destruct s; cbn; [unfold Rdiv|]; ring. Qed.

(** real parts of the inner products *)
Lemma inner_fst n T d a b : fst (inner n T d a b) = 4 / T * Sr n (fun j => if msk d j then rdivr (fst (Cconj (a j) * b j)%C) (psd d j) else 0).
Proof.
  unfold inner. rewrite Sg_scal, Sg_fst, Sr_scal. apply Sr_ext. intros j _. destruct (msk d j).
  - rewrite <- cdivr_fst. cbn. ring.
  - cbn. ring.
Qed.
Lemma inner_self n T d a : inner n T d a a = RtoC (4 / T * Sr n (fun j => if msk d j then rdivr (cnorm2 (a j)) (psd d j) else 0)).
Proof.
  apply injective_projections.
  - rewrite inner_fst. cbn. f_equal. apply Sr_ext. intros j _. destruct (msk d j); [|reflexivity]. f_equal. unfold cnorm2. cbn. ring.
  - unfold inner. rewrite Sg_scal, Sg_snd. cbn. apply Sr_0. intros j _. destruct (msk d j); [|cbn; ring].
    destruct (psd d j); cbn; unfold Rdiv; ring.
Qed.
Lemma inner_swap n T d a b : inner n T d b a = Cconj (inner n T d a b).
Proof.
  unfold inner. rewrite Cconj_scal, Sg_conj. f_equal. apply Sg_ext. intros j _. destruct (msk d j); [|cring]. apply cdivr_conj.
Qed.

(** ** the plain likelihood *)
(** independent reference: squared residual weighted with the power spectral density *)
Definition chi2 (n : nat) (T : R) (d : det) (h : nat -> C) : R :=
  4 / T * Sr n (fun j => if msk d j then rdivr ((fst (dat d j) - fst (h j)) ^ 2 + (snd (dat d j) - snd (h j)) ^ 2) (psd d j) else 0).
Lemma calc_noise_sum n T ds : calc_noise n T ds = - rsum (map (fun d => fst (inner n T d (dat d) (dat d))) ds) / 2.
Proof.
  unfold calc_noise. assert (G : forall ds z, fst (fold_left (fun l d => (l - inner n T d (dat d) (dat d) / RtoC 2)%C) ds z) = fst z - rsum (map (fun d => fst (inner n T d (dat d) (dat d))) ds) / 2).
  { clear ds. induction ds as [|d ds IH]; intros z; cbn [fold_left map]; [cbn; unfold Rdiv; ring|]. rewrite IH, rsum_cons, inner_self. generalize (4 / T * Sr n (fun j => if msk d j then rdivr (cnorm2 (dat d j)) (psd d j) else 0)). intros v. cbn. field. }
  rewrite G. cbn [fst RtoC]. unfold Rdiv. ring.
Qed.
Lemma gauss_one n T d h : T <> 0 ->
  fst (inner n T d h (dat d)) - fst (inner n T d h h) / 2 - fst (inner n T d (dat d) (dat d)) / 2 = - (chi2 n T d h / 2).
Proof.
  intros HT. rewrite !inner_fst. unfold chi2.
  assert (G : forall n, Sr n (fun j => if msk d j then rdivr (fst (Cconj (h j) * dat d j)%C) (psd d j) else 0)
    - Sr n (fun j => if msk d j then rdivr (fst (Cconj (h j) * h j)%C) (psd d j) else 0) / 2
    - Sr n (fun j => if msk d j then rdivr (fst (Cconj (dat d j) * dat d j)%C) (psd d j) else 0) / 2
    = - (Sr n (fun j => if msk d j then rdivr ((fst (dat d j) - fst (h j)) ^ 2 + (snd (dat d j) - snd (h j)) ^ 2) (psd d j) else 0) / 2)).
  { clear n. induction n as [|n IH]; cbn [Sr]; [lra|].
    assert (E : (if msk d n then rdivr (fst (Cconj (h n) * dat d n)%C) (psd d n) else 0) -
      (if msk d n then rdivr (fst (Cconj (h n) * h n)%C) (psd d n) else 0) / 2 - (if msk d n then rdivr (fst (Cconj (dat d n) * dat d n)%C) (psd d n) else 0) / 2
      = - ((if msk d n then rdivr ((fst (dat d n) - fst (h n)) ^ 2 + (snd (dat d n) - snd (h n)) ^ 2) (psd d n) else 0) / 2)).
    { destruct (msk d n); [|lra]. destruct (psd d n) as [v|]; cbn; [|lra]. unfold Rdiv. generalize (/ v). intros w. field. }
    lra. }
  specialize (G n). rewrite Rmult_assoc || idtac. unfold Rdiv in *. nra.
Qed.

(** ** templates moved in time, rotated, scaled *)
Definition mapnet (f : (nat -> C) -> nat -> C) (N : net) : net := map (fun p => (fst p, f (snd p))) N.
Definition shifted (T tau : R) (h : nat -> C) (j : nat) : C := (h j * cis (- (2 * PI * tau * freq T j)))%C.
Definition times_c (c : C) (h : nat -> C) (j : nat) : C := (c * h j)%C.
Lemma inner_times_c n T d c a b : inner n T d (times_c c a) b = (Cconj c * inner n T d a b)%C.
Proof.
  unfold inner. rewrite (Cmult_comm (Cconj c)), <- Cmult_assoc, (Cmult_comm _ (Cconj c)), (Sg_scal _ (Cconj c)). f_equal. apply Sg_ext. intros j _.
  destruct (msk d j); [|cring]. unfold times_c. rewrite (Cmult_comm (Cconj c)), cdivr_scal_r. f_equal. cring.
Qed.
Lemma d_inner_h_times_c n T N c : d_inner_h n T (mapnet (times_c c) N) = (Cconj c * d_inner_h n T N)%C.
Proof. unfold d_inner_h, mapnet. rewrite csum_scal, !map_map. f_equal. apply map_ext. intros p. cbn [fst snd]. apply inner_times_c. Qed.
Lemma opt_times_c n T N c : opt_snr_sq n T (mapnet (times_c c) N) = cnorm2 c * opt_snr_sq n T N.
Proof.
  unfold opt_snr_sq, mapnet. rewrite <- rsum_scal, map_map. f_equal. apply map_ext. intros p. cbn [fst snd].
  rewrite !inner_self. cbn [fst RtoC]. rewrite (Rmult_comm (cnorm2 c)), Rmult_assoc. f_equal. rewrite (Rmult_comm _ (cnorm2 c)), (Sr_scal _ (cnorm2 c)). apply Sr_ext. intros j _.
  destruct (msk (fst p) j); [|ring]. unfold times_c. rewrite cnorm2_mult, (Rmult_comm (cnorm2 c)), <- rdivr_scal. ring.
Qed.
Lemma opt_shifted n T N tau : opt_snr_sq n T (mapnet (shifted T tau) N) = opt_snr_sq n T N.
Proof.
  unfold opt_snr_sq, mapnet. rewrite map_map. f_equal. apply map_ext. intros p. cbn [fst snd].
  rewrite !inner_self. cbn [fst RtoC]. f_equal. apply Sr_ext. intros j _.
  destruct (msk (fst p) j); [|reflexivity]. unfold shifted. rewrite cnorm2_mult, cis_norm, Rmult_1_r. reflexivity.
Qed.
Lemma response_shifted T modes dt cal m tau j : response T modes (dt + tau) cal m j = shifted T tau (response T modes dt cal m) j.
Proof.
  unfold shifted, response. destruct (m j); [|cring].
  replace (- (2 * PI * (dt + tau) * freq T j)) with (- (2 * PI * dt * freq T j) + - (2 * PI * tau * freq T j)) by ring.
  rewrite <- cis_add. ring.
Qed.
(** the last bin carries neither data nor signal *)
Definition quiet_end (n : nat) (p : det * (nat -> C)) : Prop := msk (fst p) (n - 1) = false \/ dat (fst p) (n - 1) = RtoC 0.
Lemma tc_shifted n T N k : (2 <= n)%nat -> T <> 0 -> Forall banded N -> Forall (quiet_end n) N ->
  d_inner_h_tc n T N k = Cconj (d_inner_h n T (mapnet (shifted T (INR k * delta_tc n T)) N)).
Proof.
  intros Hn HT HB HQ. unfold d_inner_h_tc, d_inner_h, mapnet. rewrite csum_conj, !map_map. f_equal. apply map_ext_in. intros p Hp. cbn [fst snd].
  rewrite Forall_forall in HB, HQ. specialize (HB p Hp). specialize (HQ p Hp).
  unfold inner. rewrite Cconj_scal. f_equal. rewrite Sg_conj.
  destruct n as [|n]; [lia|]. replace (S n - 1)%nat with n in * by lia. cbn [Sg].
  assert (E : Cconj (if msk (fst p) n then cdivr (Cconj (shifted T (INR k * delta_tc (S n) T) (snd p) n) * dat (fst p) n)%C (psd (fst p) n) else RtoC 0) = RtoC 0).
  { unfold quiet_end in HQ. replace (S n - 1)%nat with n in HQ by lia. destruct HQ as [-> | ->]; [cring|]. destruct (msk (fst p) n); [|cring].
    replace (Cconj (shifted T (INR k * delta_tc (S n) T) (snd p) n) * RtoC 0)%C with (RtoC 0) by ring. rewrite cdivr_0. cring. }
  rewrite E. rewrite Cplus_0_r. apply Sg_ext. intros j Hj. rewrite cdivr_scal_r.
  assert (F : - (2 * PI * INR j * INR k / INR n) = - (2 * PI * (INR k * delta_tc (S n) T) * freq T j)).
  { unfold delta_tc, freq. replace (S n - 1)%nat with n by lia. field. split; [exact HT|]. apply not_0_INR. lia. }
  rewrite F. destruct (msk (fst p) j) eqn:M.
  - rewrite <- cdivr_conj. f_equal. unfold shifted. ring.
  - rewrite (HB j M). replace (RtoC 0 * Cconj (dat (fst p) j) * cis (- (2 * PI * (INR k * delta_tc (S n) T) * freq T j)))%C with (RtoC 0) by ring.
    rewrite cdivr_0. cring.
Qed.
Lemma rec_shifted n T N M k : (0 < M)%nat -> T <> 0 -> Forall banded N ->
  rec_fft n N M k = (RtoC (T / 4) * Cconj (d_inner_h n T (mapnet (shifted T (INR k * (T / INR M))) N)))%C.
Proof.
  intros HM HT HB. unfold rec_fft, d_inner_h, mapnet. rewrite csum_conj, csum_scal, !map_map. f_equal. apply map_ext_in. intros p Hp. cbn [fst snd].
  rewrite Forall_forall in HB. specialize (HB p Hp).
  unfold inner. rewrite Cconj_scal, Sg_conj. rewrite Cmult_assoc. replace (RtoC (T / 4) * RtoC (4 / T))%C with (RtoC 1).
  2: { rewrite <- RtoC_mult. f_equal. field. exact HT. }
  rewrite Cmult_1_l. apply Sg_ext. intros j Hj. rewrite cdivr_scal_r.
  assert (F : - (2 * PI * INR j * INR k / INR M) = - (2 * PI * (INR k * (T / INR M)) * freq T j)).
  { unfold freq. field. split; [exact HT|]. apply not_0_INR. lia. }
  rewrite F. destruct (msk (fst p) j) eqn:E.
  - rewrite <- cdivr_conj. f_equal. unfold shifted. ring.
  - rewrite (HB j E). replace (RtoC 0 * Cconj (dat (fst p) j) * cis (- (2 * PI * (INR k * (T / INR M)) * freq T j)))%C with (RtoC 0) by ring.
    rewrite cdivr_0. cring.
Qed.
Lemma Cconj_R r : Cconj (RtoC r) = RtoC r.
Proof. cring. Qed.
Lemma base_ll_conj c margd d0 ref d h : base_ll c margd d0 ref (Cconj d) h = base_ll c margd d0 ref d h.
Proof.
  unfold base_ll. assert (E : (Cconj d * RtoC d0 / RtoC ref)%C = Cconj (d * RtoC d0 / RtoC ref)%C).
  { apply injective_projections; cbn; unfold Rdiv; ring. }
  rewrite E, !Cmod_conj. reflexivity.
Qed.

(** ** logsumexp *)
Definition lik (v : lres) : R := match v with Val x => exp x | _ => 0 end.
Lemma expo_nonneg v : 0 <= expo v.
Proof. destruct v; cbn; [left; apply exp_pos|lra]. Qed.
Lemma lse_lik l : Forall (fun t => 0 <= snd t) l -> lik (lse l) = rsum (map (fun t => snd t * expo (fst t)) l).
Proof.
  intros H. destruct l as [|t l]; [reflexivity|]. unfold lse.
  assert (P : 0 <= rsum (map (fun t => snd t * expo (fst t)) (t :: l))).
  { apply rsum_nonneg. apply Forall_forall. intros x Hx. apply in_map_iff in Hx. destruct Hx as [y [<- Hy]].
    rewrite Forall_forall in H. apply Rmult_le_pos; [apply H; exact Hy|apply expo_nonneg]. }
  cbv zeta. destruct (Rle_dec _ 0) as [L|L]; cbn [lik]; [lra|]. apply exp_ln. lra.
Qed.
Lemma lse_raise l : lse l = Raise <-> l = [].
Proof. destruct l; cbn; [easy|]. destruct (Rle_dec _ 0); split; discriminate. Qed.
Definition of_entry (v : option R) : lres := match v with Some x => Val x | None => NegInf end.
Lemma lik_of_entry v : lik (of_entry v) = expo v.
Proof. destruct v; reflexivity. Qed.
Lemma lik_nonneg v : 0 <= lik v.
Proof. destruct v; cbn; try lra. left. apply exp_pos. Qed.
Lemma rsum_filter {A} (P : A -> bool) (f : A -> R) l : (forall x, In x l -> P x = false -> f x = 0) -> rsum (map f (filter P l)) = rsum (map f l).
Proof.
  induction l as [|x l IH]; intros H; [reflexivity|]. cbn [filter map]. rewrite rsum_cons.
  assert (IH' : rsum (map f (filter P l)) = rsum (map f l)) by (apply IH; intros; apply H; [right|]; assumption).
  destruct (P x) eqn:E; cbn [map]; rewrite ?rsum_cons, IH'; [reflexivity|]. rewrite (H x (or_introl eq_refl) E). ring.
Qed.

(** [inner] is [noise_weighted_inner_product] (C79) of the masked arrays *)
Lemma inner_nwip n T d a b : let J := filter (msk d) (seq 0 n) in nwip (map a J) (map b J) (map (psd d) J) T = Some (inner n T d a b).
Proof.
  cbv zeta. rewrite nwip_ip by (rewrite !map_length; reflexivity). unfold inner. do 2 f_equal.
  assert (G : forall J, ip (map a J) (map b J) (map (psd d) J) = csum (map (fun j => cdivr (Cconj (a j) * b j)%C (psd d j)) J)).
  { induction J as [|j J IH]; [reflexivity|]. cbn [map ip]. rewrite IH. reflexivity. }
  assert (A : forall l1 l2, csum (l1 ++ l2) = (csum l1 + csum l2)%C).
  { induction l1 as [|x l1 IH]; intros l2; [change (csum l2 = (RtoC 0 + csum l2)%C); rewrite Cplus_0_l; reflexivity|]. change (csum ((x :: l1) ++ l2)) with (x + csum (l1 ++ l2))%C. change (csum (x :: l1)) with (x + csum l1)%C. rewrite IH. ring. }
  rewrite G. clear G. induction n as [|n IH]; [reflexivity|]. rewrite seq_S, filter_app, map_app, A, IH. cbn [Sg]. f_equal.
  change (0 + n)%nat with n. cbn [filter]. destruct (msk d n); cbn [map]; [|reflexivity]. unfold csum. cbn [fold_right]. rewrite Cplus_0_r. reflexivity.
Qed.
