(** Properties of the gravitational-wave likelihood: plain value, time marginalisation and reconstruction *)
From Coq Require Import String Reals List Bool Lra Lia ZArith.
From Coquelicot Require Import Complex.
From Verif Require Import PyReal GwInner_Model GwInner_Proofs GwLik_Model GwLik_Proofs.
Import ListNotations.
Open Scope R_scope.
Open Scope list_scope.

Definition plain : cfg := mkCfg false false false false.
Definition no_table : R -> R -> option R := fun _ _ => None.
(** the value without any marginalisation *)
Definition plain_ll (n : nat) (T : R) (N : net) : lres := ll_ratio n T plain no_table 1 1 (mkTP 0 0 (fun _ => 0)) 0 0 N.

Lemma sq_sum_0 a b : a ^ 2 + b ^ 2 = 0 -> a = 0 /\ b = 0.
Proof. intros H. split; apply Rsqr_0_uniq; unfold Rsqr; pose proof (pow2_ge_0 a); pose proof (pow2_ge_0 b); nra. Qed.
(** ** C88 the Gaussian likelihood *)
(** log_likelihood = -1/2 of the sum over detectors of the noise-weighted squared residual *)
Theorem C88_gaussian n T N : T <> 0 ->
  exists x, plain_ll n T N = Val x /\ x + calc_noise n T (map fst N) = - rsum (map (fun p => chi2 n T (fst p) (snd p)) N) / 2.
Proof.
  intros HT. eexists. split; [reflexivity|]. rewrite calc_noise_sum, map_map. unfold d_inner_h, opt_snr_sq. rewrite fst_csum, map_map.
  induction N as [|p N IH]; cbn [map]; [cbn; lra|]. rewrite !rsum_cons. pose proof (gauss_one n T (fst p) (snd p) HT). lra.
Qed.
(** so it is never positive, and zero exactly when every residual in band (finite density) vanishes *)
Lemma chi2_nonneg n T d h : 0 < T -> psd_ok d -> 0 <= chi2 n T d h.
Proof.
  intros HT HS. unfold chi2. apply Rmult_le_pos; [apply Rlt_le, Rdiv_lt_0_compat; lra|]. apply Sr_nonneg. intros j _.
  destruct (msk d j); [|lra]. apply rdivr_nonneg; [apply HS|apply Rplus_le_le_0_compat; apply pow2_ge_0].
Qed.
Theorem C88_maximum n T N x : 0 < T -> Forall (fun p => psd_ok (fst p)) N -> plain_ll n T N = Val x ->
  let L := x + calc_noise n T (map fst N) in
  L <= 0 /\ (L = 0 <-> forall p j v, In p N -> (j < n)%nat -> msk (fst p) j = true -> psd (fst p) j = Fin v -> snd p j = dat (fst p) j).
Proof.
  intros HT HS E L. destruct (C88_gaussian n T N) as [y [E' G]]; [lra|]. rewrite E in E'. injection E' as <-. fold L in G. rewrite Forall_forall in HS.
  assert (A : 0 <= rsum (map (fun p => chi2 n T (fst p) (snd p)) N)).
  { apply rsum_nonneg. apply Forall_forall. intros z Hz. apply in_map_iff in Hz. destruct Hz as [p [<- Hp]]. apply chi2_nonneg; auto. }
  split; [lra|]. assert (B : L = 0 <-> rsum (map (fun p => chi2 n T (fst p) (snd p)) N) = 0) by (split; lra). rewrite B. clear - HT HS.
  induction N as [|p N IH]; cbn [map].
  - split; [intros _ ? ? ? []|reflexivity].
  - rewrite rsum_cons. assert (HS' : forall x, In x N -> psd_ok (fst x)) by (intros; apply HS; right; assumption). specialize (IH HS').
    assert (C0 : 0 <= chi2 n T (fst p) (snd p)) by (apply chi2_nonneg; auto; apply HS; left; reflexivity).
    assert (C1 : 0 <= rsum (map (fun p => chi2 n T (fst p) (snd p)) N)).
    { apply rsum_nonneg. apply Forall_forall. intros z Hz. apply in_map_iff in Hz. destruct Hz as [q [<- Hq]]. apply chi2_nonneg; auto. }
    assert (K : chi2 n T (fst p) (snd p) = 0 <-> forall j v, (j < n)%nat -> msk (fst p) j = true -> psd (fst p) j = Fin v -> snd p j = dat (fst p) j).
    { assert (P4 : 4 / T <> 0) by (apply Rgt_not_eq, Rdiv_lt_0_compat; lra). unfold chi2. split.
      - intros E j v Hj M V. apply Rmult_integral in E. destruct E as [E|E]; [contradiction|].
        assert (Z : (if msk (fst p) j then rdivr ((fst (dat (fst p) j) - fst (snd p j)) ^ 2 + (snd (dat (fst p) j) - snd (snd p j)) ^ 2) (psd (fst p) j) else 0) = 0).
        { refine (Sr_nonneg_0 n _ _ E j Hj). intros i _. cbv beta. destruct (msk (fst p) i); [|lra].
          apply rdivr_nonneg; [apply (HS p (or_introl eq_refl))|apply Rplus_le_le_0_compat; apply pow2_ge_0]. } rewrite M, V in Z. pose proof (HS p (or_introl eq_refl) j) as Pv. rewrite V in Pv. cbn in Z, Pv.
        assert (W : (fst (dat (fst p) j) - fst (snd p j)) ^ 2 + (snd (dat (fst p) j) - snd (snd p j)) ^ 2 = 0).
        { apply (Rmult_eq_reg_r (/ v)); [|apply Rinv_neq_0_compat; lra]. rewrite Rmult_0_l. cbn. exact Z. }
        apply sq_sum_0 in W. apply injective_projections; lra.
      - intros H. rewrite Sr_0; [ring|]. intros j Hj. destruct (msk (fst p) j) eqn:M; [|reflexivity]. destruct (psd (fst p) j) as [v|] eqn:V; [|reflexivity].
        rewrite (H j v Hj M V). cbn. unfold Rdiv. ring. }
    split.
    + intros E q j v [<- | Hq]; [apply K; lra|]. apply (proj1 IH); [lra|exact Hq].
    + intros H. rewrite (proj2 K), (proj2 IH); [ring| |]; intros; eapply H; eauto; [right|left]; auto.
Qed.
(** detectors are independent: the log likelihood of a network is the sum over its parts *)
Theorem C88_detectors_add n T N1 N2 x y : plain_ll n T N1 = Val x -> plain_ll n T N2 = Val y -> plain_ll n T (N1 ++ N2) = Val (x + y).
Proof.
  unfold plain_ll, ll_ratio, base_ll. cbn [tmarg dmarg pmarg plain]. intros A B. injection A as <-. injection B as <-. f_equal.
  unfold d_inner_h, opt_snr_sq. rewrite !map_app, !fst_csum, !map_app, !rsum_app.
  match goal with |- ?a + ?b - (?c + ?d) / 2 = _ => change (a + b - (c + d) / 2 = a - c / 2 + (b - d / 2)); generalize a b c d end. intros. lra.
Qed.
(** BasicGravitationalWaveTransient agrees: data and response are zero outside the mask *)
Theorem C88_basic_agrees n T N : T <> 0 -> Forall banded N -> Forall (fun p => forall j, msk (fst p) j = false -> dat (fst p) j = RtoC 0) N ->
  basic_noise n T (map fst N) = calc_noise n T (map fst N) /\
  exists x, plain_ll n T N = Val x /\ basic_ll n T N = x + calc_noise n T (map fst N).
Proof.
  intros HT HB HD. rewrite Forall_forall in HB, HD. split.
  - rewrite calc_noise_sum. unfold basic_noise. rewrite map_map.
    assert (G : forall M z, (forall p, In p M -> In p N) -> fold_left (fun l d => l - 2 / T * Sr n (fun j => rdivr (cnorm2 (dat d j)) (psd d j))) (map fst M) z
      = z - rsum (map (fun p => fst (inner n T (fst p) (dat (fst p)) (dat (fst p)))) M) / 2).
    { induction M as [|p M IH]; intros z Hin; cbn [map fold_left]; [cbn; lra|]. rewrite IH by (intros; apply Hin; right; assumption). rewrite rsum_cons, inner_self. cbn [fst RtoC].
      rewrite (Sr_ext n (fun j => rdivr (cnorm2 (dat (fst p) j)) (psd (fst p) j)) (fun j => if msk (fst p) j then rdivr (cnorm2 (dat (fst p) j)) (psd (fst p) j) else 0)).
      - field. exact HT.
      - intros j _. destruct (msk (fst p) j) eqn:M0; [reflexivity|]. rewrite (HD p (Hin p (or_introl eq_refl)) j M0). unfold cnorm2. cbn.
        destruct (psd (fst p) j); cbn; unfold Rdiv; ring. }
    rewrite G by auto. unfold Rdiv. ring.
  - destruct (C88_gaussian n T N HT) as [x [E G]]. exists x. split; [exact E|]. rewrite G. clear E G.
    assert (G : forall M z, (forall p, In p M -> In p N) -> fold_left (fun l p => l + basic_ifo n T (fst p) (snd p)) M z = z - rsum (map (fun p => chi2 n T (fst p) (snd p)) M) / 2).
    { induction M as [|p M IH]; intros z Hin; cbn [map fold_left]; [cbn; lra|]. rewrite IH by (intros; apply Hin; right; assumption). rewrite rsum_cons.
      assert (E : basic_ifo n T (fst p) (snd p) = - chi2 n T (fst p) (snd p) / 2); [|lra].
      unfold basic_ifo, chi2. rewrite Sg_scal, Sg_fst.
      rewrite (Sr_ext n _ (fun j => - (2 / T) * (if msk (fst p) j then rdivr ((fst (dat (fst p) j) - fst (snd p j)) ^ 2 + (snd (dat (fst p) j) - snd (snd p j)) ^ 2) (psd (fst p) j) else 0))).
      - rewrite <- Sr_scal. field. exact HT.
      - intros j _. destruct (msk (fst p) j) eqn:M0.
        + destruct (psd (fst p) j); cbn; unfold Rdiv; ring.
        + rewrite (HD p (Hin p (or_introl eq_refl)) j M0), (HB p (Hin p (or_introl eq_refl)) j M0). destruct (psd (fst p) j); cbn; unfold Rdiv; ring. }
    unfold basic_ll. rewrite G by auto. lra.
Qed.
(** the noise log-likelihood is computed once: after any operations the answers use the data of the first
    call for the noise part and the current data for the ratio *)
Fixpoint lrun (n : nat) (T : R) (s : lst) (l : list lop) : lst := match l with [] => s | o :: r => lrun n T (snd (lstep n T s o)) r end.
Fixpoint data_at_first (ds : list det) (l : list lop) : option (list det) :=
  match l with
  | [] => None
  | SetData d :: r => data_at_first d r
  | GetRatio _ :: r => data_at_first ds r
  | _ :: _ => Some ds
  end.
Definition last_data (ds : list det) (l : list lop) : list det := fold_left (fun d o => match o with SetData d' => d' | _ => d end) l ds.
Theorem C88_noise_cached n T ds l :
  let s := lrun n T (mkLst ds None) l in
  l_dets s = last_data ds l /\
  fst (lstep n T s GetNoise) = Some (calc_noise n T (match data_at_first ds l with Some d => d | None => last_data ds l end)).
Proof.
  assert (G2 : forall l ds v, l_dets (lrun n T (mkLst ds (Some v)) l) = last_data ds l /\ l_noise (lrun n T (mkLst ds (Some v)) l) = Some v).
  { induction l0 as [|o l0 IH]; intros d v; [split; reflexivity|]. destruct o; cbn -[last_data]; apply IH. }
  revert ds. induction l as [|o l IH]; intros ds; [split; reflexivity|]. cbv zeta. destruct o; cbn [lrun lstep snd noise l_noise data_at_first last_data fold_left].
  - apply IH.
  - destruct (G2 l ds (calc_noise n T ds)) as [A B]. cbn [l_dets] in *. split; [exact A|]. unfold lstep, noise. rewrite B. reflexivity.
  - apply IH.
  - destruct (G2 l ds (calc_noise n T ds)) as [A B]. cbn [l_dets] in *. split; [exact A|]. unfold lstep, noise. rewrite B. reflexivity.
Qed.

(** a worked example: one detector, data 1 and template 1 in a single bin in band *)
Definition ex_det (nb : nat) : det := mkDet (fun j => Nat.eqb j nb) (fun j => if Nat.eqb j nb then RtoC 1 else RtoC 0) (fun _ => Fin 1).
Definition ex_h (nb : nat) (j : nat) : C := if Nat.eqb j nb then RtoC 1 else RtoC 0.
Definition ex_net : net := [(ex_det 1, ex_h 1)].
Lemma ex_banded : Forall banded ex_net.
Proof. constructor; [|constructor]. intros j H. cbn in *. unfold ex_h. rewrite H. reflexivity. Qed.
(** moved by [tau] the template gives ln L = (4/T) (cos (2 pi tau / T) - 1/2) *)
Lemma ex_shifted T tau : T <> 0 -> plain_ll 3 T (mapnet (shifted T tau) ex_net) = Val (4 / T * (cos (2 * PI * tau / T) - / 2)).
Proof.
  intros HT. unfold plain_ll, ll_ratio, base_ll. cbn [tmarg dmarg pmarg plain]. f_equal. rewrite opt_shifted. unfold d_inner_h, opt_snr_sq, mapnet, ex_net. cbn [map csum fold_right fst snd rsum].
  rewrite !inner_self. unfold inner. cbn [Sg Sr msk ex_det Nat.eqb psd fst snd RtoC].
  unfold shifted, ex_h, dat, ex_det, cis, freq. cbn [Nat.eqb]. cbn. replace (2 * PI * tau * (1 / T)) with (2 * PI * tau / T) by (field; exact HT). rewrite cos_neg, sin_neg. generalize (cos (2 * PI * tau / T)) (sin (2 * PI * tau / T)). intros c s. unfold cnorm2. cbn. field. exact HT.
Qed.
Theorem C88_example : plain_ll 3 1 ex_net = Val 2 /\ calc_noise 3 1 (map fst ex_net) = -2 /\
  plain_ll 3 1 (mapnet (times_c (RtoC 3)) ex_net) = Val (-6).
Proof.
  unfold plain_ll, ll_ratio, base_ll. cbn [tmarg dmarg pmarg plain]. rewrite calc_noise_sum. unfold d_inner_h, opt_snr_sq, mapnet, ex_net. cbn [map csum fold_right fst snd rsum].
  rewrite !inner_self. unfold inner. cbn [Sg Sr msk ex_det Nat.eqb psd fst snd RtoC].
  unfold times_c, ex_h, dat, ex_det, cnorm2. cbn [Nat.eqb]. cbn. repeat split; try f_equal; field.
Qed.

(** ** C89 time marginalisation *)
Definition tp_ok (tp : tprior) : Prop := forall t, 0 <= tp_prob tp t /\ (~ (tp_min tp <= t <= tp_max tp) -> tp_prob tp t = 0).
Definition untimed (c : cfg) : cfg := mkCfg false (dmarg c) (pmarg c) (cmarg c).
Lemma in_tc_true tp t : in_tc tp t = true <-> tp_min tp <= t <= tp_max tp.
Proof. unfold in_tc. destruct (Rle_dec (tp_min tp) t), (Rle_dec t (tp_max tp)); split; intros; try discriminate; try lra; reflexivity. Qed.
(** the value is the average of the likelihoods of the templates arriving at the grid times t_k = start + jitter +
    k delta, but weighted with the prior one step later, at t_k + delta; it raises if no such time is in range *)
Theorem C89_value n T c margd d0 ref tp start jit N : tmarg c = true -> (2 <= n)%nat -> 0 < T ->
  Forall banded N -> Forall (quiet_end n) N -> tp_ok tp ->
  let delta := delta_tc n T in
  let t k := start + jit + INR k * delta in
  let one k := ll_ratio n T (untimed c) margd d0 ref tp start jit (mapnet (shifted T (INR k * delta)) N) in
  lik (ll_ratio n T c margd d0 ref tp start jit N) = rsum (map (fun k => delta * tp_prob tp (t k + delta) * lik (one k)) (seq 0 (n - 1))) /\
  (ll_ratio n T c margd d0 ref tp start jit N = Raise <-> forall k, (k < n - 1)%nat -> ~ (tp_min tp <= t k + delta <= tp_max tp)).
Proof.
  intros Hc Hn HT HB HQ HP delta t one.
  assert (D : 0 < delta). { unfold delta, delta_tc. apply Rdiv_lt_0_compat; [exact HT|]. apply lt_0_INR. lia. }
  assert (L : forall k, tc_label n T start jit k = t k + delta). { intros k. unfold tc_label, t. fold delta. rewrite S_INR. ring. }
  unfold ll_ratio at 1 2. rewrite Hc. unfold time_marg. split.
  - rewrite lse_lik.
    2:{ apply Forall_forall. intros x Hx. apply in_map_iff in Hx. destruct Hx as [k [<- _]]. cbn [snd]. fold delta. apply Rmult_le_pos; [apply HP|lra]. }
    rewrite map_map. cbn [fst snd]. rewrite rsum_filter.
    + f_equal. apply map_ext. intros k. fold delta. rewrite L. unfold one, ll_ratio. cbn [tmarg untimed].
      rewrite (tc_shifted n T N k Hn ltac:(lra) HB HQ), base_ll_conj, opt_shifted. fold delta.
      change (base_ll (untimed c)) with (base_ll c). destruct (base_ll c margd d0 ref _ _); cbn [expo lik]; ring.
    + intros k _ H. fold delta. rewrite L. rewrite L in H. destruct (HP (t k + delta)) as [_ Z]. rewrite Z; [ring|]. intros Q. apply in_tc_true in Q. congruence.
  - rewrite lse_raise. split.
    + intros E k Hk Q. apply map_eq_nil in E.
      assert (I : In k (filter (fun k => in_tc tp (tc_label n T start jit k)) (seq 0 (n - 1)))).
      { apply filter_In. split; [apply in_seq; lia|]. rewrite L. apply in_tc_true. exact Q. }
      rewrite E in I. destruct I.
    + intros H. match goal with |- map ?f ?l = [] => assert (E : l = []); [|rewrite E; reflexivity] end.
      destruct (filter _ _) as [|k l] eqn:E; [reflexivity|]. exfalso.
      assert (I : In k (filter (fun k => in_tc tp (tc_label n T start jit k)) (seq 0 (n - 1)))) by (rewrite E; left; reflexivity).
      apply filter_In in I. destruct I as [I Q]. apply in_seq in I. apply (H k); [lia|]. rewrite L in Q. apply in_tc_true. exact Q.
Qed.
(** moving the template in time is what a later geocent_time does, antenna response and delay held fixed *)
Theorem C89_arrival T modes cal d tg start delay tau j :
  response T modes (tg + tau - start + delay) cal (msk d) j = shifted T tau (response T modes (tg - start + delay) cal (msk d)) j.
Proof. rewrite <- response_shifted. f_equal. ring. Qed.
(** the weights belong to the wrong times: with a prior that allows only times within delta/4 of t_1 the value is
    that of the template arriving at t_0 *)
Definition ex_tp : tprior := mkTP (3 / 8) (5 / 8) (fun t => if Rle_dec (3 / 8) t then if Rle_dec t (5 / 8) then 4 else 0 else 0).
Lemma ex_tp_ok : tp_ok ex_tp.
Proof. intros t. cbn. destruct (Rle_dec (3 / 8) t), (Rle_dec t (5 / 8)); split; intros; lra. Qed.
Definition timed : cfg := mkCfg true false false false.
Theorem C89_label_refuted :
  let delta := delta_tc 3 1 in let t k := 0 + 0 + INR k * delta in
  let one k := lik (plain_ll 3 1 (mapnet (shifted 1 (INR k * delta)) ex_net)) in
  delta = / 2 /\ tp_prob ex_tp (t 0%nat) = 0 /\ tp_prob ex_tp (t 1%nat) = 4 /\
  lik (ll_ratio 3 1 timed no_table 1 1 ex_tp 0 0 ex_net) = 2 * one 0%nat /\
  lik (ll_ratio 3 1 timed no_table 1 1 ex_tp 0 0 ex_net) <> rsum (map (fun k => delta * tp_prob ex_tp (t k) * one k) (seq 0 2)).
Proof.
  cbv zeta. assert (D : delta_tc 3 1 = / 2) by (unfold delta_tc; cbn; field). rewrite D.
  assert (Q : Forall (quiet_end 3) ex_net) by (constructor; [left; reflexivity|constructor]).
  destruct (C89_value 3 1 timed no_table 1 1 ex_tp 0 0 ex_net eq_refl ltac:(lia) ltac:(lra) ex_banded Q ex_tp_ok) as [V _]. rewrite D in V.
  assert (P : forall x, tp_prob ex_tp x = if Rle_dec (3 / 8) x then if Rle_dec x (5 / 8) then 4 else 0 else 0) by reflexivity.
  assert (P0 : tp_prob ex_tp (0 + 0 + INR 0 * / 2) = 0) by (rewrite P; cbn; destruct (Rle_dec (3 / 8) _); [lra|reflexivity]).
  assert (P1 : tp_prob ex_tp (0 + 0 + INR 1 * / 2) = 4) by (rewrite P; cbn; destruct (Rle_dec (3 / 8) _); [destruct (Rle_dec _ (5 / 8)); [reflexivity|lra]|lra]).
  assert (P0' : tp_prob ex_tp (0 + 0 + INR 0 * / 2 + / 2) = 4) by (rewrite P; cbn; destruct (Rle_dec (3 / 8) _); [destruct (Rle_dec _ (5 / 8)); [reflexivity|lra]|lra]).
  assert (P1' : tp_prob ex_tp (0 + 0 + INR 1 * / 2 + / 2) = 0) by (rewrite P; cbn; destruct (Rle_dec (3 / 8) _); [destruct (Rle_dec _ (5 / 8)); [lra|reflexivity]|reflexivity]).
  change (3 - 1)%nat with 2%nat in V. cbn [seq map] in V |- *. rewrite !rsum_cons in V |- *. cbn [rsum fold_right] in V |- *.
  rewrite P0', P1' in V. rewrite P0, P1.
  change (ll_ratio 3 1 (untimed timed) no_table 1 1 ex_tp 0 0 (mapnet (shifted 1 (INR 0 * / 2)) ex_net)) with (plain_ll 3 1 (mapnet (shifted 1 (INR 0 * / 2)) ex_net)) in V.
  repeat split; [rewrite V; field|]. rewrite V, !ex_shifted by lra. cbn [lik INR].
  replace (2 * PI * (0 * / 2) / 1) with 0 by field. replace (2 * PI * (1 * / 2) / 1) with PI by field. rewrite cos_0, cos_PI.
  intros E. assert (E2 : exp (4 / 1 * (1 - / 2)) = exp (4 / 1 * (-1 - / 2))) by lra. apply exp_inv in E2. lra.
Qed.
Theorem C89_example : (* a prior over the whole segment *)
  let tp := mkTP 0 1 (fun t => if Rle_dec 0 t then if Rle_dec t 1 then 1 else 0 else 0) in
  lik (ll_ratio 3 1 timed no_table 1 1 tp 0 0 ex_net) = (exp 2 + exp (-6)) / 2.
Proof.
  cbv zeta. set (tp := mkTP 0 1 _).
  assert (O : tp_ok tp) by (intros t; cbn; destruct (Rle_dec 0 t), (Rle_dec t 1); split; intros; lra).
  assert (Q : Forall (quiet_end 3) ex_net) by (constructor; [left; reflexivity|constructor]).
  destruct (C89_value 3 1 timed no_table 1 1 tp 0 0 ex_net eq_refl ltac:(lia) ltac:(lra) ex_banded Q O) as [V _]. rewrite V. clear V.
  assert (D : delta_tc 3 1 = / 2) by (unfold delta_tc; cbn; field). rewrite D. change (3 - 1)%nat with 2%nat. cbn [seq map]. rewrite !rsum_cons. cbn [rsum fold_right].
  assert (P : forall x, 0 <= x <= 1 -> tp_prob tp x = 1) by (intros x H; cbn; destruct (Rle_dec 0 x); [destruct (Rle_dec x 1)|]; lra).
  rewrite !P by (cbn; lra).
  change (ll_ratio 3 1 (untimed timed) no_table 1 1 tp 0 0) with (plain_ll 3 1). rewrite !ex_shifted by lra. cbn [lik INR].
  replace (2 * PI * (0 * / 2) / 1) with 0 by field. replace (2 * PI * (1 * / 2) / 1) with PI by field. rewrite cos_0, cos_PI.
  replace (4 / 1 * (1 - / 2)) with 2 by field. replace (4 / 1 * (-1 - / 2)) with (-6) by field. field.
Qed.

(** ** C90 reconstruction of the arrival time *)
(** the FFT lacks the factor 4 / duration of the inner product *)
Theorem C90_missing_factor n T N M k : (0 < M)%nat -> 0 < T -> Forall banded N ->
  rec_fft n N M k = (RtoC (T / 4) * Cconj (d_inner_h n T (mapnet (shifted T (INR k * (T / INR M))) N)))%C.
Proof. intros. apply rec_shifted; auto. lra. Qed.
(** so the weight of a time is prior times likelihood to the power duration / 4 *)
Theorem C90_weights n T N M tp start tg fs : (0 < M)%nat -> 0 < T -> Forall banded N ->
  exists K, 0 < K /\ forall k, exists L, plain_ll n T (mapnet (shifted T (INR k * (T / INR M))) N) = Val L /\
    rec_weight n T N M tp start tg fs k = K * (tp_prob tp (rec_time T start tg fs k) * exp (T / 4 * L)).
Proof.
  intros HM HT HB. exists (exp (T / 4 * (opt_snr_sq n T N / 2) - opt_snr_sq n T N / 2)). split; [apply exp_pos|]. intros k. eexists. split; [reflexivity|].
  unfold rec_weight. rewrite (rec_shifted n T N M k HM ltac:(lra) HB), opt_shifted.
  set (z := d_inner_h n T _). replace (fst (RtoC (T / 4) * Cconj z)%C) with (T / 4 * fst z) by (cbn; ring).
  rewrite (Rmult_comm (tp_prob tp _)), <- Rmult_assoc, <- exp_plus. f_equal. f_equal. ring.
Qed.
(** exact for four seconds of data *)
Theorem C90_four_seconds n N M tp start tg fs : (0 < M)%nat -> Forall banded N ->
  exists K, 0 < K /\ forall k, rec_weight n 4 N M tp start tg fs k =
    K * (tp_prob tp (rec_time 4 start tg fs k) * lik (plain_ll n 4 (mapnet (shifted 4 (INR k * (4 / INR M))) N))).
Proof.
  intros HM HB. destruct (C90_weights n 4 N M tp start tg fs HM ltac:(lra) HB) as [K [HK H]]. exists K. split; [exact HK|]. intros k.
  destruct (H k) as [L [E W]]. rewrite W, E. cbn [lik]. do 3 f_equal. field.
Qed.
(** wrong otherwise: with eight seconds and a constant prior the weights are not proportional to the likelihood *)
Theorem C90_refuted : ~ exists K, forall k, rec_weight 3 8 ex_net 2 (mkTP 0 8 (fun _ => / 8)) 0 0 (/ 4) k =
    K * (/ 8 * lik (plain_ll 3 8 (mapnet (shifted 8 (INR k * (8 / INR 2))) ex_net))).
Proof.
  intros [K H]. destruct (C90_weights 3 8 ex_net 2 (mkTP 0 8 (fun _ => / 8)) 0 0 (/ 4) ltac:(lia) ltac:(lra) ex_banded) as [K' [HK W]].
  destruct (W 0%nat) as [L0 [E0 W0]]. destruct (W 1%nat) as [L1 [E1 W1]]. rewrite H, E0 in W0. rewrite H, E1 in W1. cbn [lik tp_prob] in W0, W1.
  rewrite ex_shifted in E0, E1 by lra. injection E0 as <-. injection E1 as <-. cbn [INR] in W0, W1.
  replace (2 * PI * (0 * (8 / (1 + 1))) / 8) with 0 in W0 by field. replace (2 * PI * (1 * (8 / (1 + 1))) / 8) with PI in W1 by field. rewrite cos_0 in W0. rewrite cos_PI in W1.
  replace (4 / 8 * (1 - / 2)) with (/ 4) in W0 by field. replace (4 / 8 * (-1 - / 2)) with (- (3 / 4)) in W1 by field.
  replace (8 / 4 * / 4) with (/ 4 + / 4) in W0 by field. replace (8 / 4 * - (3 / 4)) with (- (3 / 4) + - (3 / 4)) in W1 by field.
  rewrite exp_plus in W0, W1. pose proof (exp_pos (/ 4)) as A. pose proof (exp_pos (- (3 / 4))) as B.
  assert (K0 : K = K' * exp (/ 4)) by (apply (Rmult_eq_reg_r (/ 8 * exp (/ 4))); [nra|nra]).
  assert (K1 : K = K' * exp (- (3 / 4))) by (apply (Rmult_eq_reg_r (/ 8 * exp (- (3 / 4)))); [nra|nra]).
  assert (E : exp (/ 4) = exp (- (3 / 4))) by (apply (Rmult_eq_reg_l K'); [lra|lra]). apply exp_inv in E. lra.
Qed.
(** the labels of the reconstruction are right: they lie in the segment, differ from the arrival time of the
    template by a multiple of the duration, and such a move leaves the likelihood as it is *)
Lemma cis_period x (z : Z) : cis (x - 2 * PI * IZR z) = cis x.
Proof.
  assert (P : forall k t, cos (t - 2 * PI * IZR k) = cos t /\ sin (t - 2 * PI * IZR k) = sin t).
  { intros k t. destruct (Z_le_dec 0 k) as [H|H].
    - rewrite <- (Z2Nat.id k H), <- INR_IZR_INZ. split; [rewrite <- (cos_period _ (Z.to_nat k))|rewrite <- (sin_period _ (Z.to_nat k))]; f_equal; ring.
    - assert (E : IZR k = - INR (Z.to_nat (- k))) by (rewrite INR_IZR_INZ, Z2Nat.id, opp_IZR by lia; ring).
      rewrite E. split; [rewrite <- (cos_period t (Z.to_nat (- k)))|rewrite <- (sin_period t (Z.to_nat (- k)))]; f_equal; ring. }
  unfold cis. destruct (P z x) as [-> ->]. reflexivity.
Qed.
Theorem C90_labels T start tg fs k : 0 < T ->
  start <= rec_time T start tg fs k < start + T /\ exists z : Z, rec_time T start tg fs k = tg + INR k / fs + IZR z * T /\
  forall tau h j, shifted T (tau + IZR z * T) h j = shifted T tau h j.
Proof.
  intros HT. unfold rec_time. pose proof (rmod_range (tg - start + INR k / fs) T HT). split; [lra|].
  destruct (rmod_congr (tg - start + INR k / fs) T) as [z E]. exists (- z)%Z. split; [rewrite E, opp_IZR; ring|].
  intros tau h j. unfold shifted. f_equal. rewrite <- (cis_period _ (z * Z.of_nat j)%Z). rewrite <- (cis_period (- (2 * PI * tau * freq T j)) 0%Z). f_equal.
  rewrite opp_IZR, mult_IZR, <- INR_IZR_INZ. unfold freq. field. lra.
Qed.
Theorem C90_example : rec_weight 3 8 ex_net 2 (mkTP 0 8 (fun _ => / 8)) 0 0 (/ 4) 1 = exp (- (5 / 4)) / 8 /\ rec_time 8 5 5 (/ 4) 3 = 9.
Proof.
  split.
  - unfold rec_weight. rewrite (rec_shifted 3 8 ex_net 2 1 ltac:(lia) ltac:(lra) ex_banded). cbn [tp_prob].
    unfold d_inner_h, opt_snr_sq, mapnet, ex_net. cbn [map csum fold_right fst snd rsum].
    rewrite !inner_self. unfold inner. cbn [Sg Sr msk ex_det Nat.eqb psd fst snd RtoC].
    unfold shifted, ex_h, dat, ex_det, cis, freq. cbn [Nat.eqb]. cbn.
    replace (2 * PI * (1 * (8 / (1 + 1))) * (1 / 8)) with PI by field. rewrite cos_neg, cos_PI, sin_neg, sin_PI. unfold cnorm2. cbn. match goal with |- exp ?a * _ = _ => replace a with (- (5 / 4)) by field end. field.
  - unfold rec_time. rewrite (rmod_unique _ 8 4 1); cbn; lra.
Qed.

(** ** Assumptions of every theorem above *)
Definition GwLik_Props_all :=
  (@C88_gaussian,
   @C88_maximum,
   @C88_detectors_add,
   @C88_basic_agrees,
   @C88_noise_cached,
   @C88_example,
   @C89_value,
   @C89_arrival,
   @C89_label_refuted,
   @C89_example,
   @C90_missing_factor,
   @C90_weights,
   @C90_four_seconds,
   @C90_refuted,
   @C90_labels,
   @C90_example).
Print Assumptions GwLik_Props_all.
