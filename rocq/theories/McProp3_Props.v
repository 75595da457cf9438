(** Theorems about the proposals of bilby_mcmc that learn a density (C207) and about the ensemble step (C208) *)
From Coq Require Import String Bool List Reals ZArith Lia Lra Arith.
From Verif Require Import PyReal PyDict Propose_Model McProp_Model.
Import ListNotations.
Open Scope list_scope.
Open Scope R_scope.

(** ** C207 If every attempt completes, the density is fitted in the calls number F, F + F m, F + F m + F m^2, ..., with F = first_fit * scale_fits and m = fit_multiplier * scale_fits. *)
Fixpoint geo (m k : nat) : nat := match k with O => 1%nat | S k' => (geo m k' + Nat.pow m (S k'))%nat end.
Definition completes {D} (a : attempt D) : Prop := match a with FitRaises => False | _ => True end.
Lemma geo_mono m i k : (1 <= m)%nat -> (k < i)%nat -> (geo m k < geo m i)%nat.
Proof.
  intros M. induction 1 as [|i H IH].
  - assert (Nat.pow m (S k) <> 0)%nat by (apply Nat.pow_nonzero; lia). change (geo m (S k)) with (geo m k + Nat.pow m (S k))%nat. lia.
  - change (geo m (S i)) with (geo m i + Nat.pow m (S i))%nat. lia.
Qed.
Lemma refits_gen {D} F m (l : list (attempt D)) : (1 <= F)%nat -> (1 <= m)%nat -> List.Forall completes l ->
  forall s k n, next_refit s = (F * Nat.pow m k)%nat -> (steps s < next_refit s)%nat ->
  (n + next_refit s = F * geo m k + steps s + 1)%nat ->
  forall j, In j (refits m l s n) <-> (n <= j < n + length l)%nat /\ exists i, (k <= i)%nat /\ j = (F * geo m i)%nat.
Proof.
  intros HF HM. induction l as [|a t IH]; intros HC s k n NR LT NN j; [simpl; split; [contradiction | lia]|].
  inversion HC as [|? ? Ca Ct]; subst. simpl refits. unfold dens_step. cbn [steps next_refit].
  destruct (Nat.leb_spec (next_refit s) (S (steps s))) as [H | H].
  - assert (E : n = (F * geo m k)%nat) by lia.
    assert (S' : exists d b, refit m a (mkDens (S (steps s)) (next_refit s) (density s) (trained s)) = mkDens 0 (next_refit s * m) d b).
    { destruct a as [|d|d ok]; [contradiction| |]; simpl; eauto. }
    destruct S' as (d & b & S'). rewrite S'. cbn [app]. simpl In.
    rewrite (IH Ct (mkDens 0 (next_refit s * m) d b) (S k) (S n)).
    + split.
      * intros [<- | [Hj (i & Hi & Ej)]]; [split; [simpl; lia|]; exists k; lia|]. split; [simpl; lia|]. exists i. split; [lia | exact Ej].
      * intros [Hj (i & Hi & Ej)]. destruct (Nat.eq_dec i k) as [-> | Ni]; [left; lia|]. right. simpl in Hj. split; [|exists i; lia].
        assert (geo m k < geo m i)%nat by (apply geo_mono; lia). nia.
    + cbn [next_refit]. rewrite NR. simpl. ring.
    + cbn [next_refit steps]. rewrite NR. assert (Nat.pow m k <> 0)%nat by (apply Nat.pow_nonzero; lia). nia.
    + cbn [next_refit steps]. rewrite NR, E. simpl geo. simpl Nat.pow. ring.
  - cbn [app]. rewrite (IH Ct (mkDens (S (steps s)) (next_refit s) (density s) (trained s)) k (S n)); [|exact NR|exact H|cbn [next_refit steps]; lia].
    split; intros [Hj (i & Hi & Ej)]; (split; [|exists i; split; [exact Hi | exact Ej]]); simpl in *; try lia.
    assert (F * geo m k <= F * geo m i)%nat. { destruct (Nat.eq_dec i k) as [-> | Ni]; [lia|]. assert (geo m k < geo m i)%nat by (apply geo_mono; lia). nia. }
    lia.
Qed.
Theorem C207_schedule {D} first scale mult (l : list (attempt D)) : (1 <= first * scale)%nat -> (1 <= mult * scale)%nat -> List.Forall completes l ->
  forall j, In j (refits (fit_multiplier mult scale) l (new_dens first scale) 1) <->
            (1 <= j <= length l)%nat /\ exists k, j = (first * scale * geo (mult * scale) k)%nat.
Proof.
  intros HF HM HC j. unfold fit_multiplier. rewrite (refits_gen (first * scale) (mult * scale) l HF HM HC (new_dens first scale) 0 1); unfold new_dens; cbn [next_refit steps]; simpl geo; simpl Nat.pow; try lia.
  split; intros [H1 (i & H2)]; (split; [lia|]); exists i; [apply H2 | split; [lia | exact H2]].
Qed.
Example C207_schedule_example : refits 2 (repeat (Fitted tt true) 30) (new_dens 2 1) 1 = [2; 6; 14; 30]%nat.
Proof. reflexivity. Qed.

(** ** C207 A fit that raises changes nothing but the count of calls, and is tried again in the very next call. *)
Theorem C207_retry {D} m (s : dens D) : snd (dens_step m FitRaises s) = true ->
  let s' := fst (dens_step m FitRaises s) in
  (density s', trained s', next_refit s') = (density s, trained s, next_refit s) /\ forall a, snd (dens_step m a s') = true.
Proof.
  unfold dens_step. cbn [steps next_refit]. destruct (Nat.leb_spec (next_refit s) (S (steps s))) as [H | H]; [|discriminate].
  intros _. cbn [fst refit steps next_refit density trained]. split; [reflexivity|]. intros a.
  destruct (Nat.leb_spec (next_refit s) (S (S (steps s)))); [reflexivity | lia].
Qed.

(** ** C207 Before the first success the fallback proposes; after it a density does, for ever; if no exception comes after a fit, the density in use passed the comparison. *)
Definition known {D} (s : dens D) : Prop := trained s = true -> exists d, density s = Some d.
Lemma step_known {D} m a (s : dens D) : known s -> known (fst (dens_step m a s)) /\ (trained s = true -> trained (fst (dens_step m a s)) = true).
Proof.
  unfold known, dens_step. cbn [steps next_refit]. intros K. destruct (Nat.leb (next_refit s) (S (steps s))); cbn [fst].
  - destruct a as [|d|d [|]]; cbn [refit trained density steps next_refit]; simpl; split; eauto.
  - cbn [trained density]. split; auto.
Qed.
Theorem C207_trained {D} m (l l' : list (attempt D)) first scale :
  let s := dens_run m l (new_dens first scale) in
  (trained s = true -> exists d, used s = Some d) /\ (trained s = true -> trained (dens_run m l' s) = true) /\ (trained s = false -> used s = None).
Proof.
  intros s. assert (K : forall l (s : dens D), known s -> known (dens_run m l s) /\ (trained s = true -> trained (dens_run m l s) = true)).
  { clear. induction l as [|a t IH]; simpl; intros s K; [auto|]. destruct (step_known m a s K) as [K1 K2]. destruct (IH _ K1) as [K3 K4]. auto. }
  assert (K0 : known s). { apply K. intros H. discriminate H. }
  split; [|split; [apply K, K0 | unfold used; intros ->; reflexivity]].
  intros T. destruct (K0 T) as [d Hd]. exists d. unfold used. rewrite T. exact Hd.
Qed.
Definition no_later_exception {D} (a : attempt D) : Prop := match a with AfterRaises _ => False | _ => True end.
Theorem C207_verified {D} m (l : list (attempt D)) first scale d : List.Forall no_later_exception l ->
  used (dens_run m l (new_dens first scale)) = Some d -> In (Fitted d true) l.
Proof.
  intros F H. assert (G : forall l (s : dens D), List.Forall no_later_exception l ->
     density (dens_run m l s) = Some d -> In (Fitted d true) l \/ density s = Some d).
  { clear. induction l as [|a t IH]; simpl; intros s F H; [auto|]. inversion F as [|? ? Fa Ft]; subst.
    destruct (IH _ Ft H) as [I | E]; [auto|]. unfold dens_step in E. cbn [next_refit steps] in E.
    destruct (Nat.leb (next_refit s) (S (steps s))); cbn [fst] in E; [|auto].
    destruct a as [|d'|d' [|]]; simpl in E, Fa; auto; [contradiction|]. left. left. congruence. }
  unfold used in H. destruct (trained (dens_run m l (new_dens first scale))); [|discriminate].
  destruct (G l _ F H) as [I | E]; [exact I | discriminate E].
Qed.
(** an exception after the fit leaves a density in use that was never compared *)
Theorem C207_unverified_refuted : exists (l : list (attempt nat)),
  used (dens_run 1 l (new_dens 1 1)) = Some 7%nat /\ ~ In (Fitted 7%nat true) l.
Proof.
  exists [Fitted 3%nat true; AfterRaises 7%nat]. split; [reflexivity|]. intros [H | [H | []]]; discriminate H.
Qed.

(** ** C207 Mixture models of two or more parameters: the comparison passes exactly if no parameter's draws are narrower than a tenth of the verification data. *)
Lemma fails_nil nd a b : fails nd a b = [] <-> forall i, (i < nd)%nat -> 1 / 10 * np_std (column i b) <= np_std (column i a).
Proof.
  unfold fails. set (f := fun i => if Rlt_dec (np_std (column i a)) (1 / 10 * np_std (column i b)) then true else false).
  split.
  - intros H i Hi. assert (N : ~ In i (filter f (seq 0 nd))) by (rewrite H; auto). rewrite filter_In in N.
    unfold f in N. destruct (Rlt_dec (np_std (column i a)) (1 / 10 * np_std (column i b))); [|lra].
    exfalso. apply N. split; [apply in_seq; lia | reflexivity].
  - intros H. destruct (filter f (seq 0 nd)) as [|i t] eqn:E; [reflexivity|]. exfalso.
    assert (I : In i (filter f (seq 0 nd))) by (rewrite E; left; reflexivity). apply filter_In in I. destruct I as [I B]. apply in_seq in I.
    unfold f in B. destruct (Rlt_dec (np_std (column i a)) (1 / 10 * np_std (column i b))); [|discriminate]. specialize (H i). lra || (assert (i < nd)%nat by lia; specialize (H H0); lra).
Qed.
Theorem C207_gmm nd draws ver : (2 <= nd)%nat ->
  (fails nd (gmm_draws nd draws) ver = [] <-> forall i, (i < nd)%nat -> 1 / 10 * np_std (column i ver) <= np_std (column i draws)).
Proof. intros H. unfold gmm_draws. destruct (Nat.eqb_spec nd 1); [lia|]. apply fails_nil. Qed.

(** ** C207 With a single parameter the draws are compared through a single value of width zero: the comparison fails unless the verification data are all equal, whatever was fitted. *)
Lemma std_one x : np_std [x] = 0.
Proof. unfold np_std, lmean, lsum. simpl. replace (x - (x + 0) / 1) with 0 by field. replace ((0 * (0 * 1) + 0) / 1) with 0 by field. apply sqrt_0. Qed.
Lemma lsum_nonneg l : (forall x, In x l -> 0 <= x) -> 0 <= lsum l /\ (lsum l = 0 -> forall x, In x l -> x = 0).
Proof.
  induction l as [|a t IH]; simpl; intros H; [split; [lra | intros _ x []]|]. destruct IH as [I1 I2]; [intros; apply H; auto|].
  assert (0 <= a) by (apply H; auto). unfold lsum in *. simpl. split; [lra|]. intros E x [<- | I]; [lra|]. apply I2; [lra | exact I].
Qed.
Lemma std_zero l x y : In x l -> In y l -> np_std l = 0 -> x = y.
Proof.
  intros Hx Hy H. unfold np_std in H. set (m := lmean l) in *. set (q := map (fun x => (x - m) ^ 2) l) in *.
  assert (P : forall z, In z q -> 0 <= z). { intros z I. apply in_map_iff in I. destruct I as (w & <- & _). apply pow2_ge_0. }
  destruct (lsum_nonneg q P) as [Q1 Q2]. assert (N : 0 < INR (length q)). { apply lt_0_INR. unfold q. rewrite map_length. destruct l; [contradiction | simpl; lia]. }
  assert (Z : lmean q = 0). { apply sqrt_eq_0; [|exact H]. unfold lmean. apply Rmult_le_pos; [exact Q1|]. left. apply Rinv_0_lt_compat, N. }
  assert (Z2 : lsum q = 0). { unfold lmean in Z. apply Rmult_eq_reg_r with (/ INR (length q)); [unfold Rdiv in Z; lra|]. apply Rinv_neq_0_compat. lra. }
  assert (V : forall z, In z l -> z = m). { intros z I. assert (E : (z - m) ^ 2 = 0). { apply (Q2 Z2). unfold q. apply in_map_iff. exists z. auto. } nra. }
  rewrite (V x Hx), (V y Hy). reflexivity.
Qed.
Theorem C207_one_parameter draws row ver x y : In x (column 0 ver) -> In y (column 0 ver) -> x <> y ->
  fails 1 (gmm_draws 1 draws) ver <> [] /\ fails 1 (kde_draws [row]) ver <> [].
Proof.
  intros Hx Hy N. assert (S : 0 < np_std (column 0 ver)).
  { destruct (Rle_lt_or_eq_dec 0 (np_std (column 0 ver))) as [H | H]; [apply sqrt_pos|exact H|]. exfalso. apply N. apply (std_zero (column 0 ver)); auto. }
  assert (G : forall r, fails 1 [r] ver <> []).
  { intros r E. rewrite fails_nil in E. specialize (E 0%nat ltac:(lia)). unfold column at 2 in E. cbn [map] in E. rewrite std_one in E. lra. }
  split; apply G.
Qed.
(** so with one parameter the proposal stays with its fallback for ever *)
Theorem C207_one_parameter_refuted {D} m first scale (l : list (attempt D)) :
  List.Forall (fun a => match a with Fitted _ ok => ok = false | _ => True end) l ->
  used (dens_run m l (new_dens first scale)) = None.
Proof.
  intros F. assert (G : forall l (s : dens D), List.Forall (fun a => match a with Fitted _ ok => ok = false | _ => True end) l -> trained s = false -> trained (dens_run m l s) = false).
  { clear. induction l as [|a t IH]; simpl; intros s F T; [exact T|]. inversion F as [|? ? Fa Ft]; subst. apply IH; [exact Ft|].
    unfold dens_step. cbn [next_refit steps]. destruct (Nat.leb (next_refit s) (S (steps s))); cbn [fst]; [|exact T].
    destruct a as [|d|d ok]; simpl; try exact T. rewrite Fa, T. reflexivity. }
  unfold used. rewrite (G l (new_dens first scale) F eq_refl). reflexivity.
Qed.
(** ** C207 The kernel density is compared along the wrong axis: draws equal to the verification data can fail, and draws far too narrow can pass. *)
Theorem C207_kde_refuted :
  (exists per_parameter ver, ver = [column 0 per_parameter; column 1 per_parameter] /\ per_parameter = [column 0 ver; column 1 ver] /\ fails 2 (kde_draws per_parameter) ver <> []) /\
  (exists per_parameter ver, (forall i, (i < 2)%nat -> np_std (nth i per_parameter []) = 0 /\ 0 < np_std (column i ver)) /\ fails 2 (kde_draws per_parameter) ver = []).
Proof.
  assert (H2 : forall a b, np_std [a; b] = Rabs (a - b) / 2).
  { intros a b. unfold np_std, lmean, lsum. cbn [map fold_right length INR].
    replace ((((a - (a + (b + 0)) / (1 + 1)) ^ 2 + ((b - (a + (b + 0)) / (1 + 1)) ^ 2 + 0)) / (1 + 1))) with (Rsqr ((a - b) / 2)) by (unfold Rsqr; field).
    rewrite sqrt_Rsqr_abs. unfold Rdiv. rewrite Rabs_mult. rewrite (Rabs_pos_eq (/ 2)) by lra. reflexivity. }
  assert (A1 : Rabs (0 - 1) = 1) by (rewrite Rabs_left; lra). assert (A0 : Rabs (0 - 0) = 0) by (rewrite Rminus_eq_0; apply Rabs_R0).
  split.
  - exists [[0; 1]; [0; 1]], [[0; 0]; [1; 1]]. split; [reflexivity|]. split; [reflexivity|]. intros E. rewrite fails_nil in E.
    specialize (E 0%nat ltac:(lia)). unfold column, kde_draws in E. cbn [map nth] in E. rewrite !H2, A1, A0 in E. lra.
  - exists [[0; 0]; [1; 1]], [[0; 0]; [1; 1]]. split.
    + intros i Hi. assert (C : i = 0%nat \/ i = 1%nat) by lia. unfold column. destruct C as [-> | ->]; cbn [map nth]; rewrite !H2; rewrite ?A1; split; try lra;
        unfold Rdiv; rewrite Rminus_eq_0, Rabs_R0; lra.
    + apply fails_nil. intros i Hi. assert (C : i = 0%nat \/ i = 1%nat) by lia. unfold column, kde_draws. destruct C as [-> | ->]; cbn [map nth]; rewrite !H2, A1; lra.
Qed.

(** ** C207 The fallback keeps its initial scale however often it is used and whatever is accepted. *)
Theorem C207_fallback scale0 stop0 target n : Nat.iter n fallback_use (mkAgp scale0 stop0 target 0 0 0) = mkAgp scale0 stop0 target 0 0 0.
Proof.
  induction n as [|n IH]; [reflexivity|]. simpl Nat.iter. rewrite IH. unfold fallback_use, update_scale, n_of. cbn [acc rej].
  simpl INR. destruct (Rlt_dec 0 0); [lra | reflexivity].
Qed.

(** ** Assumptions of every theorem above *)
Definition McProp3_Props_all :=
  (@C207_schedule,
   @C207_retry,
   @C207_trained,
   @C207_verified,
   @C207_unverified_refuted,
   @C207_gmm,
   @C207_one_parameter,
   @C207_one_parameter_refuted,
   @C207_kde_refuted,
   @C207_fallback).
Print Assumptions McProp3_Props_all.
