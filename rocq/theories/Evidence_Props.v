(** * Evidence estimators (C46) and temperature ladder (C47) *)
From Coq Require Import Reals List Lra Lia Psatz.
From Verif Require Import Interp_Model Samples_Model Evidence_Model Evidence_Proofs.
Import ListNotations.
Open Scope R_scope.

(** ** C46 *)
Fixpoint increasing (b : R) (bs : list R) : Prop := match bs with [] => True | b' :: t => b < b' /\ increasing b' t end.
Fixpoint final (b : R) (bs : list R) : R := match bs with [] => b | b' :: t => final b' t end.
Lemma increasing_final b bs : increasing b bs -> b <= final b bs.
Proof. revert b. induction bs as [|b' bs IH]; intros b H; simpl; [lra|]. destruct H as [H1 H2]. specialize (IH b' H2). lra. Qed.
Lemma map_nonempty {A B} (f : A -> B) l : l <> [] -> map f l <> [].
Proof. destruct l; simpl; congruence. Qed.
Lemma avg_scal d c : c <> [] -> avg (map (Rmult d) c) = d * avg c.
Proof.
  intros H. unfold avg. rewrite map_length. replace (map (Rmult d) c) with (map (fun x => d * x) c) by reflexivity. rewrite (Rsum_map_scal d (fun x => x)), map_id. field. pose proof (lenpos c H). lra.
Qed.
(** the stepping-stone estimate is at least the lower thermodynamic sum of the same samples
    and lies between (beta_max - beta_min) times the extreme log likelihoods *)
Fixpoint lower_sum (b : R) (bs : list R) (cols : list (list R)) : R :=
  match bs, cols with b' :: t, c :: cs => (b' - b) * avg c + lower_sum b' t cs | _, _ => 0 end.
Theorem C46_stepping_stone_jensen b bs cols : Forall (fun c => c <> []) cols -> lower_sum b bs cols <= stepping_stone (b :: bs) cols.
Proof.
  revert b cols. induction bs as [|b' bs IH]; intros b cols H; [destruct cols; simpl; lra|]. destruct cols as [|c cols]; [simpl; lra|]. inversion H as [|? ? Hc Hcs]; subst.
  cbn [lower_sum]. change (stepping_stone (b :: b' :: bs) (c :: cols)) with (ln_mean_exp (map (Rmult (b' - b)) c) + stepping_stone (b' :: bs) cols).
  specialize (IH b' cols Hcs). pose proof (mean_le_lme (map (Rmult (b' - b)) c) (map_nonempty _ _ Hc)) as J. rewrite avg_scal in J by exact Hc. lra.
Qed.
Theorem C46_stepping_stone_bounds b bs cols lo hi : increasing b bs -> length cols = length bs ->
  Forall (fun c => c <> [] /\ forall x, In x c -> lo <= x <= hi) cols ->
  (final b bs - b) * lo <= stepping_stone (b :: bs) cols <= (final b bs - b) * hi.
Proof.
  revert b cols. induction bs as [|b' bs IH]; intros b cols HI HL H; destruct cols as [|c cols]; try discriminate; [simpl; lra|].
  destruct HI as [H1 H2]. inversion H as [|? ? [Hc Hb] Hcs]; subst. injection HL as HL. specialize (IH b' cols H2 HL Hcs).
  change (stepping_stone (b :: b' :: bs) (c :: cols)) with (ln_mean_exp (map (Rmult (b' - b)) c) + stepping_stone (b' :: bs) cols). cbn [final].
  assert (B : (b' - b) * lo <= ln_mean_exp (map (Rmult (b' - b)) c) <= (b' - b) * hi).
  { apply lme_bounds; [apply map_nonempty; exact Hc|]. intros x Hx. apply in_map_iff in Hx. destruct Hx as (y & <- & Hy). specialize (Hb y Hy). split; apply Rmult_le_compat_l; lra. }
  lra.
Qed.
Theorem C46_thermodynamic_bounds b bs c0 cols lo hi : increasing b bs -> length cols = length bs ->
  Forall (fun c => c <> [] /\ forall x, In x c -> lo <= x <= hi) (c0 :: cols) ->
  (final b bs - b) * lo <= thermodynamic (b :: bs) (c0 :: cols) <= (final b bs - b) * hi.
Proof.
  revert b c0 cols. induction bs as [|b' bs IH]; intros b c0 cols HI HL H; destruct cols as [|c cols]; try discriminate; [unfold thermodynamic; simpl; lra|].
  destruct HI as [H1 H2]. inversion H as [|? ? [Hc Hb] Hcs]; subst. inversion Hcs as [|? ? [Hc' Hb'] _]; subst. injection HL as HL. specialize (IH b' c cols H2 HL Hcs).
  change (thermodynamic (b :: b' :: bs) (c0 :: c :: cols)) with ((b' - b) * (avg c + avg c0) / 2 + thermodynamic (b' :: bs) (c :: cols)). cbn [final].
  pose proof (avg_bounds c0 lo hi Hc Hb). pose proof (avg_bounds c lo hi Hc' Hb').
  assert ((b' - b) * lo <= (b' - b) * ((avg c + avg c0) / 2) <= (b' - b) * hi) by (split; apply Rmult_le_compat_l; lra).
  lra.
Qed.
(** for a constant likelihood, where the exact log evidence is that constant, both estimates
    are (1 - beta_min) times it: exact only if the hottest chain is at beta = 0 *)
Theorem C46_constant_likelihood b bs c0 cols k : increasing b bs -> length cols = length bs -> final b bs = 1 ->
  Forall (fun c => c <> [] /\ forall x, In x c -> x = k) (c0 :: cols) ->
  thermodynamic (b :: bs) (c0 :: cols) = (1 - b) * k /\ stepping_stone (b :: bs) (removelast (c0 :: cols)) = (1 - b) * k.
Proof.
  intros HI HL HF H. assert (H' : Forall (fun c => c <> [] /\ forall x, In x c -> k <= x <= k) (c0 :: cols)).
  { eapply Forall_impl; [|exact H]. intros c [Hc Hx]. split; [exact Hc|]. intros x Hi. rewrite (Hx x Hi). lra. }
  split.
  - pose proof (C46_thermodynamic_bounds b bs c0 cols k k HI HL H') as B. rewrite HF in B. lra.
  - pose proof (C46_stepping_stone_bounds b bs (removelast (c0 :: cols)) k k HI) as B. rewrite HF in B.
    assert (L : length (removelast (c0 :: cols)) = length bs).
    { rewrite <- HL. destruct (exists_last (l := c0 :: cols)) as (l' & x & E); [discriminate|]. rewrite E, removelast_last. apply (f_equal (@length _)) in E. rewrite app_length in E. simpl in E. lia. }
    assert (F : Forall (fun c => c <> [] /\ forall x, In x c -> k <= x <= k) (removelast (c0 :: cols))).
    { rewrite Forall_forall in *. intros c Hc. apply H'. destruct (exists_last (l := c0 :: cols)) as (l' & x & E); [discriminate|]. rewrite E, removelast_last in Hc. rewrite E. apply in_or_app. left. exact Hc. }
    specialize (B L F). lra.
Qed.
Theorem C46_exact_for_constant_refuted : exists b bs cols k, increasing b bs /\ final b bs = 1 /\ 0 < b /\
  (forall c x, In c cols -> In x c -> x = k) /\ thermodynamic (b :: bs) cols <> k /\ stepping_stone (b :: bs) (removelast cols) <> k.
Proof.
  exists (1/2), [1], [[10; 10]; [10; 10]], 10. split; [simpl; lra|]. split; [reflexivity|]. split; [lra|].
  split; [intros c x [<-|[<-|[]]] [<-|[<-|[]]]; reflexivity|].
  destruct (C46_constant_likelihood (1/2) [1] [10; 10] [[10; 10]] 10) as [A B].
  - simpl; lra.
  - reflexivity.
  - reflexivity.
  - repeat constructor; try discriminate; intros x [<-|[<-|[]]]; reflexivity.
  - rewrite A, B. lra.
Qed.
(** stepping stone telescopes: if the mean of likelihood^(step) at every rung is the ratio of
    the normalisations of neighbouring rungs, the estimate is the log ratio of the ends *)
Fixpoint ratios_exact (Z : R -> R) (b : R) (bs : list R) (cols : list (list R)) : Prop :=
  match bs, cols with
  | b' :: t, c :: cs => c <> [] /\ avg (map (fun x => exp ((b' - b) * x)) c) = Z b' / Z b /\ ratios_exact Z b' t cs
  | [], [] => True
  | _, _ => False
  end.
Theorem C46_stepping_stone_consistent Z b bs cols : (forall x, 0 < Z x) -> ratios_exact Z b bs cols ->
  stepping_stone (b :: bs) cols = ln (Z (final b bs)) - ln (Z b).
Proof.
  intros HZ. revert b cols. induction bs as [|b' bs IH]; intros b [|c cols] H; try contradiction; [simpl; lra|].
  destruct H as (Hc & E & H). change (stepping_stone (b :: b' :: bs) (c :: cols)) with (ln_mean_exp (map (Rmult (b' - b)) c) + stepping_stone (b' :: bs) cols).
  rewrite (IH b' cols H), ln_mean_exp_eq by (apply map_nonempty; exact Hc). rewrite map_map, E. unfold Rdiv. rewrite ln_mult, ln_Rinv by (try apply Rinv_0_lt_compat; apply HZ). cbn [final]. lra.
Qed.
(** combination over ensembles *)
Lemma combined_lnZ_eq l : l <> [] -> combined_lnZ l = ln_mean_exp l.
Proof. intros H. unfold combined_lnZ. rewrite Rsum_map_scal, ln_mean_exp_eq by exact H. unfold avg. rewrite map_length. f_equal. field. pose proof (lenpos l H). lra. Qed.
Lemma combined_err_eq l : l <> [] -> combined_err l = / 2 * ln_mean_exp (map (Rmult 2) l).
Proof.
  intros H. unfold combined_err. rewrite (Rsum_map_scal (1 / INR (length l)) (fun e => exp (2 * e))), ln_mean_exp_eq by (apply map_nonempty; exact H). unfold avg. rewrite !map_length, map_map. do 2 f_equal. field. pose proof (lenpos l H). lra.
Qed.
Theorem C46_combined_between l lo hi : l <> [] -> (forall x, In x l -> lo <= x <= hi) ->
  lo <= combined_lnZ l <= hi /\ lo <= combined_err l <= hi.
Proof.
  intros H B. rewrite combined_lnZ_eq, combined_err_eq by exact H. split; [apply lme_bounds; assumption|].
  assert (G : 2 * lo <= ln_mean_exp (map (Rmult 2) l) <= 2 * hi); [|lra]. apply lme_bounds; [apply map_nonempty; exact H|]. intros x Hx. apply in_map_iff in Hx. destruct Hx as (y & <- & Hy). specialize (B y Hy). lra.
Qed.
(** the combined evidence is the arithmetic mean of the evidences *)
Theorem C46_combined_is_mean l : l <> [] -> exp (combined_lnZ l) = avg (map exp l).
Proof.
  intros H. rewrite combined_lnZ_eq, ln_mean_exp_eq by exact H. apply exp_ln. unfold avg. rewrite map_length. apply Rmult_lt_0_compat; [apply sumexp_pos; exact H|apply Rinv_0_lt_compat, lenpos; exact H].
Qed.
(** the combined error never falls below the mean of the errors: running more ensembles
    does not reduce it *)
Theorem C46_combined_err_no_gain l : l <> [] -> avg l <= combined_err l.
Proof.
  intros H. rewrite combined_err_eq by exact H. pose proof (mean_le_lme _ (map_nonempty (Rmult 2) _ H)) as J. rewrite avg_scal in J by exact H. lra.
Qed.
Example C46_ex : stepping_stone [0; 1/2; 1] [[0; 2 * ln 3]; [4; 4]] = ln 2 + 2.
Proof.
  unfold stepping_stone, ln_mean_exp. simpl. replace ((1/2 - 0) * 0) with 0 by field. replace ((1/2 - 0) * (2 * ln 3)) with (ln 3) by field. replace ((1 - 1/2) * 4) with 2 by field.
  rewrite exp_0, exp_ln by lra. replace (1 + (3 + 0)) with (2 * 2) by ring. replace (exp 2 + (exp 2 + 0)) with (2 * exp 2) by ring. replace (1 + 1) with 2 by ring.
  rewrite !ln_mult, ln_exp; try apply exp_pos; lra.
Qed.

(** ** C47 *)
Lemma new_temps_length kappa ts : forall acc t r rs, length rs = length ts -> length (new_temps kappa acc t r ts rs) = length ts.
Proof. induction ts as [|t' ts IH]; intros acc t r [|r' rs] H; try discriminate; [reflexivity|]. simpl. rewrite IH; [reflexivity|]. simpl in H. lia. Qed.
Lemma new_temps_increasing kappa ts : forall acc t r rs, increasing t ts -> increasing acc (new_temps kappa acc t r ts rs).
Proof.
  induction ts as [|t' ts IH]; intros acc t r [|r' rs] H; simpl; try exact I. destruct H as [H1 H2]. split; [|apply IH; exact H2].
  pose proof (Rmult_lt_0_compat (t' - t) (exp (kappa * (r - r')))). pose proof (exp_pos (kappa * (r - r'))). lra.
Qed.
(** strictly decreasing list of inverse temperatures *)
Fixpoint decreasing (b : R) (bs : list R) : Prop := match bs with [] => True | b' :: t => b' < b /\ 0 < b' /\ decreasing b' t end.
Lemma inv_decreasing b bs : 0 < b -> decreasing b bs -> increasing (/ b) (map Rinv bs).
Proof. revert b. induction bs as [|b' bs IH]; intros b Hb H; [exact I|]. destruct H as (A & B & C). simpl. split; [apply Rinv_lt_contravar; [nra|exact A]|apply IH; assumption]. Qed.
Lemma inv_increasing t ts : 0 < t -> increasing t ts -> decreasing (/ t) (map Rinv ts).
Proof.
  revert t. induction ts as [|t' ts IH]; intros t Ht H; [exact I|]. destruct H as [A B]. simpl. split; [apply Rinv_lt_contravar; [nra|exact A]|]. split; [apply Rinv_0_lt_compat; lra|apply IH; [lra|exact B]].
Qed.
(** for all acceptance ratios and decay factors: the ladder keeps its length, the coldest and
    the hottest rung do not move, and the rungs except the hottest stay positive and
    strictly ordered *)
Theorem C47_adapted_ladder kappa b0 interior blast r0 ratios : 0 < b0 -> decreasing b0 interior -> length ratios = length interior ->
  exists new, adapt_temperatures kappa b0 interior blast r0 ratios = b0 :: new ++ [blast] /\ length new = length interior /\ decreasing b0 new.
Proof.
  intros Hb HD HL. exists (map Rinv (new_temps kappa (/ b0) (/ b0) r0 (map Rinv interior) ratios)). split; [reflexivity|]. split.
  - rewrite map_length, new_temps_length; rewrite map_length; [reflexivity|exact HL].
  - pose proof (inv_increasing (/ b0) (new_temps kappa (/ b0) (/ b0) r0 (map Rinv interior) ratios)) as G. rewrite Rinv_inv in G. apply G; [apply Rinv_0_lt_compat; exact Hb|]. apply new_temps_increasing, inv_decreasing; assumption.
Qed.
(** equal ratios leave the ladder as it is *)
Theorem C47_equal_ratios_fixed kappa b0 interior blast r0 ratios : decreasing b0 interior -> length ratios = length interior ->
  (forall r, In r ratios -> r = r0) -> adapt_temperatures kappa b0 interior blast r0 ratios = b0 :: interior ++ [blast].
Proof.
  intros HD HL HR. unfold adapt_temperatures. do 2 f_equal.
  assert (G : forall ts t rs, length rs = length ts -> (forall r, In r rs -> r = r0) -> new_temps kappa t t r0 ts rs = ts).
  { clear. induction ts as [|t' ts IH]; intros t [|r' rs] HL HR; try discriminate; [reflexivity|]. simpl. rewrite (HR r') by (left; reflexivity).
    replace (t + (t' - t) * exp (kappa * (r0 - r0))) with t' by (replace (kappa * (r0 - r0)) with 0 by ring; rewrite exp_0; ring). rewrite IH; [reflexivity|simpl in HL; lia|]. intros r Hr. apply HR. right. exact Hr. }
  rewrite G; [|rewrite map_length; exact HL|exact HR]. rewrite map_map. clear. induction interior as [|b l IH]; [reflexivity|]. simpl. rewrite Rinv_inv, IH. reflexivity.
Qed.
(** the gap below a rung widens exactly when the colder rung has the larger ratio *)
Theorem C47_gap_direction kappa b0 b1 blast r0 r1 : 0 < kappa -> 0 < b1 < b0 ->
  exists b1', adapt_temperatures kappa b0 [b1] blast r0 [r1] = [b0; b1'; blast] /\ (b1' < b1 <-> r1 < r0) /\ (b1 < b1' <-> r0 < r1).
Proof.
  intros Hk Hb. eexists. split; [reflexivity|]. simpl.
  assert (I : / b0 < / b1) by (apply Rinv_lt_contravar; [nra|lra]). assert (I0 : 0 < / b0) by (apply Rinv_0_lt_compat; lra).
  set (T := / b0 + (/ b1 - / b0) * exp (kappa * (r0 - r1))). set (e := exp (kappa * (r0 - r1))) in *.
  assert (Tp : 0 < T) by (unfold T; pose proof (exp_pos (kappa * (r0 - r1))); fold e in H; nra).
  assert (C : (r1 < r0 -> / b1 < T) /\ (r0 < r1 -> T < / b1) /\ (r0 = r1 -> T = / b1)).
  { split; [|split]; intros H.
    - assert (1 < e) by (unfold e; rewrite <- exp_0; apply exp_increasing; nra). unfold T. nra.
    - assert (e < 1) by (unfold e; rewrite <- exp_0; apply exp_increasing; nra). unfold T. nra.
    - unfold T, e. rewrite H. replace (kappa * (r1 - r1)) with 0 by ring. rewrite exp_0. ring. }
  destruct C as (C1 & C2 & C3).
  assert (D1 : / b1 < T -> / T < b1) by (intros H; rewrite <- (Rinv_inv b1); apply Rinv_lt_contravar; [apply Rmult_lt_0_compat; [apply Rinv_0_lt_compat; lra|exact Tp]|exact H]).
  assert (D2 : T < / b1 -> b1 < / T) by (intros H; rewrite <- (Rinv_inv b1) at 1; apply Rinv_lt_contravar; [apply Rmult_lt_0_compat; [exact Tp|apply Rinv_0_lt_compat; lra]|exact H]).
  assert (D3 : T = / b1 -> / T = b1) by (intros ->; apply Rinv_inv).
  destruct (Rtotal_order r0 r1) as [H|[H|H]]; split; split; intros G; try lra; try (specialize (C1 H)); try (specialize (C2 H)); try (specialize (C3 H)); intuition lra.
Qed.
(** but the fixed hottest rung can be overtaken: with temperatures 1, 10, 10.5, ratios 0.95
    and 0.05 and the largest kappa of the default settings (t0 = 100, nu = 10), the middle
    chain becomes hotter than the hottest *)
Theorem C47_order_with_hottest_refuted : exists b1', adapt_temperatures (kappa_of 100 10 0) 1 [/ 10] (2/21) (95/100) [5/100] = [1; b1'; 2/21] /\ b1' < 2/21.
Proof.
  eexists. split; [reflexivity|]. simpl. unfold kappa_of. replace (100 / (0 + 100) / 10 * (95/100 - 5/100)) with (9/100) by field. rewrite Rinv_inv, Rinv_1.
  pose proof (exp_ineq1 (9/100) ltac:(lra)) as E. replace (2/21) with (/ (21/2)) by field. apply Rinv_lt_contravar; [|lra]. apply Rmult_lt_0_compat; lra.
Qed.
(** initial ladder: geometric from 1 to 1/Tmax *)
Theorem C47_initial_ladder tmax n : 1 < tmax -> (2 <= n)%nat ->
  length (initial_betas tmax n) = n /\ nth 0 (initial_betas tmax n) 0 = 1 /\ nth (n - 1) (initial_betas tmax n) 0 = / tmax /\
  forall k, (S k < n)%nat -> nth (S k) (initial_betas tmax n) 0 = nth k (initial_betas tmax n) 0 * Rpower tmax (- (1 / INR (n - 1))) /\
    0 < nth (S k) (initial_betas tmax n) 0 < nth k (initial_betas tmax n) 0.
Proof.
  intros Ht Hn. assert (L10 : 0 < ln 10) by (rewrite <- ln_1; apply ln_increasing; lra). assert (LT : 0 < ln tmax) by (rewrite <- ln_1; apply ln_increasing; lra).
  assert (Np : 0 < INR (n - 1)) by (apply lt_0_INR; lia).
  assert (G : forall k, (k < n)%nat -> nth k (initial_betas tmax n) 0 = exp (- (INR k / INR (n - 1)) * ln tmax)).
  { intros k Hk. unfold initial_betas. set (h := fun j : nat => _). rewrite nth_indep with (d' := h 0%nat) by (rewrite map_length, seq_length; exact Hk). rewrite map_nth, seq_nth by exact Hk. unfold h, Rpower. f_equal. simpl plus. field. lra. }
  split; [unfold initial_betas; rewrite map_length, seq_length; reflexivity|].
  split; [rewrite G by lia; simpl INR; unfold Rdiv; rewrite Rmult_0_l, Ropp_0, Rmult_0_l; apply exp_0|].
  split; [rewrite G by lia; replace (- (INR (n - 1) / INR (n - 1)) * ln tmax) with (- ln tmax) by (field; lra); rewrite exp_Ropp, exp_ln by lra; reflexivity|].
  intros k Hk. rewrite !G by lia. assert (E : exp (- (INR (S k) / INR (n - 1)) * ln tmax) = exp (- (INR k / INR (n - 1)) * ln tmax) * Rpower tmax (- (1 / INR (n - 1)))).
  { unfold Rpower. rewrite <- exp_plus. f_equal. rewrite S_INR. field. lra. }
  split; [exact E|]. split; [apply exp_pos|]. apply exp_increasing. apply Rmult_lt_compat_r; [exact LT|]. apply Ropp_lt_contravar. apply Rmult_lt_compat_r; [apply Rinv_0_lt_compat; exact Np|]. rewrite S_INR. lra.
Qed.
Example C47_ex : adapt_temperatures 1 1 [1/2] (1/4) (ln 3) [0] = [1; / 4; 1/4].
Proof. unfold adapt_temperatures. simpl. rewrite Rinv_1. replace (1 * (ln 3 - 0)) with (ln 3) by ring. rewrite exp_ln by lra. do 2 f_equal. field. Qed.

(** ** Assumptions of every theorem above *)
Definition Evidence_Props_all :=
  (@C46_stepping_stone_jensen,
   @C46_stepping_stone_bounds,
   @C46_thermodynamic_bounds,
   @C46_constant_likelihood,
   @C46_exact_for_constant_refuted,
   @C46_stepping_stone_consistent,
   @C46_combined_between,
   @C46_combined_is_mean,
   @C46_combined_err_no_gain,
   @C47_adapted_ladder,
   @C47_equal_ratios_fixed,
   @C47_gap_direction,
   @C47_order_with_hottest_refuted,
   @C47_initial_ladder).
Print Assumptions Evidence_Props_all.
