(** * Single proposals of bilby_mcmc (C41-C45) *)
From Coq Require Import Reals List Bool ZArith Lra Lia Psatz.
From Coquelicot Require Import Coquelicot.
From Verif Require Import PyReal PriorSpec Mcmc_Model Propose_Model.
Import ListNotations.
Open Scope R_scope.

(** ** C41 stretch move *)
Lemma stretch_base a u : 1 < a -> 0 <= u <= 1 -> 1 <= u * (a - 1) + 1 <= a.
Proof. intros. nra. Qed.
Theorem C41_z_range a u : 1 < a -> 0 <= u <= 1 -> / a <= stretch_z a u <= a.
Proof.
  intros Ha Hu. pose proof (stretch_base a u Ha Hu) as [L U]. unfold stretch_z, Rdiv.
  assert (I : 0 < / a) by (apply Rinv_0_lt_compat; lra). split.
  - rewrite <- (Rmult_1_l (/ a)) at 1. apply Rmult_le_compat_r; [lra|]. nra.
  - replace a with (a ^ 2 * / a) at 3 by (field; lra). apply Rmult_le_compat_r; [lra|]. nra.
Qed.
(** the density Goodman & Weare require, up to its constant 1/sqrt z on [1/a, a] *)
Definition gw_density (a z : R) : R := sqrt a / (2 * (a - 1) * sqrt z).
(** z has exactly this density: the probability of z <= t is the integral up to t *)
Theorem C41_z_density a t : 1 < a -> / a <= t <= a ->
  exists ut, 0 <= ut <= 1 /\ (forall u, 0 <= u <= 1 -> (stretch_z a u <= t <-> u <= ut)) /\ is_RInt (gw_density a) (/ a) t ut.
Proof.
  intros Ha Ht. assert (I : 0 < / a) by (apply Rinv_0_lt_compat; lra).
  assert (At : 1 <= a * t <= a * a).
  { split; [replace 1 with (a * / a) by (field; lra)|]; apply Rmult_le_compat_l; lra. }
  assert (S1 : 1 <= sqrt (a * t)) by (rewrite <- sqrt_1; apply sqrt_le_1; lra).
  assert (S2 : sqrt (a * t) <= a) by (apply Rle_trans with (sqrt (a * a)); [apply sqrt_le_1; lra|rewrite sqrt_square; lra]).
  assert (SS : sqrt (a * t) * sqrt (a * t) = a * t) by (apply sqrt_sqrt; lra).
  exists ((sqrt (a * t) - 1) / (a - 1)). split; [|split].
  - split; [apply Rmult_le_pos; [lra|left; apply Rinv_0_lt_compat; lra]|]. apply Rmult_le_reg_r with (a - 1); [lra|]. unfold Rdiv. rewrite Rmult_assoc, Rinv_l by lra. lra.
  - intros u Hu. pose proof (stretch_base a u Ha Hu) as [L U].
    assert (E1 : stretch_z a u <= t <-> (u * (a - 1) + 1) ^ 2 <= a * t).
    { unfold stretch_z. split; intros H.
      - apply Rmult_le_reg_r with (/ a); [lra|]. replace (a * t * / a) with t by (field; lra). exact H.
      - apply Rmult_le_reg_r with a; [lra|]. unfold Rdiv. rewrite Rmult_assoc, Rinv_l by lra. lra. }
    assert (E2 : u <= (sqrt (a * t) - 1) / (a - 1) <-> u * (a - 1) + 1 <= sqrt (a * t)).
    { split; intros H.
      - apply Rmult_le_compat_r with (r := a - 1) in H; [|lra]. unfold Rdiv in H. rewrite Rmult_assoc, Rinv_l in H by lra. lra.
      - apply Rmult_le_reg_r with (a - 1); [lra|]. unfold Rdiv. rewrite Rmult_assoc, Rinv_l by lra. lra. }
    rewrite E1, E2. split; intros H; nra.
  - apply is_RInt_val with ((sqrt (a * t)) / (a - 1) - (sqrt (a * / a)) / (a - 1)).
    2:{ rewrite Rinv_r, sqrt_1 by lra. field. lra. }
    apply (is_RInt_derive (fun x => sqrt (a * x) / (a - 1)) (gw_density a)).
    + intros x Hx. rewrite Rmin_left, Rmax_right in Hx by lra. assert (0 < a * x) by nra. unfold gw_density. auto_derive; [assumption|].
      rewrite sqrt_mult by lra. assert (0 < sqrt a) by (apply sqrt_lt_R0; lra). assert (0 < sqrt x) by (apply sqrt_lt_R0; lra).
      assert (Sa : a = sqrt a * sqrt a) by (symmetry; apply sqrt_sqrt; lra). rewrite Sa at 1. field. repeat split; lra.
    + intros x Hx. rewrite Rmin_left, Rmax_right in Hx by lra. apply (cont_of_derive (gw_density a)). unfold gw_density. assert (0 < sqrt x) by (apply sqrt_lt_R0; lra). auto_derive.
      repeat split; try lra. apply Rmult_integral_contrapositive. split; lra.
Qed.
(** and that density has the symmetry that makes the move reversible *)
Theorem C41_density_symmetric a z : 1 < a -> 0 < z -> gw_density a (/ z) = z * gw_density a z.
Proof.
  intros Ha Hz. unfold gw_density. assert (0 < sqrt z) by (apply sqrt_lt_R0; lra). rewrite sqrt_inv by lra.
  assert (Sz : z = sqrt z * sqrt z) by (symmetry; apply sqrt_sqrt; lra). rewrite Sz at 2. field. split; lra.
Qed.
(** moving back with 1/z from the proposed point restores the sample, and the log factors
    of the two moves are opposite *)
Theorem C41_reverse ndim sample complement z : 0 < z -> length sample = length complement ->
  stretch_point (stretch_point sample complement z) complement (/ z) = sample /\
  stretch_log_factor ndim (/ z) = - stretch_log_factor ndim z.
Proof.
  intros Hz HL. split.
  - revert complement HL. induction sample as [|s sample IH]; intros [|c complement] HL; try discriminate; [reflexivity|].
    unfold stretch_point in *. simpl. f_equal; [field; lra|]. apply IH. simpl in HL. lia.
  - unfold stretch_log_factor. rewrite ln_Rinv by exact Hz. ring.
Qed.
(** distance from the complement along the ray; volume element r^(ndim-1) dr: the density
    of moving from radius r to radius r' *)
Definition radial_density (a : R) (ndim : nat) (r r' : R) : R := gw_density a (r' / r) / r / r' ^ (ndim - 1).
Theorem C41_log_factor a ndim r z : 1 < a -> (1 <= ndim)%nat -> 0 < r -> 0 < z ->
  exp (stretch_log_factor ndim z) = radial_density a ndim (r * z) r / radial_density a ndim r (r * z).
Proof.
  intros Ha Hn Hr Hz. unfold radial_density, stretch_log_factor.
  replace (r / (r * z)) with (/ z) by (field; lra). replace (r * z / r) with z by (field; lra). rewrite C41_density_symmetric by lra.
  replace (INR ndim - 1) with (INR (ndim - 1)) by (rewrite minus_INR by exact Hn; reflexivity).
  assert (Gp : 0 < gw_density a z).
  { unfold gw_density. apply Rdiv_lt_0_compat; [apply sqrt_lt_R0; lra|]. apply Rmult_lt_0_compat; [lra|apply sqrt_lt_R0; lra]. }
  change (exp (INR (ndim - 1) * ln z)) with (Rpower z (INR (ndim - 1))). rewrite Rpower_pow by exact Hz. rewrite Rpow_mult_distr.
  assert (r ^ (ndim - 1) <> 0) by (apply pow_nonzero; lra). assert (z ^ (ndim - 1) <> 0) by (apply pow_nonzero; lra). field. repeat split; try assumption; lra.
Qed.
Example C41_ex : stretch_move [3; 5] [1; 1] 2 2 1 = ([5; 9], ln 2).
Proof.
  unfold stretch_move. replace (stretch_z 2 1) with 2 by (unfold stretch_z; field). unfold stretch_point, stretch_log_factor. simpl. f_equal; [repeat f_equal; ring|ring].
Qed.

(** ** C42 reversal proposals *)
Lemma mod_compose x y z m : 0 < m -> rmod (rmod (x + y) m + z) m = rmod (x + y + z) m.
Proof.
  intros Hm. destruct (rmod_congr (x + y) m) as [k Hk]. rewrite Hk. replace (x + y - m * IZR k + z) with (x + y + z + m * IZR (- k)) by (rewrite opp_IZR; ring). apply rmod_shift. exact Hm.
Qed.
Theorem C42_range eps phase psi : 0 <= phase_reversal eps phase < 2 * PI /\ 0 <= polarisation_reversal eps psi < PI.
Proof. pose proof PI_RGT_0. split; apply rmod_range; lra. Qed.
(** with opposite fuzz the reversal undoes itself, so with symmetric fuzz the proposal is
    symmetric on the circle; without fuzz it is an involution *)
Theorem C42_phase_undone eps phase : 0 <= phase < 2 * PI -> phase_reversal (- eps) (phase_reversal eps phase) = phase.
Proof.
  intros H. pose proof PI_RGT_0. unfold phase_reversal. replace (rmod (phase + PI + eps) (2 * PI) + PI + - eps) with (rmod (phase + (PI + eps)) (2 * PI) + (PI + - eps)) by (rewrite <- !Rplus_assoc; reflexivity).
  rewrite mod_compose by lra. apply (rmod_unique _ _ _ 1); [lra|exact H|]. simpl. ring.
Qed.
Theorem C42_polarisation_undone eps psi : 0 <= psi < PI -> polarisation_reversal (- eps) (polarisation_reversal eps psi) = psi.
Proof.
  intros H. pose proof PI_RGT_0. unfold polarisation_reversal. replace (rmod (psi + PI / 2 + eps) PI + PI / 2 + - eps) with (rmod (psi + (PI / 2 + eps)) PI + (PI / 2 + - eps)) by (rewrite <- !Rplus_assoc; reflexivity).
  rewrite mod_compose by lra. apply (rmod_unique _ _ _ 1); [lra|exact H|]. simpl. field.
Qed.
Theorem C42_both_undone e1 e2 p : 0 <= fst p < 2 * PI -> 0 <= snd p < PI ->
  phase_polarisation_reversal (- e1) (- e2) (phase_polarisation_reversal e1 e2 p) = p.
Proof. intros H1 H2. destruct p as [a b]. unfold phase_polarisation_reversal. simpl in *. f_equal; [apply (C42_phase_undone e1 a H1)|apply (C42_polarisation_undone e2 b H2)]. Qed.
(** gravitational-wave symmetry: without fuzz the combinations 2*phase and 2*psi that enter
    the quadrupole waveform are unchanged modulo full turns *)
Theorem C42_quadrupole_invariant phase psi : exists j k : Z,
  2 * phase_reversal 0 phase = 2 * phase + 2 * PI * IZR j /\ 4 * polarisation_reversal 0 psi = 4 * psi + 2 * PI * IZR k.
Proof.
  unfold phase_reversal, polarisation_reversal, rmod. set (j := Int_part _). set (k := Int_part ((psi + PI / 2 + 0) / PI)).
  exists (1 - 2 * j)%Z, (1 - 2 * k)%Z. rewrite !minus_IZR, !mult_IZR. split; field.
Qed.
Example C42_ex : phase_reversal 0 (3 * PI / 2) = PI / 2.
Proof. pose proof PI_RGT_0. unfold phase_reversal. apply (rmod_unique _ _ _ 1); [lra|lra|]. simpl. field. Qed.
(** the jump in psi and phase keeps either their difference or their sum *)
Theorem C42_jump first v psi phase : let '(psi', phase') := correlated_jump first v (psi, phase) in
  if first then psi' - phase' = psi - phase /\ psi' + phase' = 3 * PI * v else psi' + phase' = psi + phase /\ psi' - phase' = 3 * PI * v - 2 * PI.
Proof. unfold correlated_jump. destruct first; split; field. Qed.
(** a phase written as delta_phase is read back, modulo a full turn *)
Theorem C42_delta_phase s psi phase : get_phase s psi (get_delta_phase s psi phase) = rmod phase (2 * PI).
Proof. unfold get_phase, get_delta_phase. f_equal. ring. Qed.

(** ** C43 adaptive scale *)
Theorem C43_scale_bounded_below g l : 0 < stop g -> Rmin (scale g) (1 / stop g) <= scale (uses g l) /\ stop (uses g l) = stop g.
Proof.
  revert g. induction l as [|b l IH]; intros g Hs; [split; [apply Rmin_l|reflexivity]|]. cbn [uses fold_left].
  assert (E : stop (use g b) = stop g /\ Rmin (scale g) (1 / stop g) <= scale (use g b) /\ Rmin (scale g) (1 / stop g) <= 1 / stop g).
  { split; [|split; [|apply Rmin_r]]; unfold use, update_scale; destruct (Rlt_dec 0 (n_of g)), (Rlt_dec (n_of g) (stop g)), b; simpl; try reflexivity; try apply Rmin_l; (eapply Rle_trans; [apply Rmin_r|apply Rmax_r]). }
  destruct E as (E1 & E2 & E3). destruct (IH (use g b)) as [A B]; [rewrite E1; exact Hs|]. rewrite E1 in A, B. split; [|exact B].
  eapply Rle_trans; [|exact A]. apply Rmin_glb; assumption.
Qed.
(** every accepted use widens the proposal and every rejected one narrows it (down to the
    bound) while adapting; after [stop] uses the scale is frozen *)
Theorem C43_direction g : 0 < n_of g < stop g -> 0 < target_facc g < 1 ->
  if Nat.ltb (last_acc g) (acc g) then scale g < scale (update_scale g) else scale (update_scale g) < scale g \/ scale (update_scale g) = 1 / stop g.
Proof.
  intros [Hn Hs] Ht. assert (P1 : 1 < Rpower (stop g / n_of g) (2/10)).
  { rewrite <- (Rpower_O (stop g / n_of g)) at 1 by (apply Rdiv_lt_0_compat; lra). apply Rpower_lt; [|lra].
    apply Rmult_lt_reg_r with (n_of g); [exact Hn|]. unfold Rdiv. rewrite Rmult_assoc, Rinv_l by lra. lra. }
  unfold update_scale. destruct (Rlt_dec 0 (n_of g)); [|contradiction]. destruct (Rlt_dec (n_of g) (stop g)); [|contradiction]. cbn [scale].
  destruct (Nat.ltb (last_acc g) (acc g)).
  - eapply Rlt_le_trans; [|apply Rmax_l]. nra.
  - destruct (Rle_dec (1 / stop g) (scale g - (Rpower (stop g / n_of g) (2 / 10) - 1) * target_facc g / 100)) as [L|L].
    + left. rewrite Rmax_left by exact L. nra.
    + right. apply Rmax_right. lra.
Qed.
Theorem C43_frozen g l : stop g <= n_of g -> scale (uses g l) = scale g.
Proof.
  revert g. induction l as [|b l IH]; intros g H; [reflexivity|]. cbn [uses fold_left].
  assert (U : update_scale g = g) by (unfold update_scale; destruct (Rlt_dec 0 (n_of g)); [|reflexivity]; destruct (Rlt_dec (n_of g) (stop g)); [lra|reflexivity]).
  change (scale (uses (use g b) l) = scale g). rewrite IH.
  - unfold use. rewrite U. destruct b; reflexivity.
  - unfold use. rewrite U. eapply Rle_trans; [|apply le_INR with (n := (acc g + rej g)%nat)]; [destruct b; exact H|]. destruct b; simpl; lia.
Qed.
(** one accepted use out of 32 adaptation steps: the factor (32/1)^0.2 - 1 is 1 *)
Example C43_ex : scale (update_scale (mkAgp 1 32 (1/4) 1 0 0)) = 1 + 3/400.
Proof.
  unfold update_scale, n_of. cbn [scale stop target_facc acc rej last_acc]. change (INR (1 + 0)) with 1. destruct (Rlt_dec 0 1); [|lra]. destruct (Rlt_dec 1 32); [|lra]. cbn [scale Nat.ltb Nat.leb].
  replace (32 / 1) with (Rpower 2 5). 2:{ replace 5 with (INR 5) by (simpl; ring). rewrite Rpower_pow by lra. simpl. field. }
  rewrite Rpower_mult. replace (5 * (2/10)) with 1 by field. rewrite Rpower_1 by lra. rewrite Rmax_left; lra.
Qed.

(** ** C44 uniform proposal *)
(** the class documents draws over the prior support for priors of finite width; in fact a
    chain that uses only this proposal never leaves its starting point, for all priors,
    likelihoods, temperatures and random numbers (boundaries not applied) *)
Theorem C44_uniform_never_moves logp logl beta ps (start : list R) (rs : list (list R * R)) :
  fold_left (fun x r => mh_next logp logl beta 0 x (uniform_propose ps x (fst r)) (snd r)) rs start = start.
Proof.
  assert (U : forall ps x us, uniform_propose ps x us = x).
  { clear. induction ps as [|p ps IH]; intros [|x xs] [|u us]; try reflexivity. simpl. rewrite IH. reflexivity. }
  induction rs as [|r rs IH]; [reflexivity|]. cbn [fold_left]. rewrite U. unfold mh_next at 2.
  destruct (log_alpha _ _ _ _ _ _) as [la|]; [destruct (Rle_dec _ _)|]; exact IH.
Qed.
Theorem C44_documented_draw_refuted : exists mn mx cur u, mn < mx /\ mn <= cur <= mx /\ 0 <= u <= 1 /\
  uniform_propose [mkU mn mx (Some (mx - mn))] [cur] [u] <> [mn + (mx - mn) * u].
Proof. exists 0, 1, 0, (1/2). split; [lra|]. split; [lra|]. split; [lra|]. simpl. unfold uniform_value. simpl. intros H. injection H. lra. Qed.

(** ** C45 proposal cycle *)
Section C45.
Context {P : Type}.
Variable d : P.
Lemma draws_spec n : forall c : @cycle P, (pos c < length (entries c))%nat ->
  exists l, draws n c = Some (l, mkCycle (entries c) (Nat.modulo (pos c + n) (length (entries c)))) /\ length l = n /\
    forall i, (i < n)%nat -> nth i l d = nth (Nat.modulo (pos c + i) (length (entries c))) (entries c) d.
Proof.
  induction n as [|n IH]; intros c Hc.
  - exists []. split; [|split; [reflexivity|intros; lia]]. simpl. rewrite Nat.add_0_r, Nat.mod_small by exact Hc. destruct c; reflexivity.
  - assert (NZ : length (entries c) <> 0%nat) by lia. cbn [draws]. unfold get_proposal. rewrite (nth_error_nth' _ d Hc).
    set (c1 := mkCycle (entries c) (Nat.modulo (pos c + 1) (length (entries c)))).
    destruct (IH c1) as (l & A & B & C); [simpl; apply Nat.mod_upper_bound; exact NZ|]. rewrite A. exists (nth (pos c) (entries c) d :: l).
    split; [f_equal; f_equal; simpl; f_equal; rewrite Nat.add_mod_idemp_l by exact NZ; f_equal; lia|]. split; [simpl; lia|].
    intros [|i] Hi; simpl.
    + rewrite Nat.add_0_r, Nat.mod_small by exact Hc. reflexivity.
    + rewrite C by lia. simpl. rewrite Nat.add_mod_idemp_l by exact NZ. do 2 f_equal. lia.
Qed.
(** starting anywhere, the k-th draw is the entry k places further round; a full turn
    returns every entry once and ends where it began *)
Theorem C45_round_robin (c : @cycle P) n : (pos c < length (entries c))%nat ->
  exists l c', draws n c = Some (l, c') /\ length l = n /\ (pos c' < length (entries c'))%nat /\ entries c' = entries c /\
    forall i, (i < n)%nat -> nth i l d = nth (Nat.modulo (pos c + i) (length (entries c))) (entries c) d.
Proof.
  intros H. destruct (draws_spec n c H) as (l & A & B & C). exists l, (mkCycle (entries c) (Nat.modulo (pos c + n) (length (entries c)))).
  split; [exact A|]. split; [exact B|]. split; [simpl; apply Nat.mod_upper_bound; lia|]. split; [reflexivity|exact C].
Qed.
Theorem C45_full_turn (es : list P) : es <> [] -> draws (length es) (mkCycle es 0) = Some (es, mkCycle es 0).
Proof.
  intros H. assert (L : (0 < length es)%nat) by (destruct es; [congruence|simpl; lia]).
  destruct (draws_spec (length es) (mkCycle es 0) L) as (l & A & B & C). rewrite A. simpl. rewrite Nat.mod_same by lia. f_equal. f_equal.
  apply nth_ext with d d; [exact B|]. intros i Hi. rewrite B in Hi. rewrite C by exact Hi. simpl. rewrite Nat.mod_small by exact Hi. reflexivity.
Qed.
End C45.
Example C45_ex : draws 5 (mkCycle [1;2;3]%nat 1) = Some ([2;3;1;2;3]%nat, mkCycle [1;2;3]%nat 0).
Proof. reflexivity. Qed.

(** ** Assumptions of every theorem above *)
Definition Propose_Props_all :=
  (@C41_z_range,
   @C41_z_density,
   @C41_density_symmetric,
   @C41_reverse,
   @C41_log_factor,
   @C42_range,
   @C42_phase_undone,
   @C42_polarisation_undone,
   @C42_both_undone,
   @C42_quadrupole_invariant,
   @C42_jump,
   @C42_delta_phase,
   @C43_scale_bounded_below,
   @C43_direction,
   @C43_frozen,
   @C44_uniform_never_moves,
   @C44_documented_draw_refuted,
   @C45_round_robin,
   @C45_full_turn).
Print Assumptions Propose_Props_all.
