(** * C238: the jump proposals for compact binaries *)
From Coq Require Import String Reals List Bool Arith Lra Lia.
From Verif Require Import PyReal PyDict Jump_Model Jump_Props GwJump_Model.
Import ListNotations.
Open Scope R_scope.

(** Every parameter has a prior of positive width *)
Definition ready (priors : dict pr) (s : sample) : Prop := wf s /\ forall k, In k (dkeys s) -> exists p, dget priors k = Some p /\ mn p < mx p.
(** The prior of an angle: no boundary, or periodic with width [w] *)
Definition angle (priors : dict pr) (k : string) (w : R) : Prop := exists p, dget priors k = Some p /\ (bd p = Free \/ bd p = Periodic /\ mx p - mn p = w).
(** A parameter the proposal must not touch *)
Definition untouched (priors : dict pr) (s s' : sample) (k : string) : Prop :=
  forall p x, dget priors k = Some p -> dget s k = Some x -> bd p = Free \/ mn p <= x <= mx p -> dget s' k = Some x.

Lemma final_in p x : mn p < mx p -> bd p = Free \/ mn p <= x <= mx p -> final p x = x.
Proof.
  intros L H. unfold final. destruct (bd p) eqn:B; [reflexivity| |]; (destruct H as [H|H]; [discriminate H|]).
  - apply (proj1 (wrap1_spec p x L)). exact H.
  - apply (proj1 (reflect1_spec p x L)). exact H.
Qed.
Lemma final_angle p w x : mn p < mx p -> bd p = Free \/ bd p = Periodic /\ mx p - mn p = w -> exists k, final p x = x + IZR k * w.
Proof.
  intros L [B|[B W]]; unfold final; rewrite B.
  - exists 0%Z. ring.
  - destruct (outside p x) eqn:O.
    + apply outside_true in O. destruct (proj2 (wrap1_spec p x L) ltac:(lra)) as [_ [k K]]. exists k. rewrite K, W. reflexivity.
    + apply outside_false in O. exists 0%Z. rewrite (proj1 (wrap1_spec p x L) O). ring.
Qed.
Lemma in_keys {V} (d : dict V) k x : dget d k = Some x -> In k (dkeys d).
Proof. intros E. apply dmem_in. unfold dmem. rewrite E. reflexivity. Qed.
(** Two of the values replaced, then the boundaries *)
Lemma finish_two priors s k1 k2 x1 x2 y1 y2 : ready priors s -> k1 <> k2 -> dget s k1 = Some x1 -> dget s k2 = Some x2 ->
  exists s', finish priors 0 (Some (dset (dset s k1 y1) k2 y2)) = Some (s', 0) /\ dkeys s' = dkeys s /\
    (forall p, dget priors k1 = Some p -> dget s' k1 = Some (final p y1)) /\
    (forall p, dget priors k2 = Some p -> dget s' k2 = Some (final p y2)) /\
    (forall k, k <> k1 -> k <> k2 -> untouched priors s s' k).
Proof.
  intros [W H] N E1 E2. set (t := dset (dset s k1 y1) k2 y2).
  assert (K : dkeys t = dkeys s).
  { unfold t. rewrite dkeys_set_mem; [apply dkeys_set_mem; eapply in_keys; exact E1|]. rewrite dkeys_set_mem; eapply in_keys; eassumption. }
  destruct (apply_spec priors t) as (s' & E & K' & F).
  { unfold wf. rewrite K. exact W. }
  { intros k Hk. rewrite K in Hk. destruct (H k Hk) as (p & Ep & _). congruence. }
  exists s'. unfold finish. cbn [bind]. rewrite E. cbn [bind]. split; [reflexivity|]. split; [congruence|]. repeat match goal with |- _ /\ _ => split end.
  - intros p Ep. apply F; [exact Ep|]. unfold t. rewrite dget_set_ne by exact N. apply dget_set_eq.
  - intros p Ep. apply F; [exact Ep|]. apply dget_set_eq.
  - intros k N1 N2 p x Ep Ex B. rewrite (F k p x Ep).
    + f_equal. apply final_in; [|exact B]. destruct (H k (in_keys _ _ _ Ex)) as (q & Eq & L). congruence.
    + unfold t. rewrite !dget_set_ne by assumption. exact Ex.
Qed.
Lemma ready_prior priors s k x : ready priors s -> dget s k = Some x -> exists p, dget priors k = Some p /\ mn p < mx p.
Proof. intros [_ H] E. apply H. eapply in_keys. exact E. Qed.

(** ** The correlated jump keeps one of psi - phase and psi + phase, as angles, and makes the other one uniform *)
Theorem C238_correlated priors draw u s a b : ready priors s -> angle priors "psi" PI -> angle priors "phase" (2 * PI) ->
  dget s "psi" = Some a -> dget s "phase" = Some b ->
  exists s' a' b' k l, corr_jump priors draw u s = Some (s', 0) /\ dkeys s' = dkeys s /\ dget s' "psi" = Some a' /\ dget s' "phase" = Some b' /\
    (draw < 1 / 2 -> a' - b' = a - b + IZR k * PI /\ a' + b' = 3 * PI * u + IZR l * PI) /\
    (1 / 2 <= draw -> a' + b' = a + b + IZR k * PI /\ a' - b' = 3 * PI * u - 2 * PI + IZR l * PI) /\
    forall key, key <> "psi"%string -> key <> "phase"%string -> untouched priors s s' key.
Proof.
  intros Rd (p & Ep & Ap) (q & Eq & Aq) Ea Eb.
  destruct (ready_prior _ _ _ _ Rd Ea) as (p' & Ep' & Lp). assert (p' = p) by congruence. subst p'.
  destruct (ready_prior _ _ _ _ Rd Eb) as (q' & Eq' & Lq). assert (q' = q) by congruence. subst q'.
  unfold corr_jump, corr_move. rewrite Ea, Eb. cbn [bind].
  destruct (Rlt_dec draw (5 / 10)) as [D|D]; cbv iota.
  - destruct (finish_two priors s "psi" "phase" a b ((3 * PI * u + (a - b)) * (5 / 10)) ((3 * PI * u - (a - b)) * (5 / 10)) Rd ltac:(discriminate) Ea Eb) as (s' & F & K & F1 & F2 & F3).
    destruct (final_angle p PI ((3 * PI * u + (a - b)) * (5 / 10)) Lp Ap) as [i Hi].
    destruct (final_angle q (2 * PI) ((3 * PI * u - (a - b)) * (5 / 10)) Lq Aq) as [j Hj].
    exists s'. do 2 eexists. exists (i - 2 * j)%Z, (i + 2 * j)%Z. split; [exact F|]. split; [exact K|]. split; [apply F1; exact Ep|]. split; [apply F2; exact Eq|].
    rewrite Hi, Hj, minus_IZR, plus_IZR, mult_IZR. split; [intros _; split; lra|]. split; [intros; lra|]. exact F3.
  - destruct (finish_two priors s "psi" "phase" a b ((a + b + (3 * PI * u - 2 * PI)) * (5 / 10)) ((a + b - (3 * PI * u - 2 * PI)) * (5 / 10)) Rd ltac:(discriminate) Ea Eb) as (s' & F & K & F1 & F2 & F3).
    destruct (final_angle p PI ((a + b + (3 * PI * u - 2 * PI)) * (5 / 10)) Lp Ap) as [i Hi].
    destruct (final_angle q (2 * PI) ((a + b - (3 * PI * u - 2 * PI)) * (5 / 10)) Lq Aq) as [j Hj].
    exists s'. do 2 eexists. exists (i + 2 * j)%Z, (i - 2 * j)%Z. split; [exact F|]. split; [exact K|]. split; [apply F1; exact Ep|]. split; [apply F2; exact Eq|].
    rewrite Hi, Hj, minus_IZR, plus_IZR, mult_IZR. split; [intros; lra|]. split; [intros _; split; lra|]. exact F3.
Qed.
(** ** Without boundaries, from the usual ranges the same kind of jump leads back with another number from 0 up to 1 *)
Theorem C238_back priors draw u s a b p q : ready priors s -> dget priors "psi" = Some p -> bd p = Free -> dget priors "phase" = Some q -> bd q = Free ->
  (forall k r x, dget priors k = Some r -> dget s k = Some x -> bd r = Free \/ mn r <= x <= mx r) ->
  dget s "psi" = Some a -> dget s "phase" = Some b -> 0 <= a < PI -> 0 <= b < 2 * PI ->
  exists s' s'' v, corr_jump priors draw u s = Some (s', 0) /\ 0 <= v < 1 /\ corr_jump priors draw v s' = Some (s'', 0) /\ forall k, dget s'' k = dget s k.
Proof.
  intros Rd Ep Bp Eq Bq In Ea Eb Ra Rb. pose proof PI_RGT_0 as P0.
  assert (St : forall w t x y, ready priors t -> dget t "psi" = Some x -> dget t "phase" = Some y ->
    exists t', corr_jump priors draw w t = Some (t', 0) /\ dkeys t' = dkeys t /\
      dget t' "psi" = Some (if Rlt_dec draw (5 / 10) then (3 * PI * w + (x - y)) * (5 / 10) else (x + y + (3 * PI * w - 2 * PI)) * (5 / 10)) /\
      dget t' "phase" = Some (if Rlt_dec draw (5 / 10) then (3 * PI * w - (x - y)) * (5 / 10) else (x + y - (3 * PI * w - 2 * PI)) * (5 / 10)) /\
      forall k, k <> "psi"%string -> k <> "phase"%string -> untouched priors t t' k).
  { intros w t x y Rt Ex Ey. unfold corr_jump, corr_move. rewrite Ex, Ey. cbn [bind].
    destruct (Rlt_dec draw (5 / 10)) as [D|D]; cbv iota;
      [destruct (finish_two priors t "psi" "phase" x y ((3 * PI * w + (x - y)) * (5 / 10)) ((3 * PI * w - (x - y)) * (5 / 10)) Rt ltac:(discriminate) Ex Ey) as (t' & F & K & F1 & F2 & F3)
      |destruct (finish_two priors t "psi" "phase" x y ((x + y + (3 * PI * w - 2 * PI)) * (5 / 10)) ((x + y - (3 * PI * w - 2 * PI)) * (5 / 10)) Rt ltac:(discriminate) Ex Ey) as (t' & F & K & F1 & F2 & F3)];
      exists t'; (split; [exact F|]); (split; [exact K|]); rewrite (F1 _ Ep), (F2 _ Eq); unfold final; rewrite Bp, Bq; auto. }
  destruct (St u s a b Rd Ea Eb) as (s' & J & K & A' & B' & U).
  assert (Rd' : ready priors s') by (destruct Rd as [W H]; split; [unfold wf; rewrite K; exact W | rewrite K; exact H]).
  destruct (St (if Rlt_dec draw (5 / 10) then (a + b) / (3 * PI) else (a - b + 2 * PI) / (3 * PI)) s' _ _ Rd' A' B') as (s'' & J' & K' & A'' & B'' & U').
  exists s', s'', (if Rlt_dec draw (5 / 10) then (a + b) / (3 * PI) else (a - b + 2 * PI) / (3 * PI)).
  assert (Bd : forall x, 0 <= x < 3 * PI -> 0 <= x / (3 * PI) < 1).
  { intros x Hx. split; [apply Rmult_le_pos; [lra | left; apply Rinv_0_lt_compat; lra]|]. apply (Rmult_lt_reg_r (3 * PI)); [lra|]. unfold Rdiv. rewrite Rmult_assoc, Rinv_l by lra. lra. }
  split; [exact J|]. split; [destruct (Rlt_dec draw (5 / 10)); apply Bd; lra|]. split; [exact J'|].
  intros k. destruct (string_dec k "psi") as [->|N1]; [|destruct (string_dec k "phase") as [->|N2]].
  - rewrite A'', Ea. f_equal. destruct (Rlt_dec draw (5 / 10)); field; lra.
  - rewrite B'', Eb. f_equal. destruct (Rlt_dec draw (5 / 10)); field; lra.
  - destruct (dget s k) as [x|] eqn:Ex.
    + destruct (ready_prior _ _ _ _ Rd Ex) as (r & Er & _). pose proof (In k r x Er Ex) as I. apply (U' k N1 N2 r x Er); [|exact I]. apply (U k N1 N2 r x Er Ex I).
    + apply dget_none. rewrite K', K. apply dget_none. exact Ex.
Qed.

(** ** The polarisation jump, twice *)
Lemma half_twice p x : mn p < x < mx p -> let w := mx p - mn p in wrap1 p (wrap1 p (x + w / 2) + w / 2) = x.
Proof.
  intros H w. assert (L : mn p < mx p) by lra. assert (Hw : 0 < w) by (unfold w; lra).
  destruct (Rle_dec (x + w / 2) (mx p)) as [D|D].
  - rewrite (proj1 (wrap1_spec p (x + w / 2) L)) by lra. unfold wrap1. replace (outside p (x + w / 2 + w / 2)) with true by (symmetry; apply outside_true; left; unfold w; lra).
    fold w. rewrite (rmod_unique (x + w / 2 + w / 2 - mn p) w (x - mn p) 1) by (unfold w; lra). ring.
  - assert (E : wrap1 p (x + w / 2) = x - w / 2).
    { unfold wrap1. replace (outside p (x + w / 2)) with true by (symmetry; apply outside_true; left; lra). fold w.
      rewrite (rmod_unique (x + w / 2 - mn p) w (x - w / 2 - mn p) 1) by (unfold w in *; lra). ring. }
    rewrite E. replace (x - w / 2 + w / 2) with x by field. apply (proj1 (wrap1_spec p x L)). lra.
Qed.
Lemma pol_spec priors s a b p q : ready priors s -> dget s "psi" = Some a -> dget s "phase" = Some b -> dget priors "psi" = Some p -> dget priors "phase" = Some q ->
  exists s', pol_jump priors s = Some (s', 0) /\ dkeys s' = dkeys s /\ dget s' "psi" = Some (final p (a + PI / 2)) /\ dget s' "phase" = Some (final q (b + PI)) /\
    forall k, k <> "psi"%string -> k <> "phase"%string -> untouched priors s s' k.
Proof.
  intros Rd Ea Eb Ep Eq. unfold pol_jump, shift. rewrite Eb. cbn [bind]. rewrite dget_set_ne by discriminate. rewrite Ea. cbn [bind].
  destruct (finish_two priors s "phase" "psi" b a (b + PI) (a + PI / 2) Rd ltac:(discriminate) Eb Ea) as (s' & F & K & F1 & F2 & F3).
  exists s'. repeat match goal with |- _ /\ _ => split end; auto.
Qed.
(** With periodic priors of widths pi and 2 pi the second jump undoes the first, inside the ranges *)
Theorem C238_twice priors s a b p q : ready priors s -> dget priors "psi" = Some p -> bd p = Periodic -> mx p - mn p = PI ->
  dget priors "phase" = Some q -> bd q = Periodic -> mx q - mn q = 2 * PI ->
  (forall k r x, dget priors k = Some r -> dget s k = Some x -> bd r = Free \/ mn r <= x <= mx r) ->
  dget s "psi" = Some a -> dget s "phase" = Some b -> mn p < a < mx p -> mn q < b < mx q ->
  exists s' s'', pol_jump priors s = Some (s', 0) /\ pol_jump priors s' = Some (s'', 0) /\ (forall k, dget s'' k = dget s k) /\
    dget s' "psi" <> Some a /\ dget s' "phase" <> Some b.
Proof.
  intros Rd Ep Bp Wp Eq Bq Wq In Ea Eb Ra Rb. pose proof PI_RGT_0 as P0.
  destruct (pol_spec priors s a b p q Rd Ea Eb Ep Eq) as (s' & J & K & A' & B' & U).
  assert (Rd' : ready priors s') by (destruct Rd as [W H]; split; [unfold wf; rewrite K; exact W | rewrite K; exact H]).
  destruct (pol_spec priors s' _ _ p q Rd' A' B' Ep Eq) as (s'' & J' & K' & A'' & B'' & U').
  exists s', s''. split; [exact J|]. split; [exact J'|].
  unfold final in A', B', A'', B''. rewrite Bp in A', A''. rewrite Bq in B', B''. repeat match goal with |- _ /\ _ => split end.
  - intros k. destruct (string_dec k "psi") as [->|N1]; [|destruct (string_dec k "phase") as [->|N2]].
    + rewrite A'', Ea. f_equal. pose proof (half_twice p a Ra) as T. cbv zeta in T. rewrite Wp in T. exact T.
    + rewrite B'', Eb. f_equal. pose proof (half_twice q b Rb) as T. cbv zeta in T. rewrite Wq in T. replace (2 * PI / 2) with PI in T by field. exact T.
    + destruct (dget s k) as [x|] eqn:Ex.
      * destruct (ready_prior _ _ _ _ Rd Ex) as (r & Er & _). pose proof (In k r x Er Ex) as I. apply (U' k N1 N2 r x Er); [|exact I]. apply (U k N1 N2 r x Er Ex I).
      * apply dget_none. rewrite K', K. apply dget_none. exact Ex.
  - rewrite A'. intros T. injection T as T. pose proof (half_twice p a Ra) as T2. cbv zeta in T2. rewrite Wp, T, T in T2.
    destruct (final_angle p PI (a + PI / 2) ltac:(lra) (or_intror (conj Bp Wp))) as [k Hk]. unfold final in Hk. rewrite Bp, T in Hk.
    assert (Q : (2 * IZR k + 1) * PI = 0) by lra. apply Rmult_integral in Q as [Q|Q]; [|lra]. assert (Z : IZR (2 * k + 1) = IZR 0) by (rewrite plus_IZR, mult_IZR; lra). apply eq_IZR in Z. lia.
  - rewrite B'. intros T. injection T as T.
    destruct (final_angle q (2 * PI) (b + PI) ltac:(lra) (or_intror (conj Bq Wq))) as [k Hk]. unfold final in Hk. rewrite Bq, T in Hk.
    assert (Q : (2 * IZR k + 1) * PI = 0) by lra. apply Rmult_integral in Q as [Q|Q]; [|lra]. assert (Z : IZR (2 * k + 1) = IZR 0) by (rewrite plus_IZR, mult_IZR; lra). apply eq_IZR in Z. lia.
Qed.

(** ** The signal of a dominant quadrupole: antenna patterns are combinations of cos and sin of 2 psi, the polarisations of
    cos and sin of 2 phase. The jump does not lead to a degenerate point: it turns the signal into its negative *)
Definition quadrupole (f1 f2 g1 g2 h1 h2 psi phase : R) : R :=
  (f1 * cos (2 * psi) + f2 * sin (2 * psi)) * (g1 * cos (2 * phase) + g2 * sin (2 * phase)) +
  (f2 * cos (2 * psi) - f1 * sin (2 * psi)) * (h1 * cos (2 * phase) + h2 * sin (2 * phase)).
Lemma trig_turns x k : cos (x + 2 * IZR k * PI) = cos x /\ sin (x + 2 * IZR k * PI) = sin x.
Proof.
  destruct (Z_le_gt_dec 0 k) as [D|D].
  - replace (IZR k) with (INR (Z.to_nat k)) by (rewrite INR_IZR_INZ, Z2Nat.id by exact D; reflexivity). split; [apply cos_period | apply sin_period].
  - assert (E : IZR k = - INR (Z.to_nat (- k))) by (rewrite INR_IZR_INZ, Z2Nat.id, opp_IZR by lia; ring).
    rewrite E. set (y := x + 2 * - INR (Z.to_nat (- k)) * PI). replace x with (y + 2 * INR (Z.to_nat (- k)) * PI) by (unfold y; ring). rewrite cos_period, sin_period. auto.
Qed.
Theorem C238_sign_refuted priors s a b : ready priors s -> angle priors "psi" PI -> angle priors "phase" (2 * PI) -> dget s "psi" = Some a -> dget s "phase" = Some b ->
  exists s' a' b', pol_jump priors s = Some (s', 0) /\ dget s' "psi" = Some a' /\ dget s' "phase" = Some b' /\
    forall f1 f2 g1 g2 h1 h2, quadrupole f1 f2 g1 g2 h1 h2 a' b' = - quadrupole f1 f2 g1 g2 h1 h2 a b.
Proof.
  intros Rd (p & Ep & Ap) (q & Eq & Aq) Ea Eb.
  destruct (ready_prior _ _ _ _ Rd Ea) as (p' & Ep' & Lp). assert (p' = p) by congruence. subst p'.
  destruct (ready_prior _ _ _ _ Rd Eb) as (q' & Eq' & Lq). assert (q' = q) by congruence. subst q'.
  destruct (pol_spec priors s a b p q Rd Ea Eb Ep Eq) as (s' & J & _ & A' & B' & _).
  destruct (final_angle p PI (a + PI / 2) Lp Ap) as [i Hi]. destruct (final_angle q (2 * PI) (b + PI) Lq Aq) as [j Hj].
  exists s'. do 2 eexists. split; [exact J|]. split; [exact A'|]. split; [exact B'|]. intros. unfold quadrupole. rewrite Hi, Hj.
  replace (2 * (a + PI / 2 + IZR i * PI)) with ((2 * a + PI) + 2 * IZR i * PI) by field.
  replace (2 * (b + PI + IZR j * (2 * PI))) with (2 * b + 2 * IZR (1 + 2 * j) * PI) by (rewrite plus_IZR, mult_IZR; ring).
  rewrite !(proj1 (trig_turns _ _)), !(proj2 (trig_turns _ _)), neg_cos, neg_sin. ring.
Qed.
(** The correlated jump keeps the signal of a binary seen face on, which depends on psi - phase (or psi + phase) alone *)
Theorem C238_face_on priors draw u s a b : ready priors s -> angle priors "psi" PI -> angle priors "phase" (2 * PI) -> dget s "psi" = Some a -> dget s "phase" = Some b ->
  exists s' a' b', corr_jump priors draw u s = Some (s', 0) /\ dget s' "psi" = Some a' /\ dget s' "phase" = Some b' /\ forall f g,
    (draw < 1 / 2 -> f * cos (2 * (a' - b')) + g * sin (2 * (a' - b')) = f * cos (2 * (a - b)) + g * sin (2 * (a - b))) /\
    (1 / 2 <= draw -> f * cos (2 * (a' + b')) + g * sin (2 * (a' + b')) = f * cos (2 * (a + b)) + g * sin (2 * (a + b))).
Proof.
  intros Rd Ap Aq Ea Eb. destruct (C238_correlated priors draw u s a b Rd Ap Aq Ea Eb) as (s' & a' & b' & k & l & J & _ & A & B & H1 & H2 & _).
  exists s', a', b'. split; [exact J|]. split; [exact A|]. split; [exact B|]. intros f g. split; intros D.
  - destruct (H1 D) as [E _]. rewrite E. replace (2 * (a - b + IZR k * PI)) with (2 * (a - b) + 2 * IZR k * PI) by ring. destruct (trig_turns (2 * (a - b)) k) as [-> ->]. reflexivity.
  - destruct (H2 D) as [E _]. rewrite E. replace (2 * (a + b + IZR k * PI)) with (2 * (a + b) + 2 * IZR k * PI) by ring. destruct (trig_turns (2 * (a + b)) k) as [-> ->]. reflexivity.
Qed.

(** ** The wandering over the sky: ra and dec only; the step grows with the root of the temperature, and the opposite numbers lead back *)
Theorem C238_sky priors t z1 z2 s ra dec p q : 0 < t -> ready priors s -> dget s "ra" = Some ra -> dget s "dec" = Some dec ->
  dget priors "ra" = Some p -> bd p = Free -> dget priors "dec" = Some q -> bd q = Free ->
  (forall k r x, dget priors k = Some r -> dget s k = Some x -> bd r = Free \/ mn r <= x <= mx r) ->
  exists s' s'', sky_jump priors (Some (1 / t)) z1 z2 s = Some (s', 0) /\
    dget s' "ra" = Some (ra + sqrt t * z1 / (2 * PI)) /\ dget s' "dec" = Some (dec + sqrt t * z2 / (2 * PI)) /\
    (forall k, k <> "ra"%string -> k <> "dec"%string -> dget s' k = dget s k) /\
    sky_jump priors (Some (1 / t)) (- z1) (- z2) s' = Some (s'', 0) /\ forall k, dget s'' k = dget s k.
Proof.
  intros T Rd E1 E2 Ep Bp Eq Bq In. pose proof PI_RGT_0 as P0.
  assert (Sg : sky_sigma (Some (1 / t)) = Some (sqrt t / 2 / PI)).
  { unfold sky_sigma. destruct (Rlt_dec 0 (1 / t)) as [D|D]; [|exfalso; apply D; unfold Rdiv; rewrite Rmult_1_l; apply Rinv_0_lt_compat; exact T]. replace (1 / (1 / t)) with t by (field; lra). reflexivity. }
  assert (St : forall w1 w2 t0 x y, ready priors t0 -> dget t0 "ra" = Some x -> dget t0 "dec" = Some y ->
    exists t', sky_jump priors (Some (1 / t)) w1 w2 t0 = Some (t', 0) /\ dkeys t' = dkeys t0 /\ dget t' "ra" = Some (x + sqrt t * w1 / (2 * PI)) /\ dget t' "dec" = Some (y + sqrt t * w2 / (2 * PI)) /\
      forall k, k <> "ra"%string -> k <> "dec"%string -> untouched priors t0 t' k).
  { intros w1 w2 t0 x y Rt Ex Ey. unfold sky_jump. rewrite Sg. cbn [bind]. unfold shift. rewrite Ex. cbn [bind]. rewrite dget_set_ne by discriminate. rewrite Ey. cbn [bind].
    destruct (finish_two priors t0 "ra" "dec" x y (x + sqrt t / 2 / PI * w1) (y + sqrt t / 2 / PI * w2) Rt ltac:(discriminate) Ex Ey) as (t' & F & K & F1 & F2 & F3).
    exists t'. split; [exact F|]. split; [exact K|]. rewrite (F1 _ Ep), (F2 _ Eq). unfold final. rewrite Bp, Bq. split; [f_equal; field; lra|]. split; [f_equal; field; lra|]. exact F3. }
  destruct (St z1 z2 s ra dec Rd E1 E2) as (s' & J & K & A' & B' & U).
  assert (Rd' : ready priors s') by (destruct Rd as [W H]; split; [unfold wf; rewrite K; exact W | rewrite K; exact H]).
  destruct (St (- z1) (- z2) s' _ _ Rd' A' B') as (s'' & J' & K' & A'' & B'' & U').
  assert (Oth : forall k, k <> "ra"%string -> k <> "dec"%string -> dget s' k = dget s k /\ dget s'' k = dget s k).
  { intros k N1 N2. destruct (dget s k) as [x|] eqn:Ex.
    - destruct (ready_prior _ _ _ _ Rd Ex) as (r & Er & _). pose proof (In k r x Er Ex) as I. pose proof (U k N1 N2 r x Er Ex I) as X. split; [exact X|]. exact (U' k N1 N2 r x Er X I).
    - split; apply dget_none; rewrite ?K', K; apply dget_none; exact Ex. }
  exists s', s''. split; [exact J|]. split; [exact A'|]. split; [exact B'|]. split; [intros; apply Oth; assumption|]. split; [exact J'|].
  intros k. destruct (string_dec k "ra") as [->|N1]; [|destruct (string_dec k "dec") as [->|N2]].
  - rewrite A'', E1. f_equal. field. lra.
  - rewrite B'', E2. f_equal. field. lra.
  - apply Oth; assumption.
Qed.
(** Without the keyword the temperature is one; a missing parameter is a KeyError in each of the three *)
Theorem C238_missing priors beta z1 z2 draw u s : sky_jump priors None z1 z2 s = sky_jump priors (Some 1) z1 z2 s /\
  ((dget s "ra" = None \/ dget s "dec" = None) -> sky_jump priors beta z1 z2 s = None) /\
  ((dget s "psi" = None \/ dget s "phase" = None) -> corr_jump priors draw u s = None /\ pol_jump priors s = None).
Proof.
  split; [reflexivity|]. split.
  - intros H. unfold sky_jump, shift. destruct (sky_sigma beta); [|reflexivity]. cbn [bind]. destruct (dget s "ra"); [|reflexivity]. cbn [bind]. rewrite dget_set_ne by discriminate. destruct H as [H|H]; [discriminate H|]. rewrite H. reflexivity.
  - intros H. unfold corr_jump, corr_move, pol_jump, shift. split.
    + destruct (dget s "psi"); [|reflexivity]. cbn [bind]. destruct H as [H|H]; [discriminate H|]. rewrite H. reflexivity.
    + destruct (dget s "phase"); [|reflexivity]. cbn [bind]. rewrite dget_set_ne by discriminate. destruct H as [H|H]; [|discriminate H]. rewrite H. reflexivity.
Qed.
Example C238_example : exists s', pol_jump [("psi"%string, mkPr Periodic 0 PI); ("phase"%string, mkPr Periodic 0 (2 * PI)); ("mass"%string, mkPr Free 1 2)]
  [("psi"%string, PI / 4); ("phase"%string, 3 * PI / 2); ("mass"%string, 3 / 2)] = Some (s', 0) /\ dget s' "psi" = Some (3 * PI / 4) /\ dget s' "phase" = Some (PI / 2) /\ dget s' "mass" = Some (3 / 2).
Proof.
  pose proof PI_RGT_0 as P0.
  assert (Rd : ready [("psi"%string, mkPr Periodic 0 PI); ("phase"%string, mkPr Periodic 0 (2 * PI)); ("mass"%string, mkPr Free 1 2)] [("psi"%string, PI / 4); ("phase"%string, 3 * PI / 2); ("mass"%string, 3 / 2)]).
  { split; [repeat constructor; cbn; intuition discriminate|]. intros k [<-|[<-|[<-|[]]]]; eexists; (split; [reflexivity|]); cbn; lra. }
  destruct (pol_spec _ _ (PI / 4) (3 * PI / 2) _ _ Rd eq_refl eq_refl eq_refl eq_refl) as (s' & J & _ & A & B & U).
  exists s'. split; [exact J|]. rewrite A, B. unfold final. cbn [bd]. repeat match goal with |- _ /\ _ => split end.
  - f_equal. rewrite (proj1 (wrap1_spec (mkPr Periodic 0 PI) (PI / 4 + PI / 2) ltac:(cbn; lra))) by (cbn; lra). field.
  - f_equal. unfold wrap1. replace (outside _ _) with true by (symmetry; apply outside_true; left; cbn; lra). cbn [mn mx]. rewrite (rmod_unique _ _ (PI / 2) 1) by lra. ring.
  - apply (U "mass"%string ltac:(discriminate) ltac:(discriminate) (mkPr Free 1 2) (3 / 2)); [reflexivity | reflexivity | left; reflexivity].
Qed.

(** ** Assumptions of every theorem above *)
Definition GwJump_Props_all :=
  (@C238_correlated,
   @C238_back,
   @C238_twice,
   @C238_sign_refuted,
   @C238_face_on,
   @C238_sky,
   @C238_missing).
Print Assumptions GwJump_Props_all.
