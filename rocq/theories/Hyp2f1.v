(** The Gauss hypergeometric series 2F1(-2/5, -1/5; 4/5; z) inside the unit
    disc, and the identity d/dx [x^(-1/5) 2F1(..; -x)] that the mass-ratio
    prior of bilby/gw/prior.py (442-444) relies on. *)
From Coq Require Import Reals Lra Lia Psatz.
From Coquelicot Require Import Coquelicot.
Open Scope R_scope.

(** coefficients (a)_n (b)_n / ((c)_n n!) with a = -2/5, b = -1/5, c = 4/5 *)
Fixpoint hcoef (n : nat) : R :=
  match n with
  | O => 1
  | S m => hcoef m * ((-2/5 + INR m) * (-1/5 + INR m)) / ((4/5 + INR m) * (INR m + 1))
  end.
Definition hyp2f1 (z : R) : R := PSeries hcoef z.

Definition bcoef (n : nat) : R := (1 - 5 * INR n) * hcoef n.
Lemma bcoef_S n : bcoef (S n) * (INR n + 1) = (-2/5 + INR n) * bcoef n.
Proof.
  unfold bcoef. rewrite S_INR. cbn [hcoef]. pose proof (pos_INR n). field. split; lra.
Qed.
Lemma hcoef_bound n : Rabs (hcoef n) <= 1.
Proof.
  induction n as [|n IH]; [cbn; rewrite Rabs_R1; lra|].
  cbn [hcoef]. pose proof (pos_INR n) as Hn. unfold Rdiv. rewrite !Rabs_mult.
  rewrite Rabs_inv. rewrite (Rabs_pos_eq ((4 * / 5 + INR n) * (INR n + 1))) by nra.
  assert (Hd : 0 < (4 * / 5 + INR n) * (INR n + 1)) by nra.
  apply Rmult_le_reg_r with ((4 * / 5 + INR n) * (INR n + 1)); [exact Hd|].
  rewrite Rmult_assoc, Rinv_l, Rmult_1_r, Rmult_1_l by lra.
  assert (Rabs (-2 * / 5 + INR n) <= INR n + 1) by (apply Rabs_le; lra).
  assert (Rabs (-1 * / 5 + INR n) <= 4 * / 5 + INR n) by (apply Rabs_le; lra).
  pose proof (Rabs_pos (hcoef n)). pose proof (Rabs_pos (-2 * / 5 + INR n)). pose proof (Rabs_pos (-1 * / 5 + INR n)).
  assert (Rabs (-2 * / 5 + INR n) * Rabs (-1 * / 5 + INR n) <= (4 * / 5 + INR n) * (INR n + 1)) by nra.
  assert (0 <= Rabs (-2 * / 5 + INR n) * Rabs (-1 * / 5 + INR n)) by (apply Rmult_le_pos; assumption).
  nra.
Qed.
Lemma bcoef_bound n : Rabs (bcoef n) <= 1.
Proof.
  induction n as [|n IH]; [unfold bcoef; cbn; rewrite Rmult_0_r, Rminus_0_r, Rmult_1_r, Rabs_R1; lra|].
  pose proof (pos_INR n) as Hn. pose proof (bcoef_S n) as E. apply (f_equal Rabs) in E. rewrite !Rabs_mult in E.
  rewrite (Rabs_pos_eq (INR n + 1)) in E by lra.
  assert (Rabs (-2 / 5 + INR n) <= INR n + 1) by (apply Rabs_le; lra).
  pose proof (Rabs_pos (bcoef n)). pose proof (Rabs_pos (-2 / 5 + INR n)). nra.
Qed.
Lemma radius (a : nat -> R) : (forall n, Rabs (a n) <= 1) -> Rbar_le 1 (CV_radius a).
Proof.
  intros H. destruct (CV_radius_bounded a) as [U _]. apply (U 1). exists 1. intros n.
  rewrite pow1, Rmult_1_r. apply H.
Qed.
Lemma radius_lt (a : nat -> R) z : (forall n, Rabs (a n) <= 1) -> Rabs z < 1 -> Rbar_lt (Rabs z) (CV_radius a).
Proof. intros H Hz. eapply Rbar_lt_le_trans; [|apply radius; exact H]. exact Hz. Qed.

Lemma bseries z : Rabs z < 1 -> PSeries hcoef z - 5 * z * PSeries (PS_derive hcoef) z = PSeries bcoef z.
Proof.
  intros Hz.
  assert (X : ex_pseries hcoef z) by (apply CV_radius_inside, radius_lt; [exact hcoef_bound|exact Hz]).
  assert (Y : ex_pseries (PS_derive hcoef) z).
  { apply CV_radius_inside. rewrite CV_radius_derive. apply radius_lt; [exact hcoef_bound|exact Hz]. }
  assert (Z : ex_pseries (PS_incr_1 (PS_derive hcoef)) z) by (apply ex_pseries_incr_1; exact Y).
  rewrite Rmult_assoc, <- PSeries_incr_1.
  rewrite <- (PSeries_scal 5 (PS_incr_1 (PS_derive hcoef)) z).
  rewrite <- PSeries_minus; [|exact X|apply ex_pseries_scal; [apply Rmult_comm|exact Z]].
  apply PSeries_ext. intros n. unfold PS_minus, PS_plus, PS_opp, PS_scal, plus, opp, scal; cbn; unfold mult; cbn.
  unfold bcoef. destruct n as [|n]; [cbn; unfold zero; cbn; ring|].
  cbn [PS_incr_1]. unfold PS_derive. ring.
Qed.
Lemma bseries_ode z : Rabs z < 1 -> (1 - z) * PSeries (PS_derive bcoef) z = -2/5 * PSeries bcoef z.
Proof.
  intros Hz.
  assert (X : ex_pseries bcoef z) by (apply CV_radius_inside, radius_lt; [exact bcoef_bound|exact Hz]).
  assert (Y : ex_pseries (PS_derive bcoef) z).
  { apply CV_radius_inside. rewrite CV_radius_derive. apply radius_lt; [exact bcoef_bound|exact Hz]. }
  assert (Z : ex_pseries (PS_incr_1 (PS_derive bcoef)) z) by (apply ex_pseries_incr_1; exact Y).
  rewrite Rmult_minus_distr_r, Rmult_1_l, <- PSeries_incr_1.
  rewrite <- PSeries_minus by assumption. rewrite <- PSeries_scal.
  apply PSeries_ext. intros n. unfold PS_minus, PS_plus, PS_opp, PS_scal, plus, opp, scal; cbn; unfold mult; cbn.
  pose proof (bcoef_S n) as E. unfold PS_derive at 1. rewrite S_INR. destruct n as [|n].
  - cbn in E |- *. unfold zero; cbn. lra.
  - cbn [PS_incr_1]. unfold PS_derive. lra.
Qed.
Lemma binomial z : Rabs z < 1 -> PSeries bcoef z = Rpower (1 - z) (2/5).
Proof.
  intros Hz. pose (f := fun t => PSeries bcoef t * Rpower (1 - t) (-2/5)).
  assert (D : forall t, Rabs t < 1 -> is_derive f t 0).
  { intros t Ht. pose proof (Rabs_def2 _ _ Ht) as [T1 T2]. unfold f.
    assert (A : is_derive (PSeries bcoef) t (PSeries (PS_derive bcoef) t))
      by (apply is_derive_PSeries, radius_lt; [exact bcoef_bound|exact Ht]).
    assert (B : is_derive (fun t => Rpower (1 - t) (-2/5)) t (2/5 * Rpower (1 - t) (-2/5) / (1 - t))).
    { unfold Rpower. auto_derive; [lra|]. replace (1 + - t) with (1 - t) by ring. field. lra. }
    pose proof (is_derive_mult (K := R_AbsRing) (PSeries bcoef) (fun t => Rpower (1 - t) (-2/5)) t _ _ A B Rmult_comm) as M.
    evar_last; [exact M|]. unfold plus, mult; cbn.
    pose proof (bseries_ode t Ht) as O.
    assert (E : PSeries (PS_derive bcoef) t = -2/5 * PSeries bcoef t / (1 - t)).
    { rewrite <- O. field. lra. }
    rewrite E. field. lra. }
  assert (C : f z = f 0).
  { pose proof (Rabs_def2 _ _ Hz) as [T1 T2].
    destruct (MVT_gen f 0 z (fun _ => 0)) as (c & _ & E).
    - intros x Hx. apply D. apply Rabs_def1; unfold Rmin, Rmax in Hx; destruct (Rle_dec 0 z); lra.
    - intros x Hx. apply continuity_pt_filterlim, (ex_derive_continuous f). exists 0.
      apply D. apply Rabs_def1; unfold Rmin, Rmax in Hx; destruct (Rle_dec 0 z); lra.
    - lra. }
  unfold f in C. rewrite PSeries_0 in C.
  replace (bcoef 0) with 1 in C by (unfold bcoef; cbn; ring).
  replace (Rpower (1 - 0) (-2/5)) with 1 in C
    by (unfold Rpower; rewrite Rminus_0_r, ln_1, Rmult_0_r, exp_0; reflexivity).
  replace (Rpower (1 - z) (2/5)) with (PSeries bcoef z * Rpower (1 - z) (-2/5) * Rpower (1 - z) (2/5)).
  2:{ rewrite C. ring. }
  rewrite Rmult_assoc, <- Rpower_plus. replace (-2/5 + 2/5) with 0 by lra.
  pose proof (Rabs_def2 _ _ Hz). rewrite Rpower_O by lra. ring.
Qed.
(** the identity *)
Lemma hyp2f1_identity q : 0 < q < 1 ->
  is_derive (fun x => -5 * Rpower x (-1/5) * hyp2f1 (- x)) q (Rpower (1 + q) (2/5) / Rpower q (6/5)).
Proof.
  intros Hq. assert (Hz : Rabs (- q) < 1) by (rewrite Rabs_Ropp, Rabs_pos_eq; lra).
  assert (A : is_derive (PSeries hcoef) (- q) (PSeries (PS_derive hcoef) (- q)))
    by (apply is_derive_PSeries, radius_lt; [exact hcoef_bound|exact Hz]).
  assert (B : is_derive (fun x => hyp2f1 (- x)) q (- PSeries (PS_derive hcoef) (- q))).
  { unfold hyp2f1. evar_last; [apply (is_derive_comp (PSeries hcoef) (fun x => - x) q _ (-1) A)|].
    - auto_derive; [exact I|ring].
    - unfold scal; cbn; unfold mult; cbn. ring. }
  assert (P : is_derive (fun x => -5 * Rpower x (-1/5)) q (Rpower q (-1/5) / q)).
  { unfold Rpower. auto_derive; [lra|]. field. lra. }
  pose proof (is_derive_mult (K := R_AbsRing) (fun x => -5 * Rpower x (-1/5)) (fun x => hyp2f1 (- x)) q _ _ P B Rmult_comm) as M.
  evar_last; [exact M|]. unfold plus, mult; cbn.
  pose proof (bseries (- q) Hz) as E. rewrite binomial in E by exact Hz.
  replace (1 - - q) with (1 + q) in E by ring. rewrite <- E. unfold hyp2f1.
  assert (E2 : Rpower q (6/5) = q / Rpower q (-1/5)).
  { assert (0 < Rpower q (-1/5)) by apply exp_pos. apply Rmult_eq_reg_r with (Rpower q (-1/5)); [|lra].
    rewrite <- Rpower_plus. replace (6/5 + -1/5) with 1 by lra. rewrite Rpower_1 by lra. field. lra. }
  rewrite E2. assert (0 < Rpower q (-1/5)) by apply exp_pos. field. lra.
Qed.
