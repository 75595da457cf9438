(** C101-C106: gravitational-wave priors. *)
From Coq Require Import String Reals List Lra Lia Bool Psatz.
From Coquelicot Require Import Coquelicot.
From Verif Require Import PyReal GwMass_Model GwMass_Proofs Prior_Model Hyp2f1 GwPrior_Model GwPrior_Proofs.
Import ListNotations.
Open Scope R_scope.
Open Scope list_scope.

(** ** C101 the two "uniform in components" priors together are flat in the component masses *)

(** the partial derivatives of the conversion of (chirp mass, mass ratio) to
    the component masses and their determinant *)
Theorem C101_jacobian : exists f1 f2 : R -> R -> R,
  (forall mc q, 0 < mc -> 0 < q ->
     chirp_mass_and_mass_ratio_to_component_masses mc q = Some (f1 mc q, f2 mc q)) /\
  (forall mc q, 0 < mc -> 0 < q -> exists a b c d,
     is_derive (fun x => f1 x q) mc a /\ is_derive (fun y => f1 mc y) q b /\
     is_derive (fun x => f2 x q) mc c /\ is_derive (fun y => f2 mc y) q d /\
     a * d - b * c = f1 mc q ^ 2 / mc /\ 0 < f1 mc q ^ 2 / mc).
Proof.
  exists fm1, fm2. split; [exact fm_conv|]. intros mc q Hm Hq.
  exists (fm1 mc q / mc), (fm1 mc q * (1 / (5 * (1 + q)) - 3 / (5 * q))), (fm2 mc q / mc),
    (fm2 mc q * (1 / (5 * (1 + q)) + 2 / (5 * q))).
  split; [apply fm1_dx; assumption|]. split; [apply fm1_dy; assumption|].
  split; [apply fm2_dx; assumption|]. split; [apply fm2_dy; assumption|].
  split; [apply fm_det; assumption|].
  apply Rdiv_lt_0_compat; [|exact Hm]. apply pow_lt, fm1_pos; assumption.
Qed.

(** divided by that determinant the product of the two priors does not depend on the masses *)
Theorem C101_uniform_in_components hyp B mcn mcx qn qx mc q m1 m2 :
  (forall q, 0 < q < B -> is_derive (MR_integral hyp) q (Rpower (1 + q) (2/5) / Rpower q (6/5))) ->
  0 < mcn < mcx -> 0 < qn < qx -> qx < B -> mcn <= mc <= mcx -> qn <= q <= qx ->
  chirp_mass_and_mass_ratio_to_component_masses mc q = Some (m1, m2) ->
  UICChirpMass_prob mcn mcx mc * MR_prob hyp qn qx q / (m1 ^ 2 / mc) =
  2 / (mcx ^ 2 - mcn ^ 2) / MR_norm hyp qn qx.
Proof.
  intros Hh Hc Hq HB Hmc Hqq E. rewrite fm_conv in E by lra. injection E as <- _.
  rewrite uic_chirp by lra. rewrite MR_prob_in by lra. rewrite fm1_sq by lra.
  pose proof (MR_norm_pos hyp B Hh qn qx). assert (0 < MR_norm hyp qn qx) by (apply H; lra).
  pose proof (Rpower_pos (1 + q) (2/5)). pose proof (Rpower_pos q (6/5)).
  assert (mcx ^ 2 - mcn ^ 2 <> 0) by nra. field. repeat split; lra.
Qed.

(** two points of a chirp-mass range (5, 50) and a mass-ratio range (1/8, 3/4) *)
Example C101_example m1 m2 n1 n2 :
  chirp_mass_and_mass_ratio_to_component_masses 10 (1/2) = Some (m1, m2) ->
  chirp_mass_and_mass_ratio_to_component_masses 20 (1/4) = Some (n1, n2) ->
  UICChirpMass_prob 5 50 10 * MR_prob hyp2f1 (1/8) (3/4) (1/2) / (m1 ^ 2 / 10) =
  UICChirpMass_prob 5 50 20 * MR_prob hyp2f1 (1/8) (3/4) (1/4) / (n1 ^ 2 / 20) /\
  UICChirpMass_prob 5 50 10 <> UICChirpMass_prob 5 50 20.
Proof.
  intros E F. split.
  - rewrite (C101_uniform_in_components hyp2f1 1 5 50 (1/8) (3/4) 10 (1/2) m1 m2 hyp2f1_identity) by (try lra; exact E).
    rewrite (C101_uniform_in_components hyp2f1 1 5 50 (1/8) (3/4) 20 (1/4) n1 n2 hyp2f1_identity) by (try lra; exact F).
    reflexivity.
  - rewrite !uic_chirp by lra. lra.
Qed.

(** ** C102 the mass-ratio prior: cumulative distribution and rescaling *)
Theorem C102_cdf_is_the_integral hyp B mn mx v :
  (forall q, 0 < q < B -> is_derive (MR_integral hyp) q (Rpower (1 + q) (2/5) / Rpower q (6/5))) ->
  0 < mn < mx -> mx < B -> mn <= v <= mx ->
  is_RInt (MR_prob hyp mn mx) mn v (MR_cdf hyp mn mx v) /\ 0 < MR_prob hyp mn mx v /\
  MR_cdf hyp mn mx mn = 0 /\ MR_cdf hyp mn mx mx = 1.
Proof.
  intros Hh Hm HB Hv. split; [apply (MR_prob_int hyp B); tauto|].
  split; [|split; [apply MR_cdf_mn|apply (MR_cdf_mx hyp B); tauto]].
  rewrite MR_prob_in by exact Hv. apply Rdiv_lt_0_compat; [apply dens_pos|apply (MR_norm_pos hyp B); tauto].
Qed.
Theorem C102_cdf_increasing hyp B mn mx a b :
  (forall q, 0 < q < B -> is_derive (MR_integral hyp) q (Rpower (1 + q) (2/5) / Rpower q (6/5))) ->
  0 < mn < mx -> mx < B -> 0 < a < b -> b < B -> MR_cdf hyp mn mx a < MR_cdf hyp mn mx b.
Proof. intros Hh Hm HB Hab Hb. apply (MR_cdf_incr hyp B); tauto. Qed.
(** outside the range the value is not clipped to [0, 1] *)
Theorem C102_cdf_not_clipped_refuted hyp B mn mx v :
  (forall q, 0 < q < B -> is_derive (MR_integral hyp) q (Rpower (1 + q) (2/5) / Rpower q (6/5))) ->
  0 < mn < mx -> mx < B -> v < B -> (mx < v -> 1 < MR_cdf hyp mn mx v) /\ (0 < v < mn -> MR_cdf hyp mn mx v < 0).
Proof.
  intros Hh Hm HB Hb. split; intros Hv.
  - rewrite <- (MR_cdf_mx hyp B Hh mn mx) by tauto. apply (MR_cdf_incr hyp B); try tauto; lra.
  - rewrite <- (MR_cdf_mn hyp mn mx). apply (MR_cdf_incr hyp B); try tauto; lra.
Qed.
(** with an exact inverse in place of the interpolant: the set of unit-interval
    points sent to a mass ratio of at most [q].  Without [equal_mass] it is
    [0, cdf q]; with it two intervals of half that length, at the two ends *)
Theorem C102_rescale_law hyp B mn mx icdf u q :
  (forall q, 0 < q < B -> is_derive (MR_integral hyp) q (Rpower (1 + q) (2/5) / Rpower q (6/5))) ->
  0 < mn < mx -> mx < B ->
  (forall u, 0 <= u <= 1 -> mn <= icdf u <= mx /\ MR_cdf hyp mn mx (icdf u) = u) ->
  0 <= u <= 1 -> mn <= q <= mx ->
  (MR_rescale icdf false u <= q <-> u <= MR_cdf hyp mn mx q) /\
  (MR_rescale icdf true u <= q <->
     u <= MR_cdf hyp mn mx q / 2 \/ 1 - MR_cdf hyp mn mx q / 2 <= u).
Proof.
  intros Hh Hm HB Hi Hu Hq.
  assert (A : forall w, 0 <= w <= 1 -> (icdf w <= q <-> w <= MR_cdf hyp mn mx q)).
  { intros w Hw. destruct (Hi w Hw) as [H1 H2]. split; intros H.
    - rewrite <- H2. destruct (Req_dec (icdf w) q) as [->|Hne]; [lra|]. left. apply (MR_cdf_incr hyp B); try tauto; lra.
    - destruct (Rle_dec (icdf w) q) as [|Hn]; [assumption|]. exfalso.
      assert (MR_cdf hyp mn mx q < MR_cdf hyp mn mx (icdf w)) by (apply (MR_cdf_incr hyp B); try tauto; lra). lra. }
  split; [apply A; exact Hu|]. unfold MR_rescale.
  assert (Hw : 0 <= 2 * Rmin u (1 - u) <= 1) by (unfold Rmin; destruct (Rle_dec u (1 - u)); lra).
  rewrite (A _ Hw). unfold Rmin. destruct (Rle_dec u (1 - u)).
  - split; [intros; left; lra|]. intros [?|?]; lra.
  - split; [intros; right; lra|]. intros [?|?]; lra.
Qed.
(** ... so with [equal_mass] rescale is not the inverse of the cumulative distribution *)
Theorem C102_equal_mass_not_inverse_refuted hyp mn mx icdf u :
  (forall u, 0 <= u <= 1 -> MR_cdf hyp mn mx (icdf u) = u) -> 0 < u <= 1 ->
  MR_cdf hyp mn mx (MR_rescale icdf true u) <> u \/ u = 2/3.
Proof.
  intros Hi Hu. unfold MR_rescale.
  assert (Hw : 0 <= 2 * Rmin u (1 - u) <= 1) by (unfold Rmin; destruct (Rle_dec u (1 - u)); lra).
  rewrite (Hi _ Hw). unfold Rmin. destruct (Rle_dec u (1 - u)); [left; lra|].
  destruct (Req_dec u (2/3)); [right; assumption|left; lra].
Qed.
(** the hypothesis on [hyp] holds for the hypergeometric series itself, for mass ratios below 1 *)
Theorem C102_hypergeometric_series q : 0 < q < 1 ->
  is_derive (MR_integral hyp2f1) q (Rpower (1 + q) (2/5) / Rpower q (6/5)).
Proof. exact (hyp2f1_identity q). Qed.
(** so for that series and a range inside (0, 1) nothing is assumed: the prior integrates to its cumulative distribution *)
Theorem C102_series_instance mn mx v : 0 < mn < mx -> mx < 1 -> mn <= v <= mx ->
  is_RInt (MR_prob hyp2f1 mn mx) mn v (MR_cdf hyp2f1 mn mx v) /\ 0 < MR_prob hyp2f1 mn mx v /\
  MR_cdf hyp2f1 mn mx mn = 0 /\ MR_cdf hyp2f1 mn mx mx = 1.
Proof. apply C102_cdf_is_the_integral. exact hyp2f1_identity. Qed.
Example C102_example : MR_prob hyp2f1 (1/8) (1/2) (1/8) > MR_prob hyp2f1 (1/8) (1/2) (1/2) /\
  MR_prob hyp2f1 (1/8) (1/2) (3/4) = 0.
Proof.
  split.
  - rewrite !MR_prob_in by lra. pose proof (MR_norm_pos hyp2f1 1 hyp2f1_identity (1/8) (1/2) ltac:(lra) ltac:(lra) ltac:(lra)).
    apply Rmult_lt_compat_r; [apply Rinv_0_lt_compat; assumption|].
    assert (E2 : Rpower (1/8) (6/5) <= 1/8).
    { replace (6/5) with (1 + 1/5) by lra. rewrite Rpower_plus, Rpower_1 by lra.
      assert (Rpower (1/8) (1/5) <= 1); [|lra].
      apply Rle_trans with (exp 0); [|rewrite exp_0; lra]. unfold Rpower. left. apply exp_increasing.
      assert (ln (1/8) < 0) by (rewrite <- ln_1; apply ln_increasing; lra). lra. }
    assert (E3 : Rpower (1 + 1/2) (2/5) < 1 + 1/2).
    { rewrite <- (Rpower_1 (1 + 1/2)) at 2 by lra. apply Rpower_lt; lra. }
    assert (E6 : 1/4 < Rpower (1/2) (6/5)).
    { replace (1/4) with (Rpower (1/2) 2).
      - unfold Rpower. apply exp_increasing. assert (ln (1/2) < 0) by (rewrite <- ln_1; apply ln_increasing; lra). lra.
      - replace 2 with (1 + 1) at 2 by lra. rewrite Rpower_plus, Rpower_1 by lra. lra. }
    assert (E4 : 1 < Rpower (1 + 1/8) (2/5)).
    { rewrite <- (Rpower_O (1 + 1/8)) at 1 by lra. apply Rpower_lt; lra. }
    pose proof (Rpower_pos (1/8) (6/5)) as E5.
    apply Rlt_trans with (8 * 1 - 1).
    + apply Rmult_lt_reg_r with (Rpower (1/2) (6/5)); [lra|].
      replace (Rpower (1 + 1/2) (2/5) / Rpower (1/2) (6/5) * Rpower (1/2) (6/5)) with (Rpower (1 + 1/2) (2/5)) by (field; lra).
      nra.
    + apply Rmult_lt_reg_r with (Rpower (1/8) (6/5)); [exact E5|].
      replace (Rpower (1 + 1/8) (2/5) / Rpower (1/8) (6/5) * Rpower (1/8) (6/5)) with (Rpower (1 + 1/8) (2/5)) by (field; lra).
      lra.
  - unfold MR_prob. rewrite in_range_false by lra. apply Rmult_0_r.
Qed.

(** ** C103 the compound spin priors are those of an isotropic spin of uniform magnitude *)

(** the integrals tabulated by AlignedSpin with the default kind of arguments *)
Theorem C103_aligned_spin_density amax eps chi : 0 < eps <= Rabs chi -> Rabs chi <= amax ->
  is_RInt (AlignedSpin_integrand (Uniform_prob 0 amax) (Uniform_prob (-1) 1) chi) eps amax
    (ln (amax / Rabs chi) / (2 * amax)).
Proof. intros [H0 H1] H2. exact (aligned_int amax eps chi H0 H1 H2). Qed.
(** (magnitude, cos tilt) -> (aligned component, magnitude), determinant [a] *)
Theorem C103_magnitude_given_aligned amax a cs : 0 < a < amax -> -1 <= cs <= 1 -> cs <> 0 ->
  is_derive (fun z => a * z) cs a /\
  ln (amax / Rabs (a * cs)) / (2 * amax) * ChiMag_prob amax (a * cs) a * a =
  Uniform_prob 0 amax a * Uniform_prob (-1) 1 cs.
Proof.
  intros Ha Hc Hn. split; [auto_derive; [exact I|ring]|].
  assert (HA : Rabs (a * cs) = a * Rabs cs) by (rewrite Rabs_mult, (Rabs_pos_eq a) by lra; reflexivity).
  assert (H0 : 0 < Rabs cs) by (apply Rabs_pos_lt; exact Hn).
  assert (H1 : Rabs cs <= 1) by (apply Rabs_le_between; lra).
  assert (0 < a * Rabs cs) by (apply Rmult_lt_0_compat; lra).
  assert (a * Rabs cs <= a) by nra.
  change (aligned_density amax (a * cs) * ChiMag_prob amax (a * cs) a * a = Uniform_prob 0 amax a * Uniform_prob (-1) 1 cs).
  rewrite chi_joint by (rewrite ?HA; lra).
  rewrite !uniform_in by lra. field. lra.
Qed.
(** the marginal over the aligned component is uniform *)
Theorem C103_magnitude_marginal_uniform amax a : 0 < a < amax ->
  is_RInt (fun chi => ln (amax / Rabs chi) / (2 * amax) * ChiMag_prob amax chi a) (- amax) amax
    (Uniform_prob 0 amax a).
Proof.
  intros Ha. rewrite uniform_in by lra. replace (amax - 0) with amax by ring.
  exact (chi_marginal amax a (proj1 Ha) (proj2 Ha)).
Qed.
(** (magnitude, cos tilt) -> (aligned component, in-plane component) *)
Theorem C103_in_plane_given_aligned amax a cs : 0 < a < amax -> -1 < cs < 1 -> cs <> 0 ->
  exists p d1 d2 d3 d4,
    InPlane_prob amax (a * cs) (a * sqrt (1 - cs ^ 2)) = Some p /\
    is_derive (fun x => x * cs) a d1 /\ is_derive (fun z => a * z) cs d2 /\
    is_derive (fun x => x * sqrt (1 - cs ^ 2)) a d3 /\ is_derive (fun z => a * sqrt (1 - z ^ 2)) cs d4 /\
    ln (amax / Rabs (a * cs)) / (2 * amax) * p * Rabs (d1 * d4 - d2 * d3) =
    Uniform_prob 0 amax a * Uniform_prob (-1) 1 cs.
Proof.
  intros Ha Hc Hn.
  assert (HA : Rabs (a * cs) = a * Rabs cs) by (rewrite Rabs_mult, (Rabs_pos_eq a) by lra; reflexivity).
  assert (H0 : 0 < Rabs cs) by (apply Rabs_pos_lt; exact Hn).
  assert (H1 : Rabs cs < 1) by (apply Rabs_lt_between; lra).
  assert (C0 : 0 < Rabs (a * cs)) by (rewrite HA; apply Rmult_lt_0_compat; lra).
  assert (C1 : Rabs (a * cs) < amax) by (rewrite HA; nra).
  assert (Hs : 0 < 1 - cs ^ 2) by nra.
  assert (Hsq : 0 < sqrt (1 - cs ^ 2)) by (apply sqrt_lt_R0; exact Hs).
  assert (Es : sqrt (1 - cs ^ 2) ^ 2 = 1 - cs ^ 2) by (apply pow2_sqrt; lra).
  exists (a * sqrt (1 - cs ^ 2) / (a ^ 2) / ln (amax / Rabs (a * cs))), cs, a, (sqrt (1 - cs ^ 2)), (- a * cs / sqrt (1 - cs ^ 2)).
  split.
  { rewrite ip_prob by assumption. rewrite in_range_true.
    - f_equal. do 2 f_equal. rewrite pow2_abs, !Rpow_mult_distr, Es. ring.
    - split; [apply Rmult_le_pos; lra|].
      rewrite <- (sqrt_pow2 (a * sqrt (1 - cs ^ 2))) by (apply Rmult_le_pos; lra).
      apply sqrt_le_1_alt. rewrite !Rpow_mult_distr, Es. nra. }
  split; [auto_derive; [exact I|ring]|]. split; [auto_derive; [exact I|ring]|].
  split; [auto_derive; [exact I|rewrite Rmult_1_l; f_equal; ring]|].
  split. { auto_derive; [nra|]. replace (1 + - (cs * (cs * 1))) with (1 - cs ^ 2) by ring. field. lra. }
  assert (ED : cs * (- a * cs / sqrt (1 - cs ^ 2)) - a * sqrt (1 - cs ^ 2) = - (a / sqrt (1 - cs ^ 2))).
  { apply Rmult_eq_reg_r with (sqrt (1 - cs ^ 2)); [|lra].
    transitivity (- a * cs * cs - a * sqrt (1 - cs ^ 2) ^ 2); [field; lra|]. rewrite Es. field. lra. }
  rewrite ED, Rabs_Ropp, (Rabs_pos_eq (a / sqrt (1 - cs ^ 2))) by (left; apply Rdiv_lt_0_compat; lra).
  rewrite !uniform_in by lra. pose proof (ln_ratio_pos _ _ C0 C1). field. repeat split; lra.
Qed.
Example C103_example : ChiMag_prob 1 (1/2) (3/4) > 0 /\ ChiMag_prob 1 (1/2) (1/4) = 0.
Proof.
  unfold ChiMag_prob. rewrite Rabs_pos_eq by lra. split.
  - rewrite log_uniform_in by lra. pose proof (ln_ratio_pos (1/2) 1 ltac:(lra) ltac:(lra)).
    apply Rdiv_lt_0_compat; lra.
  - apply log_uniform_out. lra.
Qed.

(** ** C104 the in-plane spin prior by itself, and the range of AlignedSpin *)
Theorem C104_in_plane_normalised amax chi : 0 < Rabs chi < amax ->
  exists mx p, InPlane_maximum amax chi = Some mx /\ 0 < mx /\
    (forall v, InPlane_prob amax chi v = Some (p v)) /\ (forall v, 0 <= p v) /\
    (forall v, v < 0 \/ mx < v -> p v = 0) /\ is_RInt p 0 mx 1 /\
    forall v, 0 <= v <= mx -> exists F, InPlane_cdf amax chi v = Some F /\ is_RInt p 0 v F.
Proof.
  intros [H0 H1]. pose proof (ip_L amax chi H0 H1) as HL.
  set (mx := sqrt (amax ^ 2 - chi ^ 2)) in *. pose proof (ip_mxpos amax chi H0 H1) as Hmx. fold mx in Hmx.
  exists mx, (fun v => if in_prior_range 0 mx v then v / (Rabs chi ^ 2 + v ^ 2) / ln (amax / Rabs chi) else 0).
  split; [apply (ip_mx amax chi H0 H1)|]. split; [exact Hmx|].
  split; [intros v; apply (ip_prob amax chi H0 H1)|].
  assert (I : forall v, 0 <= v <= mx -> is_RInt
    (fun v0 => if in_prior_range 0 mx v0 then v0 / (Rabs chi ^ 2 + v0 ^ 2) / ln (amax / Rabs chi) else 0) 0 v
    (ln (1 + (v / Rabs chi) ^ 2) / (2 * ln (amax / Rabs chi)))).
  { intros v Hv. eapply is_RInt_ext; [|apply (ip_prob_int amax chi H0 H1 v Hv)].
    intros x. rewrite Rmin_left, Rmax_right by lra. intros Hx. cbv beta. rewrite in_range_true by lra. reflexivity. }
  split; [|split; [|split]].
  - intros v. unfold in_prior_range. destruct (Rle_dec 0 v); [|lra]. destruct (Rle_dec v mx); [|lra].
    assert (0 < Rabs chi ^ 2 + v ^ 2) by nra.
    apply Rmult_le_pos; [|left; apply Rinv_0_lt_compat; exact HL].
    apply Rmult_le_pos; [lra|left; apply Rinv_0_lt_compat; lra].
  - intros v Hv. rewrite in_range_false by exact Hv. reflexivity.
  - pose proof (I mx ltac:(lra)) as K. unfold mx in K at 3. rewrite (ip_ln_max amax chi H0 H1) in K.
    replace (2 * ln (amax / Rabs chi) / (2 * ln (amax / Rabs chi))) with 1 in K by (field; lra). exact K.
  - intros v Hv. eexists. split; [apply (ip_cdf_in amax chi H0 H1 v Hv)|]. apply I; exact Hv.
Qed.
Theorem C104_in_plane_rescale amax chi u : 0 < Rabs chi < amax -> 0 <= u <= 1 ->
  exists mx v, InPlane_maximum amax chi = Some mx /\ InPlane_rescale amax chi u = Some v /\
    0 <= v <= mx /\ InPlane_cdf amax chi v = Some u /\ v ^ 2 + chi ^ 2 <= amax ^ 2.
Proof.
  intros [H0 H1] Hu. destruct (ip_rescale_cdf amax chi H0 H1 u Hu) as (v & E & Hv & C).
  exists (sqrt (amax ^ 2 - chi ^ 2)), v. split; [apply (ip_mx amax chi H0 H1)|].
  split; [exact E|]. split; [exact Hv|]. split; [exact C|].
  pose proof (ip_mxsq amax chi H0 H1) as Hq. rewrite pow2_abs in Hq.
  assert (v ^ 2 <= sqrt (amax ^ 2 - chi ^ 2) ^ 2) by (apply pow_incr; lra). lra.
Qed.
Theorem C104_in_plane_rescale_inverse amax chi v mx : 0 < Rabs chi < amax ->
  InPlane_maximum amax chi = Some mx -> 0 <= v <= mx ->
  exists u, InPlane_cdf amax chi v = Some u /\ 0 <= u <= 1 /\ InPlane_rescale amax chi u = Some v.
Proof.
  intros [H0 H1] E Hv. rewrite (ip_mx amax chi H0 H1) in E. apply some_inj in E. subst mx.
  apply (ip_cdf_rescale amax chi H0 H1 v Hv).
Qed.
(** above the maximum the cumulative distribution is 0, not 1 *)
Theorem C104_in_plane_cdf_above_refuted amax chi v mx : 0 < Rabs chi < amax ->
  InPlane_maximum amax chi = Some mx -> mx < v ->
  InPlane_cdf amax chi v = Some 0 /\ InPlane_cdf amax chi mx = Some 1.
Proof.
  intros [H0 H1] E Hv. rewrite (ip_mx amax chi H0 H1) in E. apply some_inj in E. subst mx. split.
  - rewrite (ip_cdf amax chi H0 H1). rewrite in_range_false by (right; exact Hv). reflexivity.
  - pose proof (ip_mxpos amax chi H0 H1). rewrite (ip_cdf_in amax chi H0 H1) by lra. f_equal.
    rewrite (ip_ln_max amax chi H0 H1). pose proof (ip_L amax chi H0 H1). field. lra.
Qed.
(** AlignedSpin: the tabulated range is the range of the product when the tilt range contains 0 *)
Theorem C104_aligned_range amin amax zmin zmax : 0 <= amin <= amax -> zmin <= 0 <= zmax ->
  (forall a z, amin <= a <= amax -> zmin <= z <= zmax ->
     fst (AlignedSpin_range amin amax zmin zmax) <= a * z <= snd (AlignedSpin_range amin amax zmin zmax)) /\
  (exists a z, amin <= a <= amax /\ zmin <= z <= zmax /\ a * z = fst (AlignedSpin_range amin amax zmin zmax)) /\
  (exists a z, amin <= a <= amax /\ zmin <= z <= zmax /\ a * z = snd (AlignedSpin_range amin amax zmin zmax)).
Proof.
  intros Ha Hz. assert (M : Rmin (amax * zmin) (amin * zmax) = amax * zmin) by (apply Rmin_left; apply Rle_trans with 0; [assert (0 <= amax) by lra; nra|apply Rmult_le_pos; lra]).
  unfold AlignedSpin_range; cbn [fst snd]. rewrite M. split; [|split].
  - intros a z HA HZ. split; nra.
  - exists amax, zmin. repeat split; lra.
  - exists amax, zmax. repeat split; lra.
Qed.
(** ... and misses part of it when all tilts are on one side *)
Theorem C104_aligned_range_refuted :
  (exists amin amax zmin zmax a z, 0 <= amin <= amax /\ 0 < zmin <= zmax /\ amin <= a <= amax /\ zmin <= z <= zmax /\
     a * z < fst (AlignedSpin_range amin amax zmin zmax)) /\
  (exists amin amax zmin zmax a z, 0 <= amin <= amax /\ zmin <= zmax < 0 /\ amin <= a <= amax /\ zmin <= z <= zmax /\
     snd (AlignedSpin_range amin amax zmin zmax) < a * z).
Proof.
  split.
  - exists (1/2), 1, (1/2), 1, (1/2), (1/2). unfold AlignedSpin_range, Rmin; cbn [fst snd].
    destruct (Rle_dec (1 * (1/2)) (1/2 * 1)); repeat split; lra.
  - exists 0, 1, (-1), (-1/2), (1/2), (-1/2). unfold AlignedSpin_range; cbn [fst snd]. repeat split; lra.
Qed.
Example C104_example : InPlane_maximum 5 3 = Some 4 /\ InPlane_cdf 5 (-3) 0 = Some 0 /\
  AlignedSpin_range 0 (8/10) (-1) 1 = (-(8/10), 8/10).
Proof.
  split; [|split].
  - unfold InPlane_maximum. rewrite psqrt_some by lra. f_equal.
    replace (5 ^ 2 - 3 ^ 2) with (4 ^ 2) by ring. apply sqrt_pow2. lra.
  - assert (R3 : Rabs (-3) = 3) by (rewrite Rabs_left; lra).
    rewrite (ip_cdf_in 5 (-3)); [|rewrite R3; lra|rewrite R3; lra|split; [lra|apply sqrt_pos]].
    f_equal. replace (1 + (0 / Rabs (-3)) ^ 2) with 1 by (rewrite R3; field). rewrite ln_1. unfold Rdiv. ring.
  - unfold AlignedSpin_range. rewrite Rmin_left by lra. f_equal; lra.
Qed.

(** ** C105 the mass limits of a CBC prior dictionary *)
Lemma chirp_le mc m1 m2 mc' m1' m2' : 0 < m1 <= m1' -> 0 < m2 <= m2' ->
  is_chirp_mass mc m1 m2 -> is_chirp_mass mc' m1' m2' -> mc <= mc'.
Proof.
  intros H1 H2 [P E] [P' E']. destruct (Rle_dec mc mc') as [|Hn]; [assumption|]. exfalso.
  assert (L : mc' ^ 5 < mc ^ 5) by (apply pow_incr_strict; [lia|lra|lra]).
  assert (S : forall x x' y, 0 < x <= x' -> 0 < y -> x ^ 3 * (x' + y) <= x' ^ 3 * (x + y)).
  { intros x x' y Hx Hy. assert (x ^ 3 <= x' ^ 3) by (apply pow_incr; lra).
    assert (x ^ 2 <= x' ^ 2) by (apply pow_incr; lra).
    assert (x ^ 3 * x' <= x' ^ 3 * x) by (replace (x ^ 3 * x') with (x * x' * x ^ 2) by ring;
      replace (x' ^ 3 * x) with (x * x' * x' ^ 2) by ring; apply Rmult_le_compat_l; nra). nra. }
  pose proof (S m1 m1' m2 H1 (proj1 H2)) as S1. pose proof (S m2 m2' m1' H2 ltac:(lra)) as S2.
  (* (m1 m2)^3 (m1'+m2') <= (m1' m2')^3 (m1+m2) *)
  assert (K : (m1 * m2) ^ 3 * (m1' + m2') <= (m1' * m2') ^ 3 * (m1 + m2)).
  { assert (0 < m2 ^ 3) by (apply pow_lt; lra). assert (0 < m1' ^ 3) by (apply pow_lt; lra).
    assert (A : m1 ^ 3 * m2 ^ 3 * (m1' + m2) <= m1' ^ 3 * m2 ^ 3 * (m1 + m2)) by nra.
    assert (B : m1' ^ 3 * (m2 ^ 3 * (m2' + m1')) <= m1' ^ 3 * (m2' ^ 3 * (m2 + m1'))) by nra.
    rewrite !Rpow_mult_distr.
    apply Rmult_le_reg_r with (m1' + m2); [lra|].
    apply Rle_trans with (m1' ^ 3 * m2 ^ 3 * (m1 + m2) * (m1' + m2')).
    - replace (m1 ^ 3 * m2 ^ 3 * (m1' + m2') * (m1' + m2)) with (m1 ^ 3 * m2 ^ 3 * (m1' + m2) * (m1' + m2')) by ring.
      apply Rmult_le_compat_r; lra.
    - replace (m1' ^ 3 * m2 ^ 3 * (m1 + m2) * (m1' + m2')) with (m1' ^ 3 * (m2 ^ 3 * (m2' + m1')) * (m1 + m2)) by ring.
      replace (m1' ^ 3 * m2' ^ 3 * (m1 + m2) * (m1' + m2)) with (m1' ^ 3 * (m2' ^ 3 * (m2 + m1')) * (m1 + m2)) by ring.
      apply Rmult_le_compat_r; lra. }
  rewrite <- E, <- E' in K.
  assert (mc ^ 5 * ((m1 + m2) * (m1' + m2')) <= mc' ^ 5 * ((m1 + m2) * (m1' + m2'))) by lra.
  assert (0 < (m1 + m2) * (m1' + m2')) by (apply Rmult_lt_0_compat; lra). nra.
Qed.
Lemma chirp_val m1 m2 mc : 0 < m1 -> 0 < m2 -> component_masses_to_chirp_mass m1 m2 = Some mc -> is_chirp_mass mc m1 m2.
Proof. intros H1 H2 E. destruct (chirp_spec m1 m2 H1 H2) as (x & Ex & Hx). congruence. Qed.
(** a system inside the limits of the dictionary *)
Definition within (p : limits) (m1 m2 mc q : R) : Prop :=
  0 < m1 /\ 0 < m2 /\ is_chirp_mass mc m1 m2 /\ is_mass_ratio q m1 m2 /\
  (forall b, p "mass_1"%string = Some b -> fst b <= m1 <= snd b) /\
  (forall b, p "mass_2"%string = Some b -> fst b <= m2 <= snd b) /\
  (forall b, p "chirp_mass"%string = Some b -> fst b <= mc <= snd b) /\
  (forall b, p "mass_ratio"%string = Some b -> fst b <= q <= snd b).
Definition positive_limits (p : limits) : Prop := forall k b, p k = Some b -> 0 < fst b <= snd b.
Theorem C105_chirp_mass_limits p m1 m2 mc q : positive_limits p -> within p m1 m2 mc q ->
  (forall lo, minimum_chirp_mass p = Some lo -> lo <= mc) /\
  (forall hi, maximum_chirp_mass p = Some hi -> mc <= hi).
Proof.
  intros Hp (H1 & H2 & Hc & Hq & B1 & B2 & Bc & Bq). unfold is_mass_ratio in Hq.
  unfold minimum_chirp_mass, maximum_chirp_mass, chirp_mass_limit.
  destruct (p "chirp_mass"%string) as [bc|] eqn:Ec.
  { split; intros x E; injection E as <-; apply (Bc bc eq_refl). }
  destruct (p "mass_1"%string) as [b1|] eqn:E1; [|split; discriminate].
  specialize (B1 b1 eq_refl). pose proof (Hp _ _ E1) as P1.
  destruct (p "mass_2"%string) as [b2|] eqn:E2.
  { specialize (B2 b2 eq_refl). pose proof (Hp _ _ E2) as P2.
    split; intros x E; apply chirp_val in E; try lra.
    - apply (chirp_le x (fst b1) (fst b2) mc m1 m2); try assumption; lra.
    - apply (chirp_le mc m1 m2 x (snd b1) (snd b2)); try assumption; lra. }
  destruct (p "mass_ratio"%string) as [bq|] eqn:Eq; [|split; discriminate].
  specialize (Bq bq eq_refl). pose proof (Hp _ _ Eq) as P2.
  assert (Q : q * m1 = m2) by exact Hq.
  split; intros x E; apply chirp_val in E; try lra; try (apply Rmult_lt_0_compat; lra).
  - apply (chirp_le x (fst b1) (fst b1 * fst bq) mc m1 m2); try assumption; [lra|].
    split; [apply Rmult_lt_0_compat; lra|]. rewrite <- Q, Rmult_comm. apply Rmult_le_compat; lra.
  - apply (chirp_le mc m1 m2 x (snd b1) (snd b1 * snd bq)); try assumption; [lra|].
    split; [lra|]. rewrite <- Q, (Rmult_comm (snd b1)). apply Rmult_le_compat; lra.
Qed.
Theorem C105_minimum_component_mass p m1 m2 mc q lo : positive_limits p -> within p m1 m2 mc q ->
  minimum_component_mass p = Some lo -> lo <= m2 /\ (q <= 1 -> lo <= m1).
Proof.
  intros Hp (H1 & H2 & Hc & Hq & B1 & B2 & Bc & Bq) E.
  assert (G : lo <= m2).
  2:{ split; [exact G|]. intros Hle. unfold is_mass_ratio in Hq. nra. }
  unfold minimum_component_mass in E.
  destruct (p "mass_2"%string) as [b2|] eqn:E2.
  { injection E as <-. apply (B2 b2 eq_refl). }
  destruct (p "chirp_mass"%string) as [bc|] eqn:Ec; [|discriminate].
  destruct (p "mass_ratio"%string) as [bq|] eqn:Eq; [|discriminate].
  pose proof (Hp _ _ Ec) as Pc. pose proof (Hp _ _ Eq) as Pq. specialize (Bc bc eq_refl). specialize (Bq bq eq_refl).
  change ((let* total_mass := chirp_mass_and_mass_ratio_to_total_mass (fst bc) (fst bq) in
     (let* m := total_mass_and_mass_ratio_to_component_masses total_mass (fst bq) in Some (snd m))) = Some lo) in E.
  destruct (chirp_mass_and_mass_ratio_to_total_mass (fst bc) (fst bq)) as [M|] eqn:EM; [|discriminate].
  cbn [bindo] in E.
  destruct (total_mass_and_mass_ratio_to_component_masses M (fst bq)) as [[a b]|] eqn:Ea; [|discriminate].
  cbn [bindo snd] in E. injection E as ->.
  assert (F : chirp_mass_and_mass_ratio_to_component_masses (fst bc) (fst bq) = Some (a, lo)).
  { unfold chirp_mass_and_mass_ratio_to_component_masses. rewrite EM. exact Ea. }
  destruct (mc_q_spec (fst bc) (fst bq)) as (a' & b' & F' & Pa & Pb & C' & Q' & _); [lra|lra|].
  rewrite F in F'. injection F' as <- <-.
  (* if m2 were smaller than the corner, the chirp mass would be too *)
  destruct (Rle_dec lo m2) as [|Hn]; [assumption|]. exfalso. unfold is_mass_ratio in *.
  assert (m1 <= a) by nra.
  assert (L : mc <= fst bc) by (apply (chirp_le mc m1 m2 (fst bc) a lo); try assumption; lra).
  assert (mc = fst bc) by lra. subst mc.
  (* equal chirp masses with both masses not larger and one strictly smaller *)
  destruct Hc as [P5 E5]. destruct C' as [_ E5'].
  assert (X : (m1 * m2) ^ 3 * (a + lo) = (a * lo) ^ 3 * (m1 + m2)) by (rewrite <- E5, <- E5'; ring).
  assert (Y : (m1 * m2) ^ 3 * (a + lo) < (a * lo) ^ 3 * (m1 + m2)); [|lra].
  assert (S2 : m2 ^ 3 * (lo + a) < lo ^ 3 * (m2 + a)).
  { assert (m2 ^ 3 < lo ^ 3) by (apply pow_incr_strict; [lia|lra|lra]).
    assert (m2 ^ 2 < lo ^ 2) by (apply pow_incr_strict; [lia|lra|lra]).
    assert (m2 ^ 3 * lo < lo ^ 3 * m2) by (replace (m2 ^ 3 * lo) with (m2 * lo * m2 ^ 2) by ring;
      replace (lo ^ 3 * m2) with (m2 * lo * lo ^ 2) by ring; apply Rmult_lt_compat_l; nra). nra. }
  assert (S1 : m1 ^ 3 * (a + m2) <= a ^ 3 * (m1 + m2)).
  { assert (m1 ^ 3 <= a ^ 3) by (apply pow_incr; lra). assert (m1 ^ 2 <= a ^ 2) by (apply pow_incr; lra).
    assert (m1 ^ 3 * a <= a ^ 3 * m1) by (replace (m1 ^ 3 * a) with (m1 * a * m1 ^ 2) by ring;
      replace (a ^ 3 * m1) with (m1 * a * a ^ 2) by ring; apply Rmult_le_compat_l; nra). nra. }
  rewrite !Rpow_mult_distr. apply Rmult_lt_reg_r with (a + m2); [lra|].
  assert (0 < m2 ^ 3) by (apply pow_lt; lra). assert (0 < a ^ 3) by (apply pow_lt; lra).
  assert (0 < m1 ^ 3) by (apply pow_lt; lra).
  apply Rle_lt_trans with (a ^ 3 * (m1 + m2) * (m2 ^ 3 * (a + lo))).
  - replace (m1 ^ 3 * m2 ^ 3 * (a + lo) * (a + m2)) with (m1 ^ 3 * (a + m2) * (m2 ^ 3 * (a + lo))) by ring.
    apply Rmult_le_compat_r; [|exact S1]. apply Rmult_le_pos; lra.
  - replace (a ^ 3 * lo ^ 3 * (m1 + m2) * (a + m2)) with (a ^ 3 * (m1 + m2) * (lo ^ 3 * (m2 + a))) by ring.
    replace (a + lo) with (lo + a) by ring. apply Rmult_lt_compat_l; [|exact S2]. apply Rmult_lt_0_compat; lra.
Qed.
(** the limits are attained at the corners of the allowed region *)
Theorem C105_limits_attained p b1 b2 : positive_limits p -> p "chirp_mass"%string = None ->
  p "mass_1"%string = Some b1 -> p "mass_2"%string = Some b2 ->
  exists lo hi, minimum_chirp_mass p = Some lo /\ maximum_chirp_mass p = Some hi /\
    is_chirp_mass lo (fst b1) (fst b2) /\ is_chirp_mass hi (snd b1) (snd b2).
Proof.
  intros Hp Ec E1 E2. pose proof (Hp _ _ E1). pose proof (Hp _ _ E2).
  destruct (chirp_spec (fst b1) (fst b2)) as (lo & A & B); [lra|lra|].
  destruct (chirp_spec (snd b1) (snd b2)) as (hi & C & D); [lra|lra|].
  exists lo, hi. unfold minimum_chirp_mass, maximum_chirp_mass, chirp_mass_limit. rewrite Ec, E1, E2. tauto.
Qed.
Example C105_example :
  let p := fun k => if String.eqb k "mass_1" then Some (5, 50) else if String.eqb k "mass_ratio" then Some (1/8, 1) else None in
  exists lo, minimum_chirp_mass p = Some lo /\ is_chirp_mass lo 5 (5/8) /\ minimum_component_mass p = None.
Proof.
  destruct (chirp_spec 5 (5 * (1/8))) as (lo & A & B); [lra|lra|]. exists lo. split; [exact A|]. split; [|reflexivity].
  replace (5/8) with (5 * (1/8)) by lra. exact B.
Qed.

(** ** Assumptions of every theorem above *)
Definition GwPrior_Props_all :=
  (@C101_jacobian,
   @C101_uniform_in_components,
   @C102_cdf_is_the_integral,
   @C102_cdf_increasing,
   @C102_cdf_not_clipped_refuted,
   @C102_rescale_law,
   @C102_equal_mass_not_inverse_refuted,
   @C102_hypergeometric_series,
   @C102_series_instance,
   @C103_aligned_spin_density,
   @C103_magnitude_given_aligned,
   @C103_magnitude_marginal_uniform,
   @C103_in_plane_given_aligned,
   @C104_in_plane_normalised,
   @C104_in_plane_rescale,
   @C104_in_plane_rescale_inverse,
   @C104_in_plane_cdf_above_refuted,
   @C104_aligned_range,
   @C104_aligned_range_refuted,
   @C105_chirp_mass_limits,
   @C105_minimum_component_mass,
   @C105_limits_attained).
Print Assumptions GwPrior_Props_all.
