(** Theorems C118-C120 about sky-map priors (HealPix_Model). *)
From Coq Require Import Reals Lra Lia ZArith List.
From Coquelicot Require Import Coquelicot.
From Verif Require Import HealPix_Model.
Import ListNotations.
Local Open Scope R_scope.

Lemma psum_ext n f g : (forall i, (i < n)%nat -> f i = g i) -> psum n f = psum n g.
Proof. induction n; intros H; cbn; [reflexivity|]. rewrite IHn by (intros; apply H; lia). rewrite (H n) by lia. reflexivity. Qed.
Lemma psum_scal n c f : psum n (fun i => f i / c) = psum n f / c.
Proof. induction n; cbn; [lra|]. rewrite IHn. lra. Qed.
Lemma psum_nonneg n f : (forall i, (i < n)%nat -> 0 <= f i) -> 0 <= psum n f.
Proof. induction n; intros H; cbn; [lra|]. pose proof (H n ltac:(lia)). pose proof (IHn ltac:(intros; apply H; lia)). lra. Qed.
Lemma psum_pos n f k : (forall i, (i < n)%nat -> 0 <= f i) -> (k < n)%nat -> 0 < f k -> 0 < psum n f.
Proof.
  induction n; intros H L P; [lia|]. cbn. destruct (Nat.eq_dec k n) as [->|N].
  - pose proof (psum_nonneg n f ltac:(intros; apply H; lia)). lra.
  - pose proof (IHn ltac:(intros; apply H; lia) ltac:(lia) P). pose proof (H n ltac:(lia)). lra.
Qed.

(** ** C118 the density *)
(** the table is normalised: pixel probabilities are non-negative, proportional to the map and add to one *)
Theorem C118_normalised eps n (a : nat -> R) k : (forall i, (i < n)%nat -> 0 <= a i) -> (k < n)%nat -> 0 < a k ->
  let p := check_norm eps n a in
  psum n p = 1 /\ (forall i, (i < n)%nat -> 0 <= p i) /\ forall i j, (i < n)%nat -> (j < n)%nat -> p i * a j = p j * a i.
Proof.
  intros H L P p. assert (E : psum n (fun i => Rabs (a i)) = psum n a) by (apply psum_ext; intros; apply Rabs_right, Rle_ge, H; assumption).
  assert (T : 0 < psum n a) by (apply (psum_pos n a k); assumption).
  assert (V : forall i, p i = a i / psum n a).
  { intros i. unfold p, check_norm. rewrite E. destruct Req_EM_T; [lra|reflexivity]. }
  split; [|split].
  - rewrite (psum_ext n p (fun i => a i / psum n a)) by (intros; apply V). rewrite psum_scal. field. lra.
  - intros i Hi. rewrite V. apply Rmult_le_pos; [apply H; exact Hi|left; apply Rinv_0_lt_compat; exact T].
  - intros i j _ _. rewrite !V. field. lra.
Qed.
(** one sample within the bounds: the pixel's probability over its area, times the distance density *)
Theorem C118_one_sample ang2pix prob area pdf ra dec d : 0 < area ->
  (forall k, 0 < prob k) -> (forall k r, 0 < r -> 0 < pdf k r) -> 0 < d ->
  let pix := ang2pix (PI / 2 - dec) ra in
  hp_ln_prob ang2pix prob area None [(ra, dec, d)] [false] = [Some (ln (prob pix / area))] /\
  hp_ln_prob ang2pix prob area (Some pdf) [(ra, dec, d)] [false] = [Some (ln (prob pix / area * (pdf pix d * d ^ 2)))] /\
  hp_ln_prob ang2pix prob area (Some pdf) [(ra, dec, d)] [true] = [None].
Proof.
  intros A P Q D pix. assert (X : 0 < prob pix / area) by (apply Rdiv_lt_0_compat; auto).
  assert (Y : 0 < pdf pix d * d ^ 2) by (apply Rmult_lt_0_compat; [apply Q, D|apply pow_lt, D]).
  unfold hp_ln_prob, row_ln_prob, pixel_of, lnx; cbn [map fst snd]. fold pix.
  destruct (Rlt_dec 0 (prob pix / area)); [|contradiction]. destruct (Rlt_dec 0 (pdf pix d * d ^ 2)); [|contradiction].
  split; [reflexivity|]. split; [|reflexivity]. cbn [lnadd]. rewrite (ln_mult (prob pix / area) (pdf pix d * d ^ 2) X Y). reflexivity.
Qed.
(** several samples: every sample within the bounds is given the density of the first sample *)
Theorem C118_first_sample_refuted ang2pix prob area distance row0 rows outs i :
  nth_error outs i = Some false ->
  nth_error (hp_ln_prob ang2pix prob area distance (row0 :: rows) outs) i = Some (row_ln_prob ang2pix prob area distance row0).
Proof. intros H. unfold hp_ln_prob. rewrite nth_error_map, H. reflexivity. Qed.
Theorem C118_two_samples_refuted : exists ang2pix prob a b,
  hp_ln_prob ang2pix prob 1 None [a; b] [false; false] <> 
  hp_ln_prob ang2pix prob 1 None [a] [false] ++ hp_ln_prob ang2pix prob 1 None [b] [false].
Proof.
  exists (fun _ phi => if Rlt_dec phi 1 then 0%nat else 1%nat), (fun k => match k with O => 1 | _ => 2 end), (0, 0, 0), (2, 0, 0).
  unfold hp_ln_prob, row_ln_prob, pixel_of, lnx; cbn. 
  destruct (Rlt_dec 0 1); [|lra]. destruct (Rlt_dec 2 1); [lra|]. destruct (Rlt_dec 0 (1/1)); [|lra]. destruct (Rlt_dec 0 (2/1)); [|lra].
  intros E. injection E as E. apply ln_inv in E; lra.
Qed.
(** the value is a density per solid angle, not per right ascension and declination: for a flat map
    with [n] pixels the integral over the two angles is pi/2 *)
Theorem C118_measure_refuted n ang2pix : (0 < n)%nat ->
  let dens := fun ra dec => match hp_ln_prob ang2pix (fun _ => / INR n) (4 * PI / INR n) None [(ra, dec, 0)] [false] with
                            | [Some v] => exp v | _ => 0 end in
  RInt (fun dec => RInt (fun ra => dens ra dec) 0 (2 * PI)) (- (PI / 2)) (PI / 2) = PI / 2 /\
  RInt (fun dec => RInt (fun ra => dens ra dec * cos dec) 0 (2 * PI)) (- (PI / 2)) (PI / 2) = 1.
Proof.
  intros Hn dens. assert (N : 0 < INR n) by (apply lt_0_INR; exact Hn). pose proof PI_RGT_0 as PP.
  assert (D : forall ra dec, dens ra dec = / (4 * PI)).
  { intros ra dec. unfold dens, hp_ln_prob, row_ln_prob, lnx; cbn [map].
    destruct (Rlt_dec 0 (/ INR n / (4 * PI / INR n))) as [H|H].
    - rewrite exp_ln by exact H. field. split; lra.
    - exfalso. apply H. apply Rdiv_lt_0_compat; [apply Rinv_0_lt_compat; exact N|]. apply Rdiv_lt_0_compat; lra. }
  split.
  - transitivity (RInt (fun _ : R => / 2) (- (PI / 2)) (PI / 2)).
    + apply RInt_ext. intros dec _. transitivity (RInt (fun _ : R => / (4 * PI)) 0 (2 * PI)); [apply RInt_ext; intros; apply D|].
      rewrite RInt_const. unfold scal; cbn; unfold mult; cbn. field. lra.
    + rewrite RInt_const. unfold scal; cbn; unfold mult; cbn. field.
  - transitivity (RInt (fun dec : R => / 2 * cos dec) (- (PI / 2)) (PI / 2)).
    + apply RInt_ext. intros dec _. transitivity (RInt (fun _ : R => / (4 * PI) * cos dec) 0 (2 * PI)); [apply RInt_ext; intros; rewrite D; reflexivity|].
      rewrite RInt_const. unfold scal; cbn; unfold mult; cbn. field. lra.
    + assert (I : is_RInt (fun dec => / 2 * cos dec) (- (PI / 2)) (PI / 2) (minus (/ 2 * sin (PI / 2)) (/ 2 * sin (- (PI / 2))))).
      { apply (is_RInt_derive (fun x => / 2 * sin x)).
        - intros x _. auto_derive; [exact I|]. ring.
        - intros x _. apply (ex_derive_continuous (fun x => / 2 * cos x)). auto_derive. exact I. }
      etransitivity; [exact (is_RInt_unique (V := R_CompleteNormedModule) _ _ _ _ I)|]. rewrite sin_neg, sin_PI2. unfold minus, plus, opp; cbn. lra.
Qed.
Example C118_example : check_norm 1 3 (fun i => match i with O => 1 | 1%nat => 2 | _ => 5 end) 1%nat = 1/4.
Proof. unfold check_norm; cbn. rewrite !Rabs_right by lra. destruct Req_EM_T; lra. Qed.

(** ** C119 pixels of a unit-cube sample *)
Lemma floor_bounds x : IZR (zfloor x) <= x < IZR (zfloor x) + 1.
Proof. unfold zfloor. rewrite minus_IZR. destruct (archimed x). lra. Qed.
Lemma pyround_near x : Rabs (x - IZR (pyround x)) <= 1/2.
Proof.
  pose proof (floor_bounds x) as B. unfold pyround. set (n := zfloor x) in *.
  destruct Rlt_dec; [apply Rabs_le; lra|]. destruct Rlt_dec; [rewrite plus_IZR; apply Rabs_le; lra|].
  destruct (Z.even n); [apply Rabs_le; lra|rewrite plus_IZR; apply Rabs_le; lra].
Qed.
Lemma pyround_unique x z : Rabs (x - IZR z) < 1/2 -> pyround x = z.
Proof.
  intros H. pose proof (pyround_near x) as N. apply Rabs_def2 in H. apply Rabs_le_between in N.
  assert (A : IZR (pyround x) < IZR z + 1) by lra. assert (B : IZR z < IZR (pyround x) + 1) by lra.
  rewrite <- plus_IZR in A, B. apply lt_IZR in A. apply lt_IZR in B. lia.
Qed.
(** a tie goes to the even neighbour *)
Lemma pyround_tie n : pyround (IZR n + 1/2) = if Z.even n then n else (n + 1)%Z.
Proof.
  assert (F : zfloor (IZR n + 1/2) = n).
  { unfold zfloor. rewrite <- (tech_up (IZR n + 1/2) (n + 1)); [lia| |]; rewrite plus_IZR; lra. }
  unfold pyround. rewrite F. destruct Rlt_dec; [lra|]. destruct Rlt_dec; [lra|]. reflexivity.
Qed.
Lemma cumtrap_lt p : (forall i, 0 < p i) -> forall a b, (a < b)%nat -> cumtrap p a < cumtrap p b.
Proof.
  intros P a b L. induction L; cbn [cumtrap].
  - pose proof (P a). pose proof (P (S a)). lra.
  - pose proof (P m). pose proof (P (S m)). lra.
Qed.
Lemma segment_spec Y u : forall left j, let s := segment Y u j left in
  (j <= s <= j + left)%nat /\ (forall i, (j <= i < s)%nat -> Y (S i) < u) /\ ((s < j + left)%nat -> u <= Y (S s)).
Proof.
  induction left as [|l IH]; intros j; cbn [segment]; cbv zeta.
  - split; [lia|]. split; intros; lia.
  - destruct (Rle_dec u (Y (S j))) as [H|H].
    + split; [lia|]. split; [intros; lia|]. intros. exact H.
    + destruct (IH (S j)) as (A & B & C). split; [lia|]. split.
      * intros i Hi. destruct (Nat.eq_dec i j) as [->|N]; [lra|]. apply B. lia.
      * intros L. apply C. lia.
Qed.
Section Law.
Variable p : nat -> R.
Variable n : nat.
Hypothesis P : forall i, 0 < p i.
Hypothesis N : (1 <= n)%nat.
(** halfway between the cumulative values of neighbouring pixels *)
Definition mid (k : nat) : R := match k with O => 0 | S j => if Nat.eqb k (S n) then 1 else (YY p n j + YY p n k) / 2 end.
Lemma T_pos : 0 < cumtrap p n.
Proof using P N. pose proof (cumtrap_lt p P 0 n ltac:(lia)) as H. cbn in H. exact H. Qed.
Lemma Y_lt a b : (a < b)%nat -> YY p n a < YY p n b.
Proof using P N. intros L. unfold YY, Rdiv. apply Rmult_lt_compat_r; [apply Rinv_0_lt_compat, T_pos|apply cumtrap_lt; assumption]. Qed.
Lemma Y_le a b : (a <= b)%nat -> YY p n a <= YY p n b.
Proof using P N. intros L. destruct (Nat.eq_dec a b) as [->|X]; [lra|]. left. apply Y_lt. lia. Qed.
Lemma Y_0 : YY p n 0 = 0. Proof. unfold YY; cbn. unfold Rdiv; ring. Qed.
Lemma Y_n : YY p n n = 1. Proof using P N. unfold YY. field. pose proof T_pos. lra. Qed.
Lemma inverse_at u : 0 <= u <= 1 -> exists j t, (j < n)%nat /\ 0 <= t <= 1 /\ u = YY p n j + t * (YY p n (S j) - YY p n j) /\ (0 < t \/ j = O) /\
  inverse_cdf p n u = Some (INR j + t).
Proof using P N.
  intros [U0 U1]. unfold inverse_cdf. destruct Rlt_dec; [lra|]. destruct Rlt_dec; [lra|]. cbv zeta.
  destruct (segment_spec (YY p n) u (n - 1) 0) as (A & B & C). set (j := segment (YY p n) u 0 (n - 1)) in *.
  assert (Hj : (j < n)%nat) by lia. pose proof (Y_lt j (S j) ltac:(lia)) as L.
  exists j, ((u - YY p n j) / (YY p n (S j) - YY p n j)). split; [exact Hj|].
  assert (Lo : YY p n j <= u /\ (j = O \/ YY p n j < u)).
  { destruct j as [|i]; [rewrite Y_0; split; [lra|left; reflexivity]|]. specialize (B i ltac:(lia)). split; [lra|right; exact B]. }
  assert (Up : u <= YY p n (S j)).
  { destruct (Nat.eq_dec j (n - 1)) as [E|E]; [|apply C; lia]. rewrite E. replace (S (n - 1)) with n by lia. rewrite Y_n. exact U1. }
  split; [|split; [|split; [|reflexivity]]].
  - split; [apply Rmult_le_pos; [lra|left; apply Rinv_0_lt_compat; lra]|]. apply Rmult_le_reg_r with (YY p n (S j) - YY p n j); [lra|]. 
    unfold Rdiv. rewrite Rmult_assoc, Rinv_l by lra. lra.
  - field. lra.
  - destruct (proj2 Lo) as [Z|Z]; [right; exact Z|left; apply Rdiv_lt_0_compat; lra].
Qed.
Lemma half_lt a b t : a < b -> (a + t * (b - a) < (a + b) / 2 <-> t < 1/2) /\ ((a + b) / 2 < a + t * (b - a) <-> 1/2 < t) /\
   (a + t * (b - a) <= (a + b) / 2 <-> t <= 1/2) /\ ((a + b) / 2 <= a + t * (b - a) <-> 1/2 <= t).
Proof.
  intros L. repeat split; intros H.
  - apply Rmult_lt_reg_r with (b - a); lra.
  - apply Rmult_lt_compat_r with (r := b - a) in H; lra.
  - apply Rmult_lt_reg_r with (b - a); lra.
  - apply Rmult_lt_compat_r with (r := b - a) in H; lra.
  - apply Rmult_le_reg_r with (b - a); lra.
  - apply Rmult_le_compat_r with (r := b - a) in H; lra.
  - apply Rmult_le_reg_r with (b - a); lra.
  - apply Rmult_le_compat_r with (r := b - a) in H; lra.
Qed.
Lemma mid_S k : (k < n)%nat -> mid (S k) = (YY p n k + YY p n (S k)) / 2.
Proof using. clear P N. intros L. unfold mid. destruct (Nat.eqb_spec (S k) (S n)); [lia|reflexivity]. Qed.
Lemma mid_last : mid (S n) = 1.
Proof. unfold mid. rewrite Nat.eqb_refl. reflexivity. Qed.
Lemma near_iff j t k : Rabs (INR j + t - IZR (Z.of_nat k)) < 1/2 <-> -(1/2) < INR j - INR k + t < 1/2.
Proof. rewrite <- INR_IZR_INZ. split; intros H; [apply Rabs_def2 in H; lra|apply Rabs_def1; lra]. Qed.
Lemma near_le j t k : Rabs (INR j + t - IZR (Z.of_nat k)) <= 1/2 <-> -(1/2) <= INR j - INR k + t <= 1/2.
Proof. rewrite <- INR_IZR_INZ. split; intros H; [apply Rabs_le_between in H; lra|apply Rabs_le; lra]. Qed.
(** the numbers sent to pixel [k] form the interval between the two midpoints, but for its ends *)
Lemma pixel_law k u : (k <= n)%nat -> 0 <= u <= 1 ->
  (mid k < u < mid (S k) -> rescale_pixel p n u = Some (Z.of_nat k)) /\
  (rescale_pixel p n u = Some (Z.of_nat k) -> mid k <= u <= mid (S k)).
Proof using P N.
  intros Hk U. destruct (inverse_at u U) as (j & t & Hj & Ht & Eu & Et & E). unfold rescale_pixel. rewrite E.
  pose proof (half_lt _ _ t (Y_lt j (S j) ltac:(lia))) as (H1 & H2 & H3 & H4). rewrite <- Eu in *.
  split.
  - intros [A B]. f_equal. apply pyround_unique, near_iff.
    destruct (Nat.lt_trichotomy j k) as [L|[->|L]].
    + destruct (Nat.eq_dec (S j) k) as [<-|X].
      * rewrite mid_S in A by lia. apply H2 in A. rewrite S_INR. lra.
      * exfalso. assert (u <= YY p n (S j)) by (rewrite Eu; pose proof (Y_lt j (S j) ltac:(lia)); assert (t * (YY p n (S j) - YY p n j) <= 1 * (YY p n (S j) - YY p n j)) by (apply Rmult_le_compat_r; lra); lra).
        destruct k as [|k]; [lia|]. rewrite mid_S in A by lia. pose proof (Y_le (S j) k ltac:(lia)). pose proof (Y_lt k (S k) ltac:(lia)). lra.
    + rewrite mid_S in B by exact Hj. apply H1 in B. lra.
    + exfalso. rewrite mid_S in B by lia. pose proof (Y_le (S k) j ltac:(lia)). pose proof (Y_lt k (S k) ltac:(lia)).
      assert (YY p n j <= u). { rewrite Eu. assert (0 <= t * (YY p n (S j) - YY p n j)) by (apply Rmult_le_pos; [lra|pose proof (Y_lt j (S j) ltac:(lia)); lra]). lra. }
      lra.
  - intros Q. injection Q as Q. pose proof (pyround_near (INR j + t)) as R. rewrite Q in R. apply near_le in R.
    assert (J1 : (j <= k)%nat). { apply INR_le. assert (INR j < INR k + 1) by lra. rewrite <- S_INR in H. apply INR_lt in H. apply le_INR. lia. }
    assert (J2 : (k <= S j)%nat). { assert (INR k < INR j + 2) by lra. replace (INR j + 2) with (INR (S (S j))) in H by (rewrite !S_INR; lra). apply INR_lt in H. lia. }
    destruct (Nat.eq_dec j k) as [->|X].
    + split; [|rewrite mid_S by exact Hj; apply H3; lra]. destruct k as [|k]; [cbn; lra|].
      rewrite mid_S by lia. pose proof (Y_lt k (S k) ltac:(lia)). assert (YY p n (S k) <= u). { rewrite Eu. assert (0 <= t * (YY p n (S (S k)) - YY p n (S k))) by (apply Rmult_le_pos; [lra|pose proof (Y_lt (S k) (S (S k)) ltac:(lia)); lra]). lra. } lra.
    + assert (k = S j) by lia. subst k. rewrite S_INR in R. split; [rewrite mid_S by lia; apply H4; lra|].
      destruct (Nat.eq_dec (S j) n) as [E2|E2]; [rewrite E2, mid_last; lra|].
      rewrite mid_S by lia. pose proof (Y_lt (S j) (S (S j)) ltac:(lia)).
      assert (u <= YY p n (S j)) by (rewrite Eu; pose proof (Y_lt j (S j) ltac:(lia)); assert (t * (YY p n (S j) - YY p n j) <= 1 * (YY p n (S j) - YY p n j)) by (apply Rmult_le_compat_r; lra); lra). lra.
Qed.
End Law.
Lemma trap_total p n : cumtrap p n = psum (S n) p - (p O + p n) / 2.
Proof. induction n; [cbn; lra|]. cbn [cumtrap]. rewrite IHn. change (psum (S (S n)) p) with (psum (S n) p + p (S n)). lra. Qed.
(** the probability, over a uniform number, of each pixel: neighbouring table entries are mixed in *)
Theorem C119_pixel_probability p n k : (forall i, 0 < p i) -> (1 <= n)%nat -> (k <= n)%nat ->
  let T := psum (S n) p - (p O + p n) / 2 in
  exists lo hi, 0 <= lo <= hi /\ hi <= 1 /\
  (forall u, lo < u < hi -> rescale_pixel p n u = Some (Z.of_nat k)) /\
  (forall u, 0 <= u <= 1 -> rescale_pixel p n u = Some (Z.of_nat k) -> lo <= u <= hi) /\
  hi - lo = ((if Nat.eqb k 0 then 0 else p (k - 1)%nat + p k) + (if Nat.eqb k n then 0 else p k + p (S k))) / (4 * T).
Proof.
  intros P N Hk T. exists (mid p n k), (mid p n (S k)).
  assert (TP := T_pos p n P N). assert (TE : T = cumtrap p n) by (symmetry; apply trap_total).
  assert (LO : 0 <= mid p n k).
  { destruct k; [cbn; lra|]. rewrite mid_S by lia. pose proof (Y_le p n P N 0 k ltac:(lia)). pose proof (Y_le p n P N 0 (S k) ltac:(lia)). pose proof (Y_0 p n). lra. }
  assert (HI : mid p n (S k) <= 1).
  { destruct (Nat.eq_dec k n) as [->|X]; [rewrite mid_last; lra|]. rewrite mid_S by lia. pose proof (Y_le p n P N k n ltac:(lia)). pose proof (Y_le p n P N (S k) n ltac:(lia)). pose proof (Y_n p n P N). lra. }
  assert (LEN : mid p n (S k) - mid p n k = ((if Nat.eqb k 0 then 0 else p (k - 1)%nat + p k) + (if Nat.eqb k n then 0 else p k + p (S k))) / (4 * T)).
  { rewrite TE. destruct k as [|k].
    - rewrite mid_S by lia. change (mid p n 0) with 0. change (0 =? 0)%nat with true. destruct n as [|m]; [lia|]. cbn [Nat.eqb]. unfold YY. cbn [cumtrap] in TP |- *. field. lra.
    - change (S k =? 0)%nat with false. rewrite (mid_S p n k) by lia. replace (S k - 1)%nat with k by lia. destruct (Nat.eqb_spec (S k) n) as [E|E].
      + rewrite <- E, mid_last. unfold YY. rewrite <- E in TP. cbn [cumtrap] in TP |- *. field. lra.
      + rewrite mid_S by lia. unfold YY. cbn [cumtrap]. field. lra. }
  split; [split; [exact LO|]|].
  - assert (0 <= mid p n (S k) - mid p n k); [|lra]. rewrite LEN. pose proof (P (k - 1)%nat). pose proof (P k). pose proof (P (S k)).
    apply Rmult_le_pos; [destruct (k =? 0)%nat, (k =? n)%nat; lra|]. left. apply Rinv_0_lt_compat. lra.
  - split; [exact HI|]. split; [|split; [|exact LEN]].
    + intros u Hu. apply (pixel_law p n P N k u Hk); [lra|exact Hu].
    + intros u Hu. apply (pixel_law p n P N k u Hk Hu).
Qed.
(** so the pixel is not chosen with the map's probability: 14/36 instead of 6/10 here *)
Theorem C119_map_probability_refuted : exists p lo hi, psum 5 p = 10 /\ p 2%nat = 6 /\
  (forall u, lo < u < hi -> rescale_pixel p 4 u = Some 2%Z) /\
  (forall u, 0 <= u <= 1 -> rescale_pixel p 4 u = Some 2%Z -> lo <= u <= hi) /\ hi - lo = 14/36.
Proof.
  set (p := fun i : nat => match i with 2%nat => 6 | _ => 1 end). 
  destruct (C119_pixel_probability p 4 2) as (lo & hi & _ & _ & A & B & C); [intros [|[|[|i]]]; cbn; lra|lia|lia|].
  exists p, lo, hi. split; [cbn; lra|]. split; [reflexivity|]. split; [exact A|]. split; [exact B|].
  rewrite C. cbn. lra.
Qed.
Example C119_example : rescale_pixel (fun _ => 1) 2 (1/3) = Some 1%Z /\ rescale_pixel (fun _ => 1) 2 (1/8) = Some 0%Z.
Proof.
  split.
  - apply (pixel_law (fun _ => 1) 2 ltac:(intros; lra) ltac:(lia) 1 (1/3)); [lia|lra|]. rewrite !mid_S by lia. unfold YY; cbn. lra.
  - apply (pixel_law (fun _ => 1) 2 ltac:(intros; lra) ltac:(lia) 0 (1/8)); [lia|lra|]. rewrite mid_S by lia. unfold YY; cbn. lra.
Qed.

(** ** C120 points within a pixel, distances, and the shape of the result *)
(** a point is returned exactly if the pixel's centre is within bounds and pixel; otherwise the recursion never ends *)
Theorem C120_terminates inpix len ra dec rng :
  (inpix = true -> forall f, exists i, draw_from_pixel inpix len ra dec rng (S f) =
      Some (ra - len + 2 * len * fst (rng i), dec - len + 2 * len * snd (rng i))) /\
  (inpix = false -> forall f, draw_from_pixel inpix len ra dec rng f = None).
Proof.
  split; intros ->.
  - intros f. exists f. reflexivity.
  - induction f as [|f IH]; [reflexivity|]. cbn [draw_from_pixel]. rewrite IH. reflexivity.
Qed.
(** the point is anywhere in a square of twice the pixel's side length, in the pixel and the bounds or not *)
Theorem C120_square inpix len ra dec rng f pt : 0 < len -> (forall i, 0 <= fst (rng i) < 1 /\ 0 <= snd (rng i) < 1) ->
  draw_from_pixel inpix len ra dec rng f = Some pt ->
  ra - len <= fst pt < ra + len /\ dec - len <= snd pt < dec + len.
Proof.
  intros L R. destruct f as [|f]; [discriminate|]. intros E.
  assert (X : pt = (ra - len + 2 * len * fst (rng f), dec - len + 2 * len * snd (rng f))).
  { cbn [draw_from_pixel] in E. destruct inpix; [congruence|]. destruct draw_from_pixel; [congruence|discriminate]. }
  subst pt. cbn [fst snd]. destruct (R f) as [A B].
  assert (0 <= 2 * len * fst (rng f) < 2 * len * 1) by (split; [apply Rmult_le_pos; lra|apply Rmult_lt_compat_l; lra]).
  assert (0 <= 2 * len * snd (rng f) < 2 * len * 1) by (split; [apply Rmult_le_pos; lra|apply Rmult_lt_compat_l; lra]). lra.
Qed.
Theorem C120_outside_refuted ang2pix bra bdec len ra dec pix a b : 0 < len ->
  check_in_pixel ang2pix bra bdec ra dec pix = true ->
  ra - len <= a < ra + len -> dec - len <= b < dec + len -> ang2pix (PI / 2 - b) a <> pix ->
  exists rng f, (forall i : nat, 0 <= fst (rng i) < 1 /\ 0 <= snd (rng i) < 1) /\
  draw_from_pixel (check_in_pixel ang2pix bra bdec ra dec pix) len ra dec rng f = Some (a, b) /\
  check_in_pixel ang2pix bra bdec a b pix = false.
Proof.
  intros L C A B O. exists (fun _ => ((a - (ra - len)) / (2 * len), (b - (dec - len)) / (2 * len))), 1%nat. split; [|split].
  - intros _. cbn [fst snd]. assert (G : forall y, 0 <= y < 2 * len -> 0 <= y / (2 * len) < 1).
    { intros y Hy. split; [apply Rmult_le_pos; [lra|left; apply Rinv_0_lt_compat; lra]|]. apply Rmult_lt_reg_r with (2 * len); [lra|]. unfold Rdiv. rewrite Rmult_assoc, Rinv_l by lra. lra. }
    split; apply G; lra.
  - rewrite C. cbn. f_equal. f_equal; field; lra.
  - unfold check_in_pixel. destruct (Nat.eqb_spec pix (ang2pix (PI / 2 - b) a)) as [E|E]; [congruence|].
    repeat destruct Rlt_dec; reflexivity.
Qed.
(** without distance, and for one sample with distance, rows hold the values of one sample each *)
Theorem C120_rows {A} (ras decs : list A) i a b : nth_error ras i = Some a -> nth_error decs i = Some b ->
  nth_error (rescale_rows2 ras decs) i = Some [a; b].
Proof.
  revert ras decs. induction i as [|i IH]; intros [|x t] [|y s] H1 H2; try discriminate; cbn in *; [congruence|].
  apply IH; assumption.
Qed.
Theorem C120_single_row {A} (a b d : A) : rescale_rows [a] [b] [d] = [[a; b; d]].
Proof. reflexivity. Qed.
(** with distance and [n > 1] samples the first row holds, for three or more samples, three right ascensions *)
Theorem C120_mixed_rows_refuted {A} (a0 a1 a2 : A) ras decs dists :
  hd [] (rescale_rows (a0 :: a1 :: a2 :: ras) decs dists) = [a0; a1; a2] /\
  forall b0 b1 d0 d1 : A, rescale_rows [a0; a1] [b0; b1] [d0; d1] = [[a0; a1; b0]; [b1; d0; d1]].
Proof. split; reflexivity. Qed.
(** the distance transform is defined exactly between the first cumulative value and one, and its value
    is on the grid; the first value is zero exactly if the grid starts at zero distance *)
Theorem C120_distance pdf rs n u : (1 <= n)%nat -> (forall i, 0 < pdf i) -> 0 <= rs O -> (forall i, rs i < rs (S i)) -> 0 <= u <= 1 ->
  let f0 := rs O ^ 2 * pdf O / psum (S n) (dist_pdfs pdf rs) in
  (distance_icdf (dist_pdfs pdf rs) rs n u = None <-> u < f0) /\
  (forall d, distance_icdf (dist_pdfs pdf rs) rs n u = Some d -> rs O <= d <= rs n) /\
  (f0 = 0 <-> rs O = 0).
Proof.
  intros N P R0 RI U f0. assert (Q : forall i, 0 <= dist_pdfs pdf rs i) by (intros; unfold dist_pdfs; apply Rmult_le_pos; [apply pow2_ge_0|left; apply P]).
  assert (RM : forall a b, (a <= b)%nat -> rs a <= rs b) by (intros a b L; induction L; [lra|pose proof (RI m); lra]).
  assert (RP : forall i, 0 < rs (S i)) by (intros i; pose proof (RM O i ltac:(lia)); pose proof (RI i); lra).
  assert (QP : forall i, 0 < dist_pdfs pdf rs (S i)) by (intros; unfold dist_pdfs; apply Rmult_lt_0_compat; [apply pow_lt, RP|apply P]).
  set (q := dist_pdfs pdf rs) in *.
  assert (T : 0 < psum (S n) q) by (apply (psum_pos (S n) q n); [intros; apply Q|lia|destruct n; [lia|apply QP]]).
  assert (D0 : distcdf q n 0 = f0) by (unfold distcdf, f0; cbn [psum]; unfold q at 1, dist_pdfs; f_equal; lra).
  assert (Dn : distcdf q n n = 1) by (unfold distcdf; field; lra).
  assert (DL : forall i, distcdf q n i < distcdf q n (S i)).
  { intros i. unfold distcdf. change (psum (S (S i)) q) with (psum (S i) q + q (S i)). unfold Rdiv. apply Rmult_lt_compat_r; [apply Rinv_0_lt_compat; exact T|]. pose proof (QP i). lra. }
  split; [|split].
  - unfold distance_icdf. rewrite D0, Dn. destruct (Rlt_dec u f0); [tauto|]. destruct (Rlt_dec 1 u); [lra|]. split; [discriminate|lra].
  - intros d. unfold distance_icdf. rewrite D0, Dn. destruct (Rlt_dec u f0) as [|U0]; [discriminate|]. destruct (Rlt_dec 1 u); [lra|]. cbv zeta.
    destruct (segment_spec (distcdf q n) u (n - 1) 0) as (A & B & C). set (j := segment (distcdf q n) u 0 (n - 1)) in *.
    intros E. injection E as <-. pose proof (DL j) as L.
    assert (Lo : distcdf q n j <= u). { destruct j as [|i]; [rewrite D0; lra|]. specialize (B i ltac:(lia)). lra. }
    assert (Up : u <= distcdf q n (S j)). { destruct (Nat.eq_dec j (n - 1)) as [E|E]; [rewrite E; replace (S (n - 1)) with n by lia; lra|apply C; lia]. }
    pose proof (RM O j ltac:(lia)). pose proof (RM (S j) n ltac:(lia)). pose proof (RI j).
    set (t := (u - distcdf q n j) / (distcdf q n (S j) - distcdf q n j)).
    assert (Ht : 0 <= t <= 1).
    { split; [apply Rmult_le_pos; [lra|left; apply Rinv_0_lt_compat; lra]|]. apply Rmult_le_reg_r with (distcdf q n (S j) - distcdf q n j); [lra|]. unfold t, Rdiv. rewrite Rmult_assoc, Rinv_l by lra. lra. }
    assert (0 <= t * (rs (S j) - rs j)) by (apply Rmult_le_pos; lra). assert (t * (rs (S j) - rs j) <= 1 * (rs (S j) - rs j)) by (apply Rmult_le_compat_r; lra). lra.
  - unfold f0. split.
    + intros E. apply Rmult_integral in E. destruct E as [E|E]; [|pose proof (Rinv_0_lt_compat _ T); lra].
      apply Rmult_integral in E. destruct E as [E|E]; [|pose proof (P O); lra]. cbn in E. rewrite Rmult_1_r in E. apply Rmult_integral in E. destruct E; assumption.
    + intros ->. unfold Rdiv. rewrite pow_i by lia. ring.
Qed.
(** a drawn distance outside the bounds is not drawn again: nothing is returned *)
Theorem C120_redraw_refuted icdf lo hi u d : icdf u = Some d ->
  (lo <= d <= hi -> draw_distance false icdf lo hi u = DValue d) /\
  (d < lo \/ hi < d -> draw_distance false icdf lo hi u = DNone).
Proof. intros E. unfold draw_distance. rewrite E. destruct (Rlt_dec hi d), (Rlt_dec d lo); split; intros; try reflexivity; lra. Qed.
Example C120_example : rescale_rows [1; 2]%nat [3; 4]%nat [5; 6]%nat = [[1; 2; 3]; [4; 5; 6]]%nat.
Proof. reflexivity. Qed.

(** ** Assumptions of every theorem above *)
Definition HealPix_Props_all :=
  (@C118_normalised,
   @C118_one_sample,
   @C118_first_sample_refuted,
   @C118_two_samples_refuted,
   @C118_measure_refuted,
   @C119_pixel_probability,
   @C119_map_probability_refuted,
   @C120_terminates,
   @C120_square,
   @C120_outside_refuted,
   @C120_rows,
   @C120_single_row,
   @C120_mixed_rows_refuted,
   @C120_distance,
   @C120_redraw_refuted).
Print Assumptions HealPix_Props_all.
