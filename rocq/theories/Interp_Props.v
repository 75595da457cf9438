(** * Interpolated prior (C13) and slab-and-spike prior (C14) *)
From Coq Require Import Reals Lra Psatz List Bool Lia.
From Coquelicot Require Import Coquelicot.
From Verif Require Import PyReal PriorSpec Interp_Model Interp_Proofs.
Import ListNotations.
Open Scope R_scope.

(** a table Interped can work with: two or more strictly increasing abscissae,
    non-negative ordinates, positive area *)
Definition good_table (l : list (R * R)) : Prop :=
  (2 <= length l)%nat /\ incr l /\ (forall p, In p l -> 0 <= snd p) /\ 0 < trapz l.
Definition density (l : list (R * R)) (x : R) : R := match Interped_prob l x with Some y => y | None => 0 end.

Lemma good_shape l : good_table l -> exists x0 y0 x1 y1 t, l = (x0, y0) :: (x1, y1) :: t.
Proof. intros (H & _). destruct l as [|[x0 y0] [|[x1 y1] t]]; simpl in H; try lia. eauto 10. Qed.
Lemma norm_first l : first_x (normalise l) = first_x l.
Proof. destruct l as [|[x y] t]; reflexivity. Qed.
Lemma norm_last l d : last_x (normalise l) d = last_x l d.
Proof. apply (last_map l (fun p => snd p / trapz l)). Qed.
Lemma norm_incr l : incr l -> incr (normalise l).
Proof. apply (incr_map l (fun p => snd p / trapz l)). Qed.
Lemma norm_pos l : good_table l -> forall p, In p (normalise l) -> 0 <= snd p.
Proof.
  intros (_ & _ & HP & HT) p Hp. apply in_map_iff in Hp. destruct Hp as (q & <- & Hq). simpl. apply Rdiv_le_0_compat; [apply HP, Hq|exact HT].
Qed.
Lemma first_last l : good_table l -> first_x l < last_x l 0.
Proof.
  intros G. destruct (good_shape l G) as (x0 & y0 & x1 & y1 & t & ->). destruct G as (_ & [H1 H2] & _). pose proof (incr_last _ _ _ H2). simpl. lra.
Qed.
Lemma prob_inside l x : good_table l -> first_x l <= x <= last_x l 0 -> Interped_prob l x = Some (val (normalise l) x).
Proof.
  intros G Hx. unfold Interped_prob, interp_fill. rewrite norm_first, norm_last.
  destruct (Rlt_dec x (first_x l)); [lra|]. destruct (Rlt_dec (last_x l 0) x); [lra|].
  pose proof (norm_incr l (proj1 (proj2 G))) as NI. unfold val. destruct (good_shape l G) as (x0 & y0 & x1 & y1 & t & E).
  assert (EN : normalise l = (x0, y0 / trapz l) :: (x1, y1 / trapz l) :: map (fun p => (fst p, snd p / trapz l)) t) by (unfold normalise; generalize (trapz l); intros; rewrite E; reflexivity).
  rewrite EN in NI |- *. destruct (interp_defined _ _ _ _ _ x NI) as [y Ey].
  - rewrite (last_map t (fun p => snd p / trapz l)). rewrite E in Hx. simpl in Hx. lra.
  - rewrite Ey. reflexivity.
Qed.
Lemma nonneg_interp m x y : incr m -> (forall p, In p m -> 0 <= snd p) -> first_x m <= x -> interp_in m x = Some y -> 0 <= y.
Proof.
  induction m as [|[x0 y0] [|[x1 y1] t] IH]; intros HI HP Hx H; [discriminate|discriminate|].
  destruct HI as [H1 H2]. cbn [interp_in first_x] in *. pose proof (HP _ (or_introl eq_refl)) as P0. pose proof (HP _ (or_intror (or_introl eq_refl))) as P1. simpl in P0, P1.
  destruct (Rle_dec x x1).
  - destruct (Req_EM_T (x1 - x0) 0); [lra|]. injection H as <-.
    replace ((y1 - y0) / (x1 - x0) * (x - x0) + y0) with ((y1 * (x - x0) + y0 * (x1 - x)) / (x1 - x0)) by (field; lra).
    apply Rdiv_le_0_compat; [|lra]. nra.
  - apply IH; auto. intros p Hp. apply HP. right. exact Hp. simpl. lra.
Qed.

(** ** C13 *)
(** [prob] is a density: defined and non-negative everywhere, zero outside the
    table, with total mass exactly one inside *)
Theorem C13_density_normalised l : good_table l ->
  (forall x, exists y, Interped_prob l x = Some y /\ 0 <= y) /\
  (forall x, x < first_x l \/ last_x l 0 < x -> Interped_prob l x = Some 0) /\
  is_RInt (density l) (first_x l) (last_x l 0) 1.
Proof.
  intros G. pose proof G as (HL & HI & HP & HT). split; [|split].
  - intros x. destruct (Rlt_dec x (first_x l)) as [A|A]; [|destruct (Rlt_dec (last_x l 0) x) as [B|B]].
    + exists 0. split; [|lra]. unfold Interped_prob, interp_fill. rewrite norm_first. destruct (Rlt_dec x (first_x l)); [reflexivity|contradiction].
    + exists 0. split; [|lra]. unfold Interped_prob, interp_fill. rewrite norm_first, norm_last. destruct (Rlt_dec x (first_x l)); [reflexivity|]. destruct (Rlt_dec (last_x l 0) x); [reflexivity|contradiction].
    + pose proof (prob_inside l x G ltac:(lra)) as E. exists (val (normalise l) x). split; [exact E|].
      unfold Interped_prob, interp_fill in E. rewrite norm_first, norm_last in E. destruct (Rlt_dec x (first_x l)); [lra|]. destruct (Rlt_dec (last_x l 0) x); [lra|].
      apply (nonneg_interp (normalise l) x); [apply norm_incr, HI|apply norm_pos, G|rewrite norm_first; lra|exact E].
  - intros x Hx. unfold Interped_prob, interp_fill. rewrite norm_first, norm_last. destruct (Rlt_dec x (first_x l)); [reflexivity|]. destruct (Rlt_dec (last_x l 0) x); [reflexivity|lra].
  - apply (is_RInt_ext (val (normalise l))).
    + intros x Hx. pose proof (first_last l G). rewrite Rmin_left, Rmax_right in Hx by lra. unfold density. rewrite (prob_inside l x G) by lra. reflexivity.
    + destruct (good_shape l G) as (x0 & y0 & x1 & y1 & t & E).
      pose proof (norm_incr l HI) as NI. destruct (normalise l) as [|[z w] m] eqn:EN; [rewrite E in EN; discriminate|].
      pose proof (val_integral m z w NI) as V. rewrite <- EN in V. eapply is_RInt_val.
      * replace (first_x l) with z by (rewrite <- (norm_first l), EN; reflexivity).
        replace (last_x l 0) with (last_x m z) by (rewrite <- (norm_last l), EN; reflexivity). rewrite <- EN. exact V.
      * unfold normalise. rewrite trapz_scale by lra. field. lra.
Qed.
Lemma cumul_props l : good_table l -> incr (cumulative l) /\ yincr (cumulative l) /\ first_x (cumulative l) = first_x l /\ last_x (cumulative l) 0 = last_x l 0 /\
  first_x (swap (cumulative l)) = 0 /\ last_y (cumulative l) 0 = 1 /\
  exists x0 x1 c1 t, cumulative l = (x0, 0) :: (x1, c1) :: t.
Proof.
  intros G. pose proof G as (HL & HI & HP & HT). destruct (good_shape l G) as (x0 & y0 & x1 & y1 & t & E).
  rewrite cumulative_eq by (try lra; rewrite E; discriminate).
  assert (EN : normalise l = (x0, y0 / trapz l) :: (x1, y1 / trapz l) :: map (fun p => (fst p, snd p / trapz l)) t) by (unfold normalise; generalize (trapz l); intros; rewrite E; reflexivity).
  split; [apply cum_incr, norm_incr, HI|]. split; [apply cum_yincr; [apply norm_incr, HI|apply norm_pos, G]|].
  assert (SH : exists c1 t', cumtrapz 0 (normalise l) = (x0, 0) :: (x1, c1) :: t').
  { rewrite EN. set (m := map (fun p => (fst p, snd p / trapz l)) t). set (a := y0 / trapz l). set (b := y1 / trapz l).
    change (cumtrapz 0 ((x0, a) :: (x1, b) :: m)) with ((x0, 0) :: cumtrapz (0 + (x1 - x0) * (b + a) / 2) ((x1, b) :: m)).
    destruct (cum_cons (0 + (x1 - x0) * (b + a) / 2) x1 b m) as [t' Et]. rewrite Et. eauto. }
  destruct SH as (c1 & t' & SH). split; [rewrite SH, E; reflexivity|]. split; [rewrite cum_lastx, norm_last; reflexivity|].
  split; [rewrite SH; reflexivity|]. split.
  - rewrite cum_lasty by (rewrite EN; discriminate). unfold normalise. rewrite trapz_scale by lra. field. lra.
  - rewrite SH. eauto.
Qed.
Lemma cdf_inside l x : good_table l -> first_x l <= x <= last_x l 0 -> Interped_cdf l x = interp_in (cumulative l) x /\ exists y, interp_in (cumulative l) x = Some y.
Proof.
  intros G Hx. destruct (cumul_props l G) as (CI & CY & CF & CL & _ & _ & x0 & x1 & c1 & t & SH). split.
  - unfold Interped_cdf, interp_fill. rewrite CF, CL. destruct (Rlt_dec x (first_x l)); [lra|]. destruct (Rlt_dec (last_x l 0) x); [lra|reflexivity].
  - rewrite SH in *. apply interp_defined; [exact CI|]. rewrite <- CL in Hx. simpl in Hx. lra.
Qed.
Lemma yincr_upper m x y : incr m -> yincr m -> first_x m <= x -> interp_in m x = Some y -> y <= last_y m 0.
Proof.
  induction m as [|[x0 y0] [|[x1 y1] t] IH]; intros HI HY Hx H; [discriminate|discriminate|].
  destruct HI as [H1 H2]. destruct HY as [Y1 Y2]. cbn [interp_in first_x] in *. pose proof (yincr_last _ _ _ Y2) as L.
  change (last_y ((x0, y0) :: (x1, y1) :: t) 0) with (last_y t y1). destruct (Rle_dec x x1) as [A|A].
  - destruct (Req_EM_T (x1 - x0) 0); [discriminate|]. injection H as <-.
    assert ((y1 - y0) / (x1 - x0) * (x - x0) + y0 <= y1); [|lra].
    replace y1 with ((y1 - y0) / (x1 - x0) * (x1 - x0) + y0) at 2 by (field; lra).
    assert (0 <= (y1 - y0) / (x1 - x0)) by (apply Rdiv_le_0_compat; lra). nra.
  - apply (IH H2 Y2); [simpl; lra|exact H].
Qed.
(** [cdf] is defined everywhere, non-decreasing, 0 below and 1 above the table and
    inside [0,1]; at every node it is the exact mass of the density below the node *)
Theorem C13_cdf l : good_table l ->
  (forall x, x <= first_x l -> Interped_cdf l x = Some 0) /\ (forall x, last_x l 0 <= x -> Interped_cdf l x = Some 1) /\
  (forall x, exists c, Interped_cdf l x = Some c /\ 0 <= c <= 1) /\
  (forall x x' c c', x <= x' -> Interped_cdf l x = Some c -> Interped_cdf l x' = Some c' -> c <= c') /\
  (forall x y c, In (x, y) l -> Interped_cdf l x = Some c -> is_RInt (density l) (first_x l) x c).
Proof.
  intros G. pose proof G as (HL & HI & HP & HT). pose proof (first_last l G) as FL.
  destruct (cumul_props l G) as (CI & CY & CF & CL & _ & CY1 & x0 & x1 & c1 & t & SH).
  assert (LEN : (2 <= length (cumulative l))%nat) by (rewrite SH; simpl; lia).
  assert (LO : forall x, x <= first_x l -> Interped_cdf l x = Some 0).
  { intros x Hx. destruct (Req_dec x (first_x l)) as [->|N].
    - rewrite (proj1 (cdf_inside l (first_x l) G ltac:(lra))). apply interp_node; [exact CI| |exact LEN]. rewrite <- CF, SH. left. reflexivity.
    - unfold Interped_cdf, interp_fill. rewrite CF. destruct (Rlt_dec x (first_x l)); [reflexivity|lra]. }
  assert (LASTIN : forall m d, m <> [] -> In (last_x m d, last_y m d) m).
  { clear. induction m as [|[x y] [|p m] IH]; intros d N; [contradiction|left; reflexivity|]. right.
    change (last_x ((x, y) :: p :: m) d) with (last_x (p :: m) x). change (last_y ((x, y) :: p :: m) d) with (last_y (p :: m) y).
    destruct p as [x1 y1]. apply (IH 0). discriminate. }
  assert (HIx : forall x, last_x l 0 <= x -> Interped_cdf l x = Some 1).
  { intros x Hx. destruct (Req_dec x (last_x l 0)) as [->|N].
    - rewrite (proj1 (cdf_inside l (last_x l 0) G ltac:(lra))). apply interp_node; [exact CI| |exact LEN]. rewrite <- CL, <- CY1. apply LASTIN. rewrite SH. discriminate.
    - unfold Interped_cdf, interp_fill. rewrite CF, CL. destruct (Rlt_dec x (first_x l)); [lra|]. destruct (Rlt_dec (last_x l 0) x); [reflexivity|lra]. }
  assert (IN : forall x, first_x l <= x <= last_x l 0 -> exists c, Interped_cdf l x = Some c /\ interp_in (cumulative l) x = Some c /\ 0 <= c <= 1).
  { intros x Hx. destruct (cdf_inside l x G Hx) as [E [c Ec]]. exists c. rewrite E. split; [exact Ec|]. split; [exact Ec|]. split.
    - pose proof (interp_bound _ _ _ CI CY Ec ltac:(rewrite CF; lra)) as B. rewrite SH in B. exact B.
    - rewrite <- CY1. apply (yincr_upper _ x c CI CY); [rewrite CF; lra|exact Ec]. }
  assert (ALL : forall x, exists c, Interped_cdf l x = Some c /\ 0 <= c <= 1).
  { intros x. destruct (Rle_dec x (first_x l)) as [A|A]; [exists 0; split; [apply LO, A|lra]|].
    destruct (Rle_dec (last_x l 0) x) as [B|B]; [exists 1; split; [apply HIx, B|lra]|].
    destruct (IN x ltac:(lra)) as (c & A1 & _ & A2). eauto. }
  split; [exact LO|]. split; [exact HIx|]. split; [exact ALL|]. split.
  - intros x x' c c' Hxx H H'. destruct (ALL x) as (k & K1 & K2). destruct (ALL x') as (k' & K1' & K2'). rewrite K1 in H. rewrite K1' in H'. injection H as <-. injection H' as <-.
    destruct (Rle_dec x (first_x l)) as [A|A]; [rewrite (LO x A) in K1; injection K1 as <-; lra|].
    destruct (Rle_dec (last_x l 0) x') as [B|B]; [rewrite (HIx x' B) in K1'; injection K1' as <-; lra|].
    destruct (IN x ltac:(lra)) as (c & A1 & A1' & _). destruct (IN x' ltac:(lra)) as (c' & B1 & B1' & _). rewrite A1 in K1. rewrite B1 in K1'. injection K1 as <-. injection K1' as <-.
    apply (interp_mono (cumulative l) x x'); auto; try (rewrite CF; lra).
  - intros x y c Hin Hc.
    assert (EN : cumulative l = cumtrapz 0 (normalise l)) by (apply cumulative_eq; [destruct l; [simpl in HL; lia|discriminate]|lra]).
    assert (Hx : exists c', In (x, c') (cumulative l)).
    { rewrite EN. clear - Hin. assert (Hn : exists y', In (x, y') (normalise l)) by (exists (y / trapz l); unfold normalise; apply in_map_iff; exists (x, y); auto).
      destruct Hn as [y' Hn]. revert Hn. generalize (normalise l) as m, 0. induction m as [|[z w] [|[z1 w1] m] IH]; intros r Hn; [destruct Hn|destruct Hn as [Hn|[]]; injection Hn as <- <-; exists r; left; reflexivity|].
      change (cumtrapz r ((z, w) :: (z1, w1) :: m)) with ((z, r) :: cumtrapz (r + (z1 - z) * (w1 + w) / 2) ((z1, w1) :: m)).
      destruct Hn as [Hn|Hn]; [injection Hn as <- <-; exists r; left; reflexivity|]. destruct (IH (r + (z1 - z) * (w1 + w) / 2) Hn) as [c' Hc']. exists c'. right. exact Hc'. }
    destruct Hx as [c' Hc'].
    assert (RNG : forall m z, incr m -> In (z, c') m -> first_x m <= z <= last_x m 0).
    { clear. induction m as [|[x0 y0] [|[x1 y1] t] IH]; intros z HI Hin; [destruct Hin|destruct Hin as [E|[]]; injection E as <- <-; simpl; lra|].
      destruct HI as [H1 H2]. pose proof (incr_last _ _ _ H2) as L2. destruct Hin as [E|Hin]; [injection E as <- <-; simpl; lra|]. specialize (IH z H2 Hin). simpl in IH |- *. lra. }
    pose proof (RNG _ _ CI Hc') as Rx. rewrite CF, CL in Rx.
    assert (c = c').
    { rewrite (proj1 (cdf_inside l x G Rx)) in Hc. rewrite (interp_node _ _ _ CI Hc' LEN) in Hc. injection Hc as <-. reflexivity. }
    subst c'. apply (is_RInt_ext (val (normalise l))).
    + intros z Hz. rewrite Rmin_left, Rmax_right in Hz by lra. unfold density. rewrite (prob_inside l z G) by lra. reflexivity.
    + rewrite EN in Hc'. pose proof (norm_incr l HI) as NI. destruct (normalise l) as [|[z w] m] eqn:En; [destruct Hc'|].
      pose proof (cum_integral m z w 0 x c NI Hc') as V. rewrite Rminus_0_r in V.
      replace (first_x l) with z by (rewrite <- (norm_first l), En; reflexivity). exact V.
Qed.
(** [rescale] of every u in (0,1] lies in the table's range, is a right inverse of
    [cdf] and strictly increasing; it raises outside [0,1] *)
Theorem C13_rescale l : good_table l ->
  (forall u, 0 < u <= 1 -> exists x, Interped_rescale l u = Some x /\ first_x l <= x <= last_x l 0 /\ Interped_cdf l x = Some u) /\
  (forall u v x y, 0 < u -> u < v -> v <= 1 -> Interped_rescale l u = Some x -> Interped_rescale l v = Some y -> x < y) /\
  (forall u, u < 0 \/ 1 < u -> Interped_rescale l u = None).
Proof.
  intros G. destruct (cumul_props l G) as (CI & CY & CF & CL & SF & CY1 & x0 & x1 & c1 & t & SH).
  assert (INV : forall u, 0 < u <= 1 -> exists x, Interped_rescale l u = Some x /\ first_x l <= x <= last_x l 0 /\ Interped_cdf l x = Some u).
  { intros u Hu. unfold Interped_rescale, interp_strict. rewrite SF, last_swap, CY1.
    destruct (Rlt_dec u 0); [lra|]. destruct (Rlt_dec 1 u); [lra|].
    destruct (interp_swap_defined x0 0 x1 c1 t u) as [x Ex]; [rewrite <- SH; exact CY|lra| |].
    - rewrite SH in CY1. simpl in CY1. lra.
    - rewrite SH. exists x. split; [exact Ex|]. rewrite <- SH in Ex. destruct (interp_inverse _ u x CI CY) as [A B]; [rewrite SH; lra|exact Ex|].
      rewrite CF, CL in B. split; [exact B|]. rewrite (proj1 (cdf_inside l x G B)). exact A. }
  split; [exact INV|]. split.
  - intros u v x y Hu Huv Hv Hx Hy. destruct (INV u ltac:(lra)) as (x' & A1 & A2 & A3). destruct (INV v ltac:(lra)) as (y' & B1 & B2 & B3).
    rewrite Hx in A1. rewrite Hy in B1. injection A1 as <-. injection B1 as <-.
    destruct (Rlt_dec x y) as [|N]; [assumption|exfalso].
    destruct (C13_cdf l G) as (_ & _ & _ & M & _). specialize (M y x v u ltac:(lra) B3 A3). lra.
  - intros u Hu. unfold Interped_rescale, interp_strict. rewrite SF, last_swap, CY1. destruct (Rlt_dec u 0); [reflexivity|]. destruct (Rlt_dec 1 u); [reflexivity|lra].
Qed.
(** the lower end: [rescale 0] is the minimum when the table is positive on its first
    segment and 0/0 (nan) when the first two ordinates are zero *)
Theorem C13_rescale_zero l x0 y0 x1 y1 t : l = (x0, y0) :: (x1, y1) :: t -> good_table l ->
  (0 < y0 + y1 -> Interped_rescale l 0 = Some x0) /\ (y0 + y1 = 0 -> Interped_rescale l 0 = None).
Proof.
  intros E G. pose proof G as (HL & HI & HP & HT). assert (X : x0 < x1) by (rewrite E in HI; exact (proj1 HI)).
  destruct (cumul_props l G) as (CI & CY & CF & CL & SF & CY1 & z0 & z1 & c1 & t' & SH).
  assert (c1 = (x1 - x0) * (y1 + y0) / trapz l / 2 /\ z0 = x0 /\ z1 = x1) as (-> & -> & ->).
  { rewrite cumulative_eq in SH by (try lra; rewrite E; discriminate).
    assert (EN : normalise l = (x0, y0 / trapz l) :: (x1, y1 / trapz l) :: map (fun p => (fst p, snd p / trapz l)) t) by (unfold normalise; generalize (trapz l); intros; rewrite E; reflexivity).
    rewrite EN in SH. set (T := trapz l) in *. set (m := map _ t) in SH.
    change (cumtrapz 0 ((x0, y0 / T) :: (x1, y1 / T) :: m)) with ((x0, 0) :: cumtrapz (0 + (x1 - x0) * (y1 / T + y0 / T) / 2) ((x1, y1 / T) :: m)) in SH.
    destruct (cum_cons (0 + (x1 - x0) * (y1 / T + y0 / T) / 2) x1 (y1 / T) m) as [tt Et]. rewrite Et in SH. injection SH as A B C D. subst. repeat split. field. lra. }
  unfold Interped_rescale, interp_strict. rewrite SF, last_swap, CY1. destruct (Rlt_dec 0 0); [lra|]. destruct (Rlt_dec 1 0); [lra|].
  rewrite SH. cbn [swap map fst snd interp_in]. split; intros HY.
  - assert (0 < (x1 - x0) * (y1 + y0) / trapz l / 2) by (apply Rdiv_lt_0_compat; [apply Rdiv_lt_0_compat; nra|lra]).
    destruct (Rle_dec 0 _); [|lra]. destruct (Req_EM_T _ 0); [lra|]. f_equal. rewrite Rminus_eq_0. ring.
  - replace (y1 + y0) with 0 by lra. unfold Rdiv. rewrite Rmult_0_r, !Rmult_0_l. destruct (Rle_dec 0 0); [|lra]. destruct (Req_EM_T (0 - 0) 0); [reflexivity|lra].
Qed.
(** between two neighbouring nodes [cdf] is not the integral of [prob]: it exceeds it by
    slope * (x - x0) * (x1 - x) / 2 (chord against parabola) *)
Theorem C13_cdf_error l a x0 y0 x1 y1 b x c : good_table l -> l = a ++ (x0, y0) :: (x1, y1) :: b -> x0 <= x <= x1 ->
  Interped_cdf l x = Some c ->
  is_RInt (density l) (first_x l) x (c - (y1 - y0) / trapz l / (x1 - x0) * ((x - x0) * (x1 - x)) / 2).
Proof.
  intros G E Hx Hc. pose proof G as (HL & HI & HP & HT). set (T := trapz l) in *.
  destruct (C13_cdf l G) as (_ & _ & TOT & _ & NODE).
  assert (IN0 : In (x0, y0) l) by (rewrite E; apply in_or_app; right; left; reflexivity).
  destruct (TOT x0) as (c0 & Hc0 & _). pose proof (NODE x0 y0 c0 IN0 Hc0) as M0.
  destruct (cumul_props l G) as (CI & CY & CF & CL & SF & CY1 & z0 & z1 & c1 & t' & SH).
  assert (EN : normalise l = map (fun p => (fst p, snd p / T)) a ++ (x0, y0 / T) :: (x1, y1 / T) :: map (fun p => (fst p, snd p / T)) b).
  { unfold normalise. fold T. clearbody T. rewrite E, map_app. reflexivity. }
  assert (EC : cumulative l = cumtrapz 0 (normalise l)) by (apply cumulative_eq; [rewrite E; destruct a; discriminate|unfold T in HT; lra]).
  pose proof (norm_incr l HI) as NI. rewrite EN in NI.
  destruct (cum_app (map (fun p => (fst p, snd p / T)) a) x0 (y0 / T) x1 (y1 / T) (map (fun p => (fst p, snd p / T)) b) 0) as (pre & k & post & EK).
  assert (X01 : x0 < x1) by (exact (proj1 (incr_app_tail _ _ NI))).
  rewrite EC, EN, EK in CI.
  assert (LEN : Nat.le 2 (length (pre ++ (x0, k) :: (x1, k + (x1 - x0) * (y1 / T + y0 / T) / 2) :: post))) by (rewrite app_length; simpl; lia).
  assert (RNG : forall m z w, incr m -> In (z, w) m -> first_x m <= z <= last_x m 0).
  { clear. induction m as [|[x0 y0] [|[x1 y1] t] IH]; intros z w HI Hin; [destruct Hin|destruct Hin as [E|[]]; injection E as <- <-; simpl; lra|].
    destruct HI as [H1 H2]. pose proof (incr_last _ _ _ H2) as L2. destruct Hin as [E|Hin]; [injection E as <- <-; simpl; lra|]. specialize (IH z w H2 Hin). simpl in IH |- *. lra. }
  pose proof (RNG l x0 y0 HI IN0) as R0.
  pose proof (RNG l x1 y1 HI ltac:(rewrite E; apply in_or_app; right; right; left; reflexivity)) as R1.
  assert (K0 : c0 = k).
  { rewrite (proj1 (cdf_inside l x0 G R0)), EC, EN, EK in Hc0. rewrite (interp_node _ x0 k CI) in Hc0; [injection Hc0 as <-; reflexivity|apply in_or_app; right; left; reflexivity|exact LEN]. }
  destruct (Req_dec x x0) as [->|NX].
  { rewrite Hc in Hc0. injection Hc0 as ->. eapply is_RInt_val; [exact M0|]. rewrite Rminus_eq_0, Rmult_0_l, Rmult_0_r. unfold Rdiv. ring. }
  assert (HC : c = k + (y1 / T + y0 / T) / 2 * (x - x0)).
  { rewrite (proj1 (cdf_inside l x G ltac:(lra))), EC, EN, EK in Hc. rewrite interp_app in Hc; [|exact CI|lra].
    cbn [interp_in] in Hc. destruct (Rle_dec x x1); [|lra]. destruct (Req_EM_T (x1 - x0) 0); [lra|]. injection Hc as <-. field. unfold T in *. lra. }
  rewrite HC. replace (k + (y1 / T + y0 / T) / 2 * (x - x0) - (y1 - y0) / T / (x1 - x0) * ((x - x0) * (x1 - x)) / 2)
    with (c0 + ((y0 / T) * (x - x0) + (y1 / T - y0 / T) / (x1 - x0) * (x - x0) ^ 2 / 2)) by (rewrite K0; field; unfold T in *; lra).
  apply (is_RInt_chain _ _ x0); [exact M0|]. set (k' := (y1 / T - y0 / T) / (x1 - x0)). eapply is_RInt_val.
  - apply (ftc_ext _ (fun z => k' * (z - x0) + y0 / T) (fun z => k' * (z - x0) ^ 2 / 2 + y0 / T * z)); [lra| | |].
    + intros z _. auto_derive; [trivial|]. field. unfold T in *; lra.
    + intros z _. apply (cont_of_derive (fun z => k' * (z - x0) + y0 / T)). auto_derive. trivial.
    + intros z Hz. unfold density. rewrite (prob_inside l z G) by lra. unfold val. rewrite EN, interp_app; [|exact NI|lra].
      cbn [interp_in]. destruct (Rle_dec z x1); [|lra]. destruct (Req_EM_T (x1 - x0) 0); [lra|]. unfold k'. reflexivity.
  - simpl. field. unfold T in *; lra.
Qed.
Lemma ramp_good : good_table [(0, 0); (1, 2)].
Proof. split; [simpl; lia|]. split; [simpl; lra|]. split; [intros p [<-|[<-|[]]]; simpl; lra|simpl; lra]. Qed.
(** so samples drawn through [rescale] do not follow [prob]: for the ramp p(x) = 2x the
    quantile at 1/4 is 1/4, below which the density has mass 1/16 *)
Theorem C13_rescale_not_inverse_of_mass_refuted :
  ~ (forall l u x, good_table l -> 0 < u <= 1 -> Interped_rescale l u = Some x -> is_RInt (density l) (first_x l) x u).
Proof.
  intros H. pose proof ramp_good as G. destruct (C13_rescale _ G) as (A & _). destruct (A (1 / 4) ltac:(lra)) as (x & Hx & Rx & Cx).
  pose proof (H _ (1 / 4) _ G ltac:(lra) Hx) as M.
  assert (X : x = 1 / 4).
  { unfold Interped_rescale, interp_strict, cumulative, normalise in Hx. simpl in Hx.
    replace ((1 - 0) * (2 + 0) / 2 + 0) with 1 in Hx by lra.
    destruct (Rlt_dec (1 / 4) 0); [lra|]. destruct (Rlt_dec 1 (1 / 4)); [lra|]. destruct (Rle_dec (1 / 4) 1); [|lra]. destruct (Req_EM_T (1 - 0) 0); [lra|]. injection Hx as <-. field. }
  subst x. pose proof (C13_cdf_error _ [] 0 0 1 2 [] (1 / 4) (1 / 4) G eq_refl ltac:(lra) Cx) as M'.
  pose proof (is_RInt_uniq _ _ _ _ _ M M') as E. simpl in E. replace ((1 - 0) * (2 + 0) / 2 + 0) with 1 in E by lra. unfold Rdiv in E. rewrite Rinv_1 in E. lra.
Qed.
Example C13_ramp_example : Interped_rescale [(0, 0); (1, 2)] (1 / 4) = Some (1 / 4) /\ Interped_cdf [(0, 0); (1, 2)] (1 / 4) = Some (1 / 4) /\
  Interped_prob [(0, 0); (1, 2)] (1 / 4) = Some (1 / 2).
Proof.
  unfold Interped_rescale, Interped_cdf, Interped_prob, interp_strict, interp_fill, cumulative, normalise. simpl.
  replace ((1 - 0) * (2 + 0) / 2 + 0) with 1 by lra.
  destruct (Rlt_dec (1 / 4) 0); [lra|]. destruct (Rlt_dec 1 (1 / 4)); [lra|]. destruct (Rle_dec (1 / 4) 1); [|lra]. destruct (Req_EM_T (1 - 0) 0); [lra|].
  split; [f_equal; field|]. split; f_equal; field.
Qed.

(** *** the supplied table is resampled *)
Lemma linspace_in a b n x : In x (linspace a b n) <-> exists i, (i < n)%nat /\ x = a + INR i * ((b - a) / INR (n - 1)).
Proof.
  unfold linspace. rewrite in_map_iff. split.
  - intros (i & <- & Hi). apply in_seq in Hi. exists i. split; [lia|reflexivity].
  - intros (i & Hi & ->). exists i. split; [reflexivity|]. apply in_seq. lia.
Qed.
(** an evenly spaced table covering the whole range is kept as supplied *)
Theorem C13_even_grid_kept l : (2 <= length l)%nat -> incr l -> map fst l = linspace (first_x l) (last_x l 0) (length l) ->
  update_instance l (first_x l) (last_x l 0) = Some l.
Proof.
  intros HL HI HG. unfold update_instance. rewrite <- HG.
  assert (RNG : forall m z w, incr m -> In (z, w) m -> first_x m <= z <= last_x m 0).
  { clear. induction m as [|[x0 y0] [|[x1 y1] t] IH]; intros z w HI Hin; [destruct Hin|destruct Hin as [E|[]]; injection E as <- <-; simpl; lra|].
    destruct HI as [H1 H2]. pose proof (incr_last _ _ _ H2) as L2. destruct Hin as [E|Hin]; [injection E as <- <-; simpl; lra|]. specialize (IH z w H2 Hin). simpl in IH |- *. lra. }
  assert (K : forall m, (forall p, In p m -> In p l) -> mapo (fun x => match interp_fill l 0 0 x with Some y => Some (x, y) | None => None end) (map fst m) = Some m).
  { induction m as [|[x y] m IH]; intros Hm; [reflexivity|]. cbn [map mapo fst]. pose proof (Hm _ (or_introl eq_refl)) as Hin. pose proof (RNG l x y HI Hin).
    unfold interp_fill at 1. destruct (Rlt_dec x (first_x l)); [lra|]. destruct (Rlt_dec (last_x l 0) x); [lra|]. rewrite (interp_node l x y HI Hin HL).
    rewrite IH by (intros; apply Hm; right; assumption). reflexivity. }
  apply K. auto.
Qed.
(** resampling a table on any sub-range gives strictly increasing abscissae from the new
    minimum to the new maximum, as many as before, with non-negative ordinates that lie
    on the supplied interpolant *)
Theorem C13_resampled l mn mx : (2 <= length l)%nat -> incr l -> (forall p, In p l -> 0 <= snd p) ->
  first_x l <= mn -> mn < mx -> mx <= last_x l 0 ->
  exists m, update_instance l mn mx = Some m /\ length m = length l /\ incr m /\ first_x m = mn /\ last_x m 0 = mx /\
    (forall p, In p m -> 0 <= snd p /\ mn <= fst p <= mx /\ interp_in l (fst p) = Some (snd p)).
Proof.
  intros HL HI HP H1 H2 H3. set (n := length l) in *. set (d := (mx - mn) / INR (n - 1)).
  assert (N : 0 < INR (n - 1)) by (apply lt_0_INR; unfold n; lia). assert (Hd : 0 < d) by (apply Rdiv_lt_0_compat; lra).
  assert (ND : INR (n - 1) * d = mx - mn) by (unfold d; field; lra).
  assert (GR : forall i, (i < n)%nat -> mn <= mn + INR i * d <= mx).
  { intros i Hi. pose proof (pos_INR i). assert (INR i <= INR (n - 1)) by (apply le_INR; lia). split; nra. }
  assert (DEF : forall x, In x (linspace mn mx n) -> exists p, match interp_fill l 0 0 x with Some y => Some (x, y) | None => None end = Some p).
  { intros x Hx. apply linspace_in in Hx. destruct Hx as (i & Hi & ->). fold d. specialize (GR i Hi). unfold interp_fill.
    destruct (Rlt_dec (mn + INR i * d) (first_x l)); [lra|]. destruct (Rlt_dec (last_x l 0) (mn + INR i * d)); [lra|].
    destruct l as [|[x0 y0] [|[x1 y1] t]]; [unfold n in HL; simpl in HL; lia|unfold n in HL; simpl in HL; lia|].
    destruct (interp_defined x0 y0 x1 y1 t (mn + INR i * d) HI) as [y Ey]; [simpl in H3; lra|]. rewrite Ey. eauto. }
  destruct (mapo_total _ _ DEF) as [m Em]. exists m. unfold update_instance. fold n. split; [exact Em|]. apply mapo_spec in Em.
  assert (FST : map fst m = linspace mn mx n).
  { clear - Em. induction Em as [|x p xs ps Hp _ IH]; [reflexivity|]. simpl. rewrite IH. f_equal.
    destruct (interp_fill l 0 0 x); [injection Hp as <-; reflexivity|discriminate]. }
  split; [rewrite <- (map_length fst), FST; unfold linspace; rewrite map_length, seq_length; reflexivity|].
  assert (INC : forall k m' , map fst m' = map (fun i => mn + INR i * d) (seq k (length m')) -> incr m').
  { intros k m'. revert k. induction m' as [|[x0 y0] [|[x1 y1] t] IH]; intros k Hm; [exact I|exact I|]. cbn [map fst seq length] in Hm. injection Hm as A B C. split.
    - rewrite A, B. change (match k with O => 1 | S _ => INR k + 1 end) with (INR (S k)). rewrite S_INR. nra.
    - apply (IH (S k)). cbn [map fst seq length]. f_equal; [exact B|exact C]. }
  assert (LM : length m = n) by (rewrite <- (map_length fst), FST; unfold linspace; rewrite map_length, seq_length; reflexivity).
  split; [apply (INC O); rewrite LM; exact FST|].
  split. { destruct m as [|[x0 y0] m]; [simpl in LM; unfold n in *; lia|]. simpl in LM. rewrite <- LM in FST. unfold linspace in FST. cbn [map fst seq] in FST. injection FST as A B. simpl. rewrite A. simpl. lra. }
  split. { assert (LX : forall m' dflt k, map fst m' = map (fun i => mn + INR i * d) (seq k (length m')) -> m' <> [] -> last_x m' dflt = mn + INR (k + length m' - 1) * d).
    { induction m' as [|[x0 y0] [|[x1 y1] t] IH]; intros dflt k Hm NE; [contradiction| |].
      - simpl in Hm. injection Hm as A. simpl. rewrite A. replace (k + 1 - 1)%nat with k by lia. reflexivity.
      - change (last_x ((x0, y0) :: (x1, y1) :: t) dflt) with (last_x ((x1, y1) :: t) x0).
        rewrite (IH x0 (S k)); [f_equal; f_equal; f_equal; simpl; lia| |discriminate]. cbn [map fst seq length] in Hm |- *. injection Hm as A B C. rewrite B, C. reflexivity. }
    rewrite (LX m 0 O); [simpl; rewrite LM, ND; lra|rewrite LM; exact FST|destruct m; [simpl in LM; unfold n in *; lia|discriminate]]. }
  intros [x y] Hin. simpl. 
  assert (Hx : In x (linspace mn mx n)) by (rewrite <- FST; apply in_map_iff; exists (x, y); auto).
  assert (Hf : interp_fill l 0 0 x = Some y).
  { clear - Em Hin. induction Em as [|z p xs ps Hp _ IH]; [destruct Hin|]. destruct Hin as [->|Hin]; [|apply IH, Hin]. destruct (interp_fill l 0 0 z) eqn:E; [injection Hp as -> ->; exact E|discriminate]. }
  apply linspace_in in Hx. destruct Hx as (i & Hi & ->). fold d in Hf |- *. specialize (GR i Hi). unfold interp_fill in Hf.
  destruct (Rlt_dec (mn + INR i * d) (first_x l)); [lra|]. destruct (Rlt_dec (last_x l 0) (mn + INR i * d)); [lra|].
  split; [apply (nonneg_interp l (mn + INR i * d)); auto; lra|]. split; [exact GR|exact Hf].
Qed.
(** but a table that is not evenly spaced is not kept: the triangle with its peak at 1/4
    becomes a triangle with its peak at 1/2, so [prob] at the supplied peak is only half
    of [prob] at 1/2 *)
Theorem C13_uneven_grid_refuted : exists l m p q, good_table l /\ good_table m /\ update_instance l (first_x l) (last_x l 0) = Some m /\
  In (1 / 4, 3) l /\ (forall x y, In (x, y) l -> y <= 3) /\
  Interped_prob m (1 / 4) = Some p /\ Interped_prob m (1 / 2) = Some q /\ q = 2 * p /\ 0 < p.
Proof.
  exists [(0, 0); (1 / 4, 3); (1, 0)], [(0, 0); (1 / 2, 2); (1, 0)], 1, 2.
  assert (G2 : good_table [(0, 0); (1 / 2, 2); (1, 0)]) by (split; [simpl; lia|]; split; [simpl; lra|]; split; [intros p [<-|[<-|[<-|[]]]]; simpl; lra|simpl; lra]).
  split; [split; [simpl; lia|]; split; [simpl; lra|]; split; [intros p [<-|[<-|[<-|[]]]]; simpl; lra|simpl; lra]|].
  split; [exact G2|]. split.
  - unfold update_instance, linspace, interp_fill. simpl. replace (0 + 0 * ((1 - 0) / (1 + 1))) with 0 by lra. replace (0 + 1 * ((1 - 0) / (1 + 1))) with (1 / 2) by lra. replace (0 + (1 + 1) * ((1 - 0) / (1 + 1))) with 1 by lra.
    destruct (Rlt_dec 0 0); [lra|]. destruct (Rlt_dec 1 0); [lra|]. destruct (Rle_dec 0 (1 / 4)); [|lra]. destruct (Req_EM_T (1 / 4 - 0) 0); [lra|].
    destruct (Rlt_dec (1 / 2) 0); [lra|]. destruct (Rlt_dec 1 (1 / 2)); [lra|]. destruct (Rle_dec (1 / 2) (1 / 4)); [lra|]. destruct (Rle_dec (1 / 2) 1); [|lra]. destruct (Req_EM_T (1 - 1 / 4) 0); [lra|].
    destruct (Rlt_dec 1 1); [lra|]. destruct (Rle_dec 1 (1 / 4)); [lra|]. destruct (Rle_dec 1 1); [|lra].
    replace ((3 - 0) / (1 / 4 - 0) * (0 - 0) + 0) with 0 by field. replace ((0 - 3) / (1 - 1 / 4) * (1 / 2 - 1 / 4) + 3) with 2 by field.
    replace ((0 - 3) / (1 - 1 / 4) * (1 - 1 / 4) + 3) with 0 by field. reflexivity.
  - split; [right; left; reflexivity|]. split; [intros x y [E|[E|[E|[]]]]; injection E as <- <-; lra|].
    unfold Interped_prob, interp_fill, normalise. simpl. replace ((1 / 2 - 0) * (2 + 0) / 2 + ((1 - 1 / 2) * (0 + 2) / 2 + 0)) with 1 by lra.
    destruct (Rlt_dec (1 / 4) 0); [lra|]. destruct (Rlt_dec 1 (1 / 4)); [lra|]. destruct (Rle_dec (1 / 4) (1 / 2)); [|lra]. destruct (Req_EM_T (1 / 2 - 0) 0); [lra|].
    destruct (Rlt_dec (1 / 2) 0); [lra|]. destruct (Rlt_dec 1 (1 / 2)); [lra|]. destruct (Rle_dec (1 / 2) (1 / 2)); [|lra].
    split; [f_equal; field|]. split; [f_equal; field|]. lra.
Qed.

(** ** C14 *)
(** a slab with continuous, strictly increasing distribution function on [mn, mx] *)
Definition slab_spec (F q : R -> R) (mn mx : R) : Prop :=
  (forall x, mn <= x <= mx -> 0 <= F x <= 1 /\ q (F x) = x) /\ (forall v, 0 <= v <= 1 -> mn <= q v <= mx /\ F (q v) = v) /\
  (forall x y, mn <= x <= mx -> mn <= y <= mx -> (x <= y <-> F x <= F y)).
(** the distribution function of the mixture: weight [1 - h] on the slab, mass [h] at [s] *)
Definition mixture (F : R -> R) (s h x : R) : R := F x * (1 - h) + (if Rle_dec s x then h else 0).
Lemma init_inv F mn mx loc h o : SlabSpike_init F mn mx loc h = Some o ->
  mn <= ss_loc o <= mx /\ 0 <= ss_height o <= 1 /\ ss_below o = F (ss_loc o) * (1 - ss_height o) /\ ss_height o = h /\ ss_loc o = match loc with None => mn | Some s => s end.
Proof.
  unfold SlabSpike_init, valid_loc, valid_height. set (s := match loc with None => mn | Some s => s end). intros H.
  destruct (Rle_dec mn s); [|discriminate]. destruct (Rle_dec s mx); [|discriminate]. destruct (Rle_dec 0 h); [|discriminate]. destruct (Rle_dec h 1); [|discriminate].
  injection H as <-. simpl. repeat split; try lra.
Qed.
(** the three branches of rescale, with F-value of the result *)
Lemma ss_branches F q mn mx loc h o u : slab_spec F q mn mx -> SlabSpike_init F mn mx loc h = Some o -> 0 <= u <= 1 ->
  let s := ss_loc o in let a := F s * (1 - h) in mn <= s <= mx /\ 0 <= F s <= 1 /\ 0 <= h <= 1 /\ 0 <= a /\ a + h <= 1 /\
  ((u < a /\ h < 1 /\ F (ss_rescale q o u) * (1 - h) = u /\ F (ss_rescale q o u) < F s /\ mn <= ss_rescale q o u <= mx) \/
   (a <= u <= a + h /\ ss_rescale q o u = s) \/
   (a + h < u /\ h < 1 /\ F (ss_rescale q o u) * (1 - h) + h = u /\ F s < F (ss_rescale q o u) /\ mn <= ss_rescale q o u <= mx)).
Proof.
  intros (SF & SQ & _) HI Hu s a. destruct (init_inv _ _ _ _ _ _ HI) as (HL & HH & EB & EH & _). fold s in HL, EB. rewrite EH in HH, EB.
  destruct (SF s HL) as [Fs _]. split; [exact HL|]. split; [exact Fs|]. split; [exact HH|]. split; [unfold a; nra|]. split; [unfold a; nra|].
  unfold ss_rescale, SlabSpike_rescale, contracted_rescale. fold s. rewrite EB, EH. fold a.
  destruct (Rlt_dec u a) as [L|L]; [left|right; destruct (Rle_dec u (a + h)) as [M|M]; [left; split; [lra|reflexivity]|right]].
  - assert (P : 0 < 1 - h) by (unfold a in L; nra).
    assert (E : u / (1 - h) * (1 - h) = u) by (field; lra). set (w := u / (1 - h)) in *.
    assert (W : 0 <= w <= 1) by (unfold a in L; split; nra). destruct (SQ w W) as [Q1 Q2]. rewrite Q2.
    split; [exact L|]. split; [lra|]. split; [exact E|]. split; [unfold a in L; nra|exact Q1].
  - assert (P : 0 < 1 - h) by (unfold a in M; nra).
    assert (E : (u - h) / (1 - h) * (1 - h) = u - h) by (field; lra). set (w := (u - h) / (1 - h)) in *.
    assert (W : 0 <= w <= 1) by (unfold a in M; split; nra). destruct (SQ w W) as [Q1 Q2]. rewrite Q2.
    split; [lra|]. split; [lra|]. split; [lra|]. split; [unfold a in M; nra|exact Q1].
Qed.
(** [rescale] has the mixture's law: its value is at most x exactly when u is at most the
    mixture's distribution function at x (u = 0 is left out when the spike has all the
    mass), and it stays in the slab's range *)
Theorem C14_rescale_law F q mn mx loc h o : slab_spec F q mn mx -> SlabSpike_init F mn mx loc h = Some o ->
  forall u, 0 <= u <= 1 -> mn <= ss_rescale q o u <= mx /\
  (0 < u \/ h < 1 -> forall x, mn <= x <= mx -> (ss_rescale q o u <= x <-> u <= mixture F (ss_loc o) h x)).
Proof.
  intros HS HI u Hu. pose proof (ss_branches F q mn mx loc h o u HS HI Hu) as B. cbv zeta in B. destruct B as (HL & Fs & HH & A0 & A1 & B).
  pose proof HS as (SF & SQ & SM). set (y := ss_rescale q o u) in *. set (s := ss_loc o) in *.
  assert (YR : mn <= y <= mx) by (destruct B as [(_ & _ & _ & _ & R)|[(_ & ->)|(_ & _ & _ & _ & R)]]; assumption).
  split; [exact YR|]. intros Hne x Hx. destruct (SF x Hx) as [Fx _]. unfold mixture. rewrite (SM y x YR Hx).
  pose proof (SM s x HL Hx) as SX. destruct B as [(L & H1 & E & Fy & _)|[(M & Ey)|(L & H1 & E & Fy & _)]].
  - destruct (Rle_dec s x) as [S|S]; [apply SX in S; split; [nra|lra]|]. split; nra.
  - rewrite Ey. destruct (Rle_dec s x) as [S|S]; [apply SX in S; split; [nra|lra]|]. assert (F x < F s) by (apply Rnot_le_lt; intros K; apply S, SX, K).
    split; [lra|]. intros K. destruct Hne as [P|P]; [|nra]. destruct (Req_dec h 1) as [->|]; nra.
  - destruct (Rle_dec s x) as [S|S]; [split; nra|]. assert (F x < F s) by (apply Rnot_le_lt; intros K; apply S, SX, K). split; nra.
Qed.
(** the unit values mapped to the spike are exactly an interval of length spike_height,
    smaller ones go strictly below the spike and larger ones strictly above it *)
Theorem C14_spike_mass F q mn mx loc h o : slab_spec F q mn mx -> SlabSpike_init F mn mx loc h = Some o ->
  exists a b, 0 <= a /\ b <= 1 /\ b - a = h /\ forall u, 0 <= u <= 1 ->
    (ss_rescale q o u = ss_loc o <-> a <= u <= b) /\ (u < a -> ss_rescale q o u < ss_loc o) /\ (b < u -> ss_loc o < ss_rescale q o u).
Proof.
  intros HS HI. exists (F (ss_loc o) * (1 - h)), (F (ss_loc o) * (1 - h) + h).
  pose proof (ss_branches F q mn mx loc h o 0 HS HI ltac:(lra)) as B0. cbv zeta in B0. destruct B0 as (HL & Fs & HH & A0 & A1 & _).
  split; [exact A0|]. split; [exact A1|]. split; [lra|]. intros u Hu. pose proof (ss_branches F q mn mx loc h o u HS HI Hu) as B. cbv zeta in B. destruct B as (_ & _ & _ & _ & _ & B).
  pose proof HS as (_ & _ & SM). destruct B as [(L & H1 & E & Fy & YR)|[(M & Ey)|(L & H1 & E & Fy & YR)]].
  - assert (LT : ss_rescale q o u < ss_loc o) by (apply Rnot_le_lt; intros K; apply (SM _ _ HL YR) in K; lra). split; [split; [intros K; lra|lra]|]. split; [auto|lra].
  - split; [split; auto|]. split; lra.
  - assert (LT : ss_loc o < ss_rescale q o u) by (apply Rnot_le_lt; intros K; apply (SM _ _ YR HL) in K; lra). split; [split; [intros K; lra|lra]|]. split; [lra|auto].
Qed.
(** [rescale] is non-decreasing *)
Theorem C14_rescale_monotone F q mn mx loc h o : slab_spec F q mn mx -> SlabSpike_init F mn mx loc h = Some o ->
  forall u v, 0 <= u -> u <= v -> v <= 1 -> ss_rescale q o u <= ss_rescale q o v.
Proof.
  intros HS HI u v H0 Huv H1. pose proof (ss_branches F q mn mx loc h o u HS HI ltac:(lra)) as B. pose proof (ss_branches F q mn mx loc h o v HS HI ltac:(lra)) as C. cbv zeta in B, C.
  destruct B as (HL & Fs & HH & A0 & A1 & B). destruct C as (_ & _ & _ & _ & _ & C). pose proof HS as (_ & _ & SM).
  destruct B as [(L & K1 & E & Fy & YR)|[(M & Ey)|(L & K1 & E & Fy & YR)]]; destruct C as [(L' & K1' & E' & Fy' & YR')|[(M' & Ey')|(L' & K1' & E' & Fy' & YR')]]; try lra; try rewrite Ey; try rewrite Ey'; try (apply SM; try assumption; nra).
Qed.
(** [cdf] is the mixture's distribution function everywhere except at the spike, where it
    leaves out the spike's mass; the result of rescale is mapped back to its unit value
    off the spike *)
Theorem C14_cdf F q mn mx loc h o : slab_spec F q mn mx -> SlabSpike_init F mn mx loc h = Some o ->
  (forall x, x <> ss_loc o -> ss_cdf F o x = mixture F (ss_loc o) h x) /\
  ss_cdf F o (ss_loc o) = mixture F (ss_loc o) h (ss_loc o) - h /\
  (forall u, 0 <= u <= 1 -> ss_rescale q o u <> ss_loc o -> ss_cdf F o (ss_rescale q o u) = u).
Proof.
  intros HS HI. destruct (init_inv _ _ _ _ _ _ HI) as (HL & HH & EB & EH & _). unfold ss_cdf, SlabSpike_cdf, mixture. rewrite EH. split; [|split].
  - intros x Hx. destruct (Rlt_dec (ss_loc o) x); destruct (Rle_dec (ss_loc o) x); lra.
  - destruct (Rlt_dec (ss_loc o) (ss_loc o)); [lra|]. destruct (Rle_dec (ss_loc o) (ss_loc o)); lra.
  - intros u Hu N. pose proof (ss_branches F q mn mx loc h o u HS HI Hu) as B. cbv zeta in B. destruct B as (_ & _ & _ & _ & _ & B). pose proof HS as (_ & _ & SM).
    destruct B as [(L & H1 & E & Fy & YR)|[(M & Ey)|(L & H1 & E & Fy & YR)]]; [|contradiction|].
    + destruct (Rlt_dec (ss_loc o) (ss_rescale q o u)) as [K|K]; [|lra]. apply Rlt_le in K. apply (SM _ _ HL YR) in K. lra.
    + destruct (Rlt_dec (ss_loc o) (ss_rescale q o u)) as [K|K]; [lra|]. apply Rnot_lt_le in K. apply (SM _ _ YR HL) in K. lra.
Qed.
Definition id01 : slab_spec (fun x => x) (fun x => x) 0 1.
Proof. split; [|split]; intros; lra. Qed.
(** changing the height of an existing object keeps the old split point: afterwards
    [rescale] is not monotone and not the quantile of the new mixture *)
Theorem C14_stale_height_refuted : exists o o', SlabSpike_init (fun x => x) 0 1 (Some (1 / 2)) 0 = Some o /\ set_spike_height o (1 / 2) = Some o' /\
  ss_rescale (fun x => x) o' (9 / 20) = 9 / 10 /\ ss_rescale (fun x => x) o' (1 / 2) = 1 / 2 /\
  exists o2, SlabSpike_init (fun x => x) 0 1 (Some (1 / 2)) (1 / 2) = Some o2 /\ ss_rescale (fun x => x) o2 (9 / 20) = 1 / 2.
Proof.
  exists (mkSS (1 / 2) 0 (1 / 2 * (1 - 0))), (mkSS (1 / 2) (1 / 2) (1 / 2 * (1 - 0))).
  unfold SlabSpike_init, set_spike_height, valid_loc, valid_height, ss_rescale, SlabSpike_rescale, contracted_rescale, find_inverse_cdf_fraction_before_spike. simpl.
  repeat match goal with |- context [Rle_dec ?a ?b] => destruct (Rle_dec a b); try lra | |- context [Rlt_dec ?a ?b] => destruct (Rlt_dec a b); try lra end.
  split; [reflexivity|]. split; [reflexivity|]. split; [lra|]. split; [reflexivity|]. eexists. split; [reflexivity|]. simpl.
  repeat match goal with |- context [Rle_dec ?a ?b] => destruct (Rle_dec a b); try lra | |- context [Rlt_dec ?a ?b] => destruct (Rlt_dec a b); try lra end.
Qed.
(** the default height 0 does not give back the slab: the density is infinite at the spike
    location, by default the slab's minimum *)
Theorem C14_zero_height_prob_refuted F (p : R -> R) mn mx o : SlabSpike_init F mn mx None 0 = Some o ->
  ss_prob p o mn = None /\ forall x, x <> mn -> ss_prob p o x = Some (p x).
Proof.
  intros HI. destruct (init_inv _ _ _ _ _ _ HI) as (HL & HH & EB & EH & ES). unfold ss_prob. rewrite ES, EH. split.
  - destruct (Req_EM_T mn mn); [reflexivity|contradiction].
  - intros x Hx. destruct (Req_EM_T x mn); [contradiction|]. f_equal. ring.
Qed.
Example C14_example : exists o, SlabSpike_init (fun x => x) 0 1 (Some (1 / 2)) (1 / 2) = Some o /\
  ss_rescale (fun x => x) o (1 / 10) = 1 / 5 /\ ss_rescale (fun x => x) o (3 / 10) = 1 / 2 /\ ss_rescale (fun x => x) o (9 / 10) = 4 / 5 /\ ss_cdf (fun x => x) o (4 / 5) = 9 / 10.
Proof.
  unfold SlabSpike_init, valid_loc, valid_height, find_inverse_cdf_fraction_before_spike. 
  repeat match goal with |- context [Rle_dec ?a ?b] => destruct (Rle_dec a b); try lra end.
  eexists. split; [reflexivity|]. unfold ss_rescale, ss_cdf, SlabSpike_cdf, SlabSpike_rescale, contracted_rescale. simpl.
  repeat match goal with |- context [Rle_dec ?a ?b] => destruct (Rle_dec a b); try lra | |- context [Rlt_dec ?a ?b] => destruct (Rlt_dec a b); try lra end.
Qed.

(** ** Assumptions of every theorem above *)
Definition Interp_Props_all :=
  (@C13_density_normalised,
   @C13_cdf,
   @C13_rescale,
   @C13_rescale_zero,
   @C13_cdf_error,
   @C13_rescale_not_inverse_of_mass_refuted,
   @C13_even_grid_kept,
   @C13_resampled,
   @C13_uneven_grid_refuted,
   @C14_rescale_law,
   @C14_spike_mass,
   @C14_rescale_monotone,
   @C14_cdf,
   @C14_stale_height_refuted,
   @C14_zero_height_prob_refuted).
Print Assumptions Interp_Props_all.
