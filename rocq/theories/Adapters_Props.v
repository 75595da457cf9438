(** * Properties of the adapters: extraction of samples, DNest4's moves (C175, C176) *)
From Coq Require Import String Reals List Bool Arith Lra Lia ZArith.
From Verif Require Import PyReal PyDict Adapters_Model.
Import ListNotations.
Open Scope R_scope. Open Scope list_scope.

(** ** C175: samples and log likelihoods belong together *)
Lemma last_n_app {A} (a b : list A) : last_n (length b) (a ++ b) = b.
Proof.
  unfold last_n. rewrite app_length. replace (length a + length b - length b)%nat with (length a) by lia.
  rewrite skipn_app, skipn_all, Nat.sub_diag. reflexivity.
Qed.
Lemma but_last_n_app {A} (a b : list A) : but_last_n (length b) (a ++ b) = a.
Proof.
  unfold but_last_n. rewrite app_length. replace (length a + length b - length b)%nat with (length a) by lia.
  rewrite firstn_app, firstn_all, Nat.sub_diag. cbn. apply app_nil_r.
Qed.
Lemma loadtxt_many lines : (2 <= length lines)%nat -> loadtxt lines = Matrix lines.
Proof. destruct lines as [|a [|b l]]; cbn; intros H; try lia; reflexivity. Qed.
Lemma map_id_in {A} (f : A -> A) l : (forall x, In x l -> f x = x) -> map f l = l.
Proof. intros H. rewrite (map_ext_in f (fun x => x) l H). apply map_id. Qed.
(** PolyChord: whatever the draws, each sample is a draw and its log likelihood is bilby's at that draw. *)
Theorem C175_polychord ll thetas ndim : (2 <= length thetas)%nat -> Forall (fun t => length t = ndim) thetas ->
  read_polychord ndim (map (polychord_line ll) thetas) = Some (thetas, map ll thetas).
Proof.
  intros L F. unfold read_polychord. rewrite loadtxt_many by (rewrite map_length; exact L). cbn [rows_of].
  rewrite !map_map. f_equal. f_equal.
  - apply map_id_in. intros t Ht. rewrite Forall_forall in F. specialize (F t Ht). unfold polychord_line, polychord_log_likelihood.
    cbn [fst snd]. rewrite <- F at 1. change (1 :: -2 * ll t :: t ++ t) with ((1 :: -2 * ll t :: t) ++ t). apply last_n_app.
  - apply map_ext. intros t. unfold polychord_line, polychord_log_likelihood. cbn [nth fst]. field.
Qed.
Theorem C175_multinest ll thetas : (2 <= length thetas)%nat ->
  read_multinest (map (multinest_line ll) thetas) = Some (thetas, map ll thetas).
Proof.
  intros L. unfold read_multinest. rewrite loadtxt_many by (rewrite map_length; exact L). cbn [rows_of].
  rewrite !map_map. f_equal. f_equal.
  - apply map_id_in. intros t _. unfold multinest_line. apply (but_last_n_app t [ll t]).
  - apply map_ext. intros t. unfold from_end, multinest_line. rewrite app_length. cbn [length].
    rewrite app_nth2 by lia. replace (length t + 1 - 1 - length t)%nat with 0%nat by lia. reflexivity.
Qed.
Lemma skipn_map {A B} (f : A -> B) n l : skipn n (map f l) = map f (skipn n l).
Proof. revert l. induction n as [|n IH]; intros [|a l]; cbn; auto. Qed.
(** PTMCMCSampler: the same, after leaving out the first [nburn] lines of both. *)
Theorem C175_ptmcmc ll lp draws nburn : (2 <= length draws)%nat ->
  read_ptmcmc nburn (map (fun d => ptmcmc_line ll lp (fst (fst d)) (snd (fst d)) (snd d)) draws) =
  Some (skipn nburn (map (fun d => fst (fst d)) draws), map ll (skipn nburn (map (fun d => fst (fst d)) draws))).
Proof.
  intros L. unfold read_ptmcmc. rewrite loadtxt_many by (rewrite map_length; exact L). cbn [rows_of].
  rewrite !map_map. f_equal. f_equal.
  - f_equal. apply map_ext. intros [[t a] s]. cbn [fst snd]. apply (but_last_n_app t [_; _; _; _]).
  - rewrite <- skipn_map. rewrite map_map. f_equal. apply map_ext. intros [[t a] s]. cbn [fst snd].
    unfold from_end, ptmcmc_line. rewrite app_length. cbn [length]. rewrite app_nth2 by lia.
    replace (length t + 4 - 3 - length t)%nat with 1%nat by lia. reflexivity.
Qed.
(** A posterior of a single draw (or of none) is lost in all three. *)
Theorem C175_single_refuted ll lp theta ndim nburn acc swap :
  read_polychord ndim (map (polychord_line ll) [theta]) = None /\
  read_multinest (map (multinest_line ll) [theta]) = None /\
  read_ptmcmc nburn [ptmcmc_line ll lp theta acc swap] = None /\
  read_polychord ndim [] = None /\ read_multinest [] = None /\ read_ptmcmc nburn [] = None.
Proof. repeat split. Qed.
(** Ultranest: the points kept come with their own log likelihoods, in their order. *)
Lemma masked_map {A B} (f : A -> B) mask l : masked mask (map f l) = map f (masked mask l).
Proof.
  unfold masked. revert l. induction mask as [|b mask IH]; intros [|a l]; try reflexivity.
  cbn [map combine filter fst]. destruct b; cbn [map snd]; rewrite IH; reflexivity.
Qed.
Theorem C175_ultranest ll points weights us :
  ultranest_result points weights (map ll points) us =
  (fst (ultranest_result points weights (map ll points) us), map ll (fst (ultranest_result points weights (map ll points) us))).
Proof. unfold ultranest_result. cbn [fst]. f_equal. apply masked_map. Qed.
Lemma masked_in {A} mask (l : list A) x : In x (masked mask l) <-> exists i, nth_error mask i = Some true /\ nth_error l i = Some x.
Proof.
  unfold masked. revert l. induction mask as [|b mask IH]; intros [|a l].
  - cbn. split; [intros []|intros ([|i] & E & _); discriminate E].
  - cbn. split; [intros []|intros ([|i] & E & _); discriminate E].
  - cbn. split; [intros []|intros ([|i] & _ & E); discriminate E].
  - cbn [combine filter fst]. split.
    + intros H. destruct b; cbn [map snd In] in H.
      * destruct H as [<-|H]; [exists 0%nat; auto|]. apply IH in H. destruct H as (i & E1 & E2). exists (S i). auto.
      * apply IH in H. destruct H as (i & E1 & E2). exists (S i). auto.
    + intros ([|i] & E1 & E2); cbn [nth_error] in *.
      * assert (b = true) by congruence. subst b. cbn [map snd In]. left. congruence.
      * destruct b; cbn [map snd In]; [right|]; apply IH; exists i; auto.
Qed.
Lemma rmax_ge l x : In x l -> x <= rmax l.
Proof.
  unfold rmax. generalize (hd 0 l). induction l as [|a l IH]; intros h H; [destruct H|]. cbn [fold_right].
  destruct H as [->|H]; [apply Rmax_l|]. eapply Rle_trans; [apply (IH h H)|apply Rmax_r].
Qed.
Lemma rmax_in l : l <> [] -> In (rmax l) l.
Proof.
  assert (G : forall l h, fold_right Rmax h l = h \/ In (fold_right Rmax h l) l).
  { clear. induction l as [|a l IH]; intros h; [left; reflexivity|]. cbn [fold_right In].
    specialize (IH h). set (q := fold_right Rmax h l) in *. clearbody q.
    unfold Rmax. destruct (Rle_dec a q); tauto. }
  unfold rmax. intros H. destruct l as [|a l]; [tauto|]. cbn [hd].
  destruct (G (a :: l) a) as [E|E]; [rewrite E; left; reflexivity|exact E].
Qed.
(** A point is kept exactly when its random number is below its weight relative to the largest; so a point
    of largest weight is always kept, and one of weight zero never. *)
Theorem C175_ultranest_mask points weights logl us i x w u :
  length points = length weights -> length us = length weights -> (forall w, In w weights -> 0 <= w) -> 0 < rmax weights ->
  nth_error points i = Some x -> nth_error weights i = Some w -> nth_error us i = Some u -> 0 <= u < 1 ->
  (nth_error (ultranest_mask weights us) i = Some true <-> u * rmax weights < w) /\
  (w = rmax weights -> In x (fst (ultranest_result points weights logl us))) /\
  (w = 0 -> nth_error (ultranest_mask weights us) i = Some false) /\
  length (ultranest_mask weights us) = length points.
Proof.
  intros Lp Lu Pos Max Ex Ew Eu Hu.
  assert (Em : nth_error (ultranest_mask weights us) i = Some (if Rlt_dec u (w / rmax weights) then true else false)).
  { unfold ultranest_mask. rewrite nth_error_map.
    assert (Ec : nth_error (combine us weights) i = Some (u, w)).
    { clear -Eu Ew. revert weights i Eu Ew. induction us as [|a us IH]; intros [|b ws] [|i] Eu Ew; try discriminate; cbn in *.
      - congruence.
      - apply IH; assumption. }
    rewrite Ec. reflexivity. }
  assert (Dv : u < w / rmax weights <-> u * rmax weights < w).
  { split; intros H.
    - apply (Rmult_lt_compat_r (rmax weights)) in H; [|exact Max]. unfold Rdiv in H. rewrite Rmult_assoc, Rinv_l in H by lra. lra.
    - apply (Rmult_lt_reg_r (rmax weights)); [exact Max|]. unfold Rdiv. rewrite Rmult_assoc, Rinv_l by lra. lra. }
  split; [|split; [|split]].
  - rewrite Em. destruct (Rlt_dec u (w / rmax weights)); split; intros; try tauto; try discriminate.
  - intros ->. unfold ultranest_result. cbn [fst]. apply masked_in. exists i. split; [|exact Ex].
    rewrite Em. destruct (Rlt_dec u (rmax weights / rmax weights)); [reflexivity|]. exfalso. apply n. apply Dv. nra.
  - intros ->. rewrite Em. destruct (Rlt_dec u (0 / rmax weights)) as [H|]; [|reflexivity]. apply Dv in H. nra.
  - unfold ultranest_mask. rewrite map_length, combine_length. lia.
Qed.
(** Nested samples of MultiNest: dead points as they are, live points with the volume put before the mode;
    the volumes given to [nlive] live points add up to what is left after the dead ones. *)
Theorem C175_nested nlive dead live : (0 < nlive)%nat -> length live = nlive ->
  (forall r, In r live -> exists theta logl mode, r = theta ++ [logl; mode]) ->
  exists v, nested_samples (INR nlive) dead live =
      dead ++ map (fun r => but_last_n 1 r ++ [v] ++ last_n 1 r) live /\
    (forall theta logl mode, In (theta ++ [logl; mode]) live ->
       In (theta ++ [logl; v; mode]) (nested_samples (INR nlive) dead live)) /\
    rsum (map (fun _ => exp v) live) = exp (- (INR (length dead) / INR nlive)).
Proof.
  intros Hn L Hl. exists (- INR (length dead) / INR nlive - ln (INR nlive)).
  set (v := - INR (length dead) / INR nlive - ln (INR nlive)).
  assert (Pn : 0 < INR nlive) by (apply lt_0_INR; exact Hn).
  split; [reflexivity|]. split.
  - intros theta logl mode Hin. unfold nested_samples. fold v. apply in_or_app. right. apply in_map_iff.
    exists (theta ++ [logl; mode]). split; [|exact Hin]. unfold insert_before_last.
    replace (theta ++ [logl; mode]) with ((theta ++ [logl]) ++ [mode]) by (rewrite <- app_assoc; reflexivity).
    rewrite (but_last_n_app (theta ++ [logl]) [mode] : but_last_n 1 _ = _), (last_n_app (theta ++ [logl]) [mode] : last_n 1 _ = _).
    rewrite <- !app_assoc. reflexivity.
  - assert (Sm : forall c (l : list row), rsum (map (fun _ => c) l) = INR (length l) * c).
    { intros c l. unfold rsum. induction l as [|a l IH]; [cbn; ring|]. cbn [map fold_right]. rewrite IH. cbn [length]. rewrite S_INR. ring. }
    transitivity (INR (length live) * exp v); [exact (Sm (exp v) live)|]. rewrite L. unfold v, Rminus. rewrite exp_plus, exp_Ropp, exp_ln by exact Pn.
    replace (- INR (length dead) / INR nlive) with (- (INR (length dead) / INR nlive)) by (unfold Rdiv; ring). field. lra.
Qed.
(** Nessai: the weights are positive, add to one and keep the ratios of the sampler's. *)
Lemma rsum_exp_pos l : l <> [] -> 0 < rsum (map exp l).
Proof.
  unfold rsum. induction l as [|a l IH]; intros H; [tauto|]. cbn [map fold_right]. pose proof (exp_pos a).
  destruct l as [|b l]; [cbn; lra|]. specialize (IH ltac:(discriminate)). lra.
Qed.
Theorem C175_nessai logw : logw <> [] ->
  rsum (nessai_weights logw) = 1 /\ length (nessai_weights logw) = length logw /\
  (forall w, In w (nessai_weights logw) -> 0 < w) /\
  forall i j a b, nth_error logw i = Some a -> nth_error logw j = Some b ->
    exists u v, nth_error (nessai_weights logw) i = Some u /\ nth_error (nessai_weights logw) j = Some v /\ u * exp b = v * exp a.
Proof.
  intros H. pose proof (rsum_exp_pos logw H) as P. unfold nessai_weights. set (s := rsum (map exp logw)) in *.
  assert (E : forall w, exp (w - ln s) = exp w / s).
  { intros w. unfold Rminus, Rdiv. rewrite exp_plus, exp_Ropp, exp_ln by exact P. reflexivity. }
  split; [|split; [apply map_length|split]].
  - rewrite (map_ext _ (fun w => exp w / s) E).
    assert (G : forall c l, rsum (map (fun w => exp w / c) l) = rsum (map exp l) / c).
    { intros c l. unfold rsum. induction l as [|a l IH]; cbn [map fold_right]; [unfold Rdiv; ring|]. rewrite IH. unfold Rdiv. ring. }
    rewrite G. fold s. field. lra.
  - intros w Hw. apply in_map_iff in Hw. destruct Hw as (x & <- & _). apply exp_pos.
  - intros i j a b Ea Eb. exists (exp (a - ln s)), (exp (b - ln s)). rewrite !nth_error_map, Ea, Eb.
    split; [reflexivity|]. split; [reflexivity|]. rewrite !E. field. lra.
Qed.
Example C175_ex : read_polychord 2 [polychord_line (fun t => hd 0 t) [3; 4]; polychord_line (fun t => hd 0 t) [5; 6]]
  = Some ([[3; 4]; [5; 6]], [3; 5]) /\
  read_ptmcmc 1 [ptmcmc_line (fun t => hd 0 t) (fun _ => 1) [3; 4] 0 0; ptmcmc_line (fun t => hd 0 t) (fun _ => 1) [5; 6] 0 0]
  = Some ([[5; 6]], [5]).
Proof.
  split.
  - exact (C175_polychord (fun t => hd 0 t) [[3; 4]; [5; 6]] 2 ltac:(cbn; lia) ltac:(repeat constructor)).
  - exact (C175_ptmcmc (fun t => hd 0 t) (fun _ => 1) [([3; 4], 0, 0); ([5; 6], 0, 0)] 1 ltac:(cbn; lia)).
Qed.

(** ** C176: DNest4's moves *)
Lemma wrap_range x mn mx y : wrap x mn mx = Some y -> mn <= y < mx /\ exists k, y = x + IZR k * (mx - mn).
Proof.
  unfold wrap. destruct (Rle_dec mx mn); [discriminate|]. intros E. apply some_inj in E. rewrite <- E.
  pose proof (rmod_range (x - mn) (mx - mn) ltac:(lra)). split; [lra|].
  destruct (rmod_congr (x - mn) (mx - mn)) as [k Ek]. exists (- k)%Z. rewrite Ek, opp_IZR. ring.
Qed.
Lemma set_nth_get {A} i (x : A) l j : nth_error (set_nth i x l) j =
  if Nat.eqb j i then (if (i <? length l)%nat then Some x else None) else nth_error l j.
Proof.
  revert i j. induction l as [|a l IH]; intros i j.
  - unfold set_nth. rewrite firstn_nil, skipn_nil. cbn [app length]. destruct (Nat.eqb_spec j i) as [->|N].
    + replace (i <? 0)%nat with false by (symmetry; apply Nat.ltb_ge; lia). destruct i; reflexivity.
    + destruct j; reflexivity.
  - destruct i as [|i]; [destruct j; reflexivity|]. unfold set_nth in *. cbn [firstn skipn app].
    destruct j as [|j]; [reflexivity|]. cbn [nth_error length]. rewrite IH. reflexivity.
Qed.
Lemma set_nth_length {A} i (x : A) l : length (set_nth i x l) = length l.
Proof.
  revert i. induction l as [|a l IH]; intros [|i]; try reflexivity. unfold set_nth in *. cbn [firstn skipn app length]. f_equal. apply IH.
Qed.
(** [perturb] moves one coordinate; the move is the random offset up to whole widths, and the new value lies
    in the box; what it returns to the sampler is always zero. *)
Theorem C176_move widths centers idx u coords coords' r : (idx < length coords)%nat ->
  perturb widths centers idx u coords = Some (coords', r) ->
  r = 0 /\ length coords' = length coords /\
  (forall j, j <> idx -> nth_error coords' j = nth_error coords j) /\
  exists y k, nth_error coords' idx = Some y /\
    nth idx centers 0 - 1/2 * nth idx widths 0 <= y < nth idx centers 0 + 1/2 * nth idx widths 0 /\
    y = nth idx coords 0 + nth idx widths 0 * (u - 1/2) + IZR k * nth idx widths 0.
Proof.
  intros Hi E. unfold perturb in E.
  destruct (wrap _ _ _) as [y|] eqn:Ew; [|discriminate E]. apply some_inj in E.
  assert (E1 : coords' = set_nth idx y coords) by congruence. assert (E2 : r = 0) by congruence. subst coords'.
  apply wrap_range in Ew. destruct Ew as [Rg [k Ek]].
  split; [exact E2|]. split; [apply set_nth_length|]. split.
  - intros j Nj. rewrite set_nth_get. apply Nat.eqb_neq in Nj. rewrite Nj. reflexivity.
  - exists y, k. split; [|split; [exact Rg|rewrite Ek; field]].
    rewrite set_nth_get, Nat.eqb_refl. apply Nat.ltb_lt in Hi. rewrite Hi. reflexivity.
Qed.
(** It fails (ValueError) exactly when the draws from the prior showed no width. *)
Theorem C176_error widths centers idx u coords : perturb widths centers idx u coords = None <-> nth idx widths 0 <= 0.
Proof.
  unfold perturb, wrap. set (w := nth idx widths 0). set (c := nth idx centers 0).
  destruct (Rle_dec (c + 1/2 * w) (c - 1/2 * w)); split; intros; try reflexivity; try discriminate; lra.
Qed.
Lemma rmin_le l x : In x l -> rmin l <= x.
Proof.
  unfold rmin. generalize (hd 0 l). induction l as [|a l IH]; intros h H; [destruct H|]. cbn [fold_right].
  destruct H as [->|H]; [apply Rmin_l|]. eapply Rle_trans; [apply Rmin_r|apply (IH h H)].
Qed.
(** The box is the range of the ten thousand prior draws: every draw lies in it, nothing beyond the
    largest and smallest one is ever proposed. *)
Theorem C176_box pts x : In x pts ->
  center pts - 1/2 * width pts <= x <= center pts + 1/2 * width pts /\
  center pts - 1/2 * width pts = rmin pts /\ center pts + 1/2 * width pts = rmax pts.
Proof.
  intros H. pose proof (rmax_ge pts x H). pose proof (rmin_le pts x H). unfold center, width.
  assert ((rmax pts + rmin pts) / 2 - 1/2 * (rmax pts - rmin pts) = rmin pts) by field.
  assert ((rmax pts + rmin pts) / 2 + 1/2 * (rmax pts - rmin pts) = rmax pts) by field. lra.
Qed.
(** Where a coordinate lands does not depend on where it was: from every [x], every [y] of the box is reached
    by exactly one random number. The move is a uniform draw on the box, with no reference to the prior. *)
Theorem C176_uniform w c x y : 0 < w -> c - 1/2 * w <= y < c + 1/2 * w ->
  exists! u, 0 <= u < 1 /\ exists l, perturb [w] [c] 0 u [x] = Some (l, 0) /\ l = [y].
Proof.
  intros Hw Hy. set (m := c - 1/2 * w).
  assert (Wr : forall z, wrap z (c - 1/2 * w) (c + 1/2 * w) = Some (rmod (z - m) w + m)).
  { intros z. unfold wrap. destruct (Rle_dec (c + 1/2 * w) (c - 1/2 * w)); [lra|]. unfold m.
    replace (c + 1/2 * w - (c - 1/2 * w)) with w by field. reflexivity. }
  assert (Pb : forall u, perturb [w] [c] 0 u [x] = Some ([rmod (x + w * (u - 1/2) - m) w + m], 0)).
  { intros u. unfold perturb. cbn [nth]. rewrite Wr. reflexivity. }
  set (a := (y - x) / w + 1/2).
  exists (rmod a 1). split.
  - split; [apply rmod_range; lra|]. exists [y]. split; [|reflexivity]. rewrite Pb. do 3 f_equal.
    destruct (rmod_congr a 1) as [k Ek].
    assert (rmod (x + w * (rmod a 1 - 1/2) - m) w = y - m).
    { apply (rmod_unique _ w _ (- k)); [exact Hw|unfold m; lra|]. rewrite Ek, opp_IZR. unfold a. field. lra. }
    lra.
  - intros u [Hu (l & El & ->)]. rewrite Pb in El.
    assert (Ey : rmod (x + w * (u - 1/2) - m) w + m = y).
    { assert (G : forall p q : list R * R, Some p = Some q -> fst p = fst q) by (intros p q Q; congruence).
      apply G in El. cbn [fst] in El. congruence. }
    destruct (rmod_congr (x + w * (u - 1/2) - m) w) as [k Ek]. rewrite Ek in Ey.
    apply (rmod_unique a 1 u (- k)); [lra|exact Hu|]. unfold a. rewrite opp_IZR. rewrite <- Ey. field. lra.
Qed.
(** Hence the moves do not leave a prior in balance that is not flat: the flow from [x] to [y], prior density
    times proposal density times acceptance min(1, e^r), differs from the flow back. *)
Theorem C176_balance_refuted : exists (prior : R -> R) w c x y q,
  (forall z, 0 < prior z) /\ 0 < q /\
  (exists u, perturb [w] [c] 0 u [x] = Some ([y], 0)) /\ (exists u, perturb [w] [c] 0 u [y] = Some ([x], 0)) /\
  prior x * q * Rmin 1 (exp 0) <> prior y * q * Rmin 1 (exp 0).
Proof.
  exists (fun z => exp (- (z * z))), 2, 0, 0, (1/2), (/ 2).
  split; [intros z; apply exp_pos|]. split; [lra|].
  assert (G : forall a b, -1 <= b < 1 -> exists u, perturb [2] [0] 0 u [a] = Some ([b], 0)).
  { intros a b Hb. destruct (C176_uniform 2 0 a b ltac:(lra) ltac:(lra)) as (u & (_ & l & E & ->) & _). exists u. exact E. }
  split; [apply G; lra|]. split; [apply G; lra|].
  rewrite exp_0. replace (Rmin 1 1) with 1 by (unfold Rmin; destruct (Rle_dec 1 1); reflexivity).
  replace (- (0 * 0)) with 0 by ring. rewrite exp_0.
  pose proof (exp_increasing (- (1/2 * (1/2))) 0 ltac:(lra)) as H. rewrite exp_0 in H. lra.
Qed.
(** For a prior flat on the box the flows agree. *)
Theorem C176_balance_flat (prior : R -> R) w c : 0 < w ->
  (forall x y, c - 1/2 * w <= x < c + 1/2 * w -> c - 1/2 * w <= y < c + 1/2 * w -> prior x = prior y) ->
  forall x y u l r, c - 1/2 * w <= x < c + 1/2 * w -> perturb [w] [c] 0 u [x] = Some (l, r) -> l = [y] ->
    prior x * Rmin 1 (exp r) = prior y * Rmin 1 (exp r) /\ exists u', perturb [w] [c] 0 u' [y] = Some ([x], r).
Proof.
  intros Hw Hp x y u l r Hx E El. subst l. destruct (C176_move [w] [c] 0 u [x] [y] r ltac:(cbn; lia) E) as (R0 & _ & _ & z & k & Ez & Rg & _).
  cbn in Ez, Rg. assert (y = z) by congruence. subst z. rewrite (Hp x y Hx Rg). split; [reflexivity|].
  destruct (C176_uniform w c y x Hw Hx) as (u' & (_ & l & E' & ->) & _). exists u'. rewrite R0. exact E'.
Qed.
Example C176_ex : perturb [4; 2] [2; 0] 1 (3/4) [1; 3/4] = Some ([1; -3/4], 0).
Proof.
  unfold perturb, wrap. cbn [nth]. destruct (Rle_dec (0 + 1/2 * 2) (0 - 1/2 * 2)); [lra|].
  replace (rmod (3/4 + 2 * (3/4 - 1/2) - (0 - 1/2 * 2)) (0 + 1/2 * 2 - (0 - 1/2 * 2))) with (1/4).
  - cbn. do 3 f_equal. f_equal. field.
  - symmetry. apply (rmod_unique _ _ _ 1); lra.
Qed.

(** ** Assumptions of every theorem above *)
Definition Adapters_Props_all :=
  (@C175_polychord,
   @C175_multinest,
   @C175_ptmcmc,
   @C175_single_refuted,
   @C175_ultranest,
   @C175_ultranest_mask,
   @C175_nested,
   @C175_nessai,
   @C176_move,
   @C176_error,
   @C176_box,
   @C176_uniform,
   @C176_balance_refuted,
   @C176_balance_flat).
Print Assumptions Adapters_Props_all.
