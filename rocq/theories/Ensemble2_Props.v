(** C149-C152: when a ptemcee run stops, its convergence statistic, its evidence and its starting points *)
From Coq Require Import Reals List Arith ZArith Bool Ascii Lia Lra Permutation.
From Verif Require Import PyReal Interp_Model Mband_Model PriorText_Model Ensemble_Model Ensemble_Props.
Import ListNotations.
Open Scope R_scope.
Open Scope list_scope.

Lemma rlt_iff x y : rlt x y = true <-> x < y.
Proof. unfold rlt. destruct (Rlt_dec x y); split; intros; congruence || lra || reflexivity. Qed.
Lemma rlt_false x y : rlt x y = false <-> y <= x.
Proof. unfold rlt. destruct (Rlt_dec x y); split; intros; try discriminate; lra || reflexivity. Qed.
Lemma olt_iff x y : olt x y = true <-> exists v, x = Some v /\ v < y.
Proof.
  destruct x as [v|]; cbn [olt].
  - rewrite rlt_iff. split; [intros H; now exists v|intros (w & E & H); apply some_inj in E; now subst w].
  - split; [discriminate|intros (w & E & _); discriminate].
Qed.
Lemma zfloor_bounds x : IZR (zfloor x) <= x < IZR (zfloor x) + 1.
Proof. unfold zfloor. rewrite minus_IZR. destruct (archimed x). lra. Qed.
Lemma zceil_bounds x : x <= IZR (zceil x) < x + 1.
Proof. unfold zceil. rewrite opp_IZR. pose proof (zfloor_bounds (- x)). lra. Qed.
Lemma trunc_nonneg x : 0 <= x -> trunc x = zfloor x.
Proof. intros H. unfold trunc. destruct (Rle_dec 0 x); [reflexivity|contradiction]. Qed.
Lemma trunc_neg x : x < 0 -> (trunc x <= 0)%Z.
Proof.
  intros H. unfold trunc. destruct (Rle_dec 0 x); [lra|]. pose proof (zceil_bounds x) as Z.
  assert (zceil x < 1)%Z by (apply lt_IZR; lra). lia.
Qed.

(** ** C149 *)
Theorem C149_stop : forall ci nwalkers nsteps ndim ntau tau Q grad_tau grad_mean,
  fst (check_iteration ci nwalkers nsteps ndim ntau tau Q grad_tau grad_mean) = true <->
  exists t q gt gm neff, tau = Some t /\ Q = Some q /\ q < Q_tol ci /\
    (exists nburn thin, snd (check_iteration ci nwalkers nsteps ndim ntau tau Q grad_tau grad_mean) = Some (nburn, thin, neff)) /\ (nsamples ci < neff)%Z /\
    (window ndim nwalkers < ntau)%nat /\
    (let n := (autocorr_tau ci * Nat.max (2 * window ndim nwalkers) (Z.to_nat (zceil t)))%nat in
      (window ndim nwalkers < n)%nat /\ grad_tau (window ndim nwalkers) n = Some gt /\ grad_mean (window ndim nwalkers) n = Some gm) /\
    gt < gradient_tau ci /\ gm < gradient_mean ci /\
    IZR (zceil t) * autocorr_tol ci <= INR nsteps /\ min_tau ci <= IZR (zceil t).
Proof.
  intros ci nw ns nd nt tau Q gT gM. unfold check_iteration. destruct tau as [t|]; cbn [fst snd].
  2:{ split; [discriminate|]. intros (t & q & gt & gm & neff & E & _). discriminate. }
  set (w := window nd nw). set (n := (autocorr_tau ci * Nat.max (2 * w) (Z.to_nat (zceil t)))%nat).
  set (neff := trunc (INR nw * (INR ns - IZR (trunc (burn_in_nact ci * IZR (zceil t)))) / IZR (trunc (Rmax 1 (thin_by_nact ci * IZR (zceil t)))))).
  rewrite !andb_true_iff, olt_iff, Z.ltb_lt. split.
  - intros (((q & -> & Hq) & Hn) & U). destruct (rlt (INR ns) _) eqn:U1; [discriminate|]. destruct (rlt _ (min_tau ci)) eqn:U2; [discriminate|].
    destruct (w <? Nat.min nt n)%nat eqn:U3; [|discriminate]. apply andb_true_iff in U. destruct U as [G1 G2].
    apply olt_iff in G1, G2. destruct G1 as (gt & G1 & L1), G2 as (gm & G2 & L2). apply rlt_false in U1, U2. apply Nat.ltb_lt in U3.
    exists t, q, gt, gm, neff. cbv zeta. fold n. repeat split; try assumption; try lia. eexists _, _. reflexivity.
  - intros (t' & q & gt & gm & neff' & E & -> & Hq & (nb & th & E2) & Hn & W & (W2 & G1 & G2) & L1 & L2 & T & M). apply some_inj in E. subst t'.
    apply some_inj in E2. injection E2 as _ _ <-. fold neff. fold n in W2, G1, G2. split; [split; [now exists q|exact Hn]|].
    apply rlt_false in T, M. rewrite T, M. replace (w <? Nat.min nt n)%nat with true by (symmetry; apply Nat.ltb_lt; lia).
    apply andb_true_iff. split; apply olt_iff; [now exists gt|now exists gm].
Qed.

Lemma tau_none_of_step ignore safety taus n : (n <= 1)%nat -> taus <> [] -> tau_of ignore safety n taus = None.
Proof.
  intros H N. unfold tau_of. destruct taus as [|kt taus]; [congruence|]. cbn [map all_ok]. unfold mean_tau at 1. apply Nat.leb_le in H. now rewrite H.
Qed.
Lemma all_ok_none {A} (l : list (option A)) : In None l -> all_ok l = None.
Proof. induction l as [|x l IH]; [contradiction|]. intros [E|E]; cbn [all_ok]; [now subst x|]. rewrite (IH E). now destruct x. Qed.

(** a stopped run has discarded all but more than [nwalkers] steps *)
Theorem C149_discard : forall ci fixed min_it nwalkers iteration ndim ntau ignore safety taus Q gt gm,
  let discard := discard_of fixed min_it nwalkers iteration in
  (discard <= iteration)%nat /\
  (taus <> [] -> fst (check_iteration ci nwalkers (iteration - discard) ndim ntau (tau_of ignore safety (iteration - discard) taus) Q gt gm) = true ->
   (fixed <= discard)%nat /\ (min_it <= discard)%nat /\ (nwalkers < iteration - discard)%nat).
Proof.
  intros ci fixed min_it nw iter nd nt ignore safety taus Q gt gm. cbv zeta. unfold discard_of.
  destruct (Nat.max fixed min_it + nw <? iter)%nat eqn:E.
  - apply Nat.ltb_lt in E. split; [lia|]. intros _ _. lia.
  - split; [lia|]. intros NE H. exfalso. rewrite Nat.sub_diag, tau_none_of_step in H by (lia || exact NE). cbn in H. discriminate.
Qed.

(** and returns [neff] samples at least, more than asked for, and at most one per walker more *)
Lemma nslice_bounds n st : (0 < st)%nat -> INR n / INR st <= INR (nslice n st) < INR n / INR st + 1.
Proof.
  intros P. unfold nslice. assert (PR : 0 < INR st) by now apply lt_0_INR.
  pose proof (Nat.div_mod (n + st - 1) st ltac:(lia)) as D. pose proof (Nat.mod_upper_bound (n + st - 1) st ltac:(lia)) as U.
  set (q := ((n + st - 1) / st)%nat) in *. set (r := ((n + st - 1) mod st)%nat) in *.
  assert (H1 : (n <= st * q)%nat) by lia. assert (H2 : (st * q < n + st)%nat) by lia. apply le_INR in H1. apply lt_INR in H2.
  rewrite mult_INR in *. rewrite plus_INR in H2. split.
  - apply Rmult_le_reg_r with (INR st); [exact PR|]. unfold Rdiv. rewrite Rmult_assoc, Rinv_l by lra. lra.
  - apply Rmult_lt_reg_r with (INR st); [exact PR|]. rewrite Rmult_plus_distr_r. unfold Rdiv. rewrite Rmult_assoc, Rinv_l by lra. lra.
Qed.

Theorem C149_samples : forall (A : Type) (d : A) ci nwalkers iteration discard ndim ntau tau Q gt gm nburn thin neff chain n,
  (discard <= iteration)%nat -> (iteration <= n)%nat -> length chain = nwalkers -> Forall (fun w => length w = n) chain ->
  (0 <= nsamples ci)%Z -> 0 <= burn_in_nact ci -> 0 <= tau ->
  check_iteration ci nwalkers (iteration - discard) ndim ntau (Some tau) Q gt gm = (true, Some (nburn, thin, neff)) ->
  (0 <= nburn)%Z /\ (1 <= thin)%Z /\
  let k := Z.of_nat (length (ptemcee_samples d (discard + Z.to_nat nburn) iteration (Z.to_nat thin) chain)) in
  (nsamples ci < neff)%Z /\ (neff <= k)%Z /\ (k <= neff + Z.of_nat nwalkers)%Z.
Proof.
  intros A d ci nw iter disc nd nt tau Q gt gm nburn thin neff chain n HD HI HL F P1 P2 P3 E.
  assert (S : fst (check_iteration ci nw (iter - disc) nd nt (Some tau) Q gt gm) = true) by now rewrite E.
  apply C149_stop in S. destruct S as (t' & q & g1 & g2 & neff' & _ & _ & _ & (nb' & th' & S2) & NS & _). rewrite E in S2. cbn in S2. apply some_inj in S2. injection S2 as <- <- <-.
  unfold check_iteration in E. injection E as _ Eb Et En.
  pose proof (zceil_bounds tau) as ZT. assert (T0 : 0 <= IZR (zceil tau)) by lra.
  assert (B0 : 0 <= burn_in_nact ci * IZR (zceil tau)) by (apply Rmult_le_pos; lra).
  assert (NB : (0 <= nburn)%Z).
  { rewrite <- Eb, trunc_nonneg by exact B0. pose proof (zfloor_bounds (burn_in_nact ci * IZR (zceil tau))). assert (-1 < zfloor (burn_in_nact ci * IZR (zceil tau)))%Z by (apply lt_IZR; lra). lia. }
  assert (TH : (1 <= thin)%Z).
  { rewrite <- Et. pose proof (Rmax_l 1 (thin_by_nact ci * IZR (zceil tau))) as M. set (y := Rmax 1 _) in *. rewrite trunc_nonneg by lra.
    pose proof (zfloor_bounds y). assert (0 < zfloor y)%Z by (apply lt_IZR; lra). lia. }
  split; [exact NB|]. split; [exact TH|]. cbv zeta. split; [exact NS|].
  rewrite Eb, Et in En.
  destruct (C147_ptemcee_samples A d (disc + Z.to_nat nburn) iter (Z.to_nat thin) chain n ltac:(lia) HI F) as [LS _]. rewrite LS, HL. clear LS.
  assert (PT : 0 < IZR thin) by (apply IZR_lt; lia).
  assert (ET : INR (Z.to_nat thin) = IZR thin) by (rewrite INR_IZR_INZ, Z2Nat.id by lia; reflexivity).
  assert (ENB : INR (Z.to_nat nburn) = IZR nburn) by (rewrite INR_IZR_INZ, Z2Nat.id by lia; reflexivity).
  set (v := INR nw * (INR (iter - disc) - IZR nburn) / IZR thin) in *.
  assert (V0 : 0 <= v). { destruct (Rlt_dec v 0) as [N|N]; [|lra]. pose proof (trunc_neg v N). lia. }
  rewrite trunc_nonneg in En by exact V0. pose proof (zfloor_bounds v) as ZV. rewrite En in ZV.
  assert (V1 : 1 <= v). { assert (1 <= neff)%Z as X by lia. apply IZR_le in X. lra. }
  assert (W : (Z.to_nat nburn < iter - disc)%nat).
  { apply INR_lt. rewrite ENB. destruct (Rle_dec (INR (iter - disc)) (IZR nburn)) as [C|C]; [exfalso|lra].
    assert (v <= 0); [|lra]. unfold v, Rdiv. pose proof (pos_INR nw). pose proof (Rinv_0_lt_compat _ PT).
    assert (INR nw * (INR (iter - disc) - IZR nburn) <= 0) by nra. nra. }
  pose proof (nslice_bounds (iter - (disc + Z.to_nat nburn)) (Z.to_nat thin) ltac:(lia)) as NSB. set (c := nslice _ _) in *.
  replace (INR (iter - (disc + Z.to_nat nburn))) with (INR (iter - disc) - IZR nburn) in NSB.
  2:{ rewrite <- ENB. rewrite <- minus_INR by lia. f_equal. lia. }
  rewrite ET in NSB. set (u := (INR (iter - disc) - IZR nburn) / IZR thin) in *.
  assert (VU : v = INR nw * u) by (unfold v, u; field; lra).
  pose proof (pos_INR nw) as PW.
  assert (K : INR (nw * c) = IZR (Z.of_nat (nw * c))) by apply INR_IZR_INZ. rewrite mult_INR in K.
  assert (K1 : v <= INR nw * INR c) by (rewrite VU; apply Rmult_le_compat_l; lra).
  assert (K2 : INR nw * INR c <= v + INR nw) by (rewrite VU; nra).
  rewrite K in K1, K2. rewrite (INR_IZR_INZ nw) in K2. split.
  - assert (neff < Z.of_nat (nw * c) + 1)%Z; [|lia]. apply lt_IZR. rewrite plus_IZR. lra.
  - assert (Z.of_nat (nw * c) < neff + 1 + Z.of_nat nw)%Z; [|lia]. apply lt_IZR. rewrite !plus_IZR. lra.
Qed.

(** ignoring a parameter keeps the run from ever stopping, and so does one walker without autocorrelation time *)
Theorem C149_ignore_keys_refuted : forall ci nwalkers nsteps ndim ntau c s safety taus Q gt gm key ts,
  In (key, ts) taus -> contains (c :: s) key = true ->
  check_iteration ci nwalkers nsteps ndim ntau (tau_of (Some (c :: s)) safety nsteps taus) Q gt gm = (false, None).
Proof.
  intros ci nw ns nd nt c s safety taus Q gt gm key ts I C. unfold tau_of. rewrite all_ok_none; [reflexivity|].
  apply in_map_iff. exists (key, ts). split; [|exact I]. unfold mean_tau. destruct (ns <=? 1)%nat; [reflexivity|]. cbn [fst ignored]. now rewrite C.
Qed.
Theorem C149_no_autocorrelation : forall ci nwalkers nsteps ndim ntau ignore safety taus Q gt gm key ts,
  In (key, ts) taus -> In None ts ->
  check_iteration ci nwalkers nsteps ndim ntau (tau_of ignore safety nsteps taus) Q gt gm = (false, None).
Proof.
  intros ci nw ns nd nt ignore safety taus Q gt gm key ts I C. unfold tau_of. rewrite all_ok_none; [reflexivity|].
  apply in_map_iff. exists (key, ts). split; [|exact I]. unfold mean_tau. destruct (ns <=? 1)%nat; [reflexivity|].
  destruct (ignored ignore _); [reflexivity|]. cbn [snd]. now rewrite all_ok_none.
Qed.

(** the smoothing window is odd; the smoothing of order 3 is possible unless two parameters at most and three walkers at most *)
Theorem C149_window : forall ndim nwalkers, Nat.odd (window ndim nwalkers) = true /\ ((3 < window ndim nwalkers)%nat <-> (3 <= ndim)%nat \/ (4 <= nwalkers)%nat).
Proof.
  intros nd nw. unfold window.
  assert (O : forall k, Nat.odd (2 * k + 1) = true) by (intros k; rewrite Nat.add_1_r, Nat.odd_succ, Nat.even_spec; now exists k).
  pose proof (Nat.div_mod (nd + 1) 2 ltac:(lia)) as D1. pose proof (Nat.mod_upper_bound (nd + 1) 2 ltac:(lia)).
  pose proof (Nat.div_mod nw 2 ltac:(lia)) as D2. pose proof (Nat.mod_upper_bound nw 2 ltac:(lia)).
  set (q := ((nd + 1) / 2)%nat) in *. set (p := (nw / 2)%nat) in *.
  destruct (2 * q + 1 <=? 3)%nat eqn:E; (split; [apply O|]); [apply Nat.leb_le in E|apply Nat.leb_gt in E]; lia.
Qed.

Lemma lmax_ge l : forall x v, In v (x :: l) -> v <= lmax x l.
Proof.
  induction l as [|y l IH]; intros x v [H|H]; cbn [lmax]; subst; try contradiction; try lra.
  - apply Rmax_l.
  - apply Rle_trans with (2 := Rmax_r _ _). now apply IH.
Qed.
Lemma lmax_in l : forall x, In (lmax x l) (x :: l).
Proof.
  induction l as [|y l IH]; intros x; cbn [lmax]; [now left|]. unfold Rmax. destruct (Rle_dec x (lmax y l)); [right; apply IH|now left].
Qed.
Lemma first_true_spec l : match first_true l with
  | Some i => nth i l false = true /\ (i < length l)%nat /\ forall j, (j < i)%nat -> nth j l false = false
  | None => forall j, nth j l false = false end.
Proof.
  induction l as [|b l IH]; cbn [first_true]; [intros []; reflexivity|]. destruct b.
  - split; [reflexivity|]. split; [cbn; lia|]. intros j H. lia.
  - destruct (first_true l) as [i|]; cbn [option_map].
    + destruct IH as (H1 & H2 & H3). cbn [nth length]. split; [exact H1|]. split; [lia|]. intros [|j] H; [reflexivity|]. apply H3. lia.
    + intros [|j]; [reflexivity|]. apply IH.
Qed.
Definition reaches (frac : R) (x : list R) (i : nat) : Prop := (i < length x)%nat /\ exists m, In m x /\ (forall v, In v x -> v <= m) /\ m - nth i x 0 < frac * Rabs m.
Lemma near_max_spec frac x i : x <> [] -> lmaximum x <> 0 -> (nth i (near_max frac x) false = true <-> reaches frac x i).
Proof.
  intros N M. unfold near_max, reaches. cbv zeta. destruct x as [|x0 x]; [congruence|]. cbn [lmaximum] in *. set (l := x0 :: x) in *. set (m := lmax x0 x) in *.
  assert (PA : 0 < Rabs m) by now apply Rabs_pos_lt.
  destruct (Nat.lt_ge_cases i (length l)) as [L|L].
  2:{ rewrite nth_overflow by (rewrite map_length; exact L). split; [discriminate|intros [H _]; lia]. }
  set (f := fun v => match pdiv (m - v) (Rabs m) with Some q => rlt q frac | None => false end).
  rewrite nth_indep with (d' := f 0) by (rewrite map_length; exact L). rewrite (map_nth f). unfold f, pdiv.
  destruct (Req_EM_T (Rabs m) 0) as [Z|Z]; [lra|]. rewrite rlt_iff.
  assert (EQ : (m - nth i l 0) / Rabs m < frac <-> m - nth i l 0 < frac * Rabs m).
  { split; intros H.
    - apply Rmult_lt_compat_r with (r := Rabs m) in H; [|exact PA]. unfold Rdiv in H. rewrite Rmult_assoc, Rinv_l in H by lra. lra.
    - apply Rmult_lt_reg_r with (Rabs m); [exact PA|]. unfold Rdiv. rewrite Rmult_assoc, Rinv_l by lra. lra. }
  rewrite EQ. split.
  - intros H. split; [exact L|]. exists m. split; [apply lmax_in|]. split; [intros v; apply lmax_ge|exact H].
  - intros [_ (m' & I & U & H)]. replace m with m'; [exact H|]. apply Rle_antisym; [apply lmax_ge, I|apply U, lmax_in].
Qed.

(** the discarded steps: at least ten stored checks, and then the latest of the first steps at which a temperature comes within
    [frac] of the largest mean log posterior it ever has *)
Theorem C149_minimum_stable : forall frac mean nsteps, 0 < frac -> (forall x, In x mean -> x <> [] /\ lmaximum x <> 0) ->
  ((nsteps < 10)%nat -> minimum_stable frac mean nsteps = O) /\
  ((10 <= nsteps)%nat ->
    (forall x, In x mean -> exists i, (i <= minimum_stable frac mean nsteps)%nat /\ reaches frac x i /\ forall j, (j < i)%nat -> ~ reaches frac x j) /\
    (mean <> [] -> exists x, In x mean /\ reaches frac x (minimum_stable frac mean nsteps) /\ forall j, (j < minimum_stable frac mean nsteps)%nat -> ~ reaches frac x j)).
Proof.
  intros frac mean nsteps PF H. unfold minimum_stable. split; intros L.
  { apply Nat.ltb_lt in L. now rewrite L. }
  replace (nsteps <? 10)%nat with false by (symmetry; apply Nat.ltb_ge; lia).
  assert (X : forall x, In x mean -> exists i, first_true (near_max frac x) = Some i /\ reaches frac x i /\ forall j, (j < i)%nat -> ~ reaches frac x j).
  { intros x I. destruct (H x I) as [N M]. pose proof (first_true_spec (near_max frac x)) as F. destruct (first_true (near_max frac x)) as [i|].
    - exists i. destruct F as (F1 & _ & F3). split; [reflexivity|]. split; [now apply near_max_spec|]. intros j J R. apply near_max_spec in R; try assumption. rewrite F3 in R by exact J. discriminate.
    - exfalso. destruct x as [|x0 x]; [congruence|]. pose proof (lmax_in x x0) as I2. apply In_nth with (d := 0) in I2. destruct I2 as (i & I2 & I3).
      assert (R : reaches frac (x0 :: x) i).
      { split; [exact I2|]. exists (lmax x0 x). split; [apply lmax_in|]. split; [intros v; apply lmax_ge|]. rewrite I3. cbn [lmaximum] in M. pose proof (Rabs_pos_lt _ M). nra. }
      apply near_max_spec in R; try assumption. rewrite F in R. discriminate. }
  clear H. set (g := fun acc x => match first_true (near_max frac x) with Some i => Nat.max acc i | None => acc end).
  assert (G1 : forall l acc, (acc <= fold_left g l acc)%nat).
  { induction l as [|x l IH]; intros acc; cbn [fold_left]; [lia|]. specialize (IH (g acc x)). unfold g in IH at 1. destruct (first_true _); lia. }
  split.
  - generalize O as acc. induction mean as [|x mean IH]; intros acc y []; cbn [fold_left].
    + subst y. destruct (X x (or_introl eq_refl)) as (i & F & R). exists i. split; [|exact R]. pose proof (G1 mean (g acc x)) as G. unfold g in G at 1. rewrite F in G. lia.
    + apply IH; [|assumption]. intros z Z. apply X. now right.
  - intros NE.
    assert (G2 : forall l acc, (forall x, In x l -> exists i, first_true (near_max frac x) = Some i /\ reaches frac x i /\ forall j, (j < i)%nat -> ~ reaches frac x j) ->
       fold_left g l acc = acc \/ exists x, In x l /\ reaches frac x (fold_left g l acc) /\ forall j, (j < fold_left g l acc)%nat -> ~ reaches frac x j).
    { induction l as [|x l IH]; intros acc XX; cbn [fold_left]; [now left|].
      destruct (XX x (or_introl eq_refl)) as (i & F & R).
      destruct (IH (g acc x) (fun z Z => XX z (or_intror Z))) as [E|(y & Y & RY)].
      - rewrite E. unfold g. rewrite F. destruct (Nat.max_spec acc i) as [[_ ->]|[_ ->]]; [|now left]. right. exists x. split; [now left|exact R].
      - right. exists y. split; [now right|exact RY]. }
    destruct mean as [|x mean]; [congruence|]. cbn [fold_left]. destruct (X x (or_introl eq_refl)) as (i & F & R).
    assert (E : g O x = i) by (unfold g; rewrite F; lia). rewrite E.
    destruct (G2 mean i (fun z Z => X z (or_intror Z))) as [E2|(y & Y & RY)].
    + rewrite E2. exists x. split; [now left|exact R].
    + exists y. split; [now right|exact RY].
Qed.
(** nothing says the chain stays there *)
Theorem C149_stays_stable_refuted : exists mean, In mean [[-1; -9; -9; -9; -9; -9; -9; -9; -9; -9]] /\
  minimum_stable 1 [mean] 10 = O /\ forall i, (0 < i < 10)%nat -> ~ reaches 1 mean i.
Proof.
  eexists. split; [left; reflexivity|].
  assert (R : forall i, (i < 10)%nat -> (reaches 1 [-1; -9; -9; -9; -9; -9; -9; -9; -9; -9] i <-> i = O)).
  { intros i L. split.
    - intros [_ (m & I & U & D)]. destruct i as [|i]; [reflexivity|exfalso].
      assert (E : nth (S i) [-1; -9; -9; -9; -9; -9; -9; -9; -9; -9] 0 = -9) by (do 9 (destruct i as [|i]; [reflexivity|]); lia). rewrite E in D.
      assert (m = -1). { pose proof (U (-1) (or_introl eq_refl)). destruct I as [<-|I]; [reflexivity|]. exfalso. repeat (destruct I as [<-|I]; [lra|]). exact I. }
      subst m. rewrite Rabs_left in D by lra. lra.
    - intros ->. split; [cbn; lia|]. exists (-1). split; [now left|]. split; [|cbn [nth]; rewrite Rabs_left by lra; lra].
      intros v I. repeat (destruct I as [<-|I]; [lra|]). contradiction. }
  assert (M : lmaximum [-1; -9; -9; -9; -9; -9; -9; -9; -9; -9] <> 0).
  { cbn [lmaximum]. pose proof (lmax_in [-9; -9; -9; -9; -9; -9; -9; -9; -9] (-1)) as I. intros E. rewrite E in I. repeat (destruct I as [I|I]; [lra|]). exact I. }
  split; [|intros i I D; apply R in D; lia].
  destruct (C149_minimum_stable 1 [[-1; -9; -9; -9; -9; -9; -9; -9; -9; -9]] 10 ltac:(lra)) as [_ H].
  { intros x [<-|[]]. split; [discriminate|exact M]. }
  destruct (H ltac:(lia)) as [_ (x & [<-|[]] & RR & _)]; [discriminate|]. apply R; [|exact RR]. destruct RR as [L _]. exact L.
Qed.

Lemma trunc_int z : trunc (IZR z) = z.
Proof. unfold trunc, zceil. rewrite <- opp_IZR, !zfloor_int. destruct (Rle_dec 0 (IZR z)); lia. Qed.
Example C149_example :
  check_iteration {| burn_in_nact := 10; thin_by_nact := 1/2; autocorr_tol := 50; min_tau := 1; Q_tol := 101/100; nsamples := 300; autocorr_tau := 1; gradient_tau := 1/10; gradient_mean := 1/10 |}
    4 101 3 20 (Some 2) (Some 1) (fun _ _ => Some (1/100)) (fun _ _ => Some (1/100)) = (true, Some (20%Z, 1%Z, 324%Z)).
Proof.
  unfold check_iteration. cbn [burn_in_nact thin_by_nact autocorr_tol min_tau Q_tol nsamples autocorr_tau gradient_tau gradient_mean olt].
  assert (C : zceil 2 = 2%Z) by (unfold zceil; rewrite <- opp_IZR, zfloor_int; reflexivity). rewrite C.
  replace (10 * 2) with 20 by lra. rewrite (trunc_int 20). replace (Rmax 1 (1 / 2 * 2)) with 1 by (rewrite Rmax_left; lra). rewrite (trunc_int 1).
  replace (INR 4 * (INR 101 - 20) / 1) with 324 by (rewrite (INR_IZR_INZ 101); cbn; field). rewrite (trunc_int 324).
  rewrite (proj2 (rlt_iff 1 _)) by lra. rewrite (proj2 (rlt_iff (1/100) _)) by lra. rewrite (proj2 (rlt_false (INR 101) _)) by (rewrite INR_IZR_INZ; cbn; lra).
  rewrite (proj2 (rlt_false 2 1)) by lra. reflexivity.
Qed.

(** ** C150 *)
Definition rfl (n : nat) (ws : list (list R)) : Prop := (2 <= length ws)%nat /\ (2 <= n)%nat /\ List.Forall (fun w => length w = n) ws.
Lemma rsum_app a b : rsum (a ++ b) = rsum a + rsum b.
Proof. unfold rsum. induction a as [|x a IH]; cbn; lra. Qed.
Lemma rsum_scale c l : rsum (map (Rmult c) l) = c * rsum l.
Proof. unfold rsum. induction l as [|x l IH]; cbn; lra. Qed.
Lemma rsum_shift c l : rsum (map (Rplus c) l) = INR (length l) * c + rsum l.
Proof. unfold rsum. induction l as [|x l IH]; [cbn; lra|]. cbn [map fold_right length]. rewrite S_INR. lra. Qed.
Lemma rmean_sum l : rmean l = rsum l / INR (length l).
Proof. reflexivity. Qed.
Lemma rmean_affine a b l : l <> [] -> rmean (map (fun x => a * x + b) l) = a * rmean l + b.
Proof.
  intros N. rewrite !rmean_sum, map_length. replace (map (fun x => a * x + b) l) with (map (Rplus b) (map (Rmult a) l)).
  - rewrite rsum_shift, rsum_scale, map_length. field. apply not_0_INR. now destruct l.
  - rewrite map_map. apply map_ext. intros x. ring.
Qed.
Lemma rvar_affine a b l : l <> [] -> rvar (map (fun x => a * x + b) l) = a * a * rvar l.
Proof.
  intros N. unfold rvar. rewrite (rmean_affine a b l N), map_map.
  assert (N2 : map (fun x => (x - rmean l) * (x - rmean l)) l <> []) by (destruct l; [congruence|discriminate]).
  pose proof (rmean_affine (a * a) 0 _ N2) as E. rewrite Rplus_0_r in E. rewrite <- E, map_map. f_equal. apply map_ext. intros x. ring.
Qed.
Lemma rmean_nonneg l : (forall x, In x l -> 0 <= x) -> 0 <= rmean l.
Proof.
  intros H. rewrite rmean_sum. destruct l as [|x0 l]; [cbn; unfold Rdiv; rewrite Rmult_0_l; lra|].
  apply Rmult_le_pos; [|left; apply Rinv_0_lt_compat, lt_0_INR; cbn; lia].
  generalize dependent (x0 :: l). intros l0 H. induction l0 as [|x l0 IH]; [cbn; lra|]. cbn. pose proof (H x (or_introl eq_refl)). specialize (IH (fun z Z => H z (or_intror Z))). unfold rsum in *. lra.
Qed.
Lemma rsum_sq_zero (l : list R) c : rsum (map (fun m => (m - c) * (m - c)) l) = 0 -> forall m, In m l -> m = c.
Proof.
  assert (P : forall l, 0 <= rsum (map (fun m => (m - c) * (m - c)) l)).
  { intros k. unfold rsum. induction k as [|x k IH]; cbn; [lra|]. pose proof (Rle_0_sqr (x - c)). unfold Rsqr in *. lra. }
  induction l as [|x l IH]; [intros _ m []|]. intros E m [H|H].
  - subst m. cbn in E. specialize (P l). unfold rsum in *. pose proof (Rle_0_sqr (x - c)) as S. unfold Rsqr in S. assert (Z : (x - c) * (x - c) = 0) by lra. apply Rmult_integral in Z. lra.
  - apply IH; [|exact H]. specialize (P l). cbn in E. unfold rsum in *. pose proof (Rle_0_sqr (x - c)) as S. unfold Rsqr in S. lra.
Qed.
Lemma gr_B_nonneg n ws : (2 <= length ws)%nat -> 0 <= gr_B n ws.
Proof.
  intros L. unfold gr_B. apply le_INR in L. cbn [INR] in L. apply Rmult_le_pos.
  - apply Rmult_le_pos; [apply pos_INR|]. left. apply Rinv_0_lt_compat. lra.
  - generalize (map rmean ws). intros l. set (c := rmean l). clearbody c. unfold rsum. induction l as [|x l IH]; cbn; [lra|]. pose proof (Rle_0_sqr (x - c)). unfold Rsqr in *. lra.
Qed.
Lemma gr_W_nonneg ws : 0 <= gr_W ws.
Proof.
  unfold gr_W. apply rmean_nonneg. intros x H. apply in_map_iff in H. destruct H as (w & <- & _). unfold rvar. apply rmean_nonneg.
  intros y H. apply in_map_iff in H. destruct H as (z & <- & _). pose proof (Rle_0_sqr (z - rmean w)). unfold Rsqr in *. lra.
Qed.
Lemma gr_Q_value n ws : rfl n ws -> gr_W ws <> 0 ->
  gr_Q n ws = Some (sqrt ((INR n - 1) / INR n + (INR (length ws) + 1) / (INR (length ws) * INR n) * (gr_B n ws / gr_W ws))) /\
  0 <= gr_B n ws / gr_W ws.
Proof.
  intros (L & N & F) W. unfold gr_Q. replace (n <=? 1)%nat with false by (symmetry; apply Nat.leb_gt; lia).
  pose proof (le_INR _ _ L) as LR. pose proof (le_INR _ _ N) as NR. cbn [INR] in LR, NR.
  pose proof (gr_W_nonneg ws) as WN. assert (WP : 0 < gr_W ws) by lra. pose proof (gr_B_nonneg n ws L) as BN.
  unfold pdiv. destruct (Req_EM_T (gr_W ws) 0) as [Z|_]; [contradiction|].
  assert (BW : 0 <= gr_B n ws / gr_W ws) by (apply Rmult_le_pos; [exact BN|left; now apply Rinv_0_lt_compat]).
  assert (E : gr_Vhat n ws / gr_W ws = (INR n - 1) / INR n + (INR (length ws) + 1) / (INR (length ws) * INR n) * (gr_B n ws / gr_W ws)).
  { unfold gr_Vhat. field. repeat split; lra. }
  split; [|exact BW]. rewrite E. unfold psqrt.
  assert (G : 0 <= (INR n - 1) / INR n + (INR (length ws) + 1) / (INR (length ws) * INR n) * (gr_B n ws / gr_W ws)).
  { apply Rplus_le_le_0_compat; [apply Rmult_le_pos; [lra|left; apply Rinv_0_lt_compat; lra]|]. apply Rmult_le_pos; [|exact BW].
    apply Rmult_le_pos; [lra|]. left. apply Rinv_0_lt_compat. nra. }
  match goal with |- context [Rlt_dec ?u 0] => destruct (Rlt_dec u 0) as [C|_] end; [lra|reflexivity].
Qed.

(** bounded below, with equality exactly for walkers of equal mean *)
Theorem C150_bound : forall n ws, rfl n ws -> gr_W ws <> 0 ->
  exists q, gr_Q n ws = Some q /\ sqrt ((INR n - 1) / INR n) <= q /\
    (q = sqrt ((INR n - 1) / INR n) <-> forall v w, In v ws -> In w ws -> rmean v = rmean w).
Proof.
  intros n ws RF W. destruct (gr_Q_value n ws RF W) as [E BW]. eexists. split; [exact E|].
  destruct RF as (L & N & F). pose proof (le_INR _ _ L) as LR. pose proof (le_INR _ _ N) as NR. cbn [INR] in LR, NR.
  assert (C : 0 < (INR (length ws) + 1) / (INR (length ws) * INR n)) by (apply Rmult_lt_0_compat; [lra|apply Rinv_0_lt_compat; nra]).
  assert (D : 0 < (INR n - 1) / INR n) by (apply Rmult_lt_0_compat; [lra|apply Rinv_0_lt_compat; lra]).
  set (a := (INR n - 1) / INR n) in *. set (c := (INR (length ws) + 1) / _) in *. set (r := gr_B n ws / gr_W ws) in *.
  assert (CR : 0 <= c * r) by (apply Rmult_le_pos; lra).
  split; [apply sqrt_le_1; lra|]. split.
  - intros Q. assert (Z : c * r = 0). { apply sqrt_inj in Q; lra. }
    apply Rmult_integral in Z. destruct Z as [Z|Z]; [lra|]. unfold r, Rdiv in Z. apply Rmult_integral in Z. destruct Z as [Z|Z].
    2:{ exfalso. pose proof (gr_W_nonneg ws). pose proof (Rinv_0_lt_compat (gr_W ws)). lra. }
    unfold gr_B in Z. apply Rmult_integral in Z. destruct Z as [Z|Z].
    { exfalso. unfold Rdiv in Z. apply Rmult_integral in Z. destruct Z as [Z|Z]; [lra|]. pose proof (Rinv_0_lt_compat (INR (length ws) - 1)). lra. }
    intros v w V V2. rewrite (rsum_sq_zero _ _ Z (rmean v) (in_map rmean _ _ V)), (rsum_sq_zero _ _ Z (rmean w) (in_map rmean _ _ V2)). reflexivity.
  - intros H. assert (Z : r = 0).
    { unfold r. replace (gr_B n ws) with 0; [unfold Rdiv; ring|]. symmetry. unfold gr_B. apply Rmult_eq_0_compat_l.
      destruct ws as [|w0 ws']; [cbn in L; lia|]. set (ws := w0 :: ws') in *.
      assert (EM : map rmean ws = map (fun x => 0 * x + rmean w0) (map rmean ws)).
      { rewrite map_map. apply map_ext_in. intros w I. rewrite (H w w0 I (or_introl eq_refl)). ring. }
      assert (ME : rmean (map rmean ws) = rmean w0). { rewrite EM, rmean_affine by discriminate. ring. }
      rewrite ME. assert (AE : forall m, In m (map rmean ws) -> m = rmean w0).
      { intros m I. apply in_map_iff in I. destruct I as (w & <- & I). apply H; [exact I|now left]. }
      revert AE. generalize (map rmean ws). intros l AE. unfold rsum. induction l as [|x l IH]; [reflexivity|]. cbn.
      rewrite (AE x (or_introl eq_refl)), IH by (intros m I; apply AE; now right). ring. }
    rewrite Z. f_equal. ring.
Qed.

(** unchanged when a parameter is shifted and scaled *)
Theorem C150_affine : forall n ws a b, rfl n ws -> a <> 0 -> gr_Q n (map (map (fun x => a * x + b)) ws) = gr_Q n ws.
Proof.
  intros n ws a b (L & N & F) A. unfold gr_Q. destruct (n <=? 1)%nat; [reflexivity|].
  assert (NE : forall w, In w ws -> w <> []). { rewrite Forall_forall in F. intros w I E. specialize (F w I). subst w. cbn in F. lia. }
  assert (WS : ws <> []) by (destruct ws; [cbn in L; lia|discriminate]).
  assert (EM : map rmean (map (map (fun x => a * x + b)) ws) = map (fun x => a * x + b) (map rmean ws)).
  { rewrite !map_map. apply map_ext_in. intros w I. apply rmean_affine, NE, I. }
  assert (EW : gr_W (map (map (fun x => a * x + b)) ws) = a * a * gr_W ws).
  { unfold gr_W. assert (N2 : map rvar ws <> []) by (destruct ws; [congruence|discriminate]). pose proof (rmean_affine (a * a) 0 _ N2) as E. rewrite Rplus_0_r in E. rewrite <- E, !map_map. f_equal.
    apply map_ext_in. intros w I. rewrite rvar_affine by (apply NE, I). ring. }
  assert (EB : gr_B n (map (map (fun x => a * x + b)) ws) = a * a * gr_B n ws).
  { unfold gr_B. rewrite map_length, EM. assert (N2 : map rmean ws <> []) by (destruct ws; [congruence|discriminate]).
    rewrite (rmean_affine a b _ N2). rewrite map_map. set (l := map rmean ws). set (c := rmean l). set (k := INR n / (INR (length ws) - 1)).
    replace (map (fun x => (a * x + b - (a * c + b)) * (a * x + b - (a * c + b))) l) with (map (Rmult (a * a)) (map (fun m => (m - c) * (m - c)) l)).
    - rewrite rsum_scale. ring.
    - rewrite map_map. apply map_ext. intros x. ring. }
  unfold gr_Vhat. rewrite EW, EB, map_length. unfold pdiv.
  assert (AA : a * a <> 0) by (apply Rmult_integral_contrapositive; split; exact A).
  destruct (Req_EM_T (a * a * gr_W ws) 0) as [Z|Z], (Req_EM_T (gr_W ws) 0) as [Y|Y]; try reflexivity.
  - exfalso. apply Rmult_integral in Z. tauto.
  - exfalso. apply Z. rewrite Y. ring.
  - pose proof (le_INR _ _ L) as LR. pose proof (le_INR _ _ N) as NR. cbn [INR] in LR, NR. f_equal. field. repeat split; try lra; assumption.
Qed.

(** the textbook statistic has the unbiased variance (division by n - 1) within the walkers; this one the biased one *)
Definition unbiased_var (l : list R) : R := rsum (map (fun x => (x - rmean l) * (x - rmean l)) l) / (INR (length l) - 1).
Definition textbook_R2 (n : nat) (ws : list (list R)) : R :=
  let W := rmean (map unbiased_var ws) in
  ((INR n - 1) / INR n * W + (INR (length ws) + 1) / (INR (length ws) * INR n) * gr_B n ws) / W.
Theorem C150_textbook : forall n ws, rfl n ws -> gr_W ws <> 0 ->
  exists q, gr_Q n ws = Some q /\ q * q - (INR n - 1) / INR n = INR n / (INR n - 1) * (textbook_R2 n ws - (INR n - 1) / INR n).
Proof.
  intros n ws RF W. destruct (gr_Q_value n ws RF W) as [E BW]. eexists. split; [exact E|].
  destruct RF as (L & N & F). pose proof (le_INR _ _ L) as LR. pose proof (le_INR _ _ N) as NR. cbn [INR] in LR, NR.
  rewrite sqrt_sqrt.
  2:{ apply Rplus_le_le_0_compat; [apply Rmult_le_pos; [lra|left; apply Rinv_0_lt_compat; lra]|]. apply Rmult_le_pos; [|exact BW].
      apply Rmult_le_pos; [lra|]. left. apply Rinv_0_lt_compat. nra. }
  unfold textbook_R2. cbv zeta.
  assert (EW : rmean (map unbiased_var ws) = INR n / (INR n - 1) * gr_W ws).
  { unfold gr_W. assert (N2 : map rvar ws <> []) by (destruct ws; [cbn in L; lia|discriminate]). pose proof (rmean_affine (INR n / (INR n - 1)) 0 _ N2) as E2. rewrite Rplus_0_r in E2. rewrite <- E2, map_map. f_equal.
    apply map_ext_in. intros w I. unfold unbiased_var, rvar. rewrite (rmean_sum (map _ w)), map_length. rewrite Forall_forall in F. rewrite (F w I). field. lra. }
  rewrite EW. field. repeat split; lra || exact W.
Qed.
Theorem C150_short : forall n ws, (n <= 1)%nat -> gr_Q n ws = None.
Proof. intros n ws H. unfold gr_Q. apply Nat.leb_le in H. now rewrite H. Qed.
Example C150_example : gr_Q 2 [[0; 2]; [2; 4]] = Some (sqrt (7/2)).
Proof.
  assert (W : gr_W [[0; 2]; [2; 4]] = 1) by (unfold gr_W, rvar, rmean; cbn; field).
  assert (B : gr_B 2 [[0; 2]; [2; 4]] = 4) by (unfold gr_B, rmean, rsum; cbn; field).
  destruct (gr_Q_value 2 [[0; 2]; [2; 4]]) as [E _]; [repeat split; cbn; auto; repeat constructor|rewrite W; lra|].
  rewrite E, W, B. do 2 f_equal. cbn. field.
Qed.

(** ** C151 *)
(** betas from cold to hot *)
Definition beta_gap (l : list (R * R)) : R := match l with [] => 0 | p :: r => last_x r (fst p) - fst p end.
Lemma trapz_affine a b : forall l, (forall p, In p l -> snd p = a + b * fst p) ->
  trapz l = match l with [] => 0 | p :: r => a * (last_x r (fst p) - fst p) + b / 2 * (last_x r (fst p) * last_x r (fst p) - fst p * fst p) end.
Proof.
  induction l as [|[x0 y0] l IH]; intros H; [reflexivity|]. destruct l as [|[x1 y1] l].
  - cbn. field.
  - cbn [trapz]. cbn [trapz] in IH. rewrite IH by (intros p I; apply H; now right).
    pose proof (H (x0, y0) (or_introl eq_refl)) as E0. pose proof (H (x1, y1) (or_intror (or_introl eq_refl))) as E1. cbn [fst snd] in *. rewrite E0, E1.
    cbn [last_x]. field.
Qed.
Lemma finite_pairs_all : forall l, finite_pairs (map (fun p => (fst p, Some (snd p))) l) = l.
Proof. induction l as [|[b m] l IH]; [reflexivity|]. cbn. now rewrite IH. Qed.
Lemma finite_pairs_app a b : finite_pairs (a ++ b) = finite_pairs a ++ finite_pairs b.
Proof. induction a as [|[x [y|]] a IH]; cbn; now rewrite ?IH. Qed.
(** infinite means are left out *)
Theorem C151_infinite : forall a b l, ln_evidence (a ++ (b, None) :: l) = ln_evidence (a ++ l) /\ ln_evidence_err (a ++ (b, None) :: l) = ln_evidence_err (a ++ l).
Proof.
  intros a b l. unfold ln_evidence, ln_evidence_err.
  assert (E : finite_pairs (rev (a ++ (b, None) :: l)) = finite_pairs (rev (a ++ l))).
  { rewrite !rev_app_distr. cbn [rev]. rewrite !finite_pairs_app. cbn [finite_pairs]. now rewrite app_nil_r. }
  rewrite E. split; reflexivity.
Qed.
Lemma last_x_snoc l x y d : last_x (l ++ [(x, y)]) d = x.
Proof. revert d. induction l as [|[u v] l IH]; intros d; [reflexivity|]. cbn. apply IH. Qed.
(** exact for a mean log likelihood affine in beta, over the betas that are used *)
Theorem C151_exact : forall a b bcold bhot mids,
  let mean x := Some (a + b * x) in
  ln_evidence ((bcold, mean bcold) :: map (fun x => (x, mean x)) mids ++ [(bhot, mean bhot)]) = a * (bcold - bhot) + b / 2 * (bcold * bcold - bhot * bhot).
Proof.
  intros a b bcold bhot mids. cbv zeta. unfold ln_evidence.
  set (f := fun x => (x, a + b * x)). set (g := fun p : R * R => (fst p, Some (snd p))).
  replace ((bcold, Some (a + b * bcold)) :: map (fun x => (x, Some (a + b * x))) mids ++ [(bhot, Some (a + b * bhot))]) with (map g (f bcold :: map f mids ++ [f bhot])).
  2:{ cbn [map]. rewrite map_app, map_map. reflexivity. }
  rewrite <- map_rev. unfold g. rewrite finite_pairs_all. cbn [rev]. rewrite rev_app_distr. cbn [rev app].
  rewrite (trapz_affine a b).
  - cbn [fst f]. unfold f at 2 4 6. rewrite !last_x_snoc. reflexivity.
  - intros p I. assert (J : exists x, p = f x).
    { destruct I as [I|I]; [now exists bhot|]. apply in_app_or in I. destruct I as [I|[I|[]]]; [|now exists bcold]. apply in_rev, in_map_iff in I. destruct I as (x & I & _). now exists x. }
    destruct J as (x & ->). reflexivity.
Qed.
(** between the bounds of the mean log likelihoods; the part of the integral below the smallest beta is left out *)
Lemma trapz_bounds lo hi : forall l, (forall p, In p l -> lo <= snd p <= hi) ->
  (forall i, (S i < length l)%nat -> fst (nth i l (0, 0)) <= fst (nth (S i) l (0, 0))) ->
  lo * beta_gap l <= trapz l <= hi * beta_gap l.
Proof.
  induction l as [|[x0 y0] l IH]; intros H M; [cbn; lra|]. destruct l as [|[x1 y1] l]; [cbn; lra|].
  specialize (IH (fun p I => H p (or_intror I))). assert (M2 : forall i, (S i < length ((x1, y1) :: l))%nat -> fst (nth i ((x1, y1) :: l) (0, 0)) <= fst (nth (S i) ((x1, y1) :: l) (0, 0))).
  { intros i I. apply (M (S i)). cbn [length] in *. lia. }
  specialize (IH M2). pose proof (M O ltac:(cbn; lia)) as X. cbn [nth fst] in X.
  pose proof (H (x0, y0) (or_introl eq_refl)) as E0. pose proof (H (x1, y1) (or_intror (or_introl eq_refl))) as E1. cbn [snd] in *.
  cbn [trapz]. cbn [trapz] in IH. unfold beta_gap in *. cbn [fst last_x] in *. set (t := last_x l x1) in *.
  assert (lo * (x1 - x0) <= (x1 - x0) * (y1 + y0) / 2 <= hi * (x1 - x0)) by nra. nra.
Qed.
Theorem C151_bounds : forall lo hi l, (forall p, In p l -> lo <= snd p <= hi) ->
  (forall i, (S i < length l)%nat -> fst (nth (S i) l (0, 0)) <= fst (nth i l (0, 0))) ->
  lo * beta_gap (rev l) <= ln_evidence (map (fun p => (fst p, Some (snd p))) l) <= hi * beta_gap (rev l).
Proof.
  intros lo hi l H M. unfold ln_evidence. rewrite <- map_rev, finite_pairs_all. apply trapz_bounds.
  - intros p I. apply H, in_rev, I.
  - intros i I. rewrite rev_length in I. rewrite !rev_nth by lia. specialize (M (length l - S (S i))%nat ltac:(lia)).
    replace (S (length l - S (S i)))%nat with (length l - S i)%nat in M by lia. exact M.
Qed.

(** a constant mean log likelihood [c]: the integral is exact; its error estimate is 0 with an odd number of temperatures, and the
    part of the hottest interval with an even number *)
Lemma every_other_last : forall k (l : list (R * R)), (length l = 2 * k + 1)%nat -> forall d, last_x (every_other l) d = last_x l d.
Proof.
  induction k as [|k IH]; intros l E d.
  - destruct l as [|p [|q l]]; cbn [length] in E; try lia. reflexivity.
  - destruct l as [|[x0 y0] [|[x1 y1] l]]; cbn [length] in E; try lia. cbn [every_other last_x]. rewrite (IH l ltac:(lia)).
    destruct l as [|[x2 y2] l]; cbn [length] in E; [lia|]. reflexivity.
Qed.
Lemma every_other_even : forall k (l : list (R * R)) p, (length l = 2 * k + 1)%nat -> every_other (l ++ [p]) = every_other l.
Proof.
  induction k as [|k IH]; intros l p E.
  - destruct l as [|p0 [|q l]]; cbn [length] in E; try lia. reflexivity.
  - destruct l as [|[x0 y0] [|[x1 y1] l]]; cbn [length] in E; try lia. cbn [app every_other]. now rewrite (IH l p ltac:(lia)).
Qed.
Lemma every_other_in : forall n (l : list (R * R)), (length l <= n)%nat -> forall p, In p (every_other l) -> In p l.
Proof.
  induction n as [|n IH]; intros l L p I; [destruct l; [exact I|cbn in L; lia]|].
  destruct l as [|a [|b l]]; [exact I|exact I|]. cbn [every_other] in I. destruct I as [I|I]; [now left|]. right. right. apply IH; [cbn in L; lia|exact I].
Qed.
Lemma trapz_rev_const c : forall l, (forall p, In p l -> snd p = c) -> l <> [] -> trapz (rev l) = c * (match l with p :: _ => fst p | [] => 0 end - last_x l 0).
Proof.
  intros l H N. rewrite (trapz_affine c 0) by (intros p I; apply in_rev in I; rewrite (H p I); ring).
  destruct l as [|[x0 y0] l]; [congruence|]. destruct l as [|q l'] using rev_ind.
  - cbn. lra.
  - destruct q as [xq yq]. cbn [rev]. rewrite rev_app_distr. cbn [rev app fst]. rewrite last_x_snoc. cbn [last_x]. rewrite last_x_snoc. lra.
Qed.
Theorem C151_error_odd : forall c k betas, (length betas = 2 * k + 1)%nat -> ln_evidence_err (map (fun b => (b, Some c)) betas) = 0.
Proof.
  intros c k betas L. unfold ln_evidence_err. cbv zeta.
  replace (map (fun b => (b, Some c)) betas) with (map (fun p : R * R => (fst p, Some (snd p))) (map (fun b => (b, c)) betas)) by (rewrite map_map; reflexivity).
  rewrite <- map_rev, finite_pairs_all, rev_involutive. set (l := map (fun b => (b, c)) betas).
  assert (LL : (length l = 2 * k + 1)%nat) by (unfold l; now rewrite map_length).
  assert (C : forall p, In p l -> snd p = c) by (intros p I; apply in_map_iff in I; destruct I as (b & <- & _); reflexivity).
  assert (NE : l <> []) by (intros E; rewrite E in LL; cbn in LL; lia).
  rewrite (trapz_rev_const c l C NE), (trapz_rev_const c (every_other l)).
  - rewrite (every_other_last k l LL). destruct l as [|p [|q l']]; [congruence| |]; cbn [every_other]; rewrite Rminus_diag_eq by reflexivity; apply Rabs_R0.
  - intros p I. apply C. eapply every_other_in; [apply le_n|exact I].
  - destruct l as [|p [|q l']]; [congruence|discriminate|discriminate].
Qed.
Theorem C151_error_even : forall c k betas b1 b0, (length betas = 2 * k)%nat ->
  ln_evidence_err (map (fun b => (b, Some c)) (betas ++ [b1; b0])) = Rabs (c * (b1 - b0)).
Proof.
  intros c k betas b1 b0 L. unfold ln_evidence_err. cbv zeta.
  replace (map (fun b => (b, Some c)) (betas ++ [b1; b0])) with (map (fun p : R * R => (fst p, Some (snd p))) (map (fun b => (b, c)) (betas ++ [b1; b0]))) by (rewrite map_map; reflexivity).
  rewrite <- map_rev, finite_pairs_all, rev_involutive.
  replace (betas ++ [b1; b0]) with ((betas ++ [b1]) ++ [b0]) by (rewrite <- app_assoc; reflexivity). rewrite map_app. cbn [map].
  set (l := map (fun b => (b, c)) (betas ++ [b1])).
  assert (LL : (length l = 2 * k + 1)%nat) by (unfold l; rewrite map_length, app_length; cbn; lia).
  assert (C : forall p, In p l -> snd p = c) by (intros p I; apply in_map_iff in I; destruct I as (b & <- & _); reflexivity).
  assert (NE : l <> []) by (intros E; rewrite E in LL; cbn in LL; lia).
  rewrite (every_other_even k l (b0, c) LL), (trapz_rev_const c (l ++ [(b0, c)])), (trapz_rev_const c (every_other l)).
  - rewrite (every_other_last k l LL), last_x_snoc. assert (LB : last_x l 0 = b1) by (unfold l; rewrite map_app; apply last_x_snoc). rewrite LB.
    f_equal. destruct l as [|p [|q l']]; [congruence| |]; cbn [app every_other]; ring.
  - intros p I. apply C. eapply every_other_in; [apply le_n|exact I].
  - destruct l as [|p [|q l']]; [congruence|discriminate|discriminate].
  - intros p I. apply in_app_or in I. destruct I as [I|[<-|[]]]; [now apply C|reflexivity].
  - destruct l; discriminate.
Qed.
Theorem C151_error_zero_if_exact_refuted : exists (c : R) betas, ln_evidence (map (fun b => (b, Some c)) betas) = c * (1 - 1/2) /\
  ln_evidence_err (map (fun b => (b, Some c)) betas) = 1.
Proof.
  exists (-2), [1; 1/2]. split; [unfold ln_evidence; cbn; field|].
  change [1; 1 / 2] with ([] ++ [1; 1 / 2]). rewrite (C151_error_even (-2) 0 [] 1 (1/2) eq_refl). rewrite Rabs_left by lra. field.
Qed.
Example C151_example : ln_evidence [(1, Some (-3)); (1/2, Some (-4)); (1/4, None); (0, Some (-10))] = -21/4.
Proof. unfold ln_evidence. cbn. field. Qed.

(** ** C152 *)
(** a periodic parameter after the wrapping: in the range, shifted by whole ranges, unchanged inside *)
Theorem C152_wrap : forall min max x, min < max ->
  min <= wrap_periodic min max x < max /\ (exists k : Z, wrap_periodic min max x = x - (max - min) * IZR k) /\
  (min <= x < max -> wrap_periodic min max x = x).
Proof.
  intros min max x H. unfold wrap_periodic. split; [|split].
  - pose proof (rmod_range (x - min) (max - min) ltac:(lra)). lra.
  - destruct (rmod_congr (x - min) (max - min)) as (k & ->). exists k. ring.
  - intros I. rewrite rmod_id by lra. ring.
Qed.
(** but a point is evaluated before the wrapping, so one outside the range of a periodic parameter has log prior -inf *)
Theorem C152_periodic_proposals_refuted : forall (X : Type) (coord : X -> R) min max (logp : X -> option R) (logl : X -> R),
  (forall x, coord x < min \/ max < coord x -> logp x = None) ->
  forall x, (coord x < min \/ max < coord x -> evaluate logp logl x = (0, None)) /\
    (snd (evaluate logp logl x) <> None -> coord x <> max -> min < max -> wrap_periodic min max (coord x) = coord x).
Proof.
  intros X coord min max logp logl H x. split.
  - intros O. unfold evaluate. now rewrite (H x O).
  - intros N NM M. apply C152_wrap; [exact M|]. unfold evaluate in N. destruct (Rlt_dec (coord x) min) as [L|L].
    { rewrite (H x (or_introl L)) in N. now cbn in N. }
    destruct (Rlt_dec max (coord x)) as [U|U]; [|lra]. rewrite (H x (or_intror U)) in N. now cbn in N.
Qed.
(** the likelihood is only taken where the prior is not 0, and is 0 elsewhere *)
Theorem C152_evaluate : forall (X : Type) (logp : X -> option R) (logl logl' : X -> R) x,
  snd (evaluate logp logl x) = logp x /\
  (logp x <> None -> fst (evaluate logp logl x) = logl x) /\
  (logp x = None -> evaluate logp logl x = evaluate logp logl' x /\ fst (evaluate logp logl x) = 0).
Proof. intros X logp logl logl' x. unfold evaluate. destruct (logp x); repeat split; intros; congruence. Qed.

(** starting points: the first ten successes; without ten successes it never ends, whatever the number of trials *)
Definition successes {X} (attempts : list (option X)) : list X := flat_map (fun a => match a with Some x => [x] | None => [] end) attempts.
Lemma minimize_invariant {X} : forall (attempts : list (option X)) found, (length found < 10)%nat ->
  match minimize_loop 0 found attempts with
  | None => (length found + length (successes attempts) < 10)%nat
  | Some r => (10 <= length found + length (successes attempts))%nat /\ r = Some (firstn 10 (found ++ successes attempts))
  end.
Proof.
  induction attempts as [|a r IH]; intros found L; cbn [minimize_loop]; [cbn; lia|].
  change (100 <? 0)%nat with false. cbv iota. destruct a as [x|]; unfold successes; cbn [flat_map app length]; fold (successes r).
  - destruct (10 <=? length (found ++ [x]))%nat eqn:E.
    + apply Nat.leb_le in E. rewrite app_length in E. cbn [length] in E. split; [lia|]. f_equal.
      replace (found ++ x :: successes r) with ((found ++ [x]) ++ successes r) by (rewrite <- app_assoc; reflexivity).
      assert (E10 : length (found ++ [x]) = 10%nat) by (rewrite app_length; cbn [length]; lia).
      rewrite <- E10 at 1. rewrite firstn_app, firstn_all, Nat.sub_diag. cbn [firstn]. now rewrite app_nil_r.
    + apply Nat.leb_gt in E. specialize (IH (found ++ [x]) E). destruct (minimize_loop 0 (found ++ [x]) r) as [o|].
      * destruct IH as [I1 I2]. rewrite app_length in I1. cbn [length] in I1. split; [lia|]. rewrite I2, <- app_assoc. reflexivity.
      * rewrite app_length in IH. cbn [length] in IH. lia.
  - replace (10 <=? length found)%nat with false by (symmetry; apply Nat.leb_gt; lia). exact (IH found L).
Qed.
Theorem C152_minimize : forall (X : Type) (attempts : list (option X)),
  ((10 <= length (successes attempts))%nat -> minimize_loop 0 [] attempts = Some (Some (firstn 10 (successes attempts)))) /\
  ((length (successes attempts) < 10)%nat -> minimize_loop 0 [] attempts = None).
Proof.
  intros X attempts. pose proof (minimize_invariant attempts [] ltac:(cbn; lia)) as H. cbn [length app Nat.add] in H.
  destruct (minimize_loop 0 [] attempts) as [r|]; split; intros L; [destruct H as [_ ->]; reflexivity|lia|lia|reflexivity].
Qed.
Theorem C152_minimize_gives_up_refuted : forall (X : Type) n, minimize_loop 0 [] (repeat (@None X) n) = None.
Proof.
  intros X n. apply C152_minimize. replace (successes (repeat (@None X) n)) with (@nil X); [cbn; lia|].
  induction n as [|n IH]; [reflexivity|]. exact IH.
Qed.
Example C152_example : minimize_loop 0 [] ([None] ++ repeat (Some 3%nat) 9 ++ [None; Some 4%nat]) = Some (Some (repeat 3%nat 9 ++ [4%nat])) /\
  wrap_periodic 0 6 7 = 1.
Proof.
  split; [reflexivity|]. unfold wrap_periodic. rewrite (rmod_unique (7 - 0) (6 - 0) 1 1); cbn; lra.
Qed.

(** ** Assumptions of every theorem above *)
Definition Ensemble2_Props_all :=
  (@C149_stop,
   @C149_discard,
   @C149_samples,
   @C149_ignore_keys_refuted,
   @C149_no_autocorrelation,
   @C149_window,
   @C149_minimum_stable,
   @C149_stays_stable_refuted,
   @C150_bound,
   @C150_affine,
   @C150_textbook,
   @C150_short,
   @C151_infinite,
   @C151_exact,
   @C151_bounds,
   @C151_error_odd,
   @C151_error_even,
   @C151_error_zero_if_exact_refuted,
   @C152_wrap,
   @C152_periodic_proposals_refuted,
   @C152_evaluate,
   @C152_minimize,
   @C152_minimize_gives_up_refuted).
Print Assumptions Ensemble2_Props_all.
