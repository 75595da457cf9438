(** Theorems C123-C126 about relative binning (Relbin_Model). *)
From Coq Require Import Reals Lra Lia List Bool Arith ZArith Sorted.
From Coquelicot Require Import Complex.
From Verif Require Import Relbin_Model.
Import ListNotations.
Open Scope R_scope.
Open Scope list_scope.

(** ** C123 the bins *)
(** the phase measure grows with frequency *)
Lemma alpha_pos chi lo hi g : 0 < chi -> g <> 0 -> 0 < d_alpha chi lo hi g.
Proof.
  intros C G. unfold d_alpha. apply Rdiv_lt_0_compat; [pose proof PI_RGT_0; apply Rmult_lt_0_compat; lra|].
  apply Rabs_pos_lt. unfold heaviside. pose proof (exp_pos (g * ln lo)). pose proof (exp_pos (g * ln hi)). unfold Rpower.
  destruct (Rlt_dec (- g) 0), (Rlt_dec g 0); lra.
Qed.
Lemma term_lt chi lo hi g x y : 0 < chi -> g <> 0 -> 0 < x < y -> sgn g * d_alpha chi lo hi g * Rpower x g < sgn g * d_alpha chi lo hi g * Rpower y g.
Proof.
  intros C G [X Y]. pose proof (alpha_pos chi lo hi g C G) as A. unfold sgn, Rpower.
  assert (L : ln x < ln y) by (apply ln_increasing; lra).
  destruct (Rlt_dec 0 g) as [P|P].
  - apply Rmult_lt_compat_l; [lra|]. apply exp_increasing. apply Rmult_lt_compat_l; assumption.
  - destruct (Rlt_dec g 0) as [Q|Q]; [|lra].
    assert (E : exp (g * ln y) < exp (g * ln x)) by (apply exp_increasing; apply Rmult_lt_gt_compat_neg_l; assumption).
    apply Rmult_lt_compat_l with (r := d_alpha chi lo hi g) in E; [|exact A]. lra.
Qed.
Theorem C123_phase_grows chi lo hi x y : 0 < chi -> 0 < x < y -> d_phi chi lo hi x < d_phi chi lo hi y.
Proof.
  intros C XY. unfold d_phi, gammas. cbn [map fold_right].
  do 4 (apply Rplus_lt_compat; [apply term_lt; lra|]). pose proof (term_lt chi lo hi (7/3) x y C ltac:(lra) XY). lra.
Qed.
Section Bins.
Variable d : nat -> R.
Variable m : nat.
Lemma first_spec x : x <= d m -> let r := first_ge d x 0 m in (r <= m)%nat /\ x <= d r /\ forall j, (j < r)%nat -> d j < x.
Proof.
  intros X. assert (G : forall left j, (j + left = m)%nat -> let r := first_ge d x j left in (j <= r <= m)%nat /\ x <= d r /\ forall i, (j <= i < r)%nat -> d i < x).
  { induction left as [|l IH]; intros j E; cbn [first_ge]; cbv zeta.
    - replace j with m by lia. split; [lia|]. split; [exact X|]. intros; lia.
    - destruct (Rle_dec x (d j)) as [H|H]; [split; [lia|]; split; [exact H|]; intros; lia|].
      destruct (IH (S j) ltac:(lia)) as (A & B & C). split; [lia|]. split; [exact B|]. intros i Hi. destruct (Nat.eq_dec i j) as [->|N]; [lra|]. apply C. lia. }
  destruct (G m O ltac:(lia)) as (A & B & C). split; [lia|]. split; [exact B|]. intros j Hj. apply C. lia.
Qed.
Lemma first_mono x y : x <= y -> y <= d m -> (first_ge d x 0 m <= first_ge d y 0 m)%nat.
Proof.
  intros XY Y. destruct (first_spec x ltac:(lra)) as (_ & _ & C). destruct (first_spec y Y) as (_ & B & _).
  apply Nat.le_ngt. intros L. specialize (C _ L). lra.
Qed.
Lemma collect_spec idx : (forall i, (idx i <= idx (S i))%nat) -> forall cnt i,
  let l := collect_edges idx (S i) cnt (Some (idx i)) in
  last (idx i :: l) O = idx (i + cnt)%nat /\
  (forall e e', In (e, e') (combine (idx i :: l) l) -> (e < e')%nat /\ exists k, (i <= k < i + cnt)%nat /\ e = idx k /\ e' = idx (S k)).
Proof.
  intros MO. induction cnt as [|c IH]; intros i; cbn [collect_edges]; cbv zeta.
  - rewrite Nat.add_0_r. split; [reflexivity|]. intros e e' [].
  - destruct (Nat.eqb_spec (idx (S i)) (idx i)) as [E|E].
    + rewrite <- E. destruct (IH (S i)) as [A B]. split; [rewrite A; f_equal; lia|]. intros e e' H. destruct (B e e' H) as (L & k & K & ?). split; [exact L|]. exists k. split; [lia|assumption].
    + destruct (IH (S i)) as [A B]. split.
      * change (last (idx i :: idx (S i) :: collect_edges idx (S (S i)) c (Some (idx (S i)))) O) with (last (idx (S i) :: collect_edges idx (S (S i)) c (Some (idx (S i)))) O). rewrite A. f_equal. lia.
      * intros e e' [H|H].
        -- injection H as <- <-. split; [specialize (MO i); lia|]. exists i. split; [lia|split; reflexivity].
        -- destruct (B e e' H) as (L & k & K & ?). split; [exact L|]. exists k. split; [lia|assumption].
Qed.
End Bins.
Lemma floordiv_spec x eps : 0 < eps -> 0 <= x -> INR (floordiv x eps) * eps <= x < (INR (floordiv x eps) + 1) * eps.
Proof.
  intros E X. unfold floordiv. assert (Q : 0 <= x / eps) by (apply Rmult_le_pos; [exact X|left; apply Rinv_0_lt_compat; exact E]).
  destruct (archimed (x / eps)) as [A B]. assert (U : (0 < up (x / eps))%Z) by (apply lt_IZR; lra).
  rewrite INR_IZR_INZ, Z2Nat.id by lia. rewrite minus_IZR. assert (Y : x = x / eps * eps) by (field; lra).
  split.
  - rewrite Y at 2. apply Rmult_le_compat_r; lra.
  - rewrite Y at 1. apply Rmult_lt_compat_r; lra.
Qed.
(** The edges run from the first to the last frequency of the band, strictly increasing, and within a bin
    (its upper edge excluded) the phase measure grows by less than the total over the number of bins, itself less than
    twice epsilon.  No bins at all, an error, exactly if the total is less than epsilon. *)
Theorem C123_bins d m eps : d O = 0 -> (forall i j, (i < j)%nat -> d i < d j) -> (1 <= m)%nat -> 0 < eps ->
  match bins d m eps with
  | None => d m < eps
  | Some l => eps <= d m /\ hd_error l = Some O /\ last l O = m /\ (2 <= length l)%nat /\
      exists N, (1 <= N)%nat /\ d m / INR N < 2 * eps /\ (length l <= S N)%nat /\
      forall e e', In (e, e') (combine l (tl l)) -> (e < e' <= m)%nat /\ forall j, (e <= j < e')%nat -> d j - d e < d m / INR N
  end.
Proof.
  intros D0 DI M E. pose proof (DI O m ltac:(lia)) as DM. rewrite D0 in DM.
  destruct (floordiv_spec (d m) eps E ltac:(lra)) as [F1 F2]. unfold bins. set (N := floordiv (d m) eps) in *.
  destruct (Nat.eqb_spec N 0) as [Z|Z]; [rewrite Z in F2; cbn in F2; lra|].
  assert (N1 : 1 <= INR N) by (change 1 with (INR 1); apply le_INR; lia).
  assert (EM : eps <= d m) by (apply Rle_trans with (INR N * eps); [|exact F1]; rewrite <- (Rmult_1_l eps) at 1; apply Rmult_le_compat_r; lra).
  set (idx := fun i => first_ge d (INR i / INR N * d m) 0 m).
  assert (MI : forall i, (i <= N)%nat -> INR i / INR N * d m <= d m).
  { intros i Hi. rewrite <- (Rmult_1_l (d m)) at 2. apply Rmult_le_compat_r; [lra|]. apply Rmult_le_reg_r with (INR N); [lra|]. unfold Rdiv. rewrite Rmult_assoc, Rinv_l by lra. rewrite Rmult_1_l, Rmult_1_r. apply le_INR, Hi. }
  (* beyond N the values are not used: make the index map monotone everywhere *)
  set (idx' := fun i => idx (Nat.min i N)).
  assert (SAME : forall cnt i l, (i + cnt <= S N)%nat -> collect_edges idx i cnt l = collect_edges idx' i cnt l).
  { induction cnt as [|c IH]; intros i l Hc; [reflexivity|]. cbn [collect_edges]. assert (X : idx' i = idx i) by (unfold idx'; rewrite Nat.min_l by lia; reflexivity). rewrite X.
    rewrite !IH by lia. reflexivity. }
  assert (MO : forall i, (idx' i <= idx' (S i))%nat).
  { intros i. unfold idx', idx. apply first_mono; [|apply MI; lia]. apply Rmult_le_compat_r; [lra|]. unfold Rdiv. apply Rmult_le_compat_r; [left; apply Rinv_0_lt_compat; lra|]. apply le_INR. lia. }
  assert (I0 : idx' O = O).
  { unfold idx', idx. cbn [Nat.min]. replace (INR 0 / INR N * d m) with 0 by (cbn; field; lra). destruct (first_spec d m 0 ltac:(lra)) as (_ & _ & C). destruct (first_ge d 0 0 m) as [|r]; [reflexivity|]. specialize (C O ltac:(lia)). lra. }
  assert (IN : idx' N = m).
  { unfold idx', idx. rewrite Nat.min_id. replace (INR N / INR N * d m) with (d m) by (field; lra). destruct (first_spec d m (d m) ltac:(lra)) as (A & B & _).
    destruct (Nat.eq_dec (first_ge d (d m) 0 m) m) as [e|n]; [exact e|]. pose proof (DI (first_ge d (d m) 0 m) m ltac:(lia)). lra. }
  rewrite (SAME (S N) O None ltac:(lia)). cbn [collect_edges]. rewrite I0.
  destruct (collect_spec idx' MO N O) as [LA PA]. cbv zeta in LA, PA. rewrite I0 in LA, PA. change (0 + N)%nat with N in LA. rewrite IN in LA.
  set (l := collect_edges idx' 1 N (Some O)) in *.
  split; [exact EM|]. split; [reflexivity|]. split; [exact LA|].
  split. { destruct l as [|x l']; [cbn in LA; lia|cbn; lia]. }
  exists N. split; [lia|]. split.
  { apply Rmult_lt_reg_r with (INR N); [lra|]. unfold Rdiv. rewrite Rmult_assoc, Rinv_l by lra. assert ((INR N + 1) * eps <= 2 * eps * INR N); [|lra]. assert (eps * 1 <= eps * INR N) by (apply Rmult_le_compat_l; lra). lra. }
  split.
  { unfold l. assert (LL : forall cnt i q, (length (collect_edges idx' i cnt q) <= cnt)%nat).
    { induction cnt as [|c IH]; intros i q; [cbn; lia|]. cbn [collect_edges]. destruct (match q with Some l0 => (idx' i =? l0)%nat | None => false end); [pose proof (IH (S i) q); lia|]. cbn [length]. pose proof (IH (S i) (Some (idx' i))). lia. }
    cbn [length]. pose proof (LL N 1%nat (Some O)). lia. }
  cbn [tl]. intros e e' H. destruct (PA e e' H) as (L & k & K & Ee & Ee'). subst e e'.
  assert (UP : (idx' (S k) <= m)%nat) by (unfold idx', idx; apply first_spec, MI; lia).
  split; [lia|]. intros j Hj. unfold idx', idx in Hj |- *. rewrite Nat.min_l in Hj |- * by lia. rewrite (Nat.min_l (S k)) in Hj by lia.
  destruct (first_spec d m (INR k / INR N * d m) (MI k ltac:(lia))) as (_ & B & _).
  destruct (first_spec d m (INR (S k) / INR N * d m) (MI (S k) ltac:(lia))) as (_ & _ & C). specialize (C j ltac:(lia)).
  rewrite S_INR in C. replace ((INR k + 1) / INR N * d m) with (INR k / INR N * d m + d m / INR N) in C by (field; lra). lra.
Qed.
Example C123_example : exists N, (1 <= N)%nat /\ bins (fun j => INR j) 4 2 = Some (collect_edges (fun i => first_ge (fun j => INR j) (INR i / INR N * 4) 0 4) 0 (S N) None) /\ N = 2%nat.
Proof.
  exists 2%nat. split; [lia|]. split; [|reflexivity]. unfold bins.
  assert (F : floordiv (INR 4) 2 = 2%nat).
  { destruct (floordiv_spec (INR 4) 2) as [A B]; [lra|cbn; lra|]. set (n := floordiv (INR 4) 2) in *. clearbody n.
    assert (INR n < INR 3) by (cbn in *; lra). assert (INR 1 < INR n) by (cbn in *; lra). apply INR_lt in H, H0. lia. }
  rewrite F. cbn [Nat.eqb]. replace (INR 4) with 4 by (cbn; lra). reflexivity.
Qed.

(** ** sums *)
Open Scope C_scope.
Lemma crange_split s a b g : crange s (a + b) g = crange s a g + crange (s + a) b g.
Proof.
  revert s. induction a as [|a IH]; intros s; cbn [Nat.add crange]; [rewrite Nat.add_0_r, Cplus_0_l; reflexivity|].
  rewrite IH. replace (S s + a)%nat with (s + S a)%nat by lia. rewrite Cplus_assoc. reflexivity.
Qed.
Lemma crange_ext s n g g' : (forall j, (s <= j < s + n)%nat -> g j = g' j) -> crange s n g = crange s n g'.
Proof. revert s. induction n as [|n IH]; intros s H; cbn [crange]; [reflexivity|]. rewrite H by lia. rewrite IH by (intros; apply H; lia). reflexivity. Qed.
Lemma crange_plus s n g g' : crange s n (fun j => g j + g' j) = crange s n g + crange s n g'.
Proof. revert s. induction n as [|n IH]; intros s; cbn [crange]; [ring|]. rewrite IH. ring. Qed.
Lemma crange_scal c s n g : crange s n (fun j => c * g j) = c * crange s n g.
Proof. revert s. induction n as [|n IH]; intros s; cbn [crange]; [ring|]. rewrite IH. ring. Qed.
Lemma conj_RtoC x : Cconj (RtoC x) = RtoC x.
Proof. unfold Cconj, RtoC; cbn. f_equal. ring. Qed.
Lemma conj_plus a b : Cconj (a + b) = Cconj a + Cconj b.
Proof. destruct a, b. unfold Cconj, Cplus; cbn. f_equal. ring. Qed.
Lemma conj_mult a b : Cconj (a * b) = Cconj a * Cconj b.
Proof. destruct a, b. unfold Cconj, Cmult; cbn. f_equal; ring. Qed.

Lemma two : RtoC 2 = 1 + 1.
Proof. unfold RtoC, Cplus; cbn. f_equal; ring. Qed.
Lemma two_nz : 1 + 1 <> 0.
Proof. rewrite <- two. intros Z. apply RtoC_inj in Z. lra. Qed.
Section D.
Variable T : R.
Variable f psd : nat -> R.
Variable h0 dat strain : nat -> C.
Notation nw := (nwip T psd).
Lemma nw_split s m e a b : (s <= m <= e)%nat -> nw s e a b = nw s m a b + nw m e a b.
Proof. intros H. unfold nwip. replace (e - s)%nat with ((m - s) + (e - m))%nat by lia. rewrite crange_split. replace (s + (m - s))%nat with m by lia. ring. Qed.
Lemma nw_ext s e a b a' b' : (forall j, (s <= j < e)%nat -> a j = a' j /\ b j = b' j) -> nw s e a b = nw s e a' b'.
Proof. intros H. unfold nwip. f_equal. apply crange_ext. intros j Hj. destruct (H j ltac:(lia)) as [-> ->]. reflexivity. Qed.
(** the waveform whose ratio to the fiducial one is linear in the bin *)
Definition lin (e e' p j : nat) : C := r0 h0 strain e e' + r1 f h0 strain e e' * RtoC (delta f e p j).
Lemma bin_d e e' p : a0 T psd h0 dat e p * Cconj (r0 h0 strain e e') + a1 T f psd h0 dat e p * Cconj (r1 f h0 strain e e') =
  nw e p (fun j => h0 j * lin e e' p j) dat.
Proof.
  unfold a0, a1, nwip.
  replace (RtoC (4 / T) * crange e (p - e) (fun j => Cconj (h0 j) * dat j / RtoC (psd j)) * Cconj (r0 h0 strain e e') +
     RtoC (4 / T) * crange e (p - e) (fun j => Cconj (h0 j) * (dat j * RtoC (delta f e p j)) / RtoC (psd j)) * Cconj (r1 f h0 strain e e'))
   with (RtoC (4 / T) * (Cconj (r0 h0 strain e e') * crange e (p - e) (fun j => Cconj (h0 j) * dat j / RtoC (psd j)) +
     Cconj (r1 f h0 strain e e') * crange e (p - e) (fun j => Cconj (h0 j) * (dat j * RtoC (delta f e p j)) / RtoC (psd j)))) by ring.
  f_equal. rewrite <- !crange_scal, <- crange_plus. apply crange_ext. intros j _. unfold lin. rewrite conj_mult, conj_plus, conj_mult, conj_RtoC. unfold Cdiv. ring.
Qed.
Lemma mod2 z : RtoC (Cmod z ^ 2) = z * Cconj z.
Proof.
  destruct z as [x y]. unfold Cmod. cbn [fst snd]. rewrite pow2_sqrt by (pose proof (pow2_ge_0 x); pose proof (pow2_ge_0 y); lra).
  unfold RtoC, Cconj, Cmult; cbn. f_equal; ring.
Qed.
Lemma re2 z : RtoC 2 * RtoC (Re z) = z + Cconj z.
Proof. destruct z as [x y]. unfold RtoC, Cconj, Cmult, Cplus; cbn. f_equal; ring. Qed.
Lemma conj_conj z : Cconj (Cconj z) = z.
Proof. destruct z. unfold Cconj; cbn. f_equal. ring. Qed.
(** second moment of the bin, dropped by the approximation *)
Definition second (e e' p : nat) : R := (4 / T * Cmod (r1 f h0 strain e e') ^ 2)%R.
Definition moment (e p : nat) : C := crange e (p - e) (fun j => Cconj (h0 j) * h0 j * RtoC (delta f e p j ^ 2) / RtoC (psd j)).
Lemma bin_h e e' p : b0 T psd h0 e p * RtoC (Cmod (r0 h0 strain e e') ^ 2) + RtoC 2 * b1 T f psd h0 e p * RtoC (Re (r0 h0 strain e e' * Cconj (r1 f h0 strain e e'))) +
   RtoC (second e e' p) * moment e p =
  nw e p (fun j => h0 j * lin e e' p j) (fun j => h0 j * lin e e' p j).
Proof.
  set (x := r0 h0 strain e e'). set (y := r1 f h0 strain e e').
  assert (E2 : RtoC (second e e' p) = RtoC (4 / T) * (y * Cconj y)) by (unfold second; fold y; rewrite RtoC_mult, mod2; reflexivity).
  replace (RtoC 2 * b1 T f psd h0 e p * RtoC (Re (x * Cconj y))) with (b1 T f psd h0 e p * (RtoC 2 * RtoC (Re (x * Cconj y)))) by ring.
  rewrite re2, mod2, E2, conj_mult, conj_conj. unfold b0, b1, nwip, moment.
  match goal with |- ?k * ?A * ?u + ?k * ?B * ?v + ?k * ?w * ?D = ?k * ?R => replace (k * A * u + k * B * v + k * w * D) with (k * (u * A + v * B + w * D)) by ring end.
  f_equal. rewrite <- !crange_scal, <- !crange_plus. apply crange_ext. intros j _. unfold lin. fold x y. rewrite conj_mult, conj_plus, conj_mult, conj_RtoC.
  replace (RtoC (delta f e p j ^ 2)) with (RtoC (delta f e p j) * RtoC (delta f e p j)) by (rewrite <- RtoC_mult; f_equal; ring).
  unfold Cdiv. ring.
Qed.

(** the same, over all bins: the waveform used, with the last bin's centre half a step further *)
Fixpoint used (edges : list nat) (j : nat) : C :=
  match edges with
  | e :: ((e' :: t) as rest) => if Nat.ltb j (stop e' t) then lin e e' (stop e' t) j else used rest j
  | _ => 0
  end.
Fixpoint seconds (edges : list nat) : C :=
  match edges with
  | e :: ((e' :: t) as rest) => RtoC (second e e' (stop e' t)) * moment e (stop e' t) + seconds rest
  | _ => 0
  end.
Definition increasing (edges : list nat) : Prop := forall e e', In (e, e') (combine edges (tl edges)) -> (e < e')%nat.
Lemma increasing_tl a t : increasing (a :: t) -> increasing t.
Proof. intros H e e' I. apply H. destruct t as [|b t]; [destruct I|]. right. exact I. Qed.
Lemma increasing_last edges : forall e t, edges = e :: t -> increasing edges -> (e <= last edges 0)%nat.
Proof.
  induction edges as [|a l IH]; intros e t E H; [discriminate|]. injection E as <- ->. destruct t as [|b t']; [cbn; lia|].
  pose proof (H a b (or_introl eq_refl)). pose proof (IH b t' eq_refl (increasing_tl _ _ H)). change (last (a :: b :: t') 0%nat) with (last (b :: t') 0%nat). lia.
Qed.
Lemma d_used edges : forall e t, edges = e :: t -> t <> [] -> increasing edges ->
  d_inner_h T f psd h0 dat strain edges = nw e (S (last edges 0%nat)) (fun j => h0 j * used edges j) dat /\
  h_inner_h T f psd h0 strain edges + seconds edges = nw e (S (last edges 0%nat)) (fun j => h0 j * used edges j) (fun j => h0 j * used edges j).
Proof.
  induction edges as [|a l IH]; intros e t E NT H; [discriminate|]. injection E as <- ->. destruct t as [|b t]; [contradiction|].
  pose proof (H a b (or_introl eq_refl)) as AB. destruct t as [|c t].
  - cbn [d_inner_h h_inner_h seconds stop last]. split.
    + rewrite bin_d, Cplus_0_r. apply nw_ext. intros j Hj. split; [|reflexivity]. cbn [used stop]. destruct (Nat.ltb_spec j (S b)); [reflexivity|lia].
    + rewrite !Cplus_0_r. rewrite bin_h. apply nw_ext. intros j Hj. cbn [used stop]. destruct (Nat.ltb_spec j (S b)); [split; reflexivity|lia].
  - destruct (IH b (c :: t) eq_refl ltac:(discriminate) (increasing_tl _ _ H)) as [E1 E2].
    pose proof (increasing_last (b :: c :: t) b (c :: t) eq_refl (increasing_tl _ _ H)) as L.
    change (last (a :: b :: c :: t) 0%nat) with (last (b :: c :: t) 0%nat). set (z := last (b :: c :: t) 0%nat) in *.
    assert (U1 : forall j, (j < b)%nat -> used (a :: b :: c :: t) j = lin a b b j) by (intros j Hj; cbn [used stop]; destruct (Nat.ltb_spec j b); [reflexivity|lia]).
    assert (U2 : forall j, (b <= j)%nat -> used (a :: b :: c :: t) j = used (b :: c :: t) j) by (intros j Hj; cbn [used stop]; destruct (Nat.ltb_spec j b); [lia|reflexivity]).
    split.
    + cbn [d_inner_h]. change (d_inner_h T f psd h0 dat strain (b :: c :: t)) with (d_inner_h T f psd h0 dat strain (b :: c :: t)). cbn [stop].
      rewrite (nw_split a b (S z)) by lia. change (match t with | [] => 0 | _ => 0 end) with 0.
      fold (d_inner_h T f psd h0 dat strain (b :: c :: t)). rewrite bin_d. f_equal.
      * apply nw_ext. intros j Hj. rewrite U1 by lia. split; reflexivity.
      * etransitivity; [exact E1|]. apply nw_ext. intros j Hj. rewrite U2 by lia. split; reflexivity.
    + rewrite (nw_split a b (S z)) by lia.
      transitivity ((b0 T psd h0 a b * RtoC (Cmod (r0 h0 strain a b) ^ 2) + RtoC 2 * b1 T f psd h0 a b * RtoC (Re (r0 h0 strain a b * Cconj (r1 f h0 strain a b))) + RtoC (second a b b) * moment a b) + (h_inner_h T f psd h0 strain (b :: c :: t) + seconds (b :: c :: t))).
      { change (h_inner_h T f psd h0 strain (a :: b :: c :: t)) with (b0 T psd h0 a b * RtoC (Cmod (r0 h0 strain a b) ^ 2) + RtoC 2 * b1 T f psd h0 a b * RtoC (Re (r0 h0 strain a b * Cconj (r1 f h0 strain a b))) + h_inner_h T f psd h0 strain (b :: c :: t)).
        change (seconds (a :: b :: c :: t)) with (RtoC (second a b b) * moment a b + seconds (b :: c :: t)). ring. }
      rewrite bin_h, E2. f_equal; apply nw_ext; intros j Hj; [rewrite U1 by lia|rewrite U2 by lia]; split; reflexivity.
Qed.
Lemma moment_real e p : (forall j, (0 < psd j)%R) -> exists q, moment e p = RtoC q /\ (0 <= q)%R.
Proof.
  intros P. unfold moment. generalize (p - e)%nat as n. intros n. assert (G : forall s, exists q, crange s n (fun j => Cconj (h0 j) * h0 j * RtoC (delta f e p j ^ 2) / RtoC (psd j)) = RtoC q /\ (0 <= q)%R).
  { induction n as [|n IH]; intros s; cbn [crange]; [exists 0%R; split; [reflexivity|lra]|]. destruct (IH (S s)) as (q & -> & Q).
    exists (Cmod (h0 s) ^ 2 * delta f e p s ^ 2 / psd s + q)%R. split.
    - rewrite RtoC_plus. f_equal. unfold Rdiv. rewrite !RtoC_mult, RtoC_inv, mod2 by (apply Rgt_not_eq, P). unfold Cdiv. ring.
    - assert (0 <= Cmod (h0 s) ^ 2 * delta f e p s ^ 2 / psd s)%R; [|lra]. apply Rmult_le_pos; [apply Rmult_le_pos; apply pow2_ge_0|left; apply Rinv_0_lt_compat, P]. }
  apply G.
Qed.

(** ** C124 the inner products *)
(** Both numbers belong to one waveform [w], the fiducial one times a ratio linear in every bin: the data product is
    exact for it, and the power is too small by the second moments of the bins. *)
Theorem C124_inner_products edges : (2 <= length edges)%nat -> increasing edges -> (0 < T)%R -> (forall j, (0 < psd j)%R) ->
  exists (w : nat -> C) (missing : R), (0 <= missing)%R /\
  (forall j, w j = h0 j * used edges j) /\
  d_inner_h T f psd h0 dat strain edges = nw (hd 0%nat edges) (S (last edges 0%nat)) w dat /\
  h_inner_h T f psd h0 strain edges = nw (hd 0%nat edges) (S (last edges 0%nat)) w w - RtoC missing.
Proof.
  intros L H TP P. destruct edges as [|e t]; [cbn in L; lia|]. assert (NT : t <> []) by (intros ->; cbn in L; lia).
  destruct (d_used (e :: t) e t eq_refl NT H) as [E1 E2].
  assert (SE : forall l, exists q, seconds l = RtoC q /\ (0 <= q)%R).
  { induction l as [|a [|b l] IH]; try (exists 0%R; split; [reflexivity|lra]). cbn [seconds]. destruct IH as (q & Eq & Q). destruct (moment_real a (stop b l) P) as (q' & E' & Q').
    exists (second a b (stop b l) * q' + q)%R. rewrite RtoC_plus, RtoC_mult, <- E'. split; [f_equal; exact Eq|].
    assert (0 <= second a b (stop b l) * q')%R; [|lra]. apply Rmult_le_pos; [|exact Q']. unfold second. apply Rmult_le_pos; [|apply pow2_ge_0]. left. apply Rdiv_lt_0_compat; lra. }
  destruct (SE (e :: t)) as (q & Eq & Q). exists (fun j => h0 j * used (e :: t) j), q. split; [exact Q|]. split; [reflexivity|]. split; [exact E1|].
  cbn [hd]. rewrite <- E2, Eq. ring.
Qed.
(** a ratio constant in frequency: both are the exact inner products *)
Theorem C124_constant_ratio edges c : (2 <= length edges)%nat -> increasing edges ->
  (forall e, In e edges -> strain e = c * h0 e /\ h0 e <> 0) ->
  let n := S (last edges 0%nat) in let s := hd 0%nat edges in
  d_inner_h T f psd h0 dat strain edges = nw s n (fun j => c * h0 j) dat /\
  h_inner_h T f psd h0 strain edges = nw s n (fun j => c * h0 j) (fun j => c * h0 j).
Proof.
  intros L H HC n s. destruct edges as [|e t]; [cbn in L; lia|]. assert (NT : t <> []) by (intros ->; cbn in L; lia).
  destruct (d_used (e :: t) e t eq_refl NT H) as [E1 E2].
  assert (RH : forall x, In x (e :: t) -> rho h0 strain x = c).
  { intros x I. destruct (HC x I) as [E Z]. unfold rho. rewrite E. field. exact Z. }
  assert (R0 : forall x y, In x (e :: t) -> In y (e :: t) -> r0 h0 strain x y = c).
  { intros x y Ix Iy. unfold r0. rewrite !RH by assumption. rewrite two. field. exact two_nz. }
  assert (R1 : forall x y, In x (e :: t) -> In y (e :: t) -> r1 f h0 strain x y = 0).
  { intros x y Ix Iy. unfold r1. rewrite !RH by assumption. unfold Cdiv. replace (c - c) with (RtoC 0) by ring. ring. }
  assert (US : forall l j, (forall x, In x l -> In x (e :: t)) -> (2 <= length l)%nat -> (j < S (last l 0%nat))%nat -> used l j = c).
  { induction l as [|a [|b l] IH]; intros j I LL Lj; try (cbn in LL; lia). cbn [used]. destruct (Nat.ltb_spec j (stop b l)) as [J|J].
    - unfold lin. rewrite R0, R1 by (apply I; cbn; tauto). ring.
    - destruct l as [|b2 l]; [cbn in J, Lj; lia|]. apply IH; [intros x Hx; apply I; right; exact Hx|cbn; lia|exact Lj]. }
  assert (SZ : forall l, (forall x, In x l -> In x (e :: t)) -> seconds l = 0).
  { induction l as [|a [|b l] IH]; intros I; try reflexivity. change (seconds (a :: b :: l)) with (RtoC (second a b (stop b l)) * moment a (stop b l) + seconds (b :: l)). rewrite IH by (intros x Hx; apply I; right; exact Hx). unfold second. rewrite R1 by (apply I; cbn; tauto). rewrite Cmod_0. replace (4 / T * 0 ^ 2)%R with 0%R by ring. ring. }
  rewrite (SZ (e :: t)) in E2 by auto. rewrite Cplus_0_r in E2. subst n s. cbn [hd].
  split; [rewrite E1|rewrite E2]; apply nw_ext; intros j Hj; rewrite (US (e :: t) j (fun x h => h) L ltac:(lia)); split; try reflexivity; ring.
Qed.

(** ** C125 the waveform on all frequencies *)
Lemma edge_values e e' : f e' <> f e -> r0 h0 strain e e' + r1 f h0 strain e e' * RtoC (delta f e e' e) = rho h0 strain e /\
  r0 h0 strain e e' + r1 f h0 strain e e' * RtoC (delta f e e' e') = rho h0 strain e'.
Proof.
  intros N. unfold r0, r1, delta, centre. assert (Z : RtoC (f e' - f e) <> 0) by (intros Z; apply RtoC_inj in Z; lra).
  replace (f e - (f e + f e') / 2)%R with (- ((f e' - f e) / 2))%R by field. replace (f e' - (f e + f e') / 2)%R with ((f e' - f e) / 2)%R by field.
  unfold Rdiv. rewrite RtoC_opp, RtoC_mult, RtoC_inv by lra. rewrite two. pose proof two_nz. split; field; auto.
Qed.
Lemma ratio_cons a b l j : ratio_at f h0 strain (a :: b :: l) j = if Nat.ltb j a then 0 else if Nat.ltb j (stop b l) then r0 h0 strain a b + r1 f h0 strain a b * RtoC (delta f a b j) else ratio_at f h0 strain (b :: l) j.
Proof. reflexivity. Qed.
Lemma ratio_edge edges : increasing edges -> (forall i j, (i < j)%nat -> (f i < f j)%R) -> (2 <= length edges)%nat -> forall e, In e edges -> ratio_at f h0 strain edges e = rho h0 strain e.
Proof.
  intros H FI. induction edges as [|a [|b l] IH]; intros LL e I; try (cbn in LL; lia).
  pose proof (H a b (or_introl eq_refl)) as AB. pose proof (FI a b AB) as FAB. destruct (edge_values a b ltac:(lra)) as [V1 V2]. rewrite ratio_cons.
  destruct I as [<-|I].
  - rewrite Nat.ltb_irrefl. destruct (Nat.ltb_spec a (stop b l)) as [J|J]; [exact V1|]. exfalso. destruct l; cbn [stop] in J; lia.
  - assert (AE : (b <= e)%nat).
    { clear - H I. revert I. assert (G : forall l, increasing l -> forall x t y, l = x :: t -> In y l -> (x <= y)%nat).
      { clear. induction l as [|q l IH]; intros H x t y E I; [discriminate|]. injection E as -> ->. destruct I as [->|I]; [lia|]. destruct t as [|b t]; [destruct I|]. pose proof (H x b (or_introl eq_refl)). pose proof (IH (increasing_tl _ _ H) b t y eq_refl I). lia. }
      intros I. exact (G _ (increasing_tl _ _ H) b l e eq_refl I). }
    destruct (Nat.ltb_spec e a); [lia|]. destruct l as [|c l].
    + destruct I as [<-|[]]. cbn [stop]. destruct (Nat.ltb_spec b (S b)); [exact V2|lia].
    + cbn [stop]. destruct (Nat.ltb_spec e b); [lia|]. apply IH; [exact (increasing_tl _ _ H)|cbn; lia|exact I].
Qed.
(** it agrees with the requested waveform at the edges, vanishes outside, and is exact in between where the ratio is linear *)
Theorem C125_edges edges e : increasing edges -> (forall i j, (i < j)%nat -> (f i < f j)%R) -> (2 <= length edges)%nat -> In e edges -> h0 e <> 0 ->
  full_waveform f h0 strain edges e = strain e.
Proof. intros H FI L I Z. unfold full_waveform. rewrite ratio_edge by assumption. unfold rho. field. exact Z. Qed.
Theorem C125_outside edges j : increasing edges -> (2 <= length edges)%nat -> (j < hd 0 edges \/ last edges 0 < j)%nat -> full_waveform f h0 strain edges j = 0.
Proof.
  intros H L O. unfold full_waveform. assert (Z : ratio_at f h0 strain edges j = 0); [|rewrite Z; ring].
  destruct O as [O|O].
  - destruct edges as [|a [|b l]]; try reflexivity. cbn in O. rewrite ratio_cons. destruct (Nat.ltb_spec j a); [reflexivity|lia].
  - induction edges as [|a [|b l] IH]; try reflexivity. rewrite ratio_cons. destruct (Nat.ltb_spec j a); [reflexivity|].
    pose proof (increasing_last (b :: l) b l eq_refl (increasing_tl _ _ H)) as LB. change (last (a :: b :: l) 0%nat) with (last (b :: l) 0%nat) in O.
    destruct (Nat.ltb_spec j (stop b l)) as [J|J]; [exfalso; assert (stop b l <= S (last (b :: l) 0))%nat by (destruct l; [cbn; lia|exact (Nat.le_trans _ _ _ LB (Nat.le_succ_diag_r _))]); lia|].
    destruct l as [|c l]; [reflexivity|]. apply IH; [exact (increasing_tl _ _ H)|cbn; lia|exact O].
Qed.
Theorem C125_linear edges (c0 c1 : C) j : increasing edges -> (forall i j, (i < j)%nat -> (f i < f j)%R) -> (2 <= length edges)%nat ->
  (forall e, In e edges -> strain e = (c0 + c1 * RtoC (f e)) * h0 e /\ h0 e <> 0) -> (hd 0 edges <= j <= last edges 0)%nat ->
  full_waveform f h0 strain edges j = (c0 + c1 * RtoC (f j)) * h0 j.
Proof using f h0 strain.
  clear dat psd. intros H FI L HC. revert j. unfold full_waveform.
  assert (G : forall j, (hd 0 edges <= j <= last edges 0)%nat -> ratio_at f h0 strain edges j = c0 + c1 * RtoC (f j)); [|intros j Hj; rewrite G by exact Hj; ring].
  revert H L HC. induction edges as [|a [|b l] IH]; intros H L HC j Hj; try (cbn in L; lia).
  pose proof (H a b (or_introl eq_refl)) as AB. pose proof (FI a b AB) as FAB. cbn [hd] in Hj. rewrite ratio_cons. destruct (Nat.ltb_spec j a); [lia|].
  destruct (Nat.ltb_spec j (stop b l)) as [J|J].
  - assert (RH : forall x, In x (a :: b :: l) -> rho h0 strain x = c0 + c1 * RtoC (f x)). { intros x I. destruct (HC x I) as [E Z]. unfold rho. rewrite E. field. exact Z. }
    unfold r0, r1, delta, centre. rewrite !RH by (cbn; tauto). assert (Z : RtoC (f b - f a) <> 0) by (intros Z; apply RtoC_inj in Z; lra).
    unfold Rdiv. rewrite RtoC_minus in Z. rewrite !RtoC_minus, RtoC_mult, RtoC_inv, RtoC_plus by lra. rewrite two. pose proof two_nz. field. auto.
  - destruct l as [|c l]; [cbn [stop] in J; cbn in Hj; lia|]. apply IH; [exact (increasing_tl _ _ H)|cbn; lia|intros e I; apply HC; right; exact I|].
    cbn [stop] in J. change (last (a :: b :: c :: l) 0%nat) with (last (b :: c :: l) 0%nat) in Hj. cbn [hd]. lia.
Qed.
End D.
(** the two waveforms differ in the last bin: the inner products shift it by half a frequency step *)
Theorem C124_last_bin_refuted T f psd h0 dat strain e e' j : (e <= j <= e')%nat ->
  used f h0 strain [e; e'] j = ratio_at f h0 strain [e; e'] j - r1 f h0 strain e e' * RtoC ((f (S e') - f e') / 2) /\
  d_inner_h T f psd h0 dat strain [e; e'] =
    nwip T psd e (S e') (full_waveform f h0 strain [e; e']) dat - Cconj (r1 f h0 strain e e') * RtoC ((f (S e') - f e') / 2) * a0 T psd h0 dat e (S e').
Proof.
  intros Hj.
  assert (U : forall j, (e <= j <= e')%nat -> used f h0 strain [e; e'] j = ratio_at f h0 strain [e; e'] j - r1 f h0 strain e e' * RtoC ((f (S e') - f e') / 2)).
  { intros i Hi. cbn [used ratio_at stop]. destruct (Nat.ltb_spec i (S e')); [|lia]. destruct (Nat.ltb_spec i e); [lia|]. unfold lin, delta, centre.
    replace (f i - (f e + f (S e')) / 2)%R with ((f i - (f e + f e') / 2) - (f (S e') - f e') / 2)%R by field. rewrite RtoC_minus. ring. }
  split; [apply U; exact Hj|].
  cbn [d_inner_h stop]. rewrite bin_d, Cplus_0_r. unfold a0, nwip.
  match goal with |- ?k * ?A = ?k * ?B - ?x * ?y * (?k * ?D) => replace (k * B - x * y * (k * D)) with (k * (B + (- (x * y)) * D)) by ring end.
  f_equal. rewrite <- crange_scal, <- crange_plus. apply crange_ext. intros i Hi.
  assert (Hi2 : (e <= i <= e')%nat) by lia. specialize (U i Hi2). cbn [used stop] in U. destruct (Nat.ltb_spec i (S e')); [|lia]. rewrite U. unfold full_waveform.
  replace (h0 i * (ratio_at f h0 strain [e; e'] i - r1 f h0 strain e e' * RtoC ((f (S e') - f e') / 2))) with (h0 i * ratio_at f h0 strain [e; e'] i + (- RtoC ((f (S e') - f e') / 2)) * (h0 i * r1 f h0 strain e e')) by ring.
  rewrite conj_plus, !conj_mult. rewrite <- RtoC_opp, conj_RtoC, RtoC_opp. unfold Cdiv. ring.
Qed.
(** a number: fiducial waveform and data one, ratio 1 + frequency, at two frequencies: 2 instead of 3 *)
Theorem C124_linear_ratio_refuted : let f := INR in let one := fun _ : nat => RtoC 1 in let strain := fun j => RtoC (1 + INR j) in
  d_inner_h 4 f (fun _ => 1%R) one one strain [0; 1]%nat = RtoC 2 /\ nwip 4 (fun _ => 1%R) 0 2 strain one = RtoC 3.
Proof.
  cbv zeta. split.
  - cbn [d_inner_h stop]. unfold a0, a1, nwip, r0, r1, rho, delta, centre. cbn [Nat.sub crange INR]. 
    unfold Cconj, Cplus, Cminus, Cdiv, Cmult, Cinv, Copp, RtoC; cbn. f_equal; field.
  - unfold nwip. cbn [Nat.sub crange INR]. unfold Cconj, Cplus, Cminus, Cdiv, Cmult, Cinv, Copp, RtoC; cbn. f_equal; field.
Qed.
(** the frequency after the last edge is read: with bins up to the last frequency of the band this is an error *)
Theorem C124_band_end_refuted T f psd h0 dat strain d m eps edges n :
  d O = 0%R -> (forall i j, (i < j)%nat -> (d i < d j)%R) -> (1 <= m)%nat -> (0 < eps)%R -> bins d m eps = Some edges ->
  (n = S m -> summary T f psd h0 dat strain n edges = None) /\
  ((S m < n)%nat -> summary T f psd h0 dat strain n edges = Some (d_inner_h T f psd h0 dat strain edges, h_inner_h T f psd h0 strain edges)).
Proof.
  intros D0 DI M E B. pose proof (C123_bins d m eps D0 DI M E) as S. rewrite B in S. destruct S as (_ & _ & L & _).
  unfold summary. rewrite L. split.
  - intros ->. rewrite Nat.ltb_irrefl. reflexivity.
  - intros H. apply Nat.ltb_lt in H. rewrite H. reflexivity.
Qed.
Example C124_example : (* the fiducial waveform itself, three points, two bins *)
  let h := fun j => RtoC (1 + INR j) in let d := fun _ : nat => RtoC 1 in
  d_inner_h 4 INR (fun _ => 1%R) h d h [0; 1; 2]%nat = RtoC 6 /\ h_inner_h 4 INR (fun _ => 1%R) h h [0; 1; 2]%nat = RtoC 14.
Proof.
  cbv zeta. set (h := fun j => RtoC (1 + INR j)).
  assert (NZ : forall e, h e <> 0) by (intros e Z; unfold h in Z; apply RtoC_inj in Z; pose proof (pos_INR e); lra).
  destruct (C124_constant_ratio 4 INR (fun _ => 1%R) h (fun _ => RtoC 1) h [0; 1; 2]%nat 1) as [A B].
  - cbn; lia.
  - intros e e' [I|[I|[]]]; injection I as <- <-; lia.
  - intros e _. split; [ring|apply NZ].
  - cbn [last hd] in A, B. rewrite A, B. unfold nwip. cbn [Nat.sub crange]. unfold h. cbn [INR].
    split; unfold Cconj, Cplus, Cminus, Cdiv, Cmult, Cinv, Copp, RtoC; cbn; f_equal; field.
Qed.
Example C125_example : full_waveform INR (fun _ => RtoC 1) (fun j => RtoC (INR j)) [0; 4]%nat 3 = RtoC 3.
Proof.
  rewrite (C125_linear INR (fun _ => RtoC 1) (fun j => RtoC (INR j)) [0; 4]%nat 0 1 3).
  - replace (INR 3) with 3%R by (cbn; lra). ring.
  - intros e e' [I|[]]. injection I as <- <-. lia.
  - intros i j. apply lt_INR.
  - cbn; lia.
  - intros e _. split; [ring|]. intros Z. apply RtoC_inj in Z. lra.
  - cbn; lia.
Qed.
Close Scope C_scope.

(** ** C126 the search for better fiducial parameters *)
(** between one and [n] iterations; all but the last raised the likelihood by at least 0.1, and the loop ended early only without such a rise *)
Theorem C126_iterations like n : (1 <= n)%nat -> let k := maximise like 0 n in
  (1 <= k <= n)%nat /\ (forall i, (S i < k)%nat -> like i + 1/10 <= like (S i)) /\ ((k < n)%nat -> like k < like (k - 1)%nat + 1/10).
Proof.
  intros N. assert (G : forall left k0, let k := maximise like k0 left in
    (k0 <= k <= k0 + left)%nat /\ ((1 <= left)%nat -> (k0 < k)%nat) /\ (forall i, (k0 <= i)%nat -> (S i < k)%nat -> like i + 1/10 <= like (S i)) /\ ((k < k0 + left)%nat -> like k < like (k - 1)%nat + 1/10)).
  { induction left as [|l IH]; intros k0; cbn [maximise]; cbv zeta.
    - split; [lia|]. split; [lia|]. split; intros; lia.
    - destruct (Rlt_dec (like (S k0) - like k0) (1/10)) as [H|H].
      + split; [lia|]. split; [lia|]. split; [intros; lia|]. intros _. cbn. rewrite Nat.sub_0_r. lra.
      + destruct (IH (S k0)) as (A & B & C & D). split; [lia|]. split; [lia|]. split.
        * intros i L1 L2. destruct (Nat.eq_dec i k0) as [->|X]; [lra|]. apply C; lia.
        * intros L. apply D. lia. }
  destruct (G n O) as (A & B & C & D). cbv zeta in *. split; [specialize (B N); lia|]. split; [intros i L; apply C; lia|]. intros L. apply D. lia.
Qed.
(** the parameters of the last iteration are kept even if they are worse than all before *)
Theorem C126_worse_refuted : exists like, maximise like 0 5 = 1%nat /\ like 1%nat < like 0%nat.
Proof. exists (fun k => match k with O => 10 | _ => -5 end). split; [|lra]. cbn. destruct Rlt_dec; [reflexivity|lra]. Qed.
Example C126_example : maximise (fun k => match k with O => 0 | 1%nat => 5 | _ => 5 + 1/20 end) 0 5 = 2%nat.
Proof. cbn. destruct Rlt_dec; [lra|]. destruct Rlt_dec; [reflexivity|lra]. Qed.

(** ** Assumptions of every theorem above *)
Definition Relbin_Props_all :=
  (@C123_phase_grows,
   @C123_bins,
   @C124_inner_products,
   @C124_constant_ratio,
   @C125_edges,
   @C125_outside,
   @C125_linear,
   @C124_last_bin_refuted,
   @C124_linear_ratio_refuted,
   @C124_band_end_refuted,
   @C126_iterations,
   @C126_worse_refuted).
Print Assumptions Relbin_Props_all.
