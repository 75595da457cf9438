(** * Autocorrelation time, thinning and number of samples of a chain (C202) *)
From Coq Require Import Reals Lra Lia List Bool ZArith Arith.
From Verif Require Import Mband_Model Ensemble_Model Ensemble2_Props Ifo_Model Samples_Model Result_Proofs Tau_Model Tau_Props.
Import ListNotations.
Open Scope list_scope.
Open Scope R_scope.

Section Taus.
Variable act : list R -> option R.
Variable st : settings.
Hypothesis discard_nonneg : (0 <= discard st)%Z.

Lemma largest_spec l t : l <> [] -> largest l = Some t -> (forall o, In o l -> exists v, o = Some v /\ v <= t) /\ In (Some t) l.
Proof using Type.
  revert t. induction l as [|o l IH]; intros t N H; [contradiction|]. destruct l as [|o2 l].
  - cbn in H. subst o. split; [intros o [<-|[]]; exists t; split; [reflexivity|lra]|left; reflexivity].
  - change (max_tau o (largest (o2 :: l)) = Some t) in H. unfold max_tau in H. destruct o as [x|]; [|discriminate]. destruct (largest (o2 :: l)) as [y|] eqn:E; [|discriminate]. destruct (IH y ltac:(discriminate) eq_refl) as [A B].
    assert (T : Rmax x y = t) by congruence. subst t. split.
    + intros o [<-|I]; [exists x; split; [reflexivity|apply Rmax_l]|]. destruct (A o I) as (v & -> & V). exists v. split; [reflexivity|pose proof (Rmax_r x y); lra].
    + destruct (Rmax_Rle x y (Rmax x y)) as [D _]. destruct (D (Rle_refl _)) as [L|L].
      * left. f_equal. apply Rle_antisym; [apply Rmax_l|assumption].
      * right. replace (Rmax x y) with y by (apply Rle_antisym; [apply Rmax_r|assumption]). exact B.
Qed.
Lemma largest_none l : In None l -> largest l = None.
Proof using Type. induction l as [|o l IH]; [intros []|]. intros [->|I]; [now destruct l|]. destruct l as [|o2 l]; [destruct I|]. change (max_tau o (largest (o2 :: l)) = None). rewrite (IH I). now destruct o. Qed.
Lemma constant_spec x : constant x = true <-> forall i, (S i < length x)%nat -> nth i x 0 = nth (S i) x 0.
Proof using Type.
  induction x as [|a x IH]; [split; [cbn; lia|reflexivity]|]. destruct x as [|b x]; [split; [cbn; lia|reflexivity]|]. change (constant (a :: b :: x)) with ((if Req_EM_T (b - a) 0 then true else false) && constant (b :: x)). rewrite andb_true_iff, IH. split.
  - intros [E H] [|i] L; [cbn; destruct (Req_EM_T (b - a) 0); [lra|discriminate]|]. apply (H i). cbn in *. lia.
  - intros H. split; [destruct (Req_EM_T (b - a) 0) as [|C]; [reflexivity|exfalso; apply C; pose proof (H 0%nat ltac:(cbn; lia)) as HH; cbn in HH; lra]|]. intros i L. apply (H (S i)). cbn in *. lia.
Qed.
(** Never less than the least tau, at least the estimate of every parameter and one of them; none with less than twice the window of points
    or with a parameter that never moved. *)
Theorem C202_tau b m : columns b <> [] ->
  (IZR (Z.of_nat (pos b) - m) < 2 * window_c st -> calc_tau act st b m = None) /\
  (forall t, calc_tau act st b m = Some t -> 2 * window_c st <= IZR (Z.of_nat (pos b) - m) /\ least_tau st <= t /\
     (forall g, given_tau st = Some g -> t = Rmax g (least_tau st)) /\
     (given_tau st = None -> exists start, (m <= start)%Z /\ (trailing st = None -> start = m) /\
        (forall x, In x (columns b) -> (exists i, (S i < length (skipn (Z.to_nat start) x))%nat /\ nth i (skipn (Z.to_nat start) x) 0 <> nth (S i) (skipn (Z.to_nat start) x) 0) /\
           exists v, act (skipn (Z.to_nat start) x) = Some v /\ round1 v <= t) /\
        (t = least_tau st \/ exists x v, In x (columns b) /\ act (skipn (Z.to_nat start) x) = Some v /\ t = round1 v))).
Proof using Type.
  intros NE. unfold calc_tau. destruct (Rlt_dec _ _) as [L|L]; split; try (intros; reflexivity || contradiction); try discriminate. intros t H.
  set (start := match trailing st with Some w => match tau_last b with Some t => Z.max m (trunc (INR (pos b) - w * t)) | None => m end | None => m end) in *.
  assert (NM : map (tau_of_column act st (Z.to_nat start)) (columns b) <> []) by (destruct (columns b); [contradiction|discriminate]). destruct (largest_spec _ t NM H) as [A B].
  split; [lra|]. assert (Least : forall o v, In o (columns b) -> tau_of_column act st (Z.to_nat start) o = Some v -> least_tau st <= v).
  { intros o v _ E. unfold tau_of_column in E. destruct (given_tau st); [assert (v = Rmax r (least_tau st)) by congruence; subst; apply Rmax_r|]. destruct (calculate_tau _ _); [|discriminate]. assert (v = Rmax (round1 r) (least_tau st)) by congruence. subst. apply Rmax_r. }
  apply in_map_iff in B. destruct B as (x & Ex & Ix). split; [eapply Least; eassumption|]. split.
  - intros g G. unfold tau_of_column in Ex. rewrite G in Ex. congruence.
  - intros G. exists start. split; [unfold start; destruct (trailing st); [destruct (tau_last b)|]; lia|]. split; [unfold start; intros ->; reflexivity|]. split.
    + intros y Iy. destruct (A (tau_of_column act st (Z.to_nat start) y) (in_map _ _ _ Iy)) as (v & Ev & Lv). unfold tau_of_column, calculate_tau in Ev. rewrite G in Ev. destruct (constant _) eqn:C; [discriminate|]. destruct (act _) as [u|] eqn:Au; [|discriminate]. split.
      * set (z := skipn (Z.to_nat start) y) in *. clear -C. induction z as [|a z IH]; [discriminate|]. destruct z as [|c z]; [discriminate|]. change (constant (a :: c :: z)) with ((if Req_EM_T (c - a) 0 then true else false) && constant (c :: z)) in C. destruct (Req_EM_T (c - a) 0) as [D|D].
        -- destruct (IH C) as (i & Li & Ni). exists (S i). split; [cbn in *; lia|exact Ni].
        -- exists 0%nat. split; [cbn; lia|]. cbn. intros E. apply D. lra.
      * exists u. split; [reflexivity|]. assert (v = Rmax (round1 u) (least_tau st)) by congruence. pose proof (Rmax_l (round1 u) (least_tau st)). lra.
    + unfold tau_of_column, calculate_tau in Ex. rewrite G in Ex. destruct (constant _) eqn:C; [discriminate|]. destruct (act _) as [u|] eqn:Au; [|discriminate]. assert (T : t = Rmax (round1 u) (least_tau st)) by congruence. destruct (Rle_dec (round1 u) (least_tau st)).
      * left. rewrite T. now apply Rmax_right.
      * right. exists x, u. repeat split; try assumption. rewrite T. apply Rmax_left. lra.
Qed.
(** *** the least tau holds in every history *)
Definition wide (o : op) : Prop := match o with OAppend r _ => r <> [] | _ => True end.
Definition floored (b : book) : Prop := columns b <> [] /\ forall k t, In (k, Some t) (taus b) -> least_tau st <= t.
Lemma put_in k v l k' v' : In (k', v') (put k v l) -> (k', v') = (k, v) \/ In (k', v') l.
Proof using Type. induction l as [|[a c] l IH]; cbn; [intros [H|[]]; left; congruence|]. destruct (k =? a)%nat; cbn; [intros [H|I]; [left; congruence|auto]|]. intros [H|I]; [auto|]. destruct (IH I); auto. Qed.
Lemma look_in k l v : look k l = Some v -> In (k, v) l.
Proof using Type. induction l as [|[a c] l IH]; cbn; [discriminate|]. destruct (k =? a)%nat eqn:E; [apply Nat.eqb_eq in E; intros H; left; congruence|auto]. Qed.
Lemma last_in {A} (l : list A) d : l <> [] -> In (last l d) l.
Proof using Type. induction l as [|a l IH]; [contradiction|]. intros _. destruct l as [|c l]; [left; reflexivity|]. right. apply IH. discriminate. Qed.
Lemma tau_last_in b t : tau_last b = Some t -> exists k, In (k, Some t) (taus b).
Proof using Type. unfold tau_last. intros H. destruct (taus b) as [|p l] eqn:E; [discriminate|]. pose proof (last_in (map snd (p :: l)) None ltac:(discriminate)) as I. rewrite H in I. apply in_map_iff in I. destruct I as ([k v] & Hv & I). cbn in Hv. subst v. eauto. Qed.
Lemma min_keeps b : columns (snd (minimum_index act st b)) = columns b /\ taus (snd (minimum_index act st b)) = taus b /\ pos (snd (minimum_index act st b)) = pos b /\ cached (snd (minimum_index act st b)) = cached b.
Proof using Type. destruct (min_shape act st b) as (m & lm & ->). cbn. auto. Qed.
Lemma nocache_floored b t b' : floored b -> tau_nocache act st b = (t, b') -> floored b' /\ forall v, t = Some v -> least_tau st <= v.
Proof using Type.
  intros [NE F] H. unfold tau_nocache in H. pose proof (min_keeps b) as (K1 & K2 & K3 & _). destruct (minimum_index act st b) as [m b1]. cbn [snd] in *. assert (T : t = calc_tau act st b1 m) by congruence.
  assert (B : b' = mkBook (pos b1) (columns b1) (lpost b1) (last_min b1) (by_proposal b1) (by_adapt b1) (put (pos b1) t (taus b1)) 0) by congruence. rewrite B. clear H B.
  assert (G : forall v, t = Some v -> least_tau st <= v). { intros v E. rewrite E in T. destruct (C202_tau b1 m ltac:(congruence)) as [_ C]. apply (C v (eq_sym T)). }
  split; [|exact G]. split; cbn; [congruence|]. intros k v I. destruct (put_in _ _ _ _ _ I) as [E|I2]; [apply G; congruence|apply (F k); congruence].
Qed.
Lemma tau_floored b t b' : floored b -> tau act st b = (t, b') -> floored b' /\ forall v, t = Some v -> least_tau st <= v.
Proof using Type.
  intros FF H. unfold tau in H. destruct (look (pos b) (taus b)) as [v|] eqn:EL.
  - assert (v = t) by congruence. assert (b' = b) by congruence. subst. split; [assumption|]. intros w ->. apply look_in in EL. now apply (proj2 FF) in EL.
  - destruct (tau_last b) as [v|] eqn:TL; [|now apply (nocache_floored b)]. destruct (cached b <? 50)%nat; [|now apply (nocache_floored b)]. unfold nsamples_last in H. pose proof (min_keeps b) as (K1 & K2 & K3 & _). destruct (minimum_index act st b) as [m b1]. cbn [snd] in *.
    assert (F1 : floored b1) by (destruct FF as [FA FB]; split; [congruence|rewrite K2; exact FB]). destruct (50 <? _)%Z; [|now apply (nocache_floored b1)].
    assert (B : b' = mkBook (pos b1) (columns b1) (lpost b1) (last_min b1) (by_proposal b1) (by_adapt b1) (taus b1) (S (cached b1))) by congruence. assert (t = Some v) by congruence. subst t. rewrite B. split; [exact F1|]. intros w E. assert (w = v) by congruence. subst w. destruct (tau_last_in b v TL) as [k I]. apply (proj2 FF k v I).
Qed.
Lemma thin_floored b k b' : floored b -> thin act st b = (k, b') -> floored b'.
Proof using Type.
  intros F H. unfold thin in H. destruct (tau act st b) as [t b1] eqn:E1. destruct (tau_floored b t b1 F E1) as [F1 _]. destruct t; [|assert (b' = b1) by congruence; subst; assumption]. destruct (tau act st b1) as [t2 b2] eqn:E2. destruct (tau_floored b1 t2 b2 F1 E2) as [F2 _]. assert (b' = b2) by (destruct t2; congruence). subst. assumption.
Qed.
Lemma min_floored b : floored b -> floored (snd (minimum_index act st b)).
Proof using Type. intros [A B]. pose proof (min_keeps b) as (K1 & K2 & _). split; [congruence|rewrite K2; exact B]. Qed.
Lemma step_floored b o : wide o -> floored b -> floored (step act st b o).
Proof using Type.
  intros W F. destruct o as [r lp| | | | | | |z|z]; cbn [step].
  - destruct F as [NE F]. split; [|exact F]. cbn. destruct (columns b), r; try contradiction. discriminate.
  - now apply min_floored.
  - destruct (tau act st b) as [t b'] eqn:E. apply (tau_floored b t b' F E).
  - destruct (tau_nocache act st b) as [t b'] eqn:E. apply (nocache_floored b t b' F E).
  - destruct (thin act st b) as [t b'] eqn:E. apply (thin_floored b t b' F E).
  - unfold nsamples. pose proof (min_floored b F) as F1. destruct (minimum_index act st b) as [m b1]. destruct (tau act st b1) as [t b2] eqn:E. apply (tau_floored b1 t b2 F1 E).
  - unfold samples. pose proof (min_floored b F) as F1. destruct (minimum_index act st b) as [m b1]. destruct (thin act st b1) as [t b2] eqn:E. apply (thin_floored b1 t b2 F1 E).
  - unfold set_proposal. destruct (_ <? _)%Z; exact F.
  - unfold set_adapt. destruct (_ <? _)%Z; exact F.
Qed.
Theorem C202_floor row lp os : row <> [] -> (forall o, In o os -> wide o) -> let b := run act st (init row lp) os in
  (forall v b', tau act st b = (Some v, b') -> least_tau st <= v) /\ (cached b <= 50)%nat.
Proof using discard_nonneg.
  intros NE W b. assert (F : floored b).
  { assert (F0 : floored (init row lp)) by (split; cbn; [destruct row; [contradiction|discriminate]|intros k t []]). unfold b, run. clear b. revert W F0. generalize (init row lp). induction os as [|o os IH]; intros b W F0; [exact F0|]. apply IH; [intros o' I; apply W; right; exact I|]. apply step_floored; [apply W; left; reflexivity|exact F0]. }
  split; [intros v b' E; destruct (tau_floored b (Some v) b' F E) as [_ G]; now apply G|]. apply (run_sound act st discard_nonneg os _ (init_sound st row lp)).
Qed.
(** *** thinning *)
Theorem C202_thin b k b' : sound st b -> thin act st b = (k, b') ->
  (forall n, k = Some n -> (1 <= n)%Z /\ (n = 1%Z \/ exists t, fst (tau act st b) = Some t /\ n = trunc (thin_by st * t) \/ (cached b = 49%nat /\ exists t', n = trunc (thin_by st * t')))) /\
  (k = None -> cached b = 49%nat /\ look (pos b) (taus b) = None).
Proof using discard_nonneg.
  intros S H. unfold thin in H. destruct (tau act st b) as [t b1] eqn:E1. destruct t as [t|]; [|split; [intros n E; assert (n = 1%Z) by congruence; subst; split; [lia|left; reflexivity]|congruence]].
  assert (Again : fst (tau act st b1) = Some t \/ (cached b = 49%nat /\ look (pos b) (taus b) = None)).
  { destruct (C202_lookup act st discard_nonneg b (Some t) b1 S E1) as (S1 & D & [[L ->]|[(L & _ & TL & C & C1 & T1)|(L & L1 & _)]]).
    - left. rewrite E1. reflexivity.
    - destruct (Nat.eq_dec (cached b) 49) as [|N]; [right; auto|]. left. unfold tau in E1. rewrite L, TL in E1. assert (LT : (cached b <? 50)%nat = true) by (apply Nat.ltb_lt; lia). rewrite LT in E1. unfold nsamples_last in E1.
      destruct (minimum_index act st b) as [m b0] eqn:EM. destruct (min_sound act st discard_nonneg b m b0 S EM) as (S0 & D0 & T0 & C0 & _ & _ & A0). destruct (50 <? _)%Z eqn:EN.
      + assert (B : b1 = mkBook (pos b0) (columns b0) (lpost b0) (last_min b0) (by_proposal b0) (by_adapt b0) (taus b0) (Datatypes.S (cached b0))) by congruence. clear E1. unfold tau. assert (P1 : pos b1 = pos b) by apply D. rewrite P1, T1, L.
        assert (TL1 : tau_last b1 = Some t) by (unfold tau_last in *; rewrite T1; exact TL). rewrite TL1. assert (LT1 : (cached b1 <? 50)%nat = true) by (apply Nat.ltb_lt; lia). rewrite LT1. unfold nsamples_last.
        assert (M1 : exists b2, minimum_index act st b1 = (m, b2)).
        { rewrite B. unfold minimum_index in A0 |- *. cbn [pos last_min]. destruct (pos b0 =? fst (last_min b0))%nat; [injection A0 as A0; rewrite A0; eauto|]. destruct (Z.of_nat (pos b0) <? discard st)%Z; [injection A0 as A0; rewrite A0; eauto|]. injection A0 as A0 _. change (sources act st {| pos := pos b0; columns := columns b0; lpost := lpost b0; last_min := last_min b0; by_proposal := by_proposal b0; by_adapt := by_adapt b0; taus := taus b0; cached := Datatypes.S (cached b0) |}) with (sources act st b0). rewrite A0. eauto. }
        destruct M1 as [b2 M1]. rewrite M1, P1, EN. reflexivity.
      + exfalso. destruct (nocache_sound act st discard_nonneg b0 (Some t) b1 S0 E1) as (_ & _ & _ & Z). lia.
    - left. unfold tau. assert (P1 : pos b1 = pos b) by apply D. rewrite P1, L1. reflexivity. }
  destruct (tau act st b1) as [t2 b2] eqn:E2. cbn [fst] in Again. destruct t2 as [u|].
  - split; [|congruence]. intros n E. assert (N : n = Z.max 1 (trunc (thin_by st * u))) by congruence. split; [lia|]. destruct (Z.le_gt_cases (trunc (thin_by st * u)) 1); [left; lia|]. right. destruct Again as [A|[A _]].
    + exists t. left. split; [reflexivity|]. assert (u = t) by congruence. subst. lia.
    + exists t. right. split; [exact A|]. exists u. lia.
  - split; [congruence|]. intros _. destruct Again; [discriminate|assumption].
Qed.
(** *** the number of samples and the samples *)
Hypothesis window_pos : 0 < window_c st.
Hypothesis thin_pos : 0 < thin_by st.
Hypothesis least_pos : 0 < least_tau st.
(** keys are positions passed; a finite tau known here was worked out with enough points after the burn-in of this position *)
Definition dated (b : book) : Prop :=
  (forall k v, In (k, v) (taus b) -> (k <= pos b)%nat) /\
  forall o, look (pos b) (taus b) = Some o ->
    (fst (last_min b) = pos b /\ (o <> None -> 2 * window_c st <= IZR (Z.of_nat (pos b) - snd (last_min b)))) \/ ((Z.of_nat (pos b) < discard st)%Z /\ o = None).
Definition good b := sound st b /\ floored b /\ dated b.
Lemma look_put_same k v l : look k (put k v l) = Some v.
Proof using Type. induction l as [|[a c] l IH]; cbn; [now rewrite Nat.eqb_refl|]. destruct (k =? a)%nat eqn:E; cbn; [now rewrite Nat.eqb_refl|now rewrite E]. Qed.
Lemma min_good b m b' : good b -> minimum_index act st b = (m, b') -> good b' /\ taus b' = taus b /\ pos b' = pos b /\ minimum_index act st b' = (m, b') /\
  ((fst (last_min b') = pos b /\ snd (last_min b') = m) \/ ((Z.of_nat (pos b) < discard st)%Z /\ m = discard st)).
Proof using discard_nonneg.
  intros (S & F & D1 & D2) EM. destruct (min_sound act st discard_nonneg b m b' S EM) as (S' & (P & C & _) & T & _ & _ & _ & A). pose proof (min_floored b F) as F'. rewrite EM in F'. cbn [snd] in F'.
  assert (CS : (fst (last_min b') = pos b /\ snd (last_min b') = m) \/ ((Z.of_nat (pos b) < discard st)%Z /\ m = discard st)).
  { unfold minimum_index in EM. destruct (pos b =? fst (last_min b))%nat eqn:E; [apply Nat.eqb_eq in E; left; split; congruence|]. destruct (Z.of_nat (pos b) <? discard st)%Z eqn:E2; [right; apply Z.ltb_lt in E2; split; [assumption|congruence]|]. left. assert (MM : trunc (rmax_list (sources act st b)) = m) by congruence. assert (B : b' = mkBook (pos b) (columns b) (lpost b) (pos b, m) (by_proposal b) (by_adapt b) (taus b) (cached b)) by congruence. rewrite B. split; reflexivity. }
  split; [|auto]. split; [assumption|]. split; [assumption|]. split; [rewrite T, P; exact D1|]. rewrite T, P. intros o L. destruct (D2 o L) as [[L1 L2]|[L1 L2]].
  - left. unfold minimum_index in EM. rewrite <- L1, Nat.eqb_refl in EM. assert (b' = b) by congruence. subst b'. auto.
  - right. auto.
Qed.
Lemma nocache_good b t b' : good b -> tau_nocache act st b = (t, b') -> good b' /\ pos b' = pos b /\ look (pos b) (taus b') = Some t /\ fst (minimum_index act st b') = fst (minimum_index act st b).
Proof using discard_nonneg window_pos.
  intros G H. pose proof G as (S & F & D1 & D2). destruct (nocache_sound act st discard_nonneg b t b' S H) as (S' & (P & _) & L & _). destruct (nocache_floored b t b' F H) as [F' _].
  unfold tau_nocache in H. destruct (minimum_index act st b) as [m b1] eqn:EM. destruct (min_good b m b1 G EM) as (_ & T1 & P1 & A1 & CS). assert (T : t = calc_tau act st b1 m) by congruence.
  assert (B : b' = mkBook (pos b1) (columns b1) (lpost b1) (last_min b1) (by_proposal b1) (by_adapt b1) (put (pos b1) t (taus b1)) 0) by congruence.
  assert (LM : last_min b' = last_min b1) by now rewrite B. assert (TT : taus b' = put (pos b) t (taus b)) by (rewrite B; cbn; congruence).
  split; [split; [assumption|split; [assumption|]]|split; [assumption|split; [assumption|]]].
  - split; [rewrite P, TT; intros k v I; destruct (put_in _ _ _ _ _ I) as [E|I2]; [assert (k = pos b) by congruence; lia|now apply (D1 k v)]|]. rewrite P, LM. intros o Lo. assert (o = t) by congruence. subst o. destruct CS as [[C1 C2]|[C1 C2]].
    + left. split; [assumption|]. intros N. rewrite C2. unfold calc_tau in T. destruct (Rlt_dec _ _) as [|NL]; [congruence|]. rewrite P1 in NL. lra.
    + right. split; [assumption|]. rewrite T. unfold calc_tau. destruct (Rlt_dec _ _) as [|NL]; [reflexivity|]. exfalso. apply NL. rewrite C2, P1. apply Rlt_trans with 0; [apply (IZR_lt _ 0); lia|lra].
  - cbn [fst]. unfold minimum_index. rewrite LM, P. destruct CS as [[C1 C2]|[C1 C2]].
    + rewrite C1, Nat.eqb_refl. cbn [fst]. exact C2.
    + destruct (pos b =? fst (last_min b1))%nat eqn:E; cbn [fst]; [|apply Z.ltb_lt in C1; rewrite C1; cbn [fst]; congruence]. unfold minimum_index in A1. rewrite P1, E in A1. congruence.
Qed.
Lemma tau_good b t b' : good b -> tau act st b = (t, b') -> good b' /\ pos b' = pos b /\ fst (minimum_index act st b') = fst (minimum_index act st b) /\
  forall v, t = Some v -> least_tau st <= v /\ (fst (minimum_index act st b) < Z.of_nat (pos b))%Z.
Proof using discard_nonneg window_pos thin_pos least_pos.
  intros G H. pose proof G as (S & F & D1 & D2). destruct (tau_floored b t b' F H) as [F' LE]. assert (NC : forall b0, good b0 -> pos b0 = pos b -> fst (minimum_index act st b0) = fst (minimum_index act st b) -> tau_nocache act st b0 = (t, b') -> good b' /\ pos b' = pos b /\ fst (minimum_index act st b') = fst (minimum_index act st b) /\
      forall v, t = Some v -> least_tau st <= v /\ (fst (minimum_index act st b) < Z.of_nat (pos b))%Z).
  { intros b0 G0 P0 M0 H0. destruct (nocache_good b0 t b' G0 H0) as (G' & P' & _ & M'). split; [assumption|]. split; [congruence|]. split; [congruence|]. intros v E. split; [now apply LE|]. unfold tau_nocache in H0. rewrite <- M0, <- P0. destruct (minimum_index act st b0) as [m b1] eqn:EM. destruct (min_good b0 m b1 G0 EM) as (_ & _ & P1 & _). assert (T : t = calc_tau act st b1 m) by congruence. unfold calc_tau in T. destruct (Rlt_dec _ _) as [|NL]; [congruence|]. cbn [fst]. rewrite P1 in NL. assert (0 < Z.of_nat (pos b0) - m)%Z by (apply lt_IZR; lra). lia. }
  unfold tau in H. destruct (look (pos b) (taus b)) as [w|] eqn:EL.
  - assert (w = t) by congruence. assert (b' = b) by congruence. subst. repeat (split; [assumption || reflexivity|]). intros v E. split; [now apply LE|]. destruct (D2 t eq_refl) as [[C1 C2]|[_ C]]; [|congruence]. unfold minimum_index. rewrite <- C1, Nat.eqb_refl. cbn [fst]. rewrite C1. assert (N : t <> None) by congruence. specialize (C2 N). assert (0 < Z.of_nat (pos b) - snd (last_min b))%Z by (apply lt_IZR; lra). lia.
  - destruct (tau_last b) as [v|] eqn:TL; [|now apply (NC b)]. destruct (cached b <? 50)%nat eqn:EC; [|now apply (NC b)]. unfold nsamples_last in H. destruct (minimum_index act st b) as [m b1] eqn:EM. destruct (min_good b m b1 G EM) as (G1 & T1 & P1 & A1 & CS).
    destruct (50 <? _)%Z eqn:EN; [|apply (NC b1); [assumption|assumption|rewrite A1; reflexivity|assumption]]. assert (TV : t = Some v) by congruence. subst t.
    assert (B : b' = mkBook (pos b1) (columns b1) (lpost b1) (last_min b1) (by_proposal b1) (by_adapt b1) (taus b1) (Datatypes.S (cached b1))) by congruence.
    destruct G1 as ((S0 & S1 & S2 & S3 & S4 & S5) & F1 & D3). destruct (min_sound act st discard_nonneg b m b1 S EM) as (_ & _ & _ & C0 & _). apply Nat.ltb_lt in EC. split; [split; [rewrite B; repeat split; cbn; try assumption; lia|split; [rewrite B; exact F1|rewrite B; exact D3]]|]. split; [rewrite B; exact P1|]. split.
    + cbn [fst]. rewrite B. unfold minimum_index in A1 |- *. cbn [pos last_min]. destruct (pos b1 =? fst (last_min b1))%nat; [cbn [fst]; congruence|]. destruct (Z.of_nat (pos b1) <? discard st)%Z; [cbn [fst]; congruence|]. cbn [fst]. change (sources act st {| pos := pos b1; columns := columns b1; lpost := lpost b1; last_min := last_min b1; by_proposal := by_proposal b1; by_adapt := by_adapt b1; taus := taus b1; cached := Datatypes.S (cached b1) |}) with (sources act st b1). congruence.
    + intros u E. assert (u = v) by congruence. subst u. split; [now apply LE|]. cbn [fst]. assert (V : least_tau st <= v) by now apply LE. apply Z.ltb_lt in EN. destruct (Z.lt_ge_cases m (Z.of_nat (pos b))) as [|U]; [assumption|exfalso].
      assert (Q : IZR (Z.of_nat (pos b) - m) / (thin_by st * v) <= 0). { assert (0 < thin_by st * v) by (apply Rmult_lt_0_compat; lra). apply (Rmult_le_reg_r (thin_by st * v)); [assumption|]. unfold Rdiv. rewrite Rmult_assoc, Rinv_l by lra. rewrite Rmult_0_l, Rmult_1_r. apply (IZR_le _ 0). lia. }
      destruct (Rle_lt_or_eq_dec _ _ Q) as [Q'|Q']; [pose proof (trunc_neg _ Q'); lia|]. rewrite Q' in EN. change 0 with (IZR 0) in EN. rewrite trunc_int in EN. lia.
Qed.
Lemma thin_good b k b' : good b -> thin act st b = (k, b') -> good b' /\ pos b' = pos b.
Proof using discard_nonneg window_pos thin_pos least_pos.
  intros G H. unfold thin in H. destruct (tau act st b) as [t b1] eqn:E1. destruct (tau_good b t b1 G E1) as (G1 & P1 & _). destruct t; [|assert (b' = b1) by congruence; subst; auto]. destruct (tau act st b1) as [t2 b2] eqn:E2. destruct (tau_good b1 t2 b2 G1 E2) as (G2 & P2 & _). assert (b' = b2) by (destruct t2; congruence). subst. split; congruence || assumption.
Qed.
Lemma step_good b o : wide o -> good b -> good (step act st b o).
Proof using discard_nonneg window_pos thin_pos least_pos.
  intros W G. pose proof G as (S & F & D1 & D2). split; [now apply step_sound|]. split; [now apply step_floored|]. destruct o as [r lp| | | | | | |z|z]; cbn [step].
  - split; cbn; [intros k v I; specialize (D1 k v I); lia|]. intros o L. apply look_in in L. apply D1 in L. lia.
  - destruct (minimum_index act st b) as [m b'] eqn:E. apply (min_good b m b' G E).
  - destruct (tau act st b) as [m b'] eqn:E. apply (tau_good b m b' G E).
  - destruct (tau_nocache act st b) as [m b'] eqn:E. apply (nocache_good b m b' G E).
  - destruct (thin act st b) as [m b'] eqn:E. apply (thin_good b m b' G E).
  - unfold nsamples. destruct (minimum_index act st b) as [m b1] eqn:E. destruct (min_good b m b1 G E) as (G1 & _). destruct (tau act st b1) as [t b2] eqn:E2. apply (tau_good b1 t b2 G1 E2).
  - unfold samples. destruct (minimum_index act st b) as [m b1] eqn:E. destruct (min_good b m b1 G E) as (G1 & _). destruct (thin act st b1) as [t b2] eqn:E2. apply (thin_good b1 t b2 G1 E2).
  - unfold set_proposal. destruct (_ <? _)%Z; split; assumption.
  - unfold set_adapt. destruct (_ <? _)%Z; split; assumption.
Qed.
Lemma run_good row lp os : row <> [] -> (forall o, In o os -> wide o) -> good (run act st (init row lp) os).
Proof using discard_nonneg window_pos thin_pos least_pos.
  intros NE W. assert (G0 : good (init row lp)). { split; [apply init_sound|]. split; [split; cbn; [destruct row; [contradiction|discriminate]|intros k t []]|]. split; cbn; [intros k v []|discriminate]. }
  revert W G0. unfold run. generalize (init row lp). induction os as [|o os IH]; intros b W G0; [exact G0|]. apply IH; [intros o' I; apply W; right; exact I|]. apply step_good; [apply W; left; reflexivity|exact G0].
Qed.
Lemma slice_spec m p k i : (1 <= k)%nat -> (In i (slice_rows m p k) <-> (m <= i < p)%nat /\ exists q, i = (m + q * k)%nat).
Proof using Type.
  intros K. unfold slice_rows. destruct (p <=? m)%nat eqn:E; [apply Nat.leb_le in E; split; [intros []|lia]|apply Nat.leb_gt in E]. rewrite in_map_iff. split.
  - intros (q & <- & I). apply in_seq in I. split; [|eauto]. split; [lia|]. assert (q < (p - m + k - 1) / k)%nat by lia. assert (q * k < p - m)%nat; [|lia]. pose proof (Nat.mul_div_le (p - m + k - 1) k ltac:(lia)). nia.
  - intros (H & q & ->). exists q. split; [reflexivity|]. apply in_seq. split; [lia|]. cbn. assert (q * k + k <= p - m + k - 1)%nat by lia. assert (S q <= (p - m + k - 1) / k)%nat; [|lia]. apply Nat.div_le_lower_bound; nia.
Qed.
Lemma slice_length m p k : (1 <= k)%nat -> (m <= p)%nat -> (p - m <= length (slice_rows m p k) * k)%nat.
Proof using Type.
  intros K M. unfold slice_rows. destruct (p <=? m)%nat eqn:E; [apply Nat.leb_le in E; cbn; lia|]. rewrite map_length, seq_length. pose proof (Nat.div_mod (p - m + k - 1) k ltac:(lia)). pose proof (Nat.mod_upper_bound (p - m + k - 1) k ltac:(lia)). nia.
Qed.
(** In every history: with no tau there are no samples counted; with one, the burn-in is over, and the count is the number of whole
    multiples of thin times tau in the points after it - unless that is more than the points themselves, when it is 0. *)
Theorem C202_count row lp os : row <> [] -> (forall o, In o os -> wide o) -> let b := run act st (init row lp) os in
  forall m b1 t b2, minimum_index act st b = (m, b1) -> tau act st b1 = (t, b2) ->
  (t = None -> fst (nsamples act st b) = 0%Z) /\ (0 <= fst (nsamples act st b) <= Z.max 0 (Z.of_nat (pos b) - m))%Z /\
  forall v, t = Some v -> (m < Z.of_nat (pos b))%Z /\ least_tau st <= v /\
    exists n : Z, IZR n * (v * thin_by st) <= IZR (Z.of_nat (pos b) - m) < (IZR n + 1) * (v * thin_by st) /\ (0 <= n)%Z /\
      fst (nsamples act st b) = (if (n <=? Z.of_nat (pos b) - m)%Z then n else 0%Z).
Proof using discard_nonneg window_pos thin_pos least_pos.
  intros NE W b m b1 t b2 EM ET. pose proof (run_good row lp os NE W) as G. fold b in G. destruct (min_good b m b1 G EM) as (G1 & _ & P1 & A1 & _). destruct (tau_good b1 t b2 G1 ET) as (_ & _ & _ & TV). rewrite A1, P1 in TV. cbn [fst] in TV.
  unfold nsamples. rewrite EM, ET. cbn [fst]. set (use := (Z.of_nat (pos b) - m)%Z). split; [intros ->; destruct (0 <=? use)%Z; reflexivity|]. destruct t as [v|]; [|split; [destruct (0 <=? use)%Z eqn:E; [apply Z.leb_le in E|]; lia|discriminate]].
  destruct (TV v eq_refl) as [V U]. assert (U0 : (0 < use)%Z) by (unfold use; lia). assert (X : 0 < v * thin_by st) by (apply Rmult_lt_0_compat; lra). replace (IZR use / v / thin_by st) with (IZR use / (v * thin_by st)) by (field; lra). set (x := v * thin_by st) in *.
  assert (Q : 0 < IZR use / x) by (apply Rdiv_lt_0_compat; [apply (IZR_lt 0); assumption|assumption]). rewrite trunc_nonneg by lra. pose proof (zfloor_bounds (IZR use / x)) as ZB. set (n := zfloor (IZR use / x)) in *.
  assert (N0 : (0 <= n)%Z) by (assert (-1 < n)%Z; [apply lt_IZR|]; lra || lia). split; [destruct (n <=? use)%Z eqn:E; [apply Z.leb_le in E|]; lia|]. intros u E. assert (u = v) by congruence. subst u. fold x. split; [assumption|]. split; [assumption|]. exists n. split; [|auto].
  assert (XE : IZR use = IZR use / x * x) by (field; lra). rewrite XE. split; [apply Rmult_le_compat_r; lra|apply Rmult_lt_compat_r; lra].
Qed.
(** The rows: after the burn-in, before the newest point, evenly spaced, and where tau is known at this position never fewer than the count. *)
Theorem C202_rows row lp os : row <> [] -> (forall o, In o os -> wide o) -> let b := run act st (init row lp) os in
  forall m b1 rows b', minimum_index act st b = (m, b1) -> samples act st b = (Some rows, b') ->
  (exists k, (1 <= k)%nat /\ forall i, In i rows <-> (Z.to_nat m <= i < pos b)%nat /\ exists q, i = (Z.to_nat m + q * k)%nat) /\ ~ In (pos b) rows /\
  ((cached b < 49)%nat -> (fst (nsamples act st b) <= Z.of_nat (length rows))%Z).
Proof using discard_nonneg window_pos thin_pos least_pos.
  intros NE W b m b1 rows b' EM ES. pose proof (run_good row lp os NE W) as G. fold b in G. destruct (min_good b m b1 G EM) as (G1 & _ & P1 & A1 & _). pose proof G1 as (S1 & _).
  unfold samples in ES. rewrite EM in ES. destruct (thin act st b1) as [k b2] eqn:EK. destruct k as [k|]; [|discriminate]. assert (RW : rows = slice_rows (Z.to_nat m) (pos b) (Z.to_nat k)) by congruence. clear ES.
  destruct (C202_thin b1 (Some k) b2 S1 EK) as [K _]. destruct (K k eq_refl) as [K1 KT]. assert (K1' : (1 <= Z.to_nat k)%nat) by lia. split; [exists (Z.to_nat k); split; [assumption|]; intros i; rewrite RW; now apply slice_spec|].
  split; [rewrite RW; intros I; apply slice_spec in I; [lia|assumption]|]. intros C49. destruct (tau act st b1) as [t bt] eqn:ET. destruct (C202_count row lp os NE W m b1 t bt EM ET) as (CN & CB & CV). fold b in CN, CB, CV.
  destruct t as [v|]; [|rewrite CN by reflexivity; lia]. destruct (CV v eq_refl) as (U & V & n & NB & N0 & ->). destruct (n <=? _)%Z eqn:NU; [|lia]. apply Z.leb_le in NU.
  assert (M0 : (0 <= m)%Z). { destruct (min_sound act st discard_nonneg b m b1 (proj1 G) EM) as (_ & _ & _ & _ & P0 & PP & _). destruct (Nat.eq_dec (pos b) 0) as [Z0|Z0]; [destruct (P0 Z0); lia|specialize (PP Z0); lia]. }
  pose proof (slice_length (Z.to_nat m) (pos b) (Z.to_nat k) K1' ltac:(lia)) as SL. rewrite <- RW in SL. assert (SL' : (Z.of_nat (pos b) - m <= Z.of_nat (length rows) * k)%Z) by nia.
  destruct KT as [->|[t' [[T1 T2]|[T1 _]]]]; [lia| |].
  - cbn [fst] in T1. assert (t' = v) by congruence. subst t'. assert (X : 0 < v * thin_by st) by (apply Rmult_lt_0_compat; lra). assert (KX : IZR k <= v * thin_by st) by (rewrite T2, trunc_nonneg by lra; pose proof (zfloor_bounds (thin_by st * v)); lra).
    destruct (Z.le_gt_cases n (Z.of_nat (length rows))) as [|GT]; [assumption|exfalso]. assert (IZR n * IZR k <= IZR (Z.of_nat (pos b) - m)). { apply IZR_le in N0. nra. } rewrite <- mult_IZR in H. apply le_IZR in H. nia.
  - destruct (min_sound act st discard_nonneg b m b1 (proj1 G) EM) as (_ & _ & _ & C1 & _). lia.
Qed.
(** Where thin times tau is at most a half the count is 0 for good, though every point after the burn-in is a sample. *)
Theorem C202_count_refuted row lp os : row <> [] -> (forall o, In o os -> wide o) -> let b := run act st (init row lp) os in
  forall m b1 v b2, minimum_index act st b = (m, b1) -> tau act st b1 = (Some v, b2) -> v * thin_by st <= 1 / 2 -> fst (nsamples act st b) = 0%Z.
Proof using discard_nonneg window_pos thin_pos least_pos.
  intros NE W b m b1 v b2 EM ET X. destruct (C202_count row lp os NE W m b1 (Some v) b2 EM ET) as (_ & _ & CV). destruct (CV v eq_refl) as (U & V & n & NB & N0 & E). fold b in U, NB, E. rewrite E. clear E. destruct (n <=? _)%Z eqn:NU; [|reflexivity]. apply Z.leb_le in NU. exfalso.
  set (use := (Z.of_nat (pos b) - m)%Z) in *. assert (U1 : (1 <= use)%Z) by (unfold use; lia). assert (IZR use < (IZR n + 1) * (1 / 2)) by (apply IZR_le in N0; nra). assert (2 * use < n + 1)%Z by (apply lt_IZR; rewrite plus_IZR, mult_IZR; lra). lia.
Qed.
End Taus.
(** thin looks tau up twice: the first answer is the tau taken over for the fiftieth time, the second a fresh one, which is infinite where a
    parameter has stopped moving; int of infinity is an OverflowError. *)
Definition stuck_settings := {| burn_in := 10; thin_by := 1; discard := 0%Z; window_c := 5; least_tau := 1; given_tau := None; trailing := None; dim := 1 |}.
Definition stuck := mkBook 200 [repeat 3 50 ++ repeat 5 151] (repeat 0 201) (200%nat, 100%Z) 0 100 [(160%nat, Some 1)] 49.
Lemma constant_repeat c n : constant (repeat c n) = true.
Proof.
  induction n as [|n IH]; [reflexivity|]. destruct n as [|n]; [reflexivity|]. change (constant (repeat c (S (S n)))) with ((if Req_EM_T (c - c) 0 then true else false) && constant (repeat c (S n))). rewrite IH. destruct (Req_EM_T (c - c) 0) as [|N]; [reflexivity|exfalso; apply N; lra].
Qed.
Theorem C202_overflow_refuted act : sound stuck_settings stuck /\ exists t b', tau act stuck_settings stuck = (Some t, b') /\ fst (thin act stuck_settings stuck) = None /\ fst (samples act stuck_settings stuck) = None.
Proof.
  assert (M : minimum_index act stuck_settings stuck = (100%Z, stuck)) by reflexivity.
  assert (T200 : trunc (IZR (Z.of_nat 200 - 100) / (1 * 1)) = 100%Z) by (replace (IZR (Z.of_nat 200 - 100) / (1 * 1)) with (IZR 100) by (cbn; field); apply trunc_int).
  set (b1 := mkBook 200 [repeat 3 50 ++ repeat 5 151] (repeat 0 201) (200%nat, 100%Z) 0 100 [(160%nat, Some 1)] 50).
  assert (E1 : tau act stuck_settings stuck = (Some 1, b1)).
  { unfold tau. change (look (pos stuck) (taus stuck)) with (@None (option R)). change (tau_last stuck) with (Some 1). change (cached stuck <? 50)%nat with true. cbv iota. unfold nsamples_last. rewrite M. change (pos stuck) with 200%nat. change (thin_by stuck_settings) with 1. rewrite T200. reflexivity. }
  assert (C : calc_tau act stuck_settings b1 100 = None).
  { unfold calc_tau. destruct (Rlt_dec _ _); [reflexivity|]. change (columns b1) with [repeat 3 50 ++ repeat 5 151]. cbn [trailing stuck_settings map largest]. unfold tau_of_column. cbn [given_tau stuck_settings]. unfold calculate_tau. change (skipn (Z.to_nat 100) (repeat 3 50 ++ repeat 5 151)) with (repeat 5 101). rewrite constant_repeat. reflexivity. }
  assert (E2 : fst (tau act stuck_settings b1) = None).
  { unfold tau. change (look (pos b1) (taus b1)) with (@None (option R)). change (tau_last b1) with (Some 1). change (cached b1 <? 50)%nat with false. cbv iota. unfold tau_nocache. change (minimum_index act stuck_settings b1) with (100%Z, b1). cbv iota beta zeta. rewrite C. reflexivity. }
  assert (TH : fst (thin act stuck_settings stuck) = None) by (unfold thin; rewrite E1; destruct (tau act stuck_settings b1) as [t2 b2]; cbn [fst] in E2; rewrite E2; reflexivity).
  split; [repeat split; cbn; lia|]. exists 1, b1. split; [exact E1|]. split; [exact TH|]. unfold samples. rewrite M. destruct (thin act stuck_settings stuck) as [k b2]. cbn [fst] in TH. rewrite TH. reflexivity.
Qed.

(** ** Examples *)
Example C201_example : fst (minimum_index (fun _ => None) stuck_settings (mkBook 20 [repeat 3 21] (repeat 0 21) (0%nat, 0%Z) 4 7 [(10%nat, Some (3 / 2))] 0)) = 15%Z.
Proof.
  unfold minimum_index. cbn [pos last_min fst Nat.eqb]. change (Z.of_nat 20 <? discard stuck_settings)%Z with false. cbv iota. cbn [fst]. unfold sources. cbn [burn_tau tau_last taus map snd last]. change (z_index stuck_settings (lpost _)) with (@None nat). cbn [app by_proposal by_adapt burn_in stuck_settings discard].
  replace (rmax_list [0; 10 * (3 / 2); 4; 7]) with (IZR 15); [apply trunc_int|]. cbn [rmax_list]. unfold rmax_list. cbn. unfold Rmax. repeat destruct (Rle_dec _ _); lra.
Qed.
Example C201_settled_example : z_index stuck_settings (repeat 0 99) = None /\ z_index stuck_settings [] = None.
Proof. split; reflexivity. Qed.
Example C202_slice_example : slice_rows 3 12 4 = [3; 7; 11]%nat /\ slice_rows 3 11 4 = [3; 7]%nat.
Proof. split; reflexivity. Qed.
Example C202_lookup_example : exists t, fst (tau (fun _ => None) stuck_settings stuck) = Some t.
Proof. destruct (C202_overflow_refuted (fun _ => None)) as (_ & t & b' & E & _). exists t. now rewrite E. Qed.

(** ** Assumptions of every theorem above *)
Definition Tau2_Props_all :=
  (@C202_tau,
   @C202_floor,
   @C202_thin,
   @C202_count,
   @C202_rows,
   @C202_count_refuted,
   @C202_overflow_refuted).
Print Assumptions Tau2_Props_all.
