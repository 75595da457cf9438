(** Properties C191-C194: binary source models. *)
From Coq Require Import String Ascii ZArith Lia Reals Lra List Bool.
From Coquelicot Require Import Coquelicot.
From Verif Require Import PyDict PyReal Source_Model.
Import ListNotations.
Open Scope string_scope.
Open Scope list_scope.
Open Scope nat_scope.

Lemma bind_ok {X Y} (a : res X) (f : X -> res Y) y : bind a f = Ok y -> exists x, a = Ok x /\ f x = Ok y.
Proof. destruct a as [x|e]; cbn; [intros H; exists x; auto|discriminate]. Qed.
Lemma ok_inj {X} (x y : X) : Ok x = Ok y -> x = y.
Proof. intros H. injection H as H. exact H. Qed.
Lemma pop_ok kw k v kw' : pop kw k = Ok (v, kw') -> dget kw k = Some v /\ kw' = ddel kw k.
Proof. unfold pop. destruct (dget kw k); [|discriminate]. intros H. apply ok_inj in H. injection H as -> <-. auto. Qed.
Lemma pop_get kw k v : dget kw k = Some v -> pop kw k = Ok (v, ddel kw k).
Proof. intros H. unfold pop. rewrite H. reflexivity. Qed.
Lemma dget_del {V} (d : dict V) k j : wf d -> dget (ddel d k) j = if String.eqb j k then None else dget d j.
Proof. intros W. destruct (String.eqb_spec j k) as [->|N]; [apply dget_del_eq; exact W|apply dget_del_ne; exact N]. Qed.
Lemma dget_set {V} (d : dict V) k v j : dget (dset d k v) j = if String.eqb j k then Some v else dget d j.
Proof. destruct (String.eqb_spec j k) as [->|N]; [apply dget_set_eq|apply dget_set_ne; exact N]. Qed.
Lemma dict_empty {V} (d : dict V) : (forall k, dget d k = None) -> d = [].
Proof. intros H. destruct d as [|[k v] t]; [reflexivity|]. specialize (H k). cbn in H. rewrite String.eqb_refl in H. discriminate. Qed.
Lemma as_num_ok v x : as_num v = Ok x -> v = VNum x.
Proof. destruct v; cbn; try discriminate. intros H. apply ok_inj in H. subst. reflexivity. Qed.
Lemma as_text_ok v x : as_text v = Ok x -> v = VText x.
Proof. destruct v; cbn; try discriminate. intros H. apply ok_inj in H. subst. reflexivity. Qed.
Lemma as_arr_ok v x : as_arr v = Ok x -> v = VArr x.
Proof. destruct v; cbn; try discriminate. intros H. apply ok_inj in H. subst. reflexivity. Qed.
Lemma as_idx_ok v x : as_idx v = Ok x -> v = VIdx x.
Proof. destruct v; cbn; try discriminate. intros H. apply ok_inj in H. subst. reflexivity. Qed.
Lemma report_ok kw u : report_unused kw = Ok u -> kw = [].
Proof. destruct kw; [reflexivity|]. cbn. discriminate. Qed.
Lemma report_raise kw : kw <> [] -> report_unused kw = Raise (KeyError "waveform_kwargs").
Proof. destruct kw; [congruence|reflexivity]. Qed.
(** *** reading the optional parameters *)
Lemma read_none names b kw : (forall k, In k names -> dget kw k = None) -> read_optional names b kw = Ok (b, kw).
Proof.
  induction names as [|k t IH]; intros H; [reflexivity|]. cbn [read_optional]. rewrite (H k) by (left; reflexivity). apply IH. intros j Hj. apply H. right. exact Hj.
Qed.
Lemma read_ok names b kw b' kw' : wf kw -> read_optional names b kw = Ok (b', kw') ->
  wf kw' /\ (forall k, ~ In k names -> dget kw' k = dget kw k) /\ (forall k, In k names -> dget kw' k = None) /\
  mass_1 b' = mass_1 b /\ mass_2 b' = mass_2 b /\ distance b' = distance b /\ theta_jn b' = theta_jn b /\ phase b' = phase b.
Proof.
  revert b kw. induction names as [|k t IH]; intros b kw W H; cbn [read_optional] in H.
  - apply ok_inj in H. injection H as <- <-. split; [exact W|]. split; [reflexivity|]. split; [intros k []|]. auto.
  - destruct (dget kw k) as [v|] eqn:E.
    + apply bind_ok in H. destruct H as (x & _ & H). apply IH in H; [|apply wf_del; exact W]. destruct H as (W' & O & I & F). split; [exact W'|]. split; [|split; [|exact F]].
      * intros j NJ. rewrite O by (intros X; apply NJ; right; exact X). apply dget_del_ne. intros ->. apply NJ. left. reflexivity.
      * intros j [<-|J]; [|apply I; exact J]. destruct (in_dec string_dec k t) as [K|K]; [apply I; exact K|]. rewrite O by exact K. apply dget_del_eq. exact W.
    + apply IH in H; [|exact W]. destruct H as (W' & O & I & F). split; [exact W'|]. split; [|split; [|exact F]].
      * intros j NJ. apply O. intros X. apply NJ. right. exact X.
      * intros j [<-|J]; [|apply I; exact J]. destruct (in_dec string_dec k t) as [K|K]; [apply I; exact K|]. rewrite O by exact K. exact E.
Qed.

(** *** arrays *)
Lemma nth_combine_map {A B D} (f : A * B -> D) (l : list A) (m : list B) i da db dd : length l = length m -> i < length l ->
  nth i (map f (combine l m)) dd = f (nth i l da, nth i m db).
Proof.
  revert m i. induction l as [|a l IH]; intros [|b m] i L H; cbn in L, H; try lia. destruct i as [|i]; [reflexivity|]. cbn. apply IH; lia.
Qed.
Lemma length_combine_map {A B D} (f : A * B -> D) (l : list A) (m : list B) : length l = length m -> length (map f (combine l m)) = length l.
Proof. intros L. rewrite map_length, combine_length. lia. Qed.
Lemma nth_firstn_C n (d : list C) i : i < n -> nth i (firstn n d) (RtoC 0) = nth i d (RtoC 0).
Proof. revert d i. induction n as [|n IH]; intros d i H; [lia|]. destruct d as [|x d]; [reflexivity|]. destruct i as [|i]; [reflexivity|]. cbn. apply IH. lia. Qed.
Lemma fit_ok n longer d h : fit n longer d = Ok h -> length h = n /\ forall i, i < n -> nth i h (RtoC 0) = nth i d (RtoC 0).
Proof.
  unfold fit. destruct longer.
  - destruct (n <=? length d) eqn:E; [|discriminate]. apply Nat.leb_le in E. intros H. apply ok_inj in H. subst h. split; [rewrite firstn_length; lia|].
    intros i Hi. apply nth_firstn_C. exact Hi.
  - destruct (length d <=? n) eqn:E; [|discriminate]. apply Nat.leb_le in E. intros H. apply ok_inj in H. subst h. split; [rewrite app_length, repeat_length; lia|].
    intros i Hi. destruct (Nat.lt_ge_cases i (length d)) as [L|L]; [rewrite app_nth1 by exact L; reflexivity|]. rewrite app_nth2 by exact L. rewrite nth_repeat.
    rewrite nth_overflow by exact L. reflexivity.
Qed.
Lemma in_bounds_iff lo hi f : in_bounds lo hi f = true <-> (lo <= f <= hi)%R.
Proof. unfold in_bounds. destruct (Rle_dec lo f), (Rle_dec f hi); cbn; intuition (try lra; try discriminate). Qed.

Section Lal.
Variable inserts known fd_implemented : string -> bool.
Variable low_to_start : R -> R -> string -> R.
Variable transform : R -> R -> R -> R -> R -> R -> R -> R -> R -> R -> R -> spins.
Variable choose_fd sim_fd : system -> grid -> answer (series * series).
Variable choose_sequence : system -> list R -> answer waves.
Variables parsec solar_mass : R.
Notation base := (base_waveform inserts known fd_implemented low_to_start transform choose_fd sim_fd parsec solar_mass).
Notation sequence := (base_sequence inserts known transform choose_sequence parsec solar_mass).
Notation lal_bbh := (lal_binary_black_hole inserts known fd_implemented low_to_start transform choose_fd sim_fd parsec solar_mass).
Notation lal_bns := (lal_binary_neutron_star inserts known fd_implemented low_to_start transform choose_fd sim_fd parsec solar_mass).
Notation rel_bbh := (bbh_relative inserts known fd_implemented low_to_start transform choose_fd sim_fd choose_sequence parsec solar_mass).
Notation rel_bns := (bns_relative inserts known fd_implemented low_to_start transform choose_fd sim_fd choose_sequence parsec solar_mass).
Notation seq_bbh := (bbh_sequence inserts known transform choose_sequence parsec solar_mass).
Notation seq_bns := (bns_sequence inserts known transform choose_sequence parsec solar_mass).
Notation swd := (set_waveform_dictionary inserts).

(** everything that a call that reaches lalsimulation has gone through *)
Definition reaches given (fs : list R) b kw b' kw0 kw1 approx fref lo hi pn cv lal f0 f1 fs' : Prop :=
  clash given kw = false /\ read_optional optional b kw = Ok (b', kw0) /\
  dget kw0 "waveform_approximant" = Some (VText approx) /\ dget kw0 "reference_frequency" = Some (VNum fref) /\
  dget kw0 "minimum_frequency" = Some (VNum lo) /\ dget kw0 "maximum_frequency" = Some (VNum hi) /\
  dget kw0 "catch_waveform_errors" = Some cv /\ dget kw0 "pn_amplitude_order" = Some (VNum pn) /\
  swd (ddel (ddel (ddel (ddel (ddel kw0 "waveform_approximant") "reference_frequency") "minimum_frequency") "maximum_frequency") "catch_waveform_errors")
    (lambda_1 b') (lambda_2 b') = Ok (kw1, lal) /\ known approx = true /\ fs = f0 :: f1 :: fs'.
Definition the_system b' fref lal approx := make_system transform parsec solar_mass b' fref lal approx.
Definition the_grid b' lo hi pn approx f0 f1 : grid := mkGrid 0 (eccentricity b') 0 (f1 - f0)%R (if Req_EM_T pn 0 then lo else low_to_start lo pn approx) hi.
Definition after fs lo hi approx kw1 cv (a : answer (series * series)) : res (option waves) :=
  match a with
  | Fails args => on_failure (truthy cv) args
  | Gives (hp, hc) =>
      let n := length fs in
      let longer := n <? length (data hp) in
      let! p := fit n longer (data hp) in
      let! c := fit n longer (data hc) in
      let p := mask lo hi fs p in
      let c := mask lo hi fs c in
      let! (p, c) := (if fd_implemented approx then Ok (p, c)
                      else if Req_EM_T (delta_f hp) 0 then Raise ZeroDivisionError
                      else let dt := (1 / delta_f hp + epoch hp)%R in Ok (shift_all lo hi dt fs p, shift_all lo hi dt fs c)) in
      let! _ := report_unused kw1 in
      Ok (Some (p, c))
  end.
Lemma base_reaches given fs b kw b' kw0 kw1 approx fref lo hi pn cv lal f0 f1 fs' :
  reaches given fs b kw b' kw0 kw1 approx fref lo hi pn cv lal f0 f1 fs' ->
  base given fs b kw = after fs lo hi approx kw1 cv ((if fd_implemented approx then choose_fd else sim_fd) (the_system b' fref lal approx) (the_grid b' lo hi pn approx f0 f1)).
Proof.
  intros (H1 & H2 & H3 & H4 & H5 & H6 & H7 & H8 & H9 & H10 & ->). unfold base_waveform. rewrite H1, H2. cbn [bind].
  rewrite (pop_get _ _ _ H3). cbn [bind].
  rewrite (pop_get _ _ (VNum fref)); [cbn [bind]|rewrite ?dget_del_ne by discriminate; exact H4].
  rewrite (pop_get _ _ (VNum lo)); [cbn [bind]|rewrite ?dget_del_ne by discriminate; exact H5].
  rewrite (pop_get _ _ (VNum hi)); [cbn [bind]|rewrite ?dget_del_ne by discriminate; exact H6].
  rewrite (pop_get _ _ cv); [cbn [bind]|rewrite ?dget_del_ne by discriminate; exact H7].
  rewrite ?dget_del_ne by discriminate. rewrite H8. cbn [bind]. rewrite H9. cbn [bind as_text as_num]. rewrite H10. cbn [negb]. reflexivity.
Qed.
Lemma base_ok given fs b kw o : base given fs b kw = Ok o -> exists b' kw0 kw1 approx fref lo hi pn cv lal f0 f1 fs',
  reaches given fs b kw b' kw0 kw1 approx fref lo hi pn cv lal f0 f1 fs'.
Proof.
  intros H. unfold base_waveform in H. destruct (clash given kw) eqn:E1; [discriminate|]. apply bind_ok in H. destruct H as ([b' kw0] & E2 & H).
  apply bind_ok in H. destruct H as ([av ka] & Ea & H). apply pop_ok in Ea. destruct Ea as [Ea ->].
  apply bind_ok in H. destruct H as ([rv ka] & Er & H). apply pop_ok in Er. destruct Er as [Er ->].
  apply bind_ok in H. destruct H as ([lov ka] & El & H). apply pop_ok in El. destruct El as [El ->].
  apply bind_ok in H. destruct H as ([hiv ka] & Eh & H). apply pop_ok in Eh. destruct Eh as [Eh ->].
  apply bind_ok in H. destruct H as ([cv ka] & Ec & H). apply pop_ok in Ec. destruct Ec as [Ec ->].
  rewrite ?dget_del_ne in Er by discriminate. rewrite ?dget_del_ne in El by discriminate. rewrite ?dget_del_ne in Eh by discriminate. rewrite ?dget_del_ne in Ec by discriminate.
  apply bind_ok in H. destruct H as (pv & Ep & H). rewrite ?dget_del_ne in Ep by discriminate. destruct (dget kw0 "pn_amplitude_order") as [pv'|] eqn:Ep'; [|discriminate Ep]. apply ok_inj in Ep. subst pv'.
  apply bind_ok in H. destruct H as ([kw1 lal] & Es & H).
  apply bind_ok in H. destruct H as (approx & Ta & H). apply as_text_ok in Ta. subst av.
  apply bind_ok in H. destruct H as (fref & Tr & H). apply as_num_ok in Tr. subst rv.
  apply bind_ok in H. destruct H as (lo & Tl & H). apply as_num_ok in Tl. subst lov.
  apply bind_ok in H. destruct H as (hi & Th & H). apply as_num_ok in Th. subst hiv.
  apply bind_ok in H. destruct H as (pn & Tp & H). apply as_num_ok in Tp. subst pv.
  destruct (known approx) eqn:EK; [|discriminate H]. cbn [negb] in H. destruct fs as [|f0 [|f1 fs']]; [discriminate H|discriminate H|].
  exists b', kw0, kw1, approx, fref, lo, hi, pn, cv, lal, f0, f1, fs'. unfold reaches. repeat (split; [assumption||reflexivity|]). reflexivity.
Qed.

(** ** C191: the waveform on the frequency grid *)
(** The phase factor that moves a waveform generated in the time domain; none for a frequency-domain one. *)
Definition placed (fd : bool) (hp : series) (f : R) (z : C) : C :=
  if fd then z else Cmult z (cos (2 * PI * (1 / delta_f hp + epoch hp) * f), - sin (2 * PI * (1 / delta_f hp + epoch hp) * f))%R.
Lemma after_ok fs lo hi approx kw1 cv a p c : after fs lo hi approx kw1 cv a = Ok (Some (p, c)) ->
  exists hp hc, a = Gives (hp, hc) /\ kw1 = [] /\ length p = length fs /\ length c = length fs /\
  forall i, i < length fs ->
    nth i p (RtoC 0) = (if in_bounds lo hi (nth i fs 0%R) then placed (fd_implemented approx) hp (nth i fs 0%R) (nth i (data hp) (RtoC 0)) else RtoC 0) /\
    nth i c (RtoC 0) = (if in_bounds lo hi (nth i fs 0%R) then placed (fd_implemented approx) hp (nth i fs 0%R) (nth i (data hc) (RtoC 0)) else RtoC 0).
Proof.
  destruct a as [[hp hc]|args]; cbn [after].
  2: { unfold on_failure. destruct (truthy cv); cbn [negb]; [|discriminate]. destruct args as [|x args]; [discriminate|]. destruct (String.eqb x domain_error); discriminate. }
  intros H. apply bind_ok in H. destruct H as (p0 & F1 & H). apply bind_ok in H. destruct H as (c0 & F2 & H).
  apply fit_ok in F1. destruct F1 as [L1 N1]. apply fit_ok in F2. destruct F2 as [L2 N2].
  apply bind_ok in H. destruct H as ([p1 c1] & E & H). apply bind_ok in H. destruct H as (u & U & H). apply report_ok in U. apply ok_inj in H.
  assert (HH : p1 = p /\ c1 = c) by (injection H as -> ->; auto). destruct HH as [-> ->]. clear H.
  exists hp, hc. split; [reflexivity|]. split; [exact U|]. unfold placed.
  assert (M : forall h, length h = length fs -> length (mask lo hi fs h) = length fs) by (intros h L; apply length_combine_map; auto).
  assert (MN : forall h i, length h = length fs -> i < length fs -> nth i (mask lo hi fs h) (RtoC 0) = if in_bounds lo hi (nth i fs 0%R) then nth i h (RtoC 0) else RtoC 0).
  { intros h i L Hi. unfold mask. rewrite (nth_combine_map _ _ _ _ 0%R (RtoC 0)) by auto. reflexivity. }
  destruct (fd_implemented approx).
  - apply ok_inj in E. assert (HH : mask lo hi fs p0 = p /\ mask lo hi fs c0 = c) by (injection E as E1 E2; auto). destruct HH as [<- <-].
    split; [apply M; exact L1|]. split; [apply M; exact L2|]. intros i Hi. rewrite !MN by assumption. rewrite N1, N2 by exact Hi. split; reflexivity.
  - destruct (Req_EM_T (delta_f hp) 0); [discriminate|]. apply ok_inj in E. set (dt := (1 / delta_f hp + epoch hp)%R) in *.
    assert (HH : shift_all lo hi dt fs (mask lo hi fs p0) = p /\ shift_all lo hi dt fs (mask lo hi fs c0) = c) by (injection E as E1 E2; auto). destruct HH as [<- <-].
    assert (SL : forall h, length h = length fs -> length (shift_all lo hi dt fs h) = length fs) by (intros h L; apply length_combine_map; auto).
    assert (SN : forall h i, length h = length fs -> i < length fs -> nth i (shift_all lo hi dt fs h) (RtoC 0) = if in_bounds lo hi (nth i fs 0%R) then Cmult (nth i h (RtoC 0)) (shift dt (nth i fs 0%R)) else nth i h (RtoC 0)).
    { intros h i L Hi. unfold shift_all. rewrite (nth_combine_map _ _ _ _ 0%R (RtoC 0)) by auto. reflexivity. }
    split; [apply SL, M; exact L1|]. split; [apply SL, M; exact L2|]. intros i Hi. rewrite !SN by (auto). rewrite !MN by assumption. rewrite N1, N2 by exact Hi.
    destruct (in_bounds lo hi (nth i fs 0%R)); split; reflexivity.
Qed.
(** A binary waveform that is returned has one value per frequency of the array; it vanishes outside the band from the minimum to
    the maximum frequency, and inside it is the value that lalsimulation gave at that position - zero beyond the end of its array
    - times, for a waveform generated in the time domain, the phase of a shift in time.  lalsimulation was asked with the
    masses and distance in SI units, the spacing of the array and the maximum frequency. *)
Theorem C191_grid given fs b kw p c : wf kw -> base given fs b kw = Ok (Some (p, c)) ->
  exists lo hi approx sys g hp hc,
    dget kw "minimum_frequency" = Some (VNum lo) /\ dget kw "maximum_frequency" = Some (VNum hi) /\ dget kw "waveform_approximant" = Some (VText approx) /\
    (if fd_implemented approx then choose_fd else sim_fd) sys g = Gives (hp, hc) /\
    (s_m1 sys = mass_1 b * solar_mass /\ s_m2 sys = mass_2 b * solar_mass /\ s_distance sys = distance b * 1e6 * parsec /\ s_phase sys = phase b /\ s_approx sys = approx)%R /\
    (g_df g = nth 1 fs 0 - nth 0 fs 0)%R /\ g_max g = hi /\
    length p = length fs /\ length c = length fs /\
    forall i, i < length fs ->
      nth i p (RtoC 0) = (if in_bounds lo hi (nth i fs 0%R) then placed (fd_implemented approx) hp (nth i fs 0%R) (nth i (data hp) (RtoC 0)) else RtoC 0) /\
      nth i c (RtoC 0) = (if in_bounds lo hi (nth i fs 0%R) then placed (fd_implemented approx) hp (nth i fs 0%R) (nth i (data hc) (RtoC 0)) else RtoC 0).
Proof.
  intros W H. destruct (base_ok _ _ _ _ _ H) as (b' & kw0 & kw1 & approx & fref & lo & hi & pn & cv & lal & f0 & f1 & fs' & RR).
  rewrite (base_reaches _ _ _ _ _ _ _ _ _ _ _ _ _ _ _ _ _ RR) in H. destruct RR as (R1 & R2 & R3 & R4 & R5 & R6 & R7 & R8 & R9 & R10 & ->).
  apply after_ok in H. destruct H as (hp & hc & G & _ & H). destruct (read_ok _ _ _ _ _ W R2) as (_ & O & _ & B1 & B2 & B3 & B4 & B5).
  exists lo, hi, approx, (the_system b' fref lal approx), (the_grid b' lo hi pn approx f0 f1), hp, hc.
  rewrite O in R3, R5, R6 by (cbn; intuition discriminate). split; [exact R5|]. split; [exact R6|]. split; [exact R3|]. split; [exact G|].
  split; [|split; [reflexivity|split; [reflexivity|exact H]]]. unfold the_system, make_system. cbn. rewrite B1, B2, B3, B5. auto.
Qed.
(** The shift in time changes no modulus. *)
Theorem C191_modulus fd hp f z : Cmod (placed fd hp f z) = Cmod z.
Proof.
  unfold placed. destruct fd; [reflexivity|]. rewrite Cmod_mult. set (x := (2 * PI * (1 / delta_f hp + epoch hp) * f)%R).
  replace (Cmod (cos x, (- sin x)%R)) with 1%R; [ring|]. unfold Cmod. cbn [fst snd]. replace (cos x ^ 2 + (- sin x) ^ 2)%R with 1%R; [symmetry; apply sqrt_1|].
  pose proof (sin2_cos2 x) as S2. unfold Rsqr in S2. lra.
Qed.
(** No waveform is returned in place of an error exactly when lalsimulation reports an input outside its domain and errors are
    caught; every other failure of lalsimulation is raised. *)
Theorem C191_failure given fs b kw b' kw0 kw1 approx fref lo hi pn cv lal f0 f1 fs' args :
  reaches given fs b kw b' kw0 kw1 approx fref lo hi pn cv lal f0 f1 fs' ->
  (if fd_implemented approx then choose_fd else sim_fd) (the_system b' fref lal approx) (the_grid b' lo hi pn approx f0 f1) = Fails args ->
  base given fs b kw =
    if truthy cv then match args with [] => Raise IndexError | a :: _ => if String.eqb a domain_error then Ok None else Raise (LalError args) end
    else Raise (LalError args).
Proof.
  intros RR F. rewrite (base_reaches _ _ _ _ _ _ _ _ _ _ _ _ _ _ _ _ _ RR), F. cbn [after]. unfold on_failure. destruct (truthy cv); reflexivity.
Qed.
Theorem C191_none given fs b kw : base given fs b kw = Ok None ->
  exists approx sys g args, (if fd_implemented approx then choose_fd else sim_fd) sys g = Fails (domain_error :: args) /\
  exists kw0 b' cv, read_optional optional b kw = Ok (b', kw0) /\ dget kw0 "catch_waveform_errors" = Some cv /\ truthy cv = true.
Proof.
  intros H. destruct (base_ok _ _ _ _ _ H) as (b' & kw0 & kw1 & approx & fref & lo & hi & pn & cv & lal & f0 & f1 & fs' & RR).
  rewrite (base_reaches _ _ _ _ _ _ _ _ _ _ _ _ _ _ _ _ _ RR) in H. destruct RR as (R1 & R2 & R3 & R4 & R5 & R6 & R7 & R8 & R9 & R10 & ->).
  destruct ((if fd_implemented approx then choose_fd else sim_fd) (the_system b' fref lal approx) (the_grid b' lo hi pn approx f0 f1)) as [[hp hc]|args] eqn:A; cbn [after] in H.
  - apply bind_ok in H. destruct H as (p0 & _ & H). apply bind_ok in H. destruct H as (c0 & _ & H). apply bind_ok in H. destruct H as ([p1 c1] & _ & H).
    apply bind_ok in H. destruct H as (u & _ & H). discriminate H.
  - unfold on_failure in H. destruct (truthy cv) eqn:T; [|discriminate H]. cbn [negb] in H. destruct args as [|x args]; [discriminate H|].
    destruct (String.eqb_spec x domain_error) as [->|]; [|discriminate H].
    exists approx, (the_system b' fref lal approx), (the_grid b' lo hi pn approx f0 f1), args. split; [exact A|]. exists kw0, b', cv. auto.
Qed.

(** ** C192: what reaches lalsimulation, and arguments that nothing uses *)
(** The value under a lal name: the orders under their lal names, the deformabilities of the call, the numerical relativity data,
    and otherwise the keyword argument of that name. *)
Definition source (kw : dict val) (l1 l2 : R) (k : string) : option val :=
  if String.eqb k "PNSpinOrder" then dget kw "pn_spin_order"
  else if String.eqb k "PNTidalOrder" then dget kw "pn_tidal_order"
  else if String.eqb k "PNPhaseOrder" then dget kw "pn_phase_order"
  else if String.eqb k "PNAmplitudeOrder" then dget kw "pn_amplitude_order"
  else if String.eqb k "NumRelData" then Some (match dget kw "numerical_relativity_data" with Some v => v | None => VNone end)
  else if String.eqb k "TidalLambda1" then Some (VNum l1)
  else if String.eqb k "TidalLambda2" then Some (VNum l2)
  else if existsb (String.eqb k) ["pn_spin_order"; "pn_tidal_order"; "pn_phase_order"; "pn_amplitude_order"; "numerical_relativity_data"; "lal_waveform_dictionary"] then None
  else dget kw k.
Lemma fold_inserts ks kw lal kw' lal' : wf kw -> fold_left (insert_step inserts) ks (kw, lal) = (kw', lal') ->
  wf kw' /\ forall k, dget kw' k = (if existsb (String.eqb k) ks && inserts k then None else dget kw k) /\
  dget lal' k = (if existsb (String.eqb k) ks && inserts k then match dget kw k with Some VNone | None => dget lal k | Some v => Some v end else dget lal k).
Proof.
  revert kw lal. induction ks as [|j ks IH]; intros kw lal W H; cbn [fold_left] in H.
  - injection H as <- <-. split; [exact W|]. intros k. split; reflexivity.
  - destruct (insert_step inserts (kw, lal) j) as [kw1 lal1] eqn:E. unfold insert_step in E.
    assert (W1 : wf kw1).
    { destruct (inserts j); [|injection E as <- <-; exact W]. destruct (dget kw j) as [[]|]; injection E as <- <-; try (apply wf_del; exact W); exact W. }
    apply IH in H; [|exact W1]. destruct H as [W' H]. split; [exact W'|]. intros k. destruct (H k) as [H1 H2]. rewrite H1, H2. clear H H1 H2 IH. cbn [existsb].
    destruct (inserts j) eqn:IJ.
    2: { injection E as <- <-. destruct (String.eqb_spec k j) as [->|N]; [rewrite IJ, !andb_false_r; split; reflexivity|]. cbn [orb]. split; reflexivity. }
    destruct (String.eqb_spec k j) as [->|N].
    + cbn [orb andb]. rewrite IJ, !andb_true_r. cbn [andb].
      assert (DJ : dget (ddel kw j) j = None) by (apply dget_del_eq; exact W).
      destruct (dget kw j) as [v|] eqn:G.
      * destruct v; injection E as <- <-; rewrite DJ, ?dget_set_eq; destruct (existsb (String.eqb j) ks); split; reflexivity.
      * injection E as <- <-. rewrite G. destruct (existsb (String.eqb j) ks); split; reflexivity.
    + cbn [orb]. assert (D1 : dget kw1 k = dget kw k) by (destruct (dget kw j) as [[]|]; injection E as <- <-; rewrite ?dget_del_ne by exact N; reflexivity).
      assert (D2 : dget lal1 k = dget lal k) by (destruct (dget kw j) as [[]|]; injection E as <- <-; rewrite ?dget_set_ne by exact N; reflexivity).
      rewrite D1, D2. split; reflexivity.
Qed.
Lemma existsb_keys (kw : dict val) k : existsb (String.eqb k) (dkeys kw) = dmem kw k.
Proof.
  induction kw as [|[j v] t IH]; [reflexivity|]. cbn. unfold dmem in *. cbn. destruct (String.eqb k j); [reflexivity|exact IH].
Qed.
Lemma pop_default_get d k v x d' : wf d -> pop_default d k v = (x, d') ->
  x = (match dget d k with Some y => y | None => v end) /\ wf d' /\ forall j, dget d' j = if String.eqb j k then None else dget d j.
Proof.
  intros W. unfold pop_default. destruct (dget d k) as [y|] eqn:E; intros H; injection H as <- <-.
  - split; [reflexivity|]. split; [apply wf_del; exact W|]. intros j. apply dget_del. exact W.
  - split; [reflexivity|]. split; [exact W|]. intros j. destruct (String.eqb_spec j k) as [->|]; [exact E|reflexivity].
Qed.
Lemma activate_ok m a : activate m = Ok a -> a = map (firstn 2) m.
Proof.
  revert a. induction m as [|x m IH]; intros a H; cbn in H; [apply ok_inj in H; subst; reflexivity|]. destruct x as [|l [|m' x]]; try discriminate.
  apply bind_ok in H. destruct H as (r & H1 & H2). apply ok_inj in H2. subst a. cbn. f_equal. apply IH. exact H1.
Qed.
Lemma rename_step kw k t kw' : wf kw -> rename (k :: t) kw = Ok kw' -> lal_name k <> k ->
  exists v kw1, dget kw k = Some v /\ rename t kw1 = Ok kw' /\ wf kw1 /\ forall j, dget kw1 j = if String.eqb j (lal_name k) then Some v else if String.eqb j k then None else dget kw j.
Proof.
  intros W H N. cbn [rename] in H. apply bind_ok in H. destruct H as ([v kw1] & P & H). apply pop_ok in P. destruct P as [G ->].
  exists v, (dset (ddel kw k) (lal_name k) v). split; [exact G|]. split; [exact H|]. split; [apply wf_set, wf_del; exact W|].
  intros j. rewrite dget_set, dget_del by exact W. reflexivity.
Qed.
(** The lal dictionary and the remaining arguments after set_waveform_dictionary: starting from the dictionary passed by the user,
    every argument that lalsimulation has a function for is entered unless it is None - the orders, the deformabilities and
    the numerical relativity data under their lal names, whatever was passed under those names -, the modes replace a mode
    array entered that way, and only arguments that lalsimulation does not know are left. *)
Theorem C192_dictionary kw l1 l2 kw' lal' : wf kw -> inserts "mode_array" = false -> swd kw l1 l2 = Ok (kw', lal') ->
  exists lal0, match dget kw "lal_waveform_dictionary" with None => lal0 = [] | Some v => v = VLal lal0 end /\
  (forall k, dget lal' k =
     match (if String.eqb k "ModeArray" then dget kw "mode_array" else None) with
     | Some (VModes m) => Some (VModes (map (firstn 2) m))
     | _ => if inserts k then match source kw l1 l2 k with Some VNone | None => dget lal0 k | Some v => Some v end else dget lal0 k
     end) /\
  (forall k, dget kw' k = if inserts k || String.eqb k "mode_array" then None else source kw l1 l2 k).
Proof.
  intros W NM H. unfold set_waveform_dictionary in H.
  destruct (pop_default kw "lal_waveform_dictionary" (VLal [])) as [w kw0] eqn:P0. apply pop_default_get in P0; [|exact W]. destruct P0 as (Ew & W0 & G0).
  destruct w as [ | | | | | | |lal0]; try discriminate H. exists lal0. split.
  { destruct (dget kw "lal_waveform_dictionary"); [congruence|]. injection Ew as ->. reflexivity. }
  set (kw1 := dset (dset kw0 "TidalLambda1" (VNum l1)) "TidalLambda2" (VNum l2)) in H.
  assert (W1 : wf kw1) by (apply wf_set, wf_set; exact W0).
  assert (G1 : forall j, dget kw1 j = if String.eqb j "TidalLambda2" then Some (VNum l2) else if String.eqb j "TidalLambda1" then Some (VNum l1) else dget kw0 j) by (intros j; unfold kw1; rewrite !dget_set; reflexivity).
  clearbody kw1. destruct (pop_default kw1 "numerical_relativity_data" VNone) as [nr kw2] eqn:P2. apply pop_default_get in P2; [|exact W1]. destruct P2 as (En & W2 & G2).
  apply bind_ok in H. destruct H as (kw3 & RN & H).
  assert (Wn : wf (dset kw2 "NumRelData" nr)) by (apply wf_set; exact W2).
  pose proof (dget_set kw2 "NumRelData" nr) as Gn. set (kwn := dset kw2 "NumRelData" nr) in *. clearbody kwn.
  unfold pn_keys in RN.
  apply rename_step in RN; [|exact Wn|intros X; discriminate X]. destruct RN as (v1 & k1 & V1 & RN & Wa & Ga).
  apply rename_step in RN; [|exact Wa|intros X; discriminate X]. destruct RN as (v2 & k2 & V2 & RN & Wb & Gb).
  apply rename_step in RN; [|exact Wb|intros X; discriminate X]. destruct RN as (v3 & k3 & V3 & RN & Wc & Gc).
  apply rename_step in RN; [|exact Wc|intros X; discriminate X]. destruct RN as (v4 & k4 & V4 & RN & Wd & Gd).
  cbn [rename] in RN. apply ok_inj in RN. subst k4.
  change (lal_name "pn_spin_order") with "PNSpinOrder" in Ga. change (lal_name "pn_tidal_order") with "PNTidalOrder" in Gb.
  change (lal_name "pn_phase_order") with "PNPhaseOrder" in Gc. change (lal_name "pn_amplitude_order") with "PNAmplitudeOrder" in Gd.
  assert (B : forall k, dget kw3 k = source kw l1 l2 k).
  { intros k. rewrite Gc in V4. cbn in V4. rewrite Gb in V4, V3. cbn in V4, V3. rewrite Ga in V4, V3, V2. cbn in V4, V3, V2.
    rewrite Gn in V4, V3, V2, V1. cbn in V4, V3, V2, V1. rewrite G2 in V4, V3, V2, V1. cbn in V4, V3, V2, V1. rewrite G1 in V4, V3, V2, V1. cbn in V4, V3, V2, V1.
    rewrite G0 in V4, V3, V2, V1. cbn in V4, V3, V2, V1.
    rewrite Gd, Gc, Gb, Ga, Gn, G2, G1, G0. unfold source. rewrite <- V1, <- V2, <- V3, <- V4. rewrite G1 in En. cbn in En. rewrite G0 in En. cbn in En. subst nr. cbn [existsb].
    repeat match goal with |- context [String.eqb k ?s] => destruct (String.eqb_spec k s) as [->|]; [cbn; congruence|] end. reflexivity. }
  destruct (fold_left (insert_step inserts) (dkeys kw3) (kw3, lal0)) as [kw4 lal1] eqn:F. apply fold_inserts in F; [|exact Wd]. destruct F as [W4 F].
  assert (F1 : forall k, dget kw4 k = if inserts k then None else source kw l1 l2 k).
  { intros k. destruct (F k) as [E _]. rewrite E, existsb_keys, <- B. unfold dmem. destruct (dget kw3 k) eqn:E3; destruct (inserts k); reflexivity. }
  assert (F2 : forall k, dget lal1 k = if inserts k then match source kw l1 l2 k with Some VNone | None => dget lal0 k | Some v => Some v end else dget lal0 k).
  { intros k. destruct (F k) as [_ E]. rewrite E, existsb_keys, <- B. unfold dmem. destruct (dget kw3 k) eqn:E3; destruct (inserts k); reflexivity. }
  unfold add_modes in H. destruct (pop_default kw4 "mode_array" VNone) as [mv kw5] eqn:PM. apply pop_default_get in PM; [|exact W4]. destruct PM as (Em & W5 & G5).
  assert (MS : dget kw4 "mode_array" = dget kw "mode_array") by (rewrite F1, NM; reflexivity). rewrite MS in Em.
  assert (K5 : forall k, dget kw5 k = if inserts k || String.eqb k "mode_array" then None else source kw l1 l2 k).
  { intros k. rewrite G5, F1. destruct (inserts k), (String.eqb k "mode_array"); reflexivity. }
  destruct mv as [ | | | | | |m| ]; try discriminate H.
  - apply ok_inj in H. assert (HH : kw5 = kw' /\ lal1 = lal') by (injection H as -> ->; auto). destruct HH as [-> ->]. split; [|exact K5].
    intros k. rewrite F2. destruct (String.eqb k "ModeArray"); [|reflexivity]. destruct (dget kw "mode_array") as [x|]; [subst x|]; reflexivity.
  - apply bind_ok in H. destruct H as (a & A & H). apply activate_ok in A. subst a. apply ok_inj in H.
    assert (HH : kw5 = kw' /\ dset lal1 "ModeArray" (VModes (map (firstn 2) m)) = lal') by (injection H as -> <-; auto). destruct HH as [-> <-]. split; [|exact K5].
    intros k. rewrite dget_set. destruct (dget kw "mode_array") as [x|]; [subst x|discriminate Em]. destruct (String.eqb k "ModeArray"); [reflexivity|apply F2].
Qed.

(** *** one more argument that nothing uses *)
Definition ext (k : string) (v : val) (d d' : dict val) : Prop := exists a c, d = a ++ c /\ d' = a ++ (k, v) :: c /\ dget d k = None.
Lemma dget_app {V} (a c : dict V) j : dget (a ++ c) j = match dget a j with Some x => Some x | None => dget c j end.
Proof. induction a as [|[j' x] a IH]; [reflexivity|]. cbn. destruct (String.eqb j j'); [reflexivity|exact IH]. Qed.
Lemma dset_app {V} (a c : dict V) j x : dset (a ++ c) j x = match dget a j with Some _ => dset a j x ++ c | None => a ++ dset c j x end.
Proof.
  induction a as [|[j' y] a IH]; [reflexivity|]. cbn. destruct (String.eqb j j'); [reflexivity|]. rewrite IH. destruct (dget a j); reflexivity.
Qed.
Lemma ddel_app {V} (a c : dict V) j : ddel (a ++ c) j = match dget a j with Some _ => ddel a j ++ c | None => a ++ ddel c j end.
Proof.
  induction a as [|[j' y] a IH]; [reflexivity|]. cbn. destruct (String.eqb j j'); [reflexivity|]. rewrite IH. destruct (dget a j); reflexivity.
Qed.
Lemma dset_absent {V} (a : dict V) j x : dget a j = None -> dset a j x = a ++ [(j, x)].
Proof. intros H. induction a as [|[j' y] a IH]; [reflexivity|]. cbn in *. destruct (String.eqb j j'); [discriminate|]. rewrite IH by exact H. reflexivity. Qed.
Lemma ext_append k v d : dget d k = None -> ext k v d (dset d k v).
Proof. intros H. exists d, []. rewrite app_nil_r, (dset_absent d k v H). auto. Qed.
Lemma ext_get k v d d' j : ext k v d d' -> j <> k -> dget d' j = dget d j.
Proof.
  intros (a & c & -> & -> & _) N. rewrite !dget_app. cbn. destruct (dget a j); [reflexivity|]. destruct (String.eqb_spec j k); [contradiction|reflexivity].
Qed.
Lemma ext_nonempty k v d d' : ext k v d d' -> d' <> [].
Proof. intros (a & c & _ & -> & _). destruct a; discriminate. Qed.
Lemma ext_set k v d d' j x : ext k v d d' -> j <> k -> ext k v (dset d j x) (dset d' j x).
Proof.
  intros (a & c & -> & -> & G) N. assert (G' : dget (dset (a ++ c) j x) k = None) by (rewrite dget_set_ne by congruence; exact G).
  rewrite dset_app in *. destruct (dget a j) eqn:E.
  - exists (dset a j x), c. rewrite dset_app, E. auto.
  - exists a, (dset c j x). rewrite dset_app, E. cbn. destruct (String.eqb_spec j k); [contradiction|]. auto.
Qed.
Lemma dget_del_none {V} (d : dict V) j k : dget d k = None -> dget (ddel d j) k = None.
Proof.
  induction d as [|[j' y] t IH]; [reflexivity|]. cbn. destruct (String.eqb k j') eqn:E; [discriminate|]. intros H. destruct (String.eqb j j'); [exact H|]. cbn. rewrite E. apply IH. exact H.
Qed.
Lemma ext_del k v d d' j : ext k v d d' -> j <> k -> ext k v (ddel d j) (ddel d' j).
Proof.
  intros (a & c & -> & -> & G) N. pose proof (dget_del_none _ j k G) as G'.
  rewrite ddel_app in *. destruct (dget a j) eqn:E.
  - exists (ddel a j), c. rewrite ddel_app, E. auto.
  - exists a, (ddel c j). rewrite ddel_app, E. cbn. destruct (String.eqb_spec j k); [contradiction|]. auto.
Qed.
Lemma ext_pop k v d d' j x r : ext k v d d' -> j <> k -> pop d j = Ok (x, r) -> exists r', pop d' j = Ok (x, r') /\ ext k v r r'.
Proof.
  intros E N P. apply pop_ok in P. destruct P as [G ->]. exists (ddel d' j). split; [apply pop_get; rewrite (ext_get k v d d' j E N); exact G|apply ext_del; assumption].
Qed.
Lemma ext_pop_default k v d d' j y x r : ext k v d d' -> j <> k -> pop_default d j y = (x, r) -> exists r', pop_default d' j y = (x, r') /\ ext k v r r'.
Proof.
  intros E N. unfold pop_default. rewrite (ext_get k v d d' j E N). destruct (dget d j); intros P; injection P as <- <-; eexists; (split; [reflexivity|]); [apply ext_del|]; assumption.
Qed.
Lemma ext_rename k v keys : (forall j, In j keys -> j <> k /\ lal_name j <> k) -> forall d d' r, ext k v d d' -> rename keys d = Ok r -> exists r', rename keys d' = Ok r' /\ ext k v r r'.
Proof.
  induction keys as [|j t IH]; intros N d d' r E H; cbn [rename] in *; [apply ok_inj in H; subst r; exists d'; auto|].
  destruct (N j (or_introl eq_refl)) as [N1 N2]. apply bind_ok in H. destruct H as ([x d1] & P & H). destruct (ext_pop _ _ _ _ _ _ _ E N1 P) as (d1' & P' & E').
  rewrite P'. cbn [bind]. eapply IH; [|apply ext_set; [exact E'|exact N2]|exact H]. intros i Hi. apply N. right. exact Hi.
Qed.
Lemma ext_step k v d d' lal j d1 lal1 : ext k v d d' -> j <> k -> insert_step inserts (d, lal) j = (d1, lal1) ->
  exists d1', insert_step inserts (d', lal) j = (d1', lal1) /\ ext k v d1 d1'.
Proof.
  intros E N. unfold insert_step. destruct (inserts j); [|intros H; injection H as <- <-; exists d'; auto]. rewrite (ext_get k v d d' j E N).
  destruct (dget d j) as [[]|]; intros H; injection H as <- <-; eexists; (split; [reflexivity|]); try (apply ext_del; assumption); assumption.
Qed.
Lemma ext_fold k v ks : ~ In k ks -> forall d d' lal d1 lal1, ext k v d d' -> fold_left (insert_step inserts) ks (d, lal) = (d1, lal1) ->
  exists d1', fold_left (insert_step inserts) ks (d', lal) = (d1', lal1) /\ ext k v d1 d1'.
Proof.
  induction ks as [|j ks IH]; intros N d d' lal d1 lal1 E H; cbn [fold_left] in *; [injection H as <- <-; exists d'; auto|].
  destruct (insert_step inserts (d, lal) j) as [d2 lal2] eqn:S2. destruct (ext_step k v d d' lal j d2 lal2 E (fun e => N (or_introl e)) S2) as (d2' & S2' & E').
  rewrite S2'. eapply IH; [intros X; apply N; right; exact X|exact E'|exact H].
Qed.
Definition dictionary_names := ["lal_waveform_dictionary"; "TidalLambda1"; "TidalLambda2"; "numerical_relativity_data"; "NumRelData"; "pn_spin_order"; "pn_tidal_order";
  "pn_phase_order"; "pn_amplitude_order"; "PNSpinOrder"; "PNTidalOrder"; "PNPhaseOrder"; "PNAmplitudeOrder"; "mode_array"].
Lemma ext_swd k v kw kw' l1 l2 r lal : ~ In k dictionary_names -> inserts k = false -> ext k v kw kw' -> swd kw l1 l2 = Ok (r, lal) ->
  exists r', swd kw' l1 l2 = Ok (r', lal) /\ ext k v r r'.
Proof.
  clear known fd_implemented low_to_start transform choose_fd sim_fd choose_sequence parsec solar_mass.
  intros N I E H. assert (NN : forall j, In j dictionary_names -> j <> k) by (intros j J ->; contradiction).
  unfold set_waveform_dictionary in *. destruct (pop_default kw "lal_waveform_dictionary" (VLal [])) as [w kw0] eqn:P.
  destruct (ext_pop_default _ _ _ _ _ _ _ _ E (NN "lal_waveform_dictionary" ltac:(cbn; tauto)) P) as (kw0' & P' & E0). rewrite P'.
  destruct w as [ | | | | | | |lal0]; try discriminate H.
  assert (E1 : ext k v (dset (dset kw0 "TidalLambda1" (VNum l1)) "TidalLambda2" (VNum l2)) (dset (dset kw0' "TidalLambda1" (VNum l1)) "TidalLambda2" (VNum l2))).
  { apply ext_set; [apply ext_set; [exact E0|]|]; apply NN; cbn; auto. }
  destruct (pop_default (dset (dset kw0 "TidalLambda1" (VNum l1)) "TidalLambda2" (VNum l2)) "numerical_relativity_data" VNone) as [nr kw2] eqn:P2.
  destruct (ext_pop_default _ _ _ _ _ _ _ _ E1 (NN "numerical_relativity_data" ltac:(cbn; tauto)) P2) as (kw2' & P2' & E2). rewrite P2'.
  apply bind_ok in H. destruct H as (kw3 & RN & H).
  assert (E2' : ext k v (dset kw2 "NumRelData" nr) (dset kw2' "NumRelData" nr)) by (apply ext_set; [exact E2|apply NN; cbn; auto 10]).
  destruct (ext_rename k v pn_keys) with (d := dset kw2 "NumRelData" nr) (d' := dset kw2' "NumRelData" nr) (r := kw3) as (kw3' & RN' & E3); [|exact E2'|exact RN|].
  { intros j J. split; apply NN; cbn in J; repeat (destruct J as [<-|J]; [vm_compute; tauto|]); contradiction. }
  rewrite RN'. cbn [bind]. destruct (fold_left (insert_step inserts) (dkeys kw3) (kw3, lal0)) as [kw4 lal1] eqn:F.
  assert (F' : exists kw4', fold_left (insert_step inserts) (dkeys kw3') (kw3', lal0) = (kw4', lal1) /\ ext k v kw4 kw4').
  { destruct E3 as (a & c & Ea & Eb & G) eqn:EE. assert (ND : ~ In k (dkeys kw3)) by (apply dget_none; exact G).
    assert (SK : forall st, insert_step inserts st k = st) by (intros [d l]; unfold insert_step; rewrite I; reflexivity).
    replace (fold_left (insert_step inserts) (dkeys kw3') (kw3', lal0)) with (fold_left (insert_step inserts) (dkeys kw3) (kw3', lal0)).
    - apply (ext_fold k v (dkeys kw3) ND kw3 kw3' lal0); [exists a, c; auto|exact F].
    - subst kw3 kw3'. unfold dkeys. rewrite !map_app. cbn [map fst]. rewrite !fold_left_app. cbn [fold_left]. rewrite SK. reflexivity. }
  destruct F' as (kw4' & F' & E4). rewrite F'. unfold add_modes in *. destruct (pop_default kw4 "mode_array" VNone) as [mv kw5] eqn:PM.
  destruct (ext_pop_default _ _ _ _ _ _ _ _ E4 (NN "mode_array" ltac:(cbn; tauto)) PM) as (kw5' & PM' & E5). rewrite PM'.
  destruct mv as [ | | | | | |m| ]; try discriminate H.
  - apply ok_inj in H. assert (HH : kw5 = r /\ lal1 = lal) by (injection H as -> ->; auto). destruct HH as [-> ->]. exists kw5'. auto.
  - apply bind_ok in H. destruct H as (aa & A & H). rewrite A. cbn [bind]. apply ok_inj in H.
    assert (HH : kw5 = r /\ dset lal1 "ModeArray" (VModes aa) = lal) by (injection H as -> <-; auto). destruct HH as [-> <-]. exists kw5'. auto.
Qed.
Lemma ext_clash k v kw kw' given : ~ In k required -> ~ In k given -> ext k v kw kw' -> clash given kw' = clash given kw.
Proof.
  intros N1 N2 E. unfold clash. assert (N : ~ In k (required ++ given)) by (rewrite in_app_iff; tauto). revert N. generalize (required ++ given).
  induction l as [|j l IH]; intros N; [reflexivity|]. cbn [existsb]. rewrite IH by (intros X; apply N; right; exact X). f_equal. unfold dmem.
  rewrite (ext_get k v kw kw' j E); [reflexivity|]. intros ->. apply N. left. reflexivity.
Qed.
Lemma ext_read k v names : ~ In k names -> forall b kw kw' b1 kw1, ext k v kw kw' -> read_optional names b kw = Ok (b1, kw1) ->
  exists kw1', read_optional names b kw' = Ok (b1, kw1') /\ ext k v kw1 kw1'.
Proof.
  induction names as [|j t IH]; intros N b kw kw' b1 kw1 E H; cbn [read_optional] in *.
  - apply ok_inj in H. injection H as <- <-. exists kw'. auto.
  - assert (NJ : j <> k) by (intros ->; apply N; left; reflexivity). assert (NT : ~ In k t) by (intros X; apply N; right; exact X).
    rewrite (ext_get k v kw kw' j E NJ). destruct (dget kw j) as [x|].
    + apply bind_ok in H. destruct H as (y & Y & H). rewrite Y. cbn [bind]. eapply IH; [exact NT|apply ext_del; [exact E|exact NJ]|exact H].
    + eapply IH; [exact NT|exact E|exact H].
Qed.
Definition waveform_names := ["waveform_approximant"; "reference_frequency"; "minimum_frequency"; "maximum_frequency"; "catch_waveform_errors"].
Lemma base_stray k v given fs b kw kw' w : ~ In k (required ++ given ++ optional ++ waveform_names ++ dictionary_names) -> inserts k = false -> ext k v kw kw' ->
  base given fs b kw = Ok (Some w) -> base given fs b kw' = Raise (KeyError "waveform_kwargs").
Proof.
  intros N I E H. rewrite !in_app_iff in N. destruct (base_ok _ _ _ _ _ H) as (b' & kw0 & kw1 & approx & fref & lo & hi & pn & cv & lal & f0 & f1 & fs' & RR).
  rewrite (base_reaches _ _ _ _ _ _ _ _ _ _ _ _ _ _ _ _ _ RR) in H. destruct RR as (R1 & R2 & R3 & R4 & R5 & R6 & R7 & R8 & R9 & R10 & R11).
  destruct (ext_read k v optional ltac:(tauto) b kw kw' b' kw0 E R2) as (kw0' & R2' & E0).
  assert (NN : forall j, In j waveform_names -> j <> k) by (intros j J ->; tauto).
  assert (ND : forall j, In j dictionary_names -> j <> k) by (intros j J ->; tauto).
  destruct (ext_swd k v (ddel (ddel (ddel (ddel (ddel kw0 "waveform_approximant") "reference_frequency") "minimum_frequency") "maximum_frequency") "catch_waveform_errors")
     (ddel (ddel (ddel (ddel (ddel kw0' "waveform_approximant") "reference_frequency") "minimum_frequency") "maximum_frequency") "catch_waveform_errors")
     (lambda_1 b') (lambda_2 b') kw1 lal) as (kw1' & R9' & E1); [tauto|exact I| |exact R9|].
  { repeat (apply ext_del; [|apply NN; cbn; tauto]). exact E0. }
  assert (RR' : reaches given fs b kw' b' kw0' kw1' approx fref lo hi pn cv lal f0 f1 fs').
  { unfold reaches. rewrite !(ext_get k v kw0 kw0' _ E0) by (first [apply NN; cbn; tauto|apply ND; cbn; tauto]).
    rewrite (ext_clash k v kw kw' given) by tauto. repeat (split; [assumption|]). assumption. }
  rewrite (base_reaches _ _ _ _ _ _ _ _ _ _ _ _ _ _ _ _ _ RR'). destruct w as [p c].
  unfold after in *. destruct ((if fd_implemented approx then choose_fd else sim_fd) (the_system b' fref lal approx) (the_grid b' lo hi pn approx f0 f1)) as [[hp hc]|args].
  2: { unfold on_failure in H. destruct (truthy cv); [|discriminate H]. cbn [negb] in H. destruct args as [|x args]; [discriminate H|]. destruct (String.eqb x domain_error); discriminate H. }
  cbv zeta in H |- *. apply bind_ok in H. destruct H as (p0 & F1 & H). rewrite F1. cbn [bind]. apply bind_ok in H. destruct H as (c0 & F2 & H). rewrite F2. cbn [bind].
  apply bind_ok in H. destruct H as ([p1 c1] & F3 & H). rewrite F3. cbn [bind]. rewrite report_raise by (apply ext_nonempty in E1; exact E1). reflexivity.
Qed.
Lemma update_app d a c : update d (a ++ c) = update (update d a) c.
Proof. unfold update. apply fold_left_app. Qed.
Lemma update_none d kw k : dget d k = None -> dget kw k = None -> dget (update d kw) k = None.
Proof.
  revert d. induction kw as [|[j x] t IH]; intros d H1 H2; [exact H1|]. cbn in *. destruct (String.eqb_spec k j) as [->|N]; [discriminate|]. apply IH; [|exact H2].
  rewrite dget_set_ne by exact N. exact H1.
Qed.
Lemma ext_update k v d kw : dget d k = None -> dget kw k = None -> ext k v (update d kw) (update d (dset kw k v)).
Proof.
  intros H1 H2. rewrite (dset_absent kw k v H2), update_app. cbn. apply ext_append. apply update_none; assumption.
Qed.
Lemma get_not_in {V} (d : dict V) k : ~ In k (dkeys d) -> dget d k = None.
Proof. intros H. apply dget_none. exact H. Qed.
(** An argument that neither bilby nor lalsimulation uses, added to a call that works, makes the call fail: the message about it,
    announced as a warning, cannot be formatted. *)
Theorem C192_stray fs b kw k v w :
  ~ In k (required ++ optional ++ waveform_names ++ dictionary_names) -> inserts k = false -> dget kw k = None ->
  lal_bbh fs b kw = Ok (Some w) -> lal_bbh fs b (dset kw k v) = Raise (KeyError "waveform_kwargs").
Proof.
  intros N I G H. unfold lal_binary_black_hole in *. apply bind_ok in H. destruct H as (fmax & F & H). rewrite F. cbn [bind].
  eapply base_stray; [| exact I| |exact H].
  - rewrite !in_app_iff in *. unfold optional in N. rewrite !in_app_iff in N. unfold optional. rewrite !in_app_iff. tauto.
  - apply ext_update; [|exact G]. apply get_not_in. rewrite !in_app_iff in N. intros X. apply N. right. right. cbn in X.
    repeat (destruct X as [<-|X]; [cbn; tauto|]). contradiction.
Qed.

(** A binary waveform is returned only if every argument is one that bilby or lalsimulation uses. *)
Theorem C192_used given fs b kw w k v : wf kw -> inserts "mode_array" = false -> base given fs b kw = Ok (Some w) -> dget kw k = Some v ->
  inserts k = true \/ In k (optional ++ waveform_names ++ dictionary_names).
Proof.
  intros W NM H G. destruct (base_ok _ _ _ _ _ H) as (b' & kw0 & kw1 & approx & fref & lo & hi & pn & cv & lal & f0 & f1 & fs' & RR).
  rewrite (base_reaches _ _ _ _ _ _ _ _ _ _ _ _ _ _ _ _ _ RR) in H. destruct RR as (R1 & R2 & R3 & R4 & R5 & R6 & R7 & R8 & R9 & R10 & ->).
  destruct w as [p c]. apply after_ok in H. destruct H as (hp & hc & _ & E & _). subst kw1.
  destruct (in_dec string_dec k (optional ++ waveform_names ++ dictionary_names)) as [IN|NI]; [right; exact IN|]. left.
  destruct (inserts k) eqn:IK; [reflexivity|exfalso]. rewrite !in_app_iff in NI.
  destruct (read_ok _ _ _ _ _ W R2) as (W0 & O & _). apply C192_dictionary in R9; [|repeat apply wf_del; exact W0|exact NM]. destruct R9 as (lal0 & _ & _ & R9).
  specialize (R9 k). cbn [dget] in R9. rewrite IK in R9. cbn [orb] in R9.
  assert (ND : forall j, In j (waveform_names ++ dictionary_names) -> String.eqb k j = false).
  { intros j J. apply String.eqb_neq. intros ->. rewrite in_app_iff in J. tauto. }
  unfold source in R9. cbn [existsb] in R9. rewrite !ND in R9 by (cbn; tauto). cbn [orb] in R9.
  rewrite !dget_del_ne in R9 by (apply String.eqb_neq, ND; cbn; tauto). rewrite O in R9 by tauto. congruence.
Qed.
Lemma dset_same {V} (d : dict V) k x : dget d k = Some x -> dset d k x = d.
Proof. induction d as [|[j y] t IH]; [discriminate|]. cbn. destruct (String.eqb_spec k j) as [->|]; intros H; [congruence|]. rewrite IH by exact H. reflexivity. Qed.
Lemma update_keeps d kw k x : dget d k = Some x -> dget kw k = None -> dget (update d kw) k = Some x.
Proof.
  revert d. induction kw as [|[j y] t IH]; intros d H1 H2; [exact H1|]. cbn in *. destruct (String.eqb_spec k j) as [->|N]; [discriminate|]. apply IH; [|exact H2].
  rewrite dget_set_ne by exact N. exact H1.
Qed.
(** Passing a default explicitly changes nothing. *)
Theorem C192_default fs b kw k x : fs <> [] -> dget kw k = None -> dget (fd_defaults "IMRPhenomPv2" 50 20 (last fs 0%R)) k = Some x ->
  lal_bbh fs b (dset kw k x) = lal_bbh fs b kw.
Proof.
  intros NE G D. unfold lal_binary_black_hole. assert (L : last_frequency fs = Ok (last fs 0%R)) by (destruct fs; [contradiction|reflexivity]). rewrite L. cbn [bind].
  rewrite (dset_absent kw k x G), update_app. cbn [update fold_left fst snd].
  change (fold_left (fun acc p => dset acc (fst p) (snd p)) kw (fd_defaults "IMRPhenomPv2" 50 20 (last fs 0%R))) with (update (fd_defaults "IMRPhenomPv2" 50 20 (last fs 0%R)) kw).
  unfold update at 1. cbn [fold_left fst snd]. rewrite dset_same; [reflexivity|]. apply update_keeps; assumption.
Qed.

(** *** the frequency sequence *)
Definition seq_reaches (b : binary) kw kw1 approx fref freqs cv lal : Prop :=
  clash (spin_names ++ tidal_names) kw = false /\ dget kw "frequencies" = Some (VArr freqs) /\ dget kw "reference_frequency" = Some (VNum fref) /\
  dget kw "waveform_approximant" = Some (VText approx) /\ dget kw "catch_waveform_errors" = Some cv /\
  swd (ddel (ddel (ddel (ddel kw "frequencies") "reference_frequency") "waveform_approximant") "catch_waveform_errors") (lambda_1 b) (lambda_2 b) = Ok (kw1, lal) /\
  known approx = true.
Definition seq_after kw1 cv (a : answer waves) : res (option waves) :=
  match a with Fails args => on_failure (truthy cv) args | Gives (p, c) => let! _ := report_unused kw1 in Ok (Some (p, c)) end.
Lemma sequence_reaches b kw kw1 approx fref freqs cv lal : seq_reaches b kw kw1 approx fref freqs cv lal ->
  sequence b kw = seq_after kw1 cv (choose_sequence (the_system b fref lal approx) freqs).
Proof.
  intros (H1 & H2 & H3 & H4 & H5 & H6 & H7). unfold base_sequence. rewrite H1. rewrite (pop_get _ _ _ H2). cbn [bind].
  rewrite (pop_get _ _ (VNum fref)); [cbn [bind]|rewrite ?dget_del_ne by discriminate; exact H3].
  rewrite (pop_get _ _ (VText approx)); [cbn [bind]|rewrite ?dget_del_ne by discriminate; exact H4].
  rewrite (pop_get _ _ cv); [cbn [bind]|rewrite ?dget_del_ne by discriminate; exact H5].
  rewrite H6. cbn [bind as_text as_num as_arr]. rewrite H7. reflexivity.
Qed.
Lemma sequence_ok b kw o : sequence b kw = Ok o -> exists kw1 approx fref freqs cv lal, seq_reaches b kw kw1 approx fref freqs cv lal.
Proof.
  intros H. unfold base_sequence in H. destruct (clash (spin_names ++ tidal_names) kw) eqn:E1; [discriminate H|].
  apply bind_ok in H. destruct H as ([fv ka] & Ef & H). apply pop_ok in Ef. destruct Ef as [Ef ->].
  apply bind_ok in H. destruct H as ([rv ka] & Er & H). apply pop_ok in Er. destruct Er as [Er ->].
  apply bind_ok in H. destruct H as ([av ka] & Ea & H). apply pop_ok in Ea. destruct Ea as [Ea ->].
  apply bind_ok in H. destruct H as ([cv ka] & Ec & H). apply pop_ok in Ec. destruct Ec as [Ec ->].
  rewrite ?dget_del_ne in Er by discriminate. rewrite ?dget_del_ne in Ea by discriminate. rewrite ?dget_del_ne in Ec by discriminate.
  apply bind_ok in H. destruct H as ([kw1 lal] & Es & H).
  apply bind_ok in H. destruct H as (approx & Ta & H). apply as_text_ok in Ta. subst av.
  apply bind_ok in H. destruct H as (fref & Tr & H). apply as_num_ok in Tr. subst rv.
  apply bind_ok in H. destruct H as (freqs & Tf & H). apply as_arr_ok in Tf. subst fv.
  destruct (known approx) eqn:EK; [|discriminate H]. exists kw1, approx, fref, freqs, cv, lal. unfold seq_reaches. repeat (split; [assumption|]). assumption.
Qed.
Definition sequence_names := ["frequencies"; "reference_frequency"; "waveform_approximant"; "catch_waveform_errors"].
Lemma sequence_stray k v b kw kw' w : ~ In k (required ++ spin_names ++ tidal_names ++ sequence_names ++ dictionary_names) -> inserts k = false -> ext k v kw kw' ->
  sequence b kw = Ok (Some w) -> sequence b kw' = Raise (KeyError "waveform_kwargs").
Proof.
  intros N I E H. rewrite !in_app_iff in N. destruct (sequence_ok _ _ _ H) as (kw1 & approx & fref & freqs & cv & lal & RR).
  rewrite (sequence_reaches _ _ _ _ _ _ _ _ RR) in H. destruct RR as (R1 & R2 & R3 & R4 & R5 & R6 & R7).
  assert (NN : forall j, In j sequence_names -> j <> k) by (intros j J ->; tauto).
  destruct (ext_swd k v (ddel (ddel (ddel (ddel kw "frequencies") "reference_frequency") "waveform_approximant") "catch_waveform_errors")
     (ddel (ddel (ddel (ddel kw' "frequencies") "reference_frequency") "waveform_approximant") "catch_waveform_errors")
     (lambda_1 b) (lambda_2 b) kw1 lal) as (kw1' & R6' & E1); [tauto|exact I| |exact R6|].
  { repeat (apply ext_del; [|apply NN; cbn; tauto]). exact E. }
  assert (RR' : seq_reaches b kw' kw1' approx fref freqs cv lal).
  { unfold seq_reaches. rewrite !(ext_get k v kw kw' _ E) by (apply NN; cbn; tauto).
    rewrite (ext_clash k v kw kw') by (rewrite ?in_app_iff; tauto). repeat (split; [assumption|]). assumption. }
  rewrite (sequence_reaches _ _ _ _ _ _ _ _ RR'). destruct (choose_sequence (the_system b fref lal approx) freqs) as [[p c]|args]; cbn [seq_after] in *.
  - rewrite report_raise by (apply ext_nonempty in E1; exact E1). reflexivity.
  - unfold on_failure in H. destruct (truthy cv); [|discriminate H]. cbn [negb] in H. destruct args as [|x args]; [discriminate H|]. destruct (String.eqb x domain_error); discriminate H.
Qed.
(** A model on chosen frequencies that is given a minimum or maximum frequency, or anything else it does not use, fails the same
    way. *)
Theorem C192_stray_sequence b kw k v w :
  ~ In k (required ++ spin_names ++ tidal_names ++ sequence_names ++ dictionary_names) -> inserts k = false -> dget kw k = None ->
  seq_bbh b kw = Ok (Some w) -> seq_bbh b (dset kw k v) = Raise (KeyError "waveform_kwargs").
Proof.
  intros N I G H. unfold bbh_sequence in *. eapply sequence_stray; [exact N|exact I| |exact H]. apply ext_update; [|exact G]. apply get_not_in. rewrite !in_app_iff in N.
  intros X. apply N. right. right. right. cbn in X. repeat (destruct X as [<-|X]; [cbn; tauto|]). contradiction.
Qed.

(** ** C193: relative binning *)
Lemma ddel_set_eq {V} (d : dict V) k x : ddel (dset d k x) k = ddel d k.
Proof.
  induction d as [|[j y] t IH]; cbn; [rewrite String.eqb_refl; reflexivity|]. destruct (String.eqb k j) eqn:E; cbn; rewrite E; [reflexivity|]. rewrite IH. reflexivity.
Qed.
Lemma ddel_set_ne {V} (d : dict V) j k x : j <> k -> ddel (dset d j x) k = dset (ddel d k) j x.
Proof.
  intros N. induction d as [|[i y] t IH]; cbn.
  - destruct (String.eqb_spec k j); [congruence|reflexivity].
  - destruct (String.eqb_spec j i) as [->|NJ]; cbn.
    + destruct (String.eqb_spec k i); [congruence|]. cbn. rewrite String.eqb_refl. reflexivity.
    + destruct (String.eqb_spec k i) as [->|NK]; [reflexivity|]. cbn. destruct (String.eqb_spec j i); [contradiction|]. rewrite IH. reflexivity.
Qed.
Lemma ddel_absent {V} (d : dict V) k : dget d k = None -> ddel d k = d.
Proof. induction d as [|[j y] t IH]; [reflexivity|]. cbn. destruct (String.eqb k j); [discriminate|]. intros H. rewrite IH by exact H. reflexivity. Qed.
Lemma ddel_comm {V} (d : dict V) j k : ddel (ddel d j) k = ddel (ddel d k) j.
Proof.
  destruct (string_dec j k) as [->|N]; [reflexivity|]. induction d as [|[i y] t IH]; [reflexivity|]. cbn.
  destruct (String.eqb_spec j i) as [->|NJ]; destruct (String.eqb_spec k i) as [->|NK]; cbn; [congruence| | |].
  - rewrite String.eqb_refl. reflexivity.
  - rewrite String.eqb_refl. reflexivity.
  - destruct (String.eqb_spec k i); [contradiction|]. destruct (String.eqb_spec j i); [contradiction|]. rewrite IH. reflexivity.
Qed.
Lemma ddel_update d kw k : wf kw -> ddel (update d kw) k = update (ddel d k) (ddel kw k).
Proof.
  revert d. induction kw as [|[j x] t IH]; intros d W; [reflexivity|]. assert (W' : wf t) by (inversion W; assumption).
  change (update d ((j, x) :: t)) with (update (dset d j x) t). rewrite IH by exact W'. cbn [ddel]. destruct (String.eqb_spec k j) as [->|N].
  - rewrite ddel_set_eq. f_equal. apply ddel_absent. apply dget_none. inversion W; assumption.
  - rewrite ddel_set_ne by congruence. reflexivity.
Qed.
Lemma clash_more given more kw : (forall k, In k more -> dget kw k = None) -> clash (given ++ more) kw = clash given kw.
Proof.
  intros H. unfold clash. rewrite !existsb_app. assert (E : existsb (dmem kw) more = false).
  { apply not_true_is_false. intros X. apply existsb_exists in X. destruct X as (k & K1 & K2). unfold dmem in K2. rewrite (H k K1) in K2. discriminate. }
  rewrite E, orb_false_r. reflexivity.
Qed.
Lemma update_get d kw k : wf kw -> dget (update d kw) k = match dget kw k with Some v => Some v | None => dget d k end.
Proof.
  revert d. induction kw as [|[j x] t IH]; intros d W; [reflexivity|]. assert (W' : wf t) by (inversion W; assumption).
  change (update d ((j, x) :: t)) with (update (dset d j x) t). rewrite IH by exact W'. cbn [dget]. rewrite dget_set. destruct (String.eqb_spec k j) as [->|N]; [|reflexivity].
  assert (G : dget t j = None) by (apply dget_none; inversion W; assumption). rewrite G. reflexivity.
Qed.
(** With fiducial = 1 the black-hole model is the ordinary model without the bin edges. *)
Theorem C193_fiducial_bbh fs b kw : wf kw -> dget kw "lambda_1" = None -> dget kw "lambda_2" = None ->
  rel_bbh fs b 1 kw = lal_bbh fs b (ddel kw "frequency_bin_edges").
Proof.
  intros W L1 L2. unfold bbh_relative, lal_binary_black_hole. destruct (last_frequency fs) as [fmax|e]; [|reflexivity]. cbn [bind]. destruct (Req_EM_T 1 1); [|lra].
  rewrite ddel_update by exact W. change (ddel (fd_defaults "IMRPhenomPv2" 50 20 fmax) "frequency_bin_edges") with (fd_defaults "IMRPhenomPv2" 50 20 fmax).
  unfold base_waveform. rewrite clash_more; [reflexivity|]. intros k K. rewrite update_get by (apply wf_del; exact W). cbn in K.
  destruct K as [<-|[<-|[]]]; rewrite dget_del_ne by discriminate; rewrite ?L1, ?L2; reflexivity.
Qed.
(** The neutron-star model keeps the bin edges: with fiducial = 1 it fails as soon as the edges have been set up. *)
Theorem C193_fiducial_bns_refuted fs b kw e w : inserts "frequency_bin_edges" = false -> dget kw "frequency_bin_edges" = None ->
  lal_bns fs b kw = Ok (Some w) -> rel_bns fs b 1 kw = Ok (Some w) /\ rel_bns fs b 1 (dset kw "frequency_bin_edges" e) = Raise (KeyError "waveform_kwargs").
Proof.
  intros I G H. unfold lal_binary_neutron_star, bns_relative in *. destruct (last_frequency fs) as [fmax|er]; [|discriminate H]. cbn [bind] in *. destruct (Req_EM_T 1 1); [|lra].
  split; [exact H|]. eapply base_stray; [|exact I| |exact H]; [cbn; intuition discriminate|]. apply ext_update; [reflexivity|exact G].
Qed.
(** With another value both models are the model on chosen frequencies, at the bin edges, whatever the band. *)
Definition binned (kw : dict val) (e : val) : dict val := dset (ddel (ddel (ddel kw "minimum_frequency") "maximum_frequency") "frequency_bin_edges") "frequencies" e.
Lemma to_frequencies_update approx fref fmin fmax kw e : wf kw -> dget kw "frequency_bin_edges" = Some e -> dget kw "frequencies" = None ->
  to_frequencies (update (fd_defaults approx fref fmin fmax) kw) = Ok (update (seq_defaults approx fref) (binned kw e)).
Proof.
  intros W G F. unfold to_frequencies. rewrite !ddel_update by (repeat apply wf_del; exact W).
  change (ddel (ddel (fd_defaults approx fref fmin fmax) "minimum_frequency") "maximum_frequency") with (seq_defaults approx fref).
  rewrite (pop_get _ _ e); [cbn [bind]|rewrite update_get by (repeat apply wf_del; exact W); rewrite !dget_del_ne by discriminate; rewrite G; reflexivity].
  rewrite ddel_update by (repeat apply wf_del; exact W). change (ddel (seq_defaults approx fref) "frequency_bin_edges") with (seq_defaults approx fref).
  f_equal. unfold binned. set (k3 := ddel (ddel (ddel kw "minimum_frequency") "maximum_frequency") "frequency_bin_edges").
  rewrite (dset_absent k3 "frequencies" e); [|unfold k3; rewrite !dget_del_ne by discriminate; exact F]. rewrite update_app. reflexivity.
Qed.
Theorem C193_binned fs b x kw e : fs <> [] -> x <> 1%R -> wf kw -> dget kw "frequency_bin_edges" = Some e -> dget kw "frequencies" = None ->
  rel_bbh fs b x kw = seq_bbh b (binned kw e) /\ rel_bns fs b x kw = seq_bns b (binned kw e).
Proof.
  intros NE NX W G F. unfold bbh_relative, bns_relative, bbh_sequence, bns_sequence. assert (L : last_frequency fs = Ok (last fs 0%R)) by (destruct fs; [contradiction|reflexivity]).
  rewrite L. cbn [bind]. destruct (Req_EM_T x 1); [contradiction|]. rewrite !(to_frequencies_update _ _ _ _ kw e W G F). split; reflexivity.
Qed.
(** Both modes ask lalsimulation about the same system: if its two functions agree - the sequence gives h at each frequency, the
    grid gives h at each frequency of the band - then the binned waveform is the fiducial one at the positions of the edges. *)
Theorem C193_consistent (hplus hcross : system -> R -> C) fs b kw inds p c bp bc lo hi approx : wf kw ->
  (forall k, In k optional -> dget kw k = None) -> dget kw "frequencies" = None ->
  dget kw "frequency_bin_edges" = Some (VArr (map (fun i => nth i fs 0%R) inds)) ->
  dget (update (fd_defaults "IMRPhenomPv2" 50 20 (last fs 0%R)) kw) "minimum_frequency" = Some (VNum lo) ->
  dget (update (fd_defaults "IMRPhenomPv2" 50 20 (last fs 0%R)) kw) "maximum_frequency" = Some (VNum hi) ->
  dget (update (fd_defaults "IMRPhenomPv2" 50 20 (last fs 0%R)) kw) "waveform_approximant" = Some (VText approx) ->
  fd_implemented approx = true ->
  (forall sys fr, choose_sequence sys fr = Gives (map (hplus sys) fr, map (hcross sys) fr)) ->
  (forall sys g hp hc i, choose_fd sys g = Gives (hp, hc) -> i < length fs -> (lo <= nth i fs 0 <= hi)%R ->
     nth i (data hp) (RtoC 0) = hplus sys (nth i fs 0%R) /\ nth i (data hc) (RtoC 0) = hcross sys (nth i fs 0%R)) ->
  (forall i, In i inds -> i < length fs /\ (lo <= nth i fs 0 <= hi)%R) ->
  rel_bbh fs b 1 kw = Ok (Some (p, c)) -> rel_bbh fs b 0 kw = Ok (Some (bp, bc)) ->
  bp = map (fun i => nth i p (RtoC 0)) inds /\ bc = map (fun i => nth i c (RtoC 0)) inds.
Proof.
  intros W NO NF GE GLO GHI GA FD HS HF HB H1 H0. assert (NE : fs <> []) by (intros ->; discriminate H1).
  rewrite C193_fiducial_bbh in H1 by (first [exact W|apply NO; cbn; tauto]). unfold lal_binary_black_hole in H1.
  assert (L : last_frequency fs = Ok (last fs 0%R)) by (destruct fs; [contradiction|reflexivity]). rewrite L in H1. cbn [bind] in H1.
  destruct (C193_binned fs b 0%R kw _ NE ltac:(lra) W GE NF) as [E0 _]. rewrite E0 in H0. clear E0. unfold bbh_sequence in H0.
  set (dflt := fd_defaults "IMRPhenomPv2" 50 20 (last fs 0%R)) in *.
  set (kwf := update dflt (ddel kw "frequency_bin_edges")) in *. set (edges := VArr (map (fun i => nth i fs 0%R) inds)) in *.
  set (kws := update (seq_defaults "IMRPhenomPv2" 50) (binned kw edges)) in *.
  assert (GF : forall k, k <> "frequency_bin_edges" -> dget kwf k = dget (update dflt kw) k).
  { intros k N. unfold kwf. rewrite !update_get by (try apply wf_del; exact W). rewrite dget_del_ne by exact N. reflexivity. }
  (* the arguments handed to set_waveform_dictionary coincide *)
  assert (SAME : ddel (ddel (ddel (ddel (ddel kwf "waveform_approximant") "reference_frequency") "minimum_frequency") "maximum_frequency") "catch_waveform_errors"
               = ddel (ddel (ddel (ddel kws "frequencies") "reference_frequency") "waveform_approximant") "catch_waveform_errors").
  { unfold kwf, kws. assert (Wb : wf (binned kw edges)) by (unfold binned; apply wf_set; repeat apply wf_del; exact W).
    rewrite !ddel_update by (repeat apply wf_del; assumption). f_equal. unfold binned. rewrite ddel_set_eq.
    rewrite (ddel_absent (ddel (ddel (ddel kw "minimum_frequency") "maximum_frequency") "frequency_bin_edges") "frequencies") by (rewrite !dget_del_ne by discriminate; exact NF).
    rewrite (ddel_comm (ddel kw "frequency_bin_edges") "waveform_approximant" "reference_frequency").
    rewrite (ddel_comm kw "frequency_bin_edges" "reference_frequency").
    repeat match goal with |- context [ddel (ddel ?d "frequency_bin_edges") ?k] => rewrite (ddel_comm d "frequency_bin_edges" k) end.
    f_equal. f_equal. rewrite (ddel_comm _ "waveform_approximant" "minimum_frequency"), (ddel_comm _ "waveform_approximant" "maximum_frequency").
    rewrite (ddel_comm _ "reference_frequency" "minimum_frequency"), (ddel_comm _ "reference_frequency" "maximum_frequency"). reflexivity. }
  destruct (base_ok _ _ _ _ _ H1) as (b' & kw0 & kw1 & approx' & fref & lo' & hi' & pn & cv & lal & f0 & f1 & fs' & RR).
  rewrite (base_reaches _ _ _ _ _ _ _ _ _ _ _ _ _ _ _ _ _ RR) in H1. destruct RR as (R1 & R2 & R3 & R4 & R5 & R6 & R7 & R8 & R9 & R10 & R11).
  assert (RO : read_optional optional (no_tides b) kwf = Ok (no_tides b, kwf)).
  { apply read_none. intros k K. unfold kwf. rewrite update_get by (apply wf_del; exact W). rewrite dget_del_none by (apply NO; exact K).
    cbn in K. repeat (destruct K as [<-|K]; [reflexivity|]). contradiction. }
  rewrite RO in R2. apply ok_inj in R2. assert (HH : no_tides b = b' /\ kwf = kw0) by (injection R2 as <- <-; auto). destruct HH as [<- <-]. clear R2.
  rewrite GF in R3, R5, R6 by discriminate. rewrite GA in R3. rewrite GLO in R5. rewrite GHI in R6.
  assert (approx' = approx) by congruence. assert (lo' = lo) by congruence. assert (hi' = hi) by congruence. subst approx' lo' hi'. clear R3 R5 R6.
  destruct (sequence_ok _ _ _ H0) as (kw1s & approxs & frefs & freqs & cvs & lals & RS). rewrite (sequence_reaches _ _ _ _ _ _ _ _ RS) in H0.
  destruct RS as (S1 & S2 & S3 & S4 & S5 & S6 & S7). rewrite <- SAME in S6. rewrite R9 in S6. apply ok_inj in S6.
  assert (HH : kw1 = kw1s /\ lal = lals) by (injection S6 as <- <-; auto). destruct HH as [<- <-].
  assert (Wb : wf (binned kw edges)) by (unfold binned; apply wf_set; repeat apply wf_del; exact W).
  assert (GS : forall k, In k ["waveform_approximant"; "reference_frequency"] -> dget kws k = dget kwf k).
  { intros k K. unfold kws. rewrite update_get by exact Wb. unfold binned. cbn in K.
    destruct K as [<-|[<-|[]]]; rewrite dget_set_ne by discriminate; rewrite !dget_del_ne by discriminate; rewrite GF by discriminate; rewrite update_get by exact W; destruct (dget kw _); reflexivity. }
  rewrite GS in S3, S4 by (cbn; tauto). rewrite R4 in S3. rewrite GF in S4 by discriminate. rewrite GA in S4.
  assert (frefs = fref) by congruence. assert (approxs = approx) by congruence. subst frefs approxs.
  assert (S2' : dget kws "frequencies" = Some edges) by (unfold kws; rewrite update_get by exact Wb; unfold binned; rewrite dget_set_eq; reflexivity).
  rewrite S2' in S2. assert (FR : freqs = map (fun i => nth i fs 0%R) inds) by (unfold edges in S2; congruence). subst freqs. clear S2 S2'.
  set (sys := the_system (no_tides b) fref lal approx) in *. rewrite HS in H0. cbn [seq_after] in H0. apply bind_ok in H0. destruct H0 as (u & _ & H0). apply ok_inj in H0.
  assert (HH : map (hplus sys) (map (fun i => nth i fs 0%R) inds) = bp /\ map (hcross sys) (map (fun i => nth i fs 0%R) inds) = bc) by (injection H0 as X Y; auto). destruct HH as [<- <-].
  rewrite FD in H1. apply after_ok in H1. destruct H1 as (hp & hc & G & _ & _ & _ & V). rewrite !map_map.
  split; apply map_ext_in; intros i Hi; destruct (HB i Hi) as [B1 B2]; destruct (V i B1) as [V1 V2]; destruct (HF _ _ _ _ i G B1 B2) as [D1 D2];
    apply in_bounds_iff in B2; rewrite FD in V1, V2; rewrite B2 in V1, V2; cbn [placed] in V1, V2; congruence.
Qed.

(** ** C194: reduced order quadrature *)
Notation roq := (base_roq inserts known transform choose_sequence parsec solar_mass).
Lemma put_in x y l : In y (put x l) <-> y = x \/ In y l.
Proof.
  induction l as [|z l IH]; cbn; [intuition|]. destruct (Rlt_dec x z); [cbn; intuition|]. destruct (Req_EM_T x z) as [->|]; [cbn; intuition|]. cbn. rewrite IH. intuition.
Qed.
Lemma unique_in y l : In y (unique l) <-> In y l.
Proof. induction l as [|x l IH]; [reflexivity|]. cbn [unique fold_right]. change (fold_right put [] l) with (unique l). rewrite put_in, IH. cbn. intuition. Qed.
Fixpoint increasing (l : list R) : Prop := match l with x :: ((y :: _) as t) => (x < y)%R /\ increasing t | _ => True end.
Lemma put_increasing x l : increasing l -> increasing (put x l).
Proof.
  induction l as [|z l IH]; intros H; [exact I|]. cbn [put]. destruct (Rlt_dec x z) as [L|L]; [split; assumption|]. destruct (Req_EM_T x z) as [->|N]; [exact H|].
  destruct l as [|y l]; cbn [put]; [split; [lra|exact I]|]. destruct H as [H1 H2]. specialize (IH H2). cbn [put] in IH.
  destruct (Rlt_dec x y); [split; [lra|exact IH]|]. destruct (Req_EM_T x y); split; assumption.
Qed.
Lemma place_nth x l : In x l -> nth_error l (place x l) = Some x.
Proof. induction l as [|y l IH]; intros H; [destruct H|]. cbn. destruct (Req_EM_T x y) as [->|N]; [reflexivity|]. apply IH. destruct H; [congruence|assumption]. Qed.
(** np.unique: increasing, the same values, and the inverse indices give the array back. *)
Theorem C194_unique l : increasing (unique l) /\ (forall x, In x (unique l) <-> In x l) /\ map (nth_error (unique l)) (inverse l) = map Some l.
Proof.
  split; [induction l as [|x l IH]; [exact I|apply put_increasing; exact IH]|]. split; [intros x; apply unique_in|].
  unfold inverse. rewrite map_map. apply map_ext_in. intros x Hx. apply place_nth. apply unique_in. exact Hx.
Qed.
Lemma take_map (h : R -> C) nodes idx fs : map (nth_error nodes) idx = map Some fs -> take (map h nodes) idx = Ok (map h fs).
Proof.
  revert fs. induction idx as [|i idx IH]; intros [|f fs] H; cbn in H; try discriminate; [reflexivity|]. injection H as H1 H2. cbn.
  rewrite (map_nth_error h _ _ H1). rewrite (IH fs H2). reflexivity.
Qed.
(** What the two parts hold: the waveform at the linear and at the quadratic nodes, in their order and with their repetitions. *)
Theorem C194_nodes (hplus hcross : system -> R -> C) b kw l q lin quad :
  (forall sys fr, choose_sequence sys fr = Gives (map (hplus sys) fr, map (hcross sys) fr)) ->
  dget kw "frequency_nodes" = None -> dget kw "frequency_nodes_linear" = Some (VArr l) -> dget kw "frequency_nodes_quadratic" = Some (VArr q) ->
  roq b kw = Ok (lin, quad) -> exists sys, lin = (map (hplus sys) l, map (hcross sys) l) /\ quad = (map (hplus sys) q, map (hcross sys) q).
Proof.
  intros HS N L Q H. unfold base_roq in H. apply bind_ok in H. destruct H as ([[li qi] kw2] & P & H). unfold roq_nodes in P. unfold dmem in P. rewrite N in P.
  rewrite (pop_get _ _ _ L) in P. cbn [bind] in P. rewrite (pop_get _ _ (VArr q)) in P by (rewrite dget_del_ne by discriminate; exact Q). cbn [bind as_arr] in P. cbv zeta in P. apply ok_inj in P.
  assert (HH : firstn (length l) (inverse (l ++ q)) = li /\ skipn (length l) (inverse (l ++ q)) = qi /\ dset (ddel (ddel kw "frequency_nodes_linear") "frequency_nodes_quadratic") "frequencies" (VArr (unique (l ++ q))) = kw2) by (injection P as X Y Z; auto).
  destruct HH as (<- & <- & <-). clear P. apply bind_ok in H. destruct H as (w & S1 & H). destruct (sequence_ok _ _ _ S1) as (kw1 & approx & fref & freqs & cv & lal & RR).
  rewrite (sequence_reaches _ _ _ _ _ _ _ _ RR) in S1. destruct RR as (R1 & R2 & R3 & R4 & R5 & R6 & R7). rewrite dget_set_eq in R2. assert (FR : freqs = unique (l ++ q)) by congruence. subst freqs.
  set (sys := the_system b fref lal approx) in *. rewrite HS in S1. cbn [seq_after] in S1. apply bind_ok in S1. destruct S1 as (u & _ & S1). apply ok_inj in S1. subst w.
  destruct (C194_unique (l ++ q)) as (_ & _ & U). rewrite map_app in U.
  assert (LI : length (inverse (l ++ q)) = length l + length q) by (unfold inverse; rewrite map_length, app_length; reflexivity).
  assert (U1 : map (nth_error (unique (l ++ q))) (firstn (length l) (inverse (l ++ q))) = map Some l).
  { rewrite <- firstn_map, U. rewrite firstn_app, map_length, Nat.sub_diag. cbn [firstn]. rewrite app_nil_r. rewrite <- (map_length Some l). apply firstn_all. }
  assert (U2 : map (nth_error (unique (l ++ q))) (skipn (length l) (inverse (l ++ q))) = map Some q).
  { rewrite <- skipn_map, U. rewrite skipn_app, map_length, Nat.sub_diag. cbn [skipn]. rewrite <- (map_length Some l). rewrite skipn_all. reflexivity. }
  rewrite !(take_map _ _ _ _ U1), !(take_map _ _ _ _ U2) in H. cbn [bind] in H. apply ok_inj in H. exists sys. split; congruence.
Qed.
(** Precomputed unique nodes and indices give the same as the two sets of nodes. *)
Theorem C194_precomputed b kw l q : (forall k, In k ["frequency_nodes"; "frequency_nodes_linear"; "frequency_nodes_quadratic"; "linear_indices"; "quadratic_indices"] -> dget kw k = None) ->
  roq b (kw ++ [("frequency_nodes_linear", VArr l); ("frequency_nodes_quadratic", VArr q)]) =
  roq b (kw ++ [("frequency_nodes", VArr (unique (l ++ q))); ("linear_indices", VIdx (firstn (length l) (inverse (l ++ q)))); ("quadratic_indices", VIdx (skipn (length l) (inverse (l ++ q))))]).
Proof.
  intros N. unfold base_roq. f_equal. unfold roq_nodes, dmem, pop. repeat (rewrite ?dget_app, ?ddel_app, ?N by (cbn; tauto); cbn [dget ddel app bind String.eqb Ascii.eqb Bool.eqb fst snd]).
  cbn. rewrite ?dget_app, ?ddel_app, ?N by (cbn; tauto). cbn. repeat (rewrite ?dget_app, ?ddel_app, ?N by (cbn; tauto); cbn). reflexivity.
Qed.
(** An error that the model on chosen frequencies turns into "no waveform" is not passed on: the quadrature model raises a
    TypeError, although errors are to be caught. *)
Theorem C194_caught_refuted b kw li qi kw2 : roq_nodes kw = Ok (li, qi, kw2) -> sequence b kw2 = Ok None -> roq b kw = Raise TypeError.
Proof. intros P S1. unfold base_roq. rewrite P. cbn [bind]. rewrite S1. reflexivity. Qed.
End Lal.

(** ** Examples: a library that answers with a longer array of ones and twos *)
Definition ex_series (x : R) : series := mkSeries (repeat (RtoC x) 6) 1 0.
Definition ex_fd (_ : system) (_ : grid) : answer (series * series) := Gives (ex_series 1, ex_series 2).
Definition ex_binary : binary := mkBinary 30 20 400 0.3 0 0 0 0 0 0 0 0 0 0.
Definition ex_inserts (k : string) : bool := existsb (String.eqb k) ["TidalLambda1"; "TidalLambda2"; "NumRelData"; "PNSpinOrder"; "PNTidalOrder"; "PNPhaseOrder"; "PNAmplitudeOrder"; "ModeArray"].
Notation ex_bbh := (lal_binary_black_hole ex_inserts (fun _ => true) (fun _ => true) (fun f _ _ => f) (fun _ _ _ _ _ _ _ _ _ _ _ => (0, (0, 0, 0), (0, 0, 0))%R) ex_fd ex_fd 3 2).
Example C191_example : ex_bbh [0; 10; 20; 30]%R ex_binary [("maximum_frequency", VNum 25)] = Ok (Some ([RtoC 0; RtoC 0; RtoC 1; RtoC 0], [RtoC 0; RtoC 0; RtoC 2; RtoC 0])).
Proof.
  cbv -[IZR Rmult Rplus Rminus Rdiv Rinv Ropp Rle_dec Rlt_dec Req_EM_T RtoC PI cos sin].
  repeat match goal with |- context [Rle_dec ?a ?b] => destruct (Rle_dec a b); try lra end. reflexivity.
Qed.
Example C192_example : ex_bbh [0; 10; 20; 30]%R ex_binary [("maximum_frequency", VNum 25); ("refrence_frequency", VNum 20)] = Raise (KeyError "waveform_kwargs").
Proof.
  cbv -[IZR Rmult Rplus Rminus Rdiv Rinv Ropp Rle_dec Rlt_dec Req_EM_T RtoC PI cos sin]. reflexivity.
Qed.
Example C192_example_dictionary : set_waveform_dictionary ex_inserts
    [("pn_spin_order", VNum (-1)); ("pn_tidal_order", VNum (-1)); ("pn_phase_order", VNum 4); ("pn_amplitude_order", VNum 0); ("PNPhaseOrder", VNum 7);
     ("mode_array", VModes [[2; 2]; [3; -3]]%Z); ("typo", VNone); ("lal_waveform_dictionary", VLal [("NonGRDChi0", VNum 1)])] 100 200 =
  Ok ([("typo", VNone)],
      [("NonGRDChi0", VNum 1); ("PNPhaseOrder", VNum 4); ("TidalLambda1", VNum 100); ("TidalLambda2", VNum 200); ("PNSpinOrder", VNum (-1)); ("PNTidalOrder", VNum (-1));
       ("PNAmplitudeOrder", VNum 0); ("ModeArray", VModes [[2; 2]; [3; -3]]%Z)]).
Proof. cbv -[IZR Rmult Rplus Rminus Rdiv Rinv Ropp Rle_dec Rlt_dec Req_EM_T RtoC PI cos sin]. reflexivity. Qed.
Example C193_example :
  let e := ("frequency_bin_edges", VArr [20; 30]%R) in
  bbh_relative ex_inserts (fun _ => true) (fun _ => true) (fun f _ _ => f) (fun _ _ _ _ _ _ _ _ _ _ _ => (0, (0, 0, 0), (0, 0, 0))%R) ex_fd ex_fd
    (fun _ fr => Gives (map (fun _ => RtoC 1) fr, map (fun _ => RtoC 2) fr)) 3 2 [0; 10; 20; 30]%R ex_binary 0 [e] = Ok (Some ([RtoC 1; RtoC 1], [RtoC 2; RtoC 2])) /\
  bns_relative ex_inserts (fun _ => true) (fun _ => true) (fun f _ _ => f) (fun _ _ _ _ _ _ _ _ _ _ _ => (0, (0, 0, 0), (0, 0, 0))%R) ex_fd ex_fd
    (fun _ fr => Gives (map (fun _ => RtoC 1) fr, map (fun _ => RtoC 2) fr)) 3 2 [0; 10; 20; 30]%R ex_binary 1 [e] = Raise (KeyError "waveform_kwargs").
Proof.
  cbv -[IZR Rmult Rplus Rminus Rdiv Rinv Ropp Rle_dec Rlt_dec Req_EM_T RtoC PI cos sin]. destruct (Req_EM_T 0 1); [lra|]. destruct (Req_EM_T 1 1); [|lra]. split; reflexivity.
Qed.
Example C194_example : unique ([20; 40] ++ [40; 30])%R = [20; 30; 40]%R /\ inverse ([20; 40] ++ [40; 30])%R = [0; 2; 2; 1].
Proof.
  assert (U : unique ([20; 40] ++ [40; 30])%R = [20; 30; 40]%R).
  { cbn. repeat (cbn; match goal with |- context [Rlt_dec ?a ?b] => destruct (Rlt_dec a b); try lra | |- context [Req_EM_T ?a ?b] => destruct (Req_EM_T a b); try lra end). reflexivity. }
  split; [exact U|]. unfold inverse. rewrite U. cbn. repeat (cbn; match goal with |- context [Req_EM_T ?a ?b] => destruct (Req_EM_T a b); try lra end). reflexivity.
Qed.

(** ** Assumptions of every theorem above *)
Definition Source_Props_all :=
  (@C191_grid,
   @C191_modulus,
   @C191_failure,
   @C191_none,
   @C192_dictionary,
   @C192_stray,
   @C192_used,
   @C192_default,
   @C192_stray_sequence,
   @C193_fiducial_bbh,
   @C193_fiducial_bns_refuted,
   @C193_binned,
   @C193_consistent,
   @C194_unique,
   @C194_nodes,
   @C194_precomputed,
   @C194_caught_refuted).
Print Assumptions Source_Props_all.
