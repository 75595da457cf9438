(** Property C215: the binary black hole model around lalsimulation.gwsignal. *)
From Coq Require Import String Ascii ZArith Lia Reals Lra List Bool.
From Coquelicot Require Import Coquelicot.
From Verif Require Import PyDict PyReal Source_Model Source_Props Gwsig_Model.
Import ListNotations.
Open Scope string_scope.
Open Scope list_scope.
Open Scope nat_scope.

(** *** Text and dictionaries *)
Lemma contains_spec sub s : sub <> "" -> (contains sub s = true <-> exists m, substring m (String.length sub) s = sub).
Proof.
  intros N. unfold contains. destruct (index 0 sub s) as [m|] eqn:E.
  - split; [intros _; exists m; apply (index_correct1 0); exact E|reflexivity].
  - split; [discriminate|]. intros [m H]. exfalso. apply (index_correct3 0 m _ _ E N (Nat.le_0_l m)). exact H.
Qed.
Lemma gw_update_get (e : dict val) : forall d k, wf e -> dget (gw_update d e) k = match dget e k with Some v => Some v | None => dget d k end.
Proof.
  induction e as [|[k' v] e IH]; intros d k W; [reflexivity|]. unfold wf in W. cbn in W. apply NoDup_cons_iff in W. destruct W as [N W].
  unfold gw_update. cbn [fold_left fst snd]. fold (gw_update (dset d k' v) e). rewrite IH by exact W. cbn [dget].
  destruct (String.eqb_spec k k') as [->|D].
  - destruct (dget e k') eqn:E; [|apply dget_set_eq]. exfalso. apply N. apply dget_some_in in E. apply (in_map fst) in E. exact E.
  - destruct (dget e k); [reflexivity|]. apply dget_set_ne. exact D.
Qed.
Lemma gw_update_wf (e : dict val) : forall d, wf d -> wf (gw_update d e).
Proof. induction e as [|[k v] e IH]; intros d W; [exact W|]. unfold gw_update. cbn [fold_left fst snd]. apply IH. apply wf_set. exact W. Qed.
Lemma delete_all (ks : list string) : forall (d : dict val), wf d -> wf (fold_left (fun d k => ddel d k) ks d) /\
  forall k, dget (fold_left (fun d k => ddel d k) ks d) k = if existsb (String.eqb k) ks then None else dget d k.
Proof.
  induction ks as [|a ks IH]; intros d W; [split; [exact W|reflexivity]|]. cbn [fold_left existsb]. destruct (IH (ddel d a) (wf_del _ _ W)) as [W' G].
  split; [exact W'|]. intros k. rewrite G. destruct (String.eqb_spec k a) as [->|D]; cbn [orb].
  - rewrite dget_del_eq by exact W. destruct (existsb _ ks); reflexivity.
  - rewrite dget_del_ne by exact D. reflexivity.
Qed.
Lemma gw_defaults_wf f : wf (gw_defaults f).
Proof. unfold wf. cbn. repeat constructor; cbn; intuition discriminate. Qed.
Lemma own_default f k : existsb (String.eqb k) own_keys = false -> dget (gw_defaults f) k = None.
Proof.
  intros H. apply dget_none. intros I. rewrite <- not_true_iff_false in H. apply H. apply existsb_exists. exists k. split; [|apply String.eqb_refl].
  cbn in I. cbn. intuition auto.
Qed.
(** What the model reads: the user's argument, or the default. *)
Definition argument (fs : list R) (kwargs : dict val) (k : string) : option val :=
  match dget kwargs k with Some v => Some v | None => dget (gw_defaults (last fs 0%R)) k end.

Section Gwsignal.
Variable transform : R -> R -> R -> R -> R -> R -> R -> R -> R -> R -> R -> spins.
Variable time_domain : string -> bool.
Variable generate : string -> dict val -> answer (series * series).
Variable solar_mass : R.
Notation gwsig := (gwsignal transform time_domain generate solar_mass).
(** The question put to the generator. *)
Notation asked b fref start hi df approx kw := (gw_update
  (match dget kw "mode_array" with Some VNone | None => gw_dict b (to_spins transform b (mass_1 b * solar_mass)%R (mass_2 b * solar_mass)%R fref) df start hi fref (time_domain approx)
   | Some m => dset (gw_dict b (to_spins transform b (mass_1 b * solar_mass)%R (mass_2 b * solar_mass)%R fref) df start hi fref (time_domain approx)) "ModeArray" m end) (extra_args kw)).
Definition finish (fs : list R) (lo hi : R) (approx : string) (catch : bool) (a : answer (series * series)) : res (option waves) :=
  match a with
  | Fails args => gw_failure catch args
  | Gives (hp, hc) =>
      let n := length fs in
      let longer := (n <? length (data hp))%nat in
      let! p := fit n longer (data hp) in
      let! c := fit n longer (data hc) in
      let p := mask lo hi fs p in
      let c := mask lo hi fs c in
      if time_domain approx then
        if Req_EM_T (delta_f hp) 0 then Raise ZeroDivisionError
        else let dt := (1 / delta_f hp + epoch hp)%R in Ok (Some (shift_all lo hi dt fs p, shift_all lo hi dt fs c))
      else Ok (Some (p, c))
  end.
(** A run that reaches the generator. *)
Definition gw_reaches (fs : list R) (kwargs : dict val) (approx : string) (fref lo hi pn start df : R) : Prop :=
  argument fs kwargs "waveform_approximant" = Some (VText approx) /\ In approx reviewed /\ argument fs kwargs "reference_frequency" = Some (VNum fref) /\
  argument fs kwargs "minimum_frequency" = Some (VNum lo) /\ argument fs kwargs "maximum_frequency" = Some (VNum hi) /\
  argument fs kwargs "pn_amplitude_order" = Some (VNum pn) /\ start_frequency lo pn = Ok start /\ 2 <= length fs /\ df = (nth 1 fs 0 - nth 0 fs 0)%R.
Lemma as_num_ok v x : as_num v = Ok x -> v = VNum x.
Proof. destruct v; cbn; try discriminate. intros H. apply ok_inj in H. subst. reflexivity. Qed.
Lemma default_get fs kwargs k : wf kwargs -> dget (gw_update (gw_defaults (last fs 0%R)) kwargs) k = argument fs kwargs k.
Proof. intros W. rewrite gw_update_get by exact W. reflexivity. Qed.
Lemma got_num fs kwargs k x : match argument fs kwargs k with Some v => v | None => VNone end = VNum x -> argument fs kwargs k = Some (VNum x).
Proof. destruct (argument fs kwargs k); [intros ->; reflexivity|discriminate]. Qed.

Lemma reviewed_in a : existsb (String.eqb a) reviewed = true <-> In a reviewed.
Proof. rewrite existsb_exists. split; [intros (x & I & E); apply String.eqb_eq in E; subst; exact I|intros I; exists a; split; [exact I|apply String.eqb_refl]]. Qed.
Lemma gw_runs fs b kwargs approx fref lo hi pn start df : wf kwargs -> gw_reaches fs kwargs approx fref lo hi pn start df ->
  gwsig fs b kwargs = finish fs lo hi approx (truthy (match argument fs kwargs "catch_waveform_errors" with Some v => v | None => VNone end))
    (generate approx (asked b fref start hi df approx (gw_update (gw_defaults (last fs 0%R)) kwargs))).
Proof.
  intros W (A1 & A2 & A3 & A4 & A5 & A6 & A7 & L & ->). destruct fs as [|f0 [|f1 fs]]; cbn [length] in L; [lia|lia|].
  unfold gwsignal. set (fs2 := f0 :: f1 :: fs) in *. set (kw := gw_update (gw_defaults (last fs2 0%R)) kwargs).
  assert (GG : forall k, dget kw k = argument fs2 kwargs k) by (intros k; apply default_get; exact W).
  rewrite !GG, A1, A3, A4, A5, A6. cbn [bind as_num]. apply reviewed_in in A2. rewrite A2. cbn [negb]. rewrite A7. cbn [bind].
  change (nth 1 fs2 0%R) with f1. change (nth 0 fs2 0%R) with f0.
  destruct (argument fs2 kwargs "mode_array") as [[ | | | | | | | ]|]; reflexivity.
Qed.
Lemma gw_ok fs b kwargs r : wf kwargs -> gwsig fs b kwargs = Ok r -> exists approx fref lo hi pn start df, gw_reaches fs kwargs approx fref lo hi pn start df.
Proof.
  intros W. destruct fs as [|f0 rest]; [discriminate|]. unfold gwsignal. set (fs2 := f0 :: rest) in *. set (kw := gw_update (gw_defaults (last fs2 0%R)) kwargs).
  assert (GG : forall k, dget kw k = argument fs2 kwargs k) by (intros k; apply default_get; exact W).
  rewrite !GG. intros H. apply bind_ok in H. destruct H as (approx & E1 & H).
  destruct (existsb (String.eqb approx) reviewed) eqn:E2; cbn [negb] in H; [|discriminate].
  apply bind_ok in H. destruct H as (fref & E3 & H). apply bind_ok in H. destruct H as (lo & E4 & H). apply bind_ok in H. destruct H as (hi & E5 & H).
  apply bind_ok in H. destruct H as (pn & E6 & H). apply bind_ok in H. destruct H as (start & E7 & H).
  apply as_num_ok, got_num in E3. apply as_num_ok, got_num in E4. apply as_num_ok, got_num in E5. apply as_num_ok, got_num in E6.
  destruct rest as [|f1 rest]; [discriminate|].
  exists approx, fref, lo, hi, pn, start, (f1 - f0)%R. unfold gw_reaches. split.
  { destruct (argument fs2 kwargs "waveform_approximant") as [[ | | | | | | | ]|]; try discriminate. apply ok_inj in E1. subst. reflexivity. }
  split; [apply reviewed_in; exact E2|]. repeat (split; [assumption|]). split; [unfold fs2; cbn [length]; lia|reflexivity].
Qed.
Lemma finish_ok fs lo hi approx catch a p c : finish fs lo hi approx catch a = Ok (Some (p, c)) ->
  exists hp hc, a = Gives (hp, hc) /\ length p = length fs /\ length c = length fs /\
  forall i, i < length fs ->
    nth i p (RtoC 0) = (if in_bounds lo hi (nth i fs 0%R) then placed (negb (time_domain approx)) hp (nth i fs 0%R) (nth i (data hp) (RtoC 0)) else RtoC 0) /\
    nth i c (RtoC 0) = (if in_bounds lo hi (nth i fs 0%R) then placed (negb (time_domain approx)) hp (nth i fs 0%R) (nth i (data hc) (RtoC 0)) else RtoC 0).
Proof.
  destruct a as [[hp hc]|args]; cbn [finish].
  2: { unfold gw_failure. destruct catch; cbn [negb]; [|discriminate]. destruct args as [|x args]; [discriminate|]. destruct (contains _ x); discriminate. }
  intros H. apply bind_ok in H. destruct H as (p0 & F1 & H). apply bind_ok in H. destruct H as (c0 & F2 & H).
  apply fit_ok in F1. destruct F1 as [L1 N1]. apply fit_ok in F2. destruct F2 as [L2 N2].
  exists hp, hc. split; [reflexivity|]. unfold placed.
  assert (M : forall h, length h = length fs -> length (mask lo hi fs h) = length fs) by (intros h L; apply length_combine_map; auto).
  assert (MN : forall h i, length h = length fs -> i < length fs -> nth i (mask lo hi fs h) (RtoC 0) = if in_bounds lo hi (nth i fs 0%R) then nth i h (RtoC 0) else RtoC 0).
  { intros h i L Hi. unfold mask. rewrite (nth_combine_map _ _ _ _ 0%R (RtoC 0)) by auto. reflexivity. }
  destruct (time_domain approx); cbn [negb].
  - destruct (Req_EM_T (delta_f hp) 0); [discriminate|]. apply ok_inj in H. set (dt := (1 / delta_f hp + epoch hp)%R) in *.
    assert (HH : shift_all lo hi dt fs (mask lo hi fs p0) = p /\ shift_all lo hi dt fs (mask lo hi fs c0) = c) by (injection H as E1 E2; auto). destruct HH as [<- <-].
    assert (SL : forall h, length h = length fs -> length (shift_all lo hi dt fs h) = length fs) by (intros h L; apply length_combine_map; auto).
    assert (SN : forall h i, length h = length fs -> i < length fs -> nth i (shift_all lo hi dt fs h) (RtoC 0) = if in_bounds lo hi (nth i fs 0%R) then Cmult (nth i h (RtoC 0)) (shift dt (nth i fs 0%R)) else nth i h (RtoC 0)).
    { intros h i L Hi. unfold shift_all. rewrite (nth_combine_map _ _ _ _ 0%R (RtoC 0)) by auto. reflexivity. }
    split; [apply SL, M; exact L1|]. split; [apply SL, M; exact L2|]. intros i Hi. rewrite !SN by (auto). rewrite !MN by assumption. rewrite N1, N2 by exact Hi.
    destruct (in_bounds lo hi (nth i fs 0%R)); split; reflexivity.
  - apply ok_inj in H. assert (HH : mask lo hi fs p0 = p /\ mask lo hi fs c0 = c) by (injection H as E1 E2; auto). destruct HH as [<- <-].
    split; [apply M; exact L1|]. split; [apply M; exact L2|]. intros i Hi. rewrite !MN by assumption. rewrite N1, N2 by exact Hi. split; reflexivity.
Qed.
(** What the generator is asked, for a run with the arguments [kwargs]: under every key that is not an argument of the user, the
    binary's own value; under every other argument of the user, that argument; under none of the model's own argument names, anything. *)
Definition question (fs : list R) (b : binary) (kwargs : dict val) (approx : string) (fref hi start : R) (d : dict val) : Prop :=
  (forall k, In k own_keys -> dget d k = None) /\
  (forall k v, dget kwargs k = Some v -> ~ In k own_keys -> dget d k = Some v) /\
  (forall k v, In (k, v) [("mass1", mass_1 b); ("mass2", mass_2 b); ("deltaF", (nth 1 fs 0 - nth 0 fs 0)%R); ("f22_start", start); ("f_max", hi); ("f22_ref", fref);
      ("phi_ref", phase b); ("distance", distance b); ("eccentricity", 0%R); ("longAscNodes", 0%R); ("meanPerAno", 0%R); ("condition", if time_domain approx then 1%R else 0%R)] ->
    dget kwargs k = None -> dget d k = Some (VNum v)) /\
  (let '(iota, (x1, y1, z1), (x2, y2, z2)) := to_spins transform b (mass_1 b * solar_mass)%R (mass_2 b * solar_mass)%R fref in
   forall k v, In (k, v) [("inclination", iota); ("spin1x", x1); ("spin1y", y1); ("spin1z", z1); ("spin2x", x2); ("spin2y", y2); ("spin2z", z2)] ->
    dget kwargs k = None -> dget d k = Some (VNum v)) /\
  (dget kwargs "ModeArray" = None -> dget d "ModeArray" = match dget kwargs "mode_array" with Some VNone | None => None | Some m => Some m end).
Lemma asked_question fs b kwargs approx fref hi start : wf kwargs ->
  question fs b kwargs approx fref hi start (asked b fref start hi (nth 1 fs 0 - nth 0 fs 0)%R approx (gw_update (gw_defaults (last fs 0%R)) kwargs)).
Proof.
  intros W. set (kw := gw_update (gw_defaults (last fs 0%R)) kwargs).
  assert (WK : wf kw) by (apply gw_update_wf, gw_defaults_wf).
  destruct (delete_all own_keys kw WK) as [WE GE]. fold (extra_args kw) in WE, GE.
  assert (GG : forall k, dget kw k = argument fs kwargs k) by (intros k; apply default_get; exact W).
  assert (NO : forall k, existsb (String.eqb k) own_keys = false -> dget (extra_args kw) k = dget kwargs k).
  { intros k N. rewrite GE, N, GG. unfold argument. rewrite (own_default _ _ N). destruct (dget kwargs k); reflexivity. }
  assert (MA : dget kw "mode_array" = match dget kwargs "mode_array" with Some v => Some v | None => Some VNone end).
  { rewrite GG. unfold argument. destruct (dget kwargs "mode_array"); reflexivity. }
  rewrite MA.
  set (s := to_spins _ _ _ _ _) in *. set (g := gw_dict _ _ _ _ _ _ _).
  set (d0 := match match dget kwargs "mode_array" with Some v => Some v | None => Some VNone end with Some VNone | None => g | Some m => dset g "ModeArray" m end).
  assert (D0 : forall k, k <> "ModeArray" -> dget d0 k = dget g k).
  { intros k N. unfold d0. destruct (dget kwargs "mode_array") as [[ | | | | | | | ]|]; try reflexivity; apply dget_set_ne; exact N. }
  assert (NG : dget g "ModeArray" = None) by (unfold g, gw_dict; destruct s as [[iota [[x1 y1] z1]] [[x2 y2] z2]]; reflexivity).
  assert (D1 : dget d0 "ModeArray" = match dget kwargs "mode_array" with Some VNone | None => None | Some m => Some m end).
  { unfold d0. destruct (dget kwargs "mode_array") as [[ | | | | | | | ]|]; try exact NG; apply dget_set_eq. }
  assert (D : forall k, dget (gw_update d0 (extra_args kw)) k = match dget (extra_args kw) k with Some v => Some v | None => dget d0 k end).
  { intros k. apply gw_update_get. exact WE. }
  clearbody d0. unfold question. fold s. split; [|split; [|split; [|split]]].
  - intros k I. rewrite D, GE. assert (EX : existsb (String.eqb k) own_keys = true) by (apply existsb_exists; exists k; split; [exact I|apply String.eqb_refl]).
    rewrite EX. rewrite D0 by (intros ->; cbn in I; intuition discriminate). unfold g, gw_dict. destruct s as [[iota [[x1 y1] z1]] [[x2 y2] z2]].
    cbn [own_keys In] in I. repeat (destruct I as [<- | I]; [reflexivity|]). destruct I.
  - intros k v K N. rewrite D. rewrite NO; [rewrite K; reflexivity|]. destruct (existsb _ own_keys) eqn:E; [|reflexivity]. exfalso. apply N.
    apply existsb_exists in E. destruct E as (x & I & E). apply String.eqb_eq in E. subst. exact I.
  - intros k v I K. cbn [In] in I. unfold g, gw_dict in D0. destruct s as [[iota [[x1 y1] z1]] [[x2 y2] z2]].
    repeat (destruct I as [I | I]; [injection I as <- <-; rewrite D, NO, K, D0 by (reflexivity || discriminate); reflexivity|]). destruct I.
  - unfold g, gw_dict in D0. destruct s as [[iota [[x1 y1] z1]] [[x2 y2] z2]]. intros k v I K. cbn [In] in I.
    repeat (destruct I as [I | I]; [injection I as <- <-; rewrite D, NO, K, D0 by (reflexivity || discriminate); reflexivity|]). destruct I.
  - intros K. rewrite D, NO, K by reflexivity. exact D1.
Qed.
(** A waveform that is returned has one value per frequency; it vanishes outside the band from the minimum to the maximum
    frequency and inside is the value of the generator at that position - zero beyond the end of its array - times, for a
    model in the time domain, the phase of a shift in time. *)
Theorem C215_waveform fs b kwargs p c : wf kwargs -> gwsig fs b kwargs = Ok (Some (p, c)) ->
  exists approx fref lo hi pn start d hp hc,
    gw_reaches fs kwargs approx fref lo hi pn start (nth 1 fs 0 - nth 0 fs 0)%R /\ question fs b kwargs approx fref hi start d /\ generate approx d = Gives (hp, hc) /\
    length p = length fs /\ length c = length fs /\
    forall i, i < length fs ->
      nth i p (RtoC 0) = (if in_bounds lo hi (nth i fs 0%R) then placed (negb (time_domain approx)) hp (nth i fs 0%R) (nth i (data hp) (RtoC 0)) else RtoC 0) /\
      nth i c (RtoC 0) = (if in_bounds lo hi (nth i fs 0%R) then placed (negb (time_domain approx)) hp (nth i fs 0%R) (nth i (data hc) (RtoC 0)) else RtoC 0).
Proof.
  intros W H. destruct (gw_ok _ _ _ _ W H) as (approx & fref & lo & hi & pn & start & df & RR). rewrite (gw_runs _ b _ _ _ _ _ _ _ _ W RR) in H.
  assert (DF : df = (nth 1 fs 0 - nth 0 fs 0)%R) by apply RR. subst df. apply finish_ok in H. destruct H as (hp & hc & G & H).
  eexists approx, fref, lo, hi, pn, start, _, hp, hc. split; [exact RR|]. split; [apply asked_question; exact W|]. split; [exact G|exact H].
Qed.
(** An answer of a generator that gives arrays of the same length, and a spacing other than zero, always comes back. *)
Theorem C215_answered fs b kwargs approx fref lo hi pn start : wf kwargs -> gw_reaches fs kwargs approx fref lo hi pn start (nth 1 fs 0 - nth 0 fs 0)%R ->
  (forall d, question fs b kwargs approx fref hi start d -> exists hp hc, generate approx d = Gives (hp, hc) /\ length (data hp) = length (data hc) /\ delta_f hp <> 0%R) ->
  exists p c, gwsig fs b kwargs = Ok (Some (p, c)).
Proof.
  intros W RR G. rewrite (gw_runs _ b _ _ _ _ _ _ _ _ W RR). destruct (G _ (asked_question fs b kwargs approx fref hi start W)) as (hp & hc & -> & L & N).
  cbn [finish]. assert (F : forall d, length d = length (data hp) -> exists h, fit (length fs) (length fs <? length (data hp)) d = Ok h).
  { intros d LD. unfold fit. destruct (length fs <? length (data hp)) eqn:E.
    - apply Nat.ltb_lt in E. destruct (length fs <=? length d) eqn:E2; [eauto|]. apply Nat.leb_gt in E2. lia.
    - apply Nat.ltb_ge in E. destruct (length d <=? length fs) eqn:E2; [eauto|]. apply Nat.leb_gt in E2. lia. }
  destruct (F (data hp) eq_refl) as [h1 ->]. destruct (F (data hc) (eq_sym L)) as [h2 ->]. cbn [bind].
  destruct (time_domain approx); [|eauto]. destruct (Req_EM_T (delta_f hp) 0); [contradiction|eauto].
Qed.
(** No waveform is returned in place of an error exactly when errors are caught and the first argument of the generator's error
    contains "Input domain error"; every other error is raised as it is, except that a caught error without arguments becomes an IndexError. *)
Theorem C215_errors fs b kwargs approx fref lo hi pn start args : wf kwargs -> gw_reaches fs kwargs approx fref lo hi pn start (nth 1 fs 0 - nth 0 fs 0)%R ->
  (forall d, question fs b kwargs approx fref hi start d -> generate approx d = Fails args) ->
  gwsig fs b kwargs =
    if truthy (match dget kwargs "catch_waveform_errors" with Some v => v | None => VFlag false end)
    then match args with [] => Raise IndexError | a :: _ => if contains "Input domain error" a then Ok None else Raise (LalError args) end
    else Raise (LalError args).
Proof.
  intros W RR G. rewrite (gw_runs _ b _ _ _ _ _ _ _ _ W RR), (G _ (asked_question fs b kwargs approx fref hi start W)). cbn [finish]. unfold gw_failure, argument.
  assert (E : match match dget kwargs "catch_waveform_errors" with Some v => Some v | None => dget (gw_defaults (last fs 0%R)) "catch_waveform_errors" end with Some v => v | None => VNone end
    = match dget kwargs "catch_waveform_errors" with Some v => v | None => VFlag false end) by (destruct (dget kwargs "catch_waveform_errors"); reflexivity).
  rewrite E. destruct (truthy _); reflexivity.
Qed.
Theorem C215_none fs b kwargs : wf kwargs -> gwsig fs b kwargs = Ok None ->
  exists v approx fref lo hi pn start d a args, dget kwargs "catch_waveform_errors" = Some v /\ truthy v = true /\ gw_reaches fs kwargs approx fref lo hi pn start (nth 1 fs 0 - nth 0 fs 0)%R /\
    question fs b kwargs approx fref hi start d /\ generate approx d = Fails (a :: args) /\ exists m, substring m (String.length "Input domain error") a = "Input domain error".
Proof.
  intros W H. destruct (gw_ok _ _ _ _ W H) as (approx & fref & lo & hi & pn & start & df & RR). rewrite (gw_runs _ b _ _ _ _ _ _ _ _ W RR) in H.
  assert (DF : df = (nth 1 fs 0 - nth 0 fs 0)%R) by apply RR. subst df. set (d := gw_update _ _) in H.
  assert (Q : question fs b kwargs approx fref hi start d) by (apply asked_question; exact W). clearbody d.
  destruct (generate approx d) as [[hp hc]|args] eqn:G; cbn [finish] in H.
  { exfalso. apply bind_ok in H. destruct H as (p0 & _ & H). apply bind_ok in H. destruct H as (c0 & _ & H). destruct (time_domain approx); [|discriminate]. destruct (Req_EM_T _ _); discriminate. }
  unfold gw_failure, argument in H. destruct (dget kwargs "catch_waveform_errors") as [v|] eqn:K; [|discriminate].
  destruct (truthy v) eqn:T; cbn [negb] in H; [|discriminate]. destruct args as [|a args]; [discriminate|].
  destruct (contains "Input domain error" a) eqn:E; [|discriminate]. apply contains_spec in E; [|discriminate].
  exists v, approx, fref, lo, hi, pn, start, d, a, args. auto 10.
Qed.
(** Approximants other than the three that were reviewed or are there for testing are refused. *)
Theorem C215_refused fs b kwargs v : wf kwargs -> fs <> [] -> argument fs kwargs "waveform_approximant" = Some v -> (forall a, In a reviewed -> v <> VText a) ->
  gwsig fs b kwargs = Raise ValueError.
Proof.
  intros W NE A N. destruct fs as [|f0 rest]; [contradiction|]. unfold gwsignal. set (fs2 := f0 :: rest) in *. set (kw := gw_update (gw_defaults (last fs2 0%R)) kwargs).
  assert (GG : forall k, dget kw k = argument fs2 kwargs k) by (intros k; apply default_get; exact W).
  rewrite (GG "waveform_approximant"), A. destruct v; try reflexivity. cbn [bind]. destruct (existsb _ reviewed) eqn:E; [|reflexivity].
  apply reviewed_in in E. destruct (N _ E eq_refl).
Qed.
End Gwsignal.
(** The waveform starts at the minimum frequency, or below it when higher harmonics of the amplitude are asked for, so that the harmonic
    [pn + 2] starts at twice the minimum frequency; with -1, all harmonics that lalsimulation knows; the order -2 divides by zero. *)
Theorem C215_start lo pn : start_frequency lo pn =
  if Req_EM_T pn (-2) then Raise ZeroDivisionError else Ok (if Req_EM_T pn (-1) then (lo / 4)%R else (lo * 2 / (pn + 2))%R).
Proof.
  unfold start_frequency. destruct (Req_EM_T pn 0) as [->|N0].
  - destruct (Req_EM_T 0 (-2)); [lra|]. destruct (Req_EM_T 0 (-1)); [lra|]. apply (f_equal Ok). field.
  - destruct (Req_EM_T pn (-1)) as [->|N1].
    + destruct (Req_EM_T (6 + 2) 0); [lra|]. destruct (Req_EM_T (-1) (-2)); [lra|]. apply (f_equal Ok). field.
    + destruct (Req_EM_T (pn + 2) 0); destruct (Req_EM_T pn (-2)); try lra; reflexivity.
Qed.
Theorem C215_start_bounds lo pn s : (0 < lo)%R -> (0 <= pn)%R -> start_frequency lo pn = Ok s -> (0 < s <= lo)%R.
Proof.
  intros L P. rewrite C215_start. destruct (Req_EM_T pn (-2)); [discriminate|]. destruct (Req_EM_T pn (-1)); [lra|]. intros H. apply ok_inj in H. subst s.
  assert (0 < / (pn + 2))%R by (apply Rinv_0_lt_compat; lra). assert (/ (pn + 2) <= / 2)%R by (apply Rinv_le_contravar; lra). unfold Rdiv. split; nra.
Qed.

(** *** Examples *)
Definition gx_binary : binary := mkBinary 36 29 400 0 1 0 0 0 0 0 0 0 0 0.
Definition gx_transform : R -> R -> R -> R -> R -> R -> R -> R -> R -> R -> R -> spins := fun t _ _ _ _ _ _ _ _ _ _ => (t, (0, 0, 0)%R, (0, 0, 0)%R).
(** a generator in the frequency domain whose values are the first mass it is given *)
Definition gx_generate (_ : string) (d : dict val) : answer (series * series) :=
  match dget d "mass1" with Some (VNum m) => Gives (mkSeries [RtoC m; RtoC m; RtoC m; RtoC m] 1 0, mkSeries [RtoC m; RtoC m; RtoC m; RtoC m] 1 0) | _ => Fails ["Input domain error: mass"] end.
Definition gx_arguments (more : dict val) : dict val := more ++ [("minimum_frequency", VNum 1); ("waveform_approximant", VText "IMRPhenomXPHM")].
Lemma gx_reaches more : (forall k, In k (dkeys more) -> ~ In k own_keys) -> gw_reaches [0; 1; 2]%R (gx_arguments more) "IMRPhenomXPHM" 50 1 2 0 1 (1 - 0)%R.
Proof.
  intros N. assert (G : forall k, In k own_keys -> dget (gx_arguments more) k = dget [("minimum_frequency", VNum 1); ("waveform_approximant", VText "IMRPhenomXPHM")] k).
  { intros k K. unfold gx_arguments. revert N. induction more as [|[k' v] m IH]; intros N; [reflexivity|]. cbn [app dget]. destruct (String.eqb_spec k k') as [->|D].
    - exfalso. apply (N k'); [left; reflexivity|exact K].
    - apply IH. intros x I. apply N. right. exact I. }
  unfold gw_reaches, argument. rewrite !G by (cbn; tauto). cbn [dget gw_defaults last]. repeat (split; [first [reflexivity | cbn; tauto]|]). split; [|split; [cbn; lia|reflexivity]].
  unfold start_frequency. destruct (Req_EM_T 0 0); [reflexivity|lra].
Qed.
Lemma gx_value more m p c : wf (gx_arguments more) -> (forall k, In k (dkeys more) -> ~ In k own_keys) ->
  dget (gx_arguments more) "mass1" = m ->
  gwsignal gx_transform (fun _ => false) gx_generate 1 [0; 1; 2]%R gx_binary (gx_arguments more) = Ok (Some (p, c)) ->
  nth 1 p (RtoC 0) = RtoC (match m with Some (VNum x) => x | _ => 36%R end) \/ (exists v, m = Some v /\ forall x, v <> VNum x).
Proof.
  intros W N K H. destruct (C215_waveform _ _ _ _ _ _ _ _ _ W H) as (approx & fref & lo & hi & pn & start & d & hp & hc & RR & (_ & Q2 & Q3 & _) & G & _ & _ & V).
  destruct RR as (_ & _ & _ & A4 & A5 & _). destruct (gx_reaches more N) as (_ & _ & _ & B4 & B5 & _). rewrite B4 in A4. rewrite B5 in A5.
  assert (lo = 1%R) by congruence. assert (hi = 2%R) by congruence. subst lo hi. destruct (V 1 ltac:(cbn; lia)) as [V1 _].
  assert (IB : in_bounds 1 2 (nth 1 [0; 1; 2]%R 0%R) = true) by (unfold in_bounds; cbn [nth]; destruct (Rle_dec 1 1); [|lra]; destruct (Rle_dec 1 2); [reflexivity|lra]).
  rewrite IB in V1. cbn [negb placed] in V1. rewrite V1. destruct m as [[x| | | | | | | ]|]; try (right; eexists; split; [reflexivity|discriminate]); left.
  - assert (D : dget d "mass1" = Some (VNum x)) by (apply Q2; [exact K|cbn; intuition discriminate]). unfold gx_generate in G. rewrite D in G. injection G as <- <-. reflexivity.
  - assert (D : dget d "mass1" = Some (VNum 36)) by (apply Q3; [left; reflexivity|exact K]). unfold gx_generate in G. rewrite D in G. injection G as <- <-. reflexivity.
Qed.
Example C215_example : exists p c, gwsignal gx_transform (fun _ => false) gx_generate 1 [0; 1; 2]%R gx_binary (gx_arguments []) = Ok (Some (p, c)) /\ nth 1 p (RtoC 0) = RtoC 36.
Proof.
  assert (W : wf (gx_arguments [])) by (unfold wf; cbn; repeat constructor; cbn; intuition discriminate).
  assert (N : forall k, In k (dkeys (@nil (string * val))) -> ~ In k own_keys) by (intros k []).
  destruct (C215_answered gx_transform (fun _ => false) gx_generate 1 [0; 1; 2]%R gx_binary (gx_arguments []) "IMRPhenomXPHM" 50 1 2 0 1 W (gx_reaches [] N)) as (p & c & E).
  { intros d (_ & _ & Q & _). unfold gx_generate. rewrite (Q "mass1" 36%R); [|left; reflexivity|reflexivity]. eexists _, _. split; [reflexivity|]. split; [reflexivity|cbn; lra]. }
  exists p, c. split; [exact E|]. destruct (gx_value [] None p c W N eq_refl E) as [H|(v & H & _)]; [exact H|discriminate].
Qed.
(** A stray keyword called like an argument of the generator silently replaces the binary's own parameter. *)
Theorem C215_stray_refuted : exists p c, gwsignal gx_transform (fun _ => false) gx_generate 1 [0; 1; 2]%R gx_binary (gx_arguments [("mass1", VNum 99)]) = Ok (Some (p, c)) /\
  mass_1 gx_binary = 36%R /\ nth 1 p (RtoC 0) = RtoC 99.
Proof.
  assert (W : wf (gx_arguments [("mass1", VNum 99)])) by (unfold wf; cbn; repeat constructor; cbn; intuition discriminate).
  assert (N : forall k, In k (dkeys [("mass1", VNum 99)]) -> ~ In k own_keys) by (intros k [<-|[]]; cbn; intuition discriminate).
  destruct (C215_answered gx_transform (fun _ => false) gx_generate 1 [0; 1; 2]%R gx_binary (gx_arguments [("mass1", VNum 99)]) "IMRPhenomXPHM" 50 1 2 0 1 W (gx_reaches _ N)) as (p & c & E).
  { intros d (_ & Q & _ & _). unfold gx_generate. rewrite (Q "mass1" (VNum 99)); [|reflexivity|cbn; intuition discriminate]. eexists _, _. split; [reflexivity|]. split; [reflexivity|cbn; lra]. }
  exists p, c. split; [exact E|]. split; [reflexivity|]. destruct (gx_value _ (Some (VNum 99)) p c W N eq_refl E) as [H|(v & H & NV)]; [exact H|]. injection H as <-. destruct (NV 99%R eq_refl).
Qed.
(** The orders of the post-Newtonian expansion in spin, tides and phase, and the file of numerical relativity, never reach the generator. *)
Theorem C215_dropped_refuted transform time_domain solar_mass fs b kwargs approx fref hi start d k : question transform time_domain solar_mass fs b kwargs approx fref hi start d ->
  In k ["pn_spin_order"; "pn_tidal_order"; "pn_phase_order"; "numerical_relativity_file"] -> dget d k = None.
Proof. intros (Q & _) I. apply Q. cbn in I. cbn. intuition auto. Qed.

(** ** Assumptions of every theorem above *)
Definition Gwsig_Props_all :=
  (@C215_waveform,
   @C215_answered,
   @C215_errors,
   @C215_none,
   @C215_refused,
   @C215_start,
   @C215_start_bounds,
   @C215_stray_refuted,
   @C215_dropped_refuted).
Print Assumptions Gwsig_Props_all.
