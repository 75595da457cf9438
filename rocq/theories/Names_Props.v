(** Theorems about the names of bilby's settings in the samplers (C226) *)
From Coq Require Import String List Bool Arith Lia.
From Verif Require Import PyDict Sampler_Model Sampler_Props Names_Model.
Import ListNotations.
Open Scope list_scope.
Open Scope string_scope.

Fixpoint nodupb (l : list string) : bool := match l with [] => true | a :: t => negb (existsb (String.eqb a) t) && nodupb t end.
Lemma existsb_in k l : existsb (String.eqb k) l = true <-> In k l.
Proof. rewrite existsb_exists. split; [intros (x & I & E); apply String.eqb_eq in E; subst; exact I|intros I; exists k; split; [exact I|apply String.eqb_refl]]. Qed.
Lemma nodupb_ok l : nodupb l = true -> NoDup l.
Proof.
  induction l as [|a l IH]; cbn [nodupb]; intros H; [constructor|]. apply andb_true_iff in H. destruct H as [A B]. constructor; [|apply IH, B].
  intros I. apply existsb_in in I. rewrite I in A. discriminate.
Qed.
Definition apartb (a b : list string) : bool := forallb (fun x => negb (existsb (String.eqb x) b)) a.
Lemma apartb_ok a b : apartb a b = true -> forall x, In x a -> ~ In x b.
Proof. unfold apartb. rewrite forallb_forall. intros H x I J. specialize (H x I). apply existsb_in in J. rewrite J in H. discriminate. Qed.
Fixpoint pairsb (rs : list (string * list string)) : bool :=
  match rs with [] => true | r :: t => nodupb (snd r) && forallb (fun r' => apartb (names r) (names r')) t && pairsb t end.
Lemma pairsb_ok rs : pairsb rs = true -> disjoint_rules rs.
Proof.
  unfold disjoint_rules. induction rs as [|r rs IH]; cbn [pairsb]; intros H; [split; [intros r []|constructor]|].
  apply andb_true_iff in H. destruct H as [H C]. apply andb_true_iff in H. destruct H as [A B]. destruct (IH C) as [N F]. split.
  - intros r' [<-|I]; [apply nodupb_ok, A|apply N, I].
  - constructor; [|exact F]. apply Forall_forall. intros r' I. rewrite forallb_forall in B. apply apartb_ok, B, I.
Qed.

Section Names.
Variable V : Type.
Implicit Types kw defaults : dict V.

(** Exactly one of a group of names was given, with this value *)
Definition one_of (group : list string) kw (v : V) : Prop := exists a, In a group /\ dget kw a = Some v /\ forall b, In b group -> b <> a -> dget kw b = None.
Lemma one_chosen key group kw v o : In key group -> one_of group kw v -> chosen key group kw o -> o = Some v.
Proof.
  intros K (a & I & G & F) C. destruct C as [w H|A1 b A2 w N E H R|N R].
  - destruct (string_dec key a) as [->|D]; [congruence|]. rewrite (F key K D) in H. discriminate.
  - destruct (string_dec b a) as [->|D]; [congruence|]. rewrite (F b) in H; [discriminate|rewrite E; apply in_or_app; right; left; reflexivity|exact D].
  - rewrite (R a I) in G. discriminate.
Qed.
Lemma none_chosen key group kw o : In key group -> (forall a, In a group -> dget kw a = None) -> chosen key group kw o -> o = None.
Proof.
  intros K F C. destruct C as [w H|A1 b A2 w N E H R|N R]; [rewrite (F key K) in H; discriminate| |reflexivity].
  rewrite (F b) in H; [discriminate|rewrite E; apply in_or_app; right; left; reflexivity].
Qed.

Lemma alias_absent key A (d : dict V) l : (forall a, In a A -> dget d a = None) -> fold_left (alias_step key) A (d, l) = (d, l).
Proof.
  induction A as [|a A IH]; intros H; [reflexivity|]. cbn [fold_left]. assert (S : alias_step key (d, l) a = (d, l)) by (unfold alias_step; cbn [fst]; rewrite (H a) by (left; reflexivity); reflexivity).
  rewrite S. apply IH. intros b I. apply H. right. exact I.
Qed.
(** a sampler's own name of one of bilby's settings *)
Definition own_name (i : interface) (group : list string) (key : string) : Prop := In (key, group) (rules i) /\ In key group /\ In key (default_names i) /\ disjoint_rules (rules i).
Lemma handed i group key kw defaults v : own_name i group key -> wf kw -> wf defaults -> dkeys defaults = default_names i -> one_of group kw v ->
  dget (set_kwargs defaults (rules i) kw) key = Some v.
Proof.
  intros (R & K & D & J) W WD E O. destruct (C53_alias defaults (rules i) kw key group WD W J R) as (o & C & ->); [rewrite E; exact D|].
  rewrite (one_chosen key group kw v o K O C). reflexivity.
Qed.
Ltac own := split; [cbn; tauto|]; split; [cbn; tauto|]; split; [cbn; tauto|]; apply pairsb_ok; reflexivity.

(** The number of live points may be given under any of eight names: each of these samplers gets it under its own. *)
Theorem C226_live_points i key kw defaults v :
  In (i, key) [(nestle, "npoints"); (cpnest, "nlive"); (polychord, "nlive"); (pymultinest, "n_live_points")] ->
  wf kw -> wf defaults -> dkeys defaults = default_names i -> one_of live_names kw v -> dget (set_kwargs defaults (rules i) kw) key = Some v.
Proof.
  intros I W WD E O. cbn [In] in I. assert (H : own_name i live_names key).
  { destruct I as [I|[I|[I|[I|[]]]]]; injection I as <- <-; own. }
  exact (handed i live_names key kw defaults v H W WD E O).
Qed.
(** So are the seed, the size of the pool and the number of steps of the walks, by the samplers that have them. *)
Theorem C226_seed i kw defaults v : In i [cpnest; polychord; pymultinest; dnest4] ->
  wf kw -> wf defaults -> dkeys defaults = default_names i -> one_of seed_names kw v -> dget (set_kwargs defaults (rules i) kw) "seed" = Some v.
Proof.
  intros I W WD E O. assert (H : own_name i seed_names "seed"). { cbn [In] in I. destruct I as [<-|[<-|[<-|[<-|[]]]]]; own. }
  exact (handed i seed_names "seed" kw defaults v H W WD E O).
Qed.
Theorem C226_others i group key kw defaults v :
  In (i, group, key) [(cpnest, npool_names, "nthreads"); (nestle, walks_names, "steps"); (ptmcmc, burn_names, "burn")] ->
  wf kw -> wf defaults -> dkeys defaults = default_names i -> one_of group kw v -> dget (set_kwargs defaults (rules i) kw) key = Some v.
Proof.
  intros I W WD E O. assert (H : own_name i group key). { cbn [In] in I. destruct I as [I|[I|[I|[]]]]; injection I as <- <- <-; own. }
  exact (handed i group key kw defaults v H W WD E O).
Qed.
(** The number of steps of DNest4 is not among the names of its group, but every one of them reaches it. *)
Theorem C226_dnest4_steps kw defaults v : wf kw -> wf defaults -> dkeys defaults = default_names dnest4 -> dget kw "num_steps" = None -> one_of walks_names kw v ->
  dget (set_kwargs defaults (rules dnest4) kw) "num_steps" = Some v.
Proof.
  intros W WD E N (a & I & G & F). destruct (C53_alias defaults (rules dnest4) kw "num_steps" walks_names WD W) as (o & C & ->); [apply pairsb_ok; reflexivity|cbn; tauto|rewrite E; cbn; tauto|].
  destruct C as [w H|A1 b A2 w N' EE H R|N' R]; [congruence| |].
  - destruct (string_dec b a) as [->|D]; [rewrite <- H; exact G|]. rewrite (F b) in H; [discriminate|rewrite EE; apply in_or_app; right; left; reflexivity|exact D].
  - rewrite (R a I) in G. discriminate.
Qed.
(** But DNest4 knows its number of particles by that name only: given any other way the setting is dropped and the default used. *)
Theorem C226_dnest4_refuted kw defaults : wf kw -> wf defaults -> dkeys defaults = default_names dnest4 -> dget kw "num_particles" = None ->
  dget (set_kwargs defaults (rules dnest4) kw) "num_particles" = dget defaults "num_particles" /\ forall a, In a live_names -> a <> "num_particles" -> dget (set_kwargs defaults (rules dnest4) kw) a = None.
Proof.
  intros W WD E N. split.
  - rewrite C53_plain; [rewrite N; reflexivity|exact WD|exact W|apply pairsb_ok; reflexivity|rewrite E; cbn; tauto|].
    intros r I. cbn [rules dnest4 In] in I. destruct I as [<-|[<-|[]]]; cbn; intuition discriminate.
  - intros a I D. apply dget_none. rewrite C53_known_names by exact WD. rewrite E. cbn in I. cbn. intuition (subst; try discriminate; contradiction).
Qed.
(** A seed given to a sampler without one is dropped, too. *)
Theorem C226_no_seed_refuted i kw defaults a : In i [nestle; ptmcmc] -> wf defaults -> dkeys defaults = default_names i -> In a seed_names -> dget (set_kwargs defaults (rules i) kw) a = None.
Proof.
  intros I WD E A. apply dget_none. rewrite C53_known_names by exact WD. rewrite E. cbn [In] in I. destruct I as [<-|[<-|[]]]; cbn in A; cbn; intuition (subst; discriminate).
Qed.
(** PTMCMC takes a number of walkers for its number of iterations. *)
Theorem C226_walkers_refuted kw defaults v : wf kw -> wf defaults -> dkeys defaults = default_names ptmcmc -> one_of walker_names kw v -> dget kw "nwalkers" = Some v ->
  dget (set_kwargs defaults (rules ptmcmc) kw) "Niter" = Some v.
Proof. intros W WD E O _. refine (handed ptmcmc walker_names "Niter" kw defaults v _ W WD E O). own. Qed.
(** PolyChord's own argument nlives, a dictionary, is taken for a number of live points. *)
Theorem C226_nlives_refuted kw defaults v : wf kw -> wf defaults -> dkeys defaults = default_names polychord -> one_of live_names kw v -> dget kw "nlives" = Some v ->
  dget (set_kwargs defaults (rules polychord) kw) "nlive" = Some v /\ dget (set_kwargs defaults (rules polychord) kw) "nlives" = dget defaults "nlives".
Proof.
  intros W WD E O G. split; [refine (handed polychord live_names "nlive" kw defaults v _ W WD E O); own|].
  assert (J : disjoint_rules (rules polychord)) by (apply pairsb_ok; reflexivity).
  rewrite dget_set_kwargs; [|exact WD|exact W|exact J|rewrite E; cbn; tauto].
  assert (T : dget (translate (rules polychord) kw) "nlives" = None); [|rewrite T; reflexivity].
  destruct O as (a & _ & GA & F). assert (a = "nlives") as -> by (destruct (string_dec a "nlives") as [|D]; [assumption|]; rewrite (F "nlives") in G; [discriminate|cbn; tauto|congruence]).
  unfold translate. cbn [fold_left rules polychord]. set (kw1 := fst (translate1 kw ("seed", seed_names))).
  destruct (translate1_spec kw "seed" seed_names W ltac:(apply nodupb_ok; reflexivity)) as (W1 & K1 & _). fold kw1 in W1, K1.
  assert (L : forall x, In x live_names -> dget kw1 x = dget kw x). { intros x I. apply K1; cbn in I; cbn; intuition (subst; discriminate). }
  assert (N : dget kw1 "nlive" = None) by (rewrite L; [apply F; [cbn; tauto|discriminate]|cbn; tauto]).
  assert (G1 : dget kw1 "nlives" = Some v) by (rewrite L; [exact G|cbn; tauto]).
  assert (X : forall x, In x ["n_live_points"; "npoints"; "npoint"; "Nlive"; "num_live_points"; "num_particles"] -> dget (dset (ddel kw1 "nlives") "nlive" v) x = None).
  { intros x I. rewrite dget_set_ne by (intros ->; cbn in I; intuition discriminate). rewrite dget_del_ne by (intros ->; cbn in I; intuition discriminate). rewrite L; [|cbn in I; cbn; intuition]. apply F; [cbn in I; cbn; intuition|intros ->; cbn in I; intuition discriminate]. }
  unfold translate1. cbn [fst snd]. unfold dmem. rewrite N. change live_names with (["nlive"; "nlives"] ++ ["n_live_points"; "npoints"; "npoint"; "Nlive"; "num_live_points"; "num_particles"])%list. rewrite fold_left_app.
  assert (S : fold_left (alias_step "nlive") ["nlive"; "nlives"] (kw1, []) = (dset (ddel kw1 "nlives") "nlive" v, [v])).
  { cbn [fold_left]. assert (S1 : alias_step "nlive" (kw1, []) "nlive" = (kw1, [])) by (unfold alias_step; cbn [fst]; rewrite N; reflexivity). rewrite S1. unfold alias_step. cbn [fst snd]. rewrite G1. reflexivity. }
  rewrite S, alias_absent by exact X. cbn [fst]. rewrite dget_set_ne by discriminate. apply dget_del_eq, W1.
Qed.
End Names.

Section Special.
Variable V : Type.
Variable truthy : V -> bool.

Lemma verify_get (defaults d : dict V) k : wf d -> dget (verify defaults d) k = if dmem defaults k then dget d k else None.
Proof.
  intros W. unfold verify. destruct (dels_spec (filter (fun k => negb (dmem defaults k)) (dkeys d)) d W) as (_ & E & _). cbv zeta in E. rewrite E.
  destruct (in_dec string_dec k _) as [I|I].
  - apply filter_In in I. destruct I as [_ I]. destruct (dmem defaults k); [discriminate|reflexivity].
  - destruct (dmem defaults k) eqn:M; [reflexivity|]. apply dget_none. intros J. apply I, filter_In. split; [exact J|]. rewrite M. reflexivity.
Qed.
Lemma mem_keys (d : dict V) k : In k (dkeys d) -> dmem d k = true.
Proof. apply dmem_in. Qed.

(** Nestle: with verbose, the default, its progress callback replaces the user's own; without it, verbose is passed on to nestle. *)
Theorem C226_nestle defaults progress kw verbose : wf kw -> wf defaults -> dkeys defaults = default_names nestle ->
  verbose = match dget kw "verbose" with Some v => Some v | None => dget defaults "verbose" end ->
  let d := nestle_kwargs V truthy defaults progress kw in
  exists v, verbose = Some v /\
  (truthy v = true -> dget d "callback" = Some progress /\ dget d "verbose" = None) /\
  (truthy v = false -> dget d "verbose" = Some v /\ dget d "callback" = match dget kw "callback" with Some c => Some c | None => dget defaults "callback" end).
Proof.
  intros W WD E -> d. subst d. unfold nestle_kwargs. assert (J : disjoint_rules (rules nestle)) by (apply pairsb_ok; reflexivity).
  set (u := dupdate defaults (translate (rules nestle) kw)). pose proof (wf_translate (rules nestle) kw W J) as WT. assert (WU : wf u) by (apply wf_dupdate, WD).
  destruct (translate_spec (rules nestle) kw W J) as [P _].
  assert (G : forall k, In k ["verbose"; "callback"] -> dget u k = match dget kw k with Some v => Some v | None => dget defaults k end).
  { intros k I. unfold u. rewrite dget_dupdate by exact WT. rewrite P; [reflexivity|]. intros r R. cbn [rules nestle In] in R. destruct R as [<-|[<-|[]]]; cbn in I; cbn; intuition (subst; discriminate). }
  assert (MV : dmem defaults "verbose" = true) by (apply mem_keys; rewrite E; cbn; tauto). assert (MC : dmem defaults "callback" = true) by (apply mem_keys; rewrite E; cbn; tauto).
  rewrite <- (G "verbose") by (cbn; tauto). rewrite <- (G "callback") by (cbn; tauto).
  assert (EV : exists v, dget u "verbose" = Some v). { rewrite G by (cbn; tauto). unfold dmem in MV. destruct (dget kw "verbose"); [eauto|]. destruct (dget defaults "verbose"); [eauto|discriminate]. }
  destruct EV as [v EV]. exists v. split; [exact EV|]. rewrite EV. split; intros T; rewrite T.
  - assert (WS : wf (dset u "callback" progress)) by (apply wf_set, WU). rewrite !verify_get by (apply wf_del, WS). rewrite MV, MC. split; [|apply dget_del_eq, WS].
    rewrite dget_del_ne by discriminate. apply dget_set_eq.
  - rewrite !verify_get by exact WU. rewrite MV, MC. split; [exact EV|reflexivity].
Qed.

(** PolyChord: a setting that is given and not zero, empty or None stays, else it follows the number of dimensions. *)
Theorem C226_polychord of_number fracs one_dim ndim d : wf d ->
  (forall k, In k ["grade_dims"; "grade_frac"; "nlive"; "num_repeats"] -> dget d k <> None) ->
  let r := polychord_dynamic V truthy of_number fracs one_dim ndim d in
  let kept k v := Some (match dget d k with Some w => if truthy w then w else v | None => v end) in
  dget r "nlive" = kept "nlive" (of_number (25 * ndim)%nat) /\ dget r "num_repeats" = kept "num_repeats" (of_number (5 * ndim)%nat) /\
  dget r "grade_dims" = kept "grade_dims" one_dim /\
  (exists g, dget r "grade_dims" = Some g /\ dget r "grade_frac" = kept "grade_frac" (fracs g)) /\
  forall k, ~ In k ["grade_dims"; "grade_frac"; "nlive"; "num_repeats"] -> dget r k = dget d k.
Proof.
  intros W H. cbv zeta. unfold polychord_dynamic.
  set (replace := or_else V truthy).
  assert (R1 : forall k v d k', k' <> k -> dget (replace k v d) k' = dget d k').
  { intros k v d0 k' N. unfold replace, or_else. destruct (dget d0 k); [|reflexivity]. destruct (truthy _); [reflexivity|]. apply dget_set_ne, N. }
  assert (R2 : forall k v d, dget d k <> None -> dget (replace k v d) k = Some (match dget d k with Some w => if truthy w then w else v | None => v end)).
  { intros k v d0 N. unfold replace, or_else. destruct (dget d0 k) as [w|] eqn:E; [|contradiction]. destruct (truthy w); [exact E|]. apply dget_set_eq. }
  assert (Hg := H "grade_dims" ltac:(cbn; tauto)). assert (Hf := H "grade_frac" ltac:(cbn; tauto)). assert (Hn := H "nlive" ltac:(cbn; tauto)). assert (Hr := H "num_repeats" ltac:(cbn; tauto)).
  set (d1 := replace "grade_dims" one_dim d). set (d2 := replace "grade_frac" (match dget d1 "grade_dims" with Some g => fracs g | None => one_dim end) d1). set (d3 := replace "nlive" (of_number (ndim * 25)%nat) d2).
  assert (E1 : dget d1 "grade_dims" = Some (match dget d "grade_dims" with Some w => if truthy w then w else one_dim | None => one_dim end)) by (apply R2, Hg).
  split; [|split; [|split; [|split]]].
  - rewrite R1 by discriminate. unfold d3. rewrite R2; unfold d2, d1; rewrite !R1 by discriminate; [|exact Hn]. rewrite (Nat.mul_comm 25). reflexivity.
  - rewrite R2; unfold d3, d2, d1; rewrite !R1 by discriminate; [|exact Hr]. rewrite (Nat.mul_comm 5). reflexivity.
  - rewrite R1 by discriminate. unfold d3, d2. rewrite !R1 by discriminate. exact E1.
  - eexists. split; [rewrite R1 by discriminate; unfold d3, d2; rewrite !R1 by discriminate; exact E1|].
    rewrite R1 by discriminate. unfold d3. rewrite R1 by discriminate. unfold d2. rewrite E1. rewrite R2; unfold d1; rewrite R1 by discriminate; [reflexivity|exact Hf].
  - intros k N. unfold d3, d2, d1. rewrite !R1; [reflexivity|intros ->; apply N; cbn; tauto..].
Qed.
(** PTMCMC: every setting but the starting point and the proposals reaches exactly one of the constructor and the run, and nothing else does. *)
Theorem C226_ptmcmc k : (In k (default_names ptmcmc) <-> In k ptmcmc_init \/ In k ptmcmc_run \/ k = "p0" \/ k = "custom_proposals") /\ ~ (In k ptmcmc_init /\ In k ptmcmc_run).
Proof. split; [cbn; intuition (subst; tauto)|]. cbn. intuition (subst; discriminate). Qed.

(** Nessai: the live points and the seed as for the others; the pool size is bilby's own unless one is given. *)
Theorem C226_nessai_pool own kw : wf kw ->
  (forall v, one_of V npool_names kw v -> dget (nessai_translate V own kw) "n_pool" = Some v) /\
  ((forall a, In a npool_names -> dget kw a = None) -> dget (nessai_translate V own kw) "n_pool" = Some own) /\
  (forall v, one_of V live_names kw v -> dget (nessai_translate V own kw) "nlive" = Some v) /\
  (forall v, one_of V seed_names kw v -> dget (nessai_translate V own kw) "seed" = Some v).
Proof.
  intros W. assert (J : disjoint_rules nessai_rules) by (apply pairsb_ok; reflexivity). destruct (translate_spec nessai_rules kw W J) as [_ C].
  unfold nessai_translate. set (t := translate nessai_rules kw) in *.
  assert (K : forall k, k <> "n_pool" -> dget (if dmem t "n_pool" then t else dset t "n_pool" own) k = dget t k) by (intros k N; destruct (dmem t "n_pool"); [reflexivity|apply dget_set_ne, N]).
  assert (C1 : chosen "seed" seed_names kw (dget t "seed")) by (apply (C ("seed", seed_names)); cbn; tauto).
  assert (C2 : chosen "nlive" live_names kw (dget t "nlive")) by (apply (C ("nlive", live_names)); cbn; tauto).
  assert (C3 : chosen "n_pool" npool_names kw (dget t "n_pool")) by (apply (C ("n_pool", npool_names)); cbn; tauto).
  split; [|split; [|split]].
  - intros v O. pose proof (one_chosen V "n_pool" npool_names kw v _ ltac:(cbn; tauto) O C3) as E. unfold dmem. rewrite E. exact E.
  - intros F. pose proof (none_chosen V "n_pool" npool_names kw _ ltac:(cbn; tauto) F C3) as E. unfold dmem. rewrite E. apply dget_set_eq.
  - intros v O. rewrite K by discriminate. exact (one_chosen V "nlive" live_names kw v _ ltac:(cbn; tauto) O C2).
  - intros v O. rewrite K by discriminate. exact (one_chosen V "seed" seed_names kw v _ ltac:(cbn; tauto) O C1).
Qed.
(** A configuration file of nessai wins over arguments given in the call; an empty plot or output setting is replaced by bilby's. *)
Theorem C226_nessai_config defaults own load own_plot own_output kw f k : wf kw -> wf defaults -> wf (load f) -> dget kw "config_file" = Some f ->
  In k (dkeys defaults) -> k <> "config_file" -> (forall r, In r nessai_rules -> ~ In k (names r)) ->
  let asked := match dget (load f) k with Some v => Some v | None => match dget kw k with Some v => Some v | None => dget defaults k end end in
  dget (nessai_kwargs V truthy defaults own load own_plot own_output kw) k =
    match asked with
    | Some v => if truthy v then Some v else if String.eqb k "plot" then Some own_plot else if String.eqb k "output" then Some own_output else Some v
    | None => None
    end.
Proof.
  intros W WD WL F I NC NR. cbv zeta. unfold nessai_kwargs. assert (J : disjoint_rules nessai_rules) by (apply pairsb_ok; reflexivity).
  destruct (translate_spec nessai_rules kw W J) as [P _]. pose proof (wf_translate nessai_rules kw W J) as WT.
  assert (WN : wf (nessai_translate V own kw)) by (unfold nessai_translate; destruct (dmem _ _); [exact WT|apply wf_set, WT]).
  assert (NP : forall x, (forall r, In r nessai_rules -> ~ In x (names r)) -> dget (nessai_translate V own kw) x = dget kw x).
  { intros x N. unfold nessai_translate. assert (x <> "n_pool") by (intros ->; apply (N ("n_pool", npool_names)); cbn; tauto). destruct (dmem _ _); [apply P, N|]. rewrite dget_set_ne by assumption. apply P, N. }
  set (d := dupdate defaults (nessai_translate V own kw)). assert (WU : wf d) by (apply wf_dupdate, WD).
  assert (C : dget d "config_file" = Some f).
  { unfold d. rewrite dget_dupdate by exact WN. rewrite NP, F; [reflexivity|]. intros r R. cbn [nessai_rules In] in R. destruct R as [<-|[<-|[<-|[]]]]; cbn; intuition discriminate. }
  rewrite C. set (e := ddel (dupdate d (load f)) "config_file"). assert (WE : wf e) by (apply wf_del, wf_dupdate, WU).
  assert (EK : dget e k = match dget (load f) k with Some v => Some v | None => match dget kw k with Some v => Some v | None => dget defaults k end end).
  { unfold e. rewrite dget_del_ne by exact NC. rewrite dget_dupdate by exact WL. destruct (dget (load f) k); [reflexivity|]. unfold d. rewrite dget_dupdate by exact WN. rewrite NP by exact NR. reflexivity. }
  assert (WO : forall key v x, wf x -> wf (or_else V truthy key v x)) by (intros key v x X; unfold or_else; destruct (dget x key); [|exact X]; destruct (truthy _); [exact X|apply wf_set, X]).
  assert (R1 : forall key v x k', k' <> key -> dget (or_else V truthy key v x) k' = dget x k').
  { intros key v x k' N. unfold or_else. destruct (dget x key); [|reflexivity]. destruct (truthy _); [reflexivity|]. apply dget_set_ne, N. }
  assert (R2 : forall key v x, dget (or_else V truthy key v x) key = match dget x key with Some w => Some (if truthy w then w else v) | None => None end).
  { intros key v x. unfold or_else. destruct (dget x key) as [w|] eqn:E; [|exact E]. destruct (truthy w); [exact E|apply dget_set_eq]. }
  rewrite verify_get by (apply WO, WO, WE). rewrite (mem_keys defaults k I). rewrite <- EK.
  destruct (String.eqb_spec k "plot") as [->|N1].
  - rewrite R1 by discriminate. rewrite R2. destruct (dget e "plot") as [w|]; [|reflexivity]. destruct (truthy w); reflexivity.
  - destruct (String.eqb_spec k "output") as [->|N2].
    + rewrite R2, R1 by discriminate. destruct (dget e "output") as [w|]; [|reflexivity]. destruct (truthy w); reflexivity.
    + rewrite !R1 by assumption. destruct (dget e k) as [w|]; [|reflexivity]. destruct (truthy w); reflexivity.
Qed.
End Special.

Definition ex_defaults (i : interface) : dict nat := map (fun k => (k, 0)) (default_names i).
Example C226_example : dget (set_kwargs (ex_defaults pymultinest) (rules pymultinest) [("nlive", 7); ("sampling_seed", 3); ("resume", 5)]) "n_live_points" = Some 7 /\
  dget (set_kwargs (ex_defaults pymultinest) (rules pymultinest) [("nlive", 7); ("sampling_seed", 3); ("resume", 5)]) "seed" = Some 3 /\
  dget (set_kwargs (ex_defaults dnest4) (rules dnest4) [("nlive", 7)]) "num_particles" = Some 0 /\
  dget (set_kwargs (ex_defaults ptmcmc) (rules ptmcmc) [("nwalkers", 100)]) "Niter" = Some 100 /\
  dget (nestle_kwargs nat (fun n => negb (n =? 0)%nat) (map (fun k => (k, 1)) (default_names nestle)) 9 [("callback", 8)]) "callback" = Some 9.
Proof. repeat split; reflexivity. Qed.

(** ** Assumptions of every theorem above *)
Definition Names_Props_all :=
  (@C226_live_points,
   @C226_seed,
   @C226_others,
   @C226_dnest4_steps,
   @C226_dnest4_refuted,
   @C226_no_seed_refuted,
   @C226_walkers_refuted,
   @C226_nlives_refuted,
   @C226_nestle,
   @C226_polychord,
   @C226_ptmcmc,
   @C226_nessai_pool,
   @C226_nessai_config).
Print Assumptions Names_Props_all.
