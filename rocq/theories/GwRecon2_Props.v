(** Setting up marginalisation (C169) and the sky frame and reference time of the transient likelihood (C170). *)
From Coq Require Import String Bool List Arith ZArith Reals Lia Lra.
From Verif Require Import PyReal PyDict GwRecon_Model GwRecon_Props.
Import ListNotations.
Open Scope list_scope.
Open Scope nat_scope.

(** *** C169: marginalisation and the priors *)

Definition fixed (p : option prior) : Prop := match p with Some (PNum _) | Some (PDelta _) => True | _ => False end.

Lemma copy_get d k : dget (copy_priors d) k = option_map delta_of (dget d k).
Proof. apply dget_map. Qed.

Lemma copy_wf d : wf d -> wf (copy_priors d).
Proof. unfold wf. change (copy_priors d) with (dmap delta_of d). rewrite dkeys_map. auto. Qed.

Lemma fixed_copy d k : fixed (dget d k) <-> exists p, dget (copy_priors d) k = Some p /\ is_fixed p = true.
Proof.
  rewrite copy_get. destruct (dget d k) as [[]|]; cbn; split; try (intros []; fail); try (intros (p & E & F); try discriminate; injection E as <-; try discriminate; exact I);
    intros _; eexists; split; reflexivity.
Qed.

(** The check of one parameter other than the distance. *)
Lemma check_simple e d k : k <> "luminosity_distance"%string ->
  (exists p, dget d k = Some p /\ is_fixed p = true /\ check_set e d k = ValueError) \/
  (exists p, dget d k = Some p /\ is_fixed p = false /\ check_set e d k = Done d) \/
  (exists q, dget d k = None /\ check_set e d k = Done (dset d k q) /\ (k = "geocent_time"%string -> q = default_time e) /\ (k = "phase"%string -> q = default_phase e)).
Proof.
  intros N. unfold check_set. destruct (dget d k) as [p|].
  - destruct (is_fixed p) eqn:F; [left|right; left]; exists p; auto.
  - right. right. destruct (String.eqb_spec k "geocent_time") as [->|Nt].
    + exists (default_time e). split; [reflexivity|]. split; [reflexivity|]. split; [auto|intros Q; discriminate Q].
    + destruct (String.eqb_spec k "luminosity_distance"); [contradiction|]. exists (default_phase e). split; [reflexivity|]. split; [reflexivity|]. split; [contradiction|auto].
Qed.

(** What the likelihood keeps for a parameter: the caller's prior, or the default (for the distance, the
    prior that belongs to the last of redshift and comoving distance). *)
Definition kept_prior (e : env) (user : dict prior) (k : string) : option prior :=
  match dget user k with
  | Some p => Some (delta_of p)
  | None =>
      if String.eqb k "geocent_time" then Some (default_time e)
      else if String.eqb k "phase" then Some (default_phase e)
      else match dget user "comoving_distance", dget user "redshift" with
           | Some p, _ => Some (lum_of e p)
           | None, Some p => Some (lum_of e p)
           | None, None => None
           end
  end.

Local Open Scope string_scope.

(** What the caller finds in the dictionary passed in. *)
Definition callers (e : env) (o : opts) (user : dict prior) (ref : option R) (k : string) : option prior :=
  if o_time o && geo o && String.eqb k "geocent_time" then Some (PNum (start_time e))
  else if o_time o && geo o && o_jitter o && String.eqb k "time_jitter" then Some (jitter_prior e)
  else if o_phase o && String.eqb k "phase" then Some (PNum 0)
  else if o_dist o && String.eqb k "luminosity_distance" then option_map PNum ref
  else if o_dist o && (String.eqb k "redshift" || String.eqb k "comoving_distance") then None
  else dget user k.

Ltac keyne := let Q := fresh in intros Q; discriminate Q.

(** the state after the three steps *)
Definition time_ok (e : env) (o : opts) (user : dict prior) : Prop := o_time o && geo o = true -> ~ fixed (dget user "geocent_time").
Definition phase_ok (o : opts) (user : dict prior) : Prop := o_phase o = true -> ~ fixed (dget user "phase").

Lemma time_spec e o user : wf user ->
  (o_time o && geo o = true /\ fixed (dget user "geocent_time") /\ time_step e o (copy_priors user) user = (ValueError, user)) \/
  (time_ok e o user /\ exists own u, time_step e o (copy_priors user) user = (Done own, u) /\ wf own /\ wf u /\
     (forall k, dget own k = if o_time o && geo o && String.eqb k "geocent_time" then kept_prior e user k else option_map delta_of (dget user k)) /\
     (forall k, dget u k = if o_time o && geo o && String.eqb k "geocent_time" then Some (PNum (start_time e))
                           else if o_time o && geo o && o_jitter o && String.eqb k "time_jitter" then Some (jitter_prior e) else dget user k)).
Proof.
  intros W. unfold time_step, time_ok. destruct (o_time o && geo o); [|right; split; [discriminate|]; exists (copy_priors user), user; split; [reflexivity|]; split; [apply copy_wf, W|]; split; [exact W|]; split; intros k; [apply copy_get|reflexivity]].
  assert (U : forall k, dget (let u := dset user "geocent_time" (PNum (start_time e)) in if o_jitter o then dset u "time_jitter" (jitter_prior e) else u) k =
     (if true && String.eqb k "geocent_time" then Some (PNum (start_time e)) else if true && o_jitter o && String.eqb k "time_jitter" then Some (jitter_prior e) else dget user k)).
  { intros k. cbv zeta. cbn [andb]. destruct (String.eqb_spec k "geocent_time") as [->|Nk].
    - destruct (o_jitter o); [rewrite dget_set_ne by keyne|]; apply dget_set_eq.
    - destruct (o_jitter o); cbn [andb].
      + destruct (String.eqb_spec k "time_jitter") as [->|Nj]; [apply dget_set_eq|rewrite !dget_set_ne by assumption; reflexivity].
      + apply dget_set_ne; exact Nk. }
  assert (WU : wf (let u := dset user "geocent_time" (PNum (start_time e)) in if o_jitter o then dset u "time_jitter" (jitter_prior e) else u)).
  { cbv zeta. destruct (o_jitter o); repeat apply wf_set; exact W. }
  destruct (check_simple e (copy_priors user) "geocent_time" ltac:(discriminate)) as [(p & E & F & C)|[(p & E & F & C)|(q & E & C & Q & _)]].
  - left. rewrite C. split; [reflexivity|]. split; [apply fixed_copy; eauto|reflexivity].
  - right. split. { intros _ G. apply fixed_copy in G. destruct G as (p' & E' & F'). congruence. }
    rewrite C. do 2 eexists. split; [reflexivity|]. split; [apply copy_wf, W|]. split; [exact WU|]. split; [|exact U].
    intros k. cbn [andb]. rewrite copy_get. destruct (String.eqb_spec k "geocent_time") as [->|Nk]; [|reflexivity].
    rewrite copy_get in E. unfold kept_prior. destruct (dget user "geocent_time"); [reflexivity|discriminate].
  - right. split. { intros _ G. apply fixed_copy in G. destruct G as (p' & E' & F'). congruence. }
    rewrite C. do 2 eexists. split; [reflexivity|]. split; [apply wf_set, copy_wf, W|]. split; [exact WU|]. split; [|exact U].
    intros k. cbn [andb]. destruct (String.eqb_spec k "geocent_time") as [->|Nk].
    + rewrite dget_set_eq, (Q eq_refl). rewrite copy_get in E. unfold kept_prior. destruct (dget user "geocent_time"); [discriminate|reflexivity].
    + rewrite dget_set_ne by exact Nk. apply copy_get.
Qed.

Lemma phase_spec e o own user : wf own -> wf user ->
  (o_phase o = true /\ (exists p, dget own "phase" = Some p /\ is_fixed p = true) /\ phase_step e o own user = (ValueError, user)) \/
  ((o_phase o = true -> forall p, dget own "phase" = Some p -> is_fixed p = false) /\ exists own' u, phase_step e o own user = (Done own', u) /\ wf own' /\ wf u /\
     (forall k, dget own' k = if o_phase o && String.eqb k "phase" then match dget own k with Some p => Some p | None => Some (default_phase e) end else dget own k) /\
     (forall k, dget u k = if o_phase o && String.eqb k "phase" then Some (PNum 0) else dget user k)).
Proof.
  intros W WU. unfold phase_step. destruct (o_phase o); [|right; split; [discriminate|]; exists own, user; auto].
  assert (U : forall k, dget (dset user "phase" (PNum 0)) k = if true && String.eqb k "phase" then Some (PNum 0) else dget user k).
  { intros k. cbn [andb]. destruct (String.eqb_spec k "phase") as [->|Nk]; [apply dget_set_eq|apply dget_set_ne; exact Nk]. }
  destruct (check_simple e own "phase" ltac:(discriminate)) as [(p & E & F & C)|[(p & E & F & C)|(q & E & C & _ & Q)]]; rewrite C.
  - left. split; [reflexivity|]. split; [exists p; auto|reflexivity].
  - right. split; [intros _ p'; congruence|]. do 2 eexists. split; [reflexivity|]. split; [exact W|]. split; [apply wf_set, WU|]. split; [|exact U].
    intros k. cbn [andb]. destruct (String.eqb_spec k "phase") as [->|Nk]; [rewrite E|]; reflexivity.
  - right. split; [intros _ p'; congruence|]. do 2 eexists. split; [reflexivity|]. split; [apply wf_set, W|]. split; [apply wf_set, WU|]. split; [|exact U].
    intros k. cbn [andb]. destruct (String.eqb_spec k "phase") as [->|Nk]; [rewrite dget_set_eq, E, (Q eq_refl); reflexivity|apply dget_set_ne; exact Nk].
Qed.

Definition is_cosmo (p : option prior) : bool := match p with Some (PCosmo _) | None => true | _ => false end.

(** The distance step by what is in the likelihood's own priors. *)
Lemma dist_spec e o own user : wf own -> wf user -> o_dist o = true ->
  (exists p, dget own "luminosity_distance" = Some p /\
    dist_step e o own user = if is_fixed p then (ValueError, user) else
      (Done (own, Some (median e p)), dset (ddel (ddel user "redshift") "comoving_distance") "luminosity_distance" (PNum (median e p)))) \/
  (dget own "luminosity_distance" = None /\
    ((is_cosmo (dget own "redshift") && is_cosmo (dget own "comoving_distance") = false /\ dist_step e o own user = (TypeError, user)) \/
     (dget own "redshift" = None /\ dget own "comoving_distance" = None /\ dist_step e o own user = (KeyError, user)) \/
     (is_cosmo (dget own "redshift") && is_cosmo (dget own "comoving_distance") = true /\
      exists p own', (dget own "comoving_distance" = Some p \/ dget own "comoving_distance" = None /\ dget own "redshift" = Some p) /\
       dist_step e o own user = (Done (own', Some (median e (lum_of e p))),
         dset (ddel (ddel user "redshift") "comoving_distance") "luminosity_distance" (PNum (median e (lum_of e p)))) /\
       (forall k, dget own' k = if String.eqb k "luminosity_distance" then Some (lum_of e p)
                                else if String.eqb k "redshift" || String.eqb k "comoving_distance" then None else dget own k)))).
Proof.
  intros W WU Ho. unfold dist_step. rewrite Ho. unfold check_set.
  destruct (dget own "luminosity_distance") as [p|] eqn:El.
  { left. exists p. split; [reflexivity|]. destruct (is_fixed p); [reflexivity|]. rewrite El. reflexivity. }
  right. split; [reflexivity|]. change (String.eqb "luminosity_distance" "geocent_time") with false. change (String.eqb "luminosity_distance" "luminosity_distance") with true. cbv iota.
  cbn [fold_left].
  assert (LS : forall d k, lum_step e (Done d) k = match dget d k with
      | None => Done d | Some (PCosmo i) => Done (ddel (dset d "luminosity_distance" (lum_of e (PCosmo i))) k) | Some _ => TypeError end) by reflexivity.
  rewrite (LS own).
  destruct (dget own "redshift") as [[x|x|i|i]|] eqn:Er.
  1-3: left; split; reflexivity.
  - rewrite LS. rewrite (dget_del_ne _ "comoving_distance" "redshift") by discriminate. rewrite (dget_set_ne _ "comoving_distance") by discriminate.
    destruct (dget own "comoving_distance") as [[x|x|j|j]|] eqn:Ec.
    1-3: left; split; reflexivity.
    + right. right. split; [reflexivity|]. rewrite (dget_del_ne _ "luminosity_distance" "comoving_distance") by discriminate. rewrite dget_set_eq.
      exists (PCosmo j). eexists. split; [left; reflexivity|]. split; [reflexivity|]. intros k.
      destruct (String.eqb_spec k "luminosity_distance") as [->|N1]; [rewrite dget_del_ne by discriminate; apply dget_set_eq|].
      destruct (String.eqb_spec k "comoving_distance") as [->|N2].
      { rewrite orb_true_r. apply dget_del_eq. apply wf_set, wf_del, wf_set, W. }
      rewrite dget_del_ne by exact N2. rewrite dget_set_ne by exact N1. rewrite orb_false_r.
      destruct (String.eqb_spec k "redshift") as [->|N3]; [apply dget_del_eq, wf_set, W|]. rewrite dget_del_ne by exact N3. apply dget_set_ne, N1.
    + right. right. split; [reflexivity|]. rewrite (dget_del_ne _ "luminosity_distance" "redshift") by discriminate. rewrite dget_set_eq.
      exists (PCosmo i). eexists. split; [right; auto|]. split; [reflexivity|]. intros k.
      destruct (String.eqb_spec k "luminosity_distance") as [->|N1]; [rewrite dget_del_ne by discriminate; apply dget_set_eq|].
      destruct (String.eqb_spec k "redshift") as [->|N3]; [cbn [orb]; apply dget_del_eq, wf_set, W|].
      rewrite dget_del_ne by exact N3. rewrite dget_set_ne by exact N1. cbn [orb].
      destruct (String.eqb_spec k "comoving_distance") as [->|N2]; [exact Ec|reflexivity].
  - rewrite LS. destruct (dget own "comoving_distance") as [[x|x|j|j]|] eqn:Ec.
    1-3: left; split; reflexivity.
    + right. right. split; [reflexivity|]. rewrite (dget_del_ne _ "luminosity_distance" "comoving_distance") by discriminate. rewrite dget_set_eq.
      exists (PCosmo j). eexists. split; [left; reflexivity|]. split; [reflexivity|]. intros k.
      destruct (String.eqb_spec k "luminosity_distance") as [->|N1]; [rewrite dget_del_ne by discriminate; apply dget_set_eq|].
      destruct (String.eqb_spec k "comoving_distance") as [->|N2]; [rewrite orb_true_r; apply dget_del_eq, wf_set, W|].
      rewrite dget_del_ne by exact N2. rewrite dget_set_ne by exact N1. rewrite orb_false_r.
      destruct (String.eqb_spec k "redshift") as [->|N3]; [exact Er|reflexivity].
    + right. left. split; [reflexivity|]. split; [reflexivity|]. rewrite El. reflexivity.
Qed.

(** Everything at once: what the constructor does with a dictionary of priors. *)
Definition described (e : env) (o : opts) (user : dict prior) (L : lik) (u : dict prior) : Prop :=
  wf u /\ (forall k, dget u k = callers e o user (l_ref L) k) /\ l_marg L = marg_list o /\
  l_time L = o_time o && geo o /\ l_jitter L = o_time o && geo o && o_jitter o /\
  exists own, l_priors L = Some own /\
    (forall k, In k (marg_list o) -> dget own k = kept_prior e user k /\ dget own k <> None) /\
    (forall k, ~ In k (marg_list o) -> ~ (o_dist o = true /\ dget user "luminosity_distance" = None /\ (k = "redshift" \/ k = "comoving_distance")) ->
       dget own k = option_map delta_of (dget user k)) /\
    l_ref L = if o_dist o then option_map (median e) (dget own "luminosity_distance") else None.

Lemma in_marg o k : In k (marg_list o) <->
  (o_time o && geo o = true /\ k = "geocent_time") \/ (o_phase o = true /\ k = "phase") \/ (o_dist o = true /\ k = "luminosity_distance").
Proof.
  unfold marg_list. rewrite !in_app_iff.
  destruct (o_time o && geo o), (o_phase o), (o_dist o); cbn [In]; intuition (try discriminate; auto).
Qed.

Lemma eqb_sym_false a b : a <> b -> String.eqb a b = false.
Proof. apply String.eqb_neq. Qed.

Lemma construct_cases e o user : wf user ->
  (exists k u, In k (marg_list o) /\ fixed (dget user k) /\ construct e o (Some user) = (ValueError, Some u)) \/
  ((forall k, In k (marg_list o) -> ~ fixed (dget user k)) /\
   ((o_dist o = true /\ dget user "luminosity_distance" = None /\ is_cosmo (dget user "redshift") && is_cosmo (dget user "comoving_distance") = false /\
     exists u, construct e o (Some user) = (TypeError, Some u)) \/
    (o_dist o = true /\ dget user "luminosity_distance" = None /\ dget user "redshift" = None /\ dget user "comoving_distance" = None /\
     exists u, construct e o (Some user) = (KeyError, Some u)) \/
    ((o_dist o = true -> dget user "luminosity_distance" = None ->
       is_cosmo (dget user "redshift") && is_cosmo (dget user "comoving_distance") = true /\ (dget user "redshift" <> None \/ dget user "comoving_distance" <> None)) /\
     exists L u, construct e o (Some user) = (Done L, Some u) /\ described e o user L u))).
Proof.
  intros W. unfold construct.
  destruct (time_spec e o user W) as [(T & F & E)|(TO & own1 & u1 & E & W1 & WU1 & G1 & V1)]; rewrite E.
  { left. exists "geocent_time", user. split; [apply in_marg; auto|]. auto. }
  destruct (phase_spec e o own1 u1 W1 WU1) as [(T & (p & Ep & Fp) & E2)|(PO & own2 & u2 & E2 & W2 & WU2 & G2 & V2)]; rewrite E2.
  { left. exists "phase", u1. split; [apply in_marg; auto|]. split; [|reflexivity].
    rewrite G1 in Ep. rewrite andb_comm in Ep. change (String.eqb "phase" "geocent_time") with false in Ep. cbn [andb] in Ep.
    apply fixed_copy. exists p. split; [rewrite copy_get; exact Ep|exact Fp]. }
  assert (PF : o_phase o = true -> ~ fixed (dget user "phase")).
  { intros T G. apply fixed_copy in G. destruct G as (p & Ep & Fp). rewrite (PO T p) in Fp; [discriminate|].
    rewrite G1, andb_comm. change (String.eqb "phase" "geocent_time") with false. cbn [andb]. rewrite <- copy_get. exact Ep. }
  assert (OW : forall k, k <> "geocent_time" -> k <> "phase" -> dget own2 k = option_map delta_of (dget user k)).
  { intros k N1 N2. rewrite G2, (eqb_sym_false _ _ N2), andb_false_r, G1, (eqb_sym_false _ _ N1), andb_false_r. reflexivity. }
  assert (IC : forall k, k <> "geocent_time" -> k <> "phase" -> is_cosmo (dget own2 k) = is_cosmo (dget user k)).
  { intros k N1 N2. rewrite (OW k N1 N2). destruct (dget user k) as [[]|]; reflexivity. }
  assert (KT : o_time o && geo o = true -> dget own2 "geocent_time" = kept_prior e user "geocent_time" /\ kept_prior e user "geocent_time" <> None).
  { intros T. rewrite G2, andb_comm. change (String.eqb "geocent_time" "phase") with false. cbn [andb]. rewrite G1, T. cbn [andb]. change (String.eqb "geocent_time" "geocent_time") with true. cbv iota.
    split; [reflexivity|]. unfold kept_prior. destruct (dget user "geocent_time"); discriminate. }
  assert (KP : o_phase o = true -> dget own2 "phase" = kept_prior e user "phase" /\ kept_prior e user "phase" <> None).
  { intros T. rewrite G2, T. cbn [andb]. change (String.eqb "phase" "phase") with true. cbv iota. rewrite G1, andb_comm.
    change (String.eqb "phase" "geocent_time") with false. cbn [andb]. unfold kept_prior. destruct (dget user "phase"); split; (reflexivity || discriminate). }
  assert (KO : forall k, ~ In k (marg_list o) -> k <> "luminosity_distance" -> dget own2 k = option_map delta_of (dget user k)).
  { intros k Nk Nl. rewrite G2. destruct (o_phase o && String.eqb k "phase") eqn:Q1.
    { apply andb_true_iff in Q1. destruct Q1 as [Q1 Q2]. apply String.eqb_eq in Q2. exfalso. apply Nk, in_marg. auto. }
    rewrite G1. destruct (o_time o && geo o && String.eqb k "geocent_time") eqn:Q2; [|reflexivity].
    apply andb_true_iff in Q2. destruct Q2 as [Q2 Q3]. apply String.eqb_eq in Q3. exfalso. apply Nk, in_marg. auto. }
  destruct (o_dist o) eqn:D.
  - assert (UD : forall x k, dget (dset (ddel (ddel u2 "redshift") "comoving_distance") "luminosity_distance" (PNum x)) k = callers e o user (Some x) k).
    { intros x k. unfold callers. rewrite D. cbn [andb option_map].
      destruct (String.eqb_spec k "luminosity_distance") as [->|N1].
      { rewrite dget_set_eq. rewrite !andb_false_r. reflexivity. }
      rewrite dget_set_ne by exact N1. destruct (String.eqb_spec k "comoving_distance") as [->|N2].
      { rewrite dget_del_eq by (apply wf_del, WU2). rewrite !andb_false_r, orb_true_r. reflexivity. }
      rewrite dget_del_ne by exact N2. destruct (String.eqb_spec k "redshift") as [->|N3].
      { rewrite dget_del_eq by exact WU2. rewrite !andb_false_r. reflexivity. }
      rewrite dget_del_ne by exact N3. cbn [orb]. rewrite V2, V1.
      destruct (String.eqb_spec k "phase") as [->|N4]; [|rewrite andb_false_r; reflexivity].
      change (String.eqb "phase" "geocent_time") with false. change (String.eqb "phase" "time_jitter") with false. rewrite !andb_false_r, !andb_true_r. reflexivity. }
    assert (WD : forall x, wf (dset (ddel (ddel u2 "redshift") "comoving_distance") "luminosity_distance" (PNum x))) by (intros x; apply wf_set, wf_del, wf_del, WU2).
    destruct (dist_spec e o own2 u2 W2 WU2 D) as [(p & Ep & E3)|(En & [(C & E3)|[(Cr & Cc & E3)|(C & p & own3 & Cp & E3 & G3)]])]; rewrite E3.
    + assert (Eu : option_map delta_of (dget user "luminosity_distance") = Some p) by (rewrite <- Ep; symmetry; apply OW; discriminate).
      destruct (is_fixed p) eqn:Fp.
      * left. exists "luminosity_distance", u2. split; [apply in_marg; auto|]. split; [|reflexivity].
        apply fixed_copy. exists p. rewrite copy_get. auto.
      * right. split.
        { intros k Hk. apply in_marg in Hk. destruct Hk as [[H ->]|[[H ->]|[H ->]]]; [apply TO, H|apply PF, H|].
          intros G. apply fixed_copy in G. destruct G as (p' & E' & F'). rewrite copy_get in E'. congruence. }
        right. right. split. { intros _ Q. rewrite Q in Eu. discriminate. }
        do 2 eexists. split; [reflexivity|]. split; [apply WD|]. split; [intros k; apply UD|]. split; [reflexivity|]. split; [reflexivity|]. split; [reflexivity|].
        exists own2. split; [reflexivity|]. split; [|split].
        -- intros k Hk. apply in_marg in Hk. destruct Hk as [[H ->]|[[H ->]|[H ->]]].
           ++ destruct (KT H) as [Q1 Q2]. rewrite Q1. auto.
           ++ destruct (KP H) as [Q1 Q2]. rewrite Q1. auto.
           ++ rewrite Ep. split; [|discriminate]. unfold kept_prior. destruct (dget user "luminosity_distance"); [symmetry; exact Eu|discriminate].
        -- intros k Nk _. apply KO; [exact Nk|]. intros ->. apply Nk, in_marg. auto.
        -- cbn [l_ref]. rewrite D, Ep. reflexivity.
    + assert (Eu : dget user "luminosity_distance" = None). { rewrite OW in En by discriminate. destruct (dget user "luminosity_distance"); [discriminate|reflexivity]. }
      right. split. { intros k Hk. apply in_marg in Hk. destruct Hk as [[H ->]|[[H ->]|[H ->]]]; [apply TO, H|apply PF, H|rewrite Eu; intros []]. }
      left. rewrite !IC in C by discriminate. repeat split; auto. exists u2. reflexivity.
    + assert (Eu : dget user "luminosity_distance" = None). { rewrite OW in En by discriminate. destruct (dget user "luminosity_distance"); [discriminate|reflexivity]. }
      right. split. { intros k Hk. apply in_marg in Hk. destruct Hk as [[H ->]|[[H ->]|[H ->]]]; [apply TO, H|apply PF, H|rewrite Eu; intros []]. }
      right. left. rewrite OW in Cr, Cc by discriminate. split; [reflexivity|]. split; [exact Eu|].
      split; [destruct (dget user "redshift"); [discriminate|reflexivity]|]. split; [destruct (dget user "comoving_distance"); [discriminate|reflexivity]|]. exists u2. reflexivity.
    + assert (Eu : dget user "luminosity_distance" = None). { rewrite OW in En by discriminate. destruct (dget user "luminosity_distance"); [discriminate|reflexivity]. }
      right. split. { intros k Hk. apply in_marg in Hk. destruct Hk as [[H ->]|[[H ->]|[H ->]]]; [apply TO, H|apply PF, H|rewrite Eu; intros []]. }
      rewrite !IC in C by discriminate. rewrite !OW in Cp by discriminate.
      right. right. split.
      { intros _ _. split; [exact C|]. destruct Cp as [Q|[_ Q]]; [right|left]; intros Z; rewrite Z in Q; discriminate. }
      do 2 eexists. split; [reflexivity|]. split; [apply WD|]. split; [intros k; apply UD|]. split; [reflexivity|]. split; [reflexivity|]. split; [reflexivity|].
      exists own3. split; [reflexivity|]. split; [|split].
      * intros k Hk. apply in_marg in Hk. rewrite G3. destruct Hk as [[H ->]|[[H ->]|[H ->]]].
        -- change (String.eqb "geocent_time" "luminosity_distance") with false. change (String.eqb "geocent_time" "redshift") with false. change (String.eqb "geocent_time" "comoving_distance") with false. cbn [orb]. cbv iota.
           destruct (KT H) as [Q1 Q2]. rewrite Q1. auto.
        -- change (String.eqb "phase" "luminosity_distance") with false. change (String.eqb "phase" "redshift") with false. change (String.eqb "phase" "comoving_distance") with false. cbn [orb]. cbv iota.
           destruct (KP H) as [Q1 Q2]. rewrite Q1. auto.
        -- change (String.eqb "luminosity_distance" "luminosity_distance") with true. cbv iota. split; [|discriminate].
           unfold kept_prior. rewrite Eu. change (String.eqb "luminosity_distance" "geocent_time") with false. change (String.eqb "luminosity_distance" "phase") with false. cbv iota.
           apply andb_true_iff in C. destruct C as [C1 C2].
           destruct (dget user "comoving_distance") as [q|].
           ++ destruct Cp as [Q|[Q _]]; [|discriminate]. destruct q; try discriminate C2. injection Q as <-. reflexivity.
           ++ destruct Cp as [Q|[_ Q]]; [discriminate|]. destruct (dget user "redshift") as [q|]; [|discriminate]. destruct q; try discriminate C1. injection Q as <-. reflexivity.
      * intros k Nk Nr. rewrite G3. destruct (String.eqb_spec k "luminosity_distance") as [->|N1]; [exfalso; apply Nk, in_marg; auto|].
        destruct (String.eqb_spec k "redshift") as [->|N2]; [exfalso; apply Nr; auto|].
        destruct (String.eqb_spec k "comoving_distance") as [->|N3]; [exfalso; apply Nr; auto|]. apply KO; assumption.
      * cbn [l_ref]. rewrite D, G3. reflexivity.
  - unfold dist_step. rewrite D. right. split.
    { intros k Hk. apply in_marg in Hk. rewrite D in Hk. destruct Hk as [[H ->]|[[H ->]|[H ->]]]; [apply TO, H|apply PF, H|discriminate]. }
    right. right. split; [discriminate|]. do 2 eexists. split; [reflexivity|]. split; [exact WU2|]. split.
    { intros k. cbn [l_ref]. unfold callers. rewrite D. cbn [andb]. rewrite V2, V1.
      destruct (String.eqb_spec k "phase") as [->|N4]; [|rewrite andb_false_r; reflexivity].
      change (String.eqb "phase" "geocent_time") with false. change (String.eqb "phase" "time_jitter") with false. rewrite !andb_false_r, !andb_true_r. reflexivity. }
    split; [reflexivity|]. split; [reflexivity|]. split; [reflexivity|]. exists own2. split; [reflexivity|]. split; [|split].
    + intros k Hk. apply in_marg in Hk. rewrite D in Hk. destruct Hk as [[H ->]|[[H ->]|[H ->]]]; [destruct (KT H) as [Q1 Q2]|destruct (KP H) as [Q1 Q2]|discriminate]; rewrite Q1; auto.
    + intros k Nk _. destruct (String.eqb_spec k "luminosity_distance") as [->|N1]; [apply OW; discriminate|apply KO; assumption].
    + cbn [l_ref]. rewrite D. reflexivity.
Qed.

(** A successful constructor keeps the caller's priors (or the defaults) in the likelihood and leaves in the
    caller's dictionary a number for every marginalised parameter, the jitter prior, and everything else. *)
Theorem C169_success e o user L u : wf user -> construct e o (Some user) = (Done L, u) ->
  exists u', u = Some u' /\ described e o user L u'.
Proof.
  intros W E. destruct (construct_cases e o user W) as [(k & v & _ & _ & Q)|(_ & [(_ & _ & _ & v & Q)|[(_ & _ & _ & _ & v & Q)|(_ & L' & v & Q & R)]])].
  1-3: rewrite Q in E; discriminate.
  rewrite Q in E. injection E as <- <-. exists v. auto.
Qed.

(** It raises ValueError exactly when a parameter to be marginalised over is given as a number or a delta
    function. *)
Theorem C169_fixed_raises e o user : wf user ->
  (fst (construct e o (Some user)) = ValueError <-> exists k, In k (marg_list o) /\ fixed (dget user k)).
Proof.
  intros W. destruct (construct_cases e o user W) as [(k & v & Hk & F & Q)|(N & H)].
  - rewrite Q. split; [intros _; eauto|reflexivity].
  - split; [|intros (k & Hk & F); exfalso; exact (N k Hk F)].
    destruct H as [(_ & _ & _ & v & Q)|[(_ & _ & _ & _ & v & Q)|(_ & L' & v & Q & R)]]; rewrite Q; discriminate.
Qed.

(** Distance marginalisation without a prior of the luminosity distance: the prior is derived from a
    cosmological redshift or comoving-distance prior, anything else is a TypeError; with no distance prior
    at all the announced default is not set and a KeyError follows. *)
Theorem C169_distance e o user : wf user -> o_dist o = true -> dget user "luminosity_distance" = None ->
  (forall k, In k (marg_list o) -> ~ fixed (dget user k)) ->
  (dget user "redshift" = None -> dget user "comoving_distance" = None -> fst (construct e o (Some user)) = KeyError) /\
  (is_cosmo (dget user "redshift") && is_cosmo (dget user "comoving_distance") = false -> fst (construct e o (Some user)) = TypeError) /\
  (forall i j, dget user "redshift" = Some (PCosmo i) -> dget user "comoving_distance" = None \/ dget user "comoving_distance" = Some (PCosmo j) ->
    exists L u own, construct e o (Some user) = (Done L, Some u) /\ l_priors L = Some own /\
      dget own "luminosity_distance" = Some (lum_of e (match dget user "comoving_distance" with None => PCosmo i | _ => PCosmo j end)) /\
      dget u "redshift" = None /\ dget u "comoving_distance" = None).
Proof.
  intros W D Eu N.
  destruct (construct_cases e o user W) as [(k & v & Hk & F & _)|(_ & H)]; [exfalso; exact (N k Hk F)|].
  split; [|split].
  - intros Er Ec. destruct H as [(_ & _ & C & v & Q)|[(_ & _ & _ & _ & v & Q)|(C & L' & v & Q & R)]]; rewrite Q.
    + rewrite Er, Ec in C. discriminate.
    + reflexivity.
    + destruct (C D Eu) as [_ [G|G]]; congruence.
  - intros C. destruct H as [(_ & _ & _ & v & Q)|[(_ & _ & Er & Ec & v & Q)|(C' & L' & v & Q & R)]]; rewrite Q.
    + reflexivity.
    + rewrite Er, Ec in C. discriminate.
    + destruct (C' D Eu) as [G _]. congruence.
  - intros i j Er Ec. destruct H as [(_ & _ & C & v & Q)|[(_ & _ & Er' & _)|(_ & L' & v & Q & R)]].
    + rewrite Er in C. destruct Ec as [Ec|Ec]; rewrite Ec in C; discriminate.
    + congruence.
    + destruct R as (_ & V & _ & _ & _ & own & Eo & K & _). exists L', v, own. split; [exact Q|]. split; [exact Eo|].
      assert (Hm : In "luminosity_distance" (marg_list o)) by (apply in_marg; auto). split.
      * rewrite (proj1 (K _ Hm)). unfold kept_prior. rewrite Eu. change (String.eqb "luminosity_distance" "geocent_time") with false. change (String.eqb "luminosity_distance" "phase") with false. cbv iota.
        destruct Ec as [Ec|Ec]; rewrite Ec; [rewrite Er|]; reflexivity.
      * split; rewrite V; unfold callers; rewrite D; cbn -[andb]; rewrite ?andb_false_r; reflexivity.
Qed.

(** The same dictionary cannot be used for a second likelihood that marginalises over one of the same
    parameters. *)
Theorem C169_twice e o e2 o2 user L u k : wf user -> construct e o (Some user) = (Done L, Some u) ->
  In k (marg_list o) -> In k (marg_list o2) -> fst (construct e2 o2 (Some u)) = ValueError.
Proof.
  intros W E H1 H2. destruct (C169_success e o user L _ W E) as (u' & Eu & (Wu & V & _ & _ & _ & own & _ & K & _ & RF)). injection Eu as <-.
  apply C169_fixed_raises; [exact Wu|]. exists k. split; [exact H2|]. rewrite V. unfold callers. pose proof (K k H1) as [_ NN].
  apply in_marg in H1. destruct H1 as [[H ->]|[[H ->]|[H ->]]]; rewrite H.
  - cbn [andb]. change (String.eqb "geocent_time" "geocent_time") with true. exact I.
  - change (String.eqb "phase" "geocent_time") with false. change (String.eqb "phase" "time_jitter") with false. rewrite !andb_false_r. change (String.eqb "phase" "phase") with true. exact I.
  - change (String.eqb "luminosity_distance" "geocent_time") with false. change (String.eqb "luminosity_distance" "time_jitter") with false. change (String.eqb "luminosity_distance" "phase") with false. rewrite !andb_false_r. change (String.eqb "luminosity_distance" "luminosity_distance") with true.
    cbn [andb]. cbv iota. rewrite RF, H. destruct (dget own "luminosity_distance"); [exact I|congruence].
Qed.

(** With a detector as time reference the time is not marginalised over, whatever is asked for. *)
Theorem C169_reference e o user L u : wf user -> geo o = false -> construct e o (Some user) = (Done L, Some u) ->
  l_time L = false /\ l_jitter L = false /\ ~ In "geocent_time" (l_marg L) /\ dget u "geocent_time" = dget user "geocent_time" /\
  dget u "time_jitter" = dget user "time_jitter".
Proof.
  intros W G E. destruct (C169_success e o user L _ W E) as (u' & Eu & (_ & V & M & T & J & _)). injection Eu as <-.
  rewrite T, J, M, !V, G, andb_false_r. split; [reflexivity|]. split; [reflexivity|]. split.
  - rewrite in_marg, G, andb_false_r. intros [[Q _]|[[_ Q]|[_ Q]]]; discriminate.
  - unfold callers. rewrite G, !andb_false_r. destruct (o_phase o), (o_dist o); split; reflexivity.
Qed.

(** Without priors nothing can be marginalised over. *)
Theorem C169_no_priors e o : (o_time o = false /\ o_phase o = false /\ o_dist o = false <-> exists L, construct e o None = (Done L, None)) /\
  (construct e o None = (ValueError, None) \/ exists L, construct e o None = (Done L, None)).
Proof.
  unfold construct. destruct (o_time o), (o_phase o), (o_dist o); cbn [orb]; (split; [split|]); 
    try (intros (? & ? & ?); congruence); try (intros (L & Q); discriminate Q); eauto.
Qed.

(** A constructor that raises has already overwritten the caller's priors: with a fixed phase the time
    prior is gone, and correcting the phase does not help. *)
Theorem C169_failure_refuted : forall e,
  let o := mkOpts true true false true true in
  let user := [("geocent_time", POther 1); ("phase", PDelta 0)] in
  exists u, construct e o (Some user) = (ValueError, Some u) /\ dget u "geocent_time" = Some (PNum (start_time e)) /\
    fst (construct e o (Some (dset u "phase" (POther 2)))) = ValueError.
Proof. intros e. cbv zeta. eexists. split; [reflexivity|]. split; reflexivity. Qed.

(** Time (with jitter), phase and distance, the distance through a cosmological redshift prior. *)
Theorem C169_example : forall e, median e (lum_of e (PCosmo 7)) = 1000%R ->
  let user := [("geocent_time", POther 1); ("redshift", PCosmo 7); ("mass", POther 3); ("tilt", PNum 2)] in
  construct e (mkOpts true true true true true) (Some user) =
    (Done (mkLik (Some [("geocent_time", POther 1); ("mass", POther 3); ("tilt", PDelta 2); ("phase", default_phase e); ("luminosity_distance", lum_of e (PCosmo 7))])
        ["geocent_time"; "phase"; "luminosity_distance"]%list true true (Some 1000%R)),
     Some [("geocent_time", PNum (start_time e)); ("mass", POther 3); ("tilt", PNum 2); ("time_jitter", jitter_prior e); ("phase", PNum 0); ("luminosity_distance", PNum 1000%R)]).
Proof. intros e H. cbv - [median lum_of start_time default_phase jitter_prior IZR] in *. rewrite H. reflexivity. Qed.

(** *** C170: sky frame and reference time *)

Lemma time_suffix n m : n ++ "_time" = m -> n = substring 0 (String.length m - 5) m.
Proof.
  intros <-. assert (L : String.length (n ++ "_time") - 5 = String.length n).
  { induction n as [|a n IH]; [reflexivity|]. cbn [append String.length]. 
    assert (Q : 5 <= String.length (n ++ "_time")) by (clear; induction n; cbn [append String.length]; [cbn; lia|lia]). lia. }
  rewrite L. clear L. induction n as [|a n IH]; [reflexivity|]. cbn [append String.length substring]. f_equal. exact IH.
Qed.

Lemma time_key_ne n m : n <> "geocent" -> In m ["geocent_time"; "zenith"; "azimuth"; "ra"; "dec"; "time_jitter"]%list ->
  String.eqb (n ++ "_time") m = false.
Proof.
  intros N Hm. apply String.eqb_neq. intros E. pose proof (time_suffix n m E) as Q.
  cbn [In] in Hm. destruct Hm as [H|[H|[H|[H|[H|[H|[]]]]]]]; subst m; cbn in Q; subst n; try discriminate E. apply N. reflexivity.
Qed.

Section Sky_props.
Open Scope R_scope.
Variable to_sky : R -> R -> R -> R * R.
Variable delay : R -> R -> R -> R.

Notation sky := (get_sky to_sky delay).

(** Sky frame and geocentric time: the given values. *)
Theorem C170_given p ra dec t : dget p "ra" = Some ra -> dget p "dec" = Some dec -> dget p "geocent_time" = Some t ->
  sky None true p = Done (ra, dec, t).
Proof using Type. intros H1 H2 H3. unfold get_sky, time_key. rewrite H1, H2, H3. reflexivity. Qed.

(** A detector's time: the delay between it and the geocentre is taken at the detector time.  For a
    delay bounded by D that changes by at most K per second, the geocentric time found is within K D of the
    one that gives that detector time. *)
Theorem C170_detector_time n p ra dec tg K D : dget p "ra" = Some ra -> dget p "dec" = Some dec ->
  (forall t, Rabs (delay ra dec t) <= D) -> (forall t u, Rabs (delay ra dec t - delay ra dec u) <= K * Rabs (t - u)) -> 0 <= K ->
  dget p (n ++ "_time") = Some (tg + delay ra dec tg) ->
  exists t, sky (Some n) true p = Done (ra, dec, t) /\ Rabs (t - tg) <= K * D.
Proof using Type.
  intros H1 H2 HD HK K0 H3. unfold get_sky, time_key. rewrite H1, H2, H3. eexists. split; [reflexivity|].
  set (u := tg + delay ra dec tg). replace (u - delay ra dec u - tg) with (delay ra dec tg - delay ra dec u) by (unfold u; ring).
  eapply Rle_trans; [apply HK|]. apply Rmult_le_compat_l; [exact K0|]. replace (tg - u) with (- delay ra dec tg) by (unfold u; ring).
  rewrite Rabs_Ropp. apply HD.
Qed.

(** Which combinations of parameters are accepted in a detector frame. *)
Theorem C170_detector_frame ref p :
  let has k := exists v, dget p k = Some v in
  (exists s, sky ref false p = Done s) <->
  (has "zenith" /\ has "azimuth" /\ has (time_key ref) \/
   ~ (has "zenith" /\ has "azimuth") /\ has "ra" /\ has "dec" /\ (has (time_key ref) \/ has "geocent_time")).
Proof using Type.
  cbv zeta. unfold get_sky. assert (T : ref = None -> time_key ref = "geocent_time") by (intros ->; reflexivity).
  destruct (dget p "zenith") as [z|], (dget p "azimuth") as [a|], (dget p (time_key ref)) as [t|] eqn:Et, (dget p "ra") as [ra|], (dget p "dec") as [de|], (dget p "geocent_time") as [g|] eqn:Eg, ref as [n|];
    try (rewrite (T eq_refl) in Et; congruence);
    try (destruct (to_sky z a t) as [x y]); (split; [intros (s & E); try discriminate E|intros H; try (eexists; reflexivity); exfalso]);
    try (left; repeat split; eexists; reflexivity);
    try (right; split; [intros ((v & E1) & (w & E2)); discriminate|]; repeat split; eauto; fail);
    destruct H as [((v & E1) & (w & E2) & (x0 & E3))|(N & (v & E1) & (w & E2) & [(x0 & E3)|(x0 & E3)])]; try discriminate;
    try (apply N; split; eexists; reflexivity).
Qed.

(** The announced fall-back to the geocentric time is not made in a detector frame. *)
Theorem C170_fallback_refuted n z a g p : n <> "geocent" ->
  p = [("zenith", z); ("azimuth", a); ("geocent_time", g)] -> sky (Some n) false p = TypeError.
Proof using Type.
  intros N ->. unfold get_sky, time_key. cbn [dget]. change (String.eqb "zenith" "zenith") with true. change (String.eqb "azimuth" "zenith") with false. change (String.eqb "azimuth" "azimuth") with true. cbv iota.
  rewrite !time_key_ne by (exact N || (cbn [In]; auto 10)). reflexivity.
Qed.

(** *** Evaluating again *)

Variable ref : option string.
Variable frame_sky : bool.
Hypothesis Href : ref <> Some "geocent".

(** keys that decide what is consulted *)
Definition consults_radec (has : string -> bool) : bool := frame_sky || negb (has "zenith" && has "azimuth").
Definition consults_geocent (has : string -> bool) : bool := match ref with None => true | Some _ => negb (has (time_key ref)) end.

Lemma time_key_ne2 m n : ref = Some n -> In m ["geocent_time"; "zenith"; "azimuth"; "ra"; "dec"; "time_jitter"]%list -> time_key ref <> m.
Proof using Href. intros E H. unfold time_key. rewrite E. apply String.eqb_neq, time_key_ne; [congruence|exact H]. Qed.

(** two dictionaries that agree on what is consulted have the same sky-frame parameters *)
Definition agree (has : string -> bool) (p q : dict R) : Prop :=
  (forall k, k <> "ra" -> k <> "dec" -> k <> "geocent_time" -> dget p k = dget q k) /\
  (consults_radec has = true -> dget p "ra" = dget q "ra" /\ dget p "dec" = dget q "dec") /\
  (consults_geocent has = true -> dget p "geocent_time" = dget q "geocent_time").

Lemma agree_sky has p q : (forall k, k <> "ra" -> k <> "dec" -> k <> "geocent_time" -> has k = dmem p k) -> agree has p q ->
  sky ref frame_sky p = sky ref frame_sky q.
Proof using Href.
  intros Hh (A1 & A2 & A3).
  assert (Z : dget p "zenith" = dget q "zenith") by (apply A1; discriminate).
  assert (Az : dget p "azimuth" = dget q "azimuth") by (apply A1; discriminate).
  assert (TK : dget p (time_key ref) = dget q (time_key ref)).
  { destruct ref as [n|] eqn:Er.
    - rewrite <- Er in *. apply A1; apply (time_key_ne2 _ n Er); cbn [In]; auto 10.
    - unfold time_key in *. apply A3. unfold consults_geocent. rewrite Er. reflexivity. }
  assert (GG : forall n, ref = Some n -> dget q (time_key ref) = None -> dget p "geocent_time" = dget q "geocent_time").
  { intros n Er Q. apply A3. unfold consults_geocent. rewrite Er, <- Er. rewrite Hh by (apply (time_key_ne2 _ n Er); cbn [In]; auto 10).
    unfold dmem. rewrite TK, Q. reflexivity. }
  assert (G0 : ref = None -> dget p "geocent_time" = dget q "geocent_time") by (intros Er; apply A3; unfold consults_geocent; rewrite Er; reflexivity).
  assert (RD : frame_sky = true \/ ~ (exists z a, dget q "zenith" = Some z /\ dget q "azimuth" = Some a) -> dget p "ra" = dget q "ra" /\ dget p "dec" = dget q "dec").
  { intros H. apply A2. unfold consults_radec. rewrite !Hh by discriminate. unfold dmem. rewrite Z, Az. destruct H as [-> |H]; [reflexivity|].
    destruct (dget q "zenith"), (dget q "azimuth"); try apply orb_true_r. exfalso. apply H. eauto. }
  unfold get_sky. rewrite Z, Az, TK.
  assert (LST : forall r : R * R, match ref, dget q (time_key ref) with
      | Some _, Some t => Done (fst r, snd r, t - delay (fst r) (snd r) t)
      | _, _ => match dget p "geocent_time" with Some t => Done (fst r, snd r, t) | None => KeyError end end =
    match ref, dget q (time_key ref) with
      | Some _, Some t => Done (fst r, snd r, t - delay (fst r) (snd r) t)
      | _, _ => match dget q "geocent_time" with Some t => Done (fst r, snd r, t) | None => KeyError end end).
  { intros r. destruct ref as [n|] eqn:Er.
    - destruct (dget q (time_key (Some n))) eqn:Q; [reflexivity|]. rewrite (GG n eq_refl eq_refl). reflexivity.
    - rewrite (G0 eq_refl). reflexivity. }
  destruct frame_sky.
  - destruct (RD (or_introl eq_refl)) as [Q1 Q2]. rewrite Q1, Q2. destruct (dget q "ra") as [x|], (dget q "dec") as [y|]; try reflexivity. exact (LST (x, y)).
  - destruct (dget q "zenith") as [z|] eqn:Ez, (dget q "azimuth") as [a|] eqn:Ea.
    + destruct (dget q (time_key ref)) as [t|] eqn:Et; [|reflexivity]. pose proof (LST (to_sky z a t)) as Q. destruct (to_sky z a t) as [x y]. exact Q.
    + destruct RD as [Q1 Q2]; [right; intros (? & ? & ? & ?); congruence|]. rewrite Q1, Q2. destruct (dget q "ra") as [x|], (dget q "dec") as [y|]; try reflexivity. exact (LST (x, y)).
    + destruct RD as [Q1 Q2]; [right; intros (? & ? & ? & ?); congruence|]. rewrite Q1, Q2. destruct (dget q "ra") as [x|], (dget q "dec") as [y|]; try reflexivity. exact (LST (x, y)).
    + destruct RD as [Q1 Q2]; [right; intros (? & ? & ? & ?); congruence|]. rewrite Q1, Q2. destruct (dget q "ra") as [x|], (dget q "dec") as [y|]; try reflexivity. exact (LST (x, y)).
Qed.

(** what is consulted is also what comes out *)
Lemma sky_consulted has p s : (forall k, k <> "ra" -> k <> "dec" -> k <> "geocent_time" -> has k = dmem p k) -> sky ref frame_sky p = Done s ->
  (consults_radec has = true -> dget p "ra" = Some (fst (fst s)) /\ dget p "dec" = Some (snd (fst s))) /\
  (consults_geocent has = true -> dget p "geocent_time" = Some (snd s)).
Proof using Href.
  intros Hh E. unfold get_sky in E. split.
  - intros C. unfold consults_radec in C. rewrite !Hh in C by discriminate. unfold dmem in C.
    assert (Q : match dget p "ra", dget p "dec" with Some a, Some b => s = (a, b, snd s) | _, _ => False end).
    { destruct frame_sky.
      - destruct (dget p "ra") as [x|], (dget p "dec") as [y|]; try discriminate E.
        destruct (dget p (time_key ref)), ref, (dget p "geocent_time"); try discriminate E; injection E as <-; reflexivity.
      - destruct (dget p "zenith"), (dget p "azimuth"); try discriminate C;
        (destruct (dget p "ra") as [x|], (dget p "dec") as [y|]; try discriminate E;
         destruct (dget p (time_key ref)), ref, (dget p "geocent_time"); try discriminate E; injection E as <-; reflexivity). }
    destruct (dget p "ra"), (dget p "dec"); try contradiction. rewrite Q. split; reflexivity.
  - intros C. unfold consults_geocent in C.
    set (rd := if frame_sky then _ else _) in E. destruct rd as [[x y]| | | | |]; try discriminate E.
    destruct ref as [n|] eqn:Er.
    + rewrite <- Er in *. rewrite Hh in C by (apply (time_key_ne2 _ n Er); cbn [In]; auto 10). unfold dmem in C.
      destruct (dget p (time_key ref)); [discriminate|]. destruct (dget p "geocent_time"); [|discriminate]. injection E as <-. reflexivity.
    + destruct (dget p "geocent_time"); [|discriminate]. injection E as <-. reflexivity.
Qed.

Lemma store_get p s k : dget (store p s) k = if String.eqb k "ra" then Some (fst (fst s)) else if String.eqb k "dec" then Some (snd (fst s))
  else if String.eqb k "geocent_time" then Some (snd s) else dget p k.
Proof using Type.
  clear to_sky delay. unfold store. rewrite update_get; [cbn [dget]; destruct (String.eqb k "ra"), (String.eqb k "dec"), (String.eqb k "geocent_time"); reflexivity|].
  unfold wf. cbn. repeat constructor; cbn; intuition discriminate.
Qed.

(** Asking again after the result has been stored gives the same. *)
Theorem C170_again p s : sky ref frame_sky p = Done s -> sky ref frame_sky (store p s) = Done s.
Proof using Href.
  intros E. rewrite <- E. symmetry. apply (agree_sky (fun k => dmem p k)); [reflexivity|].
  destruct (sky_consulted (fun k => dmem p k) p s ltac:(reflexivity) E) as [C1 C2]. split; [|split].
  - intros k N1 N2 N3. rewrite store_get, (eqb_sym_false _ _ N1), (eqb_sym_false _ _ N2), (eqb_sym_false _ _ N3). reflexivity.
  - intros C. destruct (C1 C) as [Q1 Q2]. rewrite !store_get, Q1, Q2. split; reflexivity.
  - intros C. rewrite store_get, (C2 C). reflexivity.
Qed.

(** An evaluation with jitter leaves the geocentric time as it was. *)
Theorem C170_jitter {X} (ll : dict R -> X) p x p' : ref = None -> evaluation to_sky delay ref frame_sky true ll p = (Done x, p') ->
  dget p' "geocent_time" = dget p "geocent_time" /\
  exists t j, dget p "geocent_time" = Some t /\ dget p "time_jitter" = Some j /\
    exists s, sky ref frame_sky (dset p "geocent_time" (t + j)) = Done s /\ snd s = t + j.
Proof using Href.
  intros Er E. unfold evaluation in E. destruct (dget p "geocent_time") as [t|] eqn:Et; [|discriminate].
  destruct (dget p "time_jitter") as [j|] eqn:Ej; [|discriminate].
  destruct (sky ref frame_sky (dset p "geocent_time" (t + j))) as [s| | | | |] eqn:Es; try discriminate.
  destruct (sky_consulted (fun k => dmem (dset p "geocent_time" (t + j)) k) _ s ltac:(reflexivity) Es) as [_ C].
  assert (Q : consults_geocent (fun k => dmem (dset p "geocent_time" (t + j)) k) = true) by (unfold consults_geocent; rewrite Er; reflexivity).
  specialize (C Q). rewrite dget_set_eq in C. injection C as C.
  assert (Q1 : dget (store (dset p "geocent_time" (t + j)) s) "geocent_time" = Some (t + j)) by (rewrite store_get, <- C; reflexivity).
  assert (Q2 : dget (store (dset p "geocent_time" (t + j)) s) "time_jitter" = Some j).
  { rewrite store_get. cbn [String.eqb]. change (String.eqb "time_jitter" "ra") with false. change (String.eqb "time_jitter" "dec") with false. change (String.eqb "time_jitter" "geocent_time") with false. cbv iota.
    rewrite dget_set_ne by discriminate. exact Ej. }
  rewrite Q1, Q2 in E. assert (Ep : dset (store (dset p "geocent_time" (t + j)) s) "geocent_time" (t + j - j) = p') by congruence.
  split.
  - rewrite <- Ep, dget_set_eq. f_equal. ring.
  - exists t, j. split; [reflexivity|]. split; [reflexivity|]. exists s. split; [exact Es|symmetry; exact C].
Qed.

(** Rows evaluated one after the other give what each gives alone, although every evaluation leaves its sky
    position and time behind, provided they have the same keys. *)
Theorem C170_rows {X} (ll : dict R -> X) jit keys p l : (jit = true -> ref = None) ->
  (forall a b, (forall k, dget a k = dget b k) -> ll a = ll b) ->
  Forall (fun r => wf r /\ (forall k, In k (dkeys r) <-> In k keys) /\
    exists x, fst (evaluation to_sky delay ref frame_sky jit ll (update p r)) = Done x) l ->
  evaluate (evaluation to_sky delay ref frame_sky jit ll) p l = map (fun r => fst (evaluation to_sky delay ref frame_sky jit ll (update p r))) l.
Proof using Href.
  intros Hj Hx HF.
  set (has := fun k => existsb (String.eqb k) keys || dmem p k).
  assert (HE : forall k, existsb (String.eqb k) keys = true <-> In k keys).
  { intros k. rewrite existsb_exists. split; [intros (y & Hy & E); apply String.eqb_eq in E; subst; exact Hy|intros H; exists k; split; [exact H|apply String.eqb_refl]]. }
  (* states reached from p *)
  set (rel := fun q : dict R => forall k, ~ In k keys -> 
    (k <> "ra" -> k <> "dec" -> k <> "geocent_time" -> dget q k = dget p k) /\
    (consults_radec has = true -> k = "ra" \/ k = "dec" -> dget q k = dget p k) /\
    (consults_geocent has = true -> k = "geocent_time" -> dget q k = dget p k)).
  assert (G : forall q, rel q -> evaluate (evaluation to_sky delay ref frame_sky jit ll) q l = map (fun r => fst (evaluation to_sky delay ref frame_sky jit ll (update p r))) l);
    [|apply G; intros k _; auto].
  induction HF as [|r t (W & HK & x & Hok) HF IH]; intros q Hq; [reflexivity|]. cbn [evaluate map].
  assert (Hh : forall q0, rel q0 -> forall k, k <> "ra" -> k <> "dec" -> k <> "geocent_time" -> has k = dmem (update q0 r) k).
  { intros q0 R0 k N1 N2 N3. unfold has, dmem. rewrite update_get by exact W. destruct (dget r k) eqn:Ek.
    - replace (existsb (String.eqb k) keys) with true; [reflexivity|]. symmetry. apply HE, HK. apply dget_some_in in Ek. apply (in_map fst) in Ek. exact Ek.
    - assert (Nk : ~ In k keys) by (rewrite <- HK; apply dget_none, Ek). replace (existsb (String.eqb k) keys) with false.
      + cbn [orb]. destruct (R0 k Nk) as (Q & _). rewrite (Q N1 N2 N3). reflexivity.
      + symmetry. apply not_true_iff_false. rewrite HE. exact Nk. }
  assert (Rp : rel p) by (intros k _; auto).
  assert (AG : agree has (update p r) (update q r)).
  { assert (B : forall k, (~ In k keys -> dget q k = dget p k) -> dget (update p r) k = dget (update q r) k).
    { intros k H. rewrite !update_get by exact W. destruct (dget r k) eqn:Ek; [reflexivity|]. symmetry. apply H. rewrite <- HK. apply dget_none, Ek. }
    split; [|split].
    - intros k N1 N2 N3. apply B. intros Nk. apply (proj1 (Hq k Nk)); assumption.
    - intros C. split; apply B; intros Nk; apply (proj1 (proj2 (Hq _ Nk))); auto.
    - intros C. apply B. intros Nk. apply (proj2 (proj2 (Hq _ Nk))); auto. }
  assert (SH : jit = true -> exists t0 j, dget (update p r) "geocent_time" = Some t0 /\ dget (update q r) "geocent_time" = Some t0 /\
      dget (update p r) "time_jitter" = Some j /\ dget (update q r) "time_jitter" = Some j).
  { intros J. destruct AG as (A1 & _ & A3). unfold evaluation in Hok. rewrite J in Hok.
    destruct (dget (update p r) "geocent_time") as [t0|] eqn:E0; [|discriminate]. destruct (dget (update p r) "time_jitter") as [j|] eqn:Ej; [|discriminate].
    exists t0, j. split; [reflexivity|]. split; [rewrite <- A3; [reflexivity|unfold consults_geocent; rewrite (Hj J); reflexivity]|]. split; [reflexivity|].
    rewrite <- A1 by discriminate. exact Ej. }
  (* the shifted dictionaries agree too *)
  set (sh := fun d : dict R => if jit then match dget d "geocent_time", dget d "time_jitter" with Some a, Some b => Done (dset d "geocent_time" (a + b)) | _, _ => KeyError end else Done d : outcome (dict R)).
  assert (EV : forall d, evaluation to_sky delay ref frame_sky jit ll d = match sh d with
     | Done p1 => match sky ref frame_sky p1 with
        | Done s => let p2 := store p1 s in (Done (ll p2), if jit then match dget p2 "geocent_time", dget p2 "time_jitter" with Some a, Some b => dset p2 "geocent_time" (a - b) | _, _ => p2 end else p2)
        | ValueError => (ValueError, p1) | KeyError => (KeyError, p1) | TypeError => (TypeError, p1) | AttributeError => (AttributeError, p1) | Endless => (Endless, p1) end
     | _ => (KeyError, d) end) by reflexivity.
  assert (S2 : exists P Q, sh (update p r) = Done P /\ sh (update q r) = Done Q /\ agree has P Q /\
     (forall k, k <> "ra" -> k <> "dec" -> k <> "geocent_time" -> has k = dmem P k) /\ (forall k, k <> "ra" -> k <> "dec" -> k <> "geocent_time" -> has k = dmem Q k) /\
     (forall k, k <> "geocent_time" -> dget Q k = dget (update q r) k) /\
     (jit = true -> exists t0 j, dget (update q r) "geocent_time" = Some t0 /\ dget Q "geocent_time" = Some (t0 + j) /\ dget (update q r) "time_jitter" = Some j) /\
     (jit = false -> dget Q "geocent_time" = dget (update q r) "geocent_time")).
  { unfold sh. destruct jit eqn:J.
    - destruct (SH eq_refl) as (t0 & j & E1 & E2 & E3 & E4). rewrite E1, E2, E3, E4. do 2 eexists. split; [reflexivity|]. split; [reflexivity|].
      destruct AG as (A1 & A2 & A3). split; [split; [|split]|split; [|split; [|split; [|split]]]].
      + intros k N1 N2 N3. rewrite !dget_set_ne by exact N3. apply A1; assumption.
      + intros C. rewrite !dget_set_ne by discriminate. apply A2, C.
      + intros C. rewrite !dget_set_eq. reflexivity.
      + intros k N1 N2 N3. unfold dmem. rewrite dget_set_ne by exact N3. apply (Hh p Rp k N1 N2 N3).
      + intros k N1 N2 N3. unfold dmem. rewrite dget_set_ne by exact N3. apply (Hh q Hq k N1 N2 N3).
      + intros k N3. apply dget_set_ne, N3.
      + intros _. exists t0, j. split; [reflexivity|]. split; [apply dget_set_eq|reflexivity].
      + discriminate.
    - do 2 eexists. split; [reflexivity|]. split; [reflexivity|]. split; [exact AG|]. split; [apply (Hh p Rp)|]. split; [apply (Hh q Hq)|].
      split; [reflexivity|]. split; [discriminate|reflexivity]. }
  destruct S2 as (P & Q & EP & EQ & AG2 & HP & HQ & KQ & JQ & NJQ).
  pose proof (agree_sky has P Q HP AG2) as ES.
  rewrite !EV in *. rewrite EP in *. rewrite EQ. rewrite <- ES in *.
  destruct (sky ref frame_sky P) as [s| | | | |] eqn:EsP; try discriminate Hok. cbv zeta. cbn [fst].
  assert (EsQ : sky ref frame_sky Q = Done s) by (symmetry; exact ES).
  assert (EL : ll (store Q s) = ll (store P s)).
  { apply Hx. intros k. rewrite !store_get. destruct (String.eqb_spec k "ra"); [reflexivity|]. destruct (String.eqb_spec k "dec"); [reflexivity|].
    destruct (String.eqb_spec k "geocent_time"); [reflexivity|]. symmetry. apply AG2; assumption. }
  rewrite EL. f_equal. apply IH.
  (* the state left behind is again related to p *)
  destruct (sky_consulted has Q s HQ EsQ) as [C1 C2].
  assert (UQ : forall k, ~ In k keys -> dget (update q r) k = dget q k).
  { intros k Nk. rewrite update_get by exact W. replace (dget r k) with (@None R); [reflexivity|]. symmetry. apply dget_none. rewrite HK. exact Nk. }
  intros k Nk.
  assert (OT : k <> "geocent_time" -> dget (if jit then match dget (store Q s) "geocent_time", dget (store Q s) "time_jitter" with Some a, Some b => dset (store Q s) "geocent_time" (a - b) | _, _ => store Q s end else store Q s) k = dget (store Q s) k).
  { intros N3. destruct jit; [|reflexivity]. destruct (dget (store Q s) "geocent_time"), (dget (store Q s) "time_jitter"); try reflexivity. apply dget_set_ne, N3. }
  split; [|split].
  - intros N1 N2 N3. rewrite (OT N3), store_get, (eqb_sym_false _ _ N1), (eqb_sym_false _ _ N2), (eqb_sym_false _ _ N3), (KQ k N3), (UQ k Nk). apply (proj1 (Hq k Nk)); assumption.
  - intros C D. destruct (C1 C) as [D1 D2]. destruct D as [-> | ->].
    + rewrite OT by discriminate. rewrite store_get. cbn [String.eqb]. change (String.eqb "ra" "ra") with true. cbv iota. rewrite <- D1, KQ by discriminate. rewrite (UQ _ Nk). apply (proj1 (proj2 (Hq _ Nk))); auto.
    + rewrite OT by discriminate. rewrite store_get. change (String.eqb "dec" "ra") with false. change (String.eqb "dec" "dec") with true. cbv iota. rewrite <- D2, KQ by discriminate. rewrite (UQ _ Nk). apply (proj1 (proj2 (Hq _ Nk))); auto.
  - intros C ->. specialize (C2 C). assert (SG : dget (store Q s) "geocent_time" = dget Q "geocent_time") by (rewrite store_get, C2; reflexivity).
    assert (Z : dget (update q r) "geocent_time" = dget p "geocent_time") by (rewrite (UQ _ Nk); apply (proj2 (proj2 (Hq _ Nk))); auto).
    destruct jit.
    + destruct (JQ eq_refl) as (t0 & j & F1 & F2 & F3). rewrite SG, F2.
      assert (SJ : dget (store Q s) "time_jitter" = Some j) by (rewrite store_get; change (String.eqb "time_jitter" "ra") with false; change (String.eqb "time_jitter" "dec") with false; change (String.eqb "time_jitter" "geocent_time") with false; cbv iota; rewrite KQ by discriminate; exact F3).
      rewrite SJ, dget_set_eq, <- Z, F1. f_equal. ring.
    + rewrite SG, (NJQ eq_refl). exact Z.
Qed.

End Sky_props.

(** Rows with different keys: a detector time left by an earlier row wins over a geocentric time given
    later. *)
Theorem C170_stale_refuted to_sky : let delay := fun _ _ _ : R => 1%R in
  let r1 := [("ra", 0%R); ("dec", 0%R); ("H1_time", 5%R)] in let r2 := [("geocent_time", 100%R)] in
  evaluate (evaluation to_sky delay (Some "H1") true false (fun p => dget p "geocent_time")) [] [r1; (r1 ++ [])%list; r2]%list =
    [Done (Some (5 - 1)%R); Done (Some (5 - 1)%R); Done (Some (5 - 1)%R)]%list.
Proof. cbv zeta. reflexivity. Qed.

(** An evaluation with jitter that fails on the way leaves the shifted time behind. *)
Theorem C170_jitter_refuted to_sky delay X (ll : dict R -> X) :
  let p := [("geocent_time", 10%R); ("time_jitter", 1%R)] in
  let (x, p') := evaluation to_sky delay None true true ll p in x = KeyError /\ dget p' "geocent_time" = Some (10 + 1)%R.
Proof. cbn. split; reflexivity. Qed.

(** A frame given as text: the first four characters count, two for each detector. *)
Theorem C170_frame_text s : text_of_frame (frame_of_text s) = substring 0 4 s /\
  (String.length s = 4 -> text_of_frame (frame_of_text s) = s) /\
  (forall a b t, String.length a = 2 -> String.length b = 2 -> frame_of_text (a ++ b ++ t) = (a, b)).
Proof.
  assert (A : text_of_frame (frame_of_text s) = substring 0 4 s).
  { unfold text_of_frame, frame_of_text. destruct s as [|a [|b [|c [|d s]]]]; reflexivity. }
  split; [exact A|]. split.
  - intros L. rewrite A. destruct s as [|a [|b [|c [|d [|x s]]]]]; try discriminate L. reflexivity.
  - intros a b t La Lb. unfold frame_of_text. destruct a as [|a1 [|a2 [|a3 a]]]; try discriminate La. destruct b as [|b1 [|b2 [|b3 b]]]; try discriminate Lb.
    cbn. destruct t; reflexivity.
Qed.

(** Detectors with longer names are cut. *)
Theorem C170_frame_text_refuted : frame_of_text "GEO600H1" = ("GE", "O6") /\ frame_of_text "H1L1V1" = ("H1", "L1").
Proof. split; reflexivity. Qed.

(** A delay of one hundredth of the time, read at the detector: the time 100 is found as 99.99. *)
Theorem C170_example to_sky : let delay := fun _ _ t : R => (Rmin (Rmax t 0) 200 / 100)%R in
  let p := [("ra", 1%R); ("dec", 2%R); ("H1_time", (100 + 1)%R)] in
  exists t, get_sky to_sky delay (Some "H1") true p = Done (1%R, 2%R, t) /\ (t = 9999 / 100)%R.
Proof.
  cbv zeta. exists ((100 + 1) - Rmin (Rmax (100 + 1) 0) 200 / 100)%R. split; [reflexivity|]. rewrite Rmax_left by lra. rewrite Rmin_left by lra. lra.
Qed.

(** ** Assumptions of every theorem above *)
Definition GwRecon2_Props_all :=
  (@C169_success,
   @C169_fixed_raises,
   @C169_distance,
   @C169_twice,
   @C169_reference,
   @C169_no_priors,
   @C169_failure_refuted,
   @C169_example,
   @C170_given,
   @C170_detector_time,
   @C170_detector_frame,
   @C170_fallback_refuted,
   @C170_again,
   @C170_jitter,
   @C170_rows,
   @C170_stale_refuted,
   @C170_jitter_refuted,
   @C170_frame_text,
   @C170_frame_text_refuted,
   @C170_example).
Print Assumptions GwRecon2_Props_all.
