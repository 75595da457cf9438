(** * What the public source models hand on: parameters, defaults and spins (C191, C192) *)
From Coq Require Import String Ascii ZArith Lia Reals Lra List Bool.
From Coquelicot Require Import Coquelicot.
From Verif Require Import PyDict PyReal Source_Model Source_Props.
Import ListNotations.
Open Scope string_scope.
Open Scope list_scope.
Open Scope R_scope.

Section Models.
Variable inserts : string -> bool.
Variable known : string -> bool.
Variable fd_implemented : string -> bool.
Variable low_to_start : R -> R -> string -> R.
Variable transform : R -> R -> R -> R -> R -> R -> R -> R -> R -> R -> R -> spins.
Variable choose_fd sim_fd : system -> grid -> answer (series * series).
Variable choose_sequence : system -> list R -> answer waves.
Variables parsec solar_mass : R.
Let base := base_waveform inserts known fd_implemented low_to_start transform choose_fd sim_fd parsec solar_mass.
Let sequence := base_sequence inserts known transform choose_sequence parsec solar_mass.

(** The user's value, or the default. *)
Definition or_default (kw : dict val) (k : string) (v : val) : option val := match dget kw k with Some x => Some x | None => Some v end.
Definition keeps_masses (b b' : binary) : Prop := mass_1 b' = mass_1 b /\ mass_2 b' = mass_2 b /\ distance b' = distance b /\ theta_jn b' = theta_jn b /\ phase b' = phase b.
Definition keeps_spins (b b' : binary) : Prop := a_1 b' = a_1 b /\ a_2 b' = a_2 b /\ tilt_1 b' = tilt_1 b /\ tilt_2 b' = tilt_2 b /\ phi_12 b' = phi_12 b /\ phi_jl b' = phi_jl b.
Definition has_orders (kw w : dict val) : Prop :=
  dget w "catch_waveform_errors" = or_default kw "catch_waveform_errors" (VFlag false) /\ dget w "pn_spin_order" = or_default kw "pn_spin_order" (VNum (-1)) /\
  dget w "pn_tidal_order" = or_default kw "pn_tidal_order" (VNum (-1)) /\ dget w "pn_phase_order" = or_default kw "pn_phase_order" (VNum (-1)) /\
  dget w "pn_amplitude_order" = or_default kw "pn_amplitude_order" (VNum 0).
Definition has_band (kw w : dict val) (lo hi : R) : Prop :=
  dget w "minimum_frequency" = or_default kw "minimum_frequency" (VNum lo) /\ dget w "maximum_frequency" = or_default kw "maximum_frequency" (VNum hi).
Definition has_model (kw w : dict val) (approx : string) (fref : R) : Prop :=
  dget w "waveform_approximant" = or_default kw "waveform_approximant" (VText approx) /\ dget w "reference_frequency" = or_default kw "reference_frequency" (VNum fref).
Definition fd_names := ["waveform_approximant"; "reference_frequency"; "minimum_frequency"; "maximum_frequency"; "catch_waveform_errors"; "pn_spin_order"; "pn_tidal_order"; "pn_phase_order"; "pn_amplitude_order"].
Definition seq_names := ["waveform_approximant"; "reference_frequency"; "catch_waveform_errors"; "pn_spin_order"; "pn_tidal_order"; "pn_phase_order"; "pn_amplitude_order"].
Definition passes_on (kw w : dict val) (names : list string) : Prop := forall k, ~ In k names -> dget w k = dget kw k.

Lemma fd_filled approx fref lo hi kw : wf kw -> let w := update (fd_defaults approx fref lo hi) kw in has_model kw w approx fref /\ has_band kw w lo hi /\ has_orders kw w /\ passes_on kw w fd_names.
Proof using Type.
  intros W w. unfold w, has_model, has_band, has_orders, or_default. rewrite !update_get by exact W. repeat split; try (destruct (dget kw _); reflexivity).
  intros k N. rewrite update_get by exact W. destruct (dget kw k) as [x|]; [reflexivity|]. apply get_not_in. exact N.
Qed.
Lemma seq_filled approx fref kw : wf kw -> let w := update (seq_defaults approx fref) kw in has_model kw w approx fref /\ has_orders kw w /\ passes_on kw w seq_names.
Proof using Type.
  intros W w. unfold w, has_model, has_orders, or_default. rewrite !update_get by exact W. repeat split; try (destruct (dget kw _); reflexivity).
  intros k N. rewrite update_get by exact W. destruct (dget kw k) as [x|]; [reflexivity|]. apply get_not_in. exact N.
Qed.
Lemma last_of fs : fs <> [] -> last_frequency fs = Ok (last fs 0).
Proof using Type. destruct fs; [contradiction|reflexivity]. Qed.
(** The three models on a frequency grid. *)
Theorem C191_models fs b kw : wf kw -> fs <> [] ->
  (exists b' w, lal_binary_black_hole inserts known fd_implemented low_to_start transform choose_fd sim_fd parsec solar_mass fs b kw = base spin_names fs b' w /\
     keeps_masses b b' /\ keeps_spins b b' /\ lambda_1 b' = 0 /\ lambda_2 b' = 0 /\ eccentricity b' = 0 /\
     has_model kw w "IMRPhenomPv2" 50 /\ has_band kw w 20 (last fs 0) /\ has_orders kw w /\ passes_on kw w fd_names) /\
  (exists b' w, lal_binary_neutron_star inserts known fd_implemented low_to_start transform choose_fd sim_fd parsec solar_mass fs b kw = base (spin_names ++ tidal_names) fs b' w /\
     keeps_masses b b' /\ keeps_spins b b' /\ lambda_1 b' = lambda_1 b /\ lambda_2 b' = lambda_2 b /\ eccentricity b' = 0 /\
     has_model kw w "IMRPhenomPv2_NRTidal" 50 /\ has_band kw w 20 (last fs 0) /\ has_orders kw w /\ passes_on kw w fd_names) /\
  (exists b' w, lal_eccentric inserts known fd_implemented low_to_start transform choose_fd sim_fd parsec solar_mass fs b kw = base ["eccentricity"] fs b' w /\
     keeps_masses b b' /\ (a_1 b' = 0 /\ a_2 b' = 0 /\ tilt_1 b' = 0 /\ tilt_2 b' = 0 /\ phi_12 b' = 0 /\ phi_jl b' = 0) /\ lambda_1 b' = 0 /\ lambda_2 b' = 0 /\ eccentricity b' = eccentricity b /\
     has_model kw w "EccentricFD" 10 /\ has_band kw w 10 (last fs 0) /\ has_orders kw w /\ passes_on kw w fd_names).
Proof using Type.
  intros W N. unfold lal_binary_black_hole, lal_binary_neutron_star, lal_eccentric. rewrite !(last_of fs N). cbn [bind].
  split; [|split]; (eexists _, _; split; [reflexivity|]; split; [repeat split|]; split; [repeat split|]; split; [reflexivity|]; split; [reflexivity|]; split; [reflexivity|]; apply fd_filled, W).
Qed.
(** The models at given frequencies and for reduced order quadrature. *)
Theorem C191_sequence_models b kw : wf kw ->
  (exists b' w, bbh_sequence inserts known transform choose_sequence parsec solar_mass b kw = sequence b' w /\ keeps_masses b b' /\ keeps_spins b b' /\ lambda_1 b' = 0 /\ lambda_2 b' = 0 /\
     has_model kw w "IMRPhenomPv2" 50 /\ has_orders kw w /\ passes_on kw w seq_names) /\
  (exists b' w, bns_sequence inserts known transform choose_sequence parsec solar_mass b kw = sequence b' w /\ keeps_masses b b' /\ keeps_spins b b' /\ lambda_1 b' = lambda_1 b /\ lambda_2 b' = lambda_2 b /\
     has_model kw w "IMRPhenomPv2_NRTidal" 50 /\ has_orders kw w /\ passes_on kw w seq_names) /\
  (exists b' w, bbh_roq inserts known transform choose_sequence parsec solar_mass b kw = base_roq inserts known transform choose_sequence parsec solar_mass b' w /\ keeps_masses b b' /\ keeps_spins b b' /\ lambda_1 b' = 0 /\ lambda_2 b' = 0 /\
     has_model kw w "IMRPhenomPv2" 20 /\ has_orders kw w /\ passes_on kw w seq_names) /\
  (exists b' w, bns_roq inserts known transform choose_sequence parsec solar_mass b kw = base_roq inserts known transform choose_sequence parsec solar_mass b' w /\ keeps_masses b b' /\ keeps_spins b b' /\ lambda_1 b' = lambda_1 b /\ lambda_2 b' = lambda_2 b /\
     has_model kw w "IMRPhenomD_NRTidal" 20 /\ has_orders kw w /\ passes_on kw w seq_names).
Proof using Type.
  intros W. split; [|split; [|split]]; (eexists _, _; split; [reflexivity|]; split; [repeat split|]; split; [repeat split|]; split; [reflexivity|]; split; [reflexivity|]; apply seq_filled, W).
Qed.
(** Spins along the orbital momentum need no transformation: both bodies without spin or with tilt 0 or pi. *)
Theorem C191_spins b m1 m2 fref :
  let along a t := a = 0 \/ t = 0 \/ t = PI in
  (along (a_1 b) (tilt_1 b) -> along (a_2 b) (tilt_2 b) ->
     exists z1 z2, to_spins transform b m1 m2 fref = (theta_jn b, (0, 0, z1), (0, 0, z2)) /\ Rabs z1 = Rabs (a_1 b) /\ Rabs z2 = Rabs (a_2 b) /\
       (tilt_1 b = 0 -> z1 = a_1 b) /\ (tilt_1 b = PI -> z1 = - a_1 b) /\ (tilt_2 b = 0 -> z2 = a_2 b) /\ (tilt_2 b = PI -> z2 = - a_2 b)) /\
  (~ along (a_1 b) (tilt_1 b) \/ ~ along (a_2 b) (tilt_2 b) ->
     to_spins transform b m1 m2 fref = transform (theta_jn b) (phi_jl b) (tilt_1 b) (tilt_2 b) (phi_12 b) (a_1 b) (a_2 b) m1 m2 fref (phase b)).
Proof using Type.
  intros along. assert (AL : forall a t, aligned a t = true <-> along a t).
  { intros a t. unfold aligned, along. clear. destruct (Req_EM_T a 0); [tauto|]. destruct (Req_EM_T t 0); [tauto|]. destruct (Req_EM_T t PI); [tauto|]. split; [discriminate|tauto]. }
  assert (ZV : forall a t, along a t -> Rabs (a * cos t) = Rabs a /\ (t = 0 -> a * cos t = a) /\ (t = PI -> a * cos t = - a)).
  { intros a t H. split; [|split; intros ->; rewrite ?cos_0, ?cos_PI; ring]. destruct H as [-> | [-> | ->]]; [rewrite Rmult_0_l; reflexivity|rewrite cos_0, Rmult_1_r; reflexivity|rewrite cos_PI; replace (a * -1) with (- a) by ring; apply Rabs_Ropp]. }
  split.
  - intros H1 H2. exists (a_1 b * cos (tilt_1 b)), (a_2 b * cos (tilt_2 b)). destruct (ZV _ _ H1) as (A & B & D). destruct (ZV _ _ H2) as (A2 & B2 & D2). split; [|repeat split; assumption]. unfold to_spins. apply AL in H1, H2. rewrite H1, H2. reflexivity.
  - intros H. unfold to_spins. destruct (aligned (a_1 b) (tilt_1 b)) eqn:E1; destruct (aligned (a_2 b) (tilt_2 b)) eqn:E2; cbn [andb]; try reflexivity. exfalso. apply AL in E1, E2. destruct H as [H|H]; apply H; assumption.
Qed.
End Models.

(** Of the optional parameters those in the keyword arguments are read, each into its own field; the others keep their default; the rest of the keyword arguments stays. *)
Definition field (b : binary) (k : string) : option R :=
  dget [("a_1", a_1 b); ("a_2", a_2 b); ("tilt_1", tilt_1 b); ("tilt_2", tilt_2 b); ("phi_12", phi_12 b); ("phi_jl", phi_jl b); ("lambda_1", lambda_1 b); ("lambda_2", lambda_2 b); ("eccentricity", eccentricity b)] k.
Lemma set_field_field b k x k' : In k optional -> field (set_field b k x) k' = if String.eqb k' k then Some x else field b k'.
Proof.
  intros I. unfold optional, spin_names, tidal_names in I. simpl in I. unfold field.
  repeat (destruct I as [<- | I]; [simpl; repeat match goal with |- context [String.eqb k' ?s] => destruct (String.eqb_spec k' s) as [->|]; [try reflexivity; try congruence|] end; reflexivity|]). contradiction.
Qed.
Lemma set_field_masses b k x : keeps_masses b (set_field b k x).
Proof. repeat split. Qed.
Lemma read_optional_fields names : (forall k, In k names -> In k optional) -> NoDup names -> forall b kw b' kw', wf kw -> read_optional names b kw = Ok (b', kw') ->
  keeps_masses b b' /\
  (forall k, In k names -> field b' k = match dget kw k with Some (VNum x) => Some x | _ => field b k end /\ (forall v, dget kw k = Some v -> exists x, as_num v = Ok x /\ field b' k = Some x)) /\
  (forall k, ~ In k names -> field b' k = field b k) /\
  (forall k, dget kw' k = if existsb (String.eqb k) names then None else dget kw k).
Proof.
  induction names as [|n t IH]; intros O N b kw b' kw' W H; cbn [read_optional] in H.
  - injection H as <- <-. split; [repeat split|]. split; [intros k []|]. split; reflexivity.
  - apply NoDup_cons_iff in N. destruct N as [N1 N2]. assert (O' : forall k, In k t -> In k optional) by (intros; apply O; right; assumption).
    destruct (dget kw n) as [v|] eqn:E.
    + destruct (as_num v) as [x|e] eqn:V; [|discriminate]. cbn [bind] in H. assert (W' : wf (ddel kw n)) by (apply wf_del, W).
      destruct (IH O' N2 _ _ _ _ W' H) as (M & F & G & D).
      assert (Fn : field b' n = Some x). { rewrite (G n N1), set_field_field by (apply O; left; reflexivity). rewrite String.eqb_refl. reflexivity. }
      split; [|split; [|split]].
      * destruct M as (A & B & C & D' & E'). repeat split; assumption.
      * intros k [<- | I].
        { split; [|intros w Ew; rewrite E in Ew; injection Ew as <-; exists x; split; assumption]. rewrite E. destruct v; try discriminate V. injection V as <-. exact Fn. }
        { assert (k <> n) by congruence. destruct (F k I) as [F1 F2]. rewrite dget_del_ne in F1, F2 by assumption.
          rewrite set_field_field in F1 by (apply O; left; reflexivity). apply String.eqb_neq in H0. rewrite H0 in F1. split; assumption. }
      * intros k K. rewrite (G k) by (intros Z; apply K; right; exact Z). rewrite set_field_field by (apply O; left; reflexivity).
        assert (k <> n) by (intros ->; apply K; left; reflexivity). apply String.eqb_neq in H0. rewrite H0. reflexivity.
      * intros k. rewrite (D k). cbn [existsb]. destruct (String.eqb_spec k n) as [->|K]; cbn [orb].
        { destruct (existsb (String.eqb n) t); [reflexivity|]. apply dget_del_eq, W. }
        { destruct (existsb (String.eqb k) t); [reflexivity|]. apply dget_del_ne, K. }
    + destruct (IH O' N2 _ _ _ _ W H) as (M & F & G & D). split; [exact M|]. split; [|split].
      * intros k [<- | I]; [|apply F, I]. rewrite E, (G n N1). split; [reflexivity|discriminate].
      * intros k K. apply G. intros Z. apply K. right. exact Z.
      * intros k. rewrite (D k). cbn [existsb]. destruct (String.eqb_spec k n) as [->|K]; cbn [orb]; [|reflexivity].
        destruct (existsb (String.eqb n) t); [reflexivity | exact E].
Qed.
Theorem C191_optional b kw b' kw' : wf kw -> read_optional optional b kw = Ok (b', kw') ->
  keeps_masses b b' /\
  (forall k, In k optional -> field b' k = match dget kw k with Some (VNum x) => Some x | _ => field b k end) /\
  (forall k, In k optional -> dget kw' k = None) /\ (forall k, ~ In k optional -> dget kw' k = dget kw k).
Proof.
  intros W H. assert (N : NoDup optional) by (unfold optional, spin_names, tidal_names; cbn [app]; repeat constructor; simpl; intuition discriminate).
  destruct (read_optional_fields optional (fun k I => I) N b kw b' kw' W H) as (M & F & _ & D). split; [exact M|]. split; [intros k I; apply F, I|].
  split; intros k I; rewrite (D k).
  - replace (existsb (String.eqb k) optional) with true; [reflexivity|]. symmetry. apply existsb_exists. exists k. split; [exact I | apply String.eqb_refl].
  - replace (existsb (String.eqb k) optional) with false; [reflexivity|]. symmetry. apply not_true_iff_false. intros Z. apply existsb_exists in Z. destruct Z as (j & J & Ej). apply String.eqb_eq in Ej. subst. contradiction.
Qed.

(** ** Examples *)
Example C191_spins_example tr : to_spins tr (mkBinary 30 20 400 (3 / 10) 0 (1 / 2) 0 PI 1 2 3 0 0 0) 1 1 20 = (3 / 10, (0, 0, 1 / 2 * cos PI), (0, 0, 0 * cos 1)).
Proof. unfold to_spins, aligned. cbn [a_1 a_2 tilt_1 tilt_2 theta_jn]. destruct (Req_EM_T (1 / 2) 0); [lra|]. destruct (Req_EM_T PI 0); [pose proof PI_RGT_0; lra|]. destruct (Req_EM_T PI PI); [|contradiction]. destruct (Req_EM_T 0 0); [reflexivity|contradiction]. Qed.
Example C191_default_example : dget (update (fd_defaults "IMRPhenomPv2" 50 20 1024) [("reference_frequency", VNum 20)]) "reference_frequency" = Some (VNum 20) /\ dget (update (fd_defaults "IMRPhenomPv2" 50 20 1024) [("reference_frequency", VNum 20)]) "pn_amplitude_order" = Some (VNum 0).
Proof. split; reflexivity. Qed.

(** ** Assumptions of every theorem above *)
Definition Source3_Props_all :=
  (@C191_models,
   @C191_sequence_models,
   @C191_spins,
   @C191_optional).
Print Assumptions Source3_Props_all.
