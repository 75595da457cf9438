(** C234: groups of sampled parameters of a binary, and the check of a prior against the length of the data. *)
From Coq Require Import String Reals List Bool Lra Lia.
From Verif Require Import PyDict Pset_Model.
Import ListNotations.
Open Scope string_scope.

Lemma existsb_in k l : existsb (String.eqb k) l = true <-> In k l.
Proof. rewrite existsb_exists. split; [intros (x & I & E); apply String.eqb_eq in E; subst; exact I|intros I; exists k; split; [exact I|apply String.eqb_refl]]. Qed.
Lemma non_fixed d k : In k (non_fixed_keys d) <-> In (k, Sampled) d.
Proof.
  unfold non_fixed_keys. rewrite in_map_iff. split.
  - intros ([k' v] & E & I). apply filter_In in I. destruct I as [I V]. cbn in *. subst. destruct v; try discriminate. exact I.
  - intros I. exists (k, Sampled). split; [reflexivity|]. apply filter_In. auto.
Qed.
(** ** C234 A group is present exactly if one of its members is sampled; fixed parameters and constraints do not count; unknown groups raise *)
Theorem C234_value d p : match is_nonempty_intersection d p with
  | Some b => exists l, (p = Keys l \/ exists s, p = Name s /\ dget PARAMETER_SETS s = Some l) /\ (b = true <-> exists k, In k l /\ In (k, Sampled) d)
  | None => p = Other \/ exists s, p = Name s /\ ~ In s ["spin"; "mass"; "phase"; "extrinsic"; "tidal"; "primary_spin_and_q"; "intrinsic"; "precession_only"; "sky"; "distance_inclination"; "measured_spin"] end.
Proof.
  assert (C : forall l, existsb (fun k => existsb (String.eqb k) (non_fixed_keys d)) l = true <-> exists k, In k l /\ In (k, Sampled) d).
  { intros l. rewrite existsb_exists. split; intros (k & I & J); exists k; (split; [exact I|]); [apply existsb_in in J; apply non_fixed; exact J|apply existsb_in, non_fixed, J]. }
  unfold is_nonempty_intersection. destruct p as [s|l|]; [|exists l; auto|left; reflexivity]. destruct (dget PARAMETER_SETS s) as [l|] eqn:E; cbn [option_map].
  - exists l. split; [right; exists s; auto|apply C].
  - right. exists s. split; [reflexivity|]. intros I. cbn in I. decompose [or] I; subst; try discriminate; contradiction.
Qed.
(** ** C234 Precession implies spin, and spin, mass and phase imply intrinsic; a sampled sky position implies extrinsic; nothing belongs to both intrinsic and extrinsic *)
Lemma group_mono d s t ls lt : dget PARAMETER_SETS s = Some ls -> dget PARAMETER_SETS t = Some lt -> incl ls lt -> group d s = true -> group d t = true.
Proof.
  intros Es Et I. unfold group, is_nonempty_intersection. rewrite Es, Et. cbn [option_map]. rewrite !existsb_exists. intros (k & J & X). exists k. split; [apply I, J|exact X].
Qed.
Definition inclb (a b : list string) : bool := forallb (fun k => existsb (String.eqb k) b) a.
Lemma inclb_ok a b : inclb a b = true -> incl a b.
Proof. unfold inclb. rewrite forallb_forall. intros H k I. apply existsb_in, H, I. Qed.
Theorem C234_implications d :
  (group d "precession_only" = true -> group d "spin" = true) /\ (group d "measured_spin" = true -> group d "spin" = true) /\ (group d "spin" = true -> group d "intrinsic" = true) /\
  (group d "mass" = true -> group d "intrinsic" = true) /\ (group d "phase" = true -> group d "intrinsic" = true) /\ (group d "tidal" = true -> group d "intrinsic" = true) /\
  (group d "intrinsic" = true -> group d "spin" = true \/ group d "mass" = true \/ group d "phase" = true \/ group d "tidal" = true) /\
  (group d "sky" = true -> group d "extrinsic" = true) /\
  (forall k l m, dget PARAMETER_SETS "intrinsic" = Some l -> dget PARAMETER_SETS "extrinsic" = Some m -> ~ (In k l /\ In k m)).
Proof.
  repeat match goal with |- _ /\ _ => split end.
  1-6,8: (eapply group_mono; [reflexivity|reflexivity|apply inclb_ok; reflexivity]).
  - unfold group, is_nonempty_intersection. cbn [dget PARAMETER_SETS String.eqb Ascii.eqb Bool.eqb option_map]. set (f := fun k => existsb (String.eqb k) (non_fixed_keys d)). rewrite !existsb_app, !orb_true_iff. tauto.
  - intros k l m L M [I J]. assert (X : forallb (fun k => negb (existsb (String.eqb k) m)) l = true) by (injection L as <-; injection M as <-; reflexivity).
    rewrite forallb_forall in X. specialize (X k I). apply negb_true_iff in X. apply existsb_in in J. congruence.
Qed.
(** ** C234 What the groups miss: a sampled redshift is no extrinsic parameter, sampled cosines of the tilts are no spins, lambda_symmetric is not tidal, comoving distance belongs to no group *)
Theorem C234_missing_refuted : group [("redshift", Sampled)] "distance_inclination" = true /\ group [("redshift", Sampled)] "extrinsic" = false /\
  (forall s, group [("cos_tilt_1", Sampled); ("cos_tilt_2", Sampled)] s = false) /\ (forall s, group [("lambda_symmetric", Sampled); ("comoving_distance", Sampled); ("eccentricity", Sampled)] s = false).
Proof.
  repeat match goal with |- _ /\ _ => split end; try reflexivity; intros s; unfold group, is_nonempty_intersection, PARAMETER_SETS, dget;
  repeat match goal with |- context [String.eqb s ?x] => destruct (String.eqb s x); [reflexivity|] end; reflexivity.
Qed.
(** ** C234 Which groups each parameter belongs to; a group is present exactly if one of the sampled parameters belongs to it *)
Definition table : dict (list string) :=
  [("a_1", ["spin"; "intrinsic"; "primary_spin_and_q"; "measured_spin"]); ("a_2", ["spin"; "intrinsic"; "measured_spin"]);
   ("tilt_1", ["spin"; "intrinsic"; "precession_only"]); ("tilt_2", ["spin"; "intrinsic"; "precession_only"]); ("phi_12", ["spin"; "intrinsic"; "precession_only"]); ("phi_jl", ["spin"; "intrinsic"; "precession_only"]);
   ("chi_1", ["spin"; "intrinsic"; "primary_spin_and_q"; "measured_spin"]); ("chi_2", ["spin"; "intrinsic"; "measured_spin"]);
   ("chi_1_in_plane", ["spin"; "intrinsic"; "precession_only"; "measured_spin"]); ("chi_2_in_plane", ["spin"; "intrinsic"; "precession_only"]);
   ("chirp_mass", ["mass"; "intrinsic"]); ("mass_ratio", ["mass"; "intrinsic"; "primary_spin_and_q"]); ("total_mass", ["mass"; "intrinsic"]); ("mass_1", ["mass"; "intrinsic"]); ("mass_2", ["mass"; "intrinsic"]);
   ("symmetric_mass_ratio", ["mass"; "intrinsic"]);
   ("lambda_1", ["tidal"; "intrinsic"]); ("lambda_2", ["tidal"; "intrinsic"]); ("lambda_tilde", ["tidal"; "intrinsic"]); ("delta_lambda_tilde", ["tidal"; "intrinsic"]);
   ("phase", ["phase"; "intrinsic"]); ("delta_phase", ["phase"; "intrinsic"]);
   ("azimuth", ["extrinsic"; "sky"]); ("zenith", ["extrinsic"; "sky"]); ("ra", ["extrinsic"; "sky"]); ("dec", ["extrinsic"; "sky"]);
   ("luminosity_distance", ["extrinsic"; "distance_inclination"]); ("redshift", ["distance_inclination"]); ("theta_jn", ["extrinsic"; "distance_inclination"]); ("cos_theta_jn", ["extrinsic"; "distance_inclination"]);
   ("psi", ["extrinsic"]); ("geocent_time", ["extrinsic"]); ("time_jitter", ["extrinsic"]); ("H1_time", ["extrinsic"]); ("L1_time", ["extrinsic"]); ("V1_time", ["extrinsic"])].
Definition belongs (k s : string) : bool := match dget table k with Some gs => existsb (String.eqb s) gs | None => false end.
(** the two tables say the same, checked by running through both *)
Lemma table_ok : forallb (fun q => forallb (fun k => belongs k (fst q)) (snd q)) PARAMETER_SETS &&
  forallb (fun q => forallb (fun s => match dget PARAMETER_SETS s with Some l => existsb (String.eqb (fst q)) l | None => false end) (snd q)) table = true.
Proof. vm_compute. reflexivity. Qed.
Lemma dget_In {V} (d : dict V) k v : dget d k = Some v -> In (k, v) d.
Proof. induction d as [|[k' v'] d IH]; [discriminate|]. cbn. destruct (String.eqb_spec k k') as [->|N]; [intros H; injection H as ->; left; reflexivity|intros H; right; apply IH, H]. Qed.
Theorem C234_members d s : group d s = true <-> exists k, In (k, Sampled) d /\ belongs k s = true.
Proof.
  pose proof table_ok as T. apply andb_true_iff in T as [T1 T2]. rewrite forallb_forall in T1, T2. unfold group. pose proof (C234_value d (Name s)) as V. unfold is_nonempty_intersection in *.
  assert (B : forall k, belongs k s = true <-> exists l, dget PARAMETER_SETS s = Some l /\ In k l).
  { intros k. split.
    - unfold belongs. destruct (dget table k) as [gs|] eqn:G; [|discriminate]. intros E. apply existsb_in in E. specialize (T2 _ (dget_In _ _ _ G)). cbn [fst snd] in T2. rewrite forallb_forall in T2. specialize (T2 s E).
      destruct (dget PARAMETER_SETS s) as [l|]; [|discriminate]. exists l. split; [reflexivity|apply existsb_in, T2].
    - intros (l & L & I). specialize (T1 _ (dget_In _ _ _ L)). cbn [fst snd] in T1. rewrite forallb_forall in T1. exact (T1 k I). }
  destruct (dget PARAMETER_SETS s) as [l|] eqn:E; cbn [option_map] in *.
  - destruct V as (l' & [Q|(s' & Q & D)] & V); [discriminate|]. injection Q as <-. rewrite E in D. injection D as <-. rewrite V. split; intros (k & I & J); exists k; [split; [exact J|apply B; exists l; auto]|].
    apply B in J as (l2 & L2 & J). injection L2 as <-. auto.
  - split; [discriminate|]. intros (k & _ & J). apply B in J as (l & L & _). discriminate.
Qed.
Open Scope R_scope.
(** ** C234 The check says yes exactly if every draw fits; otherwise it warns, raises, or returns None *)
Lemma longest_spec l : match longest l with None => l = [] | Some m => In m l /\ forall x, In x l -> x <= m end.
Proof.
  destruct l as [|x t]; [reflexivity|]. cbn [longest].
  assert (G : forall t x, let m := fold_left (fun m y => if Rlt_dec m y then y else m) t x in (m = x \/ In m t) /\ x <= m /\ forall y, In y t -> y <= m).
  { clear. induction t as [|y t IH]; intros x; cbn [fold_left]; [cbn; split; [auto|]; split; [lra|intros y []]|]. destruct (Rlt_dec x y) as [H|H].
    - destruct (IH y) as (A & B & C). cbv zeta. split; [cbn; destruct A as [A|A]; [right; left; symmetry; exact A|auto]|]. split; [cbv zeta in B; lra|]. intros z [<-|I]; [exact B|apply C, I].
    - destruct (IH x) as (A & B & C). cbv zeta. split; [cbn; destruct A as [A|A]; auto|]. split; [exact B|]. intros z [<-|I]; [cbv zeta in B; lra|apply C, I]. }
  destruct (G t x) as (A & B & C). split; [cbn; destruct A as [A|A]; [left; symmetry; exact A|auto]|]. intros y [<-|I]; [exact B|apply C, I].
Qed.
Theorem C234_validate l T error warning : let v := validate_prior l T error warning in
  (v = Yes <-> l <> [] /\ forall x, In x l -> x < T) /\
  (v = No <-> warning = true /\ exists x, In x l /\ T <= x) /\
  (v = Raised <-> l = [] \/ (warning = false /\ error = true /\ exists x, In x l /\ T <= x)) /\
  (v = Nothing <-> warning = false /\ error = false /\ exists x, In x l /\ T <= x).
Proof.
  cbv zeta. unfold validate_prior. pose proof (longest_spec l) as S. destruct (longest l) as [m|].
  - destruct S as [I M]. assert (NE : l <> []) by (intros ->; destruct I). destruct (Rlt_dec m T) as [H|H].
    + assert (A : forall x, In x l -> x < T) by (intros x J; specialize (M x J); lra). assert (B : ~ exists x, In x l /\ T <= x) by (intros (x & J & K); specialize (A x J); lra).
      repeat match goal with |- _ /\ _ => split end; (split; [try discriminate; auto; tauto|tauto || (intros; exfalso; tauto)]).
    + assert (B : exists x, In x l /\ T <= x) by (exists m; split; [exact I|lra]). assert (A : ~ forall x, In x l -> x < T) by (intros K; specialize (K m I); lra).
      destruct warning, error; repeat match goal with |- _ /\ _ => split end; (split; [try discriminate; auto; tauto|intros K; try reflexivity; exfalso; intuition discriminate]).
  - subst l. repeat match goal with |- _ /\ _ => split end; (split; [try discriminate; auto|intros K; try reflexivity; exfalso]); [destruct K as [K _]; apply K; reflexivity|..]; decompose [and ex] K; match goal with J : In _ [] |- _ => destruct J end.
Qed.
(** more draws can only turn a yes into something else; so a yes says nothing of the prior between the draws *)
Theorem C234_more_draws l l' T error warning : validate_prior (l ++ l') T error warning = Yes -> l <> [] -> validate_prior l T error warning = Yes.
Proof.
  intros H NE. apply (proj1 (C234_validate (l ++ l') T error warning)) in H. destruct H as [_ H]. apply (proj1 (C234_validate l T error warning)). split; [exact NE|]. intros x I. apply H, in_or_app. left. exact I.
Qed.
Example C234_example : validate_prior [3; 7; 5] 8 true true = Yes /\ validate_prior [3; 7; 5] 4 true true = No /\ validate_prior [3; 7; 5] 7 true false = Raised /\ validate_prior [3; 7; 5] 4 false false = Nothing /\
  group [("chirp_mass", Sampled); ("a_1", Fixed); ("mass_1", Constrained)] "mass" = true /\ group [("chirp_mass", Sampled); ("a_1", Fixed); ("mass_1", Constrained)] "spin" = false /\ group [("mass_1", Constrained)] "mass" = false.
Proof.
  unfold validate_prior, longest. cbn [fold_left]. destruct (Rlt_dec 3 7); [|lra]. destruct (Rlt_dec 7 5); [lra|]. destruct (Rlt_dec 7 8); [|lra]. destruct (Rlt_dec 7 4); [lra|]. destruct (Rlt_dec 7 7); [lra|]. repeat split; reflexivity.
Qed.

(** ** Assumptions of every theorem above *)
Definition Pset_Props_all :=
  (@C234_value,
   @C234_implications,
   @C234_missing_refuted,
   @C234_members,
   @C234_validate,
   @C234_more_draws).
Print Assumptions Pset_Props_all.
