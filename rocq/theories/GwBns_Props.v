(** * Properties of the conversion of neutron-star parameters *)
From Coq Require Import Reals String List Bool Arith Lia Lra Psatz.
From Verif Require Import PyReal PyDict GwMass_Model GwMass_Proofs GwMass_Props GwGen_Model GwGen_Props GwBbh_Props GwBns_Model.
Import ListNotations.
Open Scope R_scope. Open Scope string_scope. Open Scope list_scope.

Ltac fr := match goal with |- ~ _ => intro; repeat match goal with H : _ \/ _ |- _ => destruct H | H : _ /\ _ |- _ => destruct H | H : In _ _ |- _ => cbn in H | H : False |- _ => destruct H end; try discriminate; try contradiction; try congruence end.
Section Conv.
Variables z_to_dl dl_to_z z_to_dc dc_to_dl : R -> option R.
Variables pca_f poly_f scaled_f causal_f : row.
Variable std_ppf : R -> option R.
Notation convert := (convert_to_lal_bbh z_to_dl dl_to_z dc_to_dl).
Notation bns := (convert_to_lal_bns z_to_dl dl_to_z z_to_dc dc_to_dl pca_f poly_f scaled_f causal_f std_ppf).
Notation chain := (chain_step dl_to_z z_to_dc pca_f poly_f scaled_f causal_f std_ppf).
Notation eos := (eos_step dl_to_z z_to_dc).

(** every name the tidal part of the conversion looks up in the caller's dictionary *)
Definition tidal_names := tidal_keys ++ ["eos_polytrope_log10_pressure_1"; "eos_polytrope_scaled_pressure_ratio"; "lambda_antisymmetric"; "binary_love_uniform"].
(** the equation-of-state and symmetric parametrisations *)
Definition eos_names := ["eos_spectral_pca_gamma_0"; "eos_polytrope_log10_pressure_1"; "eos_polytrope_scaled_pressure_ratio"; "eos_v1"].
Definition eos_given (s : sample) : Prop := exists k, In k eos_names /\ dmem s k = true.

Lemma bbh_frame : forall np s o added k, plain s -> convert np s = Ok (o, added) ->
  ~ In k ((["luminosity_distance"; "redshift"] ++ mass_keys false) ++ late) -> dget o k = dget s k.
Proof using.
  intros np s o added k HP H N. destruct (convert_inv z_to_dl dl_to_z dc_to_dl np s o added H) as [o1 [o2 [o3 [o4 [o5 [o7 [E1 [E2 [E3 [E4 [E5 [E7 [E8 _]]]]]]]]]]]]].
  rewrite (late_facts np s o3 o4 o5 o7 o E4 E5 E7 E8) by (intro X; apply N, in_or_app; right; exact X).
  apply (front z_to_dl dl_to_z dc_to_dl s o1 o2 o3 k HP E1 E2 E3). intro X. apply N, in_or_app. left. exact X.
Qed.
Lemma bbh_tidal : forall np s o added k, plain s -> convert np s = Ok (o, added) -> In k tidal_names -> dget o k = dget s k.
Proof using.
  intros np s o added k HP H K. apply (bbh_frame np s o added k HP H). cbn in K. repeat destruct K as [<-|K]; try contradiction; cbn; fr.
Qed.
Lemma bbh_tidal_mem : forall np s o added k, plain s -> convert np s = Ok (o, added) -> In k tidal_names -> dmem o k = dmem s k.
Proof using. intros np s o added k HP H K. unfold dmem. rewrite (bbh_tidal np s o added k HP H K). reflexivity. Qed.

Lemma bindt_inv : forall {A B} (x : out A) (f : A -> out B) r, bindt x f = Done r -> exists v, x = Done v /\ f v = Done r.
Proof using. intros A B [v| |] f r H; try discriminate. exists v. auto. Qed.
Lemma of_res_inv : forall {A} (x : res A) v, of_res x = Done v -> x = Ok v.
Proof using. intros A [a|] v H; [injection H as ->; reflexivity|discriminate]. Qed.
Lemma done_inj : forall {A} (x y : A), Done x = Done y -> x = y.
Proof using. congruence. Qed.
Lemma ok_inj : forall {A} (x y : A), Ok x = Ok y -> x = y.
Proof using. congruence. Qed.

(** what the two tidal steps do: they write the two tidal parameters, and the equation-of-state branches also
    the source-frame parameters and the flag *)
Definition frame_written := ["redshift"; "comoving_distance"; "mass_1_source"; "mass_2_source"; "chirp_mass_source"; "total_mass_source"; "eos_check"].
Lemma set2_step : forall (P : string -> Prop) o r, P "lambda_1" -> P "lambda_2" -> step P o (set2 o r).
Proof using. intros P o r H1 H2. unfold set2. eapply step_trans; apply step_set; right; assumption. Qed.
Lemma tilde_facts : forall (P : string -> Prop) s o p, P "lambda_1" -> P "lambda_2" -> tilde_step s o = Ok p -> step P o p.
Proof using.
  intros P s o p H1 H2 H. unfold tilde_step in H. destruct (dmem o "delta_lambda_tilde").
  - do 4 (apply bind_inv in H as [? [_ H]]). apply ok_inj in H. subst p. apply set2_step; assumption.
  - destruct (dmem o "lambda_tilde"); [do 3 (apply bind_inv in H as [? [_ H]]); apply ok_inj in H; subst p; apply set2_step; assumption|].
    apply ok_inj in H. subst p. apply step_refl.
Qed.
Lemma source_frame_step : forall (P : string -> Prop) o r, (forall k, In k frame_written -> P k) -> generate_source_frame_parameters dl_to_z z_to_dc o = Ok r -> step P o r.
Proof using.
  intros P o r HP H. unfold generate_source_frame_parameters in H. apply bind_inv in H as [d [_ H]]. cbv zeta in H. apply bind_inv in H as [z [_ H]]. apply ok_inj in H. subst r.
  eapply step_trans; [apply (step_set P o "redshift" (lift1 dl_to_z d)); right; apply HP; cbn; auto|].
  eapply step_trans; [apply (step_set P _ "comoving_distance" (lift1 z_to_dc z)); right; apply HP; cbn; auto|].
  generalize (dset (dset o "redshift" (lift1 dl_to_z d)) "comoving_distance" (lift1 z_to_dc z)). intro a.
  assert (L : forall ks a, (forall k, In k ks -> P (k ++ "_source")%string) -> step P a (fold_left source_key_step ks a)).
  { induction ks as [|k ks IH]; intros b B; [apply step_refl|]. cbn [fold_left]. eapply step_trans; [|apply IH; intros; apply B; right; assumption].
    unfold source_key_step. destruct (dget b k); [|apply step_refl]. destruct (dget b "redshift"); [|apply step_refl]. apply step_set. right. apply B. left. reflexivity. }
  apply L. intros k K. apply HP. cbn in K. repeat destruct K as [<-|K]; try contradiction; cbn; tauto.
Qed.
Lemma eos_facts : forall (P : string -> Prop) ks f o r, P "lambda_1" -> P "lambda_2" -> (forall k, In k frame_written -> P k) -> eos ks f o = Done r ->
  step P o r /\ dmem r "lambda_1" = true /\ dmem r "lambda_2" = true.
Proof using.
  intros P ks f o r H1 H2 HP H. unfold eos_step in H. apply bindt_inv in H as [p [E H]]. apply of_res_inv in E. apply (source_frame_step P) in E; [|exact HP].
  destruct (get_all p ks) as [vs|]; [|discriminate]. destruct (on_row f vs) as [[a b] c]. apply done_inj in H. subst r. unfold store3. split.
  - eapply step_trans; [exact E|]. eapply step_trans; [apply (step_set P p "lambda_1" a); auto|]. eapply step_trans; [apply (step_set P _ "lambda_2" b); auto|]. apply step_set. right. apply HP. cbn. tauto.
  - unfold dmem. split; [rewrite 2!dget_set_ne by discriminate|rewrite dget_set_ne by discriminate]; rewrite dget_set_eq; reflexivity.
Qed.
Lemma mass_scaled_inv : forall o r, mass_scaled o = Ok r -> exists l m1 m2, dget o "lambda_1" = Some l /\ dget o "mass_1" = Some m1 /\ dget o "mass_2" = Some m2 /\
  r = dset o "lambda_2" (lift3 (fun l m1 m2 => pdiv (l * m1 ^ 5) (m2 ^ 5)) l m1 m2).
Proof using.
  intros o r H. unfold mass_scaled, get in H. destruct (dget o "lambda_1") as [l|]; [|discriminate]. cbn [bindr] in H. destruct (dget o "mass_1") as [m1|]; [|discriminate]. cbn [bindr] in H.
  destruct (dget o "mass_2") as [m2|]; [|discriminate]. cbn [bindr] in H. apply ok_inj in H. subst r. exists l, m1, m2. auto.
Qed.
Lemma symmetric_facts : forall (P : string -> Prop) o r, P "lambda_1" -> P "lambda_2" -> symmetric_step std_ppf o = Done r -> step P o r /\
  ((dmem o "lambda_antisymmetric" = true \/ dmem o "mass_ratio" = true) -> dmem r "lambda_1" = true /\ dmem r "lambda_2" = true) /\
  (dmem o "lambda_antisymmetric" = false -> dmem o "mass_ratio" = false -> r = o) /\ (forall k, k <> "lambda_1" -> k <> "lambda_2" -> dget r k = dget o k).
Proof using.
  intros P o r H1 H2 H. unfold symmetric_step in H.
  assert (S2 : forall x, dmem (set2 o x) "lambda_1" = true /\ dmem (set2 o x) "lambda_2" = true) by (intro x; unfold set2; split; [rewrite dmem_set_ne by discriminate|]; apply dmem_set_eq).
  assert (S3 : forall x k, k <> "lambda_1" -> k <> "lambda_2" -> dget (set2 o x) k = dget o k) by (intros x k N1 N2; unfold set2; rewrite !dget_set_ne by assumption; reflexivity).
  destruct (dmem o "lambda_antisymmetric") eqn:A.
  - apply of_res_inv in H. do 2 (apply bind_inv in H as [? [_ H]]). apply ok_inj in H. subst r. split; [apply set2_step; assumption|]. split; [intros _; apply S2|]. split; [discriminate|apply S3].
  - destruct (dmem o "mass_ratio") eqn:Q.
    + destruct (dmem o "binary_love_uniform"); [|discriminate]. apply of_res_inv in H. do 3 (apply bind_inv in H as [? [_ H]]). apply ok_inj in H. subst r. split; [apply set2_step; assumption|]. split; [intros _; apply S2|]. split; [discriminate|apply S3].
    + apply done_inj in H. subst r. split; [apply step_refl|]. split; [intros [X|X]; discriminate|]. split; reflexivity.
Qed.

Lemma frame_app_new : forall (s o : sample), wf o -> (exists l, dkeys o = dkeys s ++ l) -> dkeys o = dkeys s ++ filter (fun k => negb (dmem s k)) (dkeys o).
Proof using.
  intros s o W [l E]. rewrite E at 2. rewrite filter_app. rewrite E. f_equal. unfold wf in W. rewrite E in W.
  assert (Y : forall r, (forall k, In k r -> dmem s k = true) -> filter (fun k => negb (dmem s k)) r = []) by (induction r as [|x r IH]; intro R; [reflexivity|]; simpl; rewrite (R x (or_introl eq_refl)); simpl; apply IH; intros; apply R; right; assumption).
  rewrite (Y (dkeys s)) by (intros k; apply dmem_in). simpl. symmetry.
  assert (Z : forall r, (forall k, In k r -> dmem s k = false) -> filter (fun k => negb (dmem s k)) r = r) by (induction r as [|x r IH]; intro R; [reflexivity|]; simpl; rewrite (R x (or_introl eq_refl)); simpl; f_equal; apply IH; intros; apply R; right; assumption).
  apply Z. intros k Hk. destruct (dmem s k) eqn:D; [|reflexivity]. exfalso. apply dmem_in in D. clear - W Hk D.
  induction (dkeys s) as [|x t IH]; [destruct D|]. simpl in W. destruct (proj1 (NoDup_cons_iff _ _) W) as [N1 N2]. destruct D as [->|D]; [apply N1, in_or_app; right; exact Hk|exact (IH N2 D)].
Qed.

(** the run of the conversion, step by step *)
Lemma bns_inv : forall np n2 s o added, bns np n2 s = Done (o, added) -> exists o0 a0, convert np s = Ok (o0, a0) /\
  ((existsb (dmem o0) tidal_keys = false /\ o = dset (dset o0 "lambda_1" (Some 0)) "lambda_2" (Some 0) /\ added = a0 ++ ["lambda_1"; "lambda_2"]) \/
   (existsb (dmem o0) tidal_keys = true /\ added = filter (fun k => negb (dmem s k)) (dkeys o) /\ exists p, tilde_step s o0 = Ok p /\ chain (n2 && negb (dmem o0 "lambda_tilde"))%bool p = Done o)).
Proof using.
  intros np n2 s o added H. unfold convert_to_lal_bns in H. apply bindt_inv in H as [[o0 a0] [E H]]. apply of_res_inv in E. exists o0, a0. split; [exact E|]. cbv beta in H.
  destruct (existsb (dmem o0) tidal_keys) eqn:X; cbn [negb] in H.
  - right. split; [reflexivity|]. apply bindt_inv in H as [p [T H]]. apply of_res_inv in T. apply bindt_inv in H as [r [C H]]. apply done_inj in H. injection H as -> <-. split; [reflexivity|]. exists p. auto.
  - left. apply done_inj in H. injection H as <- <-. auto.
Qed.

(** ** C139 What is kept *)
Lemma chain_facts : forall (P : string -> Prop) n2 o r, P "lambda_1" -> P "lambda_2" -> (eos_given o -> forall k, In k frame_written -> P k) -> chain n2 o = Done r -> step P o r.
Proof using.
  intros P n2 o r H1 H2 HP H. unfold chain_step in H.
  assert (MS : of_res (mass_scaled o) = Done r -> step P o r) by (intro X; apply of_res_inv, mass_scaled_inv in X as [l [m1 [m2 [_ [_ [_ ->]]]]]]; apply step_set; right; exact H2).
  destruct (negb (dmem o "lambda_2") && dmem o "lambda_1")%bool; [auto|]. destruct (dmem o "lambda_2" && n2)%bool; [auto|].
  assert (E : forall k, In k eos_names -> dmem o k = true -> forall ks f, eos ks f o = Done r -> step P o r).
  { intros k K M ks f X. apply (eos_facts P) in X; [apply X|assumption|assumption|]. apply HP. exists k. auto. }
  destruct (dmem o "eos_spectral_pca_gamma_0") eqn:M1; [eapply E; [|exact M1|exact H]; cbn; auto|].
  destruct (dmem o "eos_polytrope_log10_pressure_1") eqn:M2; [eapply E; [|exact M2|exact H]; cbn; auto|].
  destruct (dmem o "eos_polytrope_scaled_pressure_ratio") eqn:M3; [eapply E; [|exact M3|exact H]; cbn; auto|].
  destruct (dmem o "eos_v1") eqn:M4; [eapply E; [|exact M4|exact H]; cbn; auto|].
  destruct (dmem o "lambda_symmetric"); [apply (symmetric_facts P) in H; [apply H|assumption|assumption]|]. apply done_inj in H. subst r. apply step_refl.
Qed.
(** a key that a frame statement with an empty dictionary cannot see: membership after the tilde step *)
Lemma tilde_frame : forall s o p k, tilde_step s o = Ok p -> k <> "lambda_1" -> k <> "lambda_2" -> dget p k = dget o k.
Proof using.
  intros s o p k H N1 N2. unfold tilde_step in H. destruct (dmem o "delta_lambda_tilde").
  - do 4 (apply bind_inv in H as [? [_ H]]). apply ok_inj in H. subst p. unfold set2. rewrite !dget_set_ne by assumption. reflexivity.
  - destruct (dmem o "lambda_tilde"); [do 3 (apply bind_inv in H as [? [_ H]]); apply ok_inj in H; subst p; unfold set2; rewrite !dget_set_ne by assumption; reflexivity|].
    apply ok_inj in H. subst p. reflexivity.
Qed.
Theorem C139_kept : forall np n2 s o added, wf s -> plain s -> bns np n2 s = Done (o, added) ->
  dkeys o = dkeys s ++ added /\ NoDup (dkeys o) /\
  (forall k v, dget s k = Some v -> ~ overwritten s k -> k <> "lambda_1" -> k <> "lambda_2" -> ~ (eos_given s /\ In k frame_written) -> dget o k = Some v).
Proof using.
  intros np n2 s o added W HP H. destruct (bns_inv np n2 s o added H) as [o0 [a0 [E C]]].
  destruct (C60_kept z_to_dl dl_to_z dc_to_dl np s o0 a0 W E) as [K1 [K2 K3]].
  set (P := fun k => k = "lambda_1" \/ k = "lambda_2" \/ (eos_given s /\ In k frame_written)).
  destruct C as [[X [-> ->]]|[X [-> [p [T C]]]]].
  - assert (N : forall k, In k tidal_keys -> dmem o0 k = false) by (intros k K; destruct (dmem o0 k) eqn:D; [|reflexivity]; rewrite <- X; symmetry; apply existsb_exists; exists k; auto).
    assert (N1 := N "lambda_1" ltac:(cbn; auto)). assert (N2 := N "lambda_2" ltac:(cbn; auto)).
    assert (D : dkeys (dset (dset o0 "lambda_1" (Some 0)) "lambda_2" (Some 0)) = dkeys o0 ++ ["lambda_1"; "lambda_2"]).
    { rewrite dkeys_set, dmem_set_ne, N2 by discriminate. rewrite dkeys_set, N1, <- app_assoc. reflexivity. }
    split; [rewrite D, K1, <- app_assoc; reflexivity|]. split; [apply (wf_set (dset o0 "lambda_1" (Some 0)) "lambda_2" (Some 0)), (wf_set o0 "lambda_1" (Some 0)); exact K2|].
    intros k v G NO Nk1 Nk2 _. rewrite !dget_set_ne by assumption. apply K3; assumption.
  - apply (tilde_facts P) in T as S1; [|left; reflexivity|right; left; reflexivity].
    assert (S2 : step P p o).
    { apply (chain_facts P) in C; [exact C|left; reflexivity|right; left; reflexivity|]. intros [k [K M]] j J. right. right. split; [|exact J]. exists k. split; [exact K|].
      rewrite <- M. unfold dmem. rewrite (tilde_frame s o0 p k T) by (cbn in K; repeat destruct K as [<-|K]; try contradiction; discriminate).
      rewrite (bbh_tidal np s o0 a0 k HP E) by (cbn in *; tauto). reflexivity. }
    pose proof (step_trans P o0 p o S1 S2) as S. destruct S as [[l L] [Wo Ko]].
    assert (WO : wf o) by (apply Wo; exact K2). split; [|split; [exact WO|]].
    + apply frame_app_new; [exact WO|]. exists (a0 ++ l). rewrite L, K1, app_assoc. reflexivity.
    + intros k v G NO Nk1 Nk2 NF. specialize (K3 k v G NO). rewrite Ko; [exact K3|exact (dmem_some _ _ _ K3)|]. intros [Y|[Y|Y]]; auto.
Qed.

(** ** C137 Which tidal parameters are produced *)
Definition determined (s o : sample) : Prop :=
  (forall k, In k tidal_keys -> dmem s k = false) \/ dmem s "lambda_1" = true \/ dmem s "lambda_tilde" = true \/ eos_given s \/
  (dmem s "lambda_symmetric" = true /\ (dmem s "lambda_antisymmetric" = true \/ dmem o "mass_ratio" = true)).
Lemma tilde_mem : forall s o p, tilde_step s o = Ok p ->
  (dmem o "lambda_tilde" = true -> dmem p "lambda_1" = true /\ dmem p "lambda_2" = true) /\ (dmem o "lambda_tilde" = false -> p = o /\ dmem o "delta_lambda_tilde" = false).
Proof using.
  intros s o p H. unfold tilde_step in H.
  assert (S2 : forall x, dmem (set2 o x) "lambda_1" = true /\ dmem (set2 o x) "lambda_2" = true) by (intro x; unfold set2; split; [rewrite dmem_set_ne by discriminate|]; apply dmem_set_eq).
  destruct (dmem o "delta_lambda_tilde") eqn:D.
  - apply bind_inv in H as [lt [L H]]. do 3 (apply bind_inv in H as [? [_ H]]). apply ok_inj in H. subst p. split; [intros _; apply S2|]. intro X. unfold get in L. unfold dmem in X. destruct (dget o "lambda_tilde"); discriminate.
  - destruct (dmem o "lambda_tilde"); [do 3 (apply bind_inv in H as [? [_ H]]); apply ok_inj in H; subst p; split; [intros _; apply S2|discriminate]|].
    apply ok_inj in H. subst p. split; [discriminate|auto].
Qed.
Lemma chain_mem : forall n2 p o, chain n2 p = Done o -> (dmem o "lambda_1" = true /\ dmem o "lambda_2" = true <->
  (dmem p "lambda_1" = true \/ eos_given p \/ (dmem p "lambda_symmetric" = true /\ (dmem p "lambda_antisymmetric" = true \/ dmem o "mass_ratio" = true)))).
Proof using.
  intros n2 p o C. set (P := fun _ : string => True). assert (PT : forall k, P k) by (intro; exact I). unfold chain_step in C.
  assert (MS : of_res (mass_scaled p) = Done o -> (dmem o "lambda_1" = true /\ dmem o "lambda_2" = true) /\ dmem p "lambda_1" = true).
  { intro X. apply of_res_inv, mass_scaled_inv in X as [l [m1 [m2 [G1 [_ [_ ->]]]]]]. rewrite dmem_set_ne, dmem_set_eq by discriminate. rewrite (dmem_some _ _ _ G1). auto. }
  assert (EF : forall k ks f, In k eos_names -> dmem p k = true -> eos ks f p = Done o -> (dmem o "lambda_1" = true /\ dmem o "lambda_2" = true) /\ eos_given p).
  { intros k ks f K D Y. apply (eos_facts P) in Y; auto. destruct Y as [_ Y]. split; [exact Y|]. exists k. auto. }
  destruct (negb (dmem p "lambda_2") && dmem p "lambda_1")%bool eqn:B1; [tauto|].
  destruct (dmem p "lambda_2" && n2)%bool; [tauto|].
  destruct (dmem p "eos_spectral_pca_gamma_0") eqn:M1; [apply (EF "eos_spectral_pca_gamma_0") in C; [tauto|cbn; auto|exact M1]|].
  destruct (dmem p "eos_polytrope_log10_pressure_1") eqn:M2; [apply (EF "eos_polytrope_log10_pressure_1") in C; [tauto|cbn; auto|exact M2]|].
  destruct (dmem p "eos_polytrope_scaled_pressure_ratio") eqn:M3; [apply (EF "eos_polytrope_scaled_pressure_ratio") in C; [tauto|cbn; auto|exact M3]|].
  destruct (dmem p "eos_v1") eqn:M4; [apply (EF "eos_v1") in C; [tauto|cbn; auto|exact M4]|].
  assert (NE : ~ eos_given p) by (intros [k [K D]]; cbn in K; repeat destruct K as [<-|K]; try contradiction; congruence).
  assert (PP : dmem p "lambda_1" = true /\ dmem p "lambda_2" = true <-> dmem p "lambda_1" = true) by (destruct (dmem p "lambda_1"), (dmem p "lambda_2"); cbn in B1; intuition discriminate).
  destruct (dmem p "lambda_symmetric") eqn:LS.
  - apply (symmetric_facts P) in C; auto. destruct C as [_ [C1 [C2 C3]]].
    assert (Q : dmem o "mass_ratio" = dmem p "mass_ratio") by (unfold dmem; rewrite C3 by discriminate; reflexivity). rewrite Q.
    destruct (dmem p "lambda_antisymmetric"); [tauto|]. destruct (dmem p "mass_ratio"); [tauto|]. rewrite (C2 eq_refl eq_refl), PP. intuition discriminate.
  - apply done_inj in C. subst o. rewrite PP. intuition discriminate.
Qed.
Theorem C137_determined : forall np n2 s o added, plain s -> bns np n2 s = Done (o, added) ->
  (dmem o "lambda_1" = true /\ dmem o "lambda_2" = true <-> determined s o).
Proof using.
  intros np n2 s o added HP H. destruct (bns_inv np n2 s o added H) as [o0 [a0 [E C]]].
  assert (M : forall k, In k tidal_names -> dmem o0 k = dmem s k) by (intros k K; exact (bbh_tidal_mem np s o0 a0 k HP E K)).
  unfold determined. destruct C as [[X [-> _]]|[X [_ [p [T C]]]]].
  - split.
    + intros _. left. intros k K. rewrite <- M by (unfold tidal_names; apply in_or_app; left; exact K). destruct (dmem o0 k) eqn:D; [|reflexivity]. rewrite <- X. symmetry. apply existsb_exists. exists k. auto.
    + intros _. split; [rewrite dmem_set_ne by discriminate|]; apply dmem_set_eq.
  - destruct (tilde_mem s o0 p T) as [T1 T2].
    assert (TM : forall k, k <> "lambda_1" -> k <> "lambda_2" -> dmem p k = dmem o0 k) by (intros k N1 N2; unfold dmem; rewrite (tilde_frame s o0 p k T N1 N2); reflexivity).
    assert (NT : ~ (forall k, In k tidal_keys -> dmem s k = false)).
    { intro N. apply existsb_exists in X as [k [K D]]. rewrite M in D by (apply in_or_app; left; exact K). rewrite N in D by exact K. discriminate. }
    assert (EG : eos_given p <-> eos_given s).
    { assert (K' : forall k, In k eos_names -> dmem p k = dmem s k) by (intros k K; rewrite TM, M; [reflexivity|cbn in *; tauto| |]; cbn in K; repeat destruct K as [<-|K]; try contradiction; discriminate).
      split; intros [k [K D]]; exists k; (split; [exact K|]); [rewrite <- K'|rewrite K']; assumption. }
    rewrite (chain_mem _ p o C), EG. rewrite (TM "lambda_symmetric"), (TM "lambda_antisymmetric"), (M "lambda_symmetric"), (M "lambda_antisymmetric") by (discriminate || (cbn; tauto)).
    assert (L : dmem p "lambda_1" = true <-> dmem s "lambda_1" = true \/ dmem s "lambda_tilde" = true).
    { rewrite <- (M "lambda_tilde"), <- (M "lambda_1") by (cbn; tauto). destruct (dmem o0 "lambda_tilde") eqn:LT; [destruct (T1 eq_refl); tauto|]. destruct (T2 eq_refl) as [-> _]. intuition discriminate. }
    rewrite L. tauto.
Qed.
(** three ways to miss a parameter *)
Theorem C137_lambda_2_alone_refuted : forall np n2 s o added, plain s -> dmem s "lambda_2" = true -> (forall k, In k (tidal_names) -> k <> "lambda_2" -> dmem s k = false) ->
  bns np n2 s = Done (o, added) -> dget o "lambda_1" = None.
Proof using.
  intros np n2 s o added HP H2 N H. destruct (dget o "lambda_1") eqn:G; [|reflexivity]. exfalso.
  assert (K : dmem o "lambda_2" = true).
  { destruct (bns_inv np n2 s o added H) as [o0 [a0 [E C]]]. pose proof (bbh_tidal_mem np s o0 a0 "lambda_2" HP E ltac:(cbn; tauto)) as M2. rewrite H2 in M2.
    destruct C as [[X _]|[_ [_ [p [T C]]]]]; [exfalso; assert (Y : existsb (dmem o0) tidal_keys = true) by (apply existsb_exists; exists "lambda_2"; cbn; tauto); congruence|].
    assert (Y : dmem p "lambda_2" = true) by (apply (step_mem (fun _ => True) o0); [apply (tilde_facts (fun _ => True) s o0 p I I T)|exact M2]).
    apply (step_mem (fun _ => True) p); [apply (chain_facts (fun _ => True) _ p o I I) in C; [exact C|intros; exact I]|exact Y]. }
  assert (D : determined s o) by (apply (C137_determined np n2 s o added HP H); split; [exact (dmem_some _ _ _ G)|exact K]).
  destruct D as [D|[D|[D|[[k [Ke D]]|[D _]]]]].
  - rewrite D in H2 by (cbn; auto). discriminate.
  - rewrite N in D by (discriminate || (cbn; tauto)). discriminate.
  - rewrite N in D by (discriminate || (cbn; tauto)). discriminate.
  - rewrite N in D; [discriminate|cbn in *; tauto|cbn in Ke; repeat destruct Ke as [<-|Ke]; try contradiction; discriminate].
  - rewrite N in D by (discriminate || (cbn; tauto)). discriminate.
Qed.
Theorem C137_symmetric_refuted : forall np n2 s o added, plain s -> dmem s "lambda_symmetric" = true -> (forall k, In k (tidal_names) -> k <> "lambda_symmetric" -> dmem s k = false) ->
  dmem o "mass_ratio" = false -> bns np n2 s = Done (o, added) -> dget o "lambda_1" = None /\ dget o "lambda_2" = None.
Proof using.
  intros np n2 s o added HP H2 N Q H. destruct (bns_inv np n2 s o added H) as [o0 [a0 [E C]]].
  assert (M : forall k, In k tidal_names -> dmem o0 k = dmem s k) by (intros k K; exact (bbh_tidal_mem np s o0 a0 k HP E K)).
  assert (Z : forall k, In k tidal_names -> k <> "lambda_symmetric" -> dmem o0 k = false) by (intros k K K'; rewrite M, N by assumption; reflexivity).
  destruct C as [[X _]|[_ [_ [p [T C]]]]]; [exfalso; assert (Y : existsb (dmem o0) tidal_keys = true) by (apply existsb_exists; exists "lambda_symmetric"; rewrite M by (cbn; tauto); cbn; tauto); congruence|].
  destruct (tilde_mem s o0 p T) as [_ T2]. destruct (T2 (Z "lambda_tilde" ltac:(cbn; tauto) ltac:(discriminate))) as [-> _].
  unfold chain_step in C. rewrite (Z "lambda_1"), (Z "lambda_2") in C by (discriminate || (cbn; tauto)). cbn [negb andb] in C.
  rewrite (Z "eos_spectral_pca_gamma_0"), (Z "eos_polytrope_log10_pressure_1"), (Z "eos_polytrope_scaled_pressure_ratio"), (Z "eos_v1"), (M "lambda_symmetric"), H2 in C by (discriminate || (cbn; tauto)).
  destruct (symmetric_facts (fun _ => True) o0 o I I C) as [_ [C1 [C2 C3]]].
  assert (Q' : dmem o0 "mass_ratio" = false) by (unfold dmem in Q |- *; rewrite C3 in Q by discriminate; exact Q).
  assert (O : o = o0) by (apply C2; [apply Z; [cbn; tauto|discriminate]|exact Q']). subst o.
  assert (ND : forall k, dmem o0 k = false -> dget o0 k = None) by (intros k; unfold dmem; destruct (dget o0 k); [discriminate|reflexivity]).
  split; apply ND, Z; (discriminate || (cbn; tauto)).
Qed.
(** a scalar symmetric tidal parameter with a mass ratio, without the uniform variable *)
Theorem C137_scalar_love_refuted : forall np n2 s, plain s -> dmem s "lambda_symmetric" = true -> (forall k, In k (tidal_names) -> k <> "lambda_symmetric" -> dmem s k = false) ->
  dmem s "mass_ratio" = true -> bns np n2 s = TypeError \/ bns np n2 s = KeyError.
Proof using.
  intros np n2 s HP H2 N Q. unfold convert_to_lal_bns. destruct (convert np s) as [[o0 a0]|] eqn:E; [|right; reflexivity]. left. cbn [of_res bindt].
  assert (M : forall k, In k tidal_names -> dmem o0 k = dmem s k) by (intros k K; exact (bbh_tidal_mem np s o0 a0 k HP E K)).
  assert (Z : forall k, In k tidal_names -> k <> "lambda_symmetric" -> dmem o0 k = false) by (intros k K K'; rewrite M, N by assumption; reflexivity).
  assert (Y : existsb (dmem o0) tidal_keys = true) by (apply existsb_exists; exists "lambda_symmetric"; rewrite M by (cbn; tauto); cbn; tauto). rewrite Y. cbn [negb].
  unfold tilde_step. rewrite (Z "delta_lambda_tilde"), (Z "lambda_tilde") by (discriminate || (cbn; tauto)). cbn [of_res bindt].
  unfold chain_step. rewrite (Z "lambda_1"), (Z "lambda_2") by (discriminate || (cbn; tauto)). cbn [negb andb].
  rewrite (Z "eos_spectral_pca_gamma_0"), (Z "eos_polytrope_log10_pressure_1"), (Z "eos_polytrope_scaled_pressure_ratio"), (Z "eos_v1"), (M "lambda_symmetric"), H2 by (discriminate || (cbn; tauto)).
  unfold symmetric_step. rewrite (Z "lambda_antisymmetric"), (Z "binary_love_uniform") by (discriminate || (cbn; tauto)).
  assert (QQ : dmem o0 "mass_ratio" = true).
  { destruct (dget s "mass_ratio") as [v|] eqn:G; [|unfold dmem in Q; rewrite G in Q; discriminate].
    destruct (convert_inv z_to_dl dl_to_z dc_to_dl np s o0 a0 E) as [o1 [o2 [o3 [o4 [o5 [o7 [E1 [E2 [E3 [E4 [E5 [E7 [E8 E9]]]]]]]]]]]]].
    destruct (first_facts z_to_dl dl_to_z dc_to_dl (fun _ => True) s o1 o2 o3 (fun _ _ => I) E1 E2 E3) as [S3 _].
    apply (step_mem _ _ _ "mass_ratio") in S3; [|exact Q]. unfold dmem. rewrite (late_facts np s o3 o4 o5 o7 o0 E4 E5 E7 E8) by fr. exact S3. }
  rewrite QQ. reflexivity.
Qed.
Theorem C137_delta_alone : forall np n2 s, plain s -> dmem s "delta_lambda_tilde" = true -> dmem s "lambda_tilde" = false -> bns np n2 s = KeyError.
Proof using.
  intros np n2 s HP H1 H2. unfold convert_to_lal_bns. destruct (convert np s) as [[o0 a0]|] eqn:E; [|reflexivity]. cbn [of_res bindt].
  assert (M : forall k, In k tidal_names -> dmem o0 k = dmem s k) by (intros k K; exact (bbh_tidal_mem np s o0 a0 k HP E K)).
  assert (Y : existsb (dmem o0) tidal_keys = true) by (apply existsb_exists; exists "delta_lambda_tilde"; rewrite M by (cbn; tauto); cbn; tauto). rewrite Y. cbn [negb].
  unfold tilde_step. rewrite (M "delta_lambda_tilde"), H1 by (cbn; tauto). pose proof (M "lambda_tilde" ltac:(cbn; tauto)) as L. rewrite H2 in L. unfold dmem in L. unfold get. destruct (dget o0 "lambda_tilde"); [discriminate|]. reflexivity.
Qed.

(** ** C138 The values *)
(** which of the names of the last branches are given *)
Definition last_names := eos_names ++ ["lambda_symmetric"].
Lemma chain_both : forall n2 p, (forall k, In k last_names -> dmem p k = false) -> dmem p "lambda_1" = true -> dmem p "lambda_2" = true -> n2 = false -> chain n2 p = Done p.
Proof using.
  intros n2 p N L1 L2 ->. unfold chain_step. rewrite L1, L2. cbn [negb andb].
  rewrite (N "eos_spectral_pca_gamma_0"), (N "eos_polytrope_log10_pressure_1"), (N "eos_polytrope_scaled_pressure_ratio"), (N "eos_v1"), (N "lambda_symmetric") by (cbn; tauto). reflexivity.
Qed.
Lemma get_all_tidal : forall np s o a, plain s -> convert np s = Ok (o, a) -> existsb (dmem s) tidal_keys = existsb (dmem o) tidal_keys.
Proof using.
  intros np s o a HP E. assert (M : forall k, In k tidal_names -> dmem o k = dmem s k) by (intros k K; exact (bbh_tidal_mem np s o a k HP E K)).
  cbn [existsb tidal_keys]. rewrite !M by (cbn; tauto). reflexivity.
Qed.
Lemma some_tidal : forall (s : sample) k, In k tidal_keys -> dmem s k = true -> existsb (dmem s) tidal_keys = true.
Proof using. intros s k K D. apply existsb_exists. exists k. auto. Qed.
Theorem C138_none : forall np n2 s o added, plain s -> (forall k, In k tidal_keys -> dmem s k = false) -> bns np n2 s = Done (o, added) ->
  dget o "lambda_1" = Some (Some 0) /\ dget o "lambda_2" = Some (Some 0).
Proof using.
  intros np n2 s o added HP N H. destruct (bns_inv np n2 s o added H) as [o0 [a0 [E C]]].
  assert (X : existsb (dmem o0) tidal_keys = false).
  { rewrite <- (get_all_tidal np s o0 a0 HP E). destruct (existsb (dmem s) tidal_keys) eqn:Y; [|reflexivity]. apply existsb_exists in Y as [k [K D]]. rewrite N in D by exact K. discriminate. }
  destruct C as [[_ [-> _]]|[X' _]]; [|congruence]. split; [rewrite dget_set_ne by discriminate|]; apply dget_set_eq.
Qed.
(** both given and nothing else: they are kept *)
Theorem C138_both : forall np s o added v1 v2, plain s -> dget s "lambda_1" = Some v1 -> dget s "lambda_2" = Some v2 -> dmem s "lambda_tilde" = false ->
  (forall k, In k last_names -> dmem s k = false) -> bns np false s = Done (o, added) -> dget o "lambda_1" = Some v1 /\ dget o "lambda_2" = Some v2.
Proof using.
  intros np s o added v1 v2 HP G1 G2 LT N H. destruct (bns_inv np false s o added H) as [o0 [a0 [E C]]].
  assert (G : forall k, In k tidal_names -> dget o0 k = dget s k) by (intros k K; exact (bbh_tidal np s o0 a0 k HP E K)).
  assert (M : forall k, In k tidal_names -> dmem o0 k = dmem s k) by (intros k K; exact (bbh_tidal_mem np s o0 a0 k HP E K)).
  destruct C as [[X _]|[_ [_ [p [T C]]]]]; [rewrite <- (get_all_tidal np s o0 a0 HP E), (some_tidal s "lambda_1") in X; [discriminate|cbn; auto|exact (dmem_some _ _ _ G1)]|].
  destruct (tilde_mem s o0 p T) as [_ T2]. destruct T2 as [-> _]; [rewrite M by (cbn; tauto); exact LT|].
  rewrite chain_both in C; [apply done_inj in C; subst o; rewrite !G by (cbn; tauto); auto| | | |reflexivity].
  - intros k K. rewrite M; [apply N, K|cbn in *; tauto].
  - rewrite M by (cbn; tauto). exact (dmem_some _ _ _ G1).
  - rewrite M by (cbn; tauto). exact (dmem_some _ _ _ G2).
Qed.
(** the first alone (or with None for the second): kept, and the second follows from equal lambda m^5, whatever else is given *)
Theorem C138_lambda_1_alone : forall np n2 s o added l m1 m2, plain s -> dget s "lambda_1" = Some (Some l) -> (dmem s "lambda_2" = false \/ n2 = true) -> dmem s "lambda_tilde" = false ->
  bns np n2 s = Done (o, added) -> dget o "mass_1" = Some (Some m1) -> dget o "mass_2" = Some (Some m2) -> m2 <> 0 ->
  exists l2, dget o "lambda_1" = Some (Some l) /\ dget o "lambda_2" = Some (Some l2) /\ l * m1 ^ 5 = l2 * m2 ^ 5.
Proof using.
  intros np n2 s o added l m1 m2 HP G1 D LT H Gm1 Gm2 NZ. destruct (bns_inv np n2 s o added H) as [o0 [a0 [E C]]].
  assert (M : forall k, In k tidal_names -> dmem o0 k = dmem s k) by (intros k K; exact (bbh_tidal_mem np s o0 a0 k HP E K)).
  destruct C as [[X _]|[_ [_ [p [T C]]]]]; [rewrite <- (get_all_tidal np s o0 a0 HP E), (some_tidal s "lambda_1") in X; [discriminate|cbn; auto|exact (dmem_some _ _ _ G1)]|].
  destruct (tilde_mem s o0 p T) as [_ T2]. destruct T2 as [-> _]; [rewrite M by (cbn; tauto); exact LT|].
  assert (C' : of_res (mass_scaled o0) = Done o).
  { unfold chain_step in C. rewrite !(M "lambda_2"), (M "lambda_1"), (M "lambda_tilde"), LT, (dmem_some _ _ _ G1) in C by (cbn; tauto). destruct (dmem s "lambda_2"); cbn [negb andb] in C; [|exact C]. destruct D as [D| ->]; [discriminate|exact C]. }
  apply of_res_inv, mass_scaled_inv in C' as [l' [x1 [x2 [Q1 [Q2 [Q3 ->]]]]]]. rewrite dget_set_ne in Gm1, Gm2 by discriminate. rewrite Q2 in Gm1. rewrite Q3 in Gm2. injection Gm1 as ->. injection Gm2 as ->.
  rewrite (bbh_tidal np s o0 a0 "lambda_1" HP E) in Q1 by (cbn; tauto). rewrite G1 in Q1. injection Q1 as <-.
  rewrite dget_set_ne by discriminate. rewrite (bbh_tidal np s o0 a0 "lambda_1" HP E) by (cbn; tauto). rewrite dget_set_eq. unfold lift3. cbn [bindo]. assert (N5 : m2 ^ 5 <> 0) by (apply pow_nonzero; exact NZ).
  rewrite pdiv_some by exact N5. exists (l * m1 ^ 5 / m2 ^ 5). repeat split; [exact G1|]. field. exact NZ.
Qed.
(** the two tilde parameters come back from generate_tidal_parameters *)
Definition back (o : sample) (k : string) (x : R) : Prop := exists o', generate_tidal_parameters o = Ok o' /\ dget o' k = Some (Some x).
Lemma tilde_run : forall np n2 s o added, plain s -> dmem s "lambda_tilde" = true -> (forall k, In k last_names -> dmem s k = false) -> bns np n2 s = Done (o, added) ->
  exists o0 a0, convert np s = Ok (o0, a0) /\ tilde_step s o0 = Ok o.
Proof using.
  intros np n2 s o added HP LT N H. destruct (bns_inv np n2 s o added H) as [o0 [a0 [E C]]]. exists o0, a0. split; [exact E|].
  assert (M : forall k, In k tidal_names -> dmem o0 k = dmem s k) by (intros k K; exact (bbh_tidal_mem np s o0 a0 k HP E K)).
  destruct C as [[X _]|[_ [_ [p [T C]]]]]; [rewrite <- (get_all_tidal np s o0 a0 HP E), (some_tidal s "lambda_tilde") in X; [discriminate|cbn; auto|exact LT]|].
  destruct (tilde_mem s o0 p T) as [T1 _]. destruct T1 as [L1 L2]; [rewrite M by (cbn; tauto); exact LT|].
  rewrite chain_both in C; [apply done_inj in C; subst p; exact T| |exact L1|exact L2|].
  - intros k K. unfold dmem. rewrite (tilde_frame s o0 p k T) by (cbn in K; repeat destruct K as [<-|K]; try contradiction; discriminate). fold (dmem o0 k). rewrite M; [apply N, K|cbn in *; tauto].
  - rewrite M, LT by (cbn; tauto). destruct n2; reflexivity.
Qed.
Theorem C138_tilde_pair : forall np n2 s o added a b m1 m2 eta, plain s -> dget s "lambda_tilde" = Some (Some a) -> dget s "delta_lambda_tilde" = Some (Some b) ->
  (forall k, In k last_names -> dmem s k = false) -> bns np n2 s = Done (o, added) -> dget o "mass_1" = Some (Some m1) -> dget o "mass_2" = Some (Some m2) ->
  0 < m1 -> 0 < m2 -> is_sym_ratio eta m1 m2 -> eta <> 4823 / 249158 -> back o "lambda_tilde" a /\ back o "delta_lambda_tilde" b.
Proof using.
  intros np n2 s o added a b m1 m2 eta HP Ga Gb N H G1 G2 P1 P2 HE NE. destruct (tilde_run np n2 s o added HP (dmem_some _ _ _ Ga) N H) as [o0 [a0 [E T]]].
  assert (G : forall k, In k tidal_names -> dget o0 k = dget s k) by (intros k K; exact (bbh_tidal np s o0 a0 k HP E K)).
  rewrite (tilde_frame s o0 o "mass_1" T) in G1 by discriminate. rewrite (tilde_frame s o0 o "mass_2" T) in G2 by discriminate.
  unfold tilde_step in T. unfold dmem in T. rewrite G, Gb in T by (cbn; tauto). unfold get in T. rewrite G, Ga, Gb, G1, G2 in T by (cbn; tauto). cbn [bindr] in T. apply ok_inj in T. subst o.
  unfold lift4. cbn [bindo]. destruct (proj2 (C36_tides_inverse_defined_iff a b m1 m2 eta P1 P2 HE) NE) as [[l1 l2] R]. rewrite R.
  destruct (C36_tides_roundtrip_back a b m1 m2 (l1, l2) P1 P2 R) as [B1 B2]. cbn [fst snd] in *.
  unfold back, generate_tidal_parameters, set2. cbn [option_map fst snd]. rewrite get_set_ne, get_set_eq by discriminate. cbn [bindr]. rewrite get_set_eq. cbn [bindr]. rewrite !get_set_ne by discriminate.
  rewrite (get_some _ _ _ G1), (get_some _ _ _ G2). cbn [bindr]. unfold lift4. cbn [bindo]. rewrite B1, B2. split; eexists; (split; [reflexivity|]); [rewrite dget_set_ne by discriminate|]; apply dget_set_eq.
Qed.
Theorem C138_tilde_alone : forall np n2 s o added a m1 m2, plain s -> dget s "lambda_tilde" = Some (Some a) -> dmem s "delta_lambda_tilde" = false ->
  (forall k, In k last_names -> dmem s k = false) -> bns np n2 s = Done (o, added) -> dget o "mass_1" = Some (Some m1) -> dget o "mass_2" = Some (Some m2) ->
  0 < m1 -> 0 < m2 -> back o "lambda_tilde" a /\ exists l1 l2, dget o "lambda_1" = Some (Some l1) /\ dget o "lambda_2" = Some (Some l2) /\ l1 * m1 ^ 5 = l2 * m2 ^ 5.
Proof using.
  intros np n2 s o added a m1 m2 HP Ga Gb N H G1 G2 P1 P2. destruct (tilde_run np n2 s o added HP (dmem_some _ _ _ Ga) N H) as [o0 [a0 [E T]]].
  assert (G : forall k, In k tidal_names -> dget o0 k = dget s k) by (intros k K; exact (bbh_tidal np s o0 a0 k HP E K)).
  rewrite (tilde_frame s o0 o "mass_1" T) in G1 by discriminate. rewrite (tilde_frame s o0 o "mass_2" T) in G2 by discriminate.
  unfold tilde_step in T. rewrite (bbh_tidal_mem np s o0 a0 "delta_lambda_tilde" HP E), Gb in T by (cbn; tauto). unfold dmem in T. rewrite G, Ga in T by (cbn; tauto). unfold get in T. rewrite G, Ga, G1, G2 in T by (cbn; tauto). cbn [bindr] in T. apply ok_inj in T. subst o.
  unfold lift3. cbn [bindo]. destruct (C36_common_eos a m1 m2 P1 P2) as [l1 [l2 [R [M5 B1]]]]. rewrite R. unfold set2. cbn [option_map fst snd]. split.
  - unfold back, generate_tidal_parameters. rewrite get_set_ne, get_set_eq by discriminate. cbn [bindr]. rewrite get_set_eq. cbn [bindr]. rewrite !get_set_ne by discriminate.
    rewrite (get_some _ _ _ G1), (get_some _ _ _ G2). cbn [bindr]. unfold lift4. cbn [bindo]. rewrite B1. eexists. split; [reflexivity|]. rewrite dget_set_ne by discriminate. apply dget_set_eq.
  - exists l1, l2. rewrite dget_set_ne by discriminate. rewrite !dget_set_eq. auto.
Qed.
(** symmetric and antisymmetric parameters: half sum and half difference, and they win over given component values *)
Theorem C138_symmetric : forall np s o added a b, plain s -> dget s "lambda_symmetric" = Some (Some a) -> dget s "lambda_antisymmetric" = Some (Some b) -> dmem s "lambda_tilde" = false ->
  (dmem s "lambda_1" = false \/ dmem s "lambda_2" = true) -> (forall k, In k eos_names -> dmem s k = false) -> bns np false s = Done (o, added) ->
  exists l1 l2, dget o "lambda_1" = Some (Some l1) /\ dget o "lambda_2" = Some (Some l2) /\ (l1 + l2) / 2 = a /\ (l2 - l1) / 2 = b.
Proof using.
  intros np s o added a b HP Ga Gb LT D N H. destruct (bns_inv np false s o added H) as [o0 [a0 [E C]]].
  assert (G : forall k, In k tidal_names -> dget o0 k = dget s k) by (intros k K; exact (bbh_tidal np s o0 a0 k HP E K)).
  assert (M : forall k, In k tidal_names -> dmem o0 k = dmem s k) by (intros k K; exact (bbh_tidal_mem np s o0 a0 k HP E K)).
  destruct C as [[X _]|[_ [_ [p [T C]]]]]; [rewrite <- (get_all_tidal np s o0 a0 HP E), (some_tidal s "lambda_symmetric") in X; [discriminate|cbn; tauto|exact (dmem_some _ _ _ Ga)]|].
  destruct (tilde_mem s o0 p T) as [_ T2]. destruct T2 as [-> _]; [rewrite M by (cbn; tauto); exact LT|].
  unfold chain_step in C. assert (B : (negb (dmem o0 "lambda_2") && dmem o0 "lambda_1")%bool = false) by (rewrite !M by (cbn; tauto); destruct D as [->| ->]; [apply andb_false_r|reflexivity]). rewrite B in C. cbn [andb] in C. rewrite andb_false_r in C.
  rewrite (M "eos_spectral_pca_gamma_0"), (M "eos_polytrope_log10_pressure_1"), (M "eos_polytrope_scaled_pressure_ratio"), (M "eos_v1"), (M "lambda_symmetric") in C by (cbn; tauto).
  rewrite (N "eos_spectral_pca_gamma_0"), (N "eos_polytrope_log10_pressure_1"), (N "eos_polytrope_scaled_pressure_ratio"), (N "eos_v1"), (dmem_some _ _ _ Ga) in C by (cbn; tauto).
  unfold symmetric_step in C. rewrite (M "lambda_antisymmetric"), (dmem_some _ _ _ Gb) in C by (cbn; tauto). apply of_res_inv in C. unfold get in C. rewrite !G, Ga, Gb in C by (cbn; tauto). cbn [bindr] in C. apply ok_inj in C. subst o.
  unfold lift2. cbn [bindo]. unfold set2, lambda_symmetric_lambda_antisymmetric_to_lambda_1_lambda_2, lambda_symmetric_lambda_antisymmetric_to_lambda_1, lambda_symmetric_lambda_antisymmetric_to_lambda_2. cbn [option_map fst snd].
  exists (a - b), (a + b). rewrite dget_set_ne by discriminate. rewrite !dget_set_eq. repeat split; field.
Qed.
(** an equation of state wins over given component values too; the values and the flag are those of the row of parameters *)
Definition eos_branch (s : sample) (ks : list string) (f : row) : Prop :=
  let p := dmem s "eos_spectral_pca_gamma_0" in let l := dmem s "eos_polytrope_log10_pressure_1" in let r := dmem s "eos_polytrope_scaled_pressure_ratio" in let v := dmem s "eos_v1" in
  (p = true /\ ks = pca_keys /\ f = pca_f) \/ (p = false /\ l = true /\ ks = poly_keys /\ f = poly_f) \/
  (p = false /\ l = false /\ r = true /\ ks = scaled_keys /\ f = scaled_f) \/ (p = false /\ l = false /\ r = false /\ v = true /\ ks = causal_keys /\ f = causal_f).
Lemma get_all_set : forall {V} ks (o : dict V) k v, ~ In k ks -> get_all (dset o k v) ks = get_all o ks.
Proof using.
  intros V ks o k v. induction ks as [|a ks IH]; intro N; [reflexivity|]. cbn [get_all]. rewrite dget_set_ne, IH; [reflexivity|intro X; apply N; right; exact X|intros ->; apply N; left; reflexivity].
Qed.
Theorem C138_eos : forall np s o added ks f, plain s -> eos_branch s ks f -> dmem s "lambda_tilde" = false -> (dmem s "lambda_1" = false \/ dmem s "lambda_2" = true) ->
  existsb (dmem s) tidal_keys = true -> bns np false s = Done (o, added) ->
  exists vs, get_all o ks = Some vs /\ dget o "lambda_1" = Some (fst (fst (on_row f vs))) /\ dget o "lambda_2" = Some (snd (fst (on_row f vs))) /\ dget o "eos_check" = Some (snd (on_row f vs)).
Proof using.
  intros np s o added ks f HP B LT D XT H. destruct (bns_inv np false s o added H) as [o0 [a0 [E C]]].
  assert (M : forall k, In k tidal_names -> dmem o0 k = dmem s k) by (intros k K; exact (bbh_tidal_mem np s o0 a0 k HP E K)).
  destruct C as [[X _]|[_ [_ [p [T C]]]]]; [rewrite <- (get_all_tidal np s o0 a0 HP E) in X; congruence|].
  destruct (tilde_mem s o0 p T) as [_ T2]. destruct T2 as [-> _]; [rewrite M by (cbn; tauto); exact LT|].
  unfold chain_step in C. assert (B1 : (negb (dmem o0 "lambda_2") && dmem o0 "lambda_1")%bool = false) by (rewrite !M by (cbn; tauto); destruct D as [->| ->]; [apply andb_false_r|reflexivity]). rewrite B1 in C. cbn [andb] in C. rewrite andb_false_r in C.
  rewrite (M "eos_spectral_pca_gamma_0"), (M "eos_polytrope_log10_pressure_1"), (M "eos_polytrope_scaled_pressure_ratio"), (M "eos_v1") in C by (cbn; tauto).
  assert (C' : eos ks f o0 = Done o /\ ~ In "lambda_1" ks /\ ~ In "lambda_2" ks /\ ~ In "eos_check" ks).
  { destruct B as [[B [-> ->]]|[[B [B2 [-> ->]]]|[[B [B2 [B3 [-> ->]]]]|[B [B2 [B3 [B4 [-> ->]]]]]]]]; rewrite B in C; try rewrite B2 in C; try rewrite B3 in C; try rewrite B4 in C; (split; [exact C|]); cbn; repeat split; intro Y; intuition discriminate. }
  clear C. destruct C' as [C [N1 [N2 N3]]]. unfold eos_step in C. apply bindt_inv in C as [q [_ C]]. destruct (get_all q ks) as [vs|] eqn:GA; [|discriminate]. destruct (on_row f vs) as [[a b] c] eqn:R. apply done_inj in C. subst o.
  exists vs. unfold store3. rewrite !get_all_set by assumption. split; [exact GA|]. rewrite R. cbn [fst snd]. split; [rewrite 2!dget_set_ne by discriminate|split; [rewrite dget_set_ne by discriminate|]]; apply dget_set_eq.
Qed.
(** the antisymmetric parameter alone is ignored *)
Theorem C138_antisymmetric_alone_refuted : forall np n2 s o added b, plain s -> dget s "lambda_antisymmetric" = Some (Some b) -> (forall k, In k tidal_keys -> dmem s k = false) ->
  bns np n2 s = Done (o, added) -> dget o "lambda_1" = Some (Some 0) /\ dget o "lambda_2" = Some (Some 0) /\ dget o "lambda_antisymmetric" = Some (Some b).
Proof using.
  intros np n2 s o added b HP G N H. destruct (C138_none np n2 s o added HP N H) as [A B]. repeat split; try assumption.
  destruct (bns_inv np n2 s o added H) as [o0 [a0 [E C]]].
  destruct C as [[_ [-> _]]|[X _]]; [rewrite !dget_set_ne by discriminate; rewrite (bbh_tidal np s o0 a0 _ HP E) by (cbn; tauto); exact G|].
  rewrite <- (get_all_tidal np s o0 a0 HP E) in X. apply existsb_exists in X as [k [K D]]. rewrite N in D by exact K. discriminate.
Qed.
End Conv.

(** Concrete conversions. *)
Section Examples.
Let zero (_ : R) : option R := Some 0.
Let lin (d : R) : option R := Some (d / 1000).
Let eosf (l : list R) : option (num * num * bool) := Some (Some (hd 0 l), Some 7, true).
Notation bns0 := (convert_to_lal_bns zero lin zero zero eosf eosf eosf eosf zero false).
Example C137_example :
  (exists o a, bns0 false [("mass_1", Some 2); ("mass_2", Some 1); ("lambda_2", Some 400)] = Done (o, a) /\ dget o "lambda_1" = None /\ dget o "lambda_2" = Some (Some 400)) /\
  (exists o a, bns0 false [("mass_1", Some 2); ("mass_2", Some 1); ("lambda_symmetric", Some 400)] = Done (o, a) /\ dget o "lambda_1" = None /\ dget o "lambda_2" = None) /\
  (exists o a, bns0 false [("mass_1", Some 2); ("mass_2", Some 1); ("eos_polytrope_gamma_0", Some 3)] = Done (o, a) /\ dget o "lambda_1" = None /\ dget o "lambda_2" = None) /\
  bns0 false [("mass_1", Some 2); ("mass_ratio", Some (1/2)); ("lambda_symmetric", Some 400)] = TypeError /\
  bns0 false [("mass_1", Some 2); ("mass_2", Some 1); ("delta_lambda_tilde", Some 4)] = KeyError.
Proof using. split; [|split; [|split; [|split]]]; try reflexivity; do 2 eexists; (split; [reflexivity|]); split; reflexivity. Qed.
Example C138_example :
  (exists o a, bns0 false [("mass_1", Some 2); ("mass_2", Some 1); ("lambda_1", Some 400); ("lambda_symmetric", Some 9); ("lambda_antisymmetric", Some 1)] = Done (o, a) /\ dget o "lambda_1" = Some (Some 400) /\ dget o "lambda_2" = Some (Some 12800)) /\
  (exists o a, bns0 false [("mass_1", Some 2); ("mass_2", Some 1); ("lambda_1", Some 400); ("lambda_2", Some 500); ("lambda_symmetric", Some 9); ("lambda_antisymmetric", Some 1)] = Done (o, a) /\
     dget o "lambda_1" = Some (Some (9 - 1)) /\ dget o "lambda_2" = Some (Some (9 + 1))) /\
  (exists o a, bns0 true [("mass_1", Some 2); ("mass_2", Some 1); ("lambda_1", Some 400); ("lambda_2", None)] = Done (o, a) /\ dget o "lambda_2" = Some (Some 12800)).
Proof using.
  assert (E : pdiv (400 * 2 ^ 5) (1 ^ 5) = Some 12800) by (rewrite pdiv_some by lra; f_equal; lra).
  split; [|split].
  - do 2 eexists. split; [reflexivity|]. split; [reflexivity|]. cbn [dget]. exact (f_equal Some E).
  - do 2 eexists. split; [reflexivity|]. split; reflexivity.
  - do 2 eexists. split; [reflexivity|]. exact (f_equal Some E).
Qed.
Example C139_example : exists o, bns0 false [("mass_1", Some 2); ("mass_2", Some 1); ("luminosity_distance", Some 500); ("redshift", Some 9); ("eos_v1", Some 5); ("eos_v2", Some 6); ("eos_v3", Some 7); ("eos_log10_pressure1_cgs", Some 34); ("eos_log10_pressure2_cgs", Some 35)] =
  Done (o, ["phi_jl"; "phi_12"; "comoving_distance"; "mass_1_source"; "mass_2_source"; "lambda_1"; "lambda_2"; "eos_check"]) /\
  dget o "eos_v1" = Some (Some 5) /\ dget o "redshift" = Some (Some (500 / 1000)).
Proof using.
  assert (E1 : pdiv 2 (1 + 500 / 1000) = Some (2 / (1 + 500 / 1000))) by (apply pdiv_some; lra).
  assert (E2 : pdiv 1 (1 + 500 / 1000) = Some (1 / (1 + 500 / 1000))) by (apply pdiv_some; lra).
  eexists. split.
  - match goal with |- ?l = _ => let l' := eval lazy -[pdiv Rplus Rdiv IZR] in l in change l with l' end. rewrite E1, E2. reflexivity.
  - split; reflexivity.
Qed.
End Examples.

(** ** C142 Generating every parameter *)
Section All.
Variables z_to_dl dl_to_z z_to_dc dc_to_dl : R -> option R.
Variables pca_f poly_f scaled_f causal_f : row.
Variable std_ppf : R -> option R.
Variable lal : list R -> R * (R * R * R) * (R * R * R).
Variable sm : R.
Variable np : bool.
Notation bns := (convert_to_lal_bns z_to_dl dl_to_z z_to_dc dc_to_dl pca_f poly_f scaled_f causal_f std_ppf np false).
Notation mass := (generate_mass_parameters false).
Notation spin := (generate_spin_parameters lal sm).
Notation frm := (generate_source_frame_parameters dl_to_z z_to_dc).
Notation cbc := (generate_all_cbc bns mass spin frm).
Notation all := (generate_all_bns bns mass spin frm).

(** the first step: fixed priors win over the waveform defaults, which win over the sample *)
Definition default_names := ["reference_frequency"; "waveform_approximant"; "minimum_frequency"].
Definition defaults (approximant : num) : dict num := [("reference_frequency", Some 50); ("waveform_approximant", approximant); ("minimum_frequency", Some 20)].
Definition start (approximant : num) (args : dict num) (priors : option (dict (option R))) (s : sample) : sample := fill_from_fixed priors (apply_defaults args (defaults approximant) s).
Definition fixed_at (priors : option (dict (option R))) (k : string) : option R := match priors with None => None | Some ps => match dget ps k with Some (Some p) => Some p | _ => None end end.
Lemma apply_defaults_get : forall args ds s k, NoDup (dkeys ds) -> dget (apply_defaults args ds s) k =
  match dget ds k with Some d => Some (match dget args k with Some v => v | None => d end) | None => dget s k end.
Proof.
  intros args ds. induction ds as [|[a d] ds IH]; intros s k W; [reflexivity|]. unfold apply_defaults in *. cbn [fold_left fst snd]. destruct (proj1 (NoDup_cons_iff _ _) W) as [W1 W2]. rewrite IH by exact W2. cbn [dget].
  destruct (String.eqb_spec k a) as [->|E].
  - assert (N : dget ds a = None) by (apply dget_none; exact W1). rewrite N. apply dget_set_eq.
  - destruct (dget ds k); [reflexivity|]. apply dget_set_ne. exact E.
Qed.
Lemma fill_get : forall priors s k, match priors with Some ps => NoDup (dkeys ps) | None => True end -> dget (fill_from_fixed priors s) k =
  match fixed_at priors k with Some p => Some (Some p) | None => dget s k end.
Proof.
  intros [ps|] s k W; [|reflexivity]. unfold fill_from_fixed, fixed_at. revert s. induction ps as [|[a d] ps IH]; intro s; [reflexivity|]. cbn [fold_left fst snd]. destruct (proj1 (NoDup_cons_iff _ _) W) as [W1 W2]. rewrite IH by exact W2. cbn [dget].
  destruct (String.eqb_spec k a) as [->|E].
  - assert (N : dget ps a = None) by (apply dget_none; exact W1). rewrite N. destruct d as [p|]; [apply dget_set_eq|reflexivity].
  - destruct (dget ps k) as [[p|]|]; [reflexivity| |]; destruct d as [p|]; try reflexivity; apply dget_set_ne; exact E.
Qed.
Lemma start_wf : forall ap args priors s, wf s -> wf (start ap args priors s).
Proof.
  intros ap args priors s W. unfold start.
  assert (A : wf (apply_defaults args (defaults ap) s)) by (unfold apply_defaults; cbn [fold_left defaults]; repeat apply wf_set; exact W).
  revert A. generalize (apply_defaults args (defaults ap) s). intros t A. destruct priors as [ps|]; [|exact A]. unfold fill_from_fixed. revert t A. induction ps as [|[a d] ps IH]; intros t A; [exact A|]. cbn [fold_left fst snd]. apply IH. destruct d; [apply wf_set; exact A|exact A].
Qed.
(** what the later steps write *)
Definition spin_written := ["iota"; "spin_1x"; "spin_1y"; "spin_1z"; "spin_2x"; "spin_2y"; "spin_2z"; "phi_1"; "phi_2"; "chi_eff"; "chi_1_in_plane"; "chi_2_in_plane"; "chi_p"; "cos_tilt_1"; "cos_tilt_2"].
Definition later_written := spin_written ++ frame_written ++ ["lambda_tilde"; "delta_lambda_tilde"].
Lemma dsets_frame : forall kv s k, ~ In k (map fst kv) -> dget (dsets s kv) k = dget s k.
Proof.
  induction kv as [|[a v] kv IH]; intros s k N; [reflexivity|]. unfold dsets in *. cbn [fold_left fst snd]. rewrite IH by (intro X; apply N; right; exact X). apply dget_set_ne. intros ->. apply N. left. reflexivity.
Qed.
Lemma component_spins_frame : forall s k, ~ In k spin_written -> dget (generate_component_spins lal sm s) k = dget s k.
Proof.
  intros s k N. unfold generate_component_spins. destruct (forallb (dmem s) spin_conversion_parameters).
  - assert (NN : forall kv, dkeys kv = ["iota"; "spin_1x"; "spin_1y"; "spin_1z"; "spin_2x"; "spin_2y"; "spin_2z"; "phi_1"; "phi_2"] -> dget (dsets s kv) k = dget s k).
    { intros kv E. apply dsets_frame. change (map fst kv) with (dkeys kv). rewrite E. intro X. apply N. unfold spin_written. apply (in_or_app ["iota"; "spin_1x"; "spin_1y"; "spin_1z"; "spin_2x"; "spin_2y"; "spin_2z"; "phi_1"; "phi_2"]). left. exact X. }
    destruct (numbers s spin_conversion_parameters) as [l|]; [|apply NN; reflexivity].
    do 11 (destruct l as [|? l]; [apply NN; reflexivity|]). destruct l as [|? l]; [|apply NN; reflexivity].
    destruct (bilby_to_lalsimulation_spins _ _ _ _ _ _ _ _ _ _ _ _) as [[iota [[x1 y1] z1]] [[x2 y2] z2]]. apply NN. reflexivity.
  - destruct (dget s "chi_1"); [|reflexivity]. destruct (dget s "chi_2"); [|reflexivity]. apply dsets_frame. intro X. apply N. cbn in X. cbn. tauto.
Qed.
Lemma spin_frame : forall s k, ~ In k spin_written -> dget (or_keep spin s) k = dget s k.
Proof.
  intros s k N. unfold or_keep. destruct (spin s) as [o|] eqn:E; [|reflexivity]. destruct (generate_spin_inv lal sm s o E) as [z1 [z2 [q [x1 [y1 [x2 [y2 [_ [_ [_ [_ [_ [_ [_ [_ [_ [_ [_ U]]]]]]]]]]]]]]]]]]. cbv zeta in U.
  rewrite U by (intro X; apply N; cbn in *; tauto). apply component_spins_frame. exact N.
Qed.
Lemma frm_frame : forall s k v, ~ In k frame_written -> dget s k = Some v -> dget (or_keep frm s) k = Some v.
Proof.
  intros s k v N G. unfold or_keep. destruct (frm s) as [o|] eqn:E; [|exact G]. destruct (source_frame_step dl_to_z z_to_dc (fun k => In k frame_written) s o (fun k K => K) E) as [_ [_ K]]. rewrite K; [exact G|exact (dmem_some _ _ _ G)|exact N].
Qed.
Lemma mass_frame : forall s k v, dget s k = Some v -> dget (or_keep mass s) k = Some v.
Proof.
  intros s k v G. unfold or_keep. destruct (mass s) as [o|] eqn:E; [|exact G]. unfold generate_mass_parameters in E. apply bind_inv in E as [o1 [E1 E]].
  destruct (proj2 (C37_outcome false false s) o1 E1) as [X1 _]. apply X1 in G.
  assert (L : forall kk f a b p q, add_missing kk f a b p = Ok q -> dget p k = Some v -> dget q k = Some v).
  { intros kk f a b p q A H. unfold add_missing in A. destruct (dmem p kk) eqn:D; [apply ok_inj in A; subst q; exact H|]. do 2 (apply bind_inv in A as [? [_ A]]). apply ok_inj in A. subst q. rewrite dget_set_ne; [exact H|]. intros ->. rewrite (dmem_some _ _ _ H) in D. discriminate. }
  do 3 (apply bind_inv in E as [? [?A E]]; eapply L in G; [|eassumption]). eapply L in G; [|exact E]. exact G.
Qed.
Lemma tidal_frame : forall s k, k <> "lambda_tilde" -> k <> "delta_lambda_tilde" -> dget (or_keep generate_tidal_parameters s) k = dget s k.
Proof.
  intros s k N1 N2. unfold or_keep. destruct (generate_tidal_parameters s) as [o|] eqn:E; [|reflexivity]. unfold generate_tidal_parameters in E. do 4 (apply bind_inv in E as [? [_ E]]). apply ok_inj in E. subst o. rewrite !dget_set_ne by assumption. reflexivity.
Qed.
Lemma all_inv : forall ap args priors s o, all ap args priors s = Done o -> exists o1 a1, bns (start ap args priors s) = Done (o1, a1) /\
  o = or_keep generate_tidal_parameters (or_keep frm (or_keep spin (or_keep mass o1))).
Proof.
  intros ap args priors s o H. unfold generate_all_bns, generate_all_cbc in H. apply bindt_inv in H as [o2 [E H]]. apply done_inj in H. apply bindt_inv in E as [[o1 a1] [E1 E2]]. apply done_inj in E2. subst. exists o1, a1. split; [exact E1|reflexivity].
Qed.
Lemma later_kept : forall o1 k v, dget o1 k = Some v -> ~ In k later_written -> dget (or_keep generate_tidal_parameters (or_keep frm (or_keep spin (or_keep mass o1)))) k = Some v.
Proof.
  intros o1 k v G N. unfold later_written in N. rewrite tidal_frame by (intros ->; apply N; do 2 (apply in_or_app; right); cbn; auto).
  apply frm_frame; [intro X; apply N, in_or_app; right; apply in_or_app; left; exact X|]. rewrite spin_frame by (intro X; apply N, in_or_app; left; exact X). apply mass_frame, G.
Qed.
(** a fixed prior, the waveform argument and the default win over the value in the sample; every other given value is kept *)
Theorem C142_values : forall ap args priors s o k v, wf s -> match priors with Some ps => NoDup (dkeys ps) | None => True end -> plain (start ap args priors s) ->
  all ap args priors s = Done o -> ~ overwritten (start ap args priors s) k -> ~ In k (["lambda_1"; "lambda_2"] ++ later_written) ->
  (match fixed_at priors k with
   | Some p => Some (Some p)
   | None => match dget (defaults ap) k with Some d => Some (match dget args k with Some x => x | None => d end) | None => dget s k end
   end = Some v) -> dget o k = Some v.
Proof.
  intros ap args priors s o k v W WP HP H NO N V. destruct (all_inv ap args priors s o H) as [o1 [a1 [E ->]]].
  assert (G : dget (start ap args priors s) k = Some v).
  { unfold start. rewrite fill_get by exact WP. rewrite apply_defaults_get by (cbn; repeat constructor; cbn; intuition discriminate). exact V. }
  destruct (C139_kept z_to_dl dl_to_z z_to_dc dc_to_dl pca_f poly_f scaled_f causal_f std_ppf np false _ o1 a1 (start_wf ap args priors s W) HP E) as [_ [_ K]].
  apply later_kept; [|intro X; apply N, in_or_app; right; exact X]. apply K; [exact G|exact NO| | |].
  - intros ->. apply N. cbn. auto.
  - intros ->. apply N. cbn. auto.
  - intros [_ X]. apply N, in_or_app. right. unfold later_written. apply in_or_app. right. apply in_or_app. left. exact X.
Qed.
Lemma start_plain : forall ap s, plain s -> plain (start ap [] None s).
Proof.
  intros ap s HP b B. apply HP. unfold source_key, dmem in *. unfold start, fill_from_fixed in B. rewrite apply_defaults_get in B by (cbn; repeat constructor; cbn; intuition discriminate).
  destruct (dget (defaults ap) (b ++ "_source")) eqn:D; [|exact B]. exfalso. apply dget_some_in in D. cbn in D.
  assert (Y : strip_source (b ++ "_source") = Some b) by (apply strip_spec; reflexivity). destruct D as [D|[D|[D|[]]]]; injection D as D _; rewrite <- D in Y; discriminate.
Qed.
(** the frequency the sample was analysed with is lost *)
Theorem C142_reference_frequency_refuted : forall ap s o f, wf s -> plain s -> dget s "reference_frequency" = Some (Some f) -> all ap [] None s = Done o ->
  dget o "reference_frequency" = Some (Some 50).
Proof.
  intros ap s o f W HP _ H. apply (C142_values ap [] None s o "reference_frequency" (Some 50) W I (start_plain ap s HP) H).
  - intro X. pose proof (start_plain ap s HP) as PL. destruct X as [X|[[i [Hi [_ [X|[X _]]]]]|[[X _]|[[i [Hi [X _]]]|[X _]]]]].
    + apply (PL "reference_frequency") in X. cbn in X. intuition discriminate.
    + cbn in Hi. destruct Hi as [<-|[<-|[]]]; discriminate.
    + cbn in Hi. destruct Hi as [<-|[<-|[]]]; discriminate.
    + cbn in X. intuition discriminate.
    + cbn in Hi. destruct Hi as [<-|[<-|[]]]; discriminate.
    + discriminate.
  - cbn. intuition discriminate.
  - reflexivity.
Qed.
(** the tilde parameters that were given are in the result *)
Theorem C142_tilde : forall ap s o a b m1 m2 eta, plain s -> dget s "lambda_tilde" = Some (Some a) -> dget s "delta_lambda_tilde" = Some (Some b) ->
  (forall k, In k last_names -> dmem s k = false) -> all ap [] None s = Done o -> dget o "mass_1" = Some (Some m1) -> dget o "mass_2" = Some (Some m2) ->
  0 < m1 -> 0 < m2 -> is_sym_ratio eta m1 m2 -> eta <> 4823 / 249158 -> dget o "lambda_tilde" = Some (Some a) /\ dget o "delta_lambda_tilde" = Some (Some b).
Proof.
  intros ap s o a b m1 m2 eta HP Ga Gb N H G1 G2 P1 P2 HE NE. destruct (all_inv ap [] None s o H) as [o1 [a1 [E O]]].
  assert (S : forall k, ~ In k default_names -> dget (start ap [] None s) k = dget s k).
  { intros k K. unfold start, fill_from_fixed. rewrite apply_defaults_get by (cbn; repeat constructor; cbn; intuition discriminate). destruct (dget (defaults ap) k) eqn:D; [|reflexivity]. exfalso. apply dget_some_in in D. apply K. cbn in *. destruct D as [D|[D|[D|[]]]]; injection D as D _; subst; auto. }
  assert (LT : dmem (start ap [] None s) "lambda_tilde" = true) by (unfold dmem; rewrite S, Ga by (cbn; intuition discriminate); reflexivity).
  assert (NL : forall k, In k last_names -> dmem (start ap [] None s) k = false).
  { intros k K. unfold dmem. rewrite S; [fold (dmem s k); apply N, K|]. cbn in K. repeat destruct K as [<-|K]; try contradiction; cbn; intuition discriminate. }
  destruct (tilde_run z_to_dl dl_to_z z_to_dc dc_to_dl pca_f poly_f scaled_f causal_f std_ppf np false _ o1 a1 (start_plain ap s HP) LT NL E) as [o0 [a0 [E0 T]]].
  assert (M1 : dget o1 "mass_1" <> None /\ dget o1 "mass_2" <> None).
  { rewrite !(tilde_frame _ o0 o1 _ T) by discriminate. unfold tilde_step in T. rewrite (bbh_tidal_mem z_to_dl dl_to_z dc_to_dl np _ o0 a0 "delta_lambda_tilde" (start_plain ap s HP) E0) in T by (cbn; tauto).
    unfold dmem in T. rewrite S, Gb in T by (cbn; intuition discriminate). do 2 (apply bind_inv in T as [? [_ T]]). apply bind_inv in T as [xm [X1 T]]. apply bind_inv in T as [ym [X2 _]]. unfold get in X1, X2. split; intro Z; rewrite Z in *; discriminate. }
  destruct M1 as [M1 M2]. destruct (dget o1 "mass_1") as [v1|] eqn:V1; [|contradiction]. destruct (dget o1 "mass_2") as [v2|] eqn:V2; [|contradiction].
  assert (v1 = Some m1) as ->. { rewrite O in G1. rewrite (later_kept o1 "mass_1" v1 V1) in G1 by (cbn; intuition discriminate). congruence. }
  assert (v2 = Some m2) as ->. { rewrite O in G2. rewrite (later_kept o1 "mass_2" v2 V2) in G2 by (cbn; intuition discriminate). congruence. }
  destruct (C138_tilde_pair z_to_dl dl_to_z z_to_dc dc_to_dl pca_f poly_f scaled_f causal_f std_ppf np false _ o1 a1 a b m1 m2 eta (start_plain ap s HP)) as [[x [X1 X2]] [y [Y1 Y2]]]; try assumption.
  { rewrite S by (cbn; intuition discriminate). exact Ga. }
  { rewrite S by (cbn; intuition discriminate). exact Gb. }
  rewrite X1 in Y1. apply ok_inj in Y1. subst y.
  set (o3 := or_keep frm (or_keep spin (or_keep mass o1))) in *.
  assert (K : forall k v, In k ["lambda_1"; "lambda_2"; "mass_1"; "mass_2"] -> dget o1 k = Some v -> dget o3 k = Some v).
  { intros k v K G. unfold o3. apply frm_frame; [cbn in K; repeat destruct K as [<-|K]; try contradiction; cbn; intuition discriminate|]. rewrite spin_frame by (cbn in K; repeat destruct K as [<-|K]; try contradiction; cbn; intuition discriminate). apply mass_frame, G. }
  unfold generate_tidal_parameters in X1. unfold get in X1 at 1 2. destruct (dget o1 "lambda_1") as [l1|] eqn:L1; [|discriminate]. destruct (dget o1 "lambda_2") as [l2|] eqn:L2; [|discriminate]. cbn [bindr] in X1.
  rewrite (get_some _ _ _ V1), (get_some _ _ _ V2) in X1. cbn [bindr] in X1. apply ok_inj in X1.
  assert (F : generate_tidal_parameters o3 = Ok (dset (dset o3 "lambda_tilde" (lift4 lambda_1_lambda_2_to_lambda_tilde l1 l2 (Some m1) (Some m2))) "delta_lambda_tilde" (lift4 lambda_1_lambda_2_to_delta_lambda_tilde l1 l2 (Some m1) (Some m2)))).
  { unfold generate_tidal_parameters. rewrite (get_some _ _ _ (K "lambda_1" l1 ltac:(cbn; auto) L1)), (get_some _ _ _ (K "lambda_2" l2 ltac:(cbn; auto) L2)), (get_some _ _ _ (K "mass_1" (Some m1) ltac:(cbn; auto) V1)), (get_some _ _ _ (K "mass_2" (Some m2) ltac:(cbn; auto) V2)). reflexivity. }
  rewrite O. unfold or_keep at 1 2. rewrite F. subst x. rewrite dget_set_ne, dget_set_eq in X2 by discriminate. rewrite dget_set_eq in Y2. rewrite dget_set_ne, !dget_set_eq by discriminate. auto.
Qed.
(** asking for some parameters *)
Theorem C142_specific : forall ap ks s full, all ap [] None s = Done full ->
  match generate_specific bns mass spin frm ap ks s with
  | Done o => (forall k, In k ks -> dget o k = dget full k /\ dmem o k = true) /\ (forall k, ~ In k ks -> dmem o k = false) /\ NoDup (dkeys o)
  | KeyError => exists k, In k ks /\ dget full k = None
  | TypeError => False
  end.
Proof.
  intros ap ks s full H. unfold generate_specific. rewrite H. cbn [bindt]. unfold select_keys.
  set (g := fun r k => run o := r in match dget full k with Some v => Done (dset o k v) | None => KeyError end).
  assert (ER : forall l, fold_left g l KeyError = KeyError) by (induction l as [|k l IH]; [reflexivity|exact IH]).
  assert (L : forall l (o0 : sample), NoDup (dkeys o0) -> (forall k, dmem o0 k = true -> dget o0 k = dget full k) ->
    match fold_left g l (Done o0) with
    | Done o => (forall k, In k l -> dget o k = dget full k /\ dmem o k = true) /\ (forall k, dmem o0 k = true -> dmem o k = true) /\ (forall k, ~ In k l -> dmem o k = dmem o0 k) /\ NoDup (dkeys o) /\ (forall k, dmem o k = true -> dget o k = dget full k)
    | KeyError => exists k, In k l /\ dget full k = None
    | TypeError => False
    end).
  { induction l as [|a l IH]; intros o0 W A; cbn [fold_left].
    - split; [intros k []|]. auto.
    - unfold g at 2. cbn [bindt]. destruct (dget full a) as [v|] eqn:G; [|rewrite ER; exists a; cbn; auto].
      assert (PR : forall k, dmem (dset o0 a v) k = true -> dget (dset o0 a v) k = dget full k).
      { intros k K. destruct (string_dec k a) as [->|NE]; [rewrite dget_set_eq; symmetry; exact G|]. rewrite dget_set_ne by exact NE. apply A. rewrite <- K. unfold dmem. rewrite dget_set_ne by exact NE. reflexivity. }
      specialize (IH (dset o0 a v) (wf_set o0 a v W) PR). unfold sample in *. destruct (fold_left g l (Done (dset o0 a v))) as [o| |].
      + destruct IH as [I1 [I2 [I3 [I4 I5]]]].
        assert (DA : dmem o a = true) by (apply I2; unfold dmem; rewrite dget_set_eq; reflexivity).
        split; [intros k [->|K]; [split; [apply I5|]; exact DA|apply I1, K]|]. split.
        { intros k K. apply I2. destruct (string_dec k a) as [->|NE]; unfold dmem in *; [rewrite dget_set_eq; reflexivity|rewrite dget_set_ne by exact NE; exact K]. }
        split; [|split; assumption]. intros k K. rewrite I3 by (intro X; apply K; right; exact X). unfold dmem. rewrite dget_set_ne; [reflexivity|]. intros ->. apply K. left. reflexivity.
      + destruct IH as [k [K1 K2]]. exists k. split; [right; exact K1|exact K2].
      + exact IH. }
  assert (P0 : forall k, dmem (@nil (string * num)) k = true -> dget (@nil (string * num)) k = dget full k) by (intros k K; discriminate).
  specialize (L ks [] (NoDup_nil _) P0). unfold sample, dict in *. destruct (fold_left g ks (Done [])) as [o| |].
  - destruct L as [L1 [_ [L3 [L4 _]]]]. split; [exact L1|]. split; [intros k K; rewrite L3 by exact K; reflexivity|exact L4].
  - exact L.
  - exact L.
Qed.
End All.
Example C142_example : let zero (_ : R) := Some 0 in let e (l : list R) : option (num * num * bool) := None in
  fill_from_fixed (Some [("psi", Some 3); ("phase", None)]) (apply_defaults [("minimum_frequency", Some 10)] (defaults (Some 0)) [("reference_frequency", Some 100); ("psi", Some 1); ("phase", Some 2)]) =
    [("reference_frequency", Some 50); ("psi", Some 3); ("phase", Some 2); ("waveform_approximant", Some 0); ("minimum_frequency", Some 10)] /\
  select_keys [("a", Some 1); ("b", Some 2); ("c", None)] ["c"; "a"; "c"] = Done [("c", None); ("a", Some 1)] /\
  select_keys [("a", Some 1)] ["a"; "b"] = KeyError.
Proof. repeat split. Qed.

(** ** Assumptions of every theorem above *)
Definition GwBns_Props_all :=
  (@C139_kept,
   @C137_determined,
   @C137_lambda_2_alone_refuted,
   @C137_symmetric_refuted,
   @C137_scalar_love_refuted,
   @C137_delta_alone,
   @C138_none,
   @C138_both,
   @C138_lambda_1_alone,
   @C138_tilde_pair,
   @C138_tilde_alone,
   @C138_symmetric,
   @C138_eos,
   @C138_antisymmetric_alone_refuted,
   @C142_values,
   @C142_reference_frequency_refuted,
   @C142_tilde,
   @C142_specific).
Print Assumptions GwBns_Props_all.
