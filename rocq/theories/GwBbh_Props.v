(** * Properties of the conversion to waveform parameters, source-frame and spin parameters *)
From Coq Require Import Reals String List Bool Arith Lia Lra Psatz.
From Verif Require Import PyReal PyDict GwMass_Model GwMass_Proofs GwGen_Model GwGen_Props.
Import ListNotations.
Open Scope R_scope. Open Scope string_scope. Open Scope list_scope.

(** ** Names ending in _source *)
Lemma strip_spec : forall k b, strip_source k = Some b <-> k = (b ++ "_source")%string.
Proof.
  induction k as [|c k IH]; intros b.
  - simpl. split; [discriminate|]. intro H. destruct b; discriminate.
  - cbn [strip_source]. destruct (String.eqb_spec (String c k) "_source") as [E|E].
    + split; [intro H; injection H as <-; exact E|]. intro H. destruct b as [|d b]; [reflexivity|]. exfalso.
      rewrite E in H. cbn in H. injection H as _ H. assert (L : String.length "source" = String.length (b ++ "_source")%string) by exact (f_equal String.length H).
      clear - L. simpl in L. assert (forall x y, String.length (x ++ y)%string = (String.length x + String.length y)%nat) as A by (induction x; intros; simpl; [reflexivity|rewrite IHx; reflexivity]).
      rewrite A in L. simpl in L. lia.
    + destruct (strip_source k) as [r|] eqn:S; cbn [option_map].
      * pose proof (proj1 (IH r) eq_refl) as S'. split; [intro H; injection H as <-; cbn; rewrite S'; reflexivity|]. intro H. destruct b as [|d b]; [cbn in H; contradiction|].
        cbn in H. injection H as -> H. apply IH in H. injection H as ->. reflexivity.
      * split; [discriminate|]. intro H. destruct b as [|d b]; [cbn in H; contradiction|]. cbn in H. injection H as -> H. apply IH in H. discriminate.
Qed.

(** ** C60 What is added and what is kept *)
(** keys are only appended; a key that is present keeps its value unless it is in [P] *)
Definition step (P : string -> Prop) (a b : sample) : Prop :=
  (exists l, dkeys b = dkeys a ++ l) /\ (wf a -> wf b) /\ (forall k, dmem a k = true -> ~ P k -> dget b k = dget a k).
Lemma step_refl : forall P a, step P a a.
Proof. intros P a. split; [exists []; rewrite app_nil_r; reflexivity|]. auto. Qed.
Lemma step_mem : forall P a b k, step P a b -> dmem a k = true -> dmem b k = true.
Proof. intros P a b k [[l E] _] H. apply dmem_in. rewrite E. apply in_or_app. left. apply dmem_in, H. Qed.
Lemma step_trans : forall P a b c, step P a b -> step P b c -> step P a c.
Proof.
  intros P a b c A B. pose proof (fun k => step_mem P a b k A) as M. destruct A as [[l E] [W K]], B as [[l' E'] [W' K']]. split; [exists (l ++ l'); rewrite E', E, app_assoc; reflexivity|].
  split; [auto|]. intros k Hk N. rewrite K' by auto. auto.
Qed.
Lemma step_set : forall (P : string -> Prop) a k v, dmem a k = false \/ P k -> step P a (dset a k v).
Proof.
  intros P a k v H. split; [rewrite dkeys_set; destruct (dmem a k); [exists []; rewrite app_nil_r; reflexivity|exists [k]; reflexivity]|].
  split; [apply wf_set|]. intros j M N. apply dget_set_ne. intros ->. destruct H; [congruence|contradiction].
Qed.
Definition stepr P a (r : res sample) : Prop := match r with Ok b => step P a b | KeyErr => True end.
Lemma stepr_bind : forall {A} P a (x : res A) f, (forall v, x = Ok v -> stepr P a (f v)) -> stepr P a (bindr x f).
Proof. intros A P a [v|] f H; [apply H; reflexivity|exact I]. Qed.

Section Conv.
Variables z_to_dl dl_to_z z_to_dc dc_to_dl : R -> option R.
Notation convert := (convert_to_lal_bbh z_to_dl dl_to_z dc_to_dl).
(** parameters that the conversion may overwrite when the caller gave them *)
Definition overwritten (s : sample) (k : string) : Prop :=
  dmem s (k ++ "_source") = true \/
  (exists i, In i ["1"; "2"] /\ dmem s ("chi_" ++ i) = true /\
     (k = ("cos_tilt_" ++ i)%string \/ k = ("a_" ++ i)%string /\ dmem s ("chi_" ++ i ++ "_in_plane") = true)) \/
  (In k ["tilt_1"; "tilt_2"; "theta_jn"] /\ (dmem s ("cos_" ++ k) = true \/ dmem s ("cos_" ++ k ++ "_source") = true)) \/
  (exists i, In i ["1"; "2"] /\ k = ("tilt_" ++ i)%string /\ dmem s ("chi_" ++ i) = true) \/
  (k = "phase" /\ dmem s "delta_phase" = true).

Lemma generate_step : forall P req src s, stepr P s (generate_component_masses req src s).
Proof.
  intros P req src s. unfold generate_component_masses, quietly, add_q. cbv zeta.
  assert (S : forall a k v, step P s a -> dmem a k = false -> step P s (dset a k v)) by (intros; eapply step_trans; [eassumption|apply step_set; auto]).
  destruct src; unfold m1k, m2k, tk, ck, qk, ek;
  repeat (match goal with |- stepr _ _ (if ?b then _ else _) => destruct b eqn:? end; try exact I; try apply step_refl);
  repeat (apply stepr_bind; intros ? ?);
  repeat match goal with |- stepr _ _ (if ?b then _ else _) => destruct b end; try exact I; try apply step_refl; repeat (apply stepr_bind; intros ? ?);
  repeat match goal with H : Ok _ = Ok _ |- _ => injection H as <- | H : bindr ?x _ = Ok _ |- _ => destruct x eqn:?; [cbn [bindr] in H|discriminate] | H : (if ?b then _ else _) = Ok _ |- _ => destruct b; try discriminate end;
  cbn [stepr]; repeat (first [apply step_refl | apply S; [|rewrite ?dmem_set_ne by discriminate; assumption]]).
Qed.
Definition frame (T : string -> Prop) (a b : sample) : Prop := forall k, ~ T k -> dget b k = dget a k.
Lemma frame_set : forall (T : string -> Prop) a b k v, frame T a b -> T k -> frame T a (dset b k v).
Proof. intros T a b k v F H j N. rewrite dget_set_ne by (intros ->; contradiction). apply F, N. Qed.
Lemma frame_mem : forall T a b k, frame T a b -> ~ T k -> dmem b k = dmem a k.
Proof. intros T a b k F N. unfold dmem. rewrite (F k N). reflexivity. Qed.
Lemma bind_inv : forall {A B} (x : res A) (f : A -> res B) r, bindr x f = Ok r -> exists v, x = Ok v /\ f v = Ok r.
Proof. intros A B [v|] f r H; [exists v; auto|discriminate]. Qed.
Lemma convert_inv : forall np s o added, convert np s = Ok (o, added) -> exists o1 o2 o3 o4 o5 o7,
  add_distance z_to_dl dc_to_dl s = Ok o1 /\ fold_left (source_step dl_to_z s) (dkeys s) (Ok o1) = Ok o2 /\
  generate_component_masses false false o2 = Ok o3 /\ spin_step np s "chi_1" "chi_1_in_plane" "a_1" "cos_tilt_1" o3 = Ok o4 /\
  spin_step np s "chi_2" "chi_2_in_plane" "a_2" "cos_tilt_2" o4 = Ok o5 /\
  fold_left angle_step ["tilt_1"; "tilt_2"; "theta_jn"] (Ok (fold_left default0 ["phi_jl"; "phi_12"] o5)) = Ok o7 /\
  phase_step s o7 = Ok o /\ added = filter (fun k => negb (dmem s k)) (dkeys o).
Proof.
  intros np s o added H. unfold convert_to_lal_bbh in H.
  apply bind_inv in H as [o1 [E1 H]]. apply bind_inv in H as [o2 [E2 H]]. apply bind_inv in H as [o3 [E3 H]].
  apply bind_inv in H as [o4 [E4 H]]. apply bind_inv in H as [o5 [E5 H]]. cbv zeta in H. apply bind_inv in H as [o7 [E7 H]].
  apply bind_inv in H as [o8 [E8 H]]. injection H as -> <-. exists o1, o2, o3, o4, o5, o7. repeat (split; [assumption|]). reflexivity.
Qed.
Lemma distance_facts : forall P s o, add_distance z_to_dl dc_to_dl s = Ok o -> step P s o /\ frame (eq "luminosity_distance") s o.
Proof.
  intros P s o H. unfold add_distance in H. destruct (dmem s "luminosity_distance") eqn:D; [injection H as <-; split; [apply step_refl|intros k _; reflexivity]|].
  destruct (dmem s "redshift").
  - apply bind_inv in H as [z [_ H]]. injection H as <-. split; [apply step_set; auto|apply frame_set; [intros k _; reflexivity|reflexivity]].
  - destruct (dmem s "comoving_distance"); [|injection H as <-; split; [apply step_refl|intros k _; reflexivity]].
    apply bind_inv in H as [z [_ H]]. injection H as <-. split; [apply step_set; auto|apply frame_set; [intros k _; reflexivity|reflexivity]].
Qed.
Lemma fold_error : forall orig ks, fold_left (source_step dl_to_z orig) ks KeyErr = KeyErr.
Proof. induction ks; simpl; auto. Qed.
Definition source_key (s : sample) (k : string) : Prop := dmem s (k ++ "_source") = true.
Lemma loop_facts : forall (P : string -> Prop) s, (forall k, source_key s k -> P k) -> forall ks, (forall k, In k ks -> dmem s k = true) -> forall o o',
  fold_left (source_step dl_to_z s) ks (Ok o) = Ok o' -> step P o o' /\ frame (fun k => k = "redshift" \/ source_key s k) o o'.
Proof.
  intros P s HP. induction ks as [|key ks IH]; intros M o o' H; cbn [fold_left] in H.
  - injection H as <-. split; [apply step_refl|intros k _; reflexivity].
  - destruct (source_step dl_to_z s (Ok o) key) as [o1|] eqn:E; [|rewrite fold_error in H; discriminate].
    destruct (IH (fun k K => M k (or_intror K)) o1 o' H) as [S F]. clear IH H.
    assert (S1 : step P o o1 /\ frame (fun k => k = "redshift" \/ source_key s k) o o1).
    { unfold source_step in E. cbn [bindr] in E. destruct (strip_source key) as [base|] eqn:B; [|injection E as <-; split; [apply step_refl|intros k _; reflexivity]].
      apply strip_spec in B. assert (K : source_key s base) by (unfold source_key; rewrite <- B; apply M; left; reflexivity).
      apply bind_inv in E as [o2 [E2 E]]. apply bind_inv in E as [v [_ E]]. apply bind_inv in E as [z [_ E]]. injection E as <-.
      destruct (dmem o "redshift") eqn:R.
      - injection E2 as <-. split; [apply step_set; auto|apply frame_set; [intros k _; reflexivity|auto]].
      - apply bind_inv in E2 as [d [_ E2]]. injection E2 as <-. split; [eapply step_trans; apply step_set; auto|]. apply frame_set; [apply frame_set; [intros k _; reflexivity|auto]|auto]. }
    destruct S1 as [S1 F1]. split; [eapply step_trans; eassumption|]. intros k N. rewrite (F k N). apply F1, N.
Qed.
Lemma spin_facts : forall (P : string -> Prop) np s chi chin a ct o o', spin_step np s chi chin a ct o = Ok o' -> ct <> a ->
  (dmem s chi = true -> P ct) -> (dmem s chi = true -> dmem s chin = true -> P a) -> (dmem s a = false -> dmem o a = false \/ P a) ->
  step P o o' /\ frame (fun k => dmem s chi = true /\ (k = a \/ k = ct)) o o'.
Proof.
  intros P np s chi chin a ct o o' H N P1 P2 P3. unfold spin_step in H. destruct (dmem s chi) eqn:C; [|injection H as <-; split; [apply step_refl|intros k _; reflexivity]].
  destruct (dmem s chin) eqn:CI.
  - apply bind_inv in H as [x [_ H]]. apply bind_inv in H as [y [_ H]]. cbv zeta in H. injection H as <-.
    split; [eapply step_trans; apply step_set; auto|]. apply frame_set; [apply frame_set; [intros k _; reflexivity|auto]|auto].
  - destruct (dmem s a) eqn:A; cbn [negb] in H.
    + apply bind_inv in H as [x [_ H]]. apply bind_inv in H as [y [_ H]]. injection H as <-. split; [apply step_set; auto|]. apply frame_set; [intros k _; reflexivity|auto].
    + apply bind_inv in H as [x [_ H]]. injection H as <-. split; [eapply step_trans; apply step_set; auto|]. apply frame_set; [apply frame_set; [intros k _; reflexivity|auto]|auto].
Qed.
Lemma default_facts : forall P o ks, step P o (fold_left default0 ks o) /\ frame (fun k => In k ks) o (fold_left default0 ks o).
Proof.
  intros P o ks. revert o. induction ks as [|k ks IH]; intros o; cbn [fold_left]; [split; [apply step_refl|intros k _; reflexivity]|].
  destruct (IH (default0 o k)) as [S F]. assert (Q : step P o (default0 o k) /\ frame (eq k) o (default0 o k)).
  { unfold default0. destruct (dmem o k) eqn:M; [split; [apply step_refl|intros j _; reflexivity]|]. split; [apply step_set; auto|apply frame_set; [intros j _; reflexivity|reflexivity]]. }
  destruct Q as [S1 F1]. split; [eapply step_trans; eassumption|]. intros j N. rewrite F by (intro; apply N; right; assumption). apply F1. intro; apply N; left; assumption.
Qed.
Lemma angle_facts : forall (P : string -> Prop) o angle o', angle_step (Ok o) angle = Ok o' -> (dmem o ("cos_" ++ angle) = true -> P angle) ->
  step P o o' /\ frame (eq angle) o o' /\
  (dget o' angle = match dget o ("cos_" ++ angle) with Some v => Some (lift1 pacos v) | None => dget o angle end).
Proof.
  intros P o angle o' H HP. unfold angle_step in H. cbn [bindr] in H. cbv zeta in H. destruct (dmem o ("cos_" ++ angle)) eqn:M.
  - apply bind_inv in H as [v [G H]]. injection H as <-. unfold get in G. destruct (dget o ("cos_" ++ angle)) as [w|]; [|discriminate]. injection G as ->.
    split; [apply step_set; auto|]. split; [apply frame_set; [intros k _; reflexivity|reflexivity]|]. apply dget_set_eq.
  - injection H as <-. split; [apply step_refl|]. split; [intros k _; reflexivity|]. unfold dmem in M. destruct (dget o ("cos_" ++ angle)); [discriminate|reflexivity].
Qed.
Lemma phase_facts : forall (P : string -> Prop) s o o', phase_step s o = Ok o' -> (dmem s "delta_phase" = true -> P "phase") ->
  step P o o' /\ frame (fun k => k = "phase" /\ dmem s "delta_phase" = true) o o'.
Proof.
  intros P s o o' H HP. unfold phase_step in H. destruct (dmem s "delta_phase") eqn:M; [|injection H as <-; split; [apply step_refl|intros k _; reflexivity]].
  apply bind_inv in H as [d [_ H]]. apply bind_inv in H as [t [_ H]]. apply bind_inv in H as [q [_ H]]. injection H as <-.
  split; [apply step_set; auto|apply frame_set; [intros k _; reflexivity|auto]].
Qed.
Lemma angles_inv : forall o o', fold_left angle_step ["tilt_1"; "tilt_2"; "theta_jn"] (Ok o) = Ok o' -> exists a b,
  angle_step (Ok o) "tilt_1" = Ok a /\ angle_step (Ok a) "tilt_2" = Ok b /\ angle_step (Ok b) "theta_jn" = Ok o'.
Proof.
  intros o o' H. cbn [fold_left] in H. destruct (angle_step (Ok o) "tilt_1") as [a|]; [|discriminate].
  destruct (angle_step (Ok a) "tilt_2") as [b|] eqn:B; [|discriminate]. exists a, b. auto.
Qed.
(** everything between the caller's dictionary and the spins *)
Lemma first_facts : forall (P : string -> Prop) s o1 o2 o3, (forall k, source_key s k -> P k) ->
  add_distance z_to_dl dc_to_dl s = Ok o1 -> fold_left (source_step dl_to_z s) (dkeys s) (Ok o1) = Ok o2 -> generate_component_masses false false o2 = Ok o3 ->
  step P s o3 /\ frame (fun k => k = "luminosity_distance" \/ k = "redshift" \/ source_key s k \/ In k (mass_keys false)) s o3.
Proof.
  intros P s o1 o2 o3 HP E1 E2 E3. destruct (distance_facts P s o1 E1) as [S1 F1].
  destruct (loop_facts P s HP (dkeys s) (fun k => proj2 (dmem_in s k)) o1 o2 E2) as [S2 F2].
  pose proof (generate_step P false false o2) as S3. rewrite E3 in S3. cbn [stepr] in S3.
  destruct (proj2 (C37_outcome false false o2) o3 E3) as [_ [_ [_ F3]]]. split; [eapply step_trans; [eassumption|eapply step_trans; eassumption]|].
  intros k N. rewrite F3 by tauto. rewrite F2 by tauto. apply F1. intro K. apply N. left. congruence.
Qed.
Ltac fr := match goal with |- ~ _ => intro; repeat match goal with H : _ \/ _ |- _ => destruct H | H : _ /\ _ |- _ => destruct H | H : In _ _ |- _ => cbn in H | H : False |- _ => destruct H end; try discriminate; try contradiction; try congruence end.
Theorem C60_kept : forall np s o added, wf s -> convert np s = Ok (o, added) ->
  dkeys o = dkeys s ++ added /\ NoDup (dkeys o) /\ (forall k v, dget s k = Some v -> ~ overwritten s k -> dget o k = Some v).
Proof.
  intros np s o added W H. destruct (convert_inv np s o added H) as [o1 [o2 [o3 [o4 [o5 [o7 [E1 [E2 [E3 [E4 [E5 [E7 [E8 E9]]]]]]]]]]]]].
  set (P := overwritten s).
  assert (HP : forall k, source_key s k -> P k) by (intros k K; left; exact K).
  destruct (first_facts P s o1 o2 o3 HP E1 E2 E3) as [S3 F3].
  destruct (spin_facts P np s _ _ _ _ o3 o4 E4) as [S4 F4]; [discriminate| | | |].
  { intro C. right. left. exists "1". split; [simpl; auto|]. split; [exact C|left; reflexivity]. }
  { intros C D. right. left. exists "1". split; [simpl; auto|]. split; [exact C|right; split; [reflexivity|exact D]]. }
  { intro A. destruct (dmem s "a_1_source") eqn:X; [right; left; exact X|]. left. rewrite (frame_mem _ _ _ "a_1" F3); [exact A|]. unfold source_key. cbn. fr. }
  destruct (spin_facts P np s _ _ _ _ o4 o5 E5) as [S5 F5]; [discriminate| | | |].
  { intro C. right. left. exists "2". split; [simpl; auto|]. split; [exact C|left; reflexivity]. }
  { intros C D. right. left. exists "2". split; [simpl; auto|]. split; [exact C|right; split; [reflexivity|exact D]]. }
  { intro A. destruct (dmem s "a_2_source") eqn:X; [right; left; exact X|]. left. rewrite (frame_mem _ _ _ "a_2" F4) by fr. rewrite (frame_mem _ _ _ "a_2" F3); [exact A|]. unfold source_key. cbn. fr. }
  destruct (default_facts P o5 ["phi_jl"; "phi_12"]) as [S6 F6]. set (o6 := fold_left default0 ["phi_jl"; "phi_12"] o5) in *.
  destruct (angles_inv o6 o7 E7) as [a [b [A1 [A2 A3]]]].
  assert (M1 : forall c, dmem o6 c = dmem o5 c \/ In c ["phi_jl"; "phi_12"]).
  { intro c. destruct (in_dec string_dec c ["phi_jl"; "phi_12"]); [auto|]. left. apply (frame_mem _ _ _ c F6). assumption. }
  destruct (angle_facts P o6 "tilt_1" a A1) as [SA [FA _]].
  { intro K. change ("cos_" ++ "tilt_1")%string with "cos_tilt_1" in K. rewrite (frame_mem _ _ _ "cos_tilt_1" F6) in K by fr. rewrite (frame_mem _ _ _ "cos_tilt_1" F5) in K by fr.
    destruct (dmem s "chi_1") eqn:C; [right; right; right; left; exists "1"; simpl; auto|]. rewrite (frame_mem _ _ _ "cos_tilt_1" F4) in K by (intros [X _]; discriminate).
    destruct (dmem s "cos_tilt_1_source") eqn:X; [right; right; left; split; [simpl; auto|right; exact X]|].
    rewrite (frame_mem _ _ _ "cos_tilt_1" F3) in K by (unfold source_key; cbn; fr). right. right. left. split; [simpl; auto|left; exact K]. }
  destruct (angle_facts P a "tilt_2" b A2) as [SB [FB _]].
  { intro K. change ("cos_" ++ "tilt_2")%string with "cos_tilt_2" in K. rewrite (frame_mem _ _ _ "cos_tilt_2" FA) in K by fr. rewrite (frame_mem _ _ _ "cos_tilt_2" F6) in K by fr.
    destruct (dmem s "chi_2") eqn:C; [right; right; right; left; exists "2"; simpl; auto|]. rewrite (frame_mem _ _ _ "cos_tilt_2" F5) in K by (intros [X _]; discriminate).
    rewrite (frame_mem _ _ _ "cos_tilt_2" F4) in K by fr.
    destruct (dmem s "cos_tilt_2_source") eqn:X; [right; right; left; split; [simpl; auto|right; exact X]|].
    rewrite (frame_mem _ _ _ "cos_tilt_2" F3) in K by (unfold source_key; cbn; fr). right. right. left. split; [simpl; auto|left; exact K]. }
  destruct (angle_facts P b "theta_jn" o7 A3) as [SC [FC _]].
  { intro K. change ("cos_" ++ "theta_jn")%string with "cos_theta_jn" in K. rewrite (frame_mem _ _ _ "cos_theta_jn" FB) in K by fr. rewrite (frame_mem _ _ _ "cos_theta_jn" FA) in K by fr.
    rewrite (frame_mem _ _ _ "cos_theta_jn" F6), (frame_mem _ _ _ "cos_theta_jn" F5), (frame_mem _ _ _ "cos_theta_jn" F4) in K by fr.
    destruct (dmem s "cos_theta_jn_source") eqn:X; [right; right; left; split; [simpl; auto|right; exact X]|].
    rewrite (frame_mem _ _ _ "cos_theta_jn" F3) in K by (unfold source_key; cbn; fr). right. right. left. split; [simpl; auto|left; exact K]. }
  destruct (phase_facts P s o7 o E8) as [S8 _]; [intro D; right; right; right; right; auto|].
  assert (S : step P s o) by (repeat (eapply step_trans; [eassumption|]); apply step_refl).
  destruct S as [[l E] [Wo K]]. specialize (Wo W). split; [|split; [exact Wo|]].
  - rewrite E9, E, filter_app. f_equal. unfold wf in Wo. rewrite E in Wo.
    assert (Y : filter (fun k => negb (dmem s k)) (dkeys s) = []).
    { assert (Y : forall r, (forall k, In k r -> dmem s k = true) -> filter (fun k => negb (dmem s k)) r = []) by (induction r as [|x r IH]; intro R; [reflexivity|]; simpl; rewrite (R x (or_introl eq_refl)); simpl; apply IH; intros; apply R; right; assumption).
      apply Y. intros k. apply dmem_in. }
    rewrite Y. simpl. symmetry.
    assert (Z : forall r, (forall k, In k r -> dmem s k = false) -> filter (fun k => negb (dmem s k)) r = r) by (induction r as [|x r IH]; intro R; [reflexivity|]; simpl; rewrite (R x (or_introl eq_refl)); simpl; f_equal; apply IH; intros; apply R; right; assumption).
    apply Z. intros k Hk. destruct (dmem s k) eqn:D; [|reflexivity]. exfalso. apply dmem_in in D. clear - Wo Hk D.
    induction (dkeys s) as [|x t IH]; [destruct D|]. simpl in Wo. inversion Wo as [|? ? N1 N2]; subst. destruct D as [->|D]; [apply N1, in_or_app; right; exact Hk|exact (IH N2 D)].
  - intros k v G N. rewrite (K k (dmem_some _ _ _ G) N). exact G.
Qed.
(** ** C60 Values *)
Definition mass_names := ["mass_1"; "mass_2"; "chirp_mass"; "total_mass"].
(** only masses are given in the source frame *)
Definition plain (s : sample) : Prop := forall b, source_key s b -> In b mass_names.
(** the redshift used: the caller's, else the one of the caller's luminosity distance *)
Definition redshift_is (s : sample) (z : R) : Prop :=
  dget s "redshift" = Some (Some z) \/ dget s "redshift" = None /\ exists d, dget s "luminosity_distance" = Some (Some d) /\ dl_to_z d = Some z.
Lemma append_source_inj : forall a b, (a ++ "_source")%string = (b ++ "_source")%string -> a = b.
Proof. intros a b H. assert (E : strip_source (a ++ "_source") = Some a) by (apply strip_spec; reflexivity). assert (E' : strip_source (b ++ "_source") = Some b) by (apply strip_spec; reflexivity). congruence. Qed.
Lemma mass_not_source : forall b, In b mass_names -> strip_source b = None.
Proof. intros b H. simpl in H. repeat destruct H as [<-|H]; [reflexivity|reflexivity|reflexivity|reflexivity|contradiction]. Qed.
Lemma loop_values : forall s z, plain s -> redshift_is s z -> forall ks, (forall k, In k ks -> dmem s k = true) -> forall o o',
  fold_left (source_step dl_to_z s) ks (Ok o) = Ok o' ->
  (dget o "redshift" = Some (Some z) \/ dget o "redshift" = None /\ dget s "redshift" = None) ->
  (forall b, source_key s b -> dget o (b ++ "_source") = dget s (b ++ "_source")) ->
  forall b m, dget s (b ++ "_source") = Some (Some m) -> In (b ++ "_source")%string ks \/ dget o b = Some (Some (m * (1 + z))) ->
  dget o' b = Some (Some (m * (1 + z))).
Proof.
  intros s z HP HZ. induction ks as [|key ks IH]; intros M o o' H R V b m G I; cbn [fold_left] in H.
  - injection H as <-. destruct I as [[]|I]. exact I.
  - destruct (source_step dl_to_z s (Ok o) key) as [o1|] eqn:E; [|rewrite fold_error in H; discriminate].
    unfold source_step in E. cbn [bindr] in E. destruct (strip_source key) as [base|] eqn:B.
    2:{ injection E as <-. apply (IH (fun k K => M k (or_intror K)) o o' H R V b m G). destruct I as [[I|I]|I]; auto.
        exfalso. subst key. assert (X : strip_source (b ++ "_source") = Some b) by (apply strip_spec; reflexivity). congruence. }
    apply strip_spec in B. assert (KB : source_key s base) by (unfold source_key; rewrite <- B; apply M; left; reflexivity). pose proof (HP base KB) as MB.
    apply bind_inv in E as [o2 [E2 E]]. apply bind_inv in E as [v [Ev E]]. apply bind_inv in E as [zz [Ez E]]. injection E as <-.
    assert (Z2 : dget o2 "redshift" = Some (Some z) /\ forall k, k <> "redshift" -> dget o2 k = dget o k).
    { destruct (dmem o "redshift") eqn:D.
      - injection E2 as <-. split; [|reflexivity]. destruct R as [R|[R _]]; [exact R|]. unfold dmem in D. rewrite R in D. discriminate.
      - apply bind_inv in E2 as [d [Ed E2]]. injection E2 as <-. split; [|intros k N; apply dget_set_ne; exact N]. rewrite dget_set_eq.
        unfold dmem in D. destruct (dget o "redshift"); [discriminate|]. destruct R as [R|[_ R]]; [discriminate|].
        destruct HZ as [HZ|[_ [d' [Hd Hz]]]]; [congruence|]. unfold get in Ed. rewrite Hd in Ed. injection Ed as <-. cbn. rewrite Hz. reflexivity. }
    destruct Z2 as [Z2 F2]. unfold get in Ez. rewrite Z2 in Ez. injection Ez as <-.
    assert (NB : base <> "redshift") by (intros ->; simpl in MB; intuition discriminate).
    apply (IH (fun k K => M k (or_intror K)) _ o' H).
    + left. rewrite dget_set_ne by congruence. exact Z2.
    + intros b' K'. assert (N : (b' ++ "_source")%string <> base). { intros X. pose proof (mass_not_source base MB) as Y. rewrite <- X in Y. assert (Y' : strip_source (b' ++ "_source") = Some b') by (apply strip_spec; reflexivity). congruence. }
      rewrite dget_set_ne by exact N. destruct (string_dec (b' ++ "_source") "redshift") as [X|X]; [exfalso; assert (Y' : strip_source (b' ++ "_source") = Some b') by (apply strip_spec; reflexivity); rewrite X in Y'; discriminate|].
      rewrite F2 by exact X. apply V, K'.
    + exact G.
    + destruct (string_dec b base) as [->|N].
      * right. rewrite dget_set_eq. unfold get in Ev. rewrite B in Ev. rewrite F2 in Ev by (intro X; assert (Y' : strip_source (base ++ "_source") = Some base) by (apply strip_spec; reflexivity); rewrite X in Y'; discriminate).
        rewrite (V base KB), G in Ev. injection Ev as <-. reflexivity.
      * destruct I as [[I|I]|I].
        -- exfalso. apply N. rewrite B in I. symmetry. apply append_source_inj, I.
        -- left. exact I.
        -- right. rewrite dget_set_ne by exact N. rewrite F2; [exact I|]. intros ->. assert (X : source_key s "redshift") by (unfold source_key; rewrite (dmem_some _ _ _ G); reflexivity). apply HP in X. simpl in X. intuition discriminate.
Qed.
(** all the stages after the component masses, for keys that they do not touch *)
Definition late := ["a_1"; "cos_tilt_1"; "a_2"; "cos_tilt_2"; "phi_jl"; "phi_12"; "tilt_1"; "tilt_2"; "theta_jn"; "phase"].
Lemma late_facts : forall np s o3 o4 o5 o7 o, spin_step np s "chi_1" "chi_1_in_plane" "a_1" "cos_tilt_1" o3 = Ok o4 ->
  spin_step np s "chi_2" "chi_2_in_plane" "a_2" "cos_tilt_2" o4 = Ok o5 ->
  fold_left angle_step ["tilt_1"; "tilt_2"; "theta_jn"] (Ok (fold_left default0 ["phi_jl"; "phi_12"] o5)) = Ok o7 -> phase_step s o7 = Ok o ->
  frame (fun k => In k late) o3 o.
Proof.
  intros np s o3 o4 o5 o7 o E4 E5 E7 E8. set (P := fun _ : string => True).
  destruct (spin_facts P np s _ _ _ _ o3 o4 E4) as [_ F4]; [discriminate|intros; exact I|intros; exact I|right; exact I|].
  destruct (spin_facts P np s _ _ _ _ o4 o5 E5) as [_ F5]; [discriminate|intros; exact I|intros; exact I|right; exact I|].
  destruct (default_facts P o5 ["phi_jl"; "phi_12"]) as [_ F6]. destruct (angles_inv _ o7 E7) as [a [b [A1 [A2 A3]]]].
  destruct (angle_facts P _ "tilt_1" a A1) as [_ [FA _]]; [intros; exact I|]. destruct (angle_facts P _ "tilt_2" b A2) as [_ [FB _]]; [intros; exact I|].
  destruct (angle_facts P _ "theta_jn" o7 A3) as [_ [FC _]]; [intros; exact I|]. destruct (phase_facts P s o7 o E8) as [_ F8]; [intros; exact I|].
  intros k N. unfold late in N. simpl in N.
  assert (Y : forall x, In x late -> k <> x) by (intros x Hx ->; apply N; exact Hx). unfold late in Y. simpl in Y.
  rewrite F8 by (intros [X _]; revert X; apply Y; tauto). rewrite FC by (apply not_eq_sym, Y; tauto). rewrite FB by (apply not_eq_sym, Y; tauto). rewrite FA by (apply not_eq_sym, Y; tauto). rewrite F6 by (simpl; tauto).
  rewrite F5 by (intros [_ [X|X]]; revert X; apply Y; tauto). apply F4. intros [_ [X|X]]; revert X; apply Y; tauto.
Qed.
(** masses given in the source frame *)
Theorem C60_source : forall np s o added z b m, plain s -> redshift_is s z -> convert np s = Ok (o, added) ->
  dget s (b ++ "_source") = Some (Some m) -> dget o b = Some (Some (m * (1 + z))).
Proof.
  intros np s o added z b m HP HZ H G. destruct (convert_inv np s o added H) as [o1 [o2 [o3 [o4 [o5 [o7 [E1 [E2 [E3 [E4 [E5 [E7 [E8 E9]]]]]]]]]]]]].
  assert (KB : source_key s b) by (unfold source_key; rewrite (dmem_some _ _ _ G); reflexivity). pose proof (HP b KB) as MB.
  assert (X : dget o2 b = Some (Some (m * (1 + z)))).
  { destruct (distance_facts (fun _ => True) s o1 E1) as [_ F1].
    apply (loop_values s z HP HZ (dkeys s) (fun k => proj2 (dmem_in s k)) o1 o2 E2).
    - rewrite F1 by discriminate. destruct HZ as [HZ|[HZ _]]; [left; exact HZ|right; split; exact HZ].
    - intros b' K'. apply F1. intro Y. assert (Y' : strip_source (b' ++ "_source") = Some b') by (apply strip_spec; reflexivity). rewrite <- Y in Y'. discriminate.
    - exact G.
    - left. apply dmem_in. exact KB. }
  apply (proj1 (proj2 (C37_outcome false false o2) o3 E3)) in X. rewrite (late_facts np s o3 o4 o5 o7 o E4 E5 E7 E8); [exact X|].
  intro Y. simpl in MB, Y. repeat destruct MB as [<-|MB]; try contradiction; intuition discriminate.
Qed.
(** a mass in the source frame without a redshift or a luminosity distance is an error, also when the comoving
    distance determines them *)
Theorem C60_comoving_refuted : forall np s b, source_key s b -> dget s "redshift" = None -> dget s "luminosity_distance" = None ->
  convert np s = KeyErr.
Proof.
  intros np s b K HR HL. unfold convert_to_lal_bbh. destruct (add_distance z_to_dl dc_to_dl s) as [o1|] eqn:E1; [|reflexivity]. cbn [bindr].
  assert (R : dget o1 "redshift" = None) by (destruct (distance_facts (fun _ => True) s o1 E1) as [_ F1]; rewrite F1 by discriminate; exact HR).
  assert (L : forall ks o, dget o "redshift" = None -> In (b ++ "_source")%string ks -> fold_left (source_step dl_to_z s) ks (Ok o) = KeyErr).
  { induction ks as [|key ks IH]; intros o D I; [destruct I|]. cbn [fold_left]. unfold source_step at 2. cbn [bindr]. destruct (strip_source key) as [base|] eqn:B.
    - rewrite (dmem_none _ _ D), (get_none _ _ HL). cbn [bindr]. apply fold_error.
    - apply IH; [exact D|]. destruct I as [I|I]; [|exact I]. exfalso. subst key. assert (X : strip_source (b ++ "_source") = Some b) by (apply strip_spec; reflexivity). congruence. }
  rewrite L; [reflexivity|exact R|]. apply dmem_in, K.
Qed.
Lemma tail_facts : forall np s o3 o4 o5 o7 o, spin_step np s "chi_1" "chi_1_in_plane" "a_1" "cos_tilt_1" o3 = Ok o4 ->
  spin_step np s "chi_2" "chi_2_in_plane" "a_2" "cos_tilt_2" o4 = Ok o5 ->
  fold_left angle_step ["tilt_1"; "tilt_2"; "theta_jn"] (Ok (fold_left default0 ["phi_jl"; "phi_12"] o5)) = Ok o7 -> phase_step s o7 = Ok o ->
  let angle a (x : sample) := match dget x ("cos_" ++ a) with Some v => Some (lift1 pacos v) | None => dget x a end in
  (forall k, In k ["a_1"; "a_2"; "cos_tilt_1"; "cos_tilt_2"] -> dget o k = dget o5 k) /\
  (forall k, In k ["a_1"; "cos_tilt_1"] -> dget o5 k = dget o4 k) /\
  (forall k, In k ["chi_2"; "chi_2_in_plane"; "a_2"; "cos_tilt_2"] -> dget o4 k = dget o3 k) /\
  (forall a, In a ["tilt_1"; "tilt_2"; "theta_jn"] -> dget o a = angle a o5) /\
  (forall k, In k ["theta_jn"; "delta_phase"; "psi"] -> dget o7 k = dget o k).
Proof.
  intros np s o3 o4 o5 o7 o E4 E5 E7 E8 angle. set (P := fun _ : string => True).
  destruct (spin_facts P np s _ _ _ _ o3 o4 E4) as [_ F4]; [discriminate|intros; exact I|intros; exact I|right; exact I|].
  destruct (spin_facts P np s _ _ _ _ o4 o5 E5) as [_ F5]; [discriminate|intros; exact I|intros; exact I|right; exact I|].
  destruct (default_facts P o5 ["phi_jl"; "phi_12"]) as [_ F6]. destruct (angles_inv _ o7 E7) as [a [b [A1 [A2 A3]]]]. set (o6 := fold_left default0 ["phi_jl"; "phi_12"] o5) in *.
  destruct (angle_facts P _ "tilt_1" a A1) as [_ [FA VA]]; [intros; exact I|]. destruct (angle_facts P _ "tilt_2" b A2) as [_ [FB VB]]; [intros; exact I|].
  destruct (angle_facts P _ "theta_jn" o7 A3) as [_ [FC VC]]; [intros; exact I|]. destruct (phase_facts P s o7 o E8) as [_ F8]; [intros; exact I|].
  split; [|split; [|split; [|split]]].
  - intros k K. rewrite F8 by (intros [X _]; subst k; cbn in K; intuition discriminate). rewrite FC by (intros <-; cbn in K; intuition discriminate). rewrite FB by (intros <-; cbn in K; intuition discriminate).
    rewrite FA by (intros <-; cbn in K; intuition discriminate). apply F6. intros X. cbn in X. destruct X as [<-|[<-|[]]]; cbn in K; intuition discriminate.
  - intros k K. apply F5. intros [_ [X|X]]; subst k; cbn in K; intuition discriminate.
  - intros k K. apply F4. intros [_ [X|X]]; subst k; cbn in K; intuition discriminate.
  - intros x K. unfold angle. cbn in K. destruct K as [<-|[<-|[<-|[]]]].
    + rewrite F8, FC, FB by fr. rewrite VA. cbn [String.append]. rewrite !F6 by fr. reflexivity.
    + rewrite F8, FC by fr. rewrite VB. cbn [String.append]. rewrite !FA by fr. rewrite !F6 by fr. reflexivity.
    + rewrite F8 by fr. rewrite VC. cbn [String.append]. rewrite !FB, !FA by fr. rewrite !F6 by fr. reflexivity.
  - intros k K. symmetry. apply F8. intros [X _]; subst k; cbn in K; intuition discriminate.
Qed.
Lemma front : forall s o1 o2 o3 k, plain s -> add_distance z_to_dl dc_to_dl s = Ok o1 -> fold_left (source_step dl_to_z s) (dkeys s) (Ok o1) = Ok o2 ->
  generate_component_masses false false o2 = Ok o3 -> ~ In k (["luminosity_distance"; "redshift"] ++ mass_keys false) -> dget o3 k = dget s k.
Proof.
  intros s o1 o2 o3 k HP E1 E2 E3 N. destruct (first_facts (source_key s) s o1 o2 o3 (fun k H => H) E1 E2 E3) as [_ F]. apply F.
  intros [X|[X|[X|X]]]; apply N; [subst; simpl; auto|subst; simpl; auto| |apply in_or_app; right; exact X].
  apply HP in X. unfold mass_names in X. simpl in *. tauto.
Qed.
(** how the three ways of giving an aligned spin component translate into magnitude and cosine of the tilt *)
Definition spin_given (np : bool) (s : sample) (i : string) (c : R) (av cv : num) : Prop :=
  match dget s ("chi_" ++ i ++ "_in_plane"), dget s ("a_" ++ i) with
  | Some (Some p), _ => av = Some (sqrt (c ^ 2 + p ^ 2)) /\ cv = pdiv c (sqrt (c ^ 2 + p ^ 2))
  | Some None, _ => av = None /\ cv = None
  | None, None => av = Some (Rabs c) /\ cv = Some (rsign c)
  | None, Some (Some a) => av = Some a /\ cv = if Req_EM_T a 0 then (if Req_EM_T c 0 then Some 1 else if np then None else Some 1) else Some (c / a)
  | None, Some None => av = None /\ cv = None
  end.
Lemma spin_step_value : forall np s i o o' c, spin_step np s ("chi_" ++ i) ("chi_" ++ i ++ "_in_plane") ("a_" ++ i) ("cos_tilt_" ++ i) o = Ok o' ->
  dget s ("chi_" ++ i) = Some (Some c) -> dget o ("chi_" ++ i) = dget s ("chi_" ++ i) -> dget o ("chi_" ++ i ++ "_in_plane") = dget s ("chi_" ++ i ++ "_in_plane") -> dget o ("a_" ++ i) = dget s ("a_" ++ i) ->
  exists av cv, dget o' ("a_" ++ i) = Some av /\ dget o' ("cos_tilt_" ++ i) = Some cv /\ spin_given np s i c av cv.
Proof.
  intros np s i o o' c H G G1 G2 G3. unfold spin_step in H. rewrite (dmem_some _ _ _ G) in H. unfold spin_given. rewrite G in G1.
  assert (NE : ("a_" ++ i)%string <> ("cos_tilt_" ++ i)%string) by discriminate.
  destruct (dget s ("chi_" ++ i ++ "_in_plane")) as [p|] eqn:CI.
  - rewrite (dmem_some _ _ _ CI) in H. unfold get in H. rewrite G1, G2 in H. cbn [bindr] in H. cbv zeta in H. injection H as <-.
    eexists _, _. rewrite dget_set_eq, dget_set_ne, dget_set_eq by exact NE. split; [reflexivity|]. split; [reflexivity|]. destruct p as [p|]; cbn; [|auto].
    assert (0 <= c * (c * 1) + p * (p * 1)) by nra. rewrite psqrt_some by assumption. cbn. auto.
  - rewrite (dmem_none _ _ CI) in H. destruct (dget s ("a_" ++ i)) as [a|] eqn:A.
    + rewrite (dmem_some _ _ _ A) in H. cbn [negb] in H. unfold get in H. rewrite G1, G3 in H. cbn [bindr] in H. injection H as <-.
      eexists _, _. rewrite dget_set_eq, dget_set_ne, G3 by exact NE. split; [reflexivity|]. split; [reflexivity|]. destruct a as [a|]; cbn; auto.
    + rewrite (dmem_none _ _ A) in H. cbn [negb] in H. unfold get in H. rewrite G1 in H. cbn [bindr] in H. injection H as <-.
      eexists _, _. rewrite dget_set_eq, dget_set_ne, dget_set_eq by exact NE. split; [reflexivity|]. split; [reflexivity|]. cbn. auto.
Qed.
Lemma spin_end : forall np s o added i c, In i ["1"; "2"] -> plain s -> convert np s = Ok (o, added) -> dget s ("chi_" ++ i) = Some (Some c) ->
  exists av cv, dget o ("a_" ++ i) = Some av /\ dget o ("tilt_" ++ i) = Some (lift1 pacos cv) /\ spin_given np s i c av cv.
Proof.
  intros np s o added i c Hi HP H G. destruct (convert_inv np s o added H) as [o1 [o2 [o3 [o4 [o5 [o7 [E1 [E2 [E3 [E4 [E5 [E7 [E8 E9]]]]]]]]]]]]].
  destruct (tail_facts np s o3 o4 o5 o7 o E4 E5 E7 E8) as [T1 [T2 [T3 [T4 _]]]].
  assert (FR : forall k, ~ In k (["luminosity_distance"; "redshift"] ++ mass_keys false) -> dget o3 k = dget s k) by (intros k; apply (front s o1 o2 o3); assumption).
  cbn in Hi. destruct Hi as [<-|[<-|[]]].
  - destruct (spin_step_value np s "1" o3 o4 c E4 G) as [av [cv [V1 [V2 V3]]]]; try (apply FR; cbn; fr). exists av, cv. cbn [String.append] in *.
    rewrite T1, T2, V1 by (cbn; auto). split; [reflexivity|]. rewrite T4 by (cbn; auto). cbn [String.append]. rewrite T2 by (cbn; auto). rewrite V2. auto.
  - destruct (spin_step_value np s "2" o4 o5 c E5 G) as [av [cv [V1 [V2 V3]]]]; try (cbn [String.append]; rewrite T3 by (cbn; auto); apply FR; cbn; fr). exists av, cv. cbn [String.append] in *.
    rewrite T1, V1 by (cbn; auto). split; [reflexivity|]. rewrite T4 by (cbn; auto). cbn [String.append]. rewrite V2. auto.
Qed.
Lemma acos_facts : forall x, -1 <= x <= 1 -> 0 <= acos x <= PI /\ cos (acos x) = x.
Proof. intros x H. split; [apply acos_bound|apply cos_acos; exact H]. Qed.
(** aligned and in-plane component *)
Theorem C60_spin_in_plane : forall np s o added i c p, In i ["1"; "2"] -> plain s -> convert np s = Ok (o, added) ->
  dget s ("chi_" ++ i) = Some (Some c) -> dget s ("chi_" ++ i ++ "_in_plane") = Some (Some p) -> (c <> 0 \/ p <> 0) ->
  exists a t, dget o ("a_" ++ i) = Some (Some a) /\ dget o ("tilt_" ++ i) = Some (Some t) /\ 0 < a /\ 0 <= t <= PI /\ a * cos t = c /\ a * sin t = Rabs p.
Proof.
  intros np s o added i c p Hi HP H G1 G2 N. destruct (spin_end np s o added i c Hi HP H G1) as [av [cv [A [T V]]]]. unfold spin_given in V. rewrite G2 in V. destruct V as [-> ->].
  assert (Q : 0 < c ^ 2 + p ^ 2) by (destruct N; nra). pose proof (sqrt_lt_R0 _ Q) as Q'. set (a := sqrt (c ^ 2 + p ^ 2)) in *.
  assert (AA : a * a = c ^ 2 + p ^ 2) by (apply sqrt_sqrt; lra).
  assert (B : -1 <= c / a <= 1).
  { assert (C2 : c * c <= a * a) by nra. assert (-a <= c <= a) by (split; nra). split; [apply Rmult_le_reg_r with a|apply Rmult_le_reg_r with a]; try assumption; unfold Rdiv; rewrite Rmult_assoc, Rinv_l; lra. }
  rewrite pdiv_some in T by lra. cbn [lift1 bindo] in T. rewrite pacos_some in T by exact B. exists a, (acos (c / a)). destruct (acos_facts _ B) as [R C].
  repeat (split; [assumption|]). assert (X : a * cos (acos (c / a)) = c) by (rewrite C; field; lra). split; [exact X|].
  assert (S : 0 <= sin (acos (c / a))) by (apply sin_ge_0; lra). pose proof (sin2_cos2 (acos (c / a))) as SC. unfold Rsqr in SC. set (si := sin (acos (c / a))) in *. set (co := cos (acos (c / a))) in *.
  assert (E : (a * si) * (a * si) = Rabs p * Rabs p). { rewrite <- (Rabs_mult p p). rewrite Rabs_pos_eq by nra. nra. }
  pose proof (Rabs_pos p). assert (0 <= a * si) by nra. nra.
Qed.
(** aligned component only: magnitude and sign *)
Theorem C60_spin_aligned : forall np s o added i c, In i ["1"; "2"] -> plain s -> convert np s = Ok (o, added) ->
  dget s ("chi_" ++ i) = Some (Some c) -> dget s ("chi_" ++ i ++ "_in_plane") = None -> dget s ("a_" ++ i) = None ->
  exists t, dget o ("a_" ++ i) = Some (Some (Rabs c)) /\ dget o ("tilt_" ++ i) = Some (Some t) /\ 0 <= t <= PI /\ Rabs c * cos t = c /\ Rabs c * sin t = 0.
Proof.
  intros np s o added i c Hi HP H G1 G2 G3. destruct (spin_end np s o added i c Hi HP H G1) as [av [cv [A [T V]]]]. unfold spin_given in V. rewrite G2, G3 in V. destruct V as [-> ->].
  assert (B : -1 <= rsign c <= 1) by (unfold rsign; repeat destruct (Rlt_dec _ _); lra). cbn [lift1 bindo] in T. rewrite pacos_some in T by exact B. destruct (acos_facts _ B) as [R C].
  exists (acos (rsign c)). repeat (split; [assumption|]). split.
  - rewrite C. unfold rsign. destruct (Rlt_dec 0 c); [rewrite Rabs_pos_eq by lra; ring|]. destruct (Rlt_dec c 0); [rewrite Rabs_left by lra; ring|]. assert (c = 0) by lra. subst. rewrite Rabs_R0. ring.
  - unfold rsign in *. destruct (Rlt_dec 0 c); [rewrite acos_1, sin_0; ring|]. destruct (Rlt_dec c 0).
    + replace (-1) with (- (1)) by ring. rewrite acos_opp, acos_1, Rminus_0_r, sin_PI. ring.
    + assert (c = 0) by lra. subst. rewrite Rabs_R0. ring.
Qed.
(** aligned component with the magnitude *)
Theorem C60_spin_magnitude : forall np s o added i c a, In i ["1"; "2"] -> plain s -> convert np s = Ok (o, added) ->
  dget s ("chi_" ++ i) = Some (Some c) -> dget s ("chi_" ++ i ++ "_in_plane") = None -> dget s ("a_" ++ i) = Some (Some a) -> 0 <= a ->
  dget o ("a_" ++ i) = Some (Some a) /\
  (0 < a -> Rabs c <= a -> exists t, dget o ("tilt_" ++ i) = Some (Some t) /\ 0 <= t <= PI /\ a * cos t = c) /\
  (a = 0 -> c = 0 -> dget o ("tilt_" ++ i) = Some (Some 0)) /\
  (0 < a -> a < Rabs c -> dget o ("tilt_" ++ i) = Some None).
Proof.
  intros np s o added i c a Hi HP H G1 G2 G3 HA. destruct (spin_end np s o added i c Hi HP H G1) as [av [cv [A [T V]]]]. unfold spin_given in V. rewrite G2, G3 in V. destruct V as [-> ->].
  split; [exact A|]. split; [|split].
  - intros P C. destruct (Req_EM_T a 0) as [Z|_]; [lra|]. cbn [lift1 bindo] in T. apply Rabs_le_inv in C || apply Rabs_def2 in C || idtac.
    assert (B : -1 <= c / a <= 1).
    { assert (- a <= c <= a) by (unfold Rabs in *; destruct (Rcase_abs c); lra). split; apply Rmult_le_reg_r with a; try assumption; unfold Rdiv; rewrite Rmult_assoc, Rinv_l; lra. }
    rewrite pacos_some in T by exact B. destruct (acos_facts _ B) as [R K]. exists (acos (c / a)). repeat (split; [assumption|]). rewrite K. field. lra.
  - intros -> ->. destruct (Req_EM_T 0 0) as [_|N]; [|contradiction]. cbn [lift1 bindo] in T. rewrite pacos_some, acos_1 in T by lra. exact T.
  - intros P C. destruct (Req_EM_T a 0) as [Z|_]; [lra|]. cbn [lift1 bindo] in T. rewrite T. f_equal. unfold pacos.
    assert (~ (-1 <= c / a <= 1)).
    { intros [L U]. apply (Rmult_le_compat_r a) in L; [|lra]. apply (Rmult_le_compat_r a) in U; [|lra]. unfold Rdiv in L, U. rewrite Rmult_assoc, Rinv_l in L, U by lra. unfold Rabs in C. destruct (Rcase_abs c); lra. }
    repeat (destruct (Rle_dec _ _) || destruct (Rlt_dec _ _)); try reflexivity; exfalso; lra.
Qed.
(** cosines of angles *)
Theorem C60_angle : forall np s o added angle c, In angle ["tilt_1"; "tilt_2"; "theta_jn"] -> convert np s = Ok (o, added) ->
  plain s -> dmem s "chi_1" = false -> dmem s "chi_2" = false -> dget s ("cos_" ++ angle) = Some (Some c) -> -1 <= c <= 1 ->
  exists t, dget o angle = Some (Some t) /\ 0 <= t <= PI /\ cos t = c.
Proof.
  intros np s o added angle c Ha H HP C1 C2 G B. destruct (convert_inv np s o added H) as [o1 [o2 [o3 [o4 [o5 [o7 [E1 [E2 [E3 [E4 [E5 [E7 [E8 E9]]]]]]]]]]]]].
  destruct (tail_facts np s o3 o4 o5 o7 o E4 E5 E7 E8) as [_ [_ [_ [T4 _]]]].
  unfold spin_step in E4, E5. rewrite C1 in E4. rewrite C2 in E5. injection E4 as <-. injection E5 as <-.
  assert (X : dget o3 ("cos_" ++ angle) = Some (Some c)). { rewrite (front s o1 o2 o3); try assumption. cbn in Ha. repeat destruct Ha as [<-|Ha]; try contradiction; cbn; fr. }
  rewrite T4 by exact Ha. rewrite X. cbn [lift1 bindo]. rewrite pacos_some by exact B. exists (acos c). destruct (acos_facts c B) as [R K]. auto.
Qed.
(** the phase from the sum of phase and polarisation *)
Theorem C60_phase : forall np s o added d p t, plain s -> convert np s = Ok (o, added) ->
  dget s "delta_phase" = Some (Some d) -> dget s "psi" = Some (Some p) -> dget o "theta_jn" = Some (Some t) ->
  exists ph (k : Z), dget o "phase" = Some (Some ph) /\ 0 <= ph < 2 * PI /\ ph + rsign (cos t) * p = d + 2 * PI * IZR k.
Proof.
  intros np s o added d p t HP H G1 G2 G3. destruct (convert_inv np s o added H) as [o1 [o2 [o3 [o4 [o5 [o7 [E1 [E2 [E3 [E4 [E5 [E7 [E8 E9]]]]]]]]]]]]].
  destruct (tail_facts np s o3 o4 o5 o7 o E4 E5 E7 E8) as [_ [_ [_ [_ T5]]]].
  assert (X : forall k, In k ["delta_phase"; "psi"] -> dget o k = dget s k).
  { intros k K. rewrite (late_facts np s o3 o4 o5 o7 o E4 E5 E7 E8) by (cbn in K; destruct K as [<-|[<-|[]]]; cbn; fr). apply (front s o1 o2 o3); try assumption. cbn in K. destruct K as [<-|[<-|[]]]; cbn; fr. }
  unfold phase_step in E8. rewrite (dmem_some _ _ _ G1) in E8. unfold get in E8. rewrite !T5 in E8 by (cbn; auto). rewrite G3, !X, G1, G2 in E8 by (cbn; auto). cbn [bindr bindo] in E8. injection E8 as <-.
  rewrite dget_set_eq. pose proof PI_RGT_0. destruct (rmod_congr (d - rsign (cos t) * p) (2 * PI)) as [k K]. exists (rmod (d - rsign (cos t) * p) (2 * PI)), (- k)%Z.
  split; [reflexivity|]. split; [apply rmod_range; lra|]. rewrite K, opp_IZR. ring.
Qed.
(** ** C61 Source-frame parameters *)
Notation source_frame := (generate_source_frame_parameters dl_to_z z_to_dc).
Lemma source_fold : forall ks o z, dget o "redshift" = Some z -> (forall k, In k ks -> strip_source k = None) -> NoDup ks ->
  let o' := fold_left source_key_step ks o in
  dget o' "redshift" = Some z /\
  (forall k v, In k ks -> dget o k = Some v -> dget o' (k ++ "_source") = Some (lift2 (fun x y => pdiv x (1 + y)) v z)) /\
  (forall j, (forall k, In k ks -> dmem o k = true -> j <> (k ++ "_source")%string) -> dget o' j = dget o j).
Proof.
  induction ks as [|a ks IH]; intros o z R S N; cbn [fold_left]; [cbv zeta; split; [exact R|split; [intros k v []|reflexivity]]|].
  inversion N as [|? ? N1 N2]; subst. unfold source_key_step at 2 4 6. rewrite R.
  assert (NS : forall k b, In k (a :: ks) -> k <> (b ++ "_source")%string) by (intros k b K ->; specialize (S _ K); assert (Y : strip_source (b ++ "_source") = Some b) by (apply strip_spec; reflexivity); congruence).
  assert (NR : forall b, "redshift" <> (b ++ "_source")%string) by (intros b X; assert (Y : strip_source (b ++ "_source") = Some b) by (apply strip_spec; reflexivity); rewrite <- X in Y; discriminate).
  destruct (dget o a) as [v|] eqn:G.
  - set (w := lift2 _ v z). destruct (IH (dset o (a ++ "_source") w) z) as [I1 [I2 I3]]; [rewrite dget_set_ne; [exact R|apply NR]|intros k K; apply S; right; exact K|exact N2|]. cbv zeta in *.
    split; [exact I1|]. split.
    + intros k v' [->|K] G'.
      * rewrite I3; [rewrite dget_set_eq; rewrite G in G'; injection G' as <-; reflexivity|]. intros k' K' _ X. apply append_source_inj in X. subst. contradiction.
      * apply I2; [exact K|]. rewrite dget_set_ne; [exact G'|apply NS; right; exact K].
    + intros j J. rewrite I3; [apply dget_set_ne, J; [left; reflexivity|unfold dmem; rewrite G; reflexivity]|].
      intros k K M. apply J; [right; exact K|]. rewrite dmem_set_ne in M; [exact M|apply NS; right; exact K].
  - destruct (IH o z R (fun k K => S k (or_intror K)) N2) as [I1 [I2 I3]]. cbv zeta in *. split; [exact I1|]. split.
    + intros k v' [->|K] G'; [congruence|]. apply I2; assumption.
    + intros j J. apply I3. intros k K M. apply J; [right; exact K|exact M].
Qed.
Theorem C61_error : forall s, source_frame s = KeyErr <-> dget s "luminosity_distance" = None.
Proof.
  intros s. unfold generate_source_frame_parameters, get. destruct (dget s "luminosity_distance"); cbn [bindr]; [|tauto]. rewrite dget_set_eq. cbn [bindr]. split; discriminate.
Qed.
Theorem C61_values : forall (s o : sample) d z, dget s "luminosity_distance" = Some (Some d) -> dl_to_z d = Some z -> 1 + z <> 0 -> source_frame s = Ok o ->
  dget o "redshift" = Some (Some z) /\ dget o "comoving_distance" = Some (z_to_dc z) /\
  (forall k m, In k mass_names -> dget s k = Some (Some m) -> exists ms, dget o (k ++ "_source") = Some (Some ms) /\ ms * (1 + z) = m) /\
  (forall j, ~ In j ["redshift"; "comoving_distance"] -> (forall k, In k mass_names -> dmem s k = true -> j <> (k ++ "_source")%string) -> dget o j = dget s j).
Proof.
  intros s o d z G Z NZ H. unfold generate_source_frame_parameters, get in H. rewrite G in H. cbn [bindr] in H. rewrite dget_set_eq in H. cbn [bindr] in H. apply (f_equal (fun r => match r with Ok x => x | KeyErr => o end)) in H. cbv beta iota zeta in H.
  cbn [lift1 bindo] in H. rewrite Z in H. cbn [lift1 bindo] in H. set (o1 := dset (dset s "redshift" (Some z)) "comoving_distance" (z_to_dc z)) in H.
  assert (R1 : dget o1 "redshift" = Some (Some z)) by (unfold o1; rewrite dget_set_ne by discriminate; apply dget_set_eq).
  destruct (source_fold mass_names o1 (Some z) R1 mass_not_source) as [F1 [F2 F3]]; [unfold mass_names; repeat constructor; cbn; intuition discriminate|]. cbv zeta in *. unfold mass_names in F1, F2, F3. rewrite H in F1, F2, F3.
  assert (O1 : forall j, ~ In j ["redshift"; "comoving_distance"] -> dget o1 j = dget s j) by (intros j J; unfold o1; rewrite !dget_set_ne; [reflexivity|intros ->; apply J; cbn; auto|intros ->; apply J; cbn; auto]).
  assert (MN : forall k, In k mass_names -> ~ In k ["redshift"; "comoving_distance"]) by (intros k K; cbn in K; repeat destruct K as [<-|K]; try contradiction; cbn; intuition discriminate).
  split; [exact F1|]. split; [|split].
  - rewrite F3; [unfold o1; apply dget_set_eq|]. intros k _ _ X. assert (Y : strip_source (k ++ "_source") = Some k) by (apply strip_spec; reflexivity). rewrite <- X in Y. discriminate.
  - intros k m K Gk. exists (m / (1 + z)). rewrite (F2 k (Some m) K) by (rewrite O1 by (apply MN, K); exact Gk). cbn. rewrite pdiv_some by exact NZ. split; [reflexivity|]. field. exact NZ.
  - intros j J K. rewrite F3; [apply O1, J|]. intros k Hk M. apply K; [exact Hk|]. unfold dmem in *. rewrite O1 in M by (apply MN, Hk). exact M.
Qed.
(** there and back: the source-frame masses given to the waveform conversion with the same redshift are the masses *)
Theorem C61_roundtrip : forall np (s : sample) o d z s' o' added k m, dget s "luminosity_distance" = Some (Some d) -> dl_to_z d = Some z -> 1 + z <> 0 -> source_frame s = Ok o ->
  In k mass_names -> dget s k = Some (Some m) -> plain s' -> redshift_is s' z -> dget s' (k ++ "_source") = dget o (k ++ "_source") ->
  convert np s' = Ok (o', added) -> dget o' k = Some (Some m).
Proof.
  intros np s o d z s' o' added k m G Z NZ H K Gk HP HZ E C. destruct (C61_values s o d z G Z NZ H) as [_ [_ [V _]]]. destruct (V k m K Gk) as [ms [E1 E2]].
  rewrite E1 in E. rewrite (C60_source np s' o' added z k ms HP HZ C E). rewrite E2. reflexivity.
Qed.
End Conv.
Example C60_example : let zero (_ : R) := Some 0 in
  convert_to_lal_bbh zero (fun d => Some (d / 1000)) zero false [("mass_1_source", Some 10); ("mass_2_source", Some 5); ("luminosity_distance", Some 500); ("chi_1", Some (-1)); ("cos_tilt_1", Some 0)] =
  Ok ([("mass_1_source", Some 10); ("mass_2_source", Some 5); ("luminosity_distance", Some 500); ("chi_1", Some (-1)); ("cos_tilt_1", Some (rsign (-1)));
       ("redshift", Some (500 / 1000)); ("mass_1", Some (10 * (1 + 500 / 1000))); ("mass_2", Some (5 * (1 + 500 / 1000))); ("a_1", Some (Rabs (-1))); ("phi_jl", Some 0); ("phi_12", Some 0); ("tilt_1", pacos (rsign (-1)))],
      ["redshift"; "mass_1"; "mass_2"; "a_1"; "phi_jl"; "phi_12"; "tilt_1"]) /\
  convert_to_lal_bbh zero (fun d => Some (d / 1000)) zero false [("mass_1_source", Some 10); ("comoving_distance", Some 500)] = KeyErr.
Proof. split; reflexivity. Qed.
Example C61_example : exists o, generate_source_frame_parameters (fun d => Some (d / 1000)) (fun z => Some (z * 800)) [("mass_1", Some 15); ("luminosity_distance", Some 500); ("mass_1_source", Some 1)] = Ok o /\
  dkeys o = ["mass_1"; "luminosity_distance"; "mass_1_source"; "redshift"; "comoving_distance"] /\ dget o "mass_1_source" = Some (Some (15 / (1 + 500 / 1000))).
Proof. eexists. split; [reflexivity|]. split; [reflexivity|]. cbn. rewrite pdiv_some by lra. reflexivity. Qed.
(** ** C60 arrays: one row without spin decides the tilt of all rows *)
Theorem C60_column : forall chis aa, length chis = length aa ->
  (forall n, nth_error (combine chis aa) n = Some (0, 0) -> cos_tilt_column chis aa = map (fun _ => Some 1) chis) /\
  ((forall n, nth_error (combine chis aa) n <> Some (0, 0)) -> forall n c a, nth_error chis n = Some c -> nth_error aa n = Some a -> nth_error (cos_tilt_column chis aa) n = Some (pdiv c a)).
Proof.
  intros chis aa L. unfold cos_tilt_column. set (z := fun p : R * R => if Req_EM_T (fst p) 0 then if Req_EM_T (snd p) 0 then true else false else false). split.
  - intros n H. assert (E : existsb z (combine chis aa) = true).
    { apply existsb_exists. exists (0, 0). split; [apply (nth_error_In _ n); exact H|]. unfold z. cbn. destruct (Req_EM_T 0 0); [reflexivity|contradiction]. }
    rewrite E. clear - L. revert aa L. induction chis as [|c chis IH]; intros [|a aa] L; cbn in *; try discriminate; try reflexivity. f_equal. apply IH. lia.
  - intros H n c a Hc Ha. assert (E : existsb z (combine chis aa) = false).
    { apply not_true_is_false. intro X. apply existsb_exists in X as [[x y] [I Z]]. unfold z in Z. cbn in Z. destruct (Req_EM_T x 0) as [->|]; [|discriminate]. destruct (Req_EM_T y 0) as [->|]; [|discriminate].
      apply In_nth_error in I as [m M]. exact (H m M). }
    rewrite E. clear E H. revert aa n L Hc Ha. induction chis as [|x chis IH]; intros [|y aa] n L Hc Ha; cbn in *; try discriminate; [destruct n; discriminate|].
    destruct n as [|n]; cbn in *; [injection Hc as ->; injection Ha as ->; reflexivity|]. apply (IH aa n); [lia|assumption|assumption].
Qed.
Theorem C60_column_refuted : exists chis aa, nth_error chis 1 = Some (1/2) /\ nth_error aa 1 = Some 1 /\ nth_error (cos_tilt_column chis aa) 1 = Some (Some 1).
Proof.
  exists [0; 1/2], [0; 1]. split; [reflexivity|]. split; [reflexivity|]. destruct (C60_column [0; 1/2] [0; 1] eq_refl) as [H _]. rewrite (H 0%nat eq_refl). reflexivity.
Qed.

(** ** C62 Spins *)
Section Spins.
Variable lal : list R -> R * (R * R * R) * (R * R * R).
Variable sm : R.
Lemma generate_spin_inv : forall s o, generate_spin_parameters lal sm s = Ok o -> exists z1 z2 q x1 y1 x2 y2, let o0 := generate_component_spins lal sm s in
  dget o0 "spin_1z" = Some z1 /\ dget o0 "spin_2z" = Some z2 /\ dget o0 "mass_ratio" = Some q /\ dget o0 "spin_1x" = Some x1 /\ dget o0 "spin_1y" = Some y1 /\ dget o0 "spin_2x" = Some x2 /\ dget o0 "spin_2y" = Some y2 /\
  dget o "chi_eff" = Some (let* a := z1 in let* b := z2 in let* q := q in chi_eff a b q) /\
  dget o "chi_1_in_plane" = Some (lift2 in_plane x1 y1) /\ dget o "chi_2_in_plane" = Some (lift2 in_plane x2 y2) /\
  dget o "chi_p" = Some (let* a := lift2 in_plane x1 y1 in let* b := lift2 in_plane x2 y2 in let* q := q in chi_p a b q) /\
  (forall k, ~ In k ["chi_eff"; "chi_1_in_plane"; "chi_2_in_plane"; "chi_p"; "cos_tilt_1"; "cos_tilt_2"] -> dget o k = dget o0 k).
Proof.
  intros s o H. unfold generate_spin_parameters in H. cbv zeta in H. set (o0 := generate_component_spins lal sm s) in *. clearbody o0.
  unfold get in H. destruct (dget o0 "spin_1z") as [z1|] eqn:Z1; [|discriminate]. cbn [bindr] in H. destruct (dget o0 "spin_2z") as [z2|] eqn:Z2; [|discriminate]. cbn [bindr] in H.
  destruct (dget o0 "mass_ratio") as [q|] eqn:Q; [|discriminate]. cbn [bindr] in H. rewrite !(dget_set_ne _ "spin_1x"), !(dget_set_ne _ "spin_1y") in H by discriminate.
  destruct (dget o0 "spin_1x") as [x1|] eqn:X1; [|discriminate]. cbn [bindr] in H. destruct (dget o0 "spin_1y") as [y1|] eqn:Y1; [|discriminate]. cbn [bindr] in H.
  rewrite !(dget_set_ne _ "spin_2x"), !(dget_set_ne _ "spin_2y") in H by discriminate.
  destruct (dget o0 "spin_2x") as [x2|] eqn:X2; [|discriminate]. cbn [bindr] in H. destruct (dget o0 "spin_2y") as [y2|] eqn:Y2; [|discriminate]. cbn [bindr] in H.
  rewrite dget_set_ne in H by discriminate. rewrite !dget_set_eq in H. cbn [bindr] in H. rewrite !(dget_set_ne _ "mass_ratio") in H by discriminate. rewrite Q in H. cbn [bindr] in H.
  exists z1, z2, q, x1, y1, x2, y2. cbv zeta. repeat (split; [assumption || reflexivity|]). clear Z1 Z2 Q X1 Y1 X2 Y2.
  match type of H with context[dget ?x "tilt_1"] => set (p := x) in * end.
  assert (U : (forall k, ~ In k ["cos_tilt_1"; "cos_tilt_2"] -> dget o k = dget p k)).
  { intros k K. destruct (dget p "tilt_1"); [|injection H as <-; reflexivity]. rewrite dget_set_ne in H by discriminate. destruct (dget p "tilt_2"); injection H as <-; rewrite !dget_set_ne; try reflexivity; intros ->; apply K; cbn; auto. }
  rewrite !U by (cbn; intuition discriminate). unfold p. repeat (split; [look; reflexivity|]). intros k K. rewrite U by (cbn in *; tauto). unfold p. rewrite !dget_set_ne; try reflexivity; intros ->; apply K; cbn; tauto.
Qed.
(** effective aligned spin: the mass-weighted mean of the aligned components, so between them *)
Theorem C62_chi_eff : forall s o z1 z2 m1 m2, generate_spin_parameters lal sm s = Ok o ->
  dget o "spin_1z" = Some (Some z1) -> dget o "spin_2z" = Some (Some z2) -> dget o "mass_ratio" = Some (Some (m2 / m1)) -> 0 < m1 -> 0 < m2 ->
  exists x, dget o "chi_eff" = Some (Some x) /\ x * (m1 + m2) = m1 * z1 + m2 * z2 /\ Rmin z1 z2 <= x <= Rmax z1 z2.
Proof.
  intros s o z1 z2 m1 m2 H G1 G2 G3 H1 H2. destruct (generate_spin_inv s o H) as [a [b [q [x1 [y1 [x2 [y2 [Z1 [Z2 [Q [_ [_ [_ [_ [E [_ [_ [_ U]]]]]]]]]]]]]]]]]]. cbv zeta in *.
  rewrite U in G1, G2, G3 by (cbn; intuition discriminate). rewrite Z1 in G1. rewrite Z2 in G2. rewrite Q in G3. injection G1 as ->. injection G2 as ->. injection G3 as ->. cbn [bindo] in E.
  assert (0 < m2 / m1) by (apply Rdiv_lt_0_compat; assumption). unfold chi_eff in E. rewrite pdiv_some in E by lra. eexists. split; [exact E|].
  assert (X : (z1 + z2 * (m2 / m1)) / (1 + m2 / m1) * (m1 + m2) = m1 * z1 + m2 * z2) by (field; lra). split; [exact X|]. set (x := (z1 + z2 * (m2 / m1)) / (1 + m2 / m1)) in *.
  unfold Rmin, Rmax. destruct (Rle_dec z1 z2); split; nra.
Qed.
(** effective precession spin: at least the in-plane spin of the primary, at most the larger one *)
Theorem C62_chi_p : forall s o x1 y1 x2 y2 q, generate_spin_parameters lal sm s = Ok o ->
  dget o "spin_1x" = Some (Some x1) -> dget o "spin_1y" = Some (Some y1) -> dget o "spin_2x" = Some (Some x2) -> dget o "spin_2y" = Some (Some y2) -> dget o "mass_ratio" = Some (Some q) -> 0 < q <= 1 ->
  exists c1 c2 p, dget o "chi_1_in_plane" = Some (Some c1) /\ dget o "chi_2_in_plane" = Some (Some c2) /\ dget o "chi_p" = Some (Some p) /\
    0 <= c1 /\ c1 ^ 2 = x1 ^ 2 + y1 ^ 2 /\ 0 <= c2 /\ c2 ^ 2 = x2 ^ 2 + y2 ^ 2 /\ c1 <= p <= Rmax c1 c2 /\ (q = 1 -> p = Rmax c1 c2) /\ (p = 0 <-> c1 = 0 /\ c2 = 0).
Proof.
  intros s o x1 y1 x2 y2 q H G1 G2 G3 G4 G5 Hq. destruct (generate_spin_inv s o H) as [a [b [q' [a1 [b1 [a2 [b2 [_ [_ [Q [X1 [Y1 [X2 [Y2 [_ [C1 [C2 [P U]]]]]]]]]]]]]]]]]]. cbv zeta in *.
  rewrite U in G1, G2, G3, G4, G5 by (cbn; intuition discriminate). rewrite X1 in G1. rewrite Y1 in G2. rewrite X2 in G3. rewrite Y2 in G4. rewrite Q in G5. injection G1 as ->. injection G2 as ->. injection G3 as ->. injection G4 as ->. injection G5 as ->.
  assert (Q1 : 0 <= x1 ^ 2 + y1 ^ 2) by nra. assert (Q2 : 0 <= x2 ^ 2 + y2 ^ 2) by nra. unfold lift2 in C1, C2, P. cbn [bindo] in C1, C2, P. unfold in_plane in *. rewrite psqrt_some in C1, P by assumption. rewrite psqrt_some in C2, P by assumption. cbn [bindo] in P.
  pose proof (sqrt_pos (x1 ^ 2 + y1 ^ 2)) as P1. pose proof (sqrt_pos (x2 ^ 2 + y2 ^ 2)) as P2. pose proof (sqrt_sqrt _ Q1) as S1. pose proof (sqrt_sqrt _ Q2) as S2.
  set (c1 := sqrt (x1 ^ 2 + y1 ^ 2)) in *. set (c2 := sqrt (x2 ^ 2 + y2 ^ 2)) in *. unfold chi_p in P. rewrite pdiv_some in P by lra. cbn [bindo] in P.
  set (f := (4 * q + 3) / (3 * q + 4) * q) in *. assert (Ff : 0 < f <= 1).
  { unfold f. assert (D : 0 < 3 * q + 4) by lra. split; [apply Rmult_lt_0_compat; [apply Rdiv_lt_0_compat|]; lra|].
    apply Rmult_le_reg_r with (3 * q + 4); [exact D|]. replace ((4 * q + 3) / (3 * q + 4) * q * (3 * q + 4)) with ((4 * q + 3) * q) by (field; lra). nra. }
  exists c1, c2, (Rmax c1 (f * c2)). repeat (split; [assumption || (cbn; lra)|]).
  assert (F0 : 0 <= f * c2 <= c2) by (split; nra). split; [split; [apply Rmax_l|unfold Rmax; repeat destruct (Rle_dec _ _); lra]|]. split.
  - intros ->. replace f with 1 by (unfold f; field). f_equal. ring.
  - split; [|intros [-> ->]; rewrite Rmult_0_r; unfold Rmax; destruct (Rle_dec 0 0); reflexivity]. intro E. pose proof (Rmax_l c1 (f * c2)). pose proof (Rmax_r c1 (f * c2)). split; [lra|]. assert (Z0 : f * c2 = 0) by lra. apply Rmult_integral in Z0 as [|]; lra.
Qed.
(** spins along the orbital angular momentum are handed on unchanged *)
Theorem C62_aligned : forall s tj pj t1 t2 p12 a1 a2 m1 m2 f ph o,
  numbers s spin_conversion_parameters = Some [tj; pj; t1; t2; p12; a1; a2; m1; m2; f; ph] ->
  (a1 = 0 \/ t1 = 0 \/ t1 = PI) -> (a2 = 0 \/ t2 = 0 \/ t2 = PI) -> generate_spin_parameters lal sm s = Ok o ->
  dget o "iota" = Some (Some tj) /\ dget o "spin_1z" = Some (Some (a1 * cos t1)) /\ dget o "spin_2z" = Some (Some (a2 * cos t2)) /\
  (forall k, In k ["spin_1x"; "spin_1y"; "spin_2x"; "spin_2y"; "phi_1"; "phi_2"; "chi_1_in_plane"; "chi_2_in_plane"] -> dget o k = Some (Some 0)) /\
  (forall q, dget s "mass_ratio" = Some (Some q) -> 0 < q -> dget o "chi_p" = Some (Some 0)).
Proof.
  intros s tj pj t1 t2 p12 a1 a2 m1 m2 f ph o N A1 A2 H.
  assert (M : forallb (dmem s) spin_conversion_parameters = true).
  { assert (G : forall ks l, numbers s ks = Some l -> forallb (dmem s) ks = true).
    { induction ks as [|k ks IH]; intros l E; [reflexivity|]. cbn in *. unfold dmem. destruct (dget s k) as [[x|]|]; try discriminate. destruct (numbers s ks) as [r|]; [|discriminate]. apply (IH r eq_refl). }
    apply (G _ _ N). }
  destruct (generate_spin_inv s o H) as [za [zb [q' [xa [ya [xb [yb [Z1 [Z2 [Q [X1 [Y1 [X2 [Y2 [_ [C1 [C2 [P U]]]]]]]]]]]]]]]]]]. cbv zeta in *.
  assert (B : bilby_to_lalsimulation_spins lal tj pj t1 t2 p12 a1 a2 (m1 * sm) (m2 * sm) f ph = (tj, (0, 0, a1 * cos t1), (0, 0, a2 * cos t2))).
  { unfold bilby_to_lalsimulation_spins. assert (S : forall a t, a = 0 \/ t = 0 \/ t = PI -> (if Req_EM_T a 0 then true else if Req_EM_T t 0 then true else if Req_EM_T t PI then true else false) = true).
    { intros a t K. destruct (Req_EM_T a 0); [reflexivity|]. destruct (Req_EM_T t 0); [reflexivity|]. destruct (Req_EM_T t PI); [reflexivity|]. tauto. }
    rewrite !S by assumption. reflexivity. }
  assert (AZ : azimuth 0 0 = 0).
  { unfold azimuth, atan2. repeat (destruct (Rlt_dec _ _) as [X|_]; [exfalso; lra|]). pose proof PI_RGT_0. apply (rmod_unique _ _ 0 1); [lra|lra|]. simpl. ring. }
  assert (E0 : forall k v, dget (dsets s [("iota", Some tj); ("spin_1x", Some 0); ("spin_1y", Some 0); ("spin_1z", Some (a1 * cos t1)); ("spin_2x", Some 0); ("spin_2y", Some 0); ("spin_2z", Some (a2 * cos t2)); ("phi_1", Some 0); ("phi_2", Some 0)]) k = v -> dget (generate_component_spins lal sm s) k = v).
  { intros k v E. unfold generate_component_spins. rewrite M, N, B, AZ. exact E. }
  assert (V : forall k v, dget (generate_component_spins lal sm s) k = v -> ~ In k ["chi_eff"; "chi_1_in_plane"; "chi_2_in_plane"; "chi_p"; "cos_tilt_1"; "cos_tilt_2"] -> dget o k = v) by (intros k v E K; rewrite U by exact K; exact E).
  unfold dsets in E0. cbn [fold_left fst snd] in E0.
  assert (D1 : dget (generate_component_spins lal sm s) "spin_1x" = Some (Some 0)) by (apply E0; look; reflexivity). assert (D2 : dget (generate_component_spins lal sm s) "spin_1y" = Some (Some 0)) by (apply E0; look; reflexivity).
  assert (D3 : dget (generate_component_spins lal sm s) "spin_2x" = Some (Some 0)) by (apply E0; look; reflexivity). assert (D4 : dget (generate_component_spins lal sm s) "spin_2y" = Some (Some 0)) by (apply E0; look; reflexivity).
  rewrite X1 in D1. rewrite Y1 in D2. rewrite X2 in D3. rewrite Y2 in D4. injection D1 as ->. injection D2 as ->. injection D3 as ->. injection D4 as ->.
  assert (IP : lift2 in_plane (Some 0) (Some 0) = Some 0). { cbn. unfold in_plane. replace (0 ^ 2 + 0 ^ 2) with 0 by ring. rewrite psqrt_some by lra. rewrite sqrt_0. reflexivity. }
  rewrite IP in C1, C2, P. cbn [bindo] in P.
  split; [apply V; [apply E0; look; reflexivity|cbn; intuition discriminate]|]. split; [apply V; [apply E0; look; reflexivity|cbn; intuition discriminate]|]. split; [apply V; [apply E0; look; reflexivity|cbn; intuition discriminate]|]. split.
  - intros k K. cbn in K. repeat (destruct K as [<-|K]; [first [exact C1 | exact C2 | apply V; [apply E0; look; reflexivity|cbn; intuition discriminate]]|]). contradiction.
  - intros q G Hq. assert (Q2 : dget (generate_component_spins lal sm s) "mass_ratio" = Some (Some q)) by (apply E0; look; reflexivity). rewrite Q in Q2. injection Q2 as ->. cbn [bindo] in P. unfold chi_p in P. rewrite pdiv_some in P by lra. cbn [bindo] in P. rewrite P.
    rewrite Rmult_0_r. unfold Rmax. destruct (Rle_dec 0 0); reflexivity.
Qed.
(** if one of the spins is neither zero nor along the orbital angular momentum, all are those of lalsimulation, for masses in SI units *)
Theorem C62_precessing : forall s tj pj t1 t2 p12 a1 a2 m1 m2 f ph o iota x1 y1 z1 x2 y2 z2,
  numbers s spin_conversion_parameters = Some [tj; pj; t1; t2; p12; a1; a2; m1; m2; f; ph] ->
  (a1 <> 0 /\ t1 <> 0 /\ t1 <> PI) \/ (a2 <> 0 /\ t2 <> 0 /\ t2 <> PI) -> generate_spin_parameters lal sm s = Ok o ->
  lal [tj; pj; t1; t2; p12; a1; a2; m1 * sm; m2 * sm; f; ph] = (iota, (x1, y1, z1), (x2, y2, z2)) ->
  dget o "iota" = Some (Some iota) /\ dget o "spin_1x" = Some (Some x1) /\ dget o "spin_1y" = Some (Some y1) /\ dget o "spin_1z" = Some (Some z1) /\
  dget o "spin_2x" = Some (Some x2) /\ dget o "spin_2y" = Some (Some y2) /\ dget o "spin_2z" = Some (Some z2).
Proof.
  intros s tj pj t1 t2 p12 a1 a2 m1 m2 f ph o iota x1 y1 z1 x2 y2 z2 N A H LA.
  assert (M : forallb (dmem s) spin_conversion_parameters = true).
  { assert (G : forall ks l, numbers s ks = Some l -> forallb (dmem s) ks = true).
    { induction ks as [|k ks IH]; intros l E; [reflexivity|]. cbn in *. unfold dmem. destruct (dget s k) as [[x|]|]; try discriminate. destruct (numbers s ks) as [r|]; [|discriminate]. apply (IH r eq_refl). }
    apply (G _ _ N). }
  destruct (generate_spin_inv s o H) as [za [zb [q' [xa [ya [xb [yb [_ [_ [_ [_ [_ [_ [_ [_ [_ [_ [_ U]]]]]]]]]]]]]]]]]]. cbv zeta in *.
  assert (B : bilby_to_lalsimulation_spins lal tj pj t1 t2 p12 a1 a2 (m1 * sm) (m2 * sm) f ph = (iota, (x1, y1, z1), (x2, y2, z2))).
  { unfold bilby_to_lalsimulation_spins. rewrite LA. repeat (destruct (Req_EM_T _ _); try (exfalso; tauto); cbn [andb]); reflexivity. }
  assert (E0 : forall k, dget (generate_component_spins lal sm s) k = dget (dsets s [("iota", Some iota); ("spin_1x", Some x1); ("spin_1y", Some y1); ("spin_1z", Some z1); ("spin_2x", Some x2); ("spin_2y", Some y2); ("spin_2z", Some z2); ("phi_1", Some (azimuth y1 x1)); ("phi_2", Some (azimuth y2 x2))]) k).
  { intros k. unfold generate_component_spins. rewrite M, N, B. reflexivity. }
  unfold dsets in E0. cbn [fold_left fst snd] in E0.
  repeat split; (rewrite U by (cbn; intuition discriminate); rewrite E0; look; reflexivity).
Qed.
(** without the eleven parameters and without both aligned components there is an error, not a warning *)
Theorem C62_error : forall s, forallb (dmem s) spin_conversion_parameters = false -> (dget s "chi_1" = None \/ dget s "chi_2" = None) -> dget s "spin_1z" = None ->
  generate_spin_parameters lal sm s = KeyErr.
Proof.
  intros s M C D. unfold generate_spin_parameters, generate_component_spins. rewrite M. cbv zeta.
  destruct C as [-> | C]; [|rewrite C; destruct (dget s "chi_1")]; rewrite (get_none _ _ D); reflexivity.
Qed.
End Spins.
(** azimuths of the spins *)
Theorem C62_azimuth : forall x y, 0 <= azimuth y x < 2 * PI /\ sqrt (x ^ 2 + y ^ 2) * cos (azimuth y x) = x /\ sqrt (x ^ 2 + y ^ 2) * sin (azimuth y x) = y.
Proof.
  intros x y. pose proof PI_RGT_0 as PP. split; [apply rmod_range; lra|].
  assert (P : forall k t, cos (t - 2 * PI * IZR k) = cos t /\ sin (t - 2 * PI * IZR k) = sin t).
  { intros k t. assert (Q : forall n t, cos (t + 2 * INR n * PI) = cos t /\ sin (t + 2 * INR n * PI) = sin t) by (intros; split; [apply cos_period|apply sin_period]).
    destruct (Z_le_gt_dec 0 k) as [L|G].
    - destruct (Q (Z.to_nat k) (t - 2 * PI * IZR k)) as [A B]. rewrite INR_IZR_INZ, Z2Nat.id in A, B by exact L.
      replace (t - 2 * PI * IZR k + 2 * IZR k * PI) with t in A, B by ring. split; congruence.
    - destruct (Q (Z.to_nat (- k)) t) as [A B]. rewrite INR_IZR_INZ, Z2Nat.id, opp_IZR in A, B by lia.
      replace (t + 2 * - IZR k * PI) with (t - 2 * PI * IZR k) in A, B by ring. split; congruence. }
  assert (AZ : cos (azimuth y x) = cos (atan2 y x) /\ sin (azimuth y x) = sin (atan2 y x)).
  { unfold azimuth. destruct (rmod_congr (2 * PI + atan2 y x) (2 * PI)) as [k ->]. destruct (P k (2 * PI + atan2 y x)) as [-> ->]. destruct (P (-1)%Z (atan2 y x)) as [A B].
    replace (atan2 y x - 2 * PI * IZR (-1)) with (2 * PI + atan2 y x) in A, B by (simpl; ring). split; assumption. }
  destruct AZ as [-> ->].
  assert (AT : forall u, x <> 0 -> u = y / x -> Rabs x * sqrt (1 + u ^ 2) = sqrt (x ^ 2 + y ^ 2)).
  { intros u N ->. rewrite <- sqrt_Rsqr_abs. rewrite <- sqrt_mult by (unfold Rsqr; nra). f_equal. unfold Rsqr. field. exact N. }
  assert (CA : forall u, cos (atan u) * sqrt (1 + u ^ 2) = 1 /\ sin (atan u) = u * cos (atan u)).
  { intro u. assert (0 < sqrt (1 + u ^ 2)) by (apply sqrt_lt_R0; nra). rewrite cos_atan, sin_atan. replace (1 + u ^ 2) with (1 + u²) in * by (unfold Rsqr; ring). split; field; lra. }
  unfold atan2. destruct (Rlt_dec 0 x) as [X|X].
  - destruct (CA (y / x)) as [C S]. rewrite S. rewrite <- (AT (y / x)) by (reflexivity || lra). rewrite Rabs_pos_eq by lra.
    split; [|replace (x * sqrt (1 + (y / x) ^ 2) * (y / x * cos (atan (y / x)))) with (y * (cos (atan (y / x)) * sqrt (1 + (y / x) ^ 2))) by (field; lra)]; [replace (x * sqrt (1 + (y / x) ^ 2) * cos (atan (y / x))) with (x * (cos (atan (y / x)) * sqrt (1 + (y / x) ^ 2))) by ring|]; rewrite C; ring.
  - destruct (Rlt_dec x 0) as [X'|X'].
    + destruct (CA (y / x)) as [C S].
      assert (G : forall t, cos t = - cos (atan (y / x)) -> sin t = - sin (atan (y / x)) -> sqrt (x ^ 2 + y ^ 2) * cos t = x /\ sqrt (x ^ 2 + y ^ 2) * sin t = y).
      { intros t -> ->. rewrite S. rewrite <- (AT (y / x)) by (reflexivity || lra). rewrite Rabs_left by lra.
        split; [replace (- x * sqrt (1 + (y / x) ^ 2) * - cos (atan (y / x))) with (x * (cos (atan (y / x)) * sqrt (1 + (y / x) ^ 2))) by ring|replace (- x * sqrt (1 + (y / x) ^ 2) * - (y / x * cos (atan (y / x)))) with (y * (cos (atan (y / x)) * sqrt (1 + (y / x) ^ 2))) by (field; lra)]; rewrite C; ring. }
      destruct (Rle_dec 0 y); apply G.
      * apply neg_cos. * apply neg_sin.
      * rewrite cos_minus, cos_PI, sin_PI. ring. * rewrite sin_minus, cos_PI, sin_PI. ring.
    + assert (x = 0) by lra. subst x. replace (0 ^ 2 + y ^ 2) with (y * y) by ring.
      destruct (Rlt_dec 0 y) as [Y|Y]; [rewrite sqrt_square, cos_PI2, sin_PI2 by lra; split; ring|].
      destruct (Rlt_dec y 0) as [Y'|Y'].
      * replace (y * y) with ((- y) * (- y)) by ring. rewrite sqrt_square by lra. rewrite cos_neg, sin_neg, cos_PI2, sin_PI2. split; ring.
      * assert (y = 0) by lra. subst y. rewrite Rmult_0_r, sqrt_0. split; ring.
Qed.
Example C62_example : forall lal sm, exists o, generate_spin_parameters lal sm [("chi_1", Some (1/2)); ("chi_2", Some (-1/4)); ("mass_ratio", Some 1)] = Ok o /\
  dget o "spin_1z" = Some (Some (1/2)) /\ exists x, dget o "chi_eff" = Some (Some x) /\ x = 1/8.
Proof.
  intros lal sm. eexists. split; [reflexivity|]. split; [reflexivity|]. eexists. split; [cbn; unfold chi_eff; rewrite pdiv_some by lra; reflexivity|]. field.
Qed.

(** ** Assumptions of every theorem above *)
Definition GwBbh_Props_all :=
  (@C60_kept,
   @C60_source,
   @C60_comoving_refuted,
   @C60_spin_in_plane,
   @C60_spin_aligned,
   @C60_spin_magnitude,
   @C60_angle,
   @C60_phase,
   @C61_error,
   @C61_values,
   @C61_roundtrip,
   @C60_column,
   @C60_column_refuted,
   @C62_chi_eff,
   @C62_chi_p,
   @C62_aligned,
   @C62_precessing,
   @C62_error,
   @C62_azimuth).
Print Assumptions GwBbh_Props_all.
