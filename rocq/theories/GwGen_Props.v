(** * Properties of the completion of parameter dictionaries *)
From Coq Require Import Reals String List Bool Arith Lia Lra Psatz.
From Verif Require Import PyReal PyDict GwMass_Model GwMass_Proofs GwGen_Model.
Import ListNotations.
Open Scope R_scope. Open Scope string_scope. Open Scope list_scope.

(** ** C37 Component masses *)
Definition extends (s s' : sample) : Prop := forall k v, dget s k = Some v -> dget s' k = Some v.
Definition mass_keys src := [m1k src; m2k src; tk src; ck src; qk; ek].
(** two different mass parameters, not just the two ratios *)
Definition spans src (s : sample) : Prop :=
  exists k k', k <> k' /\ In k (mass_keys src) /\ In k' (mass_keys src) /\ dmem s k = true /\ dmem s k' = true /\
  ~ (In k [qk; ek] /\ In k' [qk; ek]).
Definition spansb src (s : sample) : bool :=
  let a := dmem s (m1k src) in let b := dmem s (m2k src) in let t := dmem s (tk src) in let c := dmem s (ck src) in
  let r := (dmem s qk || dmem s ek)%bool in
  ((a && (b || t || c || r)) || (b && (t || c || r)) || (t && (c || r)) || (c && r))%bool.
Lemma spans_iff : forall src s, spans src s <-> spansb src s = true.
Proof.
  intros src s. split.
  - intros [k [k' [N [H [H' [M [M' B]]]]]]]. unfold spansb. unfold mass_keys in H, H'. simpl in H, H'.
    repeat destruct H as [H|H]; try contradiction; subst k; repeat destruct H' as [H'|H']; try contradiction; subst k'; try (exfalso; apply N; reflexivity);
      try (exfalso; apply B; split; simpl; auto; fail); rewrite M, M'; rewrite ?orb_true_r, ?andb_true_r, ?orb_true_r; reflexivity.
  - unfold spansb. intro H.
    assert (D : forall a b, a <> b -> In a (mass_keys src) -> In b (mass_keys src) -> ~ (In a [qk; ek] /\ In b [qk; ek]) -> dmem s a = true -> dmem s b = true -> spans src s).
    { intros a b N Ha Hb K Ma Mb. exists a, b. repeat (split; [assumption|]). assumption. }
    destruct (dmem s (m1k src)) eqn:E1, (dmem s (m2k src)) eqn:E2, (dmem s (tk src)) eqn:E3, (dmem s (ck src)) eqn:E4, (dmem s qk) eqn:E5, (dmem s ek) eqn:E6; simpl in H; try discriminate;
    match goal with
    | A : dmem s ?a = true, B : dmem s ?b = true |- _ => apply (D a b); [destruct src; discriminate|simpl; tauto|simpl; tauto|destruct src; simpl; intuition discriminate|exact A|exact B]
    end.
Qed.
(** the values the six parameters have for component masses m1, m2 *)
Definition fact src (m1 m2 mc eta : R) (k : string) : option R :=
  if String.eqb k (m1k src) then Some m1 else if String.eqb k (m2k src) then Some m2
  else if String.eqb k (tk src) then Some (m1 + m2) else if String.eqb k (ck src) then Some mc
  else if String.eqb k qk then Some (m2 / m1) else if String.eqb k ek then Some eta else None.
Definition consistent src m1 m2 mc eta (s : sample) : Prop :=
  forall k x v, fact src m1 m2 mc eta k = Some x -> dget s k = Some v -> v = Some x.

Lemma dmem_some : forall (s : sample) k v, dget s k = Some v -> dmem s k = true.
Proof. intros s k v H. unfold dmem. rewrite H. reflexivity. Qed.
Lemma dmem_none : forall (s : sample) k, dget s k = None -> dmem s k = false.
Proof. intros s k H. unfold dmem. rewrite H. reflexivity. Qed.
Lemma get_some : forall (s : sample) k v, dget s k = Some v -> get s k = Ok v.
Proof. intros s k v H. unfold get. rewrite H. reflexivity. Qed.
Lemma get_none : forall (s : sample) k, dget s k = None -> get s k = KeyErr.
Proof. intros s k H. unfold get. rewrite H. reflexivity. Qed.
Lemma get_set_eq : forall (s : sample) k v, get (dset s k v) k = Ok v.
Proof. intros. unfold get. rewrite dget_set_eq. reflexivity. Qed.
Lemma get_set_ne : forall (s : sample) k k' v, k <> k' -> get (dset s k' v) k = get s k.
Proof. intros. unfold get. rewrite dget_set_ne by assumption. reflexivity. Qed.
Lemma dmem_set_eq : forall (s : sample) k v, dmem (dset s k v) k = true.
Proof. intros. unfold dmem. rewrite dget_set_eq. reflexivity. Qed.
Lemma dmem_set_ne : forall (s : sample) k k' v, k <> k' -> dmem (dset s k' v) k = dmem s k.
Proof. intros. unfold dmem. rewrite dget_set_ne by assumption. reflexivity. Qed.
(** decide the outermost test *)
Ltac test s := match goal with
  | |- _ (if dmem s ?k then _ else _) => let E := fresh "E" in let M := fresh "M" in let G := fresh "G" in
      destruct (dget s k) eqn:E; [pose proof (dmem_some s k _ E) as M; pose proof (get_some s k _ E) as G | pose proof (dmem_none s k E) as M; pose proof (get_none s k E) as G]; rewrite M
  end.
(** evaluate reads of the known dictionary *)
Ltac look := repeat (rewrite dget_set_eq || (rewrite dget_set_ne by discriminate) || match goal with E : dget ?s ?k = _ |- context[dget ?s ?k] => rewrite E end).
Ltac reads := repeat (progress cbn [bindr negb orb andb] || rewrite get_set_eq || (rewrite get_set_ne by discriminate) || rewrite dmem_set_eq || (rewrite dmem_set_ne by discriminate) ||
  match goal with G : get ?s ?k = _ |- context[get ?s ?k] => rewrite G | M : dmem ?s ?k = _ |- context[dmem ?s ?k] => rewrite M end).
Lemma extends_set : forall s k v, dget s k = None -> extends s (dset s k v).
Proof. intros s k v H k' v' H'. rewrite dget_set_ne by congruence. exact H'. Qed.
Lemma extends_trans : forall a b c, extends a b -> extends b c -> extends a c.
Proof. unfold extends. auto. Qed.
Lemma extends_refl : forall a, extends a a.
Proof. unfold extends. auto. Qed.
Ltac ext := repeat (first [apply extends_refl | eapply extends_trans; [|apply extends_set; look; reflexivity]]).
Definition outcome req src (s : sample) (r : res sample) : Prop :=
  match r with
  | KeyErr => spansb src s = false /\ (req = true \/ dmem s (m2k src) = true)
  | Ok s' => extends s s' /\ (forall k, ~ In k (mass_keys src) -> dget s' k = dget s k) /\
             (spansb src s = true /\ dmem s' (m1k src) = true /\ dmem s' (m2k src) = true \/
              spansb src s = false /\ s' = s /\ req = false /\ dmem s (m2k src) = false)
  end.
Lemma outcome_quietly : forall req src s, spansb src s = false -> dmem s (m2k src) = false -> outcome req src s (quietly req s).
Proof.
  intros req src s H M. unfold quietly. destruct req; simpl; [auto|]. split; [apply extends_refl|]. split; [reflexivity|]. right. auto.
Qed.
Ltac spandec := unfold spansb, m1k, m2k, tk, ck, qk, ek; repeat match goal with M : dmem _ _ = _ |- _ => rewrite M; clear M end; repeat match goal with |- context[dmem ?s ?k] => destruct (dmem s k) end; reflexivity.
Lemma generate_outcome : forall req src s, outcome req src s (generate_component_masses req src s).
Proof.
  intros req src s. unfold generate_component_masses.
  destruct src; unfold m1k, m2k, tk, ck, qk, ek; cbv zeta.
  all: repeat (match goal with |- outcome _ _ ?x _ => test x end); unfold add_q, qk, ek; reads.
  all: try (apply outcome_quietly; [spandec|assumption]).
  all: try (cbn [outcome]; split; [ext|]; split; [intros k Hk; unfold mass_keys, m1k, m2k, tk, ck, qk, ek in Hk; simpl in Hk; repeat (rewrite dget_set_ne by (intuition congruence)); reflexivity|];
       left; split; [spandec|]; unfold m1k, m2k; split; repeat (rewrite dmem_set_eq || (rewrite dmem_set_ne by discriminate)); first [reflexivity|assumption]).
  all: unfold quietly; destruct req; cbn [bindr outcome]; (split; [spandec|]); auto.
Qed.
(** whatever the values, parameters already present are not changed, and an error occurs exactly if the
    parameters do not span and either the error was asked for or the secondary mass is present *)
Theorem C37_outcome : forall req src s,
  (generate_component_masses req src s = KeyErr <-> ~ spans src s /\ (req = true \/ dmem s (m2k src) = true)) /\
  (forall s', generate_component_masses req src s = Ok s' ->
     extends s s' /\
     (spans src s -> dmem s' (m1k src) = true /\ dmem s' (m2k src) = true) /\
     (~ spans src s -> s' = s) /\
     (forall k, ~ In k (mass_keys src) -> dget s' k = dget s k)).
Proof.
  intros req src s. rewrite spans_iff. pose proof (generate_outcome req src s) as H. destruct (generate_component_masses req src s) as [s'|]; cbn [outcome] in H.
  - destruct H as [H1 [H2 H3]]. split.
    + split; [discriminate|]. intros [K1 K2]. destruct H3 as [[H3 _]|[_ [_ [H3 H4]]]]; [contradiction|]. destruct K2 as [K2|K2]; congruence.
    + intros s'' E. injection E as <-. split; [exact H1|]. destruct H3 as [[A B]|[A [B _]]]; rewrite spans_iff, A; (split; [|split; [|exact H2]]); intro K; try discriminate; try (exfalso; apply K; reflexivity); assumption.
  - destruct H as [H1 H2]. split; [|discriminate]. split; [|reflexivity]. intros _. split; [congruence|exact H2].
Qed.
(** ** C37 The values *)
(** the one combination whose inversion has a limited range: secondary mass and chirp mass, nothing else *)
Definition only_m2_chirp src (s : sample) : Prop :=
  dmem s (m2k src) = true /\ dmem s (ck src) = true /\ dmem s (m1k src) = false /\ dmem s (tk src) = false /\ dmem s qk = false /\ dmem s ek = false.
Definition right src m1 m2 mc eta (r : res sample) : Prop :=
  match r with
  | KeyErr => False
  | Ok s' => consistent src m1 m2 mc eta s' /\ dget s' (m1k src) = Some (Some m1) /\ dget s' (m2k src) = Some (Some m2)
  end.
Lemma consistent_set : forall src m1 m2 mc eta s k x, fact src m1 m2 mc eta k = Some x -> consistent src m1 m2 mc eta s ->
  consistent src m1 m2 mc eta (dset s k (Some x)).
Proof.
  intros src m1 m2 mc eta s k x F C k' x' v F' G. destruct (string_dec k' k) as [->|N].
  - rewrite dget_set_eq in G. congruence.
  - rewrite dget_set_ne in G by exact N. exact (C k' x' v F' G).
Qed.
Lemma sym_ratio_unique : forall e e' m1 m2, 0 < m1 -> 0 < m2 -> is_sym_ratio e m1 m2 -> is_sym_ratio e' m1 m2 -> e = e'.
Proof.
  intros e e' m1 m2 H1 H2 E E'. unfold is_sym_ratio in *. apply Rmult_eq_reg_r with ((m1 + m2) ^ 2); [congruence|]. apply Rgt_not_eq, pow_lt. lra.
Qed.
Lemma mass_ratio_div : forall m1 m2, 0 < m1 -> is_mass_ratio (m2 / m1) m1 m2.
Proof. intros. unfold is_mass_ratio. field. lra. Qed.
Lemma mc_q_total_inverse : forall m1 m2 mc, 0 < m1 -> 0 < m2 -> is_chirp_mass mc m1 m2 ->
  chirp_mass_and_mass_ratio_to_total_mass mc (m2 / m1) = Some (m1 + m2).
Proof.
  intros m1 m2 mc H1 H2 C.
  assert (Q : 0 < m2 / m1) by (apply Rdiv_lt_0_compat; assumption).
  pose proof (mc_q_inverse m1 m2 mc (m2 / m1) H1 H2 C (mass_ratio_div m1 m2 H1)) as E.
  unfold chirp_mass_and_mass_ratio_to_component_masses in E.
  destruct (mc_q_total_spec mc (m2 / m1) (proj1 C) Q) as [M [EM [HM _]]]. rewrite EM in E |- *. cbn [bindo] in E.
  destruct (total_q_spec M (m2 / m1) HM Q) as [a [b [E2 [_ [_ [S _]]]]]]. rewrite E2 in E. injection E as -> ->. rewrite S. reflexivity.
Qed.
Ltac same := repeat match goal with
  | C : consistent _ _ _ _ _ ?s, E : dget ?s ?k = Some ?n |- _ => is_var n;
      let X := fresh in pose proof (C k _ n eq_refl E) as X; subst n
  end.
Lemma generate_right : forall req src s m1 m2 mc eta, 0 < m2 <= m1 -> is_chirp_mass mc m1 m2 -> is_sym_ratio eta m1 m2 ->
  consistent src m1 m2 mc eta s -> spansb src s = true -> (only_m2_chirp src s -> m1 <= 3 * m2) ->
  right src m1 m2 mc eta (generate_component_masses req src s).
Proof.
  intros req src s m1 m2 mc eta [H2 H12] HC HE C S X.
  assert (H1 : 0 < m1) by lra.
  pose proof (mass_ratio_div m1 m2 H1) as HQ.
  assert (L1 : lift2 (fun x y => Some (x - y)) (Some (m1 + m2)) (Some m1) = Some m2) by (cbn; f_equal; ring).
  assert (L1' : lift2 (fun x y => Some (x - y)) (Some (m1 + m2)) (Some m2) = Some m1) by (cbn; f_equal; ring).
  assert (L2 : lift2 (fun x y => Some (x * y)) (Some (m2 / m1)) (Some m1) = Some m2) by (cbn; f_equal; field; lra).
  assert (L3 : lift1 symmetric_mass_ratio_to_mass_ratio (Some eta) = Some (m2 / m1)) by (cbn; apply (sym_to_q_inverse m1 m2); [lra|assumption|assumption]).
  assert (L4 : lift2 mass_1_and_chirp_mass_to_mass_ratio (Some m1) (Some mc) = Some (m2 / m1)) by (cbn; apply m1_mc_inverse; try assumption; lra).
  assert (L5 : m1 <= 3 * m2 -> lift2 mass_2_and_chirp_mass_to_mass_ratio (Some m2) (Some mc) = Some (m2 / m1)) by (intro; cbn; apply (m2_mc_inverse mc m1 m2); try assumption; lra).
  assert (L6 : lift2 (fun x y => let* i := pdiv 1 x in Some (i * y)) (Some (m2 / m1)) (Some m2) = Some m1).
  { cbn. rewrite pdiv_some by (apply Rgt_not_eq, Rdiv_lt_0_compat; lra). cbn. f_equal. field. lra. }
  assert (L7 : lift2 total_mass_and_mass_ratio_to_component_masses (Some (m1 + m2)) (Some (m2 / m1)) = Some (m1, m2)) by (cbn; apply total_q_inverse; assumption).
  assert (L8 : lift2 chirp_mass_and_total_mass_to_symmetric_mass_ratio (Some mc) (Some (m1 + m2)) = Some eta).
  { cbn. destruct (mc_M_eta_spec m1 m2 mc H1 H2 HC) as [e [E He]]. rewrite E. f_equal. apply (sym_ratio_unique e eta m1 m2); assumption. }
  assert (L9 : lift2 chirp_mass_and_mass_ratio_to_total_mass (Some mc) (Some (m2 / m1)) = Some (m1 + m2)) by (cbn; apply mc_q_total_inverse; assumption).
  unfold generate_component_masses.
  destruct src; unfold m1k, m2k, tk, ck, qk, ek; cbv zeta.
  all: repeat (match goal with _ : consistent _ _ _ _ _ ?x |- _ => test x end); unfold add_q, qk, ek; reads.
  all: try (exfalso; revert S; unfold spansb, m1k, m2k, tk, ck, qk, ek; repeat match goal with M : dmem _ _ = _ |- _ => rewrite M; clear M end; discriminate).
  all: same.
  all: try match goal with L5 : _ <= _ -> _, X : only_m2_chirp _ _ -> _ |- _ => rewrite L5 by (apply X; unfold only_m2_chirp, m1k, m2k, tk, ck, qk, ek; repeat (split; [assumption|]); assumption) end.
  all: repeat (progress cbn [option_map fst snd] || match goal with L : lift1 ?f ?x = _ |- context[lift1 ?f ?x] => rewrite L | L : lift2 ?f ?x ?y = _ |- context[lift2 ?f ?x ?y] => rewrite L end).
  all: cbn [right]; split; [repeat (first [eassumption | apply consistent_set; [reflexivity|]])|unfold m1k, m2k; split; look; reflexivity].
Qed.
(** every consistent set of parameters that determines the binary gives the binary's masses, and what was there
    or was added on the way stays consistent with them *)
Theorem C37_consistent : forall req src s m1 m2 mc eta, 0 < m2 <= m1 -> is_chirp_mass mc m1 m2 -> is_sym_ratio eta m1 m2 ->
  consistent src m1 m2 mc eta s -> spans src s -> (only_m2_chirp src s -> m1 <= 3 * m2) ->
  exists s', generate_component_masses req src s = Ok s' /\ consistent src m1 m2 mc eta s' /\
    dget s' (m1k src) = Some (Some m1) /\ dget s' (m2k src) = Some (Some m2).
Proof.
  intros req src s m1 m2 mc eta H HC HE C S X. apply spans_iff in S.
  pose proof (generate_right req src s m1 m2 mc eta H HC HE C S X) as K. destruct (generate_component_masses req src s) as [s'|]; [|contradiction].
  exists s'. split; [reflexivity|exact K].
Qed.
(** the remaining case: the primary mass is stored as nan *)
Theorem C37_refuted : forall req src s m1 m2 mc eta, 0 < m2 -> 3 * m2 < m1 -> is_chirp_mass mc m1 m2 ->
  consistent src m1 m2 mc eta s -> only_m2_chirp src s ->
  exists s', generate_component_masses req src s = Ok s' /\ dget s' (m1k src) = Some None /\ dget s' qk = Some None.
Proof.
  intros req src s m1 m2 mc eta H2 H HC C [A [B [D [E [F G]]]]]. unfold generate_component_masses.
  rewrite A, B, D, E, F, G.
  unfold dmem in A, B. destruct (dget s (m2k src)) as [b|] eqn:Eb; [|discriminate]. destruct (dget s (ck src)) as [c|] eqn:Ec; [|discriminate].
  rewrite (get_some _ _ _ Eb), (get_some _ _ _ Ec). cbn [bindr].
  assert (b = Some m2) by (apply (C (m2k src) m2 b); [destruct src; reflexivity|exact Eb]).
  assert (c = Some mc) by (apply (C (ck src) mc c); [destruct src; reflexivity|exact Ec]). subst b c.
  rewrite get_set_eq. cbn [bindr]. rewrite get_set_ne by (destruct src; discriminate). rewrite (get_some _ _ _ Eb). cbn [bindr].
  eexists. split; [reflexivity|]. rewrite dget_set_eq. rewrite dget_set_ne by (destruct src; discriminate). rewrite dget_set_eq.
  assert (lift2 mass_2_and_chirp_mass_to_mass_ratio (Some m2) (Some mc) = None) as ->.
  { cbn. apply (m2_mc_inverse mc m1 m2); try assumption; lra. }
  split; reflexivity.
Qed.
Example C37_example :
  generate_component_masses true false [("total_mass", Some 50); ("mass_2", Some 20); ("psi", Some 1)] =
    Ok [("total_mass", Some 50); ("mass_2", Some 20); ("psi", Some 1); ("mass_1", Some (50 - 20))] /\
  generate_component_masses false false [("mass_2", Some 20); ("psi", Some 1)] = KeyErr /\
  generate_component_masses false false [("mass_1", Some 20); ("psi", Some 1)] = Ok [("mass_1", Some 20); ("psi", Some 1)] /\
  generate_component_masses true true [("mass_1_source", Some 20); ("mass_1", Some 1); ("mass_2", Some 1)] = KeyErr.
Proof. repeat split. Qed.
(** ** C59 All mass parameters *)
Lemma add_missing_right : forall src m1 m2 mc eta k f o x, consistent src m1 m2 mc eta o ->
  dget o (m1k src) = Some (Some m1) -> dget o (m2k src) = Some (Some m2) -> fact src m1 m2 mc eta k = Some x -> f m1 m2 = Some x ->
  exists o', add_missing k f (m1k src) (m2k src) o = Ok o' /\ consistent src m1 m2 mc eta o' /\ dget o' k = Some (Some x) /\ extends o o' /\
    (forall j, j <> k -> dget o' j = dget o j).
Proof.
  intros src m1 m2 mc eta k f o x C G1 G2 F E. unfold add_missing. destruct (dmem o k) eqn:M.
  - exists o. split; [reflexivity|]. split; [exact C|]. split; [|split; [apply extends_refl|reflexivity]].
    unfold dmem in M. destruct (dget o k) as [v|] eqn:G; [|discriminate]. rewrite (C k x v F G). reflexivity.
  - rewrite (get_some _ _ _ G1), (get_some _ _ _ G2). cbn [bindr]. unfold lift2. cbn [bindo]. rewrite E.
    eexists. split; [reflexivity|]. split; [apply consistent_set; assumption|]. split; [apply dget_set_eq|]. split.
    + apply extends_set. unfold dmem in M. destruct (dget o k); [discriminate|reflexivity].
    + intros j N. apply dget_set_ne. exact N.
Qed.
Theorem C59_complete : forall src s m1 m2 mc eta, 0 < m2 <= m1 -> is_chirp_mass mc m1 m2 -> is_sym_ratio eta m1 m2 ->
  consistent src m1 m2 mc eta s -> spans src s -> (only_m2_chirp src s -> m1 <= 3 * m2) ->
  exists s', generate_mass_parameters src s = Ok s' /\ extends s s' /\
    (forall k x, fact src m1 m2 mc eta k = Some x -> dget s' k = Some (Some x)) /\
    (forall k, ~ In k (mass_keys src) -> dget s' k = dget s k).
Proof.
  intros src s m1 m2 mc eta H HC HE C S X. assert (H1 : 0 < m1) by lra. assert (H2 : 0 < m2) by lra.
  destruct (C37_consistent false src s m1 m2 mc eta H HC HE C S X) as [o1 [E1 [C1 [G1 G2]]]].
  destruct (proj2 (C37_outcome false src s) o1 E1) as [X1 [_ [_ U1]]].
  unfold generate_mass_parameters. rewrite E1. cbn [bindr].
  destruct (add_missing_right src m1 m2 mc eta (ck src) component_masses_to_chirp_mass o1 mc C1 G1 G2) as [o2 [E2 [C2 [V2 [X2 U2]]]]].
  { destruct src; reflexivity. } { destruct (chirp_spec m1 m2 H1 H2) as [c [E K]]. rewrite E. f_equal. apply (chirp_unique c mc m1 m2); assumption. }
  destruct (add_missing_right src m1 m2 mc eta (tk src) component_masses_to_total_mass o2 (m1 + m2) C2 (X2 _ _ G1) (X2 _ _ G2)) as [o3 [E3 [C3 [V3 [X3 U3]]]]].
  { destruct src; reflexivity. } { reflexivity. }
  destruct (add_missing_right src m1 m2 mc eta ek component_masses_to_symmetric_mass_ratio o3 eta C3 (X3 _ _ (X2 _ _ G1)) (X3 _ _ (X2 _ _ G2))) as [o4 [E4 [C4 [V4 [X4 U4]]]]].
  { destruct src; reflexivity. } { destruct (eta_spec m1 m2 H1 H2) as [e [E [K _]]]. rewrite E. f_equal. apply (sym_ratio_unique e eta m1 m2); assumption. }
  destruct (add_missing_right src m1 m2 mc eta qk component_masses_to_mass_ratio o4 (m2 / m1) C4 (X4 _ _ (X3 _ _ (X2 _ _ G1))) (X4 _ _ (X3 _ _ (X2 _ _ G2)))) as [o5 [E5 [C5 [V5 [X5 U5]]]]].
  { destruct src; reflexivity. } { unfold component_masses_to_mass_ratio. apply pdiv_some. lra. }
  rewrite E2. cbn [bindr]. rewrite E3. cbn [bindr]. rewrite E4. cbn [bindr]. exists o5. split; [exact E5|].
  split; [intros k v K; apply X5, X4, X3, X2, X1, K|]. split.
  - intros k x F. unfold fact in F.
    repeat match type of F with (if String.eqb ?a ?b then _ else _) = _ => destruct (String.eqb_spec a b) as [->|]; [injection F as <-; first [exact V5 | apply X5; first [exact V4 | apply X4; first [exact V3 | apply X3; first [exact V2 | apply X2; assumption]]]]|] end. discriminate.
  - intros k K. unfold mass_keys in K. simpl in K. rewrite U5, U4, U3, U2 by (intuition congruence). apply U1. unfold mass_keys. simpl. tauto.
Qed.
(** without two different parameters there is always an error *)
Theorem C59_error : forall src s, generate_mass_parameters src s = KeyErr <-> ~ spans src s.
Proof.
  intros src s. unfold generate_mass_parameters. destruct (C37_outcome false src s) as [K1 K2].
  destruct (generate_component_masses false src s) as [o|] eqn:E; cbn [bindr].
  - destruct (K2 o eq_refl) as [X [A [B _]]]. split.
    + intros G S. destruct (A S) as [M1 M2].
      assert (L : forall k f o, dmem o (m1k src) = true -> dmem o (m2k src) = true -> exists o', add_missing k f (m1k src) (m2k src) o = Ok o' /\ dmem o' (m1k src) = true /\ dmem o' (m2k src) = true).
      { intros k f p P1 P2. unfold add_missing. destruct (dmem p k) eqn:D; [exists p; auto|]. unfold dmem in P1, P2.
        destruct (dget p (m1k src)) as [a|] eqn:Q1; [|discriminate]. destruct (dget p (m2k src)) as [b|] eqn:Q2; [|discriminate].
        rewrite (get_some _ _ _ Q1), (get_some _ _ _ Q2). cbn [bindr]. eexists. split; [reflexivity|].
        assert (k <> m1k src /\ k <> m2k src) as [N1 N2] by (unfold dmem in D; split; intros ->; [rewrite Q1 in D|rewrite Q2 in D]; discriminate).
        rewrite !dmem_set_ne by congruence. unfold dmem. rewrite Q1, Q2. auto. }
      destruct (L (ck src) component_masses_to_chirp_mass o M1 M2) as [o2 [R2 [P2 Q2]]]. rewrite R2 in G. cbn [bindr] in G.
      destruct (L (tk src) component_masses_to_total_mass o2 P2 Q2) as [o3 [R3 [P3 Q3]]]. rewrite R3 in G. cbn [bindr] in G.
      destruct (L ek component_masses_to_symmetric_mass_ratio o3 P3 Q3) as [o4 [R4 [P4 Q4]]]. rewrite R4 in G. cbn [bindr] in G.
      destruct (L qk component_masses_to_mass_ratio o4 P4 Q4) as [o5 [R5 _]]. rewrite R5 in G. discriminate.
    + intro S. rewrite (B S). rewrite spans_iff in S. apply not_true_is_false in S.
      assert (L : forall k f p, dget p k = None -> (dget p (m1k src) = None \/ dget p (m2k src) = None) -> add_missing k f (m1k src) (m2k src) p = KeyErr).
      { intros k f p N [D|D]; unfold add_missing, dmem; rewrite N, (get_none _ _ D); cbn [bindr]; [reflexivity|]. destruct (get p (m1k src)); reflexivity. }
      assert (Z : dget s (m1k src) = None \/ dget s (m2k src) = None).
      { destruct (dget s (m1k src)) eqn:D1; [|auto]. destruct (dget s (m2k src)) eqn:D2; [|auto]. exfalso. revert S. unfold spansb, dmem. rewrite D1, D2. discriminate. }
      destruct (dget s (ck src)) eqn:D3; [|rewrite (L _ _ _ D3 Z); reflexivity].
      unfold add_missing at 1. unfold dmem. rewrite D3. cbn [bindr].
      destruct (dget s (tk src)) eqn:D4; [|rewrite (L _ _ _ D4 Z); reflexivity].
      exfalso. revert S. unfold spansb, dmem. rewrite D3, D4. rewrite ?orb_true_r. simpl. rewrite ?orb_true_r. simpl. rewrite ?orb_true_r. discriminate.
  - split; [|reflexivity]. intros _. exact (proj1 (proj1 K1 eq_refl)).
Qed.
Example C59_example : exists s', generate_mass_parameters false [("mass_1", Some 30); ("mass_2", Some 20)] = Ok s' /\
  dkeys s' = ["mass_1"; "mass_2"; "chirp_mass"; "total_mass"; "symmetric_mass_ratio"; "mass_ratio"] /\ dget s' "mass_ratio" = Some (Some (20 / 30)).
Proof.
  unfold generate_mass_parameters. cbn. eexists. split; [reflexivity|]. split; [reflexivity|]. cbn. f_equal. apply pdiv_some. lra.
Qed.

(** ** Assumptions of every theorem above *)
Definition GwGen_Props_all :=
  (@C37_outcome,
   @C37_consistent,
   @C37_refuted,
   @C59_complete,
   @C59_error).
Print Assumptions GwGen_Props_all.
