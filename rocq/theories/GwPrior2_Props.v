(** C106-C107: redundancy tests and the reweighting to flat component masses. *)
From Coq Require Import String Reals List Lra Lia Bool Psatz PeanoNat.
From Coquelicot Require Import Coquelicot.
From Verif Require Import PyReal GwMass_Model GwMass_Proofs Prior_Model GwPrior_Model GwPrior_Proofs.
Import ListNotations.
Close Scope R_scope.
Open Scope nat_scope.
Open Scope list_scope.

(** ** C106 a dictionary grown through the redundancy test never over-determines a group *)
(** [if not priors.test_redundancy(k): priors[k] = ...] *)
Definition guarded (test : kinds -> string -> bool) (d : kinds) (e : string * kind) : kinds :=
  if test d (fst e) then d else d ++ [e].

Lemma is_in_iff k l : is_in k l = true <-> In k l.
Proof.
  unfold is_in. rewrite existsb_exists. split.
  - intros (x & Hx & E). apply String.eqb_eq in E. subst. exact Hx.
  - intros H. exists k. split; [exact H|apply String.eqb_refl].
Qed.
Lemma is_in_app k a b : is_in k (a ++ b) = is_in k a || is_in k b.
Proof. unfold is_in. apply existsb_app. Qed.
Lemma sampling_app d e : sampling_parameters (d ++ [e]) =
  sampling_parameters d ++ match snd e with Sampled => [fst e] | _ => [] end.
Proof.
  unfold sampling_parameters. rewrite filter_app, map_app. f_equal.
  destruct e as [k kd]; destruct kd; reflexivity.
Qed.
Lemma overlap_mono g d e : overlap g d <= overlap g (d ++ [e]) /\
  (NoDup g -> overlap g (d ++ [e]) <= overlap g d + (if is_in (fst e) g then 1 else 0)).
Proof.
  unfold overlap. rewrite sampling_app. induction g as [|x g [IH1 IH2]]; [cbn; split; lia|].
  cbn [filter]. rewrite is_in_app.
  set (A := is_in x (sampling_parameters d)). set (B := is_in x match snd e with Sampled => [fst e] | _ => [] end).
  assert (HB : B = true -> fst e = x).
  { unfold B, is_in. destruct (snd e); cbn; try discriminate. rewrite orb_false_r. intros E.
    apply String.eqb_eq in E. congruence. }
  split.
  - destruct A, B; cbn [orb length] in *; lia.
  - intros ND. inversion ND as [|? ? Nx Ng]; subst. specialize (IH2 Ng).
    change (is_in (fst e) (x :: g)) with (String.eqb (fst e) x || is_in (fst e) g).
    destruct (is_in (fst e) g) eqn:Eg.
    + rewrite orb_true_r. assert (HBf : B = false).
      { destruct B; [|reflexivity]. exfalso. apply Nx. rewrite <- (HB eq_refl). apply is_in_iff. exact Eg. }
      rewrite HBf, orb_false_r. destruct A; cbn [length]; lia.
    + rewrite orb_false_r. destruct B.
      * replace (String.eqb (fst e) x) with true by (rewrite (HB eq_refl), String.eqb_refl; reflexivity). destruct A; cbn [orb length]; lia.
      * rewrite orb_false_r. destruct A; cbn [length]; destruct (String.eqb (fst e) x); lia.
Qed.
Lemma groups_nodup : List.Forall (fun ng => NoDup (snd ng)) groups.
Proof.
  repeat constructor; cbn; intros H; repeat (destruct H as [H|H]; [discriminate|]); exact H.
Qed.
Definition within_groups (gs : list (nat * list string)) (d : kinds) : Prop :=
  forall n g, In (n, g) gs -> overlap g d <= n.

Lemma guarded_bbh d e : NoDup (map fst d) -> within_groups groups d ->
  NoDup (map fst (guarded bbh_test_redundancy d e)) /\ within_groups groups (guarded bbh_test_redundancy d e).
Proof.
  intros ND W. unfold guarded. destruct (bbh_test_redundancy d (fst e)) eqn:E; [tauto|].
  unfold bbh_test_redundancy in E. destruct (is_in (fst e) (map fst d)) eqn:Ein; [discriminate|].
  split.
  - rewrite map_app. cbn [map]. rewrite <- (rev_involutive (map fst d ++ [fst e])). apply NoDup_rev.
    rewrite rev_app_distr. cbn. constructor; [|apply NoDup_rev; exact ND].
    rewrite <- in_rev. intros H. apply is_in_iff in H. congruence.
  - intros n g Hg. destruct (overlap_mono g d e) as [_ U].
    assert (NG : NoDup g) by (pose proof (proj1 (List.Forall_forall _ _) groups_nodup (n, g) Hg) as X; exact X).
    specialize (U NG). specialize (W n g Hg).
    destruct (is_in (fst e) g) eqn:Eg; [|lia].
    assert (overlap g d < n); [|lia].
    destruct (Nat.ltb (overlap g d) n) eqn:El; [apply Nat.ltb_lt; exact El|]. exfalso.
    apply Nat.ltb_ge in El. apply Bool.not_true_iff_false in E. apply E.
    apply existsb_exists. exists (n, g). split; [exact Hg|]. cbn [fst snd]. rewrite Eg.
    apply Nat.leb_le in El. rewrite El. reflexivity.
Qed.
Theorem C106_guarded_growth_bbh ops d : NoDup (map fst d) -> within_groups groups d ->
  let r := fold_left (guarded bbh_test_redundancy) ops d in
  NoDup (map fst r) /\ within_groups groups r.
Proof.
  revert d. induction ops as [|e ops IH]; intros d ND W; [tauto|].
  cbn [fold_left]. destruct (guarded_bbh d e ND W) as [N2 W2]. apply IH; assumption.
Qed.
Definition bns_groups : list (nat * list string) := (2, tidal_parameters) :: groups.
Theorem C106_guarded_growth_bns ops d : NoDup (map fst d) -> within_groups bns_groups d ->
  let r := fold_left (guarded bns_test_redundancy) ops d in
  NoDup (map fst r) /\ within_groups bns_groups r.
Proof.
  revert d. induction ops as [|e ops IH]; intros d ND W; [tauto|].
  cbn [fold_left]. cut (NoDup (map fst (guarded bns_test_redundancy d e)) /\ within_groups bns_groups (guarded bns_test_redundancy d e)).
  { intros [A B]. apply IH; assumption. }
  assert (W0 : within_groups groups d) by (intros n g Hg; apply W; right; exact Hg).
  pose proof (guarded_bbh d e ND W0) as [N1 W1].
  unfold guarded in *. unfold bns_test_redundancy. destruct (bbh_test_redundancy d (fst e)) eqn:E; [tauto|].
  destruct (overlap_mono tidal_parameters d e) as [_ U].
  assert (NT : NoDup tidal_parameters).
  { repeat constructor; cbn; intros H; repeat (destruct H as [H|H]; [discriminate|]); exact H. }
  specialize (U NT). pose proof (W 2 tidal_parameters (or_introl eq_refl)) as Wt.
  destruct (is_in (fst e) tidal_parameters) eqn:Et.
  - destruct (Nat.ltb 2 (overlap tidal_parameters d)); [tauto|].
    destruct (Nat.eqb (overlap tidal_parameters d) 2) eqn:E2; [tauto|]. apply Nat.eqb_neq in E2.
    split; [exact N1|]. intros n g [Hg|Hg]; [injection Hg as <- <-; lia|apply W1; exact Hg].
  - split; [exact N1|]. intros n g [Hg|Hg]; [injection Hg as <- <-; lia|apply W1; exact Hg].
Qed.
(** an existing key is always redundant; a key outside every group never is *)
Theorem C106_existing_and_unknown d k :
  (In k (map fst d) -> bbh_test_redundancy d k = true /\ bns_test_redundancy d k = true) /\
  (~ In k (map fst d) -> (forall n g, In (n, g) bns_groups -> ~ In k g) ->
     bbh_test_redundancy d k = false /\ bns_test_redundancy d k = false).
Proof.
  split.
  - intros H. apply is_in_iff in H. assert (E : bbh_test_redundancy d k = true) by (unfold bbh_test_redundancy; rewrite H; reflexivity).
    split; [exact E|]. unfold bns_test_redundancy. rewrite E. reflexivity.
  - intros H G. assert (E : bbh_test_redundancy d k = false).
    { unfold bbh_test_redundancy. destruct (is_in k (map fst d)) eqn:Ek; [apply is_in_iff in Ek; contradiction|].
      apply Bool.not_true_iff_false. rewrite existsb_exists. intros ([n g] & Hg & Hb). cbn [fst snd] in Hb.
      apply andb_true_iff in Hb. destruct Hb as [Hb _]. apply is_in_iff in Hb. exact (G n g (or_intror Hg) Hb). }
    split; [exact E|]. unfold bns_test_redundancy. rewrite E.
    destruct (is_in k tidal_parameters) eqn:Et; [|reflexivity]. apply is_in_iff in Et.
    exfalso. exact (G 2 tidal_parameters (or_introl eq_refl) Et).
Qed.
(** a fixed or constrained entry never makes another key redundant *)
Theorem C106_fixed_not_counted_refuted d k kd k' : kd <> Sampled -> k' <> k ->
  bbh_test_redundancy (d ++ [(k, kd)]) k' = bbh_test_redundancy d k' /\
  bns_test_redundancy (d ++ [(k, kd)]) k' = bns_test_redundancy d k'.
Proof.
  intros Hk Hne.
  assert (S : sampling_parameters (d ++ [(k, kd)]) = sampling_parameters d).
  { rewrite sampling_app. cbn [snd fst]. destruct kd; [contradiction|apply app_nil_r|apply app_nil_r]. }
  assert (O : forall g, overlap g (d ++ [(k, kd)]) = overlap g d) by (intros g; unfold overlap; rewrite S; reflexivity).
  assert (E : bbh_test_redundancy (d ++ [(k, kd)]) k' = bbh_test_redundancy d k').
  { unfold bbh_test_redundancy. rewrite map_app, is_in_app. cbn [map fst is_in existsb]. rewrite orb_false_r.
    replace (String.eqb k' k) with false by (symmetry; apply String.eqb_neq; exact Hne). rewrite orb_false_r.
    destruct (is_in k' (map fst d)); [reflexivity|]. unfold groups; cbn [existsb fst snd]. rewrite !O. reflexivity. }
  split; [exact E|]. unfold bns_test_redundancy. rewrite E, !O. reflexivity.
Qed.
(** the two mass ratios count as two independent mass parameters although they fix no mass *)
Theorem C106_ratios_refuted :
  bbh_test_redundancy [("mass_ratio", Sampled); ("symmetric_mass_ratio", Sampled)]%string "chirp_mass" = true /\
  exists q eta mc mc' m1 m2 m1' m2',
    is_mass_ratio q m1 m2 /\ is_sym_ratio eta m1 m2 /\ is_chirp_mass mc m1 m2 /\
    is_mass_ratio q m1' m2' /\ is_sym_ratio eta m1' m2' /\ is_chirp_mass mc' m1' m2' /\ mc <> mc'.
Proof.
  split; [reflexivity|].
  destruct (chirp_spec 2 2) as (mc & _ & C); [lra|lra|]. destruct (chirp_spec 4 4) as (mc' & _ & C'); [lra|lra|].
  exists 1%R, (1/4)%R, mc, mc', 2%R, 2%R, 4%R, 4%R. unfold is_mass_ratio, is_sym_ratio.
  repeat split; try lra; try (destruct C; assumption); try (destruct C'; assumption).
  intros ->. destruct C as [P E], C' as [P' E']. lra.
Qed.
Example C106_example :
  fold_left (guarded bns_test_redundancy)
    [("chirp_mass", Sampled); ("mass_ratio", Sampled); ("mass_1", Constrained); ("total_mass", Sampled);
     ("redshift", Fixed); ("luminosity_distance", Sampled); ("comoving_distance", Sampled); ("lambda_1", Sampled)]%string [] =
  [("chirp_mass", Sampled); ("mass_ratio", Sampled); ("redshift", Fixed); ("luminosity_distance", Sampled); ("lambda_1", Sampled)]%string.
Proof. reflexivity. Qed.

(** ** C107 reweighting to a prior that is flat in the component masses *)
Open Scope R_scope.
Definition consistent_sample (s : msample) : Prop :=
  0 < s "chirp_mass"%string /\ 0 < s "mass_ratio"%string /\
  chirp_mass_and_mass_ratio_to_component_masses (s "chirp_mass"%string) (s "mass_ratio"%string) =
    Some (s "mass_1"%string, s "mass_2"%string).
(** each weight is the new density over the old density, both as densities of
    (mass_1, mass_2): the old one is the density of (chirp_mass, mass_ratio)
    divided by the Jacobian determinant of C101 *)
Theorem C107_weight old new s fc fq c0 c1 q0 q1 a0 a1 b0 b1 :
  old "chirp_mass"%string = Some (POther c0 c1 fc) -> old "mass_ratio"%string = Some (POther q0 q1 fq) ->
  old "mass_1"%string = Some (PConstraint a0 a1) -> old "mass_2"%string = Some (PConstraint b0 b1) ->
  flat_priors old = Some new -> consistent_sample s ->
  0 < fc (s "chirp_mass"%string) -> 0 < fq (s "mass_ratio"%string) ->
  c0 < s "chirp_mass"%string < c1 -> q0 < s "mass_ratio"%string < q1 ->
  a0 < s "mass_1"%string < a1 -> b0 < s "mass_2"%string < b1 ->
  exists w, flat_weight old new 1 s = Some w /\
    w * (fc (s "chirp_mass"%string) * fq (s "mass_ratio"%string) / (s "mass_1"%string ^ 2 / s "chirp_mass"%string)) =
    Uniform_prob a0 a1 (s "mass_1"%string) * Uniform_prob b0 b1 (s "mass_2"%string).
Proof.
  intros Ec Eq E1 E2 EF (Pc & Pq & Conv) Hfc Hfq Bc Bq B1 B2.
  rewrite fm_conv in Conv by assumption. apply some_inj in Conv.
  assert (M1 : 0 < s "mass_1"%string) by (replace (s "mass_1"%string) with (fm1 (s "chirp_mass"%string) (s "mass_ratio"%string)) by congruence; apply fm1_pos; assumption).
  unfold flat_priors in EF. rewrite Ec, Eq, E1, E2 in EF. apply some_inj in EF. subst new.
  unfold flat_weight, weight_by_new_prior, weight_key, upd. cbn [String.eqb Ascii.eqb Bool.eqb].
  rewrite Ec, Eq, E1, E2. unfold to_constraint, to_uniform; cbn [p_min p_max p_prob].
  set (mc := s "chirp_mass"%string) in *. set (q := s "mass_ratio"%string) in *.
  set (m1 := s "mass_1"%string) in *. set (m2 := s "mass_2"%string) in *.
  destruct (Rlt_dec c0 mc); [|lra]. destruct (Rlt_dec mc c1); [|lra].
  destruct (Rlt_dec q0 q); [|lra]. destruct (Rlt_dec q q1); [|lra].
  destruct (Rlt_dec a0 m1); [|lra]. destruct (Rlt_dec m1 a1); [|lra].
  destruct (Rlt_dec b0 m2); [|lra]. destruct (Rlt_dec m2 b1); [|lra].
  repeat (rewrite pdiv_some by lra; cbn [bindo]).
  eexists. split; [reflexivity|]. field. split; [|split]; lra.
Qed.
(** with equal weights left over: for samples drawn with the priors of C101 the weights are constant,
    i.e. that prior is already flat in the component masses *)
Theorem C107_already_flat old new s hyp B c0 c1 q0 q1 a0 a1 b0 b1 :
  (forall q, 0 < q < B -> is_derive (MR_integral hyp) q (Rpower (1 + q) (2/5) / Rpower q (6/5))) ->
  0 < c0 < c1 -> 0 < q0 < q1 -> q1 < B ->
  old "chirp_mass"%string = Some (POther c0 c1 (UICChirpMass_prob c0 c1)) ->
  old "mass_ratio"%string = Some (POther q0 q1 (MR_prob hyp q0 q1)) ->
  old "mass_1"%string = Some (PConstraint a0 a1) -> old "mass_2"%string = Some (PConstraint b0 b1) ->
  flat_priors old = Some new -> consistent_sample s ->
  c0 < s "chirp_mass"%string < c1 -> q0 < s "mass_ratio"%string < q1 ->
  a0 < s "mass_1"%string < a1 -> b0 < s "mass_2"%string < b1 ->
  flat_weight old new 1 s = Some (1 / (a1 - a0) * (1 / (b1 - b0)) * ((c1 ^ 2 - c0 ^ 2) / 2 * MR_norm hyp q0 q1)).
Proof.
  intros Hh Hc Hq HB Ec Eq E1 E2 EF Cs Bc Bq B1 B2.
  set (mc := s "chirp_mass"%string) in *. set (q := s "mass_ratio"%string) in *.
  pose proof (MR_norm_pos hyp B Hh q0 q1 ltac:(lra) ltac:(lra) HB) as HN.
  assert (U1 : UICChirpMass_prob c0 c1 mc = 2 * mc / (c1 ^ 2 - c0 ^ 2)) by (apply uic_chirp; lra).
  assert (HD : 0 < c1 ^ 2 - c0 ^ 2) by nra.
  assert (P1 : 0 < UICChirpMass_prob c0 c1 mc) by (rewrite U1; apply Rdiv_lt_0_compat; lra).
  assert (P2 : 0 < MR_prob hyp q0 q1 q).
  { rewrite MR_prob_in by lra. apply Rdiv_lt_0_compat; [apply dens_pos|exact HN]. }
  destruct (C107_weight old new s _ _ c0 c1 q0 q1 a0 a1 b0 b1 Ec Eq E1 E2 EF Cs P1 P2 Bc Bq B1 B2) as (w & Ew & Hw).
  fold mc in Hw. fold q in Hw.
  rewrite Ew. apply f_equal. destruct Cs as (_ & _ & Conv). fold mc q in Conv.
  rewrite fm_conv in Conv by lra. apply some_inj in Conv.
  assert (F1 : s "mass_1"%string = fm1 mc q) by congruence.
  rewrite !uniform_in in Hw by lra. rewrite F1 in Hw. rewrite fm1_sq in Hw by lra. rewrite U1, MR_prob_in in Hw by lra.
  pose proof (Rpower_pos (1 + q) (2/5)). pose proof (Rpower_pos q (6/5)).
  rewrite <- Hw. field. repeat split; lra.
Qed.
(** the result handed in is changed: its prior dictionary is the object that is overwritten *)
Theorem C107_input_changed_refuted ev pick h r h' ws r' :
  convert_to_flat ev pick h r = Some (h', ws, r') ->
  mr_priors r' = mr_priors r /\
  flat_priors (h (mr_priors r)) = Some (h' (mr_priors r)) /\
  (forall l, l <> mr_priors r -> h' l = h l) /\
  exists a b c d, h' (mr_priors r) "chirp_mass"%string = Some (PConstraint a b) /\
    h' (mr_priors r) "mass_1"%string = Some (PUniform c d).
Proof.
  intros H. unfold convert_to_flat in H. destruct (flat_priors (h (mr_priors r))) as [new|] eqn:EF; [|discriminate].
  destruct (all_some _) as [w|]; [|discriminate]. injection H as <- <- <-.
  split; [reflexivity|]. rewrite Nat.eqb_refl. split; [reflexivity|]. split.
  - intros l Hl. apply Nat.eqb_neq in Hl. rewrite Hl. reflexivity.
  - unfold flat_priors in EF. destruct (h (mr_priors r) "chirp_mass"%string) as [c|]; [|discriminate].
    destruct (h (mr_priors r) "mass_ratio"%string) as [q|]; [|discriminate].
    destruct (h (mr_priors r) "mass_1"%string) as [m1|]; [|discriminate].
    destruct (h (mr_priors r) "mass_2"%string) as [m2|]; [|discriminate].
    injection EF as <-. unfold upd; cbn [String.eqb Ascii.eqb Bool.eqb].
    exists (p_min c), (p_max c), (p_min m1), (p_max m1). split; reflexivity.
Qed.
(** ... so converting the same result again is accepted, no error is raised for the wrong kind of
    prior, and the weights of the second call are the Jacobian alone *)
Theorem C107_second_call_refuted ev pick h r h' ws r' :
  convert_to_flat ev pick h r = Some (h', ws, r') ->
  (forall s, In s (mr_posterior r) -> 0 < s "chirp_mass"%string) ->
  (forall d s, ev d s = 1) ->
  (forall k p s, In k ["chirp_mass"; "mass_ratio"; "mass_1"; "mass_2"]%string -> h (mr_priors r) k = Some p ->
     In s (mr_posterior r) -> p_min p < s k < p_max p) ->
  exists h2 r2, convert_to_flat ev pick h' r =
    Some (h2, map (fun s => s "mass_1"%string ^ 2 / s "chirp_mass"%string) (mr_posterior r), r2).
Proof.
  intros H HP HE HB. destruct (C107_input_changed_refuted _ _ _ _ _ _ _ H) as (_ & EF & _ & _).
  unfold convert_to_flat.
  unfold flat_priors in EF.
  destruct (h (mr_priors r) "chirp_mass"%string) as [c|] eqn:Ec; [|discriminate].
  destruct (h (mr_priors r) "mass_ratio"%string) as [q|] eqn:Eq; [|discriminate].
  destruct (h (mr_priors r) "mass_1"%string) as [m1|] eqn:E1; [|discriminate].
  destruct (h (mr_priors r) "mass_2"%string) as [m2|] eqn:E2; [|discriminate].
  injection EF as EF. rewrite <- EF.
  set (new := upd _ _ _).
  assert (Nc : new "chirp_mass"%string = Some (to_constraint c)) by reflexivity.
  assert (Nq : new "mass_ratio"%string = Some (to_constraint q)) by reflexivity.
  assert (N1 : new "mass_1"%string = Some (to_uniform m1)) by reflexivity.
  assert (N2 : new "mass_2"%string = Some (to_uniform m2)) by reflexivity.
  destruct (flat_priors new) as [new2|] eqn:EF2.
  2:{ exfalso. unfold flat_priors in EF2. rewrite Nc, Nq, N1, N2 in EF2. discriminate. }
  unfold flat_priors in EF2. rewrite Nc, Nq, N1, N2 in EF2. apply some_inj in EF2.
  assert (W : forall l, (forall s, In s l -> In s (mr_posterior r)) ->
    all_some (map (fun s => flat_weight new new2 (ev new2 s) s) l) =
    Some (map (fun s => s "mass_1"%string ^ 2 / s "chirp_mass"%string) l)).
  { induction l as [|s l IH]; intros Hl; [reflexivity|]. cbn [map all_some].
    assert (Hs : In s (mr_posterior r)) by (apply Hl; left; reflexivity).
    assert (F : flat_weight new new2 (ev new2 s) s = Some (s "mass_1"%string ^ 2 / s "chirp_mass"%string)).
    { rewrite HE. unfold flat_weight, weight_by_new_prior, weight_key. rewrite Nc, Nq, N1, N2. rewrite <- EF2.
      unfold upd; cbn [String.eqb Ascii.eqb Bool.eqb]. unfold to_constraint, to_uniform; cbn [p_min p_max p_prob].
      pose proof (HB "chirp_mass"%string c s ltac:(cbn; tauto) Ec Hs) as Bc.
      pose proof (HB "mass_ratio"%string q s ltac:(cbn; tauto) Eq Hs) as Bq.
      pose proof (HB "mass_1"%string m1 s ltac:(cbn; tauto) E1 Hs) as B1.
      pose proof (HB "mass_2"%string m2 s ltac:(cbn; tauto) E2 Hs) as B2.
      pose proof (HP s Hs) as Hp.
      destruct (Rlt_dec (p_min c) (s "chirp_mass"%string)); [|lra]. destruct (Rlt_dec (s "chirp_mass"%string) (p_max c)); [|lra].
      destruct (Rlt_dec (p_min q) (s "mass_ratio"%string)); [|lra]. destruct (Rlt_dec (s "mass_ratio"%string) (p_max q)); [|lra].
      rewrite !uniform_in by lra.
      assert (D1 : 1 / (p_max m1 - p_min m1) <> 0) by (apply Rgt_not_eq, Rdiv_lt_0_compat; lra).
      assert (D2 : 1 / (p_max m2 - p_min m2) <> 0) by (apply Rgt_not_eq, Rdiv_lt_0_compat; lra).
      repeat (rewrite pdiv_some by (assumption || lra); cbn [bindo]).
      apply f_equal. field. repeat split; lra. }
    rewrite F, IH; [reflexivity|]. intros x Hx. apply Hl. right. exact Hx. }
  rewrite (W (mr_posterior r)) by auto.
  eexists. eexists. reflexivity.
Qed.
Example C107_example :
  let d := fun k => if String.eqb k "chirp_mass" then Some (POther 1 10 (fun _ => 1/9))
                    else if String.eqb k "mass_ratio" then Some (POther (1/8) 1 (fun _ => 8/7))
                    else if String.eqb k "mass_1" then Some (PConstraint 1 50)
                    else if String.eqb k "mass_2" then Some (PConstraint 1 51) else None in
  let s := fun k => if String.eqb k "chirp_mass" then 2 else if String.eqb k "mass_ratio" then 1/2
                    else if String.eqb k "mass_1" then 4 else 2 in
  exists new, flat_priors d = Some new /\ flat_weight d new 1 s = Some (4 ^ 2 / 2 * ((1 / 49) * (1 / 50) * 9 * (7/8))).
Proof.
  cbv zeta. eexists. split; [reflexivity|].
  unfold flat_weight, weight_by_new_prior, weight_key, upd; cbn [String.eqb Ascii.eqb Bool.eqb to_constraint to_uniform p_min p_max p_prob].
  rewrite !uniform_in by lra.
  destruct (Rlt_dec 1 2); [|lra]. destruct (Rlt_dec 2 10); [|lra]. destruct (Rlt_dec (1/8) (1/2)); [|lra].
  destruct (Rlt_dec (1/2) 1); [|lra]. destruct (Rlt_dec 1 4); [|lra]. destruct (Rlt_dec 4 50); [|lra].
  destruct (Rlt_dec 2 51); [|lra].
  repeat (rewrite pdiv_some by lra; cbn [bindo]). apply f_equal. field.
Qed.

(** ** Assumptions of every theorem above *)
Definition GwPrior2_Props_all :=
  (@C106_guarded_growth_bbh,
   @C106_guarded_growth_bns,
   @C106_existing_and_unknown,
   @C106_fixed_not_counted_refuted,
   @C106_ratios_refuted,
   @C107_weight,
   @C107_already_flat,
   @C107_input_changed_refuted,
   @C107_second_call_refuted).
Print Assumptions GwPrior2_Props_all.
