(** Property C216: combining a list of results. *)
From Coq Require Import String Reals List Bool Arith Lia Lra Permutation.
From Verif Require Import PyDict Samples_Model Evidence_Model Evidence_Proofs Result_Model Result_Proofs Result_Props Combine_Model.
Import ListNotations.
Open Scope string_scope.
Open Scope list_scope.
Open Scope R_scope.

Section C216.
Context {T V N K O : Type} (peq : V -> V -> bool).
Notation res := (result T V N K O).
Notation comb := (combine_results (T := T) (N := N) (K := K) (O := O) peq).
Lemma andthen_got {X Y} (a : out X) (f : X -> out Y) y : andthen a f = Got y -> exists x, a = Got x /\ f x = Got y.
Proof. destruct a as [x|e]; cbn; [intros H; exists x; auto|discriminate]. Qed.
Lemma got_inj {X} (x y : X) : Got x = Got y -> x = y.
Proof. intros H. injection H as H. exact H. Qed.
Lemma check_error ok u : check "error" ok = Got u -> ok = true.
Proof. destruct ok; [reflexivity|discriminate]. Qed.
(** What agreeing with the first result means. *)
Definition agrees (r0 r : res) : Prop :=
  r_sampler r = r_sampler r0 /\
  (match r_noise r, r_noise r0 with None, None => True | Some a, Some b => Rabs (a - b) <= / 100000000 | _, _ => False end) /\
  (forall k, In k (r_keys r) <-> In k (r_keys r0)).
Definition same_prior (p0 : dict V) (r : res) : Prop :=
  exists p, r_priors r = Some p /\ (forall k, In k (dkeys p) <-> In k (dkeys p0)) /\ (forall k v0 v, dget p0 k = Some v0 -> dget p k = Some v -> peq v0 v = true).
Lemma inclb_spec l m : inclb l m = true <-> forall k, In k l -> In k m.
Proof.
  unfold inclb. rewrite forallb_forall. split; intros H k I.
  - specialize (H k I). apply existsb_exists in H. destruct H as (x & J & E). apply String.eqb_eq in E. subst. exact J.
  - apply existsb_exists. exists k. split; [apply H; exact I|apply String.eqb_refl].
Qed.
Lemma close_spec x y : close x y = true <-> match x, y with None, None => True | Some a, Some b => Rabs (a - b) <= / 100000000 | _, _ => False end.
Proof. destruct x, y; cbn [close]; try (split; [discriminate|contradiction]); [destruct (Rle_dec _ _); split; auto; discriminate|split; auto]. Qed.
Lemma agree_checks (r0 : res) rs : same_sampler r0 rs = true /\ same_data r0 rs = true /\ same_parameters r0 rs = true <-> forall r, In r rs -> agrees r0 r.
Proof.
  unfold same_sampler, same_data, same_parameters, agrees. rewrite !forallb_forall. split.
  - intros (A & B & C) r I. specialize (A r I). specialize (B r I). specialize (C r I). apply String.eqb_eq in A. apply close_spec in B. apply andb_true_iff in C. destruct C as [C D].
    rewrite inclb_spec in C, D. split; [exact A|]. split; [exact B|]. intros k. split; auto.
  - intros H. split; [|split]; intros r I; destruct (H r I) as (A & B & C).
    + apply String.eqb_eq. exact A.
    + apply close_spec. exact B.
    + apply andb_true_iff. split; apply inclb_spec; intros k; apply C.
Qed.
Lemma prior_keys_error p0 p keys : keys <> [] -> (check_prior_keys peq "error" p0 p keys = Got tt <->
  exists q, p = Some q /\ length p0 = length q /\ forall k v0, In (k, v0) keys -> exists v, dget q k = Some v /\ peq v0 v = true).
Proof.
  induction keys as [|[k v0] keys IH]; [congruence|]. intros _. cbn [check_prior_keys]. destruct p as [q|]; [|split; [discriminate|intros (q & E & _); discriminate]]. split.
  - intros H. exists q. split; [reflexivity|]. destruct (dget q k) as [v|] eqn:E; [|discriminate]. apply andthen_got in H. destruct H as (u & H1 & H2). apply check_error, andb_true_iff in H1.
    destruct H1 as [H1 L]. apply Nat.eqb_eq in L. split; [exact L|]. intros k' v' [Hk|Hk]; [injection Hk as <- <-; exists v; auto|]. destruct keys as [|x keys]; [destruct Hk|].
    apply IH in H2; [|discriminate]. destruct H2 as (q' & Q & _ & H2). injection Q as <-. apply H2. exact Hk.
  - intros (q' & Q & L & H). injection Q as <-. destruct (H k v0 (or_introl eq_refl)) as (v & E & Ev). rewrite E, Ev, L, Nat.eqb_refl. cbn [andb check andthen].
    destruct keys as [|x keys]; [reflexivity|]. apply IH; [discriminate|]. exists q. split; [reflexivity|]. split; [exact L|]. intros k' v' Hk. apply H. right. exact Hk.
Qed.
Lemma check_priors_all level p0 (rs : list res) : check_priors peq level p0 rs = Got tt <-> forall r, In r rs -> check_prior_keys peq level p0 (r_priors r) p0 = Got tt.
Proof.
  induction rs as [|r rs IH]; [split; [intros _ r []|reflexivity]|]. cbn [check_priors]. split.
  - intros H. apply andthen_got in H. destruct H as ([] & H1 & H2). intros x [<-|I]; [exact H1|]. apply IH; assumption.
  - intros H. rewrite (H r (or_introl eq_refl)). cbn [andthen]. apply IH. intros x I. apply H. right. exact I.
Qed.
Lemma check_priors_same p0 (rs : list res) : p0 <> [] -> wf p0 -> (forall r p, In r rs -> r_priors r = Some p -> wf p) ->
  (check_priors peq "error" p0 rs = Got tt <-> forall r, In r rs -> same_prior p0 r).
Proof.
  intros NE W0 W. rewrite check_priors_all. split; intros H r I; specialize (H r I).
  - apply prior_keys_error in H; [|exact NE]. destruct H as (p & P & L & H). exists p. split; [exact P|].
    assert (I1 : forall k, In k (dkeys p0) -> In k (dkeys p)).
    { intros k Hk. apply in_map_iff in Hk. destruct Hk as [[k' v0] [<- Hk]]. destruct (H _ _ Hk) as (v & E & _). apply dget_some_in in E. apply (in_map fst) in E. exact E. }
    split.
    + intros k. split; [|apply I1]. intros Hk. apply (NoDup_length_incl (l := dkeys p0) (l' := dkeys p)); [exact W0|unfold dkeys; rewrite !map_length; lia|exact I1|exact Hk].
    + intros k v0 v E0 E. apply dget_some_in in E0. destruct (H _ _ E0) as (v' & E' & Q). congruence.
  - destruct H as (p & P & Hk & Hv). apply prior_keys_error; [exact NE|]. exists p. split; [exact P|]. split.
    + rewrite <- (map_length fst p0), <- (map_length fst p). apply Nat.le_antisymm; apply NoDup_incl_length; try exact W0; try (apply (W r); assumption); intros k; apply Hk.
    + intros k v0 E0. destruct (dget p k) as [v|] eqn:E; [exists v; split; [reflexivity|]; apply (Hv k); [apply dget_in; assumption|exact E]|]. exfalso. apply dget_none in E. apply E, Hk. apply (in_map fst) in E0. exact E0.
Qed.
Lemma posteriors_got (rs : list res) ps : posteriors rs = Got ps <-> map r_posterior rs = map Some ps.
Proof.
  revert ps. induction rs as [|r rs IH]; intros ps; cbn [posteriors map].
  - split; [intros H; apply got_inj in H; subst; reflexivity|destruct ps; [reflexivity|discriminate]].
  - destruct (r_posterior r) as [p|]; [|split; [discriminate|destruct ps; discriminate]]. split.
    + intros H. apply andthen_got in H. destruct H as (qs & H1 & H2). apply got_inj in H2. subst ps. apply IH in H1. cbn [map]. rewrite H1. reflexivity.
    + destruct ps as [|q ps]; [discriminate|]. cbn [map]. intros H. injection H as -> H. apply IH in H. rewrite H. reflexivity.
Qed.
Lemma as_runs_some (rs : list res) : forall ps zs, map r_posterior rs = map Some ps -> map r_lnZ rs = map Some zs ->
  exists l, as_runs rs ps = Some l /\ map lnZ l = zs /\ map rows l = ps /\ length l = length rs.
Proof.
  induction rs as [|r rs IH]; intros ps zs P Z.
  - destruct ps; [|discriminate]. destruct zs; [|discriminate]. exists []. auto.
  - destruct ps as [|p ps]; [discriminate|]. destruct zs as [|z zs]; [discriminate|]. injection P as P0 P. injection Z as Z0 Z. destruct (IH ps zs P Z) as (l & A & B & C & D).
    exists (mkRun z (r_err r) p :: l). cbn [as_runs]. rewrite Z0, A. cbn [map length lnZ rows]. rewrite B, C, D. auto.
Qed.
Lemma as_runs_none (rs : list res) : forall ps r, length rs = length ps -> In r rs -> r_lnZ r = None -> as_runs rs ps = None.
Proof.
  induction rs as [|r' rs IH]; intros ps r L I Z; [destruct I|]. destruct ps as [|p ps]; [discriminate|]. cbn [as_runs]. destruct I as [<-|I]; [rewrite Z; reflexivity|].
  rewrite (IH ps r ltac:(cbn in L; lia) I Z). destruct (r_lnZ r'); reflexivity.
Qed.

(** None or one result: the empty result, or the result itself - label and all - at any consistency level. *)
Theorem C216_few level shuffle us empty r : comb level shuffle us empty [] = Got empty /\ comb level shuffle us empty [r] = Got r.
Proof. split; reflexivity. Qed.
(** At the level "error" (which is the default of combine, whatever the list was built with) results are combined only if they
    agree with the first in sampler, noise evidence (to 1e-8, or all nan), search parameters, and - unless the first has no prior - priors. *)
Theorem C216_agree shuffle us empty r0 r1 rest r : comb "error" shuffle us empty (r0 :: r1 :: rest) = Got r ->
  (forall x, In x (r0 :: r1 :: rest) -> agrees r0 x) /\
  exists p0, r_priors r0 = Some p0 /\ (p0 <> [] -> wf p0 -> (forall x p, In x (r0 :: r1 :: rest) -> r_priors x = Some p -> wf p) -> forall x, In x (r0 :: r1 :: rest) -> same_prior p0 x).
Proof.
  cbn [combine_results]. intros H. apply andthen_got in H. destruct H as (u1 & H1 & H). apply andthen_got in H. destruct H as (u2 & H2 & H).
  apply andthen_got in H. destruct H as (u3 & H3 & H). apply andthen_got in H. destruct H as ([] & H4 & _).
  apply check_error in H1. apply check_error in H2. apply check_error in H3. split; [apply agree_checks; auto|].
  destruct (r_priors r0) as [p0|]; [|discriminate]. exists p0. split; [reflexivity|]. intros NE W0 W. apply check_priors_same; assumption.
Qed.
(** Results that agree are combined alike at every level, known or not. *)
Lemma check_any level ok u : check "error" ok = Got u -> check level ok = Got u.
Proof. destruct ok; [intros H; exact H|discriminate]. Qed.
Lemma prior_keys_any level p0 p keys : check_prior_keys peq "error" p0 p keys = Got tt -> check_prior_keys peq level p0 p keys = Got tt.
Proof.
  induction keys as [|[k v0] keys IH]; [reflexivity|]. cbn [check_prior_keys]. destruct p as [q|]; [|discriminate]. destruct (dget q k) as [v|]; [|discriminate].
  intros H. apply andthen_got in H. destruct H as (u & H1 & H2). rewrite (check_any level _ _ H1). cbn [andthen]. apply IH. exact H2.
Qed.
Theorem C216_levels level shuffle us empty rs r : comb "error" shuffle us empty rs = Got r -> comb level shuffle us empty rs = Got r.
Proof.
  destruct rs as [|r0 [|r1 rest]]; [exact (fun H => H)|exact (fun H => H)|]. cbn [combine_results]. intros H.
  apply andthen_got in H. destruct H as (u1 & H1 & H). apply andthen_got in H. destruct H as (u2 & H2 & H).
  apply andthen_got in H. destruct H as (u3 & H3 & H). apply andthen_got in H. destruct H as ([] & H4 & H).
  rewrite (check_any level _ _ H1). cbn [andthen]. rewrite (check_any level _ _ H2). cbn [andthen]. rewrite (check_any level _ _ H3). cbn [andthen].
  destruct (r_priors r0) as [p0|] eqn:P; [|discriminate].
  assert (H5 : check_priors peq level p0 (r0 :: r1 :: rest) = Got tt).
  { apply check_priors_all. intros x I. apply prior_keys_any. apply (proj1 (check_priors_all _ _ _) H4). exact I. }
  rewrite H5. cbn [andthen]. exact H.
Qed.
(** At the levels "warning" and "ignore" results that do not agree are combined, provided every one has the priors' keys of the first,
    a posterior, and nested samples if the first has some; at any other level but "error" they end in a ValueError. *)
Theorem C216_lenient level shuffle us empty r0 r1 rest p0 : level = "warning" \/ level = "ignore" -> r_priors r0 = Some p0 ->
  (forall x, In x (r0 :: r1 :: rest) -> (exists p, r_priors x = Some p /\ forall k, In k (dkeys p0) -> In k (dkeys p)) /\ r_posterior x <> None /\ (r_nested r0 <> None -> r_nested x <> None)) ->
  exists r, comb level shuffle us empty (r0 :: r1 :: rest) = Got r.
Proof.
  intros L P H. cbn [combine_results]. assert (C : forall ok, check level ok = Got tt) by (intros [|]; [reflexivity|]; destruct L as [-> | ->]; reflexivity).
  rewrite !C. cbn [andthen]. rewrite P.
  assert (KK : forall q, (forall k, In k (dkeys p0) -> In k (dkeys q)) -> forall keys, incl keys p0 -> check_prior_keys peq level p0 (Some q) keys = Got tt).
  { intros q Hq. induction keys as [|[k v0] keys IH]; intros I; [reflexivity|]. cbn [check_prior_keys]. destruct (dget q k) as [v|] eqn:E.
    - rewrite C. cbn [andthen]. apply IH. intros x J. apply I. right. exact J.
    - exfalso. apply dget_none in E. apply E, Hq. apply (in_map fst p0 (k, v0)). apply I. left. reflexivity. }
  assert (H5 : check_priors peq level p0 (r0 :: r1 :: rest) = Got tt).
  { apply check_priors_all. intros x I. destruct (H x I) as ((p & E & Hk) & _). rewrite E. apply KK; [exact Hk|apply incl_refl]. }
  rewrite H5. cbn [andthen].
  assert (PS : exists ps, posteriors (r0 :: r1 :: rest) = Got ps).
  { clear - H. generalize dependent (r0 :: r1 :: rest). intros rs H. induction rs as [|x rs IH]; [exists []; reflexivity|]. cbn [posteriors]. destruct (H x (or_introl eq_refl)) as (_ & Q & _).
    destruct (r_posterior x) as [p|]; [|congruence]. destruct IH as [ps E]; [intros y I; apply H; right; exact I|]. rewrite E. cbn [andthen]. eauto. }
  destruct PS as [ps PS]. rewrite PS. cbn [andthen]. destruct (r_nested r0) eqn:NN.
  - assert (A : all_nested (r0 :: r1 :: rest) = true). { apply forallb_forall. intros x I. destruct (H x I) as (_ & _ & Q). destruct (r_nested x); [reflexivity|]. exfalso. apply Q; [discriminate|reflexivity]. }
    rewrite A. eauto.
  - destruct (_ || _); eauto.
Qed.
Theorem C216_unknown level shuffle us empty r0 r1 rest : level <> "error" -> level <> "warning" -> level <> "ignore" -> ~ (forall x, In x (r0 :: r1 :: rest) -> agrees r0 x) ->
  comb level shuffle us empty (r0 :: r1 :: rest) = Err ValueErr /\ comb "error" shuffle us empty (r0 :: r1 :: rest) = Err ListErr.
Proof.
  intros L1 L2 L3 D. assert (RE : react level = Err ValueErr).
  { unfold react. destruct (String.eqb_spec level "error"); [contradiction|]. destruct (String.eqb_spec level "warning"); [contradiction|]. destruct (String.eqb_spec level "ignore"); [contradiction|]. reflexivity. }
  cbn [combine_results]. rewrite <- agree_checks in D.
  destruct (same_sampler r0 (r0 :: r1 :: rest)); cbn [check]; [|rewrite RE; split; reflexivity]. cbn [andthen].
  destruct (same_data r0 (r0 :: r1 :: rest)); cbn [check]; [|rewrite RE; split; reflexivity]. cbn [andthen].
  destruct (same_parameters r0 (r0 :: r1 :: rest)); cbn [check]; [|rewrite RE; split; reflexivity]. exfalso. apply D. auto.
Qed.
(** What the first result hands down to any combination. *)
Definition inherits (r0 r : res) : Prop :=
  r_label r = option_map (fun l => String.append l "_combined") (r_label r0) /\ r_sampler r = r_sampler r0 /\ r_nested r = None /\ r_noise r = r_noise r0 /\ r_keys r = r_keys r0 /\
  r_priors r = r_priors r0 /\ r_other r = r_other r0.
Definition shuffles (f : option (list T -> list T)) : Prop := match f with Some f => forall l, Permutation (f l) l | None => True end.
Lemma ordered f l : shuffles f -> Permutation (match f with Some f => f l | None => l end) l.
Proof. destruct f as [f|]; [intros H; apply H|intros _; apply Permutation_refl]. Qed.
Lemma combined_evidence (rs : list res) ps : rs <> [] -> map r_posterior rs = map Some ps ->
  (forall zs, map r_lnZ rs = map Some zs -> combined_lnZ rs ps = Some (ln (avg (map exp zs)))) /\ ((exists x, In x rs /\ r_lnZ x = None) -> combined_lnZ rs ps = None).
Proof.
  intros NE P. assert (L : length rs = length ps) by (rewrite <- (map_length r_posterior rs), P, map_length; reflexivity). split.
  - intros zs Z. destruct (as_runs_some rs ps zs P Z) as (l & A & B & _ & D). unfold combined_lnZ. rewrite A. cbn [option_map]. apply (f_equal Some).
    destruct (C24_log_mean l) as (E & _); [intros ->; destruct rs; [congruence|discriminate]|]. rewrite E, <- B, map_map. reflexivity.
  - intros (x & I & Z). unfold combined_lnZ. rewrite (as_runs_none rs ps x L I Z). reflexivity.
Qed.
(** Nested sampling (the first result decides): the evidence is the mean evidence, nan if one is nan; the Bayes factor is with respect to
    the noise evidence of the first; every row is one of a run, a run of largest evidence keeps all its rows. *)
Theorem C216_nested level shuffle us empty r0 r1 rest r n0 : shuffles shuffle -> r_nested r0 = Some n0 -> comb level shuffle us empty (r0 :: r1 :: rest) = Got r ->
  inherits r0 r /\ r_kwargs r = None /\ (forall x, In x (r0 :: r1 :: rest) -> r_nested x <> None) /\
  (forall zs, map r_lnZ (r0 :: r1 :: rest) = map Some zs ->
    r_lnZ r = Some (ln (avg (map exp zs))) /\ r_bayes r = option_map (fun n => ln (avg (map exp zs)) - n) (r_noise r0)) /\
  exists rows, r_posterior r = Some rows /\
    (forall t, In t rows -> exists x p, In x (r0 :: r1 :: rest) /\ r_posterior x = Some p /\ In t p) /\
    (forall i x p u zs, nth_error (r0 :: r1 :: rest) i = Some x -> nth_error us i = Some u -> r_posterior x = Some p -> map r_lnZ (r0 :: r1 :: rest) = map Some zs ->
      (forall z zx, In z zs -> r_lnZ x = Some zx -> z <= zx) -> length u = length p -> (forall v, In v u -> 0 <= v < 1) -> forall t, In t p -> In t rows).
Proof.
  intros SH NN. cbn [combine_results]. set (rs := r0 :: r1 :: rest). intros H. apply andthen_got in H. destruct H as (u1 & _ & H). apply andthen_got in H. destruct H as (u2 & _ & H).
  apply andthen_got in H. destruct H as (u3 & _ & H). apply andthen_got in H. destruct H as ([] & _ & H). rewrite NN in H. destruct (all_nested rs) eqn:A; [|discriminate].
  apply andthen_got in H. destruct H as (ps & PS & H). apply got_inj in H. subst r. apply posteriors_got in PS. cbn [r_kwargs r_lnZ r_err r_bayes r_posterior].
  destruct (combined_evidence rs ps ltac:(discriminate) PS) as [CE _]. split; [|split; [reflexivity|split; [|split]]].
  - unfold inherits. cbn. auto 10.
  - intros x I. unfold all_nested in A. rewrite forallb_forall in A. specialize (A x I). destruct (r_nested x); discriminate.
  - intros zs Z. rewrite (CE zs Z). split; [reflexivity|]. unfold minus. destruct (r_noise r0); reflexivity.
  - eexists. split; [reflexivity|]. split.
    + intros t I. apply (Permutation_in _ (ordered shuffle _ SH)) in I. unfold nested_rows in I. destruct (as_runs rs ps) as [l|] eqn:E; [|destruct I].
      apply C24_rows in I. destruct I as (q & Q & I). fold rs. clear - E Q I PS. revert ps l E Q PS. generalize rs. clear rs. intros rs. induction rs as [|x rs IH]; intros ps l E Q PS.
      * injection E as <-. destruct Q.
      * destruct ps as [|p ps]; [discriminate|]. injection PS as P0 PS. cbn [as_runs] in E. destruct (r_lnZ x) as [z|]; [|discriminate]. destruct (as_runs rs ps) as [l'|] eqn:E'; [|discriminate].
        injection E as <-. destruct Q as [<-|Q].
        -- exists x, p. split; [left; reflexivity|]. split; [exact P0|exact I].
        -- destruct (IH ps l' E' Q PS) as (y & py & A & B & C). exists y, py. split; [right; exact A|]. auto.
    + intros i x p u zs NX NU PX Z MX LU U t I. apply (Permutation_in _ (Permutation_sym (ordered shuffle _ SH))).
      destruct (as_runs_some rs ps zs PS Z) as (l & E & ZL & RL & LL). unfold nested_rows. rewrite E. unfold combine_nested_rows. apply in_concat.
      assert (LI : (i < length l)%nat) by (rewrite LL; apply nth_error_Some; rewrite NX; discriminate).
      destruct (nth_error l i) as [q|] eqn:NQ; [|apply nth_error_None in NQ; lia].
      assert (PQ : rows q = p). { assert (Q1 : nth_error ps i = Some (rows q)) by (rewrite <- RL; apply map_nth_error; exact NQ). assert (Q2 : nth_error (map r_posterior rs) i = Some (Some p)) by (rewrite <- PX; apply map_nth_error; exact NX). rewrite PS in Q2. rewrite (map_nth_error Some _ _ Q1) in Q2. congruence. }
      assert (ZQ : r_lnZ x = Some (lnZ q)). { assert (Q1 : nth_error zs i = Some (lnZ q)) by (rewrite <- ZL; apply map_nth_error; exact NQ). assert (Q2 : nth_error (map r_lnZ rs) i = Some (r_lnZ x)) by (apply map_nth_error; exact NX). rewrite Z in Q2. rewrite (map_nth_error Some _ _ Q1) in Q2. congruence. }
      exists (select (keep_fraction l q) (rows q) u). split.
      * apply in_map_iff. exists (q, u). split; [reflexivity|]. clear - NQ NU. revert us i NQ NU. induction l as [|a l IH]; intros us i NQ NU; [destruct i; discriminate|].
        destruct us as [|b us]; [destruct i; discriminate|]. destruct i as [|i]; [injection NQ as ->; injection NU as ->; left; reflexivity|right; apply (IH us i); assumption].
      * rewrite C24_best_run_kept; [rewrite PQ; exact I|apply (nth_error_In _ _ NQ)| |rewrite PQ; exact LU|exact U].
        intros q' Q'. apply MX; [rewrite <- ZL; apply in_map; exact Q'|exact ZQ].
Qed.
(** One nan among the evidences of nested runs: the combination has a nan evidence and no sample at all. *)
Theorem C216_nan_refuted level shuffle us empty r0 r1 rest r n0 : shuffles shuffle -> r_nested r0 = Some n0 -> comb level shuffle us empty (r0 :: r1 :: rest) = Got r ->
  (exists x, In x (r0 :: r1 :: rest) /\ r_lnZ x = None) -> r_lnZ r = None /\ r_bayes r = None /\ r_posterior r = Some [].
Proof.
  intros SH NN. cbn [combine_results]. set (rs := r0 :: r1 :: rest). intros H. apply andthen_got in H. destruct H as (u1 & _ & H). apply andthen_got in H. destruct H as (u2 & _ & H).
  apply andthen_got in H. destruct H as (u3 & _ & H). apply andthen_got in H. destruct H as ([] & _ & H). rewrite NN in H. destruct (all_nested rs) eqn:A; [|discriminate].
  apply andthen_got in H. destruct H as (ps & PS & H). apply got_inj in H. subst r. apply posteriors_got in PS. intros (x & I & Z). cbn [r_kwargs r_lnZ r_err r_bayes r_posterior].
  assert (L : length rs = length ps) by (rewrite <- (map_length r_posterior rs), PS, map_length; reflexivity).
  assert (E : as_runs rs ps = None) by (apply (as_runs_none rs ps x L I Z)). unfold combined_lnZ, nested_rows. rewrite E. split; [reflexivity|]. split; [reflexivity|].
  apply (f_equal Some). apply Permutation_nil, Permutation_sym, ordered. exact SH.
Qed.
(** bilby_mcmc: the mean evidence and all rows. *)
Theorem C216_mcmc level shuffle us empty r0 r1 rest r : shuffles shuffle -> r_nested r0 = None -> r_sampler r0 = "bilby_mcmc" \/ r_sampler r0 = "bilbymcmc" ->
  comb level shuffle us empty (r0 :: r1 :: rest) = Got r ->
  inherits r0 r /\ r_kwargs r = r_kwargs r0 /\
  (forall zs, map r_lnZ (r0 :: r1 :: rest) = map Some zs ->
    r_lnZ r = Some (ln (avg (map exp zs))) /\ r_bayes r = option_map (fun n => ln (avg (map exp zs)) - n) (r_noise r0)) /\
  ((exists x, In x (r0 :: r1 :: rest) /\ r_lnZ x = None) -> r_lnZ r = None) /\
  exists ps rows, map r_posterior (r0 :: r1 :: rest) = map Some ps /\ r_posterior r = Some rows /\ Permutation rows (concat ps) /\ (shuffle = None -> rows = concat ps).
Proof.
  intros SH NN SA. cbn [combine_results]. set (rs := r0 :: r1 :: rest). intros H. apply andthen_got in H. destruct H as (u1 & _ & H). apply andthen_got in H. destruct H as (u2 & _ & H).
  apply andthen_got in H. destruct H as (u3 & _ & H). apply andthen_got in H. destruct H as ([] & _ & H). rewrite NN in H.
  apply andthen_got in H. destruct H as (ps & PS & H). apply posteriors_got in PS.
  assert (SE : String.eqb (r_sampler r0) "bilby_mcmc" || String.eqb (r_sampler r0) "bilbymcmc" = true) by (destruct SA as [-> | ->]; reflexivity).
  rewrite SE in H. apply got_inj in H. subst r. destruct (combined_evidence rs ps ltac:(discriminate) PS) as [CE CN]. cbn [r_kwargs r_lnZ r_err r_bayes r_posterior]. split; [|split; [reflexivity|split; [|split]]].
  - unfold inherits. cbn. auto 10.
  - intros zs Z. rewrite (CE zs Z). split; [reflexivity|]. unfold minus. destruct (r_noise r0); reflexivity.
  - exact CN.
  - eexists ps, _. split; [exact PS|]. split; [reflexivity|]. split; [apply ordered; exact SH|]. intros ->. reflexivity.
Qed.
(** Any other sampler without nested samples: all rows, but evidence, error and Bayes factor of the first run alone. *)
Theorem C216_other level shuffle us empty r0 r1 rest r : shuffles shuffle -> r_nested r0 = None -> r_sampler r0 <> "bilby_mcmc" -> r_sampler r0 <> "bilbymcmc" ->
  comb level shuffle us empty (r0 :: r1 :: rest) = Got r ->
  inherits r0 r /\ r_kwargs r = r_kwargs r0 /\ r_lnZ r = r_lnZ r0 /\ r_err r = r_err r0 /\ r_bayes r = r_bayes r0 /\
  exists ps rows, map r_posterior (r0 :: r1 :: rest) = map Some ps /\ r_posterior r = Some rows /\ Permutation rows (concat ps) /\ (shuffle = None -> rows = concat ps).
Proof.
  intros SH NN S1 S2. cbn [combine_results]. set (rs := r0 :: r1 :: rest). intros H. apply andthen_got in H. destruct H as (u1 & _ & H). apply andthen_got in H. destruct H as (u2 & _ & H).
  apply andthen_got in H. destruct H as (u3 & _ & H). apply andthen_got in H. destruct H as ([] & _ & H). rewrite NN in H.
  apply andthen_got in H. destruct H as (ps & PS & H). apply posteriors_got in PS.
  apply String.eqb_neq in S1. apply String.eqb_neq in S2. rewrite S1, S2 in H. cbn [orb] in H. apply got_inj in H. subst r. cbn [r_kwargs r_lnZ r_err r_bayes r_posterior].
  split; [unfold inherits; cbn; auto 10|]. repeat (split; [reflexivity|]). eexists ps, _. split; [exact PS|]. split; [reflexivity|]. split; [apply ordered; exact SH|]. intros ->. reflexivity.
Qed.
(** The error of the combination, nested or mcmc, lies between the errors of the runs if all are finite. *)
Theorem C216_error level shuffle us empty r0 r1 rest r lo hi : r_nested r0 <> None \/ r_sampler r0 = "bilby_mcmc" \/ r_sampler r0 = "bilbymcmc" ->
  comb level shuffle us empty (r0 :: r1 :: rest) = Got r -> (forall x, In x (r0 :: r1 :: rest) -> exists e, r_err x = Some e /\ lo <= e <= hi) ->
  exists e, r_err r = Some e /\ lo <= e <= hi.
Proof.
  intros W. cbn [combine_results]. set (rs := r0 :: r1 :: rest). intros H B. apply andthen_got in H. destruct H as (u1 & _ & H). apply andthen_got in H. destruct H as (u2 & _ & H).
  apply andthen_got in H. destruct H as (u3 & _ & H). apply andthen_got in H. destruct H as ([] & _ & H).
  assert (E : r_err r = combined_err rs).
  { destruct (r_nested r0).
    - destruct (all_nested rs); [|discriminate]. apply andthen_got in H. destruct H as (ps & _ & H). apply got_inj in H. subst r. reflexivity.
    - destruct W as [W|W]; [congruence|]. assert (SE : String.eqb (r_sampler r0) "bilby_mcmc" || String.eqb (r_sampler r0) "bilbymcmc" = true) by (destruct W as [-> | ->]; reflexivity).
      rewrite SE in H. apply andthen_got in H. destruct H as (ps & _ & H). apply got_inj in H. subst r. reflexivity. }
  rewrite E. unfold combined_err. apply C24_error; [discriminate|]. intros q Q. apply in_map_iff in Q. destruct Q as (x & <- & I). cbn. apply B. exact I.
Qed.
End C216.
(** *** Examples *)
Definition cx (sampler : string) (z : option R) (nested : option unit) (rows : list nat) : result nat nat unit unit unit :=
  mkRes (Some "run") sampler nested (Some rows) z (Some (1 / 10)) (Some 0) z ["m"] (Some [("m", 7%nat)]) (Some tt) tt.
Lemma close_self x : close x x = true.
Proof. apply close_spec. destruct x as [x|]; [|exact I]. unfold Rminus. rewrite Rplus_opp_r, Rabs_R0. lra. Qed.
(** Two emcee runs of different evidence: the combination has the evidence of the first. *)
Theorem C216_evidence_refuted : exists r, combine_results Nat.eqb "error" None [] (cx "" None None []) [cx "emcee" (Some 0) None [1; 2]%nat; cx "emcee" (Some 5) None [3]%nat] = Got r /\
  r_posterior r = Some [1; 2; 3]%nat /\ r_lnZ r = Some 0.
Proof.
  eexists. split; [|split; [|]]. 
  - unfold combine_results. unfold same_data. cbn [forallb]. cbn [r_noise cx]. rewrite !close_self. reflexivity.
  - reflexivity.
  - reflexivity.
Qed.
Example C216_example : exists r, combine_results Nat.eqb "error" None [] (cx "" None None []) [cx "bilby_mcmc" (Some (ln 2)) None [1; 2]%nat; cx "bilby_mcmc" (Some (ln 6)) None [3]%nat] = Got r /\
  r_label r = Some "run_combined" /\ r_posterior r = Some [1; 2; 3]%nat /\ r_lnZ r = Some (ln 4) /\ r_bayes r = Some (ln 4 - 0).
Proof.
  assert (Z : ln (avg (map exp [ln 2; ln 6])) = ln 4) by (apply f_equal; unfold avg; cbn; rewrite !exp_ln by lra; field).
  set (r0 := cx "bilby_mcmc" (Some (ln 2)) None [1; 2]%nat). set (r1 := cx "bilby_mcmc" (Some (ln 6)) None [3]%nat).
  assert (E : exists r, combine_results Nat.eqb "error" None [] (cx "" None None []) [r0; r1] = Got r).
  { eexists. unfold combine_results. unfold same_data. cbn [forallb]. cbn [r_noise r0 r1 cx]. rewrite !close_self. reflexivity. }
  destruct E as [r E]. exists r. split; [exact E|]. destruct (C216_mcmc _ _ None _ _ r0 r1 [] _ I eq_refl (or_introl eq_refl) E) as ((L & _) & _ & EV & _ & ps & rows & P & PR & _ & SH).
  split; [exact L|]. destruct ps as [|a [|b [|c ps]]]; try discriminate. injection P as Q1 Q2. rewrite PR, (SH eq_refl), <- Q1, <- Q2.
  split; [reflexivity|]. destruct (EV [ln 2; ln 6] eq_refl) as [E1 E2]. rewrite E1, E2, Z. split; reflexivity.
Qed.

(** ** Assumptions of every theorem above *)
Definition Combine_Props_all :=
  (@C216_few,
   @C216_agree,
   @C216_levels,
   @C216_lenient,
   @C216_unknown,
   @C216_nested,
   @C216_nan_refuted,
   @C216_mcmc,
   @C216_other,
   @C216_error,
   @C216_evidence_refuted).
Print Assumptions Combine_Props_all.
