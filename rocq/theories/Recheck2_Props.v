(** * Further statements about models of other files: the proposal cycle of bilby_mcmc and the PyMC adapter *)
From Coq Require Import String Ascii Bool List Reals ZArith Arith Lra Lia.
From Coquelicot Require Import Rbar.
From Verif Require Import PyReal PyDict Samples_Model Mband_Model Ensemble_Model McProp_Model McProp_Props McCycle_Model McCycle_Props.
From Verif Require Lik_Model Pymc_Model.
Import ListNotations.
Open Scope list_scope.
Open Scope R_scope.

(** ** C209 Which classes each abbreviation removes from the cycle *)
Definition removes (t : string) (ks : list kind) : Prop := forall l p, In p (remove_proposals_using_string l ("no" ++ t)) <-> In p l /\ ~ In (pkind p) ks.
Theorem C209_tags : removes "DE" [DE] /\ removes "AG" [AG; FM] /\ removes "ST" [ST] /\ removes "FG" [FG] /\ removes "NF" [NF] /\ removes "KD" [KD] /\
  removes "GM" [GM] /\ removes "PR" [PR] /\ removes "UN" [UN] /\ removes "FM" [FM] /\ removes "XX" [].
Proof.
  repeat match goal with |- _ /\ _ => split end; intros l p; unfold remove_proposals_using_string; cbn [split_no append Ascii.eqb Bool.eqb andb tl fold_left]; unfold remove_one; cbn [dget mapping String.eqb Ascii.eqb Bool.eqb];
    try rewrite filter_In; cbn [In]; destruct (pkind p); cbn; intuition (try discriminate; try congruence).
Qed.

(** ** C209 The default cycle: every proposal moves with weight 10, the uniform one with 1/2, and Gaussian mixtures are in it exactly if sklearn is installed *)
Theorem C209_default_weights cbc tidal gmm ps l : get_proposals "default" cbc tidal gmm ps = Some l ->
  (forall p, In p l -> pweight p = match pkind p with UN => 1 / 2 | _ => 10 end) /\
  (forall k, In k (map pkind l) <-> In k [AG; DE; UN; KD; FM] \/ k = GM /\ gmm = true) /\ NoDup (map pkind l).
Proof.
  unfold get_proposals. cbn [contains index prefix Ascii.eqb Bool.eqb]. intros H.
  change (contains "gwA" "default") with false in H. cbn beta iota in H.
  unfold default_requests, build_all, build in H. destruct gmm; cbn [app] in H; (destruct (parameters ps None) as [m|]; [|discriminate]);
    injection H as <-; unfold remove_proposals_using_string; cbn [tl split_no Ascii.eqb Bool.eqb andb append fold_left]; (split; [|split]).
  1,4: intros p I; cbn [In] in I; repeat (destruct I as [<- | I]; [reflexivity|]); contradiction.
  1,3: intros k; cbn [map pkind In]; intuition (try discriminate; try congruence).
  all: cbn [map pkind]; repeat constructor; cbn [In]; intuition discriminate.
Qed.

(** ** C209 Jumps of the polarisation angle with the phase are in the gwA cycle exactly if both are sampled *)
Theorem C209_polarisation cbc tidal gmm ps l : wf ps -> get_proposals "gwA" cbc tidal gmm ps = Some l ->
  forall k, k = CorrelatedJump \/ k = PhasePolarisationReversal ->
    (In k (map pkind l) <-> sampled ps "psi" /\ exists f, (f = "phase" \/ f = "delta_phase")%string /\ sampled ps f).
Proof.
  intros W H k Hk. unfold get_proposals in H. change (contains "gwA" "gwA") with true in H. cbn beta iota in H.
  destruct (cbc && gmm); [|discriminate]. destruct (build_all ps (gwA_requests tidal ps)) as [l0|] eqn:B; [|discriminate].
  injection H as <-. unfold remove_proposals_using_string. cbn [tl split_no Ascii.eqb Bool.eqb andb append fold_left].
  assert (E : In k (map pkind l0) <-> exists w sub, In (k, w, sub) (gwA_requests tidal ps)).
  { rewrite in_map_iff. split.
    - intros (p & <- & I). apply (build_all_in _ _ _ B) in I. destruct I as ([[k' w] sub] & I & Q). exists w, sub. unfold build in Q. destruct (parameters ps sub); [|discriminate]. injection Q as <-. exact I.
    - intros (w & sub & I). assert (N : build ps (k, w, sub) <> None) by (apply (proj1 (build_all_some ps _) (ex_intro _ _ B)), I).
      destruct (build ps (k, w, sub)) as [p|] eqn:Q; [|contradiction]. exists p. split; [unfold build in Q; destruct (parameters ps sub); [|discriminate]; injection Q as <-; reflexivity|].
      apply (build_all_in _ _ _ B). exists (k, w, sub). split; assumption. }
  rewrite E.
  assert (F : (exists w sub, In (k, w, sub) (gwA_requests tidal ps)) <-> meets ps phase_set && mem "psi" (non_fixed_keys ps) = true).
  { unfold gwA_requests. split.
    - intros (w & sub & I). repeat rewrite in_app_iff in I. rewrite !when_in in I.
      repeat match type of I with _ \/ _ => destruct I as [I|I] end;
        try (destruct I as [C I]; cbn [In] in I; repeat (destruct I as [I|I]; [injection I as <- _ _; destruct Hk; discriminate|]); contradiction);
        try (cbn [In] in I; repeat (destruct I as [I|I]; [injection I as <- _ _; destruct Hk; discriminate|]); contradiction).
      + destruct I as [C I]. exact C.
      + apply in_map_iff in I. destruct I as (x & I & _). injection I as <- _ _. destruct Hk; discriminate.
    - intros C. exists tiny, None. repeat rewrite in_app_iff. rewrite C. cbn [when In]. destruct Hk as [-> | ->]; tauto. }
  rewrite F, andb_true_iff, (meets_iff ps phase_set W). split.
  - intros [(f & S & I) M]. split; [|exists f; split; [cbn in I; intuition congruence|exact S]].
    assert (Q : meets ps ["psi"%string] = true).
    { unfold meets. apply existsb_exists. unfold mem in M. apply existsb_exists in M. destruct M as (x & X & Y). exists x. split; [exact X|]. apply String.eqb_eq in Y. subst x. reflexivity. }
    apply (meets_iff ps _ W) in Q. destruct Q as (x & X & [<- | []]). exact X.
  - intros [S (f & I & Sf)]. split; [exists f; split; [exact Sf|]; cbn; intuition congruence|].
    assert (Q : meets ps ["psi"%string] = true) by (apply (meets_iff ps _ W); exists "psi"%string; split; [exact S|left; reflexivity]).
    unfold meets in Q. apply existsb_exists in Q. destruct Q as (x & X & Y). unfold mem in *. apply existsb_exists. exists x. split; [exact X|].
    cbn in Y. rewrite orb_false_r in Y. rewrite String.eqb_sym in Y. first [exact Y | rewrite String.eqb_sym; exact Y].
Qed.

(** ** C209 The phase reversal turns the phase by half a circle and eps, onto [0, 2 pi); the reverse turn brings it back *)
Theorem C209_reversal ps eps s s' : phase_propose ps eps s = Some s' ->
  exists k x y, (k = "phase" \/ k = "delta_phase")%string /\ dget s k = Some x /\ dget s' k = Some y /\ 0 <= y < 2 * PI /\
    (exists n : Z, y = x + PI + eps + 2 * PI * IZR n) /\ (forall k', k' <> k -> dget s' k' = dget s k') /\
    (0 <= x < 2 * PI -> exists s'', phase_propose ps (- eps) s' = Some s'' /\ forall k', dget s'' k' = dget s k').
Proof.
  unfold phase_propose. intros H. destruct (phase_key ps) as [k|] eqn:K; [|discriminate]. destruct (dget s k) as [x|] eqn:X; [|discriminate]. injection H as <-.
  assert (P : 0 < 2 * PI) by (pose proof PI_RGT_0; lra).
  exists k, x, (rmod (x + PI + eps) (2 * PI)). split; [unfold phase_key in K; destruct (dmem ps "phase"); [injection K as <-; tauto|destruct (dmem ps "delta_phase"); [injection K as <-; tauto|discriminate]]|].
  split; [exact X|]. split; [apply dget_set_eq|]. split; [apply rmod_range, P|]. split.
  - destruct (rmod_congr (x + PI + eps) (2 * PI)) as [j ->]. exists (- j)%Z. rewrite opp_IZR. ring.
  - split; [intros k' N; apply dget_set_ne, N|]. intros R. rewrite dget_set_eq. eexists. split; [reflexivity|]. intros k'.
    destruct (string_dec k' k) as [->|N]; [|rewrite !dget_set_ne by exact N; reflexivity]. rewrite dget_set_eq, X. apply (f_equal Some).
    destruct (rmod_congr (x + PI + eps) (2 * PI)) as [j ->]. apply (rmod_unique _ _ x (1 - j)); [exact P|exact R|]. rewrite minus_IZR. ring.
Qed.

Section Pymc.
Import Lik_Model Pymc_Model.
Variable func : dict R -> option (list R).
(** ** C211 With rates that may vanish PyMC's likelihood is zero exactly if some count is positive where the rate is zero *)
Theorem C211_poisson_zero fkeys point (y : list nat) mu : (forall k, In k (dkeys point) -> In k fkeys) -> func point = Some mu -> (forall m, In m mu -> 0 <= m) ->
  ((exists n, In (0, (1 + n)%nat) (combine mu y)) -> pymc_poisson func fkeys point y = Ok NegInf) /\
  (~ (exists n, In (0, (1 + n)%nat) (combine mu y)) -> exists v, pymc_poisson func fkeys point y = Ok (Val v)).
Proof.
  intros K F P. unfold pymc_poisson. assert (KK : keys_known fkeys point = true).
  { unfold keys_known. apply forallb_forall. intros k I. apply existsb_exists. exists k. split; [apply K, I|apply String.eqb_refl]. }
  rewrite KK, F. cbn [negb]. assert (E : existsb (fun m => lt m 0) mu = false).
  { destruct (existsb _ mu) eqn:E; [|reflexivity]. apply existsb_exists in E. destruct E as (m & I & L). unfold lt in L. destruct (Rlt_dec m 0); [|discriminate]. specialize (P m I). lra. }
  rewrite E. clear. 
  assert (G : forall l : list (R * nat), ((exists n, In (0, (1 + n)%nat) l) /\ bsum (map (fun q => poisson_logp (fst q) (snd q)) l) = NegInf) \/
    (~ (exists n, In (0, (1 + n)%nat) l) /\ exists v, bsum (map (fun q => poisson_logp (fst q) (snd q)) l) = Val v)).
  { induction l as [|[m n] l IH]; [right; split; [intros (n & []) | exists 0; reflexivity]|]. cbn [map bsum fst snd].
    destruct (Req_EM_T m 0) as [Z|Z].
    - subst m. destruct n as [|n].
      + assert (Q : poisson_logp 0 0 = Finite 0) by (unfold poisson_logp; destruct (Req_EM_T 0 0); [reflexivity|contradiction]). rewrite Q.
        destruct IH as [[(j & J) B]|[N (v & B)]]; [left; split; [exists j; right; exact J|rewrite B; reflexivity]|right; split; [|rewrite B; eexists; reflexivity]].
        intros (j & [J|J]); [discriminate|apply N; exists j; exact J].
      + assert (Q : poisson_logp 0 (1 + n) = m_infty) by (unfold poisson_logp; destruct (Req_EM_T 0 0); [reflexivity|contradiction]). change (S n) with (1 + n)%nat. rewrite Q.
        left. split; [exists n; left; reflexivity|]. destruct IH as [[_ B]|[_ (v & B)]]; rewrite B; reflexivity.
    - assert (Q : exists x, poisson_logp m n = Finite x) by (unfold poisson_logp; destruct (Req_EM_T m 0); [contradiction|eexists; reflexivity]). destruct Q as [x ->].
      destruct IH as [[(j & J) B]|[N (v & B)]]; [left; split; [exists j; right; exact J|rewrite B; reflexivity]|right; split; [|rewrite B; eexists; reflexivity]].
      intros (j & [J|J]); [injection J as J _; contradiction|apply N; exists j; exact J]. }
  destruct (G (combine mu y)) as [[A B]|[A (v & B)]]; rewrite B; split; intros H; try contradiction; [reflexivity|eexists; reflexivity].
Qed.
End Pymc.

(** ** C212 Arguments of NUTS that are given together win over the single ones *)
Theorem C212_given (V : Type) names d single step methods : (forall m, In m methods -> m = "nuts"%string) -> Pymc_Model.steps V names (Some d) single step methods = ([], d).
Proof.
  intros A. unfold Pymc_Model.steps. assert (E : forallb (String.eqb "nuts") methods = true) by (apply forallb_forall; intros m I; rewrite (A m I); reflexivity). rewrite E. reflexivity.
Qed.
Example C212_given_example : Pymc_Model.steps nat ["target_accept"%string] (Some [("max_treedepth", 7%nat)])%string [("target_accept", 9%nat)]%string [] ["nuts"; "slice"]%string =
  ([("nuts", [("max_treedepth", 7%nat)]); ("slice", [])]%string, []).
Proof. reflexivity. Qed.

(** ** Assumptions of every theorem above *)
Definition Recheck2_Props_all :=
  (@C209_tags,
   @C209_default_weights,
   @C209_polarisation,
   @C209_reversal,
   @C211_poisson_zero,
   @C212_given).
Print Assumptions Recheck2_Props_all.
