(** * Properties C164 (equality of priors), C165 (filling and copying prior dictionaries), C166 (credible levels) *)
From Coq Require Import String.
From Coq Require Import Reals Lra Psatz List Bool Arith ZArith Lia Permutation.
From Verif Require Import PyReal PyDict PriorMisc_Model GwPrior_Model.
Import ListNotations.
Open Scope R_scope.
Open Scope list_scope.
Open Scope nat_scope.

(** ** C164: equality of priors *)
(** induction over values with arguments *)
Section PvInd.
Variable Q : pv -> Prop.
Hypotheses (HN : forall x, Q (VNum x)) (HS : forall s, Q (VStr s)) (H0 : Q VNone) (HA : forall l, Q (VArr l)) (HF : forall i, Q (VFrozen i))
  (HP : forall c a d, (forall k v, In (k, v) d -> Q v) -> Q (VPrior c a d)).
Fixpoint pv_rect' (v : pv) : Q v.
Proof.
  destruct v as [x|s| |l|i|c a d]; [apply HN|apply HS|apply H0|apply HA|apply HF|]. apply HP.
  induction d as [|[k' v'] t IH]; intros k v I; [destruct I|]. destruct I as [E|I]; [|exact (IH k v I)].
  pose proof (pv_rect' v') as X. apply (f_equal snd) in E. cbn [snd] in E. rewrite <- E. exact X.
Defined.
End PvInd.
Definition lrs : string := "least_recently_sampled".
(** the loop over the arguments *)
Fixpoint args_eq (d d' : list (string * pv)) : option bool :=
  match d with
  | [] => Some true
  | (k, v) :: t => if String.eqb k lrs then args_eq t d'
                   else match lookup d' k with None => None | Some v' => match arg_eq v v' with Some true => args_eq t d' | r => r end end
  end.
Lemma arg_eq_prior c a d c' a' d' : arg_eq (VPrior c a d) (VPrior c' a' d') =
  if negb (String.eqb c c') then Some false else if negb (same_names a a') then Some false else args_eq d d'.
Proof.
  cbn [arg_eq]. destruct (negb (String.eqb c c')); [reflexivity|]. destruct (negb (same_names a a')); [reflexivity|].
  induction d as [|[k v] t IH]; [reflexivity|]. cbn [args_eq]. change lrs with "least_recently_sampled"%string in *.
  destruct (String.eqb k "least_recently_sampled"); [exact IH|]. destruct (lookup d' k) as [v'|]; [|reflexivity].
  destruct (arg_eq v v') as [[|]|]; [exact IH|reflexivity|reflexivity].
Qed.
Definition is_arr (v : pv) : bool := match v with VArr _ => true | _ => false end.
(** no NaN anywhere, except in what was sampled last *)
Inductive no_nan : pv -> Prop :=
| nn_num x : no_nan (VNum (Some x)) | nn_str s : no_nan (VStr s) | nn_none : no_nan VNone
| nn_arr l : (forall e, In e l -> e <> None) -> no_nan (VArr l) | nn_frozen i : no_nan (VFrozen i)
| nn_prior c a d : (forall k v, In (k, v) d -> k <> lrs -> no_nan v) -> no_nan (VPrior c a d).
(** the value without what was sampled last *)
Fixpoint erase (v : pv) : pv :=
  match v with
  | VPrior c a d => VPrior c a ((fix go (d : list (string * pv)) := match d with [] => [] | (k, v) :: t => (k, if String.eqb k lrs then VNone else erase v) :: go t end) d)
  | v => v
  end.
Fixpoint erase_args (d : list (string * pv)) : list (string * pv) :=
  match d with [] => [] | (k, v) :: t => (k, if String.eqb k lrs then VNone else erase v) :: erase_args t end.
Lemma erase_prior c a d : erase (VPrior c a d) = VPrior c a (erase_args d).
Proof. reflexivity. Qed.

Section Equality.
(** the signature of each class: the names of its arguments, and which of them are arrays *)
Variable sig : string -> list (string * bool).
Hypothesis sig_ok : forall c, NoDup (map fst (sig c)).
Inductive well_formed : pv -> Prop :=
| wf_num x : well_formed (VNum x) | wf_str s : well_formed (VStr s) | wf_none : well_formed VNone | wf_arr l : well_formed (VArr l)
| wf_prior c a d : map (fun kv => (fst kv, is_arr (snd kv))) d = sig c -> (forall k v, In (k, v) d -> well_formed v) -> well_formed (VPrior c a d).

Lemma num_eq_iff a b : num_eq a b = true <-> exists x, a = Some x /\ b = Some x.
Proof.
  destruct a as [x|], b as [y|]; cbn; try (split; [discriminate|intros (z & A & B); congruence]).
  destruct (Req_EM_T x y) as [->|N]; [split; eauto|]. split; [discriminate|]. intros (z & A & B). congruence.
Qed.
Lemma arr_eq_iff l m : (forall e, In e l -> e <> None) -> (arr_eq l m = true <-> l = m).
Proof.
  unfold arr_eq. revert m. induction l as [|a l IH]; intros [|b m] H; cbn [length combine forallb fst snd Nat.eqb andb]; try (split; [discriminate|discriminate]).
  - split; reflexivity.
  - specialize (IH m (fun e He => H e (or_intror He))). split.
    + intros E. apply andb_true_iff in E. destruct E as [E1 E2]. apply andb_true_iff in E2. destruct E2 as [E2 E3]. apply num_eq_iff in E2.
      destruct E2 as (x & -> & ->). f_equal. apply IH. rewrite E1, E3. reflexivity.
    + intros E. injection E as <- <-. pose proof (proj2 IH eq_refl) as X. apply andb_true_iff in X. destruct X as [X Y]. rewrite X, Y. cbn [andb].
      rewrite andb_true_r. apply num_eq_iff. destruct a as [x|]; [eauto|]. exfalso. exact (H None (or_introl eq_refl) eq_refl).
Qed.
Lemma same_names_iff a b : same_names a b = true <-> a = b.
Proof. unfold same_names. destruct (list_eq_dec string_dec a b); split; congruence. Qed.
Lemma lookup_pos k v t : lookup ((k, v) :: t) k = Some v.
Proof. cbn [lookup]. rewrite String.eqb_refl. reflexivity. Qed.
(** the arguments of two priors of one class are compared position by position *)
Lemma args_characterised d d' full : 
  (forall k v, In (k, v) d -> forall b, well_formed v -> well_formed b -> no_nan v -> no_nan b -> is_arr v = is_arr b ->
     exists r, arg_eq v b = Some r /\ (r = true <-> erase v = erase b)) ->
  map (fun kv => (fst kv, is_arr (snd kv))) d = map (fun kv => (fst kv, is_arr (snd kv))) d' ->
  (forall k v, In (k, v) d' -> lookup full k = Some v) ->
  (forall k v, In (k, v) d -> well_formed v) -> (forall k v, In (k, v) d' -> well_formed v) ->
  (forall k v, In (k, v) d -> k <> lrs -> no_nan v) -> (forall k v, In (k, v) d' -> k <> lrs -> no_nan v) ->
  exists r, args_eq d full = Some r /\ (r = true <-> erase_args d = erase_args d').
Proof.
  revert d'. induction d as [|[k v] t IH]; intros [|[k' v'] t'] HI HM HL W W' N N'; try discriminate.
  - exists true. split; [reflexivity|]. split; reflexivity.
  - cbn [map fst snd] in HM. assert (KE : k = k') by (injection HM; auto). assert (AE : is_arr v = is_arr v') by (injection HM; auto).
    assert (TE : map (fun kv => (fst kv, is_arr (snd kv))) t = map (fun kv => (fst kv, is_arr (snd kv))) t') by (injection HM; auto). subst k'.
    destruct (IH t') as (r & Er & R); auto.
    { intros k0 v0 I0. exact (HI k0 v0 (or_intror I0)). } { intros k0 v0 I0. exact (HL k0 v0 (or_intror I0)). }
    { intros k0 v0 I0. exact (W k0 v0 (or_intror I0)). } { intros k0 v0 I0. exact (W' k0 v0 (or_intror I0)). }
    { intros k0 v0 I0. exact (N k0 v0 (or_intror I0)). } { intros k0 v0 I0. exact (N' k0 v0 (or_intror I0)). }
    cbn [args_eq erase_args]. destruct (String.eqb_spec k lrs) as [->|NE].
    + exists r. split; [exact Er|]. rewrite R. split; [intros ->; reflexivity|intros E; injection E; auto].
    + rewrite (HL k v') by (left; reflexivity).
      destruct (HI k v (or_introl eq_refl) v' (W k v (or_introl eq_refl)) (W' k v' (or_introl eq_refl)) (N k v (or_introl eq_refl) NE) (N' k v' (or_introl eq_refl) NE) AE) as (q & Eq & Qq).
      rewrite Eq. destruct q.
      * exists r. split; [exact Er|]. rewrite R. pose proof (proj1 Qq eq_refl) as EV. rewrite EV. split; [intros ->; reflexivity|intros E; injection E; auto].
      * exists false. split; [reflexivity|]. split; [discriminate|]. intros E. injection E as E1 E2. rewrite <- (proj2 Qq E1). reflexivity.
Qed.
Lemma lookup_in d k v : NoDup (map fst d) -> In (k, v) d -> lookup d k = Some v.
Proof.
  induction d as [|[k' v'] t IH]; intros ND I; [destruct I|]. inversion ND as [|? ? NI ND']; subst. cbn [lookup]. destruct I as [E|I].
  - injection E as -> ->. rewrite String.eqb_refl. reflexivity.
  - destruct (String.eqb_spec k k') as [->|]; [|apply IH; assumption]. exfalso. apply NI. apply in_map_iff. exists (k', v). auto.
Qed.
(** Two NaN-free priors whose classes fix which arguments are arrays: comparing them never raises, and they are equal exactly
    when they are the same class, attributes and arguments, what was sampled last left out at every depth. *)
Theorem C164_characterised a b : well_formed a -> well_formed b -> no_nan a -> no_nan b -> is_arr a = is_arr b ->
  exists r, arg_eq a b = Some r /\ (r = true <-> erase a = erase b).
Proof using sig_ok.
  revert b. induction a as [x|s| |l|i|c at_ d HD] using pv_rect'; intros b W W' N N' A.
  - inversion N as [x0| | | | |]; subst. destruct b; cbn in A |- *; try discriminate; try (exists false; split; [reflexivity|split; discriminate]).
    inversion N' as [y0| | | | |]; subst. exists (num_eq (Some x0) (Some y0)). split; [reflexivity|]. rewrite num_eq_iff. split; [intros (z & E1 & E2); congruence|].
    intros E. injection E as ->. eauto.
  - destruct b; cbn in A |- *; try discriminate; try (exists false; split; [reflexivity|split; discriminate]).
    exists (String.eqb s s0). split; [reflexivity|]. rewrite String.eqb_eq. split; congruence.
  - destruct b; cbn in A |- *; try discriminate; try (exists false; split; [reflexivity|split; discriminate]).
    exists true. split; [reflexivity|]. split; reflexivity.
  - destruct b as [y|s| |m|i|c' a' d']; cbn in A |- *; try discriminate. exists (arr_eq l m). split; [reflexivity|]. inversion N; subst. rewrite arr_eq_iff by assumption. split; congruence.
  - inversion W.
  - destruct b as [y|s| |m|i|c' at' d']; cbn [is_arr] in A; try discriminate; try (exists false; split; [reflexivity|rewrite erase_prior; split; discriminate]).
    rewrite arg_eq_prior, !erase_prior. destruct (String.eqb_spec c c') as [<-|NC]; cbn [negb].
    2:{ exists false. split; [reflexivity|]. split; [discriminate|]. intros E. injection E. congruence. }
    destruct (same_names at_ at') eqn:SN; cbn [negb].
    2:{ exists false. split; [reflexivity|]. split; [discriminate|]. intros E. injection E as E1 E2. apply same_names_iff in E1. congruence. }
    apply same_names_iff in SN. subst at'. inversion W as [| | | |? ? ? S Wd]; subst. inversion W' as [| | | |? ? ? S' Wd']; subst. inversion N; subst. inversion N'; subst.
    destruct (args_characterised d d' d' HD) as (r & Er & R); [congruence| |assumption|assumption|assumption|assumption|].
    + intros k v I. apply lookup_in; [|exact I]. specialize (sig_ok c). rewrite <- S', map_map in sig_ok. exact sig_ok.
    + exists r. split; [exact Er|]. rewrite R. split; [intros ->; reflexivity|intros E; injection E; auto].
Qed.
(** Hence == is an equivalence on them. *)
Theorem C164_equivalence a b c : well_formed a -> well_formed b -> well_formed c -> no_nan a -> no_nan b -> no_nan c ->
  is_arr a = is_arr b -> is_arr b = is_arr c ->
  arg_eq a a = Some true /\ arg_eq a b = arg_eq b a /\ (arg_eq a b = Some true -> arg_eq b c = Some true -> arg_eq a c = Some true).
Proof using sig_ok.
  intros Wa Wb Wc Na Nb Nc A1 A2.
  destruct (C164_characterised a a Wa Wa Na Na eq_refl) as (raa & E1 & R1). destruct (C164_characterised a b Wa Wb Na Nb A1) as (rab & E2 & R2).
  destruct (C164_characterised b a Wb Wa Nb Na (eq_sym A1)) as (rba & E3 & R3). destruct (C164_characterised b c Wb Wc Nb Nc A2) as (rbc & E4 & R4).
  destruct (C164_characterised a c Wa Wc Na Nc ltac:(congruence)) as (rac & E5 & R5).
  split; [rewrite E1; f_equal; apply R1; reflexivity|]. split.
  - rewrite E2, E3. f_equal. destruct rab, rba; try reflexivity; [symmetry; apply R3; symmetry; apply R2; reflexivity|apply R2; symmetry; apply R3; reflexivity].
  - rewrite E2, E4, E5. intros X Y. injection X as ->. injection Y as ->. f_equal. apply R5. rewrite (proj1 R2 eq_refl). apply R4. reflexivity.
Qed.
(** A prior is equal to itself exactly when no argument is NaN. *)
Lemma self_args d full : (forall k v, In (k, v) d -> k <> lrs -> well_formed v -> (arg_eq v v = Some true <-> no_nan v)) ->
  (forall k v, In (k, v) d -> lookup full k = Some v) -> (forall k v, In (k, v) d -> well_formed v) ->
  (args_eq d full = Some true <-> forall k v, In (k, v) d -> k <> lrs -> no_nan v).
Proof.
  induction d as [|[k v] t IH]; intros H HL W; [split; [intros _ k v []|reflexivity]|].
  destruct IH as [IH1 IH2]; [intros k0 v0 I0; exact (H k0 v0 (or_intror I0))|intros k0 v0 I0; exact (HL k0 v0 (or_intror I0))|intros k0 v0 I0; exact (W k0 v0 (or_intror I0))|].
  cbn [args_eq]. destruct (String.eqb_spec k lrs) as [->|NE].
  - split; [intros E k0 v0 [X|X] NK; [injection X as <- <-; congruence|exact (IH1 E k0 v0 X NK)]|]. intros A. apply IH2. intros k0 v0 I0. exact (A k0 v0 (or_intror I0)).
  - rewrite (HL k v) by (left; reflexivity). pose proof (H k v (or_introl eq_refl) NE (W k v (or_introl eq_refl))) as HV. split.
    + intros E. destruct (arg_eq v v) as [[|]|] eqn:EV; try discriminate. intros k0 v0 [X|X] NK; [injection X as <- <-; apply HV; reflexivity|exact (IH1 E k0 v0 X NK)].
    + intros A. rewrite (proj2 HV (A k v (or_introl eq_refl) NE)). apply IH2. intros k0 v0 I0. exact (A k0 v0 (or_intror I0)).
Qed.
Lemma arr_self l : arr_eq l l = true <-> forall e, In e l -> e <> None.
Proof.
  split.
  - unfold arr_eq. rewrite Nat.eqb_refl. cbn [andb]. induction l as [|a l IH]; intros E e I; [destruct I|]. cbn [combine forallb fst snd] in E. apply andb_true_iff in E.
    destruct E as [E1 E2]. destruct I as [<-|I]; [apply num_eq_iff in E1; destruct E1 as (x & -> & _); discriminate|exact (IH E2 e I)].
  - intros H. apply arr_eq_iff; [exact H|reflexivity].
Qed.
Theorem C164_reflexive a : well_formed a -> (arg_eq a a = Some true <-> no_nan a).
Proof using sig_ok.
  induction a as [x|s| |l|i|c at_ d HD] using pv_rect'; intros W.
  - cbn. destruct x as [x|]; cbn; [destruct (Req_EM_T x x); [|congruence]; split; [constructor|reflexivity]|]. split; [discriminate|intros N; inversion N].
  - cbn. rewrite String.eqb_refl. split; [constructor|reflexivity].
  - cbn. split; [constructor|reflexivity].
  - cbn. split; [intros E; constructor; apply arr_self; congruence|intros N; inversion N; subst; f_equal; apply arr_self; assumption].
  - inversion W.
  - inversion W as [| | | |? ? ? S Wd]; subst. rewrite arg_eq_prior, String.eqb_refl, (proj2 (same_names_iff at_ at_) eq_refl). cbn [negb]. rewrite self_args.
    + split; [constructor; assumption|intros N; inversion N; subst; assumption].
    + intros k v I _ Wv. exact (HD k v I Wv).
    + intros k v I. apply lookup_in; [|exact I]. specialize (sig_ok c). rewrite <- S, map_map in sig_ok. exact sig_ok.
    + exact Wd.
Qed.
End Equality.
(** With an array on one side only, == depends on the order: true one way and false the other, or an exception one way. *)
Theorem C164_array_refuted c a k x l : k <> lrs ->
  prior_eq (VPrior c a [(k, VNum (Some x))]) (VPrior c a [(k, VArr [Some x])]) = Some true /\
  prior_eq (VPrior c a [(k, VArr [Some x])]) (VPrior c a [(k, VNum (Some x))]) = Some false /\
  (length l <> 1 -> prior_eq (VPrior c a [(k, VNum (Some x))]) (VPrior c a [(k, VArr l)]) = None /\
                    prior_eq (VPrior c a [(k, VArr l)]) (VPrior c a [(k, VNum (Some x))]) = Some false).
Proof.
  intros NE. unfold prior_eq. rewrite !arg_eq_prior, String.eqb_refl. assert (SN : same_names a a = true) by (unfold same_names; destruct (list_eq_dec string_dec a a); congruence).
  rewrite !SN. cbn [negb args_eq]. destruct (String.eqb_spec k lrs); [contradiction|]. rewrite !lookup_pos. cbn [arg_eq against_array num_eq].
  destruct (Req_EM_T x x); [|congruence]. split; [reflexivity|]. split; [reflexivity|]. intros L. split; [|reflexivity].
  destruct l as [|y [|z l]]; cbn in L |- *; [reflexivity|congruence|reflexivity].
Qed.
(** A frozen scipy distribution is never compared: two priors that differ in it are equal, and with it on one side only ==
    depends on the order. *)
Theorem C164_frozen_refuted c a k i v x : k <> lrs ->
  prior_eq (VPrior c a [(k, VFrozen i)]) (VPrior c a [(k, v)]) = Some true /\
  prior_eq (VPrior c a [(k, VNum x)]) (VPrior c a [(k, VFrozen i)]) = Some false.
Proof.
  intros NE. unfold prior_eq. rewrite !arg_eq_prior, String.eqb_refl. assert (SN : same_names a a = true) by (unfold same_names; destruct (list_eq_dec string_dec a a); congruence).
  rewrite !SN. cbn [negb args_eq]. destruct (String.eqb_spec k lrs); [contradiction|]. rewrite !lookup_pos. split; reflexivity.
Qed.
Example C164_example :
  prior_eq (VPrior "Uniform" ["name"] [("minimum", VNum (Some 0%R)); ("boundary", VNone); (lrs, VNum (Some 1%R))])
           (VPrior "Uniform" ["name"] [("minimum", VNum (Some 0%R)); ("boundary", VNone); (lrs, VNum None)]) = Some true /\
  prior_eq (VPrior "Uniform" ["name"] [("minimum", VNum (Some 0%R))]) (VPrior "LogUniform" ["name"] [("minimum", VNum (Some 0%R))]) = Some false.
Proof. split; [|reflexivity]. cbn. destruct (Req_EM_T 0 0); [reflexivity|congruence]. Qed.

(** ** C165: filling and copying prior dictionaries *)
Section Filling.
Context {P O : Type}.
Variable delta : R -> P.
Variable redundant : dict (@entry P O) -> string -> bool.
Variable default : string -> option P.
Notation fill := (fill_from delta redundant default).
Notation step := (fill_step redundant default).
Lemma convert_keys (d : dict (@entry P O)) : dkeys (convert_floats delta d) = dkeys d.
Proof. unfold dkeys, convert_floats. rewrite map_map. reflexivity. Qed.
Definition converted (e : @entry P O) : @entry P O := match e with ENumber x => EPrior (delta x) | e => e end.
Lemma convert_get (d : dict (@entry P O)) k : dget (convert_floats delta d) k = option_map converted (dget d k).
Proof. induction d as [|[k' e] t IH]; [reflexivity|]. cbn. destruct (String.eqb k k'); [destruct e; reflexivity|exact IH]. Qed.
Lemma step_other d k k' : k <> k' -> dget (step d k') k = dget d k.
Proof. intros N. unfold fill_step. destruct (redundant d k'); [reflexivity|]. destruct (default k'); [|reflexivity]. apply dget_set_ne. exact N. Qed.
Lemma steps_other m d k : ~ In k m -> dget (fold_left step m d) k = dget d k.
Proof.
  revert d. induction m as [|k' m IH]; intros d N; [reflexivity|]. cbn [fold_left]. rewrite IH by (intros I; apply N; right; exact I).
  apply step_other. intros ->. apply N. left. reflexivity.
Qed.
Lemma steps_in m d k : NoDup m -> In k m -> dget d k = None ->
  dget (fold_left step m d) k = None \/ exists p, default k = Some p /\ dget (fold_left step m d) k = Some (EPrior p).
Proof.
  revert d. induction m as [|k' m IH]; intros d ND I E; [destruct I|]. inversion ND as [|? ? NI ND']; subst. cbn [fold_left].
  destruct (string_dec k k') as [->|NK].
  - rewrite steps_other by exact NI. unfold fill_step. destruct (redundant d k'); [left; exact E|]. destruct (default k') as [p|]; [|left; exact E].
    right. exists p. split; [reflexivity|]. apply dget_set_eq.
  - apply IH; [exact ND'|destruct I as [->|I]; [congruence|exact I]|]. rewrite step_other by exact NK. exact E.
Qed.
(** Entries that were there stay as they were, numbers turned into delta functions. *)
Theorem C165_kept params d m k e : is_missing params d m -> dget d k = Some e ->
  dget (fill m d) k = Some (match e with ENumber x => EPrior (delta x) | e => e end).
Proof using.
  intros [ND M] E. unfold fill_from. rewrite steps_other.
  - rewrite convert_get, E. destruct e; reflexivity.
  - intros I. apply M in I. destruct I as [_ I]. apply I. destruct (dget_none d k) as [_ X]. destruct (in_dec string_dec k (dkeys d)) as [Y|Y]; [exact Y|]. rewrite (X Y) in E. discriminate.
Qed.
(** What is added is the default prior of a parameter of the likelihood. *)
Theorem C165_added params d m k e : is_missing params d m -> dget d k = None -> dget (fill m d) k = Some e ->
  In k params /\ exists p, default k = Some p /\ e = EPrior p.
Proof using.
  intros [ND M] E F. unfold fill_from in F. assert (C : dget (convert_floats delta d) k = None) by (rewrite convert_get, E; reflexivity).
  destruct (in_dec string_dec k m) as [I|I].
  - destruct (steps_in m (convert_floats delta d) k ND I C) as [G|(p & D & G)]; [congruence|]. split; [apply M; exact I|]. exists p. split; [exact D|]. congruence.
  - rewrite steps_other in F by exact I. congruence.
Qed.
(** redundancy is not lost when a parameter is added *)
Definition grows := forall d k k' e, ~ In k' (dkeys d) -> redundant d k = true -> redundant (dset d k' e) k = true.
Lemma step_keys d k : forall j, In j (dkeys (step d k)) -> In j (dkeys d) \/ j = k.
Proof.
  intros j. unfold fill_step. destruct (redundant d k); [auto|]. destruct (default k) as [p|]; [|auto]. rewrite dkeys_set. destruct (dmem d k); [auto|].
  rewrite in_app_iff. intros [A|[A|[]]]; auto.
Qed.
Lemma grows_steps m d k : grows -> NoDup m -> (forall j, In j m -> ~ In j (dkeys d)) -> redundant d k = true -> redundant (fold_left step m d) k = true.
Proof.
  intros G. revert d. induction m as [|k' m IH]; intros d ND D H; [exact H|]. inversion ND as [|? ? NI ND']; subst. cbn [fold_left]. apply IH; [exact ND'| |].
  - intros j Hj X. apply step_keys in X. destruct X as [X| ->]; [exact (D j (or_intror Hj) X)|contradiction].
  - unfold fill_step. destruct (redundant d k'); [exact H|]. destruct (default k'); [|exact H]. apply G; [apply D; left; reflexivity|exact H].
Qed.
Lemma steps_complete m d k : grows -> NoDup m -> (forall j, In j m -> ~ In j (dkeys d)) -> In k m ->
  redundant (fold_left step m d) k = true \/ default k = None \/ dget (fold_left step m d) k <> None.
Proof.
  intros G. revert d. induction m as [|k' m IH]; intros d ND D I; [destruct I|]. inversion ND as [|? ? NI ND']; subst. cbn [fold_left].
  assert (D' : forall j, In j m -> ~ In j (dkeys (step d k'))).
  { intros j Hj X. apply step_keys in X. destruct X as [X| ->]; [exact (D j (or_intror Hj) X)|contradiction]. }
  destruct I as [-> |I]; [|apply IH; assumption]. destruct (redundant d k) eqn:R.
  - left. apply grows_steps; try assumption. unfold fill_step. rewrite R. exact R.
  - destruct (default k) as [p|] eqn:DF; [|auto]. right. right. rewrite steps_other by exact NI. unfold fill_step. rewrite R, DF, dget_set_eq. discriminate.
Qed.
(** Afterwards every parameter of the likelihood has a prior, is redundant, or has no default. *)
Theorem C165_complete params d m k : grows -> is_missing params d m -> In k params ->
  dget (fill m d) k <> None \/ redundant (fill m d) k = true \/ default k = None.
Proof using.
  intros G HM I. pose proof HM as [ND M]. destruct (in_dec string_dec k (dkeys d)) as [K|K].
  - left. destruct (dget d k) as [e|] eqn:E; [rewrite (C165_kept params d m k e HM E); discriminate|]. apply dget_none in E. contradiction.
  - destruct (steps_complete m (convert_floats delta d) k G ND) as [A|[A|A]]; [intros j Hj; rewrite convert_keys; apply M; exact Hj|apply M; auto|auto|auto|auto].
Qed.
Lemma convert_priors (d : dict (@entry P O)) : (forall k x, ~ In (k, ENumber x) d) -> convert_floats delta d = d.
Proof.
  intros H. unfold convert_floats. induction d as [|[k e] t IH]; [reflexivity|]. cbn [map fst snd]. rewrite IH by (intros k0 x I; exact (H k0 x (or_intror I))).
  destruct e; try reflexivity. exfalso. exact (H k x (or_introl eq_refl)).
Qed.
Lemma set_in (d : dict (@entry P O)) k e j f : In (j, f) (dset d k e) -> In (j, f) d \/ f = e.
Proof.
  induction d as [|[k' e'] t IH]; cbn; [intros [X|[]]; injection X; auto|]. destruct (String.eqb k k'); intros [X|X]; [injection X; auto|auto|auto|]. destruct (IH X); auto.
Qed.
Lemma fill_no_numbers m d k x : ~ In (k, ENumber x) (fill m d).
Proof.
  unfold fill_from. assert (B : forall k x, ~ In (k, ENumber x) (convert_floats delta d)).
  { intros k0 x0 I. unfold convert_floats in I. apply in_map_iff in I. destruct I as ([k1 e1] & E & _). cbn [fst snd] in E. destruct e1; discriminate. }
  revert k x. generalize (convert_floats delta d), B. clear d B. induction m as [|k' m IH]; intros d B k x; [exact (B k x)|]. cbn [fold_left]. apply IH.
  intros k0 x0 I. unfold fill_step in I. destruct (redundant d k'); [exact (B k0 x0 I)|]. destruct (default k'); [|exact (B k0 x0 I)].
  apply set_in in I. destruct I as [I|I]; [exact (B k0 x0 I)|discriminate].
Qed.
(** Filling a second time changes nothing, in whatever order the parameters still missing are gone through. *)
Theorem C165_idempotent params d m m' : grows -> is_missing params d m -> is_missing params (fill m d) m' -> fill m' (fill m d) = fill m d.
Proof using.
  intros G HM [ND' M']. unfold fill_from at 1. rewrite convert_priors by (intros; apply fill_no_numbers). assert (S : forall k, In k m' -> step (fill m d) k = fill m d).
  { intros k I. apply M' in I. destruct I as [I K]. unfold fill_step. destruct (C165_complete params d m k G HM I) as [A|[A|A]].
    - exfalso. apply A. apply dget_none. exact K.
    - rewrite A. reflexivity.
    - rewrite A. destruct (redundant (fill m d) k); reflexivity. }
  clear ND' M'. induction m' as [|k m' IH]; [reflexivity|]. cbn [fold_left]. rewrite S by (left; reflexivity). apply IH. intros j Hj. apply S. right. exact Hj.
Qed.
(** When only the names present are redundant, as in the base class, the order of the missing parameters is immaterial: every
    missing parameter gets its default. *)
Theorem C165_order params d m m' : (forall d k, redundant d k = true -> In k (dkeys d)) -> is_missing params d m -> is_missing params d m' ->
  forall k, dget (fill m d) k = dget (fill m' d) k.
Proof using.
  intros HR H1 H2 k. destruct (dget d k) as [e|] eqn:E; [rewrite (C165_kept params d m k e H1 E), (C165_kept params d m' k e H2 E); reflexivity|].
  assert (V : forall m, is_missing params d m -> dget (fill m d) k = if in_dec string_dec k params then option_map EPrior (default k) else None).
  { clear m m' H1 H2. intros m [ND M]. assert (C : dget (convert_floats delta d) k = None) by (rewrite convert_get, E; reflexivity). destruct (in_dec string_dec k params) as [I|I].
    - assert (IM : In k m) by (apply M; split; [exact I|apply dget_none; exact E]). unfold fill_from. assert (DJ : forall j, In j m -> ~ In j (dkeys (convert_floats delta d))) by (intros j Hj; rewrite convert_keys; apply M; exact Hj).
      revert IM DJ C ND. generalize (convert_floats delta d). clear M E. induction m as [|k' m IH]; intros d' IM DJ C ND; [destruct IM|]. inversion ND as [|? ? NI ND']; subst. cbn [fold_left].
      destruct (string_dec k k') as [->|NK].
      + rewrite steps_other by exact NI. unfold fill_step. destruct (redundant d' k') eqn:R; [apply HR in R; exfalso; exact (DJ k' (or_introl eq_refl) R)|].
        destruct (default k'); [apply dget_set_eq|exact C].
      + apply IH; [destruct IM; [congruence|assumption]| |rewrite step_other by exact NK; exact C|exact ND'].
        intros j Hj X. apply step_keys in X. destruct X as [X| ->]; [exact (DJ j (or_intror Hj) X)|contradiction].
    - unfold fill_from. rewrite steps_other; [exact C|]. intros J. apply M in J. tauto. }
  rewrite (V m H1), (V m' H2). reflexivity.
Qed.
(** A copy of a dictionary with the default conversion evaluates the constraints like the original. *)
Theorem C165_copy cv allowed (d : @prior_dict P O) s : (forall x, allowed (delta x) = None) -> pd_conversion d = cv ->
  evaluate_constraints allowed (pd_copy delta cv d) s = evaluate_constraints allowed d s.
Proof using.
  intros HA HC. unfold evaluate_constraints, pd_copy. cbn [pd_conversion pd_entries]. rewrite HC. unfold convert_floats. set (out := cv s). clearbody out.
  induction (pd_entries d) as [|[k e] t IH]; [reflexivity|]. cbn [map forallb fst snd]. rewrite IH. f_equal. destruct (dget out k) as [x|]; [|reflexivity].
  destruct e; try reflexivity. cbn [satisfied]. rewrite HA. reflexivity.
Qed.
(** A sample meets the constraints exactly when each constrained quantity that the conversion provides lies strictly inside its
    range. *)
Theorem C165_constraints allowed (d : @prior_dict P O) s : wf (pd_entries d) ->
  evaluate_constraints allowed d s = true <->
  forall k p lo hi x, dget (pd_entries d) k = Some (EPrior p) -> allowed p = Some (lo, hi) -> dget (pd_conversion d s) k = Some x -> (lo < x < hi)%R.
Proof using.
  intros W. unfold evaluate_constraints. rewrite forallb_forall. split.
  - intros H k p lo hi x G A X. apply dget_some_in in G. specialize (H _ G). cbn [fst snd] in H. rewrite X in H. cbn [satisfied] in H. rewrite A in H.
    apply andb_true_iff in H. destruct H as [H1 H2]. destruct (Rlt_dec lo x); [|discriminate]. destruct (Rlt_dec x hi); [|discriminate]. split; assumption.
  - intros H [k e] I. cbn [fst snd]. destruct (dget (pd_conversion d s) k) as [x|] eqn:X; [|reflexivity]. destruct e as [p| |]; try reflexivity. cbn [satisfied].
    destruct (allowed p) as [[lo hi]|] eqn:A; [|reflexivity]. assert (G : dget (pd_entries d) k = Some (EPrior p)) by (apply dget_in; assumption).
    destruct (H _ _ _ _ _ G A X) as [L1 L2]. destruct (Rlt_dec lo x); [|contradiction]. destruct (Rlt_dec x hi); [reflexivity|contradiction].
Qed.
End Filling.
(** The rules of the binary black hole prior make the outcome depend on the order of a set: of three mass parameters with a
    default, the two met first are filled in. *)
Definition as_kinds (d : dict (@entry kind unit)) : kinds := map (fun kv => (fst kv, match snd kv with EPrior p => p | _ => Fixed end)) d.
Definition bbh_redundant (d : dict (@entry kind unit)) (k : string) : bool := bbh_test_redundancy (as_kinds d) k.
Definition three : list string := ["mass_1"; "mass_2"; "chirp_mass"].
Theorem C165_order_refuted : exists m m',
  is_missing three ([] : dict (@entry kind unit)) m /\ is_missing three ([] : dict (@entry kind unit)) m' /\
  dget (fill_from (fun _ => Fixed) bbh_redundant (fun _ => Some Sampled) m []) "chirp_mass" = None /\
  dget (fill_from (fun _ => Fixed) bbh_redundant (fun _ => Some Sampled) m' []) "chirp_mass" = Some (EPrior Sampled).
Proof.
  exists three, ["chirp_mass"; "mass_2"; "mass_1"]. unfold is_missing, three. split; [|split; [|split; vm_compute; reflexivity]].
  - split; [repeat constructor; cbn; intuition discriminate|]. intros k. cbn. tauto.
  - split; [repeat constructor; cbn; intuition discriminate|]. intros k. cbn. tauto.
Qed.
(** A copy does not carry a conversion function of its own over: a constraint that held or failed before is judged on other
    values, or not at all. *)
Theorem C165_copy_refuted : exists (d : @prior_dict (option (R * R)) unit) (s : dict R),
  let id := fun s : dict R => s in
  evaluate_constraints (fun p => p) d s = false /\ evaluate_constraints (fun p => p) (pd_copy (fun _ => None) id d) s = true.
Proof.
  exists (mkPD [("total"%string, EPrior (Some (0%R, 1%R)))] (fun s => dset s "total" (5%R))), [("x"%string, 5%R)]. cbn. split; [|reflexivity].
  destruct (Rlt_dec 0 5); [|lra]. destruct (Rlt_dec 5 1); [lra|reflexivity].
Qed.
Example C165_example :
  fill_from (fun _ => Fixed) bbh_redundant (fun _ => Some Sampled) ["mass_1"; "mass_2"; "chirp_mass"; "psi"] [("dec"%string, ENumber 0%R)]
  = [("dec"%string, EPrior Fixed); ("mass_1"%string, EPrior Sampled); ("mass_2"%string, EPrior Sampled); ("psi"%string, @EPrior kind unit Sampled)].
Proof. vm_compute. reflexivity. Qed.

(** ** C166: credible levels *)
Open Scope R_scope.
Notation sum := (fold_right Rplus 0).
Lemma numer_range s w v : length s = length w -> (forall x, In x w -> 0 <= x) ->
  0 <= sum (map (fun p => below (fst p) v * snd p) (combine s w)) <= sum w.
Proof.
  revert w. induction s as [|a s IH]; intros [|b w] L H; try discriminate; cbn [combine map fold_right fst snd]; [lra|].
  injection L as L. specialize (IH w L (fun x Hx => H x (or_intror Hx))). pose proof (H b (or_introl eq_refl)). unfold below in *. destruct (Rlt_dec a v); lra.
Qed.
(** a level lies between zero and one *)
Theorem C166_range s w v : length s = length w -> (forall x, In x w -> 0 <= x) -> 0 < sum w -> 0 <= credible_level s w v <= 1.
Proof.
  intros L H HS. unfold credible_level. pose proof (numer_range s w v L H) as [A B]. split.
  - apply Rmult_le_pos; [exact A|]. left. apply Rinv_0_lt_compat, HS.
  - apply Rmult_le_reg_r with (sum w); [exact HS|]. unfold Rdiv. rewrite Rmult_assoc, Rinv_l by lra. lra.
Qed.
(** zero when no sample is below the injected value, one when all are *)
Theorem C166_ends s w v : length s = length w -> sum w <> 0 ->
  ((forall x, In x s -> v <= x) -> credible_level s w v = 0) /\ ((forall x, In x s -> x < v) -> credible_level s w v = 1).
Proof.
  intros L HS. unfold credible_level. split; intros H.
  - replace (sum (map _ (combine s w))) with 0; [unfold Rdiv; ring|]. symmetry. clear HS. revert w L. induction s as [|a s IH]; intros [|b w] L; try discriminate; [reflexivity|].
    cbn [combine map fold_right fst snd]. rewrite (IH (fun x Hx => H x (or_intror Hx)) w) by (injection L; auto). pose proof (H a (or_introl eq_refl)). unfold below. destruct (Rlt_dec a v); lra.
  - replace (sum (map _ (combine s w))) with (sum w); [field; exact HS|]. clear HS. revert w L. induction s as [|a s IH]; intros [|b w] L; try discriminate; [reflexivity|].
    cbn [combine map fold_right fst snd]. rewrite (IH (fun x Hx => H x (or_intror Hx)) w) at 1 by (injection L; auto). pose proof (H a (or_introl eq_refl)). unfold below. destruct (Rlt_dec a v); lra.
Qed.
(** it does not fall when the injected value rises *)
Theorem C166_monotone s w v v' : length s = length w -> (forall x, In x w -> 0 <= x) -> 0 < sum w -> v <= v' ->
  credible_level s w v <= credible_level s w v'.
Proof.
  intros L H HS HV. unfold credible_level. apply Rmult_le_compat_r; [left; apply Rinv_0_lt_compat, HS|]. clear HS. revert w L H.
  induction s as [|a s IH]; intros [|b w] L H; try discriminate; [cbn; lra|]. cbn [combine map fold_right fst snd].
  specialize (IH w ltac:(injection L; auto) (fun x Hx => H x (or_intror Hx))). pose proof (H b (or_introl eq_refl)). unfold below in *. destruct (Rlt_dec a v), (Rlt_dec a v'); lra.
Qed.
(** reflecting the parameter gives the complement when no sample ties with the injected value *)
Theorem C166_reflected s w v : length s = length w -> sum w <> 0 -> ~ In v s ->
  credible_level (map Ropp s) w (- v) = 1 - credible_level s w v.
Proof.
  intros L HS N. unfold credible_level. replace (sum (map (fun p => below (fst p) (- v) * snd p) (combine (map Ropp s) w))) with (sum w - sum (map (fun p => below (fst p) v * snd p) (combine s w))); [field; exact HS|].
  clear HS. revert w L N. induction s as [|a s IH]; intros [|b w] L N; try discriminate; [cbn; lra|]. cbn [combine map fold_right fst snd].
  injection L as L. rewrite <- (IH w L) by (intros I; apply N; right; exact I). unfold below. assert (a <> v) by (intros ->; apply N; left; reflexivity).
  destruct (Rlt_dec a v), (Rlt_dec (- a) (- v)); lra.
Qed.
(** only the ratios of the weights matter *)
Theorem C166_scaled s w v c : c <> 0 -> sum w <> 0 -> credible_level s (map (Rmult c) w) v = credible_level s w v.
Proof.
  intros HC HS. unfold credible_level. assert (S : forall w, sum (map (Rmult c) w) = c * sum w) by (clear; induction w as [|a w IH]; cbn; [ring|]; unfold Rdiv in *; cbn in IH; rewrite IH; ring).
  rewrite S. replace (sum (map (fun p => below (fst p) v * snd p) (combine s (map (Rmult c) w)))) with (c * sum (map (fun p => below (fst p) v * snd p) (combine s w))); [field; auto|].
  clear HS S. revert w. induction s as [|a s IH]; intros [|b w]; cbn [combine map fold_right fst snd]; try ring. rewrite <- IH. ring.
Qed.
(** samples with equal weights: the level counts them *)
Lemma level_count s v : s <> [] -> credible_level_equal s v = INR (length (filter (fun x => if Rlt_dec x v then true else false) s)) / INR (length s).
Proof.
  intros N. unfold credible_level_equal, credible_level. f_equal.
  - clear N. induction s as [|a s IH]; [reflexivity|]. cbn [length repeat combine map fold_right fst snd filter]. rewrite IH. unfold below.
    destruct (Rlt_dec a v); cbn [length]; [rewrite S_INR|]; ring.
  - clear N. induction s as [|a s IH]; [reflexivity|]. cbn [length repeat fold_right]. rewrite IH. rewrite S_INR. ring.
Qed.
Definition rank (l : list R) (v : R) : nat := length (filter (fun x => if Rlt_dec x v then true else false) l).
Lemma rank_lt l v w : In v l -> v < w -> (rank l v < rank l w)%nat.
Proof.
  intros I H. unfold rank. assert (LE : forall l, (length (filter (fun x => if Rlt_dec x v then true else false) l) <= length (filter (fun x => if Rlt_dec x w then true else false) l))%nat).
  { clear l I. induction l as [|a l IH]; [cbn; lia|]. cbn [filter]. destruct (Rlt_dec a v), (Rlt_dec a w); cbn [length]; try lia. lra. }
  induction l as [|a l IH]; [destruct I|]. cbn [filter]. specialize (LE l). destruct I as [->|I].
  - destruct (Rlt_dec v v); [lra|]. destruct (Rlt_dec v w); [|lra]. cbn [length]. lia.
  - specialize (IH I). destruct (Rlt_dec a v), (Rlt_dec a w); cbn [length]; try lia. lra.
Qed.
Lemma rank_max l v : In v l -> (rank l v < length l)%nat.
Proof.
  unfold rank. induction l as [|a l IH]; intros I; [destruct I|]. cbn [filter length]. destruct I as [->|I].
  - destruct (Rlt_dec v v); [lra|]. assert (forall (f : R -> bool) l, (length (filter f l) <= length l)%nat) by (clear; induction l as [|a l IH]; cbn; [lia|destruct (f a); cbn; lia]). specialize (H (fun x => if Rlt_dec x v then true else false) l). lia.
  - specialize (IH I). destruct (Rlt_dec a v); cbn [length]; lia.
Qed.
Lemma ranks_permutation l : NoDup l -> Permutation (map (rank l) l) (seq 0 (length l)).
Proof.
  intros ND. apply NoDup_Permutation_bis.
  - assert (INJ : forall m, incl m l -> NoDup m -> NoDup (map (rank l) m)).
    { induction m as [|a m IH]; intros I N; [constructor|]. inversion N as [|? ? NA NM]; subst. cbn [map]. constructor; [|apply IH; [intros x Hx; apply I; right; exact Hx|exact NM]].
      intros X. apply in_map_iff in X. destruct X as (b & E & HB). destruct (Rtotal_order a b) as [T|[T|T]].
      - pose proof (rank_lt l a b (I a (or_introl eq_refl)) T). lia.
      - subst b. contradiction.
      - pose proof (rank_lt l b a (I b (or_intror HB)) T). lia. }
    apply INJ; [intros x; auto|exact ND].
  - rewrite map_length, seq_length. lia.
  - intros r Hr. apply in_map_iff in Hr. destruct Hr as (v & <- & Hv). apply in_seq. pose proof (rank_max l v Hv). lia.
Qed.
Lemma rank_remove l v : rank (remove Req_EM_T v l) v = rank l v.
Proof.
  unfold rank. induction l as [|a l IH]; [reflexivity|]. cbn [remove filter]. destruct (Req_EM_T v a) as [<-|N].
  - destruct (Rlt_dec v v); [lra|exact IH].
  - cbn [filter]. destruct (Rlt_dec a v); cbn [length]; rewrite IH; reflexivity.
Qed.
Lemma remove_len l v : NoDup l -> In v l -> S (length (remove Req_EM_T v l)) = length l.
Proof.
  induction l as [|a l IH]; intros ND I; [destruct I|]. inversion ND as [|? ? NA NL]; subst. cbn [remove]. destruct (Req_EM_T v a) as [->|N].
  - rewrite notin_remove by exact NA. reflexivity.
  - destruct I as [->|I]; [congruence|]. cbn [length]. rewrite IH by assumption. reflexivity.
Qed.
(** n + 1 distinct draws from one distribution, any of which may be the injected one and the others the samples: going through
    all choices, each of the levels 0, 1/n, ..., 1 occurs exactly once. *)
Theorem C166_uniform l n : NoDup l -> length l = S n -> (0 < n)%nat ->
  Permutation (map (fun v => credible_level_equal (remove Req_EM_T v l) v) l) (map (fun k => INR k / INR n) (seq 0 (S n))).
Proof.
  intros ND L HN. assert (E : map (fun v => credible_level_equal (remove Req_EM_T v l) v) l = map (fun k => INR k / INR n) (map (rank l) l)).
  { rewrite map_map. apply map_ext_in. intros v Hv. pose proof (remove_len l v ND Hv) as RL. rewrite level_count.
    - fold (rank (remove Req_EM_T v l) v). rewrite rank_remove. do 2 f_equal. lia.
    - intros X. rewrite X in RL. cbn [length] in RL. lia. }
  rewrite E. apply Permutation_map. rewrite <- L. apply ranks_permutation, ND.
Qed.
(** the table of all levels has one entry for each name whose injected value is a float, *)
Theorem C166_all_keys keys inj post : map fst (all_levels keys inj post) =
  filter (fun k => match dget inj k with Some (IFloat _) => true | _ => false end) keys.
Proof.
  unfold all_levels. induction keys as [|k keys IH]; [reflexivity|]. cbn [flat_map filter]. rewrite map_app, IH. destruct (dget inj k) as [[x|]|]; reflexivity.
Qed.
(** so a parameter injected with an int has no entry, although its samples would give a level. *)
Theorem C166_integer_refuted keys inj post k : dget inj k = Some IOther -> ~ In k (map fst (all_levels keys inj post)).
Proof. intros E I. rewrite C166_all_keys in I. apply filter_In in I. rewrite E in I. destruct I; discriminate. Qed.
Example C166_example : credible_level_equal [1; 2; 3; 4] 3 = 1 / 2.
Proof. unfold credible_level_equal, credible_level, below. cbn. destruct (Rlt_dec 1 3), (Rlt_dec 2 3), (Rlt_dec 3 3), (Rlt_dec 4 3); lra. Qed.

(** ** Assumptions of every theorem above *)
Definition PriorMisc2_Props_all :=
  (@C164_characterised,
   @C164_equivalence,
   @C164_reflexive,
   @C164_array_refuted,
   @C164_frozen_refuted,
   @C165_kept,
   @C165_added,
   @C165_complete,
   @C165_idempotent,
   @C165_order,
   @C165_copy,
   @C165_constraints,
   @C165_order_refuted,
   @C165_copy_refuted,
   @C166_range,
   @C166_ends,
   @C166_monotone,
   @C166_reflected,
   @C166_scaled,
   @C166_uniform,
   @C166_all_keys,
   @C166_integer_refuted).
Print Assumptions PriorMisc2_Props_all.
