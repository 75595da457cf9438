(** * Properties of the sampler base class *)
From Coq Require Import Reals String List Bool Arith Lia Lra Permutation Sorted.
From Verif Require Import PyDict Sampler_Model.
Import ListNotations.
Open Scope R_scope. Open Scope list_scope.

(** ** dictionaries *)
Lemma dget_dupdate {V} : forall (e d : dict V) k, wf e -> dget (dupdate d e) k = match dget e k with Some v => Some v | None => dget d k end.
Proof.
  induction e as [|[a v] e IH]; intros d k W; [reflexivity|]. unfold dupdate in *. simpl. inversion W as [|x y N W']; subst.
  rewrite IH by exact W'. destruct (String.eqb k a) eqn:E.
  - apply String.eqb_eq in E. subst a. rewrite (proj2 (dget_none e k) N). apply dget_set_eq.
  - apply String.eqb_neq in E. destruct (dget e k); [reflexivity|]. apply dget_set_ne, E.
Qed.
Lemma dkeys_dupdate_in {V} : forall (e d : dict V) k, In k (dkeys (dupdate d e)) <-> In k (dkeys e) \/ In k (dkeys d).
Proof.
  induction e as [|[a v] e IH]; intros d k; [simpl; tauto|]. unfold dupdate in *. simpl. rewrite IH, dkeys_set_in. simpl. intuition congruence.
Qed.
Lemma wf_dupdate {V} : forall (e d : dict V), wf d -> wf (dupdate d e).
Proof. induction e as [|[a v] e IH]; intros d W; [exact W|]. unfold dupdate in *. simpl. apply IH, wf_set, W. Qed.
Lemma dupdate_prefix {V} : forall (e d : dict V), exists t, dkeys (dupdate d e) = dkeys d ++ t /\ forall k, In k t -> ~ In k (dkeys d).
Proof.
  induction e as [|[a v] e IH]; intros d; [exists []; rewrite app_nil_r; split; [reflexivity|intros k []]|]. unfold dupdate in *. simpl.
  destruct (IH (dset d a v)) as [t [E N]]. rewrite E, dkeys_set. destruct (dmem d a) eqn:M.
  - exists t. split; [reflexivity|]. intros k Hk Hd. apply (N k Hk). rewrite dkeys_set_in. right. exact Hd.
  - exists (a :: t). rewrite <- app_assoc. split; [reflexivity|]. intros k [<-|Hk] Hd.
    + apply dmem_in in Hd. congruence.
    + apply (N k Hk). rewrite dkeys_set_in. right. exact Hd.
Qed.
Lemma dkeys_combine {V} : forall (ks : list string) (l : list V), (length l <= length ks)%nat -> dkeys (combine ks l) = firstn (length l) ks.
Proof. induction ks as [|k ks IH]; intros [|x l] H; simpl in *; try reflexivity. f_equal. apply IH. lia. Qed.
Lemma dget_combine_none {V} : forall (ks : list string) (l : list V) k, ~ In k ks -> dget (combine ks l) k = None.
Proof.
  induction ks as [|a ks IH]; intros [|x l] k H; simpl; try reflexivity. destruct (String.eqb k a) eqn:E.
  - apply String.eqb_eq in E. subst. exfalso. apply H. left. reflexivity.
  - apply IH. intro. apply H. right. assumption.
Qed.
Lemma wf_combine {V} : forall (ks : list string) (l : list V), NoDup ks -> wf (combine ks l).
Proof.
  intros ks l N. revert l. induction N as [|k ks H N IH]; intros [|x l]; try (constructor; fail). simpl. constructor; [|apply IH].
  intro K. apply H. clear - K. revert l K. induction ks as [|a ks I]; intros [|y l] K; simpl in *; try contradiction. destruct K as [K|K]; [left; exact K|right; exact (I l K)].
Qed.
Lemma dget_combine_nth : forall (ks : list string) (l : list R) i k, NoDup ks -> nth_error ks i = Some k -> dget (combine ks l) k = nth_error l i.
Proof.
  intros ks l i k N. revert l i. induction N as [|a ks H N IH]; intros l i E; [destruct i; discriminate|]. destruct i as [|i]; simpl in E.
  - injection E as <-. destruct l as [|x l]; [reflexivity|]. simpl. rewrite String.eqb_refl. reflexivity.
  - destruct l as [|x l]; [reflexivity|]. simpl. destruct (String.eqb k a) eqn:K; [|apply IH, E].
    apply String.eqb_eq in K. subst. exfalso. apply H. eapply nth_error_In. exact E.
Qed.

(** ** C25 Every parameter is either sampled, fixed or a constraint *)
(** what bilby's own prior classes guarantee: a constraint and a delta function are fixed, nothing is both *)
Definition sane (p : pinfo) : Prop :=
  is_prior p = true /\ (is_fixed p = true <-> is_constraint p = true \/ delta p <> None) /\ (is_constraint p = true -> delta p = None).
Lemma init_all : forall priors s, (forall kp, In kp priors -> sane (snd kp)) -> let r := fold_left init_step priors s in
  search r = search s ++ map fst (filter (fun kp => negb (is_fixed (snd kp))) priors) /\
  constr r = constr s ++ map fst (filter (fun kp => is_constraint (snd kp)) priors) /\
  fixed r = fixed s ++ map fst (filter (fun kp => match delta (snd kp) with Some _ => true | None => false end) priors).
Proof.
  induction priors as [|[k p] priors IH]; intros s H; cbv zeta; cbn [fold_left]; [simpl; rewrite !app_nil_r; auto|].
  destruct (IH (init_step s (k, p)) (fun kp K => H kp (or_intror K))) as [A [B C]]. cbv zeta in *.
  destruct (H (k, p) (or_introl eq_refl)) as [P1 [P2 P3]]. simpl in P1, P2, P3. rewrite A, B, C. clear A B C IH. simpl filter. simpl snd.
  unfold init_step. rewrite P1. destruct (is_fixed p).
  - destruct (is_constraint p); [rewrite (P3 eq_refl); simpl; rewrite <- ?app_assoc; auto|]. destruct (delta p) as [x|]; simpl; rewrite <- ?app_assoc; auto.
  - assert (is_constraint p = false) by (destruct (is_constraint p); [|reflexivity]; assert (false = true) by (apply P2; left; reflexivity); discriminate).
    assert (delta p = None) by (destruct (delta p); [|reflexivity]; assert (false = true) by (apply P2; right; discriminate); discriminate).
    rewrite H0, H1. simpl. rewrite <- ?app_assoc. auto.
Qed.
Theorem C25_partition : forall priors params, wf priors -> (forall kp, In kp priors -> sane (snd kp)) ->
  let s := initialise priors params in
  (forall k p, In (k, p) priors ->
     (In k (search s) <-> is_fixed p = false) /\ (In k (constr s) <-> is_constraint p = true) /\ (In k (fixed s) <-> delta p <> None)) /\
  Permutation (search s ++ constr s ++ fixed s) (dkeys priors) /\
  search s = filter (fun k => match dget priors k with Some p => negb (is_fixed p) | None => false end) (dkeys priors).
Proof.
  intros priors params W H s. destruct (init_all priors (mkSp [] [] [] params) H) as [A [B C]]. fold (initialise priors params) in A, B, C. fold s in A, B, C. simpl in A, B, C.
  assert (M : forall (f : string * pinfo -> bool) k p, In (k, p) priors -> (In k (map fst (filter f priors)) <-> f (k, p) = true)).
  { intros f k p I. rewrite in_map_iff. split.
    - intros [[k' p'] [E F]]. simpl in E. subst k'. apply filter_In in F. destruct F as [F1 F2]. apply (dget_in _ _ _ W) in I. apply (dget_in _ _ _ W) in F1. congruence.
    - intro F. exists (k, p). split; [reflexivity|]. apply filter_In. auto. }
  split; [|split].
  - intros k p I. rewrite A, B, C, !(M _ k p I). simpl. split; [apply negb_true_iff|]. split; [tauto|]. destruct (delta p); split; congruence.
  - rewrite A, B, C. clear A B C M W s. unfold dkeys. induction priors as [|[k p] l IH]; [constructor|].
    specialize (IH (fun kp K => H kp (or_intror K))). destruct (H (k, p) (or_introl eq_refl)) as [P1 [P2 P3]]. simpl in P1, P2, P3. simpl.
    destruct (is_fixed p); simpl.
    + destruct (is_constraint p) eqn:E; simpl.
      * rewrite (P3 eq_refl). symmetry. apply Permutation_cons_app. symmetry. exact IH.
      * destruct (delta p) eqn:D; simpl.
        -- rewrite app_assoc. symmetry. apply Permutation_cons_app. symmetry. rewrite <- app_assoc. exact IH.
        -- exfalso. destruct (proj1 P2 eq_refl) as [K|K]; [discriminate|apply K; reflexivity].
    + destruct (is_constraint p) eqn:E; [exfalso; assert (false = true) by (apply P2; left; reflexivity); discriminate|].
      destruct (delta p) eqn:D; [exfalso; assert (false = true) by (apply P2; right; discriminate); discriminate|]. constructor. exact IH.
  - rewrite A. clear A B C M s H. unfold dkeys.
    assert (G : forall l, (forall kp, In kp l -> In kp priors) ->
      map fst (filter (fun kp : string * pinfo => negb (is_fixed (snd kp))) l) = filter (fun k => match dget priors k with Some p => negb (is_fixed p) | None => false end) (map fst l)).
    { induction l as [|[k p] l IH]; intros I; [reflexivity|]. simpl. rewrite (proj2 (dget_in _ _ _ W) (I (k, p) (or_introl eq_refl))).
      destruct (negb (is_fixed p)); simpl; rewrite IH by (intros kp K; apply I; right; exact K); reflexivity. }
    apply G. auto.
Qed.
(** a fixed prior of a class of the user's own (neither constraint nor delta function) is in no list, and its
    likelihood parameter is never set *)
Theorem C25_other_fixed_refuted : exists priors params,
  let s := initialise priors params in
  wf priors /\ dkeys priors = ["a"; "b"]%string /\ search s = ["a"%string] /\ constr s = [] /\ fixed s = [] /\ dget (lparams (calls s [[1]])) "b" = None.
Proof.
  exists [("a"%string, mkI true false false None); ("b"%string, mkI true true false None)], []. simpl. split.
  - repeat constructor; simpl; intuition discriminate.
  - auto.
Qed.

Lemma init_params : forall priors s k, wf priors -> (forall kp, In kp priors -> sane (snd kp)) ->
  dget (lparams (fold_left init_step priors s)) k =
  match dget priors k with Some p => match delta p with Some x => Some x | None => dget (lparams s) k end | None => dget (lparams s) k end.
Proof.
  induction priors as [|[a p] priors IH]; intros s k W H; [reflexivity|]. cbn [fold_left]. inversion W as [|x y N W']; subst.
  rewrite IH by (try exact W'; intros kp K; apply H; right; exact K). destruct (H (a, p) (or_introl eq_refl)) as [P1 [P2 P3]]. simpl in P1, P2, P3.
  assert (E : lparams (init_step s (a, p)) = match delta p with Some x => dset (lparams s) a x | None => lparams s end).
  { unfold init_step. rewrite P1. destruct (is_fixed p); simpl.
    - destruct (is_constraint p); simpl; [rewrite (P3 eq_refl); reflexivity|]. destruct (delta p); reflexivity.
    - destruct (delta p); [|reflexivity]. assert (false = true) by (apply P2; right; discriminate). discriminate. }
  rewrite E. simpl. destruct (String.eqb k a) eqn:K.
  - apply String.eqb_eq in K. subst a. rewrite (proj2 (dget_none priors k) N). destruct (delta p); [apply dget_set_eq|reflexivity].
  - apply String.eqb_neq in K. destruct (delta p); [rewrite dget_set_ne by exact K|]; reflexivity.
Qed.
Lemma dget_params_of : forall ks th k, NoDup ks -> dget (params_of ks th) k = dget (combine ks th) k.
Proof. intros. unfold params_of. rewrite dget_dupdate by (apply wf_combine; assumption). destruct (dget (combine ks th) k); reflexivity. Qed.
Lemma dget_call : forall s th k, NoDup (search s) ->
  dget (lparams (call s th)) k = match dget (combine (search s) th) k with Some v => Some v | None => dget (lparams s) k end.
Proof.
  intros. unfold call. simpl. rewrite dget_dupdate by (apply wf_dupdate; constructor). rewrite dget_params_of by assumption. reflexivity.
Qed.
Lemma calls_search : forall ths s, search (calls s ths) = search s.
Proof. unfold calls. induction ths as [|t ths IH]; intros s; [reflexivity|]. simpl. rewrite IH. reflexivity. Qed.
Lemma calls_outside : forall ths s k, NoDup (search s) -> ~ In k (search s) -> dget (lparams (calls s ths)) k = dget (lparams s) k.
Proof.
  unfold calls. induction ths as [|t ths IH]; intros s k N H; [reflexivity|]. simpl. rewrite IH by (simpl; assumption). rewrite dget_call by exact N.
  rewrite dget_combine_none by exact H. reflexivity.
Qed.
(** the likelihood sees, at every call of any run, the sampled values of this call, the fixed values, and
    whatever was in its dictionary before under other names *)
Theorem C25_likelihood_sees : forall priors params history theta, wf priors -> (forall kp, In kp priors -> sane (snd kp)) ->
  let s0 := initialise priors params in let s := calls s0 (history ++ [theta]) in length theta = length (search s0) ->
  (forall i k, nth_error (search s0) i = Some k -> dget (lparams s) k = nth_error theta i) /\
  (forall k p x, In (k, p) priors -> delta p = Some x -> dget (lparams s) k = Some x) /\
  (forall k, ~ In k (search s0) -> ~ In k (fixed s0) -> dget (lparams s) k = dget params k).
Proof.
  intros priors params history theta W H s0 s L. destruct (C25_partition priors params W H) as [P1 [P2 _]]. fold s0 in P1, P2.
  assert (N : NoDup (search s0)).
  { assert (K : NoDup (search s0 ++ constr s0 ++ fixed s0)) by (eapply Permutation_NoDup; [symmetry; exact P2|exact W]).
    clear - K. induction (search s0) as [|a l IH]; [constructor|]. simpl in K. inversion K; subst. constructor; [rewrite in_app_iff in *; tauto|auto]. }
  assert (E : s = call (calls s0 history) theta) by (unfold s, calls; rewrite fold_left_app; reflexivity).
  assert (Q : forall k, ~ In k (search s0) -> dget (lparams s) k = dget (lparams s0) k) by (intros; apply calls_outside; assumption).
  split; [|split].
  - intros i k Hi. rewrite E, dget_call by (rewrite calls_search; exact N). rewrite calls_search, (dget_combine_nth _ _ i k N Hi).
    destruct (nth_error theta i) eqn:T; [reflexivity|]. exfalso. apply nth_error_None in T. assert (i < length (search s0))%nat by (apply nth_error_Some; congruence). lia.
  - intros k p x I D. rewrite Q.
    + unfold s0, initialise. rewrite init_params by assumption. rewrite (proj2 (dget_in _ _ _ W) I), D. reflexivity.
    + rewrite (proj1 (P1 k p I)). destruct (H (k, p) I) as [_ [F _]]. simpl in F. rewrite (proj2 F) by (right; congruence). discriminate.
  - intros k A B. rewrite Q by exact A. unfold s0, initialise. rewrite init_params by assumption. destruct (dget priors k) as [p|] eqn:G; [|reflexivity].
    destruct (delta p) as [x|] eqn:D; [|reflexivity]. exfalso. apply B. apply (P1 k p); [apply dget_some_in, G|congruence].
Qed.
(** a vector that is too short is accepted: the missing parameters silently keep the value of the last call
    that set them *)
Theorem C25_short_vector : forall priors params history theta theta', wf priors -> (forall kp, In kp priors -> sane (snd kp)) ->
  let s0 := initialise priors params in (length theta' <= length theta)%nat -> length theta = length (search s0) ->
  let s := calls s0 (history ++ [theta; theta']) in
  forall i k, nth_error (search s0) i = Some k ->
  dget (lparams s) k = if (i <? length theta')%nat then nth_error theta' i else nth_error theta i.
Proof.
  intros priors params history theta theta' W H s0 L' L s i k Hi. destruct (C25_likelihood_sees priors params history theta W H L) as [A _]. cbv zeta in A. fold s0 in A.
  destruct (C25_partition priors params W H) as [_ [P2 _]]. fold s0 in P2.
  assert (N : NoDup (search s0)).
  { assert (K : NoDup (search s0 ++ constr s0 ++ fixed s0)) by (eapply Permutation_NoDup; [symmetry; exact P2|exact W]).
    clear - K. induction (search s0) as [|a l IH]; [constructor|]. simpl in K. inversion K; subst. constructor; [rewrite in_app_iff in *; tauto|auto]. }
  assert (E : s = call (calls s0 (history ++ [theta])) theta').
  { unfold s, calls. rewrite !fold_left_app. reflexivity. }
  rewrite E, dget_call by (rewrite calls_search; exact N). rewrite calls_search, (dget_combine_nth _ _ i k N Hi). rewrite (A i k Hi).
  destruct (i <? length theta')%nat eqn:B.
  - apply Nat.ltb_lt, nth_error_Some in B. destruct (nth_error theta' i); congruence.
  - apply Nat.ltb_ge, nth_error_None in B. rewrite B. reflexivity.
Qed.
Example C25_example :
  let pri := [("m"%string, mkI true false false None); ("q"%string, mkI true true true None); ("d"%string, mkI true true false (Some 7)); ("x"%string, mkI true false false None)] in
  let s := calls (initialise pri [("z"%string, 9)]) [[1; 2]; [3]] in
  search s = ["m"; "x"]%string /\ constr s = ["q"%string] /\ fixed s = ["d"%string] /\ lparams s = [("z", 9); ("d", 7); ("m", 3); ("x", 2)]%string.
Proof. simpl. auto. Qed.

(** ** C53 Keyword arguments *)
Section C53.
Context {V : Type}.
Implicit Types (kw defaults : dict V) (rules : list (string * list string)).
Lemma alias_fold : forall A key kw sd, wf kw -> NoDup A ->
  let r := fold_left (alias_step key) A (kw, sd) in
  wf (fst r) /\ (forall x, x <> key -> ~ In x A -> dget (fst r) x = dget kw x) /\
  (forall x, x <> key -> In x A -> dget (fst r) x = None) /\
  ((exists A1 a A2 v, A = A1 ++ a :: A2 /\ a <> key /\ dget kw a = Some v /\ (forall b, In b A2 -> b <> key -> dget kw b = None) /\ dget (fst r) key = Some v) \/
   ((forall a, In a A -> a <> key -> dget kw a = None) /\ dget (fst r) key = dget kw key)).
Proof.
  induction A as [|a A IH]; intros key kw sd W N; cbv zeta.
  - simpl. split; [exact W|]. split; [auto|]. split; [intros x _ []|]. right. split; [intros a []|reflexivity].
  - inversion N as [|x y N1 N2]; subst. cbn [fold_left].
    destruct (dget kw a) as [v|] eqn:G.
    + assert (Est : alias_step key (kw, sd) a = (dset (ddel kw a) key v, sd ++ [v])) by (unfold alias_step; simpl; rewrite G; reflexivity). rewrite Est. clear Est.
      assert (W' : wf (dset (ddel kw a) key v)) by (apply wf_set, wf_del, W).
      assert (X : forall x, x <> key -> x <> a -> dget (dset (ddel kw a) key v) x = dget kw x) by (intros x H1 H2; rewrite dget_set_ne, dget_del_ne by assumption; reflexivity).
      destruct (IH key _ (sd ++ [v]) W' N2) as [P1 [P2 [P3 P4]]]. cbv zeta in P1, P2, P3, P4. split; [exact P1|]. split; [|split].
      * intros x H1 H2. simpl in H2. rewrite P2 by tauto. apply X; intuition congruence.
      * intros x H1 [<-|H2]; [|apply P3; assumption]. rewrite P2 by assumption. rewrite dget_set_ne by assumption. apply dget_del_eq, W.
      * destruct (string_dec a key) as [->|Na].
        -- destruct P4 as [[A1 [b [A2 [w [E [Nb [D [Q R]]]]]]]]|[Q R]].
           ++ left. exists (key :: A1), b, A2, w. split; [rewrite E; reflexivity|]. assert (b <> key) by exact Nb. split; [exact Nb|].
              split; [rewrite <- D; symmetry; apply X; assumption|]. split; [intros c Hc Hk; rewrite <- (X c Hk Hk); apply Q; assumption|exact R].
           ++ right. split; [intros c [<-|Hc] Hk; [contradiction|]; rewrite <- (X c Hk Hk); apply Q; assumption|]. rewrite R, dget_set_eq. symmetry. exact G.
        -- assert (NA : forall c, In c A -> c <> a) by (intros c Hc ->; contradiction).
           destruct P4 as [[A1 [b [A2 [w [E [Nb [D [Q R]]]]]]]]|[Q R]].
           ++ left. exists (a :: A1), b, A2, w. split; [rewrite E; reflexivity|]. split; [exact Nb|].
              split; [rewrite <- D; symmetry; apply X; [exact Nb|apply NA; rewrite E; apply in_elt]|].
              split; [intros c Hc Hk; rewrite <- (X c Hk); [apply Q; assumption|apply NA; rewrite E; apply in_or_app; right; right; exact Hc]|exact R].
           ++ left. exists [], a, A, v. split; [reflexivity|]. split; [exact Na|]. split; [exact G|].
              split; [intros c Hc Hk; rewrite <- (X c Hk (NA c Hc)); apply Q; assumption|]. rewrite R. apply dget_set_eq.
    + assert (Est : alias_step key (kw, sd) a = (kw, sd)) by (unfold alias_step; simpl; rewrite G; reflexivity). rewrite Est. clear Est.
      destruct (IH key kw sd W N2) as [P1 [P2 [P3 P4]]]. cbv zeta in P1, P2, P3, P4. split; [exact P1|]. split; [|split].
      * intros x H1 H2. simpl in H2. apply P2; tauto.
      * intros x H1 [<-|H2]; [|apply P3; assumption]. rewrite P2 by assumption. exact G.
      * destruct P4 as [[A1 [b [A2 [w [E [Nb [D [Q R]]]]]]]]|[Q R]].
        -- left. exists (a :: A1), b, A2, w. split; [rewrite E; reflexivity|]. auto 6.
        -- right. split; [|exact R]. intros c [<-|Hc] Hk; [exact G|apply Q; assumption].
Qed.
(** [chosen key aliases kw v]: what the user asked for under a canonical name with aliases: the canonical name
    wins, otherwise the LAST alias in the list that was given *)
Inductive chosen (key : string) (A : list string) kw : option V -> Prop :=
| chosen_key v : dget kw key = Some v -> chosen key A kw (Some v)
| chosen_alias A1 a A2 v : dget kw key = None -> A = A1 ++ a :: A2 -> dget kw a = Some v -> (forall b, In b A2 -> dget kw b = None) -> chosen key A kw (Some v)
| chosen_none : dget kw key = None -> (forall a, In a A -> dget kw a = None) -> chosen key A kw None.
Lemma translate1_spec : forall kw key A, wf kw -> NoDup A ->
  let r := fst (translate1 kw (key, A)) in
  wf r /\ (forall x, x <> key -> ~ In x A -> dget r x = dget kw x) /\ chosen key A kw (dget r key).
Proof.
  intros kw key A W N. unfold translate1. simpl fst. simpl snd. unfold dmem. destruct (dget kw key) as [v|] eqn:G; cbv zeta.
  - simpl. split; [exact W|]. split; [auto|]. rewrite G. apply chosen_key, G.
  - destruct (alias_fold A key kw [] W N) as [P1 [P2 [P3 P4]]]. cbv zeta in P1, P2, P3, P4. split; [exact P1|]. split; [exact P2|].
    destruct P4 as [[A1 [b [A2 [w [E [Nb [D [Q R]]]]]]]]|[Q R]].
    + rewrite R. apply (chosen_alias key A kw A1 b A2 w G E D). intros c Hc. destruct (string_dec c key) as [->|Hk]; [exact G|apply Q; assumption].
    + rewrite R, G. apply chosen_none; [exact G|]. intros c Hc. destruct (string_dec c key) as [->|Hk]; [exact G|apply Q; assumption].
Qed.
Lemma chosen_ext : forall key A kw kw' o, (forall x, x = key \/ In x A -> dget kw' x = dget kw x) -> chosen key A kw o -> chosen key A kw' o.
Proof.
  intros key A kw kw' o H C. destruct C as [v C|A1 a A2 v C E D Q|C Q].
  - apply chosen_key. rewrite H; auto.
  - apply (chosen_alias key A kw' A1 a A2 v); [rewrite H; auto|exact E|rewrite H; [exact D|right; rewrite E; apply in_elt]|].
    intros b Hb. rewrite H; [apply Q, Hb|right; rewrite E; apply in_or_app; right; right; exact Hb].
  - apply chosen_none; [rewrite H; auto|]. intros a Ha. rewrite H; auto.
Qed.
Definition names (r : string * list string) : list string := fst r :: snd r.
Definition disjoint_rules rules : Prop :=
  (forall r, In r rules -> NoDup (snd r)) /\ ForallOrdPairs (fun r r' => forall x, In x (names r) -> ~ In x (names r')) rules.
Lemma translate_spec : forall rules kw, wf kw -> disjoint_rules rules ->
  (forall x, (forall r, In r rules -> ~ In x (names r)) -> dget (translate rules kw) x = dget kw x) /\
  (forall r, In r rules -> chosen (fst r) (snd r) kw (dget (translate rules kw) (fst r))).
Proof.
  unfold translate. induction rules as [|[key A] rules IH]; intros kw W [N D]; [split; [auto|intros r []]|]. simpl fold_left.
  inversion D as [|x y D1 D2]; subst. destruct (translate1_spec kw key A W (N (key, A) (or_introl eq_refl))) as [W1 [O C]]. cbv zeta in W1, O, C.
  destruct (IH _ W1 (conj (fun r K => N r (or_intror K)) D2)) as [I1 I2]. rewrite Forall_forall in D1. split.
  - intros x Hx. rewrite I1 by (intros r K; apply Hx; right; exact K). assert (K := Hx (key, A) (or_introl eq_refl)). simpl in K. apply O; intuition congruence.
  - intros r [<-|Hr]; simpl fst; simpl snd.
    + rewrite I1; [exact C|]. intros r K. apply (D1 r K). left. reflexivity.
    + eapply chosen_ext; [|apply I2, Hr]. intros x Hx. symmetry. assert (K : ~ In x (names (key, A))).
      { intro K. apply (D1 r Hr x K). destruct Hx as [->|Hx]; [left; reflexivity|right; exact Hx]. }
      simpl in K. apply O; intuition congruence.
Qed.
Lemma ddel_filter : forall (d : dict V) k, wf d -> ddel d k = filter (fun kv => negb (String.eqb k (fst kv))) d.
Proof.
  induction d as [|[a v] d IH]; intros k W; [reflexivity|]. inversion W as [|x y N W']; subst. simpl. destruct (String.eqb k a) eqn:E; simpl.
  - apply String.eqb_eq in E. subst a. clear - N. induction d as [|[b w] d IH]; [reflexivity|]. simpl in *. destruct (String.eqb k b) eqn:E.
    + apply String.eqb_eq in E. subst. exfalso. apply N. left. reflexivity.
    + simpl. f_equal. apply IH. tauto.
  - f_equal. apply IH, W'.
Qed.
Lemma dels_spec : forall ks (d : dict V), wf d -> let r := fold_left (fun d k => ddel d k) ks d in
  wf r /\ (forall k, dget r k = if in_dec string_dec k ks then None else dget d k) /\ dkeys r = filter (fun k => if in_dec string_dec k ks then false else true) (dkeys d).
Proof.
  induction ks as [|k ks IH]; intros d W; cbv zeta; cbn [fold_left].
  - split; [exact W|]. split; [reflexivity|]. simpl. induction (dkeys d) as [|a l I]; [reflexivity|]. simpl. f_equal. exact I.
  - destruct (IH (ddel d k) (wf_del _ _ W)) as [P1 [P2 P3]]. split; [exact P1|]. split.
    + intros x. rewrite P2. destruct (in_dec string_dec x ks) as [I|I], (in_dec string_dec x (k :: ks)) as [J|J]; try reflexivity.
      * exfalso. apply J. right. exact I.
      * destruct J as [->|J]; [apply dget_del_eq, W|contradiction].
      * apply dget_del_ne. intros ->. apply J. left. reflexivity.
    + rewrite P3, ddel_filter by exact W. clear. unfold dkeys. induction d as [|[a v] d I]; [reflexivity|]. simpl.
      destruct (string_dec k a) as [->|H].
      * rewrite String.eqb_refl. simpl. rewrite I. destruct (in_dec string_dec a (a :: ks)) as [_|N]; [|exfalso; apply N; left; reflexivity]. reflexivity.
      * rewrite (proj2 (String.eqb_neq k a) H). simpl. rewrite I.
        destruct (in_dec string_dec a ks) as [J|J], (string_dec k a); try congruence; reflexivity.
Qed.
(** the arguments handed to the sampler are exactly the known ones, in the order of the defaults *)
Theorem C53_known_names : forall defaults rules kw, wf defaults -> dkeys (set_kwargs defaults rules kw) = dkeys defaults.
Proof.
  intros defaults rules kw W. unfold set_kwargs, verify. set (u := dupdate defaults (translate rules kw)).
  assert (Wu : wf u) by (apply wf_dupdate, W). destruct (dels_spec (filter (fun k => negb (dmem defaults k)) (dkeys u)) u Wu) as [_ [_ E]]. cbv zeta in E. rewrite E.
  destruct (dupdate_prefix (translate rules kw) defaults) as [t [Et Nt]]. fold u in Et. rewrite Et.
  assert (G : forall l, (forall k, In k l -> In k (dkeys u)) -> filter (fun k => if in_dec string_dec k (filter (fun k => negb (dmem defaults k)) (dkeys defaults ++ t)) then false else true) l = filter (dmem defaults) l).
  { intros l Hl. apply filter_ext_in. intros k Hk. destruct (in_dec string_dec k _) as [I|I]; rewrite filter_In in I.
    - destruct I as [_ I]. apply negb_true_iff in I. symmetry. exact I.
    - destruct (dmem defaults k) eqn:M; [reflexivity|]. exfalso. apply I. split; [rewrite <- Et; apply Hl, Hk|reflexivity]. }
  rewrite G by (rewrite <- Et; auto). rewrite filter_app.
  assert (F1 : filter (dmem defaults) (dkeys defaults) = dkeys defaults).
  { clear - V. assert (H : forall l, (forall k, In k l -> dmem defaults k = true) -> filter (dmem defaults) l = l).
    { induction l as [|a l IH]; intros H; [reflexivity|]. simpl. rewrite (H a (or_introl eq_refl)). f_equal. apply IH. intros k K. apply H. right. exact K. }
    apply H. intros k K. apply dmem_in, K. }
  assert (F2 : filter (dmem defaults) t = []).
  { clear - Nt. induction t as [|a t IH]; [reflexivity|]. simpl. destruct (dmem defaults a) eqn:M.
    - exfalso. apply (Nt a (or_introl eq_refl)). apply dmem_in, M.
    - apply IH. intros k K. apply Nt. right. exact K. }
  rewrite F1, F2, app_nil_r. reflexivity.
Qed.
Lemma wf_translate : forall rules kw, wf kw -> disjoint_rules rules -> wf (translate rules kw).
Proof.
  unfold translate. induction rules as [|[key A] rules IH]; intros kw W [N D]; [exact W|]. simpl. inversion D; subst. apply IH.
  - apply translate1_spec; [exact W|exact (N (key, A) (or_introl eq_refl))].
  - split; [|assumption]. intros r K. apply N. right. exact K.
Qed.
Lemma dget_set_kwargs : forall defaults rules kw k, wf defaults -> wf kw -> disjoint_rules rules -> In k (dkeys defaults) ->
  dget (set_kwargs defaults rules kw) k = match dget (translate rules kw) k with Some v => Some v | None => dget defaults k end.
Proof.
  intros defaults rules kw k W Wk D I. unfold set_kwargs, verify. set (u := dupdate defaults (translate rules kw)).
  assert (Wu : wf u) by (apply wf_dupdate, W). destruct (dels_spec (filter (fun k => negb (dmem defaults k)) (dkeys u)) u Wu) as [_ [E _]]. cbv zeta in E. rewrite E.
  destruct (in_dec string_dec k _) as [J|J].
  - exfalso. apply filter_In in J. destruct J as [_ J]. apply dmem_in in I. rewrite I in J. discriminate.
  - unfold u. apply dget_dupdate, wf_translate; assumption.
Qed.
(** an ordinary argument keeps the user's value, or the default *)
Theorem C53_plain : forall defaults rules kw k, wf defaults -> wf kw -> disjoint_rules rules -> In k (dkeys defaults) ->
  (forall r, In r rules -> ~ In k (names r)) ->
  dget (set_kwargs defaults rules kw) k = match dget kw k with Some v => Some v | None => dget defaults k end.
Proof.
  intros. rewrite dget_set_kwargs by assumption. destruct (translate_spec rules kw) as [O _]; [assumption..|]. rewrite O by assumption. reflexivity.
Qed.
(** an argument with aliases: the canonical name wins, else the last alias given, else the default *)
Theorem C53_alias : forall defaults rules kw key A, wf defaults -> wf kw -> disjoint_rules rules -> In (key, A) rules -> In key (dkeys defaults) ->
  exists o, chosen key A kw o /\ dget (set_kwargs defaults rules kw) key = match o with Some v => Some v | None => dget defaults key end.
Proof.
  intros defaults rules kw key A W Wk D I K. exists (dget (translate rules kw) key). split; [|apply dget_set_kwargs; assumption].
  destruct (translate_spec rules kw) as [_ C]; [assumption..|]. exact (C (key, A) I).
Qed.
(** bilby's own generator is seeded exactly when the seed is given under an alias and not under the sampler's
    own name, and then finally with the value the sampler gets *)
Theorem C53_own_seed : forall kw key A, wf kw -> NoDup A ->
  let '(kw', seeds) := translate1 kw (key, A) in
  (seeds = [] <-> dget kw key <> None \/ forall a, In a A -> dget kw a = None) /\
  (seeds <> [] -> exists s0 v, seeds = s0 ++ [v] /\ dget kw' key = Some v).
Proof.
  intros kw key A W N. unfold translate1. simpl fst. simpl snd. unfold dmem. destruct (dget kw key) as [v|] eqn:G.
  - split; [split; [left; discriminate|reflexivity]|]. intro H. exfalso. apply H. reflexivity.
  - assert (P : forall A kw sd, wf kw -> NoDup A -> let r := fold_left (alias_step key) A (kw, sd) in
      (snd r = sd /\ (forall a, In a A -> dget kw a = None) /\ fst r = kw) \/
      ((exists a, In a A /\ dget kw a <> None) /\ exists s0 v, snd r = s0 ++ [v] /\ dget (fst r) key = Some v)).
    { clear. induction A as [|a A IH]; intros kw sd W N; cbv zeta; [left; split; [reflexivity|]; split; [intros a []|reflexivity]|].
      cbn [fold_left]. inversion N as [|x y N1 N2]; subst. destruct (dget kw a) as [v|] eqn:G.
      - assert (E : alias_step key (kw, sd) a = (dset (ddel kw a) key v, sd ++ [v])) by (unfold alias_step; simpl; rewrite G; reflexivity). rewrite E.
        right. split; [exists a; split; [left; reflexivity|congruence]|].
        destruct (IH (dset (ddel kw a) key v) (sd ++ [v]) (wf_set _ _ _ (wf_del _ _ W)) N2) as [[P1 [_ P3]]|[_ P]]; [|exact P].
        exists sd, v. split; [exact P1|]. rewrite P3. apply dget_set_eq.
      - assert (E : alias_step key (kw, sd) a = (kw, sd)) by (unfold alias_step; simpl; rewrite G; reflexivity). rewrite E.
        destruct (IH kw sd W N2) as [[P1 [P2 P3]]|[[b [B1 B2]] P]].
        + left. split; [exact P1|]. split; [intros b [<-|Hb]; [exact G|apply P2, Hb]|exact P3].
        + right. split; [exists b; split; [right; exact B1|exact B2]|exact P]. }
    specialize (P A kw [] W N). cbv zeta in P. destruct (fold_left (alias_step key) A (kw, [])) as [kw' seeds]. simpl in P.
    destruct P as [[-> [P2 _]]|[[a [B1 B2]] [s0 [v [-> P]]]]].
    + split; [split; [right; exact P2|reflexivity]|]. intro H. exfalso. apply H. reflexivity.
    + split; [split; [intro H; destruct s0; discriminate|intros [H|H]; [congruence|exfalso; exact (B2 (H a B1))]]|]. intros _. exists s0, v. auto.
Qed.
(** size of the pool: the first of the recognised names, in the fixed order *)
Theorem C53_npool : forall names kw own,
  (exists n1 n n2 v, names = n1 ++ n :: n2 /\ (forall x, In x n1 -> dget kw x = None) /\ dget kw n = Some v /\ npool names kw own = v) \/
  ((forall x, In x names -> dget kw x = None) /\ npool names kw own = own).
Proof.
  induction names0 as [|n ns IH]; intros kw own; [right; split; [intros x []|reflexivity]|]. simpl. destruct (dget kw n) as [v|] eqn:G.
  - left. exists [], n, ns, v. split; [reflexivity|]. split; [intros x []|]. auto.
  - destruct (IH kw own) as [[n1 [m [n2 [v [E [A [B C]]]]]]]|[A B]].
    + left. exists (n :: n1), m, n2, v. split; [rewrite E; reflexivity|]. split; [intros x [<-|Hx]; [exact G|apply A, Hx]|split; [exact B|exact C]].
    + right. split; [intros x [<-|Hx]; [exact G|apply A, Hx]|exact B].
Qed.
End C53.
(** two aliases at once: the later in bilby's list wins, not the more specific one; the sampler's own name
    leaves bilby's generator unseeded *)
Example C53_example :
  let rules := [("seed", ["sampling_seed"; "seed"; "random_seed"]); ("nlive", ["nlive"; "nlives"; "npoints"])]%string in
  let defaults := [("nlive", 500); ("seed", 0); ("dlogz", 1)]%string%nat in
  set_kwargs defaults rules [("sampling_seed", 4); ("random_seed", 5); ("npoints", 100); ("bogus", 3)]%string%nat = [("nlive", 100); ("seed", 5); ("dlogz", 1)]%string%nat /\
  snd (translate1 [("seed", 4)]%string%nat (hd ("", []) rules)%string) = [] /\
  snd (translate1 [("sampling_seed", 4)]%string%nat (hd ("", []) rules)%string) = [4; 4]%nat.
Proof. vm_compute. auto. Qed.

(** ** C54 Initial points *)
Section C54.
Variables (big : R) (transform : list R -> list R) (logp logl : list R -> pyfloat) (draw : nat -> list R).
Notation ok := (fun i => check_draw big logp logl (transform (draw i))).
Notation ipts := (initial_points big transform logp logl draw).
(** a loop state in which the rows are the accepted draws so far, in order *)
Definition Inv (s : points) : Prop :=
  let acc := filter ok (seq 0 (used s)) in
  units s = map draw acc /\ thetas s = map (fun i => transform (draw i)) acc /\
  likes s = map (fun i => logl (transform (draw i))) acc /\ evals s = (used s + length acc)%nat.
Lemma Inv0 : Inv (mkPts [] [] [] 0 0).
Proof. unfold Inv. simpl. auto. Qed.
Lemma filter_seq_S : forall f n, filter f (seq 0 (S n)) = filter f (seq 0 n) ++ (if f n then [n] else []).
Proof. intros. rewrite seq_S, filter_app. simpl. destruct (f n); reflexivity. Qed.
Lemma Inv_step : forall s, Inv s -> Inv
  (if check_draw big logp logl (transform (draw (used s))) then mkPts (units s ++ [draw (used s)]) (thetas s ++ [transform (draw (used s))]) (likes s ++ [logl (transform (draw (used s)))]) (S (used s)) (evals s + 2)
   else mkPts (units s) (thetas s) (likes s) (S (used s)) (evals s + 1)).
Proof.
  intros s [A [B [C D]]]. unfold Inv. destruct (check_draw big logp logl (transform (draw (used s)))) eqn:E; cbn [used units thetas likes evals]; rewrite filter_seq_S, E.
  - rewrite A, B, C, D, !map_app, app_length. simpl. repeat split; try reflexivity. lia.
  - rewrite app_nil_r. repeat split; try assumption. lia.
Qed.
Lemma ipts_spec : forall fuel n s r, Inv s -> ipts fuel n s = Some r ->
  Inv r /\ (n <= length (units r))%nat /\ ((length (units s) <= n)%nat -> length (units r) = n) /\ (used s <= used r)%nat /\
  ((used s < used r)%nat -> ok (used r - 1)%nat = true).
Proof.
  induction fuel as [|f IH]; intros n s r I H; cbn [initial_points] in H; destruct (length (units s) <? n)%nat eqn:L.
  - discriminate.
  - injection H as <-. apply Nat.ltb_ge in L. split; [exact I|]. repeat split; try lia.
  - apply Nat.ltb_lt in L. cbv zeta in H. pose proof (IH n _ r (Inv_step s I) H) as [J1 [J2 [J3 [J4 J5]]]].
    destruct (check_draw big logp logl (transform (draw (used s)))) eqn:E; cbn [used units] in *.
    + rewrite app_length in J3. simpl in J3. split; [exact J1|]. split; [exact J2|]. split; [intros _; apply J3; lia|]. split; [lia|]. intros _.
      destruct (Nat.eq_dec (used r) (S (used s))) as [K|K]; [rewrite K; simpl; rewrite Nat.sub_0_r; exact E|apply J5; lia].
    + split; [exact J1|]. split; [exact J2|]. split; [intros _; apply J3; lia|]. split; [lia|]. intros _.
      destruct (Nat.eq_dec (used r) (S (used s))) as [K|K]; [|apply J5; lia].
      exfalso. assert (U : r = mkPts (units s) (thetas s) (likes s) (S (used s)) (evals s + 1) \/ (S (used s) < used r)%nat).
      { destruct f; cbn [initial_points units used] in H; rewrite (proj2 (Nat.ltb_lt _ _) L) in H; [discriminate|]. right.
        cbv zeta in H. pose proof (IH n _ r (Inv_step s I)) as Q. rewrite E in Q.
        assert (Z : forall f n s r, ipts f n s = Some r -> (used s <= used r)%nat).
        { clear. induction f as [|f IH]; intros n s r H; cbn [initial_points] in H; destruct (length (units s) <? n)%nat; try discriminate; try (injection H as <-; lia).
          cbv zeta in H. apply IH in H. destruct (check_draw big logp logl (transform (draw (used s)))); simpl in H; lia. }
        apply Z in H. destruct (check_draw big logp logl (transform (draw (S (used s))))); simpl in H; lia. }
      destruct U as [U|U]; [subst r; cbn [units] in J2; lia|lia].
  - injection H as <-. apply Nat.ltb_ge in L. split; [exact I|]. repeat split; try lia.
Qed.
(** when it returns: exactly npoints rows, the accepted draws in order and no draw after the last of them; the
    three arrays belong together; every row has finite prior and likelihood; one likelihood evaluation per
    draw and one more per row *)
Theorem C54_points : forall fuel n r, get_initial_points big transform logp logl draw fuel n = Some r ->
  units r = map draw (filter ok (seq 0 (used r))) /\ length (units r) = n /\
  thetas r = map transform (units r) /\ likes r = map logl (thetas r) /\
  (forall t, In t (thetas r) -> (exists p, logp t = Fin p) /\ (exists l, logl t = Fin l)) /\
  evals r = (used r + n)%nat /\ ((0 < used r)%nat -> ok (used r - 1)%nat = true).
Proof.
  intros fuel n r H. unfold get_initial_points in H.
  destruct (ipts_spec fuel n _ r Inv0 H) as [[A [B [C D]]] [L1 [L2 [L3 L4]]]]. simpl in L2, L4.
  assert (Ln : length (units r) = n) by (apply L2; lia). split; [exact A|]. split; [exact Ln|]. rewrite A, map_map in *. split; [exact B|]. split; [rewrite B, map_map; exact C|]. split.
  - intros t Ht. rewrite B in Ht. apply in_map_iff in Ht. destruct Ht as [i [<- Hi]]. apply filter_In in Hi. destruct Hi as [_ Hi]. unfold check_draw in Hi.
    apply andb_prop in Hi. destruct Hi as [H1 H2]. unfold good_value in H1, H2. split; [destruct (logp _); try discriminate|destruct (logl _); try discriminate]; eexists; reflexivity.
  - rewrite map_length in Ln. split; [lia|exact L4].
Qed.
(** it returns as soon as npoints draws are good, and runs forever if too few ever are *)
Theorem C54_returns_iff : forall n, (exists fuel r, get_initial_points big transform logp logl draw fuel n = Some r) <->
  exists m, length (filter ok (seq 0 m)) = n.
Proof.
  intro n. split.
  - intros [fuel [r H]]. destruct (C54_points fuel n r H) as [A [L _]]. exists (used r). rewrite A, map_length in L. exact L.
  - intros [m E].
    assert (G : forall k s, Inv s -> (m - used s = k)%nat -> (used s <= m)%nat -> ipts k n s <> None).
    { induction k as [|k IH]; intros s I K U; cbn [initial_points]; destruct (length (units s) <? n)%nat eqn:L; try discriminate; apply Nat.ltb_lt in L.
      - exfalso. destruct I as [A _]. rewrite A, map_length in L. replace (used s) with m in L by lia. lia.
      - cbv zeta. apply IH; [apply Inv_step, I| |]; destruct (check_draw big logp logl (transform (draw (used s)))); simpl; try lia.
 }
    specialize (G m (mkPts [] [] [] 0 0) Inv0). simpl in G. exists m. unfold get_initial_points.
    destruct (ipts m n (mkPts [] [] [] 0 0)) as [r|] eqn:Q; [exists r; reflexivity|]. exfalso. apply G; [lia|lia|reflexivity].
Qed.
End C54.
(** a nested sampler never starts from a point that violates a constraint, even if the prior itself ignores
    constraints *)
Theorem C54_constraints : forall big transform logp like constraints draw fuel n r, 0 <= big ->
  get_initial_points big transform logp (nested_logl big constraints like) draw fuel n = Some r ->
  forall t, In t (thetas r) -> constraints t = true.
Proof.
  intros big transform logp like cs draw fuel n r B H t Ht. destruct (C54_points _ _ _ _ _ _ _ _ H) as [A [_ [T _]]].
  rewrite T, A, map_map in Ht. apply in_map_iff in Ht. destruct Ht as [i [<- Hi]]. apply filter_In in Hi. destruct Hi as [_ Hi].
  unfold check_draw in Hi. apply andb_prop in Hi. destruct Hi as [_ Hi]. unfold nested_logl in Hi. destruct (cs (transform (draw i))); [reflexivity|].
  simpl in Hi. rewrite Rabs_Ropp, Rabs_right in Hi by lra. destruct (Req_EM_T big big); [discriminate|contradiction].
Qed.
(** the sentinel also rejects a genuine finite value of that magnitude, and no other finite value *)
Theorem C54_sentinel : forall big x, good_value big (Fin x) = false <-> Rabs x = big.
Proof. intros. simpl. destruct (Req_EM_T (Rabs x) big); split; congruence. Qed.
Example C54_example :
  option_map (fun r => (units r, used r, evals r)) (get_initial_points 100 (map (fun x => 2 * x)) (fun _ => Fin 0) (fun t => match t with [] => NInf | _ => Fin 1 end)
    (fun i => match i with O => [] | S O => [1] | S (S O) => [] | _ => [2] end) 4 2) = Some ([[1]; [2]], 4%nat, 6%nat).
Proof.
  assert (G0 : good_value 100 (Fin 0) = true) by (simpl; rewrite Rabs_R0; destruct (Req_EM_T 0 100); [lra|reflexivity]).
  assert (G1 : good_value 100 (Fin 1) = true) by (simpl; rewrite Rabs_R1; destruct (Req_EM_T 1 100); [lra|reflexivity]).
  assert (GN : good_value 100 NInf = false) by reflexivity.
  set (L := fun t : list R => match t with [] => NInf | _ => Fin 1 end).
  assert (C0 : check_draw 100 (fun _ => Fin 0) L [] = false) by (unfold check_draw; rewrite G0; exact GN).
  assert (C1 : forall x l, check_draw 100 (fun _ => Fin 0) L (x :: l) = true) by (intros; unfold check_draw; rewrite G0; exact G1).
  unfold get_initial_points. do 4 (cbn -[check_draw Rmult IZR]; rewrite ?C0, ?C1). reflexivity.
Qed.

(** ** C58 Reordered likelihoods *)
Lemma first_match_spec : forall row rows i, first_match row rows = Some i -> nth_error rows i = Some row /\ forall j, (j < i)%nat -> nth_error rows j <> Some row.
Proof.
  induction rows as [|r rs IH]; intros i H; simpl in H; [discriminate|]. destruct (list_eq_dec Req_EM_T row r) as [->|N].
  - injection H as <-. split; [reflexivity|lia].
  - destruct (first_match row rs) as [k|]; [|discriminate]. injection H as <-. destruct (IH k eq_refl) as [A B]. split; [exact A|].
    intros [|j] Hj; simpl; [congruence|apply B; lia].
Qed.
Lemma first_match_in : forall row rows, In row rows -> exists i, first_match row rows = Some i.
Proof.
  induction rows as [|r rs IH]; intros H; [destruct H|]. simpl. destruct (list_eq_dec Req_EM_T row r) as [->|N]; [exists 0%nat; reflexivity|].
  destruct H as [->|H]; [contradiction|]. destruct (IH H) as [i ->]. exists (S i). reflexivity.
Qed.
(** with likelihoods that are a function of the sample, every reordering (or any same-length selection) of the
    samples gets its own likelihoods, duplicates included *)
Theorem C58_matches : forall (f : list R -> R) unsorted sorted, (forall x, In x sorted -> In x unsorted) -> length sorted = length unsorted ->
  reorder_loglikelihoods (map f unsorted) unsorted sorted = Some (map f sorted).
Proof.
  intros f unsorted sorted H L. unfold reorder_loglikelihoods. rewrite map_length, <- L. clear L.
  induction sorted as [|x l IH]; [reflexivity|]. cbn [length reorder]. destruct (first_match_in x unsorted (H x (or_introl eq_refl))) as [i E]. rewrite E.
  rewrite IH by (intros y Hy; apply H; right; exact Hy). destruct (first_match_spec _ _ _ E) as [A _]. rewrite (map_nth_error f i unsorted A). reflexivity.
Qed.
(** a sample that does not occur bit for bit raises IndexError *)
Theorem C58_missing_raises : forall logls unsorted sorted, length sorted = length logls ->
  (exists x, In x sorted /\ ~ In x unsorted) -> reorder_loglikelihoods logls unsorted sorted = None.
Proof.
  intros logls unsorted sorted L [x [Hx N]]. unfold reorder_loglikelihoods. rewrite <- L. clear L. induction sorted as [|y l IH]; [destruct Hx|]. cbn [length reorder].
  destruct (first_match y unsorted) as [i|] eqn:E; [|reflexivity]. destruct Hx as [->|Hx].
  - exfalso. apply N. destruct (first_match_spec _ _ _ E) as [A _]. eapply nth_error_In, A.
  - rewrite IH by exact Hx. reflexivity.
Qed.
(** with a likelihood that is not a function of the sample (noisy or marginalised by Monte Carlo), duplicates all get the first value *)
Theorem C58_duplicates_refuted : exists logls unsorted, length logls = length unsorted /\
  reorder_loglikelihoods logls unsorted unsorted <> Some logls.
Proof.
  exists [1; 2], [[0]; [0]]. split; [reflexivity|].
  assert (F : first_match [0] [[0]; [0]] = Some 0%nat) by (cbn [first_match]; destruct (list_eq_dec Req_EM_T [0] [0]); [reflexivity|contradiction]).
  unfold reorder_loglikelihoods. cbn [length reorder]. rewrite !F. cbn [nth_error]. intro H.
  apply (f_equal (fun o => match o with Some [_; x] => x | _ => 0 end)) in H. lra.
Qed.
Example C58_example : reorder_loglikelihoods [10; 20; 30] [[1]; [2]; [3]] [[3]; [1]; [2]] = Some [30; 10; 20].
Proof.
  replace [10; 20; 30] with (map (fun x => 10 * hd 0 x) [[1]; [2]; [3]]) by (simpl; repeat f_equal; lra).
  rewrite C58_matches by (simpl; intuition). simpl. repeat f_equal; lra.
Qed.

(** ** Assumptions of every theorem above *)
Definition Sampler_Props_all :=
  (@C25_partition,
   @C25_other_fixed_refuted,
   @C25_likelihood_sees,
   @C25_short_vector,
   @C53_known_names,
   @C53_plain,
   @C53_alias,
   @C53_own_seed,
   @C53_npool,
   @C54_points,
   @C54_returns_iff,
   @C54_constraints,
   @C54_sentinel,
   @C58_matches,
   @C58_missing_raises,
   @C58_duplicates_refuted).
Print Assumptions Sampler_Props_all.
