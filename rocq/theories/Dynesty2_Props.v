(** * dynesty: set-up, posterior samples and walk proposals (C159, C160, C161) *)
From Coq Require Import String Ascii.
From Coq Require Import Reals List Bool Arith ZArith Lia Lra Sorted.
From Verif Require Import Mband_Model Ensemble2_Props Dynesty_Model.
Import ListNotations.
Open Scope string_scope. Open Scope list_scope. Open Scope nat_scope.

(** ** C159: set-up *)
Lemma select_spec key k bs i : In i (select key k bs) <-> k <= i /\ nth_error bs (i - k) = Some (Some key).
Proof.
  revert k. induction bs as [|b t IH]; intros k; cbn [select].
  - split; [intros []|]. intros [_ H]. destruct (i - k); discriminate.
  - rewrite in_app_iff, IH. split.
    + intros [H|[L H]].
      * destruct b as [s|]; [|destruct H]. destruct (String.eqb_spec s key) as [->|]; [|destruct H]. destruct H as [<-|[]].
        rewrite Nat.sub_diag. auto.
      * split; [lia|]. replace (i - k) with (S (i - S k)) by lia. exact H.
    + intros [L H]. destruct (Nat.eq_dec i k) as [->|N].
      * left. rewrite Nat.sub_diag in H. cbn in H. injection H as ->. rewrite String.eqb_refl. left. reflexivity.
      * right. split; [lia|]. replace (i - k) with (S (i - S k)) in H by lia. exact H.
Qed.
Lemma select_sorted key k bs : StronglySorted lt (select key k bs).
Proof.
  revert k. induction bs as [|b t IH]; intros k; cbn [select]; [constructor|].
  destruct b as [s|]; [destruct (String.eqb s key)|]; cbn [app]; try apply IH. constructor; [apply IH|].
  apply Forall_forall. intros i H. apply select_spec in H. lia.
Qed.
(** the periodic (reflective) list holds exactly the positions of the parameters with that
    boundary, in increasing order, and is None when there is none; the two lists are disjoint *)
Theorem C159_boundaries key bs : 
  match boundaries key bs with
  | None => forall i, nth_error bs i <> Some (Some key)
  | Some l => l <> [] /\ StronglySorted lt l /\ forall i, In i l <-> nth_error bs i = Some (Some key)
  end.
Proof.
  unfold boundaries. assert (S : forall i, In i (select key 0 bs) <-> nth_error bs i = Some (Some key)).
  { intros i. rewrite select_spec, Nat.sub_0_r. split; [tauto|]. intros H. split; [lia|exact H]. }
  destruct (select key 0 bs) as [|a l] eqn:E.
  - intros i H. apply S in H. destruct H.
  - split; [discriminate|]. split; [rewrite <- E; apply select_sorted|exact S].
Qed.
Theorem C159_disjoint bs l1 l2 i : boundaries "periodic" bs = Some l1 -> boundaries "reflective" bs = Some l2 -> In i l1 -> ~ In i l2.
Proof.
  intros E1 E2 H1 H2. pose proof (C159_boundaries "periodic" bs) as A. pose proof (C159_boundaries "reflective" bs) as B.
  rewrite E1 in A. rewrite E2 in B. apply A in H1. apply B in H2. congruence.
Qed.
Lemma is_in_spec x l : is_in x l = true <-> In x l.
Proof.
  unfold is_in. rewrite existsb_exists. split; [intros (y & H & E); apply String.eqb_eq in E; subst; exact H|].
  intros H. exists x. split; [exact H|apply String.eqb_refl].
Qed.
Definition live_bound (s : setup) : bool := is_in (bound s) ["live"; "live-multi"].
(** the three walks of this package, when the set-up succeeds, find the live points whenever their
    proposals need them *)
Theorem C159_live_available reg s s' reg' : In (sample_name s) own_walks -> set_sampling_method reg s = inl (s', reg') ->
  sample_name s' = sample_name s /\ bound s' = bound s /\ In (sample_name s) reg' /\
  walk_proposals (proposals s') (live_bound s') <> None /\
  (sample_name s = "rwalk" -> (walks s <= maxmcmc s /\ 1 <= nact s)%Z).
Proof.
  intros W H. unfold set_sampling_method in H. destruct (set_bound s) as [s1|e] eqn:B; [|discriminate].
  unfold set_bound in B. rewrite (proj2 (is_in_spec _ _) W) in B. cbn [negb andb] in B.
  assert (Q : sample_name s1 = sample_name s /\ bound s1 = bound s /\ walk_proposals (proposals s1) (live_bound s1) <> None /\
    walks s1 = walks s /\ maxmcmc s1 = maxmcmc s /\ nact s1 = nact s).
  { destruct (String.eqb_spec (bound s) "live") as [E|N1].
    { injection B as <-. repeat split. unfold walk_proposals, live_bound. rewrite E. cbn [is_in existsb String.eqb negb].
      replace (is_in "live" ["live"; "live-multi"]) with true by reflexivity. cbn [negb]. rewrite andb_false_r. discriminate. }
    destruct (String.eqb_spec (bound s) "live-multi") as [E|N2].
    { injection B as <-. repeat split. unfold walk_proposals, live_bound. rewrite E.
      replace (is_in "live-multi" ["live"; "live-multi"]) with true by reflexivity. cbn [negb]. rewrite andb_false_r. discriminate. }
    destruct (String.eqb (sample_name s) "acceptance-walk"); [discriminate|]. destruct (proposals s) as [l|] eqn:P.
    - destruct (is_in "diff" l) eqn:D; [discriminate|]. injection B as <-. repeat split. unfold walk_proposals. rewrite P, D. discriminate.
    - injection B as <-. repeat split. cbn. discriminate. }
  destruct Q as (Q1 & Q2 & Q3 & Q4 & Q5 & Q6). unfold set_sample in H. rewrite Q1 in H.
  destruct W as [W|[W|[W|[]]]]; rewrite <- W in *.
  - cbn [String.eqb] in H. replace (String.eqb "rwalk" "rwalk") with true in H by reflexivity.
    destruct (Z.ltb_spec (maxmcmc s1) (walks s1)); [discriminate|]. destruct (Z.ltb_spec (nact s1) 1); [discriminate|].
    injection H as <- <-. rewrite Q1. split; [reflexivity|]. split; [exact Q2|]. split; [left; reflexivity|]. split; [exact Q3|]. intros _. lia.
  - injection H as <- <-. rewrite Q1. split; [reflexivity|]. split; [exact Q2|]. split; [left; reflexivity|]. split; [exact Q3|discriminate].
  - injection H as <- <-. rewrite Q1. split; [reflexivity|]. split; [exact Q2|]. split; [left; reflexivity|]. split; [exact Q3|discriminate].
Qed.
(** exactly when the set-up is refused *)
Theorem C159_refused reg s : set_sampling_method reg s = inr DynestySetupError <->
  (live_bound s = false /\ (sample_name s = "acceptance-walk" \/ exists l, proposals s = Some l /\ In "diff" l)) \/
  (sample_name s = "rwalk" /\ (maxmcmc s < walks s \/ nact s < 1)%Z).
Proof.
  assert (SB : forall s1, set_bound s = inl s1 -> sample_name s1 = sample_name s /\ maxmcmc s1 = maxmcmc s /\ walks s1 = walks s /\ nact s1 = nact s).
  { intros s1. unfold set_bound. destruct (_ && _)%bool; [intros E; injection E as <-; auto|].
    destruct (String.eqb (bound s) "live"); [intros E; injection E as <-; auto|].
    destruct (String.eqb (bound s) "live-multi"); [intros E; injection E as <-; auto|].
    destruct (String.eqb (sample_name s) "acceptance-walk"); [discriminate|]. destruct (proposals s) as [l|].
    - destruct (is_in "diff" l); [discriminate|]. intros E; injection E as <-; auto.
    - intros E; injection E as <-; auto. }
  assert (LB : live_bound s = true <-> bound s = "live" \/ bound s = "live-multi").
  { unfold live_bound. rewrite is_in_spec. cbn. split; [intros [E|[E|[]]]; auto|intros [E|E]; auto]. }
  unfold set_sampling_method. destruct (set_bound s) as [s1|[]] eqn:B.
  - destruct (SB s1 eq_refl) as (Q1 & Q2 & Q3 & Q4).
    assert (NB : ~ (live_bound s = false /\ (sample_name s = "acceptance-walk" \/ exists l, proposals s = Some l /\ In "diff" l))).
    { intros [L C]. unfold set_bound in B. fold (live_bound s) in B. rewrite L, andb_false_r in B.
      destruct (String.eqb_spec (bound s) "live") as [E|_]; [assert (live_bound s = true) by (apply LB; auto); congruence|].
      destruct (String.eqb_spec (bound s) "live-multi") as [E|_]; [assert (live_bound s = true) by (apply LB; auto); congruence|].
      destruct C as [C|(l & C & D)].
      - rewrite C in B. discriminate.
      - destruct (String.eqb (sample_name s) "acceptance-walk"); [discriminate|]. rewrite C in B. apply is_in_spec in D. rewrite D in B. discriminate. }
    unfold set_sample. rewrite Q1. destruct (String.eqb_spec (sample_name s) "rwalk") as [E|N].
    + rewrite Q2, Q3, Q4. destruct (Z.ltb_spec (maxmcmc s) (walks s)); [split; [intros _; right; auto|reflexivity]|].
      destruct (Z.ltb_spec (nact s) 1); [split; [intros _; right; auto|reflexivity]|].
      split; [discriminate|]. intros [C|[_ C]]; [contradiction|lia].
    + assert (NN : ~ (sample_name s = "rwalk" /\ (maxmcmc s < walks s \/ nact s < 1)%Z)) by tauto.
      destruct (String.eqb (sample_name s) "acceptance-walk"); [split; [discriminate|tauto]|].
      destruct (String.eqb (sample_name s) "act-walk"); [split; [discriminate|tauto]|].
      destruct (String.eqb (sample_name s) "rwalk_dynesty"); [split; [discriminate|tauto]|]. split; [discriminate|tauto].
  - split; [intros _|reflexivity]. left. unfold set_bound in B. fold (live_bound s) in B.
    destruct (negb (is_in (sample_name s) own_walks) && live_bound s)%bool; [discriminate|].
    destruct (String.eqb_spec (bound s) "live") as [E|N1]; [discriminate|].
    destruct (String.eqb_spec (bound s) "live-multi") as [E|N2]; [discriminate|].
    split; [destruct (live_bound s); [exfalso; tauto|reflexivity]|].
    destruct (String.eqb_spec (sample_name s) "acceptance-walk") as [E|N]; [auto|].
    destruct (proposals s) as [l|] eqn:P; [|discriminate]. destruct (is_in "diff" l) eqn:D; [|discriminate].
    right. exists l. split; [reflexivity|apply is_in_spec; exact D].
Qed.
(** rwalk_dynesty becomes the name rwalk with an ordinary bound, and is dynesty's own walk unless
    this process has used the bilby walk of that name before *)
Theorem C159_rwalk_dynesty reg s s' reg' : sample_name s = "rwalk_dynesty" -> set_sampling_method reg s = inl (s', reg') ->
  sample_name s' = "rwalk" /\ live_bound s' = false /\ reg' = reg.
Proof.
  intros E H. unfold set_sampling_method in H. destruct (set_bound s) as [s1|e] eqn:B; [|discriminate].
  assert (Q : sample_name s1 = "rwalk_dynesty" /\ live_bound s1 = false).
  { unfold set_bound in B. rewrite E in B. replace (is_in "rwalk_dynesty" own_walks) with false in B by reflexivity. cbn [negb andb] in B.
    fold (live_bound s) in B. destruct (live_bound s) eqn:L.
    - injection B as <-. auto.
    - replace (String.eqb "rwalk_dynesty" "acceptance-walk") with false in B by reflexivity.
      destruct (String.eqb (bound s) "live"); [injection B as <-; auto|]. destruct (String.eqb (bound s) "live-multi"); [injection B as <-; auto|].
      destruct (proposals s) as [l|]; [destruct (is_in "diff" l); [discriminate|]|]; injection B as <-; auto. }
  destruct Q as [Q1 Q2]. unfold set_sample in H. rewrite Q1 in H.
  replace (String.eqb "rwalk_dynesty" "rwalk") with false in H by reflexivity.
  replace (String.eqb "rwalk_dynesty" "acceptance-walk") with false in H by reflexivity.
  replace (String.eqb "rwalk_dynesty" "act-walk") with false in H by reflexivity.
  replace (String.eqb "rwalk_dynesty" "rwalk_dynesty") with true in H by reflexivity.
  injection H as <- <-. split; [reflexivity|]. split; [exact Q2|reflexivity].
Qed.
(** after a run with sample="rwalk" in the same process, sample="rwalk_dynesty" with the default
    arguments is the bilby walk without the live points it needs *)
Theorem C159_rwalk_dynesty_refuted : exists s1 s2 r1 r2 s2', set_sampling_method [] s1 = inl (s1, r1) /\ set_sampling_method r1 s2 = inl (s2', r2) /\
  sample_name s2 = "rwalk_dynesty" /\ In (sample_name s2') r2 /\ walk_proposals (proposals s2') (live_bound s2') = None.
Proof.
  exists (mkSet "rwalk" "live" None 2 5000 100), (mkSet "rwalk_dynesty" "live" None 2 5000 100). eexists _, _, _.
  split; [reflexivity|]. split; [reflexivity|]. split; [reflexivity|]. split; [left; reflexivity|reflexivity].
Qed.
(** over any sequence of set-ups in one process, refused ones included, a name is overwritten in dynesty's
    registry exactly if it was before or one of the set-ups that went through asked for that walk of this package *)
Definition session (reg : list string) (l : list setup) : list string :=
  fold_left (fun reg s => match set_sampling_method reg s with inl (_, reg') => reg' | inr _ => reg end) l reg.
Theorem C159_registry l : forall reg n, In n (session reg l) <->
  In n reg \/ exists s, In s l /\ sample_name s = n /\ In n own_walks /\ exists s' r', set_sampling_method [] s = inl (s', r').
Proof.
  assert (SB : forall s s1, set_bound s = inl s1 -> sample_name s1 = sample_name s).
  { intros s s1. unfold set_bound. destruct (_ && _)%bool; [intros E; injection E as <-; reflexivity|].
    destruct (String.eqb (bound s) "live"); [intros E; injection E as <-; reflexivity|].
    destruct (String.eqb (bound s) "live-multi"); [intros E; injection E as <-; reflexivity|].
    destruct (String.eqb (sample_name s) "acceptance-walk"); [discriminate|]. destruct (proposals s) as [p|].
    - destruct (is_in "diff" p); [discriminate|]. intros E; injection E as <-; reflexivity.
    - intros E; injection E as <-; reflexivity. }
  assert (One : forall reg s n, In n (match set_sampling_method reg s with inl (_, reg') => reg' | inr _ => reg end) <->
    In n reg \/ (sample_name s = n /\ In n own_walks /\ exists s' r', set_sampling_method [] s = inl (s', r'))).
  { intros reg s n. unfold set_sampling_method. destruct (set_bound s) as [s1|e] eqn:B.
    2:{ split; [auto|]. intros [H|(_ & _ & s' & r' & E)]; [exact H|discriminate E]. }
    assert (Q := SB s s1 B). unfold set_sample. rewrite Q.
    destruct (String.eqb_spec (sample_name s) "rwalk") as [E1|N1].
    { destruct (Z.ltb (maxmcmc s1) (walks s1)); [split; [auto|intros [H|(_ & _ & s' & r' & E)]; [exact H|discriminate E]]|].
      destruct (Z.ltb (nact s1) 1); [split; [auto|intros [H|(_ & _ & s' & r' & E)]; [exact H|discriminate E]]|].
      rewrite E1. cbn [In]. split.
      - intros [H|H]; [right|left; exact H]. split; [exact H|]. split; [left; exact H|]. eauto.
      - intros [H|(H & _)]; auto. }
    destruct (String.eqb_spec (sample_name s) "acceptance-walk") as [E2|N2].
    { rewrite E2. cbn [In]. split.
      - intros [H|H]; [right|left; exact H]. split; [exact H|]. split; [right; right; left; exact H|]. eauto.
      - intros [H|(H & _)]; auto. }
    destruct (String.eqb_spec (sample_name s) "act-walk") as [E3|N3].
    { rewrite E3. cbn [In]. split.
      - intros [H|H]; [right|left; exact H]. split; [exact H|]. split; [right; left; exact H|]. eauto.
      - intros [H|(H & _)]; auto. }
    assert (No : ~ (sample_name s = n /\ In n own_walks)).
    { intros [<- [H|[H|[H|[]]]]]; congruence. }
    destruct (String.eqb (sample_name s) "rwalk_dynesty"); split; auto; intros [H|(H1 & H2 & _)]; auto; exfalso; apply No; auto. }
  induction l as [|s l IH]; intros reg n; cbn [session fold_left].
  - split; [auto|]. intros [H|(s & [] & _)]. exact H.
  - fold (session (match set_sampling_method reg s with inl (_, reg') => reg' | inr _ => reg end) l). rewrite IH, One. split.
    + intros [[H|H]|(t & Ht & H)]; [left; exact H|right; exists s; split; [left; reflexivity|exact H]|right; exists t; split; [right; exact Ht|exact H]].
    + intros [H|(t & [<-|Ht] & H)]; [left; left; exact H|left; right; exact H|right; exists t; auto].
Qed.
Example C159_ex : boundaries "periodic" [Some "periodic"; None; Some "reflective"; Some "periodic"] = Some [0; 3] /\
  boundaries "reflective" [Some "periodic"; None; Some "reflective"; Some "periodic"] = Some [2] /\ boundaries "reflective" [None] = None /\
  set_sampling_method [] (mkSet "unif" "live" None 2 5000 100) = inl (mkSet "unif" "multi" None 2 5000 100, []) /\
  set_sampling_method [] (mkSet "act-walk" "multi" None 2 5000 100) = inl (mkSet "act-walk" "multi" (Some ["volumetric"]) 2 5000 100, ["act-walk"]) /\
  set_sampling_method [] (mkSet "slice" "multi" (Some ["diff"]) 2 5000 100) = inr DynestySetupError.
Proof. vm_compute. auto 10. Qed.

(** ** C160: posterior samples *)
Open Scope R_scope.
Lemma rsum_nonneg l : (forall x, In x l -> 0 <= x) -> 0 <= rsum l.
Proof. induction l as [|x t IH]; intros H; cbn; [lra|]. assert (0 <= x) by (apply H; left; reflexivity). assert (0 <= rsum t) by (apply IH; intros; apply H; right; assumption). unfold rsum in *; lra. Qed.
Lemma rsum_scale c l : rsum (map (fun x => c * x) l) = c * rsum l.
Proof. induction l as [|x t IH]; cbn; [ring|]. unfold rsum in IH. rewrite IH. ring. Qed.
Lemma exp_sum_pos l : l <> [] -> 0 < rsum (map exp l).
Proof.
  destruct l as [|x t]; [congruence|]. intros _. cbn. assert (0 <= rsum (map exp t)).
  { apply rsum_nonneg. intros y H. apply in_map_iff in H. destruct H as (z & <- & _). left. apply exp_pos. }
  unfold rsum in H. pose proof (exp_pos x). lra.
Qed.
(** the weights of the nested samples add up to one when the last logz is the sum of the weights *)
Theorem C160_weights logwts : logwts <> [] -> rsum (weights logwts (logsumexp logwts)) = 1.
Proof.
  intros N. unfold weights, logsumexp. assert (P := exp_sum_pos _ N). set (Z := rsum (map exp logwts)) in *.
  assert (E : map (fun l => exp (l - ln Z)) logwts = map (fun x => / Z * x) (map exp logwts)).
  { rewrite map_map. apply map_ext. intros l. unfold Rminus. rewrite exp_plus, exp_Ropp, exp_ln by exact P. ring. }
  rewrite E, rsum_scale. fold Z. field. lra.
Qed.
Lemma fold_max_ge t x : x <= fold_left Rmax t x /\ forall y, In y t -> y <= fold_left Rmax t x.
Proof.
  revert x. induction t as [|z t IH]; intros x; cbn; [split; [lra|tauto]|]. destruct (IH (Rmax x z)) as [A B].
  split; [eapply Rle_trans; [apply Rmax_l|exact A]|]. intros y [<-|H]; [eapply Rle_trans; [apply Rmax_r|exact A]|exact (B y H)].
Qed.
Lemma fold_max_in t x : fold_left Rmax t x = x \/ In (fold_left Rmax t x) t.
Proof.
  revert x. induction t as [|z t IH]; intros x; cbn; [auto|]. destruct (IH (Rmax x z)) as [E|H]; [|auto].
  rewrite E. unfold Rmax. destruct (Rle_dec x z); auto.
Qed.
Lemma rmax_spec l : l <> [] -> In (rmax l) l /\ forall y, In y l -> y <= rmax l.
Proof.
  destruct l as [|x t]; [congruence|]. intros _. unfold rmax. destruct (fold_max_ge t x) as [A B]. split.
  - destruct (fold_max_in t x) as [E|H]; [left; auto|right; exact H].
  - intros y [<-|H]; [exact A|exact (B y H)].
Qed.
Lemma mask_nth w u i : nth_error (keep_mask w u) i = match nth_error w i, nth_error u i with Some a, Some b => Some (if Rlt_dec b a then true else false) | _, _ => None end.
Proof.
  revert u i. induction w as [|a w IH]; intros u i; cbn [keep_mask].
  - destruct i; reflexivity.
  - destruct u as [|b u]; [destruct i; cbn; [reflexivity|destruct (nth_error w i); reflexivity]|]. destruct i; [reflexivity|]. cbn. apply IH.
Qed.
Lemma masked_combine {A B} m (a : list A) (b : list B) : length a = length b -> combine (masked m a) (masked m b) = masked m (combine a b).
Proof.
  revert a b. induction m as [|x m IH]; intros a b L; [destruct (combine a b); reflexivity|].
  destruct a as [|p a], b as [|q b]; try discriminate; [destruct x; reflexivity|]. injection L as L. destruct x; cbn; [f_equal|]; apply IH; exact L.
Qed.
Lemma masked_in {A} m (l : list A) x : In x (masked m l) <-> exists i, nth_error m i = Some true /\ nth_error l i = Some x.
Proof.
  revert l. induction m as [|b m IH]; intros l.
  - split; [intros []|]. intros (i & H & _). destruct i; discriminate.
  - destruct l as [|y l]; [split; [destruct b; intros []|intros (i & _ & H); destruct i; discriminate]|].
    destruct b; cbn [masked]; [cbn [In]|]; rewrite IH; split.
    + intros [<-|(i & H1 & H2)]; [exists 0%nat; auto|exists (S i); auto].
    + intros ([|i] & H1 & H2); [left; cbn in H2; congruence|right; exists i; auto].
    + intros (i & H1 & H2). exists (S i). auto.
    + intros ([|i] & H1 & H2); [discriminate|exists i; auto].
Qed.
(** the log likelihoods stay with their samples; a sample is kept exactly when its draw is below
    its weight, so with probability weight / largest weight; the best sample is always kept and a
    weight of zero never *)
Theorem C160_rejection {A} (samples : list A) (logl w u : list R) : length samples = length logl -> length w = length logl -> length u = length w ->
  (forall x, In x u -> 0 <= x < rmax w) ->
  combine (masked (keep_mask w u) samples) (masked (keep_mask w u) logl) = masked (keep_mask w u) (combine samples logl) /\
  (forall s l, In (s, l) (masked (keep_mask w u) (combine samples logl)) <->
     exists i a b, nth_error samples i = Some s /\ nth_error logl i = Some l /\ nth_error w i = Some a /\ nth_error u i = Some b /\ b < a) /\
  (forall i s l, nth_error samples i = Some s -> nth_error logl i = Some l -> nth_error w i = Some (rmax w) -> In (s, l) (masked (keep_mask w u) (combine samples logl))) /\
  (forall i, nth_error w i = Some 0 -> nth_error (keep_mask w u) i = Some false).
Proof.
  intros L1 L2 L3 U. split; [apply masked_combine; exact L1|].
  assert (K : forall s l, In (s, l) (masked (keep_mask w u) (combine samples logl)) <->
     exists i a b, nth_error samples i = Some s /\ nth_error logl i = Some l /\ nth_error w i = Some a /\ nth_error u i = Some b /\ b < a).
  { intros s l. rewrite masked_in. assert (C : forall i, nth_error (combine samples logl) i = Some (s, l) <-> nth_error samples i = Some s /\ nth_error logl i = Some l).
    { clear -L1. revert logl L1. induction samples as [|a sa IH]; intros [|b lo] L i; try discriminate; [destruct i; split; [discriminate|intros [H _]; discriminate|discriminate|intros [H _]; discriminate]|].
      injection L as L. destruct i as [|i]; cbn; [split; [intros E; injection E as -> ->; auto|intros [E1 E2]; congruence]|apply IH; exact L]. }
    split.
    - intros (i & M & Q). apply C in Q. rewrite mask_nth in M. destruct (nth_error w i) as [a|] eqn:Ea; [|discriminate]. destruct (nth_error u i) as [b|] eqn:Eb; [|discriminate].
      destruct (Rlt_dec b a); [|discriminate]. exists i, a, b. tauto.
    - intros (i & a & b & Q1 & Q2 & Qa & Qb & H). exists i. split; [|apply C; auto]. rewrite mask_nth, Qa, Qb. destruct (Rlt_dec b a); [reflexivity|contradiction]. }
  split; [exact K|]. split.
  - intros i s l Q1 Q2 Qw. apply K. assert (I : (i < length u)%nat) by (rewrite L3; apply nth_error_Some; congruence).
    apply nth_error_Some in I. destruct (nth_error u i) as [b|] eqn:Eb; [|congruence]. exists i, (rmax w), b. repeat split; try assumption.
    apply U. eapply nth_error_In. exact Eb.
  - intros i Qw. rewrite mask_nth, Qw. assert (I : (i < length u)%nat) by (rewrite L3; apply nth_error_Some; congruence).
    apply nth_error_Some in I. destruct (nth_error u i) as [b|] eqn:Eb; [|congruence]. apply nth_error_In in Eb. apply U in Eb.
    destruct (Rlt_dec b 0); [lra|reflexivity].
Qed.
(** so the posterior is not empty *)
Theorem C160_nonempty {A} (samples : list A) w u : w <> [] -> length samples = length w -> length u = length w ->
  (forall x, In x u -> 0 <= x < rmax w) -> masked (keep_mask w u) samples <> [].
Proof.
  intros N L1 L3 U. destruct (rmax_spec w N) as [I _]. apply In_nth_error in I. destruct I as [i Qw].
  assert (Is : (i < length samples)%nat) by (rewrite L1; apply nth_error_Some; congruence). apply nth_error_Some in Is.
  destruct (nth_error samples i) as [s|] eqn:Es; [|congruence].
  assert (Iu : (i < length u)%nat) by (rewrite L3; apply nth_error_Some; congruence). apply nth_error_Some in Iu.
  destruct (nth_error u i) as [b|] eqn:Eb; [|congruence].
  assert (H : In s (masked (keep_mask w u) samples)).
  { apply masked_in. exists i. split; [|exact Es]. rewrite mask_nth, Qw, Eb. apply nth_error_In in Eb. apply U in Eb. destruct (Rlt_dec b (rmax w)); [reflexivity|lra]. }
  intros E. rewrite E in H. destruct H.
Qed.
(** Kish's effective number *)
Lemma neff_value l : l <> [] -> exp (logneff l) = (rsum (map exp l))² / rsum (map (fun x => x²) (map exp l)).
Proof.
  intros N. unfold logneff, logsumexp. assert (P := exp_sum_pos _ N).
  assert (N2 : map (fun x => x * 2) l <> []) by (destruct l; [congruence|discriminate]).
  assert (P2 := exp_sum_pos _ N2).
  assert (E : map exp (map (fun x => x * 2) l) = map (fun x => x²) (map exp l)).
  { rewrite !map_map. apply map_ext. intros x. unfold Rsqr. rewrite <- exp_plus. f_equal. ring. }
  rewrite E in *. unfold Rminus. rewrite exp_plus, exp_Ropp, exp_ln by exact P2.
  replace (ln (rsum (map exp l)) * 2) with (ln (rsum (map exp l)) + ln (rsum (map exp l))) by ring.
  rewrite exp_plus, exp_ln by exact P. reflexivity.
Qed.
Lemma cauchy w : (rsum w)² <= INR (length w) * rsum (map (fun x => x²) w).
Proof.
  assert (G : forall a w, rsum (map (fun x => (x - a)²) w) = rsum (map (fun x => x²) w) - 2 * a * rsum w + INR (length w) * a²).
  { intros a. induction w0 as [|x t IH]; [cbn; unfold Rsqr; ring|]. cbn [map rsum fold_right length]. rewrite S_INR.
    unfold rsum in IH. rewrite IH. unfold Rsqr. ring. }
  destruct w as [|y t]; [cbn; unfold Rsqr; lra|]. set (w := y :: t). assert (Pn : 0 < INR (length w)) by (apply lt_0_INR; cbn; lia).
  specialize (G (rsum w / INR (length w)) w).
  assert (0 <= rsum (map (fun x => (x - rsum w / INR (length w))²) w)).
  { apply rsum_nonneg. intros z H. apply in_map_iff in H. destruct H as (v & <- & _). apply Rle_0_sqr. }
  rewrite G in H. clear G. set (n := INR (length w)) in *. set (S1 := rsum w) in *. set (S2 := rsum (map (fun x => x²) w)) in *.
  assert (E : n * (S2 - 2 * (S1 / n) * S1 + n * (S1 / n)²) = n * S2 - S1²) by (unfold Rsqr; field; lra).
  assert (0 <= n * S2 - S1²) by (rewrite <- E; apply Rmult_le_pos; lra). lra.
Qed.
Lemma squares_le w : (forall x, In x w -> 0 <= x) -> rsum (map (fun x => x²) w) <= (rsum w)².
Proof.
  induction w as [|x t IH]; intros H; [cbn; unfold Rsqr; lra|]. cbn [map rsum fold_right].
  assert (0 <= x) by (apply H; left; reflexivity). assert (T : 0 <= rsum t) by (apply rsum_nonneg; intros; apply H; right; assumption).
  specialize (IH (fun z Hz => H z (or_intror Hz))). unfold rsum in *. unfold Rsqr in *. nra.
Qed.
(** between one and the number of nested samples; not changed by a common factor of the weights;
    equal weights give the number of samples *)
Theorem C160_neff l : l <> [] -> 1 <= exp (logneff l) <= INR (length l) /\ (1 <= neffsamples l <= Z.of_nat (length l))%Z.
Proof.
  intros N. assert (P := exp_sum_pos _ N). set (w := map exp l) in *.
  assert (Pos : forall x, In x w -> 0 <= x) by (intros x H; apply in_map_iff in H; destruct H as (z & <- & _); left; apply exp_pos).
  assert (S2 : 0 < rsum (map (fun x => x²) w)).
  { assert (A := cauchy w). assert (0 < (rsum w)²) by (apply Rsqr_pos_lt; lra).
    assert (0 <= rsum (map (fun x => x²) w)) by (apply rsum_nonneg; intros z Hz; apply in_map_iff in Hz; destruct Hz as (v & <- & _); apply Rle_0_sqr).
    destruct H0 as [H0|H0]; [exact H0|]. rewrite <- H0 in A. lra. }
  assert (B : 1 <= exp (logneff l) <= INR (length l)).
  { rewrite neff_value by exact N. fold w. split.
    - apply Rmult_le_reg_r with (rsum (map (fun x => x²) w)); [exact S2|]. unfold Rdiv. rewrite Rmult_assoc, Rinv_l, Rmult_1_l, Rmult_1_r by lra. apply squares_le. exact Pos.
    - apply Rmult_le_reg_r with (rsum (map (fun x => x²) w)); [exact S2|]. unfold Rdiv. rewrite Rmult_assoc, Rinv_l, Rmult_1_r by lra.
      assert (A := cauchy w). unfold w in A at 2. rewrite map_length in A. exact A. }
  split; [exact B|]. unfold neffsamples. destruct (zfloor_bounds (exp (logneff l))) as [F1 F2]. destruct B as [B1 B2]. rewrite INR_IZR_INZ in B2.
  split; [|apply le_IZR; lra]. assert (H : (0 < zfloor (exp (logneff l)))%Z) by (apply lt_IZR; lra). lia.
Qed.
Theorem C160_neff_shift l c : l <> [] -> logneff (map (fun x => x + c) l) = logneff l.
Proof.
  intros N. apply exp_inv. rewrite (neff_value l N), neff_value by (destruct l; [congruence|discriminate]). rewrite !map_map.
  assert (E1 : map (fun x => exp (x + c)) l = map (fun x => exp c * x) (map exp l)) by (rewrite map_map; apply map_ext; intros x; rewrite exp_plus; ring).
  assert (E2 : map (fun x => (exp (x + c))²) l = map (fun x => (exp c)² * x) (map (fun x => (exp x)²) l)) by (rewrite map_map; apply map_ext; intros x; rewrite exp_plus; unfold Rsqr; ring).
  rewrite E1, E2, !rsum_scale. assert (P := exp_pos c). assert (Q : 0 < rsum (map (fun x => (exp x)²) l)).
  { destruct l as [|x t]; [congruence|]. cbn. assert (0 <= rsum (map (fun x => (exp x)²) t)) by (apply rsum_nonneg; intros z Hz; apply in_map_iff in Hz; destruct Hz as (v & <- & _); apply Rle_0_sqr).
    assert (0 < (exp x)²) by (apply Rsqr_pos_lt; pose proof (exp_pos x); lra). unfold rsum in H. lra. }
  set (S2 := rsum (map (fun x => (exp x)²) l)) in *. set (S1 := rsum (map exp l)). unfold Rsqr. field. lra.
Qed.
Lemma map_rep {A B} (f : A -> B) x n : map f (repeat x n) = repeat (f x) n.
Proof. induction n as [|n IH]; [reflexivity|]. cbn. f_equal. exact IH. Qed.
Theorem C160_neff_equal n x : (0 < n)%nat -> exp (logneff (repeat x n)) = INR n.
Proof.
  intros H. rewrite neff_value by (destruct n; [lia|discriminate]). rewrite !map_rep.
  assert (G : forall y m, rsum (repeat y m) = INR m * y).
  { intros y. induction m as [|m IH]; [cbn; ring|]. rewrite S_INR. cbn [repeat rsum fold_right]. unfold rsum in IH. rewrite IH. ring. }
  rewrite !G. assert (P := exp_pos x). assert (0 < INR n) by (apply lt_0_INR; exact H). unfold Rsqr. field. lra.
Qed.
Example C160_ex : masked (keep_mask [1/8; 1/2; 3/8] [1/4; 1/4; 1/4]) [10%nat; 20%nat; 30%nat] = [20%nat; 30%nat] /\ rmax [1/8; 1/2; 3/8] = 1/2 /\
  exp (logneff [0; 0; 0; 0]) = 4.
Proof.
  split; [|split].
  - cbn [keep_mask]. repeat (match goal with |- context [Rlt_dec ?a ?b] => destruct (Rlt_dec a b); try lra end). reflexivity.
  - unfold rmax. cbn [fold_left]. rewrite (Rmax_right (1/8)), Rmax_left by lra. reflexivity.
  - assert (E := C160_neff_equal 4 0 ltac:(lia)). cbn [repeat] in E. rewrite E. cbn. lra.
Qed.

(** ** C161: walk proposals *)
Lemma vadd_length a b : length a = length b -> length (vadd a b) = length a.
Proof. revert b. induction a as [|x a IH]; intros [|y b] L; try discriminate; [reflexivity|]. cbn. f_equal. apply IH. injection L as L. exact L. Qed.
Lemma vadd_nth a b i : (i < length a)%nat -> length a = length b -> nth i (vadd a b) 0 = nth i a 0 + nth i b 0.
Proof.
  revert b i. induction a as [|x a IH]; intros [|y b] i H L; try discriminate; [cbn in H; lia|]. destruct i; [reflexivity|]. cbn.
  apply IH; [cbn in H; lia|]. injection L as L. exact L.
Qed.
Lemma vscale_nth c a i : nth i (vscale c a) 0 = c * nth i a 0.
Proof. unfold vscale. rewrite <- (Rmult_0_r c) at 1. exact (map_nth (fun x => c * x) a 0 i). Qed.
Lemma vsub_length a b : length a = length b -> length (vsub a b) = length a.
Proof. intros L. unfold vsub. apply vadd_length. unfold vscale. rewrite map_length. exact L. Qed.
Lemma nth_firstn (l : list R) n i : (i < n)%nat -> nth i (firstn n l) 0 = nth i l 0.
Proof. revert l i. induction n as [|n IH]; intros l i H; [lia|]. destruct l; [reflexivity|]. destruct i; [reflexivity|]. cbn. apply IH. lia. Qed.
Section Diff.
Variables (k n : nat) (u a b fresh : list R).
Hypothesis Kn : (k <= n)%nat.
Hypothesis Lu : length u = n.
Hypothesis La : (k <= length a)%nat.
Hypothesis Lb : (k <= length b)%nat.
Hypothesis Lf : length fresh = (n - k)%nat.
Lemma diff_step s i : (i < k)%nat -> nth i (propose_diff k u a b s fresh) 0 = nth i u 0 + s * (nth i b 0 - nth i a 0).
Proof using Kn Lu La Lb Lf.
  intros H. unfold propose_diff.
  assert (F1 : length (firstn k u) = k) by (rewrite firstn_length; lia). assert (F2 : length (firstn k a) = k) by (rewrite firstn_length; lia).
  assert (F3 : length (firstn k b) = k) by (rewrite firstn_length; lia).
  assert (V : length (vscale s (vsub (firstn k b) (firstn k a))) = k) by (unfold vscale; rewrite map_length, vsub_length; lia).
  rewrite app_nth1 by (rewrite vadd_length; lia). rewrite vadd_nth by lia. rewrite vscale_nth. unfold vsub.
  rewrite vadd_nth by (unfold vscale; rewrite ?map_length; lia). rewrite vscale_nth, !nth_firstn by lia. ring.
Qed.
(** length kept; the first n_cluster coordinates move along the difference of the two live points,
    the others are the fresh uniform draws *)
Theorem C161_diff s : length (propose_diff k u a b s fresh) = n /\
  (forall i, (i < k)%nat -> nth i (propose_diff k u a b s fresh) 0 = nth i u 0 + s * (nth i b 0 - nth i a 0)) /\
  (forall i, (k <= i < n)%nat -> nth i (propose_diff k u a b s fresh) 0 = nth (i - k) fresh 0).
Proof using Kn Lu La Lb Lf.
  assert (F1 : length (firstn k u) = k) by (rewrite firstn_length; lia). assert (F2 : length (firstn k a) = k) by (rewrite firstn_length; lia).
  assert (F3 : length (firstn k b) = k) by (rewrite firstn_length; lia).
  assert (V : length (vadd (firstn k u) (vscale s (vsub (firstn k b) (firstn k a)))) = k) by (rewrite vadd_length; [lia|unfold vscale; rewrite map_length, vsub_length; lia]).
  split; [unfold propose_diff; rewrite app_length, V, Lf; lia|]. split; [intros i; apply diff_step|].
  intros i H. unfold propose_diff. rewrite app_nth2 by lia. rewrite V. reflexivity.
Qed.
(** the move is reversible: from the proposed point the same pair in the other order leads back,
    and the pair in either order is equally likely *)
Theorem C161_diff_reversible s fresh' i : (i < k)%nat ->
  nth i (propose_diff k (propose_diff k u a b s fresh) b a s fresh') 0 = nth i u 0.
Proof using Kn Lu La Lb Lf.
  intros H. destruct (C161_diff s) as (L & A & _). unfold propose_diff at 1.
  set (v := propose_diff k u a b s fresh) in *.
  assert (F1 : length (firstn k v) = k) by (rewrite firstn_length; lia). assert (F2 : length (firstn k a) = k) by (rewrite firstn_length; lia).
  assert (F3 : length (firstn k b) = k) by (rewrite firstn_length; lia).
  assert (V : length (vscale s (vsub (firstn k a) (firstn k b))) = k) by (unfold vscale; rewrite map_length, vsub_length; lia).
  rewrite app_nth1 by (rewrite vadd_length; lia). rewrite vadd_nth by lia. rewrite vscale_nth. unfold vsub.
  rewrite vadd_nth by (unfold vscale; rewrite ?map_length; lia). rewrite vscale_nth, !nth_firstn by lia. rewrite A by exact H. ring.
Qed.
(** linear relations between the coordinates of the live points and the current point are kept *)
Theorem C161_diff_linear c d s : length c = k -> k = n ->
  dot c u = d -> dot c (firstn k a) = d -> dot c (firstn k b) = d -> dot c (propose_diff k u a b s fresh) = d.
Proof using Kn Lu La Lb Lf.
  intros Lc E Du Da Db. unfold propose_diff. replace fresh with (@nil R) by (symmetry; apply length_zero_iff_nil; lia). rewrite app_nil_r.
  assert (G : forall c x y, length x = length y -> length c = length x -> dot c (vadd x y) = dot c x + dot c y).
  { induction c0 as [|p c0 IH]; intros [|q x] [|r y] L1 L2; try discriminate; [unfold dot; cbn; ring|]. injection L1 as L1. injection L2 as L2.
    specialize (IH x y L1 L2). unfold dot in *. cbn in *. unfold rsum in *. rewrite IH. ring. }
  assert (G2 : forall c x t, dot c (vscale t x) = t * dot c x).
  { induction c0 as [|p c0 IH]; intros [|q x] t; try (unfold dot; cbn; ring). specialize (IH x t). unfold dot, vscale in *. cbn in * . unfold rsum in *. rewrite IH. ring. }
  assert (F1 : firstn k u = u) by (apply firstn_all2; lia). rewrite F1.
  assert (F2 : length (firstn k a) = k) by (rewrite firstn_length; lia). assert (F3 : length (firstn k b) = k) by (rewrite firstn_length; lia).
  rewrite G by (unfold vscale; rewrite ?map_length, ?vsub_length; lia). rewrite G2. unfold vsub. rewrite G by (unfold vscale; rewrite ?map_length; lia).
  rewrite G2, Du, Da, Db. ring.
Qed.
End Diff.
(** the default scale is 2.38 over the root of twice the number of clustered coordinates, times the draw; a given
    scale is linear in both *)
Theorem C161_scale k gamma s : (0 < k)%nat -> 0 <= gamma ->
  diff_scale k None true gamma * diff_scale k None true gamma * (2 * INR k) = (238 / 100 * gamma) ^ 2 /\ 0 <= diff_scale k None true gamma /\
  diff_scale k (Some s) true gamma = s * gamma /\ diff_scale k (Some s) false gamma = 1.
Proof.
  intros H G. unfold diff_scale. assert (P : 0 < 2 * INR k) by (assert (0 < INR k) by (apply lt_0_INR; exact H); lra).
  assert (Q := sqrt_lt_R0 _ P). assert (E := sqrt_sqrt (2 * INR k) ltac:(lra)). split; [|split; [|split; reflexivity]].
  - rewrite <- E at 3. field. lra.
  - apply Rmult_le_pos; [|exact G]. left. apply Rdiv_lt_0_compat; lra.
Qed.
Lemma row_eqb_spec a b : row_eqb a b = true <-> a = b.
Proof. unfold row_eqb. destruct (list_eq_dec Req_EM_T a b); split; congruence. Qed.
Lemma unique_in l x : In x (unique l) <-> In x l.
Proof.
  induction l as [|y t IH]; [reflexivity|]. cbn [unique]. destruct (existsb (row_eqb y) t) eqn:E.
  - rewrite IH. cbn. split; [auto|]. intros [<-|H]; [|exact H]. apply existsb_exists in E. destruct E as (z & H & Q). apply row_eqb_spec in Q. subst. exact H.
  - cbn. rewrite IH. reflexivity.
Qed.
(** the rows the pair is chosen from: the live points, each row once, the current point included *)
Theorem C161_live_rows current live : NoDup (live_for_walk current live) /\ (forall x, In x (live_for_walk current live) <-> In x live) /\
  (forall x, In x (deleted current (live_for_walk current live)) <-> In x live /\ x <> current).
Proof.
  unfold live_for_walk, deleted. split; [|split].
  - induction live as [|y t IH]; [constructor|]. cbn [unique]. destruct (existsb (row_eqb y) t) eqn:E; [exact IH|]. constructor; [|exact IH].
    rewrite unique_in. intros H. assert (existsb (row_eqb y) t = true) by (apply existsb_exists; exists y; split; [exact H|apply row_eqb_spec; reflexivity]). congruence.
  - intros x. apply unique_in.
  - intros x. rewrite filter_In, unique_in. split.
    + intros [H Q]. split; [exact H|]. intros ->. rewrite (proj2 (row_eqb_spec current current) eq_refl) in Q. discriminate.
    + intros [H N]. split; [exact H|]. destruct (row_eqb current x) eqn:Q; [|reflexivity]. apply row_eqb_spec in Q. congruence.
Qed.
(** because the current point stays among them, a mode-hopping step can land exactly on another
    live point: from a live point [u], every other live point is such a proposal *)
Theorem C161_duplicates_live u v live : In u live -> In v live -> u <> v -> length u = length v ->
  exists a b, In a (live_for_walk u live) /\ In b (live_for_walk u live) /\ a <> b /\
  forall follow_scale gamma, propose_diff (length u) u a b (diff_scale (length u) follow_scale false gamma) [] = v.
Proof.
  intros Hu Hv N L. exists u, v. unfold live_for_walk. rewrite !unique_in. repeat split; try assumption. intros fs g.
  cbn [diff_scale]. unfold propose_diff. rewrite app_nil_r, firstn_all. rewrite L, firstn_all. unfold vsub.
  clear Hu Hv N. revert v L. induction u as [|x u IH]; intros [|y v] E; try discriminate; [reflexivity|]. cbn. injection E as E.
  f_equal; [ring|]. apply IH. exact E.
Qed.
Theorem C161_current_point_removed_refuted : exists u live, In u live /\ In u (live_for_walk u live) /\ ~ In u (deleted u live).
Proof.
  exists [1/2], [[1/2]; [1/4]]. split; [left; reflexivity|]. split; [apply unique_in; left; reflexivity|].
  intros H. unfold deleted in H. apply filter_In in H. destruct H as [_ H]. rewrite (proj2 (row_eqb_spec _ _) eq_refl) in H. discriminate.
Qed.
(** volumetric: the point drawn lies in the unit ball, so with unit axes (bound "live") the move is
    no longer than the scale *)
Lemma rsum_squares_nonneg v : 0 <= rsum (map (fun x => x * x) v).
Proof. apply rsum_nonneg. intros z H. apply in_map_iff in H. destruct H as (x & <- & _). apply Rle_0_sqr. Qed.
Lemma norm_scale c v : norm (vscale c v) = Rabs c * norm v.
Proof.
  unfold norm, vscale. rewrite map_map. assert (E : map (fun x => c * x * (c * x)) v = map (fun x => c² * x) (map (fun x => x * x) v)).
  { rewrite map_map. apply map_ext. intros x. unfold Rsqr. ring. }
  rewrite E, rsum_scale, sqrt_mult by (try apply Rle_0_sqr; apply rsum_squares_nonneg). rewrite sqrt_Rsqr_abs. reflexivity.
Qed.
Theorem C161_ball k g x : (0 < k)%nat -> 0 < norm g -> 0 < x <= 1 -> 
  norm (ball_point k g x) = Rpower x (1 / INR k) /\ 0 < norm (ball_point k g x) <= 1.
Proof.
  intros Hk Hg Hx. assert (Pk : 0 < INR k) by (apply lt_0_INR; exact Hk).
  assert (E : norm (ball_point k g x) = Rpower x (1 / INR k)).
  { unfold ball_point. rewrite !norm_scale. rewrite (Rabs_right (Rpower x (1 / INR k))) by (left; apply exp_pos).
    rewrite (Rabs_right (/ norm g)) by (left; apply Rinv_0_lt_compat; exact Hg). field. lra. }
  split; [exact E|]. rewrite E. split; [apply exp_pos|]. unfold Rpower.
  assert (Hl : ln x <= 0). { destruct (proj2 Hx) as [H| ->]; [|rewrite ln_1; lra]. left. rewrite <- ln_1. apply ln_increasing; lra. }
  assert (Hd : 0 < 1 / INR k) by (apply Rdiv_lt_0_compat; lra).
  assert (H : 1 / INR k * ln x <= 0) by nra.
  destruct H as [H|H]; [left; apply exp_increasing in H; rewrite exp_0 in H; exact H|rewrite H, exp_0; lra].
Qed.
(** the unit axes *)
Fixpoint unit_row (n i : nat) : list R := match n with O => [] | S n => match i with O => 1 :: repeat 0 n | S i => 0 :: unit_row n i end end.
Definition identity (n : nat) : list (list R) := map (unit_row n) (seq 0 n).
Lemma dot_zero n v : dot (repeat 0 n) v = 0.
Proof. unfold dot. revert v. induction n as [|n IH]; intros [|x v]; try reflexivity. cbn. unfold rsum in IH. rewrite IH. ring. Qed.
Lemma dot_unit n i v : length v = n -> (i < n)%nat -> dot (unit_row n i) v = nth i v 0.
Proof.
  revert i v. induction n as [|n IH]; intros i v L H; [lia|]. destruct v as [|x v]; [discriminate|]. injection L as L.
  destruct i as [|i]; cbn [unit_row].
  - change (dot (1 :: repeat 0 n) (x :: v)) with (1 * x + dot (repeat 0 n) v). rewrite dot_zero. cbn. ring.
  - change (dot (0 :: unit_row n i) (x :: v)) with (0 * x + dot (unit_row n i) v). rewrite IH by lia. cbn. ring.
Qed.
Lemma matvec_identity n v : length v = n -> matvec (identity n) v = v.
Proof.
  intros L. unfold matvec, identity. rewrite map_map. apply (nth_ext _ _ 0 0); [rewrite map_length, seq_length; auto|].
  intros i H. rewrite map_length, seq_length in H. rewrite (nth_indep _ 0 (dot (unit_row n 0) v)) by (rewrite map_length, seq_length; exact H).
  rewrite (map_nth (fun x => dot (unit_row n x) v) (seq 0 n) 0%nat). rewrite seq_nth by exact H. apply dot_unit; assumption.
Qed.
Theorem C161_volumetric k u g x scale fresh : (0 < k)%nat -> length u = (k + length fresh)%nat -> length g = k -> 0 < norm g -> 0 < x <= 1 -> 0 <= scale ->
  let v := propose_volumetric k u (identity k) scale g x fresh in
  length v = length u /\ skipn k v = fresh /\ norm (vsub (firstn k v) (firstn k u)) = scale * Rpower x (1 / INR k) /\
  norm (vsub (firstn k v) (firstn k u)) <= scale.
Proof.
  intros Hk Lu Lg Hg Hx Hs. cbv zeta. destruct (C161_ball k g x Hk Hg Hx) as [E B]. rewrite E in B.
  assert (Lb : length (ball_point k g x) = k) by (unfold ball_point, vscale; rewrite !map_length; exact Lg).
  unfold propose_volumetric. rewrite (matvec_identity k _ Lb).
  set (v := vadd (firstn k u) (vscale scale (ball_point k g x)) ++ fresh).
  assert (F : length (firstn k u) = k) by (rewrite firstn_length; lia).
  assert (V : length (vadd (firstn k u) (vscale scale (ball_point k g x))) = k) by (rewrite vadd_length; [lia|unfold vscale; rewrite map_length; lia]).
  assert (Fv : firstn k v = vadd (firstn k u) (vscale scale (ball_point k g x))).
  { unfold v. rewrite firstn_app, V, Nat.sub_diag. cbn [firstn]. rewrite app_nil_r. apply firstn_all2. lia. }
  assert (Sv : skipn k v = fresh). { unfold v. rewrite skipn_app, V, Nat.sub_diag. cbn [skipn]. rewrite skipn_all2 by lia. reflexivity. }
  assert (D : vsub (firstn k v) (firstn k u) = vscale scale (ball_point k g x)).
  { rewrite Fv. assert (Lx : length (firstn k u) = length (vscale scale (ball_point k g x))) by (unfold vscale; rewrite map_length; lia).
    revert Lx. generalize (firstn k u) (vscale scale (ball_point k g x)). clear. induction l as [|p l IH]; intros [|q m] L; try discriminate; [reflexivity|].
    injection L as L. specialize (IH m L). unfold vsub in *. cbn. f_equal; [ring|exact IH]. }
  rewrite D, norm_scale, E, Rabs_right by lra. split; [unfold v; rewrite app_length, V; lia|]. split; [exact Sv|]. split; [reflexivity|]. nra.
Qed.
(** the probabilities of a dictionary of proposals *)
Theorem C161_normalised w : (forall x, In x w -> 0 <= x) -> 0 < rsum w -> rsum (normalised w) = 1 /\
  (forall x, In x (normalised w) -> 0 <= x <= 1) /\ forall i j, nth i (normalised w) 0 * nth j w 0 = nth j (normalised w) 0 * nth i w 0.
Proof.
  intros N P. unfold normalised. assert (Q : 0 < / rsum w) by (apply Rinv_0_lt_compat; exact P). split; [|split].
  - assert (E : map (fun x => x / rsum w) w = map (fun x => / rsum w * x) w) by (apply map_ext; intros; unfold Rdiv; ring).
    rewrite E, rsum_scale. field. lra.
  - intros y H. apply in_map_iff in H. destruct H as (x & <- & I). split; [unfold Rdiv; apply Rmult_le_pos; [apply N; exact I|lra]|].
    assert (G : forall l z, (forall t, In t l -> 0 <= t) -> In z l -> z <= rsum l).
    { induction l as [|a l IH]; intros z Pl H; [destruct H|]; destruct H as [<-|H]; cbn; assert (0 <= a) by (apply Pl; left; reflexivity);
        assert (0 <= rsum l) by (apply rsum_nonneg; intros; apply Pl; right; assumption); unfold rsum in *; [lra|].
      specialize (IH z (fun t Ht => Pl t (or_intror Ht)) H). lra. }
    apply Rmult_le_reg_r with (rsum w); [exact P|]. unfold Rdiv. rewrite Rmult_assoc, Rinv_l, Rmult_1_l, Rmult_1_r by lra. apply G; assumption.
  - intros i j. assert (G : forall i, nth i (map (fun x => x / rsum w) w) 0 = nth i w 0 / rsum w).
    { intros m. replace 0 with (0 / rsum w) at 1 by (unfold Rdiv; ring). exact (map_nth (fun x => x / rsum w) w 0 m). }
    rewrite !G. unfold Rdiv. ring.
Qed.
Example C161_ex : propose_diff 2 [1/2; 1/2; 1/3] [1/4; 0; 9] [1/8; 1/4; 7] 2 [1/5] = [1/4; 1; 1/5].
Proof. unfold propose_diff. cbn. f_equal; [lra|]. f_equal. lra. Qed.

(** ** Assumptions of every theorem above *)
Definition Dynesty2_Props_all :=
  (@C159_boundaries,
   @C159_disjoint,
   @C159_live_available,
   @C159_refused,
   @C159_rwalk_dynesty,
   @C159_rwalk_dynesty_refuted,
   @C159_registry,
   @C160_weights,
   @C160_rejection,
   @C160_nonempty,
   @C160_neff,
   @C160_neff_shift,
   @C160_neff_equal,
   @C161_diff,
   @C161_diff_reversible,
   @C161_diff_linear,
   @C161_scale,
   @C161_live_rows,
   @C161_duplicates_live,
   @C161_current_point_removed_refuted,
   @C161_ball,
   @C161_volumetric,
   @C161_normalised).
Print Assumptions Dynesty2_Props_all.
