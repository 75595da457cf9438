(** Theorems about the proposal cycles of bilby_mcmc (C209) *)
From Coq Require Import String Ascii Bool List Reals ZArith Lia Lra.
From Verif Require Import PyReal PyDict Samples_Model Mband_Model Ensemble_Model Ensemble2_Props McProp_Model McProp_Props McCycle_Model.
Import ListNotations.
Open Scope list_scope.
Open Scope R_scope.

Definition free_of_no (s : string) : Prop := forall a b, s <> (a ++ ("no" ++ b))%string.
Definition join_no (base : string) (tags : list string) : string := fold_left (fun s t => (s ++ ("no" ++ t))%string) tags base.
Lemma app_nil_s s : (s ++ "")%string = s.
Proof. induction s as [|c t IH]; simpl; [reflexivity|]. rewrite IH. reflexivity. Qed.
Lemma app_assoc_s a b c : ((a ++ b) ++ c)%string = (a ++ (b ++ c))%string.
Proof. induction a as [|x t IH]; simpl; [reflexivity|]. rewrite IH. reflexivity. Qed.
Lemma free_tail c t : free_of_no (String c t) -> free_of_no t.
Proof. intros H a b E. apply (H (String c a) b). simpl. rewrite E. reflexivity. Qed.
Lemma free_head c c' t : free_of_no (String c (String c' t)) -> (Ascii.eqb c "n" && Ascii.eqb c' "o")%char = false.
Proof.
  intros H. destruct (Ascii.eqb_spec c "n"%char) as [-> |]; [|reflexivity]. destruct (Ascii.eqb_spec c' "o"%char) as [-> |]; [|reflexivity].
  exfalso. apply (H ""%string t). reflexivity.
Qed.
Lemma split_end base : free_of_no base -> forall acc, split_no acc base = [(acc ++ base)%string].
Proof.
  induction base as [|c t IH]; intros H acc; [simpl; rewrite app_nil_s; reflexivity|].
  destruct t as [|c' t']; [reflexivity|]. pose proof (free_head _ _ _ H) as F. cbn [split_no]. rewrite F.
  change (split_no (acc ++ String c EmptyString) (String c' t') = [(acc ++ String c (String c' t'))%string]).
  rewrite IH by (apply (free_tail c), H). rewrite app_assoc_s. reflexivity.
Qed.
Lemma split_mid base rest : free_of_no base -> forall acc, split_no acc (base ++ ("no" ++ rest)) = (acc ++ base)%string :: split_no "" rest.
Proof.
  induction base as [|c t IH]; intros H acc.
  - change (split_no acc (String "n" (String "o" rest)) = (acc ++ "")%string :: split_no "" rest). rewrite app_nil_s. reflexivity.
  - destruct t as [|c' t'].
    + change (split_no acc (String c (String "n" (String "o" rest))) = (acc ++ String c "")%string :: split_no "" rest).
      assert (F : (Ascii.eqb c "n" && Ascii.eqb "n" "o")%char = false) by (destruct (Ascii.eqb c "n"); reflexivity).
      cbn [split_no]. rewrite F. change (Ascii.eqb "n" "n" && Ascii.eqb "o" "o")%char with true. reflexivity.
    + pose proof (free_head _ _ _ H) as F.
      change ((String c (String c' t') ++ ("no" ++ rest))%string) with (String c (String c' (t' ++ ("no" ++ rest)))%string).
      cbn [split_no]. rewrite F.
      change (split_no (acc ++ String c EmptyString) (String c' t' ++ ("no" ++ rest)) = (acc ++ String c (String c' t'))%string :: split_no "" rest).
      rewrite IH by (apply (free_tail c), H). rewrite app_assoc_s. reflexivity.
Qed.
Lemma join_app tags : forall a b, join_no (a ++ b)%string tags = (a ++ join_no b tags)%string.
Proof. induction tags as [|t tags IH]; intros a b; [reflexivity|]. unfold join_no in *. simpl. rewrite <- IH. rewrite app_assoc_s. reflexivity. Qed.
Lemma split_join base tags : free_of_no base -> (forall t, In t tags -> free_of_no t) -> split_no "" (join_no base tags) = base :: tags.
Proof.
  revert base. induction tags as [|t tags IH]; intros base HB HT; [unfold join_no; simpl; rewrite split_end by exact HB; reflexivity|].
  unfold join_no. simpl fold_left. change (split_no "" (join_no (base ++ ("no" ++ t)) tags) = base :: t :: tags).
  rewrite (join_app tags base), (join_app tags "no"). rewrite split_mid by exact HB. simpl. f_equal. apply IH; [apply HT; left; reflexivity|]. intros; apply HT; right; assumption.
Qed.
Lemma kind_eqb_eq a b : kind_eqb a b = true <-> a = b.
Proof. destruct a, b; simpl; split; intros H; try discriminate H; reflexivity. Qed.
Lemma tag_free t c : dget mapping t = Some c -> free_of_no t.
Proof.
  intros H a b E. apply dget_some_in in H.
  assert (K : In t ["DE"; "AG"; "ST"; "FG"; "NF"; "KD"; "GM"; "PR"; "UN"; "FM"]%string).
  { change (In t (map fst mapping)). change t with (fst (t, c)). apply in_map, H. }
  clear H. subst t. destruct a as [|a1 [|a2 a]]; simpl in K; repeat (destruct K as [K | K]; [discriminate K|]); try contradiction K;
    repeat (destruct K as [K | K]; [injection K as K; try discriminate K|]); try contradiction K;
    destruct a; discriminate.
Qed.

(** ** C209 Writing "no" and the two letters of a class removes exactly the proposals of that class, and "noAG" the Fisher matrix proposals as well; the others stay in their order. *)
Definition hit (tags : list string) (k : kind) : Prop :=
  exists t c, In t tags /\ dget mapping t = Some c /\ (k = c \/ (c = AG /\ k = FM)).
Lemma isinstance_iff k c : isinstance k c = true <-> k = c \/ (c = AG /\ k = FM).
Proof. unfold isinstance. rewrite orb_true_iff, andb_true_iff, !kind_eqb_eq. tauto. Qed.
Theorem C209_remove base tags l : free_of_no base -> (forall t, In t tags -> exists c, dget mapping t = Some c) ->
  (forall p, In p (remove_proposals_using_string l (join_no base tags)) <-> In p l /\ ~ hit tags (pkind p)) /\
  exists f, remove_proposals_using_string l (join_no base tags) = filter f l.
Proof.
  intros HB HT. unfold remove_proposals_using_string. rewrite split_join; [|exact HB|intros t I; destruct (HT t I) as [c C]; apply (tag_free t c C)].
  cbn [tl]. clear HB base. revert l. induction tags as [|t tags IH]; intros l.
  - simpl. split; [|exists (fun _ => true); induction l as [|x l' IHl]; simpl; congruence].
    intros p. split; [|tauto]. intros I. split; [exact I|]. intros (t & c & [] & _).
  - cbn [fold_left]. destruct (HT t) as [c C]; [left; reflexivity|]. unfold remove_one at 2 4. rewrite C.
    destruct (IH (fun t' I => HT t' (or_intror I)) (filter (fun p => negb (isinstance (pkind p) c)) l)) as [H1 [g Hg]]. split.
    + intros p. rewrite H1, filter_In, negb_true_iff, <- not_true_iff_false, isinstance_iff. unfold hit. split.
      * intros [[I N] K]. split; [exact I|]. intros (t' & c' & [<- | I'] & C' & E); [assert (c' = c) by congruence; subst; auto|]. apply K. exists t', c'. auto.
      * intros [I K]. split; [split; [exact I|]|].
        -- intros E. apply K. exists t, c. split; [left; reflexivity | auto].
        -- intros (t' & c' & I' & C' & E). apply K. exists t', c'. split; [right; exact I' | auto].
    + exists (fun p => negb (isinstance (pkind p) c) && g p). rewrite Hg. clear. induction l as [|x l IHl]; simpl; [reflexivity|].
      destruct (negb (isinstance (pkind x) c)); simpl; [destruct (g x); rewrite IHl; reflexivity | exact IHl].
Qed.
(** any other text after "no" is passed over: separators between the names switch the removal off *)
Theorem C209_separator_refuted : exists ps l p,
  get_proposals "default_noDE_noGM" false false true ps = Some l /\ In p l /\ pkind p = DE.
Proof.
  exists [("x", mkPrior false false NoBoundary 0 1 (Some 1))]%string. eexists. eexists (mkProp DE big ["x"%string]).
  split; [reflexivity|]. split; [right; left; reflexivity | reflexivity].
Qed.
Example C209_remove_example : let p k := mkProp k 1 [] in
  remove_proposals_using_string [p DE; p AG; p FM; p KD] (join_no "default" ["AG"; "KD"])%string = [p DE] /\ join_no "default" ["AG"; "KD"]%string = "defaultnoAGnoKD"%string.
Proof. split; reflexivity. Qed.

(** ** C209 In the default cycle every proposal moves all sampled parameters; it cannot be built exactly if there are none. *)
Lemma build_all_in ps rs l : build_all ps rs = Some l -> forall p, In p l <-> exists r, In r rs /\ build ps r = Some p.
Proof.
  revert l. induction rs as [|r t IH]; simpl; intros l H p; [injection H as <-; split; [contradiction | intros (r & [] & _)]|].
  destruct (build ps r) as [q|] eqn:B; [|discriminate]. destruct (build_all ps t) as [l'|] eqn:E; [|discriminate]. injection H as <-.
  simpl. rewrite (IH l' eq_refl p). split.
  - intros [<- | (r' & I & B')]; [exists r; auto | exists r'; auto].
  - intros (r' & [<- | I] & B'); [left; congruence | right; exists r'; auto].
Qed.
Lemma build_all_some ps rs : (exists l, build_all ps rs = Some l) <-> forall r, In r rs -> build ps r <> None.
Proof.
  induction rs as [|r t IH]; simpl; [split; [intros _ r [] | eauto]|]. split.
  - intros [l H]. destruct (build ps r) eqn:B; [|discriminate]. destruct (build_all ps t) eqn:E; [|discriminate].
    intros r' [<- | I]; [congruence|]. apply (proj1 IH); eauto.
  - intros H. destruct (build ps r) as [q|] eqn:B; [|exfalso; apply (H r); auto]. destruct (proj2 IH) as [l ->]; eauto.
Qed.
Lemma build_none ps k w sub : wf ps -> (build ps (k, w, sub) <> None <-> exists x, wanted ps sub x).
Proof.
  intros W. destruct (C206_parameters ps sub W) as [H1 H2]. unfold build. destruct (parameters ps sub) as [l|] eqn:P.
  - split; [|discriminate]. intros _. destruct (H1 l eq_refl) as (_ & N & M). destruct l as [|x l]; [congruence|]. exists x. apply M. left. reflexivity.
  - split; [congruence|]. intros [x Hx]. exfalso. apply (proj1 H2 eq_refl x Hx).
Qed.
Lemma sub_filter l s p : In p (remove_proposals_using_string l s) -> In p l.
Proof.
  unfold remove_proposals_using_string. revert l. generalize (tl (split_no "" s)) as es. induction es as [|e es IH]; simpl; intros l H; [exact H|].
  apply IH in H. unfold remove_one in H. destruct (dget mapping e); [apply filter_In in H; tauto | exact H].
Qed.
Theorem C209_default s cbc tidal gmm ps : wf ps -> contains "gwA" s = false ->
  (get_proposals s cbc tidal gmm ps <> None <-> exists k, sampled ps k) /\
  (forall l p k, get_proposals s cbc tidal gmm ps = Some l -> In p l -> (In k (pmoved p) <-> sampled ps k)).
Proof.
  intros W G. unfold get_proposals. rewrite G. split.
  - assert (E : (exists l, build_all ps (default_requests gmm) = Some l) <-> exists k, sampled ps k).
    { rewrite build_all_some. split.
      - intros H. assert (B : build ps (AG, big, None) <> None) by (apply H; left; reflexivity). apply (build_none ps _ _ _ W) in B.
        destruct B as [x [Hx _]]. exists x. exact Hx.
      - intros [k K] r I. assert (exists kd w, r = (kd, w, None)) as (kd & w & ->).
        { unfold default_requests in I. destruct gmm; simpl in I; repeat (destruct I as [<- | I]; [eauto|]); contradiction. }
        apply (build_none ps _ _ _ W). exists k. split; [exact K | exact Logic.I]. }
    rewrite <- E. destruct (build_all ps (default_requests gmm)) as [l|]; split; intros H; try discriminate; [eauto|congruence|destruct H; discriminate].
  - intros l p k H I. destruct (build_all ps (default_requests gmm)) as [l0|] eqn:B; [|discriminate]. injection H as <-.
    apply sub_filter in I. apply (build_all_in ps _ _ B) in I. destruct I as (r & Ir & Br).
    assert (exists kd w, r = (kd, w, None)) as (kd & w & ->).
    { unfold default_requests in Ir. destruct gmm; simpl in Ir; repeat (destruct Ir as [<- | Ir]; [eauto|]); contradiction. }
    destruct (C206_parameters ps None W) as [H1 _]. unfold build in Br. destruct (parameters ps None) as [lk|]; [|discriminate]. injection Br as <-.
    simpl. destruct (H1 lk eq_refl) as (_ & _ & M). rewrite M. unfold wanted. tauto.
Qed.

(** ** C209 The gwA cycle can be built exactly if the priors answer the questions, sklearn is present, some parameter without "recalib" in its name is sampled, and three further groups, where they are asked for, have a sampled parameter. *)
Lemma meets_iff ps set : wf ps -> (meets ps set = true <-> exists k, sampled ps k /\ In k set).
Proof.
  intros W. unfold meets. rewrite existsb_exists. split; intros (k & H1 & H2); exists k; rewrite non_fixed_in in * by exact W; rewrite mem_in in *; auto.
Qed.
Lemma when_in b l (r : request) : In r (when b l) <-> b = true /\ In r l.
Proof. unfold when. destruct b; split; intros H; try tauto; try (destruct H; discriminate).  Qed.
Lemma sampled_key ps k : sampled ps k -> In k (dkeys ps).
Proof. intros (p & D & _). apply dget_some_in in D. change k with (fst (k, p)). apply in_map, D. Qed.
Theorem C209_gwA s cbc tidal gmm ps : wf ps -> contains "gwA" s = true ->
  (get_proposals s cbc tidal gmm ps <> None <->
   cbc = true /\ gmm = true /\
   (exists k, sampled ps k /\ contains "recalib" k = false) /\
   ((exists k, sampled ps k /\ In k mass_set) -> (exists k, sampled ps k /\ In k spin_set) -> exists k, sampled ps k /\ In k primary_spin_and_q) /\
   (In "chi_1_in_plane"%string (dkeys ps) -> In "chi_2_in_plane"%string (dkeys ps) ->
      exists k, sampled ps k /\ In k ["chi_1_in_plane"; "chi_2_in_plane"; "phi_12"]%string) /\
   ((exists k, In k (dkeys ps) /\ contains "recalib_" k = true) -> exists k, sampled ps k /\ contains "recalib_" k = true)).
Proof.
  intros W G. unfold get_proposals. rewrite G.
  assert (E : (match (if cbc && gmm then build_all ps (gwA_requests tidal ps) else None) with Some l => Some (remove_proposals_using_string l s) | None => None end <> None)
    <-> cbc = true /\ gmm = true /\ forall r, In r (gwA_requests tidal ps) -> build ps r <> None).
  { rewrite <- build_all_some. destruct cbc, gmm; cbn [andb]; try (split; [congruence | intros (? & ? & _); discriminate]).
    destruct (build_all ps (gwA_requests tidal ps)) as [l|].
    - split; intros H; [split; [reflexivity | split; [reflexivity | eauto]] | discriminate].
    - split; intros H; [congruence | destruct H as (_ & _ & [l L]); discriminate]. }
  rewrite E. clear E.
  assert (RQ : (forall r, In r (gwA_requests tidal ps) -> build ps r <> None) <->
    (exists k, sampled ps k /\ contains "recalib" k = false) /\
    ((exists k, sampled ps k /\ In k mass_set) -> (exists k, sampled ps k /\ In k spin_set) -> exists k, sampled ps k /\ In k primary_spin_and_q) /\
    (In "chi_1_in_plane"%string (dkeys ps) -> In "chi_2_in_plane"%string (dkeys ps) ->
      exists k, sampled ps k /\ In k ["chi_1_in_plane"; "chi_2_in_plane"; "phi_12"]%string) /\
    ((exists k, In k (dkeys ps) /\ contains "recalib_" k = true) -> exists k, sampled ps k /\ contains "recalib_" k = true)).
  { split.
    - intros H. split; [|split; [|split]].
      + assert (B : build ps (AG, small, Some (all_but_cal ps)) <> None) by (apply H; left; reflexivity).
        apply (build_none ps _ _ _ W) in B. destruct B as [x [Hx Ix]]. exists x. split; [exact Hx|]. unfold all_but_cal in Ix. apply filter_In in Ix. destruct Ix as [_ Ix]. apply negb_true_iff, Ix.
      + intros HM HS. assert (B : build ps (DE, small, Some primary_spin_and_q) <> None).
        { apply H. unfold gwA_requests. rewrite !in_app_iff, !when_in. rewrite andb_true_iff, !meets_iff by exact W. simpl. tauto. }
        apply (build_none ps _ _ _ W) in B. exact B.
      + intros H1 H2. assert (B : build ps (UN, tiny, Some ["chi_1_in_plane"; "chi_2_in_plane"; "phi_12"]%string) <> None).
        { apply H. unfold gwA_requests. rewrite !in_app_iff, !when_in. rewrite (andb_true_iff (dmem ps _) (dmem ps _)), !dmem_in. simpl. tauto. }
        apply (build_none ps _ _ _ W) in B. exact B.
      + intros HC. assert (B : build ps (PR, small, Some (calibration ps)) <> None).
        { apply H. unfold gwA_requests. rewrite !in_app_iff, !when_in. rewrite existsb_exists. simpl. tauto. }
        apply (build_none ps _ _ _ W) in B. destruct B as [x [Hx Ix]]. exists x. split; [exact Hx|]. unfold calibration in Ix. apply filter_In in Ix. tauto.
    - intros (H1 & H2 & H3 & H4) r I.
      assert (A : exists x, wanted ps (Some (all_but_cal ps)) x).
      { destruct H1 as (k & K & C). exists k. split; [exact K|]. unfold all_but_cal. apply filter_In. rewrite C. split; [apply sampled_key, K | reflexivity]. }
      assert (A0 : exists x, wanted ps None x). { destruct A as [x [Hx _]]. exists x. split; [exact Hx | exact Logic.I]. }
      assert (Q : forall k w sub, (exists x, wanted ps sub x) -> build ps (k, w, sub) <> None) by (intros; apply (build_none ps _ _ _ W); assumption).
      assert (MQ : forall set, meets ps set = true -> exists x, wanted ps (Some set) x) by (intros set M; apply meets_iff in M; [exact M | exact W]).
      unfold gwA_requests in I. rewrite !in_app_iff, !when_in in I.
      repeat match type of I with
      | In _ _ \/ _ => destruct I as [I | I]
      | _ \/ _ => destruct I as [I | I]
      end;
      try (destruct I as [C I]).
      + simpl in I. destruct I as [<- | [<- | []]]; apply Q, A.
      + apply MQ in C. simpl in I. repeat (destruct I as [<- | I]; [apply Q, C|]). contradiction.
      + apply MQ in C. simpl in I. repeat (destruct I as [<- | I]; [apply Q, C|]). contradiction.
      + apply MQ in C. simpl in I. repeat (destruct I as [<- | I]; [apply Q, C|]). contradiction.
      + apply MQ in C. simpl in I. repeat (destruct I as [<- | I]; [apply Q, C|]). contradiction.
      + apply MQ in C. simpl in I. repeat (destruct I as [<- | I]; [apply Q, C|]). contradiction.
      + apply andb_true_iff in C. destruct C as [C1 C2]. apply MQ in C1, C2. simpl in I. destruct I as [<- | []]. apply Q, H2; assumption.
      + apply andb_true_iff in C. destruct C as [_ C]. apply MQ in C. simpl in I. repeat (destruct I as [<- | I]; [apply Q, C|]). contradiction.
      + simpl in I. repeat (destruct I as [<- | I]; [apply Q, A0|]). contradiction.
      + simpl in I. repeat (destruct I as [<- | I]; [apply Q, A0|]). contradiction.
      + apply MQ in C. simpl in I. repeat (destruct I as [<- | I]; [apply Q, C|]). contradiction.
      + apply in_map_iff in I. destruct I as (k & <- & I). apply filter_In in I. destruct I as [_ I]. apply mem_in in I. apply Q. exists k.
        split; [apply non_fixed_in; assumption | left; reflexivity].
      + apply andb_true_iff in C. destruct C as [C1 C2]. apply dmem_in in C1, C2. simpl in I. destruct I as [<- | []]. apply Q, H3; assumption.
      + simpl in I. destruct I as [<- | []]. apply Q. rewrite existsb_exists in C. destruct (H4 C) as (k & K & Ck). exists k. split; [exact K|].
        unfold calibration. apply filter_In. split; [apply sampled_key, K | exact Ck]. }
  tauto.
Qed.
(** masses and the second spin only: the questions are answered with yes, the group of the primary spin is empty *)
Theorem C209_gwA_refuted : exists ps, wf ps /\
  (forall k p, dget ps k = Some p -> sampled ps k) /\ get_proposals "gwA" true false true ps = None.
Proof.
  set (p := mkPrior false false NoBoundary 0 1 (Some 1)). exists [("mass_1", p); ("mass_2", p); ("a_2", p)]%string. split; [|split; [|reflexivity]].
  - repeat constructor; simpl; intuition discriminate.
  - intros k q H. exists q. split; [exact H|]. apply dget_some_in in H. simpl in H. destruct H as [H | [H | [H | []]]]; injection H as <- <-; split; reflexivity.
Qed.

(** ** C209 Without removals the gwA cycle reaches every sampled parameter: those without "recalib" by a Gaussian and a differential evolution proposal, those with "recalib_" by a prior proposal. *)
Theorem C209_gwA_reach cbc tidal gmm ps l k : wf ps -> get_proposals "gwA" cbc tidal gmm ps = Some l -> sampled ps k ->
  (contains "recalib" k = false -> exists p q, In p l /\ In q l /\ pkind p = AG /\ pkind q = DE /\ In k (pmoved p) /\ In k (pmoved q)) /\
  (contains "recalib_" k = true -> exists p, In p l /\ pkind p = PR /\ In k (pmoved p)).
Proof.
  intros W H K. unfold get_proposals in H. change (contains "gwA" "gwA") with true in H. cbv iota in H.
  destruct (cbc && gmm); [|discriminate]. destruct (build_all ps (gwA_requests tidal ps)) as [l0|] eqn:B; [|discriminate].
  change (remove_proposals_using_string l0 "gwA") with l0 in H. injection H as <-.
  assert (Q : forall kd w sub, In (kd, w, Some sub) (gwA_requests tidal ps) -> In k sub -> exists p, In p l0 /\ pkind p = kd /\ In k (pmoved p)).
  { intros kd w sub I Ik. assert (N : build ps (kd, w, Some sub) <> None) by (apply (proj1 (build_all_some ps _)) with (r := (kd, w, Some sub)) in B || (apply (build_all_some ps (gwA_requests tidal ps)); [eauto | exact I]); auto).
    destruct (build ps (kd, w, Some sub)) as [p|] eqn:E; [|congruence]. exists p. split; [apply (build_all_in ps _ _ B); eauto|].
    unfold build in E. destruct (C206_parameters ps (Some sub) W) as [H1 _]. destruct (parameters ps (Some sub)) as [lk|]; [|discriminate]. injection E as <-.
    split; [reflexivity|]. simpl. destruct (H1 lk eq_refl) as (_ & _ & M). apply M. split; assumption. }
  split.
  - intros C. assert (Ia : In k (all_but_cal ps)). { unfold all_but_cal. apply filter_In. rewrite C. split; [apply sampled_key, K | reflexivity]. }
    destruct (Q AG small (all_but_cal ps)) as (p & P1 & P2 & P3); [left; reflexivity | exact Ia|].
    destruct (Q DE small (all_but_cal ps)) as (q & Q1 & Q2 & Q3); [right; left; reflexivity | exact Ia|]. exists p, q. auto 10.
  - intros C. apply (Q PR small (calibration ps)).
    + unfold gwA_requests. rewrite !in_app_iff, !when_in. rewrite existsb_exists.
      assert (exists x, In x (dkeys ps) /\ contains "recalib_" x = true) by (exists k; split; [apply sampled_key, K | exact C]). simpl. tauto.
    + unfold calibration. apply filter_In. split; [apply sampled_key, K | exact C].
Qed.
(** with removals a parameter outside the named groups can be moved by no proposal at all *)
Theorem C209_reach_refuted : exists ps l, wf ps /\ sampled ps "eccentricity"%string /\
  get_proposals "gwAnoAGnoDE" true false true ps = Some l /\ l <> [] /\ forall p, In p l -> ~ In "eccentricity"%string (pmoved p).
Proof.
  set (p := mkPrior false false NoBoundary 0 1 (Some 1)). exists [("mass_1", p); ("eccentricity", p)]%string. eexists.
  split; [repeat constructor; simpl; intuition discriminate|]. split; [exists p; repeat split|]. split; [reflexivity|].
  split; [discriminate|]. intros q I. simpl in I. repeat (destruct I as [<- | I]; [simpl; intuition discriminate|]). contradiction.
Qed.

(** ** C209 The cycle has 10 floor(sum / smallest weight) entries, at least ten for each proposal; no proposals, no cycle. *)
Lemma rmin_mem l : l <> [] -> In (rmin_list l) l.
Proof.
  unfold rmin_list. destruct l as [|a t]; [congruence|]. intros _. cbn [hd]. assert (G : forall l, fold_right Rmin a l = a \/ In (fold_right Rmin a l) l).
  { induction l as [|b l IH]; simpl; [auto|]. apply Rmin_case; [auto|]. destruct IH; auto. }
  destruct (G (a :: t)) as [-> | H]; [left; reflexivity | exact H].
Qed.
Lemma rmin_lb l x : In x l -> rmin_list l <= x.
Proof.
  unfold rmin_list. generalize (hd 0 l) as a. intros a. induction l as [|b l IH]; simpl; [contradiction|].
  intros [-> | H]; [apply Rmin_l|]. apply Rle_trans with (fold_right Rmin a l); [apply Rmin_r | apply IH, H].
Qed.
Lemma rsum_pos ws : (forall w, In w ws -> 0 < w) -> ws <> [] -> 0 < rsum ws.
Proof.
  intros H N. destruct ws as [|a t]; [congruence|]. clear N. unfold rsum. simpl. assert (0 < a) by (apply H; left; reflexivity).
  assert (0 <= fold_right Rplus 0 t). { assert (forall x, In x t -> 0 < x) by (intros; apply H; right; assumption). clear - H1. induction t as [|b t IH]; simpl; [lra|].
    assert (0 < b) by (apply H1; left; reflexivity). assert (0 <= fold_right Rplus 0 t) by (apply IH; intros; apply H1; right; assumption). lra. }
  lra.
Qed.
Lemma rsum_lb ws m : (forall w, In w ws -> m <= w) -> m * INR (length ws) <= rsum ws.
Proof.
  unfold rsum. induction ws as [|a t IH]; intros H; [simpl; lra|]. change (length (a :: t)) with (S (length t)). rewrite S_INR. simpl.
  assert (m <= a) by (apply H; left; reflexivity). assert (m * INR (length t) <= fold_right Rplus 0 t) by (apply IH; intros; apply H; right; assumption). lra.
Qed.
Theorem C209_length ws : (forall w, In w ws -> 0 < w) ->
  (cycle_length ws = None <-> ws = []) /\
  (ws <> [] -> exists m n, In m ws /\ (forall w, In w ws -> m <= w) /\ cycle_length ws = Some (10 * n)%Z /\
     IZR n <= rsum ws / m < IZR n + 1 /\ (Z.of_nat (length ws) <= n)%Z).
Proof.
  intros P. split; [unfold cycle_length; destruct ws; split; intros H; try reflexivity; discriminate|]. intros N.
  pose proof (rsum_pos ws P N) as S. assert (Nn : normalized ws <> []) by (unfold normalized; destruct ws; [congruence | discriminate]).
  pose proof (rmin_mem _ Nn) as I. unfold normalized in I. apply in_map_iff in I. destruct I as (m & E & I).
  assert (Pm : 0 < m) by (apply P, I).
  assert (Lm : forall w, In w ws -> m <= w).
  { intros w Hw. assert (L : rmin_list (normalized ws) <= w / rsum ws) by (apply rmin_lb; unfold normalized; apply in_map_iff; exists w; auto).
    unfold normalized in L. rewrite <- E in L. unfold Rdiv in L. apply Rmult_le_reg_r in L; [exact L|]. apply Rinv_0_lt_compat, S. }
  assert (Q : 1 / rmin_list (normalized ws) = rsum ws / m) by (unfold normalized; rewrite <- E; field; lra).
  assert (Q0 : 0 <= rsum ws / m) by (apply Rmult_le_pos; [lra|]; left; apply Rinv_0_lt_compat, Pm).
  exists m, (zfloor (rsum ws / m)). split; [exact I|]. split; [exact Lm|]. split; [|split].
  - unfold cycle_length. destruct ws as [|a t]; [congruence|]. rewrite Q, trunc_nonneg by exact Q0. reflexivity.
  - apply zfloor_bounds.
  - pose proof (zfloor_bounds (rsum ws / m)) as [_ B]. pose proof (rsum_lb ws m Lm) as L.
    assert (L2 : INR (length ws) <= rsum ws / m). { apply Rmult_le_reg_r with m; [exact Pm|]. unfold Rdiv. rewrite Rmult_assoc, Rinv_l by lra. lra. }
    assert (IZR (Z.of_nat (length ws)) < IZR (zfloor (rsum ws / m) + 1)) by (rewrite plus_IZR, <- INR_IZR_INZ; lra). apply lt_IZR in H. lia.
Qed.
Theorem C209_empty_refuted : exists ps l, get_proposals "noDEnoAGnoUNnoKDnoGM" false false true ps = Some l /\ cycle_length (map pweight l) = None.
Proof. exists [("x", mkPrior false false NoBoundary 0 1 (Some 1))]%string, []. split; reflexivity. Qed.
Example C209_length_example : cycle_length [10; 10; 1 / 2; 10; 10; 10] = Some 1010%Z.
Proof.
  destruct (C209_length [10; 10; 1 / 2; 10; 10; 10]) as [_ H]; [intros w I; simpl in I; repeat (destruct I as [<- | I]; [lra|]); contradiction|].
  destruct H as (m & n & I & L & -> & B & _); [discriminate|]. assert (m = 1 / 2).
  { assert (m <= 1 / 2) by (apply L; simpl; auto). simpl in I. repeat (destruct I as [<- | I]; [lra|]). contradiction. }
  subst m. unfold rsum in B. simpl in B. replace ((10 + (10 + (1 / 2 + (10 + (10 + (10 + 0)))))) / (1 / 2)) with 101 in B by field.
  assert (n = 101)%Z. { assert (n <= 101)%Z by (apply le_IZR; lra). assert (101 < n + 1)%Z by (apply lt_IZR; rewrite plus_IZR; lra). lia. } subst. reflexivity.
Qed.

(** ** C209 The phase proposals move a sampled parameter, unless the phase is a fixed entry of the priors and delta_phase is sampled: then every use raises. *)
Theorem C209_phase ps s eps : wf ps -> (forall k, sampled ps k <-> dget s k <> None) -> meets ps phase_set = true ->
  (~ (In "phase"%string (dkeys ps) /\ ~ sampled ps "phase"%string) -> exists k s', In k phase_set /\ sampled ps k /\ phase_key ps = Some k /\ phase_propose ps eps s = Some s' /\ forall k', k' <> k -> dget s' k' = dget s k') /\
  (In "phase"%string (dkeys ps) /\ ~ sampled ps "phase"%string -> phase_propose ps eps s = None).
Proof.
  intros W S M. apply meets_iff in M; [|exact W]. destruct M as (k0 & K0 & I0). unfold phase_propose, phase_key. split.
  - intros N. assert (G : exists k, (if dmem ps "phase" then Some "phase"%string else if dmem ps "delta_phase" then Some "delta_phase"%string else None) = Some k /\ In k phase_set /\ sampled ps k).
    { destruct (dmem ps "phase") eqn:D.
      - exists "phase"%string. split; [reflexivity|]. split; [left; reflexivity|]. apply dmem_in in D. unfold sampled.
        destruct (dget ps "phase") as [p|] eqn:E; [|apply dget_none in E; contradiction]. exists p. split; [reflexivity|].
        destruct (is_fixed p) eqn:F1, (is_constraint p) eqn:F2; auto; exfalso; apply N; (split; [exact D|]); intros (q & Q & A & B); congruence.
      - destruct I0 as [<- | [<- | []]].
        + exfalso. apply sampled_key, dmem_in in K0. congruence.
        + pose proof (sampled_key _ _ K0) as Kk. apply dmem_in in Kk. rewrite Kk. exists "delta_phase"%string. split; [reflexivity|]. split; [right; left; reflexivity | exact K0]. }
    destruct G as (k & -> & Ik & Sk). pose proof (proj1 (S k) Sk) as D. destruct (dget s k) as [x|]; [|congruence].
    exists k. eexists. split; [exact Ik|]. split; [exact Sk|]. split; [reflexivity|]. split; [reflexivity|]. intros k' Nk. apply dget_set_ne, Nk.
  - intros [I N]. apply dmem_in in I. rewrite I. destruct (dget s "phase") eqn:D; [|reflexivity]. exfalso. apply N, S. congruence.
Qed.
Theorem C209_phase_refuted : exists ps l p s, wf ps /\ get_proposals "gwA" true false true ps = Some l /\ In p l /\ pkind p = PhaseReversal /\
  (forall k, sampled ps k <-> dget s k <> None) /\ forall eps, phase_propose ps eps s = None.
Proof.
  set (f := mkPrior true false NoBoundary 0 1 (Some 1)). set (p := mkPrior false false NoBoundary 0 1 (Some 1)).
  exists [("phase", f); ("delta_phase", p)]%string. eexists. exists (mkProp PhaseReversal tiny ["delta_phase"%string]), [("delta_phase", 0)]%string.
  split; [repeat constructor; simpl; intuition discriminate|]. split; [reflexivity|]. split; [simpl; tauto|]. split; [reflexivity|]. split; [|reflexivity].
  intros k. unfold sampled. simpl. destruct (String.eqb k "phase") eqn:E1.
  - apply String.eqb_eq in E1. subst. simpl. split; [intros (q & Q & A & _); injection Q as <-; discriminate A | congruence].
  - destruct (String.eqb k "delta_phase"); split; try congruence; [intros _; exists p; auto | intros (q & Q & _); discriminate].
Qed.

(** ** Assumptions of every theorem above *)
Definition McCycle_Props_all :=
  (@C209_remove,
   @C209_separator_refuted,
   @C209_default,
   @C209_gwA,
   @C209_gwA_refuted,
   @C209_gwA_reach,
   @C209_reach_refuted,
   @C209_length,
   @C209_empty_refuted,
   @C209_phase,
   @C209_phase_refuted).
Print Assumptions McCycle_Props_all.
