From Coq Require Import Reals String List Bool Arith Lia Permutation.
From Verif Require Import PyDict CondDict_Model CondDict_Proofs.
Import ListNotations.
Open Scope string_scope.
Open Scope list_scope.

Lemma keys_eqb_spec a b : keys_eqb a b = true <-> a = b.
Proof.
  revert b. induction a as [|x a IH]; intros [|y b]; simpl; split; intros H; try discriminate; try reflexivity.
  - apply andb_true_iff in H as [H1 H2]. apply String.eqb_eq in H1. apply IH in H2. congruence.
  - injection H as -> ->. rewrite String.eqb_refl. simpl. apply IH. reflexivity.
Qed.
Lemma index_spec l k i : index l k = Some i -> nth_error l i = Some k.
Proof.
  revert i. induction l as [|x l IH]; intros i; simpl; [discriminate|]. destruct (String.eqb_spec k x) as [->|N].
  - intros H. injection H as <-. reflexivity.
  - destruct (index l k) as [j|]; simpl; [|discriminate]. intros H. injection H as <-. simpl. apply IH. reflexivity.
Qed.
Lemma index_some l k : In k l -> exists i, index l k = Some i.
Proof.
  induction l as [|x l IH]; simpl; [tauto|]. intros H. destruct (String.eqb_spec k x) as [->|N]; [eauto|].
  destruct H as [H|H]; [congruence|]. destruct (IH H) as [i ->]. simpl. eauto.
Qed.
Lemma indexes_spec keys ks idx : indexes keys ks = Some idx ->
  length idx = length ks /\ forall j k i, nth_error ks j = Some k -> nth_error idx j = Some i -> nth_error keys i = Some k.
Proof.
  revert idx. induction ks as [|k ks IH]; intros idx; simpl.
  - intros H. injection H as <-. split; [reflexivity|]. intros [|j]; discriminate.
  - destruct (index keys k) as [i|] eqn:E; [|discriminate]. destruct (indexes keys ks) as [r|] eqn:E'; [|discriminate].
    intros H. injection H as <-. destruct (IH r eq_refl) as [L N]. split; [simpl; congruence|].
    intros [|j] k' i' Hk Hi; simpl in *; [|eauto]. injection Hk as <-. injection Hi as <-. apply index_spec, E.
Qed.
Lemma indexes_some keys ks : incl ks keys -> exists idx, indexes keys ks = Some idx.
Proof.
  induction ks as [|k ks IH]; intros H; simpl; [eauto|]. destruct (index_some keys k (H k (or_introl eq_refl))) as [i ->].
  destruct IH as [r ->]; [intros x Hx; apply H; right; exact Hx|]. eauto.
Qed.
Section P.
Context {V U : Type}.
Notation cprior := (cprior V U).
Notation cstate := (cstate V U).
Implicit Types (pd : dict cprior) (st : cstate).

Lemma without_fixed_spec pd ks r : without_fixed pd ks = Some r ->
  r = filter (fun k => match dget pd k with Some p => negb (c_fixed p) | None => false end) ks /\
  (forall k, In k ks -> exists p, dget pd k = Some p).
Proof.
  revert r. induction ks as [|k t IH]; intros r; simpl.
  - intros H. injection H as <-. split; [reflexivity|intros k []].
  - destruct (dget pd k) as [p|] eqn:E; [|discriminate]. destruct (without_fixed pd t) as [r'|]; [|discriminate].
    intros H. injection H as <-. destruct (IH r' eq_refl) as [-> D]. split; [destruct (c_fixed p); reflexivity|].
    intros k' [<-|Hk]; eauto.
Qed.
Lemma without_fixed_some pd ks : (forall k, In k ks -> In k (dkeys pd)) -> exists r, without_fixed pd ks = Some r.
Proof.
  induction ks as [|k t IH]; intros H; simpl; [eauto|].
  destruct (dget pd k) as [p|] eqn:E; [|apply dget_none in E; exfalso; apply E, H; left; reflexivity].
  destruct IH as [r ->]; [intros k' Hk; apply H; right; exact Hk|]. eauto.
Qed.

Lemma lookup_all_spec pd lrs rs vars : lookup_all pd lrs rs = Some vars ->
  map fst vars = rs /\ (forall r v, In (r, v) vars -> dget lrs r = Some v) /\ (forall r, In r rs -> In r (dkeys pd)).
Proof.
  revert vars. induction rs as [|r t IH]; intros vars; simpl.
  - intros H. injection H as <-. repeat split; intros r; intros; contradiction.
  - destruct (dget pd r) as [p|] eqn:E; [|discriminate]. destruct (dget lrs r) as [v|] eqn:E1; [|discriminate].
    destruct (lookup_all pd lrs t) as [l|]; [|discriminate]. intros H. injection H as <-.
    destruct (IH l eq_refl) as (M & D & K). repeat split.
    + simpl. congruence.
    + intros r' v' [H|H]; [injection H as <- <-; exact E1|auto].
    + intros r' [<-|H]; [|auto]. destruct (in_dec string_dec r (dkeys pd)); [assumption|]. apply dget_none in n. congruence.
Qed.
Lemma lookup_all_ext pd lrs lrs' rs : (forall r, In r rs -> dget lrs r = dget lrs' r) -> lookup_all pd lrs rs = lookup_all pd lrs' rs.
Proof.
  induction rs as [|r t IH]; intros H; simpl; [reflexivity|]. rewrite (H r (or_introl eq_refl)), IH by (intros r' H'; apply H; right; exact H').
  reflexivity.
Qed.
Lemma lookup_all_some pd lrs rs : (forall r, In r rs -> In r (dkeys pd) /\ exists v, dget lrs r = Some v) -> exists vars, lookup_all pd lrs rs = Some vars.
Proof.
  induction rs as [|r t IH]; intros H; simpl; [eauto|]. destruct (H r (or_introl eq_refl)) as [K [v ->]].
  destruct (dget pd r) eqn:E; [|apply dget_none in E; contradiction]. destruct IH as [l ->]; [intros r' H'; apply H; right; exact H'|]. eauto.
Qed.

(** no key of [ks] requires itself or a later one *)
Definition causal pd (ks : list string) : Prop :=
  forall a k b p r, ks = a ++ k :: b -> dget pd k = Some p -> In r (reqs p) -> ~ In r (k :: b).
Lemma causal_tail pd k ks : causal pd (k :: ks) -> causal pd ks.
Proof. intros H a k' b p r E. apply (H (k :: a) k' b p r). simpl. congruence. Qed.
Lemma loop_spec pd theta ks idx lrs res lrs' res' : NoDup ks -> causal pd ks -> length idx = length ks ->
  rescale_loop pd theta ks idx lrs res = (lrs', Some res') ->
  (forall k, ~ In k ks -> dget lrs' k = dget lrs k /\ dget res' k = dget res k) /\
  (forall j k i, nth_error ks j = Some k -> nth_error idx j = Some i -> exists p u vars, dget pd k = Some p /\ nth_error theta i = Some u /\
      lookup_all pd lrs' (reqs p) = Some vars /\ dget lrs' k = Some (c_q p vars u) /\ dget res' k = Some (c_q p vars u)).
Proof.
  revert idx lrs res. induction ks as [|k ks IH]; intros idx lrs res ND CA L; simpl.
  - intros H. injection H as <- <-. split; [auto|]. intros [|j]; discriminate.
  - destruct idx as [|i idx]; [discriminate|]. destruct (dget pd k) as [p|] eqn:E; [|discriminate].
    destruct (nth_error theta i) as [u|] eqn:EU; [|discriminate]. destruct (lookup_all pd lrs (reqs p)) as [vars|] eqn:EV; [|discriminate].
    intros H. inversion ND as [|? ? N ND']; subst. simpl in L.
    destruct (IH idx _ _ ND' (causal_tail _ _ _ CA) ltac:(lia) H) as [A B]. split.
    + intros k' Hk. assert (k' <> k /\ ~ In k' ks) as [N1 N2] by (split; intros C; apply Hk; [left; congruence|right; exact C]).
      destruct (A k' N2) as [A1 A2]. rewrite A1, A2, !dget_set_ne by congruence. auto.
    + intros [|j] k' i' Hk Hi; simpl in *; [|eapply B; eassumption]. injection Hk as <-. injection Hi as <-.
      exists p, u, vars. destruct (A k N) as [A1 A2]. rewrite A1, A2, !dget_set_eq. repeat split; auto.
      rewrite <- EV. apply lookup_all_ext. intros r Hr. pose proof (CA [] k ks p r eq_refl E Hr) as NR.
      destruct (A r) as [A3 _]; [intros C; apply NR; right; exact C|]. rewrite A3, dget_set_ne; [reflexivity|].
      intros ->. apply NR. left. reflexivity.
Qed.
Lemma collect_spec (res : dict V) keys out : collect res keys = Some out -> Forall2 (fun k v => dget res k = Some v) keys out.
Proof.
  revert out. induction keys as [|k t IH]; intros out; simpl; [intros H; injection H as <-; constructor|].
  destruct (dget res k) eqn:E; [|discriminate]. destruct (collect res t); [|discriminate]. intros H. injection H as <-. constructor; auto.
Qed.

(** the object invariant *)
Definition good st : Prop := wf (s_pd st) /\ resolve_conditions (s_pd st) = (s_unc st, s_cond st, s_resolved st).
Definition cache_ok st : Prop :=
  (s_rkeys st = [] /\ s_ridx st = []) \/
  exists ks, without_fixed (s_pd st) (sorted_keys st) = Some ks /\ indexes (s_rkeys st) ks = Some (s_ridx st).
Lemma good_sorted st : good st -> s_resolved st = true -> NoDup (sorted_keys st) /\ Permutation (dkeys (s_pd st)) (sorted_keys st) /\
  causal (s_pd st) (sorted_keys st).
Proof.
  intros [W R] K. destruct (resolve_spec _ _ _ _ R) as [rest RR]. pose proof RR as [EU P O S OK]. rewrite OK in K. subst rest.
  rewrite app_nil_r in P. pose proof (resolution_nodup _ _ _ _ _ W RR) as ND. unfold sorted_keys.
  split; [exact ND|]. split.
  - apply NoDup_Permutation; [exact W|exact ND|]. intros k. rewrite keys_partition, in_app_iff, EU.
    split; (intros [H|H]; [left; exact H|right]); [apply (Permutation_in _ P), H|apply (Permutation_in _ (Permutation_sym P)), H].
  - intros a k b p r E Ek Hr C. rewrite E in ND.
    assert (NR : In r a -> False).
    { intros Ha. apply in_split in C as (c1 & c2 & C). rewrite C in ND. apply in_split in Ha as (a1 & a2 & ->).
      rewrite <- app_assoc in ND. simpl in ND. apply NoDup_remove_2 in ND. apply ND. rewrite !in_app_iff. right. simpl. rewrite ?in_app_iff. clear. intuition. }
    apply NR. clear NR.
    destruct (Nat.lt_ge_cases (length a) (length (s_unc st))) as [Hl|Hl].
    + exfalso. assert (Hk : In k (s_unc st)).
      { assert (X : nth_error (s_unc st ++ s_cond st) (length a) = Some k).
        { rewrite E, nth_error_app2, Nat.sub_diag by lia. reflexivity. }
        rewrite nth_error_app1 in X by exact Hl. apply nth_error_In in X. exact X. }
      rewrite EU in Hk. rewrite (unconditional_reqs _ _ _ W Hk Ek) in Hr. destruct Hr.
    + assert (EA : a = s_unc st ++ skipn (length (s_unc st)) a /\ s_cond st = skipn (length (s_unc st)) a ++ k :: b).
      { assert (F : firstn (length (s_unc st)) (s_unc st ++ s_cond st) = firstn (length (s_unc st)) (a ++ k :: b)) by (rewrite E; reflexivity).
        rewrite firstn_app, Nat.sub_diag, firstn_all, firstn_O, app_nil_r in F.
        rewrite firstn_app in F. replace (length (s_unc st) - length a) with 0 in F by lia. rewrite firstn_O, app_nil_r in F.
        assert (EA : a = s_unc st ++ skipn (length (s_unc st)) a) by (rewrite F at 1; symmetry; apply firstn_skipn).
        split; [exact EA|]. rewrite EA in E at 1. rewrite <- app_assoc in E. apply app_inv_head in E. exact E. }
      destruct EA as [EA EC]. rewrite EC in O. destruct (ordered_split _ _ _ _ _ O) as (p' & E' & I).
      rewrite Ek in E'. injection E' as <-. rewrite EA. apply I, Hr.
Qed.
Lemma filter_split {A} (f : A -> bool) l : forall a' k b', filter f l = a' ++ k :: b' -> exists a b, l = a ++ k :: b /\ a' = filter f a /\ b' = filter f b.
Proof.
  induction l as [|x l IH]; intros a' k b'; simpl; [destruct a'; discriminate|]. destruct (f x) eqn:F.
  - destruct a' as [|y a']; simpl; intros H; injection H as -> H.
    + exists [], l. auto.
    + destruct (IH _ _ _ H) as (a & b & -> & -> & ->). exists (y :: a), b. simpl. rewrite F. auto.
  - intros H. destruct (IH _ _ _ H) as (a & b & -> & -> & ->). exists (x :: a), b. simpl. rewrite F. auto.
Qed.
Lemma causal_filter pd f ks : causal pd ks -> causal pd (filter f ks).
Proof.
  intros CA a' k b' p r E Ek Hr C. destruct (filter_split f ks _ _ _ E) as (a & b & E1 & _ & ->).
  apply (CA a k b p r E1 Ek Hr). destruct C as [C|C]; [left; exact C|right]. apply filter_In in C. apply C.
Qed.

(** [fin] assigns a value to every key such that each rescaled key has the value of
    its prior's quantile function under the assigned values of its required variables *)
Definition explains pd keys (theta : list U) (fin : dict V) : Prop :=
  forall i k, nth_error keys i = Some k -> exists p u vars,
    dget pd k = Some p /\ nth_error theta i = Some u /\ c_fixed p = false /\
    map fst vars = reqs p /\ (forall r v, In (r, v) vars -> dget fin r = Some v) /\
    dget fin k = Some (c_q p vars u).
Definition not_rescaled pd (fin lrs : dict V) : Prop :=
  forall k, (forall p, dget pd k = Some p -> c_fixed p = true) -> dget fin k = dget lrs k.
Lemma update_keys_spec st keys st1 : update_rescale_keys st keys = Some st1 -> (keys <> s_rkeys st \/ cache_ok st) ->
  s_pd st1 = s_pd st /\ s_unc st1 = s_unc st /\ s_cond st1 = s_cond st /\ s_resolved st1 = s_resolved st /\ s_lrs st1 = s_lrs st /\
  s_rkeys st1 = keys /\ cache_ok st1.
Proof.
  unfold update_rescale_keys. destruct (keys_eqb keys (s_rkeys st)) eqn:E.
  - apply keys_eqb_spec in E. intros H [H'|H']; [contradiction|]. injection H as <-. repeat split; auto.
  - destruct (without_fixed (s_pd st) (sorted_keys st)) as [ks|] eqn:E1; [|discriminate].
    destruct (indexes keys ks) as [idx|] eqn:E2; [|discriminate]. intros H _. injection H as <-. repeat split. right. exists ks. auto.
Qed.
Lemma NoDup_nth_unique {A} (l : list A) i j x : NoDup l -> nth_error l i = Some x -> nth_error l j = Some x -> i = j.
Proof.
  intros N Hi Hj. rewrite NoDup_nth_error in N. apply N; [apply nth_error_Some; congruence|congruence].
Qed.
Lemma loop_result_keys pd theta ks idx lrs res lrs' res' : rescale_loop pd theta ks idx lrs res = (lrs', Some res') ->
  forall k, In k (dkeys res') -> In k (dkeys res) \/ In k ks.
Proof.
  revert idx lrs res. induction ks as [|k ks IH]; intros idx lrs res; simpl; [intros H; injection H as <- <-; auto|].
  destruct idx as [|i idx]; [intros H; injection H as <- <-; auto|].
  destruct (dget pd k) as [p|]; [|discriminate]. destruct (nth_error theta i) as [u|]; [|discriminate].
  destruct (lookup_all pd lrs (reqs p)) as [vars|]; [|discriminate]. intros H k' Hk.
  destruct (IH _ _ _ H k' Hk) as [H'|H']; [|auto]. apply dkeys_set_in in H'. destruct H' as [H'|H']; auto.
Qed.
Lemma rescale_correct st keys theta st' out : good st -> (keys <> s_rkeys st \/ cache_ok st) -> NoDup keys ->
  rescale st keys theta = (st', Some out) ->
  explains (s_pd st) keys theta (s_lrs st') /\ not_rescaled (s_pd st) (s_lrs st') (s_lrs st) /\
  Forall2 (fun k v => dget (s_lrs st') k = Some v) keys out /\ s_resolved st = true.
Proof.
  intros G C ND. unfold rescale. destruct (s_resolved st) eqn:RS; [|discriminate].
  destruct (update_rescale_keys st keys) as [st1|] eqn:EU; [|discriminate].
  destruct (update_keys_spec st keys st1 EU C) as (E1 & E2 & E3 & E4 & E5 & E6 & C1).
  assert (ES : sorted_keys st1 = sorted_keys st) by (unfold sorted_keys; congruence).
  rewrite E1, ES, E5. destruct (without_fixed (s_pd st) (sorted_keys st)) as [ks|] eqn:EW; [|discriminate].
  destruct (rescale_loop (s_pd st) theta ks (s_ridx st1) (s_lrs st) []) as [lrs r] eqn:EL.
  intros H. injection H as <- H. destruct r as [res|]; [|discriminate].
  destruct (good_sorted st G RS) as (NS & PS & CS). destruct (without_fixed_spec _ _ _ EW) as [EK DK].
  destruct C1 as [[C1 C2]|(ks' & C1 & C2)].
  - rewrite E6 in C1. clear E6. subst keys. simpl in H. injection H as <-. rewrite C2 in EL.
    assert (EQ : lrs = s_lrs st) by (destruct ks; simpl in EL; congruence). subst lrs. simpl. split; [|split; [|split; [constructor|reflexivity]]].
    + intros [|i] k; discriminate.
    + intros k _. reflexivity.
  - rewrite E1, ES, EW in C1. injection C1 as <-. rewrite E6 in C2. destruct (indexes_spec _ _ _ C2) as [LI HI].
    assert (NK : NoDup ks) by (rewrite EK; apply NoDup_filter, NS).
    assert (CK : causal (s_pd st) ks) by (rewrite EK; apply causal_filter, CS).
    destruct (loop_spec _ _ _ _ _ _ _ _ NK CK LI EL) as [A B]. simpl.
    assert (INK : forall k, In k keys -> In k ks).
    { intros k Hk. apply collect_spec in H.
      assert (X : exists v, dget res k = Some v).
      { clear - H Hk. induction H; [destruct Hk|]. destruct Hk as [<-|Hk]; eauto. }
      destruct X as [v X]. destruct (in_dec string_dec k ks) as [|N]; [assumption|].
      destruct (A k N) as [_ A2]. rewrite X in A2. discriminate. }
    split; [|split; [|split; [|reflexivity]]].
    + intros i k Hi. pose proof (INK k (nth_error_In _ _ Hi)) as Hk. apply In_nth_error in Hk as [j Hj].
      destruct (nth_error (s_ridx st1) j) as [i'|] eqn:Ei; [|apply nth_error_None in Ei; assert (nth_error ks j <> None) by congruence; apply nth_error_Some in H0; lia].
      pose proof (HI j k i' Hj Ei) as Hk'. pose proof (NoDup_nth_unique _ _ _ _ ND Hi Hk'). subst i'.
      destruct (B j k i Hj Ei) as (p & u & vars & B1 & B2 & B3 & B4 & B5). exists p, u, vars.
      destruct (lookup_all_spec _ _ _ _ B3) as (L1 & L2 & _). repeat split; auto.
      pose proof (nth_error_In _ _ Hj) as Hin. rewrite EK in Hin. apply filter_In in Hin as [_ Hin]. rewrite B1 in Hin.
      apply negb_true_iff. exact Hin.
    + intros k Hf. apply A. intros Hk. rewrite EK in Hk. apply filter_In in Hk as [_ Hk].
      destruct (dget (s_pd st) k) as [p|]; [|discriminate]. rewrite (Hf p eq_refl) in Hk. discriminate.
    + apply collect_spec in H. assert (Q : forall k v, In k keys -> dget res k = Some v -> dget lrs k = Some v).
      { intros k v Hk Hv. apply INK, In_nth_error in Hk as [j Hj].
        destruct (nth_error (s_ridx st1) j) as [i'|] eqn:Ei; [|apply nth_error_None in Ei; assert (nth_error ks j <> None) by congruence; apply nth_error_Some in H0; lia].
        destruct (B j k i' Hj Ei) as (p & u & vars & B1 & B2 & B3 & B4 & B5). congruence. }
      clear - H Q. induction H; constructor; auto; [apply Q; [left; reflexivity|assumption]|]. apply IHForall2. intros k v Hk; apply Q; right; exact Hk.
Qed.

(** invariants along every history *)
Lemma resolve_pd st : s_pd (resolve st) = s_pd st.
Proof. unfold resolve. destruct (resolve_conditions (s_pd st)) as [[a b] c]. reflexivity. Qed.
Lemma resolve_good st : wf (s_pd st) -> good (resolve st).
Proof. intros W. unfold good. rewrite resolve_pd. split; [exact W|]. unfold resolve. destruct (resolve_conditions (s_pd st)) as [[a b] c]. reflexivity. Qed.
Lemma new_good pd lrs0 : wf pd -> good (new_dict pd lrs0) /\ cache_ok (new_dict pd lrs0).
Proof.
  intros W. split; [apply resolve_good; exact W|]. left. unfold new_dict, resolve. simpl. destruct (resolve_conditions pd) as [[a b] c]. auto.
Qed.
Definition same_structure st st' : Prop :=
  s_pd st' = s_pd st /\ s_unc st' = s_unc st /\ s_cond st' = s_cond st /\ s_resolved st' = s_resolved st.
Lemma same_good st st' : same_structure st st' -> good st -> good st'.
Proof. intros (A & B & C & D) [W R]. unfold good. rewrite A, B, C, D. auto. Qed.
Lemma rescale_structure st keys theta : same_structure st (fst (rescale st keys theta)) /\
  (cache_ok st -> cache_ok (fst (rescale st keys theta))).
Proof.
  unfold rescale. destruct (s_resolved st) eqn:RS; [|split; [repeat split|auto]].
  destruct (update_rescale_keys st keys) as [st1|] eqn:EU; [|split; [repeat split|auto]].
  assert (X : same_structure st st1 /\ (cache_ok st -> cache_ok st1)).
  { split.
    - unfold update_rescale_keys in EU. destruct (keys_eqb keys (s_rkeys st)); [injection EU as <-; repeat split|].
      destruct (without_fixed (s_pd st) (sorted_keys st)); [|discriminate]. destruct (indexes keys l); [|discriminate]. injection EU as <-. repeat split.
    - intros C. apply (update_keys_spec st keys st1 EU). auto. }
  destruct X as [X1 X2]. destruct (without_fixed (s_pd st1) (sorted_keys st1)) as [ks|]; [|split; auto].
  destruct (rescale_loop (s_pd st1) theta ks (s_ridx st1) (s_lrs st1) []) as [lrs r]. simpl. split; [exact X1|exact X2].
Qed.
Lemma prob_structure st s : same_structure st (fst (cond_prob st s)) /\ (cache_ok st -> cache_ok (fst (cond_prob st s))).
Proof.
  unfold cond_prob. destruct (match s with [] => false | _ => s_resolved st end); [|split; [repeat split|auto]].
  destruct (store_all (s_pd st) (s_lrs st) s) as [lrs ok]. simpl. split; [repeat split|auto].
Qed.
Lemma step_good st o : good st -> good (step st o).
Proof.
  intros G. destruct o as [keys theta|s|k p v0|k]; simpl.
  - apply (same_good st); [apply rescale_structure|exact G].
  - apply (same_good st); [apply prob_structure|exact G].
  - apply resolve_good. simpl. apply wf_set, G.
  - apply resolve_good. simpl. apply wf_del, G.
Qed.
Lemma run_good st l : good st -> good (run st l).
Proof. revert st. induction l as [|o t IH]; intros st G; [exact G|]. apply IH, step_good, G. Qed.
Lemma run_no_edit st l : forallb (fun o => negb (is_edit o)) l = true -> same_structure st (run st l) /\ (cache_ok st -> cache_ok (run st l)).
Proof.
  revert st. induction l as [|o t IH]; intros st H; [split; [repeat split|auto]|]. simpl in H. apply andb_true_iff in H as [H1 H2].
  destruct (IH (step st o) H2) as [A B]. simpl. assert (X : same_structure st (step st o) /\ (cache_ok st -> cache_ok (step st o))).
  { destruct o as [keys theta|s|k p v0|k]; simpl in *; try discriminate; [apply rescale_structure|apply prob_structure]. }
  destruct X as [X Y]. split; [|auto]. destruct A as (A1 & A2 & A3 & A4), X as (X1 & X2 & X3 & X4). repeat split; congruence.
Qed.

(** uniqueness: the values are determined by the unit values and the fixed values *)
Lemma explains_unique pd keys theta keys' theta' fin fin' lrs : wf pd -> (forall k, In k (dkeys pd) -> Resolvable pd k) ->
  explains pd keys theta fin -> explains pd keys' theta' fin' -> not_rescaled pd fin lrs -> not_rescaled pd fin' lrs ->
  (forall k p, dget pd k = Some p -> c_fixed p = false -> In k keys /\ In k keys') ->
  (forall i i' k, nth_error keys i = Some k -> nth_error keys' i' = Some k -> nth_error theta i = nth_error theta' i') ->
  forall k, In k (dkeys pd) -> dget fin k = dget fin' k.
Proof.
  intros W HR X X' F F' HK HU k Hk. specialize (HR k Hk). clear Hk. induction HR as [k p E HR IH].
  destruct (c_fixed p) eqn:FX.
  - rewrite (F k), (F' k); [reflexivity| |]; intros p' E'; rewrite E in E'; injection E' as <-; exact FX.
  - destruct (HK k p E FX) as [I I']. apply In_nth_error in I as [i Hi]. apply In_nth_error in I' as [i' Hi'].
    destruct (X i k Hi) as (p1 & u & vars & E1 & U1 & _ & M1 & D1 & ->). destruct (X' i' k Hi') as (p2 & u' & vars' & E2 & U2 & _ & M2 & D2 & ->).
    rewrite E in E1, E2. injection E1 as <-. injection E2 as <-. rewrite (HU i i' k Hi Hi') in U1. rewrite U2 in U1. injection U1 as <-.
    f_equal. f_equal. rewrite <- M2 in M1. assert (IH' : forall r, In r (map fst vars') -> dget fin r = dget fin' r) by (intros r Hr; apply IH; rewrite <- M2; exact Hr).
    clear - M1 D1 D2 IH'. revert vars' M1 D2 IH'. induction vars as [|[r v] t IHv]; intros [|[r' v'] t'] M1 D2 IH'; simpl in *; try discriminate; [reflexivity|].
    injection M1 as <- M1. f_equal.
    + f_equal. assert (A1 : dget fin r = Some v) by (apply D1; left; reflexivity). assert (A2 : dget fin' r = Some v') by (apply D2; left; reflexivity).
      rewrite (IH' r (or_introl eq_refl)) in A1. congruence.
    + apply IHv; auto.
Qed.

(** totality *)
Lemma loop_total pd theta ks idx lrs res base : length idx = length ks -> (forall i, In i idx -> i < length theta) ->
  (forall k, In k ks -> In k (dkeys pd)) ->
  (forall a k b p r, ks = a ++ k :: b -> dget pd k = Some p -> In r (reqs p) -> In r (dkeys pd) /\ (In r base \/ In r a)) ->
  (forall r, In r base -> exists v, dget lrs r = Some v) ->
  exists lrs' res', rescale_loop pd theta ks idx lrs res = (lrs', Some res') /\
    (forall k, In k ks \/ (exists v, dget res k = Some v) -> exists v, dget res' k = Some v).
Proof.
  revert idx lrs res base. induction ks as [|k ks IH]; intros idx lrs res base L HI HK HC HB.
  - simpl. exists lrs, res. split; [reflexivity|]. intros k [[]|H]; exact H.
  - destruct idx as [|i idx]; [discriminate|]. simpl.
    destruct (dget pd k) as [p|] eqn:E; [|apply dget_none in E; exfalso; apply E, HK; left; reflexivity].
    destruct (nth_error theta i) as [u|] eqn:EU; [|apply nth_error_None in EU; specialize (HI i (or_introl eq_refl)); lia].
    assert (EV : exists vars, lookup_all pd lrs (reqs p) = Some vars).
    { apply lookup_all_some. intros r Hr. destruct (HC [] k ks p r eq_refl E Hr) as [A [B|[]]]. auto. }
    destruct EV as [vars ->]. destruct (IH idx (dset lrs k (c_q p vars u)) (dset res k (c_q p vars u)) (k :: base)) as (lrs' & res' & H & HR).
    + simpl in L. lia.
    + intros j Hj. apply HI. right. exact Hj.
    + intros k' Hk. apply HK. right. exact Hk.
    + intros a k' b p' r E' Ep Hr. subst ks. destruct (HC (k :: a) k' b p' r eq_refl Ep Hr) as [A [B|[B|B]]]; split; auto.
      * left. right. exact B.
      * left. left. exact B.
    + intros r [<-|Hr]; [rewrite dget_set_eq; eauto|]. destruct (string_dec r k) as [->|N]; [rewrite dget_set_eq; eauto|rewrite dget_set_ne by congruence; auto].
    + exists lrs', res'. split; [exact H|]. intros k' [[<-|Hk]|(v & Hv)].
      * apply HR. right. rewrite dget_set_eq. eauto.
      * apply HR. auto.
      * apply HR. right. destruct (string_dec k' k) as [->|N]; [rewrite dget_set_eq; eauto|rewrite dget_set_ne by congruence; eauto].
Qed.
Lemma collect_total (res : dict V) keys : (forall k, In k keys -> exists v, dget res k = Some v) -> exists out, collect res keys = Some out.
Proof.
  induction keys as [|k t IH]; intros H; simpl; [eauto|]. destruct (H k (or_introl eq_refl)) as [v ->].
  destruct IH as [l ->]; [intros k' Hk; apply H; right; exact Hk|]. eauto.
Qed.
Lemma rescale_total st keys theta : good st -> cache_ok st \/ keys <> s_rkeys st -> s_resolved st = true ->
  (forall k, In k keys <-> exists p, dget (s_pd st) k = Some p /\ c_fixed p = false) ->
  length keys <= length theta ->
  (forall k p, dget (s_pd st) k = Some p -> c_fixed p = true -> exists v, dget (s_lrs st) k = Some v) ->
  exists out, snd (rescale st keys theta) = Some out.
Proof.
  intros G C RS HK HL HF. unfold rescale. rewrite RS. destruct (good_sorted st G RS) as (NS & PS & CS).
  destruct (without_fixed_some (s_pd st) (sorted_keys st)) as [ks EW].
  { intros k Hk. apply (Permutation_in _ (Permutation_sym PS)), Hk. }
  destruct (without_fixed_spec _ _ _ EW) as [EK DK].
  assert (KK : forall k, In k ks <-> In k keys).
  { intros k. rewrite EK, filter_In, HK. split.
    - intros [_ H]. destruct (dget (s_pd st) k) as [p|]; [|discriminate]. exists p. split; [reflexivity|]. apply negb_true_iff, H.
    - intros (p & E & F). rewrite E, F. split; [|reflexivity]. apply (Permutation_in _ PS).
      destruct (in_dec string_dec k (dkeys (s_pd st))) as [|N]; [assumption|]. apply dget_none in N. congruence. }
  destruct (indexes_some keys ks) as [idx EI]; [intros k Hk; apply KK, Hk|].
  assert (EU : exists st1, update_rescale_keys st keys = Some st1).
  { unfold update_rescale_keys. destruct (keys_eqb keys (s_rkeys st)); [eauto|]. rewrite EW, EI. eauto. }
  destruct EU as [st1 EU]. rewrite EU. destruct (update_keys_spec st keys st1 EU) as (E1 & E2 & E3 & E4 & E5 & E6 & C1); [tauto|].
  assert (ES : sorted_keys st1 = sorted_keys st) by (unfold sorted_keys; congruence). rewrite E1, ES, EW, E5.
  destruct C1 as [[C1 C2]|(ks' & C1 & C2)].
  - rewrite E6 in C1. clear E6. subst keys. rewrite C2. destruct ks; simpl; eauto.
  - rewrite E1, ES, EW in C1. injection C1 as <-. rewrite E6, EI in C2. injection C2 as <-. destruct (indexes_spec _ _ _ EI) as [LI HI].
    destruct (loop_total (s_pd st) theta ks idx (s_lrs st) [] (filter (fun k => match dget (s_pd st) k with Some p => c_fixed p | None => false end) (dkeys (s_pd st)))) as (lrs' & res' & H & HR).
    + exact LI.
    + intros i Hi. apply In_nth_error in Hi as [j Hj]. destruct (nth_error ks j) as [k|] eqn:Ek.
      * pose proof (HI j k i Ek Hj) as X. assert (i < length keys) by (apply nth_error_Some; congruence). lia.
      * apply nth_error_None in Ek. assert (j < length idx) by (apply nth_error_Some; congruence). lia.
    + intros k Hk. apply KK, HK in Hk as (p & E & _). destruct (in_dec string_dec k (dkeys (s_pd st))) as [|N]; [assumption|]. apply dget_none in N. congruence.
    + intros a k b p r E Ep Hr.
      assert (Hrd : In r (dkeys (s_pd st))).
      { destruct G as [W R]. destruct (resolved_iff _ _ _ _ W R) as [RI _]. specialize (RI RS).
        assert (Hk : In k (dkeys (s_pd st))) by (destruct (in_dec string_dec k (dkeys (s_pd st))) as [|N]; [assumption|]; apply dget_none in N; congruence).
        specialize (RI k Hk). inversion RI; subst. rewrite Ep in H. injection H as <-. apply resolvable_in; auto. }
      split; [exact Hrd|]. destruct (dget (s_pd st) r) as [pr|] eqn:Er; [|apply dget_none in Er; contradiction].
      destruct (c_fixed pr) eqn:Fr; [left; apply filter_In; rewrite Er; auto|]. right.
      assert (Hrk : In r ks) by (apply KK, HK; eauto). assert (CK : causal (s_pd st) ks) by (rewrite EK; apply causal_filter, CS).
      pose proof (CK a k b p r E Ep Hr) as NR. rewrite E in Hrk. apply in_app_or in Hrk as [|Hrk]; [assumption|contradiction].
    + intros r Hr. apply filter_In in Hr as [_ Hr]. destruct (dget (s_pd st) r) as [p|] eqn:Er; [|discriminate]. eapply HF; eauto.
    + rewrite H. simpl. apply collect_total. intros k Hk. apply HR. left. apply KK, Hk.
Qed.

(** joint probability *)
Lemma store_all_spec pd lrs s lrs' : wf s -> store_all pd lrs s = (lrs', true) ->
  (forall k v, dget s k = Some v -> dget lrs' k = Some v) /\ (forall k, ~ In k (dkeys s) -> dget lrs' k = dget lrs k).
Proof.
  revert lrs. induction s as [|[k v] t IH]; intros lrs W; simpl.
  - intros H. injection H as <-. split; [discriminate|auto].
  - destruct (dget pd k); [|discriminate]. intros H. inversion W as [|? ? N W']; subst. destruct (IH _ W' H) as [A B]. split.
    + intros k' v'. destruct (String.eqb_spec k' k) as [->|NE]; [|auto]. intros E. injection E as <-. rewrite B by exact N. apply dget_set_eq.
    + intros k' Hk. rewrite B by tauto. apply dget_set_ne. intros ->. apply Hk. left. reflexivity.
Qed.
(** product of the conditional densities, every required variable taken from [env] *)
Inductive joint pd (env : string -> option V) : dict V -> R -> Prop :=
| joint_nil : joint pd env [] 1%R
| joint_cons k x s p vars r : dget pd k = Some p -> map fst vars = reqs p ->
    (forall q v, In (q, v) vars -> env q = Some v) -> joint pd env s r ->
    joint pd env ((k, x) :: s) (c_p p vars x * r)%R.
Lemma factors_joint pd lrs s l : factors pd lrs s = Some l -> joint pd (dget lrs) s (fold_right Rmult 1%R l).
Proof.
  revert l. induction s as [|[k x] t IH]; intros l; simpl.
  - intros H. injection H as <-. constructor.
  - destruct (dget pd k) as [p|] eqn:E; [|discriminate]. destruct (lookup_all pd lrs (reqs p)) as [vars|] eqn:EV; [|discriminate].
    destruct (factors pd lrs t) as [l'|]; [|discriminate]. intros H. injection H as <-. simpl.
    destruct (lookup_all_spec _ _ _ _ EV) as (A & B & _). econstructor; eauto.
Qed.
Lemma joint_ext pd env env' s r : (forall k, env k = env' k) -> joint pd env s r -> joint pd env' s r.
Proof. intros H J. induction J; econstructor; eauto. intros q v Hq. rewrite <- H. auto. Qed.
Lemma cond_prob_spec st s st' r : wf s -> cond_prob st s = (st', Some r) ->
  s_resolved st = true /\ joint (s_pd st) (fun k => match dget s k with Some v => Some v | None => dget (s_lrs st) k end) s r.
Proof.
  intros W. unfold cond_prob. destruct s as [|kx s]; [discriminate|]. set (s0 := kx :: s) in *.
  destruct (s_resolved st) eqn:RS; [|discriminate].
  destruct (store_all (s_pd st) (s_lrs st) s0) as [lrs ok] eqn:E. destruct ok; [|discriminate].
  destruct (factors (s_pd st) lrs s0) as [l|] eqn:EF; [|discriminate]. intros H. injection H as _ <-. split; [reflexivity|].
  apply (joint_ext _ (dget lrs)); [|apply factors_joint, EF]. destruct (store_all_spec _ _ _ _ W E) as [A B].
  intros k. destruct (dget s0 k) as [v|] eqn:Ek; [apply A, Ek|]. apply B. apply dget_none, Ek.
Qed.
Lemma vars_unique (env env' : string -> option V) (vars vars' : dict V) : map fst vars = map fst vars' ->
  (forall q v, In (q, v) vars -> env q = Some v) -> (forall q v, In (q, v) vars' -> env' q = Some v) ->
  (forall q, In q (map fst vars) -> env q = env' q) -> vars = vars'.
Proof.
  revert vars'. induction vars as [|[a v] t IH]; intros [|[a' v'] t'] M D D' X; simpl in *; try discriminate; [reflexivity|].
  injection M as <- M. f_equal; [|apply IH; auto]. f_equal.
  assert (A : env a = Some v) by auto. assert (B : env' a = Some v') by auto. rewrite X in A by auto. congruence.
Qed.
Lemma joint_fun pd env env' s r r' : joint pd env s r -> joint pd env' s r' ->
  (forall k p q, In k (dkeys s) -> dget pd k = Some p -> In q (reqs p) -> env q = env' q) -> r = r'.
Proof.
  intros J. revert r'. induction J as [|k x s p vars r E M D J IH]; intros r' J' H.
  - inversion J'; subst. reflexivity.
  - inversion J' as [|k1 x1 s1 p1 vars1 r1 E1 M1 D1 J1]; subst. rewrite E in E1. injection E1 as <-.
    f_equal; [|apply IH; [assumption|]; intros k' p' q Hk; apply H; right; exact Hk].
    f_equal. apply (vars_unique env env'); auto; [congruence|].
    intros q Hq. apply (H k p q); [left; reflexivity|exact E|rewrite <- M; exact Hq].
Qed.

(** sampling *)
Lemma sample_loop_spec pd keys (draw : string -> U) ks lrs res lrs' res' : NoDup ks -> causal pd ks ->
  sample_loop pd keys draw ks lrs res = (lrs', Some res') ->
  (forall k, ~ (In k ks /\ In k keys) -> dget lrs' k = dget lrs k /\ dget res' k = dget res k) /\
  (forall k, In k ks -> In k keys -> exists p vars, dget pd k = Some p /\ lookup_all pd lrs' (reqs p) = Some vars /\
     dget lrs' k = Some (c_q p vars (draw k)) /\ dget res' k = Some (c_q p vars (draw k))).
Proof.
  revert lrs res. induction ks as [|k ks IH]; intros lrs res ND CA; simpl.
  - intros H. injection H as <- <-. split; [auto|intros k []].
  - inversion ND as [|? ? N ND']; subst. destruct (mem k keys) eqn:M; simpl.
    + apply mem_in in M. destruct (dget pd k) as [p|] eqn:E; [|discriminate].
      destruct (lookup_all pd lrs (reqs p)) as [vars|] eqn:EV; [|discriminate]. intros H.
      destruct (IH _ _ ND' (causal_tail _ _ _ CA) H) as [A B]. split.
      * intros k' Hk. destruct (A k') as [A1 A2]; [tauto|]. assert (k' <> k) by (intros ->; apply Hk; auto).
        rewrite A1, A2, !dget_set_ne by congruence. auto.
      * intros k' [<-|Hk] Hk'; [|apply B; assumption]. exists p, vars. destruct (A k) as [A1 A2]; [tauto|].
        rewrite A1, A2, !dget_set_eq. repeat split; auto. rewrite <- EV. apply lookup_all_ext. intros r Hr.
        pose proof (CA [] k ks p r eq_refl E Hr) as NR. destruct (A r) as [A3 _]; [intros [C _]; apply NR; right; exact C|].
        rewrite A3, dget_set_ne; [reflexivity|]. intros ->. apply NR. left. reflexivity.
    + intros H. assert (NK : ~ In k keys) by (intros C; apply mem_in in C; congruence).
      destruct (IH _ _ ND' (causal_tail _ _ _ CA) H) as [A B]. split.
      * intros k' Hk. apply A. tauto.
      * intros k' [<-|Hk] Hk'; [contradiction|auto].
Qed.
Lemma select_spec pd l sub : select pd l = Some sub -> dkeys sub = l /\ (forall k, In k l -> dget sub k = dget pd k).
Proof.
  revert sub. induction l as [|k l IH]; intros sub; simpl.
  - intros H. injection H as <-. split; [reflexivity|intros k []].
  - destruct (dget pd k) as [p|] eqn:E; [|discriminate]. destruct (select pd l) as [r|]; [|discriminate].
    intros H. injection H as <-. destruct (IH r eq_refl) as [A B]. split; [simpl; congruence|].
    intros k' Hk. simpl. destruct (String.eqb_spec k' k) as [->|NE]; [auto|]. destruct Hk as [Hk|Hk]; [congruence|auto].
Qed.
Lemma sample_correct st delta keys (draw : string -> U) st' res : wf (s_pd st) -> NoDup keys ->
  sample_subset st delta keys draw = (st', Some res) ->
  (forall k, In k (dkeys res) -> In k keys) /\
  forall k, In k keys -> exists p vars, dget (s_pd st) k = Some p /\ map fst vars = reqs p /\
    (forall r v, In (r, v) vars -> In r keys -> dget res r = Some v) /\
    (forall r v, In (r, v) vars -> ~ In r keys -> In r delta /\ dget (s_lrs st) r = Some v) /\
    dget res k = Some (c_q p vars (draw k)).
Proof.
  intros W NK. unfold sample_subset. set (add := filter _ (dkeys (s_pd st))).
  destruct (select (s_pd st) (add ++ keys)) as [sub|] eqn:ES; [|discriminate].
  destruct (resolve_conditions sub) as [[unc cond] ok] eqn:ER. destruct ok; [|discriminate].
  destruct (sample_loop sub keys draw (unc ++ cond) (s_lrs st) []) as [lrs r] eqn:EL. intros H. injection H as <- ->.
  destruct (select_spec _ _ _ ES) as [KS GS].
  assert (WS : wf sub).
  { unfold wf. rewrite KS. assert (NA : NoDup add) by (apply NoDup_filter, W).
    assert (D : forall k, In k add -> ~ In k keys).
    { intros k Ha Hk. unfold add in Ha. apply filter_In in Ha as [_ Ha]. apply andb_true_iff in Ha as [Ha _].
      apply negb_true_iff in Ha. apply mem_in in Hk. congruence. }
    clearbody add. clear - NA D NK. induction add as [|x l IH]; simpl; [exact NK|]. inversion NA; subst. constructor.
    - intros C. apply in_app_or in C as [C|C]; [contradiction|]. apply (D x); [left; reflexivity|exact C].
    - apply IH; auto. intros k Hk. apply D. right. exact Hk. }
  set (s0 := Build_cstate sub unc cond true [] [] (s_lrs st)).
  destruct (good_sorted s0 (conj WS ER) eq_refl) as (NS & PS & CS). change (sorted_keys s0) with (unc ++ cond) in *. change (s_pd s0) with sub in *.
  destruct (sample_loop_spec _ _ _ _ _ _ _ _ NS CS EL) as [A B]. split.
  - intros k Hk. destruct (in_dec string_dec k keys) as [|N]; [assumption|]. exfalso.
    destruct (A k) as [_ A2]; [tauto|]. simpl in A2. apply dget_none in A2. contradiction.
  - intros k Hk. assert (HS : forall x, In x keys -> In x (unc ++ cond)).
    { intros x Hx. apply (Permutation_in _ PS). rewrite KS. apply in_or_app. auto. }
    destruct (B k (HS k Hk) Hk) as (p & vars & E & EV & _ & ERs). exists p, vars.
    rewrite <- GS by (apply in_or_app; auto). split; [exact E|]. destruct (lookup_all_spec _ _ _ _ EV) as (M & D & DK).
    split; [exact M|]. split; [|split; [|exact ERs]].
    + intros r v Hr Hrk. destruct (B r (HS r Hrk) Hrk) as (p' & vars' & _ & _ & B1 & B2). rewrite B2, <- B1. apply D, Hr.
    + intros r v Hr Hrk. assert (Hrq : In r (reqs p)) by (rewrite <- M; change r with (fst (r, v)); apply in_map, Hr).
      specialize (DK r Hrq). rewrite KS in DK. apply in_app_or in DK as [DK|DK]; [|contradiction]. split.
      * unfold add in DK. apply filter_In in DK as [_ DK]. apply andb_true_iff in DK as [_ DK]. apply mem_in, DK.
      * destruct (A r) as [A1 _]; [tauto|]. rewrite <- A1. apply D, Hr.
Qed.
End P.
