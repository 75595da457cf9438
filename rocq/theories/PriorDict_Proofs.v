From Coq Require Import Reals Lra Psatz String List Bool Arith Permutation Lia.
From Coquelicot Require Import Rbar.
From Verif Require Import PyReal PyDict PriorDict_Model.
Import ListNotations.
Open Scope R_scope.

(** ** Constraints *)
(** a constraint of the dictionary is violated by the converted sample *)
Definition violated (pd : priordict) (out : sample) : Prop :=
  exists k mn mx v, In (k, EConstraint mn mx) pd /\ dget out k = Some v /\ ~ (mn < v < mx).
Lemma constraint_prob_true mn mx v : constraint_prob mn mx v = true <-> mn < v < mx.
Proof. unfold constraint_prob. destruct (Rlt_dec mn v); [destruct (Rlt_dec v mx)|]; split; intros; try discriminate; try lra; reflexivity. Qed.
Lemma constraints_loop_spec pd out acc : constraints_loop pd out acc = true <-> acc = true /\ ~ violated pd out.
Proof.
  revert acc. induction pd as [|[k e] t IH]; intros acc; simpl.
  - split; [intros ->; split; [reflexivity|]|tauto]. intros (k & mn & mx & v & [] & _).
  - destruct e as [mn mx|p l].
    + destruct (dget out k) as [v|] eqn:E; rewrite IH; clear IH.
      * rewrite andb_true_iff, constraint_prob_true. split.
        -- intros ((A & B) & N). split; [exact A|]. intros (k' & mn' & mx' & v' & [H|H] & E' & V).
           ++ injection H as <- <- <-. rewrite E in E'. injection E' as <-. contradiction.
           ++ apply N. exists k', mn', mx', v'. auto.
        -- intros (A & N). split; [split; [exact A|]|].
           ++ destruct (Rlt_dec mn v) as [L|L]; [destruct (Rlt_dec v mx) as [M|M]|]; [lra| |];
              exfalso; apply N; exists k, mn, mx, v; (split; [left; reflexivity|]); split; [exact E|lra|exact E|lra].
           ++ intros (k' & mn' & mx' & v' & H & E' & V). apply N. exists k', mn', mx', v'. simpl. auto.
      * split; intros (A & N); (split; [exact A|]); intros (k' & mn' & mx' & v' & H & E' & V); apply N.
        -- destruct H as [H|H]; [injection H as <- <- <-; congruence|]. exists k', mn', mx', v'. auto.
        -- exists k', mn', mx', v'. simpl. auto.
    + rewrite IH. split; intros (A & N); (split; [exact A|]); intros (k' & mn' & mx' & v' & H & E' & V); apply N; exists k', mn', mx', v'.
      * destruct H as [H|H]; [discriminate|auto].
      * simpl; auto.
Qed.
Lemma evaluate_constraints_spec pd conv s : evaluate_constraints pd conv s = true <-> ~ violated pd (conv s).
Proof. unfold evaluate_constraints. rewrite constraints_loop_spec. tauto. Qed.

(** ** The joint probability *)
(** independent specification: product over the items of the sample *)
Inductive product_density (pd : priordict) : sample -> R -> Prop :=
| pdens_nil : product_density pd [] 1
| pdens_cons k x s e r : dget pd k = Some e -> product_density pd s r ->
    product_density pd ((k, x) :: s) (entry_prob e x * r).
Lemma terms_product pd s l : terms entry_prob pd s = Some l -> product_density pd s (np_prod l).
Proof.
  revert l. induction s as [|[k x] t IH]; simpl; intros l H; [injection H as <-; constructor|].
  destruct (dget pd k) as [e|] eqn:E; [|discriminate]. destruct (terms entry_prob pd t) as [l'|]; [|discriminate].
  injection H as <-. simpl. constructor; auto.
Qed.
Lemma product_density_fun pd s r r' : product_density pd s r -> product_density pd s r' -> r = r'.
Proof.
  intros H. revert r'. induction H as [|k x s e r E H IH]; intros r' H'; inversion H'; subst; [reflexivity|].
  rewrite E in H4. injection H4 as <-. f_equal. auto.
Qed.
Lemma terms_defined {A} (f : entry -> R -> A) pd s : (forall k, In k (dkeys s) -> In k (dkeys pd)) <-> exists l, terms f pd s = Some l.
Proof.
  induction s as [|[k x] t IH]; simpl; [split; [eauto|intros _ k []]|]. split.
  - intros H. destruct (dget pd k) as [e|] eqn:E.
    + destruct IH as [IH _]. destruct IH as [l ->]; [intros k' Hk; apply H; auto|]. eauto.
    + exfalso. apply dget_none in E. apply E, H. auto.
  - intros [l H]. destruct (dget pd k) as [e|] eqn:E; [|discriminate].
    destruct (terms f pd t) as [l'|] eqn:E'; [|discriminate]. intros k' [<-|H'].
    + destruct (in_dec string_dec k (dkeys pd)); [assumption|]. apply dget_none in n. congruence.
    + apply IH; eauto.
Qed.
(** a sample key that is not in the dictionary is an error, and nothing else is *)
Lemma prob_defined ratio pd conv s : (exists p, PriorDict_prob ratio pd conv s = Some p) <-> (forall k, In k (dkeys s) -> In k (dkeys pd)).
Proof.
  rewrite (terms_defined entry_prob). unfold PriorDict_prob. split; intros [l H].
  - destruct (terms entry_prob pd s) as [l'|]; [eauto|discriminate].
  - rewrite H. eauto.
Qed.
Lemma prob_spec ratio pd conv s r : product_density pd s r ->
  (~ violated pd (conv s) -> PriorDict_prob ratio pd conv s = Some (ratio (dkeys s) * r)) /\
  (violated pd (conv s) -> PriorDict_prob ratio pd conv s = Some 0).
Proof.
  intros H.
  assert (E : exists l, terms entry_prob pd s = Some l /\ np_prod l = r).
  { induction H as [|k x s e r E H (l & El & Er)]; [exists []; split; reflexivity|].
    exists (entry_prob e x :: l). simpl. rewrite E, El. split; [reflexivity|]. rewrite Er. reflexivity. }
  destruct E as (l & El & Er). unfold PriorDict_prob. rewrite El, Er. unfold check_prob.
  destruct (Req_EM_T r 0) as [->|N].
  - split; intros _; f_equal; ring.
  - split; intros V.
    + apply evaluate_constraints_spec in V. rewrite V. f_equal. ring.
    + destruct (evaluate_constraints pd conv s) eqn:E; [|reflexivity].
      apply evaluate_constraints_spec in E. contradiction.
Qed.

(** order independence *)
Lemma product_density_perm pd s s' r : Permutation s s' -> product_density pd s r -> product_density pd s' r.
Proof.
  intros P. revert r. induction P; intros r H.
  - exact H.
  - inversion H; subst. constructor; auto.
  - inversion H as [|k1 x1 s1 e1 r1 E1 H1]; subst. inversion H1 as [|k2 x2 s2 e2 r2 E2 H2]; subst.
    replace (entry_prob e1 x1 * (entry_prob e2 x2 * r2)) with (entry_prob e2 x2 * (entry_prob e1 x1 * r2)) by ring.
    constructor; [assumption|]. constructor; assumption.
  - auto.
Qed.
Lemma product_density_ext pd pd' s r : (forall k, dget pd k = dget pd' k) -> product_density pd s r -> product_density pd' s r.
Proof. intros E H. induction H; constructor; auto. rewrite <- E. assumption. Qed.
Lemma product_density_of_terms pd s : (forall k, In k (dkeys s) -> In k (dkeys pd)) -> exists r, product_density pd s r.
Proof. intros H. apply (terms_defined entry_prob) in H. destruct H as [l H]. exists (np_prod l). apply terms_product, H. Qed.
Definition conv_respects_order (conv : sample -> sample) : Prop :=
  forall s s' k, Permutation s s' -> dget (conv s) k = dget (conv s') k.
Lemma violated_ext pd pd' out out' : (forall k e, In (k, e) pd <-> In (k, e) pd') -> (forall k, dget out k = dget out' k) ->
  violated pd out <-> violated pd' out'.
Proof.
  intros Hp Ho. split; intros (k & mn & mx & v & H & E & V); exists k, mn, mx, v.
  - rewrite <- Hp, <- Ho. auto.
  - rewrite Hp, Ho. auto.
Qed.
Lemma prob_order ratio pd pd' conv s s' p p' :
  wf pd -> conv_respects_order conv -> Permutation pd pd' -> Permutation s s' ->
  PriorDict_prob ratio pd conv s = Some p -> PriorDict_prob ratio pd' conv s' = Some p' ->
  p * ratio (dkeys s') = p' * ratio (dkeys s).
Proof.
  intros W HC Pp Ps E E'.
  assert (D : forall k, In k (dkeys s) -> In k (dkeys pd)) by (apply (prob_defined ratio pd conv s); eauto).
  destruct (product_density_of_terms pd s D) as [r Hr].
  assert (Hr' : product_density pd' s' r).
  { apply (product_density_perm _ s s' r Ps). apply (product_density_ext pd pd'); [|exact Hr].
    intros k. apply dget_perm; assumption. }
  assert (V : violated pd (conv s) <-> violated pd' (conv s')).
  { apply violated_ext; [|intros k; apply HC, Ps]. intros k e. split; intros H; [eapply Permutation_in; eassumption|].
    eapply Permutation_in; [apply Permutation_sym; eassumption|exact H]. }
  destruct (prob_spec ratio pd conv s r Hr) as [A B]. destruct (prob_spec ratio pd' conv s' r Hr') as [A' B'].
  destruct (evaluate_constraints pd conv s) eqn:EC.
  - apply evaluate_constraints_spec in EC. rewrite (A EC) in E. rewrite (A' ltac:(tauto)) in E'.
    injection E as <-. injection E' as <-. ring.
  - assert (violated pd (conv s)).
    { destruct (Classical_Prop.classic (violated pd (conv s))) as [|N]; [assumption|].
      apply evaluate_constraints_spec in N. congruence. }
    rewrite (B H) in E. rewrite (B' (proj1 V H)) in E'. injection E as <-. injection E' as <-. ring.
Qed.

(** ln_prob against prob *)
Definition ln_ext (p : R) : Rbar := if Rlt_dec 0 p then Finite (ln p) else m_infty.
Definition entry_ok (e : entry) : Prop :=
  match e with EConstraint _ _ => True | EPrior p l => forall x, 0 <= p x /\ l x = ln_ext (p x) end.
Lemma entry_ok_ln e x : entry_ok e -> 0 <= entry_prob e x /\ entry_ln_prob e x = ln_ext (entry_prob e x).
Proof.
  destruct e as [mn mx|p l]; simpl; [|auto]. intros _. unfold ln_ext. destruct (constraint_prob mn mx x).
  - destruct (Rlt_dec 0 1); [|lra]. rewrite ln_1. split; [lra|reflexivity].
  - destruct (Rlt_dec 0 0); [lra|]. split; [lra|reflexivity].
Qed.
Lemma terms_ln pd s l : (forall k e, dget pd k = Some e -> entry_ok e) -> terms entry_prob pd s = Some l ->
  exists l', terms entry_ln_prob pd s = Some l' /\ 0 <= np_prod l /\ np_sum l' = XR (ln_ext (np_prod l)).
Proof.
  intros HO. revert l. induction s as [|[k x] t IH]; simpl; intros l H.
  - injection H as <-. exists []. simpl. unfold ln_ext. destruct (Rlt_dec 0 1); [|lra]. rewrite ln_1. split; [reflexivity|split; [lra|reflexivity]].
  - destruct (dget pd k) as [e|] eqn:E; [|discriminate]. destruct (terms entry_prob pd t) as [l1|]; [|discriminate].
    injection H as <-. destruct (IH l1 eq_refl) as (l' & -> & P & Q). eexists. split; [reflexivity|].
    destruct (entry_ok_ln e x (HO k e E)) as [Pe Qe]. simpl. split; [apply Rmult_le_pos; assumption|].
    rewrite Q, Qe. unfold ln_ext. destruct (Rlt_dec 0 (entry_prob e x)) as [A|A].
    + destruct (Rlt_dec 0 (np_prod l1)) as [B|B].
      * destruct (Rlt_dec 0 (entry_prob e x * np_prod l1)) as [C|C]; [|exfalso; apply C, Rmult_lt_0_compat; assumption].
        simpl. rewrite ln_mult by assumption. reflexivity.
      * replace (np_prod l1) with 0 by lra. rewrite Rmult_0_r. destruct (Rlt_dec 0 0); [lra|reflexivity].
    + replace (entry_prob e x) with 0 by lra. rewrite Rmult_0_l. destruct (Rlt_dec 0 0); [lra|].
      destruct (Rlt_dec 0 (np_prod l1)); reflexivity.
Qed.
Lemma ln_prob_is_ln ratio pd conv s p : (forall keys, 0 < ratio keys) -> (forall k e, dget pd k = Some e -> entry_ok e) ->
  PriorDict_prob ratio pd conv s = Some p -> 0 <= p /\ PriorDict_ln_prob true ratio pd conv s = Some (XR (ln_ext p)).
Proof.
  intros HR HO. unfold PriorDict_prob, PriorDict_ln_prob. destruct (terms entry_prob pd s) as [l|] eqn:E; [|discriminate].
  destruct (terms_ln pd s l HO E) as (l' & -> & P & Q). intros H. injection H as <-. rewrite Q.
  specialize (HR (dkeys s)). set (r := ratio (dkeys s)) in *.
  unfold check_prob, check_ln_prob. destruct (Req_EM_T (np_prod l) 0) as [Z|N].
  - rewrite Z. rewrite Rmult_0_l. unfold ln_ext. destruct (Rlt_dec 0 0); [lra|]. split; [lra|reflexivity].
  - unfold ln_ext. destruct (Rlt_dec 0 (np_prod l)) as [L|L]; [|lra].
    destruct (evaluate_constraints pd conv s).
    + split; [apply Rmult_le_pos; lra|].
      destruct (Rlt_dec 0 (np_prod l * r)) as [C|C]; [|exfalso; apply C, Rmult_lt_0_compat; assumption].
      simpl. rewrite ln_mult by assumption. reflexivity.
    + split; [lra|]. destruct (Rlt_dec 0 0); [lra|reflexivity].
Qed.
(** the array branch is the scalar branch row by row *)
Lemma check_prob_vec_rows ratio pd conv rows probs : length rows = length probs ->
  check_prob_vec ratio pd conv rows probs = map (fun sp => check_prob ratio pd conv (fst sp) (snd sp)) (combine rows probs).
Proof.
  unfold check_prob_vec. destruct (forallb _ probs) eqn:E.
  - revert rows E. induction probs as [|p t IH]; intros [|s rows] E L; simpl in *; try discriminate; try reflexivity.
    apply andb_true_iff in E as [E1 E2]. rewrite (IH rows) by (auto; lia). f_equal. unfold check_prob.
    destruct (Req_EM_T p 0); [reflexivity|discriminate].
  - clear E. revert rows. induction probs as [|p t IH]; intros [|s rows] L; simpl in *; try discriminate; try reflexivity.
    rewrite (IH rows) by lia. f_equal. unfold check_prob. destruct (Req_EM_T p 0) as [->|]; [|reflexivity].
    rewrite Rmult_0_l. destruct (evaluate_constraints pd conv s); reflexivity.
Qed.
(** the log version agrees only as long as no row is plus infinity *)
Lemma check_ln_prob_vec_rows ratio pd conv rows ls : length rows = length ls -> ~ In (XR p_infty) ls ->
  check_ln_prob_vec ratio pd conv rows ls = map (fun sp => check_ln_prob ratio pd conv (fst sp) (snd sp)) (combine rows ls).
Proof.
  unfold check_ln_prob_vec. destruct (forallb is_inf ls) eqn:E; intros L N.
  - revert rows E L N. induction ls as [|p t IH]; intros [|s rows] E L N; simpl in *; try discriminate; try reflexivity.
    apply andb_true_iff in E as [E1 E2]. rewrite <- (IH rows) by (auto; lia). f_equal.
    destruct p as [[x| |]|]; try discriminate; try reflexivity.
  - clear E. revert rows L N. induction ls as [|p t IH]; intros [|s rows] L N; simpl in *; try discriminate; try reflexivity.
    rewrite (IH rows) by (auto; lia). f_equal. destruct p as [[x| |]|]; simpl; try reflexivity.
    + exfalso; auto.
    + destruct (evaluate_constraints pd conv s); reflexivity.
Qed.
(** normalized=False only drops the factor *)
Lemma ln_prob_unnormalised ratio pd conv s : PriorDict_ln_prob false ratio pd conv s = PriorDict_ln_prob true (fun _ => 1) pd conv s.
Proof. reflexivity. Qed.
Lemma ln_prob_plus_infinity ratio pd conv s l : terms entry_ln_prob pd s = Some l -> np_sum l = XR p_infty ->
  PriorDict_ln_prob true ratio pd conv s = Some (XR p_infty).
Proof. intros E H. unfold PriorDict_ln_prob. rewrite E, H. reflexivity. Qed.
(** rescale keeps the order of the keys *)
Lemma rescale_spec resc keys theta l : PriorDict_rescale resc keys theta = Some l -> length keys = length theta ->
  length l = length keys /\ forall i k u, nth_error keys i = Some k -> nth_error theta i = Some u ->
    exists q, resc k = Some q /\ nth_error l i = Some (q u).
Proof.
  revert theta l. induction keys as [|k ks IH]; destruct theta as [|u us]; simpl; intros l H L; try discriminate.
  - injection H as <-. split; [reflexivity|]. intros [|i] k u; discriminate.
  - destruct (resc k) as [q|] eqn:E; [|discriminate]. destruct (PriorDict_rescale resc ks us) as [l'|] eqn:E'; [|discriminate].
    injection H as <-. destruct (IH us l' E' ltac:(lia)) as [HL HI]. split; [simpl; lia|].
    intros [|i] k' u' Hk Hu; simpl in *.
    + injection Hk as <-. injection Hu as <-. eauto.
    + eauto.
Qed.

(** ** Normalisation cache *)
Lemma list_eqb_spec a b : list_eqb a b = true <-> a = b.
Proof.
  revert b. induction a as [|x a IH]; intros [|y b]; simpl; split; intros H; try discriminate; try reflexivity.
  - apply andb_true_iff in H as [H1 H2]. apply String.eqb_eq in H1. apply IH in H2. congruence.
  - injection H as -> ->. rewrite String.eqb_refl. simpl. apply IH. reflexivity.
Qed.
Lemma cache_persist active est st l keys f : cget (n_cache st) keys = Some f -> cget (n_cache (nrun active est st l)) keys = Some f.
Proof.
  revert st. induction l as [|o t IH]; intros st H; [exact H|]. simpl. apply IH.
  destruct o as [k e|k|ks]; simpl; try exact H.
  unfold normalize_constraint_factor. destruct (cget (n_cache st) ks) as [g|] eqn:E; simpl; [exact H|].
  destruct (list_eqb keys ks) eqn:K; [|exact H]. apply list_eqb_spec in K. congruence.
Qed.
Lemma factor_fixed active est st l keys f st' : normalize_constraint_factor active est st keys = (f, st') ->
  fst (normalize_constraint_factor active est (nrun active est st' l) keys) = f.
Proof.
  intros H. assert (C : cget (n_cache st') keys = Some f).
  { unfold normalize_constraint_factor in H. destruct (cget (n_cache st) keys) as [g|] eqn:E.
    - injection H as <- <-. exact E.
    - injection H as H1 H2. subst f st'. simpl. rewrite (proj2 (list_eqb_spec keys keys) eq_refl). reflexivity. }
  unfold normalize_constraint_factor. rewrite (cache_persist active est st' l keys f C). reflexivity.
Qed.
(** without an evaluated constraint the factor of every key tuple is 1 *)
Lemma factor_one active est st keys l :
  n_cache st = [] -> (forall pd ks, active pd ks = false) ->
  fst (normalize_constraint_factor active est (nrun active est st l) keys) = 1.
Proof.
  intros H0 HA.
  assert (INV : forall l st, (forall ks g, cget (n_cache st) ks = Some g -> g = 1) ->
     forall ks g, cget (n_cache (nrun active est st l)) ks = Some g -> g = 1).
  { clear - HA. induction l as [|o t IH]; intros st H; [exact H|]. simpl. apply IH. intros ks g.
    destruct o as [k e|k|ks']; simpl; try apply H. unfold normalize_constraint_factor.
    destruct (cget (n_cache st) ks'); simpl; [apply H|]. rewrite HA. destruct (list_eqb ks ks'); [congruence|apply H]. }
  unfold normalize_constraint_factor. destruct (cget _ keys) as [g|] eqn:E; simpl; [|rewrite HA; reflexivity].
  apply (INV l st) with keys; [|exact E]. intros ks g'. rewrite H0. discriminate.
Qed.

(** ** Constrained sampling *)
Lemma mask_length {A B} m (l : list A) (l' : list B) : length l = length l' -> length (mask m l) = length (mask m l').
Proof.
  revert l l'. induction m as [|b m IH]; intros [|x l] [|y l'] H; simpl in *; try discriminate; try reflexivity.
  destruct b; simpl; [f_equal|]; apply IH; lia.
Qed.
Section S.
Variable batch : nat -> string -> list R.
Variable keep : nat -> list bool.
Variable needed : nat.
(** all accepted draws of the batches [t, t+n) *)
Fixpoint accepted (t n : nat) (k : string) : list R :=
  match n with O => [] | S n' => (mask (keep t) (batch t k) ++ accepted (S t) n' k)%list end.
Lemma accepted_snoc t n k : accepted t (S n) k = (accepted t n k ++ mask (keep (t + n)%nat) (batch (t + n)%nat k))%list.
Proof.
  revert t. induction n as [|n IH]; intros t.
  - simpl. rewrite app_nil_r, Nat.add_0_r. reflexivity.
  - change (accepted t (S (S n)) k) with (mask (keep t) (batch t k) ++ accepted (S t) (S n) k)%list. rewrite IH.
    simpl. rewrite app_assoc. replace (t + S n)%nat with (S (t + n)) by lia. reflexivity.
Qed.
Lemma loop_spec fuel t first acc r : sampling_loop batch keep fuel t needed first acc = Some r ->
  exists n, (n <= fuel)%nat /\
    (forall k, r k = firstn needed (acc k ++ accepted t n k)) /\
    (needed <= length (acc first ++ accepted t n first))%nat /\
    (forall m, (m < n)%nat -> (length (acc first ++ accepted t m first) < needed)%nat).
Proof.
  revert t acc. induction fuel as [|f IH]; intros t acc; simpl; destruct (Nat.ltb_spec (length (acc first)) needed) as [L|L]; intros H.
  - discriminate.
  - injection H as <-. exists 0%nat. simpl. split; [lia|]. split; [intros k; rewrite app_nil_r; reflexivity|].
    split; [rewrite app_nil_r; exact L|]. intros m Hm; lia.
  - destruct (IH _ _ H) as (n & Hn & Hr & Hl & Hm). exists (S n). split; [lia|]. split; [|split].
    + intros k. rewrite Hr. f_equal. simpl. rewrite app_assoc. reflexivity.
    + simpl. rewrite app_assoc. exact Hl.
    + intros [|m] Hm'; simpl; [rewrite app_nil_r; exact L|]. rewrite app_assoc. apply Hm. lia.
  - injection H as <-. exists 0%nat. simpl. split; [lia|]. split; [intros k; rewrite app_nil_r; reflexivity|].
    split; [rewrite app_nil_r; exact L|]. intros m Hm; lia.
Qed.
Lemma loop_terminates n fuel t first acc : (n <= fuel)%nat -> (needed <= length (acc first ++ accepted t n first))%nat ->
  exists r, sampling_loop batch keep fuel t needed first acc = Some r.
Proof.
  revert fuel t acc. induction n as [|n IH]; intros fuel t acc Hf H.
  - simpl in H. rewrite app_nil_r in H. destruct fuel; simpl; destruct (Nat.ltb_spec (length (acc first)) needed); try lia; eauto.
  - destruct fuel as [|f]; [lia|]. simpl. destruct (Nat.ltb_spec (length (acc first)) needed); [|eauto].
    apply (IH f (S t)); [lia|]. simpl in H. rewrite app_assoc in H. exact H.
Qed.
(** rows: the n-th accepted draw is one row of one batch, for every key *)
Lemma mask_rows {A} (m : list bool) (cols : string -> list A) len :
  (forall k, length (cols k) = len) -> length m = len ->
  exists idx : list nat, (forall k, map Some (mask m (cols k)) = map (nth_error (cols k)) idx) /\
    (forall j, In j idx -> nth_error m j = Some true) .
Proof.
  revert cols len. induction m as [|b m IH]; intros cols len HL Hm.
  - exists []. split; [reflexivity|intros j []].
  - destruct len as [|len]; [discriminate|]. simpl in Hm.
    destruct (IH (fun k => tl (cols k)) len) as (idx & Hi & Hj); [|lia|].
    { intros k. specialize (HL k). destruct (cols k); simpl in *; lia. }
    exists ((if b then [0%nat] else []) ++ map S idx)%list. split.
    + intros k. specialize (HL k). specialize (Hi k). destruct (cols k) as [|x l] eqn:E; [discriminate|]. simpl in Hi |- *.
      rewrite map_app, map_map.
      change (map (fun x0 => nth_error (x :: l) (S x0)) idx) with (map (nth_error l) idx).
      rewrite <- Hi. destruct b; reflexivity.
    + intros j Hj'. apply in_app_or in Hj' as [H|H].
      * destruct b; [|destruct H]. destruct H as [<-|[]]. reflexivity.
      * apply in_map_iff in H as (i & <- & Hi'). simpl. apply Hj, Hi'.
Qed.
Lemma accepted_rows len n : (forall t k, length (batch t k) = len) -> (forall t, length (keep t) = len) ->
  forall t0, exists idx : list (nat * nat),
    (forall k, map Some (accepted t0 n k) = map (fun tj => nth_error (batch (fst tj) k) (snd tj)) idx) /\
    (forall t j, In (t, j) idx -> (t0 <= t < t0 + n)%nat /\ nth_error (keep t) j = Some true).
Proof.
  intros HL HK. induction n as [|n IH]; intros t0.
  - exists []. split; [reflexivity|intros t j []].
  - destruct (IH (S t0)) as (idx & Hi & Hj).
    destruct (mask_rows (keep t0) (batch t0) len (HL t0) (HK t0)) as (id0 & Hi0 & Hj0).
    exists (map (pair t0) id0 ++ idx)%list. split.
    + intros k. simpl. rewrite !map_app, map_map. simpl. rewrite Hi0, Hi. reflexivity.
    + intros t j H. apply in_app_or in H as [H|H].
      * apply in_map_iff in H as (i & E & H). injection E as <- <-. split; [lia|]. apply Hj0, H.
      * apply Hj in H. split; [lia|tauto].
Qed.
End S.
Lemma map_Some_nth {A} (l : list A) (m : list (option A)) i : map Some l = m -> nth_error l i = match nth_error m i with Some o => o | None => None end.
Proof. intros <-. rewrite nth_error_map. destruct (nth_error l i); reflexivity. Qed.
Lemma nth_error_firstn' {A} (l : list A) n i : (i < n)%nat -> nth_error (firstn n l) i = nth_error l i.
Proof. revert n i. induction l as [|x l IH]; intros [|n] [|i] H; simpl; try lia; try reflexivity. apply IH. lia. Qed.
Lemma sampling_sound batch keep is_c keys needed fuel keys' r :
  (forall t k, length (batch t k) = needed) -> (forall t, length (keep t) = needed) ->
  sample_batch batch keep is_c keys needed fuel = Some (Some (keys', r)) ->
  keys' = filter (fun k => negb (is_c k)) keys /\
  (forall k, length (r k) = needed) /\
  (exists n, (forall k, r k = firstn needed (accepted batch keep 0 n k)) ) /\
  (forall i, (i < needed)%nat -> exists t j, nth_error (keep t) j = Some true /\ forall k, nth_error (r k) i = nth_error (batch t k) j).
Proof.
  intros HL HK. unfold sample_batch. destruct (filter _ keys) as [|k0 ks] eqn:EF; [discriminate|].
  destruct (sampling_loop batch keep fuel 0 needed k0 (fun _ => [])) as [r'|] eqn:E; [|discriminate].
  intros H. injection H as <- <-. split; [reflexivity|].
  destruct (loop_spec batch keep needed fuel 0 k0 _ r' E) as (n & _ & Hr & Hl & _). simpl in *.
  assert (LL : forall k, (needed <= length (accepted batch keep 0 n k))%nat).
  { intros k. assert (EL : forall m t0, length (accepted batch keep t0 m k) = length (accepted batch keep t0 m k0)).
    { induction m as [|m IH]; intros t0; [reflexivity|]. simpl. rewrite !app_length, IH. f_equal. apply mask_length. rewrite !HL. reflexivity. }
    rewrite EL. exact Hl. }
  split; [intros k; rewrite Hr; apply firstn_length_le, LL|]. split; [exists n; exact Hr|].
  intros i Hi. destruct (accepted_rows batch keep needed n HL HK 0%nat) as (idx & Hx & Hj).
  assert (LX : (needed <= length idx)%nat).
  { rewrite <- (map_length (fun tj => nth_error (batch (fst tj) k0) (snd tj)) idx), <- Hx, map_length. apply LL. }
  destruct (nth_error idx i) as [[t j]|] eqn:EI; [|apply nth_error_None in EI; lia].
  exists t, j. split; [apply (Hj t j), (nth_error_In _ _ EI)|]. intros k.
  rewrite Hr, nth_error_firstn' by exact Hi. rewrite (map_Some_nth _ _ i (Hx k)), nth_error_map, EI. reflexivity.
Qed.
Lemma sample_one_spec {A} (draw : nat -> A) ok fuel t x : sample_one draw ok fuel t = Some x ->
  exists n, (t <= n < t + fuel)%nat /\ x = draw n /\ ok x = true /\ forall m, (t <= m < n)%nat -> ok (draw m) = false.
Proof.
  revert t. induction fuel as [|f IH]; intros t; simpl; [discriminate|]. destruct (ok (draw t)) eqn:E; intros H.
  - injection H as <-. exists t. repeat split; try lia; auto; intros m Hm; lia.
  - destruct (IH _ H) as (n & Hn & -> & Ho & Hm). exists n. repeat split; try lia; auto.
    intros m Hm'. destruct (Nat.eq_dec m t) as [->|]; [exact E|apply Hm; lia].
Qed.
Lemma sample_one_terminates {A} (draw : nat -> A) ok n t fuel : (t <= n)%nat -> (n < t + fuel)%nat -> ok (draw n) = true ->
  exists x, sample_one draw ok fuel t = Some x.
Proof.
  revert t. induction fuel as [|f IH]; intros t H1 H2 Hn; [lia|]. simpl. destruct (ok (draw t)) eqn:E; [eauto|].
  apply IH; try lia; auto. destruct (Nat.eq_dec n t) as [->|]; [congruence|lia].
Qed.
