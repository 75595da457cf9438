(** Evaluation of the likelihood on the grid. *)
From Coq Require Import Reals String List Bool Arith Lia Lra.
From Verif Require Import PyReal PyDict Grid_Model Grid_Proofs Grid_Proofs2.
Import ListNotations.
Open Scope R_scope.
Open Scope list_scope.

Lemma positions_none v l i : ~ In v l -> positions v l i = [].
Proof.
  revert i. induction l as [|x t IH]; simpl; auto. intros i H. destruct (Req_EM_T v x); [exfalso; auto|]. apply IH. auto.
Qed.
Lemma positions_one v l i k : NoDup l -> nth_error l k = Some v -> positions v l i = [(i + k)%nat].
Proof.
  revert i k. induction l as [|x t IH]; intros i [|k]; simpl; try discriminate; intros ND; inversion ND as [|? ? N ND']; subst.
  - intros H; injection H as ->. destruct (Req_EM_T v v); [|congruence]. rewrite positions_none by auto. f_equal. lia.
  - intros H. destruct (Req_EM_T v x) as [->|]; [exfalso; apply N; eapply nth_error_In; eauto|].
    rewrite (IH (S i) k) by auto. f_equal. lia.
Qed.
Lemma positions_in v l i : In v l -> positions v l i <> [].
Proof.
  revert i. induction l as [|x t IH]; simpl; [tauto|]. intros i H. destruct (Req_EM_T v x); [discriminate|].
  apply IH. destruct H; congruence || auto.
Qed.
Lemma positions_dup l : ~ NoDup l -> exists v, In v l /\ forall i k, positions v l i <> [k].
Proof.
  induction l as [|x t IH]; intros H; [exfalso; apply H; constructor|].
  destruct (in_dec Req_EM_T x t) as [Hx|Hx].
  - exists x. split; [now left|]. intros i k E. simpl in E. destruct (Req_EM_T x x); [|congruence].
    injection E as _ E. now apply positions_in in E.
  - destruct IH as (v & Hv & K). { intros N. apply H. now constructor. }
    exists v. split; [now right|]. intros i k. simpl. destruct (Req_EM_T v x) as [->|]; [contradiction|]. apply K.
Qed.
Lemma nat_list_eqb_eq a b : nat_list_eqb a b = true <-> a = b.
Proof.
  revert b. induction a as [|x a IH]; intros [|y b]; simpl; try (split; congruence).
  rewrite andb_true_iff, Nat.eqb_eq, IH. split; [intros [-> ->]; reflexivity|intros H; injection H; auto].
Qed.
Lemma nat_list_eqb_neq a b : a <> b -> nat_list_eqb a b = false.
Proof. intros H. apply not_true_is_false. rewrite nat_list_eqb_eq. exact H. Qed.
Lemma map_eq_in {A B} (f g : A -> B) l : map f l = map g l -> forall x, In x l -> f x = g x.
Proof. induction l as [|a t IH]; simpl; [tauto|]. intros H x. injection H as H1 H2. intros [<-|Hx]; auto. Qed.

Section E.
Variable names : list string.
Variable pts : string -> list R.
Variable L : dict R -> lnum.
Hypothesis Lext : forall d d', (forall k, dget d k = dget d' k) -> L d = L d'.
Hypothesis ND : NoDup names.
Definition set_at (e : string -> nat) (d : dict R) (n : string) : Prop := dget d n = nth_error (pts n) (e n).
(** [D]: the parameters held before, with the names of the grid set to the point [e] *)
Definition point (e : string -> nat) (d D : dict R) : Prop :=
  (forall n, In n names -> set_at e D n) /\ (forall k, ~ In k names -> dget D k = dget d k).
Definition agree (pre : list string) (e e' : string -> nat) : Prop := forall n, In n pre -> e' n = e n.

Section Good.
Hypothesis Hpts : forall n, In n names -> NoDup (pts n).
Lemma current_point_ok d e l : incl l names -> (forall n, In n l -> set_at e d n /\ (e n < List.length (pts n))%nat) ->
  current_point pts d l = Some (map e l).
Proof.
  induction l as [|n t IH]; intros I H; simpl; auto.
  destruct (H n (or_introl eq_refl)) as (Hs & Hv). unfold locate, set_at in *.
  destruct (nth_error (pts n) (e n)) as [v|] eqn:En; [|apply nth_error_None in En; lia].
  rewrite Hs. cbn [bindo]. rewrite (positions_one v (pts n) 0 (e n)) by auto using (Hpts n (I n (or_introl eq_refl))).
  cbn [bindo]. rewrite IH; auto. { intros m Hm. apply I. now right. } { intros m Hm. apply H. now right. }
Qed.
Lemma evaluate_rec_ok dims : forall pre, names = pre ++ dims -> forall d f e,
  (forall n, In n pre -> set_at e d n /\ (e n < List.length (pts n))%nat) ->
  exists d' f', evaluate_recursion names pts L dims (d, f) = Some (d', f') /\
    (forall k, ~ In k dims -> dget d' k = dget d k) /\
    (forall e', valid names pts e' -> agree pre e e' -> forall D, point e' d D -> f' (map e' names) = L D) /\
    (forall e', valid names pts e' -> ~ agree pre e e' -> f' (map e' names) = f (map e' names)).
Proof.
  induction dims as [|name t IH]; intros pre En d f e Hpre.
  - rewrite app_nil_r in En. subst pre. exists d, (assign f (map e names) (L d)).
    cbn [evaluate_recursion fst snd]. rewrite (current_point_ok d e names) by (auto using incl_refl).
    cbn [bindo]. split; [reflexivity|]. split; [reflexivity|]. split.
    + intros e' V A D (P1 & P2). unfold assign.
      rewrite (proj2 (nat_list_eqb_eq _ _)) by (apply map_ext_in; auto).
      apply Lext. intros k. destruct (in_dec string_dec k names) as [Hk|Hk]; [|symmetry; auto].
      rewrite (P1 k Hk), (A k Hk). destruct (Hpre k Hk) as (-> & _). reflexivity.
    + intros e' V A. unfold assign. rewrite nat_list_eqb_neq; auto.
      intros E. apply A. intros n Hn. now apply (map_eq_in _ _ _ E).
  - assert (Hn : ~ In name pre /\ ~ In name t).
    { rewrite En in ND. apply NoDup_remove_2 in ND. rewrite in_app_iff in ND. tauto. }
    destruct Hn as (Np & Nt).
    assert (Inn : In name names) by (rewrite En; apply in_or_app; right; now left).
    (* the loop over the points of this name *)
    assert (K : forall todo done d f, pts name = done ++ todo ->
      (forall n, In n pre -> set_at e d n /\ (e n < List.length (pts n))%nat) ->
      exists d' f', fold_left (fun s x => let* st' := s in evaluate_recursion names pts L t (dset (fst st') name x, snd st')) todo (Some (d, f)) = Some (d', f') /\
        (forall k, ~ In k (name :: t) -> dget d' k = dget d k) /\
        (forall e', valid names pts e' -> agree pre e e' -> (List.length done <= e' name)%nat -> forall D, point e' d D -> f' (map e' names) = L D) /\
        (forall e', valid names pts e' -> ~ agree pre e e' \/ (e' name < List.length done)%nat -> f' (map e' names) = f (map e' names))).
    { induction todo as [|x todo IHt]; intros done d1 f1 Es Hd.
      - exists d1, f1. split; [reflexivity|]. split; [reflexivity|]. split; [|reflexivity].
        intros e' V _ Ge. specialize (V name Inn). rewrite Es, app_nil_r in V. lia.
      - cbn [fold_left bindo fst snd].
        assert (Hnx : nth_error (pts name) (List.length done) = Some x).
        { rewrite Es, nth_error_app2, Nat.sub_diag by lia. reflexivity. }
        set (ex := upd e name (List.length done)).
        destruct (IH (pre ++ [name])) with (d := dset d1 name x) (f := f1) (e := ex) as (d2 & f2 & E2 & K2 & A2 & B2).
        { rewrite <- app_assoc. exact En. }
        { intros n Hn. apply in_app_or in Hn. destruct Hn as [Hn|[<-|[]]].
          - assert (n <> name) by (intros ->; contradiction). destruct (Hd n Hn) as (S1 & S2).
            unfold set_at, ex, upd. destruct (String.eqb_spec n name); [contradiction|].
            rewrite dget_set_ne by auto. auto.
          - unfold set_at, ex, upd. rewrite String.eqb_refl, dget_set_eq, Hnx. split; [reflexivity|].
            apply nth_error_Some. rewrite Hnx. discriminate. }
        rewrite E2.
        destruct (IHt (done ++ [x]) d2 f2) as (d' & f' & E3 & K3 & A3 & B3).
        { rewrite <- app_assoc. exact Es. }
        { intros n Hn. destruct (Hd n Hn) as (S1 & S2). split; auto. unfold set_at in *.
          assert (n <> name) by (intros ->; contradiction).
          rewrite K2, dget_set_ne; auto. intros Ht.
          rewrite En in ND. clear -ND Ht Hn. induction pre as [|q pre IHp]; [contradiction|].
          simpl in ND. inversion ND as [|? ? Nq ND']; subst. destruct Hn as [->|Hn]; [|auto].
          apply Nq. apply in_or_app. right. now right. }
        exists d', f'. split; [exact E3|]. split; [|split].
        + intros k Hk. rewrite K3 by exact Hk. simpl in Hk. rewrite K2 by tauto. apply dget_set_ne. intros ->. apply Hk. now left.
        + intros e' V A Ge D P. destruct (Nat.eq_dec (e' name) (List.length done)) as [Eq|Nq].
          * rewrite B3 by (auto; right; rewrite app_length; simpl; lia).
            apply A2; auto.
            -- intros n Hn. apply in_app_or in Hn. unfold ex, upd. destruct Hn as [Hn|[<-|[]]].
               ++ destruct (String.eqb_spec n name) as [->|]; [contradiction|]. auto.
               ++ rewrite String.eqb_refl. exact Eq.
            -- destruct P as (P1 & P2). split; auto. intros k Hk. rewrite P2 by auto.
               rewrite dget_set_ne; auto. intros ->. contradiction.
          * apply A3; auto. { rewrite app_length; simpl; lia. }
            destruct P as (P1 & P2). split; auto. intros k Hk. rewrite P2 by auto.
            rewrite K2, dget_set_ne; auto.
            -- intros ->. contradiction.
            -- intros Ht. apply Hk. rewrite En. apply in_or_app. right. now right.
        + intros e' V H. rewrite B3, B2; auto.
          * intros A. destruct H as [H|H].
            -- apply H. intros n Hn. specialize (A n (in_or_app _ _ _ (or_introl Hn))). unfold ex, upd in A.
               destruct (String.eqb_spec n name) as [Eq|]; [subst n; contradiction|exact A].
            -- specialize (A name (in_or_app pre [name] name (or_intror (or_introl eq_refl)))). unfold ex, upd in A.
               rewrite String.eqb_refl in A. lia.
          * destruct H as [H|H]; [left; exact H|right]. rewrite app_length. simpl. lia. }
    destruct (K (pts name) [] d f eq_refl Hpre) as (d' & f' & E & K1 & A1 & B1).
    exists d', f'. cbn [evaluate_recursion]. split; [exact E|]. split; [exact K1|]. split.
    + intros e' V A D P. apply A1; auto. simpl. lia.
    + intros e' V A. apply B1; auto.
Qed.
End Good.

Lemma fold_none {S} (l : list R) (g : S -> R -> option S) : fold_left (fun s x => let* st := s in g st x) l None = None.
Proof. induction l; simpl; auto. Qed.
Lemma fold_none_in {S} (l : list R) (g : S -> R -> option S) s x : In x l -> (forall st, g st x = None) ->
  fold_left (fun s x => let* st := s in g st x) l s = None.
Proof.
  revert s. induction l as [|y t IH]; intros s; [simpl; tauto|]. intros [->|H] G; cbn [fold_left].
  - destruct s; cbn [bindo]; [rewrite G|]; apply fold_none.
  - now apply IH.
Qed.
Lemma current_point_none d l n : In n l -> locate pts d n = None -> current_point pts d l = None.
Proof.
  induction l as [|m t IH]; simpl; [tauto|]. intros [->|H] E; [rewrite E; reflexivity|].
  destruct (locate pts d m); cbn [bindo]; auto. rewrite IH; auto.
Qed.
Lemma evaluate_rec_none dims : forall pre, names = pre ++ dims -> (forall n, In n names -> pts n <> []) -> forall d f,
  (exists n, In n dims /\ ~ NoDup (pts n)) \/ (exists n, In n pre /\ locate pts d n = None) ->
  evaluate_recursion names pts L dims (d, f) = None.
Proof.
  induction dims as [|name t IH]; intros pre En Ne d f H.
  - rewrite app_nil_r in En. subst pre. destruct H as [(n & [] & _)|(n & Hn & Hl)].
    cbn [evaluate_recursion fst]. rewrite (current_point_none d names n) by auto. reflexivity.
  - cbn [evaluate_recursion].
    assert (En' : names = (pre ++ [name]) ++ t) by (rewrite <- app_assoc; exact En).
    assert (Np : ~ In name pre).
    { rewrite En in ND. apply NoDup_remove_2 in ND. rewrite in_app_iff in ND. tauto. }
    assert (Inn : In name names) by (rewrite En; apply in_or_app; right; now left).
    destruct (pts name) as [|x0 xs] eqn:Ep. { exfalso. now apply (Ne name). }
    destruct H as [(n & [<-|Hn] & Hd)|(n & Hn & Hl)].
    + destruct (positions_dup (pts name) Hd) as (v & Hv & Kv). rewrite <- Ep.
      apply (fold_none_in (pts name) (fun st' x => evaluate_recursion names pts L t (dset (fst st') name x, snd st')) _ v Hv).
      intros st. apply (IH (pre ++ [name])); auto. right. exists name. split; [apply in_or_app; right; now left|].
      unfold locate. rewrite dget_set_eq. cbn [bindo]. destruct (positions v (pts name) 0) as [|a [|b l]] eqn:Q; auto. now apply Kv in Q.
    + cbn [fold_left bindo fst snd]. rewrite (IH (pre ++ [name])); auto.
      * apply (fold_none xs (fun st' x => evaluate_recursion names pts L t (dset (fst st') name x, snd st'))).
      * left. eauto.
    + cbn [fold_left bindo fst snd]. rewrite (IH (pre ++ [name])); auto.
      * apply (fold_none xs (fun st' x => evaluate_recursion names pts L t (dset (fst st') name x, snd st'))).
      * right. exists n. split; [apply in_or_app; now left|]. unfold locate in *.
        rewrite dget_set_ne by (intros ->; contradiction). exact Hl.
Qed.
End E.
