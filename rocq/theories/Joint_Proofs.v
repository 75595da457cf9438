(** Lemmas on the buffers of joint priors and on finite matrices. *)
From Coq Require Import String Reals List Bool Lia Lra Permutation.
From Verif Require Import Joint_Model.
Import ListNotations.
Open Scope list_scope.
Open Scope R_scope.

Lemma nodup_app_l {A} (l m : list A) : NoDup (l ++ m) -> NoDup l.
Proof. induction l as [|a l IH]; intros H; [constructor|]. inversion H; subst. constructor; [|apply IH; assumption]. intros I. apply H2, in_app_iff. left. exact I. Qed.
Section Buf.
Context {V : Type}.
Fixpoint assoc (k : string) (l : list (string * V)) : option V :=
  match l with [] => None | (a, v) :: t => if String.eqb k a then Some v else assoc k t end.
Definition view (names : list string) (P : list (string * V)) : buffer V := map (fun n => (n, assoc n P)) names.
Lemma view_nil names : reset names = view names [].
Proof. reflexivity. Qed.
Lemma view_keys names P : map fst (view names P) = names.
Proof. unfold view. rewrite map_map. cbn. apply map_id. Qed.
Lemma put_view names P k v : put k v (view names P) = view names ((k, v) :: P).
Proof.
  unfold put, view. rewrite map_map. apply map_ext. intros n. cbn [fst assoc].
  destruct (String.eqb n k); reflexivity.
Qed.
Lemma filled_view names P vs : filled (view names P) = Some vs <-> map (fun n => assoc n P) names = map Some vs.
Proof.
  revert vs. induction names as [|n t IH]; intros vs; cbn [view map filled].
  - split; [intros E; injection E as <-; reflexivity|]. destruct vs; [reflexivity|discriminate].
  - destruct (assoc n P) as [v|]; [|split; [discriminate|destruct vs; discriminate]].
    fold (view t P). destruct (filled (view t P)) as [ws|] eqn:E.
    + split.
      * intros H. injection H as <-. cbn. f_equal. apply IH. reflexivity.
      * destruct vs as [|w vs]; [discriminate|]. cbn. intros H. injection H as -> H. apply IH in H. congruence.
    + split; [discriminate|]. destruct vs as [|w vs]; [discriminate|]. cbn. intros H. injection H as -> H. apply IH in H. congruence.
Qed.
Lemma filled_none names P n : In n names -> assoc n P = None -> filled (view names P) = None.
Proof.
  intros H E. destruct (filled (view names P)) as [vs|] eqn:F; [|reflexivity].
  apply filled_view in F. exfalso. apply (in_map (fun n => assoc n P)) in H. rewrite F, E in H.
  apply in_map_iff in H. destruct H as (x & Hx & _). discriminate.
Qed.
Lemma assoc_in k P : In k (map fst P) -> exists v, assoc k P = Some v.
Proof.
  induction P as [|[a v] t IH]; intros H; [contradiction|]. cbn. destruct (String.eqb_spec k a) as [->|N]; [eauto|].
  destruct H as [H|H]; [cbn in H; congruence|auto].
Qed.
Lemma assoc_notin k P : ~ In k (map fst P) -> assoc k P = None.
Proof.
  induction P as [|[a v] t IH]; intros H; [reflexivity|]. cbn. destruct (String.eqb_spec k a) as [->|N]; [exfalso; apply H; left; reflexivity|].
  apply IH. intros X. apply H. right. exact X.
Qed.
Lemma assoc_unique k v P : NoDup (map fst P) -> In (k, v) P -> assoc k P = Some v.
Proof.
  induction P as [|[a w] t IH]; intros N H; [contradiction|]. cbn in *. inversion N; subst.
  destruct H as [H|H].
  - injection H as <- <-. rewrite String.eqb_refl. reflexivity.
  - destruct (String.eqb_spec k a) as [->|Hn]; [|apply IH; assumption].
    exfalso. apply H2. apply in_map_iff. exists (a, v). split; [reflexivity|exact H].
Qed.
Lemma assoc_perm P Q : NoDup (map fst P) -> Permutation P Q -> forall k, assoc k P = assoc k Q.
Proof.
  intros N H k.
  assert (NQ : NoDup (map fst Q)) by (apply (Permutation_NoDup (Permutation_map fst H) N)).
  destruct (assoc k Q) as [v|] eqn:E.
  - destruct (in_dec string_dec k (map fst Q)) as [I|I]; [|rewrite (assoc_notin k Q I) in E; discriminate].
    apply in_map_iff in I. destruct I as ([a w] & Ha & Hi). cbn in Ha. subst a.
    pose proof (assoc_unique k w Q NQ Hi) as E2. rewrite E in E2. injection E2 as ->.
    apply assoc_unique; [exact N|]. apply (Permutation_in _ (Permutation_sym H)). exact Hi.
  - apply assoc_notin. intros I. apply (Permutation_in _ (Permutation_map fst H)) in I.
    apply assoc_in in I. destruct I as [v Hv]. congruence.
Qed.
Lemma view_ext names P Q : (forall k, assoc k P = assoc k Q) -> view names P = view names Q.
Proof. intros H. unfold view. apply map_ext. intros n. rewrite H. reflexivity. Qed.
End Buf.

(** a whole round of calls *)
Section Round.
Context {V X : Type}.
Variable F : list V -> X.
Fixpoint run (b : buffer V) (calls : list (string * V)) : buffer V * list (option X) :=
  match calls with
  | [] => (b, [])
  | (k, v) :: t => let '(b1, r) := offer F b k v in let '(b2, l) := run b1 t in (b2, r :: l)
  end.
Lemma run_partial names : forall rest P, NoDup (map fst (rest ++ P)) ->
  (exists n, In n names /\ ~ In n (map fst (rest ++ P))) ->
  run (view names P) rest = (view names (rev rest ++ P), map (fun _ => None) rest).
Proof.
  induction rest as [|[k v] t IH]; intros P N (n & Hn & Hx); [reflexivity|].
  cbn [run]. unfold offer. rewrite put_view.
  rewrite (filled_none names ((k, v) :: P) n Hn).
  2:{ apply assoc_notin. intros I. apply Hx. rewrite map_app. apply in_app_iff. cbn in I. cbn.
      destruct I as [->|I]; [left; left; reflexivity|right; exact I]. }
  assert (PP : Permutation (map fst (t ++ (k, v) :: P)) (map fst (((k, v) :: t) ++ P))).
  { apply Permutation_map. apply Permutation_sym, Permutation_middle. }
  rewrite IH.
  - cbn [rev]. rewrite <- app_assoc. reflexivity.
  - apply (Permutation_NoDup (Permutation_sym PP) N).
  - exists n. split; [exact Hn|]. intros I. apply Hx. apply (Permutation_in _ PP). exact I.
Qed.
Lemma run_round names calls vs : NoDup names -> Permutation (map fst calls) names -> names <> [] ->
  map (fun n => assoc n calls) names = map Some vs ->
  exists pre last, calls = pre ++ [last] /\
  run (reset names) calls = (reset names, map (fun _ => None) pre ++ [Some (F vs)]).
Proof.
  intros ND PM NE E.
  destruct (@exists_last _ calls) as (pre & last & ->).
  { intros ->. cbn in PM. apply Permutation_nil in PM. contradiction. }
  exists pre, last. split; [reflexivity|].
  assert (NC : NoDup (map fst (pre ++ [last]))) by (apply (Permutation_NoDup (Permutation_sym PM) ND)).
  destruct last as [k v].
  assert (K : forall a b c, run a (b ++ c) = (fst (run (fst (run a b)) c), snd (run a b) ++ snd (run (fst (run a b)) c))).
  { clear. intros a b. revert a. induction b as [|[k v] b IH]; intros a c; cbn [run app].
    - cbn [fst snd app]. destruct (run a c); reflexivity.
    - destruct (offer F a k v) as [b1 r]. rewrite (IH b1 c). destruct (run b1 b) as [b2 l] eqn:Eb. cbn [fst snd].
      cbn [app]. destruct (run b2 c); reflexivity. }
  rewrite K. rewrite view_nil, (run_partial names pre []).
  - cbn [fst snd]. rewrite app_nil_r. cbn [run]. unfold offer. rewrite put_view, view_keys.
    assert (F1 : filled (view names ((k, v) :: rev pre)) = Some vs).
    { apply filled_view. rewrite <- E. apply map_ext. intros n. apply assoc_perm.
      - apply (Permutation_NoDup (l := map fst (pre ++ [(k, v)]))); [|exact NC]. apply Permutation_map.
        apply Permutation_trans with ((k, v) :: pre); [apply Permutation_sym, Permutation_cons_append|].
        apply perm_skip, Permutation_rev.
      - apply Permutation_sym. apply Permutation_trans with ((k, v) :: pre); [apply Permutation_sym, Permutation_cons_append|].
        apply perm_skip, Permutation_rev. }
    rewrite F1. reflexivity.
  - rewrite app_nil_r. rewrite map_app in NC. apply nodup_app_l in NC. exact NC.
  - exists k. split.
    + apply (Permutation_in _ PM). rewrite map_app. apply in_app_iff. right. left. reflexivity.
    + rewrite app_nil_r. rewrite map_app in NC. cbn in NC. apply NoDup_remove_2 in NC. rewrite app_nil_r in NC. exact NC.
Qed.
End Round.

(** ** finite sums and matrices *)
Lemma vsum_ext n f g : (forall i, (i < n)%nat -> f i = g i) -> vsum n f = vsum n g.
Proof. induction n; intros H; cbn; [reflexivity|]. rewrite IHn by (intros; apply H; lia). rewrite H by lia. reflexivity. Qed.
Lemma vsum_plus n f g : vsum n (fun i => f i + g i) = vsum n f + vsum n g.
Proof. induction n; cbn; [lra|]. rewrite IHn. ring. Qed.
Lemma vsum_scal n c f : vsum n (fun i => c * f i) = c * vsum n f.
Proof. induction n; cbn; [lra|]. rewrite IHn. ring. Qed.
Lemma vsum_scal_r n c f : vsum n (fun i => f i * c) = vsum n f * c.
Proof. induction n; cbn; [lra|]. rewrite IHn. ring. Qed.
Lemma vsum_zero n f : (forall i, (i < n)%nat -> f i = 0) -> vsum n f = 0.
Proof. intros H. rewrite (vsum_ext n f (fun _ => 0) H). clear. induction n; cbn; lra. Qed.
Lemma vsum_swap n m f : vsum n (fun i => vsum m (fun j => f i j)) = vsum m (fun j => vsum n (fun i => f i j)).
Proof.
  induction n; cbn; [symmetry; apply vsum_zero; reflexivity|]. rewrite IHn, <- vsum_plus. reflexivity.
Qed.
Lemma vsum_single n i f : (i < n)%nat -> (forall j, (j < n)%nat -> j <> i -> f j = 0) -> vsum n f = f i.
Proof.
  induction n; intros Hi H; [lia|]. cbn. destruct (Nat.eq_dec i n) as [->|Hn].
  - rewrite vsum_zero by (intros j Hj; apply H; lia). lra.
  - rewrite IHn by (try lia; intros j Hj; apply H; lia). rewrite (H n) by lia. lra.
Qed.
Lemma diag_l n v A i j : (i < n)%nat -> mmul n (diag v) A i j = v i * A i j.
Proof.
  intros Hi. unfold mmul, diag. rewrite (vsum_single n i) by (try lia; intros k Hk Hn; (destruct (Nat.eqb_spec i k); [congruence|ring])).
  rewrite Nat.eqb_refl. reflexivity.
Qed.
Lemma diag_r n v A i j : (j < n)%nat -> mmul n A (diag v) i j = A i j * v j.
Proof.
  intros Hj. unfold mmul, diag. rewrite (vsum_single n j) by (try lia; intros k Hk Hn; (destruct (Nat.eqb_spec k j); [congruence|ring])).
  rewrite Nat.eqb_refl. reflexivity.
Qed.
Lemma mmul_ext n A A' B B' i j : (forall k, (k < n)%nat -> A i k = A' i k) -> (forall k, (k < n)%nat -> B k j = B' k j) ->
  mmul n A B i j = mmul n A' B' i j.
Proof. intros H1 H2. apply vsum_ext. intros k Hk. rewrite H1, H2 by exact Hk. reflexivity. Qed.
Lemma mmul_assoc n A B C i j : mmul n (mmul n A B) C i j = mmul n A (mmul n B C) i j.
Proof.
  unfold mmul. rewrite (vsum_ext n _ (fun k => vsum n (fun l => A i l * B l k * C k j))).
  2:{ intros k _. rewrite vsum_scal_r. reflexivity. }
  rewrite vsum_swap. apply vsum_ext. intros l _. rewrite <- vsum_scal. apply vsum_ext. intros k _. ring.
Qed.
Lemma ident_l n A i j : (i < n)%nat -> mmul n ident A i j = A i j.
Proof. intros H. unfold ident. rewrite diag_l by exact H. ring. Qed.
Lemma ident_r n A i j : (j < n)%nat -> mmul n A ident i j = A i j.
Proof. intros H. unfold ident. rewrite diag_r by exact H. ring. Qed.

(** more unknowns than equations: a non-zero solution *)
Definition skip (p j : nat) : nat := if Nat.ltb j p then j else S j.
Lemma vsum_skip n p f : (p <= n)%nat -> vsum (S n) f = f p + vsum n (fun j => f (skip p j)).
Proof.
  revert p. induction n; intros p Hp.
  - assert (p = 0)%nat by lia. subst. cbn. lra.
  - cbn [vsum]. destruct (Nat.eq_dec p (S n)) as [->|Hn].
    + rewrite Rplus_comm. f_equal.
      rewrite (vsum_ext n (fun j => f (skip (S n) j)) f).
      2:{ intros i Hi. unfold skip. destruct (Nat.ltb_spec i (S n)); [reflexivity|lia]. }
      unfold skip. destruct (Nat.ltb_spec n (S n)); [reflexivity|lia].
    + change (vsum n f + f n) with (vsum (S n) f). rewrite (IHn p) by lia. unfold skip at 3.
      destruct (Nat.ltb_spec n p); [lia|]. ring.
Qed.
Lemma underdetermined : forall m n (a : mat), (m < n)%nat ->
  exists x : vec, (exists j, (j < n)%nat /\ x j <> 0) /\ forall i, (i < m)%nat -> vsum n (fun j => a i j * x j) = 0.
Proof.
  induction m as [|m IH]; intros n a Hmn.
  - exists (fun _ => 1). split; [exists 0%nat; split; [lia|lra]|]. intros; lia.
  - destruct (Nat.eq_dec n 0) as [->|Hn0]; [lia|].
    assert (D : (forall j, (j < n)%nat -> a m j = 0) \/ exists p, (p < n)%nat /\ a m p <> 0).
    { clear. induction n as [|n IHn]; [left; intros; lia|].
      destruct IHn as [H|(p & Hp & H)]; [|right; exists p; split; [lia|exact H]].
      destruct (Req_dec (a m n) 0) as [E|E].
      - left. intros j Hj. destruct (Nat.eq_dec j n) as [->|]; [exact E|apply H; lia].
      - right. exists n. split; [lia|exact E]. }
    destruct D as [Hz|(p & Hp & Hz)].
    + destruct (IH n a) as (x & Hx & Hs); [lia|]. exists x. split; [exact Hx|].
      intros i Hi. destruct (Nat.eq_dec i m) as [->|]; [|apply Hs; lia].
      apply vsum_zero. intros j Hj. rewrite Hz by exact Hj. ring.
    + destruct n as [|n]; [lia|].
      destruct (IH n (fun i j => a i (skip p j) - a i p * a m (skip p j) / a m p)) as (y & (j0 & Hj0 & Hy) & Hs); [lia|].
      set (t := - vsum n (fun j => a m (skip p j) * y j) / a m p).
      set (x := fun j => if Nat.eqb j p then t else y (if Nat.ltb j p then j else (j - 1)%nat)).
      assert (Xs : forall j, x (skip p j) = y j).
      { intros j. unfold x, skip. destruct (Nat.ltb_spec j p).
        - destruct (Nat.eqb_spec j p); [lia|]. destruct (Nat.ltb_spec j p); [reflexivity|lia].
        - destruct (Nat.eqb_spec (S j) p); [lia|]. destruct (Nat.ltb_spec (S j) p); [lia|]. f_equal. lia. }
      assert (Xp : x p = t) by (unfold x; rewrite Nat.eqb_refl; reflexivity).
      exists x. split.
      * exists (skip p j0). split; [unfold skip; destruct (Nat.ltb_spec j0 p); lia|]. rewrite Xs. exact Hy.
      * assert (S0 : forall i, vsum (S n) (fun j => a i j * x j) = a i p * t + vsum n (fun j => a i (skip p j) * y j)).
        { intros i. rewrite (vsum_skip n p) by lia. rewrite Xp. f_equal. apply vsum_ext. intros j _. rewrite Xs. reflexivity. }
        intros i Hi. rewrite S0. destruct (Nat.eq_dec i m) as [->|Hne].
        -- unfold t. field. exact Hz.
        -- specialize (Hs i ltac:(lia)). cbv beta in Hs.
           rewrite (vsum_ext n _ (fun j => a i (skip p j) * y j + (- (a i p / a m p)) * (a m (skip p j) * y j))) in Hs
             by (intros j _; field; exact Hz).
           rewrite vsum_plus, vsum_scal in Hs. unfold t. rewrite <- Hs. field. exact Hz.
Qed.
Lemma surjective n (A : mat) :
  (forall x : vec, (forall i, (i < n)%nat -> vsum n (fun j => A i j * x j) = 0) -> forall j, (j < n)%nat -> x j = 0) ->
  forall b : vec, exists x : vec, forall i, (i < n)%nat -> vsum n (fun j => A i j * x j) = b i.
Proof.
  intros Inj b.
  destruct (underdetermined n (S n) (fun i j => if Nat.eqb j n then - b i else A i j)) as (x & (j0 & Hj0 & Hx) & Hs); [lia|].
  assert (E : forall i, (i < n)%nat -> vsum n (fun j => A i j * x j) = b i * x n).
  { intros i Hi. specialize (Hs i Hi). cbn [vsum] in Hs. rewrite Nat.eqb_refl in Hs.
    rewrite (vsum_ext n _ (fun j => A i j * x j)) in Hs; [lra|].
    intros j Hj. destruct (Nat.eqb_spec j n); [lia|reflexivity]. }
  destruct (Req_dec (x n) 0) as [Z|Z].
  - exfalso. apply Hx. destruct (Nat.eq_dec j0 n) as [->|]; [exact Z|]. apply (Inj x); [|lia].
    intros i Hi. rewrite E by exact Hi. rewrite Z. ring.
  - exists (fun j => x j / x n). intros i Hi.
    rewrite (vsum_ext n _ (fun j => A i j * x j * / x n)) by (intros; unfold Rdiv; ring).
    rewrite vsum_scal_r, E by exact Hi. field. exact Z.
Qed.
(** a left inverse of a square matrix is a right inverse *)
Lemma left_right n (A B : mat) : (forall i j, (i < n)%nat -> (j < n)%nat -> mmul n B A i j = ident i j) ->
  forall i j, (i < n)%nat -> (j < n)%nat -> mmul n A B i j = ident i j.
Proof.
  intros L.
  assert (Inj : forall x : vec, (forall i, (i < n)%nat -> vsum n (fun j => A i j * x j) = 0) -> forall j, (j < n)%nat -> x j = 0).
  { intros x Hx j Hj.
    assert (E : vsum n (fun k => mmul n B A j k * x k) = 0).
    { unfold mmul. rewrite (vsum_ext n _ (fun k => vsum n (fun l => B j l * A l k * x k))) by (intros; rewrite vsum_scal_r; reflexivity).
      rewrite vsum_swap. apply vsum_zero. intros l Hl.
      rewrite (vsum_ext n _ (fun i => B j l * (A l i * x i))) by (intros; ring). rewrite vsum_scal, Hx by exact Hl. ring. }
    rewrite (vsum_single n j) in E by (try exact Hj; intros k Hk Hn; rewrite L by assumption; unfold ident, diag; (destruct (Nat.eqb_spec j k); [congruence|ring])).
    rewrite L in E by assumption. unfold ident, diag in E. rewrite Nat.eqb_refl in E. lra. }
  intros i j Hi Hj.
  destruct (surjective n A Inj (fun i => ident i j)) as (x & Hx).
  (* B j-th column equals x *)
  assert (Bx : forall k, (k < n)%nat -> B k j = x k).
  { intros k Hk.
    assert (E1 : vsum n (fun l => B k l * ident l j) = B k j) by (apply (ident_r n B k j Hj)).
    rewrite <- E1.
    rewrite (vsum_ext n _ (fun l => vsum n (fun m => B k l * A l m * x m))).
    2:{ intros l Hl. rewrite <- (Hx l Hl), <- vsum_scal. apply vsum_ext. intros; ring. }
    rewrite vsum_swap.
    rewrite (vsum_ext n _ (fun m => mmul n B A k m * x m)) by (intros; unfold mmul; rewrite vsum_scal_r; reflexivity).
    rewrite (vsum_single n k) by (try exact Hk; intros m Hm Hn; rewrite L by assumption; unfold ident, diag; (destruct (Nat.eqb_spec k m); [congruence|ring])).
    rewrite L by assumption. unfold ident, diag. rewrite Nat.eqb_refl. ring. }
  unfold mmul. rewrite (vsum_ext n _ (fun k => A i k * x k)) by (intros k Hk; rewrite Bx by exact Hk; reflexivity).
  apply Hx. exact Hi.
Qed.
