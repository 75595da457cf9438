(** C217: the arguments of MultivariateGaussianDist and its modes. *)
From Coq Require Import String Reals List Bool Arith Lra Lia.
From Verif Require Import Joint_Model Joint_Proofs Mvg_Model.
Import ListNotations.
Open Scope list_scope.
Open Scope R_scope.

(** ** Bounds *)
Definition elt (a b : ext) : Prop :=
  match a, b with
  | MInf, Fin _ | MInf, PInf | Fin _, PInf => True
  | Fin x, Fin y => x < y
  | _, _ => False
  end.
Lemma ele_elt a b : ele b a = false <-> elt a b.
Proof.
  destruct a, b; cbn; try (split; intro H; try exact I; try discriminate H; try reflexivity; contradiction).
  destruct (Rle_dec x0 x); split; intro H; try discriminate H; try lra; reflexivity.
Qed.
Lemma check_bounds_ok l : forall bs, check_bounds l = Ok bs <-> Forall2 (fun e b => e = Several [fst b; snd b] /\ elt (fst b) (snd b)) l bs.
Proof.
  induction l as [|e l IH]; intros bs; cbn.
  - split; intro H; [injection H as <-; constructor | inversion H; reflexivity].
  - split.
    + intro H. destruct (check_bound e) as [p|] eqn:E; cbn in H; [|discriminate].
      destruct (check_bounds l) as [ps|] eqn:F; cbn in H; [|discriminate]. injection H as <-.
      constructor; [|apply IH; reflexivity].
      destruct e as [|[|lo [|hi [|? ?]]]]; cbn in E; try discriminate.
      destruct (ele hi lo) eqn:G; [discriminate|]. injection E as <-. cbn. split; [reflexivity|]. now apply ele_elt.
    + intro H. inversion H as [|? b ? bs' [A B] C]; subst. cbn. apply ele_elt in B. rewrite B. cbn.
      apply IH in C. rewrite C. cbn. destruct b; reflexivity.
Qed.
(** A list of bounds is accepted exactly if there is one pair per name, each with
    its lower end strictly below its upper end, and is then used as given. *)
Theorem C217_bounds n l bs : set_bounds n (BList l) = Ok bs <->
  length l = n /\ Forall2 (fun e b => e = Several [fst b; snd b] /\ elt (fst b) (snd b)) l bs.
Proof.
  unfold set_bounds. destruct (length l =? n)%nat eqn:E.
  - apply Nat.eqb_eq in E. rewrite check_bounds_ok. tauto.
  - apply Nat.eqb_neq in E. split; [discriminate | intros [? _]; contradiction].
Qed.
(** Bounds in any other container are silently dropped: a tuple of proper bounds
    gives an unbounded distribution. *)
Theorem C217_tuple_bounds_refuted : exists l bs, set_bounds 2 (BList l) = Ok bs /\
  bs = [(Fin 0, Fin 1); (Fin 2, Fin 3)] /\ set_bounds 2 (BOther l) = Ok [(MInf, PInf); (MInf, PInf)].
Proof.
  exists [Several [Fin 0; Fin 1]; Several [Fin 2; Fin 3]], [(Fin 0, Fin 1); (Fin 2, Fin 3)].
  split; [|split; reflexivity]. apply C217_bounds. split; [reflexivity|]. repeat constructor; cbn; lra.
Qed.

(** ** One mode *)
Section Props.
Variables (eigs : mat -> option (list R)) (normal : mat -> bool) (n : nat).
Notation add_mode := (add_mode eigs normal n).
Notation add_modes := (add_modes eigs normal n).
Notation finish := (finish eigs normal).
Notation init := (init eigs normal n).

(** what numpy's allclose leaves of symmetry *)
Definition nearly_symmetric (c : mat) : Prop :=
  forall i j, (i < n)%nat -> (j < n)%nat -> Rabs (c i j - c j i) <= 1 / 10 ^ 8 + 1 / 10 ^ 5 * Rabs (c j i).
(** correlations accepted by eig and scipy *)
Definition positive_definite (r : mat) : Prop := exists ev, eigs r = Some ev /\ (forall x, In x ev -> 0 < x) /\ normal r = true.
(** the means, standard deviations, correlations and covariance a call stores *)
Definition means_of (a : args) (m : list nest) : Prop :=
  (a_mus a = None /\ m = repeat (Num 0) n) \/ exists k, a_mus a = Some (Seq k m).
Inductive spread_of (a : args) (sg : vec) (r c : mat) : Prop :=
  | From_cov v : a_cov a = Some v -> c = at2 v -> shape v = Some [n; n] -> nearly_symmetric c ->
      (forall i, (i < n)%nat -> 0 < c i i /\ 0 < sg i /\ sg i * sg i = c i i) ->
      (forall i j, (i < n)%nat -> (j < n)%nat -> r i j = c i j / (sg i * sg j)) -> spread_of a sg r c
  | From_corr v k l : a_cov a = None -> a_corr a = Some v -> a_sigmas a = Some (Seq k l) -> r = at2 v -> shape v = Some [n; n] ->
      nearly_symmetric r -> (forall i, (i < n)%nat -> r i i = 1) -> length l = n -> sg = at1 (Seq k l) ->
      (forall i j, (i < n)%nat -> (j < n)%nat -> c i j = sg i * sg j * r i j) -> spread_of a sg r c
  | From_neither : a_cov a = None -> a_corr a = None \/ a_sigmas a = None ->
      sg = (fun _ => 1) -> r = ident -> c = ident -> spread_of a sg r c.
Definition weight_of (a : args) : R := match a_weight a with Some x => x | None => 1 end.

Lemma below_n_iff m f : below_n m f = true <-> forall i, (i < m)%nat -> f i = true.
Proof.
  unfold below_n. rewrite forallb_forall. split; intros H i Hi; apply H; [apply in_seq; lia | apply in_seq in Hi; lia].
Qed.
Lemma symmetric_iff c : symmetric n c = true <-> nearly_symmetric c.
Proof.
  unfold symmetric, nearly_symmetric. rewrite below_n_iff.
  split.
  - intros H i j Hi Hj. specialize (H i Hi). rewrite below_n_iff in H. specialize (H j Hj).
    unfold close in H. destruct (Rle_dec _ _); [assumption | discriminate].
  - intros H i Hi. apply below_n_iff. intros j Hj. specialize (H i j Hi Hj). unfold close.
    destruct (Rle_dec _ _); [reflexivity | contradiction].
Qed.
Lemma square_iff v : square n v = true <-> shape v = Some [n; n].
Proof.
  unfold square. split.
  - destruct (shape v) as [[|a [|b [|? ?]]]|]; try discriminate. intro H. apply andb_prop in H as [A B].
    apply Nat.eqb_eq in A, B. subst. reflexivity.
  - intros ->. now rewrite Nat.eqb_refl.
Qed.
Lemma none_such (P : nat -> Prop) (dec : forall i, {P i} + {~ P i}) m :
  existsb (fun i => if dec i then true else false) (seq 0 m) = false <-> forall i, (i < m)%nat -> ~ P i.
Proof.
  split.
  - intros H i Hi Hp. assert (T : existsb (fun i => if dec i then true else false) (seq 0 m) = true).
    { apply existsb_exists. exists i. split; [apply in_seq; lia|]. destruct (dec i); [reflexivity | contradiction]. }
    congruence.
  - intro H. destruct (existsb _ _) eqn:E; [|reflexivity]. apply existsb_exists in E as (i & A & B).
    apply in_seq in A. destruct (dec i) as [Hp|]; [|discriminate]. exfalso. apply (H i); [lia | assumption].
Qed.
Lemma finish_done d r w : forall d', finish d r w = (d', None) <->
  exists ev, eigs r = Some ev /\ (forall x, In x ev -> 0 < x) /\ normal r = true /\
             d' = push_mvn (push_weight (push_eig d ev) (match w with Some x => x | None => 1 end)) r.
Proof.
  intro d'. unfold Mvg_Model.finish. split.
  - destruct (eigs r) as [ev|]; [|discriminate]. destruct (existsb _ ev) eqn:E; [discriminate|].
    destruct (normal r) eqn:N; [|discriminate]. intro H. injection H as <-. exists ev. repeat split; auto.
    intros x Hx. destruct (Rlt_dec 0 x) as [|G]; [assumption|].
    assert (T : existsb (fun x => if Rle_dec x 0 then true else false) ev = true).
    { apply existsb_exists. exists x. split; [assumption|]. destruct (Rle_dec x 0); [reflexivity | lra]. }
    congruence.
  - intros (ev & -> & P & -> & ->). destruct (existsb _ ev) eqn:E; [|reflexivity].
    apply existsb_exists in E as (x & Hx & B). specialize (P x Hx). destruct (Rle_dec x 0); [lra | discriminate].
Qed.

Definition appended (d d' : dist) m sg r c w ev : Prop :=
  mus d' = mus d ++ [m] /\ covs d' = covs d ++ [c] /\ corrcoefs d' = corrcoefs d ++ [r] /\ sigmas d' = sigmas d ++ [sg] /\
  eigvalues d' = eigvalues d ++ [ev] /\ weights d' = weights d ++ [w] /\ nmodes d' = S (nmodes d) /\ mvn d' = mvn d ++ [r].

Lemma cov_correlation c i j : (i < n)%nat -> (j < n)%nat ->
  mmul n (mmul n (diag (fun i => / sqrt (c i i))) c) (diag (fun i => / sqrt (c i i))) i j = c i j / (sqrt (c i i) * sqrt (c j j)).
Proof.
  intros Hi Hj. rewrite diag_r by assumption. rewrite diag_l by assumption. unfold Rdiv. rewrite Rinv_mult. ring.
Qed.
(** A call of add_mode which succeeds appends one entry to every list: the means as
    given (zeros if none), and standard deviations, correlations and covariance that
    belong together, of the right size, symmetric to within 1e-8 + 1e-5 of an entry
    and positive definite; covariances win over correlations. *)
Theorem C217_added d a d' : add_mode d a = (d', None) ->
  exists m sg r c ev, appended d d' m sg r c (weight_of a) ev /\ means_of a m /\ spread_of a sg r c /\
    eigs r = Some ev /\ (forall x, In x ev -> 0 < x) /\ normal r = true.
Proof.
  unfold Mvg_Model.add_mode. set (mo := match a_mus a with None => _ | Some (Num _) => _ | Some (Seq _ l) => _ end).
  assert (M : forall m, mo = Some m -> means_of a m).
  { intros m. unfold mo, means_of. destruct (a_mus a) as [[|k l]|]; intro H; [discriminate | injection H as ->; right; eauto | injection H as <-; left; auto]. }
  clearbody mo. destruct mo as [m|]; [|discriminate]. specialize (M m eq_refl).
  destruct (a_cov a) as [v|] eqn:C.
  - unfold with_cov. destruct (shape v) as [s|] eqn:Sh; [|discriminate].
    destruct (square n v) eqn:Sq; cbn [negb]; [|discriminate]. apply square_iff in Sq.
    destruct (symmetric n (at2 v)) eqn:Sy; cbn [negb]; [|discriminate]. apply symmetric_iff in Sy.
    destruct (existsb (fun i => if Req_EM_T (at2 v i i) 0 then true else false) (seq 0 n)) eqn:Z; [discriminate|].
    destruct (existsb (fun i => if Rlt_dec (at2 v i i) 0 then true else false) (seq 0 n)) eqn:Ng; [discriminate|].
    intro H. apply finish_done in H as (ev & E1 & E2 & E3 & ->).
    pose proof (proj1 (none_such (fun i => at2 v i i = 0) (fun i => Req_EM_T (at2 v i i) 0) n) Z) as Z'.
    pose proof (proj1 (none_such (fun i => at2 v i i < 0) (fun i => Rlt_dec (at2 v i i) 0) n) Ng) as N'.
    exists m, (fun i => sqrt (at2 v i i)), (mmul n (mmul n (diag (fun i => / sqrt (at2 v i i))) (at2 v)) (diag (fun i => / sqrt (at2 v i i)))), (at2 v), ev.
    split; [unfold appended, weight_of; cbn; repeat split; reflexivity|]. split; [exact M|]. split; [|auto].
    apply (From_cov a _ _ _ v); auto.
    + intros i Hi. specialize (Z' i Hi). specialize (N' i Hi). assert (0 < at2 v i i) by lra.
      split; [assumption|]. split; [now apply sqrt_lt_R0 | apply sqrt_sqrt; lra].
    + intros i j Hi Hj. now apply cov_correlation.
  - destruct (a_corr a) as [v|] eqn:Co; [destruct (a_sigmas a) as [s|] eqn:Si|].
    + unfold with_corr. destruct (shape v) as [s0|] eqn:Sh; [|discriminate].
      destruct (square n v) eqn:Sq; cbn [negb]; [|discriminate]. apply square_iff in Sq.
      destruct (symmetric n (at2 v)) eqn:Sy; cbn [negb]; [|discriminate]. apply symmetric_iff in Sy.
      destruct (below_n n _) eqn:D; cbn [negb]; [|discriminate]. rewrite below_n_iff in D.
      destruct s as [|k l]; [discriminate|]. destruct (length l =? n)%nat eqn:L; cbn [negb]; [|discriminate]. apply Nat.eqb_eq in L.
      intro H. apply finish_done in H as (ev & E1 & E2 & E3 & ->).
      exists m, (at1 (Seq k l)), (at2 v), (mmul n (diag (at1 (Seq k l))) (mmul n (at2 v) (diag (at1 (Seq k l))))), ev.
      split; [unfold appended, weight_of; cbn; repeat split; reflexivity|]. split; [exact M|]. split; [|auto].
      apply (From_corr a _ _ _ v k l); auto.
      * intros i Hi. specialize (D i Hi). cbn beta in D. destruct (Req_EM_T (at2 v i i) 1); [assumption | discriminate].
      * intros i j Hi Hj. rewrite diag_l by assumption. rewrite diag_r by assumption. ring.
    + intro H. apply finish_done in H as (ev & E1 & E2 & E3 & ->).
      exists m, (fun _ => 1), ident, ident, ev. split; [unfold appended, weight_of; cbn; repeat split; reflexivity|].
      split; [exact M|]. split; [|auto]. apply From_neither; auto.
    + intro H. apply finish_done in H as (ev & E1 & E2 & E3 & ->).
      exists m, (fun _ => 1), ident, ident, ev. split; [unfold appended, weight_of; cbn; repeat split; reflexivity|].
      split; [exact M|]. split; [|auto]. apply From_neither; auto.
Qed.

(** Conversely these checks are all: means of any length, and any standard deviations
    beside proper correlations, are accepted. *)
Theorem C217_accepted d a m : means_of a m -> 
  ((exists v, a_cov a = Some v /\ shape v = Some [n; n] /\ nearly_symmetric (at2 v) /\ (forall i, (i < n)%nat -> 0 < at2 v i i) /\
     (forall r, (forall i j, (i < n)%nat -> (j < n)%nat -> r i j = at2 v i j / (sqrt (at2 v i i) * sqrt (at2 v j j))) -> positive_definite r)) \/
   (a_cov a = None /\ exists v k l, a_corr a = Some v /\ a_sigmas a = Some (Seq k l) /\ shape v = Some [n; n] /\ nearly_symmetric (at2 v) /\
     (forall i, (i < n)%nat -> at2 v i i = 1) /\ length l = n /\ positive_definite (at2 v)) \/
   (a_cov a = None /\ (a_corr a = None \/ a_sigmas a = None) /\ positive_definite ident)) ->
  exists d', add_mode d a = (d', None).
Proof.
  intros M. unfold Mvg_Model.add_mode.
  replace (match a_mus a with None => Some (repeat (Num 0) n) | Some (Num _) => None | Some (Seq _ l) => Some l end) with (Some m)
    by (destruct M as [[-> ->] | [k ->]]; reflexivity).
  assert (F : forall d r w, positive_definite r -> exists d', finish d r w = (d', None)).
  { intros d0 r w (ev & A & B & C). eexists. apply finish_done. exists ev. repeat split; eauto. }
  intros [(v & C & Sh & Sy & Po & Pd) | [(C & v & k & l & Co & Si & Sh & Sy & On & Le & Pd) | (C & Ne & Pd)]]; rewrite C.
  - unfold with_cov. rewrite Sh. apply square_iff in Sh. rewrite Sh. apply symmetric_iff in Sy. rewrite Sy. cbn [negb].
    rewrite (proj2 (none_such (fun i => at2 v i i = 0) (fun i => Req_EM_T (at2 v i i) 0) n)) by (intros i Hi; specialize (Po i Hi); lra).
    rewrite (proj2 (none_such (fun i => at2 v i i < 0) (fun i => Rlt_dec (at2 v i i) 0) n)) by (intros i Hi; specialize (Po i Hi); lra).
    apply F. apply Pd. intros i j Hi Hj. now apply cov_correlation.
  - rewrite Co, Si. unfold with_corr. rewrite Sh. apply square_iff in Sh. rewrite Sh. apply symmetric_iff in Sy. rewrite Sy. cbn [negb].
    rewrite (proj2 (below_n_iff n _)) by (intros i Hi; rewrite (On i Hi); destruct (Req_EM_T 1 1); [reflexivity | contradiction]).
    cbn [negb]. rewrite Le, Nat.eqb_refl. cbn [negb]. now apply F.
  - destruct (a_corr a); [destruct (a_sigmas a); [destruct Ne; discriminate|]|]; now apply F.
Qed.

(** ** All modes *)
Definition aligned (d : dist) : Prop :=
  length (mus d) = nmodes d /\ length (covs d) = nmodes d /\ length (corrcoefs d) = nmodes d /\ length (sigmas d) = nmodes d /\
  length (eigvalues d) = nmodes d /\ length (weights d) = nmodes d /\ length (mvn d) = nmodes d.
(** mode [i] of [d] is the one described by [a] *)
Definition mode_is (d : dist) (i : nat) (a : args) : Prop := exists m sg r c,
  nth_error (mus d) i = Some m /\ nth_error (sigmas d) i = Some sg /\ nth_error (corrcoefs d) i = Some r /\ nth_error (covs d) i = Some c /\
  nth_error (weights d) i = Some (weight_of a) /\ nth_error (mvn d) i = Some r /\
  means_of a m /\ spread_of a sg r c /\ positive_definite r.
Lemma nth_error_snoc {A} (l : list A) x : nth_error (l ++ [x]) (length l) = Some x.
Proof. rewrite nth_error_app2, Nat.sub_diag by lia. reflexivity. Qed.
Lemma nth_error_keep {A} (l : list A) y i x : nth_error l i = Some x -> nth_error (l ++ [y]) i = Some x.
Proof. intro H. rewrite nth_error_app1; [assumption|]. apply nth_error_Some. congruence. Qed.
Lemma appended_aligned d d' m sg r c w ev : appended d d' m sg r c w ev -> aligned d -> aligned d'.
Proof.
  unfold appended, aligned. intros (-> & -> & -> & -> & -> & -> & -> & ->) (A & B & C & D & E & F & G).
  rewrite !app_length, A, B, C, D, E, F, G. cbn. repeat split; lia.
Qed.
Lemma mode_is_kept d a d' i b : add_mode d a = (d', None) -> mode_is d i b -> mode_is d' i b.
Proof.
  intros H (m & sg & r & c & A1 & A2 & A3 & A4 & A5 & A6 & A7).
  destruct (C217_added _ _ _ H) as (m' & sg' & r' & c' & ev & (B1 & B2 & B3 & B4 & _ & B6 & _ & B8) & _).
  exists m, sg, r, c. rewrite B1, B2, B3, B4, B6, B8. repeat split; try (apply nth_error_keep; assumption); apply A7.
Qed.
Lemma add_modes_spec l : forall d d', aligned d -> add_modes d l = (d', None) ->
  aligned d' /\ nmodes d' = (nmodes d + length l)%nat /\ (forall i b, mode_is d i b -> mode_is d' i b) /\
  forall k a, nth_error l k = Some a -> mode_is d' (nmodes d + k) a.
Proof.
  induction l as [|a l IH]; intros d d' Al H; cbn in H.
  - injection H as <-. split; [assumption|]. split; [cbn; lia|]. split; [auto|]. intros [|k] a E; discriminate.
  - destruct (add_mode d a) as [d1 [e|]] eqn:E; [discriminate|].
    destruct (C217_added _ _ _ E) as (m & sg & r & c & ev & Ap & Me & Sp & E1 & E2 & E3).
    destruct (IH d1 d' (appended_aligned _ _ _ _ _ _ _ _ Ap Al) H) as (B1 & B2 & B3 & B4).
    assert (Nm : nmodes d1 = S (nmodes d)) by apply Ap.
    split; [assumption|]. split; [cbn; rewrite B2, Nm; lia|]. split.
    + intros i b Hb. apply B3. eapply mode_is_kept; eassumption.
    + intros [|k] b Hb; cbn in Hb.
      * injection Hb as <-. rewrite Nat.add_0_r. apply B3.
        destruct Ap as (P1 & P2 & P3 & P4 & P5 & P6 & P7 & P8). destruct Al as (L1 & L2 & L3 & L4 & L5 & L6 & L7).
        exists m, sg, r, c. rewrite P1, P2, P3, P4, P6, P8.
        split; [rewrite <- L1; apply nth_error_snoc|]. split; [rewrite <- L4; apply nth_error_snoc|].
        split; [rewrite <- L3; apply nth_error_snoc|]. split; [rewrite <- L2; apply nth_error_snoc|].
        split; [rewrite <- L6; apply nth_error_snoc|]. split; [rewrite <- L7; apply nth_error_snoc|].
        split; [assumption|]. split; [assumption|]. exists ev. auto.
      * specialize (B4 k b Hb). rewrite Nm in B4. now replace (nmodes d + S k)%nat with (S (nmodes d) + k)%nat by lia.
Qed.
(** As long as no call fails, mode i consists of what the i-th call asked for, in all lists. *)
Theorem C217_modes l d : add_modes no_modes l = (d, None) ->
  aligned d /\ nmodes d = length l /\ forall i a, nth_error l i = Some a -> mode_is d i a.
Proof.
  intro H. destruct (add_modes_spec l no_modes d) as (A & B & _ & D); [unfold aligned; cbn; auto 10 | assumption|].
  split; [assumption|]. split; [exact B|]. intros i a E. apply (D i a E).
Qed.

(** ** The constructor *)
Definition as_one (v : nest) : nest := Seq CList [v].
Lemma shape_one v s : shape v = Some s -> shape (as_one v) = Some (1%nat :: s).
Proof. intro H. cbn. now rewrite H. Qed.
(** For one mode a plain vector of means and standard deviations (a list or an array),
    plain matrices and a plain weight mean the same as lists with that one element. *)
Theorem C217_single vm vs vr vc w :
  (forall v, vm = Some v -> exists k, shape v = Some [k]) -> (forall v, vs = Some v -> exists k, shape v = Some [k]) ->
  (forall v, vr = Some v -> (exists k l, v = Seq k l /\ k <> COther) /\ exists a b, shape v = Some [a; b]) ->
  (forall v, vc = Some v -> (exists k l, v = Seq k l /\ k <> COther) /\ exists a b, shape v = Some [a; b]) ->
  init 1 vm vs vr vc (option_map Num w) = init 1 (option_map as_one vm) (option_map as_one vs) (option_map as_one vr) (option_map as_one vc) (option_map (fun x => as_one (Num x)) w) /\
  init 1 vm vs vr vc (option_map Num w) =
    match add_mode no_modes (mkArgs vm vs vr vc (match w with Some x => Some x | None => Some 1 end)) with (d, None) => Ok d | (_, Some e) => Err e end.
Proof.
  intros Hm Hs Hr Hc.
  assert (V : forall v, (forall x, v = Some x -> exists k, shape x = Some [k]) ->
    opt wrap_vector v = Ok (option_map as_one v) /\ opt wrap_vector (option_map as_one v) = Ok (option_map as_one v)).
  { intros [x|] H; [|split; reflexivity]. destruct (H x eq_refl) as [k E]. cbn [option_map opt]. unfold wrap_vector.
    rewrite (shape_one _ _ E), E. split; reflexivity. }
  assert (W : forall v, (forall x, v = Some x -> (exists k l, x = Seq k l /\ k <> COther) /\ exists a b, shape x = Some [a; b]) ->
    opt wrap_matrix v = Ok (option_map as_one v) /\ opt wrap_matrix (option_map as_one v) = Ok (option_map as_one v)).
  { intros [x|] H; [|split; reflexivity]. destruct (H x eq_refl) as [(k & l & -> & K) (a & b & E)]. cbn [option_map opt]. split.
    - unfold wrap_matrix. destruct k; [rewrite E; reflexivity | reflexivity | contradiction].
    - unfold wrap_matrix, as_one at 1. fold (as_one (Seq k l)). rewrite (shape_one _ _ E). reflexivity. }
  destruct (V vm Hm) as [m1 m2], (V vs Hs) as [s1 s2], (W vr Hr) as [r1 r2], (W vc Hc) as [c1 c2].
  assert (Wt : opt wrap_weight (option_map Num w) = Ok (option_map (fun x => as_one (Num x)) w) /\
               opt wrap_weight (option_map (fun x => as_one (Num x)) w) = Ok (option_map (fun x => as_one (Num x)) w)) by (destruct w; split; reflexivity).
  destruct Wt as [w1 w2].
  assert (K : forall v, check_list 1 (option_map as_one v) = Ok tt) by (intros [x|]; reflexivity).
  assert (Kw : check_list 1 (option_map (fun x => as_one (Num x)) w) = Ok tt) by (destruct w; reflexivity).
  assert (I0 : forall v, item (option_map as_one v) 0 = v) by (intros [x|]; reflexivity).
  assert (Iw : match item (option_map (fun x => as_one (Num x)) w) 0 with Some (Num x) => Some x | _ => Some 1 end = match w with Some x => Some x | None => Some 1 end) by (destruct w; reflexivity).
  split.
  - unfold Mvg_Model.init. cbn [Nat.eqb]. rewrite m1, m2, s1, s2, r1, r2, c1, c2, w1, w2. reflexivity.
  - unfold Mvg_Model.init. cbn [Nat.eqb]. rewrite m1, s1, r1, c1, w1. cbn [bind]. rewrite !K, Kw. cbn [bind].
    cbn [seq map Mvg_Model.add_modes]. unfold mode_args. rewrite !I0, Iw.
    destruct (add_mode no_modes _) as [d [e|]]; reflexivity.
Qed.

Definition list_of (m : nat) (v : option nest) : Prop := forall x, v = Some x -> exists l, x = Seq CList l /\ length l = m.
Lemma check_list_iff m v : check_list m v = Ok tt <-> list_of m v.
Proof.
  unfold check_list, list_of. split.
  - intros H x ->. destruct x as [|[] l]; try discriminate. exists l. split; [reflexivity|].
    destruct (length l =? m)%nat eqn:E; [now apply Nat.eqb_eq | discriminate].
  - destruct v as [x|]; [|reflexivity]. intro H. destruct (H x eq_refl) as (l & -> & <-). now rewrite Nat.eqb_refl.
Qed.
(** For several modes every argument must be a list with one element per mode; mode i
    is then made of the i-th elements. *)
Theorem C217_several m vm vs vr vc vw d : (2 <= m)%nat -> init m vm vs vr vc vw = Ok d ->
  list_of m vm /\ list_of m vs /\ list_of m vr /\ list_of m vc /\ list_of m vw /\ aligned d /\ nmodes d = m /\
  forall i, (i < m)%nat -> mode_is d i (mode_args vm vs vr vc vw i).
Proof.
  intros Hm. unfold Mvg_Model.init. destruct (m =? 1)%nat eqn:E; [apply Nat.eqb_eq in E; lia|]. cbn [bind].
  destruct (check_list m vm) as [[]|] eqn:K1; cbn [bind]; [|discriminate]. apply check_list_iff in K1.
  destruct (check_list m vs) as [[]|] eqn:K2; cbn [bind]; [|discriminate]. apply check_list_iff in K2.
  destruct (check_list m vc) as [[]|] eqn:K3; cbn [bind]; [|discriminate]. apply check_list_iff in K3.
  destruct (check_list m vr) as [[]|] eqn:K4; cbn [bind]; [|discriminate]. apply check_list_iff in K4.
  destruct (check_list m vw) as [[]|] eqn:K5; cbn [bind]; [|discriminate]. apply check_list_iff in K5.
  destruct (add_modes _ _) as [d' [e|]] eqn:A; [discriminate|]. intro H. injection H as ->.
  apply C217_modes in A as (B1 & B2 & B3). rewrite map_length, seq_length in B2.
  repeat (split; [assumption|]). intros i Hi. apply B3. rewrite nth_error_map.
  rewrite (nth_error_nth' _ 0%nat) by (rewrite seq_length; lia). rewrite seq_nth by lia. reflexivity.
Qed.
(** An argument which is not a list, such as an array with one row per mode, raises
    TypeError; a list of another length raises ValueError. *)
Theorem C217_refused m vs vr vc vw k l : (2 <= m)%nat ->
  (k <> CList -> init m (Some (Seq k l)) vs vr vc vw = Err TypeError) /\
  (length l <> m -> init m (Some (Seq CList l)) vs vr vc vw = Err ValueError).
Proof.
  intros Hm. unfold Mvg_Model.init. destruct (m =? 1)%nat eqn:E; [apply Nat.eqb_eq in E; lia|]. cbn [bind]. split; intro H.
  - destruct k; [contradiction | reflexivity | reflexivity].
  - cbn. destruct (length l =? m)%nat eqn:F; [apply Nat.eqb_eq in F; contradiction | reflexivity].
Qed.

(** ** What is not checked *)
(** The number of means is never compared with the number of parameters. *)
Theorem C217_means_refuted l : positive_definite ident ->
  exists d, init 1 (Some (Seq CList (map Num l))) None None None None = Ok d /\ nth_error (mus d) 0 = Some (map Num l).
Proof.
  intros (ev & A & B & C).
  assert (S1 : shape (Seq CList (map Num l)) = Some [length l]).
  { cbn [shape]. rewrite map_map. cbn. rewrite map_length. destruct l as [|x l]; [reflexivity|]. cbn.
    replace (forallb (same_dims (Some [])) (map (fun _ : R => Some []) l)) with true; [reflexivity|]. symmetry. apply forallb_forall.
    intros y Hy. apply in_map_iff in Hy as (z & <- & _). reflexivity. }
  destruct (C217_single (Some (Seq CList (map Num l))) None None None None) as [_ E]; try (intros v H; discriminate).
  { intros v H. injection H as <-. exists (length l). exact S1. }
  cbn [option_map] in E. unfold Mvg_Model.add_mode in E. cbn [a_mus a_cov a_corr a_sigmas a_weight] in E.
  destruct (finish (push_sigma (push_cov (push_corr (push_mu no_modes (map Num l)) ident) ident) (fun _ => 1)) ident (Some 1)) as [d' o] eqn:F.
  assert (G : exists d0, finish (push_sigma (push_cov (push_corr (push_mu no_modes (map Num l)) ident) ident) (fun _ => 1)) ident (Some 1) = (d0, None) /\ nth_error (mus d0) 0 = Some (map Num l)).
  { eexists. split; [apply finish_done; exists ev; repeat split; eauto | reflexivity]. }
  destruct G as (d0 & G1 & G2). rewrite F in G1. injection G1 as -> ->. exists d0. split; [exact E | exact G2].
Qed.
(** Covariances of small numbers need not be symmetric at all: below 1e-8 every
    matrix passes the test. *)
Theorem C217_symmetry_refuted (c : mat) : (forall i j, 0 <= c i j <= 1 / 10 ^ 8) -> nearly_symmetric c.
Proof.
  intros H i j _ _. pose proof (H i j). pose proof (H j i). assert (0 <= 1 / 10 ^ 5 * Rabs (c j i)).
  { apply Rmult_le_pos; [lra | apply Rabs_pos]. }
  assert (Rabs (c i j - c j i) <= 1 / 10 ^ 8) by (apply Rabs_le; lra). lra.
Qed.
(** A refused call leaves its means behind: the mode added next is paired with the
    means of the refused one. *)
Theorem C217_failure_refuted d k k' bad good a a' : aligned d -> shape bad = Some [n] -> positive_definite ident ->
  a = mkArgs (Some (Seq k [Num 5])) None None (Some bad) None -> a' = mkArgs (Some (Seq k' good)) None None None None ->
  exists d1 d2, add_mode d a = (d1, Some ValueError) /\ add_mode d1 a' = (d2, None) /\
    nmodes d2 = S (nmodes d) /\ nth_error (mus d2) (nmodes d) = Some [Num 5] /\ nth_error (sigmas d2) (nmodes d) = Some (fun _ => 1) /\
    length (mus d2) = S (nmodes d2).
Proof.
  intros (L1 & L2 & L3 & L4 & _) Sh (ev & P1 & P2 & P3) -> ->.
  exists (push_cov (push_mu d [Num 5]) (at2 bad)). eexists. split; [|split].
  - cbn. unfold with_cov, square. rewrite Sh. reflexivity.
  - unfold Mvg_Model.add_mode. cbn [a_mus a_cov a_corr a_sigmas a_weight]. apply finish_done. exists ev. repeat split; eauto.
  - cbn. split; [reflexivity|]. split; [|split].
    + rewrite <- L1. rewrite <- app_assoc. rewrite nth_error_app2, Nat.sub_diag by lia. reflexivity.
    + rewrite <- L4. apply nth_error_snoc.
    + rewrite !app_length. cbn. lia.
Qed.
End Props.

(** Two parameters with covariance [[4, 1], [1, 1]]: standard deviations 2 and 1, correlation 1/2. *)
Example C217_example : exists d sg r,
  init (fun _ => Some [1 / 2; 3 / 2]) (fun _ => true) 2 1 (Some (Seq CArray [Num 3; Num 7])) None None
       (Some (Seq CArray [Seq CArray [Num 4; Num 1]; Seq CArray [Num 1; Num 1]])) None = Ok d /\
  nmodes d = 1%nat /\ nth_error (mus d) 0 = Some [Num 3; Num 7] /\ nth_error (sigmas d) 0 = Some sg /\ nth_error (corrcoefs d) 0 = Some r /\
  sg 0%nat = 2 /\ sg 1%nat = 1 /\ r 0%nat 1%nat = 1 / 2.
Proof.
  set (cov := Seq CArray [Seq CArray [Num 4; Num 1]; Seq CArray [Num 1; Num 1]]).
  set (eg := fun _ : mat => Some [1 / 2; 3 / 2]). set (nm := fun _ : mat => true).
  destruct (C217_single eg nm 2 (Some (Seq CArray [Num 3; Num 7])) None None (Some cov) None) as [_ E]; try (intros v H; discriminate).
  - intros v H. injection H as <-. exists 2%nat. reflexivity.
  - intros v H. injection H as <-. split; [exists CArray; eexists; split; [reflexivity | discriminate] | exists 2%nat, 2%nat; reflexivity].
  - cbn [option_map] in E.
    destruct (C217_accepted eg nm 2 no_modes (mkArgs (Some (Seq CArray [Num 3; Num 7])) None None (Some cov) (Some 1)) [Num 3; Num 7]) as [d A].
    + right. exists CArray. reflexivity.
    + left. exists cov. split; [reflexivity|]. split; [reflexivity|]. split; [|split].
      * intros [|[|i]] [|[|j]] Hi Hj; try lia; cbn; replace (_ - _) with 0 by ring; rewrite Rabs_R0; pose proof (Rabs_pos 4); pose proof (Rabs_pos 1); lra.
      * intros [|[|i]] Hi; try lia; cbn; lra.
      * intros r _. exists [1 / 2; 3 / 2]. split; [reflexivity|]. split; [|reflexivity]. intros x [<- | [<- | []]]; lra.
    + rewrite A in E. destruct (C217_added eg nm 2 _ _ _ A) as (m & sg & r & c & ev & (P1 & P2 & P3 & P4 & _ & _ & P7 & _) & Me & Sp & _).
      exists d, sg, r. split; [exact E|]. split; [exact P7|]. split.
      { rewrite P1. destruct Me as [[? _] | [k Me]]; [discriminate | injection Me as _ <-; reflexivity]. }
      split; [rewrite P4; reflexivity|]. split; [rewrite P3; reflexivity|].
      destruct Sp as [v C -> Sh Sy Di Co | v k l C | C]; try discriminate. cbn in C. injection C as <-.
      destruct (Di 0%nat ltac:(lia)) as (_ & A1 & A2). destruct (Di 1%nat ltac:(lia)) as (_ & B1 & B2). cbn in A2, B2.
      assert (S0 : sg 0%nat = 2) by nra. assert (S1 : sg 1%nat = 1) by nra.
      split; [exact S0|]. split; [exact S1|]. rewrite (Co 0%nat 1%nat) by lia. rewrite S0, S1. cbn. lra.
Qed.

(** ** Assumptions of every theorem above *)
Definition Mvg_Props_all :=
  (@C217_bounds,
   @C217_tuple_bounds_refuted,
   @C217_added,
   @C217_accepted,
   @C217_modes,
   @C217_single,
   @C217_several,
   @C217_refused,
   @C217_means_refuted,
   @C217_symmetry_refuted,
   @C217_failure_refuted).
Print Assumptions Mvg_Props_all.
