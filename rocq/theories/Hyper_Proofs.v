(** Proofs about the population model and the hyperparameter likelihood. *)
From Coq Require Import Reals List Bool Arith String Lia Lra Permutation.
From Verif Require Import PyDict PyReal Hyper_Model.
Import ListNotations.
Open Scope R_scope.
Open Scope list_scope.

Section Pop.
Variables V D A : Type.
Variable veqb : V -> V -> bool.
Variables (one : A) (mul : A -> A -> A).
Hypothesis veqb_eq : forall x y, veqb x y = true -> x = y.
Notation fn := (fn V D A).
Notation model := (model V D A).
Notation prob := (prob V D A veqb one mul).
Notation prob_loop := (prob_loop V D A veqb mul).
Notation select := (select V).
Notation set_pars := (set_pars V D A).

(** the value without any cache: the product of the functions at their own parameters *)
Fixpoint direct_from (l : list fn) (ps : dict V) (d : D) (acc : A) : option A :=
  match l with
  | [] => Some acc
  | f :: t => match select (names f) ps with
              | None => None
              | Some p => direct_from t ps d (mul acc (call f d p))
              end
  end.
Definition direct (l : list fn) (ps : dict V) (d : D) : option A := direct_from l ps d one.

Lemma dict_eqb_eq a b : dict_eqb V veqb a b = true -> a = b.
Proof.
  revert b; induction a as [|[k x] a IH]; intros [|[l y] b]; cbn; try discriminate; [reflexivity|].
  rewrite !andb_true_iff; intros [[H1 H2] H3].
  apply String.eqb_eq in H1; apply veqb_eq in H2; apply IH in H3; subst; reflexivity.
Qed.

(** a cache entry holds a value of its own function at the data [d] *)
Definition entry_ok (d : D) (fe : fn * option (dict V * A)) : Prop :=
  match snd fe with None => True | Some (p, a) => a = call (fst fe) d p end.

Lemma prob_loop_ok c ps d l acc :
  (c = true -> Forall (entry_ok d) l) ->
  fst (prob_loop c ps d l acc) = direct_from (map fst l) ps d acc
  /\ List.length (snd (prob_loop c ps d l acc)) = List.length l
  /\ (c = true -> Forall (entry_ok d) (combine (map fst l) (snd (prob_loop c ps d l acc)))).
Proof.
  revert acc; induction l as [|[f e] l IH]; intros acc H; cbn [Hyper_Model.prob_loop map fst snd direct_from combine List.length].
  - repeat split; constructor.
  - destruct (select (names f) ps) as [p|] eqn:S; cbn [fst snd].
    + set (hit := match e with Some (q, a) => if c && dict_eqb V veqb q p then Some a else None | None => None end).
      assert (Hh : forall a, hit = Some a -> a = call f d p /\ c = true /\ e = Some (p, a)).
      { intros a; unfold hit; destruct e as [[q b]|]; [|discriminate].
        destruct c; cbn [andb]; [|discriminate].
        destruct (dict_eqb V veqb q p) eqn:E; [|discriminate]; intros [= <-].
        apply dict_eqb_eq in E; subst q.
        specialize (H eq_refl); inversion H; subst; cbn in H2; auto. }
      set (a := match hit with Some a => a | None => call f d p end).
      assert (Ha : a = call f d p) by (unfold a; destruct hit as [b|]; [apply (Hh b eq_refl)|reflexivity]).
      set (e' := match hit with Some _ => e | None => if c then Some (p, a) else e end).
      assert (He : c = true -> entry_ok d (f, e')).
      { intros ->. unfold e', entry_ok; cbn [fst snd]; destruct hit as [b|].
        - destruct (Hh b eq_refl) as [H1 [_ H2]]; rewrite H2; exact H1.
        - exact Ha. }
      destruct (IH (mul acc a)) as [I1 [I2 I3]].
      { intros Hc; specialize (H Hc); inversion H; auto. }
      destruct (prob_loop c ps d l (mul acc a)) as [r es]; cbn [fst snd] in *.
      rewrite <- Ha; cbn [List.length combine].
      repeat split; [exact I1|now rewrite I2|].
      intros Hc; constructor; auto.
    + split; [reflexivity|split; [cbn [List.length]; now rewrite map_length|]].
      intros Hc; specialize (H Hc). inversion H; subst; constructor; auto.
      clear - H3; induction H3 as [|[x y] l' h1 h2 IH']; cbn; constructor; auto.
Qed.

(** the state between calls *)
Definition model_ok (d : D) (m : model) : Prop :=
  List.length (cached m) = List.length (fns m) /\ (cache m = true -> Forall (entry_ok d) (combine (fns m) (cached m))).

Lemma map_fst_combine {X Y} (a : list X) (b : list Y) : List.length b = List.length a -> map fst (combine a b) = a.
Proof. revert b; induction a as [|x a IH]; intros [|y b]; cbn; try discriminate; [reflexivity|]; intros H; rewrite IH by lia; reflexivity. Qed.

Lemma prob_ok m d : model_ok d m ->
  fst (prob m d) = direct (fns m) (pars m) d /\ model_ok d (snd (prob m d))
  /\ fns (snd (prob m d)) = fns m /\ pars (snd (prob m d)) = pars m /\ cache (snd (prob m d)) = cache m.
Proof.
  intros [H1 H2]; unfold Hyper_Model.prob.
  destruct (prob_loop_ok (cache m) (pars m) d (combine (fns m) (cached m)) one H2) as [I1 [I2 I3]].
  rewrite map_fst_combine in I1, I3 by exact H1.
  destruct (prob_loop (cache m) (pars m) d (combine (fns m) (cached m)) one) as [r es]; cbn in *.
  rewrite combine_length, H1, Nat.min_id in I2.
  repeat split; auto.
Qed.

Lemma new_ok d l c : model_ok d (new_model V D A l c).
Proof.
  split; cbn; [apply map_length|]. intros _; induction l; cbn; constructor; auto; exact I.
Qed.

Lemma set_ok d m p : model_ok d m -> model_ok d (set_pars m p).
Proof. intros [H1 H2]; split; auto. Qed.

Lemma prob_nocache m d : cache m = false -> List.length (cached m) = List.length (fns m) ->
  fst (prob m d) = direct (fns m) (pars m) d /\ List.length (cached (snd (prob m d))) = List.length (fns m)
  /\ fns (snd (prob m d)) = fns m /\ pars (snd (prob m d)) = pars m /\ cache (snd (prob m d)) = false.
Proof.
  intros H H1. assert (M : model_ok d m) by (split; [exact H1|congruence]).
  destruct (prob_ok m d M) as [I1 [[I2 _] [I3 [I4 I5]]]]. rewrite I3 in I2. rewrite H in I5. auto.
Qed.

Lemma select_some ks d r : select ks d = Some r <-> map fst r = ks /\ Forall (fun kv => dget d (fst kv) = Some (snd kv)) r.
Proof.
  revert r; induction ks as [|k ks IH]; intros r; cbn.
  - split; [intros [= <-]; split; [reflexivity|constructor]|]. intros [H _]; destruct r; [reflexivity|discriminate].
  - destruct (dget d k) as [v|] eqn:E.
    + destruct (select ks d) as [r'|] eqn:S.
      * split.
        -- intros [= <-]. destruct (proj1 (IH r') eq_refl) as [H1 H2]. cbn; rewrite H1; split; [reflexivity|constructor; auto].
        -- intros [H1 H2]; destruct r as [|[k' v'] r]; [discriminate|]. cbn in H1; injection H1 as -> H1.
           inversion H2; subst; cbn in *. rewrite E in H3; injection H3 as ->.
           assert (H : Some r' = Some r) by (apply IH; auto). injection H as ->; reflexivity.
      * split; [discriminate|]. intros [H1 H2]; destruct r as [|[k' v'] r]; [discriminate|]. cbn in H1; injection H1 as -> H1.
        inversion H2; subst. exfalso. assert (None = Some r) by (apply IH; auto). discriminate.
    + split; [discriminate|]. intros [H1 H2]; destruct r as [|[k' v'] r]; [discriminate|]. cbn in H1; injection H1 as -> H1.
      inversion H2; subst; cbn in *; congruence.
Qed.
Lemma select_none ks d : select ks d = None <-> exists k, In k ks /\ dget d k = None.
Proof.
  induction ks as [|k ks IH]; cbn; [split; [discriminate|intros [? [[] _]]]|].
  destruct (dget d k) eqn:E; [|split; [exists k; auto|reflexivity]].
  destruct (select ks d); split; try discriminate.
  - intros [k' [[<-|H] H']]; [congruence|]. assert (X : Some d0 = None) by (apply IH; eauto); discriminate.
  - intros _; destruct (proj1 IH eq_refl) as [k' [H1 H2]]; eauto.
  - reflexivity.
Qed.
Lemma direct_none l ps d acc : direct_from l ps d acc = None <-> exists f k, In f l /\ In k (names f) /\ dget ps k = None.
Proof.
  revert acc; induction l as [|f l IH]; intros acc; cbn; [split; [discriminate|intros [? [? [[] _]]]]|].
  destruct (select (names f) ps) eqn:S.
  - rewrite IH; split.
    + intros [g [k [H1 H2]]]; exists g, k; auto.
    + intros [g [k [[<-|H1] [H2 H3]]]]; [|exists g, k; auto].
      exfalso. assert (N : select (names f) ps = None) by (apply select_none; eauto). congruence.
  - split; [|reflexivity]. intros _. apply select_none in S. destruct S as [k [H1 H2]]; exists f, k; auto.
Qed.
End Pop.

Section Hyper.
Variables V Row : Type.
Variable veqb : V -> V -> bool.
Variable big : R.
Variable pick : nat -> list Row -> nat -> list Row.
Hypothesis pick_len : forall k l n, (n <= List.length l)%nat -> List.length (pick k l n) = n.

Lemma smallest_some m l :
  smallest Row (Some m) l = Some (fold_right (fun p k => Nat.min (List.length p) k) m l).
Proof.
  unfold smallest; revert m; induction l as [|p l IH]; intros m; cbn [fold_left fold_right]; [reflexivity|].
  rewrite IH; f_equal. clear IH; induction l as [|q l IH]; cbn [fold_right]; [reflexivity|]. rewrite IH. lia.
Qed.

Lemma smallest_le ms l n : smallest Row ms l = Some n ->
  (forall p, In p l -> (n <= List.length p)%nat) /\ (forall m, ms = Some m -> (n <= m)%nat)
  /\ ((exists p, In p l /\ n = List.length p) \/ ms = Some n).
Proof.
  assert (G : forall m l, let n := fold_right (fun (p : list Row) k => Nat.min (List.length p) k) m l in
    (forall p, In p l -> (n <= List.length p)%nat) /\ (n <= m)%nat /\ ((exists p, In p l /\ n = List.length p) \/ m = n)).
  { clear; intros m l; induction l as [|q l IH]; cbn [fold_right In].
    - repeat split; try easy; auto.
    - destruct IH as [I1 [I2 I3]]; repeat split.
      + intros p [<-|H]; [lia|]. specialize (I1 p H); lia.
      + lia.
      + destruct (Nat.le_gt_cases (List.length q) (fold_right (fun (p : list Row) k => Nat.min (List.length p) k) m l)).
        * left; exists q; split; [auto|lia].
        * rewrite Nat.min_r by lia. destruct I3 as [[p [H1 H2]]|I3]; [left; exists p; auto|auto]. }
  destruct ms as [m|].
  - rewrite smallest_some; intros [= <-]. destruct (G m l) as [G1 [G2 G3]].
    split; [exact G1|split; [intros m' [= <-]; exact G2|]]. destruct G3 as [G3|G3]; [left; exact G3|right; f_equal; exact G3].
  - destruct l as [|q l]; [discriminate|].
    change (smallest Row None (q :: l)) with (smallest Row (Some (List.length q)) l).
    rewrite smallest_some; intros [= <-]. destruct (G (List.length q) l) as [G1 [G2 G3]].
    split; [intros p [<-|H]; [lia|apply G1; exact H]|split; [discriminate|]].
    left; destruct G3 as [[p [H1 H2]]|G3]; [exists p; cbn; auto|exists q; cbn; auto].
Qed.

Lemma combine_seq_in {X} (l : list X) s p : In p (combine (seq s (List.length l)) l) -> In (snd p) l.
Proof. destruct p; apply in_combine_r. Qed.

Lemma resample_len k n l : List.length (resample Row pick k n l) = List.length l.
Proof. unfold resample; rewrite map_length, combine_length, seq_length; lia. Qed.
Lemma resample_row k n l d : (forall p, In p l -> (n <= List.length p)%nat) -> In d (resample Row pick k n l) -> List.length d = n.
Proof.
  intros H; unfold resample; rewrite in_map_iff; intros [ip [<- H1]]. apply pick_len, H. eapply combine_seq_in; eauto.
Qed.

(** cached weights *)
Lemma weights_loop_hit f d a l : a = map f d -> forall m,
  m = mkmodel [mkfn [] (fun d _ => map f d)] true [Some ([], a)] [] ->
  weights_loop V Row veqb m l = map (fun _ => a) l.
Proof.
  intros Ha m ->; induction l as [|x l IH]; [reflexivity|].
  transitivity (a :: weights_loop V Row veqb (mkmodel [mkfn [] (fun d _ => map f d)] true [Some ([], a)] []) l); [reflexivity|].
  rewrite IH; reflexivity.
Qed.
Lemma weights_function f d l : weights V Row veqb (FromFunction Row f) (d :: l) = map (fun _ => map f d) (d :: l).
Proof.
  transitivity (map f d :: weights_loop V Row veqb (mkmodel [mkfn [] (fun d _ => map f d)] true [Some ([], map f d)] []) l); [reflexivity|].
  rewrite (weights_loop_hit f d (map f d) l eq_refl _ eq_refl); reflexivity.
Qed.

(** sums *)
Definition rsum (l : list R) : R := fold_right Rplus 0 l.
Lemma xsum_vals l : xsum (map XVal l) = XVal (rsum l).
Proof. unfold rsum, xsum; induction l as [|a l IH]; cbn; [reflexivity|]. rewrite IH; reflexivity. Qed.
Lemma rsum_div l c : rsum (map (fun x => x / c) l) = rsum l / c.
Proof. unfold rsum; induction l as [|a l IH]; cbn; [unfold Rdiv; ring|]. rewrite IH; unfold Rdiv; ring. Qed.
Lemma rsum_nonneg l : Forall (fun x => 0 <= x) l -> 0 <= rsum l.
Proof. unfold rsum; induction 1; cbn; lra. Qed.
Lemma rsum_pos l : Forall (fun x => 0 <= x) l -> (exists x, In x l /\ 0 < x) -> 0 < rsum l.
Proof.
  unfold rsum; induction 1 as [|a l H1 H2 IH]; intros [x [Hx Hp]]; cbn in *; [contradiction|].
  pose proof (rsum_nonneg l H2) as N; unfold rsum in N.
  destruct Hx as [->|Hx]; [lra|]. assert (0 < fold_right Rplus 0 l) by eauto. lra.
Qed.
Lemma rsum_perm l l' : Permutation l l' -> rsum l = rsum l'.
Proof. unfold rsum; induction 1; cbn; lra. Qed.

(** the mean of p/prior over the samples of one posterior *)
Definition mean_ratio (p q : Row -> R) (d : list Row) : R := rsum (map (fun x => p x / q x) d) / INR (List.length d).

Lemma ratios_pos (p q : Row -> R) d : Forall (fun x => 0 <= p x /\ 0 < q x) d -> Forall (fun x => 0 <= x) (map (fun x => p x / q x) d).
Proof.
  induction 1 as [|a l [H1 H2] H3 IH]; cbn; constructor; auto.
  apply Rmult_le_pos; [lra|]. left; apply Rinv_0_lt_compat; lra.
Qed.
Lemma xdivs (p q : Row -> R) d : Forall (fun x => 0 <= p x /\ 0 < q x) d ->
  map (fun pq => xdiv (fst pq) (snd pq)) (combine (map p d) (map q d)) = map XVal (map (fun x => p x / q x) d).
Proof.
  induction 1 as [|a l [H1 H2] H3 IH]; cbn; [reflexivity|]. rewrite IH; f_equal. unfold xdiv; destruct (Req_EM_T (q a) 0); [lra|reflexivity].
Qed.
Lemma mean_pos (p q : Row -> R) d : Forall (fun x => 0 <= p x /\ 0 < q x) d -> (exists x, In x d /\ 0 < p x) ->
  0 < rsum (map (fun x => p x / q x) d).
Proof.
  intros H [x [H1 H2]]. apply rsum_pos; [apply ratios_pos; exact H|].
  exists (p x / q x); split; [apply (in_map (fun x => p x / q x)); exact H1|].
  rewrite Forall_forall in H; destruct (H x H1). apply Rmult_lt_0_compat; [lra|apply Rinv_0_lt_compat; lra].
Qed.
Lemma term_val (p q : Row -> R) d : Forall (fun x => 0 <= p x /\ 0 < q x) d -> (exists x, In x d /\ 0 < p x) ->
  term (map p d) (map q d) = XVal (ln (rsum (map (fun x => p x / q x) d))).
Proof.
  intros H H1; unfold term; rewrite xdivs, xsum_vals by exact H. pose proof (mean_pos p q d H H1). cbn.
  destruct (Req_EM_T _ 0); [lra|]. destruct (Rlt_dec _ 0); [lra|reflexivity].
Qed.
Lemma term_zero (p q : Row -> R) d : Forall (fun x => p x = 0 /\ 0 < q x) d -> term (map p d) (map q d) = XNInf.
Proof.
  intros H; unfold term; rewrite xdivs, xsum_vals.
  2:{ eapply Forall_impl; [|exact H]; intros x [H1 H2]; lra. }
  assert (E : rsum (map (fun x => p x / q x) d) = 0).
  { unfold rsum; induction H as [|a l [H1 H2] H3 IH]; cbn; [reflexivity|]. rewrite IH, H1; unfold Rdiv; ring. }
  rewrite E; cbn. destruct (Req_EM_T 0 0); [reflexivity|lra].
Qed.

Definition good (p q : Row -> R) (d : list Row) : Prop := Forall (fun x => 0 <= p x /\ 0 < q x) d /\ exists x, In x d /\ 0 < p x.

Lemma terms_val p q ds : Forall (good p q) ds ->
  map (fun pq => term (fst pq) (snd pq)) (combine (map (map p) ds) (map (map q) ds)) = map XVal (map (fun d => ln (rsum (map (fun x => p x / q x) d))) ds).
Proof. induction 1 as [|d l [H1 H2] H3 IH]; cbn; [reflexivity|]. rewrite IH, term_val by assumption; reflexivity. Qed.

Lemma raw_ratio_val p q ds n : Forall (good p q) ds -> (forall d, In d ds -> List.length d = n) -> (0 < n)%nat ->
  raw_ratio Row (mkhyper Row ds (map (map q) ds) (List.length ds) n None) (map (map p) ds)
  = XVal (rsum (map (fun d => ln (mean_ratio p q d)) ds)).
Proof.
  intros H Hn H0; unfold raw_ratio, samples_factor; cbn [prior n_post samples]. rewrite terms_val, xsum_vals by exact H; cbn [xadd]; f_equal.
  unfold rsum at 1 3; induction H as [|d l [H1 H2] H3 IH]; cbn [map fold_right List.length]; [cbn; ring|].
  assert (L : List.length d = n) by (apply Hn; left; reflexivity).
  assert (N : 0 < INR n) by (apply lt_0_INR; lia).
  assert (M : ln (mean_ratio p q d) = ln (rsum (map (fun x => p x / q x) d)) - ln (INR n)).
  { unfold mean_ratio; rewrite L; unfold Rdiv at 1; rewrite ln_mult, ln_Rinv; [ring|exact N|apply mean_pos; assumption|apply Rinv_0_lt_compat; exact N]. }
  rewrite M.
  rewrite <- IH by (intros; apply Hn; right; assumption). rewrite S_INR. ring.
Qed.
End Hyper.
