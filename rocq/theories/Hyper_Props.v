(** C75, C76: population models and the hyperparameter likelihood (bilby/hyper). *)
From Coq Require Import Reals List Bool Arith String Lia Lra Permutation.
From Verif Require Import PyDict PyReal Hyper_Model Hyper_Proofs.
Import ListNotations.
Open Scope R_scope.
Open Scope list_scope.

(** *** C76 Model *)
Section Pop.
Variables V D A : Type.
Variable veqb : V -> V -> bool.
Variables (one : A) (mul : A -> A -> A).
Hypothesis veqb_eq : forall x y, veqb x y = true -> x = y.
Notation fn := (fn V D A).
Notation model := (model V D A).
Notation prob := (prob V D A veqb one mul).

(** a history: parameter updates and evaluations *)
Inductive op := Update (p : dict V) | Prob (d : D).
Fixpoint run (m : model) (l : list op) : list (option A) :=
  match l with
  | [] => []
  | Update p :: t => run (set_pars V D A m p) t
  | Prob d :: t => fst (prob m d) :: run (snd (prob m d)) t
  end.
(** what the user expects of it: the product of the functions, each at its own current parameters *)
Definition own (f : fn) (ps : dict V) : option (dict V) :=
  if forallb (fun k => dmem ps k) (names f)
  then Some (flat_map (fun k => match dget ps k with Some v => [(k, v)] | None => [] end) (names f)) else None.
Fixpoint product (l : list fn) (ps : dict V) (d : D) (acc : A) : option A :=
  match l with
  | [] => Some acc
  | f :: t => match own f ps with Some p => product t ps d (mul acc (call f d p)) | None => None end
  end.
Fixpoint expected (fs : list fn) (ps : dict V) (l : list op) : list (option A) :=
  match l with
  | [] => []
  | Update p :: t => expected fs (fold_left (fun d kv => dset d (fst kv) (snd kv)) p ps) t
  | Prob d :: t => product fs ps d one :: expected fs ps t
  end.

Lemma own_select f ps : own f ps = select V (names f) ps.
Proof.
  unfold own; induction (names f) as [|k l IH]; cbn; [reflexivity|]. unfold dmem at 1. rewrite <- IH.
  destruct (dget ps k); cbn; [|reflexivity]. destruct (forallb _ l); reflexivity.
Qed.
Lemma product_direct l ps d acc : product l ps d acc = direct_from V D A mul l ps d acc.
Proof. revert acc; induction l as [|f l IH]; intros acc; cbn; [reflexivity|]. rewrite own_select. destruct (select V (names f) ps); auto. Qed.

(** With the same data throughout, the cache changes no result, after any history of updates and failed evaluations. *)
Theorem C76_cache_is_transparent fs c l d :
  (forall d', In (Prob d') l -> d' = d) -> run (new_model V D A fs c) l = expected fs [] l.
Proof.
  assert (G : forall m, model_ok V D A d m -> (forall d', In (Prob d') l -> d' = d) -> run m l = expected (fns m) (pars m) l).
  { induction l as [|[p|d'] l IH]; intros m Hm Hd; cbn [run expected]; [reflexivity| |].
    - rewrite IH; [reflexivity|apply set_ok; exact Hm|intros; apply Hd; right; assumption].
    - rewrite (Hd d' (or_introl eq_refl)).
      destruct (prob_ok V D A veqb one mul veqb_eq m d Hm) as [H1 [H2 [H3 [H4 H5]]]].
      rewrite IH; [|exact H2|intros; apply Hd; right; assumption]. rewrite H1, H3, H4, product_direct; reflexivity. }
  intros Hd; rewrite G; [reflexivity|apply new_ok|exact Hd].
Qed.
(** Without the cache the data may change as well. *)
Theorem C76_uncached_is_exact fs l : run (new_model V D A fs false) l = expected fs [] l.
Proof.
  assert (G : forall m, cache m = false -> List.length (cached m) = List.length (fns m) -> run m l = expected (fns m) (pars m) l).
  { induction l as [|[p|d'] l IH]; intros m H1 H2; cbn [run expected]; [reflexivity| |].
    - rewrite IH; [reflexivity|exact H1|exact H2].
    - destruct (prob_nocache V D A veqb one mul veqb_eq m d' H1 H2) as [I1 [I2 [I3 [I4 I5]]]].
      rewrite IH; [|exact I5|rewrite I3; exact I2]. rewrite I1, I3, I4, product_direct; reflexivity. }
  rewrite G; [reflexivity|reflexivity|apply map_length].
Qed.
(** An evaluation raises exactly if a parameter of one of the functions is missing. *)
Theorem C76_raises fs c p d : run (new_model V D A fs c) [Update p; Prob d] = [None] <->
  exists f k, In f fs /\ In k (names f) /\ ~ In k (map fst p).
Proof.
  rewrite (C76_cache_is_transparent fs c _ d) by (intros d' [H|[H|[]]]; congruence).
  cbn [expected]. rewrite product_direct.
  assert (K : forall k q, In k (map fst p) \/ In k (dkeys q) <-> In k (dkeys (fold_left (fun d kv => dset d (fst kv) (snd kv)) p q))).
  { induction p as [|[a v] p' IH]; intros k q; cbn [map fold_left In fst]; [tauto|]. rewrite <- IH, dkeys_set_in; intuition. }
  split.
  - intros [= H]. apply direct_none in H. destruct H as [f [k [H1 [H2 H3]]]]; exists f, k; repeat split; auto.
    intros Hk. apply dget_none in H3; apply H3, K; auto.
  - intros [f [k [H1 [H2 H3]]]]. f_equal. apply direct_none. exists f, k; repeat split; auto.
    apply dget_none; intros Hk; apply K in Hk; destruct Hk as [Hk|Hk]; auto; destruct Hk.
Qed.
(** A caching model evaluated again at other data but the same parameters repeats the old values. *)
Theorem C76_cache_ignores_data fs p d d' a :
  (forall x, veqb x x = true) -> run (new_model V D A fs true) [Update p; Prob d] = [Some a] ->
  run (new_model V D A fs true) [Update p; Prob d; Prob d'] = [Some a; Some a].
Proof.
  intros R. cbn [run]. intros [= H]. rewrite H. do 2 f_equal. revert H.
  unfold Hyper_Model.prob. cbn [set_pars fns cache cached pars new_model].
  set (ps := fold_left (fun (d0 : dict V) kv => dset d0 (fst kv) (snd kv)) p []).
  assert (E : forall q, dict_eqb V veqb q q = true) by (induction q as [|[k v] q IH]; cbn; [reflexivity|rewrite String.eqb_refl, R, IH; reflexivity]).
  assert (G : forall acc es, List.length es = List.length fs -> fst (prob_loop V D A veqb mul true ps d (combine fs es) acc) = Some a ->
    fst (prob_loop V D A veqb mul true ps d' (combine fs (snd (prob_loop V D A veqb mul true ps d (combine fs es) acc))) acc) = Some a).
  { induction fs as [|f fs' IH]; intros acc [|e es]; cbn [combine prob_loop fst snd List.length]; try discriminate; [auto|].
    intros L. destruct (select V (names f) ps) as [q|] eqn:S; [|discriminate]. cbn [andb].
    set (hit := match e with Some (q0, a0) => if dict_eqb V veqb q0 q then Some a0 else None | None => None end).
    set (x := match hit with Some a0 => a0 | None => call f d q end).
    set (e' := match hit with Some _ => e | None => Some (q, x) end).
    assert (He : exists q0, e' = Some (q0, x) /\ dict_eqb V veqb q0 q = true).
    { unfold e', x, hit; destruct e as [[q0 a0]|]; [|exists q; auto]. destruct (dict_eqb V veqb q0 q) eqn:Eq; [exists q0; auto|exists q; auto]. }
    specialize (IH (mul acc x) es).
    destruct (prob_loop V D A veqb mul true ps d (combine fs' es) (mul acc x)) as [r es'] eqn:P; cbn [fst snd combine prob_loop] in *.
    intros Hr. rewrite S. destruct He as [q0 [-> Eq]]. rewrite Eq. specialize (IH ltac:(lia) Hr). cbn [andb].
    destruct (prob_loop V D A veqb mul true ps d' (combine fs' es') (mul acc x)); exact IH. }
  specialize (G one (map (fun _ => None) fs) (map_length _ _)).
  destruct (prob_loop V D A veqb mul true ps d (combine fs (map (fun _ => None) fs)) one) as [r es]; cbn [fst snd] in *.
  intros H; specialize (G H). cbn [fns cache cached pars].
  destruct (prob_loop V D A veqb mul true ps d' (combine fs es) one); exact G.
Qed.
End Pop.
(** So a caching model is not exact when the data change. *)
Theorem C76_new_data_refuted : ~ (forall fs l, run nat nat nat Nat.eqb 1%nat Nat.mul (new_model nat nat nat fs true) l = expected nat nat nat 1%nat Nat.mul fs [] l).
Proof.
  intros H; specialize (H [mkfn [] (fun d _ => d)] [Prob nat nat 2%nat; Prob nat nat 3%nat]). vm_compute in H. discriminate.
Qed.
Example C76_example :
  run nat nat nat Nat.eqb 1%nat Nat.mul
    (new_model nat nat nat [mkfn ["a"%string] (fun d p => match dget p "a" with Some x => d + x | None => 0 end)%nat;
                            mkfn ["b"%string] (fun d p => match dget p "b" with Some x => d * x | None => 0 end)%nat] true)
    [Update nat nat [("a"%string, 1%nat)]; Prob nat nat 4%nat; Update nat nat [("b"%string, 2%nat)]; Prob nat nat 4%nat;
     Update nat nat [("a"%string, 3%nat); ("c"%string, 9%nat)]; Prob nat nat 4%nat; Prob nat nat 4%nat]
  = [None; Some 40%nat; Some 56%nat; Some 56%nat].
Proof. vm_compute; reflexivity. Qed.

(** *** C75 HyperparameterLikelihood *)
Section Hyper.
Variables V Row : Type.
Variable veqb : V -> V -> bool.
Variable big : R.
Variable pick : nat -> list Row -> nat -> list Row.
(** DataFrame.sample(n) draws n rows without replacement *)
Hypothesis pick_spec : forall k l n, (n <= List.length l)%nat -> List.length (pick k l n) = n /\ exists r, Permutation (pick k l n ++ r) l.
Notation init := (init V Row veqb pick).
Notation ratio := (ratio Row big).

(** Every posterior contributes equally many of its own samples: as many as the smallest has, or max_samples if that is less. *)
Theorem C75_downsampling posts src logz ms : posts <> [] ->
  let h := init posts src logz ms in
  List.length (data Row h) = List.length posts
  /\ Forall2 (fun p d => exists r, Permutation (d ++ r) p) posts (data Row h)
  /\ (forall d, In d (data Row h) -> List.length d = samples Row h)
  /\ (forall p, In p posts -> (samples Row h <= List.length p)%nat)
  /\ (forall m, ms = Some m -> (samples Row h <= m)%nat)
  /\ ((exists p, In p posts /\ samples Row h = List.length p) \/ ms = Some (samples Row h))
  /\ n_post Row h = List.length posts.
Proof.
  intros Hp h. unfold h, Hyper_Model.init; cbn [data samples n_post].
  destruct (smallest Row ms posts) as [n|] eqn:E.
  - destruct (smallest_le Row _ _ _ E) as [H1 [H2 H3]].
    split; [apply resample_len|]. split; [|split; [|tauto]].
    + unfold resample. 
      assert (G : forall l s, (forall p, In p l -> (n <= List.length p)%nat) ->
        Forall2 (fun p d => exists r, Permutation (d ++ r) p) l (map (fun ip => pick (0 + fst ip) (snd ip) n) (combine (seq s (List.length l)) l))).
      { induction l as [|p l IH]; intros s Hl; cbn [List.length seq combine map fst snd]; constructor.
        - apply pick_spec, Hl; left; reflexivity.
        - apply IH; intros; apply Hl; right; assumption. }
      apply G; exact H1.
    + intros d. apply resample_row; [intros; apply pick_spec; assumption|exact H1].
  - exfalso. destruct ms as [m|]; [rewrite smallest_some in E; discriminate|]. destruct posts as [|p l]; [congruence|].
    change (smallest Row None (p :: l)) with (smallest Row (Some (List.length p)) l) in E. rewrite smallest_some in E; discriminate.
Qed.

(** the sources of prior weights that are computed sample by sample *)
Definition per_sample (src : source Row) : option (Row -> R) :=
  match src with FromPriorDict _ f | Column _ f => Some f | LogColumn _ f => Some (fun x => exp (f x)) | FromFunction _ _ => None end.

(** The likelihood ratio is the product over the posteriors of the average of population density over sampling prior. *)
Theorem C75_product_of_averages posts src q logz ms p :
  per_sample src = Some q -> posts <> [] -> (0 < samples Row (init posts src logz ms))%nat ->
  (forall d, In d (data Row (init posts src logz ms)) -> (forall x, In x d -> 0 <= p x /\ 0 < q x) /\ exists x, In x d /\ 0 < p x) ->
  exp (ratio (init posts src logz ms) (map (map p) (data Row (init posts src logz ms))))
  = fold_right Rmult 1 (map (fun d => fold_right Rplus 0 (map (fun x => p x / q x) d) / INR (List.length d)) (data Row (init posts src logz ms))).
Proof.
  intros Hq Hp Hn Hd.
  destruct (C75_downsampling posts src logz ms Hp) as [D1 [_ [D3 [_ [_ [_ D7]]]]]].
  assert (W : prior Row (init posts src logz ms) = map (map q) (data Row (init posts src logz ms))).
  { destruct src; cbn in Hq; try discriminate; injection Hq as <-; reflexivity. }
  set (h := init posts src logz ms) in *.
  assert (G : Forall (good Row p q) (data Row h)).
  { apply Forall_forall; intros d H; destruct (Hd d H) as [H1 H2]; split; [apply Forall_forall; exact H1|exact H2]. }
  pose proof (raw_ratio_val Row p q (data Row h) (samples Row h) G D3 Hn) as E.
  unfold Hyper_Model.ratio.
  replace (raw_ratio Row h (map (map p) (data Row h))) with (XVal (rsum (map (fun d => ln (mean_ratio Row p q d)) (data Row h)))).
  2:{ rewrite <- E. unfold raw_ratio, samples_factor; cbn [prior n_post samples]. rewrite W, D1, D7; reflexivity. }
  cbn [nan_to_num].
  assert (P : Forall (fun d => 0 < mean_ratio Row p q d) (data Row h)).
  { apply Forall_forall; intros d H. unfold mean_ratio. rewrite Forall_forall in G; destruct (G d H) as [G1 G2].
    apply Rmult_lt_0_compat; [apply mean_pos; assumption|]. apply Rinv_0_lt_compat, lt_0_INR. rewrite (D3 d H); lia. }
  clear - P. unfold rsum. induction P as [|d l H1 H2 IH]; cbn [map fold_right]; [apply exp_0|].
  rewrite exp_plus, exp_ln, IH by exact H1. reflexivity.
Qed.
(** Proposing the sampling prior itself as population model gives a log ratio of zero. *)
Theorem C75_sampling_prior_is_neutral posts src q logz ms :
  per_sample src = Some q -> posts <> [] -> (0 < samples Row (init posts src logz ms))%nat ->
  (forall d x, In d (data Row (init posts src logz ms)) -> In x d -> 0 < q x) ->
  ratio (init posts src logz ms) (map (map q) (data Row (init posts src logz ms))) = 0.
Proof.
  intros Hq Hp Hn Hd. destruct (C75_downsampling posts src logz ms Hp) as [_ [_ [D3 _]]].
  apply exp_inv. rewrite exp_0. rewrite (C75_product_of_averages posts src q logz ms q Hq Hp Hn).
  - set (l := data Row (init posts src logz ms)) in *.
    assert (G : Forall (fun d => fold_right Rplus 0 (map (fun x => q x / q x) d) / INR (List.length d) = 1) l).
    { apply Forall_forall; intros d Hi.
      assert (N : INR (List.length d) <> 0) by (rewrite (D3 d Hi); apply not_0_INR; lia).
      replace (fold_right Rplus 0 (map (fun x => q x / q x) d)) with (INR (List.length d)); [field; exact N|].
      clear N. specialize (Hd d); specialize (Hd) ; clear D3.
      assert (K : forall x, In x d -> 0 < q x) by (intros x Hx; apply Hd; assumption). clear Hd Hi.
      induction d as [|x d IH]; [reflexivity|]. cbn [map fold_right]. change (List.length (x :: d)) with (S (List.length d)). rewrite S_INR, IH by (intros; apply K; right; assumption).
      assert (0 < q x) by (apply K; left; reflexivity). field; lra. }
    clear - G. induction G as [|d l H1 H2 IH]; cbn [map fold_right]; [reflexivity|]. rewrite H1, IH; ring.
  - intros d Hi. split; [intros x Hx; specialize (Hd d x Hi Hx); lra|].
    assert (L : (0 < List.length d)%nat) by (rewrite (D3 d Hi); exact Hn). destruct d as [|x d]; [cbn in L; lia|].
    exists x; split; [left; reflexivity|apply (Hd (x :: d)); [exact Hi|left; reflexivity]].
Qed.
(** If one posterior has no sample where the population has support, the result is minus the largest float, not -inf. *)
Theorem C75_no_support posts src q logz ms p d :
  per_sample src = Some q -> posts <> [] ->
  (forall d x, In d (data Row (init posts src logz ms)) -> In x d -> 0 <= p x /\ 0 < q x) ->
  In d (data Row (init posts src logz ms)) -> (forall x, In x d -> p x = 0) ->
  ratio (init posts src logz ms) (map (map p) (data Row (init posts src logz ms))) = - big.
Proof.
  intros Hq Hp Hd Hi Hz.
  assert (W : prior Row (init posts src logz ms) = map (map q) (data Row (init posts src logz ms))).
  { destruct src; cbn in Hq; try discriminate; injection Hq as <-; reflexivity. }
  unfold Hyper_Model.ratio, raw_ratio. rewrite W. set (l := data Row (init posts src logz ms)) in *. clearbody l. clear W.
  assert (G : xsum (map (fun pq => term (fst pq) (snd pq)) (combine (map (map p) l) (map (map q) l))) = XNInf).
  { assert (T : forall e, In e l -> term (map p e) (map q e) = XNInf \/ exists v, term (map p e) (map q e) = XVal v).
    { intros e He. destruct (Classical_Prop.classic (exists x, In x e /\ 0 < p x)) as [Hx|Hx].
      - right; eexists; apply term_val; [apply Forall_forall; intros x Hx'; apply (Hd e); assumption|exact Hx].
      - left; apply term_zero, Forall_forall. intros x Hx'. specialize (Hd e x He Hx'). split; [|lra].
        destruct (Req_dec (p x) 0); [assumption|]. exfalso; apply Hx; exists x; split; [assumption|lra]. }
    assert (T0 : term (map p d) (map q d) = XNInf).
    { apply term_zero, Forall_forall. intros x Hx; split; [apply Hz; exact Hx|apply (Hd d); assumption]. }
    clear Hd Hz Hp Hq.
    assert (S : forall l', (forall e, In e l' -> In e l) ->
      xsum (map (fun pq => term (fst pq) (snd pq)) (combine (map (map p) l') (map (map q) l'))) = XNInf
      \/ exists v, xsum (map (fun pq => term (fst pq) (snd pq)) (combine (map (map p) l') (map (map q) l'))) = XVal v).
    { induction l' as [|e l' IH]; intros Hl; cbn; [right; eexists; reflexivity|].
      destruct IH as [E|[v E]]; [intros; apply Hl; right; assumption| |]; unfold xsum in E; rewrite E;
        destruct (T e (Hl e (or_introl eq_refl))) as [E'|[w E']]; rewrite E'; cbn; eauto. }
    assert (S' : forall l', (forall e, In e l' -> In e l) -> In d l' ->
      xsum (map (fun pq => term (fst pq) (snd pq)) (combine (map (map p) l') (map (map q) l'))) = XNInf).
    { induction l' as [|e l' IH]; intros Hl Hin; [contradiction|]. cbn [map combine fst snd xsum fold_right].
      change (fold_right xadd (XVal 0) ?z) with (xsum z).
      destruct Hin as [->|Hin].
      - rewrite T0. destruct (S l') as [E|[v E]]; [intros; apply Hl; right; assumption| |]; rewrite E; reflexivity.
      - rewrite IH; [|intros; apply Hl; right; assumption|exact Hin].
        destruct (T e (Hl e (or_introl eq_refl))) as [E'|[w E']]; rewrite E'; reflexivity. }
    apply S'; auto. }
  exact (f_equal (fun z => nan_to_num big (xadd z (XVal (samples_factor Row (init posts src logz ms))))) G).
Qed.
(** One sample at which both the population density and the sampling prior vanish sets the log ratio to zero,
    whatever the other samples and posteriors say. *)
Theorem C75_zero_over_zero posts src q logz ms p d x :
  per_sample src = Some q -> In d (data Row (init posts src logz ms)) -> In x d -> p x = 0 -> q x = 0 ->
  ratio (init posts src logz ms) (map (map p) (data Row (init posts src logz ms))) = 0.
Proof.
  intros Hq Hi Hx H1 H2.
  assert (W : prior Row (init posts src logz ms) = map (map q) (data Row (init posts src logz ms))).
  { destruct src; cbn in Hq; try discriminate; injection Hq as <-; reflexivity. }
  unfold Hyper_Model.ratio, raw_ratio. rewrite W. set (l := data Row (init posts src logz ms)) in *. clearbody l. clear W.
  assert (N : forall l, In XNan l -> xsum l = XNan).
  { intros l'; induction l' as [|a l' IH]; [contradiction|]. cbn [xsum fold_right]. change (fold_right xadd (XVal 0) l') with (xsum l').
    intros [->|H]; [reflexivity|]. rewrite IH by exact H. destruct a; reflexivity. }
  assert (T : term (map p d) (map q d) = XNan).
  { unfold term. rewrite N; [reflexivity|]. clear Hi. induction d as [|y d IH]; [contradiction|]. cbn.
    destruct Hx as [->|Hx]; [left|right; auto]. rewrite H1, H2; unfold xdiv. destruct (Req_EM_T 0 0); [reflexivity|lra]. }
  rewrite N; [reflexivity|]. induction l as [|e l IH]; [contradiction|]. cbn.
  destruct Hi as [->|Hi]; [left; exact T|right; auto].
Qed.
(** A sampling prior given as a function is evaluated at the samples of the first posterior only. *)
Theorem C75_function_prior_reused f posts logz ms d t :
  data Row (init posts (FromFunction Row f) logz ms) = d :: t ->
  prior Row (init posts (FromFunction Row f) logz ms) = map (fun _ => map f d) (d :: t).
Proof. unfold Hyper_Model.init; cbn [data prior]. intros E. rewrite E. apply weights_function. Qed.
(** log_likelihood adds the sum of the log evidences; without evidences it is nan. *)
Theorem C75_evidences posts src logz ms ps :
  log_likelihood Row big (init posts src logz ms) ps =
  match logz with Some z => Some (fold_right Rplus 0 z + ratio (init posts src logz ms) ps) | None => None end.
Proof. destruct logz; reflexivity. Qed.

(** Through any sequence of hyperparameter updates the caching population model gives the value at the current ones. *)
Fixpoint ratios one mul (m : model V (list (list Row)) (list vec)) (h : hyper Row) (l : list (dict V)) : list (option R) :=
  match l with
  | [] => []
  | p :: t => fst (log_likelihood_ratio V Row veqb big one mul m h p) :: ratios one mul (snd (log_likelihood_ratio V Row veqb big one mul m h p)) h t
  end.
Fixpoint at_current (one : list vec) mul (fs : list (fn V (list (list Row)) (list vec))) (h : hyper Row) (ps : dict V) (l : list (dict V)) : list (option R) :=
  match l with
  | [] => []
  | p :: t => let ps' := fold_left (fun d kv => dset d (fst kv) (snd kv)) p ps in
      option_map (ratio h) (product V (list (list Row)) (list vec) mul fs ps' (data Row h) one) :: at_current one mul fs h ps' t
  end.
Theorem C75_any_sequence_of_updates one mul fs c h l :
  (forall x y, veqb x y = true -> x = y) ->
  ratios one mul (new_model V (list (list Row)) (list vec) fs c) h l = at_current one mul fs h [] l.
Proof.
  intros Hv.
  assert (G : forall m, model_ok V (list (list Row)) (list vec) (data Row h) m ->
    ratios one mul m h l = at_current one mul (fns m) h (pars m) l).
  { induction l as [|p l IH]; intros m Hm; cbn [ratios at_current]; [reflexivity|].
    apply (set_ok _ _ _ _ _ p) in Hm.
    destruct (prob_ok _ _ _ veqb one mul Hv _ _ Hm) as [I1 [I2 [I3 [I4 I5]]]].
    unfold log_likelihood_ratio.
    destruct (prob V (list (list Row)) (list vec) veqb one mul (set_pars V (list (list Row)) (list vec) m p) (data Row h)) as [r m'] eqn:E.
    cbn [fst snd] in *. rewrite IH by exact I2. rewrite I1, I3, I4, product_direct; reflexivity. }
  rewrite G by apply new_ok. reflexivity.
Qed.
End Hyper.

(** Two posteriors with different samples: the weights of the second one are wrong if the prior is given as a function. *)
Theorem C75_function_prior_refuted : ~ (forall (Row : Type) pick f posts logz ms,
  (forall k l n, (n <= List.length l)%nat -> List.length (pick k l n) = n /\ exists r, Permutation (pick k l n ++ r) l) ->
  prior Row (init unit Row (fun _ _ => true) pick posts (FromFunction Row f) logz ms)
  = prior Row (init unit Row (fun _ _ => true) pick posts (FromPriorDict Row f) logz ms)).
Proof.
  intros H. specialize (H R (fun _ l n => firstn n l) (fun x => x) [[1]; [2]] None None).
  assert (E : [[1]; [1]] = [[1]; [2]]).
  { apply H. intros k l n Hn; split; [apply firstn_length_le; exact Hn|exists (skipn n l); rewrite firstn_skipn; reflexivity]. }
  injection E as E; lra.
Qed.
(** Two posteriors of three and two samples, uniform sampling prior 1/2, population density x. *)
Example C75_example :
  let h := init unit R (fun _ _ => true) (fun _ l n => firstn n l) [[1; 2; 3]; [1; 1/2]] (Column R (fun _ => 1/2)) (Some [1; -3]) None in
  data R h = [[1; 2]; [1; 1/2]] /\ samples R h = 2%nat
  /\ exp (ratio R 1000 h (map (map (fun x => x)) (data R h))) = 9/2
  /\ log_likelihood R 1000 h (map (map (fun x => x)) (data R h)) = Some (-2 + ln (9/2)).
Proof.
  intros h. split; [reflexivity|split; [reflexivity|]].
  assert (E : exp (ratio R 1000 h (map (map (fun x => x)) (data R h))) = 9/2).
  { unfold h. rewrite (C75_product_of_averages unit R (fun _ _ => true) 1000 (fun _ l n => firstn n l)) with (q := fun _ => 1/2).
    - cbn. field.
    - intros k l n Hn; split; [apply firstn_length_le; exact Hn|exists (skipn n l); rewrite firstn_skipn; reflexivity].
    - reflexivity.
    - discriminate.
    - cbn; lia.
    - cbn. intros d [<-|[<-|[]]]; (split; [intros x Hx; cbn in Hx; repeat destruct Hx as [<-|Hx]; try contradiction; lra|exists 1; split; [left; reflexivity|lra]]). }
  split; [exact E|]. unfold h at 1; rewrite C75_evidences. fold h. f_equal. rewrite <- E, ln_exp. cbn [fold_right]. f_equal. ring.
Qed.

(** ** Assumptions of every theorem above *)
Definition Hyper_Props_all :=
  (@C76_cache_is_transparent,
   @C76_uncached_is_exact,
   @C76_raises,
   @C76_cache_ignores_data,
   @C76_new_data_refuted,
   @C75_downsampling,
   @C75_product_of_averages,
   @C75_sampling_prior_is_neutral,
   @C75_no_support,
   @C75_zero_over_zero,
   @C75_function_prior_reused,
   @C75_evidences,
   @C75_any_sequence_of_updates,
   @C75_function_prior_refuted).
Print Assumptions Hyper_Props_all.
