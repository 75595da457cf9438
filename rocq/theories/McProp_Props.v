(** Theorems about the proposals of bilby_mcmc: parameters, frame, boundaries, reversibility (C206) *)
From Coq Require Import String Bool List Reals ZArith Lia Lra.
From Verif Require Import PyReal PyDict Samples_Model Samples_Proofs Samples_Props Propose_Model McProp_Model.
Import ListNotations.
Open Scope list_scope.
Open Scope R_scope.

(** a sampled parameter: in the priors, neither fixed nor a constraint *)
Definition sampled (ps : dict prior) (k : string) : Prop :=
  exists p, dget ps k = Some p /\ is_fixed p = false /\ is_constraint p = false.

Lemma mem_in k l : mem k l = true <-> In k l.
Proof.
  unfold mem. rewrite existsb_exists. split.
  - intros (x & Hx & E). apply String.eqb_eq in E. subst. exact Hx.
  - intros H. exists k. split; [exact H | apply String.eqb_refl].
Qed.
Lemma non_fixed_in ps k : wf ps -> (In k (non_fixed_keys ps) <-> sampled ps k).
Proof.
  intros W. unfold non_fixed_keys, sampled. rewrite in_map_iff. split.
  - intros ([k' p] & E & H). simpl in E. subst k'. apply filter_In in H. destruct H as [H B]. simpl in B.
    apply andb_true_iff in B. destruct B as [B1 B2]. exists p. apply negb_true_iff in B1, B2.
    split; [apply dget_in; assumption | auto].
  - intros (p & H & B1 & B2). exists (k, p). split; [reflexivity|]. apply filter_In. simpl. rewrite B1, B2.
    split; [apply dget_in; assumption | reflexivity].
Qed.
Lemma nodup_filter_map {A} (f : string * A -> bool) (l : list (string * A)) : NoDup (map fst l) -> NoDup (map fst (filter f l)).
Proof.
  induction l as [|[k v] t IH]; simpl; intros N; [exact N|]. inversion N as [|? ? H N']; subst.
  destruct (f (k, v)); simpl; [constructor|]; auto. intros C. apply H. apply in_map_iff in C. destruct C as ([k' v'] & E & C).
  simpl in E. subst. apply filter_In in C. apply in_map_iff. exists (k, v'). split; [reflexivity | tauto].
Qed.

(** ** C206 A proposal moves the sampled parameters of its subset, each once; it cannot be built exactly if there are none. *)
Definition wanted (ps : dict prior) (subset : option (list string)) (k : string) : Prop :=
  sampled ps k /\ match subset with None => True | Some s => In k s end.
Theorem C206_parameters ps subset : wf ps ->
  (forall l, parameters ps subset = Some l -> NoDup l /\ l <> [] /\ forall k, In k l <-> wanted ps subset k) /\
  (parameters ps subset = None <-> forall k, ~ wanted ps subset k).
Proof.
  intros W. set (l0 := match subset with None => non_fixed_keys ps | Some s => filter (fun k => mem k s) (non_fixed_keys ps) end).
  assert (M : forall k, In k l0 <-> wanted ps subset k).
  { intros k. unfold l0, wanted. destruct subset as [s|].
    - rewrite filter_In, non_fixed_in, mem_in by exact W. tauto.
    - rewrite non_fixed_in by exact W. tauto. }
  assert (ND : NoDup l0).
  { unfold l0, non_fixed_keys. destruct subset; [apply NoDup_filter|]; apply nodup_filter_map, W. }
  unfold parameters. fold l0. clearbody l0. split.
  - intros l H. destruct l0 as [|x t]; [discriminate|]. injection H as <-. split; [exact ND|]. split; [discriminate | exact M].
  - destruct l0 as [|x t].
    + split; [|reflexivity]. intros _ k C. apply M in C. exact C.
    + split; [discriminate|]. intros H. exfalso. apply (H x), M. left. reflexivity.
Qed.
Example C206_parameters_example :
  let p b := mkPrior b false NoBoundary 0 1 (Some 1) in
  parameters [("a", p false); ("b", p true); ("c", p false)]%string (Some ["c"; "b"]%string) = Some ["c"%string] /\
  parameters [("a", p false); ("b", p true)]%string (Some ["b"]%string) = None.
Proof. split; reflexivity. Qed.

(** ** pointwise description of the moves *)
Definition same_keys (s s' : dict R) := dkeys s' = dkeys s.
Lemma keys_set (s : dict R) k v x : dget s k = Some x -> dkeys (dset s k v) = dkeys s.
Proof. intros H. rewrite dkeys_set. unfold dmem. rewrite H. reflexivity. Qed.
Lemma adds_frame l s s' : adds l s = Some s' ->
  dkeys s' = dkeys s /\ (forall k, ~ In k (map fst l) -> dget s' k = dget s k).
Proof.
  revert s. induction l as [|[k v] t IH]; simpl; intros s H; [injection H as <-; split; auto|].
  destruct (dget s k) as [x|] eqn:E; [|discriminate]. apply IH in H. destruct H as [H1 H2]. split.
  - rewrite H1. apply (keys_set s k (x + v) x E).
  - intros k' N. rewrite H2 by tauto. apply dget_set_ne. intros ->. apply N. auto.
Qed.
Lemma adds_value l s s' : NoDup (map fst l) -> adds l s = Some s' ->
  forall k v, In (k, v) l -> exists x, dget s k = Some x /\ dget s' k = Some (x + v).
Proof.
  revert s. induction l as [|[k v] t IH]; simpl; intros s N H k' v' I; [contradiction|].
  destruct (dget s k) as [x|] eqn:E; [|discriminate]. inversion N as [|? ? Nk Nt]; subst.
  destruct I as [I | I].
  - injection I as <- <-. exists x. split; [exact E|]. destruct (adds_frame _ _ _ H) as [_ F].
    rewrite F by exact Nk. apply dget_set_eq.
  - destruct (IH _ Nt H _ _ I) as (y & Hy & Hz). exists y. split; [|exact Hz].
    rewrite dget_set_ne in Hy; [exact Hy|]. intros ->. apply Nk. change k with (fst (k, v')). apply in_map, I.
Qed.
Lemma adds_total l s : (forall k, In k (map fst l) -> dget s k <> None) -> exists s', adds l s = Some s'.
Proof.
  revert s. induction l as [|[k v] t IH]; simpl; intros s H; [eauto|].
  destruct (dget s k) as [x|] eqn:E; [|exfalso; apply (H k); auto].
  apply IH. intros k' I. destruct (string_dec k' k) as [-> | NE]; [rewrite dget_set_eq; discriminate|].
  rewrite dget_set_ne by exact NE. apply H. auto.
Qed.
Lemma bounds_frame ps ks s s' : apply_boundaries ps ks s = Some s' ->
  dkeys s' = dkeys s /\ (forall k, ~ In k ks -> dget s' k = dget s k).
Proof.
  revert s. induction ks as [|k t IH]; simpl; intros s H; [injection H as <-; split; auto|].
  destruct (dget s k) as [x|] eqn:E; [|discriminate]. destruct (fold_value ps k x) as [y|]; [|discriminate].
  apply IH in H. destruct H as [H1 H2]. split.
  - rewrite H1. apply (keys_set s k y x E).
  - intros k' N. rewrite H2 by tauto. apply dget_set_ne. intros ->. apply N. auto.
Qed.
Lemma bounds_value ps ks s s' : NoDup ks -> apply_boundaries ps ks s = Some s' ->
  forall k, In k ks -> exists x y, dget s k = Some x /\ fold_value ps k x = Some y /\ dget s' k = Some y.
Proof.
  revert s. induction ks as [|k t IH]; simpl; intros s N H k' I; [contradiction|].
  destruct (dget s k) as [x|] eqn:E; [|discriminate]. destruct (fold_value ps k x) as [y|] eqn:F; [|discriminate].
  inversion N as [|? ? Nk Nt]; subst. destruct I as [<- | I].
  - exists x, y. split; [exact E|]. split; [exact F|]. destruct (bounds_frame _ _ _ _ H) as [_ G].
    rewrite G by exact Nk. apply dget_set_eq.
  - destruct (IH _ Nt H _ I) as (x' & y' & H1 & H2 & H3). exists x', y'. repeat split; auto.
    rewrite dget_set_ne in H1; [exact H1|]. intros ->. contradiction.
Qed.
Lemma bounds_total ps ks s : (forall k, In k ks -> dget s k <> None) -> (forall k x, In k ks -> fold_value ps k x <> None) ->
  exists s', apply_boundaries ps ks s = Some s'.
Proof.
  revert s. induction ks as [|k t IH]; simpl; intros s H G; [eauto|].
  destruct (dget s k) as [x|] eqn:E; [|exfalso; apply (H k); auto].
  destruct (fold_value ps k x) as [y|] eqn:F; [|exfalso; apply (G k x); auto].
  apply IH; [|auto]. intros k' I. destruct (string_dec k' k) as [-> | NE]; [rewrite dget_set_eq; discriminate|].
  rewrite dget_set_ne by exact NE. apply H. auto.
Qed.
Lemma de_adds ks th1 th2 g s s' : de_move ks th1 th2 g s = Some s' ->
  adds (map (fun k => (k, g * (match dget th2 k with Some b => b | None => 0 end - match dget th1 k with Some a => a | None => 0 end))) ks) s = Some s'.
Proof.
  revert s. induction ks as [|k t IH]; simpl; intros s H; [exact H|].
  destruct (dget s k); [|discriminate]. destruct (dget th2 k); [|discriminate]. destruct (dget th1 k); [|discriminate].
  apply IH, H.
Qed.
Lemma sets_frame l s : (forall k, In k (map fst l) -> dget s k <> None) ->
  dkeys (sets l s) = dkeys s /\ (forall k, ~ In k (map fst l) -> dget (sets l s) k = dget s k).
Proof.
  revert s. induction l as [|[k v] t IH]; simpl; intros s H; [split; auto|].
  destruct (dget s k) as [x|] eqn:E; [|exfalso; apply (H k); auto].
  destruct (IH (dset s k v)) as [H1 H2].
  { intros k' I. destruct (string_dec k' k) as [-> | NE]; [rewrite dget_set_eq; discriminate|].
    rewrite dget_set_ne by exact NE. apply H. auto. }
  split; [rewrite H1; apply (keys_set s k v x E)|]. intros k' N. rewrite H2 by tauto. apply dget_set_ne. intros ->. apply N. auto.
Qed.
Lemma stretch_frame ks o z s s' : stretch_keys ks o z s = Some s' ->
  dkeys s' = dkeys s /\ (forall k, ~ In k ks -> dget s' k = dget s k).
Proof.
  revert s. induction ks as [|k t IH]; simpl; intros s H; [injection H as <-; split; auto|].
  destruct (dget s k) as [x|] eqn:E; [|discriminate]. destruct (dget o k) as [c|]; [|discriminate].
  apply IH in H. destruct H as [H1 H2]. split.
  - rewrite H1. apply (keys_set s k _ x E).
  - intros k' N. rewrite H2 by tauto. apply dget_set_ne. intros ->. apply N. auto.
Qed.
Lemma fst_map2 {B} (f : string * R -> B) ks zs : forall k, In k (map fst (map (fun kz : string * R => (fst kz, f kz)) (combine ks zs))) -> In k ks.
Proof. rewrite map_map. simpl. intros k H. apply in_map_iff in H. destruct H as ([a b] & E & H). simpl in E. subst. apply in_combine_l in H. exact H. Qed.

(** ** C206 Whatever the random numbers: a proposal keeps the keys of the point in their order and leaves every parameter it was not built for as it was. *)
Inductive proposes (ps : dict prior) (ks : list string) (s : dict R) : option (dict R * R) -> Prop :=
| p_fixed sigma zs : proposes ps ks s (fixed_gaussian ps sigma ks zs s)
| p_adaptive sigma u1 u2 scale zs : proposes ps ks s (adaptive_gaussian ps sigma (adaptive_factor u1 u2) scale ks zs s)
| p_de th1 th2 gamma : proposes ps ks s (differential_evolution ks th1 th2 gamma s)
| p_independent lnq draw : proposes ps ks s (independent lnq ks draw s)
| p_jump j up es : proposes ps ks s (fixed_jump ps (map (fun k => (k, j)) ks) up es s)
| p_fisher jump : proposes ps ks s (fisher ks jump s)
| p_stretch other a u : proposes ps ks s (stretch ks other a u s).
Lemma values_some ks s l : values ks s = Some l -> forall k, In k ks -> dget s k <> None.
Proof.
  revert l. induction ks as [|k t IH]; simpl; intros l H k' I; [contradiction|].
  destruct (dget s k) eqn:E; [|discriminate]. destruct (values t s) eqn:F; [|discriminate].
  destruct I as [<- | I]; [congruence|]. apply (IH _ eq_refl _ I).
Qed.
Lemma jump_keys ps j ks up es k : In k (map fst (jump_steps ps (map (fun k => (k, j)) ks) up es)) -> In k ks.
Proof.
  revert up es. induction ks as [|a t IH]; simpl; intros up es; [destruct up, es; auto|].
  destruct up as [|b up']; [contradiction|]. destruct es as [|e es']; [contradiction|]. simpl. intros [H | H]; [auto|]. right. exact (IH _ _ H).
Qed.
Lemma proposes_frame ps ks s r s1 lf : proposes ps ks s r -> r = Some (s1, lf) ->
  dkeys s1 = dkeys s /\ forall k, ~ In k ks -> dget s1 k = dget s k.
Proof.
  intros P E. assert (A : forall l, (forall k, In k (map fst l) -> In k ks) -> with_factor 0 (adds l s) = Some (s1, lf) ->
    dkeys s1 = dkeys s /\ forall k, ~ In k ks -> dget s1 k = dget s k).
  { intros l S H. unfold with_factor in H. destruct (adds l s) as [x|] eqn:F; [|discriminate]. injection H as -> _.
    destruct (adds_frame _ _ _ F) as [H1 H2]. split; [exact H1|]. intros k N. apply H2. auto. }
  destruct P.
  - apply (A (map (fun kz => (fst kz, wid ps (fst kz) * sigma (fst kz) * snd kz)) (combine ks zs))); [apply fst_map2 | exact E].
  - apply (A (map (fun kz => (fst kz, adaptive_factor u1 u2 * scale * wid ps (fst kz) * sigma (fst kz) * snd kz)) (combine ks zs))); [apply fst_map2 | exact E].
  - unfold differential_evolution, with_factor in E. destruct (de_move ks th1 th2 gamma s) as [x|] eqn:F; [|discriminate].
    injection E as -> _. apply de_adds in F. destruct (adds_frame _ _ _ F) as [H1 H2]. split; [exact H1|]. intros k N. apply H2.
    rewrite map_map. simpl. rewrite map_id. exact N.
  - unfold independent in E. destruct (values ks s) as [o|] eqn:V; [|discriminate].
    destruct (values ks (sets (combine ks draw) s)); [|discriminate]. injection E as <- _.
    assert (S : forall k, In k (map fst (combine ks draw)) -> In k ks).
    { intros k H. apply in_map_iff in H. destruct H as ([a b] & Ea & H). simpl in Ea. subst. apply in_combine_l in H. exact H. }
    destruct (sets_frame (combine ks draw) s) as [H1 H2]; [intros k H; apply (values_some ks s o V); auto|].
    split; [exact H1|]. intros k N. apply H2. auto.
  - apply (A (jump_steps ps (map (fun k => (k, j)) ks) up es)); [apply jump_keys | exact E].
  - apply (A (combine ks jump)); [|exact E]. intros k H. apply in_map_iff in H. destruct H as ([a b] & Ea & H). simpl in Ea. subst. apply in_combine_l in H. exact H.
  - unfold stretch, with_factor in E. destruct (stretch_keys ks other (stretch_z a u) s) as [x|] eqn:F; [|discriminate].
    injection E as -> _. apply (stretch_frame _ _ _ _ _ F).
Qed.
Theorem C206_frame ps ks s r s' lf : proposes ps ks s r -> call ps ks r = Some (s', lf) ->
  dkeys s' = dkeys s /\ forall k, ~ In k ks -> dget s' k = dget s k.
Proof.
  intros P C. destruct r as [[s1 l1]|]; [|discriminate C]. destruct (proposes_frame _ _ _ _ _ _ P eq_refl) as [K F].
  unfold call in C. destruct (Req_EM_T l1 0).
  - destruct (apply_boundaries ps ks s1) as [s2|] eqn:B; [|discriminate]. injection C as -> _.
    destruct (bounds_frame _ _ _ _ B) as [K2 F2]. split; [congruence|]. intros k N. rewrite F2, F by exact N. reflexivity.
  - injection C as -> _. auto.
Qed.

(** ** C206 A dictionary of jumps is not restricted to the subset: other parameters move too. *)
Theorem C206_jump_refuted : exists ps ks jumps up es s s',
  parameters ps (Some ["a"%string]) = Some ks /\ call ps ks (fixed_jump ps jumps up es s) = Some (s', 0) /\
  ks = ["a"%string] /\ dget s "b"%string = Some 0 /\ dget s' "b"%string = Some 1.
Proof.
  set (p := mkPrior false false NoBoundary 0 1 (Some 1)).
  exists [("a", p); ("b", p)]%string, ["a"%string], [("a", 1); ("b", 1)]%string, [true; true], [0; 0], [("a", 0); ("b", 0)]%string.
  exists [("a", 0 + (1 * 1 + 0 * 1)); ("b", 0 + (1 * 1 + 0 * 1))]%string.
  split; [reflexivity|]. split; [|split; [reflexivity|split; [reflexivity|]]].
  - unfold fixed_jump, call, with_factor. cbn [jump_steps adds dget dset String.eqb Ascii.eqb Bool.eqb wid width p].
    simpl. destruct (Req_EM_T 0 0); [reflexivity | congruence].
  - simpl. f_equal. ring.
Qed.

(** ** C206 After a proposal with log factor zero every periodic or reflective parameter lies in its interval. *)
Theorem C206_inside ps ks s r s' : NoDup ks -> proposes ps ks s r -> call ps ks r = Some (s', 0) ->
  forall k p x, In k ks -> dget ps k = Some p -> 0 < wid ps k -> dget s' k = Some x ->
  match bnd p with
  | Periodic => pmin p <= x < pmin p + wid ps k
  | Reflective => pmin p <= x <= pmin p + wid ps k
  | _ => True
  end.
Proof.
  intros N P C k p x I D W X. destruct r as [[s1 l1]|]; [|discriminate C]. unfold call in C.
  destruct (Req_EM_T l1 0) as [-> | NZ]; [|exfalso; congruence].
  destruct (apply_boundaries ps ks s1) as [s2|] eqn:B; [|discriminate]. injection C as ->.
  destruct (bounds_value _ _ _ _ N B _ I) as (x0 & y & _ & F & Y). assert (x = y) by congruence. subst y.
  unfold fold_value in F. rewrite D in F. destruct (bnd p); try exact Logic.I; injection F as <-.
  - unfold apply_periodic_boundary. pose proof (rmod_range (x0 - pmin p) (wid ps k) W). lra.
  - unfold apply_reflective_boundary. pose proof (C15_reflect_range ((x0 - pmin p) / wid ps k)) as [A1 A2].
    split; [|]; nra.
Qed.
(** with another log factor the point can leave the interval *)
Theorem C206_outside_refuted : exists ps ks other a u s s' lf x,
  call ps ks (stretch ks other a u s) = Some (s', lf) /\ lf <> 0 /\
  (forall k, In k ks -> exists p, dget ps k = Some p /\ bnd p = Periodic /\ pmin p = 0 /\ width p = Some 1) /\
  dget s' "a"%string = Some x /\ 1 < x.
Proof.
  set (p := mkPrior false false Periodic 0 1 (Some 1)).
  assert (L : ln 2 <> 0). { pose proof ln_lt_2. lra. }
  exists [("a", p); ("b", p)]%string, ["a"; "b"]%string, [("a", 0); ("b", 0)]%string, 2, 1, [("a", 3 / 4); ("b", 0)]%string.
  exists [("a", 0 + (3 / 4 - 0) * stretch_z 2 1); ("b", 0 + (0 - 0) * stretch_z 2 1)]%string.
  exists (stretch_log_factor 2 (stretch_z 2 1)), (0 + (3 / 4 - 0) * stretch_z 2 1).
  assert (Z : stretch_z 2 1 = 2) by (unfold stretch_z; field).
  assert (F : stretch_log_factor 2 (stretch_z 2 1) <> 0).
  { unfold stretch_log_factor. rewrite Z. simpl. replace ((1 + 1 - 1) * ln 2) with (ln 2) by ring. exact L. }
  split; [|split; [exact F|split; [|split; [reflexivity | rewrite Z; lra]]]].
  - unfold stretch, call, with_factor. cbn [stretch_keys dget dset String.eqb Ascii.eqb Bool.eqb length].
    simpl. destruct (Req_EM_T (stretch_log_factor 2 (stretch_z 2 1)) 0); [contradiction | reflexivity].
  - intros k [<- | [<- | []]]; exists p; repeat split; reflexivity.
Qed.

(** ** Assumptions of every theorem above *)
Definition McProp_Props_all :=
  (@C206_parameters,
   @C206_frame,
   @C206_jump_refuted,
   @C206_inside,
   @C206_outside_refuted).
Print Assumptions McProp_Props_all.
