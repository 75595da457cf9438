(** Properties C211 and C212: likelihoods and step arguments handed to PyMC. *)
From Coq Require Import String Reals Lra List Bool Arith Lia.
From Coquelicot Require Import Coquelicot.
From Verif Require Import PyDict PyReal Prior_Model GaussPrior_Model GaussPrior_Proofs Lik_Model Pymc_Model Pymc_Props.
Import ListNotations.
Open Scope string_scope.
Open Scope list_scope.
Open Scope R_scope.

Lemma keys_known_iff fkeys point : keys_known fkeys point = true <-> forall k, In k (dkeys point) -> In k fkeys.
Proof.
  unfold keys_known. rewrite forallb_forall. split; intros H k I.
  - specialize (H k I). apply existsb_exists in H. destruct H as (j & J & E). apply String.eqb_eq in E. subst. exact J.
  - apply existsb_exists. exists k. split; [apply H, I | apply String.eqb_refl].
Qed.
Lemma existsb_none {A} (f : A -> bool) l : (forall x, In x l -> f x = false) -> existsb f l = false.
Proof. intros H. apply not_true_iff_false. intros E. apply existsb_exists in E. destruct E as (x & I & F). rewrite (H x I) in F. discriminate. Qed.

(** ** C211 At every point PyMC's log likelihood is bilby's, where the rates and means are positive and the width and the degrees of freedom are known. *)
Section C211.
Variable gammaln : R -> R.
Variable func : dict R -> option (list R).
Variable fkeys : list string.
(** what the function of the likelihood is called with: the point without sigma *)
Definition others (name : string) (point : dict R) : dict R := if dmem point name then ddel point name else point.

Lemma gauss_sum mu : forall s y, length s = length mu -> length y = length mu -> (forall x, In x s -> 0 < x) ->
  rsum (map (fun q => normal_logp (fst (fst q)) (snd (fst q)) (snd q)) (combine (combine mu s) y)) = rsum (map (fun rs => gauss_term (fst rs) (snd rs)) (combine (residual y mu) s)).
Proof.
  induction mu as [|m mu IH]; intros [|s t] [|y z] L1 L2 P; try discriminate; [reflexivity|]. unfold residual, rsum in *. simpl.
  rewrite IH by (try (simpl in *; congruence); intros; apply P; right; assumption). f_equal.
  assert (S : 0 < s) by (apply P; left; reflexivity). pose proof PI_RGT_0. unfold normal_logp, gauss_term. rewrite ln_root by lra.
  replace (2 * PI * s ^ 2) with (2 * PI * (s * s)) by ring. rewrite (ln_mult (2 * PI)), (ln_mult s s) by nra. replace (((y - m) / s) ^ 2) with ((y - m) / s * ((y - m) / s)) by ring. lra.
Qed.
Theorem C211_gaussian point s y mu : (forall k, In k (dkeys (others "sigma" point)) -> In k fkeys) -> func (others "sigma" point) = Some mu ->
  length y = length mu -> length (sigmas (length mu) s) = length mu -> (forall x, In x (sigmas (length mu) s) -> 0 < x) ->
  pymc_gaussian func fkeys point (Some s) y = Ok (gaussian (residual y mu) (Some s)).
Proof.
  intros K F L Ls P. unfold pymc_gaussian, others in *.
  assert (E : (if dmem point "sigma" then match Some s with None => Err TypeError | Some _ => Ok (ddel point "sigma") end else Ok point) = Ok (if dmem point "sigma" then ddel point "sigma" else point))
    by (destruct (dmem point "sigma"); reflexivity).
  rewrite E. clear E. rewrite (proj2 (keys_known_iff _ _) K). cbn [negb]. rewrite F. f_equal. unfold gaussian.
  assert (Lr : length (residual y mu) = length mu) by (unfold residual; rewrite map_length, combine_length; lia). rewrite Lr.
  rewrite existsb_none.
  - f_equal. apply gauss_sum; [exact Ls | exact L | exact P].
  - intros [a b] I. apply in_combine_r in I. simpl. destruct (Req_EM_T b 0); [|reflexivity]. apply P in I. lra.
Qed.
Theorem C211_poisson point y mu : (forall k, In k (dkeys point) -> In k fkeys) -> func point = Some mu -> (forall m, In m mu -> 0 < m) ->
  pymc_poisson func fkeys point y = Ok (poisson mu y).
Proof.
  intros K F P. unfold pymc_poisson, poisson. rewrite (proj2 (keys_known_iff _ _) K). cbn [negb]. rewrite F.
  rewrite !existsb_none; [f_equal | | | ].
  - clear F. revert y. induction mu as [|m mu IH]; intros [|n y]; try reflexivity. cbn [combine map bsum fst snd]. unfold poisson_logp at 1.
    assert (0 < m) by (apply P; left; reflexivity). destruct (Req_EM_T m 0); [lra|]. rewrite IH by (intros; apply P; right; assumption). cbn [vmap]. f_equal. unfold rsum, poisson_term. simpl. ring.
  - intros m I. apply P in I. destruct (Req_EM_T m 0); [lra | reflexivity].
  - intros m I. apply P in I. destruct (Rlt_dec m 0); [lra | reflexivity].
  - intros m I. apply P in I. unfold lt. destruct (Rlt_dec m 0); [lra | reflexivity].
Qed.
Theorem C211_exponential point y mu : (forall k, In k (dkeys point) -> In k fkeys) -> func point = Some mu -> (forall m, In m mu -> 0 < m) ->
  pymc_exponential func fkeys point y = Ok (exponential mu y).
Proof.
  intros K F P. unfold pymc_exponential, exponential. rewrite (proj2 (keys_known_iff _ _) K). cbn [negb]. rewrite F.
  rewrite !existsb_none; [do 2 f_equal | | | ].
  - clear F. revert y. induction mu as [|m mu IH]; intros [|n y]; try (unfold rsum; simpl; ring). cbn [combine map fst snd]. unfold rsum in *. cbn [fold_right].
    rewrite IH by (intros; apply P; right; assumption). assert (0 < m) by (apply P; left; reflexivity). rewrite ln_over, ln_1 by lra. field. lra.
  - intros m I. apply P in I. destruct (Req_EM_T m 0); [lra | reflexivity].
  - intros m I. apply P in I. destruct (Rlt_dec m 0); [lra | reflexivity].
  - intros m I. apply P in I. unfold le. destruct (Rle_dec m 0); [lra | reflexivity].
Qed.
Theorem C211_student point nu sigma y mu : (forall k, In k (dkeys (others "nu" point)) -> In k fkeys) -> func (others "nu" point) = Some mu ->
  0 < nu -> 0 < sigma -> length y = length mu -> pymc_student gammaln func fkeys point (Some nu) sigma y = Ok (student gammaln (residual y mu) nu sigma).
Proof.
  intros K F N S L. unfold pymc_student, others in *. rewrite (proj2 (keys_known_iff _ _) K). cbn [negb]. rewrite F. f_equal. unfold student.
  destruct (Rle_dec nu 0); [lra|]. destruct (Req_EM_T sigma 0); [lra|]. f_equal. clear F. revert y L. induction mu as [|m mu IH]; intros [|z y] L; try discriminate; [reflexivity|].
  unfold residual, rsum in *. simpl in *. rewrite IH by congruence. f_equal. unfold Rdiv. rewrite Rmult_1_l. lra.
Qed.

(** ** C211 A prior for a name that is no argument of the function is an error. *)
Theorem C211_keys point k y : In k (dkeys point) -> ~ In k fkeys ->
  pymc_poisson func fkeys point y = Err ValueError /\ (forall y, pymc_exponential func fkeys point y = Err ValueError) /\
  (forall s y, k <> "sigma" -> pymc_gaussian func fkeys point (Some s) y = Err ValueError) /\ (forall nu s y, k <> "nu" -> pymc_student gammaln func fkeys point nu s y = Err ValueError).
Proof.
  intros I N. assert (KF : forall p, In k (dkeys p) -> keys_known fkeys p = false).
  { intros p J. apply not_true_iff_false. intros T. apply N. exact (proj1 (keys_known_iff _ _) T k J). }
  assert (D : forall n, k <> n -> In k (dkeys (if dmem point n then ddel point n else point))).
  { intros n Hn. destruct (dmem point n); [|exact I]. destruct (dget (ddel point n) k) as [v|] eqn:E.
    - apply dget_some_in in E. change k with (fst (k, v)). apply in_map, E.
    - rewrite dget_del_ne in E by exact Hn. apply dget_none in E. contradiction. }
  split; [unfold pymc_poisson; rewrite KF by exact I; reflexivity|]. split; [intros; unfold pymc_exponential; rewrite KF by exact I; reflexivity|]. split.
  - intros s z Hn. unfold pymc_gaussian. specialize (D _ Hn). apply KF in D. destruct (dmem point "sigma"); rewrite D; reflexivity.
  - intros nu s z Hn. unfold pymc_student. specialize (D _ Hn). apply KF in D. rewrite D. reflexivity.
Qed.

(** ** C211 A width or number of degrees of freedom to be sampled never gets to PyMC. *)
Theorem C211_sampled_refuted point y : (dmem point "sigma" = true -> pymc_gaussian func fkeys point None y = Err TypeError) /\
  (forall sigma v, pymc_student gammaln func fkeys point None sigma y <> Ok v).
Proof.
  split; [intros D; unfold pymc_gaussian; rewrite D; reflexivity|]. intros sigma v. unfold pymc_student.
  destruct (negb _); [discriminate|]. destruct (func _); discriminate.
Qed.
End C211.
(** ** C211 With a rate of zero where nothing is counted bilby excludes the point and PyMC does not. *)
Theorem C211_poisson_refuted : exists func point y mu v, func point = Some mu /\ poisson mu y = NegInf /\ pymc_poisson func ["r"] point y = Ok (Val v).
Proof.
  exists (fun p => match dget p "r" with Some r => Some [r; 1 + r] | None => None end), [("r", 0)], [O; 1%nat], [0; 1 + 0]. eexists. split; [reflexivity|]. split.
  - unfold poisson. simpl. destruct (Rlt_dec 0 0); [lra|]. destruct (Rlt_dec (1 + 0) 0); [lra|]. destruct (Req_EM_T 0 0); [reflexivity | contradiction].
  - unfold pymc_poisson. simpl. unfold lt. destruct (Rlt_dec 0 0); [lra|]. destruct (Rlt_dec (1 + 0) 0); [lra|]. unfold poisson_logp. destruct (Req_EM_T 0 0); [|contradiction]. destruct (Req_EM_T (1 + 0) 0); [lra|]. reflexivity.
Qed.
(** ** C211 Arguments given to the likelihood for its function are not passed: a default of the function is used instead. *)
Theorem C211_kwargs_refuted : exists (func : dict R -> option (list R)) kwargs point y mu v,
  func (point ++ kwargs) = Some mu /\ gaussian (residual y mu) (Some (Known 1)) <> Val v /\ pymc_gaussian func ["a"] point (Some (Known 1)) y = Ok (Val v).
Proof.
  exists (fun p => match dget p "a" with Some a => Some [a + match dget p "b" with Some b => b | None => 0 end] | None => None end), [("b", 1)], [("a", 0)], [0], [0 + 1].
  eexists. split; [reflexivity|]. split; [|reflexivity]. unfold gaussian, residual, rsum. simpl. destruct (Req_EM_T 1 0); [lra|]. intros H. injection H as H. revert H.
  unfold gauss_term, normal_logp. intros H. pose proof PI_RGT_0. rewrite ln_root in H by lra. replace (2 * PI * 1 ^ 2) with (2 * PI) in H by ring. rewrite ln_1 in H.
  replace (((0 - (0 + 0)) / 1) ^ 2) with 0 in H by field. replace (((0 - (0 + 1)) / 1) ^ 2) with 1 in H by field. lra.
Qed.
Example C211_example : pymc_exponential (fun p => match dget p "m" with Some m => Some [m; m] | None => None end) ["m"] [("m", 2)] [2; 4] = Ok (Val (- (ln 2 + 1 + (ln 2 + 2)))).
Proof.
  rewrite (C211_exponential _ ["m"] [("m", 2)] [2; 4] [2; 2]); [|intros k [<- | []]; left; reflexivity|reflexivity|intros m [<- | [<- | []]]; lra].
  f_equal. unfold exponential. simpl. destruct (Rlt_dec 2 0); [lra|]. destruct (Req_EM_T 2 0); [lra|]. unfold rsum. simpl. apply (f_equal Val). field.
Qed.

(** ** C212 Step methods: with anything but NUTS alone, every method gets the arguments given for it, and NUTS those of nuts_kwargs or the single arguments; with NUTS alone no method is passed and its arguments go to pymc.sample. *)
Section C212.
Variable V : Type.
Lemma pick_get names (single : dict V) k : dget (pick V names single) k = if existsb (String.eqb k) names then dget single k else None.
Proof.
  induction names as [|n t IH]; [reflexivity|]. simpl. destruct (dget single n) as [v|] eqn:E; simpl; destruct (String.eqb_spec k n) as [->|N]; simpl; auto.
  rewrite IH, E. destruct (existsb (String.eqb n) t); reflexivity.
Qed.
Theorem C212_steps names given single step methods l extra : steps V names given single step methods = (l, extra) ->
  ((exists m, In m methods /\ m <> "nuts") ->
     map fst l = methods /\ extra = [] /\
     (forall a, In ("nuts", a) l -> a = nuts_kwargs V names given single) /\
     (forall m a, In (m, a) l -> m <> "nuts" -> dget step m = Some a \/ (dget step m = None /\ a = []))) /\
  ((forall m, In m methods -> m = "nuts") -> l = [] /\ extra = nuts_kwargs V names given single).
Proof.
  intros H. unfold steps in H. destruct (forallb (String.eqb "nuts") methods) eqn:E; injection H as <- <-.
  - rewrite forallb_forall in E. split; [intros (m & I & N)|auto]. apply E, String.eqb_eq in I. congruence.
  - split.
    + intros _. split; [rewrite map_map; simpl; apply map_id|]. split; [reflexivity|]. split.
      * intros a I. apply in_map_iff in I. destruct I as (m & Q & I). injection Q as -> <-. reflexivity.
      * intros m a I N. apply in_map_iff in I. destruct I as (m' & Q & I). injection Q as -> <-. unfold method_args. apply String.eqb_neq in N. rewrite N. destruct (dget step m); auto.
    + intros A. apply not_true_iff_false in E. exfalso. apply E. apply forallb_forall. intros m I. rewrite (A m I). reflexivity.
Qed.
Theorem C212_single names single k : dget (nuts_kwargs V names None single) k = if existsb (String.eqb k) names then dget single k else None.
Proof. apply pick_get. Qed.
(** what is given for NUTS in step_kwargs is dropped without a word *)
Theorem C212_nuts_refuted names given single a b step methods : steps V names given single (("nuts", a) :: step) methods = steps V names given single (("nuts", b) :: step) methods.
Proof.
  unfold steps. destruct (forallb _ methods); [reflexivity|]. f_equal. apply map_ext. intros m. unfold method_args. destruct (String.eqb_spec m "nuts") as [->|N]; [reflexivity|].
  simpl. apply String.eqb_neq in N. rewrite N. reflexivity.
Qed.
End C212.
Example C212_example : steps nat ["target_accept"; "max_treedepth"] None [("target_accept", 9%nat); ("draws", 5%nat)] [("slice", [("w", 1%nat)])] ["nuts"; "slice"; "metropolis"] =
  ([("nuts", [("target_accept", 9%nat)]); ("slice", [("w", 1%nat)]); ("metropolis", [])], []).
Proof. reflexivity. Qed.

(** ** Assumptions of every theorem above *)
Definition Pymc2_Props_all :=
  (@C211_gaussian,
   @C211_poisson,
   @C211_exponential,
   @C211_student,
   @C211_keys,
   @C211_sampled_refuted,
   @C211_poisson_refuted,
   @C211_kwargs_refuted,
   @C212_steps,
   @C212_single,
   @C212_nuts_refuted).
Print Assumptions Pymc2_Props_all.
