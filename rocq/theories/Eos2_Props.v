(** * Spectral equations of state (C198), joined tables and families of stars (C199) *)
From Coq Require Import Reals Lra Lia List Bool Psatz.
From Coquelicot Require Import Coquelicot.
From Verif Require Import PyReal Interp_Model Interp_Proofs Eos_Model Eos_Props.
Import ListNotations.
Open Scope list_scope.
Open Scope R_scope.

(** ** C198 *)
Section Spectral.
Variable g : list R.
Lemma poly_cont x : continuous (poly g) x.
Proof.
  unfold poly. generalize (combine (seq 0 (length g)) g). intros l. induction l as [|[n a] l IH]; cbn [map fold_right fst snd]; [apply continuous_const|].
  apply (continuous_plus (V := R_NormedModule) (fun x => a * x ^ n)); [|exact IH]. apply (ex_derive_continuous (V := R_NormedModule)). auto_derive. exact I.
Qed.
Lemma adiabatic_pos x : 0 < adiabatic g x.
Proof. apply exp_pos. Qed.
Lemma adiabatic_cont x : continuous (adiabatic g) x.
Proof. unfold adiabatic. apply continuous_comp; [apply poly_cont|apply continuous_exp]. Qed.
Lemma inv_adiabatic_cont x : continuous (fun t => / adiabatic g t) x.
Proof. apply (continuous_comp (adiabatic g) Rinv); [apply adiabatic_cont|]. apply continuous_Rinv. apply Rgt_not_eq, adiabatic_pos. Qed.
Lemma primitive_derive (f : R -> R) x : (forall t, continuous f t) -> is_derive (fun b => RInt f 0 b) x (f x).
Proof.
  intros H. apply (is_derive_RInt (V := R_NormedModule) f (fun b => RInt f 0 b) 0 x); [|apply H]. exists (mkposreal 1 Rlt_0_1). intros b _. apply (RInt_correct (V := R_CompleteNormedModule)). apply (ex_RInt_continuous (V := R_CompleteNormedModule)). intros; apply H.
Qed.
Lemma mu_pos x : 0 < mu g x.
Proof. apply exp_pos. Qed.
Lemma mu_derive x : is_derive (mu g) x (- (mu g x / adiabatic g x)).
Proof.
  pose proof (primitive_derive (fun t => / adiabatic g t) x inv_adiabatic_cont) as D. unfold mu.
  replace (- (exp (- RInt (fun t => / adiabatic g t) 0 x) / adiabatic g x)) with ((- / adiabatic g x) * exp (- RInt (fun t => / adiabatic g t) 0 x)) by (unfold Rdiv; ring).
  apply (is_derive_comp exp (fun x => - RInt (fun t => / adiabatic g t) 0 x) x (exp (- RInt (fun t => / adiabatic g t) 0 x)) (- / adiabatic g x)); [apply is_derive_exp|].
  apply (is_derive_opp (K := R_AbsRing) (V := R_NormedModule) (fun b => RInt (fun t => / adiabatic g t) 0 b) x (/ adiabatic g x)). exact D.
Qed.
Lemma inner_cont x : continuous (fun t => exp t * mu g t / adiabatic g t) x.
Proof.
  apply (continuous_mult (K := R_AbsRing) (fun t => exp t * mu g t) (fun t => / adiabatic g t)); [|apply inv_adiabatic_cont].
  apply (continuous_mult (K := R_AbsRing) exp (mu g)); [apply continuous_exp|]. apply (ex_derive_continuous (V := R_NormedModule)). eexists. apply mu_derive.
Qed.
Variables p0 e0 c : R.
Notation eps := (energy_density g p0 e0 c).
(** The energy density starts at e0 c^2 and obeys the law that defines the adiabatic index: with the pressure p0 e^x, its derivative in x is (energy + pressure) / Gamma. *)
Theorem C198_law : eps 0 = e0 * c ^ 2 /\ forall x, is_derive eps x ((eps x + p0 * exp x) / adiabatic g x).
Proof.
  split.
  - unfold energy_density, mu. rewrite !RInt_point. unfold zero. cbn. rewrite Ropp_0, exp_0. field.
  - intros x. unfold energy_density. pose proof (mu_derive x) as DM. pose proof (primitive_derive _ x inner_cont) as DI. pose proof (mu_pos x) as MP. pose proof (adiabatic_pos x) as AP.
    set (I := fun b => RInt (fun t => exp t * mu g t / adiabatic g t) 0 b) in *.
    apply (is_derive_ext (fun x => (e0 * c ^ 2 + p0 * I x) * / mu g x)).
    { intros t. match goal with |- ?a = ?b => change (@eq R a b) end. unfold I, Rdiv. ring. }
    assert (DV : is_derive (fun x => / mu g x) x (/ (mu g x * adiabatic g x))).
    { replace (/ (mu g x * adiabatic g x)) with (- - (mu g x / adiabatic g x) / mu g x ^ 2) by (field; lra). apply is_derive_inv; [exact DM|lra]. }
    match goal with |- is_derive _ _ ?v => replace v with ((p0 * (exp x * mu g x / adiabatic g x)) * / mu g x + (e0 * c ^ 2 + p0 * I x) * / (mu g x * adiabatic g x)) by (unfold I; field; lra) end.
    apply (is_derive_mult (K := R_AbsRing) (fun x => e0 * c ^ 2 + p0 * I x) (fun x => / mu g x)); [|exact DV|intros; apply Rmult_comm].
    replace (p0 * (exp x * mu g x / adiabatic g x)) with (0 + p0 * (exp x * mu g x / adiabatic g x)) by ring. apply (is_derive_plus (K := R_AbsRing) (V := R_NormedModule)); [exact (is_derive_const (K := R_AbsRing) (V := R_NormedModule) (e0 * c ^ 2) x)|]. apply is_derive_scal. exact DI.
Qed.
(** Nothing else obeys this law from that start. *)
Theorem C198_unique f : f 0 = e0 * c ^ 2 -> (forall x, is_derive f x ((f x + p0 * exp x) / adiabatic g x)) -> forall x, f x = eps x.
Proof.
  intros F0 FD x. destruct C198_law as [E0 ED].
  assert (D : forall t, is_derive (fun t => (f t - eps t) * mu g t) t 0).
  { intros t. pose proof (adiabatic_pos t) as AP. replace 0 with (((f t + p0 * exp t) / adiabatic g t - (eps t + p0 * exp t) / adiabatic g t) * mu g t + (f t - eps t) * (- (mu g t / adiabatic g t))) by (field; lra).
    apply (is_derive_mult (K := R_AbsRing) (fun t => f t - eps t) (mu g)); [|apply mu_derive|intros; apply Rmult_comm]. apply (is_derive_minus (K := R_AbsRing) (V := R_NormedModule)); [apply FD|apply ED]. }
  assert (K : (f x - eps x) * mu g x = (f 0 - eps 0) * mu g 0).
  { destruct (MVT_gen (fun t => (f t - eps t) * mu g t) 0 x (fun _ => 0)) as (y & _ & M).
    - intros t _. apply D.
    - intros t _. apply continuity_pt_filterlim. apply (ex_derive_continuous (V := R_NormedModule) (fun t => (f t - eps t) * mu g t)). eexists. apply D.
    - lra. }
  rewrite F0, E0 in K. pose proof (mu_pos x) as MP. assert (Z : (f x - eps x) * mu g x = 0) by (rewrite K; ring). apply Rmult_integral in Z. destruct Z; lra.
Qed.
Hypothesis p0_pos : 0 < p0.
Hypothesis e0_pos : 0 < e0.
Hypothesis c_pos : 0 < c.
Lemma eps_pos x : 0 <= x -> 0 < eps x.
Proof.
  intros Hx. unfold energy_density. pose proof (mu_pos x) as MP. assert (0 <= RInt (fun t => exp t * mu g t / adiabatic g t) 0 x).
  { apply RInt_ge_0; [exact Hx| |].
    - apply (ex_RInt_continuous (V := R_CompleteNormedModule)). intros; apply inner_cont.
    - intros t _. apply Rmult_le_pos; [apply Rmult_le_pos; left; [apply exp_pos|apply mu_pos]|left; apply Rinv_0_lt_compat, adiabatic_pos]. }
  assert (0 < e0 * c ^ 2 / mu g x) by (apply Rdiv_lt_0_compat; [apply Rmult_lt_0_compat; [assumption|apply pow_lt; assumption]|assumption]). assert (0 <= p0 / mu g x * RInt (fun t => exp t * mu g t / adiabatic g t) 0 x) by (apply Rmult_le_pos; [left; apply Rdiv_lt_0_compat; assumption|assumption]). lra.
Qed.
Theorem C198_increasing x y : 0 <= x -> x < y -> 0 < eps x < eps y.
Proof.
  intros Hx L. split; [apply eps_pos; exact Hx|]. destruct (MVT_gen eps x y (fun t => (eps t + p0 * exp t) / adiabatic g t)) as (z & Z & M).
  - intros t _. apply C198_law.
  - intros t _. apply continuity_pt_filterlim. apply (ex_derive_continuous (V := R_NormedModule) eps). eexists. apply C198_law.
  - rewrite Rmin_left, Rmax_right in Z by lra. assert (0 < (eps z + p0 * exp z) / adiabatic g z * (y - x)).
    { apply Rmult_lt_0_compat; [|lra]. apply Rdiv_lt_0_compat; [|apply adiabatic_pos]. pose proof (eps_pos z ltac:(lra)). pose proof (Rmult_lt_0_compat _ _ p0_pos (exp_pos z)). lra. }
    lra.
Qed.
End Spectral.
(** A single coefficient is a polytrope with constant index. *)
Theorem C198_polytrope G p0 e0 c x : 0 < G -> G <> 1 -> energy_density [ln G] p0 e0 c x = e0 * c ^ 2 * exp (x / G) + p0 * (exp x - exp (x / G)) / (G - 1).
Proof.
  intros GP G1. symmetry. apply (C198_unique [ln G] p0 e0 c (fun x => e0 * c ^ 2 * exp (x / G) + p0 * (exp x - exp (x / G)) / (G - 1))).
  - replace (0 / G) with 0 by (field; lra). rewrite exp_0. field. lra.
  - intros t. assert (A : adiabatic [ln G] t = G) by (unfold adiabatic, poly; cbn; replace (ln G * 1 + 0) with (ln G) by ring; now apply exp_ln). rewrite A. auto_derive; [repeat split; lra|]. try (match goal with |- ?a = ?b => change (@eq R a b) end). unfold Rdiv. rewrite ?Rmult_1_l. field. split; lra.
Qed.
(** Without xmax the coefficients have to be arrays: numbers cannot be subscripted.  The pressure range then ends where the last term alone gives the index 6. *)
Theorem C198_xmax g X : determine_xmax false g = None /\
  (determine_xmax true g = Some X -> (2 <= length g)%nat /\ last g 0 <> 0 /\ 0 < X /\ exp (Rabs (last g 0) * X ^ (length g - 1)) = 6).
Proof.
  split; [reflexivity|]. intros H. unfold determine_xmax in H. destruct g as [|a g]; [discriminate|]. remember (a :: g) as l eqn:El. destruct (pdiv (ln 6) (Rabs (last l 0))) as [q|] eqn:Q; [|discriminate]. cbn [bindo] in H.
  destruct (pdiv 1 (INR (length l - 1))) as [r|] eqn:Rr; [|discriminate]. cbn [bindo] in H. unfold pdiv in Q, Rr. destruct (Req_EM_T (Rabs (last l 0)) 0) as [|NZ]; [discriminate|]. destruct (Req_EM_T (INR (length l - 1)) 0) as [|NL]; [discriminate|].
  apply some_inj in Q, Rr. assert (LZ : last l 0 <> 0) by (intros E; apply NZ; rewrite E; apply Rabs_R0). assert (AP : 0 < Rabs (last l 0)) by (apply Rabs_pos_lt; exact LZ).
  assert (L6 : 0 < ln 6) by (rewrite <- ln_1; apply ln_increasing; lra). assert (QP : 0 < q) by (rewrite <- Q; apply Rdiv_lt_0_compat; assumption). unfold ppow in H. destruct (Rlt_dec 0 q); [|lra]. apply some_inj in H.
  assert (L2 : (2 <= length l)%nat). { destruct (le_lt_dec 2 (length l)); [assumption|]. exfalso. apply NL. replace (length l - 1)%nat with 0%nat by lia. reflexivity. }
  split; [exact L2|]. split; [exact LZ|]. assert (XP : 0 < X) by (rewrite <- H; apply exp_pos). split; [exact XP|].
  rewrite <- Rpower_pow by exact XP. rewrite <- H, Rpower_mult, <- Rr. replace (1 / INR (length l - 1) * INR (length l - 1)) with 1 by (field; exact NL). rewrite Rpower_1 by exact QP. rewrite <- Q. replace (Rabs (last l 0) * (ln 6 / Rabs (last l 0))) with (ln 6) by (field; lra). apply exp_ln. lra.
Qed.
(** *** the range of the adiabatic index in sampling mode *)
Lemma stop_spec g k xs : (forall j, (j < length xs)%nat -> in_range g (nth j xs 0) = true) /\ stop_at g k xs = (k + length xs - 1)%nat \/
  exists j, (j < length xs)%nat /\ (forall i, (i < j)%nat -> in_range g (nth i xs 0) = true) /\ in_range g (nth j xs 0) = false /\ stop_at g k xs = (k + j)%nat.
Proof.
  revert k. induction xs as [|x xs IH]; intros k; [left; split; [intros j Hj; cbn in Hj; lia|cbn; lia]|]. cbn [stop_at]. destruct (in_range g x) eqn:E.
  - destruct (IH (S k)) as [[A B]|(j & Hj & A & B & D)].
    + left. split; [intros [|j] Hj; [exact E|apply A; cbn in Hj; lia]|]. rewrite B. cbn [length]. lia.
    + right. exists (S j). split; [cbn; lia|]. split; [intros [|i] Hi; [exact E|apply A; lia]|]. split; [exact B|]. rewrite D. lia.
  - right. exists 0%nat. split; [cbn; lia|]. split; [intros i Hi; lia|]. split; [exact E|lia].
Qed.
Lemma linspace_length a b n : length (linspace a b n) = n.
Proof. unfold linspace. now rewrite map_length, seq_length. Qed.
Lemma linspace_nth a b n i : (i < n)%nat -> nth i (linspace a b n) 0 = a + INR i * ((b - a) / INR (n - 1)).
Proof.
  intros H. unfold linspace. set (f := fun i => _). rewrite (nth_indep _ 0 (f 0%nat)) by (rewrite map_length, seq_length; exact H). rewrite map_nth, seq_nth by exact H. unfold f. f_equal.
Qed.
(** Without a warning the range ends at a point of the grid not below 4 with the index between 0.6 and 4.6 there and at all points before. *)
Theorem C198_range g xmax npts x' : a_of_x g xmax npts true false = Some (x', false) ->
  exists j, (S j < npts)%nat /\ x' = nth j (linspace 0 xmax npts) 0 /\ 4 <= x' /\ (forall i, (i <= j)%nat -> 0.6 < adiabatic g (nth i (linspace 0 xmax npts) 0) < 4.6) /\
    (in_range g (nth (S j) (linspace 0 xmax npts) 0) = false \/ S (S j) = npts).
Proof.
  unfold a_of_x. cbv zeta. destruct (linspace 0 xmax npts) as [|a l] eqn:EL; [discriminate|]. rewrite <- EL. intros H.
  assert (LN : length (linspace 0 xmax npts) = npts) by apply linspace_length.
  assert (IR : forall x, in_range g x = true -> 0.6 < adiabatic g x < 4.6) by (intros x; unfold in_range; destruct (Rlt_dec 0.6 (adiabatic g x)); destruct (Rlt_dec (adiabatic g x) 4.6); cbn; intros; try discriminate; lra).
  destruct (stop_at g 0 (linspace 0 xmax npts)) as [|j] eqn:ES; [rewrite Nat.eqb_refl, orb_true_r in H; discriminate|].
  destruct (Rlt_dec (nth j (linspace 0 xmax npts) 0) 4) as [|GE]; [discriminate|]. cbn [orb Nat.eqb] in H. apply some_inj in H. assert (HX : x' = nth j (linspace 0 xmax npts) 0) by congruence.
  exists j. destruct (stop_spec g 0 (linspace 0 xmax npts)) as [[A B]|(i & Hi & A & B & D)].
  - rewrite ES, LN in B. split; [lia|]. split; [exact HX|]. split; [lra|]. split; [intros i Hi; apply IR, A; rewrite LN; lia|right; lia].
  - rewrite ES in D. rewrite LN in Hi. assert (i = S j) by lia. subst i. split; [lia|]. split; [exact HX|]. split; [lra|]. split; [intros i' Hi'; apply IR, A; lia|left; exact B].
Qed.
(** A curve that is in range everywhere on the grid loses its last step. *)
Theorem C198_shortened_refuted g xmax npts : (2 <= npts)%nat -> 0 < xmax -> 4 <= xmax * (1 - / INR (npts - 1)) ->
  (forall i, (i < npts)%nat -> in_range g (nth i (linspace 0 xmax npts) 0) = true) ->
  a_of_x g xmax npts true false = Some (xmax * (1 - / INR (npts - 1)), false) /\ xmax * (1 - / INR (npts - 1)) < xmax.
Proof.
  intros N2 XP X4 A. assert (NP : 0 < INR (npts - 1)) by (apply lt_0_INR; lia). assert (IP : 0 < / INR (npts - 1)) by (apply Rinv_0_lt_compat; exact NP). split; [|nra].
  unfold a_of_x. cbv zeta. destruct (linspace 0 xmax npts) as [|a l] eqn:EL; [pose proof (linspace_length 0 xmax npts) as L; rewrite EL in L; cbn in L; lia|]. rewrite <- EL in *.
  destruct (stop_spec g 0 (linspace 0 xmax npts)) as [[_ B]|(i & Hi & _ & B & _)].
  2: { rewrite linspace_length in Hi. rewrite (A i Hi) in B. discriminate. }
  rewrite linspace_length in B. rewrite B. cbn [Nat.add]. destruct (npts - 1)%nat as [|j] eqn:EJ; [lia|]. rewrite linspace_nth by lia. rewrite EJ.
  assert (V : 0 + INR j * ((xmax - 0) / INR (S j)) = xmax * (1 - / INR (S j))) by (rewrite S_INR; rewrite S_INR in NP; field; lra). rewrite V. destruct (Rlt_dec (xmax * (1 - / INR (S j))) 4); [lra|]. reflexivity.
Qed.
(** A first point out of range gives the warning. *)
Theorem C198_warned g xmax npts : (0 < npts)%nat -> in_range g 0 = false -> a_of_x g xmax npts true false = Some (xmax, true).
Proof.
  intros NP F. unfold a_of_x. cbv zeta. destruct npts as [|n]; [lia|]. unfold linspace. cbn [seq map]. replace (0 + INR 0 * ((xmax - 0) / INR (S n - 1))) with 0 by (cbn [INR]; ring). cbn [stop_at]. rewrite F. rewrite Nat.eqb_refl, orb_true_r. reflexivity.
Qed.
Example C198_ex : energy_density [ln 2] 1 3 1 (2 * ln 2) = 8 /\ a_of_x [ln 2] 12 101 true false = Some (12 * (1 - / 100), false).
Proof.
  split.
  - rewrite C198_polytrope by lra. replace (2 * ln 2 / 2) with (ln 2) by field. replace (2 * ln 2) with (ln 2 + ln 2) by ring. rewrite exp_plus, exp_ln by lra. field.
  - destruct (C198_shortened_refuted [ln 2] 12 101) as [H _]; try lia; try lra.
    + replace (INR (101 - 1)) with 100 by (rewrite INR_IZR_INZ; reflexivity). lra.
    + intros i _. unfold in_range, adiabatic, poly. cbn [length seq combine map fold_right fst snd pow]. replace (ln 2 * 1 + 0) with (ln 2) by ring. rewrite exp_ln by lra. destruct (Rlt_dec 0.6 2); [|lra]. destruct (Rlt_dec 2 4.6); [reflexivity|lra].
    + rewrite H. replace (INR (101 - 1)) with 100 by (rewrite INR_IZR_INZ; reflexivity). reflexivity.
Qed.

(** ** Assumptions of every theorem above *)
Definition Eos2_Props_all :=
  (@C198_law,
   @C198_unique,
   @C198_increasing,
   @C198_polytrope,
   @C198_xmax,
   @C198_range,
   @C198_shortened_refuted,
   @C198_warned).
Print Assumptions Eos2_Props_all.
