(** The Gaussian integral, by Leibniz' rule for
    g(x) = (int_0^x exp(-t^2) dt)^2 + int_0^1 exp(-x^2 (1 + t^2)) / (1 + t^2) dt. *)
From Coq Require Import Reals Lra Lia.
From Coquelicot Require Import Coquelicot.
Open Scope R_scope.

Definition bell (t : R) : R := exp (- t^2).
Definition bellint (x : R) : R := RInt bell 0 x.
Lemma bell_cont x : continuous bell x.
Proof. unfold bell. apply (ex_derive_continuous (V := R_NormedModule)). auto_derive. auto. Qed.
Lemma bell_int a b : ex_RInt bell a b.
Proof. apply (ex_RInt_continuous (V := R_CompleteNormedModule)). intros. apply bell_cont. Qed.
Lemma bellint_derive x : is_derive bellint x (bell x).
Proof.
  unfold bellint. apply (is_derive_RInt bell _ 0 x).
  - apply filter_forall. intros y. apply (RInt_correct bell), bell_int.
  - apply bell_cont.
Qed.
Definition leib (x t : R) : R := exp (- x^2 * (1 + t^2)) / (1 + t^2).
Lemma one_sqr t : 0 < 1 + t^2.
Proof. assert (0 <= t^2) by (rewrite <- Rsqr_pow2; apply Rle_0_sqr). lra. Qed.
Lemma leib_cont x t : continuous (leib x) t.
Proof. unfold leib. apply (ex_derive_continuous (V := R_NormedModule)). auto_derive. pose proof (one_sqr t). lra. Qed.
Lemma leib_int x a b : ex_RInt (leib x) a b.
Proof. apply (ex_RInt_continuous (V := R_CompleteNormedModule)). intros. apply leib_cont. Qed.
Lemma leib_derive x t : is_derive (fun u => leib u t) x (- 2 * x * exp (- x^2 * (1 + t^2))).
Proof. pose proof (one_sqr t). unfold leib. auto_derive; [auto|]. unfold Rdiv.
  change (exp (- x^2 * (1 + t^2))) with (exp (- (x * (x * 1)) * (1 + t * (t * 1)))). set (e := exp _). field. simpl in *. lra. Qed.
Definition leibint (x : R) : R := RInt (leib x) 0 1.
Lemma leibint_derive x : is_derive leibint x (RInt (fun t => - 2 * x * exp (- x^2 * (1 + t^2))) 0 1).
Proof.
  unfold leibint.
  rewrite <- (RInt_ext (fun t => Derive (fun u => leib u t) x)) by (intros t _; apply is_derive_unique, leib_derive).
  apply (is_derive_RInt_param leib).
  - apply filter_forall. intros y t _. eexists. apply leib_derive.
  - intros t _. apply (continuity_2d_pt_ext (fun u v => - 2 * u * exp (- u^2 * (1 + v^2)))).
    + intros u v. symmetry. apply is_derive_unique, leib_derive.
    + apply continuity_2d_pt_mult.
      * apply continuity_2d_pt_mult; [apply continuity_2d_pt_const|apply continuity_2d_pt_id1].
      * apply (continuity_1d_2d_pt_comp exp (fun u v => - u^2 * (1 + v^2))); [apply derivable_continuous, derivable_exp|].
        apply continuity_2d_pt_mult.
        -- apply continuity_2d_pt_opp. apply (continuity_2d_pt_ext (fun u v => u * u)); [intros; ring|]. apply continuity_2d_pt_mult; apply continuity_2d_pt_id1.
        -- apply continuity_2d_pt_plus; [apply continuity_2d_pt_const|]. apply (continuity_2d_pt_ext (fun u v => v * v)); [intros; ring|]. apply continuity_2d_pt_mult; apply continuity_2d_pt_id2.
  - apply filter_forall. intros y. apply leib_int.
Qed.
Lemma int_scal x c : RInt (fun t => c * bell (x * t)) 0 1 = c * RInt (fun t => bell (x * t)) 0 1.
Proof.
  apply (RInt_scal (V := R_CompleteNormedModule) (fun t => bell (x * t)) 0 1 c). apply (ex_RInt_continuous (V := R_CompleteNormedModule)). intros z _. unfold bell. apply (ex_derive_continuous (V := R_NormedModule)). auto_derive. auto.
Qed.
(** substitution t -> x t *)
Lemma bellint_scale x : bellint x = x * RInt (fun t => bell (x * t)) 0 1.
Proof.
  unfold bellint. pose proof (RInt_comp_lin bell x 0 0 1) as H. rewrite !Rplus_0_r, Rmult_0_r, Rmult_1_r in H. rewrite <- H by apply bell_int.
  transitivity (RInt (fun t => x * bell (x * t)) 0 1); [|apply int_scal].
  apply RInt_ext. intros t _. unfold scal; cbn; unfold mult; cbn. now rewrite Rplus_0_r.
Qed.
Lemma leibint_value x : RInt (fun t => - 2 * x * exp (- x^2 * (1 + t^2))) 0 1 = - 2 * bell x * bellint x.
Proof.
  rewrite bellint_scale. transitivity (RInt (fun t => (- 2 * x * bell x) * bell (x * t)) 0 1); [|rewrite int_scal; match goal with |- ?a = ?b => change (@eq R a b) end; ring].
  apply RInt_ext. intros t _. unfold bell. match goal with |- ?a = ?b => change (@eq R a b) end. replace (- x^2 * (1 + t^2)) with (- x^2 + - (x * t)^2) by ring. rewrite exp_plus. ring.
Qed.
Lemma gauss_const x : bellint x ^ 2 + leibint x = PI / 4.
Proof.
  assert (D : forall y, is_derive (fun x => bellint x ^ 2 + leibint x) y 0).
  { intros y. replace 0 with (2 * bellint y * bell y + (- 2 * bell y * bellint y)) by ring. rewrite <- leibint_value.
    apply (is_derive_plus (fun x => bellint x ^ 2) leibint); [|apply leibint_derive].
    replace (2 * bellint y * bell y) with (INR 2 * bell y * bellint y ^ 1) by (cbn; ring). apply is_derive_pow, bellint_derive. }
  assert (Z : bellint 0 ^ 2 + leibint 0 = PI / 4).
  { unfold bellint. rewrite RInt_point. cbn [zero]. unfold leibint, leib. rewrite (RInt_ext _ (fun t => / (1 + t^2))).
    - rewrite (is_RInt_unique _ 0 1 (minus (atan 1) (atan 0))).
      + rewrite atan_0, atan_1. unfold minus, plus, opp, zero; cbn. ring.
      + apply (is_RInt_derive atan (fun t => / (1 + t^2))).
        * intros t _. apply is_derive_Reals. apply derivable_pt_lim_atan.
        * intros t _. apply (ex_derive_continuous (V := R_NormedModule)). auto_derive. pose proof (one_sqr t). simpl in *. lra.
    - intros t _. match goal with |- ?a = ?b => change (@eq R a b) end. replace (- 0^2 * (1 + t^2)) with 0 by ring. rewrite exp_0. unfold Rdiv. ring. }
  rewrite <- Z. destruct (Req_dec x 0) as [->|Hx]; auto.
  destruct (MVT_gen (fun x => bellint x ^ 2 + leibint x) 0 x (fun _ => 0)) as (c & _ & E).
  - intros y _. apply D.
  - intros y _. apply continuity_pt_filterlim. apply (ex_derive_continuous (V := R_NormedModule) (fun x => bellint x ^ 2 + leibint x)). exists 0. apply D.
  - lra.
Qed.
Lemma leibint_bound x : 0 <= leibint x <= exp (- x^2).
Proof.
  unfold leibint. split.
  - apply RInt_ge_0; [lra|apply leib_int|]. intros t _. unfold leib. left. apply Rdiv_lt_0_compat; [apply exp_pos|apply one_sqr].
  - replace (exp (- x^2)) with (RInt (fun _ => exp (- x^2)) 0 1) by (rewrite RInt_const; unfold scal; cbn; unfold mult; cbn; ring).
    apply RInt_le; [lra|apply leib_int|apply ex_RInt_const|]. intros t _. unfold leib. pose proof (one_sqr t) as O. assert (T : 0 <= t^2) by (rewrite <- Rsqr_pow2; apply Rle_0_sqr).
    assert (X : 0 <= x^2) by (rewrite <- Rsqr_pow2; apply Rle_0_sqr).
    apply Rle_trans with (exp (- x^2 * (1 + t^2))).
    + apply (Rmult_le_reg_r (1 + t^2)); auto. replace (exp (- x^2 * (1 + t^2)) / (1 + t^2) * (1 + t^2)) with (exp (- x^2 * (1 + t^2))) by (field; lra).
      pose proof (exp_pos (- x^2 * (1 + t^2))). nra.
    + destruct (Rle_lt_or_eq_dec (- x^2 * (1 + t^2)) (- x^2)) as [H|H]; [nra|left; now apply exp_increasing|rewrite H; lra].
Qed.
Lemma bellint_nonneg x : 0 <= x -> 0 <= bellint x.
Proof. intros H. apply RInt_ge_0; auto; [apply bell_int|]. intros; left; apply exp_pos. Qed.
Lemma exp_minus_sqr_lim : is_lim (fun x => exp (- x^2)) p_infty 0.
Proof.
  apply (is_lim_comp exp (fun b => - b^2) p_infty 0 m_infty); [apply is_lim_exp_m| |exists 0; intros; discriminate].
  apply (is_lim_opp (fun b => b^2) p_infty p_infty). apply (is_lim_ext (fun b => b * b)); [intros; ring|].
  apply (is_lim_mult _ _ _ p_infty p_infty); [apply is_lim_id|apply is_lim_id|]. cbn. auto.
Qed.
Theorem gauss_integral : is_lim bellint p_infty (sqrt PI / 2).
Proof.
  pose proof PI_RGT_0 as P. apply (is_lim_ext_loc (fun x => sqrt (PI / 4 - leibint x))).
  - exists 0. intros x Hx. rewrite <- (gauss_const x). replace (bellint x ^ 2 + leibint x - leibint x) with (Rsqr (bellint x)) by (unfold Rsqr; ring).
    apply sqrt_Rsqr. apply bellint_nonneg. lra.
  - replace (sqrt PI / 2) with (sqrt (PI / 4 - 0)).
    2:{ replace (PI / 4 - 0) with (PI * / 4) by field. rewrite sqrt_mult_alt by lra. unfold Rdiv. f_equal. replace (/ 4) with (/ 2 * / 2) by field. apply sqrt_square. lra. }
    apply (is_lim_comp_continuous (fun x => PI / 4 - leibint x) sqrt p_infty (PI / 4 - 0)).
    + apply (is_lim_minus _ _ _ (PI / 4) 0); [apply is_lim_const| |unfold is_Rbar_minus, is_Rbar_plus; cbn; do 2 f_equal; ring].
      apply (is_lim_le_le_loc (fun _ => 0) (fun x => exp (- x^2))); [exists 0; intros; apply leibint_bound|apply is_lim_const|apply exp_minus_sqr_lim].
    + apply continuous_sqrt.
Qed.
