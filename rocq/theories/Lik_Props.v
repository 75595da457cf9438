(** C68 - C73: the likelihoods of bilby/core/likelihood.py. *)
From Coq Require Import Reals List Bool Arith String Lia Lra Permutation.
From Coquelicot Require Import Coquelicot.
From Verif Require Import PyDict PyReal Lik_Model Lik_Proofs.
Import ListNotations.
Open Scope R_scope.
Open Scope list_scope.

(** *** C68 Gaussian *)
(** The likelihood is the product of the normal densities of the residuals. *)
Theorem C68_product_of_densities y mu s :
  List.length y = List.length mu ->
  (forall x, In x (sigmas (List.length y) s) -> x <> 0) ->
  exists v, gaussian (residual y mu) (Some s) = Val v
    /\ exp v = rprod (map (fun p => / (Rabs (snd p) * sqrt (2 * PI)) * exp (- (fst p)^2 / (2 * (Rabs (snd p))^2)))
                         (combine (map (fun ym => fst ym - snd ym) (combine y mu)) (sigmas (List.length y) s))).
Proof.
  intros Hl Hs. assert (L : List.length (residual y mu) = List.length y) by (unfold residual; rewrite map_length, combine_length; lia).
  eexists. split; [apply gaussian_val; now rewrite L|]. rewrite L, exp_rsum, map_map. fold (residual y mu). f_equal. apply map_ext_in. intros [r x] Hin. cbn [fst snd].
  rewrite gauss_term_pdf; [reflexivity|]. apply Hs. now apply in_combine_r in Hin.
Qed.
(** A sampled value of sigma replaces the value given at construction; without one the attribute counts. *)
Theorem C68_sampled_sigma_wins r s attr attr' :
  gaussian r (get_sigma (Some (Some s)) attr) = gaussian r (get_sigma None (Some (Known s)))
  /\ gaussian r (get_sigma (Some (Some s)) attr) = gaussian r (get_sigma (Some (Some s)) attr')
  /\ gaussian r (get_sigma (Some None) attr) = Raise /\ gaussian r (get_sigma None None) = Raise.
Proof. repeat split; reflexivity. Qed.
(** Between two models the one with the smaller sum of squared residuals is the more likely. *)
Theorem C68_least_squares r r' s v v' : s <> 0 -> List.length r = List.length r' ->
  gaussian r (Some (Known s)) = Val v -> gaussian r' (Some (Known s)) = Val v' ->
  (v <= v' <-> rsum (map (fun x => x^2) r') <= rsum (map (fun x => x^2) r)).
Proof. apply gaussian_order. Qed.
(** The root mean square of the residuals is the most likely sigma. *)
Theorem C68_best_sigma r s v : (exists x, In x r /\ x <> 0) -> s <> 0 -> gaussian r (Some (Known s)) = Val v ->
  exists v', gaussian r (Some (Known (sqrt (rsum (map (fun x => x^2) r) / INR (List.length r))))) = Val v' /\ v <= v'.
Proof.
  intros (x & Hx & Hx0) Hs E. fold (chi2 r). assert (Hc : 0 < chi2 r).
  { destruct (Rle_lt_or_eq_dec _ _ (chi2_nonneg r)) as [H|H]; auto. exfalso. apply Hx0. symmetry in H. exact (rsum_sqr_zero r H x Hx). }
  assert (Hn : 0 < INR (List.length r)) by (apply lt_0_INR; destruct r; [destruct Hx|cbn; lia]).
  set (c := chi2 r) in *. assert (Q : 0 < c / INR (List.length r)) by (now apply Rdiv_lt_0_compat).
  assert (S0 : sqrt (c / INR (List.length r)) <> 0) by (apply Rgt_not_eq; now apply sqrt_lt_R0).
  eexists. split; [apply gaussian_known; exact S0|]. eapply (gaussian_mle r s); [exact Hs|exact S0|exact Hc| |exact E|apply gaussian_known; exact S0].
  rewrite <- Rsqr_pow2, Rsqr_sqrt by lra. fold c. field. lra.
Qed.
(** Data sets add up, and neither the order of the data, nor the sign of a residual or of sigma matters. *)
Theorem C68_independent_data r1 r2 s v1 v2 : s <> 0 ->
  gaussian r1 (Some (Known s)) = Val v1 -> gaussian r2 (Some (Known s)) = Val v2 -> gaussian (r1 ++ r2) (Some (Known s)) = Val (v1 + v2).
Proof. intros. now apply gaussian_app. Qed.
Theorem C68_order_and_signs r r' s : Permutation r r' -> s <> 0 ->
  gaussian r' (Some (Known s)) = gaussian r (Some (Known s))
  /\ gaussian (map Ropp r) (Some (Known s)) = gaussian r (Some (Known s))
  /\ gaussian r (Some (Known (- s))) = gaussian r (Some (Known s)).
Proof.
  intros P Hs. assert (Hs' : - s <> 0) by lra. rewrite !gaussian_known by auto. rewrite map_length, (Permutation_length P). unfold chi2. rewrite map_map.
  split; [|split].
  - f_equal. f_equal. f_equal. f_equal. apply rsum_perm. apply Permutation_map. now apply Permutation_sym.
  - f_equal. f_equal. f_equal. f_equal. f_equal. apply map_ext. intros; ring.
  - f_equal. replace ((- s)^2) with (s^2) by ring. reflexivity.
Qed.
(** A vanishing sigma gives nan, not an error or -inf. *)
Theorem C68_zero_sigma_is_nan r s : r <> [] -> List.length (sigmas (List.length r) s) = List.length r -> In 0 (sigmas (List.length r) s) -> gaussian r (Some s) = Nan.
Proof. apply gaussian_zero_sigma. Qed.
(** An array of sigmas is only accepted with one entry per datum. *)
Theorem C68_setter n s : set_sigma n s = None <-> exists l, s = Some (Each l) /\ List.length l <> n.
Proof.
  unfold set_sigma. destruct s as [[x|l]|]; [split; [discriminate|intros (l & E & _); discriminate]| |split; [discriminate|intros (l & E & _); discriminate]].
  destruct (Nat.eqb_spec (List.length l) n) as [H|H]; split; try discriminate; auto.
  - intros (l' & E & H'). injection E as <-. contradiction.
  - intros _. exists l. auto.
Qed.
Example C68_example :
  gaussian (residual [1; 2] [0; 3]) (get_sigma (Some (Some 1)) (Some (Known 7))) = Val (- 1 - ln (2 * PI)).
Proof.
  cbn [get_sigma residual combine map fst snd]. rewrite gaussian_known by lra. unfold chi2, rsum. cbn [map fold_right List.length INR]. f_equal.
  replace (2 * PI * 1^2) with (2 * PI) by ring. field.
Qed.

(** *** C69 Poisson *)
Theorem C69_product_of_pmf rate y : (forall r, In r rate -> 0 < r) ->
  exists v, poisson rate y = Val v /\ exp v = rprod (map (fun p => exp (- fst p) * fst p ^ snd p / INR (fact (snd p))) (combine rate y)).
Proof.
  intros H. eexists. split; [now apply poisson_val|]. rewrite exp_rsum, map_map. f_equal. apply map_ext_in. intros [r k] Hin. cbn [fst snd]. apply exp_poisson. apply H. now apply in_combine_l in Hin.
Qed.
(** The likelihoods of all possible counts of a bin add up to one. *)
Theorem C69_normalised rate : 0 < rate -> exists p : nat -> R, (forall y, exists v, poisson [rate] [y] = Val v /\ p y = exp v) /\ infinite_sum p 1.
Proof.
  intros H. exists (poisson_pmf rate). split; [|apply poisson_sum]. intros y. eexists. split; [apply poisson_val; intros r [<-|[]]; auto|].
  cbn. rewrite Rplus_0_r. symmetry. now apply exp_poisson.
Qed.
(** The rates equal to the counts maximise the likelihood. *)
Theorem C69_best_rate rate y v : (forall r, In r rate -> 0 < r) -> (forall k, In k y -> (0 < k)%nat) -> List.length rate = List.length y -> poisson rate y = Val v ->
  exists v', poisson (map INR y) y = Val v' /\ v <= v'.
Proof.
  intros Hr Hy Hl E. rewrite poisson_val in E by auto. apply val_inj in E. subst v. eexists. split.
  - apply poisson_val. intros r Hin. apply in_map_iff in Hin as (k & <- & Hk). apply lt_0_INR. auto.
  - unfold rsum. revert y Hy Hl. induction rate as [|r t IH]; intros [|k y] Hy Hl; cbn in Hl; try lia; cbn [combine map fold_right fst snd]; [lra|].
    apply Rplus_le_compat; [apply poisson_max; [apply Hr|apply Hy]; now left|]. apply IH; [| |lia]; intros; [apply Hr|apply Hy]; now right.
Qed.
(** Which rates are refused; a rate zero gives -inf whatever the counts. *)
Theorem C69_bad_rates rate y :
  (poisson rate y = Raise <-> exists r, In r rate /\ r < 0)
  /\ (poisson rate y = NegInf <-> (forall r, In r rate -> 0 <= r) /\ In 0 rate).
Proof.
  unfold poisson. destruct (existsb _ rate) eqn:E.
  - apply existsb_exists in E as (r & Hr & H). destruct (Rlt_dec r 0); [|discriminate]. split; split; auto; try discriminate.
    + intros _. exists r. auto.
    + intros (H1 & _). apply H1 in Hr. lra.
  - assert (N : forall r, In r rate -> 0 <= r).
    { intros r Hr. destruct (Rlt_dec r 0) as [L|L]; [|lra]. assert (X : existsb (fun r => if Rlt_dec r 0 then true else false) rate = true); [|congruence].
      apply existsb_exists. exists r. split; auto. destruct (Rlt_dec r 0); auto. }
    destruct (existsb (fun r => if Req_EM_T r 0 then true else false) rate) eqn:E2; split; split; try discriminate.
    + intros (r & Hr & H). apply N in Hr. lra.
    + intros _. split; auto. apply existsb_exists in E2 as (r & Hr & H). destruct (Req_EM_T r 0); [now subst|discriminate].
    + auto.
    + intros (r & Hr & H). apply N in Hr. lra.
    + intros (_ & H0). assert (X : existsb (fun r => if Req_EM_T r 0 then true else false) rate = true); [|congruence].
      apply existsb_exists. exists 0. split; auto. destruct (Req_EM_T 0 0); auto.
Qed.
(** Refuted: "the likelihood is the Poisson probability for every rate >= 0".  With rate 0 the count 0 has
    probability one. *)
Theorem C69_zero_rate_refuted : exists rate y, poisson rate y = NegInf
  /\ rprod (map (fun p => exp (- fst p) * fst p ^ snd p / INR (fact (snd p))) (combine rate y)) = 1.
Proof.
  exists [0], [O]. split.
  - apply C69_bad_rates. split; [intros r [<-|[]]; lra|now left].
  - cbn. rewrite Ropp_0, exp_0. field.
Qed.
Example C69_example : poisson [2; 1] [1; 0]%nat = Val (-3 + ln 2).
Proof.
  rewrite poisson_val by (intros r [<-|[<-|[]]]; lra). unfold rsum, poisson_term. cbn. f_equal. rewrite ln_1. ring.
Qed.

(** *** C70 Exponential *)
Theorem C70_product_of_densities mu y : (forall m, In m mu -> 0 < m) ->
  exists v, exponential mu y = Val v /\ exp v = rprod (map (fun p => / fst p * exp (- snd p / fst p)) (combine mu y)).
Proof.
  intros H. eexists. split; [now apply exponential_val|]. rewrite rsum_opp, exp_rsum, map_map. f_equal. apply map_ext_in. intros [m x] Hin. cbn [fst snd]. apply exp_exponential. apply H. now apply in_combine_l in Hin.
Qed.
(** The density in the datum integrates to one over the non-negative numbers. *)
Theorem C70_normalised mu : 0 < mu -> exists p : R -> R, (forall y, exists v, exponential [mu] [y] = Val v /\ p y = exp v)
  /\ is_lim (fun b => RInt p 0 b) p_infty 1.
Proof.
  intros H. exists (exponential_pdf mu). split.
  - intros y. eexists. split; [apply exponential_val; intros r [<-|[]]; auto|]. cbn. rewrite Rplus_0_r. symmetry. now apply exp_exponential.
  - assert (E : forall b, RInt (exponential_pdf mu) 0 b = 1 - exp (- b / mu)).
    { intros b. apply is_RInt_unique. replace (1 - exp (- b / mu)) with (minus ((fun x => - exp (- x / mu)) b) ((fun x => - exp (- x / mu)) 0)).
      - apply (is_RInt_derive (fun x => - exp (- x / mu)) (exponential_pdf mu)).
        + intros x _. unfold exponential_pdf. auto_derive; [lra|]. unfold Rdiv.
 ring.
        + intros x _. unfold exponential_pdf. apply (ex_derive_continuous (V := R_NormedModule)). auto_derive. lra.
      - unfold minus, plus, opp; cbn. replace (- 0 / mu) with 0 by (field; lra). rewrite exp_0. ring. }
    apply (is_lim_ext (fun b => 1 - exp (- b / mu))); [intros; now rewrite E|].
    apply (is_lim_minus _ _ _ 1 0); [apply is_lim_const| |unfold is_Rbar_minus, is_Rbar_plus; cbn; f_equal; f_equal; ring].
    apply (is_lim_ext (fun b => exp (- / mu * b))); [intros b; replace (- b / mu) with (- / mu * b) by (field; lra); reflexivity|].
    apply (is_lim_comp exp (fun b => - / mu * b) p_infty 0 m_infty); [apply is_lim_exp_m| |exists 0; intros; discriminate].
    assert (P : 0 < / mu) by (now apply Rinv_0_lt_compat).
    replace m_infty with (Rbar_mult (- / mu) p_infty); [apply is_lim_scal_l, is_lim_id|].
    cbn. destruct (Rle_dec 0 (- / mu)); [exfalso; lra|reflexivity].
Qed.
Theorem C70_best_mean mu y v : (forall m, In m mu -> 0 < m) -> (forall x, In x y -> 0 < x) -> List.length mu = List.length y -> exponential mu y = Val v ->
  exists v', exponential y y = Val v' /\ v <= v'.
Proof.
  intros Hm Hy Hl E. rewrite exponential_val in E by auto. apply val_inj in E. subst v. eexists. split; [now apply exponential_val|].
  rewrite !rsum_opp. unfold rsum. revert y Hy Hl. induction mu as [|m t IH]; intros [|x y] Hy Hl; cbn in Hl; try lia; cbn [combine map fold_right fst snd]; [lra|].
  apply Rplus_le_compat; [apply exponential_max; [apply Hm|apply Hy]; now left|]. apply IH; [| |lia]; intros; [apply Hm|apply Hy]; now right.
Qed.
(** A negative mean gives -inf; a mean zero (without a negative one) gives nan. *)
Theorem C70_bad_means mu y :
  (exponential mu y = NegInf <-> exists m, In m mu /\ m < 0)
  /\ (exponential mu y = Nan <-> (forall m, In m mu -> 0 <= m) /\ In 0 mu) /\ exponential mu y <> Raise.
Proof.
  unfold exponential. destruct (existsb _ mu) eqn:E.
  - apply existsb_exists in E as (r & Hr & H). destruct (Rlt_dec r 0); [|discriminate]. split; [|split]; try discriminate; split; auto; try discriminate.
    + intros _. exists r. auto.
    + intros (H1 & _). apply H1 in Hr. lra.
  - assert (N : forall r, In r mu -> 0 <= r).
    { intros r Hr. destruct (Rlt_dec r 0) as [L|L]; [|lra]. assert (X : existsb (fun r => if Rlt_dec r 0 then true else false) mu = true); [|congruence].
      apply existsb_exists. exists r. split; auto. destruct (Rlt_dec r 0); auto. }
    destruct (existsb (fun r => if Req_EM_T r 0 then true else false) mu) eqn:E2; (split; [|split]; try discriminate; split; try discriminate).
    + intros (r & Hr & H). apply N in Hr. lra.
    + intros _. split; auto. apply existsb_exists in E2 as (r & Hr & H). destruct (Req_EM_T r 0); [now subst|discriminate].
    + auto.
    + intros (r & Hr & H). apply N in Hr. lra.
    + intros (_ & H0). assert (X : existsb (fun r => if Req_EM_T r 0 then true else false) mu = true); [|congruence].
      apply existsb_exists. exists 0. split; auto. destruct (Req_EM_T 0 0); auto.
Qed.
Example C70_example : exponential [2] [6] = Val (- (ln 2 + 3)) /\ exponential [2; 0] [6; 1] = Nan /\ exponential [0; -1] [1; 1] = NegInf.
Proof.
  split; [|split].
  - rewrite exponential_val by (intros m [<-|[]]; lra). unfold rsum. cbn. f_equal. field.
  - apply C70_bad_means. split; [intros m [<-|[<-|[]]]; lra|right; now left].
  - apply C70_bad_means. exists (-1). split; [right; now left|lra].
Qed.

(** *** C71 Student's t *)
Section Student.
Variable gammaln : R -> R.
Notation student := (student gammaln).
Lemma lam_pos sigma : sigma <> 0 -> 0 < 1 / sigma^2.
Proof. intros H. apply Rdiv_lt_0_compat; [lra|]. rewrite <- Rsqr_pow2. now apply Rsqr_pos_lt. Qed.
(** Changing the units of the data by a factor changes the log-likelihood by a constant. *)
Theorem C71_scale_equivariant r nu sigma c v : 0 < nu -> sigma <> 0 -> 0 < c -> student r nu sigma = Val v ->
  student (map (Rmult c) r) nu (c * sigma) = Val (v - INR (List.length r) * ln c).
Proof.
  intros Hn Hs Hc. unfold Lik_Model.student. destruct (Rle_dec nu 0); [lra|]. destruct (Req_EM_T sigma 0); [contradiction|].
  destruct (Req_EM_T (c * sigma) 0) as [e|]; [exfalso; apply Rmult_integral in e; lra|]. intros E. apply val_inj in E. subst v. f_equal. rewrite map_map.
  assert (S2 : 0 < sigma^2) by (rewrite <- Rsqr_pow2; now apply Rsqr_pos_lt). pose proof PI_RGT_0 as P.
  assert (D : ln (1 / (c * sigma)^2 / (nu * PI)) = ln (1 / sigma^2 / (nu * PI)) - 2 * ln c).
  { replace (1 / (c * sigma)^2 / (nu * PI)) with ((1 / sigma^2 / (nu * PI)) * / (c * c)) by (field; repeat split; lra).
    rewrite ln_mult, ln_Rinv, ln_mult; auto; [lra|nra| |apply Rinv_0_lt_compat; nra].
    apply Rdiv_lt_0_compat; [now apply lam_pos|nra]. }
  induction r as [|x t IH]; [cbn; lra|]. cbn [map List.length]. rewrite S_INR. unfold rsum in *. cbn [fold_right]. rewrite IH, D.
  replace (1 / (c * sigma)^2 * (c * x)^2 / nu) with (1 / sigma^2 * x^2 / nu) by (field; repeat split; lra). lra.
Qed.
(** Only the size of the residuals matters, and smaller is better. *)
Theorem C71_decreasing_in_residuals r r' nu sigma v v' : 0 < nu -> sigma <> 0 -> Forall2 (fun a b => Rabs a <= Rabs b) r r' ->
  student r nu sigma = Val v -> student r' nu sigma = Val v' -> v' <= v.
Proof.
  intros Hn Hs H. unfold Lik_Model.student. destruct (Rle_dec nu 0); [lra|]. destruct (Req_EM_T sigma 0); [contradiction|]. intros E E'. apply val_inj in E, E'. subst v v'.
  pose proof (lam_pos sigma Hs) as L. set (lam := 1 / sigma^2) in *.
  induction H as [|a b t t' Hab H IH]; [cbn; lra|]. unfold rsum in *. cbn [map fold_right]. apply Rplus_le_compat; [|exact IH].
  assert (Q : a^2 <= b^2) by (apply pow_maj_Rabs with (n := 2%nat) in Hab; rewrite <- (pow2_abs b); exact Hab).
  assert (A0 : 0 <= a^2) by (rewrite <- Rsqr_pow2; apply Rle_0_sqr).
  assert (X : 1 + lam * a^2 / nu <= 1 + lam * b^2 / nu).
  { apply Rplus_le_compat_l. unfold Rdiv. apply Rmult_le_compat_r; [left; now apply Rinv_0_lt_compat|]. apply Rmult_le_compat_l; lra. }
  assert (X0 : 0 < 1 + lam * a^2 / nu).
  { assert (0 <= lam * a^2 / nu); [|lra]. unfold Rdiv. apply Rmult_le_pos; [apply Rmult_le_pos; lra|left; now apply Rinv_0_lt_compat]. }
  assert (Y : ln (1 + lam * a^2 / nu) <= ln (1 + lam * b^2 / nu)).
  { destruct X as [X|X]; [left; now apply ln_increasing|rewrite X; lra]. }
  assert (0 < nu + 1) by lra. nra.
Qed.
Theorem C71_even r nu sigma : student (map Ropp r) nu sigma = student r nu sigma.
Proof.
  unfold Lik_Model.student. destruct (Rle_dec nu 0); auto. destruct (Req_EM_T sigma 0); auto. f_equal. rewrite map_map. f_equal. apply map_ext. intros x.
  replace ((- x)^2) with (x^2) by ring. reflexivity.
Qed.
Theorem C71_raises_iff r nu sigma : student r nu sigma = Raise <-> nu <= 0 \/ sigma = 0.
Proof. unfold Lik_Model.student. destruct (Rle_dec nu 0); [tauto|]. destruct (Req_EM_T sigma 0); [tauto|]. split; [discriminate|tauto]. Qed.
(** With one degree of freedom it is the Cauchy distribution with scale |sigma|. *)
Theorem C71_cauchy r sigma : gammaln 1 = 0 -> gammaln (1 / 2) = ln PI / 2 -> sigma <> 0 ->
  exists v, student r 1 sigma = Val v /\ exp v = rprod (map (fun x => / (PI * Rabs sigma * (1 + (x / sigma)^2))) r).
Proof.
  intros G1 Gh Hs. unfold Lik_Model.student. destruct (Rle_dec 1 0); [lra|]. destruct (Req_EM_T sigma 0); [contradiction|]. eexists. split; [reflexivity|].
  rewrite exp_rsum, map_map. f_equal. apply map_ext. intros x. replace ((1 + 1) / 2) with 1 by lra. rewrite G1, Gh.
  pose proof PI_RGT_0 as P. assert (A : 0 < Rabs sigma) by (now apply Rabs_pos_lt).
  assert (S2 : 0 < sigma^2) by (rewrite <- Rsqr_pow2; now apply Rsqr_pos_lt).
  assert (X : 0 < 1 + (x / sigma)^2) by (assert (0 <= (x / sigma)^2) by (rewrite <- Rsqr_pow2; apply Rle_0_sqr); lra).
  replace (1 + 1 / sigma^2 * x^2 / 1) with (1 + (x / sigma)^2) by (field; lra).
  replace (1 / sigma^2 / (1 * PI)) with (/ (Rabs sigma * Rabs sigma) * / PI).
  2:{ replace (Rabs sigma * Rabs sigma) with (sigma^2) by (rewrite <- Rabs_mult, Rabs_right; [ring|nra]). field. split; lra. }
  rewrite ln_mult, !ln_Rinv, ln_mult; auto; try (apply Rinv_0_lt_compat); try nra.
  replace (- (1 + 1) * ln (1 + (x / sigma)^2) / 2 + (- (ln (Rabs sigma) + ln (Rabs sigma)) + - ln PI) / 2 + 0 - ln PI / 2)
    with (- (ln PI + ln (Rabs sigma) + ln (1 + (x / sigma)^2))) by field.
  rewrite exp_Ropp, !exp_plus, !exp_ln by auto. reflexivity.
Qed.
End Student.
Example C71_example (g : R -> R) : g 1 = 0 -> g (1 / 2) = ln PI / 2 -> exists v, student g [3] 1 3 = Val v /\ exp v = / (6 * PI).
Proof.
  intros G1 G2. destruct (C71_cauchy g [3] 3 G1 G2 ltac:(lra)) as (v & E & Ev). exists v. split; auto. rewrite Ev. cbn. rewrite Rabs_right by lra. pose proof PI_RGT_0. field. lra.
Qed.

(** *** C72 Multinomial *)
Theorem C72_pmf data ps : List.length data = S (List.length ps) -> (forall x, In x ps -> 0 < x) -> rsum ps < 1 ->
  exists v, multinomial data ps = Val v
    /\ exp v = INR (fact (fold_right Nat.add O data)) * rprod (map (fun dp => snd dp ^ fst dp / INR (fact (fst dp))) (combine data (ps ++ [1 - rsum ps]))).
Proof.
  intros Hl Hp Hs. unfold multinomial. rewrite Hl, Nat.eqb_refl.
  assert (F : fits data (ps ++ [1 - rsum ps])).
  { apply fits_pos; [rewrite app_length; cbn; lia|]. intros x Hx. apply in_app_iff in Hx as [Hx|[<-|[]]]; [auto|lra]. }
  eexists. split; [now apply multinomial_ln_pdf_val|]. rewrite exp_plus, exp_ln by apply INR_fact_lt_0. f_equal.
  rewrite exp_mlog; auto.
  - unfold rprod. clear. generalize (ps ++ [1 - rsum ps]). induction data as [|i d IH]; intros [|x p]; cbn; auto. now rewrite IH.
  - intros x Hx. apply in_app_iff in Hx as [Hx|[<-|[]]]; [left; auto|lra].
Qed.
(** The likelihoods of all ways to distribute N objects over the classes add up to one. *)
Theorem C72_normalised ps N : (forall x, In x ps -> 0 < x) -> rsum ps < 1 ->
  exists (all : list (list nat)) (pr : list nat -> R),
    NoDup all /\ (forall d, In d all <-> List.length d = S (List.length ps) /\ fold_right Nat.add O d = N)
    /\ (forall d, In d all -> exists v, multinomial d ps = Val v /\ pr d = exp v) /\ rsum (map pr all) = 1.
Proof.
  intros Hp Hs. set (p := ps ++ [1 - rsum ps]). exists (comps N (List.length p)), (fun d => INR (fact N) * mterm d p).
  assert (Lp : List.length p = S (List.length ps)) by (unfold p; rewrite app_length; cbn; lia).
  split; [apply NoDup_comps|]. split; [intros d; rewrite comps_spec, Lp; reflexivity|]. split.
  - intros d Hd. apply comps_spec in Hd as [Hl Ht].
    assert (P : forall x, In x p -> 0 < x) by (intros x Hx; apply in_app_iff in Hx as [Hx|[<-|[]]]; [auto|lra]).
    assert (F : fits d p) by (now apply fits_pos). unfold multinomial. rewrite Hl, Lp, Nat.eqb_refl. fold p. eexists. split; [now apply multinomial_ln_pdf_val|].
    rewrite exp_plus, exp_ln, exp_mlog; auto; [now rewrite Ht|intros; left; auto|apply INR_fact_lt_0].
  - rewrite rsum_scal, mterm_sum. unfold p. rewrite rsum_app. unfold rsum at 2. cbn. replace (rsum ps + (1 - rsum ps + 0)) with 1 by ring. apply pow1.
Qed.
(** The observed frequencies are the most likely probabilities, and beat the noise hypothesis. *)
Theorem C72_best_probabilities d data ps v : data = d ++ [last data O] -> (0 < fold_right Nat.add O data)%nat -> List.length d = List.length ps ->
  (forall x, In x ps -> 0 < x) -> rsum ps < 1 -> multinomial data ps = Val v ->
  exists v', multinomial data (map (fun i => INR i / INR (fold_right Nat.add O data)) d) = Val v' /\ v <= v'.
Proof.
  intros Ed Ht Hl Hp Hs. change (fold_right Nat.add O data) with (total data) in *. set (N := INR (total data)) in *. assert (HN : 0 < N) by (now apply lt_0_INR).
  set (k := last data O) in *. unfold multinomial. rewrite map_length. replace (List.length data) with (S (List.length ps)) by (rewrite Ed, app_length; cbn; lia). rewrite Hl, Nat.eqb_refl.
  assert (Q : map (fun i => INR i / N) d ++ [1 - rsum (map (fun i => INR i / N) d)] = map (fun i => INR i / N) data).
  { rewrite Ed, map_app. f_equal. cbn [map]. f_equal. rewrite rsum_freq by auto.
    assert (T : total data = (total d + k)%nat) by (rewrite Ed; clear; induction d as [|i d IH]; cbn; [lia|]; change (fold_right Nat.add O (d ++ [k])) with (total (d ++ [k])); change (fold_right Nat.add O d) with (total d); lia).
    assert (T' : N = INR (total d) + INR k) by (unfold N; rewrite T; apply plus_INR). apply Rmult_eq_reg_r with N; [|lra]. field_simplify; lra. }
  rewrite Q. set (p := ps ++ [1 - rsum ps]).
  assert (P : forall x, In x p -> 0 < x) by (intros x Hx; apply in_app_iff in Hx as [Hx|[<-|[]]]; [auto|lra]).
  assert (F : fits data p) by (apply fits_pos; auto; unfold p; rewrite Ed, !app_length; cbn; lia).
  rewrite (multinomial_ln_pdf_val _ _ F). intros E. apply val_inj in E. subst v.
  eexists. split; [apply multinomial_ln_pdf_val, fits_freq; auto|]. apply Rplus_le_compat_l.
  pose proof (gibbs_aux N data p HN F (fun x Hx => Rlt_le _ _ (P x Hx))) as G.
  assert (S1 : rsum p = 1) by (unfold p; rewrite rsum_app; unfold rsum at 2; cbn; ring). rewrite S1 in G. fold N in G. lra.
Qed.
(** The noise likelihood is the likelihood of equal probabilities. *)
Theorem C72_noise_is_uniform data n : List.length data = S n ->
  multinomial_noise data (S n) = multinomial data (repeat (1 / INR (S n)) n).
Proof.
  intros Hl. unfold multinomial_noise, multinomial. rewrite repeat_length, Hl, Nat.eqb_refl. f_equal.
  assert (S1 : rsum (repeat (1 / INR (S n)) n) = INR n / INR (S n)).
  { replace (repeat (1 / INR (S n)) n) with (map (fun _ : nat => 1 / INR (S n)) (repeat O n)); [rewrite rsum_const, repeat_length; field; rewrite S_INR; pose proof (pos_INR n); lra|].
    generalize (1 / INR (S n)) as c. clear. induction n as [|n IH]; intros c; [reflexivity|]. cbn [repeat map]. now rewrite IH. }
  rewrite S1. replace (1 - INR n / INR (S n)) with (1 / INR (S n)) by (field_simplify_eq; rewrite S_INR; pose proof (pos_INR n); lra).
  apply (repeat_cons n (1 / INR (S n))).
Qed.
Theorem C72_wrong_length_raises data ps : List.length data <> S (List.length ps) -> multinomial data ps = Raise.
Proof. intros H. unfold multinomial. destruct (Nat.eqb_spec (List.length data) (S (List.length ps))); [contradiction|reflexivity]. Qed.
Lemma nan_sum k q : k <> O -> q < 0 -> forall d p, List.length d = List.length p -> (forall x, In x p -> 0 < x) ->
  vsum (map (fun dp => vmap (fun x => x - ln (INR (fact (fst dp)))) (xlogy (fst dp) (snd dp))) (combine (d ++ [k]) (p ++ [q]))) = Nan.
Proof.
  intros Hk Hq. induction d as [|i d IH]; intros [|x p] Hl Hp; cbn in Hl; try lia; cbn [app combine map vsum fst snd].
  - unfold xlogy. destruct (Nat.eqb_spec k 0); [contradiction|]. destruct (Rlt_dec q 0); [reflexivity|contradiction].
  - rewrite IH; [|lia|intros; apply Hp; now right]. rewrite xlogy_val by (apply Hp; now left). reflexivity.
Qed.
(** Probabilities summing to more than one are noticed (as nan) if and only if the last class occurs in the data. *)
Theorem C72_outside_simplex data ps k : List.length data = List.length ps -> (forall x, In x ps -> 0 < x) -> 1 < rsum ps ->
  (multinomial (data ++ [k]) ps = Nan <-> k <> O).
Proof.
  intros Hl Hp Hs. unfold multinomial. replace (List.length (data ++ [k])) with (S (List.length ps)) by (rewrite app_length; cbn; lia). rewrite Nat.eqb_refl.
  destruct (Nat.eq_dec k 0) as [->|Hk].
  - assert (F : fits (data ++ [O]) (ps ++ [1 - rsum ps])).
    { apply Forall2_app; [apply fits_pos; auto|]. constructor; auto. }
    rewrite (multinomial_ln_pdf_val _ _ F). split; [discriminate|tauto].
  - split; auto. intros _. unfold multinomial_ln_pdf. rewrite nan_sum; auto. lra.
Qed.
(** Refuted: "outside the simplex the likelihood is never a number". *)
Theorem C72_outside_simplex_refuted : exists data ps v, (forall x, In x ps -> 0 < x) /\ 1 < rsum ps /\ multinomial data ps = Val v.
Proof.
  exists [1%nat; O], [2]. eexists. split; [intros x [<-|[]]; lra|]. split; [unfold rsum; cbn; lra|].
  unfold multinomial. cbn [List.length Nat.eqb]. apply multinomial_ln_pdf_val. constructor; [right; lra|]. constructor; [now left|constructor].
Qed.
Example C72_example : exists v, multinomial [2; 1]%nat [1 / 4] = Val v /\ exp v = 9 / 64.
Proof.
  destruct (C72_pmf [2; 1]%nat [1 / 4]) as (v & E & Ev); [reflexivity|intros x [<-|[]]; lra|unfold rsum; cbn; lra|].
  exists v. split; auto. rewrite Ev. unfold rprod, rsum. cbn. field.
Qed.

(** *** C73 JointLikelihood *)
Section Joint.
Variable V : Type.
Notation lik := (lik V). Notation heap := (heap V). Notation pdict := (pdict V).
Notation deref := (deref V). Notation ref := (ref V).
(** the objects handed to the constructor exist *)
Definition valid (h : heap) (l : list lik) : Prop := forall x, In x l -> (ref x < List.length h)%nat.
(** The dictionaries of the original likelihoods are never touched, neither by building the joint
    likelihood nor by changing its parameters in place. *)
Theorem C73_originals_untouched h l ds i : valid h l -> (i < List.length h)%nat ->
  let '(h1, j) := joint_init V h l in deref (updates V h1 j ds) i = deref h i.
Proof.
  intros H Hi. pose proof (joint_init_spec V h l H) as K. destruct (joint_init V h l) as [h1 j]. destruct K as ((t & ->) & Hj & _ & _).
  rewrite updates_other by lia. now apply deref_app.
Qed.
(** The parameters are the union of those of the parts; where a key occurs twice the last one wins. *)
Lemma dget_update (a b : pdict) k : wf b -> dget (update V a b) k = match dget b k with Some v => Some v | None => dget a k end.
Proof.
  unfold update. revert a. induction b as [|[k' v] t IH]; intros a Hb; [reflexivity|]. inversion Hb as [|? ? Hn Ht]; subst. cbn [fold_left fst snd]. rewrite IH by exact Ht. cbn [dget].
  destruct (String.eqb_spec k k') as [->|N].
  - replace (dget t k') with (@None V); [now rewrite dget_set_eq|]. symmetry. apply dget_none. exact Hn.
  - destruct (dget t k); auto. rewrite dget_set_ne; auto.
Qed.
Theorem C73_parameters h l k : valid h l -> (forall x, In x l -> wf (deref h (ref x))) ->
  let '(h1, j) := joint_init V h l in
  dget (params V h1 j) k = fold_left (fun acc x => match dget (deref h (ref x)) k with Some v => Some v | None => acc end) l None.
Proof.
  intros H Hw. pose proof (joint_init_spec V h l H) as K. destruct (joint_init V h l) as [h1 j]. destruct K as (_ & _ & _ & E). unfold params. rewrite E.
  clear E H. assert (G : forall d0 : pdict, dget (fold_left (update V) (map (fun x => deref h (ref x)) l) d0) k
    = fold_left (fun acc x => match dget (deref h (ref x)) k with Some v => Some v | None => acc end) l (dget d0 k)).
  { induction l as [|x t IH]; intros d0; [reflexivity|]. cbn [map fold_left]. rewrite IH by (intros y Hy; apply Hw; now right). rewrite dget_update by (apply Hw; now left). reflexivity. }
  apply (G []).
Qed.
(** After any sequence of in-place changes of the joint parameters, every part sees the same, current
    parameters, and the joint log-likelihood is the sum of those of the parts. *)
Theorem C73_sum_after_updates h l ds : valid h l ->
  let '(h1, j) := joint_init V h l in
  let h2 := updates V h1 j ds in
  params V h2 j = fold_left (update V) ds (params V h1 j)
  /\ joint_logl V h2 j = vsum (map (fun x => logl V x (params V h2 j)) l)
  /\ joint_noise V h2 j = vsum (map (fun x => noisel V x (params V h2 j)) l).
Proof.
  intros H. pose proof (joint_init_spec V h l H) as K. destruct (joint_init V h l) as [h1 j]. destruct K as (_ & Hj & Ep & _). cbv zeta. unfold params, joint_logl, joint_noise.
  split; [apply updates_params; lia|]. rewrite Ep, !map_map. cbn [ref logl noisel]. auto.
Qed.
(** What a sum of per-part values is: if every part is finite, the real sum; if every part is finite or -inf
    and one is -inf, -inf (never nan); one part that raises raises. *)
Theorem C73_excluded_point h l : valid h l ->
  let '(h1, j) := joint_init V h l in
  let vals := map (fun x => logl V x (params V h1 j)) l in
  (forall xs, vals = map Val xs -> joint_logl V h1 j = Val (fold_right Rplus 0 xs))
  /\ ((forall v, In v vals -> v = NegInf \/ exists x, v = Val x) -> In NegInf vals -> joint_logl V h1 j = NegInf)
  /\ (In Raise vals -> joint_logl V h1 j = Raise).
Proof.
  intros H. pose proof (C73_sum_after_updates h l [] H) as K. destruct (joint_init V h l) as [h1 j]. cbv zeta in *.
  destruct K as (_ & K & _). change (updates V h1 j []) with h1 in K. rewrite K. clear K.
  set (vals := map _ l). clearbody vals. split; [|split].
  - intros xs ->. induction xs as [|x t IH]; [reflexivity|]. cbn [map vsum fold_right]. now rewrite IH.
  - intros Hv Hi. induction vals as [|v t IH]; [destruct Hi|]. cbn [vsum].
    assert (G : vsum t = NegInf \/ exists y, vsum t = Val y).
    { clear Hi IH. assert (Ht : forall w, In w t -> w = NegInf \/ exists x, w = Val x) by (intros w Hw; apply Hv; now right). clear Hv. induction t as [|w t IH]; [right; now exists 0|]. cbn [vsum].
      destruct IH as [-> | [y ->]]; [intros w' Hw'; apply Ht; now right| |]; destruct (Ht w (or_introl eq_refl)) as [-> | [x ->]]; eauto. }
    destruct Hi as [-> | Hi]; [destruct G as [-> | [y ->]]; reflexivity|].
    rewrite IH; [|intros w Hw; apply Hv; now right|exact Hi]. destruct (Hv v (or_introl eq_refl)) as [-> | [x ->]]; reflexivity.
  - intros Hi. induction vals as [|v t IH]; [destruct Hi|]. cbn [vsum]. destruct Hi as [-> | Hi]; [reflexivity|]. rewrite IH by exact Hi. destruct v; reflexivity.
Qed.
End Joint.
(** Refuted: "assigning joint.parameters changes what the parts see". *)
Theorem C73_rebinding_refuted :
  let l := [mklik R O (fun d => match dget d "a" with Some x => Val x | None => Raise end) (fun _ => Val 0)] in
  let '(h1, j) := joint_init R [[("a"%string, 1)]] l in
  let '(h2, j2) := params_rebind R h1 j [("a"%string, 5)] in
  params R h2 j2 = [("a"%string, 5)] /\ joint_logl R h2 j2 = Val (1 + 0).
Proof. cbn. split; reflexivity. Qed.
(** Refuted: "setting joint.likelihoods keeps the parameters shared": later changes do not reach the new parts. *)
Theorem C73_setter_refuted :
  let l := [mklik R O (fun d => match dget d "a" with Some x => Val x | None => Raise end) (fun _ => Val 0)] in
  let '(h1, j) := joint_init R [[("a"%string, 1)]] l in
  let '(h2, j2) := set_likelihoods R h1 j l in
  let h3 := params_update R h2 j2 [("a"%string, 5)] in
  params R h3 j2 = [("a"%string, 5)] /\ joint_logl R h3 j2 = Val (1 + 0).
Proof. cbn. split; reflexivity. Qed.
Example C73_example :
  let f k := fun d : pdict R => match dget d k with Some x => Val x | None => Raise end in
  let l := [mklik R 0 (f "a"%string) (fun _ => Val 0); mklik R 1 (f "b"%string) (fun _ => Val 0)] in
  let '(h1, j) := joint_init R [[("a"%string, 1)]; [("b"%string, 2); ("a"%string, 3)]] l in
  joint_logl R (params_update R h1 j [("b"%string, 7)]) j = Val (3 + (7 + 0)).
Proof. reflexivity. Qed.

(** ** Assumptions of every theorem above *)
Definition Lik_Props_all :=
  (@C68_product_of_densities,
   @C68_sampled_sigma_wins,
   @C68_least_squares,
   @C68_best_sigma,
   @C68_independent_data,
   @C68_order_and_signs,
   @C68_zero_sigma_is_nan,
   @C68_setter,
   @C69_product_of_pmf,
   @C69_normalised,
   @C69_best_rate,
   @C69_bad_rates,
   @C69_zero_rate_refuted,
   @C70_product_of_densities,
   @C70_normalised,
   @C70_best_mean,
   @C70_bad_means,
   @C71_scale_equivariant,
   @C71_decreasing_in_residuals,
   @C71_even,
   @C71_raises_iff,
   @C71_cauchy,
   @C72_pmf,
   @C72_normalised,
   @C72_best_probabilities,
   @C72_noise_is_uniform,
   @C72_wrong_length_raises,
   @C72_outside_simplex,
   @C72_outside_simplex_refuted,
   @C73_originals_untouched,
   @C73_parameters,
   @C73_sum_after_updates,
   @C73_excluded_point,
   @C73_rebinding_refuted,
   @C73_setter_refuted).
Print Assumptions Lik_Props_all.
