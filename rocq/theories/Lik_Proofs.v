(** Lemmas on the analytic likelihoods. *)
From Coq Require Import Reals List Bool Arith String Lia Lra Permutation.
From Verif Require Import PyDict PyReal Lik_Model.
Import ListNotations.
Open Scope R_scope.
Open Scope list_scope.

Definition rprod (l : list R) : R := fold_right Rmult 1 l.
Lemma rsum_app a b : rsum (a ++ b) = rsum a + rsum b.
Proof. unfold rsum. induction a as [|x t IH]; cbn; [lra|]. rewrite IH. lra. Qed.
Lemma exp_rsum l : exp (rsum l) = rprod (map exp l).
Proof. unfold rsum, rprod. induction l as [|x t IH]; cbn; [apply exp_0|]. rewrite exp_plus, IH. reflexivity. Qed.
Lemma rsum_perm a b : Permutation a b -> rsum a = rsum b.
Proof. induction 1; unfold rsum in *; cbn; lra. Qed.
Lemma rsum_le {A} (f g : A -> R) l : (forall x, In x l -> f x <= g x) -> rsum (map f l) <= rsum (map g l).
Proof.
  unfold rsum. induction l as [|x t IH]; intros H; cbn; [lra|]. pose proof (H x (or_introl eq_refl)). specialize (IH (fun y Hy => H y (or_intror Hy))). lra.
Qed.
Lemma rsum_scal {A} c (f : A -> R) l : rsum (map (fun x => c * f x) l) = c * rsum (map f l).
Proof. induction l as [|x t IH]; unfold rsum in *; cbn; [lra|]. rewrite IH. lra. Qed.
Lemma rsum_plus {A} (f g : A -> R) l : rsum (map (fun x => f x + g x) l) = rsum (map f l) + rsum (map g l).
Proof. induction l as [|x t IH]; unfold rsum in *; cbn; [lra|]. rewrite IH. lra. Qed.
Lemma rsum_const {A} c (l : list A) : rsum (map (fun _ => c) l) = INR (List.length l) * c.
Proof. induction l as [|x t IH]; [cbn; lra|]. cbn [map List.length]. rewrite S_INR. unfold rsum in *. cbn. rewrite IH. lra. Qed.
Lemma rsum_nonneg {A} (f : A -> R) l : (forall x, 0 <= f x) -> 0 <= rsum (map f l).
Proof. intros H. induction l as [|x t IH]; unfold rsum in *; cbn; [lra|]. specialize (H x). lra. Qed.
Lemma existsb_false {A} (f : A -> bool) l : (forall x, In x l -> f x = false) -> existsb f l = false.
Proof. intros H. induction l as [|x t IH]; cbn; auto. rewrite H by (now left). apply IH. intros y Hy. apply H. now right. Qed.
Lemma combine_repeat {A B} (l : list A) (b : B) : combine l (repeat b (List.length l)) = map (fun a => (a, b)) l.
Proof. induction l as [|x t IH]; cbn; [reflexivity|]. now rewrite IH. Qed.

Lemma val_inj a b : Val a = Val b -> a = b.
Proof. now injection 1. Qed.

(** *** Gaussian *)
(** density of the normal distribution with standard deviation s *)
Definition normal_pdf (s x : R) : R := / (s * sqrt (2 * PI)) * exp (- x^2 / (2 * s^2)).
Lemma gauss_term_pdf r s : s <> 0 -> exp (gauss_term r s) = normal_pdf (Rabs s) r.
Proof.
  intros Hs. pose proof PI_RGT_0 as P. assert (Ha : 0 < Rabs s) by (now apply Rabs_pos_lt).
  assert (E : s^2 = (Rabs s)^2) by (now rewrite RPow_abs, Rabs_right by (apply Rle_ge; rewrite <- Rsqr_pow2; apply Rle_0_sqr)).
  assert (Q : (r / s)^2 = (r / Rabs s)^2).
  { unfold Rdiv. rewrite !Rpow_mult_distr. f_equal. rewrite !pow_inv. f_equal. exact E. }
  unfold gauss_term. rewrite Q, E. set (a := Rabs s) in *. unfold normal_pdf.
  replace (2 * PI * a^2) with ((a * sqrt (2 * PI)) * (a * sqrt (2 * PI))).
  2:{ replace (a * sqrt (2 * PI) * (a * sqrt (2 * PI))) with (a^2 * (sqrt (2 * PI) * sqrt (2 * PI))) by ring. rewrite sqrt_sqrt by lra. ring. }
  assert (S0 : 0 < sqrt (2 * PI)) by (apply sqrt_lt_R0; lra). assert (H : 0 < a * sqrt (2 * PI)) by (now apply Rmult_lt_0_compat).
  rewrite ln_mult by auto.
  replace (- (r / a)^2 / 2 - (ln (a * sqrt (2 * PI)) + ln (a * sqrt (2 * PI))) / 2) with (- ln (a * sqrt (2 * PI)) + (- r^2 / (2 * a^2))).
  2:{ field. lra. }
  rewrite exp_plus, exp_Ropp, exp_ln by auto. reflexivity.
Qed.
Lemma gaussian_val r s : (forall x, In x (sigmas (List.length r) s) -> x <> 0) ->
  gaussian r (Some s) = Val (rsum (map (fun rs => gauss_term (fst rs) (snd rs)) (combine r (sigmas (List.length r) s)))).
Proof.
  intros H. unfold gaussian. rewrite existsb_false; [reflexivity|]. intros [a b] Hin. apply in_combine_r in Hin. cbn [snd].
  destruct (Req_EM_T b 0) as [e|]; auto. exfalso. exact (H b Hin e).
Qed.
(** chi-squared *)
Definition chi2 (r : list R) : R := rsum (map (fun x => x^2) r).
Lemma gaussian_known r s : s <> 0 -> gaussian r (Some (Known s)) = Val (- chi2 r / (2 * s^2) - INR (List.length r) * ln (2 * PI * s^2) / 2).
Proof.
  intros H. rewrite gaussian_val by (intros x Hx; apply repeat_spec in Hx; now subst). cbn [sigmas]. rewrite combine_repeat, map_map. cbn [fst snd]. f_equal.
  unfold gauss_term, chi2, rsum. induction r as [|x t IH]; [cbn; field; lra|]. cbn [map List.length]. rewrite S_INR. cbn [fold_right]. rewrite IH. field. lra.
Qed.
(** ln x <= x - 1 *)
Lemma ln_le_sub1 x : 0 < x -> ln x <= x - 1.
Proof. intros H. pose proof (exp_ineq1_le (ln x)) as E. rewrite exp_ln in E by auto. lra. Qed.

Lemma chi2_nonneg r : 0 <= chi2 r.
Proof. apply rsum_nonneg. intros x. rewrite <- Rsqr_pow2. apply Rle_0_sqr. Qed.
Lemma gaussian_mle r s s' v v' : s <> 0 -> s' <> 0 -> 0 < chi2 r -> INR (List.length r) * s'^2 = chi2 r ->
  gaussian r (Some (Known s)) = Val v -> gaussian r (Some (Known s')) = Val v' -> v <= v'.
Proof.
  intros Hs Hs' Hc Hm E E'. rewrite gaussian_known in E, E' by auto. apply val_inj in E. apply val_inj in E'. subst v v'. set (c := chi2 r) in *.
  set (n := INR (List.length r)) in *. assert (Hn : 0 < n).
  { destruct (Rle_lt_dec n 0) as [H|H]; auto. exfalso. assert (0 <= s'^2) by (rewrite <- Rsqr_pow2; apply Rle_0_sqr). nra. }
  assert (A : 0 < s^2) by (rewrite <- Rsqr_pow2; now apply Rsqr_pos_lt). assert (B : 0 < s'^2) by (rewrite <- Rsqr_pow2; now apply Rsqr_pos_lt).
  pose proof PI_RGT_0. rewrite !(ln_mult (2 * PI)) by (auto; lra). rewrite <- Hm.
  set (a := s^2) in *. set (b := s'^2) in *.
  pose proof (ln_le_sub1 (b / a) (Rdiv_lt_0_compat _ _ B A)) as L. unfold Rdiv in L. rewrite ln_mult, ln_Rinv in L by (auto; now apply Rinv_0_lt_compat).
  replace (- (n * b) / (2 * a)) with (- n / 2 * (b * / a)) by (field; lra). replace (- (n * b) / (2 * b)) with (- n / 2) by (field; lra).
  set (q := b * / a) in *. set (t := ln (2 * PI)). set (u := ln a) in *. set (w := ln b) in *. apply (Rmult_le_compat_l (n / 2)) in L.
  nra. lra.
Qed.
Lemma gaussian_order r r' s v v' : s <> 0 -> List.length r = List.length r' ->
  gaussian r (Some (Known s)) = Val v -> gaussian r' (Some (Known s)) = Val v' -> (v <= v' <-> chi2 r' <= chi2 r).
Proof.
  intros Hs Hl E E'. rewrite gaussian_known in E, E' by auto. apply val_inj in E. apply val_inj in E'. subst v v'. rewrite Hl.
  assert (A : 0 < s^2) by (rewrite <- Rsqr_pow2; now apply Rsqr_pos_lt). set (a := s^2) in *.
  assert (P : 0 < / (2 * a)) by (apply Rinv_0_lt_compat; lra). unfold Rdiv.
  set (k := INR (List.length r') * ln (2 * PI * a) * / 2). set (q := / (2 * a)) in *. split; intros; nra.
Qed.
Lemma gaussian_app r1 r2 s v1 v2 : gaussian r1 (Some (Known s)) = Val v1 -> gaussian r2 (Some (Known s)) = Val v2 ->
  s <> 0 -> gaussian (r1 ++ r2) (Some (Known s)) = Val (v1 + v2).
Proof.
  intros E1 E2 Hs. rewrite gaussian_known in * by auto. apply val_inj in E1. apply val_inj in E2. subst v1 v2. f_equal. unfold chi2. rewrite map_app, rsum_app, app_length, plus_INR. field. lra.
Qed.
Lemma rsum_sqr_zero (r : list R) : chi2 r = 0 -> forall x, In x r -> x = 0.
Proof.
  induction r as [|a t IH]; intros H x Hin; [destruct Hin|]. unfold chi2, rsum in H. cbn [map fold_right] in H.
  pose proof (chi2_nonneg t) as N. unfold chi2, rsum in N. assert (0 <= a^2) by (rewrite <- Rsqr_pow2; apply Rle_0_sqr).
  destruct Hin as [<-|Hin]; [|apply IH; auto; unfold chi2, rsum; lra]. assert (Q : a^2 = 0) by lra. rewrite <- Rsqr_pow2 in Q. now apply Rsqr_0_uniq.
Qed.
Lemma gaussian_zero_sigma r s : r <> [] -> List.length (sigmas (List.length r) s) = List.length r -> In 0 (sigmas (List.length r) s) -> gaussian r (Some s) = Nan.
Proof.
  intros _ Hl Hin. unfold gaussian. replace (existsb _ _) with true; auto. symmetry. apply existsb_exists.
  revert Hl Hin. generalize (sigmas (List.length r) s). induction r as [|x t IH]; intros [|y l] Hl Hin; try (cbn in Hl; discriminate); [destruct Hin|].
  destruct Hin as [->|Hin].
  - exists (x, 0). split; [now left|]. cbn. destruct (Req_EM_T 0 0); auto.
  - destruct (IH l) as ([a b] & H1 & H2); [cbn in Hl; lia|auto|]. exists (a, b). split; [now right|auto].
Qed.

(** *** Poisson *)
Definition poisson_pmf (rate : R) (y : nat) : R := exp (- rate) * rate ^ y / INR (fact y).
Lemma exp_poisson rate y : 0 < rate -> exp (poisson_term rate y) = poisson_pmf rate y.
Proof.
  intros H. unfold poisson_term, poisson_pmf. assert (F : 0 < INR (fact y)) by apply INR_fact_lt_0. unfold Rminus. rewrite !exp_plus, exp_Ropp with (x := ln _), exp_ln by auto.
  replace (exp (INR y * ln rate)) with (rate ^ y); [reflexivity|]. change (exp (INR y * ln rate)) with (Rpower rate (INR y)). now rewrite Rpower_pow.
Qed.
Lemma poisson_val rate y : (forall r, In r rate -> 0 < r) -> poisson rate y = Val (rsum (map (fun ry => poisson_term (fst ry) (snd ry)) (combine rate y))).
Proof.
  intros H. unfold poisson. rewrite !existsb_false; auto; intros r Hr; specialize (H r Hr).
  - destruct (Req_EM_T r 0); auto. lra.
  - destruct (Rlt_dec r 0); auto. lra.
Qed.
Lemma poisson_sum rate : infinite_sum (poisson_pmf rate) 1.
Proof.
  assert (E : infinite_sum (fun i => / INR (fact i) * rate ^ i) (exp rate)) by (unfold exp; destruct (exist_exp rate) as [x Hx]; exact Hx).
  assert (P : 0 < exp (- rate)) by apply exp_pos.
  intros eps He. destruct (E (eps / exp (- rate))) as [N HN]; [now apply Rdiv_lt_0_compat|]. exists N. intros n Hn. specialize (HN n Hn).
  unfold R_dist in *.
  replace (sum_f_R0 (poisson_pmf rate) n - 1) with (exp (- rate) * (sum_f_R0 (fun i => / INR (fact i) * rate ^ i) n - exp rate)).
  - rewrite Rabs_mult, (Rabs_right (exp (- rate))) by lra. apply (Rmult_lt_compat_l (exp (- rate))) in HN; auto.
    replace (exp (- rate) * (eps / exp (- rate))) with eps in HN by (field; lra). exact HN.
  - rewrite Rmult_minus_distr_l, <- exp_plus. replace (- rate + rate) with 0 by ring. rewrite exp_0, scal_sum. f_equal. apply sum_eq. intros i _. unfold poisson_pmf, Rdiv. ring.
Qed.
Lemma poisson_max rate y : 0 < rate -> (0 < y)%nat -> poisson_term rate y <= poisson_term (INR y) y.
Proof.
  intros H Hy. assert (Y : 0 < INR y) by (now apply lt_0_INR). unfold poisson_term.
  pose proof (ln_le_sub1 (rate / INR y) (Rdiv_lt_0_compat _ _ H Y)) as L. unfold Rdiv in L. rewrite ln_mult, ln_Rinv in L by (auto; now apply Rinv_0_lt_compat).
  assert (Q : INR y * (rate * / INR y) = rate) by (field; lra). apply (Rmult_le_compat_l (INR y)) in L; [|lra]. nra.
Qed.

(** *** Exponential *)
Definition exponential_pdf (mu y : R) : R := / mu * exp (- y / mu).
Lemma exponential_val mu y : (forall m, In m mu -> 0 < m) -> exponential mu y = Val (- rsum (map (fun my => ln (fst my) + snd my / fst my) (combine mu y))).
Proof.
  intros H. unfold exponential. rewrite !existsb_false; auto; intros r Hr; specialize (H r Hr).
  - destruct (Req_EM_T r 0); auto. lra.
  - destruct (Rlt_dec r 0); auto. lra.
Qed.
Lemma exp_exponential m y : 0 < m -> exp (- (ln m + y / m)) = exponential_pdf m y.
Proof. intros H. unfold exponential_pdf. replace (- (ln m + y / m)) with (- ln m + - y / m) by (field; lra). now rewrite exp_plus, exp_Ropp, exp_ln. Qed.
Lemma rsum_opp {A} (f : A -> R) l : - rsum (map f l) = rsum (map (fun x => - f x) l).
Proof. unfold rsum. induction l as [|x t IH]; cbn; [lra|]. lra. Qed.
Lemma exponential_max m y : 0 < m -> 0 < y -> - (ln m + y / m) <= - (ln y + y / y).
Proof.
  intros H Hy. pose proof (ln_le_sub1 (y / m) (Rdiv_lt_0_compat _ _ Hy H)) as L. unfold Rdiv in *. rewrite ln_mult, ln_Rinv in L by (auto; now apply Rinv_0_lt_compat).
  replace (y * / y) with 1 by (field; lra). lra.
Qed.

(** *** Multinomial *)
Lemma NoDup_app_iff_aux {A} (a b : list A) : NoDup a -> NoDup b -> (forall x, In x a -> ~ In x b) -> NoDup (a ++ b).
Proof.
  induction a as [|x t IH]; intros Ha Hb H; cbn; auto. inversion Ha; subst. constructor; [|apply IH; auto; intros y Hy; apply H; now right].
  rewrite in_app_iff. intros [K|K]; [auto|]. exact (H x (or_introl eq_refl) K).
Qed.
Fixpoint comps (n k : nat) : list (list nat) :=
  match k with
  | O => if Nat.eqb n 0 then [[]] else []
  | S k => flat_map (fun i => map (cons i) (comps (n - i) k)) (seq 0 (S n))
  end.
Lemma comps_spec k : forall n d, In d (comps n k) <-> List.length d = k /\ total d = n.
Proof.
  induction k as [|k IH]; intros n d; cbn [comps].
  - destruct (Nat.eqb_spec n 0) as [->|Hn]; cbn [In].
    + split; [intros [<-|[]]; auto|]. intros [H _]. destruct d; [now left|discriminate].
    + split; [tauto|]. intros [H Ht]. destruct d; [cbn in Ht; lia|discriminate].
  - rewrite in_flat_map. split.
    + intros (i & Hi & H). apply in_map_iff in H as (t & <- & Ht). apply IH in Ht as [Hl Ht]. apply in_seq in Hi. change (total (i :: t)) with (i + total t)%nat. cbn [List.length]. split; lia.
    + intros [Hl Ht]. destruct d as [|i t]; [discriminate|]. cbn in Hl. change (i + total t = n)%nat in Ht. exists i. split; [apply in_seq; lia|]. apply in_map. apply IH. split; lia.
Qed.
Lemma NoDup_comps k : forall n, NoDup (comps n k).
Proof.
  induction k as [|k IH]; intros n; cbn [comps].
  - destruct (Nat.eqb n 0); repeat constructor; auto.
  - generalize (seq_NoDup (S n) 0). generalize (seq 0 (S n)). induction l as [|i t IHl]; intros Hd; cbn [flat_map]; [constructor|].
    inversion Hd; subst. apply NoDup_app_iff_aux.
    + apply FinFun.Injective_map_NoDup; [intros a b E; now injection E|apply IH].
    + now apply IHl.
    + intros x Hx Hx'. apply in_map_iff in Hx as (u & <- & _). apply in_flat_map in Hx' as (j & Hj & H). apply in_map_iff in H as (w & E & _). injection E as -> _. auto.
Qed.
(** probability of a count vector *)
Fixpoint mterm (d : list nat) (p : list R) : R :=
  match d, p with i :: d, x :: p => x ^ i / INR (fact i) * mterm d p | _, _ => 1 end.
Definition multinomial_pmf (d : list nat) (p : list R) : R := INR (fact (total d)) * mterm d p.
Lemma map_flat_map {A B C} (f : B -> C) (g : A -> list B) l : map f (flat_map g l) = flat_map (fun x => map f (g x)) l.
Proof. induction l as [|x t IH]; cbn; [reflexivity|]. now rewrite map_app, IH. Qed.
Lemma rsum_flat_map {A} (g : A -> list R) l : rsum (flat_map g l) = rsum (map (fun x => rsum (g x)) l).
Proof. induction l as [|x t IH]; [reflexivity|]. cbn [flat_map map]. rewrite rsum_app, IH. reflexivity. Qed.
Lemma rsum_seq f n : rsum (map f (seq 0 (S n))) = sum_f_R0 f n.
Proof.
  induction n as [|n IH]; [cbn; lra|]. replace (S (S n)) with (S n + 1)%nat by lia. rewrite seq_app, map_app, rsum_app, IH.
  cbn. lra.
Qed.
Lemma rsum_ext {A} (f g : A -> R) l : (forall x, In x l -> f x = g x) -> rsum (map f l) = rsum (map g l).
Proof. intros H. f_equal. now apply map_ext_in. Qed.
Lemma mterm_sum p : forall n, INR (fact n) * rsum (map (fun d => mterm d p) (comps n (List.length p))) = (rsum p) ^ n.
Proof.
  induction p as [|x p IH]; intros n.
  - cbn [List.length comps]. destruct n as [|n]; cbn [Nat.eqb map]; [cbn; lra|]. cbn [rsum fold_right]. unfold rsum. cbn. rewrite !Rmult_0_l. lra.
  - cbn [List.length comps]. rewrite map_flat_map, rsum_flat_map.
    transitivity (sum_f_R0 (fun i => C n i * x ^ i * (rsum p) ^ (n - i)) n); [|rewrite <- binomial; reflexivity].
    rewrite <- rsum_seq, <- rsum_scal. apply rsum_ext. intros i Hi. apply in_seq in Hi.
    rewrite map_map. rewrite <- IH. erewrite rsum_ext.
    2:{ intros d _. cbn [mterm]. reflexivity. }
    rewrite rsum_scal. unfold C. field. split; apply INR_fact_neq_0.
Qed.
Lemma xlogy_val d p : 0 < p -> xlogy d p = Val (INR d * ln p).
Proof.
  intros H. unfold xlogy. destruct (Nat.eqb_spec d 0) as [->|]; [cbn; f_equal; lra|]. destruct (Rlt_dec p 0); [lra|]. destruct (Req_EM_T p 0); [lra|reflexivity].
Qed.
(** the terms of the log-pmf are finite as soon as the classes that occur have positive probability *)
Definition fits (d : list nat) (p : list R) : Prop := Forall2 (fun i x => i = O \/ 0 < x) d p.
Definition mlog (d : list nat) (p : list R) : R := rsum (map (fun ix => (if Nat.eqb (fst ix) 0 then 0 else INR (fst ix) * ln (snd ix)) - ln (INR (fact (fst ix)))) (combine d p)).
Lemma multinomial_ln_pdf_val d p : fits d p -> multinomial_ln_pdf d p = Val (ln (INR (fact (total d))) + mlog d p).
Proof.
  intros H. unfold multinomial_ln_pdf. set (L := vsum _). assert (E : L = Val (mlog d p)); [|now rewrite E].
  unfold L, mlog. clear L. induction H as [|i x d p Hix H IH]; [reflexivity|]. cbn [combine map vsum fst snd]. rewrite IH.
  unfold xlogy. destruct (Nat.eqb_spec i 0) as [->|Hi]; [reflexivity|]. destruct Hix as [|Hx]; [congruence|].
  destruct (Rlt_dec x 0); [lra|]. destruct (Req_EM_T x 0); [lra|]. reflexivity.
Qed.
Lemma exp_mlog d p : fits d p -> (forall x, In x p -> 0 <= x) -> exp (mlog d p) = mterm d p.
Proof.
  unfold mlog, rsum. induction 1 as [|i x d p Hix H IH]; intros Hp; [apply exp_0|]. cbn [combine map fold_right fst snd mterm]. rewrite exp_plus, IH by (intros; apply Hp; now right).
  f_equal. unfold Rminus. rewrite exp_plus, exp_Ropp, exp_ln by apply INR_fact_lt_0. unfold Rdiv. f_equal.
  destruct (Nat.eqb_spec i 0) as [->|Hi]; [apply exp_0|]. destruct Hix as [|Hx]; [congruence|].
  change (exp (INR i * ln x)) with (Rpower x (INR i)). now rewrite Rpower_pow.
Qed.
Lemma fits_pos d p : List.length d = List.length p -> (forall x, In x p -> 0 < x) -> fits d p.
Proof.
  revert p. induction d as [|i d IH]; intros [|x p] Hl H; try discriminate; constructor; [right; apply H; now left|]. apply IH; [cbn in Hl; lia|]. intros; apply H; now right.
Qed.
(** Gibbs' inequality *)
Lemma gibbs_aux N d p : 0 < N -> fits d p -> (forall x, In x p -> 0 <= x) ->
  mlog d p <= mlog d (map (fun i => INR i / N) d) + (N * rsum p - INR (total d)).
Proof.
  intros HN. induction 1 as [|i x d p Hix H IH]; intros Hp; [cbn; lra|]. specialize (IH (fun y Hy => Hp y (or_intror Hy))).
  unfold mlog, rsum in *. cbn [combine map fold_right fst snd total] in *. change (fold_right Nat.add O d) with (total d). rewrite plus_INR.
  pose proof (Hp x (or_introl eq_refl)) as Hx0. destruct (Nat.eqb_spec i 0) as [->|Hi].
  - cbn [INR]. assert (0 <= N * x) by (apply Rmult_le_pos; lra). lra.
  - destruct Hix as [|Hx]; [congruence|]. assert (I : 0 < INR i) by (apply lt_0_INR; lia).
    assert (Q : 0 < INR i / N) by (now apply Rdiv_lt_0_compat).
    pose proof (ln_le_sub1 (x / (INR i / N)) (Rdiv_lt_0_compat _ _ Hx Q)) as L. unfold Rdiv in L at 1. rewrite ln_mult, ln_Rinv in L by (auto; now apply Rinv_0_lt_compat).
    apply (Rmult_le_compat_l (INR i)) in L; [|lra]. replace (INR i * (x / (INR i / N) - 1)) with (N * x - INR i) in L by (field; lra).
    rewrite Rmult_plus_distr_l in L. lra.
Qed.
Lemma rsum_freq N d : 0 < N -> rsum (map (fun i => INR i / N) d) = INR (total d) / N.
Proof. intros H. induction d as [|i d IH]; [cbn; field; lra|]. cbn [map total fold_right]. change (fold_right Nat.add O d) with (total d). rewrite plus_INR. unfold rsum in *. cbn [fold_right]. rewrite IH. field. lra. Qed.
Lemma fits_freq N d : 0 < N -> fits d (map (fun i => INR i / N) d).
Proof.
  intros H. induction d as [|i d IH]; cbn; constructor; auto. destruct i; [now left|right]. apply Rdiv_lt_0_compat; auto. apply lt_0_INR. lia.
Qed.

(** *** Joint *)
Section J.
Variable V : Type.
Implicit Types (h : heap V) (l : list (lik V)).
Lemma deref_app h h' i : (i < List.length h)%nat -> deref V (h ++ h') i = deref V h i.
Proof. intros H. unfold deref. now rewrite app_nth1. Qed.
Lemma hset_length h i d : List.length (hset V h i d) = List.length h.
Proof. revert i. induction h as [|x t IH]; intros [|i]; cbn; auto. Qed.
Lemma deref_hset_same h i d : (i < List.length h)%nat -> deref V (hset V h i d) i = d.
Proof. revert i. induction h as [|x t IH]; intros [|i] H; cbn in *; try lia; auto. apply IH. lia. Qed.
Lemma deref_hset_other h i k d : i <> k -> deref V (hset V h i d) k = deref V h k.
Proof. revert i k. induction h as [|x t IH]; intros [|i] [|k] H; cbn; auto; try lia. apply IH. lia. Qed.
Lemma deepcopy_spec l : forall h, (forall x, In x l -> (ref V x < List.length h)%nat) ->
  let '(h', l') := deepcopy V h l in
  (exists t, h' = h ++ t) /\ List.length l' = List.length l /\ map (logl V) l' = map (logl V) l /\ map (noisel V) l' = map (noisel V) l
  /\ map (fun x => deref V h' (ref V x)) l' = map (fun x => deref V h (ref V x)) l
  /\ (forall x, In x l' -> (List.length h <= ref V x < List.length h')%nat).
Proof.
  induction l as [|x t IH]; intros h H; cbn [deepcopy].
  - split; [exists []; now rewrite app_nil_r|]. do 4 (split; [reflexivity|]). intros y [].
  - specialize (IH (h ++ [deref V h (ref V x)])). destruct (deepcopy V (h ++ [deref V h (ref V x)]) t) as [h' t'].
    destruct IH as ((u & ->) & E1 & E2 & E3 & E4 & E5).
    { intros y Hy. rewrite app_length. cbn. specialize (H y (or_intror Hy)). lia. }
    split; [exists ([deref V h (ref V x)] ++ u); now rewrite app_assoc|]. cbn [map List.length logl noisel ref]. repeat split; try congruence.
    + f_equal.
      * unfold deref at 1. rewrite <- app_assoc, app_nth2 by lia. rewrite Nat.sub_diag. reflexivity.
      * rewrite E4. apply map_ext_in. intros y Hy. apply deref_app. apply H. now right.
    + cbn in H0. destruct H0 as [<-|H0]; cbn; [lia|]. apply E5 in H0. rewrite app_length in H0. cbn in H0. lia.
    + rewrite !app_length. cbn. destruct H0 as [<-|H0]; cbn; [lia|]. apply E5 in H0. rewrite !app_length in H0. cbn in H0. lia.
Qed.
(** the state reached by a list of in-place updates of joint.parameters *)
Fixpoint updates h (j : joint V) (ds : list (pdict V)) : heap V :=
  match ds with [] => h | d :: t => updates (params_update V h j d) j t end.
Lemma updates_params ds : forall h j, (jref V j < List.length h)%nat -> deref V (updates h j ds) (jref V j) = fold_left (update V) ds (deref V h (jref V j)).
Proof.
  induction ds as [|d t IH]; intros h j H; cbn [updates fold_left]; auto. rewrite IH by (unfold params_update; now rewrite hset_length). f_equal.
  unfold params_update. now rewrite deref_hset_same.
Qed.
Lemma updates_other ds : forall h j k, k <> jref V j -> deref V (updates h j ds) k = deref V h k.
Proof.
  induction ds as [|d t IH]; intros h j k H; cbn [updates]; auto. rewrite IH by auto. unfold params_update. apply deref_hset_other. auto.
Qed.
Lemma updates_length ds : forall h j, List.length (updates h j ds) = List.length h.
Proof. induction ds as [|d t IH]; intros h j; cbn; auto. rewrite IH. apply hset_length. Qed.
(** what the constructor builds *)
Lemma joint_init_spec h l : (forall x, In x l -> (ref V x < List.length h)%nat) ->
  let '(h', j) := joint_init V h l in
  (exists t, h' = h ++ t) /\ (List.length h <= jref V j < List.length h')%nat
  /\ parts V j = map (fun x => mklik V (jref V j) (logl V x) (noisel V x)) l
  /\ deref V h' (jref V j) = fold_left (update V) (map (fun x => deref V h (ref V x)) l) [].
Proof.
  intros H. unfold joint_init. pose proof (deepcopy_spec l h H) as K. destruct (deepcopy V h l) as [h1 l1]. destruct K as ((t & ->) & E1 & E2 & E3 & E4 & E5). cbn [jref parts].
  split; [exists (t ++ [fold_left (fun d x => update V d (deref V (h ++ t) (ref V x))) l1 []]); now rewrite app_assoc|].
  split; [rewrite !app_length; cbn; lia|]. split.
  - set (r := List.length (h ++ t)). clear - E1 E2 E3. revert l E1 E2 E3. induction l1 as [|a l1 IH]; intros [|b l] E1 E2 E3; try discriminate; [reflexivity|].
    cbn in *. injection E2 as -> E2. injection E3 as -> E3. f_equal. apply IH; auto.
  - unfold deref at 1. rewrite app_nth2 by lia. rewrite Nat.sub_diag. cbn [nth]. rewrite <- E4. clear. generalize (@nil (string * V)).
    induction l1 as [|a t0 IH]; intros d; cbn; auto.
Qed.
End J.
