From Coq Require Import Reals Lra Psatz String List Bool Arith Lia Permutation.
From Coquelicot Require Import Coquelicot.
From Verif Require Import PyReal PyDict PriorSpec CondPrior_Model.
Import ListNotations.
Open Scope string_scope.
Open Scope list_scope.

Lemma remove1_perm k l l' : remove1 k l = Some l' -> Permutation l (k :: l').
Proof.
  revert l'. induction l as [|x l IH]; intros l'; simpl; [discriminate|]. destruct (String.eqb_spec k x) as [->|N].
  - intros H. injection H as <-. reflexivity.
  - destruct (remove1 k l) as [l1|]; simpl; [|discriminate]. intros H. injection H as <-. rewrite (IH l1 eq_refl). apply perm_swap.
Qed.
Lemma remove1_some k l : In k l -> exists l', remove1 k l = Some l'.
Proof.
  induction l as [|x l IH]; simpl; [tauto|]. intros H. destruct (String.eqb_spec k x) as [->|N]; [eauto|].
  destruct H as [H|H]; [congruence|]. destruct (IH H) as [l' ->]. simpl. eauto.
Qed.
Lemma same_sorted_spec a b : same_sorted a b = true <-> Permutation a b.
Proof.
  revert b. induction a as [|x a IH]; intros b; simpl.
  - destruct b; split; intros H; try discriminate; auto. apply Permutation_nil in H. discriminate.
  - destruct (remove1 x b) as [b'|] eqn:E.
    + rewrite IH. pose proof (remove1_perm _ _ _ E) as P. split; intros H.
      * rewrite P. constructor. exact H.
      * apply Permutation_cons_inv with x. rewrite H. exact P.
    + split; [discriminate|]. intros H. assert (I : In x b) by (apply (Permutation_in _ H); left; reflexivity).
      destruct (remove1_some x b I) as [b' E']. congruence.
Qed.
Section C.
Context {A V : Type}.
Lemma set_all_get (params attrs : dict A) k : wf params ->
  dget (set_all attrs params) k = match dget params k with Some v => Some v | None => dget attrs k end.
Proof.
  unfold set_all. revert attrs. induction params as [|[k' v] t IH]; intros attrs W; simpl; [reflexivity|].
  inversion W as [|? ? N W']; subst. rewrite IH by exact W'. destruct (String.eqb_spec k k') as [->|NE].
  - apply dget_none in N. rewrite N. apply dget_set_eq.
  - rewrite dget_set_ne by exact NE. reflexivity.
Qed.
Variable ref : dict A.
Variable required : list string.
Variable cf : dict A -> dict V -> dict A.
Notation run := (crun ref required cf).
Notation upd := (update_conditions ref required cf).
Lemma upd_full attrs rv : Permutation (dkeys rv) required ->
  upd attrs rv = (set_all attrs (cf ref rv), Some (set_all attrs (cf ref rv))).
Proof. intros P. unfold update_conditions. rewrite (proj2 (same_sorted_spec _ _) P). reflexivity. Qed.
Lemma upd_wrong attrs rv : ~ Permutation (dkeys rv) required -> rv <> [] -> upd attrs rv = (attrs, None).
Proof.
  intros P N. unfold update_conditions. destruct (same_sorted (dkeys rv) required) eqn:E; [apply same_sorted_spec in E; contradiction|].
  destruct rv; [contradiction|reflexivity].
Qed.
Lemma upd_none attrs : required <> [] -> upd attrs [] = (attrs, Some attrs).
Proof.
  intros N. unfold update_conditions. destruct (same_sorted (dkeys []) required) eqn:E; [|reflexivity].
  apply same_sorted_spec in E. simpl in E. apply Permutation_nil in E. contradiction.
Qed.
(** attributes outside the condition function's results never change; those inside
    are overwritten by the next full evaluation *)
Lemma run_frame attrs0 (K : string -> Prop) l : wf ref -> (forall k v, dget ref k = Some v -> dget attrs0 k = Some v) ->
  (forall rv, wf (cf ref rv) /\ forall k, In k (dkeys (cf ref rv)) -> K k) ->
  forall k, ~ K k -> dget (run attrs0 l) k = dget attrs0 k.
Proof.
  intros W HR HC k NK. enough (G : forall attrs, dget attrs k = dget attrs0 k -> dget (run attrs l) k = dget attrs0 k) by (apply G; reflexivity).
  induction l as [|o t IH]; intros attrs H; [exact H|]. simpl. apply IH. destruct o as [rv|]; simpl.
  - unfold update_conditions. destruct (same_sorted (dkeys rv) required); simpl.
    + destruct (HC rv) as [W' HK]. rewrite set_all_get by exact W'. destruct (dget (cf ref rv) k) as [v|] eqn:E; [|exact H].
      exfalso. apply NK, HK. destruct (in_dec string_dec k (dkeys (cf ref rv))) as [|N]; [assumption|]. apply dget_none in N. congruence.
    + destruct rv; exact H.
  - unfold reset_to_reference_parameters. rewrite set_all_get by exact W. destruct (dget ref k) as [v|] eqn:E; [|exact H]. symmetry. apply HR, E.
Qed.
Lemma history_free attrs0 (K : string -> Prop) l rv : wf ref -> (forall k v, dget ref k = Some v -> dget attrs0 k = Some v) ->
  (forall rv, wf (cf ref rv) /\ forall k, In k (dkeys (cf ref rv)) <-> K k) ->
  Permutation (dkeys rv) required ->
  exists a, snd (upd (run attrs0 l) rv) = Some a /\ forall k, dget a k = dget (set_all attrs0 (cf ref rv)) k.
Proof.
  intros W HR HC P. rewrite (upd_full _ _ P). simpl. eexists. split; [reflexivity|]. intros k. destruct (HC rv) as [W' HK].
  rewrite !set_all_get by exact W'. destruct (dget (cf ref rv) k) as [v|] eqn:E; [reflexivity|].
  apply (run_frame attrs0 K); auto.
  - intros rv'. destruct (HC rv') as [W'' HK']. split; [exact W''|]. intros k' Hk. apply HK', Hk.
  - intros C. apply HK in C. apply dget_none in E. contradiction.
Qed.
End C.

Open Scope R_scope.
Notation total := (fold_right Rplus 0).
Lemma total_app a b : total (a ++ b) = total a + total b.
Proof. induction a as [|x a IH]; simpl; [ring|]. rewrite IH. ring. Qed.
Lemma rescale_simplex btdtri n prev us :
  (forall b u, 0 <= u <= 1 -> 0 <= btdtri b u <= 1) -> (forall u, In u us -> 0 <= u <= 1) ->
  (forall x, In x prev -> 0 <= x) -> total prev <= 1 ->
  let r := dirichlet_rescale btdtri n prev us in
  (forall x, In x r -> 0 <= x <= 1) /\ (forall m, 0 <= total (firstn m r) <= 1) /\
  length r = (length prev + length us)%nat /\ firstn (length prev) r = prev.
Proof.
  intros HB. revert prev. induction us as [|u us IH]; intros prev HU HP HS; simpl.
  - assert (NN : forall l, (forall x : R, In x l -> 0 <= x) -> 0 <= total l).
    { induction l as [|x l IHl]; intros Hl; simpl; [lra|]. assert (0 <= x) by (apply Hl; left; reflexivity).
      assert (0 <= total l) by (apply IHl; intros y Hy; apply Hl; right; exact Hy). lra. }
    split; [|split; [|split; [lia|apply firstn_all]]].
    + intros x Hx. split; [apply HP, Hx|]. apply in_split in Hx as (a & b & ->). rewrite total_app in HS. simpl in HS.
      assert (0 <= total a) by (apply NN; intros y Hy; apply HP, in_or_app; auto).
      assert (0 <= total b) by (apply NN; intros y Hy; apply HP, in_or_app; right; right; exact Hy). lra.
    + intros m. rewrite <- (firstn_skipn m prev) in HS. rewrite total_app in HS.
      assert (0 <= total (firstn m prev)) by (apply NN; intros y Hy; apply HP; rewrite <- (firstn_skipn m prev); apply in_or_app; auto).
      assert (0 <= total (skipn m prev)) by (apply NN; intros y Hy; apply HP; rewrite <- (firstn_skipn m prev); apply in_or_app; auto). lra.
  - set (x := dirichlet_element_rescale btdtri n (length prev) prev u).
    assert (HX : 0 <= x <= 1 - total prev).
    { unfold x, dirichlet_element_rescale, dirichlet_remaining. pose proof (HB (n - length prev - 1)%nat u (HU u (or_introl eq_refl))). nra. }
    destruct (IH (prev ++ [x])) as (A & B & C & D).
    + intros v Hv. apply HU. right. exact Hv.
    + intros y Hy. apply in_app_or in Hy as [Hy|[<-|[]]]; [apply HP, Hy|lra].
    + rewrite total_app. simpl. lra.
    + split; [exact A|]. split; [exact B|]. split; [rewrite C, app_length; simpl; lia|].
      rewrite app_length in D. simpl in D.
      replace (firstn (length prev) (dirichlet_rescale btdtri n (prev ++ [x]) us)) with (firstn (length prev) (firstn (length prev + 1) (dirichlet_rescale btdtri n (prev ++ [x]) us))).
      * rewrite D, firstn_app, firstn_all, Nat.sub_diag. simpl. apply app_nil_r.
      * rewrite firstn_firstn. f_equal. lia.
Qed.
Fixpoint joint_ln (n : nat) (prev xs : list R) : R :=
  match xs with
  | [] => 0
  | x :: t => dirichlet_element_ln_prob n (length prev) prev x + joint_ln n (prev ++ [x]) t
  end.
Lemma joint_telescopes n xs prev : (length prev + length xs = n - 1)%nat ->
  (forall m, (m <= length xs)%nat -> 0 < 1 - total prev - total (firstn m xs)) ->
  joint_ln n prev xs = ln (INR (fact (length xs))) - INR (length xs) * ln (1 - total prev).
Proof.
  revert prev. induction xs as [|x xs IH]; intros prev L H.
  - simpl. rewrite ln_1. ring.
  - simpl joint_ln. simpl in L. assert (ER : 1 - total (prev ++ [x]) = 1 - total prev - x) by (rewrite total_app; simpl; ring).
    rewrite IH.
    + unfold dirichlet_element_ln_prob, dirichlet_remaining.
      replace (n - length prev - 1)%nat with (S (length xs)) by lia. rewrite ER.
      change (fact (length (x :: xs))) with (S (length xs) * fact (length xs))%nat. rewrite mult_INR, ln_mult.
      * change (length (x :: xs)) with (S (length xs)). rewrite Rminus_0_r. rewrite (S_INR (length xs)). ring.
      * apply lt_0_INR. lia.
      * apply lt_0_INR, lt_O_fact.
    + rewrite app_length. simpl. lia.
    + intros m Hm. rewrite ER. specialize (H (S m) ltac:(simpl; lia)). simpl in H. lra.
Qed.
(** one element: density, distribution function and quantile *)
Definition elem_density (b : nat) (m x : R) : R :=
  if Rle_dec 0 x then if Rle_dec x m then INR b * (m - x) ^ (b - 1) / m ^ b else 0 else 0.
Definition elem_cdf (b : nat) (m x : R) : R := 1 - ((m - x) / m) ^ b.
Lemma elem_derive b m x : (1 <= b)%nat -> 0 < m -> is_derive (elem_cdf b m) x (INR b * (m - x) ^ (b - 1) / m ^ b).
Proof.
  intros Hb Hm. unfold elem_cdf. evar_last.
  - apply (is_derive_minus (fun _ => 1) (fun x => ((m - x) / m) ^ b)).
    + apply is_derive_const.
    + apply (is_derive_pow (fun x => (m - x) / m) b x (- / m)). auto_derive; [trivial|field; lra].
  - unfold minus, plus, opp, zero; simpl. destruct b as [|b]; [lia|]. simpl pred. replace (S b - 1)%nat with b by lia.
    unfold Rdiv. rewrite Rpow_mult_distr, pow_inv by lra. simpl pow. field. repeat split; try (apply pow_nonzero); lra.
Qed.
Lemma elem_density_ln n order prev x : (order + 1 < n)%nat ->
  0 <= x < dirichlet_remaining prev -> ln (elem_density (n - order - 1) (dirichlet_remaining prev) x) = dirichlet_element_ln_prob n order prev x.
Proof.
  intros Hn Hx. unfold elem_density, dirichlet_element_ln_prob. set (m := dirichlet_remaining prev) in *. set (b := (n - order - 1)%nat).
  assert (Hb : (1 <= b)%nat) by (unfold b; lia). destruct (Rle_dec 0 x); [|lra]. destruct (Rle_dec x m); [|lra].
  assert (0 < INR b) by (apply lt_0_INR; lia). assert (P1 : 0 < (m - x) ^ (b - 1)) by (apply pow_lt; lra). assert (P2 : 0 < m ^ b) by (apply pow_lt; lra).
  unfold Rdiv. rewrite ln_mult; [|apply Rmult_lt_0_compat; assumption|apply Rinv_0_lt_compat; assumption].
  rewrite ln_mult, ln_Rinv by assumption. rewrite !ln_pow by lra. rewrite minus_INR by lia. simpl (INR 1). replace (m - 0) with m by ring. ring.
Qed.
Lemma beta1_range b u : (1 <= b)%nat -> 0 <= u <= 1 -> 0 <= beta1_quantile b u <= 1.
Proof.
  intros Hb Hu. unfold beta1_quantile. destruct (Req_EM_T u 1) as [->|N]; [lra|].
  assert (HI : 0 < / INR b) by (apply Rinv_0_lt_compat, lt_0_INR; lia).
  split; [|unfold Rpower; pose proof (exp_pos (/ INR b * ln (1 - u))); lra].
  assert (Rpower (1 - u) (/ INR b) <= 1); [|lra]. replace 1 with (Rpower 1 (/ INR b)) at 2 by (unfold Rpower; rewrite ln_1, Rmult_0_r; apply exp_0).
  apply Rle_Rpower_l; lra.
Qed.
Lemma elem_cdf_quantile b m u : (1 <= b)%nat -> 0 < m -> 0 <= u <= 1 -> elem_cdf b m (beta1_quantile b u * m) = u.
Proof.
  intros Hb Hm Hu. unfold elem_cdf, beta1_quantile. set (w := if Req_EM_T u 1 then 0 else Rpower (1 - u) (/ INR b)).
  replace ((m - (1 - w) * m) / m) with w by (field; lra). unfold w. destruct (Req_EM_T u 1) as [->|N].
  - rewrite pow_ne_zero by lia. ring.
  - rewrite <- Rpower_pow by (unfold Rpower; apply exp_pos). rewrite Rpower_mult, Rinv_l by (apply not_0_INR; lia). rewrite Rpower_1 by lra. ring.
Qed.
Lemma beta1_mono b u v : (1 <= b)%nat -> 0 <= u -> u <= v -> v <= 1 -> beta1_quantile b u <= beta1_quantile b v.
Proof.
  intros Hb H0 H1 H2. unfold beta1_quantile. assert (HI : 0 < / INR b) by (apply Rinv_0_lt_compat, lt_0_INR; lia).
  destruct (Req_EM_T v 1) as [->|N].
  - destruct (Req_EM_T u 1); [lra|]. unfold Rpower. pose proof (exp_pos (/ INR b * ln (1 - u))). lra.
  - destruct (Req_EM_T u 1) as [->|N']; [lra|]. assert (Rpower (1 - v) (/ INR b) <= Rpower (1 - u) (/ INR b)); [|lra]. apply Rle_Rpower_l; lra.
Qed.
Lemma elem_mass b m u v : (1 <= b)%nat -> 0 < m -> 0 <= u -> u <= v -> v <= 1 ->
  is_RInt (elem_density b m) (beta1_quantile b u * m) (beta1_quantile b v * m) (v - u).
Proof.
  intros Hb Hm H0 H1 H2. pose proof (beta1_range b u Hb ltac:(lra)). pose proof (beta1_range b v Hb ltac:(lra)).
  pose proof (beta1_mono b u v Hb H0 H1 H2).
  rewrite <- (elem_cdf_quantile b m u Hb Hm ltac:(lra)) at 2. rewrite <- (elem_cdf_quantile b m v Hb Hm ltac:(lra)) at 2.
  apply (ftc_ext (elem_density b m) (fun x => INR b * (m - x) ^ (b - 1) / m ^ b) (elem_cdf b m)).
  - apply Rmult_le_compat_r; lra.
  - intros x _. apply elem_derive; assumption.
  - intros x _. apply (cont_of_derive (fun x => INR b * (m - x) ^ (b - 1) / m ^ b)). auto_derive. trivial.
  - intros x Hx. unfold elem_density. destruct (Rle_dec 0 x); [|nra]. destruct (Rle_dec x m); [reflexivity|]. nra.
Qed.
