(** * Stationarity of the Metropolis-Hastings step (C32) and of temperature swaps (C33) *)
From Coq Require Import Reals List Lra Lia Psatz.
From Coquelicot Require Import Coquelicot.
From Verif Require Import PriorSpec Mcmc_Model Mcmc_Proofs Chain_Model.
Import ListNotations.
Open Scope R_scope.

(** ** C32 *)
Section C32.
Context {T : Type}.
Variables (logp logl : T -> option R) (beta : R) (X : list T).
(** the tempered posterior: likelihood^beta * prior, zero where either is not finite *)
Definition target (x : T) : R :=
  match logp x, logl x with Some lp, Some ll => Rpower (exp ll) beta * exp lp | _, _ => 0 end.
(** a proposal: the probability of proposing y from x, and the log factor returned *)
Record kernel := mkKernel { q : T -> T -> R; lf : T -> T -> R }.
Definition valid_kernel (k : kernel) : Prop :=
  (forall x y, In x X -> In y X -> 0 <= q k x y) /\ (forall x, In x X -> sum X (q k x) = 1) /\
  (forall x y, In x X -> In y X -> 0 < target x -> 0 < target y -> 0 < q k x y -> 0 < q k y x /\ exp (lf k x y) = q k y x / q k x y).
(** probability that the proposal y is accepted from x, u uniform on [0,1] *)
Definition p_accept (k : kernel) (x y : T) : R :=
  RInt (fun u => match log_alpha logp logl beta (lf k x y) x y with None => 0 | Some la => if Rle_dec u (exp la) then 1 else 0 end) 0 1.
(** expectation of f after one iteration from x: proposal, then the uniform draw *)
Definition after (k : kernel) (f : T -> R) (x : T) : R := sum X (fun y => q k x y * RInt (fun u => f (mh_next logp logl beta (lf k x y) x y u)) 0 1).
(** and after a sequence of iterations, each with its own proposal *)
Definition after_all (ks : list kernel) (f : T -> R) : T -> R := fold_right after f ks.

Lemma target_pos x : 0 <= target x.
Proof. unfold target. destruct (logp x), (logl x); try lra. left. apply Rmult_lt_0_compat; apply exp_pos. Qed.
Lemma target_exp x lp ll : logp x = Some lp -> logl x = Some ll -> target x = exp (beta * ll + lp).
Proof. intros A B. unfold target. rewrite A, B. unfold Rpower. rewrite ln_exp. symmetry. apply exp_plus. Qed.
Lemma p_accept_val k x y : p_accept k x y = match log_alpha logp logl beta (lf k x y) x y with None => 0 | Some la => Rmin 1 (exp la) end.
Proof.
  unfold p_accept. apply is_RInt_unique. destruct (log_alpha _ _ _ _ _ _) as [la|].
  - eapply is_RInt_val; [apply threshold_integral; apply exp_pos|]. lra.
  - apply is_RInt_zero_ext. reflexivity.
Qed.
Theorem C32_detailed_balance k x y : valid_kernel k -> In x X -> In y X ->
  target x * q k x y * p_accept k x y = target y * q k y x * p_accept k y x.
Proof.
  intros (Q0 & _ & QR) Hx Hy. rewrite !p_accept_val. unfold log_alpha.
  destruct (logp x) as [px|] eqn:PX; [|unfold target at 1; rewrite PX; lra].
  destruct (logl x) as [lx|] eqn:LX; [|unfold target at 1; rewrite PX, LX; lra].
  destruct (logp y) as [py|] eqn:PY; [|unfold target at 2; rewrite PY; lra].
  destruct (logl y) as [ly|] eqn:LY; [|unfold target at 2; rewrite PY, LY; lra].
  pose proof (target_exp x _ _ PX LX) as TX. pose proof (target_exp y _ _ PY LY) as TY. cbn [fin].
  assert (PXp : 0 < target x) by (rewrite TX; apply exp_pos). assert (PYp : 0 < target y) by (rewrite TY; apply exp_pos).
  assert (R1 : forall lfv a b c d, exp (lfv + beta * a + b - beta * c - d) = exp lfv * (exp (beta * a + b) / exp (beta * c + d))).
  { intros. replace (lfv + beta * a + b - beta * c - d) with (lfv + ((beta * a + b) + - (beta * c + d))) by ring. rewrite (exp_plus lfv), (exp_plus (beta * a + b)), exp_Ropp. reflexivity. }
  rewrite !R1, <- TX, <- TY.
  destruct (Q0 x y Hx Hy) as [G|G], (Q0 y x Hy Hx) as [G'|G'].
  - destruct (QR x y Hx Hy PXp PYp G) as [_ E1]. destruct (QR y x Hy Hx PYp PXp G') as [_ E2]. rewrite E1, E2.
    replace (q k y x / q k x y * (target y / target x)) with (target y * q k y x / (target x * q k x y)) by (field; lra).
    replace (q k x y / q k y x * (target x / target y)) with (target x * q k x y / (target y * q k y x)) by (field; lra).
    rewrite !flow_min by (apply Rmult_lt_0_compat; assumption). apply Rmin_comm.
  - destruct (QR x y Hx Hy PXp PYp G) as [G2 _]. lra.
  - destruct (QR y x Hy Hx PYp PXp G') as [G2 _]. lra.
  - rewrite <- G, <- G'. lra.
Qed.
Lemma after_val k f x : after k f x = sum X (fun y => q k x y * (p_accept k x y * f y + (1 - p_accept k x y) * f x)).
Proof.
  unfold after. apply sum_ext. intros y _. f_equal. rewrite p_accept_val. apply is_RInt_unique. unfold mh_next.
  destruct (log_alpha _ _ _ _ _ _) as [la|].
  - eapply is_RInt_ext; [|apply (threshold_integral (exp la) (f y) (f x)); apply exp_pos]. intros u _. simpl. destruct (Rle_dec u (exp la)); reflexivity.
  - apply is_RInt_val with ((1 - 0) * f x); [apply (is_RInt_const 0 1 (f x))|lra].
Qed.
(** the tempered posterior is stationary: every expectation under it is unchanged by one
    iteration, for every function f *)
Theorem C32_stationary k f : valid_kernel k -> sum X (fun x => target x * after k f x) = sum X (fun x => target x * f x).
Proof.
  intros V. destruct V as (Q0 & Q1 & QR).
  assert (E : forall x, In x X -> target x * after k f x = target x * f x + sum X (fun y => target x * q k x y * p_accept k x y * (f y - f x))).
  { intros x Hx. rewrite after_val. transitivity (target x * (f x * sum X (q k x)) + sum X (fun y => target x * q k x y * p_accept k x y * (f y - f x))); [|rewrite (Q1 x Hx); ring].
    rewrite <- !sum_scal, <- sum_plus. apply sum_ext. intros y _. ring. }
  rewrite (sum_ext _ _ _ E), sum_plus. rewrite sum_antisym; [lra|]. intros x y Hx Hy.
  rewrite (C32_detailed_balance k x y (conj Q0 (conj Q1 QR)) Hx Hy). ring.
Qed.
(** L1steps iterations with any cycle of valid proposals *)
Theorem C32_stationary_steps ks f : List.Forall valid_kernel ks -> sum X (fun x => target x * after_all ks f x) = sum X (fun x => target x * f x).
Proof. intros H. induction H as [|k ks Hk _ IH]; [reflexivity|]. cbn. rewrite (C32_stationary k _ Hk). exact IH. Qed.
(** a sample with zero prior or non-finite likelihood is never moved to *)
Theorem C32_never_leaves_support k x y u : target y = 0 -> mh_next logp logl beta (lf k x y) x y u = x.
Proof.
  intros H. unfold mh_next, log_alpha. destruct (logp y) as [py|] eqn:PY; [|reflexivity]. destruct (logl y) as [ly|] eqn:LY; [|reflexivity].
  rewrite (target_exp y _ _ PY LY) in H. pose proof (exp_pos (beta * ly + py)). lra.
Qed.
End C32.
(** two states with weights 1/4 and 3/4, a proposal that always proposes the other one,
    inverse temperature 1: all of the lighter state moves, a third of the heavier one *)
Definition ex_logl (b : bool) : option R := Some (if b then ln 3 else 0).
Definition ex_k : @kernel bool := mkKernel (fun x y => if Bool.eqb x y then 0 else 1) (fun _ _ => 0).
Example C32_ex_valid : valid_kernel (fun _ => Some 0) ex_logl 1 [false; true] ex_k.
Proof.
  split; [intros [|] [|] _ _; simpl; lra|]. split; [intros [|] _; simpl; lra|]. intros [|] [|] _ _ _ _; simpl; intros H; try lra; split; try lra; rewrite exp_0; lra.
Qed.
Example C32_ex : p_accept (fun _ => Some 0) ex_logl 1 ex_k false true = 1 /\ p_accept (fun _ => Some 0) ex_logl 1 ex_k true false = 1/3.
Proof.
  rewrite !p_accept_val. cbn [log_alpha ex_logl fin lf ex_k]. split.
  - apply Rmin_left. rewrite <- exp_0 at 1. left. apply exp_increasing. assert (L : 0 < ln 3) by (rewrite <- ln_1; apply ln_increasing; lra). lra.
  - replace (0 + 1 * 0 + 0 - 1 * ln 3 - 0) with (- ln 3) by ring. rewrite exp_Ropp, exp_ln by lra. rewrite Rmin_right; lra.
Qed.
(** the log factor matters: proposing "true" with probability 3/4 from either state, with
    log factor 0, does not keep the uniform target *)
Theorem C32_wrong_log_factor_refuted : exists (k : @kernel bool) f,
  (forall x, sum [false; true] (q k x) = 1) /\ (forall x y, 0 < q k x y) /\
  let tgt := target (fun _ => Some 0) (fun _ => Some 0) 1 in
  sum [false; true] (fun x => tgt x * after (fun _ => Some 0) (fun _ => Some 0) 1 [false; true] k f x) <> sum [false; true] (fun x => tgt x * f x).
Proof.
  exists (mkKernel (fun _ (y : bool) => if y then 3/4 else 1/4) (fun _ _ => 0)), (fun b : bool => if b then 1 else 0).
  split; [intros x; simpl; lra|]. split; [intros x [|]; simpl; lra|]. cbn zeta. cbn [sum fold_right]. rewrite !after_val.
  rewrite !(target_exp (fun _ : bool => Some 0) (fun _ => Some 0) 1 _ 0 0) by reflexivity. cbn [sum fold_right]. rewrite !p_accept_val. cbn [log_alpha fin lf q].
  replace (0 + 1 * 0 + 0 - 1 * 0 - 0) with 0 by ring. replace (1 * 0 + 0) with 0 by ring. rewrite exp_0, Rmin_left by lra. lra.
Qed.

(** ** C33 *)
Section C33.
Context {T : Type}.
Variables (logp logl : T -> R) (X : list T).
Definition tempered (b : R) (x : T) : R := Rpower (exp (logl x)) b * exp (logp x).
Definition p_swap (bi bj : R) (x y : T) : R := RInt (fun u => if Rle_dec u (exp ((bj - bi) * (logl x - logl y))) then 1 else 0) 0 1.
Lemma p_swap_val bi bj x y : p_swap bi bj x y = Rmin 1 (exp ((bj - bi) * (logl x - logl y))).
Proof. unfold p_swap. apply is_RInt_unique. eapply is_RInt_val; [apply threshold_integral; apply exp_pos|]. lra. Qed.
Lemma tempered_exp b x : tempered b x = exp (b * logl x + logp x).
Proof. unfold tempered, Rpower. rewrite ln_exp. symmetry. apply exp_plus. Qed.
Theorem C33_swap_detailed_balance bi bj x y :
  tempered bi x * tempered bj y * p_swap bi bj x y = tempered bi y * tempered bj x * p_swap bi bj y x.
Proof.
  rewrite !p_swap_val, !tempered_exp.
  assert (E : forall x y, exp ((bj - bi) * (logl x - logl y)) = exp (bi * logl y + logp y) * exp (bj * logl x + logp x) / (exp (bi * logl x + logp x) * exp (bj * logl y + logp y))).
  { intros a b. unfold Rdiv. rewrite <- !exp_plus, <- exp_Ropp, <- exp_plus. f_equal. ring. }
  rewrite (E x y), (E y x), !flow_min by (apply Rmult_lt_0_compat; apply exp_pos). apply Rmin_comm.
Qed.
(** samples of all temperatures as a list; a round of swaps between neighbours from the
    coldest on, each with its own uniform draw; expectation of f afterwards *)
Fixpoint round (bs : list R) (f : list T -> R) (v : list T) : R :=
  match bs with
  | bi :: bs' => match bs', v with
    | bj :: _, x :: y :: t =>
        RInt (fun u => let '(x', y') := swap_next logl bi bj x y u in round bs' (fun w => f (x' :: w)) (y' :: t)) 0 1
    | _, _ => f v
    end
  | [] => f v
  end.
(** expectation of f under the product of the tempered posteriors (unnormalised) *)
Fixpoint joint (bs : list R) (f : list T -> R) : R :=
  match bs with [] => f [] | b :: bs' => sum X (fun x => tempered b x * joint bs' (fun v => f (x :: v))) end.
Lemma joint_ext bs : forall f g, (forall v, f v = g v) -> joint bs f = joint bs g.
Proof. induction bs as [|b bs IH]; intros f g H; [apply H|]. simpl. apply sum_ext. intros x _. f_equal. apply IH. intros v. apply H. Qed.
Lemma joint_lin bs : forall c d f g, joint bs (fun v => c * f v + d * g v) = c * joint bs f + d * joint bs g.
Proof.
  induction bs as [|b bs IH]; intros c d f g; [reflexivity|]. simpl. rewrite <- !sum_scal, <- sum_plus. apply sum_ext. intros x _. rewrite IH. ring.
Qed.
Lemma round_val bi bj bs f x y t : round (bi :: bj :: bs) f (x :: y :: t) =
  p_swap bi bj x y * round (bj :: bs) (fun w => f (y :: w)) (x :: t) + (1 - p_swap bi bj x y) * round (bj :: bs) (fun w => f (x :: w)) (y :: t).
Proof.
  rewrite p_swap_val. cbn [round]. apply is_RInt_unique.
  eapply is_RInt_ext; [|apply (threshold_integral (exp ((bj - bi) * (logl x - logl y)))); apply exp_pos].
  intros u _. unfold swap_next. destruct (Rle_dec u _); reflexivity.
Qed.
(** a whole round leaves the product of the tempered posteriors invariant, for any number
    of temperatures *)
Theorem C33_round_stationary bs : forall f, joint bs (round bs f) = joint bs f.
Proof.
  induction bs as [|bi bs IH]; intros f; [reflexivity|]. destruct bs as [|bj bs]; [reflexivity|].
  set (G := fun z w => joint bs (fun t => round (bj :: bs) (fun v => f (z :: v)) (w :: t))).
  transitivity (sum X (fun x => sum X (fun y => tempered bi x * tempered bj y * (p_swap bi bj x y * G y x + (1 - p_swap bi bj x y) * G x y)))).
  { cbn [joint]. apply sum_ext. intros x _. rewrite <- sum_scal. apply sum_ext. intros y _. rewrite Rmult_assoc. f_equal. f_equal. unfold G. rewrite <- joint_lin. apply joint_ext. intros t. apply round_val. }
  transitivity (sum X (fun x => sum X (fun y => tempered bi x * tempered bj y * G x y)) + sum X (fun x => sum X (fun y => tempered bi x * tempered bj y * p_swap bi bj x y * (G y x - G x y)))).
  { rewrite <- sum_plus. apply sum_ext. intros x _. rewrite <- sum_plus. apply sum_ext. intros y _. ring. }
  rewrite (sum_antisym X (fun x y => tempered bi x * tempered bj y * p_swap bi bj x y * (G y x - G x y))).
  2:{ intros x y _ _. rewrite (C33_swap_detailed_balance bi bj x y). ring. }
  rewrite Rplus_0_r. change (joint (bi :: bj :: bs) f) with (sum X (fun x => tempered bi x * joint (bj :: bs) (fun v => f (x :: v)))). apply sum_ext. intros x _. rewrite <- (IH (fun v => f (x :: v))). cbn [joint]. rewrite <- sum_scal. apply sum_ext. intros y _. unfold G. ring.
Qed.
End C33.
(** swapping towards the colder chain is always accepted when its sample is better *)
Example C33_ex : p_swap (fun b : bool => if b then ln 4 else 0) 1 (1/2) false true = 1 /\ p_swap (fun b : bool => if b then ln 4 else 0) 1 (1/2) true false = 1/2.
Proof.
  rewrite !p_swap_val. assert (L : 0 < ln 4) by (rewrite <- ln_1; apply ln_increasing; lra). split.
  - apply Rmin_left. rewrite <- exp_0 at 1. left. apply exp_increasing. lra.
  - replace ((1/2 - 1) * (ln 4 - 0)) with (- (ln 2)) by (replace 4 with (2*2) by lra; rewrite ln_mult by lra; field). rewrite exp_Ropp, exp_ln by lra. rewrite Rmin_right; lra.
Qed.
(** the stored samples produced by the model of swap_tempered_chains (Chain_Model) follow
    this rule *)
Theorem C33_matches_program (T : Type) (logl : T -> R) ci cj u : hist T ci <> [] -> hist T cj <> [] ->
  let '(ci', cj') := swap_pair T logl ci cj u in
  (last_sample T ci', last_sample T cj') = swap_next logl (Chain_Model.beta T ci) (Chain_Model.beta T cj) (last_sample T ci) (last_sample T cj) u.
Proof.
  intros Hi Hj. unfold swap_pair, swap_next, alpha_swap. destruct (Rle_dec _ _); [|reflexivity]. unfold last_sample, set_last.
  destruct (hist T ci); [congruence|]. destruct (hist T cj); [congruence|]. reflexivity.
Qed.

(** ** Assumptions of every theorem above *)
Definition Mcmc_Props_all :=
  (@C32_detailed_balance,
   @C32_stationary,
   @C32_stationary_steps,
   @C32_never_leaves_support,
   @C32_wrong_log_factor_refuted,
   @C33_swap_detailed_balance,
   @C33_round_stationary,
   @C33_matches_program).
Print Assumptions Mcmc_Props_all.
