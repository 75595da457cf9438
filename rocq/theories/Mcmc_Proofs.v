(** Lemmas for the Metropolis-Hastings and swap kernels *)
From Coq Require Import Reals List Lra Lia Psatz.
From Coquelicot Require Import Coquelicot.
From Verif Require Import PriorSpec Mcmc_Model.
Import ListNotations.
Open Scope R_scope.

(** sum of a function over a list of states *)
Definition sum {T} (X : list T) (f : T -> R) : R := fold_right (fun x s => f x + s) 0 X.
Lemma sum_ext {T} (X : list T) f g : (forall x, In x X -> f x = g x) -> sum X f = sum X g.
Proof. induction X as [|x X IH]; intros H; [reflexivity|]. simpl. rewrite (H x) by (left; reflexivity). rewrite IH; [reflexivity|]. intros y Hy. apply H. right. exact Hy. Qed.
Lemma sum_plus {T} (X : list T) f g : sum X (fun x => f x + g x) = sum X f + sum X g.
Proof. induction X as [|x X IH]; simpl; [lra|]. rewrite IH. lra. Qed.
Lemma sum_scal {T} (X : list T) c f : sum X (fun x => c * f x) = c * sum X f.
Proof. induction X as [|x X IH]; simpl; [lra|]. rewrite IH. lra. Qed.
Lemma sum_zero {T} (X : list T) : sum X (fun _ => 0) = 0.
Proof. induction X as [|x X IH]; simpl; lra. Qed.
Lemma sum_exch {T U} (X : list T) (Y : list U) f : sum X (fun x => sum Y (f x)) = sum Y (fun y => sum X (fun x => f x y)).
Proof.
  induction X as [|x X IH]; simpl; [symmetry; apply sum_zero|]. rewrite IH, <- sum_plus. reflexivity.
Qed.
(** antisymmetric summands cancel *)
Lemma sum_antisym {T} (X : list T) (h : T -> T -> R) : (forall x y, In x X -> In y X -> h x y = - h y x) -> sum X (fun x => sum X (h x)) = 0.
Proof.
  intros H. set (s := sum X (fun x => sum X (h x))).
  assert (E : s = - s).
  { unfold s at 1. rewrite sum_exch. unfold s. rewrite <- (Rmult_1_l (sum X _)) at 1. replace 1 with (- (-1)) by lra.
    rewrite Ropp_mult_distr_l_reverse. f_equal. rewrite <- sum_scal. apply sum_ext. intros x Hx. rewrite <- sum_scal. apply sum_ext. intros y Hy. rewrite (H y x Hy Hx). lra. }
  lra.
Qed.
(** a uniform draw is at most a with probability min(1,a) *)
Lemma threshold_integral (a A B : R) : 0 < a -> is_RInt (fun u => if Rle_dec u a then A else B) 0 1 (Rmin 1 a * A + (1 - Rmin 1 a) * B).
Proof.
  intros Ha. destruct (Rle_lt_dec 1 a) as [L|L].
  - rewrite Rmin_left by exact L. apply is_RInt_val with ((1 - 0) * A); [|lra].
    apply is_RInt_ext with (fun _ => A); [|apply (is_RInt_const 0 1 A)]. intros x. rewrite Rmin_left, Rmax_right by lra. intros Hx. destruct (Rle_dec x a); lra.
  - rewrite Rmin_right by lra. apply is_RInt_val with (a * A + (1 - a) * B); [|reflexivity]. apply (is_RInt_chain _ 0 a 1).
    + apply is_RInt_val with ((a - 0) * A); [|lra]. apply is_RInt_ext with (fun _ => A); [|apply (is_RInt_const 0 a A)]. intros x. rewrite Rmin_left, Rmax_right by lra. intros Hx. destruct (Rle_dec x a); lra.
    + apply is_RInt_ext with (fun _ => B); [|apply (is_RInt_const a 1 B)]. intros x. rewrite Rmin_left, Rmax_right by lra. intros Hx. destruct (Rle_dec x a); lra.
Qed.
Lemma flow_min p q : 0 < p -> 0 < q -> p * Rmin 1 (q / p) = Rmin p q.
Proof.
  intros Hp Hq. destruct (Rle_lt_dec p q) as [L|L].
  - rewrite (Rmin_left p q) by exact L. rewrite Rmin_left; [lra|]. apply Rmult_le_reg_r with p; [exact Hp|]. unfold Rdiv. rewrite Rmult_assoc, Rinv_l by lra. lra.
  - rewrite (Rmin_right p q) by lra. rewrite Rmin_right; [field; lra|]. apply Rmult_le_reg_r with p; [exact Hp|]. unfold Rdiv. rewrite Rmult_assoc, Rinv_l by lra. lra.
Qed.
