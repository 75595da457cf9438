(** Lemmas for evidence estimators *)
From Coq Require Import Reals List Lra Lia Psatz.
From Verif Require Import Interp_Model Samples_Model Evidence_Model.
Import ListNotations.
Open Scope R_scope.
Lemma lenpos {A} (l : list A) : l <> [] -> 0 < INR (length l).
Proof. intros H. apply lt_0_INR. destruct l; [congruence|simpl; lia]. Qed.
Lemma sumexp_pos l : l <> [] -> 0 < Rsum (map exp l).
Proof.
  destruct l as [|x l]; [congruence|]. intros _. revert x. induction l as [|y l IH]; intros x; simpl; pose proof (exp_pos x); [lra|]. specialize (IH y). simpl in IH. lra.
Qed.
Lemma Rsum_map_scal {A} (c : R) (f : A -> R) l : Rsum (map (fun x => c * f x) l) = c * Rsum (map f l).
Proof. induction l as [|x l IH]; simpl; [lra|]. rewrite IH. lra. Qed.
Lemma Rsum_map_le {A} (f g : A -> R) l : (forall x, In x l -> f x <= g x) -> Rsum (map f l) <= Rsum (map g l).
Proof.
  induction l as [|x l IH]; intros H; simpl; [lra|]. assert (f x <= g x) by (apply H; left; reflexivity). assert (Rsum (map f l) <= Rsum (map g l)) by (apply IH; intros y Hy; apply H; right; exact Hy). lra.
Qed.
Lemma Rsum_map_const {A} (c : R) (l : list A) : Rsum (map (fun _ => c) l) = INR (length l) * c.
Proof. induction l as [|x l IH]; [simpl; lra|]. change (Rsum (map (fun _ : A => c) (x :: l))) with (c + Rsum (map (fun _ => c) l)). rewrite IH. change (length (x :: l)) with (S (length l)). rewrite S_INR. lra. Qed.
Lemma Rsum_map_plus {A} (f g : A -> R) l : Rsum (map (fun x => f x + g x) l) = Rsum (map f l) + Rsum (map g l).
Proof. induction l as [|x l IH]; simpl; [lra|]. rewrite IH. lra. Qed.
Lemma ln_mean_exp_eq l : l <> [] -> ln_mean_exp l = ln (avg (map exp l)).
Proof.
  intros H. unfold ln_mean_exp, avg. rewrite map_length. unfold Rdiv. rewrite ln_mult, ln_Rinv; [lra|apply lenpos; exact H|apply sumexp_pos; exact H|apply Rinv_0_lt_compat, lenpos; exact H].
Qed.
Lemma ln_le x y : 0 < x -> x <= y -> ln x <= ln y.
Proof. intros Hx [H|H]; [left; apply ln_increasing; assumption|rewrite H; lra]. Qed.
(** Jensen *)
Lemma mean_le_lme l : l <> [] -> avg l <= ln_mean_exp l.
Proof.
  intros H. pose proof (lenpos l H) as Hn. rewrite ln_mean_exp_eq by exact H. set (m := avg l).
  rewrite <- (ln_exp m). apply ln_le; [apply exp_pos|].
  assert (T : forall x, exp m * (1 + (x - m)) <= exp x).
  { intros x. replace (exp x) with (exp m * exp (x - m)) by (rewrite <- exp_plus; f_equal; ring). apply Rmult_le_compat_l; [left; apply exp_pos|]. destruct (Req_dec (x - m) 0) as [->|N]; [rewrite exp_0; lra|]. left. apply exp_ineq1. exact N. }
  assert (S : INR (length l) * exp m <= Rsum (map exp l)).
  { eapply Rle_trans; [|apply (Rsum_map_le (fun x => exp m * (1 + (x - m)))); intros x _; apply T].
    rewrite Rsum_map_scal. rewrite (Rsum_map_plus (fun _ => 1) (fun x => x - m)). rewrite Rsum_map_const.
    unfold Rminus. rewrite (Rsum_map_plus (fun x => x) (fun _ => - m)), map_id, Rsum_map_const. replace (INR (length l) * - m) with (- Rsum l) by (unfold m, avg; field; lra). right. ring. }
  unfold avg. rewrite map_length. apply Rmult_le_reg_l with (INR (length l)); [exact Hn|]. replace (INR (length l) * (Rsum (map exp l) / INR (length l))) with (Rsum (map exp l)) by (field; lra). exact S.
Qed.
Lemma lme_bounds l lo hi : l <> [] -> (forall x, In x l -> lo <= x <= hi) -> lo <= ln_mean_exp l <= hi.
Proof.
  intros H B. pose proof (lenpos l H) as Hn. rewrite ln_mean_exp_eq by exact H. unfold avg. rewrite map_length.
  assert (L : INR (length l) * exp lo <= Rsum (map exp l)).
  { rewrite <- (Rsum_map_const (exp lo) l). apply Rsum_map_le. intros x Hx. destruct (B x Hx) as [[A|A] _]; [left; apply exp_increasing; exact A|rewrite A; lra]. }
  assert (U : Rsum (map exp l) <= INR (length l) * exp hi).
  { rewrite <- (Rsum_map_const (exp hi) l). apply Rsum_map_le. intros x Hx. destruct (B x Hx) as [_ [A|A]]; [left; apply exp_increasing; exact A|rewrite A; lra]. }
  assert (E1 : exp lo <= Rsum (map exp l) / INR (length l)) by (apply Rmult_le_reg_l with (INR (length l)); [exact Hn|]; replace (INR (length l) * (Rsum (map exp l) / INR (length l))) with (Rsum (map exp l)) by (field; lra); exact L).
  assert (E2 : Rsum (map exp l) / INR (length l) <= exp hi) by (apply Rmult_le_reg_l with (INR (length l)); [exact Hn|]; replace (INR (length l) * (Rsum (map exp l) / INR (length l))) with (Rsum (map exp l)) by (field; lra); exact U).
  pose proof (exp_pos lo). split; [rewrite <- (ln_exp lo)|rewrite <- (ln_exp hi)]; apply ln_le; lra.
Qed.
Lemma lme_shift c l : l <> [] -> ln_mean_exp (map (fun x => x + c) l) = ln_mean_exp l + c.
Proof.
  intros H. unfold ln_mean_exp. rewrite map_length, map_map. rewrite (map_ext _ (fun x => exp c * exp x)) by (intros x; rewrite Rplus_comm; apply exp_plus).
  rewrite Rsum_map_scal, ln_mult, ln_exp; [lra|apply exp_pos|apply sumexp_pos; exact H].
Qed.
Lemma avg_bounds l lo hi : l <> [] -> (forall x, In x l -> lo <= x <= hi) -> lo <= avg l <= hi.
Proof.
  intros H B. pose proof (lenpos l H) as Hn. unfold avg.
  assert (L : INR (length l) * lo <= Rsum (map (fun x => x) l)) by (rewrite <- (Rsum_map_const lo l); apply Rsum_map_le; intros x Hx; apply (B x Hx)).
  assert (U : Rsum (map (fun x => x) l) <= INR (length l) * hi) by (rewrite <- (Rsum_map_const hi l); apply Rsum_map_le; intros x Hx; apply (B x Hx)).
  rewrite map_id in L, U.
  split; apply Rmult_le_reg_l with (INR (length l)); try exact Hn; replace (INR (length l) * (Rsum l / INR (length l))) with (Rsum l) by (field; lra); assumption.
Qed.
