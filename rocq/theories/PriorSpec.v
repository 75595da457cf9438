(** Specification of "a probability density with this distribution function"
    and generic lemmas to establish it. *)
From Coq Require Import Reals Lra Psatz.
From Coquelicot Require Import Coquelicot.
From Verif Require Import PyReal.
Open Scope R_scope.

(** [p] is a density on R and [F] its cumulative distribution function *)
Definition density_cdf (p F : R -> R) : Prop :=
  (forall x, 0 <= p x) /\
  (forall x y, is_RInt p x y (F y - F x)) /\
  is_lim F m_infty 0 /\ is_lim F p_infty 1.

(** drawing u uniformly on [0,1] and returning [q u] samples [p]: the mass
    [p] gives to the interval between [q u] and [q v] is [v - u] *)
Definition inverse_transform (p : R -> R) (q : R -> Rbar) (ok : R -> Prop) : Prop :=
  forall u v, ok u -> ok v -> u <= v ->
    exists x y, q u = Finite x /\ q v = Finite y /\ x <= y /\ is_RInt p x y (v - u).
Definition closed01 (u : R) := 0 <= u <= 1.
Definition open01 (u : R) := 0 < u < 1.

Lemma is_RInt_zero_ext (p : R -> R) a b : (forall x, Rmin a b < x < Rmax a b -> p x = 0) -> is_RInt p a b 0.
Proof.
  intros H. apply (is_RInt_ext (fun _ => 0)).
  - intros x Hx. symmetry. apply H; exact Hx.
  - pose proof (@is_RInt_const R_NormedModule a b 0) as Hc.
    unfold scal in Hc; simpl in Hc; unfold mult in Hc; simpl in Hc. rewrite Rmult_0_r in Hc. exact Hc.
Qed.
Lemma is_RInt_val (p : R -> R) a b (l l' : R) : is_RInt p a b l -> l = l' -> is_RInt p a b l'.
Proof. intros H <-. exact H. Qed.
Lemma is_RInt_chain (p : R -> R) a b c (l1 l2 : R) :
  is_RInt p a b l1 -> is_RInt p b c l2 -> is_RInt p a c (l1 + l2).
Proof. intros H1 H2. exact (is_RInt_Chasles p a b c l1 l2 H1 H2). Qed.
Lemma is_RInt_back (p : R -> R) a b (l : R) : is_RInt p a b l -> is_RInt p b a (- l).
Proof. intros H. exact (is_RInt_swap p b a l H). Qed.
(** if every integral from a base point is C, all integrals are differences *)
Lemma from_base (p C : R -> R) a : (forall x, is_RInt p a x (C x)) ->
  forall x y, is_RInt p x y (C y - C x).
Proof.
  intros H x y. eapply is_RInt_val.
  - eapply is_RInt_chain; [apply is_RInt_back, H|apply H].
  - ring.
Qed.

(** fundamental theorem on a closed interval, integrand given up to its end points *)
Lemma ftc_ext (p f F : R -> R) a b : a <= b ->
  (forall x, a <= x <= b -> is_derive F x (f x)) ->
  (forall x, a <= x <= b -> continuous f x) ->
  (forall x, a < x < b -> p x = f x) ->
  is_RInt p a b (F b - F a).
Proof.
  intros Hab HD HC He. apply (is_RInt_ext f).
  - intros x Hx. rewrite Rmin_left, Rmax_right in Hx by exact Hab. symmetry. apply He; exact Hx.
  - apply (is_RInt_derive F f); rewrite Rmin_left, Rmax_right by exact Hab; assumption.
Qed.

(** density supported on [mn, mx] *)
Lemma interval_density (p f F : R -> R) mn mx : mn <= mx ->
  (forall x, mn <= x <= mx -> is_derive F x (f x)) ->
  (forall x, mn <= x <= mx -> continuous f x) ->
  (forall x, mn < x < mx -> p x = f x) ->
  (forall x, x < mn \/ mx < x -> p x = 0) ->
  forall C : R -> R,
  (forall x, x <= mn -> C x = 0) -> (forall x, mn <= x <= mx -> C x = F x - F mn) ->
  (forall x, mx <= x -> C x = F mx - F mn) ->
  forall x y, is_RInt p x y (C y - C x).
Proof.
  intros Hm HD HC He H0 C C0 C1 C2. apply (from_base p C mn). intros x.
  destruct (Rle_dec x mn) as [L|L].
  - rewrite C0 by exact L. apply is_RInt_zero_ext. intros z Hz.
    rewrite Rmax_left in Hz by exact L. apply H0; left; lra.
  - assert (Hf : forall z, mn <= z <= mx -> is_RInt p mn z (F z - F mn)).
    { intros z Hz. apply (ftc_ext p f F); [lra| | |]; intros w Hw;
        [apply HD|apply HC|apply He]; lra. }
    destruct (Rle_dec x mx) as [M|M].
    + rewrite C1 by lra. apply Hf; lra.
    + rewrite C2 by lra. eapply is_RInt_val.
      * eapply is_RInt_chain; [apply (Hf mx); lra|].
        apply (is_RInt_zero_ext p mx x). intros z Hz. rewrite Rmin_left in Hz by lra. apply H0; right; lra.
      * ring.
Qed.
(** density supported on [mn, infinity) *)
Lemma halfline_density (p f F : R -> R) mn :
  (forall x, mn <= x -> is_derive F x (f x)) ->
  (forall x, mn <= x -> continuous f x) ->
  (forall x, mn < x -> p x = f x) ->
  (forall x, x < mn -> p x = 0) ->
  forall C : R -> R,
  (forall x, x <= mn -> C x = 0) -> (forall x, mn <= x -> C x = F x - F mn) ->
  forall x y, is_RInt p x y (C y - C x).
Proof.
  intros HD HC He H0 C C0 C1. apply (from_base p C mn). intros x.
  destruct (Rle_dec x mn) as [L|L].
  - rewrite C0 by exact L. apply is_RInt_zero_ext. intros z Hz.
    rewrite Rmax_left in Hz by exact L. apply H0; lra.
  - rewrite C1 by lra. apply (ftc_ext p f F); [lra| | |]; intros w Hw;
        [apply HD|apply HC|apply He]; lra.
Qed.
(** density on the whole line *)
Lemma line_density (p F : R -> R) :
  (forall x, is_derive F x (p x)) -> (forall x, continuous p x) ->
  forall x y, is_RInt p x y (F y - F x).
Proof. intros HD HC x y. apply (is_RInt_derive F p); intros z _; [apply HD|apply HC]. Qed.

Lemma lim_m_const (F : R -> R) a c : (forall x, x <= a -> F x = c) -> is_lim F m_infty c.
Proof.
  intros H. apply (is_lim_ext_loc (fun _ => c)); [|apply is_lim_const].
  exists a. intros x Hx. symmetry. apply H. lra.
Qed.
Lemma lim_p_const (F : R -> R) a c : (forall x, a <= x -> F x = c) -> is_lim F p_infty c.
Proof.
  intros H. apply (is_lim_ext_loc (fun _ => c)); [|apply is_lim_const].
  exists a. intros x Hx. symmetry. apply H. lra.
Qed.

(** a right inverse of the cdf that is monotone is an inverse transform *)
Lemma inverse_transform_intro (p F : R -> R) (q : R -> Rbar) (ok : R -> Prop) :
  (forall x y, is_RInt p x y (F y - F x)) ->
  (forall u, ok u -> exists x, q u = Finite x /\ F x = u) ->
  (forall u v x y, ok u -> ok v -> u <= v -> q u = Finite x -> q v = Finite y -> x <= y) ->
  inverse_transform p q ok.
Proof.
  intros HI HQ HM u v Hu Hv Huv.
  destruct (HQ u Hu) as (x & Ex & Fx). destruct (HQ v Hv) as (y & Ey & Fy).
  exists x, y. repeat split; [exact Ex|exact Ey|exact (HM u v x y Hu Hv Huv Ex Ey)|].
  rewrite <- Fx, <- Fy. apply HI.
Qed.
(** the integral over the whole support is one *)
Lemma total_mass (p F : R -> R) a b : density_cdf p F -> F a = 0 -> F b = 1 -> is_RInt p a b 1.
Proof. intros (_ & H & _) Ha Hb. eapply is_RInt_val; [apply H|lra]. Qed.
Lemma density_cdf_mono (p F : R -> R) : density_cdf p F -> forall x y, x <= y -> F x <= F y.
Proof.
  intros (Hp & HI & _) x y Hxy.
  assert (0 <= F y - F x); [|lra].
  apply (is_RInt_le (fun _ => 0) p x y); [exact Hxy| |apply HI|intros z _; apply Hp].
  apply is_RInt_zero_ext. reflexivity.
Qed.
Lemma density_cdf_range (p F : R -> R) : density_cdf p F -> forall x, 0 <= F x <= 1.
Proof.
  intros H. pose proof (density_cdf_mono p F H) as HM. destruct H as (_ & _ & H0 & H1). intros x. split.
  - assert (Rbar_le 0 (F x)); [|assumption].
    apply (is_lim_le_loc F (fun _ => F x) m_infty 0 (F x)); [|exact H0|apply is_lim_const].
    exists x. intros z Hz. apply HM; lra.
  - assert (Rbar_le (F x) 1); [|assumption].
    apply (is_lim_le_loc (fun _ => F x) F p_infty (F x) 1); [|apply is_lim_const|exact H1].
    exists x. intros z Hz. apply HM; lra.
Qed.

(** a prior with bounded support [mn, mx]: density, distribution function and
    quantile function belong together *)
Definition bounded_prior (p F : R -> R) (q : R -> Rbar) (mn mx : R) : Prop :=
  density_cdf p F /\
  (forall x, x < mn \/ mx < x -> p x = 0) /\
  (forall x, x <= mn -> F x = 0) /\ (forall x, mx <= x -> F x = 1) /\
  (forall u, 0 <= u <= 1 -> exists x, q u = Finite x /\ mn <= x <= mx /\ F x = u) /\
  q 0 = Finite mn /\ q 1 = Finite mx.

Lemma quantile_mono (p F : R -> R) : density_cdf p F ->
  forall u v x y, F x = u -> F y = v -> u < v -> x < y.
Proof.
  intros H u v x y Ex Ey L. destruct (Rlt_dec x y) as [|N]; [assumption|exfalso].
  pose proof (density_cdf_mono p F H y x ltac:(lra)). lra.
Qed.
Lemma inverse_transform_cdf (p F : R -> R) (q : R -> Rbar) (ok : R -> Prop) :
  density_cdf p F ->
  (forall u, ok u -> exists x, q u = Finite x /\ F x = u) ->
  inverse_transform p q ok.
Proof.
  intros HD HQ. apply (inverse_transform_intro p F q ok); [apply HD|exact HQ|].
  intros u v x y Hu Hv Huv Ex Ey. destruct (Req_dec u v) as [->|N].
  - rewrite Ex in Ey. injection Ey as <-. lra.
  - destruct (HQ u Hu) as (x' & Ex' & Fx). destruct (HQ v Hv) as (y' & Ey' & Fy).
    rewrite Ex in Ex'. rewrite Ey in Ey'. injection Ex' as <-. injection Ey' as <-.
    apply Rlt_le, (quantile_mono p F HD u v x y Fx Fy). lra.
Qed.
Lemma bounded_prior_intro (p F : R -> R) (q : R -> Rbar) mn mx : mn <= mx ->
  (forall x, 0 <= p x) -> (forall x y, is_RInt p x y (F y - F x)) ->
  (forall x, x < mn \/ mx < x -> p x = 0) ->
  (forall x, x <= mn -> F x = 0) -> (forall x, mx <= x -> F x = 1) ->
  (forall u, 0 < u < 1 -> exists x, q u = Finite x /\ F x = u) ->
  q 0 = Finite mn -> q 1 = Finite mx ->
  bounded_prior p F q mn mx.
Proof.
  intros Hm Hp HI Hz H0 H1 HQ Q0 Q1.
  assert (HD : density_cdf p F).
  { split; [exact Hp|]. split; [exact HI|]. split; [apply (lim_m_const F mn); exact H0|apply (lim_p_const F mx); exact H1]. }
  repeat (split; [assumption|]). split; [|split; assumption].
  intros u [L U]. destruct (Req_dec u 0) as [->|N0].
  { exists mn. rewrite H0 by lra. repeat split; [assumption|lra|lra]. }
  destruct (Req_dec u 1) as [->|N1].
  { exists mx. rewrite H1 by lra. repeat split; [assumption|lra|lra]. }
  destruct (HQ u) as (x & Ex & Fx); [lra|]. exists x. repeat split; try assumption.
  - destruct (Rle_dec mn x); [assumption|]. rewrite H0 in Fx; lra.
  - destruct (Rle_dec x mx); [assumption|]. rewrite H1 in Fx; lra.
Qed.
Lemma bounded_prior_inverse p F q mn mx : bounded_prior p F q mn mx -> inverse_transform p q closed01.
Proof.
  intros (HD & _ & _ & _ & HQ & _). apply (inverse_transform_cdf p F); [exact HD|].
  intros u Hu. destruct (HQ u Hu) as (x & Ex & _ & Fx). eauto.
Qed.
(** range, end points and strict monotonicity of the quantile function *)
Definition stays_in_support (q : R -> Rbar) (mn mx : R) : Prop :=
  (forall u, closed01 u -> exists x, q u = Finite x /\ mn <= x <= mx) /\
  q 0 = Finite mn /\ q 1 = Finite mx /\
  (forall u v x y, closed01 u -> closed01 v -> u < v -> q u = Finite x -> q v = Finite y -> x < y).
Lemma bounded_prior_range p F q mn mx : bounded_prior p F q mn mx -> stays_in_support q mn mx.
Proof.
  intros (HD & _ & _ & _ & HQ & Q0 & Q1). split; [|split; [exact Q0|split; [exact Q1|]]].
  - intros u Hu. destruct (HQ u Hu) as (x & Ex & Hx & _). eauto.
  - intros u v x y Hu Hv L Ex Ey.
    destruct (HQ u Hu) as (x' & Ex' & _ & Fx). destruct (HQ v Hv) as (y' & Ey' & _ & Fy).
    rewrite Ex in Ex'. rewrite Ey in Ey'. injection Ex' as <-. injection Ey' as <-.
    exact (quantile_mono p F HD u v x y Fx Fy L).
Qed.
(** cdf as the integral of prob, and left inverse of rescale *)
Definition cdf_correct (p F : R -> R) (q : R -> Rbar) (ok : R -> Prop) : Prop :=
  density_cdf p F /\ (forall x, 0 <= F x <= 1) /\
  (forall u, ok u -> exists x, q u = Finite x /\ F x = u).
Lemma bounded_prior_cdf p F q mn mx : bounded_prior p F q mn mx ->
  cdf_correct p F q closed01 /\ forall x, is_RInt p mn x (F x).
Proof.
  intros (HD & _ & H0 & _ & HQ & _). split.
  - split; [exact HD|]. split; [apply (density_cdf_range p F HD)|].
    intros u Hu. destruct (HQ u Hu) as (x & Ex & _ & Fx). eauto.
  - intros x. destruct HD as (_ & HI & _). eapply is_RInt_val; [apply HI|]. rewrite (H0 mn) by lra. ring.
Qed.
(** ln_prob against prob *)
Definition ln_prob_correct (p : R -> R) (lp : R -> Rbar) : Prop :=
  forall x, (0 < p x -> lp x = Finite (ln (p x))) /\ (p x = 0 -> lp x = m_infty).
Lemma cont_of_derive (f : R -> R) x : ex_derive f x -> continuous f x.
Proof. intros H. exact (@ex_derive_continuous R_AbsRing R_NormedModule f x H). Qed.
(** densities that are sums of two pieces *)
Lemma sum_density (p1 p2 C1 C2 p C : R -> R) :
  (forall x y, is_RInt p1 x y (C1 y - C1 x)) -> (forall x y, is_RInt p2 x y (C2 y - C2 x)) ->
  (forall x, p x = p1 x + p2 x) -> (forall x, C x = C1 x + C2 x) ->
  forall x y, is_RInt p x y (C y - C x).
Proof.
  intros H1 H2 Hp HC x y. apply (is_RInt_ext (fun z => p1 z + p2 z)).
  - intros z _. symmetry. apply Hp.
  - eapply is_RInt_val; [exact (is_RInt_plus p1 p2 x y _ _ (H1 x y) (H2 x y))|].
    unfold plus; simpl. rewrite !HC. ring.
Qed.
Lemma is_RInt_uniq (f : R -> R) a b (l l' : R) : is_RInt f a b l -> is_RInt f a b l' -> l = l'.
Proof.
  intros H H'. apply (@is_RInt_unique R_CompleteNormedModule) in H. apply (@is_RInt_unique R_CompleteNormedModule) in H'.
  rewrite <- H. exact H'.
Qed.
