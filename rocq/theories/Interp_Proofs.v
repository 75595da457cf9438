From Coq Require Import Reals Lra Psatz List Bool Lia.
From Coquelicot Require Import Coquelicot.
From Verif Require Import PyReal PriorSpec Interp_Model.
Import ListNotations.
Open Scope R_scope.

(** strictly increasing abscissae *)
Fixpoint incr (l : list (R * R)) : Prop :=
  match l with (x0, _) :: (((x1, _) :: _) as t) => x0 < x1 /\ incr t | _ => True end.
(** non-decreasing ordinates *)
Fixpoint yincr (l : list (R * R)) : Prop :=
  match l with (_, y0) :: (((_, y1) :: _) as t) => y0 <= y1 /\ yincr t | _ => True end.
Fixpoint last_y (l : list (R * R)) (d : R) : R := match l with [] => d | (_, y) :: t => last_y t y end.
Lemma incr_last x0 y0 t : incr ((x0, y0) :: t) -> x0 <= last_x t x0.
Proof.
  revert x0 y0. induction t as [|[x1 y1] t IH]; intros x0 y0 H; simpl; [lra|]. destruct H as [H1 H2]. specialize (IH x1 y1 H2). lra.
Qed.
Lemma yincr_last x0 y0 t : yincr ((x0, y0) :: t) -> y0 <= last_y t y0.
Proof.
  revert x0 y0. induction t as [|[x1 y1] t IH]; intros x0 y0 H; simpl; [lra|]. destruct H as [H1 H2]. specialize (IH x1 y1 H2). lra.
Qed.
(** value of the interpolant as a total function, for use under the integral *)
Definition val (l : list (R * R)) (x : R) : R := match interp_in l x with Some y => y | None => 0 end.
Lemma interp_defined x0 y0 x1 y1 t x : incr ((x0, y0) :: (x1, y1) :: t) -> x <= last_x t x1 -> exists y, interp_in ((x0, y0) :: (x1, y1) :: t) x = Some y.
Proof.
  revert x0 y0 x1 y1. induction t as [|[x2 y2] t IH]; intros x0 y0 x1 y1 [H1 H2] Hx.
  - simpl in *. destruct (Rle_dec x x1); [|lra]. destruct (Req_EM_T (x1 - x0) 0); [lra|eauto].
  - cbn [interp_in]. destruct (Rle_dec x x1); [destruct (Req_EM_T (x1 - x0) 0); [lra|eauto]|]. apply IH; [exact H2|exact Hx].
Qed.
Lemma seg_val x0 y0 x1 y1 t x : x0 < x1 -> x <= x1 -> val ((x0, y0) :: (x1, y1) :: t) x = (y1 - y0) / (x1 - x0) * (x - x0) + y0.
Proof. intros H Hx. unfold val. cbn [interp_in]. destruct (Rle_dec x x1); [|lra]. destruct (Req_EM_T (x1 - x0) 0); [lra|reflexivity]. Qed.
Lemma tail_val x0 y0 x1 y1 t x : x1 < x -> val ((x0, y0) :: (x1, y1) :: t) x = val ((x1, y1) :: t) x.
Proof. intros Hx. unfold val. cbn [interp_in]. destruct (Rle_dec x x1); [lra|reflexivity]. Qed.
Lemma RInt_pt (p : R -> R) a : is_RInt p a a 0.
Proof. apply (is_RInt_point p a). Qed.
Lemma val_integral l x0 y0 : incr ((x0, y0) :: l) -> is_RInt (val ((x0, y0) :: l)) x0 (last_x l x0) (trapz ((x0, y0) :: l)).
Proof.
  revert x0 y0. induction l as [|[x1 y1] t IH]; intros x0 y0 H; simpl last_x.
  - simpl trapz. apply RInt_pt.
  - destruct H as [H1 H2]. change (trapz ((x0, y0) :: (x1, y1) :: t)) with ((x1 - x0) * (y1 + y0) / 2 + trapz ((x1, y1) :: t)).
    pose proof (incr_last _ _ _ H2) as HL. apply (is_RInt_chain _ x0 x1).
    + set (k := (y1 - y0) / (x1 - x0)). eapply is_RInt_val.
      * apply (ftc_ext _ (fun x => k * (x - x0) + y0) (fun x => k * (x - x0) ^ 2 / 2 + y0 * x)); [lra| | |].
        -- intros x _. auto_derive; [trivial|]. field.
        -- intros x _. apply (cont_of_derive (fun x => k * (x - x0) + y0)). auto_derive. trivial.
        -- intros x Hx. unfold k. apply seg_val; lra.
      * unfold k. field. lra.
    + destruct (Req_dec x1 (last_x t x1)) as [E|N].
      * rewrite <- E. destruct t as [|[x2 y2] t]; [simpl trapz; simpl last_x; apply RInt_pt|]. destruct H2 as [H2 H3]. pose proof (incr_last _ _ _ H3). simpl in E. lra.
      * apply (is_RInt_ext (val ((x1, y1) :: t))); [|apply IH, H2].
        intros x Hx. rewrite Rmin_left in Hx by lra. symmetry. apply tail_val. lra.
Qed.

Lemma val_scale l c x : c <> 0 -> interp_in (map (fun p => (fst p, snd p / c)) l) x = match interp_in l x with Some y => Some (y / c) | None => None end.
Proof.
  intros Hc. induction l as [|[x0 y0] [|[x1 y1] t] IH]; [reflexivity|reflexivity|]. cbn [map fst snd interp_in] in *.
  destruct (Rle_dec x x1).
  - destruct (Req_EM_T (x1 - x0) 0); [reflexivity|]. f_equal. field. split; assumption.
  - exact IH.
Qed.
Lemma trapz_scale l c : c <> 0 -> trapz (map (fun p => (fst p, snd p / c)) l) = trapz l / c.
Proof.
  intros Hc. induction l as [|[x0 y0] [|[x1 y1] t] IH]; [simpl; field; assumption|simpl; field; assumption|].
  cbn [map fst snd trapz] in *. rewrite IH. field. assumption.
Qed.
Lemma incr_map (l : list (R * R)) (g : R * R -> R) : incr l -> incr (map (fun p => (fst p, g p)) l).
Proof.
  induction l as [|[x0 y0] [|[x1 y1] t] IH]; [auto|auto|]. intros [H1 H2]. cbn [map fst]. split; [exact H1|]. apply IH in H2. exact H2.
Qed.
Lemma last_map (l : list (R * R)) (g : R * R -> R) d : last_x (map (fun p => (fst p, g p)) l) d = last_x l d.
Proof. revert d. induction l as [|[x0 y0] t IH]; intros d; simpl; [reflexivity|apply IH]. Qed.

(** cumulative nodes *)
Lemma cum_cons acc x0 y0 t : exists t', cumtrapz acc ((x0, y0) :: t) = (x0, acc) :: t'.
Proof. destruct t as [|[x1 y1] t]; simpl; eauto. Qed.
Lemma cum_incr acc l : incr l -> incr (cumtrapz acc l).
Proof.
  revert acc. induction l as [|[x0 y0] [|[x1 y1] t] IH]; intros acc H; [exact I|exact I|].
  destruct H as [H1 H2]. change (cumtrapz acc ((x0, y0) :: (x1, y1) :: t)) with ((x0, acc) :: cumtrapz (acc + (x1 - x0) * (y1 + y0) / 2) ((x1, y1) :: t)). specialize (IH (acc + (x1 - x0) * (y1 + y0) / 2) H2).
  destruct (cum_cons (acc + (x1 - x0) * (y1 + y0) / 2) x1 y1 t) as [t' E]. rewrite E in IH |- *. split; assumption.
Qed.
Lemma cum_lastx acc l d : last_x (cumtrapz acc l) d = last_x l d.
Proof.
  revert acc d. induction l as [|[x0 y0] [|[x1 y1] t] IH]; intros acc d; [reflexivity|reflexivity|].
  change (cumtrapz acc ((x0, y0) :: (x1, y1) :: t)) with ((x0, acc) :: cumtrapz (acc + (x1 - x0) * (y1 + y0) / 2) ((x1, y1) :: t)). cbn [last_x]. rewrite (IH (acc + (x1 - x0) * (y1 + y0) / 2) x0). reflexivity.
Qed.
Lemma cum_lasty acc l d : l <> [] -> last_y (cumtrapz acc l) d = acc + trapz l.
Proof.
  revert acc d. induction l as [|[x0 y0] [|[x1 y1] t] IH]; intros acc d N; [contradiction|simpl; ring|].
  change (cumtrapz acc ((x0, y0) :: (x1, y1) :: t)) with ((x0, acc) :: cumtrapz (acc + (x1 - x0) * (y1 + y0) / 2) ((x1, y1) :: t)).
  change (trapz ((x0, y0) :: (x1, y1) :: t)) with ((x1 - x0) * (y1 + y0) / 2 + trapz ((x1, y1) :: t)).
  cbn [last_y]. rewrite IH by discriminate. ring.
Qed.
Lemma cum_yincr acc l : incr l -> (forall p, In p l -> 0 <= snd p) -> yincr (cumtrapz acc l).
Proof.
  revert acc. induction l as [|[x0 y0] [|[x1 y1] t] IH]; intros acc H HP; [exact I|exact I|].
  destruct H as [H1 H2]. change (cumtrapz acc ((x0, y0) :: (x1, y1) :: t)) with ((x0, acc) :: cumtrapz (acc + (x1 - x0) * (y1 + y0) / 2) ((x1, y1) :: t)). specialize (IH (acc + (x1 - x0) * (y1 + y0) / 2) H2 (fun p Hp => HP p (or_intror Hp))).
  destruct (cum_cons (acc + (x1 - x0) * (y1 + y0) / 2) x1 y1 t) as [t' E]. rewrite E in IH |- *. split; [|assumption].
  pose proof (HP _ (or_introl eq_refl)) as P0. pose proof (HP _ (or_intror (or_introl eq_refl))) as P1. simpl in P0, P1. nra.
Qed.
(** the override YY[-1] = 1 changes nothing: the cumulative sum ends at 1 anyway *)
Lemma set_last_id l : l <> [] -> set_last l (last_y l 0) = l.
Proof.
  enough (G : forall d, l <> [] -> set_last l (last_y l d) = l) by (apply G).
  induction l as [|[x y] [|[x1 y1] t] IH]; intros d N; [contradiction|reflexivity|].
  change (last_y ((x, y) :: (x1, y1) :: t) d) with (last_y ((x1, y1) :: t) y). cbn [set_last]. f_equal. apply IH. discriminate.
Qed.
Lemma cumulative_eq l : l <> [] -> trapz l <> 0 -> cumulative l = cumtrapz 0 (normalise l).
Proof.
  intros N H. unfold cumulative. replace 1 with (last_y (cumtrapz 0 (normalise l)) 0).
  - apply set_last_id. destruct l as [|[x y] [|[x1 y1] t]]; [contradiction| |]; discriminate.
  - rewrite cum_lasty; [unfold normalise; rewrite trapz_scale by exact H; field; exact H|]. destruct l; [contradiction|discriminate].
Qed.
(** the cumulative value at each node is the exact integral of the density up to it *)
Lemma cum_integral l x0 y0 acc x c : incr ((x0, y0) :: l) -> In (x, c) (cumtrapz acc ((x0, y0) :: l)) ->
  is_RInt (val ((x0, y0) :: l)) x0 x (c - acc).
Proof.
  revert x0 y0 acc. induction l as [|[x1 y1] t IH]; intros x0 y0 acc H HI.
  - simpl in HI. destruct HI as [HI|[]]. injection HI as <- <-. eapply is_RInt_val; [apply RInt_pt|ring].
  - change (cumtrapz acc ((x0, y0) :: (x1, y1) :: t)) with ((x0, acc) :: cumtrapz (acc + (x1 - x0) * (y1 + y0) / 2) ((x1, y1) :: t)) in HI.
    destruct HI as [HI|HI]; [injection HI as <- <-; eapply is_RInt_val; [apply RInt_pt|ring]|].
    destruct H as [H1 H2]. specialize (IH x1 y1 _ H2 HI).
    assert (HX : x1 <= x).
    { pose proof (cum_incr (acc + (x1 - x0) * (y1 + y0) / 2) _ H2) as C. destruct (cum_cons (acc + (x1 - x0) * (y1 + y0) / 2) x1 y1 t) as [t' E].
      rewrite E in C, HI. clear - C HI. revert C HI. generalize (acc + (x1 - x0) * (y1 + y0) / 2). intros a C HI.
      destruct HI as [HI|HI]; [injection HI as <- <-; lra|]. left. revert x1 a C. induction t' as [|[x2 y2] t' IHt]; intros x1 a C; [destruct HI|].
      destruct C as [C1 C2]. destruct HI as [HI|HI]; [injection HI as <- <-; exact C1|]. specialize (IHt HI x2 y2 C2). lra. }
    replace (c - acc) with ((x1 - x0) * (y1 + y0) / 2 + (c - (acc + (x1 - x0) * (y1 + y0) / 2))) by ring.
    apply (is_RInt_chain _ x0 x1).
    + pose proof (val_integral [(x1, y1)] x0 y0 (conj H1 I)) as V. simpl in V. rewrite Rplus_0_r in V.
      apply (is_RInt_ext (val [(x0, y0); (x1, y1)])); [|exact V]. intros z Hz. rewrite Rmax_right in Hz by lra. rewrite !seg_val by lra. reflexivity.
    + apply (is_RInt_ext (val ((x1, y1) :: t))); [|exact IH]. intros z Hz. rewrite Rmin_left in Hz by lra. symmetry. apply tail_val. lra.
Qed.

(** inverse interpolation *)
Lemma interp_inverse l u x : incr l -> yincr l -> (match l with (_, y0) :: _ => y0 < u | [] => False end) ->
  interp_in (swap l) u = Some x -> interp_in l x = Some u /\ first_x l <= x <= last_x l 0.
Proof.
  induction l as [|[x0 y0] [|[x1 y1] t] IH]; intros HI HY HU H; [destruct HU|simpl in H; discriminate|].
  destruct HI as [H1 H2]. destruct HY as [Y1 Y2]. cbn [swap map fst snd interp_in] in H. cbn [interp_in first_x last_x].
  pose proof (incr_last _ _ _ H2) as HL. destruct (Rle_dec u y1) as [L|L].
  - destruct (Req_EM_T (y1 - y0) 0) as [E|E]; [discriminate|]. injection H as <-.
    assert (A : 0 < u - y0) by lra. assert (B : 0 < y1 - y0) by lra. set (w := (u - y0) / (y1 - y0)).
    assert (W : 0 < w <= 1). { unfold w. split; [apply Rdiv_lt_0_compat; lra|]. apply Rmult_le_reg_r with (y1 - y0); [exact B|]. unfold Rdiv. rewrite Rmult_assoc, Rinv_l by lra. lra. }
    replace ((x1 - x0) / (y1 - y0) * (u - y0) + x0) with (x0 + w * (x1 - x0)) by (unfold w; field; lra).
    destruct (Rle_dec (x0 + w * (x1 - x0)) x1) as [M|M]; [|exfalso; nra].
    destruct (Req_EM_T (x1 - x0) 0); [lra|]. split; [f_equal; unfold w; field; lra|]. split; nra.
  - apply Rnot_le_lt in L. destruct (IH H2 Y2 L H) as [A B]. cbn [first_x last_x] in B.
    assert (NX : x <> x1).
    { intros ->. destruct t as [|[x2 y2] t]; [simpl in A; discriminate|]. destruct H2 as [H2 _]. cbn [interp_in] in A.
      destruct (Rle_dec x1 x2); [|lra]. destruct (Req_EM_T (x2 - x1) 0); [lra|]. injection A as A. rewrite Rminus_eq_0, Rmult_0_r in A. lra. }
    destruct (Rle_dec x x1); [lra|]. split; [exact A|lra].
Qed.
Lemma interp_bound l x y : incr l -> yincr l -> interp_in l x = Some y -> first_x l <= x -> match l with (_, y0) :: t => y0 <= y | [] => False end.
Proof.
  induction l as [|[x0 y0] [|[x1 y1] t] IH]; intros HI HY H Hx; [discriminate|discriminate|].
  destruct HI as [H1 H2]. destruct HY as [Y1 Y2]. cbn [interp_in first_x] in *. destruct (Rle_dec x x1).
  - destruct (Req_EM_T (x1 - x0) 0); [discriminate|]. injection H as <-.
    assert (0 <= (y1 - y0) / (x1 - x0) * (x - x0)); [|lra]. apply Rmult_le_pos; [|lra]. apply Rdiv_le_0_compat; lra.
  - specialize (IH H2 Y2 H). cbn [first_x] in IH. specialize (IH ltac:(lra)). lra.
Qed.
Lemma interp_mono l x x' y y' : incr l -> yincr l -> first_x l <= x -> x <= x' -> interp_in l x = Some y -> interp_in l x' = Some y' -> y <= y'.
Proof.
  revert x x'. induction l as [|[x0 y0] [|[x1 y1] t] IH]; intros x x' HI HY Hx Hxx H H'; [discriminate|discriminate|].
  destruct HI as [H1 H2]. destruct HY as [Y1 Y2]. cbn [interp_in first_x] in *.
  assert (HS : 0 <= (y1 - y0) / (x1 - x0)) by (apply Rdiv_le_0_compat; lra).
  destruct (Rle_dec x x1) as [L|L].
  - destruct (Req_EM_T (x1 - x0) 0); [discriminate|]. injection H as <-. destruct (Rle_dec x' x1) as [L'|L'].
    + injection H' as <-. nra.
    + pose proof (interp_bound _ _ _ H2 Y2 H') as B. cbn [first_x] in B. specialize (B ltac:(lra)).
      assert ((y1 - y0) / (x1 - x0) * (x - x0) + y0 <= y1); [|lra].
      replace y1 with ((y1 - y0) / (x1 - x0) * (x1 - x0) + y0) at 2 by (field; lra). nra.
  - destruct (Rle_dec x' x1); [lra|]. apply (IH x x'); auto. simpl. lra.
Qed.
Lemma interp_swap_defined x0 y0 x1 y1 t u : yincr ((x0, y0) :: (x1, y1) :: t) -> y0 < u -> u <= last_y t y1 ->
  exists x, interp_in (swap ((x0, y0) :: (x1, y1) :: t)) u = Some x.
Proof.
  revert x0 y0 x1 y1. induction t as [|[x2 y2] t IH]; intros x0 y0 x1 y1 [H1 H2] H0 Hu; cbn [swap map fst snd interp_in].
  - simpl in Hu. destruct (Rle_dec u y1); [|lra]. destruct (Req_EM_T (y1 - y0) 0); [lra|eauto].
  - destruct (Rle_dec u y1); [destruct (Req_EM_T (y1 - y0) 0); [lra|eauto]|]. apply (IH x1 y1 x2 y2 H2); [lra|exact Hu].
Qed.
Lemma first_swap l : l <> [] -> first_x (swap l) = match l with (_, y) :: _ => y | [] => 0 end.
Proof. destruct l as [|[x y] t]; [contradiction|reflexivity]. Qed.
Lemma last_swap l d : last_x (swap l) d = last_y l d.
Proof. revert d. induction l as [|[x y] t IH]; intros d; simpl; [reflexivity|apply IH]. Qed.
(** interpolation reproduces the nodes *)
Lemma interp_node l x y : incr l -> In (x, y) l -> (2 <= length l)%nat -> interp_in l x = Some y.
Proof.
  induction l as [|[x0 y0] [|[x1 y1] t] IH]; intros HI Hin HL; [destruct Hin|simpl in HL; lia|].
  destruct HI as [H1 H2]. cbn [interp_in]. destruct Hin as [E|Hin].
  - injection E as <- <-. destruct (Rle_dec x0 x1); [|lra]. destruct (Req_EM_T (x1 - x0) 0); [lra|]. f_equal. rewrite Rminus_eq_0, Rmult_0_r. ring.
  - destruct Hin as [E|Hin].
    + injection E as <- <-. destruct (Rle_dec x1 x1); [|lra]. destruct (Req_EM_T (x1 - x0) 0); [lra|]. f_equal. field. lra.
    + assert (HX : x1 < x).
      { clear - H2 Hin. revert x1 y1 H2. induction t as [|[x2 y2] t IHt]; intros x1 y1 H2; [destruct Hin|]. destruct H2 as [A B].
        destruct Hin as [E|Hin]; [injection E as <- <-; exact A|]. specialize (IHt Hin x2 y2 B). lra. }
      destruct (Rle_dec x x1); [lra|]. apply IH; [exact H2|right; exact Hin|]. destruct t; [destruct Hin|simpl; lia].
Qed.

(** segment in the middle of a table *)
Lemma incr_app_tail a b : incr (a ++ b) -> incr b.
Proof.
  induction a as [|[z w] a IH]; [auto|]. simpl app. intros H. apply IH. destruct (a ++ b) as [|[z1 w1] c] eqn:E; [exact I|]. exact (proj2 H).
Qed.
Lemma incr_app_lt z w a x y b : incr ((z, w) :: a ++ (x, y) :: b) -> z < x.
Proof.
  revert z w. induction a as [|[z1 w1] a IH]; intros z w H; [exact (proj1 H)|]. destruct H as [H1 H2]. specialize (IH z1 w1 H2). lra.
Qed.
Lemma interp_app a x0 y0 x1 y1 b x : incr (a ++ (x0, y0) :: (x1, y1) :: b) -> x0 < x ->
  interp_in (a ++ (x0, y0) :: (x1, y1) :: b) x = interp_in ((x0, y0) :: (x1, y1) :: b) x.
Proof.
  induction a as [|[z w] a IH]; intros H Hx; [reflexivity|]. simpl app in *.
  assert (HT : incr (a ++ (x0, y0) :: (x1, y1) :: b)) by (destruct (a ++ (x0, y0) :: (x1, y1) :: b) as [|[z1 w1] c]; [exact I|exact (proj2 H)]).
  rewrite <- (IH HT Hx). destruct a as [|[z1 w1] a]; simpl app.
  - cbn [interp_in]. destruct (Rle_dec x x0); [lra|reflexivity].
  - pose proof (incr_app_lt z1 w1 a x0 y0 _ HT). cbn [interp_in app]. destruct (Rle_dec x z1); [lra|reflexivity].
Qed.
Lemma cum_app a x0 y0 x1 y1 b r : exists pre c0 post,
  cumtrapz r (a ++ (x0, y0) :: (x1, y1) :: b) = pre ++ (x0, c0) :: (x1, c0 + (x1 - x0) * (y1 + y0) / 2) :: post.
Proof.
  revert r. induction a as [|[z w] a IH]; intros r.
  - change (cumtrapz r ([] ++ (x0, y0) :: (x1, y1) :: b)) with ((x0, r) :: cumtrapz (r + (x1 - x0) * (y1 + y0) / 2) ((x1, y1) :: b)).
    destruct (cum_cons (r + (x1 - x0) * (y1 + y0) / 2) x1 y1 b) as [t' E]. rewrite E. exists [], r, t'. reflexivity.
  - simpl app. destruct (a ++ (x0, y0) :: (x1, y1) :: b) as [|[z1 w1] c] eqn:E; [destruct a; discriminate|].
    change (cumtrapz r ((z, w) :: (z1, w1) :: c)) with ((z, r) :: cumtrapz (r + (z1 - z) * (w1 + w) / 2) ((z1, w1) :: c)).
    destruct (IH (r + (z1 - z) * (w1 + w) / 2)) as (pre & c0 & post & E'). rewrite E'. exists ((z, r) :: pre), c0, post. reflexivity.
Qed.
(** resampling on an evenly spaced grid *)
Lemma mapo_spec {A B} (f : A -> option B) (l : list A) r : mapo f l = Some r -> Forall2 (fun a b => f a = Some b) l r.
Proof.
  revert r. induction l as [|a l IH]; simpl; intros r H; [injection H as <-; constructor|].
  destruct (f a) as [b|] eqn:E; [|discriminate]. destruct (mapo f l) as [rs|]; [|discriminate]. injection H as <-. constructor; auto.
Qed.
Lemma mapo_total {A B} (f : A -> option B) (l : list A) : (forall a, In a l -> exists b, f a = Some b) -> exists r, mapo f l = Some r.
Proof.
  induction l as [|a l IH]; intros H; simpl; [eauto|]. destruct (H a (or_introl eq_refl)) as [b E]. rewrite E.
  destruct IH as [r Er]; [intros; apply H; right; assumption|]. rewrite Er. eauto.
Qed.
