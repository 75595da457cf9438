(** C233: median and error bar of one parameter. *)
From Coq Require Import String Reals List Lra Lia Permutation.
From Verif Require Import PyReal PyDict Interp_Model Samples_Model Samples_Proofs Samples_Props Summ_Model.
Import ListNotations.
Open Scope R_scope.

Lemma percentile_ok l q : l <> [] -> 0 <= q <= 1 -> exists x, quantile l q = Some x /\ percentile l q = Ok x.
Proof.
  intros N [A B]. destruct (C40_quantile_monotone l q q N A (Rle_refl q) B) as (x & _ & E & _). exists x. split; [exact E|]. unfold percentile. destruct (Rlt_dec q 0); [lra|]. destruct (Rlt_dec 1 q); [lra|]. rewrite E. reflexivity.
Qed.
Lemma percentile_bad l q : ~ 0 <= q <= 1 -> percentile l q = Err ValueErr.
Proof. intros H. unfold percentile. destruct (Rlt_dec q 0); [reflexivity|]. destruct (Rlt_dec 1 q); [reflexivity|]. lra. Qed.
(** ** C233 The summary is the median and its distances to the two quantiles, and prints these; otherwise it raises *)
Theorem C233_value fmt post key l a b : dget post key = Some l -> l <> [] -> 0 <= a <= 1 -> 0 <= b <= 1 ->
  exists s m x y, get_summary fmt post key [a; b] = Ok s /\ median l = Some m /\ quantile l a = Some x /\ quantile l b = Some y /\
  median_ s = Num m /\ plus s = y - m /\ minus s = m - x /\ text s = ("${" ++ fmt m ++ "}_{-" ++ fmt (m - x) ++ "}^{+" ++ fmt (y - m) ++ "}$")%string /\
  (a <= 1 / 2 -> 0 <= minus s) /\ (1 / 2 <= a -> minus s <= 0) /\ (1 / 2 <= b -> 0 <= plus s) /\ (b <= 1 / 2 -> plus s <= 0).
Proof.
  intros D N Ha Hb. destruct (percentile_ok l a N Ha) as (x & Ex & Px). destruct (percentile_ok l b N Hb) as (y & Ey & Py). destruct (percentile_ok l (1 / 2) N ltac:(lra)) as (m & Em & Pm).
  assert (MO : forall p q u v, 0 <= p -> p <= q -> q <= 1 -> quantile l p = Some u -> quantile l q = Some v -> u <= v).
  { intros p q u v A B C U V. destruct (C40_quantile_monotone l p q N A B C) as (u' & v' & U' & V' & L). rewrite U in U'. rewrite V in V'. injection U' as <-. injection V' as <-. exact L. }
  eexists _, m, x, y. unfold get_summary. rewrite D, Px, Pm, Py. split; [reflexivity|]. rewrite C40_median_is_quantile by exact N. cbn [median_ plus minus text].
  repeat match goal with |- _ /\ _ => split end; try assumption; try reflexivity; intros H.
  - pose proof (MO a (1 / 2) x m ltac:(lra) H ltac:(lra) Ex Em). lra.
  - pose proof (MO (1 / 2) a m x ltac:(lra) H ltac:(lra) Em Ex). lra.
  - pose proof (MO (1 / 2) b m y ltac:(lra) H ltac:(lra) Em Ey). lra.
  - pose proof (MO b (1 / 2) y m ltac:(lra) H ltac:(lra) Ey Em). lra.
Qed.
Theorem C233_errors fmt post key : (forall q, length q <> 2%nat -> get_summary fmt post key q = Err ValueErr) /\ (forall a b, dget post key = None -> get_summary fmt post key [a; b] = Err KeyErr) /\
  (forall l a b, dget post key = Some l -> ~ 0 <= a <= 1 \/ ~ 0 <= b <= 1 -> get_summary fmt post key [a; b] = Err ValueErr) /\
  (forall a b, dget post key = Some [] -> 0 <= a <= 1 -> 0 <= b <= 1 -> get_summary fmt post key [a; b] = Err IndexErr).
Proof.
  unfold get_summary. split; [intros [|a [|b [|c q]]] H; try reflexivity; exfalso; apply H; reflexivity|]. split; [intros a b ->; reflexivity|]. split.
  - intros l a b -> H. destruct H as [H|H]; rewrite (percentile_bad _ _ H); [reflexivity|]. unfold percentile at 1. destruct (Rlt_dec a 0); [reflexivity|]. destruct (Rlt_dec 1 a); [reflexivity|]. destruct (quantile l a), (percentile l (1 / 2)) as [|[]]; reflexivity.
  - intros a b -> [A1 A2] [B1 B2]. unfold percentile. cbn [quantile]. destruct (Rlt_dec a 0); [lra|]. destruct (Rlt_dec 1 a); [lra|]. destruct (Rlt_dec b 0); [lra|]. destruct (Rlt_dec 1 b); [lra|]. destruct (Rlt_dec (1 / 2) 0); [lra|]. destruct (Rlt_dec 1 (1 / 2)); [lra|]. reflexivity.
Qed.
(** ** C233 The attributes lower and upper of the documentation never hold numbers *)
Theorem C233_lower_upper_refuted fmt post key q s : get_summary fmt post key q = Ok s -> lower s = Descriptor /\ upper s = Descriptor.
Proof.
  unfold get_summary. destruct q as [|a [|b [|c q]]]; try discriminate. destruct (dget post key) as [l|]; [|discriminate].
  destruct (percentile l a) as [x|[]]; destruct (percentile l (1 / 2)) as [m|[]]; destruct (percentile l b) as [y|[]]; try discriminate. intros H. injection H as <-. split; reflexivity.
Qed.
(** ** C233 The order of the samples does not matter *)
Lemma insert_comm x y l : insert x (insert y l) = insert y (insert x l).
Proof.
  induction l as [|z l IH]; cbn; [destruct (Rle_dec x y), (Rle_dec y x); try reflexivity; [assert (x = y) by lra; subst; reflexivity|lra]|].
  destruct (Rle_dec y z) as [A|A], (Rle_dec x z) as [B|B]; cbn; repeat match goal with |- context [Rle_dec ?a ?b] => destruct (Rle_dec a b); try lra end; try reflexivity; [assert (x = y) by lra; subst; reflexivity|rewrite IH; reflexivity].
Qed.
Lemma sort_permutation l l' : Permutation l l' -> sort l = sort l'.
Proof. unfold sort. induction 1; cbn; [reflexivity|f_equal; assumption|apply insert_comm|congruence]. Qed.
Lemma quantile_permutation l l' q : Permutation l l' -> quantile l q = quantile l' q.
Proof.
  intros H. pose proof (Permutation_length H) as L. destruct l as [|x [|x2 l]], l' as [|y [|y2 l']]; try discriminate; [reflexivity|apply Permutation_length_1 in H; subst; reflexivity|].
  cbn [quantile]. rewrite (sort_permutation _ _ H), L. reflexivity.
Qed.
Theorem C233_order fmt post post' key q l l' : dget post key = Some l -> dget post' key = Some l' -> Permutation l l' -> get_summary fmt post key q = get_summary fmt post' key q.
Proof. intros D D' H. unfold get_summary. destruct q as [|a [|b [|c q]]]; try reflexivity. rewrite D, D'. unfold percentile. rewrite !(quantile_permutation l l' _ H). reflexivity. Qed.
(** ** C233 Change of unit and origin: the median goes with it, the error bars with the unit *)
Lemma insert_map c d x l : 0 < c -> insert (c * x + d) (map (fun z => c * z + d) l) = map (fun z => c * z + d) (insert x l).
Proof. intros H. induction l as [|z l IH]; [reflexivity|]. cbn. destruct (Rle_dec x z) as [A|A], (Rle_dec (c * x + d) (c * z + d)) as [B|B]; try reflexivity; [exfalso; apply B; nra|exfalso; apply A; nra|rewrite IH; reflexivity]. Qed.
Lemma sort_map c d l : 0 < c -> sort (map (fun z => c * z + d) l) = map (fun z => c * z + d) (sort l).
Proof. intros H. unfold sort. induction l as [|x l IH]; [reflexivity|]. cbn. rewrite IH. apply insert_map, H. Qed.
Lemma interp_map c d : forall l x, interp_in (map (fun q => (fst q, c * snd q + d)) l) x = option_map (fun z => c * z + d) (interp_in l x).
Proof.
  induction l as [|[x0 y0] l IH]; intros x; [reflexivity|]. destruct l as [|[x1 y1] l]; [reflexivity|]. specialize (IH x). cbn [map fst snd interp_in] in *. destruct (Rle_dec x x1); [|exact IH]. destruct (Req_EM_T (x1 - x0) 0); [reflexivity|]. cbn. apply f_equal. field. exact n.
Qed.
Lemma combine_map_r {A} (f : R -> R) : forall (a : list A) b, combine a (map f b) = map (fun q => (fst q, f (snd q))) (combine a b).
Proof. induction a as [|x a IH]; intros [|y b]; try reflexivity. cbn. rewrite IH. reflexivity. Qed.
Lemma quantile_affine c d l q : 0 < c -> quantile (map (fun z => c * z + d) l) q = option_map (fun z => c * z + d) (quantile l q).
Proof.
  intros H. destruct l as [|x [|y l]]; [reflexivity|reflexivity|]. rewrite !quantile_shape by (cbn; lia). rewrite sort_map by exact H. unfold nodes. rewrite !map_length. rewrite combine_map_r. apply interp_map.
Qed.
Theorem C233_units fmt post post' key q l c d s : 0 < c -> dget post key = Some l -> dget post' key = Some (map (fun z => c * z + d) l) -> get_summary fmt post key q = Ok s ->
  exists s' m, get_summary fmt post' key q = Ok s' /\ median_ s = Num m /\ median_ s' = Num (c * m + d) /\ plus s' = c * plus s /\ minus s' = c * minus s.
Proof.
  intros H D D'. unfold get_summary. destruct q as [|a [|b [|e q]]]; try discriminate. rewrite D, D'.
  assert (P : forall t, percentile (map (fun z => c * z + d) l) t = match percentile l t with Ok x => Ok (c * x + d) | Err e => Err e end).
  { intros t. unfold percentile. rewrite quantile_affine by exact H. destruct (Rlt_dec t 0); [reflexivity|]. destruct (Rlt_dec 1 t); [reflexivity|]. destruct (quantile l t); reflexivity. }
  rewrite !P. destruct (percentile l a) as [x|[]]; destruct (percentile l (1 / 2)) as [m|[]]; destruct (percentile l b) as [y|[]]; try discriminate. intros E. injection E as <-. eexists _, m. split; [reflexivity|]. cbn. repeat split; ring.
Qed.
(** ** C233 Quantiles in the wrong order print bars of the wrong sign *)
Theorem C233_swapped_refuted fmt : exists s, get_summary fmt [("x"%string, [0; 1; 2; 3; 4])] "x" [3 / 4; 1 / 4] = Ok s /\ median_ s = Num 2 /\ plus s = -1 /\ minus s = -1.
Proof.
  unfold get_summary, percentile. cbn [dget String.eqb Ascii.eqb Bool.eqb].
  assert (Q : forall q, quantile [0; 1; 2; 3; 4] q = interp_in [(0, 0); (1, 1); (2, 2); (3, 3); (4, 4)] (4 * q)).
  { intros q. rewrite quantile_shape by (cbn; lia).
    assert (SO : sort [0; 1; 2; 3; 4] = [0; 1; 2; 3; 4]) by (unfold sort, insert; cbn [fold_right]; repeat match goal with |- context [Rle_dec ?a ?b] => destruct (Rle_dec a b); try lra end; reflexivity).
    rewrite SO. unfold nodes. cbn [length seq map combine Nat.sub]. replace (INR 0) with 0 by reflexivity. replace (INR 1) with 1 by reflexivity. replace (INR 2) with 2 by (cbn; lra). replace (INR 3) with 3 by (cbn; lra). replace (INR 4) with 4 by (cbn; lra). reflexivity. }
  assert (V1 : quantile [0; 1; 2; 3; 4] (3 / 4) = Some 3) by (rewrite Q; cbn; repeat match goal with |- context [Rle_dec ?a ?b] => destruct (Rle_dec a b); try lra | |- context [Req_EM_T ?a ?b] => destruct (Req_EM_T a b); try lra end; f_equal; field).
  assert (V2 : quantile [0; 1; 2; 3; 4] (1 / 2) = Some 2) by (rewrite Q; cbn; repeat match goal with |- context [Rle_dec ?a ?b] => destruct (Rle_dec a b); try lra | |- context [Req_EM_T ?a ?b] => destruct (Req_EM_T a b); try lra end; f_equal; field).
  assert (V3 : quantile [0; 1; 2; 3; 4] (1 / 4) = Some 1) by (rewrite Q; cbn; repeat match goal with |- context [Rle_dec ?a ?b] => destruct (Rle_dec a b); try lra | |- context [Req_EM_T ?a ?b] => destruct (Req_EM_T a b); try lra end; f_equal; field).
  rewrite V1, V2, V3. repeat match goal with |- context [Rlt_dec ?a ?b] => destruct (Rlt_dec a b); try lra end. eexists. split; [reflexivity|]. cbn. repeat split; lra.
Qed.

(** ** Assumptions of every theorem above *)
Definition Summ_Props_all :=
  (@C233_value,
   @C233_errors,
   @C233_lower_upper_refuted,
   @C233_order,
   @C233_units,
   @C233_swapped_refuted).
Print Assumptions Summ_Props_all.
