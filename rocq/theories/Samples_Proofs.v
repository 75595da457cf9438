From Coq Require Import Reals Lra Psatz List Bool Lia Permutation.
From Coquelicot Require Import Coquelicot.
From Verif Require Import PyReal PriorSpec Interp_Model Interp_Proofs Samples_Model.
Import ListNotations.
Open Scope R_scope.

(** reflect: every real is 2k + y with y in [0,2) *)
Lemma mod2_cases u : exists k y, u = y + 2 * IZR k /\ 0 <= y < 2 /\ rmod u 2 = y.
Proof.
  destruct (rmod_congr u 2) as [k Hk]. exists k, (rmod u 2). split; [lra|]. split; [apply rmod_range; lra|reflexivity].
Qed.
Lemma reflect_val k y : 0 <= y < 2 -> reflect (y + 2 * IZR k) = if Rlt_dec y 1 then y else 2 - y.
Proof.
  intros Hy. unfold reflect. rewrite (rmod_unique (y + 2 * IZR k) 2 y k) by lra. destruct (Rlt_dec y 1).
  - apply (rmod_unique _ 1 y (2 * k)); [lra|lra|rewrite mult_IZR; ring].
  - rewrite (rmod_unique (y + 2 * IZR k) 1 (y - 1) (2 * k + 1)); [lra|lra|lra|rewrite plus_IZR, mult_IZR; ring].
Qed.

(** sums *)
Lemma Rsum_app a b : Rsum (a ++ b) = Rsum a + Rsum b.
Proof. induction a; simpl; [ring|rewrite IHa; ring]. Qed.
Lemma Rsum_nonneg l : (forall x, In x l -> 0 <= x) -> 0 <= Rsum l.
Proof. induction l; simpl; intros H; [lra|]. pose proof (H a (or_introl eq_refl)). specialize (IHl (fun x h => H x (or_intror h))). lra. Qed.
Lemma Rsum_perm a b : Permutation a b -> Rsum a = Rsum b.
Proof. induction 1; simpl; lra. Qed.
Lemma Rsum_scale c l : Rsum (map (Rmult c) l) = c * Rsum l.
Proof. induction l; simpl; [ring|rewrite IHl; ring]. Qed.
Definition sq (x : R) := x * x.
Lemma sum_sq_le l : (forall x, In x l -> 0 <= x) -> Rsum (map sq l) <= Rsum l * Rsum l.
Proof.
  induction l; simpl; intros H; [lra|]. pose proof (H a (or_introl eq_refl)). specialize (IHl (fun x h => H x (or_intror h))).
  pose proof (Rsum_nonneg l (fun x h => H x (or_intror h))). unfold sq at 1. nra.
Qed.
(** sum over pairs of squared differences, Lagrange's identity *)
Definition dev (a : R) (l : list R) := Rsum (map (fun x => sq (x - a)) l).
Lemma dev_expand a l : dev a l = Rsum (map sq l) - 2 * a * Rsum l + INR (length l) * (a * a).
Proof. induction l; [unfold dev; simpl; ring|]. unfold dev in *. cbn [map Rsum fold_right length]. fold (Rsum (map (fun x => sq (x - a)) l)). rewrite IHl, S_INR. fold (Rsum (map sq l)) (Rsum l). unfold sq. ring. Qed.
Fixpoint pairs_dev (l : list R) : R := match l with [] => 0 | a :: t => dev a t + pairs_dev t end.
Lemma dev_nonneg a l : 0 <= dev a l.
Proof. apply Rsum_nonneg. intros x Hx. apply in_map_iff in Hx. destruct Hx as (y & <- & _). unfold sq. apply Rle_0_sqr. Qed.
Lemma pairs_nonneg l : 0 <= pairs_dev l.
Proof. induction l; simpl; [lra|]. pose proof (dev_nonneg a l). lra. Qed.
Lemma lagrange l : INR (length l) * Rsum (map sq l) = Rsum l * Rsum l + pairs_dev l.
Proof.
  induction l; [simpl; ring|]. cbn [length map Rsum fold_right pairs_dev]. fold (Rsum (map sq l)) (Rsum l). rewrite S_INR, dev_expand. unfold sq at 1. nra.
Qed.
Lemma dev_zero a l : dev a l = 0 -> forall x, In x l -> x = a.
Proof.
  unfold dev. induction l as [|b l IH]; [intros _ x []|]. cbn [map Rsum fold_right]. fold (Rsum (map (fun x => sq (x - a)) l)). intros H x Hx. pose proof (dev_nonneg a l). unfold dev in *.
  assert (sq (b - a) = 0 /\ Rsum (map (fun x => sq (x - a)) l) = 0) as [A B] by (pose proof (Rle_0_sqr (b - a)) as Q; unfold Rsqr in Q; unfold sq in *; split; lra).
  destruct Hx as [<-|Hx]; [unfold sq in A; apply Rmult_integral in A; lra|apply IH; assumption].
Qed.
Lemma wexp_double w : wexp (double w) = sq (wexp w).
Proof. destruct w as [x|]; simpl; unfold sq; [rewrite <- exp_plus; f_equal; ring|ring]. Qed.
Lemma map_double l : map wexp (map double l) = map sq (map wexp l).
Proof. rewrite !map_map. apply map_ext, wexp_double. Qed.
Lemma wexp_nonneg l x : In x (map wexp l) -> 0 <= x.
Proof. rewrite in_map_iff. intros ([y|] & <- & _); simpl; [left; apply exp_pos|lra]. Qed.
Lemma sum_pos l : (exists x, In (Some x) l) -> 0 < Rsum (map wexp l).
Proof.
  intros [x Hx]. induction l as [|w l IH]; [destruct Hx|]. cbn [map Rsum fold_right]. fold (Rsum (map wexp l)).
  pose proof (Rsum_nonneg (map wexp l) (wexp_nonneg l)). destruct Hx as [->|Hx]; [simpl; pose proof (exp_pos x); lra|]. specialize (IH Hx). pose proof (wexp_nonneg (w :: l) (wexp w) (or_introl eq_refl)). lra.
Qed.
Lemma has_double l : (exists x, In (Some x) l) -> exists x, In (Some x) (map double l).
Proof. intros [x Hx]. exists (2 * x). apply in_map_iff. exists (Some x). auto. Qed.
Lemma kish_eq l : (exists x, In (Some x) l) ->
  kish_log_effective_sample_size l = Some (ln (Rsum (map wexp l) * Rsum (map wexp l) / Rsum (map sq (map wexp l)))) /\ 0 < Rsum (map wexp l) /\ 0 < Rsum (map sq (map wexp l)).
Proof.
  intros H. pose proof (sum_pos l H) as P1. pose proof (sum_pos _ (has_double l H)) as P2. rewrite map_double in P2. split; [|split; assumption].
  unfold kish_log_effective_sample_size, logsumexp. rewrite map_double. destruct (Rlt_dec 0 (Rsum (map wexp l))); [|contradiction]. destruct (Rlt_dec 0 (Rsum (map sq (map wexp l)))); [|contradiction].
  f_equal. rewrite ln_div; [|nra|assumption]. rewrite ln_mult by assumption. ring.
Qed.

(** sorting *)
Lemma insert_perm x l : Permutation (insert x l) (x :: l).
Proof. induction l as [|y t IH]; simpl; [auto|]. destruct (Rle_dec x y); [auto|]. rewrite IH. apply perm_swap. Qed.
Lemma sort_perm l : Permutation (sort l) l.
Proof. induction l; simpl; [auto|]. rewrite insert_perm. auto. Qed.
Fixpoint asc (l : list R) : Prop := match l with x :: ((y :: _) as t) => x <= y /\ asc t | _ => True end.
Lemma insert_asc x l : asc l -> asc (insert x l).
Proof.
  induction l as [|y t IH]; intros H; simpl; [exact I|]. destruct (Rle_dec x y) as [L|L]; [split; assumption|].
  assert (Ht : asc t) by (destruct t; [exact I|exact (proj2 H)]). specialize (IH Ht). destruct t as [|z t]; simpl in *; [lra|].
  destruct (Rle_dec x z); simpl in *; [split; [lra|exact IH]|split; [exact (proj1 H)|exact IH]].
Qed.
Lemma sort_asc l : asc (sort l).
Proof. induction l; simpl; [exact I|apply insert_asc; assumption]. Qed.
Lemma nodes_gen k s : asc s -> incr (combine (map INR (seq k (length s))) s) /\ yincr (combine (map INR (seq k (length s))) s).
Proof.
  revert k. induction s as [|x [|y t] IH]; intros k H; [split; exact I|split; exact I|]. destruct H as [H1 H2]. destruct (IH (S k) H2) as [A B].
  cbn [length seq map combine] in A, B |- *. split; split; try assumption. change (INR k < INR (S k)). rewrite S_INR. lra.
Qed.
Lemma nodes_last k s d : s <> [] -> last_x (combine (map INR (seq k (length s))) s) d = INR (k + length s - 1).
Proof.
  revert k d. induction s as [|x [|y t] IH]; intros k d N; [contradiction|simpl; f_equal; lia|].
  cbn [length seq map combine]. change (last_x ((INR k, x) :: (INR (S k), y) :: combine (map INR (seq (S (S k)) (length t))) t) d) with
    (last_x (combine (map INR (seq (S k) (length (y :: t)))) (y :: t)) (INR k)). rewrite IH by discriminate. f_equal. simpl. lia.
Qed.
Lemma nodes_in k s i : (i < length s)%nat -> In (INR (k + i), nth i s 0) (combine (map INR (seq k (length s))) s).
Proof.
  revert k i. induction s as [|x s IH]; intros k i H; [simpl in H; lia|]. cbn [length seq map combine]. destruct i as [|i].
  - left. rewrite Nat.add_0_r. reflexivity.
  - right. replace (k + S i)%nat with (S k + i)%nat by lia. apply IH. simpl in H. lia.
Qed.
Lemma combine_len k (s : list R) : length (combine (map INR (seq k (length s))) s) = length s.
Proof. rewrite combine_length, map_length, seq_length. lia. Qed.
(** interpolation between neighbouring nodes i and i+1 *)
Lemma nodes_mid k s i w : asc s -> (S i < length s)%nat -> 0 < w <= 1 ->
  interp_in (combine (map INR (seq k (length s))) s) (INR (k + i) + w) = Some (nth i s 0 + w * (nth (S i) s 0 - nth i s 0)).
Proof.
  revert k i. induction s as [|x [|y t] IH]; intros k i HA H Hw; [simpl in H; lia|simpl in H; lia|].
  cbn [length seq map combine]. destruct i as [|i].
  - cbn [interp_in nth]. rewrite Nat.add_0_r. change (match k with O => 1 | S _ => INR k + 1 end) with (INR (S k)). rewrite S_INR.
    destruct (Rle_dec (INR k + w) (INR k + 1)); [|lra]. destruct (Req_EM_T (INR k + 1 - INR k) 0); [lra|]. f_equal. field. assumption.
  - change (interp_in ((INR k, x) :: (INR (S k), y) :: combine (map INR (seq (S (S k)) (length t))) t) (INR (k + S i) + w)) with
      (if Rle_dec (INR (k + S i) + w) (INR (S k)) then (if Req_EM_T (INR (S k) - INR k) 0 then None else Some ((y - x) / (INR (S k) - INR k) * (INR (k + S i) + w - INR k) + x))
       else interp_in (combine (map INR (seq (S k) (length (y :: t)))) (y :: t)) (INR (k + S i) + w)).
    replace (k + S i)%nat with (S k + i)%nat by lia. assert (INR (S k) <= INR (S k + i)) by (apply le_INR; lia). destruct (Rle_dec (INR (S k + i) + w) (INR (S k))); [lra|].
    rewrite (IH (S k) i (proj2 HA)); [reflexivity| |exact Hw]. simpl in H |- *. lia.
Qed.

(** coordinates *)
Lemma at_length f idx u : length (at_indices f idx u) = length u.
Proof. unfold at_indices. rewrite map_length, combine_length, seq_length. lia. Qed.
Lemma at_nth f idx u i d : (i < length u)%nat -> nth i (at_indices f idx u) d = if existsb (Nat.eqb i) idx then f (nth i u d) else nth i u d.
Proof.
  unfold at_indices. enough (G : forall i k, (i < length u)%nat -> nth i (map (fun iu => if existsb (Nat.eqb (fst iu)) idx then f (snd iu) else snd iu) (combine (seq k (length u)) u)) d =
     if existsb (Nat.eqb (k + i)) idx then f (nth i u d) else nth i u d) by (intros H; rewrite (G i O H); reflexivity).
  clear i. induction u as [|x u IH]; intros i k H; [simpl in H; lia|]. cbn [length seq combine map]. destruct i as [|i]; cbn [nth fst snd].
  - rewrite Nat.add_0_r. reflexivity.
  - rewrite IH by (simpl in H; lia). replace (S k + i)%nat with (k + S i)%nat by lia. reflexivity.
Qed.
Lemma fold_min l d m : m <= fold_right Rmin d l <-> m <= d /\ forall x, In x l -> m <= x.
Proof.
  induction l as [|a l IH]; simpl; [intuition|]. split.
  - intros H. pose proof (Rmin_l a (fold_right Rmin d l)). pose proof (Rmin_r a (fold_right Rmin d l)). assert (H2 : m <= fold_right Rmin d l) by lra. apply IH in H2. destruct H2. split; [assumption|]. intros x [<-|Hx]; [lra|auto].
  - intros [H1 H2]. apply Rmin_glb; [apply H2; left; reflexivity|]. apply IH. auto.
Qed.
Lemma fold_max l d m : fold_right Rmax d l <= m <-> d <= m /\ forall x, In x l -> x <= m.
Proof.
  induction l as [|a l IH]; simpl; [intuition|]. split.
  - intros H. pose proof (Rmax_l a (fold_right Rmax d l)). pose proof (Rmax_r a (fold_right Rmax d l)). assert (H2 : fold_right Rmax d l <= m) by lra. apply IH in H2. destruct H2. split; [assumption|]. intros x [<-|Hx]; [lra|auto].
  - intros [H1 H2]. apply Rmax_lub; [apply H2; left; reflexivity|]. apply IH. auto.
Qed.
Lemma min_list_spec l : l <> [] -> forall m, m <= rmin_list l <-> forall x, In x l -> m <= x.
Proof. intros N m. unfold rmin_list. rewrite fold_min. split; [intros [_ H]; exact H|]. intros H. split; [|exact H]. destruct l; [contradiction|]. apply H. left. reflexivity. Qed.
Lemma max_list_spec l : l <> [] -> forall m, rmax_list l <= m <-> forall x, In x l -> x <= m.
Proof. intros N m. unfold rmax_list. rewrite fold_max. split; [intros [_ H]; exact H|]. intros H. split; [|exact H]. destruct l; [contradiction|]. apply H. left. reflexivity. Qed.
