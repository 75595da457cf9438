(** * Properties C162 (Categorical) and C163 (the cdf a prior inherits) *)
From Coq Require Import String.
From Coq Require Import Reals Lra Psatz List Bool Arith ZArith Lia.
From Coquelicot Require Import Coquelicot.
From Verif Require Import PyReal Mband_Model Interp_Model Interp_Proofs PyDict PriorMisc_Model.
Import ListNotations.
Open Scope R_scope.

(** ** C162: the categorical prior *)
Lemma floor_iff x z : zfloor x = z <-> IZR z <= x < IZR z + 1.
Proof.
  unfold zfloor. destruct (archimed x) as [A B]. split.
  - intros <-. rewrite minus_IZR. lra.
  - intros [C D]. assert (IZR z < IZR (up x)) by lra. assert (IZR (up x) < IZR (z + 2)) by (rewrite plus_IZR; lra).
    apply lt_IZR in H. apply lt_IZR in H0. lia.
Qed.
Lemma ceil_eq x z : IZR z - 1 < x <= IZR z -> zceil x = z.
Proof. intros H. unfold zceil. rewrite (proj2 (floor_iff (- x) (- z))); [lia|]. rewrite opp_IZR. lra. Qed.
Lemma offset_small n : (1 <= n <= 16)%Z -> 0 < cat_offset n <= 1 / 100000000000000.
Proof.
  intros H. assert (E : (n = 1 \/ n = 2 \/ n = 3 \/ n = 4 \/ n = 5 \/ n = 6 \/ n = 7 \/ n = 8 \/ n = 9 \/ n = 10 \/ n = 11 \/ n = 12 \/ n = 13 \/ n = 14 \/ n = 15 \/ n = 16)%Z) by lia.
  unfold cat_offset. decompose [or] E; subst n; vm_compute Z.eqb; cbv iota;
  try (match goal with |- context [IZR ?a / IZR ?b] => let a' := eval vm_compute in a in let b' := eval vm_compute in b in change a with a'; change b with b' end; lra).
Qed.
Lemma offset_large n : (17 <= n)%Z -> cat_offset n = 0.
Proof.
  intros H. unfold cat_offset. destruct (Z.eqb_spec n 1); [lia|].
  assert (G : (2 ^ 4 <= 2 ^ Z.log2 (n - 1))%Z).
  { apply Z.pow_le_mono_r; [lia|]. apply Z.log2_le_pow2; lia. }
  assert (Z0 : offset_units (Z.log2 (n - 1)) = 0%Z).
  { unfold offset_units. apply Z.div_small. change (2 ^ 52)%Z with 4503599627370496%Z. change (10 ^ 15)%Z with 1000000000000000%Z. lia. }
  rewrite Z0. rewrite Z.mul_0_l. unfold Rdiv. apply Rmult_0_l.
Qed.
(** the categories that carry probability *)
Definition supported (n : Z) : Z := if (n <=? 16)%Z then n else (n - 1)%Z.
Lemma in_categories n v : (1 <= n)%Z -> In v (categories n) <-> exists k, (0 <= k < supported n)%Z /\ v = IZR k.
Proof.
  intros H. unfold categories, supported. assert (E : zceil (cat_max n) = if (n <=? 16)%Z then n else (n - 1)%Z).
  { apply ceil_eq. unfold cat_max. destruct (Z.leb_spec n 16).
    - pose proof (offset_small n ltac:(lia)). rewrite minus_IZR. lra.
    - rewrite (offset_large n) by lia. lra. }
  rewrite E. clear E. set (m := if (n <=? 16)%Z then n else (n - 1)%Z).
  assert (0 <= m)%Z by (unfold m; destruct (Z.leb_spec n 16); lia).
  rewrite in_map_iff. split.
  - intros (i & <- & Hi). apply in_seq in Hi. exists (Z.of_nat i). split; [lia|]. apply INR_IZR_INZ.
  - intros (k & Hk & ->). exists (Z.to_nat k). split; [rewrite INR_IZR_INZ, Z2Nat.id by lia; reflexivity|]. apply in_seq. lia.
Qed.

(** With at most 16 categories each of 0, ..., n - 1 has probability 1 / n and no other value has any. *)
Theorem C162_prob n : (1 <= n <= 16)%Z ->
  (forall k, (0 <= k < n)%Z -> cat_prob n (IZR k) = 1 / IZR n) /\
  (forall v, (forall k, (0 <= k < n)%Z -> v <> IZR k) -> cat_prob n v = 0).
Proof.
  intros H. assert (S : supported n = n) by (unfold supported; destruct (Z.leb_spec n 16); lia).
  split; [intros k Hk|intros v Hv]; unfold cat_prob.
  - destruct (in_dec Req_EM_T (IZR k) (categories n)) as [_|N]; [reflexivity|]. exfalso. apply N. apply in_categories; [lia|]. exists k. rewrite S. auto.
  - destruct (in_dec Req_EM_T v (categories n)) as [I|_]; [|reflexivity]. apply in_categories in I; [|lia]. rewrite S in I.
    destruct I as (k & Hk & ->). exfalso. exact (Hv k Hk eq_refl).
Qed.
(** sum of the probabilities of 0, ..., m - 1 *)
Definition total (n : Z) (m : nat) : R := fold_right Rplus 0 (map (fun i => cat_prob n (INR i)) (seq 0 m)).
Lemma sum_const (f : nat -> R) c s m : (forall i, (s <= i < s + m)%nat -> f i = c) -> fold_right Rplus 0 (map f (seq s m)) = INR m * c.
Proof.
  revert s. induction m as [|m IH]; intros s H; [simpl; ring|]. cbn [seq map fold_right]. rewrite IH by (intros; apply H; lia).
  rewrite (H s) by lia. rewrite S_INR. ring.
Qed.
(** the probabilities add up to one *)
Theorem C162_normalised n : (1 <= n <= 16)%Z -> total n (Z.to_nat n) = 1.
Proof.
  intros H. unfold total. rewrite (sum_const _ (1 / IZR n)).
  - rewrite INR_IZR_INZ, Z2Nat.id by lia. field. apply not_0_IZR. lia.
  - intros i Hi. rewrite INR_IZR_INZ. apply (proj1 (C162_prob n H)). lia.
Qed.
(** With 17 categories or more the offset is lost to rounding: the last category has no probability, the rest adds up to
    (n - 1) / n only, and yet the last category is drawn from every u in [(n - 1) / n, 1). *)
Theorem C162_last_category_refuted n : (17 <= n)%Z ->
  cat_prob n (IZR (n - 1)) = 0 /\ cat_ln_prob n (IZR (n - 1)) = None /\ total n (Z.to_nat n) = 1 - 1 / IZR n /\
  (forall u, 1 - 1 / IZR n <= u < 1 -> cat_rescale n u = IZR (n - 1)).
Proof.
  intros H. assert (S : supported n = (n - 1)%Z) by (unfold supported; destruct (Z.leb_spec n 16); lia).
  assert (NI : ~ In (IZR (n - 1)) (categories n)).
  { intros I. apply in_categories in I; [|lia]. destruct I as (k & Hk & E). apply eq_IZR in E. lia. }
  assert (P0 : cat_prob n (IZR (n - 1)) = 0) by (unfold cat_prob; destruct (in_dec Req_EM_T (IZR (n - 1)) (categories n)); [contradiction|reflexivity]).
  assert (N0 : 0 < IZR n) by (apply IZR_lt; lia).
  split; [exact P0|]. split; [unfold cat_ln_prob; destruct (in_dec Req_EM_T (IZR (n - 1)) (categories n)); [contradiction|reflexivity]|]. split.
  - unfold total. replace (Z.to_nat n) with (Z.to_nat (n - 1) + 1)%nat by lia. rewrite seq_app, map_app, fold_right_app.
    cbn [seq map fold_right]. rewrite Nat.add_0_l, (INR_IZR_INZ (Z.to_nat (n - 1))), Z2Nat.id by lia. rewrite P0.
    replace (0 + 0) with 0 by ring. rewrite (sum_const _ (1 / IZR n)).
    + rewrite INR_IZR_INZ, Z2Nat.id by lia. rewrite minus_IZR. field. lra.
    + intros i Hi. rewrite INR_IZR_INZ. unfold cat_prob. destruct (in_dec Req_EM_T (IZR (Z.of_nat i)) (categories n)) as [_|N]; [reflexivity|].
      exfalso. apply N. apply in_categories; [lia|]. exists (Z.of_nat i). split; [lia|reflexivity].
  - intros u Hu. unfold cat_rescale. f_equal. apply floor_iff. unfold cat_max. rewrite offset_large by lia. rewrite minus_IZR.
    replace (u * (1 + (IZR n - 1 + 0))) with (u * IZR n) by ring. split; [|nra].
    replace (IZR n - 1) with ((1 - 1 / IZR n) * IZR n) by (field; lra). apply Rmult_le_compat_r; lra.
Qed.
(** ln_prob is the logarithm of prob, and minus infinity exactly where prob is zero *)
Theorem C162_ln_prob n v : (1 <= n)%Z ->
  match cat_ln_prob n v with Some y => 0 < cat_prob n v /\ y = ln (cat_prob n v) | None => cat_prob n v = 0 end.
Proof.
  intros H. unfold cat_ln_prob, cat_prob. destruct (in_dec Req_EM_T v (categories n)); [|reflexivity].
  assert (0 < IZR n) by (apply IZR_lt; lia). assert (0 < / IZR n) by (apply Rinv_0_lt_compat; assumption).
  unfold Rdiv. rewrite Rmult_1_l. split; [assumption|]. rewrite ln_Rinv by assumption. reflexivity.
Qed.
(** the inverse transform: category k is drawn from an interval of length 1 / (n + offset), the offset at most 1e-14 *)
Theorem C162_rescale n u k : (1 <= n)%Z ->
  exists d, 0 <= d <= 1 / 100000000000000 /\
    (cat_rescale n u = IZR k <-> IZR k / (IZR n + d) <= u < (IZR k + 1) / (IZR n + d)).
Proof.
  intros H. exists (cat_offset n). assert (N : 1 <= IZR n) by (apply IZR_le; lia).
  assert (D : 0 <= cat_offset n <= 1 / 100000000000000).
  { destruct (Z_le_gt_dec n 16); [pose proof (offset_small n ltac:(lia)); lra|rewrite offset_large by lia; lra]. }
  split; [exact D|]. unfold cat_rescale, cat_max. rewrite minus_IZR. set (d := cat_offset n) in *.
  replace (u * (1 + (IZR n - 1 + d))) with (u * (IZR n + d)) by ring. assert (P : 0 < IZR n + d) by lra. split.
  - intros E. apply eq_IZR in E. apply floor_iff in E. destruct E as [A B]. split.
    + apply Rmult_le_reg_r with (IZR n + d); [exact P|]. unfold Rdiv. rewrite Rmult_assoc, Rinv_l by lra. lra.
    + apply Rmult_lt_reg_r with (IZR n + d); [exact P|]. unfold Rdiv. rewrite Rmult_assoc, Rinv_l by lra. lra.
  - intros [A B]. f_equal. apply floor_iff.
    apply (Rmult_le_compat_r (IZR n + d)) in A; [|lra]. apply (Rmult_lt_compat_r (IZR n + d)) in B; [|lra].
    unfold Rdiv in A, B. rewrite Rmult_assoc, Rinv_l in A, B by lra. lra.
Qed.
(** what is drawn below the top of the interval has probability 1 / n, at most 16 categories *)
Theorem C162_drawn_supported n u : (1 <= n <= 16)%Z -> 0 <= u <= 1 - 1 / 100000000000000 ->
  exists k, (0 <= k < n)%Z /\ cat_rescale n u = IZR k /\ cat_prob n (cat_rescale n u) = 1 / IZR n.
Proof.
  intros H Hu. assert (R : exists k, (0 <= k < n)%Z /\ cat_rescale n u = IZR k).
  { exists (zfloor (u * (1 + cat_max n))). split; [|reflexivity]. pose proof (proj1 (floor_iff (u * (1 + cat_max n)) _) eq_refl) as [A B].
    pose proof (offset_small n H) as D. unfold cat_max in *. rewrite minus_IZR in *. set (z := zfloor _) in *.
    assert (N : 1 <= IZR n) by (apply IZR_le; lia).
    replace (u * (1 + (IZR n - 1 + cat_offset n))) with (u * (IZR n + cat_offset n)) in * by ring.
    assert (U : u * (IZR n + cat_offset n) < IZR n).
    { apply Rle_lt_trans with ((1 - 1 / 100000000000000) * (IZR n + cat_offset n)); [apply Rmult_le_compat_r; lra|]. 
      assert (cat_offset n <= 1 / 100000000000000 * IZR n) by nra. nra. }
    assert (0 <= u * (IZR n + cat_offset n)) by (apply Rmult_le_pos; lra).
    split; [|apply lt_IZR; lra]. assert (IZR (-1) < IZR z) by lra. apply lt_IZR in H1. lia. }
  destruct R as (k & Hk & E). exists k. split; [exact Hk|]. split; [exact E|]. rewrite E. apply (proj1 (C162_prob n H)). exact Hk.
Qed.
(** at u = 1 the value n is drawn, which no category has *)
Theorem C162_top_refuted n : (1 <= n)%Z -> cat_rescale n 1 = IZR n /\ cat_prob n (cat_rescale n 1) = 0.
Proof.
  intros H. assert (E : cat_rescale n 1 = IZR n).
  { unfold cat_rescale. f_equal. apply floor_iff. unfold cat_max. rewrite minus_IZR.
    destruct (Z_le_gt_dec n 16); [pose proof (offset_small n ltac:(lia)); lra|rewrite offset_large by lia; lra]. }
  split; [exact E|]. rewrite E. unfold cat_prob. destruct (in_dec Req_EM_T (IZR n) (categories n)) as [I|]; [|reflexivity].
  apply in_categories in I; [|lia]. destruct I as (k & Hk & X). apply eq_IZR in X. unfold supported in Hk. destruct (Z.leb_spec n 16); lia.
Qed.
Example C162_example : cat_prob 3 2 = 1 / 3 /\ cat_prob 20 19 = 0 /\ cat_rescale 20 (99 / 100) = 19.
Proof.
  split; [exact (proj1 (C162_prob 3 ltac:(lia)) 2%Z ltac:(lia))|]. destruct (C162_last_category_refuted 20 ltac:(lia)) as (A & _ & _ & B).
  split; [exact A|]. apply B. lra.
Qed.

(** ** C163: the cdf computed on a grid *)
Definition grid (p : R -> R) (a h : R) (s n : nat) : list (R * R) := map (fun i => (a + INR i * h, p (a + INR i * h))) (seq s n).
Lemma table_grid p mn mx : cdf_table p mn mx = grid p mn ((mx - mn) / 999) 0 1000.
Proof.
  unfold cdf_table, linspace, grid. rewrite map_map. change (1000 - 1)%nat with 999%nat.
  replace (INR 999) with 999 by (rewrite INR_IZR_INZ; reflexivity). reflexivity.
Qed.
Lemma grid_S p a h s n : grid p a h s (S n) = (a + INR s * h, p (a + INR s * h)) :: grid p a h (S s) n.
Proof. reflexivity. Qed.
Lemma grid_incr p a h s n : 0 < h -> incr (grid p a h s n).
Proof.
  intros H. revert s. induction n as [|n IH]; intros s; [exact I|]. rewrite grid_S. specialize (IH (S s)).
  destruct n; [exact I|]. rewrite grid_S in *. split; [rewrite S_INR; lra|exact IH].
Qed.
Lemma grid_last p a h s n d : last_x (grid p a h s (S n)) d = a + INR (s + n) * h.
Proof.
  revert s d. induction n as [|n IH]; intros s d; [rewrite Nat.add_0_r; reflexivity|]. rewrite grid_S. cbn [last_x]. rewrite IH.
  f_equal. f_equal. f_equal. lia.
Qed.
Lemma last_in l d : l <> [] -> In (last_x l d, last_y l d) l.
Proof.
  revert d. induction l as [|[x y] t IH]; intros d N; [contradiction|]. cbn [last_x last_y].
  destruct t as [|q t]; [left; reflexivity|]. right. cbn [last_x last_y] in *. destruct q as [x1 y1]. apply (IH 0). discriminate.
Qed.
Lemma cum_fst acc l : map fst (cumtrapz acc l) = map fst l.
Proof.
  revert acc. induction l as [|[x0 y0] [|[x1 y1] t] IH]; intros acc; [reflexivity|reflexivity|].
  change (cumtrapz acc ((x0, y0) :: (x1, y1) :: t)) with ((x0, acc) :: cumtrapz (acc + (x1 - x0) * (y1 + y0) / 2) ((x1, y1) :: t)).
  cbn [map fst] in *. f_equal. apply IH.
Qed.
Lemma cum_length acc l : length (cumtrapz acc l) = length l.
Proof. rewrite <- (map_length fst), cum_fst, map_length. reflexivity. Qed.

Section Cdf.
Variables (p : R -> R) (mn mx : R).
Hypothesis Hm : mn < mx.
Let h := (mx - mn) / 999.
Let h0 : 0 < h.
Proof using Hm. apply Rdiv_lt_0_compat; lra. Qed.
Let cum := cumtrapz 0 (grid p mn h 0 1000).
Lemma cum_inc : incr cum.
Proof using Hm. apply cum_incr, grid_incr, h0. Qed.
Lemma cum_first : first_x cum = mn.
Proof using. unfold cum. rewrite (grid_S p mn h 0 999). destruct (cum_cons 0 (mn + INR 0 * h) (p (mn + INR 0 * h)) (grid p mn h 1 999)) as [t E]. rewrite E. cbn [first_x]. change (INR 0) with 0. ring. Qed.
Lemma cum_last d : last_x cum d = mx.
Proof using. unfold cum. rewrite cum_lastx. rewrite (grid_last p mn h 0 999). cbn [Nat.add]. rewrite INR_IZR_INZ. change (Z.of_nat 999) with 999%Z. unfold h. lra. Qed.
Lemma cum_len : length cum = 1000%nat.
Proof using. unfold cum. rewrite cum_length. unfold grid. rewrite map_length, seq_length. reflexivity. Qed.
Lemma cdf_inside x : mn <= x <= mx -> generic_cdf p mn mx x = interp_in cum x.
Proof using.
  intros H. unfold generic_cdf. rewrite table_grid. fold h. fold cum. unfold interp_fill. rewrite cum_first, cum_last.
  destruct (Rlt_dec x mn); [lra|]. destruct (Rlt_dec mx x); [lra|reflexivity].
Qed.
Lemma cdf_def x : mn <= x <= mx -> exists y, generic_cdf p mn mx x = Some y.
Proof using Hm.
  intros H. rewrite cdf_inside by exact H. pose proof cum_inc as I. pose proof cum_len as L. pose proof (cum_last 0) as LX.
  destruct cum as [|[x0 y0] [|[x1 y1] t]]; [discriminate|discriminate|]. apply interp_defined; [exact I|]. simpl in LX. lra.
Qed.
(** It is defined everywhere: 0 below the minimum and at it, 1 above the maximum. *)
Theorem C163_defined x : exists y, generic_cdf p mn mx x = Some y /\ (x <= mn -> y = 0) /\ (mx < x -> y = 1).
Proof using Hm.
  destruct (Rlt_dec x mn) as [A|A].
  - exists 0. split; [|split; intros; lra]. unfold generic_cdf. rewrite table_grid. fold h. fold cum. unfold interp_fill. rewrite cum_first.
    destruct (Rlt_dec x mn); [reflexivity|lra].
  - destruct (Rlt_dec mx x) as [B|B].
    + exists 1. split; [|split; intros; lra]. unfold generic_cdf. rewrite table_grid. fold h. fold cum. unfold interp_fill. rewrite cum_first, cum_last.
      destruct (Rlt_dec x mn); [lra|]. destruct (Rlt_dec mx x); [reflexivity|lra].
    + destruct (cdf_def x) as [y E]; [lra|]. exists y. split; [exact E|]. split; [|intros; lra]. intros HX. assert (x = mn) by lra. subst x.
      rewrite cdf_inside in E by lra. assert (IN : In (mn, 0) cum).
      { unfold cum. rewrite (grid_S p mn h 0 999). destruct (cum_cons 0 (mn + INR 0 * h) (p (mn + INR 0 * h)) (grid p mn h 1 999)) as [t E']. rewrite E'. left. f_equal. change (INR 0) with 0. ring. }
      rewrite (interp_node cum mn 0 cum_inc IN) in E by (rewrite cum_len; lia). congruence.
Qed.
(** It never decreases up to and including the maximum when the density is not negative. *)
Theorem C163_monotone x x' y y' : (forall t, mn <= t <= mx -> 0 <= p t) -> x <= x' <= mx ->
  generic_cdf p mn mx x = Some y -> generic_cdf p mn mx x' = Some y' -> y <= y'.
Proof using Hm.
  intros HP HX E E'. assert (YI : yincr cum).
  { apply cum_yincr; [apply grid_incr, h0|]. intros q Hq. unfold grid in Hq. apply in_map_iff in Hq. destruct Hq as (i & <- & Hi). cbn [snd].
    apply in_seq in Hi. apply HP. assert (0 <= INR i <= 999).
    { split; [apply pos_INR|]. replace 999 with (INR 999) by (rewrite INR_IZR_INZ; reflexivity). apply le_INR. lia. }
    assert (INR i * h <= 999 * h) by (apply Rmult_le_compat_r; [pose proof h0; lra|lra]). assert (0 <= INR i * h) by (apply Rmult_le_pos; [lra|pose proof h0; lra]).
    unfold h in *. lra. }
  destruct (Rlt_dec x mn) as [A|A].
  - destruct (C163_defined x) as (z & Ez & Z0 & _). assert (y = 0) by (rewrite E in Ez; injection Ez as ->; apply Z0; lra). subst y.
    destruct (Rlt_dec x' mn) as [B|B].
    + destruct (C163_defined x') as (z' & Ez' & Z0' & _). rewrite E' in Ez'. injection Ez' as ->. rewrite Z0' by lra. lra.
    + rewrite cdf_inside in E' by lra. pose proof (interp_bound cum x' y' cum_inc YI E' ltac:(rewrite cum_first; lra)) as Q.
      unfold cum in Q. rewrite (grid_S p mn h 0 999) in Q. destruct (cum_cons 0 (mn + INR 0 * h) (p (mn + INR 0 * h)) (grid p mn h 1 999)) as [t Et]. rewrite Et in Q. exact Q.
  - rewrite cdf_inside in E, E' by lra. apply (interp_mono cum x x' y y' cum_inc YI); [rewrite cum_first; lra|lra|exact E|exact E'].
Qed.
(** the i-th point of the grid *)
Definition node (i : nat) : R := mn + INR i * ((mx - mn) / 999).
Lemma node_in i : (i < 1000)%nat -> exists c, In (node i, c) cum.
Proof using.
  intros Hi. assert (IN : In (node i) (map fst cum)).
  { unfold cum. rewrite cum_fst. unfold grid. rewrite map_map. cbn [fst]. apply in_map_iff. exists i. split; [reflexivity|]. apply in_seq. lia. }
  apply in_map_iff in IN. destruct IN as ([a c] & E & IN). cbn [fst] in E. subst a. exists c. exact IN.
Qed.
Lemma node_range i : (i < 1000)%nat -> mn <= node i <= mx.
Proof using Hm.
  intros Hi. unfold node. fold h. assert (0 <= INR i <= 999).
  { split; [apply pos_INR|]. replace 999 with (INR 999) by (rewrite INR_IZR_INZ; reflexivity). apply le_INR. lia. }
  assert (INR i * h <= 999 * h) by (apply Rmult_le_compat_r; [pose proof h0; lra|lra]). assert (0 <= INR i * h) by (apply Rmult_le_pos; [lra|pose proof h0; lra]).
  unfold h in *. lra.
Qed.
(** At every grid point it is the integral of the broken line through the density at the grid points. *)
Theorem C163_broken_line i : (i < 1000)%nat -> exists c, generic_cdf p mn mx (node i) = Some c /\ is_RInt (val (cdf_table p mn mx)) mn (node i) c.
Proof using Hm.
  intros Hi. destruct (node_in i Hi) as [c IN]. exists c. split.
  - rewrite cdf_inside by (apply node_range, Hi). apply interp_node; [apply cum_inc|exact IN|rewrite cum_len; lia].
  - rewrite table_grid. fold h. unfold cum in IN. rewrite (grid_S p mn h 0 999) in IN |- *.
    assert (J : is_RInt (val ((mn + INR 0 * h, p (mn + INR 0 * h)) :: grid p mn h 1 999)) (mn + INR 0 * h) (node i) (c - 0)).
    { refine (cum_integral _ _ _ _ _ _ _ IN). rewrite <- (grid_S p mn h 0 999). apply grid_incr, h0. }
    replace (c - 0) with c in J by ring. assert (Q : mn + INR 0 * h = mn) by (change (INR 0) with 0; ring). set (f := val _) in *. rewrite Q in J. exact J.
Qed.
End Cdf.

(** on a list of points of the graph of a convex function the broken line lies above the function *)
Definition convex_on (p : R -> R) (a b : R) : Prop :=
  forall x y t, a <= x <= b -> a <= y <= b -> 0 <= t <= 1 -> p ((1 - t) * x + t * y) <= (1 - t) * p x + t * p y.
Lemma chord p a b l x : convex_on p a b -> incr l -> (forall q, In q l -> a <= fst q <= b /\ snd q = p (fst q)) -> (2 <= length l)%nat ->
  first_x l <= x <= last_x l 0 -> p x <= val l x.
Proof.
  intros HC. induction l as [|[x0 y0] [|[x1 y1] t] IH]; intros HI HQ HL HX; [simpl in HL; lia|simpl in HL; lia|].
  destruct HI as [H1 H2]. destruct (Rle_dec x x1) as [L|L].
  - rewrite seg_val by assumption. destruct (HQ (x0, y0)) as [R0 E0]; [left; reflexivity|]. destruct (HQ (x1, y1)) as [R1 E1]; [right; left; reflexivity|].
    cbn [fst snd] in *. cbn [first_x] in HX. set (s := (x - x0) / (x1 - x0)). assert (S : 0 <= s <= 1).
    { unfold s. split; [apply Rdiv_le_0_compat; lra|]. apply Rmult_le_reg_r with (x1 - x0); [lra|]. unfold Rdiv. rewrite Rmult_assoc, Rinv_l by lra. lra. }
    specialize (HC x0 x1 s R0 R1 S). replace ((1 - s) * x0 + s * x1) with x in HC by (unfold s; field; lra).
    rewrite <- E0, <- E1 in HC. replace ((y1 - y0) / (x1 - x0) * (x - x0) + y0) with ((1 - s) * y0 + s * y1) by (unfold s; field; lra). exact HC.
  - rewrite tail_val by lra. destruct t as [|[x2 y2] t]; [cbn [last_x] in HX; lra|]. apply IH.
    + exact H2.
    + intros q Hq. apply HQ. right. exact Hq.
    + simpl. lia.
    + cbn [first_x last_x] in *. lra.
Qed.
Lemma table_graph p mn mx q : mn < mx -> In q (cdf_table p mn mx) -> mn <= fst q <= mx /\ snd q = p (fst q).
Proof.
  intros H Hq. rewrite table_grid in Hq. unfold grid in Hq. apply in_map_iff in Hq. destruct Hq as (i & <- & Hi). apply in_seq in Hi. cbn [fst snd].
  split; [apply (node_range mn mx H i); lia|reflexivity].
Qed.
Lemma table_first p mn mx : first_x (cdf_table p mn mx) = mn.
Proof. rewrite table_grid, (grid_S _ _ _ 0 999). cbn [first_x]. change (INR 0) with 0. ring. Qed.
Lemma table_last p mn mx : last_x (cdf_table p mn mx) 0 = mx.
Proof. rewrite table_grid, (grid_last _ _ _ 0 999). cbn [Nat.add]. rewrite INR_IZR_INZ. change (Z.of_nat 999) with 999%Z. lra. Qed.
Lemma table_length p mn mx : length (cdf_table p mn mx) = 1000%nat.
Proof. unfold cdf_table, linspace. rewrite !map_length, seq_length. reflexivity. Qed.
Lemma table_incr p mn mx : mn < mx -> incr (cdf_table p mn mx).
Proof. intros H. rewrite table_grid. apply grid_incr. apply Rdiv_lt_0_compat; lra. Qed.
(** For a convex density it is at least the probability at every grid point, *)
Theorem C163_convex p mn mx i c m : mn < mx -> convex_on p mn mx -> (i < 1000)%nat ->
  generic_cdf p mn mx (node mn mx i) = Some c -> is_RInt p mn (node mn mx i) m -> m <= c.
Proof.
  intros H HC Hi E HM. destruct (C163_broken_line p mn mx H i Hi) as (c' & E' & HI). rewrite E in E'. injection E' as <-.
  destruct (node_range mn mx H i Hi) as [N1 N2]. refine (is_RInt_le _ _ _ _ _ _ N1 HM HI _). intros x Hx.
  refine (chord p mn mx _ _ HC (table_incr p mn mx H) (fun q Hq => table_graph p mn mx q H Hq) _ _); [rewrite table_length; lia|].
  rewrite table_first, table_last. lra.
Qed.
(** and for a density that is a straight line it is the probability there. *)
Theorem C163_linear p mn mx i a b : mn < mx -> (forall x, mn <= x <= mx -> p x = a * x + b) -> (i < 1000)%nat ->
  exists c, generic_cdf p mn mx (node mn mx i) = Some c /\ is_RInt p mn (node mn mx i) c.
Proof.
  intros H HP Hi. destruct (C163_broken_line p mn mx H i Hi) as (c & E & HI). exists c. split; [exact E|].
  destruct (node_range mn mx H i Hi) as [N1 N2]. refine (is_RInt_ext _ _ _ _ _ _ HI). intros x Hx.
  rewrite Rmin_left, Rmax_right in Hx by exact N1. apply Rle_antisym.
  - assert (CX : convex_on (fun x => - p x) mn mx).
    { intros u v t Hu Hv Ht. rewrite (HP u Hu), (HP v Hv), HP; [right; ring|]. split; nra. }
    assert (Q : - p x <= val (cdf_table (fun x => - p x) mn mx) x).
    { refine (chord _ mn mx _ _ CX (table_incr _ mn mx H) (fun q Hq => table_graph _ mn mx q H Hq) _ _); [rewrite table_length; lia|]. rewrite table_first, table_last. lra. }
    assert (V : val (cdf_table (fun x => - p x) mn mx) x = - val (cdf_table p mn mx) x).
    { unfold val. pose proof (val_scale (cdf_table p mn mx) (-1) x ltac:(lra)) as S.
      assert (T : map (fun q => (fst q, snd q / -1)) (cdf_table p mn mx) = cdf_table (fun x => - p x) mn mx).
      { unfold cdf_table. rewrite map_map. apply map_ext. intros z. cbn [fst snd]. f_equal. field. }
      rewrite T in S. rewrite S. destruct (interp_in (cdf_table p mn mx) x); [field|ring]. }
    rewrite V in Q. lra.
  - assert (CX : convex_on p mn mx).
    { intros u v t Hu Hv Ht. rewrite (HP u Hu), (HP v Hv), HP; [right; ring|]. split; nra. }
    refine (chord _ mn mx _ _ CX (table_incr _ mn mx H) (fun q Hq => table_graph _ mn mx q H Hq) _ _); [rewrite table_length; lia|]. rewrite table_first, table_last. lra.
Qed.
(** cumulated nodes of x^2 *)
Lemma trapz_square h s n : trapz (grid (fun x => 3 * x ^ 2) 0 h s (S n)) =
  h ^ 3 * (INR (s + n) ^ 3 + INR (s + n) / 2 - INR s ^ 3 - INR s / 2).
Proof.
  revert s. induction n as [|n IH]; intros s; [rewrite Nat.add_0_r; cbn [grid seq map trapz]; ring|].
  rewrite grid_S. specialize (IH (S s)). rewrite grid_S in IH |- *.
  change (trapz ((0 + INR s * h, 3 * (0 + INR s * h) ^ 2) :: (0 + INR (S s) * h, 3 * (0 + INR (S s) * h) ^ 2) :: grid (fun x => 3 * x ^ 2) 0 h (S (S s)) n))
    with ((0 + INR (S s) * h - (0 + INR s * h)) * (3 * (0 + INR (S s) * h) ^ 2 + 3 * (0 + INR s * h) ^ 2) / 2 + trapz ((0 + INR (S s) * h, 3 * (0 + INR (S s) * h) ^ 2) :: grid (fun x => 3 * x ^ 2) 0 h (S (S s)) n)).
  rewrite IH. replace (s + S n)%nat with (S s + n)%nat by lia. rewrite (S_INR s). field.
Qed.
(** The value at the maximum is the trapezoidal sum, so for the density 3 x^2 on [0, 1] it exceeds one and the cdf falls just
    beyond the maximum. *)
Theorem C163_top_refuted : exists c, generic_cdf (fun x => 3 * x ^ 2) 0 1 1 = Some c /\ c = 1 + 1 / (2 * 999 ^ 2) /\ 1 < c /\
  generic_cdf (fun x => 3 * x ^ 2) 0 1 2 = Some 1.
Proof.
  exists (1 + 1 / (2 * 999 ^ 2)). split.
  - rewrite cdf_inside by lra. set (p := fun x => 3 * x ^ 2). set (cum := cumtrapz 0 (grid p 0 ((1 - 0) / 999) 0 1000)).
    assert (L : last_x cum 0 = 1) by (apply (cum_last p 0 1)). assert (LY : last_y cum 0 = 1 + 1 / (2 * 999 ^ 2)).
    { unfold cum. rewrite cum_lasty by discriminate. unfold p. rewrite (trapz_square _ 0 999). cbn [Nat.add]. rewrite (INR_IZR_INZ 999). change (Z.of_nat 999) with 999%Z. change (INR 0) with 0. field. }
    rewrite <- LY. rewrite <- L at 1. apply interp_node; [apply (cum_inc p 0 1); lra|apply last_in|pose proof (cum_len p 0 1) as CL; fold cum in CL; rewrite CL; lia].
    intros E. pose proof (cum_len p 0 1) as CL. fold cum in CL. rewrite E in CL. discriminate.
  - split; [reflexivity|]. split; [lra|]. destruct (C163_defined (fun x => 3 * x ^ 2) 0 1 ltac:(lra) 2) as (y & E & _ & Y). rewrite E. f_equal. apply Y. lra.
Qed.
Lemma cum_zero acc l : (forall q, In q l -> snd q = 0) -> forall q, In q (cumtrapz acc l) -> snd q = acc.
Proof.
  revert acc. induction l as [|[x0 y0] [|[x1 y1] t] IH]; intros acc H q Hq; [destruct Hq|destruct Hq as [<-|[]]; reflexivity|].
  change (cumtrapz acc ((x0, y0) :: (x1, y1) :: t)) with ((x0, acc) :: cumtrapz (acc + (x1 - x0) * (y1 + y0) / 2) ((x1, y1) :: t)) in Hq.
  destruct Hq as [<-|Hq]; [reflexivity|]. rewrite (IH (acc + (x1 - x0) * (y1 + y0) / 2) (fun q Hq => H q (or_intror Hq)) q Hq).
  pose proof (H (x0, y0) (or_introl eq_refl)) as A. pose proof (H (x1, y1) (or_intror (or_introl eq_refl))) as B. cbn [snd] in A, B. subst. lra.
Qed.
Lemma interp_const l c x y : (forall q, In q l -> snd q = c) -> interp_in l x = Some y -> y = c.
Proof.
  induction l as [|[x0 y0] [|[x1 y1] t] IH]; intros H E; [discriminate|discriminate|]. cbn [interp_in] in E. destruct (Rle_dec x x1).
  - destruct (Req_EM_T (x1 - x0) 0); [discriminate|]. pose proof (H (x0, y0) (or_introl eq_refl)) as A. pose proof (H (x1, y1) (or_intror (or_introl eq_refl))) as B. cbn [snd] in A, B. subst.
    apply some_inj in E. subst y. field. assumption.
  - apply IH; [|exact E]. intros q Hq. apply H. right. exact Hq.
Qed.
Lemma interp_skip x0 y0 x1 y1 t x : x1 < x -> interp_in ((x0, y0) :: (x1, y1) :: t) x = interp_in ((x1, y1) :: t) x.
Proof. intros H. cbn [interp_in]. destruct (Rle_dec x x1); [lra|reflexivity]. Qed.
(** The categorical prior inherits it, with a grid that meets none of the categories but 0: for two categories the cdf of the
    larger one is below 1/1000. *)
Theorem C163_categorical_refuted : exists c, generic_cdf (cat_prob 2) 0 (cat_max 2) 1 = Some c /\ 0 <= c < 1 / 1000.
Proof.
  pose proof (offset_small 2 ltac:(lia)) as O. assert (M : cat_max 2 = 1 + cat_offset 2) by (unfold cat_max; simpl; reflexivity).
  set (mx := cat_max 2) in *. set (h := (mx - 0) / 999). assert (H0 : 0 < h <= 1 / 998) by (unfold h; split; lra).
  destruct (cdf_def (cat_prob 2) 0 mx ltac:(lra) 1 ltac:(lra)) as [c E]. exists c. split; [exact E|]. rewrite cdf_inside in E by lra. fold h in E.
  rewrite (grid_S _ _ _ 0 999), (grid_S _ _ _ 1 998) in E. set (g := grid (cat_prob 2) 0 h 2 998) in E.
  assert (Z : forall i, (1 <= i < 1000)%nat -> cat_prob 2 (0 + INR i * h) = 0).
  { intros i Hi. apply (proj2 (C162_prob 2 ltac:(lia))). intros k Hk X. assert (1 <= INR i <= 999).
    { split; [apply (le_INR 1); lia|]. replace 999 with (INR 999) by (rewrite INR_IZR_INZ; reflexivity). apply le_INR. lia. }
    assert (K : (k = 0 \/ k = 1)%Z) by lia. destruct K as [-> | ->].
    - assert (h <= INR i * h) by nra. lra.
    - destruct (le_lt_dec i 998) as [J|J].
      + assert (INR i <= 998) by (replace 998 with (INR 998) by (rewrite INR_IZR_INZ; reflexivity); apply le_INR; lia).
        assert (INR i * h <= 998 * h) by (apply Rmult_le_compat_r; lra). unfold h in *. lra.
      + assert (i = 999%nat) by lia. subst i. rewrite (INR_IZR_INZ 999) in X. change (Z.of_nat 999) with 999%Z in X. unfold h in X. lra. }
  rewrite (Z 1%nat) in E by lia. set (x0 := 0 + INR 0 * h) in E. set (x1 := 0 + INR 1 * h) in E.
  assert (X1 : x1 = h) by (unfold x1; change (INR 1) with 1; ring). assert (X0 : x0 = 0) by (unfold x0; change (INR 0) with 0; ring).
  change (cumtrapz 0 ((x0, cat_prob 2 x0) :: (x1, 0) :: g)) with ((x0, 0) :: cumtrapz (0 + (x1 - x0) * (0 + cat_prob 2 x0) / 2) ((x1, 0) :: g)) in E.
  set (v := 0 + (x1 - x0) * (0 + cat_prob 2 x0) / 2) in E. assert (V : 0 <= v < 1 / 1000).
  { unfold v. rewrite X0, X1. rewrite (proj1 (C162_prob 2 ltac:(lia)) 0%Z ltac:(lia)). lra. }
  destruct (cum_cons v x1 0 g) as [t Et]. rewrite Et in E. rewrite interp_skip in E by lra. rewrite <- Et in E.
  assert (c = v); [|lra]. apply (interp_const (cumtrapz v ((x1, 0) :: g)) v 1 c); [|exact E]. apply cum_zero. intros q [<-|Hq]; [reflexivity|].
  unfold g, grid in Hq. apply in_map_iff in Hq. destruct Hq as (i & <- & Hi). apply in_seq in Hi. cbn [snd]. apply Z. lia.
Qed.
Example C163_example : exists c, generic_cdf (fun x => 2 * x + 0) 0 1 (node 0 1 999) = Some c /\ c = 1.
Proof.
  destruct (C163_linear (fun x => 2 * x + 0) 0 1 999 2 0 ltac:(lra) (fun x _ => eq_refl) ltac:(lia)) as (c & E & H). exists c. split; [exact E|].
  assert (N : node 0 1 999 = 1) by (unfold node; rewrite INR_IZR_INZ; change (Z.of_nat 999) with 999%Z; lra). rewrite N in H.
  assert (D : is_RInt (fun x => 2 * x + 0) 0 1 ((fun x => x ^ 2) 1 - (fun x => x ^ 2) 0)).
  { apply (is_RInt_derive (fun x => x ^ 2)).
    - intros x _. auto_derive; [exact I|ring].
    - intros x _. apply (ex_derive_continuous (fun x => 2 * x + 0)). auto_derive. exact I. }
  rewrite <- (is_RInt_unique _ _ _ _ H), (is_RInt_unique _ _ _ _ D). ring.
Qed.

(** ** Assumptions of every theorem above *)
Definition PriorMisc_Props_all :=
  (@C162_prob,
   @C162_normalised,
   @C162_last_category_refuted,
   @C162_ln_prob,
   @C162_rescale,
   @C162_drawn_supported,
   @C162_top_refuted,
   @C163_defined,
   @C163_monotone,
   @C163_broken_line,
   @C163_convex,
   @C163_linear,
   @C163_top_refuted,
   @C163_categorical_refuted).
Print Assumptions PriorMisc_Props_all.
