(** * Reflection (C15), Kish effective sample size (C16), boundary handling (C29),
    credible intervals (C40) *)
From Coq Require Import Reals Lra Psatz List Bool Lia Permutation.
From Coquelicot Require Import Coquelicot.
From Verif Require Import PyReal PriorSpec Interp_Model Interp_Proofs Samples_Model Samples_Proofs.
Import ListNotations.
Open Scope R_scope.

(** ** C15 *)
Theorem C15_reflect_range u : 0 <= reflect u <= 1.
Proof. destruct (mod2_cases u) as (k & y & -> & Hy & _). rewrite reflect_val by exact Hy. destruct (Rlt_dec y 1); lra. Qed.
Theorem C15_reflect_identity u : 0 <= u <= 1 -> reflect u = u.
Proof. intros H. replace u with (u + 2 * IZR 0) at 1 by ring. rewrite reflect_val by lra. destruct (Rlt_dec u 1); lra. Qed.
Theorem C15_reflect_period u k : reflect (u + 2 * IZR k) = reflect u.
Proof.
  destruct (mod2_cases u) as (j & y & -> & Hy & _). replace (y + 2 * IZR j + 2 * IZR k) with (y + 2 * IZR (j + k)) by (rewrite plus_IZR; ring).
  rewrite !reflect_val by exact Hy. reflexivity.
Qed.
Theorem C15_reflect_even u : reflect (- u) = reflect u.
Proof.
  destruct (mod2_cases u) as (j & y & -> & Hy & _). rewrite (reflect_val j y Hy). destruct (Req_dec y 0) as [->|N].
  - replace (- (0 + 2 * IZR j)) with (0 + 2 * IZR (- j)) by (rewrite opp_IZR; ring). rewrite reflect_val by lra. reflexivity.
  - replace (- (y + 2 * IZR j)) with ((2 - y) + 2 * IZR (- j - 1)) by (rewrite minus_IZR, opp_IZR; ring). rewrite reflect_val by lra.
    destruct (Rlt_dec (2 - y) 1); destruct (Rlt_dec y 1); lra.
Qed.
(** the documented specification: x in [0,1] is the image of exactly the points 2n +/- x *)
Theorem C15_reflect_fibres u x : 0 <= x <= 1 -> (reflect u = x <-> exists n, u = 2 * IZR n + x \/ u = 2 * IZR n - x).
Proof.
  intros Hx. split.
  - destruct (mod2_cases u) as (j & y & -> & Hy & _). rewrite reflect_val by exact Hy. destruct (Rlt_dec y 1); intros <-.
    + exists j. left. ring.
    + exists (j + 1)%Z. right. rewrite plus_IZR. ring.
  - intros (n & [->| ->]).
    + rewrite Rplus_comm, C15_reflect_period. apply C15_reflect_identity, Hx.
    + replace (2 * IZR n - x) with (- x + 2 * IZR n) by ring. rewrite C15_reflect_period, C15_reflect_even. apply C15_reflect_identity, Hx.
Qed.
(** reflections do not increase distances *)
Theorem C15_reflect_contraction u v : Rabs (reflect u - reflect v) <= Rabs (u - v).
Proof.
  destruct (Rle_dec 2 (Rabs (u - v))) as [B|B].
  { pose proof (C15_reflect_range u). pose proof (C15_reflect_range v). apply Rle_trans with 1; [apply Rabs_le; lra|lra]. }
  destruct (mod2_cases u) as (j & y & -> & Hy & _). destruct (mod2_cases v) as (k & z & -> & Hz & _). rewrite !reflect_val by assumption.
  assert (D : (j - k = -1 \/ j - k = 0 \/ j - k = 1)%Z).
  { apply Rnot_le_lt in B. apply Rabs_def2 in B. assert (-2 < IZR (j - k) < 2) as [H1 H2] by (rewrite minus_IZR; lra). apply lt_IZR in H1. apply lt_IZR in H2. lia. }
  replace (y + 2 * IZR j - (z + 2 * IZR k)) with (y - z + 2 * IZR (j - k)) by (rewrite minus_IZR; ring). 
  destruct D as [->|[->| ->]]; destruct (Rlt_dec y 1); destruct (Rlt_dec z 1); unfold Rabs; repeat match goal with |- context [Rcase_abs ?a] => destruct (Rcase_abs a) end; lra.
Qed.
(** the examples of the docstring *)
Example C15_docstring : reflect (-9 / 10) = 9 / 10 /\ reflect (11 / 10) = 9 / 10 /\ reflect (29 / 10) = 9 / 10.
Proof.
  repeat split; apply C15_reflect_fibres; try lra; [exists 0%Z|exists 1%Z|exists 1%Z]; [right|right|left]; lra.
Qed.

(** ** C16 *)
(** with at least one non-zero weight the result is ln of a number between 1 and n *)
Theorem C16_kish_bounds l : (exists x, In (Some x) l) ->
  exists e, kish_log_effective_sample_size l = Some e /\ 1 <= exp e <= INR (length l) /\ 0 <= e <= ln (INR (length l)).
Proof.
  intros H. destruct (kish_eq l H) as (E & P1 & P2). rewrite E. eexists. split; [reflexivity|].
  set (S1 := Rsum (map wexp l)) in *. set (S2 := Rsum (map sq (map wexp l))) in *.
  pose proof (sum_sq_le _ (wexp_nonneg l)) as L1. fold S1 S2 in L1. pose proof (lagrange (map wexp l)) as L2. fold S1 S2 in L2. rewrite map_length in L2. pose proof (pairs_nonneg (map wexp l)) as L3.
  assert (Q : 0 < S1 * S1 / S2) by (apply Rdiv_lt_0_compat; nra).
  assert (QE : S1 * S1 / S2 * S2 = S1 * S1) by (field; lra).
  assert (B : 1 <= S1 * S1 / S2 <= INR (length l)) by (split; apply Rmult_le_reg_r with S2; try assumption; lra).
  rewrite exp_ln by exact Q. split; [exact B|]. rewrite <- ln_1. split; apply ln_le; lra.
Qed.
(** the maximum is attained exactly when all weights are equal *)
Theorem C16_kish_equal_weights l : (exists x, In (Some x) l) ->
  (kish_log_effective_sample_size l = Some (ln (INR (length l))) <-> exists x, forall w, In w l -> w = Some x).
Proof.
  intros H. destruct (kish_eq l H) as (E & P1 & P2). rewrite E.
  set (S1 := Rsum (map wexp l)) in *. set (S2 := Rsum (map sq (map wexp l))) in *.
  pose proof (lagrange (map wexp l)) as L2. fold S1 S2 in L2. rewrite map_length in L2.
  assert (Q : 0 < S1 * S1 / S2) by (apply Rdiv_lt_0_compat; nra).
  assert (N : 0 < INR (length l)) by (destruct l; [destruct H as [? []]|apply lt_0_INR; simpl; lia]).
  split.
  - intros K. apply some_inj in K. apply ln_inv in K; [|exact Q|exact N]. assert (QE : S1 * S1 / S2 * S2 = S1 * S1) by (field; lra). rewrite K in QE.
    assert (Z : pairs_dev (map wexp l) = 0) by lra. clear - Z H. destruct H as [x Hx].
    assert (G : forall m, pairs_dev m = 0 -> forall a b, In a m -> In b m -> a = b).
    { induction m as [|c m IH]; intros Hm a b Ha Hb; [destruct Ha|]. simpl in Hm. pose proof (dev_nonneg c m). pose proof (pairs_nonneg m).
      assert (D : dev c m = 0) by lra. assert (P : pairs_dev m = 0) by lra.
      destruct Ha as [->|Ha]; destruct Hb as [Hb|Hb]; [exact Hb|symmetry; apply (dev_zero a m D b Hb)|rewrite <- Hb; apply (dev_zero c m D a Ha)|apply IH; assumption]. }
    exists x. intros w Hw. pose proof (G _ Z (wexp w) (exp x) (in_map wexp _ _ Hw) (in_map wexp _ _ Hx)) as EQ.
    destruct w as [w|]; simpl in EQ; [apply exp_inv in EQ; congruence|pose proof (exp_pos x); lra].
  - intros [x Hx]. f_equal. f_equal.
    assert (G : forall m, (forall w, In w m -> w = Some x) -> pairs_dev (map wexp m) = 0).
    { induction m as [|c m IH]; intros Hm; [reflexivity|]. cbn [map pairs_dev]. rewrite IH by (intros; apply Hm; right; assumption). rewrite (Hm c (or_introl eq_refl)).
      assert (D : forall k, (forall w, In w k -> w = Some x) -> dev (wexp (Some x)) (map wexp k) = 0).
      { unfold dev. induction k as [|d k IHk]; intros Hk; [reflexivity|]. cbn [map Rsum fold_right]. fold (Rsum (map (fun y => sq (y - wexp (Some x))) (map wexp k))).
        rewrite IHk by (intros; apply Hk; right; assumption). rewrite (Hk d (or_introl eq_refl)). unfold sq. ring. }
      rewrite D by (intros; apply Hm; right; assumption). ring. }
    rewrite (G l Hx) in L2. apply Rmult_eq_reg_r with S2; [|lra]. unfold Rdiv. rewrite Rmult_assoc, Rinv_l by lra. lra.
Qed.
(** invariance under a common factor of the weights and under reordering; zero weights
    do not count *)
Definition shift (c : R) (w : option R) : option R := match w with Some x => Some (x + c) | None => None end.
Theorem C16_kish_shift l c : kish_log_effective_sample_size (map (shift c) l) = kish_log_effective_sample_size l.
Proof.
  assert (M1 : map wexp (map (shift c) l) = map (Rmult (exp c)) (map wexp l)) by (rewrite !map_map; apply map_ext; intros [x|]; simpl; [rewrite exp_plus; ring|ring]).
  destruct (Classical_Prop.classic (exists x, In (Some x) l)) as [H|H].
  - assert (H' : exists x, In (Some x) (map (shift c) l)) by (destruct H as [x Hx]; exists (x + c); apply in_map_iff; exists (Some x); auto).
    destruct (kish_eq l H) as (-> & P1 & P2). destruct (kish_eq _ H') as (-> & _ & _). f_equal. f_equal. rewrite M1.
    assert (M2 : map sq (map (Rmult (exp c)) (map wexp l)) = map (Rmult (exp c * exp c)) (map sq (map wexp l))) by (rewrite !map_map; apply map_ext; intros; unfold sq; ring).
    rewrite M2, !Rsum_scale. pose proof (exp_pos c). field. split; lra.
  - assert (Z : forall m, (forall x, ~ In (Some x) m) -> kish_log_effective_sample_size m = None).
    { intros m Hm. unfold kish_log_effective_sample_size, logsumexp. replace (Rsum (map wexp m)) with 0; [destruct (Rlt_dec 0 0); [lra|reflexivity]|].
      induction m as [|[x|] m IH]; [reflexivity|exfalso; apply (Hm x); left; reflexivity|]. cbn [map Rsum fold_right]. fold (Rsum (map wexp m)). rewrite <- IH by (intros x Hx; apply (Hm x); right; exact Hx). simpl. ring. }
    rewrite !Z; [reflexivity| |].
    + intros x Hx. apply H. exists x. exact Hx.
    + intros x Hx. apply in_map_iff in Hx. destruct Hx as ([y|] & E & Hy); [|discriminate]. apply H. eauto.
Qed.
Theorem C16_kish_order l l' : Permutation l l' -> kish_log_effective_sample_size l = kish_log_effective_sample_size l'.
Proof.
  intros P. unfold kish_log_effective_sample_size, logsumexp. rewrite (Rsum_perm _ _ (Permutation_map wexp P)).
  rewrite (Rsum_perm _ _ (Permutation_map wexp (Permutation_map double P))). reflexivity.
Qed.
Theorem C16_kish_zero_weight l : kish_log_effective_sample_size (None :: l) = kish_log_effective_sample_size l.
Proof. unfold kish_log_effective_sample_size, logsumexp. cbn [map double wexp Rsum fold_right]. fold (Rsum (map wexp l)) (Rsum (map wexp (map double l))). rewrite !Rplus_0_l. reflexivity. Qed.
(** all weights zero: nan *)
Theorem C16_kish_all_zero l : (forall w, In w l -> w = None) -> kish_log_effective_sample_size l = None.
Proof.
  intros H. induction l as [|w l IH]; [unfold kish_log_effective_sample_size, logsumexp; simpl; destruct (Rlt_dec 0 0); [lra|reflexivity]|].
  rewrite (H w (or_introl eq_refl)), C16_kish_zero_weight. apply IH. intros; apply H; right; assumption.
Qed.
Example C16_example : kish_log_effective_sample_size [Some 0; None; Some (ln 3)] = Some (ln (8 / 5)).
Proof.
  destruct (kish_eq [Some 0; None; Some (ln 3)]) as (-> & _ & _); [exists 0; left; reflexivity|]. simpl. unfold sq. rewrite exp_0, exp_ln by lra. do 2 f_equal. field.
Qed.

(** ** C29 *)
Definition in01 (x : R) := 0 <= x <= 1.
Definition listed (i : nat) (o : option (list nat)) : Prop := match o with None => False | Some l => In i l end.
Lemma listed_dec i o : {listed i o} + {~ listed i o}.
Proof. destruct o as [l|]; [exact (in_dec PeanoNat.Nat.eq_dec i l)|right; exact (fun f => f)]. Defined.
Lemma existsb_in i l : existsb (Nat.eqb i) l = true <-> In i l.
Proof. rewrite existsb_exists. split; [intros (x & Hx & E); apply PeanoNat.Nat.eqb_eq in E; subst; exact Hx|intros H; exists i; split; [exact H|apply PeanoNat.Nat.eqb_refl]]. Qed.
Lemma wrap_nth u p r i : (i < length u)%nat ->
  nth i (wrap_reflect u p r) 0 = (if listed_dec i r then reflect else (fun x => x)) ((if listed_dec i p then (fun x => rmod x 1) else (fun x => x)) (nth i u 0)).
Proof.
  intros H. unfold wrap_reflect.
  assert (E : forall f idx v, (i < length v)%nat -> nth i (at_indices f idx v) 0 = (if in_dec PeanoNat.Nat.eq_dec i idx then f else (fun x => x)) (nth i v 0)).
  { intros f idx v Hv. rewrite at_nth by exact Hv. destruct (in_dec PeanoNat.Nat.eq_dec i idx) as [I|I].
    - apply existsb_in in I. rewrite I. reflexivity.
    - destruct (existsb (Nat.eqb i) idx) eqn:X; [apply existsb_in in X; contradiction|reflexivity]. }
  destruct p as [p|]; destruct r as [r|]; rewrite ?E; rewrite ?at_length; try exact H; reflexivity.
Qed.
Lemma wrap_length u p r : length (wrap_reflect u p r) = length u.
Proof. unfold wrap_reflect. destruct p; destruct r; rewrite ?at_length; reflexivity. Qed.
(** the point returned has the same length, lies in the closed unit cube, is congruent
    mod 1 to the proposal in periodic coordinates, its reflection (mod 2, up to sign) in
    reflective ones and unchanged in all others; nothing is returned exactly when a
    coordinate with neither boundary lies outside [0,1] *)
Theorem C29_apply_boundaries u p r : u <> [] ->
  match apply_boundaries_ u p r with
  | Some v => length v = length u /\ forall i, (i < length u)%nat -> in01 (nth i v 0) /\
      (listed i p -> ~ listed i r -> exists k, nth i v 0 = nth i u 0 + IZR k) /\
      (~ listed i p -> listed i r -> exists k, nth i u 0 = 2 * IZR k + nth i v 0 \/ nth i u 0 = 2 * IZR k - nth i v 0) /\
      (~ listed i p -> ~ listed i r -> nth i v 0 = nth i u 0)
  | None => exists i, (i < length u)%nat /\ ~ listed i p /\ ~ listed i r /\ ~ in01 (nth i u 0)
  end.
Proof.
  intros N. unfold apply_boundaries_. set (v := wrap_reflect u p r).
  assert (LV : length v = length u) by apply wrap_length. assert (NV : v <> []) by (intros E; rewrite E in LV; destruct u; [contradiction|discriminate]).
  assert (MOD : forall x, in01 (rmod x 1)) by (intros x; pose proof (rmod_range x 1); unfold in01; lra).
  assert (BAD : forall x, In x v -> ~ in01 x -> exists i, (i < length u)%nat /\ ~ listed i p /\ ~ listed i r /\ ~ in01 (nth i u 0)).
  { intros x Hx B. apply (In_nth v x 0) in Hx. destruct Hx as (i & Hi & Ex). rewrite LV in Hi. unfold v in Ex. rewrite (wrap_nth u p r i Hi) in Ex. exists i. split; [exact Hi|].
    destruct (listed_dec i r); [exfalso; apply B; rewrite <- Ex; apply C15_reflect_range|]. destruct (listed_dec i p); [exfalso; apply B; rewrite <- Ex; apply MOD|].
    split; [assumption|]. split; [assumption|]. rewrite Ex. exact B. }
  destruct (Rlt_dec (rmin_list v) 0) as [L|L].
  - destruct (Classical_Prop.classic (exists x, In x v /\ x < 0)) as [(x & Hx & Lx)|C]; [apply (BAD x Hx); unfold in01; lra|].
    exfalso. assert (0 <= rmin_list v); [|lra]. apply (min_list_spec v NV). intros x Hx. apply Rnot_lt_le. intros Lx. apply C. eauto.
  - destruct (Rlt_dec 1 (rmax_list v)) as [M|M].
    + destruct (Classical_Prop.classic (exists x, In x v /\ 1 < x)) as [(x & Hx & Lx)|C]; [apply (BAD x Hx); unfold in01; lra|].
      exfalso. assert (rmax_list v <= 1); [|lra]. apply (max_list_spec v NV). intros x Hx. apply Rnot_lt_le. intros Lx. apply C. eauto.
    + split; [exact LV|]. intros i Hi. split.
      { assert (Hin : In (nth i v 0) v) by (apply nth_In; rewrite LV; exact Hi). apply Rnot_lt_le in L, M. split; [apply (proj1 (min_list_spec v NV 0) L _ Hin)|apply (proj1 (max_list_spec v NV 1) M _ Hin)]. }
      unfold v. rewrite (wrap_nth u p r i Hi). destruct (listed_dec i r) as [Ir|Ir]; destruct (listed_dec i p) as [Ip|Ip]; (split; [|split]); intros A B; try contradiction; try reflexivity.
      * destruct (proj1 (C15_reflect_fibres (nth i u 0) _ (C15_reflect_range _)) eq_refl) as [k [K|K]]; exists k; [left|right]; exact K.
      * destruct (rmod_congr (nth i u 0) 1) as [k K]. exists (- k)%Z. rewrite K, opp_IZR. ring.
Qed.
(** conversely a point whose unwrapped coordinates are inside is never refused *)
Theorem C29_never_refused u p r : u <> [] -> (forall i, (i < length u)%nat -> ~ listed i p -> ~ listed i r -> in01 (nth i u 0)) ->
  exists v, apply_boundaries_ u p r = Some v.
Proof.
  intros N H. pose proof (C29_apply_boundaries u p r N) as T. destruct (apply_boundaries_ u p r) as [v|]; [eauto|]. destruct T as (i & Hi & A & B & C). exfalso. apply C, H; assumption.
Qed.
(** bilby_mcmc boundaries: the result is inside the prior range and congruent modulo the
    width, respectively a mirror image at the range ends; points inside stay put *)
Theorem C29_mcmc_periodic mn w v : 0 < w -> mn <= apply_periodic_boundary mn w v < mn + w /\
  (exists k, apply_periodic_boundary mn w v = v + w * IZR k) /\ (mn <= v < mn + w -> apply_periodic_boundary mn w v = v).
Proof.
  intros Hw. unfold apply_periodic_boundary. pose proof (rmod_range (v - mn) w Hw). split; [lra|]. split.
  - destruct (rmod_congr (v - mn) w) as [k K]. exists (- k)%Z. rewrite K, opp_IZR. ring.
  - intros Hv. rewrite rmod_id by lra. ring.
Qed.
Theorem C29_mcmc_reflective mn w v : 0 < w -> mn <= apply_reflective_boundary mn w v <= mn + w /\
  (exists k, v - mn = 2 * w * IZR k + (apply_reflective_boundary mn w v - mn) \/ v - mn = 2 * w * IZR k - (apply_reflective_boundary mn w v - mn)) /\
  (mn <= v <= mn + w -> apply_reflective_boundary mn w v = v).
Proof.
  intros Hw. unfold apply_reflective_boundary. set (x := (v - mn) / w). assert (E : v = mn + w * x) by (unfold x; field; lra). pose proof (C15_reflect_range x) as Rg. split; [nra|]. split.
  - destruct (proj1 (C15_reflect_fibres x _ Rg) eq_refl) as [k [K|K]]; exists k; [left|right]; rewrite E; rewrite K at 1; ring.
  - intros Hv. rewrite C15_reflect_identity; [lra|]. rewrite E in Hv. split; apply Rmult_le_reg_l with w; lra.
Qed.
Example C29_example : apply_boundaries_ [5 / 4; -1 / 4; 1 / 2] (Some [0%nat]) (Some [1%nat]) = Some [1 / 4; 1 / 4; 1 / 2] /\
  apply_boundaries_ [5 / 4; 1 / 2] (Some [1%nat]) None = None.
Proof.
  assert (A : rmod (5 / 4) 1 = 1 / 4) by (apply (rmod_unique _ 1 (1 / 4) 1); lra).
  assert (B : reflect (-1 / 4) = 1 / 4) by (apply C15_reflect_fibres; [lra|exists 0%Z; right; lra]).
  assert (C : rmod (1 / 2) 1 = 1 / 2) by (apply rmod_id; lra).
  unfold apply_boundaries_, wrap_reflect, at_indices. simpl. rewrite A, B, C. unfold rmin_list, rmax_list. simpl. unfold Rmin, Rmax.
  repeat match goal with |- context [Rle_dec ?a ?b] => destruct (Rle_dec a b); try lra | |- context [Rlt_dec ?a ?b] => destruct (Rlt_dec a b); try lra end; split; reflexivity.
Qed.

(** ** C40 *)
Lemma quantile_shape l : (2 <= length l)%nat -> forall p, quantile l p = interp_in (nodes (sort l)) (INR (length l - 1) * p).
Proof. intros H p. destruct l as [|x [|y t]]; simpl in H; try lia. reflexivity. Qed.
Lemma sort_length l : length (sort l) = length l.
Proof. apply Permutation_length, sort_perm. Qed.
Lemma nodes_ok l : incr (nodes (sort l)) /\ yincr (nodes (sort l)).
Proof. apply nodes_gen, sort_asc. Qed.
Lemma nodes_first l : l <> [] -> first_x (nodes l) = 0.
Proof. destruct l; [contradiction|reflexivity]. Qed.
(** quantiles exist for every level in [0,1] and grow with the level *)
Theorem C40_quantile_monotone l p p' : l <> [] -> 0 <= p -> p <= p' -> p' <= 1 ->
  exists a b, quantile l p = Some a /\ quantile l p' = Some b /\ a <= b.
Proof.
  intros N H0 Hp H1. destruct l as [|x [|y t]]; [contradiction|exists x, x; repeat split; lra|].
  set (l := x :: y :: t) in *. assert (L2 : (2 <= length l)%nat) by (simpl; lia). rewrite !quantile_shape by exact L2.
  destruct (nodes_ok l) as [A B]. assert (NN : sort l <> []) by (intros E; pose proof (sort_length l) as S; rewrite E in S; discriminate).
  assert (P : 0 < INR (length l - 1)) by (apply lt_0_INR; lia).
  assert (D : forall q, q <= 1 -> exists a, interp_in (nodes (sort l)) (INR (length l - 1) * q) = Some a).
  { intros q Hq. pose proof (nodes_last 0 (sort l) 0 NN) as LX. rewrite sort_length in LX. pose proof (combine_len 0 (sort l)) as CL. rewrite sort_length in CL. fold (length (sort l)) in LX.
    unfold nodes in *. rewrite sort_length in *. destruct (combine (map INR (seq 0 (length l))) (sort l)) as [|[x0 y0] [|[x1 y1] m]]; [simpl in CL; lia|simpl in CL; lia|].
    apply interp_defined; [exact A|]. change (last_x m x1 = INR (length l - 1)) in LX. rewrite LX. nra. }
  destruct (D p ltac:(lra)) as [a Ea]. destruct (D p' H1) as [b Eb]. exists a, b. split; [exact Ea|]. split; [exact Eb|].
  apply (interp_mono _ (INR (length l - 1) * p) (INR (length l - 1) * p') a b A B); [rewrite nodes_first by exact NN; nra|nra|exact Ea|exact Eb].
Qed.
(** the median is the quantile at level 1/2 *)
Theorem C40_median_is_quantile l : l <> [] -> median l = quantile l (1 / 2).
Proof.
  intros N. destruct l as [|x [|y t]]; [contradiction|reflexivity|]. set (l := x :: y :: t). assert (L2 : (2 <= length l)%nat) by (simpl; lia). rewrite quantile_shape by exact L2.
  unfold median. unfold l at 1. destruct (Nat.even (length l)) eqn:E.
  - apply PeanoNat.Nat.even_spec in E. destruct E as [m Hm]. rewrite Hm. replace (2 * m / 2)%nat with m by (apply (PeanoNat.Nat.div_unique _ _ _ 0); lia).
    replace (INR (2 * m - 1) * (1 / 2)) with (INR (0 + (m - 1)) + / 2); [|rewrite plus_O_n, !minus_INR, mult_INR by lia; simpl; lra].
    unfold nodes. rewrite (nodes_mid 0 (sort l) (m - 1) (/ 2)); [|apply sort_asc|rewrite sort_length; lia|lra]. replace (S (m - 1))%nat with m by lia. f_equal. field.
  - assert (O : Nat.odd (length l) = true) by (unfold Nat.odd; rewrite E; reflexivity). apply PeanoNat.Nat.odd_spec in O. destruct O as [m Hm]. rewrite Hm.
    replace ((2 * m + 1) / 2)%nat with m by (apply (PeanoNat.Nat.div_unique _ _ _ 1); lia).
    replace (INR (2 * m + 1 - 1) * (1 / 2)) with (INR (0 + m)); [|replace (2 * m + 1 - 1)%nat with (2 * m)%nat by lia; rewrite mult_INR; simpl; lra].
    symmetry. apply interp_node; [apply nodes_ok|apply nodes_in; rewrite sort_length; lia|unfold nodes; rewrite combine_len, sort_length; exact L2].
Qed.
(** for every valid confidence level the absolute credible interval contains the median,
    so the relative interval around the median has a non-positive lower and a non-negative
    upper end *)
Theorem C40_interval_contains_median l level c : l <> [] -> set_confidence_level level = Some c ->
  exists lo m hi, lower_absolute_credible_interval l c = Some lo /\ median l = Some m /\ upper_absolute_credible_interval l c = Some hi /\ lo <= m <= hi.
Proof.
  intros N H. unfold set_confidence_level in H. destruct (Rlt_dec 0 level); [|discriminate]. destruct (Rlt_dec level 1); [|discriminate]. injection H as <-.
  destruct (C40_quantile_monotone l ((1 - level) / 2) (1 / 2) N ltac:(lra) ltac:(lra) ltac:(lra)) as (lo & m & A & B & C).
  destruct (C40_quantile_monotone l (1 / 2) ((1 + level) / 2) N ltac:(lra) ltac:(lra) ltac:(lra)) as (m' & hi & A' & B' & C').
  rewrite B in A'. injection A' as <-. exists lo, m, hi. rewrite C40_median_is_quantile by exact N. repeat split; assumption.
Qed.
(** wider levels give wider intervals *)
Theorem C40_interval_nested l c c' : l <> [] -> 0 < c -> c <= c' -> c' < 1 ->
  exists lo lo' hi hi', lower_absolute_credible_interval l c = Some lo /\ lower_absolute_credible_interval l c' = Some lo' /\
    upper_absolute_credible_interval l c = Some hi /\ upper_absolute_credible_interval l c' = Some hi' /\ lo' <= lo /\ hi <= hi'.
Proof.
  intros N H0 H H1. destruct (C40_quantile_monotone l ((1 - c') / 2) ((1 - c) / 2) N ltac:(lra) ltac:(lra) ltac:(lra)) as (lo' & lo & A & B & C).
  destruct (C40_quantile_monotone l ((1 + c) / 2) ((1 + c') / 2) N ltac:(lra) ltac:(lra) ltac:(lra)) as (hi & hi' & A' & B' & C'). exists lo, lo', hi, hi'. auto 10.
Qed.
(** with average = 'mean' this fails: the mean of (0, 0, 0, 0, 10) is 2, above the upper
    end of the central 10 percent interval *)
Theorem C40_mean_outside_refuted : exists m hi, mean [0; 0; 0; 0; 10] = Some m /\
  upper_absolute_credible_interval [0; 0; 0; 0; 10] (1 / 10) = Some hi /\ hi < m.
Proof.
  exists 2, 0. split; [unfold mean, Rsum; simpl; f_equal; field|]. split; [|lra].
  unfold upper_absolute_credible_interval. rewrite quantile_shape by (simpl; lia). unfold sort. simpl.
  repeat match goal with |- context [Rle_dec ?a ?b] => destruct (Rle_dec a b); try lra; simpl end.
  unfold nodes. simpl. repeat match goal with |- context [Rle_dec ?a ?b] => destruct (Rle_dec a b); try lra | |- context [Req_EM_T ?a ?b] => destruct (Req_EM_T a b); try lra end.
  f_equal. field.
Qed.

(** ** Assumptions of every theorem above *)
Definition Samples_Props_all :=
  (@C15_reflect_range,
   @C15_reflect_identity,
   @C15_reflect_period,
   @C15_reflect_even,
   @C15_reflect_fibres,
   @C15_reflect_contraction,
   @C16_kish_bounds,
   @C16_kish_equal_weights,
   @C16_kish_shift,
   @C16_kish_order,
   @C16_kish_zero_weight,
   @C16_kish_all_zero,
   @C29_apply_boundaries,
   @C29_never_refused,
   @C29_mcmc_periodic,
   @C29_mcmc_reflective,
   @C40_quantile_monotone,
   @C40_median_is_quantile,
   @C40_interval_contains_median,
   @C40_interval_nested,
   @C40_mean_outside_refuted).
Print Assumptions Samples_Props_all.
