(** C237: the arrival time drawn by a ROQ likelihood. *)
From Coq Require Import Reals List Bool Lra Lia.
From Coquelicot Require Import Complex.
From Verif Require Import RoqTime_Model.
Import ListNotations.
Open Scope list_scope.
Open Scope R_scope.

Lemma sum_scale c l : sum (map (fun x => c * x) l) = c * sum l.
Proof. induction l as [|x l IH]; cbn [map sum fold_right]; [ring|]. unfold sum in IH. rewrite IH. ring. Qed.
Lemma sum_nonneg l : (forall x, In x l -> 0 <= x) -> 0 <= sum l.
Proof. induction l as [|x l IH]; intros H; cbn [sum fold_right]; [apply Rle_refl|]. pose proof (H x (or_introl eq_refl)). assert (0 <= sum l) by (apply IH; intros; apply H; right; assumption). unfold sum in *. lra. Qed.
Lemma sum_zero l : (forall x, In x l -> 0 <= x) -> sum l = 0 -> forall x, In x l -> x = 0.
Proof.
  induction l as [|y l IH]; intros H E x I; [contradiction|]. cbn [sum fold_right] in E. pose proof (H y (or_introl eq_refl)). assert (N : 0 <= sum l) by (apply sum_nonneg; intros; apply H; right; assumption). unfold sum in *.
  destruct I as [<-|I]; [lra|]. apply IH; [intros; apply H; right; assumption|lra|exact I].
Qed.
Lemma sum_all_zero l : (forall x, In x l -> x = 0) -> sum l = 0.
Proof. induction l as [|y l IH]; intros H; [reflexivity|]. cbn [sum fold_right]. rewrite (H y (or_introl eq_refl)). rewrite Rplus_0_l. apply IH. intros; apply H; right; assumption. Qed.
Lemma nth_error_pair {A B} (a : list A) : forall (b : list B) i p, nth_error (combine a b) i = Some p <-> nth_error a i = Some (fst p) /\ nth_error b i = Some (snd p).
Proof.
  induction a as [|x a IH]; intros b i p; [destruct i; cbn; split; intros H; try discriminate; destruct H; discriminate|]. destruct b as [|y b]; [destruct i; cbn; split; intros H; try discriminate; destruct H; discriminate|].
  destruct i as [|i]; cbn [combine nth_error]; [|apply IH]. split; [intros H; injection H as <-; split; reflexivity|]. intros [A1 B1]. injection A1 as ->. injection B1 as ->. destruct p; reflexivity.
Qed.

Lemma snd_combine (s : R) (l : list R) : forall p, length l = length (map (fun x => x / s) p) -> map snd (combine l (map (fun x => x / s) p)) = map (fun x => / s * x) p.
Proof. induction l as [|x l IH]; intros [|y p] LT; cbn in LT; try discriminate; [reflexivity|]. cbn [map combine]. rewrite IH by (injection LT; auto). apply (f_equal (fun z => z :: _)). cbn [snd]. unfold Rdiv. ring. Qed.
Lemma fst_combine (l : list R) : forall p : list R, length l = length p -> map fst (combine l p) = l.
Proof. induction l as [|x l IH]; intros [|y p] LT; cbn in LT; try discriminate; [reflexivity|]. cbn [map combine]. rewrite IH by (injection LT; auto). reflexivity. Qed.

Section Draw.
Variable by_distance : C -> R -> R.
Variable ln_i0 : R -> R.
Variable prob : R -> R.
Variables lowest highest : R.
Hypothesis nonneg : forall t, 0 <= prob t.
(** the prior vanishes outside its range *)
Hypothesis range : forall t, t < lowest \/ highest < t -> prob t = 0.
Notation at_time := (at_time by_distance ln_i0).
Notation time_posterior := (time_posterior by_distance ln_i0 prob).
Notation time_marginalized := (time_marginalized by_distance ln_i0 prob lowest highest).

(** likelihood times prior at every time *)
Definition terms distance phase h ds times : list R := map (fun q => exp (at_time distance phase h (fst q)) * prob (snd q)) (combine ds times).
Lemma post_terms distance phase h (ds : list C) times :
  let ll := map (at_time distance phase h) ds in
  map (fun q => exp (fst q - largest ll) * prob (snd q)) (combine ll times) = map (fun x => exp (- largest ll) * x) (terms distance phase h ds times).
Proof.
  cbv zeta. generalize (largest (map (at_time distance phase h) ds)). intros m. unfold terms. rewrite map_map. revert times. induction ds as [|d ds IH]; intros [|t times]; cbn [map combine]; try reflexivity. rewrite IH. apply (f_equal (fun z => z :: _)). cbn [fst snd]. unfold Rminus. rewrite exp_plus. ring.
Qed.
Lemma terms_nonneg distance phase h ds times x : In x (terms distance phase h ds times) -> 0 <= x.
Proof. intros I. apply in_map_iff in I as (q & <- & _). apply Rmult_le_pos; [left; apply exp_pos|apply nonneg]. Qed.
(** ** C237 The probability of a time is likelihood times prior there over the sum of these *)
Theorem C237_probability distance phase h ds grid jitter r i t p : time_posterior distance phase h ds grid jitter = Some r -> nth_error r i = Some (t, p) ->
  exists d, nth_error ds i = Some d /\ nth_error (times_of grid jitter) i = Some t /\ 0 < sum (terms distance phase h ds (times_of grid jitter)) /\
  p = exp (at_time distance phase h d) * prob t / sum (terms distance phase h ds (times_of grid jitter)) /\ 0 <= p <= 1.
Proof.
  unfold RoqTime_Model.time_posterior. rewrite post_terms. set (ll := map (at_time distance phase h) ds). set (ts := times_of grid jitter). rewrite sum_scale. set (S0 := sum (terms distance phase h ds ts)).
  pose proof (exp_pos (- largest ll)) as EP. destruct (Req_EM_T _ 0) as [Z|NZ]; [discriminate|]. intros H. injection H as <-. intros N. apply nth_error_pair in N as [N1 N2]. cbn [fst snd] in *. rewrite map_map in N2. unfold terms in N2. rewrite map_map in N2. rewrite nth_error_map in N2.
  destruct (nth_error (combine ds ts) i) as [[d t']|] eqn:Q; [|discriminate]. cbn [option_map fst snd] in N2. injection N2 as N2. pose proof Q as Q'. apply nth_error_pair in Q' as [Q1 Q2]. cbn [fst snd] in *. rewrite N1 in Q2. injection Q2 as <-.
  assert (P0 : 0 <= S0) by (apply sum_nonneg; intros x; apply terms_nonneg). assert (NS : S0 <> 0) by (intros E; apply NZ; fold S0 in NZ; rewrite E; ring). assert (PS : 0 < S0) by lra.
  exists d. split; [exact Q1|]. split; [exact N1|]. split; [exact PS|]. fold (at_time distance phase h d) in N2. assert (V : p = exp (at_time distance phase h d) * prob t / S0) by (rewrite <- N2; field; lra). split; [exact V|].
  assert (T : exp (at_time distance phase h d) * prob t <= S0).
  { assert (I : In (exp (at_time distance phase h d) * prob t) (terms distance phase h ds ts)) by (apply (in_map (fun q : C * R => exp (at_time distance phase h (fst q)) * prob (snd q)) _ (d, t)), (nth_error_In _ _ Q)).
    unfold S0. assert (G : forall l x, (forall y, In y l -> 0 <= y) -> In x l -> x <= sum l).
    { clear. induction l as [|y l IH]; intros x H I; [contradiction|]. cbn [sum fold_right]. assert (N : 0 <= sum l) by (apply sum_nonneg; intros; apply H; right; assumption). pose proof (H y (or_introl eq_refl)). destruct I as [<-|I]; [unfold sum in *; lra|]. assert (x <= sum l) by (apply IH; [intros; apply H; right; assumption|exact I]). unfold sum in *. lra. }
    apply G; [intros y; apply terms_nonneg|exact I]. }
  rewrite V. assert (0 <= exp (at_time distance phase h d) * prob t) by (apply Rmult_le_pos; [left; apply exp_pos|apply nonneg]). split; [apply Rmult_le_pos; [assumption|left; apply Rinv_0_lt_compat, PS]|].
  apply (Rmult_le_reg_r S0); [exact PS|]. unfold Rdiv. rewrite Rmult_assoc, Rinv_l by lra. lra.
Qed.
(** ** C237 The probabilities add up to one *)
Theorem C237_total distance phase h ds grid jitter r : length ds = length grid -> time_posterior distance phase h ds grid jitter = Some r -> sum (map snd r) = 1 /\ map fst r = times_of grid jitter.
Proof.
  intros L. unfold RoqTime_Model.time_posterior. rewrite post_terms. set (ll := map (at_time distance phase h) ds). set (post := map _ (terms _ _ _ _ _)). destruct (Req_EM_T _ 0) as [Z|NZ]; [discriminate|]. intros H. injection H as <-.
  assert (LT : length (times_of grid jitter) = length (map (fun x => x / sum post) post)).
  { rewrite map_length. unfold post, terms. rewrite !map_length, combine_length. assert (length (times_of grid jitter) = length grid) by (destruct jitter; [apply map_length|reflexivity]). lia. }
  split.
  - rewrite snd_combine by exact LT. rewrite sum_scale. field. exact NZ.
  - apply fst_combine, LT.
Qed.
(** ** C237 It fails exactly if the prior is zero at every time *)
Theorem C237_fails distance phase h ds grid jitter : length ds = length grid ->
  (time_posterior distance phase h ds grid jitter = None <-> forall t, In t (times_of grid jitter) -> prob t = 0).
Proof.
  intros L. unfold RoqTime_Model.time_posterior. rewrite post_terms. set (ll := map (at_time distance phase h) ds). rewrite sum_scale. set (ts := times_of grid jitter). pose proof (exp_pos (- largest ll)) as EP.
  assert (LT : length ds = length ts) by (unfold ts; destruct jitter; cbn; rewrite ?map_length; exact L).
  destruct (Req_EM_T _ 0) as [Z|NZ]; split; intros H; try discriminate.
  - intros t I. assert (S0 : sum (terms distance phase h ds ts) = 0) by (apply Rmult_integral in Z as [Z|Z]; [lra|exact Z]).
    apply In_nth_error in I as [i I]. destruct (nth_error ds i) as [d|] eqn:D; [|apply nth_error_None in D; assert (i < length ts)%nat by (apply nth_error_Some; congruence); lia].
    assert (Q : nth_error (combine ds ts) i = Some (d, t)) by (apply nth_error_pair; split; assumption).
    pose proof (sum_zero _ (fun x X => terms_nonneg distance phase h ds ts x X) S0 _ (in_map (fun q : C * R => exp (at_time distance phase h (fst q)) * prob (snd q)) _ _ (nth_error_In _ _ Q))) as W. cbn [fst snd] in W.
    apply Rmult_integral in W as [W|W]; [|exact W]. pose proof (exp_pos (at_time distance phase h d)). lra.
  - reflexivity.
  - exfalso. apply NZ. rewrite sum_all_zero; [ring|]. intros x X. apply in_map_iff in X as ((d & t) & <- & I). cbn [snd]. rewrite (H t (in_combine_r _ _ _ _ I)). ring.
Qed.
(** ** C237 Together with the marginalised likelihood: the probability of a time is its share of it *)
Theorem C237_share distance phase h delta ds grid jitter r m i t p d : 0 < delta ->
  time_posterior distance phase h ds grid jitter = Some r -> nth_error r i = Some (t, p) -> nth_error ds i = Some d -> time_marginalized distance phase h delta ds grid jitter = Some m ->
  p * exp m = exp (at_time distance phase h d) * prob t * delta.
Proof.
  intros Hd H N D M. destruct (C237_probability _ _ _ _ _ _ _ _ _ _ H N) as (d' & D' & _ & PS & -> & _). rewrite D in D'. injection D' as <-.
  unfold RoqTime_Model.time_marginalized in M. set (ts := times_of grid jitter) in *.
  match type of M with (if Rlt_dec 0 ?s then _ else _) = _ => assert (E : s = delta * sum (terms distance phase h ds ts)) end.
  { unfold terms. clear - range. induction (combine ds ts) as [|[d t] l IH]; [cbn; ring|]. cbn [filter map snd]. destruct (Rle_dec lowest t) as [A|A]; [destruct (Rle_dec t highest) as [B|B]|]; cbn [andb map sum fold_right fst snd]; unfold sum in *.
    - rewrite IH. ring.
    - rewrite IH, (range t) by lra. ring.
    - rewrite IH, (range t) by lra. ring. }
  rewrite E in M. destruct (Rlt_dec 0 _) as [P|P]; [|discriminate]. injection M as <-. rewrite exp_ln by exact P. field. lra.
Qed.
(** ** C237 With jitter every time drawn is a time of the grid plus the jitter, and the prior is asked there *)
Theorem C237_jitter distance phase h ds grid j r t p : time_posterior distance phase h ds grid (Some j) = Some r -> In (t, p) r -> In (t - j) grid /\ (prob t = 0 -> p = 0).
Proof.
  intros H I. apply In_nth_error in I as [i I]. destruct (C237_probability _ _ _ _ _ _ _ _ _ _ H I) as (d & _ & T & _ & P & _). split.
  - cbn [times_of] in T. rewrite nth_error_map in T. destruct (nth_error grid i) as [g|] eqn:G; [|discriminate]. injection T as <-. replace (g + j - j) with g by ring. exact (nth_error_In _ _ G).
  - intros Z. rewrite P, Z. unfold Rdiv. ring.
Qed.
End Draw.
(** ** C237 An example: two times of equal prior, one with three times the likelihood *)
Example C237_example : exists r, time_posterior (fun _ _ => 0) (fun x => x) (fun _ => 1 / 2) false false 0 ([RtoC 0; RtoC (ln 3)] : list C) [10; 11] (Some (1 / 4)) = Some r /\ r = [(10 + 1 / 4, 1 / 4); (11 + 1 / 4, 3 / 4)].
Proof.
  destruct (time_posterior (fun _ _ => 0) (fun x => x) (fun _ => 1 / 2) false false 0 ([RtoC 0; RtoC (ln 3)] : list C) [10; 11] (Some (1 / 4))) as [r|] eqn:E.
  - exists r. split; [reflexivity|]. assert (NN : forall t : R, 0 <= (fun _ => 1 / 2) t) by (intros; lra).
    pose proof (C237_total (fun _ _ => 0) (fun x => x) (fun _ => 1 / 2) false false 0 ([RtoC 0; RtoC (ln 3)] : list C) [10; 11] (Some (1 / 4)) r eq_refl E) as [_ F]. destruct r as [|[t0 p0] [|[t1 p1] [|? ?]]]; try discriminate F. injection F as F0 F1.
    destruct (C237_probability _ _ _ NN _ _ _ _ _ _ _ 0 t0 p0 E eq_refl) as (d0 & D0 & _ & _ & -> & _). destruct (C237_probability _ _ _ NN _ _ _ _ _ _ _ 1 t1 p1 E eq_refl) as (d1 & D1 & _ & _ & -> & _).
    cbn in D0, D1. injection D0 as <-. injection D1 as <-. unfold terms. cbn [times_of map combine sum fold_right fst snd]. unfold at_time, RtoC. cbn [fst]. replace (0 - 0 / 2) with 0 by field. replace (ln 3 - 0 / 2) with (ln 3) by field. rewrite exp_0, exp_ln by lra. rewrite F0, F1. apply (f_equal2 cons); [apply (f_equal2 pair); [reflexivity|field]|apply (f_equal2 cons); [apply (f_equal2 pair); [reflexivity|field]|reflexivity]].
  - exfalso. assert (NN : forall t : R, 0 <= (fun _ => 1 / 2) t) by (intros; lra).
    pose proof (proj1 (C237_fails (fun _ _ => 0) (fun x => x) (fun _ => 1 / 2) NN false false 0 ([RtoC 0; RtoC (ln 3)] : list C) [10; 11] (Some (1 / 4)) eq_refl) E (10 + 1 / 4) (or_introl eq_refl)) as F. cbn in F. lra.
Qed.

(** ** C237 With marginalised phase the draw does not depend on a common phase of the data *)
Theorem C237_phase by_distance ln_i0 prob h ds grid jitter (u : C) : Cmod u = 1 ->
  time_posterior by_distance ln_i0 prob false true h (map (Cmult u) ds) grid jitter = time_posterior by_distance ln_i0 prob false true h ds grid jitter.
Proof.
  intros U. unfold time_posterior. rewrite map_map. rewrite (map_ext (fun x => at_time by_distance ln_i0 false true h (Cmult u x)) (at_time by_distance ln_i0 false true h)); [reflexivity|].
  intros d. unfold at_time. rewrite Cmod_mult, U, Rmult_1_l. reflexivity.
Qed.

(** ** Assumptions of every theorem above *)
Definition RoqTime_Props_all :=
  (@C237_probability,
   @C237_total,
   @C237_fails,
   @C237_share,
   @C237_jitter,
   @C237_phase).
Print Assumptions RoqTime_Props_all.
