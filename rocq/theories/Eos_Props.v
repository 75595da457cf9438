(** * Tabulated equations of state (C197) *)
From Coq Require Import Reals Lra Lia List Bool Psatz.
From Coquelicot Require Import Coquelicot.
From Verif Require Import PyReal Interp_Model Interp_Proofs Eos_Model.
Import ListNotations.
Open Scope list_scope.
Open Scope R_scope.

Lemma ln10_pos : 0 < ln 10.
Proof. rewrite <- ln_1. apply ln_increasing; lra. Qed.
Lemma ten_lg x : 0 < x -> ten_to (lg x) = x.
Proof. intros H. unfold ten_to, lg. pose proof ln10_pos. replace (ln x / ln 10 * ln 10) with (ln x) by (field; lra). now apply exp_ln. Qed.
Lemma log10_some x : 0 < x -> log10 x = Some (lg x).
Proof. intros H. unfold log10, lg. destruct (Rle_dec x 0); [lra|reflexivity]. Qed.
Lemma lg_increasing x y : 0 < x -> x < y -> lg x < lg y.
Proof. intros A B. unfold lg. apply Rmult_lt_compat_r; [apply Rinv_0_lt_compat, ln10_pos|]. now apply ln_increasing. Qed.
(** below the minimum the look-up is a power law *)
Lemma ten_power x x0 y0 n : 0 < x -> 0 < x0 -> 0 < y0 -> ten_to (lg y0 + n * (lg x - lg x0)) = y0 * Rpower (x / x0) n.
Proof.
  intros. unfold ten_to, lg, Rpower. pose proof ln10_pos. replace ((ln y0 / ln 10 + n * (ln x / ln 10 - ln x0 / ln 10)) * ln 10) with (ln y0 + n * (ln x - ln x0)) by (field; lra).
  rewrite exp_plus, exp_ln by assumption. f_equal. f_equal. rewrite ln_div by assumption. ring.
Qed.

(** *** increasing lists *)
Lemma increasing_cons a b t : increasing (a :: b :: t) = true <-> a < b /\ increasing (b :: t) = true.
Proof. change (increasing (a :: b :: t)) with ((if Rlt_dec a b then true else false) && increasing (b :: t)). rewrite andb_true_iff. destruct (Rlt_dec a b); intuition discriminate. Qed.
Lemma increasing_tail a t : increasing (a :: t) = true -> increasing t = true.
Proof. destruct t as [|b t]; [reflexivity|]. intros H. apply increasing_cons in H. tauto. Qed.
Lemma increasing_lt a t x : increasing (a :: t) = true -> In x t -> a < x.
Proof.
  revert a. induction t as [|b t IH]; intros a H I; [destruct I|]. apply increasing_cons in H. destruct H as [L H]. destruct I as [<-|I]; [exact L|]. specialize (IH b H I). lra.
Qed.
Lemma increasing_steps l : increasing l = true <-> forall i, (S i < length l)%nat -> nth i l 0 < nth (S i) l 0.
Proof.
  induction l as [|a l IH]; [split; [intros _ i Hi; cbn in Hi; lia|reflexivity]|]. destruct l as [|b l]; [split; [intros _ i Hi; cbn in Hi; lia|reflexivity]|].
  rewrite increasing_cons, IH. split.
  - intros [L H] [|i] Hi; [exact L|]. apply (H i). cbn in *. lia.
  - intros H. split; [apply (H 0%nat); cbn; lia|]. intros i Hi. apply (H (S i)). cbn in *. lia.
Qed.
Lemma all_positive_in l : all_positive l = true <-> forall x, In x l -> 0 < x.
Proof.
  unfold all_positive. rewrite forallb_forall. split; intros H x Hx; specialize (H x Hx); destruct (Rlt_dec 0 x); auto; discriminate.
Qed.
Lemma increasing_map_lg l : all_positive l = true -> increasing l = true -> increasing (map lg l) = true.
Proof.
  rewrite all_positive_in, !increasing_steps. intros P H i Hi. rewrite map_length in Hi. change 0 with (0:R). rewrite (nth_indep (map lg l) 0 (lg 0)) by (rewrite map_length; lia).
  rewrite (nth_indep (map lg l) 0 (lg 0)) by (rewrite map_length; lia). rewrite !map_nth. apply lg_increasing; [|apply H; exact Hi]. apply P, nth_In. lia.
Qed.
Lemma min_increasing a t : increasing (a :: t) = true -> min_list (a :: t) = Some a.
Proof.
  intros H. cbn [min_list]. f_equal. pose proof (fun x => increasing_lt a t x H) as L. clear H. revert L. induction t as [|b t IH]; intros L; [reflexivity|]. cbn [fold_left].
  rewrite Rmin_left by (left; apply L; left; reflexivity). apply IH. intros x Hx. apply L. right. exact Hx.
Qed.
Lemma nth_map_r (f : R -> R) (l : list R) i : (i < length l)%nat -> nth i (map f l) 0 = f (nth i l 0).
Proof. intros H. rewrite (nth_indep (map f l) 0 (f 0)) by (rewrite map_length; exact H). apply map_nth. Qed.

Section Tables.
Variable spline : list R -> list R -> R -> R.
(** a spline goes through its points *)
Hypothesis spline_node : forall xs ys i, splinable xs ys = true -> (i < length xs)%nat -> spline xs ys (nth i xs 0) = nth i ys 0.
Notation look := (look_up spline).

Lemma splinable_spec xs ys : splinable xs ys = true <-> (2 <= length xs)%nat /\ length xs = length ys /\ increasing xs = true.
Proof. unfold splinable. rewrite !andb_true_iff, Nat.leb_le, Nat.eqb_eq. tauto. Qed.
Lemma splinable_lg xs ys : all_positive xs = true -> splinable xs ys = true -> splinable (map lg xs) (map lg ys) = true.
Proof. intros P H. apply splinable_spec in H. apply splinable_spec. rewrite !map_length. destruct H as (A & B & D). split; [exact A|]. split; [exact B|]. now apply increasing_map_lg. Qed.
Lemma incr_combine xs ys : length xs = length ys -> increasing xs = true -> incr (combine xs ys).
Proof.
  revert ys. induction xs as [|a xs IH]; intros [|y ys] L H; try discriminate L; [exact I|]. destruct xs as [|b xs]; destruct ys as [|z ys]; try discriminate L; [exact I|].
  apply increasing_cons in H. destruct H as [A H]. cbn [combine incr]. split; [exact A|]. apply (IH (z :: ys)); [now injection L as L; cbn; f_equal|exact H].
Qed.
Lemma look_node k xs ys n i : k <> OtherKind -> all_positive xs = true -> all_positive ys = true -> splinable xs ys = true -> (i < length xs)%nat ->
  look xs ys n k (nth i xs 0) = Some (nth i ys 0).
Proof.
  intros K PX PY S Hi. pose proof S as S'. apply splinable_spec in S'. destruct S' as (L2 & LE & IN).
  destruct xs as [|x0 xs]; [cbn in Hi; lia|]. destruct ys as [|y0 ys]; [discriminate LE|]. unfold look_up. rewrite (min_increasing x0 xs IN). cbn [bindo].
  assert (G : x0 <= nth i (x0 :: xs) 0).
  { destruct i as [|i]; [right; reflexivity|]. left. apply (increasing_lt x0 xs _ IN). cbn [nth]. apply nth_In. cbn in Hi. lia. }
  destruct (Rlt_dec (nth i (x0 :: xs) 0) x0) as [L|_]; [lra|]. assert (P : 0 < nth i (x0 :: xs) 0) by (rewrite all_positive_in in PX; apply PX, nth_In; exact Hi).
  assert (PYi : 0 < nth i (y0 :: ys) 0) by (rewrite all_positive_in in PY; apply PY, nth_In; cbn [length] in *; lia).
  destruct k; [| |now destruct K].
  - rewrite log10_some by exact P. cbn [bindo]. rewrite <- (nth_map_r lg (x0 :: xs) i Hi). rewrite spline_node by (try (apply splinable_lg; assumption); rewrite map_length; exact Hi).
    rewrite (nth_map_r lg (y0 :: ys) i) by (cbn [length] in *; lia). now rewrite ten_lg.
  - unfold np_interp. destruct (Rlt_dec (nth i (x0 :: xs) 0) x0) as [L|_]; [lra|].
    assert (LL : nth i (x0 :: xs) 0 <= last (x0 :: xs) 0).
    { clear - IN Hi. revert x0 i IN Hi. induction xs as [|b xs IH]; intros x0 i IN Hi; [destruct i as [|i]; [right; reflexivity|cbn in Hi; lia]|].
      change (last (x0 :: b :: xs) 0) with (last (b :: xs) 0). pose proof (increasing_tail _ _ IN) as IN'. destruct i as [|i].
      - cbn [nth]. apply increasing_cons in IN. specialize (IH b 0%nat IN' ltac:(cbn; lia)). cbn [nth] in IH. lra.
      - apply (IH b i IN'). cbn in *. lia. }
    destruct (Rlt_dec (last (x0 :: xs) 0) (nth i (x0 :: xs) 0)) as [L|_]; [lra|]. apply interp_node.
    + now apply incr_combine.
    + rewrite <- combine_nth by exact LE. apply nth_In. rewrite combine_length. cbn [length] in *. lia.
    + rewrite combine_length. cbn [length] in *. lia.
Qed.
(** a look-up always answers for a positive argument *)
Lemma look_cubic_some xs ys n x : all_positive xs = true -> all_positive ys = true -> splinable xs ys = true -> 0 < x -> exists y, look xs ys n Cubic x = Some y /\ 0 < y.
Proof.
  intros PX PY S Hx. pose proof S as S'. apply splinable_spec in S'. destruct S' as (L2 & LE & IN). destruct xs as [|x0 xs]; [cbn in L2; lia|]. destruct ys as [|y0 ys]; [discriminate LE|].
  unfold look_up. rewrite (min_increasing x0 xs IN). cbn [bindo]. rewrite all_positive_in in PX, PY. rewrite (log10_some x Hx). rewrite (log10_some x0) by (apply PX; left; reflexivity). rewrite (log10_some y0) by (apply PY; left; reflexivity). cbn [bindo].
  destruct (Rlt_dec x x0); eexists; (split; [reflexivity|apply exp_pos]).
Qed.

(** *** the pseudo-enthalpies *)
Lemma enthalpies_length acc t : length (enthalpies acc t) = length t.
Proof. revert acc. induction t as [|a [|b t] IH]; intros acc; [reflexivity|reflexivity|]. change (enthalpies acc (a :: b :: t)) with (acc :: enthalpies (acc + (ln (fst b) - ln (fst a)) * (integrand a + integrand b) / 2) (b :: t)). cbn [length]. f_equal. apply (IH _). Qed.
Lemma enthalpies_nth acc t i : (S i < length t)%nat ->
  nth (S i) (enthalpies acc t) 0 = nth i (enthalpies acc t) 0 + (ln (fst (nth (S i) t (0, 0))) - ln (fst (nth i t (0, 0)))) * (integrand (nth i t (0, 0)) + integrand (nth (S i) t (0, 0))) / 2.
Proof.
  revert acc i. induction t as [|a [|b t] IH]; intros acc i Hi; [cbn in Hi; lia|cbn in Hi; lia|].
  change (enthalpies acc (a :: b :: t)) with (acc :: enthalpies (acc + (ln (fst b) - ln (fst a)) * (integrand a + integrand b) / 2) (b :: t)). destruct i as [|i].
  - cbn [nth]. destruct t; reflexivity.
  - change (nth (S (S i)) (acc :: ?l) 0) with (nth (S i) l 0). change (nth (S i) (acc :: ?l) 0) with (nth i l 0). cbn [nth] in *. apply (IH _ i). cbn in *. lia.
Qed.
Definition good_table (t : list row) : Prop :=
  (2 <= length t)%nat /\ all_positive (map fst t) = true /\ all_positive (map snd t) = true /\ increasing (map fst t) = true /\ increasing (map snd t) = true.
Definition the_enthalpies (t : list row) : list R := match t with [] => [] | a :: _ => enthalpies (integrand a) t end.
Lemma integrand_pos a : 0 < fst a -> 0 < snd a -> 0 < integrand a.
Proof. intros. unfold integrand. apply Rdiv_lt_0_compat; lra. Qed.
Lemma map_fst_nth (t : list row) i : nth i (map fst t) 0 = fst (nth i t (0, 0)).
Proof. change 0 with (fst (0, 0)) at 1. apply map_nth. Qed.
Lemma map_snd_nth (t : list row) i : nth i (map snd t) 0 = snd (nth i t (0, 0)).
Proof. change 0 with (snd (0, 0)) at 1. apply map_nth. Qed.
Lemma good_row t i : good_table t -> (i < length t)%nat -> 0 < fst (nth i t (0, 0)) /\ 0 < snd (nth i t (0, 0)).
Proof.
  intros (_ & P & E & _) Hi. rewrite all_positive_in in P, E. split; [apply P, in_map, nth_In; exact Hi|apply E, in_map, nth_In; exact Hi].
Qed.
Lemma enthalpies_good t : good_table t -> length (the_enthalpies t) = length t /\ increasing (the_enthalpies t) = true /\ all_positive (the_enthalpies t) = true.
Proof.
  intros G. destruct t as [|a t]; [destruct G as (L & _); cbn in L; lia|]. cbn [the_enthalpies]. set (T := a :: t) in *. assert (I : increasing (enthalpies (integrand a) T) = true).
  { apply increasing_steps. intros i Hi. rewrite enthalpies_length in Hi. rewrite (enthalpies_nth _ _ _ Hi). destruct (good_row T i G ltac:(lia)) as [A B]. destruct (good_row T (S i) G Hi) as [A' B'].
    destruct G as (_ & _ & _ & IP & _). rewrite increasing_steps in IP. specialize (IP i ltac:(rewrite map_length; exact Hi)). rewrite !map_fst_nth in IP.
    pose proof (ln_increasing _ _ A IP) as LN. pose proof (integrand_pos _ A B). pose proof (integrand_pos _ A' B').
    assert (0 < (ln (fst (nth (S i) T (0, 0))) - ln (fst (nth i T (0, 0)))) * (integrand (nth i T (0, 0)) + integrand (nth (S i) T (0, 0)))) by (apply Rmult_lt_0_compat; lra). lra. }
  split; [apply enthalpies_length|]. split; [exact I|]. apply all_positive_in. intros x Hx. destruct (good_row T 0 G ltac:(unfold T; cbn; lia)) as [A B]. pose proof (integrand_pos _ A B) as P0. change (0 < integrand a) in P0.
  assert (E : exists r, enthalpies (integrand a) T = integrand a :: r) by (unfold T; destruct t; eexists; reflexivity). destruct E as [r E]. rewrite E in *. destruct Hx as [<-|Hx]; [exact P0|]. pose proof (increasing_lt _ _ _ I Hx) as LT. apply Rlt_trans with (1 := P0) (2 := LT).
Qed.
Lemma mapo_nodes (f : R -> option R) xs ys : length xs = length ys -> (forall i, (i < length xs)%nat -> f (nth i xs 0) = Some (nth i ys 0)) -> mapo f xs = Some ys.
Proof.
  revert ys. induction xs as [|x xs IH]; intros [|y ys] L H; try discriminate L; [reflexivity|]. cbn [mapo]. pose proof (H 0%nat ltac:(cbn; lia)) as H0. cbn [nth] in H0. rewrite H0.
  rewrite (IH ys ltac:(now injection L)); [reflexivity|]. intros i Hi. apply (H (S i)). cbn. lia.
Qed.
Lemma last_nth_r (l : list R) : last l 0 = nth (length l - 1) l 0.
Proof. induction l as [|a [|b l] IH]; [reflexivity|reflexivity|]. change (last (a :: b :: l) 0) with (last (b :: l) 0). rewrite IH. cbn [length]. replace (S (S (length l)) - 1)%nat with (S (S (length l) - 1)) by lia. reflexivity. Qed.
Lemma causal_some t h s : good_table t -> e_p s = map fst t -> e_e s = map snd t -> e_h s = h -> length h = length t -> increasing h = true -> all_positive h = true ->
  exists b, check_causality spline s = Some b.
Proof.
  intros (L2 & P & E & IP & IE) EP EE EH LH IH PH.
  assert (SP : splinable (map fst t) (map snd t) = true) by (apply splinable_spec; rewrite !map_length; auto). assert (SE : splinable (map snd t) h = true) by (apply splinable_spec; rewrite !map_length; auto).
  unfold check_causality. rewrite EP. destruct (map fst t) as [|p0 ps] eqn:EM; [destruct t; [cbn in L2; lia|discriminate EM]|]. rewrite <- EM in *.
  unfold energy_from_pressure. rewrite EP, EE. rewrite last_nth_r, look_node; try assumption; try discriminate; [|rewrite map_length; lia]. cbn [bindo].
  unfold enthalpy_from_energy. rewrite EE, EH. rewrite look_node; try assumption; try discriminate; [|rewrite !map_length; lia]. cbn [bindo]. destruct (sound_speed _ _ _ _); eexists; reflexivity.
Qed.
(** A table of at least two rows with positive, increasing pressures and energy densities is accepted.  The pseudo-enthalpies start
    at p/(e+p), grow by the trapezoidal rule for dp/(e+p) in the logarithm of the pressure, and increase strictly; only in sampling mode can there be a warning. *)
Theorem C197_built t smp : good_table t -> exists s, tabular spline t smp false = Some s /\ e_p s = map fst t /\ e_e s = map snd t /\ (warning s = true -> smp = true) /\
  nth 0 (e_h s) 0 = fst (nth 0 t (0, 0)) / (snd (nth 0 t (0, 0)) + fst (nth 0 t (0, 0))) /\
  (forall i, (S i < length t)%nat -> nth i (e_h s) 0 < nth (S i) (e_h s) 0 /\
     nth (S i) (e_h s) 0 - nth i (e_h s) 0 = (ln (fst (nth (S i) t (0, 0))) - ln (fst (nth i t (0, 0)))) * (integrand (nth i t (0, 0)) + integrand (nth (S i) t (0, 0))) / 2).
Proof.
  intros G. pose proof G as (L2 & P & E & IP & IE). destruct (enthalpies_good t G) as (LH & IH & PH). unfold tabular.
  assert (RZ : remove_leading_zero t = Some t).
  { destruct t as [|[p e] t]; [cbn in L2; lia|]. destruct (good_row _ 0 G ltac:(cbn; lia)) as [A B]. cbn in A, B. cbn. destruct (Req_EM_T p 0); [lra|]. destruct (Req_EM_T e 0); [lra|reflexivity]. }
  rewrite RZ. cbn [bindo]. assert (MF : exists m, min_list (map fst t) = Some m) by (destruct t; [cbn in L2; lia|eexists; reflexivity]). destruct MF as [m MF]. rewrite MF. cbn [bindo].
  assert (CM : check_monotonicity t = true) by reflexivity. rewrite CM. cbn [negb andb orb].
  assert (SP : splinable (map fst t) (map snd t) = true) by (apply splinable_spec; rewrite !map_length; auto). assert (SE : splinable (map snd t) (the_enthalpies t) = true) by (apply splinable_spec; rewrite !map_length; auto).
  assert (SH : splinable (the_enthalpies t) (map snd t) = true) by (apply splinable_spec; rewrite !map_length, LH; auto).
  fold (the_enthalpies t). rewrite P, E, SP, SE, SH. cbn [andb].
  unfold all_tables. cbn [e_e]. rewrite (mapo_nodes (enthalpy_from_energy spline (mkEos (map fst t) (map snd t) (the_enthalpies t) smp false) Cubic) (map snd t) (the_enthalpies t)).
  2: { now rewrite map_length. }
  2: { intros i Hi. unfold enthalpy_from_energy. cbn [e_e e_h]. apply look_node; try assumption. discriminate. }
  cbn [bindo]. destruct (causal_some t (the_enthalpies t) (mkEos (map fst t) (map snd t) (the_enthalpies t) smp false) G eq_refl eq_refl eq_refl LH IH PH) as [b Eb]. rewrite Eb. cbn [bindo].
  eexists. split; [reflexivity|]. cbn [e_p e_e e_h warning]. split; [reflexivity|]. split; [reflexivity|]. split; [rewrite andb_true_iff; tauto|]. split.
  - destruct t as [|a t]; [cbn in L2; lia|]. cbn [the_enthalpies nth]. destruct t; reflexivity.
  - intros i Hi. rewrite increasing_steps in IH. split; [apply IH; rewrite LH; exact Hi|]. destruct t as [|a t]; [cbn in L2; lia|]. cbn [the_enthalpies]. rewrite (enthalpies_nth _ _ _ Hi). ring.
Qed.
Lemma built_is t smp s : good_table t -> tabular spline t smp false = Some s -> e_p s = map fst t /\ e_e s = map snd t /\ e_h s = the_enthalpies t.
Proof.
  intros G H. destruct (C197_built t smp G) as (s' & H' & A & B & _ & H0 & HS). rewrite H in H'. apply some_inj in H'. subst s'. split; [exact A|]. split; [exact B|].
  destruct (enthalpies_good t G) as (LH & _). unfold tabular in H. destruct (remove_leading_zero t) as [t'|] eqn:RZ; [|discriminate]. cbn [bindo] in H. destruct (min_list (map fst t')); [|discriminate]. cbn [bindo] in H.
  assert (t' = t). { destruct t as [|[p e] t]; [discriminate|]. destruct (good_row _ 0 G ltac:(cbn; lia)) as [Pa Pb]. cbn in Pa, Pb. cbn in RZ. destruct (Req_EM_T p 0); [lra|]. destruct (Req_EM_T e 0); [lra|]. now apply some_inj in RZ. } subst t'.
  change (check_monotonicity t) with true in H. cbn [negb andb orb] in H. fold (the_enthalpies t) in H. destruct (_ && _) eqn:SS in H; [|discriminate].
  unfold all_tables in H. cbn [e_e] in H. rewrite (mapo_nodes _ (map snd t) (the_enthalpies t)) in H.
  - cbn [bindo] in H. destruct (check_causality _ _) in H; [|discriminate]. cbn [bindo] in H. apply some_inj in H. subst s. reflexivity.
  - now rewrite map_length.
  - intros i Hi. unfold enthalpy_from_energy. cbn [e_e e_h]. rewrite !andb_true_iff in SS. destruct (enthalpies_good t G) as (_ & _ & PH). apply look_node; try tauto. discriminate.
Qed.
(** At the rows of the table all four look-ups give the row, with either interpolation. *)
Theorem C197_nodes t smp s k i : good_table t -> tabular spline t smp false = Some s -> k <> OtherKind -> (i < length t)%nat ->
  let p := fst (nth i t (0, 0)) in let e := snd (nth i t (0, 0)) in let h := nth i (e_h s) 0 in
  energy_from_pressure spline s k p = Some e /\ pressure_from_enthalpy spline s k h = Some p /\ energy_from_enthalpy spline s k h = Some e /\ enthalpy_from_energy spline s k e = Some h.
Proof.
  intros G H K Hi. destruct (built_is t smp s G H) as (A & B & D). destruct (enthalpies_good t G) as (LH & IH & PH). pose proof G as (L2 & P & E & IP & IE). cbv zeta. unfold energy_from_pressure, pressure_from_enthalpy, energy_from_enthalpy, enthalpy_from_energy.
  rewrite A, B, D. rewrite <- (map_fst_nth t i), <- (map_snd_nth t i). repeat split; apply look_node; try assumption; try (apply splinable_spec; rewrite ?map_length, ?LH; auto); rewrite ?map_length, ?LH; exact Hi.
Qed.
(** Below the table the three laws p ~ h^(5/2), e ~ h^(3/2) and e ~ p^(3/5) are those of one polytrope that joins the first row:
    they are consistent, invertible and increasing. *)
Lemma look_low k xs ys n x : k <> OtherKind -> all_positive xs = true -> all_positive ys = true -> splinable xs ys = true -> 0 < x < nth 0 xs 0 ->
  look xs ys n k x = Some (nth 0 ys 0 * Rpower (x / nth 0 xs 0) n).
Proof.
  intros K PX PY S Hx. apply splinable_spec in S. destruct S as (L2 & LE & IN). destruct xs as [|x0 xs]; [cbn in L2; lia|]. destruct ys as [|y0 ys]; [discriminate LE|]. cbn [nth] in *.
  unfold look_up. rewrite (min_increasing x0 xs IN). cbn [bindo]. destruct (Rlt_dec x x0); [|lra]. rewrite all_positive_in in PX, PY. assert (0 < x0) by (apply PX; left; reflexivity). assert (0 < y0) by (apply PY; left; reflexivity).
  rewrite !log10_some by lra. cbn [bindo]. rewrite ten_power by lra. destruct k; [reflexivity|reflexivity|now destruct K].
Qed.
Lemma power_below x n : 0 < x < 1 -> 0 < n -> 0 < Rpower x n < 1.
Proof.
  intros Hx Hn. split; [apply exp_pos|]. unfold Rpower. rewrite <- exp_0. apply exp_increasing. assert (ln x < 0) by (rewrite <- ln_1; apply ln_increasing; lra). nra.
Qed.
Theorem C197_low t smp s k h : good_table t -> tabular spline t smp false = Some s -> k <> OtherKind -> 0 < h < nth 0 (e_h s) 0 ->
  exists p e, pressure_from_enthalpy spline s k h = Some p /\ energy_from_enthalpy spline s k h = Some e /\
    0 < p < fst (nth 0 t (0, 0)) /\ 0 < e < snd (nth 0 t (0, 0)) /\
    energy_from_pressure spline s k p = Some e /\ enthalpy_from_energy spline s k e = Some h /\
    p = fst (nth 0 t (0, 0)) * Rpower (h / nth 0 (e_h s) 0) 2.5 /\
    forall h' p' e', h < h' < nth 0 (e_h s) 0 -> pressure_from_enthalpy spline s k h' = Some p' -> energy_from_enthalpy spline s k h' = Some e' -> p < p' /\ e < e'.
Proof.
  intros G H K Hh. destruct (built_is t smp s G H) as (A & B & D). destruct (enthalpies_good t G) as (LH & IH & PH). pose proof G as (L2 & P & E & IP & IE). unfold energy_from_pressure, pressure_from_enthalpy, energy_from_enthalpy, enthalpy_from_energy.
  rewrite A, B, D in *. destruct (good_row t 0 G ltac:(lia)) as [P0 E0].
  assert (S1 : splinable (the_enthalpies t) (map fst t) = true) by (apply splinable_spec; rewrite ?map_length, ?LH; auto). assert (S2 : splinable (the_enthalpies t) (map snd t) = true) by (apply splinable_spec; rewrite ?map_length, ?LH; auto).
  assert (S3 : splinable (map fst t) (map snd t) = true) by (apply splinable_spec; rewrite ?map_length, ?LH; auto). assert (S4 : splinable (map snd t) (the_enthalpies t) = true) by (apply splinable_spec; rewrite ?map_length, ?LH; auto).
  rewrite (look_low k (the_enthalpies t) (map fst t) 2.5 h K PH P S1 Hh), (look_low k (the_enthalpies t) (map snd t) 1.5 h K PH E S2 Hh). rewrite !map_fst_nth, !map_snd_nth.
  set (h0 := nth 0 (the_enthalpies t) 0) in *. set (p0 := fst (nth 0 t (0, 0))) in *. set (e0 := snd (nth 0 t (0, 0))) in *. set (u := h / h0).
  assert (U : 0 < u < 1) by (unfold u; split; [apply Rdiv_lt_0_compat; lra|apply (Rmult_lt_reg_r h0); [lra|]; replace (h / h0 * h0) with h by (field; lra); lra]).
  destruct (power_below u 2.5 U ltac:(lra)) as [Q1 Q2]. destruct (power_below u 1.5 U ltac:(lra)) as [Q3 Q4].
  assert (PP : 0 < p0 * Rpower u 2.5 < p0) by (split; [apply Rmult_lt_0_compat; lra|rewrite <- (Rmult_1_r p0) at 2; apply Rmult_lt_compat_l; lra]).
  assert (EE : 0 < e0 * Rpower u 1.5 < e0) by (split; [apply Rmult_lt_0_compat; lra|rewrite <- (Rmult_1_r e0) at 2; apply Rmult_lt_compat_l; lra]).
  exists (p0 * Rpower u 2.5), (e0 * Rpower u 1.5). split; [reflexivity|]. split; [reflexivity|]. split; [exact PP|]. split; [exact EE|]. split; [|split; [|split; [reflexivity|]]].
  - rewrite look_low; try assumption; [|rewrite map_fst_nth; exact PP]. rewrite map_fst_nth, map_snd_nth. fold p0 e0. f_equal. f_equal. replace (p0 * Rpower u 2.5 / p0) with (Rpower u 2.5) by (field; lra). rewrite Rpower_mult. f_equal. lra.
  - rewrite look_low; try assumption; [|rewrite map_snd_nth; exact EE]. rewrite map_snd_nth. fold h0 e0. f_equal. replace (e0 * Rpower u 1.5 / e0) with (Rpower u 1.5) by (field; lra). rewrite Rpower_mult. replace (1.5 * (2 / 3)) with 1 by lra. rewrite Rpower_1 by lra. unfold u. field. lra.
  - intros h' p' e' Hh' E1 E2. rewrite look_low in E1 by (try assumption; fold h0; lra). rewrite look_low in E2 by (try assumption; fold h0; lra). rewrite map_fst_nth in E1. rewrite map_snd_nth in E2. fold h0 p0 in E1. fold h0 e0 in E2. apply some_inj in E1, E2. subst p' e'.
    assert (L : u < h' / h0) by (unfold u; apply Rmult_lt_compat_r; [apply Rinv_0_lt_compat; lra|lra]).
    assert (M : forall n, 0 < n -> Rpower u n < Rpower (h' / h0) n) by (intros n Hn; apply Rlt_Rpower_l; lra).
    split; apply Rmult_lt_compat_l; try assumption; apply M; lra.
Qed.
(** check_monotonicity holds for every table, so a table that is not increasing is never flagged: it is refused, in sampling mode too. *)
Theorem C197_monotone_refuted t smp : check_monotonicity t = true /\
  ((2 <= length t)%nat -> all_positive (map fst t) = true -> all_positive (map snd t) = true -> ~ good_table t -> tabular spline t smp false = None).
Proof.
  split; [reflexivity|]. intros L2 P E NG. unfold tabular. destruct t as [|[p e] t]; [cbn in L2; lia|]. rewrite all_positive_in in P, E. assert (0 < p) by (apply P; left; reflexivity). assert (0 < e) by (apply E; left; reflexivity).
  cbn [remove_leading_zero]. destruct (Req_EM_T p 0); [lra|]. destruct (Req_EM_T e 0); [lra|]. cbn [bindo]. destruct (min_list _); [|reflexivity]. cbn [bindo]. change (check_monotonicity ((p, e) :: t)) with true. cbn [negb andb orb].
  destruct (_ && _) eqn:SS; [|reflexivity]. exfalso. apply NG. rewrite !andb_true_iff in SS. destruct SS as ((((A1 & A2) & A3) & A4) & A5). apply splinable_spec in A3, A5. unfold good_table. tauto.
Qed.
(** One leading row with a zero is dropped, a second one makes the table unusable. *)
Theorem C197_leading r0 t smp : (fst r0 = 0 \/ snd r0 = 0) -> good_table t -> tabular spline (r0 :: t) smp false = tabular spline t smp false /\ forall r1, (fst r1 = 0 \/ snd r1 = 0) -> tabular spline (r0 :: r1 :: t) smp false = None.
Proof.
  intros Z G. destruct r0 as [p e]. cbn [fst snd] in Z. assert (RZ : forall u, remove_leading_zero ((p, e) :: u) = Some u) by (intros u; cbn; destruct (Req_EM_T p 0); [reflexivity|]; destruct (Req_EM_T e 0); [reflexivity|]; destruct Z; contradiction).
  split.
  - unfold tabular. rewrite RZ. assert (RT : remove_leading_zero t = Some t). { pose proof G as (L2 & _). destruct t as [|[p1 e1] t]; [cbn in L2; lia|]. destruct (good_row _ 0 G ltac:(cbn; lia)) as [A B]. cbn in A, B. cbn. destruct (Req_EM_T p1 0); [lra|]. destruct (Req_EM_T e1 0); [lra|reflexivity]. } now rewrite RT.
  - intros [p1 e1] Z1. cbn [fst snd] in Z1. unfold tabular. rewrite RZ. cbn [bindo map min_list]. change (check_monotonicity ((p1, e1) :: t)) with true. cbn [negb andb orb].
    assert (AP : all_positive (p1 :: map fst t) && all_positive (e1 :: map snd t) = false).
    { apply not_true_is_false. rewrite andb_true_iff, !all_positive_in. intros [A B]. specialize (A p1 ltac:(left; reflexivity)). specialize (B e1 ltac:(left; reflexivity)). destruct Z1; lra. }
    cbn [map fst snd]. rewrite AP. reflexivity.
Qed.
(** With the warning flag the table is not examined. *)
Theorem C197_warned r t smp : fst r <> 0 -> snd r <> 0 -> tabular spline (r :: t) smp true = Some (mkEos (map fst (r :: t)) (map snd (r :: t)) [] smp true).
Proof. intros A B. destruct r as [p e]. cbn [fst snd] in *. unfold tabular. cbn [remove_leading_zero]. destruct (Req_EM_T p 0); [contradiction|]. destruct (Req_EM_T e 0); [contradiction|]. cbn [bindo map min_list]. rewrite orb_true_r. reflexivity. Qed.
(** *** a table with energy density K times the pressure: the speed of sound is 1/sqrt K *)
Section Stiff.
Hypothesis two_points : forall x0 x1 y0 y1 x, x0 < x1 -> spline [x0; x1] [y0; y1] x = y0 + (y1 - y0) / (x1 - x0) * (x - x0).
Definition stiff (K : R) : list row := [(1, K); (2, 2 * K)].
Lemma stiff_good K : 0 < K -> good_table (stiff K).
Proof.
  intros H. unfold good_table, stiff. cbn [map fst snd length]. split; [lia|]. split; [apply all_positive_in; intros x [<-|[<-|[]]]; lra|]. split; [apply all_positive_in; intros x [<-|[<-|[]]]; lra|].
  split; apply increasing_cons; (split; [lra|reflexivity]).
Qed.
Lemma stiff_energy K s p : 0 < K -> e_p s = [1; 2] -> e_e s = [K; 2 * K] -> 1 <= p -> energy_from_pressure spline s Cubic p = Some (K * p).
Proof.
  intros H A B Hp. unfold energy_from_pressure. rewrite A, B. unfold look_up. rewrite min_increasing by (apply increasing_cons; split; [lra|reflexivity]). cbn [bindo]. destruct (Rlt_dec p 1); [lra|]. rewrite log10_some by lra. cbn [bindo map].
  assert (L2 : 0 < lg 2 - lg 1) by (pose proof (lg_increasing 1 2 ltac:(lra) ltac:(lra)); lra). rewrite two_points by lra.
  assert (LK : lg (2 * K) = lg 2 + lg K) by (unfold lg; rewrite ln_mult by lra; pose proof ln10_pos; field; lra). assert (L1 : lg 1 = 0) by (unfold lg; rewrite ln_1; unfold Rdiv; ring).
  rewrite LK, L1. replace (lg K + (lg 2 + lg K - lg K) / (lg 2 - 0) * (lg p - 0)) with (lg K + lg p) by (field; lra). replace (lg K + lg p) with (lg (K * p)) by (unfold lg; rewrite ln_mult by lra; pose proof ln10_pos; field; lra). rewrite ten_lg by nra. reflexivity.
Qed.
Lemma stiff_dedp K s : 0 < K -> e_p s = [1; 2] -> e_e s = [K; 2 * K] -> dedp spline s Cubic 2 = Some K.
Proof.
  intros H A B. unfold dedp. rewrite !(stiff_energy K) by (try assumption; lra). cbn [bindo]. rewrite pdiv_some by lra. f_equal. replace 1e-5 with (1 / 100000) by lra. field.
Qed.
(** The check of causality allows speeds up to 1.1 times that of light. *)
Theorem C197_causal K : 0 < K -> exists s, tabular spline (stiff K) true false = Some s /\ sound_speed spline s Cubic (nth 1 (e_h s) 0) = Some (/ sqrt K) /\ (warning s = true <-> 1.1 <= / sqrt K).
Proof.
  intros HK. destruct (C197_built (stiff K) true (stiff_good K HK)) as (s & T & A & B & _). destruct (built_is _ _ _ (stiff_good K HK) T) as (_ & _ & EH). cbn [stiff map fst snd] in A, B.
  assert (SS : forall s', e_p s' = [1; 2] -> e_e s' = [K; 2 * K] -> e_h s' = the_enthalpies (stiff K) -> sound_speed spline s' Cubic (nth 1 (the_enthalpies (stiff K)) 0) = Some (/ sqrt K)).
  { intros s' A' B' H'. unfold sound_speed. destruct (enthalpies_good _ (stiff_good K HK)) as (LH & IH & PH). unfold pressure_from_enthalpy. rewrite A', H'.
    rewrite look_node; [|discriminate|exact PH|apply all_positive_in; intros x [<-|[<-|[]]]; lra|apply splinable_spec; rewrite LH; split; [cbn; lia|]; split; [reflexivity|exact IH]|rewrite LH; cbn; lia].
    cbn [bindo nth]. rewrite (stiff_dedp K) by assumption. cbn [bindo]. destruct (Rlt_dec 0 K); [reflexivity|lra]. }
  exists s. split; [exact T|]. split; [rewrite EH; apply SS; assumption|].
  assert (CC : forall s', e_p s' = [1; 2] -> e_e s' = [K; 2 * K] -> e_h s' = the_enthalpies (stiff K) -> check_causality spline s' = Some (if Rlt_dec (/ sqrt K) 1.1 then true else false)).
  { intros s' A' B' H'. unfold check_causality. rewrite A'. cbn [last]. rewrite (stiff_energy K) by (try assumption; lra). cbn [bindo]. destruct (enthalpies_good _ (stiff_good K HK)) as (LH & IH & PH).
    unfold enthalpy_from_energy. rewrite B', H'. replace (K * 2) with (nth 1 [K; 2 * K] 0) by (cbn; ring).
    rewrite look_node; [|discriminate|apply all_positive_in; intros x [<-|[<-|[]]]; lra|exact PH|apply splinable_spec; rewrite LH; split; [cbn; lia|]; split; [reflexivity|apply increasing_cons; split; [lra|reflexivity]]|cbn; lia].
    cbn [bindo]. rewrite (SS s' A' B' H'). reflexivity. }
  pose proof (C197_built (stiff K) true (stiff_good K HK)) as _. unfold tabular in T. unfold stiff in T. cbn [remove_leading_zero] in T. destruct (Req_EM_T 1 0); [lra|]. destruct (Req_EM_T K 0); [lra|]. cbn [bindo] in T. destruct (min_list _) in T; [|discriminate T]. cbn [bindo] in T.
  change (check_monotonicity [(1, K); (2, 2 * K)]) with true in T. cbn [negb andb orb] in T. match type of T with (if ?c then _ else _) = _ => destruct c eqn:SP in T; [|discriminate T] end.
  change (map fst [(1, K); (2, 2 * K)]) with [1; 2] in T. change (map snd [(1, K); (2, 2 * K)]) with [K; 2 * K] in T.
  destruct (all_tables _ _) as [h'|] in T; [|discriminate T]. cbn [bindo] in T. destruct (check_causality spline {| e_p := [1; 2]; e_e := [K; 2 * K]; e_h := h'; sampling := true; warning := false |}) as [b|] eqn:EC in T; [|discriminate T]. cbn [bindo] in T. apply some_inj in T.
  assert (Hh : h' = the_enthalpies (stiff K)) by (rewrite <- EH, <- T; reflexivity). rewrite (CC (mkEos [1; 2] [K; 2 * K] h' true false) eq_refl eq_refl Hh) in EC. apply some_inj in EC. rewrite <- T, <- EC. cbn [warning]. destruct (Rlt_dec (/ sqrt K) 1.1); cbn; split; intros; try lra; try discriminate; reflexivity.
Qed.
Theorem C197_causal_refuted : exists K s, tabular spline (stiff K) true false = Some s /\ warning s = false /\ exists v, sound_speed spline s Cubic (nth 1 (e_h s) 0) = Some v /\ 1 < v.
Proof.
  exists 0.9. destruct (C197_causal 0.9 ltac:(lra)) as (s & T & S & W). exists s. split; [exact T|]. assert (Q : 0.9 < sqrt 0.9 < 1).
  { split; [rewrite <- (sqrt_Rsqr 0.9) at 1 by lra; apply sqrt_lt_1_alt; unfold Rsqr; lra|]. rewrite <- sqrt_1. apply sqrt_lt_1_alt. lra. }
  assert (Q2 : 0.94 < sqrt 0.9) by (rewrite <- (sqrt_Rsqr 0.94) by lra; apply sqrt_lt_1_alt; unfold Rsqr; lra).
  split.
  - destruct (warning s); [|reflexivity]. exfalso. destruct W as [W _]. specialize (W eq_refl). assert (/ sqrt 0.9 < / 0.94) by (apply Rinv_lt_contravar; [nra|exact Q2]). lra.
  - exists (/ sqrt 0.9). split; [exact S|]. rewrite <- Rinv_1. apply Rinv_lt_contravar; lra.
Qed.
End Stiff.
End Tables.
(** the first steps for the table of rows (1, 3), (e, 9): the pseudo-enthalpy starts at 1/4 *)
Example C197_ex : the_enthalpies [(1, 3); (exp 1, 9)] = [1 / (3 + 1); 1 / (3 + 1) + (1 - 0) * (1 / (3 + 1) + exp 1 / (9 + exp 1)) / 2] /\ check_monotonicity [(2, 1); (1, 2)] = true.
Proof. split; [|reflexivity]. unfold the_enthalpies, enthalpies, integrand. cbn [fst snd]. rewrite ln_exp, ln_1. reflexivity. Qed.

(** ** Assumptions of every theorem above *)
Definition Eos_Props_all :=
  (@C197_built,
   @C197_nodes,
   @C197_low,
   @C197_monotone_refuted,
   @C197_leading,
   @C197_warned,
   @C197_causal,
   @C197_causal_refuted).
Print Assumptions Eos_Props_all.
