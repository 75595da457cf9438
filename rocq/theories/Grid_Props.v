(** Properties of the grid: C22 (marginalisation), C63 (evaluation of the likelihood),
    C64 (logtrapzexp). *)
From Coq Require Import Reals String List Bool Arith Lia Lra Permutation.
From Verif Require Import PyReal PyDict Grid_Model Grid_Proofs Grid_Proofs2 Grid_Proofs3.
Import ListNotations.
Open Scope R_scope.
Open Scope list_scope.

(** a grid: distinct names, at least one sample point per name, points increasing *)
Definition grid_ok (names : list string) (pts : string -> list R) : Prop :=
  NoDup names /\ forall n, In n names -> pts n <> [] /\ increasing (pts n).

(** ** C22 *)
(** For every dimension and size: marginalising over distinct known names succeeds, keeps
    the other axes in order, and its exponential is the iterated trapezoid sum (an axis
    with one point is only dropped). *)
Theorem C22_value : forall names pts a ps, grid_ok names pts -> good names pts names a ->
  NoDup ps -> incl ps names ->
  exists out, marginalize names pts a (Some ps) None = Some out /\
    shape out = map (fun n => List.length (pts n)) (remaining ps names) /\
    forall e, valid names pts e ->
      is_nan (val out (map e (remaining ps names))) = false /\
      lexp (val out (map e (remaining ps names))) = integral pts ps (fun e => lexp (val a (map e names))) e.
Proof.
  intros names pts a ps (ND & H) G NDp I.
  destruct (marg_loop_val names pts H ps a names ND (incl_refl _) G NDp I) as (out & E & (Sh & Nn) & V).
  exists out. split; [exact E|]. split; [exact Sh|]. intros e Ve. split; [auto|].
  specialize (V e Ve). unfold mass in V at 1. rewrite V.
  apply integral_perm; [apply mass_envext|now apply NoDup_rev|apply Permutation_sym, Permutation_rev].
Qed.
Lemma remaining_perm ps qs l : Permutation ps qs -> remaining ps l = remaining qs l.
Proof.
  intros P. unfold remaining. apply filter_ext_in. intros n _. f_equal.
  destruct (mem n ps) eqn:E1, (mem n qs) eqn:E2; auto; exfalso.
  - apply mem_in in E1. apply (Permutation_in _ P) in E1. apply mem_in in E1. congruence.
  - apply mem_in in E2. apply (Permutation_in _ (Permutation_sym P)) in E2. apply mem_in in E2. congruence.
Qed.
(** The order of the names does not matter. *)
Theorem C22_order : forall names pts a ps qs, grid_ok names pts -> good names pts names a ->
  NoDup ps -> incl ps names -> Permutation ps qs ->
  exists o1 o2, marginalize names pts a (Some ps) None = Some o1 /\ marginalize names pts a (Some qs) None = Some o2 /\
    shape o1 = shape o2 /\ forall e, valid names pts e ->
      val o1 (map e (remaining ps names)) = val o2 (map e (remaining ps names)).
Proof.
  intros names pts a ps qs Gr G NDp I P.
  destruct (C22_value names pts a ps Gr G NDp I) as (o1 & E1 & S1 & V1).
  destruct (C22_value names pts a qs Gr G) as (o2 & E2 & S2 & V2).
  { now apply Permutation_NoDup with ps. } { intros n Hn. apply I. now apply (Permutation_in _ (Permutation_sym P)). }
  rewrite <- (remaining_perm ps qs names P) in S2, V2.
  exists o1, o2. repeat split; auto. { congruence. }
  intros e Ve. destruct (V1 e Ve) as (N1 & X1). destruct (V2 e Ve) as (N2 & X2).
  apply lexp_inj; auto. rewrite X1, X2. apply integral_perm; auto. exact (mass_envext names a).
Qed.
(** Naming the parameters to keep is the same as naming all the others, in any order. *)
Theorem C22_not_parameters : forall names pts a ps keep, grid_ok names pts -> good names pts names a ->
  Permutation (ps ++ keep) names ->
  exists o1 o2, marginalize names pts a (Some ps) None = Some o1 /\ marginalize names pts a None (Some keep) = Some o2 /\
    shape o1 = shape o2 /\ forall e, valid names pts e ->
      val o1 (map e (remaining ps names)) = val o2 (map e (remaining ps names)).
Proof.
  intros names pts a ps keep Gr G P.
  assert (ND : NoDup (ps ++ keep)) by (apply Permutation_NoDup with names; [now apply Permutation_sym|apply Gr]).
  assert (NDp : NoDup ps) by (clear -ND; induction ps; simpl in *; [constructor|]; inversion ND; subst; constructor; [intros X; apply H1; apply in_or_app; auto|auto]).
  assert (P2 : Permutation ps (filter (fun n => negb (mem n keep)) names)).
  { apply NoDup_Permutation; auto. { apply NoDup_filter, Gr. }
    intros n. rewrite filter_In, negb_true_iff. split.
    - intros Hn. split; [apply (Permutation_in _ P), in_or_app; auto|].
      apply not_true_is_false. rewrite mem_in. intros Hk.
      clear -ND Hn Hk. induction ps as [|q ps IH]; [contradiction|]. simpl in ND. inversion ND as [|? ? N ND']; subst.
      destruct Hn as [->|Hn]; [apply N, in_or_app; auto|auto].
    - intros (Hn & Hk). apply (Permutation_in _ (Permutation_sym P)) in Hn. apply in_app_or in Hn. destruct Hn as [Hn|Hn]; auto.
      apply mem_in in Hn. congruence. }
  assert (Ip : incl ps names) by (intros n Hn; apply (Permutation_in _ P), in_or_app; auto).
  destruct (C22_order names pts a ps _ Gr G NDp Ip P2) as (o1 & o2 & E1 & E2 & R).
  exists o1, o2. split; [exact E1|]. split; [exact E2|exact R].
Qed.
(** The grid evidence is the trapezoid sum of likelihood times prior over all axes. *)
Theorem C22_evidence : forall names pts lnl lnp e, grid_ok names pts -> good names pts names lnl -> good names pts names lnp ->
  valid names pts e ->
  exists z, ln_evidence names pts lnl lnp = Some z /\ shape z = [] /\ is_nan (val z []) = false /\
    lexp (val z []) = integral pts names (fun e => lexp (val lnl (map e names)) * lexp (val lnp (map e names))) e.
Proof.
  intros names pts lnl lnp e Gr (S1 & N1) (S2 & N2) Ve.
  destruct (C22_value names pts (ln_posterior lnl lnp) names Gr) as (z & E & Sh & V).
  { split; [exact S1|]. intros e' Ve'. apply ladd_nan; auto. } { apply Gr. } { apply incl_refl. }
  assert (R : remaining names names = []).
  { unfold remaining. assert (K : forall l, (forall n, In n l -> mem n names = true) -> filter (fun n => negb (mem n names)) l = []).
    { induction l as [|x t IH]; intros H; [reflexivity|]. cbn [filter]. rewrite (H x (or_introl eq_refl)). cbn [negb]. apply IH. intros n Hn. apply H. now right. }
    apply K. intros n Hn. now apply mem_in. }
  rewrite R in Sh, V. exists z. split; [exact E|]. split; [exact Sh|]. destruct (V e Ve) as (Nn & X).
  split; [exact Nn|]. simpl map in X. rewrite X. apply integral_ext. intros e'. cbn [ln_posterior val]. apply lexp_ladd.
Qed.
(** Summing a marginal posterior over the parameters it keeps gives the same evidence. *)
Theorem C22_evidence_from_marginal : forall names pts a ps qs e, grid_ok names pts -> good names pts names a ->
  valid names pts e -> Permutation (ps ++ qs) names ->
  exists z out, marginalize names pts a None None = Some z /\ marginalize names pts a (Some ps) None = Some out /\
    lexp (val z []) = integral pts qs (fun e => lexp (val out (map e (remaining ps names)))) e.
Proof.
  intros names pts a ps qs e Gr G Ve P.
  assert (ND : NoDup (ps ++ qs)) by (apply Permutation_NoDup with names; [now apply Permutation_sym|apply Gr]).
  assert (NDp : NoDup ps) by (clear -ND; induction ps; simpl in *; [constructor|]; inversion ND; subst; constructor; [intros X; apply H1; apply in_or_app; auto|auto]).
  destruct (C22_value names pts a ps Gr G NDp) as (out & E & _ & V).
  { intros n Hn. apply (Permutation_in _ P), in_or_app. auto. }
  destruct (C22_value names pts a names Gr G) as (z & E' & Sh & V'). { apply Gr. } { apply incl_refl. }
  exists z, out. split; [exact E'|]. split; [exact E|].
  assert (R : remaining names names = []).
  { destruct (remaining names names) as [|x t] eqn:Q; auto. exfalso.
    assert (X : In x (remaining names names)) by (rewrite Q; now left). unfold remaining in X. apply filter_In in X.
    destruct X as (X1 & X2). apply mem_in in X1. rewrite X1 in X2. discriminate. }
  rewrite R in V'. simpl map in V'. rewrite (proj2 (V' e Ve)).
  rewrite (integral_ext_valid names pts qs _ (integral pts ps (fun e => lexp (val a (map e names))))) by (auto; intros; apply V; auto).
  rewrite <- integral_app. symmetry. apply integral_perm. { exact (mass_envext names a). }
  - apply Permutation_NoDup with (ps ++ qs); auto. apply Permutation_app_comm.
  - transitivity (ps ++ qs); [apply Permutation_app_comm|exact P].
Qed.
Lemma integral_scal pts ps c F e : integral pts ps (fun e => c * F e) e = c * integral pts ps F e.
Proof. revert e. induction ps as [|p t IH]; intros e; simpl; auto. rewrite <- trap_scal. apply trap_ext. auto. Qed.
Lemma integral_le names pts ps F G : incl ps names -> (forall n, In n names -> pts n <> [] /\ increasing (pts n)) ->
  (forall e, valid names pts e -> F e <= G e) -> forall e, valid names pts e -> integral pts ps F e <= integral pts ps G e.
Proof.
  intros I H FG. induction ps as [|p t IH]; intros e V; simpl; auto.
  apply trap_le. { apply H, I. now left. } intros j J. apply IH. { intros n Hn. apply I. now right. } now apply valid_upd.
Qed.
(** A constant factor in the likelihood comes out as the same constant in every marginal. *)
Theorem C22_shift : forall names pts a ps c, grid_ok names pts -> good names pts names a -> NoDup ps -> incl ps names ->
  exists o1 o2, marginalize names pts a (Some ps) None = Some o1 /\
    marginalize names pts {| shape := shape a; val := fun i => ladd (LFin c) (val a i) |} (Some ps) None = Some o2 /\
    forall e, valid names pts e ->
      val o2 (map e (remaining ps names)) = ladd (LFin c) (val o1 (map e (remaining ps names))).
Proof.
  intros names pts a ps c Gr G NDp I.
  destruct (C22_value names pts a ps Gr G NDp I) as (o1 & E1 & S1 & V1).
  destruct (C22_value names pts {| shape := shape a; val := fun i => ladd (LFin c) (val a i) |} ps Gr) as (o2 & E2 & S2 & V2); auto.
  { destruct G as (Sh & Nn). split; [exact Sh|]. intros e Ve. apply ladd_nan; [reflexivity|auto]. }
  exists o1, o2. repeat split; auto. intros e Ve. destruct (V1 e Ve) as (N1 & X1). destruct (V2 e Ve) as (N2 & X2).
  apply lexp_inj; auto. { apply ladd_nan; auto. }
  rewrite lexp_ladd, X2, X1, <- integral_scal. apply integral_ext. intros e'. cbn [val]. apply lexp_ladd.
Qed.
(** Bounds on the likelihood are bounds on the evidence, relative to the prior mass of the grid. *)
Theorem C22_evidence_bounds : forall names pts lnl lnp lo hi e, grid_ok names pts -> good names pts names lnl -> good names pts names lnp ->
  valid names pts e ->
  (forall e, valid names pts e -> exists l, val lnl (map e names) = LFin l /\ lo <= l <= hi) ->
  exists z m, ln_evidence names pts lnl lnp = Some z /\ marginalize names pts lnp None None = Some m /\
    exp lo * lexp (val m []) <= lexp (val z []) <= exp hi * lexp (val m []).
Proof.
  intros names pts lnl lnp lo hi e Gr G1 G2 Ve B.
  destruct (C22_evidence names pts lnl lnp e Gr G1 G2 Ve) as (z & E & _ & _ & X).
  destruct (C22_evidence names pts {| shape := shape lnl; val := fun _ => LFin 0 |} lnp e Gr) as (m & Em & _ & Nm & Xm); auto.
  { split; [apply G1|reflexivity]. }
  destruct (C22_value names pts lnp names Gr G2) as (m' & Em' & _ & V'). { apply Gr. } { apply incl_refl. }
  assert (R : remaining names names = []).
  { destruct (remaining names names) as [|x t] eqn:Q; auto. exfalso.
    assert (Y : In x (remaining names names)) by (rewrite Q; now left). unfold remaining in Y. apply filter_In in Y.
    destruct Y as (X1 & X2). apply mem_in in X1. rewrite X1 in X2. discriminate. }
  rewrite R in V'. simpl map in V'. exists z, m'. split; [exact E|]. split; [exact Em'|].
  rewrite X, (proj2 (V' e Ve)), <- !integral_scal.
  split; apply integral_le with names; try apply incl_refl; try apply Gr; auto; intros e' Ve';
    destruct (B e' Ve') as (l & -> & Hl1 & Hl2); apply Rmult_le_compat_r; try apply lexp_pos; simpl.
  - destruct Hl1 as [Hl1| ->]; [left; now apply exp_increasing|lra].
  - destruct Hl2 as [Hl2| ->]; [left; now apply exp_increasing|lra].
Qed.
(** An unknown name or a repeated name is refused, whatever the array. *)
Theorem C22_errors : forall names pts a ps, NoDup names -> ~ (NoDup ps /\ incl ps names) ->
  marginalize names pts a (Some ps) None = None.
Proof.
  intros names pts a ps ND H. unfold marginalize. cbn [select_params].
  assert (K : forall ps a rem, NoDup rem -> incl rem names -> marg_loop names pts a rem ps <> None -> NoDup ps /\ incl ps rem).
  { clear ps a H. induction ps as [|p t IH]; intros a rem NDr I H; [split; [constructor|intros n []]|].
    cbn [marg_loop] in H. destruct (marginalize_single names pts a p rem) as [[a' rem']|] eqn:E; cbn [bindo fst snd] in H; [|congruence].
    assert (F : In p rem /\ rem' = without p rem).
    { unfold marginalize_single in E. destruct (mem p names); [|discriminate].
      destruct (index_of rem p) as [i|] eqn:Ei; cbn [bindo] in E; [|discriminate].
      split; [eapply nth_error_In, index_of_nth; eauto|]. rewrite <- (remove_at_without _ _ _ NDr Ei).
      destruct (Nat.ltb i (List.length (shape a))); [|discriminate]. cbv zeta in E.
      destruct (Nat.ltb 1 (List.length (pts p))).
      - match type of E with (if ?b then _ else _) = _ => destruct b end; [|discriminate]. injection E as _ <-. reflexivity.
      - match type of E with (if ?b then _ else _) = _ => destruct b end; [|discriminate]. injection E as _ <-. reflexivity. }
    destruct F as (Hp & ->). destruct (IH a' (without p rem)) as (N' & I'); auto.
    { now apply without_nodup. } { intros n Hn. apply without_in in Hn. apply I, Hn. }
    split.
    - constructor; auto. intros X. apply I' in X. apply without_in in X. tauto.
    - intros n [<-|Hn]; auto. apply I' in Hn. apply without_in in Hn. tauto. }
  destruct (marg_loop names pts a names ps) as [o|] eqn:E; auto. exfalso. apply H.
  apply (K ps a names ND (incl_refl _)). rewrite E. discriminate.
Qed.
Definition ab_pts (n : string) : list R := if String.eqb n "a" then [0; 1] else [0; 1; 3].
Definition ab_arr : arr := {| shape := [2%nat; 3%nat]; val := fun _ => LFin 0 |}.
Lemma ab_ok : grid_ok ["a"; "b"]%string ab_pts.
Proof.
  split. { repeat constructor; simpl; intuition discriminate. }
  intros n [<-|[<-|[]]]; (split; [discriminate|]); intros [|[|i]] Hi; simpl in *; try lia; lra.
Qed.
Lemma ab_good : good ["a"; "b"]%string ab_pts ["a"; "b"]%string ab_arr.
Proof. split; reflexivity. Qed.
(** Marginalising twice with two calls is not the same as one call: the second call counts
    axes from the full list of names, so the call that follows marginalising over the
    first parameter is an error. *)
Theorem C22_second_call_refuted :
  exists names pts a p q out, grid_ok names pts /\ good names pts names a /\ names = [p; q] /\
    marginalize names pts a (Some [p]) None = Some out /\ marginalize names pts out (Some [q]) None = None /\
    exists z, marginalize names pts a (Some [p; q]) None = Some z.
Proof.
  destruct (C22_value ["a"; "b"]%string ab_pts ab_arr ["a"]%string ab_ok ab_good) as (out & E & Sh & _).
  { repeat constructor; simpl; tauto. } { intros n [<-|[]]; simpl; auto. }
  exists ["a"; "b"]%string, ab_pts, ab_arr, "a"%string, "b"%string, out.
  split; [exact ab_ok|]. split; [exact ab_good|]. split; [reflexivity|]. split; [exact E|]. split.
  - unfold marginalize. cbn [select_params marg_loop]. unfold marginalize_single. rewrite Sh. reflexivity.
  - destruct (C22_value ["a"; "b"]%string ab_pts ab_arr ["a"; "b"]%string ab_ok ab_good) as (z & Ez & _); eauto.
    { apply ab_ok. } { apply incl_refl. }
Qed.
Example C22_ex : exists z, marginalize ["a"; "b"]%string ab_pts ab_arr None None = Some z /\ val z [] = LFin (ln 3).
Proof.
  destruct (C22_value ["a"; "b"]%string ab_pts ab_arr ["a"; "b"]%string ab_ok ab_good) as (z & Ez & _ & V).
  { apply ab_ok. } { apply incl_refl. }
  exists z. split; [exact Ez|]. destruct (V (fun _ => 0%nat)) as (N & X).
  { intros n [<-|[<-|[]]]; simpl; lia. }
  apply lexp_inj; [exact N|reflexivity|]. change (map (fun _ => 0%nat) (remaining ["a"; "b"]%string ["a"; "b"]%string)) with (@nil nat) in X.
  rewrite X. simpl. rewrite exp_0, exp_ln by lra. lra.
Qed.

(** ** C63 *)
(** With distinct points on every axis the grid likelihood holds, at every index, the log
    likelihood at the point with these coordinates, with the other parameters as they were. *)
Theorem C63_evaluate : forall names pts L params empty, NoDup names ->
  (forall d d', (forall k, dget d k = dget d' k) -> L d = L d') ->
  (forall n, In n names -> NoDup (pts n)) ->
  exists params' a, evaluate names pts L params empty = Some (params', a) /\
    shape a = map (fun n => List.length (pts n)) names /\
    (forall k, ~ In k names -> dget params' k = dget params k) /\
    forall e D, valid names pts e ->
      (forall n, In n names -> dget D n = nth_error (pts n) (e n)) -> (forall k, ~ In k names -> dget D k = dget params k) ->
      val a (map e names) = L D.
Proof.
  intros names pts L params empty ND Lext Hp.
  destruct (evaluate_rec_ok names pts L Lext ND Hp names [] eq_refl params empty (fun _ => 0%nat)) as (d & f & E & K & A & _).
  { intros n []. }
  unfold evaluate. rewrite E. cbn [bindo fst snd]. eexists _, _. split; [reflexivity|]. split; [reflexivity|]. split; [exact K|].
  intros e D V D1 D2. cbn [val]. apply A; auto. { intros n []. } split; auto.
Qed.
(** If any axis holds the same value twice the evaluation raises an exception, and only then. *)
Theorem C63_repeated_points : forall names pts L params empty, NoDup names ->
  (forall d d', (forall k, dget d k = dget d' k) -> L d = L d') -> (forall n, In n names -> pts n <> []) ->
  (evaluate names pts L params empty = None <-> exists n, In n names /\ ~ NoDup (pts n)).
Proof.
  intros names pts L params empty ND Lext Ne. split.
  - intros H. destruct (forallb (fun n => if ListDec.NoDup_dec Req_EM_T (pts n) then true else false) names) eqn:Q.
    + exfalso. destruct (C63_evaluate names pts L params empty ND Lext) as (p & a & E & _); [|congruence].
      intros n Hn. rewrite forallb_forall in Q. specialize (Q n Hn). destruct (ListDec.NoDup_dec Req_EM_T (pts n)); congruence || auto.
    + assert (X : existsb (fun n => if ListDec.NoDup_dec Req_EM_T (pts n) then false else true) names = true).
      { clear -Q. induction names as [|x t IH]; simpl in *; [discriminate|].
        destruct (ListDec.NoDup_dec Req_EM_T (pts x)); simpl in *; auto. }
      apply existsb_exists in X. destruct X as (n & Hn & X). exists n. split; auto.
      destruct (ListDec.NoDup_dec Req_EM_T (pts n)); congruence.
  - intros (n & Hn & Hd). unfold evaluate. rewrite (evaluate_rec_none names pts L ND names [] eq_refl Ne params empty); auto.
    left. eauto.
Qed.
(** A parameter with a fixed value makes the evaluation fail unless its axis has one point. *)
Theorem C63_fixed_parameter : forall names pts L params empty n c m, NoDup names ->
  (forall d d', (forall k, dget d k = dget d' k) -> L d = L d') -> (forall n, In n names -> pts n <> []) ->
  In n names -> (2 <= m)%nat -> pts n = sample_points (fun _ => c) m ->
  evaluate names pts L params empty = None.
Proof.
  intros names pts L params empty n c m ND Lext Ne Hn Hm Hp. apply C63_repeated_points; auto. exists n. split; auto.
  rewrite Hp. unfold sample_points. destruct m as [|[|m]]; try lia. simpl. intros X. inversion X as [|? ? N _]; subst. apply N. now left.
Qed.
Lemma sample_points_length q n : List.length (sample_points q n) = n.
Proof. unfold sample_points. now rewrite map_length, seq_length. Qed.
Lemma sample_points_nth q n i : (i < n)%nat -> nth i (sample_points q n) 0 = q (INR i / INR (n - 1)).
Proof.
  intros H. unfold sample_points. rewrite nth_indep with (d' := (fun i => q (INR i / INR (n - 1))) 0%nat) by (rewrite map_length, seq_length; lia).
  rewrite (map_nth (fun i => q (INR i / INR (n - 1)))), seq_nth by lia. reflexivity.
Qed.
Lemma increasing_lt xs : increasing xs -> forall i j, (i < j < List.length xs)%nat -> nth i xs 0 < nth j xs 0.
Proof.
  intros I i j. revert i. induction j as [|j IH]; intros i H; [lia|].
  destruct (Nat.eq_dec i j) as [->|]; [apply I; lia|]. apply Rlt_trans with (nth j xs 0); [apply IH; lia|apply I; lia].
Qed.
Lemma increasing_NoDup xs : increasing xs -> NoDup xs.
Proof.
  intros I. apply (NoDup_nth xs 0). intros i j Hi Hj E.
  destruct (Nat.lt_total i j) as [H|[H|H]]; auto; exfalso.
  - pose proof (increasing_lt xs I i j ltac:(lia)). lra.
  - pose proof (increasing_lt xs I j i ltac:(lia)). lra.
Qed.
(** Sample points of a prior whose rescale is strictly increasing on the unit interval form a
    usable axis that runs from rescale(0) to rescale(1). *)
Theorem C63_sample_points : forall q n, (2 <= n)%nat ->
  (forall u v, 0 <= u -> u < v -> v <= 1 -> q u < q v) ->
  List.length (sample_points q n) = n /\ increasing (sample_points q n) /\ NoDup (sample_points q n) /\
  nth 0 (sample_points q n) 0 = q 0 /\ nth (n - 1) (sample_points q n) 0 = q 1.
Proof.
  intros q n Hn Hq. assert (Pn : 0 < INR (n - 1)) by (apply lt_0_INR; lia).
  assert (I : increasing (sample_points q n)).
  { intros i Hi. rewrite sample_points_length in Hi. rewrite !sample_points_nth by lia. apply Hq.
    - apply Rmult_le_pos; [apply pos_INR|left; now apply Rinv_0_lt_compat].
    - unfold Rdiv. apply Rmult_lt_compat_r; [now apply Rinv_0_lt_compat|]. apply lt_INR. lia.
    - apply Rmult_le_reg_r with (INR (n - 1)); auto. unfold Rdiv. rewrite Rmult_assoc, Rinv_l, Rmult_1_r, Rmult_1_l by lra.
      apply le_INR. lia. }
  split; [apply sample_points_length|]. split; [exact I|]. split; [now apply increasing_NoDup|].
  split; rewrite sample_points_nth by lia; f_equal; simpl; field; lra.
Qed.
Example C63_ex : exists p a, evaluate ["x"%string] (fun _ => [1; 2]) (fun d => match dget d "x" with Some v => LFin v | None => LNaN end) [] (fun _ => LNaN) = Some (p, a)
  /\ val a [1%nat] = LFin 2.
Proof.
  destruct (C63_evaluate ["x"%string] (fun _ => [1; 2]) (fun d => match dget d "x" with Some v => LFin v | None => LNaN end) [] (fun _ => LNaN)) as (p & a & E & _ & _ & V).
  - repeat constructor; simpl; tauto.
  - intros d d' H. now rewrite H.
  - intros n _. repeat constructor; simpl; intuition lra.
  - exists p, a. split; [exact E|]. apply (V (fun _ => 1%nat) [("x"%string, 2)]).
    + intros n _. simpl. lia.
    + intros n [<-|[]]. reflexivity.
    + intros k Hk. simpl. destruct (String.eqb_spec k "x"); [exfalso; apply Hk; now left|reflexivity].
Qed.

(** ** C64 *)
(** The exponential of logtrapzexp is the trapezoid rule, for any increasing points and any
    values (-inf included). *)
Theorem C64_value : forall xs f, (2 <= List.length xs)%nat -> increasing xs ->
  (forall i, (i < List.length xs)%nat -> is_nan (f i) = false) ->
  exists v, logtrapzexp (map f (seq 0 (List.length xs))) (diff xs) = Some v /\ is_nan v = false /\
    lexp v = trap_from xs (fun i => lexp (f i)).
Proof.
  intros xs f H I N. destruct (logtrapzexp_val xs f ltac:(lia) I N) as (v & E & Nn & X). exists v. split; [exact E|]. split; [exact Nn|].
  rewrite X. destruct xs as [|x [|y t]]; simpl in H; try lia. reflexivity.
Qed.
(** It is exact for a constant function: ln (c (b - a)). *)
Theorem C64_constant : forall xs c, (2 <= List.length xs)%nat -> increasing xs ->
  exists v, logtrapzexp (map (fun _ => LFin c) (seq 0 (List.length xs))) (diff xs) = Some v /\
    v = LFin (c + ln (last xs 0 - hd 0 xs)).
Proof.
  intros xs c H I. destruct (C64_value xs (fun _ => LFin c) H I) as (v & E & N & X); [reflexivity|].
  exists v. split; [exact E|]. rewrite trap_const in X. simpl in X.
  assert (P : 0 < last xs 0 - hd 0 xs).
  { assert (L : last xs 0 = nth (List.length xs - 1) xs 0).
    { clear. induction xs as [|x [|y t] IH]; auto. change (last (x :: y :: t) 0) with (last (y :: t) 0). rewrite IH. simpl. now rewrite Nat.sub_0_r. }
    rewrite L. replace (hd 0 xs) with (nth 0 xs 0) by (destruct xs; reflexivity).
    pose proof (increasing_lt xs I 0 (List.length xs - 1) ltac:(lia)). lra. }
  apply lexp_inj; auto. simpl. rewrite exp_plus, exp_ln by exact P. exact X.
Qed.
Lemma map2_repeat (l : list lnum) d : map2 ladd l (map np_log (repeat d (List.length l))) = map (fun a => ladd a (np_log d)) l.
Proof. induction l; simpl; congruence. Qed.
Lemma logsumexp_shift l c : l <> [] -> (forall a, In a l -> is_nan a = false) -> is_nan c = false ->
  exists v w, logsumexp l = Some v /\ logsumexp (map (fun a => ladd a c) l) = Some w /\ is_nan v = false /\ is_nan w = false /\ lexp w = lexp v * lexp c.
Proof.
  intros N H Hc. destruct (logsumexp_val l N H) as (v & E & Nv & X).
  destruct (logsumexp_val (map (fun a => ladd a c) l)) as (w & Ew & Nw & Xw).
  { destruct l; simpl; congruence. } { intros a Ha. apply in_map_iff in Ha. destruct Ha as (b & <- & Hb). apply ladd_nan; auto. }
  exists v, w. repeat split; auto. rewrite Xw, X. clear -l. induction l as [|a t IH]; simpl; [lra|]. unfold rsum in *. simpl. rewrite IH, lexp_ladd. lra.
Qed.
(** A single step size gives the same as the array of equal steps. *)
Theorem C64_scalar_step : forall lnf d, 0 < d -> (2 <= List.length lnf)%nat -> (forall a, In a lnf -> is_nan a = false) ->
  logtrapzexp_scalar lnf d = logtrapzexp lnf (repeat d (List.length lnf - 1)) /\ logtrapzexp_scalar lnf d <> None.
Proof.
  intros lnf d Hd H N. unfold logtrapzexp, logtrapzexp_scalar. rewrite repeat_length.
  replace (Nat.eqb (List.length lnf - 1 + 1) (List.length lnf)) with true by (symmetry; apply Nat.eqb_eq; lia).
  cbv zeta.
  replace (map2 ladd (removelast lnf) _) with (map (fun a => ladd a (np_log d)) (removelast lnf))
    by (rewrite <- map2_repeat, removelast_length; reflexivity).
  replace (map2 ladd (tl lnf) _) with (map (fun a => ladd a (np_log d)) (tl lnf))
    by (rewrite <- map2_repeat; destruct lnf; simpl; rewrite ?Nat.sub_0_r; reflexivity).
  assert (Hn : is_nan (np_log d) = false) by (apply np_log_nan; lra).
  destruct (logsumexp_shift (removelast lnf) (np_log d)) as (v1 & w1 & E1 & F1 & N1 & M1 & X1); auto.
  { destruct lnf as [|a [|b t]]; simpl in *; try lia; discriminate. } { intros a Ha. apply N. now apply in_removelast. }
  destruct (logsumexp_shift (tl lnf) (np_log d)) as (v2 & w2 & E2 & F2 & N2 & M2 & X2); auto.
  { destruct lnf as [|a [|b t]]; simpl in *; try lia; discriminate. } { intros a Ha. apply N. destruct lnf; simpl in *; auto. }
  unfold logsumexp2. rewrite E1, F1. cbn [bindo]. rewrite E2, F2. cbn [bindo].
  destruct (logsumexp_val [v1; v2]) as (s & Es & Ns & Xs); [discriminate|intros a [<-|[<-|[]]]; auto|].
  destruct (logsumexp_val [w1; w2]) as (s' & Es' & Ns' & Xs'); [discriminate|intros a [<-|[<-|[]]]; auto|].
  rewrite Es, Es'. cbn [bindo]. split; [|discriminate]. f_equal.
  apply lexp_inj; try (apply ladd_nan; auto; apply np_log_nan; lra).
  rewrite !lexp_ladd, Xs, Xs'. unfold rsum. simpl map. simpl fold_right. rewrite X1, X2, !lexp_np_log by lra.
  simpl lexp. rewrite exp_Ropp, exp_ln by lra. field.
Qed.
(** One step per interval is required, and a decreasing pair of points yields nan. *)
Theorem C64_errors : forall lnf dx, List.length lnf <> S (List.length dx) -> logtrapzexp lnf dx = None.
Proof.
  intros lnf dx H. unfold logtrapzexp. destruct (Nat.eqb_spec (List.length dx + 1) (List.length lnf)); [lia|reflexivity].
Qed.
Lemma logsumexp_nan l : In LNaN l -> logsumexp l = Some LNaN.
Proof.
  intros H. unfold logsumexp. replace (existsb is_nan l) with true by (symmetry; apply existsb_exists; exists LNaN; auto).
  destruct l; [contradiction|reflexivity].
Qed.
Theorem C64_decreasing_nan : forall lnf dx i, List.length lnf = S (List.length dx) -> (i < List.length dx)%nat -> nth i dx 0 < 0 ->
  logtrapzexp lnf dx = Some LNaN.
Proof.
  intros lnf dx i H Hi Hd. unfold logtrapzexp. replace (Nat.eqb (List.length dx + 1) (List.length lnf)) with true by (symmetry; apply Nat.eqb_eq; lia).
  cbv zeta.
  assert (K : forall l, List.length l = List.length dx -> In LNaN (map2 ladd l (map np_log dx))).
  { clear H. revert i Hi Hd. induction dx as [|d dx IH]; intros i Hi Hd [|a l] Hl; simpl in *; try lia. destruct i as [|i].
    - left. unfold np_log. destruct (Rlt_dec d 0); [destruct a; reflexivity|lra].
    - right. apply IH with i; auto; lia. }
  unfold logsumexp2. rewrite !logsumexp_nan; [reflexivity| |].
  - apply K. destruct lnf; simpl in *; lia.
  - apply K. rewrite removelast_length. lia.
Qed.
Example C64_ex : exists v, logtrapzexp [LFin 0; LFin (ln 3); LNegInf] [1; 2] = Some v /\ v = LFin (ln 5).
Proof.
  destruct (C64_value [0; 1; 3] (fun i => nth i [LFin 0; LFin (ln 3); LNegInf] LNaN)) as (v & E & N & X).
  - simpl. lia.
  - intros [|[|i]] Hi; simpl in *; try lia; lra.
  - intros [|[|[|i]]] Hi; simpl in *; try lia; reflexivity.
  - exists v. replace [1; 2] with (diff [0; 1; 3]) by (simpl; repeat (f_equal; try lra)). split; [exact E|].
    apply lexp_inj; auto. rewrite X. simpl. rewrite exp_0, !exp_ln by lra. lra.
Qed.

(** ** Assumptions of every theorem above *)
Definition Grid_Props_all :=
  (@C22_value,
   @C22_order,
   @C22_not_parameters,
   @C22_evidence,
   @C22_evidence_from_marginal,
   @C22_shift,
   @C22_evidence_bounds,
   @C22_errors,
   @C22_second_call_refuted,
   @C63_evaluate,
   @C63_repeated_points,
   @C63_fixed_parameter,
   @C63_sample_points,
   @C64_value,
   @C64_constant,
   @C64_scalar_step,
   @C64_errors,
   @C64_decreasing_nan).
Print Assumptions Grid_Props_all.
