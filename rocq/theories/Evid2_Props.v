(** Property C213: samples and errors of the evidence estimates of bilby_mcmc. *)
From Coq Require Import String Reals Lra List Bool Arith Lia Psatz.
From Verif Require Import Interp_Model Samples_Model Evidence_Model Evidence_Proofs Evidence_Props Ensemble_Model Ensemble2_Props Tau_Model Tau2_Props Evid2_Model.
Import ListNotations.
Open Scope string_scope.
Open Scope list_scope.
Open Scope R_scope.

Lemma combine_snoc {A B} : forall (l : list A) (m : list B) x y, length l = length m -> combine (l ++ [x]) (m ++ [y]) = combine l m ++ [(x, y)].
Proof. induction l as [|a l IH]; intros [|b m] x y L; try discriminate; [reflexivity|]. simpl. rewrite IH by (simpl in L; lia). reflexivity. Qed.
Lemma combine_rev {A B} : forall (l : list A) (m : list B), length l = length m -> combine (rev l) (rev m) = rev (combine l m).
Proof.
  induction l as [|a l IH]; intros [|b m] L; try discriminate; [reflexivity|]. simpl in *. rewrite combine_snoc, IH; [reflexivity|lia|]. rewrite !rev_length. lia.
Qed.
Lemma all_some_map {A B} (f : A -> option B) (g : A -> B) l : (forall x, In x l -> f x = Some (g x)) -> all_some (map f l) = Some (map g l).
Proof. intros H. induction l as [|a l IH]; [reflexivity|]. simpl. rewrite H by (left; reflexivity). rewrite IH by (intros; apply H; right; assumption). reflexivity. Qed.
Lemma all_some_none {A} (l : list (option A)) : all_some l = None <-> In None l.
Proof.
  induction l as [|[a|] l IH]; simpl.
  - split; [discriminate|intros []].
  - destruct (all_some l); split; intros H; try discriminate.
    + destruct H as [H | H]; [discriminate|]. apply IH in H. discriminate.
    + right. apply IH. reflexivity.
    + reflexivity.
  - split; auto.
Qed.
Lemma combine_map2 {A B C} (f : A -> B) (g : A -> C) l : combine (map f l) (map g l) = map (fun x => (f x, g x)) l.
Proof. induction l as [|a l IH]; [reflexivity|]. simpl. rewrite IH. reflexivity. Qed.
Lemma last_x_map {A} (f : A -> R * R) : forall l d e, l <> [] -> last_x (map f l) e = fst (f (last l d)).
Proof.
  induction l as [|a l IH]; intros d e N; [congruence|]. destruct l as [|b l].
  - simpl. destruct (f a); reflexivity.
  - cbn [map last_x]. destruct (f a) as [u v]. change (last (a :: b :: l) d) with (last (b :: l) d). apply (IH d u). discriminate.
Qed.

(** ** C213 Thermodynamic integration: for means affine in beta the integral is exact; the error is zero with an odd number of chains,
    and the integral over the hottest interval with an even number. *)
Definition affine (a b : R) (r : rung) : Prop := skipn (burn r) (lnls r) <> [] /\ avg (skipn (burn r) (lnls r)) = a + b * beta r.
Definition F (a b x : R) : R := a * x + b / 2 * (x * x).
Lemma trapz_rev_affine a b : forall l, (forall p, In p l -> snd p = a + b * fst p) -> l <> [] ->
  trapz (rev l) = F a b (match l with p :: _ => fst p | [] => 0 end) - F a b (last_x l 0).
Proof.
  intros l H N. rewrite (trapz_affine a b) by (intros p I; apply in_rev in I; apply H, I). unfold F.
  destruct l as [|[x0 y0] l]; [congruence|]. destruct l as [|q l' _] using rev_ind.
  - cbn. lra.
  - destruct q as [xq yq]. cbn [rev]. rewrite rev_app_distr. cbn [rev app fst]. rewrite last_x_snoc. cbn [last_x]. rewrite last_x_snoc. lra.
Qed.
Lemma thermo_points a b chain : (forall r, In r chain -> affine a b r) ->
  thermo chain = let l := map (fun r => (beta r, a + b * beta r)) chain in Some (trapz (rev l), Rabs (trapz (rev l) - trapz (rev (every_other l)))).
Proof.
  intros H. unfold thermo. rewrite (all_some_map _ (fun r => a + b * beta r)).
  - cbv zeta. rewrite combine_rev by (rewrite !map_length; reflexivity). rewrite rev_involutive, combine_map2. reflexivity.
  - intros r I. destruct (H r I) as (N & E). rewrite <- E. unfold nanmean. destruct (skipn _ _); [congruence|reflexivity].
Qed.
Lemma every_other_nonempty {A} (l : list A) : l <> [] -> every_other l <> [].
Proof. destruct l as [|x [|y l]]; [congruence| |]; discriminate. Qed.
Theorem C213_thermodynamic_odd a b c chain : (forall r, In r (c :: chain) -> affine a b r) -> Nat.even (length chain) = true ->
  thermo (c :: chain) = Some (F a b (beta c) - F a b (beta (last (c :: chain) c)), 0).
Proof.
  intros H O. rewrite (thermo_points a b) by exact H. cbv zeta. set (l := map (fun r => (beta r, a + b * beta r)) (c :: chain)).
  apply Nat.even_spec in O. destruct O as (k & O).
  assert (LL : (length l = 2 * k + 1)%nat) by (unfold l; rewrite map_length; simpl; lia).
  assert (C : forall p, In p l -> snd p = a + b * fst p) by (intros p I; apply in_map_iff in I; destruct I as (r & <- & _); reflexivity).
  rewrite (trapz_rev_affine a b l C) by discriminate. rewrite (trapz_rev_affine a b (every_other l)).
  - rewrite (every_other_last k l LL). assert (E0 : last_x l 0 = beta (last (c :: chain) c)) by (unfold l; rewrite (last_x_map _ _ c) by discriminate; reflexivity). rewrite E0.
    assert (E1 : match l with [] => 0 | p :: _ => fst p end = beta c) by reflexivity.
    assert (E2 : match every_other l with [] => 0 | p :: _ => fst p end = beta c) by (unfold l; cbn [map]; destruct (map _ chain); reflexivity).
    rewrite E1, E2. f_equal. f_equal. rewrite Rminus_diag_eq by reflexivity. apply Rabs_R0.
  - intros p I. apply C. eapply every_other_in; [apply le_n|exact I].
  - apply every_other_nonempty. discriminate.
Qed.
Theorem C213_thermodynamic_even a b c chain h : (forall r, In r (c :: chain ++ [h]) -> affine a b r) -> Nat.even (length chain) = true ->
  thermo (c :: chain ++ [h]) = Some (F a b (beta c) - F a b (beta h), Rabs (F a b (beta (last (c :: chain) c)) - F a b (beta h))).
Proof.
  intros H O. rewrite (thermo_points a b) by exact H. cbv zeta. set (g := fun r => (beta r, a + b * beta r)).
  rewrite app_comm_cons, map_app. cbn [map]. change (g c :: map g chain) with (map g (c :: chain)). set (l := map g (c :: chain)).
  apply Nat.even_spec in O. destruct O as (k & O).
  assert (LL : (length l = 2 * k + 1)%nat) by (unfold l; rewrite map_length; simpl; lia).
  assert (C : forall p, In p (l ++ [g h]) -> snd p = a + b * fst p) by (intros p I; apply in_app_or in I; destruct I as [I | [<- | []]]; [apply in_map_iff in I; destruct I as (r & <- & _)|]; reflexivity).
  rewrite (every_other_even k l (g h) LL). rewrite (trapz_rev_affine a b (l ++ [g h]) C) by discriminate. rewrite (trapz_rev_affine a b (every_other l)).
  - rewrite (every_other_last k l LL). assert (E0 : last_x l 0 = beta (last (c :: chain) c)) by (unfold l; rewrite (last_x_map _ _ c) by discriminate; reflexivity). rewrite E0. clear E0.
    assert (E0 : last_x (l ++ [g h]) 0 = beta h) by apply last_x_snoc. rewrite E0.
    assert (E1 : match l ++ [g h] with [] => 0 | p :: _ => fst p end = beta c) by reflexivity.
    assert (E2 : match every_other l with [] => 0 | p :: _ => fst p end = beta c) by (unfold l; cbn [map]; destruct (map g chain); reflexivity).
    rewrite E1, E2. f_equal. f_equal. f_equal. ring.
  - intros p I. apply C, in_or_app. left. eapply every_other_in; [apply le_n|exact I].
  - apply every_other_nonempty. discriminate.
Qed.
(** with two chains the error is the size of the estimate itself, whatever the likelihood *)
Theorem C213_two_chains_refuted c h z e : thermo [c; h] = Some (z, e) -> e = Rabs z.
Proof.
  unfold thermo. destruct (all_some _) as [means|] eqn:E; [|discriminate]. intros Q. injection Q as <- <-.
  assert (L : exists u v, means = [u; v]).
  { simpl in E. destruct (nanmean (skipn (burn c) (lnls c))) as [u|]; [|discriminate]. destruct (nanmean (skipn (burn h) (lnls h))) as [v|]; [|discriminate]. injection E as <-. eauto. }
  destruct L as (u & v & ->). cbn [map rev app combine every_other trapz]. rewrite Rminus_0_r. reflexivity.
Qed.

(** ** C213 The stepping stone uses the same rows of every chain: int(tau) apart, from the last burn-in to the end of the shortest chain. *)
Lemma fold_max_ge l n : In n l -> (n <= fold_right Nat.max 0 l)%nat.
Proof. induction l as [|a l IH]; intros []; simpl; [subst; lia|]. specialize (IH H). lia. Qed.
Lemma fold_max_in l : fold_right Nat.max 0%nat l = 0%nat \/ In (fold_right Nat.max 0%nat l) l.
Proof. induction l as [|a l IH]; [left; reflexivity|]. simpl. destruct (Nat.max_spec a (fold_right Nat.max 0%nat l)) as [[_ ->] | [_ ->]]; [destruct IH as [-> | IH]|]; auto. Qed.
Lemma fold_min_le l : forall n m, In m (n :: l) -> (fold_right Nat.min n l <= m)%nat.
Proof. induction l as [|a l IH]; intros n m I; simpl in *; [destruct I as [-> | []]; lia|]. destruct I as [-> | [-> | I]]; [specialize (IH m m (or_introl eq_refl))| |specialize (IH n m (or_intror I))]; lia. Qed.
Lemma fold_min_in l : forall n, In (fold_right Nat.min n l) (n :: l).
Proof. induction l as [|a l IH]; intros n; simpl; [auto|]. destruct (Nat.min_spec a (fold_right Nat.min n l)) as [[_ ->] | [_ ->]]; [auto|]. destruct (IH n) as [E | I]; [left; exact E|right; right; exact I]. Qed.
Theorem C213_window chain : chain <> [] -> (forall r, In r chain -> (burn r <= first_row chain)%nat /\ (end_row chain <= length (lnls r))%nat) /\
  (exists r, In r chain /\ burn r = first_row chain) /\ (exists r, In r chain /\ length (lnls r) = end_row chain).
Proof.
  intros N. unfold first_row, end_row. split; [|split].
  - intros r I. split; [apply fold_max_ge, in_map, I|]. destruct chain as [|r0 t]; [congruence|]. cbn [map]. apply fold_min_le. exact (in_map (fun r => length (lnls r)) (r0 :: t) r I).
  - destruct (fold_max_in (map burn chain)) as [E | I].
    + destruct chain as [|r t]; [congruence|]. exists r. split; [left; reflexivity|]. pose proof (fold_max_ge (map burn (r :: t)) (burn r) (or_introl eq_refl)). lia.
    + apply in_map_iff in I. destruct I as (r & E & I). eauto.
  - destruct chain as [|r0 t]; [congruence|]. cbn [map]. pose proof (fold_min_in (map (fun r => length (lnls r)) t) (length (lnls r0))) as I.
    change (length (lnls r0) :: map (fun r => length (lnls r)) t) with (map (fun r => length (lnls r)) (r0 :: t)) in I. apply in_map_iff in I. destruct I as (r & E & I). eauto.
Qed.
Theorem C213_rows chain k i : (1 <= k)%nat -> (In i (rows chain k) <-> (first_row chain <= i < end_row chain)%nat /\ exists q, i = (first_row chain + q * k)%nat).
Proof. intros K. apply slice_spec, K. Qed.
Theorem C213_columns chain k c : In c (columns chain k) -> length c = length (rows chain k) /\
  exists r, In r (removelast chain) /\ forall x, In x c -> exists i, In i (rows chain k) /\ x = nth i (lnls r) 0.
Proof.
  intros I. apply in_map_iff in I. destruct I as (r & <- & I). split; [apply map_length|]. exists r. split; [exact I|]. intros x J. apply in_map_iff in J. destruct J as (i & <- & J). eauto.
Qed.

(** ** C213 The stepping stone is nan exactly if tau is infinite or at most one row is common; its error also with no more than 50 tau rows. *)
Lemma rows_length chain k : (1 <= k)%nat -> ((length (rows chain k) <= 50)%nat <-> (end_row chain - first_row chain <= 50 * k)%nat).
Proof.
  intros K. unfold rows, slice_rows. destruct (end_row chain <=? first_row chain)%nat eqn:E; [apply Nat.leb_le in E; simpl; lia|]. apply Nat.leb_gt in E. rewrite map_length, seq_length.
  set (n := (end_row chain - first_row chain)%nat). split; intros H.
  - pose proof (Nat.div_mod (n + k - 1) k ltac:(lia)). pose proof (Nat.mod_upper_bound (n + k - 1) k ltac:(lia)). nia.
  - apply Nat.lt_succ_r. apply Nat.div_lt_upper_bound; lia.
Qed.
Theorem C213_nan chain tau draws : (forall k, tau = Some k -> (1 <= k)%nat) -> let c := rev chain in
  (fst (stone chain tau draws) = None <-> tau = None \/ (end_row c - first_row c <= 1)%nat) /\
  (snd (stone chain tau draws) = None <-> forall k, tau = Some k -> (end_row c - first_row c <= 1)%nat \/ (end_row c - first_row c <= 50 * k)%nat).
Proof.
  intros K c. unfold stone. fold c. destruct tau as [k|]; [|simpl; split; [tauto|split; [intros _ k D; discriminate|reflexivity]]]. specialize (K k eq_refl). pose proof (rows_length c k K) as RL.
  destruct (end_row c - first_row c <=? 1)%nat eqn:E; [apply Nat.leb_le in E | apply Nat.leb_gt in E]; cbn [fst snd].
  - split; [tauto|]. split; [intros _ k' _; left; exact E|reflexivity].
  - split; [split; [discriminate|intros [D | D]; [discriminate|lia]]|]. unfold block. destruct (length (rows c k) <=? 50)%nat eqn:B; [apply Nat.leb_le in B|apply Nat.leb_gt in B].
    + split; [|reflexivity]. intros _ k' Q. injection Q as <-. right. apply RL, B.
    + split; [discriminate|]. intros Q. destruct (Q k eq_refl) as [D | D]; [lia|]. apply RL in D. lia.
Qed.

(** ** C213 The bootstrap draws existing rows, never the last one, and 50 fewer than there are. *)
Definition block_draw (d : nat -> nat) : Prop := forall i, (i <= d i < i + 50)%nat.
Theorem C213_bootstrap steps d : block_draw d -> length (idxs steps d) = (steps - 50)%nat /\ forall i, In i (idxs steps d) -> (i < steps - 1)%nat.
Proof.
  intros D. unfold idxs, block. rewrite map_length, seq_length. split; [reflexivity|]. intros i I. apply in_map_iff in I. destruct I as (j & <- & J). apply in_seq in J. specialize (D j). lia.
Qed.
Theorem C213_last_row_unused steps d cols : block_draw d -> (forall c, In c cols -> length c = steps) -> resample (map (@removelast R) cols) (idxs steps d) = resample cols (idxs steps d).
Proof.
  intros D L. unfold resample. rewrite map_map. apply map_ext_in. intros c I. apply map_ext_in. intros i J. apply (C213_bootstrap steps d D) in J. rewrite <- (L c I) in J.
  destruct c as [|x c] using rev_ind; [simpl in J; lia|]. rewrite removelast_last. rewrite app_length in J. simpl in J. rewrite app_nth1 by lia. reflexivity.
Qed.

(** ** C213 Estimate and error are bounded by the likelihoods: the error is at most the spread of what the estimate could be, and zero for a constant likelihood. *)
Lemma std_bounds l lo hi : l <> [] -> (forall x, In x l -> lo <= x <= hi) -> 0 <= std l <= hi - lo.
Proof.
  intros N B. unfold std. split; [apply sqrt_pos|]. pose proof (avg_bounds l lo hi N B) as A. destruct l as [|x0 l0] eqn:El; [congruence|]. rewrite <- El in *.
  assert (lo <= hi) by (specialize (B x0); rewrite El in B; specialize (B (or_introl eq_refl)); lra).
  rewrite <- (sqrt_Rsqr (hi - lo)) by lra. apply sqrt_le_1_alt. unfold Rsqr. refine (proj2 (avg_bounds _ 0 _ _ _)); [rewrite El; discriminate|].
  intros y I. apply in_map_iff in I. destruct I as (x & <- & I). specialize (B x I). split; [apply Rle_0_sqr|]. nra.
Qed.
Theorem C213_bounds h bs chain k draws lo hi z e : (1 <= k)%nat -> map beta (rev chain) = h :: bs -> increasing h bs -> draws <> [] -> (forall d, In d draws -> block_draw d) ->
  (forall r i, In r chain -> (first_row (rev chain) <= i < end_row (rev chain))%nat -> lo <= nth i (lnls r) 0 <= hi) ->
  stone chain (Some k) draws = (Some z, Some e) ->
  (final h bs - h) * lo <= z <= (final h bs - h) * hi /\ 0 <= e <= (final h bs - h) * (hi - lo).
Proof.
  intros K Eb Inc ND D B Q. unfold stone in Q. destruct (end_row (rev chain) - first_row (rev chain) <=? 1)%nat eqn:E; [discriminate|]. apply Nat.leb_gt in E.
  set (ch := rev chain) in *. unfold block in Q. destruct (length (rows ch k) <=? 50)%nat eqn:St; [discriminate|]. apply Nat.leb_gt in St. injection Q as <- <-.
  rewrite Eb. assert (LC : length (columns ch k) = length bs).
  { unfold columns. rewrite map_length. assert (length ch = S (length bs)) by (rewrite <- (map_length beta), Eb; reflexivity).
    destruct ch as [|x t _] using rev_ind; [discriminate|]. rewrite removelast_last. rewrite app_length in H. simpl in H. lia. }
  assert (CB : forall c x, In c (columns ch k) -> In x c -> lo <= x <= hi).
  { intros c x I J. destruct (C213_columns ch k c I) as (_ & r & Ir & X). destruct (X x J) as (i & Ii & ->). apply (C213_rows ch k i K) in Ii. apply B; [|apply Ii].
    apply in_rev. fold ch. clear - Ir. induction ch as [|a t IH]; [destruct Ir|]. destruct t as [|b t]; [destruct Ir|]. destruct Ir as [-> | Ir]; [left; reflexivity|right; apply IH, Ir]. }
  assert (SB : forall cols, length cols = length bs -> (forall c, In c cols -> c <> [] /\ forall x, In x c -> lo <= x <= hi) -> (final h bs - h) * lo <= stepping_stone (h :: bs) cols <= (final h bs - h) * hi).
  { intros cols L P. apply C46_stepping_stone_bounds; [exact Inc|exact L|]. apply Forall_forall. exact P. }
  split.
  - apply SB; [exact LC|]. intros c I. split; [|intros x; apply CB, I]. intros ->. apply C213_columns in I. destruct I as (I & _). simpl in I. lia.
  - replace ((final h bs - h) * (hi - lo)) with ((final h bs - h) * hi - (final h bs - h) * lo) by ring. apply std_bounds; [destruct draws; [congruence|discriminate]|].
    intros x I. apply in_map_iff in I. destruct I as (d & <- & I). specialize (D d I). destruct (C213_bootstrap (length (rows ch k)) d D) as (Len & Rg). apply SB.
    + unfold resample. rewrite map_length. exact LC.
    + intros c J. apply in_map_iff in J. destruct J as (c0 & <- & J). split.
      * intros Z. apply (f_equal (@length R)) in Z. rewrite map_length, Len in Z. simpl in Z. lia.
      * intros y Y. apply in_map_iff in Y. destruct Y as (i & <- & Y). apply (CB c0); [exact J|]. apply nth_In. specialize (Rg i Y). destruct (C213_columns ch k c0 J) as (-> & _). lia.
Qed.

(** ** C213 One ensemble without a value makes the result nan; one temperature or an unknown method gives nan. The errors are combined as if they were logarithms. *)
Theorem C213_ensembles l : (fst (over_ensembles l) = None <-> exists e, In (None, e) l) /\ (snd (over_ensembles l) = None <-> exists z, In (z, None) l).
Proof.
  unfold over_ensembles. split; cbn [fst snd].
  - pose proof (all_some_none (map fst l)) as A. destruct (all_some (map fst l)).
    + split; [discriminate|]. intros (e & I). apply (in_map fst) in I. apply A in I. discriminate.
    + split; [intros _|reflexivity]. pose proof (proj1 A eq_refl) as I; apply in_map_iff in I; destruct I as ([u e] & E & I); simpl in E; subst; eauto.
  - pose proof (all_some_none (map snd l)) as A. destruct (all_some (map snd l)).
    + split; [discriminate|]. intros (e & I). apply (in_map snd) in I. apply A in I. discriminate.
    + split; [intros _|reflexivity]. pose proof (proj1 A eq_refl) as I; apply in_map_iff in I; destruct I as ([u e] & E & I); simpl in E; subst; eauto.
Qed.
Theorem C213_scale_refuted : combined_err (map (Rmult 2) [0; 1]) <> 2 * combined_err [0; 1].
Proof.
  unfold combined_err, Rsum. simpl. replace (2 * (2 * 0)) with 0 by ring. replace (2 * 0) with 0 by ring. replace (2 * (2 * 1)) with (2 * 1 + 2 * 1) by ring. rewrite exp_0, exp_plus.
  set (x := exp (2 * 1)). assert (X : 1 < x) by (unfold x; rewrite <- exp_0 at 1; apply exp_increasing; lra).
  intros H. assert (G : ln (1 / (1 + 1) * 1 + (1 / (1 + 1) * (x * x) + 0)) = ln ((1 / (1 + 1) * 1 + (1 / (1 + 1) * x + 0)) * (1 / (1 + 1) * 1 + (1 / (1 + 1) * x + 0)))) by (rewrite ln_mult by nra; lra).
  apply ln_inv in G; nra.
Qed.
Theorem C213_stored method ntemps chains tau draws : (ntemps = 1%nat \/ (method <> "thermodynamic" /\ method <> "stepping_stone")) -> evidence method ntemps chains tau draws = (None, None).
Proof.
  unfold evidence. intros [-> | (A & B)]; [reflexivity|]. apply String.eqb_neq in A, B. rewrite A, B. destruct (ntemps =? 1)%nat; reflexivity.
Qed.
Example C213_example : thermo [{| beta := 1; lnls := [9; -1; -3]; burn := 1 |}; {| beta := 1/2; lnls := [0; -4; -6]; burn := 1 |}; {| beta := 0; lnls := [-8; -8; -8]; burn := 1 |}] = Some (-5, 0).
Proof.
  rewrite (C213_thermodynamic_odd (-8) 6); [| |reflexivity].
  - simpl. unfold F. f_equal. f_equal. field.
  - intros r [<- | [<- | [<- | []]]]; split; simpl; try discriminate; unfold avg, Rsum; simpl; field.
Qed.

(** ** Assumptions of every theorem above *)
Definition Evid2_Props_all :=
  (@C213_thermodynamic_odd,
   @C213_thermodynamic_even,
   @C213_two_chains_refuted,
   @C213_window,
   @C213_rows,
   @C213_columns,
   @C213_nan,
   @C213_bootstrap,
   @C213_last_row_unused,
   @C213_bounds,
   @C213_ensembles,
   @C213_scale_refuted,
   @C213_stored).
Print Assumptions Evid2_Props_all.
