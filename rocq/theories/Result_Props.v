(** Properties C23, C24, C51, C52: reweighting and combination of results *)
From Coq Require Import Reals String List Arith Lia Lra Permutation.
From Verif Require Import PyDict Samples_Model Evidence_Model Evidence_Proofs Result_Model Result_Proofs.
Import ListNotations.
Open Scope list_scope.
Open Scope R_scope.

(** ** C23 Resumed reweighting *)
Section C23.
Context {T : Type} (t : target T) (ncp : nat) (rows : list T).
(** likelihood and prior the caller asked for *)
Let newL (s : T) := match new_like t with Some f => f s | None => old_like t s end.
Let newP (s : T) := match new_prior t with Some f => f s | None => old_prior t s end.

(** without interruption: every entry belongs to its row *)
Theorem C23_uninterrupted : forall a, a = fst (get_weights t ncp rows None) ->
  oL a = map (old_like t) rows /\ oP a = map (old_prior t) rows /\ nL a = map newL rows /\ nP a = map newP rows /\
  ln_weights a = map (fun s => newL s + newP s - old_like t s - old_prior t s) rows.
Proof.
  intros a ->. rewrite final_fresh. unfold exact. cbn [oL oP nL nP]. repeat split. unfold ln_weights. cbn [oL oP nL nP]. apply zip4_map.
Qed.

(** position of the row whose old log likelihood is nearest to zero *)
Let nearest := argmin (map (fun s => Rabs (old_like t s)) rows).

(** whatever the resume file of an interrupted run contains, it was written at a row c that is a
    multiple of the checkpoint interval; resuming gives the arrays of the uninterrupted run exactly
    when old and new log prior are zero for all rows strictly between c and [nearest] *)
Theorem C23_resumed : forall k file, killed_after t ncp rows None k = Some file ->
  exists c, (c < length rows)%nat /\ (c mod ncp = 0)%nat /\
    (fst (get_weights t ncp rows (Some file)) = fst (get_weights t ncp rows None) <->
     forall j s, (c < j < nearest)%nat -> nth_error rows j = Some s -> old_prior t s = 0 /\ newP s = 0).
Proof.
  intros k file H. unfold killed_after in H.
  destruct (last_save_cases None (firstn k (snd (get_weights t ncp rows None)))) as [[E _]|[a [Ha E]]]; rewrite E in H; [discriminate|]. injection H as <-.
  apply firstn_in in Ha. destruct (save_good t ncp rows None a I Ha) as [G [c [Hc [Hm [P1 P2]]]]]. exists c. split; [lia|]. split; [exact Hm|].
  rewrite (resumed_good t ncp rows a G), final_fresh. unfold exact. pose proof G as [[_ [_ [S3 S4]]] _].
  assert (N : (nearest <= length rows)%nat) by (unfold nearest; rewrite <- (map_length (fun s => Rabs (old_like t s))); apply argmin_le).
  change (istar t rows) with nearest. simpl in P1, P2.
  split.
  - intros Eq j s Hj Hs. injection Eq as E1 E2. assert (Lj : (j < length rows)%nat) by lia.
    pose proof (f_equal (fun l => nth j l 0) E1) as F1. pose proof (f_equal (fun l => nth j l 0) E2) as F2. cbv beta in F1, F2.
    rewrite nth_splice in F1 by (rewrite ?map_length; lia). rewrite nth_splice in F2 by (rewrite ?map_length; lia).
    destruct (Nat.ltb_spec j nearest); [|lia]. rewrite P1 in F1. rewrite P2 in F2. destruct (Nat.leb_spec j c); [lia|]. rewrite nth_repeat0 in F1, F2.
    assert (M : forall g : T -> R, nth j (map g rows) 0 = g s) by (intros g; apply nth_error_nth; rewrite nth_error_map, Hs; reflexivity).
    rewrite M in F1. rewrite M in F2. unfold newP. unfold pri in F2. split; symmetry; assumption.
  - intros Hz. f_equal; apply list_eq_nth; try (rewrite app_length, firstn_length, skipn_length, !map_length; lia).
    + intros j _. rewrite nth_splice by (rewrite ?map_length; lia). destruct (Nat.ltb_spec j nearest) as [A|A]; [|reflexivity]. rewrite P1. destruct (Nat.leb_spec j c) as [B|B]; [reflexivity|]. rewrite nth_repeat0.
      destruct (nth_error rows j) as [s|] eqn:Es; [|apply nth_error_None in Es; lia]. symmetry. erewrite nth_error_nth by (rewrite nth_error_map, Es; reflexivity). apply (Hz j s); [lia|exact Es].
    + intros j _. rewrite nth_splice by (rewrite ?map_length; lia). destruct (Nat.ltb_spec j nearest) as [A|A]; [|reflexivity]. rewrite P2. destruct (Nat.leb_spec j c) as [B|B]; [reflexivity|]. rewrite nth_repeat0.
      destruct (nth_error rows j) as [s|] eqn:Es; [|apply nth_error_None in Es; lia]. symmetry. erewrite nth_error_nth by (rewrite nth_error_map, Es; reflexivity). apply (Hz j s); [lia|exact Es].
Qed.

(** every multiple of the interval is a row at which a kill can leave the file, with the priors
    of the rows up to it and zeros behind *)
Theorem C23_checkpoints : forall c, (c < length rows)%nat -> (c mod ncp = 0)%nat ->
  exists k file, killed_after t ncp rows None k = Some file /\
    oL file = map (old_like t) rows /\ nL file = map newL rows /\
    oP file = map (old_prior t) (firstn (c + 1) rows) ++ repeat 0 (length rows - (c + 1)) /\
    nP file = map newP (firstn (c + 1) rows) ++ repeat 0 (length rows - (c + 1)).
Proof.
  intros c Hc Hm.
  destruct (get_weights_saves t ncp rows None
    (mkA (map (old_like t) rows) (map (old_prior t) (firstn (S c) rows) ++ skipn (S c) (repeat 0 (length rows)))
         (map newL rows) (map newP (firstn (S c) rows) ++ skipn (S c) (repeat 0 (length rows)))) I) as [_ F].
  assert (K := F ltac:(exists c; split; [simpl; lia|split; [exact Hm|reflexivity]])).
  apply (last_save_reach None) in K. destruct K as [k K]. exists k. eexists. split; [exact K|]. cbn [oL oP nL nP].
  assert (R : skipn (S c) (repeat 0 (length rows)) = repeat 0 (length rows - (c + 1))).
  { replace (length rows) with (S c + (length rows - (c + 1)))%nat at 1 by lia. rewrite repeat_app, skipn_app, repeat_length, Nat.sub_diag. rewrite skipn_all2 by (rewrite repeat_length; lia). reflexivity. }
  rewrite R. replace (c + 1)%nat with (S c) by lia. auto.
Qed.

(** any number of interruptions, each at any checkpoint: the likelihood arrays are right, all entries
    from [nearest] on are right, and an entry before it is right or its two priors are both
    missing (zero) *)
Theorem C23_any_history : forall ks a, a = fst (get_weights t ncp rows (killed_many t ncp rows None ks)) ->
  oL a = map (old_like t) rows /\ nL a = map newL rows /\
  forall j s, nth_error rows j = Some s ->
    (nth_error (oP a) j = Some (old_prior t s) /\ nth_error (nP a) j = Some (newP s)) \/
    ((j < nearest)%nat /\ nth_error (oP a) j = Some 0 /\ nth_error (nP a) j = Some 0).
Proof.
  intros ks a ->. pose proof (killed_many_good t ncp rows ks None I) as G. destruct (killed_many t ncp rows None ks) as [a|].
  2:{ rewrite final_fresh. unfold exact. cbn [oL oP nL nP]. split; [reflexivity|]. split; [reflexivity|]. intros j s Hs. left. rewrite !nth_error_map, Hs. split; reflexivity. }
  rewrite (resumed_good t ncp rows a G). destruct G as [[_ [_ [S3 S4]]] [_ [_ G]]]. cbn [oL oP nL nP]. split; [reflexivity|]. split; [reflexivity|].
  change (istar t rows) with nearest. assert (N : (nearest <= length rows)%nat) by (unfold nearest; rewrite <- (map_length (fun s => Rabs (old_like t s))); apply argmin_le).
  intros j s Hs. assert (Lj : (j < length rows)%nat) by (apply nth_error_Some; congruence).
  assert (M : forall g : T -> R, nth j (map g rows) 0 = g s) by (intros g; apply nth_error_nth; rewrite nth_error_map, Hs; reflexivity).
  assert (X : forall (l : list R) v, (j < length l)%nat -> nth j l 0 = v -> nth_error l j = Some v) by (intros l v Hl <-; apply nth_error_nth'; exact Hl).
  assert (L1 : (j < length (firstn nearest (oP a) ++ skipn nearest (map (old_prior t) rows)))%nat) by (rewrite app_length, firstn_length, skipn_length, map_length; lia).
  assert (L2 : (j < length (firstn nearest (nP a) ++ skipn nearest (map (pri t) rows)))%nat) by (rewrite app_length, firstn_length, skipn_length, map_length; lia).
  pose proof (nth_splice (oP a) (map (old_prior t) rows) nearest j ltac:(rewrite map_length; lia) ltac:(lia)) as E1.
  pose proof (nth_splice (nP a) (map (pri t) rows) nearest j ltac:(rewrite map_length; lia) ltac:(lia)) as E2.
  unfold ok_entry in G. specialize (G j). rewrite !M in *. destruct (Nat.ltb_spec j nearest) as [A|A].
  - destruct G as [[G1 G2]|[G1 G2]]; rewrite G1 in E1; rewrite G2 in E2; [left|right; split; [exact A|]]; split; apply X; assumption.
  - left. split; apply X; assumption.
Qed.
End C23.

(** two equal reweightings of the same three rows; the second one was killed after the first
    checkpoint and resumed: the log weight of row 1 is wrong *)
Definition w3 : target nat := mkT (fun s => INR s - 3) (Some (fun s => INR s - 2)) (fun _ => -1) (Some (fun _ => -5)).
Lemma w3_near : argmin [3; 2; 1] = 2%nat.
Proof. simpl. destruct (Rle_dec 2 1); [lra|]. destruct (Rle_dec 3 1); [lra|reflexivity]. Qed.
Theorem C23_equal_refuted : exists file,
  killed_after w3 5 [0; 1; 2]%nat None 1 = Some file /\
  nth 1 (ln_weights (fst (get_weights w3 5 [0; 1; 2]%nat None))) 0 = -3 /\
  nth 1 (ln_weights (fst (get_weights w3 5 [0; 1; 2]%nat (Some file)))) 0 = 1.
Proof.
  exists (mkA [0 - 3; 1 - 3; 2 - 3] [-1; 0; 0] [0 - 2; 1 - 2; 2 - 2] [-5; 0; 0]). split; [|split].
  - reflexivity.
  - unfold ln_weights. simpl. lra.
  - unfold get_weights, start. cbn [oL map].
    assert (E : argmin [Rabs (0 - 3); Rabs (1 - 3); Rabs (2 - 3)] = 2%nat).
    { replace (Rabs (0 - 3)) with 3 by (rewrite Rabs_left; lra). replace (Rabs (1 - 3)) with 2 by (rewrite Rabs_left; lra). replace (Rabs (2 - 3)) with 1 by (rewrite Rabs_left; lra). exact w3_near. }
    rewrite E. unfold ln_weights. simpl. lra.
Qed.

(** the resume file stays behind: a later reweighting of the same rows to another likelihood that
    names the same file returns the first likelihood for row 0 *)
Definition w_first : target nat := mkT (fun s => INR s - 1) (Some (fun _ => 10)) (fun _ => 0) None.
Definition w_second : target nat := mkT (fun s => INR s - 1) (Some (fun _ => 20)) (fun _ => 0) None.
Theorem C23_stale_file_refuted : exists file,
  last_save None (snd (get_weights w_first 1 [0; 1]%nat None)) = Some file /\
  nL (fst (get_weights w_second 1 [0; 1]%nat (Some file))) = [10; 20] /\
  nL (fst (get_weights w_second 1 [0; 1]%nat None)) = [20; 20].
Proof.
  eexists. split; [reflexivity|]. split; [|reflexivity].
  unfold get_weights, start. cbn [oL map prior_step fill_likelihoods app firstn skipn old_like w_first INR].
  assert (E : argmin [Rabs (0 - 1); Rabs (1 - 1)] = 1%nat).
  { replace (Rabs (0 - 1)) with 1 by (rewrite Rabs_left; lra). replace (Rabs (1 - 1)) with 0 by (rewrite Rabs_right; lra). simpl. destruct (Rle_dec 1 0); [lra|reflexivity]. }
  rewrite E. reflexivity.
Qed.

(** ** C51 Reweighting by rejection sampling *)
Section C51.
Context {A : Type}.
(** a row is kept exactly when its uniform number is below its weight over the largest weight *)
Theorem C51_keep_iff : forall (rows : list A) w u x, 0 < rmax_list w ->
  In x (rejection_sample rows w u) <->
  exists j wj uj, nth_error rows j = Some x /\ nth_error w j = Some wj /\ nth_error u j = Some uj /\ uj < wj / rmax_list w.
Proof.
  intros rows w u x M. unfold rejection_sample. set (m := rmax_list w) in *. clearbody m. rewrite in_map_iff. split.
  - intros [[y [wj uj]] [E H]]. simpl in E. subst y. apply filter_In in H. destruct H as [H K]. simpl in K. destruct (Rlt_dec _ _) as [L|]; [|discriminate].
    apply In_nth_error in H. destruct H as [j H]. exists j, wj, uj. assert (Q : nth_error rows j = Some x /\ nth_error (combine w u) j = Some (wj, uj)).
    { revert j H. generalize (combine w u). induction rows as [|r rows IH]; intros l j H; [destruct j; discriminate|]. destruct l as [|p l]; [destruct j; discriminate|]. destruct j as [|j]; [injection H as -> ->; split; reflexivity|]. apply (IH l j). exact H. }
    destruct Q as [Q1 Q2]. split; [exact Q1|]. assert (Q : nth_error w j = Some wj /\ nth_error u j = Some uj).
    { clear - Q2. revert w u Q2. induction j as [|j IH]; intros [|a w] [|b u] Q2; try discriminate; [injection Q2 as -> ->; split; reflexivity|]. apply (IH w u). exact Q2. }
    destruct Q as [Q3 Q4]. split; [exact Q3|]. split; [exact Q4|]. apply Rmult_lt_reg_l with m; [exact M|]. replace (m * (wj / m)) with wj by (field; lra). exact L.
  - intros [j [wj [uj [H1 [H2 [H3 H4]]]]]]. exists (x, (wj, uj)). split; [reflexivity|]. apply filter_In. split.
    + apply nth_error_In with j. revert rows w u H1 H2 H3. induction j as [|j IH]; intros [|r rows] [|a w] [|b u] H1 H2 H3; try discriminate; [injection H1 as ->; injection H2 as ->; injection H3 as ->; reflexivity|]. apply (IH rows w u); assumption.
    + simpl. destruct (Rlt_dec _ _) as [L|L]; [reflexivity|]. exfalso. apply L. apply Rmult_lt_compat_l with (r := m) in H4; [|exact M]. replace (m * (wj / m)) with wj in H4 by (field; lra). exact H4.
Qed.
(** a row of largest weight is always kept, so the result is never empty *)
Theorem C51_largest_kept : forall (rows : list A) w u j x wj, length rows = length w -> length u = length w ->
  (forall v, In v u -> 0 <= v < 1) -> (forall v, In v w -> 0 < v) ->
  nth_error rows j = Some x -> nth_error w j = Some wj -> (forall v, In v w -> v <= wj) ->
  In x (rejection_sample rows w u).
Proof.
  intros rows w u j x wj L1 L2 U W H1 H2 HM. assert (Iw : In wj w) by (apply nth_error_In with j; exact H2). assert (E : rmax_list w = wj) by (apply rmax_unique; assumption).
  assert (P := W wj Iw). apply C51_keep_iff; [lra|]. destruct (nth_error u j) as [uj|] eqn:Eu; [|apply nth_error_None in Eu; assert (j < length w)%nat by (apply nth_error_Some; congruence); lia].
  exists j, wj, uj. rewrite E. split; [exact H1|]. split; [exact H2|]. split; [exact Eu|]. replace (wj / wj) with 1 by (field; lra). apply U. apply nth_error_In with j. exact Eu.
Qed.
(** rows come out in their order, at most once each, and a common factor of the weights is irrelevant *)
Theorem C51_scale_invariant : forall c (rows : list A) w u, 0 < c ->
  rejection_sample rows (map (Rmult c) w) u = rejection_sample rows w u /\ exists mask, length mask = length (combine rows (combine w u)) /\
    rejection_sample rows w u = map fst (filter snd (combine (map fst (combine rows (combine w u))) mask)).
Proof.
  intros c rows w u C. split.
  - unfold rejection_sample. destruct w as [|w0 w]; [destruct rows; reflexivity|]. rewrite rmax_scal by (congruence || exact C). set (m := rmax_list (w0 :: w)). clearbody m. generalize (w0 :: w). clear w0 w. intros w. revert w u.
    induction rows as [|r rows IH]; intros w u; [reflexivity|]. destruct w as [|a w]; [reflexivity|]. destruct u as [|b u]; [reflexivity|]. simpl.
    destruct (Rlt_dec (c * m * b) (c * a)) as [P|P]; destruct (Rlt_dec (m * b) a) as [Q|Q].
    + simpl. f_equal. apply IH.
    + exfalso. apply Q. apply Rmult_lt_reg_l with c; [exact C|]. rewrite <- Rmult_assoc. exact P.
    + exfalso. apply P. rewrite Rmult_assoc. apply Rmult_lt_compat_l; assumption.
    + apply IH.
  - unfold rejection_sample. set (f := fun x : A * (R * R) => if Rlt_dec (rmax_list w * snd (snd x)) (fst (snd x)) then true else false).
    exists (map f (combine rows (combine w u))). split; [apply map_length|]. generalize (combine rows (combine w u)). intros l. induction l as [|x l IH]; [reflexivity|]. simpl. destruct (f x); simpl; rewrite IH; reflexivity.
Qed.
End C51.

Section Reweight.
Context {T : Type}.
Definition row_new (q : request) (r : @row T) : R := match q_newL q with Some f => f (par r) | None => match q_oldL q with Some f => f (par r) | None => logl r end end.
Definition row_newP (q : request) (r : @row T) : R := match q_newP q with Some f => f (par r) | None => match q_oldP q with Some f => f (par r) | None => logp r end end.
Definition row_old (q : request) (r : @row T) : R := match q_oldL q with Some f => f (par r) | None => logl r end.
Definition row_oldP (q : request) (r : @row T) : R := match q_oldP q with Some f => f (par r) | None => logp r end.
Definition row_lw (q : request) (r : @row T) : R := row_new q r + row_newP q r - row_old q r - row_oldP q r.
Lemma reweight_eq h fa r q u : @reweight T h fa r q u =
  (hset (hset h (posterior r) (map (fun x => mkRow (par x) (row_new q x) (row_newP q x)) (h (posterior r)))) fa
     (rejection_sample (map (fun x => mkRow (par x) (row_new q x) (row_newP q x)) (h (posterior r))) (map exp (map (row_lw q) (h (posterior r)))) u),
   mkRes fa (log_evidence r + ln_mean_exp (map (row_lw q) (h (posterior r))))).
Proof.
  unfold reweight. rewrite final_fresh.
  assert (E1 : ln_weights (exact (target_of q) (h (posterior r))) = map (row_lw q) (h (posterior r))).
  { unfold ln_weights, exact. cbn [oL oP nL nP]. rewrite zip4_map. apply map_ext. intros x. unfold row_lw, row_new, row_newP, row_old, row_oldP, lik, pri, target_of. simpl. destruct (q_newL q), (q_newP q), (q_oldL q), (q_oldP q); reflexivity. }
  assert (E2 : overwrite (h (posterior r)) (exact (target_of q) (h (posterior r))) = map (fun x => mkRow (par x) (row_new q x) (row_newP q x)) (h (posterior r))).
  { unfold overwrite, exact. cbn [nL nP]. rewrite combine_map. rewrite <- (map_id (h (posterior r))) at 1. rewrite combine_map, map_map. apply map_ext. intros x. unfold row_new, row_newP, lik, pri, target_of. simpl. destruct (q_newL q), (q_newP q), (q_oldL q), (q_oldP q); reflexivity. }
  rewrite E1, E2. reflexivity.
Qed.

(** the log evidence grows by the log of the mean weight; it stays between the extreme log weights *)
Theorem C51_evidence : forall h fa r q u lo hi, h (posterior r) <> [] ->
  (forall x, In x (h (posterior r)) -> lo <= row_lw q x <= hi) ->
  log_evidence (snd (@reweight T h fa r q u)) = log_evidence r + ln (avg (map exp (map (row_lw q) (h (posterior r))))) /\
  log_evidence r + lo <= log_evidence (snd (reweight h fa r q u)) <= log_evidence r + hi.
Proof.
  intros h fa r q u lo hi N B. rewrite reweight_eq. simpl. assert (N' : map (row_lw q) (h (posterior r)) <> []) by (destruct (h (posterior r)); [congruence|discriminate]).
  split; [rewrite ln_mean_exp_eq by exact N'; reflexivity|].
  assert (lo <= ln_mean_exp (map (row_lw q) (h (posterior r))) <= hi); [|lra]. apply lme_bounds; [exact N'|]. intros x Hx. apply in_map_iff in Hx. destruct Hx as [y [<- Hy]]. apply B. exact Hy.
Qed.
(** nothing new: the posterior and the evidence come back unchanged *)
Theorem C51_identity : forall h fa r u, (length u = length (h (posterior r)))%nat -> (forall v, In v u -> 0 <= v < 1) -> h (posterior r) <> [] ->
  let '(h', r') := @reweight T h fa r (mkReq None None None None) u in
  h' (posterior r') = h (posterior r) /\ log_evidence r' = log_evidence r.
Proof.
  intros h fa r u L U N. rewrite reweight_eq. simpl posterior. simpl log_evidence. unfold hset. rewrite Nat.eqb_refl.
  assert (E : map (row_lw (mkReq None None None None)) (h (posterior r)) = map (fun _ => 0) (h (posterior r))) by (apply map_ext; intros x; unfold row_lw, row_new, row_newP, row_old, row_oldP; simpl; lra).
  rewrite E. split.
  - assert (E2 : map (fun x : row => mkRow (par x) (row_new (mkReq None None None None) x) (row_newP (mkReq None None None None) x)) (h (posterior r)) = h (posterior r)).
    { rewrite <- (map_id (h (posterior r))) at 2. apply map_ext. intros [a b c]. reflexivity. }
    rewrite E2. rewrite map_map. rewrite (map_ext _ (fun _ => 1)) by (intros; apply exp_0). unfold rejection_sample.
    assert (M : rmax_list (map (fun _ : row => 1) (h (posterior r))) = 1).
    { apply rmax_unique; [destruct (h (posterior r)); [congruence|left; reflexivity]|]. intros x Hx. apply in_map_iff in Hx. destruct Hx as [y [<- _]]. lra. }
    rewrite M. revert u L U. generalize (h (posterior r)). intros l. induction l as [|x l IH]; intros u L U; [reflexivity|]. destruct u as [|v u]; [discriminate|]. simpl.
    assert (V := U v (or_introl eq_refl)). destruct (Rlt_dec (1 * v) 1) as [P|P]; [|lra]. simpl. f_equal. apply IH; [simpl in L; lia|]. intros z Hz. apply U. right. exact Hz.
  - assert (N' : map (fun _ : row => 0) (h (posterior r)) <> []) by (destruct (h (posterior r)); [congruence|discriminate]).
    assert (0 <= ln_mean_exp (map (fun _ : row => 0) (h (posterior r))) <= 0); [|lra]. apply lme_bounds; [exact N'|]. intros x Hx. apply in_map_iff in Hx. destruct Hx as [y [<- _]]. lra.
Qed.
(** multiplying the new likelihood by exp c keeps the same rows and adds c to the log evidence *)
Theorem C51_constant_factor : forall h fa r f np ol op u c, h (posterior r) <> [] ->
  let q := mkReq (Some f) np ol op in let q' := mkReq (Some (fun s => f s + c)) np ol op in
  map par (fst (@reweight T h fa r q' u) fa) = map par (fst (reweight h fa r q u) fa) /\
  log_evidence (snd (reweight h fa r q' u)) = log_evidence (snd (reweight h fa r q u)) + c.
Proof.
  intros h fa r f np ol op u c N q q'. rewrite !reweight_eq. simpl fst. simpl snd. simpl log_evidence. unfold hset. rewrite Nat.eqb_refl.
  assert (E : map (row_lw q') (h (posterior r)) = map (fun x => x + c) (map (row_lw q) (h (posterior r)))).
  { rewrite map_map. apply map_ext. intros x. unfold row_lw, row_new, row_newP, row_old, row_oldP, q, q'. simpl. lra. }
  rewrite E. split.
  - assert (E2 : map exp (map (fun x => x + c) (map (row_lw q) (h (posterior r)))) = map (Rmult (exp c)) (map exp (map (row_lw q) (h (posterior r))))).
    { rewrite !map_map. apply map_ext. intros x. rewrite Rplus_comm. apply exp_plus. }
    rewrite E2. destruct (C51_scale_invariant (exp c) (map (fun x : row => mkRow (par x) (row_new q' x) (row_newP q' x)) (h (posterior r))) (map exp (map (row_lw q) (h (posterior r)))) u (exp_pos c)) as [-> _].
    assert (G : forall (g : @row T -> @row T) l w v, (forall x, par (g x) = par x) -> map par (rejection_sample (map g l) w v) = rejection_sample (map par l) w v).
    { intros g l w v Hg. unfold rejection_sample. generalize (rmax_list w). intros m. revert w v. induction l as [|x l IH]; intros w v; [reflexivity|]. destruct w as [|a w]; [reflexivity|]. destruct v as [|b v]; [reflexivity|]. simpl. destruct (Rlt_dec (m * b) a); [|apply IH]. simpl. rewrite Hg. f_equal. apply IH. }
    rewrite !G by reflexivity. reflexivity.
  - rewrite lme_shift; [lra|]. destruct (h (posterior r)); [congruence|discriminate].
Qed.
(** weights of two successive changes of target add up to the weights of the direct change *)
Theorem C51_two_steps : forall f1 p1 f2 p2 (x : @row T),
  row_lw (mkReq (Some f1) (Some p1) None None) x + row_lw (mkReq (Some f2) (Some p2) (Some f1) (Some p1)) x =
  row_lw (mkReq (Some f2) (Some p2) None None) x.
Proof. intros. unfold row_lw, row_new, row_newP, row_old, row_oldP. simpl. lra. Qed.

(** ** C52 Reweighting overwrites the caller's posterior *)
(** the frame of the result that was passed in: same rows, stored log likelihood and log prior
    replaced by the new ones *)
Theorem C52_original_overwritten : forall h fa r f p ol op u, fa <> posterior r ->
  fst (@reweight T h fa r (mkReq (Some f) (Some p) ol op) u) (posterior r) = map (fun x => mkRow (par x) (f (par x)) (p (par x))) (h (posterior r)).
Proof.
  intros. rewrite reweight_eq. simpl fst. unfold hset. destruct (Nat.eqb_spec (posterior r) fa) as [E|_]; [congruence|]. rewrite Nat.eqb_refl. reflexivity.
Qed.
(** hence a second call that relies on the stored values measures against the first target *)
Theorem C52_second_call : forall h fa fb r f1 p1 f2 p2 ol op u1 u2, fa <> posterior r ->
  let h1 := fst (@reweight T h fa r (mkReq (Some f1) (Some p1) ol op) u1) in
  log_evidence (snd (reweight h1 fb r (mkReq (Some f2) (Some p2) None None) u2)) =
  log_evidence r + ln_mean_exp (map (fun x => f2 (par x) + p2 (par x) - f1 (par x) - p1 (par x)) (h (posterior r))).
Proof.
  intros h fa fb r f1 p1 f2 p2 ol op u1 u2 N h1. rewrite reweight_eq. simpl snd. simpl log_evidence. unfold h1. rewrite C52_original_overwritten by exact N. rewrite map_map. reflexivity.
Qed.
(** earlier calls for the same result, each into its own new frame *)
Fixpoint calls (h : heap) (r : result) (l : list (nat * request * list R)) : heap :=
  match l with [] => h | (fa, q, u) :: rest => calls (fst (@reweight T h fa r q u)) r rest end.
(** with both old likelihood and old prior given the outcome does not depend on earlier calls *)
Theorem C52_explicit_old : forall l h fa r nl np f p u, (forall c, In c l -> fst (fst c) <> posterior r) ->
  let q := mkReq nl np (Some f) (Some p) in let h' := calls h r l in
  fst (reweight h' fa r q u) fa = fst (reweight h fa r q u) fa /\ snd (reweight h' fa r q u) = snd (reweight h fa r q u).
Proof.
  intros l h fa r nl np f p u H q h'.
  assert (K : map par (h' (posterior r)) = map par (h (posterior r))).
  { unfold h'. clear h'. revert h. induction l as [|[[fb q1] u1] l IH]; intros h; [reflexivity|]. cbn [calls]. rewrite IH by (intros c Hc; apply H; right; exact Hc).
    rewrite reweight_eq. simpl fst. unfold hset. assert (N := H _ (or_introl eq_refl)). simpl in N. destruct (Nat.eqb_spec (posterior r) fb) as [E|_]; [congruence|]. rewrite Nat.eqb_refl, map_map. apply map_ext. reflexivity. }
  rewrite !reweight_eq. simpl fst. simpl snd. unfold hset. rewrite Nat.eqb_refl.
  assert (F : forall (X : Type) (g : @row T -> X), (exists g', forall x, g x = g' (par x)) -> map g (h' (posterior r)) = map g (h (posterior r))).
  { intros X g [g' Hg]. rewrite !(map_ext g (fun x => g' (par x)) Hg). rewrite <- !(map_map par g'), K. reflexivity. }
  rewrite (F R (row_lw q)), (F _ (fun x => mkRow (par x) (row_new q x) (row_newP q x))).
  - split; reflexivity.
  - exists (fun s => mkRow s (match nl with Some g => g s | None => f s end) (match np with Some g => g s | None => p s end)). intros x. reflexivity.
  - exists (fun s => (match nl with Some g => g s | None => f s end) + (match np with Some g => g s | None => p s end) - f s - p s). intros x. reflexivity.
Qed.
End Reweight.

(** reweighting the same result twice to the same target: evidence 1 the first time, 0 the second *)
Theorem C52_repeat_refuted : exists (h : heap) r q u,
  let h1 := fst (@reweight unit h 1 r q u) in
  log_evidence (snd (reweight h 1 r q u)) = 1 /\ log_evidence (snd (reweight h1 2 r q u)) = 0.
Proof.
  exists (fun _ => [mkRow tt 0 0]), (mkRes 0 0), (mkReq (Some (fun _ => 1)) (Some (fun _ => 0)) None None), [0]. cbv zeta.
  split.
  - rewrite reweight_eq. simpl. unfold ln_mean_exp, row_lw. simpl. rewrite Rplus_0_r, ln_exp, ln_1. unfold row_new, row_newP, row_old, row_oldP. simpl. lra.
  - rewrite (C52_second_call (fun _ => [mkRow tt 0 0]) 1 2 (mkRes 0 0) (fun _ => 1) (fun _ => 0) (fun _ => 1) (fun _ => 0)) by (simpl; lia). simpl. unfold ln_mean_exp. simpl. rewrite Rplus_0_r, ln_exp, ln_1. lra.
Qed.
Example C51_example : rejection_sample [10; 20; 30]%nat [1; 4; 2] [/ 2; / 2; / 4] = [20; 30]%nat.
Proof.
  unfold rejection_sample. assert (E : rmax_list [1; 4; 2] = 4) by (apply rmax_unique; [simpl; auto|]; simpl; intros x [H|[H|[H|[]]]]; lra). rewrite E. simpl.
  destruct (Rlt_dec (4 * / 2) 1); [lra|]. destruct (Rlt_dec (4 * / 2) 4); [|lra]. destruct (Rlt_dec (4 * / 4) 2); [|lra]. reflexivity.
Qed.

(** ** C24 Combining runs *)
Section C24.
Context {T : Type}.
Lemma lnZ_as_mean (l : list (run T)) : l <> [] -> combine_lnZ l = ln_mean_exp (map lnZ l).
Proof.
  intros N. unfold combine_lnZ. rewrite Rsum_map_scal, <- (map_map lnZ exp). rewrite ln_mean_exp_eq by (destruct l; [congruence|discriminate]). unfold avg. rewrite !map_length. f_equal. field. pose proof (lenpos l N). lra.
Qed.
(** log of the mean evidence: between the extremes, independent of order, and the common value of
    runs that agree; adding c to every log evidence adds c *)
Theorem C24_log_mean : forall l : list (run T), l <> [] ->
  combine_lnZ l = ln (avg (map (fun r => exp (lnZ r)) l)) /\
  (forall lo hi, (forall r, In r l -> lo <= lnZ r <= hi) -> lo <= combine_lnZ l <= hi) /\
  (forall l', Permutation l l' -> combine_lnZ l' = combine_lnZ l) /\
  (forall c, combine_lnZ (map (fun r => mkRun (lnZ r + c) (lnZ_err r) (rows r)) l) = combine_lnZ l + c).
Proof.
  intros l N. split; [|split; [|split]].
  - rewrite lnZ_as_mean by exact N. rewrite ln_mean_exp_eq by (destruct l; [congruence|discriminate]). rewrite map_map. reflexivity.
  - intros lo hi B. rewrite lnZ_as_mean by exact N. apply lme_bounds; [destruct l; [congruence|discriminate]|]. intros x Hx. apply in_map_iff in Hx. destruct Hx as [r [<- Hr]]. apply B. exact Hr.
  - intros l' P. unfold combine_lnZ. rewrite <- (Permutation_length P). f_equal. apply Rsum_perm. apply Permutation_sym. apply Permutation_map. exact P.
  - intros c. rewrite lnZ_as_mean by (destruct l; [congruence|discriminate]). rewrite lnZ_as_mean by exact N. rewrite map_map. simpl. rewrite <- (map_map lnZ (fun x => x + c)). apply lme_shift. destruct l; [congruence|discriminate].
Qed.
(** error of the combination: when every run has a finite error it lies between the extremes *)
Theorem C24_error : forall (l : list (run T)) lo hi, l <> [] ->
  (forall r, In r l -> exists e, lnZ_err r = Some e /\ lo <= e <= hi) ->
  exists e, combine_err l = Some e /\ lo <= e <= hi.
Proof.
  intros l lo hi N B.
  assert (L : length (finite_errs l) = length l).
  { clear N. induction l as [|r l IH]; [reflexivity|]. destruct (B r (or_introl eq_refl)) as [e [E _]]. unfold finite_errs in *. simpl. rewrite E. simpl. f_equal. apply IH. intros x Hx. apply B. right. exact Hx. }
  assert (F : forall e, In e (finite_errs l) -> lo <= e <= hi).
  { intros e He. unfold finite_errs in He. apply in_flat_map in He. destruct He as [r [Hr He]]. destruct (B r Hr) as [e' [E K]]. rewrite E in He. destruct He as [->|[]]. exact K. }
  unfold combine_err. destruct (finite_errs l) as [|e0 es] eqn:Ef; [destruct l; [congruence|discriminate]|]. rewrite <- L. eexists. split; [reflexivity|].
  assert (K : ln (Rsum (map (fun e => 1 / INR (length (e0 :: es)) * exp (2 * e)) (e0 :: es))) = ln_mean_exp (map (Rmult 2) (e0 :: es))).
  { rewrite Rsum_map_scal. rewrite ln_mean_exp_eq by discriminate. unfold avg. rewrite map_map, !map_length. f_equal. field. pose proof (lenpos (e0 :: es) ltac:(discriminate)). lra. }
  rewrite K. assert (2 * lo <= ln_mean_exp (map (Rmult 2) (e0 :: es)) <= 2 * hi); [|lra].
  apply lme_bounds; [discriminate|]. intros x Hx. apply in_map_iff in Hx. destruct Hx as [e [<- He]]. pose proof (F e He). lra.
Qed.
(** posterior rows: a run of largest evidence keeps all its rows *)
Theorem C24_best_run_kept : forall (l : list (run T)) r u, In r l -> (forall r', In r' l -> lnZ r' <= lnZ r) ->
  length u = length (rows r) -> (forall v, In v u -> 0 <= v < 1) -> select (keep_fraction l r) (rows r) u = rows r.
Proof.
  intros l r u Hr HM L U. assert (E : keep_fraction l r = 1).
  { unfold keep_fraction. rewrite (rmax_unique (map lnZ l) (lnZ r)); [rewrite Rminus_diag_eq by reflexivity; apply exp_0|apply in_map; exact Hr|]. intros x Hx. apply in_map_iff in Hx. destruct Hx as [y [<- Hy]]. apply HM. exact Hy. }
  rewrite E. unfold select. revert u L U. generalize (rows r). intros rs. induction rs as [|x rs IH]; intros u L U; [reflexivity|]. destruct u as [|v u]; [discriminate|]. simpl. assert (V := U v (or_introl eq_refl)). destruct (Rlt_dec v 1); [|lra]. simpl. f_equal. apply IH; [simpl in L; lia|]. intros z Hz. apply U. right. exact Hz.
Qed.
(** the probabilities of keeping a row are probabilities and stand in the ratio of the evidences *)
Theorem C24_keep_fractions : forall (l : list (run T)) r r', In r l -> In r' l ->
  0 < keep_fraction l r <= 1 /\ keep_fraction l r * exp (lnZ r') = keep_fraction l r' * exp (lnZ r).
Proof.
  intros l r r' H H'. unfold keep_fraction. assert (M : lnZ r <= rmax_list (map lnZ l)) by (apply rmax_ge, in_map; exact H). split.
  - split; [apply exp_pos|]. rewrite <- exp_0. destruct (Rle_lt_or_eq_dec _ _ M) as [Q|Q]; [left; apply exp_increasing; lra|right; f_equal; lra].
  - rewrite <- !exp_plus. f_equal. lra.
Qed.
(** every row of the combination comes from one of the runs, and the mcmc combination keeps all *)
Theorem C24_rows : forall (l : list (run T)) us x, In x (combine_nested_rows l us) -> exists r, In r l /\ In x (rows r) .
Proof.
  intros l us x H. unfold combine_nested_rows in H. apply in_concat in H. destruct H as [s [Hs Hx]]. apply in_map_iff in Hs. destruct Hs as [[r u] [<- Hr]]. apply in_combine_l in Hr. exists r. split; [exact Hr|]. simpl in Hx. unfold select in Hx. apply in_map_iff in Hx. destruct Hx as [[y v] [<- Hy]]. apply filter_In in Hy. destruct Hy as [Hy _]. apply in_combine_l in Hy. exact Hy.
Qed.
Theorem C24_mcmc_rows : forall (l : list (run T)) x, In x (combine_mcmc_rows l) <-> exists r, In r l /\ In x (rows r).
Proof. intros l x. unfold combine_mcmc_rows. rewrite in_concat. split; [intros [s [Hs Hx]]; apply in_map_iff in Hs; destruct Hs as [r [<- Hr]]; exists r; auto|intros [r [Hr Hx]]; exists (rows r); split; [apply in_map; exact Hr|exact Hx]]. Qed.
End C24.
(** two runs, one without an error estimate: the error of the combination is negative *)
Theorem C24_error_positive_refuted : exists (l : list (run unit)) e,
  (forall r x, In r l -> lnZ_err r = Some x -> 0 < x) /\ combine_err l = Some e /\ e < 0.
Proof.
  exists [mkRun 0 (Some (/ 10)) []; mkRun 0 None []]. eexists. split; [|split; [reflexivity|]].
  - intros r x [<-|[<-|[]]] H; simpl in H; [injection H as <-; lra|discriminate].
  - simpl. rewrite Rplus_0_r. rewrite ln_mult by (try apply exp_pos; lra). rewrite ln_exp. replace (1 / (1 + 1)) with (/ 2) by lra. rewrite ln_Rinv by lra. pose proof ln_lt_2. lra.
Qed.
(** the combined error of n identical runs does not shrink with n *)
Example C24_error_does_not_shrink : forall n, combine_err (repeat (mkRun 3 (Some (/ 5)) [tt]) (n + 1)) = Some (/ 5).
Proof.
  intros n. destruct (C24_error (repeat (mkRun 3 (Some (/ 5)) [tt]) (n + 1)) (/ 5) (/ 5)) as [e [E B]].
  - replace (n + 1)%nat with (S n) by lia. discriminate.
  - intros r Hr. apply repeat_spec in Hr. subst r. exists (/ 5). split; [reflexivity|lra].
  - rewrite E. f_equal. lra.
Qed.
Example C24_example : combine_lnZ [mkRun (ln 2) None [1%nat]; mkRun (ln 6) None [2%nat]] = ln 4.
Proof. unfold combine_lnZ. simpl. rewrite !exp_ln by lra. f_equal. lra. Qed.

(** priors of the results: with a non-empty first dictionary the check passes exactly when all
    dictionaries have the same keys with equal priors *)
Section C24P.
Context {V : Type} (peq : V -> V -> bool).
Lemma check_keys_passed (p0 p : dict V) keys : keys <> [] ->
  check_keys peq p0 p keys = Passed <-> (length p0 = length p /\ forall k v0, In (k, v0) keys -> exists v, dget p k = Some v /\ peq v0 v = true).
Proof.
  induction keys as [|[k v0] keys IH]; [congruence|]. intros _. cbn [check_keys]. split.
  - intros H. destruct (dget p k) as [v|] eqn:E; [|discriminate]. destruct (peq v0 v) eqn:Ev; [|discriminate]. destruct (Nat.eqb_spec (length p0) (length p)) as [L|L]; [|discriminate]. simpl in H.
    split; [exact L|]. intros k' v' [Hk|Hk]; [injection Hk as <- <-; exists v; auto|]. destruct keys as [|x keys]; [destruct Hk|]. apply (proj1 (IH ltac:(discriminate)) H). exact Hk.
  - intros [L H]. destruct (H k v0 (or_introl eq_refl)) as [v [E Ev]]. rewrite E, Ev, L, Nat.eqb_refl. simpl. destruct keys as [|x keys]; [reflexivity|]. rewrite IH by discriminate. split; [exact L|]. intros k' v' Hk. apply H. right. exact Hk.
Qed.
Theorem C24_priors_checked : forall (p0 : dict V) l, p0 <> [] -> wf p0 -> (forall p, In p l -> wf p) -> (forall v, peq v v = true) ->
  check_consistent_priors peq (p0 :: l) = Passed <->
  forall p, In p l -> (forall k, In k (dkeys p) <-> In k (dkeys p0)) /\
                     (forall k v0 v, dget p0 k = Some v0 -> dget p k = Some v -> peq v0 v = true).
Proof.
  intros p0 l N W0 W R.
  assert (S0 : check_keys peq p0 p0 p0 = Passed) by (apply check_keys_passed; [exact N|]; split; [reflexivity|]; intros k v0 H; exists v0; split; [apply dget_in; assumption|apply R]).
  unfold check_consistent_priors. cbn [check_results]. rewrite S0.
  assert (K : check_results peq p0 l = Passed <-> forall p, In p l -> check_keys peq p0 p p0 = Passed).
  { clear W. induction l as [|p l IH]; [split; [intros _ p []|reflexivity]|]. cbn [check_results]. split.
    - intros H p' [<-|Hp]; [destruct (check_keys peq p0 p p0); congruence|]. destruct (check_keys peq p0 p p0); try discriminate. apply IH; assumption.
    - intros H. rewrite (H p (or_introl eq_refl)). apply IH. intros p' Hp. apply H. right. exact Hp. }
  rewrite K. split; intros H p Hp.
  - specialize (H p Hp). apply check_keys_passed in H; [|exact N]. destruct H as [L H].
    assert (I1 : forall k, In k (dkeys p0) -> In k (dkeys p)).
    { intros k Hk. apply in_map_iff in Hk. destruct Hk as [[k' v0] [<- Hk]]. destruct (H _ _ Hk) as [v [E _]]. apply dget_some_in in E. apply in_map_iff. exists (k', v). split; [reflexivity|exact E]. }
    split.
    + intros k. split; [|apply I1]. intros Hk. apply (NoDup_length_incl (l := dkeys p0) (l' := dkeys p)); [exact W0|unfold dkeys; rewrite !map_length; lia|exact I1|exact Hk].
    + intros k v0 v E0 E. apply dget_some_in in E0. destruct (H _ _ E0) as [v' [E' Q]]. congruence.
  - destruct (H p Hp) as [Hk Hv]. apply check_keys_passed; [exact N|]. split.
    + rewrite <- (map_length fst p0), <- (map_length fst p). apply Nat.le_antisymm; apply NoDup_incl_length; try (exact W0); try (apply W; exact Hp); intros k; apply Hk.
    + intros k v0 E0. destruct (dget p k) as [v|] eqn:E; [exists v; split; [reflexivity|]; apply (Hv k); [apply dget_in; assumption|exact E]|]. exfalso. apply dget_none in E. apply E, Hk. apply in_map_iff. exists (k, v0). split; [reflexivity|exact E0].
Qed.
(** a first result without priors accepts everything, and a missing key escapes as KeyError *)
Theorem C24_detects_refuted : forall (v : V), exists l p p', In p l /\ In p' l /\ dkeys p <> dkeys p' /\ check_consistent_priors peq l = Passed.
Proof. intros v. exists [[]; [("m"%string, v)]], [], [("m"%string, v)]. simpl. repeat split; auto. discriminate. Qed.
Theorem C24_missing_key : forall (p0 p : dict V) k v0, In (k, v0) p0 -> wf p0 -> (forall v, peq v v = true) -> length p0 = length p ->
  (forall k' v' v, In (k', v') p0 -> dget p k' = Some v -> peq v' v = true) -> dget p k = None -> check_consistent_priors peq [p0; p] = KeyErr.
Proof.
  intros p0 p k v0 H W R L E N. assert (S0 : check_keys peq p0 p0 p0 = Passed) by (apply check_keys_passed; [intros ->; destruct H|]; split; [reflexivity|]; intros a b Hab; exists b; split; [apply dget_in; assumption|apply R]).
  unfold check_consistent_priors. cbn [check_results]. rewrite S0.
  assert (G : forall keys, incl keys p0 -> In (k, v0) keys -> check_keys peq p0 p keys = KeyErr).
  { induction keys as [|[a b] keys IH]; [intros _ []|]. intros Hi [Hk|Hk]; cbn [check_keys].
    - injection Hk as -> ->. rewrite N. reflexivity.
    - destruct (dget p a) as [v|] eqn:Ea; [|reflexivity]. rewrite (E a b v (Hi _ (or_introl eq_refl)) Ea), L, Nat.eqb_refl. simpl. apply IH; [intros x Hx; apply Hi; right; exact Hx|exact Hk]. }
  rewrite (G p0 (incl_refl _) H). reflexivity.
Qed.
End C24P.
Example C24_priors_example : check_consistent_priors Nat.eqb [[("m"%string, 1%nat)]; [("m"%string, 2%nat)]] = ListError /\
  check_consistent_priors Nat.eqb [[("m"%string, 1%nat); ("q"%string, 3%nat)]; [("q"%string, 3%nat); ("m"%string, 1%nat)]] = Passed.
Proof. split; reflexivity. Qed.

(** ** Assumptions of every theorem above *)
Definition Result_Props_all :=
  (@C23_uninterrupted,
   @C23_resumed,
   @C23_checkpoints,
   @C23_any_history,
   @C23_equal_refuted,
   @C23_stale_file_refuted,
   @C51_keep_iff,
   @C51_largest_kept,
   @C51_scale_invariant,
   @C51_evidence,
   @C51_identity,
   @C51_constant_factor,
   @C51_two_steps,
   @C52_original_overwritten,
   @C52_second_call,
   @C52_explicit_old,
   @C52_repeat_refuted,
   @C24_log_mean,
   @C24_error,
   @C24_best_run_kept,
   @C24_keep_fractions,
   @C24_rows,
   @C24_mcmc_rows,
   @C24_error_positive_refuted,
   @C24_priors_checked,
   @C24_detects_refuted,
   @C24_missing_key).
Print Assumptions Result_Props_all.
