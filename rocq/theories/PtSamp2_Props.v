(** * Rejection to zero temperature (C204), stopping and starting (C205) *)
From Coq Require Import Reals Lra Lia List Bool ZArith Arith.
From Verif Require Import Samples_Model Result_Model Result_Proofs Result_Props PtSamp_Model.
Import ListNotations.
Open Scope list_scope.
Open Scope R_scope.

Section Rows.
Variable T : Type.
Lemma sum_pos l : l <> [] -> (forall x, In x l -> 0 < x) -> 0 < fold_right Rplus 0 l.
Proof using Type.
  induction l as [|a l IH]; [contradiction|]. intros _ H. cbn. pose proof (H a (or_introl eq_refl)). destruct l as [|b l]; [cbn; lra|]. pose proof (IH ltac:(discriminate) (fun x I => H x (or_intror I))). lra.
Qed.
Lemma rmax_lin (c : R) l : 0 <= c -> l <> [] -> rmax_list (map (fun x => c * x) l) = c * rmax_list l.
Proof using Type. intros C N. apply rmax_unique; [apply (in_map (fun x => c * x)), rmax_in, N|]. intros y I. apply in_map_iff in I. destruct I as (x & <- & I). apply Rmult_le_compat_l; [exact C|now apply rmax_ge]. Qed.
(** the weights, up to their common factor *)
Lemma weights_form b ls : b <= 1 -> ls <> [] -> exists c, 0 < c /\ weights b ls = map (Rmult c) (map (fun l => exp ((1 - b) * (l - rmax_list ls))) ls).
Proof using Type.
  intros B N. unfold weights. set (lw := map (fun l => (1 - b) * l) ls). set (un := map (fun w => exp (w - rmax_list lw)) lw). exists (/ fold_right Rplus 0 un). split.
  - apply Rinv_0_lt_compat, sum_pos; [unfold un, lw; destruct ls; [contradiction|discriminate]|]. intros x I. unfold un in I. apply in_map_iff in I. destruct I as (y & <- & _). apply exp_pos.
  - rewrite map_map. unfold un at 2. unfold lw at 2. rewrite !map_map. apply map_ext. intros l. unfold Rdiv. rewrite Rmult_comm. f_equal. f_equal. unfold lw. rewrite rmax_lin by (lra || assumption). ring.
Qed.
Lemma rmax_exp b ls : b <= 1 -> ls <> [] -> rmax_list (map (fun l => exp ((1 - b) * (l - rmax_list ls))) ls) = 1.
Proof using Type.
  intros B N. apply rmax_unique.
  - apply in_map_iff. exists (rmax_list ls). split; [rewrite Rminus_eq_0, Rmult_0_r; apply exp_0|now apply rmax_in].
  - intros y I. apply in_map_iff in I. destruct I as (x & <- & I). apply Rle_trans with (exp 0); [|rewrite exp_0; lra]. assert (Q : (1 - b) * (x - rmax_list ls) <= 0) by (pose proof (rmax_ge _ _ I); nra). destruct (Rle_lt_or_eq_dec _ _ Q) as [L|L]; [left; now apply exp_increasing|rewrite L; lra].
Qed.
Lemma rejection_weights {A} (rows : list A) b ls u : b <= 1 -> ls <> [] -> rejection_sample rows (weights b ls) u = rejection_sample rows (map (fun l => exp ((1 - b) * (l - rmax_list ls))) ls) u.
Proof using Type. intros B N. destruct (weights_form b ls B N) as (c & C & ->). apply C51_scale_invariant, C. Qed.
Lemma shift_nil x (l : list (T * R)) : l <> [] -> map snd (shift x l) <> [].
Proof using Type. destruct l; [contradiction|discriminate]. Qed.
Lemma rmax_plus x l : l <> [] -> rmax_list (map (fun y => y + x) l) = rmax_list l + x.
Proof using Type. intros N. apply rmax_unique; [apply (in_map (fun y => y + x)), rmax_in, N|]. intros y I. apply in_map_iff in I. destruct I as (z & <- & I). pose proof (rmax_ge _ _ I). lra. Qed.
Lemma weights_shift b x (l : list (T * R)) : b <= 1 -> l <> [] -> map (fun y => exp ((1 - b) * (y - rmax_list (map snd (shift x l))))) (map snd (shift x l)) = map (fun y => exp ((1 - b) * (y - rmax_list (map snd l)))) (map snd l).
Proof using Type.
  intros B N. assert (E : map snd (shift x l) = map (fun y => y + x) (map snd l)) by (unfold shift; rewrite !map_map; reflexivity). rewrite E, map_map, rmax_plus by (destruct l; [contradiction|discriminate]). apply map_ext. intros y. f_equal. ring.
Qed.
(** The rows between the burn-in and the position are kept where the uniform number is below likelihood over largest likelihood, to the power 1 - beta. *)
Theorem C204_keep noise b m p (chain : list (T * R)) u x : b <= 1 ->
  snd (to_zero false noise b m p chain u) = chain /\
  (In x (fst (to_zero false noise b m p chain u)) <->
   exists j uj, nth_error (rows_between m p chain) j = Some x /\ nth_error u j = Some uj /\ uj < exp ((1 - b) * (snd x - rmax_list (map snd (rows_between m p chain))))).
Proof using Type.
  intros B. unfold to_zero. set (n := match noise with Some x => x | None => 0 end). destruct (rows_between m p chain) as [|h0 hot0] eqn:E.
  - split; [reflexivity|]. cbn. split; [intros []|]. intros (j & uj & H & _). destruct j; discriminate.
  - rewrite <- E. split; [reflexivity|]. cbn [fst]. assert (N : rows_between m p chain <> []) by (rewrite E; discriminate). set (hot := rows_between m p chain) in *. rewrite rejection_weights by (try assumption; now apply shift_nil). rewrite weights_shift by assumption.
    assert (NS : map snd hot <> []) by (destruct hot; [contradiction|discriminate]). rewrite C51_keep_iff by (rewrite rmax_exp by assumption; lra). rewrite rmax_exp by assumption. split.
    + intros (j & wj & uj & H1 & H2 & H3 & H4). exists j, uj. split; [exact H1|]. split; [exact H3|]. rewrite nth_error_map, nth_error_map, H1 in H2. cbn in H2. assert (wj = exp ((1 - b) * (snd x - rmax_list (map snd hot)))) by congruence. subst wj. lra.
    + intros (j & uj & H1 & H2 & H3). eexists j, _, uj. split; [exact H1|]. split; [rewrite nth_error_map, nth_error_map, H1; reflexivity|]. split; [exact H2|]. lra.
Qed.
Lemma rejection_all {A} (rows : list A) n : forall u, length rows = n -> length u = n -> (forall v, In v u -> v < 1) -> rmax_list (repeat 1 n) <= 1 -> rejection_sample rows (repeat 1 n) u = rows.
Proof using Type.
  intros u L1 L2 U M. unfold rejection_sample. assert (G : forall m, m = 1 -> forall n rows u, length rows = n -> length u = n -> (forall v, In v u -> v < 1) -> map fst (filter (fun x : A * (R * R) => if Rlt_dec (m * snd (snd x)) (fst (snd x)) then true else false) (combine rows (combine (repeat 1 n) u))) = rows).
  { intros m ->. clear. induction n as [|n IH]; intros [|r rows] [|v u] L1 L2 U; try discriminate; [reflexivity|]. cbn [repeat combine filter fst snd]. destruct (Rlt_dec (1 * v) 1) as [|C]; [|exfalso; apply C; pose proof (U v (or_introl eq_refl)); lra]. cbn [map fst]. f_equal. apply IH; [now injection L1|now injection L2|intros w I; apply U; now right]. }
  destruct n as [|n]; [destruct rows; [reflexivity|discriminate]|]. apply G; try assumption. apply rmax_unique; [left; reflexivity|]. intros y I. apply repeat_spec in I. lra.
Qed.
(** At temperature one every row is kept, thinned or not. *)
Theorem C204_one noise m p (chain : list (T * R)) u : length u = length (rows_between m p chain) -> (forall v, In v u -> v < 1) -> fst (to_zero false noise 1 m p chain u) = rows_between m p chain.
Proof using Type.
  intros L U. unfold to_zero. destruct (rows_between m p chain) as [|h0 hot0] eqn:E; [reflexivity|]. rewrite <- E in *. set (hot := rows_between m p chain) in *. cbn [fst]. assert (N : hot <> []) by (rewrite E; discriminate). rewrite rejection_weights by (try lra; now apply shift_nil). rewrite weights_shift by (try lra; assumption).
  assert (W : map (fun y => exp ((1 - 1) * (y - rmax_list (map snd hot)))) (map snd hot) = repeat 1 (length hot)). { generalize (rmax_list (map snd hot)). intros q. clear. induction hot as [|a l IH]; [reflexivity|]. cbn [map length repeat]. rewrite IH. f_equal. rewrite Rminus_eq_0, Rmult_0_l. apply exp_0. }
  rewrite W. apply rejection_all; try assumption; [reflexivity|]. destruct hot as [|a l]; [contradiction|]. right. apply rmax_unique; [left; reflexivity|]. intros y I. apply repeat_spec in I. lra.
Qed.
(** With shared memory and the likelihood ratio in use the same rows are kept, with the noise added to their log likelihoods, and the chain's own are overwritten. *)
Lemma rejection_map {A B} (g : A -> B) rows w u : rejection_sample (map g rows) w u = map g (rejection_sample rows w u).
Proof using Type. unfold rejection_sample. generalize (rmax_list w). intros q. revert w u. induction rows as [|r rows IH]; intros [|a w] [|v u]; try reflexivity. cbn [map combine filter fst snd]. destruct (Rlt_dec (q * v) a); cbn [map fst]; [f_equal|]; apply IH. Qed.
Lemma rows_length m p (c : list (T * R)) : (m <= p <= length c)%nat -> length (rows_between m p c) = (p - m)%nat.
Proof using Type. intros H. unfold rows_between. rewrite firstn_length, skipn_length. lia. Qed.
Lemma view_chain x b m p (chain : list (T * R)) u : (m < p <= length chain)%nat ->
  snd (to_zero true (Some x) b m p chain u) = firstn m chain ++ shift x (rows_between m p chain) ++ skipn p chain.
Proof using Type.
  intros H. pose proof (rows_length m p chain ltac:(lia)) as L. unfold to_zero. destruct (rows_between m p chain) as [|h0 hot0] eqn:E; [cbn in L; lia|]. rewrite <- E in *. cbn [snd]. rewrite L. replace (m + (p - m))%nat with p by lia. reflexivity.
Qed.
Theorem C204_view x b m p (chain : list (T * R)) u : b <= 1 ->
  fst (to_zero true (Some x) b m p chain u) = shift x (fst (to_zero false (Some x) b m p chain u)) /\
  ((m < p <= length chain)%nat -> snd (to_zero true (Some x) b m p chain u) = firstn m chain ++ shift x (rows_between m p chain) ++ skipn p chain).
Proof using Type.
  intros B. split; [|intros H; now apply view_chain]. unfold to_zero. destruct (rows_between m p chain) as [|h0 hot0] eqn:E; [reflexivity|]. cbn [fst]. unfold shift at 1. apply rejection_map.
Qed.
(** After k evaluations the stored log likelihoods have gained k times the noise. *)
Lemma shift_shift x y (l : list (T * R)) : shift y (shift x l) = shift (x + y) l.
Proof using Type. unfold shift. rewrite map_map. apply map_ext. intros [a r]. cbn. f_equal. ring. Qed.
Lemma rows_app m p (a h z : list (T * R)) : length a = m -> length h = (p - m)%nat -> rows_between m p (a ++ h ++ z) = h.
Proof using Type. intros A H. unfold rows_between. rewrite skipn_app, skipn_all2, A, Nat.sub_diag by lia. cbn [app skipn]. rewrite firstn_app, <- H, Nat.sub_diag, firstn_all. cbn. apply app_nil_r. Qed.
Theorem C204_again_refuted x b m p us : forall chain : list (T * R), (m < p <= length chain)%nat ->
  to_zero_again true (Some x) b m p us chain = firstn m chain ++ shift (INR (length us) * x) (rows_between m p chain) ++ skipn p chain.
Proof using Type.
  assert (G : forall us (a h z : list (T * R)), length a = m -> length h = (p - m)%nat -> (m < p)%nat -> to_zero_again true (Some x) b m p us (a ++ h ++ z) = a ++ shift (INR (length us) * x) h ++ z).
  { clear us. intros us0. induction us0 as [|u us0 IH]; intros a h z A H L.
    - cbn. rewrite Rmult_0_l. unfold shift. f_equal. f_equal. rewrite <- (map_id h) at 1. apply map_ext. intros [t r]. cbn. f_equal. ring.
    - unfold to_zero_again. cbn [fold_left]. rewrite view_chain by (rewrite !app_length; lia). rewrite rows_app by assumption. rewrite firstn_app, <- A, Nat.sub_diag, firstn_all, firstn_O, app_nil_r.
      assert (SK : skipn p (a ++ h ++ z) = z) by (rewrite skipn_app, skipn_all2 by lia; rewrite skipn_app, skipn_all2 by lia; cbn [app]; replace (p - length a - length h)%nat with 0%nat by lia; reflexivity). rewrite SK. rewrite A.
      change (fold_left (fun c u => snd (to_zero true (Some x) b m p c u)) us0 (a ++ shift x h ++ z)) with (to_zero_again true (Some x) b m p us0 (a ++ shift x h ++ z)). rewrite IH; [|assumption|unfold shift; rewrite map_length; exact H|assumption]. rewrite shift_shift. f_equal. f_equal. f_equal.
      change (length (u :: us0)) with (Datatypes.S (length us0)). rewrite S_INR. ring. }
  intros chain H. rewrite <- (firstn_skipn m chain) at 1. rewrite <- (firstn_skipn (p - m) (skipn m chain)) at 1. change (firstn (p - m) (skipn m chain)) with (rows_between m p chain).
  assert (SS : skipn (p - m) (skipn m chain) = skipn p chain). { replace p with (m + (p - m))%nat at 2 by lia. generalize (p - m)%nat. intros q. clear. revert chain. induction m as [|k IH]; intros [|c chain]; cbn; try reflexivity; [now rewrite skipn_nil|apply IH]. }
  rewrite SS. apply G; [rewrite firstn_length; lia|apply rows_length; lia|lia].
Qed.
(** So rows that have been looked at before and equal rows that have not are no longer treated alike: of two rows of one likelihood the older is
    kept only below exp((1 - beta) noise). *)
Theorem C204_bias_refuted (t0 t1 : T) l x b u v0 v1 : b < 1 -> x < 0 -> 0 <= v1 < 1 ->
  let chain := snd (to_zero true (Some x) b 0 1 [(t0, l); (t1, l); (t1, l)] [u]) in
  In (t0, l + x + x) (fst (to_zero true (Some x) b 0 2 chain [v0; v1])) -> t0 <> t1 -> v0 < exp ((1 - b) * x).
Proof using Type.
  intros B X V chain I NE. assert (CH : chain = [(t0, l + x); (t1, l); (t1, l)]) by (unfold chain; rewrite view_chain by (cbn; lia); reflexivity). rewrite CH in I. destruct (C204_view x b 0 2 [(t0, l + x); (t1, l); (t1, l)] [v0; v1] ltac:(lra)) as [E _]. rewrite E in I. clear E. apply in_map_iff in I. destruct I as ([t r] & Q & I). cbn in Q.
  assert (t = t0) by congruence. assert (r = l + x) by (assert (r + x = l + x + x) by congruence; lra). subst. destruct (C204_keep (Some x) b 0 2 [(t0, l + x); (t1, l); (t1, l)] [v0; v1] (t0, l + x) ltac:(lra)) as [_ K]. apply K in I. destruct I as (j & uj & H1 & H2 & H3). cbn in H1.
  assert (MX : rmax_list (map snd (rows_between 0 2 [(t0, l + x); (t1, l); (t1, l)])) = l) by (apply rmax_unique; cbn; [auto|intros y [<-|[<-|[]]]; lra]). rewrite MX in H3. cbn [snd] in H3. replace (l + x - l) with x in H3 by ring.
  destruct j as [|[|j]]; cbn in H1; [|exfalso; apply NE; congruence|destruct j; discriminate]. cbn in H2. congruence.
Qed.
End Rows.

(** ** C205: printing, stopping, starting *)
(** The loop ends in the first round where the last recorded count and a fresh one both reach the target. *)
Definition last_count (last : Z) (target : Z) (rs : list round_) : Z :=
  fold_left (fun l r => let l1 := if prints r then recorded r else l in if (target <=? l1)%Z then recount r else l1) rs last.
Theorem C205_stop target rs : forall last i k, draw target last i rs = Some k ->
  exists done r rest, rs = done ++ r :: rest /\ k = (i + length done)%nat /\ (target <= recount r)%Z /\
    (if prints r then target <= recorded r else target <= last_count last target done)%Z /\
    ((last < target)%Z -> exists q, In q (done ++ [r]) /\ prints q = true /\ (target <= recorded q)%Z).
Proof.
  induction rs as [|r rs IH]; intros last i k H; [discriminate|]. cbn [draw] in H. set (l1 := if prints r then recorded r else last) in *. destruct (target <=? l1)%Z eqn:E1.
  - destruct (target <=? recount r)%Z eqn:E2.
    + apply Z.leb_le in E1, E2. exists [], r, rs. cbn [app length last_count fold_left]. split; [reflexivity|]. split; [assert (k = i) by congruence; lia|]. split; [exact E2|]. unfold l1 in E1. split; [destruct (prints r); exact E1|]. intros L. exists r. split; [left; reflexivity|]. destruct (prints r); [auto|lia].
    + destruct (IH _ _ _ H) as (dn & q & rest & -> & K & A & B & C). exists (r :: dn), q, rest. split; [reflexivity|]. split; [cbn; lia|]. split; [exact A|]. split; [cbn [last_count fold_left]; fold l1; rewrite E1; exact B|].
      intros L. apply Z.leb_le in E1. unfold l1 in E1. destruct (prints r) eqn:PR; [exists r; split; [left; reflexivity|auto]|lia].
  - destruct (IH _ _ _ H) as (dn & q & rest & -> & K & A & B & C). exists (r :: dn), q, rest. split; [reflexivity|]. split; [cbn; lia|]. split; [exact A|]. split; [cbn [last_count fold_left]; fold l1; rewrite E1; exact B|].
    intros L. apply Z.leb_gt in E1. destruct (C E1) as (q' & I & PQ & RQ). exists q'. split; [right; exact I|auto].
Qed.
(** It goes on past any number of rounds with enough samples while none of them prints. *)
Theorem C205_no_print_refuted target rs i : (0 < target)%Z -> (forall r, In r rs -> prints r = false) -> draw target 0 i rs = None.
Proof.
  intros T. revert i. induction rs as [|r rs IH]; intros i H; [reflexivity|]. cbn [draw]. rewrite (H r (or_introl eq_refl)). destruct (target <=? 0)%Z eqn:E; [apply Z.leb_le in E; lia|]. apply IH. intros q I. apply H. now right.
Qed.
(** A print that sees enough, in a round where the fresh count agrees, ends it there or before. *)
Theorem C205_print_stops target last i done r rest : (target <= recorded r)%Z -> (target <= recount r)%Z -> prints r = true -> exists k, draw target last i (done ++ r :: rest) = Some k /\ (k <= i + length done)%nat.
Proof.
  intros A B P. revert last i. induction done as [|q dn IH]; intros last i; cbn [app draw].
  - rewrite P. apply Z.leb_le in A, B. rewrite A, B. exists i. split; [reflexivity|cbn; lia].
  - destruct (target <=? _)%Z.
    + destruct (target <=? recount q)%Z; [exists i; split; [reflexivity|lia]|]. destruct (IH (recount q) (S i)) as (k & K & L). exists k. split; [exact K|cbn; lia].
    + destruct (IH (if prints q then recorded q else last) (S i)) as (k & K & L). exists k. split; [exact K|cbn; lia].
Qed.
(** The progress message needs a sample once hotter chains are used. *)
Theorem C205_percentage_refuted rej c n : rejection_percentage rej c n = None <-> rej = true /\ n = 0%nat.
Proof. unfold rejection_percentage. destruct rej; [|split; [discriminate|intros [? _]; discriminate]]. destruct (n =? 0)%nat eqn:E; [apply Nat.eqb_eq in E; split; auto|apply Nat.eqb_neq in E; split; [discriminate|intros [_ ?]; contradiction]]. Qed.
Section Start.
Variable X : Type.
Variable ln_prior : X -> option R.
Variable ln_like : X -> R.
(** Where the prior vanishes nowhere in the box, the minimiser is the maximum of beta lnL + ln prior. *)
Theorem C205_maximum b x : (forall y, ln_prior y <> None) -> minimises X ln_prior ln_like b x ->
  exists lp, ln_prior x = Some lp /\ forall y lpy, ln_prior y = Some lpy -> b * ln_like y + lpy <= b * ln_like x + lp.
Proof using Type.
  intros H M. destruct (ln_prior x) as [lp|] eqn:E; [|now apply H in E]. exists lp. split; [reflexivity|]. intros y lpy Hy. specialize (M y). unfold neg_log_post in M. rewrite E, Hy in M. cbn in M. lra.
Qed.
(** Where it vanishes somewhere, only points where it vanishes minimise. *)
Theorem C205_maximum_refuted b x z : ln_prior z = None -> (minimises X ln_prior ln_like b x <-> ln_prior x = None).
Proof using Type.
  intros Z. split.
  - intros M. specialize (M z). unfold neg_log_post in M. rewrite Z in M. destruct (ln_prior x); [destruct M|reflexivity].
  - intros H y. unfold neg_log_post. rewrite H. exact I.
Qed.
End Start.

(** ** Examples *)
Example C204_example : In (7%nat, 0) (fst (to_zero false (Some 5) (/ 2) 1 3 [(3%nat, 9); (7%nat, 0); (8%nat, 0); (9%nat, 4)] [/ 2; / 2])).
Proof. apply C204_keep; [lra|]. exists 0%nat, (/ 2). split; [reflexivity|]. split; [reflexivity|]. assert (M : rmax_list (map snd (rows_between 1 3 [(3%nat, 9); (7%nat, 0); (8%nat, 0); (9%nat, 4)])) = 0) by (apply rmax_unique; cbn; [auto|intros y [<-|[<-|[]]]; lra]). rewrite M. cbn [snd]. replace ((1 - / 2) * (0 - 0)) with 0 by ring. rewrite exp_0. lra. Qed.
Example C205_example : draw 100 0 0 [mkRound false 0 150; mkRound true 120 90; mkRound false 0 150; mkRound true 130 110]%Z = Some 3%nat /\ draw 100 0 0 [mkRound true 120 130]%Z = Some 0%nat.
Proof. split; reflexivity. Qed.

(** ** Assumptions of every theorem above *)
Definition PtSamp2_Props_all :=
  (@C204_keep,
   @C204_one,
   @C204_view,
   @C204_again_refuted,
   @C204_bias_refuted,
   @C205_stop,
   @C205_no_print_refuted,
   @C205_print_stops,
   @C205_percentage_refuted,
   @C205_maximum,
   @C205_maximum_refuted).
Print Assumptions PtSamp2_Props_all.
