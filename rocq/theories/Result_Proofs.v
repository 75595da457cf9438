(** Lemmas for reweighting and combination of results *)
From Coq Require Import Reals String List Arith Lia Lra Permutation.
From Verif Require Import PyDict Samples_Model Evidence_Model Evidence_Proofs Result_Model.
Import ListNotations.
Open Scope list_scope.
Open Scope R_scope.

Lemma argmin_lt l : l <> [] -> (argmin l < length l)%nat.
Proof.
  induction l as [|x r IH]; [congruence|]. intros _. destruct r as [|y r']; [simpl; lia|].
  change (argmin (x :: y :: r')) with (if Rle_dec x (nth (argmin (y :: r')) (y :: r') 0) then 0%nat else S (argmin (y :: r'))).
  destruct (Rle_dec _ _); [simpl; lia|]. assert (argmin (y :: r') < length (y :: r'))%nat by (apply IH; congruence). simpl length in *. lia.
Qed.
Lemma argmin_le l : (argmin l <= length l)%nat.
Proof. destruct l as [|x r]; [simpl; lia|]. apply Nat.lt_le_incl, argmin_lt. congruence. Qed.
Lemma argmin_min l j : (j < length l)%nat -> nth (argmin l) l 0 <= nth j l 0.
Proof.
  revert j. induction l as [|x r IH]; intros j Hj; [simpl in Hj; lia|]. destruct r as [|y r']; [destruct j; [simpl; lra|simpl in Hj; lia]|].
  change (argmin (x :: y :: r')) with (if Rle_dec x (nth (argmin (y :: r')) (y :: r') 0) then 0%nat else S (argmin (y :: r'))).
  destruct (Rle_dec _ _) as [L|L].
  - destruct j as [|j]; [simpl; lra|]. change (nth 0 (x :: y :: r') 0) with x. change (nth (S j) (x :: y :: r') 0) with (nth j (y :: r') 0). eapply Rle_trans; [exact L|]. apply IH. simpl length in *. lia.
  - change (nth (S (argmin (y :: r'))) (x :: y :: r') 0) with (nth (argmin (y :: r')) (y :: r') 0). destruct j as [|j]; [change (nth 0 (x :: y :: r') 0) with x; lra|]. apply (IH j). simpl length in *. lia.
Qed.
Lemma skipn_skipn_add {A} n m (l : list A) : skipn n (skipn m l) = skipn (n + m) l.
Proof. revert l. induction m as [|m IH]; intros l; [rewrite Nat.add_0_r; reflexivity|]. destruct l as [|x l]; [rewrite !skipn_nil; reflexivity|]. rewrite Nat.add_succ_r. apply IH. Qed.
Lemma set_at_len i v a : (i < length a)%nat -> length (set_at i v a) = length a.
Proof. intros H. unfold set_at. rewrite app_length, firstn_length. cbn [length]. rewrite skipn_length. lia. Qed.
Lemma set_at_firstn i v a : (i < length a)%nat -> firstn (i + 1) (set_at i v a) = firstn i a ++ [v].
Proof.
  intros H. unfold set_at. rewrite firstn_app, firstn_firstn, firstn_length. replace (Nat.min (i + 1) i) with i by lia. replace (i + 1 - Nat.min i (length a))%nat with 1%nat by lia. reflexivity.
Qed.
Lemma set_at_skipn i v a : (i < length a)%nat -> skipn (i + 1) (set_at i v a) = skipn (i + 1) a.
Proof.
  intros H. unfold set_at. rewrite skipn_app, firstn_length. replace (i + 1 - Nat.min i (length a))%nat with 1%nat by lia. rewrite skipn_all2 by (rewrite firstn_length; lia). replace (i + 1)%nat with (S i) by lia. reflexivity.
Qed.

Section W.
Context {T : Type} (t : target T) (ncp : nat).
Definition lik (s : T) : R := match new_like t with Some f => f s | None => old_like t s end.
Definition pri (s : T) : R := match new_prior t with Some f => f s | None => old_prior t s end.
(** the state after m rows of the prior loop started at i *)
Definition after (i m : nat) (rows : list T) (a : arrays) : arrays :=
  mkA (oL a) (firstn i (oP a) ++ map (old_prior t) (firstn m rows) ++ skipn (i + m) (oP a))
      (nL a) (firstn i (nP a) ++ map pri (firstn m rows) ++ skipn (i + m) (nP a)).
Definition fits (i : nat) (rows : list T) (a : arrays) : Prop :=
  length (oP a) = (i + length rows)%nat /\ length (nP a) = (i + length rows)%nat.
Lemma after_step i s rows a m : fits i (s :: rows) a -> after (i + 1) m rows (prior_step t i s a) = after i (S m) (s :: rows) a.
Proof.
  intros [H1 H2]. simpl in H1, H2. unfold after, prior_step. simpl.
  rewrite !set_at_firstn by lia.
  replace (i + S m)%nat with (m + (i + 1))%nat by lia. replace (i + 1 + m)%nat with (m + (i + 1))%nat by lia.
  rewrite <- !(skipn_skipn_add m (i + 1)), !set_at_skipn by lia. rewrite <- !app_assoc. reflexivity.
Qed.
Lemma fits_step i s rows a : fits i (s :: rows) a -> fits (i + 1) rows (prior_step t i s a).
Proof.
  intros [H1 H2]. simpl in H1, H2. split; unfold prior_step; cbn [oP nP]; rewrite set_at_len by lia; lia.
Qed.
Lemma after_zero i rows a : fits i rows a -> after i 0 rows a = a.
Proof.
  intros [H1 H2]. unfold after. rewrite !Nat.add_0_r. simpl. rewrite !firstn_skipn. destruct a; reflexivity.
Qed.
Lemma loop_final rows : forall i a, fits i rows a -> fst (prior_loop t ncp i rows a) = after i (length rows) rows a.
Proof.
  induction rows as [|s rows IH]; intros i a H; [simpl; symmetry; apply after_zero; exact H|].
  simpl. rewrite IH by (apply fits_step; exact H). apply after_step. exact H.
Qed.
Lemma loop_saves rows : forall i a, fits i rows a ->
  snd (prior_loop t ncp i rows a) = map (fun m => after i (S m) rows a) (filter (fun m => (i + m) mod ncp =? 0)%nat (seq 0 (length rows))).
Proof.
  induction rows as [|s rows IH]; intros i a H; [reflexivity|]. simpl.
  rewrite (IH _ _ (fits_step _ _ _ _ H)).
  assert (E : map (fun m => after (i + 1) (S m) rows (prior_step t i s a)) (filter (fun m => ((i + 1 + m) mod ncp =? 0)%nat) (seq 0 (length rows)))
            = map (fun m => after i (S m) (s :: rows) a) (filter (fun m => ((i + m) mod ncp =? 0)%nat) (seq 1 (length rows)))).
  { rewrite <- (seq_shift (length rows) 0). generalize (seq 0 (length rows)). intros l. induction l as [|x l IHl]; [reflexivity|].
    simpl. replace (i + S x)%nat with (i + 1 + x)%nat by lia. destruct ((i + 1 + x) mod ncp =? 0)%nat; [|exact IHl].
    simpl map. rewrite IHl. f_equal. apply after_step. exact H. }
  rewrite E, Nat.add_0_r. destruct (i mod ncp =? 0)%nat; [|reflexivity]. simpl map. f_equal.
  rewrite <- (after_step i s rows a 0 H). symmetry. apply after_zero. apply fits_step. exact H.
Qed.
Lemma in_saves i rows a b : fits i rows a -> In b (snd (prior_loop t ncp i rows a)) <->
  exists m, (m < length rows)%nat /\ ((i + m) mod ncp = 0)%nat /\ b = after i (S m) rows a.
Proof.
  intros H. rewrite loop_saves by exact H. rewrite in_map_iff. split.
  - intros [m [E I]]. apply filter_In in I. destruct I as [I1 I2]. apply in_seq in I1. apply Nat.eqb_eq in I2. exists m. repeat split; [lia|exact I2|symmetry; exact E].
  - intros [m [A [B C]]]. exists m. split; [symmetry; exact C|]. apply filter_In. split; [apply in_seq; lia|apply Nat.eqb_eq; exact B].
Qed.

(** arrays that belong to [rows] *)
Definition sized (rows : list T) (a : arrays) : Prop :=
  length (oL a) = length rows /\ length (nL a) = length rows /\ length (oP a) = length rows /\ length (nP a) = length rows.
Definition sized_file (rows : list T) (f : option arrays) : Prop := match f with None => True | Some a => sized rows a end.
Definition base (rows : list T) (f : option arrays) : arrays := match f with Some a => a | None => fresh (length rows) end.
Lemma base_sized rows f : sized_file rows f -> sized rows (base rows f).
Proof. destruct f; [auto|]. intros _. unfold sized. simpl. rewrite !repeat_length. auto. Qed.
Lemma start_le rows f : sized_file rows f -> (start f <= length rows)%nat.
Proof. destruct f as [a|]; simpl; [|lia]. intros [H _]. rewrite <- H, <- (map_length Rabs). apply argmin_le. Qed.
Lemma fill_eq rows f : sized_file rows f ->
  fill_likelihoods t (start f) rows (base rows f) =
  mkA (firstn (start f) (oL (base rows f)) ++ map (old_like t) (skipn (start f) rows)) (oP (base rows f))
      (firstn (start f) (nL (base rows f)) ++ map lik (skipn (start f) rows)) (nP (base rows f)).
Proof.
  intros H. pose proof (start_le rows f H) as L. destruct (base_sized rows f H) as [H1 [H2 _]]. unfold fill_likelihoods, lik. destruct (new_like t); [reflexivity|].
  f_equal. f_equal. rewrite skipn_app, firstn_length. rewrite skipn_all2 by (rewrite firstn_length; lia). replace (start f - Nat.min (start f) (length (oL (base rows f))))%nat with 0%nat by lia. reflexivity.
Qed.
Lemma fill_fits rows f : sized_file rows f -> fits (start f) (skipn (start f) rows) (fill_likelihoods t (start f) rows (base rows f)).
Proof.
  intros H. pose proof (start_le rows f H) as L. destruct (base_sized rows f H) as [_ [_ [H3 H4]]]. rewrite fill_eq by exact H. split; cbn [oP nP]; rewrite skipn_length; lia.
Qed.
Lemma get_weights_final rows f : sized_file rows f ->
  fst (get_weights t ncp rows f) =
  mkA (firstn (start f) (oL (base rows f)) ++ map (old_like t) (skipn (start f) rows))
      (firstn (start f) (oP (base rows f)) ++ map (old_prior t) (skipn (start f) rows))
      (firstn (start f) (nL (base rows f)) ++ map lik (skipn (start f) rows))
      (firstn (start f) (nP (base rows f)) ++ map pri (skipn (start f) rows)).
Proof.
  intros H. pose proof (start_le rows f H) as L. destruct (base_sized rows f H) as [_ [_ [H3 H4]]].
  unfold get_weights. fold (base rows f). rewrite loop_final by (apply fill_fits; exact H). rewrite fill_eq by exact H. unfold after. cbn [oL oP nL nP].
  rewrite !firstn_all, !skipn_length, !(skipn_all2 (n := start f + (length rows - start f))) by lia. rewrite !app_nil_r. reflexivity.
Qed.
Lemma get_weights_saves rows f b : sized_file rows f -> In b (snd (get_weights t ncp rows f)) <->
  exists c, (start f <= c < length rows)%nat /\ (c mod ncp = 0)%nat /\
    b = mkA (firstn (start f) (oL (base rows f)) ++ map (old_like t) (skipn (start f) rows))
            (firstn (start f) (oP (base rows f)) ++ map (old_prior t) (firstn (S c - start f) (skipn (start f) rows)) ++ skipn (S c) (oP (base rows f)))
            (firstn (start f) (nL (base rows f)) ++ map lik (skipn (start f) rows))
            (firstn (start f) (nP (base rows f)) ++ map pri (firstn (S c - start f) (skipn (start f) rows)) ++ skipn (S c) (nP (base rows f))).
Proof.
  intros H. pose proof (start_le rows f H) as L. unfold get_weights. fold (base rows f). rewrite in_saves by (apply fill_fits; exact H). rewrite skipn_length, fill_eq by exact H. unfold after. cbn [oL oP nL nP].
  split; intros [m [A [B C]]].
  - exists (start f + m)%nat. repeat split; [lia|lia|exact B|]. rewrite C. replace (S (start f + m) - start f)%nat with (S m) by lia. replace (start f + S m)%nat with (S (start f + m)) by lia. reflexivity.
  - exists (m - start f)%nat. replace (start f + (m - start f))%nat with m by lia. repeat split; [lia|exact B|]. rewrite C. replace (S (m - start f)) with (S m - start f)%nat by lia. replace (start f + (S m - start f))%nat with (S m) by lia. reflexivity.
Qed.
Lemma last_save_cases (f : option (@arrays)) l : last_save f l = f /\ l = [] \/ exists a, In a l /\ last_save f l = Some a.
Proof.
  revert f. induction l as [|x l IH]; intros f; [left; auto|]. right. simpl. destruct (IH (Some x)) as [[E N]|[a [I E]]].
  - exists x. split; [left; reflexivity|exact E].
  - exists a. split; [right; exact I|exact E].
Qed.
Lemma firstn_in {A} k (l : list A) x : In x (firstn k l) -> In x l.
Proof. intros H. rewrite <- (firstn_skipn k l). apply in_or_app. left. exact H. Qed.
Lemma last_save_reach (f : option arrays) l a : In a l -> exists k, last_save f (firstn k l) = Some a.
Proof.
  intros H. apply in_split in H. destruct H as [l1 [l2 ->]]. exists (length l1 + 1)%nat. rewrite firstn_app. rewrite firstn_all2 by lia. replace (length l1 + 1 - length l1)%nat with 1%nat by lia. simpl. unfold last_save. rewrite fold_left_app. reflexivity.
Qed.
End W.

Lemma nth_firstn_lt {A} (l : list A) n j d : (j < n)%nat -> nth j (firstn n l) d = nth j l d.
Proof. revert n j. induction l as [|x l IH]; intros n j H; [rewrite firstn_nil; reflexivity|]. destruct n; [lia|]. destruct j; [reflexivity|]. simpl. apply IH. lia. Qed.
Lemma nth_skipn {A} (l : list A) n j d : nth j (skipn n l) d = nth (n + j) l d.
Proof. revert l. induction n as [|n IH]; intros l; [reflexivity|]. destruct l as [|x l]; [destruct j; reflexivity|]. simpl. apply IH. Qed.
Lemma nth_repeat0 n j : nth j (repeat 0 n) 0 = 0.
Proof. revert j. induction n as [|n IH]; intros [|j]; simpl; auto. Qed.
Lemma nth_splice (x y : list R) n j : length x = length y -> (n <= length x)%nat -> nth j (firstn n x ++ skipn n y) 0 = if (j <? n)%nat then nth j x 0 else nth j y 0.
Proof.
  intros L N. destruct (Nat.ltb_spec j n) as [H|H].
  - rewrite app_nth1 by (rewrite firstn_length; lia). apply nth_firstn_lt. exact H.
  - rewrite app_nth2 by (rewrite firstn_length; lia). rewrite firstn_length, nth_skipn. f_equal. lia.
Qed.
Lemma splice_id (x : list R) n y : firstn n x = firstn n y -> firstn n x ++ skipn n y = y.
Proof. intros ->. apply firstn_skipn. Qed.
Lemma list_eq_nth (x y : list R) : length x = length y -> (forall j, (j < length x)%nat -> nth j x 0 = nth j y 0) -> x = y.
Proof. intros L H. apply (nth_ext x y 0 0 L H). Qed.
Lemma map_skipn {A B} (f : A -> B) n l : map f (skipn n l) = skipn n (map f l).
Proof. revert l. induction n as [|n IH]; intros [|x l]; simpl; auto. Qed.
Lemma map_firstn {A B} (f : A -> B) n l : map f (firstn n l) = firstn n (map f l).
Proof. revert l. induction n as [|n IH]; intros [|x l]; simpl; auto. f_equal. apply IH. Qed.

Section Exact.
Context {T : Type} (t : target T) (ncp : nat) (rows : list T).
Definition exact : arrays := mkA (map (old_like t) rows) (map (old_prior t) rows) (map (lik t) rows) (map (pri t) rows).
Lemma final_fresh : fst (get_weights t ncp rows None) = exact.
Proof. rewrite get_weights_final by exact I. reflexivity. Qed.
(** prior entries are correct or still zero *)
Definition ok_entry (a : arrays) (j : nat) : Prop :=
  nth j (oP a) 0 = nth j (map (old_prior t) rows) 0 /\ nth j (nP a) 0 = nth j (map (pri t) rows) 0.
Definition good (a : arrays) : Prop :=
  sized rows a /\ oL a = map (old_like t) rows /\ nL a = map (lik t) rows /\
  forall j, ok_entry a j \/ (nth j (oP a) 0 = 0 /\ nth j (nP a) 0 = 0).
Definition good_file (f : option arrays) : Prop := match f with None => True | Some a => good a end.
Lemma good_sized f : good_file f -> sized_file rows f.
Proof. destruct f; [intros [H _]; exact H|auto]. Qed.
Definition istar : nat := argmin (map (fun s => Rabs (old_like t s)) rows).
Lemma start_good a : good a -> start (Some a) = istar.
Proof. intros [_ [H _]]. simpl. rewrite H, map_map. reflexivity. Qed.
Lemma splice_like (f : T -> R) n l : (l = map f rows \/ n = 0%nat) -> firstn n l ++ map f (skipn n rows) = map f rows.
Proof. intros [->| ->]; [|reflexivity]. rewrite map_skipn. apply firstn_skipn. Qed.
Lemma good_likes f : good_file f ->
  firstn (start f) (oL (base rows f)) ++ map (old_like t) (skipn (start f) rows) = map (old_like t) rows /\
  firstn (start f) (nL (base rows f)) ++ map (lik t) (skipn (start f) rows) = map (lik t) rows.
Proof.
  intros H. destruct f as [a|]; [|split; reflexivity]. destruct H as [_ [H1 [H2 _]]]. simpl base. split; apply splice_like; left; assumption.
Qed.
Lemma save_good f b : good_file f -> In b (snd (get_weights t ncp rows f)) -> good b /\
  exists c, (start f <= c < length rows)%nat /\ (c mod ncp = 0)%nat /\
   (forall j, nth j (oP b) 0 = if ((start f <=? j) && (j <=? c))%nat%bool then nth j (map (old_prior t) rows) 0 else nth j (oP (base rows f)) 0) /\
   (forall j, nth j (nP b) 0 = if ((start f <=? j) && (j <=? c))%nat%bool then nth j (map (pri t) rows) 0 else nth j (nP (base rows f)) 0).
Proof.
  intros H Hb. pose proof (good_sized f H) as HS. pose proof (start_le rows f HS) as L. destruct (base_sized rows f HS) as [B1 [B2 [B3 B4]]].
  apply get_weights_saves in Hb; [|exact HS]. destruct Hb as [c [Hc [Hm Eb]]].
  assert (G : forall (g : T -> R) l, length l = length rows -> forall j,
     nth j (firstn (start f) l ++ map g (firstn (S c - start f) (skipn (start f) rows)) ++ skipn (S c) l) 0
     = if ((start f <=? j) && (j <=? c))%nat%bool then nth j (map g rows) 0 else nth j l 0).
  { intros g l Hl j. destruct (Nat.leb_spec (start f) j) as [A|A]; simpl andb.
    - rewrite app_nth2 by (rewrite firstn_length; lia). rewrite firstn_length. replace (Nat.min (start f) (length l)) with (start f) by lia.
      rewrite map_firstn, map_skipn. destruct (Nat.leb_spec j c) as [C|C].
      + rewrite app_nth1 by (rewrite firstn_length, skipn_length, map_length; lia). rewrite nth_firstn_lt by lia. rewrite nth_skipn. f_equal. lia.
      + rewrite app_nth2 by (rewrite firstn_length, skipn_length, map_length; lia). rewrite firstn_length, skipn_length, map_length, nth_skipn. f_equal. lia.
    - rewrite app_nth1 by (rewrite firstn_length; lia). apply nth_firstn_lt. exact A. }
  assert (GL : forall (g : T -> R) l, length l = length rows ->
     length (firstn (start f) l ++ map g (firstn (S c - start f) (skipn (start f) rows)) ++ skipn (S c) l) = length rows).
  { intros g l Hl. rewrite !app_length, map_length, !firstn_length, !skipn_length. lia. }
  pose proof (good_likes f H) as [K1 K2]. rewrite K1, K2 in Eb.
  pose proof (G (old_prior t) (oP (base rows f)) B3) as G1. pose proof (G (pri t) (nP (base rows f)) B4) as G2.
  split.
  - rewrite Eb. split; [|split; [reflexivity|split; [reflexivity|]]].
    + unfold sized. cbn [oL oP nL nP]. rewrite !map_length, (GL _ _ B3), (GL _ _ B4). auto.
    + intros j. unfold ok_entry. cbn [oP nP]. rewrite G1, G2. destruct ((start f <=? j) && (j <=? c))%nat%bool; [left; auto|].
      destruct f as [a|]; [destruct H as [_ [_ [_ H]]]; apply H|]. right. simpl. rewrite nth_repeat0. auto.
  - exists c. split; [lia|]. split; [exact Hm|]. rewrite Eb. cbn [oP nP]. auto.
Qed.
Lemma killed_good f k : good_file f -> good_file (killed_after t ncp rows f k).
Proof.
  intros H. unfold killed_after. destruct (last_save_cases f (firstn k (snd (get_weights t ncp rows f)))) as [[E _]|[a [I E]]]; rewrite E; [exact H|].
  simpl. apply (save_good f a H). eapply firstn_in. exact I.
Qed.
Lemma killed_many_good ks : forall f, good_file f -> good_file (killed_many t ncp rows f ks).
Proof. induction ks as [|k ks IH]; intros f H; [exact H|]. simpl. apply IH, killed_good. exact H. Qed.
Lemma resumed_good a : good a ->
  fst (get_weights t ncp rows (Some a)) =
  mkA (map (old_like t) rows) (firstn istar (oP a) ++ skipn istar (map (old_prior t) rows))
      (map (lik t) rows) (firstn istar (nP a) ++ skipn istar (map (pri t) rows)).
Proof.
  intros H. rewrite get_weights_final by (apply (good_sized (Some a)); exact H). pose proof (good_likes (Some a) H) as [K1 K2]. rewrite K1, K2. rewrite (start_good a H). simpl base. rewrite !map_skipn. reflexivity.
Qed.
End Exact.

Lemma zip4_map {T} f (a b c d : T -> R) l : zip4 f (map a l) (map b l) (map c l) (map d l) = map (fun s => f (a s) (b s) (c s) (d s)) l.
Proof. induction l as [|s l IH]; [reflexivity|]. simpl. rewrite IH. reflexivity. Qed.
Lemma combine_map {A B C} (f : A -> B) (g : A -> C) l : combine (map f l) (map g l) = map (fun x => (f x, g x)) l.
Proof. induction l as [|s l IH]; [reflexivity|]. simpl. rewrite IH. reflexivity. Qed.
Lemma rmax_in l : l <> [] -> In (rmax_list l) l.
Proof.
  intros H. unfold rmax_list. destruct l as [|x r]; [congruence|]. simpl hd. assert (G : forall m, fold_right Rmax x m = x \/ In (fold_right Rmax x m) m).
  { intros m. induction m as [|y m IH]; [left; reflexivity|]. simpl. assert (E : Rmax y (fold_right Rmax x m) = y \/ Rmax y (fold_right Rmax x m) = fold_right Rmax x m) by (unfold Rmax; destruct (Rle_dec _ _); auto). destruct E as [E|E]; rewrite E; [right; left; reflexivity|]. destruct IH as [I|I]; [left; exact I|right; right; exact I]. }
  destruct (G (x :: r)) as [E|E]; [rewrite E; left; reflexivity|exact E].
Qed.
Lemma rmax_ge l x : In x l -> x <= rmax_list l.
Proof.
  unfold rmax_list. generalize (hd 0 l). intros d. induction l as [|y l IH]; [intros []|]. intros [->|H]; simpl; [apply Rmax_l|]. eapply Rle_trans; [apply IH; exact H|apply Rmax_r].
Qed.
Lemma rmax_unique l m : In m l -> (forall x, In x l -> x <= m) -> rmax_list l = m.
Proof.
  intros I H. apply Rle_antisym; [apply H, rmax_in; intros E; rewrite E in I; destruct I|apply rmax_ge; exact I].
Qed.
Lemma rmax_scal c l : 0 < c -> l <> [] -> rmax_list (map (Rmult c) l) = c * rmax_list l.
Proof.
  intros C N. apply rmax_unique; [apply in_map, rmax_in; exact N|]. intros x Hx. apply in_map_iff in Hx. destruct Hx as [y [<- Hy]]. apply Rmult_le_compat_l; [lra|apply rmax_ge; exact Hy].
Qed.
Lemma rmax_shift c l : l <> [] -> rmax_list (map (Rplus c) l) = c + rmax_list l.
Proof.
  intros N. apply rmax_unique; [apply in_map, rmax_in; exact N|]. intros x Hx. apply in_map_iff in Hx. destruct Hx as [y [<- Hy]]. apply Rplus_le_compat_l, rmax_ge; exact Hy.
Qed.
Lemma Rsum_perm l l' : Permutation l l' -> Rsum l = Rsum l'.
Proof. induction 1; simpl; lra. Qed.
Lemma rmax_perm l l' : Permutation l l' -> rmax_list l = rmax_list l'.
Proof.
  intros P. destruct l as [|x r]; [apply Permutation_nil in P; rewrite P; reflexivity|]. symmetry. apply rmax_unique.
  - apply (Permutation_in _ P), rmax_in. congruence.
  - intros y Hy. apply rmax_ge. apply (Permutation_in _ (Permutation_sym P) Hy).
Qed.
