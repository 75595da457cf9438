(** * Crash safety of the written files (C19, C20, C26), saved keyword arguments (C49), signals (C27, C50) *)
From Coq Require Import String Ascii Bool Lia Arith List.
From Verif Require Import Files_Model Files_Proofs.
Import ListNotations.
Open Scope list_scope.

Section Crash.
Context {byte : Type}.
Notation fsys := (@fsys byte).

(** ** C19: safe_file_dump. A crash executes any prefix [pre] of the calls *)
Theorem C19_old_or_new : forall (s : fsys) f d pre suf, safe_file_dump f d = pre ++ suf ->
  (exec s pre f = s f \/ exec s pre f = Some d)
  /\ (suf = [] -> exec s pre f = Some d /\ exec s pre (temp_name f) = None)
  /\ (forall q, q <> f -> q <> temp_name f -> exec s pre q = s q).
Proof.
  intros s f d pre suf E. split; [|split].
  - destruct suf as [|c suf].
    + rewrite app_nil_r in E. rewrite <- E. right. apply dump_done.
    + left. apply (dump_unfinished f d s pre c suf E).
  - intros ->. rewrite app_nil_r in E. rewrite <- E. apply dump_done.
  - intros q H1 H2. apply exec_frame. intros c Hc T.
    destruct (dump_touch f d q c) as [?|?]; auto. rewrite E. apply in_or_app; auto.
Qed.
(** any history of dumps, each stopped after [k] calls: the file holds the data of the last dump
    that ran to the end *)
Definition crashed_dump (f : string) (s : fsys) (dk : list byte * nat) : fsys := exec s (firstn (snd dk) (safe_file_dump f (fst dk))).
Definition last_complete (f : string) (init : option (list byte)) (h : list (list byte * nat)) : option (list byte) :=
  fold_left (fun v dk => if Nat.leb (length (safe_file_dump f (fst dk))) (snd dk) then Some (fst dk) else v) h init.
Theorem C19_history : forall f h (s : fsys), fold_left (crashed_dump f) h s f = last_complete f (s f) h.
Proof.
  intros f h. induction h as [|[d k] h IH]; intros s; [reflexivity|].
  change (fold_left (crashed_dump f) ((d, k) :: h) s) with (fold_left (crashed_dump f) h (crashed_dump f s (d, k))).
  rewrite IH. change (last_complete f (s f) ((d, k) :: h)) with
    (last_complete f (if Nat.leb (length (safe_file_dump f d)) k then Some d else s f) h).
  f_equal. unfold crashed_dump. cbn [fst snd].
  destruct (Nat.leb_spec (length (safe_file_dump f d)) k) as [H|H].
  - rewrite firstn_all2 by auto. apply dump_done.
  - pose proof (firstn_skipn k (safe_file_dump f d)) as E.
    destruct (skipn k (safe_file_dump f d)) as [|c suf] eqn:Q.
    + apply (f_equal (@length _)) in Q. rewrite skipn_length in Q. change (length (@nil (@call byte))) with 0 in Q. lia.
    + apply (dump_unfinished f d s _ c suf). auto.
Qed.
(** two processes dumping to the same file share the temporary name: a reader can find an
    empty file. [merge]: interleavings *)
Inductive merge {A} : list A -> list A -> list A -> Prop :=
| merge_nil : merge [] [] []
| merge_l a l r m : merge l r m -> merge (a :: l) r (a :: m)
| merge_r a l r m : merge l r m -> merge l (a :: r) (a :: m).
Lemma merge_left {A} (l : list A) : merge l [] l. Proof. induction l; constructor; auto. Qed.
Lemma merge_right {A} (l : list A) : merge [] l l. Proof. induction l; constructor; auto. Qed.
Theorem C19_two_writers_refuted : forall (s : fsys) f d1 d2, exists m pre suf,
  merge (safe_file_dump f d1) (safe_file_dump f d2) m /\ m = pre ++ suf /\ exec s pre f = Some [].
Proof.
  intros s f d1 d2.
  set (w := write (temp_name f) d1). set (r := map (Append (temp_name f)) d2 ++ [Rename (temp_name f) f]).
  exists ((w ++ [Trunc (temp_name f); Rename (temp_name f) f]) ++ r), (w ++ [Trunc (temp_name f); Rename (temp_name f) f]), r.
  split; [|split; [reflexivity|]].
  - unfold safe_file_dump. fold w. rewrite <- app_assoc. generalize w. clear w. intros w. induction w as [|a w IH]; simpl; [|constructor; auto].
    apply merge_r. apply merge_l. apply merge_right.
  - rewrite exec_app. set (s1 := exec s w). simpl. rewrite upd_eq. apply upd_eq.
Qed.

(** ** C20: save_to_file *)
Lemma save_touch (s : fsys) f (fmt : @format byte) (p : list byte) (c : @call byte) : In c (match fmt with
  | Stream d None => write f d | Stream d (Some k) => write f (firstn k d) ++ safe_file_dump (fallback_name f) p
  | Gz d false => write f d | Gz d true => safe_file_dump (fallback_name f) p | Pkl => safe_file_dump f p
  | Unknown => safe_file_dump (fallback_name f) p end) -> ~ touches c (old_name f).
Proof.
  assert (F : In c (safe_file_dump (fallback_name f) p) -> ~ touches c (old_name f)).
  { intros H T. destruct (dump_touch _ _ _ _ H T) as [E|E]; [apply (fallback_old f f); auto|apply (temp_old (fallback_name f) f); auto]. }
  assert (W : forall d, In c (write f d) -> ~ touches c (old_name f)).
  { intros d H T. apply (old_neq f). apply (write_touch f d _ c); auto. }
  destruct fmt as [d [k|]|d [|]| |]; intros H; eauto.
  - apply in_app_or in H. destruct H; eauto.
  - intros T. destruct (dump_touch _ _ _ _ H T) as [E|E]; [apply (old_neq f); auto|apply (temp_old f f); auto].
Qed.
(** overwrite=False: one crash never loses the previous result *)
Theorem C20_previous_survives : forall (s : fsys) f old fmt p pre suf, s f = Some old ->
  save_to_file s f false fmt p = pre ++ suf -> exec s pre f = Some old \/ exec s pre (old_name f) = Some old.
Proof.
  intros s f old fmt p pre suf Hs E. unfold save_to_file, move_old_file in E. rewrite Hs in E.
  destruct pre as [|c pre]; [left; auto|]. right.
  set (body := match fmt with Stream _ _ => _ | _ => _ end) in E.
  change ([Rename f (old_name f)] ++ body) with (Rename f (old_name f) :: body) in E. injection E as <- E.
  change (exec s (Rename f (old_name f) :: pre)) with (exec (exec1 s (Rename f (old_name f))) pre).
  rewrite exec_frame.
  - simpl. rewrite Hs. apply upd_eq.
  - intros c Hc. apply (save_touch s f fmt p). fold body. rewrite E. apply in_or_app; auto.
Qed.
(** a completed save holds exactly the new data and keeps the previous result as .old *)
Theorem C20_completed_save : forall (s : fsys) f d p fmt, fmt = Stream d None \/ fmt = Gz d false ->
  let s' := exec s (save_to_file s f false fmt p) in
  s' f = Some d /\ (forall old, s f = Some old -> s' (old_name f) = Some old)
  /\ (s f = None -> s' (old_name f) = s (old_name f)) /\ (forall q, q <> f -> q <> old_name f -> s' q = s q).
Proof.
  intros s f d p fmt Hf s'.
  assert (E : s' = exec (exec s (move_old_file s f false)) (write f d)).
  { unfold s', save_to_file. rewrite exec_app. destruct Hf as [->| ->]; reflexivity. }
  assert (M : forall q, q <> f -> s' q = exec s (move_old_file s f false) q).
  { intros q Hq. rewrite E. apply (write_frame f d _ q (write f d) []); [rewrite app_nil_r; auto|auto]. }
  split; [rewrite E; apply write_at|]. unfold move_old_file in M. split; [|split].
  - intros old Ho. rewrite M by apply old_neq. rewrite Ho. simpl. rewrite Ho. apply upd_eq.
  - intros Ho. rewrite M by apply old_neq. rewrite Ho. reflexivity.
  - intros q H1 H2. rewrite M by auto. destruct (s f) eqn:Ho; [|reflexivity]. simpl. rewrite Ho, !upd_neq; auto.
Qed.
(** two interrupted saves in a row destroy the last complete result, wherever it was *)
Theorem C20_two_crashes_refuted : forall (s : fsys) f old d1 d2 p, s f = Some old -> old <> [] ->
  exists k1 k2, let s1 := exec s (firstn k1 (save_to_file s f false (Stream d1 None) p)) in
  let s2 := exec s1 (firstn k2 (save_to_file s1 f false (Stream d2 None) p)) in
  s2 f <> Some old /\ s2 (old_name f) <> Some old /\ forall q, q <> f -> q <> old_name f -> s2 q = s q.
Proof.
  intros s f old d1 d2 p Hs Ho. exists 2, 1. cbv zeta.
  assert (E1 : exec s (firstn 2 (save_to_file s f false (Stream d1 None) p)) = upd (upd (upd s f None) (old_name f) (Some old)) f (Some [])).
  { unfold save_to_file, move_old_file. rewrite Hs. simpl. rewrite Hs. reflexivity. }
  rewrite E1. set (s1 := upd _ _ _).
  assert (Hs1 : s1 f = Some []) by apply upd_eq.
  assert (E2 : exec s1 (firstn 1 (save_to_file s1 f false (Stream d2 None) p)) = upd (upd s1 f None) (old_name f) (Some [])).
  { unfold save_to_file, move_old_file. rewrite Hs1. simpl. rewrite Hs1. reflexivity. }
  rewrite E2. split; [|split].
  - rewrite upd_neq by (intros Q; apply (old_neq f); auto). rewrite upd_eq. discriminate.
  - rewrite upd_eq. congruence.
  - intros q H1 H2. unfold s1. rewrite !upd_neq; auto.
Qed.
(** overwrite=True: there is a crash point at which the previous result is gone and nothing
    replaces it *)
Theorem C20_overwrite_window_refuted : forall (s : fsys) f old fmt p, s f = Some old ->
  let s1 := exec s (firstn 1 (save_to_file s f true fmt p)) in s1 f = None /\ forall q, q <> f -> s1 q = s q.
Proof.
  intros s f old fmt p Hs s1. unfold s1, save_to_file, move_old_file. rewrite Hs. simpl. split; [apply upd_eq|].
  intros q Hq. apply upd_neq; auto.
Qed.
(** an encoder error leaves the truncated file under the final name besides the complete .pkl *)
Theorem C20_encoder_error : forall (s : fsys) f d k p, fallback_name f <> f -> temp_name (fallback_name f) <> f ->
  let s' := exec s (save_to_file s f false (Stream d (Some k)) p) in
  s' f = Some (firstn k d) /\ s' (fallback_name f) = Some p.
Proof.
  intros s f d k p H1 H2 s'. unfold s', save_to_file. rewrite !exec_app. split.
  - rewrite exec_frame; [apply write_at|]. intros c Hc T. destruct (dump_touch _ _ _ _ Hc T); congruence.
  - apply dump_done.
Qed.
(** every format the code does not know (the documented "pickle" included) writes the .pkl *)
Theorem C20_unknown_format : forall (s : fsys) f p, fallback_name f <> f -> temp_name (fallback_name f) <> f ->
  let s' := exec s (save_to_file s f false Unknown p) in s' f = None /\ s' (fallback_name f) = Some p.
Proof.
  intros s f p H1 H2 s'. unfold s', save_to_file. rewrite exec_app. split; [|apply dump_done].
  rewrite exec_frame. 2:{ intros c Hc T. destruct (dump_touch _ _ _ _ Hc T); congruence. }
  unfold move_old_file. destruct (s f) eqn:E; [|auto]. simpl. rewrite E, upd_neq by (intros Q; apply (old_neq f); auto). apply upd_eq.
Qed.
End Crash.
(** the fallback name cuts at the last dot of the whole path *)
Theorem C20_fallback_name : forall stem ext, no_dot ext -> fallback_name (stem ++ "." ++ ext) = (stem ++ ".pkl")%string.
Proof.
  intros stem ext H. destruct (split_dot_stem stem ext H ""%string) as [l [E1 [E2 _]]]. unfold fallback_name.
  rewrite E1, removelast_last, E2. reflexivity.
Qed.
(** so it can leave the output directory *)
Theorem C20_fallback_directory_refuted : exists dir name, fallback_name (dir ++ "/" ++ name) = "run1.pkl"%string /\ dir = "run1.5"%string /\ name = "res"%string.
Proof. exists "run1.5"%string, "res"%string. repeat split. Qed.
Definition fs0 : @fsys nat := fun q => if String.eqb q "r.json" then Some [7; 8] else None.
Example C19_ex : exec fs0 (firstn 3 (safe_file_dump "r.json" [1; 2; 3])) "r.json" = Some [7; 8]
  /\ exec fs0 (safe_file_dump "r.json" [1; 2; 3]) "r.json" = Some [1; 2; 3].
Proof. split; reflexivity. Qed.
Example C20_ex : exec fs0 (firstn 3 (save_to_file fs0 "r.json" false (Stream [1; 2; 3] None) [])) "r.json.old" = Some [7; 8]
  /\ exec fs0 (firstn 3 (save_to_file fs0 "r.json" false (Stream [1; 2; 3] None) [])) "r.json" = Some [1]
  /\ fallback_name "out/label_result.json.gz" = "out/label_result.json.pkl"%string.
Proof. repeat split; reflexivity. Qed.

(** ** C26: temporary directory *)
Section Tmp.
Context {byte : Type}.
Notation fsys := (@fsys byte).
Variables (tmp out : string) (names : list string).
Hypothesis disjoint : forall x y, (tmp ++ x)%string <> (out ++ y)%string.
Hypothesis nodup : NoDup names.
Theorem C26_complete_somewhere : forall (s : fsys) pre suf x d,
  (forall y, s (tmp ++ y)%string <> None -> In y names) -> hand_over s tmp out names = pre ++ suf -> s (tmp ++ x)%string = Some d ->
  exec s pre (tmp ++ x)%string = Some d \/ exec s pre (out ++ x)%string = Some d.
Proof.
  intros s pre suf x d Hall E Hd. unfold hand_over in E.
  assert (Hx : In x names) by (apply Hall; congruence).
  destruct (Nat.le_gt_cases (length pre) (length (copytree s tmp out names))) as [H|H].
  - left. rewrite exec_frame; auto. intros c Hc T.
    assert (Hc' : In c (copytree s tmp out names)).
    { apply (f_equal (firstn (length pre))) in E. rewrite firstn_app in E.
      replace (length pre - length (copytree s tmp out names)) with 0 in E by lia. rewrite firstn_O, app_nil_r in E.
      rewrite firstn_app, firstn_all, Nat.sub_diag, firstn_O, app_nil_r in E. rewrite <- E in Hc.
      rewrite <- (firstn_skipn (length pre)). apply in_or_app. auto. }
    destruct (copytree_touch _ _ _ _ _ _ Hc' T) as [y [e [_ [_ Q]]]]. apply (disjoint x y); auto.
  - right. apply (f_equal (firstn (length pre))) in E. rewrite firstn_app in E.
    rewrite (firstn_all2 (copytree s tmp out names)) in E by lia.
    rewrite firstn_app, firstn_all, Nat.sub_diag, firstn_O, app_nil_r in E. rewrite <- E, exec_app.
    rewrite exec_frame; [apply copytree_done; auto|]. intros c Hc T.
    assert (Hc' : In c (rmtree tmp names)) by (rewrite <- (firstn_skipn (length pre - length (copytree s tmp out names))); apply in_or_app; auto).
    unfold rmtree in Hc'. apply in_map_iff in Hc'. destruct Hc' as [y [<- _]]. simpl in T. apply (disjoint y x); auto.
Qed.
(** files present only in the permanent directory are never touched, contrary to the docstring *)
Theorem C26_permanent_files_kept : forall (s : fsys) pre suf x, hand_over s tmp out names = pre ++ suf ->
  s (tmp ++ x)%string = None -> exec s pre (out ++ x)%string = s (out ++ x)%string.
Proof.
  intros s pre suf x E Hx. apply exec_frame. intros c Hc T.
  assert (Hc' : In c (hand_over s tmp out names)) by (rewrite E; apply in_or_app; auto).
  unfold hand_over in Hc'. apply in_app_or in Hc'. destruct Hc' as [H|H].
  - destruct (copytree_touch _ _ _ _ _ _ H T) as [y [e [_ [He Q]]]]. apply string_app_inv in Q. congruence.
  - unfold rmtree in H. apply in_map_iff in H. destruct H as [y [<- _]]. simpl in T. apply (disjoint y x); auto.
Qed.
(** a finished hand-over: the permanent directory has every temporary file, the temporary one
    is empty *)
Theorem C26_finished : forall (s : fsys) x, (forall y, s (tmp ++ y)%string <> None -> In y names) ->
  let s' := exec s (hand_over s tmp out names) in
  s' (tmp ++ x)%string = None /\ s' (out ++ x)%string = match s (tmp ++ x)%string with Some d => Some d | None => s (out ++ x)%string end.
Proof.
  intros s x Hall s'. split.
  - unfold s', hand_over. rewrite exec_app.
    assert (G : forall l (u : fsys), In x l \/ u (tmp ++ x)%string = None -> exec u (rmtree tmp l) (tmp ++ x)%string = None).
    { induction l as [|y l IH]; intros u Hu; [destruct Hu as [[]|Hu]; exact Hu|].
      change (exec u (rmtree tmp (y :: l))) with (exec (exec1 u (Remove (tmp ++ y)%string)) (rmtree tmp l)). apply IH. simpl.
      destruct (string_dec x y) as [->|Hne]; [right; apply upd_eq|].
      destruct Hu as [[->|Hu]|Hu]; [congruence|auto|right]. rewrite upd_neq; auto. intros Q. apply string_app_inv in Q. auto. }
    apply G. destruct (s (tmp ++ x)%string) eqn:Es; [left; apply Hall; congruence|right].
    rewrite exec_frame; auto. intros c Hc T. destruct (copytree_touch _ _ _ _ _ _ Hc T) as [y [e [_ [_ Q]]]]. apply (disjoint x y); auto.
  - destruct (s (tmp ++ x)%string) as [d|] eqn:Es.
    + unfold s', hand_over. rewrite exec_app, exec_frame; [apply copytree_done; auto; apply Hall; congruence|].
      intros c Hc T. unfold rmtree in Hc. apply in_map_iff in Hc. destruct Hc as [y [<- _]]. simpl in T. apply (disjoint y x); auto.
    + apply (C26_permanent_files_kept s (hand_over s tmp out names) []); [rewrite app_nil_r; auto|auto].
Qed.
End Tmp.
(** crash while copying, then restart with a new temporary directory: the new run starts from a
    truncated file although both complete versions existed *)
Definition fs1 : @fsys nat := fun q => if String.eqb q "t1/a" then Some [1; 2; 3] else if String.eqb q "o/a" then Some [8; 9] else None.
Theorem C26_restart_reads_partial_file_refuted : exists k,
  let s1 := exec fs1 (firstn k (hand_over fs1 "t1/" "o/" ["a"%string])) in
  let s2 := exec s1 (setup_run s1 "o/" "t2/" ["a"%string]) in
  s2 "t2/a"%string = Some [1] /\ s1 "t1/a"%string = Some [1; 2; 3].
Proof. exists 2. split; reflexivity. Qed.
Example C26_ex : exec fs1 (firstn 3 (hand_over fs1 "t1/" "o/" ["a"%string])) "t1/a" = Some [1; 2; 3]
  /\ exec fs1 (hand_over fs1 "t1/" "o/" ["a"%string]) "o/a" = Some [1; 2; 3] /\ forall x y, ("t1/" ++ x)%string <> ("o/" ++ y)%string.
Proof. repeat split; try reflexivity. intros x y. simpl. discriminate. Qed.

(** ** C49: saving replaces the callable keyword arguments in the result object *)
Section C49.
Context {V : Type}.
Variable callable : V -> bool.
Variable str_of : list (string * V) -> V.
Lemma replace_spec todo : forall done, exists new, replace_callables callable str_of done todo = done ++ new /\ map fst new = map fst todo
  /\ forall i k v, nth_error todo i = Some (k, v) ->
     nth_error new i = Some (k, if callable v then str_of (done ++ firstn i new ++ skipn i todo) else v).
Proof.
  induction todo as [|[k v] t IH]; intros done.
  - exists []. simpl. rewrite app_nil_r. repeat split; auto. intros [|i] ? ?; discriminate.
  - simpl. set (e := (k, if callable v then str_of (done ++ (k, v) :: t) else v)).
    destruct (IH (done ++ [e])) as [new [E1 [E2 E3]]]. exists (e :: new). rewrite E1, <- app_assoc. split; [reflexivity|].
    split; [simpl; rewrite E2; reflexivity|]. intros [|i] k' v' H; simpl in H.
    + injection H as <- <-. reflexivity.
    + specialize (E3 i k' v' H). rewrite <- app_assoc in E3. exact E3.
Qed.
Theorem C49_saved_kwargs : forall d, let d' := replace_callables callable str_of [] d in
  map fst d' = map fst d /\ forall i k v, nth_error d i = Some (k, v) ->
    (callable v = false -> nth_error d' i = Some (k, v))
    /\ (callable v = true -> nth_error d' i = Some (k, str_of (firstn i d' ++ skipn i d))).
Proof.
  intros d d'. destruct (replace_spec d []) as [new [E1 [E2 E3]]]. simpl in E1. unfold d'. rewrite E1. split; [auto|].
  intros i k v H. specialize (E3 i k v H). rewrite E3. simpl. split; intros ->; reflexivity.
Qed.
End C49.
(** [Some n]: the function number n; [None]: a string *)
Theorem C49_result_unchanged_refuted : exists (d : list (string * option nat)),
  replace_callables (fun v => match v with Some _ => true | None => false end) (fun _ => None) [] d <> d.
Proof. exists [("loglikelihood"%string, Some 3)]. discriminate. Qed.
Example C49_ex : replace_callables (fun n => Nat.eqb n 5) (fun d => 100 + length d) [] [("a"%string, 5); ("b"%string, 6); ("c"%string, 5)]
  = [("a"%string, 103); ("b"%string, 6); ("c"%string, 103)].
Proof. reflexivity. Qed.

(** ** C27: signal handlers *)
Section C27.
Context {H : Type}.
Notation handlers := (@handlers H).
Theorem C27_restored_on_return : forall (mine t i a : H) method s', 
  wrapped Unix mine method (mkH (Some t) (Some i) (Some a)) = (Returned, s') -> s' = mkH (Some t) (Some i) (Some a).
Proof.
  intros mine t i a method s'. unfold wrapped. simpl. destruct (method _) as [[|] s1]; intros E; injection E; auto. discriminate.
Qed.
(** a sequence of runs whose methods leave the handlers alone: the handlers are those of the last
    run that raised, or the original ones *)
Definition run_one (s : handlers) (r : H * outcome) : handlers := snd (wrapped Unix (fst r) (fun h => (snd r, h)) s).
Definition last_raised (init : handlers) (l : list (H * outcome)) : handlers :=
  fold_left (fun s r => match snd r with Raised => mkH (Some (fst r)) (Some (fst r)) (Some (fst r)) | Returned => s end) l init.
Theorem C27_sequence_of_runs : forall l (t i a : H),
  fold_left run_one l (mkH (Some t) (Some i) (Some a)) = last_raised (mkH (Some t) (Some i) (Some a)) l.
Proof.
  induction l as [|[m o] l IH]; intros t i a; [reflexivity|]. unfold last_raised. simpl fold_left.
  destruct o; unfold run_one at 2, wrapped; simpl; apply IH.
Qed.
(** a run that raises leaves the sampler's handlers installed *)
Theorem C27_restored_on_error_refuted : forall (mine : H) s, h_term s <> Some mine ->
  exists method, fst (wrapped Unix mine method s) = Raised /\ h_term (snd (wrapped Unix mine method s)) <> h_term s.
Proof. intros mine s Hs. exists (fun h => (Raised, h)). split; [reflexivity|]. simpl. congruence. Qed.
(** where SIGALRM is missing, SIGTERM and SIGINT are taken over and never given back *)
Theorem C27_no_alarm_not_restored : forall (mine : H) s, exists s',
  wrapped NoAlarm mine (fun h => (Returned, h)) s = (Returned, s') /\ h_term s' = Some mine /\ h_int s' = Some mine.
Proof. intros mine s. eexists. repeat split. Qed.
(** a handler installed outside Python makes a successful run end in an exception *)
Theorem C27_foreign_handler_fails : forall (mine : H) s method s1,
  method (mkH (Some mine) (Some mine) (Some mine)) = (Returned, s1) ->
  h_term s = None \/ h_int s = None \/ h_alrm s = None -> fst (wrapped Unix mine method s) = Raised.
Proof.
  intros mine s method s1 Hm Hn. unfold wrapped. rewrite Hm. destruct s as [t i a]. simpl in *.
  destruct t, i, a; auto; destruct Hn as [?|[?|?]]; discriminate.
Qed.
End C27.
Example C27_ex : fold_left run_one [(10, Returned); (11, Raised); (12, Returned)] (mkH (Some 1) (Some 2) (Some 3)) = mkH (Some 11) (Some 11) (Some 11).
Proof. reflexivity. Qed.

(** ** C50: what a termination signal does *)
Definition serial (p : proc) : Prop := npool p = None \/ npool p = Some 1.
Definition signals (n : nat) (p : proc) : proc := Nat.iter n on_signal p.
Lemma signals_S n p : signals (S n) p = signals n (on_signal p).
Proof. unfold signals. induction n as [|n IH]; [reflexivity|]. simpl in *. rewrite <- IH. reflexivity. Qed.
(** serial: every signal checkpoints; with an open pool: exactly one checkpoint *)
Theorem C50_checkpoints : forall p n, 0 < n ->
  (serial p -> checkpoints (signals n p) = checkpoints p + n /\ exited (signals n p) = true)
  /\ (~ serial p -> pool_open p = true -> checkpoints (signals n p) = checkpoints p + 1 /\ exited (signals n p) = true).
Proof.
  intros p n Hn.
  assert (A : forall n p, serial p -> serial (signals n p) /\ checkpoints (signals n p) = checkpoints p + n /\ (0 < n -> exited (signals n p) = true)).
  { clear. induction n as [|n IH]; intros p Hp; [repeat split; auto; lia|]. change (signals (S n) p) with (on_signal (signals n p)).
    destruct (IH p Hp) as [H1 [H2 _]]. set (q := signals n p) in *.
    assert (E : on_signal q = mkP (npool q) false (S (checkpoints q)) true).
    { unfold on_signal. destruct H1 as [->| ->]; reflexivity. }
    rewrite E. unfold serial. simpl. repeat split; auto. lia. }
  split; intros Hp.
  - destruct (A n p Hp) as [_ [H2 H3]]. auto.
  - intros Ho. destruct n as [|n]; [lia|]. rewrite signals_S.
    assert (E : on_signal p = mkP (npool p) false (S (checkpoints p)) true) by (unfold on_signal; rewrite Ho, orb_true_r; reflexivity).
    rewrite E. set (q := mkP _ _ _ _).
    assert (F : forall n, signals n q = q).
    { clear n Hn. induction n as [|n IH]; [reflexivity|]. change (signals (S n) q) with (on_signal (signals n q)). rewrite IH. unfold on_signal, q. simpl.
      unfold serial in Hp. destruct (npool p) as [m|]; [|tauto]. destruct (Nat.eqb_spec m 1); [subst; tauto|reflexivity]. }
    rewrite F. simpl. split; [lia|auto].
Qed.
(** a parallel run whose pool is not open (before it is set up, or after it was closed) ignores
    every signal: no checkpoint, no exit *)
Theorem C50_ignored_without_pool : forall p n, ~ serial p -> pool_open p = false -> signals n p = p.
Proof.
  intros p n Hp Ho. induction n as [|n IH]; [reflexivity|]. change (signals (S n) p) with (on_signal (signals n p)). rewrite IH.
  unfold on_signal. rewrite Ho, orb_false_r. unfold serial in Hp. destruct (npool p) as [m|]; [|tauto].
  destruct (Nat.eqb_spec m 1); [subst; tauto|reflexivity].
Qed.
Example C50_ex : signals 3 (mkP (Some 4) true 0 false) = mkP (Some 4) false 1 true /\ signals 3 (mkP (Some 4) false 0 false) = mkP (Some 4) false 0 false.
Proof. split; reflexivity. Qed.

(** ** Assumptions of every theorem above *)
Definition Files_Props_all :=
  (@C19_old_or_new,
   @C19_history,
   @C19_two_writers_refuted,
   @C20_previous_survives,
   @C20_completed_save,
   @C20_two_crashes_refuted,
   @C20_overwrite_window_refuted,
   @C20_encoder_error,
   @C20_unknown_format,
   @C20_fallback_name,
   @C20_fallback_directory_refuted,
   @C26_complete_somewhere,
   @C26_permanent_files_kept,
   @C26_finished,
   @C26_restart_reads_partial_file_refuted,
   @C49_saved_kwargs,
   @C49_result_unchanged_refuted,
   @C27_restored_on_return,
   @C27_sequence_of_runs,
   @C27_restored_on_error_refuted,
   @C27_no_alarm_not_restored,
   @C27_foreign_handler_fails,
   @C50_checkpoints,
   @C50_ignored_without_pool).
Print Assumptions Files_Props_all.
