(** File names and prefixes of write sequences. *)
From Coq Require Import String Ascii Bool Lia Arith List.
From Verif Require Import Files_Model.
Import ListNotations.
Open Scope list_scope.

Lemma los_app a b : list_ascii_of_string (a ++ b)%string = list_ascii_of_string a ++ list_ascii_of_string b.
Proof. induction a as [|c a IH]; simpl; [auto|rewrite IH; auto]. Qed.
Lemma suffix_neq a b u v c d : last (list_ascii_of_string u) c <> last (list_ascii_of_string v) d -> u <> ""%string -> v <> ""%string -> c = d ->
  (a ++ u)%string <> (b ++ v)%string.
Proof.
  intros H Hu Hv -> E. apply (f_equal list_ascii_of_string) in E. rewrite !los_app in E.
  apply (f_equal (fun l => last l d)) in E. apply H.
  assert (L : forall (x y : list ascii), y <> [] -> last (x ++ y) d = last y d).
  { induction x as [|e x IH]; intros y Hy; [reflexivity|]. simpl. rewrite IH by auto. destruct (x ++ y) eqn:Q; [|reflexivity].
    destruct x; simpl in Q; congruence. }
  rewrite !L in E; auto; [destruct v; simpl; congruence|destruct u; simpl; congruence].
Qed.
Lemma app_neq f u : u <> ""%string -> (f ++ u)%string <> f.
Proof.
  intros H E. apply (f_equal String.length) in E.
  assert (L : forall a b, String.length (a ++ b) = String.length a + String.length b).
  { induction a as [|c a IH]; intros b; simpl; [auto|rewrite IH; auto]. }
  rewrite L in E. destruct u; [congruence|simpl in E; lia].
Qed.
Lemma temp_neq f : temp_name f <> f. Proof. apply app_neq. discriminate. Qed.
Lemma old_neq f : old_name f <> f. Proof. apply app_neq. discriminate. Qed.
Lemma temp_old a b : temp_name a <> old_name b.
Proof. apply (suffix_neq a b ".temp" ".old" "a"%char "a"%char); simpl; congruence. Qed.
Lemma fallback_old a b : fallback_name a <> old_name b.
Proof. unfold fallback_name, old_name. apply (suffix_neq _ b ".pkl" ".old" "a"%char "a"%char); simpl; congruence. Qed.

Section B.
Context {byte : Type}.
Notation fsys := (@fsys byte).
Lemma upd_eq (s : fsys) p v : upd s p v p = v. Proof. unfold upd. rewrite String.eqb_refl. auto. Qed.
Lemma upd_neq (s : fsys) p v q : q <> p -> upd s p v q = s q.
Proof. intros H. unfold upd. destruct (String.eqb_spec q p); congruence. Qed.
Lemma exec_app (s : fsys) a b : exec s (a ++ b) = exec (exec s a) b.
Proof. apply fold_left_app. Qed.
(** names a call can change *)
Definition touches (c : @call byte) (q : string) : Prop :=
  match c with Trunc p | Append p _ | Remove p => q = p | Rename p r => q = p \/ q = r end.
Lemma exec_frame l : forall (s : fsys) q, (forall c, In c l -> ~ touches c q) -> exec s l q = s q.
Proof.
  induction l as [|c l IH]; intros s q H; [reflexivity|]. change (exec s (c :: l)) with (exec (exec1 s c) l).
  rewrite IH by (intros; apply H; right; auto). specialize (H c (or_introl eq_refl)).
  destruct c as [p|p b|p r|p]; simpl in *.
  - apply upd_neq; auto.
  - destruct (s p); auto. apply upd_neq; auto.
  - destruct (s p); auto. rewrite !upd_neq; auto.
  - apply upd_neq; auto.
Qed.
Lemma append_all p d : forall (s : fsys) l, s p = Some l -> exec s (map (Append p) d) p = Some (l ++ d).
Proof.
  induction d as [|b d IH]; intros s l H; [simpl; rewrite app_nil_r; auto|].
  change (exec s (map (Append p) (b :: d))) with (exec (exec1 s (Append p b)) (map (Append p) d)).
  rewrite (IH _ (l ++ [b])); [rewrite <- app_assoc; reflexivity|]. simpl. rewrite H. apply upd_eq.
Qed.
Lemma write_at p d (s : fsys) : exec s (write p d) p = Some d.
Proof. unfold write. change (exec s (Trunc p :: map (Append p) d)) with (exec (exec1 s (Trunc p)) (map (Append p) d)). rewrite (append_all p d _ []); auto. apply upd_eq. Qed.
Lemma write_touch p d q c : In c (write p d) -> touches c q -> q = p.
Proof. unfold write. intros [<-|H] T; [auto|]. apply in_map_iff in H. destruct H as [b [<- _]]. auto. Qed.
Lemma write_frame p d (s : fsys) q pre suf : write p d = pre ++ suf -> q <> p -> exec s pre q = s q.
Proof. intros E H. apply exec_frame. intros c Hc T. apply H. apply (write_touch p d q c); auto. rewrite E. apply in_or_app; auto. Qed.
Lemma dump_touch f d q c : In c (safe_file_dump f d) -> touches c q -> q = f \/ q = temp_name f.
Proof.
  unfold safe_file_dump. intros H T. apply in_app_or in H. destruct H as [H|[<-|[]]].
  - right. apply (write_touch _ d _ c); auto.
  - simpl in T. tauto.
Qed.
Lemma dump_done f d (s : fsys) : exec s (safe_file_dump f d) f = Some d /\ exec s (safe_file_dump f d) (temp_name f) = None.
Proof.
  unfold safe_file_dump. rewrite exec_app.
  set (s1 := exec s (write (temp_name f) d)). assert (E : s1 (temp_name f) = Some d) by apply write_at.
  change (exec s1 [Rename (temp_name f) f]) with (exec1 s1 (Rename (temp_name f) f)). unfold exec1. rewrite E. split; [apply upd_eq|].
  rewrite upd_neq by apply temp_neq. apply upd_eq.
Qed.
Lemma dump_unfinished f d (s : fsys) pre c suf : safe_file_dump f d = pre ++ c :: suf -> exec s pre f = s f.
Proof.
  intros E. apply exec_frame. intros c' Hc T.
  assert (Hw : exists r, write (temp_name f) d = pre ++ r).
  { unfold safe_file_dump in E. destruct (exists_last (l := c :: suf)) as [t [z Hz]]; [discriminate|].
    rewrite Hz, app_assoc in E. apply app_inj_tail in E. exists t. tauto. }
  destruct Hw as [r Hw]. assert (In c' (write (temp_name f) d)) by (rewrite Hw; apply in_or_app; auto).
  apply (temp_neq f). symmetry. apply (write_touch _ d f c'); auto.
Qed.

(** copying a directory *)
Lemma copytree_touch (s : fsys) src dst names q c : In c (copytree s src dst names) -> touches c q ->
  exists x d, In x names /\ s (src ++ x)%string = Some d /\ q = (dst ++ x)%string.
Proof.
  unfold copytree. intros H T. apply in_flat_map in H. destruct H as [x [Hx H]].
  destruct (s (src ++ x)%string) as [d|] eqn:E; [|contradiction]. exists x, d. split; [auto|]. split; auto.
  apply (write_touch _ d q c); auto.
Qed.
Lemma string_app_inv a x y : (a ++ x)%string = (a ++ y)%string -> x = y.
Proof. induction a as [|c a IH]; simpl; [auto|]. intros E. injection E; auto. Qed.
Lemma copytree_done (s0 : fsys) src dst names : forall (s : fsys) x d,
  NoDup names -> In x names -> s0 (src ++ x)%string = Some d -> exec s (copytree s0 src dst names) (dst ++ x)%string = Some d.
Proof.
  induction names as [|y names IH]; intros s x d Hn Hin Hd; [contradiction|].
  inversion Hn as [|? ? Hy Hn']; subst. change (copytree s0 src dst (y :: names)) with
    (match s0 (src ++ y)%string with Some d => write (dst ++ y)%string d | None => [] end ++ copytree s0 src dst names).
  rewrite exec_app. destruct Hin as [->|Hin].
  - rewrite Hd. rewrite (exec_frame (copytree s0 src dst names)).
    + apply write_at.
    + intros c Hc T. destruct (copytree_touch _ _ _ _ _ _ Hc T) as [z [e [Hz [_ E]]]]. apply string_app_inv in E. congruence.
  - apply IH; auto.
Qed.
End B.

(** the part of a path before the last dot *)
Fixpoint no_dot (s : string) : Prop := match s with EmptyString => True | String c t => c <> "."%char /\ no_dot t end.
Lemma split_dot_no acc s : no_dot s -> split_dot acc s = [(acc ++ s)%string].
Proof.
  revert acc. induction s as [|c s IH]; intros acc H; simpl.
  - f_equal. induction acc as [|x acc IHa]; simpl; congruence.
  - destruct H as [Hc Hs]. destruct (Ascii.eqb_spec c "."%char); [congruence|]. rewrite IH by auto. f_equal.
    clear. induction acc as [|x acc IHa]; simpl; congruence.
Qed.
Lemma split_dot_stem stem ext : no_dot ext -> forall acc, exists l, split_dot acc (stem ++ "." ++ ext) = l ++ [ext] /\ String.concat "." l = (acc ++ stem)%string /\ l <> [].
Proof.
  intros He. induction stem as [|c stem IH]; intros acc.
  - exists [acc]. cbn [append split_dot]. rewrite Ascii.eqb_refl, split_dot_no by auto. split; [reflexivity|]. split; [|discriminate]. simpl.
    clear. induction acc as [|x acc IHa]; simpl; congruence.
  - cbn [append split_dot]. destruct (Ascii.eqb_spec c "."%char) as [->|Hc].
    + destruct (IH ""%string) as [l [E1 [E2 E3]]]. exists (acc :: l). cbn [append] in E1. rewrite E1. split; [reflexivity|]. split; [|discriminate].
      destruct l as [|y l]; [congruence|]. change (String.concat "." (acc :: y :: l)) with (acc ++ "." ++ String.concat "." (y :: l))%string.
      rewrite E2. reflexivity.
    + destruct (IH (acc ++ String c "")%string) as [l [E1 [E2 E3]]]. exists l. cbn [append] in E1. rewrite E1. split; [reflexivity|]. split; [|auto].
      rewrite E2. clear. induction acc as [|x acc IHa]; simpl; congruence.
Qed.
