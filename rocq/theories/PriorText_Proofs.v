(** * Lemmas on the text of priors *)
From Coq Require Import String Ascii List Bool Arith Lia.
From Verif Require Import PriorText_Model.
Import ListNotations.
Open Scope char_scope. Open Scope list_scope.

(** ** String methods *)
Lemma has_in : forall c t, has c t = true <-> In c t.
Proof. intros c t. unfold has. rewrite existsb_exists. split; [intros [x [I E]]; apply Ascii.eqb_eq in E; subst; exact I|]. intro I. exists c. split; [exact I|apply Ascii.eqb_refl]. Qed.
Lemma has_not : forall c t, has c t = false <-> ~ In c t.
Proof. intros c t. rewrite <- has_in. destruct (has c t); split; intro H; congruence || (exfalso; apply H; reflexivity) || reflexivity. Qed.
Lemma eqb_ne : forall a b : ascii, a <> b -> Ascii.eqb a b = false.
Proof. intros a b H. apply Ascii.eqb_neq, H. Qed.
Lemma teq_true : forall a b, teq a b = true <-> a = b.
Proof. intros a b. unfold teq. destruct (list_eq_dec ascii_dec a b); split; congruence. Qed.
Lemma teq_refl : forall a, teq a a = true.
Proof. intro a. apply teq_true. reflexivity. Qed.
Lemma teq_false : forall a b, a <> b -> teq a b = false.
Proof. intros a b H. unfold teq. destruct (list_eq_dec ascii_dec a b); [contradiction|reflexivity]. Qed.
Lemma rem_in : forall c t x, In x (remove_char c t) <-> In x t /\ x <> c.
Proof.
  intros c t x. unfold remove_char. rewrite filter_In. split; intros [A B]; (split; [exact A|]).
  - intros ->. rewrite Ascii.eqb_refl in B. discriminate.
  - rewrite eqb_ne by congruence. reflexivity.
Qed.
Lemma rem_app : forall c a b, remove_char c (a ++ b) = remove_char c a ++ remove_char c b.
Proof. intros. apply filter_app. Qed.
Lemma rem_id : forall c t, ~ In c t -> remove_char c t = t.
Proof.
  induction t as [|x t IH]; intro H; [reflexivity|]. cbn. rewrite eqb_ne by (intros ->; apply H; left; reflexivity). cbn. f_equal. apply IH. intro I. apply H. right. exact I.
Qed.
Lemma rem_rem : forall c t, remove_char c (remove_char c t) = remove_char c t.
Proof. intros c t. apply rem_id. rewrite rem_in. intros [_ H]. apply H. reflexivity. Qed.
Lemma rem_join : forall c sep l, remove_char c (join sep l) = join (remove_char c sep) (map (remove_char c) l).
Proof.
  induction l as [|p l IH]; [reflexivity|]. destruct l as [|p' l]; [reflexivity|]. change (join sep (p :: p' :: l)) with (p ++ sep ++ join sep (p' :: l)). rewrite !rem_app, IH. reflexivity.
Qed.
Lemma split_nonnil : forall c t, split c t <> [].
Proof. intros c [|x t]; cbn; [discriminate|]. destruct (Ascii.eqb c x); [discriminate|]. destruct (split c t); discriminate. Qed.
Lemma split_free : forall c t, ~ In c t -> split c t = [t].
Proof.
  induction t as [|x t IH]; intro H; [reflexivity|]. cbn. rewrite eqb_ne by (intros ->; apply H; left; reflexivity). rewrite IH by (intro I; apply H; right; exact I). reflexivity.
Qed.
Lemma split_app : forall c a b, split c (a ++ c :: b) = split c a ++ split c b.
Proof.
  induction a as [|x a IH]; intro b; cbn [split app]; [rewrite Ascii.eqb_refl; reflexivity|].
  destruct (Ascii.eqb c x); rewrite IH; [reflexivity|]. destruct (split c a) as [|p ps] eqn:E; [exfalso; exact (split_nonnil c a E)|reflexivity].
Qed.
Lemma split_join : forall c l, l <> [] -> split c (join [c] l) = flat_map (split c) l.
Proof.
  induction l as [|p l IH]; intro H; [contradiction|]. destruct l as [|p' l]; [cbn; rewrite app_nil_r; reflexivity|].
  change (join [c] (p :: p' :: l)) with (p ++ c :: join [c] (p' :: l)). rewrite split_app, IH by discriminate. reflexivity.
Qed.
Lemma join_cons : forall c p l, join [c] (p :: l) = p ++ flat_map (fun x => c :: x) l.
Proof.
  intros c p l. revert p. induction l as [|q l IH]; intro p; [cbn; rewrite app_nil_r; reflexivity|]. change (join [c] (p :: q :: l)) with (p ++ c :: join [c] (q :: l)). rewrite IH. reflexivity.
Qed.
Lemma join_split : forall c t, join [c] (split c t) = t.
Proof.
  induction t as [|x t IH]; [reflexivity|]. cbn [split]. destruct (Ascii.eqb c x) eqn:E.
  - apply Ascii.eqb_eq in E. subst x. rewrite join_cons. cbn [app]. destruct (split c t) as [|p ps] eqn:S; [exfalso; exact (split_nonnil c t S)|]. cbn [flat_map]. rewrite <- app_comm_cons. f_equal. rewrite <- IH, join_cons. reflexivity.
  - destruct (split c t) as [|p ps] eqn:S; [exfalso; exact (split_nonnil c t S)|]. rewrite join_cons in IH |- *. cbn [app]. f_equal. exact IH.
Qed.
Lemma split_join_free : forall c l, l <> [] -> (forall p, In p l -> ~ In c p) -> split c (join [c] l) = l.
Proof.
  intros c l H F. rewrite split_join by exact H. clear H. induction l as [|p l IH]; [reflexivity|]. cbn [flat_map]. rewrite split_free by (apply F; left; reflexivity). rewrite IH; [reflexivity|]. intros q Q. apply F. right. exact Q.
Qed.
Lemma before_app : forall c k r, ~ In c k -> before c (k ++ c :: r) = k.
Proof.
  induction k as [|x k IH]; intros r H; cbn [before app]; [rewrite Ascii.eqb_refl; reflexivity|]. rewrite eqb_ne by (intros ->; apply H; left; reflexivity). f_equal. apply IH. intro I. apply H. right. exact I.
Qed.
Lemma after_app : forall c k r, ~ In c k -> after c (k ++ c :: r) = r.
Proof.
  induction k as [|x k IH]; intros r H; cbn [after app]; [rewrite Ascii.eqb_refl; reflexivity|]. rewrite eqb_ne by (intros ->; apply H; left; reflexivity). apply IH. intro I. apply H. right. exact I.
Qed.
Lemma after_free : forall c t, ~ In c t -> after c t = [].
Proof. induction t as [|x t IH]; intro H; [reflexivity|]. cbn. rewrite eqb_ne by (intros ->; apply H; left; reflexivity). apply IH. intro I. apply H. right. exact I. Qed.
Lemma before_in : forall c d k r, In d k -> ~ In c k -> In d (before c (k ++ r)).
Proof.
  induction k as [|x k IH]; intros r I H; [destruct I|]. cbn [before app]. rewrite eqb_ne by (intros ->; apply H; left; reflexivity). destruct I as [->|I]; [left; reflexivity|]. right. apply IH; [exact I|]. intro J. apply H. right. exact J.
Qed.
Lemma lstrip_free : forall c t, ~ In c t -> lstrip c t = t.
Proof. intros c [|x t] H; [reflexivity|]. cbn. rewrite eqb_ne by (intros ->; apply H; left; reflexivity). reflexivity. Qed.
Lemma strip_free : forall c t, ~ In c t -> strip c t = t.
Proof. intros c t H. unfold strip. rewrite (lstrip_free c t H), lstrip_free by (rewrite <- in_rev; exact H). apply rev_involutive. Qed.
Lemma strip_quoted : forall c t, ~ In c t -> strip c ([c] ++ t ++ [c]) = t.
Proof.
  intros c t H. unfold strip. cbn [app lstrip]. rewrite Ascii.eqb_refl. destruct t as [|x t]; [cbn; rewrite Ascii.eqb_refl; reflexivity|].
  replace (lstrip c ((x :: t) ++ [c])) with ((x :: t) ++ [c]) by (cbn [app lstrip]; rewrite eqb_ne by (intros ->; apply H; left; reflexivity); reflexivity).
  rewrite rev_app_distr. cbn [rev app lstrip]. rewrite Ascii.eqb_refl. change (rev t ++ [x]) with (rev (x :: t)). rewrite lstrip_free by (rewrite <- in_rev; exact H). apply rev_involutive.
Qed.
Lemma chop_last : forall t c, chop (t ++ [c]) = t.
Proof. intros. apply removelast_last. Qed.
Lemma ends_last : forall c t, ends c (t ++ [c]) = true.
Proof. intros c t. unfold ends. rewrite rev_app_distr. cbn. apply Ascii.eqb_refl. Qed.
Lemma unquoted_free : forall t, ~ In quote t -> unquoted t = t.
Proof. intros t H. unfold unquoted. rewrite after_free by exact H. reflexivity. Qed.

(** ** Splitting the arguments *)
(** the pieces of one argument: one piece, or an opening piece, pieces without parentheses and a closing piece *)
Definition no_paren (p : text) : Prop := ~ In "(" p /\ ~ In ")" p.
Definition group_ok (g : list text) : Prop :=
  (forall p, In p g -> ~ In " " p) /\
  ((exists p, g = [p] /\ (In "(" p -> In ")" p)) \/
   (exists p mid l, g = p :: mid ++ [l] /\ In "(" p /\ ~ In ")" p /\ (forall m, In m mid -> no_paren m) /\ In ")" l /\ ~ In "(" l)).

Lemma absorb_group : forall mid l rest acc last jj, ~ In ")" last -> (forall m, In m mid -> no_paren m) -> In ")" l ->
  ~ In " " acc -> (forall p, In p (mid ++ [l]) -> ~ In " " p) ->
  absorb acc last jj (mid ++ l :: rest) = Some (acc ++ flat_map (fun x => "," :: x) (mid ++ [l]), seq (S jj) (S (length mid))).
Proof.
  induction mid as [|m mid IH]; intros l rest acc last jj NL NM IL SA SP.
  - cbn [app absorb flat_map length seq]. rewrite (proj2 (has_not _ _) NL). rewrite strip_free by (cbn; rewrite in_app_iff; cbn; intros [X|[X|X]]; [exact (SA X)|discriminate X|exact (SP l (or_introl eq_refl) X)]).
    destruct rest; cbn [absorb]; rewrite (proj2 (has_in _ _) IL); rewrite app_nil_r; reflexivity.
  - cbn [app absorb]. rewrite (proj2 (has_not _ _) NL).
    rewrite strip_free by (cbn; rewrite in_app_iff; cbn; intros [X|[X|X]]; [exact (SA X)|discriminate X|exact (SP m (or_introl eq_refl) X)]).
    rewrite IH.
    + cbn [flat_map length seq app]. rewrite <- app_assoc. reflexivity.
    + apply (NM m). left. reflexivity.
    + intros m' H. apply NM. right. exact H.
    + exact IL.
    + rewrite in_app_iff. cbn. intros [X|[X|X]]; [exact (SA X)|discriminate X|exact (SP m (or_introl eq_refl) X)].
    + intros p H. apply SP. right. exact H.
Qed.
Lemma merge_plain : forall r rest ii, (forall p, In p r -> ~ In "(" p) ->
  merge ii (r ++ rest) = match merge (ii + length r) rest with Some (ms, rm) => Some (r ++ ms, rm) | None => None end.
Proof.
  induction r as [|p r IH]; intros rest ii H; cbn [app length]; [rewrite Nat.add_0_r; destruct (merge ii rest) as [[? ?]|]; reflexivity|].
  cbn [merge]. rewrite (proj2 (has_not _ _) (H p (or_introl eq_refl))). rewrite IH by (intros q Q; apply H; right; exact Q). replace (S ii + length r)%nat with (ii + S (length r))%nat by lia.
  destruct (merge (ii + S (length r)) rest) as [[ms rm]|]; reflexivity.
Qed.
Lemma del_at_pre : forall {A} (pre : list A) x r, del_at (length pre) (pre ++ x :: r) = Some (pre ++ r).
Proof. induction pre as [|a pre IH]; intros x r; [reflexivity|]. cbn. rewrite IH. reflexivity. Qed.
Lemma del_none : forall {A} rm, fold_left (@del_step A) rm None = None.
Proof. induction rm as [|i rm IH]; [reflexivity|exact IH]. Qed.
Lemma del_seq : forall {A} (mid pre rest : list A), fold_left del_step (rev (seq (length pre) (length mid))) (Some (pre ++ mid ++ rest)) = Some (pre ++ rest).
Proof.
  intros A mid. induction mid as [|x mid IH] using rev_ind; intros pre rest; [reflexivity|].
  rewrite app_length. cbn [length]. rewrite seq_app, rev_app_distr. cbn [seq rev app fold_left del_step].
  rewrite <- app_assoc. cbn [app]. rewrite app_assoc. rewrite <- app_length. rewrite del_at_pre. rewrite <- app_assoc. apply IH.
Qed.
Lemma merge_groups : forall gs ii, (forall g, In g gs -> group_ok g) ->
  exists ms rm, merge ii (concat gs) = Some (ms, rm) /\ forall pre, length pre = ii -> delete_all rm (pre ++ ms) = Some (pre ++ map (join [","]) gs).
Proof.
  induction gs as [|g gs IH]; intros ii H; [exists [], []; split; [reflexivity|intros pre _; reflexivity]|].
  destruct (H g (or_introl eq_refl)) as [SP [[p [-> P]]|[p [mid [l [-> [P1 [P2 [NM [L1 L2]]]]]]]]]].
  - destruct (IH (S ii)) as [ms [rm [E D]]]; [intros g G; apply H; right; exact G|].
    exists (p :: ms), rm. split.
    + cbn [concat app merge]. assert (X : (if has "(" p then absorb p p ii (concat gs) else Some (p, [])) = Some (p, [])).
      { destruct (has "(" p) eqn:B; [|reflexivity]. apply has_in in B. apply P, has_in in B. destruct (concat gs); cbn [absorb]; rewrite B; reflexivity. }
      rewrite X, E. reflexivity.
    + intros pre L. replace (pre ++ p :: ms) with ((pre ++ [p]) ++ ms) by (rewrite <- app_assoc; reflexivity). rewrite D by (rewrite app_length; cbn; lia). rewrite <- app_assoc. reflexivity.
  - destruct (IH (S ii + length (mid ++ [l]))%nat) as [ms [rm [E D]]]; [intros g G; apply H; right; exact G|].
    exists ((p ++ flat_map (fun x => "," :: x) (mid ++ [l])) :: (mid ++ [l]) ++ ms), (seq (S ii) (S (length mid)) ++ rm). split.
    + cbn [concat app merge]. rewrite (proj2 (has_in _ _) P1). replace ((mid ++ [l]) ++ concat gs) with (mid ++ l :: concat gs) by (rewrite <- app_assoc; reflexivity).
      rewrite absorb_group; [|exact P2|exact NM|exact L1|apply SP; left; reflexivity|intros q Q; apply SP; right; exact Q].
      replace (mid ++ l :: concat gs) with ((mid ++ [l]) ++ concat gs) by (rewrite <- app_assoc; reflexivity). rewrite merge_plain.
      * unfold text in *. rewrite E. reflexivity.
      * intros q Q. apply in_app_or in Q as [Q|[<-|[]]]; [apply (NM q Q)|exact L2].
    + intros pre L. unfold delete_all in *. rewrite rev_app_distr, fold_left_app.
      set (J := p ++ flat_map (fun x => "," :: x) (mid ++ [l])).
      replace (pre ++ J :: (mid ++ [l]) ++ ms) with ((pre ++ J :: (mid ++ [l])) ++ ms) by (rewrite <- app_assoc; reflexivity).
      rewrite D by (rewrite app_length; cbn [length]; lia).
      replace ((pre ++ J :: mid ++ [l]) ++ map (join [","]) gs) with ((pre ++ [J]) ++ (mid ++ [l]) ++ map (join [","]) gs) by (repeat (rewrite <- app_assoc || cbn [app]); reflexivity).
      replace (S ii) with (length (pre ++ [J])) by (rewrite app_length; cbn; lia). replace (S (length mid)) with (length (mid ++ [l])) by (rewrite app_length; cbn; lia).
      rewrite del_seq. rewrite <- app_assoc. cbn [map]. rewrite join_cons. reflexivity.
Qed.
Lemma tset_new : forall {V} (d : list (text * V)) k v, ~ In k (map fst d) -> tset d k v = d ++ [(k, v)].
Proof.
  induction d as [|[k' v'] d IH]; intros k v H; [reflexivity|]. cbn. rewrite teq_false by (intros ->; apply H; left; reflexivity). rewrite IH; [reflexivity|]. intro I. apply H. right. exact I.
Qed.
Lemma to_kwargs_spec : forall sig l ii acc, (forall k v, In (k, v) l -> ~ In "=" k) -> NoDup (map fst acc ++ map fst l) ->
  to_kwargs sig ii (map (fun kv => fst kv ++ ["="] ++ snd kv) l) acc = Some (acc ++ l).
Proof.
  induction l as [|[k v] l IH]; intros ii acc H ND; cbn [map to_kwargs fst snd]; [rewrite app_nil_r; reflexivity|].
  rewrite (proj2 (has_in _ _)) by (apply in_or_app; right; left; reflexivity). cbn [app].
  assert (K : ~ In "=" k) by (apply (H k v); left; reflexivity). rewrite before_app, after_app by exact K.
  assert (NK : ~ In k (map fst acc)). { cbn [map fst] in ND. apply NoDup_remove_2 in ND. intro I. apply ND. apply in_or_app. left. exact I. }
  rewrite tset_new by exact NK. rewrite (IH (S ii)); [rewrite <- app_assoc; reflexivity|intros a b I; apply (H a b); right; exact I|].
  rewrite map_app. cbn [map fst] in *. rewrite <- app_assoc. exact ND.
Qed.
Lemma groups_split : forall l : list text, concat (map (split ",") l) = flat_map (split ",") l.
Proof. intro l. symmetry. apply flat_map_concat_map. Qed.
(** the arguments come back one by one *)
Lemma split_repr_spec : forall sig l, l <> [] -> (forall k v, In (k, v) l -> ~ In "=" k /\ group_ok (split "," (k ++ ["="] ++ v))) -> NoDup (map fst l) ->
  split_repr sig (join [","] (map (fun kv => fst kv ++ ["="] ++ snd kv) l)) = Some l.
Proof.
  intros sig l NE H ND. unfold split_repr. set (L := map (fun kv => fst kv ++ ["="] ++ snd kv) l).
  rewrite split_join by (unfold L; destruct l; [contradiction|discriminate]). rewrite <- groups_split.
  destruct (merge_groups (map (split ",") L) 0) as [ms [rm [E D]]].
  { intros g G. apply in_map_iff in G as [t [<- G]]. unfold L in G. apply in_map_iff in G as [[k v] [<- G]]. apply (H k v G). }
  rewrite E. specialize (D [] eq_refl). cbn [app] in D. rewrite D. rewrite map_map. rewrite (map_ext _ (fun t => t)) by apply join_split. rewrite map_id.
  unfold L. rewrite to_kwargs_spec; [reflexivity|intros k v I; apply (H k v I)|exact ND].
Qed.
