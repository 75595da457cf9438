(** * Properties of priors as text *)
From Coq Require Import String Ascii List Bool Arith Lia.
From Verif Require Import PriorText_Model PriorText_Proofs.
Import ListNotations.
Open Scope char_scope. Open Scope list_scope.

(** [f] applied to every string argument of a prior, at every level *)
Fixpoint smap {cls} (f : text -> text) (v : pval cls) : pval cls :=
  match v with
  | PNone => PNone
  | PStr s => PStr (f s)
  | PLit t => PLit t
  | PPrior c args => PPrior c (map (fun kv => match kv with (k, w) => (k, smap f w) end) args)
  end.
(** none of the characters [bad] occurs *)
Definition free (bad : list ascii) (t : text) : Prop := forall c, In c bad -> ~ In c t.
Definition key_ok (k : text) : Prop := free [" "; ","; "="; "("; ")"] k.
Definition single_quoted (s : text) : text := [quote] ++ s ++ [quote].

Lemma free_app : forall bad a b, free bad a -> free bad b -> free bad (a ++ b).
Proof. intros bad a b A B c I J. apply in_app_or in J as [J|J]; [exact (A c I J)|exact (B c I J)]. Qed.
Lemma rem_free : forall c bad t, free bad t -> free bad (remove_char c t).
Proof. intros c bad t H d I J. apply rem_in in J as [J _]. exact (H d I J). Qed.
Lemma in_esc : forall c s, c <> backslash -> c <> "n" -> c <> "t" -> c <> "r" -> In c (esc s) -> In c s.
Proof.
  induction s as [|x s IH]; intros A B D E I; [exact I|]. cbn [esc flat_map] in I. apply in_app_or in I as [I|I]; [|right; apply IH; assumption].
  unfold esc_char in I. destruct (Ascii.eqb x backslash) eqn:X; [exfalso; cbn in I; intuition congruence|]. destruct (Ascii.eqb x newline); [exfalso; cbn in I; intuition congruence|].
  destruct (Ascii.eqb x tab); [exfalso; cbn in I; intuition congruence|]. destruct (Ascii.eqb x creturn); [exfalso; cbn in I; intuition congruence|]. cbn in I. destruct I as [->|[]]. left. reflexivity.
Qed.
Lemma esc_in : forall c s, c <> backslash -> c <> newline -> c <> tab -> c <> creturn -> In c s -> In c (esc s).
Proof.
  induction s as [|x s IH]; intros A B D E I; [exact I|]. cbn [esc flat_map]. apply in_or_app. destruct I as [->|I]; [left|right; apply IH; assumption].
  unfold esc_char. rewrite !eqb_ne by assumption. left. reflexivity.
Qed.

(** the induction principle for nested priors *)
Lemma pval_induction : forall {cls} (P : pval cls -> Prop), P PNone -> (forall s, P (PStr s)) -> (forall t, P (PLit t)) ->
  (forall c args, (forall k v, In (k, v) args -> P v) -> P (PPrior c args)) -> forall v, P v.
Proof.
  intros cls P HN HS HL HP.
  assert (HP' : forall c args, Forall (fun kv => P (snd kv)) args -> P (PPrior c args)) by (intros c args F; apply HP; intros k v I; exact (proj1 (Forall_forall _ _) F (k, v) I)).
  exact (fix go v := match v with
    | PNone => HN | PStr s => HS s | PLit t => HL t
    | PPrior c args => HP' c args ((fix inner l : Forall (fun kv => P (snd kv)) l := match l with [] => Forall_nil _ | kv :: r => Forall_cons kv (go (snd kv)) (inner r) end) args)
    end).
Qed.
(** all the strings of a prior *)
Fixpoint strs {cls} (v : pval cls) : list text :=
  match v with PNone => [] | PStr s => [s] | PLit _ => [] | PPrior _ args => flat_map (fun kv => match kv with (_, w) => strs w end) args end.
Lemma in_strs : forall {cls} (c : cls) args s, In s (strs (PPrior c args)) <-> exists k v, In (k, v) args /\ In s (strs v).
Proof.
  intros cls c args s. cbn [strs]. rewrite in_flat_map. split; [intros [[k v] [I J]]; exists k, v; split; assumption|intros [k [v [I J]]]; exists (k, v); split; assumption].
Qed.
Lemma smap_id : forall {cls} f (v : pval cls), smap f v = v <-> forall s, In s (strs v) -> f s = s.
Proof.
  intros cls f. induction v as [|s|t|c args IH] using pval_induction; cbn [smap].
  - split; [intros _ s []|reflexivity].
  - split; [intros E s' [<-|[]]; injection E; auto|intro H; f_equal; apply H; left; reflexivity].
  - split; [intros _ s []|reflexivity].
  - split.
    + intros E s I. apply in_strs in I as [k [v [I J]]]. injection E as E. apply (proj1 (IH k v I)); [|exact J]. clear J IH. induction args as [|[k' v'] args IHa]; [destruct I|].
      cbn [map] in E. injection E as E1 E2. destruct I as [I|I]; [injection I as <- <-; exact E1|]. exact (IHa E2 I).
    + intro H. f_equal. etransitivity; [|apply map_id]. apply map_ext_in. intros [k v] I. f_equal. apply (IH k v I). intros s J. apply H, in_strs. exists k, v. split; assumption.
Qed.
Lemma smap_smap : forall {cls} f g (v : pval cls), smap f (smap g v) = smap (fun s => f (g s)) v.
Proof.
  intros cls f g. induction v as [|s|t|c args IH] using pval_induction; cbn [smap]; try reflexivity. f_equal. rewrite map_map. apply map_ext_in. intros [k v] I. rewrite (IH k v I). reflexivity.
Qed.
Lemma strs_smap : forall {cls} f (v : pval cls), strs (smap f v) = map f (strs v).
Proof.
  intros cls f. induction v as [|s|t|c args IH] using pval_induction; cbn [smap strs]; try reflexivity.
  induction args as [|[k v] args IHa]; [reflexivity|]. cbn [map flat_map]. rewrite map_app, (IH k v (or_introl eq_refl)). f_equal. apply IHa. intros k' v' I. apply (IH k' v'). right. exact I.
Qed.
(** what escaping and removing the spaces changes *)
Lemma esc_id : forall s, free [backslash; newline; tab; creturn] s -> esc s = s.
Proof.
  induction s as [|x s IH]; intro F; [reflexivity|]. cbn [esc flat_map]. unfold esc_char. rewrite !eqb_ne by (intros ->; eapply F; [|left; reflexivity]; cbn; tauto). cbn [app]. f_equal. apply IH. intros c I J. exact (F c I (or_intror J)).
Qed.
Lemma esc_clean : forall s, free [newline; tab; creturn] (esc s).
Proof.
  induction s as [|x s IH]; [intros c _ []|]. cbn [esc flat_map]. apply free_app; [|exact IH]. unfold esc_char.
  destruct (Ascii.eqb x backslash) eqn:E1; [intros c I J; cbn in I, J; destruct J as [<-|[<-|[]]]; intuition discriminate|].
  destruct (Ascii.eqb x newline) eqn:E2; [intros c I J; cbn in I, J; destruct J as [<-|[<-|[]]]; intuition discriminate|].
  destruct (Ascii.eqb x tab) eqn:E3; [intros c I J; cbn in I, J; destruct J as [<-|[<-|[]]]; intuition discriminate|].
  destruct (Ascii.eqb x creturn) eqn:E4; [intros c I J; cbn in I, J; destruct J as [<-|[<-|[]]]; intuition discriminate|].
  intros c I J. destruct J as [<-|[]]. cbn in I. destruct I as [<-|[<-|[<-|[]]]]; vm_compute in E2, E3, E4; discriminate.
Qed.
Lemma esc_backslashes : forall s, (2 * count_occ ascii_dec s backslash <= count_occ ascii_dec (esc s) backslash)%nat.
Proof.
  induction s as [|x s IH]; [cbn; lia|]. cbn [esc flat_map]. change (flat_map esc_char s) with (esc s). rewrite count_occ_app. cbn [count_occ]. destruct (ascii_dec x backslash) as [->|N]; [|lia].
  change (esc_char backslash) with [backslash; backslash]. cbn [count_occ]. destruct (ascii_dec backslash backslash); [lia|congruence].
Qed.
Lemma rem_count : forall c d t, c <> d -> count_occ ascii_dec (remove_char c t) d = count_occ ascii_dec t d.
Proof.
  induction t as [|x t IH]; intro N; [reflexivity|]. cbn [remove_char filter]. change (filter _ t) with (remove_char c t). destruct (Ascii.eqb c x) eqn:E; cbn [negb].
  - apply Ascii.eqb_eq in E. subst x. cbn [count_occ]. destruct (ascii_dec c d); [contradiction|]. apply IH, N.
  - cbn [count_occ]. rewrite IH by exact N. reflexivity.
Qed.
Definition survives (s : text) : Prop := free [" "; backslash; newline; tab; creturn] s.
Lemma survives_iff : forall s, remove_char " " (esc s) = s <-> survives s.
Proof.
  intro s. split.
  - intros E c I J. cbn in I. destruct I as [<-|[<-|I]].
    + rewrite <- E in J. apply rem_in in J as [_ J]. apply J. reflexivity.
    + apply (count_occ_In ascii_dec) in J. pose proof (esc_backslashes s) as L. assert (R : count_occ ascii_dec (remove_char " " (esc s)) backslash = count_occ ascii_dec (esc s) backslash) by (apply rem_count; discriminate). rewrite E in R. lia.
    + rewrite <- E in J. apply rem_in in J as [J _]. revert J. apply esc_clean. cbn. tauto.
  - intro F. rewrite esc_id by (intros c I; apply F; right; exact I). apply rem_id, F. left. reflexivity.
Qed.

Lemma some_inj' : forall {A} (a b : A), Some a = Some b -> a = b.
Proof. congruence. Qed.
(** ** Decoding what was escaped *)
Definition dec (a b : text) : Prop := forall r, decode (a ++ r) = b ++ decode r.
Lemma dec_app : forall a a' b b', dec a a' -> dec b b' -> dec (a ++ b) (a' ++ b').
Proof. intros a a' b b' A B r. rewrite <- !app_assoc. rewrite (A (b ++ r)), (B r). reflexivity. Qed.
Lemma dec_plain : forall a, ~ In backslash a -> dec a a.
Proof.
  induction a as [|x a IH]; intros H r; [reflexivity|]. cbn [app decode]. rewrite eqb_ne by (intros ->; apply H; left; reflexivity). rewrite IH by (intro I; apply H; right; exact I). reflexivity.
Qed.
Lemma dec_esc : forall s, dec (esc s) s.
Proof.
  induction s as [|x s IH]; intro r; [reflexivity|]. cbn [esc flat_map]. change (flat_map esc_char s) with (esc s). rewrite <- app_assoc. unfold esc_char.
  destruct (Ascii.eqb x backslash) eqn:E1; [apply Ascii.eqb_eq in E1; subst x; cbn [app decode]; change (Ascii.eqb backslash backslash) with true; cbn iota; rewrite (IH r); reflexivity|].
  destruct (Ascii.eqb x newline) eqn:E2; [apply Ascii.eqb_eq in E2; subst x; change (decode ([backslash; "n"] ++ esc s ++ r)) with (newline :: decode (esc s ++ r)); rewrite (IH r); reflexivity|].
  destruct (Ascii.eqb x tab) eqn:E3; [apply Ascii.eqb_eq in E3; subst x; change (decode ([backslash; "t"] ++ esc s ++ r)) with (tab :: decode (esc s ++ r)); rewrite (IH r); reflexivity|].
  destruct (Ascii.eqb x creturn) eqn:E4; [apply Ascii.eqb_eq in E4; subst x; change (decode ([backslash; "r"] ++ esc s ++ r)) with (creturn :: decode (esc s ++ r)); rewrite (IH r); reflexivity|].
  cbn [app decode]. rewrite E1, (IH r). reflexivity.
Qed.
Lemma dec_join : forall {A} sep (f g : A -> text) l, dec sep sep -> (forall x, In x l -> dec (f x) (g x)) -> dec (join sep (map f l)) (join sep (map g l)).
Proof.
  intros A sep f g l S. induction l as [|x l IH]; intro H; [intro r; reflexivity|]. destruct l as [|y l]; [apply H; left; reflexivity|].
  change (dec (f x ++ sep ++ join sep (map f (y :: l))) (g x ++ sep ++ join sep (map g (y :: l)))). apply dec_app; [apply H; left; reflexivity|]. apply dec_app; [exact S|]. apply IH. intros z Z. apply H. right. exact Z.
Qed.
(** ** Lines *)
Lemma lines_cons : forall l r, ~ In newline l -> lines ((l ++ [newline]) ++ r) = (l ++ [newline]) :: lines r.
Proof.
  induction l as [|x l IH]; intros r H; cbn [app lines]; [rewrite Ascii.eqb_refl; reflexivity|]. rewrite eqb_ne by (intros ->; apply H; left; reflexivity). rewrite IH by (intro I; apply H; right; exact I). reflexivity.
Qed.
Lemma lines_all : forall L, (forall l, In l L -> ~ In newline l) -> lines (flat_map (fun l => l ++ [newline]) L) = map (fun l => l ++ [newline]) L.
Proof.
  induction L as [|l L IH]; intro H; [reflexivity|]. cbn [flat_map map]. rewrite lines_cons by (apply H; left; reflexivity). rewrite IH by (intros m M; apply H; right; exact M). reflexivity.
Qed.
Definition blank (c : ascii) : bool := Ascii.eqb c " " || Ascii.eqb c newline || Ascii.eqb c tab || Ascii.eqb c creturn.
Fixpoint cut (l : text) : text := match l with x :: r => if blank x then cut r else l | [] => [] end.
Lemma strip_line_cut : forall t, strip_line t = rev (cut (rev (cut t))).
Proof. reflexivity. Qed.
Lemma strip_line_spec : forall x m y, blank x = false -> blank y = false -> strip_line (" " :: (x :: m ++ [y]) ++ [newline]) = x :: m ++ [y].
Proof.
  intros x m y X Y. rewrite strip_line_cut. cbn [cut]. change (blank " ") with true. cbn iota. cbn [app cut]. rewrite X.
  replace (rev (x :: (m ++ [y]) ++ [newline])) with (newline :: y :: rev (x :: m)).
  - cbn [cut]. change (blank newline) with true. cbn iota. rewrite Y. cbn [rev]. rewrite rev_app_distr, rev_involutive. reflexivity.
  - cbn [rev]. rewrite !rev_app_distr. cbn [rev app]. reflexivity.
Qed.

Section Text.
Variable cls : Type.
Variables (sig : cls -> list text) (pname : cls -> text) (ckind : cls -> kind) (lookup : text -> option cls).
Variable evalp : text -> option (pval cls).
Notation pval := (pval cls).
Notation print := (print cls pname).
Notation body := (body cls pname).
Notation parse := (parse cls lookup evalp).
Notation read := (read cls sig lookup evalp).
Notation from_repr := (from_repr cls sig lookup evalp).

(** what the text format can carry: see C144 *)
Definition name_ok (c : cls) : Prop :=
  free [" "; ","; "="; "("; ")"; quote; "["; "{"] (pname c) /\ lookup (pname c) = Some c.
Definition flat_ok (v : pval) : Prop :=
  match v with
  | PNone => True
  | PStr s => free [","; quote] s /\ (In "(" s -> In ")" s)
  | PLit t => free [" "; ","; "("; ")"; quote] t /\ evalp t = Some (PLit t) /\ t <> T "None" /\ t <> T "r" /\ t <> T "u"
  | PPrior _ _ => False
  end.
Definition args_ok (P : pval -> Prop) (c : cls) (args : list (text * pval)) : Prop :=
  args <> [] /\ NoDup (map fst args) /\ forall k v, In (k, v) args -> key_ok k /\ In k (sig c) /\ P v.
Definition inner_ok (v : pval) : Prop := flat_ok v /\ (forall s, v = PStr s -> free ["("; ")"] s).
Definition val_ok (v : pval) : Prop := flat_ok v \/ exists c args, v = PPrior c args /\ name_ok c /\ args_ok inner_ok c args.

(** the text of one argument without spaces *)
Definition pr (v : pval) : text := remove_char " " (print single_quoted v).
Definition item (kv : text * pval) : text := match kv with (k, w) => k ++ ["="] ++ print single_quoted w end.

Lemma rem_item : forall k v, key_ok k -> remove_char " " (item (k, v)) = k ++ ["="] ++ pr v.
Proof using Type. clear. intros k v K. unfold item, pr. rewrite !rem_app. rewrite (rem_id " " k) by (apply K; left; reflexivity). reflexivity. Qed.
Lemma rem_body : forall args, (forall k v, In (k, v) args -> key_ok k) ->
  remove_char " " (body single_quoted args) = join [","] (map (fun kv => fst kv ++ ["="] ++ snd kv) (map (fun kv => (fst kv, pr (snd kv))) args)).
Proof using Type.
  clear. intros args K. unfold PriorText_Model.body. rewrite rem_join. cbn [remove_char filter Ascii.eqb]. change (remove_char " " [","; " "]) with [","]. f_equal.
  rewrite !map_map. apply map_ext_in. intros [k v] I. cbn [fst snd]. apply rem_item. exact (K k v I).
Qed.
Lemma pr_flat_nosplit : forall v, flat_ok v -> ~ In "," (pr v).
Proof using Type.
  clear. intros [|s|t|c a] H I; apply rem_in in I as [I _]; cbn [PriorText_Model.print flat_ok] in *.
  - cbn in I. intuition congruence.
  - unfold single_quoted in I. cbn [app In] in I. destruct I as [I|I]; [discriminate|]. apply in_app_or in I as [I|[I|[]]]; [|discriminate]. exact (proj1 H "," (or_introl eq_refl) I).
  - apply (proj1 H ","); [right; left; reflexivity|exact I].
  - destruct H.
Qed.
Lemma pr_flat_paren : forall v, flat_ok v -> In "(" (pr v) -> In ")" (pr v).
Proof using Type.
  clear. intros [|s|t|c a] H I; apply rem_in in I as [I _]; cbn [PriorText_Model.print flat_ok] in *.
  - cbn in I. intuition congruence.
  - unfold pr, single_quoted in *. cbn [app In PriorText_Model.print] in *. destruct I as [I|I]; [discriminate|]. apply rem_in. split; [|discriminate]. right. apply in_app_or in I as [I|[I|[]]]; [|discriminate]. apply in_or_app. left. apply (proj2 H I).
  - exfalso. apply (proj1 H "("); [do 2 right; left; reflexivity|exact I].
  - destruct H.
Qed.
Lemma pr_inner_paren : forall v, inner_ok v -> no_paren (pr v).
Proof using Type.
  clear. intros v [H N]. split; intro I; apply rem_in in I as [I _]; destruct v as [|s|t|c a]; cbn [PriorText_Model.print flat_ok] in *; try destruct H as [H H']; try (cbn in I; intuition congruence).
  1,3: unfold single_quoted in I; cbn [app In] in I; destruct I as [I|I]; [discriminate|]; apply in_app_or in I as [I|[I|[]]]; [|discriminate]; revert I; apply (N s eq_refl); cbn; intuition congruence.
  all: revert I; apply H; cbn; intuition congruence.
Qed.
Lemma pr_nospace : forall v, ~ In " " (pr v).
Proof using Type. clear. intros v I. apply rem_in in I as [_ I]. apply I. reflexivity. Qed.
Lemma key_in : forall k c, key_ok k -> In c [" "; ","; "="; "("; ")"] -> ~ In c k.
Proof using Type. clear. intros k c K I. exact (K c I). Qed.

Lemma group_flat : forall k v, key_ok k -> flat_ok v -> group_ok (split "," (k ++ ["="] ++ pr v)).
Proof using Type.
  clear. intros k v K H. assert (C : ~ In "," (k ++ ["="] ++ pr v)).
  { intro I. apply in_app_or in I as [I|I]; [revert I; apply K; cbn; tauto|]. destruct I as [I|I]; [discriminate|]. exact (pr_flat_nosplit v H I). }
  rewrite split_free by exact C. split.
  - intros p [<-|[]] I. apply in_app_or in I as [I|I]; [revert I; apply K; cbn; tauto|]. destruct I as [I|I]; [discriminate|]. exact (pr_nospace v I).
  - left. eexists. split; [reflexivity|]. intro I. apply in_app_or in I as [I|I]; [exfalso; revert I; apply K; cbn; tauto|]. destruct I as [I|I]; [discriminate|]. apply in_or_app. right. right. exact (pr_flat_paren v H I).
Qed.
Lemma split_wrapped : forall a b x r, ~ In "," a -> ~ In "," b -> (forall p, In p (x :: r) -> ~ In "," p) ->
  split "," (a ++ join [","] (x :: r) ++ b) = match r with [] => [a ++ x ++ b] | _ => (a ++ x) :: removelast r ++ [last r [] ++ b] end.
Proof using Type.
  clear. intros a b x r A B F.
  destruct r as [|y r].
  - apply split_free. cbn [join]. intro I. apply in_app_or in I as [I|I]; [exact (A I)|]. apply in_app_or in I as [I|I]; [exact (F x (or_introl eq_refl) I)|exact (B I)].
  - assert (NE : y :: r <> []) by discriminate. rewrite (app_removelast_last [] NE) at 1. set (mid := removelast (y :: r)) in *. set (l := last (y :: r) []) in *.
    assert (X : a ++ join [","] (x :: mid ++ [l]) ++ b = join [","] ((a ++ x) :: mid ++ [l ++ b])).
    { rewrite !join_cons, !flat_map_app. cbn [flat_map]. repeat rewrite <- app_assoc. cbn [app]. repeat rewrite <- app_assoc. rewrite ?app_nil_r. reflexivity. }
    assert (M : forall p, In p (mid ++ [l]) -> In p (y :: r)) by (intros p; unfold mid, l; rewrite <- (app_removelast_last [] NE); auto).
    rewrite X. apply split_join_free; [discriminate|]. intros p [<-|I] J.
    + apply in_app_or in J as [J|J]; [exact (A J)|exact (F x (or_introl eq_refl) J)].
    + apply in_app_or in I as [I|[<-|[]]]; [exact (F p (or_intror (M p (in_or_app _ _ _ (or_introl I)))) J)|].
      apply in_app_or in J as [J|J]; [|exact (B J)]. refine (F l (or_intror (M l _)) J). apply in_or_app. right. left. reflexivity.
Qed.
Lemma pr_nested : forall c args, name_ok c -> (forall k v, In (k, v) args -> key_ok k) ->
  pr (PPrior c args) = pname c ++ ["("] ++ join [","] (map (fun kv => fst kv ++ ["="] ++ pr (snd kv)) args) ++ [")"].
Proof using Type.
  clear - lookup. intros c args [N _] K. unfold pr at 1. cbn [PriorText_Model.print]. rewrite !rem_app. rewrite (rem_id " " (pname c)) by (apply N; cbn; tauto). f_equal. f_equal. f_equal.
  etransitivity; [exact (rem_body args K)|]. rewrite map_map. reflexivity.
Qed.
Lemma group_nested : forall k c args, key_ok k -> name_ok c -> args_ok inner_ok c args -> group_ok (split "," (k ++ ["="] ++ pr (PPrior c args))).
Proof using Type.
  clear - lookup. intros k c args K N [NE [_ A]]. rewrite pr_nested; [|exact N|intros k' v' I; apply (A k' v' I)].
  set (F := fun kv : text * pval => fst kv ++ ["="] ++ pr (snd kv)).
  change (group_ok (split "," (k ++ ["="] ++ pname c ++ ["("] ++ join [","] (map F args) ++ [")"]))).
  assert (P : forall p, In p (map F args) -> free [" "; ","; "("; ")"] p).
  { intros p I. apply in_map_iff in I as [[k' v'] [<- I]]. destruct (A k' v' I) as [K' [_ V']]. unfold F. cbn [fst snd]. apply free_app; [intros c' H; apply K'; cbn in H |- *; tauto|]. apply free_app; [intros c' H J; cbn in H, J; intuition congruence|].
    intros c' H J. cbn in H. destruct H as [<-|[<-|[<-|[<-|[]]]]]; [exact (pr_nospace v' J)|exact (pr_flat_nosplit v' (proj1 V') J)|exact (proj1 (pr_inner_paren v' V') J)|exact (proj2 (pr_inner_paren v' V') J)]. }
  destruct args as [|a0 args]; [contradiction|]. cbn [map] in *. set (x := F a0) in *. set (r := map F args) in *.
  replace (k ++ ["="] ++ pname c ++ ["("] ++ join [","] (x :: r) ++ [")"]) with ((k ++ ["="] ++ pname c ++ ["("]) ++ join [","] (x :: r) ++ [")"]) by (repeat (rewrite <- app_assoc || cbn [app]); reflexivity).
  set (a := k ++ ["="] ++ pname c ++ ["("]).
  assert (FA : free [" "; ","; ")"] a).
  { unfold a. apply free_app; [intros c' H; apply K; cbn in H |- *; tauto|]. apply free_app; [intros c' H J; cbn in H, J; intuition congruence|]. apply free_app; [|intros c' H J; cbn in H, J; intuition congruence]. intros c' H; apply (proj1 N); cbn in H |- *; tauto. }
  assert (OA : In "(" a) by (unfold a; apply in_or_app; right; apply in_or_app; right; apply in_or_app; right; left; reflexivity).
  rewrite split_wrapped; [|apply FA; cbn; tauto|cbn; intuition congruence|intros p I; apply (P p I); cbn; tauto].
  assert (R : r = [] \/ r <> []) by (destruct r; [left; reflexivity|right; discriminate]). destruct R as [R|R].
  - rewrite R. split.
    + intros p [<-|[]] I. apply in_app_or in I as [I|I]; [revert I; apply FA; cbn; tauto|]. apply in_app_or in I as [I|I]; [revert I; apply (P x (or_introl eq_refl)); cbn; tauto|cbn in I; intuition congruence].
    + left. eexists. split; [reflexivity|]. intros _. apply in_or_app. right. apply in_or_app. right. left. reflexivity.
  - assert (M : forall p, In p (removelast r ++ [last r []]) -> In p r) by (intros p; rewrite <- (app_removelast_last [] R); auto).
    assert (G : group_ok ((a ++ x) :: removelast r ++ [last r [] ++ [")"]])).
    { split.
      - intros p [<-|I] J; [apply in_app_or in J as [J|J]; revert J; [apply FA; cbn; tauto|apply (P x (or_introl eq_refl)); cbn; tauto]|].
        apply in_app_or in I as [I|[<-|[]]]; [revert J; apply (P p); [right; apply M, in_or_app; left; exact I|cbn; tauto]|].
        apply in_app_or in J as [J|J]; [revert J; apply (P (last r [])); [right; apply M, in_or_app; right; left; reflexivity|cbn; tauto]|cbn in J; intuition congruence].
      - right. exists (a ++ x), (removelast r), (last r [] ++ [")"]). split; [reflexivity|]. split; [apply in_or_app; left; exact OA|]. split; [|split; [|split]].
        + intro J. apply in_app_or in J as [J|J]; revert J; [apply FA; cbn; tauto|apply (P x (or_introl eq_refl)); cbn; tauto].
        + intros m I. assert (I' : In m (x :: r)) by (right; apply M, in_or_app; left; exact I). split; apply (P m I'); cbn; tauto.
        + apply in_or_app. right. left. reflexivity.
        + intro J. apply in_app_or in J as [J|J]; [revert J; apply (P (last r [])); [right; apply M, in_or_app; right; left; reflexivity|cbn; tauto]|cbn in J; intuition congruence]. }
    destruct r as [|y r']; [contradiction|]. exact G.
Qed.
Lemma group_val : forall k v, key_ok k -> val_ok v -> group_ok (split "," (k ++ ["="] ++ pr v)).
Proof using Type. intros k v K [H|[c [args [-> [N A]]]]]; [apply group_flat; assumption|apply group_nested; assumption]. Qed.

Lemma unquoted_single : forall s, ~ In quote s -> unquoted (single_quoted s) = [].
Proof using Type.
  clear. intros s H. unfold unquoted, single_quoted. cbn [app after]. rewrite Ascii.eqb_refl. rewrite (proj2 (has_in _ _)) by (apply in_or_app; right; left; reflexivity).
  cbn [before]. rewrite Ascii.eqb_refl. cbn [rev]. rewrite rev_app_distr. cbn [rev app before]. rewrite Ascii.eqb_refl. reflexivity.
Qed.
Lemma parse_flat : forall rd v, flat_ok v -> parse rd (pr v) = Some (smap (remove_char " ") v).
Proof using Type.
  clear. intros rd [|s|t|c a] H; cbn [flat_ok] in H.
  - reflexivity.
  - assert (E : pr (PStr s) = single_quoted (remove_char " " s)) by (unfold pr; cbn [PriorText_Model.print]; unfold single_quoted; rewrite !rem_app; reflexivity).
    assert (Q : ~ In quote (remove_char " " s)) by (rewrite rem_in; intros [I _]; revert I; apply (proj1 H); cbn; tauto).
    rewrite E. unfold PriorText_Model.parse. rewrite unquoted_single by exact Q.
    rewrite teq_false by (unfold single_quoted; cbn; discriminate). change (teq [] (T "r") || teq [] (T "u")) with false. cbn iota.
    assert (SE : starts quote (single_quoted (remove_char " " s)) && ends quote (single_quoted (remove_char " " s)) = true).
    { unfold single_quoted at 1. cbn [app starts]. rewrite Ascii.eqb_refl. cbn [andb]. unfold single_quoted. rewrite app_assoc. apply ends_last. }
    rewrite SE. unfold single_quoted. rewrite strip_quoted by exact Q. reflexivity.
  - destruct H as [F [E [N1 [N2 N3]]]]. assert (P : pr (PLit t) = t) by (unfold pr; cbn [PriorText_Model.print]; apply rem_id, F; cbn; tauto). rewrite P. unfold PriorText_Model.parse.
    assert (Q : ~ In quote t) by (apply F; cbn; tauto).
    rewrite unquoted_free by exact Q. rewrite !teq_false by assumption. cbn [orb].
    assert (S : starts quote t = false). { destruct t as [|x t]; [reflexivity|]. cbn [starts]. apply eqb_ne. intro X. apply Q. left. symmetry. exact X. }
    rewrite S. cbn [andb]. rewrite (proj2 (has_not "(" t)) by (apply F; cbn; tauto). cbn [andb]. rewrite E. reflexivity.
  - destruct H.
Qed.
Lemma parse_nested : forall rd c args, name_ok c -> (forall k v, In (k, v) args -> key_ok k) ->
  parse rd (pr (PPrior c args)) = rd c (remove_char " " (body single_quoted args)).
Proof using Type.
  clear. intros rd c args N K. rewrite pr_nested by assumption. rewrite rem_body by exact K. rewrite map_map. cbn [fst snd].
  set (B := join [","] (map (fun kv : text * pval => fst kv ++ ["="] ++ pr (snd kv)) args)). destruct N as [F L].
  set (V := pname c ++ ["("] ++ B ++ [")"]). change (parse rd V = rd c B).
  assert (O : In "(" V) by (apply in_or_app; right; left; reflexivity).
  assert (U : In "(" (unquoted V)).
  { unfold unquoted. destruct (has quote (after quote V)); [|exact O]. apply in_or_app. left. unfold V. rewrite app_assoc. apply before_in; [apply in_or_app; right; left; reflexivity|].
    intro I. apply in_app_or in I as [I|I]; [revert I; apply F; cbn; tauto|destruct I as [I|[]]; discriminate I]. }
  unfold PriorText_Model.parse.
  rewrite (teq_false V) by (intro X; rewrite X in O; cbn in O; intuition congruence).
  rewrite !(teq_false (unquoted V)) by (intro X; rewrite X in U; cbn in U; intuition congruence). cbn [orb].
  assert (S : forall q, In q [quote; "["; "{"] -> starts q V = false).
  { intros q I. unfold V. destruct (pname c) as [|x n] eqn:E; [cbn in I; destruct I as [<-|[<-|[<-|[]]]]; reflexivity|]. cbn [app starts]. apply eqb_ne. intros ->. apply (F x); [cbn in I |- *; tauto|left; reflexivity]. }
  rewrite !S by (cbn; tauto). cbn [andb orb negb]. rewrite (proj2 (has_in _ _) O). cbn [andb].
  unfold V. cbn [app]. rewrite before_app, after_app by (apply F; cbn; tauto). rewrite L, chop_last. reflexivity.
Qed.
Lemma all_ok_map : forall {A B} (f : A -> option B) (g : A -> B) l, (forall x, In x l -> f x = Some (g x)) -> all_ok (map f l) = Some (map g l).
Proof using Type.
  clear. induction l as [|x l IH]; intro H; [reflexivity|]. cbn. rewrite (H x (or_introl eq_refl)), IH by (intros y Y; apply H; right; exact Y). reflexivity.
Qed.
Lemma in_sig : forall k c, In k (sig c) -> existsb (teq k) (sig c) = true.
Proof using Type. clear. intros k c I. apply existsb_exists. exists k. split; [exact I|apply teq_refl]. Qed.
(** reading the arguments, given that each one is read *)
Lemma read_args : forall n c args s, remove_char " " s = remove_char " " (body single_quoted args) -> args_ok val_ok c args ->
  (forall k v, In (k, v) args -> parse (read n) (pr v) = Some (smap (remove_char " ") v)) ->
  read (S n) c s = Some (smap (remove_char " ") (PPrior c args)).
Proof using Type.
  clear. intros n c args s E [NE [ND A]] P. cbn [PriorText_Model.read]. rewrite E. rewrite rem_body by (intros k v I; apply (A k v I)).
  rewrite split_repr_spec.
  - rewrite map_map. cbn [fst snd]. rewrite (all_ok_map _ (fun kv => match kv with (k, w) => (k, smap (remove_char " ") w) end)); [reflexivity|].
    intros [k v] I. cbn [fst snd]. destruct (A k v I) as [_ [S _]]. rewrite in_sig by exact S. rewrite (P k v I). reflexivity.
  - destruct args; [contradiction|discriminate].
  - intros k t I. apply in_map_iff in I as [[k' v] [X I]]. injection X as -> <-. destruct (A k v I) as [K [_ V]]. cbn [snd]. split; [apply K; cbn; tauto|]. apply group_val; assumption.
  - rewrite map_map. cbn [fst]. exact ND.
Qed.
Lemma inner_val : forall c args, args_ok inner_ok c args -> args_ok val_ok c args.
Proof using Type. clear. intros c args [NE [ND A]]. split; [exact NE|split; [exact ND|]]. intros k v I. destruct (A k v I) as [K [S V]]. split; [exact K|split; [exact S|left; exact (proj1 V)]]. Qed.
Lemma read_plain : forall n c args s, remove_char " " s = remove_char " " (body single_quoted args) -> args_ok val_ok c args ->
  read (S (S n)) c s = Some (smap (remove_char " ") (PPrior c args)).
Proof using Type.
  intros n c args s E A. apply read_args; [exact E|exact A|]. intros k v I. destruct (proj2 (proj2 A) k v I) as [_ [_ [F|[c' [args' [-> [N A']]]]]]]; [apply parse_flat; exact F|].
  rewrite parse_nested by (exact N || (intros k' v' I'; apply (proj2 (proj2 A') k' v' I'))). apply read_args; [apply rem_rem|apply inner_val; exact A'|].
  intros k' v' I'. apply parse_flat. apply (proj2 (proj2 A') k' v' I').
Qed.
Lemma body_length : forall q c P args, args_ok P c args -> (1 <= length (body q args))%nat.
Proof using Type.
  clear. intros q c P [|[k v] args] [NE _]; [contradiction|]. unfold PriorText_Model.body. destruct args as [|[k2 v2] args]; cbn [map join]; rewrite !app_length; cbn [length]; lia.
Qed.
Lemma from_repr_plain : forall c args, args_ok val_ok c args -> from_repr c (body single_quoted args) = Some (smap (remove_char " ") (PPrior c args)).
Proof using Type.
  intros c args A. unfold PriorText_Model.from_repr. pose proof (body_length single_quoted c _ args A) as L. destruct (length (body single_quoted args)) as [|m] eqn:E; [lia|]. apply read_plain; [reflexivity|exact A].
Qed.
(** ** Printing *)
Notation repr := (repr cls pname).
Lemma repr_quote : forall v, (forall s, In s (strs v) -> ~ In quote s) -> print repr_str v = print single_quoted (smap esc v).
Proof using Type.
  clear. induction v as [|s|t|c args IH] using pval_induction; intro H; cbn [PriorText_Model.print smap]; try reflexivity.
  - unfold repr_str. rewrite (proj2 (has_not _ _) (H s (or_introl eq_refl))). reflexivity.
  - rewrite map_map. do 3 f_equal. f_equal. apply map_ext_in. intros [k v] I. rewrite (IH k v I); [reflexivity|]. intros s J. apply H, in_strs. exists k, v. split; assumption.
Qed.
Lemma flat_strs : forall v, flat_ok v -> forall s, In s (strs v) -> ~ In quote s.
Proof using Type. clear. intros [|s|t|c a] H s' I; cbn in I; [destruct I|destruct I as [<-|[]]; apply H; cbn; tauto|destruct I|destruct H]. Qed.
Lemma val_strs : forall v, val_ok v -> forall s, In s (strs v) -> ~ In quote s.
Proof using Type.
  clear. intros v [F|[c [args [-> [_ A]]]]] s I; [exact (flat_strs v F s I)|]. apply in_strs in I as [k [w [I J]]]. apply (flat_strs w); [apply (proj2 (proj2 A) k w I)|exact J].
Qed.
Lemma esc_free : forall bad s, (forall c, In c bad -> c <> backslash /\ c <> "n" /\ c <> "t" /\ c <> "r") -> free bad s -> free bad (esc s).
Proof using Type. clear. intros bad s B F c I J. destruct (B c I) as [B1 [B2 [B3 B4]]]. apply in_esc in J; try assumption. exact (F c I J). Qed.
Lemma flat_esc : forall v, flat_ok v -> flat_ok (smap esc v).
Proof using Type.
  clear. intros [|s|t|c a] H; cbn [smap flat_ok] in *; auto. destruct H as [F P]. split.
  - apply esc_free; [|exact F]. intros c I. cbn in I. destruct I as [<-|[<-|[]]]; repeat split; discriminate.
  - intro I. apply in_esc in I; try discriminate. apply esc_in; try discriminate. apply P, I.
Qed.
Lemma val_esc : forall v, val_ok v -> val_ok (smap esc v).
Proof using Type.
  clear. intros v [F|[c [args [-> [N [NE [ND A]]]]]]]; [left; apply flat_esc, F|]. right. exists c. eexists. split; [reflexivity|]. split; [exact N|]. split; [destruct args; [contradiction|discriminate]|]. split.
  - rewrite map_map. rewrite (map_ext _ fst) by (intros [k v]; reflexivity). exact ND.
  - intros k v I. apply in_map_iff in I as [[k' v'] [E I]]. injection E as -> <-. destruct (A k v' I) as [K [S [V1 V2]]]. split; [exact K|split; [exact S|]]. split; [apply flat_esc, V1|].
    intros s E. destruct v'; cbn in E; try discriminate. injection E as <-. apply esc_free; [|apply V2; reflexivity]. intros c' J. cbn in J. destruct J as [<-|[<-|[]]]; repeat split; discriminate.
Qed.
Lemma args_esc : forall c args, args_ok val_ok c args -> args_ok val_ok c (map (fun kv => match kv with (k, w) => (k, smap esc w) end) args).
Proof using Type.
  clear. intros c args [NE [ND A]]. split; [destruct args; [contradiction|discriminate]|]. split.
  - rewrite map_map. rewrite (map_ext _ fst) by (intros [k v]; reflexivity). exact ND.
  - intros k v I. apply in_map_iff in I as [[k' v'] [E I]]. injection E as -> <-. destruct (A k v' I) as [K [S V]]. split; [exact K|split; [exact S|apply val_esc, V]].
Qed.

(** ** C144: printing a prior and reading it *)
(** what is read from the printed arguments of a prior: the same prior with the strings escaped and without their spaces *)
Theorem C144_read_printed : forall c args, args_ok val_ok c args ->
  from_repr c (body repr_str args) = Some (smap (fun s => remove_char " " (esc s)) (PPrior c args)).
Proof using Type.
  intros c args A. rewrite <- (smap_smap (remove_char " ") esc). etransitivity; [|exact (from_repr_plain c _ (args_esc c args A))]. f_equal.
  unfold PriorText_Model.body. rewrite map_map. f_equal. apply map_ext_in. intros [k v] I. rewrite repr_quote; [reflexivity|]. apply val_strs. apply (proj2 (proj2 A) k v I).
Qed.
(** the prior itself exactly if no string has a space, a backslash or a line end *)
Theorem C144_same_prior_iff : forall c args, args_ok val_ok c args ->
  (from_repr c (body repr_str args) = Some (PPrior c args) <-> forall s, In s (strs (PPrior c args)) -> survives s).
Proof using Type.
  intros c args A. rewrite C144_read_printed by exact A. split.
  - intros E s I. apply survives_iff. assert (E' : smap (fun s => remove_char " " (esc s)) (PPrior c args) = PPrior c args) by congruence. exact (proj1 (smap_id _ _) E' s I).
  - intro H. f_equal. apply smap_id. intros s I. apply survives_iff, H, I.
Qed.
(** printing is injective on what can be read back unchanged *)
Theorem C144_print_injective : forall c args args', args_ok val_ok c args -> args_ok val_ok c args' ->
  (forall s, In s (strs (PPrior c args)) -> survives s) -> (forall s, In s (strs (PPrior c args')) -> survives s) ->
  body repr_str args = body repr_str args' -> args = args'.
Proof using Type.
  intros c args args' A A' S S' E. apply (C144_same_prior_iff c args A) in S. apply (C144_same_prior_iff c args' A') in S'. rewrite E in S. rewrite S in S'. injection S' as X. exact X.
Qed.
(** a string with an apostrophe is printed in double quotes and left to python's eval, so that, unlike other strings, it keeps its backslashes *)
Theorem C144_apostrophe : forall rd s, (forall t, ~ In dquote t -> evalp ([dquote] ++ t ++ [dquote]) = Some (PStr (decode t))) ->
  In quote s -> ~ In dquote s -> ~ In "(" s -> ~ In " " s ->
  repr (PStr s) = [dquote] ++ esc s ++ [dquote] /\ parse rd (remove_char " " (repr (PStr s))) = Some (PStr s).
Proof using Type.
  clear. intros rd s EV Q D P W. assert (R : repr (PStr s) = [dquote] ++ esc s ++ [dquote]).
  { unfold PriorText_Model.repr. cbn [PriorText_Model.print]. unfold repr_str. rewrite (proj2 (has_in _ _) Q), (proj2 (has_not _ _) D). reflexivity. }
  split; [exact R|]. rewrite R.
  assert (D' : ~ In dquote (esc s)) by (intro I; apply in_esc in I; try discriminate; contradiction).
  assert (P' : ~ In "(" (esc s)) by (intro I; apply in_esc in I; try discriminate; contradiction).
  assert (W' : ~ In " " (esc s)) by (intro I; apply in_esc in I; try discriminate; contradiction).
  rewrite rem_id by (intro I; apply in_app_or in I; destruct I as [[I|[]]|I]; [discriminate|]; apply in_app_or in I; destruct I as [I|[I|[]]]; [contradiction|discriminate]).
  unfold PriorText_Model.parse. rewrite teq_false by (cbn; discriminate).
  assert (U : exists r, unquoted ([dquote] ++ esc s ++ [dquote]) = dquote :: r).
  { unfold unquoted. destruct (has quote (after quote _)); [|eexists; reflexivity]. cbn [app before]. change (Ascii.eqb quote dquote) with false. cbn iota. eexists. reflexivity. }
  destruct U as [r ->]. rewrite !teq_false by (cbn; discriminate). cbn [orb].
  change (starts quote ([dquote] ++ esc s ++ [dquote])) with false. cbn [andb].
  rewrite (proj2 (has_not "(" _)) by (intro I; apply in_app_or in I; destruct I as [[I|[]]|I]; [discriminate|]; apply in_app_or in I; destruct I as [I|[I|[]]]; [contradiction|discriminate]).
  cbn [andb]. rewrite EV by exact D'. do 2 f_equal. pose proof (dec_esc s) as X. unfold dec in X. specialize (X []). rewrite !app_nil_r in X. exact X.
Qed.
(** arguments without a name are given the names of the constructor's arguments in order, then come those with a name *)
Lemma positional_kwargs : forall l1 l2 (names : list text) ii acc pre, (forall p, In p l1 -> ~ In "=" p) -> length l1 <= length names -> length pre = ii ->
  (forall k v, In (k, v) l2 -> ~ In "=" k) -> NoDup (map fst acc ++ firstn (length l1) names ++ map fst l2) ->
  to_kwargs (pre ++ names) ii (l1 ++ map (fun kv => fst kv ++ ["="] ++ snd kv) l2) acc = Some (acc ++ combine names l1 ++ l2).
Proof using Type.
  clear. induction l1 as [|p l1 IH]; intros l2 names ii acc pre P L E K ND.
  - cbn [app]. rewrite to_kwargs_spec; [destruct names; reflexivity|exact K|exact ND].
  - destruct names as [|n names]; [cbn in L; lia|]. cbn [app to_kwargs]. rewrite (proj2 (has_not "=" p)) by (apply P; left; reflexivity).
    assert (NE : nth_error (pre ++ n :: names) ii = Some n) by (rewrite nth_error_app2 by lia; rewrite E, Nat.sub_diag; reflexivity). rewrite NE.
    cbn [length firstn app] in ND. rewrite tset_new by (intro I; apply (NoDup_remove_2 _ _ _ ND); apply in_or_app; left; exact I).
    replace (pre ++ n :: names) with ((pre ++ [n]) ++ names) by (rewrite <- app_assoc; reflexivity).
    rewrite IH; [cbn [combine]; rewrite <- app_assoc; reflexivity|intros q Q; apply P; right; exact Q|cbn in L; lia|rewrite app_length; cbn; lia|exact K|].
    rewrite map_app. cbn [map fst]. rewrite <- app_assoc. exact ND.
Qed.
Theorem C144_positional : forall (names l1 : list text) l2, l1 ++ map (fun kv => fst kv ++ ["="] ++ snd kv) l2 <> [] -> length l1 <= length names ->
  (forall p, In p l1 -> ~ In "=" p) -> (forall k v, In (k, v) l2 -> ~ In "=" k) -> NoDup (firstn (length l1) names ++ map fst l2) ->
  (forall p, In p (l1 ++ map (fun kv => fst kv ++ ["="] ++ snd kv) l2) -> ~ In "," p /\ ~ In "(" p) ->
  split_repr names (join [","] (l1 ++ map (fun kv => fst kv ++ ["="] ++ snd kv) l2)) = Some (combine names l1 ++ l2).
Proof using Type.
  clear. intros names l1 l2 N L P K ND C. unfold split_repr. rewrite split_join_free; [|exact N|intros p I; apply (C p I)].
  rewrite <- (app_nil_r (l1 ++ _)) at 1. rewrite merge_plain by (intros p I; apply (C p I)). cbn [merge]. unfold delete_all. cbn [rev fold_left]. rewrite app_nil_r.
  exact (positional_kwargs l1 l2 names 0 [] [] P L eq_refl K ND).
Qed.
(** the letter before a raw or unicode string is not part of it *)
Theorem C144_raw : forall rd x s, x = "r" \/ x = "u" -> ~ In quote s -> parse rd ([x; quote] ++ s ++ [quote]) = Some (PStr s).
Proof using Type.
  clear. intros rd x s X Q. unfold PriorText_Model.parse. rewrite teq_false by (destruct X; subst x; cbn; discriminate).
  assert (U : unquoted ([x; quote] ++ s ++ [quote]) = [x]).
  { unfold unquoted. assert (A : after quote ([x; quote] ++ s ++ [quote]) = s ++ [quote]).
    { cbn [app after]. rewrite eqb_ne by (destruct X; subst x; discriminate). rewrite Ascii.eqb_refl. reflexivity. }
    rewrite A. rewrite (proj2 (has_in quote (s ++ [quote]))) by (apply in_or_app; right; left; reflexivity). cbn [app before]. rewrite eqb_ne by (destruct X; subst x; discriminate).
    rewrite Ascii.eqb_refl. assert (B : rev (x :: quote :: s ++ [quote]) = quote :: rev s ++ [quote; x]) by (cbn [rev]; rewrite rev_app_distr; cbn [rev app]; rewrite <- !app_assoc; reflexivity).
    rewrite B. cbn [before]. rewrite Ascii.eqb_refl. reflexivity. }
  rewrite U. assert (V : teq [x] (T "r") || teq [x] (T "u") = true) by (destruct X; subst x; reflexivity). rewrite V. cbn [app tl]. rewrite chop_last. reflexivity.
Qed.
(** a list or dictionary is left to python's eval, also if a parenthesis occurs in it *)
Theorem C144_bracket : forall rd x s, x = "[" \/ x = "{" -> parse rd (x :: s) = evalp (x :: s).
Proof using Type.
  clear. intros rd x s X. unfold PriorText_Model.parse. rewrite teq_false by (destruct X; subst x; cbn; discriminate).
  assert (U : exists r, unquoted (x :: s) = x :: r).
  { unfold unquoted. destruct (has quote (after quote _)); [|eexists; reflexivity]. cbn [app before]. rewrite eqb_ne by (destruct X; subst x; discriminate). eexists. reflexivity. }
  destruct U as [r ->]. rewrite !teq_false by (destruct X; subst x; cbn; discriminate). cbn [orb].
  assert (Y : starts quote (x :: s) = false) by (cbn [starts]; apply eqb_ne; destruct X; subst x; discriminate). rewrite Y. cbn [andb].
  assert (Z : starts "[" (x :: s) || starts "{" (x :: s) = true) by (destruct X; subst x; reflexivity). rewrite Z. rewrite andb_false_r. reflexivity.
Qed.
(** ** C145: writing a prior file and reading it *)
(** class names, argument names and literals of a prior *)
Fixpoint words (v : pval) : list text :=
  match v with PNone => [] | PStr _ => [] | PLit t => [t] | PPrior c args => pname c :: flat_map (fun kv => match kv with (k, w) => k :: words w end) args end.
Lemma in_words : forall c args t, In t (words (PPrior c args)) <-> t = pname c \/ exists k v, In (k, v) args /\ (t = k \/ In t (words v)).
Proof using Type.
  clear. intros c args t. cbn [words In]. rewrite in_flat_map. split.
  - intros [H|[[k v] [I J]]]; [left; congruence|]. right. exists k, v. split; [exact I|]. destruct J as [J|J]; [left; congruence|right; exact J].
  - intros [->|[k [v [I J]]]]; [left; reflexivity|]. right. exists (k, v). split; [exact I|]. destruct J as [->|J]; [left; reflexivity|right; exact J].
Qed.
Lemma dec_repr : forall v, (forall s, In s (strs v) -> ~ In quote s) -> (forall t, In t (words v) -> ~ In backslash t) -> dec (repr v) (print single_quoted v).
Proof using Type.
  clear. unfold PriorText_Model.repr. induction v as [|s|t|c args IH] using pval_induction; intros HS HW; cbn [PriorText_Model.print].
  - apply dec_plain. cbn. intuition discriminate.
  - unfold repr_str. rewrite (proj2 (has_not _ _) (HS s (or_introl eq_refl))). unfold single_quoted. apply dec_app; [apply dec_plain; cbn; intuition discriminate|]. apply dec_app; [apply dec_esc|apply dec_plain; cbn; intuition discriminate].
  - apply dec_plain. apply HW. left. reflexivity.
  - apply dec_app; [apply dec_plain, HW, in_words; left; reflexivity|]. apply dec_app; [apply dec_plain; cbn; intuition discriminate|]. apply dec_app; [|apply dec_plain; cbn; intuition discriminate].
    apply dec_join; [apply dec_plain; cbn; intuition discriminate|]. intros [k v] I. apply dec_app; [apply dec_plain, HW, in_words; right; exists k, v; split; [exact I|left; reflexivity]|]. apply dec_app; [apply dec_plain; cbn; intuition discriminate|].
    apply (IH k v I); [intros s J; apply HS, in_strs; exists k, v; split; assumption|intros t J; apply HW, in_words; right; exists k, v; split; [exact I|right; exact J]].
Qed.
Lemma free_join : forall bad sep l, free bad sep -> (forall p, In p l -> free bad p) -> free bad (join sep l).
Proof using Type.
  clear. intros bad sep l S. induction l as [|x l IH]; intro H; [intros c _ []|]. destruct l as [|y l]; [apply H; left; reflexivity|].
  change (free bad (x ++ sep ++ join sep (y :: l))). apply free_app; [apply H; left; reflexivity|]. apply free_app; [exact S|]. apply IH. intros p P. apply H. right. exact P.
Qed.
Lemma free_print : forall v, (forall t, In t (strs v ++ words v) -> ~ In newline t) -> free [newline] (print single_quoted v).
Proof using Type.
  clear. induction v as [|s|t|c args IH] using pval_induction; intros H; cbn [PriorText_Model.print].
  - intros c I J. cbn in I, J. destruct I as [<-|[]]. intuition discriminate.
  - apply free_app; [intros c [<-|[]] J; destruct J as [J|[]]; discriminate|]. apply free_app; [intros c [<-|[]]; apply H; left; reflexivity|intros c [<-|[]] J; destruct J as [J|[]]; discriminate].
  - intros c [<-|[]]. apply H. left. reflexivity.
  - apply free_app; [intros x [<-|[]]; apply H, in_or_app; right; left; reflexivity|]. apply free_app; [intros x [<-|[]] J; destruct J as [J|[]]; discriminate|]. apply free_app; [|intros x [<-|[]] J; destruct J as [J|[]]; discriminate].
    apply free_join; [intros x [<-|[]] J; cbn in J; intuition discriminate|]. intros p I. apply in_map_iff in I as [[k v] [<- I]].
    assert (X : forall t, t = k \/ In t (strs v ++ words v) -> ~ In newline t).
    { intros t D. apply H. apply in_or_app. destruct D as [->|D]; [right; apply in_words; right; exists k, v; split; [exact I|left; reflexivity]|]. apply in_app_or in D as [D|D]; [left; apply in_strs; exists k, v; split; assumption|right; apply in_words; right; exists k, v; split; [exact I|right; exact D]]. }
    apply free_app; [intros x [<-|[]]; apply X; left; reflexivity|]. apply free_app; [intros x [<-|[]] J; destruct J as [J|[]]; discriminate|]. apply (IH k v I). intros t D. apply X. right. exact D.
Qed.

Variables (is_float : text -> bool) (delta : text -> pval) (read_dist : cls -> text -> option text).
Notation from_file := (from_file cls sig ckind lookup evalp is_float delta read_dist).
Notation write_file := (write_file cls pname).
Notation load_step := (load_step cls sig ckind lookup evalp is_float delta read_dist).
Notation from_dictionary := (from_dictionary cls sig ckind lookup evalp is_float delta read_dist).
(** a key of a prior file *)
Definition file_key (k : text) : Prop :=
  k <> [] /\ free [" "; "="; newline; backslash] k /\ hd " " k <> "#" /\ k <> T "conversion_function" /\ k <> T "condition_func".
(** a prior that a file can carry: readable text, and no line ends or stray backslashes outside the strings *)
Definition file_prior (p : pval) : Prop := exists c args, p = PPrior c args /\ ckind c = Plain /\ is_float (pname c) = false /\ name_ok c /\
  args_ok val_ok c args /\ blank (hd "(" (pname c)) = false /\
  (forall t, In t (words p) -> free [newline; backslash] t) /\ (forall s, In s (strs p) -> ~ In newline s).

Lemma file_strs : forall p, file_prior p -> forall s, In s (strs p) -> ~ In quote s.
Proof using Type. clear. intros p [c [args [-> [_ [_ [_ [A _]]]]]]] s I. apply in_strs in I as [k [v [I J]]]. apply (val_strs v); [apply (proj2 (proj2 A) k v I)|exact J]. Qed.
Definition file_line (kp : text * pval) : text := fst kp ++ T " = " ++ print single_quoted (snd kp).
Lemma decode_file : forall d, (forall k p, In (k, p) d -> file_key k /\ file_prior p) -> decode (write_file d) = flat_map (fun l => l ++ [newline]) (map file_line d).
Proof using Type.
  clear. intros d. induction d as [|[k p] d IH]; intro H; [reflexivity|]. unfold PriorText_Model.write_file in *. cbn [flat_map map]. destruct (H k p (or_introl eq_refl)) as [K P].
  assert (D : dec (PriorText_Model.write_line cls pname (k, p)) (file_line (k, p) ++ [newline])).
  { unfold PriorText_Model.write_line, file_line. cbn [fst snd]. rewrite <- !app_assoc. apply dec_app; [apply dec_plain, K; cbn; tauto|]. apply dec_app; [apply dec_plain; cbn; intuition discriminate|]. apply dec_app; [|apply dec_plain; cbn; intuition discriminate].
    apply dec_repr; [exact (file_strs p P)|]. intros t I. destruct P as [c [args [-> [_ [_ [_ [_ [_ [W _]]]]]]]]]. apply (W t I). cbn. tauto. }
  rewrite (D (flat_map (PriorText_Model.write_line cls pname) d)). rewrite IH; [reflexivity|]. intros k' p' I. apply (H k' p'). right. exact I.
Qed.
Lemma read_lines : forall d acc, (forall k p, In (k, p) d -> file_key k /\ file_prior p) -> NoDup (map fst acc ++ map fst d) ->
  fold_left read_line (map (fun l => l ++ [newline]) (map file_line d)) acc = acc ++ map (fun kp => (fst kp, print single_quoted (snd kp))) d.
Proof using Type.
  clear. induction d as [|[k p] d IH]; intros acc H ND; cbn [map fold_left]; [rewrite app_nil_r; reflexivity|].
  destruct (H k p (or_introl eq_refl)) as [[KN [KF [KH _]]] P].
  assert (E : read_line acc (file_line (k, p) ++ [newline]) = acc ++ [(k, print single_quoted p)]).
  { unfold file_line. cbn [fst snd]. unfold read_line.
    assert (S : starts "#" ((k ++ T " = " ++ print single_quoted p) ++ [newline]) || starts newline ((k ++ T " = " ++ print single_quoted p) ++ [newline]) = false).
    { destruct k as [|x k]; [contradiction|]. cbn [app starts]. cbn [hd] in KH. rewrite !eqb_ne; [reflexivity| |congruence]. intros <-. apply (KF newline); [cbn; tauto|left; reflexivity]. }
    rewrite S. replace ((k ++ T " = " ++ print single_quoted p) ++ [newline]) with ((k ++ [" "]) ++ "=" :: " " :: print single_quoted p ++ [newline]) by (repeat (rewrite <- app_assoc || cbn [app]); reflexivity).
    assert (NE : ~ In "=" (k ++ [" "])). { intro I. apply in_app_or in I as [I|[I|[]]]; [revert I; apply KF; cbn; tauto|discriminate]. }
    rewrite before_app, after_app by exact NE. rewrite rem_app, (rem_id " " k) by (apply KF; cbn; tauto). change (remove_char " " [" "]) with (@nil ascii). rewrite app_nil_r.
    assert (SL : strip_line (" " :: print single_quoted p ++ [newline]) = print single_quoted p).
    { destruct P as [c [args [-> [_ [_ [_ [_ [B _]]]]]]]]. cbn [PriorText_Model.print]. set (J := join _ _). destruct (pname c) as [|x n].
      - change ([] ++ ["("] ++ J ++ [")"]) with ("(" :: J ++ [")"]). apply strip_line_spec; reflexivity.
      - replace ((x :: n) ++ ["("] ++ J ++ [")"]) with (x :: (n ++ ["("] ++ J) ++ [")"]) by (repeat (rewrite <- app_assoc || cbn [app]); reflexivity). apply strip_line_spec; [exact B|reflexivity]. }
    rewrite SL. apply tset_new. cbn [map fst] in ND. apply NoDup_remove_2 in ND. intro I. apply ND, in_or_app. left. exact I. }
  rewrite E. rewrite IH; [rewrite <- app_assoc; reflexivity|intros k' p' I; apply (H k' p'); right; exact I|].
  rewrite map_app. cbn [map fst] in *. rewrite <- app_assoc. exact ND.
Qed.
Lemma load_one : forall st k p, file_key k -> file_prior p ->
  load_step (Some st) (k, RText cls (print single_quoted p)) = Some {| dists := dists cls st; func := func cls st; out := out cls st ++ [(k, EPrior cls (smap (remove_char " ") p))] |}.
Proof using Type.
  clear. intros st k p [_ [_ [_ [K1 K2]]]] [c [args [-> [CK [IF [[NF L] [A _]]]]]]]. unfold PriorText_Model.load_step.
  assert (N : ~ In "(" (pname c)) by (apply NF; cbn; tauto).
  assert (B : before "(" (print single_quoted (PPrior c args)) = pname c) by (cbn [PriorText_Model.print app]; apply before_app, N).
  assert (R : chop (after "(" (print single_quoted (PPrior c args))) = body single_quoted args) by (cbn [PriorText_Model.print app]; rewrite after_app by exact N; apply chop_last).
  rewrite B, R, IF, !teq_false by assumption. cbn [orb]. rewrite L, CK. rewrite from_repr_plain by exact A. reflexivity.
Qed.
(** the file read back: the same keys in the same order, each prior without the spaces of its strings; backslashes and tabs survive *)
Theorem C145_file : forall d, (forall k p, In (k, p) d -> file_key k /\ file_prior p) -> NoDup (map fst d) ->
  from_file (write_file d) = Some {| dists := []; func := None; out := map (fun kp => (fst kp, EPrior cls (smap (remove_char " ") (snd kp)))) d |}.
Proof using Type.
  intros d H ND. unfold PriorText_Model.from_file, read_file. rewrite decode_file by exact H. rewrite lines_all.
  2: { intros l I. apply in_map_iff in I as [[k p] [<- I]]. destruct (H k p I) as [K P]. unfold file_line. cbn [fst snd]. intro J. apply in_app_or in J as [J|J]; [revert J; apply K; cbn; tauto|]. apply in_app_or in J as [J|J]; [cbn in J; intuition discriminate|].
    revert J. apply free_print; [|left; reflexivity]. destruct P as [c [args [-> [_ [_ [_ [_ [_ [W S]]]]]]]]]. intros t D. apply in_app_or in D as [D|D]; [exact (S t D)|]. apply (W t D). left. reflexivity. }
  rewrite read_lines; [|exact H|exact ND]. cbn [app]. rewrite map_map. cbn [fst snd]. unfold PriorText_Model.from_dictionary.
  assert (G : forall d st, (forall k p, In (k, p) d -> file_key k /\ file_prior p) ->
    fold_left load_step (map (fun kp => (fst kp, RText cls (print single_quoted (snd kp)))) d) (Some st)
    = Some {| dists := dists cls st; func := func cls st; out := out cls st ++ map (fun kp => (fst kp, EPrior cls (smap (remove_char " ") (snd kp)))) d |}).
  { clear. induction d as [|[k p] d IH]; intros st H; cbn [map fold_left]; [rewrite app_nil_r; destruct st; reflexivity|]. cbn [fst snd]. destruct (H k p (or_introl eq_refl)) as [K P]. rewrite load_one by assumption.
    rewrite IH by (intros k' p' I; apply (H k' p'); right; exact I). cbn [dists func out]. rewrite <- app_assoc. reflexivity. }
  exact (G d _ H).
Qed.
(** so a file gives the dictionary back exactly if no string of it has a space *)
Theorem C145_same_dictionary_iff : forall d, (forall k p, In (k, p) d -> file_key k /\ file_prior p) -> NoDup (map fst d) ->
  (option_map (out cls) (from_file (write_file d)) = Some (map (fun kp => (fst kp, EPrior cls (snd kp))) d) <-> forall k p s, In (k, p) d -> In s (strs p) -> ~ In " " s).
Proof using Type.
  intros d H ND. rewrite C145_file by assumption. cbn [option_map out]. split.
  - intros E k p s I J C. apply some_inj' in E. assert (X : smap (remove_char " ") p = p).
    { clear - E I. induction d as [|[k' p'] d IH]; [destruct I|]. cbn [map fst snd] in E. injection E as E1 E2. destruct I as [I|I]; [injection I as <- <-; exact E1|exact (IH E2 I)]. }
    rewrite <- (proj1 (smap_id _ _) X s J) in C. apply rem_in in C as [_ C]. apply C. reflexivity.
  - intro F. f_equal. apply map_ext_in. intros [k p] I. cbn [fst snd]. do 2 f_equal. apply smap_id. intros s J. apply rem_id. exact (F k p s I J).
Qed.
(** ** C146: reading a dictionary *)
(** the distribution a joint prior refers to *)
Lemma run_of_app : forall a b, ~ In " " a -> run_of (a ++ b) = a ++ run_of b.
Proof using Type.
  clear. induction a as [|x a IH]; intros b H; [reflexivity|]. cbn [app run_of]. rewrite eqb_ne by (intros ->; apply H; left; reflexivity). rewrite IH by (intro I; apply H; right; exact I). reflexivity.
Qed.
Lemma after_longer : forall c a b, In c a -> (length b < length (after c (a ++ b)) + 1)%nat /\ exists r, after c (a ++ b) = r ++ b.
Proof using Type.
  clear. induction a as [|x a IH]; intros b I; [destruct I|]. cbn [app after]. destruct (Ascii.eqb c x) eqn:E.
  - split; [rewrite app_length; lia|]. exists a. reflexivity.
  - destruct I as [->|I]; [rewrite Ascii.eqb_refl in E; discriminate|]. apply IH, I.
Qed.
Theorem C146_dist_key : forall nm rest, nm <> [] -> ~ In " " nm ->
  (dist_key (T "dist=" ++ nm ++ [","] ++ rest) = Some nm <-> ~ In "," (run_of rest)).
Proof using Type.
  clear. intros nm rest NE SP. unfold dist_key. change (prefix (T "dist=") (T "dist=" ++ nm ++ [","] ++ rest)) with true. cbn iota.
  change (skipn 5 (T "dist=" ++ nm ++ [","] ++ rest)) with (nm ++ [","] ++ rest). rewrite run_of_app by exact SP. change (run_of ([","] ++ rest)) with ("," :: run_of rest).
  set (R := run_of rest). rewrite rev_app_distr. cbn [rev]. rewrite <- app_assoc. cbn [app]. split.
  - intros E I. assert (I' : In "," (rev R)) by (rewrite <- in_rev; exact I). destruct (after_longer "," (rev R) ("," :: rev nm) I') as [_ [r X]]. rewrite X in E. rewrite rev_app_distr in E. cbn [rev] in E. rewrite rev_involutive in E.
    destruct ((nm ++ [","]) ++ rev r) as [|a t] eqn:Q; [discriminate|]. apply some_inj' in E. assert (L : length ((nm ++ [","]) ++ rev r) = length nm) by (rewrite Q; f_equal; exact E). rewrite !app_length in L. cbn [length] in L. lia.
  - intro N. rewrite after_app by (rewrite <- in_rev; exact N). rewrite rev_involutive. destruct nm; [contradiction|reflexivity].
Qed.
(** without a comma after it the distribution is not found *)
Theorem C146_dist_alone : forall nm, ~ In "," nm -> dist_key (T "dist=" ++ nm) = None.
Proof using Type.
  clear. intros nm N. unfold dist_key. change (prefix (T "dist=") (T "dist=" ++ nm)) with true. cbn iota. change (skipn 5 (T "dist=" ++ nm)) with nm.
  rewrite after_free; [reflexivity|]. rewrite <- in_rev. revert N. induction nm as [|x nm IH]; cbn [run_of]; [tauto|]. destruct (Ascii.eqb x " "); [cbn; tauto|]. intros N [->|I]; [apply N; left; reflexivity|]. apply IH; [intro J; apply N; right; exact J|exact I].
Qed.
(** what an entry of the dictionary is *)
Definition is_text (P : cls -> kind -> Prop) (k : text) (v : raw cls) (args : text) : Prop :=
  exists t c, v = RText cls t /\ is_float (before "(" t) = false /\ k <> T "conversion_function" /\ k <> T "condition_func" /\
    lookup (before "(" t) = Some c /\ P c (ckind c) /\ args = chop (after "(" t).
(** [d] is given by a distribution among the entries [l] *)
Definition defines (l : list (text * raw cls)) (k d : text) : Prop :=
  exists v args c, In (k, v) l /\ is_text (fun c' kd => c' = c /\ kd = Dist) k v args /\ read_dist c args = Some d.
Lemma step_dists : forall st k v st', load_step (Some st) (k, v) = Some st' ->
  dists cls st' = dists cls st \/ exists d, tget (dists cls st) k = None /\ dists cls st' = dists cls st ++ [(k, d)] /\ defines [(k, v)] k d.
Proof using Type.
  clear. intros st k v st' E. unfold PriorText_Model.load_step in E. destruct v as [e|t|t]; try (apply some_inj' in E; subst st'; left; reflexivity).
  destruct (is_float (before "(" t)) eqn:F; [apply some_inj' in E; subst st'; left; reflexivity|].
  destruct (teq k (T "conversion_function") || teq k (T "condition_func")) eqn:S; [apply some_inj' in E; subst st'; left; reflexivity|].
  destruct (lookup (before "(" t)) as [c|] eqn:L; [|destruct (has "(" t); [discriminate|apply some_inj' in E; subst st'; left; reflexivity]].
  destruct (ckind c) eqn:K.
  - destruct (from_repr c (chop (after "(" t))); [|discriminate]. apply some_inj' in E; subst st'; left; reflexivity.
  - destruct (tget (dists cls st) k) eqn:G; [apply some_inj' in E; subst st'; left; reflexivity|].
    destruct (read_dist c (chop (after "(" t))) as [d|] eqn:R; [|discriminate]. apply some_inj' in E; subst st'. right. exists d. split; [reflexivity|split; [reflexivity|]].
    exists (RText cls t), (chop (after "(" t)), c. split; [left; reflexivity|]. split; [|exact R]. exists t, c. apply orb_false_iff in S as [S1 S2].
    split; [reflexivity|]. split; [exact F|]. split; [intros ->; rewrite teq_refl in S1; discriminate|]. split; [intros ->; rewrite teq_refl in S2; discriminate|]. split; [exact L|]. split; [split; [reflexivity|exact K]|reflexivity].
  - destruct (joint_kwargs cls sig lookup evalp c (chop (after "(" t))); [|discriminate]. destruct (dist_key (chop (after "(" t))) as [dk|]; [|discriminate]. destruct (tget (dists cls st) dk); [|discriminate].
    apply some_inj' in E; subst st'; left; reflexivity.
Qed.
Lemma load_none : forall d, fold_left load_step d None = None.
Proof using Type. clear. induction d as [|kv d IH]; [reflexivity|exact IH]. Qed.
Lemma defines_mono : forall l l' k d, (forall x, In x l -> In x l') -> defines l k d -> defines l' k d.
Proof using Type. clear. intros l l' k d H [v [a [c [I X]]]]. exists v, a, c. split; [exact (H _ I)|exact X]. Qed.
Lemma tget_in : forall {V} (d : list (text * V)) k v, tget d k = Some v -> In (k, v) d.
Proof using Type.
  clear. intros V d k v E. unfold tget in E. destruct (find (fun kv => teq (fst kv) k) d) as [[k' v']|] eqn:F; [|discriminate]. injection E as ->. apply find_some in F as [I X]. cbn in X. apply teq_true in X. subst. exact I.
Qed.
Lemma load_dists : forall d st, from_dictionary d = Some st -> forall k x, In (k, x) (dists cls st) -> defines d k x.
Proof using Type.
  clear. intros d. induction d as [|[k v] d IH] using rev_ind; intros st E k' x I.
  - apply some_inj' in E. subst st. destruct I.
  - unfold PriorText_Model.from_dictionary in *. rewrite fold_left_app in E. cbn [fold_left] in E. destruct (fold_left load_step d _) as [st0|] eqn:E0; [|discriminate].
    destruct (step_dists st0 k v st E) as [Q|[y [_ [Q D]]]]; rewrite Q in I.
    + apply (defines_mono d); [intros z Z; apply in_or_app; left; exact Z|]. exact (IH st0 eq_refl k' x I).
    + apply in_app_or in I as [I|[I|[]]]; [apply (defines_mono d); [intros z Z; apply in_or_app; left; exact Z|]; exact (IH st0 eq_refl k' x I)|].
      injection I as <- <-. apply (defines_mono [(k, v)]); [intros z Z; apply in_or_app; right; exact Z|exact D].
Qed.
Lemma step_out : forall st k v st', load_step (Some st) (k, v) = Some st' ->
  (out cls st' = out cls st /\ exists a, is_text (fun _ kd => kd = Dist) k v a) \/ (exists e, out cls st' = out cls st ++ [(k, e)]) /\ forall a, ~ is_text (fun _ kd => kd = Dist) k v a.
Proof using Type.
  clear. intros st k v st' E. unfold PriorText_Model.load_step in E.
  assert (NT : forall t, (forall c, lookup (before "(" t) = Some c -> ckind c <> Dist) -> forall a, ~ is_text (fun _ kd => kd = Dist) k (RText cls t) a).
  { intros t H a [t' [c [X [_ [_ [_ [L [D _]]]]]]]]. injection X as <-. exact (H c L D). }
  destruct v as [e|t|t]; try (apply some_inj' in E; subst st'; right; split; [eexists; reflexivity|intros a [t' [c [X _]]]; discriminate]).
  destruct (is_float (before "(" t)) eqn:F; [apply some_inj' in E; subst st'; right; split; [eexists; reflexivity|intros a [t' [c [X [F' _]]]]; injection X as <-; congruence]|].
  destruct (teq k (T "conversion_function") || teq k (T "condition_func")) eqn:S.
  { apply some_inj' in E; subst st'. right. split; [eexists; reflexivity|]. intros a [t' [c [_ [_ [K1 [K2 _]]]]]]. rewrite !teq_false in S by assumption. discriminate. }
  destruct (lookup (before "(" t)) as [c|] eqn:L; [|destruct (has "(" t); [discriminate|]; apply some_inj' in E; subst st'; right; split; [eexists; reflexivity|apply NT; congruence]].
  apply orb_false_iff in S as [S1 S2].
  destruct (ckind c) eqn:K.
  - destruct (from_repr c (chop (after "(" t))); [|discriminate]. apply some_inj' in E; subst st'. right. split; [eexists; reflexivity|apply NT; congruence].
  - left. split; [destruct (tget (dists cls st) k); [|destruct (read_dist c (chop (after "(" t))); [|discriminate]]; apply some_inj' in E; subst st'; reflexivity|].
    exists (chop (after "(" t)), t, c. repeat split; auto; intros ->; rewrite teq_refl in *; discriminate.
  - destruct (joint_kwargs cls sig lookup evalp c (chop (after "(" t))); [|discriminate]. destruct (dist_key (chop (after "(" t))) as [dk|]; [|discriminate]. destruct (tget (dists cls st) dk); [|discriminate].
    apply some_inj' in E; subst st'. right. split; [eexists; reflexivity|apply NT; congruence].
Qed.
(** every entry but the distributions appears in the result, under its key and in order, each once *)
Theorem C146_keys : forall d st, from_dictionary d = Some st ->
  exists keep, Forall2 (fun kv (b : bool) => b = true <-> forall a, ~ is_text (fun _ kd => kd = Dist) (fst kv) (snd kv) a) d keep /\
    map fst (out cls st) = map fst (map fst (filter snd (combine d keep))).
Proof using Type.
  clear. intros d. induction d as [|[k v] d IH] using rev_ind; intros st E.
  - apply some_inj' in E. subst st. exists []. split; [constructor|reflexivity].
  - unfold PriorText_Model.from_dictionary in *. rewrite fold_left_app in E. cbn [fold_left] in E. destruct (fold_left load_step d _) as [st0|] eqn:E0; [|discriminate].
    destruct (IH st0 eq_refl) as [keep [F M]].
    assert (CM : forall b, combine (d ++ [(k, v)]) (keep ++ [b]) = combine d keep ++ [((k, v), b)]).
    { intro b. clear - F. induction F as [|x y d keep _ _ IH]; [reflexivity|]. cbn [app combine]. rewrite IH. reflexivity. }
    destruct (step_out st0 k v st E) as [[Q [a T]]|[[e Q] N]].
    + exists (keep ++ [false]). split; [apply Forall2_app; [exact F|constructor; [|constructor]]; cbn [fst snd]; split; [discriminate|intro H; exfalso; exact (H a T)]|].
      rewrite CM, filter_app. cbn [filter snd]. rewrite app_nil_r, Q. exact M.
    + exists (keep ++ [true]). split; [apply Forall2_app; [exact F|constructor; [|constructor]]; cbn [fst snd]; split; [intros _; exact N|reflexivity]|].
      rewrite CM, filter_app. cbn [filter snd]. rewrite Q, !map_app, M. reflexivity.
Qed.
(** a joint prior that is read refers to a distribution that stands earlier in the dictionary, under the key after "dist=" *)
Theorem C146_joint_after_distribution : forall d1 k v args d2 c st, from_dictionary (d1 ++ (k, v) :: d2) = Some st -> is_text (fun c' kd => c' = c /\ kd = Joint) k v args ->
  exists dk x kw, dist_key args = Some dk /\ defines d1 dk x /\ joint_kwargs cls sig lookup evalp c args = Some kw /\ In (k, EJoint cls c x kw) (out cls st).
Proof using Type.
  clear. intros d1 k v args d2 c st E [t [c' [-> [F [K1 [K2 [L [[-> K] ->]]]]]]]]. unfold PriorText_Model.from_dictionary in E. rewrite fold_left_app in E. cbn [fold_left] in E.
  destruct (fold_left load_step d1 _) as [st1|] eqn:E1; [|cbn [PriorText_Model.load_step] in E; rewrite load_none in E; discriminate].
  destruct (load_step (Some st1) (k, RText cls t)) as [st2|] eqn:E2; [|rewrite load_none in E; discriminate].
  assert (X : exists dk x kw, dist_key (chop (after "(" t)) = Some dk /\ tget (dists cls st1) dk = Some x /\ joint_kwargs cls sig lookup evalp c (chop (after "(" t)) = Some kw /\ In (k, EJoint cls c x kw) (out cls st2)).
  { unfold PriorText_Model.load_step in E2. rewrite F, !teq_false in E2 by assumption. cbn [orb] in E2. rewrite L, K in E2.
    destruct (joint_kwargs cls sig lookup evalp c (chop (after "(" t))) as [kw|]; [|discriminate]. destruct (dist_key (chop (after "(" t))) as [dk|]; [|discriminate]. destruct (tget (dists cls st1) dk) as [x|] eqn:G; [|discriminate].
    apply some_inj' in E2; subst st2. exists dk, x, kw. repeat (split; [reflexivity || exact G|]). cbn [out]. apply in_or_app. right. left. reflexivity. }
  destruct X as [dk [x [kw [X1 [X2 [X3 X4]]]]]]. exists dk, x, kw. split; [exact X1|]. split; [|split; [exact X3|]].
  - apply (load_dists d1 st1 E1). apply tget_in, X2.
  - clear - E X4. revert st2 E X4. induction d2 as [|[k' v'] d2 IH]; intros st2 E X4; cbn [fold_left] in E; [apply some_inj' in E; subst; exact X4|].
    destruct (load_step (Some st2) (k', v')) as [st3|] eqn:E3; [|rewrite load_none in E; discriminate]. apply (IH st3 E).
    destruct (step_out st2 k' v' st3 E3) as [[Q _]|[[e Q] _]]; rewrite Q; [exact X4|apply in_or_app; left; exact X4].
Qed.
(** what each of the other entries becomes: priors stay, numbers and texts that are numbers become delta
    functions, texts of a plain class are read by it, other texts without arguments stay *)
Theorem C146_values : forall d1 k v d2 st, from_dictionary (d1 ++ (k, v) :: d2) = Some st ->
  match v with
  | RPrior _ e => In (k, e) (out cls st)
  | RNum _ t => In (k, EPrior cls (delta t)) (out cls st)
  | RText _ t =>
      let name := before "(" t in
      (is_float name = true -> In (k, EPrior cls (delta name)) (out cls st)) /\
      (is_float name = false -> k <> T "conversion_function" -> k <> T "condition_func" ->
        match lookup name with
        | None => ~ In "(" t /\ In (k, ERaw cls t) (out cls st)
        | Some c => ckind c = Plain -> exists p, from_repr c (chop (after "(" t)) = Some p /\ In (k, EPrior cls p) (out cls st)
        end)
  end.
Proof using Type.
  clear. intros d1 k v d2 st E. unfold PriorText_Model.from_dictionary in E. rewrite fold_left_app in E. cbn [fold_left] in E.
  destruct (fold_left load_step d1 _) as [st1|] eqn:E1; [|cbn [PriorText_Model.load_step] in E; rewrite load_none in E; discriminate].
  destruct (load_step (Some st1) (k, v)) as [st2|] eqn:E2; [|rewrite load_none in E; discriminate].
  assert (ON : forall e, In (k, e) (out cls st2) -> In (k, e) (out cls st)).
  { intros e X4. clear - E X4. revert st2 E X4. induction d2 as [|[k' v'] d2 IH]; intros st2 E X4; cbn [fold_left] in E; [apply some_inj' in E; subst; exact X4|].
    destruct (load_step (Some st2) (k', v')) as [st3|] eqn:E3; [|rewrite load_none in E; discriminate]. apply (IH st3 E).
    destruct (step_out st2 k' v' st3 E3) as [[Q _]|[[e' Q] _]]; rewrite Q; [exact X4|apply in_or_app; left; exact X4]. }
  clear E E1. unfold PriorText_Model.load_step in E2. destruct v as [e|t|t].
  - apply ON. apply some_inj' in E2; subst st2. apply in_or_app. right. left. reflexivity.
  - apply ON. apply some_inj' in E2; subst st2. apply in_or_app. right. left. reflexivity.
  - cbv zeta. split.
    + intros F. apply ON. rewrite F in E2. apply some_inj' in E2; subst st2. apply in_or_app. right. left. reflexivity.
    + intros F K1 K2. rewrite F, !teq_false in E2 by assumption. cbn [orb] in E2. destruct (lookup (before "(" t)) as [c|].
      * intros K. rewrite K in E2. destruct (from_repr c (chop (after "(" t))) as [p|]; [|discriminate]. exists p. split; [reflexivity|].
        apply ON. apply some_inj' in E2; subst st2. apply in_or_app. right. left. reflexivity.
      * destruct (has "(" t) eqn:H; [discriminate|]. split.
        -- intros I. unfold has in H. rewrite <- not_true_iff_false in H. apply H. apply existsb_exists. exists "("%char. split; [exact I|apply Ascii.eqb_refl].
        -- apply ON. apply some_inj' in E2; subst st2. apply in_or_app. right. left. reflexivity.
Qed.
(** so the order of the entries matters: a joint prior before its distribution is an error *)
Theorem C146_order : forall d1 k v args d2 c dk, is_text (fun c' kd => c' = c /\ kd = Joint) k v args -> dist_key args = Some dk ->
  ~ In dk (map fst d1) -> from_dictionary (d1 ++ (k, v) :: d2) = None.
Proof using Type.
  intros d1 k v args d2 c dk I D N. destruct (from_dictionary (d1 ++ (k, v) :: d2)) as [st|] eqn:E; [|reflexivity]. exfalso.
  destruct (C146_joint_after_distribution d1 k v args d2 c st E I) as [dk' [x [kw [D' [[v' [a' [c' [J _]]]] _]]]]]. assert (dk' = dk) by congruence. subst dk'. apply N, in_map_iff. exists (dk, v'). split; [reflexivity|exact J].
Qed.
End Text.

(** ** Examples and refutations *)
Inductive demo := Uni | Ali | Gau | GauDist.
Definition demo_sig (c : demo) : list text :=
  match c with
  | Uni => map T ["minimum"; "maximum"; "name"; "latex_label"]%string
  | Ali => map T ["a_prior"; "z_prior"; "name"; "latex_label"]%string
  | Gau => map T ["dist"; "name"; "latex_label"]%string
  | GauDist => map T ["names"]%string
  end.
Definition demo_name (c : demo) : text :=
  T match c with Uni => "bilby.core.prior.analytical.Uniform" | Ali => "bilby.gw.prior.AlignedSpin" | Gau => "MultivariateGaussian" | GauDist => "MultivariateGaussianDist" end%string.
Definition demo_kind (c : demo) : kind := match c with Gau => Joint | GauDist => Dist | _ => Plain end.
Definition demo_lookup (t : text) : option demo := find (fun c => teq (demo_name c) t) [Uni; Ali; Gau; GauDist].
Definition digits (t : text) : bool := negb (teq t []) && forallb (fun c => existsb (Ascii.eqb c) (T "0123456789.")) t.
Definition demo_eval (t : text) : option (pval demo) := if digits t then Some (PLit t) else None.
Definition demo_from_repr := from_repr demo demo_sig demo_lookup demo_eval.
Definition demo_body := body demo demo_name repr_str.
Definition demo_dict := from_dictionary demo demo_sig demo_kind demo_lookup demo_eval digits PLit (fun _ t => Some t).
Definition demo_file := from_file demo demo_sig demo_kind demo_lookup demo_eval digits PLit (fun _ t => Some t).
Definition uni (lo hi : string) (label : pval demo) : pval demo :=
  PPrior Uni [(T "minimum", PLit (T lo)); (T "maximum", PLit (T hi)); (T "name", PNone); (T "latex_label", label)].
Definition ali (a z : pval demo) : pval demo := PPrior Ali [(T "a_prior", a); (T "z_prior", z); (T "name", PStr (T "chi_1")); (T "latex_label", PStr (T "$f(x)$"))].
Definition args_of (v : pval demo) : list (text * pval demo) := match v with PPrior _ args => args | _ => [] end.
Ltac in_cases I := repeat (destruct I as [I|I]; [first [injection I as <- <-|subst]|]); try destruct I.
Ltac bad := let c := fresh in let I := fresh in let J := fresh in intros c I J; vm_compute in I, J; repeat (destruct I as [I|I]; [subst c; vm_compute in J; intuition discriminate|]); destruct I.
Lemma uni_ok : args_ok demo demo_sig (inner_ok demo demo_eval) Uni (args_of (uni "0" "1" PNone)).
Proof.
  split; [discriminate|]. split; [cbn; repeat constructor; cbn; intuition discriminate|]. intros k v I. cbn [args_of uni] in I.
  in_cases I; (split; [bad|split; [cbn; tauto|]]); (split; [cbn; repeat split; try discriminate; try bad|intros s X; discriminate]).
Qed.
Example C144_example : args_ok demo demo_sig (val_ok demo demo_sig demo_name demo_lookup demo_eval) Ali (args_of (ali (uni "0" "1" PNone) (uni "0" "1" PNone)))
  /\ demo_from_repr Ali (demo_body (args_of (ali (uni "0" "1" PNone) (uni "0" "1" PNone)))) = Some (ali (uni "0" "1" PNone) (uni "0" "1" PNone))
  /\ demo_body (args_of (ali (uni "0" "1" PNone) (uni "0" "1" PNone)))
     = T "a_prior=bilby.core.prior.analytical.Uniform(minimum=0, maximum=1, name=None, latex_label=None), z_prior=bilby.core.prior.analytical.Uniform(minimum=0, maximum=1, name=None, latex_label=None), name='chi_1', latex_label='$f(x)$'".
Proof.
  split; [|split; vm_compute; reflexivity]. split; [discriminate|]. split; [cbn; repeat constructor; cbn; intuition discriminate|]. intros k v I. cbn [args_of ali] in I.
  in_cases I; (split; [bad|split; [cbn; tauto|]]).
  1,2: right; exists Uni; eexists; split; [reflexivity|]; split; [split; [bad|vm_compute; reflexivity]|exact uni_ok].
  all: left; split; [bad|intro I; vm_compute in I; first [exfalso; intuition discriminate|vm_compute; repeat (first [left; reflexivity|right])]].
Qed.
(** spaces are deleted from labels, and backslashes doubled *)
Theorem C144_label_refuted : exists c args args', demo_from_repr c (demo_body args) = Some (PPrior c args') /\ args' <> args
  /\ In (T "latex_label", PStr (T "mass [Msun]")) args /\ In (T "latex_label", PStr (T "mass[Msun]")) args'.
Proof.
  exists Uni, (args_of (uni "0" "1" (PStr (T "mass [Msun]")))). eexists. split; [vm_compute; reflexivity|]. split; [vm_compute; intro H; discriminate H|]. split; vm_compute; tauto.
Qed.
Theorem C144_backslash_refuted : exists c args args', demo_from_repr c (demo_body args) = Some (PPrior c args')
  /\ In (T "latex_label", PStr (T "$\chi$")) args /\ In (T "latex_label", PStr (T "$\\chi$")) args'.
Proof. exists Uni, (args_of (uni "0" "1" (PStr (T "$\chi$")))). eexists. split; [vm_compute; reflexivity|]. split; vm_compute; tauto. Qed.
(** a comma in a label cannot be read *)
Theorem C144_comma_refuted : exists c args, args <> [] /\ In (T "latex_label", PStr (T "$a,b$")) args /\ demo_from_repr c (demo_body args) = None.
Proof. exists Uni, (args_of (uni "0" "1" (PStr (T "$a,b$")))). split; [discriminate|]. split; [vm_compute; tauto|vm_compute; reflexivity]. Qed.
(** nor can priors nested twice *)
Theorem C144_depth_refuted : exists c args, demo_from_repr c (demo_body args) = None
  /\ exists v, In (T "a_prior", v) args /\ args_ok demo demo_sig (val_ok demo demo_sig demo_name demo_lookup demo_eval) Ali (args_of v).
Proof.
  exists Ali, (args_of (ali (ali (uni "0" "1" PNone) (uni "0" "1" PNone)) PNone)). split; [vm_compute; reflexivity|]. eexists. split; [left; reflexivity|]. apply C144_example.
Qed.
(** nor a prior written without arguments, as in the documentation of from_file *)
Theorem C144_no_arguments_refuted : forall c, demo_from_repr c [] = None.
Proof. intros []; vm_compute; reflexivity. Qed.

Definition demo_priors : list (text * pval demo) :=
  [(T "mass", uni "0" "1" (PStr (T "$\mathcal{M}$"))); (T "chi_1", ali (uni "0" "1" PNone) (uni "0" "1" PNone))].
Example C145_example : demo_file (write_file demo demo_name demo_priors) = Some {| dists := []; func := None; out := map (fun kp => (fst kp, EPrior demo (snd kp))) demo_priors |}.
Proof. vm_compute. reflexivity. Qed.
(** in a hand-written file a label is decoded: \nu in it ends the line *)
Theorem C145_decoded_refuted : read_file (T "x = Uniform(minimum=0, maximum=1, latex_label='$\nu$')") = [(T "x", T "Uniform(minimum=0, maximum=1, latex_label='$"); (T "u$')", [])].
Proof. vm_compute. reflexivity. Qed.
(** a comment after a value becomes part of it *)
Theorem C145_comment_refuted : demo_file (T "x = bilby.core.prior.analytical.Uniform(minimum=0, maximum=1) # mass") = None
  /\ demo_file (T "x = bilby.core.prior.analytical.Uniform(minimum=0, maximum=1)") <> None.
Proof. split; vm_compute; [reflexivity|discriminate]. Qed.
(** a conversion function named in the file stays in the dictionary as a string *)
Theorem C145_conversion_refuted : exists st, demo_file (T "conversion_function = my.module.convert") = Some st /\ out demo st = [(T "conversion_function", ERaw demo (T "my.module.convert"))].
Proof. eexists. split; vm_compute; reflexivity. Qed.

Definition joint_text (a : string) : list (text * raw demo) :=
  [(T "d", RText demo (T "MultivariateGaussianDist(names=2)")); (T "x", RText demo (T a))].
Example C146_example : option_map (out demo) (demo_dict (joint_text "MultivariateGaussian(dist=d, name='a b', latex_label='y')"))
    = Some [(T "x", EJoint demo Gau (T "names=2") [(T "name", PStr (T "a b")); (T "latex_label", PStr (T "y"))])]
  /\ demo_dict (rev (joint_text "MultivariateGaussian(dist=d, name='a b', latex_label='y')")) = None.
Proof. split; vm_compute; reflexivity. Qed.
(** without the spaces after the commas the same entry is an error, as it is with the distribution alone *)
Theorem C146_spaces_refuted : demo_dict (joint_text "MultivariateGaussian(dist=d, name='a', latex_label='y')") <> None
  /\ demo_dict (joint_text "MultivariateGaussian(dist=d,name='a',latex_label='y')") = None
  /\ demo_dict (joint_text "MultivariateGaussian(name='a', dist=d)") = None /\ demo_dict (joint_text "MultivariateGaussian(dist=d)") = None.
Proof. repeat split; vm_compute; try reflexivity. discriminate. Qed.

(** ** Assumptions of every theorem above *)
Definition PriorText_Props_all :=
  (@C144_read_printed,
   @C144_same_prior_iff,
   @C144_print_injective,
   @C144_apostrophe,
   @C144_positional,
   @C144_raw,
   @C144_bracket,
   @C145_file,
   @C145_same_dictionary_iff,
   @C146_dist_key,
   @C146_dist_alone,
   @C146_keys,
   @C146_joint_after_distribution,
   @C146_values,
   @C146_order,
   @C144_label_refuted,
   @C144_backslash_refuted,
   @C144_comma_refuted,
   @C144_depth_refuted,
   @C144_no_arguments_refuted,
   @C145_decoded_refuted,
   @C145_comment_refuted,
   @C145_conversion_refuted,
   @C146_spaces_refuted).
Print Assumptions PriorText_Props_all.
