(** Lemmas on paths, groups and the leaves of a dictionary. *)
From Coq Require Import String List Bool Arith Ascii Lia Sorted.
From Verif Require Import PyDict PyReal Hdf5_Model.
Import ListNotations.
Open Scope string_scope.
Open Scope list_scope.

Section P.
Variable Nm : Type.
Variable of_bool : bool -> Nm.
Variable nstr : Nm -> string.
Variable istr : nat -> string.
Notation hv := (hv Nm). Notation dataset := (dataset Nm). Notation h5 := (h5 Nm).
Notation group := (list (string * h5)).
Notation encode_leaf := (encode_leaf Nm of_bool nstr). Notation decode := (decode Nm).
Notation put := (put Nm). Notation insert := (insert Nm). Notation replace := (replace Nm).
Notation save_item := (save_item Nm of_bool nstr istr).

(** *** values seen as trees *)
(** the dictionary a value is turned into, if any *)
Definition as_dict (v : hv) : option (list (string * hv)) :=
  match v with
  | HDict _ d => Some d
  | HTuple _ l => Some (combine (map istr (seq 0 (List.length l))) l)
  | HFrame _ cols => Some (map (fun kc => (fst kc, HList _ (map (SNum _) (snd kc)))) cols)
  | HRef _ m n => Some [("__module__", HStr _ m); ("__name__", HStr _ n); ("__class__", HBool _ true)]
  | _ => None
  end.
Fixpoint at_path (v : hv) (p : list string) : option hv :=
  match p with
  | [] => Some v
  | k :: q => let* d := as_dict v in let* w := dget d k in at_path w q
  end.
Section Ind.
Variable P : hv -> Prop.
Hypothesis H : forall v, (forall d k w, as_dict v = Some d -> In (k, w) d -> P w) -> P v.
Lemma leaf_case v : as_dict v = None -> P v.
Proof. intros E. apply H. intros d k w X. congruence. Qed.
Fixpoint hv_ind' (v : hv) : P v :=
  match v return P v with
  | HDict _ d => H (HDict _ d) (fun d' k w E I =>
      (fix go (l : list (string * hv)) : In (k, w) l -> P w :=
         match l with
         | [] => fun F => match F with end
         | (k', w') :: t => fun F => match F with or_introl e => eq_ind w' P (hv_ind' w') w (f_equal snd e) | or_intror F' => go t F' end
         end) d (eq_ind_r (fun x => In (k, w) x) I (match E in _ = y return d = match y with Some z => z | None => d end with eq_refl => eq_refl end)))
  | HTuple _ l => H (HTuple _ l) (fun d' k w E I =>
      (fix go (l : list hv) : In w l -> P w :=
         match l with
         | [] => fun F => match F with end
         | w' :: t => fun F => match F with or_introl e => eq_ind w' P (hv_ind' w') w e | or_intror F' => go t F' end
         end) l (in_combine_r (map istr (seq 0 (List.length l))) l k w
           (eq_ind_r (fun x => In (k, w) x) I (match E in _ = y return combine (map istr (seq 0 (List.length l))) l = match y with Some z => z | None => [] end with eq_refl => eq_refl end))))
  | HFrame _ c => H (HFrame _ c) (fun d' k w E I =>
      match in_map_iff (fun kc => (fst kc, HList _ (map (SNum _) (snd kc)))) c (k, w) with
      | conj A _ => match A (eq_ind_r (fun x => In (k, w) x) I (match E in _ = y return map (fun kc => (fst kc, HList _ (map (SNum _) (snd kc)))) c = match y with Some z => z | None => [] end with eq_refl => eq_refl end)) with
         | ex_intro _ kc (conj e _) => eq_ind (HList _ (map (SNum _) (snd kc))) P (leaf_case (HList _ (map (SNum _) (snd kc))) eq_refl) w (f_equal snd e) end end)
  | HRef _ m n => H (HRef _ m n) (fun d' k w E I =>
      match (eq_ind_r (fun x => In (k, w) x) I (match E in _ = y return [("__module__", HStr _ m); ("__name__", HStr _ n); ("__class__", HBool _ true)] = match y with Some z => z | None => [] end with eq_refl => eq_refl end)) with
      | or_introl e => eq_ind (HStr _ m) P (leaf_case (HStr _ m) eq_refl) w (f_equal snd e)
      | or_intror (or_introl e) => eq_ind (HStr _ n) P (leaf_case (HStr _ n) eq_refl) w (f_equal snd e)
      | or_intror (or_intror (or_introl e)) => eq_ind (HBool _ true) P (leaf_case (HBool _ true) eq_refl) w (f_equal snd e)
      | or_intror (or_intror (or_intror F)) => match F with end
      end)
  | v' => leaf_case v' eq_refl
  end.
End Ind.

(** *** the leaves of a value, in the order in which they are written *)
Fixpoint leaves (v : hv) : list (list string * option dataset) :=
  let dict := fix dict (d : list (string * hv)) :=
    match d with [] => [] | (k, w) :: t => map (fun px => (comps k ++ fst px, snd px)) (leaves w) ++ dict t end in
  let tuple := fix tuple (i : nat) (l : list hv) :=
    match l with [] => [] | w :: t => map (fun px => (comps (istr i) ++ fst px, snd px)) (leaves w) ++ tuple (S i) t end in
  match v with
  | HDict _ d => dict d
  | HTuple _ l => tuple O l
  | HFrame _ cols => map (fun kc => (comps (fst kc) ++ [], encode_leaf (HList _ (map (SNum _) (snd kc))))) cols
  | HRef _ m n => [(["__module__"], Some (DStr _ m)); (["__name__"], Some (DStr _ n)); (["__class__"], Some (DBool _ true))]
  | _ => [([], encode_leaf v)]
  end.
Fixpoint put_all (l : list (list string * option dataset)) (g : group) : option group :=
  match l with
  | [] => Some g
  | (p, Some d) :: t => let* g' := put p d g in put_all t g'
  | (_, None) :: _ => None
  end.
Definition shift (path : list string) (l : list (list string * option dataset)) := map (fun px => (path ++ fst px, snd px)) l.
Lemma put_all_app a b g : put_all (a ++ b) g = let* g' := put_all a g in put_all b g'.
Proof.
  revert g. induction a as [|[p [d|]] t IH]; intros g; cbn [app put_all bindo]; auto. destruct (put p d g); cbn [bindo]; auto.
Qed.
Lemma shift_app p a b : shift p (a ++ b) = shift p a ++ shift p b.
Proof. apply map_app. Qed.
Lemma shift_shift p q l : shift p (map (fun px => (q ++ fst px, snd px)) l) = shift (p ++ q) l.
Proof. unfold shift. rewrite map_map. apply map_ext. intros [a b]. cbn [fst snd]. now rewrite app_assoc. Qed.
Lemma num_list (c : list Nm) : encode_leaf (HList _ (map (SNum _) c)) = Some (DNum _ c).
Proof.
  assert (A : forall f, (forall x, f (SNum _ x) = false) -> existsb f (map (SNum Nm) c) = false).
  { intros f Hf. induction c as [|x t IH]; simpl; auto. now rewrite Hf. }
  cbn [Hdf5_Model.encode_leaf]. unfold encode_list. destruct c as [|x t]; [reflexivity|].
  cbn [map]. change (SNum Nm x :: map (SNum Nm) t) with (map (SNum Nm) (x :: t)). rewrite !A by reflexivity.
  change (forallb (is_bool Nm) (map (SNum Nm) (x :: t))) with false. cbn [negb andb]. f_equal. f_equal. rewrite map_map. apply (map_id (x :: t)).
Qed.
Lemma save_leaves : forall v path g, save_item path v g = put_all (shift path (leaves v)) g.
Proof.
  apply (hv_ind' (fun v => forall path g, save_item path v g = put_all (shift path (leaves v)) g)). intros v IH path g.
  destruct v as [| | | | | | | |l|d| |cols|m n| |]; cbn [Hdf5_Model.save_item leaves as_dict shift map fst snd] in *; rewrite ?app_nil_r;
    try (cbn [put_all Hdf5_Model.encode_leaf bindo]; destruct (put _ _ g); reflexivity).
  - cbn [Hdf5_Model.encode_leaf]. destruct (encode_list _ _ _ _); cbn [put_all bindo]; auto. destruct (put _ _ g); reflexivity.
  - assert (K : forall l i, (forall k w, In (k, w) (combine (map istr (seq i (List.length l))) l) -> forall path g, save_item path w g = put_all (shift path (leaves w)) g) ->
      forall g, (fix save_tuple (i : nat) (l : list hv) (g : group) : option group :=
        match l with [] => Some g | w :: t => let* g' := save_item (path ++ comps (istr i)) w g in save_tuple (S i) t g' end) i l g =
      put_all (shift path ((fix tuple (i : nat) (l : list hv) :=
        match l with [] => [] | w :: t => map (fun px => (comps (istr i) ++ fst px, snd px)) (leaves w) ++ tuple (S i) t end) i l)) g).
    { clear. induction l as [|w t IHt]; intros i H g; [reflexivity|]. rewrite shift_app, put_all_app, shift_shift, (H (istr i) w) by (left; reflexivity).
      destruct (put_all _ g) as [g'|]; cbn [bindo]; auto. apply IHt. intros k w' Hin. apply (H k w'). right. exact Hin. }
    apply K. intros k w Hin. eapply IH; eauto.
  - assert (K : forall d, (forall k w, In (k, w) d -> forall path g, save_item path w g = put_all (shift path (leaves w)) g) ->
      forall g, (fix save_dict (d : list (string * hv)) (g : group) : option group :=
        match d with [] => Some g | (k, w) :: t => let* g' := save_item (path ++ comps k) w g in save_dict t g' end) d g =
      put_all (shift path ((fix dict (d : list (string * hv)) :=
        match d with [] => [] | (k, w) :: t => map (fun px => (comps k ++ fst px, snd px)) (leaves w) ++ dict t end) d)) g).
    { clear. induction d as [|[k w] t IHt]; intros H g; [reflexivity|]. rewrite shift_app, put_all_app, shift_shift, (H k w) by (left; reflexivity).
      destruct (put_all _ g) as [g'|]; cbn [bindo]; auto. apply IHt. intros k' w' Hin. apply (H k' w'). right. exact Hin. }
    apply K. intros k w Hin. eapply IH; eauto.
  - clear IH. revert g. induction cols as [|[k c] t IHt]; intros g; [reflexivity|]. cbn [map fst snd]. rewrite app_nil_r, num_list. cbn [put_all].
    destruct (put _ _ g) as [g'|]; cbn [bindo]; auto.
  - cbn [put_all]. destruct (put (path ++ ["__module__"]) _ g) as [g1|]; cbn [bindo]; auto. destruct (put (path ++ ["__name__"]) _ g1) as [g2|]; cbn [bindo]; auto.
    destruct (put (path ++ ["__class__"]) _ g2); reflexivity.
  - reflexivity.
Qed.

(** *** keys that are single path components *)
Definition plain_key (k : string) : Prop := comps k = [k].
Lemma leaves_dict v d : as_dict v = Some d -> (forall k w, In (k, w) d -> plain_key k) ->
  leaves v = flat_map (fun kw => map (fun px => (fst kw :: fst px, snd px)) (leaves (snd kw))) d.
Proof.
  intros E G. destruct v as [| | | | | | | |l|d0| |cols|m n| |]; try discriminate E; injection E as <-; cbn [leaves].
  - assert (K : forall l i, (forall k w, In (k, w) (combine (map istr (seq i (List.length l))) l) -> plain_key k) ->
      (fix tuple (i : nat) (l : list hv) :=
        match l with [] => [] | w :: t => map (fun px => (comps (istr i) ++ fst px, snd px)) (leaves w) ++ tuple (S i) t end) i l =
      flat_map (fun kw => map (fun px => (fst kw :: fst px, snd px)) (leaves (snd kw))) (combine (map istr (seq i (List.length l))) l)).
    { clear. induction l as [|w t IH]; intros i H; [reflexivity|]. cbn [List.length seq map combine flat_map fst snd].
      pose proof (H (istr i) w (or_introl eq_refl)) as Hk. red in Hk. rewrite Hk. f_equal. apply IH. intros k w' Hin. apply (H k w'). right. exact Hin. }
    now apply K.
  - induction d0 as [|[k w] t IH]; [reflexivity|]. cbn [flat_map fst snd]. pose proof (G k w (or_introl eq_refl)) as Hk. red in Hk. rewrite Hk. f_equal.
    apply IH. intros k' w' Hin. apply (G k' w'). now right.
  - induction cols as [|[k c] t IH]; [reflexivity|]. cbn [map flat_map fst snd]. pose proof (G k _ (or_introl eq_refl)) as Hk. red in Hk. cbn [fst] in Hk. rewrite Hk.
    cbn [leaves map fst snd app]. f_equal. apply IH. intros k' w' Hin. apply (G k' w'). now right.
  - reflexivity.
Qed.
Lemma leaves_leaf v : as_dict v = None -> leaves v = [([], encode_leaf v)].
Proof. destruct v; try discriminate; reflexivity. Qed.

(** every dictionary inside has distinct keys, each a single path component *)
Inductive good : hv -> Prop :=
| good_leaf v : as_dict v = None -> good v
| good_node v d : as_dict v = Some d -> NoDup (map fst d) -> (forall k w, In (k, w) d -> plain_key k /\ good w) -> good v.
(** the leaves are what at_path finds *)
Lemma leaves_at : forall v, good v -> forall p x, In (p, x) (leaves v) <-> exists w, at_path v p = Some w /\ as_dict w = None /\ x = encode_leaf w.
Proof.
  apply (hv_ind' (fun v => good v -> forall p x, In (p, x) (leaves v) <-> exists w, at_path v p = Some w /\ as_dict w = None /\ x = encode_leaf w)).
  intros v IH G p x. destruct (as_dict v) as [d|] eqn:E.
  - destruct G as [v E'|v d' E' ND K]; [congruence|]. assert (d' = d) by congruence. subst d'. rewrite (leaves_dict v d E) by (intros k w Hin; apply (K k w Hin)).
    rewrite in_flat_map. split.
    + intros ([k w] & Hin & Hx). apply in_map_iff in Hx. destruct Hx as ([q y] & Eq & Hy). cbn [fst snd] in *. injection Eq as <- <-.
      apply (IH d k w eq_refl Hin) in Hy; [|apply (K k w Hin)]. destruct Hy as (w' & Ha & Hd & He). exists w'. split; auto.
      cbn [at_path]. rewrite E. cbn [bindo]. rewrite (proj2 (dget_in d k w ND) Hin). exact Ha.
    + intros (w' & Ha & Hd & ->). destruct p as [|k q]; cbn [at_path] in Ha; [injection Ha as <-; congruence|].
      rewrite E in Ha. cbn [bindo] in Ha. destruct (dget d k) as [w|] eqn:Ek; [|discriminate Ha]. cbn [bindo] in Ha.
      apply dget_some_in in Ek. exists (k, w). split; auto. apply in_map_iff. exists (q, encode_leaf w'). split; [reflexivity|].
      cbn [snd]. apply (IH d k w eq_refl Ek); [apply (K k w Ek)|]. eauto.
  - rewrite (leaves_leaf v E). split.
    + intros [X|[]]. injection X as <- <-. exists v. repeat split; auto.
    + intros (w' & Ha & Hd & ->). destruct p as [|k q]; cbn [at_path] in Ha; [injection Ha as <-; left; reflexivity|]. rewrite E in Ha. discriminate Ha.
Qed.

(** *** groups *)
Fixpoint gget (g : group) (p : list string) : option dataset :=
  match p with
  | [] => None
  | k :: rest =>
      match dget g k with
      | Some (DS _ d) => match rest with [] => Some d | _ => None end
      | Some (GR _ s) => gget s rest
      | None => None
      end
  end.
(** a group or dataset exists at the path *)
Fixpoint gnode (g : group) (p : list string) : Prop :=
  match p with
  | [] => True
  | k :: rest =>
      match dget g k with
      | Some (DS _ _) => rest = []
      | Some (GR _ s) => gnode s rest
      | None => False
      end
  end.
Fixpoint free (g : group) (p : list string) : Prop :=
  match p with
  | [] => False
  | k :: rest =>
      match dget g k with
      | Some (DS _ _) => False
      | Some (GR _ s) => free s rest
      | None => True
      end
  end.
Lemma dget_insert k x (g : group) k' : dget g k = None -> dget (insert k x g) k' = if String.eqb k' k then Some x else dget g k'.
Proof.
  induction g as [|[k0 x0] t IH]; [reflexivity|]. intros H. cbn [dget] in H. destruct (String.eqb_spec k k0) as [->|N]; [discriminate|].
  cbn [Hdf5_Model.insert]. destruct (String.leb k k0).
  - cbn [dget]. destruct (String.eqb_spec k' k); reflexivity.
  - cbn [dget]. rewrite (IH H). destruct (String.eqb_spec k' k0) as [->|]; [|reflexivity]. destruct (String.eqb_spec k0 k); congruence.
Qed.
Lemma dget_replace k x (g : group) k' : dget g k <> None -> dget (replace k x g) k' = if String.eqb k' k then Some x else dget g k'.
Proof.
  induction g as [|[k0 x0] t IH]; [intros X; contradiction X; reflexivity|]. intros H. cbn [dget] in H. cbn [Hdf5_Model.replace]. destruct (String.eqb_spec k k0) as [->|N].
  - cbn [dget]. destruct (String.eqb_spec k' k0); reflexivity.
  - cbn [dget]. rewrite (IH H). destruct (String.eqb_spec k' k0) as [->|]; [|reflexivity]. destruct (String.eqb_spec k0 k); congruence.
Qed.
(** how put changes the group it is applied to *)
Lemma put_step k rest d g g' : put (k :: rest) d g = Some g' ->
  exists x, (forall k', dget g' k' = if String.eqb k' k then Some x else dget g k') /\
    match rest with
    | [] => dget g k = None /\ x = DS _ d
    | _ => exists s s', (dget g k = None /\ s = [] \/ dget g k = Some (GR _ s)) /\ put rest d s = Some s' /\ x = GR _ s'
    end.
Proof.
  cbn [Hdf5_Model.put]. destruct rest as [|r rest].
  - destruct (dget g k) eqn:E; [discriminate|]. intros X. injection X as <-. eexists. split; [|split; reflexivity]. intros k'. now apply dget_insert.
  - destruct (dget g k) as [[d0|s]|] eqn:E; [discriminate| |].
    + destruct (put (r :: rest) d s) as [s'|] eqn:Es; [|discriminate]. cbn [bindo]. intros X. injection X as <-. exists (GR _ s'). split.
      * intros k'. apply dget_replace. congruence.
      * exists s, s'. auto.
    + destruct (put (r :: rest) d []) as [s'|] eqn:Es; [|discriminate]. cbn [bindo]. intros X. injection X as <-. exists (GR _ s'). split.
      * intros k'. now apply dget_insert.
      * exists [], s'. auto.
Qed.
Lemma put_free p d : forall g, free g p -> exists g', put p d g = Some g'.
Proof.
  induction p as [|k rest IH]; intros g H; [contradiction|]. cbn [free] in H. cbn [Hdf5_Model.put]. destruct rest as [|r rest].
  - destruct (dget g k) as [[d0|s]|]; try contradiction. eauto.
  - destruct (dget g k) as [[d0|s]|]; try contradiction.
    + destruct (IH s H) as (s' & ->). cbn [bindo]. eauto.
    + destruct (IH [] I) as (s' & ->). cbn [bindo]. eauto.
Qed.
Lemma gget_nil p : gget [] p = None.
Proof. destruct p; reflexivity. Qed.
Definition path_dec : forall p q : list string, {p = q} + {p <> q} := list_eq_dec string_dec.
Lemma put_get p d : forall g g' q, put p d g = Some g' -> gget g' q = if path_dec q p then Some d else gget g q.
Proof.
  induction p as [|k rest IH]; intros g g' q H; [discriminate|]. apply put_step in H. destruct H as (x & Hg & Hx).
  destruct q as [|k' q]. { destruct (path_dec [] (k :: rest)); [discriminate|reflexivity]. }
  cbn [gget]. rewrite Hg. destruct (String.eqb_spec k' k) as [->|N].
  2:{ destruct (path_dec (k' :: q) (k :: rest)); [congruence|reflexivity]. }
  destruct rest as [|r rest].
  - destruct Hx as (Hn & ->). rewrite Hn. destruct q as [|a q]; destruct (path_dec _ _) as [e|e]; try congruence; reflexivity.
  - destruct Hx as (s & s' & Hs & Hp & ->). rewrite (IH s s' q Hp). 
    destruct (path_dec q (r :: rest)) as [->|N]; destruct (path_dec (k :: _) (k :: r :: rest)) as [e|e]; try congruence.
    destruct Hs as [(-> & ->)| ->]; [apply gget_nil|reflexivity].
Qed.
Definition prefix (p q : list string) : Prop := exists r, q = p ++ r.
Lemma prefix_cons k p q : prefix (k :: p) (k :: q) <-> prefix p q.
Proof. split; intros (r & E); exists r; [injection E as ->; reflexivity|cbn; now rewrite E]. Qed.
Lemma prefix_cons_ne k p k' q : prefix (k :: p) (k' :: q) -> k' = k /\ prefix p q.
Proof. intros (r & E). injection E as -> ->. split; auto. now exists r. Qed.
Lemma put_node p d : forall g g' q, put p d g = Some g' -> (gnode g' q <-> gnode g q \/ prefix q p).
Proof.
  induction p as [|k rest IH]; intros g g' q H; [discriminate|]. apply put_step in H. destruct H as (x & Hg & Hx).
  destruct q as [|k' q]. { cbn [gnode]. tauto. }
  cbn [gnode]. rewrite Hg. destruct (String.eqb_spec k' k) as [->|N].
  2:{ split; auto. intros [X|X]; auto. apply prefix_cons_ne in X. destruct X. congruence. }
  rewrite prefix_cons. destruct rest as [|r rest].
  - destruct Hx as (Hn & ->). rewrite Hn. split.
    + intros ->. right. now exists [].
    + intros [[]|(r & E)]. symmetry in E. now apply app_eq_nil in E.
  - destruct Hx as (s & s' & Hs & Hp & ->). rewrite (IH s s' q Hp). destruct Hs as [(Hn & ->)|Hn]; rewrite Hn; [|tauto].
    split; [|tauto]. intros [X|X]; [|tauto]. destruct q; [right; exists (r :: rest); reflexivity|destruct X].
Qed.
Definition incomp (p q : list string) : Prop := ~ prefix p q /\ ~ prefix q p.
Lemma put_keeps_free p d : forall g g' q, put p d g = Some g' -> incomp p q -> free g q -> free g' q.
Proof.
  induction p as [|k rest IH]; intros g g' q H (I1 & I2) Fq; [discriminate|]. apply put_step in H. destruct H as (x & Hg & Hx).
  destruct q as [|k' q]; [contradiction|]. cbn [free] in *. rewrite Hg. destruct (String.eqb_spec k' k) as [->|N]; [|exact Fq].
  rewrite prefix_cons in I1, I2. destruct rest as [|r rest].
  - exfalso. apply I1. now exists q.
  - destruct Hx as (s & s' & Hs & Hp & ->). apply (IH s s' q Hp); [split; auto|].
    destruct Hs as [(Hn & ->)|Hn]; rewrite Hn in Fq; [|exact Fq]. destruct q; [exfalso; apply I2; exists (r :: rest); reflexivity|exact I].
Qed.
(** writing leaves with pairwise incomparable paths *)
Fixpoint pairwise (l : list (list string)) : Prop :=
  match l with [] => True | p :: t => (forall q, In q t -> incomp p q) /\ pairwise t end.
Lemma put_all_spec : forall l g, pairwise (map fst l) -> (forall p x, In (p, x) l -> free g p /\ x <> None) ->
  exists g', put_all l g = Some g' /\ (forall p d, In (p, Some d) l -> gget g' p = Some d) /\
    (forall q, ~ In q (map fst l) -> gget g' q = gget g q) /\
    (forall q, gnode g' q <-> gnode g q \/ exists p x, In (p, x) l /\ prefix q p).
Proof.
  induction l as [|[p [d|]] t IH]; intros g PW H.
  - exists g. split; [reflexivity|]. split; [intros p d []|]. split; auto. intros q. split; auto. intros [X|(p & x & [] & _)]. exact X.
  - destruct PW as (P1 & P2). destruct (H p (Some d) (or_introl eq_refl)) as (Fp & _). destruct (put_free p d g Fp) as (g1 & E1).
    destruct (IH g1 P2) as (g2 & E2 & A & B & C).
    { intros p' x' Hin. destruct (H p' x' (or_intror Hin)) as (F' & N'). split; auto. eapply put_keeps_free; eauto. apply P1. change p' with (fst (p', x')). now apply in_map. }
    exists g2. cbn [put_all]. rewrite E1. cbn [bindo]. split; [exact E2|]. split; [|split].
    + intros p' d' [X|Hin]; [|auto]. injection X as -> ->. rewrite B.
      * rewrite (put_get p' d' g g1 p' E1). destruct (path_dec p' p'); congruence.
      * intros X. destruct (P1 p' X) as (I1 & _). apply I1. exists []. now rewrite app_nil_r.
    + intros q Hq. cbn [map fst In] in Hq. rewrite B by tauto. rewrite (put_get p d g g1 q E1). destruct (path_dec q p) as [->|]; [tauto|reflexivity].
    + intros q. rewrite C, (put_node p d g g1 q E1). split.
      * intros [[X|X]|(p' & x' & Hin & X)]; auto; right; [exists p, (Some d)|exists p', x']; split; auto; [left; reflexivity|right; exact Hin].
      * intros [X|(p' & x' & [Eq|Hin] & X)]; auto; [injection Eq as <- <-; auto|]. right. eauto.
  - exfalso. destruct (H p None (or_introl eq_refl)) as (_ & X). congruence.
Qed.
Lemma put_all_refused l g : (exists p, In (p, None) l) -> put_all l g = None.
Proof.
  revert g. induction l as [|[p [d|]] t IH]; intros g (q & Hin); [destruct Hin| |reflexivity].
  destruct Hin as [X|Hin]; [discriminate|]. cbn [put_all]. destruct (put p d g); cbn [bindo]; eauto.
Qed.
(** the leaves of a good value have pairwise incomparable paths *)
Lemma pairwise_app a b : pairwise a -> pairwise b -> (forall p q, In p a -> In q b -> incomp p q) -> pairwise (a ++ b).
Proof.
  induction a as [|p t IH]; cbn [app pairwise]; auto. intros (A1 & A2) B C. split.
  - intros q Hq. apply in_app_or in Hq. destruct Hq; auto. apply C; auto. now left.
  - apply IH; auto. intros p' q Hp Hq. apply C; auto. now right.
Qed.
Lemma pairwise_cons k l : pairwise l -> pairwise (map (cons k) l).
Proof.
  induction l as [|p t IH]; cbn [map pairwise]; auto. intros (A & B). split; auto. intros q Hq. apply in_map_iff in Hq. destruct Hq as (q' & <- & Hq).
  destruct (A q' Hq) as (I1 & I2). split; rewrite prefix_cons; auto.
Qed.
Lemma leaves_pairwise : forall v, good v -> pairwise (map fst (leaves v)).
Proof.
  apply (hv_ind' (fun v => good v -> pairwise (map fst (leaves v)))). intros v IH G. destruct (as_dict v) as [d|] eqn:E.
  - destruct G as [v E'|v d' E' ND K]; [congruence|]. assert (d' = d) by congruence. subst d'. rewrite (leaves_dict v d E) by (intros k w Hin; apply (K k w Hin)).
    specialize (IH d). assert (IH' : forall k w, In (k, w) d -> pairwise (map fst (leaves w))).
    { intros k w Hin. apply (IH k w eq_refl Hin). apply (K k w Hin). }
    clear IH K E E' v. induction d as [|[k w] t IHt]; [exact I|]. cbn [flat_map fst snd]. rewrite map_app. inversion ND as [|? ? Nk Nt]; subst.
    assert (M : map fst (map (fun px : list string * option dataset => (k :: fst px, snd px)) (leaves w)) = map (cons k) (map fst (leaves w)))
      by (rewrite !map_map; reflexivity).
    rewrite M. apply pairwise_app.
    + apply pairwise_cons. apply (IH' k w). now left.
    + apply IHt; auto. intros k' w' Hin. apply (IH' k' w'). now right.
    + intros p q Hp Hq. apply in_map_iff in Hp. destruct Hp as (p' & <- & _). apply in_map_iff in Hq. destruct Hq as ([q0 x] & <- & Hq).
      apply in_flat_map in Hq. destruct Hq as ([k' w'] & Hin & Hq). apply in_map_iff in Hq. destruct Hq as ([q1 x1] & Eq & _). injection Eq as <- <-. cbn [fst].
      assert (k <> k'). { intros ->. apply Nk. change k' with (fst (k', w')). now apply in_map. }
      split; intros X; apply prefix_cons_ne in X; destruct X; congruence.
  - rewrite (leaves_leaf v E). cbn. split; auto. intros q [].
Qed.
(** *** loading *)
Lemma decode_leaf d : as_dict (decode d) = None.
Proof. destruct d as [| |s| |l]; try reflexivity; cbn [Hdf5_Model.decode]; [destruct (String.eqb s "__none__"); reflexivity|destruct l; reflexivity]. Qed.
Lemma dget_loaded (g : group) k : dget (map (fun kx => match kx with (k, y) => (k, load_item Nm y) end) g) k = option_map (load_item Nm) (dget g k).
Proof. induction g as [|[k' x] t IH]; [reflexivity|]. cbn [map dget]. destruct (String.eqb k k'); [reflexivity|exact IH]. Qed.
Lemma load_at : forall p g, at_path (load Nm g) p = match p with [] => Some (load Nm g) | k :: rest => let* x := dget g k in at_path (load_item Nm x) rest end.
Proof. intros [|k rest] g; [reflexivity|]. cbn [at_path load load_item as_dict bindo]. rewrite dget_loaded. destruct (dget g k); reflexivity. Qed.
Lemma load_leaf : forall p g x, as_dict x = None -> (at_path (load Nm g) p = Some x <-> exists d, gget g p = Some d /\ x = decode d).
Proof.
  induction p as [|k rest IH]; intros g x L; rewrite load_at.
  - split; [intros X; injection X as <-; discriminate L|]. intros (d & X & _). discriminate X.
  - cbn [gget]. destruct (dget g k) as [[d|s]|]; cbn [bindo].
    + cbn [load_item]. destruct rest as [|r rest]; cbn [at_path].
      * split; [intros X; injection X as <-; eauto|]. intros (d' & X & ->). injection X as ->. reflexivity.
      * rewrite decode_leaf. cbn [bindo]. split; [discriminate|]. intros (d' & X & _). discriminate X.
    + apply (IH s x L).
    + split; [discriminate|]. intros (d' & X & _). discriminate X.
Qed.
Lemma load_node : forall p g, at_path (load Nm g) p <> None <-> gnode g p.
Proof.
  induction p as [|k rest IH]; intros g; rewrite load_at; cbn [gnode].
  - split; [auto|discriminate].
  - destruct (dget g k) as [[d|s]|]; cbn [bindo].
    + cbn [load_item]. destruct rest as [|r rest]; cbn [at_path]; [split; [reflexivity|discriminate]|].
      rewrite decode_leaf. cbn [bindo]. split; [congruence|discriminate].
    + apply IH.
    + split; [congruence|contradiction].
Qed.
(** *** order of names *)
Fixpoint sorted_h5 (x : h5) : Prop :=
  match x with
  | DS _ _ => True
  | GR _ g => Sorted (fun a b => String.leb a b = true) (map fst g) /\ fold_right (fun kx acc => match kx with (_, y) => sorted_h5 y end /\ acc) True g
  end.
Definition sorted_group (g : group) : Prop := sorted_h5 (GR _ g).
Lemma insert_sorted k x (g : group) : sorted_h5 x -> sorted_group g -> sorted_group (insert k x g).
Proof.
  intros Hx (S & A). split.
  - clear A Hx. induction g as [|[k0 x0] t IH]; [repeat constructor|]. cbn [Hdf5_Model.insert]. destruct (String.leb k k0) eqn:E.
    + cbn [map fst] in *. constructor; auto.
    + inversion S as [|? ? St Hd]; subst. cbn [map fst]. constructor; [auto|].
      assert (E' : String.leb k0 k = true) by (destruct (String.leb_total k k0); congruence).
      destruct t as [|[k1 x1] t]; cbn [Hdf5_Model.insert map fst]; [constructor; auto|]. destruct (String.leb k k1); cbn [map fst]; constructor; auto. inversion Hd; auto.
  - clear S. induction g as [|[k0 x0] t IH]; [split; auto|]. cbn [Hdf5_Model.insert]. destruct A. destruct (String.leb k k0); cbn [fold_right]; auto.
Qed.
Lemma replace_sorted k x (g : group) : sorted_h5 x -> sorted_group g -> sorted_group (replace k x g).
Proof.
  intros Hx (S & A). split.
  - replace (map fst (replace k x g)) with (map fst g); auto. clear. induction g as [|[k0 x0] t IH]; [reflexivity|]. cbn [Hdf5_Model.replace].
    destruct (String.eqb k k0); cbn [map fst]; congruence.
  - clear S. induction g as [|[k0 x0] t IH]; [exact I|]. destruct A. cbn [Hdf5_Model.replace]. destruct (String.eqb k k0); cbn [fold_right]; auto.
Qed.
Lemma sorted_sub (g : group) k x : sorted_group g -> dget g k = Some x -> sorted_h5 x.
Proof.
  intros (_ & A). induction g as [|[k0 x0] t IH]; [discriminate|]. destruct A as (A1 & A2). cbn [dget]. destruct (String.eqb k k0); [|auto].
  intros X. now injection X as <-.
Qed.
Lemma put_sorted p d : forall g g', put p d g = Some g' -> sorted_group g -> sorted_group g'.
Proof.
  induction p as [|k rest IH]; intros g g' H S; [discriminate|]. cbn [Hdf5_Model.put] in H. destruct rest as [|r rest].
  - destruct (dget g k); [discriminate|]. injection H as <-. apply insert_sorted; auto. exact I.
  - destruct (dget g k) as [[d0|s]|] eqn:E; [discriminate| |].
    + destruct (put (r :: rest) d s) as [s'|] eqn:Es; [|discriminate]. injection H as <-. apply replace_sorted; auto. apply (IH s s' Es). apply (sorted_sub g k _ S E).
    + destruct (put (r :: rest) d []) as [s'|] eqn:Es; [|discriminate]. injection H as <-. apply insert_sorted; auto. apply (IH [] s' Es). repeat constructor.
Qed.
Lemma put_all_sorted : forall l g g', put_all l g = Some g' -> sorted_group g -> sorted_group g'.
Proof.
  induction l as [|[p [d|]] t IH]; intros g g' H S; [now injection H as <-| |discriminate]. cbn [put_all] in H.
  destruct (put p d g) as [g1|] eqn:E; [|discriminate]. cbn [bindo] in H. apply (IH g1 g' H). now apply (put_sorted p d g).
Qed.
End P.
