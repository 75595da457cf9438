(** C67: saving and loading result dictionaries in HDF5 format. *)
From Coq Require Import String List Bool Arith Ascii Lia Sorted.
From Verif Require Import PyDict PyReal Hdf5_Model Hdf5_Proofs.
Import ListNotations.
Open Scope string_scope.
Open Scope list_scope.

(** the characters of a key *)
Fixpoint has_slash (s : string) : bool := match s with EmptyString => false | String c t => Ascii.eqb c "/" || has_slash t end.
(** A key is one path component if it is not empty, not "." and without "/". *)
Theorem C67_plain_key k : has_slash k = false -> k <> "" -> k <> "." -> plain_key k.
Proof.
  intros S E D. assert (A : forall s acc, has_slash s = false -> split_aux acc s = [(acc ++ s)%string]).
  { induction s as [|c t IH]; intros acc H; cbn [split_aux has_slash] in *.
    - f_equal. induction acc as [|a acc IHa]; [reflexivity|]. cbn [append]. f_equal. exact IHa.
    - apply orb_false_iff in H. destruct H as (H1 & H2). rewrite H1. rewrite (IH _ H2). f_equal.
      clear. induction acc as [|a acc IHa]; [reflexivity|]. cbn [append]. f_equal. exact IHa. }
  unfold plain_key, comps. rewrite (A k "" S). cbn [append filter].
  destruct (String.eqb_spec k ""); [contradiction|]. destruct (String.eqb_spec k "."); [contradiction|]. reflexivity.
Qed.

Section Props.
Variable Nm : Type.
Variable of_bool : bool -> Nm.
Variable nstr : Nm -> string.
Variable istr : nat -> string.
Notation hv := (hv Nm). Notation hs := (hs Nm).
Notation as_dict := (as_dict Nm istr). Notation at_path := (at_path Nm istr). Notation good := (good Nm istr).
Notation save := (save Nm of_bool nstr istr). Notation load := (load Nm). Notation encode_leaf := (encode_leaf Nm of_bool nstr).

(** what a value that is not a dictionary is expected to be after the round trip; None: refused *)
Definition reread (v : hv) : option hv :=
  match v with
  | HNone _ | HBool _ _ | HNum _ _ | HArr _ _ => Some v
  | HStr _ s | HBytes _ s | HPriorDict _ s => Some (if String.eqb s "__none__" then HNone _ else HStr _ s)
  | HArrS _ l => Some (match l with [] => v | _ => HList _ (map (SStr _) l) end)
  | HTimedelta _ x => Some (HNum _ x)
  | HList _ [] => Some (HArr _ [])
  | HList _ l =>
      if forallb (fun s => match s with SBool _ _ | SNum _ _ => true | _ => false end) l then
        if forallb (fun s => match s with SBool _ _ => true | _ => false end) l then None
        else Some (HArr _ (map (fun s => match s with SBool _ b => of_bool b | SNum _ x => x | _ => of_bool false end) l))
      else if existsb (fun s => match s with SNone _ => true | _ => false end) l || forallb (fun s => match s with SObj _ _ => false | _ => true end) l
      then Some (HList _ (map (fun s => SStr _ (text Nm nstr s)) l)) else None
  | _ => None
  end.
Lemma reread_spec v : as_dict v = None -> option_map (decode Nm) (encode_leaf v) = reread v.
Proof.
  intros L. destruct v as [| | | |s| |l|l|l|d|t|c|m n|x|]; try discriminate L; try reflexivity.
  - destruct l; reflexivity.
  - destruct l as [|a t]; [reflexivity|]. cbn [Hdf5_Model.encode_leaf]. unfold encode_list, reread. generalize (a :: t) (@nil_cons hs a t). clear a t L. intros l NE.
    assert (B : forallb (is_bool Nm) l = forallb (fun s => match s with SBool _ _ => true | _ => false end) l) by (clear; induction l as [|[] t IH]; simpl; congruence).
    assert (O : negb (existsb (is_obj Nm) l) = forallb (fun s => match s with SObj _ _ => false | _ => true end) l) by (clear; induction l as [|[] t IH]; simpl; auto).
    assert (N : existsb (is_none Nm) l = existsb (fun s => match s with SNone _ => true | _ => false end) l) by reflexivity.
    assert (A : negb (existsb (is_none Nm) l) && negb (existsb (is_obj Nm) l) && negb (existsb (is_str Nm) l) = forallb (fun s => match s with SBool _ _ | SNum _ _ => true | _ => false end) l).
    { clear. induction l as [|[] t IH]; cbn [existsb forallb is_none is_obj is_str orb negb andb]; auto; rewrite ?andb_false_r; reflexivity. }
    rewrite A, B. rewrite <- N. destruct (forallb (fun s => match s with SBool _ _ | SNum _ _ => true | _ => false end) l) eqn:EA; cbn [andb].
    + destruct (forallb (fun s => match s with SBool _ _ => true | _ => false end) l); cbn [negb].
      * apply andb_true_iff in A. destruct A as (A & A3). apply andb_true_iff in A. destruct A as (A1 & A2).
        apply negb_true_iff in A1, A3. rewrite A1, A3. reflexivity.
      * cbn [option_map decode]. reflexivity.
    + rewrite O. destruct (existsb (is_none Nm) l) eqn:EN; cbn [orb].
      * cbn [option_map decode]. destruct l as [|a t]; [congruence|]. cbn [map]. now rewrite map_map.
      * destruct (forallb (fun s => match s with SObj _ _ => false | _ => true end) l) eqn:EO; rewrite ?andb_false_r, ?andb_true_r.
        -- rewrite O in A. cbn [negb andb] in A. apply negb_false_iff in A. rewrite A. cbn [option_map decode]. destruct l as [|a t]; [congruence|]. cbn [map]. now rewrite map_map.
        -- reflexivity.
Qed.
(** Every value below any sequence of keys can be read back, changed at most as [reread] says,
    and nothing else is in the file. *)
Theorem C67_round_trip : forall d, good (HDict _ d) ->
  (forall p v, at_path (HDict _ d) p = Some v -> as_dict v = None -> reread v <> None) ->
  exists g, save d = Some g /\
    (forall p x, as_dict x = None -> (at_path (load g) p = Some x <-> exists v, at_path (HDict _ d) p = Some v /\ as_dict v = None /\ reread v = Some x)) /\
    (forall p, at_path (load g) p <> None <-> p = [] \/ exists r v, at_path (HDict _ d) (p ++ r) = Some v /\ as_dict v = None).
Proof.
  intros d G R. pose proof (leaves_at Nm of_bool nstr istr _ G) as LA. pose proof (leaves_pairwise Nm of_bool nstr istr _ G) as PW.
  destruct (put_all_spec Nm (leaves Nm of_bool nstr istr (HDict _ d)) [] PW) as (g & E & A & B & C).
  { intros p x Hin. apply LA in Hin. destruct Hin as (w & Ha & Hd & ->). split.
    - destruct p as [|k q]; [|exact I]. injection Ha as <-. discriminate Hd.
    - intros X. apply (R p w Ha Hd). rewrite <- reread_spec by auto. now rewrite X. }
  exists g. split; [|split].
  - unfold Hdf5_Model.save. rewrite save_leaves. unfold shift. erewrite map_ext; [rewrite map_id; exact E|]. intros [p x]. reflexivity.
  - intros p x L. rewrite load_leaf by auto. split.
    + intros (ds & Hg & ->). destruct (in_dec path_dec p (map fst (leaves Nm of_bool nstr istr (HDict _ d)))) as [Hin|Hin].
      * apply in_map_iff in Hin. destruct Hin as ([p' [x|]] & <- & Hin); cbn [fst] in *.
        -- rewrite (A p' x Hin) in Hg. injection Hg as <-. apply LA in Hin. destruct Hin as (w & Ha & Hd & Hx). exists w. repeat split; auto.
           rewrite <- reread_spec by auto. rewrite <- Hx. reflexivity.
        -- exfalso. apply LA in Hin. destruct Hin as (w & Ha & Hd & Hx). apply (R p' w Ha Hd). rewrite <- reread_spec by auto. now rewrite <- Hx.
      * rewrite (B p Hin) in Hg. destruct p; discriminate Hg.
    + intros (v & Ha & Hd & Hr). rewrite <- reread_spec in Hr by auto. destruct (encode_leaf v) as [ds|] eqn:Ev; [|discriminate Hr]. injection Hr as <-.
      exists ds. split; auto. apply A. apply LA. exists v. auto.
  - intros p. rewrite load_node, C. split.
    + intros [X|(p' & x & Hin & (r & ->))]; [destruct p; [auto|destruct X]|]. right. apply LA in Hin. destruct Hin as (w & Ha & Hd & _). eauto.
    + intros [->|(r & v & Ha & Hd)]; [left; exact I|]. right. exists (p ++ r), (encode_leaf v). split; [apply LA; eauto|]. now exists r.
Qed.
(** Saving raises exactly if some value has no HDF5 form. *)
Theorem C67_refused : forall d, good (HDict _ d) ->
  (save d = None <-> exists p v, at_path (HDict _ d) p = Some v /\ as_dict v = None /\ reread v = None).
Proof.
  intros d G. pose proof (leaves_at Nm of_bool nstr istr _ G) as LA. split.
  - intros S. 
    destruct (existsb (fun px => match snd px with None => true | _ => false end) (leaves Nm of_bool nstr istr (HDict _ d))) eqn:E.
    + apply existsb_exists in E. destruct E as ([p [x|]] & Hin & X); [discriminate X|]. apply LA in Hin. destruct Hin as (w & Ha & Hd & Hx).
      exists p, w. repeat split; auto. rewrite <- reread_spec by auto. now rewrite <- Hx.
    + exfalso. destruct (C67_round_trip d G) as (g & Sg & _); [|congruence]. intros p v Ha Hd X. rewrite <- reread_spec in X by auto.
      assert (Ev : encode_leaf v = None) by (destruct (encode_leaf v); [discriminate X|reflexivity]).
      assert (existsb (fun px => match snd px with None => true | _ => false end) (leaves Nm of_bool nstr istr (HDict _ d)) = true); [|congruence].
      apply existsb_exists. exists (p, None). split; [|reflexivity]. apply LA. exists v. auto.
  - intros (p & v & Ha & Hd & X). unfold Hdf5_Model.save. rewrite save_leaves. apply put_all_refused. exists p. unfold shift. apply in_map_iff. exists (p, None).
    split; [reflexivity|]. apply LA. exists v. repeat split; auto. rewrite <- reread_spec in X by auto. destruct (encode_leaf v); [discriminate X|reflexivity].
Qed.
(** Names come back in alphabetical order, at every level. *)
Fixpoint sorted_hv (v : hv) : Prop :=
  match v with
  | HDict _ d => Sorted (fun a b => String.leb a b = true) (map fst d) /\ fold_right (fun kw acc => match kw with (_, w) => sorted_hv w end /\ acc) True d
  | _ => True
  end.
Theorem C67_sorted : forall d g, save d = Some g -> sorted_hv (load g).
Proof.
  intros d g S. unfold Hdf5_Model.save in S. rewrite save_leaves in S. apply put_all_sorted in S; [|repeat constructor].
  unfold Hdf5_Model.load. unfold sorted_group in S. revert S.
  assert (K : forall x : h5 Nm, sorted_h5 Nm x -> sorted_hv (load_item Nm x)).
  { fix IH 1. intros [ds|l].
    - intros _. destruct ds as [| |s| |l]; try exact I; cbn [load_item decode]; [destruct (String.eqb s "__none__"); exact I|destruct l; exact I].
    - intros (S & A). cbn [load_item sorted_hv]. split.
      + replace (map fst _) with (map fst l); [exact S|]. rewrite map_map. apply map_ext. intros [k y]. reflexivity.
      + clear S. induction l as [|[k y] t IHt]; [exact I|]. destruct A as (A1 & A2). cbn [map fold_right]. split; [apply IH; exact A1|apply IHt; exact A2]. }
  apply K.
Qed.
(** Values that survive unchanged. *)
Theorem C67_unchanged : forall v, match v with
    | HNone _ | HBool _ _ | HNum _ _ | HArr _ _ => True
    | HStr _ s => s <> "__none__"
    | HList _ l => l <> [] /\ forall s, In s l -> exists t, s = SStr _ t
    | _ => False end -> reread v = Some v.
Proof.
  intros v H. destruct v as [| | |s| | | |l| | | | | | |]; try contradiction; try reflexivity.
  - cbn [reread]. destruct (String.eqb_spec s "__none__"); [contradiction|reflexivity].
  - destruct H as (NE & H).
    assert (X : map (fun s => SStr _ (text Nm nstr s)) l = l).
    { clear NE. induction l as [|a t IH]; [reflexivity|]. cbn [map]. destruct (H a (or_introl eq_refl)) as (u & ->). cbn [text]. f_equal. apply IH. intros s Hs. apply H. now right. }
    unfold reread. destruct l as [|a t]; [congruence|]. destruct (H a (or_introl eq_refl)) as (u & Eu). cbn [forallb]. rewrite Eu. cbn [andb].
    rewrite <- Eu, X.
    replace (forallb (fun s => match s with SObj _ _ => false | _ => true end) t) with true; [rewrite orb_true_r; reflexivity|].
    symmetry. apply forallb_forall. intros s Hs. destruct (H s (or_intror Hs)) as (u' & ->). reflexivity.
Qed.
(** Empty dictionaries vanish, the text "__none__" becomes None, None inside a list becomes text,
    lists of booleans are refused. *)
Theorem C67_losses_refuted :
  (exists g, save [("a", HDict _ []); ("b", HNone _)] = Some g /\ at_path (load g) ["a"] = None /\ load g = HDict _ [("b", HNone _)]) /\
  reread (HStr _ "__none__") = Some (HNone _) /\
  reread (HList _ [SNone _; SStr _ "x"]) = Some (HList _ [SStr _ "__none__"; SStr _ "x"]) /\
  reread (HList _ []) = Some (HArr _ []) /\
  (forall b, reread (HList _ [SBool _ b]) = None) /\
  (forall t, t <> "__none__" -> reread (HPriorDict _ t) = Some (HStr _ t)).
Proof.
  split; [eexists; split; [reflexivity|split; reflexivity]|]. repeat split; try reflexivity.
  intros t H. cbn [reread]. destruct (String.eqb_spec t "__none__"); [contradiction|reflexivity].
Qed.
(** A key with "/" splits into nested dictionaries and can clash with other keys; an empty key raises. *)
Theorem C67_slash_refuted : forall x y,
  (exists g, save [("a/b", HNum _ x)] = Some g /\ load g = HDict _ [("a", HDict _ [("b", HNum _ x)])]) /\
  save [("a/b", HNum _ x); ("a", HNum _ y)] = None /\ save [("", HNum _ x)] = None.
Proof. intros x y. split; [|split; reflexivity]. eexists. split; reflexivity. Qed.
End Props.

Section Examples.
Let dig (i : nat) : string := match i with 0 => "0" | 1 => "1" | _ => "2" end.
(** a tuple, a function and a data frame inside a dictionary *)
Example C67_ex : exists g, save nat (fun _ => 0) (fun _ => "n") dig
    [("z", HTuple nat [HNum nat 1; HNone nat]); ("f", HRef nat "m" "f"); ("t", HFrame nat [("x", [1; 2]); ("b", [3; 4])])] = Some g /\
  load nat g = HDict nat [("f", HDict nat [("__class__", HBool nat true); ("__module__", HStr nat "m"); ("__name__", HStr nat "f")]);
    ("t", HDict nat [("b", HArr nat [3; 4]); ("x", HArr nat [1; 2])]);
    ("z", HDict nat [("0", HNum nat 1); ("1", HNone nat)])].
Proof. eexists. split; reflexivity. Qed.
End Examples.

(** ** Assumptions of every theorem above *)
Definition Hdf5_Props_all :=
  (@C67_plain_key,
   @C67_round_trip,
   @C67_refused,
   @C67_sorted,
   @C67_unchanged,
   @C67_losses_refuted,
   @C67_slash_refuted).
Print Assumptions Hdf5_Props_all.
