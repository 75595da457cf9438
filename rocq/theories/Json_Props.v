(** C21: JSON encoding of results and priors.  C65: recursive decoding of loaded dictionaries. *)
From Coq Require Import String List Bool Arith ZArith Lia.
From Verif Require Import PyDict PyReal Json_Model Json_Proofs.
Import ListNotations.
Open Scope string_scope.
Open Scope list_scope.

Section Props.
Variable F : Type.
Variable fzero : F -> bool.
Variable zstr : Z -> string.
Variable importable : string -> bool.
Variable has : string -> string -> bool.
Notation pv := (pv F). Notation json := (json F).
Notation encode := (encode F zstr). Notation decode := (decode F fzero zstr importable has).
Notation hook := (hook F fzero zstr importable has).
Notation norm := (norm F zstr). Notation safe := (safe F fzero zstr importable has).
Notation flag := (flag F fzero).

(** Any nesting: what is written can be read back, as [norm] says. *)
Theorem C21_round_trip : forall v, safe v -> exists j, encode v = Some j /\ decode j = Some (norm v).
Proof. intros v S. destruct (round_trip F fzero zstr importable has v S) as (j & E & D & _). eauto. Qed.

(** values without tuples, numpy scalars, non-string keys, nested prior dictionaries or
    relabelled rows *)
Fixpoint plain (v : pv) : Prop :=
  let all := fun l => fold_right (fun x acc => plain x /\ acc) True l in
  let alld := fun d => fold_right (fun kv acc => match kv with (KStr _, w) => plain w | (KInt _, _) => False end /\ acc) True d in
  match v with
  | VList _ l => all l
  | VTuple _ _ | VNpInt _ _ | VNpFloat _ _ | VPriorDict _ _ _ _ _ => False
  | VDict _ d | VPrior _ _ _ d | VCosmology _ _ d | VSeries _ d => alld d
  | VFrame _ idx d => alld d /\ idx = match d with [] => [] | _ => zrange (List.length idx) end
  | VArray _ c => plain c
  | VQuantity _ x _ => plain x
  | _ => True
  end.
(** Such values come back unchanged. *)
Theorem C21_identity : forall v, plain v -> safe v -> exists j, encode v = Some j /\ decode j = Some v.
Proof.
  assert (K : forall v, plain v -> norm v = v).
  { assert (KL : forall l, Forall (fun v => plain v -> norm v = v) l -> fold_right (fun x acc => plain x /\ acc) True l -> map norm l = l).
    { induction l as [|a t IH]; intros H S; auto. inversion H as [|? ? Ha Ht]; subst. destruct S as (S1 & S2). cbn [map]. rewrite (Ha S1), (IH Ht S2). reflexivity. }
    assert (KD : forall d, Forall (fun kv => plain (snd kv) -> norm (snd kv) = snd kv) d ->
      fold_right (fun kv acc => match kv with (KStr _, w) => plain w | (KInt _, _) => False end /\ acc) True d ->
      map (fun kv => match kv with (k, w) => (KStr (keystr zstr k), norm w) end) d = d).
    { induction d as [|[[k|z] a] t IH]; intros H S; auto; inversion H as [|? ? Ha Ht]; subst; destruct S as (S1 & S2); [|contradiction].
      cbn [map keystr]. cbn [snd] in Ha. rewrite (Ha S1), (IH Ht S2). reflexivity. }
    apply (pv_ind' F (fun v => plain v -> norm v = v)); cbn [plain Json_Proofs.norm].
    - intros v. destruct v; try exact I; cbn [plain Json_Proofs.norm]; intros P; try reflexivity; contradiction.
    - intros l H S. now rewrite KL.
    - intros; contradiction.
    - intros d H S. now rewrite KD.
    - intros c H S. now rewrite H.
    - intros i d H (S1 & S2). rewrite KD by auto. now rewrite <- S2.
    - intros d H S. now rewrite KD.
    - intros m n d H S. now rewrite KD.
    - intros; contradiction.
    - intros n d H S. now rewrite KD.
    - intros x u H S. now rewrite H. }
  intros v P S. destruct (C21_round_trip v S) as (j & E & D). exists j. rewrite (K v P) in D. auto.
Qed.
(** an object without an encoding anywhere inside *)
Fixpoint has_other (v : pv) : bool :=
  match v with
  | VOther _ => true
  | VList _ l | VTuple _ l => existsb has_other l
  | VDict _ d | VPrior _ _ _ d | VCosmology _ _ d | VSeries _ d | VPriorDict _ _ _ _ d | VFrame _ _ d =>
      existsb (fun kv => match kv with (_, w) => has_other w end) d
  | VArray _ c => has_other c
  | VQuantity _ x _ => has_other x
  | _ => false
  end.
(** Writing fails exactly for these. *)
Theorem C21_refused : forall v, encode v = None <-> has_other v = true.
Proof.
  assert (KL : forall l, Forall (fun v => encode v = None <-> has_other v = true) l -> (sequence (map encode l) = None <-> existsb has_other l = true)).
  { induction l as [|a t IH]; intros H; [simpl; split; discriminate|]. inversion H as [|? ? Ha Ht]; subst. specialize (IH Ht).
    cbn [map sequence existsb]. destruct (encode a) as [j|], (has_other a); cbn [bindo orb].
    - exfalso. destruct Ha as (_ & Ha). discriminate (Ha eq_refl).
    - rewrite <- IH. destruct (sequence (map encode t)); cbn [bindo]; split; congruence.
    - tauto.
    - exfalso. destruct Ha as (Ha & _). discriminate (Ha eq_refl). }
  assert (KD : forall d, Forall (fun kv => encode (snd kv) = None <-> has_other (snd kv) = true) d ->
    (sequence (map (fun kv => match kv with (k, w) => mk (keystr zstr k) (encode w) end) d) = None <-> existsb (fun kv => match kv with (_, w) => has_other w end) d = true)).
  { induction d as [|[k a] t IH]; intros H; [simpl; split; discriminate|]. inversion H as [|? ? Ha Ht]; subst. specialize (IH Ht). cbn [snd] in Ha.
    cbn [map sequence existsb]. unfold mk at 1. destruct (encode a) as [j|], (has_other a); cbn [bindo orb].
    - exfalso. destruct Ha as (_ & Ha). discriminate (Ha eq_refl).
    - rewrite <- IH. destruct (sequence (map _ t)); cbn [bindo]; split; congruence.
    - tauto.
    - exfalso. destruct Ha as (Ha & _). discriminate (Ha eq_refl). }
  assert (B : forall {A B} (x : option A) (f : A -> option B), (forall a, f a <> None) -> (bindo x f = None <-> x = None)).
  { intros A B [a|] f H; cbn [bindo]; [|tauto]. split; [|discriminate]. intros X. exfalso. exact (H a X). }
  apply (pv_ind' F (fun v => encode v = None <-> has_other v = true)); cbn [Json_Model.encode has_other].
  - intros v. destruct v; try exact I; cbn [Json_Model.encode has_other]; try (split; congruence). destruct is_class; split; discriminate.
  - intros l H. rewrite B by discriminate. now apply KL.
  - intros l H. rewrite B by discriminate. now apply KL.
  - intros d H. rewrite B by discriminate. now apply KD.
  - intros c H. rewrite B by discriminate. exact H.
  - intros i d H. rewrite B by discriminate. now apply KD.
  - intros d H. rewrite B by discriminate. now apply KD.
  - intros m n d H. rewrite B by discriminate. now apply KD.
  - intros m n c d H. rewrite B by discriminate. now apply KD.
  - intros n d H. rewrite B by discriminate. now apply KD.
  - intros x u H. rewrite B by discriminate. exact H.
Qed.
(** A dictionary in which a marker key is true is never returned as a dictionary. *)
Theorem C21_marker : forall d k, In k markers -> flag d k = true -> forall d', hook d <> Some (VDict F d').
Proof.
  intros d k Hk Hf d'. unfold Json_Model.hook.
  assert (B : forall {A} (x : option A) (f : A -> option pv), (forall a, f a <> Some (VDict F d')) -> bindo x f <> Some (VDict F d')).
  { intros A [a|] f H; cbn [bindo]; [apply H|discriminate]. }
  destruct (flag d "__prior_dict__") eqn:E1.
  { unfold prior_dict_hook. repeat (apply B; intros). destruct (_ && _); [|discriminate]. cbv zeta. destruct (forallb _ _); discriminate. }
  destruct (flag d "__prior__") eqn:E2.
  { apply B; intros m. apply B; intros n. apply B; intros kw. destruct (importable m); [|discriminate]. destruct (has m n); [discriminate|]. apply B; intros; discriminate. }
  destruct (flag d "__cosmology__") eqn:E3. { apply B; intros n. destruct (has _ n); discriminate. }
  destruct (flag d "__astropy_quantity__") eqn:E4.
  { apply B; intros x. assert (Q : (let* u := get_str F d "unit" in Some (VQuantity F x u)) <> Some (VDict F d')) by (apply B; discriminate).
    destruct x; try exact Q. discriminate. }
  destruct (flag d "__array__") eqn:E5. { apply B; discriminate. }
  destruct (flag d "__complex__") eqn:E6. { apply B; intros; apply B; discriminate. }
  destruct (flag d "__dataframe__") eqn:E7.
  { apply B; intros c. unfold frame. destruct c as [|[k0 w] t]; [discriminate|]. destruct w; try discriminate. destruct (forallb _ _); discriminate. }
  destruct (flag d "__series__") eqn:E8. { apply B; discriminate. }
  destruct (flag d "__function__" || flag d "__class__") eqn:E9.
  { apply B; intros m. apply B; intros n. unfold reference. destruct (importable m); [|discriminate]. destruct (has m n); discriminate. }
  apply orb_false_iff in E9. destruct E9 as (E9 & E10).
  destruct (flag d "__timedelta__") eqn:E11. { apply B; discriminate. }
  exfalso. unfold markers in Hk. simpl in Hk.
  repeat (destruct Hk as [<-|Hk]; [congruence|]). exact Hk.
Qed.
(** So a user's dictionary may come back as something else. *)
Theorem C21_marker_refuted : exists (d : list (pykey * pv)) j v, encode (VDict F d) = Some j /\ decode j = Some v /\ v <> VDict F d.
Proof.
  exists [(KStr "__array__", VBool F true); (KStr "content", VInt F 1)]. eexists _, _.
  split; [reflexivity|]. split; [reflexivity|]. discriminate.
Qed.
(** A prior dictionary inside other data is written as a plain dictionary, since json never
    asks the encoder about subclasses of dict, and comes back as one. *)
Theorem C21_nested_prior_dict : forall m n c d, safe (VPriorDict F m n c d) ->
  exists j, encode (VPriorDict F m n c d) = Some j /\
    decode j = Some (VDict F (map (fun kv => match kv with (k, w) => (KStr (keystr zstr k), norm w) end) d)).
Proof. intros m n c d S. exact (C21_round_trip _ S). Qed.

(** *** prior dictionaries in prior and result files *)
Notation raw := (raw F). Notation jwf := (jwf F).
Section Ind.
Variable P : json -> Prop.
Hypothesis H0 : forall j, match j with JList _ _ | JObj _ _ => True | _ => P j end.
Hypothesis Hl : forall l, Forall P l -> P (JList _ l).
Hypothesis Hd : forall d, Forall (fun kv => P (snd kv)) d -> P (JObj _ d).
Fixpoint json_ind' (j : json) : P j :=
  match j return P j with
  | JList _ l => Hl l ((fix fl (l : list json) : Forall P l := match l with [] => Forall_nil _ | a :: t => Forall_cons _ (json_ind' a) (fl t) end) l)
  | JObj _ d => Hd d ((fix fd (l : list (string * json)) : Forall (fun kv => P (snd kv)) l :=
      match l with [] => Forall_nil _ | kv :: t => @Forall_cons _ (fun kv => P (snd kv)) kv t (match kv with (k, w) => json_ind' w end) (fd t) end) d)
  | JNull _ => H0 (JNull _) | JBool _ b => H0 (JBool _ b) | JInt _ z => H0 (JInt _ z) | JFloat _ f => H0 (JFloat _ f) | JStr _ s => H0 (JStr _ s)
  end.
End Ind.
Lemma enc_raw : forall j, jwf j -> encode (raw j) = Some j.
Proof.
  apply (json_ind' (fun j => jwf j -> encode (raw j) = Some j)).
  - intros j. destruct j; try exact I; reflexivity.
  - intros l H W. cbn [Json_Model.raw Json_Model.encode]. replace (sequence (map encode (map raw l))) with (Some l); [reflexivity|].
    cbn [Json_Proofs.jwf] in W. induction l as [|a t IH]; auto. inversion H as [|? ? Ha Ht]; subst. destruct W as (W1 & W2).
    cbn [map sequence]. rewrite (Ha W1). cbn [bindo]. rewrite <- (IH Ht W2). reflexivity.
  - intros d H (W1 & W2). cbn [Json_Model.raw Json_Model.encode].
    rewrite (pairs_nodup F).
    2:{ rewrite map_map. rewrite (map_ext _ fst) by (intros [k w]; reflexivity). exact W1. }
    match goal with |- bindo ?x _ = _ => replace x with (Some d) end; [reflexivity|].
    clear W1. induction d as [|[k a] t IH]; auto. inversion H as [|? ? Ha Ht]; subst. destruct W2 as (Wa & Wt).
    cbn [map vdict fst snd keystr sequence]. unfold mk at 1. cbn [snd] in Ha. rewrite (Ha Wa). cbn [bindo].
    specialize (IH Ht Wt). unfold vdict in IH. rewrite <- IH. reflexivity.
Qed.
Definition pd_keys : list string := ["__prior_dict__"; "__module__"; "__name__"].
Lemma dset_absent (d : list (string * pv)) k v : ~ In k (map fst d) -> dset d k v = d ++ [(k, v)].
Proof. apply dset_snoc. Qed.
(** to_json followed by from_json: same class, same parameters in the same order, same priors;
    the conversion function is not part of the file. *)
Theorem C21_prior_dict_file : forall m n c items, importable m = true -> has m n = true ->
  NoDup (map (fun kv => keystr zstr (fst kv)) items) ->
  (forall k w, In (k, w) items -> is_prior F w = true /\ safe w /\ ~ In (keystr zstr k) markers /\ ~ In (keystr zstr k) pd_keys) ->
  exists j, prior_dict_json F zstr m n items = Some j /\
    prior_dict_load F fzero zstr importable has j = Some (VPriorDict F m n None (nd F zstr items)) /\
    (forall j', prior_dict_json F zstr m n items = Some j' -> j' = j) /\
    (c <> None -> prior_dict_load F fzero zstr importable has j <> Some (VPriorDict F m n c items)).
Proof.
  intros m n c items Hi Hh ND H.
  assert (E : exists js, map fst js = map (fun kv => keystr zstr (fst kv)) items /\
    sequence (map (fun kv => mk (keystr zstr (fst kv)) (let* j := encode (snd kv) in Some (raw j))) items) = Some (map (fun kv => (fst kv, raw (snd kv))) js) /\
    dec_dict F fzero zstr importable has js = Some (sd F zstr items) /\ (forall k j, In (k, j) js -> jwf j)).
  { clear ND. induction items as [|[k w] t IH]; [exists []; repeat split; intros ? ? []|].
    destruct IH as (js & K & S & D & W). { intros k' w' Hin. apply H. now right. }
    destruct (H k w (or_introl eq_refl)) as (_ & Sw & _). destruct (round_trip F fzero zstr importable has w Sw) as (j & Ej & Dj & Wj).
    exists ((keystr zstr k, j) :: js). split; [simpl; now rewrite K|]. split; [|split].
    - cbn [map sequence fst snd]. rewrite Ej. cbn [bindo mk]. rewrite S. reflexivity.
    - unfold dec_dict in *. cbn [map sequence]. unfold mk at 1. rewrite Dj. cbn [bindo]. rewrite D. reflexivity.
    - intros k' j' [X|X]; [injection X as <- <-; exact Wj|eauto]. }
  destruct E as (js & K & S & D & W).
  assert (ND' : NoDup (map fst js)) by (now rewrite K).
  assert (Np : forall k, In k pd_keys -> ~ In k (map fst js)).
  { intros k Hk X. rewrite K in X. apply in_map_iff in X. destruct X as ([k' w] & <- & X). destruct (H k' w X) as (_ & _ & _ & Nk). auto. }
  set (r := map (fun kv => (fst kv, raw (snd kv))) js) in *.
  assert (Kr : map fst r = map fst js) by (unfold r; rewrite map_map; reflexivity).
  set (tail := [("__prior_dict__", JBool F true); ("__module__", JStr F m); ("__name__", JStr F n)]).
  assert (J : prior_dict_json F zstr m n items = Some (JObj F (js ++ tail))).
  { unfold prior_dict_json. rewrite S. cbn [bindo]. cbv zeta. rewrite (pairs_nodup F) by (now rewrite Kr).
    assert (A1 : ~ In "__prior_dict__" (map fst r)) by (rewrite Kr; apply Np; simpl; auto).
    assert (A2 : ~ In "__module__" (map fst r)) by (rewrite Kr; apply Np; simpl; auto).
    assert (A3 : ~ In "__name__" (map fst r)) by (rewrite Kr; apply Np; simpl; auto).
    rewrite (dset_snoc F r) by exact A1.
    rewrite (dset_snoc F (r ++ _)) by (rewrite map_app, in_app_iff; simpl; intuition discriminate).
    rewrite (dset_snoc F ((r ++ _) ++ _)) by (rewrite !map_app, !in_app_iff; simpl; intuition discriminate).
    rewrite <- !app_assoc. cbn [app].
    cbn [Json_Model.encode]. match goal with |- bindo ?x _ = _ => replace x with (Some (js ++ tail)) end; [reflexivity|].
    symmetry. unfold r. clear -W. induction js as [|[k j] t IH]; [reflexivity|].
    cbn [map app fst snd vdict keystr sequence]. unfold mk at 1. rewrite enc_raw by (eapply W; left; reflexivity). cbn [bindo].
    unfold vdict in IH. rewrite IH by (intros; eapply W; right; eauto). reflexivity. }
  exists (JObj F (js ++ tail)). split; [exact J|].
  assert (L : prior_dict_load F fzero zstr importable has (JObj F (js ++ tail)) = Some (VPriorDict F m n None (nd F zstr items))).
  { unfold prior_dict_load.
    set (vt := [("__prior_dict__", VBool F true); ("__module__", VStr F m); ("__name__", VStr F n)]).
    rewrite (decode_obj F fzero zstr importable has _ (sd F zstr items ++ vt)) by (rewrite dec_dict_app, D; reflexivity).
    assert (Ks : map fst (sd F zstr items) = map fst js) by (rewrite sd_keys; now rewrite K).
    assert (G : forall k, In k pd_keys -> dget (sd F zstr items) k = None).
    { intros k Hk. apply dget_none. change (dkeys (sd F zstr items)) with (map fst (sd F zstr items)). rewrite Ks. now apply Np. }
    rewrite (pairs_nodup F).
    2:{ rewrite map_app, Ks. apply NoDup_app_intro; auto.
        - repeat constructor; simpl; intuition discriminate.
        - intros x Hx Hy. apply (Np x); auto. }
    unfold Json_Model.hook.
    replace (flag (sd F zstr items ++ vt) "__prior_dict__") with true
      by (unfold Json_Model.flag; rewrite dget_app, G by (simpl; tauto); reflexivity).
    unfold prior_dict_hook, get_str. rewrite !dget_app, !G by (simpl; tauto).
    unfold vt at 1 2. cbn [dget String.eqb Ascii.eqb Bool.eqb bindo]. rewrite Hi, Hh. cbn [andb]. cbv zeta.
    rewrite drop_app, drop_none.
    2:{ intros k v Hin Hk. apply (Np k). { simpl in *. tauto. } rewrite <- Ks. change k with (fst (k, v)). now apply in_map. }
    change (drop F ["__module__"; "__name__"; "__prior_dict__"] vt) with (@nil (string * pv)). rewrite app_nil_r.
    replace (forallb _ _) with true; [now rewrite vdict_sd|]. symmetry. apply forallb_forall. intros [k v] Hin.
    apply sd_in in Hin. destruct Hin as (k' & w & Hin & -> & ->). destruct (H k' w Hin) as (Hp & _). destruct w; try discriminate Hp. reflexivity. }
  split; [exact L|]. split; [intros j' Hj'; congruence|]. intros Hc X. rewrite L in X. injection X as X _. congruence.
Qed.
(** A prior whose class is gone becomes a base Prior; if its module is gone loading raises. *)
Theorem C21_missing_class : forall m n kw, dict_safe F fzero zstr kw -> fold_right (fun kv acc => match kv with (k, w) => safe w end /\ acc) True kw ->
  has m n = false -> lookup F zstr (nd F zstr kw) "name" <> None ->
  exists j, encode (VPrior F m n kw) = Some j /\
    decode j = if importable m then Some (VPrior F "bilby.core.prior.base" "Prior"
                 (filter (fun kv => existsb (String.eqb (keystr zstr (fst kv))) base_kwargs) (nd F zstr kw))) else None.
Proof.
  intros m n kw S1 S2 Hh Hn.
  destruct (dict_ok F fzero zstr importable has kw) as (j & E & D & _).
  { apply Forall_forall. intros [k w] _. apply round_trip. } { exact S2. }
  eexists. cbn [Json_Model.encode]. unfold enc_dict in E. rewrite E. split; [reflexivity|].
  pose proof (user_dict F fzero zstr importable has kw j S1 D) as U.
  rewrite (decode_obj F fzero zstr importable has _ [("__prior__", VBool _ true); ("__module__", VStr _ m); ("__name__", VStr _ n); ("kwargs", VDict _ (nd F zstr kw))])
    by (unfold dec_dict; cbn [map sequence mk bindo]; unfold mk at 4; rewrite U; reflexivity).
  unfold Json_Model.hook. cbn -[lookup base_kwargs].
  destruct (importable m); [|reflexivity]. rewrite Hh. destruct (lookup F zstr (nd F zstr kw) "name"); [reflexivity|congruence].
Qed.

(** A function or class that is gone becomes the text of its name, dotted; if its module is gone loading raises. *)
Theorem C21_missing_reference : forall b m n, has m n = false ->
  exists j, encode (VRef F b m n) = Some j /\ decode j = if importable m then Some (VStr F (m ++ "." ++ n)) else None.
Proof.
  intros b m n H. destruct b; (eexists; split; [reflexivity|]); unfold Json_Model.decode; cbn; unfold reference; rewrite H; reflexivity.
Qed.

(** *** C65: recursively_decode_bilby_json *)
Notation rdecode := (rdecode F fzero zstr importable has).
(** the entries of an object, loaded without object hook *)
Definition entries (d : list (string * json)) : list (string * pv) := map (fun kv => match kv with (k, w) => (k, raw w) end) d.
Definition top_marked (d : list (string * json)) : bool := existsb (flag (entries d)) markers.
(** some object inside has a true marker *)
Fixpoint marked (j : json) : bool :=
  match j with
  | JList _ l => existsb marked l
  | JObj _ d => top_marked d || existsb (fun kv => match kv with (_, w) => marked w end) d
  | _ => false
  end.
(** objects with markers occur neither inside one another nor inside lists *)
Fixpoint shallow (j : json) : Prop :=
  match j with
  | JList _ l => existsb marked l = false
  | JObj _ d => if top_marked d then existsb (fun kv => match kv with (_, w) => marked w end) d = false
                else fold_right (fun kv acc => match kv with (_, w) => shallow w end /\ acc) True d
  | _ => True
  end.
Lemma dkeys_entries d : map fst (entries d) = map fst d.
Proof. unfold entries. rewrite map_map. apply map_ext. intros [k w]. reflexivity. Qed.
Lemma entries_plain d : Forall (fun kv => decode (snd kv) = Some (raw (snd kv))) d -> dec_dict F fzero zstr importable has d = Some (entries d).
Proof.
  induction d as [|[k w] t IH]; intros H; [reflexivity|]. inversion H as [|? ? Hw Ht]; subst. unfold dec_dict in *. cbn [map sequence]. cbn [snd] in Hw.
  unfold mk at 1. rewrite Hw. cbn [bindo]. rewrite (IH Ht). reflexivity.
Qed.
Lemma unmarked_raw : forall j, jwf j -> marked j = false -> decode j = Some (raw j).
Proof.
  apply (json_ind' (fun j => jwf j -> marked j = false -> decode j = Some (raw j))).
  - intros j. destruct j; try exact I; reflexivity.
  - intros l H W M. cbn [Json_Model.decode Json_Model.raw]. cbn [marked] in M. cbn [Json_Proofs.jwf] in W.
    replace (sequence (map decode l)) with (Some (map raw l)); [reflexivity|]. symmetry.
    induction l as [|a t IH]; auto. inversion H as [|? ? Ha Ht]; subst. destruct W as (W1 & W2). cbn [existsb] in M. apply orb_false_iff in M. destruct M as (M1 & M2).
    cbn [map sequence]. rewrite (Ha W1 M1). cbn [bindo]. now rewrite (IH Ht W2 M2).
  - intros d H (W1 & W2) M. cbn [marked] in M. apply orb_false_iff in M. destruct M as (M0 & M).
    assert (E : dec_dict F fzero zstr importable has d = Some (entries d)).
    { apply entries_plain. clear -H W2 M. induction d as [|[k a] t IH]; constructor; inversion H as [|? ? Ha Ht]; subst; destruct W2 as (Wa & Wt);
        cbn [existsb] in M; apply orb_false_iff in M; destruct M as (M1 & M2); auto. }
    rewrite (decode_obj F fzero zstr importable has _ _ E). rewrite (pairs_nodup F) by (rewrite dkeys_entries; exact W1).
    rewrite hook_plain.
    + cbn [Json_Model.raw]. fold (entries d). rewrite (pairs_nodup F) by (rewrite dkeys_entries; exact W1). reflexivity.
    + intros m Hm. unfold top_marked in M0. destruct (Json_Model.flag F fzero (entries d) m) eqn:Ef; auto.
      exfalso. assert (X : existsb (flag (entries d)) markers = true) by (apply existsb_exists; eauto). congruence.
Qed.
Definition rchild (n : nat) (kv : pykey * pv) : option (pykey * pv) :=
  match kv with
  | (k, VDict _ x) => let* w := rdecode n (map (fun kv => (keystr zstr (fst kv), snd kv)) x) in Some (k, w)
  | (k, w) => Some (k, w)
  end.
Lemma rdecode_S n d : rdecode (S n) d = let* v := hook d in
  match v with VDict _ d' => let* r := sequence (map (rchild n) d') in Some (VDict F r) | _ => Some v end.
Proof. reflexivity. Qed.
Lemma keys_vdict d : map (fun kv => (keystr zstr (fst kv), snd kv)) (vdict F d) = d.
Proof. unfold vdict. rewrite map_map. cbn [fst snd keystr]. erewrite map_ext; [apply map_id|]. intros [k v]. reflexivity. Qed.
Lemma not_marked_plain d : top_marked d = false -> hook (entries d) = Some (VDict F (vdict F (entries d))).
Proof.
  intros M. apply hook_plain. intros m Hm. unfold top_marked in M. destruct (Json_Model.flag F fzero (entries d) m) eqn:Ef; auto.
  exfalso. assert (X : existsb (flag (entries d)) markers = true) by (apply existsb_exists; eauto). congruence.
Qed.
(** a dictionary the hook returns for an object with true marker does not exist *)
Lemma marked_not_dict d : existsb (flag d) markers = true -> forall d', hook d <> Some (VDict F d').
Proof. intros M d'. apply existsb_exists in M. destruct M as (k & Hk & Hf). eapply C21_marker; eauto. Qed.
(** truth of a decoded marker value equals that of the raw value when the latter is false *)
Lemma falsy_raw j : jwf j -> truthy F fzero (raw j) = false -> decode j = Some (raw j).
Proof.
  intros W T. apply unmarked_raw; auto. destruct j as [| | | | |l|d]; try reflexivity.
  - destruct l; [reflexivity|discriminate T].
  - destruct d as [|[k w] t]; [reflexivity|]. exfalso. cbn [Json_Model.raw] in T. destruct W as (W1 & _).
    rewrite (pairs_nodup F) in T; [discriminate T|]. change (NoDup (map fst (entries ((k, w) :: t)))). rewrite dkeys_entries. exact W1.
Qed.
Lemma flag_decoded d r m : fold_right (fun kv acc => match kv with (_, w) => jwf w end /\ acc) True d ->
  dec_dict F fzero zstr importable has d = Some r -> flag (entries d) m = false -> flag r m = false.
Proof.
  revert r. induction d as [|[k w] t IH]; intros r W D Hf.
  - injection D as <-. reflexivity.
  - destruct W as (W1 & W2). unfold dec_dict in *. cbn [map sequence] in D. unfold mk at 1 in D. destruct (decode w) as [v|] eqn:Ev; [|discriminate D]. cbn [bindo] in D.
    destruct (sequence (map _ t)) as [rt|] eqn:Et; [|discriminate D]. cbn [bindo] in D. injection D as <-.
    unfold Json_Model.flag in *. cbn [entries map dget] in *. destruct (String.eqb m k).
    + pose proof (falsy_raw w W1 Hf) as X. rewrite Ev in X. injection X as ->. exact Hf.
    + apply (IH rt W2 eq_refl Hf).
Qed.
Lemma dec_keys d r : dec_dict F fzero zstr importable has d = Some r -> map fst r = map fst d.
Proof.
  revert r. unfold dec_dict. induction d as [|[k w] t IH]; intros r D; [injection D as <-; reflexivity|].
  cbn [map sequence] in D. unfold mk at 1 in D. destruct (decode w); [|discriminate D]. cbn [bindo] in D.
  destruct (sequence (map _ t)) as [rt|]; [|discriminate D]. injection D as <-. cbn [map fst]. now rewrite (IH rt eq_refl).
Qed.
(** what recursion does to one loaded value *)
Definition rval (n : nat) (v : pv) : option pv :=
  match v with VDict _ x => rdecode n (map (fun kv => (keystr zstr (fst kv), snd kv)) x) | w => Some w end.
Lemma rchild_rval n k v : rchild n (k, v) = let* w := rval n v in Some (k, w).
Proof. destruct v; reflexivity. Qed.
(** On JSON text in which objects with markers occur neither in one another nor in lists,
    decoding after loading is the same as decoding while loading. *)
Theorem C65_same_as_hook : forall d, jwf (JObj F d) -> shallow (JObj F d) ->
  exists n, forall fuel, (n <= fuel)%nat -> rdecode fuel (entries d) = decode (JObj F d).
Proof.
  assert (K : forall j, jwf j -> shallow j -> exists n, forall fuel, (n <= fuel)%nat -> rval fuel (raw j) = decode j).
  { apply (json_ind' (fun j => jwf j -> shallow j -> exists n, forall fuel, (n <= fuel)%nat -> rval fuel (raw j) = decode j)).
    - intros j. destruct j; try exact I; intros _ _; exists O; reflexivity.
    - intros l H W Sh. exists O. intros fuel _. rewrite unmarked_raw by auto. reflexivity.
    - intros d H (W1 & W2) Sh.
      assert (R : raw (JObj F d) = VDict F (vdict F (entries d))).
      { cbn [Json_Model.raw]. fold (entries d). rewrite (pairs_nodup F) by (rewrite dkeys_entries; exact W1). reflexivity. }
      cbn [shallow] in Sh. destruct (top_marked d) eqn:M.
      + exists 1%nat. intros fuel Hf. destruct fuel as [|n]; [lia|]. rewrite R. cbn [rval]. rewrite keys_vdict, rdecode_S.
        assert (E : dec_dict F fzero zstr importable has d = Some (entries d)).
        { apply entries_plain. clear -W2 Sh. induction d as [|[k a] t IH]; constructor; destruct W2 as (Wa & Wt);
            cbn [existsb] in Sh; apply orb_false_iff in Sh; destruct Sh as (M1 & M2); auto. now apply unmarked_raw. }
        rewrite (decode_obj F fzero zstr importable has _ _ E). rewrite (pairs_nodup F) by (rewrite dkeys_entries; exact W1).
        pose proof (marked_not_dict _ M) as X. destruct (hook (entries d)) as [v|]; [|reflexivity]. destruct v; try reflexivity. exfalso. eapply X; reflexivity.
      + assert (E : exists n, forall fuel, (n <= fuel)%nat ->
          sequence (map (rchild fuel) (vdict F (entries d))) = let* r := dec_dict F fzero zstr importable has d in Some (vdict F r)).
        { clear M R W1. induction d as [|[k a] t IH]; [exists O; reflexivity|]. inversion H as [|? ? Ha Ht]; subst. cbn [snd] in Ha.
          destruct W2 as (Wa & Wt), Sh as (Sa & St). destruct (Ha Wa Sa) as (n1 & E1). destruct (IH Ht Wt St) as (n2 & E2).
          exists (Nat.max n1 n2). intros fuel Hf. specialize (E1 fuel ltac:(lia)). specialize (E2 fuel ltac:(lia)).
          unfold dec_dict in *. cbn [entries map vdict fst snd sequence] in *. rewrite rchild_rval, E1. unfold mk at 1.
          destruct (decode a) as [v|]; cbn [bindo]; [|reflexivity]. unfold vdict, entries in E2. rewrite E2.
          destruct (sequence _); reflexivity. }
        destruct E as (n & E). exists (S n). intros fuel Hf. destruct fuel as [|m]; [lia|]. rewrite R. cbn [rval]. rewrite keys_vdict, rdecode_S.
        rewrite (not_marked_plain d M). cbn [bindo]. rewrite E by lia.
        destruct (dec_dict F fzero zstr importable has d) as [r|] eqn:D.
        * rewrite (decode_obj F fzero zstr importable has _ _ D). rewrite (pairs_nodup F) by (rewrite (dec_keys _ _ D); exact W1).
          rewrite hook_plain; [reflexivity|]. intros m' Hm. eapply flag_decoded; eauto.
          destruct (flag (entries d) m') eqn:Ef; auto. exfalso. unfold top_marked in M.
          assert (X : existsb (flag (entries d)) markers = true) by (apply existsb_exists; eauto). congruence.
        * cbn [Json_Model.decode]. unfold dec_dict in D. rewrite D. reflexivity. }
  intros d W Sh. destruct (K _ W Sh) as (n & E). exists n. intros fuel Hf. rewrite <- (E fuel Hf).
  cbn [Json_Model.raw]. fold (entries d). rewrite (pairs_nodup F) by (rewrite dkeys_entries; apply W). cbn [rval]. now rewrite keys_vdict.
Qed.
(** Data that was already decoded is left alone. *)
Theorem C65_idempotent : forall d, safe (VDict F d) ->
  exists n, forall fuel, (n <= fuel)%nat -> rdecode fuel (sd F zstr d) = Some (norm (VDict F d)).
Proof.
  assert (KD : forall d, Forall (fun kv => safe (snd kv) -> exists n, forall fuel, (n <= fuel)%nat -> rval fuel (norm (snd kv)) = Some (norm (snd kv))) d ->
    dict_safe F fzero zstr d -> fold_right (fun kv acc => match kv with (k, w) => safe w end /\ acc) True d ->
    exists n, forall fuel, (n <= fuel)%nat -> rdecode fuel (sd F zstr d) = Some (VDict F (nd F zstr d))).
  { intros d H S1 S2.
    assert (E : exists n, forall fuel, (n <= fuel)%nat -> sequence (map (rchild fuel) (nd F zstr d)) = Some (nd F zstr d)).
    { clear S1. induction d as [|[k a] t IH]; [exists O; reflexivity|]. inversion H as [|? ? Ha Ht]; subst. cbn [snd] in Ha. destruct S2 as (Sa & St).
      destruct (Ha Sa) as (n1 & E1). destruct (IH Ht St) as (n2 & E2). exists (Nat.max n1 n2). intros fuel Hf.
      specialize (E1 fuel ltac:(lia)). specialize (E2 fuel ltac:(lia)). unfold nd in *. cbn [map sequence]. rewrite rchild_rval, E1. cbn [bindo]. now rewrite E2. }
    destruct E as (n & E). exists (S n). intros fuel Hf. destruct fuel as [|m]; [lia|]. rewrite rdecode_S, hook_plain by (intros; now apply flag_safe).
    cbn [bindo]. rewrite vdict_sd, E by lia. reflexivity. }
  assert (KS : forall d, map (fun kv => (keystr zstr (fst kv), snd kv)) (nd F zstr d) = sd F zstr d).
  { intros d. rewrite <- vdict_sd. apply keys_vdict. }
  assert (K : forall v, safe v -> exists n, forall fuel, (n <= fuel)%nat -> rval fuel (norm v) = Some (norm v)).
  { apply (pv_ind' F (fun v => safe v -> exists n, forall fuel, (n <= fuel)%nat -> rval fuel (norm v) = Some (norm v))).
    - intros v. destruct v; try exact I; intros _; exists O; reflexivity.
    - intros; exists O; reflexivity.
    - intros; exists O; reflexivity.
    - intros d H (S1 & S2). destruct (KD d H S1 S2) as (n & E). exists n. intros fuel Hf. cbn [Json_Proofs.norm rval]. fold (nd F zstr d). rewrite KS. auto.
    - intros; exists O; reflexivity.
    - intros; exists O; reflexivity.
    - intros; exists O; reflexivity.
    - intros; exists O; reflexivity.
    - intros m' n' c d H (S1 & S2). destruct (KD d H S1 S2) as (n & E). exists n. intros fuel Hf. cbn [Json_Proofs.norm rval]. fold (nd F zstr d). rewrite KS. auto.
    - intros; exists O; reflexivity.
    - intros; exists O; reflexivity. }
  intros d (S1 & S2). apply KD; auto. clear -K. apply Forall_forall. intros [k w] _. apply K.
Qed.
(** Objects inside lists are not reached. *)
Theorem C65_lists_refuted : exists d, jwf (JObj F d) /\ (forall fuel, rdecode fuel (entries d) <> decode (JObj F d)).
Proof.
  exists [("x", JList F [JObj F [("__array__", JBool F true); ("content", JInt F 1)]])]. split.
  - cbn [Json_Proofs.jwf map fst fold_right]. repeat split; auto; repeat constructor; simpl; intuition discriminate.
  - intros [|[|fuel]]; cbn; discriminate.
Qed.
End Props.

Section Examples.
Open Scope Z_scope.
Let dec := decode Z (Z.eqb 0) (fun _ => "0") (fun _ => true) (fun _ _ => true).
Let enc := encode Z (fun _ => "0").
Example C21_ex : exists j, enc (VDict Z [(KStr "a", VTuple Z [VNpInt Z 1; VComplex Z 2 3]); (KStr "p", VPrior Z "m" "Uniform" [(KStr "minimum", VFloat Z 0)])]) = Some j
  /\ dec j = Some (VDict Z [(KStr "a", VList Z [VInt Z 1; VComplex Z 2 3]); (KStr "p", VPrior Z "m" "Uniform" [(KStr "minimum", VFloat Z 0)])]).
Proof. eexists. split; reflexivity. Qed.
(** a filtered data frame loses its row labels, a series with integer labels gets text labels *)
Example C21_ex_frame : exists j, enc (VFrame Z [4; 7] [(KStr "x", VList Z [VFloat Z 1; VFloat Z 2])]) = Some j
  /\ dec j = Some (VFrame Z [0; 1] [(KStr "x", VList Z [VFloat Z 1; VFloat Z 2])]).
Proof. eexists. split; reflexivity. Qed.
Example C21_ex_series : exists j, enc (VSeries Z [(KInt 0, VFloat Z 1)]) = Some j /\ dec j = Some (VSeries Z [(KStr "0", VFloat Z 1)]).
Proof. eexists. split; reflexivity. Qed.
(** a prior with a conversion function, written to a file *)
Example C21_ex_file : exists j, prior_dict_json Z (fun _ => "0") "bilby.core.prior.dict" "PriorDict"
    [(KStr "x", VPrior Z "m" "Uniform" [(KStr "minimum", VFloat Z 0)])] = Some j /\
  dec j = Some (VPriorDict Z "bilby.core.prior.dict" "PriorDict" None [(KStr "x", VPrior Z "m" "Uniform" [(KStr "minimum", VFloat Z 0)])]).
Proof. eexists. split; reflexivity. Qed.
Example C65_ex : rdecode Z (Z.eqb 0) (fun _ => "0") (fun _ => true) (fun _ _ => true) 2
    [("likelihood", VDict Z [(KStr "model", VDict Z [(KStr "__module__", VStr Z "m"); (KStr "__name__", VStr Z "f"); (KStr "__function__", VBool Z true)])])] = None /\
  rdecode Z (Z.eqb 0) (fun _ => "0") (fun _ => true) (fun _ _ => true) 3
    [("likelihood", VDict Z [(KStr "model", VDict Z [(KStr "__module__", VStr Z "m"); (KStr "__name__", VStr Z "f"); (KStr "__function__", VBool Z true)])])] =
  Some (VDict Z [(KStr "likelihood", VDict Z [(KStr "model", VRef Z false "m" "f")])]).
Proof. split; reflexivity. Qed.
End Examples.

(** ** Assumptions of every theorem above *)
Definition Json_Props_all :=
  (@C21_round_trip,
   @C21_identity,
   @C21_refused,
   @C21_marker,
   @C21_marker_refuted,
   @C21_nested_prior_dict,
   @C21_prior_dict_file,
   @C21_missing_class,
   @C21_missing_reference,
   @C65_same_as_hook,
   @C65_idempotent,
   @C65_lists_refuted).
Print Assumptions Json_Props_all.
