(** Round-trip lemmas for the JSON encoder. *)
From Coq Require Import String List Bool Arith ZArith Lia.
From Verif Require Import PyDict PyReal Json_Model.
Import ListNotations.
Open Scope string_scope.
Open Scope list_scope.

Definition markers : list string :=
  ["__prior_dict__"; "__prior__"; "__cosmology__"; "__astropy_quantity__"; "__array__"; "__complex__";
   "__dataframe__"; "__series__"; "__function__"; "__class__"; "__timedelta__"].

Section P.
Variable F : Type.
Variable fzero : F -> bool.
Variable zstr : Z -> string.
Variable importable : string -> bool.
Variable has : string -> string -> bool.
Notation pv := (pv F). Notation json := (json F).
Notation encode := (encode F zstr). Notation decode := (decode F fzero zstr importable has).
Notation hook := (hook F fzero zstr importable has).
Notation keystr := (keystr zstr). Notation truthy := (truthy F fzero). Notation flag := (flag F fzero).

Section Ind.
Variable P : pv -> Prop.
Hypothesis H0 : forall v, match v with VList _ _ | VTuple _ _ | VDict _ _ | VArray _ _ | VFrame _ _ _ | VSeries _ _ | VPrior _ _ _ _
  | VPriorDict _ _ _ _ _ | VCosmology _ _ _ | VQuantity _ _ _ => True | _ => P v end.
Hypothesis Hlist : forall l, Forall P l -> P (VList _ l).
Hypothesis Htuple : forall l, Forall P l -> P (VTuple _ l).
Hypothesis Hdict : forall d, Forall (fun kv => P (snd kv)) d -> P (VDict _ d).
Hypothesis Harr : forall c, P c -> P (VArray _ c).
Hypothesis Hframe : forall i d, Forall (fun kv => P (snd kv)) d -> P (VFrame _ i d).
Hypothesis Hseries : forall d, Forall (fun kv => P (snd kv)) d -> P (VSeries _ d).
Hypothesis Hprior : forall m n d, Forall (fun kv => P (snd kv)) d -> P (VPrior _ m n d).
Hypothesis Hpd : forall m n c d, Forall (fun kv => P (snd kv)) d -> P (VPriorDict _ m n c d).
Hypothesis Hcosmo : forall n d, Forall (fun kv => P (snd kv)) d -> P (VCosmology _ n d).
Hypothesis Hquant : forall x u, P x -> P (VQuantity _ x u).
Fixpoint pv_ind' (v : pv) : P v :=
  let fl := fix fl (l : list pv) : Forall P l :=
    match l with [] => Forall_nil _ | a :: t => Forall_cons _ (pv_ind' a) (fl t) end in
  let fd := fix fd (l : list (pykey * pv)) : Forall (fun kv => P (snd kv)) l :=
    match l with
    | [] => Forall_nil _
    | kv :: t => @Forall_cons _ (fun kv => P (snd kv)) kv t (match kv with (k, w) => pv_ind' w end) (fd t)
    end in
  match v return P v with
  | VList _ l => Hlist l (fl l)
  | VTuple _ l => Htuple l (fl l)
  | VDict _ d => Hdict d (fd d)
  | VArray _ c => Harr c (pv_ind' c)
  | VFrame _ i d => Hframe i d (fd d)
  | VSeries _ d => Hseries d (fd d)
  | VPrior _ m n d => Hprior m n d (fd d)
  | VPriorDict _ m n c d => Hpd m n c d (fd d)
  | VCosmology _ n d => Hcosmo n d (fd d)
  | VQuantity _ x u => Hquant x u (pv_ind' x)
  | VNone _ => H0 (VNone _)
  | VBool _ b => H0 (VBool _ b)
  | VInt _ z => H0 (VInt _ z)
  | VFloat _ f => H0 (VFloat _ f)
  | VStr _ s => H0 (VStr _ s)
  | VNpInt _ z => H0 (VNpInt _ z)
  | VNpFloat _ f => H0 (VNpFloat _ f)
  | VComplex _ a b => H0 (VComplex _ a b)
  | VRef _ b m n => H0 (VRef _ b m n)
  | VTimedelta _ f => H0 (VTimedelta _ f)
  | VOther _ => H0 (VOther _)
  end.
End Ind.

(** the value expected back: tuples become lists, numpy scalars python numbers, keys strings,
    prior dictionaries plain dictionaries, and row labels of a frame are renumbered *)
Fixpoint norm (v : pv) : pv :=
  let nd := fun d => map (fun kv => match kv with (k, w) => (KStr (keystr k), norm w) end) d in
  match v with
  | VList _ l => VList _ (map norm l)
  | VTuple _ l => VList _ (map norm l)
  | VDict _ d => VDict _ (nd d)
  | VPriorDict _ _ _ _ d => VDict _ (nd d)
  | VNpInt _ z => VInt _ z
  | VNpFloat _ f => VFloat _ f
  | VPrior _ m n kw => VPrior _ m n (nd kw)
  | VCosmology _ n a => VCosmology _ n (nd a)
  | VQuantity _ x u => VQuantity _ (norm x) u
  | VArray _ c => VArray _ (norm c)
  | VFrame _ idx cols => VFrame _ (match cols with [] => [] | _ => zrange (List.length idx) end) (nd cols)
  | VSeries _ items => VSeries _ (nd items)
  | _ => v
  end.
Definition dict_safe (d : list (pykey * pv)) : Prop :=
  NoDup (map (fun kv => keystr (fst kv)) d) /\
  forall k w, In (k, w) d -> In (keystr k) markers -> truthy (norm w) = false.
(** no unserialisable part, classes can be found, no user dictionary has a true marker *)
Fixpoint safe (v : pv) : Prop :=
  let all := fun l => fold_right (fun x acc => safe x /\ acc) True l in
  let alld := fun d => fold_right (fun kv acc => match kv with (k, w) => safe w end /\ acc) True d in
  match v with
  | VList _ l => all l
  | VTuple _ l => all l
  | VDict _ d => dict_safe d /\ alld d
  | VPriorDict _ _ _ _ d => dict_safe d /\ alld d
  | VPrior _ m n kw => importable m = true /\ has m n = true /\ dict_safe kw /\ alld kw
  | VCosmology _ n a => has "astropy.cosmology" n = true /\ dict_safe a /\ alld a /\
      (forall k w, In (k, w) a -> keystr k <> "__cosmology__" /\ keystr k <> "__name__")
  | VQuantity _ x u => safe x /\ norm x <> VNone _
  | VArray _ c => safe c
  | VFrame _ idx cols => dict_safe cols /\ alld cols /\
      forall k w, In (k, w) cols -> exists l, w = VList _ l /\ List.length l = List.length idx
  | VSeries _ items => dict_safe items /\ alld items
  | VRef _ _ m n => importable m = true /\ has m n = true
  | VOther _ => False
  | _ => True
  end.
Definition nd (d : list (pykey * pv)) : list (pykey * pv) := map (fun kv => match kv with (k, w) => (KStr (keystr k), norm w) end) d.
Definition sd (d : list (pykey * pv)) : list (string * pv) := map (fun kv => match kv with (k, w) => (keystr k, norm w) end) d.
Definition enc_dict (d : list (pykey * pv)) := sequence (map (fun kv => match kv with (k, w) => mk (keystr k) (encode w) end) d).
Definition dec_dict (d : list (string * json)) := sequence (map (fun kv => match kv with (k, w) => mk k (decode w) end) d).
(** no repeated key in any object *)
Fixpoint jwf (j : json) : Prop :=
  match j with
  | JList _ l => fold_right (fun x acc => jwf x /\ acc) True l
  | JObj _ d => NoDup (map fst d) /\ fold_right (fun kv acc => match kv with (k, w) => jwf w end /\ acc) True d
  | _ => True
  end.
Definition ok (v : pv) : Prop := safe v -> exists j, encode v = Some j /\ decode j = Some (norm v) /\ jwf j.

Lemma list_ok l : Forall ok l -> fold_right (fun x acc => safe x /\ acc) True l ->
  exists j, sequence (map encode l) = Some j /\ sequence (map decode j) = Some (map norm l) /\ jwf (JList _ j).
Proof.
  induction l as [|a t IH]; intros H S; [exists []; repeat split; reflexivity|].
  inversion H as [|? ? Ha Ht]; subst. destruct S as (Sa & St). destruct (Ha Sa) as (ja & Ea & Da & Wa).
  destruct (IH Ht St) as (jt & Et & Dt & Wt). exists (ja :: jt). simpl. rewrite Ea, Et, Da, Dt. repeat split; auto.
Qed.
Lemma dict_ok d : Forall (fun kv => ok (snd kv)) d -> fold_right (fun kv acc => match kv with (k, w) => safe w end /\ acc) True d ->
  exists j, enc_dict d = Some j /\ dec_dict j = Some (sd d) /\ map fst j = map (fun kv => keystr (fst kv)) d /\
    fold_right (fun kv acc => match kv with (k, w) => jwf w end /\ acc) True j.
Proof.
  induction d as [|[k a] t IH]; intros H S; [exists []; repeat split; reflexivity|].
  inversion H as [|? ? Ha Ht]; subst. destruct S as (Sa & St). destruct (Ha Sa) as (ja & Ea & Da & Wa).
  destruct (IH Ht St) as (jt & Et & Dt & Kt & Wt). exists ((keystr k, ja) :: jt). unfold enc_dict, dec_dict in *. cbn [map sequence].
  unfold mk at 1. cbn [snd] in Ea. rewrite Ea. cbn [bindo]. rewrite Et. cbn [bindo].
  split; [reflexivity|]. split; [|split; [simpl; now rewrite Kt|simpl; auto]]. unfold mk at 1. rewrite Da. cbn [bindo]. rewrite Dt. reflexivity.
Qed.
Lemma dset_snoc (d : list (string * pv)) k v : ~ In k (map fst d) -> dset d k v = d ++ [(k, v)].
Proof.
  induction d as [|[k' v'] t IH]; simpl; auto. intros H. destruct (String.eqb_spec k k') as [->|]; [exfalso; auto|]. rewrite IH; auto.
Qed.
Lemma fold_dset (l : list (string * pv)) : forall acc, NoDup (map fst (acc ++ l)) -> fold_left (fun d kv => dset d (fst kv) (snd kv)) l acc = acc ++ l.
Proof.
  induction l as [|[k v] t IH]; intros acc N; [now rewrite app_nil_r|]. cbn [fold_left fst snd].
  rewrite dset_snoc. { rewrite IH; rewrite <- app_assoc; auto. }
  rewrite map_app in N. simpl in N. apply NoDup_remove_2 in N. intros X. apply N. apply in_or_app. now left.
Qed.
Lemma pairs_nodup (l : list (string * pv)) : NoDup (map fst l) -> dict_of_pairs F l = l.
Proof. intros N. exact (fold_dset l [] N). Qed.
Lemma sd_keys d : map fst (sd d) = map (fun kv => keystr (fst kv)) d.
Proof. unfold sd. rewrite map_map. apply map_ext. intros [k w]. reflexivity. Qed.
Lemma sd_in d s v : In (s, v) (sd d) -> exists k w, In (k, w) d /\ s = keystr k /\ v = norm w.
Proof. unfold sd. intros H. apply in_map_iff in H. destruct H as ([k w] & E & H). injection E as <- <-. eauto. Qed.
Lemma flag_safe d m : dict_safe d -> In m markers -> flag (sd d) m = false.
Proof.
  intros (N & H) Hm. unfold flag, Json_Model.flag. destruct (dget (sd d) m) as [v|] eqn:E; auto.
  apply dget_some_in in E. apply sd_in in E. destruct E as (k & w & Hk & -> & ->). eapply H; eauto.
Qed.
Lemma hook_plain d : (forall m, In m markers -> flag d m = false) -> hook d = Some (VDict _ (vdict _ d)).
Proof.
  intros H. unfold Json_Model.hook. rewrite !H by (simpl; tauto). reflexivity.
Qed.
Lemma vdict_sd d : vdict _ (sd d) = nd d.
Proof. unfold vdict, sd, nd. rewrite map_map. apply map_ext. intros [k w]. reflexivity. Qed.
Lemma decode_obj j r : dec_dict j = Some r -> decode (JObj _ j) = hook (dict_of_pairs F r).
Proof. intros H. cbn [Json_Model.decode]. unfold dec_dict in H. rewrite H. reflexivity. Qed.
Lemma dict_hook d : dict_safe d -> hook (dict_of_pairs F (sd d)) = Some (VDict _ (nd d)).
Proof.
  intros S. rewrite pairs_nodup by (rewrite sd_keys; apply S). rewrite hook_plain by (intros; now apply flag_safe). now rewrite vdict_sd.
Qed.
Lemma user_dict d j : dict_safe d -> dec_dict j = Some (sd d) -> decode (JObj _ j) = Some (VDict _ (nd d)).
Proof. intros S H. rewrite (decode_obj _ _ H). now apply dict_hook. Qed.
Lemma dget_app (a b : list (string * pv)) k : dget (a ++ b) k = match dget a k with Some v => Some v | None => dget b k end.
Proof. induction a as [|[k' v'] t IH]; simpl; auto. destruct (String.eqb k k'); auto. Qed.
Lemma dec_dict_app a b : dec_dict (a ++ b) = let* x := dec_dict a in let* y := dec_dict b in Some (x ++ y).
Proof.
  unfold dec_dict. induction a as [|[k w] t IH]; cbn [app map sequence]. { cbn [bindo]. destruct (sequence _); reflexivity. }
  unfold mk at 1 3. destruct (decode w); cbn [bindo]; auto. rewrite IH. clear IH.
  destruct (sequence (map _ t)); cbn [bindo]; auto. destruct (sequence (map _ b)); reflexivity.
Qed.
Lemma drop_none ks (d : list (string * pv)) : (forall k v, In (k, v) d -> ~ In k ks) -> drop F ks d = d.
Proof.
  intros H. unfold drop. induction d as [|[k v] t IH]; simpl; auto.
  replace (existsb (String.eqb k) ks) with false.
  - simpl. rewrite IH; auto. intros; eapply H; right; eauto.
  - symmetry. apply not_true_is_false. intros X. apply existsb_exists in X. destruct X as (x & Hx & E). apply String.eqb_eq in E. subst x.
    eapply H; [left; reflexivity|exact Hx].
Qed.
Lemma drop_app ks (a b : list (string * pv)) : drop F ks (a ++ b) = drop F ks a ++ drop F ks b.
Proof. apply filter_app. Qed.

Lemma NoDup_app_intro {A} (a b : list A) : NoDup a -> NoDup b -> (forall x, In x a -> ~ In x b) -> NoDup (a ++ b).
Proof.
  induction a as [|x t IH]; simpl; auto. intros Na Nb H. inversion Na as [|? ? N N']; subst. constructor.
  - rewrite in_app_iff. intros [X|X]; [auto|]. apply (H x); auto.
  - apply IH; auto.
Qed.
Ltac wf := cbn [jwf map fst fold_right]; repeat split; auto; 
  try (match goal with K : map fst ?j = _, S : dict_safe _ |- NoDup (map fst ?j) => rewrite K; apply S end);
  try (repeat constructor; simpl; intuition discriminate).
Theorem round_trip : forall v, ok v.
Proof.
  apply pv_ind'; unfold ok.
  - intros v. destruct v; try exact I; intros S; try (eexists; split; [reflexivity|split; [reflexivity|wf]]).
    + destruct S as (S1 & S2). destruct is_class; (eexists; split; [reflexivity|]); (split; [|wf]); unfold Json_Model.decode; cbn;
        unfold reference; rewrite S1, S2; reflexivity.
    + contradiction.
  - intros l H S. destruct (list_ok l H S) as (j & E & D & W). exists (JList _ j). cbn [Json_Model.encode Json_Model.decode]. rewrite E, D. repeat split; auto.
  - intros l H S. destruct (list_ok l H S) as (j & E & D & W). exists (JList _ j). cbn [Json_Model.encode Json_Model.decode]. rewrite E, D. repeat split; auto.
  - intros d H (S1 & S2). destruct (dict_ok d H S2) as (j & E & D & K & W). exists (JObj _ j). cbn [Json_Model.encode].
    unfold enc_dict in E. rewrite E. split; [reflexivity|]. split; [now apply user_dict|]. split; [rewrite K; apply S1|exact W].
  - intros c H S. destruct (H S) as (j & E & D & W). eexists. cbn [Json_Model.encode]. rewrite E. split; [reflexivity|]. split; [|wf].
    cbn. rewrite D. reflexivity.
  - intros i d H (S1 & S2 & S3). destruct (dict_ok d H S2) as (j & E & D & K & W). eexists. cbn [Json_Model.encode].
    unfold enc_dict in E. rewrite E. split; [reflexivity|]. split; [|wf].
    pose proof (user_dict d j S1 D) as U.
    rewrite (decode_obj _ [("__dataframe__", VBool _ true); ("content", VDict _ (nd d))])
      by (unfold dec_dict; cbn [map sequence mk bindo]; unfold mk at 2; rewrite U; reflexivity).
    cbn. unfold frame. destruct d as [|[k w] t]; [reflexivity|].
    destruct (S3 k w (or_introl eq_refl)) as (l & -> & Ll). cbn [nd map norm].
    rewrite map_length, Ll.
    match goal with |- (if ?b then _ else _) = _ => replace b with true end; [reflexivity|].
    symmetry. apply forallb_forall. intros [k' w'] Hin.
    change (In (k', w') (nd ((k, VList _ l) :: t))) in Hin. unfold nd in Hin. apply in_map_iff in Hin.
    destruct Hin as ([k2 w2] & Eq & Hin). injection Eq as <- <-. destruct (S3 k2 w2 Hin) as (l2 & -> & Ll2).
    cbn [norm snd]. rewrite map_length. apply Nat.eqb_eq. congruence.
  - intros d H (S1 & S2). destruct (dict_ok d H S2) as (j & E & D & K & W). eexists. cbn [Json_Model.encode].
    unfold enc_dict in E. rewrite E. split; [reflexivity|]. split; [|wf].
    pose proof (user_dict d j S1 D) as U.
    rewrite (decode_obj _ [("__series__", VBool _ true); ("content", VDict _ (nd d))])
      by (unfold dec_dict; cbn [map sequence mk bindo]; unfold mk at 2; rewrite U; reflexivity).
    reflexivity.
  - intros m n d H (S0 & S0' & S1 & S2). destruct (dict_ok d H S2) as (j & E & D & K & W). eexists. cbn [Json_Model.encode].
    unfold enc_dict in E. rewrite E. split; [reflexivity|]. split; [|wf].
    pose proof (user_dict d j S1 D) as U.
    rewrite (decode_obj _ [("__prior__", VBool _ true); ("__module__", VStr _ m); ("__name__", VStr _ n); ("kwargs", VDict _ (nd d))])
      by (unfold dec_dict; cbn [map sequence mk bindo]; unfold mk at 4; rewrite U; reflexivity).
    cbn. rewrite S0, S0'. reflexivity.
  - intros m n c d H (S1 & S2). destruct (dict_ok d H S2) as (j & E & D & K & W). exists (JObj _ j). cbn [Json_Model.encode].
    unfold enc_dict in E. rewrite E. split; [reflexivity|]. split; [now apply user_dict|]. split; [rewrite K; apply S1|exact W].
  - intros n d H (S0 & S1 & S2 & S3). destruct (dict_ok d H S2) as (j & E & D & K & W). eexists. cbn [Json_Model.encode].
    unfold enc_dict in E. rewrite E. split; [reflexivity|].
    rewrite (decode_obj _ (sd d ++ [("__cosmology__", VBool _ true); ("__name__", VStr _ n)]))
      by (rewrite dec_dict_app, D; reflexivity).
    assert (Kd : forall k, In k ["__cosmology__"; "__name__"] -> ~ In k (map fst (sd d))).
    { intros k Hk X. apply in_map_iff in X. destruct X as ([s v] & <- & X). apply sd_in in X. destruct X as (k' & w & Hin & -> & _).
      destruct (S3 k' w Hin) as (A & B). simpl in Hk. intuition. }
    assert (G : forall k, In k ["__cosmology__"; "__name__"] -> dget (sd d) k = None).
    { intros k Hk. apply dget_none. apply Kd, Hk. }
    split.
    2:{ cbn [jwf]. split.
        - rewrite map_app, K, <- sd_keys. apply NoDup_app_intro; [rewrite sd_keys; apply S1| |].
          + repeat constructor; simpl; intuition discriminate.
          + intros x Hx Hy. apply (Kd x); auto.
        - clear -W. induction j as [|[k w] t IH]; simpl in *; intuition. }
    rewrite pairs_nodup.
    2:{ rewrite map_app. apply NoDup_app_intro; [rewrite sd_keys; apply S1| |].
        - repeat constructor; simpl; intuition discriminate.
        - intros x Hx Hy. apply (Kd x); auto. }
    assert (Fl : forall m, In m markers -> m <> "__cosmology__" -> flag (sd d ++ [("__cosmology__", VBool _ true); ("__name__", VStr _ n)]) m = false).
    { intros m Hm Nm. unfold Json_Model.flag. rewrite dget_app.
      pose proof (flag_safe d m S1 Hm) as X. unfold Json_Model.flag in X. destruct (dget (sd d) m); auto.
      simpl. destruct (String.eqb_spec m "__cosmology__"); [contradiction|]. destruct (String.eqb_spec m "__name__") as [->|]; auto.
      simpl in Hm. intuition discriminate. }
    unfold Json_Model.hook. rewrite (Fl "__prior_dict__"), (Fl "__prior__") by (simpl; tauto || discriminate).
    replace (flag (sd d ++ [("__cosmology__", VBool _ true); ("__name__", VStr _ n)]) "__cosmology__") with true.
    2:{ unfold Json_Model.flag. rewrite dget_app, G by (simpl; tauto). reflexivity. }
    unfold get_str. rewrite dget_app, G by (simpl; tauto). cbn [dget String.eqb Ascii.eqb Bool.eqb bindo]. rewrite S0.
    rewrite drop_app, (drop_none _ (sd d)).
    + cbn. rewrite app_nil_r, vdict_sd. reflexivity.
    + intros k v Hin Hk. apply (Kd k Hk). change k with (fst (k, v)). now apply in_map.
  - intros x u H (S1 & S2). destruct (H S1) as (j & E & D & W). eexists. cbn [Json_Model.encode]. rewrite E. split; [reflexivity|]. split; [|wf].
    rewrite (decode_obj _ [("__astropy_quantity__", VBool _ true); ("value", norm x); ("unit", VStr _ u)])
      by (unfold dec_dict; cbn [map sequence mk bindo]; unfold mk at 2; rewrite D; reflexivity).
    cbn. destruct (norm x); try reflexivity. congruence.
Qed.
End P.
