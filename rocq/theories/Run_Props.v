(** * Properties of run_sampler (C154, C155, C156) *)
From Coq Require Import String Ascii.
From Coq Require Import Reals List Bool Arith Lia Lra.
From Verif Require Import PyDict Run_Model.
Import ListNotations.
Open Scope string_scope. Open Scope list_scope. Open Scope nat_scope.

(** ** C154: which sampler a name selects *)
(** a name that is not prefixed, or prefixed once *)
Definition simple_name (k : string) : Prop := strip k = k \/ exists n, k = ("bilby." ++ n)%string /\ strip n = n.
Lemma drop_length skip s : String.length (drop_prefix_from skip s) <= String.length s.
Proof.
  revert skip. induction s as [|c t IH]; intros skip; [reflexivity|]. cbn [drop_prefix_from].
  destruct skip; [destruct (String.prefix "bilby." (String c t))|]; cbn [String.length].
  - specialize (IH 5). lia.
  - specialize (IH 0). lia.
  - specialize (IH skip). lia.
Qed.
Lemma strip_prefixed n : strip ("bilby." ++ n)%string = strip n.
Proof. unfold strip. destruct n; reflexivity. Qed.
Lemma prefixed_ne n : strip ("bilby." ++ n)%string <> ("bilby." ++ n)%string.
Proof.
  rewrite strip_prefixed. intros E. pose proof (drop_length 0 n) as L. fold (strip n) in L. rewrite E in L.
  cbn in L. lia.
Qed.
Lemma append_inj a b c : (a ++ b = a ++ c)%string -> b = c.
Proof. induction a as [|x t IH]; cbn; [auto|]. intros E. injection E as E. auto. Qed.
Section Names.
Context {E : Type}.
Lemma in_items (r : dict E) k e : In (k, e) (items r) -> exists k0, In (k0, e) r /\ k = if dmem r (strip k0) then k0 else strip k0.
Proof.
  assert (G : forall (f : string -> string) (l : dict E), In (k, e) (combine (map f (map fst l)) (map snd l)) -> exists k0, In (k0, e) l /\ k = f k0).
  { intros f l. induction l as [|[k1 e1] t IH]; cbn; [tauto|].
    intros [H|H]; [injection H as <- <-; exists k1; auto|]. destruct (IH H) as (k0 & I & Q). exists k0. auto. }
  exact (G (fun k1 => if dmem r (strip k1) then k1 else strip k1) r).
Qed.

(** every listed name selects the class listed with it, and is accepted by [in] *)
Theorem C154_items (r : dict E) k e : wf r -> (forall n, In n (dkeys r) -> simple_name n) -> In (k, e) (items r) ->
  getitem r k = Some e /\ valid r k.
Proof.
  intros W S H. apply in_items in H. destruct H as (k0 & I & ->).
  assert (K : In k0 (dkeys r)) by (change k0 with (fst (k0, e)); apply in_map; exact I).
  apply (dget_in _ _ _ W) in I. destruct (dmem r (strip k0)) eqn:D.
  - unfold getitem. rewrite I. split; [reflexivity|left; exact K].
  - split; [|right; apply in_map; exact K]. unfold getitem. unfold dmem in D. destruct (dget r (strip k0)) eqn:G; [discriminate|].
    destruct (S _ K) as [Q|(n & Q & Q')]; [congruence|]. subst k0. rewrite strip_prefixed, Q'. exact I.
Qed.
(** a name is accepted exactly when it selects something *)
Theorem C154_valid (r : dict E) k : (forall n, In n (dkeys r) -> simple_name n) ->
  strip k = k -> (getitem r k <> None <-> valid r k).
Proof.
  intros S Sk. unfold getitem, valid. split.
  - intros H. destruct (dget r k) eqn:G.
    + left. apply dmem_in. unfold dmem. rewrite G. reflexivity.
    + destruct (dget r ("bilby." ++ k)%string) eqn:G'; [|congruence]. right. apply in_map_iff.
      exists ("bilby." ++ k)%string. rewrite strip_prefixed. split; [exact Sk|]. apply dmem_in. unfold dmem. rewrite G'. reflexivity.
  - intros H. destruct (dget r k) eqn:G; [congruence|]. apply dget_none in G. destruct H as [H|H]; [contradiction|].
    apply in_map_iff in H. destruct H as (k0 & Q & I). destruct (S _ I) as [Q'|(n & Q' & Q'')]; [rewrite Q' in Q; subst; contradiction|].
    subst k0. rewrite strip_prefixed, Q'' in Q. subst n. apply dmem_in in I. unfold dmem in I.
    destruct (dget r ("bilby." ++ k)%string); [congruence|discriminate].
Qed.
(** the listed names are distinct *)
Theorem C154_distinct (r : dict E) : wf r -> (forall n, In n (dkeys r) -> simple_name n) -> NoDup (keys r).
Proof.
  intros W S. unfold keys. unfold wf in W.
  assert (G : forall l, NoDup l -> incl l (dkeys r) -> NoDup (map (fun k => if dmem r (strip k) then k else strip k) l)).
  { induction l as [|k t IH]; intros N I; [constructor|]. cbn [map]. inversion N as [|? ? N1 N2]; subst. constructor.
    2:{ apply IH; [exact N2|]. intros x Hx. apply I. right. exact Hx. }
    intros H. apply in_map_iff in H. destruct H as (k' & Q & I').
    assert (K : In k (dkeys r)) by (apply I; left; reflexivity). assert (K' : In k' (dkeys r)) by (apply I; right; exact I').
    assert (NE : k <> k') by (intros ->; contradiction).
    destruct (dmem r (strip k)) eqn:D, (dmem r (strip k')) eqn:D'; [congruence| | |].
    - rewrite Q in D'. apply dmem_in in K. congruence.
    - rewrite <- Q in D. apply dmem_in in K'. congruence.
    - assert (A : forall x, In x (dkeys r) -> dmem r (strip x) = false -> x = ("bilby." ++ strip x)%string).
      { intros x Hx Dx. destruct (S _ Hx) as [Z|(n & Z & Z')].
        - rewrite Z in Dx. apply dmem_in in Hx. congruence.
        - rewrite Z at 2. rewrite strip_prefixed, Z'. exact Z. }
      apply NE. rewrite (A _ K D), (A _ K' D'), Q. reflexivity. }
  apply G; [exact W|apply incl_refl].
Qed.
(** installing a plugin changes what its own name selects and nothing else *)
Theorem C154_plugin (r : dict E) n e k : strip n = n ->
  getitem (dset r n e) n = Some e /\ (k <> n -> getitem (dset r n e) k = getitem r k) /\
  getitem (dset r n e) ("bilby." ++ n) = getitem r ("bilby." ++ n).
Proof.
  intros S. assert (P : forall m, ("bilby." ++ m)%string <> n) by (intros m Q; apply (prefixed_ne m); rewrite Q; exact S).
  unfold getitem. split; [|split].
  - rewrite dget_set_eq. reflexivity.
  - intros N. rewrite !dget_set_ne by auto. reflexivity.
  - rewrite !dget_set_ne by apply P. reflexivity.
Qed.
Lemma lower_char_idem c : lower_char (lower_char c) = lower_char c.
Proof. destruct c as [[] [] [] [] [] [] [] []]; reflexivity. Qed.
Lemma lower_idem s : lower (lower s) = lower s.
Proof. induction s as [|c t IH]; [reflexivity|]. cbn [lower]. rewrite lower_char_idem, IH. reflexivity. Qed.
(** the same letter, one perhaps a capital: A, ..., Z are the characters 65, ..., 90 and a, ..., z the characters 97, ..., 122 *)
Definition same_letter (c d : ascii) : Prop :=
  c = d \/ exists i, i < 26 /\ ((c = ascii_of_nat (65 + i) /\ d = ascii_of_nat (97 + i)) \/ (c = ascii_of_nat (97 + i) /\ d = ascii_of_nat (65 + i))).
Inductive same_name : string -> string -> Prop :=
| sn_nil : same_name EmptyString EmptyString
| sn_cons c d s t : same_letter c d -> same_name s t -> same_name (String c s) (String d t).
Lemma same_letter_lower c d : same_letter c d -> lower_char c = lower_char d.
Proof.
  intros [->|(i & Hi & H)]; [reflexivity|]. do 26 (destruct i as [|i]; [destruct H as [[-> ->]|[-> ->]]; vm_compute; reflexivity|]). lia.
Qed.
Lemma same_name_lower s t : same_name s t -> lower s = lower t.
Proof. induction 1 as [|c d s t H _ IH]; [reflexivity|]. cbn [lower]. rewrite (same_letter_lower c d H), IH. reflexivity. Qed.
(** the class does not depend on the case of the letters; a listed lower-case name is found *)
Theorem C154_case (r : dict E) k k' : same_name k k' -> get_sampler_class r k = get_sampler_class r k'.
Proof. intros Q. unfold get_sampler_class. rewrite (same_name_lower k k' Q). reflexivity. Qed.
Fixpoint no_capital (s : string) : Prop := match s with EmptyString => True | String c t => ~ (65 <= nat_of_ascii c <= 90) /\ no_capital t end.
Lemma no_capital_lower s : no_capital s -> lower s = s.
Proof.
  induction s as [|c t IH]; [reflexivity|]. intros [H1 H2]. cbn [lower]. rewrite (IH H2). f_equal. unfold lower_char.
  destruct (Nat.leb_spec 65 (nat_of_ascii c)), (Nat.leb_spec (nat_of_ascii c) 90); cbn [andb]; try reflexivity. lia.
Qed.
Theorem C154_listed (r : dict E) k k' e : wf r -> (forall n, In n (dkeys r) -> simple_name n) -> In (k, e) (items r) ->
  no_capital k -> same_name k' k -> get_sampler_class r k' = Some e.
Proof. intros W S I L L'. unfold get_sampler_class. rewrite (same_name_lower k' k L'), (no_capital_lower k L). apply (C154_items r k e W S I). Qed.
(** a listed name with the prefix in the middle, or with a capital letter, selects nothing *)
Theorem C154_inner_prefix_refuted (e : E) : exists r k, wf r /\ In (k, e) (items r) /\ getitem r k = None.
Proof.
  exists [("my.bilby.x", e)], "my.x". split; [|split; [left|]; reflexivity].
  unfold wf. constructor; [intros []|constructor].
Qed.
Theorem C154_capital_refuted (e : E) : exists r k, wf r /\ (forall n, In n (dkeys r) -> simple_name n) /\
  In (k, e) (items r) /\ getitem r k = Some e /\ get_sampler_class r k = None.
Proof.
  exists [("Mine", e)], "Mine". repeat split; try reflexivity; try (left; reflexivity).
  - unfold wf. constructor; [intros []|constructor].
  - intros n [<-|[]]. left. reflexivity.
Qed.
End Names.
Definition reg0 : dict nat := [("bilby.dynesty", 1); ("dynesty", 2); ("bilby.emcee", 3)].
Example C154_ex : keys reg0 = ["bilby.dynesty"; "dynesty"; "emcee"] /\ get_sampler_class reg0 "Dynesty" = Some 2 /\
  get_sampler_class reg0 "EMCEE" = Some 3 /\ get_sampler_class reg0 "bilby.Dynesty" = Some 1 /\ get_sampler_class reg0 "nestle" = None.
Proof. vm_compute. auto. Qed.

(** ** C155: when a stored result is reused *)
Lemma same_keys_spec a b : same_keys a b = true <-> a = b.
Proof. unfold same_keys. destruct (list_eq_dec string_dec a b); split; congruence. Qed.
Fixpoint last_char (s : string) : option ascii :=
  match s with EmptyString => None | String c EmptyString => Some c | String _ t => last_char t end.
Lemma last_char_app a b : b <> EmptyString -> last_char (a ++ b)%string = last_char b.
Proof.
  intros N. induction a as [|c t IH]; [reflexivity|]. cbn [append last_char]. rewrite IH.
  destruct t; [destruct b; [congruence|reflexivity]|reflexivity].
Qed.
Lemma json_last d l : last_char (d ++ "/" ++ l ++ "_result." ++ "json")%string = Some "n"%char.
Proof. rewrite last_char_app by (cbn; discriminate). change ("/" ++ l ++ "_result." ++ "json")%string with (String "/" (l ++ "_result.json"))%string.
  change (String "/" (l ++ "_result.json"))%string with ("/" ++ (l ++ "_result.json"))%string.
  rewrite last_char_app by (destruct l; cbn; discriminate). rewrite last_char_app by discriminate. reflexivity.
Qed.
(** the plain JSON file that is looked for *)
Definition json_file (outdir label : string) : string := (outdir ++ "/" ++ label ++ "_result.json")%string.
Lemma cache_name_eq d l : cache_name d l = Some (json_file d l).
Proof. reflexivity. Qed.
Lemma name_last x b : b <> EmptyString -> forall d l, last_char (d ++ "/" ++ l ++ x ++ b)%string = last_char b.
Proof.
  intros N d l. assert (A : forall s, s <> EmptyString -> last_char (d ++ s)%string = last_char s) by (intros s; apply last_char_app).
  rewrite A by (cbn; discriminate). rewrite last_char_app by (destruct l, x; cbn; try discriminate; exact N).
  rewrite last_char_app by (destruct x; cbn; try discriminate; exact N). apply last_char_app. exact N.
Qed.

Lemma some_eq {A} (x y : A) : Some x = Some y -> x = y.
Proof. congruence. Qed.
Section Cache.
Context {P M I : Type}.
Variable meta_equal : M -> M -> bool.
Variable use_cached : bool.
Variable sampled : nat -> @args P M I -> R * stime.
Notation run := (@run P M I meta_equal use_cached sampled).
Notation calls := (@calls P M I meta_equal use_cached sampled).
Notation args := (@args P M I).
Notation result := (@result P M I).
Notation st := (@st P M I).

(** plain JSON output; output that never yields the plain JSON file *)
Definition plain (a : args) : Prop := (a_save a = SaveTrue \/ a_save a = SaveAs "json") /\ a_gzip a = false.
Definition not_plain (a : args) : Prop :=
  a_save a = NoSave \/ a_gzip a = true \/ exists e, a_save a = SaveAs e /\ e <> "json".
Lemma save_plain a f r : plain a -> save a f r = Some (upd f (json_file (a_outdir a) (a_label a)) r).
Proof. intros [[S|S] G]; unfold save, save_name; rewrite S, G; reflexivity. Qed.
Lemma save_not_plain a f r f' d l : not_plain a -> save a f r = Some f' -> f' (json_file d l) = f (json_file d l).
Proof.
  intros N. unfold save. destruct (save_name (a_outdir a) (a_label a) (a_save a) (a_gzip a)) as [[p|]|] eqn:S; [|discriminate|].
  2:{ intros Q. injection Q as <-. reflexivity. }
  intros Q. injection Q as <-. unfold upd. destruct (String.eqb_spec (json_file d l) p) as [E|E]; [exfalso|reflexivity].
  assert (L : last_char p = Some "n"%char) by (rewrite <- E; apply (name_last "_result." "json"); discriminate).
  assert (G : forall e p, result_file_name (a_outdir a) (a_label a) e (a_gzip a) = Some p -> (a_gzip a = true \/ e <> "json") -> last_char p <> Some "n"%char).
  { intros e q Q. unfold result_file_name in Q. destruct (String.eqb_spec e "pickle") as [->|Ne].
    - assert (L0 : last_char (a_outdir a ++ "/" ++ a_label a ++ "_result." ++ "pkl")%string = last_char q)
        by exact (f_equal (fun o => match o with Some x => last_char x | None => None end) Q).
      rewrite (name_last "_result." "pkl") in L0 by discriminate. intros _. rewrite <- L0. cbn. discriminate.
    - destruct (String.eqb_spec e "json") as [->|Nj].
      + intros [Gz|X]; [|congruence]. rewrite Gz in Q. injection Q as <-.
        rewrite last_char_app by discriminate. cbn. discriminate.
      + intros _. destruct (String.eqb_spec e "hdf5") as [->|Nh].
        * assert (L0 : last_char (a_outdir a ++ "/" ++ a_label a ++ "_result." ++ "hdf5")%string = last_char q)
        by exact (f_equal (fun o => match o with Some x => last_char x | None => None end) Q).
      rewrite (name_last "_result." "hdf5") in L0 by discriminate. rewrite <- L0. cbn. discriminate.
        * destruct (String.eqb_spec e "pkl") as [->|Np]; [|discriminate].
          assert (L0 : last_char (a_outdir a ++ "/" ++ a_label a ++ "_result." ++ "pkl")%string = last_char q)
        by exact (f_equal (fun o => match o with Some x => last_char x | None => None end) Q).
      rewrite (name_last "_result." "pkl") in L0 by discriminate. rewrite <- L0. cbn. discriminate. }
  unfold save_name in S. destruct N as [N|[N|(e & N & Ne)]].
  - rewrite N in S. discriminate.
  - destruct (a_save a) as [| |e]; [discriminate| |]; apply some_eq in S; apply (G _ _ S); auto.
  - rewrite N in S. apply some_eq in S. apply (G _ _ S); auto.
Qed.

Lemma finish_runs (a : args) (r : result) (s : st) : s_runs (snd (finish a r s)) = s_runs s /\ s_clean (snd (finish a r s)) = s_clean s.
Proof. unfold finish. destruct (_ && _)%bool; [auto|]. destruct (save _ _ _); auto. Qed.
Lemma finish_ran (a : args) (r : result) (s : st) o s' : finish a r s = (Returned o, s') ->
  r_run o = r_run r /\ r_prior o = r_prior r /\ r_meta o = r_meta r /\ r_search o = r_search r /\ r_fixed o = r_fixed r /\
  r_noise o = r_noise r /\ r_bayes o = r_bayes r /\ r_evid o = r_evid r /\ r_time o = r_time r /\ r_post o = true /\
  r_inj o = r_inj (convert a r).
Proof.
  unfold finish. destruct (_ && _)%bool; [discriminate|]. destruct (save _ _ _); [|discriminate]. intros Q. injection Q as <- <-.
  cbn. unfold convert. destruct (r_inj r) eqn:Ei, (a_conv a); cbn; rewrite ?Ei; tauto.
Qed.
(** the clean option in force during a call *)
Definition cleaned (a : args) (s : st) : Prop := a_clean a = Some true \/ s_clean s = true.
Lemma cleaned_dec a s : (match a_clean a with Some true => true | _ => s_clean s end) = true <-> cleaned a s.
Proof. unfold cleaned. destruct (a_clean a) as [[]|]; split; intros H; auto; destruct H; congruence. Qed.

(** exactly when a call uses the stored result instead of sampling *)
Definition usable (a : args) (s : st) (r : result) : Prop :=
  ~ cleaned a s /\ s_files s (json_file (a_outdir a) (a_label a)) = Some r /\
  (use_cached = true \/ exists m, r_meta r = Some m /\ r_search r = a_search a /\ r_fixed r = a_fixed a /\ meta_equal (a_meta a) m = true).
(** a stored result without likelihood meta data stops the call *)
Definition broken (a : args) (s : st) : Prop :=
  ~ cleaned a s /\ use_cached = false /\ exists r, s_files s (json_file (a_outdir a) (a_label a)) = Some r /\ r_meta r = None.
Lemma check_cases a s : let c := match a_clean a with Some true => true | _ => s_clean s end in
  let k := check_cached meta_equal use_cached c (s_files s (json_file (a_outdir a) (a_label a))) a in
  (exists r, k = inl (Some r) /\ usable a s r) \/ (k = inr KeyError /\ broken a s) \/
  (k = inl None /\ ~ broken a s /\ forall r, ~ usable a s r).
Proof.
  intros c k. unfold k, check_cached. destruct c eqn:C.
  - right. right. apply cleaned_dec in C. split; [reflexivity|]. split; [intros [N _]; contradiction|intros r [N _]; contradiction].
  - assert (NC : ~ cleaned a s) by (rewrite <- cleaned_dec; fold c; rewrite C; discriminate).
    destruct use_cached eqn:U.
    + destruct (s_files s _) as [r|] eqn:F.
      * left. exists r. split; [reflexivity|]. split; [exact NC|]. split; [exact F|]. left. exact U.
      * right. right. split; [reflexivity|]. split; [intros (_ & X & _); congruence|]. intros r (_ & X & _). congruence.
    + destruct (s_files s _) as [r|] eqn:F.
      2:{ right. right. split; [reflexivity|]. split; [intros (_ & _ & r & X & _); congruence|intros r (_ & X & _); congruence]. }
      destruct (r_meta r) as [m|] eqn:Mr.
      2:{ right. left. split; [reflexivity|]. split; [exact NC|]. split; [exact U|]. exists r. auto. }
      destruct (_ && _ && _)%bool eqn:B.
      * left. exists r. split; [reflexivity|]. apply andb_prop in B. destruct B as [B B3]. apply andb_prop in B. destruct B as [B1 B2].
        apply same_keys_spec in B1. apply same_keys_spec in B2. split; [exact NC|]. split; [exact F|]. right. exists m. auto.
      * right. right. split; [reflexivity|]. split.
        -- intros (_ & _ & r' & X & X'). congruence.
        -- intros r' (_ & X & [X'|(m' & X1 & X2 & X3 & X4)]); [congruence|]. rewrite F in X. injection X as <-.
           rewrite Mr in X1. injection X1 as <-. apply same_keys_spec in X2. apply same_keys_spec in X3. rewrite X2, X3, X4 in B. discriminate.
Qed.
Lemma run_fresh_runs a s : (forall r, ~ usable a s r) -> ~ broken a s -> s_runs (snd (run a s)) = S (s_runs s).
Proof.
  intros N B. unfold run, Run_Model.run. rewrite cache_name_eq. cbn [s_files s_runs].
  destruct (check_cases a s) as [(r & _ & U)|[(_ & X)|(-> & _)]]; [exfalso; exact (N r U)|contradiction|].
  destruct (save _ _ _); [|reflexivity]. rewrite (proj1 (finish_runs a _ _)). reflexivity.
Qed.
Theorem C155_reused_iff a s : (s_runs (snd (run a s)) = s_runs s <-> (exists r, usable a s r) \/ broken a s) /\
  (s_runs (snd (run a s)) = s_runs s \/ s_runs (snd (run a s)) = S (s_runs s)).
Proof.
  destruct (check_cases a s) as [(r & Q & U)|[(Q & X)|(Q & B & N)]].
  - assert (H : s_runs (snd (run a s)) = s_runs s).
    { unfold run, Run_Model.run. rewrite cache_name_eq. cbn [s_files s_runs]. rewrite Q. rewrite (proj1 (finish_runs a r _)). reflexivity. }
    split; [split; [intros _; left; exists r; exact U|auto]|auto].
  - assert (H : s_runs (snd (run a s)) = s_runs s).
    { unfold run, Run_Model.run. rewrite cache_name_eq. cbn [s_files s_runs]. rewrite Q. reflexivity. }
    split; [split; auto|auto].
  - pose proof (run_fresh_runs a s N B) as H. rewrite H. split; [|auto]. split; [lia|].
    intros [(r & U)|X]; [exfalso; exact (N r U)|contradiction].
Qed.
(** the result returned without sampling is the stored one; only the injection parameters and
    the posterior can differ *)
Theorem C155_reused a s r o s' : usable a s r -> run a s = (Returned o, s') ->
  r_run o = r_run r /\ r_prior o = r_prior r /\ r_meta o = r_meta r /\ r_search o = r_search r /\ r_fixed o = r_fixed r /\
  r_noise o = r_noise r /\ r_bayes o = r_bayes r /\ r_evid o = r_evid r /\ r_time o = r_time r /\ r_post o = true.
Proof.
  intros U H. unfold run, Run_Model.run in H. rewrite cache_name_eq in H. cbn [s_files s_runs] in H.
  destruct (check_cases a s) as [(r' & Q & U')|[(Q & X)|(Q & B & N)]]; [| |exfalso; exact (N r U)].
  - assert (r' = r) by (destruct U as (_ & F & _), U' as (_ & F' & _); congruence). subst r'.
    rewrite Q in H. apply finish_ran in H. tauto.
  - rewrite Q in H. discriminate.
Qed.
(** a result that was sampled carries the arguments of this very call *)
Theorem C155_sampled a s o s' : ~ broken a s -> (forall r, ~ usable a s r) -> run a s = (Returned o, s') ->
  r_run o = s_runs s /\ r_prior o = a_prior a /\ r_meta o = Some (a_meta a) /\ r_search o = a_search a /\ r_fixed o = a_fixed a /\ r_post o = true.
Proof.
  intros B N H. unfold run, Run_Model.run in H. rewrite cache_name_eq in H. cbn [s_files s_runs] in H.
  destruct (check_cases a s) as [(r & _ & U)|[(_ & X)|(Q & _)]]; [exfalso; exact (N r U)|contradiction|].
  rewrite Q in H. destruct (save _ _ _); [|discriminate]. apply finish_ran in H.
  assert (G : r_run (convert a (fresh sampled (s_runs s) a)) = s_runs s /\ r_prior (convert a (fresh sampled (s_runs s) a)) = a_prior a /\
    r_meta (convert a (fresh sampled (s_runs s) a)) = Some (a_meta a) /\ r_search (convert a (fresh sampled (s_runs s) a)) = a_search a /\
    r_fixed (convert a (fresh sampled (s_runs s) a)) = a_fixed a).
  { unfold fresh. destruct (sampled _ _) as [z t]. destruct (evidences _ _ _) as [[n b] e]. unfold convert. cbn [r_inj].
    destruct (a_inj a), (a_conv a); cbn; auto. }
  destruct G as (G1 & G2 & G3 & G4 & G5). destruct H as (H1 & H2 & H3 & H4 & H5 & _ & _ & _ & _ & H6 & _).
  rewrite H1, H2, H3, H4, H5. auto 7.
Qed.

Lemma run_clean a s : s_clean (snd (run a s)) = match a_clean a with Some true => true | _ => s_clean s end.
Proof.
  unfold run, Run_Model.run. rewrite cache_name_eq. cbn [s_files s_runs].
  destruct (check_cached _ _ _ _ _) as [[r|]|e]; [rewrite (proj2 (finish_runs a _ _)); reflexivity| |reflexivity].
  destruct (save _ _ _); [rewrite (proj2 (finish_runs a _ _)); reflexivity|reflexivity].
Qed.
(** clean=True stays in force for every later call of the process, whatever that call asks for *)
Theorem C155_clean_sticky a l s : a_clean a = Some true ->
  s_runs (snd (calls (a :: l) s)) = s_runs s + S (length l).
Proof.
  intros C. assert (G : forall l s, s_clean s = true -> s_runs (snd (calls l s)) = s_runs s + length l).
  { clear. induction l as [|a l IH]; intros s C; [cbn; lia|]. cbn [Run_Model.calls length].
    destruct (run a s) as [o s1] eqn:R1. destruct (calls l s1) as [os s2] eqn:R2. cbn [snd].
    assert (S1 : s_runs s1 = S (s_runs s)).
    { change s1 with (snd (o, s1)). rewrite <- R1. apply run_fresh_runs; [intros r [N _]|intros [N _]]; apply N; right; exact C. }
    assert (C1 : s_clean s1 = true). { change s1 with (snd (o, s1)). rewrite <- R1, run_clean, C. destruct (a_clean a) as [[]|]; reflexivity. }
    specialize (IH s1 C1). rewrite R2 in IH. cbn [snd] in IH. lia. }
  cbn [Run_Model.calls]. destruct (run a s) as [o s1] eqn:R1. destruct (calls l s1) as [os s2] eqn:R2. cbn [snd].
  assert (S1 : s_runs s1 = S (s_runs s)).
  { change s1 with (snd (o, s1)). rewrite <- R1. apply run_fresh_runs; [intros r [N _]|intros [N _]]; apply N; left; exact C. }
  assert (C1 : s_clean s1 = true) by (change s1 with (snd (o, s1)); rewrite <- R1, run_clean, C; reflexivity).
  specialize (G l s1 C1). rewrite R2 in G. cbn [snd] in G. lia.
Qed.

Lemma run_plain_file a s o s' : plain a -> run a s = (Returned o, s') -> s_files s' (json_file (a_outdir a) (a_label a)) = Some o.
Proof.
  intros Pl H. unfold run, Run_Model.run in H. rewrite cache_name_eq in H. cbn [s_files s_runs] in H.
  assert (F : forall r s0, finish a r s0 = (Returned o, s') -> s_files s' (json_file (a_outdir a) (a_label a)) = Some o).
  { intros r s0. unfold finish. destruct (_ && _)%bool; [discriminate|]. rewrite save_plain by exact Pl. intros Q. injection Q as <- <-.
    cbn [s_files]. unfold upd. rewrite String.eqb_refl. reflexivity. }
  destruct (check_cached _ _ _ _ _) as [[r|]|e]; [exact (F _ _ H)| |discriminate].
  destruct (save _ _ _); [exact (F _ _ H)|discriminate].
Qed.
(** after a completed call with plain JSON output, a later call in the same place with the same
    keys and equal likelihood meta data gets that result back, whatever its priors are *)
Theorem C155_priors_ignored a b s o s' : plain a -> run a s = (Returned o, s') ->
  a_outdir b = a_outdir a -> a_label b = a_label a -> a_search b = a_search a -> a_fixed b = a_fixed a ->
  meta_equal (a_meta b) (a_meta a) = true -> ~ cleaned a s -> (forall r, ~ usable a s r) -> a_clean b <> Some true ->
  exists o' s'', run b s' = (o', s'') /\ s_runs s'' = s_runs s' /\
  (forall r, o' = Returned r -> r_run r = r_run o /\ r_prior r = a_prior a).
Proof.
  intros Pl H Ed El Es Ef Em NC NU NB. assert (F := run_plain_file a s o s' Pl H).
  assert (Bk : ~ broken a s).
  { intros (_ & U & r & Fr & Mr). unfold run, Run_Model.run in H. rewrite cache_name_eq in H. cbn [s_files s_runs] in H.
    unfold check_cached in H. rewrite Fr, U, Mr in H. destruct (match a_clean a with Some true => true | _ => s_clean s end) eqn:C; [|discriminate].
    apply cleaned_dec in C. contradiction. }
  destruct (C155_sampled a s o s' Bk NU H) as (G1 & G2 & G3 & G4 & G5 & _).
  assert (Cl : s_clean s' = false).
  { change s' with (snd (Returned o, s')). rewrite <- H, run_clean. destruct (match a_clean a with Some true => true | _ => s_clean s end) eqn:C; [|reflexivity].
    apply cleaned_dec in C. contradiction. }
  assert (U : usable b s' o).
  { split; [intros [X|X]; congruence|]. rewrite Ed, El. split; [exact F|]. right. exists (a_meta a). repeat split; congruence. }
  destruct (run b s') as [o' s''] eqn:R. exists o', s''. split; [reflexivity|]. split.
  - change s'' with (snd (o', s'')). rewrite <- R. apply C155_reused_iff. left. exists o. exact U.
  - intros r ->. destruct (C155_reused b s' o r s'' U R) as (A & B & _). split; [exact A|]. congruence.
Qed.
(** results written as gzipped JSON, HDF5 or pickle, or not written, are never found again *)
Theorem C155_other_formats l s d lab : (forall a, In a l -> not_plain a) -> (forall a, In a l -> a_outdir a = d /\ a_label a = lab) ->
  s_files s (json_file d lab) = None ->
  s_runs (snd (calls l s)) = s_runs s + length l /\ s_files (snd (calls l s)) (json_file d lab) = None.
Proof.
  revert s. induction l as [|a l IH]; intros s N Q F; [cbn; split; [lia|exact F]|]. cbn [Run_Model.calls length].
  destruct (run a s) as [o s1] eqn:R1. destruct (calls l s1) as [os s2] eqn:R2. cbn [snd].
  destruct (Q a (or_introl eq_refl)) as [Qd Ql].
  assert (S1 : s_runs s1 = S (s_runs s)).
  { change s1 with (snd (o, s1)). rewrite <- R1. apply run_fresh_runs.
    - intros r (_ & X & _). rewrite Qd, Ql, F in X. discriminate.
    - intros (_ & _ & r & X & _). rewrite Qd, Ql, F in X. discriminate. }
  assert (F1 : s_files s1 (json_file d lab) = None).
  { assert (Na := N a (or_introl eq_refl)).
    assert (G : forall r s0, s_files s0 (json_file d lab) = None -> s_files (snd (finish a r s0)) (json_file d lab) = None).
    { intros r s0 F0. unfold finish. destruct (_ && _)%bool; [exact F0|]. destruct (save a (s_files s0) _) eqn:Sv; [|exact F0].
      cbn [snd s_files]. rewrite (save_not_plain a _ _ _ d lab Na Sv). exact F0. }
    change s1 with (snd (o, s1)). rewrite <- R1. unfold run, Run_Model.run. rewrite cache_name_eq. cbn [s_files s_runs].
    destruct (check_cached _ _ _ _ _) as [[r|]|e]; [apply G; exact F| |exact F].
    destruct (save a _ _) eqn:Sv; [|exact F]. apply G. cbn [s_files]. rewrite (save_not_plain a _ _ _ d lab Na Sv). exact F. }
  destruct (IH s1) as [A B]; [intros x Hx; apply N; right; exact Hx|intros x Hx; apply Q; right; exact Hx|exact F1|].
  rewrite R2 in A, B. cbn [snd] in A, B. split; [lia|exact B].
Qed.
(** when making the posterior fails after sampling, the samples are on disk: repeating the call
    in a new process finishes without sampling again *)
Theorem C155_failure_recovered a b s : plain a -> (forall r, ~ usable a s r) -> ~ broken a s -> a_fail a = true ->
  a_outdir b = a_outdir a -> a_label b = a_label a -> a_search b = a_search a -> a_fixed b = a_fixed a ->
  meta_equal (a_meta b) (a_meta a) = true -> a_clean b <> Some true -> plain b -> a_fail b = false ->
  exists s1, run a s = (Raised PosteriorError, s1) /\ s_runs s1 = S (s_runs s) /\
  exists o s2, run b (relaunch s1) = (Returned o, s2) /\ s_runs s2 = s_runs s1 /\ r_run o = s_runs s /\ r_post o = true.
Proof.
  intros Pl NU Bk Fa Ed El Es Ef Em Cb Pb Fb.
  set (r0 := convert a (fresh sampled (s_runs s) a)).
  assert (R0 : r_run r0 = s_runs s /\ r_post r0 = false /\ r_meta r0 = Some (a_meta a) /\ r_search r0 = a_search a /\ r_fixed r0 = a_fixed a).
  { unfold r0, fresh. destruct (sampled _ _) as [z t]. destruct (evidences _ _ _) as [[n x] e]. unfold convert. cbn [r_inj].
    destruct (a_inj a), (a_conv a); cbn; auto. }
  destruct R0 as (G1 & G2 & G3 & G4 & G5).
  set (c := match a_clean a with Some true => true | _ => s_clean s end).
  exists (mkSt c (upd (s_files s) (json_file (a_outdir a) (a_label a)) r0) (S (s_runs s))). split; [|split; [reflexivity|]].
  - unfold run, Run_Model.run. rewrite cache_name_eq. cbn [s_files s_runs]. fold c.
    destruct (check_cases a s) as [(r & _ & U)|[(_ & X)|(Q & _)]]; [exfalso; exact (NU r U)|contradiction|].
    fold c in Q. rewrite Q. fold r0. rewrite save_plain by exact Pl. unfold finish.
    replace (r_post (convert a r0)) with false by (unfold convert; destruct (r_inj r0), (a_conv a); cbn; congruence).
    rewrite Fa. reflexivity.
  - set (s1 := mkSt c _ _). set (f1 := s_files s1).
    assert (U : usable b (relaunch s1) r0).
    { split; [intros [X|X]; [contradiction|discriminate]|]. split.
      - cbn [relaunch s_files s1]. rewrite Ed, El. unfold upd. rewrite String.eqb_refl. reflexivity.
      - right. exists (a_meta a). repeat split; congruence. }
    destruct (check_cases b (relaunch s1)) as [(r & Q & U')|[(_ & X)|(_ & _ & N)]]; [| |exfalso; exact (N r0 U)].
    + assert (r = r0) by (destruct U as (_ & F & _), U' as (_ & F' & _); congruence). subst r.
      destruct (run b (relaunch s1)) as [o s2] eqn:R. assert (R' := R). unfold run, Run_Model.run in R'. rewrite cache_name_eq in R'.
      cbn [s_files s_runs] in R'. rewrite Q in R'. unfold finish in R'. rewrite Fb, andb_false_r, save_plain in R' by exact Pb.
      injection R' as <- <-. eexists _, _. split; [reflexivity|]. cbn. split; [reflexivity|]. split; [|reflexivity].
      unfold convert. destruct (r_inj r0), (a_conv b); exact G1.
    + exfalso. destruct X as (_ & _ & r & F & Mr). destruct U as (_ & F' & _). congruence.
Qed.
(** an unknown output format is reported only after the sampling, whose result is then lost *)
Theorem C155_unknown_format a s e : a_save a = SaveAs e -> e <> "json" -> e <> "hdf5" -> e <> "pkl" -> e <> "pickle" ->
  (forall r, ~ usable a s r) -> ~ broken a s ->
  exists s1, run a s = (Raised ValueError, s1) /\ s_runs s1 = S (s_runs s) /\ s_files s1 = s_files s.
Proof.
  intros Sv N1 N2 N3 N4 NU Bk. exists (mkSt (match a_clean a with Some true => true | _ => s_clean s end) (s_files s) (S (s_runs s))).
  split; [|split; reflexivity].
  - unfold run, Run_Model.run. rewrite cache_name_eq. cbn [s_files s_runs].
    destruct (check_cases a s) as [(r & _ & U)|[(_ & X)|(-> & _)]]; [exfalso; exact (NU r U)|contradiction|].
    assert (Z : forall f r, save a f r = None).
    { intros f r. unfold save, save_name. rewrite Sv. unfold result_file_name.
      destruct (String.eqb_spec e "pickle"); [contradiction|]. destruct (String.eqb_spec e "json"); [contradiction|].
      destruct (String.eqb_spec e "hdf5"); [contradiction|]. destruct (String.eqb_spec e "pkl"); [contradiction|]. reflexivity. }
    rewrite Z. reflexivity.
Qed.

(** ** C156: what the returned result holds *)
Open Scope R_scope.
(** evidence = Bayes factor + noise evidence, for the results in memory and on disk *)
Definition balanced (r : result) : Prop := r_evid r = r_bayes r + r_noise r.
Definition all_balanced (s : st) : Prop := forall p r, s_files s p = Some r -> balanced r.
Lemma fresh_balanced n a : balanced (fresh sampled n a).
Proof.
  unfold fresh. destruct (sampled n a) as [z t]. unfold evidences. destruct (truthy _); unfold balanced; cbn; ring.
Qed.
Lemma convert_balanced a r : balanced r -> balanced (convert a r).
Proof. unfold balanced, convert. destruct (r_inj r), (a_conv a); auto. Qed.
Lemma save_balanced a f r f' : (forall p q, f p = Some q -> balanced q) -> balanced r -> save a f r = Some f' -> forall p q, f' p = Some q -> balanced q.
Proof.
  intros F B. unfold save. destruct (save_name _ _ _ _) as [[p|]|]; [|discriminate|]; intros Q; injection Q as <-; [|exact F].
  intros p' q. unfold upd. destruct (String.eqb p' p); [|apply F]. intros Q. injection Q as <-. exact B.
Qed.
Lemma finish_balanced a r s : balanced r -> all_balanced s -> all_balanced (snd (finish a r s)) /\ forall o, fst (finish a r s) = Returned o -> balanced o.
Proof.
  intros B A. unfold finish. destruct (_ && _)%bool; [split; [exact A|discriminate]|].
  assert (B' : balanced (with_post (convert a r))) by (apply (convert_balanced a) in B; exact B).
  destruct (save a (s_files s) _) as [f0|] eqn:Sv; [|split; [exact A|discriminate]]. split.
  - intros p q. cbn [snd s_files]. exact (save_balanced a _ _ _ A B' Sv p q).
  - intros o Q. injection Q as <-. exact B'.
Qed.
Theorem C156_evidence l s : all_balanced s ->
  all_balanced (snd (calls l s)) /\ forall o, In (Returned o) (fst (calls l s)) -> r_evid o = r_bayes o + r_noise o.
Proof.
  revert s. induction l as [|a l IH]; intros s A; [split; [exact A|intros o []]|]. cbn [Run_Model.calls].
  destruct (run a s) as [o1 s1] eqn:R1. destruct (calls l s1) as [os s2] eqn:R2. cbn [fst snd].
  assert (G : all_balanced s1 /\ forall o, o1 = Returned o -> balanced o).
  { unfold run, Run_Model.run in R1. rewrite cache_name_eq in R1. cbn [s_files s_runs] in R1.
    assert (F : forall r s0, balanced r -> all_balanced s0 -> finish a r s0 = (o1, s1) -> all_balanced s1 /\ forall o, o1 = Returned o -> balanced o).
    { intros r s0 Br A0 Q. destruct (finish_balanced a r s0 Br A0) as [X Y]. rewrite Q in X, Y. auto. }
    destruct (check_cases a s) as [(r & Q & U)|[(Q & X)|(Q & _)]]; rewrite Q in R1.
    - apply F in R1; [exact R1| |exact A]. destruct U as (_ & Fr & _). exact (A _ _ Fr).
    - injection R1 as <- <-. split; [exact A|discriminate].
    - assert (Bf := convert_balanced a _ (fresh_balanced (s_runs s) a)).
      destruct (save a (s_files s) _) as [f|] eqn:Sv; [|injection R1 as <- <-; split; [exact A|discriminate]].
      apply F in R1; [exact R1|exact Bf|]. intros p q. exact (save_balanced a _ _ _ A Bf Sv p q). }
  destruct G as [G1 G2]. destruct (IH s1 G1) as [I1 I2]. rewrite R2 in I1, I2. split; [exact I1|].
  intros o [Q|Q]; [exact (G2 o Q)|exact (I2 o Q)].
Qed.
(** after sampling: which of the two the sampler's number is, the noise evidence, the time *)
Theorem C156_sampled a s o s' : ~ broken a s -> (forall r, ~ usable a s r) -> run a s = (Returned o, s') ->
  r_noise o = a_noise a /\
  (if match a_ratio a with Some b => b | None => negb (a_nan a) end then r_bayes o = fst (sampled (s_runs s) a) else r_evid o = fst (sampled (s_runs s) a)) /\
  (forall t, snd (sampled (s_runs s) a) = Duration t -> r_time o = t) /\
  (snd (sampled (s_runs s) a) = NoTime -> r_time o = a_elapsed a) /\
  (forall x, snd (sampled (s_runs s) a) = Number x -> r_time o = x * 86400).
Proof.
  intros B N H. unfold run, Run_Model.run in H. rewrite cache_name_eq in H. cbn [s_files s_runs] in H.
  destruct (check_cases a s) as [(r & _ & U)|[(_ & X)|(Q & _)]]; [exfalso; exact (N r U)|contradiction|].
  rewrite Q in H. destruct (save _ _ _); [|discriminate]. apply finish_ran in H.
  set (r0 := convert a (fresh sampled (s_runs s) a)) in *.
  destruct H as (_ & _ & _ & _ & _ & H1 & H2 & H3 & H4 & _).
  rewrite H1, H2, H3, H4.
  assert (C : r_noise r0 = r_noise (fresh sampled (s_runs s) a) /\ r_bayes r0 = r_bayes (fresh sampled (s_runs s) a) /\
    r_evid r0 = r_evid (fresh sampled (s_runs s) a) /\ r_time r0 = r_time (fresh sampled (s_runs s) a)).
  { unfold r0, convert. destruct (r_inj _), (a_conv a); auto. }
  destruct C as (-> & -> & -> & ->). unfold fresh. destruct (sampled (s_runs s) a) as [z t]. cbn [fst snd].
  destruct (a_ratio a) as [[]|], (a_nan a); cbn; repeat split; try reflexivity; intros; subst; reflexivity.
Qed.

Definition inj_of (o : @outcome P M I) : option I := match o with Returned r => r_inj r | Raised _ => None end.
Lemma iter_shift (f : I -> I) n x : Nat.iter n f (f x) = f (Nat.iter n f x).
Proof. induction n as [|n IH]; [reflexivity|]. cbn [Nat.iter nat_rect]. change (f (Nat.iter n f (f x)) = f (f (Nat.iter n f x))). rewrite IH. reflexivity. Qed.
Lemma rerun_inj a f x k : plain a -> a_conv a = Some f -> a_clean a <> Some true -> meta_equal (a_meta a) (a_meta a) = true ->
  forall s r, s_clean s = false -> s_files s (json_file (a_outdir a) (a_label a)) = Some r -> r_meta r = Some (a_meta a) ->
  r_search r = a_search a -> r_fixed r = a_fixed a -> r_post r = true -> r_inj r = Some x ->
  map inj_of (fst (calls (repeat a k) s)) = map (fun j => Some (Nat.iter (S j) f x)) (seq 0 k) /\ s_runs (snd (calls (repeat a k) s)) = s_runs s.
Proof.
  intros Pl Cv Cl Em. revert x. induction k as [|k IH]; intros x s r Sc F Mr Sr Fr Po Ij; [split; reflexivity|].
  cbn [repeat Run_Model.calls]. assert (U : usable a s r).
  { split; [intros [X|X]; congruence|]. split; [exact F|]. right. exists (a_meta a). auto. }
  set (o := mkRes (r_search r) (r_fixed r) (r_meta r) (r_prior r) (r_run r) (Some (f x)) true (r_noise r) (r_bayes r) (r_evid r) (r_time r)).
  assert (R1 : run a s = (Returned o, mkSt false (upd (s_files s) (json_file (a_outdir a) (a_label a)) o) (s_runs s))).
  { unfold run, Run_Model.run. rewrite cache_name_eq. cbn [s_files s_runs].
    assert (C : match a_clean a with Some true => true | _ => s_clean s end = false) by (destruct (a_clean a) as [[]|]; congruence).
    destruct (check_cases a s) as [(r' & Q & U')|[(Q & X)|(Q & _ & N)]]; [| |exfalso; exact (N r U)].
    - assert (r' = r) by (destruct U' as (_ & F' & _); congruence). subst r'. rewrite Q. rewrite C.
      unfold finish, convert. rewrite Ij, Cv. cbn [r_post]. rewrite Po. cbn [negb andb]. rewrite save_plain by exact Pl. reflexivity.
    - exfalso. destruct X as (_ & _ & r' & F' & Mr'). congruence. }
  rewrite R1. destruct (IH (f x) (mkSt false (upd (s_files s) (json_file (a_outdir a) (a_label a)) o) (s_runs s)) o) as [A B]; try reflexivity; try assumption.
  { cbn [s_files]. unfold upd. rewrite String.eqb_refl. reflexivity. }
  destruct (calls (repeat a k) _) as [os s2]. cbn [fst snd map seq] in *. split; [|exact B]. rewrite A. f_equal.
  rewrite <- seq_shift, map_map. apply map_ext. intros j. f_equal. rewrite iter_shift. reflexivity.
Qed.
(** the conversion function is applied to the injection parameters twice by the sampling call and
    once more by every later call that reuses the stored result *)
Theorem C156_injection a f i k s : plain a -> a_conv a = Some f -> a_inj a = Some i -> a_clean a <> Some true -> s_clean s = false ->
  meta_equal (a_meta a) (a_meta a) = true -> a_fail a = false -> s_files s (json_file (a_outdir a) (a_label a)) = None ->
  map inj_of (fst (calls (repeat a (S k)) s)) = map (fun j => Some (Nat.iter (j + 2) f i)) (seq 0 (S k)) /\
  s_runs (snd (calls (repeat a (S k)) s)) = S (s_runs s).
Proof.
  intros Pl Cv Ij Cl Sc Em Fa F. cbn [repeat Run_Model.calls].
  assert (C : match a_clean a with Some true => true | _ => s_clean s end = false) by (destruct (a_clean a) as [[]|]; congruence).
  destruct (run a s) as [o1 s1] eqn:R1.
  assert (R1' := R1). unfold run, Run_Model.run in R1'. rewrite cache_name_eq in R1'. cbn [s_files s_runs] in R1'.
  rewrite C, F in R1'. unfold check_cached in R1'.
  replace (if use_cached then inl None else inl None) with (@inl (option result) exc None) in R1' by (destruct use_cached; reflexivity).
  rewrite save_plain in R1' by exact Pl. set (r0 := convert a (fresh sampled (s_runs s) a)) in *.
  assert (R0 : r_meta r0 = Some (a_meta a) /\ r_search r0 = a_search a /\ r_fixed r0 = a_fixed a /\ r_inj r0 = Some (f i)).
  { unfold r0, fresh. destruct (sampled _ _) as [z t]. destruct (evidences _ _ _) as [[n x] e]. unfold convert. cbn [r_inj]. rewrite Ij, Cv. cbn. auto. }
  destruct R0 as (G3 & G4 & G5 & G6).
  unfold finish in R1'. rewrite Fa, andb_false_r, save_plain in R1' by exact Pl. injection R1' as Eo Es.
  set (o := with_post (convert a r0)) in *.
  assert (Oi : r_meta o = Some (a_meta a) /\ r_search o = a_search a /\ r_fixed o = a_fixed a /\ r_inj o = Some (f (f i)) /\ r_post o = true).
  { unfold o, convert. rewrite G6, Cv. cbn. auto. }
  destruct Oi as (O1 & O2 & O3 & O4 & O5).
  destruct (rerun_inj a f (f (f i)) k Pl Cv Cl Em s1 o) as [A B]; try assumption; try (subst s1; reflexivity).
  { subst s1. cbn [s_files]. unfold upd. rewrite !String.eqb_refl. reflexivity. }
  destruct (calls (repeat a k) s1) as [os s2]. cbn [fst snd] in *. split; [|rewrite B; subst s1; reflexivity].
  cbn [map seq]. rewrite A. subst o1. cbn [inj_of]. rewrite O4. f_equal. rewrite <- seq_shift, map_map. apply map_ext. intros j. f_equal.
  rewrite !iter_shift. replace (S j + 2)%nat with (S (S (S j))) by lia. reflexivity.
Qed.
(** so the parameters are the once-converted ones if converting twice changes nothing *)
Theorem C156_injection_idempotent a f i k s : plain a -> a_conv a = Some f -> a_inj a = Some i -> a_clean a <> Some true -> s_clean s = false ->
  meta_equal (a_meta a) (a_meta a) = true -> a_fail a = false -> s_files s (json_file (a_outdir a) (a_label a)) = None ->
  f (f i) = f i -> forall o, In (Returned o) (fst (calls (repeat a (S k)) s)) -> r_inj o = Some (f i).
Proof.
  intros Pl Cv Ij Cl Sc Em Fa F Id o H. destruct (C156_injection a f i k s) as [A _]; try assumption.
  apply (in_map inj_of) in H. rewrite A in H. cbn [inj_of] in H. apply in_map_iff in H. destruct H as (j & Q & _). rewrite <- Q. f_equal.
  assert (G : forall n, Nat.iter (S n) f i = f i).
  { induction n as [|n IHn]; [reflexivity|]. change (f (Nat.iter (S n) f i) = f i). rewrite IHn. exact Id. }
  replace (j + 2)%nat with (S (S j)) by lia. apply G.
Qed.
End Cache.

(** the [seconds] attribute used for the run statistics loses whole days *)
Theorem C156_seconds t : (t < 86400)%nat <-> seconds_attr t = t.
Proof.
  unfold seconds_attr. split; [apply Nat.mod_small|]. intros Q. rewrite <- Q. apply Nat.mod_upper_bound. discriminate.
Qed.
Theorem C156_seconds_days t : exists d, t = (86400 * d + seconds_attr t)%nat /\ (seconds_attr t < 86400)%nat.
Proof.
  exists (t / 86400)%nat. unfold seconds_attr. split; [apply Nat.div_mod; discriminate|apply Nat.mod_upper_bound; discriminate].
Qed.

(** *** Concrete runs *)
Open Scope R_scope.
Definition eqm (a b : nat) := Nat.eqb a b.
Definition args0 (prior meta : nat) (sv : saveopt) (cl : option bool) (fl : bool) : @args nat nat nat :=
  mkArgs cl "out" "label" ["x"] [] prior meta (Some 5%nat) (Some S) sv false fl None false 2 10.
Definition st0 : @st nat nat nat := mkSt false (fun _ => None) 0%nat.
Definition brief (o : @outcome nat nat nat) : option (nat * nat * option nat) :=
  match o with Returned r => Some (r_run r, r_prior r, r_inj r) | Raised _ => None end.
Definition oracle (n : nat) (_ : @args nat nat nat) : R * stime := (INR n + 1, Number 3).
(** second call: other priors, same result; third: other meta data; fourth: clean; fifth: still clean;
    a failing posterior; JSON, then HDF5 *)
Example C155_ex : map brief (fst (calls eqm false oracle [args0 1 0 SaveTrue None false; args0 2 0 SaveTrue None false; args0 2 7 SaveTrue None false;
    args0 2 7 SaveTrue (Some true) false; args0 2 7 SaveTrue (Some false) false] st0)) =
  [Some (0, 1, Some 7); Some (0, 1, Some 8); Some (1, 2, Some 7); Some (2, 2, Some 7); Some (3, 2, Some 7)]%nat /\
  map brief (fst (calls eqm false oracle [args0 1 0 SaveTrue None true; args0 1 0 SaveTrue None false] st0)) = [None; Some (0, 1, Some 7)]%nat /\
  map brief (fst (calls eqm false oracle [args0 1 0 (SaveAs "hdf5") None false; args0 1 0 (SaveAs "hdf5") None false] st0)) =
  [Some (0, 1, Some 7); Some (1, 1, Some 7)]%nat /\
  map brief (fst (calls eqm false oracle [args0 1 0 (SaveAs "txt") None false] st0)) = [None].
Proof. repeat split; reflexivity. Qed.
(** reusing a result although the priors changed *)
Theorem C155_same_priors_refuted : exists (a b : @args nat nat nat) o s1 o' s2, plain a /\ a_prior b <> a_prior a /\
  run eqm false oracle a st0 = (Returned o, s1) /\ run eqm false oracle b s1 = (Returned o', s2) /\ r_prior o' <> a_prior b /\ r_run o' = r_run o.
Proof.
  exists (args0 1 0 SaveTrue None false), (args0 2 0 SaveTrue None false). eexists _, _, _, _.
  split; [split; [left|]; reflexivity|]. split; [discriminate|]. split; [reflexivity|]. split; [reflexivity|]. split; [discriminate|reflexivity].
Qed.
(** a time reported as a number is recorded 86400 times too large *)
Theorem C156_number_refuted : exists o s1, run eqm false oracle (args0 1 0 SaveTrue None false) st0 = (Returned o, s1) /\
  snd (oracle 0 (args0 1 0 SaveTrue None false)) = Number 3 /\ r_time o = 259200 /\ r_evid o = 3 /\ r_bayes o = 1 /\ r_noise o = 2.
Proof.
  eexists _, _. split; [reflexivity|]. split; [reflexivity|]. cbn. repeat split; lra.
Qed.
Example C156_ex : seconds_attr 200000 = 27200%nat /\ verify_use_ratio None true = None /\ verify_use_ratio None false = Some true.
Proof. repeat split; reflexivity. Qed.

(** ** Assumptions of every theorem above *)
Definition Run_Props_all :=
  (@C154_items,
   @C154_valid,
   @C154_distinct,
   @C154_plugin,
   @C154_case,
   @C154_listed,
   @C154_inner_prefix_refuted,
   @C154_capital_refuted,
   @C155_reused_iff,
   @C155_reused,
   @C155_sampled,
   @C155_clean_sticky,
   @C155_priors_ignored,
   @C155_other_formats,
   @C155_failure_recovered,
   @C155_unknown_format,
   @C156_evidence,
   @C156_sampled,
   @C156_injection,
   @C156_injection_idempotent,
   @C156_seconds,
   @C156_seconds_days,
   @C155_same_priors_refuted,
   @C156_number_refuted).
Print Assumptions Run_Props_all.
