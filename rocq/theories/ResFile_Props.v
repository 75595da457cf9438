(** * Properties of result files (C179) *)
From Coq Require Import String Ascii List Bool Arith Lia.
From Verif Require Import ResFile_Model.
Import ListNotations.
Open Scope list_scope.

Lemma teqb_eq a b : teqb a b = true <-> a = b.
Proof. unfold teqb; destruct (list_eq_dec ascii_dec a b); split; intros; congruence. Qed.
Lemma teqb_refl a : teqb a a = true. Proof. now apply teqb_eq. Qed.
Lemma teqb_ne a b : a <> b -> teqb a b = false.
Proof. unfold teqb; destruct (list_eq_dec ascii_dec a b); intros; congruence. Qed.
Lemma fset_eq f n c : fset f n c n = c. Proof. unfold fset; now rewrite teqb_refl. Qed.
Lemma fset_ne f n c m : m <> n -> fset f n c m = f m. Proof. intros; unfold fset; now rewrite teqb_ne. Qed.

Lemma rfind_none c p : ~ In c p -> rfind c p = None.
Proof.
  induction p as [|a p IH]; intros H; [reflexivity|]; cbn. rewrite IH by (intros I; apply H; now right).
  destruct (Ascii.eqb_spec a c) as [E|]; [|reflexivity]. exfalso; apply H; now left.
Qed.
Lemma rfind_last c p q : ~ In c q -> rfind c (p ++ c :: q) = Some (length p).
Proof.
  intros H; induction p as [|a p IH]; cbn.
  - rewrite rfind_none by exact H. now rewrite Ascii.eqb_refl.
  - cbn in IH |- *. now rewrite IH.
Qed.
Lemma rfind_bound c p q n : ~ In c q -> rfind c (p ++ q) = Some n -> n < length p.
Proof.
  intros H; revert n; induction p as [|a p IH]; intros n; cbn.
  - now rewrite rfind_none.
  - destruct (rfind c (p ++ q)) as [m|] eqn:E.
    + intros [= <-]. specialize (IH m eq_refl); lia.
    + destruct (Ascii.eqb a c); intros [= <-]; lia.
Qed.
Lemma firstn_exact {A} (l r : list A) : firstn (length l) (l ++ r) = l.
Proof. rewrite firstn_app, firstn_all, Nat.sub_diag; cbn. apply app_nil_r. Qed.
Lemma skipn_exact {A} (l r : list A) : skipn (length l) (l ++ r) = r.
Proof. rewrite skipn_app, skipn_all, Nat.sub_diag; reflexivity. Qed.

(** The extension of a name: what follows the last dot of its last component, when something other than dots
    stands before that dot in the component. *)
Lemma splitext_spec d x c e :
  x <> dot -> x <> slash -> ~ In slash c -> ~ In dot e -> ~ In slash e ->
  splitext ((d ++ x :: c) ++ dot :: e) = (d ++ x :: c, dot :: e).
Proof.
  intros X1 X2 C D Sl. unfold splitext. rewrite rfind_last by exact D.
  rewrite firstn_exact, skipn_exact.
  set (fi := match rfind slash ((d ++ x :: c) ++ dot :: e) with Some s => S s | None => 0 end).
  assert (F : fi <= length d).
  { subst fi. destruct (rfind slash ((d ++ x :: c) ++ dot :: e)) as [s|] eqn:E; [|lia].
    replace ((d ++ x :: c) ++ dot :: e) with (d ++ (x :: c ++ dot :: e)) in E by now rewrite <- app_assoc.
    apply rfind_bound in E; [lia|]. cbn; intros [I|I]; [congruence|].
    apply in_app_or in I; cbn in I. destruct I as [I|[I|I]]; [tauto|discriminate|tauto]. }
  clearbody fi.
  assert (G : existsb (fun a => negb (Ascii.eqb a dot)) (firstn (length (d ++ x :: c) - fi) (skipn fi ((d ++ x :: c) ++ dot :: e))) = true).
  { apply existsb_exists. exists x. split.
    - rewrite skipn_app. replace (fi - length (d ++ x :: c)) with 0 by (rewrite app_length; cbn; lia). cbn [skipn].
      replace (length (d ++ x :: c) - fi) with (length (skipn fi (d ++ x :: c))) by (rewrite skipn_length; reflexivity).
      rewrite firstn_exact, skipn_app. replace (fi - length d) with 0 by lia. cbn [skipn].
      apply in_or_app; right; now left.
    - destruct (Ascii.eqb_spec x dot); [congruence|reflexivity]. }
  now rewrite G.
Qed.

Lemma splitext_shape n : snd (splitext n) <> [] ->
  exists b e, n = b ++ dot :: e /\ ~ In dot e /\ splitext n = (b, dot :: e).
Proof.
  unfold splitext. destruct (rfind dot n) as [k|] eqn:E; [|cbn; congruence].
  destruct (existsb _ _); [|cbn; congruence]. intros _.
  assert (H : exists b e, n = b ++ dot :: e /\ ~ In dot e /\ length b = k).
  { clear -E. revert k E. induction n as [|a n IH]; intros k; cbn; [discriminate|].
    destruct (rfind dot n) as [m|] eqn:E.
    - intros [= <-]. destruct (IH m eq_refl) as (b & e & -> & N & L). exists (a :: b), e. cbn; auto.
    - destruct (Ascii.eqb_spec a dot) as [->|]; [|discriminate]. intros [= <-]. exists [], n.
      repeat split; auto. intros I. clear IH. induction n as [|b n IH]; [easy|]. cbn in E.
      destruct (rfind dot n) as [m|]; [discriminate|]. destruct (Ascii.eqb_spec b dot); [discriminate|].
      destruct I; [congruence|]. now apply IH. }
  destruct H as (b & e & -> & N & <-). exists b, e. rewrite firstn_exact, skipn_exact. auto.
Qed.

(** ** The default names *)
Lemma join_shape d n : (exists x t, n = x :: t) -> exists p, join d n = p ++ n.
Proof.
  intros (x & t & ->). cbn [join]. destruct (Ascii.eqb x slash); [now exists []|].
  destruct (rev d) as [|z r]; [now exists []|]. destruct (Ascii.eqb z slash); [now exists d|].
  exists (d ++ [slash]). now rewrite <- app_assoc.
Qed.
Lemma default_shape outdir label e : exists p, join outdir (label ++ T "_result." ++ e) = (p ++ "_"%char :: T "result") ++ dot :: e.
Proof.
  destruct (join_shape outdir (label ++ T "_result." ++ e)) as [p ->].
  { destruct label; cbn; eauto. }
  exists (p ++ label). rewrite <- !app_assoc. reflexivity.
Qed.
Lemma sinj {A} (a b : A) : Some a = Some b -> a = b. Proof. congruence. Qed.
Ltac nin := cbn; intuition discriminate.

Definition format_reader (ext : text) : reader :=
  if teqb ext (T "json") then RJson else if teqb ext (T "hdf5") then RHdf5 else RPickle.
Definition known (ext : text) : Prop := In ext [T "json"; T "hdf5"; T "pkl"; T "pickle"].

Lemma default_facts outdir label ext gzip n : known ext -> result_file_name outdir label ext gzip = Some n ->
  exists b e, n = b ++ dot :: e /\ splitext n = (b, dot :: e) /\ fallback n = b ++ T ".pkl" /\
    reader_of n = Some (format_reader ext) /\ gz_name n = teqb ext (T "json") && gzip /\
    (teqb ext (T "json") = false -> teqb ext (T "hdf5") = false -> e = T "pkl") /\
    (exists p c, b = p ++ "_"%char :: c /\ ~ In slash c).
Proof.
  assert (Fb : forall b e, ~ In dot e -> fallback (b ++ dot :: e) = b ++ T ".pkl").
  { intros b e N. unfold fallback. rewrite rfind_last by exact N. now rewrite firstn_exact. }
  assert (One : forall e r g m, ~ In dot e -> ~ In slash e -> teqb e (T "gz") = false -> lstrip_dot (dot :: e) = e ->
     (if contains (T "json") e then Some RJson else if contains (T "hdf5") e || contains (T "h5") e then Some RHdf5
      else if contains (T "pkl") e || contains (T "pickle") e then Some RPickle else None) = Some r ->
     g = false -> m = join outdir (label ++ T "_result." ++ e) ->
     exists b, m = b ++ dot :: e /\ splitext m = (b, dot :: e) /\ fallback m = b ++ T ".pkl" /\ reader_of m = Some r /\ gz_name m = g /\ (exists p c, b = p ++ "_"%char :: c /\ ~ In slash c)).
  { intros e r g m N1 N2 Z L R -> ->. destruct (default_shape outdir label e) as [p ->].
    assert (Sp : splitext ((p ++ "_"%char :: T "result") ++ dot :: e) = (p ++ "_"%char :: T "result", dot :: e)).
    { apply splitext_spec; try exact N1; try exact N2; nin. }
    exists (p ++ "_"%char :: T "result").
    split; [reflexivity|]. split; [exact Sp|]. split; [now apply Fb|]. unfold reader_of, gz_name. rewrite Sp. cbn [snd].
    rewrite L, Z. split; [exact R|]. split; [reflexivity|]. exists p, (T "result"). split; [reflexivity|nin]. }
  intros K. unfold result_file_name.
  destruct K as [<-|[<-|[<-|[<-|[]]]]].
  - change (teqb (T "json") (T "pickle")) with false. cbv iota.
    change (teqb (T "json") (T "json")) with true. cbn [andb orb].
    destruct gzip; intros Hs; apply sinj in Hs; subst n.
    + set (e := T "json" ++ T ".gz"). destruct (default_shape outdir label e) as [p E]. rewrite E. subst e.
      set (b := (p ++ "_"%char :: T "result") ++ T ".json"). exists b, (T "gz").
      assert (Ee : (p ++ "_"%char :: T "result") ++ dot :: T "json" ++ T ".gz" = b ++ dot :: T "gz").
      { subst b. rewrite <- !app_assoc. reflexivity. }
      rewrite Ee. clear E.
      assert (Sp : splitext (b ++ dot :: T "gz") = (b, dot :: T "gz")).
      { replace b with (p ++ "_"%char :: (T "result" ++ T ".json")) by (subst b; now rewrite <- app_assoc).
        apply splitext_spec; nin. }
      assert (Sp2 : splitext b = (p ++ "_"%char :: T "result", T ".json")).
      { change (T ".json") with (dot :: T "json"). apply splitext_spec; nin. }
      split; [reflexivity|]. split; [exact Sp|]. split; [apply Fb; nin|].
      unfold reader_of, gz_name. rewrite Sp. cbn [fst snd]. rewrite Sp2. split; [reflexivity|]. split; [reflexivity|]. split; [discriminate|].
      exists p, (T "result.json"). split; [subst b; now rewrite <- app_assoc|nin].
    + destruct (One (T "json") RJson false _ ltac:(nin) ltac:(nin) eq_refl eq_refl eq_refl eq_refl eq_refl) as (b & H1 & H2 & H3 & H4 & H5 & H6).
      exists b, (T "json"). do 5 (split; [assumption|]). split; [discriminate|exact H6].
  - change (teqb (T "hdf5") (T "pickle")) with false. cbv iota.
    change (teqb (T "hdf5") (T "json")) with false. change (teqb (T "hdf5") (T "hdf5")) with true. cbn [andb orb].
    intros Hs; apply sinj in Hs; subst n.
    destruct (One (T "hdf5") RHdf5 false _ ltac:(nin) ltac:(nin) eq_refl eq_refl eq_refl eq_refl eq_refl) as (b & H1 & H2 & H3 & H4 & H5 & H6).
    exists b, (T "hdf5"). do 5 (split; [assumption|]). split; [discriminate|exact H6].
  - change (teqb (T "pkl") (T "pickle")) with false. cbv iota.
    change (teqb (T "pkl") (T "json")) with false. change (teqb (T "pkl") (T "hdf5")) with false. change (teqb (T "pkl") (T "pkl")) with true. cbn [andb orb].
    intros Hs; apply sinj in Hs; subst n.
    destruct (One (T "pkl") RPickle false _ ltac:(nin) ltac:(nin) eq_refl eq_refl eq_refl eq_refl eq_refl) as (b & H1 & H2 & H3 & H4 & H5 & H6).
    exists b, (T "pkl"). do 5 (split; [assumption|]). split; [reflexivity|exact H6].
  - change (teqb (T "pickle") (T "pickle")) with true. cbv iota.
    change (teqb (T "pkl") (T "json")) with false. change (teqb (T "pkl") (T "hdf5")) with false. change (teqb (T "pkl") (T "pkl")) with true. cbn [andb orb].
    intros Hs; apply sinj in Hs; subst n.
    destruct (One (T "pkl") RPickle false _ ltac:(nin) ltac:(nin) eq_refl eq_refl eq_refl eq_refl eq_refl) as (b & H1 & H2 & H3 & H4 & H5 & H6).
    exists b, (T "pkl"). do 5 (split; [assumption|]). split; [reflexivity|exact H6].
Qed.

Lemma known_named outdir label ext gzip : known ext -> exists n, result_file_name outdir label ext gzip = Some n.
Proof.
  intros [<-|[<-|[<-|[<-|[]]]]]; unfold result_file_name; destruct gzip; eexists; reflexivity.
Qed.

(** A result saved under the default name, in any of the formats, compressed or not, over whatever was there,
    is read back with the same directory, label, format and compression, and also with the name alone. *)
Theorem C179_round_trip : forall fs outdir label ext gzip overwrite, known ext ->
  exists n fs', result_file_name outdir label ext gzip = Some n /\
    save fs None (Some outdir) (Some label) ext gzip overwrite None = Some fs' /\
    read_in fs' None (Some outdir) (Some label) ext gzip = Some n /\
    (forall e g, read_in fs' (Some n) None None e g = Some n) /\
    list_entry fs' n = Some n.
Proof.
  intros fs o l ext gz ow K. destruct (known_named o l ext gz K) as [n Hn].
  destruct (default_facts o l ext gz n K Hn) as (b & e & En & Sp & Fb & Rd & Gz & Pk & _).
  set (fm := move_old fs n ow).
  exists n. eexists. split; [exact Hn|]. split.
  { unfold save, determine. rewrite Hn. reflexivity. }
  fold fm. match goal with |- read_in ?f _ _ _ _ _ = _ /\ _ => set (fs' := f) end.
  assert (V : exists c, fs' n = Some c /\ opens (format_reader ext) n c = true).
  { subst fs'. destruct K as [<-|[<-|[<-|[<-|[]]]]].
    - change (teqb (T "json") (T "json")) with true in *. cbn [andb] in Gz. cbv iota.
      destruct gz; rewrite fset_eq; eexists; (split; [reflexivity|]); cbn; now rewrite Gz.
    - change (teqb (T "hdf5") (T "json")) with false in *. change (teqb (T "hdf5") (T "hdf5")) with true. cbv iota.
      rewrite fset_eq; eexists; (split; [reflexivity|]); reflexivity.
    - change (teqb (T "pkl") (T "json")) with false in *. change (teqb (T "pkl") (T "hdf5")) with false. change (teqb (T "pkl") (T "pkl")) with true. cbv iota.
      rewrite fset_eq; eexists; (split; [reflexivity|]); reflexivity.
    - change (teqb (T "pickle") (T "json")) with false in *. change (teqb (T "pickle") (T "hdf5")) with false. change (teqb (T "pickle") (T "pkl")) with false. cbv iota.
      replace (fallback n) with n. { rewrite fset_eq; eexists; (split; [reflexivity|]); reflexivity. }
      rewrite Fb, En, (Pk eq_refl eq_refl). reflexivity. }
  clearbody fs'. destruct V as (c & V1 & V2).
  assert (Rf : read_file fs' n = true) by (unfold read_file; now rewrite Rd, V1).
  split. { unfold read_in, determine. now rewrite Hn, Rf. }
  split. { intros. unfold read_in, determine. now rewrite Rf. }
  unfold list_entry. rewrite V1. unfold read_in, determine. now rewrite Rf.
Qed.
Example C179_ex :
  result_file_name (T "out") (T "run") (T "json") true = Some (T "out/run_result.json.gz") /\
  reader_of (T "out/run_result.json.gz") = Some RJson /\ gz_name (T "out/run_result.json.gz") = true /\
  result_file_name (T "out") (T "run") (T "pickle") true = Some (T "out/run_result.pkl") /\
  result_file_name (T "out") (T "run") (T "h5") false = None.
Proof. repeat apply conj; reflexivity. Qed.

(** Any other format is refused before anything is moved or written when no name is given. *)
Theorem C179_unknown : forall fs outdir label ext gzip overwrite fail, ~ known ext ->
  save fs None (Some outdir) (Some label) ext gzip overwrite fail = None.
Proof.
  intros fs o l ext gz ow fl H. unfold save, determine, result_file_name.
  assert (E : forall s, In s [T "json"; T "hdf5"; T "pkl"; T "pickle"] -> teqb ext s = false).
  { intros s I. apply teqb_ne. intros ->. now apply H. }
  rewrite (E (T "pickle")), (E (T "json")), (E (T "hdf5")), (E (T "pkl")) by (cbn; tauto). reflexivity.
Qed.

(** Saving under a name of the caller's choice: what is read back from that name is decided by the name
    alone, so the file is readable exactly when the name announces the format it was written in. *)
Theorem C179_named : forall fs f ext gzip overwrite, In ext [T "json"; T "hdf5"; T "pkl"] ->
  exists fs', save fs (Some f) None None ext gzip overwrite None = Some fs' /\
    (forall e g, read_in fs' (Some f) None None e g = Some f <->
      reader_of f = Some (format_reader ext) /\ (ext = T "json" -> gz_name f = gzip)) /\
    (forall e g, read_in fs' (Some f) None None e g = None <->
      ~ (reader_of f = Some (format_reader ext) /\ (ext = T "json" -> gz_name f = gzip))).
Proof.
  intros fs f ext gz ow K. eexists. split; [reflexivity|].
  match goal with |- (forall e g, read_in ?f0 _ _ _ _ _ = _ <-> _) /\ _ => set (fs' := f0) end.
  assert (V : exists c, fs' f = Some c /\ forall r, opens r f c = true <-> r = format_reader ext /\ (ext = T "json" -> gz_name f = gz)).
  { subst fs'. destruct K as [<-|[<-|[<-|[]]]].
    - change (teqb (T "json") (T "json")) with true. cbv iota.
      destruct gz; rewrite fset_eq; eexists; (split; [reflexivity|]); change (format_reader (T "json")) with RJson; intros [| |]; cbn [opens]; destruct (gz_name f); cbn [negb]; (split; [intros H; (split; [congruence|intros _; congruence]) || discriminate|intros [H1 H2]; try discriminate H1; specialize (H2 eq_refl); congruence]).
    - change (teqb (T "hdf5") (T "json")) with false. change (teqb (T "hdf5") (T "hdf5")) with true. cbv iota.
      rewrite fset_eq; eexists; (split; [reflexivity|]); change (format_reader (T "hdf5")) with RHdf5; intros [| |]; cbn [opens]; (split; [intros H; try discriminate H; (split; [reflexivity|intros H3; discriminate H3])|intros [H1 H2]; congruence]).
    - change (teqb (T "pkl") (T "json")) with false. change (teqb (T "pkl") (T "hdf5")) with false. change (teqb (T "pkl") (T "pkl")) with true. cbv iota.
      rewrite fset_eq; eexists; (split; [reflexivity|]); change (format_reader (T "pkl")) with RPickle; intros [| |]; cbn [opens]; (split; [intros H; try discriminate H; (split; [reflexivity|intros H3; discriminate H3])|intros [H1 H2]; congruence]). }
  clearbody fs'. destruct V as (c & V1 & V2).
  assert (Q : read_file fs' f = true <-> reader_of f = Some (format_reader ext) /\ (ext = T "json" -> gz_name f = gz)).
  { unfold read_file. rewrite V1. destruct (reader_of f) as [r|].
    - rewrite V2. split; intros [A B]; (split; [congruence|exact B]).
    - split; [discriminate|intros [A _]; discriminate]. }
  split; intros e g; unfold read_in, determine; rewrite <- Q; destruct (read_file fs' f); intuition congruence.
Qed.
Example C179_named_ex :
  reader_of (T "a.b/res.json") = Some RJson /\ reader_of (T "a.b/res.h5") = Some RHdf5 /\
  reader_of (T "a.json/res") = None /\ reader_of (T "res.json.old") = None /\ reader_of (T ".json") = None.
Proof. repeat apply conj; reflexivity. Qed.

(** Which reader a name gets. *)
Theorem C179_reader : forall d x c e, x <> dot -> x <> slash -> ~ In slash c -> ~ In dot e -> ~ In slash e -> e <> T "gz" ->
  let name := (d ++ x :: c) ++ dot :: e in
  (contains (T "json") e = true -> reader_of name = Some RJson) /\
  (e = T "hdf5" \/ e = T "h5" -> reader_of name = Some RHdf5) /\
  (e = T "pkl" \/ e = T "pickle" -> reader_of name = Some RPickle) /\
  (contains (T "json") e = false -> contains (T "h5") e = false -> contains (T "hdf5") e = false -> contains (T "pkl") e = false -> contains (T "pickle") e = false ->
   reader_of name = None) /\
  gz_name name = false.
Proof.
  intros d x c e X1 X2 C D Sl Z. cbv zeta. unfold reader_of, gz_name. rewrite (splitext_spec d x c e X1 X2 C D Sl). cbn [fst snd].
  assert (L : lstrip_dot (dot :: e) = e).
  { cbn [lstrip_dot]. rewrite Ascii.eqb_refl. destruct e as [|a e]; [reflexivity|]. cbn.
    destruct (Ascii.eqb_spec a dot) as [->|]; [|reflexivity]. exfalso; apply D; now left. }
  rewrite L, (teqb_ne e (T "gz") Z).
  repeat apply conj.
  - now intros ->.
  - intros [->| ->]; reflexivity.
  - intros [->| ->]; reflexivity.
  - intros -> -> -> -> ->. reflexivity.
  - reflexivity.
Qed.

(** ** When writing fails *)
(** Nothing but the file itself, its ".old" copy and the pickle beside it is ever touched. *)
Theorem C179_others : forall fs filename outdir label ext gzip overwrite fail fs', 
  save fs filename outdir label ext gzip overwrite fail = Some fs' ->
  exists n, determine filename outdir label ext gzip = Some n /\
    forall m, m <> n -> m <> n ++ T ".old" -> m <> fallback n -> fs' m = fs m.
Proof.
  intros fs fn o l ext gz ow fl fs'. unfold save. destruct (determine fn o l ext gz) as [n|] eqn:E; [|discriminate].
  intros H. apply (f_equal (fun x => match x with Some f => f | None => fs end)) in H. subst fs'. exists n. split; [reflexivity|]. intros m M1 M2 M3.
  assert (Mo : move_old fs n ow m = fs m).
  { unfold move_old. destruct (fs n); [|reflexivity]. destruct ow; rewrite ?fset_ne; auto. }
  destruct (teqb ext (T "json")); [destruct fl as [[|]|], gz|]; try (rewrite ?fset_ne by assumption; exact Mo).
  destruct (teqb ext (T "hdf5")); [destruct fl as [[|]|]|]; try (rewrite ?fset_ne by assumption; exact Mo).
  destruct (teqb ext (T "pkl")); rewrite ?fset_ne by assumption; exact Mo.
Qed.

Lemma app_old_ne (n : text) : n <> n ++ T ".old".
Proof. intros H. apply (f_equal (@length _)) in H. rewrite app_length in H. cbn in H. lia. Qed.
(** What stood under the name before is kept under the name with ".old" unless overwriting was asked for. *)
Theorem C179_old : forall fs f ext gzip fail fs' c, fs f = Some c ->
  save fs (Some f) None None ext gzip false fail = Some fs' -> fallback f <> f ++ T ".old" -> fs' (f ++ T ".old") = Some c.
Proof.
  intros fs f ext gz fl fs' c Hc H Nf. apply (f_equal (fun x => match x with Some g => g | None => fs end)) in H.
  unfold save, determine in H. subst fs'.
  assert (Mo : move_old fs f false (f ++ T ".old") = Some c).
  { unfold move_old. rewrite Hc. rewrite fset_ne by (intros E; now apply (app_old_ne f)). apply fset_eq. }
  assert (N1 : f ++ T ".old" <> f) by (intros E; now apply (app_old_ne f)).
  assert (N2 : f ++ T ".old" <> fallback f) by congruence.
  destruct (teqb ext (T "json")); [destruct fl as [[|]|], gz|]; try (rewrite ?fset_ne by assumption; exact Mo).
  destruct (teqb ext (T "hdf5")); [destruct fl as [[|]|]|]; try (rewrite ?fset_ne by assumption; exact Mo).
  destruct (teqb ext (T "pkl")); rewrite ?fset_ne by assumption; exact Mo.
Qed.
(** The side condition always holds: no name's pickle is another's ".old". *)
Lemma fallback_not_old f : fallback f <> f ++ T ".old".
Proof.
  unfold fallback. intros H. apply (f_equal (@rev _)) in H. rewrite !rev_app_distr in H. cbn in H. discriminate.
Qed.
Theorem C179_old_kept : forall fs f ext gzip fail c, fs f = Some c ->
  exists fs', save fs (Some f) None None ext gzip false fail = Some fs' /\ fs' (f ++ T ".old") = Some c.
Proof. intros. eexists. split; [reflexivity|]. eapply C179_old; [eassumption|reflexivity|apply fallback_not_old]. Qed.
(** But the pickle written when saving fails replaces an earlier pickle without keeping it. *)
Theorem C179_fallback_old_refuted : forall fs f ext gzip overwrite,
  In ext [T "json"; T "hdf5"] -> fallback f <> f -> fs (fallback f) = Some CBroken -> fs f = None ->
  exists fs', save fs (Some f) None None ext gzip overwrite (Some Before) = Some fs' /\ fs' (fallback f) = Some CPickle /\
    fs' (fallback f ++ T ".old") = fs (fallback f ++ T ".old").
Proof.
  intros fs f ext gz ow K Nf Hb Hn. eexists. split; [reflexivity|].
  assert (M : move_old fs f ow = fs) by (unfold move_old; now rewrite Hn). rewrite M.
  assert (N : fallback f ++ T ".old" <> fallback f) by (intros E; now apply (app_old_ne (fallback f))).
  destruct K as [<-|[<-|[]]].
  - change (teqb (T "json") (T "json")) with true. cbv iota. rewrite fset_eq, fset_ne by exact N. auto.
  - change (teqb (T "hdf5") (T "json")) with false. change (teqb (T "hdf5") (T "hdf5")) with true. cbv iota.
    rewrite fset_eq, fset_ne by exact N. auto.
Qed.

(** A result that could not be written as asked, under a default name, is in the pickle; a list of results that
    names the missing file finds it there, reading by directory and label does not. *)
Theorem C179_fallback : forall fs outdir label ext gzip n fail, In ext [T "json"; T "hdf5"] ->
  result_file_name outdir label ext gzip = Some n ->
  (fail = During -> ext = T "json" /\ gzip = true) ->
  exists fs', save fs None (Some outdir) (Some label) ext gzip false (Some fail) = Some fs' /\
    list_entry fs' n = Some (fallback n) /\
    read_in fs' (Some (fallback n)) None None ext gzip = Some (fallback n) /\
    read_in fs' None (Some outdir) (Some label) ext gzip = None.
Proof.
  intros fs o l ext gz n fl K Hn HF.
  assert (K' : known ext) by (destruct K as [<-|[<-|[]]]; unfold known; cbn; auto).
  destruct (default_facts o l ext gz n K' Hn) as (b & e & En & Sp & Fb & Rd & Gz & _ & p & c & Eb & Nc).
  assert (Ne : n <> fallback n).
  { intros E. rewrite En in E at 1. rewrite Fb in E. change (T ".pkl") with (dot :: T "pkl") in E.
    apply app_inv_head in E. injection E as E. subst e.
    unfold reader_of in Rd. rewrite Sp in Rd. cbn [fst snd] in Rd.
    change (lstrip_dot (dot :: T "pkl")) with (T "pkl") in Rd. cbv in Rd.
    destruct K as [<-|[<-|[]]]; discriminate. }
  assert (Mo : move_old fs n false n = None).
  { unfold move_old. destruct (fs n) eqn:E; [apply fset_eq|exact E]. }
  assert (Sv : save fs None (Some o) (Some l) ext gz false (Some fl) = Some (fset (move_old fs n false) (fallback n) (Some CPickle))).
  { unfold save, determine. rewrite Hn. destruct K as [<-|[<-|[]]].
    - change (teqb (T "json") (T "json")) with true. cbv iota. destruct fl; [now destruct gz|]. destruct (HF eq_refl) as [_ ->]. reflexivity.
    - change (teqb (T "hdf5") (T "json")) with false. change (teqb (T "hdf5") (T "hdf5")) with true. cbv iota. destruct fl; [reflexivity|].
      destruct (HF eq_refl) as [? _]; discriminate. }
  eexists. split; [exact Sv|]. set (fs' := fset _ _ _).
  assert (V1 : fs' n = None) by (subst fs'; now rewrite fset_ne).
  assert (V2 : fs' (fallback n) = Some CPickle) by apply fset_eq.
  assert (Rp : reader_of (fallback n) = Some RPickle).
  { rewrite Fb. unfold reader_of.
    assert (Sp' : splitext (b ++ T ".pkl") = (b, T ".pkl")).
    { subst b. change (T ".pkl") with (dot :: T "pkl"). apply splitext_spec; try exact Nc; nin. }
    rewrite Sp'. reflexivity. }
  assert (Rf : read_file fs' (fallback n) = true) by (unfold read_file; now rewrite Rp, V2).
  repeat apply conj.
  - unfold list_entry. rewrite Sp. cbn [fst]. rewrite <- Fb, V1, V2. unfold read_in, determine. now rewrite Rf.
  - unfold read_in, determine. now rewrite Rf.
  - unfold read_in, determine. rewrite Hn. unfold read_file. now rewrite V1, Rd.
Qed.
(** When writing fails half way through a file that is not compressed, the broken file hides the pickle. *)
Theorem C179_hidden_refuted : forall fs outdir label ext gzip n overwrite, In ext [T "json"; T "hdf5"] ->
  ~ (ext = T "json" /\ gzip = true) -> result_file_name outdir label ext gzip = Some n ->
  exists fs', save fs None (Some outdir) (Some label) ext gzip overwrite (Some During) = Some fs' /\
    fs' (fallback n) = Some CPickle /\ list_entry fs' n = None /\ read_in fs' None (Some outdir) (Some label) ext gzip = None.
Proof.
  intros fs o l ext gz n ow K NG Hn.
  assert (K' : known ext) by (destruct K as [<-|[<-|[]]]; unfold known; cbn; auto).
  destruct (default_facts o l ext gz n K' Hn) as (b & e & En & Sp & Fb & Rd & Gz & _ & p & c & Eb & Nc).
  assert (Ne : n <> fallback n).
  { intros E. rewrite En in E at 1. rewrite Fb in E. change (T ".pkl") with (dot :: T "pkl") in E.
    apply app_inv_head in E. injection E as E. subst e. unfold reader_of in Rd. rewrite Sp in Rd. cbn [fst snd] in Rd.
    change (lstrip_dot (dot :: T "pkl")) with (T "pkl") in Rd. cbv in Rd. destruct K as [<-|[<-|[]]]; discriminate. }
  set (fs' := fset (fset (move_old fs n ow) n (Some CBroken)) (fallback n) (Some CPickle)).
  assert (Sv : save fs None (Some o) (Some l) ext gz ow (Some During) = Some fs').
  { unfold save, determine. rewrite Hn. destruct K as [<-|[<-|[]]].
    - change (teqb (T "json") (T "json")) with true. cbv iota. destruct gz; [|reflexivity]. exfalso; now apply NG.
    - change (teqb (T "hdf5") (T "json")) with false. change (teqb (T "hdf5") (T "hdf5")) with true. reflexivity. }
  assert (V1 : fs' n = Some CBroken) by (subst fs'; rewrite fset_ne by exact Ne; apply fset_eq).
  assert (Rf : read_file fs' n = false).
  { unfold read_file. rewrite Rd, V1. now destruct (format_reader ext). }
  exists fs'. split; [exact Sv|]. split; [apply fset_eq|]. split.
  - unfold list_entry. rewrite V1. unfold read_in, determine. now rewrite Rf.
  - unfold read_in, determine. now rewrite Hn, Rf.
Qed.
Example C179_fallback_ex :
  fallback (T "out/run_result.json.gz") = T "out/run_result.json.pkl" /\ fallback (T "out/run_result.hdf5") = T "out/run_result.pkl".
Proof. split; reflexivity. Qed.

(** With a name of the caller's choice the pickle is beside the file when the name has an extension... *)
Theorem C179_fallback_place : forall n, snd (splitext n) <> [] -> fallback n = fst (splitext n) ++ T ".pkl".
Proof.
  intros n H. destruct (splitext_shape n H) as (b & e & En & N & Sp). rewrite Sp, En. unfold fallback.
  rewrite rfind_last by exact N. now rewrite firstn_exact.
Qed.
(** ... and elsewhere when it has none: after the last dot of the directory, or with no name at all. *)
Theorem C179_fallback_place_refuted :
  (forall d c, ~ In dot c -> fallback (d ++ dot :: c) = d ++ T ".pkl") /\ (forall c, ~ In dot c -> fallback c = T ".pkl").
Proof.
  split.
  - intros d c N. unfold fallback. rewrite rfind_last by exact N. now rewrite firstn_exact.
  - intros c N. unfold fallback. now rewrite rfind_none.
Qed.
Example C179_fallback_place_ex :
  fallback (T "runs.2020/result") = T "runs.pkl" /\ fst (splitext (T "runs.2020/result")) = T "runs.2020/result" /\ fallback (T "result") = T ".pkl".
Proof. repeat apply conj; reflexivity. Qed.

(** Loading a pickle by directory and label never finds the pickle saved under them: the name of the hdf5 file
    is looked for. *)
Theorem C179_from_pickle_refuted : forall fs outdir label gzip overwrite,
  exists fs', save fs None (Some outdir) (Some label) (T "pkl") gzip overwrite None = Some fs' /\
    read_in fs' None (Some outdir) (Some label) (T "pkl") gzip = result_file_name outdir label (T "pkl") gzip /\
    (forall n, result_file_name outdir label (T "hdf5") false = Some n -> fs n <> Some CPickle ->
     from_pickle fs' None (Some outdir) (Some label) = None).
Proof.
  intros fs o l gz ow. destruct (C179_round_trip fs o l (T "pkl") gz ow ltac:(unfold known; cbn; auto)) as (n & fs' & Hn & Sv & Rd & _).
  exists fs'. split; [exact Sv|]. split; [now rewrite Hn|]. intros m Hm Fm. unfold from_pickle, determine. rewrite Hm.
  destruct (C179_others _ _ _ _ _ _ _ _ _ Sv) as (n' & Dn & O). cbn [determine] in Dn. rewrite Hn in Dn. injection Dn as <-.
  destruct (default_facts o l (T "pkl") gz n ltac:(unfold known; cbn; auto) Hn) as (b & e & En & Sp & Fb & _ & _ & Pk & _).
  destruct (default_facts o l (T "hdf5") false m ltac:(unfold known; cbn; auto) Hm) as (b' & e' & En' & Sp' & Fb' & Rd' & _).
  assert (Rm : reader_of m = Some RHdf5) by exact Rd'.
  assert (A : forall q, m <> q ++ T ".pkl" /\ m <> q ++ T ".old").
  { assert (Q : exists q, m = q ++ T "hdf5").
    { unfold result_file_name in Hm. change (teqb (T "hdf5") (T "pickle")) with false in Hm. change (teqb (T "hdf5") (T "json")) with false in Hm.
      change (teqb (T "hdf5") (T "hdf5")) with true in Hm. cbn [andb orb] in Hm. apply (f_equal (fun z => match z with Some t => t | None => [] end)) in Hm. subst m.
      destruct (default_shape o l (T "hdf5")) as [q ->]. exists ((q ++ "_"%char :: T "result") ++ [dot]). rewrite <- (app_assoc _ [dot]). reflexivity. }
    destruct Q as [q0 ->]. intros q; split; intros H; apply (f_equal (@rev _)) in H; rewrite !rev_app_distr in H; cbn in H; discriminate. }
  specialize (Pk eq_refl eq_refl). subst e.
  rewrite O.
  - destruct (fs m) as [[]|] eqn:Em; auto. congruence.
  - rewrite En. change (dot :: T "pkl") with (T ".pkl"). apply A.
  - apply A.
  - rewrite Fb. apply A.
Qed.

(** ** Assumptions of every theorem above *)
Definition ResFile_Props_all :=
  (@C179_round_trip,
   @C179_unknown,
   @C179_named,
   @C179_reader,
   @C179_others,
   @C179_old,
   @C179_old_kept,
   @C179_fallback_old_refuted,
   @C179_fallback,
   @C179_hidden_refuted,
   @C179_fallback_place,
   @C179_fallback_place_refuted,
   @C179_from_pickle_refuted).
Print Assumptions ResFile_Props_all.
