(** C240: the outputs a sampler announces cover the files it writes. *)
From Coq Require Import String Ascii List Bool.
From Verif Require Import ExpOut_Model.
Import ListNotations.
Open Scope string_scope.

(** ** Paths: absolute or not, and the names between the slashes; several slashes count as one *)
Fixpoint parts (cur s : string) : list string :=
  match s with
  | EmptyString => if String.eqb cur "" then [] else [cur]
  | String c t => if Ascii.eqb c "/" then (if String.eqb cur "" then parts "" t else cur :: parts "" t) else parts (cur ++ String c "") t
  end.
Definition path (s : string) : bool * list string := (match s with String c _ => Ascii.eqb c "/" | _ => false end, parts "" s).
Definition same (a b : string) : Prop := path a = path b.
(** [f] is [d] or lies below it *)
Definition inside (d f : string) : Prop := fst (path d) = fst (path f) /\ exists rest, snd (path f) = (snd (path d) ++ rest)%list.
Definition covered (e : list string * list string) (f : string) : Prop := (exists x, In x (fst e) /\ same x f) \/ (exists d, In d (snd e) /\ inside d f).

Lemma app_nil s : s ++ "" = s. Proof. induction s as [|c s IH]; [reflexivity|]. cbn. rewrite IH. reflexivity. Qed.
Lemma app_assoc' a b c : (a ++ b) ++ c = a ++ (b ++ c). Proof. induction a as [|x a IH]; [reflexivity|]. cbn. rewrite IH. reflexivity. Qed.
Lemma parts_slash b : forall a cur, parts cur (a ++ String "/" b) = (parts cur a ++ parts "" b)%list.
Proof.
  induction a as [|c a IH]; intros cur.
  - cbn [append parts]. rewrite Ascii.eqb_refl. destruct (String.eqb cur ""); reflexivity.
  - cbn [append parts]. destruct (Ascii.eqb c "/"); [destruct (String.eqb cur ""); rewrite IH; reflexivity | apply IH].
Qed.
Lemma ends_split s : ends_slash s = true -> exists t, s = t ++ "/".
Proof.
  induction s as [|c s IH]; [discriminate|]. cbn. destruct s as [|d s]; [intros H; apply Ascii.eqb_eq in H; subst; exists ""; reflexivity|].
  intros H. destruct (IH H) as (t & E). exists (String c t). cbn. rewrite E. reflexivity.
Qed.
Lemma abs_app a b : a <> "" -> fst (path (a ++ b)) = fst (path a).
Proof. destruct a; [intros H; contradiction | reflexivity]. Qed.
Lemma path_sep a b : a <> "" -> path (a ++ "/" ++ b) = (fst (path a), (parts "" a ++ parts "" b)%list).
Proof. intros H. unfold path at 1. rewrite <- (abs_app a ("/" ++ b) H). unfold path. cbn [fst]. apply f_equal. apply parts_slash. Qed.
Lemma path_join a b : a <> "" -> starts_slash b = false -> path (join a b) = (fst (path a), (parts "" a ++ parts "" b)%list).
Proof.
  intros H B. unfold join. rewrite B. destruct (String.eqb_spec a "") as [Q|_]; [contradiction|]. cbn [orb]. destruct (ends_slash a) eqn:E; [|apply path_sep; exact H].
  rewrite (surjective_pairing (path (a ++ b))), (abs_app a b H). apply f_equal. unfold path. cbn [snd].
  destruct (ends_split a E) as (t & ->). rewrite app_assoc'. change ("/" ++ b) with (String "/" b). rewrite parts_slash. change "/" with (String "/" ""). rewrite parts_slash. cbn [parts]. cbn. rewrite app_nil_r. reflexivity.
Qed.
Lemma join_ne a b : a <> "" -> join a b <> "".
Proof.
  intros H Q. unfold join in Q. destruct (starts_slash b) eqn:B; [subst b; discriminate B|]. destruct (String.eqb_spec a "") as [E|_]; [contradiction|].
  destruct a as [|c a]; [contradiction|]. cbn [orb] in Q. destruct (ends_slash (String c a)); discriminate Q.
Qed.
Lemma parts_of_path a p q : path a = (p, q) -> parts "" a = q /\ fst (path a) = p.
Proof. intros E. rewrite E. unfold path in E. injection E as _ E. split; [exact E | reflexivity]. Qed.

(** ** C240 With default settings, a directory that is not the empty string and a label that does not start with a slash, every sampler but DNest4 announces the files it writes *)
Theorem C240_covered s outdir label f : s <> DNest4 -> outdir <> "" -> starts_slash label = false -> In f (written s outdir label) -> covered (expected s outdir label) f.
Proof.
  intros ND O L H.
  assert (LS : forall x, starts_slash x = false -> starts_slash (label ++ x) = false) by (intros x X; destruct label; [exact X | exact L]).
  assert (F1 : forall x, starts_slash x = false -> same (join outdir x) (outdir ++ "/" ++ x)) by (intros x X; unfold same; rewrite path_join, path_sep by assumption; reflexivity).
  assert (D1 : forall x, starts_slash x = false -> inside (join (join outdir x) "") (outdir ++ "/" ++ x ++ "/")).
  { intros x X. destruct (parts_of_path _ _ _ (path_join outdir x O X)) as [P1 P2]. unfold inside. rewrite (path_join (join outdir x) "" (join_ne _ _ O) eq_refl), path_sep by exact O. rewrite P1, P2. cbn [fst snd]. split; [reflexivity|].
    exists []. rewrite !app_nil_r. change "/" with (String "/" ""). rewrite parts_slash. cbn [parts]. cbn. rewrite !app_nil_r. reflexivity. }
  assert (D2 : forall x y, starts_slash x = false -> starts_slash y = false -> inside (join (join outdir x) "") (join (join outdir x) y)).
  { intros x y X Y. unfold inside. rewrite (path_join (join outdir x) "" (join_ne _ _ O) eq_refl), (path_join (join outdir x) y (join_ne _ _ O) Y). cbn [fst snd]. split; [reflexivity|]. exists (parts "" y). cbn [parts]. cbn. rewrite app_nil_r. reflexivity. }
  destruct s; try (exfalso; apply ND; reflexivity); unfold written in H; unfold expected, covered; cbn [sampler_name abbreviation fst snd].
  - destruct H as [<-|[<-|[]]]; right; eexists; (split; [left; reflexivity|]); apply D2; reflexivity.
  - destruct H as [<-|[<-|[]]]; right; eexists; (split; [left; reflexivity|]); apply D2; reflexivity.
  - destruct H as [<-|[<-|[]]]; right; eexists; (split; [left; reflexivity|]); apply D2; reflexivity.
  - left. destruct H as [<-|[<-|[]]]; eexists; [split; [left; reflexivity|] | split; [right; left; reflexivity|]]; apply F1; apply LS; reflexivity.
  - left. destruct H as [<-|[<-|[]]]; eexists; [split; [left; reflexivity|] | split; [right; left; reflexivity|]]; apply F1; apply LS; reflexivity.
  - left. destruct H as [<-|[]]; eexists; split; [left; reflexivity | reflexivity].
  - right. destruct H as [<-|[]]. eexists. split; [left; reflexivity|]. apply (D1 ("cpnest" ++ "_" ++ label)). reflexivity.
  - right. destruct H as [<-|[]]. eexists. split; [left; reflexivity|]. apply (D1 ("ptmcmc_temp" ++ "_" ++ label)). reflexivity.
  - right. destruct H as [<-|[]]. eexists. split; [left; reflexivity|]. apply (D1 ("pm" ++ "_" ++ label)). reflexivity.
  - right. destruct H as [<-|[]]. eexists. split; [left; reflexivity|]. apply (D1 ("ultra" ++ "_" ++ label)). reflexivity.
  - right. destruct H as [<-|[]]. eexists. split; [left; reflexivity|]. split; [reflexivity|]. exists []. rewrite app_nil_r. reflexivity.
  - right. destruct H as [<-|[]]. eexists. split; [left; reflexivity|]. destruct (parts_of_path _ _ _ (path_join outdir "chains" O eq_refl)) as [P1 P2]. unfold inside. change (outdir ++ "/chains") with (outdir ++ "/" ++ "chains"). rewrite (path_join (join outdir "chains") "" (join_ne _ _ O) eq_refl), path_sep by exact O. rewrite P1, P2. cbn [fst snd]. split; [reflexivity|]. exists []. cbn [parts]. cbn. rewrite !app_nil_r. reflexivity.
  - left. destruct H as [<-|[]]; eexists; split; [left; reflexivity|]. apply F1. apply LS. reflexivity.
Qed.
(** ** C240 DNest4 announces d4nest_label and writes to dn4_label and dnest4label *)
Lemma parts_cur : forall s cur, cur <> "" -> exists x rest, parts cur s = (cur ++ x) :: rest.
Proof.
  induction s as [|c s IH]; intros cur H; cbn [parts].
  - destruct (String.eqb_spec cur ""); [contradiction|]. exists "", []. rewrite app_nil. reflexivity.
  - destruct (Ascii.eqb c "/").
    + destruct (String.eqb_spec cur ""); [contradiction|]. exists "". eexists. rewrite app_nil. reflexivity.
    + destruct (IH (cur ++ String c "")) as (x & r & E); [destruct cur; discriminate|]. exists (String c x), r. rewrite E, app_assoc'. reflexivity.
Qed.
Theorem C240_dnest4_refuted outdir label f : outdir <> "" -> In f (written DNest4 outdir label) -> ~ covered (expected DNest4 outdir label) f.
Proof.
  intros O H [(x & [] & _)|(d & Hd & [_ (r & E)])]. unfold expected in Hd. cbn [sampler_name abbreviation snd In] in Hd. destruct Hd as [<-|[]].
  rewrite (path_join (join outdir ("d4nest" ++ "_" ++ label)) "" (join_ne _ _ O) eq_refl) in E. cbn [snd] in E.
  destruct (parts_of_path _ _ _ (path_join outdir ("d4nest" ++ "_" ++ label) O eq_refl)) as [P1 _]. rewrite P1 in E. clear P1.
  destruct (parts_cur label "d4nest_" ltac:(discriminate)) as (x1 & r1 & E1).
  change (parts "" ("d4nest" ++ "_" ++ label)) with (parts "d4nest_" label) in E. rewrite E1 in E.
  assert (S0 : forall y q, snd (path f) = (parts "" outdir ++ y :: q)%list -> y = "d4nest_" ++ x1).
  { intros y q Q. rewrite Q in E. rewrite <- !List.app_assoc in E. apply app_inv_head in E. injection E as E _. exact E. }
  destruct H as [<-|[<-|[]]].
  - destruct (parts_cur (label ++ "/") "dn4_" ltac:(discriminate)) as (x2 & r2 & E2).
    specialize (S0 ("dn4_" ++ x2) r2). change (outdir ++ "/dn4_" ++ label ++ "/") with (outdir ++ "/" ++ ("dn4_" ++ label ++ "/")) in S0. rewrite path_sep in S0 by exact O. cbn [snd] in S0.
    change (parts "" ("dn4_" ++ label ++ "/")) with (parts "dn4_" (label ++ "/")) in S0. rewrite E2 in S0. specialize (S0 eq_refl). discriminate S0.
  - destruct (parts_cur (label ++ "/") "dnest4" ltac:(discriminate)) as (x2 & r2 & E2).
    specialize (S0 ("dnest4" ++ x2) r2). change (outdir ++ "/dnest4" ++ label ++ "/") with (outdir ++ "/" ++ ("dnest4" ++ label ++ "/")) in S0. rewrite path_sep in S0 by exact O. cbn [snd] in S0.
    change (parts "" ("dnest4" ++ label ++ "/")) with (parts "dnest4" (label ++ "/")) in S0. rewrite E2 in S0. specialize (S0 eq_refl). discriminate S0.
Qed.
(** ** C240 With the empty string as directory, what dynesty writes lies in the root directory, and not where it is announced *)
Theorem C240_empty_refuted label f : starts_slash label = false -> In f (written Dynesty "" label) -> fst (path f) = true /\ ~ covered (expected Dynesty "" label) f.
Proof.
  intros L H. assert (A : fst (path f) = true) by (destruct H as [<-|[<-|[]]]; reflexivity). split; [exact A|].
  intros [(x & Hx & E)|(d & [] & _)]. apply (f_equal fst) in E. rewrite A in E.
  assert (N : forall y, starts_slash y = false -> fst (path (join "" (label ++ y))) = false).
  { intros y Y. unfold join. assert (S1 : starts_slash (label ++ y) = false) by (destruct label; [exact Y | exact L]). rewrite S1. cbn [String.eqb orb append]. exact S1. }
  cbn [expected fst map In] in Hx. destruct Hx as [<-|[<-|[]]]; rewrite N in E by reflexivity; discriminate E.
Qed.
(** ** C240 Different labels in one directory never share an announced file *)
Theorem C240_distinct outdir a b x y : outdir <> "" -> (forall c, In c (list_ascii_of_string a ++ list_ascii_of_string b) -> c <> "/"%char) -> a <> b ->
  In x (fst (expected Dynesty outdir a)) -> In y (fst (expected Dynesty outdir b)) -> ~ same x y.
Proof.
  intros O NS AB Hx Hy S0.
  assert (P : forall l cur, (forall c, In c (list_ascii_of_string l) -> c <> "/"%char) -> cur ++ l <> "" -> parts cur l = [cur ++ l]).
  { induction l as [|c l IH]; intros cur N1 N2; cbn [parts].
    - rewrite app_nil in *. destruct (String.eqb_spec cur ""); [contradiction | reflexivity].
    - destruct (Ascii.eqb_spec c "/") as [Q|_]; [exfalso; apply (N1 c); [left; reflexivity | exact Q]|]. rewrite IH; [rewrite app_assoc'; reflexivity | intros d Hd; apply N1; right; exact Hd|]. rewrite app_assoc'. exact N2. }
  assert (LA : forall u v, list_ascii_of_string (u ++ v) = (list_ascii_of_string u ++ list_ascii_of_string v)%list) by (induction u as [|c u IH]; intros v; [reflexivity | cbn; rewrite IH; reflexivity]).
  assert (X : forall l k, (forall c, In c (list_ascii_of_string l) -> c <> "/"%char) -> (k = "_resume.pickle" \/ k = "_dynesty.pickle") -> path (join outdir (l ++ k)) = (fst (path outdir), (parts "" outdir ++ [(l ++ k)%string])%list)).
  { intros l k N1 K. assert (KN : forall c, In c (list_ascii_of_string k) -> c <> "/"%char) by (intros c Hc Q; assert (KB : forallb (fun c => negb (Ascii.eqb c "/")) (list_ascii_of_string k) = true) by (destruct K as [-> | ->]; reflexivity); rewrite forallb_forall in KB; specialize (KB c Hc); rewrite Q, Ascii.eqb_refl in KB; discriminate KB).
    rewrite path_join; [|exact O|].
    - apply f_equal. apply (f_equal (app _)). rewrite P; [reflexivity| |destruct l; destruct K as [-> | ->]; discriminate]. intros c. rewrite LA, in_app_iff. intros [Q|Q]; [apply N1; exact Q | apply KN; exact Q].
    - destruct l as [|c l]; [destruct K as [-> | ->]; reflexivity|]. cbn. destruct (Ascii.eqb_spec c slash) as [Q|_]; [|reflexivity]. exfalso. apply (N1 c); [left; reflexivity | exact Q]. }
  assert (Na : forall c, In c (list_ascii_of_string a) -> c <> "/"%char) by (intros c Hc; apply NS; apply in_app_iff; left; exact Hc).
  assert (Nb : forall c, In c (list_ascii_of_string b) -> c <> "/"%char) by (intros c Hc; apply NS; apply in_app_iff; right; exact Hc).
  assert (Inj : forall u v k, u ++ k = v ++ k -> u = v).
  { intros u v k Q. assert (Q2 : list_ascii_of_string u = list_ascii_of_string v) by (apply (f_equal list_ascii_of_string) in Q; rewrite !LA in Q; apply app_inv_tail in Q; exact Q).
    rewrite <- (string_of_list_ascii_of_string u), <- (string_of_list_ascii_of_string v), Q2. reflexivity. }
  assert (Neq : forall u v, u ++ "_resume.pickle" <> v ++ "_dynesty.pickle").
  { intros u v Q. apply (f_equal list_ascii_of_string) in Q. rewrite !LA in Q. apply (f_equal (@rev ascii)) in Q. rewrite !rev_app_distr in Q. cbn in Q. discriminate Q. }
  assert (Hd : forall u v, path (join outdir u) = (fst (path outdir), (parts "" outdir ++ [u])%list) -> path (join outdir v) = (fst (path outdir), (parts "" outdir ++ [v])%list) -> same (join outdir u) (join outdir v) -> u = v).
  { intros u v U V Q. unfold same in Q. rewrite U, V in Q. apply (f_equal snd) in Q. cbn [snd] in Q. apply app_inv_head in Q. apply (f_equal (hd "")) in Q. exact Q. }
  assert (G : forall l z, In z (fst (expected Dynesty outdir l)) -> exists k, (k = "_resume.pickle" \/ k = "_dynesty.pickle") /\ z = join outdir (l ++ k)).
  { intros l z [<-|[<-|[]]]; eexists; (split; [|reflexivity]); auto. }
  destruct (G _ _ Hx) as (k & K & ->). destruct (G _ _ Hy) as (k' & K' & ->).
  pose proof (Hd _ _ (X a k Na K) (X b k' Nb K') S0) as Q.
  destruct K as [-> | ->]; destruct K' as [-> | ->].
  - exact (AB (Inj _ _ _ Q)).
  - exact (Neq _ _ Q).
  - exact (Neq _ _ (eq_sym Q)).
  - exact (AB (Inj _ _ _ Q)).
Qed.
Example C240_example : expected Nessai "out/" "run" = ([], ["out/run_nessai/"; "out/run_nessai/proposal/"; "out/run_nessai/diagnostics/"]) /\
  expected Pymultinest "out" "run" = ([], ["out/pm_run/"]) /\ written DNest4 "out" "run" = ["out/dn4_run/"; "out/dnest4run/"] /\ expected DNest4 "out" "run" = ([], ["out/d4nest_run/"]) /\
  same "out//run_resume.pickle" "out/run_resume.pickle" /\ ~ inside "out/pm_run/" "out/pm_run2/x".
Proof. do 5 (split; [vm_compute; reflexivity|]). intros [_ [r E]]. vm_compute in E. discriminate E. Qed.

(** ** Assumptions of every theorem above *)
Definition ExpOut_Props_all :=
  (@C240_covered,
   @C240_dnest4_refuted,
   @C240_empty_refuted,
   @C240_distinct).
Print Assumptions ExpOut_Props_all.
