(** C232: a grid saved to a file, read again, and evaluated late. *)
From Coq Require Import String Reals List Bool.
From Verif Require Import PyDict GridFile_Model.
Import ListNotations.
Open Scope string_scope.

Section Props.
Context {Lk P J A N : Type}.
Variable names_of : P -> list string.
Variable rescale : P -> string -> nat -> list R.
Variable prior_on : P -> dict (list R) -> A.
Variable evaluate : Lk -> dict (list R) -> A.
Variable uninitialised : A.
Variable noise_of : Lk -> N.
Variable enc : P -> option J.
Variable dec : J -> P.
Variable mkdir : string -> bool.
Notation grid := (@grid Lk P A N).
Notation files := (@files J A N).
Notation init := (@init Lk P A N names_of rescale prior_on evaluate noise_of).
Notation get_lnl := (@get_lnl Lk P A N evaluate uninitialised noise_of).
Notation save := (@save_to_file Lk P J A N evaluate uninitialised noise_of enc mkdir).
Notation init_saving := (@init_saving Lk P J A N names_of rescale prior_on evaluate uninitialised noise_of enc mkdir).
Notation read := (@read Lk P J A N names_of rescale prior_on evaluate noise_of dec).

(** what the constructor and reading guarantee *)
Definition built (g : grid) : Prop := names g = names_of (priors g) /\ lookups (points g) (names_of (priors g)) = Some (points g) /\
  ln_prior_ g = match names g with [] => None | _ => Some (prior_on (priors g) (points g)) end.
Lemma lookups_map d l f : (forall k, In k l -> dget d k = Some (f k)) -> lookups d l = Some (map (fun k => (k, f k)) l).
Proof. induction l as [|k l IH]; intros H; [reflexivity|]. cbn. rewrite (H k) by (left; reflexivity). rewrite IH by (intros; apply H; right; assumption). reflexivity. Qed.
Lemma dget_map (f : string -> list R) l k : In k l -> dget (map (fun k => (k, f k)) l) k = Some (f k).
Proof. induction l as [|x l IH]; intros I; [destruct I|]. cbn. destruct (String.eqb_spec k x) as [->|N1]; [reflexivity|]. destruct I as [->|I]; [contradiction|]. apply IH, I. Qed.
Lemma lookups_some d : forall l r, lookups d l = Some r -> exists f, r = map (fun k => (k, f k)) l /\ forall k, In k l -> dget d k = Some (f k).
Proof.
  induction l as [|k l IH]; intros r H; [injection H as <-; exists (fun _ => []); split; [reflexivity|intros k []]|]. cbn in H. destruct (dget d k) as [x|] eqn:E; [|discriminate]. destruct (lookups d l) as [r'|] eqn:Q; [|discriminate].
  injection H as <-. destruct (IH r' eq_refl) as (f & -> & F). exists (fun j => match dget d j with Some y => y | None => [] end). split.
  - cbn. rewrite E. apply f_equal. apply map_ext_in. intros j I. rewrite (F j I). reflexivity.
  - intros j [<-|I]; [rewrite E; reflexivity|rewrite (F j I); reflexivity].
Qed.
Lemma init_built k p s g : init k p s = Ok g -> built g /\ likelihood g = k /\ priors g = p /\ label g = None /\ outdir g = None /\
  lnl g = (match names g with [] => None | _ => option_map (fun k => evaluate k (points g)) k end) /\ noise g = (match names g with [] => None | _ => option_map noise_of k end).
Proof.
  unfold GridFile_Model.init. destruct (sample_points names_of rescale p s) as [pts|] eqn:E; [|discriminate]. intros H. injection H as <-. unfold built. cbn.
  assert (Q : exists f, pts = map (fun k => (k, f k)) (names_of p)).
  { destruct s as [n|d]; cbn in E; [injection E as <-; eexists; reflexivity|]. destruct (lookups_some d _ _ E) as (f & -> & _). exists f. reflexivity. }
  destruct Q as (f & ->). repeat match goal with |- _ /\ _ => split end; try reflexivity; [apply lookups_map; intros; apply dget_map; assumption|..]; destruct (names_of p); reflexivity.
Qed.
Lemma write_eq (fs : files) f c : write fs f c f = c. Proof. unfold write. rewrite String.eqb_refl. reflexivity. Qed.
Lemma write_ne (fs : files) f c k : k <> f -> write fs f c k = fs k. Proof. unfold write. destruct (String.eqb_spec k f); [contradiction|reflexivity]. Qed.
Lemma old_ne f : f ++ ".old" <> f. Proof. intros H. apply (f_equal String.length) in H. rewrite (ltac:(clear; induction f as [|c f IH]; cbn; [reflexivity|rewrite IH; reflexivity]) : String.length (f ++ ".old") = 4 + String.length f) in H. induction (String.length f); [discriminate|]. injection H as H. auto. Qed.

(** ** C232 What is read is what was saved: names, points, prior, likelihood and noise evidence; label, directory and likelihood object are lost *)
Theorem C232_round_trip fs g f ow d gz a n j : built g -> names g <> [] -> lnl g = Some a -> noise g = Some n -> enc (priors g) = Some j -> dec j = priors g -> mkdir d = true ->
  exists fs1, save fs g (Some f) ow (Some d) gz = (fs1, g, Ok tt) /\
  read fs1 (Some f) None None gz = Ok (Grid None (priors g) (names g) (points g) (ln_prior_ g) (lnl g) (noise g) None None).
Proof.
  intros (B1 & B2 & B3) NE La Ln Ej Dj Md. unfold save_to_file. cbn. rewrite Md. unfold get_dictionary, GridFile_Model.get_lnl. rewrite La.
  assert (LP : exists lp, ln_prior_ g = Some lp) by (rewrite B3; destruct (names g); [contradiction|eexists; reflexivity]). destruct LP as (lp & LP). rewrite LP, Ln, Ej. eexists. split; [reflexivity|].
  unfold GridFile_Model.read. rewrite write_eq, Bool.eqb_reflx. cbn [s_priors s_points s_lnl s_noise]. rewrite Dj. unfold GridFile_Model.init. cbn [sample_points]. rewrite B2. cbn. rewrite <- B1. rewrite B3 in LP. destruct (names g); [contradiction|]. rewrite LP. reflexivity.
Qed.
(** the same through the constructor and the name made of directory and label *)
Theorem C232_saved_by_constructor fs k p s lab d gz g j : init (Some k) p s = Ok g -> names_of p <> [] -> enc p = Some j -> dec j = p -> mkdir d = true ->
  exists fs1 g1, init_saving fs (Some k) p s lab d gz = (fs1, Ok g1) /\ label g1 = Some lab /\ outdir g1 = Some d /\
  read fs1 None (Some d) (Some lab) gz = Ok (Grid None p (names g) (points g) (ln_prior_ g) (lnl g) (noise g) None None).
Proof.
  intros I NE Ej Dj Md. destruct (init_built _ _ _ _ I) as ((B1 & B2 & B3) & B4 & B5 & B6 & B7 & B8 & B9). unfold GridFile_Model.init_saving. rewrite I. rewrite B5 in *. rewrite B1 in *.
  destruct (names_of p) as [|x l] eqn:NP; [contradiction|]. cbn [option_map] in B8, B9. cbn beta iota in B3.
  unfold save_to_file. cbn [label outdir option_map]. rewrite Md. unfold get_dictionary, GridFile_Model.get_lnl. cbn [lnl ln_prior_ noise priors label outdir points]. rewrite B8, B3, B9. cbn [ln_prior_ noise priors]. rewrite Ej. eexists _, _. split; [reflexivity|]. split; [reflexivity|]. split; [reflexivity|].
  unfold GridFile_Model.read. rewrite write_eq, Bool.eqb_reflx. cbn [s_priors s_points s_lnl s_noise]. rewrite Dj. unfold GridFile_Model.init. unfold sample_points. rewrite NP. cbn [points]. rewrite B2. reflexivity.
Qed.
(** ** C232 Old files: the content before is under the name with .old, unless it was to be overwritten; nothing else is touched.  Of many saves the last two stay *)
Definition kept_old (fs1 fs0 : files) f (ow : bool) : Prop :=
  fs1 (f ++ ".old") = (if ow then fs0 (f ++ ".old") else match fs0 f with Some c => Some c | None => fs0 (f ++ ".old") end) /\ forall k, k <> f -> k <> f ++ ".old" -> fs1 k = fs0 k.
Lemma move_spec (fs : files) f ow : kept_old (move_old_file fs f ow) fs f ow /\ move_old_file fs f ow f = None.
Proof.
  unfold kept_old, move_old_file. destruct (fs f) as [c|] eqn:E; destruct ow; repeat match goal with |- _ /\ _ => split end; intros; try assumption; try reflexivity.
  all: repeat first [rewrite write_eq|rewrite write_ne by (assumption || apply old_ne)]; reflexivity.
Qed.
Theorem C232_files fs g f ow dir gz fs1 g1 r : save fs g (Some f) ow dir gz = (fs1, g1, r) ->
  (fs1 = fs /\ g1 = g /\ (r = Err TypeErr \/ r = Err FileMoved)) \/
  (kept_old fs1 fs f ow /\ (forall e, r = Err e -> fs1 f = None)).
Proof.
  unfold save_to_file. destruct (match dir with Some d => Some d | None => outdir g end) as [d|]; [|intros H; injection H as <- <- <-; left; auto]. destruct (mkdir d); [|intros H; injection H as <- <- <-; left; auto].
  intros H. right. destruct (move_spec fs f ow) as [[M1 M2] M3].
  assert (W : forall c, kept_old (write (move_old_file fs f ow) f c) fs f ow).
  { intros c. unfold kept_old. rewrite write_ne by apply old_ne. split; [exact M1|]. intros k N1 N2. rewrite write_ne by exact N1. apply M2; assumption. }
  destruct (get_dictionary evaluate uninitialised noise_of g) as [[[a n]|e] g2]; [|injection H as <- <- <-; split; [split; assumption|intros; exact M3]].
  destruct (enc (priors g2)); [injection H as <- <- <-; split; [apply W|discriminate]|]. destruct (gz || ends_gz f); injection H as <- <- <-; (split; [first [apply W|split; assumption]|discriminate]).
Qed.
(** ** C232 A grid that was read, or made without save, has no directory and no label: a file name alone does not do, nor a directory alone *)
Theorem C232_save_again fs g f ow d gz a n j : built g -> names g <> [] -> lnl g = Some a -> noise g = Some n -> label g = None -> outdir g = None -> mkdir d = true -> enc (priors g) = Some j ->
  save fs g (Some f) ow None gz = (fs, g, Err TypeErr) /\ save fs g None ow (Some d) gz = (fs, g, Err ValueErr) /\
  exists fs1, save fs g (Some f) ow (Some d) gz = (fs1, g, Ok tt) /\ fs1 f = Some (Json (gz || ends_gz f) (Saved None None j (points g) a n)).
Proof.
  intros (B1 & B2 & B3) NE La Ln Lb Od Md Ej. unfold save_to_file. rewrite Od, Lb, Md. cbn [option_map]. split; [reflexivity|]. split; [reflexivity|].
  unfold get_dictionary, GridFile_Model.get_lnl. rewrite La. cbn beta iota. rewrite B3. destruct (names g); [contradiction|]. rewrite Ln, Ej. eexists. split; [reflexivity|]. rewrite Lb, Od. apply write_eq.
Qed.
(** ** C232 Without a likelihood: the first question for its values raises, every later one gives the uninitialised array; and no save ever succeeds, though each moves the old file away *)
Theorem C232_unevaluated_refuted p s g : init None p s = Ok g -> names_of p <> [] -> exists g1, get_lnl g = (Err AttributeErr, g1) /\ get_lnl g1 = (Ok uninitialised, g1) /\ points g1 = points g /\ likelihood g1 = None.
Proof.
  intros I NE. destruct (init_built _ _ _ _ I) as ((B1 & _ & _) & B4 & B5 & _ & _ & B8 & _). rewrite B5 in B1. rewrite B1 in B8. unfold GridFile_Model.get_lnl at 1. rewrite B1, B4. destruct (names_of p); [contradiction|]. rewrite B8. cbn [option_map].
  eexists. split; [reflexivity|]. split; [reflexivity|]. split; reflexivity.
Qed.
Theorem C232_never_saved p s g f ow d gz m fs : init None p s = Ok g -> mkdir d = true -> ow = true ->
  (let fix tries (n : nat) (st : files * grid) := match n with O => st | S n => tries n (let '(fs, g, _) := save (fst st) (snd st) (Some f) ow (Some d) gz in (fs, g)) end in
   let st := tries m (fs, g) in let '(fs1, _, r) := save (fst st) (snd st) (Some f) ow (Some d) gz in (r = Err AttributeErr \/ r = Err IndexErr) /\ fs1 f = None).
Proof.
  intros I Md OW. destruct (init_built _ _ _ _ I) as ((B1 & _ & B3) & B4 & B5 & _ & _ & B8 & B9).
  assert (C : likelihood g = None /\ noise g = None /\ (names g = [] -> lnl g = None)) by (rewrite B4, B9, B8; destruct (names g); cbn; auto). clear I B1 B3 B4 B5 B8 B9.
  assert (Q : forall fs g, (likelihood g = None /\ noise g = None /\ (names g = [] -> lnl g = None)) -> exists g1 e, save fs g (Some f) ow (Some d) gz = (move_old_file fs f ow, g1, Err e) /\ (e = AttributeErr \/ e = IndexErr) /\
     (likelihood g1 = None /\ noise g1 = None /\ (names g1 = [] -> lnl g1 = None))).
  { clear - Md. intros fs g (C1 & C2 & C3). unfold save_to_file. rewrite Md. unfold get_dictionary, GridFile_Model.get_lnl. rewrite C1, C2.
    destruct (lnl g) eqn:E1; [|destruct (names g) eqn:E2]; cbn [ln_prior_ noise]; try (destruct (ln_prior_ g)); rewrite ?C2; eexists _, _; (split; [reflexivity|]); (split; [auto|]); cbn; (split; [assumption || reflexivity|]); (split; [assumption || reflexivity|]); first [assumption|discriminate|rewrite E1; intros; exact (C3 H)|auto]. }
  revert fs g C. induction m as [|m IH]; intros fs g C; cbv zeta.
  - cbn [fst snd]. destruct (Q fs g C) as (g1 & e & -> & E & _). split; [destruct E as [-> | ->]; auto|apply move_spec].
  - destruct (Q fs g C) as (g1 & e & X & E & C1). specialize (IH (move_old_file fs f ow) g1 C1). cbn [fst snd] in *. rewrite X. exact IH.
Qed.
(** ** C232 Reading: without a name, directory or label ValueError, with a label alone TypeError, no file IOError; zipped files need to be called so *)
Theorem C232_read_errors fs f d l gz : read fs None None None gz = Err ValueErr /\ read fs None None (Some l) gz = Err TypeErr /\ (fs f = None -> read fs (Some f) d (Some l) gz = Err IOErr) /\
  (fs f = Some Broken -> read fs (Some f) d (Some l) gz = Err ValueErr) /\ (forall s, ends_gz f = false -> fs f = Some (Json (negb gz) s) -> read fs (Some f) d (Some l) gz = Err ValueErr) /\
  (forall dd, read fs None (Some dd) None gz = read fs (Some (grid_file_name dd "None" gz)) None None gz).
Proof.
  unfold GridFile_Model.read. repeat match goal with |- _ /\ _ => split end; try reflexivity; intros; rewrite ?H, ?H0; try reflexivity. rewrite orb_false_r. destruct gz; reflexivity.
Qed.
(** a grid with its values is not evaluated again *)
Theorem C232_evaluated k p s g : init (Some k) p s = Ok g -> names_of p <> [] -> get_lnl g = (Ok (evaluate k (points g)), g) /\ noise g = Some (noise_of k) /\ label g = None /\ outdir g = None.
Proof.
  intros I NE. destruct (init_built _ _ _ _ I) as ((B1 & _ & _) & B4 & B5 & B6 & B7 & B8 & B9). rewrite B5 in B1. rewrite B1 in B8, B9. destruct (names_of p); [contradiction|]. unfold GridFile_Model.get_lnl. rewrite B8. auto.
Qed.
(** the values asked for late are kept: asking again gives the same and changes nothing *)
Theorem C232_kept g a g1 : get_lnl g = (Ok a, g1) -> lnl g1 = Some a /\ get_lnl g1 = (Ok a, g1) /\ (forall k, likelihood g = Some k -> lnl g = None -> a = evaluate k (points g) /\ noise g1 = Some (noise_of k)).
Proof.
  unfold GridFile_Model.get_lnl at 1. destruct (lnl g) as [b|] eqn:L.
  - intros H. injection H as <- <-. split; [exact L|]. split; [unfold GridFile_Model.get_lnl; rewrite L; reflexivity | intros k _ Q; discriminate Q].
  - destruct (names g); [discriminate|]. destruct (likelihood g) as [k|]; [|discriminate]. intros H. injection H as <- <-. split; [reflexivity|]. split; [reflexivity|]. intros k' K _. injection K as <-. split; reflexivity.
Qed.
(** the file the constructor writes, by its name *)
Theorem C232_name fs k p s lab d g j (zipped : bool) : init (Some k) p s = Ok g -> names_of p <> [] -> enc p = Some j -> dec j = p -> mkdir d = true ->
  let file := if zipped then d ++ "/" ++ lab ++ "_grid.json.gz" else d ++ "/" ++ lab ++ "_grid.json" in
  exists fs1 g1 z, init_saving fs (Some k) p s lab d zipped = (fs1, Ok g1) /\ fs1 file = Some (Json z (Saved (Some lab) (Some d) j (points g) (evaluate k (points g)) (noise_of k))) /\ (zipped = true -> z = true).
Proof.
  intros I NE Ej Dj Md file. destruct (init_built _ _ _ _ I) as ((B1 & B2 & B3) & B4 & B5 & B6 & B7 & B8 & B9). unfold GridFile_Model.init_saving. rewrite I. rewrite B5 in *. rewrite B1 in *.
  destruct (names_of p) as [|x l] eqn:NP; [contradiction|]. cbn [option_map] in B8, B9. cbn beta iota in B3.
  unfold save_to_file. cbn [label outdir option_map]. rewrite Md. unfold get_dictionary, GridFile_Model.get_lnl. cbn [lnl ln_prior_ noise priors label outdir points]. rewrite B8, B3, B9. cbn [ln_prior_ noise priors]. rewrite Ej. do 3 eexists. split; [reflexivity|].
  assert (Q : file = grid_file_name d lab zipped).
  { unfold file, grid_file_name. destruct zipped; [|rewrite (ltac:(clear; induction "_grid.json" as [|c t IH]; cbn; [reflexivity|rewrite IH; reflexivity]) : "_grid.json" ++ "" = "_grid.json"); reflexivity]. reflexivity. }
  rewrite Q, write_eq. split; [reflexivity|]. intros ->. reflexivity.
Qed.
End Props.

(** a grid saved twice by the constructor and read; one without likelihood asked twice *)
Example C232_example :
  let make fs k := init_saving (fun p : list string => p) (fun _ _ n => repeat 0%R n) (fun p d => length p + length d) (fun k d => k + length d) 99 (fun k => 10 * k)
    (fun p => Some p) (fun _ => true) fs (Some k) ["a"; "b"] (Num 3) "run" "out" false in
  let fs1 := fst (make (fun _ => None) 1) in let fs2 := fst (make fs1 2) in
  let get f := match read (Lk := nat) (fun p : list string => p) (fun _ _ n => repeat 0%R n) (fun p d => length p + length d) (fun k d => k + length d) (fun k => 10 * k) (fun j : list string => j) fs2 (Some f) None None false with
    | Ok g => Some (names g, lnl g, noise g, label g) | Err _ => None end in
  get "out/run_grid.json" = Some (["a"; "b"], Some 4, Some 20, None) /\ get "out/run_grid.json.old" = Some (["a"; "b"], Some 3, Some 10, None) /\ get "run_grid.json" = None.
Proof. vm_compute. repeat split. Qed.

(** ** Assumptions of every theorem above *)
Definition GridFile_Props_all :=
  (@C232_round_trip,
   @C232_saved_by_constructor,
   @C232_files,
   @C232_save_again,
   @C232_unevaluated_refuted,
   @C232_never_saved,
   @C232_read_errors,
   @C232_evaluated,
   @C232_kept,
   @C232_name).
Print Assumptions GridFile_Props_all.
