(** bilby/core/grid.py 14-108, 305-308, 348-466 (class Grid): construction, late evaluation, saving and reading; core/utils/io.py 134-144, 394-414. *)
From Coq Require Import String Reals List Bool.
From Verif Require Import PyDict.
Import ListNotations.
Open Scope string_scope.

Inductive exc := AttributeErr | TypeErr | ValueErr | IOErr | IndexErr | KeyErr | FileMoved.
Inductive res (X : Type) := Ok (x : X) | Err (e : exc).
Arguments Ok {X}. Arguments Err {X}.

Section Grid.
(** likelihoods, prior dictionaries and their json form, arrays and numbers *)
Context {Lk P J A N : Type}.
Variable names_of : P -> list string.
(** prior.rescale(np.linspace(0, 1, n)) *)
Variable rescale : P -> string -> nat -> list R.
(** the log prior on the mesh of the points; the log likelihood on it; np.empty; noise_log_likelihood *)
Variable prior_on : P -> dict (list R) -> A.
Variable evaluate : Lk -> dict (list R) -> A.
Variable uninitialised : A.
Variable noise_of : Lk -> N.
(** PriorDict._get_json_dict with the encoder (None: an exception while writing), and the decoder *)
Variable enc : P -> option J.
Variable dec : J -> P.

Record grid := Grid { likelihood : option Lk; priors : P; names : list string; points : dict (list R); ln_prior_ : option A;
  lnl : option A; noise : option N; label : option string; outdir : option string }.
Inductive size := Num (n : nat) | Given (d : dict (list R)).
(** 322-341: one number for all, or a dictionary of arrays; other mixtures are left out *)
Fixpoint lookups (d : dict (list R)) (l : list string) : option (dict (list R)) :=
  match l with
  | [] => Some []
  | k :: t => match dget d k, lookups d t with Some x, Some r => Some ((k, x) :: r) | _, _ => None end
  end.
Definition sample_points (p : P) (s : size) : option (dict (list R)) :=
  match s with Num n => Some (map (fun k => (k, rescale p k n)) (names_of p)) | Given d => lookups d (names_of p) end.

(** files: the json text of the nine attributes, or what a failed write leaves behind *)
Record saved := Saved { s_label : option string; s_outdir : option string; s_priors : J; s_points : dict (list R); s_lnl : A; s_noise : N }.
Inductive content := Json (zipped : bool) (s : saved) | Broken.
Definition files := string -> option content.
Definition write (fs : files) (name : string) (c : option content) : files := fun k => if String.eqb k name then c else fs k.
(** 394-414 *)
Definition move_old_file (fs : files) (name : string) (overwrite : bool) : files :=
  match fs name with
  | None => fs
  | Some c => if overwrite then write fs name None else write (write fs (name ++ ".old") (Some c)) name None
  end.
(** 31-34 *)
Definition grid_file_name (dir : string) (lab : string) (gz : bool) : string := dir ++ "/" ++ lab ++ "_grid.json" ++ (if gz then ".gz" else "").
(** os.path.splitext(name)[-1] == '.gz', but for files called .gz *)
Fixpoint ends_gz (s : string) : bool := match s with EmptyString => false | String _ t => (String.eqb s ".gz") || ends_gz t end.

(** 101-105 with 305-308: the array is put in place before the likelihood is asked *)
Definition get_lnl (g : grid) : res A * grid :=
  match lnl g with
  | Some a => (Ok a, g)
  | None =>
    match names g with
    | [] => (Err IndexErr, g)
    | _ =>
      match likelihood g with
      | None => (Err AttributeErr, Grid None (priors g) (names g) (points g) (ln_prior_ g) (Some uninitialised) (noise g) (label g) (outdir g))
      | Some k => let a := evaluate k (points g) in
        (Ok a, Grid (Some k) (priors g) (names g) (points g) (ln_prior_ g) (Some a) (Some (noise_of k)) (label g) (outdir g))
      end
    end
  end.
(** 348-361 after ln_likelihood: ln_evidence may only raise ValueError, which is skipped, and is not read again *)
Definition get_dictionary (g : grid) : res (A * N) * grid :=
  match get_lnl g with
  | (Err e, g1) => (Err e, g1)
  | (Ok a, g1) =>
    match ln_prior_ g1 with
    | None => (Err AttributeErr, g1)
    | Some _ => match noise g1 with None => (Err AttributeErr, g1) | Some n => (Ok (a, n), g1) end
    end
  end.
(** 363-416; [mkdir] tells whether a directory may be made.  A failure while encoding is only logged;
    the plain file is open by then, the zipped one is not *)
Variable mkdir : string -> bool.
Definition save_to_file (fs : files) (g : grid) (filename : option string) (overwrite : bool) (dir : option string) (gz : bool) : files * grid * res unit :=
  match (match dir with Some d => Some d | None => outdir g end) with
  | None => (fs, g, Err TypeErr)
  | Some d =>
    if mkdir d then
      match (match filename with Some f => Some f | None => option_map (fun l => grid_file_name d l gz) (label g) end) with
      | None => (fs, g, Err ValueErr)
      | Some f =>
        let fs1 := move_old_file fs f overwrite in
        match get_dictionary g with
        | (Err e, g1) => (fs1, g1, Err e)
        | (Ok (a, n), g1) =>
          match enc (priors g1) with
          | None => (if gz || ends_gz f then fs1 else write fs1 f (Some Broken), g1, Ok tt)
          | Some j => (write fs1 f (Some (Json (gz || ends_gz f) (Saved (label g1) (outdir g1) j (points g1) a n))), g1, Ok tt)
          end
        end
      end
    else (fs, g, Err FileMoved)
  end.
(** 38-91 without save; 83: label and outdir are kept only together with save *)
Definition init (k : option Lk) (p : P) (s : size) : res grid :=
  match sample_points p s with
  | None => Err KeyErr
  | Some pts =>
    let nonempty := match names_of p with [] => false | _ => true end in
    Ok (Grid k p (names_of p) pts (if nonempty then Some (prior_on p pts) else None)
      (if nonempty then option_map (fun k => evaluate k pts) k else None) (if nonempty then option_map noise_of k else None) None None)
  end.
(** 83-91: save=True; the label and directory are strings *)
Definition init_saving (fs : files) (k : option Lk) (p : P) (s : size) (lab dir : string) (gz : bool) : files * res grid :=
  match init k p s with
  | Err e => (fs, Err e)
  | Ok g =>
    let g := Grid (likelihood g) (priors g) (names g) (points g) (ln_prior_ g) (lnl g) (noise g) (Some lab) (Some dir) in
    match save_to_file fs g None false None gz with
    | (fs1, g1, Ok _) => (fs1, Ok g1)
    | (fs1, _, Err e) => (fs1, Err e)
    end
  end.
(** 419-466; a text that is no json, or zipped when it is not expected to be, raises a ValueError *)
Definition read (fs : files) (filename dir lab : option string) (gz : bool) : res grid :=
  let load f :=
    match fs f with
    | None => Err IOErr
    | Some Broken => Err ValueErr
    | Some (Json z s) =>
      if Bool.eqb z (gz || ends_gz f) then
        match init None (dec (s_priors s)) (Given (s_points s)) with
        | Err e => Err e
        | Ok g => Ok (Grid None (priors g) (names g) (points g) (ln_prior_ g) (Some (s_lnl s)) (Some (s_noise s)) None None)
        end
      else Err ValueErr
    end in
  match filename with
  | Some f => load f
  | None =>
    match dir, lab with
    | None, None => Err ValueErr
    | None, Some _ => Err TypeErr
    | Some d, Some l => load (grid_file_name d l gz)
    | Some d, None => load (grid_file_name d "None" gz)
    end
  end.
End Grid.
