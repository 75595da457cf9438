(** * Result files: names, formats, fall-back and reading
    Model of /repo/bilby/core/result.py 40-159 (result_file_name, _determine_file_name, read_in_result,
    read_in_result_list), 526-576 (from_pickle, from_hdf5, from_json), 756-827 (save_to_file) and of
    load_json, /repo/bilby/core/utils/io.py 134-144, move_old_file, io.py 394-414. *)
From Coq Require Import String Ascii List Bool Arith.
Import ListNotations.
Open Scope list_scope.

Definition text := list ascii.
Definition T (s : string) : text := list_ascii_of_string s.
Definition teqb (a b : text) : bool := if list_eq_dec ascii_dec a b then true else false.
Definition dot : ascii := "."%char.
Definition slash : ascii := "/"%char.

(** [p.rfind(c)] *)
Fixpoint rfind (c : ascii) (p : text) : option nat :=
  match p with
  | [] => None
  | a :: t => match rfind c t with
              | Some n => Some (S n)
              | None => if Ascii.eqb a c then Some 0 else None
              end
  end.
(** os.path.splitext (genericpath._splitext): the last dot after the last slash, unless nothing but dots
    stands between them. *)
Definition splitext (p : text) : text * text :=
  match rfind dot p with
  | None => (p, [])
  | Some d =>
      let fi := match rfind slash p with Some s => S s | None => 0 end in
      if existsb (fun a => negb (Ascii.eqb a dot)) (firstn (d - fi) (skipn fi p)) then (firstn d p, skipn d p) else (p, [])
  end.
(** [s.lstrip('.')] *)
Fixpoint lstrip_dot (s : text) : text := match s with a :: t => if Ascii.eqb a dot then lstrip_dot t else s | [] => [] end.
(** [p in s] *)
Fixpoint prefix (p s : text) : bool := match p, s with [], _ => true | a :: p, b :: s => Ascii.eqb a b && prefix p s | _ :: _, [] => false end.
Fixpoint contains (p s : text) : bool := prefix p s || match s with [] => false | _ :: t => contains p t end.
(** os.path.join(outdir, name): an absolute name stands alone; a slash is put in unless outdir ends with one
    or is empty *)
Definition join (d n : text) : text :=
  match n with
  | a :: _ => if Ascii.eqb a slash then n
              else match rev d with [] => n | z :: _ => if Ascii.eqb z slash then d ++ n else d ++ [slash] ++ n end
  | [] => match rev d with [] => [] | z :: _ => if Ascii.eqb z slash then d else d ++ [slash] end
  end.

(** result_file_name, result.py 40-66; [None]: ValueError *)
Definition result_file_name (outdir label ext : text) (gzip : bool) : option text :=
  let ext := if teqb ext (T "pickle") then T "pkl" else ext in
  if teqb ext (T "json") && gzip then Some (join outdir (label ++ T "_result." ++ ext ++ T ".gz"))
  else if teqb ext (T "json") || teqb ext (T "hdf5") || teqb ext (T "pkl") then Some (join outdir (label ++ T "_result." ++ ext))
  else None.
(** _determine_file_name, 69-81; a label that is not given is written "None" when a directory is, and a
    directory that is not given cannot be joined *)
Definition determine (filename outdir label : option text) (ext : text) (gzip : bool) : option text :=
  match filename with
  | Some f => Some f
  | None => match outdir, label with
            | Some o, Some l => result_file_name o l ext gzip
            | Some o, None => result_file_name o (T "None") ext gzip
            | None, _ => None
            end
  end.

(** What a file holds; [CBroken]: the beginning of something that could not be written to the end. *)
Inductive content := CJson | CJsonGz | CHdf5 | CPickle | CBroken.
Definition files := text -> option content.
Definition fset (f : files) (n : text) (c : option content) : files := fun m => if teqb m n then c else f m.

(** ** Reading *)
Inductive reader := RJson | RHdf5 | RPickle.
(** 107-121: the reader chosen from the name; [None]: ValueError *)
Definition reader_of (name : text) : option reader :=
  let e := lstrip_dot (snd (splitext name)) in
  let e := if teqb e (T "gz") then lstrip_dot (snd (splitext (fst (splitext name)))) else e in
  if contains (T "json") e then Some RJson
  else if contains (T "hdf5") e || contains (T "h5") e then Some RHdf5
  else if contains (T "pkl") e || contains (T "pickle") e then Some RPickle
  else None.
(** load_json: gzip or not, io.py 135 (from_json calls it with gzip False, result.py 566) *)
Definition gz_name (name : text) : bool := teqb (lstrip_dot (snd (splitext name))) (T "gz").
(** from_json, from_hdf5, from_pickle on a file: [true]: a result comes out *)
Definition opens (r : reader) (name : text) (c : content) : bool :=
  match r, c with
  | RJson, CJson => negb (gz_name name)
  | RJson, CJsonGz => gz_name name
  | RHdf5, CHdf5 => true
  | RPickle, CPickle => true
  | _, _ => false
  end.
Definition read_file (fs : files) (name : text) : bool :=
  match reader_of name, fs name with Some r, Some c => opens r name c | _, _ => false end.
(** read_in_result, 84-121; [None]: an exception; [Some n]: the result stored in the file [n] *)
Definition read_in (fs : files) (filename outdir label : option text) (ext : text) (gzip : bool) : option text :=
  match determine filename outdir label ext gzip with
  | Some n => if read_file fs n then Some n else None
  | None => None
  end.
(** Result.from_pickle(outdir=, label=), 527-531: the default name is asked for with 'hdf5' *)
Definition from_pickle (fs : files) (filename outdir label : option text) : option text :=
  match determine filename outdir label (T "hdf5") false with
  | Some n => match fs n with Some CPickle => Some n | _ => None end
  | None => None
  end.
(** read_in_result_list, 124-159, one entry: the file read; [None]: it is left out (or an error is raised) *)
Definition list_entry (fs : files) (name : text) : option text :=
  let pkl := fst (splitext name) ++ T ".pkl" in
  let name := match fs name, fs pkl with None, Some _ => pkl | _, _ => name end in
  read_in fs (Some name) None None (T "json") false.

(** ** Writing *)
(** Where writing fails, if it does: before the file is opened (no priors, for instance) or half way. *)
Inductive failure := Before | During.
(** [".".join(filename.split(".")[:-1]) + ".pkl"], 822 *)
Definition fallback (name : text) : text := match rfind dot name with Some d => firstn d name | None => [] end ++ T ".pkl".
(** move_old_file, io.py 394-414 *)
Definition move_old (fs : files) (n : text) (overwrite : bool) : files :=
  match fs n with
  | None => fs
  | Some c => if overwrite then fset fs n None else fset (fset fs (n ++ T ".old") (Some c)) n None
  end.
(** save_to_file, 756-827, after [extension is True] has become json; [None]: ValueError at 785. Pickles are
    written completely or not at all (C19); [fail]: what happens to a json or hdf5 file. A json text that is
    compressed is made before the file is opened (805-807). The format is compared with the extension as
    given (800-820), so 'pickle' is none of the three and is saved by the fall-back. *)
Definition save (fs : files) (filename outdir label : option text) (ext : text) (gzip overwrite : bool) (fail : option failure) : option files :=
  match determine filename outdir label ext gzip with
  | None => None
  | Some n =>
      let fs := move_old fs n overwrite in
      Some (if teqb ext (T "json") then
              match fail, gzip with
              | None, true => fset fs n (Some CJsonGz)
              | None, false => fset fs n (Some CJson)
              | Some During, false => fset (fset fs n (Some CBroken)) (fallback n) (Some CPickle)
              | Some _, _ => fset fs (fallback n) (Some CPickle)
              end
            else if teqb ext (T "hdf5") then
              match fail with
              | None => fset fs n (Some CHdf5)
              | Some During => fset (fset fs n (Some CBroken)) (fallback n) (Some CPickle)
              | Some Before => fset fs (fallback n) (Some CPickle)
              end
            else if teqb ext (T "pkl") then fset fs n (Some CPickle)
            else fset fs (fallback n) (Some CPickle))
  end.
