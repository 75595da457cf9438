(** Files written by safe_file_dump, Result.save_to_file and the temporary-directory samplers:
    bilby/core/utils/io.py, bilby/core/result.py, bilby/core/sampler/base_sampler.py.

    A program is the list of its file-system calls; a crash (kill, power cut, exception) at any
    point executes a prefix of that list. A rename inside one directory is atomic; writes
    reach the disk in program order, one byte at a time. Not modelled: delayed flushing of
    buffers by the operating system (the code never calls fsync), links, permissions. *)
From Coq Require Import List String Bool Ascii.
Import ListNotations.
Open Scope string_scope.

Section Files.
Context {byte : Type}.
Definition content := list byte.
Definition fsys := string -> option content.
Inductive call := Trunc (p : string) | Append (p : string) (b : byte) | Rename (p q : string) | Remove (p : string).
Definition upd (s : fsys) (p : string) (v : option content) : fsys := fun q => if String.eqb q p then v else s q.
(** Trunc: open(p, "w"); Append: one byte through that handle; Rename: os.rename, which
    replaces [q]; the last two raise when the file is missing (state unchanged) *)
Definition exec1 (s : fsys) (c : call) : fsys :=
  match c with
  | Trunc p => upd s p (Some [])
  | Append p b => match s p with Some l => upd s p (Some (l ++ [b])%list) | None => s end
  | Rename p q => match s p with Some l => upd (upd s p None) q (Some l) | None => s end
  | Remove p => upd s p None
  end.
Definition exec (s : fsys) (l : list call) : fsys := fold_left exec1 l s.
Definition write (p : string) (d : content) : list call := Trunc p :: map (Append p) d.

(** io.py 374-391 [safe_file_dump]; shutil.move within one directory is os.rename *)
Definition temp_name (f : string) : string := f ++ ".temp".
Definition safe_file_dump (f : string) (d : content) : list call := (write (temp_name f) d ++ [Rename (temp_name f) f])%list.

(** io.py 394-414 [move_old_file] *)
Definition old_name (f : string) : string := f ++ ".old".
Definition move_old_file (s : fsys) (f : string) (overwrite : bool) : list call :=
  match s f with None => [] | Some _ => if overwrite then [Remove f] else [Rename f (old_name f)] end.

(** result.py 822: everything after the last dot of the whole path is replaced *)
Fixpoint split_dot (acc : string) (s : string) : list string :=
  match s with
  | EmptyString => [acc]
  | String c t => if Ascii.eqb c "."%char then acc :: split_dot "" t else split_dot (acc ++ String c "") t
  end.
Definition fallback_name (f : string) : string := String.concat "." (removelast (split_dot "" f)) ++ ".pkl".

(** result.py 787-827 [save_to_file]. [Json d k]: streaming writers (json, hdf5), whose encoder
    raises after [k] bytes when [k] is given; [Gz d fails]: the text is encoded before the file
    is opened; [Pkl]: safe_file_dump; [Unknown]: the documented name "pickle" and any other;
    [p] is the dill dump of the result *)
Inductive format := Stream (d : content) (fail : option nat) | Gz (d : content) (fails : bool) | Pkl | Unknown.
Definition save_to_file (s : fsys) (f : string) (overwrite : bool) (fmt : format) (p : content) : list call :=
  let fallback := safe_file_dump (fallback_name f) p in
  (move_old_file s f overwrite ++
  match fmt with
  | Stream d None => write f d
  | Stream d (Some k) => write f (firstn k d) ++ fallback
  | Gz d false => write f d
  | Gz d true => fallback
  | Pkl => safe_file_dump f p
  | Unknown => fallback
  end)%list.

(** base_sampler.py 1029-1042: shutil.copytree(temp, out, dirs_exist_ok=True) over the files
    [names] of the temporary directory, then 1027 shutil.rmtree(temp) *)
Definition copytree (s : fsys) (src dst : string) (names : list string) : list call :=
  flat_map (fun x => match s (src ++ x)%string with Some d => write (dst ++ x)%string d | None => [] end) names.
Definition rmtree (dir : string) (names : list string) : list call := map (fun x => Remove (dir ++ x)%string) names.
Definition hand_over (s : fsys) (tmp out : string) (names : list string) : list call :=
  (copytree s tmp out names ++ rmtree tmp names)%list.
(** 1044-1061 [_setup_run_directory]: the output directory is copied to a new temporary one *)
Definition setup_run (s : fsys) (out tmp : string) (names : list string) : list call := copytree s out tmp names.
End Files.

(** result.py 790-796: callable sampler keyword arguments in the dictionary taken from the
    result (the same dictionary object) are replaced by the text of the whole dictionary *)
Section Kwargs.
Context {V : Type}.
Variable callable : V -> bool.
Variable str_of : list (string * V) -> V.
Fixpoint replace_callables (done todo : list (string * V)) : list (string * V) :=
  match todo with
  | [] => done
  | (k, v) :: t => replace_callables (done ++ [(k, if callable v then str_of (done ++ (k, v) :: t)%list else v)])%list t
  end.
End Kwargs.

(** base_sampler.py 67-104 [signal_wrapper]; handlers of SIGTERM, SIGINT, SIGALRM; [None]: a
    handler not installed from Python (signal.signal returns None for it and refuses it) *)
Section Signals.
Context {H : Type}.
Record handlers := mkH { h_term : option H; h_int : option H; h_alrm : option H }.
(** which installations succeed: all, none (not the main thread: ValueError), or all but
    SIGALRM (no such signal on Windows: AttributeError) *)
Inductive platform := Unix | NotMain | NoAlarm.
(** what the wrapped method does: return or raise, after changing the handlers *)
Inductive outcome := Returned | Raised.
Definition wrapped (pl : platform) (mine : H) (method : handlers -> outcome * handlers) (s : handlers) : outcome * handlers :=
  match pl with
  | NotMain => method s
  | NoAlarm => method (mkH (Some mine) (Some mine) (h_alrm s))
  | Unix =>
      match method (mkH (Some mine) (Some mine) (Some mine)) with
      | (Raised, s') => (Raised, s')
      | (Returned, s') =>
          match h_term s with None => (Raised, s') | Some t =>
          match h_int s with None => (Raised, mkH (Some t) (h_int s') (h_alrm s')) | Some i =>
          match h_alrm s with None => (Raised, mkH (Some t) (Some i) (h_alrm s')) | Some a =>
          (Returned, mkH (Some t) (Some i) (Some a)) end end end
      end
  end.
End Signals.

(** base_sampler.py 733-758 [write_current_state_and_exit], [_close_pool]; the checkpoint
    counter and the exit stand for the effects *)
Record proc := mkP { npool : option nat; pool_open : bool; checkpoints : nat; exited : bool }.
Definition on_signal (p : proc) : proc :=
  if orb (match npool p with None => true | Some n => Nat.eqb n 1 end) (pool_open p)
  then mkP (npool p) false (S (checkpoints p)) true else p.
