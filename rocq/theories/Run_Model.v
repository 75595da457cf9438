(** * bilby.run_sampler: looking up the sampler, reusing a stored result, filling in the result
    Model of /repo/bilby/core/sampler/__init__.py 18-80, 100-121, 143-354, of
    Sampler._check_cached_result (/repo/bilby/core/sampler/base_sampler.py 654-693), of
    Sampler._verify_use_ratio (470-495), of Result._check_attribute_match_to_other_object
    (/repo/bilby/core/result.py 1573-1602) and of result_file_name (result.py 40-66).
    Simplified: a sampler run is an oracle giving the evidence and the reported sampling time;
    files are written completely (partial writes are in Files_Model.v); paths are joined with "/". *)
From Coq Require Import String Ascii.
From Coq Require Import Reals List Bool Arith.
From Verif Require Import PyDict.
Import ListNotations.
Open Scope string_scope. Open Scope list_scope.

(** ** Names of samplers *)
(** [key.replace("bilby.", "")], __init__.py 35, 61: every occurrence goes, left to right;
    [skip] counts the remaining characters of an occurrence. *)
Fixpoint drop_prefix_from (skip : nat) (s : string) : string :=
  match s with
  | EmptyString => EmptyString
  | String c t =>
      match skip with
      | S k => drop_prefix_from k t
      | O => if String.prefix "bilby." s then drop_prefix_from 5 t else String c (drop_prefix_from 0 t)
      end
  end.
Definition strip (s : string) : string := drop_prefix_from 0 s.
Section Registry.
(** the loaded class, reached through the entry point *)
Context {E : Type}.
(** ImplementedSamplers.keys, __init__.py 27-40 *)
Definition keys (r : dict E) : list string := map (fun k => if dmem r (strip k) then k else strip k) (dkeys r).
(** ImplementedSamplers.items, __init__.py 50-56 *)
Definition items (r : dict E) : list (string * E) := combine (keys r) (dvals r).
(** ImplementedSamplers.valid_keys, __contains__, __init__.py 58-61, 74-75 *)
Definition valid (r : dict E) (k : string) : Prop := In k (dkeys r) \/ In k (map strip (dkeys r)).
(** ImplementedSamplers.__getitem__, __init__.py 63-72; [None]: ValueError *)
Definition getitem (r : dict E) (k : string) : option E :=
  match dget r k with Some e => Some e | None => dget r ("bilby." ++ k)%string end.
(** str.lower on ASCII letters *)
Definition lower_char (c : ascii) : ascii :=
  let n := nat_of_ascii c in if (Nat.leb 65 n && Nat.leb n 90)%bool then ascii_of_nat (n + 32) else c.
Fixpoint lower (s : string) : string := match s with EmptyString => EmptyString | String c t => String (lower_char c) (lower t) end.
(** get_sampler_class, __init__.py 100-121 *)
Definition get_sampler_class (r : dict E) (k : string) : option E := getitem r (lower k).
End Registry.

(** ** Stored results and runs *)
(** [save] and [gzip], __init__.py 201-206: False, True, or a text *)
Inductive saveopt := NoSave | SaveTrue | SaveAs (ext : string).
(** result_file_name, result.py 58-66; [None]: ValueError *)
Definition result_file_name (outdir label ext : string) (gzip : bool) : option string :=
  let ext := if String.eqb ext "pickle" then "pkl" else ext in
  let base := (outdir ++ "/" ++ label ++ "_result." ++ ext)%string in
  if String.eqb ext "json" then Some (if gzip then (base ++ ".gz")%string else base)
  else if (String.eqb ext "hdf5" || String.eqb ext "pkl")%bool then Some base else None.
(** the file save_to_file leaves behind (result.py 780-785); outer [None]: nothing is saved *)
Definition save_name (outdir label : string) (s : saveopt) (gzip : bool) : option (option string) :=
  match s with
  | NoSave => None
  | SaveTrue => Some (result_file_name outdir label "json" gzip)
  | SaveAs e => Some (result_file_name outdir label e gzip)
  end.
(** the file read_in_result(outdir=, label=) opens: extension='json', gzip=False (result.py 84, 99) *)
Definition cache_name (outdir label : string) : option string := result_file_name outdir label "json" false.

(** what a sampler reports as Result.sampling_time, __init__.py 309-316; a duration is in seconds *)
Inductive stime := NoTime | Duration (sec : R) | Number (x : R).
Open Scope R_scope.
(** __init__.py 309-316; [elapsed] is end_time - start_time; timedelta(x) counts days *)
Definition time_seconds (elapsed : R) (t : stime) : R :=
  match t with NoTime => elapsed | Duration s => s | Number x => x * 86400 end.
(** the [seconds] attribute of a timedelta of [t] seconds, [t] not negative, without the days
    and the microseconds; used for run_statistics (dynesty.py 653, bilby_mcmc/sampler.py 292) *)
Definition seconds_attr (t : nat) : nat := (t mod 86400)%nat.

(** __init__.py 318-324: noise evidence, Bayes factor, evidence from the sampler's number [z] *)
Definition evidences (use_ratio : bool) (noise z : R) : R * R * R :=
  if use_ratio then (noise, z, z + noise) else (noise, z - noise, z).
(** _verify_use_ratio, base_sampler.py 482-495: [Some b] is True/False, [None] is None;
    [nan]: log_likelihood_ratio() is NaN *)
Definition verify_use_ratio (u : option bool) (nan : bool) : option bool :=
  match u with None => if nan then None else Some true | _ => u end.
(** truth value of use_ratio at __init__.py 318 *)
Definition truthy (u : option bool) : bool := match u with Some true => true | _ => false end.

Section Runs.
(** priors, likelihood meta data and injection parameters are opaque; [meta_equal] is
    numpy.testing.assert_equal not raising *)
Context {P M I : Type}.
Variable meta_equal : M -> M -> bool.
(** --use-cached on the command line *)
Variable use_cached : bool.

(** [r_meta]: meta_data["likelihood"], when present; [r_run]: which sampling produced it *)
Record result := mkRes { r_search : list string; r_fixed : list string; r_meta : option M; r_prior : P; r_run : nat;
  r_inj : option I; r_post : bool; r_noise : R; r_bayes : R; r_evid : R; r_time : R }.
(** the arguments; [a_fail]: samples_to_posterior raises; [a_search], [a_fixed]: the keys the
    sampler finds in the priors *)
Record args := mkArgs { a_clean : option bool; a_outdir : string; a_label : string; a_search : list string; a_fixed : list string;
  a_prior : P; a_meta : M; a_inj : option I; a_conv : option (I -> I); a_save : saveopt; a_gzip : bool; a_fail : bool;
  a_ratio : option bool; a_nan : bool; a_noise : R; a_elapsed : R }.
(** [s_clean]: command_line_args.clean; [s_runs]: how many times a sampler was run *)
Record st := mkSt { s_clean : bool; s_files : string -> option result; s_runs : nat }.
Inductive exc := KeyError | ValueError | PosteriorError.
Inductive outcome := Returned (r : result) | Raised (e : exc).

(** list equality, result.py 1594-1597 *)
Definition same_keys (a b : list string) : bool := if list_eq_dec string_dec a b then true else false.
(** _check_cached_result, base_sampler.py 654-693; [inr]: KeyError at 688 *)
Definition check_cached (clean : bool) (file : option result) (a : args) : option result + exc :=
  if clean then inl None else
  if use_cached then inl file else
  match file with
  | None => inl None
  | Some r =>
      match r_meta r with
      | None => inr KeyError
      | Some m => inl (if (same_keys (r_search r) (a_search a) && same_keys (r_fixed r) (a_fixed a) && meta_equal (a_meta a) m)%bool
                       then Some r else None)
      end
  end.
Definition upd (f : string -> option result) (p : string) (r : result) : string -> option result :=
  fun q => if String.eqb q p then Some r else f q.
(** save_to_file; the old file is moved to p.old or removed first (Files_Model.v), here only the
    final content of the named file counts; [None]: ValueError for an unknown extension *)
Definition save (a : args) (files : string -> option result) (r : result) : option (string -> option result) :=
  match save_name (a_outdir a) (a_label a) (a_save a) (a_gzip a) with
  | None => Some files
  | Some None => None
  | Some (Some p) => Some (upd files p r)
  end.
(** [None not in [result.injection_parameters, conversion_function]], __init__.py 326-329, 335-336 *)
Definition convert (a : args) (r : result) : result :=
  match r_inj r, a_conv a with
  | Some i, Some f => mkRes (r_search r) (r_fixed r) (r_meta r) (r_prior r) (r_run r) (Some (f i)) (r_post r) (r_noise r) (r_bayes r) (r_evid r) (r_time r)
  | _, _ => r
  end.
(** what run number [n] of the sampler reports *)
Variable sampled : nat -> args -> R * stime.
(** __init__.py 300-324: a fresh run *)
Definition fresh (n : nat) (a : args) : result :=
  let '(z, t) := sampled n a in
  let '(noise, b, e) := evidences (truthy (verify_use_ratio (a_ratio a) (a_nan a))) (a_noise a) z in
  mkRes (a_search a) (a_fixed a) (Some (a_meta a)) (a_prior a) n (a_inj a) false noise b e (time_seconds (a_elapsed a) t).
Definition with_post (r : result) : result :=
  mkRes (r_search r) (r_fixed r) (r_meta r) (r_prior r) (r_run r) (r_inj r) true (r_noise r) (r_bayes r) (r_evid r) (r_time r).
(** __init__.py 335-354, for the result of either branch *)
Definition finish (a : args) (r : result) (s : st) : outcome * st :=
  let r := convert a r in
  if (negb (r_post r) && a_fail a)%bool then (Raised PosteriorError, s)
  else let r := with_post r in
       match save a (s_files s) r with
       | None => (Raised ValueError, s)
       | Some f => (Returned r, mkSt (s_clean s) f (s_runs s))
       end.
(** run_sampler, __init__.py 225-228, 260-276, 296-354 *)
Definition run (a : args) (s : st) : outcome * st :=
  let clean := match a_clean a with Some true => true | _ => s_clean s end in
  let s := mkSt clean (s_files s) (s_runs s) in
  let file := match cache_name (a_outdir a) (a_label a) with Some p => s_files s p | None => None end in
  match check_cached clean file a with
  | inr e => (Raised e, s)
  | inl (Some r) => finish a r s
  | inl None =>
      let r := convert a (fresh (s_runs s) a) in
      let s := mkSt clean (s_files s) (S (s_runs s)) in
      match save a (s_files s) r with
      | None => (Raised ValueError, s)
      | Some f => finish a r (mkSt clean f (s_runs s))
      end
  end.
(** several calls in one process *)
Fixpoint calls (l : list args) (s : st) : list outcome * st :=
  match l with
  | [] => ([], s)
  | a :: t => let (o, s1) := run a s in let (os, s2) := calls t s1 in (o :: os, s2)
  end.
(** a new process: only the files survive *)
Definition relaunch (s : st) : st := mkSt false (s_files s) (s_runs s).
End Runs.
