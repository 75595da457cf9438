(** How the settings of three nested samplers reach the calls made: core/sampler/ultranest.py 44-72, 159-247, nessai.py 40-52, 178-186,
    cpnest.py 112-133, 166-198, and the fake sampler, fake_sampler.py 26-97. *)
From Coq Require Import String List Bool Arith.
From Verif Require Import PyDict.
Import ListNotations.
Open Scope string_scope.
Open Scope list_scope.

Inductive res (A : Type) := Ok (a : A) | TypeErr | KeyErr.
Arguments Ok {A} a. Arguments TypeErr {A}. Arguments KeyErr {A}.

Section Values.
Variable V : Type.
Variable is_none : V -> bool.
(** [{key: d[key] for key in keys if key in d}] *)
Definition pick (keys : list string) (d : dict V) : dict V := flat_map (fun k => match dget d k with Some v => [(k, v)] | None => [] end) keys.

(** ultranest.py 44-72 *)
Definition ultranest_names := ["resume"; "show_status"; "num_live_points"; "wrapped_params"; "log_dir"; "derived_param_names"; "run_num"; "vectorized"; "num_test_samples"; "draw_multiple"; "num_bootstraps"; "update_interval_iter";
  "update_interval_ncall"; "log_interval"; "dlogz"; "max_iters"; "update_interval_volume_fraction"; "viz_callback"; "dKL"; "frac_remain"; "Lepsilon"; "min_ess"; "max_ncalls"; "max_num_improvement_loops"; "min_num_live_points";
  "cluster_num_live_points"; "step_sampler"].
(** 216-219, 221, 126-127, 223-226: [own_callback] is put where no callback is given; [dir] is the run directory *)
Definition ultranest_prepare (own_callback dir : V) (d : dict V) : res (dict V) :=
  match dget d "dlogz", dget d "viz_callback" with
  | Some z, Some c =>
    let d := if is_none z then ddel d "dlogz" else d in
    let d := if is_none c then dset d "viz_callback" own_callback else d in
    Ok (dset (ddel d "step_sampler") "log_dir" dir)
  | _, _ => KeyErr
  end.
(** 161, 203, 230 *)
Definition live_points (d : dict V) : bool := match dget d "num_live_points" with Some v => negb (is_none v) | None => false end.
(** 160-190 *)
Definition ultranest_run (d : dict V) : dict V :=
  pick (if live_points d then ["update_interval_iter"; "update_interval_ncall"; "log_interval"; "dlogz"; "max_iters"]
        else ["update_interval_volume_fraction"; "update_interval_ncall"; "log_interval"; "show_status"; "viz_callback"; "dlogz"; "dKL"; "frac_remain"; "Lepsilon"; "min_ess"; "max_iters"; "max_ncalls";
              "max_num_improvement_loops"; "min_num_live_points"; "cluster_num_live_points"]) d.
(** 193-210 *)
Definition ultranest_init (d : dict V) : dict V :=
  pick (["derived_param_names"; "resume"; "run_num"; "vectorized"; "log_dir"; "wrapped_params"] ++
        (if live_points d then ["num_live_points"] else ["num_test_samples"; "draw_multiple"; "num_bootstraps"])) d.

(** nessai.py 42-52: [package] is nessai's list of run arguments, without "save" (the first of that name) *)
Fixpoint remove_first (k : string) (l : list string) : list string := match l with [] => [] | x :: t => if String.eqb x k then t else x :: remove_first k t end.
Definition run_list (package : list string) := remove_first "save" package.
(** [for k in keys: run[k] = d.pop(k)] *)
Fixpoint pops (keys : list string) (d run : dict V) : res (dict V * dict V) :=
  match keys with
  | [] => Ok (d, run)
  | k :: t => match dget d k with Some v => pops t (ddel d k) (dset run k v) | None => KeyErr end
  end.
(** 178-186: first the settings of the constructor, then those of the run *)
Definition nessai_split (package : list string) (d : dict V) : res (dict V * dict V) :=
  match pops (run_list package) d [] with
  | Ok (d, run) => match dget d "nessai_plot" with Some v => Ok (ddel d "nessai_plot", dset run "plot" v) | None => KeyErr end
  | TypeErr => TypeErr | KeyErr => KeyErr
  end.

(** cpnest.py 112-133; the constructor is known by the dictionaries it takes, otherwise it raises TypeError *)
Fixpoint cpnest_loop (takes : dict V -> bool) (remove : list string) (d : dict V) : res (dict V) :=
  if takes d then Ok d else
  match remove with
  | [] => TypeErr
  | k :: t => match dget d k with Some _ => cpnest_loop takes t (ddel d k) | None => KeyErr end
  end.
Definition cpnest_construct (takes : dict V -> bool) (d : dict V) : res (dict V) := cpnest_loop takes ["proposals"; "n_periodic_checkpoint"] d.
End Values.

(** cpnest.py 180-198: what can stand for a proposal: a cycle of bilby's, an instance of cpnest's cycle, a class made from a
    cycle of bilby's, or something else *)
Inductive proposal := Jump (n : nat) | Native (n : nat) | Made (n : nat) | Other.
(** the value of the keyword *)
Inductive proposals := NoProposals | Single (p : proposal) | Dict (d : dict proposal) | Junk.
Fixpoint resolve_each (d : dict proposal) : bool * dict proposal :=
  match d with
  | [] => (true, [])
  | (k, p) :: t =>
    match p with
    | Jump n => let (ok, t') := resolve_each t in (ok, (k, Made n) :: t')
    | Native n => let (ok, t') := resolve_each t in (ok, (k, Native n) :: t')
    | _ => (false, (k, p) :: t)
    end
  end.
(** the outcome and the value afterwards; a dictionary is changed in place, so it is also the user's.  Anything without
    [items] raises AttributeError, here an error as well *)
Definition resolve (v : proposals) : bool * proposals :=
  match v with
  | NoProposals => (true, NoProposals)
  | Single (Jump n) => let (ok, d) := resolve_each [("mhs", Jump n); ("hmc", Jump n)] in (ok, Dict d)
  | Dict d => let (ok, d) := resolve_each d in (ok, Dict d)
  | _ => (false, v)
  end.

(** fake_sampler.py 64-97: a row of the posterior is a dictionary; the third component is the parameters left in the likelihood *)
Section Fake.
Context {X : Type}.
Variable ratio : dict X -> X.
Fixpoint fake_run (verbose : bool) (rows : list (dict X)) (left : dict X) : res (list X * dict X) :=
  match rows with
  | [] => Ok ([], left)
  | r :: t =>
    if verbose && negb (dmem r "log_likelihood") then KeyErr
    else match fake_run verbose t r with Ok (l, p) => Ok (ratio r :: l, p) | e => e end
  end.
End Fake.
