(** bilby/core/sampler/emcee.py 48-223, 365-415, zeus.py 42-107, kombine.py 42-150, 172-215: what
    becomes of the arguments of the ensemble samplers, and how many steps are run and kept. *)
From Coq Require Import String ZArith List Bool.
From Verif Require Import PyDict Sampler_Model.
Import ListNotations.
Open Scope string_scope.
Open Scope list_scope.

(** ** Arguments *)
Section Args.
Context {V : Type}.
(** {key: kw[key] for key in keys if key in kw} *)
Definition pick (keys : list string) (kw : dict V) : dict V :=
  flat_map (fun k => match dget kw k with Some v => [(k, v)] | None => [] end) keys.
(** {key: value for key, value in kw.items() if key not in d} *)
Definition without (kw d : dict V) : dict V := filter (fun p => negb (dmem d (fst p))) kw.
(** d[new] = d.pop(old); None = KeyError *)
Definition move (d : dict V) (old new : string) : option (dict V) :=
  match dget d old with Some v => Some (dset (ddel d old) new v) | None => None end.
Definition bind {X Y} (a : option X) (f : X -> option Y) : option Y := match a with Some x => f x | None => None end.

(** *** emcee *)
Definition emcee_keys : list string := ["nwalkers"; "a"; "args"; "kwargs"; "postargs"; "pool"; "live_dangerously"; "runtime_sortingfn";
  "lnprob0"; "rstate0"; "blobs0"; "iterations"; "thin"; "storechain"; "mh_proposal"].                     (* 48-65 *)
Definition nwalkers_equiv : list string := ["nwalker"; "nwalkers"; "draws"; "Niter"].                      (* base_sampler.py 896 *)
(** 108-116 *)
Definition emcee_rules : list (string * list string) := [("nwalkers", nwalkers_equiv); ("iterations", ["nsteps"])].
(** 137-141: the new name unless it is there *)
Definition update_key (d : option (dict V)) (r : string * string) : option (dict V) :=
  bind d (fun d => if dmem d (snd r) then (if dmem d (fst r) then Some (ddel d (fst r)) else None) else move d (fst r) (snd r)).
(** 118-155; [new]: emcee of at least version 3 *)
Definition emcee_function (new : bool) (kw : dict V) (pos0 : V) : option (dict V) :=
  let f := dset (pick ["lnprob0"; "rstate0"; "blobs0"; "iterations"; "thin"; "storechain"; "mh_proposal"] kw) "p0" pos0 in
  if new then
    if dmem f "mh_proposal" then
      fold_left update_key [("p0", "initial_state"); ("lnprob0", "log_prob0"); ("storechain", "store")] (Some (ddel f "mh_proposal"))
    else None
  else Some f.
(** 157-180 *)
Definition emcee_init (new : bool) (kw : dict V) (pos0 logp dim : V) : option (dict V) :=
  bind (emcee_function new kw pos0) (fun f =>
  let i := dset (dset (without kw f) "lnpostfn" logp) "dim" dim in
  if new then
    bind (fold_left (fun d r => bind d (fun d => if dmem d (fst r) then move d (fst r) (snd r) else Some d))
                    [("dim", "ndim"); ("lnpostfn", "log_prob_fn")] (Some i))
      (fun i => Some (fold_left (fun d k => if dmem d k then ddel d k else d) ["p0"; "lnprob0"; "storechain"; "mh_proposal"] i))
  else Some i).

(** *** zeus *)
Definition zeus_keys : list string := ["nwalkers"; "args"; "kwargs"; "pool"; "log_prob0"; "start"; "blobs0"; "iterations"; "thin"].
(** zeus.py 86-95 *)
Definition zeus_rules : list (string * list string) := emcee_rules ++ [("start", ["rstate0"]); ("log_prob0", ["lnprob0"])].
(** zeus.py 97-103 *)
Definition zeus_function (kw : dict V) : dict V := pick ["log_prob0"; "start"; "blobs0"; "iterations"; "thin"; "progress"] kw.
(** zeus.py 105-116 *)
Definition zeus_init (kw : dict V) (logp dim : V) : dict V := dset (dset (without kw (zeus_function kw)) "logprob_fn" logp) "ndim" dim.
(** zeus.py 148-152: what sample() is called with besides the iterations *)
Definition zeus_sample (kw : dict V) (pos0 : V) : option (dict V) :=
  let f := zeus_function kw in if dmem f "iterations" then Some (dset (ddel f "iterations") "start" pos0) else None.

(** *** kombine *)
Definition kombine_keys : list string := ["nwalkers"; "args"; "pool"; "transd"; "lnpost0"; "blob0"; "iterations"; "storechain"; "processes";
  "update_interval"; "kde"; "kde_size"; "spaces"; "freeze_transd"; "test_steps"; "critical_pval"; "max_steps"; "burnin_verbose"].
(** kombine.py 105-122 *)
Definition kombine_function (kw : dict V) (pos0 : V) : dict V :=
  dset (pick ["lnpost0"; "blob0"; "iterations"; "storechain"; "lnprop0"; "update_interval"; "kde"; "kde_size"; "spaces"; "freeze_transd"] kw) "p0" pos0.
(** kombine.py 123-136 *)
Definition kombine_burnin (kw : dict V) (pos0 : V) : dict V :=
  let b := fold_left (fun b k => match dget kw k with Some v => dset b k v | None => b end)
                     ["test_steps"; "critical_pval"; "max_steps"; "burnin_verbose"] (kombine_function kw pos0) in
  let b := match dget b "burnin_verbose" with Some v => dset (ddel b "burnin_verbose") "verbose" v | None => b end in
  fold_left (fun b k => if dmem b k then ddel b k else b) ["iterations"; "spaces"; "freeze_transd"] b.
(** kombine.py 138-150 *)
Definition kombine_init (kw : dict V) (pos0 logp dim : V) : option (dict V) :=
  let i := without (without kw (kombine_function kw pos0)) (kombine_burnin kw pos0) in
  if dmem i "burnin_verbose" then Some (dset (dset (ddel i "burnin_verbose") "lnpostfn" logp) "ndim" dim) else None.
End Args.

(** ** Burn-in (emcee.py 182-202) *)
Open Scope Z_scope.
(** what a user may give; fractional parts matter only for the test, so a float is the integer
    int() makes of it with a flag whether it is larger *)
Inductive burn := BNone | BInt (n : Z) | BFloat (n : Z) (more : bool) | BNumpyInt (n : Z) | BNumpyFloat (n : Z) (more : bool).
(** nburn > iterations - 1 for a number of at least its integer part *)
Definition too_long (n : Z) (more : bool) (iterations : Z) : bool := if more then iterations - 1 <=? n else iterations - 1 <? n.
(** 192-202: isinstance (float, int) holds for python numbers and numpy.float64; false = ValueError *)
Definition burn_accepted (b : burn) (iterations : Z) : bool :=
  match b with
  | BInt n => negb (too_long n false iterations)
  | BFloat n more | BNumpyFloat n more => negb (too_long n more iterations)
  | BNone | BNumpyInt _ => true
  end.
(** 182-190: type() in [float, int]; [by_fraction] and [by_tau] are the integers of the estimates,
    the second if an autocorrelation time is known *)
Definition nburn (b : burn) (by_fraction : Z) (by_tau : option Z) : Z :=
  match b with
  | BInt n | BFloat n _ => n
  | _ => match by_tau with Some t => t | None => by_fraction end
  end.
(** len(chain[nburn:]) of a chain of [len] steps *)
Definition kept (len n : Z) : Z := if n <? 0 then Z.min len (- n) else Z.max 0 (len - n).
(** 424-432: None = SamplerError; the steps kept of each walker *)
Definition result_steps (nsteps len n : Z) : option Z := if nsteps <? n then None else Some (kept len n).

(** ** Steps of a run (emcee.py 386-405, kombine.py 172-202) *)
(** steps in the chain after the loop, [previous] before; sample() does nothing for a negative number *)
Definition after_loop (iterations previous : Z) : Z := previous + Z.max 0 (iterations - previous).
(** a run which is interrupted after any numbers of steps and resumed each time: steps made before each interruption *)
Fixpoint resumed (iterations done : Z) (cuts : list Z) : Z :=
  match cuts with
  | [] => after_loop iterations done
  | c :: t => resumed iterations (Z.min (done + Z.max 0 c) (after_loop iterations done)) t
  end.
(** kombine: arguments iterations and nburn after the automatic burn-in of [p] steps, if it is run (176-186) *)
Definition auto_burnin (autoburnin checkpoint : bool) (iterations p : Z) (b : burn) : Z * burn * Z :=
  if autoburnin && negb checkpoint then (iterations + p, BInt p, p) else (iterations, b, 0).
(** kombine.py 64-98: nwalkers > iterations raises ValueError *)
Definition kombine_allowed (nwalkers iterations : Z) : bool := negb (iterations <? nwalkers).
