(** * bilby-mcmc: checkpoints and resuming
    Model of /repo/bilby/bilby_mcmc/sampler.py 298-318 (setup_chain_set, init_ptsampler), 364-375
    (check_point), 382-417 (read_current_state), 419-439 (write_current_state), 724-730 and 1230-1234
    (set_convergence_inputs). *)
From Coq Require Import ZArith List Bool.
Import ListNotations.
Open Scope Z_scope. Open Scope list_scope.

Inductive err := ResumeError | UnpicklingError.
Inductive res (A : Type) := Ok (a : A) | Err (e : err).
Arguments Ok {A} _. Arguments Err {A} _.

Section Resume.
(** [S]: chains, random proposals and times of one run; [P]: parallel-tempering inputs, compared by
    [same]; [C]: convergence inputs; [O]: proposal cycle, use_ratio, evidence method, initial samples
    and normalize_prior; [W]: pools of workers *)
Variables S P C O W : Type.
Variable same : P -> P -> bool.
(** BilbyPTMCMCSampler; [of_chains] are the convergence settings each chain holds *)
Record ptsampler := mkPt { chains : S; pt_inputs : P; conv : C; of_chains : list C; rejection : bool; options : O; pool : option W }.
(** 724-730, 1230-1234 *)
Definition set_convergence_inputs (p : ptsampler) (c : C) : ptsampler :=
  mkPt (chains p) (pt_inputs p) c (map (fun _ => c) (of_chains p)) (rejection p) (options p) (pool p).
Definition set_rejection (p : ptsampler) (r : bool) : ptsampler :=
  mkPt (chains p) (pt_inputs p) (conv p) (of_chains p) r (options p) (pool p).
Definition set_pool (p : ptsampler) (w : option W) : ptsampler :=
  mkPt (chains p) (pt_inputs p) (conv p) (of_chains p) (rejection p) (options p) w.
(** What the user asks for: Bilby_MCMC.__init__, 196-218 *)
Record settings := mkS { resume : bool; my_pt : P; my_conv : C; my_rejection : bool; my_options : O; my_pool : option W }.
(** What may lie under the name of the resume file; [Broken]: dill cannot load it; [Foreign]: another object *)
Inductive content := Empty | Broken | Foreign | Saved (p : ptsampler).
(** content and time of last modification *)
Definition file := option (content * Z).
(** 382-417; the second part is self.ptsampler afterwards *)
Definition read_current_state (s : settings) (f : file) : res (option ptsampler) :=
  match f with
  | None => Ok None
  | Some (Empty, _) => Ok None
  | Some (Broken, _) => Err UnpicklingError
  | Some (Foreign, _) => Ok None
  | Some (Saved p, _) => if same (pt_inputs p) (my_pt s) then Ok (Some (set_rejection (set_convergence_inputs p (my_conv s)) (my_rejection s))) else Err ResumeError
  end.
(** 304-318: [start]: the chains BilbyPTMCMCSampler.__init__ makes, [n] their number *)
Variable start : P -> O -> S.
Variable number : P -> nat.
Definition init_ptsampler (s : settings) : ptsampler :=
  mkPt (start (my_pt s) (my_options s)) (my_pt s) (my_conv s) (repeat (my_conv s) (number (my_pt s))) (my_rejection s) (my_options s) (my_pool s).
(** 298-302: the file is read before resume is looked at *)
Definition setup_chain_set (s : settings) (f : file) : res ptsampler :=
  match read_current_state s f with
  | Err e => Err e
  | Ok (Some p) => if resume s then Ok (set_pool p (my_pool s)) else Ok (init_ptsampler s)
  | Ok None => Ok (init_ptsampler s)
  end.
(** 419-439: dill.pickles is asked for the sampler without its pool; touch if it cannot be saved *)
Variable pickles : ptsampler -> bool.
Definition touch (now : Z) (f : file) : file := match f with None => Some (Empty, now) | Some (c, _) => Some (c, now) end.
Definition write_current_state (now : Z) (p : ptsampler) (f : file) : ptsampler * file :=
  let kept := pool p in
  let bare := set_pool p None in
  let f1 := if pickles bare then Some (Saved bare, now) else touch now f in
  (set_pool bare kept, f1).
(** 364-375 *)
Definition due (start_time delta now : Z) (f : file) : bool :=
  let tS := now - start_time in
  match f with None => delta <? tS | Some (_, m) => delta <? Z.min tS (now - m) end.
Definition check_point (start_time delta now : Z) (ignore_time : bool) (p : ptsampler) (f : file) : ptsampler * file * bool :=
  if ignore_time || due start_time delta now f then (write_current_state now p f, true) else ((p, f), false).
(** 336-362: the sampler at the end of each round with the time; the file and the times of the checkpoints *)
Fixpoint rounds (start_time delta : Z) (calls : list (Z * ptsampler)) (f : file) : file * list Z :=
  match calls with
  | [] => (f, [])
  | (now, p) :: more =>
    let '(_, f1, written) := check_point start_time delta now false p f in
    let '(f2, ws) := rounds start_time delta more f1 in
    (f2, if written then now :: ws else ws)
  end.
End Resume.
