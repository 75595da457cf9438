(** * Jump proposals of the nested samplers and their cpnest wrapper
    Model of /repo/bilby/core/sampler/proposal.py and of /repo/bilby/core/sampler/cpnest.py 201-252.
    Random numbers are arguments. *)
From Coq Require Import String Reals List Bool Arith Lra.
From Verif Require Import PyReal PyDict.
Import ListNotations.
Open Scope R_scope. Open Scope list_scope.

(** What the boundary code reads from a prior (proposal.py 71-101): [boundary], [minimum], [maximum]. *)
Inductive bnd := Free | Periodic | Reflective.
Record pr := mkPr { bd : bnd; mn : R; mx : R }.
(** A [Sample], proposal.py 9-13: a dict of numbers. *)
Definition sample := dict R.
(** Exceptions are [None]: here always a KeyError. *)
Definition bind {A B} (x : option A) (f : A -> option B) : option B := match x with Some a => f a | None => None end.

(** [sample[key] > maximum or sample[key] < minimum], proposal.py 76-79 and 93-96. *)
Definition outside (p : pr) (x : R) : bool := if Rlt_dec (mx p) x then true else if Rlt_dec x (mn p) then true else false.
(** The body of the loop of _move_reflecting_keys, proposal.py 80-87; [delta == r] changes nothing. *)
Definition reflect1 (p : pr) (x : R) : R :=
  if outside p x then
    let r := mx p - mn p in
    let delta := rmod (x - mn p) (2 * r) in
    if Rlt_dec r delta then 2 * mx p - mn p - delta
    else if Rlt_dec delta r then mn p + delta else x
  else x.
(** The body of the loop of _move_periodic_keys, proposal.py 93-100. *)
Definition wrap1 (p : pr) (x : R) : R :=
  if outside p x then mn p + rmod (x - mn p) (mx p - mn p) else x.

(** [keys = [key for key in sample.keys() if self.priors[key].boundary == b]], proposal.py 72-74, 91. *)
Definition is_bnd (b b' : bnd) : bool :=
  match b, b' with Free, Free | Periodic, Periodic | Reflective, Reflective => true | _, _ => false end.
Fixpoint keys_with (b : bnd) (priors : dict pr) (ks : list string) : option (list string) :=
  match ks with
  | [] => Some []
  | k :: ks => bind (dget priors k) (fun p => bind (keys_with b priors ks) (fun r =>
                 Some (if is_bnd (bd p) b then k :: r else r)))
  end.
(** The loops over the selected keys, proposal.py 75-88, 92-101. *)
Fixpoint move (f : pr -> R -> R) (priors : dict pr) (ks : list string) (s : sample) : option sample :=
  match ks with
  | [] => Some s
  | k :: ks => bind (dget priors k) (fun p => bind (dget s k) (fun x => move f priors ks (dset s k (f p x))))
  end.
Definition move_reflecting_keys (priors : dict pr) (s : sample) : option sample :=
  bind (keys_with Reflective priors (dkeys s)) (fun ks => move reflect1 priors ks s).
Definition move_periodic_keys (priors : dict pr) (s : sample) : option sample :=
  bind (keys_with Periodic priors (dkeys s)) (fun ks => move wrap1 priors ks s).
(** _apply_boundaries and JumpProposal.__call__, proposal.py 56-69, 103-106. *)
Definition apply_boundaries (priors : dict pr) (s : sample) : option sample :=
  bind (move_periodic_keys priors s) (move_reflecting_keys priors).

(** ** Arithmetic of samples, proposal.py 15-22 *)
Fixpoint zip_with (f : R -> R -> R) (s : sample) (other : dict R) : option sample :=
  match s with
  | [] => Some []
  | (k, x) :: s => bind (dget other k) (fun y => bind (zip_with f s other) (fun r => Some ((k, f x y) :: r)))
  end.
Definition s_add := zip_with Rplus.
Definition s_sub := zip_with Rminus.
Definition s_mul (s : sample) (c : R) : sample := dmap (fun x => x * c) s.

(** ** The moves. Each returns the sample before the boundaries are applied; [finish] is the call of the
    superclass with the value of [log_j]. *)
Definition finish (priors : dict pr) (log_j : R) (s : option sample) : option (sample * R) :=
  bind s (fun s => bind (apply_boundaries priors s) (fun s => Some (s, log_j))).

(** NormJump.__call__, proposal.py 196-199: rng.normal(x, step) = x + step * z with a standard normal z. *)
Fixpoint norm_move (step : R) (s : sample) (zs : list R) : sample :=
  match s, zs with
  | (k, x) :: s, z :: zs => (k, x + step * z) :: norm_move step s zs
  | _, _ => s
  end.
Definition norm_jump priors step s zs := finish priors 0 (Some (norm_move step s zs)).

(** EnsembleWalk.get_center_of_mass, proposal.py 242-244: np.mean over the chosen points, key by key, with
    the keys of the first one. *)
Definition rsum (l : list R) : R := fold_right Rplus 0 l.
Definition mean (l : list R) : R := rsum l / INR (length l).
Fixpoint column (subset : list sample) (k : string) : option (list R) :=
  match subset with
  | [] => Some []
  | c :: cs => bind (dget c k) (fun x => bind (column cs k) (fun r => Some (x :: r)))
  end.
Fixpoint com_keys (subset : list sample) (ks : list string) : option (dict R) :=
  match ks with
  | [] => Some []
  | k :: ks => bind (column subset k) (fun l => bind (com_keys subset ks) (fun r => Some ((k, mean l) :: r)))
  end.
Definition center_of_mass (subset : list sample) : option (dict R) :=
  match subset with [] => None | c :: _ => com_keys subset (dkeys c) end.
(** [sample += (x - center_of_mass) * rng()] for every chosen point, proposal.py 236-239. *)
Fixpoint walk_loop (com : dict R) (s : sample) (xs : list sample) (rs : list R) : option sample :=
  match xs, rs with
  | x :: xs, r :: rs => bind (s_sub x com) (fun d => bind (s_add s (s_mul d r)) (fun s => walk_loop com s xs rs))
  | _, _ => Some s
  end.
Definition walk_move (s : sample) (subset : list sample) (rs : list R) : option sample :=
  bind (center_of_mass subset) (fun com => walk_loop com s subset rs).
(** EnsembleWalk.__call__, proposal.py 229-240: [subset] is what rng.choice returned. *)
Definition ensemble_walk priors s subset rs := finish priors 0 (walk_move s subset rs).

(** EnsembleStretch.__call__, proposal.py 260-268: [u] is rng.uniform(-1, 1). *)
Definition stretch_step (scale u : R) : R := u * ln scale.
Definition stretch_move (s second : sample) (step : R) : option sample :=
  bind (s_sub s second) (fun d => s_add second (s_mul d (exp step))).
Definition ensemble_stretch priors scale s second u :=
  bind (stretch_move s second (stretch_step scale u)) (fun s' =>
    finish priors (INR (length s') * stretch_step scale u) (Some s')).

(** DifferentialEvolution.__call__, proposal.py 288-291: [g] is rng.normal(mu, sigma). *)
Definition de_move (s a b : sample) (g : R) : option sample := bind (s_sub b a) (fun d => s_add s (s_mul d g)).
Definition differential_evolution priors s a b g := finish priors 0 (de_move s a b g).

(** EnsembleEigenVector.__call__, proposal.py 335-341. [vals] and [vecs] are the eigenvalues and the matrix
    of eigenvectors (rows) numpy.linalg.eigh returned, [i] is rng.integers(len(sample)), [z] rng.normal(0, 1). *)
Definition entry (m : list (list R)) (j i : nat) : R := nth i (nth j m []) 0.
Fixpoint eigen_loop (jump : R) (vecs : list (list R)) (i j : nat) (s : sample) : sample :=
  match s with
  | [] => []
  | (k, x) :: s => (k, x + jump * entry vecs j i) :: eigen_loop jump vecs i (S j) s
  end.
Definition jump_size (vals : list R) (i : nat) (z : R) : R := sqrt (Rabs (nth i vals 0)) * z.
Definition eigen_move (vals : list R) (vecs : list (list R)) (i : nat) (z : R) (s : sample) : sample :=
  eigen_loop (jump_size vals i z) vecs i 0 s.
Definition ensemble_eigenvector priors vals vecs i z s := finish priors 0 (Some (eigen_move vals vecs i z s)).
(** _set_1_d_eigenvectors, proposal.py 317-323: np.var divides by the number of points. *)
Definition variance (l : list R) : R := mean (map (fun x => (x - mean l) ^ 2) l).
Definition eigen_1d (coordinates : list sample) : option (list R * list (list R)) :=
  match coordinates with
  | ((k, _) :: _) :: _ => bind (column coordinates k) (fun l => Some ([variance l], [[1]]))
  | _ => None
  end.

(** _draw_from_flat_priors, proposal.py 354-358; Uniform.sample, prior/base.py and analytical.py:
    [minimum + u * (maximum - minimum)]. *)
Fixpoint flat_move (priors : dict pr) (s : sample) (us : list R) : option sample :=
  match s, us with
  | (k, _) :: s, u :: us => bind (dget priors k) (fun p => bind (flat_move priors s us) (fun r =>
                              Some ((k, mn p + u * (mx p - mn p)) :: r)))
  | _, _ => Some []
  end.
Definition draw_flat priors s us := finish priors 0 (flat_move priors s us).

(** ** JumpProposalCycle, proposal.py 109-178 *)
Section Cycle.
Context {P : Type}.
(** [inst] calls a class; [None] when the entry is already an object (isclass is False). *)
Variable inst : P -> option P.
(** proposal_functions.setter, proposal.py 149-154. *)
Definition instantiate (fs : list P) : list P := map (fun p => match inst p with Some q => q | None => p end) fs.
Record cycle := mkC { funs : list P; raw_weights : list R; clen : nat; index : nat; cyc : list P }.
(** weights, proposal.py 160-169: no exception, but no number either when the sum is zero. *)
Definition weights (c : cycle) : option (list R) :=
  if Req_EM_T (rsum (raw_weights c)) 0 then None else Some (map (fun w => w / rsum (raw_weights c)) (raw_weights c)).
(** update_cycle, proposal.py 137-143; [draws] are the positions rng.choice picked. *)
Definition update_cycle (draws : list nat) (c : cycle) : cycle :=
  mkC (funs c) (raw_weights c) (clen c) (index c)
      (flat_map (fun d => match nth_error (funs c) d with Some p => [p] | None => [] end) draws).
(** __init__ with the assertion of weights.setter, proposal.py 122-127, 171-174. *)
Definition new_cycle (fs : list P) (ws : list R) (n : nat) (draws : list nat) : option cycle :=
  if Nat.eqb (length ws) (length fs) then
    Some (update_cycle draws (mkC (instantiate fs) ws n 0 []))
  else None.
(** The public attribute cycle_length, proposal.py 124. *)
Definition set_length (n : nat) (c : cycle) : cycle := mkC (funs c) (raw_weights c) n (index c) (cyc c).
(** __call__, proposal.py 129-132: the proposal called and the new state; [None]: IndexError (or the
    ZeroDivisionError of a cycle of length zero). *)
Definition call (c : cycle) : option (P * cycle) :=
  match nth_error (cyc c) (index c) with
  | Some p => if Nat.eqb (clen c) 0 then None
              else Some (p, mkC (funs c) (raw_weights c) (clen c) ((index c + 1) mod clen c) (cyc c))
  | None => None
  end.
Inductive op := Call | Update (draws : list nat) | SetLength (n : nat).
(** A session: the proposals called, in order; it ends with the first exception. *)
Fixpoint session (c : cycle) (ops : list op) : list P * option cycle :=
  match ops with
  | [] => ([], Some c)
  | Call :: ops => match call c with
                   | Some (p, c) => let (ps, r) := session c ops in (p :: ps, r)
                   | None => ([], None)
                   end
  | Update ds :: ops => session (update_cycle ds c) ops
  | SetLength n :: ops => session (set_length n c) ops
  end.
End Cycle.

(** ** The cpnest wrapper *)
(** A cpnest LivePoint: [names] and [values]. *)
Record live := mkL { names : list string; values : list R }.
(** Sample.from_cpnest_live_point, proposal.py 24-29; [None]: IndexError. *)
Fixpoint from_live_loop (ns : list string) (vs : list R) (acc : sample) : option sample :=
  match ns, vs with
  | [], _ => Some acc
  | n :: ns, v :: vs => from_live_loop ns vs (dset acc n v)
  | _ :: _, [] => None
  end.
Definition from_live (l : live) : option sample := from_live_loop (names l) (values l) [].
(** _update_cpnest_sample, cpnest.py 219-224: the values are written one by one; [None]: IndexError. *)
Fixpoint overwrite (old new : list R) : option (list R) :=
  match new, old with
  | [], old => Some old
  | x :: new, _ :: old => bind (overwrite old new) (fun r => Some (x :: r))
  | _ :: _, [] => None
  end.
Definition update_live (l : live) (s : sample) : option live :=
  bind (overwrite (values l) (dvals s)) (fun vs => Some (mkL (dkeys s) vs)).
(** get_sample, cpnest.py 212-217: the point handed back and log_J. *)
Definition get_sample (jump : sample -> option (sample * R)) (l : live) : option (live * R) :=
  bind (from_live l) (fun s => bind (jump s) (fun r => bind (update_live l (fst r)) (fun l => Some (l, snd r)))).
