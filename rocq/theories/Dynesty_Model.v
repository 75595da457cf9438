(** * The dynesty sampler: checkpoint loop, resuming, time keeping, set-up, posterior, proposals
    Model of /repo/bilby/core/sampler/dynesty.py 406-417, 442-531, 542-566, 606-716, 723-837 and of
    /repo/bilby/core/sampler/dynesty_utils.py 517-560, 563-679.
    The external package is an oracle: [iter] is one nested-sampling iteration ([None] once its
    stopping rule holds), every iteration evaluates the likelihood at least once, run_nested checks
    the stopping rule and then the number of calls it has made itself before each iteration, and
    adding the live points twice is an error. Signals arrive between iterations. *)
From Coq Require Import String Ascii.
From Coq Require Import Reals List Bool Arith ZArith.
From Verif Require Import Mband_Model.
Import ListNotations.
Open Scope string_scope. Open Scope list_scope.

(** ** Checkpoint loop *)
Section Loop.
(** sampler state without the flag; [dead], [live]: the saved and the current live points *)
Context {X Pt : Type}.
Variable iter : X -> option X.
Variable ncall : X -> nat.
Variable dead live : X -> list Pt.
(** [nqueue = -1] and the new pool and queue size, dynesty.py 779-787 *)
Variable refill : X -> X.
(** the sampler object with its [added_live] attribute *)
Record sampler := mkS { core : X; added : bool }.
(** [sampler.results] *)
Definition results (s : sampler) : list Pt := dead (core s) ++ if added s then live (core s) else [].
(** [if getattr(self.sampler, "added_live", False): self.sampler._remove_live_points()], 694-695, 710-711, 777-778 *)
Definition unadd (s : sampler) : sampler := mkS (core s) false.
(** iterations of one run_nested that started with [c0] calls: stopping rule, then maxcall *)
Fixpoint sample (fuel c0 : nat) (maxcall : option nat) (x : X) : X :=
  match fuel with
  | O => x
  | S n =>
      match iter x with
      | None => x
      | Some y => if match maxcall with Some m => Nat.ltb m (ncall x - c0) | None => false end then x else sample n c0 maxcall y
      end
  end.
(** run_nested(maxcall=, add_live=); [None]: ValueError, the live points were already added.
    [S m] iterations exceed [m] calls, so [fuel] limits unlimited runs only. *)
Definition run_nested (fuel : nat) (maxcall : option nat) (add_live : bool) (s : sampler) : option sampler :=
  if added s then None
  else Some (mkS (sample (match maxcall with Some m => S m | None => fuel end) (ncall (core s)) maxcall (core s)) add_live).
(** the arguments of run_nested chosen by the user *)
Record kwargs := mkK { k_maxcall : option nat; k_add_live : bool }.
(** finalize_sampler_kwargs, 668-670 *)
Definition finalize (n_check_point : nat) (k : kwargs) : kwargs := mkK (Some n_check_point) true.
(** _run_external_sampler_without_checkpointing, 663-666 *)
Definition run_without (fuel : nat) (k : kwargs) (s : sampler) : option (list Pt) :=
  match run_nested fuel (k_maxcall k) (k_add_live k) s with Some s => Some (results s) | None => None end.
(** how a process ends up: still looping, finished with these results, or an exception *)
Inductive status := Looping (old_ncall : nat) (s : sampler) | Finished (r : list Pt) (s : sampler) | Failed.
(** the pickle file holds a sampler, or there is none *)
Record proc := mkP { p_status : status; p_disk : option sampler }.
(** one turn of the loop, 692-709, and what follows the break, 710-716; [due]: the last checkpoint is
    older than check_point_delta_t; write_current_state stores the sampler as it is (798-837) *)
Definition turn (k : kwargs) (n_check_point : nat) (p : proc) (due : bool) : proc :=
  match p_status p with
  | Looping old s =>
      let kw := finalize n_check_point k in
      match run_nested 0 (k_maxcall kw) (k_add_live kw) (unadd s) with
      | None => mkP Failed (p_disk p)
      | Some s1 =>
          if Nat.eqb (ncall (core s1)) old then
            match run_nested 0 (k_maxcall kw) (k_add_live kw) (unadd s1) with
            | None => mkP Failed (p_disk p)
            | Some s2 => mkP (Finished (results s2) s2) (Some s2)
            end
          else mkP (Looping (ncall (core s1)) s1) (if due then Some s1 else p_disk p)
      end
  | _ => p
  end.
(** 542-558: resume from the file, or start with new points [x0] *)
Definition start (resume : bool) (disk : option sampler) (x0 : X) : sampler :=
  match disk with
  | Some s => if resume then mkS (refill (core (unadd s))) false else mkS x0 false
  | None => mkS x0 false
  end.
(** how a process is ended from outside: not at all, killed, or a signal while run_nested is
    between iterations [j] and [j+1] (write_current_state_and_exit, 793-796) *)
Inductive ending := Complete | Kill | Signal (j : nat).
Fixpoint iterate (j : nat) (x : X) : X := match j with O => x | S n => match iter x with Some y => iterate n y | None => x end end.
(** one process: [flags] are the successive values of [due] *)
Record process := mkProc { q_resume : bool; q_init : X; q_ncheck : nat; q_kw : kwargs; q_flags : list bool; q_end : ending }.
Definition process_run (q : process) (disk : option sampler) : status * option sampler :=
  let s := start (q_resume q) disk (q_init q) in
  let p := fold_left (turn (q_kw q) (q_ncheck q)) (q_flags q) (mkP (Looping (ncall (core s)) s) disk) in
  match q_end q, p_status p with
  | Signal j, Looping _ s => (p_status p, Some (mkS (iterate j (core s)) false))
  | _, _ => (p_status p, p_disk p)
  end.
(** several processes one after the other with the same resume file *)
Fixpoint history (qs : list process) (disk : option sampler) : list status * option sampler :=
  match qs with
  | [] => ([], disk)
  | q :: t => let (r, d) := process_run q disk in let (rs, d') := history t d in (r :: rs, d')
  end.
End Loop.

(** ** Sampling time *)
(** [t_total]: self.sampling_time; [t_start]: self.start_time once set *)
Record timer := mkT { t_total : Z; t_start : option Z }.
(** the two entries of the pickled sampler's kwargs; [None]: never stored *)
Definition stamp := option (Z * Z).
Open Scope Z_scope.
(** _update_sampling_time, 658-661 *)
Definition update_time (now : Z) (t : timer) : timer :=
  match t_start t with Some s => mkT (t_total t + (now - s)) (Some now) | None => t end.
(** write_current_state, 820-823: with no start_time the entries are left out *)
Definition write_time (now : Z) (t : timer) : timer * stamp :=
  match t_start t with
  | Some _ => let t := update_time now t in (t, match t_start t with Some s => Some (t_total t, s) | None => None end)
  | None => (t, None)
  end.
(** read_saved_state, 780-781; [None]: KeyError *)
Definition read_time (d : stamp) : option timer := match d with Some (total, s) => Some (mkT total (Some s)) | None => None end.
(** one process: read (when there is a file), then either a signal before line 564 or
    [start_time = now()] at [b], checkpoints at the times [ws], and possibly the end at [e] (569) *)
Record tproc := mkTP { tp_early : option Z; tp_begin : Z; tp_writes : list Z; tp_end : option Z }.
Fixpoint writes (ws : list Z) (t : timer) (d : option stamp) : timer * option stamp :=
  match ws with [] => (t, d) | w :: r => let (t', d') := write_time w t in writes r t' (Some d') end.
(** [disk]: outer [None]: no file. Result: [None]: KeyError; the final sampling_time; the file *)
Definition time_process (p : tproc) (disk : option stamp) : option (Z * option stamp) :=
  match match disk with None => Some (mkT 0 None) | Some d => read_time d end with
  | None => None
  | Some t =>
      match tp_early p with
      | Some now => let (t, d) := write_time now t in Some (t_total t, Some d)
      | None =>
          let t := mkT (t_total t) (Some (tp_begin p)) in
          let (t, d) := writes (tp_writes p) t disk in
          let t := match tp_end p with Some e => update_time e t | None => t end in
          Some (t_total t, d)
      end
  end.
Fixpoint time_history (ps : list tproc) (disk : option stamp) : option (list Z * option stamp) :=
  match ps with
  | [] => Some ([], disk)
  | p :: r =>
      match time_process p disk with
      | None => None
      | Some (x, d) => match time_history r d with None => None | Some (xs, d') => Some (x :: xs, d') end
      end
  end.
Close Scope Z_scope.

(** ** Set-up *)
(** _apply_dynesty_boundaries, 406-417; [bs]: the boundary of each sampled parameter *)
Fixpoint select (key : string) (ii : nat) (bs : list (option string)) : list nat :=
  match bs with
  | [] => []
  | b :: t => (if match b with Some k => String.eqb k key | None => false end then [ii] else []) ++ select key (S ii) t
  end.
Definition boundaries (key : string) (bs : list (option string)) : option (list nat) :=
  match select key 0 bs with [] => None | l => Some l end.
(** str.strip(chars) *)
Definition mem_char (c : ascii) (cs : list ascii) : bool := existsb (Ascii.eqb c) cs.
Fixpoint lstrip (cs : list ascii) (s : list ascii) : list ascii :=
  match s with [] => [] | c :: t => if mem_char c cs then lstrip cs t else s end.
Definition strip (cs s : list ascii) : list ascii := rev (lstrip cs (rev (lstrip cs s))).
(** what _set_sampling_method works on: the keyword arguments and the names registered with
    dynesty so far ([true]: the bilby version) *)
Record setup := mkSet { sample_name : string; bound : string; proposals : option (list string); nact : Z; maxmcmc : Z; walks : Z }.
Inductive err := DynestySetupError.
Definition own_walks : list string := ["rwalk"; "act-walk"; "acceptance-walk"].
Definition is_in (x : string) (l : list string) : bool := existsb (String.eqb x) l.
(** 457-494 *)
Definition set_bound (s : setup) : setup + err :=
  if (negb (is_in (sample_name s) own_walks) && is_in (bound s) ["live"; "live-multi"])%bool
  then inl (mkSet (sample_name s) "multi" (proposals s) (nact s) (maxmcmc s) (walks s))
  else if String.eqb (bound s) "live" then inl s
  else if String.eqb (bound s) "live-multi" then inl s
  else if String.eqb (sample_name s) "acceptance-walk" then inr DynestySetupError
  else match proposals s with
       | None => inl (mkSet (sample_name s) (bound s) (Some ["volumetric"]) (nact s) (maxmcmc s) (walks s))
       | Some l => if is_in "diff" l then inr DynestySetupError else inl s
       end.
(** 496-531: the checks, the new value of kwargs["sample"], and the name registered with dynesty *)
Definition set_sample (s : setup) : (setup * option string) + err :=
  if String.eqb (sample_name s) "rwalk" then
    if Z.ltb (maxmcmc s) (walks s) then inr DynestySetupError
    else if Z.ltb (nact s) 1 then inr DynestySetupError else inl (s, Some "rwalk")
  else if String.eqb (sample_name s) "acceptance-walk" then inl (s, Some "acceptance-walk")
  else if String.eqb (sample_name s) "act-walk" then inl (s, Some "act-walk")
  else if String.eqb (sample_name s) "rwalk_dynesty" then
    inl (mkSet (string_of_list_ascii (strip (list_ascii_of_string "_dynesty") (list_ascii_of_string (sample_name s)))) (bound s) (proposals s) (nact s) (maxmcmc s) (walks s), None)
  else inl (s, None).
(** _set_sampling_method; [reg]: names whose implementation is bilby's, in this Python process *)
Definition set_sampling_method (reg : list string) (s : setup) : (setup * list string) + err :=
  match set_bound s with
  | inr e => inr e
  | inl s1 => match set_sample s1 with inr e => inr e | inl (s2, None) => inl (s2, reg) | inl (s2, Some n) => inl (s2, n :: reg) end
  end.
(** _get_proposal_kwargs, dynesty_utils.py 522-531: the proposals used by a bilby walk; [has_live]: the
    live points are among the arguments, which bound="live" and "live-multi" see to (62-71, 98-105);
    [None]: ValueError *)
Definition walk_proposals (p : option (list string)) (has_live : bool) : option (list string) :=
  let l := match p with None => ["diff"] | Some l => l end in
  if (is_in "diff" l && negb has_live)%bool then None else Some l.

(** ** Posterior *)
Open Scope R_scope.
(** 622-623: [np.exp(logwts - out["logz"][-1])] *)
Definition weights (logwts : list R) (logz : R) : list R := map (fun l => exp (l - logz)) logwts.
Definition rmax (l : list R) : R := match l with [] => 0 | x :: t => fold_left Rmax t x end.
(** 629: [weights > rng.uniform(0, max(weights), len(weights))] *)
Fixpoint keep_mask (w u : list R) : list bool :=
  match w, u with a :: w, b :: u => (if Rlt_dec b a then true else false) :: keep_mask w u | _, _ => [] end.
(** boolean indexing, 630-631 *)
Fixpoint masked {A} (m : list bool) (l : list A) : list A :=
  match m, l with true :: m, x :: l => x :: masked m l | false :: m, _ :: l => masked m l | _, _ => [] end.
Definition rsum (l : list R) : R := fold_right Rplus 0 l.
(** scipy.special.logsumexp *)
Definition logsumexp (l : list R) : R := ln (rsum (map exp l)).
(** 648-649; int() of a positive number is its floor *)
Definition logneff (logwts : list R) : R := logsumexp logwts * 2 - logsumexp (map (fun l => l * 2) logwts).
Definition neffsamples (logwts : list R) : Z := zfloor (exp (logneff logwts)).

(** ** Proposals *)
(** rows of the live points with repeated rows removed (np.unique sorts them, which the random
    choice makes immaterial); dynesty_utils.py 532-534: the result of np.delete is not used *)
Definition row_eqb (a b : list R) : bool := if list_eq_dec Req_EM_T a b then true else false.
Fixpoint unique (l : list (list R)) : list (list R) :=
  match l with [] => [] | x :: t => if existsb (row_eqb x) t then unique t else x :: unique t end.
Definition live_for_walk (current : list R) (live : list (list R)) : list (list R) := unique live.
(** what np.delete(live, matches, 0) returns *)
Definition deleted (current : list R) (live : list (list R)) : list (list R) := filter (fun r => negb (row_eqb current r)) live.
Fixpoint vadd (a b : list R) : list R := match a, b with x :: a, y :: b => x + y :: vadd a b | _, _ => [] end.
Definition vscale (c : R) (a : list R) : list R := map (fun x => c * x) a.
Definition vsub (a b : list R) : list R := vadd a (vscale (-1) b).
(** propose_differetial_evolution, dynesty_utils.py 618-628: [a], [b] the two chosen rows of
    live[:, :n_cluster], [gamma] the draw from gamma(4, 0.25), [follow]: the uniform draw is below
    mix, [fresh] the n - n_cluster uniform draws *)
Definition diff_scale (n_cluster : nat) (scale : option R) (follow : bool) (gamma : R) : R :=
  if follow then match scale with Some s => s | None => 238 / 100 / sqrt (2 * INR n_cluster) end * gamma else 1.
Definition propose_diff (n_cluster : nat) (u a b : list R) (s : R) (fresh : list R) : list R :=
  vadd (firstn n_cluster u) (vscale s (vsub (firstn n_cluster b) (firstn n_cluster a))) ++ fresh.
(** propose_volumetric, 667-679: [g] the normal draws, [x] the uniform draw *)
Definition norm (v : list R) : R := sqrt (rsum (map (fun x => x * x) v)).
Definition dot (a b : list R) : R := rsum (map (fun p => fst p * snd p) (combine a b)).
Definition matvec (m : list (list R)) (v : list R) : list R := map (fun r => dot r v) m.
Definition ball_point (n_cluster : nat) (g : list R) (x : R) : list R :=
  vscale (Rpower x (1 / INR n_cluster)) (vscale (/ norm g) g).
Definition propose_volumetric (n_cluster : nat) (u : list R) (axes : list (list R)) (scale : R) (g : list R) (x : R) (fresh : list R) : list R :=
  vadd (firstn n_cluster u) (vscale scale (matvec axes (ball_point n_cluster g x))) ++ fresh.
(** [weights / sum(weights)] for a dictionary of proposals, 538-541 *)
Definition normalised (w : list R) : list R := map (fun x => x / rsum w) w.
