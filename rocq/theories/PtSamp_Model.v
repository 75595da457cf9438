(** * The set of tempered samplers and the loop around it: bilby/bilby_mcmc/sampler.py 329-362, 460-515, 622-831, 1335-1410
    Out of the model: proposals, swaps, evidence (Mcmc_Model, Chain_Model, Evidence_Model), time and files.  A chain is seen through
    its burn-in index, its position and its stored log likelihoods. *)
From Coq Require Import Reals List Bool ZArith Arith Lia.
From Verif Require Import Samples_Model Result_Model Evidence_Model.
Import ListNotations.
Open Scope R_scope.
Open Scope list_scope.

(** 622-641 [get_initial_betas] *)
Record tempering := { ntemps : nat; nensemble : nat; pt_ensemble : bool; given_betas : option (list R); tmax : option R; from_snr : option R }.
Inductive answer (A : Type) := Good (a : A) | NoLadder | WrongNumber.
Arguments Good {A} a.
Arguments NoLadder {A}.
Arguments WrongNumber {A}.
Definition get_initial_betas (p : tempering) (ndim : nat) : answer (list R) :=
  let checked l := if (length l =? ntemps p)%nat then Good l else WrongNumber in
  if (ntemps p =? 1)%nat then checked [1]
  else match given_betas p, tmax p, from_snr p with
       | Some l, _, _ => checked l
       | None, Some t, _ => checked (initial_betas t (ntemps p))
       | None, None, Some s => checked (initial_betas (s * s / (2 * (INR ndim / 2))) (ntemps p))
       | None, None, None => NoLadder
       end.

Section Samplers.
Variable S : Type.          (* all of a sampler but its temperature and indices *)
Record sampler := mkSampler { beta : R; tindex : nat; eindex : nat; inner : S }.
Variable fresh : R -> nat -> nat -> S.
Definition is_one (b : R) : bool := if Req_EM_T b 1 then true else false.
Definition is_hot (b : R) : bool := if Rlt_dec b 1 then true else false.
(** 643-677 [setup_sampler_dictionary]: the lists in the order of the temperatures *)
Definition members (p : tempering) (b : R) : nat := if is_one b || pt_ensemble p then nensemble p else 1%nat.
Definition setup (p : tempering) (betas : list R) : list (list sampler) :=
  map (fun tb => map (fun e => mkSampler (snd tb) (fst tb) e (fresh (snd tb) (fst tb) e)) (seq 0 (members p (snd tb)))) (combine (seq 0 (length betas)) betas).
(** 680-683, 700-706 *)
Definition sampler_list (d : list (list sampler)) : list sampler := concat d.
Definition tempered (d : list (list sampler)) : list sampler := filter (fun s => is_hot (beta s)) (sampler_list d).
Definition zerotemp (d : list (list sampler)) : list sampler := filter (fun s => is_one (beta s)) (sampler_list d).
(** 685-688, the setter: every sampler to its own place; None: no such place *)
Fixpoint put_at {A} (i : nat) (x : A) (l : list A) : option (list A) :=
  match i, l with
  | _, [] => None
  | O, _ :: r => Some (x :: r)
  | Datatypes.S j, y :: r => match put_at j x r with Some r' => Some (y :: r') | None => None end
  end.
Definition put_sampler (d : list (list sampler)) (s : sampler) : option (list (list sampler)) :=
  match nth_error d (tindex s) with
  | None => None
  | Some row => match put_at (eindex s) s row with None => None | Some row' => put_at (tindex s) row' d end
  end.
Definition set_sampler_list (d : list (list sampler)) (l : list sampler) : option (list (list sampler)) :=
  fold_left (fun acc s => match acc with None => None | Some d => put_sampler d s end) l (Some d).
(** 804-809: with a pool copies come back; without, every sampler steps in place *)
Definition step_pool (f : sampler -> sampler) (d : list (list sampler)) : option (list (list sampler)) := set_sampler_list d (map f (sampler_list d)).
Definition step_serial (f : sampler -> sampler) (d : list (list sampler)) : list (list sampler) := map (map f) d.
(** 690-698 *)
Definition column (d : list (list sampler)) (j : nat) : list (option sampler) := map (fun row => nth_error row j) d.
Definition tempered_lists (p : tempering) (d : list (list sampler)) : list (list (option sampler)) :=
  if pt_ensemble p then map (column d) (seq 0 (nensemble p)) else [column d 0].

(** 766-775 [_calculate_nsamples] and 777-791 [samples], from the count of a sampler, its own samples and those kept at zero temperature *)
Variable Row : Type.
Variable count : sampler -> nat.
Variable own kept : sampler -> list Row.
Definition total (l : list nat) : nat := fold_right plus 0%nat l.
Definition calculate_nsamples (rej : bool) (d : list (list sampler)) : nat :=
  (total (map count (zerotemp d)) + if rej then total (map (fun s => length (kept s)) (tl (sampler_list d))) else 0)%nat.
Definition samples_of (s : sampler) : list Row := if is_one (beta s) then own s else kept s.
Definition all_samples (rej : bool) (d : list (list sampler)) : option (list Row) :=
  match zerotemp d ++ (if rej then tempered d else []) with [] => None | l => Some (concat (map samples_of l)) end.
End Samplers.
Arguments mkSampler {S} beta tindex eindex inner.
Arguments beta {S} s.
Arguments tindex {S} s.
Arguments eindex {S} s.
Arguments inner {S} s.

(** 1335-1374 [rejection_sample_zero_temperature_samples].  The chain is the list of its rows with their log likelihoods.
    [view]: pd.DataFrame of the slice shares its memory with the chain and += works in it (pandas before version 3). *)
Section Reject.
Variable T : Type.
Definition rows_between (m p : nat) (chain : list (T * R)) : list (T * R) := firstn (p - m) (skipn m chain).
Definition shift (noise : R) (l : list (T * R)) : list (T * R) := map (fun r => (fst r, snd r + noise)) l.
Definition weights (b : R) (ls : list R) : list R :=
  let lw := map (fun l => (1 - b) * l) ls in
  let un := map (fun w => exp (w - rmax_list lw)) lw in
  map (fun x => x / fold_right Rplus 0 un) un.
Definition to_zero (view : bool) (noise : option R) (b : R) (m p : nat) (chain : list (T * R)) (u : list R) : list (T * R) * list (T * R) :=
  let hot := rows_between m p chain in
  match hot with
  | [] => ([], chain)
  | _ =>
      let n := match noise with Some x => x | None => 0 end in
      let w := weights b (map snd (shift n hot)) in
      if view then (rejection_sample (shift n hot) w u, firstn m chain ++ shift n hot ++ skipn (m + length hot) chain)
      else (rejection_sample hot w u, chain)
  end.
(** repeated calls, one list of uniform numbers each *)
Definition to_zero_again (view : bool) (noise : option R) (b : R) (m p : nat) (us : list (list R)) (chain : list (T * R)) : list (T * R) :=
  fold_left (fun c u => snd (to_zero view noise b m p c u)) us chain.
End Reject.
Arguments rows_between {T} m p chain.
Arguments shift {T} noise l.
Arguments to_zero {T} view noise b m p chain u.
Arguments to_zero_again {T} view noise b m p us chain.

(** 460-515 [print_progress]: the percentage of samples from hotter chains; None: ZeroDivisionError.  The count is recorded before. *)
Definition rejection_percentage (rej : bool) (rejected_count nsamples : nat) : option R :=
  if rej then (if (nsamples =? 0)%nat then None else Some (100 * INR rejected_count / INR nsamples)) else Some 0.
(** 329-362 [draw]: per round: whether it prints, the count [nsamples] records then, the count of [nsamples_nocache] *)
Record round_ := mkRound { prints : bool; recorded : Z; recount : Z }.
Fixpoint draw (target last : Z) (i : nat) (rs : list round_) : option nat :=
  match rs with
  | [] => None
  | r :: rest =>
      let last1 := if prints r then recorded r else last in
      if (target <=? last1)%Z then (if (target <=? recount r)%Z then Some i else draw target (recount r) (Datatypes.S i) rest)
      else draw target last1 (Datatypes.S i) rest
  end.

(** 1377-1410 [get_initial_maximimum_posterior_sample]: the objective, None for minus infinity *)
Section Maximum.
Variable X : Type.
Variable ln_prior : X -> option R.       (* None: zero prior *)
Variable ln_like : X -> R.
Definition neg_log_post (b : R) (x : X) : option R := match ln_prior x with None => None | Some lp => Some (- b * ln_like x - lp) end.
Definition no_larger (a b : option R) : Prop := match a, b with None, _ => True | Some _, None => False | Some x, Some y => x <= y end.
Definition minimises (b : R) (x : X) : Prop := forall y, no_larger (neg_log_post b x) (neg_log_post b y).
End Maximum.
