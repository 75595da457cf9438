(** * Ensemble samplers
    Model of bilby/core/sampler/ptemcee.py 313-386, 410-481, 512-653, 742-985, 1037-1090, 1161-1260, 1368-1426, 1434-1511,
    bilby/core/sampler/emcee.py 182-200, 276-442 and bilby/core/sampler/kombine.py 175-218.
    The samplers' own moves are external: what they store is data here. *)
From Coq Require Import Reals List Arith ZArith Bool Ascii.
From Verif Require Import PyReal Interp_Model Mband_Model PriorText_Model.
Import ListNotations.
Open Scope R_scope.

(** ** Arrays *)
Section Arrays.
Context {A : Type} (d : A).
(** [l[lo:hi:st]] for [st >= 1] *)
Definition pyslice (lo hi st : nat) (l : list A) : list A :=
  map (fun i => nth i l d) (filter (fun i => ((i - lo) mod st =? 0)%nat) (seq lo (Nat.min hi (length l) - lo))).
(** an array of [n] steps with one entry per walker, of the same content as a list of walkers *)
Definition by_step (n : nat) (walkers : list (list A)) : list (list A) :=
  map (fun s => map (fun w => nth s w d) walkers) (seq 0 n).
(** [a.reshape((m, n))] of the [m * n] entries of [l] *)
Definition chunks (m n : nat) (l : list A) : list (list A) := map (fun i => firstn n (skipn (i * n) l)) (seq 0 m).
End Arrays.

(** ** Results *)
Section Results.
Context {A B : Type}.
(** emcee.py 421-423: chain has shape (walkers, steps, ..) *)
Definition emcee_samples (nburn : nat) (chain : list (list A)) : list A := concat (map (skipn nburn) chain).
(** emcee.py 436-439: blobs have shape (steps, walkers, 2) *)
Definition emcee_loglikes (nburn : nat) (blobs : list (list B)) : list B := concat (skipn nburn blobs).
(** kombine.py 210-217, with emcee's log likelihoods; chain and blobs have shape (steps, walkers, ..) *)
Definition kombine_samples (nburn : nat) (chain : list (list A)) : list A := concat (skipn nburn chain).
Definition kombine_walkers (nwalkers nsteps : nat) (chain : list (list A)) : list (list A) := chunks nwalkers nsteps (concat chain).
(** ptemcee.py 621-627: both arrays have shape (walkers, steps, ..) *)
Definition ptemcee_samples (d : A) (lo hi thin : nat) (chain : list (list A)) : list A := concat (map (pyslice d lo hi thin) chain).
End Results.

(** ** Storage of a ptemcee run *)
Section Storage.
(** one row: positions, log likelihoods and log posteriors of all walkers at one check *)
Context {row : Type} (zero : row) (max_steps : nat).
(** [arr]: the arrays; [it]: iteration; [pos]: pos0; [nbeta]: length of beta_list *)
Record pstate := { arr : list row; it : nat; pos : option row; nbeta : nat }.
Fixpoint upd (i : nat) (x : row) (l : list row) : option (list row) :=
  match l, i with [], _ => None | _ :: r, O => Some (x :: r) | y :: r, S j => option_map (cons y) (upd j x r) end.
(** ptemcee.py 257-265, 469-479 *)
Definition fresh : pstate := {| arr := repeat zero max_steps; it := 0; pos := None; nbeta := 0 |}.
(** 534-561; [None]: IndexError *)
Definition record (x : row) (s : pstate) : option pstate :=
  let a := if (it s =? length (arr s))%nat then arr s ++ repeat zero max_steps else arr s in
  match upd (it s) x a with
  | Some a' => Some {| arr := a'; it := S (it s); pos := Some x; nbeta := nbeta s |}
  | None => None
  end.
(** what may happen: a check is stored, check_iteration appends to its lists (870-875), a checkpoint is written on schedule or by
    a signal (655, 1205), the process ends in any way and is started again (410-481) *)
Inductive event := Record (x : row) | Append | Save | Relaunch.
Definition step (s : pstate) (disk : option pstate) (e : event) : option (pstate * option pstate) :=
  match e with
  | Record x => match record x s with Some s' => Some (s', disk) | None => None end
  | Append => Some ({| arr := arr s; it := it s; pos := pos s; nbeta := S (nbeta s) |}, disk)
  | Save => Some (s, Some s)
  | Relaunch => match disk with
               | None => Some (fresh, disk)
               | Some s' => if (nbeta s' =? 0)%nat then None else Some (s', disk)   (* beta_list[-1], 437: IndexError *)
               end
  end.
Fixpoint run (s : pstate) (disk : option pstate) (es : list event) : option (pstate * option pstate) :=
  match es with [] => Some (s, disk) | e :: r => match step s disk e with Some (s', disk') => run s' disk' r | None => None end end.
End Storage.
Arguments pstate : clear implicits. Arguments event : clear implicits.

(** ** When a ptemcee run stops *)
(** ptemcee.py 742-754; one row per temperature *)
Definition rlt (x y : R) : bool := if Rlt_dec x y then true else false.
Definition olt (x : option R) (y : R) : bool := match x with Some x => rlt x y | None => false end.
Fixpoint lmax (x : R) (l : list R) : R := match l with [] => x | y :: r => Rmax x (lmax y r) end.
Definition lmaximum (l : list R) : R := match l with [] => 0 | x :: r => lmax x r end.
Fixpoint first_true (l : list bool) : option nat := match l with [] => None | b :: r => if b then Some O else option_map S (first_true r) end.
(** [fracdiff < frac]; python's comparison with nan or with inf (maximum 0) is False *)
Definition near_max (frac : R) (x : list R) : list bool :=
  let m := lmaximum x in map (fun v => match pdiv (m - v) (Rabs m) with Some q => rlt q frac | None => false end) x.
Definition minimum_stable (frac : R) (mean : list (list R)) (nsteps : nat) : nat :=
  if (nsteps <? 10)%nat then O
  else fold_left (fun acc x => match first_true (near_max frac x) with Some i => Nat.max acc i | None => acc end) mean O.
(** 569-581 *)
Definition discard_of (fixed min_it nwalkers iteration : nat) : nat :=
  let m := Nat.max fixed min_it in if (m + nwalkers <? iteration)%nat then m else iteration.
(** calculate_tau_array, 1189-1202, and 863-867: the largest mean autocorrelation time; [None]: inf or nan. One entry per key:
    its name and the times of the walkers, [None] for an AutocorrError *)
Definition ignored (ignore : option text) (key : text) : bool :=
  match ignore with Some (c :: s) => contains (c :: s) key | _ => false end.
Definition rmean (l : list R) : R := fold_right Rplus 0 l / INR (length l).
Definition mean_tau (ignore : option text) (nsteps : nat) (kt : text * list (option R)) : option R :=
  if (nsteps <=? 1)%nat then None
  else if ignored ignore (fst kt) then None
  else option_map rmean (all_ok (snd kt)).
Definition tau_of (ignore : option text) (safety : R) (nsteps : nat) (taus : list (text * list (option R))) : option R :=
  match all_ok (map (mean_tau ignore nsteps) taus) with Some (t :: ts) => Some (safety * lmax t ts) | _ => None end.
Definition trunc (x : R) : Z := if Rle_dec 0 x then zfloor x else zceil x.
Record inputs := { burn_in_nact : R; thin_by_nact : R; autocorr_tol : R; min_tau : R; Q_tol : R; nsamples : Z;
  autocorr_tau : nat; gradient_tau : R; gradient_mean : R }.
(** 911-913 *)
Definition window (ndim nwalkers : nat) : nat :=
  let w := (2 * ((ndim + 1) / 2) + 1)%nat in if (w <=? 3)%nat then (2 * (nwalkers / 2) + 1)%nat else w.
(** check_iteration, 860-985; [Q]: [None] for inf; [grad_tau w n] and [grad_mean w n]: the largest gradients over the last [n]
    entries with window [w], [None] for nan; [ntau]: length of tau_list, this one included. Result: stop, nburn, thin, effective samples *)
Definition check_iteration (ci : inputs) (nwalkers nsteps ndim ntau : nat) (tau Q : option R) (grad_tau grad_mean : nat -> nat -> option R) : bool * option (Z * Z * Z) :=
  match tau with
  | None => (false, None)
  | Some tau =>
      let tau_int := zceil tau in
      let nburn := trunc (burn_in_nact ci * IZR tau_int) in
      let thin := trunc (Rmax 1 (thin_by_nact ci * IZR tau_int)) in
      let neff := trunc (INR nwalkers * (INR nsteps - IZR nburn) / IZR thin) in
      let converged := olt Q (Q_tol ci) && (nsamples ci <? neff)%Z in
      let w := window ndim nwalkers in
      let ncheck := (autocorr_tau ci * Nat.max (2 * w) (Z.to_nat tau_int))%nat in
      let usable := if (w <? Nat.min ntau ncheck)%nat then olt (grad_tau w ncheck) (gradient_tau ci) && olt (grad_mean w ncheck) (gradient_mean ci) else false in
      let usable := if rlt (INR nsteps) (IZR tau_int * autocorr_tol ci) then false else if rlt (IZR tau_int) (min_tau ci) then false else usable in
      (converged && usable, Some (nburn, thin, neff))
  end.

(** ** Gelman-Rubin statistic of one parameter, ptemcee.py 1078-1090; one list of steps per walker. [None]: inf *)
Definition rsum (l : list R) : R := fold_right Rplus 0 l.
Definition rvar (l : list R) : R := rmean (map (fun x => (x - rmean l) * (x - rmean l)) l).
Definition gr_W (ws : list (list R)) : R := rmean (map rvar ws).
Definition gr_B (n : nat) (ws : list (list R)) : R :=
  INR n / (INR (length ws) - 1) * rsum (map (fun m => (m - rmean (map rmean ws)) * (m - rmean (map rmean ws))) (map rmean ws)).
Definition gr_Vhat (n : nat) (ws : list (list R)) : R :=
  (INR n - 1) / INR n * gr_W ws + (INR (length ws) + 1) / (INR (length ws) * INR n) * gr_B n ws.
Definition gr_Q (n : nat) (ws : list (list R)) : option R :=
  if (n <=? 1)%nat then None else match pdiv (gr_Vhat n ws) (gr_W ws) with Some q => psqrt q | None => None end.

(** ** Evidence, ptemcee.py 1382-1402: pairs of beta and mean log likelihood, coldest first; [None]: infinite *)
Fixpoint finite_pairs (l : list (R * option R)) : list (R * R) :=
  match l with [] => [] | (b, Some m) :: r => (b, m) :: finite_pairs r | (_, None) :: r => finite_pairs r end.
(** [l[::2]] *)
Fixpoint every_other {A} (l : list A) : list A := match l with x :: _ :: r => x :: every_other r | _ => l end.
Definition ln_evidence (l : list (R * option R)) : R := trapz (finite_pairs (rev l)).
Definition ln_evidence_err (l : list (R * option R)) : R :=
  let p := finite_pairs (rev l) in Rabs (trapz p - trapz (rev (every_other (rev p)))).

(** ** Starting points by minimisation, ptemcee.py 358-372: results of the optimiser, one per trial; [trials] is not changed.
    [None]: still looping; [Some None]: SamplerError *)
Fixpoint minimize_loop {X} (trials : nat) (success : list X) (attempts : list (option X)) : option (option (list X)) :=
  match attempts with
  | [] => None
  | a :: r =>
      let success := match a with Some x => success ++ [x] | None => success end in
      if (100 <? trials)%nat then Some None
      else if (10 <=? length success)%nat then Some (Some success)
      else minimize_loop trials success r
  end.

(** ** Evaluating a point, ptemcee.py 1498-1511; [None]: -inf. The wrapping of periodic parameters (1462) is not called *)
Definition evaluate {X} (logp : X -> option R) (logl : X -> R) (x : X) : R * option R :=
  match logp x with None => (0, None) | Some p => (logl x, Some p) end.

(** a periodic parameter after the steps of one check, ptemcee.py 526-532 *)
Definition wrap_periodic (min max x : R) : R := rmod (x - min) (max - min) + min.

(** ** Checkpoints of an emcee run *)
Section Emcee.
Context {row : Type}.
(** [chain]: the steps of the sampler in memory; [file]: the rows of chain.dat; [pickle]: the steps of sampler.pickle *)
Record estate := { chain : list row; file : list row; pickle : option (list row) }.
(** one step is sampled and appended to the file (emcee.py 332-347, 408-409); a signal writes the sampler and the run is started
    again; the process ends without signal and is started again (303-330). Resuming from a sampler without steps raises ([None]):
    chain[:, -1, :] (388) *)
Inductive eevent := EStep (x : row) | ESignal | EKill.
Definition erestart (s : estate) : option estate :=
  match pickle s with
  | Some [] => None
  | Some c => Some {| chain := c; file := file s; pickle := pickle s |}
  | None => Some {| chain := []; file := []; pickle := None |}
  end.
Definition estep (s : estate) (e : eevent) : option estate :=
  match e with
  | EStep x => Some {| chain := chain s ++ [x]; file := file s ++ [x]; pickle := pickle s |}
  | ESignal => erestart {| chain := chain s; file := file s; pickle := Some (chain s) |}
  | EKill => erestart s
  end.
Definition erun (es : list eevent) : option estate :=
  fold_left (fun s e => match s with Some s => estep s e | None => None end) es (Some {| chain := []; file := []; pickle := None |}).
(** emcee.py 397: the steps still to be done *)
Definition remaining (iterations : nat) (s : estate) : nat := (iterations - length (chain s))%nat.
End Emcee.
Arguments estate : clear implicits. Arguments eevent : clear implicits.
(** emcee.py 183-200: the given nburn ([None] otherwise), the autocorrelation time ([None] if it cannot be calculated);
    the setter raises ([None]) and _generate_result (430) raises too *)
Definition set_nburn (iterations : nat) (nburn : option nat) : option (option nat) :=
  match nburn with Some b => if (Z.of_nat iterations - 1 <? Z.of_nat b)%Z then None else Some nburn | None => Some None end.
Definition get_nburn (given : option nat) (fraction act_factor : R) (nsteps : nat) (act : option nat) : nat :=
  match given, act with
  | Some b, _ => b
  | None, None => Z.to_nat (trunc (fraction * INR nsteps))
  | None, Some t => Z.to_nat (trunc (act_factor * INR t))
  end.
Definition check_nburn (nburn nsteps : nat) : bool := negb (nsteps <? nburn)%nat.
