(** bilby/bilby_mcmc/sampler.py 928-1096: which samples the two evidence estimates use, their error estimates
    and what is stored. Floats are reals; [None] is nan. A chain is its list of log likelihoods
    (chain.get_1d_array(LOGLKEY)), its minimum_index and its beta. *)
From Coq Require Import String Reals List Bool Arith.
From Verif Require Import Interp_Model Samples_Model Evidence_Model Ensemble_Model Tau_Model.
Import ListNotations.
Open Scope string_scope.
Open Scope list_scope.
Open Scope R_scope.

Record rung := { beta : R; lnls : list R; burn : nat }.

(** np.mean: nan for no values *)
Definition nanmean (l : list R) : option R := match l with [] => None | _ => Some (avg l) end.
Fixpoint all_some {A} (l : list (option A)) : option (list A) :=
  match l with [] => Some [] | None :: _ => None | Some x :: t => match all_some t with Some r => Some (x :: r) | None => None end end.

(** 975-1000, 1091-1096 thermodynamic_integration_evidence; [chain] coldest first *)
Definition thermo (chain : list rung) : option (R * R) :=
  match all_some (map (fun r => nanmean (skipn (burn r) (lnls r))) chain) with
  | None => None
  | Some means =>
      let p := combine (rev (map beta chain)) (rev means) in
      let lnz := trapz p in
      let z2 := trapz (rev (every_other (rev p))) in
      Some (lnz, Rabs (lnz - z2))
  end.

(** 1034-1036: the last burn-in and the end of the shortest chain *)
Definition first_row (chain : list rung) : nat := fold_right Nat.max 0%nat (map burn chain).
Definition end_row (chain : list rung) : nat := match map (fun r => length (lnls r)) chain with [] => 0%nat | n :: t => fold_right Nat.min n t end.
(** 1043-1049: the rows of all chains but the coldest, [int(tau)] apart; [chain] hottest first; one list for each chain *)
Definition rows (chain : list rung) (tau : nat) : list nat := slice_rows (first_row chain) (end_row chain) tau.
Definition columns (chain : list rung) (tau : nat) : list (list R) :=
  map (fun r => map (fun i => nth i (lnls r) 0) (rows chain tau)) (removelast chain).
(** 1061-1066: one realisation of the bootstrap; [draw i] is random.rng.integers(i, i + 50) *)
Definition block : nat := 50.
Definition idxs (steps : nat) (draw : nat -> nat) : list nat := map draw (seq 0 (steps - block)).
Definition resample (cols : list (list R)) (ix : list nat) : list (list R) := map (fun c => map (fun i => nth i c 0) ix) cols.
(** np.std *)
Definition std (l : list R) : R := sqrt (avg (map (fun x => (x - avg l) * (x - avg l)) l)).
(** 1014-1080 stepping_stone_evidence; [chain0] coldest first, reversed in 1032; [tau = None]: infinite;
    [draws]: the random integers of each of the 100 repeats. The error is nan when there are no rows to draw (logsumexp of
    nothing raises ValueError or gives nan) *)
Definition stone (chain0 : list rung) (tau : option nat) (draws : list (nat -> nat)) : option R * option R :=
  let chain := rev chain0 in
  match tau with
  | None => (None, None)
  | Some k =>
      if (end_row chain - first_row chain <=? 1)%nat then (None, None)
      else
        let cols := columns chain k in
        let steps := length (rows chain k) in
        let betas := map beta chain in
        (Some (stepping_stone betas cols),
         if (steps <=? block)%nat then None
         else Some (std (map (fun d => stepping_stone betas (resample cols (idxs steps d))) draws)))
  end.

(** 952-973 compute_evidence_per_ensemble: nan as soon as one ensemble gives nan *)
Definition over_ensembles (l : list (option R * option R)) : option R * option R :=
  (match all_some (map fst l) with Some zs => Some (combined_lnZ zs) | None => None end,
   match all_some (map snd l) with Some es => Some (combined_err es) | None => None end).

(** 928-949: what is stored for a method and what ln_z, ln_z_err give; [chains]: one list of rungs for each ensemble *)
Definition flatten (o : option (R * R)) : option R * option R := match o with Some (a, b) => (Some a, Some b) | None => (None, None) end.
Definition evidence (method : string) (ntemps : nat) (chains : list (list rung)) (tau : option nat) (draws : list (nat -> nat)) : option R * option R :=
  if (ntemps =? 1)%nat then (None, None)
  else if String.eqb method "thermodynamic" then over_ensembles (map (fun c => flatten (thermo c)) chains)
  else if String.eqb method "stepping_stone" then over_ensembles (map (fun c => stone c tau draws) chains)
  else (None, None).
