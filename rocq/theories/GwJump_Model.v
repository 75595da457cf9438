(** * The jump proposals for compact binaries: bilby/gw/sampler/proposal.py
    The superclass (boundaries, log_j) is that of Jump_Model. Random numbers are arguments; [random.gauss(0, sigma)]
    is sigma times a standard normal number, [random.random()] a number from 0 up to 1. *)
From Coq Require Import String Reals List.
From Verif Require Import PyDict Jump_Model.
Import ListNotations.
Open Scope R_scope.

(** [sample[key] += d]; [None]: KeyError *)
Definition shift (k : string) (d : R) (s : sample) : option sample := bind (dget s k) (fun x => Some (dset s k (x + d))).
(** SkyLocationWanderJump.__call__, proposal.py 14-19; [None] also for the ZeroDivisionError of 1 / 0 and
    for the square root of a negative temperature, which numpy makes a nan. [beta]: the keyword
    inverse_temperature, 1.0 when it is not given. *)
Definition sky_sigma (beta : option R) : option R :=
  let b := match beta with Some b => b | None => 1 end in
  if Rlt_dec 0 b then Some (sqrt (1 / b) / 2 / PI) else None.
Definition sky_jump (priors : dict pr) (beta : option R) (z1 z2 : R) (s : sample) : option (sample * R) :=
  bind (sky_sigma beta) (fun sigma => finish priors 0 (bind (shift "ra" (sigma * z1) s) (shift "dec" (sigma * z2)))).
(** CorrelatedPolarisationPhaseJump.__call__, proposal.py 27-38; [draw] and [u] are the two calls of random.random(). *)
Definition corr_move (draw u : R) (s : sample) : option sample :=
  bind (dget s "psi") (fun psi => bind (dget s "phase") (fun phase =>
    let alpha := psi + phase in let beta := psi - phase in
    let (alpha, beta) := if Rlt_dec draw (5 / 10) then (3 * PI * u, beta) else (alpha, 3 * PI * u - 2 * PI) in
    Some (dset (dset s "psi" ((alpha + beta) * (5 / 10))) "phase" ((alpha - beta) * (5 / 10))))).
Definition corr_jump (priors : dict pr) (draw u : R) (s : sample) : option (sample * R) := finish priors 0 (corr_move draw u s).
(** PolarisationPhaseJump.__call__, proposal.py 46-49 *)
Definition pol_jump (priors : dict pr) (s : sample) : option (sample * R) :=
  finish priors 0 (bind (shift "phase" PI s) (shift "psi" (PI / 2))).
