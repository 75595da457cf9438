(** bilby/bilby_mcmc/proposals.py: single proposals *)
From Coq Require Import Reals List Bool ZArith.
From Verif Require Import PyReal.
Import ListNotations.
Open Scope R_scope.

(** ** 1002-1013 [_stretch_move]; points are lists of the proposed parameters *)
Definition stretch_z (a u : R) : R := (u * (a - 1) + 1) ^ 2 / a.
Definition stretch_point (sample complement : list R) (z : R) : list R :=
  map (fun p => snd p + (fst p - snd p) * z) (combine sample complement).
Definition stretch_log_factor (ndim : nat) (z : R) : R := (INR ndim - 1) * ln z.
Definition stretch_move (sample complement : list R) (a : R) (ndim : nat) (u : R) : list R * R :=
  let z := stretch_z a u in (stretch_point sample complement z, stretch_log_factor ndim z).

(** ** 929-973 reversal proposals, [eps] the fuzz (0 without fuzz) *)
Definition phase_reversal (eps phase : R) : R := rmod (phase + PI + eps) (2 * PI).
Definition polarisation_reversal (eps psi : R) : R := rmod (psi + PI / 2 + eps) PI.
Definition phase_polarisation_reversal (eps1 eps2 : R) (p : R * R) : R * R :=
  (rmod (fst p + PI + eps1) (2 * PI), rmod (snd p + PI / 2 + eps2) PI).

(** ** 860-916 correlated polarisation and phase jump; [first] = (draw < 1/2), [v] the second
    draw; for the phase key "phase" *)
Definition correlated_jump (first : bool) (v : R) (p : R * R) : R * R :=
  let '(psi, phase) := p in
  let alpha := if first then 3 * PI * v else psi + phase in
  let beta := if first then psi - phase else 3 * PI * v - 2 * PI in
  ((alpha + beta) * / 2, (alpha - beta) * / 2).
(** 869-885 conversions between phase and delta_phase, [s] = sign(cos theta_jn) *)
Definition get_phase (s psi delta_phase : R) : R := rmod (delta_phase - s * psi) (2 * PI).
Definition get_delta_phase (s psi phase : R) : R := phase + s * psi.

(** ** 225-282 scale of the adaptive Gaussian proposal *)
Record agp := mkAgp { scale : R; stop : R; target_facc : R; acc : nat; rej : nat; last_acc : nat }.
Definition n_of (g : agp) : R := INR (acc g + rej g).
Definition update_scale (g : agp) : agp :=
  if Rlt_dec 0 (n_of g) then if Rlt_dec (n_of g) (stop g) then
    let s_gamma := Rpower (stop g / n_of g) (2/10) - 1 in
    let s := if Nat.ltb (last_acc g) (acc g) then scale g + s_gamma * (1 - target_facc g) / 100
             else scale g - s_gamma * target_facc g / 100 in
    mkAgp (Rmax s (1 / stop g)) (stop g) (target_facc g) (acc g) (rej g) (acc g)
  else g else g.
(** one use of the proposal: the scale is updated, then the sampler counts the outcome *)
Definition use (g : agp) (accepted : bool) : agp :=
  let g := update_scale g in
  if accepted then mkAgp (scale g) (stop g) (target_facc g) (S (acc g)) (rej g) (last_acc g)
  else mkAgp (scale g) (stop g) (target_facc g) (acc g) (S (rej g)) (last_acc g).
Definition uses (g : agp) (l : list bool) : agp := fold_left use l g.

(** ** 345-357 uniform proposal. Python object identity: [x is False] holds only for the
    singleton; numpy's isinf returns a numpy boolean *)
Inductive pyobj := PyBool (b : bool) | NpBool (b : bool).
Definition is_False (o : pyobj) : bool := match o with PyBool false => true | _ => false end.
(** width: None = infinite *)
Definition np_isinf (w : option R) : pyobj := NpBool (match w with None => true | Some _ => false end).
Record uprior := mkU { umin : R; umax : R; uwidth : option R }.
Definition uniform_value (p : uprior) (cur u : R) : R :=
  if is_False (np_isinf (uwidth p)) then umin p + (umax p - umin p) * u else cur.
(** all parameters: priors, current values, draws *)
Fixpoint uniform_propose (ps : list uprior) (cur us : list R) : list R :=
  match ps, cur, us with
  | p :: ps', c :: cur', u :: us' => uniform_value p c u :: uniform_propose ps' cur' us'
  | _, _, _ => cur
  end.

(** ** 16-39 proposal cycle *)
Section Cycle.
Context {P : Type}.
Record cycle := mkCycle { entries : list P; pos : nat }.
Definition get_proposal (c : cycle) : option (P * cycle) :=
  match nth_error (entries c) (pos c) with
  | None => None
  | Some p => Some (p, mkCycle (entries c) (Nat.modulo (pos c + 1) (length (entries c))))
  end.
Fixpoint draws (n : nat) (c : cycle) : option (list P * cycle) :=
  match n with
  | O => Some ([], c)
  | S n' => match get_proposal c with None => None | Some (p, c') =>
      match draws n' c' with None => None | Some (l, c'') => Some (p :: l, c'') end end
  end.
End Cycle.
