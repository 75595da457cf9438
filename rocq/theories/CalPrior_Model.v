(** Priors for calibration parameters.
    Source: bilby/gw/prior.py 1138-1276 (CalibrationPriorDict.from_envelope_file, constant_uncertainty_spline).
    Simplified: exact arithmetic; labels, boundary and names stored inside the priors are left out;
    scipy's InterpolatedUnivariateSpline is an arbitrary function of its nodes. *)
From Coq Require Import String Reals List Bool Arith.
From Verif Require Import PyDict Calib_Model.
Import ListNotations.
Open Scope R_scope.
Open Scope list_scope.

(** Gaussian(mu, sigma) and DeltaFunction(peak) *)
Inductive cprior := Gauss (mu sigma : R) | Delta (peak : R).
(** prior.py 1194, 1201, 1208: "recalib_{label}_{kind}_{ii}" *)
Definition key (label kind : string) (i : nat) : string := ("recalib_" ++ label ++ "_" ++ pname kind i)%string.
(** one of the three loops (1193-1199, 1200-1206, 1207-1211; 1256-1262, 1263-1269, 1270-1274) *)
Definition loop (label kind : string) (mk : nat -> cprior) (n : nat) (d : dict cprior) : dict cprior :=
  fold_left (fun d i => dset d (key label kind i) (mk i)) (seq 0 n) d.
(** numpy.linspace *)
Definition lin (a b : R) (n i : nat) : R := a + INR i * ((b - a) / INR (n - 1)).
(** prior.py 1247-1276 *)
Definition constant_uncertainty_spline (amplitude_sigma phase_sigma lo hi : R) (n : nat) (label : string) : dict cprior :=
  let nodes := fun i => Rpower 10 (lin (log10 lo) (log10 hi) n i) in
  loop label "frequency" (fun i => Delta (nodes i)) n
    (loop label "phase" (fun _ => Gauss 0 phase_sigma) n
      (loop label "amplitude" (fun _ => Gauss 0 amplitude_sigma) n [])).
(** a line of the envelope file: frequency, median amplitude, median phase, lower and upper 1-sigma values *)
Record line := mkLine { e_f : R; e_amp : R; e_ph : R; e_amp_lo : R; e_ph_lo : R; e_amp_hi : R; e_ph_hi : R }.
Section Spline.
Variable interp : list R -> list R -> R -> R.
(** prior.py 1173-1213 *)
Definition from_envelope_file (file : list line) (lo hi : R) (n : nat) (label : string) : dict cprior :=
  let logf := map (fun l => ln (e_f l)) file in
  let log_nodes := lin (ln lo) (ln hi) n in
  let at_nodes := fun col i => interp logf (map col file) (log_nodes i) in
  loop label "frequency" (fun i => Delta (exp (log_nodes i))) n
    (loop label "phase" (fun i => Gauss (at_nodes e_ph i) (at_nodes (fun l => (e_ph_hi l - e_ph_lo l) / 2) i)) n
      (loop label "amplitude" (fun i => Gauss (at_nodes (fun l => e_amp l - 1) i) (at_nodes (fun l => (e_amp_hi l - e_amp_lo l) / 2) i)) n [])).
End Spline.
