(** bilby/gw/source.py 1288-1332, bilby/gw/prior.py 749-857, bilby/core/prior/dict.py 425-431: groups of sampled parameters and the check of a prior against the length of the data. *)
From Coq Require Import String Reals List Bool.
From Verif Require Import PyDict.
Import ListNotations.
Open Scope string_scope.

Inductive kind := Sampled | Fixed | Constrained | NotPrior.
(** 425-431 *)
Definition non_fixed_keys (d : dict kind) : list string := map fst (filter (fun q => match snd q with Sampled => true | _ => false end) d).
(** source.py 1288-1332 *)
Definition precession_only := ["tilt_1"; "tilt_2"; "phi_12"; "phi_jl"; "chi_1_in_plane"; "chi_2_in_plane"].
Definition spin := ["a_1"; "a_2"; "tilt_1"; "tilt_2"; "phi_12"; "phi_jl"; "chi_1"; "chi_2"; "chi_1_in_plane"; "chi_2_in_plane"].
Definition mass := ["chirp_mass"; "mass_ratio"; "total_mass"; "mass_1"; "mass_2"; "symmetric_mass_ratio"].
Definition primary_spin_and_q := ["a_1"; "chi_1"; "mass_ratio"].
Definition tidal := ["lambda_1"; "lambda_2"; "lambda_tilde"; "delta_lambda_tilde"].
Definition phase := ["phase"; "delta_phase"].
Definition extrinsic := ["azimuth"; "zenith"; "luminosity_distance"; "psi"; "theta_jn"; "cos_theta_jn"; "geocent_time"; "time_jitter"; "ra"; "dec"; "H1_time"; "L1_time"; "V1_time"].
Definition sky := ["azimuth"; "zenith"; "ra"; "dec"].
Definition distance_inclination := ["luminosity_distance"; "redshift"; "theta_jn"; "cos_theta_jn"].
Definition measured_spin := ["chi_1"; "chi_2"; "a_1"; "a_2"; "chi_1_in_plane"].
Definition PARAMETER_SETS : dict (list string) :=
  [("spin", spin); ("mass", mass); ("phase", phase); ("extrinsic", extrinsic); ("tidal", tidal); ("primary_spin_and_q", primary_spin_and_q);
   ("intrinsic", spin ++ mass ++ phase ++ tidal)%list; ("precession_only", precession_only); ("sky", sky); ("distance_inclination", distance_inclination); ("measured_spin", measured_spin)].
(** prior.py 758-768; None = ValueError *)
Inductive pset := Name (s : string) | Keys (l : list string) | Other.
Definition is_nonempty_intersection (d : dict kind) (p : pset) : option bool :=
  let check l := existsb (fun k => existsb (String.eqb k) (non_fixed_keys d)) l in
  match p with
  | Name s => option_map check (dget PARAMETER_SETS s)
  | Keys l => Some (check l)
  | Other => None
  end.
(** 770-812: the properties *)
Definition group (d : dict kind) (s : string) : bool := match is_nonempty_intersection d (Name s) with Some b => b | None => false end.

Open Scope R_scope.
(** 814-857.  [durations]: the times to merger of the draws.  The largest of none raises ValueError as well *)
Inductive verdict := Yes | No | Nothing | Raised.
Definition longest (l : list R) : option R := match l with [] => None | x :: t => Some (fold_left (fun m y => if Rlt_dec m y then y else m) t x) end.
Definition validate_prior (durations : list R) (duration : R) (error warning : bool) : verdict :=
  match longest durations with
  | None => Raised
  | Some m => if Rlt_dec m duration then Yes else if warning then No else if error then Raised else Nothing
  end.
