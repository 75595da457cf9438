(** Gravitational-wave priors of bilby/gw/prior.py: masses uniform in the
    components, compound spin priors, mass limits and redundancy tests of the
    CBC prior dictionaries, and the reweighting to flat component masses. *)
From Coq Require Import String Reals List Lra Bool.
From Coquelicot Require Import Coquelicot.
From Verif Require Import PyReal GwMass_Model Prior_Model.
Import ListNotations.
Open Scope R_scope.
Open Scope list_scope.

(** gw/prior.py 344-377 [UniformInComponentsChirpMass]: PowerLaw with alpha = 1 *)
Definition UICChirpMass_prob (mn mx x : R) : R := PowerLaw_prob 1 mn mx x.

(** gw/prior.py 395-466 [UniformInComponentsMassRatio].  [hyp] is
    [scipy.special.hyp2f1(-2/5, -1/5, 4/5, .)]. *)
Section MassRatio.
Variable hyp : R -> R.
Definition MR_integral (q : R) : R := -5 * Rpower q (-1/5) * hyp (- q).           (* 442-444 *)
Definition MR_norm (mn mx : R) : R := MR_integral mx - MR_integral mn.            (* 436 *)
Definition MR_cdf (mn mx v : R) : R := (MR_integral v - MR_integral mn) / MR_norm mn mx.   (* 446-447 *)
Definition MR_prob (mn mx v : R) : R :=                                           (* 458-462 *)
  Rpower (1 + v) (2/5) / Rpower v (6/5) / MR_norm mn mx *
  (if in_prior_range mn mx v then 1 else 0).
End MassRatio.
(** 449-456; [icdf] is the interpolant built at 437-440 *)
Definition MR_rescale (icdf : R -> R) (equal_mass : bool) (v : R) : R :=
  let v := if equal_mass then 2 * Rmin v (1 - v) else v in icdf v.

(** gw/prior.py 502-504: the range on which [AlignedSpin] tabulates its density *)
Definition AlignedSpin_range (amin amax zmin zmax : R) : R * R :=
  (Rmin (amax * zmin) (amin * zmax), amax * zmax).
(** 510-511: the function of the spin magnitude that is integrated at the node [x] *)
Definition AlignedSpin_integrand (a_prob z_prob : R -> R) (x a : R) : R :=
  a_prob a / a * z_prob (x / a).

(** gw/prior.py 518-540 [ConditionalChiUniformSpinMagnitude]: log uniform between |chi| and the maximum *)
Definition ChiMag_prob (amax chi a : R) : R := LogUniform_prob (Rabs chi) amax a.
Definition ChiMag_rescale (amax chi u : R) : R := LogUniform_rescale (Rabs chi) amax u.

(** gw/prior.py 553-645 [ConditionalChiInPlane].  None = nan or an infinity *)
Definition InPlane_maximum (amax chi : R) : option R := psqrt (amax ^ 2 - chi ^ 2).        (* 640-645 *)
Definition InPlane_prob (amax chi v : R) : option R :=                            (* 578-586 *)
  let* mx := InPlane_maximum amax chi in
  let c := Rabs chi in
  let* r := pdiv amax c in
  let* l := plog r in
  let* x := pdiv ((if in_prior_range 0 mx v then 1 else 0) * v) (c ^ 2 + v ^ 2) in
  pdiv x l.
Definition InPlane_cdf (amax chi v : R) : option R :=                             (* 592-617 *)
  let* mx := InPlane_maximum amax chi in
  let c := Rabs chi in
  let* w := pdiv v c in
  let* n := plog (1 + w ^ 2) in
  let* r := pdiv amax c in
  let* l := plog r in
  let* x := pdiv ((if in_prior_range 0 mx v then 1 else 0) * n / 2) l in
  Some (Rmax (Rmin x 1) 0).
Definition InPlane_rescale (amax chi u : R) : option R :=                         (* 619-638 *)
  let c := Rabs chi in
  let* r := pdiv amax c in
  let* p := ppow r (2 * u) in
  let* s := psqrt (p - 1) in
  Some (c * s).

(** A dictionary of priors seen through the (minimum, maximum) of its entries *)
Definition limits := string -> option (R * R).

(** gw/prior.py 685-702, 704-721: [None] = the warning "Unable to determine" *)
Definition chirp_mass_limit (side : R * R -> R) (p : limits) : option R :=
  match p "chirp_mass"%string with
  | Some b => Some (side b)
  | None =>
      match p "mass_1"%string with
      | None => None
      | Some b1 =>
          let mass_1 := side b1 in
          match p "mass_2"%string with
          | Some b2 => component_masses_to_chirp_mass mass_1 (side b2)
          | None => match p "mass_ratio"%string with
                    | Some bq => component_masses_to_chirp_mass mass_1 (mass_1 * side bq)
                    | None => None
                    end
          end
      end
  end.
Definition minimum_chirp_mass : limits -> option R := chirp_mass_limit fst.
Definition maximum_chirp_mass : limits -> option R := chirp_mass_limit snd.
(** 723-747 *)
Definition minimum_component_mass (p : limits) : option R :=
  match p "mass_2"%string with
  | Some b => Some (fst b)
  | None =>
      match p "chirp_mass"%string, p "mass_ratio"%string with
      | Some bc, Some bq =>
          let* total_mass := chirp_mass_and_mass_ratio_to_total_mass (fst bc) (fst bq) in
          let* m := total_mass_and_mass_ratio_to_component_masses total_mass (fst bq) in
          Some (snd m)
      | _, _ => None
      end
  end.

(** gw/prior.py 917-962: what the redundancy test looks at: the class of each entry *)
Inductive kind := Sampled | Fixed | Constrained.
Definition kinds := list (string * kind).
Definition is_in (k : string) (l : list string) : bool := existsb (String.eqb k) l.
Definition sampling_parameters (d : kinds) : list string :=                       (* 938-939 *)
  map fst (filter (fun e => match snd e with Sampled => true | _ => false end) d).
Definition mass_parameters : list string :=
  ["mass_1"; "mass_2"; "chirp_mass"; "total_mass"; "mass_ratio"; "symmetric_mass_ratio"]%string.
Definition spin_azimuth_parameters : list string := ["phi_1"; "phi_2"; "phi_12"; "phi_jl"]%string.
Definition spin_tilt_1_parameters : list string := ["tilt_1"; "cos_tilt_1"]%string.
Definition spin_tilt_2_parameters : list string := ["tilt_2"; "cos_tilt_2"]%string.
Definition inclination_parameters : list string := ["theta_jn"; "cos_theta_jn"]%string.
Definition distance_parameters : list string := ["luminosity_distance"; "comoving_distance"; "redshift"]%string.
Definition groups : list (nat * list string) :=                                   (* 948-952 *)
  [(2, mass_parameters); (2, spin_azimuth_parameters); (1, spin_tilt_1_parameters);
   (1, spin_tilt_2_parameters); (1, inclination_parameters); (1, distance_parameters)]%nat.
(** [len(parameter_set.intersection(sampling_parameters))] *)
Definition overlap (g : list string) (d : kinds) : nat :=
  length (filter (fun k => is_in k (sampling_parameters d)) g).
Definition bbh_test_redundancy (d : kinds) (key : string) : bool :=
  if is_in key (map fst d) then true
  else existsb (fun ng => is_in key (snd ng) && Nat.leb (fst ng) (overlap (snd ng) d)) groups.
(** 1026-1052 *)
Definition tidal_parameters : list string := ["lambda_1"; "lambda_2"; "lambda_tilde"; "delta_lambda_tilde"]%string.
Definition bns_test_redundancy (d : kinds) (key : string) : bool :=
  if bbh_test_redundancy d key then true
  else if is_in key tidal_parameters then
    if Nat.ltb 2 (overlap tidal_parameters d) then true
    else Nat.eqb (overlap tidal_parameters d) 2
  else false.

(** gw/prior.py 35-91 [convert_to_flat_in_component_mass_prior].  A prior is an
    interval and the density it was given; a prior dictionary lives in a heap
    cell because [copy.copy(result)] copies the reference to it. *)
Inductive mprior :=
| PConstraint (mn mx : R)
| PUniform (mn mx : R)
| POther (mn mx : R) (dens : R -> R).
Definition p_min (p : mprior) : R := match p with PConstraint a _ | PUniform a _ | POther a _ _ => a end.
Definition p_max (p : mprior) : R := match p with PConstraint _ b | PUniform _ b | POther _ b _ => b end.
(** Constraint.prob (prior/base.py 472-473) is a strict comparison used as 0. / 1. *)
Definition p_prob (p : mprior) (x : R) : R :=
  match p with
  | PConstraint a b => if Rlt_dec a x then if Rlt_dec x b then 1 else 0 else 0
  | PUniform a b => Uniform_prob a b x
  | POther _ _ f => f x
  end.
Definition mdict := string -> option mprior.
Definition msample := string -> R.
Definition upd {A} (d : string -> A) (k : string) (v : A) : string -> A :=
  fun k' => if String.eqb k' k then v else d k'.
(** result.py 1685-1692 for one sample and the four mass parameters (the other
    parameters are left out by [prior_names]); [ev] is
    [new_prior.evaluate_constraints] of the four values.  None = a key or a
    zero denominator (numpy: nan or inf) *)
Definition weight_key (old new : mdict) (s : msample) (k : string) : option R :=
  match new k, old k with
  | Some pn, Some po => pdiv (p_prob pn (s k)) (p_prob po (s k))
  | _, _ => None
  end.
Definition weight_by_new_prior (old new : mdict) (ev : R) (s : msample) : option R :=
  let* a := weight_key old new s "chirp_mass" in
  let* b := weight_key old new s "mass_ratio" in
  let* c := weight_key old new s "mass_1" in
  let* d := weight_key old new s "mass_2" in
  Some (1 * (ev * a) * (ev * b) * (ev * c) * (ev * d)).
(** 67-71 *)
Definition to_constraint (p : mprior) : mprior := PConstraint (p_min p) (p_max p).
Definition to_uniform (p : mprior) : mprior := PUniform (p_min p) (p_max p).
Definition flat_priors (d : mdict) : option mdict :=
  match d "chirp_mass"%string, d "mass_ratio"%string, d "mass_1"%string, d "mass_2"%string with
  | Some c, Some q, Some m1, Some m2 =>
      Some (upd (upd (upd (upd d "chirp_mass" (Some (to_constraint c))) "mass_ratio" (Some (to_constraint q)))
                "mass_1" (Some (to_uniform m1))) "mass_2" (Some (to_uniform m2)))
  | _, _, _, _ => None
  end.
(** 73-76 *)
Definition flat_weight (old new : mdict) (ev : R) (s : msample) : option R :=
  let* w := weight_by_new_prior old new ev s in
  let* j := pdiv (s "mass_1"%string ^ 2) (s "chirp_mass"%string) in
  Some (j * w).
Record mresult := mkMR { mr_priors : nat; mr_posterior : list msample }.
Definition heap := nat -> mdict.
Fixpoint all_some {A} (l : list (option A)) : option (list A) :=
  match l with [] => Some [] | Some a :: t => match all_some t with Some r => Some (a :: r) | None => None end | None :: _ => None end.
(** 50-60 build error objects and drop them, so only the subscriptions at 54
    and 57 have an effect; the answer is the heap after the call, the weights
    given to [posterior.sample] and the returned result.  [ev new s] is
    [new.evaluate_constraints]; [pick] is [posterior.sample]. *)
Definition convert_to_flat (ev : mdict -> msample -> R) (pick : list msample -> list R -> list msample)
    (h : heap) (r : mresult) : option (heap * list R * mresult) :=
  let old := h (mr_priors r) in
  match flat_priors old with
  | None => None
  | Some new =>
      let h' := fun l => if Nat.eqb l (mr_priors r) then new else h l in
      match all_some (map (fun s => flat_weight old new (ev new s) s) (mr_posterior r)) with
      | None => None
      | Some ws => Some (h', ws, mkMR (mr_priors r) (pick (mr_posterior r) ws))
      end
  end.
