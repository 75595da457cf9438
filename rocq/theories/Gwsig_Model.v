(** gw/source.py 19-252: gwsignal_binary_black_hole, the binary black hole model around lalsimulation.gwsignal. *)
From Coq Require Import String ZArith Reals List Bool.
From Coquelicot Require Import Coquelicot.
From Verif Require Import PyDict PyReal Source_Model.
Import ListNotations.
Open Scope string_scope.
Open Scope list_scope.
Open Scope R_scope.

(** 89-98 *)
Definition gw_defaults (fmax : R) : dict val :=
  [("waveform_approximant", VText "SEOBNRv5PHM"); ("reference_frequency", VNum 50); ("minimum_frequency", VNum 20); ("maximum_frequency", VNum fmax);
   ("catch_waveform_errors", VFlag false); ("mode_array", VNone); ("pn_amplitude_order", VNum 0)].
Definition gw_update (d e : dict val) : dict val := fold_left (fun d kv => dset d (fst kv) (snd kv)) e d.
(** 100-107 *)
Definition reviewed := ["SEOBNRv5HM"; "SEOBNRv5PHM"; "IMRPhenomXPHM"].
(** 114-125; the SpinTaylor branch is unreachable for the approximants above *)
Definition start_frequency (lo pn : R) : res R :=
  if Req_EM_T pn 0 then Ok lo
  else let pn := if Req_EM_T pn (-1) then 6 else pn in
       if Req_EM_T (pn + 2) 0 then Raise ZeroDivisionError else Ok (lo * 2 / (pn + 2)).
(** 181-197 *)
Definition own_keys := ["waveform_approximant"; "reference_frequency"; "minimum_frequency"; "maximum_frequency"; "catch_waveform_errors"; "mode_array";
  "pn_spin_order"; "pn_amplitude_order"; "pn_tidal_order"; "pn_phase_order"; "numerical_relativity_file"].
Definition extra_args (kw : dict val) : dict val := fold_left (fun d k => ddel d k) own_keys kw.
(** 208-212: [sub in s] *)
Definition contains (sub s : string) : bool := match index 0 sub s with Some _ => true | None => false end.
(** 202-229 *)
Definition gw_failure {X} (catch : bool) (args : list string) : res (option X) :=
  if negb catch then Raise (LalError args)
  else match args with [] => Raise IndexError | a :: _ => if contains "Input domain error" a then Ok None else Raise (LalError args) end.

Section Gwsignal.
Variable transform : R -> R -> R -> R -> R -> R -> R -> R -> R -> R -> R -> spins.
(** wf_gen.metadata["implemented_domain"] == 'time' *)
Variable time_domain : string -> bool.
(** GenerateFDWaveform *)
Variable generate : string -> dict val -> answer (series * series).
Variable solar_mass : R.

(** 150-177: the astropy units are those of the names *)
Definition gw_dict (b : binary) (s : spins) (df start hi fref : R) (condition : bool) : dict val :=
  let '(iota, (x1, y1, z1), (x2, y2, z2)) := s in
  [("mass1", VNum (mass_1 b)); ("mass2", VNum (mass_2 b)); ("spin1x", VNum x1); ("spin1y", VNum y1); ("spin1z", VNum z1); ("spin2x", VNum x2); ("spin2y", VNum y2); ("spin2z", VNum z2);
   ("deltaF", VNum df); ("f22_start", VNum start); ("f_max", VNum hi); ("f22_ref", VNum fref); ("phi_ref", VNum (phase b)); ("distance", VNum (distance b)); ("inclination", VNum iota);
   ("eccentricity", VNum 0); ("longAscNodes", VNum 0); ("meanPerAno", VNum 0); ("condition", VNum (if condition then 1 else 0))].
(** 19-252 *)
Definition gwsignal (fs : list R) (b : binary) (kwargs : dict val) : res (option waves) :=
  match fs with
  | [] => Raise IndexError
  | f0 :: rest =>
      let kw := gw_update (gw_defaults (last fs 0)) kwargs in
      let get k := match dget kw k with Some v => v | None => VNone end in
      let! approx := match get "waveform_approximant" with VText a => Ok a | _ => Raise ValueError end in
      if negb (existsb (String.eqb approx) reviewed) then Raise ValueError else
      let! fref := as_num (get "reference_frequency") in
      let! lo := as_num (get "minimum_frequency") in
      let! hi := as_num (get "maximum_frequency") in
      let! pn := as_num (get "pn_amplitude_order") in
      let! start := start_frequency lo pn in
      match rest with
      | [] => Raise IndexError
      | f1 :: _ =>
          let condition := time_domain approx in
          let s := to_spins transform b (mass_1 b * solar_mass) (mass_2 b * solar_mass) fref in
          let d := gw_dict b s (f1 - f0) start hi fref condition in
          let d := match get "mode_array" with VNone => d | m => dset d "ModeArray" m end in
          let d := gw_update d (extra_args kw) in
          match generate approx d with
          | Fails args => gw_failure (truthy (get "catch_waveform_errors")) args
          | Gives (hp, hc) =>
              let n := length fs in
              let longer := (n <? length (data hp))%nat in
              let! p := fit n longer (data hp) in
              let! c := fit n longer (data hc) in
              let p := mask lo hi fs p in
              let c := mask lo hi fs c in
              if condition then
                if Req_EM_T (delta_f hp) 0 then Raise ZeroDivisionError
                else let dt := 1 / delta_f hp + epoch hp in Ok (Some (shift_all lo hi dt fs p, shift_all lo hi dt fs c))
              else Ok (Some (p, c))
          end
      end
  end.
End Gwsignal.
