(** * Completion of parameter dictionaries
    Model of /repo/bilby/gw/conversion.py 181-282, 1823-2046, 2049-2150, 2183-2207, for one sample.
    A stored number is [Some x], or [None] where the code stores nan or an infinity (see PyReal.v).
    Reading a missing key is the value [KeyErr]. Cosmology and the lalsimulation spin transformation are
    arbitrary functions. *)
From Coq Require Import Reals String List Bool Arith.
From Verif Require Import PyReal PyDict GwMass_Model.
Import ListNotations.
Open Scope R_scope. Open Scope string_scope. Open Scope list_scope.

Definition num := option R.
Definition sample := dict num.
Inductive res (A : Type) := Ok (a : A) | KeyErr.
Arguments Ok {A}. Arguments KeyErr {A}.
Definition bindr {A B} (x : res A) (f : A -> res B) : res B := match x with Ok a => f a | KeyErr => KeyErr end.
Notation "'do' x := e 'in' k" := (bindr e (fun x => k)) (at level 200, x pattern, e at level 100, k at level 200, right associativity).
(** [s[k]] *)
Definition get (s : sample) (k : string) : res num := match dget s k with Some v => Ok v | None => KeyErr end.
(** arithmetic on stored numbers: nan stays nan *)
Definition lift1 (f : R -> option R) (x : num) : num := bindo x f.
Definition lift2 {A} (f : R -> R -> option A) (x y : num) : option A := bindo x (fun a => bindo y (fun b => f a b)).

(** Names, conversion.py 1860-1869. *)
Definition m1k (source : bool) := if source then "mass_1_source" else "mass_1".
Definition m2k (source : bool) := if source then "mass_2_source" else "mass_2".
Definition tk (source : bool) := if source then "total_mass_source" else "total_mass".
Definition ck (source : bool) := if source then "chirp_mass_source" else "chirp_mass".
Definition qk := "mass_ratio".
Definition ek := "symmetric_mass_ratio".

(** check_and_return_quietly, conversion.py 1853-1857. *)
Definition quietly (require_add : bool) (s : sample) : res sample := if require_add then KeyErr else Ok s.
(** the mass ratio filled in from the symmetric mass ratio, conversion.py 1883-1886, 1912-1915, 1936-1939, 1957-1960 *)
Definition add_q (s : sample) : res sample := do e := get s ek in Ok (dset s qk (lift1 symmetric_mass_ratio_to_mass_ratio e)).
(** generate_component_masses, conversion.py 1823-1982. *)
Definition generate_component_masses (require_add source : bool) (s : sample) : res sample :=
  let k1 := m1k source in let k2 := m2k source in let kt := tk source in let kc := ck source in
  if dmem s k1 then
    if dmem s k2 then Ok s
    else if dmem s kt then
      (do t := get s kt in do a := get s k1 in Ok (dset s k2 (lift2 (fun x y => Some (x - y)) t a)))
    else
      let finish o := do q := get o qk in do a := get o k1 in Ok (dset o k2 (lift2 (fun x y => Some (x * y)) q a)) in
      if dmem s qk then finish s
      else if dmem s ek then (do o := add_q s in finish o)
      else if dmem s kc then
        (do a := get s k1 in do c := get s kc in finish (dset s qk (lift2 mass_1_and_chirp_mass_to_mass_ratio a c)))
      else quietly require_add s
  else if dmem s k2 then
    if dmem s kt then
      (do t := get s kt in do b := get s k2 in Ok (dset s k1 (lift2 (fun x y => Some (x - y)) t b)))
    else
      let finish o := do q := get o qk in do b := get o k2 in
        Ok (dset o k1 (lift2 (fun x y => let* i := pdiv 1 x in Some (i * y)) q b)) in
      if dmem s qk then finish s
      else if dmem s ek then (do o := add_q s in finish o)
      else if dmem s kc then
        (do b := get s k2 in do c := get s kc in finish (dset s qk (lift2 mass_2_and_chirp_mass_to_mass_ratio b c)))
      else (do _ := quietly require_add s in finish s)       (* 1923: the return is missing *)
  else
    let finish o :=
      if (negb (dmem o kt) || negb (dmem o qk))%bool then quietly require_add s
      else do t := get o kt in do q := get o qk in
           let p := lift2 total_mass_and_mass_ratio_to_component_masses t q in
           Ok (dset (dset o k1 (option_map fst p)) k2 (option_map snd p)) in
    if dmem s kt then
      if dmem s qk then finish s
      else if dmem s ek then (do o := add_q s in finish o)
      else if dmem s kc then
        (do c := get s kc in do t := get s kt in
         let o := dset s ek (lift2 chirp_mass_and_total_mass_to_symmetric_mass_ratio c t) in
         do o := add_q o in finish o)
      else quietly require_add s
    else if dmem s kc then
      let total o := do c := get o kc in do q := get o qk in finish (dset o kt (lift2 chirp_mass_and_mass_ratio_to_total_mass c q)) in
      if dmem s qk then total s
      else if dmem s ek then (do o := add_q s in total o)
      else quietly require_add s
    else finish s.

(** one of the four conditional additions, conversion.py 2025-2044 *)
Definition add_missing (k : string) (f : R -> R -> option R) (k1 k2 : string) (o : sample) : res sample :=
  if dmem o k then Ok o else do a := get o k1 in do b := get o k2 in Ok (dset o k (lift2 f a b)).
(** generate_mass_parameters, conversion.py 1985-2046. *)
Definition generate_mass_parameters (source : bool) (s : sample) : res sample :=
  do o := generate_component_masses false source s in
  do o := add_missing (ck source) component_masses_to_chirp_mass (m1k source) (m2k source) o in
  do o := add_missing (tk source) component_masses_to_total_mass (m1k source) (m2k source) o in
  do o := add_missing ek component_masses_to_symmetric_mass_ratio (m1k source) (m2k source) o in
  add_missing qk component_masses_to_mass_ratio (m1k source) (m2k source) o.

Section Cosmology.
(** redshift_to_luminosity_distance, luminosity_distance_to_redshift, redshift_to_comoving_distance,
    comoving_distance_to_luminosity_distance (conversion.py 37-72) *)
Variables z_to_dl dl_to_z z_to_dc dc_to_dl : R -> option R.

(** [key[:-7]] if [key[-7:] == '_source'], conversion.py 220, 225. *)
Fixpoint strip_source (k : string) : option string :=
  if String.eqb k "_source" then Some ""
  else match k with EmptyString => None | String c r => option_map (String c) (strip_source r) end.
(** conversion.py 210-217 *)
Definition add_distance (s : sample) : res sample :=
  if dmem s "luminosity_distance" then Ok s
  else if dmem s "redshift" then (do z := get s "redshift" in Ok (dset s "luminosity_distance" (lift1 z_to_dl z)))
  else if dmem s "comoving_distance" then (do d := get s "comoving_distance" in Ok (dset s "luminosity_distance" (lift1 dc_to_dl d)))
  else Ok s.
(** one turn of the loop conversion.py 219-226; [orig] is the caller's dictionary *)
Definition source_step (orig : sample) (r : res sample) (key : string) : res sample :=
  do o := r in
  match strip_source key with
  | None => Ok o
  | Some base =>
      do o := (if dmem o "redshift" then Ok o
               else do d := get orig "luminosity_distance" in Ok (dset o "redshift" (lift1 dl_to_z d))) in
      do v := get o key in do z := get o "redshift" in
      Ok (dset o base (lift2 (fun x y => Some (x * (1 + y))) v z))
  end.
Definition rsign (x : R) : R := if Rlt_dec 0 x then 1 else if Rlt_dec x 0 then -1 else 0.
(** conversion.py 231-260 for one [idx]; [npfloat] tells numpy scalars from python floats: a nonzero
    numerator over zero is an infinity for the former and caught (254) for the latter *)
Definition spin_step (npfloat : bool) (orig : sample) (chi chi_in a ct : string) (o : sample) : res sample :=
  if dmem orig chi then
    if dmem orig chi_in then
      do x := get o chi in do y := get o chi_in in
      let av := lift2 (fun x y => psqrt (x ^ 2 + y ^ 2)) x y in
      Ok (dset (dset o a av) ct (lift2 pdiv x av))
    else if negb (dmem orig a) then
      do x := get o chi in Ok (dset (dset o a (lift1 (fun x => Some (Rabs x)) x)) ct (lift1 (fun x => Some (rsign x)) x))
    else
      do x := get o chi in do av := get o a in
      Ok (dset o ct (lift2 (fun x y => if Req_EM_T y 0 then (if Req_EM_T x 0 then Some 1 else if npfloat then None else Some 1) else Some (x / y)) x av))
  else Ok o.
(** conversion.py 262-264 *)
Definition default0 (o : sample) (k : string) : sample := if dmem o k then o else dset o k (Some 0).
(** conversion.py 266-270 *)
Definition angle_step (r : res sample) (angle : string) : res sample :=
  do o := r in
  let c := String.append "cos_" angle in
  if dmem o c then (do v := get o c in Ok (dset o angle (lift1 pacos v))) else Ok o.
(** conversion.py 272-278 *)
Definition phase_step (orig o : sample) : res sample :=
  if dmem orig "delta_phase" then
    do d := get o "delta_phase" in do t := get o "theta_jn" in do p := get o "psi" in
    Ok (dset o "phase" (let* d := d in let* t := t in let* p := p in Some (rmod (d - rsign (cos t) * p) (2 * PI))))
  else Ok o.
(** convert_to_lal_binary_black_hole_parameters, conversion.py 181-282. *)
Definition convert_to_lal_bbh (npfloat : bool) (s : sample) : res (sample * list string) :=
  do o := add_distance s in
  do o := fold_left (source_step s) (dkeys s) (Ok o) in
  do o := generate_component_masses false false o in
  do o := spin_step npfloat s "chi_1" "chi_1_in_plane" "a_1" "cos_tilt_1" o in
  do o := spin_step npfloat s "chi_2" "chi_2_in_plane" "a_2" "cos_tilt_2" o in
  let o := fold_left default0 ["phi_jl"; "phi_12"] o in
  do o := fold_left angle_step ["tilt_1"; "tilt_2"; "theta_jn"] (Ok o) in
  do o := phase_step s o in
  Ok (o, filter (fun k => negb (dmem s k)) (dkeys o)).

(** generate_source_frame_parameters, conversion.py 2183-2207. *)
Definition source_key_step (o : sample) (k : string) : sample :=
  match dget o k, dget o "redshift" with
  | Some v, Some z => dset o (String.append k "_source") (lift2 (fun x y => pdiv x (1 + y)) v z)
  | _, _ => o
  end.
Definition generate_source_frame_parameters (s : sample) : res sample :=
  do d := get s "luminosity_distance" in
  let o := dset s "redshift" (lift1 dl_to_z d) in
  do z := get o "redshift" in
  let o := dset o "comoving_distance" (lift1 z_to_dc z) in
  Ok (fold_left source_key_step ["mass_1"; "mass_2"; "chirp_mass"; "total_mass"] o).
End Cosmology.

(** The column version of conversion.py 249-260, when the parameters are arrays: one invalid operation (0/0) in
    the column raises, and the whole column is replaced. *)
Definition cos_tilt_column (chis aa : list R) : list num :=
  if existsb (fun p => if Req_EM_T (fst p) 0 then (if Req_EM_T (snd p) 0 then true else false) else false) (combine chis aa)
  then map (fun _ => Some 1) (combine chis aa)
  else map (fun p => pdiv (fst p) (snd p)) (combine chis aa).

(** The four-quadrant arctangent of numpy (signed zeros not distinguished). *)
Definition atan2 (y x : R) : R :=
  if Rlt_dec 0 x then atan (y / x)
  else if Rlt_dec x 0 then (if Rle_dec 0 y then atan (y / x) + PI else atan (y / x) - PI)
  else if Rlt_dec 0 y then PI / 2 else if Rlt_dec y 0 then - (PI / 2) else 0.
Section Spins.
(** lalsimulation.SimInspiralTransformPrecessingNewInitialConditions as a function of the eleven numbers *)
Variable lal : list R -> R * (R * R * R) * (R * R * R).
Variable solar_mass : R.
(** bilby_to_lalsimulation_spins, conversion.py 145-165; result iota, spin_1, spin_2 *)
Definition bilby_to_lalsimulation_spins (theta_jn phi_jl tilt_1 tilt_2 phi_12 a_1 a_2 mass_1 mass_2 reference_frequency phase : R)
    : R * (R * R * R) * (R * R * R) :=
  let still a t := if Req_EM_T a 0 then true else if Req_EM_T t 0 then true else if Req_EM_T t PI then true else false in
  if (still a_1 tilt_1 && still a_2 tilt_2)%bool
  then (theta_jn, (0, 0, a_1 * cos tilt_1), (0, 0, a_2 * cos tilt_2))
  else lal [theta_jn; phi_jl; tilt_1; tilt_2; phi_12; a_1; a_2; mass_1; mass_2; reference_frequency; phase].
(** conversion.py 2115-2117 *)
Definition spin_conversion_parameters :=
  ["theta_jn"; "phi_jl"; "tilt_1"; "tilt_2"; "phi_12"; "a_1"; "a_2"; "mass_1"; "mass_2"; "reference_frequency"; "phase"].
Fixpoint numbers (s : sample) (ks : list string) : option (list R) :=
  match ks with
  | [] => Some []
  | k :: r => match dget s k with Some (Some x) => option_map (cons x) (numbers s r) | _ => None end
  end.
Definition dsets (s : sample) (kv : list (string * num)) : sample := fold_left (fun o p => dset o (fst p) (snd p)) kv s.
(** conversion.py 2133-2138: the argument of fmod is positive, where fmod and mod agree *)
Definition azimuth (y x : R) : R := rmod (2 * PI + atan2 y x) (2 * PI).
(** generate_component_spins, conversion.py 2097-2150. Where one of the inputs is nan, all results are taken as nan. *)
Definition generate_component_spins (s : sample) : sample :=
  if forallb (dmem s) spin_conversion_parameters then
    match numbers s spin_conversion_parameters with
    | Some [tj; pj; t1; t2; p12; a1; a2; m1; m2; f; ph] =>
        let '(iota, (x1, y1, z1), (x2, y2, z2)) :=
          bilby_to_lalsimulation_spins tj pj t1 t2 p12 a1 a2 (m1 * solar_mass) (m2 * solar_mass) f ph in
        dsets s [("iota", Some iota); ("spin_1x", Some x1); ("spin_1y", Some y1); ("spin_1z", Some z1); ("spin_2x", Some x2);
                 ("spin_2y", Some y2); ("spin_2z", Some z2); ("phi_1", Some (azimuth y1 x1)); ("phi_2", Some (azimuth y2 x2))]
    | _ => dsets s [("iota", None); ("spin_1x", None); ("spin_1y", None); ("spin_1z", None); ("spin_2x", None);
                    ("spin_2y", None); ("spin_2z", None); ("phi_1", None); ("phi_2", None)]
    end
  else match dget s "chi_1", dget s "chi_2" with
  | Some c1, Some c2 => dsets s [("spin_1x", Some 0); ("spin_1y", Some 0); ("spin_1z", c1); ("spin_2x", Some 0); ("spin_2y", Some 0); ("spin_2z", c2)]
  | _, _ => s
  end.
(** chi_eff, in-plane spin and chi_p, conversion.py 2070-2086 *)
Definition chi_eff (s1z s2z q : R) : num := pdiv (s1z + s2z * q) (1 + q).
Definition in_plane (sx sy : R) : num := psqrt (sx ^ 2 + sy ^ 2).
Definition chi_p (c1 c2 q : R) : num := let* f := pdiv (4 * q + 3) (3 * q + 4) in Some (Rmax c1 (f * q * c2)).
(** generate_spin_parameters, conversion.py 2049-2094. *)
Definition generate_spin_parameters (s : sample) : res sample :=
  let o := generate_component_spins s in
  do z1 := get o "spin_1z" in do z2 := get o "spin_2z" in do q := get o "mass_ratio" in
  let o := dset o "chi_eff" (let* a := z1 in let* b := z2 in let* q := q in chi_eff a b q) in
  do x1 := get o "spin_1x" in do y1 := get o "spin_1y" in
  let o := dset o "chi_1_in_plane" (lift2 in_plane x1 y1) in
  do x2 := get o "spin_2x" in do y2 := get o "spin_2y" in
  let o := dset o "chi_2_in_plane" (lift2 in_plane x2 y2) in
  do c1 := get o "chi_1_in_plane" in do c2 := get o "chi_2_in_plane" in do q := get o "mass_ratio" in
  let o := dset o "chi_p" (let* a := c1 in let* b := c2 in let* q := q in chi_p a b q) in
  match dget o "tilt_1" with
  | None => Ok o
  | Some t1 =>
      let o := dset o "cos_tilt_1" (lift1 (fun x => Some (cos x)) t1) in
      match dget o "tilt_2" with
      | None => Ok o
      | Some t2 => Ok (dset o "cos_tilt_2" (lift1 (fun x => Some (cos x)) t2))
      end
  end.
End Spins.
