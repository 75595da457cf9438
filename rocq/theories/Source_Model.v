(** Source models of gw/source.py: the binary waveforms around lalsimulation, the reduced-order-quadrature and relative-binning
    variants, and the burst models.  lalsimulation itself is a parameter: functions that return data or an error. *)
From Coq Require Import String Ascii ZArith Lia Reals Lra List Bool.
From Coquelicot Require Import Coquelicot.
From Verif Require Import PyDict PyReal.
Import ListNotations.
Open Scope string_scope.
Open Scope list_scope.
Open Scope R_scope.

(** Values of keyword arguments.  [VLal]: a lal.Dict; [VModes]: a list of modes, each a list of integers. *)
Inductive val := VNum (x : R) | VText (s : string) | VFlag (b : bool) | VNone | VArr (a : list R) | VIdx (a : list nat)
  | VModes (m : list (list Z)) | VLal (d : list (string * val)).
Inductive exn := KeyError (k : string) | TypeError | IndexError | ValueError | ZeroDivisionError | LalError (args : list string).
Inductive res (X : Type) := Ok (x : X) | Raise (e : exn).
Arguments Ok {X} x. Arguments Raise {X} e.
Definition bind {X Y} (a : res X) (f : X -> res Y) : res Y := match a with Ok x => f x | Raise e => Raise e end.
Notation "'let!' x := a 'in' b" := (bind a (fun x => b)) (at level 200, x pattern, a at level 100, b at level 200).

(** dict.pop with and without a default *)
Definition pop_default (d : dict val) (k : string) (v : val) : val * dict val := match dget d k with Some x => (x, ddel d k) | None => (v, d) end.
Definition pop (d : dict val) (k : string) : res (val * dict val) := match dget d k with Some x => Ok (x, ddel d k) | None => Raise (KeyError k) end.
Definition as_num (v : val) : res R := match v with VNum x => Ok x | _ => Raise TypeError end.
Definition as_text (v : val) : res string := match v with VText s => Ok s | _ => Raise TypeError end.
Definition as_arr (v : val) : res (list R) := match v with VArr a => Ok a | _ => Raise TypeError end.
Definition as_idx (v : val) : res (list nat) := match v with VIdx a => Ok a | _ => Raise TypeError end.
(** truth value of a flag *)
Definition truthy (v : val) : bool := match v with VFlag b => b | VNone => false | VNum x => if Req_EM_T x 0 then false else true | _ => true end.

(** ** Message with unused arguments, source.py 11-16: a template with one named field *)
Inductive piece := Lit (s : string) | Field (name : string).
Definition unused_message : list piece := [Lit "There are unused waveform kwargs. ... Unused waveform_kwargs: "; Field "waveform_kwargs"; Lit ""].
(** str.format: a named field is looked up among the keyword arguments only *)
Fixpoint format (t : list piece) (named : list (string * string)) : res string :=
  match t with
  | [] => Ok ""
  | Lit s :: t' => let! r := format t' named in Ok (String.append s r)
  | Field n :: t' => match find (fun p => String.eqb (fst p) n) named with
                     | Some p => let! r := format t' named in Ok (String.append (snd p) r)
                     | None => Raise (KeyError n)
                     end
  end.
(** 671-672 and 1130-1131: the dictionary is passed by position *)
Definition report_unused (kw : dict val) : res unit := match kw with [] => Ok tt | _ => let! _ := format unused_message [] in Ok tt end.

(** ** Names of the post-Newtonian orders, 517: [key[:2].upper() + key[3:].title().replace('_', '')] *)
Definition is_lower (c : ascii) : bool := let n := nat_of_ascii c in (97 <=? n)%nat && (n <=? 122)%nat.
Definition is_upper (c : ascii) : bool := let n := nat_of_ascii c in (65 <=? n)%nat && (n <=? 90)%nat.
Definition to_upper (c : ascii) : ascii := if is_lower c then ascii_of_nat (nat_of_ascii c - 32) else c.
Definition to_lower (c : ascii) : ascii := if is_upper c then ascii_of_nat (nat_of_ascii c + 32) else c.
Fixpoint upper (s : string) : string := match s with EmptyString => EmptyString | String c t => String (to_upper c) (upper t) end.
(** str.title: a letter that follows a letter is lowered, another letter is raised *)
Fixpoint title_from (inside : bool) (s : string) : string :=
  match s with
  | EmptyString => EmptyString
  | String c t => if is_lower c || is_upper c then String (if inside then to_lower c else to_upper c) (title_from true t) else String c (title_from false t)
  end.
Fixpoint without_underscores (s : string) : string :=
  match s with EmptyString => EmptyString | String c t => if Ascii.eqb c "_" then without_underscores t else String c (without_underscores t) end.
Definition lal_name (key : string) : string :=
  String.append (upper (substring 0 2 key)) (without_underscores (title_from false (substring 3 (String.length key - 3) key))).
Definition pn_keys := ["pn_spin_order"; "pn_tidal_order"; "pn_phase_order"; "pn_amplitude_order"].

(** ** Physical parameters of a binary *)
Record binary := mkBinary { mass_1 : R; mass_2 : R; distance : R; theta_jn : R; phase : R; a_1 : R; a_2 : R; tilt_1 : R; tilt_2 : R;
  phi_12 : R; phi_jl : R; lambda_1 : R; lambda_2 : R; eccentricity : R }.
Definition spins := (R * (R * R * R) * (R * R * R))%type.
(** what is handed to lalsimulation (SI units), 622-627 and 1108-1111 *)
Record system := mkSystem { s_m1 : R; s_m2 : R; s_spins : spins; s_distance : R; s_phase : R; s_fref : R; s_dict : dict val; s_approx : string }.
Record grid := mkGrid { g_nodes : R; g_ecc : R; g_anomaly : R; g_df : R; g_start : R; g_max : R }.
(** a frequency series of lal: the values, deltaF and the epoch *)
Record series := mkSeries { data : list C; delta_f : R; epoch : R }.
Inductive answer (X : Type) := Gives (x : X) | Fails (args : list string).
Arguments Gives {X} x. Arguments Fails {X} args.
Definition domain_error := "Internal function call failed: Input domain error".
Definition waves := (list C * list C)%type.

Section Lal.
(** SimInspiralWaveformParamsInsert<key> exists *)
Variable inserts : string -> bool.
(** GetApproximantFromString: the text is known *)
Variable known : string -> bool.
(** SimInspiralImplementedFDApproximants *)
Variable fd_implemented : string -> bool.
(** SimInspiralfLow2fStart *)
Variable low_to_start : R -> R -> string -> R.
(** SimInspiralTransformPrecessingNewInitialConditions *)
Variable transform : R -> R -> R -> R -> R -> R -> R -> R -> R -> R -> R -> spins.
(** SimInspiralChooseFDWaveform, SimInspiralFD, SimInspiralChooseFDWaveformSequence *)
Variable choose_fd sim_fd : system -> grid -> answer (series * series).
Variable choose_sequence : system -> list R -> answer waves.
Variables parsec solar_mass : R.

(** *** set_waveform_dictionary, 488-533.  Returns the keyword arguments left over and the lal dictionary. *)
(** 514-517 *)
Fixpoint rename (keys : list string) (kw : dict val) : res (dict val) :=
  match keys with [] => Ok kw | k :: t => let! (v, kw') := pop kw k in rename t (dset kw' (lal_name k) v) end.
(** one turn of the loop 519-525 *)
Definition insert_step (st : dict val * dict val) (k : string) : dict val * dict val :=
  let (kw, lal) := st in
  if inserts k then
    match dget kw k with
    | Some VNone => (ddel kw k, lal)
    | Some v => (ddel kw k, dset lal k v)
    | None => (kw, lal)
    end
  else (kw, lal).
(** 529-532: every mode needs two entries *)
Fixpoint activate (modes : list (list Z)) : res (list (list Z)) :=
  match modes with
  | [] => Ok []
  | (l :: m :: _) :: t => let! r := activate t in Ok ([l; m] :: r)
  | _ :: _ => Raise IndexError
  end.
Definition add_modes (kw lal : dict val) : res (dict val * dict val) :=
  let (v, kw') := pop_default kw "mode_array" VNone in
  match v with
  | VNone => Ok (kw', lal)
  | VModes m => let! a := activate m in Ok (kw', dset lal "ModeArray" (VModes a))
  | _ => Raise TypeError
  end.
Definition set_waveform_dictionary (kw : dict val) (l1 l2 : R) : res (dict val * dict val) :=
  let (w, kw0) := pop_default kw "lal_waveform_dictionary" (VLal []) in
  match w with
  | VLal lal =>
      let kw1 := dset (dset kw0 "TidalLambda1" (VNum l1)) "TidalLambda2" (VNum l2) in
      let (nr, kw2) := pop_default kw1 "numerical_relativity_data" VNone in
      let! kw3 := rename pn_keys (dset kw2 "NumRelData" nr) in
      let (kw4, lal') := fold_left insert_step (dkeys kw3) (kw3, lal) in
      add_modes kw4 lal'
  | _ => Raise TypeError
  end.

(** *** bilby_to_lalsimulation_spins, gw/conversion.py 105-165, for numbers *)
Definition aligned (a t : R) : bool := if Req_EM_T a 0 then true else if Req_EM_T t 0 then true else if Req_EM_T t PI then true else false.
Definition to_spins (b : binary) (m1 m2 fref : R) : spins :=
  if aligned (a_1 b) (tilt_1 b) && aligned (a_2 b) (tilt_2 b)
  then (theta_jn b, (0, 0, a_1 b * cos (tilt_1 b)), (0, 0, a_2 b * cos (tilt_2 b)))
  else transform (theta_jn b) (phi_jl b) (tilt_1 b) (tilt_2 b) (phi_12 b) (a_1 b) (a_2 b) m1 m2 fref (phase b).

Definition make_system (b : binary) (fref : R) (lal : dict val) (approx : string) : system :=
  let m1 := mass_1 b * solar_mass in
  let m2 := mass_2 b * solar_mass in
  mkSystem m1 m2 (to_spins b m1 m2 fref) (distance b * 1e6 * parsec) (phase b) fref lal approx.

(** 628-646 and 1112-1128: [None] stands for a likelihood of minus infinity *)
Definition on_failure {X} (catch : bool) (args : list string) : res (option X) :=
  if negb catch then Raise (LalError args)
  else match args with
       | [] => Raise IndexError
       | a :: _ => if String.eqb a domain_error then Ok None else Raise (LalError args)
       end.

(** 648-663: the array put on the frequency grid; [zeros] pads, a longer array is cut *)
Definition fit (n : nat) (longer : bool) (d : list C) : res (list C) :=
  if longer then (if (n <=? length d)%nat then Ok (firstn n d) else Raise ValueError)
  else if (length d <=? n)%nat then Ok (d ++ repeat (RtoC 0) (n - length d)) else Raise ValueError.
Definition in_bounds (lo hi f : R) : bool := (if Rle_dec lo f then true else false) && (if Rle_dec f hi then true else false).
Definition mask (lo hi : R) (fs : list R) (h : list C) : list C :=
  map (fun p => if in_bounds lo hi (fst p) then snd p else RtoC 0) (combine fs h).
(** e^{-2 pi i dt f}, 667 *)
Definition shift (dt f : R) : C := (cos (2 * PI * dt * f), - sin (2 * PI * dt * f)).
Definition shift_all (lo hi dt : R) (fs : list R) (h : list C) : list C :=
  map (fun p => if in_bounds lo hi (fst p) then Cmult (snd p) (shift dt (fst p)) else snd p) (combine fs h).

(** *** Binding of keyword arguments to the named parameters, 536-539 and 1051-1054: a name that the caller also passes
    explicitly ([given]) is a TypeError; the other optional parameters are taken from the keyword arguments *)
Definition required := ["frequency_array"; "mass_1"; "mass_2"; "luminosity_distance"; "theta_jn"; "phase"].
Definition spin_names := ["a_1"; "a_2"; "tilt_1"; "tilt_2"; "phi_12"; "phi_jl"].
Definition tidal_names := ["lambda_1"; "lambda_2"].
Definition optional := spin_names ++ tidal_names ++ ["eccentricity"].
Definition clash (given : list string) (kw : dict val) : bool := existsb (dmem kw) (required ++ given).
Definition set_field (b : binary) (name : string) (x : R) : binary :=
  let is s := String.eqb name s in
  mkBinary (mass_1 b) (mass_2 b) (distance b) (theta_jn b) (phase b)
    (if is "a_1" then x else a_1 b) (if is "a_2" then x else a_2 b) (if is "tilt_1" then x else tilt_1 b) (if is "tilt_2" then x else tilt_2 b)
    (if is "phi_12" then x else phi_12 b) (if is "phi_jl" then x else phi_jl b) (if is "lambda_1" then x else lambda_1 b)
    (if is "lambda_2" then x else lambda_2 b) (if is "eccentricity" then x else eccentricity b).
Fixpoint read_optional (names : list string) (b : binary) (kw : dict val) : res (binary * dict val) :=
  match names with
  | [] => Ok (b, kw)
  | k :: t => match dget kw k with None => read_optional t b kw | Some v => let! x := as_num v in read_optional t (set_field b k x) (ddel kw k) end
  end.

(** *** _base_lal_cbc_fd_waveform, 536-674 *)
Definition base_waveform (given : list string) (fs : list R) (b : binary) (kw : dict val) : res (option waves) :=
  if clash given kw then Raise TypeError else
  let! (b, kw) := read_optional optional b kw in
  let! (av, kw) := pop kw "waveform_approximant" in
  let! (rv, kw) := pop kw "reference_frequency" in
  let! (lov, kw) := pop kw "minimum_frequency" in
  let! (hiv, kw) := pop kw "maximum_frequency" in
  let! (cv, kw) := pop kw "catch_waveform_errors" in
  let! pv := match dget kw "pn_amplitude_order" with Some v => Ok v | None => Raise (KeyError "pn_amplitude_order") end in
  let! (kw, lal) := set_waveform_dictionary kw (lambda_1 b) (lambda_2 b) in
  let! approx := as_text av in
  let! fref := as_num rv in
  let! lo := as_num lov in
  let! hi := as_num hiv in
  let! pn := as_num pv in
  if negb (known approx) then Raise ValueError else
  let start := if Req_EM_T pn 0 then lo else low_to_start lo pn approx in
  match fs with
  | f0 :: f1 :: _ =>
      let sys := make_system b fref lal approx in
      let g := mkGrid 0 (eccentricity b) 0 (f1 - f0) start hi in
      let fd := fd_implemented approx in
      match (if fd then choose_fd else sim_fd) sys g with
      | Fails args => on_failure (truthy cv) args
      | Gives (hp, hc) =>
          let n := length fs in
          let longer := (n <? length (data hp))%nat in
          let! p := fit n longer (data hp) in
          let! c := fit n longer (data hc) in
          let p := mask lo hi fs p in
          let c := mask lo hi fs c in
          let! (p, c) := (if fd then Ok (p, c)
                          else if Req_EM_T (delta_f hp) 0 then Raise ZeroDivisionError
                          else let dt := 1 / delta_f hp + epoch hp in Ok (shift_all lo hi dt fs p, shift_all lo hi dt fs c)) in
          let! _ := report_unused kw in
          Ok (Some (p, c))
      end
  | _ => Raise IndexError
  end.

(** *** _base_waveform_frequency_sequence, 1051-1133 *)
Definition base_sequence (b : binary) (kw : dict val) : res (option waves) :=
  if clash (spin_names ++ tidal_names) kw then Raise TypeError else
  let! (fv, kw) := pop kw "frequencies" in
  let! (rv, kw) := pop kw "reference_frequency" in
  let! (av, kw) := pop kw "waveform_approximant" in
  let! (cv, kw) := pop kw "catch_waveform_errors" in
  let! (kw, lal) := set_waveform_dictionary kw (lambda_1 b) (lambda_2 b) in
  let! approx := as_text av in
  let! fref := as_num rv in
  let! freqs := as_arr fv in
  if negb (known approx) then Raise ValueError else
  match choose_sequence (make_system b fref lal approx) freqs with
  | Fails args => on_failure (truthy cv) args
  | Gives (p, c) => let! _ := report_unused kw in Ok (Some (p, c))
  end.

(** dict.update *)
Definition update (d k : dict val) : dict val := fold_left (fun acc p => dset acc (fst p) (snd p)) k d.
Definition last_frequency (fs : list R) : res R := match fs with [] => Raise IndexError | _ => Ok (last fs 0) end.
Definition common (approx : string) (fref : R) : dict val := [("waveform_approximant", VText approx); ("reference_frequency", VNum fref)].
Definition orders : dict val :=
  [("catch_waveform_errors", VFlag false); ("pn_spin_order", VNum (-1)); ("pn_tidal_order", VNum (-1)); ("pn_phase_order", VNum (-1)); ("pn_amplitude_order", VNum 0)].
Definition fd_defaults (approx : string) (fref fmin fmax : R) : dict val :=
  common approx fref ++ [("minimum_frequency", VNum fmin); ("maximum_frequency", VNum fmax)] ++ orders.
Definition seq_defaults (approx : string) (fref : R) : dict val := common approx fref ++ orders.

(** the parameters a source model does not take are zero, 536-539 and the calls *)
Definition no_tides (b : binary) : binary :=
  mkBinary (mass_1 b) (mass_2 b) (distance b) (theta_jn b) (phase b) (a_1 b) (a_2 b) (tilt_1 b) (tilt_2 b) (phi_12 b) (phi_jl b) 0 0 0.
Definition tides (b : binary) : binary :=
  mkBinary (mass_1 b) (mass_2 b) (distance b) (theta_jn b) (phase b) (a_1 b) (a_2 b) (tilt_1 b) (tilt_2 b) (phi_12 b) (phi_jl b) (lambda_1 b) (lambda_2 b) 0.
Definition no_spins (b : binary) : binary :=
  mkBinary (mass_1 b) (mass_2 b) (distance b) (theta_jn b) (phase b) 0 0 0 0 0 0 0 0 (eccentricity b).

(** 324-334, 408-418, 476-485 *)
Definition lal_binary_black_hole (fs : list R) (b : binary) (kw : dict val) : res (option waves) :=
  let! fmax := last_frequency fs in base_waveform spin_names fs (no_tides b) (update (fd_defaults "IMRPhenomPv2" 50 20 fmax) kw).
Definition lal_binary_neutron_star (fs : list R) (b : binary) (kw : dict val) : res (option waves) :=
  let! fmax := last_frequency fs in base_waveform (spin_names ++ tidal_names) fs (tides b) (update (fd_defaults "IMRPhenomPv2_NRTidal" 50 20 fmax) kw).
Definition lal_eccentric (fs : list R) (b : binary) (kw : dict val) : res (option waves) :=
  let! fmax := last_frequency fs in base_waveform ["eccentricity"] fs (no_spins b) (update (fd_defaults "EccentricFD" 10 10 fmax) kw).
(** 953-962, 1039-1048 *)
Definition bbh_sequence (b : binary) (kw : dict val) : res (option waves) := base_sequence (no_tides b) (update (seq_defaults "IMRPhenomPv2" 50) kw).
Definition bns_sequence (b : binary) (kw : dict val) : res (option waves) := base_sequence (tides b) (update (seq_defaults "IMRPhenomPv2_NRTidal" 50) kw).

(** *** Relative binning, 708-782 *)
Definition to_frequencies (kw : dict val) : res (dict val) :=
  let kw := ddel (ddel kw "minimum_frequency") "maximum_frequency" in
  let! (e, kw) := pop kw "frequency_bin_edges" in Ok (dset kw "frequencies" e).
Definition bbh_relative (fs : list R) (b : binary) (fiducial : R) (kw : dict val) : res (option waves) :=
  let! fmax := last_frequency fs in
  let w := update (fd_defaults "IMRPhenomPv2" 50 20 fmax) kw in
  if Req_EM_T fiducial 1 then base_waveform (spin_names ++ tidal_names) fs (no_tides b) (ddel w "frequency_bin_edges")
  else let! w := to_frequencies w in base_sequence (no_tides b) w.
Definition bns_relative (fs : list R) (b : binary) (fiducial : R) (kw : dict val) : res (option waves) :=
  let! fmax := last_frequency fs in
  let w := update (fd_defaults "IMRPhenomPv2_NRTidal" 50 20 fmax) kw in
  if Req_EM_T fiducial 1 then base_waveform (spin_names ++ tidal_names) fs (tides b) w
  else let! w := to_frequencies w in base_sequence (tides b) w.

(** *** Reduced order quadrature, 785-881 *)
(** np.unique(..., return_inverse=True): the values in increasing order and the place of each entry *)
Fixpoint put (x : R) (l : list R) : list R :=
  match l with [] => [x] | y :: t => if Rlt_dec x y then x :: l else if Req_EM_T x y then l else y :: put x t end.
Definition unique (l : list R) : list R := fold_right put [] l.
Fixpoint place (x : R) (l : list R) : nat := match l with [] => 0%nat | y :: t => if Req_EM_T x y then 0%nat else S (place x t) end.
Definition inverse (l : list R) : list nat := map (fun x => place x (unique l)) l.
(** indexing an array with an array of indices (indices are not negative) *)
Fixpoint take (a : list C) (idx : list nat) : res (list C) :=
  match idx with
  | [] => Ok []
  | i :: t => match nth_error a i with Some x => let! r := take a t in Ok (x :: r) | None => Raise IndexError end
  end.
(** 848-865: the nodes, the indices of both parts, and the remaining arguments *)
Definition roq_nodes (kw : dict val) : res (list nat * list nat * dict val) :=
  if dmem kw "frequency_nodes" then
    let! (lv, kw) := pop kw "linear_indices" in
    let! (qv, kw) := pop kw "quadratic_indices" in
    let kw := ddel (ddel kw "frequency_nodes_linear") "frequency_nodes_quadratic" in
    let! (nv, kw) := pop kw "frequency_nodes" in
    let! l := as_idx lv in
    let! q := as_idx qv in
    Ok (l, q, dset kw "frequencies" nv)
  else
    let! (lv, kw) := pop kw "frequency_nodes_linear" in
    let! (qv, kw) := pop kw "frequency_nodes_quadratic" in
    let! l := as_arr lv in
    let! q := as_arr qv in
    let inv := inverse (l ++ q) in
    Ok (firstn (length l) inv, skipn (length l) inv, dset kw "frequencies" (VArr (unique (l ++ q)))).
(** 866-881; subscripting None is a TypeError *)
Definition base_roq (b : binary) (kw : dict val) : res (waves * waves) :=
  let! (l, q, kw) := roq_nodes kw in
  let! w := base_sequence b kw in
  match w with
  | None => Raise TypeError
  | Some (p, c) =>
      let! lp := take p l in let! lc := take c l in let! qp := take p q in let! qc := take c q in Ok ((lp, lc), (qp, qc))
  end.
(** 677-705 *)
Definition bbh_roq (b : binary) (kw : dict val) : res (waves * waves) := base_roq (no_tides b) (update (seq_defaults "IMRPhenomPv2" 20) kw).
Definition bns_roq (b : binary) (kw : dict val) : res (waves * waves) := base_roq (tides b) (update (seq_defaults "IMRPhenomD_NRTidal" 20) kw).
End Lal.

(** ** sinegaussian, 1175-1190, at one frequency; [None]: a division by zero or the root of a negative number *)
Definition sinegaussian (hrss Q f0 f : R) : option (R * C) :=
  let* tau := pdiv Q (sqrt 2 * PI * f0) in
  let* temp := pdiv Q (4 * sqrt PI * f0) in
  let fm := f - f0 in
  let fp := f + f0 in
  let* rp := psqrt (temp * (1 + exp (- Q ^ 2))) in
  let* ap := pdiv hrss rp in
  let* rc := psqrt (temp * (1 - exp (- Q ^ 2))) in
  let* ac := pdiv hrss rc in
  let em := exp (- fm ^ 2 * PI ^ 2 * tau ^ 2) in
  let ep := exp (- fp ^ 2 * PI ^ 2 * tau ^ 2) in
  Some (ap * (sqrt PI * tau / 2) * (em + ep), (0, - (ac * (sqrt PI * tau / 2) * (em - ep)))).

(** ** supernova, 1221-1229; a row of the file has four numbers *)
Definition supernova (rows : list (R * R * R * R)) (d : R) : option (list C * list C) :=
  let* s := pdiv 10 d in
  let k := 1e-3 * s in
  Some (map (fun r => match r with (a, b, _, _) => (k * a, k * b) end) rows, map (fun r => match r with (_, _, c, e) => (k * c, k * e) end) rows).
(** ** supernova_pca_model, 1272-1286; [pcs]: for each sample the five principal components *)
Definition pca_strain (coeffs : list R) (pcs : list C) : C := fold_right Cplus (RtoC 0) (map (fun p => Cmult (RtoC (fst p)) (snd p)) (combine coeffs pcs)).
Definition supernova_pca (coeffs : list R) (pcs : list (list C)) (d : R) : option (list C * list C) :=
  let* s := pdiv 10 d in
  let k := 1e-23 * s in
  let strain := map (fun row => Cmult (RtoC k) (pca_strain coeffs row)) pcs in
  Some (strain, strain).
