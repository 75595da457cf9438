(** * Conversion of neutron-star parameters
    Model of /repo/bilby/gw/conversion.py 285-806, 1378-1629, 1632-1646, 1690-1820, 2153-2180, for one sample, and of the
    loop over samples at 348-556. Numbers as in GwGen_Model.v: [Some x], or [None] where the code stores nan or an infinity.
    A stored boolean is the number 1 or 0. lalsimulation and scipy are arbitrary functions. *)
From Coq Require Import Reals String List Bool Arith.
From Verif Require Import PyReal PyDict GwMass_Model GwGen_Model.
Import ListNotations.
Open Scope R_scope. Open Scope string_scope. Open Scope list_scope.

(** log_pressure_reparameterization_conversion, conversion.py 605-609. *)
Definition log_pressures (scaled_ratio scaled_2 : R) : R * R := (scaled_ratio * scaled_2 + 33, 33 + scaled_2).
(** spectral_pca_to_spectral, conversion.py 633-648: mean + deviation * (matrix . parameters). *)
Definition pca_to_spectral (p0 p1 p2 p3 : R) : R * R * R * R :=
  (89421 / 100000 + 35700 / 100000 * (43801 / 100000 * p0 + -76705 / 100000 * p1 + 45143 / 100000 * p2 + 12646 / 100000 * p3),
   33878 / 100000 + 25769 / 100000 * (-53573 / 100000 * p0 + 17169 / 100000 * p1 + 67968 / 100000 * p2 + 47070 / 100000 * p3),
   -7894 / 100000 + 5452 / 100000 * (52660 / 100000 * p0 + 31255 / 100000 * p1 + -19454 / 100000 * p2 + 76626 / 100000 * p3),
   393 / 100000 + 312 / 100000 * (-49379 / 100000 * p0 + -53336 / 100000 * p1 + -54444 / 100000 * p2 + 41868 / 100000 * p3)).

Definition rle (x y : R) : bool := if Rle_dec x y then true else false.

Section Eos.
(** lalsimulation: equation-of-state objects, the family built from one, and the numbers read from them *)
Variable eos : Type.
Variables (sd_eos : R -> R -> R -> R -> eos) (sd_gamma_bad sd_family_bad : R -> R -> R -> R -> bool).
Variables (poly_eos : bool -> R -> R -> R -> R -> R -> eos) (poly_bad : R -> R -> R -> R -> R -> bool -> bool).
Variables (max_sound min_mass_si max_mass_si : eos -> R) (radius love_k2 : R -> eos -> R).
Variables solar_mass grav light : R.

(** lambda_from_mass_and_family, conversion.py 800-806. *)
Definition lambda_from_mass (m : R) (e : eos) : num :=
  let r := radius (m * solar_mass) e in
  let k := love_k2 (m * solar_mass) e in
  let* mg := pdiv (m * solar_mass * grav) (light ^ 2) in
  let* compactness := pdiv mg r in
  pdiv (2 / 3 * k) (compactness ^ 5).
(** neutron_star_family_physical_check, conversion.py 766-780. *)
Definition family_check (e : eos) (m1 m2 : R) : num * num * bool :=
  let mn := min_mass_si e / solar_mass in
  let mx := max_mass_si e / solar_mass in
  if (rle (max_sound e) (11 / 10) && (rle mn m1 && rle m1 mx) && (rle mn m2 && rle m2 mx))%bool
  then (lambda_from_mass m1 e, lambda_from_mass m2 e, true)
  else (Some 0, Some 0, false).
(** spectral_params_to_lambda_1_lambda_2, conversion.py 672-686. *)
Definition spectral_lambdas (g0 g1 g2 g3 m1 m2 : R) : num * num * bool :=
  if sd_gamma_bad g0 g1 g2 g3 then (Some 0, Some 0, false)
  else if sd_family_bad g0 g1 g2 g3 then (Some 0, Some 0, false)
  else family_check (sd_eos g0 g1 g2 g3) m1 m2.
(** polytrope_or_causal_params_to_lambda_1_lambda_2, conversion.py 722-742. *)
Definition piecewise_lambdas (p1 lp1 p2 lp2 p3 m1 m2 : R) (causal : bool) : num * num * bool :=
  if rle lp2 lp1 then (Some 0, Some 0, false)
  else if poly_bad p1 (lp1 - 1) p2 (lp2 - 1) p3 causal then (Some 0, Some 0, false)
  else family_check (poly_eos causal p1 (lp1 - 1) p2 (lp2 - 1) p3) m1 m2.

(** The four equation-of-state branches as: key names, function of the row of their values (conversion.py 352-371,
    400-422, 452-477, 509-531). *)
Definition row := list R -> option (num * num * bool).
Definition pca_keys := ["eos_spectral_pca_gamma_0"; "eos_spectral_pca_gamma_1"; "eos_spectral_pca_gamma_2"; "eos_spectral_pca_gamma_3";
  "mass_1_source"; "mass_2_source"].
Definition pca_row : row := fun l => match l with
  | [p0; p1; p2; p3; m1; m2] => let '(g0, g1, g2, g3) := pca_to_spectral p0 p1 p2 p3 in Some (spectral_lambdas g0 g1 g2 g3 m1 m2)
  | _ => None end.
Definition poly_keys := ["eos_polytrope_gamma_0"; "eos_polytrope_gamma_1"; "eos_polytrope_gamma_2"; "eos_polytrope_log10_pressure_1";
  "eos_polytrope_log10_pressure_2"; "mass_1_source"; "mass_2_source"].
Definition poly_row : row := fun l => match l with
  | [g0; g1; g2; lp1; lp2; m1; m2] => Some (piecewise_lambdas g0 lp1 g1 lp2 g2 m1 m2 false)
  | _ => None end.
Definition scaled_keys := ["eos_polytrope_gamma_0"; "eos_polytrope_gamma_1"; "eos_polytrope_gamma_2"; "eos_polytrope_scaled_pressure_ratio";
  "eos_polytrope_scaled_pressure_2"; "mass_1_source"; "mass_2_source"].
Definition scaled_row : row := fun l => match l with
  | [g0; g1; g2; sr; s2; m1; m2] => let (lp1, lp2) := log_pressures sr s2 in Some (piecewise_lambdas g0 lp1 g1 lp2 g2 m1 m2 false)
  | _ => None end.
Definition causal_keys := ["eos_v1"; "eos_v2"; "eos_v3"; "eos_log10_pressure1_cgs"; "eos_log10_pressure2_cgs"; "mass_1_source"; "mass_2_source"].
Definition causal_row : row := fun l => match l with
  | [v1; v2; v3; lp1; lp2; m1; m2] => Some (piecewise_lambdas v1 lp1 v2 lp2 v3 m1 m2 true)
  | _ => None end.
End Eos.

(** The three values an equation-of-state branch stores (conversion.py 369, 413, 468, 522). Where an input is nan the
    results are not modelled and taken as nan. *)
Definition store3 {V} (o : dict V) (a b c : V) : dict V := dset (dset (dset o "lambda_1" a) "lambda_2" b) "eos_check" c.
Definition bnum (b : bool) : num := Some (if b then 1 else 0).

(** ** The loop over samples *)
(** a stored parameter: a python float or an array *)
Inductive cell := Fl (x : num) | Ar (l : list num).
Definition is_float (c : cell) : bool := match c with Fl _ => true | Ar _ => false end.
(** what an index of the expanded parameter gives, conversion.py 373-374 *)
Definition expand (n : nat) (c : cell) : list num := match c with Fl x => repeat x n | Ar l => l end.
Definition max_len (cs : list cell) : nat := fold_left (fun m c => match c with Fl _ => m | Ar l => Nat.max m (length l) end) cs 1%nat.
(** [zip( *cols)] *)
Fixpoint zip_rows (fuel : nat) (cols : list (list num)) : list (list num) :=
  match fuel with
  | O => []
  | S n => if forallb (fun c => match c with [] => false | _ => true end) cols
           then map (fun c => hd None c) cols :: zip_rows n (map (@tl num) cols)
           else []
  end.
Fixpoint all_some {A} (l : list (option A)) : option (list A) :=
  match l with [] => Some [] | x :: r => match x, all_some r with Some a, Some t => Some (a :: t) | _, _ => None end end.
Definition on_row (f : row) (r : list num) : num * num * num :=
  match all_some r with Some xs => match f xs with Some (a, b, c) => (a, b, bnum c) | None => (None, None, None) end | None => (None, None, None) end.
Fixpoint get_all {V} (d : dict V) (ks : list string) : option (list V) :=
  match ks with [] => Some [] | k :: r => match dget d k, get_all d r with Some v, Some t => Some (v :: t) | _, _ => None end end.
(** expanding every float among [ks] and putting the floats back, conversion.py 373-374, 394-395 *)
Definition expand_step (n : nat) (o : dict cell) (k : string) : dict cell :=
  match dget o k with Some (Fl x) => dset o k (Ar (repeat x n)) | _ => o end.
Definition restore_step (orig o : dict cell) (k : string) : dict cell :=
  match dget orig k with Some (Fl x) => dset o k (Fl x) | _ => o end.
(** conversion.py 357-395, 406-447, 458-504, 515-556; [None]: a key of the branch is missing (KeyError) *)
Definition eos_columns (ks : list string) (f : row) (d : dict cell) : option (dict cell) :=
  match get_all d ks with
  | None => None
  | Some cs =>
      if forallb is_float cs then
        let '(a, b, c) := on_row f (map (fun c => match c with Fl x => x | Ar _ => None end) cs) in
        Some (store3 d (Fl a) (Fl b) (Fl c))
      else
        let n := max_len cs in
        let o := fold_left (expand_step n) ks d in
        match get_all o ks with
        | None => None
        | Some cs' =>
            let rows := zip_rows n (map (expand n) cs') in
            let outs := map (on_row f) rows in
            let o := store3 o (Ar (map (fun t => fst (fst t)) outs)) (Ar (map (fun t => snd (fst t)) outs)) (Ar (map snd outs)) in
            Some (fold_left (restore_step d) ks o)
        end
  end.

(** ** Binary Love relations *)
Section Love.
(** quantile of the standard normal distribution (scipy); [None] at 0 and 1 and outside *)
Variable std_ppf : R -> option R.
(** scipy.stats.norm.ppf with loc 0: nan for a scale that is not positive *)
Definition norm_ppf (u scale : R) : option R := if Rlt_dec 0 scale then let* z := std_ppf u in Some (z * scale) else None.
(** binary_love_fit_lambda_symmetric_mass_ratio_to_lambda_antisymmetric, conversion.py 1406-1450. *)
Definition love_fit (ls q : R) : option R :=
  let* l1 := ppow ls (-1 / 5) in
  let l2 := l1 * l1 in
  let l3 := l2 * l1 in
  let q2 := q ^ 2 in
  let* qf := ppow q (10 / (3 - 743 / 1000)) in
  let* fnofq := pdiv (1 - qf) (1 + qf) in
  let numerator := 1 +
    (-277408 / 10000 * q * l1) + (842358 / 100000 * q2 * l1) +
    (122686 / 1000 * q * l2) + (-197551 / 10000 * q2 * l2) +
    (-175496 / 1000 * q * l3) + (133708 / 1000 * q2 * l3) in
  let denominator := 1 +
    (-255593 / 10000 * q * l1) + (558527 / 100000 * q2 * l1) +
    (920337 / 10000 * q * l2) + (268586 / 10000 * q2 * l2) +
    (-70247 / 1000 * q * l3) + (-563076 / 10000 * q2 * l3) in
  pdiv (fnofq * ls * numerator) denominator.
(** conversion.py 1512-1544 *)
Definition love_mean (ls q : R) : option R :=
  let* a := pdiv (1371252739 / 10000000) (ls * ls) in
  let* b := pdiv (-328026613 / 10000000) ls in
  Some ((a + b + 5168637 / 10000000 + (-112765281 / 10000000 * q ^ 2 + 149499544 / 10000000 * q + -46638851 / 10000000)) / 2).
(** conversion.py 1486, 1520-1523, 1536-1537, 1549-1551 *)
Definition love_std (ls q : R) : option R :=
  let* r := psqrt ls in
  let a := -739 / 10000000 * ls * r + 103778 / 10000000 * ls + 4581717 / 10000000 * r + -8341913 / 10000000 in
  let b := -2014323962 / 10000000 * q ^ 2 + 2739268276 / 10000000 * q + -712342246 / 10000000 in
  psqrt (a ^ 2 + b ^ 2).
(** binary_love_lambda_symmetric_to_lambda_1_lambda_2_manual_marginalisation, conversion.py 1483-1588. *)
Definition love_manual (u ls q : R) : option (R * R) :=
  let* fit := love_fit ls q in
  let* mean := love_mean ls q in
  let* sd := love_std ls q in
  let* scatter := norm_ppf u sd in
  Some (lambda_symmetric_lambda_antisymmetric_to_lambda_1_lambda_2 ls (fit + (mean + scatter))).
(** ..._automatic_marginalisation, conversion.py 1622-1629, for arrays: one uniform draw per sample *)
Fixpoint love_automatic (us ls qs : list R) : list (option (R * R)) :=
  match us, ls, qs with u :: us, l :: ls, q :: qs => love_manual u l q :: love_automatic us ls qs | _, _, _ => [] end.
End Love.

(** ** The conversion *)
Inductive out (A : Type) := Done (a : A) | KeyError | TypeError.
Arguments Done {A}. Arguments KeyError {A}. Arguments TypeError {A}.
Definition of_res {A} (x : res A) : out A := match x with Ok a => Done a | KeyErr => KeyError end.
Definition bindt {A B} (x : out A) (f : A -> out B) : out B := match x with Done a => f a | KeyError => KeyError | TypeError => TypeError end.
Notation "'run' x := e 'in' k" := (bindt e (fun x => k)) (at level 200, x pattern, e at level 100, k at level 200, right associativity).

Definition set2 (o : sample) (r : option (R * R)) : sample :=
  dset (dset o "lambda_1" (option_map fst r)) "lambda_2" (option_map snd r).
Definition lift3 {A} (f : R -> R -> R -> option A) (x y z : num) : option A := let* a := x in let* b := y in let* c := z in f a b c.
Definition lift4 {A} (f : R -> R -> R -> R -> option A) (x y z w : num) : option A := let* a := x in let* b := y in let* c := z in let* d := w in f a b c d.
(** the names of conversion.py 319-321 *)
Definition tidal_keys := ["lambda_1"; "lambda_2"; "lambda_tilde"; "delta_lambda_tilde"; "lambda_symmetric";
  "eos_polytrope_gamma_0"; "eos_spectral_pca_gamma_0"; "eos_v1"].
(** conversion.py 327-337; [s] is the caller's dictionary *)
Definition tilde_step (s o : sample) : res sample :=
  if dmem o "delta_lambda_tilde" then
    (do lt := get o "lambda_tilde" in do dl := get s "delta_lambda_tilde" in do m1 := get o "mass_1" in do m2 := get o "mass_2" in
     Ok (set2 o (lift4 lambda_tilde_delta_lambda_tilde_to_lambda_1_lambda_2 lt dl m1 m2)))
  else if dmem o "lambda_tilde" then
    (do lt := get o "lambda_tilde" in do m1 := get o "mass_1" in do m2 := get o "mass_2" in
     Ok (set2 o (lift3 lambda_tilde_to_lambda_1_lambda_2 lt m1 m2)))
  else Ok o.
(** conversion.py 339-342, 344-347 *)
Definition mass_scaled (o : sample) : res sample :=
  do l := get o "lambda_1" in do m1 := get o "mass_1" in do m2 := get o "mass_2" in
  Ok (dset o "lambda_2" (lift3 (fun l m1 m2 => pdiv (l * m1 ^ 5) (m2 ^ 5)) l m1 m2)).

Section Bns.
Variables z_to_dl dl_to_z z_to_dc dc_to_dl : R -> option R.
Variables pca_f poly_f scaled_f causal_f : row.
Variable std_ppf : R -> option R.
(** one equation-of-state branch with all parameters floats: conversion.py 349-371, 397-422, 449-477, 506-531 *)
Definition eos_step (ks : list string) (f : row) (o : sample) : out sample :=
  run o := of_res (generate_source_frame_parameters dl_to_z z_to_dc o) in
  match get_all o ks with
  | None => KeyError
  | Some vs => let '(a, b, c) := on_row f vs in Done (store3 o a b c)
  end.
(** conversion.py 557-574; a float has no length (1624) *)
Definition symmetric_step (o : sample) : out sample :=
  if dmem o "lambda_antisymmetric" then
    of_res (do ls := get o "lambda_symmetric" in do la := get o "lambda_antisymmetric" in
            Ok (set2 o (lift2 (fun a b => Some (lambda_symmetric_lambda_antisymmetric_to_lambda_1_lambda_2 a b)) ls la)))
  else if dmem o "mass_ratio" then
    if dmem o "binary_love_uniform" then
      of_res (do u := get o "binary_love_uniform" in do ls := get o "lambda_symmetric" in do q := get o "mass_ratio" in
              Ok (set2 o (lift3 (love_manual std_ppf) u ls q)))
    else TypeError
  else Done o.
(** conversion.py 338-574; [none2]: the stored lambda_2 is python's None *)
Definition chain_step (none2 : bool) (o : sample) : out sample :=
  if (negb (dmem o "lambda_2") && dmem o "lambda_1")%bool then of_res (mass_scaled o)
  else if (dmem o "lambda_2" && none2)%bool then of_res (mass_scaled o)
  else if dmem o "eos_spectral_pca_gamma_0" then eos_step pca_keys pca_f o
  else if dmem o "eos_polytrope_log10_pressure_1" then eos_step poly_keys poly_f o          (* 396: the first operand is ignored *)
  else if dmem o "eos_polytrope_scaled_pressure_ratio" then eos_step scaled_keys scaled_f o (* 448: likewise *)
  else if dmem o "eos_v1" then eos_step causal_keys causal_f o
  else if dmem o "lambda_symmetric" then symmetric_step o
  else Done o.
(** convert_to_lal_binary_neutron_star_parameters, conversion.py 313-579. [none2]: the caller's lambda_2 is python's None *)
Definition convert_to_lal_bns (npfloat none2 : bool) (s : sample) : out (sample * list string) :=
  run (o, added) := of_res (convert_to_lal_bbh z_to_dl dl_to_z dc_to_dl npfloat s) in
  if negb (existsb (dmem o) tidal_keys) then
    Done (dset (dset o "lambda_1" (Some 0)) "lambda_2" (Some 0), added ++ ["lambda_1"; "lambda_2"])
  else
    run p := of_res (tilde_step s o) in
    run r := chain_step (none2 && negb (dmem o "lambda_tilde"))%bool p in
    Done (r, filter (fun k => negb (dmem s k)) (dkeys r)).
End Bns.

(** generate_tidal_parameters, conversion.py 2169-2180. *)
Definition generate_tidal_parameters (s : sample) : res sample :=
  do l1 := get s "lambda_1" in do l2 := get s "lambda_2" in do m1 := get s "mass_1" in do m2 := get s "mass_2" in
  let o := dset s "lambda_tilde" (lift4 lambda_1_lambda_2_to_lambda_tilde l1 l2 m1 m2) in
  Ok (dset o "delta_lambda_tilde" (lift4 lambda_1_lambda_2_to_delta_lambda_tilde l1 l2 m1 m2)).

(** ** Generating every parameter, without a likelihood *)
(** conversion.py 1637-1644; [args]: the waveform arguments of the likelihood, none without one *)
Definition apply_defaults (args defaults : dict num) (s : sample) : sample :=
  fold_left (fun o kv => dset o (fst kv) (match dget args (fst kv) with Some v => v | None => snd kv end)) defaults s.
(** fill_from_fixed_priors, conversion.py 1815-1820: a prior is [Some peak] if it is a DeltaFunction *)
Definition fill_from_fixed (priors : option (dict (option R))) (s : sample) : sample :=
  match priors with
  | None => s
  | Some ps => fold_left (fun o kv => match snd kv with Some p => dset o (fst kv) (Some p) | None => o end) ps s
  end.
Definition or_keep (f : sample -> res sample) (s : sample) : sample := match f s with Ok o => o | KeyErr => s end.
Section All.
Variable base : sample -> out (sample * list string).
Variables mass_step spin_step frame_step : sample -> res sample.
(** _generate_all_cbc_parameters, conversion.py 1635-1647, 1692-1701 *)
Definition generate_all_cbc (args defaults : dict num) (priors : option (dict (option R))) (s : sample) : out sample :=
  let o := fill_from_fixed priors (apply_defaults args defaults s) in
  run (o, _) := base o in
  Done (or_keep frame_step (or_keep spin_step (or_keep mass_step o))).
(** generate_all_bns_parameters, conversion.py 1752-1764; [approximant] stands for the string 'TaylorF2' *)
Definition generate_all_bns (approximant : num) (args : dict num) (priors : option (dict (option R))) (s : sample) : out sample :=
  run o := generate_all_cbc args [("reference_frequency", Some 50); ("waveform_approximant", approximant); ("minimum_frequency", Some 20)] priors s in
  Done (or_keep generate_tidal_parameters o).
(** generate_specific_parameters, conversion.py 1791-1798. *)
Definition select_keys (updated : sample) (ks : list string) : out sample :=
  fold_left (fun r k => run o := r in match dget updated k with Some v => Done (dset o k v) | None => KeyError end) ks (Done []).
Definition generate_specific (approximant : num) (ks : list string) (s : sample) : out sample :=
  run o := generate_all_bns approximant [] None s in select_keys o ks.
End All.
