(** bilby/gw/detector/calibration.py: calibration splines, precomputed curves, lookup tables.
    Real numbers instead of floats; vectors are functions of the index. *)
From Coq Require Import String DecimalString Reals List Bool ZArith.
From Coquelicot Require Import Complex.
From Verif Require Import PyDict PyReal.
Import ListNotations.
Open Scope R_scope.
Open Scope list_scope.

Fixpoint Sr (n : nat) (f : nat -> R) : R := match n with O => 0 | S k => Sr k f + f k end.
Definition log10 (x : R) : R := ln x / ln 10.

(** ** CubicSpline *)
(** 204-214: the matrix tmp1; the last row is set with negative indices *)
Definition tmp1 (n i j : nat) : R :=
  if Nat.eqb i 0 then (if Nat.eqb j 0 then -1 else if Nat.eqb j 1 then 2 else if Nat.eqb j 2 then -1 else 0)
  else if Nat.eqb i (n - 1) then (if Nat.eqb j (n - 3) then -1 else if Nat.eqb j (n - 2) then 2 else if Nat.eqb j (n - 1) then -1 else 0)
  else if Nat.eqb j (i - 1) then 1 / 6 else if Nat.eqb j i then 2 / 3 else if Nat.eqb j (i + 1) then 1 / 6 else 0.
(** 215-219 *)
Definition tmp2 (n i j : nat) : R :=
  if Nat.eqb i 0 then 0 else if Nat.eqb i (n - 1) then 0
  else if Nat.eqb j (i - 1) then 1 else if Nat.eqb j i then -2 else if Nat.eqb j (i + 1) then 1 else 0.
(** 220, 234: [m] = np.linalg.solve(tmp1, tmp2).dot(parameters) is the vector with tmp1 m = tmp2 parameters *)
Definition solves (n : nat) (p m : nat -> R) : Prop :=
  forall i, (i < n)%nat -> Sr n (fun j => tmp1 n i j * m j) = Sr n (fun j => tmp2 n i j * p j).
(** 263: np.clip(np.floor(u), 0, n - 2) *)
Definition previous (n : nat) (u : R) : nat := Z.to_nat (Z.min (Z.max (Int_part u) 0) (Z.of_nat (n - 2))).
(** 230-240, 264-267: the spline at [u], given the coefficients *)
Definition spline (n : nat) (p m : nat -> R) (u : R) : R :=
  let k := previous n u in
  let b := u - INR k in
  let a := 1 - b in
  let c := (a ^ 3 - a) / 6 in
  let d := (b ^ 3 - b) / 6 in
  a * p k + b * p (k + 1)%nat + c * m k + d * m (k + 1)%nat.
(** 273 *)
Definition factor (dA dphi : R) : C := (RtoC (1 + dA) * (2%R, dphi) / (2%R, (- dphi)%R))%C.

(** a calibration object: 118-119, 156-183.  Model 'none' is [Plain] *)
Record cspline := mkCS { cs_prefix : string; cs_lo : R; cs_hi : R; cs_n : nat; cs_params : dict R }.
(** 156-183; None = ValueError *)
Definition new_cspline (prefix : string) (lo hi : R) (n : nat) : option cspline :=
  if Nat.ltb n 4 then None else Some (mkCS prefix lo hi n []).
(** python's [prefix in key] *)
Fixpoint contains (sub s : string) : bool :=
  String.prefix sub s || match s with EmptyString => false | String _ t => contains sub t end.
(** key[len(prefix):] *)
Fixpoint drop (n : nat) (s : string) : string := match n, s with S k, String _ t => drop k t | _, _ => s end.
(** 144-146: the dictionary comprehension, then update *)
Definition found (prefix : string) (call : dict R) : dict R :=
  fold_left (fun d kv => if contains prefix (fst kv) then dset d (drop (String.length prefix) (fst kv)) (snd kv) else d) call [].
Definition dupdate (d p : dict R) : dict R := fold_left (fun d kv => dset d (fst kv) (snd kv)) p d.
Definition set_params (s : cspline) (call : dict R) : cspline :=
  mkCS (cs_prefix s) (cs_lo s) (cs_hi s) (cs_n s) (dupdate (cs_params s) (found (cs_prefix s) call)).
(** 232: f"{kind}_{ii}" *)
Definition pname (kind : string) (i : nat) : string := (kind ++ "_" ++ NilEmpty.string_of_uint (Nat.to_uint i))%string.
(** 232; None = KeyError *)
Fixpoint collect (d : dict R) (kind : string) (n : nat) : option (list R) :=
  match n with
  | O => Some []
  | S k => match collect d kind k, dget d (pname kind k) with Some l, Some v => Some (l ++ [v]) | _, _ => None end
  end.
Definition at_ (l : list R) (i : nat) : R := nth i l 0.
Section Solve.
(** np.linalg.solve(tmp1, tmp2).dot(parameters) *)
Variable solve : nat -> (nat -> R) -> nat -> R.
(** 182-183, 260-262 *)
Definition position (s : cspline) (f : R) : R :=
  (log10 f - log10 (cs_lo s)) / ((log10 (cs_hi s) - log10 (cs_lo s)) / INR (cs_n s - 1)).
(** 242-275; None = KeyError.  The parameters are stored before they are looked up *)
Definition get_factor (s : cspline) (freqs : list R) (call : dict R) : option (list C) * cspline :=
  let s' := set_params s call in
  (match collect (cs_params s') "amplitude" (cs_n s), collect (cs_params s') "phase" (cs_n s) with
   | Some A, Some P =>
       Some (map (fun f => factor (spline (cs_n s) (at_ A) (solve (cs_n s) (at_ A)) (position s f))
                                  (spline (cs_n s) (at_ P) (solve (cs_n s) (at_ P)) (position s f))) freqs)
   | _, _ => None
   end, s').
Fixpoint crun (s : cspline) (freqs : list R) (calls : list (dict R)) : cspline :=
  match calls with [] => s | c :: t => crun (snd (get_factor s freqs c)) freqs t end.

(** 455-468: every curve comes from the row of the parameter table; the nodes lie between the first and the
    last entry of the frequency array *)
Fixpoint curves_loop (s : cspline) (freqs : list R) (rows : list (dict R)) : option (list (list C)) :=
  match rows with
  | [] => Some []
  | r :: t => match get_factor s freqs r with
              | (Some c, s') => match curves_loop s' freqs t with Some l => Some (c :: l) | None => None end
              | (None, _) => None end
  end.
Definition curves_from_spline (rows : list (dict R)) (label : string) (n : nat) (freqs : list R) : option (list (list C)) :=
  match new_cspline ("recalib_" ++ label ++ "_") (hd 0 freqs) (last freqs 0) n with
  | Some s => curves_loop s freqs rows | None => None end.

(** ** Precomputed, 278-309: python list indexing with negative indices; the parameter is a number, int() truncates *)
Inductive pres := PCurve (c : list C) | PTypeError | PValueError | PIndexError.
Definition trunc (x : R) : Z := if Rle_dec 0 x then Int_part x else (- Int_part (- x))%Z.
Definition req (a b : R) : bool := if Req_EM_T a b then true else false.
Definition same (a b : list R) : bool := Nat.eqb (List.length a) (List.length b) && forallb (fun q => req (fst q) (snd q)) (combine a b).
Definition index {A} (l : list A) (i : Z) : option A :=
  let n := Z.of_nat (List.length l) in
  if (i <? - n)%Z then None else nth_error l (Z.to_nat (if (i <? 0)%Z then n + i else i)).
Definition precomputed (label : string) (curves : list (list C)) (grid freqs : list R) (call : dict R) : pres :=
  match dget call ("recalib_index_" ++ label) with
  | None => PTypeError                      (* int(None) *)
  | Some x => if same freqs grid then match index curves (trunc x) with Some c => PCurve c | None => PIndexError end else PValueError
  end.

(** ** the HDF5 files, 15-102: frequencies, amplitudes, phases of the curves; the parameter table is optional *)
Record cfile := mkCF { f_freq : list R; f_amp : list (list R); f_phase : list (list R); f_par : option (list (dict R)) }.
(** np.angle *)
Variable angle : C -> R.
(** scipy interp1d(kind='cubic') inside its range *)
Variable cubic : list R -> list C -> R -> C.
(** 70-102 *)
Definition write_file (freqs : list R) (draws : list (list C)) (par : option (list (dict R))) : cfile :=
  mkCF freqs (map (map Cmod) draws) (map (map angle) draws) par.
(** 58-60 *)
Definition interp1 (x : list R) (y : list C) (f : R) : C :=
  if Rlt_dec f (hd 0 x) then RtoC 1 else if Rlt_dec (last x 0) f then RtoC 1 else cubic x y f.
Definition slice {A} (lo n : nat) (l : list A) : list A := firstn n (skipn lo l).
(** 15-67 *)
Definition read_file (cf : cfile) (freqs : list R) (n start : nat) : list (list C) * option (list (dict R)) :=
  (map (fun ap => map (interp1 (f_freq cf) (map (fun q => (RtoC (fst q) * (cos (snd q), sin (snd q)))%C) (combine (fst ap) (snd ap)))) freqs)
       (combine (slice start n (f_amp cf)) (slice start n (f_phase cf))), f_par cf).

(** ** build_calibration_lookup, 380-452 *)
Inductive cmodel := Plain | Spline (s : cspline) | Pre (curves : list (list C)) (params : option (list (dict R))).
(** name, masked frequencies, calibration model *)
Record cifo := mkCI { ci_name : string; ci_freq : list R; ci_model : cmodel }.
(** priors.sample(n): the rows for the keys with "recalib" and the name in them; None: priors is None *)
Variable sample : string -> nat -> list (dict R).
Inductive bres (A : Type) := BOk (x : A) | BValueError | BIndexError | BAttributeError | BKeyError.
Arguments BOk {A}. Arguments BValueError {A}. Arguments BIndexError {A}. Arguments BAttributeError {A}. Arguments BKeyError {A}.
Definition entry : Type := string * (list (list C) * option (list (dict R))).
Fixpoint takes {A} (l : list A) (idx : list nat) : option (list A) :=
  match idx with [] => Some [] | i :: t => match nth_error l i, takes l t with Some x, Some r => Some (x :: r) | _, _ => None end end.
(** 397-429 for one interferometer; the files are a dictionary by name *)
Definition build_one (lookup : dict string) (priors : bool) (n start : nat) (fs : dict cfile) (x : cifo) : bres (entry * dict cfile) :=
  let fname := match dget lookup (ci_name x) with Some f => f | None => (ci_name x ++ "_calibration_file.h5")%string end in
  match dget fs fname with
  | Some cf => BOk ((ci_name x, read_file cf (ci_freq x) n start), fs)
  | None =>
    match ci_model x with
    | Pre curves params =>
        let idx := map (fun i => (i + start)%nat) (seq 0 n) in
        match takes curves idx with
        | None => BIndexError
        | Some c => match params with
            | None => BAttributeError           (* 414: None has no iloc *)
            | Some ps => match takes ps idx with
                | Some p => BOk ((ci_name x, (c, Some (map (fun q => dset (fst q) ("recalib_index_" ++ ci_name x) (INR (snd q))) (combine p idx)))), fs)
                | None => BIndexError end end end
    | m => if priors then
        match m with
        | Spline s =>
            let par := sample (ci_name x) n in
            if Nat.ltb (List.length par) n then BIndexError  (* 463-467 *) else
            match curves_from_spline (firstn n par) (ci_name x) (cs_n s) (ci_freq x) with
            | Some c => BOk ((ci_name x, (c, Some par)), dset fs fname (write_file (ci_freq x) c (Some par)))
            | None => BKeyError end
        | _ => BAttributeError end          (* 448: Recalibrate has no n_points *)
        else BValueError
    end
  end.
(** 397-431: the interferometers done so far have lost their model even if a later one raises *)
Fixpoint build_loop (lookup : dict string) (priors : bool) (n start : nat) (fs : dict cfile) (l : list cifo) : bres (list entry) * dict cfile * list cifo :=
  match l with
  | [] => (BOk [], fs, [])
  | x :: t =>
      match build_one lookup priors n start fs x with
      | BOk (e, fs') =>
          let '(r, fs'', l') := build_loop lookup priors n start fs' t in
          (match r with BOk es => BOk (e :: es) | o => o end, fs'', mkCI (ci_name x) (ci_freq x) Plain :: l')
      | BValueError => (BValueError, fs, l) | BIndexError => (BIndexError, fs, l)
      | BAttributeError => (BAttributeError, fs, l) | BKeyError => (BKeyError, fs, l)
      end
  end.
(** 380-393 *)
Definition build (lookup : option (dict string)) (priors : bool) (n start : nat) (fs : dict cfile) (l : list cifo) : bres (list entry) * dict cfile * list cifo :=
  match lookup with
  | None => if priors then build_loop [] priors n start fs l else (BValueError, fs, l)
  | Some d => build_loop d priors n start fs l
  end.
End Solve.
Arguments BOk {A}. Arguments BValueError {A}. Arguments BIndexError {A}. Arguments BAttributeError {A}. Arguments BKeyError {A}.
