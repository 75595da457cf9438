(** bilby/gw/detector/interferometer.py 252-337: response of a detector to the polarizations of a signal. *)
From Coq Require Import String Reals List Bool.
From Coquelicot Require Import Complex.
From Verif Require Import PyDict.
Import ListNotations.
Open Scope R_scope.

Definition cis (x : R) : C := (cos x, sin x).
(** a numpy array of complex or of real numbers; the values of a real one are embedded *)
Record arr := Arr { is_real : bool; vals : list C }.
(** 280-287; [pattern] is the contraction of the tensors of detector and polarization at the given sky position and time *)
Definition modes : list string := ["plus"; "cross"; "x"; "y"; "breathing"; "longitudinal"]%string.
Definition antenna_response (name : string) (pattern : string -> R) (mode : string) : R :=
  if existsb (String.eqb mode) modes then pattern mode else if String.eqb mode name then 1 else 0.
(** numpy: x * a and a + b.  None is the ValueError of arrays that do not fit (stretching of arrays of length 1 left out) *)
Definition scale (x : R) (a : arr) : arr := Arr (is_real a) (map (fun z => RtoC x * z)%C (vals a)).
Definition plus (a b : arr) : option arr :=
  if Nat.eqb (length (vals a)) (length (vals b))
  then Some (Arr (is_real a && is_real b) (map (fun q => fst q + snd q)%C (combine (vals a) (vals b)))) else None.
Fixpoint total (a : arr) (l : list arr) : option arr :=
  match l with [] => Some a | b :: t => match plus a b with Some c => total c t | None => None end end.
(** a[mask] and a[mask] = new *)
Fixpoint select {A} (m : list bool) (l : list A) : list A :=
  match m, l with true :: m, x :: l => x :: select m l | false :: m, _ :: l => select m l | _, _ => [] end.
Fixpoint put {A} (m : list bool) (l new : list A) : list A :=
  match m, l with
  | true :: m, _ :: l => match new with n :: new => n :: put m l new | [] => [] end
  | false :: m, x :: l => x :: put m l new
  | _, _ => []
  end.
(** storing complex numbers into an array: a real one keeps the real parts, with a warning *)
Definition store (real : bool) (z : C) : C := if real then RtoC (fst z) else z.

Section Response.
Variable name : string.
Variable pattern : string -> R.
(** the calibration factor at a frequency, and whether its array is one of reals, as without calibration *)
Variable cal : R -> C.
Variable cal_real : bool.
(** 323-337, for a mask and the frequencies of its true entries.  No polarizations: the sum is the number 0, times the mask an
    array of integers, into which nothing can be multiplied *)
Definition respond (pols : dict arr) (mask : list bool) (frequencies : list R) (dt : R) : option arr :=
  match map (fun q => scale (antenna_response name pattern (fst q)) (snd q)) pols with
  | [] => None
  | a :: l =>
    match total a l with
    | None => None
    | Some s =>
      if Nat.eqb (length (vals s)) (length mask) then
        let v := map (fun q : C * bool => if snd q then fst q else RtoC 0) (combine (vals s) mask) in
        let v := put mask v (map (fun q => store (is_real s) (fst q * cis (- (2 * PI * dt * snd q)))%C) (combine (select mask v) frequencies)) in
        if is_real s && negb cal_real then None
        else Some (Arr (is_real s) (put mask v (map (fun q => fst q * cal (snd q))%C (combine (select mask v) frequencies))))
      else None
    end
  end.
(** 306-311, 326-332: the mask of the detector, or no mask for given frequencies *)
Definition get_detector_response (pols : dict arr) (F : list R) (mask : list bool) (given : option (list R)) (geocent_time start_time time_shift : R) : option arr :=
  let dt := (geocent_time - start_time) + time_shift in
  match given with
  | None => respond pols mask (select mask F) dt
  | Some f => respond pols (repeat true (length f)) f dt
  end.
End Response.
