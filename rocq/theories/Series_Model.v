(** bilby/core/utils/series.py and bilby/core/series.py *)
From Coq Require Import Reals List ZArith Bool.
From Verif Require Import PyReal Interp_Model.
Import ListNotations.
Open Scope R_scope.

(** sum of f 0 .. f (n-1) *)
Fixpoint rsum (n : nat) (f : nat -> R) : R := match n with O => 0 | S m => rsum m f + f m end.

(** numpy.fft.rfft: (real, imaginary) part of sum_j x_j exp(-2 pi i j k / n), k = 0 .. n/2 *)
Definition angle (n j k : nat) : R := 2 * PI * (INR j * INR k) / INR n.
Definition rfft (x : list R) : list (R * R) :=
  let n := length x in
  map (fun k => (rsum n (fun j => nth j x 0 * cos (angle n j k)), - rsum n (fun j => nth j x 0 * sin (angle n j k))))
      (seq 0 (n / 2 + 1)).
(** numpy.fft.irfft with the default output length n = 2 (m - 1); the imaginary parts of the
    first and last entry are ignored; None = ValueError (no output points) *)
Definition irfft (X : list (R * R)) : option (list R) :=
  let m := (length X - 1)%nat in let n := (2 * m)%nat in
  let re k := fst (nth k X (0, 0)) in let im k := snd (nth k X (0, 0)) in
  if Nat.eqb m 0 then None else
  Some (map (fun j => (re 0%nat + 2 * rsum (m - 1) (fun i => re (S i) * cos (angle n j (S i)) - im (S i) * sin (angle n j (S i)))
                       + re m * cos (angle n j m)) / INR n) (seq 0 n)).
(** utils/series.py 191-215 [nfft] *)
Definition nfft (x : list R) (fs : R) : list (R * R) * list R :=
  let X := map (fun z => (fst z / fs, snd z / fs)) (rfft x) in
  (X, linspace 0 (fs / 2) (length X)).
(** 218-236 [infft] *)
Definition infft (X : list (R * R)) (fs : R) : option (list R) :=
  match irfft X with None => None | Some x => Some (map (fun v => v * fs) x) end.

(** np.round to an integer: half to even *)
Definition round_even (x : R) : Z :=
  let f := Int_part x in
  if Rlt_dec (x - IZR f) (1/2) then f
  else if Rlt_dec (1/2) (x - IZR f) then (f + 1)%Z
  else if Z.even f then f else (f + 1)%Z.
(** np.round(x, decimals=14) *)
Definition round14 (x : R) : R := IZR (round_even (x * 10 ^ 14)) / 10 ^ 14.
(** python int(): towards zero *)
Definition trunc (x : R) : Z := if Rlt_dec x 0 then (- Int_part (- x))%Z else Int_part x.
(** 129-150 [_check_legal_sampling_frequency_and_duration] *)
Definition legal (fs T : R) : bool := if Rlt_dec (/ 10 ^ 14) (Rabs (fs * T - IZR (round_even (fs * T)))) then false else true.
(** 86-104 [create_time_series]; None = the exception *)
Definition create_time_series (fs T t0 : R) : option (list R) :=
  if legal fs T then Some (linspace t0 (T + t0 - 1 / fs) (Z.to_nat (trunc (T * fs)))) else None.
(** 107-126 [create_frequency_series] *)
Definition create_frequency_series (fs T : R) : option (list R) :=
  if legal fs T then
    let n := round_even (T * fs) in
    Some (linspace 0 (fs / 2) (Z.to_nat (trunc (IZR (round_even (IZR n / 2)) + 1))))
  else None.
(** 6-52 [get_sampling_frequency], [..._from_time_array]; evenness tolerance 1e-10 on the
    spread (np.ptp) of the differences (np.diff) *)
Fixpoint diffs (l : list R) : list R := match l with a :: ((b :: _) as t) => (b - a) :: diffs t | _ => [] end.
Definition spread (l : list R) : R := match l with [] => 0 | a :: t => fold_right Rmax a t - fold_right Rmin a t end.
(** None = ValueError (not even) or too short *)
Definition from_time_array (t : list R) : option (R * R) :=
  match t with
  | a :: b :: _ => if Rlt_dec (/ 10 ^ 10) (spread (diffs t)) then None
      else let fs := round14 (1 / (b - a)) in Some (fs, INR (length t) / fs)
  | _ => None
  end.
(** 55-83 [..._from_frequency_array] *)
Definition from_frequency_array (f : list R) : option (R * R) :=
  match f with
  | a :: b :: _ => if Rlt_dec (/ 10 ^ 10) (spread (diffs f)) then None
      else let T := round14 (1 / (b - a)) in Some (round14 (2 * (INR (length f) - 1) / T), T)
  | _ => None
  end.

(** ** core/series.py [CoupledTimeAndFrequencySeries]; [D]: duration / sampling frequency /
    start time values; [F], [A]: frequency and time arrays *)
Section Coupled.
Context {D F A : Type}.
Variable mkf : D -> D -> option F.          (* create_frequency_series fs duration *)
Variable mkt : D -> D -> D -> option A.     (* create_time_series fs duration start *)
Variable off : F -> option (D * D).         (* (fs, duration) from a frequency array *)
Variable oft : A -> option (D * D).
Variable t0of : A -> D.
(** 6-24; None for fs, duration = not set (or 0, which the truth test in 39 and 68 treats
    alike) *)
Record cts := mkC { c_fs : option D; c_T : option D; c_t0 : D; c_f : option F; c_fok : bool; c_t : option A; c_tok : bool }.
Definition new_cts (fs T : option D) (t0 : D) : cts := mkC fs T t0 None false None false.
Inductive cop := SetT (T : D) | SetFs (fs : D) | SetT0 (t : D) | SetF (f : F) | SetTime (t : A) | GetF | GetTime.
(** 30-49; None = ValueError *)
Definition get_f (s : cts) : option F * cts :=
  if c_fok s then (c_f s, s) else
  match c_fs s, c_T s with
  | Some fs, Some T => match mkf fs T with
      | Some f => (Some f, mkC (c_fs s) (c_T s) (c_t0 s) (Some f) true (c_t s) (c_tok s))
      | None => (None, s) end
  | _, _ => (None, s)
  end.
(** 58-79 *)
Definition get_t (s : cts) : option A * cts :=
  if c_tok s then (c_t s, s) else
  match c_fs s, c_T s with
  | Some fs, Some T => match mkt fs T (c_t0 s) with
      | Some t => (Some t, mkC (c_fs s) (c_T s) (c_t0 s) (c_f s) (c_fok s) (Some t) true)
      | None => (None, s) end
  | _, _ => (None, s)
  end.
(** setters 51-56, 81-87, 100-104, 117-121, 127-130; 53 and 83 store the array before the
    evenness check that raises ([None] of [off], [oft]) *)
Definition cstep (s : cts) (o : cop) : cts :=
  match o with
  | SetT T => mkC (c_fs s) (Some T) (c_t0 s) (c_f s) false (c_t s) false
  | SetFs fs => mkC (Some fs) (c_T s) (c_t0 s) (c_f s) false (c_t s) false
  | SetT0 t => mkC (c_fs s) (c_T s) t (c_f s) (c_fok s) (c_t s) false
  | SetF f => match off f with
      | Some (fs, T) => mkC (Some fs) (Some T) (c_t0 s) (Some f) true (c_t s) (c_tok s)
      | None => mkC (c_fs s) (c_T s) (c_t0 s) (Some f) (c_fok s) (c_t s) (c_tok s) end
  | SetTime t => match oft t with
      | Some (fs, T) => mkC (Some fs) (Some T) (t0of t) (c_f s) (c_fok s) (Some t) true
      | None => mkC (c_fs s) (c_T s) (c_t0 s) (c_f s) (c_fok s) (Some t) (c_tok s) end
  | GetF => snd (get_f s)
  | GetTime => snd (get_t s)
  end.
Definition crun (s : cts) (l : list cop) : cts := fold_left cstep l s.
End Coupled.
