(** The multi-banded likelihood: frequency bands, window functions and coefficients of (h, h).
    Source: bilby/gw/likelihood/multiband.py 249-270, 306-511, 533-593 and core/utils/calculus.py 222-234.
    Simplified: exact reals; indices are integers; loops that may run for ever take a number of allowed steps and
    give None when these do not suffice; the frequency mask and spectrum of one interferometer. *)
From Coq Require Import Reals Lra Lia List Bool ZArith.
Import ListNotations.
Open Scope R_scope.
Open Scope list_scope.

(** math.floor, math.ceil *)
Definition zfloor (x : R) : Z := (up x - 1)%Z.
Definition zceil (x : R) : Z := (- zfloor (- x))%Z.

Section Banding.
Variable Mc mode : R.              (* reference_chirp_mass_in_second, highest_mode *)
Variable off L : R.                (* time_offset, accuracy_factor *)
(** 306-324, 326-344 *)
Definition tau (f : R) : R := 5/256 * Mc * Rpower (PI * Mc * (2 * f / mode)) (-8/3).
Definition dtaudf (f : R) : R := -5/96 * Mc * Rpower (PI * Mc * (2 * f / mode)) (-8/3) / f.
(** 257-260 *)
Definition fmax_default : R := Rpower (15/968) (3/5) * Rpower (mode / (2 * PI)) (8/5) / Mc.
(** 261-270 *)
Definition maximum_banding_frequency (user : option R) : R :=
  match user with Some u => if Rlt_dec u fmax_default then u else fmax_default | None => fmax_default end.
(** 384: the scale of the taper at [f] *)
Definition scale (f : R) : R := 1 / sqrt (- dtaudf f).
(** 366-373 *)
Definition above (duration fnow f : R) : bool :=
  if Rlt_dec 0 (duration - off - tau f - L * sqrt (- dtaudf f))
  then if Rlt_dec 0 (f - scale f - fnow) then true else false else false.
(** 378-384: the bisection; the result is the value of the local variable f, if it was ever set *)
Fixpoint bisect (cond : R -> bool) (tol : R) (steps : nat) (lo hi : R) (f : option R) : option (option R) :=
  if Rlt_dec tol (hi - lo) then
    match steps with
    | O => None
    | S n => let m := (lo + hi) / 2 in if cond m then bisect cond tol n lo m (Some m) else bisect cond tol n m hi (Some m)
    end
  else Some f.
(** 375-384: [NoBand] is (None, None), [Unbound] an UnboundLocalError *)
Inductive start := NoBand | Unbound | Start (f df : R).
Definition find_start (fmax duration fnow : R) (steps : nat) : option start :=
  if above duration fnow fmax then
    match bisect (above duration fnow) (1/100 / duration) steps fnow fmax None with
    | None => None
    | Some None => Some Unbound
    | Some (Some f) => Some (Start f (scale f))
    end
  else Some NoBand.
(** 396-407: the bands after the first, as duration, starting frequency and scale *)
Fixpoint more_bands (fmax maxf least : R) (steps : nat) (n : nat) (dnext fnow : R) : option (list (R * R * R)) :=
  if Rlt_dec (Rmax off least) dnext then
    match n with
    | O => None
    | S k =>
        match find_start fmax dnext fnow steps with
        | Some (Start f df) =>
            if Rlt_dec f (Rmin maxf fmax) then
              match more_bands fmax maxf least steps k (dnext / 2) f with Some l => Some ((dnext, f, df) :: l) | None => None end
            else Some []
        | Some NoBand => Some []
        | _ => None
        end
    end
  else Some [].
End Banding.

(** ** _setup_integers, 412-431 *)
(** calculus.py 234 *)
Definition round_up2 (x : R) : Z := (2 ^ zceil (ln x / ln 2))%Z.
Definition Nb (T fnext : R) (b : nat) : Z := Z.max (round_up2 (2 * (fnext * T + 1))) (2 ^ Z.of_nat b).
Definition Mb (T fnext : R) (b : nat) : Z := (Nb T fnext b / 2 ^ Z.of_nat b)%Z.
Definition Ks (fnow dfnow d : R) : Z := zceil ((fnow - dfnow) * d).
Definition Ke (fnext d : R) : Z := zfloor (fnext * d).

(** ** _get_window_sequence, 464-511 *)
Definition clip (x len : Z) : Z := Z.max 0 (Z.min x len).
Section Window.
Variable fnow dfnow fnext dfnext : R.
(** entry [i] of the array; later assignments win *)
Definition window (df : R) (s len i : Z) : R :=
  let increase_start := clip (zfloor ((fnow - dfnow) / df) - s + 1) len in
  let unity_start := clip (zceil (fnow / df) - s) len in
  let decrease_start := clip (zfloor ((fnext - dfnext) / df) - s + 1) len in
  let decrease_stop := clip (zceil (fnext / df) - s) len in
  let f := IZR (i + s) * df in
  if (decrease_start <=? i)%Z && (i <? decrease_stop)%Z then (1 - cos (PI * (f - fnext) / dfnext)) / 2
  else if (increase_start <=? i)%Z && (i <? unity_start)%Z then (1 + cos (PI * (f - fnow) / dfnow)) / 2
  else if (unity_start <=? i)%Z && (i <? decrease_start)%Z then 1
  else 0.
End Window.

(** ** sums over integer ranges *)
Fixpoint zsum (s : Z) (n : nat) (g : Z -> R) : R := match n with O => 0 | S k => g s + zsum (s + 1)%Z k g end.
Definition zrange (a b : Z) (g : Z -> R) : R := zsum a (Z.to_nat (b - a + 1)) g.
Fixpoint nsum (n : nat) (g : nat -> R) : R := match n with O => 0 | S k => nsum k g + g k end.

(** ** _setup_quadratic_coefficients_linear_interp, 533-593, one band *)
Section Quadratic.
Variable T : R.                    (* original_duration *)
Variable mask : Z -> bool.         (* frequency_mask; false outside of the array *)
Variable psd : Z -> R.
Variable psdlen : Z.               (* length of the spectrum *)
Variable d : R.                    (* duration of the band *)
Variable fnow dfnow fnext dfnext : R.
Definition start_idx : Z := zceil ((fnow - dfnow) * T).
Definition winlen : Z := (zfloor (fnext * T) - start_idx + 1)%Z.
Definition end_idx : Z := Z.min (start_idx + winlen - 1) (psdlen - 1).
(** 563-567 *)
Definition window_over_psd (j : Z) : R :=
  (if mask j then 1 / psd j else 0) * window fnow dfnow fnext dfnext (1 / T) start_idx winlen (j - start_idx).
(** 450: banded frequency [k] of the band, and their number *)
Definition banded (k : nat) : R := IZR (Ks fnow dfnow d + Z.of_nat k) / d.
Definition nbanded : nat := Z.to_nat (Ke fnext d - Ks fnow dfnow d + 1).
(** 571-584 *)
Definition sum_start (k : nat) : Z := if Nat.eqb k 0 then start_idx else Z.max start_idx (zceil (T * banded k)).
Definition sum_end (k : nat) : Z := if Nat.eqb k (nbanded - 2) then end_idx else Z.min end_idx (zceil (T * banded (S k)) - 1).
Definition prefactor : R := 4 * d / T.
(** 585-592 *)
Definition lower (k : nat) : R := prefactor * zrange (sum_start k) (sum_end k) (fun j => (banded (S k) - IZR j / T) * window_over_psd j).
Definition upper (k : nat) : R := prefactor * zrange (sum_start k) (sum_end k) (fun j => (IZR j / T - banded k) * window_over_psd j).
Definition add_at (i : nat) (x : R) (c : nat -> R) : nat -> R := fun k => if Nat.eqb k i then c k + x else c k.
Definition coeffs : nat -> R := fold_left (fun c k => add_at (S k) (upper k) (add_at k (lower k) c)) (seq 0 (nbanded - 1)) (fun _ => 0).
(** 741-745: the band's part of the optimal SNR squared for squared waveform values [g] at the banded frequencies *)
Definition band_power (g : nat -> R) : R := nsum nbanded (fun k => g k * coeffs k).
End Quadratic.
