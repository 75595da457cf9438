(** bilby/gw/likelihood/multiband.py 433-462, 513-531, 697-745: the points where a
    multi-banded likelihood evaluates the waveform, and the coefficients of (d, h). *)
From Coq Require Import Reals List Arith Bool.
From Coquelicot Require Import Complex.
From Verif Require Import Series_Model Roq_Model.
Import ListNotations.
Open Scope list_scope.
Open Scope R_scope.

(** ** _setup_waveform_frequency_points (433-462) *)
(** one band: its duration and its first and last index; an index is not negative here *)
Record band := mkBand { dur : R; Ks : nat; Ke : nat }.
Definition band_points (b : band) : list R := map (fun k => INR k / dur b) (seq (Ks b) (Ke b + 1 - Ks b)).      (* 450 *)
Definition banded_frequency_points (bs : list band) : list R := flat_map band_points bs.
(** 451-453 *)
Fixpoint start_end_idxs (start : nat) (bs : list band) : list (nat * nat) :=
  match bs with
  | [] => []
  | b :: t => let e := (start + Ke b - Ks b)%nat in (start, e) :: start_end_idxs (S e) t
  end.
(** np.unique with return_inverse (455) *)
Definition waveform_frequencies (bs : list band) : list R := unique (banded_frequency_points bs).
Definition unique_to_original (bs : list band) : list nat :=
  map (fun x => position x (waveform_frequencies bs)) (banded_frequency_points bs).

(** ** _setup_linear_coefficients (513-531) *)
(** 518-520: the data over the spectrum on the frequency mask, zero elsewhere and beyond *)
Definition fddata (N : nat) (strain : list C) (psd : list R) (mask : list bool) : list C :=
  map (fun k => if nth k mask false then Cdiv (nth k strain (RtoC 0)) (RtoC (nth k psd 0)) else (RtoC 0)) (seq 0 (N / 2 + 1)).
(** 524-525: the part up to the band's Nyquist frequency, with that frequency set to zero *)
Definition band_data (Nb : nat) (fd : list C) : list C :=
  let l := firstn (Nb / 2 + 1) fd in firstn (length l - 1) l ++ [(RtoC 0)].
(** 526: the last [Mb] samples of the inverse transform *)
Definition band_series (Nb Mb : nat) (fd : list C) : option (list R) :=
  match irfft (band_data Nb fd) with Some x => Some (skipn (length x - Mb) x) | None => None end.
(** 527-530; [win] is the band's window sequence *)
Definition band_coeffs (b : band) (Nb Mb : nat) (win : nat -> R) (fd : list C) : option (list C) :=
  match band_series Nb Mb fd with
  | Some x => Some (map (fun i => Cmult (RtoC (4 / dur b * win i)) (Cconj (nth (Ks b + i) (rfft x) (0, 0)))) (seq 0 (Ke b + 1 - Ks b)))
  | None => None
  end.
(** 521-531: all bands *)
Fixpoint linear_coeffs (bs : list (band * nat * nat * (nat -> R))) (fd : list C) : option (list C) :=
  match bs with
  | [] => Some []
  | (b, Nb, Mb, win) :: t =>
      match band_coeffs b Nb Mb win fd, linear_coeffs t fd with Some l, Some r => Some (l ++ r) | _, _ => None end
  end.
(** ** calculate_snrs (697-737) *)
Fixpoint dot (a b : list C) : C := match a, b with x :: a', y :: b' => Cplus (Cmult x y) (dot a' b') | _, _ => (RtoC 0) end.
(** 718-724 for one polarization: its values at the unique frequencies, put in the order of the banded points *)
Definition at_banded (bs : list band) (h : list C) : list C := map (fun i => nth i h (RtoC 0)) (unique_to_original bs).
(** 737 *)
Definition d_inner_h (strain coeffs : list C) : C := Cconj (dot strain coeffs).
