(** bilby/gw/likelihood/multiband.py 595-627, 739-762: the IFFT-FFT way to (h, h). *)
From Coq Require Import Reals List Arith Bool.
From Coquelicot Require Import Complex.
From Verif Require Import Series_Model.
Import ListNotations.
Open Scope list_scope.
Open Scope R_scope.

(** ** _setup_quadratic_coefficients_ifft_fft (595-627) *)
Definition Nhat (Mb Nb : nat) : nat := Nat.min (2 * Mb) Nb.                                      (* 601 *)
Definition That (T : R) (Mb Nb : nat) : R := T * INR (Nhat Mb Nb) / INR Nb.                      (* 602 *)
(** 608-611: inverse spectrum on the mask, zero elsewhere; the mask holds nothing beyond N / 2 *)
Definition full_inv_psd (N : nat) (psd : list R) (mask : list bool) : list R :=
  map (fun k => if nth k mask false then 1 / nth k psd 0 else 0) (seq 0 (N / 2 + 1)).
(** x[-k:] *)
Definition last_ones {X} (k : nat) (x : list X) : list X := if (k =? 0)%nat then x else skipn (length x - k) x.
(** 614-615: the lags up to half of [Nh] samples, of both signs *)
Definition near_lags (Nh : nat) (x : list R) : list R := firstn (Nh / 2 + 1) x ++ last_ones (Nh - Nh / 2 - 1) x.
(** 613-616 *)
Definition inv_psd_coeffs (Nb Nh : nat) (inv : list R) : option (list (R * R)) :=
  match irfft (map (fun p => (p, 0)) (firstn (Nb / 2 + 1) inv)) with Some x => Some (rfft (near_lags Nh x)) | None => None end.

(** ** calculate_snrs (739-762) *)
Definition sq (z : R * R) : R := fst z * fst z + snd z * snd z.
(** 746-749, the first band: full resolution; [psd], [mask] from index [Ks] *)
Definition first_band (T : R) (Ks : nat) (strain : list (R * R)) (windows psd : list R) (mask : list bool) : R :=
  4 / T * rsum (length strain) (fun i => sq (nth i strain (0, 0)) * ((if nth (Ks + i) mask false then 1 else 0) * nth i windows 0 / nth (Ks + i) psd 0)).
(** 751-753: the buffer of Mb / 2 + 1 zeros with the waveform times the root of the window from [Ks] to [Ke] *)
Definition wth (Ks Ke Mb : nat) (roots : list R) (strain : list (R * R)) : list (R * R) :=
  map (fun k => if (Ks <=? k) && (k <=? Ke)
                then (nth (k - Ks) roots 0 * fst (nth (k - Ks) strain (0, 0)), nth (k - Ks) roots 0 * snd (nth (k - Ks) strain (0, 0)))
                else (0, 0)) (seq 0 (Mb / 2 + 1)).
(** 754: zeros followed by the time series *)
Definition hbc (Mb Nh : nat) (x : list R) : list R := repeat 0 (Nh - Mb) ++ x.
(** 755-757, real part *)
Definition later_band (T : R) (Ks Ke Mb Nb : nat) (roots : list R) (strain : list (R * R)) (inv : list R) : option R :=
  match irfft (wth Ks Ke Mb roots strain), inv_psd_coeffs Nb (Nhat Mb Nb) inv with
  | Some x, Some coef => let t := rfft (hbc Mb (Nhat Mb Nb) x) in
      Some (4 / That T Mb Nb * rsum (length t) (fun j => sq (nth j t (0, 0)) * fst (nth j coef (0, 0))))
  | _, _ => None
  end.
(** 740-757 *)
Record qband := mkQ { q_Ks : nat; q_Ke : nat; q_M : nat; q_N : nat; q_win : list R; q_strain : list (R * R) }.
Fixpoint later_bands (T : R) (inv : list R) (bs : list qband) : option R :=
  match bs with
  | [] => Some 0
  | b :: t => match later_band T (q_Ks b) (q_Ke b) (q_M b) (q_N b) (map sqrt (q_win b)) (q_strain b) inv, later_bands T inv t with
              | Some v, Some r => Some (v + r) | _, _ => None end
  end.
Definition optimal_snr_squared (T : R) (N : nat) (psd : list R) (mask : list bool) (bs : list qband) : option R :=
  match bs with
  | [] => Some 0
  | b :: t => match later_bands T (full_inv_psd N psd mask) t with
              | Some r => Some (first_band T (q_Ks b) (q_strain b) (q_win b) psd mask + r) | None => None end
  end.
