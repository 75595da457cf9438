(** bilby/gw/utils.py: noise-weighted inner products, signal-to-noise ratios, overlap.
    Complex numbers are Coquelicot's pairs of reals; floating point rounding is not modelled. *)
From Coq Require Import Reals List ZArith Bool.
From Coquelicot Require Import Complex.
From Verif Require Import PyReal Series_Model.
Import ListNotations.
Open Scope R_scope.

(** A value of a power spectral density: bilby's PSD arrays hold np.inf outside the range of the curve
    (gw/detector/psd.py 238-241) *)
Inductive ext := Fin (x : R) | Inf.
(** complex / psd; a finite number over inf is 0 *)
Definition cdivr (z : C) (s : ext) : C := match s with Fin x => (fst z / x, snd z / x) | Inf => RtoC 0 end.
Definition csum (l : list C) : C := fold_right Cplus (RtoC 0) l.
(** gw/utils.py 136: np.conj(aa) * bb / psd.  None = ValueError of arrays that do not fit
    (numpy's stretching of length-1 arrays is left out) *)
Definition integrand (a b : list C) (S : list ext) : option (list C) :=
  if Nat.eqb (length a) (length b) && Nat.eqb (length b) (length S)
  then Some (map (fun t => cdivr (Cconj (fst (fst t)) * snd (fst t))%C (snd t)) (combine (combine a b) S))
  else None.
(** 116-137 [noise_weighted_inner_product] *)
Definition nwip (a b : list C) (S : list ext) (T : R) : option C :=
  match integrand a b S with Some l => Some (RtoC (4 / T) * csum l)%C | None => None end.
(** 170-190 *)
Definition optimal_snr_squared (s : list C) (S : list ext) (T : R) : option C := nwip s s S T.
(** complex ** 0.5: the principal square root *)
Definition csqrt (z : C) : C :=
  (sqrt ((Cmod z + fst z) / 2), (if Rle_dec 0 (snd z) then 1 else -1) * sqrt ((Cmod z - fst z) / 2)).
Inductive cres := Ok (z : C) | CNan | CRaise.
(** 140-167 [matched_filter_snr]; 0 / 0 is nan *)
Definition matched_filter_snr (s d : list C) (S : list ext) (T : R) : cres :=
  match nwip s d S T, optimal_snr_squared s S T with
  | Some x, Some y => if Ceq_dec y (RtoC 0) then CNan else Ok (x / csqrt y)%C
  | _, _ => CRaise
  end.
(** python slice l[lo:hi] with non-negative bounds *)
Definition slice {A} (lo hi : nat) (l : list A) : list A := firstn (hi - lo) (skipn lo l).
(** 193-228 [overlap]; the cut-offs are non-negative; None = ValueError *)
Definition overlap (a b : list C) (S : list ext) (df lo hi na nb : R) : option R :=
  let l := Z.to_nat (trunc (lo / df)) in let u := Z.to_nat (trunc (hi / df)) in
  if Nat.eqb (length a) (length b) then
    let i := slice l u (map (fun t => Cconj (fst t) * snd t)%C (combine a b)) in
    let s := slice l u S in
    if Nat.eqb (length i) (length s)
    then Some (fst (csum (map (fun t => ((RtoC (4 * df) * cdivr (fst t) (snd t)) / RtoC na / RtoC nb)%C) (combine i s))))
    else None
  else None.
(** 19-55 *)
Definition asd_from_freq_series (x : list C) (df : R) : list R := map (fun z => Cmod z * 2 * sqrt df) x.
Definition psd_from_freq_series (x : list C) (df : R) : list R := map (fun v => v ^ 2) (asd_from_freq_series x df).
