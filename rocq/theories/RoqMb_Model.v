(** bilby/gw/likelihood/roq.py 875-917, 950-990: weights of a multi-banded ROQ basis. *)
From Coq Require Import Reals List Arith Bool.
From Coquelicot Require Import Complex.
From Verif Require Import Roq_Model Series_Model Mband2_Model Mband3_Model.
Import ListNotations.
Open Scope list_scope.
Open Scope R_scope.

(** int(fhigh_basis * duration) = m; a mask that reaches beyond raises IndexError *)
Definition beyond (m : nat) (mask : list bool) : bool := existsb (fun k => nth k mask false) (seq (m + 1) (length mask - (m + 1))).
(** 899-902 *)
Definition whitened (m : nat) (strain : list C) (psd : list R) (mask : list bool) : option (list C) :=
  if beyond m mask then None else Some (fddata (2 * m) strain psd mask).
(** 906-912: one band at one time; [M] = int(2 fhigh_basis Tb) samples from the end *)
Definition shifted_band (T t : R) (x : list R) (bm : band * nat) : list C :=
  let '(b, M) := bm in
  map (fun i => let k := (Ks b + i)%nat in Cmult (Cmult (RtoC (4 / dur b)) (nth k (rfft (last_ones M x)) (0, 0))) (cis (2 * PI * (INR k / dur b) * (t - T + dur b))))
    (seq 0 (Ke b + 1 - Ks b)).
(** 903-913 *)
Definition shifted_data (T t : R) (x : list R) (bs : list (band * nat)) : list C := flat_map (shifted_band T t x) bs.
(** 914-917: np.dot(np.conj(basis), data).T: for each time the weights of all basis elements *)
Definition linear_multiband (T : R) (m : nat) (bs : list (band * nat)) (strain : list C) (psd : list R) (mask : list bool) (rows : list (list C)) (times : list R) : option (list (list C)) :=
  match whitened m strain psd mask with
  | None => None
  | Some fd => match irfft fd with
               | None => None
               | Some x => Some (map (fun t => map (fun row => dot (map Cconj row) (shifted_data T t x bs)) rows) times)
               end
  end.
(** 971-974 *)
Definition inverse_psd (m : nat) (psd : list R) (mask : list bool) : option (list R) :=
  if beyond m mask then None else Some (full_inv_psd (2 * m) psd mask).
(** 977-982: one band; [Mh] = int(fhigh_basis Tb) lags of each sign *)
Definition quadratic_band (x : list R) (bm : band * nat) : list R :=
  let '(b, Mh) := bm in map (fun i => 4 / dur b * fst (nth (Ks b + i) (rfft (firstn Mh x ++ last_ones Mh x)) (0, 0))) (seq 0 (Ke b + 1 - Ks b)).
Fixpoint rdot (a b : list R) : R := match a, b with x :: a', y :: b' => x * y + rdot a' b' | _, _ => 0 end.
(** 950-990; the rows are the real parts of the basis *)
Definition quadratic_multiband (m : nat) (bs : list (band * nat)) (psd : list R) (mask : list bool) (rows : list (list R)) : option (list R) :=
  match inverse_psd m psd mask with
  | None => None
  | Some P => match irfft (map (fun p => (p, 0)) P) with
              | None => None
              | Some x => Some (map (fun row => rdot row (flat_map (quadratic_band x) bs)) rows)
              end
  end.
