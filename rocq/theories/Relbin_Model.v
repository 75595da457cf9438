(** Relative binning.
    Source: bilby/gw/likelihood/relative.py 172-415 (setup_bins, set_fiducial_waveforms, compute_summary_data,
    compute_waveform_ratio_per_interferometer, _compute_full_waveform, calculate_snrs,
    find_maximum_likelihood_parameters).
    Simplified: exact real and complex arithmetic; one interferometer; arrays are functions of the index with
    the number of entries given where an index could be out of range; positions are counted from the first
    frequency of the band, which for a detector with the same band is the position in its masked arrays. *)
From Coq Require Import Reals Lra Lia List Bool Arith.
From Coquelicot Require Import Complex.
Import ListNotations.
Open Scope R_scope.
Open Scope list_scope.

(** ** setup_bins, 181-221 *)
(** 138 *)
Definition gammas : list R := [-5/3; -2/3; 1; 5/3; 7/3].
(** np.heaviside(x, 1), np.sign *)
Definition heaviside (x : R) : R := if Rlt_dec x 0 then 0 else 1.
Definition sgn (x : R) : R := if Rlt_dec 0 x then 1 else if Rlt_dec x 0 then -1 else 0.
(** 194-197 *)
Definition d_alpha (chi lo hi g : R) : R := chi * 2 * PI / Rabs (Rpower lo g * heaviside (- g) - Rpower hi g * heaviside g).
(** 198-201 *)
Definition d_phi (chi lo hi f : R) : R := fold_right Rplus 0 (map (fun g => sgn g * d_alpha chi lo hi g * Rpower f g) gammas).
(** 209: the first position, from [j] on, with [x <= d] *)
Fixpoint first_ge (d : nat -> R) (x : R) (j left : nat) : nat :=
  match left with O => j | S l => if Rle_dec x (d j) then j else first_ge d x (S j) l end.
(** 207-216: an edge equal to the one before is left out *)
Fixpoint collect_edges (idx : nat -> nat) (i cnt : nat) (last : option nat) : list nat :=
  match cnt with
  | O => []
  | S c => let b := idx i in
           if (match last with Some l => Nat.eqb b l | None => false end) then collect_edges idx (S i) c last
           else b :: collect_edges idx (S i) c (Some b)
  end.
(** the edges, as positions 0..m in the band; [d j] is d_phi_from_start, [N] the number of bins asked for;
    None is the division by zero at 209 *)
Definition floordiv (x eps : R) : nat := Z.to_nat (up (x / eps) - 1).
Definition bins (d : nat -> R) (m : nat) (eps : R) : option (list nat) :=
  let N := floordiv (d m) eps in
  if Nat.eqb N 0 then None
  else Some (collect_edges (fun i => first_ge d (INR i / INR N * d m) 0 m) 0 (S N) None).

(** ** sums over a range of positions *)
Fixpoint crange (s n : nat) (g : nat -> C) : C := match n with O => 0%C | S k => (g s + crange (S s) k g)%C end.

Section Detector.
Variable T : R.                  (* duration *)
Variable f psd : nat -> R.       (* frequencies and power spectral density *)
Variable h0 dat : nat -> C.      (* fiducial waveform and data *)
(** noise_weighted_inner_product over positions s <= j < e, gw/utils.py 136-137 *)
Definition nwip (s e : nat) (a b : nat -> C) : C := (RtoC (4 / T) * crange s (e - s) (fun j => Cconj (a j) * b j / RtoC (psd j)))%C.
(** 341-348: a0, a1, b0, b1 of the bin from [s] to before [e] *)
Definition centre (s e : nat) : R := (f s + f e) / 2.
Definition delta (s e j : nat) : R := f j - centre s e.
Definition a0 (s e : nat) : C := nwip s e h0 dat.
Definition a1 (s e : nat) : C := nwip s e h0 (fun j => (dat j * RtoC (delta s e j))%C).
Definition b0 (s e : nat) : C := nwip s e h0 h0.
Definition b1 (s e : nat) : C := nwip s e h0 (fun j => (h0 j * RtoC (delta s e j))%C).

(** 356-367: [strain e] is the detector response at the edge frequency *)
Variable strain : nat -> C.
Definition rho (e : nat) : C := (strain e / h0 e)%C.
Definition r0 (e e' : nat) : C := ((rho e' + rho e) / RtoC 2)%C.
Definition r1 (e e' : nat) : C := ((rho e' - rho e) / RtoC (f e' - f e))%C.

(** 320-322: the last bin ends one position later *)
Definition stop (e' : nat) (rest : list nat) : nat := match rest with [] => S e' | _ => e' end.
(** 391-393 *)
Fixpoint d_inner_h (edges : list nat) : C :=
  match edges with
  | e :: ((e' :: t) as rest) =>
      let p := stop e' t in (a0 e p * Cconj (r0 e e') + a1 e p * Cconj (r1 e e') + d_inner_h rest)%C
  | _ => 0%C
  end.
Fixpoint h_inner_h (edges : list nat) : C :=
  match edges with
  | e :: ((e' :: t) as rest) =>
      let p := stop e' t in
      (b0 e p * RtoC (Cmod (r0 e e') ^ 2) + RtoC 2 * b1 e p * RtoC (Re (r0 e e' * Cconj (r1 e e'))) + h_inner_h rest)%C
  | _ => 0%C
  end.
(** 334: the frequency one position after the last edge is read; None is the IndexError for a band of [n] positions *)
Definition summary (n : nat) (edges : list nat) : option (C * C) :=
  if Nat.ltb (S (last edges 0%nat)) n then Some (d_inner_h edges, h_inner_h edges) else None.

(** 376-384: the waveform on all frequencies; here the centre is the one between the edges *)
Fixpoint ratio_at (edges : list nat) (j : nat) : C :=
  match edges with
  | e :: ((e' :: t) as rest) =>
      if Nat.ltb j e then 0%C
      else if Nat.ltb j (stop e' t) then (r0 e e' + r1 e e' * RtoC (delta e e' j))%C
      else ratio_at rest j
  | _ => 0%C
  end.
Definition full_waveform (edges : list nat) (j : nat) : C := (h0 j * ratio_at edges j)%C.
End Detector.

(** ** find_maximum_likelihood_parameters, 259-288.
    [opt k] is the parameter list found by the optimiser in iteration [k], [like k] the likelihood ratio after the
    waveforms were set up anew for it ([k = 0]: before the loop); the result is the last iteration and its number *)
Fixpoint maximise (like : nat -> R) (k left : nat) : nat :=
  match left with
  | O => k
  | S l => if Rlt_dec (like (S k) - like k) (1/10) then S k else maximise like (S k) l
  end.
