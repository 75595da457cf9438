(** bilby/core/utils/samples.py, bilby/core/sampler/dynesty_utils.py 682-713,
    bilby/bilby_mcmc/proposals.py 110-134 *)
From Coq Require Import Reals List Bool.
From Verif Require Import PyReal Interp_Model.
Import ListNotations.
Open Scope R_scope.

(** samples.py 116-143 [reflect], one element; the in-place update of the caller's array
    is not modelled *)
Definition reflect (u : R) : R :=
  if Rlt_dec (rmod u 2) 1 then rmod u 1 else 1 - rmod u 1.

(** samples.py 97-113. A log weight is a real or None = -inf; the result None = nan
    (all weights zero or no weights: -inf - -inf) *)
Definition wexp (w : option R) : R := match w with Some x => exp x | None => 0 end.
Definition Rsum (l : list R) : R := fold_right Rplus 0 l.
(** scipy.special.logsumexp; None = -inf *)
Definition logsumexp (l : list (option R)) : option R :=
  let s := Rsum (map wexp l) in if Rlt_dec 0 s then Some (ln s) else None.
Definition double (w : option R) : option R := match w with Some x => Some (2 * x) | None => None end.
Definition kish_log_effective_sample_size (l : list (option R)) : option R :=
  match logsumexp l, logsumexp (map double l) with Some a, Some b => Some (2 * a - b) | _, _ => None end.

(** samples.py 5-95 [SamplesSummary] for a one-dimensional array. np.quantile with the
    default linear interpolation: the sorted samples are interpolated at (n-1) p;
    np.median is the middle sample or the mean of the two middle ones; None = no samples *)
Fixpoint insert (x : R) (l : list R) : list R :=
  match l with [] => [x] | y :: t => if Rle_dec x y then x :: l else y :: insert x t end.
Definition sort (l : list R) : list R := fold_right insert [] l.
Definition nodes (l : list R) : list (R * R) := combine (map INR (seq 0 (length l))) l.
Definition quantile (l : list R) (p : R) : option R :=
  match l with [] => None | [x] => Some x | _ => interp_in (nodes (sort l)) (INR (length l - 1) * p) end.
Definition median (l : list R) : option R :=
  let s := sort l in let n := length l in
  match l with [] => None | _ =>
    if Nat.even n then Some ((nth (n / 2 - 1) s 0 + nth (n / 2) s 0) / 2) else Some (nth (n / 2) s 0) end.
Definition mean (l : list R) : option R := match l with [] => None | _ => Some (Rsum l / INR (length l)) end.
Definition lower_absolute_credible_interval (l : list R) (level : R) := quantile l ((1 - level) / 2).
Definition upper_absolute_credible_interval (l : list R) (level : R) := quantile l ((1 + level) / 2).
(** confidence_level setter; None = ValueError *)
Definition set_confidence_level (level : R) : option R :=
  if Rlt_dec 0 level then if Rlt_dec level 1 then Some level else None else None.

(** dynesty_utils.py 682-713 [apply_boundaries_]; dynesty.utils.apply_reflect is external
    and has the same text as samples.reflect. Index lists of distinct non-negative
    indices; None = the function returned None *)
Definition at_indices (f : R -> R) (idx : list nat) (u : list R) : list R :=
  map (fun iu => if existsb (Nat.eqb (fst iu)) idx then f (snd iu) else snd iu) (combine (seq 0 (length u)) u).
Definition rmin_list (u : list R) : R := fold_right Rmin (hd 0 u) u.
Definition rmax_list (u : list R) : R := fold_right Rmax (hd 0 u) u.
Definition wrap_reflect (u : list R) (periodic reflective : option (list nat)) : list R :=
  let u1 := match periodic with None => u | Some idx => at_indices (fun x => rmod x 1) idx u end in
  match reflective with None => u1 | Some idx => at_indices reflect idx u1 end.
Definition apply_boundaries_ (u : list R) (periodic reflective : option (list nat)) : option (list R) :=
  let u2 := wrap_reflect u periodic reflective in
  if Rlt_dec (rmin_list u2) 0 then None else if Rlt_dec 1 (rmax_list u2) then None else Some u2.

(** proposals.py 124-134 (bilby_mcmc), per parameter with prior minimum and width *)
Definition apply_periodic_boundary (mn width v : R) : R := mn + rmod (v - mn) width.
Definition apply_reflective_boundary (mn width v : R) : R := mn + width * reflect ((v - mn) / width).
