(** bilby/core/prior/interpolated.py (Interped) and bilby/core/prior/slabspike.py *)
From Coq Require Import Reals List Bool.
From Verif Require Import PyReal.
Import ListNotations.
Open Scope R_scope.

(** scipy.interpolate.interp1d(x, y), linear, sorted abscissae, evaluated inside the
    range: the first segment whose right end is >= x (searchsorted side left, clipped);
    None = 0/0 on a segment of length zero *)
Fixpoint interp_in (l : list (R * R)) (x : R) : option R :=
  match l with
  | (x0, y0) :: (((x1, y1) :: _) as t) =>
      if Rle_dec x x1 then
        if Req_EM_T (x1 - x0) 0 then None else Some ((y1 - y0) / (x1 - x0) * (x - x0) + y0)
      else interp_in t x
  | _ => None
  end.
(** first and last abscissa *)
Fixpoint last_x (l : list (R * R)) (d : R) : R := match l with [] => d | (x, _) :: t => last_x t x end.
Definition first_x (l : list (R * R)) : R := match l with [] => 0 | (x, _) :: _ => x end.
(** bounds_error=False, fill_value=(lo, hi) *)
Definition interp_fill (l : list (R * R)) (lo hi x : R) : option R :=
  if Rlt_dec x (first_x l) then Some lo else if Rlt_dec (last_x l 0) x then Some hi else interp_in l x.
(** bounds_error=True: None = ValueError *)
Definition interp_strict (l : list (R * R)) (x : R) : option R :=
  if Rlt_dec x (first_x l) then None else if Rlt_dec (last_x l 0) x then None else interp_in l x.

(** np.trapz(yy, xx) *)
Fixpoint trapz (l : list (R * R)) : R :=
  match l with
  | (x0, y0) :: (((x1, y1) :: _) as t) => (x1 - x0) * (y1 + y0) / 2 + trapz t
  | _ => 0
  end.
(** cumulative_trapezoid(yy, xx, initial=0), paired with the abscissae *)
Fixpoint cumtrapz (acc : R) (l : list (R * R)) : list (R * R) :=
  match l with
  | (x0, y0) :: (((x1, y1) :: _) as t) => (x0, acc) :: cumtrapz (acc + (x1 - x0) * (y1 + y0) / 2) t
  | [(x0, _)] => [(x0, acc)]
  | [] => []
  end.
Definition swap (l : list (R * R)) : list (R * R) := map (fun p => (snd p, fst p)) l.
(** YY[-1] = 1 *)
Fixpoint set_last (l : list (R * R)) (v : R) : list (R * R) :=
  match l with [] => [] | [(x, _)] => [(x, v)] | p :: t => p :: set_last t v end.
(** interpolated.py 164-174 [_initialize_attributes]: normalised nodes and cumulative nodes *)
Definition normalise (l : list (R * R)) : list (R * R) := map (fun p => (fst p, snd p / trapz l)) l.
Definition cumulative (l : list (R * R)) : list (R * R) := set_last (cumtrapz 0 (normalise l)) 1.
Definition Interped_prob (l : list (R * R)) (x : R) : option R := interp_fill (normalise l) 0 0 x.
Definition Interped_cdf (l : list (R * R)) (x : R) : option R := interp_fill (cumulative l) 0 1 x.
Definition Interped_rescale (l : list (R * R)) (u : R) : option R := interp_strict (swap (cumulative l)) u.
(** np.linspace(a, b, n) *)
Definition linspace (a b : R) (n : nat) : list R := map (fun i => a + INR i * ((b - a) / INR (n - 1))) (seq 0 n).
(** interpolated.py 159-162 [_update_instance]: the supplied nodes [all] are resampled on
    an evenly spaced grid of the same length *)
Fixpoint mapo {A B} (f : A -> option B) (l : list A) : option (list B) :=
  match l with [] => Some [] | a :: t => match f a, mapo f t with Some b, Some r => Some (b :: r) | _, _ => None end end.
Definition update_instance (all : list (R * R)) (mn mx : R) : option (list (R * R)) :=
  mapo (fun x => match interp_fill all 0 0 x with Some y => Some (x, y) | None => None end)
    (linspace mn mx (length all)).

(** slabspike.py 75-107; [F], [q]: cdf and rescale of the slab, [s] spike location,
    [h] spike height, [a] the attribute inverse_cdf_below_spike computed in __init__ *)
Section Slab.
Variables (F q : R -> R) (s : R).
Definition find_inverse_cdf_fraction_before_spike (h : R) : R := F s * (1 - h).
Definition contracted_rescale (h v : R) : R := q (v / (1 - h)).
Definition SlabSpike_rescale (a h u : R) : R :=
  if Rlt_dec u a then contracted_rescale h u
  else if Rle_dec u (a + h) then s
  else contracted_rescale h (u - h).
(** 160-176 *)
Definition SlabSpike_cdf (h x : R) : R := F x * (1 - h) + (if Rlt_dec s x then h else 0).
End Slab.
(** the object: slabspike.py 34-73; [spike_location] and [spike_height] setters check the
    range and store, only __init__ computes [inverse_cdf_below_spike]; None = ValueError *)
Record slabspike := mkSS { ss_loc : R; ss_height : R; ss_below : R }.
Section SlabObj.
Variables (F q p : R -> R) (mn mx : R).
Definition valid_loc (s : R) : bool := if Rle_dec mn s then if Rle_dec s mx then true else false else false.
Definition valid_height (h : R) : bool := if Rle_dec 0 h then if Rle_dec h 1 then true else false else false.
Definition SlabSpike_init (loc : option R) (h : R) : option slabspike :=
  let s := match loc with None => mn | Some s => s end in
  if valid_loc s then if valid_height h then
    Some (mkSS s h (find_inverse_cdf_fraction_before_spike F s h)) else None else None.
Definition set_spike_height (o : slabspike) (h : R) : option slabspike :=
  if valid_height h then Some (mkSS (ss_loc o) h (ss_below o)) else None.
Definition set_spike_location (o : slabspike) (s : R) : option slabspike :=
  if valid_loc s then Some (mkSS s (ss_height o) (ss_below o)) else None.
Definition ss_rescale (o : slabspike) (u : R) : R := SlabSpike_rescale q (ss_loc o) (ss_below o) (ss_height o) u.
Definition ss_cdf (o : slabspike) (x : R) : R := SlabSpike_cdf F (ss_loc o) (ss_height o) x.
(** 124-143; None = numpy inf *)
Definition ss_prob (o : slabspike) (x : R) : option R :=
  if Req_EM_T x (ss_loc o) then None else Some (p x * (1 - ss_height o)).
End SlabObj.
