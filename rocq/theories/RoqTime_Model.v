(** bilby/gw/likelihood/roq.py 1199-1231: the arrival time drawn after a run with marginalised time; base.py 765-787: the marginalised likelihood. *)
From Coq Require Import Reals List Bool.
From Coquelicot Require Import Complex.
Import ListNotations.
Open Scope list_scope.
Open Scope R_scope.

Section Draw.
(** distance_marginalized_likelihood (which includes the phase, if that is marginalised too), ln_i0, the prior of the time and its range *)
Variable by_distance : C -> R -> R.
Variable ln_i0 : R -> R.
Variable prob : R -> R.
Variables lowest highest : R.
(** the values at the time samples: inner products with the data, and the norm *)
Definition at_time (distance phase : bool) (h : R) (d : C) : R :=
  if distance then by_distance d h else if phase then ln_i0 (Cmod d) - h / 2 else fst d - h / 2.
Definition largest (l : list R) : R := match l with [] => 0 | x :: t => fold_left Rmax t x end.
Definition sum (l : list R) : R := fold_right Rplus 0 l.
(** 1225-1227 *)
Definition times_of (grid : list R) (jitter : option R) : list R := match jitter with Some j => map (fun t => t + j) grid | None => grid end.
(** 1217-1231: the times and their probabilities; None: 0 / 0, which the generator refuses *)
Definition time_posterior (distance phase : bool) (h : R) (ds : list C) (grid : list R) (jitter : option R) : option (list (R * R)) :=
  let ll := map (at_time distance phase h) ds in
  let times := times_of grid jitter in
  let post := map (fun q => exp (fst q - largest ll) * prob (snd q)) (combine ll times) in
  if Req_EM_T (sum post) 0 then None else Some (combine times (map (fun x => x / sum post) post)).
(** base.py 765-787: without calibration marginalisation; logsumexp of nothing is minus infinity: None *)
Definition time_marginalized (distance phase : bool) (h delta : R) (ds : list C) (grid : list R) (jitter : option R) : option R :=
  let sel := filter (fun q => (if Rle_dec lowest (snd q) then true else false) && (if Rle_dec (snd q) highest then true else false)) (combine ds (times_of grid jitter)) in
  let s := sum (map (fun q => prob (snd q) * delta * exp (at_time distance phase h (fst q))) sel) in
  if Rlt_dec 0 s then Some (ln s) else None.
End Draw.
