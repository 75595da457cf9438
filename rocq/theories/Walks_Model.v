(** bilby/core/sampler/dynesty_utils.py 28-60: adaptation of the length of the random walks of the live
    point samplers, and the flag to rebuild the cache. *)
From Coq Require Import Reals ZArith List Bool.
From Verif Require Import PyReal.
Import ListNotations.
Open Scope R_scope.

(** walks, kwargs["walks"], rebuild and kwargs["rebuild"] (None: not there yet) *)
Record sampler := Sampler { walks : R; kw_walks : Z; rebuild : bool; kw_rebuild : option bool }.
(** blob: accepted steps, and the number of cached points left if the method tracks it *)
Record blob := Blob { accept : R; remaining : option Z }.
(** int(np.ceil(x)) *)
Definition ceil (x : R) : Z := (- Int_part (- x))%Z.
(** 30-58, the scale left out; None = ZeroDivisionError, with the flags as they are then *)
Definition flags (s : sampler) (b : blob) (update : bool) : bool * option bool :=
  let r := match remaining b with Some r => if (r =? 1)%Z then true else rebuild s | None => rebuild s end in
  if update then (false, Some r) else (r, kw_rebuild s).
Definition update_user (nlive target maxmcmc : Z) (s : sampler) (b : blob) (update : bool) : option sampler :=
  let (r, kr) := flags s b update in
  if (kw_walks s =? 0)%Z then None else
  let accept_prob := Rmax (1 / 2) (accept b) / IZR (kw_walks s) in
  let delay := (nlive / 10 - 1)%Z in
  if (delay + 1 =? 0)%Z then None else
  let w := (walks s * IZR delay + IZR target / accept_prob) / IZR (delay + 1) in
  Some (Sampler w (Z.min (ceil w) maxmcmc) r kr).
Fixpoint updates (nlive target maxmcmc : Z) (s : sampler) (l : list (blob * bool)) : option sampler :=
  match l with
  | [] => Some s
  | (b, u) :: t => match update_user nlive target maxmcmc s b u with Some s => updates nlive target maxmcmc s t | None => None end
  end.
