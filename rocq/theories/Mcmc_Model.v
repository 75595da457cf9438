(** bilby/bilby_mcmc/sampler.py: the accept/reject rule of [BilbyMCMCSampler.step]
    (1262-1314) and of [swap_tempered_chains] (841-867) *)
From Coq Require Import Reals List.
Import ListNotations.
Open Scope R_scope.

Section Mcmc.
Context {T : Type}.
(** log prior and log likelihood; None stands for an infinite or nan value *)
Variables (logp logl : T -> option R).
Variable beta : R.
(** the exponent of alpha, 1291-1299; None when the proposal is rejected before alpha is
    computed (1278-1281, 1286-1289). The current sample always has finite values; the
    model uses 0 for them otherwise *)
Definition fin (o : option R) : R := match o with Some v => v | None => 0 end.
Definition log_alpha (log_factor : R) (curr prop : T) : option R :=
  match logp prop with
  | None => None
  | Some lp => match logl prop with
    | None => None
    | Some ll => Some (log_factor + beta * ll + lp - beta * fin (logl curr) - fin (logp curr))
    end
  end.
(** 1301-1308: the sample after one iteration, u the uniform draw *)
Definition mh_next (log_factor : R) (curr prop : T) (u : R) : T :=
  match log_alpha log_factor curr prop with
  | None => curr
  | Some la => if Rle_dec u (exp la) then prop else curr
  end.
End Mcmc.

(** 853-862: the pair of samples of two neighbouring temperatures after the swap attempt *)
Definition swap_next {T} (logl : T -> R) (betai betaj : R) (vi vj : T) (u : R) : T * T :=
  if Rle_dec u (exp ((betaj - betai) * (logl vi - logl vj))) then (vj, vi) else (vi, vj).
