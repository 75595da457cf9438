(** bilby/bilby_mcmc/sampler.py: evidence estimators (952-1096) and temperature ladder
    (622-641, 900-926) *)
From Coq Require Import Reals List.
From Verif Require Import Interp_Model Samples_Model.
Import ListNotations.
Open Scope R_scope.

(** scipy logsumexp of finite values minus the log of their number *)
Definition ln_mean_exp (l : list R) : R := ln (Rsum (map exp l)) - ln (INR (length l)).
(** 1083-1089 [_calculate_stepping_stone]: increasing betas, one column of log likelihoods for
    every beta but the last *)
Fixpoint stepping_stone (betas : list R) (cols : list (list R)) : R :=
  match betas with
  | b :: rest => match rest, cols with
    | b' :: _, c :: cs => ln_mean_exp (map (Rmult (b' - b)) c) + stepping_stone rest cs
    | _, _ => 0
    end
  | [] => 0
  end.
(** 975-996, 1092-1093 thermodynamic integration, samples after burn-in *)
Definition avg (l : list R) : R := Rsum l / INR (length l).
Definition thermodynamic (betas : list R) (cols : list (list R)) : R := trapz (combine betas (map avg cols)).
(** 952-973 combination over ensembles: logsumexp with b = 1/N *)
Definition combined_lnZ (l : list R) : R := ln (Rsum (map (fun x => (1 / INR (length l)) * exp x) l)).
Definition combined_err (l : list R) : R := / 2 * ln (Rsum (map (fun e => (1 / INR (length l)) * exp (2 * e)) l)).

(** 631, 636: np.logspace(0, -log10(Tmax), ntemps) *)
Definition initial_betas (tmax : R) (n : nat) : list R :=
  map (fun k => Rpower 10 (0 + INR k * ((- (ln tmax / ln 10) - 0) / INR (n - 1)))) (seq 0 n).
(** 910-924: new interior temperatures. [t], [r]: old temperature and ratio of the previous
    rung; [acc]: its new temperature; [ts], [rs]: old temperatures and ratios of the rungs
    after it, without the hottest *)
Fixpoint new_temps (kappa acc t r : R) (ts rs : list R) : list R :=
  match ts, rs with
  | t' :: ts', r' :: rs' => let acc' := acc + (t' - t) * exp (kappa * (r - r')) in acc' :: new_temps kappa acc' t' r' ts' rs'
  | _, _ => []
  end.
(** the whole ladder of inverse temperatures: coldest, interior, hottest *)
Definition adapt_temperatures (kappa b0 : R) (interior : list R) (blast : R) (r0 : R) (ratios : list R) : list R :=
  b0 :: map Rinv (new_temps kappa (/ b0) (/ b0) r0 (map Rinv interior) ratios) ++ [blast].
(** 915-916 *)
Definition kappa_of (t0 nu tt : R) : R := t0 / (tt + t0) / nu.
