(** bilby/core/prior/analytical.py: the Gaussian family of priors, over exact reals. *)
From Coq Require Import Reals Lra.
From Coquelicot Require Import Coquelicot.
From Verif Require Import PyReal Prior_Model GaussInt.
Open Scope R_scope.

(** scipy.special.erf, by its definition as an integral ([bellint x] is the integral of exp(-t^2) from 0 to x);
    erf(inf) = 1, erf(-inf) = -1 *)
Definition erf (x : R) : R := 2 / sqrt PI * bellint x.
Definition erfb (x : Rbar) : R := match x with Finite x => erf x | p_infty => 1 | m_infty => -1 end.
(** [val <= self.maximum] with a maximum that can be infinite *)
Definition below (x : R) (mx : Rbar) : bool := match mx with Finite m => if Rle_dec x m then true else false | p_infty => true | m_infty => false end.

Section Family.
(** scipy.special.erfinv inside (-1, 1); it is -inf at -1 and inf at 1 *)
Variable erfinv : R -> R.

(** ** Gaussian, 479-545 *)
Definition Gaussian_rescale (mu sigma v : R) : Rbar :=                            (* 513 *)
  if Req_EM_T v 0 then m_infty else if Req_EM_T v 1 then p_infty
  else Finite (mu + erfinv (2 * v - 1) * sqrt 2 * sigma).
Definition Gaussian_prob (mu sigma x : R) : R :=                                  (* 526 *)
  exp (- (mu - x)^2 / (2 * sigma^2)) / sqrt (2 * PI) / sigma.
Definition Gaussian_ln_prob (mu sigma x : R) : R :=                               (* 540 *)
  - (1/2) * ((mu - x)^2 / sigma^2 + ln (2 * PI * sigma^2)).
Definition Gaussian_cdf (mu sigma x : R) : R := (1 - erf ((mu - x) / sqrt 2 / sigma)) / 2. (* 543 *)

(** ** TruncatedGaussian, 550-622; the maximum can be infinite (HalfGaussian, 629-648: mu = 0, minimum = 0,
    maximum = inf) *)
Definition scaled (mu sigma : R) (b : Rbar) : Rbar := match b with Finite x => Finite ((x - mu) / sqrt 2 / sigma) | b => b end.
Definition Trunc_normalisation (mu sigma mn : R) (mx : Rbar) : R :=               (* 590-591 *)
  (erfb (scaled mu sigma mx) - erf ((mn - mu) / sqrt 2 / sigma)) / 2.
Definition Trunc_rescale (mu sigma mn : R) (mx : Rbar) (v : R) : Rbar :=          (* 599-600 *)
  let y := 2 * v * Trunc_normalisation mu sigma mn mx + erf ((mn - mu) / sqrt 2 / sigma) in
  if Req_EM_T y 1 then p_infty else Finite (erfinv y * sqrt 2 * sigma + mu).
Definition Trunc_prob (mu sigma mn : R) (mx : Rbar) (x : R) : R :=                (* 613-614 *)
  exp (- (mu - x)^2 / (2 * sigma^2)) / sqrt (2 * PI) / sigma / Trunc_normalisation mu sigma mn mx
  * (if Rle_dec mn x then if below x mx then 1 else 0 else 0).
Definition Trunc_cdf (mu sigma mn : R) (mx : Rbar) (x : R) : R :=                 (* 616-622 *)
  let c := (erf ((x - mu) / sqrt 2 / sigma) - erf ((mn - mu) / sqrt 2 / sigma)) / 2 / Trunc_normalisation mu sigma mn mx in
  let c := if below x mx then c else 1 in
  if Rlt_dec x mn then 0 else c.
Definition Half_rescale (sigma : R) := Trunc_rescale 0 sigma 0 p_infty.
Definition Half_prob (sigma : R) := Trunc_prob 0 sigma 0 p_infty.
Definition Half_cdf (sigma : R) := Trunc_cdf 0 sigma 0 p_infty.

(** ** LogNormal, 655-751; refused for sigma <= 0 (679-680) *)
Definition LogNormal_rescale (mu sigma v : R) : Rbar :=                           (* 691 *)
  if Req_EM_T v 0 then Finite 0 else if Req_EM_T v 1 then p_infty
  else Finite (exp (mu + sqrt (2 * sigma^2) * erfinv (2 * v - 1))).
Definition LogNormal_prob (mu sigma x : R) : R :=                                 (* 704-709 *)
  if Rle_dec x 0 then 0 else exp (- (ln x - mu)^2 / sigma^2 / 2) / sqrt (2 * PI) / x / sigma.
Definition LogNormal_ln_prob (mu sigma x : R) : Rbar :=                           (* 728-733 *)
  if Rle_dec x 0 then m_infty else Finite (- (ln x - mu)^2 / sigma^2 / 2 - ln (sqrt (2 * PI) * x * sigma)).
Definition LogNormal_cdf (mu sigma x : R) : R :=                                  (* 742-746 *)
  if Rle_dec x 0 then 0 else 1/2 + erf ((ln x - mu) / sigma / sqrt 2) / 2.
End Family.
