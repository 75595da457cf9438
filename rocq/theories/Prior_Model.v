(** Analytic priors of bilby/core/prior/analytical.py over exact reals.

    Each prior class becomes functions [X_rescale], [X_prob], [X_ln_prob],
    [X_cdf] of its constructor parameters and the argument.  Only the scalar
    branch ([isinstance(val, (float, int))]) is modelled where the code has a
    separate array branch; the array branch applies the same formula
    element-wise.  Values that can be infinite are [Rbar] (Finite / p_infty /
    m_infty).  [np.nan_to_num(e) * in_range] is modelled as
    [if in_range then e else 0]: nan_to_num makes the first factor finite, so
    the product is 0 out of range; inside the range [e] is finite for the
    parameter sets used in the theorems (hypotheses there). *)
From Coq Require Import Reals.
From Coquelicot Require Import Rbar.
From Verif Require Import PyReal.
Open Scope R_scope.

(** base.py 198-210: [(val >= self.minimum) & (val <= self.maximum)] *)
Definition in_prior_range (mn mx x : R) : bool :=
  if Rle_dec mn x then if Rle_dec x mx then true else false else false.
(** base.py 44-49: a Prior is constructed only if not [maximum <= minimum] *)
Definition range_ok (mn mx : R) : bool := if Rle_dec mx mn then false else true.
(** base.py 183-196: generic [np.log(self.prob(val))], log(0) = -inf *)
Definition generic_ln_prob (prob : R -> R) (x : R) : Rbar :=
  if Rlt_dec 0 (prob x) then Finite (ln (prob x)) else m_infty.
Definition clamp01 (c : R) : R := Rmax (Rmin c 1) 0.

(** ** Uniform, analytical.py 168-240 *)
Definition Uniform_rescale (mn mx v : R) : R := mn + v * (mx - mn).              (* 208 *)
Definition Uniform_prob (mn mx x : R) : R :=                                     (* 221 *)
  (if in_prior_range mn mx x then 1 else 0) / (mx - mn).
(** 234: [xlogy(1, bool) - xlogy(1, max - min)] *)
Definition Uniform_ln_prob (mn mx x : R) : Rbar :=
  if in_prior_range mn mx x then Finite (0 - ln (mx - mn)) else m_infty.
Definition Uniform_cdf (mn mx x : R) : R := clamp01 ((x - mn) / (mx - mn)).       (* 236-240 *)

(** ** PowerLaw, analytical.py 65-165; [x ** y] on non negative bases *)
Definition npow (x y : R) : R :=
  if Req_EM_T x 0 then (if Req_EM_T y 0 then 1 else 0) else Rpower x y.
Definition PowerLaw_rescale (alpha mn mx v : R) : R :=                           (* 108-112 *)
  if Req_EM_T alpha (-1) then mn * exp (v * ln (mx / mn))
  else npow (npow mn (1 + alpha) + v * (npow mx (1 + alpha) - npow mn (1 + alpha))) (1 / (1 + alpha)).
Definition PowerLaw_prob (alpha mn mx x : R) : R :=                              (* 125-130 *)
  if in_prior_range mn mx x then
    if Req_EM_T alpha (-1) then 1 / x / ln (mx / mn)
    else npow x alpha * (1 + alpha) / (npow mx (1 + alpha) - npow mn (1 + alpha))
  else 0.
(** 144-154: [alpha * log(val) + log(normalising) + log(1. * in_range)] *)
Definition PowerLaw_normalising (alpha mn mx : R) : R :=
  if Req_EM_T alpha (-1) then 1 / ln (mx / mn)
  else (1 + alpha) / (npow mx (1 + alpha) - npow mn (1 + alpha)).
Definition PowerLaw_ln_prob (alpha mn mx x : R) : Rbar :=
  if in_prior_range mn mx x
  then Finite (alpha * ln x + ln (PowerLaw_normalising alpha mn mx) + 0)
  else m_infty.
(** [val ** y] for any real base: nan (complex for a python float) for a
    negative base and non-integer exponent, infinite (ZeroDivisionError) for
    0 ** negative; integer powers of negative numbers are computed as such *)
Definition vpow (x y : R) : option R :=
  if Rlt_dec 0 x then Some (Rpower x y)
  else if Req_EM_T x 0 then
    (if Rlt_dec 0 y then Some 0 else if Req_EM_T y 0 then Some 1 else None)
  else if Req_EM_T y (IZR (Int_part y)) then Some (powerRZ x (Int_part y)) else None.
Definition PowerLaw_cdf (alpha mn mx x : R) : option R :=                        (* 156-165 *)
  let* c :=
    if Req_EM_T alpha (-1) then
      let* n := plog (x / mn) in pdiv n (ln (mx / mn))
    else
      let* px := vpow x (alpha + 1) in
      pdiv (px - npow mn (alpha + 1)) (npow mx (alpha + 1) - npow mn (alpha + 1)) in
  Some (clamp01 c).

(** ** LogUniform, analytical.py 243-267: PowerLaw with alpha = -1 *)
Definition LogUniform_rescale := PowerLaw_rescale (-1).
Definition LogUniform_prob := PowerLaw_prob (-1).
Definition LogUniform_ln_prob := PowerLaw_ln_prob (-1).
Definition LogUniform_cdf := PowerLaw_cdf (-1).

(** ** SymmetricLogUniform, analytical.py 270-368 *)
Definition SymLogUniform_rescale (mn mx v : R) : R :=                            (* 315-319 *)
  if Rlt_dec v (1/2) then - mx * exp (-2 * v * ln (mx / mn))
  else mn * exp (ln (mx / mn) * (2 * v - 1)).
Definition SymLogUniform_prob (mn mx x : R) : R :=                               (* 340-342 *)
  let val := Rabs x in
  if in_prior_range mn mx val then (1/2) / val / ln (mx / mn) else 0.
(** 356: no range check; nan_to_num changes only nan/inf, i.e. x = 0, where the
    value is the largest float, modelled by the parameter [big] *)
Definition SymLogUniform_ln_prob (big mn mx x : R) : Rbar :=
  if Req_EM_T x 0 then Finite big
  else Finite (- ln (2 * Rabs x) - ln (ln (mx / mn))).
Definition SymLogUniform_cdf (mn mx x : R) : R :=                                (* 358-368 *)
  let norm := (1/2) / ln (mx / mn) in
  if Rlt_dec mx x then 1
  else if in_prior_range mn mx x then 1/2 + norm * ln (x / mn)
  else if Rlt_dec (- mn) x then (if Rlt_dec x mn then 1/2 else 0)
  else if in_prior_range (- mx) (- mn) x then - norm * ln (- x / mx)
  else 0.

(** ** Cosine, analytical.py 371-422 *)
Definition Cosine_rescale (mn mx v : R) : option R :=                            (* 401-402 *)
  let* norm := pdiv 1 (sin mx - sin mn) in
  let* a := pdiv v norm in
  pasin (a + sin mn).
Definition Cosine_prob (mn mx x : R) : R :=                                      (* 415 *)
  if in_prior_range mn mx x then cos x / 2 else 0.
Definition Cosine_cdf (mn mx x : R) : R :=                                       (* 417-422 *)
  if Rlt_dec x mn then 0 else if Rlt_dec mx x then 1
  else (sin x - sin mn) / (sin mx - sin mn).

(** ** Sine, analytical.py 425-476 *)
Definition Sine_rescale (mn mx v : R) : option R :=                              (* 455-456 *)
  let* norm := pdiv 1 (cos mn - cos mx) in
  let* a := pdiv v norm in
  pacos (cos mn - a).
Definition Sine_prob (mn mx x : R) : R :=                                        (* 469 *)
  if in_prior_range mn mx x then sin x / 2 else 0.
Definition Sine_cdf (mn mx x : R) : R :=                                         (* 471-476 *)
  if Rlt_dec x mn then 0 else if Rlt_dec mx x then 1
  else (cos x - cos mn) / (cos mx - cos mn).

(** ** Exponential, analytical.py 758-838 (minimum = 0.) *)
Definition Exponential_rescale (mu v : R) : Rbar :=                              (* 785: -mu * log1p(-val) *)
  if Req_EM_T v 1 then p_infty else Finite (- mu * ln (1 + - v)).
Definition Exponential_prob (mu x : R) : R :=                                    (* 798-802 *)
  if Rlt_dec x 0 then 0 else exp (- x / mu) / mu.
Definition Exponential_ln_prob (mu x : R) : Rbar :=                              (* 819-823 *)
  if Rlt_dec x 0 then m_infty else Finite (- x / mu - ln mu).
Definition Exponential_cdf (mu x : R) : R :=                                     (* 830-834 *)
  if Rlt_dec x 0 then 0 else 1 - exp (- x / mu).

(** ** Logistic, analytical.py 1027-1104 *)
Definition Logistic_rescale (mu scale v : R) : Rbar :=                           (* 1062-1068 *)
  if Req_EM_T v 0 then m_infty else if Req_EM_T v 1 then p_infty
  else Finite (mu + scale * ln (v / (1 - v))).
Definition Logistic_ln_prob (mu scale x : R) : R :=                              (* 1100-1101 *)
  - (x - mu) / scale - 2 * ln (1 + exp (- (x - mu) / scale)) - ln scale.
Definition Logistic_prob (mu scale x : R) : R := exp (Logistic_ln_prob mu scale x). (* 1087 *)
Definition Logistic_cdf (mu scale x : R) : R := 1 / (1 + exp (- (x - mu) / scale)). (* 1104 *)

(** ** Cauchy, analytical.py 1107-1180 *)
Definition Cauchy_rescale (alpha beta v : R) : Rbar :=                           (* 1142-1147 *)
  if Req_EM_T v 1 then p_infty else if Req_EM_T v 0 then m_infty
  else Finite (alpha + beta * tan (PI * (v - 1/2))).
Definition Cauchy_prob (alpha beta x : R) : R :=                                 (* 1164 *)
  1 / beta / PI / (1 + ((x - alpha) / beta) ^ 2).
Definition Cauchy_ln_prob (alpha beta x : R) : R :=                              (* 1177 *)
  - ln (beta * PI) - ln (1 + ((x - alpha) / beta) ^ 2).
Definition Cauchy_cdf (alpha beta x : R) : R :=                                  (* 1180 *)
  1/2 + atan ((x - alpha) / beta) / PI.

(** ** FermiDirac, analytical.py 1308-1426 (r = mu/sigma) *)
Definition FermiDirac_rescale (sigma r v : R) : Rbar :=                          (* 1374-1383 *)
  let inv := - exp (-1 * r) + Rpower (1 + exp r) (- v) + exp (-1 * r) * Rpower (1 + exp r) (- v) in
  if Rlt_dec inv 0 then p_infty
  else if Req_EM_T inv 0 then p_infty           (* -sigma * log(0) = inf *)
  else Finite (- sigma * ln inv).
(** 1415-1420; [np.logaddexp(a, 0.) = log(exp(a) + 1)] *)
Definition FermiDirac_ln_prob (sigma r x : R) : Rbar :=
  let norm := - ln (sigma * ln (1 + exp r)) in
  if Rlt_dec x 0 then m_infty
  else Finite (norm - ln (exp (x / sigma - r) + exp 0)).
Definition FermiDirac_prob (sigma r x : R) : R :=                                (* 1401 *)
  match FermiDirac_ln_prob sigma r x with Finite l => exp l | _ => 0 end.

(** ** Triangular, analytical.py 1523-1624 *)
Definition Tri_fractional_mode (mode mn mx : R) : R := (mode - mn) / (mx - mn).  (* 1542 *)
Definition Tri_scale (mn mx : R) : R := mx - mn.                                 (* 1545 *)
Definition Tri_rmin (mode mn mx : R) : R := mn - ind (Req_EM_T mn mode) * Tri_scale mn mx. (* 1546 *)
Definition Tri_rmax (mode mn mx : R) : R := mx + ind (Req_EM_T mx mode) * Tri_scale mn mx. (* 1547 *)
Definition Tri_rescale (mode mn mx v : R) : option R :=                          (* 1565-1569 *)
  let* below := psqrt (v * Tri_scale mn mx * (mode - mn)) in
  let* above := psqrt ((1 - v) * Tri_scale mn mx * (mx - mode)) in
  Some ((mn + below) * ind (Rlt_dec v (Tri_fractional_mode mode mn mx)) +
        (mx - above) * ind (Rge_dec v (Tri_fractional_mode mode mn mx))).
Definition Tri_prob (mode mn mx x : R) : R :=                                    (* 1584-1596 *)
  let b1 := ind (Rlt_dec x mode) * ind (Rle_dec mn x) * (x - Tri_rmin mode mn mx) / (mode - Tri_rmin mode mn mx) in
  let b2 := ind (Rle_dec mode x) * ind (Rle_dec x mx) * (Tri_rmax mode mn mx - x) / (Tri_rmax mode mn mx - mode) in
  2 * (b1 + b2) / Tri_scale mn mx.
Definition Tri_cdf (mode mn mx x : R) : R :=                                     (* 1611-1624 *)
  ind (Rgt_dec x mode) +
  ind (Rgt_dec x mn) * ind (Rle_dec x mx) / Tri_scale mn mx *
  (ind (Rgt_dec x mode) * (Tri_rmax mode mn mx - x) ^ 2 / (mode - Tri_rmax mode mn mx) +
   ind (Rle_dec x mode) * (x - Tri_rmin mode mn mx) ^ 2 / (mode - Tri_rmin mode mn mx)).
