(** bilby/core/sampler/pymc.py: priors, likelihoods and step arguments handed to PyMC.

    A prior is the name of its class and its numeric attributes; a PyMC distribution is its name and its keyword
    arguments.  The log densities of PyMC's distributions are those of its documentation.  Interpolated priors (tables) and
    multivariate ones are not modelled. *)
From Coq Require Import String Reals List Bool Arith.
From Coquelicot Require Import Coquelicot.
From Verif Require Import PyDict PyReal Prior_Model GaussPrior_Model Lik_Model.
Import ListNotations.
Open Scope string_scope.
Open Scope list_scope.
Open Scope R_scope.

(** ** setup_prior_mapping, 157-239 *)
Inductive internal := IDelta | ISine | ICosine | IPowerLaw.
Inductive mapping :=
| Mapped (dist : string) (argmap : list (string * string)) (argtransform : list (string * (R -> R)))
| Internal (f : internal).
Definition gaussian_map := Mapped "Normal" [("mu", "mu"); ("sigma", "sigma")] [].
Definition truncated_map := Mapped "TruncatedNormal" [("mu", "mu"); ("sigma", "sigma"); ("minimum", "lower"); ("maximum", "upper")] [].
Definition half_map := Mapped "HalfNormal" [("sigma", "sigma")] [].
Definition lognormal_map := Mapped "Lognormal" [("mu", "mu"); ("sigma", "sigma")] [].
Definition cauchy_map := Mapped "Cauchy" [("alpha", "alpha"); ("beta", "beta")] [].
Definition prior_map : list (string * mapping) :=
  [("Gaussian", gaussian_map); ("TruncatedGaussian", truncated_map); ("HalfGaussian", half_map);
   ("Uniform", Mapped "Uniform" [("minimum", "lower"); ("maximum", "upper")] []);
   ("LogNormal", lognormal_map);
   ("Exponential", Mapped "Exponential" [("mu", "lam")] [("mu", fun mu => 1 / mu)]);
   ("StudentT", Mapped "StudentT" [("df", "nu"); ("mu", "mu"); ("scale", "sigma")] []);
   ("Beta", Mapped "Beta" [("alpha", "alpha"); ("beta", "beta")] []);
   ("Logistic", Mapped "Logistic" [("mu", "mu"); ("scale", "s")] []);
   ("Cauchy", cauchy_map);
   ("Gamma", Mapped "Gamma" [("k", "alpha"); ("theta", "beta")] [("theta", fun theta => 1 / theta)]);
   ("ChiSquared", Mapped "ChiSquared" [("nu", "nu")] []);
   ("Normal", gaussian_map); ("TruncatedNormal", truncated_map); ("HalfNormal", half_map);
   ("LogGaussian", lognormal_map); ("Lorentzian", cauchy_map);
   ("DeltaFunction", Internal IDelta); ("Sine", Internal ISine); ("Cosine", Internal ICosine);
   ("PowerLaw", Internal IPowerLaw); ("LogUniform", Internal IPowerLaw)].

(** What set_prior puts into pymc_priors: a number, or a distribution. *)
Inductive pymc_prior :=
| Number (x : R)
| Dist (name : string) (kw : dict R)
| PymcSine (lower upper : R)
| PymcCosine (lower upper : R)
| PymcPowerLaw (lower upper alpha : R)
| BoundPareto (upper alpha m : R).            (* pymc.Bound(pymc.Pareto, upper = upper)(key, alpha = alpha, m = m) *)
Inductive error := ValueError | TypeError | AttributeError.
Inductive res (A : Type) := Ok (a : A) | Err (e : error).
Arguments Ok {A}. Arguments Err {A}.

(** 729-772: [hasattr] decides whether an argument is passed; the names are arguments of PyMC's functions, so the check
    against reqargs succeeds; an attribute that is missing is passed as None, here left out *)
Definition transform (t : list (string * (R -> R))) (targ : string) (x : R) : R := match dget t targ with Some f => f x | None => x end.
Fixpoint prior_kwargs (argmap : list (string * string)) (t : list (string * (R -> R))) (attrs : dict R) : dict R :=
  match argmap with
  | [] => []
  | (targ, parg) :: m => match dget attrs targ with Some x => (parg, transform t targ x) :: prior_kwargs m t attrs | None => prior_kwargs m t attrs end
  end.
(** 241-404 *)
Definition internal_prior (i : internal) (attrs : dict R) : res pymc_prior :=
  match i with
  | IDelta => match dget attrs "peak" with Some x => Ok (Number x) | None => Err AttributeError end
  | ISine => match dget attrs "minimum", dget attrs "maximum" with
             | Some a, Some b => if Rle_dec b a then Err ValueError else Ok (PymcSine a b) | _, _ => Err AttributeError end
  | ICosine => match dget attrs "minimum", dget attrs "maximum" with
             | Some a, Some b => if Rle_dec b a then Err ValueError else Ok (PymcCosine a b) | _, _ => Err AttributeError end
  | IPowerLaw => match dget attrs "alpha", dget attrs "minimum", dget attrs "maximum" with
             | Some al, Some a, Some b => if Rlt_dec al (-1) then Ok (BoundPareto a (- (1 + al)) b) else Ok (PymcPowerLaw a b al)
             | _, _, _ => Err AttributeError end
  end.
(** 714-795, for one prior *)
Definition set_prior (class : string) (attrs : dict R) : res pymc_prior :=
  match dget prior_map class with
  | None => Err ValueError
  | Some (Mapped d m t) => Ok (Dist d (prior_kwargs m t attrs))
  | Some (Internal i) => internal_prior i attrs
  end.

(** ** Log densities *)
Section Densities.
Variable gammaln : R -> R.
Definition when_in (b : bool) (x : R) : Rbar := if b then Finite x else m_infty.
(** log of a number that may be zero *)
Definition blog (x : R) : Rbar := if Rlt_dec 0 x then Finite (ln x) else m_infty.
Definition normal_logp (mu sigma x : R) : R := - (1 / 2) * ((x - mu) / sigma) ^ 2 - ln (sqrt (2 * PI)) - ln sigma.
Definition normal_cdf (mu sigma x : R) : R := (1 + erf ((x - mu) / (sigma * sqrt 2))) / 2.
Definition lt (a b : R) : bool := if Rlt_dec a b then true else false.
Definition le (a b : R) : bool := if Rle_dec a b then true else false.
Definition gamma_logp (alpha beta x : R) : Rbar := when_in (le 0 x) ((alpha - 1) * ln x - beta * x + alpha * ln beta - gammaln alpha).
Definition dist_logp (name : string) (kw : dict R) (x : R) : option Rbar :=
  let two a b (f : R -> R -> Rbar) := match dget kw a, dget kw b with Some p, Some q => Some (f p q) | _, _ => None end in
  let is s := String.eqb name s in
  if is "Normal" then two "mu" "sigma" (fun mu sigma => Finite (normal_logp mu sigma x))
  else if is "TruncatedNormal" then
    match dget kw "lower", dget kw "upper" with
    | Some lo, Some hi => two "mu" "sigma" (fun mu sigma => when_in (le lo x && le x hi) (normal_logp mu sigma x - ln (normal_cdf mu sigma hi - normal_cdf mu sigma lo)))
    | _, _ => None end
  else if is "HalfNormal" then match dget kw "sigma" with Some s => Some (when_in (le 0 x) (- (1 / 2) * (x / s) ^ 2 + ln (sqrt (2 / PI) / s))) | None => None end
  else if is "Uniform" then two "lower" "upper" (fun lo hi => when_in (le lo x && le x hi) (- ln (hi - lo)))
  else if is "Lognormal" then two "mu" "sigma" (fun mu sigma => when_in (lt 0 x) (normal_logp mu sigma (ln x) - ln x))
  else if is "Exponential" then match dget kw "lam" with Some l => Some (when_in (le 0 x) (ln l - l * x)) | None => None end
  else if is "StudentT" then
    match dget kw "nu" with
    | Some nu => two "mu" "sigma" (fun mu sigma => let lam := / sigma ^ 2 in
        Finite (gammaln ((nu + 1) / 2) + ln (lam / (nu * PI)) / 2 - gammaln (nu / 2) - (nu + 1) / 2 * ln (1 + lam * (x - mu) ^ 2 / nu)))
    | None => None end
  else if is "Beta" then two "alpha" "beta" (fun a b => when_in (le 0 x && le x 1) ((a - 1) * ln x + (b - 1) * ln (1 - x) - (gammaln a + gammaln b - gammaln (a + b))))
  else if is "Logistic" then two "mu" "s" (fun mu s => Finite (- (x - mu) / s - ln s - 2 * ln (1 + exp (- (x - mu) / s))))
  else if is "Cauchy" then two "alpha" "beta" (fun a b => Finite (- ln PI - ln b - ln (1 + ((x - a) / b) ^ 2)))
  else if is "Gamma" then two "alpha" "beta" (fun a b => gamma_logp a b x)
  else if is "ChiSquared" then match dget kw "nu" with Some nu => Some (gamma_logp (nu / 2) (1 / 2) x) | None => None end
  else None.
(** 252-404: the distributions written in pymc.py *)
Definition pymc_logp (d : pymc_prior) (x : R) : option Rbar :=
  match d with
  | Number _ => None
  | Dist n kw => dist_logp n kw x
  | PymcSine lo hi => Some (if le lo x && le x hi then blog (sin x / (cos lo - cos hi)) else m_infty)
  | PymcCosine lo hi => Some (if le lo x && le x hi then blog (cos x / (sin hi - sin lo)) else m_infty)
  | PymcPowerLaw lo hi al =>
      let norm := if Req_EM_T al (-1) then 1 / ln (hi / lo) else 1 / ((1 + al) * (npow hi (1 + al) - npow lo (1 + al))) in
      Some (when_in (le lo x && le x hi) (al * ln x + ln norm))
  | BoundPareto up al m => Some (when_in (le m x && le x up) (ln al + al * ln m - (al + 1) * ln x))
  end.

(** ** The remaining log densities of bilby/core/prior/analytical.py *)
(** StudentT, 904-916 *)
Definition StudentT_ln_prob (df mu scale x : R) : R :=
  gammaln (1 / 2 * (df + 1)) - gammaln (1 / 2 * df) - ln (sqrt (PI * df) * scale) - (df + 1) / 2 * ln (1 + ((x - mu) / scale) ^ 2 / df).
(** Beta, 985-1004, away from the two ends; betaln a b = gammaln a + gammaln b - gammaln (a + b) *)
Definition Beta_ln_prob (a b mn mx x : R) : Rbar :=
  when_in (in_prior_range mn mx x) ((a - 1) * ln (x - mn) + (b - 1) * ln (mx - x) - (gammaln a + gammaln b - gammaln (a + b)) - (a + b - 1) * ln (mx - mn)).
(** Gamma, 1234-1259, away from zero *)
Definition Gamma_ln_prob (k theta x : R) : Rbar :=
  if Rlt_dec x 0 then m_infty else Finite ((k - 1) * ln x - x / theta - k * ln theta - gammaln k).
End Densities.

(** ** set_likelihood, 797-998: the predefined likelihoods at one point

    [point] holds the value of every entry of pymc_priors at the point; [func] is the function of the likelihood at the data
    points, with [None] if it is called with missing or unknown arguments (TypeError). *)
Section Likelihoods.
Variable gammaln : R -> R.
Variable func : dict R -> option (list R).
Definition keys_known (fkeys : list string) (point : dict R) : bool := forallb (fun k => existsb (String.eqb k) fkeys) (dkeys point).
(** 866-889, GaussianLikelihood.  A sampled sigma is a PyMC variable without a length: the setter of the likelihood raises
    TypeError (core/likelihood.py 220-229) *)
Definition pymc_gaussian (fkeys : list string) (point : dict R) (sigma : option noise) (y : list R) : res lval :=
  let r := if dmem point "sigma" then match sigma with None => Err TypeError | Some _ => Ok (ddel point "sigma") end else Ok point in
  match r with
  | Err e => Err e
  | Ok p =>
      if negb (keys_known fkeys p) then Err ValueError else
      match func p with
      | None => Err TypeError
      | Some mu =>
          (* pymc.Normal with sigma = None has unit width *)
          let s := sigmas (length mu) (match sigma with Some s => s | None => Known 1 end) in
          Ok (Val (rsum (map (fun q => normal_logp (fst (fst q)) (snd (fst q)) (snd q)) (combine (combine mu s) y))))
      end
  end.
(** 894-911; PyMC's Poisson: zero counts are certain at rate zero *)
Definition poisson_logp (mu : R) (y : nat) : Rbar :=
  if Req_EM_T mu 0 then (match y with O => Finite 0 | _ => m_infty end) else Finite (INR y * ln mu - ln (INR (fact y)) - mu).
Fixpoint bsum (l : list Rbar) : lval :=
  match l with
  | [] => Val 0
  | Finite x :: t => vmap (Rplus x) (bsum t)
  | _ :: t => match bsum t with Val _ | NegInf => NegInf | v => v end
  end.
Definition pymc_poisson (fkeys : list string) (point : dict R) (y : list nat) : res lval :=
  if negb (keys_known fkeys point) then Err ValueError else
  match func point with
  | None => Err TypeError
  | Some mu => if existsb (fun m => lt m 0) mu then Err ValueError else Ok (bsum (map (fun q => poisson_logp (fst q) (snd q)) (combine mu y)))
  end.
(** 912-932 *)
Definition pymc_exponential (fkeys : list string) (point : dict R) (y : list R) : res lval :=
  if negb (keys_known fkeys point) then Err ValueError else
  match func point with
  | None => Err TypeError
  | Some mu => if existsb (fun m => le m 0) mu then Err ValueError else Ok (Val (rsum (map (fun q => ln (1 / fst q) - 1 / fst q * snd q) (combine mu y))))
  end.
(** 933-969; [nu] is what the property of the likelihood returns.  A sampled nu is stored in the attribute, but the property
    returns the entry None of the parameters (core/likelihood.py 391-402), which PyMC refuses *)
Definition pymc_student (fkeys : list string) (point : dict R) (nu : option R) (sigma : R) (y : list R) : res lval :=
  let p := if dmem point "nu" then ddel point "nu" else point in
  if negb (keys_known fkeys p) then Err ValueError else
  match func p with
  | None => Err TypeError
  | Some mu => match nu with
      | None => Err TypeError
      | Some nu => Ok (Val (rsum (map (fun q => let lam := / sigma ^ 2 in
          gammaln ((nu + 1) / 2) + ln (lam / (nu * PI)) / 2 - gammaln (nu / 2) - (nu + 1) / 2 * ln (1 + lam * (snd q - fst q) ^ 2 / nu)) (combine mu y))))
      end
  end.
End Likelihoods.

(** ** run_sampler, 534-626: arguments of the step methods; [V] is the type of an argument *)
Section Steps.
Variable V : Type.
Notation args := (dict V).
(** 545-560 and the same for step_kwargs, 531-543: given together, or those of the single arguments that are set *)
Fixpoint pick (names : list string) (single : dict V) : args :=
  match names with [] => [] | k :: t => match dget single k with Some v => (k, v) :: pick t single | None => pick t single end end.
Definition nuts_kwargs (names : list string) (given : option args) (single : dict V) : args := match given with Some d => d | None => pick names single end.
(** 686-697: nuts_kwargs is a dictionary at this place, never None *)
Definition get_nuts_args (nuts : option args) (step : option (dict args)) : args :=
  match nuts with Some d => d | None => match step with Some s => match dget s "nuts" with Some a => a | None => [] end | None => [] end end.
Definition method_args (method : string) (nuts : option args) (step : dict args) : args :=
  if String.eqb method "nuts" then get_nuts_args nuts (Some step) else match dget step method with Some a => a | None => [] end.
(** 562-627: the methods with their arguments, and the arguments added to those of pymc.sample; if all methods are NUTS no
    method is passed *)
Definition steps (names : list string) (given : option args) (single : dict V) (step : dict args) (methods : list string) : list (string * args) * args :=
  let nuts := nuts_kwargs names given single in
  if forallb (String.eqb "nuts") methods then ([], nuts) else (map (fun m => (m, method_args m (Some nuts) step)) methods, []).
End Steps.
