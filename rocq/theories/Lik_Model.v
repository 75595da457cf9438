(** bilby/core/likelihood.py: analytic likelihoods and JointLikelihood. *)
From Coq Require Import Reals List Bool Arith String Lia Lra.
From Verif Require Import PyDict PyReal.
Import ListNotations.
Open Scope R_scope.
Open Scope list_scope.

(** result of log_likelihood: a finite number, -inf, nan, or an exception *)
Inductive lval := Val (r : R) | NegInf | Nan | Raise.
Definition rsum (l : list R) : R := fold_right Rplus 0 l.
Definition vmap (f : R -> R) (v : lval) : lval := match v with Val r => Val (f r) | _ => v end.

(** 165-168 [residual] for data y and model values mu *)
Definition residual (y mu : list R) : list R := map (fun ym => fst ym - snd ym) (combine y mu).

(** *** GaussianLikelihood, 171-229 *)
Inductive noise := Known (s : R) | Each (l : list R).
(** 220-229, setter: None and numbers are accepted, arrays only with the length of the data *)
Definition set_sigma (n : nat) (s : option noise) : option (option noise) :=
  match s with
  | Some (Each l) => if Nat.eqb (List.length l) n then Some s else None
  | _ => Some s
  end.
(** 210-218: [param] is the entry 'sigma' of the parameters, None if there is no such key; a value None
    in the dictionary is [Some None] *)
Definition get_sigma (param : option (option R)) (attr : option noise) : option noise :=
  match param with Some None => None | Some (Some s) => Some (Known s) | None => attr end.
(** broadcast to the length of the residual *)
Definition sigmas (n : nat) (s : noise) : list R := match s with Known x => repeat x n | Each l => l end.
Definition gauss_term (r s : R) : R := - (r / s)^2 / 2 - ln (2 * PI * s^2) / 2.
(** 201-204; sigma 0 gives -inf + inf = nan or 0/0 = nan; no sigma: TypeError *)
Definition gaussian (r : list R) (s : option noise) : lval :=
  match s with
  | None => Raise
  | Some s =>
      let l := combine r (sigmas (List.length r) s) in
      if existsb (fun rs => if Req_EM_T (snd rs) 0 then true else false) l then Nan
      else Val (rsum (map (fun rs => gauss_term (fst rs) (snd rs)) l))
  end.

(** *** PoissonLikelihood, 257-269; counts are natural numbers (279-286), gammaln(y + 1) = ln(y!);
    counts and rates have the same length *)
Definition poisson_term (rate : R) (y : nat) : R := - rate + INR y * ln rate - ln (INR (fact y)).
Definition poisson (rate : list R) (y : list nat) : lval :=
  if existsb (fun r => if Rlt_dec r 0 then true else false) rate then Raise
  else if existsb (fun r => if Req_EM_T r 0 then true else false) rate then NegInf
  else Val (rsum (map (fun ry => poisson_term (fst ry) (snd ry)) (combine rate y))).

(** *** ExponentialLikelihood, 308-312; mean zero gives -inf + inf = nan or 0/0 = nan *)
Definition exponential (mu y : list R) : lval :=
  if existsb (fun m => if Rlt_dec m 0 then true else false) mu then NegInf
  else if existsb (fun m => if Req_EM_T m 0 then true else false) mu then Nan
  else Val (- rsum (map (fun my => ln (fst my) + snd my / fst my) (combine mu y))).

(** *** StudentTLikelihood, 370-402; [gammaln] is scipy's.  sigma is read from the attribute only *)
Definition student (gammaln : R -> R) (r : list R) (nu sigma : R) : lval :=
  if Rle_dec nu 0 then Raise
  else if Req_EM_T sigma 0 then Raise
  else
    let lam := 1 / sigma^2 in
    Val (rsum (map (fun r => - (nu + 1) * ln (1 + lam * r^2 / nu) / 2 + ln (lam / (nu * PI)) / 2
                             + gammaln ((nu + 1) / 2) - gammaln (nu / 2)) r)).

(** *** Multinomial, 429-451 *)
(** scipy's xlogy *)
Definition xlogy (d : nat) (p : R) : lval :=
  if Nat.eqb d 0 then Val 0
  else if Rlt_dec p 0 then Nan else if Req_EM_T p 0 then NegInf else Val (INR d * ln p).
(** sum of terms that are finite, -inf or nan *)
Fixpoint vsum (l : list lval) : lval :=
  match l with
  | [] => Val 0
  | v :: t => match v, vsum t with
      | Raise, _ | _, Raise => Raise
      | Nan, _ | _, Nan => Nan
      | NegInf, _ | _, NegInf => NegInf
      | Val a, Val b => Val (a + b)
      end
  end.
Definition total (data : list nat) : nat := fold_right Nat.add O data.
Definition multinomial_ln_pdf (data : list nat) (probs : list R) : lval :=
  vmap (fun s => ln (INR (fact (total data))) + s)
       (vsum (map (fun dp => vmap (fun x => x - ln (INR (fact (fst dp)))) (xlogy (fst dp) (snd dp))) (combine data probs))).
(** 433-436: [ps] are the n - 1 sampled probabilities; arrays of different length raise (broadcasting of
    arrays of length one is not modelled) *)
Definition multinomial (data : list nat) (ps : list R) : lval :=
  if Nat.eqb (List.length data) (S (List.length ps)) then multinomial_ln_pdf data (ps ++ [1 - rsum ps]) else Raise.
(** 438-445: one number 1/n for all classes *)
Definition multinomial_noise (data : list nat) (n : nat) : lval :=
  multinomial_ln_pdf data (repeat (1 / INR n) (List.length data)).

(** *** JointLikelihood, 517-570 *)
Section Joint.
Variable V : Type.
Definition pdict := list (string * V).
(** python objects: dictionaries live in a heap, a likelihood holds a reference to its dictionary and
    functions of the dictionary's content *)
Record lik := mklik { ref : nat; logl : pdict -> lval; noisel : pdict -> lval }.
Definition heap := list pdict.
Definition deref (h : heap) (i : nat) : pdict := nth i h [].
Fixpoint hset (h : heap) (i : nat) (d : pdict) : heap :=
  match h, i with [], _ => [] | _ :: t, O => d :: t | x :: t, S j => x :: hset t j d end.
Definition update (a b : pdict) : pdict := fold_left (fun d kv => dset d (fst kv) (snd kv)) b a.
Record joint := mkjoint { jref : nat; parts : list lik }.
(** 552: copy.deepcopy; the copies have their own dictionaries *)
Fixpoint deepcopy (h : heap) (l : list lik) : heap * list lik :=
  match l with
  | [] => (h, [])
  | x :: t => let '(h', t') := deepcopy (h ++ [deref h (ref x)]) t in (h', mklik (List.length h) (logl x) (noisel x) :: t')
  end.
(** 533-543 *)
Definition joint_init (h : heap) (l : list lik) : heap * joint :=
  let '(h1, l1) := deepcopy h l in
  let params := fold_left (fun d x => update d (deref h1 (ref x))) l1 [] in
  let r := List.length h1 in
  (h1 ++ [params], mkjoint r (map (fun x => mklik r (logl x) (noisel x)) l1)).
(** 550-562, the setter used on an existing object *)
Definition set_likelihoods (h : heap) (j : joint) (l : list lik) : heap * joint :=
  let '(h1, l1) := deepcopy h l in (h1, mkjoint (jref j) l1).
(** joint.parameters.update(d), joint.parameters = d *)
Definition params_update (h : heap) (j : joint) (d : pdict) : heap := hset h (jref j) (update (deref h (jref j)) d).
Definition params_rebind (h : heap) (j : joint) (d : pdict) : heap * joint := (h ++ [d], mkjoint (List.length h) (parts j)).
Definition params (h : heap) (j : joint) : pdict := deref h (jref j).
(** 564-570 *)
Definition joint_logl (h : heap) (j : joint) : lval := vsum (map (fun x => logl x (deref h (ref x))) (parts j)).
Definition joint_noise (h : heap) (j : joint) : lval := vsum (map (fun x => noisel x (deref h (ref x))) (parts j)).
End Joint.
