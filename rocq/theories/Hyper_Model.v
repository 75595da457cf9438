(** bilby/hyper/model.py and bilby/hyper/likelihood.py: population models and the hyperparameter likelihood. *)
From Coq Require Import Reals List Bool Arith String Lia Lra.
From Verif Require Import PyDict PyReal.
Import ListNotations.
Open Scope R_scope.
Open Scope list_scope.

(** *** Model, model.py 15-86.  V: parameter values, D: data, A: probabilities (numbers or arrays) *)
Section Pop.
Variables V D A : Type.
Variable veqb : V -> V -> bool.
Variables (one : A) (mul : A -> A -> A).
(** a model function: the names of its parameters (77-84) and its value *)
Record fn := mkfn { names : list string; call : D -> dict V -> A }.
(** 31-36; the cache has one entry per function *)
Record model := mkmodel { fns : list fn; cache : bool; cached : list (option (dict V * A)); pars : dict V }.
Definition new_model (l : list fn) (c : bool) : model := mkmodel l c (map (fun _ => None) l) [].
(** equality of dictionaries built from the same list of names *)
Fixpoint dict_eqb (a b : dict V) : bool :=
  match a, b with
  | [], [] => true
  | (k, x) :: s, (l, y) :: t => String.eqb k l && veqb x y && dict_eqb s t
  | _, _ => false
  end.
(** 85; None is a KeyError *)
Fixpoint select (ks : list string) (d : dict V) : option (dict V) :=
  match ks with
  | [] => Some []
  | k :: t => match dget d k, select t d with Some v, Some r => Some ((k, v) :: r) | _, _ => None end
  end.
(** 55-69; the cache entries of the functions already evaluated are kept when a later one raises *)
Fixpoint prob_loop (c : bool) (ps : dict V) (d : D) (l : list (fn * option (dict V * A))) (acc : A) : option A * list (option (dict V * A)) :=
  match l with
  | [] => (Some acc, [])
  | (f, e) :: t =>
      match select (names f) ps with
      | None => (None, e :: map snd t)
      | Some p =>
          let hit := match e with Some (q, a) => if c && dict_eqb q p then Some a else None | None => None end in
          let a := match hit with Some a => a | None => call f d p end in
          let e' := match hit with Some _ => e | None => if c then Some (p, a) else e end in
          let '(r, es) := prob_loop c ps d t (mul acc a) in (r, e' :: es)
      end
  end.
Definition prob (m : model) (d : D) : option A * model :=
  let '(r, es) := prob_loop (cache m) (pars m) d (combine (fns m) (cached m)) one in
  (r, mkmodel (fns m) (cache m) es (pars m)).
(** model.parameters.update(p) *)
Definition set_pars (m : model) (p : dict V) : model :=
  mkmodel (fns m) (cache m) (cached m) (fold_left (fun d kv => dset d (fst kv) (snd kv)) p (pars m)).
End Pop.
Arguments mkfn {V D A}. Arguments names {V D A}. Arguments call {V D A}.
Arguments mkmodel {V D A}. Arguments fns {V D A}. Arguments cache {V D A}. Arguments cached {V D A}. Arguments pars {V D A}.

(** *** HyperparameterLikelihood, likelihood.py 35-111 *)
(** numbers with infinities and nan *)
Inductive xr := XVal (r : R) | XInf | XNInf | XNan.
Definition xadd (a b : xr) : xr :=
  match a, b with
  | XNan, _ | _, XNan => XNan
  | XInf, XNInf | XNInf, XInf => XNan
  | XInf, _ | _, XInf => XInf
  | XNInf, _ | _, XNInf => XNInf
  | XVal x, XVal y => XVal (x + y)
  end.
Definition xsum (l : list xr) : xr := fold_right xadd (XVal 0) l.
(** p / prior for non-negative p and prior *)
Definition xdiv (p q : R) : xr := if Req_EM_T q 0 then if Req_EM_T p 0 then XNan else XInf else XVal (p / q).
Definition xlog (a : xr) : xr :=
  match a with XVal r => if Req_EM_T r 0 then XNInf else if Rlt_dec r 0 then XNan else XVal (ln r) | XInf => XInf | XNInf => XNan | XNan => XNan end.
Section Hyper.
Variables V Row : Type.
Variable veqb : V -> V -> bool.
(** the largest float, for np.nan_to_num *)
Variable big : R.
Definition nan_to_num (a : xr) : R := match a with XVal r => r | XInf => big | XNInf => - big | XNan => 0 end.
(** posterior.sample(n): [pick k l n] is the result of the k-th call *)
Variable pick : nat -> list Row -> nat -> list Row.
(** where the prior weights come from: a PriorDict (or a Model without cache); a function, which line 45
    wraps into a caching Model without parameters; the columns prior or log_prior *)
Inductive source := FromPriorDict (f : Row -> R) | FromFunction (f : Row -> R) | Column (f : Row -> R) | LogColumn (f : Row -> R).
(** 90-93 *)
Definition smallest (max_samples : option nat) (posteriors : list (list Row)) : option nat :=
  fold_left (fun m p => Some (match m with None => List.length p | Some k => Nat.min (List.length p) k end)) posteriors max_samples.
(** 101-110: prior weights of the downsampled posteriors, one row per posterior *)
Definition vec := list R.
Definition vmul (a b : vec) : vec := map (fun xy => fst xy * snd xy) (combine a b).
(** the wrapped sampling prior: one function without parameters; [1.0 * array] is the array *)
Definition wrapped (f : Row -> R) : model V (list Row) vec := new_model V (list Row) vec [mkfn [] (fun d _ => map f d)] true.
Fixpoint weights_loop (m : model V (list Row) vec) (l : list (list Row)) : list vec :=
  match l with
  | [] => []
  | d :: t => let '(r, m') := prob V (list Row) vec veqb [] (fun a b => match a with [] => b | _ => vmul a b end) m d in
              match r with Some a => a | None => [] end :: weights_loop m' t
  end.
Definition weights (s : source) (l : list (list Row)) : list vec :=
  match s with
  | FromPriorDict f | Column f => map (map f) l
  | LogColumn f => map (map (fun x => exp (f x))) l
  | FromFunction f => weights_loop (wrapped f) l
  end.
(** 75-111; [k] is the number of calls of sample so far *)
Definition resample (k n : nat) (posteriors : list (list Row)) : list (list Row) :=
  map (fun ip => pick (k + fst ip) (snd ip) n) (combine (seq 0 (List.length posteriors)) posteriors).
Record hyper := mkhyper { data : list (list Row); prior : list vec; n_post : nat; samples : nat; evidence : option R }.
(** 35-60; [max_samples] = None is the default 1e100 *)
Definition init (posteriors : list (list Row)) (s : source) (logz : option (list R)) (max_samples : option nat) : hyper :=
  let n := match smallest max_samples posteriors with Some n => n | None => O end in
  let d := resample 0 n posteriors in
  mkhyper d (weights s d) (List.length posteriors) n (option_map (fold_right Rplus 0) logz).
(** 64-66, for the values of the population model at the data *)
Definition term (ps qs : vec) : xr := xlog (xsum (map (fun pq => xdiv (fst pq) (snd pq)) (combine ps qs))).
Definition samples_factor (h : hyper) : R := - INR (n_post h) * ln (INR (samples h)).
Definition raw_ratio (h : hyper) (ps : list vec) : xr :=
  xadd (xsum (map (fun pq => term (fst pq) (snd pq)) (combine ps (prior h)))) (XVal (samples_factor h)).
(** 67 *)
Definition ratio (h : hyper) (ps : list vec) : R := nan_to_num (raw_ratio h ps).
(** 62-67 with the population model [m], whose values over the data form one row per posterior; None is a KeyError *)
Variables (one : list vec) (mul : list vec -> list vec -> list vec).
Definition log_likelihood_ratio (m : model V (list (list Row)) (list vec)) (h : hyper) (p : dict V) : option R * model V (list (list Row)) (list vec) :=
  let '(r, m') := prob V (list (list Row)) (list vec) veqb one mul (set_pars V (list (list Row)) (list vec) m p) (data h) in
  (option_map (ratio h) r, m').
(** 72-73; None is nan *)
Definition log_likelihood (h : hyper) (ps : list vec) : option R := option_map (fun z => z + ratio h ps) (evidence h).
End Hyper.
