(** * Sampler base class: sorting of parameters, keyword arguments, initial points
    Model of /repo/bilby/core/sampler/base_sampler.py 302-367, 511-639, 716-721, 834-891 and of the
    alias translation shared by the samplers (e.g. sampler/dynesty.py 266-282). *)
From Coq Require Import Reals List String Bool Arith.
From Verif Require Import PyDict.
Import ListNotations.
Open Scope R_scope. Open Scope list_scope.

(** ** Parameters *)
(** What _initialise_parameters looks at (base_sampler.py 357-367): isinstance(Prior), is_fixed,
    isinstance(Constraint), isinstance(DeltaFunction) with the value its sample() returns
    (prior/analytical.py 30-44). *)
Record pinfo := mkI { is_prior : bool; is_fixed : bool; is_constraint : bool; delta : option R }.
(** [search_parameter_keys], [constraint_parameter_keys], [fixed_parameter_keys] and
    [likelihood.parameters] (base_sampler.py 252-254, 366). *)
Record split := mkSp { search : list string; constr : list string; fixed : list string; lparams : dict R }.
(** One turn of the loop, base_sampler.py 358-367. *)
Definition init_step (s : split) (kp : string * pinfo) : split :=
  let '(k, p) := kp in
  if (is_prior p && negb (is_fixed p))%bool then mkSp (search s ++ [k]) (constr s) (fixed s) (lparams s)
  else if is_constraint p then mkSp (search s) (constr s ++ [k]) (fixed s) (lparams s)
  else match delta p with
       | Some x => mkSp (search s) (constr s) (fixed s ++ [k]) (dset (lparams s) k x)
       | None => s
       end.
(** _initialise_parameters, base_sampler.py 351-367. *)
Definition initialise (priors : dict pinfo) (params : dict R) : split := fold_left init_step priors (mkSp [] [] [] params).
(** dict.update *)
Definition dupdate {V} (d e : dict V) : dict V := fold_left (fun d kv => dset d (fst kv) (snd kv)) e d.
(** [{key: t for key, t in zip(self._search_parameter_keys, theta)}], base_sampler.py 524, 546: zip stops
    at the shorter list. *)
Definition params_of (keys : list string) (theta : list R) : dict R := dupdate [] (combine keys theta).
(** The parameters the likelihood sees in log_likelihood(theta), base_sampler.py 546-551. *)
Definition call (s : split) (theta : list R) : split :=
  mkSp (search s) (constr s) (fixed s) (dupdate (lparams s) (params_of (search s) theta)).
Definition calls (s : split) (thetas : list (list R)) : split := fold_left call thetas s.

(** ** Keyword arguments *)
Section Kwargs.
Context {V : Type}.
(** One alias: [if equiv in kwargs: kwargs[key] = kwargs.pop(equiv)], base_sampler.py 317-318; the list
    collects the values passed to set_seed (319). *)
Definition alias_step (key : string) (s : dict V * list V) (a : string) : dict V * list V :=
  match dget (fst s) a with
  | Some v => (dset (ddel (fst s) a) key v, snd s ++ [v])
  | None => s
  end.
(** Translation of one group of names, base_sampler.py 315-319, dynesty.py 268-271, 272-274, 275-278,
    279-282 (only the first calls set_seed). *)
Definition translate1 (kw : dict V) (rule : string * list string) : dict V * list V :=
  if dmem kw (fst rule) then (kw, []) else fold_left (alias_step (fst rule)) (snd rule) (kw, []).
(** _translate_kwargs: the groups one after the other. *)
Definition translate (rules : list (string * list string)) (kw : dict V) : dict V :=
  fold_left (fun kw r => fst (translate1 kw r)) rules kw.
(** _verify_kwargs_against_default_kwargs, base_sampler.py 335-349. *)
Definition verify (defaults kw : dict V) : dict V :=
  fold_left (fun d k => ddel d k) (filter (fun k => negb (dmem defaults k)) (dkeys kw)) kw.
(** kwargs.setter, base_sampler.py 302-307. *)
Definition set_kwargs (defaults : dict V) rules (kw : dict V) : dict V := verify defaults (dupdate defaults (translate rules kw)).
(** npool, base_sampler.py 716-721. *)
Fixpoint npool (names : list string) (kw : dict V) (own : V) : V :=
  match names with
  | [] => own
  | n :: ns => match dget kw n with Some v => v | None => npool ns kw own end
  end.
End Kwargs.

(** ** Initial points *)
(** Python floats as far as _check_bad_value distinguishes them. *)
Inductive pyfloat := Fin (x : R) | PInf | NInf | NaN.
Section Initial.
(** [big] is numpy.nan_to_num(numpy.inf), the largest double. *)
Variable big : R.
(** _check_bad_value, base_sampler.py 631-639. *)
Definition good_value (v : pyfloat) : bool :=
  match v with
  | Fin x => if Req_EM_T (Rabs x) big then false else true
  | _ => false
  end.
Variable transform : list R -> list R.
Variables logp logl : list R -> pyfloat.
(** check_draw, base_sampler.py 604-629. *)
Definition check_draw (theta : list R) : bool := (good_value (logp theta) && good_value (logl theta))%bool.
(** The unit-cube draws of the generator (595); number [i] is the [i]-th draw. *)
Variable draw : nat -> list R.
Record points := mkPts { units : list (list R); thetas : list (list R); likes : list pyfloat; used : nat; evals : nat }.
(** The while loop, base_sampler.py 594-600, with at most [fuel] turns; the loop of the program has no
    bound, [None] means it is still running. check_draw evaluates the likelihood once (624), an accepted
    point once more (600). *)
Fixpoint initial_points (fuel npoints : nat) (s : points) : option points :=
  if (List.length (units s) <? npoints)%nat then
    match fuel with
    | O => None
    | S f => let u := draw (used s) in let th := transform u in
        initial_points f npoints
          (if check_draw th then mkPts (units s ++ [u]) (thetas s ++ [th]) (likes s ++ [logl th]) (S (used s)) (evals s + 2)
           else mkPts (units s) (thetas s) (likes s) (S (used s)) (evals s + 1))
    end
  else Some s.
Definition get_initial_points fuel npoints := initial_points fuel npoints (mkPts [] [] [] 0 0).
(** NestedSampler.log_likelihood, base_sampler.py 872-891. *)
Definition nested_logl (constraints : list R -> bool) (like : list R -> pyfloat) (theta : list R) : pyfloat :=
  if constraints theta then like theta else Fin (- big).
End Initial.

(** ** Reordering of likelihoods *)
(** [np.where(np.all(row == unsorted, axis=1))[0][0]], base_sampler.py 863-869; [None] is the IndexError. *)
Fixpoint first_match (row : list R) (rows : list (list R)) : option nat :=
  match rows with
  | [] => None
  | r :: rs => if list_eq_dec Req_EM_T row r then Some 0%nat else option_map S (first_match row rs)
  end.
(** reorder_loglikelihoods, base_sampler.py 834-870: a turn per likelihood, reading [sorted[ii]]. *)
Fixpoint reorder (n : nat) (logls : list R) (unsorted sorted : list (list R)) : option (list R) :=
  match n, sorted with
  | O, _ => Some []
  | S m, row :: rows =>
      match first_match row unsorted, reorder m logls unsorted rows with
      | Some i, Some r => match nth_error logls i with Some l => Some (l :: r) | None => None end
      | _, _ => None
      end
  | S _, [] => None
  end.
Definition reorder_loglikelihoods (logls : list R) (unsorted sorted : list (list R)) : option (list R) :=
  reorder (List.length logls) logls unsorted sorted.
