(** * Categorical prior, generic cdf, equality of priors, filling and copying prior dictionaries, credible levels
    Model of Categorical (/repo/bilby/core/prior/analytical.py 1429-1520), Prior.cdf (/repo/bilby/core/prior/base.py
    169-182), Prior.__eq__ (base.py 69-117), PriorDict.convert_floats_to_delta_functions, fill_priors and copy
    (/repo/bilby/core/prior/dict.py 307-364, 643-648) and Result.get_injection_credible_level,
    get_all_injection_credible_levels (/repo/bilby/core/result.py 1503-1571). *)
From Coq Require Import String.
From Coq Require Import Reals List Bool Arith ZArith.
From Verif Require Import Mband_Model Interp_Model PyDict.
Import ListNotations.
Open Scope R_scope.

(** ** Categorical *)
(** [ncategories - 1 + 1e-15] in double precision: for m = ncategories - 1 >= 1 with 2^e <= m < 2^(e+1) the spacing of
    the numbers next to m is 2^(e-52), and 1e-15 is rounded to [offset_units e] spacings (nearest). *)
Definition offset_units (e : Z) : Z := ((2 * 2 ^ 52 + 10 ^ 15 * 2 ^ e) / (2 * 10 ^ 15 * 2 ^ e))%Z.
(** the part of maximum above ncategories - 1 *)
Definition cat_offset (n : Z) : R :=
  if Z.eqb n 1 then 1 / IZR (10 ^ 15)
  else IZR (offset_units (Z.log2 (n - 1)) * 2 ^ Z.log2 (n - 1)) / IZR (2 ^ 52).
(** analytical.py 1451 *)
Definition cat_max (n : Z) : R := IZR (n - 1) + cat_offset n.
(** 1456: np.arange(0, maximum) has ceil(maximum) elements *)
Definition categories (n : Z) : list R := map (fun i => INR i) (seq 0 (Z.to_nat (zceil (cat_max n)))).
(** 1476; the rounding of the sum and the product is not modelled *)
Definition cat_rescale (n : Z) (u : R) : R := IZR (zfloor (u * (1 + cat_max n))).
(** 1478-1498, for one value *)
Definition cat_prob (n : Z) (v : R) : R := if in_dec Req_EM_T v (categories n) then 1 / IZR n else 0.
(** 1500-1520; [None]: minus infinity *)
Definition cat_ln_prob (n : Z) (v : R) : option R := if in_dec Req_EM_T v (categories n) then Some (- ln (IZR n)) else None.

(** ** Prior.cdf, base.py 169-182 *)
Definition cdf_table (prob : R -> R) (mn mx : R) : list (R * R) := map (fun x => (x, prob x)) (linspace mn mx 1000).
Definition generic_cdf (prob : R -> R) (mn mx x : R) : option R := interp_fill (cumtrapz 0 (cdf_table prob mn mx)) 0 1 x.

(** ** Prior.__eq__ *)
(** values of instantiation arguments: a number ([None]: NaN), a text, None, an array, a frozen scipy distribution, a prior
    given by its class, the sorted names in its __dict__, and the instantiation arguments in the order of the signature *)
Inductive pv := VNum (x : option R) | VStr (s : string) | VNone | VArr (l : list (option R)) | VFrozen (id : nat)
  | VPrior (c : string) (attrs : list string) (args : list (string * pv)).
Definition num_eq (a b : option R) : bool := match a, b with Some x, Some y => if Req_EM_T x y then true else false | _, _ => false end.
Definition arr_eq (a b : list (option R)) : bool := Nat.eqb (length a) (length b) && forallb (fun p => num_eq (fst p) (snd p)) (combine a b).
Definition same_names (a b : list string) : bool := if list_eq_dec string_dec a b then true else false.
Fixpoint lookup (d : list (string * pv)) (k : string) : option pv :=
  match d with [] => None | (k', v) :: t => if String.eqb k k' then Some v else lookup t k end.
(** [not (a == b)] for an array [b]: an array is made; its truth value is an error unless it has one element *)
Definition against_array (f : option R -> bool) (l : list (option R)) : option bool := match l with [x] => Some (f x) | _ => None end.
(** one argument, base.py 109-116; [None]: an exception *)
Fixpoint arg_eq (a b : pv) {struct a} : option bool :=
  match a with
  | VArr l => match b with VArr l' => Some (arr_eq l l') | _ => Some false end
  | VFrozen _ => Some true
  | VNum x => match b with VNum y => Some (num_eq x y) | VArr l => against_array (num_eq x) l | _ => Some false end
  | VStr s => match b with VStr t => Some (String.eqb s t) | VArr l => against_array (fun _ => false) l | _ => Some false end
  | VNone => match b with VNone => Some true | VArr l => against_array (fun _ => false) l | _ => Some false end
  | VPrior c attrs args =>
      match b with
      | VPrior c' attrs' args' =>
          if negb (String.eqb c c') then Some false
          else if negb (same_names attrs attrs') then Some false
          else (fix go (d : list (string * pv)) : option bool :=
                  match d with
                  | [] => Some true
                  | (k, v) :: t =>
                      if String.eqb k "least_recently_sampled" then go t
                      else match lookup args' k with
                           | None => None
                           | Some v' => match arg_eq v v' with Some true => go t | r => r end
                           end
                  end) args
      | _ => Some false
      end
  end.
(** Prior.__eq__ *)
Definition prior_eq (a b : pv) : option bool := arg_eq a b.

(** ** Prior dictionaries *)
Section Fill.
(** priors, the number a fixed value may be given as, and the values that are neither *)
Context {P O : Type}.
Inductive entry := EPrior (p : P) | ENumber (x : R) | EOther (o : O).
Variable delta : R -> P.
(** test_redundancy of the class, looking at the dictionary; create_default_prior *)
Variable redundant : dict entry -> string -> bool.
Variable default : string -> option P.
(** convert_floats_to_delta_functions, dict.py 307-318 *)
Definition convert_floats (d : dict entry) : dict entry :=
  map (fun kv => (fst kv, match snd kv with ENumber x => EPrior (delta x) | e => e end)) d.
(** one turn of the loop, 349-361 *)
Definition fill_step (d : dict entry) (k : string) : dict entry :=
  if redundant d k then d else match default k with None => d | Some p => dset d k (EPrior p) end.
(** fill_priors; [missing]: the set of missing keys in the order in which it is iterated over *)
Definition fill_from (missing : list string) (d : dict entry) : dict entry := fold_left fill_step missing (convert_floats d).
(** an order of the set: [params] without repetitions and without the keys present *)
Definition is_missing (params : list string) (d : dict entry) (missing : list string) : Prop :=
  NoDup missing /\ forall k, In k missing <-> In k params /\ ~ In k (dkeys d).
(** copy, 643-648 with 46-53: the class is called with the dictionary alone, so conversion_function is its default *)
Definition conversion := dict R -> dict R.
Record prior_dict := mkPD { pd_entries : dict entry; pd_conversion : conversion }.
Variable default_conversion : conversion.
Definition pd_copy (d : prior_dict) : prior_dict := mkPD (convert_floats (pd_entries d)) default_conversion.
(** evaluate_constraints, 56-62; [allowed]: the range of a Constraint entry, [None] for other priors *)
Variable allowed : P -> option (R * R).
Definition satisfied (e : entry) (x : R) : bool :=
  match e with
  | EPrior p => match allowed p with Some (lo, hi) => (if Rlt_dec lo x then true else false) && (if Rlt_dec x hi then true else false) | None => true end
  | _ => true
  end.
Definition evaluate_constraints (d : prior_dict) (s : dict R) : bool :=
  let out := pd_conversion d s in
  forallb (fun kv => match dget out (fst kv) with Some x => satisfied (snd kv) x | None => true end) (pd_entries d).
End Fill.

(** ** Credible levels *)
(** result.py 1561-1569; [None] weights: equal *)
Definition below (x v : R) : R := if Rlt_dec x v then 1 else 0.
Definition credible_level (samples weights : list R) (v : R) : R :=
  fold_right Rplus 0 (map (fun p => below (fst p) v * snd p) (combine samples weights)) / fold_right Rplus 0 weights.
Definition credible_level_equal (samples : list R) (v : R) : R := credible_level samples (repeat 1 (length samples)) v.
(** an injected value is a float or something else (an int, an array, a text), 1532 *)
Inductive injected := IFloat (x : R) | IOther.
(** get_all_injection_credible_levels; [posterior]: the samples of each parameter; a parameter without samples gives NaN *)
Definition all_levels (keys : list string) (inj : dict injected) (posterior : dict (list R)) : list (string * option R) :=
  flat_map (fun k => match dget inj k with
                     | Some (IFloat x) => [(k, option_map (fun s => credible_level_equal s x) (dget posterior k))]
                     | _ => []
                     end) keys.
