(** bilby/core/prior/conditional.py: the condition state machine of a conditional
    prior (lines 152-215) and DirichletElement (lines 325-387) with
    DirichletPriorDict (dict.py 905-917). *)
From Coq Require Import Reals String List Bool Arith.
From Verif Require Import PyDict.
Import ListNotations.
Open Scope string_scope.
Open Scope list_scope.

(** [sorted(a) == sorted(b)] for lists of strings *)
Fixpoint remove1 (k : string) (l : list string) : option (list string) :=
  match l with
  | [] => None
  | x :: t => if String.eqb k x then Some t else option_map (cons x) (remove1 k t)
  end.
Fixpoint same_sorted (a b : list string) : bool :=
  match a with
  | [] => match b with [] => true | _ => false end
  | x :: a' => match remove1 x b with Some b' => same_sorted a' b' | None => false end
  end.
Section C.
Context {A V : Type}.
(** [for key, value in parameters.items(): setattr(self, key, value)] *)
Definition set_all (attrs params : dict A) : dict A := fold_left (fun d kv => dset d (fst kv) (snd kv)) params attrs.
(** the object: reference parameters, required variables and condition function never
    change; the attributes do *)
Variable ref : dict A.
Variable required : list string.
Variable cf : dict A -> dict V -> dict A.
(** 152-178 [update_conditions]; None = IllegalRequiredVariablesException *)
Definition update_conditions (attrs : dict A) (rv : dict V) : dict A * option (dict A) :=
  if same_sorted (dkeys rv) required then
    let a := set_all attrs (cf ref rv) in (a, Some a)
  else match rv with
       | [] => (attrs, Some attrs)
       | _ => (attrs, None)
       end.
(** 209-215 *)
Definition reset_to_reference_parameters (attrs : dict A) : dict A := set_all attrs ref.
(** prob, ln_prob, cdf, rescale and sample all start with update_conditions; the
    second component is the attribute set they use *)
Inductive cop := CEval (rv : dict V) | CReset.
Definition cstep (attrs : dict A) (o : cop) : dict A :=
  match o with CEval rv => fst (update_conditions attrs rv) | CReset => reset_to_reference_parameters attrs end.
Definition crun (attrs : dict A) (l : list cop) : dict A := fold_left cstep l attrs.
End C.
Arguments cop : clear implicits.

(** ** Dirichlet elements.  [n] dimensions give [n-1] elements; element [order] is a Beta
    prior with alpha = 1, beta = n - order - 1 on [0, remaining].
    [btdtri b u] is scipy's inverse Beta(1, b) distribution function. *)
Open Scope R_scope.
Section Dir.
Variable btdtri : nat -> R -> R.
(** conditional.py 372-375 *)
Definition dirichlet_remaining (previous : list R) : R := 1 - fold_right Rplus 0 previous.
(** analytical.py 964-970 on [0, remaining] *)
Definition dirichlet_element_rescale (n order : nat) (previous : list R) (u : R) : R :=
  btdtri (n - order - 1) u * (dirichlet_remaining previous - 0) + 0.
(** dict.py 847-855 for the keys label0, label1, ... in order *)
Fixpoint dirichlet_rescale (n : nat) (previous us : list R) : list R :=
  match us with
  | [] => previous
  | u :: t => dirichlet_rescale n (previous ++ [dirichlet_element_rescale n (List.length previous) previous u]) t
  end.
End Dir.
(** analytical.py 985-1003 with alpha = 1, minimum = 0 and betaln(1, b) = - ln b:
    log density of one element inside its support *)
Definition dirichlet_element_ln_prob (n order : nat) (previous : list R) (x : R) : R :=
  let b := INR (n - order - 1) in let m := dirichlet_remaining previous in
  0 + (b - 1) * ln (m - x) - (- ln b) - (1 + b - 1) * ln (m - 0).
(** scipy.special.btdtri(1, b, u): the inverse of 1 - (1 - y)^b *)
Definition beta1_quantile (b : nat) (u : R) : R := 1 - (if Req_EM_T u 1 then 0 else Rpower (1 - u) (/ INR b)).
