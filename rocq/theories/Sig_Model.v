(** core/utils/introspection.py 5-103, core/likelihood.py 111-170, 583-590, core/prior/conditional.py 152-198, hyper/model.py 72-87:
    the parameters of a function inferred from its signature, and the calls made with them. *)
From Coq Require Import String List Bool Arith.
From Verif Require Import PyDict.
Import ListNotations.
Open Scope string_scope.
Open Scope list_scope.

(** the signature of a Python function: the positional parameters with whether they have a default, how many of them are
    positional-only, whether there is *args, the keyword-only ones, and whether there is **kwargs *)
Record sig := Sig { positional : list (string * bool); only : nat; star : bool; keyword_only : list (string * bool); starstar : bool }.
Inductive err := TypeError | KeyError | ValueError | IllegalRequiredVariablesException.
Inductive res (A : Type) := Ok (a : A) | Raise (e : err).
Arguments Ok {A} a. Arguments Raise {A} e.

Section Call.
Variable V : Type.
(** what the body sees: every named parameter with its value, None for its default; *args; **kwargs *)
Record binding := Binding { named : list (string * option V); extra_args : list V; extra_kwargs : dict V }.

(** The Python call f(a1, .., an, k1=v1, ..), Python language reference 6.3.4.  The names that take keywords: *)
Definition by_keyword (s : sig) : list string := skipn (only s) (map fst (positional s)) ++ map fst (keyword_only s).
Definition mem (k : string) (l : list string) : bool := existsb (String.eqb k) l.
(** i counts the positional parameters *)
Fixpoint fill (only_ i : nat) (ps : list (string * bool)) (args : list V) (kw : dict V) : option (list (string * option V)) :=
  match ps with
  | [] => Some []
  | (k, dflt) :: ps' =>
      let word := if (i <? only_)%nat then None else dget kw k in
      match match args with
            | a :: _ => match word with Some _ => None | None => Some (Some a) end
            | [] => match word with Some v => Some (Some v) | None => if dflt then Some None else None end
            end with
      | None => None
      | Some v => match fill only_ (S i) ps' (tl args) kw with Some l => Some ((k, v) :: l) | None => None end
      end
  end.
Definition bind (s : sig) (args : list V) (kw : dict V) : res binding :=
  let unknown := filter (fun kv => negb (mem (fst kv) (by_keyword s))) kw in
  if negb (star s) && (length (positional s) <? length args)%nat then Raise TypeError
  else if negb (starstar s) && (0 <? length unknown)%nat then Raise TypeError
  else match fill (only s) 0 (positional s) args kw, fill 0 0 (keyword_only s) [] kw with
       | Some a, Some b => Ok (Binding (a ++ b) (skipn (length (positional s)) args) unknown)
       | _, _ => Raise TypeError
       end.

(** a function, a bound method with its instance, or any other object *)
Inductive callable := Fn (s : sig) | Method (s : sig) (self : V) | Other.
(** Other objects are not called by the code below before they are refused, the result is never used *)
Definition call (c : callable) (args : list V) (kw : dict V) : res binding :=
  match c with Fn s => bind s args kw | Method s v => bind s (v :: args) kw | Other => Raise TypeError end.

(** 56-103; inspect.getfullargspec gives the positional names, for a method with the first *)
Definition except_n (n : nat) (s : sig) : list string := skipn n (map fst (positional s)).
(** 5-40 *)
Definition infer (c : callable) : res (list string) :=
  match c with Method s _ => Ok (except_n 2 s) | Fn s => Ok (except_n 1 s) | Other => Raise ValueError end.

(** {key: d[key] for key in keys} *)
Fixpoint select (keys : list string) (d : dict V) : res (dict V) :=
  match keys with
  | [] => Ok []
  | k :: t => match dget d k with
              | None => Raise KeyError
              | Some v => match select t d with Ok r => Ok ((k, v) :: r) | Raise e => Raise e end
              end
  end.
(** likelihood.py 111-118 *)
Definition function_keys (c : callable) (kwargs : dict V) : res (list string) :=
  match infer c with Ok ks => Ok (filter (fun k => negb (dmem kwargs k)) ks) | Raise e => Raise e end.
(** 128-131, 167-170: func(x, **model_parameters, **kwargs); the names of the two are disjoint *)
Definition evaluate (c : callable) (kwargs : dict V) (parameters : dict V) (x : V) : res binding :=
  match function_keys c kwargs with
  | Raise e => Raise e
  | Ok ks => match select ks parameters with Raise e => Raise e | Ok m => call c [x] (m ++ kwargs) end
  end.

(** conditional.py 152-198: the condition function is called with the reference parameters and the required variables.
    None: called without variables, the reference is used. *)
Definition same_names (a b : list string) : bool :=
  (length a =? length b)%nat && forallb (fun k => mem k b) a && forallb (fun k => mem k a) b.
Definition update_conditions (c : callable) (reference : V) (required : dict V) : res (option binding) :=
  match infer c with
  | Raise e => Raise e
  | Ok ks =>
      if same_names (dkeys required) ks then match call c [reference] required with Ok b => Ok (Some b) | Raise e => Raise e end
      else match required with [] => Ok None | _ => Raise IllegalRequiredVariablesException end
  end.

(** likelihood.py 583-590: the first argument is left out for methods too *)
Definition gp_names (c : callable) : res (list string) :=
  match c with Fn s | Method s _ => Ok (except_n 1 s) | Other => Raise TypeError end.
Definition gp_value (c : callable) (attributes : dict V) (t : V) : res binding :=
  match gp_names c with Raise e => Raise e | Ok ks => match select ks attributes with Raise e => Raise e | Ok m => call c [t] m end end.

(** hyper/model.py 72-87: all the names but the first of each of four *)
Fixpoint remove_first (k : string) (l : list string) : list string :=
  match l with [] => [] | a :: t => if String.eqb k a then t else a :: remove_first k t end.
Definition hyper_names (s : sig) : list string := fold_left (fun l k => remove_first k l) ["dataset"; "data"; "self"; "cls"] (map fst (positional s)).
Definition hyper_value (c : callable) (parameters : dict V) (data : V) : res binding :=
  match c with
  | Other => Raise TypeError
  | Fn s | Method s _ => match select (hyper_names s) parameters with Raise e => Raise e | Ok m => call c [data] m end
  end.
End Call.
Arguments Fn {V} s. Arguments Method {V} s self. Arguments Other {V}. Arguments Binding {V} named extra_args extra_kwargs.
