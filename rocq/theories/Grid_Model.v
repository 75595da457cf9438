(** bilby/core/grid.py (class Grid) and bilby/core/utils/calculus.py (logtrapzexp,
    lines 155-189). *)
From Coq Require Import Reals String List Bool Arith.
From Verif Require Import PyReal PyDict.
Import ListNotations.
Open Scope R_scope.
Open Scope list_scope.

(** a logarithm held in a float: finite, -inf or nan (+inf does not occur) *)
Inductive lnum := LFin (r : R) | LNegInf | LNaN.
Definition ladd (a b : lnum) : lnum :=
  match a, b with
  | LNaN, _ => LNaN | _, LNaN => LNaN
  | LFin x, LFin y => LFin (x + y)
  | _, _ => LNegInf
  end.
(** np.log: -inf at 0, nan below *)
Definition np_log (x : R) : lnum :=
  if Rlt_dec x 0 then LNaN else if Req_EM_T x 0 then LNegInf else LFin (ln x).
(** np.exp; the value at nan is never used *)
Definition lexp (a : lnum) : R := match a with LFin x => exp x | _ => 0 end.
Definition is_nan (a : lnum) : bool := match a with LNaN => true | _ => false end.
(** scipy.special.logsumexp of a list; None = ValueError of an empty array *)
Definition logsumexp (l : list lnum) : option lnum :=
  match l with
  | [] => None
  | _ => Some (if existsb is_nan l then LNaN else np_log (fold_right Rplus 0 (map lexp l)))
  end.
Fixpoint map2 {A B C} (f : A -> B -> C) (l : list A) (m : list B) : list C :=
  match l, m with a :: l', b :: m' => f a b :: map2 f l' m' | _, _ => [] end.
(** calculus.py 189 *)
Definition logsumexp2 (c : lnum) (l1 l2 : list lnum) : option lnum :=
  let* a := logsumexp l1 in let* b := logsumexp l2 in let* s := logsumexp [a; b] in Some (ladd c s).
(** 176-189: [dx] an array; None = ValueError *)
Definition logtrapzexp (lnf : list lnum) (dx : list R) : option lnum :=
  if Nat.eqb (List.length dx + 1) (List.length lnf) then
    let lndx := map np_log dx in
    logsumexp2 (LFin (- ln 2)) (map2 ladd (removelast lnf) lndx) (map2 ladd (tl lnf) lndx)
  else None.
(** 174-175, 189: [dx] a single step size *)
Definition logtrapzexp_scalar (lnf : list lnum) (dx : R) : option lnum :=
  logsumexp2 (np_log (dx / 2)) (removelast lnf) (tl lnf).
(** np.diff *)
Fixpoint diff (l : list R) : list R :=
  match l with x :: ((y :: _) as t) => (y - x) :: diff t | _ => [] end.

(** an n-dimensional array: shape, and the entry at an index tuple *)
Record arr := { shape : list nat; val : list nat -> lnum }.
Definition insert_at {A} (n : nat) (j : A) (l : list A) : list A := firstn n l ++ j :: skipn n l.
Definition remove_at {A} (n : nat) (l : list A) : list A := firstn n l ++ skipn (S n) l.
(** all index tuples of a shape, in C order *)
Fixpoint indices (sh : list nat) : list (list nat) :=
  match sh with [] => [[]] | n :: t => flat_map (fun i => map (cons i) (indices t)) (seq 0 n) end.
Definition entries (a : arr) (axis : nat) (idx : list nat) : list lnum :=
  map (fun j => val a (insert_at axis j idx)) (seq 0 (nth axis (shape a) 0%nat)).

Section Grid.
(** [names] = parameter_names; [pts] = sample_points *)
Variable names : list string.
Variable pts : string -> list R.

(** list.index; None = ValueError *)
Fixpoint index_of (l : list string) (k : string) : option nat :=
  match l with [] => None | x :: t => if String.eqb k x then Some O else option_map S (index_of t k) end.
Definition mem (k : string) (l : list string) : bool := existsb (String.eqb k) l.

(** grid.py 161-203 [_marginalize_single]; returns the array and the edited list of
    remaining names; None = an exception: unknown name, name already removed, axis
    beyond the array, wrong length along the axis *)
Definition marginalize_single (a : arr) (name : string) (rem : list string) : option (arr * list string) :=
  if mem name names then
    let* axis := index_of rem name in
    if Nat.ltb axis (List.length (shape a)) then
      let sh := remove_at axis (shape a) in
      let places := pts name in
      if Nat.ltb 1 (List.length places) then
        if forallb (fun idx => match logtrapzexp (entries a axis idx) (diff places) with Some _ => true | None => false end)
             (indices sh)
        then Some ({| shape := sh;
                      val := fun idx => match logtrapzexp (entries a axis idx) (diff places) with Some v => v | None => LNaN end |},
                   remove_at axis rem)
        else None
      else
        if Nat.eqb (nth axis (shape a) 0%nat) 1 then
          Some ({| shape := sh; val := fun idx => val a (insert_at axis 0%nat idx) |}, remove_at axis rem)
        else None
    else None
  else None.
(** 156-157 *)
Fixpoint marg_loop (a : arr) (rem params : list string) : option arr :=
  match params with
  | [] => Some a
  | p :: t => let* ar := marginalize_single a p rem in marg_loop (fst ar) (snd ar) t
  end.
(** 132-151: the names to marginalise over; a single string counts as a list of one *)
Definition select_params (parameters not_parameters : option (list string)) : list string :=
  match parameters with
  | Some l => l
  | None => match not_parameters with
            | None => names
            | Some np => filter (fun n => negb (mem n np)) names
            end
  end.
(** 111-159 *)
Definition marginalize (a : arr) (parameters not_parameters : option (list string)) : option arr :=
  marg_loop a names (select_params parameters not_parameters).
(** 107-109: ln_posterior, entry by entry; 205-207: ln_evidence *)
Definition ln_posterior (lnl lnp : arr) : arr :=
  {| shape := shape lnl; val := fun idx => ladd (val lnl idx) (val lnp idx) |}.
Definition ln_evidence (lnl lnp : arr) : option arr := marginalize (ln_posterior lnl lnp) None None.

(** 310-320 [_evaluate_recursion].  [L]: log_likelihood as a function of the attribute
    [parameters]; [locate]: the position of the current value among the sample points,
    int(np.where(v == points)[0]) raises a TypeError unless there is exactly one *)
Variable L : dict R -> lnum.
Fixpoint positions (v : R) (l : list R) (i : nat) : list nat :=
  match l with
  | [] => []
  | x :: t => if Req_EM_T v x then i :: positions v t (S i) else positions v t (S i)
  end.
Definition locate (params : dict R) (name : string) : option nat :=
  let* v := dget params name in
  match positions v (pts name) 0 with [i] => Some i | _ => None end.
Fixpoint current_point (params : dict R) (ns : list string) : option (list nat) :=
  match ns with
  | [] => Some []
  | n :: t => let* i := locate params n in let* r := current_point params t in Some (i :: r)
  end.
Fixpoint nat_list_eqb (a b : list nat) : bool :=
  match a, b with
  | [], [] => true
  | x :: a', y :: b' => Nat.eqb x y && nat_list_eqb a' b'
  | _, _ => false
  end.
Definition assign (f : list nat -> lnum) (idx : list nat) (v : lnum) : list nat -> lnum :=
  fun i => if nat_list_eqb i idx then v else f i.
Definition evst := (dict R * (list nat -> lnum))%type.
Fixpoint evaluate_recursion (dims : list string) (st : evst) : option evst :=
  match dims with
  | [] => let* idx := current_point (fst st) names in Some (fst st, assign (snd st) idx (L (fst st)))
  | name :: t =>
      fold_left (fun s x => let* st' := s in evaluate_recursion t (dset (fst st') name x, snd st'))
        (pts name) (Some st)
  end.
(** 305-308: [empty] the uninitialised array, [params] the parameters the likelihood holds *)
Definition evaluate (params : dict R) (empty : list nat -> lnum) : option (dict R * arr) :=
  let* st := evaluate_recursion names (params, empty) in
  Some (fst st, {| shape := map (fun n => List.length (pts n)) names; val := snd st |}).
End Grid.
(** 322-341 [_get_sample_points] for an integer size: rescale(linspace(0, 1, n)) *)
Definition sample_points (q : R -> R) (n : nat) : list R :=
  map (fun i => q (INR i / INR (n - 1))) (seq 0 n).
