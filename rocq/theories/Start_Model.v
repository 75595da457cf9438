(** Before a run starts: core/sampler/base_sampler.py 410-436 with core/prior/dict.py 620-641 (redundant sampling sets),
    core/sampler/emcee.py 361-385 and ptemcee.py 296-311, 388-408, 489-502 (starting points given by the user). *)
From Coq Require Import String List Bool Arith.
From Verif Require Import PyDict GwPrior_Model.
Import ListNotations.
Open Scope string_scope.
Open Scope list_scope.

(** ** Redundant keys *)
(** dict.py 620-641; [test] is the test of the class, asked about the dictionary without the key *)
Definition has_redundant (test : kinds -> string -> bool) (d : kinds) : bool :=
  existsb (fun e => match snd e with
                    | Constrained => false
                    | _ => test (filter (fun o => negb (String.eqb (fst o) (fst e))) d) (fst e)
                    end) d.

Inductive err := IllegalSamplingSetError | TypeError | ValueError | KeyError | AttributeError | SamplerError | OtherError.
Inductive res (A : Type) := Ok (a : A) | Raise (e : err).
Arguments Ok {A} a. Arguments Raise {A} e.
(** base_sampler.py 410-436; [likelihood] is what one evaluation at a draw from the prior does, its value is not looked at *)
Definition verify_parameters {X} (redundant : bool) (likelihood : res X) : res unit :=
  if redundant then Raise IllegalSamplingSetError
  else match likelihood with Ok _ => Ok tt | Raise e => Raise e end.

Section Points.
Variable V : Type.
(** a numpy array: its shape and its elements, row by row *)
Record array := Array { shape : list nat; elements : list V }.
Definition squeeze (a : array) : array := Array (filter (fun n => negb (Nat.eqb n 1)) (shape a)) (elements a).
Definition same_shape (a b : list nat) : bool := if list_eq_dec Nat.eq_dec a b then true else false.

(** the points a user may give to emcee, zeus and kombine: an array or nested list, a data frame of [rows] rows, anything else without a shape *)
Inductive points := Given (a : array) | Frame (rows : nat) (columns : dict (list V)) | Tuple.
(** frame[keys].values *)
Fixpoint columns_of (keys : list string) (d : dict (list V)) : res (list (list V)) :=
  match keys with
  | [] => Ok []
  | k :: t => match dget d k with
              | None => Raise KeyError
              | Some c => match columns_of t d with Ok r => Ok (c :: r) | Raise e => Raise e end
              end
  end.
Variable zero : V.
Definition row (cs : list (list V)) (i : nat) : list V := map (fun c => nth i c zero) cs.
(** emcee.py 370-385; [good] is check_draw, which only writes a warning: the second component lists the points warned about *)
Fixpoint split (n : nat) (w : nat) (l : list V) : list (list V) :=
  match n with 0 => [] | S m => firstn w l :: split m w (skipn w l) end.
Definition set_pos0 (good : list V -> bool) (nwalkers : nat) (keys : list string) (draws : list (list V)) (p : option points) : res (list (list V) * list (list V)) :=
  let ndim := length keys in
  let use (a : array) :=
    if same_shape (shape a) [nwalkers; ndim]
    then let rows := split nwalkers ndim (elements a) in Ok (rows, filter (fun r => negb (good r)) rows) else Raise ValueError in
  match p with
  | None => Ok (draws, filter (fun r => negb (good r)) draws)
  | Some (Given a) => use (squeeze a)
  | Some (Frame rows cols) => match columns_of keys cols with
                              | Raise e => Raise e
                              | Ok cs => use (Array [rows; ndim] (concat (map (row cs) (seq 0 rows))))
                              end
  | Some Tuple => Raise AttributeError
  end.

(** ptemcee.py: a word, names to be minimised, an array, a dictionary of (ntemps, nwalkers) arrays, anything else.
    The first two are oracles here *)
Inductive pt_points := Word (prior minimize : bool) | Names (l : list string) | Whole (a : array) | ByName (d : dict array) | Else.
Inductive pt_start := FromPrior | FromMinimize (l : option (list string)) | At (a : array).
Fixpoint arrays_of (keys : list string) (d : dict array) : res (list array) :=
  match keys with
  | [] => Ok []
  | k :: t => match dget d k with
              | None => Raise KeyError
              | Some c => match arrays_of t d with Ok r => Ok (c :: r) | Raise e => Raise e end
              end
  end.
(** 388-396 *)
Definition from_array (ntemps nwalkers ndim : nat) (a : array) : res array :=
  if same_shape (shape a) [ntemps; nwalkers; ndim] then Ok a else Raise ValueError.
(** 398-408: np.array of arrays (ValueError for different shapes), and the first axis moved to the end *)
Definition stack_last (l : list array) : res array :=
  match l with
  | [] => Ok (Array [0] [])
  | a :: t => if forallb (fun b => same_shape (shape b) (shape a)) t
              then Ok (Array (shape a ++ [length l]) (concat (map (fun i => map (fun b => nth i (elements b) zero) l) (seq 0 (length (elements a))))))
              else Raise ValueError
  end.
Definition get_pos0 (ntemps nwalkers : nat) (keys : list string) (p : pt_points) : res pt_start :=
  match p with
  | Word true _ => Ok FromPrior
  | Word false true => Ok (FromMinimize None)
  | Word false false | Else => Raise SamplerError
  | Names l => Ok (FromMinimize (Some l))
  | Whole a => match from_array ntemps nwalkers (length keys) a with Ok a => Ok (At a) | Raise e => Raise e end
  | ByName d => match arrays_of keys d with
                | Raise e => Raise e
                | Ok l => match stack_last l with
                          | Raise e => Raise e
                          | Ok a => match from_array ntemps nwalkers (length keys) a with Ok a => Ok (At a) | Raise e => Raise e end
                          end
                end
  end.
End Points.
Arguments Array {V} shape elements. Arguments shape {V} a. Arguments elements {V} a. Arguments squeeze {V} a.
Arguments Given {V} a. Arguments Frame {V} rows columns. Arguments Tuple {V}. Arguments columns_of {V}. Arguments row {V}. Arguments split {V}. Arguments set_pos0 {V}.
Arguments Word {V}. Arguments Names {V}. Arguments Whole {V}. Arguments ByName {V}. Arguments Else {V}.
Arguments FromPrior {V}. Arguments FromMinimize {V}. Arguments At {V}. Arguments arrays_of {V}. Arguments from_array {V}. Arguments stack_last {V}. Arguments get_pos0 {V}.
