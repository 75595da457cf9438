(** bilby/core/utils/io.py 211-369: result files in HDF5 format.
    Numbers ([Nm]) are abstract; arrays are one-dimensional; elements of a list are scalars or
    objects numpy cannot store. *)
From Coq Require Import String List Bool Arith Ascii.
From Verif Require Import PyDict PyReal.
Import ListNotations.
Open Scope string_scope.
Open Scope list_scope.

Section H.
Variable Nm : Type.
(** float(b), str(x), str(ii) *)
Variable of_bool : bool -> Nm.
Variable nstr : Nm -> string.
Variable istr : nat -> string.

(** elements of a list *)
Inductive hs := SNone | SBool (b : bool) | SNum (x : Nm) | SStr (s : string) | SObj (repr : string).
(** values in the saved dictionary.  [HPriorDict]: with the text of its JSON form.  [HFrame]: a data
    frame with numeric columns.  [HOther]: any type without a branch, for instance np.bool_ or
    np.float32. *)
Inductive hv :=
| HNone | HBool (b : bool) | HNum (x : Nm) | HStr (s : string) | HBytes (s : string)
| HArr (l : list Nm) | HArrS (l : list string) | HList (l : list hs)
| HTuple (l : list hv) | HDict (d : list (string * hv)) | HPriorDict (text : string)
| HFrame (cols : list (string * list Nm)) | HRef (m n : string) | HTimedelta (seconds : Nm) | HOther.

(** what an HDF5 dataset holds *)
Inductive dataset := DBool (b : bool) | DScalar (x : Nm) | DStr (s : string) | DNum (l : list Nm) | DBytes (l : list string).

Definition is_none (s : hs) : bool := match s with SNone => true | _ => false end.
Definition is_str (s : hs) : bool := match s with SStr _ => true | _ => false end.
Definition is_obj (s : hs) : bool := match s with SObj _ => true | _ => false end.
Definition is_bool (s : hs) : bool := match s with SBool _ => true | _ => false end.
Definition bstr (b : bool) : string := if b then "True" else "False".
(** 290-298 *)
Definition text (s : hs) : string :=
  match s with SStr s => s | SNone => "__none__" | SBool b => bstr b | SNum x => nstr x | SObj r => r end.
Definition num (s : hs) : Nm := match s with SNum x => x | SBool b => of_bool b | _ => of_bool false end.
(** 282-300: a list; numpy finds a numeric type if there are only numbers and booleans, not only
    booleans; a text type if there are also strings *)
Definition encode_list (l : list hs) : option dataset :=
  match l with
  | [] => Some (DNum [])
  | _ =>
      if negb (existsb is_none l) && negb (existsb is_obj l) && negb (existsb is_str l) && negb (forallb is_bool l)
      then Some (DNum (map num l))
      else if existsb is_none l || (existsb is_str l && negb (existsb is_obj l)) then Some (DBytes (map text l))
      else None
  end.
(** 249-317 for everything that is not turned into a dictionary; None = ValueError *)
Definition encode_leaf (v : hv) : option dataset :=
  match v with
  | HNone => Some (DStr "__none__")
  | HBool b => Some (DBool b)
  | HNum x => Some (DScalar x)
  | HStr s => Some (DStr s)
  | HBytes s => Some (DStr s)
  | HArr l => Some (DNum l)
  | HArrS l => Some (DBytes l)
  | HList l => encode_list l
  | HPriorDict t => Some (DStr t)
  | HTimedelta s => Some (DScalar s)
  | _ => None
  end.
(** 211-246 together with h5py: a scalar string is read as bytes *)
Definition decode (d : dataset) : hv :=
  match d with
  | DBool b => HBool b
  | DScalar x => HNum x
  | DStr s => if String.eqb s "__none__" then HNone else HStr s
  | DNum l => HArr l
  | DBytes [] => HArrS []
  | DBytes l => HList (map SStr l)
  end.

(** an HDF5 file: groups and datasets; h5py lists the members of a group by name *)
Inductive h5 := DS (d : dataset) | GR (g : list (string * h5)).
Fixpoint insert (k : string) (x : h5) (g : list (string * h5)) : list (string * h5) :=
  match g with
  | [] => [(k, x)]
  | (k', x') :: t => if String.leb k k' then (k, x) :: g else (k', x') :: insert k x t
  end.
Fixpoint replace (k : string) (x : h5) (g : list (string * h5)) : list (string * h5) :=
  match g with [] => [] | (k', x') :: t => if String.eqb k k' then (k', x) :: t else (k', x') :: replace k x t end.
(** h5file[path] = data: creates missing groups; fails if the name is taken *)
Fixpoint put (path : list string) (d : dataset) (g : list (string * h5)) : option (list (string * h5)) :=
  match path with
  | [] => None
  | k :: rest =>
      match rest, dget g k with
      | [], None => Some (insert k (DS d) g)
      | [], Some _ => None
      | _, None => let* sub := put rest d [] in Some (insert k (GR sub) g)
      | _, Some (GR sub) => let* sub' := put rest d sub in Some (replace k (GR sub') g)
      | _, Some (DS _) => None
      end
  end.
(** the components of a path text: separated by "/", empty ones and "." are ignored *)
Fixpoint split_aux (acc s : string) : list string :=
  match s with
  | EmptyString => [acc]
  | String c t => if Ascii.eqb c "/" then acc :: split_aux "" t else split_aux (acc ++ String c EmptyString) t
  end.
Definition comps (s : string) : list string :=
  filter (fun c => negb (String.eqb c "") && negb (String.eqb c ".")) (split_aux "" s).

(** 351-369 [recursively_save_dict_contents_to_group]; data frames, references and tuples become
    dictionaries first (303-312) *)
Fixpoint save_item (path : list string) (v : hv) (g : list (string * h5)) : option (list (string * h5)) :=
  let save_dict := fix save_dict (d : list (string * hv)) (g : list (string * h5)) : option (list (string * h5)) :=
    match d with [] => Some g | (k, w) :: t => let* g' := save_item (path ++ comps k) w g in save_dict t g' end in
  let save_tuple := fix save_tuple (i : nat) (l : list hv) (g : list (string * h5)) : option (list (string * h5)) :=
    match l with [] => Some g | w :: t => let* g' := save_item (path ++ comps (istr i)) w g in save_tuple (S i) t g' end in
  let save_cols := fix save_cols (d : list (string * list Nm)) (g : list (string * h5)) : option (list (string * h5)) :=
    match d with [] => Some g | (k, c) :: t => let* g' := put (path ++ comps k) (DNum c) g in save_cols t g' end in
  match v with
  | HDict d => save_dict d g
  | HTuple l => save_tuple O l g
  | HFrame cols => save_cols cols g
  | HRef m n =>
      let* g1 := put (path ++ ["__module__"]) (DStr m) g in
      let* g2 := put (path ++ ["__name__"]) (DStr n) g1 in
      put (path ++ ["__class__"]) (DBool true) g2
  | _ => let* d := encode_leaf v in put path d g
  end.
Definition save (d : list (string * hv)) : option (list (string * h5)) := save_item [] (HDict d) [].
(** 320-348 [recursively_load_dict_contents_from_group] *)
Fixpoint load_item (x : h5) : hv :=
  match x with
  | DS d => decode d
  | GR g => HDict (map (fun kx => match kx with (k, y) => (k, load_item y) end) g)
  end.
Definition load (g : list (string * h5)) : hv := load_item (GR g).
End H.
