(** bilby/core/utils/io.py: BilbyJsonEncoder (29-86) and decode_bilby_json (147-186), and the
    JSON form of prior dictionaries, bilby/core/prior/dict.py 112-125, 160-206.
    json.dumps and json.loads are taken to be inverse to each other on JSON trees; floats
    ([F]) are abstract. *)
From Coq Require Import String List Bool Arith ZArith.
From Verif Require Import PyDict PyReal.
Import ListNotations.
Open Scope string_scope.
Open Scope list_scope.

(** keys of a python dictionary *)
Inductive pykey := KStr (s : string) | KInt (z : Z).
Section J.
Variable F : Type.
Variable fzero : F -> bool.
(** str of an integer *)
Variable zstr : Z -> string.
(** import_module(m) succeeds; the module has an attribute n *)
Variable importable : string -> bool.
Variable has : string -> string -> bool.

Inductive json :=
| JNull | JBool (b : bool) | JInt (z : Z) | JFloat (f : F) | JStr (s : string)
| JList (l : list json) | JObj (d : list (string * json)).

(** python objects.  [VArray c]: an ndarray with tolist() = c (shape and dtype are those
    np.asarray infers from c).  [VFrame idx cols]: a DataFrame with row labels idx.
    [VRef]: a function or class, known by module and name.  [VPrior]: a prior object given
    by its class and its instantiation dictionary.  [VPriorDict]: conv is the
    conversion_function if one was given.  [VOther]: any object that none of the tests of the encoder
    recognises, for instance a np.bool_. *)
Inductive pv :=
| VNone | VBool (b : bool) | VInt (z : Z) | VFloat (f : F) | VStr (s : string)
| VList (l : list pv) | VTuple (l : list pv) | VDict (d : list (pykey * pv))
| VNpInt (z : Z) | VNpFloat (f : F)
| VArray (c : pv) | VComplex (re im : F)
| VFrame (idx : list Z) (cols : list (pykey * pv)) | VSeries (items : list (pykey * pv))
| VRef (is_class : bool) (m n : string) | VTimedelta (seconds : F)
| VPrior (m n : string) (kwargs : list (pykey * pv))
| VPriorDict (m n : string) (conv : option string) (items : list (pykey * pv))
| VCosmology (n : string) (args : list (pykey * pv)) | VQuantity (value : pv) (unit : string)
| VOther.
Definition keystr (k : pykey) : string := match k with KStr s => s | KInt z => zstr z end.
Definition vdict (d : list (string * pv)) : list (pykey * pv) := map (fun kv => (KStr (fst kv), snd kv)) d.

Fixpoint sequence {A} (l : list (option A)) : option (list A) :=
  match l with [] => Some [] | x :: t => let* a := x in let* r := sequence t in Some (a :: r) end.
Definition mk {A} (k : string) (x : option A) : option (string * A) := let* a := x in Some (k, a).

(** 29-86 together with the dispatch of json.dumps: None, bool, int, float, str, list, tuple and
    dict (also subclasses of dict, hence PriorDict) never reach [default]; None = TypeError.
    The value of a quantity is a number or, for an array, its list of numbers (99-100). *)
Fixpoint encode (v : pv) : option json :=
  let enc_list := fun l => sequence (map encode l) in
  let enc_dict := fun d => sequence (map (fun kv => match kv with (k, w) => mk (keystr k) (encode w) end) d) in
  match v with
  | VNone => Some JNull
  | VBool b => Some (JBool b)
  | VInt z => Some (JInt z)
  | VFloat f => Some (JFloat f)
  | VStr s => Some (JStr s)
  | VList l => let* j := enc_list l in Some (JList j)
  | VTuple l => let* j := enc_list l in Some (JList j)
  | VDict d => let* j := enc_dict d in Some (JObj j)
  | VPriorDict _ _ _ d => let* j := enc_dict d in Some (JObj j)
  | VNpInt z => Some (JInt z)
  | VNpFloat f => Some (JFloat f)
  | VPrior m n kw =>
      let* j := enc_dict kw in
      Some (JObj [("__prior__", JBool true); ("__module__", JStr m); ("__name__", JStr n); ("kwargs", JObj j)])
  | VCosmology n args =>
      let* j := enc_dict args in Some (JObj (j ++ [("__cosmology__", JBool true); ("__name__", JStr n)]))
  | VQuantity x u =>
      let* j := encode x in Some (JObj [("__astropy_quantity__", JBool true); ("value", j); ("unit", JStr u)])
  | VArray c => let* j := encode c in Some (JObj [("__array__", JBool true); ("content", j)])
  | VComplex re im => Some (JObj [("__complex__", JBool true); ("real", JFloat re); ("imag", JFloat im)])
  | VFrame _ cols => let* j := enc_dict cols in Some (JObj [("__dataframe__", JBool true); ("content", JObj j)])
  | VSeries items => let* j := enc_dict items in Some (JObj [("__series__", JBool true); ("content", JObj j)])
  | VRef false m n => Some (JObj [("__function__", JBool true); ("__module__", JStr m); ("__name__", JStr n)])
  | VRef true m n => Some (JObj [("__class__", JBool true); ("__module__", JStr m); ("__name__", JStr n)])
  | VTimedelta s => Some (JObj [("__timedelta__", JBool true); ("__total_seconds__", JFloat s)])
  | VOther => None
  end.

(** python truth value; objects other than numbers, strings and containers count as true *)
Definition truthy (v : pv) : bool :=
  match v with
  | VNone => false
  | VBool b => b
  | VInt z | VNpInt z => negb (Z.eqb z 0)
  | VFloat f | VNpFloat f => negb (fzero f)
  | VStr s => negb (String.eqb s "")
  | VList l | VTuple l => match l with [] => false | _ => true end
  | VDict d | VPriorDict _ _ _ d => match d with [] => false | _ => true end
  | _ => true
  end.
(** [dct.get(k, False)] used as a condition *)
Definition flag (d : list (string * pv)) (k : string) : bool := match dget d k with Some v => truthy v | None => false end.
Definition get_str (d : list (string * pv)) (k : string) : option string :=
  match dget d k with Some (VStr s) => Some s | _ => None end.
Definition get_dict (d : list (string * pv)) (k : string) : option (list (pykey * pv)) :=
  match dget d k with Some (VDict x) => Some x | _ => None end.
Definition get_float (d : list (string * pv)) (k : string) : option F :=
  match dget d k with Some (VFloat x) => Some x | _ => None end.
Definition drop (ks : list string) (d : list (string * pv)) : list (string * pv) :=
  filter (fun kv => negb (existsb (String.eqb (fst kv)) ks)) d.
Definition is_prior (v : pv) : bool := match v with VPrior _ _ _ => true | _ => false end.
Definition base_kwargs : list string := ["name"; "latex_label"; "unit"; "minimum"; "maximum"; "boundary"].
Definition lookup (d : list (pykey * pv)) (s : string) : option pv :=
  dget (map (fun kv => (keystr (fst kv), snd kv)) d) s.
Definition zrange (n : nat) : list Z := map Z.of_nat (seq 0 n).
(** pandas builds the frame only from lists of equal length *)
Definition frame (cols : list (pykey * pv)) : option pv :=
  match cols with
  | [] => Some (VFrame [] [])
  | (_, VList l) :: _ =>
      if forallb (fun kv => match snd kv with VList l' => Nat.eqb (List.length l') (List.length l) | _ => false end) cols
      then Some (VFrame (zrange (List.length l)) cols) else None
  | _ => None
  end.
(** [getattr(import_module(m), n, "m.n")], 182-183 *)
Definition reference (is_class : bool) (m n : string) : option pv :=
  if importable m then Some (if has m n then VRef is_class m n else VStr (m ++ "." ++ n)) else None.
(** 160-180 [_get_from_json_dict] behind 148-151; the entries are prior objects *)
Definition prior_dict_hook (d : list (string * pv)) : option pv :=
  let* m := get_str d "__module__" in
  let* n := get_str d "__name__" in
  if importable m && has m n then
    let items := drop ["__module__"; "__name__"; "__prior_dict__"] d in
    if forallb (fun kv => is_prior (snd kv)) items then Some (VPriorDict m n None (vdict items)) else None
  else None.
(** 147-186 [decode_bilby_json]; None = an exception *)
Definition hook (d : list (string * pv)) : option pv :=
  if flag d "__prior_dict__" then prior_dict_hook d
  else if flag d "__prior__" then
    let* m := get_str d "__module__" in
    let* n := get_str d "__name__" in
    let* kw := get_dict d "kwargs" in
    if importable m then
      if has m n then Some (VPrior m n kw)
      else let* _ := lookup kw "name" in
           Some (VPrior "bilby.core.prior.base" "Prior" (filter (fun kv => existsb (String.eqb (keystr (fst kv))) base_kwargs) kw))
    else None
  else if flag d "__cosmology__" then
    let* n := get_str d "__name__" in
    if has "astropy.cosmology" n then Some (VCosmology n (vdict (drop ["__cosmology__"; "__name__"] d))) else None
  else if flag d "__astropy_quantity__" then
    let* x := dget d "value" in
    match x with VNone => Some VNone | _ => let* u := get_str d "unit" in Some (VQuantity x u) end
  else if flag d "__array__" then let* c := dget d "content" in Some (VArray c)
  else if flag d "__complex__" then let* re := get_float d "real" in let* im := get_float d "imag" in Some (VComplex re im)
  else if flag d "__dataframe__" then let* c := get_dict d "content" in frame c
  else if flag d "__series__" then let* c := get_dict d "content" in Some (VSeries c)
  else if flag d "__function__" || flag d "__class__" then
    let* m := get_str d "__module__" in let* n := get_str d "__name__" in reference (flag d "__class__") m n
  else if flag d "__timedelta__" then let* s := get_float d "__total_seconds__" in Some (VTimedelta s)
  else Some (VDict (vdict d)).
(** the dictionary json builds from the pairs of an object: the last value of a repeated key wins *)
Definition dict_of_pairs (l : list (string * pv)) : list (string * pv) := fold_left (fun d kv => dset d (fst kv) (snd kv)) l [].
(** json.loads(text, object_hook=decode_bilby_json): innermost objects first *)
Fixpoint decode (j : json) : option pv :=
  match j with
  | JNull => Some VNone
  | JBool b => Some (VBool b)
  | JInt z => Some (VInt z)
  | JFloat f => Some (VFloat f)
  | JStr s => Some (VStr s)
  | JList l => let* r := sequence (map decode l) in Some (VList r)
  | JObj d =>
      let* r := sequence (map (fun kv => match kv with (k, w) => mk k (decode w) end) d) in hook (dict_of_pairs r)
  end.

(** json.loads without an object hook *)
Fixpoint raw (j : json) : pv :=
  match j with
  | JNull => VNone | JBool b => VBool b | JInt z => VInt z | JFloat f => VFloat f | JStr s => VStr s
  | JList l => VList (map raw l)
  | JObj d => VDict (vdict (dict_of_pairs (map (fun kv => match kv with (k, w) => (k, raw w) end) d)))
  end.
(** dict.py 112-118 [_get_json_dict]: the JSON object that to_json and Result.save_to_file
    write for a prior dictionary; entries are dumped and loaded once more on the way *)
Definition prior_dict_json (m n : string) (items : list (pykey * pv)) : option json :=
  let* r := sequence (map (fun kv => mk (keystr (fst kv)) (let* j := encode (snd kv) in Some (raw j))) items) in
  let total := dset (dset (dset (dict_of_pairs r) "__prior_dict__" (VBool true)) "__module__" (VStr m)) "__name__" (VStr n) in
  encode (VDict (vdict total)).
(** dict.py 183-192 *)
Definition prior_dict_load (j : json) : option pv := decode j.

(** io.py 189-208 [recursively_decode_bilby_json] on a value loaded without object hook;
    [fuel] bounds the nesting depth *)
Fixpoint rdecode (fuel : nat) (d : list (string * pv)) : option pv :=
  match fuel with
  | O => None
  | S n =>
      let* v := hook d in
      match v with
      | VDict d' =>
          let* r := sequence (map (fun kv => match kv with
            | (k, VDict x) => let* w := rdecode n (map (fun kv => (keystr (fst kv), snd kv)) x) in Some (k, w)
            | (k, w) => Some (k, w) end) d') in Some (VDict r)
      | _ => Some v
      end
  end.
End J.
