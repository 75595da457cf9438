(** * Priors as text
    Model of /repo/bilby/core/prior/base.py 212-230, 332-461 (printing and reading one prior) and
    /repo/bilby/core/prior/dict.py 38-49, 80-110, 147-158, 208-305 (prior files and dictionaries).
    A python string is a list of ASCII characters. *)
From Coq Require Import String Ascii List Bool Arith.
Import ListNotations.
Open Scope char_scope. Open Scope list_scope.

Definition text := list ascii.
Definition T (s : string) : text := list_ascii_of_string s.
Definition teq (a b : text) : bool := if list_eq_dec ascii_dec a b then true else false.
Definition newline : ascii := ascii_of_nat 10.
Definition tab : ascii := ascii_of_nat 9.
Definition creturn : ascii := ascii_of_nat 13.
Definition backslash : ascii := "\".
Definition quote : ascii := "'".
Definition dquote : ascii := ascii_of_nat 34.

(** ** Python's string methods *)
(** [c in t] *)
Definition has (c : ascii) (t : text) : bool := existsb (Ascii.eqb c) t.
(** [t.replace(c, '')] *)
Definition remove_char (c : ascii) (t : text) : text := filter (fun x => negb (Ascii.eqb c x)) t.
(** [t.split(c)] *)
Fixpoint split (c : ascii) (t : text) : list text :=
  match t with
  | [] => [[]]
  | x :: r => if Ascii.eqb c x then [] :: split c r
              else match split c r with [] => [[x]] | p :: ps => (x :: p) :: ps end
  end.
(** [sep.join(l)] *)
Fixpoint join (sep : text) (l : list text) : text :=
  match l with [] => [] | [p] => p | p :: r => p ++ sep ++ join sep r end.
(** [t.split(c)[0]] and [c.join(t.split(c)[1:])] *)
Fixpoint before (c : ascii) (t : text) : text := match t with [] => [] | x :: r => if Ascii.eqb c x then [] else x :: before c r end.
Fixpoint after (c : ascii) (t : text) : text := match t with [] => [] | x :: r => if Ascii.eqb c x then r else after c r end.
(** [t.strip(c)] *)
Fixpoint lstrip (c : ascii) (t : text) : text := match t with x :: r => if Ascii.eqb c x then lstrip c r else t | [] => [] end.
Definition strip (c : ascii) (t : text) : text := rev (lstrip c (rev (lstrip c t))).
(** [t[:-1]] *)
Definition chop (t : text) : text := removelast t.
Definition starts (c : ascii) (t : text) : bool := match t with x :: _ => Ascii.eqb c x | [] => false end.
Definition ends (c : ascii) (t : text) : bool := starts c (rev t).
(** [p in t] for a string [p] *)
Fixpoint prefix (p t : text) : bool := match p, t with [], _ => true | a :: p, b :: t => Ascii.eqb a b && prefix p t | _, _ => false end.
Fixpoint contains (p t : text) : bool := prefix p t || match t with [] => false | _ :: r => contains p r end.

(** python's repr of a string: backslashes and line ends are escaped, and double quotes are used if only single ones occur
    in it. Other unprintable characters are not modelled. *)
Definition esc_char (c : ascii) : text :=
  if Ascii.eqb c backslash then [backslash; backslash]
  else if Ascii.eqb c newline then [backslash; "n"]
  else if Ascii.eqb c tab then [backslash; "t"]
  else if Ascii.eqb c creturn then [backslash; "r"]
  else [c].
Definition esc (t : text) : text := flat_map esc_char t.
Definition repr_str (t : text) : text :=
  if has quote t then
    if has dquote t then [quote] ++ flat_map (fun c => if Ascii.eqb c quote then [backslash; quote] else esc_char c) t ++ [quote]
    else [dquote] ++ esc t ++ [dquote]
  else [quote] ++ esc t ++ [quote].
(** decoding with 'unicode_escape' (dict.py 149). Escapes of code points (octal, x, u, U, N) are not modelled. *)
Fixpoint decode (t : text) : text :=
  match t with
  | [] => []
  | c :: r =>
      if Ascii.eqb c backslash then
        match r with
        | [] => [c]
        | d :: r' =>
            if Ascii.eqb d backslash then backslash :: decode r'
            else if Ascii.eqb d quote then quote :: decode r'
            else if Ascii.eqb d dquote then dquote :: decode r'
            else if Ascii.eqb d newline then decode r'
            else if Ascii.eqb d "n" then newline :: decode r'
            else if Ascii.eqb d "t" then tab :: decode r'
            else if Ascii.eqb d "r" then creturn :: decode r'
            else if Ascii.eqb d "a" then ascii_of_nat 7 :: decode r'
            else if Ascii.eqb d "b" then ascii_of_nat 8 :: decode r'
            else if Ascii.eqb d "v" then ascii_of_nat 11 :: decode r'
            else if Ascii.eqb d "f" then ascii_of_nat 12 :: decode r'
            else c :: d :: decode r'
        end
      else c :: decode r
  end.

(** ** Values of arguments *)
(** [PLit t]: a number, a boolean or another value that python prints as [t]; a function argument is the string of its path *)
Inductive pval (cls : Type) := PNone | PStr (s : text) | PLit (t : text) | PPrior (c : cls) (args : list (text * pval cls)).
Arguments PNone {cls}. Arguments PStr {cls}. Arguments PLit {cls}. Arguments PPrior {cls}.
Inductive kind := Plain | Dist | Joint.

Definition tget {V} (d : list (text * V)) (k : text) : option V := option_map snd (find (fun kv => teq (fst kv) k) d).
Fixpoint tset {V} (d : list (text * V)) (k : text) (v : V) : list (text * V) :=
  match d with [] => [(k, v)] | (k', v') :: r => if teq k' k then (k', v) :: r else (k', v') :: tset r k v end.
Fixpoint all_ok {A} (l : list (option A)) : option (list A) :=
  match l with [] => Some [] | x :: r => match x, all_ok r with Some a, Some t => Some (a :: t) | _, _ => None end end.

(** ** Reading *)
(** The while loop of base.py 367-371: the text joined so far, the piece looked at, its index, the pieces after it.
    [None]: IndexError *)
Fixpoint absorb (acc last : text) (jj : nat) (rest : list text) : option (text * list nat) :=
  if has ")" last then Some (acc, [])
  else match rest with
       | [] => None
       | p :: r => match absorb (strip " " (acc ++ [","] ++ p)) p (S jj) r with
                   | Some (a, rm) => Some (a, S jj :: rm)
                   | None => None
                   end
       end.
(** base.py 365-371: every piece after the loop, and the indices to remove *)
Fixpoint merge (ii : nat) (args : list text) : option (list text * list nat) :=
  match args with
  | [] => Some ([], [])
  | p :: r =>
      match (if has "(" p then absorb p p ii r else Some (p, [])), merge (S ii) r with
      | Some (m, rm), Some (ms, rms) => Some (m :: ms, rm ++ rms)
      | _, _ => None
      end
  end.
(** [del l[i]] *)
Fixpoint del_at {A} (i : nat) (l : list A) : option (list A) :=
  match l, i with [], _ => None | _ :: r, O => Some r | x :: r, S i => option_map (cons x) (del_at i r) end.
Definition del_step {A} (o : option (list A)) (i : nat) : option (list A) := match o with Some l => del_at i l | None => None end.
Definition delete_all {A} (rm : list nat) (l : list A) : option (list A) := fold_left del_step (rev rm) (Some l).
(** base.py 375-386; [sig]: the arguments of the constructor *)
Fixpoint to_kwargs (sig : list text) (ii : nat) (args : list text) (kw : list (text * text)) : option (list (text * text)) :=
  match args with
  | [] => Some kw
  | a :: r =>
      if has "=" a then to_kwargs sig (S ii) r (tset kw (before "=" a) (after "=" a))
      else match nth_error sig ii with Some k => to_kwargs sig (S ii) r (tset kw k a) | None => None end
  end.
(** Prior._split_repr, base.py 361-387. *)
Definition split_repr (sig : list text) (s : text) : option (list (text * text)) :=
  match merge 0 (split "," s) with
  | None => None
  | Some (ms, rm) => match delete_all rm ms with None => None | Some args => to_kwargs sig 0 args [] end
  end.
(** [re.sub("'.*'", '', val)], base.py 432: from the first to the last quote *)
Definition unquoted (t : text) : text :=
  if has quote (after quote t) then before quote t ++ rev (before quote (rev t)) else t.

Section Text.
Variable cls : Type.
(** constructor arguments, printed name, kind; [lookup]: the class for a printed name, with or without module *)
Variables (sig : cls -> list text) (pname : cls -> text) (ckind : cls -> kind) (lookup : text -> option cls).
(** python's eval on the text of a literal, with the names np, inf, pi (base.py 447-460); [None]: an exception *)
Variable evalp : text -> option (pval cls).
Notation pval := (pval cls).

(** Prior.__repr__, base.py 212-230, with the printing [q] of strings as parameter *)
Fixpoint print (q : text -> text) (v : pval) : text :=
  match v with
  | PNone => T "None"
  | PStr s => q s
  | PLit t => t
  | PPrior c args => pname c ++ ["("] ++ join [","; " "] (map (fun kv => match kv with (k, w) => k ++ ["="] ++ print q w end) args) ++ [")"]
  end.
Definition repr : pval -> text := print repr_str.
(** the text between the parentheses *)
Definition body (q : text -> text) (args : list (text * pval)) : text :=
  join [","; " "] (map (fun kv => match kv with (k, w) => k ++ ["="] ++ print q w end) args).

(** Prior._parse_argument_string, base.py 430-461; [read] reads a nested prior *)
Definition parse (read : cls -> text -> option pval) (val : text) : option pval :=
  if teq val (T "None") then Some PNone
  else if teq (unquoted val) (T "r") || teq (unquoted val) (T "u") then Some (PStr (chop (tl (tl val))))
  else if starts quote val && ends quote val then Some (PStr (strip quote val))
  else if has "(" val && negb (starts "[" val || starts "{" val) then
    match lookup (before "(" val) with Some c => read c (chop (after "(" val)) | None => None end
  else evalp val.
(** Prior._from_repr, base.py 338-359; constructing a prior keeps its arguments. [fuel] bounds the nesting *)
Fixpoint read (fuel : nat) (c : cls) (s : text) : option pval :=
  match fuel with
  | O => None
  | S n =>
      match split_repr (sig c) (remove_char " " s) with
      | None => None
      | Some kw =>
          match all_ok (map (fun kv => if existsb (teq (fst kv)) (sig c) then option_map (pair (fst kv)) (parse (read n) (snd kv)) else None) kw) with
          | Some args => Some (PPrior c args)
          | None => None
          end
      end
  end.
Definition from_repr (c : cls) (s : text) : option pval := read (S (length s)) c s.

(** ** Dictionaries of priors *)
Inductive entry := EPrior (p : pval) | EJoint (c : cls) (dist : text) (kwargs : list (text * pval)) | ERaw (t : text).
Inductive raw := RPrior (e : entry) | RNum (tok : text) | RText (t : text).
(** [re.match("dist=(\S+),", args)], dict.py 261: the longest run without spaces, cut at its last comma *)
Fixpoint run_of (t : text) : text := match t with [] => [] | x :: r => if Ascii.eqb x " " then [] else x :: run_of r end.
Definition dist_key (args : text) : option text :=
  if prefix (T "dist=") args then
    let run := run_of (skipn 5 args) in
    let k := rev (after "," (rev run)) in
    match k with [] => None | _ => Some k end
  else None.
Variables (is_float : text -> bool) (delta : text -> pval).
Variable read_dist : cls -> text -> option text.
(** DeltaFunction(peak=..), of a number and of a text that python's float accepts: both [delta] *)
Definition joint_kwargs (c : cls) (args : text) : option (list (text * pval)) :=
  match split_repr (sig c) (join [","; " "] (filter (fun a => negb (contains (T "dist=") a)) (split "," args))) with
  | None => None
  | Some kw => all_ok (map (fun kv => option_map (pair (strip " " (fst kv))) (parse (fun c s => from_repr c s) (snd kv))) kw)
  end.
Record state := { dists : list (text * text); func : option text; out : list (text * entry) }.
(** one key of from_dictionary, dict.py 211-304, for priors, numbers and strings; [dists]: jpdkwargs; [func]: a
    conversion_function or condition_func set on the dictionary (a lower-case key). Values that are dictionaries are not modelled *)
Definition load_step (st : option state) (kv : text * raw) : option state :=
  match st with
  | None => None
  | Some st =>
      let (k, v) := kv in
      let add e := Some {| dists := dists st; func := func st; out := out st ++ [(k, e)] |} in
      match v with
      | RPrior e => add e
      | RNum t => add (EPrior (delta t))
      | RText t =>
          let name := before "(" t in
          let args := chop (after "(" t) in
          if is_float name then add (EPrior (delta name))
          else if teq k (T "conversion_function") || teq k (T "condition_func") then Some {| dists := dists st; func := Some name; out := out st ++ [(k, ERaw t)] |}
          else match lookup name with
               | None => if has "(" t then None else add (ERaw t)
               | Some c =>
                   match ckind c with
                   | Dist => match tget (dists st) k with
                             | Some _ => Some st
                             | None => match read_dist c args with
                                       | Some d => Some {| dists := dists st ++ [(k, d)]; func := func st; out := out st |}
                                       | None => None
                                       end
                             end
                   | Joint => match joint_kwargs c args, dist_key args with
                              | Some kw, Some dk => match tget (dists st) dk with Some d => add (EJoint c d kw) | None => None end
                              | _, _ => None
                              end
                   | Plain => match from_repr c args with Some p => add (EPrior p) | None => None end
                   end
               end
      end
  end.
Definition from_dictionary (d : list (text * raw)) : option state := fold_left load_step d (Some {| dists := []; func := None; out := [] |}).
(** PriorDict.__init__ after from_dictionary, dict.py 46-49: the conversion function in use, [None] the default one *)
Definition conversion_in_use (given : option text) (st : state) : option text := match given with Some f => Some f | None => None end.

(** PriorDict.to_file for priors that are not joint, dict.py 95-110 *)
Definition write_line (kp : text * pval) : text := fst kp ++ T " = " ++ repr (snd kp) ++ [newline].
Definition write_file (d : list (text * pval)) : text := flat_map write_line d.
(** python iterates over lines with their line end; the last one may have none *)
Fixpoint lines (t : text) : list text :=
  match t with
  | [] => []
  | x :: r => if Ascii.eqb x newline then [x] :: lines r
              else match lines r with [] => [[x]] | l :: ls => (x :: l) :: ls end
  end.
Definition strip_line (t : text) : text := let cut l := (fix go l := match l with x :: r => if Ascii.eqb x " " || Ascii.eqb x newline || Ascii.eqb x tab || Ascii.eqb x creturn then go r else l | [] => [] end) l in rev (cut (rev (cut t))).
(** dict.py 150-157 *)
Definition read_line (d : list (text * text)) (line : text) : list (text * text) :=
  if starts "#" line || starts newline line then d
  else tset d (remove_char " " (before "=" line)) (strip_line (after "=" line)).
Definition read_file (t : text) : list (text * text) := fold_left read_line (lines (decode t)) [].
Definition from_file (t : text) : option state := from_dictionary (map (fun kv => (fst kv, RText (snd kv))) (read_file t)).
End Text.
