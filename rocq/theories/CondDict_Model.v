(** bilby/core/prior/dict.py, class ConditionalPriorDict (lines 655-903):
    resolution of conditions, rescaling with its index cache, joint probability. *)
From Coq Require Import Reals String List Bool Arith.
From Verif Require Import PyDict.
Import ListNotations.
Open Scope string_scope.

Definition mem (k : string) (l : list string) : bool := existsb (String.eqb k) l.

Section Dict.
(** [V]: parameter values (floats or arrays); [U]: points of the unit interval *)
Context {V U : Type}.
(** A prior object.  [c_req]: [Some l] when it has a condition_func with required
    variables [l] (conditional.py 33-60).  [c_fixed]: isinstance of DeltaFunction or
    Constraint.  [c_q]/[c_p]: rescale and prob as functions of the required
    variables (passed as keyword arguments) and the argument. *)
Record cprior := {
  c_req : option (list string);
  c_fixed : bool;
  c_q : dict V -> U -> V;
  c_p : dict V -> V -> R }.
Definition reqs (p : cprior) : list string := match c_req p with Some l => l | None => [] end.
Definition is_cond (p : cprior) : bool := match c_req p with Some _ => true | None => false end.

(** dict.py 708-714 *)
Definition check_conditions_resolved (pd : dict cprior) (key : string) (sampled : list string) : bool :=
  match dget pd key with
  | Some p => forallb (fun k => mem k sampled) (reqs p)
  | None => false
  end.
(** one round of the inner loop (696-699): iterates over a snapshot of the unsorted
    keys; a key found resolvable is appended to the sorted ones at once *)
Fixpoint pass (pd : dict cprior) (unc cond todo : list string) : list string * list string :=
  match todo with
  | [] => (cond, [])
  | k :: t =>
      if check_conditions_resolved pd k (unc ++ cond) then pass pd unc (cond ++ [k]) t
      else let '(c, r) := pass pd unc cond t in (c, k :: r)
  end.
Fixpoint passes (pd : dict cprior) (unc : list string) (n : nat) (cond todo : list string) : list string * list string :=
  match n with
  | O => (cond, todo)
  | S m => let '(c, r) := pass pd unc cond todo in passes pd unc m c r
  end.
Definition unconditional (pd : dict cprior) : list string :=
  map fst (filter (fun kp => negb (is_cond (snd kp))) pd).
Definition conditional (pd : dict cprior) : list string :=
  map fst (filter (fun kp => is_cond (snd kp)) pd).
(** 679-706 [_resolve_conditions]: (unconditional keys, conditional keys, resolved) *)
Definition resolve_conditions (pd : dict cprior) : list string * list string * bool :=
  let unc := unconditional pd in
  let '(cond, rest) := passes pd unc (List.length pd) [] (conditional pd) in
  (unc, cond, match rest with [] => true | _ => false end).

(** the dictionary object; [lrs k] is [self[k].least_recently_sampled] (base.py 56,
    analytical.py 31), None when never set *)
Record cstate := {
  s_pd : dict cprior;
  s_unc : list string;
  s_cond : list string;
  s_resolved : bool;
  s_rkeys : list string;
  s_ridx : list nat;
  s_lrs : dict V }.
Definition resolve (st : cstate) : cstate :=
  let '(unc, cond, ok) := resolve_conditions (s_pd st) in
  {| s_pd := s_pd st; s_unc := unc; s_cond := cond; s_resolved := ok;
     s_rkeys := s_rkeys st; s_ridx := s_ridx st; s_lrs := s_lrs st |}.
(** 656-677 [__init__]; [lrs0]: the values stored in the prior objects handed over *)
Definition new_dict (pd : dict cprior) (lrs0 : dict V) : cstate :=
  resolve {| s_pd := pd; s_unc := []; s_cond := []; s_resolved := false;
             s_rkeys := []; s_ridx := []; s_lrs := lrs0 |}.
Definition sorted_keys (st : cstate) : list string := s_unc st ++ s_cond st.
(** 888-894; None = KeyError *)
Fixpoint without_fixed (pd : dict cprior) (ks : list string) : option (list string) :=
  match ks with
  | [] => Some []
  | k :: t =>
      match dget pd k, without_fixed pd t with
      | Some p, Some r => Some (if c_fixed p then r else k :: r)
      | _, _ => None
      end
  end.
(** [list.index], None = ValueError *)
Fixpoint index (l : list string) (k : string) : option nat :=
  match l with
  | [] => None
  | x :: t => if String.eqb k x then Some O else option_map S (index t k)
  end.
Fixpoint indexes (keys ks : list string) : option (list nat) :=
  match ks with
  | [] => Some []
  | k :: t => match index keys k, indexes keys t with Some i, Some r => Some (i :: r) | _, _ => None end
  end.
Fixpoint keys_eqb (a b : list string) : bool :=
  match a, b with
  | [], [] => true
  | x :: a', y :: b' => String.eqb x y && keys_eqb a' b'
  | _, _ => false
  end.
(** 857-863 [_update_rescale_keys] *)
Definition update_rescale_keys (st : cstate) (keys : list string) : option cstate :=
  if keys_eqb keys (s_rkeys st) then Some st
  else match without_fixed (s_pd st) (sorted_keys st) with
       | None => None
       | Some ks => match indexes keys ks with
                    | None => None
                    | Some idx => Some {| s_pd := s_pd st; s_unc := s_unc st; s_cond := s_cond st;
                        s_resolved := s_resolved st; s_rkeys := keys; s_ridx := idx; s_lrs := s_lrs st |}
                    end
       end.
(** 751-767 [get_required_variables]; None = KeyError, or a value that was never set *)
Fixpoint lookup_all (pd : dict cprior) (lrs : dict V) (rs : list string) : option (dict V) :=
  match rs with
  | [] => Some []
  | r :: t =>
      match dget pd r, dget lrs r, lookup_all pd lrs t with
      | Some _, Some v, Some l => Some ((r, v) :: l)
      | _, _, _ => None
      end
  end.
(** 847-854: the loop of [rescale]; returns the stored values at the end or at the
    point where an exception is raised, and the result dictionary *)
Fixpoint rescale_loop (pd : dict cprior) (theta : list U) (ks : list string) (idx : list nat)
    (lrs res : dict V) : dict V * option (dict V) :=
  match ks, idx with
  | k :: ks', i :: idx' =>
      match dget pd k, nth_error theta i with
      | Some p, Some u =>
          match lookup_all pd lrs (reqs p) with
          | Some vars =>
              let x := c_q p vars u in
              rescale_loop pd theta ks' idx' (dset lrs k x) (dset res k x)
          | None => (lrs, None)
          end
      | _, _ => (lrs, None)
      end
  | _, _ => (lrs, Some res)
  end.
Fixpoint collect (res : dict V) (keys : list string) : option (list V) :=
  match keys with
  | [] => Some []
  | k :: t => match dget res k, collect res t with Some v, Some l => Some (v :: l) | _, _ => None end
  end.
Definition set_lrs (st : cstate) (l : dict V) : cstate :=
  {| s_pd := s_pd st; s_unc := s_unc st; s_cond := s_cond st; s_resolved := s_resolved st;
     s_rkeys := s_rkeys st; s_ridx := s_ridx st; s_lrs := l |}.
(** 828-855 [rescale] for priors that return one value per key (no flattening needed);
    None = an exception was raised *)
Definition rescale (st : cstate) (keys : list string) (theta : list U) : cstate * option (list V) :=
  if s_resolved st then
    match update_rescale_keys st keys with
    | None => (st, None)
    | Some st1 =>
        match without_fixed (s_pd st1) (sorted_keys st1) with
        | None => (st1, None)
        | Some ks =>
            let '(lrs, r) := rescale_loop (s_pd st1) theta ks (s_ridx st1) (s_lrs st1) [] in
            (set_lrs st1 lrs, match r with Some res => collect res keys | None => None end)
        end
    end
  else (st, None).

(** 865-868 [_prepare_evaluation] *)
Fixpoint store_all (pd : dict cprior) (lrs : dict V) (s : dict V) : dict V * bool :=
  match s with
  | [] => (lrs, true)
  | (k, v) :: t => match dget pd k with Some _ => store_all pd (dset lrs k v) t | None => (lrs, false) end
  end.
Fixpoint factors (pd : dict cprior) (lrs : dict V) (s : dict V) : option (list R) :=
  match s with
  | [] => Some []
  | (k, x) :: t =>
      match dget pd k with
      | Some p => match lookup_all pd lrs (reqs p), factors pd lrs t with
                  | Some vars, Some l => Some (c_p p vars x :: l)
                  | _, _ => None
                  end
      | None => None
      end
  end.
(** 769-789 [prob], before check_prob (same as PriorDict); [zip( *sample.items())] of an
    empty sample makes the call of [_prepare_evaluation] a TypeError *)
Definition cond_prob (st : cstate) (s : dict V) : cstate * option R :=
  if match s with [] => false | _ => s_resolved st end then
    let '(lrs, ok) := store_all (s_pd st) (s_lrs st) s in
    (set_lrs st lrs,
     if ok then match factors (s_pd st) lrs s with Some l => Some (fold_right Rmult 1%R l) | None => None end
     else None)
  else (st, None).

(** 896-902 [__setitem__], [__delitem__]; a new prior object brings its own stored value *)
Definition forget (lrs : dict V) (k : string) (v0 : option V) : dict V :=
  match v0 with Some v => dset lrs k v | None => ddel lrs k end.
Definition set_item (st : cstate) (k : string) (p : cprior) (v0 : option V) : cstate :=
  resolve {| s_pd := dset (s_pd st) k p; s_unc := s_unc st; s_cond := s_cond st; s_resolved := s_resolved st;
     s_rkeys := s_rkeys st; s_ridx := s_ridx st; s_lrs := forget (s_lrs st) k v0 |}.
Definition del_item (st : cstate) (k : string) : cstate :=
  resolve {| s_pd := ddel (s_pd st) k; s_unc := s_unc st; s_cond := s_cond st; s_resolved := s_resolved st;
     s_rkeys := s_rkeys st; s_ridx := s_ridx st; s_lrs := ddel (s_lrs st) k |}.
(** [dict.update({k: p})]: inherited from dict, does not go through [__setitem__] *)
Definition update_item (st : cstate) (k : string) (p : cprior) (v0 : option V) : cstate :=
  {| s_pd := dset (s_pd st) k p; s_unc := s_unc st; s_cond := s_cond st; s_resolved := s_resolved st;
     s_rkeys := s_rkeys st; s_ridx := s_ridx st; s_lrs := forget (s_lrs st) k v0 |}.

Inductive op :=
| ORescale (keys : list string) (theta : list U)
| OProb (s : dict V)
| OSet (k : string) (p : cprior) (v0 : option V)
| ODel (k : string).
Definition step (st : cstate) (o : op) : cstate :=
  match o with
  | ORescale keys theta => fst (rescale st keys theta)
  | OProb s => fst (cond_prob st s)
  | OSet k p v0 => set_item st k p v0
  | ODel k => del_item st k
  end.
Definition run (st : cstate) (l : list op) : cstate := fold_left step l st.
Definition is_edit (o : op) : bool := match o with OSet _ _ _ | ODel _ => true | _ => false end.

(** 716-749 [sample_subset]: [draw k] is the unit-interval draw used for [k]; the
    subset dictionary shares the prior objects *)
Fixpoint sample_loop (pd : dict cprior) (keys : list string) (draw : string -> U) (ks : list string) (lrs res : dict V)
  : dict V * option (dict V) :=
  match ks with
  | [] => (lrs, Some res)
  | k :: t =>
      if negb (mem k keys) then sample_loop pd keys draw t lrs res
      else match dget pd k with
           | Some p => match lookup_all pd lrs (reqs p) with
                       | Some vars => let x := c_q p vars (draw k) in
                                      sample_loop pd keys draw t (dset lrs k x) (dset res k x)
                       | None => (lrs, None)
                       end
           | None => (lrs, None)
           end
  end.
Fixpoint select (pd : dict cprior) (keys : list string) : option (dict cprior) :=
  match keys with
  | [] => Some []
  | k :: t => match dget pd k, select pd t with Some p, Some r => Some ((k, p) :: r) | _, _ => None end
  end.
(** no Constraint among [keys]; [delta] holds the names of the DeltaFunctions *)
Definition sample_subset (st : cstate) (delta : list string) (keys : list string) (draw : string -> U) : cstate * option (dict V) :=
  let add := filter (fun k => negb (mem k keys) && mem k delta) (dkeys (s_pd st)) in
  match select (s_pd st) (add ++ keys) with
  | None => (st, None)
  | Some sub =>
      let '(unc, cond, ok) := resolve_conditions sub in
      if ok then let '(lrs, r) := sample_loop sub keys draw (unc ++ cond) (s_lrs st) [] in (set_lrs st lrs, r)
      else (st, None)
  end.
End Dict.
Arguments cprior : clear implicits.
Arguments cstate : clear implicits.
Arguments op : clear implicits.
