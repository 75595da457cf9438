(** bilby/core/prior/dict.py, class PriorDict: joint probability, constraint
    evaluation, the normalisation cache and constrained sampling. *)
From Coq Require Import Reals String List Bool Arith.
From Coquelicot Require Import Rbar.
From Verif Require Import PyReal PyDict.
Import ListNotations.
Open Scope R_scope.

(** A dictionary entry is a Constraint (base.py 464-473) or any other prior,
    given by its [prob] and [ln_prob] methods.  [prob] is taken finite. *)
Inductive entry :=
| EConstraint (mn mx : R)
| EPrior (prob : R -> R) (lnp : R -> Rbar).
(** base.py 472-473: [(val > self.minimum) & (val < self.maximum)] *)
Definition constraint_prob (mn mx x : R) : bool :=
  if Rlt_dec mn x then if Rlt_dec x mx then true else false else false.
Definition entry_prob (e : entry) (x : R) : R :=
  match e with
  | EConstraint mn mx => if constraint_prob mn mx x then 1 else 0
  | EPrior p _ => p x
  end.
(** base.py 183-196 for a Constraint: log of the boolean *)
Definition entry_ln_prob (e : entry) (x : R) : Rbar :=
  match e with
  | EConstraint mn mx => if constraint_prob mn mx x then Finite 0 else m_infty
  | EPrior _ l => l x
  end.
Definition priordict := dict entry.
Definition sample := dict R.

(** dict.py 56-62 [evaluate_constraints]; the product of booleans is a conjunction *)
Fixpoint constraints_loop (pd : priordict) (out : sample) (acc : bool) : bool :=
  match pd with
  | [] => acc
  | (k, EConstraint mn mx) :: t =>
      match dget out k with
      | Some v => constraints_loop t out (acc && constraint_prob mn mx v)
      | None => constraints_loop t out acc
      end
  | (_, EPrior _ _) :: t => constraints_loop t out acc
  end.
Definition evaluate_constraints (pd : priordict) (conv : sample -> sample) (s : sample) : bool :=
  constraints_loop pd (conv s) true.

(** [[f(self[key], sample[key]) for key in sample]], None = KeyError *)
Fixpoint terms {A} (f : entry -> R -> A) (pd : priordict) (s : sample) : option (list A) :=
  match s with
  | [] => Some []
  | (k, x) :: t =>
      match dget pd k with
      | None => None
      | Some e => match terms f pd t with Some l => Some (f e x :: l) | None => None end
      end
  end.
Definition np_prod (l : list R) : R := fold_right Rmult 1 l.

(** dict.py 519-535 [prob] and [check_prob], scalar branch; [ratio] is the value of
    [normalize_constraint_factor(tuple(sample.keys()))] *)
Definition check_prob (ratio : R) (pd : priordict) (conv : sample -> sample) (s : sample) (prob : R) : R :=
  if Req_EM_T prob 0 then prob * ratio
  else if evaluate_constraints pd conv s then prob * ratio else 0.
Definition PriorDict_prob (ratio : list string -> R) (pd : priordict) (conv : sample -> sample) (s : sample) : option R :=
  match terms entry_prob pd s with
  | None => None
  | Some l => Some (check_prob (ratio (dkeys s)) pd conv s (np_prod l))
  end.

(** float addition of extended reals, [NaN] for inf - inf *)
Inductive xreal := XR (r : Rbar) | NaN.
Definition xplus (a b : xreal) : xreal :=
  match a, b with
  | XR (Finite x), XR (Finite y) => XR (Finite (x + y))
  | XR p_infty, XR m_infty => NaN
  | XR m_infty, XR p_infty => NaN
  | XR p_infty, XR _ => XR p_infty
  | XR _, XR p_infty => XR p_infty
  | XR m_infty, XR _ => XR m_infty
  | XR _, XR m_infty => XR m_infty
  | _, _ => NaN
  end.
Definition np_sum (l : list Rbar) : xreal := fold_right (fun a b => xplus (XR a) b) (XR (Finite 0)) l.
(** dict.py 537-577 [ln_prob] and [check_ln_prob], scalar branch *)
Definition check_ln_prob (ratio : R) (pd : priordict) (conv : sample -> sample) (s : sample) (l : xreal) : xreal :=
  match l with
  | XR p_infty => XR p_infty
  | XR m_infty => XR m_infty
  | _ => if evaluate_constraints pd conv s then xplus l (XR (Finite (ln ratio))) else XR m_infty
  end.
Definition PriorDict_ln_prob (normalized : bool) (ratio : list string -> R) (pd : priordict) (conv : sample -> sample) (s : sample) : option xreal :=
  match terms entry_ln_prob pd s with
  | None => None
  | Some l => Some (check_ln_prob (if normalized then ratio (dkeys s) else 1) pd conv s (np_sum l))
  end.

(** array branches of check_prob (531-535) and check_ln_prob (573-577): one entry per
    row of an array-valued sample, [keep] is evaluate_constraints row by row *)
Fixpoint keep_rows {A} (keep : list bool) (f : A -> A) (z : A) (l : list A) : list A :=
  match keep, l with
  | b :: keep', x :: l' => (if b then f x else z) :: keep_rows keep' f z l'
  | _, _ => []
  end.
Definition check_prob_vec (ratio : R) (pd : priordict) (conv : sample -> sample) (rows : list sample) (probs : list R) : list R :=
  if forallb (fun p => if Req_EM_T p 0 then true else false) probs then map (fun p => p * ratio) probs
  else keep_rows (map (evaluate_constraints pd conv) rows) (fun p => p * ratio) 0 probs.
Definition is_inf (l : xreal) : bool := match l with XR p_infty | XR m_infty => true | _ => false end.
Definition check_ln_prob_vec (ratio : R) (pd : priordict) (conv : sample -> sample) (rows : list sample) (ls : list xreal) : list xreal :=
  if forallb is_inf ls then ls
  else keep_rows (map (evaluate_constraints pd conv) rows) (fun l => xplus l (XR (Finite (ln ratio)))) (XR m_infty) ls.

(** dict.py 596-614 [rescale] for scalar priors: one value per key, in the order of the keys;
    [zip] stops at the shorter list; None = KeyError *)
Fixpoint PriorDict_rescale (resc : string -> option (R -> R)) (keys : list string) (theta : list R) : option (list R) :=
  match keys, theta with
  | k :: ks, u :: us =>
      match resc k with
      | None => None
      | Some q => match PriorDict_rescale resc ks us with Some l => Some (q u :: l) | None => None end
      end
  | _, _ => Some []
  end.

(** ** Normalisation cache, dict.py 468-500.
    [active pd keys]: evaluate_constraints on a drawn batch returns an array
    (some constraint was evaluated), so [len(keep) <> 1]; otherwise the factor is 1.
    [est t pd keys]: the rounded mean of the Monte Carlo estimates made at time [t]
    (every estimation uses fresh random numbers). *)
Definition cache := list (list string * R).
Fixpoint list_eqb (a b : list string) : bool :=
  match a, b with
  | [], [] => true
  | x :: a', y :: b' => String.eqb x y && list_eqb a' b'
  | _, _ => false
  end.
Fixpoint cget (c : cache) (k : list string) : option R :=
  match c with [] => None | (k', v) :: t => if list_eqb k k' then Some v else cget t k end.
Section Cache.
Variable active : priordict -> list string -> bool.
Variable est : nat -> priordict -> list string -> R.
(** state: current dictionary, cache, number of estimations so far *)
Record nstate := { n_pd : priordict; n_cache : cache; n_time : nat }.
Definition normalize_constraint_factor (st : nstate) (keys : list string) : R * nstate :=
  match cget (n_cache st) keys with
  | Some f => (f, st)
  | None =>
      let f := if active (n_pd st) keys then est (n_time st) (n_pd st) keys else 1 in
      (f, {| n_pd := n_pd st; n_cache := (keys, f) :: n_cache st; n_time := S (n_time st) |})
  end.
(** the user edits the dictionary: [priors[k] = v], [del priors[k]]; the cache is untouched *)
Inductive nop := NSet (k : string) (e : entry) | NDel (k : string) | NFactor (keys : list string).
Definition nstep (st : nstate) (o : nop) : nstate :=
  match o with
  | NSet k e => {| n_pd := dset (n_pd st) k e; n_cache := n_cache st; n_time := n_time st |}
  | NDel k => {| n_pd := ddel (n_pd st) k; n_cache := n_cache st; n_time := n_time st |}
  | NFactor keys => snd (normalize_constraint_factor st keys)
  end.
Definition nrun (st : nstate) (l : list nop) : nstate := fold_left nstep l st.
End Cache.

(** ** Constrained sampling, dict.py 443-466.
    [batch t k] is the column of [needed] draws for key [k] in the [t]-th call
    of sample_subset; [keep t] is the array of booleans evaluate_constraints
    returns for that batch (when no constraint applies numpy broadcasts a single
    True over the batch). *)
Fixpoint mask {A} (m : list bool) (l : list A) : list A :=
  match m, l with
  | b :: m', x :: l' => if b then x :: mask m' l' else mask m' l'
  | _, _ => []
  end.
Section Sampling.
Variable batch : nat -> string -> list R.
Variable keep : nat -> list bool.
(** the while loop, on fuel; None = still running after [fuel] batches *)
Fixpoint sampling_loop (fuel t needed : nat) (first : string) (acc : string -> list R) : option (string -> list R) :=
  if Nat.ltb (length (acc first)) needed then
    match fuel with
    | O => None
    | S f => sampling_loop f (S t) needed first (fun k => (acc k ++ mask (keep t) (batch t k))%list)
    end
  else Some (fun k => firstn needed (acc k)).
(** batch branch (445-466): the constraint keys are removed from the caller's list
    [keys]; returns the edited key list and the columns.  IndexError when no key is left. *)
Definition sample_batch (is_constraint : string -> bool) (keys : list string) (needed fuel : nat)
  : option (option (list string * (string -> list R))) :=
  let keys' := filter (fun k => negb (is_constraint k)) keys in
  match keys' with
  | [] => None
  | k0 :: _ =>
      match sampling_loop fuel 0 needed k0 (fun _ => []) with
      | Some r => Some (Some (keys', r))
      | None => Some None
      end
  end.
End Sampling.
(** scalar branch (444-448) *)
Fixpoint sample_one {A} (draw : nat -> A) (ok : A -> bool) (fuel t : nat) : option A :=
  match fuel with
  | O => None
  | S f => if ok (draw t) then Some (draw t) else sample_one draw ok f (S t)
  end.
