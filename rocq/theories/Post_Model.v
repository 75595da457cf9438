(** * Posterior tables of a result
    Model of /repo/bilby/core/result.py 829-866 (save_posterior_samples), 898-939 (covariance_matrix,
    posterior_volume, prior_volume, occam_factor, bayesian_model_dimensionality), 1436-1483
    (samples_to_posterior), 1604-1640 (kde, posterior_probability), 1654-1694 (get_weights_by_new_prior).
    Numbers are reals; a table is a dictionary of columns in their order. *)
From Coq Require Import String List Bool Arith.
From Coq Require Import Reals.
From Verif Require Import PyDict PyReal.
Import ListNotations.
Open Scope R_scope.
Open Scope list_scope.

(** ** samples_to_posterior *)
(** What stands under a key of the priors: a DeltaFunction, a ConditionalDeltaFunction, a bare float, or any
    other prior. *)
Inductive pentry := EDelta (peak : R) | ECondDelta | EFloat (v : R) | EPrior.
(** a cell is [None] when nothing was recorded (the None of the result, 1470-1476) *)
Definition column := list (option R).
Definition frame := dict column.
(** pd.DataFrame(samples, columns=keys), 1466: column [j] is made of the [j]th entries of the rows; [None]: a
    row has not as many entries as there are keys (ValueError) *)
Fixpoint table_from (samples : list (list R)) (j : nat) (keys : list string) : frame :=
  match keys with
  | [] => []
  | k :: t => (k, map (fun row => nth_error row j) samples) :: table_from samples (S j) t
  end.
Definition data_frame (samples : list (list R)) (keys : list string) : option frame :=
  if forallb (fun row => Nat.eqb (length row) (length keys)) samples then Some (table_from samples 0 keys) else None.
(** _add_prior_fixed_values_to_posterior, 1437-1446: a number is put into every row *)
Fixpoint add_fixed (n : nat) (f : frame) (priors : dict pentry) : frame :=
  match priors with
  | [] => f
  | (k, EDelta v) :: t => add_fixed n (dset f k (repeat (Some v) n)) t
  | (k, EFloat v) :: t => add_fixed n (dset f k (repeat (Some v) n)) t
  | (_, _) :: t => add_fixed n f t
  end.
(** [data_frame[name] = values], 1470, 1476: a list must have one value per row (ValueError otherwise), None
    goes into every row *)
Definition set_column (n : nat) (f : frame) (name : string) (v : option (list R)) : option frame :=
  match v with
  | None => Some (dset f name (repeat None n))
  | Some l => if Nat.eqb (length l) n then Some (dset f name (map Some l)) else None
  end.
Section Make.
(** priors.ln_prob of one sample; the columns are given to it together (1473-1474) and it works row by row *)
Variable lnp : dict R -> R.
Definition zip_row (keys : list string) (row : list R) : dict R := combine keys row.
(** samples_to_posterior, 1466-1476, before any conversion function (which is the caller's) *)
Definition samples_to_posterior (samples : list (list R)) (keys : list string) (logl logp : option (list R))
  (priors : option (dict pentry)) : option frame :=
  let n := length samples in
  let* f := data_frame samples keys in
  let f := match priors with Some p => add_fixed n f p | None => f end in
  let* f := set_column n f "log_likelihood" logl in
  match logp, priors with
  | None, Some _ => set_column n f "log_prior" (Some (map (fun row => lnp (zip_row keys row)) samples))
  | _, _ => set_column n f "log_prior" logp
  end.
End Make.

(** ** get_weights_by_new_prior, 1654-1694 *)
(** The posterior: the label of each row and its values. [self.posterior[key][i]] looks a row up by label, the
    first row with that label. *)
Definition labelled := list (nat * dict R).
Definition by_label (p : labelled) (key : string) (i : nat) : option R :=
  match find (fun r => Nat.eqb (fst r) i) p with Some r => dget (snd r) key | None => None end.
Section Weights.
(** the probability of a value under the prior of that name, in the old and in the new dictionary *)
Variables old new : dict (R -> R).
(** new_prior.evaluate_constraints *)
Variable constraints : dict R -> R.
(** 1677-1681 *)
Definition shared (names : option (list string)) : list string :=
  filter (fun k => dmem old k && match names with Some l => existsb (String.eqb k) l | None => true end) (dkeys new).
(** 1682-1683: the values of the shared parameters in the row labelled [i] *)
Fixpoint row_values (p : labelled) (i : nat) (keys : list string) : option (dict R) :=
  match keys with
  | [] => Some []
  | k :: t => let* v := by_label p k i in let* r := row_values p i t in Some ((k, v) :: r)
  end.
(** 1687-1690; [None]: KeyError, or a value of zero old probability (numpy: inf or nan) *)
Fixpoint weight_loop (p : labelled) (i : nat) (params : dict R) (keys : list string) (w : R) : option R :=
  match keys with
  | [] => Some w
  | k :: t =>
      let* v := by_label p k i in
      match dget new k, dget old k with
      | Some fn, Some fo => let* q := pdiv (fn v) (fo v) in weight_loop p i params t (w * constraints params * q)
      | _, _ => None
      end
  end.
Fixpoint all_weights (p : labelled) (keys : list string) (is : list nat) : option (list R) :=
  match is with
  | [] => Some []
  | i :: t => let* params := row_values p i keys in let* w := weight_loop p i params keys 1 in
              let* r := all_weights p keys t in Some (w :: r)
  end.
Definition weights_by_new_prior (p : labelled) (names : option (list string)) : option (list R) :=
  all_weights p (shared names) (seq 0 (length p)).
End Weights.

(** ** save_posterior_samples, 829-866 *)
Inductive scol := SReal (v : list R) | SComplex (v : list (R * R)) | SBool (v : list bool) | SText (v : list string).
(** select_dtypes([np.number]), 856 *)
Definition numeric (c : scol) : bool := match c with SReal _ | SComplex _ => true | _ => false end.
(** np.any(np.iscomplex(column)), 860: some imaginary part is not zero *)
Definition any_complex (c : scol) : bool :=
  match c with SComplex v => existsb (fun z => if Req_EM_T (snd z) 0 then false else true) v | _ => false end.
(** np.abs and np.angle of a complex number *)
Definition cabs (z : R * R) : R := sqrt (fst z * fst z + snd z * snd z).
Definition cangle (z : R * R) : R :=
  let (x, y) := z in
  if Rlt_dec 0 x then atan (y / x)
  else if Rlt_dec x 0 then (if Rle_dec 0 y then atan (y / x) + PI else atan (y / x) - PI)
  else if Rlt_dec 0 y then PI / 2 else if Rlt_dec y 0 then - (PI / 2) else 0.
(** 859-863: the keys are those at the start of the loop; a column that exists already is replaced where it
    stands *)
Fixpoint split_complex (df : dict scol) (keys : list string) : dict scol :=
  match keys with
  | [] => df
  | k :: t =>
      match dget df k with
      | Some (SComplex v) =>
          if any_complex (SComplex v)
          then split_complex (dset (dset (ddel df k) (k ++ "_abs") (SReal (map cabs v))) (k ++ "_angle") (SReal (map cangle v))) t
          else split_complex df t
      | _ => split_complex df t
      end
  end.
Definition posterior_file (p : dict scol) : dict scol :=
  let df := filter (fun kc => numeric (snd kc)) p in split_complex df (dkeys df).

(** ** Volumes and dimension *)
Definition rsum (l : list R) : R := fold_right Rplus 0 l.
Definition mean (l : list R) : R := rsum l / INR (length l).
(** np.cov(samples.T), 902: normalised by the number of samples less one *)
Definition cov (a b : list R) : R :=
  rsum (map (fun p => (fst p - mean a) * (snd p - mean b)) (combine a b)) / (INR (length a) - 1).
(** posterior_volume, 907-911, with one search parameter and with two; [None]: a division by zero, which numpy
    carries on with inf or nan *)
Definition volume1 (a : list R) : R := sqrt (cov a a).
Definition volume2 (a b : list R) : option R :=
  let* c11 := pdiv 1 (cov a a) in
  let* c12 := pdiv 1 (cov a b) in
  let* c22 := pdiv 1 (cov b b) in
  pdiv 1 (sqrt (Rabs (c11 * c22 - c12 * c12))).
(** prior_volume, 916; a prior is its minimum and maximum *)
Definition prior_volume (priors : dict (R * R)) : R := fold_right (fun kp acc => (snd (snd kp) - fst (snd kp)) * acc) 1 priors.
(** occam_factor, 926 *)
Definition occam1 (a : list R) (priors : dict (R * R)) : option R := pdiv (volume1 a) (prior_volume priors).
(** bayesian_model_dimensionality, 938-939 *)
Definition dimensionality (logl : list R) : R := 2 * (mean (map (fun x => x ^ 2) logl) - mean logl ^ 2).

(** ** kde and posterior_probability, 1604-1640 *)
Section Kde.
(** a posterior table, and the density estimate made from one, a function of a point *)
Variables table : Type.
Variable estimate : table -> list R -> R.
Record kstate := mkK { k_posterior : table; k_cached : option table }.
Inductive kop := KSet (t : table) | KAsk.
(** 1610-1615; the cache is remembered as the table it was made from *)
Definition kstep (s : kstate) (o : kop) : kstate :=
  match o with
  | KSet t => mkK t (k_cached s)
  | KAsk => match k_cached s with Some _ => s | None => mkK (k_posterior s) (Some (k_posterior s)) end
  end.
Definition krun (s : kstate) (l : list kop) : kstate := fold_left kstep l s.
(** scipy.stats.gaussian_kde.__call__ on an array of [n] rows: each column is a point if there are as many
    rows as dimensions; a single row with as many entries as dimensions is one point; anything else is
    refused *)
Definition column_at (m : list (list R)) (j : nat) : list R := map (fun r => nth j r 0) m.
Definition kde_points (dim : nat) (m : list (list R)) : option (list (list R)) :=
  if Nat.eqb (length m) dim then Some (map (column_at m) (seq 0 (match m with r :: _ => length r | [] => 0 end)))
  else match m with
       | [r] => if Nat.eqb (length r) dim then Some [r] else None
       | _ => None
       end.
(** 1638-1640: each sample's values in the order of the search keys; [None]: KeyError or ValueError *)
Fixpoint ordered (keys : list string) (s : dict R) : option (list R) :=
  match keys with [] => Some [] | k :: t => let* v := dget s k in let* r := ordered t s in Some (v :: r) end.
Fixpoint all_ordered (keys : list string) (l : list (dict R)) : option (list (list R)) :=
  match l with [] => Some [] | s :: t => let* r := ordered keys s in let* m := all_ordered keys t in Some (r :: m) end.
Definition posterior_probability (keys : list string) (s : kstate) (l : list (dict R)) : option (list R) :=
  let* m := all_ordered keys l in
  let* pts := kde_points (length keys) m in
  match k_cached (kstep s KAsk) with Some t => Some (map (estimate t) pts) | None => None end.
End Kde.
