(** Joint priors (bilby/core/prior/joint.py) and how prior dictionaries use them
    (bilby/core/prior/dict.py 537-614, 827-855). *)
From Coq Require Import String Reals List Bool.
Import ListNotations.
Open Scope list_scope.
Open Scope R_scope.

(** ** The buffers shared by the parameters of one distribution *)
Section Buffer.
Context {V : Type}.
(** requested_parameters and rescale_parameters: one entry per name, in the
    order of the names, None until a value has been handed in (63-68) *)
Definition buffer := list (string * option V).
Definition reset (names : list string) : buffer := map (fun k => (k, None)) names.            (* 84-90, 99-105 *)
(** assignment to the entry of [k]; a JointPrior's name is one of the names (749) *)
Definition put (k : string) (v : V) (b : buffer) : buffer :=
  map (fun e => if String.eqb (fst e) k then (fst e, Some v) else e) b.
(** the values, once every entry is filled (77-82, 92-97) *)
Fixpoint filled (b : buffer) : option (list V) :=
  match b with
  | [] => Some []
  | (_, None) :: _ => None
  | (_, Some v) :: t => match filled t with Some vs => Some (v :: vs) | None => None end
  end.
(** 797-805, and 860-904 without the check of lengths: the last value to come in
    triggers the evaluation and empties the buffer *)
Definition offer {X : Type} (F : list V -> X) (b : buffer) (k : string) (v : V) : buffer * option X :=
  let b' := put k v b in
  match filled b' with
  | Some vs => (reset (map fst b), Some (F vs))
  | None => (b', None)
  end.
End Buffer.
Arguments buffer : clear implicits.

(** JointPrior.ln_prob (845-904) with the check of lengths.  A value is a number
    or an array; the distribution's ln_prob is [F] *)
Inductive pyval := Num (r : R) | Arr (l : list R).
Definition same_shape (a b : pyval) : bool :=                                     (* 867-883 *)
  match a, b with
  | Num _, Num _ => true
  | Arr l, Arr m => Nat.eqb (List.length l) (List.length m)
  | _, _ => false
  end.
Fixpoint shapes_ok (l : list pyval) : bool :=
  match l with a :: ((b :: _) as t) => same_shape a b && shapes_ok t | _ => true end.
Inductive lnp_result (X : Type) := LValue (x : X) | LZero | LRaise.
Arguments LValue {X} x. Arguments LZero {X}. Arguments LRaise {X}.
Definition joint_ln_prob {X : Type} (F : list pyval -> X) (b : buffer pyval) (k : string) (v : pyval) : buffer pyval * lnp_result X :=
  let b' := put k v b in
  match filled b' with
  | Some vs => if shapes_ok vs then (reset (map fst b), LValue (F vs)) else (b', LRaise)
  | None => (b', LZero)
  end.

(** ** Dictionaries containing joint priors *)
(** a log density: None is -inf *)
Definition ladd (a b : option R) : option R := match a, b with Some x, Some y => Some (x + y) | _, _ => None end.
Definition lsum (l : list (option R)) : option R := fold_right ladd (Some 0) l.
(** an entry of the dictionary: a prior of its own, or a parameter of joint distribution number [d] *)
Inductive entry := Own (f : R -> option R) | Part (d : nat).
Definition set_buffer (s : nat -> buffer R) (d : nat) (b : buffer R) : nat -> buffer R :=
  fun e => if Nat.eqb e d then b else s e.
(** dict.py 556: one term per key of the sample, in order; the buffers carry over *)
Fixpoint ln_prob_terms (priors : string -> entry) (F : nat -> list R -> option R) (s : nat -> buffer R)
    (sample : list (string * R)) : (nat -> buffer R) * list (option R) :=
  match sample with
  | [] => (s, [])
  | (k, v) :: t =>
      match priors k with
      | Own f => let '(s', l) := ln_prob_terms priors F s t in (s', f v :: l)
      | Part d =>
          let '(b, r) := offer (F d) (s d) k v in
          let '(s', l) := ln_prob_terms priors F (set_buffer s d b) t in
          (s', match r with Some x => x | None => Some 0 end :: l)
      end
  end.
Definition dict_ln_prob priors F s sample := let '(s', l) := ln_prob_terms priors F s sample in (s', lsum l).

(** the unit-cube transform: entries with a transform of their own, or parameters
    of the one joint distribution.  [order] is the order of evaluation, the keys
    themselves in PriorDict (612-614), sorted_keys in ConditionalPriorDict (848-854) *)
Inductive rentry := ROwn (f : R -> R) | RPart.
Fixpoint rescale_results (priors : string -> rentry) (F : list R -> list R) (theta : string -> R) (b : buffer R)
    (order : list string) : buffer R * list (string * list R) :=
  match order with
  | [] => (b, [])
  | k :: t =>
      match priors k with
      | ROwn f => let '(b', l) := rescale_results priors F theta b t in (b', (k, [f (theta k)]) :: l)
      | RPart =>
          let '(b1, r) := offer F b k (theta k) in
          let '(b', l) := rescale_results priors F theta b1 t in
          (b', (k, match r with Some x => x | None => [] end) :: l)
      end
  end.
Definition lookup (l : list (string * list R)) (k : string) : list R :=
  match find (fun e => String.eqb (fst e) k) l with Some (_, v) => v | None => [] end.
Definition dict_rescale priors F theta b (order keys : list string) : buffer R * list R :=
  let '(b', l) := rescale_results priors F theta b order in (b', flat_map (lookup l) keys).   (* flatten, 613 and 855 *)

(** ** Drawing (264-281, 807-843) *)
(** [draws n size] is the n-th joint draw of the distribution *)
Section Sample.
Context {V : Type}.
Variable draws : nat -> nat -> string -> V.
Record jstate := mkJS { js_sampled : list string; js_current : option (string -> V); js_count : nat }.
Definition joint_sample (names : list string) (s : jstate) (k : string) (size : nat) : jstate * V :=
  let '(cur, n) := match js_current s with
                   | Some c => (c, js_count s)
                   | None => (draws (js_count s) size, S (js_count s))
                   end in
  let sampled := if existsb (String.eqb k) (js_sampled s) then js_sampled s else js_sampled s ++ [k] in
  ((if Nat.eqb (List.length sampled) (List.length names) then mkJS [] None n else mkJS sampled (Some cur) n), cur k).
(** several calls in a row *)
Fixpoint sample_calls (names : list string) (s : jstate) (calls : list (string * nat)) : jstate * list V :=
  match calls with
  | [] => (s, [])
  | (k, size) :: t =>
      let '(s1, v) := joint_sample names s k size in
      let '(s2, l) := sample_calls names s1 t in (s2, v :: l)
  end.
End Sample.
Arguments jstate : clear implicits.

(** ** Bounds check of several samples (211-217) *)
Definition out1 (b : R * R) (x : R) : bool := if Rlt_dec x (fst b) then true else if Rlt_dec (snd b) x then true else false.
(** [samp] is a list of rows, [bounds] one per column; [col] is the index of the column *)
Fixpoint outbounds_from (samp : list (list R)) (bounds : list (R * R)) (col : nat) (last : list bool) : list bool :=
  match bounds with
  | [] => last
  | b :: t =>
      let o := map (fun row => out1 b (nth col row 0)) samp in
      if existsb (fun x => x) o then o else outbounds_from samp t (S col) o
  end.
Definition outbounds (samp : list (list R)) (bounds : list (R * R)) : list bool :=
  outbounds_from samp bounds 0 (map (fun _ => true) samp).

(** ** MultivariateGaussianDist (352-688); vectors and matrices as functions of indices below [n] *)
Fixpoint vsum (n : nat) (f : nat -> R) : R := match n with O => 0 | S m => vsum m f + f m end.
Definition vec := nat -> R.
Definition mat := nat -> nat -> R.
Definition mmul (n : nat) (A B : mat) : mat := fun i j => vsum n (fun k => A i k * B k j).
Definition transpose (A : mat) : mat := fun i j => A j i.
Definition diag (v : vec) : mat := fun i j => if Nat.eqb i j then v i else 0.
Definition ident : mat := diag (fun _ => 1).
(** what add_mode stores of one mode (489-568).  [cov] wins over [corrcoef] and [sigmas]; either of the latter alone is not used *)
Record mode := mkMode { m_mu : vec; m_sigma : vec; m_corr : mat; m_cov : mat }.
Definition add_mode (n : nat) (mus : option vec) (sigmas : option vec) (corrcoef cov : option mat) : mode :=
  let mu := match mus with Some m => m | None => fun _ => 0 end in
  match cov with
  | Some c =>                                                                      (* 504-525 *)
      let sg := fun i => sqrt (c i i) in
      let Dinv := diag (fun i => / sg i) in
      mkMode mu sg (mmul n (mmul n Dinv c) Dinv) c
  | None =>
      match corrcoef, sigmas with
      | Some r, Some sg => mkMode mu sg r (mmul n (diag sg) (mmul n r (diag sg)))  (* 526-563 *)
      | _, _ => mkMode mu (fun _ => 1) ident ident                                 (* 564-568 *)
      end
  end.
(** _rescale (614-632) once the unit-cube values have become standard normal ones
    [z]; [evals], [evecs] are np.linalg.eig's answers for the correlation matrix *)
Definition mvg_rescale (n : nat) (m : mode) (evals : vec) (evecs : mat) (z : vec) : vec :=
  fun k => m_mu m k + m_sigma m k * vsum n (fun j => z j * sqrt (evals j) * evecs k j).
(** 597 and the choice of the mode (624, 645, 649) *)
Fixpoint cumsum (acc : R) (l : list R) : list R := match l with [] => [] | x :: t => (acc + x) :: cumsum (acc + x) t end.
Definition rsum_list (l : list R) : R := fold_right Rplus 0 l.
Definition cumweights (w : list R) : list R := map (fun c => c / rsum_list w) (cumsum 0 w).
Fixpoint first_above (l : list R) (u : R) (i : nat) : option nat :=
  match l with [] => None | c :: t => if Rlt_dec 0 (c - u) then Some i else first_above t u (S i) end.
Definition pick_mode (w : list R) (u : R) : option nat := first_above (cumweights w) u 0.
(** the weights a sequence of add_mode calls stores (590-594) *)
Definition stored_weights (ws : list (option R)) : list R := map (fun w => match w with Some x => x | None => 1 end) ws.
(** _ln_prob (678-688) as a density: [dens] the modes' densities, in order; the
    logaddexp loop starts from -inf *)
Definition mvg_prob (dens : list (vec -> R)) (x : vec) : R := fold_left (fun acc f => acc + f x) dens 0.
