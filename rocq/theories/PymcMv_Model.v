(** bilby/core/sampler/pymc.py 406-485, 709-715: multivariate Gaussian priors for PyMC; core/prior/joint.py 735-760, 923-931: the attributes of such a prior. *)
From Coq Require Import String Reals List Bool Arith.
From Verif Require Import PyDict Mvg_Model.
Import ListNotations.
Open Scope list_scope.
Open Scope R_scope.

(** the parts of a MultivariateGaussianDist that are read; one list of means and of standard deviations for each mode *)
Record mvg := Dist { names : list string; bounds : list (ext * ext); means : list (list R); devs : list (list R); weight : list R }.
(** a prior of the class: its [dist]; [extra] are attributes that a user may have added, as no method of the class sets [mvg] *)
Record prior := Prior { dist : mvg; extra : dict mvg }.
Definition isinf (x : ext) : bool := match x with Fin _ => false | _ => true end.
(** np.max(.., axis=0)[i], np.min; there is at least one mode *)
Definition column (l : list (list R)) (i : nat) : list R := map (fun r => nth i r 0) l.
Definition largest (l : list R) : R := match l with [] => 0 | x :: t => fold_left Rmax t x end.
Definition smallest (l : list R) : R := match l with [] => 0 | x :: t => fold_left Rmin t x end.
Definition the (x : ext) : R := match x with Fin r => r | _ => 0 end.
(** 426-437 *)
Definition test_value (b : ext * ext) : R :=
  if isinf (fst b) && isinf (snd b) then 0
  else if isinf (fst b) then the (snd b) - 1
  else if isinf (snd b) then the (fst b) + 1
  else the (fst b) + (the (snd b) - the (fst b)) / 2.
(** 421-422, 441-448 *)
Definition lower_of (d : mvg) (i : nat) : R :=
  let b := fst (nth i (bounds d) (MInf, PInf)) in if isinf b then smallest (column (means d) i) - 100 * largest (column (devs d) i) else the b.
Definition upper_of (d : mvg) (i : nat) : R :=
  let b := snd (nth i (bounds d) (MInf, PInf)) in if isinf b then largest (column (means d) i) + 100 * largest (column (devs d) i) else the b.

(** what PyMC is given: a bounded component for each mode, and a mixture of them *)
Inductive variable := Comp (name : nat) (mean : list R) (lower upper : list R) | Mixture (name : nat) (w : list R) (parts : nat) (test : list R).
Inductive exc := AttributeErr | ValueErr | KeyErr.
(** names of variables are unique in a PyMC model: comp0, comp1, .. and mixture0, .. *)
Definition clash (a b : variable) : bool :=
  match a, b with Comp i _ _ _, Comp j _ _ _ => Nat.eqb i j | Mixture i _ _ _, Mixture j _ _ _ => Nat.eqb i j | _, _ => false end.
Fixpoint register (model new : list variable) : list variable * bool :=
  match new with [] => (model, true) | v :: t => if existsb (clash v) model then (model, false) else register (model ++ [v]) t end.
(** 709-711: the sets, with the number of the mixture and the index in it *)
Record st := St { model : list variable; sets : dict (nat * nat); num_sets : nat }.
Definition start : st := St [] [] 0.
(** 452-470 *)
Definition variables (d : mvg) (n : nat) : list variable :=
  let is := seq 0 (length (names d)) in
  map (fun m => Comp m (nth m (means d) []) (map (lower_of d) is) (map (upper_of d) is)) (seq 0 (length (means d))) ++
  [Mixture n (weight d) (length (means d)) (map test_value (bounds d))].
(** 472-477 *)
Definition enter (d : mvg) (n : nat) (s : dict (nat * nat)) : dict (nat * nat) :=
  fold_left (fun s q => dset s (snd q) (n, fst q)) (combine (seq 0 (length (names d))) (names d)) s.
(** 406-485 *)
Definition multivariate_normal_prior (s : st) (key : string) (p : prior) : st * (nat * nat + exc) :=
  match dget (extra p) "mvg"%string with
  | None => (s, inr AttributeErr)
  | Some d =>
    let answer s := match dget (sets s) key with Some v => (s, inl v) | None => (s, inr KeyErr) end in
    if forallb (fun k => dmem (sets s) k) (names d) then answer s
    else match register (model s) (variables d (num_sets s)) with
         | (m, false) => (St m (sets s) (num_sets s), inr ValueErr)
         | (m, true) => answer (St m (enter d (num_sets s) (sets s)) (num_sets s + 1))
         end
  end.
(** 714-..: the priors one after the other; the first exception ends it *)
Fixpoint set_priors (s : st) (l : list (string * prior)) : st * (list (nat * nat) + exc) :=
  match l with
  | [] => (s, inl [])
  | (k, p) :: t => match multivariate_normal_prior s k p with
                   | (s, inr e) => (s, inr e)
                   | (s, inl v) => match set_priors s t with (s, inl r) => (s, inl (v :: r)) | (s, inr e) => (s, inr e) end
                   end
  end.
