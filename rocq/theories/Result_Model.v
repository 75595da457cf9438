(** bilby/core/result.py: reweighting (162-394) and combination of results (1807-1996).
    All log values are finite reals: nan and overflow are not modelled. *)
From Coq Require Import Reals String List Arith.
From Verif Require Import PyDict Samples_Model Evidence_Model.
Import ListNotations.
Open Scope list_scope.
Open Scope R_scope.

(** np.argmin: first position of the smallest entry (194) *)
Fixpoint argmin (l : list R) : nat :=
  match l with
  | [] => 0%nat
  | x :: r => match r with
              | [] => 0%nat
              | _ => if Rle_dec x (nth (argmin r) r 0) then 0%nat else S (argmin r)
              end
  end.
(** [a[i] = v] inside the bounds of a *)
Definition set_at (i : nat) (v : R) (a : list R) : list R := firstn i a ++ v :: skipn (S i) a.

Section Weights.
Context {S : Type}.
(** the four arrays kept in the resume file (191-201) *)
Record arrays := mkA { oL : list R; oP : list R; nL : list R; nP : list R }.
(** what is evaluated for a row: [old_like] is the stored column or the old likelihood (220-224),
    [new_like] None: not reweighted (226-228); [old_prior] stored column or old prior object
    (242-245), [new_prior] None: not reweighted (247-251) *)
Record target := mkT { old_like : S -> R; new_like : option (S -> R); old_prior : S -> R; new_prior : option (S -> R) }.
Definition fresh (n : nat) : arrays := let z := repeat 0 n in mkA z z z z.
(** 220-230: slices from the starting index on; the process pool is a map *)
Definition fill_likelihoods (t : target) (st : nat) (rows : list S) (a : arrays) : arrays :=
  let o := firstn st (oL a) ++ map (old_like t) (skipn st rows) in
  let n := firstn st (nL a) ++ match new_like t with None => skipn st o | Some f => map f (skipn st rows) end in
  mkA o (oP a) n (nP a).
(** 238-251, body of the prior loop at index i *)
Definition prior_step (t : target) (i : nat) (s : S) (a : arrays) : arrays :=
  let p := old_prior t s in
  mkA (oL a) (set_at i p (oP a)) (nL a) (set_at i (match new_prior t with Some f => f s | None => p end) (nP a)).
(** 233-258: final arrays and the states written to the resume file, in order. np.savetxt is
    taken as one step: a crash in the middle of it leaves an unreadable file *)
Fixpoint prior_loop (t : target) (ncp i : nat) (rows : list S) (a : arrays) : arrays * list arrays :=
  match rows with
  | [] => (a, [])
  | s :: r => let a1 := prior_step t i s a in
              let fs := prior_loop t ncp (i + 1) r a1 in
              (fst fs, if (i mod ncp =? 0)%nat then a1 :: snd fs else snd fs)
  end.
(** 190-203: the file holds arrays for the same number of rows *)
Definition start (file : option arrays) : nat :=
  match file with Some a => argmin (map Rabs (oL a)) | None => 0%nat end.
Definition get_weights (t : target) (ncp : nat) (rows : list S) (file : option arrays) : arrays * list arrays :=
  let a := match file with Some a => a | None => fresh (length rows) end in
  let st := start file in
  prior_loop t ncp st (skipn st rows) (fill_likelihoods t st rows a).
(** the resume file after a run that is killed after k checkpoints *)
Definition last_save (file : option arrays) (saves : list arrays) : option arrays :=
  fold_left (fun _ a => Some a) saves file.
Definition killed_after (t : target) (ncp : nat) (rows : list S) (file : option arrays) (k : nat) : option arrays :=
  last_save file (firstn k (snd (get_weights t ncp rows file))).
Definition killed_many (t : target) (ncp : nat) (rows : list S) (file : option arrays) (ks : list nat) : option arrays :=
  fold_left (killed_after t ncp rows) ks file.
(** 260-261 *)
Fixpoint zip4 (f : R -> R -> R -> R -> R) (a b c d : list R) : list R :=
  match a, b, c, d with x :: a', y :: b', z :: c', w :: d' => f x y z w :: zip4 f a' b' c' d' | _, _, _, _ => [] end.
Definition ln_weights (a : arrays) : list R := zip4 (fun ol op nl np => nl + np - ol - op) (oL a) (oP a) (nL a) (nP a).
End Weights.
Arguments target : clear implicits.

(** 282-283: uniform(0, m) = m u with u in [0,1) *)
Definition rejection_sample {A} (rows : list A) (w u : list R) : list A :=
  map fst (filter (fun x => if Rlt_dec (rmax_list w * snd (snd x)) (fst (snd x)) then true else false) (combine rows (combine w u))).

(** 286-375, without resume file, conversion function and nested samples. A data frame is a list of
    rows with stored log likelihood and log prior; a result holds the address of its
    posterior frame in the heap, and [copy] (340) copies the address. [new_*], [old_*] None: argument
    not given *)
Section Reweight.
Context {S : Type}.
Record row := mkRow { par : S; logl : R; logp : R }.
Record result := mkRes { posterior : nat; log_evidence : R }.
Definition heap := nat -> list row.
Definition hset (h : heap) (a : nat) (f : list row) : heap := fun b => if Nat.eqb b a then f else h b.
Record request := mkReq { q_newL : option (S -> R); q_newP : option (S -> R); q_oldL : option (S -> R); q_oldP : option (S -> R) }.
Definition target_of (q : request) : target row :=
  mkT (match q_oldL q with Some f => fun r => f (par r) | None => logl end)
      (match q_newL q with Some f => Some (fun r => f (par r)) | None => None end)
      (match q_oldP q with Some f => fun r => f (par r) | None => logp end)
      (match q_newP q with Some f => Some (fun r => f (par r)) | None => None end).
(** 360-361 *)
Definition overwrite (fr : list row) (a : arrays) : list row :=
  map (fun x => mkRow (par (fst x)) (fst (snd x)) (snd (snd x))) (combine fr (combine (nL a) (nP a))).
(** the new heap, the new result; [fresh_addr] is where pandas puts the filtered frame *)
Definition reweight (h : heap) (fresh_addr : nat) (r : result) (q : request) (u : list R) : heap * result :=
  let fr := h (posterior r) in
  let a := fst (get_weights (target_of q) 1 fr None) in
  let lw := ln_weights a in
  let fr' := overwrite fr a in
  let kept := rejection_sample fr' (map exp lw) u in
  (hset (hset h (posterior r) fr') fresh_addr kept,
   mkRes fresh_addr (log_evidence r + ln_mean_exp lw)).
End Reweight.

(** ** Combination of results *)
Section Combine.
Context {S : Type}.
(** evidence, its error (None = nan or infinite), posterior rows *)
Record run := mkRun { lnZ : R; lnZ_err : option R; rows : list S }.
Definition finite_errs (l : list run) : list R :=
  flat_map (fun r => match lnZ_err r with Some e => [e] | None => [] end) l.
(** 1889-1890, 1935-1936: logsumexp with b = 1/n *)
Definition combine_lnZ (l : list run) : R := ln (Rsum (map (fun r => 1 / INR (length l) * exp (lnZ r)) l)).
(** 1894-1898, 1940-1944; None = nan *)
Definition combine_err (l : list run) : option R :=
  match finite_errs l with
  | [] => None
  | es => Some (/ 2 * ln (Rsum (map (fun e => 1 / INR (length l) * exp (2 * e)) es)))
  end.
(** 1891: difference with the noise evidence of the first result *)
Definition combine_bayes (noise : R) (l : list run) : R := combine_lnZ l - noise.
(** 1901-1905: [us] holds one list of uniform numbers for every run *)
Definition select (frac : R) (rs : list S) (u : list R) : list S :=
  map fst (filter (fun x => if Rlt_dec (snd x) frac then true else false) (combine rs u)).
Definition keep_fraction (l : list run) (r : run) : R := exp (lnZ r - rmax_list (map lnZ l)).
Definition combine_nested_rows (l : list run) (us : list (list R)) : list S :=
  concat (map (fun x => select (keep_fraction l (fst x)) (rows (fst x)) (snd x)) (combine l us)).
(** 1947-1949 and 1852 *)
Definition combine_mcmc_rows (l : list run) : list S := concat (map rows l).
End Combine.
Arguments run : clear implicits.

(** 1970-1975 with consistency level "error"; prior dictionaries with a comparison [peq] *)
Inductive checked := Passed | ListError | KeyErr.
Section Consistent.
Context {V : Type} (peq : V -> V -> bool).
Fixpoint check_keys (p0 p : dict V) (keys : dict V) : checked :=
  match keys with
  | [] => Passed
  | (k, v0) :: rest =>
      match dget p k with
      | None => KeyErr
      | Some v => if (negb (peq v0 v) || negb (length p0 =? length p)%nat)%bool then ListError else check_keys p0 p rest
      end
  end.
Fixpoint check_results (p0 : dict V) (l : list (dict V)) : checked :=
  match l with
  | [] => Passed
  | p :: r => match check_keys p0 p p0 with Passed => check_results p0 r | e => e end
  end.
Definition check_consistent_priors (l : list (dict V)) : checked :=
  match l with [] => Passed | p0 :: _ => check_results p0 l end.
End Consistent.
