(** bilby/core/prior/joint.py 14-71 (bounds) and 352-612 (MultivariateGaussianDist):
    which arguments are accepted, and what the lists of modes hold. *)
From Coq Require Import String Reals List Bool Arith.
From Verif Require Import Joint_Model.
Import ListNotations.
Open Scope list_scope.
Open Scope R_scope.

Inductive error := TypeError | ValueError | RuntimeError | LinAlgError.
Inductive res (A : Type) := Ok (a : A) | Err (e : error).
Arguments Ok {A} a. Arguments Err {A} e.
Definition bind {A B} (r : res A) (f : A -> res B) : res B := match r with Ok a => f a | Err e => Err e end.

(** ** Bounds (14-55) *)
Inductive ext := MInf | Fin (x : R) | PInf.
Definition ele (a b : ext) : bool :=
  match a, b with
  | MInf, _ => true | _, PInf => true
  | Fin x, Fin y => if Rle_dec x y then true else false
  | _, _ => false
  end.
(** an entry of the list: something without a length, or a sequence of numbers *)
Inductive entry := Single (x : ext) | Several (l : list ext).
(** [BOther] is everything which is not a list: None, a tuple, an array *)
Inductive bounds_arg := BList (l : list entry) | BOther (l : list entry).
(** 41-53.  The test of 42 looks at the list instead of the entry, so 52-53 is never
    reached; len of a number raises the TypeError *)
Definition check_bound (b : entry) : res (ext * ext) :=
  match b with
  | Single _ => Err TypeError
  | Several [lo; hi] => if ele hi lo then Err ValueError else Ok (lo, hi)
  | Several _ => Err ValueError
  end.
Fixpoint check_bounds (l : list entry) : res (list (ext * ext)) :=
  match l with
  | [] => Ok []
  | b :: t => bind (check_bound b) (fun p => bind (check_bounds t) (fun ps => Ok (p :: ps)))
  end.
(** the bounds in the order of the [n] names, which are taken to be different *)
Definition set_bounds (n : nat) (b : bounds_arg) : res (list (ext * ext)) :=
  match b with
  | BList l => if (length l =? n)%nat then check_bounds l else Err ValueError
  | BOther _ => Ok (repeat (MInf, PInf) n)
  end.

(** ** Nested sequences of numbers *)
Inductive cont := CList | CArray | COther.
Inductive nest := Num (x : R) | Seq (k : cont) (l : list nest).
Definition same_dims (a b : option (list nat)) : bool :=
  match a, b with Some x, Some y => if list_eq_dec Nat.eq_dec x y then true else false | _, _ => false end.
Definition common (l : list (option (list nat))) : option (list nat) :=
  match l with [] => Some [] | s :: t => if forallb (same_dims s) t then s else None end.
(** np.shape; None for ragged sequences, which raise ValueError *)
Fixpoint shape (v : nest) : option (list nat) :=
  match v with
  | Num _ => Some []
  | Seq _ l => match common (map shape l) with Some s => Some (length l :: s) | None => None end
  end.
(** element i, j of a two-dimensional value and element i of a one-dimensional one *)
Definition at1 (v : nest) (i : nat) : R :=
  match v with Seq _ l => match nth_error l i with Some (Num x) => x | _ => 0 end | Num x => 0 end.
Definition at2 (v : nest) (i j : nat) : R :=
  match v with Seq _ l => match nth_error l i with Some r => at1 r j | None => 0 end | Num x => 0 end.

(** ** The modes *)
(** the lists of 419-428; sqeigvalues and logprodsigmas follow eigvalues and sigmas *)
Record dist := mkDist { mus : list (list nest); covs : list mat; corrcoefs : list mat; sigmas : list vec;
                        eigvalues : list (list R); weights : list R; nmodes : nat; mvn : list mat }.
Definition no_modes : dist := mkDist [] [] [] [] [] [] 0 [].
Definition push_mu d x := mkDist (mus d ++ [x]) (covs d) (corrcoefs d) (sigmas d) (eigvalues d) (weights d) (nmodes d) (mvn d).
Definition push_cov d x := mkDist (mus d) (covs d ++ [x]) (corrcoefs d) (sigmas d) (eigvalues d) (weights d) (nmodes d) (mvn d).
Definition push_corr d x := mkDist (mus d) (covs d) (corrcoefs d ++ [x]) (sigmas d) (eigvalues d) (weights d) (nmodes d) (mvn d).
Definition push_sigma d x := mkDist (mus d) (covs d) (corrcoefs d) (sigmas d ++ [x]) (eigvalues d) (weights d) (nmodes d) (mvn d).
Definition push_eig d x := mkDist (mus d) (covs d) (corrcoefs d) (sigmas d) (eigvalues d ++ [x]) (weights d) (nmodes d) (mvn d).
Definition push_weight d x := mkDist (mus d) (covs d) (corrcoefs d) (sigmas d) (eigvalues d) (weights d ++ [x]) (S (nmodes d)) (mvn d).
Definition push_mvn d x := mkDist (mus d) (covs d) (corrcoefs d) (sigmas d) (eigvalues d) (weights d) (nmodes d) (mvn d ++ [x]).

Definition below_n (n : nat) (f : nat -> bool) : bool := forallb f (seq 0 n).
(** np.allclose(A, A.T) (517, 543) *)
Definition close (a b : R) : bool := if Rle_dec (Rabs (a - b)) (1 / 10 ^ 8 + 1 / 10 ^ 5 * Rabs b) then true else false.
Definition symmetric (n : nat) (A : mat) : bool := below_n n (fun i => below_n n (fun j => close (A i j) (A j i))).
(** shape (n, n) (507-514, 529-540) *)
Definition square (n : nat) (v : nest) : bool :=
  match shape v with Some [a; b] => ((a =? b) && (a =? n))%nat | _ => false end.

Section Modes.
(** np.linalg.eig's eigenvalues of a correlation matrix, None when it raises (573-581) *)
Variable eigs : mat -> option (list R).
(** whether scipy's multivariate_normal takes a correlation matrix (610-612) *)
Variable normal : mat -> bool.
Variable n : nat.

(** one call of add_mode.  The weight is a number or None *)
Record args := mkArgs { a_mus : option nest; a_sigmas : option nest; a_corr : option nest; a_cov : option nest; a_weight : option R }.

(** 570-612, from the eigenvalues of the correlation matrix just stored on *)
Definition finish (d : dist) (r : mat) (w : option R) : dist * option error :=
  match eigs r with
  | None => (d, Some RuntimeError)
  | Some ev =>
      let d := push_eig d ev in
      if existsb (fun x => if Rle_dec x 0 then true else false) ev then (d, Some ValueError)
      else
        let d := push_weight d (match w with Some x => x | None => 1 end) in
        if normal r then (push_mvn d r, None) else (d, Some LinAlgError)
  end.
(** 504-525.  A negative variance gives nan and an error from eig, a variance of zero
    a singular matrix to invert (which error, when both occur, is not claimed) *)
Definition with_cov (d : dist) (v : nest) (w : option R) : dist * option error :=
  match shape v with
  | None => (d, Some ValueError)
  | Some s =>
      let c := at2 v in
      let d := push_cov d c in
      if negb (square n v) then (d, Some ValueError)
      else if negb (symmetric n c) then (d, Some ValueError)
      else
        let sg : vec := fun i => sqrt (c i i) in
        let d := push_sigma d sg in
        if existsb (fun i => if Req_EM_T (c i i) 0 then true else false) (seq 0 n) then (d, Some LinAlgError)
        else
          let Dinv := diag (fun i => / sg i) in
          let r := mmul n (mmul n Dinv c) Dinv in
          let d := push_corr d r in
          if existsb (fun i => if Rlt_dec (c i i) 0 then true else false) (seq 0 n) then (d, Some RuntimeError)
          else finish d r w
  end.
(** 526-563 *)
Definition with_corr (d : dist) (v s : nest) (w : option R) : dist * option error :=
  match shape v with
  | None => (d, Some ValueError)
  | Some _ =>
      let r := at2 v in
      let d := push_corr d r in
      if negb (square n v) then (d, Some ValueError)
      else if negb (symmetric n r) then (d, Some ValueError)
      else if negb (below_n n (fun i => if Req_EM_T (r i i) 1 then true else false)) then (d, Some ValueError)
      else match s with
           | Num _ => (d, Some TypeError)
           | Seq _ l =>
               let sg := at1 s in
               let d := push_sigma d sg in
               if negb (length l =? n)%nat then (d, Some ValueError)
               else finish (push_cov d (mmul n (diag sg) (mmul n r (diag sg)))) r w
           end
  end.
(** 489-612 add_mode: what the object holds afterwards, and the exception *)
Definition add_mode (d : dist) (a : args) : dist * option error :=
  match (match a_mus a with
         | None => Some (repeat (Num 0) n)
         | Some (Seq _ l) => Some l
         | Some (Num _) => None
         end) with
  | None => (d, Some TypeError)
  | Some m =>
      let d := push_mu d m in
      match a_cov a with
      | Some c => with_cov d c (a_weight a)
      | None =>
          match a_corr a, a_sigmas a with
          | Some r, Some s => with_corr d r s (a_weight a)
          | _, _ => finish (push_sigma (push_cov (push_corr d ident) ident) (fun _ => 1)) ident (a_weight a)
          end
      end
  end.
(** several calls; the first exception stops, the object keeps what was stored *)
Fixpoint add_modes (d : dist) (l : list args) : dist * option error :=
  match l with
  | [] => (d, None)
  | a :: t => match add_mode d a with (d', None) => add_modes d' t | (d', Some e) => (d', Some e) end
  end.

(** ** The constructor (418-487) *)
(** 432-441 *)
Definition wrap_vector (v : nest) : res nest :=
  match shape v with
  | None => Err ValueError
  | Some [] => Err ValueError
  | Some [_] => Ok (Seq CList [v])
  | Some _ => Ok v
  end.
(** 442-463 *)
Definition wrap_matrix (v : nest) : res nest :=
  match v with
  | Seq CArray _ => Ok (Seq CList [v])
  | Seq CList _ =>
      match shape v with
      | None => Err ValueError
      | Some [_; _] => Ok (Seq CList [v])
      | Some [_; _; _] => Ok v
      | Some _ => Err TypeError
      end
  | _ => Err TypeError
  end.
(** 464-469 *)
Definition wrap_weight (v : nest) : res nest :=
  match v with
  | Num x => Ok (Seq CList [v])
  | Seq CList l => if (length l =? 1)%nat then Ok v else Err ValueError
  | _ => Ok v
  end.
Definition opt (f : nest -> res nest) (v : option nest) : res (option nest) :=
  match v with None => Ok None | Some x => bind (f x) (fun y => Ok (Some y)) end.
(** 471-476 *)
Definition check_list (m : nat) (v : option nest) : res unit :=
  match v with
  | None => Ok tt
  | Some (Seq CList l) => if (length l =? m)%nat then Ok tt else Err ValueError
  | Some _ => Err TypeError
  end.
Definition item (v : option nest) (i : nat) : option nest :=
  match v with Some (Seq _ l) => nth_error l i | _ => None end.
(** the arguments of mode [i] (480-485); a weight is taken to be a number *)
Definition mode_args (vm vs vr vc vw : option nest) (i : nat) : args :=
  mkArgs (item vm i) (item vs i) (item vr i) (item vc i)
         (match item vw i with Some (Num x) => Some x | _ => Some 1 end).
Definition init (m : nat) (vm vs vr vc vw : option nest) : res dist :=
  let one f := if (m =? 1)%nat then opt f else fun v => Ok v in
  bind (one wrap_vector vm) (fun vm =>
  bind (one wrap_vector vs) (fun vs =>
  bind (one wrap_matrix vc) (fun vc =>
  bind (one wrap_matrix vr) (fun vr =>
  bind (one wrap_weight vw) (fun vw =>
  bind (check_list m vm) (fun _ =>
  bind (check_list m vs) (fun _ =>
  bind (check_list m vc) (fun _ =>
  bind (check_list m vr) (fun _ =>
  bind (check_list m vw) (fun _ =>
  match add_modes no_modes (map (mode_args vm vs vr vc vw) (seq 0 m)) with
  | (d, None) => Ok d
  | (_, Some e) => Err e
  end)))))))))).
End Modes.
