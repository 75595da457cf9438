(** bilby/core/utils/calculus.py 10-152 (derivatives) and bilby/core/fisher.py. *)
From Coq Require Import Reals List Bool Arith ZArith String Lia Lra.
From Verif Require Import PyDict PyReal.
Import ListNotations.
Open Scope R_scope.
Open Scope list_scope.

(** *** derivatives, calculus.py 10-152 *)
Fixpoint upd (l : list R) (i : nat) (x : R) : list R :=
  match l, i with [], _ => [] | _ :: t, O => x :: t | a :: t, S j => a :: upd t j x end.
Definition rltb (x y : R) : bool := if Rlt_dec x y then true else false.
Definition reqb (x y : R) : bool := if Req_EM_T x y then true else false.
Section Deriv.
Variable f : list R -> R.
Variables mineps reltol epsscale : R.
(** 109, 129: [fi] and [bi] are the values of fvals[i] and bvals[i] *)
Definition cdiff_at (vals : list R) (i : nat) (fi bi leps : R) : R := (f (upd vals i fi) - f (upd vals i bi)) / leps.
(** 111-148; [fuel] bounds the iterations, None means that it ran out *)
Fixpoint search (fuel : nat) (vals : list R) (i : nat) (fi bi leps cureps cdiff : R) (flipflop : nat) : option R :=
  match fuel with
  | O => None
  | S n =>
      let fi := fi - 1/2 * leps in
      let bi := bi + 1/2 * leps in
      let cureps := cureps * epsscale in
      if rltb cureps mineps || Nat.ltb 10 flipflop then Some 0
      else
        let leps := leps * epsscale in
        let fi := fi + 1/2 * leps in
        let bi := bi - 1/2 * leps in
        let cdiffnew := cdiff_at vals i fi bi leps in
        if reqb cdiffnew cdiff then Some cdiff
        else if negb (reqb cdiffnew 0) && rltb 0 (cdiff / cdiffnew)
             then if rltb (Rabs (1 - cdiff / cdiffnew)) reltol then Some cdiffnew
                  else search n vals i fi bi leps cureps cdiffnew flipflop
             else search n vals i fi bi leps cureps cdiffnew (S flipflop)
  end.
(** 96-148 for one index *)
Definition gradient (fuel : nat) (vals : list R) (leps cureps : R) (i : nat) : option R :=
  let fi := nth i vals 0 + 1/2 * leps in
  let bi := nth i vals 0 - 1/2 * leps in
  search fuel vals i fi bi leps cureps (cdiff_at vals i fi bi leps) 0.
(** a step size is a float or an array *)
Inductive stepsize := Scalar (r : R) | Vector (l : list R).
(** 69-91: the absolute steps and the quantities compared with mineps; None is a ValueError *)
Definition steps (vals : list R) (releps : stepsize) (abseps : option stepsize) : option (list R * list R) :=
  match abseps with
  | None =>
      match releps with
      | Scalar r => Some (map (fun v => if reqb (Rabs v * r) 0 then r else Rabs v * r) vals, map (fun _ => r) vals)
      | Vector l => if Nat.eqb (List.length l) (List.length vals)
                    then Some (map (fun vr => if reqb (Rabs (fst vr) * snd vr) 0 then snd vr else Rabs (fst vr) * snd vr) (combine vals l), l) else None
      end
  | Some (Scalar r) => let e := map (fun _ => r) vals in Some (e, e)
  | Some (Vector l) => if Nat.eqb (List.length l) (List.length vals) then Some (l, l) else None
  end.
Inductive outcome := Raise | Loops | Grads (g : list R).
Fixpoint gradients (fuel : nat) (vals eps teps : list R) (idx : list Z) : outcome :=
  match idx with
  | [] => Grads []
  | i :: t =>
      match gradient fuel vals (nth (Z.to_nat i) eps 0) (nth (Z.to_nat i) teps 0) (Z.to_nat i), gradients fuel vals eps teps t with
      | Some g, Grads l => Grads (g :: l)
      | _, _ => Loops
      end
  end.
(** 54-63; max and min of an empty list raise *)
Definition derivatives (fuel : nat) (vals : list R) (releps : stepsize) (abseps : option stepsize) (nonfixedidx : option (list Z)) : outcome :=
  let idx := match nonfixedidx with Some l => l | None => map Z.of_nat (seq 0 (List.length vals)) end in
  if Nat.ltb (List.length vals) (List.length idx) then Raise
  else if Nat.eqb (List.length idx) 0 then Raise
  else if existsb (fun i => (Z.leb (Z.of_nat (List.length vals)) i || Z.ltb i 0)%Z) idx then Raise
  else match steps vals releps abseps with
       | None => Raise
       | Some (eps, teps) => gradients fuel vals eps teps idx
       end.
End Deriv.

(** *** FisherMatrixPosteriorEstimator, fisher.py *)
Section Fisher.
(** likelihood.log_likelihood() as a function of likelihood.parameters *)
Variable L : dict R -> R.
Variable width : string -> R.
Variable fd_eps : R.
Definition dupdate (d p : dict R) : dict R := fold_left (fun d kv => dset d (fst kv) (snd kv)) p d.
(** computations that read and change likelihood.parameters; None is a KeyError *)
Definition st (X : Type) := dict R -> option (X * dict R).
Definition ret {X} (x : X) : st X := fun p => Some (x, p).
Definition bind {X Y} (m : st X) (k : X -> st Y) : st Y := fun p => match m p with Some (x, p') => k x p' | None => None end.
Definition lift {X} (o : option X) : st X := fun p => match o with Some x => Some (x, p) | None => None end.
(** 47-49 *)
Definition log_likelihood (s : dict R) : st R := fun p => let p' := dupdate p s in Some (L p', p').
(** 120-128 *)
Definition shift_x (s : dict R) (x : string) (cx : R) : option (dict R) :=
  match dget s x with Some vx => Some (dset s x (vx + cx * (fd_eps * width x))) | None => None end.
(** 130-141 *)
Definition shift_xy (s : dict R) (x : string) (cx : R) (y : string) (cy : R) : option (dict R) :=
  match dget s x, dget s y with
  | Some vx, Some vy => Some (dset (dset s x (vx + cx * (fd_eps * width x))) y (vy + cy * (fd_eps * width y)))
  | _, _ => None
  end.
Definition item (s : dict R) (k : string) : st R := lift (dget s k).
(** 90-101 *)
Definition fd_xx (s : dict R) (i : string) : st R :=
  bind (lift (shift_x s i 1)) (fun p => bind (lift (shift_x s i (-1))) (fun m =>
  bind (item p i) (fun pi => bind (item m i) (fun mi =>
  let dx := 1/2 * (pi - mi) in
  bind (log_likelihood p) (fun lp => bind (log_likelihood s) (fun l => bind (log_likelihood m) (fun lm =>
  ret ((lp - 2 * l + lm) / dx ^ 2)))))))).
(** 103-118 *)
Definition fd_xy (s : dict R) (i j : string) : st R :=
  bind (lift (shift_xy s i 1 j 1)) (fun pp => bind (lift (shift_xy s i 1 j (-1))) (fun pm =>
  bind (lift (shift_xy s i (-1) j 1)) (fun mp => bind (lift (shift_xy s i (-1) j (-1))) (fun mm =>
  bind (item pp i) (fun ppi => bind (item mm i) (fun mmi => bind (item pp j) (fun ppj => bind (item mm j) (fun mmj =>
  let dx := 1/2 * (ppi - mmi) in
  let dy := 1/2 * (ppj - mmj) in
  bind (log_likelihood pp) (fun lpp => bind (log_likelihood pm) (fun lpm =>
  bind (log_likelihood mp) (fun lmp => bind (log_likelihood mm) (fun lmm =>
  ret ((lpp - lpm - lmp + lmm) / (4 * dx * dy)))))))))))))).
(** 84-88 *)
Definition second_derivative (s : dict R) (i j : string) : st R := if String.eqb i j then fd_xx s i else fd_xy s i j.
(** 76-82 *)
Fixpoint mapst {X Y} (g : X -> st Y) (l : list X) : st (list Y) :=
  match l with [] => ret [] | x :: t => bind (g x) (fun y => bind (mapst g t) (fun r => ret (y :: r))) end.
Definition FIM (names : list string) (s : dict R) : st (list (list R)) :=
  mapst (fun i => mapst (fun j => bind (second_derivative s i j) (fun d => ret (- d))) names) names.
End Fisher.

(** matrices as functions of the indices *)
Definition matrix := nat -> nat -> R.
(** 55-58, given the inverse and its smallest eigenvalue *)
Definition make_positive (M : matrix) (min_eig : R) : matrix :=
  if rltb min_eig 0 then fun i j => M i j - 10 * min_eig * (if Nat.eqb i j then 1 else 0) else M.
(** 154-174: the results of scipy.optimize.minimize, each with its value of -log_likelihood (None: inf or nan);
    a result None means that minout is unbound.  [minlogL] = None is np.inf *)
Definition better (fx minlogL : option R) : bool :=
  match fx, minlogL with None, _ => false | Some _, None => true | Some x, Some m => rltb x m end.
Definition choose_max (outs : list (option R * list R)) : option (list R) :=
  let minlogL := @None R in
  fold_left (fun minout out => if better (fst out) minlogL then Some (snd out) else minout) outs None.
(** 62-74: the mean of the normal distribution from which the rows are drawn, and the names of its columns *)
Definition mean_columns (names : list string) (s : dict R) : list (string * R) := combine names (dvals s).
(** the matrix is in the order of the names *)
