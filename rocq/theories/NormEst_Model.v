(** * The estimate of the factor by which a constrained prior is normalised
    Model of /repo/bilby/core/prior/dict.py 468-500 (normalize_constraint_factor, _estimate_normalization);
    the cache is C10. *)
From Coq Require Import Reals ZArith List Bool Arith.
Import ListNotations.
Open Scope R_scope. Open Scope list_scope.

(** np.count_nonzero *)
Definition count (l : list bool) : nat := length (filter (fun b => b) l).
Section Estimate.
(** [constrained]: whether there is a constraint; without one evaluate_constraints returns the number 1.
    [batch k]: which of the draws of the k-th call of sample_subset satisfy the constraints *)
Variable constrained : bool.
Variable batch : nat -> list bool.
(** 494-498: [all]: the samples collected, [keep]: the last evaluation *)
Fixpoint collect (fuel i min_accept : nat) (all keep : list bool) : option (list bool) :=
  if (min_accept <=? count keep)%nat then Some keep
  else match fuel with
       | O => None
       | S f => let all' := all ++ batch i in collect f (S i) min_accept all' all'
       end.
(** 487-500 *)
Definition estimate (fuel min_accept : nat) : option R :=
  let keep := if constrained then batch 0 else [true] in
  if (length keep =? 1)%nat then Some 1
  else match collect fuel 1 min_accept [] keep with
       | Some k => Some (INR (length k) / INR (count k))
       | None => None
       end.
End Estimate.

(** ** The mean of the estimates, rounded to the digits its scatter leaves *)
Definition mean (l : list R) : R := fold_right Rplus 0 l / INR (length l).
Definition std (l : list R) : R := sqrt (mean (map (fun x => (x - mean l) * (x - mean l)) l)).
Section Round.
(** np.round *)
Variable round_to : R -> Z -> R.
(** 477-483 *)
Definition decimals (s : R) : Z := (- Int_part (ln (3 * s) / ln 10))%Z.
Definition factor (l : list R) : R := if Rlt_dec 0 (std l) then round_to (mean l) (decimals (std l)) else mean l.
End Round.
