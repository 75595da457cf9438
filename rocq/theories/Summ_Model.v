(** bilby/core/result.py 941-976: median and error bar of one parameter. *)
From Coq Require Import String Reals List.
From Verif Require Import PyDict Samples_Model.
Import ListNotations.
Open Scope R_scope.

Inductive exc := KeyErr | ValueErr | IndexErr.
Inductive res (X : Type) := Ok (x : X) | Err (e : exc).
Arguments Ok {X}. Arguments Err {X}.
(** the value of an attribute: a number, or the descriptor that a class made by namedtuple has for a field *)
Inductive attr := Num (r : R) | Descriptor.
(** 963: the class itself is returned; numbers are stored on it *)
Record summary := Summary { median_ : attr; lower : attr; upper : attr; plus : R; minus : R; text : string }.
(** np.percentile, in fractions; an empty array is an error here *)
Definition percentile (l : list R) (q : R) : res R :=
  if Rlt_dec q 0 then Err ValueErr else if Rlt_dec 1 q then Err ValueErr else match quantile l q with Some x => Ok x | None => Err IndexErr end.
(** 941-976; [fmt] formats a number *)
Definition get_summary (fmt : R -> string) (posterior : dict (list R)) (key : string) (quantiles : list R) : res summary :=
  match quantiles with
  | [a; b] =>
    match dget posterior key with
    | None => Err KeyErr
    | Some l =>
      match percentile l a, percentile l (1 / 2), percentile l b with
      | Ok x, Ok m, Ok y =>
        let up := y - m in let down := m - x in
        Ok (Summary (Num m) Descriptor Descriptor up down ("${" ++ fmt m ++ "}_{-" ++ fmt down ++ "}^{+" ++ fmt up ++ "}$"))
      | Err ValueErr, _, _ | _, _, Err ValueErr => Err ValueErr
      | Err e, _, _ | _, Err e, _ | _, _, Err e => Err e
      end
    end
  | _ => Err ValueErr
  end.
