(** Property C197, continued: what it means that a table made for sampling carries no warning. *)
From Coq Require Import Reals Lra List Bool.
From Verif Require Import PyReal Interp_Model Eos_Model.
Import ListNotations.
Open Scope list_scope.
Open Scope R_scope.

(** An equation of state for sampling without a warning has, at the largest pressure of its table, a sound speed that is a number
    below 1.1; one that is not a number carries the warning. *)
Theorem C197_unflagged spline t w s : tabular spline t true w = Some s -> warning s = false ->
  exists e h v, energy_from_pressure spline s Cubic (last (e_p s) 0) = Some e /\ enthalpy_from_energy spline s Cubic e = Some h /\ sound_speed spline s Cubic h = Some v /\ v < 1.1.
Proof.
  unfold tabular. destruct (remove_leading_zero t) as [t'|]; [|discriminate]. cbn [bindo]. destruct (min_list _) as [m|]; [|discriminate]. cbn [bindo].
  destruct (_ || w); [intros H W; injection H as <-; discriminate|]. destruct (_ && _); [|discriminate].
  destruct (all_tables _ _) as [h'|]; [|discriminate]. cbn [bindo]. destruct (check_causality _ _) as [b|] eqn:E; [|discriminate]. cbn [bindo]. intros H W. injection H as <-. cbn [warning] in W.
  destruct b; [|discriminate]. unfold check_causality in E. cbn [e_p] in E. destruct (map fst t') as [|p0 ps] eqn:P; [discriminate|].
  destruct (energy_from_pressure _ _ _ _) as [e|] eqn:E1 in E; [|discriminate]. cbn [bindo] in E. destruct (enthalpy_from_energy _ _ _ _) as [h|] eqn:E2 in E; [|discriminate]. cbn [bindo] in E.
  destruct (sound_speed _ _ _ _) as [v|] eqn:E3 in E; [|discriminate]. destruct (Rlt_dec v 1.1) as [L|L]; [|discriminate]. exists e, h, v. auto.
Qed.

(** ** Assumptions of every theorem above *)
Definition Eos5_Props_all :=
  (@C197_unflagged).
Print Assumptions Eos5_Props_all.
