(** bilby/gw/likelihood/roq.py 88-222, 253-270, 621-702: which bases, parameters and priors a ROQ likelihood accepts. *)
From Coq Require Import String Reals List Bool Arith.
From Verif Require Import PyDict PyReal GwMass_Model GwPrior_Model.
Import ListNotations.
Open Scope string_scope.
Open Scope list_scope.
Open Scope R_scope.

Inductive error := BilbyROQParamsRangeError | AttributeError | ValueError | TypeError.
Inductive res (A : Type) := Ok (a : A) | Err (e : error).
Arguments Ok {A} a. Arguments Err {A} e.

(** one row of roq_params; the masses are [None] when the array has no such field (ValueError, 644-656) *)
Record params := { flow : R; fhigh : R; seglen : R; chirpmassmin : option R; chirpmassmax : option R; compmin : option R }.
Record detector := { minimum_frequency : R; maximum_frequency : R; duration : R }.
(** [cbc]: the priors are a CBCPriorDict; seen through the limits of the entries *)
Record priors := { cbc : bool; lims : limits }.

(** 671-702: a bound is checked if the basis has it and the priors determine the limit *)
Definition below (limit bound : option R) (s : R) : bool :=
  match bound, limit with Some b, Some l => if Rlt_dec l (b / s) then true else false | _, _ => false end.
Definition above (limit bound : option R) (s : R) : bool :=
  match bound, limit with Some b, Some l => if Rgt_dec l (b / s) then true else false | _, _ => false end.
(** 621-702 perform_roq_params_check for one detector *)
Definition perform_roq_params_check (check : bool) (s : R) (p : params) (q : priors) (d : detector) : res unit :=
  if negb check then Ok tt
  else if Rgt_dec (maximum_frequency d) (fhigh p * s) then Err BilbyROQParamsRangeError
  else if Rlt_dec (minimum_frequency d) (flow p * s) then Err BilbyROQParamsRangeError
  else if Req_EM_T (duration d) (seglen p / s) then
    if negb (cbc q) then Ok tt
    else if below (minimum_chirp_mass (lims q)) (chirpmassmin p) s then Err BilbyROQParamsRangeError
    else if above (maximum_chirp_mass (lims q)) (chirpmassmax p) s then Err BilbyROQParamsRangeError
    else if below (minimum_component_mass (lims q)) (compmin p) s then Err BilbyROQParamsRangeError
    else Ok tt
  else Err BilbyROQParamsRangeError.
Fixpoint check_all (f : detector -> res unit) (l : list detector) : res unit :=
  match l with [] => Ok tt | d :: t => match f d with Ok _ => check_all f t | e => e end end.

(** 112-159: the parameters used for the check. [linear], [quadratic]: what an hdf5 file says of itself ([None] for other formats);
    its other fields do not exist *)
Definition file_params := (R * R * R)%type.                              (* minimum frequency, maximum frequency, duration *)
Definition of_file (f : file_params) : params :=
  {| flow := fst (fst f); fhigh := snd (fst f); seglen := snd f; chirpmassmin := None; chirpmassmax := None; compmin := None |}.
Definition merge (given : option params) (linear quadratic : option file_params) : option params :=
  match given with
  | Some p => Some p
  | None =>
      match linear, quadratic with
      | None, None => None
      | Some a, None => Some (of_file a)
      | None, Some b => Some (of_file b)
      | Some a, Some b =>
          Some {| flow := Rmax (fst (fst a)) (fst (fst b)); fhigh := Rmin (snd (fst a)) (snd (fst b)); seglen := Rmin (snd a) (snd b);
                  chirpmassmin := None; chirpmassmax := None; compmin := None |}
      end
  end.
(** 120-161: with weights given nothing is checked *)
Definition init_check (weights : bool) (check : bool) (s : R) (given : option params) (linear quadratic : option file_params) (q : priors) (ds : list detector) : res unit :=
  if weights then Ok tt
  else match merge given linear quadratic with None => Ok tt | Some p => check_all (perform_roq_params_check check s p q) ds end.

(** ** Frequency nodes, 170-178, 190-222, 253-270. [nodes]: weights['frequency_nodes_...']; [ranges]: the lengths of
    weights['prior_range_...']; [arg]: waveform_arguments['frequency_nodes_...'] *)
Section Nodes.
Variable node : Type.
Definition verify_numbers (n : nat) (ranges : option (dict nat)) (nodes : option (list node)) : res unit :=
  match ranges with
  | None => Err AttributeError
  | Some r =>
      if existsb (fun kl => negb (snd kl =? n)%nat) r then Err ValueError
      else match nodes with None => Err AttributeError | Some l => if (length l =? n)%nat then Ok tt else Err ValueError end
  end.
(** the weights' nodes and the waveform argument afterwards; IndexError of [0] is an error too *)
Definition single_basis (nodes : option (list node)) (arg : option node) : res (list node * node) :=
  match nodes, arg with
  | None, None => Err AttributeError
  | Some (x :: l), None => Ok (x :: l, x)
  | Some [], None => Err ValueError
  | None, Some a => Ok ([a], a)
  | Some l, Some a => Ok (l, a)
  end.
(** the list of nodes in the weights after the loop of 170-176; [n]: number_of_bases *)
Definition nodes_after (n : nat) (ranges : option (dict nat)) (nodes : option (list node)) (arg : option node) : res (list node) :=
  if (1 <? n)%nat then match verify_numbers n ranges nodes with Ok _ => match nodes with Some l => Ok l | None => Err AttributeError end | Err e => Err e end
  else match single_basis nodes arg with Ok (l, _) => Ok l | Err e => Err e end.
End Nodes.
