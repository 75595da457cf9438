(** bilby/gw/likelihood/base.py 106-145 (_CalculatedSNRs), 274-283, 339-345 (calculate_snrs), 417-454 (log_likelihood_ratio):
    the quantities of one detector and their sum over the network. *)
From Coq Require Import Reals List Arith Bool.
From Coquelicot Require Import Complex.
Import ListNotations.
Open Scope list_scope.
Open Scope R_scope.

(** 106-112; the arrays are None unless they are asked for *)
Record snrs := Snrs { d_inner_h : C; optimal_snr_squared : R; matched_filter : C; d_array : option (list C); o_array : option (list R) }.
Definition zero_snrs : snrs := Snrs (RtoC 0) 0 (RtoC 0) None None.
(** numpy's sum of two one-dimensional arrays: a single element is added to each; None: ValueError *)
Definition array_add {X} (plus : X -> X -> X) (a b : list X) : option (list X) :=
  if (length a =? length b)%nat then Some (map (fun p => plus (fst p) (snd p)) (combine a b))
  else match a, b with
       | [x], _ => Some (map (plus x) b)
       | _, [y] => Some (map (fun x => plus x y) a)
       | _, _ => None
       end.
(** 124-128, one of the arrays; the outer None: ValueError *)
Definition iadd_array {X} (plus : X -> X -> X) (this other : option (list X)) : option (option (list X)) :=
  match this, other with
  | Some a, Some b => option_map Some (array_add plus a b)
  | None, _ => Some other
  | _, None => Some this
  end.
(** 119-129 *)
Definition iadd (t o : snrs) : option snrs :=
  match iadd_array Cplus (d_array t) (d_array o), iadd_array Rplus (o_array t) (o_array o) with
  | Some da, Some oa => Some (Snrs (Cplus (d_inner_h t) (d_inner_h o)) (optimal_snr_squared t + optimal_snr_squared o) (Cplus (matched_filter t) (matched_filter o)) da oa)
  | _, _ => None
  end.
(** 417-424 *)
Definition total (dets : list snrs) : option snrs :=
  fold_left (fun t o => match t with Some t => iadd t o | None => None end) dets (Some zero_snrs).
(** 281-283, 339-345: [dh] and [hh] are the two inner products; without a signal in the band 0 / 0 is no number (None) *)
Definition of_detector (dh : C) (hh : R) (da : option (list C)) (oa : option (list R)) : option snrs :=
  if Rlt_dec 0 hh then Some (Snrs dh hh (Cdiv dh (RtoC (sqrt hh))) da oa) else None.
(** 131-145 *)
Definition snrs_as_sample (s : snrs) : C * R := (matched_filter s, sqrt (optimal_snr_squared s)).
(** 453-454, nothing marginalised *)
Definition log_likelihood_ratio (t : snrs) : R := fst (d_inner_h t) - optimal_snr_squared t / 2.
