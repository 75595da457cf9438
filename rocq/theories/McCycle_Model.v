(** bilby/bilby_mcmc/proposals.py 1059-1235: [get_proposal_cycle] and [remove_proposals_using_string],
    16-40 the length of the cycle, 849-859 the phase key; bilby/gw/source.py 1288-1332 the parameter sets;
    bilby/gw/prior.py 747-812 and 1135-1139 the questions about the priors *)
From Coq Require Import String Ascii Bool List Reals ZArith Lia.
From Verif Require Import PyReal PyDict Samples_Model Mband_Model Ensemble_Model McProp_Model.
Import ListNotations.
Open Scope list_scope.
Open Scope R_scope.

(** ** gw/source.py 1288-1332 *)
Local Open Scope string_scope.
Definition spin_set := ["a_1"; "a_2"; "tilt_1"; "tilt_2"; "phi_12"; "phi_jl"; "chi_1"; "chi_2"; "chi_1_in_plane"; "chi_2_in_plane"].
Definition mass_set := ["chirp_mass"; "mass_ratio"; "total_mass"; "mass_1"; "mass_2"; "symmetric_mass_ratio"].
Definition primary_spin_and_q := ["a_1"; "chi_1"; "mass_ratio"].
Definition tidal_set := ["lambda_1"; "lambda_2"; "lambda_tilde"; "delta_lambda_tilde"].
Definition phase_set := ["phase"; "delta_phase"].
Definition extrinsic_set := ["azimuth"; "zenith"; "luminosity_distance"; "psi"; "theta_jn"; "cos_theta_jn"; "geocent_time"; "time_jitter"; "ra"; "dec"; "H1_time"; "L1_time"; "V1_time"].
Definition sky_set := ["azimuth"; "zenith"; "ra"; "dec"].
Definition measured_spin_set := ["chi_1"; "chi_2"; "a_1"; "a_2"; "chi_1_in_plane"].
Definition intrinsic_set := (spin_set ++ mass_set ++ phase_set ++ tidal_set)%list.
(** gw/prior.py 747-764 [is_nonempty_intersection] *)
Definition meets (ps : dict prior) (set : list string) : bool := existsb (fun k => mem k set) (non_fixed_keys ps).

(** ** 1059-1213 the proposals asked for: class, weight, subset *)
Inductive kind := DE | AG | ST | FG | NF | KD | GM | PR | UN | FM | PhaseReversal | CorrelatedJump | PhasePolarisationReversal.
Definition request := (kind * R * option (list string))%type.
Definition contains (sub s : string) : bool := match index 0 sub s with Some _ => true | None => false end.
Definition big : R := 10.
Definition small : R := 5.
Definition tiny : R := 1 / 2.
(** 1203-1211 *)
Definition default_requests (gmm : bool) : list request :=
  [(AG, big, None); (DE, big, None); (UN, tiny, None); (KD, big, None); (FM, big, None)] ++ (if gmm then [(GM, big, None)] else []).
Definition when (b : bool) (l : list request) : list request := if b then l else [].
Definition all_but_cal (ps : dict prior) : list string := filter (fun k => negb (contains "recalib" k)) (dkeys ps).
Definition calibration (ps : dict prior) : list string := filter (contains "recalib_") (dkeys ps).
(** 1064-1201; [tidal] says whether the class of the priors has the attribute tidal *)
Definition gwA_requests (tidal : bool) (ps : dict prior) : list request :=
  [(AG, small, Some (all_but_cal ps)); (DE, small, Some (all_but_cal ps))] ++
  when (meets ps intrinsic_set) [(AG, small, Some intrinsic_set); (DE, small, Some intrinsic_set); (KD, small, Some intrinsic_set); (GM, small, Some intrinsic_set)] ++
  when (meets ps extrinsic_set) [(AG, small, Some extrinsic_set); (DE, small, Some extrinsic_set); (KD, small, Some extrinsic_set); (GM, small, Some extrinsic_set)] ++
  when (meets ps mass_set) [(DE, small, Some mass_set); (GM, small, Some mass_set); (FM, small, Some mass_set)] ++
  when (meets ps spin_set) [(DE, small, Some spin_set); (GM, small, Some spin_set); (FM, big, Some spin_set)] ++
  when (meets ps measured_spin_set) [(AG, small, Some measured_spin_set); (FM, small, Some measured_spin_set)] ++
  when (meets ps mass_set && meets ps spin_set) [(DE, small, Some primary_spin_and_q)] ++
  when (tidal && meets ps tidal_set) [(DE, small, Some tidal_set); (PR, small, Some tidal_set)] ++
  when (meets ps phase_set) [(PhaseReversal, tiny, None)] ++
  when (meets ps phase_set && mem "psi" (non_fixed_keys ps)) [(CorrelatedJump, tiny, None); (PhasePolarisationReversal, tiny, None)] ++
  when (meets ps sky_set) [(FM, small, Some sky_set); (GM, small, Some sky_set)] ++
  map (fun k => (PR, tiny, Some [k])) (filter (fun k => mem k (non_fixed_keys ps)) ["time_jitter"; "psi"; "phi_12"; "tilt_2"; "lambda_1"; "lambda_2"]) ++
  when (dmem ps "chi_1_in_plane" && dmem ps "chi_2_in_plane") [(UN, tiny, Some ["chi_1_in_plane"; "chi_2_in_plane"; "phi_12"])] ++
  when (existsb (contains "recalib_") (dkeys ps)) [(PR, small, Some (calibration ps))].

(** building a proposal: class, weight, moved parameters; None = ValueError of 65-66 (the phase
    proposals are asked for only where a phase key exists, 921-924) *)
Record prop := mkProp { pkind : kind; pweight : R; pmoved : list string }.
Definition build (ps : dict prior) (r : request) : option prop :=
  let '(k, w, sub) := r in match parameters ps sub with Some l => Some (mkProp k w l) | None => None end.
Fixpoint build_all (ps : dict prior) (rs : list request) : option (list prop) :=
  match rs with
  | [] => Some []
  | r :: t => match build ps r, build_all ps t with Some p, Some l => Some (p :: l) | _, _ => None end
  end.

(** ** 1217-1235 *)
(** python's str.split("no") *)
Fixpoint split_no (acc s : string) : list string :=
  match s with
  | EmptyString => [acc]
  | String c t => match t with
    | String c' t' => if Ascii.eqb c "n" && Ascii.eqb c' "o" then acc :: split_no "" t' else split_no (acc ++ String c EmptyString) t
    | EmptyString => [acc ++ String c EmptyString]
    end
  end.
Definition mapping : list (string * kind) :=
  [("DE", DE); ("AG", AG); ("ST", ST); ("FG", FG); ("NF", NF); ("KD", KD); ("GM", GM); ("PR", PR); ("UN", UN); ("FM", FM)].
Definition kind_eqb (a b : kind) : bool :=
  match a, b with
  | DE, DE | AG, AG | ST, ST | FG, FG | NF, NF | KD, KD | GM, GM | PR, PR | UN, UN | FM, FM
  | PhaseReversal, PhaseReversal | CorrelatedJump, CorrelatedJump | PhasePolarisationReversal, PhasePolarisationReversal => true
  | _, _ => false
  end.
(** isinstance(p, class): FisherMatrixProposal derives from AdaptiveGaussianProposal (791) *)
Definition isinstance (p c : kind) : bool := kind_eqb p c || (kind_eqb p FM && kind_eqb c AG).
Definition remove_one (l : list prop) (element : string) : list prop :=
  match dget mapping element with
  | Some c => filter (fun p => negb (isinstance (pkind p) c)) l
  | None => l
  end.
Definition remove_proposals_using_string (l : list prop) (s : string) : list prop := fold_left remove_one (tl (split_no "" s)) l.

(** 1059-1214: [cbc] the priors have the questions (otherwise AttributeError), [gmm] sklearn is installed
    (otherwise SamplerError for gwA). None = an exception *)
Definition get_proposals (s : string) (cbc tidal gmm : bool) (ps : dict prior) : option (list prop) :=
  match (if contains "gwA" s then if cbc && gmm then build_all ps (gwA_requests tidal ps) else None
         else build_all ps (default_requests gmm)) with
  | Some l => Some (remove_proposals_using_string l s)
  | None => None
  end.
(** 17-26: the length of the cycle; None = ValueError of min for an empty list *)
Definition rsum (l : list R) : R := fold_right Rplus 0 l.
Definition normalized (ws : list R) : list R := map (fun w => w / rsum ws) ws.
Definition cycle_length (ws : list R) : option Z :=
  match ws with [] => None | _ => Some (10 * trunc (1 / rmin_list (normalized ws)))%Z end.

(** 849-859: the key moved by the phase proposals *)
Definition phase_key (ps : dict prior) : option string :=
  if dmem ps "phase" then Some "phase" else if dmem ps "delta_phase" then Some "delta_phase" else None.
(** 929-934 [PhaseReversalProposal.propose]; None = KeyError *)
Definition phase_propose (ps : dict prior) (eps : R) (s : dict R) : option (dict R) :=
  match phase_key ps with
  | None => None
  | Some k => match dget s k with Some x => Some (dset s k (rmod (x + PI + eps) (2 * PI))) | None => None end
  end.
