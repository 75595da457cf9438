(** bilby/bilby_mcmc/proposals.py: the base class of the proposals (48-147), the Gaussian,
    differential evolution, prior, fixed jump and Fisher proposals (189-390, 767-846), the calling
    convention with the boundaries (111-147), and the proposals that learn a density (417-563);
    bilby/bilby_mcmc/sampler.py 869-898, the step of an ensemble *)
From Coq Require Import String Bool List Reals ZArith Lia.
From Verif Require Import PyReal PyDict Samples_Model Propose_Model.
Import ListNotations.
Open Scope list_scope.
Open Scope R_scope.

(** ** 53-73 [BaseProposal.__init__] *)
Inductive boundary := NoBoundary | Periodic | Reflective | OtherBoundary.
(** a prior of the dictionary: [width] None is an infinite width *)
Record prior := mkPrior { is_fixed : bool; is_constraint : bool; bnd : boundary; pmin : R; pmax : R; width : option R }.
(** core/prior/dict.py 425-431 [non_fixed_keys] (every entry is taken to be a Prior) *)
Definition non_fixed_keys (ps : dict prior) : list string :=
  map fst (filter (fun kp => negb (is_fixed (snd kp)) && negb (is_constraint (snd kp))) ps).
Definition mem (k : string) (l : list string) : bool := existsb (String.eqb k) l.
(** 56-66: the parameters moved by the proposal; None = ValueError *)
Definition parameters (ps : dict prior) (subset : option (list string)) : option (list string) :=
  let l := match subset with
           | None => non_fixed_keys ps
           | Some s => filter (fun k => mem k s) (non_fixed_keys ps)
           end in
  match l with [] => None | _ => Some l end.
(** 73, with the replacement of an infinite width by 1 (209-210, 241-242); the keys used are
    keys of the priors, the 0 is never read *)
Definition wid (ps : dict prior) (k : string) : R :=
  match dget ps k with Some p => match width p with Some w => w | None => 1 end | None => 0 end.

(** ** 111-134 boundaries *)
Definition fold_value (ps : dict prior) (k : string) (x : R) : option R :=
  match dget ps k with
  | None => None
  | Some p => match bnd p with
    | NoBoundary => Some x
    | Periodic => Some (apply_periodic_boundary (pmin p) (wid ps k) x)
    | Reflective => Some (apply_reflective_boundary (pmin p) (wid ps k) x)
    | OtherBoundary => None
    end
  end.
(** 111-122; None = KeyError or SamplerError *)
Fixpoint apply_boundaries (ps : dict prior) (ks : list string) (s : dict R) : option (dict R) :=
  match ks with
  | [] => Some s
  | k :: t => match dget s k with
    | None => None
    | Some x => match fold_value ps k x with
      | None => None
      | Some y => apply_boundaries ps t (dset s k y)
      end
    end
  end.
(** 136-146 [__call__]: the boundaries are applied only where the log factor is zero *)
Definition call (ps : dict prior) (ks : list string) (r : option (dict R * R)) : option (dict R * R) :=
  match r with
  | None => None
  | Some (s, lf) => if Req_EM_T lf 0 then match apply_boundaries ps ks s with Some s' => Some (s', lf) | None => None end
                    else Some (s, lf)
  end.

(** ** moves *)
(** [sample[key] += v] for a list of keys and steps; None = KeyError *)
Fixpoint adds (l : list (string * R)) (s : dict R) : option (dict R) :=
  match l with
  | [] => Some s
  | (k, v) :: t => match dget s k with None => None | Some x => adds t (dset s k (x + v)) end
  end.
Definition with_factor (lf : R) (o : option (dict R)) : option (dict R * R) :=
  match o with Some s => Some (s, lf) | None => None end.
(** 218-224 [FixedGaussianProposal.propose], zs the normal draws *)
Definition fixed_gaussian (ps : dict prior) (sigma : string -> R) (ks : list string) (zs : list R) (s : dict R) :=
  with_factor 0 (adds (map (fun kz => (fst kz, wid ps (fst kz) * sigma (fst kz) * snd kz)) (combine ks zs)) s).
(** 259-264 *)
Definition adaptive_factor (u1 u2 : R) : R := if Rlt_dec u1 (1 / 1000) then 10 else if Rlt_dec u2 (1 / 10000) then 100 else 1.
(** 256-269 [AdaptiveGaussianProposal.propose] *)
Definition adaptive_gaussian (ps : dict prior) (sigma : string -> R) (factor scale : R) (ks : list string) (zs : list R) (s : dict R) :=
  with_factor 0 (adds (map (fun kz => (fst kz, factor * scale * wid ps (fst kz) * sigma (fst kz) * snd kz)) (combine ks zs)) s).
(** 305-321 [DifferentialEvolutionProposal.propose], th1 and th2 the points drawn from the chain *)
Fixpoint de_move (ks : list string) (th1 th2 : dict R) (gamma : R) (s : dict R) : option (dict R) :=
  match ks with
  | [] => Some s
  | k :: t => match dget s k, dget th2 k, dget th1 k with
    | Some x, Some b, Some a => de_move t th1 th2 gamma (dset s k (x + gamma * (b - a)))
    | _, _, _ => None
    end
  end.
Definition differential_evolution ks th1 th2 gamma s := with_factor 0 (de_move ks th1 th2 gamma s).
(** 382-390 [PriorProposal.propose]: [lnp] the log prior of the values of the parameters, which is
    finite at both points *)
Fixpoint sets (l : list (string * R)) (s : dict R) : dict R :=
  match l with [] => s | (k, v) :: t => sets t (dset s k v) end.
Fixpoint values (ks : list string) (s : dict R) : option (list R) :=
  match ks with
  | [] => Some []
  | k :: t => match dget s k, values t s with Some x, Some l => Some (x :: l) | _, _ => None end
  end.
Definition independent (lnq : list R -> R) (ks : list string) (draw : list R) (s : dict R) : option (dict R * R) :=
  match values ks s with
  | None => None
  | Some old => let s' := sets (combine ks draw) s in
    match values ks s' with None => None | Some new => Some (s', lnq old - lnq new) end
  end.
(** 767-788 [FixedJumpProposal.propose], [jumps] the dictionary, [up] the sign draws, [es] the
    normal draws times the scale *)
Fixpoint jump_steps (ps : dict prior) (jumps : dict R) (up : list bool) (es : list R) : list (string * R) :=
  match jumps, up, es with
  | (k, j) :: t, b :: up', e :: es' => (k, (if b then 1 else -1) * j + e * wid ps k) :: jump_steps ps t up' es'
  | _, _, _ => []
  end.
Definition fixed_jump ps jumps up es (s : dict R) := with_factor 0 (adds (jump_steps ps jumps up es) s).
(** 837-846 [FisherMatrixProposal.propose] with the jump drawn *)
Definition fisher (ks : list string) (jump : list R) (s : dict R) := with_factor 0 (adds (combine ks jump) s).
(** 1002-1013 [_stretch_move] on samples *)
Fixpoint stretch_keys (ks : list string) (other : dict R) (z : R) (s : dict R) : option (dict R) :=
  match ks with
  | [] => Some s
  | k :: t => match dget s k, dget other k with
    | Some x, Some c => stretch_keys t other z (dset s k (c + (x - c) * z))
    | _, _ => None
    end
  end.
Definition stretch (ks : list string) (other : dict R) (a u : R) (s : dict R) :=
  with_factor (stretch_log_factor (length ks) (stretch_z a u)) (stretch_keys ks other (stretch_z a u) s).

(** ** 417-530 [DensityEstimateProposal] *)
Section Density.
Context {D : Type}.
Record dens := mkDens { steps : nat; next_refit : nat; density : option D; trained : bool }.
(** 430-440 *)
Definition new_dens (first_fit scale_fits : nat) : dens := mkDens 0 (first_fit * scale_fits) None false.
Definition fit_multiplier (mult scale_fits : nat) : nat := mult * scale_fits.
(** what happens in 453-498 when it is run: _fit raises; _fit returns and the sampling or the
    comparison raises; the density is compared, [ok] the outcome of 482-498 *)
Inductive attempt := FitRaises | AfterRaises (d : D) | Fitted (d : D) (ok : bool).
Definition refit (mult : nat) (a : attempt) (s : dens) : dens :=
  match a with
  | FitRaises => s
  | AfterRaises d => mkDens 0 (next_refit s * mult) (Some d) (trained s)
  | Fitted d ok => mkDens 0 (next_refit s * mult) (if ok then Some d else density s) (ok || trained s)
  end.
(** 500-510: the state in which the point is proposed, and whether a refit was attempted *)
Definition dens_step (mult : nat) (a : attempt) (s : dens) : dens * bool :=
  let s1 := mkDens (S (steps s)) (next_refit s) (density s) (trained s) in
  if Nat.leb (next_refit s1) (steps s1) then (refit mult a s1, true) else (s1, false).
(** 512-530: None = the fallback proposes *)
Definition used (s : dens) : option D := if trained s then density s else None.
Fixpoint dens_run (mult : nat) (l : list attempt) (s : dens) : dens :=
  match l with [] => s | a :: t => dens_run mult t (fst (dens_step mult a s)) end.
(** the calls, counted from n, in which a refit is attempted *)
Fixpoint refits (mult : nat) (l : list attempt) (s : dens) (n : nat) : list nat :=
  match l with
  | [] => []
  | a :: t => let (s', b) := dens_step mult a s in
              (if b then [n] else []) ++ refits mult t s' (S n)
  end.
End Density.
Arguments dens : clear implicits.
Arguments attempt : clear implicits.

(** ** 482-490 the comparison of the draws with the verification data; a matrix is the list of its rows *)
Definition lsum (l : list R) : R := fold_right Rplus 0 l.
Definition lmean (l : list R) : R := lsum l / INR (length l).
Definition np_std (l : list R) : R := sqrt (lmean (map (fun x => (x - lmean l) ^ 2) l)).
Definition column (i : nat) (m : list (list R)) : list R := map (fun r => nth i r 0) m.
Definition fails (ndim : nat) (new_draws verification : list (list R)) : list nat :=
  filter (fun i => if Rlt_dec (np_std (column i new_draws)) (1 / 10 * np_std (column i verification)) then true else false) (seq 0 ndim).
(** 533-544 [KDEProposal._sample] as used in 482: scipy returns one row per parameter; one
    parameter is squeezed to a vector and made one row again *)
Definition kde_draws (per_parameter : list (list R)) : list (list R) := per_parameter.
(** 547-562 [GMMProposal._sample]: sklearn returns one row per draw; one parameter is squeezed to a
    vector and becomes one row *)
Definition gmm_draws (ndim : nat) (per_draw : list (list R)) : list (list R) :=
  if Nat.eqb ndim 1 then [column 0 per_draw] else per_draw.

(** ** 431, 513-514: the fallback is an AdaptiveGaussianProposal of its own; its counters are never
    changed because the sampler counts for the density proposal, so one use is [update_scale] *)
Definition fallback_use (g : agp) : agp := update_scale g.

(** ** sampler.py 869-898 [ensemble_step] for the samplers of one temperature *)
Section Ensemble.
(** log prior (None = -inf) and log likelihood (None = nan) of a point; [bound] is the application of the
    boundaries, used where the log factor is zero (proposals.py 1021-1025) *)
Variables (logp logl : list R -> option R) (bound : list R -> list R) (beta a : R).
Record member := mkM { cur : list R; chain : list (list R); accepted : nat; rejected : nat }.
(** the draws for one member: the index in the complement, the uniform number of the stretch, the
    uniform number of the acceptance *)
Definition draw := (nat * R * R)%type.
Fixpoint without {A} (i : nat) (l : list A) : list A :=
  match l, i with [], _ => [] | _ :: t, O => t | x :: t, S i' => x :: without i' t end.
Fixpoint replace {A} (i : nat) (v : A) (l : list A) : list A :=
  match l, i with [], _ => [] | _ :: t, O => v :: t | x :: t, S i' => x :: replace i' v t end.
(** proposals.py 1045-1052, 1021-1025 *)
Definition propose_point (x c : list R) (uz : R) : list R * R :=
  let (y, lf) := stretch_move x c a (length x) uz in
  if Req_EM_T lf 0 then (bound y, lf) else (y, lf).
Definition finite (o : option R) : R := match o with Some v => v | None => 0 end.
(** 1252-1260 *)
Definition accept (m : member) (y : list R) : member := mkM y (chain m ++ [y]) (S (accepted m)) (rejected m).
Definition reject (m : member) : member := mkM (cur m) (chain m ++ [cur m]) (accepted m) (S (rejected m)).
(** 873-897 for one member *)
Definition member_step (m : member) (c : list R) (uz u : R) : member :=
  let (y, lf) := propose_point (cur m) c uz in
  match logp y with
  | None => reject m
  | Some lp => match logl y with
    | None => reject m
    | Some ll => if Rle_dec u (exp (lf + beta * ll + lp - beta * finite (logl (cur m)) - finite (logp (cur m)))) then accept m y else reject m
    end
  end.
(** 870-873, 875: the i-th member against the others; None = index out of range *)
Definition step_at (i : nat) (d : draw) (ms : list member) : option (list member) :=
  let '(j, uz, u) := d in
  match nth_error ms i, nth_error (without i ms) j with
  | Some m, Some c => Some (replace i (member_step m (cur c) uz u) ms)
  | _, _ => None
  end.
Fixpoint ensemble_loop (i : nat) (ds : list draw) (ms : list member) : option (list member) :=
  match ds with
  | [] => Some ms
  | d :: t => match step_at i d ms with None => None | Some ms' => ensemble_loop (S i) t ms' end
  end.
(** one draw per member *)
Definition ensemble_step (ds : list draw) (ms : list member) : option (list member) :=
  if Nat.ltb 1 (length ms) then ensemble_loop 0 (firstn (length ms) ds) ms else Some ms.
End Ensemble.
