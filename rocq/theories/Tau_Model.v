(** * Burn-in, autocorrelation time and number of samples of a chain: bilby/bilby_mcmc/chain.py 100-362, 526-545
    A tau is [option R], [None] for an infinite one.  emcee's estimate is an arbitrary function. *)
From Coq Require Import Reals List Bool ZArith Arith Lra.
From Verif Require Import Mband_Model Ensemble_Model Ifo_Model Samples_Model.
Import ListNotations.
Open Scope R_scope.
Open Scope list_scope.

(** what set_convergence_inputs puts on the chain (sampler.py 1231-1235), and the dimension *)
Record settings := { burn_in : R; thin_by : R; discard : Z; window_c : R; least_tau : R; given_tau : option R; trailing : option R; dim : nat }.
(** the state: position, the columns of the parameters and the log posterior (rows 0 .. position), _last_minimum_index,
    minimum indices of proposals and temperature adaptation, max_tau_dict in the order of insertion, cached_tau_count *)
Record book := mkBook { pos : nat; columns : list (list R); lpost : list R; last_min : nat * Z; by_proposal : Z; by_adapt : Z;
  taus : list (nat * option R); cached : nat }.

Section Chain.
Variable act : list R -> option R.        (* emcee.autocorr.integrated_time; None: nan or AutocorrError *)
Variable st : settings.

(** 526-545 [calculate_tau] *)
Fixpoint constant (x : list R) : bool := match x with a :: (b :: _) as t => (if Req_EM_T (b - a) 0 then true else false) && constant t | _ => true end.
Definition calculate_tau (x : list R) : option R := if constant x then None else act x.

(** 282-288 [tau_last] *)
Definition tau_last (b : book) : option R := last (map snd (taus b)) None.
(** 304-335 [_calculate_tau_dict]: one entry; the largest of the dictionary *)
Definition tau_of_column (start : nat) (x : list R) : option R :=
  match given_tau st with
  | Some t => Some (Rmax t (least_tau st))
  | None => match calculate_tau (skipn start x) with None => None | Some t => Some (Rmax (round1 t) (least_tau st)) end
  end.
Definition max_tau (a b : option R) : option R := match a, b with Some x, Some y => Some (Rmax x y) | _, _ => None end.
Fixpoint largest (l : list (option R)) : option R := match l with [] => Some 0 | [t] => t | t :: r => max_tau t (largest r) end.
Definition calc_tau (b : book) (m : Z) : option R :=
  if Rlt_dec (IZR (Z.of_nat (pos b) - m)) (2 * window_c st) then None
  else
    let start := match trailing st, tau_last b with
                 | Some w, Some t => Z.max m (trunc (INR (pos b) - w * t))
                 | _, _ => m
                 end in
    largest (map (tau_of_column (Z.to_nat start)) (columns b)).

(** 198-214: the rolling mean over 100 values of the log posterior against its maximum *)
Definition mean (l : list R) : R := fold_right Rplus 0 l / INR (length l).
Definition window_ending (lp : list R) (i : nat) : list R := firstn 100 (skipn (i - 99) lp).
Definition passes (lp : list R) (i : nat) : bool := if Rlt_dec (rmax_list lp - mean (window_ending lp i)) (INR (dim st) / 2) then true else false.
Definition z_index (lp : list R) : option nat :=
  match filter (passes lp) (seq 99 (length lp - 99)) with [] => None | i :: _ => Some (S i) end.

(** 161-234 [minimum_index] *)
Definition burn_tau (b : book) : option R :=
  match tau_last b with
  | Some t => Some t
  | None => match taus b with [] => calc_tau b 0 | _ => None end
  end.
Definition sources (b : book) : list R :=
  IZR (discard st) :: match burn_tau b with Some t => [burn_in st * t] | None => [] end
  ++ match z_index (lpost b) with Some i => [INR i] | None => [] end ++ [IZR (by_proposal b); IZR (by_adapt b)].
Definition minimum_index (b : book) : Z * book :=
  if (pos b =? fst (last_min b))%nat then (snd (last_min b), b)
  else if (Z.of_nat (pos b) <? discard st)%Z then (discard st, b)
  else let m := trunc (rmax_list (sources b)) in
       (m, mkBook (pos b) (columns b) (lpost b) (pos b, m) (by_proposal b) (by_adapt b) (taus b) (cached b)).
(** 237-253, the two setters *)
Definition set_proposal (b : book) (z : Z) : book :=
  if (by_proposal b <? z)%Z then mkBook (pos b) (columns b) (lpost b) (last_min b) z (by_adapt b) (taus b) (cached b) else b.
Definition set_adapt (b : book) (z : Z) : book :=
  if (by_adapt b <? z)%Z then mkBook (pos b) (columns b) (lpost b) (last_min b) (by_proposal b) z (taus b) (cached b) else b.

(** max_tau_dict[position] = tau: an old key keeps its place *)
Fixpoint put (k : nat) (v : option R) (l : list (nat * option R)) : list (nat * option R) :=
  match l with [] => [(k, v)] | (k', v') :: r => if (k =? k')%nat then (k, v) :: r else (k', v') :: put k v r end.
Fixpoint look (k : nat) (l : list (nat * option R)) : option (option R) :=
  match l with [] => None | (k', v') :: r => if (k =? k')%nat then Some v' else look k r end.
(** 274-280 [tau_nocache] *)
Definition tau_nocache (b : book) : option R * book :=
  let (m, b1) := minimum_index b in
  let t := calc_tau b1 m in
  (t, mkBook (pos b1) (columns b1) (lpost b1) (last_min b1) (by_proposal b1) (by_adapt b1) (put (pos b1) t (taus b1)) 0).
(** 354-357 [nsamples_last], for a finite last tau *)
Definition nsamples_last (b : book) (t : R) : Z * book :=
  let (m, b1) := minimum_index b in (trunc (IZR (Z.of_nat (pos b) - m) / (thin_by st * t)), b1).
(** 255-272 [tau]; the three conditions are evaluated in this order *)
Definition tau (b : book) : option R * book :=
  match look (pos b) (taus b) with
  | Some v => (v, b)
  | None =>
      match tau_last b with
      | Some t =>
          if (cached b <? 50)%nat then
            let (n, b1) := nsamples_last b t in
            if (50 <? n)%Z then (Some t, mkBook (pos b1) (columns b1) (lpost b1) (last_min b1) (by_proposal b1) (by_adapt b1) (taus b1) (S (cached b1)))
            else tau_nocache b1
          else tau_nocache b
      | None => tau_nocache b
      end
  end.
(** 337-342 [thin]: tau is looked up twice; [None]: int(inf), OverflowError *)
Definition thin (b : book) : option Z * book :=
  let (t, b1) := tau b in
  match t with
  | None => (Some 1%Z, b1)
  | Some _ => let (t2, b2) := tau b1 in
              match t2 with None => (None, b2) | Some u => (Some (Z.max 1 (trunc (thin_by st * u))), b2) end
  end.
(** 344-352 [nsamples] *)
Definition nsamples (b : book) : Z * book :=
  let (m, b1) := minimum_index b in
  let use := (Z.of_nat (pos b) - m)%Z in
  let (t, b2) := tau b1 in
  let n := match t with None => 0%Z | Some t => trunc (IZR use / t / thin_by st) end in
  (if (n <=? use)%Z then n else 0%Z, b2).
(** 359-362 [samples]: the rows minimum_index, minimum_index + thin, .. below position *)
Definition slice_rows (m p k : nat) : list nat := if (p <=? m)%nat then [] else map (fun i => m + i * k)%nat (seq 0 ((p - m + k - 1) / k)).
Definition samples (b : book) : option (list nat) * book :=
  let (m, b1) := minimum_index b in
  let (k, b2) := thin b1 in
  (match k with None => None | Some k => Some (slice_rows (Z.to_nat m) (pos b) (Z.to_nat k)) end, b2).

(** one more row (100-113), for this bookkeeping *)
Fixpoint add_each (xs : list (list R)) (row : list R) : list (list R) :=
  match xs, row with x :: xs', v :: row' => (x ++ [v]) :: add_each xs' row' | _, _ => [] end.
Definition append (b : book) (row : list R) (lp : R) : book :=
  mkBook (S (pos b)) (add_each (columns b) row) (lpost b ++ [lp]) (last_min b) (by_proposal b) (by_adapt b) (taus b) (cached b).
(** 61-81 *)
Definition init (row : list R) (lp : R) : book := mkBook 0 (map (fun v => [v]) row) [lp] (0%nat, 0%Z) 0 0 [] 0.
(** what the sampler does with a chain *)
Inductive op := OAppend (row : list R) (lp : R) | OMin | OTau | ONoCache | OThin | OCount | OSamples | OProposal (z : Z) | OAdapt (z : Z).
Definition step (b : book) (o : op) : book :=
  match o with
  | OAppend r lp => append b r lp
  | OMin => snd (minimum_index b) | OTau => snd (tau b) | ONoCache => snd (tau_nocache b) | OThin => snd (thin b)
  | OCount => snd (nsamples b) | OSamples => snd (samples b)
  | OProposal z => set_proposal b z | OAdapt z => set_adapt b z
  end.
Definition run (b : book) (os : list op) : book := fold_left step os b.
End Chain.
