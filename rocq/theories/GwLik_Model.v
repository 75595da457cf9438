(** bilby/gw/likelihood/base.py [GravitationalWaveTransient], gw/likelihood/basic.py, the detector
    response of gw/detector/interferometer.py and [ln_i0] of gw/utils.py.
    The arrays of all detectors have one entry per frequency bin (C87 covers the check) and are
    functions of the index here; [n] is the number of bins, [T] the duration, bin j has frequency j/T.
    Real numbers instead of floats. *)
From Coq Require Import String Reals List Bool Lra.
From Coquelicot Require Import Hierarchy RInt Complex.
From Verif Require Import PyReal GwInner_Model.
Import ListNotations.
Open Scope R_scope.
Open Scope list_scope.

Definition cis (x : R) : C := (cos x, sin x).
Fixpoint Sg (n : nat) (f : nat -> C) : C := match n with O => RtoC 0 | S k => (Sg k f + f k)%C end.
Definition rsum (l : list R) : R := fold_right Rplus 0 l.
(** real / psd *)
Definition rdivr (x : R) (s : ext) : R := match s with Fin v => x / v | Inf => 0 end.
Definition cnorm2 (z : C) : R := fst z ^ 2 + snd z ^ 2.

(** a detector: frequency mask, frequency-domain strain, power spectral density array *)
Record det := mkDet { msk : nat -> bool; dat : nat -> C; psd : nat -> ext }.

(** likelihood values: a number, -inf, or an exception *)
Inductive lres := Val (x : R) | NegInf | Raise.
(** an array entry that may be -inf *)
Definition expo (v : option R) : R := match v with Some x => exp x | None => 0 end.
(** scipy logsumexp(a, b=b) with b >= 0; an empty array raises ValueError *)
Definition lse (l : list (option R * R)) : lres :=
  match l with
  | [] => Raise
  | _ => let s := rsum (map (fun t => snd t * expo (fst t)) l) in if Rle_dec s 0 then NegInf else Val (ln s)
  end.
Definition lminus (v : lres) (x : R) : lres := match v with Val y => Val (y - x) | o => o end.

(** scipy.special.i0e at its mathematical value exp(-|x|) I_0(x), I_0 by its integral *)
Definition I0 (x : R) : R := / PI * RInt (fun t => exp (x * cos t)) 0 PI.
Definition i0e (x : R) : R := exp (- Rabs x) * I0 x.
(** gw/utils.py 1026-1041 *)
Definition ln_i0 (v : R) : R := ln (i0e v) + Rabs v.

Section Lik.
Variable n : nat.
Variable T : R.
Definition freq (j : nat) : R := INR j / T.
(** interferometer.py 306-337 [get_detector_response]: [modes] are the polarisations with their antenna
    responses, [dt] = geocent_time - start_time + time delay, [cal] the calibration factor *)
Definition response (modes : list (R * (nat -> C))) (dt : R) (cal : nat -> C) (m : nat -> bool) (j : nat) : C :=
  if m j then (csum (map (fun p => RtoC (fst p) * snd p j) modes) * cis (- (2 * PI * dt * freq j)) * cal j)%C else RtoC 0.
(** interferometer.py 565-598, gw/utils.py 116-137 on the masked arrays *)
Definition inner (d : det) (a b : nat -> C) : C :=
  (RtoC (4 / T) * Sg n (fun j => if msk d j then cdivr (Cconj (a j) * b j) (psd d j) else RtoC 0))%C.
(** a network: detectors with the response of each *)
Definition net := list (det * (nat -> C)).
(** base.py 284-285, 116-129 (sum over detectors) *)
Definition d_inner_h (N : net) : C := csum (map (fun p => inner (fst p) (snd p) (dat (fst p))) N).
Definition opt_snr_sq (N : net) : R := rsum (map (fun p => fst (inner (fst p) (snd p) (snd p))) N).
(** 389-398 *)
Definition calc_noise (ds : list det) : R := fst (fold_left (fun l d => (l - inner d (dat d) (dat d) / RtoC 2)%C) ds (RtoC 0)).
(** 317-321: FFT without the last bin *)
Definition d_inner_h_tc (N : net) (k : nat) : C :=
  csum (map (fun p => (RtoC (4 / T) * Sg (n - 1) (fun j =>
    cdivr (snd p j * Cconj (dat (fst p) j)) (psd (fst p) j) * cis (- (2 * PI * INR j * INR k / INR (n - 1)))))%C) N).

(** 445-454 and 613-619, 746-763: value for one pair of inner products.
    [margd] is the interpolated table, None = -inf; [d0] = parameters['luminosity_distance'], [ref] = _ref_dist *)
Record cfg := mkCfg { tmarg : bool; dmarg : bool; pmarg : bool; cmarg : bool }.
Definition base_ll (c : cfg) (margd : R -> R -> option R) (d0 ref : R) (d : C) (h : R) : option R :=
  if dmarg c then
    let dr := (d * RtoC d0 / RtoC ref)%C in margd (if pmarg c then Cmod dr else fst dr) (h * d0 ^ 2 / ref ^ 2)
  else if pmarg c then Some (ln_i0 (Cmod d) - h / 2)
  else Some (fst d - h / 2).

(** 989-997, 765-773: labels of the entries of the time array, [start] + jitter *)
Definition delta_tc : R := T / INR (n - 1).
Definition tc_label (start jit : R) (k : nat) : R := start + INR (S k) * delta_tc + jit.
Record tprior := mkTP { tp_min : R; tp_max : R; tp_prob : R -> R }.
Definition in_tc (tp : tprior) (t : R) : bool := if Rle_dec (tp_min tp) t then if Rle_dec t (tp_max tp) then true else false else false.
(** 765-790 without calibration curves *)
Definition time_marg (f : C -> option R) (tp : tprior) (start jit : R) (arr : nat -> C) : lres :=
  lse (map (fun k => (f (arr k), tp_prob tp (tc_label start jit k) * delta_tc))
           (filter (fun k => in_tc tp (tc_label start jit k)) (seq 0 (n - 1)))).
(** 433-456 without calibration curves; 412-429: geocent_time + jitter is in the responses *)
Definition ll_ratio (c : cfg) margd d0 ref tp start jit (N : net) : lres :=
  if tmarg c then time_marg (fun d => base_ll c margd d0 ref d (opt_snr_sq N)) tp start jit (d_inner_h_tc N)
  else match base_ll c margd d0 ref (d_inner_h N) (opt_snr_sq N) with Some x => Val x | None => NegInf end.

(** ** calibration curves: [draws k j] for every detector *)
Definition cnet := list (det * (nat -> C) * (nat -> nat -> C)).
(** 323-337 *)
Definition d_inner_h_cal (N : cnet) (c : nat) : C :=
  csum (map (fun p => let d := fst (fst p) in let h := snd (fst p) in
    Sg n (fun j => if msk d j then RtoC (4 / T) * cdivr (Cconj (dat d j) * h j) (psd d j) * snd p c j else RtoC 0)%C) N).
Fixpoint Sr (n : nat) (f : nat -> R) : R := match n with O => 0 | S k => Sr k f + f k end.
Definition opt_snr_sq_cal (N : cnet) (c : nat) : R :=
  rsum (map (fun p => let d := fst (fst p) in let h := snd (fst p) in
    Sr n (fun j => if msk d j then 4 / T * rdivr (cnorm2 (h j)) (psd d j) * cnorm2 (snd p c j) else 0)) N).
(** 296-306 *)
Definition d_inner_h_tc_cal (N : cnet) (c k : nat) : C :=
  csum (map (fun p => let d := fst (fst p) in let h := snd (fst p) in
    RtoC (4 / T) * Sg (n - 1) (fun j =>
      cdivr (Cconj (dat d j) * h j) (psd d j) * (if msk d j then snd p c j else RtoC 1)
      * cis (- (2 * PI * INR j * INR k / INR (n - 1)))))%C N).
Definition to_entry (v : lres) : option (option R) := match v with Val x => Some (Some x) | NegInf => Some None | Raise => None end.
(** list of rows, None if one raises *)
Fixpoint rows (l : list lres) : option (list (option R)) :=
  match l with [] => Some [] | v :: t => match to_entry v, rows t with Some x, Some r => Some (x :: r) | _, _ => None end end.
(** 826-842; [nc] = number_of_response_curves.  With time and distance marginalisation the arrays of shape
    (nc, nt) and (nc,) are broadcast against each other (752-755): an error unless nt = nc or nc = 1
    (nt = 1 is left out) *)
Definition cal_marg (c : cfg) margd d0 ref tp start jit (N : cnet) (nc : nat) : lres :=
  let ks := filter (fun k => in_tc tp (tc_label start jit k)) (seq 0 (n - 1)) in
  let row i :=
    if tmarg c then
      if dmarg c then
        if Nat.eqb nc 1 then time_marg (fun d => base_ll c margd d0 ref d (opt_snr_sq_cal N 0)) tp start jit (d_inner_h_tc_cal N i)
        else if Nat.eqb (List.length ks) nc then
          lse (map (fun q => (base_ll c margd d0 ref (d_inner_h_tc_cal N i (snd q)) (opt_snr_sq_cal N (fst q)), tp_prob tp (tc_label start jit (snd q)) * delta_tc))
                   (combine (seq 0 nc) ks))
        else Raise
      else time_marg (fun d => base_ll c margd d0 ref d (opt_snr_sq_cal N i)) tp start jit (d_inner_h_tc_cal N i)
    else match base_ll c margd d0 ref (d_inner_h_cal N i) (opt_snr_sq_cal N i) with Some x => Val x | None => NegInf end in
  match rows (map row (seq 0 nc)) with
  | Some r => lminus (lse (map (fun v => (v, 1)) r)) (ln (INR nc))
  | None => Raise
  end.
(** 281-282: the response once parameters['recalib_index'] is set *)
Definition recalibrate (N : cnet) (c : nat) : net :=
  map (fun p => (fst (fst p), fun j => if msk (fst (fst p)) j then (snd (fst p) j * snd p c j)%C else snd (fst p) j)) N.
(** 323, 435-438: with 'recalib_index' in the parameters and no time marginalisation the arrays stay None
    and line 840 (or 848, 758) raises TypeError *)
Definition cal_marg_params (has_index : bool) (c : cfg) margd d0 ref tp start jit (N : cnet) (nc : nat) : lres :=
  if has_index && negb (tmarg c) then Raise else cal_marg c margd d0 ref tp start jit N nc.

(** 549-552: probabilities of the curves from their log likelihoods *)
Definition cal_post (l : list R) : list R :=
  let m := fold_right Rmax (hd 0 l) l in let e := map (fun x => exp (x - m)) l in map (fun x => x / rsum e) e.

(** ** 556-631: time reconstruction, [M] = duration * 16384 samples *)
Definition rec_fft (N : net) (M k : nat) : C :=
  csum (map (fun p => Sg n (fun j => (cdivr (snd p j * Cconj (dat (fst p) j)) (if msk (fst p) j then psd (fst p) j else Fin 1)
    * cis (- (2 * PI * INR j * INR k / INR M)))%C)) N).
(** 583-588 *)
Definition rec_time (start tg fs : R) (k : nat) : R := rmod (tg - start + INR k / fs) T + start.
(** 619-622 up to the common factor exp(-max): neither phase nor distance marginalised *)
Definition rec_weight (N : net) (M : nat) (tp : tprior) (start tg fs : R) (k : nat) : R :=
  exp (fst (rec_fft N M k) - opt_snr_sq N / 2) * tp_prob tp (rec_time start tg fs k).
(** 739-742 up to exp(-max) *)
Definition phase_weight (N : net) (phi : R) : R := exp (fst (d_inner_h N * cis (- 2 * phi) - RtoC (opt_snr_sq N / 2))%C).
(** 659-675 up to exp(-max); [p] is the prior density at the distance [D] *)
Definition dist_weight (pm : bool) (N : net) (d0 D p : R) : R :=
  let d := (d_inner_h N * RtoC d0 / RtoC D)%C in let h := opt_snr_sq N * d0 ^ 2 / D ^ 2 in
  exp ((if pm then ln_i0 (Cmod d) else fst d) - h / 2) * p.

(** ** 389-404, 852-853: the cached noise log-likelihood.  [nan_to_num(-inf)] for a None waveform *)
Record lst := mkLst { l_dets : list det; l_noise : option R }.
Inductive lop := SetData (ds : list det) | GetNoise | GetRatio (w : option (list (nat -> C))) | GetLogL (w : option (list (nat -> C))).
Definition noise (s : lst) : R * lst :=
  match l_noise s with Some v => (v, s) | None => let v := calc_noise (l_dets s) in (v, mkLst (l_dets s) (Some v)) end.
Definition lowest : R := - ((2 - / 2 ^ 52) * 2 ^ 1023).
Definition ratio (s : lst) (w : option (list (nat -> C))) : R :=
  match w with None => lowest
  | Some hs => let N := combine (l_dets s) hs in fst (d_inner_h N) - opt_snr_sq N / 2 end.
Definition lstep (s : lst) (o : lop) : option R * lst :=
  match o with
  | SetData ds => (None, mkLst ds (l_noise s))
  | GetNoise => let '(v, s') := noise s in (Some v, s')
  | GetRatio w => (Some (ratio s w), s)
  | GetLogL w => let '(v, s') := noise s in (Some (ratio s w + v), s')
  end.
(** basic.py 36-93 *)
Definition basic_noise (ds : list det) : R :=
  fold_left (fun l d => l - 2 / T * Sr n (fun j => rdivr (cnorm2 (dat d j)) (psd d j))) ds 0.
Definition basic_ifo (d : det) (h : nat -> C) : R :=
  fst (RtoC (- (2 / T)) * Sg n (fun j => Cconj (dat d j - h j) * cdivr (dat d j - h j) (psd d j)))%C.
Definition basic_ll (N : net) : R := fold_left (fun l p => l + basic_ifo (fst p) (snd p)) N 0.
End Lik.

(** ** 956-979: an entry of the distance table for reference inner products [d], [h].
    [grid]: distances with their prior densities, [dd] the spacing *)
Definition dist_entry (pm : bool) (grid : list (R * R)) (dd ref d h : R) : lres :=
  let a D := (if pm then ln_i0 (Rabs (d * (ref / D))) else d * (ref / D)) - h * (ref / D) ^ 2 / 2 in
  match lse (map (fun t => (Some (0 / fst t), snd t * dd)) grid) with
  | Val nrm => lminus (lse (map (fun t => (Some (a (fst t)), snd t * dd)) grid)) nrm
  | o => o
  end.
(** 864-879, 894-896, calculus.py 207-219: -inf outside the table; [spl] is scipy's spline *)
Definition bounded (pm : bool) (spl : R -> R -> R) (d h : R) : option R :=
  let lo := if pm then / 10 ^ 5 else - 10 ^ 3 in
  if Rlt_dec d lo then None else if Rlt_dec (10 ^ 10) d then None
  else if Rlt_dec h (/ 10 ^ 5) then None else if Rlt_dec (10 ^ 10) h then None else Some (spl d h).

(** ** 881-954: which table is used *)
Record ltab := mkLT { lt_dist : option (list R); lt_prior : option (list R); lt_ref : option R; lt_phase : option bool;
                      lt_table : option nat (* an identifier of the stored array *) }.
Inductive tres := UseTable (id : nat) | Create | KeyErr | ValErr.
(** np.allclose with rtol 1e-15 and the default atol 1e-8: [a] loaded, [b] own *)
Definition close (a b : R) : bool := if Rle_dec (Rabs (a - b)) (/ 10 ^ 8 + / 10 ^ 15 * Rabs b) then true else false.
(** None = shapes do not fit (arrays of length 1 are left out) *)
Definition allclose (a b : list R) : option bool :=
  if Nat.eqb (List.length a) (List.length b) then Some (forallb (fun p => close (fst p) (snd p)) (combine a b)) else None.
Definition b2r (b : bool) : R := if b then 1 else 0.
(** 941-954: the first component of the answer; None = ValueError.  The second component is never empty
    when the first is False, so the pair itself is always true as a condition *)
Definition test_table (D p : list R) (ref : R) (ph : bool) (t : ltab) : option bool :=
  match lt_dist t with None => Some false | Some x => match allclose x D with None => None | Some false => Some false | Some true =>
  match lt_prior t with None => Some false | Some y => match allclose y p with None => None | Some false => Some false | Some true =>
  match lt_ref t with None => Some false | Some r => if close r ref then
  match lt_phase t with None => Some false | Some q => Some (close (b2r q) (b2r ph)) end else Some false end end end end end.
Inductive targ := ByName (file : option ltab) | ByDict (t : ltab).
(** 886-891 once [lookup_table] is a dictionary: [if self._test_cached_lookup_table(...)] tests the pair *)
Definition use_dict (D p : list R) (ref : R) (ph : bool) (t : ltab) : tres :=
  match test_table D p ref ph t with
  | None => ValErr
  | Some _ => match lt_table t with Some i => UseTable i | None => KeyErr end
  end.
(** 881-893 with 912-931; a file that numpy cannot read is left out *)
Definition setup_table (D p : list R) (ref : R) (ph : bool) (a : targ) : tres :=
  match a with
  | ByName None => Create
  | ByName (Some t) => match test_table D p ref ph t with
                       | None => ValErr | Some true => use_dict D p ref ph t | Some false => Create end
  | ByDict t => use_dict D p ref ph t
  end.
