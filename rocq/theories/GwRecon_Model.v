(** Model of the parts of bilby/gw/conversion.py that reconstruct marginalised parameters and attach
    computed columns to a posterior, and of the set-up and sky-frame code of
    bilby/gw/likelihood/base.py. *)
From Coq Require Import String Bool List Arith ZArith Reals Lia.
From Verif Require Import PyReal PyDict.
Import ListNotations.
Open Scope list_scope.
Open Scope nat_scope.

(** * Block-wise evaluation with a cache *)

(** cached_samples_dict without its "_samples" entry: first row of a block -> values of the block, in
    insertion order (conversion.py 2323-2326, 2467-2470) *)
Definition cache (V : Type) := list (nat * list V).

(** conversion.py 2349, 2494: [ii in cached_samples_dict] *)
Definition cached {V} (c : cache V) (ii : nat) : bool := existsb (fun e => Nat.eqb (fst e) ii) c.

(** conversion.py 2356, 2500-2502: [fill_args[ii: ii + block]] *)
Definition block_of {A} (l : list A) (ii block : nat) : list A := firstn block (skipn ii l).

(** conversion.py 2349-2364, 2494-2510: one pass of the loop body.  The dictionary is written to the
    cache file at the end of every pass that computes something, by [safe_file_dump] (2507), which
    replaces the file in one step (C19); so the file after a crash is the dictionary after some number of
    passes. *)
Definition pass {A V} (f : A -> V) (args : list A) (block ii : nat) (c : cache V) : cache V :=
  if cached c ii then c else c ++ [(ii, map f (block_of args ii block))].

(** conversion.py 2346-2364, 2491-2510: [while ii < len(samples)], stopped after [k] passes; with the
    flag that says whether the loop had come to its end. *)
Fixpoint passes {A V} (k : nat) (f : A -> V) (args : list A) (block ii : nat) (c : cache V) : bool * cache V :=
  match k with
  | O => (length args <=? ii, c)
  | S k' => if ii <? length args then passes k' f args block (ii + block) (pass f args block ii c)
            else (true, c)
  end.

(** How a call ends *)
Inductive outcome (X : Type) := Done (x : X) | ValueError | KeyError | TypeError | AttributeError | Endless.
Arguments Done {X} _. Arguments ValueError {X}. Arguments KeyError {X}. Arguments TypeError {X}.
Arguments AttributeError {X}. Arguments Endless {X}.

(** conversion.py 2371-2377, 2517-2522: the blocks are concatenated in insertion order -- numpy refuses to
    concatenate nothing -- and assigned as a column, which pandas refuses unless the length is that of the
    table. *)
Definition column_of {V} (n : nat) (c : cache V) : outcome (list V) :=
  if length c =? 0 then ValueError
  else let l := concat (map snd c) in if length l =? n then Done l else ValueError.

(** conversion.py 2286-2382 (compute_per_detector_log_likelihoods) and 2397-2524
    (generate_posterior_samples_from_marginalized_likelihood) from the dictionary [c] on, run to the end.
    With [block = 0] the loop never ends: the fuel [S (length args)] runs out. *)
Definition whole {A V} (f : A -> V) (args : list A) (block : nat) (c : cache V) : outcome (list V) :=
  match passes (S (length args)) f args block 0 c with
  | (true, c') => column_of (length args) c'
  | (false, _) => Endless
  end.

(** The cache file: nothing, an empty file (EOFError on reading, 2449-2451), or a pickled dictionary
    together with the samples it was made from. *)
Inductive cfile (S V : Type) := NoFile | EmptyFile | Pickled (s : list S) (c : cache V).
Arguments NoFile {S V}. Arguments EmptyFile {S V}. Arguments Pickled {S V} _ _.

Section Restart.
Context {S V : Type} (Seq_dec : forall a b : S, {a = b} + {a <> b}).

(** conversion.py 2445-2470: the dictionary a call starts from; [clean] is [command_line_args.clean] *)
Definition start_cache (use clean : bool) (fl : cfile S V) (samples : list S) : cache V :=
  if use && negb clean then
    match fl with
    | Pickled s c => if list_eq_dec Seq_dec s samples then c else []
    | _ => []
    end
  else [].

(** conversion.py 2489-2490: every row with its own seed (core/utils/random.py 17-18).  [draw row seed] is
    [fill_sample] (2547-2558): the values of the marginalised parameters drawn for the row after seeding. *)
Definition fill_args (samples : list S) (seeds : list nat) : list (S * nat) := combine samples seeds.

Definition fill (draw : S -> nat -> V) (a : S * nat) : V := draw (fst a) (snd a).

(** A call killed after [k] passes; what is left in the file.  Nothing is written by passes over cached
    blocks, nor when caching is off. *)
Definition killed (draw : S -> nat -> V) (use clean : bool) (samples : list S) (seeds : list nat) (block k : nat) (fl : cfile S V) : cfile S V :=
  let c := start_cache use clean fl samples in
  let c' := snd (passes k (fill draw) (fill_args samples seeds) block 0 c) in
  if use then if length c' =? length c then fl else Pickled samples c' else fl.

(** A call that is not interrupted *)
Definition reconstruct (draw : S -> nat -> V) (use clean : bool) (samples : list S) (seeds : list nat) (block : nat) (fl : cfile S V) : outcome (list V) :=
  whole (fill draw) (fill_args samples seeds) block (start_cache use clean fl samples).

(** The file an uninterrupted call leaves, whether or not the assignment at its end raises *)
Definition file_after (draw : S -> nat -> V) (use clean : bool) (samples : list S) (seeds : list nat) (block : nat) (fl : cfile S V) : cfile S V :=
  killed draw use clean samples seeds block (Datatypes.S (length samples)) fl.

End Restart.

(** * Columns of a table *)

(** A posterior: row labels and rows.  Labels need not be 0, 1, 2, ...: a DataFrame keeps the labels of the
    rows it was filtered, sorted or sampled from. *)
Record frame (S : Type) := mkFrame { labels : list nat; rows : list S }.
Arguments mkFrame {S} _ _. Arguments labels {S} _. Arguments rows {S} _.

(** [samples[key] = list or array] (conversion.py 2265, 2377, 2522): by position; pandas raises unless the
    lengths agree *)
Definition by_position {S V} (d : frame S) (v : list V) : outcome (list (option V)) :=
  if length v =? length (labels d) then Done (map Some v) else ValueError.

(** [samples[key] = series] (conversion.py 2544): by label; rows whose label the series lacks get NaN
    (None).  [DataFrame(new_samples)] (2542) has the labels 0 .. n-1. *)
Definition by_label {S V} (d : frame S) (v : list V) : outcome (list (option V)) :=
  Done (map (fun l => nth_error v l) (labels d)).

(** conversion.py 2538-2544: generate_sky_frame_parameters on a table; [sky] gives the value computed for
    a row.  A table without rows gets no column. *)
Definition sky_column {S V} (sky : S -> V) (d : frame S) : outcome (list (option V)) :=
  by_label d (map sky (rows d)).

(** conversion.py 2237-2265: compute_snrs on a table, for one detector; [new_samples[0]] (2258) raises for
    a table without rows when there is a detector (IndexError, not distinguished from ValueError here). *)
Definition snr_column {S V} (snr : S -> V) (d : frame S) : outcome (list (option V)) :=
  match rows d with [] => ValueError | _ => by_position d (map snr (rows d)) end.

(** * Evaluating row after row on one likelihood *)

(** [likelihood.parameters.update(sample)] (conversion.py 2276, 2391, 2540, 2556) *)
Definition update {V} (p row : dict V) : dict V := fold_left (fun d kv => dset d (fst kv) (snd kv)) row p.

(** Rows evaluated one after the other; [ev p] is the result and the parameters left behind. *)
Fixpoint evaluate {V R} (ev : dict V -> R * dict V) (p : dict V) (l : list (dict V)) : list R :=
  match l with
  | [] => []
  | r :: t => let (x, p') := ev (update p r) in x :: evaluate ev p' t
  end.

(** * Setting up marginalisation *)

(** A prior as seen by the constructor: a number, a delta function, another prior, a cosmological prior
    (gw/prior.py Cosmological). Priors other than these are identified by a number. *)
Inductive prior := PNum (x : R) | PDelta (x : R) | POther (id : nat) | PCosmo (id : nat).

(** core/prior/dict.py 643-648 with 49 and 307-318: copying a PriorDict turns numbers into delta functions *)
Definition delta_of (p : prior) : prior := match p with PNum x => PDelta x | _ => p end.
Definition copy_priors (d : dict prior) : dict prior := map (fun e => (fst e, delta_of (snd e))) d.

(** [is_fixed] (core/prior/base.py): only numbers turned into delta functions *)
Definition is_fixed (p : prior) : bool := match p with PDelta _ => true | _ => false end.

(** The external facts the constructor uses: start time of the data, the defaults (base.py 357-359, 373),
    the prior of the luminosity distance that belongs to a cosmological prior (368), the median distance of
    a prior (209) and the prior of the jitter (181-187). *)
Record env := mkEnv { start_time : R; default_time : prior; default_phase : prior;
  lum_of : prior -> prior; median : prior -> R; jitter_prior : prior }.

(** The constructor's options (145-151); [geo] says whether the time reference contains "geocent" *)
Record opts := mkOpts { o_time : bool; o_phase : bool; o_dist : bool; o_jitter : bool; geo : bool }.

(** The likelihood and the caller's dictionary *)
Record lik := mkLik { l_priors : option (dict prior); l_marg : list string; l_time : bool; l_jitter : bool; l_ref : option R }.

(** base.py 361-371: the loop over redshift and comoving_distance; each prior found replaces the one of the
    luminosity distance *)
Definition lum_step (e : env) (acc : outcome (dict prior)) (k : string) : outcome (dict prior) :=
  match acc with
  | Done d => match dget d k with
              | None => Done d
              | Some (PCosmo i) => Done (ddel (dset d "luminosity_distance" (lum_of e (PCosmo i))) k)
              | Some _ => TypeError
              end
  | err => err
  end.

(** base.py 347-373: _check_marginalized_prior_is_set.  [self.priors] is a copy, so it holds no numbers. *)
Definition check_set (e : env) (d : dict prior) (k : string) : outcome (dict prior) :=
  match dget d k with
  | Some p => if is_fixed p then ValueError else Done d
  | None => if String.eqb k "geocent_time" then Done (dset d k (default_time e))
            else if String.eqb k "luminosity_distance" then fold_left (lum_step e) ["redshift"; "comoving_distance"]%string (Done d)
            else Done (dset d k (default_phase e))
  end.

(** base.py 176-194: the time step; state = likelihood and caller's dictionary.  Each step returns the
    caller's dictionary as it stands also when it raises. *)
Definition time_step (e : env) (o : opts) (own user : dict prior) : outcome (dict prior) * dict prior :=
  if o_time o && geo o then
    match check_set e own "geocent_time" with
    | Done own' => (Done own', let u := dset user "geocent_time" (PNum (start_time e)) in
                               if o_jitter o then dset u "time_jitter" (jitter_prior e) else u)
    | err => (err, user)
    end
  else (Done own, user).

(** base.py 195-198 *)
Definition phase_step (e : env) (o : opts) (own user : dict prior) : outcome (dict prior) * dict prior :=
  if o_phase o then
    match check_set e own "phase" with
    | Done own' => (Done own', dset user "phase" (PNum 0))
    | err => (err, user)
    end
  else (Done own, user).

(** base.py 200-216: 204 reads self.priors['luminosity_distance'], which raises KeyError when the check has
    not found one *)
Definition dist_step (e : env) (o : opts) (own user : dict prior) : outcome (dict prior * option R) * dict prior :=
  if o_dist o then
    match check_set e own "luminosity_distance" with
    | Done own' =>
        match dget own' "luminosity_distance" with
        | None => (KeyError, user)
        | Some p => (Done (own', Some (median e p)),
                     dset (ddel (ddel user "redshift") "comoving_distance") "luminosity_distance" (PNum (median e p)))
        end
    | ValueError => (ValueError, user) | KeyError => (KeyError, user) | TypeError => (TypeError, user)
    | AttributeError => (AttributeError, user) | Endless => (Endless, user)
    end
  else (Done (own, None), user).

(** base.py 145-216: the constructor up to the distance; the parameters appended to
    _marginalized_parameters in order (188, 198, 216) *)
Definition marg_list (o : opts) : list string :=
  (if o_time o && geo o then ["geocent_time"%string] else []) ++ (if o_phase o then ["phase"%string] else []) ++
  (if o_dist o then ["luminosity_distance"%string] else []).

Definition construct (e : env) (o : opts) (priors : option (dict prior)) : outcome lik * option (dict prior) :=
  match priors with
  | None => (* 379-387 *)
      if o_time o || o_phase o || o_dist o then (ValueError, None)
      else (Done (mkLik None [] false false None), None)
  | Some user =>
      match time_step e o (copy_priors user) user with
      | (Done own1, u1) =>
          match phase_step e o own1 u1 with
          | (Done own2, u2) =>
              match dist_step e o own2 u2 with
              | (Done (own3, r), u3) =>
                  (Done (mkLik (Some own3) (marg_list o) (o_time o && geo o) (o_time o && geo o && o_jitter o) r), Some u3)
              | (ValueError, u3) => (ValueError, Some u3) | (KeyError, u3) => (KeyError, Some u3)
              | (TypeError, u3) => (TypeError, Some u3) | (AttributeError, u3) => (AttributeError, Some u3)
              | (Endless, u3) => (Endless, Some u3)
              end
          | (ValueError, u2) => (ValueError, Some u2) | (KeyError, u2) => (KeyError, Some u2)
          | (TypeError, u2) => (TypeError, Some u2) | (AttributeError, u2) => (AttributeError, Some u2)
          | (Endless, u2) => (Endless, Some u2)
          end
      | (ValueError, u1) => (ValueError, Some u1) | (KeyError, u1) => (KeyError, Some u1)
      | (TypeError, u1) => (TypeError, Some u1) | (AttributeError, u1) => (AttributeError, Some u1)
      | (Endless, u1) => (Endless, Some u1)
      end
  end.

(** * Sky frame and reference time *)

Section Sky.
Open Scope R_scope.
(** gw/utils.py 253-277 with the detector pair fixed: ra and dec from zenith, azimuth and time *)
Variable to_sky : R -> R -> R -> R * R.
(** interferometer.py 529-548: delay of the reference detector, from ra, dec and time *)
Variable delay : R -> R -> R -> R.
(** time_reference: None for the geocentre (base.py 173), or a detector name (166); whether the reference
    frame is the sky (1040) *)
Variable ref : option string.
Variable sky_frame : bool.

(** base.py 1070: the key of the reference time *)
Definition time_key : string := match ref with None => "geocent_time" | Some n => (n ++ "_time")%string end.

(** base.py 1051-1100: get_sky_frame_parameters.  Conversion with no time (the greenwich sidereal time of
    None) raises TypeError, which is not caught. *)
Definition get_sky (p : dict R) : outcome (R * R * R) :=
  let time := dget p time_key in
  let radec :=
    if sky_frame then
      match dget p "ra", dget p "dec" with Some a, Some b => Done (a, b) | _, _ => KeyError end
    else
      match dget p "zenith", dget p "azimuth" with
      | Some z, Some a => match time with Some t => Done (to_sky z a t) | None => TypeError end
      | _, _ => match dget p "ra", dget p "dec" with Some a, Some b => Done (a, b) | _, _ => KeyError end
      end in
  match radec with
  | Done (ra, dec) =>
      match ref, time with
      | Some _, Some t => Done (ra, dec, t - delay ra dec t)
      | _, _ => match dget p "geocent_time" with Some t => Done (ra, dec, t) | None => KeyError end
      end
  | ValueError => ValueError | KeyError => KeyError | TypeError => TypeError
  | AttributeError => AttributeError | Endless => Endless
  end.

(** base.py 415, 465: [self.parameters.update(self.get_sky_frame_parameters())] *)
Definition store (p : dict R) (s : R * R * R) : dict R :=
  update p [("ra"%string, fst (fst s)); ("dec"%string, snd (fst s)); ("geocent_time"%string, snd s)].

(** base.py 406-431: an evaluation; [jit] says that the time is marginalised with jitter (then the
    reference is the geocentre, 165-174), [ll] is the value computed from the parameters during it.
    A waveform that cannot be generated (409-410) makes it return before any parameter is touched and is
    left out. *)
Definition evaluation {X} (jit : bool) (ll : dict R -> X) (p : dict R) : outcome X * dict R :=
  let shifted : outcome (dict R) :=
    if jit then match dget p "geocent_time", dget p "time_jitter" with
                | Some t, Some j => Done (dset p "geocent_time" (t + j))
                | _, _ => KeyError
                end
    else Done p in
  match shifted with
  | Done p1 =>
      match get_sky p1 with
      | Done s => let p2 := store p1 s in
                  let x := ll p2 in
                  let p3 := if jit then match dget p2 "geocent_time", dget p2 "time_jitter" with
                                        | Some t, Some j => dset p2 "geocent_time" (t - j)
                                        | _, _ => p2
                                        end
                            else p2 in
                  (Done x, p3)
      | ValueError => (ValueError, p1) | KeyError => (KeyError, p1) | TypeError => (TypeError, p1)
      | AttributeError => (AttributeError, p1) | Endless => (Endless, p1)
      end
  | _ => (KeyError, p)
  end.

End Sky.

(** base.py 1046-1047 with 1031-1036: a reference frame given as text, and its text again *)
Definition frame_of_text (s : string) : string * string := (substring 0 2 s, substring 2 2 s).
Definition text_of_frame (f : string * string) : string := (fst f ++ snd f)%string.
