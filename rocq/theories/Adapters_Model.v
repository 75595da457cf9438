(** * Adapters to external samplers: what they put into the result, DNest4's moves, run directories
    Model of /repo/bilby/core/sampler/polychord.py 93-147, pymultinest.py 97-193, ptmcmc.py 184-244,
    ultranest.py 108-296, nessai.py 187-222, dnest4.py 10-62, 156-179 and of _TemporaryFileSamplerMixin,
    base_sampler.py 936-1068. *)
From Coq Require Import String Reals List Bool Arith ZArith Lra.
From Verif Require Import PyReal PyDict.
Import ListNotations.
Open Scope R_scope. Open Scope list_scope.

(** ** Tables read back from text files *)
Definition row := list R.
(** numpy.loadtxt: several lines give a matrix, a single line a vector, and an empty file a vector too. *)
Inductive table := Matrix (rows : list row) | Vector (r : row).
Definition loadtxt (lines : list row) : table := match lines with [] => Vector [] | [r] => Vector r | _ => Matrix lines end.
(** [a[:, -n]], [a[:, -n:]] and [a[:, :-n]]; on a vector every one of them is an IndexError. *)
Definition last_n {A} (n : nat) (l : list A) : list A := skipn (length l - n) l.
Definition but_last_n {A} (n : nat) (l : list A) : list A := firstn (length l - n) l.
Definition from_end (n : nat) (r : row) : R := nth (length r - n) r 0.
Definition rows_of (t : table) : option (list row) := match t with Matrix r => Some r | Vector _ => None end.
(** What ends up in result.samples and result.log_likelihood_evaluations; [None]: the run dies with an
    IndexError after the sampling. *)
Definition extract := option (list row * list R).

(** PyPolyChord._read_sample_file, polychord.py 130-147: the equal-weight file. *)
Definition read_polychord (ndim : nat) (lines : list row) : extract :=
  match rows_of (loadtxt lines) with
  | Some rs => Some (map (last_n ndim) rs, map (fun r => - (1/2) * nth 1 r 0) rs)
  | None => None
  end.
(** The line PolyChord writes for a draw [theta]: weight, -2 log L, the parameters, then the derived
    parameters, which are what bilby's log_likelihood returned as second value (polychord.py 126-128). *)
Definition polychord_log_likelihood (ll : row -> R) (theta : row) : R * row := (ll theta, theta).
Definition polychord_line (ll : row -> R) (theta : row) : row :=
  1 :: -2 * fst (polychord_log_likelihood ll theta) :: theta ++ snd (polychord_log_likelihood ll theta).

(** Pymultinest.run_sampler, pymultinest.py 154-160: post_equal_weights.dat. *)
Definition read_multinest (lines : list row) : extract :=
  match rows_of (loadtxt lines) with
  | Some rs => Some (map (but_last_n 1) rs, map (from_end 1) rs)
  | None => None
  end.
Definition multinest_line (ll : row -> R) (theta : row) : row := theta ++ [ll theta].
(** np.insert(live_points, -1, v, axis=-1), pymultinest.py 186: before the last column. *)
Definition insert_before_last (v : R) (r : row) : row := but_last_n 1 r ++ [v] ++ last_n 1 r.
(** _nested_samples, pymultinest.py 169-193; two lines or more in either file, so that
    numpy.genfromtxt gives matrices. *)
Definition nested_samples (nlive : R) (dead live : list row) : list row :=
  let v := - INR (length dead) / nlive - ln nlive in dead ++ map (insert_before_last v) live.

(** PTMCMCSampler.__read_in_data and run_sampler, ptmcmc.py 203-210, 217-227: the chain file, and the slices
    from [nburn]. *)
Definition read_ptmcmc (nburn : nat) (lines : list row) : extract :=
  match rows_of (loadtxt lines) with
  | Some rs => Some (skipn nburn (map (but_last_n 4) rs), skipn nburn (map (from_end 3) rs))
  | None => None
  end.
(** The line PTMCMCSampler writes: parameters, log posterior, log likelihood, two acceptance rates. *)
Definition ptmcmc_line (ll lp : row -> R) (theta : row) (acc swap : R) : row := theta ++ [ll theta + lp theta; ll theta; acc; swap].

(** Ultranest._generate_result, ultranest.py 265-290: the mask compares one uniform number per point with the
    weight relative to the largest. *)
Definition masked {A} (mask : list bool) (l : list A) : list A := map snd (filter fst (combine mask l)).
Definition rmax (l : list R) : R := fold_right Rmax (hd 0 l) l.
Definition ultranest_mask (weights us : list R) : list bool :=
  map (fun uw => if Rlt_dec (fst uw) (snd uw / rmax weights) then true else false) (combine us weights).
Definition ultranest_result (points : list row) (weights logl us : list R) : list row * list R :=
  (masked (ultranest_mask weights us) points, masked (ultranest_mask weights us) logl).

(** Nessai.get_posterior_weights, nessai.py 187-196: exp(log_w - logsumexp(log_w)). *)
Definition rsum (l : list R) : R := fold_right Rplus 0 l.
Definition nessai_weights (logw : list R) : list R := map (fun w => exp (w - ln (rsum (map exp logw)))) logw.

(** ** DNest4 *)
(** Widths and centres from the prior draws, dnest4.py 164-174. *)
Definition rmin (l : list R) : R := fold_right Rmin (hd 0 l) l.
Definition width (pts : list R) : R := rmax pts - rmin pts.
Definition center (pts : list R) : R := (rmax pts + rmin pts) / 2.
(** wrap, dnest4.py 56-62; [None]: ValueError. *)
Definition wrap (x mn mx : R) : option R := if Rle_dec mx mn then None else Some (rmod (x - mn) (mx - mn) + mn).
(** perturb, dnest4.py 42-54: the coordinate [idx] and the uniform number [u] are drawn; the value returned to
    DNest4 is the second component. *)
Definition set_nth {A} (i : nat) (x : A) (l : list A) : list A := firstn i l ++ match skipn i l with _ :: t => x :: t | [] => [] end.
Definition perturb (widths centers : list R) (idx : nat) (u : R) (coords : list R) : option (list R * R) :=
  let cw := nth idx widths 0 in
  let cc := nth idx centers 0 in
  let x := nth idx coords 0 + cw * (u - 1/2) in
  match wrap x (cc - 1/2 * cw) (cc + 1/2 * cw) with
  | Some y => Some (set_nth idx y coords, 0)
  | None => None
  end.

(** ** Run directories: _TemporaryFileSamplerMixin *)
Section Dirs.
(** Contents of files; sampling_time.dat holds the number of seconds. *)
Inductive content := Data (n : Z) | Seconds (t : R).
Definition dir := dict content.
Definition time_file : string := "sampling_time.dat".
(** shutil.copytree(src, dst, dirs_exist_ok=True): files are overwritten, others stay. *)
Definition copytree (src dst : dir) : dir := fold_left (fun d kv => dset d (fst kv) (snd kv)) src dst.
(** A process: whether it uses a temporary directory, the two directories ([None]: it does not exist),
    [total_sampling_time] and [start_time]. *)
Record proc := mkP { use_tmp : bool; out : dir; tmp : option dir; total : R; start : R }.
(** The directory the sampler works in, [kwargs["outputfiles_basename"]], base_sampler.py 1063, 1066. *)
Definition work (p : proc) : option dir := if use_tmp p then tmp p else Some (out p).
Definition set_work (p : proc) (d : dir) : proc :=
  if use_tmp p then mkP true (out p) (Some d) (total p) (start p) else mkP false d (tmp p) (total p) (start p).
(** _check_and_load_sampling_time_file, base_sampler.py 966-971. *)
Definition load_time (d : dir) : R := match dget d time_file with Some (Seconds t) => t | _ => 0 end.
(** _setup_run_directory, base_sampler.py 1044-1068, with the setter at 1005-1013 (copied twice), and the time
    file; [o] is what the output directory holds ([None]: it is made), [now] is time.time(). *)
Definition setup (tmpdir : bool) (o : option dir) (now : R) : proc :=
  let d := match o with Some d => d | None => [] end in
  if tmpdir then let t := copytree d (copytree d []) in mkP true d (Some t) (load_time t) now
  else mkP false d None (load_time d) now.
(** The sampler writes or deletes a file of its working directory. *)
Definition write_file (f : string) (c : content) (p : proc) : option proc :=
  match work p with Some d => Some (set_work p (dset d f c)) | None => None end.
Definition delete_file (f : string) (p : proc) : option proc :=
  match work p with Some d => Some (set_work p (ddel d f)) | None => None end.
(** _calculate_and_save_sampling_time, base_sampler.py 973-981; [None]: FileNotFoundError, the directory is gone. *)
Definition save_time (now : R) (p : proc) : option proc :=
  let t := total p + (now - start p) in
  match work p with
  | Some d => let p := set_work p (dset d time_file (Seconds t)) in Some (mkP (use_tmp p) (out p) (tmp p) t now)
  | None => None
  end.
(** _copy_temporary_directory_contents_to_proper_path, base_sampler.py 1029-1042. *)
Definition copy_back (p : proc) : option proc :=
  match tmp p with Some t => Some (mkP (use_tmp p) (copytree t (out p)) (tmp p) (total p) (start p)) | None => None end.
(** _move_temporary_directory_to_proper_path, base_sampler.py 1020-1027. *)
Definition move_back (p : proc) : option proc :=
  match copy_back p with Some p => Some (mkP (use_tmp p) (out p) None (total p) (start p)) | None => None end.
(** write_current_state, base_sampler.py 1015-1018; the end of run_sampler is the same two steps
    (pymultinest.py 150-152, ultranest.py 256-258, dnest4.py 226-227 with 983-986). *)
Definition finish (now : R) (p : proc) : option proc :=
  match save_time now p with Some p => if use_tmp p then move_back p else Some p | None => None end.
(** Pymultinest._dump_callback, pymultinest.py 114-117. *)
Definition dump_callback (now : R) (p : proc) : option proc :=
  match (if use_tmp p then copy_back p else Some p) with Some p => save_time now p | None => None end.
(** Ultranest._viz_callback, ultranest.py 131-136, with the override at 151-157: inspect.stack()[1] is
    _viz_callback itself, so nothing is copied. [due]: the counter is a multiple of the interval. *)
Definition viz_callback (due : bool) (now : R) (p : proc) : option proc :=
  if use_tmp p then (if due then save_time now p else Some p) else Some p.
Inductive op := Write (f : string) (n : Z) | Delete (f : string) | Dump (now : R) | Viz (due : bool) (now : R).
Definition step (p : proc) (o : op) : option proc :=
  match o with
  | Write f n => write_file f (Data n) p
  | Delete f => delete_file f p
  | Dump t => dump_callback t p
  | Viz due t => viz_callback due t p
  end.
Fixpoint steps (p : proc) (ops : list op) : option proc :=
  match ops with [] => Some p | o :: ops => match step p o with Some p => steps p ops | None => None end end.
(** A whole process, started at [t0] on the output directory [o] and finished (or interrupted) at [t1]. *)
Definition whole (tmpdir : bool) (o : option dir) (t0 : R) (ops : list op) (t1 : R) : option dir :=
  match steps (setup tmpdir o t0) ops with
  | Some p => match finish t1 p with Some p => Some (out p) | None => None end
  | None => None
  end.
(** The same process killed: the temporary directory is never looked at again. *)
Definition killed (tmpdir : bool) (o : option dir) (t0 : R) (ops : list op) : option dir :=
  match steps (setup tmpdir o t0) ops with Some p => Some (out p) | None => None end.
End Dirs.

(** ** The name of the run directory *)
(** The setter, base_sampler.py 992-999. *)
Definition ends_slash (s : string) : bool :=
  match String.length s with O => false | S n => String.eqb (substring n 1 s) "/" end.
Definition set_basename (outdir short label : string) (v : option string) : string :=
  let b := match v with Some s => s | None => (outdir ++ "/" ++ short ++ "_" ++ label ++ "/")%string end in
  if ends_slash b then b else (b ++ "/")%string.
(** The object: [kwargs["outputfiles_basename"]] ([log_dir] for ultranest; outer [None]: no such key) and
    [_outputfiles_basename]. *)
Record names := mkN { kw : option (option string); base : option string }.
(** _verify_kwargs_against_default_kwargs, pymultinest.py 105, ultranest.py 125, dnest4.py 251. *)
Definition verify_names (outdir short label : string) (s : names) : names :=
  mkN None (Some (set_basename outdir short label (match kw s with Some v => v | None => None end))).
(** The constructor: default keyword None, then the user's, kwargs.setter (base_sampler.py 302-307, through
    948-949), then base_sampler.py 963. *)
Definition construct_names (outdir short label : string) (user : option string) : names :=
  let s := verify_names outdir short label (mkN (Some user) None) in mkN (kw s) None.
(** The directory run_sampler sets up: verification again (pymultinest.py 132, ultranest.py 221, dnest4.py 211). *)
Definition run_directory (outdir short label : string) (user : option string) : option string :=
  base (verify_names outdir short label (construct_names outdir short label user)).

(** ** Ultranest's keyword arguments *)
Inductive arg := ABool (b : bool) | AText (s : string) | ANum (n : Z) | ANone.
(** _translate_kwargs, ultranest.py 108-120, from "verbose" on; [kwargs.get("resume", False)]. *)
Definition ultranest_translate (kw : dict arg) : dict arg :=
  let kw := match dget kw "verbose" with
            | Some v => if dmem kw "show_status" then kw else dset (ddel kw "verbose") "show_status" v
            | None => kw end in
  match (match dget kw "resume" with Some v => v | None => ABool false end) with
  | ABool true => dset kw "resume" (AText "overwrite")
  | ABool false => dset kw "resume" (AText "overwrite")
  | _ => kw
  end.
(** wrapped_params: _apply_ultranest_boundaries, ultranest.py 138-149 (over all priors, keeping the search
    parameters), and _apply_multinest_boundaries, pymultinest.py 119-126 (over the search parameters). *)
Definition flag (periodic : bool) : nat := if periodic then 1%nat else 0%nat.
Definition ultranest_wrapped (search : list string) (priors : dict bool) : list nat :=
  map (fun kv => flag (snd kv)) (filter (fun kv => if in_dec string_dec (fst kv) search then true else false) priors).
Definition multinest_wrapped (search : list string) (priors : dict bool) : list nat :=
  map (fun k => flag (match dget priors k with Some b => b | None => false end)) search.
