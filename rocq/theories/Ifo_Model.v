(** bilby/gw/detector: safe durations, injection into a time series, whitening, triangular detectors,
    detector files, loading from a cache file, the check of the signal duration *)
From Coq Require Import String Ascii Reals List ZArith Bool.
From Coquelicot Require Import Complex.
From Verif Require Import PyReal PyDict Interp_Model Series_Model GwInner_Model.
Import ListNotations.
Open Scope R_scope.
Open Scope list_scope.

(** ** __init__.py 8-30 [get_safe_signal_duration]; the argument is the value returned by
    SimInspiralChirpTimeBound.  None = OverflowError or ValueError of int() of -inf or nan *)
Definition safe_duration (chirp : R) : option R :=
  if Rlt_dec 0 chirp then Some (Rmax (powerRZ 2 (trunc (ln chirp / ln 2) + 1)) 4) else None.

(** ** interferometer: what the signal-to-noise methods read *)
Record ifo := mkI { i_mask : list bool; i_psd : list ext; i_wf : R; i_T : R; i_data : list C }.
(** numpy indexing with a boolean array; None = IndexError *)
Definition select {A} (m : list bool) (l : list A) : option (list A) :=
  if Nat.eqb (length m) (length l) then Some (map snd (filter fst (combine m l))) else None.
(** interferometer.py 508-522, 494-506; psd.py 241-248: the cached amplitude is the root of the power *)
Definition scale_ext (c : R) (s : ext) : ext := match s with Fin x => Fin (x * c) | Inf => Inf end.
Definition root_ext (s : ext) : ext := match s with Fin x => Fin (sqrt x) | Inf => Inf end.
Definition psd_array (i : ifo) : list ext := map (scale_ext (i_wf i)) (i_psd i).
Definition asd_array (i : ifo) : list ext := map (fun s => scale_ext (sqrt (i_wf i)) (root_ext s)) (i_psd i).
(** interferometer.py 565-580 *)
Definition ifo_optimal_snr_squared (i : ifo) (h : list C) : option C :=
  match select (i_mask i) h, select (i_mask i) (psd_array i) with
  | Some a, Some s => optimal_snr_squared a s (i_T i) | _, _ => None end.
(** 620-637 *)
Definition ifo_matched_filter_snr (i : ifo) (h : list C) : cres :=
  match select (i_mask i) h, select (i_mask i) (i_data i), select (i_mask i) (psd_array i) with
  | Some a, Some d, Some s => matched_filter_snr a d s (i_T i) | _, _, _ => CRaise end.

(** ** __init__.py 33-123 [inject_signal_into_gwpy_timeseries] *)
(** np.roll *)
Definition np_roll (l : list R) (n : Z) : list R :=
  map (fun i => nth (Z.to_nat ((Z.of_nat i - n) mod Z.of_nat (length l))) l 0) (seq 0 (length l)).
(** 86-92: each polarisation with the response of its mode; arrays of another length do not add *)
Definition add_mode (acc : option (list R)) (pr : list R * R) : option (list R) :=
  match acc with
  | Some s => if Nat.eqb (length s) (length (fst pr)) then Some (map (fun t => fst t + snd t * snd pr) (combine s (fst pr))) else None
  | None => None
  end.
Definition project (n : nat) (modes : list (list R * R)) : option (list R) :=
  fold_left add_mode modes (Some (repeat 0 n)).
(** the meta data: optimal signal-to-noise ratio (real part of the root), matched filter *)
Record meta := mkMeta { m_opt : option R; m_mf : cres }.
(** 73-123.  [i] is the interferometer after line 73: its data are those of the series before the
    injection; [chirp] is the chirp time of line 78; [modes] pairs the polarisations with the antenna
    responses; [geocent], [delay], [t0], [rate]: lines 93-98; [fs] is the sampling frequency of the
    waveform generator.  The plot and the log lines are left out.  data.inject adds series on the same times *)
Definition inject_series (i : ifo) (x : list R) (dur chirp : R) (modes : list (list R * R)) (geocent delay t0 rate fs : R)
  : option (list R * meta) :=
  match safe_duration chirp with
  | None => None
  | Some safe =>
      let _error_built := if Rlt_dec dur safe then true else false in       (* 79-82: built, not raised *)
      match project (length x) modes with
      | None => None
      | Some signal =>
          let n := round_even ((geocent + delay - t0) * rate) in
          let shifted := np_roll signal n in
          let out := map (fun t => fst t + snd t) (combine x shifted) in
          let H := fst (nfft signal fs) in
          Some (out, mkMeta (option_map (fun z => fst (csqrt z)) (ifo_optimal_snr_squared i H)) (ifo_matched_filter_snr i H))
      end
  end.
(** 178-179 *)
Definition fake_noise_start (given : option R) (geocent dur : R) : R :=
  match given with Some t => t | None => geocent + 2 - dur end.
(** strain_data.py 68-89 [time_within_data] *)
Definition time_within (start dur t : R) : bool :=
  if Rlt_dec t start then false else if Rlt_dec (start + dur) t then false else true.

(** ** Whitening, interferometer.py 639-727; complex over an amplitude *)
Definition whiten (i : ifo) (h : list C) : option (list C) :=
  if Nat.eqb (length h) (length (asd_array i))
  then Some (map (fun t => cdivr (fst t) (scale_ext (sqrt (i_T i / 4)) (snd t))) (combine h (asd_array i))) else None.
(** np.sum of a boolean array *)
Definition count_mask (m : list bool) : nat := length (filter (fun b => b) m).
(** 660-699; None = ValueError of irfft, or nan throughout (no bin in band: 0 / 0) *)
Definition whitened_time_series (i : ifo) (w : list C) : option (list R) :=
  let M := INR (count_mask (i_mask i)) in
  let* y := irfft w in
  let factor := M / INR (length (i_mask i)) in
  if Nat.eqb (count_mask (i_mask i)) 0 then None else Some (map (fun v => v * sqrt M / factor) y).
(** 701-727 *)
Definition whitened_strain (i : ifo) : option (list R) :=
  let* w := whiten i (i_data i) in whitened_time_series i w.

(** ** networks.py 299-365 [TriangularInterferometer]: geometry of the three detectors, angles in degrees.
    name index, latitude, longitude, azimuth of the x and of the y arm *)
Record site := mkSite { s_index : nat; s_lat : R; s_lon : R; s_xa : R; s_ya : R }.
Definition earth : R := 6378136.6.
Definition rad (a : R) : R := a * PI / 180.
Fixpoint triangle_from (k n : nat) (length lat lon xa ya : R) : list site :=
  match n with
  | O => []
  | S n =>
      let xa' := xa + 240 in let ya' := ya + 240 in
      mkSite (S k) lat lon xa ya ::
      triangle_from (S k) n length
        (lat + atan (length * sin (rad xa') * 1e3 / earth) * 180 / PI)
        (lon + atan (length * cos (rad xa') * 1e3 / earth) * 180 / PI) xa' ya'
  end.
Definition triangle (length lat lon xa ya : R) : list site := triangle_from 0 3 length lat lon xa ya.
(** 318-323: a single value stands for three equal ones; otherwise entry ii of what is given *)
Definition three {A} (v : A + list A) : list A := match v with inl a => repeat a 3 | inr l => l end.

(** ** networks.py 368-432: detector files *)
Definition txt := list ascii.
Definition nl : ascii := ascii_of_nat 10.
Definition is_space (c : ascii) : bool := Ascii.eqb c " " || Ascii.eqb c nl || Ascii.eqb c (ascii_of_nat 9) || Ascii.eqb c (ascii_of_nat 13).
Fixpoint lstrip_sp (t : txt) : txt := match t with c :: r => if is_space c then lstrip_sp r else t | [] => [] end.
Definition strip_sp (t : txt) : txt := rev (lstrip_sp (rev (lstrip_sp t))).
(** line.split("=") and "=".join of all but the first part *)
Fixpoint split_eq (t : txt) : list txt :=
  match t with
  | [] => [[]]
  | c :: r => if Ascii.eqb c "=" then [] :: split_eq r
              else match split_eq r with p :: ps => (c :: p) :: ps | [] => [[c]] end
  end.
Fixpoint join_eq (l : list txt) : txt :=
  match l with [] => [] | [p] => p | p :: ps => p ++ "="%char :: join_eq ps end.
(** str.lower on the letters A-Z *)
Definition lower_char (c : ascii) : ascii :=
  let n := nat_of_ascii c in if (Nat.leb 65 n && Nat.leb n 90)%bool then ascii_of_nat (n + 32) else c.
Definition lower (s : string) : string := string_of_list_ascii (map lower_char (list_ascii_of_string s)).

Section Files.
Context {V I : Type}.
Variable ev : txt -> option V.                (* eval of a text; None = it raises *)
Variable as_str : V -> option string.         (* the string a value is; None = not a string *)
Variable new_l : dict V -> option I.          (* Interferometer called with the parameters *)
Variable new_t : dict V -> option I.          (* TriangularInterferometer called with the parameters *)
Inductive load := Loaded (i : I) | OSErr | OtherErr.
(** 412-418; None = eval raises *)
Definition read_param (st : option (dict V)) (line : txt) : option (dict V) :=
  match st with
  | None => None
  | Some d =>
      match line with
      | [] => None
      | c :: _ =>
          if Ascii.eqb c "#" || Ascii.eqb c nl then Some d
          else match split_eq line with
               | k :: rest => match ev (join_eq rest) with
                              | Some v => Some (dset d (string_of_list_ascii (strip_sp k)) v)
                              | None => None end
               | [] => None
               end
      end
  end.
Definition read_params (lines : list txt) : option (dict V) := fold_left read_param lines (Some []).
Definition made (o : option I) : load := match o with Some i => Loaded i | None => OtherErr end.
(** 407-432 *)
Definition load_ifo (lines : list txt) : load :=
  match read_params lines with
  | None => OtherErr
  | Some d =>
      match dget d "shape" with
      | None => made (new_l d)
      | Some v =>
          match as_str v with
          | None => OtherErr
          | Some s =>
              if String.eqb (lower s) "l" || String.eqb (lower s) "ligo" then made (new_l (ddel d "shape"))
              else if String.eqb (lower s) "triangular" || String.eqb (lower s) "triangle" then made (new_t (ddel d "shape"))
              else OSErr
          end
      end
  end.
(** 398-404; [files] is the directory of detector files; true = the ValueError of line 404, false = another error *)
Definition get_empty (files : string -> option (list txt)) (name : string) : I + bool :=
  match files (name ++ ".interferometer")%string with
  | None => inr true
  | Some lines => match load_ifo lines with Loaded i => inl i | OSErr => inr true | OtherErr => inr false end
  end.

(** ** __init__.py 210-297 [load_data_from_cache_file] *)
Record cache := mkCache { c_obs : string; c_from : Z; c_to : Z; c_path : string }.
Inductive cacheres := COk (i : I) (path : string) | CMany | CEmpty | CParse | CNoIfo | CNoData | CNoPsd.
Definition zlt_r (a : Z) (t : R) : bool := if Rlt_dec (IZR a) t then true else false.
Definition r_ltz (t : R) (a : Z) : bool := if Rlt_dec t (IZR a) then true else false.
(** the two set calls of 269-291 are taken to succeed; [parse] is lal's CacheEntry *)
Definition load_cache (parse : txt -> option cache) (files : string -> option (list txt)) (lines : list txt)
    (start dur psd_start psd_dur : R) : cacheres :=
  match lines with
  | _ :: _ :: _ => CMany
  | [] => CEmpty
  | [line] =>
      match parse line with
      | None => CParse
      | Some c =>
          let data_in := zlt_r (c_from c) start && r_ltz (start + dur) (c_to c) in
          let psd_in := zlt_r (c_from c) psd_start && r_ltz (psd_start + psd_dur) (c_to c) in
          match get_empty files (c_obs c ++ "1")%string with
          | inr _ => CNoIfo
          | inl i => if data_in then if psd_in then COk i (c_path c) else CNoPsd else CNoData
          end
      end
  end.
End Files.
Arguments load I : clear implicits.
Arguments cacheres I : clear implicits.
(** 334-337: str.split(':')[-2]; None = IndexError *)
Fixpoint split_colon (t : txt) : list txt :=
  match t with
  | [] => [[]]
  | c :: r => if Ascii.eqb c ":" then [] :: split_colon r
              else match split_colon r with p :: ps => (c :: p) :: ps | [] => [[c]] end
  end.
Definition channel_det (t : txt) : option txt :=
  match rev (split_colon t) with _ :: d :: _ => Some d | _ => None end.

(** ** interferometer.py 339-379 [check_signal_duration].
    [conv] is generate_all_bbh_parameters (None = AttributeError; other errors are left out), [merge_time f m1 m2]
    is lalsimulation's chirp time for masses in kg; gw/utils.py 1044-1075 *)
Section Check.
Variable conv : dict R -> option (dict R).
Variable merge_time : R -> R -> R -> R.
Variable solar_mass : R.
Inductive check := Pass | Warned | ErrAttribute | ErrKey | ErrValue.
Definition time_to_merger (f m1 m2 : R) : R := 1.1 * merge_time f (m1 * solar_mass) (m2 * solar_mass).
(** np.round(x, 1) *)
Definition round1 (x : R) : R := IZR (round_even (x * 10)) / 10.
Definition check_duration (p : dict R) (fmin dur : R) (raise_error : bool) : check :=
  match conv p with
  | None => Pass
  | Some q =>
      if negb (dmem q "mass_1") && negb (dmem q "mass_2") then (if raise_error then ErrAttribute else Pass)
      else match dget q "mass_1", dget q "mass_2" with
           | Some m1, Some m2 =>
               if Rlt_dec dur (round1 (time_to_merger fmin m1 m2)) then (if raise_error then ErrValue else Warned) else Pass
           | _, _ => ErrKey
           end
  end.
End Check.
