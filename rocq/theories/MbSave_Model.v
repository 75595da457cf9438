(** bilby/gw/likelihood/multiband.py 112-293 (settings), 630-695 (saving and restoring
    weights), 746-760 (buffers of the IFFT-FFT algorithm). *)
From Coq Require Import String Reals List Bool Arith DecimalString.
From Verif Require Import PyDict.
Import ListNotations.
Open Scope string_scope.
Open Scope list_scope.
Open Scope R_scope.

Inductive error := TypeError | KeyError | AttributeError | ZeroDivisionError.
Inductive res (A : Type) := Ok (a : A) | Err (e : error).
Arguments Ok {A} a. Arguments Err {A} e.

(** ** Default settings *)
(** 179-208: the default time offset.  [edge] is the end of the data, [lo] the prior minimum
    of the time parameter, [geo] whether that is geocent_time; [Re] and [c] are the radius of
    the Earth and the speed of light.  Without such a prior 2.12 s *)
Definition safety (Re c : R) (geo : bool) : R := if geo then Re / c else 2 * Re / c.
Definition time_offset (Re c edge : R) (geo : bool) (lo : option R) : R :=
  match lo with Some m => edge - m + safety Re c geo | None => 212 / 100 end.
(** 214-242: the default taper of the end; [hi] is the prior maximum *)
Definition delta_f_end (Re c edge : R) (geo : bool) (hi : option R) : res R :=
  match hi with
  | Some m => let t := edge - m - safety Re c geo in if Req_EM_T t 0 then Err ZeroDivisionError else Ok (100 / t)
  | None => Ok 53
  end.

(** ** Saving and restoring *)
Section Weights.
Context {A : Type}.
(** a number, a bool, an array or dictionary of arrays, lists of arrays by detector, and
    what is stored for the latter: dictionaries by band number *)
Inductive value := VNum (x : R) | VBool (b : bool) | VData (a : A) | VByBand (d : dict (list A)) | VSaved (d : dict (dict A)).
(** the attributes of the likelihood; "frequencies" stands for the waveform generator's argument *)
Definition obj := dict value.
(** the frequency of 257-260 for a mode and a chirp mass *)
Variable fmax : R -> R -> R.

Definition str (b : nat) : string := NilEmpty.string_of_uint (Nat.to_uint b).
Definition settings := ["reference_chirp_mass"; "highest_mode"; "linear_interpolation"; "accuracy_factor"; "time_offset";
  "delta_f_end"; "maximum_banding_frequency"; "minimum_banding_duration"].
Definition arrays := ["durations"; "fb_dfb"; "Nbs"; "Mbs"; "Ks_Ke"; "banded_frequency_points"; "start_end_idxs";
  "unique_to_original_frequencies"; "linear_coeffs"].
Definition by_band := ["wths"; "hbcs"; "Ibcs"].
Definition has (k : string) (l : list string) : bool := existsb (String.eqb k) l.

(** 650: lists become dictionaries with the keys '0', '1', ... *)
Definition enumerate (l : list A) : dict A := combine (map str (seq 0 (length l))) l.
Definition save_value (k : string) (v : value) : value :=
  match v with
  | VByBand d => if has k by_band then VSaved (dmap enumerate d) else v
  | _ => v
  end.
(** 642-651: the further keys, depending on the algorithm *)
Definition further (linear : bool) : list string :=
  if linear then ["quadratic_coeffs"] else ["Tbhats"; "windows"; "square_root_windows"] ++ by_band.
(** the attribute a key stands for (640-641, 691-692) *)
Definition attr (k : string) : string := if String.eqb k "waveform_frequencies" then "frequencies" else k.
Fixpoint collect (o : obj) (keys : list string) : res (dict value) :=
  match keys with
  | [] => Ok []
  | k :: t =>
      match dget o (attr k) with
      | None => Err AttributeError
      | Some v => match collect o t with Ok r => Ok ((k, save_value k v) :: r) | Err e => Err e end
      end
  end.
(** 630-653 the property weights *)
Definition weights (o : obj) : res (dict value) :=
  match dget o "linear_interpolation" with
  | Some (VBool b) => collect o (settings ++ arrays ++ ["waveform_frequencies"] ++ further b)
  | _ => Err AttributeError
  end.

(** the setters 120-293 as far as numbers and bools are concerned; a default that would be
    taken from the priors is not reached with saved weights *)
Definition set_attr (o : obj) (k : string) (v : value) : res obj :=
  if String.eqb k "maximum_banding_frequency" then
    match dget o "highest_mode", dget o "reference_chirp_mass" with
    | Some (VNum m), Some (VNum c) =>
        match v with
        | VNum x => Ok (dset o k (VNum (if Rlt_dec x (fmax m c) then x else fmax m c)))
        | _ => Err TypeError
        end
    | _, _ => Err AttributeError
    end
  else if String.eqb k "linear_interpolation" then match v with VBool _ => Ok (dset o k v) | _ => Err TypeError end
  else if has k settings then match v with VNum _ => Ok (dset o k v) | _ => Err TypeError end
  else Ok (dset o k v).
(** 688: the list of the arrays '0', '1', ..., as many as there are keys *)
Fixpoint gather (d : dict A) (bs : list nat) : res (list A) :=
  match bs with
  | [] => Ok []
  | b :: t =>
      match dget d (str b) with
      | None => Err KeyError
      | Some a => match gather d t with Ok r => Ok (a :: r) | Err e => Err e end
      end
  end.
Fixpoint gather_all (d : dict (dict A)) : res (dict (list A)) :=
  match d with
  | [] => Ok []
  | (i, x) :: t =>
      match gather x (seq 0 (length x)) with
      | Err e => Err e
      | Ok l => match gather_all t with Ok r => Ok ((i, l) :: r) | Err e => Err e end
      end
  end.
(** 682-695, one key *)
Definition load_one (o : obj) (kv : string * value) : res obj :=
  let '(k, v) := kv in
  if has k by_band then
    match v with
    | VSaved d => match gather_all d with Ok r => Ok (dset o k (VByBand r)) | Err e => Err e end
    | _ => Err AttributeError
    end
  else if String.eqb k "waveform_frequencies" then Ok (dset o "frequencies" v)
  else set_attr o k v.
Fixpoint load_all (o : obj) (l : list (string * value)) : res obj :=
  match l with [] => Ok o | kv :: t => match load_one o kv with Ok o' => load_all o' t | Err e => Err e end end.
(** 671-695 setup_multibanding_from_weights *)
Definition setup_from_weights (o : obj) (w : dict value) : res obj :=
  match dget w "reference_chirp_mass" with
  | None => Err KeyError
  | Some v => match set_attr o "reference_chirp_mass" v with
              | Ok o' => load_all o' (ddel w "reference_chirp_mass")
              | Err e => Err e
              end
  end.
End Weights.
Arguments value : clear implicits. Arguments obj : clear implicits.

(** ** The buffers (746-760) *)
(** buf[s:s+len] = vals *)
Definition write {X} (s : nat) (vals buf : list X) : list X := firstn s buf ++ vals ++ skipn (s + length vals) buf.
(** evaluation after evaluation; each sees the buffer with its own values written in *)
Fixpoint evaluations {X} (s : nat) (buf : list X) (vals : list (list X)) : list (list X) :=
  match vals with [] => [] | v :: t => let b := write s v buf in b :: evaluations s b t end.
