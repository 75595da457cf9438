(** bilby/gw/detector/interferometer.py 381-493, 508-638 and networks.py 127-180: injection of a signal
    into a detector and into a network, with the recorded signal-to-noise ratios; strain_data.py
    188-225 for the window factor. *)
From Coq Require Import Reals List Bool.
From Coquelicot Require Import Complex.
From Verif Require Import PyReal Series_Model GwInner_Model.
Import ListNotations.
Open Scope R_scope.

(** strain data: a series in time that has not been transformed yet, given by its windowed transform and the
    mean square of the window (strain_data.py 211-222), or data in frequency (208-209) *)
Inductive source := Pending (spectrum : list C) (window : R) | Data (X : list C).
Record meta {P : Type} := Meta { opt_snr : R; mf_snr : cres; pars : P }.
Arguments meta : clear implicits.
(** a detector; [curve] is its power spectral density at the frequencies of the data *)
Record det {P : Type} := Det { id : nat; mask : list bool; curve : list ext; dur : R; data : source; window_factor : R; md : option (meta P) }.
Arguments det : clear implicits.

(** an array at the mask: l[mask] *)
Definition sel {A} (m : list bool) (l : list A) : list A := map snd (filter fst (combine m l)).
(** strain * mask *)
Definition masked (m : list bool) (X : list C) : list C := map (fun p => if fst p : bool then snd p else RtoC 0) (combine m X).
Definition add (a b : list C) : list C := map (fun p => (fst p + snd p)%C) (combine a b).
(** psd * window_factor (interferometer.py 509-522) *)
Definition psd_array {P} (d : det P) : list ext := map (fun s => match s with Fin x => Fin (x * window_factor d) | Inf => Inf end) (curve d).
(** reading frequency_domain_strain: the data, and the detector afterwards (strain_data.py 205-225, 192) *)
Definition read_fd {P} (d : det P) : list C * det P :=
  match data d with
  | Data X => (masked (mask d) X, d)
  | Pending X w => (masked (mask d) X, Det P (id d) (mask d) (curve d) (dur d) (Data X) w (md d))
  end.
Definition with_data {P} (d : det P) (X : list C) : det P := Det P (id d) (mask d) (curve d) (dur d) (Data X) (window_factor d) (md d).
Definition with_meta {P} (d : det P) (m : meta P) : det P := Det P (id d) (mask d) (curve d) (dur d) (data d) (window_factor d) (Some m).
(** 565-580 *)
Definition det_optimal {P} (d : det P) (h : list C) : option C := optimal_snr_squared (sel (mask d) h) (sel (mask d) (psd_array d)) (dur d).
(** 620-637; reading the data may set the window factor, before the curve is read *)
Definition det_matched {P} (d : det P) (h : list C) : cres :=
  let (Y, d) := read_fd d in matched_filter_snr (sel (mask d) h) (sel (mask d) Y) (sel (mask d) (psd_array d)) (dur d).
Inductive outcome := Done | Err.

Section Injection.
Context {P W : Type}.
(** get_detector_response (288-337): zero outside the mask; None = an exception.  check_signal_duration
    (339-379): false = an exception.  frequency_domain_strain of the generator *)
Variables (response : nat -> W -> P -> option (list C)) (fits : nat -> P -> bool -> bool) (generate : P -> option W).
(** 461-493 *)
Definition inject_polarizations (d : det P) (p : P) (w : W) : outcome * det P :=
  match response (id d) w p with
  | None => (Err, d)
  | Some h =>
    let (Y, d1) := read_fd d in
    if Nat.eqb (length Y) (length h) then
      let d2 := with_data d1 (add Y h) in
      match det_optimal d2 h with
      | Some s => (Done, with_meta d2 (Meta P (fst (csqrt s)) (det_matched d2 h) p))
      | None => (Err, d2)
      end
    else (Err, d1)
  end.
(** 381-430; the second component is what is returned *)
Definition inject_signal (d : det P) (p : P) (w : option W) (generator : bool) (raise_error : bool) : outcome * option W * det P :=
  if negb (fits (id d) p raise_error) then (Err, None, d)
  else match w, generator with
  | None, false => (Err, None, d)
  | Some w, _ => let (o, d') := inject_polarizations d p w in (o, Some w, d')
  | None, true => match generate p with
                  | None => (Err, None, d)
                  | Some w => let (o, d') := inject_polarizations d p w in (o, Some w, d')
                  end
  end.
(** networks.py 164-178; an exception leaves the detectors after it as they are *)
Fixpoint inject_each (l : list (det P)) (p : P) (w : W) (raise_error : bool) : outcome * list W * list (det P) :=
  match l with
  | [] => (Done, [], [])
  | d :: t =>
    match inject_signal d p (Some w) false raise_error with
    | (Done, Some r, d') => let '(o, rs, t') := inject_each t p w raise_error in (o, r :: rs, d' :: t')
    | (_, _, d') => (Err, [], d' :: t)
    end
  end.
(** 153-162 *)
Definition inject_network (l : list (det P)) (p : P) (w : option W) (generator : bool) (raise_error : bool) : outcome * list W * list (det P) :=
  match w, generator with
  | Some w, _ => inject_each l p w raise_error
  | None, true => match generate p with Some w => inject_each l p w raise_error | None => (Err, [], l) end
  | None, false => (Err, [], l)
  end.
End Injection.
