(** bilby/gw/detector/interferometer.py 495-527, 729-761 ([save_data]), 126-149; psd.py 212-247, 335-341 and strain_data.py 576-607:
    data and amplitude spectral density of a detector written as text and read again. *)
From Coq Require Import Reals List Bool.
From Coquelicot Require Import Complex.
From Verif Require Import PyReal Series_Model GwInner_Model Inject_Model.
Import ListNotations.
Open Scope R_scope.

(** the two files: frequency, real and imaginary part; frequency and amplitude.  A number is written with 18 digits after the
    point of the mantissa, which gives a double back exactly; "inf" is read as infinity *)
Record files := Files { data_file : list R * list R * list R; asd_file : list R * list ext }.
(** 495-507; the root of the curve times the root of the window factor *)
Definition asd_array {P} (d : det P) : list ext := map (fun s => match s with Fin x => Fin (sqrt x * sqrt (window_factor d)) | Inf => Inf end) (curve d).
(** 751-761: the data are read first, which may set the window factor; [F] is the frequency array *)
Definition save_data {P} (F : list R) (d : det P) : files * det P :=
  let (Y, d) := read_fd d in (Files (F, map fst Y, map snd Y) (F, asd_array d), d).

Section Load.
Context {P : Type}.
(** interp1d of a curve given at frequencies *)
Variable interp : list R -> list ext -> R -> ext.
(** psd.py 222-226, 335-336: the square of the column is interpolated *)
Definition square (s : ext) : ext := match s with Fin x => Fin (x ^ 2) | Inf => Inf end.
(** a new detector with the number [i] and the mask of the user's frequency limits, given the two files:
    set_strain_data_from_frequency_domain_strain with the first column as frequency_array, which fixes the duration
    (series.py 74-83, the roundings left out), and power_spectral_density = PowerSpectralDensity(asd_file=...) *)
Definition load_data (i : nat) (mask : list bool) (f : files) : det P :=
  let '(F, re, im) := data_file f in
  let '(FA, A) := asd_file f in
  Det P i mask (map (interp FA (map square A)) F) (1 / (nth 1 F 0 - nth 0 F 0)) (Data (combine re im)) 1 None.
End Load.
