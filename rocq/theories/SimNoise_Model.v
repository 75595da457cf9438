(** bilby/core/utils/series.py 153-188 and bilby/gw/detector/psd.py 344-366: simulated noise. *)
From Coq Require Import Reals List ZArith Bool.
From Coquelicot Require Import Complex.
From Verif Require Import PyReal GwInner_Model Series_Model.
Import ListNotations.
Open Scope R_scope.

Fixpoint set_last {A} (l : list A) (v : A) : list A := match l with [] => [] | [_] => [v] | x :: t => x :: set_last t v end.
Definition set_first {A} (l : list A) (v : A) : list A := match l with [] => [] | _ :: t => v :: t end.
(** series.py 153-188; [re] and [im] are the standard normal draws, which rng.normal(0, norm1, ...) scales *)
Definition white_noise (fs T : R) (re im : nat -> R) : option (list C * list R) :=
  let n := round_even (T * fs) in
  match create_frequency_series fs T with
  | None => None
  | Some F =>
    let norm1 := / 2 * sqrt T in
    let w := map (fun k => (norm1 * re k, norm1 * im k) : C) (seq 0 (length F)) in
    let w := set_first w (RtoC 0) in
    Some ((if Z.even n then set_last w (RtoC 0) else w), F)
  end.
(** psd.py 344-366; the curve is [S] between the smallest and largest of its frequencies and infinite
    outside, where the noise is set to zero *)
Definition noise_realisation (S : R -> R) (lo hi fs T : R) (re im : nat -> R) : option (list C * list R) :=
  match white_noise fs T re im with
  | None => None
  | Some (w, F) =>
    Some (map (fun p => if Rlt_dec (snd p) lo then RtoC 0 else if Rlt_dec hi (snd p) then RtoC 0 else (RtoC (sqrt (S (snd p))) * fst p)%C) (combine w F), F)
  end.
(** psd.py 236-241: the array of the curve at given frequencies *)
Definition psd_values (S : R -> R) (lo hi : R) (F : list R) : list ext :=
  map (fun f => if Rlt_dec f lo then Inf else if Rlt_dec hi f then Inf else Fin (S f)) F.
