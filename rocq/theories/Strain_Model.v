(** bilby/gw/detector/strain_data.py: InterferometerStrainData, Notch, NotchList.
    Times and frequencies are real; [tukey] is scipy's window. *)
From Coq Require Import Reals List ZArith Bool.
From Coquelicot Require Import Complex.
From Verif Require Import PyReal Series_Model.
Import ListNotations.
Open Scope R_scope.

(** ** Notches *)
(** 732-749 [Notch.__init__]; an infinite maximum is not a real number, None = ValueError *)
Definition mk_notch (lo hi : R) : option (R * R) :=
  if Rlt_dec 0 lo then if Rlt_dec lo hi then Some (lo, hi) else None else None.
(** 751-767, for one entry of the frequency array *)
Definition in_idxs (n : R * R) (f : R) : bool :=
  (if Rlt_dec (fst n) f then true else false) && (if Rlt_dec f (snd n) then true else false).
(** 769-786 *)
Definition check_notch (n : R * R) (f : R) : bool := if Rlt_dec (fst n) f then if Rlt_dec f (snd n) then true else false else false.
(** the elements of the list given to NotchList: tuples of numbers, or ready-made Notch objects *)
Inductive nelem := Tup (l : list R) | Ready (n : R * R).
(** 789-811 [NotchList.__init__]; None = ValueError *)
Fixpoint mk_notches (l : list nelem) : option (list (R * R)) :=
  match l with
  | [] => Some []
  | Tup [lo; hi] :: t => match mk_notch lo hi, mk_notches t with Some n, Some r => Some (n :: r) | _, _ => None end
  | _ :: _ => None
  end.
(** 813-830 *)
Definition check_notches (l : list (R * R)) (f : R) : bool := existsb (fun n => check_notch n f) l.
(** what is assigned to notch_list: None, a list, or a NotchList *)
Inductive narg := NoNotch | AList (l : list nelem) | ANotchList (l : list (R * R)).
(** 117-136: NotchList is a subclass of list, so the test in 130 catches it before 132 *)
Definition notch_arg (a : narg) : option (list (R * R)) :=
  match a with
  | NoNotch => Some []
  | AList l => mk_notches l
  | ANotchList l => mk_notches (map Ready l)
  end.

(** ** The strain data object *)
Section Strain.
Variable tukey : nat -> R -> list R.
Notation rcts := (@cts R (list R) (list R)).
Definition t_f := @get_f R (list R) (list R) create_frequency_series.
Definition t_t := @get_t R (list R) (list R) create_time_series.
Definition t_step := @cstep R (list R) (list R) create_frequency_series create_time_series from_frequency_array from_time_array (fun l => hd 0 l).
(** 18-51; [mx] None = infinity *)
Record sd := mkS { mn : R; mx : option R; notch : list (R * R); roll : R; wf : R; tf : rcts;
                   mok : bool; mask : option (list bool); fd : option (list C); td : option (list R) }.
Definition new_sd (lo : R) (hi : option R) (nl : list (R * R)) (r : R) : sd :=
  mkS lo hi nl r 1 (new_cts None None 0) false None None None.
Definition with_tf (s : sd) (c : rcts) : sd := mkS (mn s) (mx s) (notch s) (roll s) (wf s) c (mok s) (mask s) (fd s) (td s).
(** 100-106 *)
Definition get_max (s : sd) : option R * sd :=
  match c_fs (tf s) with
  | None => (mx s, s)
  | Some f =>
      let low := (Some (f / 2), mkS (mn s) (Some (f / 2)) (notch s) (roll s) (wf s) (tf s) (mok s) (mask s) (fd s) (td s)) in
      match mx s with
      | None => low
      | Some m => if Rlt_dec f (2 * m) then low else (Some m, s)
      end
  end.
(** 149-152 for one frequency *)
Definition mask_at (lo : R) (hi : option R) (nl : list (R * R)) (f : R) : bool :=
  (if Rle_dec lo f then true else false)
  && match hi with Some h => if Rle_dec f h then true else false | None => true end
  && negb (existsb (fun n => in_idxs n f) nl).
(** 138-155; None = exception *)
Definition get_mask (s : sd) : option (list bool) * sd :=
  if mok s then (mask s, s) else
  match t_f (tf s) with
  | (Some F, c) =>
      let '(hi, s1) := get_max (with_tf s c) in
      let m := map (mask_at (mn s1) hi (notch s1)) F in
      (Some m, mkS (mn s1) (mx s1) (notch s1) (roll s1) (wf s1) (tf s1) true (Some m) (fd s1) (td s1))
  | (None, c) => (None, with_tf s c)
  end.
(** strain * mask; None = ValueError of arrays that do not fit *)
Definition apply_mask (X : list C) (m : list bool) : option (list C) :=
  if Nat.eqb (length X) (length m) then Some (map (fun p => if snd p : bool then fst p else RtoC 0) (combine X m)) else None.
Definition masked (X : list C) (s : sd) : option (list C) * sd :=
  match get_mask s with (Some m, s1) => (apply_mask X m, s1) | (None, s1) => (None, s1) end.
(** np.mean *)
Definition mean (l : list R) : R := fold_right Rplus 0 l / INR (length l).
(** 166-193 without arguments, and 225-226: window, window factor, transform; None = exception (no duration) *)
Definition windowed (s : sd) (x : list R) : option (list R * list R) :=
  match c_T (tf s) with
  | Some T => let w := tukey (length x) (2 * roll s / T) in Some (w, map (fun p => fst p * snd p) (combine x w))
  | None => None
  end.
(** 208-229 *)
Definition get_fd (s : sd) : option (list C) * sd :=
  match fd s with
  | Some X => masked X s
  | None =>
      match td s with
      | None => (None, s)
      | Some x =>
          match windowed s x, c_fs (tf s) with
          | Some (w, y), Some fs =>
              let '(X, F) := nfft y fs in
              let s1 := mkS (mn s) (mx s) (notch s) (roll s) (mean (map (fun v => v ^ 2) w)) (t_step (tf s) (SetF F)) (mok s) (mask s) (Some X) (td s) in
              match from_frequency_array F with None => (None, s1) | Some _ => masked X s1 end
          | _, _ => (None, s)
          end
      end
  end.
(** 195-206 *)
Definition get_td (s : sd) : option (list R) * sd :=
  match td s with
  | Some x => (Some x, s)
  | None =>
      match fd s with
      | None => (None, s)
      | Some _ =>
          match get_fd s with
          | (Some X, s1) =>
              match c_fs (tf s1) with
              | Some fs => match infft X fs with
                  | Some x => (Some x, mkS (mn s1) (mx s1) (notch s1) (roll s1) (wf s1) (tf s1) (mok s1) (mask s1) (fd s1) (Some x))
                  | None => (None, s1) end
              | None => (None, s1)
              end
          | (None, s1) => (None, s1)
          end
      end
  end.
(** how a set_from_... call says which times or frequencies the data have: sampling frequency, duration and
    start time; an array; or anything 441-460 refuses *)
Inductive dep := Rate (fs T t0 : R) | Arr (l : list R) (t0 : R) | Wrong.
(** 441-463; the flag is false when an exception is raised *)
Definition infer (time : bool) (d : dep) (s : sd) : bool * sd :=
  match d with
  | Wrong => (false, s)
  | Rate fs T t0 => (true, with_tf s (new_cts (Some fs) (Some T) t0))
  | Arr l t0 =>
      if time then (match from_time_array l with Some _ => true | None => false end, with_tf s (t_step (tf s) (SetTime l)))
      else match from_frequency_array l with
           | Some _ => (true, with_tf s (t_step (t_step (tf s) (SetF l)) (SetT0 t0)))
           | None => (false, with_tf s (t_step (tf s) (SetF l))) end
  end.
(** 465-499 *)
Definition set_from_td (x : list R) (d : dep) (s : sd) : bool * sd :=
  match infer true d s with
  | (false, s1) => (false, s1)
  | (true, s1) =>
      match t_t (tf s1) with
      | (Some t, c) => let s2 := with_tf s1 c in
          if Nat.eqb (length x) (length t) then (true, mkS (mn s2) (mx s2) (notch s2) (roll s2) (wf s2) (tf s2) (mok s2) (mask s2) None (Some x)) else (false, s2)
      | (None, c) => (false, with_tf s1 c)
      end
  end.
(** 576-607 *)
Definition set_from_fd (X : list C) (d : dep) (s : sd) : bool * sd :=
  match infer false d s with
  | (false, s1) => (false, s1)
  | (true, s1) =>
      match t_f (tf s1) with
      | (Some F, c) => let s2 := with_tf s1 c in
          if Nat.eqb (length X) (length F) then (true, mkS (mn s2) (mx s2) (notch s2) (roll s2) 1 (tf s2) (mok s2) (mask s2) (Some X) (td s2)) else (false, s2)
      | (None, c) => (false, with_tf s1 c)
      end
  end.
(** 609-640; [X] is the noise realisation for these frequencies *)
Definition set_from_psd (X : list C) (fs T t0 : R) (s : sd) : bool * sd :=
  match t_f (new_cts (Some fs) (Some T) t0) with
  | (Some F, c) => let s2 := with_tf s c in
      if Nat.eqb (length X) (length F) then (true, mkS (mn s2) (mx s2) (notch s2) (roll s2) (wf s2) (tf s2) (mok s2) (mask s2) (Some X) (td s2)) else (false, s2)
  | (None, c) => (false, with_tf s c)
  end.
(** 642-661 *)
Definition set_from_zero (fs T t0 : R) (s : sd) : bool * sd :=
  match t_f (new_cts (Some fs) (Some T) t0) with
  | (Some F, c) => let s2 := with_tf s c in
      (true, mkS (mn s2) (mx s2) (notch s2) (roll s2) (wf s2) (tf s2) (mok s2) (mask s2) (Some (map (fun _ => RtoC 0) F)) (td s2))
  | (None, c) => (false, with_tf s c)
  end.
(** 231-236 *)
Definition assign_fd (X : list C) (s : sd) : bool * sd :=
  match t_f (tf s) with
  | (Some F, c) => let s2 := with_tf s c in
      if Nat.eqb (length F) (length X) then (true, mkS (mn s2) (mx s2) (notch s2) (roll s2) (wf s2) (tf s2) (mok s2) (mask s2) (Some X) None) else (false, s2)
  | (None, c) => (false, with_tf s c)
  end.
(** 95-98, 108-111, 117-136; [OAppend]: notch_list.append(...) on the list itself *)
Inductive sop := OMin (v : R) | OMax (v : option R) | ONotch (a : narg) | OAppend (n : R * R) | ORoll (r : R)
  | GMax | GMask | GFd | GTd | AFd (X : list C)
  | STd (x : list R) (d : dep) | SFd (X : list C) (d : dep) | SPsd (X : list C) (fs T t0 : R) | SZero (fs T t0 : R).
Definition sstep (s : sd) (o : sop) : sd :=
  match o with
  | OMin v => mkS v (mx s) (notch s) (roll s) (wf s) (tf s) false (mask s) (fd s) (td s)
  | OMax v => mkS (mn s) v (notch s) (roll s) (wf s) (tf s) false (mask s) (fd s) (td s)
  | ONotch a => match notch_arg a with
      | Some l => mkS (mn s) (mx s) l (roll s) (wf s) (tf s) false (mask s) (fd s) (td s)
      | None => s end
  | OAppend n => mkS (mn s) (mx s) (notch s ++ [n]) (roll s) (wf s) (tf s) (mok s) (mask s) (fd s) (td s)
  | ORoll r => mkS (mn s) (mx s) (notch s) r (wf s) (tf s) (mok s) (mask s) (fd s) (td s)
  | GMax => snd (get_max s)
  | GMask => snd (get_mask s)
  | GFd => snd (get_fd s)
  | GTd => snd (get_td s)
  | AFd X => snd (assign_fd X s)
  | STd x d => snd (set_from_td x d s)
  | SFd X d => snd (set_from_fd X d s)
  | SPsd X fs T t0 => snd (set_from_psd X fs T t0 s)
  | SZero fs T t0 => snd (set_from_zero fs T t0 s)
  end.
Definition srun (s : sd) (l : list sop) : sd := fold_left sstep l s.
(** gw/detector/interferometer.py 479-480: frequency_domain_strain += signal *)
Definition inject (h : list C) (s : sd) : bool * sd :=
  match get_fd s with
  | (Some X, s1) => if Nat.eqb (length X) (length h) then assign_fd (map (fun p => (fst p + snd p)%C) (combine X h)) s1 else (false, s1)
  | (None, s1) => (false, s1)
  end.
(** 394-405: the samples used for a PSD; [start] the analysis segment.  The comparison in 398-399 is
    python's chained  start > (t[0] + end) < t[-1] *)
Definition psd_data (t x : list R) (fft : R) (start : option R) : list R :=
  match start with
  | None => x
  | Some a =>
      let b := a + fft in
      if Rlt_dec (hd 0 t + b) a then
        if Rlt_dec (hd 0 t + b) (last t 0) then
          map snd (filter (fun p => (if Rlt_dec (fst p) a then true else false) || (if Rlt_dec b (fst p) then true else false)) (combine t x))
        else x
      else x
  end.
End Strain.
