(** Model of the reduced-order-quadrature likelihood, gw/likelihood/roq.py.
    Reals stand for floats, Coquelicot's [C] for numpy's complex numbers, a number drawn from an array is [V i].
    Values that the code computes as complex numbers with real interpolation coefficients are modelled by one real
    component, since real and imaginary part are interpolated separately. *)
From Coq Require Import Ascii String Reals ZArith List Bool Lra Lia.
From Coquelicot Require Import Complex.
From Verif Require Import PyDict Mband_Model.
Import ListNotations.
Open Scope list_scope.
Open Scope R_scope.

(** ** The time samples of the weights *)

(** roq.py 1185-1192 (the end of _get_time_resolution): [delta] is the resolution asked for by the SNR, [fny] the last
    entry of the frequency array, [T] the duration. The value itself, from simpson's rule (1142-1183), is left open. *)
Definition n_samples (T delta fny : R) : Z := round_up2 (Rmax (T / delta) (fny * T + 1)).
Definition resolution (T delta fny : R) : R := T / IZR (n_samples T delta fny).

(** roq.py 716: twice the radius of the Earth over c, plus five time steps; [cross] is the first summand. *)
Definition margin (cross ts : R) : R := cross + 5 * ts.
(** roq.py 717-724 *)
Definition start_idx (tmin t0 cross ts : R) : Z := Z.max 0 (zfloor ((tmin - margin cross ts - t0) / ts)).
(** roq.py 725-732 *)
Definition end_idx (tmax t0 cross ts : R) (n : Z) : Z := Z.min (n - 1) (zceil ((tmax + margin cross ts - t0) / ts)).
(** roq.py 733: np.arange(start, end + 1) * ts; [sample k] is entry k. *)
Definition n_time (s e : Z) : Z := Z.max 0 (e + 1 - s).
Definition sample (s : Z) (ts : R) (k : Z) : R := IZR (s + k) * ts.

(** ** Interpolation between five samples *)

(** int() of Python truncates towards zero. *)
Definition trunc (x : R) : Z := if Rle_dec 0 x then zfloor x else zceil x.
(** roq.py 522-544, _closest_time_indices: samples s0, s0 + dt, ...; the five indices are closest - 2 ... closest + 2. *)
Definition closest (s0 dt t : R) : Z := trunc ((t - s0) / dt).
Definition in_bounds (n c : Z) : bool := ((0 <=? c - 2) && (c + 2 <? n))%Z.
(** roq.py 546-572, _interp_five_samples; [d] is time_samples[1] - time_samples[0], [t3] is time_samples[3]. *)
Definition interp5 (d t3 v0 v1 v2 v3 v4 t : R) : R :=
  let r1 := (- v0 + 8 * v1 - 14 * v2 + 8 * v3 - v4) / 4 in
  let r2 := v2 - 2 * v3 + v4 in
  let a := (t3 - t) / d in
  let b := 1 - a in
  let c := (a ^ 3 - a) / 6 in
  let d := (b ^ 3 - b) / 6 in
  a * v2 + b * v3 + c * r1 + d * r2.
(** roq.py 489-504 (calculate_snrs): [None] stands for the value -inf given for a time out of bounds. *)
Definition dinnerh (V : Z -> R) (n : Z) (s0 dt t : R) : option R :=
  let c := closest s0 dt t in
  if in_bounds n c
  then Some (interp5 ((s0 + IZR (c - 1) * dt) - (s0 + IZR (c - 2) * dt)) (s0 + IZR (c + 1) * dt)
               (V (c - 2)%Z) (V (c - 1)%Z) (V c) (V (c + 1)%Z) (V (c + 2)%Z) t)
  else None.

(** Indexing of a numpy array of length n: negative indices count from the end, [None] is IndexError. *)
Definition np_get (V : Z -> R) (n i : Z) : option R :=
  if ((0 <=? i) && (i <? n))%Z then Some (V i)
  else if ((- n <=? i) && (i <? 0))%Z then Some (V (i + n)%Z) else None.
(** roq.py 574-619, _calculate_d_inner_h_array, one time. [None] stands for an IndexError.  The test of the spacing
    (599) chooses between two ways of computing the same five values and is left out. *)
Definition dinnerh_arr (V : Z -> R) (n : Z) (s0 dt t : R) : option R :=
  let x := (t - s0) / dt in
  let k := zfloor x in
  match np_get V n (k - 2), np_get V n (k - 1), np_get V n k, np_get V n (k + 1), np_get V n (k + 2) with
  | Some m2, Some m1, Some z, Some p1, Some p2 =>
      let b := x - IZR k in
      let a := 1 - b in
      let c := (a ^ 3 - a) / 6 in
      let d := (b ^ 3 - b) / 6 in
      let r1 := (- m2 + 8 * m1 - 14 * z + 8 * p1 - p2) / 4 in
      let r2 := z - 2 * p1 + p2 in
      Some (a * z + b * p1 + c * r1 + d * r2)
  | _, _, _, _, _ => None
  end.

(** ** The grid of the time marginalization *)

(** roq.py 294-305, _setup_time_marginalization; [delta] is the spacing asked for. *)
Definition tc_number (tmin tmax delta : R) : Z := zceil ((tmax - tmin) / delta).
Definition tc_delta (tmin tmax delta : R) : R := (tmax - tmin) / IZR (tc_number tmin tmax delta).
Definition tc_time (tmin tmax delta : R) (k : Z) : R :=
  let d := tc_delta tmin tmax delta in tmin + d / 2 + IZR k * d.

(** ** Weights *)

Definition csum {A} (f : A -> C) (l : list A) : C := fold_right (fun a s => Cplus (f a) s) (RtoC 0) l.
Definition rsum {A} (f : A -> R) (l : list A) : R := fold_right (fun a s => f a + s) 0 l.
Definition cis (x : R) : C := (cos x, sin x).

(** a[k] = v for an array of complex numbers, the array as a function of its index. *)
Definition aset (x : nat -> C) (k : nat) (v : C) : nat -> C := fun j => if Nat.eqb j k then v else x j.

Section Weights.
(** strain, PSD within the mask of one interferometer; [off] is the position in the frequency array of the first
    frequency of the mask, int(f0 * duration) (roq.py 844-845); [N] time samples, duration [T]. *)
Variables (strain : nat -> C) (psd : nat -> R) (off N : nat) (T : R).
(** pairs (ifo index, basis index), roq.py 769-804 *)
Variable pairs : list (nat * nat).

(** roq.py 863-868: the buffer is zeroed for every basis and interferometer; every basis element overwrites the same
    positions, in the order of the index array. *)
Definition fill (x : nat -> C) (belem : nat -> C) : nat -> C :=
  fold_left (fun x jq => aset x (fst jq + off)
                           (Cmult (Cdiv (strain (fst jq)) (RtoC (psd (fst jq)))) (Cconj (belem (snd jq))))) pairs x.
(** numpy.fft.ifft: x_n = 1/N sum_k X_k exp(2 pi i k n / N) *)
Definition ifft (x : nat -> C) (n : nat) : C :=
  Cmult (RtoC (/ INR N)) (csum (fun k => Cmult (x k) (cis (2 * PI * INR k * INR n / INR N))) (seq 0 N)).
(** roq.py 866-870: the loop over basis elements, reusing the buffer; the result is one row of weights per time index. *)
Fixpoint weights_loop (buf : nat -> C) (basis : list (nat -> C)) : list (nat -> C) :=
  match basis with
  | nil => nil
  | b :: t => let buf := fill buf b in
              (fun n => Cmult (RtoC (4 * INR N / T)) (ifft buf n)) :: weights_loop buf t
  end.
Definition weights_linear (basis : list (nat -> C)) : list (nat -> C) := weights_loop (fun _ => RtoC 0) basis.
(** roq.py 497-499: einsum of conj(h) and the weights at one time index. *)
Definition d_inner_h (basis : list (nat -> C)) (h : list C) (n : nat) : C :=
  csum (fun hw => Cmult (Cconj (fst hw)) (snd hw n)) (combine h (weights_linear basis)).
(** roq.py 942-947: real part of the basis, times 4 / T / psd. *)
Definition weights_quadratic (basis : list (nat -> C)) : list R :=
  map (fun b => 4 / T * rsum (fun jq => fst (b (snd jq)) * (1 / psd (fst jq))) pairs) basis.
(** roq.py 479-482: np.vdot(abs(h)**2, weights) *)
Definition optimal_snr_squared (basis : list (nat -> C)) (h : list C) : R :=
  rsum (fun hw => Cmod (fst hw) ^ 2 * snd hw) (combine h (weights_quadratic basis)).
End Weights.

(** ** Frequency nodes *)

(** np.unique: sorted, without repetition *)
Fixpoint insert (x : R) (l : list R) : list R :=
  match l with
  | nil => x :: nil
  | y :: t => if Rlt_dec x y then x :: l else if Req_EM_T x y then l else y :: insert x t
  end.
Definition unique (l : list R) : list R := fold_right insert nil l.
Fixpoint position (x : R) (l : list R) : nat :=
  match l with nil => 0%nat | y :: t => if Req_EM_T x y then 0%nat else S (position x t) end.
(** roq.py 272-292, for one pair of bases *)
Definition unique_nodes (lin quad : list R) : list R * list nat * list nat :=
  let u := unique (lin ++ quad) in
  let idx := map (fun x => position x u) (lin ++ quad) in
  (u, firstn (length lin) idx, skipn (length lin) idx).

(** ** Choice of the basis *)

(** prior ranges of the bases: per parameter the list of (minimum, maximum), one entry per basis *)
Definition ranges := dict (list (R * R)).
Definition geb (x y : R) : bool := if Rle_dec y x then true else false.
(** [in_prior_range *= cond] over the parameters, as a test of basis number i; a parameter that is absent is skipped *)
Definition all_params (cond : string -> R * R -> bool) (rs : ranges) (i : nat) : bool :=
  forallb (fun kv => cond (fst kv) (nth i (snd kv) (0, 0))) rs.
(** roq.py 342-374, _select_prior_ranges; [pri] gives the bounds of the prior of a parameter *)
Definition sel_cond (pri : string -> option (R * R)) (k : string) (r : R * R) : bool :=
  match pri k with None => true | Some (lo, hi) => geb (snd r) lo && geb hi (fst r) end.
Definition count (rs : ranges) : nat := match rs with nil => 0%nat | (_, l) :: _ => length l end.
Definition select_idxs (pri : string -> option (R * R)) (rs : ranges) : list nat :=
  filter (all_params (sel_cond pri) rs) (seq 0 (count rs)).
Definition take {A} (d : A) (idxs : list nat) (l : list A) : list A := map (fun i => nth i l d) idxs.
Definition select_ranges (pri : string -> option (R * R)) (rs : ranges) : ranges :=
  dmap (take (0, 0) (select_idxs pri rs)) rs.
(** roq.py 393-404, _update_basis for one kind of basis; [None] is the IndexError of [0] on an empty selection *)
Definition upd_cond (par : string -> option R) (k : string) (r : R * R) : bool :=
  match par k with None => true | Some v => geb v (fst r) && geb (snd r) v end.
Definition choose (par : string -> option R) (rs : ranges) (n : nat) : option nat :=
  if Nat.eqb n 1 then Some 0%nat else hd_error (filter (all_params (upd_cond par) rs) (seq 0 n)).
(** roq.py 224-251, _verify_prior_ranges; [true]: nothing raised. The minimum of an empty array is taken as 0. *)
Definition minl (l : list R) : R := match l with nil => 0 | x :: t => fold_left Rmin t x end.
Definition maxl (l : list R) : R := match l with nil => 0 | x :: t => fold_left Rmax t x end.
Definition verify (pri : string -> R * R) (rs : ranges) : bool :=
  forallb (fun kv => geb (fst (pri (fst kv))) (minl (map fst (snd kv)))
                     && geb (maxl (map snd (snd kv))) (snd (pri (fst kv)))) rs.

(** ** The cache of the basis number *)

Section Cache.
Context {P : Type} (peq : forall p q : P, {p = q} + {p <> q}) (lin quad : P -> option nat).
(** self._cache, initially dict(parameters=None, basis_number_linear=None, basis_number_quadratic=None) (roq.py 170) *)
Record cache := { c_par : option P; c_lin : option nat; c_quad : option nat }.
Definition cache0 : cache := {| c_par := None; c_lin := None; c_quad := None |}.
(** roq.py 376-411: the linear number is written before the quadratic one is looked up, the parameters last.
    [false]: an IndexError escaped. *)
Definition update (p : P) (c : cache) : bool * cache :=
  match lin p with
  | None => (false, c)
  | Some l =>
      let c := {| c_par := c_par c; c_lin := Some l; c_quad := c_quad c |} in
      match quad p with
      | None => (false, c)
      | Some q => (true, {| c_par := Some p; c_lin := Some l; c_quad := Some q |})
      end
  end.
(** roq.py 413-429, with more than one basis; result [None]: exception *)
Definition fresh (p : P) (c : cache) : bool := match c_par c with Some q => if peq p q then true else false | None => false end.
Definition read (f : cache -> option nat) (p : P) (c : cache) : option nat * cache :=
  if fresh p c then (f c, c) else let (ok, c') := update p c in (if ok then f c' else None, c').
End Cache.
Arguments cache : clear implicits.

(** ** Saving and loading *)

(** One kind of basis in self.weights: ranges and nodes may be absent; weights per interferometer, one entry per basis. *)
Record wts := { w_rng : option ranges; w_nodes : option (list (list R)); w_ifo : dict (list (list C)) }.
(** roq.py 1036-1057: an HDF5 group with one data set per basis, named str(i): pairs of the number and the data set. *)
Definition group A := list (nat * A).
Definition to_group {A} (l : list A) : group A := combine (seq 0 (length l)) l.
(** f[key][str(i)][()]; [None] is KeyError *)
Definition from_group {A} (g : group A) (i : nat) : option A :=
  match find (fun kv => Nat.eqb (fst kv) i) g with Some kv => Some (snd kv) | None => None end.
Record h5 := { h_rng : option ranges; h_nodes : option (group (list R)); h_ifo : dict (group (list C)) }.
Definition hdf5_save (w : wts) : h5 :=
  {| h_rng := w_rng w; h_nodes := option_map to_group (w_nodes w); h_ifo := dmap to_group (w_ifo w) |}.
(** roq.py 1106-1123 *)
Fixpoint opts {A} (l : list (option A)) : option (list A) :=
  match l with
  | nil => Some nil
  | None :: _ => None
  | Some x :: t => match opts t with Some r => Some (x :: r) | None => None end
  end.
Definition read_group {A} (idxs : list nat) (g : group A) : option (list A) := opts (map (from_group g) idxs).
Fixpoint read_ifos (idxs : list nat) (d : dict (group (list C))) : option (dict (list (list C))) :=
  match d with
  | nil => Some nil
  | (k, g) :: t => match read_group idxs g, read_ifos idxs t with
                   | Some l, Some r => Some ((k, l) :: r)
                   | _, _ => None
                   end
  end.
Definition hdf5_load (pri : string -> option (R * R)) (f : h5) : option wts :=
  let idxs := match h_rng f with Some rs => select_idxs pri rs | None => 0%nat :: nil end in
  let rng := match h_rng f with Some rs => Some (select_ranges pri rs) | None => None end in
  match h_nodes f with
  | None => match read_ifos idxs (h_ifo f) with Some i => Some {| w_rng := rng; w_nodes := None; w_ifo := i |} | None => None end
  | Some g => match read_group idxs g, read_ifos idxs (h_ifo f) with
              | Some l, Some i => Some {| w_rng := rng; w_nodes := Some l; w_ifo := i |}
              | _, _ => None
              end
  end.
(** roq.py 1020-1033 and 1091-1102, formats npz and json: only the first basis, without nodes and ranges;
    [None] is the ValueError for several bases. *)
Definition npz_save (nlin nquad : nat) (w : wts) : option (dict (list C)) :=
  if (Nat.ltb 1 nlin || Nat.ltb 1 nquad)%bool then None else Some (dmap (fun l => nth 0 l nil) (w_ifo w)).
Definition npz_load (f : dict (list C)) : wts :=
  {| w_rng := None; w_nodes := None; w_ifo := dmap (fun x => x :: nil) f |}.

(** roq.py 1017-1018: `format not in filename` is the substring test of Python *)
Fixpoint prefixb (p s : string) : bool :=
  match p, s with
  | EmptyString, _ => true
  | String a p', String b s' => Ascii.eqb a b && prefixb p' s'
  | _, _ => false
  end.
Fixpoint substr (p s : string) : bool :=
  prefixb p s || match s with EmptyString => false | String _ s' => substr p s' end.
Definition save_name (fmt name : string) : string := if substr fmt name then name else (name ++ "." ++ fmt)%string.
(** roq.py 1079-1082: filename.split(".")[-1] *)
Fixpoint last_part (acc s : string) : string :=
  match s with
  | EmptyString => acc
  | String c s' => if Ascii.eqb c "."%char then last_part EmptyString s' else last_part (acc ++ String c EmptyString)%string s'
  end.
Definition load_format (name : string) : option string :=
  let f := last_part EmptyString name in
  if (String.eqb f "json" || String.eqb f "npz" || String.eqb f "hdf5")%bool then Some f else None.
