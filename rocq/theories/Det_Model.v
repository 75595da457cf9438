(** bilby/gw/detector/geometry.py, psd.py and the InterferometerList of networks.py *)
From Coq Require Import String Reals List ZArith Bool.
From Verif Require Import PyReal Interp_Model GwInner_Model.
Import ListNotations.
Open Scope R_scope.
Open Scope list_scope.

(** ** geometry.py *)
(** gw/utils.py 58-86 [get_vertex_position_geocentric] *)
Definition semi_major : R := 6378137.
Definition semi_minor : R := 6356752.314.
Definition vertex_position (lat lon h : R) : R * R * R :=
  let radius := semi_major ^ 2 * / sqrt (semi_major ^ 2 * cos lat ^ 2 + semi_minor ^ 2 * sin lat ^ 2) in
  ((radius + h) * cos lat * cos lon, (radius + h) * cos lat * sin lon, ((semi_minor / semi_major) ^ 2 * radius + h) * sin lat).

Section Geometry.
Context {V M : Type}.
Variable arm : R -> R -> R -> R -> V.     (* bilby_cython calculate_arm: tilt azimuth longitude latitude *)
Variable tensor : V -> V -> M.            (* bilby_cython detector_tensor *)
(** geometry.py 8-51, angles in radians as stored *)
Record geo := mkG { g_lat : R; g_lon : R; g_el : R; g_xa : R; g_ya : R; g_xt : R; g_yt : R;
  xu : bool; yu : bool; vu : bool; tu : bool; g_v : option (R * R * R); g_x : option V; g_y : option V; g_t : option M }.
Definition deg (x : R) : R := x * PI / 180.
Definition new_geo (lat lon el xa ya xt yt : R) : geo :=
  mkG (deg lat) (deg lon) el (deg xa) (deg ya) xt yt false false false false None None None None.
(** 77-82, 104-109, 131-134, 147-150, 163-166, 179-182, 195-198 *)
Inductive gset := SLat (v : R) | SLon (v : R) | SEl (v : R) | SXa (v : R) | SYa (v : R) | SXt (v : R) | SYt (v : R).
Definition gassign (s : geo) (o : gset) : geo :=
  match o with
  | SLat v => mkG (deg v) (g_lon s) (g_el s) (g_xa s) (g_ya s) (g_xt s) (g_yt s) false false false (tu s) (g_v s) (g_x s) (g_y s) (g_t s)
  | SLon v => mkG (g_lat s) (deg v) (g_el s) (g_xa s) (g_ya s) (g_xt s) (g_yt s) false false false (tu s) (g_v s) (g_x s) (g_y s) (g_t s)
  | SEl v => mkG (g_lat s) (g_lon s) v (g_xa s) (g_ya s) (g_xt s) (g_yt s) (xu s) (yu s) false (tu s) (g_v s) (g_x s) (g_y s) (g_t s)
  | SXa v => mkG (g_lat s) (g_lon s) (g_el s) (deg v) (g_ya s) (g_xt s) (g_yt s) false (yu s) (vu s) (tu s) (g_v s) (g_x s) (g_y s) (g_t s)
  | SYa v => mkG (g_lat s) (g_lon s) (g_el s) (g_xa s) (deg v) (g_xt s) (g_yt s) (xu s) false (vu s) (tu s) (g_v s) (g_x s) (g_y s) (g_t s)
  | SXt v => mkG (g_lat s) (g_lon s) (g_el s) (g_xa s) (g_ya s) v (g_yt s) false (yu s) (vu s) (tu s) (g_v s) (g_x s) (g_y s) (g_t s)
  | SYt v => mkG (g_lat s) (g_lon s) (g_el s) (g_xa s) (g_ya s) (g_xt s) v (xu s) false (vu s) (tu s) (g_v s) (g_x s) (g_y s) (g_t s)
  end.
(** 67-75, 94-102, 136-145, 152-161 *)
Definition degrees (x : R) : R := x * 180 / PI.
(** 200-214 *)
Definition get_vertex (s : geo) : option (R * R * R) * geo :=
  if vu s then (g_v s, s) else
  let v := Some (vertex_position (g_lat s) (g_lon s) (g_el s)) in
  (v, mkG (g_lat s) (g_lon s) (g_el s) (g_xa s) (g_ya s) (g_xt s) (g_yt s) (xu s) (yu s) true (tu s) v (g_x s) (g_y s) (g_t s)).
(** 216-231, 291-297 *)
Definition get_x (s : geo) : option V * geo :=
  if xu s then (g_x s, s) else
  let x := Some (arm (g_xt s) (g_xa s) (g_lon s) (g_lat s)) in
  (x, mkG (g_lat s) (g_lon s) (g_el s) (g_xa s) (g_ya s) (g_xt s) (g_yt s) true (yu s) (vu s) false (g_v s) x (g_y s) (g_t s)).
(** 233-248, 298-304 *)
Definition get_y (s : geo) : option V * geo :=
  if yu s then (g_y s, s) else
  let y := Some (arm (g_yt s) (g_ya s) (g_lon s) (g_lat s)) in
  (y, mkG (g_lat s) (g_lon s) (g_el s) (g_xa s) (g_ya s) (g_xt s) (g_yt s) (xu s) true (vu s) false (g_v s) (g_x s) y (g_t s)).
(** 250-269 *)
Definition get_tensor (s : geo) : option M * geo :=
  let s1 := if negb (xu s) || negb (yu s) then snd (get_y (snd (get_x s))) else s in
  if tu s1 then (g_t s1, s1) else
  let '(x, s2) := get_x s1 in let '(y, s3) := get_y s2 in
  let t := match x, y with Some a, Some b => Some (tensor a b) | _, _ => None end in
  (t, mkG (g_lat s3) (g_lon s3) (g_el s3) (g_xa s3) (g_ya s3) (g_xt s3) (g_yt s3) (xu s3) (yu s3) (vu s3) true (g_v s3) (g_x s3) (g_y s3) t).
Inductive gop := GSet (o : gset) | GVertex | GX | GY | GTensor.
Definition gstep (s : geo) (o : gop) : geo :=
  match o with GSet a => gassign s a | GVertex => snd (get_vertex s) | GX => snd (get_x s) | GY => snd (get_y s) | GTensor => snd (get_tensor s) end.
Definition grun (s : geo) (l : list gop) : geo := fold_left gstep l s.
End Geometry.

(** networks.py 325-365: (latitude, longitude, x azimuth, y azimuth) of the three interferometers;
    [Re] = radius_of_earth, angles in degrees, length in km *)
Definition tri_next (Re len : R) (q : R * R * R * R) : R * R * R * R :=
  let '(lat, lon, xa, ya) := q in
  let xa' := xa + 240 in let ya' := ya + 240 in
  (lat + atan (len * sin (xa' * PI / 180) * 1000 / Re) * 180 / PI, lon + atan (len * cos (xa' * PI / 180) * 1000 / Re) * 180 / PI, xa', ya').
Definition triangle (Re len : R) (q : R * R * R * R) : list (R * R * R * R) :=
  let q1 := tri_next Re len q in [q; q1; tri_next Re len q1].

(** ** psd.py *)
(** scipy interp1d(frequency_array, psd_array, bounds_error=False, fill_value=inf) for increasing frequencies;
    None = nan *)
Definition psd_at (f p : list R) (x : R) : option ext :=
  let l := combine f p in
  if Rlt_dec x (first_x l) then Some Inf else if Rlt_dec (last_x l 0) x then Some Inf else
  match interp_in l x with Some y => Some (Fin y) | None => None end.
Definition ext_sqrt (e : option ext) : option ext := match e with Some (Fin x) => Some (Fin (sqrt x)) | r => r end.
Fixpoint arr_eq (a b : list R) : bool :=
  match a, b with [], [] => true | x :: a', y :: b' => if Req_EM_T x y then arr_eq a' b' else false | _, _ => false end.
(** 13-57; [nodes] the arrays the interpolation was built from (None = not yet), [cf], [cp], [ca] the cache *)
Record psd := mkP { p_f : list R; p_psd : list R; p_asd : list R; nodes : option (list R * list R);
                    cf : list R; cp : option (list (option ext)); ca : option (list (option ext)) }.
Definition blank (f : list R) : psd := mkP f [] [] None [] None None.
(** 59-63; None = AttributeError (no interpolation yet) *)
Definition update_cache (s : psd) (f : list R) : option psd :=
  match nodes s with
  | Some (nf, np) => let v := map (psd_at nf np) f in
      Some (mkP (p_f s) (p_psd s) (p_asd s) (nodes s) f (Some v) (Some (map ext_sqrt v)))
  | None => None
  end.
(** 234-242 *)
Definition interpolate (s : psd) : psd :=
  let s1 := mkP (p_f s) (p_psd s) (p_asd s) (Some (p_f s, p_psd s)) (cf s) (cp s) (ca s) in
  match update_cache s1 (p_f s) with Some s2 => s2 | None => s1 end.
(** 210-215, 221-226, 228-232; false = ValueError *)
Definition set_psd (s : psd) (v : list R) : bool * psd :=
  if Nat.eqb (length (p_f s)) (length v) then (true, interpolate (mkP (p_f s) v (map sqrt v) (nodes s) (cf s) (cp s) (ca s))) else (false, s).
Definition set_asd (s : psd) (v : list R) : bool * psd :=
  if Nat.eqb (length (p_f s)) (length v) then (true, interpolate (mkP (p_f s) (map (fun a => a ^ 2) v) v (nodes s) (cf s) (cp s) (ca s))) else (false, s).
(** the plain attribute *)
Definition set_f (s : psd) (f : list R) : psd := mkP f (p_psd s) (p_asd s) (nodes s) (cf s) (cp s) (ca s).
(** 244-252; None = exception *)
Definition refresh (s : psd) (f : list R) : option psd := if arr_eq f (cf s) then Some s else update_cache s f.
Definition get_psd (s : psd) (f : list R) : option (list (option ext)) * psd :=
  match refresh s f with Some s1 => (cp s1, s1) | None => (None, s) end.
Definition get_asd (s : psd) (f : list R) : option (list (option ext)) * psd :=
  match refresh s f with Some s1 => (ca s1, s1) | None => (None, s) end.
(** 336-342, with the two columns of the file *)
Definition load_psd (s : psd) (f v : list R) : bool * psd := set_psd (set_f s f) v.
Definition load_asd (s : psd) (f v : list R) : bool * psd := set_asd (set_f s f) v.
Inductive pop := PPsd (v : list R) | PAsd (v : list R) | PF (f : list R) | PFilePsd (f v : list R) | PFileAsd (f v : list R) | PGet (f : list R) | PGetA (f : list R).
Definition pstep (s : psd) (o : pop) : psd :=
  match o with
  | PPsd v => snd (set_psd s v) | PAsd v => snd (set_asd s v) | PF f => set_f s f
  | PFilePsd f v => snd (load_psd s f v) | PFileAsd f v => snd (load_asd s f v)
  | PGet f => snd (get_psd s f) | PGetA f => snd (get_asd s f) end.
Definition prun (s : psd) (l : list pop) : psd := fold_left pstep l s.
Definition ok (r : bool * psd) : option psd := if fst r then Some (snd r) else None.
Definition bind (x : option psd) (k : psd -> option psd) : option psd := match x with Some s => k s | None => None end.
(** 13-57: the constructor; None = ValueError *)
Definition make (f : list R) (pv av : option (list R)) (fp fa : option (list R * list R)) : option psd :=
  bind (match pv with Some v => ok (set_psd (blank f) v) | None => Some (blank f) end) (fun s =>
  bind (match av with Some v => ok (set_asd s v) | None => Some s end) (fun s =>
  bind (match fp with Some (g, v) => ok (load_psd s g v) | None => Some s end) (fun s =>
  match fa with Some (g, v) => ok (load_asd s g v) | None => Some s end))).
(** 361-366: one bin of a noise realisation; [w] the white noise (real or imaginary part), None = nan or inf *)
Definition noise_bin (s : psd) (f w : R) : option R :=
  if Rlt_dec f (fold_right Rmin (hd 0 (p_f s)) (p_f s)) then Some 0 else
  if Rlt_dec (fold_right Rmax (hd 0 (p_f s)) (p_f s)) f then Some 0 else
  match nodes s with
  | Some (nf, np) => match ext_sqrt (psd_at nf np f) with Some (Fin a) => Some (a * w) | _ => None end
  | None => None
  end.
(** interferometer.py 494-522 *)
Definition times (c : R) (e : option ext) : option ext := match e with Some (Fin x) => Some (Fin (x * c)) | r => r end.

(** ** networks.py: InterferometerList; a detector is its duration, start time and sampling frequency, None = not set *)
Record ifo := mkI { i_dur : option R; i_start : option R; i_fs : option R }.
Inductive lres := LOk | LValueError | LTypeError.
(** math.isclose(a, b, abs_tol=1e-5), rel_tol = 1e-9 *)
Definition isclose (a b : R) : bool :=
  if Rle_dec (Rabs (a - b)) (Rmax (/ 10 ^ 9 * Rmax (Rabs a) (Rabs b)) (/ 10 ^ 5)) then true else false.
Definition oeq (a b : option R) : bool :=
  match a, b with Some x, Some y => if Req_EM_T x y then true else false | None, None => true | _, _ => false end.
(** 71: all(isclose ...), stopping at the first False *)
Fixpoint all_close (x0 : option R) (l : list (option R)) : lres :=
  match l with
  | [] => LOk
  | y :: t => match y, x0 with
      | Some a, Some b => if isclose a b then all_close x0 t else LValueError
      | _, _ => LTypeError end
  end.
(** 50-74 for one attribute *)
Definition check_attr (x : list (option R)) : lres :=
  if forallb (fun y => oeq y (hd None x)) x then LOk else all_close (hd None x) x.
(** 41-74 *)
Definition check (l : list ifo) : lres :=
  match check_attr (map i_dur l) with
  | LOk => match check_attr (map i_start l) with LOk => check_attr (map i_fs l) | e => e end
  | e => e end.
(** 227-240; python's list.insert counts negative indices from the end and clips *)
Inductive lop := LAppend (x : ifo) | LExtend (l : list ifo) | LInsert (k : Z) (x : ifo).
Definition list_op (l : list ifo) (o : lop) : list ifo :=
  match o with
  | LAppend x => l ++ [x] | LExtend m => l ++ m
  | LInsert k x => let n := Z.of_nat (length l) in let i := Z.to_nat (Z.min n (if (k <? 0)%Z then Z.max 0 (n + k) else k)) in firstn i l ++ x :: skipn i l
  end.
Definition lstep (l : list ifo) (o : lop) : lres * list ifo := (check (list_op l o), list_op l o).
(** 27-39 *)
Fixpoint build (acc : list ifo) (l : list ifo) : lres * list ifo :=
  match l with [] => (check acc, acc) | x :: t => match lstep acc (LAppend x) with (LOk, a) => build a t | r => r end end.
(** 242-247: the meta_data dictionary, from names to entries *)
Fixpoint meta {A} (l : list (string * A)) (d : list (string * A)) : list (string * A) :=
  match l with
  | [] => d
  | (n, v) :: t => meta t (if existsb (fun p => String.eqb (fst p) n) d then map (fun p => if String.eqb (fst p) n then (n, v) else p) d else d ++ [(n, v)])
  end.
