(** Sky-map priors and the trapezoidal pixel transform.
    Source: bilby/gw/prior.py 1317-1627 (HealPixMapPriorDist).
    Simplified: healpy's ang2pix and pix2ang are arbitrary functions, pixels are numbered 0..npix-1,
    arithmetic is exact, minus infinity is [None]; bounds are finite numbers. *)
From Coq Require Import Reals Lra Lia ZArith List.
Import ListNotations.
Local Open Scope R_scope.

(** finite sum of a vector *)
Fixpoint psum (n : nat) (f : nat -> R) : R := match n with O => 0 | S m => psum m f + f m end.

(** prior.py 1466-1484 [_check_norm]: divide by the 1-norm (by the smallest number if that is zero) *)
Definition check_norm (eps : R) (n : nat) (a : nat -> R) : nat -> R :=
  let norm := psum n (fun i => Rabs (a i)) in
  fun i => a i / (if Req_EM_T norm 0 then eps else norm).

(** prior.py 1385-1394 [_build_attributes]: trapezoidal integral of the table up to pixel [k] *)
Fixpoint cumtrap (p : nat -> R) (k : nat) : R :=
  match k with O => 0 | S j => cumtrap p j + (p j + p (S j)) / 2 end.
(** prior.py 1391-1393: normalised, last entry 1 ([n] is the number of the last pixel) *)
Definition YY (p : nat -> R) (n k : nat) : R := cumtrap p k / cumtrap p n.

(** prior.py 1394: interp1d(YY, pix): the first entry [j+1 >= 1] with [u <= YY (j+1)] ends the segment used *)
Fixpoint segment (Y : nat -> R) (u : R) (j left : nat) : nat :=
  match left with O => j | S l => if Rle_dec u (Y (S j)) then j else segment Y u (S j) l end.
Definition inverse_cdf (p : nat -> R) (n : nat) (u : R) : option R :=
  if Rlt_dec u 0 then None else if Rlt_dec 1 u then None else
  let j := segment (YY p n) u 0 (n - 1) in
  Some (INR j + (u - YY p n j) / (YY p n (S j) - YY p n j)).

(** Python's round: to the nearest integer, ties to even *)
Definition zfloor (x : R) : Z := (up x - 1)%Z.
Definition pyround (x : R) : Z :=
  let n := zfloor x in
  if Rlt_dec (x - IZR n) (1/2) then n
  else if Rlt_dec (1/2) (x - IZR n) then (n + 1)%Z
  else if Z.even n then n else (n + 1)%Z.

(** prior.py 1429-1435: the pixel a number of the unit interval is sent to *)
Definition rescale_pixel (p : nat -> R) (n : nat) (u : R) : option Z :=
  match inverse_cdf p n u with Some x => Some (pyround x) | None => None end.

(** prior.py 1571-1594 [check_in_pixel] *)
Definition check_in_pixel (ang2pix : R -> R -> nat) (bra bdec : R * R) (ra dec : R) (pix : nat) : bool :=
  if Rlt_dec ra (fst bra) then false else if Rlt_dec (snd bra) ra then false else
  if Rlt_dec dec (fst bdec) then false else if Rlt_dec (snd bdec) dec then false else
  Nat.eqb pix (ang2pix (PI / 2 - dec) ra).

(** prior.py 1544-1569 [draw_from_pixel]: the recursive call's result is dropped and it is made with the
    same arguments; [None] when the allowed depth is used up.  [rng] gives numbers of the unit interval;
    it is consulted after the recursive call. *)
Fixpoint draw_from_pixel (inpix : bool) (len ra dec : R) (rng : nat -> R * R) (fuel : nat) : option (R * R) :=
  match fuel with
  | O => None
  | S f =>
    let point := fun i => (ra - len + 2 * len * fst (rng i), dec - len + 2 * len * snd (rng i)) in
    if inpix then Some (point f)
    else match draw_from_pixel inpix len ra dec rng f with None => None | Some _ => Some (point f) end
  end.

(** prior.py 1443-1464 [update_distance]: cumulative sums over the grid [rs], and their inverse by
    interpolation, which raises ([None]) outside the tabulated range *)
Definition distcdf (pdfs : nat -> R) (n k : nat) : R := psum (S k) pdfs / psum (S n) pdfs.
Definition distance_icdf (pdfs rs : nat -> R) (n : nat) (u : R) : option R :=
  let Y := distcdf pdfs n in
  if Rlt_dec u (Y O) then None else if Rlt_dec (Y n) u then None else
  let j := segment Y u 0 (n - 1) in
  Some (rs j + (u - Y j) / (Y (S j) - Y j) * (rs (S j) - rs j)).
(** prior.py 1459-1462 with the grid *)
Definition dist_pdfs (pdf rs : nat -> R) : nat -> R := fun i => rs i ^ 2 * pdf i.

(** prior.py 1519-1542 [draw_distance]; the recursion's result is dropped: [DNone] is Python's None *)
Inductive draw := DRaise | DNone | DValue (d : R).
Definition draw_distance (mu_bad : bool) (icdf : R -> option R) (lo hi : R) (u : R) : draw :=
  if mu_bad then DValue 0 else
  match icdf u with
  | None => DRaise
  | Some d => if Rlt_dec hi d then DNone else if Rlt_dec d lo then DNone else DValue d
  end.

(** prior.py 1439-1441: np.vstack of the three columns, then reshape to rows of three *)
Fixpoint chunks {A} (rows : nat) (l : list A) : list (list A) :=
  match rows with O => [] | S r => firstn 3 l :: chunks r (skipn 3 l) end.
Definition rescale_rows {A} (ras decs dists : list A) : list (list A) := chunks (length ras) (ras ++ decs ++ dists).
(** ... and of the two columns without distance, filled row by row (1430, 1435) *)
Fixpoint rescale_rows2 {A} (ras decs : list A) : list (list A) :=
  match ras, decs with a :: t, b :: s => [a; b] :: rescale_rows2 t s | _, _ => [] end.

(** prior.py 1596-1627 [_ln_prob]; a row is (ra, dec, distance), the distance unused in two dimensions *)
Definition lnx (x : R) : option R := if Rlt_dec 0 x then Some (ln x) else None.
Definition lnadd (a b : option R) : option R := match a, b with Some x, Some y => Some (x + y) | _, _ => None end.
Definition pixel_of (ang2pix : R -> R -> nat) (row : R * R * R) : nat := ang2pix (PI / 2 - snd (fst row)) (fst (fst row)).
Definition row_ln_prob (ang2pix : R -> R -> nat) (prob : nat -> R) (area : R) (distance : option (nat -> R -> R)) (row : R * R * R) : option R :=
  let pix := pixel_of ang2pix row in
  let sky := lnx (prob pix / area) in
  match distance with
  | None => sky
  | Some pdf => lnadd sky (lnx (pdf pix (snd row) * snd row ^ 2))
  end.
Definition hp_ln_prob ang2pix prob area distance (samp : list (R * R * R)) (outs : list bool) : list (option R) :=
  match samp with
  | [] => []
  | row0 :: _ => map (fun o : bool => if o then None else row_ln_prob ang2pix prob area distance row0) outs
  end.
