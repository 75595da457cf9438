(** * Equations of state of neutron stars: gw/eos/eos.py and gw/eos/tov_solver.py.
    Numbers are exact reals; [None] is an exception or a value that is not a finite number.  scipy's CubicSpline is a parameter,
    as are the integrator of the stellar structure equations and the search for the heaviest star. *)
From Coq Require Import Reals Lra Lia List Bool.
From Coquelicot Require Import Coquelicot.
From Verif Require Import PyReal Interp_Model.
Import ListNotations.
Open Scope list_scope.
Open Scope R_scope.

(** np.log10, and 10 ** y *)
Definition log10 (x : R) : option R := if Rle_dec x 0 then None else Some (ln x / ln 10).
Definition ten_to (y : R) : R := exp (y * ln 10).
Definition lg (x : R) : R := ln x / ln 10.

(** ** TabularEOS, eos.py 33-374 *)
Notation row := (R * R)%type.   (* pressure, energy density *)
(** 107-117 *)
Definition remove_leading_zero (t : list row) : option (list row) :=
  match t with [] => None | (p, e) :: r => if Req_EM_T p 0 then Some r else if Req_EM_T e 0 then Some r else Some t end.
(** min of a list; an empty list raises *)
Definition min_list (l : list R) : option R := match l with [] => None | x :: r => Some (fold_left Rmin r x) end.
(** 337-354; np.where of a one-dimensional condition is a tuple with one array, so its length is one *)
Definition where_ (c : list bool) : list (list nat) := [filter (fun i => nth i c false) (seq 0 (length c))].
Fixpoint diffs (l : list R) : list R := match l with a :: (b :: _) as t => (b - a) :: diffs t | _ => [] end.
Definition is_neg (x : R) : bool := if Rlt_dec x 0 then true else false.
Definition check_monotonicity (t : list row) : bool :=
  let e_negatives := length (where_ (map is_neg (diffs (map snd t)))) in
  let p_negatives := length (where_ (map is_neg (diffs (map fst t)))) in
  if ((1 <? e_negatives) || (1 <? p_negatives))%nat%bool then false else true.
(** what CubicSpline accepts: at least two points, increasing abscissae *)
Fixpoint increasing (l : list R) : bool := match l with a :: (b :: _) as t => (if Rlt_dec a b then true else false) && increasing t | _ => true end.
Definition splinable (xs ys : list R) : bool := ((2 <=? length xs) && (length xs =? length ys))%nat%bool && increasing xs.
Definition all_positive (l : list R) : bool := forallb (fun x => if Rlt_dec 0 x then true else false) l.

Inductive kind := Cubic | Linear | OtherKind.
Record eos := mkEos { e_p : list R; e_e : list R; e_h : list R; sampling : bool; warning : bool }.

Section Spline.
Variable spline : list R -> list R -> R -> R.

(** np.interp on increasing abscissae: constant beyond both ends *)
Definition np_interp (xs ys : list R) (x : R) : option R :=
  match xs, ys with
  | x0 :: _, y0 :: _ =>
      if Rlt_dec x x0 then Some y0 else if Rlt_dec (last xs 0) x then Some (last ys 0) else interp_in (combine xs ys) x
  | _, _ => None
  end.
(** one of the four look-ups 119-261: [xs], [ys] the table, [n] the power below the minimum; at one point *)
Definition look_up (xs ys : list R) (n : R) (k : kind) (x : R) : option R :=
  match xs, ys with
  | x0 :: _, y0 :: _ =>
      let* m := min_list xs in
      if Rlt_dec x m then
        match k with OtherKind => None | _ =>
          let* a := log10 y0 in let* b := log10 x in let* c := log10 x0 in Some (ten_to (a + n * (b - c)))
        end
      else match k with
           | Cubic => let* b := log10 x in Some (ten_to (spline (map lg xs) (map lg ys) b))
           | Linear => np_interp xs ys x
           | OtherKind => None
           end
  | _, _ => None
  end.
(** 119-157, 159-192, 194-226, 228-261 *)
Definition energy_from_pressure (s : eos) (k : kind) (p : R) : option R := look_up (e_p s) (e_e s) (3 / 5) k p.
Definition pressure_from_enthalpy (s : eos) (k : kind) (h : R) : option R := look_up (e_h s) (e_p s) 2.5 k h.
Definition energy_from_enthalpy (s : eos) (k : kind) (h : R) : option R := look_up (e_h s) (e_e s) 1.5 k h.
Definition enthalpy_from_energy (s : eos) (k : kind) (e : R) : option R := look_up (e_e s) (e_h s) (2 / 3) k e.
(** 263-303 *)
Definition dedh (s : eos) (k : kind) (h : R) : option R :=
  let dh := h * 1e-5 in
  let* u := energy_from_enthalpy s k (h + dh) in let* l := energy_from_enthalpy s k (h - dh) in pdiv (u - l) (2 * dh).
Definition dedp (s : eos) (k : kind) (p : R) : option R :=
  let dp := p * 1e-5 in
  let* u := energy_from_pressure s k (p + dp) in let* l := energy_from_pressure s k (p - dp) in pdiv (u - l) (2 * dp).
(** 305-320: x ** -0.5 *)
Definition sound_speed (s : eos) (k : kind) (h : R) : option R :=
  let* p := pressure_from_enthalpy s k h in let* d := dedp s k p in if Rlt_dec 0 d then Some (/ sqrt d) else None.
(** 322-335 *)
Definition check_causality (s : eos) : option bool :=
  match e_p s with
  | [] => None
  | _ => let* e := energy_from_pressure s Cubic (last (e_p s) 0) in
         let* h := enthalpy_from_energy s Cubic e in
         match sound_speed s Cubic h with
         | Some v => Some (if Rlt_dec v 1.1 then true else false)
         | None => Some false              (* nan or an infinity is not below 1.1 *)
         end
  end.
(** 85-86: cumulative trapezoid in the logarithm of the pressure *)
Definition integrand (r : row) : R := fst r / (snd r + fst r).
Fixpoint enthalpies (acc : R) (t : list row) : list R :=
  match t with
  | [] => []
  | a :: r => acc :: match r with
                     | [] => []
                     | b :: _ => enthalpies (acc + (ln (fst b) - ln (fst a)) * (integrand a + integrand b) / 2) r
                     end
  end.
(** 370-374 *)
Definition all_tables (s : eos) : option (list R) := mapo (enthalpy_from_energy s Cubic) (e_e s).
(** 57-105.  Tables with an entry that is not positive are refused by CubicSpline, which needs finite logarithms. *)
Definition tabular (table : list row) (smp warn : bool) : option eos :=
  let* t := remove_leading_zero table in
  let* _ := min_list (map fst t) in
  if (negb (check_monotonicity t) && smp) || warn then Some (mkEos (map fst t) (map snd t) [] smp true)
  else
    let h := match t with [] => [] | a :: _ => enthalpies (integrand a) t end in
    if all_positive (map fst t) && all_positive (map snd t)
       && splinable (map fst t) (map snd t) && splinable h (map snd t) && splinable (map snd t) h then
      let s := mkEos (map fst t) (map snd t) h smp false in
      let* h' := all_tables s in
      let s' := mkEos (map fst t) (map snd t) h' smp false in
      let* c := check_causality s' in
      Some (mkEos (map fst t) (map snd t) h' smp (negb c && smp))
    else None.
End Spline.

(** ** SpectralDecompositionEOS, 468-620 *)
(** 468-473 *)
Definition poly (g : list R) (x : R) : R := fold_right Rplus 0 (map (fun p => snd p * x ^ fst p) (combine (seq 0 (length g)) g)).
Definition adiabatic (g : list R) (x : R) : R := exp (poly g x).
(** 528-533, for coefficients that are arrays of one element ([boxed]); a plain number cannot be subscripted *)
Definition determine_xmax (boxed : bool) (g : list R) : option R :=
  if boxed then
    match g with
    | [] => None
    | _ => let* q := pdiv (ln 6) (Rabs (last g 0)) in
           let* r := pdiv 1 (INR (length g - 1)) in
           ppow q r
    end
  else None.
(** 535-551, with exact integrals *)
Definition mu (g : list R) (x : R) : R := exp (- RInt (fun t => / adiabatic g t) 0 x).
Definition energy_density (g : list R) (p0 e0 c x : R) : R :=
  e0 * c ^ 2 / mu g x + p0 / mu g x * RInt (fun t => exp t * mu g t / adiabatic g t) 0 x.
(** 553-580: the loop stops at the first point out of range; without one the index is that of the last point *)
Definition in_range (g : list R) (x : R) : bool := (if Rlt_dec 0.6 (adiabatic g x) then true else false) && (if Rlt_dec (adiabatic g x) 4.6 then true else false).
Fixpoint stop_at (g : list R) (i : nat) (xs : list R) : nat :=
  match xs with [] => i - 1 | x :: t => if in_range g x then stop_at g (S i) t else i end%nat.
(** the new xmax and the warning *)
Definition a_of_x (g : list R) (xmax : R) (npts : nat) (smp warn : bool) : option (R * bool) :=
  let xs := linspace 0 xmax npts in
  if smp then
    match xs with
    | [] => None                     (* i is not bound *)
    | _ => let i := stop_at g 0 xs in
           let x' := match i with O => last xs 0 | S j => nth j xs 0 end in
           if (if Rlt_dec x' 4 then true else false) || (i =? 0)%nat then Some (xmax, true) else Some (x', warn)
    end
  else Some (xmax, warn).
(** 582-620: the rows of the low-density table kept, and the table; [unit] = 0.1 * G / c**4 *)
Definition below (c r : row) : bool := (if Rlt_dec (fst r) (fst c) then true else false) && (if Rlt_dec (snd r) (snd c) then true else false).
Fixpoint break_point (low : list row) (c : row) (n i : nat) : nat :=
  match n with
  | O => length low
  | S n => if below c (nth (length low - i) low (0, 0)) then (length low - i + 1)%nat else break_point low c n (S i)
  end.
Definition stitch (low high : list row) : option (list row) :=
  match high with [] => None | c :: _ => Some (firstn (break_point low c (length low - 1) 1) low ++ high) end.
Definition spectral_rows (g : list R) (p0 e0 c unit xmax : R) (npts : nat) : list row :=
  map (fun x => (p0 * exp x * unit, energy_density g p0 e0 c x * unit)) (linspace 0 xmax npts).

(** ** EOSFamily, 623-749 *)
Record star := mkStar { st_m : R; st_r : R; st_k : R }.
Record family := mkFamily { f_mass : list R; f_radius : list R; f_k2 : list R; f_lambda : list R; f_max : R }.
Section Family.
Variable tov : R -> star.                       (* IntegrateTOV(eos, e).integrate_TOV() *)
Variable peak : list R -> list R -> option R.   (* the maximum of the parabola through three points *)
Variable spline : list R -> list R -> R -> R.   (* natural cubic spline *)
Variables c_si g_si msun : R.
(** 657-666 *)
Fixpoint stars (prev : option R) (grid : list R) : list star :=
  match grid with
  | [] => []
  | e :: t => let s := tov e in
              s :: match prev with
                   | Some m => if Rle_dec (st_m s) m then [] else stars (Some (st_m s)) t
                   | None => stars (Some (st_m s)) t
                   end
  end.
(** python indexing with a possibly negative index *)
Definition py_nth {A} (l : list A) (i : nat) (back : nat) (d : A) : A := if (back <=? i)%nat then nth (i - back) l d else nth (length l - (back - i)) l d.
Definition set_end {A} (l : list A) (x : A) : list A := removelast l ++ [x].
Definition grid_of (top : R) (npts : nat) : list R := map exp (linspace (ln 1.6e-10) (ln top) npts).
Definition lambda_of (s : star) : R := 2 / 3 * st_k s * st_r s ^ 5 / st_m s ^ 5.
(** 670-687 *)
Definition finish (grid : list R) (l : list star) : option (list star) :=
  let i := (length l - 1)%nat in
  if (i <? length grid - 1)%nat then
    let* x := peak [py_nth grid i 2 0; py_nth grid i 1 0; nth i grid 0]
                   [py_nth (map st_m l) i 2 0; py_nth (map st_m l) i 1 0; nth i (map st_m l) 0] in
    Some (set_end l (tov x))
  else Some l.
(** 695-710 *)
Definition pack (l : list star) : family :=
  mkFamily (map st_m l) (map st_r l) (map st_k l) (map lambda_of l) (last (map st_m l) 0 * (c_si ^ 2 / g_si / msun)).
Definition build (grid : list R) : option family :=
  match grid with
  | [] => None
  | _ => let* l := finish grid (stars None grid) in
         if (length l <? 2)%nat then None
         else if Rlt_dec (last (map st_m l) 0) (nth (length l - 2) (map st_m l) 0) then Some (pack (removelast l)) else Some (pack l)
  end.
(** 712-749 *)
Definition from_mass (f : family) (ys : list R) (m : R) : option R :=
  if splinable (f_mass f) ys then Some (spline (f_mass f) ys (m * msun * g_si / c_si ^ 2)) else None.
Definition lambda_from_mass (f : family) (m : R) : option R :=
  let* r := from_mass f (f_radius f) m in
  let* k := from_mass f (f_k2 f) m in
  let* c := pdiv (m * msun * g_si / c_si ^ 2) r in
  pdiv (2 / 3 * k) (c ^ 5).
End Family.

(** ** IntegrateTOV, tov_solver.py *)
(** 26-44: mass and radius close to the centre; [d] = h0 - h *)
Definition centre (eps p dedh d : R) : option (R * R) :=
  let* q := pdiv (3 * d) (2 * PI * (eps + 3 * p)) in
  let* s := psqrt q in
  let* t := pdiv d (eps + 3 * p) in
  let r := s * (1 - 0.25 * (eps - 3 * p - 3 / 5 * dedh) * t) in
  let* u := pdiv (3 / 5 * dedh * d) eps in
  Some (4 * PI / 3 * eps * r ^ 3 * (1 - u), r).
(** 46-85 *)
Definition tov_eqns (eps p depsdp m r H B : R) : option (R * R * R * R) :=
  let* dm := pdiv (4 * PI * eps * r ^ 3 * (r - 2 * m)) (m + 4 * PI * r ^ 3 * p) in
  let* dr := pdiv (r * (r - 2 * m)) (m + 4 * PI * r ^ 3 * p) in
  let* c := pdiv (2 * m) r in
  let* el := pdiv 1 (1 - c) in
  let* a := pdiv (2 * m) (r ^ 2) in
  let* b := pdiv 2 r in
  let C1 := b + el * (a + 4 * PI * r * (p - eps)) in
  let* s := pdiv (-6) (r ^ 2) in
  let* n := pdiv (2 * (m + 4 * PI * r ^ 3 * p)) (r ^ 2 - 2 * m * r) in
  let C0 := el * (s + 4 * PI * (eps + p) * depsdp + 4 * PI * (5 * eps + 9 * p)) - n ^ 2 in
  Some (- dm, - dr, B * - dr, - (C1 * B + C0 * H) * - dr).
(** 88-107 *)
Definition k2_denominator (y C : R) : R :=
  2 * C * (4 * (y + 1) * C ^ 4 + (6 * y - 4) * C ^ 3 + (26 - 22 * y) * C ^ 2 + 3 * (5 * y - 8) * C - 3 * y + 6)
  - 3 * (1 - 2 * C) ^ 2 * (2 * C * (y - 1) - y + 2) * ln (1 / (1 - 2 * C)).
Definition k2_numerator (y C : R) : R := 8 / 5 * (1 - 2 * C) ^ 2 * C ^ 5 * (2 * C * (y - 1) - y + 2).
Definition calc_k2 (R_ Beta H C : R) : option R :=
  let* y := pdiv (R_ * Beta) H in
  if Rlt_dec C (1 / 2) then pdiv (k2_numerator y C) (k2_denominator y C) else None.
(** 12-24: the state after the first step; [h0] the central pseudo-enthalpy *)
Definition start (eps p dedh h0 : R) : option (R * R * R * R) :=
  let* mr := centre eps p dedh (h0 - (h0 - 1e-3 * h0)) in
  let (m, r) := mr in Some (m, r, r ^ 2, 2 * r).
