(** Partial real arithmetic used by the models of numerical python code.

    A python / numpy float expression is modelled by an exact real number.
    An operation that numpy answers with nan or an infinity, or python with an
    exception (division by zero, log of a non positive number, square root or
    fractional power of a negative number, arccos outside [-1,1]) has the value
    [None], so a theorem that says [f x = Some y] also says that the code
    reached the end without leaving the finite reals. *)
From Coq Require Import Reals Lra Psatz.
Open Scope R_scope.

Definition bindo {A B} (x : option A) (f : A -> option B) : option B :=
  match x with Some a => f a | None => None end.
Notation "'let*' x := e 'in' k" := (bindo e (fun x => k))
  (at level 200, x pattern, e at level 100, k at level 200, right associativity).

(** [a / b] *)
Definition pdiv (a b : R) : option R :=
  if Req_EM_T b 0 then None else Some (a / b).
(** [np.sqrt(x)], [x ** 0.5] *)
Definition psqrt (x : R) : option R :=
  if Rlt_dec x 0 then None else Some (sqrt x).
(** [np.log(x)] *)
Definition plog (x : R) : option R :=
  if Rle_dec x 0 then None else Some (ln x).
(** [x ** y] for a float exponent [y]; negative bases are not needed for
    non-integer exponents and are refused (numpy: nan). *)
Definition ppow (x y : R) : option R :=
  if Rlt_dec 0 x then Some (Rpower x y)
  else if Req_EM_T x 0 then
    (if Rlt_dec 0 y then Some 0 else if Req_EM_T y 0 then Some 1 else None)
  else None.
(** [np.cbrt(x)], defined on all of R *)
Definition cbrt (x : R) : R :=
  if Rlt_dec 0 x then Rpower x (/3)
  else if Rlt_dec x 0 then - Rpower (- x) (/3) else 0.
(** [np.arccos(x)], [np.arcsin(x)] *)
Definition pacos (x : R) : option R :=
  if Rlt_dec x (-1) then None else if Rlt_dec 1 x then None else Some (acos x).
Definition pasin (x : R) : option R :=
  if Rlt_dec x (-1) then None else if Rlt_dec 1 x then None else Some (asin x).
(** python's [x % m] / [np.mod(x, m)] for [m > 0]: result in [0, m) *)
Definition rmod (x m : R) : R := x - m * IZR (Int_part (x / m)).
(** [np.floor] as an integer-valued real *)
Definition rfloor (x : R) : R := IZR (Int_part x).
(** indicator of a decidable proposition: python bool used as 0. / 1. *)
Definition ind {P} (d : {P} + {~ P}) : R := if d then 1 else 0.

Lemma some_inj {A} (x y : A) : Some x = Some y -> x = y.
Proof. congruence. Qed.
Lemma pdiv_some a b : b <> 0 -> pdiv a b = Some (a / b).
Proof. intros H; unfold pdiv; destruct (Req_EM_T b 0); [contradiction|reflexivity]. Qed.
Lemma psqrt_some x : 0 <= x -> psqrt x = Some (sqrt x).
Proof. intros H; unfold psqrt; destruct (Rlt_dec x 0); [lra|reflexivity]. Qed.
Lemma psqrt_none x : x < 0 -> psqrt x = None.
Proof. intros H; unfold psqrt; destruct (Rlt_dec x 0); [reflexivity|lra]. Qed.
Lemma plog_some x : 0 < x -> plog x = Some (ln x).
Proof. intros H; unfold plog; destruct (Rle_dec x 0); [lra|reflexivity]. Qed.
Lemma ppow_some x y : 0 < x -> ppow x y = Some (Rpower x y).
Proof. intros H; unfold ppow; destruct (Rlt_dec 0 x); [reflexivity|lra]. Qed.
Lemma ppow_0 y : 0 < y -> ppow 0 y = Some 0.
Proof. intros H; unfold ppow; destruct (Rlt_dec 0 0); [lra|].
  destruct (Req_EM_T 0 0); [|lra]. destruct (Rlt_dec 0 y); [reflexivity|lra]. Qed.
Lemma cbrt_pos x : 0 < x -> cbrt x = Rpower x (/3).
Proof. intros H; unfold cbrt; destruct (Rlt_dec 0 x); [reflexivity|lra]. Qed.
Lemma cbrt_cube x : cbrt x * cbrt x * cbrt x = x.
Proof.
  assert (Hp : forall y, 0 < y -> Rpower y (/3) * Rpower y (/3) * Rpower y (/3) = y).
  { intros y Hy. rewrite <- !Rpower_plus.
    replace (/3 + /3 + /3) with 1 by lra. apply Rpower_1; exact Hy. }
  unfold cbrt. destruct (Rlt_dec 0 x) as [H|H]; [apply Hp; exact H|].
  destruct (Rlt_dec x 0) as [H'|H']; [|lra].
  specialize (Hp (- x)). set (r := Rpower (- x) (/3)) in *.
  replace (- r * - r * - r) with (- (r * r * r)) by ring. rewrite Hp; lra.
Qed.
Lemma pacos_some x : -1 <= x <= 1 -> pacos x = Some (acos x).
Proof. intros H; unfold pacos; destruct (Rlt_dec x (-1)); [lra|]. destruct (Rlt_dec 1 x); [lra|reflexivity]. Qed.
Lemma pasin_some x : -1 <= x <= 1 -> pasin x = Some (asin x).
Proof. intros H; unfold pasin; destruct (Rlt_dec x (-1)); [lra|]. destruct (Rlt_dec 1 x); [lra|reflexivity]. Qed.
Lemma ind_true {P} (d : {P}+{~P}) : P -> ind d = 1.
Proof. intros H; destruct d; [reflexivity|contradiction]. Qed.
Lemma ind_false {P} (d : {P}+{~P}) : ~ P -> ind d = 0.
Proof. intros H; destruct d; [contradiction|reflexivity]. Qed.

(** Powers. *)
Lemma Rpower_pos x y : 0 < Rpower x y.
Proof. apply exp_pos. Qed.
Lemma Rpower_inj_l x y a : 0 < x -> 0 < y -> a <> 0 -> Rpower x a = Rpower y a -> x = y.
Proof.
  intros Hx Hy Ha H. rewrite <- (Rpower_1 x Hx), <- (Rpower_1 y Hy).
  replace 1 with (a * / a) by (field; exact Ha).
  rewrite <- !Rpower_mult, H. reflexivity.
Qed.
Lemma Rpower_div a b y : 0 < a -> 0 < b -> Rpower (a / b) y = Rpower a y / Rpower b y.
Proof.
  intros Ha Hb. unfold Rdiv. rewrite <- Rpower_mult_distr; [|exact Ha|apply Rinv_0_lt_compat; exact Hb].
  f_equal. unfold Rpower. rewrite ln_Rinv by exact Hb. rewrite <- exp_Ropp. f_equal. ring.
Qed.
Lemma Rpower_1_base y : Rpower 1 y = 1.
Proof. unfold Rpower. rewrite ln_1, Rmult_0_r, exp_0. reflexivity. Qed.

(** Floor and modulo. *)
Lemma Int_part_spec x : IZR (Int_part x) <= x < IZR (Int_part x) + 1.
Proof. destruct (base_Int_part x) as [H1 H2]. lra. Qed.
Lemma Int_part_unique x n : IZR n <= x < IZR n + 1 -> Int_part x = n.
Proof.
  intros [H1 H2]. destruct (Int_part_spec x) as [H3 H4].
  assert (IZR n < IZR (Int_part x + 1)) by (rewrite plus_IZR; lra).
  assert (IZR (Int_part x) < IZR (n + 1)) by (rewrite plus_IZR; lra).
  apply lt_IZR in H. apply lt_IZR in H0. Lia.lia.
Qed.
Lemma rmod_range x m : 0 < m -> 0 <= rmod x m < m.
Proof.
  intros Hm. unfold rmod. destruct (Int_part_spec (x / m)) as [H1 H2].
  assert (E : x = m * (x / m)) by (field; lra). split.
  - apply Rmult_le_compat_l with (r := m) in H1; [|lra]. lra.
  - apply Rmult_lt_compat_l with (r := m) in H2; [|exact Hm]. lra.
Qed.
Lemma rmod_congr x m : exists k : Z, rmod x m = x - m * IZR k.
Proof. exists (Int_part (x / m)). reflexivity. Qed.
Lemma rmod_unique x m y k : 0 < m -> 0 <= y < m -> x = y + m * IZR k -> rmod x m = y.
Proof.
  intros Hm Hy ->. unfold rmod.
  replace (Int_part ((y + m * IZR k) / m)) with k; [ring|].
  symmetry. apply Int_part_unique.
  replace ((y + m * IZR k) / m) with (y / m + IZR k) by (field; lra).
  assert (0 <= y / m) by (unfold Rdiv; apply Rmult_le_pos; [lra|left; apply Rinv_0_lt_compat; exact Hm]).
  assert (y / m < 1) by (apply Rmult_lt_reg_r with m; [lra|]; unfold Rdiv; rewrite Rmult_assoc, Rinv_l; lra).
  lra.
Qed.
Lemma rmod_shift x m k : 0 < m -> rmod (x + m * IZR k) m = rmod x m.
Proof.
  intros Hm. destruct (rmod_congr x m) as [j Hj].
  apply (rmod_unique _ m (rmod x m) (k + j)); [exact Hm|apply rmod_range; exact Hm|].
  rewrite Hj, plus_IZR. ring.
Qed.
Lemma rmod_id x m : 0 <= x < m -> rmod x m = x.
Proof. intros H. apply (rmod_unique x m x 0); [lra|exact H|]. ring. Qed.
