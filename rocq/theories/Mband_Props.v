(** Theorems C127-C130 about multi-banding (Mband_Model). *)
From Coq Require Import Reals Lra Lia List Bool ZArith.
From Coquelicot Require Import Coquelicot.
From Verif Require Import Mband_Model.
Import ListNotations.
Open Scope R_scope.
Open Scope list_scope.

(** ** floor and ceiling *)
Lemma floor_spec x : IZR (zfloor x) <= x < IZR (zfloor x) + 1.
Proof. unfold zfloor. destruct (archimed x). rewrite minus_IZR. lra. Qed.
Lemma floor_lt x j : (zfloor x < j)%Z <-> x < IZR j.
Proof.
  destruct (floor_spec x) as [A B]. split; intros H.
  - apply Z.le_succ_l in H. apply IZR_le in H. unfold Z.succ in H. rewrite plus_IZR in H. lra.
  - apply lt_IZR. lra.
Qed.
Lemma ceil_gt x j : (j < zceil x)%Z <-> IZR j < x.
Proof.
  unfold zceil. pose proof (floor_lt (- x) (- j)) as F. rewrite opp_IZR in F. split; intros H.
  - assert (zfloor (- x) < - j)%Z by lia. apply F in H0. lra.
  - assert (- x < - IZR j) by lra. apply F in H0. lia.
Qed.
Lemma ceil_spec x : x <= IZR (zceil x) < x + 1.
Proof. unfold zceil. destruct (floor_spec (- x)). rewrite opp_IZR. lra. Qed.

(** ** C127 the bands *)
Section Bands.
Variable Mc mode off L : R.
Hypothesis MP : 0 < Mc.
Hypothesis DP : 0 < mode.
Hypothesis OP : 0 <= off.
Hypothesis LP : 0 <= L.
Notation tau := (tau Mc mode).
Notation dtaudf := (dtaudf Mc mode).
Notation scale := (scale Mc mode).
Notation fdef := (fmax_default Mc mode).
Notation above := (above Mc mode off L).
Definition kap : R := PI * Mc * 2 / mode.
Lemma kap_pos : 0 < kap.
Proof using MP DP. clear OP LP. unfold kap. pose proof PI_RGT_0. apply Rdiv_lt_0_compat; [|exact DP]. apply Rmult_lt_0_compat; [apply Rmult_lt_0_compat; assumption|lra]. Qed.
Lemma arg_eq x : PI * Mc * (2 * x / mode) = kap * x.
Proof using MP DP. clear OP LP. unfold kap. field. lra. Qed.
(** [_dtaudf] is the derivative of [_tau] *)
Theorem C127_derivative x : 0 < x -> is_derive tau x (dtaudf x).
Proof using MP DP.
  clear OP LP. intros X. unfold Mband_Model.tau, Mband_Model.dtaudf, Rpower. pose proof kap_pos. pose proof (arg_eq x) as E.
  assert (P : 0 < PI * Mc * (2 * x / mode)) by (rewrite E; apply Rmult_lt_0_compat; assumption).
  auto_derive.
  - replace (PI * Mc * (2 * x * / mode)) with (PI * Mc * (2 * x / mode)) by (unfold Rdiv; ring). exact P.
  - replace (PI * Mc * (2 * x * / mode)) with (PI * Mc * (2 * x / mode)) by (unfold Rdiv; ring). pose proof PI_RGT_0. field. repeat split; lra.
Qed.
Definition KK : R := 5/96 * Mc * Rpower kap (-8/3).
Lemma KK_pos : 0 < KK.
Proof using MP. clear OP LP. unfold KK. apply Rmult_lt_0_compat; [lra|]. apply exp_pos. Qed.
Lemma dt_eq x : 0 < x -> - dtaudf x = KK * Rpower x (-11/3).
Proof using MP DP.
  clear OP LP. intros X. unfold Mband_Model.dtaudf, KK. rewrite arg_eq.
  replace (-11/3) with (-8/3 + -1) by field. rewrite Rpower_plus. replace (Rpower x (-1)) with (/ x) by (rewrite <- (Rpower_1 x X) at 1; rewrite <- Rpower_Ropp; f_equal; ring).
  rewrite <- (Rpower_mult_distr kap x) by (exact X || exact kap_pos). field. lra.
Qed.
Lemma sqrt_power x a : 0 < x -> sqrt (Rpower x a) = Rpower x (a / 2).
Proof using. intros X. rewrite <- Rpower_sqrt by apply exp_pos. rewrite Rpower_mult. f_equal. Qed.
Lemma scale_eq x : 0 < x -> scale x = / sqrt KK * Rpower x (11/6).
Proof using MP DP.
  clear OP LP. intros X. unfold Mband_Model.scale. rewrite dt_eq, sqrt_mult, sqrt_power by (exact X || left; (apply exp_pos || exact KK_pos)).
  replace (11/6) with (- (-11/3/2)) by field. rewrite Rpower_Ropp. pose proof (sqrt_lt_R0 _ KK_pos). pose proof (exp_pos (-11/3/2 * ln x)). unfold Rpower. field. split; lra.
Qed.
Lemma power_lt x y a : 0 < x < y -> 0 < a -> Rpower x a < Rpower y a.
Proof using. intros [X Y] A. apply exp_increasing. apply Rmult_lt_compat_l; [exact A|]. apply ln_increasing; lra. Qed.
Lemma power_gt x y a : 0 < x < y -> a < 0 -> Rpower y a < Rpower x a.
Proof using. intros [X Y] A. apply exp_increasing. apply Rmult_lt_gt_compat_neg_l; [exact A|]. apply ln_increasing; lra. Qed.
Lemma scale_lt x y : 0 < x < y -> scale x < scale y.
Proof using MP DP. clear OP LP. intros [X Y]. rewrite !scale_eq by lra. apply Rmult_lt_compat_l; [apply Rinv_0_lt_compat, sqrt_lt_R0, KK_pos|]. apply power_lt; lra. Qed.
Lemma scale_pos x : 0 < x -> 0 < scale x.
Proof using MP DP. clear OP LP. intros X. rewrite scale_eq by exact X. apply Rmult_lt_0_compat; [apply Rinv_0_lt_compat, sqrt_lt_R0, KK_pos|apply exp_pos]. Qed.
Lemma tau_lt x y : 0 < x < y -> tau y < tau x.
Proof using MP DP.
  clear OP LP. intros [X Y]. unfold Mband_Model.tau. rewrite !arg_eq. apply Rmult_lt_compat_l; [lra|]. pose proof kap_pos. apply power_gt; [split; [apply Rmult_lt_0_compat; lra|apply Rmult_lt_compat_l; lra]|lra].
Qed.
Lemma fdef_eq : fdef = Rpower (36/121 * KK) (3/5).
Proof using MP DP.
  clear OP LP. pose proof PI_RGT_0. unfold fmax_default, KK. pose proof kap_pos as KP.
  assert (Lk : ln kap = ln Mc - ln (mode / (2 * PI))).
  { unfold kap. replace (PI * Mc * 2 / mode) with (Mc * / (mode / (2 * PI))) by (field; lra).
    assert (0 < mode / (2 * PI)) by (apply Rdiv_lt_0_compat; lra). rewrite ln_mult by (try apply Rinv_0_lt_compat; assumption). rewrite ln_Rinv by assumption. ring. }
  replace (36/121 * (5/96 * Mc * Rpower kap (-8/3))) with (15/968 * (Mc * Rpower kap (-8/3))) by field.
  unfold Rpower at 3. rewrite (ln_mult (15/968)), (ln_mult Mc) by (try apply Rmult_lt_0_compat; try apply exp_pos; lra).
  unfold Rpower. rewrite ln_exp, Lk.
  replace (3/5 * (ln (15/968) + (ln Mc + -8/3 * (ln Mc - ln (mode / (2 * PI)))))) with (3/5 * ln (15/968) + 8/5 * ln (mode / (2 * PI)) + - ln Mc) by field.
  rewrite !exp_plus, exp_Ropp, exp_ln by exact MP. reflexivity.
Qed.
(** up to the default maximum banding frequency [f - scale f] increases *)
Theorem C127_default_maximum x y : 0 < x < y -> y <= fdef -> x - scale x < y - scale y.
Proof using MP DP.
  clear OP LP. intros [X Y] YF. rewrite !scale_eq by lra. set (c := / sqrt KK). assert (C : 0 < c) by (apply Rinv_0_lt_compat, sqrt_lt_R0, KK_pos).
  destruct (MVT_cor2 (fun z => Rpower z (11/6)) (fun z => 11/6 * Rpower z (11/6 - 1)) x y Y) as (z & E & Z).
  { intros z Hz. apply derivable_pt_lim_power. lra. }
  assert (B : c * (11/6 * Rpower z (11/6 - 1)) < 1).
  { assert (P : Rpower z (11/6 - 1) < Rpower fdef (5/6)) by (replace (11/6 - 1) with (5/6) by field; apply power_lt; lra).
    rewrite fdef_eq, Rpower_mult in P. replace (3/5 * (5/6)) with (/ 2) in P by field. rewrite Rpower_sqrt in P by (pose proof KK_pos; lra).
    rewrite sqrt_mult in P by (pose proof KK_pos; lra). replace (sqrt (36/121)) with (6/11) in P by (symmetry; replace (36/121) with ((6/11) * (6/11)) by field; apply sqrt_square; lra).
    apply Rmult_lt_compat_l with (r := c * (11/6)) in P; [|lra]. replace (c * (11/6) * (6/11 * sqrt KK)) with 1 in P by (unfold c; field; apply Rgt_not_eq, sqrt_lt_R0, KK_pos). lra. }
  assert (c * (Rpower y (11/6) - Rpower x (11/6)) < y - x); [|lra]. cbv beta in E. rewrite E, <- Rmult_assoc. rewrite <- (Rmult_1_l (y - x)) at 2. apply Rmult_lt_compat_r; lra.
Qed.
(** so the bisection's condition, once true, stays true *)
Theorem C127_condition_monotone d fnow x y : 0 < x <= y -> y <= fdef -> above d fnow x = true -> above d fnow y = true.
Proof using MP DP LP.
  clear OP. intros [X Y] YF. destruct (Req_dec x y) as [->|NE]; [auto|]. unfold Mband_Model.above.
  destruct (Rlt_dec 0 (d - off - tau x - L * sqrt (- dtaudf x))) as [H1|]; [|discriminate]. destruct (Rlt_dec 0 (x - scale x - fnow)) as [H2|]; [|discriminate]. intros _.
  pose proof (tau_lt x y ltac:(lra)). pose proof (C127_default_maximum x y ltac:(lra) YF).
  assert (sqrt (- dtaudf y) <= sqrt (- dtaudf x)). { apply sqrt_le_1_alt. rewrite !dt_eq by lra. apply Rmult_le_compat_l; [left; apply KK_pos|]. left. apply power_gt; lra. }
  assert (L * sqrt (- dtaudf y) <= L * sqrt (- dtaudf x)) by (apply Rmult_le_compat_l; assumption).
  destruct (Rlt_dec 0 (d - off - tau y - L * sqrt (- dtaudf y))); [|lra]. destruct (Rlt_dec 0 (y - scale y - fnow)); [reflexivity|lra].
Qed.

Lemma bisect_spec cond tol steps : forall lo hi f r, lo <= hi -> cond hi = true -> cond lo = false -> (f = None \/ f = Some lo \/ f = Some hi) ->
  bisect cond tol steps lo hi f = Some r -> exists lo' hi', lo <= lo' <= hi' /\ hi' <= hi /\ hi' - lo' <= tol /\ cond hi' = true /\ cond lo' = false /\
  (r = Some lo' \/ r = Some hi' \/ (r = None /\ f = None /\ hi - lo <= tol)).
Proof using.
  induction steps as [|n IH]; intros lo hi f r LH H1 H2 F E; cbn [bisect] in E; destruct (Rlt_dec tol (hi - lo)) as [W|W]; try discriminate.
  - injection E as <-. exists lo, hi. repeat split; try lra; try assumption. destruct F as [->|[->| ->]]; auto. right; right. repeat split; lra.
  - assert (M1 : lo <= (lo + hi) / 2) by lra. assert (M2 : (lo + hi) / 2 <= hi) by lra. destruct (cond ((lo + hi) / 2)) eqn:C.
    + destruct (IH _ _ _ r M1 C H2 (or_intror (or_intror eq_refl)) E) as (lo' & hi' & A1 & A2 & A3 & A4 & A5 & A6). exists lo', hi'. repeat split; try lra; try assumption. destruct A6 as [->|[->|(_ & Y & _)]]; auto. discriminate.
    + destruct (IH _ _ _ r M2 H1 C (or_intror (or_introl eq_refl)) E) as (lo' & hi' & A1 & A2 & A3 & A4 & A5 & A6). exists lo', hi'. repeat split; try lra; try assumption. destruct A6 as [->|[->|(_ & Y & _)]]; auto. discriminate.
  - injection E as <-. exists lo, hi. repeat split; try lra; try assumption. destruct F as [->|[->| ->]]; auto. right; right. repeat split; lra.
Qed.
Lemma pow2_big x : exists n, x < 2 ^ n.
Proof using. assert (N : exists n, x < INR n) by (exists (Z.to_nat (up x)); destruct (archimed x) as [A _]; destruct (Z_le_dec 0 (up x)) as [Q|Q]; [rewrite INR_IZR_INZ, Z2Nat.id by exact Q; exact A|apply Rlt_le_trans with (IZR (up x)); [exact A|apply Rle_trans with 0; [apply (IZR_le _ 0); lia|apply pos_INR]]]). destruct N as [n H]. exists n. apply Rlt_le_trans with (INR n); [exact H|]. clear H. induction n as [|n IH]; [cbn; lra|]. rewrite S_INR. cbn [pow]. assert (1 <= 2 ^ n) by (apply pow_R1_Rle; lra). lra. Qed.
Lemma bisect_ends cond tol : 0 < tol -> forall lo hi f, exists steps r, bisect cond tol steps lo hi f = Some r.
Proof using.
  intros TP. assert (G : forall n lo hi f, hi - lo < tol * 2 ^ n -> exists r, bisect cond tol n lo hi f = Some r).
  { induction n as [|n IH]; intros lo hi f H; cbn [bisect].
    - cbn in H. destruct (Rlt_dec tol (hi - lo)); [lra|]. exists f. reflexivity.
    - destruct (Rlt_dec tol (hi - lo)); [|exists f; reflexivity]. cbn [pow] in H. destruct (cond ((lo + hi) / 2)); apply IH; lra. }
  intros lo hi f. destruct (pow2_big ((hi - lo) / tol)) as [n N]. exists n. apply G. apply Rmult_lt_compat_l with (r := tol) in N; [|exact TP]. replace (tol * ((hi - lo) / tol)) with (hi - lo) in N by (field; lra). exact N.
Qed.
(** The search ends; the frequency found is within 0.01/duration of one that satisfies both conditions and of one that does not,
    the taper starts less than 0.01/duration before the current band. *)
Theorem C127_search fmax d fnow : 0 < fnow -> 0 < d -> fmax <= fdef ->
  (exists steps r, find_start Mc mode off L fmax d fnow steps = Some r) /\
  forall steps r, find_start Mc mode off L fmax d fnow steps = Some r ->
  match r with
  | NoBand => forall f, fnow <= f <= fmax -> above d fnow f = false
  | Unbound => L < 1/100
  | Start f df => fnow < f <= fmax /\ df = scale f /\ 0 < df /\ f - df > fnow - 1/100 / d /\
      exists lo hi, lo <= hi <= lo + 1/100 / d /\ fnow <= lo /\ hi <= fmax /\ (f = lo \/ f = hi) /\ above d fnow hi = true /\ above d fnow lo = false
  end.
Proof using MP DP OP LP.
  intros FN D FM. assert (TP : 0 < 1/100 / d) by (apply Rdiv_lt_0_compat; lra). unfold find_start.
  assert (A0 : above d fnow fnow = false).
  { unfold Mband_Model.above. destruct Rlt_dec; [|reflexivity]. destruct Rlt_dec as [H|]; [|reflexivity]. pose proof (scale_pos fnow FN). lra. }
  split.
  - destruct (above d fnow fmax); [|exists O; eexists; reflexivity]. destruct (bisect_ends (above d fnow) (1/100 / d) TP fnow fmax None) as (n & r & E).
    exists n. rewrite E. destruct r; eexists; reflexivity.
  - intros steps r E. destruct (above d fnow fmax) eqn:AM.
    + assert (FF : scale fmax < fmax - fnow /\ 0 < d - off - tau fmax - L * sqrt (- dtaudf fmax)).
      { unfold Mband_Model.above in AM. destruct Rlt_dec as [H1|]; [|discriminate]. destruct Rlt_dec as [H2|]; [|discriminate]. split; lra. }
      assert (FL : fnow < fmax).
      { destruct (Rle_dec fmax fnow) as [Hle|]; [|lra]. exfalso. destruct (Rle_dec fmax 0) as [Hn|Hp]; [|pose proof (scale_pos fmax ltac:(lra)); lra].
        assert (0 <= scale fmax); [|lra]. unfold Mband_Model.scale. assert (S := sqrt_pos (- dtaudf fmax)). destruct (Req_dec (sqrt (- dtaudf fmax)) 0) as [Z|Z]; [rewrite Z; unfold Rdiv; rewrite Rinv_0; lra|]. left. apply Rdiv_lt_0_compat; lra. }
      destruct (bisect (above d fnow) (1/100 / d) steps fnow fmax None) as [q|] eqn:EB; [|discriminate].
      destruct (bisect_spec _ _ _ _ _ _ _ (Rlt_le _ _ FL) AM A0 (or_introl eq_refl) EB) as (lo & hi & A1 & A2 & A3 & A4 & A5 & A6).
      destruct q as [f|]; injection E as <-.
      * assert (Ff : f = lo \/ f = hi) by (destruct A6 as [Q|[Q|(Q & _)]]; [injection Q; auto|injection Q; auto|discriminate]).
        assert (HH : fnow < hi) by (destruct (Req_dec hi fnow) as [Y|Y]; [rewrite Y in A4; congruence|lra]).
        assert (HS : scale hi < hi - fnow) by (unfold Mband_Model.above in A4; destruct Rlt_dec; [|discriminate]; destruct Rlt_dec; [lra|discriminate]).
        (* the last midpoint is never the starting point *)
        assert (NF : fnow < f).
        { destruct Ff as [->| ->]; [|exact HH]. clear - EB FL A6 TP. assert (G : forall n a b g r, fnow <= a -> a < b -> (g = None \/ exists x, g = Some x /\ fnow < x) -> bisect (above d fnow) (1/100/d) n a b g = Some (Some r) -> fnow < r).
          { induction n as [|n IH]; intros a b g r Ha Hab Hg E; cbn [bisect] in E; destruct Rlt_dec; try discriminate.
            - injection E as ->. destruct Hg as [Hg|(x & Hg & Hx)]; [discriminate|injection Hg as ->; exact Hx].
            - destruct (above d fnow ((a + b) / 2)); apply IH in E; try lra; right; eexists; split; try reflexivity; lra.
            - injection E as ->. destruct Hg as [Hg|(x & Hg & Hx)]; [discriminate|injection Hg as ->; exact Hx]. }
          eapply G; [| |left; reflexivity|exact EB]; lra. }
        assert (SF : scale f <= scale hi) by (destruct Ff as [->| ->]; [destruct (Req_dec lo hi) as [->|]; [lra|left; apply scale_lt; lra]|lra]).
        split; [split; [exact NF|destruct Ff; lra]|]. split; [reflexivity|]. split; [apply scale_pos; lra|].
        split; [destruct Ff; lra|]. exists lo, hi. repeat split; try lra; assumption.
      * destruct A6 as [Q|[Q|(_ & _ & W)]]; try discriminate.
        (* 1/100/d >= fmax - fnow > scale fmax > L/d *)
        destruct FF as [F1 F2]. assert (TAU : 0 < tau fmax) by (unfold Mband_Model.tau; apply Rmult_lt_0_compat; [lra|apply exp_pos]).
        assert (SQ : 0 < sqrt (- dtaudf fmax)) by (apply sqrt_lt_R0; rewrite dt_eq by lra; apply Rmult_lt_0_compat; [apply KK_pos|apply exp_pos]).
        assert (LS : L * sqrt (- dtaudf fmax) < d) by lra.
        assert (SD : 1 < 1/100 / d * sqrt (- dtaudf fmax)).
        { assert (Y : scale fmax * sqrt (- dtaudf fmax) = 1) by (unfold Mband_Model.scale; field; lra). apply Rle_lt_trans with (scale fmax * sqrt (- dtaudf fmax)); [rewrite Y; lra|]. apply Rmult_lt_compat_r; lra. }
        apply Rmult_lt_compat_l with (r := d) in SD; [|exact D]. replace (d * (1/100 / d * sqrt (- dtaudf fmax))) with (1/100 * sqrt (- dtaudf fmax)) in SD by (field; lra).
        apply Rmult_lt_reg_r with (sqrt (- dtaudf fmax)); lra.
    + injection E as <-. intros f Hf. destruct (above d fnow f) eqn:Af; [|reflexivity]. rewrite (C127_condition_monotone d fnow f fmax) in AM by (lra || exact Af). discriminate.
Qed.
(** the list of bands *)
Fixpoint chain (fmax maxf d fnow : R) (l : list (R * R * R)) : Prop :=
  match l with
  | [] => True
  | (d', f, df) :: t => d' = d /\ off < d' /\ fnow < f /\ f < maxf /\ f < fmax /\ 0 < df /\ fnow - 1/100 / d' < f - df /\ chain fmax maxf (d / 2) f t
  end.
Theorem C127_bands fmax maxf least steps n d fnow l : 0 < fnow -> fmax <= fdef ->
  more_bands Mc mode off L fmax maxf least steps n d fnow = Some l -> chain fmax maxf d fnow l.
Proof using MP DP OP LP.
  intros FN FM. revert d fnow l FN. induction n as [|n IH]; intros d fnow l FN E; cbn [more_bands] in E; destruct Rlt_dec as [H|H]; try discriminate; try (injection E as <-; exact I).
  assert (D : off < d) by (pose proof (Rmax_l off least); lra).
  destruct (find_start Mc mode off L fmax d fnow steps) as [r|] eqn:FS; [|discriminate].
  destruct (C127_search fmax d fnow FN ltac:(lra) FM) as [_ S]. specialize (S _ _ FS). destruct r as [| |f df]; [injection E as <-; exact I|discriminate|].
  destruct Rlt_dec as [W|W]; [|injection E as <-; exact I]. destruct S as (S1 & S2 & S3 & S4 & _). pose proof (Rmin_l maxf fmax). pose proof (Rmin_r maxf fmax).
  destruct (more_bands Mc mode off L fmax maxf least steps n (d / 2) f) as [t|] eqn:M; [|discriminate]. injection E as <-. cbn [chain]. repeat split; try lra. apply IH; [lra|exact M].
Qed.
End Bands.
(** loading saved weights passes the stored value through the setter again: it is kept *)
Theorem C127_reload Mc mode u : let m := maximum_banding_frequency Mc mode u in
  m <= fmax_default Mc mode /\ maximum_banding_frequency Mc mode (Some m) = m.
Proof. cbv zeta. unfold maximum_banding_frequency. destruct u as [u|]; repeat destruct Rlt_dec; split; try reflexivity; lra. Qed.
Example C127_example : fmax_default 1 (2 * PI) = Rpower (15/968) (3/5) /\ tau 1 (2 * PI) 1 = 5/256 /\ dtaudf 1 (2 * PI) 1 = -5/96.
Proof.
  pose proof PI_RGT_0. assert (R1 : forall a, Rpower 1 a = 1) by (intros a; unfold Rpower; rewrite ln_1, Rmult_0_r; apply exp_0).
  unfold fmax_default, tau, dtaudf. replace (2 * PI / (2 * PI)) with 1 by (field; lra). replace (PI * 1 * (2 * 1 / (2 * PI))) with 1 by (field; lra). rewrite !R1. split; [field|split; field].
Qed.

(** ** C128 windows *)
(** the rise of band [b]'s window: from 0 at [f - df] to 1 at [f] *)
Definition rise (f df x : R) : R := if Rle_dec f x then 1 else if Rle_dec x (f - df) then 0 else (1 + cos (PI * (x - f) / df)) / 2.
Lemma clip_le q len i : (0 <= i < len)%Z -> (clip q len <= i)%Z <-> (q <= i)%Z.
Proof. unfold clip. lia. Qed.
Lemma clip_gt q len i : (0 <= i < len)%Z -> (i < clip q len)%Z <-> (i < q)%Z.
Proof. unfold clip. lia. Qed.
Lemma window_out f df fn dfn del s len i : (i < 0 \/ len <= i)%Z -> window f df fn dfn del s len i = 0.
Proof.
  intros H. unfold window. cbv zeta.
  assert (C : forall q q', ((clip q len <=? i) && (i <? clip q' len))%Z = false).
  { intros q q'. apply Bool.andb_false_iff. unfold clip. destruct (Z.leb_spec (Z.max 0 (Z.min q len)) i); [right; apply Z.ltb_ge; lia|left; reflexivity]. }
  rewrite !C. reflexivity.
Qed.
(** The window array on the frequencies j/T, from the first possible index: rise of this band minus rise of the next, except
    where the next band's taper begins before this band starts. *)
Theorem C128_window f df fn dfn T j : 0 < T -> 0 <= df -> 0 < dfn -> f < fn -> ~ (fn - dfn < IZR j / T < f) ->
  let s := zceil ((f - df) * T) in
  window f df fn dfn (1 / T) s (zfloor (fn * T) - s + 1) (j - s) = rise f df (IZR j / T) - rise fn dfn (IZR j / T).
Proof.
  intros TP D DN FF NO s. set (x := IZR j / T) in *. set (len := (zfloor (fn * T) - s + 1)%Z).
  assert (XJ : IZR j = x * T) by (unfold x; field; lra).
  assert (LT : forall a, a * T < x * T <-> a < x) by (intros a; split; [apply Rmult_lt_reg_r; exact TP|apply Rmult_lt_compat_r; exact TP]).
  assert (GT : forall a, x * T < a * T <-> x < a) by (intros a; split; [apply Rmult_lt_reg_r; exact TP|apply Rmult_lt_compat_r; exact TP]).
  assert (FL : forall a, (zfloor (a * T) < j)%Z <-> a < x) by (intros a; rewrite floor_lt, XJ; apply LT).
  assert (CL : forall a, (j < zceil (a * T))%Z <-> x < a) by (intros a; rewrite ceil_gt, XJ; apply GT).
  destruct (Z_lt_dec (j - s) 0) as [N0|N0].
  { rewrite window_out by (left; exact N0). assert (x < f - df) by (apply CL; fold s; lia). unfold rise. destruct (Rle_dec f x); [lra|]. destruct (Rle_dec x (f - df)); [|lra]. destruct (Rle_dec fn x); [lra|]. destruct (Rle_dec x (fn - dfn)); [ring|]. exfalso; apply NO; lra. }
  destruct (Z_le_dec len (j - s)) as [N1|N1].
  { rewrite window_out by (right; exact N1). assert (fn < x) by (apply FL; unfold len in N1; lia). unfold rise. destruct (Rle_dec f x); [|lra]. destruct (Rle_dec fn x); [ring|lra]. }
  assert (RG : (0 <= j - s < len)%Z) by lia.
  unfold window. cbv zeta. replace (IZR (j - s + s) * (1 / T)) with x by (unfold x; replace (j - s + s)%Z with j by lia; field; lra).
  assert (DT : forall a, a / (1 / T) = a * T) by (intros a; field; lra). rewrite !DT.
  assert (E1 : forall a, ((clip (zfloor (a * T) - s + 1) len <=? j - s)%Z = true <-> a < x)).
  { intros a. rewrite Z.leb_le, clip_le by exact RG. rewrite <- FL. lia. }
  assert (E2 : forall a, ((j - s <? clip (zceil (a * T) - s) len)%Z = true <-> x < a)).
  { intros a. rewrite Z.ltb_lt, clip_gt by exact RG. rewrite <- CL. lia. }
  assert (E3 : forall a, ((clip (zceil (a * T) - s) len <=? j - s)%Z = true <-> a <= x)).
  { intros a. rewrite Z.leb_le, clip_le by exact RG. split; intros H; [apply Rnot_lt_le; intros Q; apply CL in Q; lia|]. assert (~ (j < zceil (a * T))%Z) by (rewrite CL; lra). lia. }
  assert (E4 : forall a, ((j - s <? clip (zfloor (a * T) - s + 1) len)%Z = true <-> x <= a)).
  { intros a. rewrite Z.ltb_lt, clip_gt by exact RG. split; intros H; [apply Rnot_lt_le; intros Q; apply FL in Q; lia|]. assert (~ (zfloor (a * T) < j)%Z) by (rewrite FL; lra). lia. }
  unfold rise.
  destruct (((clip (zfloor ((fn - dfn) * T) - s + 1) len <=? j - s) && (j - s <? clip (zceil (fn * T) - s) len))%Z) eqn:B1.
  - apply andb_prop in B1 as [B1 B2]. apply E1 in B1. apply E2 in B2. destruct (Rle_dec fn x); [lra|]. destruct (Rle_dec x (fn - dfn)); [lra|]. destruct (Rle_dec f x); [field|]. exfalso; apply NO; lra.
  - assert (NB1 : ~ (fn - dfn < x /\ x < fn)) by (intros [Q1 Q2]; apply E1 in Q1; apply E2 in Q2; rewrite Q1, Q2 in B1; discriminate).
    destruct (((clip (zfloor ((f - df) * T) - s + 1) len <=? j - s) && (j - s <? clip (zceil (f * T) - s) len))%Z) eqn:B2.
    + apply andb_prop in B2 as [B2 B3]. apply E1 in B2. apply E2 in B3. destruct (Rle_dec f x); [lra|]. destruct (Rle_dec x (f - df)); [lra|]. destruct (Rle_dec fn x); [lra|]. destruct (Rle_dec x (fn - dfn)); [field; lra|]. exfalso; apply NB1; lra.
    + assert (NB2 : ~ (f - df < x /\ x < f)) by (intros [Q1 Q2]; apply E1 in Q1; apply E2 in Q2; rewrite Q1, Q2 in B2; discriminate).
      destruct (((clip (zceil (f * T) - s) len <=? j - s) && (j - s <? clip (zfloor ((fn - dfn) * T) - s + 1) len))%Z) eqn:B3.
      * apply andb_prop in B3 as [B3 B4]. apply E3 in B3. apply E4 in B4. destruct (Rle_dec f x); [|lra]. destruct (Rle_dec fn x); [lra|]. destruct (Rle_dec x (fn - dfn)); [ring|lra].
      * assert (NB3 : ~ (f <= x /\ x <= fn - dfn)) by (intros [Q1 Q2]; apply E3 in Q1; apply E4 in Q2; rewrite Q1, Q2 in B3; discriminate).
        destruct (Rle_dec f x) as [P|P], (Rle_dec fn x) as [Q|Q]; [ring| |exfalso; lra|].
        -- destruct (Rle_dec x (fn - dfn)); [exfalso; apply NB3; lra|exfalso; apply NB1; lra].
        -- destruct (Rle_dec x (f - df)); [|exfalso; apply NB2; lra]. destruct (Rle_dec x (fn - dfn)); [ring|exfalso; apply NB1; lra].
Qed.
(** windows of a list of bands, on the frequencies j/T; the last entry is the end of the last band *)
Definition band_window (T f df fn dfn : R) (j : Z) : R := let s := zceil ((f - df) * T) in window f df fn dfn (1 / T) s (zfloor (fn * T) - s + 1) (j - s).
Fixpoint windows_sum (T : R) (l : list (R * R)) (j : Z) : R :=
  match l with
  | (f, df) :: (((fn, dfn) :: _) as t) => band_window T f df fn dfn j + windows_sum T t j
  | _ => 0
  end.
Fixpoint separated (x : R) (l : list (R * R)) : Prop :=
  match l with
  | (f, df) :: (((fn, dfn) :: _) as t) => 0 <= df /\ 0 < dfn /\ f < fn /\ ~ (fn - dfn < x < f) /\ separated x t
  | _ => True
  end.
(** The windows of all bands add up to one at every frequency of the band. *)
Theorem C128_partition T l j f0 fe dfe : 0 < T -> (1 <= length l)%nat -> separated (IZR j / T) ((f0, 0) :: l) -> last l (0, 0) = (fe, dfe) ->
  f0 <= IZR j / T <= fe - dfe -> windows_sum T ((f0, 0) :: l) j = 1.
Proof.
  intros TP LN SE LA [X1 X2]. set (x := IZR j / T) in *.
  assert (G : forall l f df, (1 <= length l)%nat -> separated x ((f, df) :: l) -> last l (0, 0) = (fe, dfe) -> windows_sum T ((f, df) :: l) j = rise f df x - rise fe dfe x).
  { clear LN SE LA l X1. induction l as [|[fn dfn] t IH]; intros f df LN SE LA; [cbn in LN; lia|].
    cbn [separated] in SE. destruct SE as (S1 & S2 & S3 & S4 & S5). change (windows_sum T ((f, df) :: (fn, dfn) :: t) j) with (band_window T f df fn dfn j + windows_sum T ((fn, dfn) :: t) j).
    unfold band_window. cbv zeta. rewrite (C128_window f df fn dfn T j TP S1 S2 S3 S4). fold x. destruct t as [|p t].
    - cbn [last] in LA. injection LA as -> ->. cbn [windows_sum]. ring.
    - rewrite IH; [ring|cbn; lia|exact S5|exact LA]. }
  rewrite (G l f0 0 LN SE LA). assert (DP : 0 < dfe).
  { assert (Q : forall l g dg, (1 <= length l)%nat -> last l (0, 0) = (fe, dfe) -> separated x ((g, dg) :: l) -> 0 < dfe).
    { clear. induction l as [|[fn dfn] t IH]; intros g dg LN LA SE; [cbn in LN; lia|]. cbn [separated] in SE. destruct SE as (_ & S2 & _ & _ & S5). destruct t as [|p t]; [cbn in LA; injection LA as -> ->; exact S2|]. exact (IH _ _ ltac:(cbn; lia) LA S5). }
    exact (Q l f0 0 LN LA SE). }
  unfold rise. destruct (Rle_dec f0 x); [|lra]. destruct (Rle_dec fe x); [lra|]. destruct (Rle_dec x (fe - dfe)); [ring|lra].
Qed.
(** If a taper begins before the start of the band before, the sum exceeds one there. *)
Theorem C128_overlap_refuted : windows_sum 1 [(0, 0); (10, 4); (11, 4); (30, 4)] 8 > 1.
Proof.
  assert (H8 : IZR 8 / 1 = 8) by (change (IZR 8) with 8; field).
  assert (F : forall z : Z, zfloor (IZR z) = z). { intros z. destruct (floor_spec (IZR z)) as [A B]. apply le_IZR in A. rewrite <- plus_IZR in B. apply lt_IZR in B. lia. }
  assert (C : forall z : Z, zceil (IZR z) = z). { intros z. unfold zceil. rewrite <- opp_IZR, F. lia. }
  cbn [windows_sum].
  assert (W0 : band_window 1 0 0 10 4 8 = 1/2).
  { unfold band_window. cbv zeta. rewrite (C128_window 0 0 10 4 1 8) by lra. rewrite H8. unfold rise. destruct (Rle_dec 0 8); [|lra]. destruct (Rle_dec 10 8); [lra|]. destruct (Rle_dec 8 (10 - 4)); [lra|]. replace (PI * (8 - 10) / 4) with (- (PI / 2)) by field. rewrite cos_neg, cos_PI2. field. }
  assert (W2 : band_window 1 11 4 30 4 8 = (1 + cos (PI * (8 - 11) / 4)) / 2).
  { unfold band_window. cbv zeta. rewrite (C128_window 11 4 30 4 1 8) by lra. rewrite H8. unfold rise. destruct (Rle_dec 11 8); [lra|]. destruct (Rle_dec 8 (11 - 4)); [lra|]. destruct (Rle_dec 30 8); [lra|]. destruct (Rle_dec 8 (30 - 4)); [ring|lra]. }
  assert (W1 : band_window 1 10 4 11 4 8 = (1 - cos (PI * (8 - 11) / 4)) / 2).
  { unfold band_window. cbv zeta. replace ((10 - 4) * 1) with (IZR 6) by ring. replace (11 * 1) with (IZR 11) by ring. rewrite C, F. unfold window. cbv zeta.
    replace ((11 - 4) / (1 / 1)) with (IZR 7) by field. replace (11 / (1/1)) with (IZR 11) by field. rewrite F, C. cbn. replace (8 * (1/1)) with 8 by field. reflexivity. }
  rewrite W0, W1, W2. lra.
Qed.
Example C128_example : windows_sum 2 [(20, 0); (40, 8); (120, 20)] 72 = 1 /\ band_window 2 20 0 40 8 72 = 1/2.
Proof.
  assert (E : IZR 72 / 2 = 36) by (change (IZR 72) with 72; field). split.
  - apply (C128_partition 2 [(40, 8); (120, 20)] 72 20 120 20); try reflexivity; try (cbn; lia); try rewrite E; try (cbn; repeat split; lra); lra.
  - unfold band_window. cbv zeta. rewrite (C128_window 20 0 40 8 2 72) by (rewrite ?E; lra). rewrite E. unfold rise. destruct (Rle_dec 20 36); [|lra]. destruct (Rle_dec 40 36); [lra|]. destruct (Rle_dec 36 (40 - 8)); [lra|]. replace (PI * (36 - 40) / 8) with (- (PI / 2)) by field. rewrite cos_neg, cos_PI2. field.
Qed.

(** ** C129 the optimal signal-to-noise ratio by linear interpolation *)
Lemma zsum_ext s n g g' : (forall j, (s <= j < s + Z.of_nat n)%Z -> g j = g' j) -> zsum s n g = zsum s n g'.
Proof. revert s. induction n as [|n IH]; intros s H; cbn [zsum]; [reflexivity|]. rewrite (H s) by lia. rewrite (IH (s + 1)%Z) by (intros; apply H; lia). reflexivity. Qed.
Lemma zsum_split s a b g : zsum s (a + b) g = zsum s a g + zsum (s + Z.of_nat a)%Z b g.
Proof. revert s. induction a as [|a IH]; intros s; cbn [Nat.add zsum]; [replace (s + Z.of_nat 0)%Z with s by lia; ring|]. rewrite IH. replace (s + 1 + Z.of_nat a)%Z with (s + Z.of_nat (S a))%Z by lia. ring. Qed.
Lemma zsum_plus s n g h : zsum s n (fun j => g j + h j) = zsum s n g + zsum s n h.
Proof. revert s. induction n as [|n IH]; intros s; cbn [zsum]; [ring|]. rewrite IH. ring. Qed.
Lemma zsum_scal c s n g : zsum s n (fun j => c * g j) = c * zsum s n g.
Proof. revert s. induction n as [|n IH]; intros s; cbn [zsum]; [ring|]. rewrite IH. ring. Qed.
Lemma zsum_zero s n g : (forall j, (s <= j < s + Z.of_nat n)%Z -> g j = 0) -> zsum s n g = 0.
Proof. revert s. induction n as [|n IH]; intros s H; cbn [zsum]; [reflexivity|]. rewrite (H s) by lia. rewrite IH by (intros; apply H; lia). ring. Qed.
Lemma zrange_empty a b g : (b < a)%Z -> zrange a b g = 0.
Proof. intros H. unfold zrange. replace (Z.to_nat (b - a + 1)) with O by lia. reflexivity. Qed.
Lemma zrange_split a m b g : (a <= m)%Z -> (m <= b + 1)%Z -> zrange a b g = zrange a (m - 1) g + zrange m b g.
Proof.
  intros A B. unfold zrange. replace (Z.to_nat (b - a + 1)) with (Z.to_nat (m - 1 - a + 1) + Z.to_nat (b - m + 1))%nat by lia. rewrite zsum_split.
  replace (a + Z.of_nat (Z.to_nat (m - 1 - a + 1)))%Z with m by lia. reflexivity.
Qed.
Lemma zrange_ext a b g g' : (forall j, (a <= j <= b)%Z -> g j = g' j) -> zrange a b g = zrange a b g'.
Proof. intros H. apply zsum_ext. intros j Hj. apply H. lia. Qed.
(** enlarging the range of a sum over zero terms *)
Lemma zrange_larger a b lo hi g : (lo <= a)%Z -> (b <= hi)%Z -> (forall j, (lo <= j <= hi)%Z -> (j < a \/ b < j)%Z -> g j = 0) -> zrange lo hi g = zrange a b g.
Proof.
  intros A B Z. destruct (Z_le_dec a (b + 1)) as [AB|AB].
  - rewrite (zrange_split lo a hi) by lia. rewrite (zrange_split a (b + 1) hi) by lia. replace (b + 1 - 1)%Z with b by lia.
    assert (Z1 : zrange lo (a - 1) g = 0) by (apply zsum_zero; intros j Hj; apply Z; lia).
    assert (Z2 : zrange (b + 1) hi g = 0) by (apply zsum_zero; intros j Hj; apply Z; lia). rewrite Z1, Z2. ring.
  - rewrite (zrange_empty a b) by lia. apply zsum_zero. intros j Hj. apply Z; lia.
Qed.
Section Quad.
Variable T : R.
Variable mask : Z -> bool.
Variable psd : Z -> R.
Variable n : Z.
Variable d f df fn dfn : R.
Hypothesis TP : 0 < T.
Hypothesis DP : 0 < d.
Notation NB := (nbanded d f df fn).
Notation bf := (banded d f df).
Notation W := (window_over_psd T mask psd f df fn dfn).
Notation s0 := (start_idx T f df).
Notation e0 := (end_idx T n f df fn).
Notation sst := (sum_start T d f df).
Notation sen := (sum_end T n d f df fn).
Lemma nsum_ext m g g' : (forall k, (k < m)%nat -> g k = g' k) -> nsum m g = nsum m g'.
Proof using. induction m as [|m IH]; intros H; cbn [nsum]; [reflexivity|]. rewrite IH by (intros; apply H; lia). rewrite H by lia. reflexivity. Qed.
Lemma nsum_add m g c i x : (i < m)%nat -> nsum m (fun k => g k * add_at i x c k) = nsum m (fun k => g k * c k) + g i * x.
Proof using.
  induction m as [|m IH]; intros H; [lia|]. cbn [nsum]. unfold add_at at 2. destruct (Nat.eqb_spec m i) as [E|E].
  - subst. rewrite (nsum_ext i (fun k => g k * add_at i x c k) (fun k => g k * c k)); [ring|]. intros k Hk. unfold add_at. destruct (Nat.eqb_spec k i); [lia|reflexivity].
  - rewrite IH by lia. ring.
Qed.
Lemma power_sum g : band_power T mask psd n d f df fn dfn g = nsum (NB - 1) (fun k => g k * lower T mask psd n d f df fn dfn k + g (S k) * upper T mask psd n d f df fn dfn k).
Proof using.
  unfold band_power, coeffs.
  assert (G : forall m, (m <= NB - 1)%nat -> nsum NB (fun k => g k * fold_left (fun c k0 => add_at (S k0) (upper T mask psd n d f df fn dfn k0) (add_at k0 (lower T mask psd n d f df fn dfn k0) c)) (seq 0 m) (fun _ => 0) k) =
     nsum m (fun k => g k * lower T mask psd n d f df fn dfn k + g (S k) * upper T mask psd n d f df fn dfn k)).
  { induction m as [|m IH]; intros H.
    - cbn [seq fold_left nsum]. assert (Z : forall q, nsum q (fun k => g k * 0) = 0) by (induction q as [|q IHq]; cbn [nsum]; [reflexivity|rewrite IHq; ring]). apply Z.
    - rewrite seq_S, fold_left_app. cbn [fold_left Nat.add nsum]. rewrite nsum_add by lia. rewrite nsum_add by lia. rewrite IH by lia. ring. }
  apply G. lia.
Qed.
Lemma zceil_mono x y : x <= y -> (zceil x <= zceil y)%Z.
Proof using. intros H. apply Z.nlt_ge. intros Q. apply ceil_gt in Q. destruct (ceil_spec y). lra. Qed.
Lemma bf_S k : bf (S k) = bf k + / d.
Proof using DP. clear TP. unfold banded. rewrite !plus_IZR, Nat2Z.inj_succ, succ_IZR. field. lra. Qed.
Lemma ranges g : (2 <= NB)%nat -> nsum (NB - 1) (fun k => zrange (sst k) (sen k) g) = zrange s0 e0 g.
Proof using TP DP.
  intros N2. set (c := fun k => zceil (T * bf k)).
  assert (CM : forall k, (c k <= c (S k))%Z). { intros k. apply zceil_mono. apply Rmult_le_compat_l; [lra|]. rewrite bf_S. pose proof (Rinv_0_lt_compat d DP). lra. }
  assert (ST : forall a b, (a <= b)%Z -> zrange s0 (Z.min e0 (a - 1)) g + zrange (Z.max s0 a) (Z.min e0 (b - 1)) g = zrange s0 (Z.min e0 (b - 1)) g).
  { intros a b AB. destruct (Z_le_dec a s0) as [H|H].
    - rewrite (zrange_empty s0 (Z.min e0 (a - 1))) by lia. rewrite Z.max_l by lia. ring.
    - destruct (Z_le_dec a e0) as [H2|H2].
      + rewrite Z.max_r by lia. rewrite (Z.min_r e0 (a - 1)) by lia. rewrite (zrange_split s0 a (Z.min e0 (b - 1))) by lia. ring.
      + rewrite (zrange_empty (Z.max s0 a)) by lia. rewrite !Z.min_l by lia. ring. }
  assert (G : forall m, (S m <= NB - 1)%nat -> nsum (S m) (fun k => zrange (sst k) (sen k) g) = zrange s0 (if Nat.eqb (S m) (NB - 1) then e0 else Z.min e0 (c (S m) - 1)) g).
  { induction m as [|m IH]; intros H.
    - cbn [nsum]. rewrite Rplus_0_l. unfold sum_start, sum_end. change (Nat.eqb 0 0) with true. cbv iota. destruct (Nat.eqb_spec 0 (NB - 2)), (Nat.eqb_spec 1 (NB - 1)); try lia; reflexivity.
    - change (nsum (S (S m)) (fun k => zrange (sst k) (sen k) g)) with (nsum (S m) (fun k => zrange (sst k) (sen k) g) + zrange (sst (S m)) (sen (S m)) g).
      rewrite IH by lia. destruct (Nat.eqb_spec (S m) (NB - 1)); [lia|]. unfold sum_start, sum_end. change (Nat.eqb (S m) 0) with false. cbv iota. fold (c (S m)) (c (S (S m))).
      destruct (Nat.eqb_spec (S m) (NB - 2)) as [q1|q1], (Nat.eqb_spec (S (S m)) (NB - 1)) as [q2|q2]; try lia.
      + pose proof (ST (c (S m)) (Z.max (c (S m)) (e0 + 1)) ltac:(lia)) as X. rewrite (Z.min_l e0 (Z.max (c (S m)) (e0 + 1) - 1)) in X by lia. exact X.
      + apply ST. apply CM. }
  destruct (NB - 1)%nat as [|m] eqn:E; [lia|]. rewrite G by lia. rewrite Nat.eqb_refl. reflexivity.
Qed.
(** One band's part: the sum over the original frequencies, each once, of window over spectrum times the straight line through
    the squared waveform at the two neighbouring banded frequencies. *)
Theorem C129_band g (G : Z -> R) : (2 <= NB)%nat ->
  (forall k j, (k < NB - 1)%nat -> (sst k <= j <= sen k)%Z -> G j = g k + (g (S k) - g k) * (IZR j / T - bf k) / (bf (S k) - bf k)) ->
  band_power T mask psd n d f df fn dfn g = 4 / T * zrange s0 e0 (fun j => G j * W j).
Proof using TP DP.
  intros N2 HG. rewrite power_sum, <- ranges by exact N2.
  assert (SC : forall m h, 4 / T * nsum m h = nsum m (fun k => 4 / T * h k)) by (induction m as [|m IH]; intros h; cbn [nsum]; [ring|rewrite <- IH; ring]).
  rewrite SC. apply nsum_ext. intros k Hk. unfold lower, upper, prefactor.
  replace (g k * (4 * d / T * zrange (sst k) (sen k) (fun j => (bf (S k) - IZR j / T) * W j)) + g (S k) * (4 * d / T * zrange (sst k) (sen k) (fun j => (IZR j / T - bf k) * W j)))
    with (4 / T * (d * g k * zrange (sst k) (sen k) (fun j => (bf (S k) - IZR j / T) * W j) + d * g (S k) * zrange (sst k) (sen k) (fun j => (IZR j / T - bf k) * W j))) by (field; lra).
  f_equal. unfold zrange. rewrite <- !zsum_scal, <- zsum_plus. apply zsum_ext. intros j Hj. rewrite (HG k j Hk) by lia. rewrite bf_S. field. lra.
Qed.
Theorem C129_affine_band al be : (2 <= NB)%nat ->
  band_power T mask psd n d f df fn dfn (fun k => al + be * bf k) = 4 / T * zrange s0 e0 (fun j => (al + be * (IZR j / T)) * W j).
Proof using TP DP. intros N2. apply (C129_band (fun k => al + be * bf k) (fun j => al + be * (IZR j / T)) N2). intros k j _ _. rewrite bf_S. field. lra. Qed.
(** outside of the band's indices the summand vanishes *)
Lemma W_out j : (forall i, mask i = true -> (0 <= i < n)%Z) -> (j < s0 \/ e0 < j)%Z -> W j = 0.
Proof using.
  intros HM H. unfold window_over_psd. destruct (mask j) eqn:M; [|ring]. specialize (HM j M). rewrite window_out; [ring|]. unfold end_idx, winlen in *. lia.
Qed.
End Quad.
(** all bands: duration, start and scale of each; the end of the last *)
Fixpoint total_power (T : R) (mask : Z -> bool) (psd : Z -> R) (n : Z) (l : list (R * (R * R))) (fe dfe : R) (g : R -> R) : R :=
  match l with
  | [] => 0
  | (d, (f, df)) :: t =>
      let nx := match t with (_, q) :: _ => q | [] => (fe, dfe) end in
      band_power T mask psd n d f df (fst nx) (snd nx) (fun k => g (banded d f df k)) + total_power T mask psd n t fe dfe g
  end.
Fixpoint long_enough (l : list (R * (R * R))) (fe dfe : R) : Prop :=
  match l with
  | [] => True
  | (d, (f, df)) :: t => let nx := match t with (_, q) :: _ => q | [] => (fe, dfe) end in 0 < d /\ (2 <= nbanded d f df (fst nx))%nat /\ long_enough t fe dfe
  end.
(** A squared waveform linear in frequency, constant for example: exactly the inner product over the frequencies of the mask. *)
Theorem C129_exact T mask psd n l fe dfe f0 d0 al be : 0 < T -> long_enough ((d0, (f0, 0)) :: l) fe dfe ->
  (forall j, mask j = true -> (0 <= j < n)%Z /\ f0 <= IZR j / T <= fe - dfe /\ separated (IZR j / T) ((f0, 0) :: map snd l ++ [(fe, dfe)])) ->
  total_power T mask psd n ((d0, (f0, 0)) :: l) fe dfe (fun x => al + be * x) =
  4 / T * zrange 0 (n - 1) (fun j => if mask j then (al + be * (IZR j / T)) / psd j else 0).
Proof.
  intros TP LE HM.
  assert (G : forall l, long_enough l fe dfe -> total_power T mask psd n l fe dfe (fun x => al + be * x) =
    4 / T * zrange 0 (n - 1) (fun j => if mask j then (al + be * (IZR j / T)) / psd j * windows_sum T (map snd l ++ [(fe, dfe)]) j else 0)).
  { clear LE. induction l0 as [|[d [f df]] t IH]; intros LE; cbn [total_power long_enough] in *.
    - cbn [map app windows_sum]. unfold zrange. rewrite zsum_zero; [ring|]. intros j _. destruct (mask j); ring.
    - cbv zeta in *. set (nx := match t with (_, q) :: _ => q | [] => (fe, dfe) end) in *. destruct LE as (DP & N2 & LE). rewrite (IH LE), (C129_affine_band T mask psd n d f df (fst nx) (snd nx) TP DP al be N2).
      rewrite <- Rmult_plus_distr_l. f_equal.
      set (WW := window_over_psd T mask psd f df (fst nx) (snd nx)).
      assert (EX : zrange (start_idx T f df) (end_idx T n f df (fst nx)) (fun j => (al + be * (IZR j / T)) * WW j) = zrange 0 (n - 1) (fun j => (al + be * (IZR j / T)) * WW j)).
      { set (s := start_idx T f df). set (e := end_idx T n f df (fst nx)).
        rewrite <- (zrange_larger s e (Z.min 0 s) (Z.max (n - 1) e)); [|lia|lia|].
        - apply zrange_larger; [lia|lia|]. intros j _ Hj. unfold WW, window_over_psd. destruct (mask j) eqn:M; [|ring]. destruct (HM j M) as [? _]. lia.
        - intros j _ Hj. unfold WW. rewrite (W_out T mask psd n f df (fst nx) (snd nx) j); [ring|intros i Hi; apply HM, Hi|exact Hj]. }
      rewrite EX. unfold zrange. rewrite <- zsum_plus. apply zsum_ext. intros j _. unfold WW, window_over_psd.
      assert (WS : windows_sum T (map snd ((d, (f, df)) :: t) ++ [(fe, dfe)]) j = band_window T f df (fst nx) (snd nx) j + windows_sum T (map snd t ++ [(fe, dfe)]) j).
      { destruct t as [|[d2 [f2 df2]] t]; reflexivity. }
      rewrite WS. unfold band_window, start_idx, winlen. cbv zeta. destruct (mask j); [|ring]. unfold start_idx, Rdiv. ring. }
  rewrite (G _ LE). f_equal. apply zrange_ext. intros j _. destruct (mask j) eqn:M; [|reflexivity]. destruct (HM j M) as (_ & HX & HS).
  cbn [map snd app]. rewrite (C128_partition T (map snd l ++ [(fe, dfe)]) j f0 fe dfe TP); [ring| | |  |exact HX].
  - rewrite app_length. cbn. lia.
  - exact HS.
  - apply last_last.
Qed.

Example C129_example : (* one band of four frequencies, squared waveform equal to the frequency *)
  total_power 1 (fun j => (1 <=? j) && (j <=? 3))%Z (fun _ => 2) 5 [(1, (1, 0))] 4 1 (fun x => 0 + 1 * x) = 12.
Proof.
  assert (F : forall z : Z, zfloor (IZR z) = z). { intros z. destruct (floor_spec (IZR z)) as [A B]. apply le_IZR in A. rewrite <- plus_IZR in B. apply lt_IZR in B. lia. }
  assert (C : forall z : Z, zceil (IZR z) = z). { intros z. unfold zceil. rewrite <- opp_IZR, F. lia. }
  rewrite C129_exact.
  - unfold zrange. change (Z.to_nat (5 - 1 - 0 + 1)) with 5%nat. cbn [zsum]. cbn [Z.leb Z.add Z.compare Pos.compare Pos.compare_cont andb Pos.add Pos.succ]. field.
  - lra.
  - cbn [long_enough fst snd]. split; [lra|]. split; [|exact I]. unfold nbanded, Ke, Ks. replace (4 * 1) with (IZR 4) by ring. replace ((1 - 0) * 1) with (IZR 1) by ring. rewrite F, C. cbn. lia.
  - intros j H. apply andb_prop in H as [H1 H2]. apply Z.leb_le in H1, H2. split; [lia|]. apply IZR_le in H1, H2. unfold Rdiv. rewrite Rinv_1, Rmult_1_r. split; [lra|]. cbn. repeat split; lra.
Qed.

(** ** C130 numbers of samples *)
Lemma pow2_R b : IZR (2 ^ Z.of_nat b) = 2 ^ b.
Proof. rewrite <- pow_IZR. reflexivity. Qed.
Lemma round_up2_spec x : 2 <= x -> exists k : nat, round_up2 x = (2 ^ Z.of_nat k)%Z /\ (1 <= k)%nat /\ x <= IZR (round_up2 x) < 2 * x.
Proof.
  intros X. unfold round_up2. destruct (ceil_spec (ln x / ln 2)) as [A B]. set (c := zceil (ln x / ln 2)) in *.
  assert (L2 : 0 < ln 2) by (rewrite <- ln_1 at 1; apply ln_increasing; lra).
  assert (Q : 1 <= ln x / ln 2). { apply Rmult_le_reg_r with (ln 2); [exact L2|]. unfold Rdiv. rewrite Rmult_assoc, Rinv_l by lra. rewrite Rmult_1_l, Rmult_1_r. destruct (Req_dec 2 x) as [<-|]; [lra|]. left. apply ln_increasing; lra. }
  assert (C1 : (1 <= c)%Z) by (apply le_IZR; lra). exists (Z.to_nat c). rewrite Z2Nat.id by lia. split; [reflexivity|]. split; [lia|].
  assert (E : IZR (2 ^ c) = Rpower 2 (IZR c)).
  { rewrite <- (Z2Nat.id c) at 1 by lia. rewrite pow2_R. rewrite <- Rpower_pow by lra. f_equal. rewrite INR_IZR_INZ, Z2Nat.id by lia. reflexivity. }
  rewrite E. assert (XE : x = exp (ln x / ln 2 * ln 2)) by (replace (ln x / ln 2 * ln 2) with (ln x) by (field; lra); symmetry; apply exp_ln; lra). unfold Rpower. split.
  - rewrite XE at 1. assert (M : ln x / ln 2 * ln 2 <= IZR c * ln 2) by (apply Rmult_le_compat_r; lra). destruct M as [M|M]; [left; apply exp_increasing; exact M|rewrite M; lra].
  - replace (2 * x) with (exp (ln 2 + ln x / ln 2 * ln 2)) by (rewrite exp_plus, exp_ln, <- XE by lra; reflexivity). apply exp_increasing.
    assert (IZR c * ln 2 < (ln x / ln 2 + 1) * ln 2) by (apply Rmult_lt_compat_r; lra). lra.
Qed.
(** [N] is a power of two, a multiple of 2^b, at least twice the highest frequency's index plus two; the band's last index is
    within the transform of the [M = N/2^b] shortened samples. *)
Theorem C130_integers T fn b : 0 < T -> 0 <= fn ->
  (exists k : nat, Nb T fn b = (2 ^ Z.of_nat k)%Z) /\ 2 * (fn * T + 1) <= IZR (Nb T fn b) /\ (IZR (Nb T fn b) < 4 * (fn * T + 1) \/ Nb T fn b = (2 ^ Z.of_nat b)%Z) /\
  (Mb T fn b * 2 ^ Z.of_nat b = Nb T fn b)%Z /\ (0 <= Ke fn (T / 2 ^ b) <= Mb T fn b / 2)%Z.
Proof.
  intros TP FP. assert (X : 2 <= 2 * (fn * T + 1)) by (assert (0 <= fn * T) by (apply Rmult_le_pos; lra); lra).
  destruct (round_up2_spec _ X) as (k & E & K & X1 & X2). unfold Mb, Nb. rewrite E in *. clear E.
  assert (P2 : forall i : nat, (0 < 2 ^ Z.of_nat i)%Z) by (intros i; apply Z.pow_pos_nonneg; lia).
  assert (NB : exists q, Z.max (2 ^ Z.of_nat k) (2 ^ Z.of_nat b) = (2 ^ Z.of_nat q)%Z /\ (b <= q)%nat /\ (k <= q)%nat /\ (q = k \/ q = b)).
  { destruct (le_lt_dec b k) as [H|H].
    - exists k. split; [apply Z.max_l, Z.pow_le_mono_r; lia|]. lia.
    - exists b. split; [apply Z.max_r, Z.pow_le_mono_r; lia|]. lia. }
  destruct NB as (q & -> & QB & QK & QQ).
  assert (MM : (2 ^ Z.of_nat q / 2 ^ Z.of_nat b = 2 ^ Z.of_nat (q - b))%Z) by (rewrite <- Z.pow_sub_r by lia; f_equal; lia).
  assert (BIG : 2 * (fn * T + 1) <= IZR (2 ^ Z.of_nat q)) by (apply Rle_trans with (IZR (2 ^ Z.of_nat k)); [exact X1|apply IZR_le, Z.pow_le_mono_r; lia]).
  split; [exists q; reflexivity|]. split; [exact BIG|]. split.
  { destruct QQ as [->| ->]; [left; lra|right; reflexivity]. }
  rewrite MM. split; [rewrite <- Z.pow_add_r by lia; f_equal; lia|].
  unfold Ke. assert (PB : 0 < 2 ^ b) by (apply pow_lt; lra).
  destruct (floor_spec (fn * (T / 2 ^ b))) as [F1 F2]. split.
  - apply Z.lt_succ_r. apply lt_IZR. unfold Z.succ. rewrite plus_IZR. assert (0 <= fn * (T / 2 ^ b)) by (apply Rmult_le_pos; [exact FP|left; apply Rdiv_lt_0_compat; assumption]). lra.
  - apply Z.div_le_lower_bound; [lia|]. apply le_IZR. rewrite mult_IZR. rewrite pow2_R in BIG |- *.
    apply Rmult_le_reg_r with (2 ^ b); [exact PB|]. rewrite <- pow_add. replace (q - b + b)%nat with q by lia.
    assert (IZR (zfloor (fn * (T / 2 ^ b))) * 2 ^ b <= fn * T). { apply Rle_trans with (fn * (T / 2 ^ b) * 2 ^ b); [apply Rmult_le_compat_r; lra|]. right. field. lra. }
    lra.
Qed.
(** later bands have at least as many samples, so the longest array suffices for all *)
Theorem C130_monotone T f g a b : 0 < T -> 0 <= f <= g -> (a <= b)%nat -> (Nb T f a <= Nb T g b)%Z.
Proof.
  intros TP [F G] AB. unfold Nb. apply Z.max_le_compat; [|apply Z.pow_le_mono_r; lia].
  unfold round_up2. apply Z.pow_le_mono_r; [lia|]. apply zceil_mono. assert (L2 : 0 < ln 2) by (rewrite <- ln_1 at 1; apply ln_increasing; lra).
  unfold Rdiv. apply Rmult_le_compat_r; [left; apply Rinv_0_lt_compat; exact L2|].
  assert (0 <= f * T) by (apply Rmult_le_pos; lra). assert (f * T <= g * T) by (apply Rmult_le_compat_r; lra).
  destruct (Req_dec (f * T) (g * T)) as [->|NE]; [lra|]. left. apply ln_increasing; lra.
Qed.
Example C130_example : Nb 4 (7/4) 1 = 16%Z /\ Mb 4 (7/4) 1 = 8%Z.
Proof.
  assert (E : Nb 4 (7/4) 1 = 16%Z); [|unfold Mb; rewrite E; split; reflexivity].
  unfold Nb, round_up2. replace (2 * (7/4 * 4 + 1)) with (2 ^ 4) by field.
  assert (L2 : 0 < ln 2) by (rewrite <- ln_1 at 1; apply ln_increasing; lra).
  replace (ln (2 ^ 4) / ln 2) with (IZR 4). 
  - assert (C : zceil (IZR 4) = 4%Z). { destruct (ceil_spec (IZR 4)) as [A B]. apply le_IZR in A. rewrite <- plus_IZR in B. apply lt_IZR in B. lia. } rewrite C. reflexivity.
  - replace (ln (2 ^ 4)) with (4 * ln 2); [change (IZR 4) with 4; field; lra|]. rewrite <- Rpower_pow by lra. unfold Rpower. rewrite ln_exp. cbn. ring.
Qed.

(** ** Assumptions of every theorem above *)
Definition Mband_Props_all :=
  (@C127_derivative,
   @C127_default_maximum,
   @C127_condition_monotone,
   @C127_search,
   @C127_bands,
   @C127_reload,
   @C128_window,
   @C128_partition,
   @C128_overlap_refuted,
   @C129_band,
   @C129_affine_band,
   @C129_exact,
   @C130_integers,
   @C130_monotone).
Print Assumptions Mband_Props_all.
