(** C224: length of dynesty's random walks. *)
From Coq Require Import Reals ZArith List Bool Lra Lia.
From Verif Require Import PyReal Walks_Model.
Import ListNotations.
Open Scope R_scope.

Lemma ceil_spec x : x <= IZR (ceil x) < x + 1.
Proof. unfold ceil. destruct (Int_part_spec (- x)) as [A B]. rewrite opp_IZR. lra. Qed.
Lemma ceil_unique x z : x <= IZR z < x + 1 -> ceil x = z.
Proof. intro H. unfold ceil. rewrite (Int_part_unique (- x) (- z)); [lia|]. rewrite opp_IZR. lra. Qed.
Section Walks.
Context (nlive target maxmcmc : Z) (Hl : (10 <= nlive)%Z) (Ht : (1 <= target)%Z) (Hm : (1 <= maxmcmc)%Z).
Notation d := (nlive / 10)%Z.
Notation upd := (update_user nlive target maxmcmc).
Notation run := (updates nlive target maxmcmc).
Lemma d_pos : (1 <= d)%Z.
Proof. apply Z.div_le_lower_bound; lia. Qed.
Lemma d_pos' : 1 <= IZR d.
Proof. apply IZR_le. exact d_pos. Qed.
Lemma upd_eq s b u : (1 <= kw_walks s)%Z -> exists r kr, upd s b u =
  Some (Sampler ((walks s * (IZR d - 1) + IZR target * IZR (kw_walks s) / Rmax (1 / 2) (accept b)) / IZR d)
         (Z.min (ceil ((walks s * (IZR d - 1) + IZR target * IZR (kw_walks s) / Rmax (1 / 2) (accept b)) / IZR d)) maxmcmc) r kr).
Proof.
  intro Hk. unfold update_user. destruct (flags s b u) as [r kr]. destruct (Z.eqb_spec (kw_walks s) 0); [lia|].
  pose proof d_pos as Dp. destruct (Z.eqb_spec (d - 1 + 1) 0); [lia|]. exists r, kr. apply f_equal.
  assert (Hm0 : 0 < Rmax (1 / 2) (accept b)) by (pose proof (Rmax_l (1 / 2) (accept b)); lra).
  assert (Hk0 : 0 < IZR (kw_walks s)) by (apply IZR_lt; lia).
  replace (IZR target / (Rmax (1 / 2) (accept b) / IZR (kw_walks s))) with (IZR target * IZR (kw_walks s) / Rmax (1 / 2) (accept b)) by (field; lra).
  replace (IZR (d - 1 + 1)) with (IZR d) by (f_equal; lia). rewrite minus_IZR. reflexivity.
Qed.
Definition good (s : sampler) : Prop := 0 < walks s /\ (1 <= kw_walks s)%Z.
Lemma upd_good s b u : good s -> exists s', upd s b u = Some s' /\ good s' /\ (kw_walks s' <= maxmcmc)%Z /\ kw_walks s' = Z.min (ceil (walks s')) maxmcmc.
Proof.
  intros (Hw & Hk). destruct (upd_eq s b u Hk) as (r & kr & E). rewrite E. eexists. split; [reflexivity|]. unfold good. cbn [walks kw_walks].
  set (w := _ / IZR d). pose proof d_pos' as Dp.
  assert (Wp : 0 < w).
  { apply Rdiv_lt_0_compat; [|lra]. apply Rplus_le_lt_0_compat; [apply Rmult_le_pos; lra|].
    pose proof (Rmax_l (1 / 2) (accept b)). apply Rdiv_lt_0_compat; [|lra]. apply Rmult_lt_0_compat; apply IZR_lt; lia. }
  destruct (ceil_spec w) as [C1 _]. assert (0 < ceil w)%Z by (apply lt_IZR; lra). repeat split; try lia. exact Wp.
Qed.
(** With at least ten live points no update fails; the length used is at least 1 and never above maxmcmc. *)
Theorem C224_bounds l s : good s -> l <> [] -> exists s', run s l = Some s' /\ 0 < walks s' /\ (1 <= kw_walks s' <= maxmcmc)%Z /\
  kw_walks s' = Z.min (ceil (walks s')) maxmcmc.
Proof.
  intros G Hl0. destruct l as [|x l]; [congruence|]. clear Hl0. revert s x G. induction l as [|y l IH]; intros s [b u] G; destruct (upd_good s b u G) as (s1 & E & G1 & M1 & M2); cbn [updates]; rewrite E.
  - exists s1. split; [reflexivity|]. destruct G1. repeat split; auto.
  - destruct y as [b' u']. apply (IH s1 (b', u') G1).
Qed.
(** The internal length stays below the larger of its start and 2 target maxmcmc. *)
Theorem C224_internal l s : good s -> (kw_walks s <= maxmcmc)%Z -> exists s', run s l = Some s' /\ walks s' <= Rmax (walks s) (2 * IZR target * IZR maxmcmc).
Proof.
  revert s. induction l as [|[b u] l IH]; intros s G K; [exists s; split; [reflexivity | apply Rmax_l]|]. cbn [updates]. destruct (upd_good s b u G) as (s1 & E & G1 & M1 & _). rewrite E.
  destruct (IH s1 G1 M1) as (s' & E' & B). exists s'. split; [exact E'|]. apply Rle_trans with (1 := B). apply Rmax_lub; [|apply Rmax_r].
  destruct (upd_eq s b u (proj2 G)) as (r & kr & E2). rewrite E in E2. injection E2 as ->. cbn [walks]. pose proof d_pos' as Dp.
  apply (Rmult_le_reg_r (IZR d)); [lra|]. unfold Rdiv at 1. rewrite Rmult_assoc, Rinv_l, Rmult_1_r by lra.
  set (m := Rmax (walks s) _). assert (walks s <= m) by apply Rmax_l. assert (2 * IZR target * IZR maxmcmc <= m) by apply Rmax_r.
  assert (IZR target * IZR (kw_walks s) / Rmax (1 / 2) (accept b) <= 2 * IZR target * IZR maxmcmc).
  { pose proof (Rmax_l (1 / 2) (accept b)). apply (Rmult_le_reg_r (Rmax (1 / 2) (accept b))); [lra|]. unfold Rdiv. rewrite Rmult_assoc, Rinv_l, Rmult_1_r by lra.
    assert (1 <= IZR target) by (apply IZR_le; lia). assert (1 <= IZR (kw_walks s)) by (apply IZR_le; apply G). assert (IZR (kw_walks s) <= IZR maxmcmc) by (apply IZR_le; exact K).
    assert (IZR target * IZR (kw_walks s) <= IZR target * IZR maxmcmc) by (apply Rmult_le_compat_l; lra). assert (0 <= IZR target * IZR maxmcmc) by (apply Rmult_le_pos; lra).
    apply Rle_trans with (2 * IZR target * IZR maxmcmc * (1 / 2)); [lra|]. apply Rmult_le_compat_l; lra. }
  assert (walks s * (IZR d - 1) <= m * (IZR d - 1)) by (apply Rmult_le_compat_r; lra). lra.
Qed.
(** a run of updates in which each walk accepts the fraction p of its steps, at least half a step *)
Inductive steady (p : R) : sampler -> list (blob * bool) -> sampler -> Prop :=
| steady_nil s : steady p s [] s
| steady_cons s b u s1 l s' : accept b = p * IZR (kw_walks s) -> 1 / 2 <= accept b -> upd s b u = Some s1 -> steady p s1 l s' -> steady p s ((b, u) :: l) s'.
(** At a constant acceptance p the length approaches target / p, by the factor 1 - 1/(nlive // 10) at every
    update. *)
Theorem C224_converges p l s s' : 0 < p -> good s -> steady p s l s' ->
  walks s' - IZR target / p = (1 - / IZR d) ^ length l * (walks s - IZR target / p).
Proof.
  intros Hp G H. induction H as [s | s b u s1 l s' A1 A2 E St IH]; [cbn; ring|].
  destruct (upd_good s b u G) as (s2 & E2 & G2 & _). rewrite E in E2. injection E2 as <-. rewrite (IH G2). cbn [length pow].
  destruct (upd_eq s b u (proj2 G)) as (r & kr & E3). rewrite E in E3. injection E3 as ->. cbn [walks]. rewrite Rmax_right by exact A2. rewrite A1. pose proof d_pos' as Dp.
  assert (1 <= IZR (kw_walks s)) by (apply IZR_le; apply G).
  replace ((walks s * (IZR d - 1) + IZR target * IZR (kw_walks s) / (p * IZR (kw_walks s))) / IZR d - IZR target / p) with ((1 - / IZR d) * (walks s - IZR target / p)) by (field; lra).
  ring.
Qed.
(** Once a walk accepts exactly the target the length does not change any more, as long as walks do. *)
Theorem C224_fixed s b u s' : good s -> kw_walks s = ceil (walks s) -> (kw_walks s <= maxmcmc)%Z -> accept b = IZR target -> upd s b u = Some s' ->
  kw_walks s' = kw_walks s /\ kw_walks s' = ceil (walks s').
Proof.
  intros G K M A E. destruct (upd_eq s b u (proj2 G)) as (r & kr & E3). rewrite E in E3. injection E3 as ->. cbn [walks kw_walks]. rewrite A.
  assert (1 <= IZR target) by (apply IZR_le; lia). rewrite Rmax_right by lra. replace (IZR target * IZR (kw_walks s) / IZR target) with (IZR (kw_walks s)) by (field; lra).
  set (w := _ / IZR d). pose proof d_pos' as Dp. destruct (ceil_spec (walks s)) as [C1 C2]. rewrite <- K in C1, C2.
  assert (Q : w = walks s + (IZR (kw_walks s) - walks s) * / IZR d) by (unfold w; field; lra).
  assert (I1 : 0 < / IZR d <= 1) by (split; [apply Rinv_0_lt_compat; lra | rewrite <- Rinv_1; apply Rinv_le_contravar; lra]).
  assert (ceil w = kw_walks s) as -> by (apply ceil_unique; rewrite Q; nra). split; lia.
Qed.
(** A walk that accepts nothing counts as half a step: the length grows by (2 target - 1)/(nlive // 10) of
    itself at once - more than doubled with the default target of 60 up to 1199 live points. *)
Theorem C224_failure s b u s' : good s -> IZR (kw_walks s) = walks s -> accept b = 0 -> upd s b u = Some s' ->
  walks s' = walks s * (1 + (2 * IZR target - 1) / IZR d) /\ ((2 * target - 1 > d)%Z -> walks s' > 2 * walks s).
Proof.
  intros G K A E. destruct (upd_eq s b u (proj2 G)) as (r & kr & E3). rewrite E in E3. injection E3 as ->. cbn [walks]. rewrite A, K. rewrite Rmax_left by lra. pose proof d_pos' as Dp.
  assert (Q : (walks s * (IZR d - 1) + IZR target * walks s / (1 / 2)) / IZR d = walks s * (1 + (2 * IZR target - 1) / IZR d)) by (field; lra).
  split; [exact Q|]. intro Hd. rewrite Q. destruct G as [Gw _]. assert (D : IZR d < 2 * IZR target - 1) by (rewrite <- mult_IZR, <- minus_IZR; apply IZR_lt; lia).
  assert (1 < (2 * IZR target - 1) / IZR d) by (apply (Rmult_lt_reg_r (IZR d)); [lra|]; unfold Rdiv; rewrite Rmult_assoc, Rinv_l; lra). nra.
Qed.
(** The flag: an update tells the walkers to rebuild exactly if some call since the last update reported its
    last cached point. *)
Definition reported (c : blob * bool) : Prop := remaining (fst c) = Some 1%Z.
Theorem C224_rebuild before quiet b s : good s -> (forall c, In c quiet -> snd c = false) ->
  (before = [] /\ rebuild s = false \/ exists before' b', before = before' ++ [(b', true)]) ->
  exists s', run s (before ++ quiet ++ [(b, true)]) = Some s' /\ rebuild s' = false /\
  (kw_rebuild s' = Some true <-> exists c, In c (quiet ++ [(b, true)]) /\ reported c) /\ kw_rebuild s' <> None.
Proof.
  intros G Hq Hb.
  assert (App : forall l1 l2 s, run s (l1 ++ l2) = match run s l1 with Some s1 => run s1 l2 | None => None end).
  { induction l1 as [|[b1 u1] l1 IH]; intros l2 s0; [reflexivity|]. cbn. destruct (upd s0 b1 u1); [apply IH | reflexivity]. }
  assert (Fl : forall s0 b0 u0 s1, upd s0 b0 u0 = Some s1 -> (rebuild s1, kw_rebuild s1) = flags s0 b0 u0).
  { intros s0 b0 u0 s1 E. unfold update_user in E. destruct (flags s0 b0 u0). destruct (_ =? 0)%Z; [discriminate|]. destruct (_ =? 0)%Z; [discriminate|]. injection E as <-. reflexivity. }
  assert (Rn : forall l s0, good s0 -> exists s1, run s0 l = Some s1 /\ good s1).
  { induction l as [|[b0 u0] l IH]; intros s0 G0; [exists s0; auto|]. cbn. destruct (upd_good s0 b0 u0 G0) as (s1 & E & G1 & _). rewrite E. apply (IH s1 G1). }
  assert (B : exists s1, run s before = Some s1 /\ good s1 /\ rebuild s1 = false).
  { destruct Hb as [[-> R0] | (bf & b' & ->)]; [exists s; auto|]. rewrite App. destruct (Rn bf s G) as (s1 & E1 & G1). rewrite E1. cbn [updates].
    destruct (upd_good s1 b' true G1) as (s2 & E2 & G2 & _). rewrite E2. exists s2. split; [reflexivity|]. split; [exact G2|]. pose proof (Fl _ _ _ _ E2) as F. unfold flags in F. injection F as F _. exact F. }
  destruct B as (s1 & E1 & G1 & R1). rewrite App, E1. clear -Hq G1 R1 Fl Hl Ht Hm.
  assert (Q : forall quiet s1, (forall c, In c quiet -> snd c = false) -> good s1 -> exists s', run s1 (quiet ++ [(b, true)]) = Some s' /\ rebuild s' = false /\
     (kw_rebuild s' = Some true <-> rebuild s1 = true \/ exists c, In c (quiet ++ [(b, true)]) /\ reported c) /\ kw_rebuild s' <> None).
  { clear quiet Hq s1 G1 R1. induction quiet as [|[b0 u0] quiet IH]; intros s1 Hq G1; cbn [app updates].
    - destruct (upd_good s1 b true G1) as (s2 & E2 & G2 & _). rewrite E2. exists s2. split; [reflexivity|]. pose proof (Fl _ _ _ _ E2) as F. unfold flags in F. injection F as F1 F2. split; [exact F1|].
      rewrite F2. split; [|discriminate]. unfold reported. destruct (remaining b) as [r|] eqn:Er.
      + destruct (Z.eqb_spec r 1); split.
        * intros _. right. exists (b, true). split; [left; reflexivity|]. cbn. congruence.
        * reflexivity.
        * intro X. injection X as X. left. exact X.
        * intros [X | (c & [<- | []] & X)]; [now rewrite X|]. cbn in X. congruence.
      + split; [intro X; injection X as X; left; exact X|]. intros [X | (c & [<- | []] & X)]; [now rewrite X|]. cbn in X. congruence.
    - destruct (upd_good s1 b0 u0 G1) as (s2 & E2 & G2 & _). rewrite E2. assert (u0 = false) as -> by (apply (Hq (b0, u0)); left; reflexivity).
      destruct (IH s2 ltac:(intros c Hc; apply Hq; right; exact Hc) G2) as (s' & E' & F1 & F2 & F3). exists s'. split; [exact E'|]. split; [exact F1|]. split; [|exact F3]. rewrite F2.
      pose proof (Fl _ _ _ _ E2) as F. unfold flags in F. injection F as F _. rewrite F.
      destruct (remaining b0) as [r|] eqn:Er; [destruct (Z.eqb_spec r 1)|]; split.
      + intros _. right. exists (b0, false). split; [left; reflexivity|]. unfold reported. cbn. congruence.
      + intros _. left. reflexivity.
      + intros [X | (c & Hc & X)]; [left; exact X | right; exists c; split; [right; exact Hc | exact X]].
      + intros [X | (c & [<- | Hc] & X)]; [left; exact X | unfold reported in X; cbn in X; congruence | right; exists c; split; assumption].
      + intros [X | (c & Hc & X)]; [left; exact X | right; exists c; split; [right; exact Hc | exact X]].
      + intros [X | (c & [<- | Hc] & X)]; [left; exact X | unfold reported in X; cbn in X; congruence | right; exists c; split; assumption]. }
  destruct (Q quiet s1 Hq G1) as (s' & E & F1 & F2 & F3). exists s'. split; [exact E|]. split; [exact F1|]. split; [|exact F3]. rewrite F2, R1. split; [intros [X | X]; [discriminate X | exact X] | tauto].
Qed.
End Walks.
(** With fewer than ten live points every update raises ZeroDivisionError. *)
Theorem C224_few_live_points_refuted nlive target maxmcmc s b u : (0 <= nlive < 10)%Z -> update_user nlive target maxmcmc s b u = None.
Proof.
  intro H. unfold update_user. destruct (flags s b u). destruct (_ =? 0)%Z; [reflexivity|]. rewrite Z.div_small by lia. reflexivity.
Qed.
(** 100 live points (a tenth of the way at every update), target 60: a walk of 100 accepting 20 steps. *)
Example C224_example : update_user 100 60 5000 (Sampler 100 100 false None) (Blob 20 (Some 1%Z)) true = Some (Sampler 120 120 false (Some true)).
Proof.
  unfold update_user. cbn [flags remaining walks kw_walks rebuild accept Z.eqb Pos.eqb]. change (100 / 10 - 1)%Z with 9%Z. cbn [Z.eqb Z.add Pos.add Pos.succ Pos.eqb].
  rewrite Rmax_right by lra. replace ((100 * 9 + 60 / (20 / 100)) / 10) with 120 by lra.
  rewrite (ceil_unique 120 120) by lra. reflexivity.
Qed.

(** ** Assumptions of every theorem above *)
Definition Walks_Props_all :=
  (@C224_bounds,
   @C224_internal,
   @C224_converges,
   @C224_fixed,
   @C224_failure,
   @C224_rebuild,
   @C224_few_live_points_refuted).
Print Assumptions Walks_Props_all.
