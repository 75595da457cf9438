(** C231: response of a detector to the polarizations of a signal. *)
From Coq Require Import String Reals List Bool Lra Lia Arith.
From Coquelicot Require Import Complex.
From Verif Require Import PyDict Resp_Model.
Import ListNotations.
Open Scope R_scope.

Definition csum (l : list C) : C := fold_right Cplus (RtoC 0) l.
Lemma csum_app a b : csum (a ++ b) = (csum a + csum b)%C.
Proof. unfold csum. induction a as [|x a IH]; cbn [app fold_right]; [rewrite Cplus_0_l; reflexivity|]. rewrite IH. apply Cplus_assoc. Qed.

Lemma plus_ok a b : length (vals a) = length (vals b) -> exists c, plus a b = Some c /\ is_real c = is_real a && is_real b /\ length (vals c) = length (vals a) /\
  forall k, nth k (vals c) (RtoC 0) = (nth k (vals a) (RtoC 0) + nth k (vals b) (RtoC 0))%C.
Proof.
  intros L. unfold plus. rewrite (proj2 (Nat.eqb_eq _ _) L). eexists. split; [reflexivity|]. cbn [is_real vals]. split; [reflexivity|]. split; [rewrite map_length, combine_length; lia|].
  intros k. destruct (lt_dec k (length (vals a))) as [H|H].
  - rewrite (nth_indep _ (RtoC 0) (RtoC 0 + RtoC 0)%C) by (rewrite map_length, combine_length; lia).
    change (RtoC 0 + RtoC 0)%C with ((fun q : C * C => (fst q + snd q)%C) (RtoC 0, RtoC 0)). rewrite map_nth, combine_nth by exact L. reflexivity.
  - rewrite !nth_overflow by (rewrite ?map_length, ?combine_length; lia). ring.
Qed.
Lemma total_ok n l : forall a, length (vals a) = n -> (List.Forall (fun b => length (vals b) = n) l ->
  exists s, total a l = Some s /\ is_real s = forallb is_real (a :: l) /\ length (vals s) = n /\ forall k, nth k (vals s) (RtoC 0) = csum (map (fun b => nth k (vals b) (RtoC 0)) (a :: l))) /\
  (~ List.Forall (fun b => length (vals b) = n) l -> total a l = None).
Proof.
  induction l as [|b l IH]; intros a La.
  - split; [|intros H; exfalso; apply H; constructor]. intros _. exists a. split; [reflexivity|]. cbn. split; [rewrite andb_true_r; reflexivity|]. split; [exact La|]. intros k. ring.
  - cbn [total]. destruct (Nat.eq_dec (length (vals b)) n) as [Lb|Lb].
    + destruct (plus_ok a b) as (c & E & Rl & Lc & K); [lia|]. rewrite E. destruct (IH c) as [A B]; [lia|]. split.
      * intros F. inversion F as [|? ? _ F']; subst. destruct (A F') as (s & E' & R' & L' & K'). exists s. split; [exact E'|]. split; [rewrite R'; cbn; rewrite Rl, andb_assoc; reflexivity|]. split; [exact L'|].
        intros k. rewrite K'. cbn. rewrite K. ring.
      * intros N. apply B. intros F. apply N. constructor; assumption.
    + assert (E : plus a b = None) by (unfold plus; destruct (Nat.eqb_spec (length (vals a)) (length (vals b))); [lia|reflexivity]). rewrite E. split; [|reflexivity].
      intros F. inversion F; subst. contradiction.
Qed.
Lemma put_select {A B} (f : A * B -> A) m : forall (v : list A) (F : list B), length v = length m -> length F = length m ->
  put m v (map f (combine (select m v) (select m F))) = map (fun t : bool * (A * B) => if fst t then f (snd t) else fst (snd t)) (combine m (combine v F)).
Proof.
  induction m as [|b m IH]; intros [|x v] [|y F] Lv LF; try discriminate; [reflexivity|]. injection Lv as Lv. injection LF as LF. destruct b; cbn [select combine map put fst snd]; rewrite IH by assumption; reflexivity.
Qed.
Lemma nth_put_select {A B} (f : A * B -> A) m v (F : list B) k da db : length v = length m -> length F = length m -> (k < length m)%nat ->
  nth k (put m v (map f (combine (select m v) (select m F)))) da = if nth k m false then f (nth k v da, nth k F db) else nth k v da.
Proof.
  intros Lv LF K. rewrite put_select by assumption. set (g := fun t : bool * (A * B) => if fst t then f (snd t) else fst (snd t)).
  rewrite (nth_indep _ da (g (false, (da, db)))) by (rewrite map_length, !combine_length; lia). rewrite map_nth, !combine_nth by (rewrite ?combine_length; lia). unfold g. cbn [fst snd]. reflexivity.
Qed.
Lemma put_length {A B} (f : A * B -> A) m v (F : list B) : length v = length m -> length F = length m -> length (put m v (map f (combine (select m v) (select m F)))) = length m.
Proof. intros. rewrite put_select by assumption. rewrite map_length, !combine_length. lia. Qed.

Section Response.
Variable name : string.
Variable pattern : string -> R.
Variable cal : R -> C.
Variable cal_real : bool.
Notation respond := (respond name pattern cal cal_real).
Notation get := (get_detector_response name pattern cal cal_real).
Definition reals (pols : dict arr) : bool := forallb (fun q => is_real (snd q)) pols.
Definition fits (n : nat) (pols : dict arr) : Prop := List.Forall (fun q => length (vals (snd q)) = n) pols.
(** the polarizations weighted with the antenna patterns *)
Definition weighted (pols : dict arr) (k : nat) : C := csum (map (fun q => RtoC (antenna_response name pattern (fst q)) * nth k (vals (snd q)) (RtoC 0))%C pols).

Lemma scaled (pols : dict arr) n : let l := map (fun q => scale (antenna_response name pattern (fst q)) (snd q)) pols in
  forallb is_real l = reals pols /\ (List.Forall (fun b => length (vals b) = n) l <-> fits n pols) /\ (forall k, csum (map (fun b => nth k (vals b) (RtoC 0)) l) = weighted pols k).
Proof.
  cbv zeta. split; [|split].
  - unfold reals. induction pols as [|q t IH]; [reflexivity|]. cbn. rewrite IH. reflexivity.
  - unfold fits. rewrite !Forall_forall. split.
    + intros H q I. specialize (H _ (in_map _ _ _ I)). cbn in H. rewrite map_length in H. exact H.
    + intros H b I. apply in_map_iff in I. destruct I as (q & <- & I). cbn. rewrite map_length. apply H, I.
  - intros k. unfold weighted. apply f_equal. rewrite map_map. apply map_ext. intros q. cbn [scale vals]. set (x := antenna_response name pattern (fst q)).
    rewrite <- (map_nth (fun z => RtoC x * z)%C). f_equal. ring.
Qed.
Lemma respond_ok pols mask F dt : length F = length mask -> pols <> [] -> fits (length mask) pols -> (reals pols = false \/ cal_real = true) ->
  exists r, respond pols mask (select mask F) dt = Some r /\ is_real r = reals pols /\ length (vals r) = length mask /\
  forall k, (k < length mask)%nat -> nth k (vals r) (RtoC 0) = if nth k mask false
     then (store (reals pols) (weighted pols k * cis (- (2 * PI * dt * nth k F 0))) * cal (nth k F 0))%C else RtoC 0.
Proof.
  intros LF NE FT RC. unfold Resp_Model.respond. destruct (scaled pols (length mask)) as (S1 & S2 & S3).
  destruct (map _ pols) as [|a l] eqn:E; [destruct pols; [contradiction|discriminate]|]. apply S2 in FT. inversion FT as [|? ? La Fl]; subst.
  destruct (total_ok (length mask) l a La) as [T _]. destruct (T Fl) as (s & -> & Rs & Ls & Ks). rewrite S1 in Rs. rewrite (proj2 (Nat.eqb_eq _ _) Ls). rewrite Rs.
  set (v0 := map _ (combine (vals s) mask)). assert (L0 : length v0 = length mask) by (unfold v0; rewrite map_length, combine_length; lia).
  assert (V0 : forall k, (k < length mask)%nat -> nth k v0 (RtoC 0) = if nth k mask false then weighted pols k else RtoC 0).
  { intros k K. unfold v0. set (g := fun q : C * bool => if snd q then fst q else RtoC 0). rewrite (nth_indep _ (RtoC 0) (g (RtoC 0, false))) by (rewrite map_length, combine_length; lia).
    rewrite map_nth, combine_nth by exact Ls. unfold g. cbn [fst snd]. rewrite Ks, S3. reflexivity. }
  set (f1 := fun q : C * R => store (reals pols) (fst q * cis (- (2 * PI * dt * snd q)))%C). set (f2 := fun q : C * R => (fst q * cal (snd q))%C).
  set (v1 := put mask v0 (map f1 (combine (select mask v0) (select mask F)))). assert (L1 : length v1 = length mask) by (apply put_length; assumption).
  assert (Q : reals pols && negb cal_real = false) by (destruct RC as [-> | ->]; [reflexivity|apply andb_false_r]). rewrite Q.
  eexists. split; [reflexivity|]. cbn [is_real vals]. split; [reflexivity|]. split; [apply put_length; assumption|].
  intros k K. rewrite (nth_put_select f2 mask v1 F k (RtoC 0) 0 L1 LF K). unfold v1. rewrite (nth_put_select f1 mask v0 F k (RtoC 0) 0 L0 LF K). rewrite (V0 k K).
  destruct (nth k mask false); reflexivity.
Qed.
Lemma respond_none pols mask fs dt : respond pols mask fs dt = None <-> pols = [] \/ ~ fits (length mask) pols \/ (reals pols = true /\ cal_real = false).
Proof.
  unfold Resp_Model.respond. destruct (scaled pols (length mask)) as (S1 & S2 & _). destruct pols as [|q0 pols]; [split; [left; reflexivity|reflexivity]|]. cbn [map]. cbn [map] in S1, S2.
  set (a := scale _ _) in *. set (l := map _ pols) in *. destruct (total_ok (length (vals a)) l a eq_refl) as [T N].
  assert (D : {List.Forall (fun b => length (vals b) = length (vals a)) l} + {~ List.Forall (fun b => length (vals b) = length (vals a)) l}) by (apply Forall_dec; intros; apply Nat.eq_dec).
  destruct D as [F|F].
  - destruct (T F) as (s & -> & Rs & Ls & _). rewrite S1 in Rs. rewrite Ls, Rs. destruct (Nat.eqb_spec (length (vals a)) (length mask)) as [E|E].
    + assert (FT : fits (length mask) (q0 :: pols)) by (apply S2; rewrite <- E; constructor; [reflexivity|exact F]).
      destruct (reals (q0 :: pols)), cal_real; cbn [andb negb]; (split; [intros H; try discriminate; tauto|intros [H|[H|[H H']]]; try discriminate; try contradiction; reflexivity]).
    + split; [|reflexivity]. intros _. right. left. intros FT. apply S2 in FT. inversion FT; subst. congruence.
  - rewrite (N F). split; [|reflexivity]. intros _. right. left. intros FT. apply S2 in FT. inversion FT as [|? ? Fa Fl]; subst. apply F. rewrite Fa. exact Fl.
Qed.
Lemma select_all {A} (l : list A) : select (repeat true (length l)) l = l.
Proof. induction l as [|x l IH]; [reflexivity|]. cbn. rewrite IH. reflexivity. Qed.

(** ** C231 When the response exists, and its value at every frequency *)
Theorem C231_value pols F mask tc t0 delay : length F = length mask -> let dt := tc - t0 + delay in
  (get pols F mask None tc t0 delay = None <-> pols = [] \/ ~ fits (length mask) pols \/ (reals pols = true /\ cal_real = false)) /\
  (forall r, get pols F mask None tc t0 delay = Some r -> is_real r = reals pols /\ length (vals r) = length mask /\
   forall k, (k < length mask)%nat -> nth k (vals r) (RtoC 0) = if nth k mask false
     then (store (reals pols) (weighted pols k * cis (- (2 * PI * dt * nth k F 0))) * cal (nth k F 0))%C else RtoC 0).
Proof.
  intros LF. cbv zeta. unfold get_detector_response. split; [apply respond_none|]. intros r H.
  assert (D : ~ (pols = [] \/ ~ fits (length mask) pols \/ (reals pols = true /\ cal_real = false))) by (rewrite <- (respond_none pols mask (select mask F) (tc - t0 + delay)); congruence).
  assert (FT : fits (length mask) pols). { destruct (Forall_dec (fun q : string * arr => length (vals (snd q)) = length mask) (fun q => Nat.eq_dec _ _) pols) as [X|X]; [exact X|]. exfalso. apply D. right. left. exact X. }
  assert (RC : reals pols = false \/ cal_real = true) by (destruct (reals pols), cal_real; auto; exfalso; apply D; auto).
  destruct (respond_ok pols mask F (tc - t0 + delay) LF) as (r' & E & X); [intros ->; apply D; auto|exact FT|exact RC|]. rewrite H in E. injection E as <-. exact X.
Qed.
(** ** C231 Given frequencies: no mask, and the same numbers as with the mask if the polarizations are taken at its frequencies *)
Definition at_mask (mask : list bool) (pols : dict arr) : dict arr := map (fun q => (fst q, Arr (is_real (snd q)) (select mask (vals (snd q))))) pols.
Lemma select_length {A B} (m : list bool) : forall (a : list A) (b : list B), length a = length m -> length b = length m -> length (select m a) = length (select m b).
Proof. induction m as [|x m IH]; intros [|p a] [|q b] La Lb; try discriminate; [reflexivity|]. injection La as La. injection Lb as Lb. destruct x; cbn; rewrite (IH a b La Lb); reflexivity. Qed.
(** the place of the k-th selected entry *)
Lemma select_nth (m : list bool) k : (k < count_occ bool_dec m true)%nat -> exists j, (j < length m)%nat /\ nth j m false = true /\
  forall {A} (l : list A) d, length l = length m -> nth k (select m l) d = nth j l d.
Proof.
  revert k. induction m as [|b m IH]; intros k K; [inversion K|]. destruct b; cbn [count_occ] in K.
  - destruct (bool_dec true true) as [_|N]; [|congruence]. destruct k as [|k].
    + exists 0%nat. split; [cbn; lia|]. split; [reflexivity|]. intros A [|x l] d L; [discriminate|reflexivity].
    + destruct (IH k) as (j & J1 & J2 & J3); [lia|]. exists (S j). split; [cbn; lia|]. split; [exact J2|]. intros A [|x l] d L; [discriminate|]. injection L as L. cbn. apply J3, L.
  - destruct (bool_dec false true) as [N|_]; [discriminate|]. destruct (IH k K) as (j & J1 & J2 & J3). exists (S j). split; [cbn; lia|]. split; [exact J2|]. intros A [|x l] d L; [discriminate|]. injection L as L. cbn. apply J3, L.
Qed.
Lemma select_count {A} (m : list bool) : forall l : list A, length l = length m -> length (select m l) = count_occ bool_dec m true.
Proof. induction m as [|b m IH]; intros [|x l] L; try discriminate; [reflexivity|]. injection L as L. destruct b; cbn [select length count_occ]; [destruct (bool_dec true true); [|congruence]|destruct (bool_dec false true); [discriminate|]]; rewrite ?IH by exact L; reflexivity. Qed.
Theorem C231_given pols F mask tc t0 delay r : length F = length mask -> fits (length mask) pols -> get pols F mask None tc t0 delay = Some r ->
  exists g, get (at_mask mask pols) F mask (Some (select mask F)) tc t0 delay = Some g /\ vals g = select mask (vals r) /\ is_real g = is_real r.
Proof.
  intros LF FT H. destruct (C231_value pols F mask tc t0 delay LF) as [N V]. destruct (V r H) as (R1 & R2 & R3). cbv zeta in *.
  assert (D : ~ (pols = [] \/ ~ fits (length mask) pols \/ (reals pols = true /\ cal_real = false))) by (rewrite <- N; congruence).
  assert (RC : reals pols = false \/ cal_real = true) by (destruct (reals pols), cal_real; auto; exfalso; apply D; auto).
  set (f := select mask F). assert (Lf : length f = count_occ bool_dec mask true) by (apply select_count, LF).
  assert (RM : reals (at_mask mask pols) = reals pols) by (unfold reals, at_mask; clear; induction pols as [|q t IH]; [reflexivity|]; cbn; rewrite IH; reflexivity).
  assert (FM : fits (length (repeat true (length f))) (at_mask mask pols)).
  { rewrite repeat_length, Lf. unfold fits, at_mask in *. rewrite Forall_forall in *. intros q I. apply in_map_iff in I. destruct I as (q' & <- & I). cbn. apply select_count. apply FT, I. }
  destruct (respond_ok (at_mask mask pols) (repeat true (length f)) f (tc - t0 + delay)) as (g & E & G1 & G2 & G3); [rewrite repeat_length; reflexivity|destruct pols; [exfalso; apply D; auto|discriminate]|exact FM|rewrite RM; exact RC|].
  rewrite select_all in E. exists g. split; [exact E|]. split; [|rewrite G1, RM, R1; reflexivity].
  rewrite repeat_length in *. apply (nth_ext _ _ (RtoC 0) (RtoC 0)); [rewrite G2, Lf; symmetry; apply select_count; exact R2|]. intros k K. rewrite G2, Lf in K.
  rewrite G3 by lia. destruct (select_nth mask k K) as (j & J1 & J2 & J3).
  assert (T : nth k (repeat true (length f)) false = true) by (rewrite (nth_indep _ false true) by (rewrite repeat_length; lia); apply (repeat_spec (length f) true); apply nth_In; rewrite repeat_length; lia).
  rewrite T, (J3 C (vals r) (RtoC 0) R2), (R3 j J1), J2, RM. unfold f. rewrite (J3 R F 0 LF).
  assert (W : weighted (at_mask mask pols) k = weighted pols j).
  { unfold weighted, at_mask. rewrite map_map. apply f_equal. apply map_ext_in. intros q I. cbn [fst snd vals]. unfold fits in FT. rewrite Forall_forall in FT. rewrite (J3 C (vals (snd q)) (RtoC 0) (FT q I)). reflexivity. }
  rewrite W. reflexivity.
Qed.
(** ** C231 A later signal with the same patterns and delay: every value turns by its frequency, and keeps its size *)
Lemma cis_add a b : cis (a + b) = (cis a * cis b)%C.
Proof. unfold cis, Cmult. cbn [fst snd]. rewrite cos_plus, sin_plus. apply (f_equal2 pair); ring. Qed.
Lemma cis_mod x : Cmod (cis x) = 1.
Proof. unfold Cmod, cis. cbn [fst snd]. replace (cos x ^ 2 + sin x ^ 2) with 1; [apply sqrt_1|]. pose proof (sin2_cos2 x) as H. unfold Rsqr in H. lra. Qed.
Theorem C231_time pols F mask tc t0 delay delta r s : length F = length mask -> reals pols = false ->
  get pols F mask None tc t0 delay = Some r -> get pols F mask None (tc + delta) t0 delay = Some s ->
  (forall k, (k < length mask)%nat -> nth k (vals s) (RtoC 0) = (nth k (vals r) (RtoC 0) * cis (- (2 * PI * delta * nth k F 0)))%C) /\
  (forall k, (k < length mask)%nat -> Cmod (nth k (vals s) (RtoC 0)) = Cmod (nth k (vals r) (RtoC 0))) /\
  (forall u, get pols F mask None (tc + delta) (t0 + delta) delay = Some u -> vals u = vals r).
Proof.
  intros LF NR Hr Hs. destruct (proj2 (C231_value pols F mask tc t0 delay LF) r Hr) as (_ & Lr & Kr). destruct (proj2 (C231_value pols F mask (tc + delta) t0 delay LF) s Hs) as (_ & _ & Ks). cbv zeta in *.
  rewrite NR in *. cbn [store] in *.
  assert (A : forall k, (k < length mask)%nat -> nth k (vals s) (RtoC 0) = (nth k (vals r) (RtoC 0) * cis (- (2 * PI * delta * nth k F 0)))%C).
  { intros k K. rewrite (Ks k K), (Kr k K). destruct (nth k mask false); [|ring].
    replace (- (2 * PI * (tc + delta - t0 + delay) * nth k F 0)) with (- (2 * PI * (tc - t0 + delay) * nth k F 0) + - (2 * PI * delta * nth k F 0)) by ring. rewrite cis_add. ring. }
  split; [exact A|]. split; [intros k K; rewrite (A k K), Cmod_mult, cis_mod; ring|].
  intros u Hu. destruct (proj2 (C231_value pols F mask (tc + delta) (t0 + delta) delay LF) u Hu) as (_ & Lu & Ku). cbv zeta in *. rewrite NR in Ku. cbn [store] in Ku.
  apply (nth_ext _ _ (RtoC 0) (RtoC 0)); [congruence|]. intros k K. rewrite Lu in K. rewrite (Ku k K), (Kr k K). replace (tc + delta - (t0 + delta) + delay) with (tc - t0 + delay) by ring. reflexivity.
Qed.
(** ** C231 The response is linear in the polarizations *)
Definition mix (a b : C) (p q : dict arr) : dict arr :=
  map (fun t => (fst (fst t), Arr false (map (fun z => a * fst z + b * snd z)%C (combine (vals (snd (fst t))) (vals (snd (snd t))))))) (combine p q).
Theorem C231_linear p q a b F mask tc t0 delay rp rq rm : length F = length mask -> dkeys p = dkeys q -> reals p = false -> reals q = false -> fits (length mask) p -> fits (length mask) q ->
  get p F mask None tc t0 delay = Some rp -> get q F mask None tc t0 delay = Some rq -> get (mix a b p q) F mask None tc t0 delay = Some rm ->
  forall k, (k < length mask)%nat -> nth k (vals rm) (RtoC 0) = (a * nth k (vals rp) (RtoC 0) + b * nth k (vals rq) (RtoC 0))%C.
Proof.
  intros LF KE Rp Rq Fp Fq Hp Hq Hm k K. destruct (proj2 (C231_value p F mask tc t0 delay LF) rp Hp) as (_ & _ & Kp). destruct (proj2 (C231_value q F mask tc t0 delay LF) rq Hq) as (_ & _ & Kq).
  destruct (proj2 (C231_value (mix a b p q) F mask tc t0 delay LF) rm Hm) as (_ & _ & Km). cbv zeta in *.
  assert (NP : p <> []) by (intros ->; discriminate). assert (NQ : q <> []) by (intros ->; discriminate).
  assert (RM : reals (mix a b p q) = false) by (destruct p as [|x p]; [contradiction|]; destruct q as [|y q]; [contradiction|]; reflexivity).
  rewrite (Km k K), (Kp k K), (Kq k K), RM, Rp, Rq. cbn [store].
  assert (W : weighted (mix a b p q) k = (a * weighted p k + b * weighted q k)%C).
  { clear - KE Fp Fq. revert q KE Fq. unfold weighted, mix. induction p as [|[kx x] p IH]; intros [|[ky y] q] KE Fq; try discriminate; [cbn; ring|]. cbn in KE. injection KE as -> KE. inversion Fp as [|? ? F1 F2]; subst. inversion Fq as [|? ? G1 G2]; subst. cbn [snd] in *.
    cbn [combine map fst snd vals]. unfold csum. cbn [fold_right]. fold csum. specialize (IH F2 q KE G2). unfold csum in IH. rewrite IH.
    assert (E : nth k (map (fun z : C * C => (a * fst z + b * snd z)%C) (combine (vals x) (vals y))) (RtoC 0) = (a * nth k (vals x) (RtoC 0) + b * nth k (vals y) (RtoC 0))%C).
    { set (g := fun z : C * C => (a * fst z + b * snd z)%C). assert (Z : RtoC 0 = g (RtoC 0, RtoC 0)) by (unfold g; cbn [fst snd]; ring). rewrite Z at 1. rewrite map_nth, combine_nth by congruence. reflexivity. }
    rewrite E. ring. }
  rewrite W. destruct (nth k mask false); ring.
Qed.
End Response.
(** ** C231 Modes: the six polarizations go through the antenna pattern, the mode with the name of a detector enters that detector alone, others none *)
Definition six : list string := ["plus"; "cross"; "x"; "y"; "breathing"; "longitudinal"]%string.
Theorem C231_modes name pattern mode : 
  (In mode six -> antenna_response name pattern mode = pattern mode) /\ (~ In mode six -> mode = name -> antenna_response name pattern mode = 1) /\
  (~ In mode six -> mode <> name -> antenna_response name pattern mode = 0 /\
     forall pols x k, weighted name pattern ((mode, x) :: pols) k = weighted name pattern pols k).
Proof.
  change six with modes.
  assert (E : forall m, existsb (String.eqb m) modes = true <-> In m modes).
  { intros m. rewrite existsb_exists. split; [intros (x & I & Q); apply String.eqb_eq in Q; subst; exact I|intros I; exists m; split; [exact I|apply String.eqb_refl]]. }
  unfold antenna_response. specialize (E mode). destruct (existsb (String.eqb mode) modes) eqn:X.
  - assert (I : In mode modes) by (apply E; reflexivity). split; [reflexivity|]. split; intros N; contradiction.
  - assert (N : ~ In mode modes) by (intros I; apply E in I; discriminate). split; [contradiction|]. split; [intros _ ->; rewrite String.eqb_refl; reflexivity|].
    intros _ NE. destruct (String.eqb_spec mode name) as [Q|_]; [contradiction|]. split; [reflexivity|]. intros pols x k. unfold weighted. cbn [map fst snd]. unfold csum. cbn [fold_right].
    unfold antenna_response at 1. rewrite X. destruct (String.eqb_spec mode name); [contradiction|]. ring.
Qed.
(** ** C231 Arrays of real numbers lose the imaginary part of the shifted signal; with a complex calibration factor they raise *)
Theorem C231_real_refuted : exists pols F mask tc, reals pols = true /\ (exists r, get_detector_response "H1" (fun _ => 1) (fun _ => RtoC 1) true pols F mask None tc 0 0 = Some r /\ vals r = [RtoC 0]) /\
  get_detector_response "H1" (fun _ => 1) (fun _ => RtoC 1) false pols F mask None tc 0 0 = None /\
  (exists r, get_detector_response "H1" (fun _ => 1) (fun _ => RtoC 1) true (map (fun q => (fst q, Arr false (vals (snd q)))) pols) F mask None tc 0 0 = Some r /\ vals r = [(0, - 1)]).
Proof.
  exists [("plus"%string, Arr true [RtoC 1])], [1], [true], (1 / 4). split; [reflexivity|].
  assert (Q : - (2 * PI * (1 / 4 - 0 + 0) * 1) = - (PI / 2)) by field.
  split; [|split; [reflexivity|]]; eexists; (split; [reflexivity|]); cbn; rewrite Q; unfold cis; rewrite ?cos_neg, ?sin_neg, ?cos_PI2, ?sin_PI2; unfold Cmult, RtoC; cbn; apply (f_equal (fun z => [z])), (f_equal2 pair); ring.
Qed.

Example C231_example : exists r, get_detector_response "H1" (fun m => if String.eqb m "plus" then 1 / 2 else 1 / 4) (fun _ => RtoC 1) true
    [("plus", Arr false [RtoC 2; RtoC 2; RtoC 2]); ("cross", Arr false [RtoC 4; RtoC 4; RtoC 4]); ("H1", Arr false [RtoC 1; RtoC 1; RtoC 1]); ("L1", Arr false [RtoC 9; RtoC 9; RtoC 9])]%string
    [0; 1; 2] [false; true; true] None (3 / 4) (1 / 2) (1 / 4) = Some r /\ vals r = [RtoC 0; RtoC (-3); RtoC 3].
Proof.
  destruct (get_detector_response _ _ _ _ _ _ _ _ _ _ _) as [r|] eqn:E; [|exfalso; cbn in E; discriminate]. exists r. split; [reflexivity|].
  pose proof (fun H => proj2 (C231_value _ _ _ _ _ _ _ _ _ _ H) r E) as V. destruct (V eq_refl) as (_ & L & K). clear V. cbv zeta in K. cbn [length] in L, K.
  destruct (vals r) as [|x [|y [|z [|]]]]; try discriminate. pose proof (K 0%nat) as K0. pose proof (K 1%nat) as K1. pose proof (K 2%nat) as K2. cbn [nth] in K0, K1, K2.
  rewrite K0, K1, K2 by lia. clear. unfold weighted, antenna_response, reals. cbn.
  replace (- (2 * PI * (3 / 4 - 1 / 2 + 1 / 4) * 1)) with (- PI) by field. replace (- (2 * PI * (3 / 4 - 1 / 2 + 1 / 4) * 2)) with (- (2 * PI)) by field.
  unfold cis. rewrite !cos_neg, !sin_neg, cos_PI, sin_PI, cos_2PI, sin_2PI. unfold Cmult, Cplus, RtoC. cbn. apply (f_equal2 cons); [reflexivity|]. apply (f_equal2 cons); [apply (f_equal2 pair); field|]. apply (f_equal2 cons); [apply (f_equal2 pair); field|reflexivity].
Qed.

(** ** Assumptions of every theorem above *)
Definition Resp_Props_all :=
  (@C231_value,
   @C231_given,
   @C231_time,
   @C231_linear,
   @C231_modes,
   @C231_real_refuted).
Print Assumptions Resp_Props_all.
