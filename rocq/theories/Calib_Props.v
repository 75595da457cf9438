(** Property theorems about the calibration model (Calib_Model). *)
From Coq Require Import String Reals List Bool ZArith Lia Lra.
From Coquelicot Require Import Coquelicot.
From Verif Require Import PyDict PyReal Calib_Model Calib_Proofs.
Import ListNotations.
Open Scope R_scope.
Open Scope list_scope.

(** ** C95 the spline *)
(** np.linalg.solve succeeds: the system has exactly one solution for any number of nodes the constructor allows *)
Theorem C95_coefficients : forall n p, (4 <= n)%nat ->
  (exists m, solves n p m) /\ forall m m', solves n p m -> solves n p m' -> forall i, (i < n)%nat -> m i = m' i.
Proof.
  intros n p Hn. split.
  - destruct (rows_exist n p Hn) as [m H]. exists m. apply solves_rows; assumption.
  - intros m m' H H'. apply solves_rows in H; [|exact Hn]. apply solves_rows in H'; [|exact Hn]. exact (rows_unique n p m m' Hn H H').
Qed.
(** it passes through the nodes *)
Theorem C95_nodes : forall n p m k, (4 <= n)%nat -> (k < n)%nat -> spline n p m (INR k) = p k.
Proof.
  intros n p m k Hn Hk. destruct (Nat.eq_dec k (n - 1)) as [->|N].
  - assert (E : previous n (INR (n - 1)) = (n - 2)%nat) by (apply previous_unique; [lia|lia|right; apply le_INR; lia|left; reflexivity]).
    unfold spline. rewrite E. replace (INR (n - 1)) with (INR (n - 2) + 1) by (rewrite <- S_INR; f_equal; lia). replace (n - 2 + 1)%nat with (n - 1)%nat by lia.
    cbv zeta. replace (INR (n - 2) + 1 - INR (n - 2)) with 1 by ring. field.
  - assert (E : previous n (INR k) = k) by (apply previous_unique; [lia|lia|right; lra|right; lra]).
    unfold spline. rewrite E. cbv zeta. replace (INR k - INR k) with 0 by ring. field.
Qed.
(** it is twice continuously differentiable on the whole axis *)
Theorem C95_smooth : forall n p m, (4 <= n)%nat -> solves n p m ->
  exists s1 s2, forall u, is_derive (spline n p m) u (s1 u) /\ is_derive s1 u (s2 u) /\ continuous s2 u.
Proof.
  intros n p m Hn H. apply solves_rows in H; [|exact Hn].
  exists (fun x => piece1 p m (previous n x) x), (fun x => piece2 m (previous n x) x). intros u.
  split; [apply spline_d1; assumption|]. split; [apply spline_d2; assumption|apply spline_c2 with (p := p); assumption].
Qed.
(** values on a cubic give that cubic everywhere *)
Theorem C95_cubic : forall n p m c0 c1 c2 c3, (4 <= n)%nat -> solves n p m ->
  let q u := c0 + c1 * u + c2 * u ^ 2 + c3 * u ^ 3 in
  (forall i, (i < n)%nat -> p i = q (INR i)) -> forall u, spline n p m u = q u.
Proof.
  intros n p m c0 c1 c2 c3 Hn H q Hq u. apply solves_rows in H; [|exact Hn].
  set (m' := fun i => 2 * c2 + 6 * c3 * INR i).
  assert (H' : rows_ok n p m').
  { unfold m'. split; [|split].
    - cbn. ring.
    - rewrite !minus_INR by lia. cbn. ring.
    - intros i Hi. rewrite !Hq by lia. unfold q. rewrite plus_INR, minus_INR by lia. cbn. ring. }
  destruct (previous_spec n u ltac:(lia)) as (L & _). rewrite spline_piece. set (k := previous n u) in *.
  unfold piece. rewrite (rows_unique n p m m' Hn H H' k), (rows_unique n p m m' Hn H H' (k + 1)%nat), !Hq by lia.
  unfold m', q. rewrite plus_INR. cbn. field.
Qed.
(** below the third node, and outside the range, one cubic only: nothing stops the growth beyond the nodes *)
Theorem C95_ends : forall n p m, (4 <= n)%nat -> solves n p m ->
  (exists c0 c1 c2 c3, forall u, u <= 2 -> spline n p m u = c0 + c1 * u + c2 * u ^ 2 + c3 * u ^ 3) /\
  (exists c0 c1 c2 c3, forall u, INR (n - 3) <= u -> spline n p m u = c0 + c1 * u + c2 * u ^ 2 + c3 * u ^ 3).
Proof.
  intros n p m Hn H. apply solves_rows in H; [|exact Hn]. destruct H as (A & B & D).
  assert (G : forall k, exists c0 c1 c2 c3, forall u, piece p m k u = c0 + c1 * u + c2 * u ^ 2 + c3 * u ^ 3).
  { intros k. unfold piece. set (x := INR k). set (a := p k). set (b := p (k + 1)%nat). set (c := m k). set (d := m (k + 1)%nat).
    exists (a * (1 + x) - x * b + c / 6 * ((1 + x) ^ 3 - (1 + x)) + d / 6 * (x - x ^ 3)),
           (b - a + c / 6 * (1 - 3 * (1 + x) ^ 2) + d / 6 * (3 * x ^ 2 - 1)), (c / 6 * (3 * (1 + x)) - d / 6 * (3 * x)), ((d - c) / 6).
    intros u. field. }
  assert (J : forall k, (1 <= k <= n - 2)%nat -> m (k - 1)%nat + m (k + 1)%nat = 2 * m k -> forall u, piece p m (k - 1) u = piece p m k u).
  { intros k Hk E u. pose proof (D k Hk) as Z. unfold piece. rewrite minus_INR by lia. cbn [INR]. replace (k - 1 + 1)%nat with k by lia.
    replace (p (k + 1)%nat) with (2 * p k - p (k - 1)%nat + m k) by lra. replace (m (k + 1)%nat) with (2 * m k - m (k - 1)%nat) by lra. field. }
  split.
  - destruct (G 0%nat) as (c0 & c1 & c2 & c3 & E). exists c0, c1, c2, c3. intros u Hu. rewrite <- E, spline_piece.
    destruct (previous_spec n u ltac:(lia)) as (L & P & Q). set (k := previous n u) in *.
    assert (K : (k <= 2)%nat) by (destruct P as [P|P]; [lia|]; assert (INR k <= INR 2) by (cbn; lra); apply INR_le; assumption).
    destruct k as [|[|[|k]]]; [reflexivity| | |lia].
    + symmetry. apply (J 1%nat); [lia|]. cbn. lra.
    + assert (Eu : u = 2) by (destruct P as [P|P]; [lia|]; cbn in P; lra). subst u. rewrite (J 1%nat) by (try lia; cbn; lra).
      unfold piece. cbn [INR Nat.add]. field.
  - destruct (G (n - 3)%nat) as (c0 & c1 & c2 & c3 & E). exists c0, c1, c2, c3. intros u Hu. rewrite <- E, spline_piece.
    destruct (previous_spec n u ltac:(lia)) as (L & P & Q). set (k := previous n u) in *.
    assert (K : (n - 3 <= k)%nat).
    { destruct Q as [Q|Q]; [lia|]. assert (INR (n - 3) < INR (S k)) by (rewrite S_INR; lra). apply INR_lt in H. lia. }
    destruct (Nat.eq_dec k (n - 3)) as [->|N]; [reflexivity|]. replace k with (n - 2)%nat by lia.
    pose proof (J (n - 2)%nat ltac:(lia)) as Z. replace (n - 2 - 1)%nat with (n - 3)%nat in Z by lia. symmetry. apply Z.
    replace (n - 2 + 1)%nat with (n - 1)%nat by lia. exact B.
Qed.
(** the node frequencies are spaced evenly in the logarithm between the two limits *)
Definition node_freq (lo hi : R) (n k : nat) : R := lo * Rpower (hi / lo) (INR k / INR (n - 1)).
Lemma ln10_pos : 0 < ln 10.
Proof. rewrite <- ln_1. apply ln_increasing; lra. Qed.
Theorem C95_node_factors : forall solve s A P call k, (4 <= cs_n s)%nat -> 0 < cs_lo s < cs_hi s -> (k < cs_n s)%nat ->
  collect (cs_params (set_params s call)) "amplitude" (cs_n s) = Some A -> collect (cs_params (set_params s call)) "phase" (cs_n s) = Some P ->
  node_freq (cs_lo s) (cs_hi s) (cs_n s) 0 = cs_lo s /\ node_freq (cs_lo s) (cs_hi s) (cs_n s) (cs_n s - 1) = cs_hi s /\
  fst (get_factor solve s [node_freq (cs_lo s) (cs_hi s) (cs_n s) k] call) = Some [factor (at_ A k) (at_ P k)].
Proof.
  intros solve s A P call k Hn Hf Hk HA HP. pose proof ln10_pos as L10.
  assert (Hr : 0 < cs_hi s / cs_lo s) by (apply Rdiv_lt_0_compat; lra).
  assert (N1 : INR (cs_n s - 1) <> 0) by (apply not_0_INR; lia). split; [|split].
  - unfold node_freq. cbn [INR]. unfold Rdiv at 2. rewrite Rmult_0_l, Rpower_O by exact Hr. ring.
  - unfold node_freq. unfold Rdiv at 2. rewrite Rinv_r by exact N1. rewrite Rpower_1 by exact Hr. field. lra.
  - unfold get_factor. cbn [fst]. rewrite HA, HP. cbn [map].
    assert (E : position s (node_freq (cs_lo s) (cs_hi s) (cs_n s) k) = INR k).
    { assert (LF : ln (node_freq (cs_lo s) (cs_hi s) (cs_n s) k) = ln (cs_lo s) + INR k / INR (cs_n s - 1) * (ln (cs_hi s) - ln (cs_lo s))).
      { unfold node_freq. rewrite ln_mult by (try lra; apply exp_pos). unfold Rpower. rewrite ln_exp. do 2 f_equal. unfold Rdiv. rewrite ln_mult, ln_Rinv by (try lra; apply Rinv_0_lt_compat; lra). ring. }
      unfold position, log10. rewrite LF. assert (ln (cs_lo s) < ln (cs_hi s)) by (apply ln_increasing; lra). field. repeat split; try lra; try exact N1. }
    rewrite E, !C95_nodes by assumption. reflexivity.
Qed.
(** the factor: its modulus is |1 + dA|, its phase 2 atan (dphi / 2), which is dphi up to dphi^3 / 12 *)
Lemma atan_bounds x : 0 <= x -> x - x ^ 3 / 3 <= atan x <= x.
Proof.
  intros Hx. split.
  - destruct (Rle_lt_or_eq_dec 0 x Hx) as [P| <-]; [|rewrite atan_0; lra].
    destruct (MVT_gen (fun t => atan t - t + t ^ 3 / 3) 0 x (fun t => t ^ 4 / (1 + t ^ 2))) as [c [_ E]].
    + intros t _. auto_derive; [exact I|]. assert (1 + t ^ 2 <> 0) by (pose proof (pow2_ge_0 t); lra). unfold Rsqr. field. try (split; [exact H|]). replace (1 + t * t) with (1 + t ^ 2) by ring. exact H.
    + intros t _. apply continuity_pt_filterlim. apply (ex_derive_continuous (fun t => atan t - t + t ^ 3 / 3)). auto_derive. exact I.
    + cbv beta in E. rewrite atan_0 in E. assert (0 <= c ^ 4 / (1 + c ^ 2) * (x - 0)).
      { apply Rmult_le_pos; [|lra]. apply Rle_div_r; [pose proof (pow2_ge_0 c); lra|]. rewrite Rmult_0_l. replace (c ^ 4) with ((c ^ 2) ^ 2) by ring. apply pow2_ge_0. }
      lra.
  - destruct (Rle_lt_or_eq_dec 0 x Hx) as [P| <-]; [|rewrite atan_0; lra].
    destruct (MVT_gen (fun t => t - atan t) 0 x (fun t => t ^ 2 / (1 + t ^ 2))) as [c [_ E]].
    + intros t _. auto_derive; [exact I|]. assert (1 + t ^ 2 <> 0) by (pose proof (pow2_ge_0 t); lra). unfold Rsqr. field. try (split; [exact H|]). replace (1 + t * t) with (1 + t ^ 2) by ring. exact H.
    + intros t _. apply continuity_pt_filterlim. apply (ex_derive_continuous (fun t => t - atan t)). auto_derive. exact I.
    + cbv beta in E. rewrite atan_0 in E. assert (0 <= c ^ 2 / (1 + c ^ 2) * (x - 0)).
      { apply Rmult_le_pos; [|lra]. apply Rle_div_r; [pose proof (pow2_ge_0 c); lra|]. rewrite Rmult_0_l. apply pow2_ge_0. }
      lra.
Qed.
Theorem C95_factor : forall dA dphi, let th := 2 * atan (dphi / 2) in
  factor dA dphi = (RtoC (1 + dA) * (cos th, sin th))%C /\ Cmod (factor dA dphi) = Rabs (1 + dA) /\ Rabs (th - dphi) <= Rabs dphi ^ 3 / 12.
Proof.
  intros dA dphi th.
  assert (Q : 0 < 4 + dphi ^ 2) by (pose proof (pow2_ge_0 dphi); lra).
  assert (E : factor dA dphi = (RtoC (1 + dA) * (cos th, sin th))%C).
  { unfold factor, th. set (x := dphi / 2). assert (Ex : dphi = 2 * x) by (unfold x; field). rewrite Ex in *.
    rewrite cos_2a, sin_2a, cos_atan, sin_atan. unfold Rsqr. 
    assert (S1 : 0 < 1 + x * x) by (pose proof (Rle_0_sqr x); unfold Rsqr in *; lra).
    assert (S2 : sqrt (1 + x * x) * sqrt (1 + x * x) = 1 + x * x) by (apply sqrt_sqrt; lra).
    assert (S3 : 0 < sqrt (1 + x * x)) by (apply sqrt_lt_R0; exact S1). set (r := sqrt (1 + x * x)) in *.
    replace (1 / r * (1 / r) - x / r * (x / r)) with ((1 - x * x) / (r * r)) by (field; lra).
    replace (2 * (x / r) * (1 / r)) with (2 * x / (r * r)) by (field; lra). rewrite S2.
    unfold Cdiv, Cmult, Cinv, RtoC. cbn [fst snd]. f_equal; field; split; try lra; replace (2 ^ 2 + (- (2 * x)) ^ 2) with (4 * (1 + x * x)) by ring; lra. }
  split; [exact E|]. split.
  - rewrite E, Cmod_mult, Cmod_R. replace (Cmod (cos th, sin th)) with 1; [ring|]. unfold Cmod. cbn [fst snd].
    replace (cos th ^ 2 + sin th ^ 2) with 1 by (pose proof (sin2_cos2 th); unfold Rsqr in *; lra). symmetry. apply sqrt_1.
  - unfold th. destruct (Rle_lt_dec 0 dphi) as [P|P].
    + pose proof (atan_bounds (dphi / 2) ltac:(lra)) as [B1 B2]. rewrite (Rabs_pos_eq dphi P).
      replace (dphi ^ 3 / 12) with (2 * ((dphi / 2) ^ 3 / 3)) by field. apply Rabs_le. lra.
    + pose proof (atan_bounds (- dphi / 2) ltac:(lra)) as [B1 B2]. rewrite (Rabs_left dphi P).
      replace (- dphi / 2) with (- (dphi / 2)) in * by field. rewrite atan_opp in B1, B2.
      replace ((- dphi) ^ 3 / 12) with (2 * ((- (dphi / 2)) ^ 3 / 3)) by field. apply Rabs_le. lra.
Qed.
(** four nodes with the values of u^3 / 27, u in steps of one: the value between and outside *)
Theorem C95_example : forall m, let p := fun i => INR i ^ 3 / 27 in solves 4 p m ->
  spline 4 p m (3 / 2) = / 8 /\ spline 4 p m 6 = 8 /\ spline 4 p m (-3) = -1.
Proof.
  intros m p H. pose proof (C95_cubic 4 p m 0 0 0 (/ 27) ltac:(lia) H) as E. cbv zeta in E.
  assert (Q : forall i, (i < 4)%nat -> p i = 0 + 0 * INR i + 0 * INR i ^ 2 + / 27 * INR i ^ 3) by (intros; unfold p; field).
  rewrite !(E Q). repeat split; field.
Qed.

(** ** C96 the parameters of the spline object *)
Lemma substring_drop_prefix p k : drop (String.length p) (p ++ k) = k.
Proof. induction p as [|c p IH]; [reflexivity|exact IH]. Qed.
Lemma prefix_app p k : String.prefix p (p ++ k) = true.
Proof. induction p as [|c p IH]; [destruct k; reflexivity|]. cbn. destruct (Ascii.ascii_dec c c); [exact IH|contradiction]. Qed.
Lemma prefix_split p s : String.prefix p s = true -> exists k, s = (p ++ k)%string.
Proof.
  revert s. induction p as [|c p IH]; intros s H; [exists s; reflexivity|]. destruct s as [|d s]; [discriminate|]. cbn in H.
  destruct (Ascii.ascii_dec c d) as [->|]; [|discriminate]. destruct (IH s H) as [k ->]. exists k. reflexivity.
Qed.
Lemma contains_prefix p s : String.prefix p s = true -> contains p s = true.
Proof. intros H. destruct s; cbn [contains]; rewrite H; reflexivity. Qed.
Lemma app_cancel p a b : (p ++ a)%string = (p ++ b)%string -> a = b.
Proof. induction p as [|c p IH]; [tauto|]. cbn. intros H. injection H. exact IH. Qed.
(** keys that contain the prefix have it in front, as in every dictionary with bilby's names *)
Definition clean (prefix : string) (call : dict R) : Prop := forall k, In k (dkeys call) -> contains prefix k = true -> String.prefix prefix k = true.
Lemma found_get prefix call k : wf call -> clean prefix call -> dget (found prefix call) k = dget call (prefix ++ k).
Proof.
  intros W CL. unfold found.
  assert (G : forall l d, wf l -> clean prefix l ->
    dget (fold_left (fun d kv => if contains prefix (fst kv) then dset d (drop (String.length prefix) (fst kv)) (snd kv) else d) l d) k =
    match dget l (prefix ++ k) with Some v => Some v | None => dget d k end).
  { induction l as [|[a v] l IH]; intros d Wl Cl; [reflexivity|]. inversion Wl as [|? ? NI W']; subst.
    assert (C' : clean prefix l) by (intros x Hx; apply Cl; right; exact Hx). cbn [fold_left fst snd].
    rewrite IH by assumption. cbn [dget]. destruct (String.eqb_spec (prefix ++ k) a) as [<-|N].
    - rewrite (proj2 (dget_none l (prefix ++ k))) by exact NI. rewrite contains_prefix by apply prefix_app. rewrite substring_drop_prefix, dget_set_eq. reflexivity.
    - destruct (dget l (prefix ++ k)); [reflexivity|]. destruct (contains prefix a) eqn:E; [|reflexivity].
      apply (Cl a (or_introl eq_refl)) in E. apply prefix_split in E. destruct E as [b ->]. rewrite substring_drop_prefix.
      apply dget_set_ne. congruence. }
  rewrite G by assumption. destruct (dget call (prefix ++ k)); reflexivity.
Qed.
Lemma found_wf prefix call : wf (found prefix call).
Proof.
  unfold found. assert (G : forall l (d : dict R), wf d -> wf (fold_left (fun d kv => if contains prefix (fst kv) then dset d (drop (String.length prefix) (fst kv)) (snd kv) else d) l d)).
  { induction l as [|kv l IH]; intros d Wd; [exact Wd|]. cbn [fold_left]. apply IH. destruct (contains prefix (fst kv)); [apply wf_set|]; exact Wd. }
  apply G. constructor.
Qed.
Lemma dupdate_get d p k : wf p -> dget (dupdate d p) k = match dget p k with Some v => Some v | None => dget d k end.
Proof.
  unfold dupdate. revert d. induction p as [|[a v] p IH]; intros d W; [reflexivity|]. inversion W as [|? ? NI W']; subst. cbn [fold_left fst snd dget].
  rewrite IH by exact W'. destruct (String.eqb_spec k a) as [->|N].
  - rewrite (proj2 (dget_none p a)) by exact NI. rewrite dget_set_eq. reflexivity.
  - rewrite dget_set_ne by exact N. reflexivity.
Qed.
(** the value last given under prefix + name, over a list of calls, the latest last *)
Fixpoint latest (prefix name : string) (calls : list (dict R)) : option R :=
  match calls with
  | [] => None
  | c :: t => match latest prefix name t with Some v => Some v | None => dget c (prefix ++ name) end
  end.
Definition fine (prefix : string) (c : dict R) : Prop := wf c /\ clean prefix c.
Lemma step_prefix solve s f c : cs_prefix (snd (get_factor solve s f c)) = cs_prefix s /\ cs_n (snd (get_factor solve s f c)) = cs_n s
  /\ cs_lo (snd (get_factor solve s f c)) = cs_lo s /\ cs_hi (snd (get_factor solve s f c)) = cs_hi s.
Proof. repeat split. Qed.
Lemma run_get solve f calls : forall s name, List.Forall (fine (cs_prefix s)) calls ->
  dget (cs_params (crun solve s f calls)) name = match latest (cs_prefix s) name calls with Some v => Some v | None => dget (cs_params s) name end.
Proof.
  induction calls as [|c calls IH]; intros s name H; [reflexivity|]. inversion H as [|? ? [W CL] H']; subst. cbn [crun latest].
  rewrite IH by exact H'. change (cs_prefix (snd (get_factor solve s f c))) with (cs_prefix s).
  destruct (latest (cs_prefix s) name calls); [reflexivity|]. cbn [get_factor snd set_params cs_params].
  rewrite dupdate_get by apply found_wf. rewrite found_get by assumption. reflexivity.
Qed.
Lemma run_fixed solve f calls : forall s, let r := crun solve s f calls in cs_prefix r = cs_prefix s /\ cs_n r = cs_n s /\ cs_lo r = cs_lo s /\ cs_hi r = cs_hi s.
Proof. induction calls as [|c calls IH]; intros s; [repeat split|]. cbn [crun]. destruct (IH (snd (get_factor solve s f c))) as (A & B & D & E). repeat split; assumption. Qed.
Lemma collect_ext d d' kind n : (forall i, (i < n)%nat -> dget d (pname kind i) = dget d' (pname kind i)) -> collect d kind n = collect d' kind n.
Proof. induction n as [|n IH]; intros H; [reflexivity|]. cbn [collect]. rewrite IH by (intros; apply H; lia). rewrite (H n) by lia. reflexivity. Qed.
Lemma collect_none d kind n : collect d kind n = None <-> exists i, (i < n)%nat /\ dget d (pname kind i) = None.
Proof.
  induction n as [|n IH]; cbn [collect]; [split; [discriminate|intros (i & Hi & _); lia]|].
  destruct (collect d kind n) as [l|].
  - destruct (dget d (pname kind n)) eqn:E.
    + split; [discriminate|]. intros (i & Hi & Hd). destruct (Nat.eq_dec i n) as [->|N]; [congruence|]. assert (Z : Some l = None) by (apply IH; exists i; split; [lia|exact Hd]). discriminate Z.
    + split; [|reflexivity]. intros _. exists n. split; [lia|exact E].
  - split; [|reflexivity]. intros _. destruct IH as [IH _]. destruct (IH eq_refl) as (i & Hi & Hd). exists i. split; [lia|exact Hd].
Qed.
(** a call whose dictionary has all the parameters ignores everything that happened before *)
Definition complete (s : cspline) (c : dict R) : Prop :=
  forall kind i, kind = "amplitude"%string \/ kind = "phase"%string -> (i < cs_n s)%nat -> dget c (cs_prefix s ++ pname kind i) <> None.
Theorem C96_complete_call : forall solve s f calls g c, List.Forall (fine (cs_prefix s)) calls -> fine (cs_prefix s) c -> complete s c ->
  fst (get_factor solve (crun solve s f calls) g c) = fst (get_factor solve s g c) /\ fst (get_factor solve s g c) <> None.
Proof.
  intros solve s f calls g c HF [W CL] CO. destruct (run_fixed solve f calls s) as (EP & EN & EL & EH).
  set (r := crun solve s f calls) in *. 
  assert (K : forall kind, kind = "amplitude"%string \/ kind = "phase"%string ->
    collect (cs_params (set_params r c)) kind (cs_n r) = collect (cs_params (set_params s c)) kind (cs_n s) /\ collect (cs_params (set_params s c)) kind (cs_n s) <> None).
  { intros kind Hk. rewrite EN.
    assert (Q : forall t, cs_prefix t = cs_prefix s -> forall i, (i < cs_n s)%nat -> dget (cs_params (set_params t c)) (pname kind i) = dget c (cs_prefix s ++ pname kind i)).
    { intros t Ht i Hi. cbn [set_params cs_params]. rewrite Ht, dupdate_get by apply found_wf. rewrite found_get by assumption.
      pose proof (CO kind i Hk Hi). destruct (dget c (cs_prefix s ++ pname kind i)); [reflexivity|contradiction]. }
    split.
    - apply collect_ext. intros i Hi. rewrite !Q; auto.
    - intros E. apply collect_none in E. destruct E as (i & Hi & E). rewrite Q in E by auto. exact (CO kind i Hk Hi E). }
  destruct (K "amplitude"%string (or_introl eq_refl)) as [A1 A2]. destruct (K "phase"%string (or_intror eq_refl)) as [P1 P2].
  unfold get_factor. cbn [fst]. rewrite A1, P1, EN. destruct (collect (cs_params (set_params s c)) "amplitude" (cs_n s)) eqn:QA; [|congruence]. destruct (collect (cs_params (set_params s c)) "phase" (cs_n s)) eqn:QP; [|congruence].
  split; [|discriminate]. f_equal. apply map_ext. intros x. unfold position. rewrite EN, EL, EH. reflexivity.
Qed.
(** otherwise each parameter keeps its latest value; KeyError exactly if one has never been given *)
Theorem C96_history : forall solve s f calls g c, cs_params s = [] -> List.Forall (fine (cs_prefix s)) (calls ++ [c]) ->
  let use name := latest (cs_prefix s) name (calls ++ [c]) in
  fst (get_factor solve (crun solve s f calls) g c) = None <->
  exists kind i, (kind = "amplitude"%string \/ kind = "phase"%string) /\ (i < cs_n s)%nat /\ use (pname kind i) = None.
Proof.
  intros solve s f calls g c H0 HF use. destruct (run_fixed solve f calls s) as (EP & EN & EL & EH).
  assert (U : forall name, dget (cs_params (set_params (crun solve s f calls) c)) name = use name).
  { intros name. change (cs_params (set_params (crun solve s f calls) c)) with (cs_params (snd (get_factor solve (crun solve s f calls) f c))).
    assert (E : snd (get_factor solve (crun solve s f calls) f c) = crun solve s f (calls ++ [c])).
    { clear. revert s. induction calls as [|d calls IH]; intros s; [reflexivity|]. cbn [crun app]. apply IH. }
    rewrite E, run_get by exact HF. rewrite H0. unfold use. destruct (latest _ _ _); reflexivity. }
  assert (K : forall kind, collect (cs_params (set_params (crun solve s f calls) c)) kind (cs_n (crun solve s f calls)) = None <-> exists i, (i < cs_n s)%nat /\ use (pname kind i) = None).
  { intros kind. rewrite EN, collect_none. split; intros (i & Hi & E); exists i; (split; [exact Hi|]); [rewrite <- U|rewrite U]; exact E. }
  unfold get_factor. cbn [fst]. pose proof (K "amplitude"%string) as KA. pose proof (K "phase"%string) as KP.
  destruct (collect _ "amplitude" _); [destruct (collect _ "phase" _)|].
  - split; [discriminate|]. intros (kind & i & [-> | ->] & Hi & E); [assert (Z : Some l = None) by (apply (proj2 KA); exists i; auto)|assert (Z : Some l0 = None) by (apply (proj2 KP); exists i; auto)]; discriminate Z.
  - split; [|reflexivity]. intros _. destruct (proj1 KP eq_refl) as (i & Hi & E). exists "phase"%string, i. auto.
  - split; [|reflexivity]. intros _. destruct (proj1 KA eq_refl) as (i & Hi & E). exists "amplitude"%string, i. auto.
Qed.
(** so forgetting the parameters goes unnoticed after a complete call *)
Theorem C96_forgotten_refuted : forall solve s f c, fine (cs_prefix s) c -> complete s c ->
  fst (get_factor solve (snd (get_factor solve s f c)) f []) = fst (get_factor solve s f c).
Proof.
  intros solve s f c HC CO.
  assert (E : cs_params (set_params (snd (get_factor solve s f c)) []) = cs_params (set_params s c)) by reflexivity.
  unfold get_factor at 1. cbn [fst]. rewrite E. reflexivity.
Qed.
(** the constructor and an empty first call *)
Theorem C96_constructor : forall prefix lo hi n, (new_cspline prefix lo hi n = None <-> (n < 4)%nat) /\
  forall s solve g, new_cspline prefix lo hi n = Some s -> fst (get_factor solve s g []) = None.
Proof.
  intros prefix lo hi n. unfold new_cspline. destruct (Nat.ltb_spec n 4); split.
  - split; auto.
  - discriminate.
  - split; [discriminate|lia].
  - intros s solve g E. injection E as <-. unfold get_factor. cbn [fst set_params cs_params found fold_left dupdate cs_n cs_prefix].
    assert (Z : collect [] "amplitude" n = None) by (apply collect_none; exists 0%nat; split; [lia|reflexivity]). rewrite Z. reflexivity.
Qed.
Theorem C96_example :
  pname "amplitude" 12 = "amplitude_12"%string /\
  found "recalib_H1_" [("recalib_H1_amplitude_0"%string, 1); ("mass"%string, 2); ("recalib_L1_phase_0"%string, 3)] = [("amplitude_0"%string, 1)] /\
  latest "recalib_H1_" "phase_0" [[("recalib_H1_phase_0"%string, 5)]; [("recalib_L1_phase_0"%string, 7)]] = Some 5.
Proof. repeat split; reflexivity. Qed.

(** ** C97 precomputed curves *)
Lemma same_eq a b : same a b = true <-> a = b.
Proof.
  unfold same. revert b. induction a as [|x a IH]; intros [|y b]; cbn; try (split; [discriminate|congruence]); [tauto|].
  unfold req at 1. cbn [fst snd]. destruct (Req_EM_T x y) as [->|N]; cbn [andb].
  - rewrite IH. split; [intros ->; reflexivity|intros E; injection E; auto].
  - rewrite Bool.andb_false_r. split; [discriminate|congruence].
Qed.
Lemma trunc_Z z : trunc (IZR z) = z.
Proof.
  assert (I : forall z, Int_part (IZR z) = z).
  { intros y. unfold Int_part. assert (E : up (IZR y) = (y + 1)%Z) by (symmetry; apply tech_up; rewrite plus_IZR; lra). rewrite E. lia. }
  unfold trunc. destruct (Rle_dec 0 (IZR z)); [apply I|]. rewrite <- opp_IZR, I. lia.
Qed.
Theorem C97_curve : forall label curves grid freqs call,
  let name := ("recalib_index_" ++ label)%string in
  (dget call name = None -> precomputed label curves grid freqs call = PTypeError) /\
  (forall z, dget call name = Some (IZR z) ->
    (freqs <> grid -> precomputed label curves grid freqs call = PValueError) /\
    (freqs = grid -> (0 <= z < Z.of_nat (List.length curves))%Z -> exists c, nth_error curves (Z.to_nat z) = Some c /\ precomputed label curves grid freqs call = PCurve c) /\
    (freqs = grid -> (- Z.of_nat (List.length curves) <= z < 0)%Z -> exists c, nth_error (rev curves) (Z.to_nat (- z - 1)) = Some c /\ precomputed label curves grid freqs call = PCurve c) /\
    (freqs = grid -> ~ (- Z.of_nat (List.length curves) <= z < Z.of_nat (List.length curves))%Z -> precomputed label curves grid freqs call = PIndexError)).
Proof.
  intros label curves grid freqs call name. unfold precomputed. fold name. split; [intros ->; reflexivity|]. intros z ->. rewrite trunc_Z.
  set (n := List.length curves). split; [|split; [|split]].
  - intros N. destruct (same freqs grid) eqn:E; [apply same_eq in E; contradiction|reflexivity].
  - intros -> Hz. rewrite (proj2 (same_eq grid grid) eq_refl). unfold index. fold n. destruct (Z.ltb_spec z (- Z.of_nat n)); [lia|]. destruct (Z.ltb_spec z 0); [lia|].
    destruct (nth_error curves (Z.to_nat z)) as [c|] eqn:E; [exists c; auto|]. apply nth_error_None in E. fold n in E. lia.
  - intros -> Hz. rewrite (proj2 (same_eq grid grid) eq_refl). unfold index. fold n. destruct (Z.ltb_spec z (- Z.of_nat n)); [lia|]. destruct (Z.ltb_spec z 0); [|lia].
    destruct (nth_error curves (Z.to_nat (Z.of_nat n + z))) as [c|] eqn:E; [|apply nth_error_None in E; fold n in E; lia]. exists c. split; [|reflexivity].
    rewrite <- E. clear E c. assert (L : (Z.to_nat (- z - 1) < n)%nat) by lia.
    rewrite (nth_error_nth' (rev curves) []) by (rewrite rev_length; exact L). rewrite rev_nth by exact L. fold n.
    rewrite (nth_error_nth' curves []) by (fold n; lia). do 2 f_equal. lia.
  - intros -> Hz. rewrite (proj2 (same_eq grid grid) eq_refl). unfold index. fold n. destruct (Z.ltb_spec z (- Z.of_nat n)); [reflexivity|]. destruct (Z.ltb_spec z 0); [lia|].
    destruct (nth_error curves (Z.to_nat z)) eqn:E; [|reflexivity]. assert (Q : (Z.to_nat z < n)%nat) by (apply nth_error_Some; congruence). lia.
Qed.
Theorem C97_example : forall a b, (* two curves; index -1 is the last *)
  precomputed "H1" [[a]; [b]] [20] [20] [("recalib_index_H1"%string, -1)] = PCurve [b] /\
  precomputed "H1" [[a]; [b]] [20] [20] [("recalib_index_L1"%string, 0)] = PTypeError.
Proof.
  intros a b. destruct (C97_curve "H1" [[a]; [b]] [20] [20] [("recalib_index_H1"%string, -1)]) as [_ H]. destruct (H (-1)%Z eq_refl) as (_ & _ & G & _).
  destruct (G eq_refl ltac:(cbn; lia)) as (c & E & F). cbn in E. injection E as <-. split; [exact F|]. apply C97_curve. reflexivity.
Qed.

(** ** C98 lookup tables *)
Section Files.
Variable solve : nat -> (nat -> R) -> nat -> R.
Variable angle : C -> R.
Variable cubic : list R -> list C -> R -> C.
Variable sample : string -> nat -> list (dict R).
(** np.angle is an argument; the interpolation goes through its nodes *)
Hypothesis angle_ok : forall z, (RtoC (Cmod z) * (cos (angle z), sin (angle z)))%C = z.
Definition increasing (x : list R) : Prop := forall i j, (i < j < List.length x)%nat -> nth i x 0 < nth j x 0.
Hypothesis cubic_ok : forall x y i, increasing x -> List.length y = List.length x -> (4 <= List.length x)%nat -> (i < List.length x)%nat ->
  cubic x y (nth i x 0) = nth i y (RtoC 0).
Definition table_ok (F : list R) (D : list (list C)) : Prop :=
  increasing F /\ (4 <= List.length F)%nat /\ List.Forall (fun c => List.length c = List.length F) D.
Lemma last_nth (l : list R) : last l 0 = nth (List.length l - 1) l 0.
Proof. induction l as [|x l IH]; [reflexivity|]. destruct l as [|y l]; [reflexivity|]. transitivity (last (y :: l) 0); [reflexivity|]. rewrite IH. cbn. rewrite Nat.sub_0_r. reflexivity. Qed.
Lemma hd_nth (l : list R) : hd 0 l = nth 0 l 0.
Proof. destruct l; reflexivity. Qed.
Lemma combine_maps {A X Y} (f : A -> X) (g : A -> Y) l : combine (map f l) (map g l) = map (fun a => (f a, g a)) l.
Proof. induction l; [reflexivity|]. cbn. f_equal. assumption. Qed.
Lemma slice_map {A B} (f : A -> B) lo n l : slice lo n (map f l) = map f (slice lo n l).
Proof. unfold slice. rewrite skipn_map, firstn_map. reflexivity. Qed.
Lemma curve_back F c : increasing F -> (4 <= List.length F)%nat -> List.length c = List.length F ->
  map (interp1 cubic F (map (fun q => (RtoC (fst q) * (cos (snd q), sin (snd q)))%C) (combine (map Cmod c) (map angle c)))) F = c.
Proof using angle_ok cubic_ok.
  intros I L E. rewrite combine_maps, map_map. cbn [fst snd]. rewrite (map_ext _ (fun z => z)) by apply angle_ok. rewrite map_id.
  apply (nth_ext _ _ (interp1 cubic F c 0) (RtoC 0)); [rewrite map_length; auto|]. rewrite map_length. intros i Hi. rewrite map_nth.
  unfold interp1. rewrite hd_nth, last_nth.
  assert (LE : forall a b, (a <= b < List.length F)%nat -> nth a F 0 <= nth b F 0).
  { intros a b H. destruct (Nat.eq_dec a b) as [->|N]; [lra|]. left. apply I. lia. }
  destruct (Rlt_dec _ _) as [H|_]; [pose proof (LE 0%nat i ltac:(lia)); lra|]. destruct (Rlt_dec _ _) as [H|_]; [pose proof (LE i (List.length F - 1)%nat ltac:(lia)); lra|].
  apply cubic_ok; auto.
Qed.
(** reading back the frequencies written gives the curves asked for ... *)
Theorem C98_file_round_trip : forall F D par n start, table_ok F D ->
  fst (read_file cubic (write_file angle F D par) F n start) = firstn n (skipn start D).
Proof using angle_ok cubic_ok.
  intros F D par n start (I & L & HD). unfold read_file, write_file. cbn [fst f_freq f_amp f_phase]. rewrite !slice_map, combine_maps, map_map. cbn [fst snd].
  fold (slice start n D). assert (HS : List.Forall (fun c => List.length c = List.length F) (slice start n D)).
  { unfold slice. rewrite Forall_forall in *. intros c Hc. apply HD. rewrite <- (firstn_skipn start D). apply in_or_app. right. rewrite <- (firstn_skipn n (skipn start D)). apply in_or_app. left. exact Hc. }
  induction HS as [|c l Hc HS IH]; [reflexivity|]. cbn [map]. f_equal; [|exact IH]. apply curve_back; assumption.
Qed.
(** ... and one outside the frequencies of the file *)
Theorem C98_outside : forall cf f n start c, (f < hd 0 (f_freq cf) \/ last (f_freq cf) 0 < f) -> In c (fst (read_file cubic cf [f] n start)) -> c = [RtoC 1].
Proof using Type.
  intros cf f n start c H. unfold read_file. cbn [fst]. intros Hc. apply in_map_iff in Hc. destruct Hc as (ap & <- & _). cbn [map]. f_equal. unfold interp1.
  destruct (Rlt_dec f _); [reflexivity|]. destruct (Rlt_dec _ f); [reflexivity|]. lra.
Qed.
(** the parameter table of a file is not cut to the curves asked for: with starting_index 1 the first row belongs
    to the curve before the first one returned *)
Theorem C98_parameters_refuted : forall F c0 c1 r0 r1, table_ok F [c0; c1] ->
  read_file cubic (write_file angle F [c0; c1] (Some [r0; r1])) F 1 1 = ([c1], Some [r0; r1]).
Proof using angle_ok cubic_ok.
  intros F c0 c1 r0 r1 H. rewrite (surjective_pairing (read_file _ _ _ _ _)). rewrite C98_file_round_trip by exact H. reflexivity.
Qed.
Notation build := (build solve angle cubic sample). Notation build_loop := (build_loop solve angle cubic sample). Notation build_one := (build_one solve angle cubic sample).
Definition file_of (lookup : dict string) (x : cifo) : string :=
  match dget lookup (ci_name x) with Some f => f | None => (ci_name x ++ "_calibration_file.h5")%string end.
Theorem C98_arguments : forall n start fs l, build None false n start fs l = (BValueError, fs, l).
Proof using Type. reflexivity. Qed.
(** on success every interferometer has lost its calibration model, so the response is not calibrated twice,
    and the entries are those of the interferometers in order *)
Theorem C98_models_removed : forall lookup priors n start fs l es fs' l', build lookup priors n start fs l = (BOk es, fs', l') ->
  map fst es = map ci_name l /\ l' = map (fun x => mkCI (ci_name x) (ci_freq x) Plain) l.
Proof using Type.
  assert (ON : forall lookup priors n start fs x e fs', build_one lookup priors n start fs x = BOk (e, fs') -> fst e = ci_name x).
  { intros lookup priors n start fs x e fs' H. unfold Calib_Model.build_one in H. destruct (dget fs _); [injection H as <- <-; reflexivity|].
    destruct (ci_model x) as [|s|cv ps]; try (destruct priors; discriminate).
    - destruct priors; [|discriminate]. destruct (Nat.ltb _ _); [discriminate|]. destruct (curves_from_spline _ _ _ _ _); [|discriminate]. injection H as <- <-. reflexivity.
    - destruct (takes cv _); [|discriminate]. destruct ps as [ps|]; [|discriminate]. destruct (takes ps _); [|discriminate]. injection H as <- <-. reflexivity. }
  assert (G : forall lookup priors n start l fs es fs' l', build_loop lookup priors n start fs l = (BOk es, fs', l') ->
    map fst es = map ci_name l /\ l' = map (fun x => mkCI (ci_name x) (ci_freq x) Plain) l).
  { intros lookup priors n start. induction l as [|x l IH]; intros fs es fs' l' H; cbn [Calib_Model.build_loop] in H; [injection H as <- <- <-; split; reflexivity|].
    destruct (build_one lookup priors n start fs x) as [[e fs1]| | | |] eqn:E; try discriminate.
    destruct (build_loop lookup priors n start fs1 l) as [[r fs2] l2] eqn:E2. destruct r as [es2| | | |]; try discriminate. injection H as <- <- <-.
    destruct (IH _ _ _ _ E2) as [A B]. apply ON in E. cbn [map]. rewrite A, B, E. split; reflexivity. }
  intros lookup priors n start fs l es fs' l'. unfold Calib_Model.build. destruct lookup as [d|]; [apply G|]. destruct priors; [apply G|discriminate].
Qed.
(** a precomputed model gives the curves start, ..., start + n - 1 together with their numbers *)
Lemma takes_seq {A} (l : list A) start n : takes l (map (fun i => (i + start)%nat) (seq 0 n)) = if Nat.leb (start + n) (List.length l) then Some (firstn n (skipn start l)) else if Nat.eqb n 0 then Some [] else None.
Proof.
  assert (G : forall n s, takes l (map (fun i => (i + start)%nat) (seq s n)) = if Nat.leb (s + start + n) (List.length l) then Some (firstn n (skipn (s + start) l)) else if Nat.eqb n 0 then Some [] else None).
  { clear n. induction n as [|n IH]; intros s; [cbn; destruct (Nat.leb _ _); reflexivity|]. cbn [seq map takes Nat.eqb]. rewrite IH.
    destruct (Nat.leb_spec (S s + start + n) (List.length l)) as [B|B].
    - replace (Nat.leb (s + start + S n) (List.length l)) with true by (symmetry; apply Nat.leb_le; lia).
      destruct (nth_error l (s + start)) as [x|] eqn:E; [|apply nth_error_None in E; lia].
      replace (skipn (s + start) l) with (x :: skipn (S s + start) l); [reflexivity|]. clear - E. cbn [Nat.add]. revert l E. induction (s + start)%nat as [|k IHk]; intros l E.
      + destruct l; [discriminate|]. injection E as ->. reflexivity.
      + destruct l as [|y l]; [discriminate|]. cbn [skipn] in *. apply IHk. exact E.
    - replace (Nat.leb (s + start + S n) (List.length l)) with false by (symmetry; apply Nat.leb_gt; lia).
      destruct n as [|n]; cbn [Nat.eqb]; [|destruct (nth_error l _); reflexivity]. destruct (nth_error l (s + start)) eqn:E; [|reflexivity].
      assert (s + start < List.length l)%nat by (apply nth_error_Some; congruence). lia. }
  exact (G n 0%nat).
Qed.
Theorem C98_precomputed : forall lookup priors n start fs x curves ps, dget fs (file_of lookup x) = None -> ci_model x = Pre curves (Some ps) ->
  List.length ps = List.length curves -> (0 < n)%nat ->
  ((start + n <= List.length curves)%nat -> exists par, build_one lookup priors n start fs x = BOk ((ci_name x, (firstn n (skipn start curves), Some par)), fs) /\
     forall i, (i < n)%nat -> exists r, nth_error par i = Some r /\ dget r ("recalib_index_" ++ ci_name x) = Some (INR (i + start)) /\
       forall k, k <> ("recalib_index_" ++ ci_name x)%string -> dget r k = dget (nth (i + start) ps []) k) /\
  ((List.length curves < start + n)%nat -> build_one lookup priors n start fs x = BIndexError).
Proof using Type.
  intros lookup priors n start fs x curves ps HF HM HL Hn. unfold Calib_Model.build_one. fold (file_of lookup x). rewrite HF, HM, !takes_seq, HL.
  split; intros H.
  - rewrite (proj2 (Nat.leb_le _ _) H). eexists. split; [reflexivity|]. intros i Hi.
    set (idx := map (fun i0 => (i0 + start)%nat) (seq 0 n)).
    assert (E : nth_error (combine (firstn n (skipn start ps)) idx) i = Some (nth (i + start) ps [], (i + start)%nat)).
    { assert (L1 : List.length (firstn n (skipn start ps)) = n) by (rewrite firstn_length, skipn_length; lia).
      assert (L2 : List.length idx = n) by (unfold idx; rewrite map_length, seq_length; reflexivity).
      etransitivity; [apply (nth_error_nth' _ ([], 0%nat)); rewrite combine_length; unfold dict in *; lia|]. rewrite combine_nth by (unfold dict in *; lia). apply (f_equal Some). apply (f_equal2 pair).
      - assert (NF : forall (l : list (dict R)) i, (i < n)%nat -> nth i (firstn n l) [] = nth i l []).
        { intros l j Hj. rewrite <- (firstn_skipn n l) at 2. destruct (Nat.lt_ge_cases j (List.length (firstn n l))) as [C|C]; [rewrite app_nth1; auto|].
          rewrite firstn_length in C. assert (List.length l <= j)%nat by lia. rewrite !nth_overflow; [reflexivity| |]; rewrite ?app_length, ?firstn_length, ?skipn_length; lia. }
        rewrite NF by exact Hi. clear. revert ps. induction start as [|s IH]; intros ps; [rewrite Nat.add_0_r; reflexivity|].
        destruct ps as [|p ps]; [destruct i; reflexivity|]. cbn [skipn]. rewrite IH. replace (i + S s)%nat with (S (i + s)) by lia. reflexivity.
      - unfold idx. rewrite (nth_indep _ 0%nat ((fun i0 => (i0 + start)%nat) 0%nat)) by (rewrite map_length, seq_length; exact Hi). rewrite (map_nth (fun i0 => (i0 + start)%nat)), seq_nth by exact Hi. lia. }
    eexists. rewrite nth_error_map, E. cbn [option_map fst snd]. split; [reflexivity|]. split; [apply dget_set_eq|]. intros k Hk. apply dget_set_ne. exact Hk.
  - replace (Nat.leb (start + n) (List.length curves)) with false by (symmetry; apply Nat.leb_gt; lia). destruct n as [|n]; [lia|]. reflexivity.
Qed.
(** generated curves: starting_index plays no part, and the file written has exactly them *)
Lemma get_factor_length s F r c : fst (get_factor solve s F r) = Some c -> List.length c = List.length F.
Proof using Type. unfold get_factor. cbn [fst]. destruct (collect _ _ _); [|discriminate]. destruct (collect _ _ _); [|discriminate]. intros E. injection E as <-. apply map_length. Qed.
Lemma curves_lengths rows : forall s F cs, curves_loop solve s F rows = Some cs -> List.length cs = List.length rows /\ List.Forall (fun c => List.length c = List.length F) cs.
Proof using Type.
  induction rows as [|r rows IH]; intros s F cs H; cbn [curves_loop] in H; [injection H as <-; split; [reflexivity|constructor]|].
  destruct (get_factor solve s F r) as [[c|] s'] eqn:E; [|discriminate]. destruct (curves_loop solve s' F rows) as [l|] eqn:E2; [|discriminate]. injection H as <-.
  destruct (IH _ _ _ E2) as [A B]. split; [cbn; rewrite A; reflexivity|]. constructor; [|exact B]. apply (get_factor_length s F r). rewrite E. reflexivity.
Qed.
Theorem C98_generated : forall lookup n start fs x s e fs', dget fs (file_of lookup x) = None -> ci_model x = Spline s -> increasing (ci_freq x) -> (4 <= List.length (ci_freq x))%nat ->
  build_one lookup true n start fs x = BOk (e, fs') ->
  List.length (fst (snd e)) = n /\ build_one lookup true n 0 fs x = BOk (e, fs') /\
  (* the next run finds the file: the same curves if it starts with the first, whatever the model and priors *)
  (forall priors m, build_one lookup priors n 0 fs' (mkCI (ci_name x) (ci_freq x) m) = BOk (e, fs')) /\
  (forall priors m, exists par, build_one lookup priors n start fs' (mkCI (ci_name x) (ci_freq x) m) = BOk ((ci_name x, (skipn start (fst (snd e)), par)), fs')).
Proof using angle_ok cubic_ok.
  intros lookup n start fs x s e fs' HF HM HI HL H. unfold Calib_Model.build_one in H |- *. cbn [ci_name ci_freq ci_model]. fold (file_of lookup x) in *. rewrite HF, HM in *.
  destruct (Nat.ltb_spec (List.length (sample (ci_name x) n)) n) as [A|A]; [discriminate|].
  destruct (curves_from_spline solve _ _ _ _) as [c|] eqn:E; [|discriminate]. injection H as <- <-. cbn [fst snd].
  unfold curves_from_spline in E. destruct (new_cspline _ _ _ _) as [s0|]; [|discriminate]. destruct (curves_lengths _ _ _ _ E) as [L1 L2].
  assert (LN : List.length c = n) by (rewrite L1, firstn_length; lia).
  assert (TK : table_ok (ci_freq x) c) by (split; [exact HI|split; [exact HL|exact L2]]).
  split; [exact LN|]. split; [reflexivity|]. split; intros priors m.
  - rewrite dget_set_eq. rewrite (surjective_pairing (read_file _ _ _ _ _)), C98_file_round_trip by exact TK. cbn [skipn]. rewrite <- LN, firstn_all. reflexivity.
  - eexists. rewrite dget_set_eq. rewrite (surjective_pairing (read_file _ _ _ _ _)), C98_file_round_trip by exact TK.
    rewrite (firstn_all2 (n := n)) by (rewrite skipn_length; lia). reflexivity.
Qed.
(** the nodes are put between the ends of the analysed band; the frequency range and the parameters of the
    interferometer's own spline play no part, so its curves are not the ones the model itself would give *)
Theorem C98_range_refuted : forall lookup n start fs name F s lo hi prefix params,
  build_one lookup true n start fs (mkCI name F (Spline (mkCS prefix lo hi (cs_n s) params))) = build_one lookup true n start fs (mkCI name F (Spline s)).
Proof using Type. intros. reflexivity. Qed.
Theorem C98_example : (* two detectors, one with a file of two curves, asked for two from the second on: a single curve *)
  forall F c0 c1 a, table_ok F [c0; c1] ->
  build (Some [("H1"%string, "h.h5"%string)]) false 2 1 [("h.h5"%string, write_file angle F [c0; c1] None)] [mkCI "H1" F Plain; mkCI "L1" F a] =
  (match a with Pre _ None => (match takes (match a with Pre c _ => c | _ => [] end) [1%nat; 2%nat] with None => BIndexError | _ => BAttributeError end)
              | Pre c (Some ps) => (match takes c [1%nat; 2%nat], takes ps [1%nat; 2%nat] with
                   | Some d, Some p => BOk [("H1"%string, ([c1], None)); ("L1"%string, (d, Some (map (fun q => dset (fst q) "recalib_index_L1" (INR (snd q))) (combine p [1%nat; 2%nat]))))]
                   | _, _ => BIndexError end)
              | _ => BValueError end,
   [("h.h5"%string, write_file angle F [c0; c1] None)],
   mkCI "H1" F Plain :: [mkCI "L1" F (match a with Pre c (Some ps) => match takes c [1%nat; 2%nat], takes ps [1%nat; 2%nat] with Some _, Some _ => Plain | _, _ => a end | _ => a end)]).
Proof using angle_ok cubic_ok.
  intros F c0 c1 a H. unfold Calib_Model.build. cbn [Calib_Model.build_loop]. unfold Calib_Model.build_one. cbn [ci_name ci_freq ci_model dget String.eqb Ascii.eqb Bool.eqb append].
  rewrite (surjective_pairing (read_file _ _ _ _ _)), C98_file_round_trip by exact H. cbn [snd read_file f_par write_file skipn firstn].
  destruct a as [|s|c [ps|]]; cbn [seq map Nat.add]; try reflexivity.
  - destruct (takes c [1%nat; 2%nat]); [destruct (takes ps [1%nat; 2%nat])|]; reflexivity.
  - destruct (takes c [1%nat; 2%nat]); reflexivity.
Qed.
End Files.

(** ** Assumptions of every theorem above *)
Definition Calib_Props_all :=
  (@C95_coefficients,
   @C95_nodes,
   @C95_smooth,
   @C95_cubic,
   @C95_ends,
   @C95_node_factors,
   @C95_factor,
   @C95_example,
   @C96_complete_call,
   @C96_history,
   @C96_forgotten_refuted,
   @C96_constructor,
   @C96_example,
   @C97_curve,
   @C97_example,
   @C98_file_round_trip,
   @C98_outside,
   @C98_parameters_refuted,
   @C98_arguments,
   @C98_models_removed,
   @C98_precomputed,
   @C98_generated,
   @C98_range_refuted,
   @C98_example).
Print Assumptions Calib_Props_all.
