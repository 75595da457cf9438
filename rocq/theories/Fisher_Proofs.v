(** Proofs about numerical derivatives and the Fisher matrix. *)
From Coq Require Import Reals List Bool Arith ZArith String Lia Lra.
From Verif Require Import PyDict PyReal Fisher_Model.
Import ListNotations.
Open Scope R_scope.
Open Scope list_scope.

Lemma rltb_spec x y : BoolSpec (x < y) (y <= x) (rltb x y).
Proof. unfold rltb; destruct (Rlt_dec x y); constructor; lra. Qed.
Lemma reqb_spec x y : BoolSpec (x = y) (x <> y) (reqb x y).
Proof. unfold reqb; destruct (Req_EM_T x y); constructor; auto. Qed.

Section Deriv.
Variable f : list R -> R.
Variables mineps reltol s : R.
Notation search := (search f mineps reltol s).
Notation gradient := (gradient f mineps reltol s).

(** the function of one value, the others kept *)
Definition slice (vals : list R) (i : nat) (t : R) : R := f (upd vals i t).
(** central difference with step h *)
Definition central (vals : list R) (i : nat) (h : R) : R := (slice vals i (nth i vals 0 + h/2) - slice vals i (nth i vals 0 - h/2)) / h.

Lemma search_step n vals i leps cureps cd ff :
  search (S n) vals i (nth i vals 0 + 1/2*leps) (nth i vals 0 - 1/2*leps) leps cureps cd ff =
  if rltb (cureps * s) mineps || Nat.ltb 10 ff then Some 0
  else if reqb (central vals i (leps*s)) cd then Some cd
  else if negb (reqb (central vals i (leps*s)) 0) && rltb 0 (cd / central vals i (leps*s))
       then if rltb (Rabs (1 - cd / central vals i (leps*s))) reltol then Some (central vals i (leps*s))
            else search n vals i (nth i vals 0 + 1/2*(leps*s)) (nth i vals 0 - 1/2*(leps*s)) (leps*s) (cureps*s) (central vals i (leps*s)) ff
       else search n vals i (nth i vals 0 + 1/2*(leps*s)) (nth i vals 0 - 1/2*(leps*s)) (leps*s) (cureps*s) (central vals i (leps*s)) (S ff).
Proof.
  cbn [Fisher_Model.search].
  replace (nth i vals 0 + 1/2*leps - 1/2*leps + 1/2*(leps*s)) with (nth i vals 0 + 1/2*(leps*s)) by ring.
  replace (nth i vals 0 - 1/2*leps + 1/2*leps - 1/2*(leps*s)) with (nth i vals 0 - 1/2*(leps*s)) by ring.
  replace (cdiff_at f vals i (nth i vals 0 + 1/2*(leps*s)) (nth i vals 0 - 1/2*(leps*s)) (leps*s)) with (central vals i (leps*s)).
  2:{ unfold central, cdiff_at, slice. replace (leps*s/2) with (1/2*(leps*s)) by field. reflexivity. }
  reflexivity.
Qed.
Lemma gradient_start n vals leps cureps i :
  gradient n vals leps cureps i = search n vals i (nth i vals 0 + 1/2*leps) (nth i vals 0 - 1/2*leps) leps cureps (central vals i leps) 0.
Proof.
  unfold Fisher_Model.gradient. f_equal. unfold central, cdiff_at, slice. replace (leps/2) with (1/2*leps) by field. reflexivity.
Qed.

(** the result is zero or a central difference on which two successive step sizes agree *)
Definition agreed (vals : list R) (i : nat) (h g : R) : Prop :=
  exists k, (g = central vals i (h * s^k) /\ g = central vals i (h * s^(S k)))
   \/ (g = central vals i (h * s^(S k)) /\ Rabs (1 - central vals i (h * s^k) / g) < reltol).
Lemma search_result vals i h e0 : forall n k ff g,
  search n vals i (nth i vals 0 + 1/2*(h*s^k)) (nth i vals 0 - 1/2*(h*s^k)) (h*s^k) (e0*s^k) (central vals i (h*s^k)) ff = Some g ->
  g = 0 \/ agreed vals i h g.
Proof.
  induction n as [|n IH]; intros k ff g; [discriminate|]. rewrite search_step.
  replace (h*s^k*s) with (h*s^(S k)) by (cbn; ring). replace (e0*s^k*s) with (e0*s^(S k)) by (cbn; ring).
  destruct (rltb (e0*s^(S k)) mineps || Nat.ltb 10 ff); [intros [= <-]; auto|].
  destruct (reqb_spec (central vals i (h*s^(S k))) (central vals i (h*s^k))) as [E|E].
  - intros [= <-]. right; exists k; left; split; [reflexivity|symmetry; exact E].
  - destruct (negb _ && _).
    + destruct (rltb_spec (Rabs (1 - central vals i (h*s^k) / central vals i (h*s^(S k)))) reltol).
      * intros [= <-]. right; exists k; right; split; auto.
      * apply (IH (S k)).
    + apply (IH (S k)).
Qed.
Lemma gradient_result n vals h e i g : gradient n vals h e i = Some g -> g = 0 \/ agreed vals i h g.
Proof.
  rewrite gradient_start; intros H. apply (search_result vals i h e n 0 0 g).
  cbn [pow]; rewrite !Rmult_1_r; exact H.
Qed.

(** termination *)
Lemma search_stops vals i k : forall e n fi bi l c ff, e * s^k < mineps -> 0 < mineps -> 0 <= s < 1 -> (k <= n)%nat ->
  (exists g, search n vals i fi bi l e c ff = Some g) \/ (e < mineps \/ n = 0%nat).
Proof.
  induction k as [|k IH]; intros e n fi bi l c ff H Hm Hs Hk.
  - right; left; cbn in H; lra.
  - destruct n as [|n]; [auto|]. left. cbn [Fisher_Model.search].
    destruct (rltb_spec (e*s) mineps) as [A|A]; cbn [orb]; [eauto|].
    destruct (Nat.ltb 10 ff); [eauto|].
    destruct (reqb _ _); [eauto|].
    assert (G : forall fi bi l c ff, exists g, search n vals i fi bi l (e*s) c ff = Some g).
    { intros. destruct (IH (e*s) n fi0 bi0 l0 c0 ff0) as [X|[X|X]]; auto; try lia; [cbn in H; lra|lra|].
      subst n. replace k with 0%nat in H by lia. cbn in H. lra. }
    destruct (negb _ && _); [destruct (rltb _ reltol); [eauto|]|]; apply G.
Qed.
Lemma search_more vals i : forall n m fi bi l e c ff g, (n <= m)%nat -> search n vals i fi bi l e c ff = Some g -> search m vals i fi bi l e c ff = Some g.
Proof.
  induction n as [|n IH]; intros m fi bi l e c ff g Hm; [discriminate|]. destruct m as [|m]; [lia|]. cbn [Fisher_Model.search].
  destruct (_ || _); auto. destruct (reqb _ c); auto.
  destruct (negb _ && _); [destruct (rltb _ reltol); auto|]; apply IH; lia.
Qed.
Lemma pow_below e : 0 < mineps -> 0 <= s < 1 -> exists k, e * s^k < mineps.
Proof.
  intros Hm Hs. destruct (Rle_lt_dec e 0) as [H|H].
  - exists 1%nat. cbn. assert (e * s <= 0) by (rewrite <- (Rmult_0_l s); apply Rmult_le_compat_r; lra). lra.
  - destruct (pow_lt_1_zero s ltac:(rewrite Rabs_pos_eq; lra) (mineps / e)) as [N HN].
    { apply Rmult_lt_0_compat; [lra|apply Rinv_0_lt_compat; lra]. }
    exists N. specialize (HN N (Nat.le_refl N)). apply Rmult_lt_reg_l with (/ e); [apply Rinv_0_lt_compat; lra|].
    rewrite <- Rmult_assoc, Rinv_l, Rmult_1_l by lra. apply Rle_lt_trans with (1 := Rle_abs _). apply Rlt_le_trans with (1 := HN). unfold Rdiv; lra.
Qed.
Lemma gradient_total : 0 < mineps -> 0 <= s < 1 -> forall vals h e i, exists N g, forall n, (N <= n)%nat -> gradient n vals h e i = Some g.
Proof.
  intros Hm Hs vals h e i. destruct (pow_below e Hm Hs) as [k Hk].
  assert (Hk' : e * s^(S k) < mineps).
  { destruct (Rle_lt_dec e 0) as [H|H].
    - assert (0 <= s^(S k)) by (apply pow_le; lra). assert (e * s^(S k) <= 0) by (rewrite <- (Rmult_0_l (s^(S k))); apply Rmult_le_compat_r; lra). lra.
    - cbn. apply Rle_lt_trans with (2 := Hk). apply Rmult_le_compat_l; [lra|]. assert (0 <= s^k) by (apply pow_le; lra).
      rewrite <- (Rmult_1_l (s^k)) at 2. apply Rmult_le_compat_r; lra. }
  assert (G : exists g, gradient (S (S k)) vals h e i = Some g).
  { rewrite gradient_start.
    destruct (search_stops vals i (S k) e (S (S k)) (nth i vals 0 + 1/2*h) (nth i vals 0 - 1/2*h) h (central vals i h) 0 Hk' Hm Hs ltac:(lia)) as [X|[X|X]]; [exact X| |lia].
    rewrite search_step. destruct (rltb_spec (e*s) mineps) as [A|A]; cbn [orb]; [eauto|].
    exfalso. destruct (Rle_lt_dec e 0) as [H|H].
    - assert (e * s <= 0) by (rewrite <- (Rmult_0_l s); apply Rmult_le_compat_r; lra). lra.
    - assert (e * s <= e * 1) by (apply Rmult_le_compat_l; lra). lra. }
  destruct G as [g G]. exists (S (S k)), g. intros n Hn. rewrite gradient_start in *. apply search_more with (2 := G). exact Hn.
Qed.

(** quadratics *)
Lemma gradient_quadratic n vals h e i a b c : (0 < n)%nat -> h <> 0 -> s <> 0 -> mineps <= e * s ->
  (forall t, slice vals i t = a*t^2 + b*t + c) -> gradient n vals h e i = Some (2*a*nth i vals 0 + b).
Proof.
  intros Hn Hh Hs He Hq.
  assert (C : forall h, h <> 0 -> central vals i h = 2*a*nth i vals 0 + b) by (intros h' H'; unfold central; rewrite !Hq; field; exact H').
  rewrite gradient_start. destruct n as [|n]; [lia|]. rewrite search_step.
  destruct (rltb_spec (e*s) mineps); [lra|]. cbn [orb Nat.ltb Nat.leb].
  assert (h * s <> 0) by (apply Rmult_integral_contrapositive; auto).
  rewrite !C by assumption. destruct (reqb_spec (2*a*nth i vals 0 + b) (2*a*nth i vals 0 + b)); [reflexivity|congruence].
Qed.

(** never converging: the ratios stay away from one *)
Lemma search_flat vals i h e0 (r : nat -> R) :
  (forall k, mineps <= e0*s^(S k) -> central vals i (h*s^(S k)) <> central vals i (h*s^k)
     /\ central vals i (h*s^(S k)) <> 0 /\ 0 < central vals i (h*s^k) / central vals i (h*s^(S k))
     /\ reltol <= Rabs (1 - central vals i (h*s^k) / central vals i (h*s^(S k)))) ->
  forall n k g, search n vals i (nth i vals 0 + 1/2*(h*s^k)) (nth i vals 0 - 1/2*(h*s^k)) (h*s^k) (e0*s^k) (central vals i (h*s^k)) 0 = Some g -> g = 0.
Proof.
  intros H; induction n as [|n IH]; intros k g; [discriminate|]. rewrite search_step.
  replace (h*s^k*s) with (h*s^(S k)) by (cbn; ring). replace (e0*s^k*s) with (e0*s^(S k)) by (cbn; ring).
  destruct (rltb_spec (e0*s^(S k)) mineps) as [A|A]; cbn [orb Nat.ltb Nat.leb]; [intros [= <-]; reflexivity|].
  destruct (H k A) as [H1 [H2 [H3 H4]]].
  destruct (reqb_spec (central vals i (h*s^(S k))) (central vals i (h*s^k))); [contradiction|].
  destruct (reqb_spec (central vals i (h*s^(S k))) 0); [contradiction|]. cbn [negb andb].
  destruct (rltb_spec 0 (central vals i (h*s^k) / central vals i (h*s^(S k)))); [|lra].
  destruct (rltb_spec (Rabs (1 - central vals i (h*s^k) / central vals i (h*s^(S k)))) reltol); [lra|]. apply (IH (S k)).
Qed.

(** the whole list *)
Lemma gradients_forall n vals eps teps : forall idx g,
  gradients f mineps reltol s n vals eps teps idx = Grads g ->
  Forall2 (fun i x => gradient n vals (nth (Z.to_nat i) eps 0) (nth (Z.to_nat i) teps 0) (Z.to_nat i) = Some x) idx g.
Proof.
  induction idx as [|i idx IH]; intros g; cbn [gradients]; [intros [= <-]; constructor|].
  destruct (gradient n vals _ _ _) as [x|] eqn:E; [|discriminate].
  destruct (gradients f mineps reltol s n vals eps teps idx) as [| |l]; try discriminate. intros [= <-]. constructor; auto.
Qed.
Lemma gradients_intro n vals eps teps : forall idx g,
  Forall2 (fun i x => gradient n vals (nth (Z.to_nat i) eps 0) (nth (Z.to_nat i) teps 0) (Z.to_nat i) = Some x) idx g ->
  gradients f mineps reltol s n vals eps teps idx = Grads g.
Proof. induction 1 as [|i x idx g H1 H2 IH]; cbn [gradients]; [reflexivity|]. rewrite H1, IH; reflexivity. Qed.
End Deriv.

(** *** Fisher *)
Section Fisher.
Variable L : dict R -> R.
Variable width : string -> R.
Variable fd_eps : R.
Notation FIM := (FIM L width fd_eps).

Lemma dset_dset (d : dict R) k v w : dset (dset d k v) k w = dset d k w.
Proof.
  induction d as [|[a x] d IH]; cbn; [rewrite String.eqb_refl; reflexivity|].
  destruct (String.eqb k a) eqn:E; cbn; rewrite E; [reflexivity|]. rewrite IH; reflexivity.
Qed.
Lemma dset_comm (d : dict R) k l v w : k <> l -> In k (dkeys d) -> In l (dkeys d) -> dset (dset d k v) l w = dset (dset d l w) k v.
Proof.
  intros N; induction d as [|[a x] d IH]; cbn; [tauto|]. intros H1 H2.
  destruct (String.eqb_spec k a) as [Ek|Ak]; destruct (String.eqb_spec l a) as [El|Al]; cbn.
  - congruence.
  - subst k. destruct (String.eqb_spec l a); [congruence|]. rewrite String.eqb_refl; reflexivity.
  - subst l. rewrite String.eqb_refl. destruct (String.eqb_spec k a); [congruence|]. reflexivity.
  - destruct (String.eqb_spec l a); [congruence|]. destruct (String.eqb_spec k a); [congruence|].
    rewrite IH; [reflexivity| |]; [destruct H1; [congruence|assumption]|destruct H2; [congruence|assumption]].
Qed.
Lemma dset_same (d : dict R) k v : dget d k = Some v -> dset d k v = d.
Proof.
  induction d as [|[a x] d IH]; cbn; [discriminate|]. destruct (String.eqb_spec k a); [intros [= ->]; reflexivity|]. intros H; rewrite IH by exact H; reflexivity.
Qed.
Lemma dkeys_set_mem (d : dict R) k v : In k (dkeys d) -> dkeys (dset d k v) = dkeys d.
Proof. intros H; rewrite dkeys_set. apply dmem_in in H; rewrite H; reflexivity. Qed.
Lemma dict_ext (d e : dict R) : wf d -> dkeys d = dkeys e -> (forall k, dget d k = dget e k) -> d = e.
Proof.
  unfold wf; revert e; induction d as [|[k v] d IH]; intros [|[k' v'] e]; cbn; try discriminate; [reflexivity|].
  intros W [= <- K] G. inversion W; subst. f_equal.
  - specialize (G k); rewrite String.eqb_refl in G; congruence.
  - apply IH; [assumption|exact K|]. intros b. specialize (G b). destruct (String.eqb_spec b k) as [Eb|N]; [|exact G]. rewrite Eb.
    transitivity (@None R); [apply dget_none; assumption|symmetry; apply dget_none; unfold dkeys in *; rewrite <- K; assumption].
Qed.
Lemma dupdate_keys (p q : dict R) : dkeys p = dkeys q -> forall d e, dkeys d = dkeys e -> dkeys (dupdate d p) = dkeys (dupdate e q).
Proof.
  unfold dupdate; revert q; induction p as [|[k v] p IH]; intros [|[k' v'] q]; cbn; try discriminate; [auto|]. intros [= <- K] d e E.
  apply IH; [exact K|]. rewrite !dkeys_set. unfold dmem.
  assert (X : dmem d k = dmem e k).
  { destruct (dmem e k) eqn:X; [apply dmem_in; rewrite E; apply dmem_in; exact X|].
    destruct (dmem d k) eqn:Y; [|reflexivity]. apply dmem_in in Y; rewrite E in Y; apply dmem_in in Y; congruence. }
  unfold dmem in X. destruct (dget d k), (dget e k); try discriminate; congruence.
Qed.
Lemma dupdate_mem (r : dict R) : forall e, (forall k, In k (dkeys r) -> In k (dkeys e)) -> dkeys (dupdate e r) = dkeys e.
Proof.
  unfold dupdate; induction r as [|[k v] r IH]; intros e H; cbn [fold_left fst snd]; [reflexivity|].
  assert (Hk : In k (dkeys e)) by (apply H; left; reflexivity).
  rewrite IH; [apply dkeys_set_mem; exact Hk|]. intros a Ha. rewrite dkeys_set_mem by exact Hk. apply H; right; exact Ha.
Qed.
Lemma dupdate_wf (p : dict R) : forall d, wf d -> wf (dupdate d p).
Proof. unfold dupdate; induction p as [|[k v] p IH]; intros d W; cbn; [exact W|]. apply IH, wf_set, W. Qed.
Lemma dupdate_get (p : dict R) : wf p -> forall d k, dget (dupdate d p) k = match dget p k with Some v => Some v | None => dget d k end.
Proof.
  unfold dupdate, wf; induction p as [|[k v] p IH]; intros W d a; cbn; [reflexivity|]. inversion W; subst. rewrite IH by assumption.
  destruct (String.eqb_spec a k) as [->|N].
  - assert (E : dget p k = None) by (apply dget_none; assumption). rewrite E. apply dget_set_eq.
  - destruct (dget p a); [reflexivity|]. apply dget_set_ne; exact N.
Qed.
Lemma dupdate_twice d (p q : dict R) : wf d -> wf p -> dkeys p = dkeys q -> dupdate (dupdate d p) q = dupdate d q.
Proof.
  intros Wd Wp K. assert (Wq : wf q) by (unfold wf in *; rewrite <- K; exact Wp).
  apply dict_ext.
  - apply dupdate_wf, dupdate_wf, Wd.
  - rewrite dupdate_mem; [apply dupdate_keys; auto|]. intros k Hk. rewrite <- K in Hk.
    destruct (dget (dupdate d p) k) eqn:G; [apply dmem_in; unfold dmem; rewrite G; reflexivity|].
    rewrite dupdate_get in G by exact Wp. destruct (dget p k) eqn:G'; [discriminate|]. apply dget_none in G'; contradiction.
  - intros k. rewrite !dupdate_get by assumption. destruct (dget q k) eqn:Q; [reflexivity|].
    assert (N : dget p k = None) by (apply dget_none; rewrite K; apply dget_none; exact Q). rewrite N; reflexivity.
Qed.

Variable P : dict R.
Hypothesis wfP : wf P.
Variable s : dict R.
Hypothesis wfs : wf s.
(** the log-likelihood with one or two values of the sample replaced *)
Definition slice1 (i : string) (x : R) : R := L (dupdate P (dset s i x)).
Definition slice2 (i j : string) (x y : R) : R := L (dupdate P (dset (dset s i x) j y)).
(** states of the parameters between evaluations *)
Definition reach (p : dict R) : Prop := wf p /\ forall t, dkeys t = dkeys s -> dupdate p t = dupdate P t.
Lemma reach_P : reach P.
Proof. split; auto. Qed.
Lemma wf_keys (t : dict R) : dkeys t = dkeys s -> wf t.
Proof. unfold wf; intros ->; exact wfs. Qed.
Lemma ll_run t p : dkeys t = dkeys s -> reach p -> exists p', log_likelihood L t p = Some (L (dupdate P t), p') /\ reach p' /\ p' = dupdate P t.
Proof.
  intros K [W H]. unfold log_likelihood. rewrite (H t K). exists (dupdate P t). repeat split; auto.
  - apply dupdate_wf, wfP.
  - intros u Hu. apply dupdate_twice; [exact wfP|apply wf_keys; exact K|congruence].
Qed.

Lemma xx_run i v p : dget s i = Some v -> reach p -> exists p',
  fd_xx L width fd_eps s i p = Some ((slice1 i (v + fd_eps * width i) - 2 * slice1 i v + slice1 i (v - fd_eps * width i)) / (fd_eps * width i)^2, p') /\ reach p'
  /\ p' = dupdate P (dset s i (v - fd_eps * width i)).
Proof.
  intros Hv Hp. assert (M : In i (dkeys s)) by (apply dmem_in; unfold dmem; rewrite Hv; reflexivity).
  unfold fd_xx, bind, lift, shift_x, item, lift. rewrite Hv. rewrite !dget_set_eq.
  destruct (ll_run (dset s i (v + 1 * (fd_eps * width i))) p) as [p1 [E1 [R1 _]]]; [apply dkeys_set_mem, M|exact Hp|]. rewrite E1.
  destruct (ll_run s p1 eq_refl R1) as [p2 [E2 [R2 _]]]. rewrite E2.
  destruct (ll_run (dset s i (v + -1 * (fd_eps * width i))) p2) as [p3 [E3 [R3 Q3]]]; [apply dkeys_set_mem, M|exact R2|]. rewrite E3.
  replace (v + -1 * (fd_eps * width i)) with (v - fd_eps * width i) in * by ring.
  unfold ret. exists p3; split; [|split; [exact R3|exact Q3]]. do 2 f_equal. unfold slice1. rewrite (dset_same s i v Hv).
  rewrite Rmult_1_l.
  f_equal. replace (1/2 * (v + fd_eps * width i - (v - fd_eps * width i))) with (fd_eps * width i) by field. reflexivity.
Qed.
Lemma xy_run i j v w p : i <> j -> dget s i = Some v -> dget s j = Some w -> reach p ->
  let h := fd_eps * width i in let k := fd_eps * width j in exists p',
  fd_xy L width fd_eps s i j p = Some ((slice2 i j (v+h) (w+k) - slice2 i j (v+h) (w-k) - slice2 i j (v-h) (w+k) + slice2 i j (v-h) (w-k)) / (4*h*k), p')
  /\ reach p' /\ p' = dupdate P (dset (dset s i (v-h)) j (w-k)).
Proof.
  intros N Hv Hw Hp h k.
  assert (M : In i (dkeys s)) by (apply dmem_in; unfold dmem; rewrite Hv; reflexivity).
  assert (M' : In j (dkeys s)) by (apply dmem_in; unfold dmem; rewrite Hw; reflexivity).
  assert (K : forall x y, dkeys (dset (dset s i x) j y) = dkeys s) by (intros; rewrite !dkeys_set_mem; auto; rewrite dkeys_set_mem; auto).
  unfold fd_xy, bind, lift, shift_xy, item, lift. rewrite Hv, Hw.
  rewrite !dget_set_eq. rewrite !(dget_set_ne _ i j) by exact N. rewrite !dget_set_eq. fold h k.
  replace (v + -1 * h) with (v - h) by ring. replace (w + -1 * k) with (w - k) by ring. rewrite !Rmult_1_l.
  destruct (ll_run (dset (dset s i (v+h)) j (w+k)) p (K _ _) Hp) as [p1 [E1 [R1 _]]]. rewrite E1.
  destruct (ll_run (dset (dset s i (v+h)) j (w-k)) p1 (K _ _) R1) as [p2 [E2 [R2 _]]]. rewrite E2.
  destruct (ll_run (dset (dset s i (v-h)) j (w+k)) p2 (K _ _) R2) as [p3 [E3 [R3 _]]]. rewrite E3.
  destruct (ll_run (dset (dset s i (v-h)) j (w-k)) p3 (K _ _) R3) as [p4 [E4 [R4 Q4]]]. rewrite E4.
  unfold ret. exists p4; split; [|split; [exact R4|exact Q4]]. do 2 f_equal. unfold slice2. f_equal.
  replace (1/2 * (v + h - (v - h))) with h by field. replace (1/2 * (w + k - (w - k))) with k by field. reflexivity.
Qed.
(** the second derivatives as numbers *)
Definition val (i : string) : R := match dget s i with Some v => v | None => 0 end.
Definition second (i j : string) : R :=
  let h := fd_eps * width i in let k := fd_eps * width j in let v := val i in let w := val j in
  if String.eqb i j then (slice1 i (v + h) - 2 * slice1 i v + slice1 i (v - h)) / h^2
  else (slice2 i j (v+h) (w+k) - slice2 i j (v+h) (w-k) - slice2 i j (v-h) (w+k) + slice2 i j (v-h) (w-k)) / (4*h*k).
Lemma mapst_run {X Y} (g : X -> st Y) (pure : X -> Y) l :
  (forall x p, In x l -> reach p -> exists p', g x p = Some (pure x, p') /\ reach p') ->
  forall p, reach p -> exists p', mapst g l p = Some (map pure l, p') /\ reach p'.
Proof.
  induction l as [|x l IH]; intros H p Hp; cbn [mapst map]; [exists p; auto|].
  destruct (H x p (or_introl eq_refl) Hp) as [p1 [E1 R1]]. destruct (IH (fun y q Hy => H y q (or_intror Hy)) p1 R1) as [p2 [E2 R2]].
  exists p2; unfold bind; rewrite E1, E2; auto.
Qed.
Lemma FIM_run names : (forall k, In k names -> In k (dkeys s)) ->
  exists p', FIM names s P = Some (map (fun i => map (fun j => - second i j) names) names, p') /\ reach p'.
Proof.
  intros H. unfold Fisher_Model.FIM. apply mapst_run; [|exact reach_P]. intros i p Hi Hp. apply mapst_run; [|exact Hp]. intros j q Hj Hq.
  assert (Gi : exists v, dget s i = Some v) by (specialize (H i Hi); apply dmem_in in H; unfold dmem in H; destruct (dget s i); [eauto|discriminate]).
  assert (Gj : exists v, dget s j = Some v) by (specialize (H j Hj); apply dmem_in in H; unfold dmem in H; destruct (dget s j); [eauto|discriminate]).
  destruct Gi as [v Hv], Gj as [w Hw]. unfold bind, second_derivative, second, val. rewrite Hv, Hw.
  destruct (String.eqb_spec i j) as [->|N].
  - destruct (xx_run j w q Hw Hq) as [p' [E [R' _]]]. rewrite E. assert (v = w) by congruence; subst. exists p'; auto.
  - destruct (xy_run i j v w q N Hv Hw Hq) as [p' [E [R' _]]]. rewrite E. exists p'; auto.
Qed.
Lemma mapst_last {X Y} (g : X -> st Y) l x :
  (forall y p r p', In y l -> reach p -> g y p = Some (r, p') -> reach p') ->
  forall p r p', reach p -> mapst g (l ++ [x]) p = Some (r, p') -> exists q y, reach q /\ g x q = Some (y, p').
Proof.
  induction l as [|a l IH]; intros H p r p' Hp; cbn [app mapst]; unfold bind.
  - destruct (g x p) as [[y q]|] eqn:E; [|discriminate]. intros [= _ <-]. exists p, y; auto.
  - destruct (g a p) as [[y q]|] eqn:E; [|discriminate]. destruct (mapst g (l ++ [x]) q) as [[z q']|] eqn:E'; [|discriminate]. intros [= _ <-].
    apply (IH (fun y p r p' Hy => H y p r p' (or_intror Hy)) q z q'); [|exact E']. eapply H; [left; reflexivity|exact Hp|exact E].
Qed.
Lemma FIM_final names k v F P' : (forall a, In a (names ++ [k]) -> In a (dkeys s)) -> dget s k = Some v ->
  FIM (names ++ [k]) s P = Some (F, P') -> P' = dupdate P (dset s k (v - fd_eps * width k)).
Proof.
  intros H Hk E.
  assert (R1 : forall i j p r p', In i (names ++ [k]) -> In j (names ++ [k]) -> reach p ->
     bind (second_derivative L width fd_eps s i j) (fun d => ret (- d)) p = Some (r, p') -> reach p').
  { intros i j p r p' Hi Hj Hp.
    assert (Gi : exists v, dget s i = Some v) by (specialize (H i Hi); apply dmem_in in H; unfold dmem in H; destruct (dget s i); [eauto|discriminate]).
    assert (Gj : exists v, dget s j = Some v) by (specialize (H j Hj); apply dmem_in in H; unfold dmem in H; destruct (dget s j); [eauto|discriminate]).
    destruct Gi as [a Ha], Gj as [b Hb]. unfold bind, second_derivative. destruct (String.eqb_spec i j) as [->|N].
    - destruct (xx_run j b p Hb Hp) as [q [Eq [R' _]]]. rewrite Eq. intros [= _ <-]; exact R'.
    - destruct (xy_run i j a b p N Ha Hb Hp) as [q [Eq [R' _]]]. rewrite Eq. intros [= _ <-]; exact R'. }
  assert (R2 : forall i p r p', In i (names ++ [k]) -> reach p ->
     mapst (fun j => bind (second_derivative L width fd_eps s i j) (fun d => ret (- d))) (names ++ [k]) p = Some (r, p') -> reach p').
  { intros i p r p' Hi. assert (G : forall l, (forall j, In j l -> In j (names ++ [k])) -> forall p r p', reach p ->
      mapst (fun j => bind (second_derivative L width fd_eps s i j) (fun d => ret (- d))) l p = Some (r, p') -> reach p').
    { induction l as [|j l IH]; intros Hl q r' q' Hq; cbn [mapst].
      - intros [= _ <-]; exact Hq.
      - unfold bind at 1. destruct (bind (second_derivative L width fd_eps s i j) (fun d => ret (- d)) q) as [[y q1]|] eqn:E1; [|discriminate].
        unfold bind at 1. destruct (mapst _ l q1) as [[z q2]|] eqn:E2; [|discriminate]. intros [= _ <-].
        eapply IH; [intros; apply Hl; right; assumption| |exact E2]. eapply R1; [exact Hi|apply Hl; left; reflexivity|exact Hq|exact E1]. }
    apply G; auto. }
  unfold Fisher_Model.FIM in E. apply mapst_last in E; [|intros y p r p' Hy; apply R2, in_or_app; left; exact Hy|exact reach_P].
  destruct E as [q [y [Rq E]]]. apply mapst_last in E; [|intros z p r p' Hz; apply R1; [apply in_or_app; right; left; reflexivity|apply in_or_app; left; exact Hz]|exact Rq].
  destruct E as [q1 [y1 [Rq1 E]]]. unfold bind, second_derivative in E. rewrite String.eqb_refl in E.
  destruct (xx_run k v q1 Hk Rq1) as [p1 [E1 [_ Q]]]. rewrite E1 in E. injection E as _ <-. exact Q.
Qed.
Lemma FIM_missing names k : In k names -> ~ In k (dkeys s) -> FIM names s P = None.
Proof.
  intros Hk N. apply dget_none in N.
  assert (S1 : forall p, second_derivative L width fd_eps s k k p = None).
  { intros p; unfold second_derivative; rewrite String.eqb_refl; unfold fd_xx, bind, lift, shift_x; rewrite N; reflexivity. }
  assert (Q : forall {X Y} (g : X -> st Y) l x, In x l -> (forall p, g x p = None) -> forall p, mapst g l p = None).
  { intros X Y g l x Hin Hg; induction l as [|y l IH]; [contradiction|]. intros p; cbn [mapst]; unfold bind.
    destruct Hin as [->|Hin]; [rewrite Hg; reflexivity|]. destruct (g y p) as [[? ?]|]; [rewrite IH by exact Hin; reflexivity|reflexivity]. }
  unfold Fisher_Model.FIM. apply (Q _ _ _ _ k Hk). intros p. apply (Q _ _ _ _ k Hk). intros q. unfold bind; rewrite S1; reflexivity.
Qed.
Lemma second_sym i j : In i (dkeys s) -> In j (dkeys s) -> second i j = second j i.
Proof.
  intros Hi Hj. unfold second. destruct (String.eqb_spec i j) as [->|N]; [rewrite String.eqb_refl; reflexivity|].
  destruct (String.eqb_spec j i) as [E|_]; [congruence|].
  assert (C : forall x y, slice2 i j x y = slice2 j i y x) by (intros; unfold slice2; rewrite dset_comm; auto).
  rewrite !C. f_equal; [ring|]. ring.
Qed.
(** second differences are second derivatives at an intermediate point *)
Lemma second_difference (g g1 g2 : R -> R) x h : 0 < h ->
  (forall t, derivable_pt_lim g t (g1 t)) -> (forall t, derivable_pt_lim g1 t (g2 t)) ->
  exists t, x - h < t < x + h /\ (g (x+h) - 2 * g x + g (x-h)) / h^2 = g2 t.
Proof.
  intros Hh D1 D2.
  destruct (MVT_cor2 (fun t => g (t + h) - g t) (fun t => g1 (t + h) - g1 t) (x - h) x) as [c [E1 Hc]]; [lra| |].
  { intros c _. apply derivable_pt_lim_minus; [|apply D1].
    replace (g1 (c + h)) with (g1 (c + h) * (1 + 0)) by ring.
    apply (derivable_pt_lim_comp (fun t => t + h) g); [|apply D1].
    apply derivable_pt_lim_plus; [apply derivable_pt_lim_id|apply derivable_pt_lim_const]. }
  destruct (MVT_cor2 g1 g2 c (c + h)) as [d [E2 Hd]]; [lra|intros; apply D2|].
  exists d; split; [lra|]. replace (x - h + h) with x in E1 by ring.
  replace (g (x+h) - 2 * g x + g (x-h)) with (g2 d * h^2); [field; lra|].
  replace (x - (x - h)) with h in E1 by ring. replace (c + h - c) with h in E2 by ring. rewrite E2 in E1. lra.
Qed.
Lemma mixed_difference (g gx gxy : R -> R -> R) x y h k : 0 < h -> 0 < k ->
  (forall a b, derivable_pt_lim (fun t => g t b) a (gx a b)) -> (forall a b, derivable_pt_lim (gx a) b (gxy a b)) ->
  exists a b, x - h < a < x + h /\ y - k < b < y + k
   /\ (g (x+h) (y+k) - g (x+h) (y-k) - g (x-h) (y+k) + g (x-h) (y-k)) / (4*h*k) = gxy a b.
Proof.
  intros Hh Hk D1 D2.
  destruct (MVT_cor2 (fun t => g t (y+k) - g t (y-k)) (fun t => gx t (y+k) - gx t (y-k)) (x - h) (x + h)) as [c [E1 Hc]]; [lra| |].
  { intros c _. apply derivable_pt_lim_minus; apply D1. }
  destruct (MVT_cor2 (gx c) (gxy c) (y - k) (y + k)) as [d [E2 Hd]]; [lra|intros; apply D2|].
  exists c, d; split; [lra|split; [lra|]].
  replace (g (x+h) (y+k) - g (x+h) (y-k) - g (x-h) (y+k) + g (x-h) (y-k)) with (gxy c d * (4*h*k)); [field; lra|].
  rewrite E2 in E1. lra.
Qed.
End Fisher.

(** quadratic forms *)
Fixpoint nsum (n : nat) (g : nat -> R) : R := match n with O => 0 | S m => nsum m g + g m end.
Definition qform (n : nat) (M : matrix) (x : nat -> R) : R := nsum n (fun i => nsum n (fun j => x i * M i j * x j)).
Definition norm2 (n : nat) (x : nat -> R) : R := nsum n (fun i => x i ^ 2).
Lemma nsum_ext n g h : (forall i, (i < n)%nat -> g i = h i) -> nsum n g = nsum n h.
Proof. induction n as [|n IH]; intros H; cbn; [reflexivity|]. rewrite IH by (intros; apply H; lia). rewrite H by lia; reflexivity. Qed.
Lemma nsum_minus n g h : nsum n (fun i => g i - h i) = nsum n g - nsum n h.
Proof. induction n as [|n IH]; cbn; [ring|]. rewrite IH; ring. Qed.
Lemma nsum_scal n c g : nsum n (fun i => c * g i) = c * nsum n g.
Proof. induction n as [|n IH]; cbn; [ring|]. rewrite IH; ring. Qed.
Lemma nsum_delta n i g : nsum n (fun j => (if Nat.eqb i j then 1 else 0) * g j) = if Nat.ltb i n then g i else 0.
Proof.
  induction n as [|n IH]; cbn [nsum]; [reflexivity|]. rewrite IH.
  destruct (Nat.eqb_spec i n) as [->|N].
  - rewrite Nat.ltb_irrefl. assert (E : Nat.ltb n (S n) = true) by (apply Nat.ltb_lt; lia). rewrite E; ring.
  - destruct (Nat.ltb_spec i n); destruct (Nat.ltb_spec i (S n)); try lia; ring.
Qed.
Lemma qform_shift n M c x : qform n (fun i j => M i j - c * (if Nat.eqb i j then 1 else 0)) x = qform n M x - c * norm2 n x.
Proof.
  unfold qform, norm2. rewrite <- nsum_scal, <- nsum_minus. apply nsum_ext; intros i Hi.
  transitivity (nsum n (fun j => x i * M i j * x j - (c * x i) * ((if Nat.eqb i j then 1 else 0) * x j))).
  { apply nsum_ext; intros; ring. }
  rewrite nsum_minus, nsum_scal, nsum_delta. apply Nat.ltb_lt in Hi; rewrite Hi; ring.
Qed.
Lemma norm2_pos n x : (exists i, (i < n)%nat /\ x i <> 0) -> 0 < norm2 n x.
Proof.
  intros [i [Hi Hx]].
  assert (G : forall m, 0 <= norm2 m x) by (unfold norm2; induction m as [|m IH]; cbn [nsum]; [lra|]; pose proof (pow2_ge_0 (x m)); lra).
  unfold norm2 in *; induction n as [|n IH]; [lia|]. cbn [nsum].
  destruct (Nat.eq_dec i n) as [->|N].
  - specialize (G n). pose proof (pow2_ge_0 (x n)). assert (x n ^ 2 <> 0) by (apply pow_nonzero; exact Hx). lra.
  - pose proof (pow2_ge_0 (x n)). assert (0 < nsum n (fun i => x i ^ 2)) by (apply IH; lia). lra.
Qed.
