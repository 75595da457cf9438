(** * Properties of the proposal cycle, of the moves and of the cpnest wrapper (C172, C173, C174) *)
From Coq Require Import String Reals List Bool Arith Lra Lia ZArith.
From Verif Require Import PyReal PyDict Jump_Model Jump_Props.
Import ListNotations.
Open Scope R_scope. Open Scope list_scope.

(** ** C172: the cycle *)
Section Cycle.
Context {P : Type}.
Variable inst : P -> option P.
Notation op := Jump_Model.op.
(** How often the cycle was called, and the draws in force, after a list of operations. *)
Fixpoint ncalls (ops : list op) : nat :=
  match ops with [] => 0 | Call :: ops => S (ncalls ops) | _ :: ops => ncalls ops end.
Fixpoint in_force (ds : list nat) (ops : list op) : list nat :=
  match ops with [] => ds | Update d :: ops => in_force d ops | _ :: ops => in_force ds ops end.
(** The operations a user performs without touching cycle_length: every redraw has the right size and
    picks existing proposals. *)
Definition regular (n m : nat) (o : op) : Prop :=
  match o with Call => True | Update ds => length ds = n /\ Forall (fun d => (d < m)%nat) ds | SetLength _ => False end.
Definition picked (fs : list P) (ds : list nat) : list P :=
  flat_map (fun d => match nth_error fs d with Some p => [p] | None => [] end) ds.
Lemma picked_nth fs ds i : Forall (fun d => (d < length fs)%nat) ds -> (i < length ds)%nat ->
  exists d p, nth_error ds i = Some d /\ nth_error fs d = Some p /\ nth_error (picked fs ds) i = Some p.
Proof.
  intros F. revert i. induction F as [|d ds Hd F IH]; intros i Hi; cbn in Hi; [lia|].
  destruct (nth_error fs d) as [p|] eqn:E; [|apply nth_error_None in E; lia].
  destruct i as [|i].
  - exists d, p. cbn [picked flat_map]. rewrite E. auto.
  - destruct (IH i ltac:(lia)) as (d' & p' & A & B & C). exists d', p'. cbn [picked flat_map nth_error]. rewrite E.
    cbn [app nth_error]. auto.
Qed.
Definition state (fs : list P) (ws : list R) (n : nat) (ds : list nat) (j : nat) : cycle :=
  mkC fs ws n (j mod n) (picked fs ds).
Lemma call_state fs ws n ds j : (0 < n)%nat -> length ds = n -> Forall (fun d => (d < length fs)%nat) ds ->
  exists d p, nth_error ds (j mod n) = Some d /\ nth_error fs d = Some p /\
    call (state fs ws n ds j) = Some (p, state fs ws n ds (S j)).
Proof.
  intros Hn L F. destruct (picked_nth fs ds (j mod n) F) as (d & p & A & B & C).
  { rewrite L. apply Nat.mod_upper_bound. lia. }
  exists d, p. split; [exact A|]. split; [exact B|]. unfold call, state. cbn [cyc index clen funs raw_weights].
  rewrite C. replace (n =? 0)%nat with false by (symmetry; apply Nat.eqb_neq; lia).
  replace ((j mod n + 1) mod n)%nat with ((S j) mod n)%nat; [reflexivity|].
  rewrite Nat.add_mod_idemp_l by lia. f_equal. lia.
Qed.
Lemma session_state fs ws n : (0 < n)%nat -> forall ops ds j, length ds = n ->
  Forall (fun d => (d < length fs)%nat) ds -> Forall (regular n (length fs)) ops ->
  exists ps, session (state fs ws n ds j) ops = (ps, Some (state fs ws n (in_force ds ops) (j + ncalls ops))) /\
    length ps = ncalls ops /\
    forall pre post, ops = pre ++ Call :: post ->
      exists d p, nth_error (in_force ds pre) ((j + ncalls pre) mod n) = Some d /\ nth_error fs d = Some p /\
        nth_error ps (ncalls pre) = Some p.
Proof.
  intros Hn. induction ops as [|o ops IH]; intros ds j L F R.
  - exists []. cbn [session ncalls in_force]. rewrite Nat.add_0_r. repeat split; auto.
    intros [|? ?] post E; discriminate E.
  - inversion R as [|? ? Ro R']; subst. destruct o as [|d'|m]; [| |destruct Ro].
    + destruct (call_state fs ws _ ds j Hn eq_refl F) as (d & p & A & B & C).
      destruct (IH ds (S j) eq_refl F R') as (ps & E & Lp & N).
      exists (p :: ps). cbn [session ncalls in_force]. rewrite C, E.
      replace (j + S (ncalls ops))%nat with (S j + ncalls ops)%nat by lia. split; [reflexivity|].
      split; [cbn; lia|]. intros pre post Eq. destruct pre as [|o pre].
      * exists d, p. cbn [ncalls in_force nth_error]. rewrite Nat.add_0_r. auto.
      * cbn [app] in Eq. assert (o = Call) by congruence. subst o. assert (Eq' : ops = pre ++ Call :: post) by congruence.
        destruct (N pre post Eq') as (d' & p' & A' & B' & C'). exists d', p'.
        cbn [ncalls in_force nth_error]. replace (j + S (ncalls pre))%nat with (S j + ncalls pre)%nat by lia. auto.
    + destruct Ro as [Lo Fo]. destruct (IH d' j Lo Fo R') as (ps & E & Lp & N).
      exists ps. cbn [session ncalls in_force].
      change (update_cycle d' (state fs ws (length ds) ds j)) with (state fs ws (length ds) d' j).
      split; [exact E|]. split; [exact Lp|]. intros pre post Eq. destruct pre as [|o pre]; [discriminate Eq|].
      cbn [app] in Eq. assert (o = Update d') by congruence. subst o. assert (Eq' : ops = pre ++ Call :: post) by congruence.
      cbn [ncalls in_force]. apply (N pre post Eq').
Qed.
(** Whatever the sequence of calls and redraws, no call fails, and the call made after [pre] uses the entry
    number (calls so far) mod cycle_length of the cycle drawn last: the position is not reset by a redraw. *)
Theorem C172_order fs ws n draws c ops : (0 < n)%nat -> new_cycle inst fs ws n draws = Some c ->
  length draws = n -> Forall (fun d => (d < length fs)%nat) draws -> Forall (regular n (length fs)) ops ->
  exists ps c', session c ops = (ps, Some c') /\ length ps = ncalls ops /\
    forall pre post, ops = pre ++ Call :: post ->
      exists d p, nth_error (in_force draws pre) (ncalls pre mod n) = Some d /\
        nth_error (instantiate inst fs) d = Some p /\ nth_error ps (ncalls pre) = Some p.
Proof.
  intros Hn E L F R. unfold new_cycle in E. destruct (length ws =? length fs)%nat; [|discriminate E].
  assert (Ec : c = state (instantiate inst fs) ws n draws 0).
  { unfold state. rewrite Nat.mod_0_l by lia. unfold update_cycle in E. cbn [funs raw_weights clen index] in E.
    assert (forall (x y : @cycle P), Some x = Some y -> y = x) by (intros x y Exy; congruence). apply H in E. exact E. }
  assert (Li : length (instantiate inst fs) = length fs) by apply map_length.
  destruct (session_state (instantiate inst fs) ws n Hn ops draws 0%nat L) as (ps & Es & Lp & N).
  { rewrite Li. exact F. } { rewrite Li. exact R. }
  exists ps. eexists. rewrite Ec. split; [exact Es|]. split; [exact Lp|]. intros pre post Eq.
  destruct (N pre post Eq) as (d & p & A & B & C). exists d, p. cbn [Nat.add] in A. auto.
Qed.
(** In particular [m] calls in a row run round the cycle. *)
Theorem C172_round fs ws n draws c m : (0 < n)%nat -> new_cycle inst fs ws n draws = Some c ->
  length draws = n -> Forall (fun d => (d < length fs)%nat) draws ->
  exists ps c', session c (repeat Call m) = (ps, Some c') /\ length ps = m /\
    (forall j, (j < m)%nat -> exists d p, nth_error draws (j mod n) = Some d /\
       nth_error (instantiate inst fs) d = Some p /\ nth_error ps j = Some p) /\
    (forall j, (j + n < m)%nat -> nth_error ps (j + n) = nth_error ps j).
Proof.
  intros Hn E L F.
  destruct (C172_order fs ws n draws c (repeat Call m) Hn E L F) as (ps & c' & Es & Lp & N).
  { apply Forall_forall. intros o Ho. apply repeat_spec in Ho. subst o. exact I. }
  assert (Nc : forall i, ncalls (repeat (@Call) i) = i) by (induction i; cbn; auto).
  assert (Nf : forall i, in_force draws (repeat (@Call) i) = draws) by (induction i; cbn; auto).
  assert (Ent : forall j, (j < m)%nat -> exists d p, nth_error draws (j mod n) = Some d /\
       nth_error (instantiate inst fs) d = Some p /\ nth_error ps j = Some p).
  { intros j Hj. destruct (N (repeat Call j) (repeat Call (m - S j))) as (d & p & A & B & C).
    - replace m with (j + S (m - S j))%nat at 1 by lia. rewrite repeat_app. reflexivity.
    - rewrite Nc, Nf in *. exists d, p. auto. }
  exists ps, c'. split; [exact Es|]. split; [rewrite Lp; apply Nc|]. split; [exact Ent|].
  intros j Hj. destruct (Ent j ltac:(lia)) as (d & p & A & B & C).
  destruct (Ent (j + n)%nat ltac:(lia)) as (d' & p' & A' & B' & C').
  replace ((j + n) mod n)%nat with (j mod n)%nat in A'.
  2:{ replace (j + n)%nat with (j + 1 * n)%nat by lia. rewrite Nat.mod_add by lia. reflexivity. }
  congruence.
Qed.
(** The constructor refuses a list of weights of the wrong length, and only that. *)
Theorem C172_assert fs ws n draws : new_cycle inst fs ws n draws = None <-> length ws <> length fs.
Proof.
  unfold new_cycle. destruct (length ws =? length fs)%nat eqn:E.
  - apply Nat.eqb_eq in E. split; [discriminate|tauto].
  - apply Nat.eqb_neq in E. tauto.
Qed.
(** The classes of the list become objects, the objects stay. *)
Theorem C172_instances fs ws n draws c i p : new_cycle inst fs ws n draws = Some c -> nth_error fs i = Some p ->
  nth_error (funs c) i = Some (match inst p with Some q => q | None => p end) /\ length (funs c) = length fs.
Proof.
  intros E Ep. unfold new_cycle in E. destruct (length ws =? length fs)%nat; [|discriminate E].
  assert (Ec : funs c = instantiate inst fs).
  { assert (H : forall (x y : @cycle P), Some x = Some y -> funs x = funs y) by (intros x y Exy; congruence).
    apply H in E. rewrite <- E. reflexivity. }
  rewrite Ec. unfold instantiate. split; [|apply map_length]. rewrite nth_error_map, Ep. reflexivity.
Qed.
Lemma rsum_scale k l : rsum (map (fun w => w / k) l) = rsum l / k.
Proof.
  unfold rsum. induction l as [|a l IH]; cbn [map fold_right]; [unfold Rdiv; ring|].
  rewrite IH. unfold Rdiv. ring.
Qed.
(** The normalised weights add to one and keep the ratios; they exist unless the weights add to zero. *)
Theorem C172_weights (c : @cycle P) : rsum (raw_weights c) <> 0 ->
  exists ws, weights c = Some ws /\ rsum ws = 1 /\ length ws = length (raw_weights c) /\
    forall i j, nth i ws 0 * nth j (raw_weights c) 0 = nth j ws 0 * nth i (raw_weights c) 0.
Proof.
  intros H. unfold weights. destruct (Req_EM_T (rsum (raw_weights c)) 0); [tauto|].
  eexists. split; [reflexivity|]. split; [rewrite rsum_scale; field; exact H|]. split; [apply map_length|].
  set (t := rsum (raw_weights c)) in *.
  assert (E : forall i, nth i (map (fun w => w / t) (raw_weights c)) 0 = nth i (raw_weights c) 0 / t).
  { intros i. replace 0 with (0 / t) at 1 by (field; exact H). apply (map_nth (fun w => w / t)). }
  intros i j. rewrite !E. field. exact H.
Qed.
(** Changing cycle_length without a redraw: a call can find nothing at its position. *)
Theorem C172_length_refuted (p : P) : exists c, new_cycle inst [p] [1] 1 [0%nat] = Some c /\
  session c [Call; SetLength 2; Call; Call] = ([match inst p with Some q => q | None => p end;
                                                match inst p with Some q => q | None => p end], None).
Proof. eexists. split; reflexivity. Qed.
(** A redraw of the new size mends it. *)
Theorem C172_redraw fs ws n draws c m draws' ops : (0 < n)%nat -> new_cycle inst fs ws n draws = Some c ->
  (0 < m)%nat -> length draws' = m -> Forall (fun d => (d < length fs)%nat) draws' ->
  Forall (regular m (length fs)) ops ->
  exists ps c', session c (SetLength m :: Update draws' :: ops) = (ps, Some c') /\ length ps = ncalls ops.
Proof.
  intros Hn E Hm L F R. unfold new_cycle in E. destruct (length ws =? length fs)%nat; [|discriminate E].
  assert (H : forall (x y : @cycle P), Some x = Some y -> y = x) by (intros x y Exy; congruence). apply H in E.
  assert (Li : length (instantiate inst fs) = length fs) by apply map_length.
  destruct (session_state (instantiate inst fs) ws m Hm ops draws' 0%nat L) as (ps & Es & Lp & N).
  { rewrite Li. exact F. } { rewrite Li. exact R. }
  exists ps. eexists. split; [|exact Lp]. cbn [session]. rewrite <- Es. f_equal. rewrite E.
  unfold set_length, update_cycle, state. cbn [funs raw_weights clen index cyc].
  rewrite Nat.mod_0_l by lia. reflexivity.
Qed.
End Cycle.
Example C172_ex : exists c, new_cycle (fun p : nat => if Nat.eqb p 7 then Some 8%nat else None) [7; 9]%nat [1; 3] 3 [1; 0; 1]%nat = Some c /\
  fst (session c [Call; Call; Update [0; 0; 1]%nat; Call; Call]) = [9; 8; 9; 8]%nat /\
  snd (session c [Call]) <> None.
Proof. eexists. split; [reflexivity|]. split; [reflexivity|discriminate]. Qed.

(** ** C173: the moves *)
Lemma dict_ext (d e : dict R) : wf d -> dkeys d = dkeys e -> (forall k, dget d k = dget e k) -> d = e.
Proof.
  revert e. induction d as [|[k x] d IH]; intros [|[k' y] e] W K G; try discriminate K; [reflexivity|].
  cbn in K. assert (k' = k) by congruence. subst k'. assert (K' : dkeys d = dkeys e) by (unfold dkeys; congruence).
  inversion W as [|? ? Nk W']; subst.
  pose proof (G k) as Gk. cbn in Gk. rewrite String.eqb_refl in Gk. f_equal; [congruence|].
  apply IH; [exact W'|exact K'|]. intros a. pose proof (G a) as Ga. cbn in Ga.
  destruct (String.eqb_spec a k) as [Ea|Ne]; [|exact Ga]. rewrite Ea.
  rewrite (proj2 (dget_none d k)) by exact Nk. symmetry. apply dget_none. rewrite <- K'. exact Nk.
Qed.
Definition free (priors : dict pr) (s : sample) : Prop :=
  forall k, In k (dkeys s) -> exists p, dget priors k = Some p /\ bd p = Free.
Lemma finish_free priors lj s : wf s -> free priors s -> finish priors lj (Some s) = Some (s, lj).
Proof.
  intros W H. unfold finish. cbn [bind].
  destruct (apply_spec priors s W) as (s' & E & K & F).
  { intros k Hk. destruct (H k Hk) as (p & Ep & _). congruence. }
  rewrite E. cbn [bind]. f_equal. f_equal. symmetry. apply dict_ext; [exact W|auto|].
  intros k. destruct (dget s k) as [x|] eqn:Ex.
  - assert (Hk : In k (dkeys s)) by (apply dmem_in; unfold dmem; rewrite Ex; reflexivity).
    destruct (H k Hk) as (p & Ep & Bp). rewrite (F k p x Ep Ex). unfold final. rewrite Bp. reflexivity.
  - symmetry. apply dget_none. rewrite K. apply dget_none. exact Ex.
Qed.
Definition has_keys (s : sample) (o : dict R) : Prop := forall k, In k (dkeys s) -> In k (dkeys o).
Lemma zip_spec f s o : wf s -> has_keys s o ->
  exists r, zip_with f s o = Some r /\ dkeys r = dkeys s /\
    forall k x y, dget s k = Some x -> dget o k = Some y -> dget r k = Some (f x y).
Proof.
  induction s as [|[k x] s IH]; intros W H.
  - exists []. repeat split. intros k x y E. discriminate E.
  - inversion W as [|? ? Nk W']; subst. destruct IH as (r & E & K & G); [exact W'|intros a Ha; apply H; right; exact Ha|].
    destruct (dget o k) as [y|] eqn:Ey; [|apply dget_none in Ey; destruct Ey; apply H; left; reflexivity].
    exists ((k, f x y) :: r). cbn [zip_with]. rewrite Ey, E. cbn [bind]. split; [reflexivity|].
    split; [cbn [dkeys map fst]; f_equal; exact K|]. intros a u v Eu Ev. cbn in Eu |- *.
    destruct (String.eqb_spec a k) as [->|Ne]; [congruence|]. apply G; assumption.
Qed.
Lemma get_key (s : dict R) k : In k (dkeys s) -> exists x, dget s k = Some x.
Proof. intros H. apply dmem_in in H. unfold dmem in H. destruct (dget s k) as [x|]; [exists x; reflexivity|discriminate]. Qed.
Lemma key_get (s : dict R) k x : dget s k = Some x -> In k (dkeys s).
Proof. intros H. apply dmem_in. unfold dmem. rewrite H. reflexivity. Qed.
Lemma mul_get s c k : dget (s_mul s c) k = option_map (fun x => x * c) (dget s k).
Proof. apply dget_map. Qed.
Lemma mul_keys s c : dkeys (s_mul s c) = dkeys s.
Proof. apply dkeys_map. Qed.

(** *** Walk *)
Definition val (s : sample) (k : string) : R := match dget s k with Some x => x | None => 0 end.
Lemma val_get s k x : dget s k = Some x -> val s k = x.
Proof. unfold val. intros ->. reflexivity. Qed.
Lemma column_spec subset k : (forall c, In c subset -> In k (dkeys c)) ->
  column subset k = Some (map (fun c => val c k) subset).
Proof.
  induction subset as [|c cs IH]; intros H; [reflexivity|]. cbn [column map].
  destruct (get_key c k (H c (or_introl eq_refl))) as [x Ex]. rewrite Ex. cbn [bind].
  rewrite IH by (intros a Ha; apply H; right; exact Ha). cbn [bind]. rewrite (val_get c k x Ex). reflexivity.
Qed.
Lemma com_spec subset ks : (forall k c, In k ks -> In c subset -> In k (dkeys c)) ->
  exists d, com_keys subset ks = Some d /\ dkeys d = ks /\
    forall k, In k ks -> dget d k = Some (mean (map (fun c => val c k) subset)).
Proof.
  induction ks as [|k ks IH]; intros H.
  - exists []. repeat split. intros k [].
  - destruct IH as (d & E & K & G); [intros a c Ha Hc; apply H; [right; exact Ha|exact Hc]|].
    cbn [com_keys]. rewrite column_spec by (intros c Hc; apply H; [left; reflexivity|exact Hc]). rewrite E. cbn [bind].
    eexists. split; [reflexivity|]. split; [cbn [dkeys map fst]; f_equal; exact K|].
    intros a Ha. cbn. destruct (String.eqb_spec a k) as [->|Ne]; [reflexivity|]. apply G. destruct Ha; [congruence|assumption].
Qed.
Fixpoint dot (rs xs : list R) : R := match rs, xs with r :: rs, x :: xs => r * x + dot rs xs | _, _ => 0 end.
Lemma walk_loop_spec com : forall xs rs s, wf s -> length rs = length xs ->
  (forall x, In x xs -> wf x /\ has_keys x com /\ has_keys s x) ->
  exists s', walk_loop com s xs rs = Some s' /\ dkeys s' = dkeys s /\
    forall k v, dget s k = Some v -> dget s' k = Some (v + dot rs (map (fun x => val x k - val com k) xs)).
Proof.
  induction xs as [|x xs IH]; intros [|r rs] s W L H; try discriminate L.
  - exists s. cbn [walk_loop map dot]. repeat split; auto. intros k v E. rewrite E. f_equal. ring.
  - destruct (H x (or_introl eq_refl)) as (Wx & Kc & Kx). cbn [walk_loop]. unfold s_sub, s_add.
    destruct (zip_spec Rminus x com Wx Kc) as (d & Ed & Kd & Gd). rewrite Ed. cbn [bind].
    destruct (zip_spec Rplus s (s_mul d r) W) as (s1 & E1 & K1 & G1).
    { intros k Hk. rewrite mul_keys, Kd. apply Kx. exact Hk. }
    rewrite E1. cbn [bind].
    destruct (IH rs s1) as (s' & E & K & G).
    { unfold wf. rewrite K1. exact W. } { cbn in L. lia. }
    { intros y Hy. destruct (H y (or_intror Hy)) as (Wy & Cy & Sy). split; [exact Wy|]. split; [exact Cy|].
      intros k Hk. apply Sy. rewrite <- K1. exact Hk. }
    exists s'. split; [exact E|]. split; [congruence|]. intros k v Ev.
    assert (Hk : In k (dkeys x)) by (apply Kx; apply (key_get s k v Ev)).
    destruct (get_key x k Hk) as [xv Exv]. destruct (get_key com k (Kc k Hk)) as [cv Ecv].
    assert (E1k : dget s1 k = Some (v + (xv - cv) * r)).
    { apply (G1 k v ((xv - cv) * r) Ev). rewrite mul_get, (Gd k xv cv Exv Ecv). reflexivity. }
    rewrite (G k _ E1k). f_equal. cbn [map dot]. rewrite (val_get x k xv Exv), (val_get com k cv Ecv). ring.
Qed.
(** The points the walk can be given: at least one, and all over the keys of the sample. *)
Definition ensemble (s : sample) (subset : list sample) : Prop :=
  subset <> [] /\ forall x, In x subset -> wf x /\ dkeys x = dkeys s.
Lemma walk_spec s subset rs : wf s -> ensemble s subset -> length rs = length subset ->
  exists s', walk_move s subset rs = Some s' /\ dkeys s' = dkeys s /\
    forall k v, dget s k = Some v ->
      dget s' k = Some (v + dot rs (map (fun x => val x k - mean (map (fun c => val c k) subset)) subset)).
Proof.
  intros W [Ne He] L. destruct subset as [|c0 cs] eqn:Es; [tauto|]. rewrite <- Es in *.
  assert (H0 : In c0 subset) by (rewrite Es; left; reflexivity).
  unfold walk_move. destruct (com_spec subset (dkeys c0)) as (com & E & K & G).
  { intros k c Hk Hc. rewrite (proj2 (He c Hc)), <- (proj2 (He c0 H0)). exact Hk. }
  assert (Ec : center_of_mass subset = Some com) by (rewrite Es; unfold center_of_mass; rewrite <- Es; exact E).
  rewrite Ec. cbn [bind].
  destruct (walk_loop_spec com subset rs s W L) as (s' & Ew & Kw & Gw).
  { intros x Hx. split; [apply (He x Hx)|]. split; intros k Hk.
    - rewrite K, (proj2 (He c0 H0)), <- (proj2 (He x Hx)). exact Hk.
    - rewrite (proj2 (He x Hx)). exact Hk. }
  exists s'. split; [exact Ew|]. split; [exact Kw|]. intros k v Ev. rewrite (Gw k v Ev). f_equal. f_equal. f_equal.
  apply map_ext. intros x. f_equal. apply (val_get com k). apply G. rewrite (proj2 (He c0 H0)). apply (key_get s k v Ev).
Qed.
(** Every coordinate moves by the sum of random multiples of the offsets of the chosen points from their
    mean, one random number per point; nothing else about the sample matters. *)
Theorem C173_walk priors s subset rs : wf s -> free priors s -> ensemble s subset -> length rs = length subset ->
  exists s', ensemble_walk priors s subset rs = Some (s', 0) /\ dkeys s' = dkeys s /\
    forall k v, dget s k = Some v ->
      dget s' k = Some (v + dot rs (map (fun x => val x k - mean (map (fun c => val c k) subset)) subset)).
Proof.
  intros W F E L. destruct (walk_spec s subset rs W E L) as (s' & Es & K & G).
  exists s'. unfold ensemble_walk. rewrite Es, finish_free; [auto| |].
  - unfold wf. rewrite K. exact W.
  - intros k Hk. apply F. rewrite <- K. exact Hk.
Qed.
Lemma dot_rev c rs xs : length rs = length xs -> dot rs xs + dot (map (fun r => c - r) rs) xs = c * rsum xs.
Proof.
  unfold rsum. revert xs. induction rs as [|r rs IH]; intros [|x xs] L; try discriminate L; cbn [map dot fold_right]; [ring|].
  pose proof (IH xs ltac:(cbn in L; lia)). lra.
Qed.
Lemma rsum_map_minus (f : sample -> R) (m : R) l : rsum (map (fun x => f x - m) l) = rsum (map f l) - INR (length l) * m.
Proof.
  unfold rsum. induction l as [|a l IH]; [cbn; ring|]. cbn [map fold_right]. rewrite IH.
  cbn [length]. rewrite S_INR. ring.
Qed.
Lemma offsets_zero (f : sample -> R) l : l <> [] -> rsum (map (fun x => f x - mean (map f l)) l) = 0.
Proof.
  intros H. rewrite rsum_map_minus. unfold mean. rewrite map_length. field.
  destruct l; [tauto|]. cbn [length]. apply not_0_INR. lia.
Qed.
Lemma val_eq_dict (s t : sample) : wf s -> dkeys t = dkeys s -> (forall k v, dget s k = Some v -> dget t k = Some v) -> s = t.
Proof.
  intros W K G. apply dict_ext; [exact W|auto|]. intros k. destruct (dget s k) as [v|] eqn:E; [symmetry; auto|].
  symmetry. apply dget_none. rewrite K. apply dget_none. exact E.
Qed.
(** The walk is symmetric: with [c - r] in place of every random number [r] (for numbers uniform on (0, 1),
    [1 - r]) the same points lead back, so [log_j = 0] is right; and equal numbers do not move at all. *)
Theorem C173_walk_back priors s subset rs c : wf s -> free priors s -> ensemble s subset ->
  length rs = length subset ->
  exists s', ensemble_walk priors s subset rs = Some (s', 0) /\
    ensemble_walk priors s' subset (map (fun r => c - r) rs) = Some (s, 0).
Proof.
  intros W F E L. destruct (C173_walk priors s subset rs W F E L) as (s' & Es & K & G).
  exists s'. split; [exact Es|].
  destruct (C173_walk priors s' subset (map (fun r => c - r) rs)) as (t & Et & Kt & Gt).
  { unfold wf. rewrite K. exact W. }
  { intros k Hk. apply F. rewrite <- K. exact Hk. }
  { destruct E as [Ne He]. split; [exact Ne|]. intros x Hx. rewrite K. apply (He x Hx). }
  { rewrite map_length. exact L. }
  rewrite Et. f_equal. f_equal. symmetry. apply val_eq_dict; [exact W|congruence|].
  intros k v Ev. rewrite (Gt k _ (G k v Ev)). f_equal.
  pose proof (dot_rev c rs (map (fun x => val x k - mean (map (fun c => val c k) subset)) subset)
    ltac:(rewrite map_length; exact L)) as Dr.
  pose proof (offsets_zero (fun x => val x k) subset (proj1 E)) as Oz. cbv beta in Oz. rewrite Oz in Dr. lra.
Qed.
Theorem C173_walk_equal priors s subset r : wf s -> free priors s -> ensemble s subset ->
  ensemble_walk priors s subset (repeat r (length subset)) = Some (s, 0).
Proof.
  intros W F E. destruct (C173_walk priors s subset (repeat r (length subset)) W F E) as (s' & Es & K & G).
  { apply repeat_length. }
  rewrite Es. f_equal. f_equal. symmetry. apply val_eq_dict; [exact W|exact K|].
  intros k v Ev. rewrite (G k v Ev). f_equal.
  assert (D : forall xs, dot (repeat r (length xs)) xs = r * rsum xs).
  { unfold rsum. induction xs as [|x xs IH]; cbn [length repeat dot fold_right]; [ring|]. rewrite IH. ring. }
  pose proof (D (map (fun x => val x k - mean (map (fun c => val c k) subset)) subset)) as Dd.
  rewrite map_length in Dd. rewrite Dd.
  pose proof (offsets_zero (fun x => val x k) subset (proj1 E)) as Oz. cbv beta in Oz. rewrite Oz. ring.
Qed.

(** *** Stretch *)
Lemma stretch_spec s z t : wf s -> wf z -> dkeys z = dkeys s ->
  exists s', stretch_move s z t = Some s' /\ dkeys s' = dkeys s /\
    forall k, In k (dkeys s) -> dget s' k = Some (val z k + (val s k - val z k) * exp t).
Proof.
  intros W Wz Kz. unfold stretch_move, s_sub, s_add.
  destruct (zip_spec Rminus s z W) as (d & Ed & Kd & Gd); [intros k Hk; rewrite Kz; exact Hk|]. rewrite Ed. cbn [bind].
  destruct (zip_spec Rplus z (s_mul d (exp t)) Wz) as (s' & E & K & G).
  { intros k Hk. rewrite mul_keys, Kd, <- Kz. exact Hk. }
  exists s'. split; [exact E|]. split; [congruence|]. intros k Hk.
  destruct (get_key s k Hk) as [x Ex]. destruct (get_key z k ltac:(rewrite Kz; exact Hk)) as [y Ey].
  rewrite (val_get s k x Ex), (val_get z k y Ey). apply (G k y _ Ey). rewrite mul_get, (Gd k x y Ex Ey). reflexivity.
Qed.
(** The stretch about the second point: every coordinate's distance from it is multiplied by
    [exp step], [|step| <= ln scale], and [exp log_j] is that factor to the number of coordinates, which is
    the Jacobian of the map. *)
Theorem C173_stretch priors scale s z u : wf s -> wf z -> dkeys z = dkeys s -> free priors s -> 1 <= scale -> -1 <= u <= 1 ->
  exists s' lj, ensemble_stretch priors scale s z u = Some (s', lj) /\ dkeys s' = dkeys s /\
    exists f, / scale <= f <= scale /\ exp lj = f ^ length (dkeys s) /\
      forall k, In k (dkeys s) -> val s' k - val z k = f * (val s k - val z k).
Proof.
  intros W Wz Kz F Hs Hu. set (t := stretch_step scale u).
  destruct (stretch_spec s z t W Wz Kz) as (s' & E & K & G).
  exists s', (INR (length s') * t). unfold ensemble_stretch. fold t. rewrite E. cbn [bind].
  rewrite finish_free; [|unfold wf; rewrite K; exact W|intros k Hk; apply F; rewrite <- K; exact Hk].
  split; [reflexivity|]. split; [exact K|]. exists (exp t).
  assert (L0 : 0 <= ln scale).
  { destruct (Rle_lt_or_eq_dec 1 scale Hs) as [Hl|He]; [|rewrite <- He, ln_1; lra].
    left. rewrite <- ln_1. apply ln_increasing; lra. }
  assert (Tu : - ln scale <= t <= ln scale) by (unfold t, stretch_step; split; nra).
  assert (Me : forall a b, a <= b -> exp a <= exp b).
  { intros a b [Hab| ->]; [left; apply exp_increasing; exact Hab|lra]. }
  split; [|split].
  - split; [|rewrite <- (exp_ln scale) at 1 by lra; apply Me; lra].
    rewrite <- (exp_ln scale) at 1 by lra. rewrite <- exp_Ropp. apply Me. lra.
  - assert (El : length s' = length (dkeys s)) by (rewrite <- K; unfold dkeys; rewrite map_length; reflexivity).
    rewrite El. rewrite <- (exp_ln (exp t ^ length (dkeys s))) by (apply pow_lt; apply exp_pos).
    f_equal. rewrite ln_pow by apply exp_pos. rewrite ln_exp. reflexivity.
  - intros k Hk. rewrite (val_get s' k _ (G k Hk)). ring.
Qed.
(** Back again: the opposite number with the same second point, and [log_j] changes sign. *)
Theorem C173_stretch_back priors scale s z u : wf s -> wf z -> dkeys z = dkeys s -> free priors s ->
  exists s' lj, ensemble_stretch priors scale s z u = Some (s', lj) /\
    ensemble_stretch priors scale s' z (- u) = Some (s, - lj).
Proof.
  intros W Wz Kz F. set (t := stretch_step scale u).
  destruct (stretch_spec s z t W Wz Kz) as (s' & E & K & G).
  exists s', (INR (length s') * t). unfold ensemble_stretch at 1. fold t. rewrite E. cbn [bind].
  rewrite finish_free; [|unfold wf; rewrite K; exact W|intros k Hk; apply F; rewrite <- K; exact Hk].
  split; [reflexivity|].
  assert (Et : stretch_step scale (- u) = - t) by (unfold t, stretch_step; ring).
  destruct (stretch_spec s' z (- t)) as (s2 & E2 & K2 & G2); [unfold wf; rewrite K; exact W|exact Wz|congruence|].
  unfold ensemble_stretch. rewrite Et, E2. cbn [bind].
  assert (S2 : s2 = s).
  { symmetry. apply val_eq_dict; [exact W|congruence|]. intros k v Ev.
    assert (Hk : In k (dkeys s)) by apply (key_get s k v Ev).
    rewrite (G2 k) by (rewrite K; exact Hk). rewrite (val_get s' k _ (G k Hk)), (val_get s k v Ev). f_equal.
    rewrite exp_Ropp. field. pose proof (exp_pos t). lra. }
  rewrite S2, finish_free; [|exact W|exact F]. f_equal. f_equal.
  assert (El : length s' = length s) by (pose proof (f_equal (@length string) K) as El; unfold dkeys in El; rewrite !map_length in El; exact El).
  rewrite El. ring.
Qed.

(** *** Differential evolution *)
Theorem C173_evolution priors s a b g : wf s -> wf b -> dkeys a = dkeys s -> dkeys b = dkeys s -> free priors s ->
  exists s', differential_evolution priors s a b g = Some (s', 0) /\ dkeys s' = dkeys s /\
    (forall k, In k (dkeys s) -> val s' k = val s k + g * (val b k - val a k)) /\
    (wf a -> differential_evolution priors s' b a g = Some (s, 0)).
Proof.
  assert (Sp : forall s a b, wf s -> wf b -> dkeys a = dkeys s -> dkeys b = dkeys s ->
    exists s', de_move s a b g = Some s' /\ dkeys s' = dkeys s /\
      forall k, In k (dkeys s) -> dget s' k = Some (val s k + (val b k - val a k) * g)).
  { clear. intros s a b W Wb Ka Kb. unfold de_move, s_sub, s_add.
    destruct (zip_spec Rminus b a Wb) as (d & Ed & Kd & Gd); [intros k Hk; rewrite Ka, <- Kb; exact Hk|]. rewrite Ed. cbn [bind].
    destruct (zip_spec Rplus s (s_mul d g) W) as (s' & E & K & G); [intros k Hk; rewrite mul_keys, Kd, Kb; exact Hk|].
    exists s'. split; [exact E|]. split; [exact K|]. intros k Hk.
    destruct (get_key s k Hk) as [x Ex]. destruct (get_key a k ltac:(rewrite Ka; exact Hk)) as [y Ey].
    destruct (get_key b k ltac:(rewrite Kb; exact Hk)) as [w Ew].
    rewrite (val_get s k x Ex), (val_get a k y Ey), (val_get b k w Ew).
    apply (G k x _ Ex). rewrite mul_get, (Gd k w y Ew Ey). reflexivity. }
  intros W Wb Ka Kb F. destruct (Sp s a b W Wb Ka Kb) as (s' & E & K & G).
  exists s'. unfold differential_evolution. rewrite E, finish_free; [|unfold wf; rewrite K; exact W|intros k Hk; apply F; rewrite <- K; exact Hk].
  split; [reflexivity|]. split; [exact K|]. split.
  - intros k Hk. rewrite (val_get s' k _ (G k Hk)). ring.
  - intros Wa. destruct (Sp s' b a) as (t & Et & Kt & Gt); [unfold wf; rewrite K; exact W|exact Wa|congruence|congruence|].
    rewrite Et. assert (T : t = s).
    { symmetry. apply val_eq_dict; [exact W|congruence|]. intros k v Ev.
      assert (Hk : In k (dkeys s)) by apply (key_get s k v Ev).
      rewrite (Gt k) by (rewrite K; exact Hk). rewrite (val_get s' k _ (G k Hk)), (val_get s k v Ev). f_equal. ring. }
    rewrite T. apply finish_free; assumption.
Qed.

(** *** Eigenvectors *)
Lemma eigen_loop_keys jump vecs i j s : dkeys (eigen_loop jump vecs i j s) = dkeys s.
Proof. revert j. induction s as [|[k x] s IH]; intros j; [reflexivity|]. cbn [eigen_loop dkeys map fst]. f_equal. apply IH. Qed.
Lemma eigen_loop_nth jump vecs i s : forall j n k x, nth_error s n = Some (k, x) ->
  nth_error (eigen_loop jump vecs i j s) n = Some (k, x + jump * entry vecs (j + n) i).
Proof.
  induction s as [|[k0 x0] s IH]; intros j [|n] k x E; try discriminate E; cbn [nth_error eigen_loop] in *.
  - rewrite Nat.add_0_r. congruence.
  - rewrite (IH (S j) n k x E). replace (S j + n)%nat with (j + S n)%nat by lia. reflexivity.
Qed.
Lemma eigen_main priors vals vecs i z s : wf s -> free priors s ->
  exists s', ensemble_eigenvector priors vals vecs i z s = Some (s', 0) /\ dkeys s' = dkeys s /\
    (forall n k x, nth_error s n = Some (k, x) ->
       nth_error s' n = Some (k, x + sqrt (Rabs (nth i vals 0)) * z * entry vecs n i)) /\
    ensemble_eigenvector priors vals vecs i (- z) s' = Some (s, 0) /\
    (rsum (map (fun n => entry vecs n i ^ 2) (seq 0 (length s))) = 1 ->
     rsum (map (fun n => (nth n (dvals s') 0 - nth n (dvals s) 0) ^ 2) (seq 0 (length s))) = Rabs (nth i vals 0) * z ^ 2).
Proof.
  intros W F. set (s' := eigen_move vals vecs i z s). exists s'.
  assert (K : dkeys s' = dkeys s) by apply eigen_loop_keys.
  assert (Nn : forall n k x, nth_error s n = Some (k, x) ->
       nth_error s' n = Some (k, x + sqrt (Rabs (nth i vals 0)) * z * entry vecs n i)).
  { intros n k x E. apply (eigen_loop_nth (jump_size vals i z) vecs i s 0 n k x E). }
  split; [|split; [exact K|split; [exact Nn|split]]].
  - apply finish_free; [unfold wf; rewrite K; exact W|intros k Hk; apply F; rewrite <- K; exact Hk].
  - unfold ensemble_eigenvector. assert (B : eigen_move vals vecs i (- z) s' = s).
    { unfold s', eigen_move. replace (jump_size vals i (- z)) with (- jump_size vals i z) by (unfold jump_size; ring).
      generalize (jump_size vals i z). intros jp. clear. generalize 0%nat. induction s as [|[k x] s IH]; intros j; [reflexivity|].
      cbn [eigen_loop]. f_equal; [f_equal; ring|apply IH]. }
    rewrite B. apply finish_free; assumption.
  - intros U.
    assert (Q : forall n, In n (seq 0 (length s)) ->
      (nth n (dvals s') 0 - nth n (dvals s) 0) ^ 2 = Rabs (nth i vals 0) * z ^ 2 * entry vecs n i ^ 2).
    { intros n Hn. apply in_seq in Hn. destruct (nth_error s n) as [[k x]|] eqn:E; [|apply nth_error_None in E; lia].
      pose proof (Nn n k x E) as E'.
      assert (V1 : nth n (dvals s) 0 = x).
      { apply nth_error_nth. unfold dvals. rewrite nth_error_map, E. reflexivity. }
      assert (V2 : nth n (dvals s') 0 = x + sqrt (Rabs (nth i vals 0)) * z * entry vecs n i).
      { apply nth_error_nth. unfold dvals. rewrite nth_error_map, E'. reflexivity. }
      rewrite V1, V2. pose proof (sqrt_sqrt (Rabs (nth i vals 0)) (Rabs_pos _)) as Sq.
      set (q := sqrt (Rabs (nth i vals 0))) in *. rewrite <- Sq. ring. }
    rewrite (map_ext_in _ (fun n => Rabs (nth i vals 0) * z ^ 2 * entry vecs n i ^ 2) _ Q).
    transitivity (Rabs (nth i vals 0) * z ^ 2 * rsum (map (fun n => entry vecs n i ^ 2) (seq 0 (length s)))); [|rewrite U; ring].
    clear.
    generalize (Rabs (nth i vals 0) * z ^ 2). intros c. generalize (seq 0 (length s)). clear.
    unfold rsum. induction l as [|n l IH]; cbn [map fold_right]; [ring|]. rewrite IH. ring.
Qed.
(** The [n]-th coordinate moves by the [n]-th component of the chosen eigenvector (column [i] of the matrix) times
    sqrt|eigenvalue| * z; if the eigenvector has length one, the squared length of the move is
    |eigenvalue| * z^2; and with [-z] the move is undone. *)
Theorem C173_eigen priors vals vecs i z s : wf s -> free priors s ->
  exists s', ensemble_eigenvector priors vals vecs i z s = Some (s', 0) /\ dkeys s' = dkeys s /\
    (forall n k x, nth_error s n = Some (k, x) ->
       nth_error s' n = Some (k, x + sqrt (Rabs (nth i vals 0)) * z * nth i (nth n vecs []) 0)) /\
    ensemble_eigenvector priors vals vecs i (- z) s' = Some (s, 0) /\
    (rsum (map (fun n => nth i (nth n vecs []) 0 ^ 2) (seq 0 (length s))) = 1 ->
     rsum (map (fun n => (nth n (dvals s') 0 - nth n (dvals s) 0) ^ 2) (seq 0 (length s))) = Rabs (nth i vals 0) * z ^ 2).
Proof. exact (eigen_main priors vals vecs i z s). Qed.
(** One parameter: the step is the standard deviation of the points times [z]. *)
Theorem C173_eigen_1d priors (coordinates : list sample) k x vals vecs z : coordinates <> [] ->
  (forall c, In c coordinates -> dkeys c = [k]) -> eigen_1d coordinates = Some (vals, vecs) ->
  (exists p, dget priors k = Some p /\ bd p = Free) ->
  exists d, d * d = variance (map (fun c => val c k) coordinates) /\ 0 <= d /\
    ensemble_eigenvector priors vals vecs 0 z [(k, x)] = Some ([(k, x + d * z)], 0).
Proof.
  intros Ne Hc E Hp.
  set (l := map (fun c => val c k) coordinates).
  assert (Ev : vals = [variance l] /\ vecs = [[1]]).
  { destruct coordinates as [|c cs] eqn:Ec; [tauto|]. rewrite <- Ec in *.
    assert (Kc : dkeys c = [k]) by (apply Hc; rewrite Ec; left; reflexivity).
    destruct c as [|[k' x'] [|? ?]]; try discriminate Kc. cbn in Kc. assert (k' = k) by congruence. subst k'.
    assert (E' : bind (column coordinates k) (fun l => Some ([variance l], [[1]])) = Some (vals, vecs)) by (rewrite Ec in *; exact E).
    rewrite column_spec in E'. 2:{ intros c H. rewrite (Hc c H). left. reflexivity. }
    cbn [bind] in E'. assert (El : l = map (fun c : sample => val c k) coordinates) by (unfold l; rewrite Ec; reflexivity). rewrite <- El in E'. clearbody l. assert (Q := f_equal (fun o => match o with Some a => a | None => (vals, vecs) end) E'). cbn in Q. split; [exact (eq_sym (f_equal fst Q))|exact (eq_sym (f_equal snd Q))]. }
  destruct Ev as [-> ->].
  assert (Vp : 0 <= variance l).
  { unfold variance, mean. assert (0 <= rsum (map (fun x => (x - rsum l / INR (length l)) ^ 2) l)).
    { generalize (rsum l / INR (length l)). intros m. clear. unfold rsum. induction l as [|a l IH]; cbn [map fold_right]; [lra|].
      pose proof (pow2_ge_0 (a - m)). lra. }
    rewrite map_length. destruct l as [|a t] eqn:El; [cbn; unfold Rdiv; rewrite Rmult_0_l; lra|].
    apply Rmult_le_pos; [exact H|]. left. apply Rinv_0_lt_compat. apply lt_0_INR. cbn; lia. }
  exists (sqrt (variance l)). split; [apply sqrt_sqrt; exact Vp|]. split; [apply sqrt_pos|].
  unfold ensemble_eigenvector.
  assert (Em : eigen_move [variance l] [[1]] 0 z [(k, x)] = [(k, x + sqrt (variance l) * z)]).
  { unfold eigen_move, eigen_loop, jump_size, entry. cbn [nth]. rewrite Rabs_pos_eq by exact Vp. f_equal. f_equal. ring. }
  rewrite Em. apply finish_free.
  - repeat constructor. intros [].
  - intros a [<-|[]]. exact Hp.
Qed.

(** *** Normal steps and draws from the flattened prior *)
Theorem C173_norm priors step s zs : wf s -> free priors s -> length zs = length s ->
  exists s', norm_jump priors step s zs = Some (s', 0) /\ dkeys s' = dkeys s /\
    (forall n k x, nth_error s n = Some (k, x) -> exists z, nth_error zs n = Some z /\ nth_error s' n = Some (k, x + step * z)) /\
    norm_jump priors step s' (map Ropp zs) = Some (s, 0).
Proof.
  intros W F L.
  assert (Sp : forall s zs, length zs = length s -> dkeys (norm_move step s zs) = dkeys s /\
    (forall n k x, nth_error s n = Some (k, x) -> exists z, nth_error zs n = Some z /\ nth_error (norm_move step s zs) n = Some (k, x + step * z)) /\
    norm_move step (norm_move step s zs) (map Ropp zs) = s).
  { clear. induction s as [|[k x] s IH]; intros [|z zs] L; try discriminate L.
    - repeat split. intros [|n] k x E; discriminate E.
    - destruct (IH zs ltac:(cbn in L; lia)) as (K & N & B). cbn [norm_move dkeys map fst]. repeat split.
      + f_equal. exact K.
      + intros [|n] a y E; cbn [nth_error] in *; [exists z; split; congruence|apply N; exact E].
      + f_equal; [f_equal; ring|exact B]. }
  destruct (Sp s zs L) as (K & N & B). exists (norm_move step s zs). unfold norm_jump.
  split; [apply finish_free; [unfold wf; rewrite K; exact W|intros k Hk; apply F; rewrite <- K; exact Hk]|].
  split; [exact K|]. split; [exact N|]. rewrite B. apply finish_free; assumption.
Qed.
Theorem C173_flat priors s us : wf s -> length us = length s -> Forall (fun u => 0 <= u <= 1) us ->
  (forall k, In k (dkeys s) -> exists p, dget priors k = Some p /\ mn p < mx p) ->
  exists s', draw_flat priors s us = Some (s', 0) /\ dkeys s' = dkeys s /\
    forall n k p u, nth_error (dkeys s) n = Some k -> dget priors k = Some p -> nth_error us n = Some u ->
      dget s' k = Some (mn p + u * (mx p - mn p)) /\ mn p <= mn p + u * (mx p - mn p) <= mx p.
Proof.
  intros W L Fu H.
  assert (Sp : exists t, flat_move priors s us = Some t /\ dkeys t = dkeys s /\
    forall n k p u, nth_error (dkeys s) n = Some k -> dget priors k = Some p -> nth_error us n = Some u ->
      dget t k = Some (mn p + u * (mx p - mn p)) /\ mn p <= mn p + u * (mx p - mn p) <= mx p).
  { revert us L Fu. induction s as [|[k x] s IH]; intros [|u us] L Fu; try discriminate L.
    - exists []. repeat split; auto; destruct n; discriminate.
    - inversion W as [|? ? Nk W']; subst. inversion Fu as [|? ? Hu Fu']; subst.
      destruct (IH W' ltac:(intros a Ha; apply H; right; exact Ha) us ltac:(cbn in L; lia) Fu') as (t & E & K & G).
      destruct (H k (or_introl eq_refl)) as (p & Ep & Lp).
      cbn [flat_move]. rewrite Ep, E. cbn [bind]. eexists. split; [reflexivity|].
      split; [cbn [dkeys map fst]; f_equal; exact K|].
      intros [|n] a q v Ea Eq Ev; cbn [nth_error dkeys map fst] in *.
      + assert (a = k) by congruence. subst a. assert (q = p) by congruence. subst q. assert (v = u) by congruence. subst v.
        cbn. rewrite String.eqb_refl. split; [reflexivity|]. nra.
      + cbn. destruct (String.eqb_spec a k) as [->|Ne]; [|apply (G n a q v Ea Eq Ev)].
        apply nth_error_In in Ea. tauto. }
  destruct Sp as (t & E & K & G). unfold draw_flat, finish. rewrite E. cbn [bind].
  destruct (C171_boundaries priors t) as (t' & Et & Kt & Gt).
  { unfold wf. rewrite K. exact W. } { intros k Hk. apply H. rewrite <- K. exact Hk. }
  rewrite Et. cbn [bind]. exists t'. split; [reflexivity|]. split; [congruence|].
  intros n k p u En Ep Eu. destruct (G n k p u En Ep Eu) as [Gk Rk].
  destruct (Gt k p _ Ep Gk) as (y & Ey & _ & Y & _). rewrite Ey, (Y Rk). auto.
Qed.
Example C173_ex : exists s' lj, ensemble_stretch [("a"%string, mkPr Free 0 1); ("b"%string, mkPr Free 0 1)] (exp 1)
    [("a"%string, 3); ("b"%string, 4)] [("a"%string, 1); ("b"%string, 4)] 1 = Some (s', lj) /\
  val s' "a" = 1 + 2 * exp 1 /\ val s' "b" = 4 /\ lj = 2.
Proof.
  destruct (stretch_spec [("a"%string, 3); ("b"%string, 4)] [("a"%string, 1); ("b"%string, 4)] 1) as (s' & E & K & G);
    [repeat constructor; cbn [map fst In]; intuition discriminate|repeat constructor; cbn [map fst In]; intuition discriminate|reflexivity|].
  exists s', (INR (length s') * 1).
  assert (Es : stretch_step (exp 1) 1 = 1) by (unfold stretch_step; rewrite ln_exp; ring).
  unfold ensemble_stretch. rewrite Es, E. cbn [bind]. rewrite finish_free.
  - split; [reflexivity|]. split; [|split].
    + rewrite (val_get s' "a" _ (G "a"%string (or_introl eq_refl))). cbn. ring.
    + rewrite (val_get s' "b" _ (G "b"%string (or_intror (or_introl eq_refl)))). cbn. ring.
    + pose proof (f_equal (@length string) K) as L. unfold dkeys in L. rewrite !map_length in L. rewrite L. cbn. lra.
  - unfold wf. rewrite K. repeat constructor; cbn [map fst In]; intuition discriminate.
  - intros k Hk. rewrite K in Hk. destruct Hk as [<-|[<-|[]]]; eexists; split; reflexivity.
Qed.

(** ** C174: the cpnest wrapper *)
Lemma dset_new {V} (d : dict V) k v : ~ In k (dkeys d) -> dset d k v = d ++ [(k, v)].
Proof.
  induction d as [|[a w] d IH]; intros H; [reflexivity|]. cbn [dkeys map fst In] in H. cbn.
  destruct (String.eqb_spec k a) as [->|Ne]; [tauto|]. f_equal. apply IH. tauto.
Qed.
Lemma from_live_loop_spec ns : forall vs acc, NoDup (dkeys acc ++ ns) -> length vs = length ns ->
  from_live_loop ns vs acc = Some (acc ++ combine ns vs).
Proof.
  induction ns as [|n ns IH]; intros [|v vs] acc Nd L; try discriminate L; cbn [from_live_loop combine].
  - rewrite app_nil_r. reflexivity.
  - assert (Nn : ~ In n (dkeys acc)).
    { intros Hi. apply NoDup_remove_2 in Nd. apply Nd. apply in_or_app. left. exact Hi. }
    rewrite dset_new by exact Nn. rewrite IH; [rewrite <- app_assoc; reflexivity| |cbn in L; lia].
    unfold dkeys in *. rewrite map_app, <- app_assoc. exact Nd.
Qed.
Lemma overwrite_spec new : forall old, length old = length new -> overwrite old new = Some new.
Proof.
  induction new as [|x new IH]; intros [|y old] L; try discriminate L; [reflexivity|].
  cbn [overwrite]. rewrite IH by (cbn in L; lia). reflexivity.
Qed.
Lemma combine_split (s : sample) : combine (dkeys s) (dvals s) = s.
Proof. induction s as [|[k x] s IH]; [reflexivity|]. cbn. f_equal. exact IH. Qed.
(** The jump sees the point as a dict name -> value; the point handed back, read the same way, is the sample
    the jump returned, and log_J is the jump's log_j. *)
Theorem C174_wrapper jump l s' lj : NoDup (names l) -> length (values l) = length (names l) ->
  jump (combine (names l) (values l)) = Some (s', lj) -> wf s' -> length s' = length (names l) ->
  exists l', get_sample jump l = Some (l', lj) /\ names l' = dkeys s' /\ values l' = dvals s' /\ from_live l' = Some s'.
Proof.
  intros Nd L J W Ls. unfold get_sample, from_live.
  rewrite from_live_loop_spec; [|exact Nd|exact L]. cbn [app bind]. rewrite J. cbn [bind fst snd]. unfold update_live.
  rewrite overwrite_spec by (unfold dvals; rewrite map_length; congruence). cbn [bind].
  eexists. split; [reflexivity|]. cbn [names values]. split; [reflexivity|]. split; [reflexivity|].
  rewrite from_live_loop_spec; [cbn [app]; rewrite combine_split; reflexivity|exact W|unfold dvals, dkeys; rewrite !map_length; reflexivity].
Qed.
(** With bilby's own moves the names keep their order. *)
Theorem C174_names jump l s' lj l' : NoDup (names l) -> length (values l) = length (names l) ->
  jump (combine (names l) (values l)) = Some (s', lj) -> dkeys s' = names l ->
  get_sample jump l = Some (l', lj) -> names l' = names l /\ length (values l') = length (names l).
Proof.
  intros Nd L J K G. assert (Ls : length s' = length (names l)) by (rewrite <- K; unfold dkeys; rewrite map_length; reflexivity).
  destruct (C174_wrapper jump l s' lj Nd L J) as (l2 & E & N & V & _); [unfold wf; rewrite K; exact Nd|exact Ls|].
  assert (l2 = l') by congruence. subst l2. rewrite N, V. split; [exact K|]. unfold dvals. rewrite map_length. exact Ls.
Qed.
(** A failing jump (a parameter without prior) fails here too. *)
Theorem C174_error jump l : NoDup (names l) -> length (values l) = length (names l) ->
  jump (combine (names l) (values l)) = None -> get_sample jump l = None.
Proof.
  intros Nd L J. unfold get_sample, from_live. rewrite from_live_loop_spec; [|exact Nd|exact L]. cbn [app bind].
  rewrite J. reflexivity.
Qed.
Example C174_ex : get_sample (fun s => Some (map (fun kv => (fst kv, snd kv + 1)) s, 5)) (mkL ["x"%string; "y"%string] [1; 2]) =
  Some (mkL ["x"%string; "y"%string] [1 + 1; 2 + 1], 5).
Proof. reflexivity. Qed.

(** ** Assumptions of every theorem above *)
Definition Jump2_Props_all :=
  (@C172_order,
   @C172_round,
   @C172_assert,
   @C172_instances,
   @C172_weights,
   @C172_length_refuted,
   @C172_redraw,
   @C173_walk,
   @C173_walk_back,
   @C173_walk_equal,
   @C173_stretch,
   @C173_stretch_back,
   @C173_evolution,
   @C173_eigen,
   @C173_eigen_1d,
   @C173_norm,
   @C173_flat,
   @C174_wrapper,
   @C174_names,
   @C174_error).
Print Assumptions Jump2_Props_all.
