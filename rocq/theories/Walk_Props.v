(** Properties C28, C55, C56, C57: likelihood-constrained random walks of the dynesty interface *)
From Coq Require Import Reals List Arith Lia Lra Psatz.
From Verif Require Import PyReal Samples_Model Samples_Proofs Walk_Model.
Import ListNotations.
Open Scope R_scope.

Definition in_cube (u : list R) : Prop := forall x, In x u -> 0 <= x <= 1.
Lemma boundaries_in_cube u p r v : apply_boundaries_ u p r = Some v -> in_cube v.
Proof.
  unfold apply_boundaries_. set (w := wrap_reflect u p r). destruct (Rlt_dec (rmin_list w) 0) as [|A]; [discriminate|]. destruct (Rlt_dec 1 (rmax_list w)) as [|B]; [discriminate|]. intros E. injection E as <-.
  destruct w as [|x w]; [intros y []|]. intros y Hy. split; [apply (proj1 (min_list_spec (x :: w) ltac:(discriminate) 0)); [lra|exact Hy]|apply (proj1 (max_list_spec (x :: w) ltac:(discriminate) 1)); [lra|exact Hy]].
Qed.

Section C28.
Context {V : Type} (tr : list R -> V) (ll : V -> R) (p r : option (list nat)) (star : R).
Let belongs (u : list R) (v : V) (l : R) : Prop := v = tr u /\ l = ll v.
Lemma propose_some f u u' v l : propose tr ll p r f u = Some (u', v, l) -> belongs u' v l /\ in_cube u' /\ apply_boundaries_ (f u) p r = Some u'.
Proof.
  unfold propose. destruct (apply_boundaries_ (f u) p r) as [w|] eqn:E; [|discriminate]. intros H. injection H as <- <- <-. split; [split; reflexivity|]. split; [apply (boundaries_in_cube _ _ _ _ E)|reflexivity].
Qed.
Lemma above_true l : above star l = true <-> star < l.
Proof. unfold above. destruct (Rlt_dec star l); split; congruence || auto. Qed.
Definition Finv (n : nat) (s : fstate) : Prop :=
  (naccept s <= ncall s <= n)%nat /\
  (naccept s = 0%nat \/ exists v l, fcur s = Some (v, l) /\ belongs (fu s) v l /\ in_cube (fu s) /\ star < l).
Lemma Finv_step n s f : Finv n s -> Finv (S n) (fixed_step tr ll p r star s f).
Proof.
  intros [A B]. unfold fixed_step. destruct (propose tr ll p r f (fu s)) as [[[u' v] l]|] eqn:E; [|split; [lia|exact B]].
  apply propose_some in E. destruct E as [E1 [E2 _]]. destruct (above star l) eqn:G.
  - apply above_true in G. split; simpl; [lia|]. right. exists v, l. auto.
  - split; simpl; [lia|exact B].
Qed.
Lemma Finv_fold props : forall n s, Finv n s -> Finv (length props + n) (fold_left (fixed_step tr ll p r star) props s).
Proof. induction props as [|f props IH]; intros n s H; [exact H|]. simpl. replace (S (length props + n)) with (length props + S n)%nat by lia. apply IH, Finv_step, H. Qed.

(** the three parts of the answer belong together, the point is in the unit cube, accepted moves
    make the likelihood exceed the threshold, and the counters add up *)
Theorem C28_fixed_walk : forall props u rnd, in_cube rnd ->
  let a := fixed_rwalk tr ll p r star props u rnd in
  av a = tr (au a) /\ al a = ll (av a) /\ in_cube (au a) /\
  ((0 < aaccept a)%nat -> star < al a) /\ (aaccept a = 0%nat -> au a = rnd) /\
  (aaccept a + areject a = length props)%nat /\ (aaccept a <= acalls a <= length props)%nat.
Proof.
  intros props u rnd Hr. pose proof (Finv_fold props 0 (mkF u None 0 0) (conj (conj (le_n _) (le_n _)) (or_introl eq_refl))) as [A B].
  unfold fixed_rwalk. set (s := fold_left _ props _) in *. rewrite Nat.add_0_r in A. cbv zeta.
  destruct B as [B|[v [l [B1 [[B2 B3] [B4 B5]]]]]].
  - rewrite B. simpl. split; [reflexivity|]. split; [reflexivity|]. split; [exact Hr|]. split; [lia|]. split; [reflexivity|]. lia.
  - destruct (naccept s) as [|k] eqn:K.
    + simpl. split; [reflexivity|]. split; [reflexivity|]. split; [exact Hr|]. split; [lia|]. split; [reflexivity|]. lia.
    + rewrite B1. simpl. split; [exact B2|]. split; [exact B3|]. split; [exact B4|]. split; [intros _; exact B5|]. split; [discriminate|]. lia.
Qed.
(** moves outside the cube cost no likelihood call; a move is accepted exactly when it is inside and
    above the threshold: with m moves of each kind the counters are exact *)
Definition verdict (f : list R -> list R) (u : list R) : option bool :=
  match apply_boundaries_ (f u) p r with None => None | Some u' => Some (if Rlt_dec star (ll (tr u')) then true else false) end.
Fixpoint path (props : list (list R -> list R)) (u : list R) : list (option bool) * list R :=
  match props with
  | [] => ([], u)
  | f :: rest => let k := verdict f u in
      let u' := match k, apply_boundaries_ (f u) p r with Some true, Some w => w | _, _ => u end in
      (k :: fst (path rest u'), snd (path rest u'))
  end.
Theorem C28_moves : forall props u rnd,
  let a := fixed_rwalk tr ll p r star props u rnd in
  aaccept a = length (filter (fun k => match k with Some true => true | _ => false end) (fst (path props u))) /\
  acalls a = length (filter (fun k => match k with Some _ => true | _ => false end) (fst (path props u))) /\
  ((0 < aaccept a)%nat -> au a = snd (path props u)).
Proof.
  intros props u rnd. cbv zeta.
  assert (G : forall props s, let s' := fold_left (fixed_step tr ll p r star) props s in
     naccept s' = (naccept s + length (filter (fun k => match k with Some true => true | _ => false end) (fst (path props (fu s)))))%nat /\
     ncall s' = (ncall s + length (filter (fun k => match k with Some _ => true | _ => false end) (fst (path props (fu s)))))%nat /\
     fu s' = snd (path props (fu s)) /\ ((0 < naccept s -> fcur s <> None)%nat -> (0 < naccept s' -> fcur s' <> None)%nat)).
  { clear. induction props as [|f props IH]; intros s; cbv zeta; [simpl; rewrite !Nat.add_0_r; auto|]. cbn [fold_left path fst snd].
    specialize (IH (fixed_step tr ll p r star s f)). cbv zeta in IH. destruct IH as [I1 [I2 [I3 I4]]].
    assert (E : fixed_step tr ll p r star s f = match apply_boundaries_ (f (fu s)) p r with None => s | Some w =>
        if Rlt_dec star (ll (tr w)) then mkF w (Some (tr w, ll (tr w))) (naccept s + 1) (ncall s + 1) else mkF (fu s) (fcur s) (naccept s) (ncall s + 1) end).
    { unfold fixed_step, propose, above. destruct (apply_boundaries_ (f (fu s)) p r) as [w|]; [|reflexivity]. destruct (Rlt_dec star (ll (tr w))); reflexivity. }
    unfold verdict. revert I1 I2 I3 I4. rewrite E. clear. destruct (apply_boundaries_ (f (fu s)) p r) as [w|]; [|simpl; auto].
    destruct (Rlt_dec star (ll (tr w))); simpl; intros I1 I2 I3 I4; (split; [lia|]; split; [lia|]; split; [exact I3|]).
    - intros _. apply I4. intros _. discriminate.
    - exact I4. }
  specialize (G props (mkF u None 0 0)). cbv zeta in G. simpl fu in G. simpl naccept in G. simpl ncall in G. destruct G as [G1 [G2 [G3 G4]]].
  unfold fixed_rwalk. set (s := fold_left _ props _) in *. specialize (G4 ltac:(simpl; lia)).
  destruct (naccept s) as [|k] eqn:K; simpl; [repeat split; auto; lia|]. destruct (fcur s) as [[v l]|]; [|exfalso; apply G4; [lia|reflexivity]]. simpl. repeat split; auto.
Qed.
End C28.
(** without an accepted move the answer can lie below the threshold *)
Theorem C28_above_threshold_refuted : exists star rnd,
  let a := fixed_rwalk (fun u => u) (fun v => hd 0 v) None None star [fun _ => [2]; fun _ => [/ 4]] [1] rnd in
  in_cube rnd /\ al a < star /\ acalls a = 1%nat /\ areject a = 2%nat.
Proof.
  exists (/ 2), [/ 8]. unfold fixed_rwalk. simpl. unfold fixed_step, propose, apply_boundaries_, wrap_reflect, rmin_list, rmax_list. simpl.
  assert (M2 : Rmin 2 2 = 2) by (apply Rmin_left; lra). assert (X2 : Rmax 2 2 = 2) by (apply Rmax_left; lra). rewrite M2, X2. destruct (Rlt_dec 2 0); [lra|]. destruct (Rlt_dec 1 2); [|lra]. simpl.
  assert (M4 : Rmin (/ 4) (/ 4) = / 4) by (apply Rmin_left; lra). assert (X4 : Rmax (/ 4) (/ 4) = / 4) by (apply Rmax_left; lra). rewrite M4, X4. destruct (Rlt_dec (/ 4) 0); [lra|]. destruct (Rlt_dec 1 (/ 4)); [lra|]. simpl.
  unfold above. destruct (Rlt_dec (/ 2) (/ 4)); [lra|]. simpl. split; [intros x [<-|[]]; lra|]. split; [lra|]. auto.
Qed.
(** a two-step walk on the unit interval: the first move is accepted, the second one rejected *)
Example C28_example :
  let a := fixed_rwalk (fun u => u) (fun v => hd 0 v) None None (/ 2) [fun _ => [3 / 4]; fun _ => [/ 4]] [1] [0] in
  au a = [3 / 4] /\ aaccept a = 1%nat /\ areject a = 1%nat /\ acalls a = 2%nat.
Proof.
  unfold fixed_rwalk. simpl. unfold fixed_step, propose, apply_boundaries_, wrap_reflect, rmin_list, rmax_list. simpl.
  rewrite (Rmin_left (3 / 4) (3 / 4)), (Rmax_left (3 / 4) (3 / 4)) by lra. destruct (Rlt_dec (3 / 4) 0); [lra|]. destruct (Rlt_dec 1 (3 / 4)); [lra|]. simpl. unfold above. simpl. destruct (Rlt_dec (/ 2) (3 / 4)); [|lra]. simpl.
  rewrite (Rmin_left (/ 4) (/ 4)), (Rmax_left (/ 4) (/ 4)) by lra. destruct (Rlt_dec (/ 4) 0); [lra|]. destruct (Rlt_dec 1 (/ 4)); [lra|]. simpl. destruct (Rlt_dec (/ 2) (/ 4)); [lra|]. simpl. auto.
Qed.

(** ** C55 Cached points of the autocorrelation-tracking walk *)
Section C55.
Context {V : Type} (tr : list R -> V) (ll : V -> R) (p r : option (list nat)) (star : R).
Let good (x : @point V) : Prop := snd (fst x) = tr (fst (fst x)) /\ snd x = ll (snd (fst x)).
Let fine (x : @point V) : Prop := good x /\ in_cube (fst (fst x)) /\ star < snd x.
Lemma act_walk_spec props : forall cur, good cur ->
  let '(pts, last, n) := act_walk tr ll p r star props cur in
  length pts = length props /\ (forall x, In x pts -> x = cur \/ fine x) /\ (last = cur \/ fine last) /\
  ((0 < n)%nat -> fine last) /\
  n = length (filter (fun k => match k with Some true => true | _ => false end) (fst (path tr ll p r star props (fst (fst cur))))).
Proof.
  induction props as [|f props IH]; intros cur G; [simpl; repeat split; auto; try lia; intros x []|].
  destruct cur as [[u v] l]. cbn [act_walk path fst snd]. unfold verdict.
  destruct (propose tr ll p r f u) as [[[u' v'] l']|] eqn:E.
  - apply propose_some in E. destruct E as [E1 [E2 E3]]. rewrite E3. destruct E1 as [-> ->]. unfold above. destruct (Rlt_dec star (ll (tr u'))) as [L|L].
    + assert (F : fine (u', tr u', ll (tr u'))) by (split; [split; reflexivity|]; split; assumption).
      specialize (IH (u', tr u', ll (tr u')) (proj1 F)). destruct (act_walk tr ll p r star props (u', tr u', ll (tr u'))) as [[pts last] n]. destruct IH as [I1 [I2 [I3 [I4 I5]]]].
      simpl. split; [lia|]. split; [intros x [<-|Hx]; [right; exact F|]; destruct (I2 x Hx) as [->|Fx]; right; assumption|].
      assert (FL : fine last) by (destruct I3 as [->|]; assumption). split; [right; exact FL|]. split; [intros _; exact FL|]. simpl in I5. lia.
    + specialize (IH (u, v, l) G). destruct (act_walk tr ll p r star props (u, v, l)) as [[pts last] n]. destruct IH as [I1 [I2 [I3 [I4 I5]]]].
      simpl. split; [lia|]. split; [intros x [<-|Hx]; [left; reflexivity|apply I2; exact Hx]|]. split; [exact I3|]. split; [exact I4|]. exact I5.
  - assert (N : apply_boundaries_ (f u) p r = None) by (unfold propose in E; destruct (apply_boundaries_ (f u) p r); [discriminate|reflexivity]). rewrite N.
    specialize (IH (u, v, l) G). destruct (act_walk tr ll p r star props (u, v, l)) as [[pts last] n]. destruct IH as [I1 [I2 [I3 [I4 I5]]]].
    simpl. split; [lia|]. split; [intros x [<-|Hx]; [left; reflexivity|apply I2; exact Hx]|]. split; [exact I3|]. split; [exact I4|]. exact I5.
Qed.
Lemma every_in n : forall l k (x : @point V), In x (every n k l) -> In x l.
Proof. induction l as [|y l IH]; intros k x H; [destruct H|]. destruct k; simpl in H; [destruct H as [->|H]; [left; reflexivity|right; eapply IH; exact H]|right; eapply IH; exact H]. Qed.
Lemma every_nonempty n : forall (l : list (@point V)) k, (k < length l)%nat -> every n k l <> [].
Proof. induction l as [|y l IH]; intros k H; simpl in H; [lia|]. destruct k; simpl; [discriminate|]. apply IH. lia. Qed.

(** a build that returns leaves at least one point; every cached point has matching coordinates,
    parameters and likelihood, and is either the starting point or inside the cube and above the threshold *)
Theorem C55_build : forall props u act thin nt il pts, build_cache tr ll p r star props u act thin nt il = Ok pts ->
  pts <> [] /\ forall x, In x pts -> good x /\ (x = (u, tr u, ll (tr u)) \/ fine x).
Proof.
  intros props u act thin nt il pts H. unfold build_cache in H. pose proof (act_walk_spec props (u, tr u, ll (tr u)) (conj eq_refl eq_refl)) as S.
  destruct (act_walk tr ll p r star props (u, tr u, ll (tr u))) as [[l last] n]. destruct S as [S1 [S2 [S3 [S4 S5]]]].
  assert (W : forall x, x = (u, tr u, ll (tr u)) \/ fine x -> good x /\ (x = (u, tr u, ll (tr u)) \/ fine x)).
  { intros x [->|F]; [split; [split; reflexivity|left; reflexivity]|split; [exact (proj1 F)|right; exact F]]. }
  assert (LAST : [last] <> [] /\ forall x, In x [last] -> good x /\ (x = (u, tr u, ll (tr u)) \/ fine x)) by (split; [discriminate|]; intros x [<-|[]]; apply W, S3).
  destruct n as [|n]; [discriminate|]. destruct (negb il); [injection H as <-; exact LAST|]. destruct (nt || (length l <=? thin * act)%nat)%bool eqn:T; [injection H as <-; exact LAST|]. injection H as <-.
  apply Bool.orb_false_iff in T. destruct T as [_ T]. apply Nat.leb_gt in T. split; [apply every_nonempty; exact T|]. intros x Hx. apply W, S2. eapply every_in. exact Hx.
Qed.
(** the branch for a walk without accepted moves is never reached: such a walk raises *)
Theorem C55_no_accept_raises : forall props u act thin nt il,
  build_cache tr ll p r star props u act thin nt il = Overflow <->
  filter (fun k => match k with Some true => true | _ => false end) (fst (path tr ll p r star props u)) = [].
Proof.
  intros props u act thin nt il. unfold build_cache. pose proof (act_walk_spec props (u, tr u, ll (tr u)) (conj eq_refl eq_refl)) as S.
  destruct (act_walk tr ll p r star props (u, tr u, ll (tr u))) as [[l last] n]. destruct S as [_ [_ [_ [_ S]]]]. simpl fst in S.
  destruct (filter _ _) as [|x xs]; simpl in S; subst n; [split; reflexivity|]. split; [|discriminate]. destruct (negb il), (nt || (length l <=? thin * act)%nat)%bool; discriminate.
Qed.
End C55.

Section Serve.
Context {P : Type} (logl : P -> R).
Lemma drop_below_spec star c : exists d, c = d ++ drop_below logl star c /\ (forall x, In x d -> logl x < star) /\
  match drop_below logl star c with [] => True | x :: _ => star <= logl x end.
Proof.
  induction c as [|x c IH]; [exists []; split; [reflexivity|split; [intros y []|exact I]]|]. simpl. destruct (Rlt_dec (logl x) star) as [L|L].
  - destruct IH as [d [E [H K]]]. exists (x :: d). split; [simpl; f_equal; exact E|]. split; [intros y [<-|Hy]; [exact L|apply H; exact Hy]|exact K].
  - exists []. split; [reflexivity|]. split; [intros y []|lra].
Qed.
(** a call returns the first cached or newly built point that is not below the threshold, and drops
    exactly the points before it *)
Theorem C55_serve : forall builds star cache x cache' builds', serve logl star cache builds = Some (x, cache', builds') ->
  star <= logl x /\ exists d, cache ++ concat builds = d ++ x :: cache' ++ concat builds' /\ forall y, In y d -> logl y < star.
Proof.
  induction builds as [|b bs IH]; intros star cache x cache' builds' H; simpl in H; pose proof (drop_below_spec star cache) as [d [E [D K]]]; destruct (drop_below logl star cache) as [|y ys]; try discriminate.
  - injection H as -> -> <-. split; [exact K|]. exists d. split; [rewrite E, <- app_assoc; reflexivity|exact D].
  - destruct (IH star b x cache' builds' H) as [L [d' [E' D']]]. split; [exact L|]. exists (d ++ d'). rewrite app_nil_r in E. subst d. simpl concat. rewrite E', <- app_assoc. split; [reflexivity|]. intros z Hz. apply in_app_or in Hz. destruct Hz; auto.
  - injection H as -> -> <-. split; [exact K|]. exists d. split; [rewrite E, <- app_assoc; reflexivity|exact D].
Qed.
(** any sequence of calls *)
Fixpoint serves (stars : list R) (cache : list P) (builds : list (list P)) : option (list P) :=
  match stars with
  | [] => Some []
  | s :: rest => match serve logl s cache builds with
                 | None => None
                 | Some (x, c, b) => match serves rest c b with None => None | Some xs => Some (x :: xs) end
                 end
  end.
Inductive subseq : list P -> list P -> Prop :=
| sub_nil l : subseq [] l
| sub_take x a l : subseq a l -> subseq (x :: a) (x :: l)
| sub_skip x a l : subseq a l -> subseq a (x :: l).
Lemma subseq_skips d a l : subseq a l -> subseq a (d ++ l).
Proof. induction d; intros H; [exact H|]. apply sub_skip, IHd, H. Qed.
(** no point is served twice or out of order, and each is at or above the threshold of its call *)
Theorem C55_history : forall stars cache builds xs, serves stars cache builds = Some xs ->
  subseq xs (cache ++ concat builds) /\ Forall2 (fun s x => s <= logl x) stars xs.
Proof.
  induction stars as [|s stars IH]; intros cache builds xs H; simpl in H; [injection H as <-; split; constructor|].
  destruct (serve logl s cache builds) as [[[x c] b]|] eqn:E; [|discriminate]. destruct (serves stars c b) as [ys|] eqn:E2; [|discriminate]. injection H as <-.
  apply C55_serve in E. destruct E as [L [d [Ed _]]]. destruct (IH c b ys E2) as [I1 I2]. split; [rewrite Ed; apply subseq_skips, sub_take, I1|constructor; assumption].
Qed.
End Serve.
(** the starting point itself is cached and served although its likelihood only equals the threshold *)
Theorem C55_strictly_above_refuted : exists pts,
  build_cache (fun u => u) (fun v => hd 0 v) None None (/ 2) [fun _ => [/ 4]; fun _ => [/ 4]; fun _ => [3 / 4]] [/ 2] 1 1 false true = Ok pts /\
  serve (fun x => snd x) (/ 2) pts [] = Some (([/ 2], [/ 2], / 2), [([3 / 4], [3 / 4], 3 / 4)], []).
Proof.
  assert (B : forall x, 0 <= x <= 1 -> apply_boundaries_ [x] None None = Some [x]).
  { intros x Hx. unfold apply_boundaries_, wrap_reflect, rmin_list, rmax_list. simpl. rewrite Rmin_left, Rmax_left by lra. destruct (Rlt_dec x 0); [lra|]. destruct (Rlt_dec 1 x); [lra|reflexivity]. }
  exists [([/ 2], [/ 2], / 2); ([3 / 4], [3 / 4], 3 / 4)]. split.
  - unfold build_cache. cbn [act_walk]. unfold propose. rewrite !B by lra. unfold above. cbn [hd]. destruct (Rlt_dec (/ 2) (/ 4)); [lra|]. destruct (Rlt_dec (/ 2) (3 / 4)); [|lra]. reflexivity.
  - simpl. destruct (Rlt_dec (/ 2) (/ 2)); [lra|]. reflexivity.
Qed.

(** ** C56 Acceptance-tracking walk *)
Section C56.
Context {V : Type} (tr : list R -> V) (ll : V -> R) (p r : option (list nat)) (star : R).
Context (nact maxmcmc : nat) (tau : R) (old : option R) (prop : nat -> list R -> list R).
Let run n u := track tr ll p r star nact maxmcmc tau old prop n (track_init u).
Definition Tinv (s : @tstate V) : Prop :=
  (accept s + reject s + nfail s = iteration s)%nat /\
  (stopped s = false -> accept s + reject s <= maxmcmc)%nat /\ (accept s + reject s <= maxmcmc + 1)%nat /\
  (accept s = 0%nat \/ exists v l, tcur s = Some (v, l) /\ v = tr (tu s) /\ l = ll v /\ in_cube (tu s) /\ star < l) /\
  (iteration s <= nact -> act s = None)%nat.
Lemma Tinv_step s : Tinv s -> going nact s = true -> Tinv (track_step tr ll p r star nact maxmcmc tau old prop s).
Proof.
  intros [A [B [C [D F]]]] G. assert (NS : stopped s = false) by (unfold going in G; destruct (stopped s); [discriminate|reflexivity]). specialize (B NS). unfold track_step.
  destruct (propose tr ll p r (prop (iteration s + 1)) (tu s)) as [[[u' v] l]|] eqn:E.
  - apply propose_some in E. destruct E as [[E1 E2] [E3 _]]. destruct (above star l) eqn:Ab.
    + apply above_true in Ab. split; [simpl; lia|]. split; [simpl; intros H; apply Nat.ltb_ge in H; lia|]. split; [simpl; lia|]. split; [right; exists v, l; simpl; auto|].
      cbn [iteration act]. intros H. destruct (Nat.ltb_spec nact (iteration s + 1)); [lia|]. apply F. lia.
    + split; [simpl; lia|]. split; [simpl; intros H; apply Nat.ltb_ge in H; lia|]. split; [simpl; lia|]. split; [exact D|].
      cbn [iteration act]. intros H. destruct (Nat.ltb_spec nact (iteration s + 1)); [lia|]. apply F. lia.
  - split; [simpl; lia|]. split; [simpl; lia|]. split; [simpl; lia|]. split; [exact D|]. simpl. intros H. apply F. lia.
Qed.
Lemma Tinv_track n : forall s, Tinv s -> Tinv (track tr ll p r star nact maxmcmc tau old prop n s).
Proof. induction n as [|n IH]; intros s H; [exact H|]. simpl. destruct (going nact s) eqn:G; [|exact H]. apply IH, Tinv_step; assumption. Qed.
Lemma Tinv_init u : Tinv (track_init u).
Proof. repeat split; simpl; auto; lia. Qed.
(** whenever the loop has ended (and at every step before): parts of the answer belong together, the
    point is in the cube; it exceeds the threshold unless it is the random point; counters *)
Theorem C56_answer : forall n u rnd, in_cube rnd ->
  let s := run n u in let a := track_answer tr ll s rnd in
  av a = tr (au a) /\ al a = ll (av a) /\ in_cube (au a) /\ (star < al a \/ au a = rnd) /\
  ((0 < aaccept a)%nat -> act s <> None -> star < al a) /\
  (aaccept a + areject a = iteration s)%nat /\ (acalls a <= maxmcmc + 1)%nat.
Proof.
  intros n u rnd Hr. cbv zeta. pose proof (Tinv_track n (track_init u) (Tinv_init u)) as [A [B [C [D F]]]]. fold (run n u) in *. unfold track_answer.
  destruct (act (run n u)) as [x|] eqn:Ea.
  - destruct (accept (run n u)) as [|k] eqn:Ek.
    + simpl. split; [reflexivity|]. split; [reflexivity|]. split; [exact Hr|]. split; [right; reflexivity|]. split; [lia|]. lia.
    + destruct D as [D|[v [l [D1 [D2 [D3 [D4 D5]]]]]]]; [discriminate|]. rewrite D1. simpl. split; [exact D2|]. split; [exact D3|]. split; [exact D4|]. split; [left; exact D5|]. split; [intros _ _; exact D5|]. lia.
  - simpl. split; [reflexivity|]. split; [reflexivity|]. split; [exact Hr|]. split; [right; reflexivity|]. split; [congruence|]. lia.
Qed.
(** if every proposal is inside the cube the loop ends after at most maxmcmc + 1 steps *)
Theorem C56_terminates : forall u, (forall i w, apply_boundaries_ (prop i w) p r <> None) -> going nact (run (maxmcmc + 1) u) = false.
Proof.
  intros u H.
  assert (G : forall n s, Tinv s -> nfail s = 0%nat -> let s' := track tr ll p r star nact maxmcmc tau old prop n s in going nact s' = false \/ iteration s' = (iteration s + n)%nat /\ nfail s' = 0%nat).
  { induction n as [|n IH]; intros s T N; cbv zeta; [right; simpl; lia|]. simpl. destruct (going nact s) eqn:G; [|left; exact G].
    assert (E : nfail (track_step tr ll p r star nact maxmcmc tau old prop s) = 0%nat /\ iteration (track_step tr ll p r star nact maxmcmc tau old prop s) = (iteration s + 1)%nat).
    { unfold track_step, propose. destruct (apply_boundaries_ (prop (iteration s + 1) (tu s)) p r) eqn:E; [|exfalso; exact (H _ _ E)]. simpl. auto. }
    destruct E as [E1 E2]. destruct (IH _ (Tinv_step s T G) E1) as [K|[K1 K2]]; [left; exact K|right]. rewrite K1, E2. split; [lia|exact K2]. }
  destruct (G (maxmcmc + 1)%nat (track_init u) (Tinv_init u) eq_refl) as [K|[K1 K2]]; [exact K|]. simpl in K1.
  pose proof (Tinv_track (maxmcmc + 1) (track_init u) (Tinv_init u)) as [A [B [C _]]]. unfold run in *. unfold going. destruct (stopped _) eqn:St; [reflexivity|]. specialize (B eq_refl). lia.
Qed.
(** if every proposal is outside, the loop never ends *)
Theorem C56_endless : forall u, (forall i w, apply_boundaries_ (prop i w) p r = None) -> forall n, going nact (run n u) = true /\ iteration (run n u) = n.
Proof.
  intros u H n.
  assert (G : forall n s, act s = None -> stopped s = false -> let s' := track tr ll p r star nact maxmcmc tau old prop n s in act s' = None /\ stopped s' = false /\ iteration s' = (iteration s + n)%nat).
  { clear n. induction n as [|n IH]; intros s A B; cbv zeta; [simpl; rewrite Nat.add_0_r; auto|]. simpl. unfold going. rewrite A, B.
    assert (E : track_step tr ll p r star nact maxmcmc tau old prop s = mkTr (tu s) (tcur s) (accept s) (reject s) (nfail s + 1) (act s) (iteration s + 1) false) by (unfold track_step, propose; rewrite H; reflexivity).
    rewrite E. destruct (IH (mkTr (tu s) (tcur s) (accept s) (reject s) (nfail s + 1) (act s) (iteration s + 1) false) A eq_refl) as [I1 [I2 I3]]. split; [exact I1|]. split; [exact I2|]. rewrite I3. simpl. lia. }
  destruct (G n (track_init u) eq_refl eq_refl) as [A [B C]]. unfold run, going. rewrite A, B. split; [reflexivity|exact C].
Qed.
(** with maxmcmc < nact and no proposal outside, accepted points are thrown away: the answer is always random *)
Theorem C56_short_limit : forall u n rnd, (maxmcmc < nact)%nat -> (forall i w, apply_boundaries_ (prop i w) p r <> None) ->
  au (track_answer tr ll (run n u) rnd) = rnd.
Proof.
  intros u n rnd L H. pose proof (Tinv_track n (track_init u) (Tinv_init u)) as [A [B [C [D F]]]].
  assert (N : nfail (run n u) = 0%nat).
  { assert (G : forall n s, nfail s = 0%nat -> nfail (track tr ll p r star nact maxmcmc tau old prop n s) = 0%nat).
    { clear - H. induction n as [|n IH]; intros s K; [exact K|]. simpl. destruct (going nact s); [|exact K]. apply IH. unfold track_step, propose. destruct (apply_boundaries_ (prop (iteration s + 1) (tu s)) p r) eqn:E; [|exfalso; exact (H _ _ E)]. exact K. }
    apply G. reflexivity. }
  unfold run in *. unfold track_answer. rewrite F by lia. reflexivity.
Qed.
End C56.
Example C56_endless_example : forall n, going 40 (track (fun u => u) (fun v => hd 0 v) None None 0 40 5000 100 None (fun _ _ => [2]) n (track_init [/ 2])) = true.
Proof.
  intros n. apply C56_endless. intros _ _. unfold apply_boundaries_, wrap_reflect, rmin_list, rmax_list. simpl. rewrite Rmin_left, Rmax_left by lra. destruct (Rlt_dec 2 0); [lra|]. destruct (Rlt_dec 1 2); [reflexivity|lra].
Qed.

(** ** C57 Adapting the length of the walks *)
Theorem C57_estimate_range : forall maxmcmc safety tau a old,
  safety <= estimate_nmcmc maxmcmc safety tau a old <= Rmax safety maxmcmc.
Proof.
  intros. unfold estimate_nmcmc. split; [apply Rmax_l|]. apply Rmax_lub; [apply Rmax_l|]. eapply Rle_trans; [|apply Rmax_r].
  destruct (if Req_EM_T a 0 then _ else _) as [x|]; [apply Rmin_r|lra].
Qed.
(** repeated estimates at a fixed acceptance ratio approach safety (2/a - 1) geometrically, as long as
    the two caps do not bind *)
Fixpoint estimates (maxmcmc safety tau a : R) (n : nat) (o : R) : R :=
  match n with O => o | S m => estimates maxmcmc safety tau a m (estimate_nmcmc maxmcmc safety tau a (Some o)) end.
Theorem C57_estimate_converges : forall maxmcmc safety tau a o n, 0 < a <= 1 -> 1 <= tau -> 0 <= safety ->
  safety * (2 / a - 1) <= maxmcmc -> safety <= o <= maxmcmc ->
  estimates maxmcmc safety tau a n o - safety * (2 / a - 1) = (1 - 1 / tau) ^ n * (o - safety * (2 / a - 1)).
Proof.
  intros maxmcmc safety tau a o n Ha Ht Hs Hm. revert o. induction n as [|n IH]; intros o Ho; [simpl; lra|].
  set (e := safety * (2 / a - 1)) in *.
  assert (E1 : safety <= e).
  { unfold e. rewrite <- (Rmult_1_r safety) at 1. apply Rmult_le_compat_l; [exact Hs|]. assert (1 <= 1 / a) by (apply Rmult_le_reg_l with a; [lra|]; replace (a * (1 / a)) with 1 by (field; lra); lra). unfold Rdiv in *. lra. }
  assert (T : 0 < 1 / tau <= 1) by (split; [apply Rdiv_lt_0_compat; lra|]; apply Rmult_le_reg_l with tau; [lra|]; replace (tau * (1 / tau)) with 1 by (field; lra); lra).
  assert (V : estimate_nmcmc maxmcmc safety tau a (Some o) = (1 - 1 / tau) * o + e / tau).
  { unfold estimate_nmcmc. destruct (Req_EM_T a 0); [lra|]. fold e. replace (e / tau) with (1 / tau * e) by (field; lra). set (k := 1 / tau) in *.
    rewrite Rmin_left by nra. apply Rmax_right. nra. }
  cbn [estimates pow]. rewrite IH.
  - rewrite V. replace (e / tau) with (1 / tau * e) by (field; lra). ring.
  - rewrite V. replace (e / tau) with (1 / tau * e) by (field; lra). set (k := 1 / tau) in *. nra.
Qed.
(** without accepted moves the estimate grows until the cap *)
Theorem C57_estimate_stuck : forall maxmcmc safety tau o, 0 < tau -> 0 <= safety <= o -> o <= maxmcmc ->
  o <= estimate_nmcmc maxmcmc safety tau 0 (Some o) <= maxmcmc /\ estimate_nmcmc maxmcmc safety tau 0 None = Rmax safety maxmcmc.
Proof.
  intros maxmcmc safety tau o Ht Ho Hm. unfold estimate_nmcmc. destruct (Req_EM_T 0 0) as [_|]; [|lra]. split; [|reflexivity].
  assert (0 < 1 / tau) by (apply Rdiv_lt_0_compat; lra). assert (o <= (1 + 1 / tau) * o) by nra.
  split; [eapply Rle_trans; [|apply Rmax_r]; apply Rmin_glb; assumption|]. apply Rmax_lub; [lra|apply Rmin_r].
Qed.
(** number of steps of the fixed walk: at acceptance probability q the distance to n_target / q shrinks
    by the factor delay / (delay + 1), and the integer used is at most maxmcmc and within one of it *)
Theorem C57_walks : forall nlive n_target maxmcmc q kw walks, (10 <= nlive)%nat -> 0 < kw -> 1 / 2 <= q * kw ->
  let '(w, k) := update_walks nlive n_target maxmcmc (q * kw) kw walks in
  let d := INR (nlive / 10 - 1) in
  w - n_target / q = d / (d + 1) * (walks - n_target / q) /\ 0 <= d / (d + 1) < 1 /\ k <= maxmcmc /\ (w <= maxmcmc -> k < w + 1) /\ (w <= k \/ k = maxmcmc).
Proof.
  intros nlive nt mx q kw walks Hn Hk Hq. unfold update_walks. cbv zeta. rewrite Rmax_right by lra.
  assert (Q : 0 < q) by nra. set (d := INR (nlive / 10 - 1)). assert (D : 0 <= d) by apply pos_INR.
  replace (q * kw / kw) with q by (field; lra). set (w := (walks * d + nt / q) / (d + 1)).
  pose proof (base_Int_part (- w)) as [F1 F2]. fold (rfloor (- w)) in F1, F2.
  split; [unfold w; field; lra|]. split; [split; [apply Rmult_le_pos; [exact D|left; apply Rinv_0_lt_compat; lra]|apply Rmult_lt_reg_r with (d + 1); [lra|]; replace (d / (d + 1) * (d + 1)) with d by (field; lra); lra]|].
  split; [apply Rmin_r|]. split; [intros Hw; pose proof (Rmin_l (- rfloor (- w)) mx); lra|].
  unfold Rmin. destruct (Rle_dec (- rfloor (- w)) mx); [left; lra|right; reflexivity].
Qed.
Example C57_example : estimate_nmcmc 5000 1 10 (/ 2) (Some 13) = 12.
Proof. unfold estimate_nmcmc. destruct (Req_EM_T (/ 2) 0); [lra|]. rewrite Rmin_left by lra. rewrite Rmax_right by lra. lra. Qed.

(** ** Assumptions of every theorem above *)
Definition Walk_Props_all :=
  (@C28_fixed_walk,
   @C28_moves,
   @C28_above_threshold_refuted,
   @C55_build,
   @C55_no_accept_raises,
   @C55_serve,
   @C55_history,
   @C55_strictly_above_refuted,
   @C56_answer,
   @C56_terminates,
   @C56_endless,
   @C56_short_limit,
   @C57_estimate_range,
   @C57_estimate_converges,
   @C57_estimate_stuck,
   @C57_walks).
Print Assumptions Walk_Props_all.
