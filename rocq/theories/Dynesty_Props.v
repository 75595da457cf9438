(** * dynesty: checkpointed runs and their sampling time (C157, C158) *)
From Coq Require Import String.
From Coq Require Import Reals List Bool Arith ZArith Lia.
From Verif Require Import Dynesty_Model.
Import ListNotations.
Open Scope list_scope. Open Scope nat_scope.

(** ** C157: interrupted and checkpointed runs *)
Section Loop.
Context {X Pt : Type}.
Variable iter : X -> option X.
Variable ncall : X -> nat.
Variable dead live : X -> list Pt.
Variable refill : X -> X.
Hypothesis iter_calls : forall x y, iter x = Some y -> ncall x < ncall y.
Notation sample := (@sample X iter ncall).
Notation turn := (@turn X Pt iter ncall dead live).
Notation process_run := (@process_run X Pt iter ncall dead live refill).
Notation history := (@history X Pt iter ncall dead live refill).
Notation status := (@status X Pt).

(** states the external sampler passes through from [x], by iterating and by being reloaded *)
Inductive reach (x : X) : X -> Prop :=
| reach_refl : reach x x
| reach_iter : forall y z, reach x y -> iter y = Some z -> reach x z
| reach_refill : forall y, reach x y -> reach x (refill y).

Lemma sample_reach fuel c0 m x z : reach z x -> reach z (sample fuel c0 m x).
Proof.
  revert x. induction fuel as [|n IH]; intros x H; cbn [Dynesty_Model.sample]; [exact H|].
  destruct (iter x) as [y|] eqn:E; [|exact H]. destruct (match m with Some _ => _ | None => _ end); [exact H|].
  apply IH. eapply reach_iter; eassumption.
Qed.
Lemma sample_calls fuel c0 m x : ncall x <= ncall (sample fuel c0 m x).
Proof using iter_calls.
  revert x. induction fuel as [|n IH]; intros x; cbn [Dynesty_Model.sample]; [lia|].
  destruct (iter x) as [y|] eqn:E; [|lia]. destruct (match m with Some _ => _ | None => _ end); [lia|].
  apply iter_calls in E. specialize (IH y). lia.
Qed.
(** a limited run makes progress unless the stopping rule holds *)
Lemma sample_progress n m x : (exists y, iter x = Some y) -> ncall x < ncall (sample (S n) (ncall x) (Some m) x).
Proof using iter_calls.
  intros [y E]. cbn [Dynesty_Model.sample]. rewrite E, Nat.sub_diag. cbn [Nat.ltb Nat.leb].
  apply iter_calls in E. pose proof (sample_calls n (ncall x) (Some m) y). lia.
Qed.
Lemma sample_stopped fuel c0 m x : iter x = None -> sample fuel c0 m x = x.
Proof. intros E. destruct fuel; cbn [Dynesty_Model.sample]; [reflexivity|]. rewrite E. reflexivity. Qed.
Lemma sample_iterate fuel c0 m x : exists j, sample fuel c0 m x = iterate iter j x.
Proof.
  revert x. induction fuel as [|n IH]; intros x; cbn [Dynesty_Model.sample]; [exists 0; reflexivity|].
  destruct (iter x) as [y|] eqn:E; [|exists 0; reflexivity]. destruct (match m with Some _ => _ | None => _ end); [exists 0; reflexivity|].
  destruct (IH y) as [j Q]. exists (S j). cbn [iterate]. rewrite E. exact Q.
Qed.
Lemma iterate_reach j x z : reach z x -> reach z (iterate iter j x).
Proof.
  revert x. induction j as [|j IH]; intros x H; cbn [iterate]; [exact H|]. destruct (iter x) as [y|] eqn:E; [|exact H].
  apply IH. eapply reach_iter; eassumption.
Qed.
Lemma iterate_calls j x : ncall x <= ncall (iterate iter j x).
Proof using iter_calls.
  revert x. induction j as [|j IH]; intros x; cbn [iterate]; [lia|]. destruct (iter x) as [y|] eqn:E; [|lia].
  apply iter_calls in E. specialize (IH y). lia.
Qed.

(** what holds of a process at any time, [P] being the states it may have come from *)
Definition fine (P : X -> Prop) (st : status) : Prop :=
  match st with
  | Looping old s => old = ncall (core s) /\ P (core s)
  | Finished r s => P (core s) /\ iter (core s) = None /\ r = (dead (core s) ++ live (core s))%list /\ added s = true
  | Failed => False
  end.
Definition fine_disk (P : X -> Prop) (d : option (@sampler X)) : Prop := match d with Some s => P (core s) | None => True end.
Lemma turn_fine (P : X -> Prop) k n p due : (forall f c m x, P x -> P (sample f c m x)) ->
  fine P (p_status p) -> fine_disk P (p_disk p) -> fine P (p_status (turn k n p due)) /\ fine_disk P (p_disk (turn k n p due)).
Proof using iter_calls.
  intros C F D. destruct p as [st d]. cbn [p_status p_disk] in *. destruct st as [old s|r s|]; [|split; assumption|destruct F].
  destruct F as [-> Ps]. unfold Dynesty_Model.turn. cbn [p_status p_disk]. unfold run_nested, finalize. cbn [unadd added core k_maxcall k_add_live].
  set (x1 := sample (S n) (ncall (core s)) (Some n) (core s)).
  destruct (Nat.eqb_spec (ncall x1) (ncall (core s))) as [E|E].
  - assert (St : iter (core s) = None).
    { destruct (iter (core s)) as [y|] eqn:I; [|reflexivity]. exfalso.
      assert (ncall (core s) < ncall x1) by (apply sample_progress; exists y; exact I). lia. }
    assert (x1 = core s) by (apply sample_stopped; exact St). cbn [p_status p_disk fine fine_disk core added results].
    rewrite H. assert (Q : sample (S n) (ncall (core s)) (Some n) (core s) = core s) by (apply sample_stopped; exact St).
    rewrite Q. auto 8.
  - cbn [p_status p_disk fine core]. assert (P x1) by (apply C; exact Ps). split; [auto|]. destruct due; [exact H|exact D].
Qed.
Lemma turns_fine (P : X -> Prop) k n flags p : (forall f c m x, P x -> P (sample f c m x)) ->
  fine P (p_status p) -> fine_disk P (p_disk p) ->
  fine P (p_status (fold_left (turn k n) flags p)) /\ fine_disk P (p_disk (fold_left (turn k n) flags p)).
Proof using iter_calls.
  intros C. revert p. induction flags as [|b t IH]; intros p F D; cbn [fold_left]; [auto|].
  destruct (turn_fine P k n p b C F D). apply IH; assumption.
Qed.
Lemma process_fine (P : X -> Prop) q d : (forall f c m x, P x -> P (sample f c m x)) -> (forall j x, P x -> P (iterate iter j x)) ->
  (forall x, P x -> P (refill x)) -> P (q_init q) -> fine_disk P d ->
  fine P (fst (process_run q d)) /\ fine_disk P (snd (process_run q d)).
Proof using iter_calls.
  intros C J R I D. unfold Dynesty_Model.process_run.
  set (s := start refill (q_resume q) d (q_init q)).
  assert (Ps : P (core s)).
  { unfold s, start. destruct d as [s0|]; [|exact I]. destruct (q_resume q); [|exact I]. cbn. apply R. exact D. }
  destruct (turns_fine P (q_kw q) (q_ncheck q) (q_flags q) (mkP (Looping (ncall (core s)) s) d) C) as [F G]; [split; [reflexivity|exact Ps]|exact D|].
  set (p := fold_left _ _ _) in *. destruct (q_end q) as [| |j]; [split; assumption|split; assumption|].
  destruct (p_status p) as [old s1|r s1|] eqn:E; cbn [fst snd].
  - split; [exact F|]. cbn. apply J. apply F.
  - split; assumption.
  - split; assumption.
Qed.

(** every finished run returns the dead and the live points, each once, of a state in which the
    stopping rule holds and that the external sampler reached from the initial points of one of
    the processes; no process fails by adding the live points twice; the resume file always holds
    such a state *)
Theorem C157_any_interruption qs : 
  (forall st, In st (fst (history qs None)) ->
     match st with
     | Finished r s => exists q x, In q qs /\ reach (q_init q) x /\ iter x = None /\ r = (dead x ++ live x)%list
     | Looping _ s => exists q, In q qs /\ reach (q_init q) (core s)
     | Failed => False
     end) /\
  (forall s, snd (history qs None) = Some s -> exists q, In q qs /\ reach (q_init q) (core s)).
Proof using iter_calls.
  set (P := fun x => exists q, In q qs /\ reach (q_init q) x).
  assert (C : forall f c m x, P x -> P (sample f c m x)) by (intros f c m x (q & I & H); exists q; split; [exact I|apply sample_reach; exact H]).
  assert (J : forall j x, P x -> P (iterate iter j x)) by (intros j x (q & I & H); exists q; split; [exact I|apply iterate_reach; exact H]).
  assert (R : forall x, P x -> P (refill x)) by (intros x (q & I & H); exists q; split; [exact I|apply reach_refill; exact H]).
  assert (G : forall l d, incl l qs -> fine_disk P d -> (forall st, In st (fst (history l d)) -> fine P st) /\ fine_disk P (snd (history l d))).
  { induction l as [|q t IH]; intros d L D; [split; [intros st []|exact D]|]. cbn [Dynesty_Model.history].
    assert (Pq : P (q_init q)) by (exists q; split; [apply L; left; reflexivity|apply reach_refl]).
    destruct (process_fine P q d C J R Pq D) as [F1 D1]. destruct (process_run q d) as [r1 d1]. cbn [fst snd] in *.
    destruct (IH d1) as [F2 D2]; [intros x Hx; apply L; right; exact Hx|exact D1|]. destruct (history t d1) as [rs d2]. cbn [fst snd] in *.
    split; [|exact D2]. intros st [<-|H]; [exact F1|exact (F2 st H)]. }
  destruct (G qs None (incl_refl _) Logic.I) as [F D]. split.
  - intros st H. specialize (F st H). destruct st as [old s|r s|]; cbn in F; [apply F| |exact F].
    destruct F as ((q & Iq & Hq) & St & Er & _). exists q, (core s). auto.
  - intros s E. rewrite E in D. exact D.
Qed.

Lemma iterate_stop j x y : iterate iter j x = y -> iter y = None -> forall k, iterate iter (j + k) x = y.
Proof using Type.
  revert x. induction j as [|j IH]; intros x E St k; cbn [iterate plus].
  - cbn in E. subst y. destruct k; cbn [iterate]; [reflexivity|]. rewrite St. reflexivity.
  - cbn [iterate] in E. destruct (iter x) as [z|] eqn:I; [|exact E]. apply IH; assumption.
Qed.
(** if reloading changes nothing (no queue of parallel proposals), the points returned are those of
    one uninterrupted, uncheckpointed run from those initial points *)
Theorem C157_as_uninterrupted qs r s : (forall x, refill x = x) -> In (Finished r s) (fst (history qs None)) ->
  exists q fuel, In q qs /\ forall more, run_without iter ncall dead live (fuel + more) (mkK None true) (mkS (q_init q) false) = Some r.
Proof using iter_calls.
  intros RI H. destruct (C157_any_interruption qs) as [A _]. specialize (A _ H). cbn in A. destruct A as (q & x & Iq & Rx & St & Er).
  assert (E : exists j, x = iterate iter j (q_init q)).
  { clear -Rx RI. induction Rx as [|y z Hy IH I|y Hy IH].
    - exists 0. reflexivity.
    - destruct IH as [j ->]. exists (S j).
      assert (G : forall j x z, iter (iterate iter j x) = Some z -> iterate iter (S j) x = z).
      { clear. induction j as [|j IH]; intros x z I; cbn [iterate] in *; [rewrite I; reflexivity|].
        destruct (iter x) as [y|] eqn:E; [apply IH; exact I|]. congruence. }
      symmetry. apply G. exact I.
    - destruct IH as [j ->]. exists j. apply RI. }
  destruct E as [j E]. exists q, j. split; [exact Iq|]. intros more. unfold run_without, run_nested. cbn [added core k_maxcall k_add_live].
  assert (G : forall n c z, sample n c None z = iterate iter n z).
  { clear. induction n as [|n IH]; intros c z; cbn [Dynesty_Model.sample iterate]; [reflexivity|].
    destruct (iter z); [apply IH|reflexivity]. }
  rewrite G. rewrite (iterate_stop j (q_init q) x (eq_sym E) St more). unfold results. cbn [core added]. rewrite Er. reflexivity.
Qed.

(** the loop ends: a process that is left alone for more turns than the sampler needs iterations
    has finished *)
Lemma finished_stays k n flags r s d : p_status (fold_left (turn k n) flags (mkP (Finished r s) d)) = Finished r s.
Proof. induction flags as [|b t IH]; [reflexivity|]. cbn [fold_left]. exact IH. Qed.
Theorem C157_terminates k n flags j s d : iter (iterate iter j (core s)) = None -> j < length flags ->
  exists r s', p_status (fold_left (turn k n) flags (mkP (Looping (ncall (core s)) s) d)) = Finished r s'.
Proof using iter_calls.
  revert flags s d. induction j as [j IH] using lt_wf_ind. intros flags s d St L.
  destruct flags as [|b t]; [cbn in L; lia|]. cbn [length fold_left] in *.
  set (p := turn k n (mkP (Looping (ncall (core s)) s) d) b).
  assert (Q : exists x1, x1 = sample (S n) (ncall (core s)) (Some n) (core s)) by (eexists; reflexivity). destruct Q as [x1 Q].
  destruct (iter (core s)) as [y|] eqn:I.
  - assert (P : ncall (core s) < ncall x1) by (rewrite Q; apply sample_progress; exists y; exact I).
    assert (Ep : exists d', p = mkP (Looping (ncall x1) (mkS x1 true)) d').
    { unfold p, Dynesty_Model.turn. cbn [p_status p_disk]. unfold run_nested, finalize. cbn [unadd added core k_maxcall k_add_live]. rewrite <- Q.
      destruct (Nat.eqb_spec (ncall x1) (ncall (core s))); [lia|]. eexists. reflexivity. }
    destruct Ep as [d' ->]. destruct (sample_iterate (S n) (ncall (core s)) (Some n) (core s)) as [i Qi]. rewrite <- Q in Qi.
    assert (Hi : i <> 0) by (intros ->; cbn [iterate] in Qi; rewrite Qi in P; lia).
    destruct (le_lt_dec j i) as [Lij|Lij].
    + (* already stopped *)
      assert (S1 : iter x1 = None). { rewrite Qi. replace i with (j + (i - j)) by lia. rewrite (iterate_stop j (core s) _ eq_refl St). exact St. }
      destruct j as [|j']; [cbn in St; congruence|].
      apply (IH 0 ltac:(lia) t (mkS x1 true) d'); [exact S1|lia].
    + apply (IH (j - i) ltac:(lia) t (mkS x1 true) d'); [|lia]. cbn [core]. rewrite Qi.
      assert (G : forall a b x, iterate iter b (iterate iter a x) = iterate iter (a + b) x).
      { clear. induction a as [|a IHa]; intros b x; cbn [iterate plus]; [reflexivity|].
        destruct (iter x) as [y|] eqn:E; [apply IHa|]. destruct b; cbn [iterate]; [reflexivity|]. rewrite E. reflexivity. }
      rewrite G. replace (i + (j - i)) with j by lia. exact St.
  - assert (Q1 : x1 = core s) by (rewrite Q; apply sample_stopped; exact I).
    assert (Ep : exists r s' d', p = mkP (Finished r s') d').
    { unfold p, Dynesty_Model.turn. cbn [p_status p_disk]. unfold run_nested, finalize. cbn [unadd added core k_maxcall k_add_live]. rewrite <- Q, Q1, Nat.eqb_refl.
      eexists _, _, _. reflexivity. }
    destruct Ep as (r & s' & d' & ->). exists r, s'. apply finished_stays.
Qed.

(** the resume file never goes back: the likelihood calls it accounts for do not decrease while
    every process resumes *)
Theorem C157_no_regress qs d : (forall x, ncall (refill x) = ncall x) -> (forall q, In q qs -> q_resume q = true) ->
  exists s', snd (history qs (Some d)) = Some s' /\ ncall (core d) <= ncall (core s').
Proof using iter_calls.
  intros RC A. set (P := fun x => ncall (core d) <= ncall x).
  assert (C : forall f c m x, P x -> P (sample f c m x)) by (unfold P; intros f c m x H; pose proof (sample_calls f c m x); lia).
  assert (J : forall j x, P x -> P (iterate iter j x)) by (unfold P; intros j x H; pose proof (iterate_calls j x); lia).
  assert (G : forall l d0, incl l qs -> (exists s, d0 = Some s /\ P (core s)) -> exists s, snd (history l d0) = Some s /\ P (core s)).
  { induction l as [|q t IH]; intros d0 L D; [exact D|]. cbn [Dynesty_Model.history].
    assert (D1 : exists s, snd (process_run q d0) = Some s /\ P (core s)).
    { destruct D as (s0 & -> & P0). unfold Dynesty_Model.process_run, start. rewrite (A q (L q (or_introl eq_refl))).
      set (s := mkS (refill (core (unadd s0))) false).
      assert (Ps : P (core s)) by (unfold P, s in *; cbn; rewrite RC; exact P0).
      assert (Dk : forall fl p, fine P (p_status p) -> (exists z, p_disk p = Some z /\ P (core z)) ->
        exists z, p_disk (fold_left (turn (q_kw q) (q_ncheck q)) fl p) = Some z /\ P (core z)).
      { induction fl as [|b u IHf]; intros p F E; cbn [fold_left]; [exact E|].
        assert (E2 : exists z, p_disk (turn (q_kw q) (q_ncheck q) p b) = Some z /\ P (core z)).
        { destruct E as (z & Ez & Pz). assert (T := turn_fine P (q_kw q) (q_ncheck q) p b C F). rewrite Ez in T. cbn [fine_disk] in T. destruct (T Pz) as [_ T2].
          destruct (p_disk (turn (q_kw q) (q_ncheck q) p b)) as [z'|] eqn:Eq; [exists z'; auto|]. exfalso.
          revert Eq. unfold Dynesty_Model.turn. destruct (p_status p) as [old s1|r s1|]; [|congruence|congruence].
          unfold run_nested, finalize. cbn [unadd added]. destruct (Nat.eqb _ _); [discriminate|]. destruct b; [discriminate|]. cbn [p_disk]. congruence. }
        apply IHf; [|exact E2]. apply turn_fine; [exact C|exact F|]. destruct E as (z & -> & Pz). exact Pz. }
      assert (F : fine P (p_status (fold_left (turn (q_kw q) (q_ncheck q)) (q_flags q) (mkP (Looping (ncall (core s)) s) (Some s0))))).
      { apply turns_fine; [exact C|split; [reflexivity|exact Ps]|exact P0]. }
      specialize (Dk (q_flags q) (mkP (Looping (ncall (core s)) s) (Some s0))). cbn [p_status p_disk] in Dk.
      specialize (Dk (conj eq_refl Ps) (ex_intro _ s0 (conj eq_refl P0))). set (p := fold_left _ _ _) in *.
      destruct (q_end q) as [| |j]; [exact Dk|exact Dk|]. destruct (p_status p) as [old s1|r s1|]; [|exact Dk|exact Dk].
      eexists. split; [reflexivity|]. cbn [core]. apply J. apply F. }
    destruct (process_run q d0) as [r1 d1]. cbn [snd] in D1. specialize (IH d1 (fun x Hx => L x (or_intror Hx)) D1).
    destruct (history t d1) as [rs d2]. exact IH. }
  destruct (G qs (Some d) (incl_refl _)) as (s & E & Ps); [exists d; split; [reflexivity|unfold P; lia]|]. exists s. split; [exact E|exact Ps].
Qed.

(** the user's maxcall and add_live have no effect on a checkpointed run *)
Theorem C157_maxcall_ignored q k d : process_run (mkProc (q_resume q) (q_init q) (q_ncheck q) k (q_flags q) (q_end q)) d = process_run q d.
Proof. reflexivity. Qed.
End Loop.

(** a sampler whose state is the number of iterations, two calls each, ten iterations, three live points *)
Definition it0 (x : nat) : option nat := if Nat.ltb x 10 then Some (S x) else None.
Definition dead0 (x : nat) : list nat := seq 0 x.
Definition live0 (x : nat) : list nat := [x; x + 1; x + 2].
Definition hist0 := history it0 (fun x => 2 * x) dead0 live0 (fun x => x).
(** killed after two turns of which one wrote a checkpoint; stopped by a signal; finished *)
Definition qs0 := [mkProc true 0 3 (mkK (Some 5) false) [true; false] Kill; mkProc true 0 4 (mkK None true) [false] (Signal 1);
  mkProc true 0 3 (mkK (Some 5) false) (repeat false 12) Complete].
Example C157_ex : hist0 qs0 None = ([Looping 8 (mkS 4 true); Looping 10 (mkS 5 true); Finished (seq 0 13) (mkS 10 true)], Some (mkS 10 true)) /\
  run_without it0 (fun x => 2 * x) dead0 live0 100 (mkK None true) (mkS 0 false) = Some (seq 0 13).
Proof. vm_compute. auto. Qed.
(** the same arguments stop an uncheckpointed run early, without the live points *)
Theorem C157_maxcall_refuted : exists k, run_without it0 (fun x => 2 * x) dead0 live0 100 k (mkS 0 false) = Some (seq 0 3) /\
  fst (hist0 [mkProc true 0 3 k (repeat false 12) Complete] None) = [Finished (seq 0 13) (mkS 10 true)].
Proof. exists (mkK (Some 5) false). vm_compute. auto. Qed.

(** ** C158: sampling time *)
Open Scope Z_scope.
(** the time up to the last checkpoint of the earlier processes, plus the time of this one *)
Fixpoint expected (base : Z) (ps : list tproc) : list Z :=
  match ps with
  | [] => []
  | p :: r => let last_write := last (tp_writes p) (tp_begin p) in
              base + (match tp_end p with Some e => e | None => last_write end - tp_begin p) :: expected (base + (last_write - tp_begin p)) r
  end.
Lemma writes_spec ws total b d : exists d', writes ws (mkT total (Some b)) d = (mkT (total + (last ws b - b)) (Some (last ws b)), d') /\
  (ws = [] -> d' = d) /\ (ws <> [] -> d' = Some (Some (total + (last ws b - b), last ws b))).
Proof.
  revert total b d. induction ws as [|w r IH]; intros total b d.
  - exists d. cbn. split; [|split; [reflexivity|congruence]]. do 2 f_equal. lia.
  - change (writes (w :: r) (mkT total (Some b)) d) with (writes r (mkT (total + (w - b)) (Some w)) (Some (Some (total + (w - b), w)))).
    destruct (IH (total + (w - b)) w (Some (Some (total + (w - b), w)))) as (d' & E & A & B). exists d'. rewrite E.
    assert (L : last (w :: r) b = last r w). { cbn [last]. destruct r as [|z r']; [reflexivity|]. clear. revert z. induction r' as [|y t IHr]; intros z; [reflexivity|]. cbn [last] in *. apply IHr. }
    rewrite L. split; [f_equal; f_equal; lia|]. split; [discriminate|]. intros _.
    destruct r as [|z r']; [rewrite (A eq_refl); cbn; do 3 f_equal; lia|]. rewrite B by discriminate. do 3 f_equal. lia.
Qed.
Definition base_of (d : option stamp) : option Z := match d with None => Some 0 | Some None => None | Some (Some (t, _)) => Some t end.
(** every process reports the sampling time spent until the last checkpoint of each process before
    it, plus its own; the time between processes is not counted *)
Theorem C158_total ps d base : base_of d = Some base -> (forall p, In p ps -> tp_early p = None) ->
  exists d', time_history ps d = Some (expected base ps, d').
Proof.
  revert d base. induction ps as [|p r IH]; intros d base B A; [exists d; reflexivity|]. cbn [time_history expected].
  unfold time_process. assert (R : exists t, match d with None => Some (mkT 0 None) | Some d0 => read_time d0 end = Some t /\ t_total t = base).
  { destruct d as [[[t s]|]|]; cbn in *; try discriminate; apply (f_equal (fun o => match o with Some z => z | None => 0 end)) in B; subst base; eexists; split; reflexivity. }
  destruct R as (t & -> & Tt). rewrite (A p (or_introl eq_refl)). rewrite Tt.
  destruct (writes_spec (tp_writes p) base (tp_begin p) d) as (d' & -> & D0 & D1).
  set (l := last (tp_writes p) (tp_begin p)) in *.
  assert (B' : base_of d' = Some (base + (l - tp_begin p))).
  { destruct (tp_writes p) as [|w ws] eqn:W; [rewrite D0 by reflexivity; unfold l; cbn [last]; rewrite B; f_equal; lia|].
    rewrite D1 by discriminate. reflexivity. }
  destruct (IH d' _ B' (fun q Hq => A q (or_intror Hq))) as [d'' E]. exists d''. rewrite E.
  destruct (tp_end p) as [e|]; cbn [t_total update_time t_start]; do 3 f_equal; lia.
Qed.
(** well-ordered processes: the times are never negative and never more than the time the processes ran *)
Fixpoint ordered (lo : Z) (l : list Z) : Prop := match l with [] => True | x :: t => lo <= x /\ ordered x t end.
Lemma last_ordered ws b : ordered b ws -> b <= last ws b.
Proof.
  revert b. induction ws as [|w r IH]; intros b H; [cbn; lia|]. destruct H as [H1 H2]. apply IH in H2.
  assert (L : last (w :: r) b = last r w). { cbn [last]. destruct r as [|z r']; [reflexivity|]. clear. revert z. induction r' as [|y t IHr]; intros z; [reflexivity|]. cbn [last] in *. apply IHr. }
  lia.
Qed.
Definition duration (p : tproc) : Z := match tp_end p with Some e => e | None => last (tp_writes p) (tp_begin p) end - tp_begin p.
Definition proper (p : tproc) : Prop := ordered (tp_begin p) (tp_writes p) /\
  match tp_end p with Some e => last (tp_writes p) (tp_begin p) <= e | None => True end.
Theorem C158_bounds ps base x : (forall p, In p ps -> proper p) -> In x (expected base ps) ->
  base <= x <= base + fold_right Z.add 0 (map duration ps).
Proof.
  revert base. induction ps as [|p r IH]; intros base A H; [destruct H|]. cbn [expected map fold_right] in *.
  assert (Pp := A p (or_introl eq_refl)). destruct Pp as [O E]. apply last_ordered in O.
  assert (N : 0 <= fold_right Z.add 0 (map duration r)).
  { assert (A' : forall q, In q r -> proper q) by (intros q Hq; apply A; right; exact Hq). clear -A'.
    induction r as [|q t IHr]; cbn; [lia|]. assert (0 <= duration q).
    { destruct (A' q (or_introl eq_refl)) as [O E]. apply last_ordered in O. unfold duration. destruct (tp_end q); lia. }
    specialize (IHr (fun z Hz => A' z (or_intror Hz))). lia. }
  assert (Dp : duration p = match tp_end p with Some e => e | None => last (tp_writes p) (tp_begin p) end - tp_begin p) by reflexivity.
  destruct H as [<-|H].
  - rewrite <- Dp. unfold duration in *. destruct (tp_end p); lia.
  - apply IH in H; [|intros q Hq; apply A; right; exact Hq]. unfold duration in *. destruct (tp_end p); lia.
Qed.
(** a resumed process stopped by a signal before its clock is set counts the time since the
    checkpoint was written *)
Theorem C158_early_resumed p now total s : tp_early p = Some now ->
  time_process p (Some (Some (total, s))) = Some (total + (now - s), Some (Some (total + (now - s), now))).
Proof. intros E. unfold time_process. cbn [read_time]. rewrite E. reflexivity. Qed.
(** a new process stopped there leaves a file that no later process can read *)
Theorem C158_early_new p now q r : tp_early p = Some now -> time_history (p :: q :: r) None = None.
Proof. intros E. cbn [time_history]. unfold time_process at 1. rewrite E. reflexivity. Qed.
(** started at 0, checkpoints at 10 and 30, killed; resumed at 100, checkpoint at 105, killed; resumed at 200, done at 250 *)
Example C158_ex : time_history [mkTP None 0 [10; 30] None; mkTP None 100 [105] None; mkTP None 200 [240] (Some 250)] None
  = Some ([30; 35; 85], Some (Some (75, 240))).
Proof. reflexivity. Qed.

(** ** Assumptions of every theorem above *)
Definition Dynesty_Props_all :=
  (@C157_any_interruption,
   @C157_as_uninterrupted,
   @C157_terminates,
   @C157_no_regress,
   @C157_maxcall_ignored,
   @C157_maxcall_refuted,
   @C158_total,
   @C158_bounds,
   @C158_early_resumed,
   @C158_early_new).
Print Assumptions Dynesty_Props_all.
