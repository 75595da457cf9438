(** C230: the schedule of the parallel-tempered ensemble of bilby-mcmc. *)
From Coq Require Import List Bool Arith Lia Sorted.
From Verif Require Import PtSteps_Model.
Import ListNotations.

Lemma next_mod m L : L <> 0 ->
  (m mod L = L - 1 -> (m + 1) mod L = 0 /\ (m + 1) / L = m / L + 1) /\ (m mod L <> L - 1 -> (m + 1) mod L = m mod L + 1 /\ (m + 1) / L = m / L).
Proof.
  intros HL. pose proof (Nat.div_mod m L HL) as D. pose proof (Nat.mod_upper_bound m L HL) as U. split; intros H.
  - assert (E : m + 1 = L * (m / L + 1) + 0) by nia. split; [symmetry; apply (Nat.mod_unique _ _ (m / L + 1)); [lia|exact E]|symmetry; apply (Nat.div_unique _ _ _ 0); [lia|exact E]].
  - assert (E : m + 1 = L * (m / L) + (m mod L + 1)) by lia. split; [symmetry; apply (Nat.mod_unique _ _ (m / L)); [lia|exact E]|symmetry; apply (Nat.div_unique _ _ _ (m mod L + 1)); [lia|exact E]].
Qed.

Section Schedule.
Variables nensemble ntemps L2 t10 : nat.
Hypothesis HL : L2 <> 0.

(** when the ensemble moves and when the temperatures are due at call [n], counted from 0 *)
Definition ensemble_due (n : nat) : bool := (1 <? nensemble) && ((n + L2 / 2 + 1) mod L2 =? 0).
Definition swap_due (n : nat) : bool := (1 <? ntemps) && (negb (n =? 0) && (n mod L2 =? 0)).
(** the counters before call [n] *)
Definition inv (n : nat) (s : st) : Prop :=
  (1 < ntemps -> l2_temperature s = (match n with 0 => 0 | S m => m mod L2 + 1 end) /\ temperature s = (n - 1) / L2) /\
  (1 < nensemble -> l2_ensemble s = (n + L2 / 2) mod L2 + 1 /\ ensemble s = (n + L2 / 2) / L2) /\ (ntemps <= 1 -> temperature s = 0) /\ (nensemble <= 1 -> ensemble s = 0).
Lemma inv_start a : inv 0 (start L2 a).
Proof.
  unfold inv, start. cbn [l2_temperature temperature l2_ensemble ensemble].
  assert (H : L2 / 2 < L2) by (apply Nat.div_lt; lia). repeat match goal with |- _ /\ _ => split end; intros; try reflexivity.
  - split; [reflexivity|]. rewrite Nat.div_small; [reflexivity|lia].
  - rewrite Nat.add_0_l, (Nat.mod_small _ _ H), (Nat.div_small _ _ H). split; reflexivity.
Qed.
Lemma due_ensemble n s : inv n s -> (1 <? nensemble) && (L2 <=? l2_ensemble s) = ensemble_due n.
Proof.
  intros (_ & I & _). unfold ensemble_due. destruct (Nat.ltb_spec 1 nensemble) as [H|H]; [|reflexivity]. cbn [andb]. destruct (I H) as [-> _].
  destruct (next_mod (n + L2 / 2) L2 HL) as [A B]. pose proof (Nat.mod_upper_bound (n + L2 / 2) L2 HL). destruct (Nat.eq_dec ((n + L2 / 2) mod L2) (L2 - 1)) as [E|E].
  - destruct (A E) as [-> _]. rewrite E. apply Nat.leb_le. lia.
  - destruct (B E) as [-> _]. destruct (Nat.eqb_spec ((n + L2 / 2) mod L2 + 1) 0); [lia|]. apply Nat.leb_gt. lia.
Qed.
Lemma due_swap n s : inv n s -> (1 <? ntemps) && (L2 <=? l2_temperature s) = swap_due n.
Proof.
  intros (I & _). unfold swap_due. destruct (Nat.ltb_spec 1 ntemps) as [H|H]; [|reflexivity]. cbn [andb]. destruct (I H) as [-> _].
  destruct n as [|m]; [cbn [Nat.eqb negb andb]; apply Nat.leb_gt; lia|]. cbn [Nat.eqb negb andb]. destruct (next_mod m L2 HL) as [A B]. rewrite Nat.add_1_r in A, B.
  pose proof (Nat.mod_upper_bound m L2 HL). destruct (Nat.eq_dec (m mod L2) (L2 - 1)) as [E|E].
  - destruct (A E) as [-> _]. rewrite E. apply Nat.leb_le. lia.
  - destruct (B E) as [-> _]. destruct (Nat.eqb_spec (m mod L2 + 1) 0); [lia|]. apply Nat.leb_gt. lia.
Qed.
(** one call *)
Lemma one n s p : inv n s -> let r := step_all_chains nensemble ntemps L2 t10 p s in
  fst r = Steps :: (if ensemble_due n then [Ensembles] else []) ++ (if swap_due n then Swaps :: (if (p <? t10) && adapt s then [Adapt (n / L2)] else []) else []) /\
  inv (n + 1) (snd r) /\ adapt (snd r) = (if swap_due n then (p <? t10) && adapt s else adapt s) /\
  min_adapt (snd r) = (if swap_due n then if (p <? t10) && adapt s then p else min_adapt s else min_adapt s).
Proof.
  intros I. cbv zeta. unfold step_all_chains. rewrite (due_ensemble n s I).
  set (s1 := if ensemble_due n then _ else _).
  assert (E1 : exists e le, s1 = (Steps :: (if ensemble_due n then [Ensembles] else []), St (temperature s) (l2_temperature s) e le (adapt s) (min_adapt s)) /\
     (1 < nensemble -> le + 1 = (n + 1 + L2 / 2) mod L2 + 1 /\ e = (n + 1 + L2 / 2) / L2) /\ (nensemble <= 1 -> e = 0)).
  { destruct I as (_ & I & _ & J). pose proof (next_mod (n + L2 / 2) L2 HL) as [A B]. replace (n + 1 + L2 / 2) with (n + L2 / 2 + 1) by lia.
    unfold s1, ensemble_due in *. destruct (Nat.ltb_spec 1 nensemble) as [H|H]; cbn [andb].
    - destruct (I H) as [IA IB]. destruct (Nat.eq_dec ((n + L2 / 2) mod L2) (L2 - 1)) as [E|E].
      + destruct (A E) as [X Y]. rewrite X. cbn [Nat.eqb]. exists (ensemble s + 1), 0. split; [reflexivity|]. split; [intros _; rewrite ?X, Y, IB; lia|lia].
      + destruct (B E) as [X Y]. rewrite X. destruct (Nat.eqb_spec ((n + L2 / 2) mod L2 + 1) 0); [lia|]. exists (ensemble s), (l2_ensemble s). split; [destruct s; reflexivity|].
        split; [intros _; rewrite ?X, Y; lia|lia].
    - exists (ensemble s), (l2_ensemble s). split; [destruct s; reflexivity|]. split; [lia|intros _; apply J, H]. }
  destruct E1 as (e & le & -> & EE & EN). cbn [l2_temperature temperature ensemble l2_ensemble adapt min_adapt].
  rewrite (due_swap n s I). destruct I as (I & _ & J & _).
  assert (T : 1 < ntemps -> if swap_due n then n / L2 = temperature s + 1 /\ n mod L2 = 0 else l2_temperature s + 1 = n mod L2 + 1 /\ temperature s = n / L2).
  { intros H. destruct (I H) as [IA IB]. unfold swap_due. rewrite (proj2 (Nat.ltb_lt _ _) H). cbn [andb]. destruct n as [|m]; cbn [Nat.eqb negb andb].
    - rewrite IA, IB, Nat.mod_0_l, !Nat.div_small by lia. split; reflexivity.
    - destruct (next_mod m L2 HL) as [A B]. rewrite Nat.add_1_r in A, B. replace (S m - 1) with m in IB by lia. destruct (Nat.eq_dec (m mod L2) (L2 - 1)) as [E|E].
      + destruct (A E) as [X Y]. rewrite X, Y, IB. cbn [Nat.eqb]. split; reflexivity.
      + destruct (B E) as [X Y]. rewrite X. destruct (Nat.eqb_spec (m mod L2 + 1) 0); [lia|]. rewrite Y, IA, IB. split; reflexivity. }
  assert (G : forall t lt a mi, (1 < ntemps -> lt + 1 = n mod L2 + 1 /\ t = n / L2) -> (ntemps <= 1 -> t = 0) -> inv (n + 1) (St t (lt + 1) e (le + 1) a mi)).
  { intros t lt a mi X Y. unfold inv. cbn [l2_temperature temperature l2_ensemble ensemble]. replace (n + 1 - 1) with n by lia. replace (n + 1) with (S n) in * by lia. split; [exact X|]. split; [exact EE|]. split; [exact Y|exact EN]. }
  destruct (swap_due n) eqn:SD.
  - assert (H : 1 < ntemps) by (unfold swap_due in SD; destruct (Nat.ltb_spec 1 ntemps); [assumption|discriminate]). destruct (T H) as [T1 T2].
    destruct (p <? t10), (adapt s) eqn:AD; cbn [fst snd andb temperature l2_temperature ensemble l2_ensemble adapt min_adapt]; rewrite ?AD, <- ?T1; (split; [destruct (ensemble_due n); reflexivity|]); (split; [apply G; [intros _; rewrite T2; lia|lia]|]); split; reflexivity.
  - cbn [fst snd temperature l2_temperature ensemble l2_ensemble adapt min_adapt]. split; [rewrite app_nil_r; reflexivity|]. split; [apply G; [exact T|exact J]|]. split; reflexivity.
Qed.
Notation calls := (calls nensemble ntemps L2 t10).
Lemma calls_length ps : forall s, length (fst (calls ps s)) = length ps.
Proof.
  induction ps as [|p ps IH]; intros s; [reflexivity|]. cbn [PtSteps_Model.calls]. destruct (step_all_chains nensemble ntemps L2 t10 p s) as [ev s1]. specialize (IH s1). destruct (calls ps s1). cbn [fst] in *. cbn. rewrite IH. reflexivity.
Qed.
Lemma general ps : forall n s, inv n s -> StronglySorted le ps -> forall a0, adapt s = a0 \/ (adapt s = false /\ List.Forall (fun p => t10 <= p) ps) ->
  inv (n + length ps) (snd (calls ps s)) /\ forall k, k < length ps ->
  nth k (fst (calls ps s)) [] = Steps :: (if ensemble_due (n + k) then [Ensembles] else []) ++
     (if swap_due (n + k) then Swaps :: (if (nth k ps 0 <? t10) && a0 then [Adapt ((n + k) / L2)] else []) else []).
Proof.
  induction ps as [|p ps IH]; intros n s I SS a0 A.
  - cbn [length]. rewrite Nat.add_0_r. split; [exact I|intros k K; inversion K].
  - cbn [PtSteps_Model.calls]. destruct (one n s p I) as (E & I' & A' & _). destruct (step_all_chains nensemble ntemps L2 t10 p s) as [ev s1]. cbn [fst snd] in *.
    apply StronglySorted_inv in SS. destruct SS as [SS' FP].
    assert (QA : (p <? t10) && adapt s = (p <? t10) && a0).
    { destruct A as [->|[-> F]]; [reflexivity|]. inversion F as [|? ? F1 _]; subst. rewrite (proj2 (Nat.ltb_ge _ _) F1). reflexivity. }
    assert (A1 : adapt s1 = a0 \/ (adapt s1 = false /\ List.Forall (fun q => t10 <= q) ps)).
    { rewrite A'. destruct (swap_due n).
      - rewrite QA. destruct (Nat.ltb_spec p t10) as [L|L]; cbn [andb]; [left; reflexivity|]. right. split; [reflexivity|]. eapply Forall_impl; [|exact FP]. intros q Q. cbn in Q. lia.
      - destruct A as [A|[A F]]; [left; exact A|right]. inversion F; auto. }
    destruct (IH (n + 1) s1 I' SS' a0 A1) as [I2 K2]. destruct (calls ps s1) as [evs s2]. cbn [fst snd] in *. split.
    + cbn [length]. replace (n + S (length ps)) with (n + 1 + length ps) by lia. exact I2.
    + intros [|k] K; cbn [nth]; [rewrite Nat.add_0_r, E, QA; reflexivity|]. cbn [length] in K. rewrite K2 by lia. replace (n + 1 + k) with (n + S k) by lia. reflexivity.
Qed.

(** ** C230 What call [n] does (counted from 0), for chains that only grow: every chain steps; with period L2 the members of the ensembles
    move, first at call ceil(L2/2) - 1, and the temperatures swap, first at call L2; the ladder is adapted after a round of swaps
    exactly while the primary chain is shorter than ten times adapt_t0 *)
Theorem C230_schedule a0 ps n : StronglySorted le ps -> n < length ps ->
  nth n (fst (calls ps (start L2 a0))) [] = Steps :: (if ensemble_due n then [Ensembles] else []) ++
    (if swap_due n then Swaps :: (if (nth n ps 0 <? t10) && a0 then [Adapt (n / L2)] else []) else []).
Proof. intros SS H. exact (proj2 (general ps 0 (start L2 a0) (inv_start a0) SS a0 (or_introl eq_refl)) n H). Qed.
(** ** C230 The counters after N calls *)
Theorem C230_counters a0 ps : StronglySorted le ps -> let s := snd (calls ps (start L2 a0)) in let N := length ps in
  temperature s = (if 1 <? ntemps then (N - 1) / L2 else 0) /\ ensemble s = (if 1 <? nensemble then (N + L2 / 2) / L2 else 0).
Proof.
  intros SS. cbv zeta. destruct (general ps 0 (start L2 a0) (inv_start a0) SS a0 (or_introl eq_refl)) as [(A & B & D & E) _]. cbn [Nat.add] in *.
  destruct (Nat.ltb_spec 1 ntemps) as [H|H], (Nat.ltb_spec 1 nensemble) as [K|K]; split; auto; first [apply A; exact H|apply B; exact K].
Qed.
(** ** C230 With L2 above 2 the two kinds of moves never come at the same call; with 1 or 2 every round of swaps follows ensemble moves *)
Theorem C230_apart n : (2 < L2 -> ensemble_due n && swap_due n = false) /\ (L2 <= 2 -> 1 < nensemble -> swap_due n = true -> ensemble_due n = true).
Proof.
  unfold ensemble_due, swap_due. split.
  - intros H. destruct (1 <? nensemble), (1 <? ntemps); cbn [andb]; rewrite ?andb_false_r; try reflexivity. destruct (Nat.eqb_spec ((n + L2 / 2 + 1) mod L2) 0) as [E|E]; [|reflexivity].
    destruct (Nat.eqb_spec (n mod L2) 0) as [F|F]; [|rewrite andb_false_r; reflexivity]. exfalso.
    replace (n + L2 / 2 + 1) with (n + (L2 / 2 + 1)) in E by lia. rewrite <- Nat.add_mod_idemp_l, F in E by exact HL. cbn [Nat.add] in E.
    assert (L2 / 2 + 1 < L2) by (pose proof (Nat.div_mod L2 2); pose proof (Nat.mod_upper_bound L2 2); lia). rewrite Nat.mod_small in E by assumption. lia.
  - intros H K. rewrite (proj2 (Nat.ltb_lt _ _) K). destruct (1 <? ntemps); [|discriminate]. cbn [andb]. intros E. apply andb_true_iff in E. destruct E as [_ E]. apply Nat.eqb_eq in E. apply Nat.eqb_eq.
    replace (n + L2 / 2 + 1) with (n + (L2 / 2 + 1)) by lia. rewrite <- Nat.add_mod_idemp_l, E by exact HL. assert (Q : L2 = 1 \/ L2 = 2) by lia. destruct Q as [-> | ->]; reflexivity.
Qed.
(** ** C230 Whatever the positions: adaptation, once off, stays off, and discards only samples before ten times adapt_t0 *)
Lemma adapt_only ps : forall n s, inv n s -> adapt s = false -> adapt (snd (calls ps s)) = false /\ forall ev tt, In ev (fst (calls ps s)) -> ~ In (Adapt tt) ev.
Proof.
  induction ps as [|p ps IH]; intros n s I A; [split; [exact A|intros ? ? []]|]. cbn [PtSteps_Model.calls]. destruct (one n s p I) as (E & I' & A' & _). destruct (step_all_chains nensemble ntemps L2 t10 p s) as [ev s1]. cbn [fst snd] in *.
  rewrite A, andb_false_r in *. assert (A1 : adapt s1 = false) by (rewrite A'; destruct (swap_due n); reflexivity). destruct (IH (n + 1) s1 I' A1) as [B C]. destruct (calls ps s1) as [evs s2]. cbn [fst snd] in *.
  split; [exact B|]. intros e tt [<- | J]; [|apply C, J]. rewrite E. destruct (ensemble_due n), (swap_due n); cbn; intuition discriminate.
Qed.
Lemma discard ps : forall n s, inv n s -> min_adapt s < t10 \/ min_adapt s = 0 -> let m := min_adapt (snd (calls ps s)) in m < t10 \/ m = 0.
Proof.
  induction ps as [|p ps IH]; intros n s I A; [exact A|]. cbn [PtSteps_Model.calls]. destruct (one n s p I) as (_ & I' & _ & M). destruct (step_all_chains nensemble ntemps L2 t10 p s) as [ev s1]. cbn [fst snd] in *.
  specialize (IH (n + 1) s1 I'). destruct (calls ps s1) as [evs s2]. cbn [fst snd] in *. apply IH. rewrite M. destruct (swap_due n); [|exact A]. destruct (Nat.ltb_spec p t10); cbn [andb]; [destruct (adapt s); [left; assumption|exact A]|exact A].
Qed.
Theorem C230_adapt a0 ps qs : let s := snd (calls ps (start L2 a0)) in
  (adapt s = false -> adapt (snd (calls qs s)) = false /\ forall ev tt, In ev (fst (calls qs s)) -> ~ In (Adapt tt) ev) /\ (min_adapt s < t10 \/ min_adapt s = 0).
Proof.
  cbv zeta. assert (I : forall l n s, inv n s -> exists m, inv m (snd (calls l s))).
  { induction l as [|p l IH]; intros n s I; [exists n; exact I|]. cbn [PtSteps_Model.calls]. destruct (one n s p I) as (_ & I' & _). destruct (step_all_chains nensemble ntemps L2 t10 p s) as [ev s1]. cbn [snd] in I'. destruct (IH _ _ I') as [m J].
    destruct (calls l s1). exists m. exact J. }
  destruct (I ps 0 _ (inv_start a0)) as [m J]. split; [intros A; apply (adapt_only qs m _ J A)|]. apply (discard ps 0 _ (inv_start a0)). right. reflexivity.
Qed.
End Schedule.

(** ** C230 A primary chain that stops early keeps the adaptation going at every round of swaps *)
Theorem C230_stopped_refuted : exists ps, StronglySorted le ps /\ Forall (fun ev => In Swaps ev -> exists tt, In (Adapt tt) ev) (fst (calls 1 2 2 100 ps (start 2 true))) /\ length ps = 200.
Proof.
  exists (repeat 50 200). split; [|split; [|apply repeat_length]].
  - generalize 200. induction n as [|n IH]; [constructor|]. cbn. constructor; [exact IH|]. apply Forall_forall. intros x H. apply repeat_spec in H. lia.
  - apply Forall_forall. intros ev H. apply In_nth with (d := []) in H. destruct H as (n & Hn & <-). rewrite calls_length, repeat_length in Hn.
    assert (SS : StronglySorted le (repeat 50 200)) by (generalize 200; induction n0 as [|q IH]; [constructor|]; cbn; constructor; [exact IH|]; apply Forall_forall; intros x H; apply repeat_spec in H; lia).
    rewrite (C230_schedule 1 2 2 100 (Nat.neq_succ_0 1) true _ n SS) by (rewrite repeat_length; exact Hn).
    assert (R : nth n (repeat 50 200) 0 = 50).
    { apply (repeat_spec 200 50). apply nth_In. rewrite repeat_length. exact Hn. }
    rewrite R. intros I. exists (n / 2). destruct (swap_due 2 2 n); [|destruct (ensemble_due 1 2 n); cbn in I; intuition discriminate]. apply in_cons, in_or_app. right. right. left. reflexivity.
Qed.

(** ** C230 The number of samples asked for at a position already asked for is the first answer, whatever other chains have done since *)
Lemma look_app c d p : look (c ++ d) p = match look c p with Some v => Some v | None => look d p end.
Proof. induction c as [|[q v] c IH]; [reflexivity|]. cbn. destruct (Nat.eqb q p); [reflexivity|exact IH]. Qed.
Lemma requests_keep rs : forall c p v, look c p = Some v -> look (snd (requests c rs)) p = Some v.
Proof.
  induction rs as [|[q now] rs IH]; intros c p v H; [exact H|]. cbn [requests]. unfold nsamples. destruct (look c q) eqn:E.
  - specialize (IH c p v H). destruct (requests c rs). exact IH.
  - specialize (IH (c ++ [(q, now)]) p v). rewrite look_app, H in IH. specialize (IH eq_refl). destruct (requests (c ++ [(q, now)]) rs). exact IH.
Qed.
Theorem C230_nsamples rs p now now' : let c := snd (requests [] rs) in
  (look c p = None -> fst (nsamples c p now) = now) /\
  (forall qs, fst (nsamples (snd (requests (snd (nsamples c p now)) qs)) p now') = fst (nsamples c p now)) /\
  (look c p = None <-> ~ In p (map fst rs)).
Proof.
  cbv zeta. split; [|split].
  - intros H. unfold nsamples. rewrite H. reflexivity.
  - intros qs. set (c := snd (requests [] rs)). assert (H : look (snd (nsamples c p now)) p = Some (fst (nsamples c p now))).
    { unfold nsamples. destruct (look c p) eqn:E; cbn [fst snd]; [exact E|]. rewrite look_app, E. cbn. rewrite Nat.eqb_refl. reflexivity. }
    unfold nsamples at 1. rewrite (requests_keep qs _ _ _ H). reflexivity.
  - assert (G : forall rs c, look (snd (requests c rs)) p = None <-> look c p = None /\ ~ In p (map fst rs)).
    { clear. induction rs as [|[q w] rs IH]; intros c; [cbn; tauto|]. cbn [requests map fst In]. unfold nsamples. destruct (look c q) eqn:E.
      - specialize (IH c). destruct (requests c rs). cbn [snd] in *. rewrite IH. split; [intros [A B]; split; [exact A|]; intros [-> | I]; [congruence|exact (B I)]|tauto].
      - specialize (IH (c ++ [(q, w)])). destruct (requests (c ++ [(q, w)]) rs). cbn [snd] in *. rewrite IH, look_app. cbn. destruct (Nat.eqb_spec q p) as [->|N].
        + rewrite E. split; [intros [A _]; discriminate|tauto].
        + destruct (look c p); [split; [intros [A _]; discriminate|intros [A _]; discriminate]|tauto]. }
    rewrite G. cbn. tauto.
Qed.
(** ** C230 Rejection samples are counted over every sampler if the ensemble is tempered, otherwise over the first of each temperature only *)
Theorem C230_count nensemble table : Forall (fun row => length row = nensemble) table ->
  rejection_sampling_count true true nensemble table = Some (list_sum (map list_sum table)) /\
  rejection_sampling_count true false nensemble table = Some (list_sum (map (fun row => nth 0 row 0) table)) /\
  (forall b, rejection_sampling_count false b nensemble table = None).
Proof.
  intros F. split; [|split; [|reflexivity]].
  - unfold rejection_sampling_count, tempered_columns. apply f_equal. rewrite map_map.
    assert (Z : forall l : list nat, list_sum (map (fun _ => 0) l) = 0) by (induction l; cbn; auto).
    assert (Cons : forall a l, list_sum (a :: l) = a + list_sum l) by reflexivity.
    assert (Add : forall (f g : nat -> nat) l, list_sum (map (fun j => f j + g j) l) = list_sum (map f l) + list_sum (map g l)).
    { induction l as [|a l IH]; [reflexivity|]. cbn [map]. rewrite !Cons, IH. lia. }
    assert (Row : forall row : list nat, map (fun j => nth j row 0) (seq 0 (length row)) = row).
    { induction row as [|a row IH]; [reflexivity|]. cbn [length seq map nth]. f_equal. rewrite <- seq_shift, map_map. exact IH. }
    induction table as [|row table IH]; [apply Z|]. inversion F as [|? ? E F']; subst. cbn [map]. rewrite Cons, <- IH by exact F'.
    transitivity (list_sum (map (fun j => nth j row 0 + list_sum (column j table)) (seq 0 (length row)))); [apply f_equal, map_ext; intros j; reflexivity|].
    rewrite Add, Row. reflexivity.
  - unfold rejection_sampling_count, tempered_columns. cbn [map]. unfold list_sum at 1. cbn [fold_right]. rewrite Nat.add_0_r. reflexivity.
Qed.

Example C230_example :
  fst (calls 2 3 4 10 [2; 3; 4; 5; 6; 7; 8; 9; 10] (start 4 true)) =
  [[Steps]; [Steps; Ensembles]; [Steps]; [Steps]; [Steps; Swaps; Adapt 1]; [Steps; Ensembles]; [Steps]; [Steps]; [Steps; Swaps]] /\
  adapt (snd (calls 2 3 4 10 [2; 3; 4; 5; 6; 7; 8; 9; 10] (start 4 true))) = false /\
  fst (requests [] [(5, 10); (6, 11); (5, 20)]) = [10; 11; 10] /\ rejection_sampling_count true false 2 [[0; 3]; [4; 5]] = Some 4.
Proof. repeat split. Qed.

(** ** Assumptions of every theorem above *)
Definition PtSteps_Props_all :=
  (@C230_schedule,
   @C230_counters,
   @C230_apart,
   @C230_adapt,
   @C230_stopped_refuted,
   @C230_nsamples,
   @C230_count).
Print Assumptions PtSteps_Props_all.
