(** Property theorems about the waveform generator (WfGen_Model). *)
From Coq Require Import String List Bool Arith Lia.
From Verif Require Import PyDict Series_Model WfGen_Model.
Import ListNotations.
Open Scope list_scope.

Section P.
Context {D F A V Y : Type}.
Variable mkf : D -> D -> option F.
Variable mkt : D -> D -> D -> option A.
Variable off : F -> option (D * D).
Variable oft : A -> option (D * D).
Variable t0of : A -> D.
Variable veqb : V -> V -> bool.
Variable source : nat -> @points F A -> dict V -> option (@wave Y).
Variable conv : dict V -> option (dict V).
Variable nfft : Y -> D -> Y * Y.
Variable infft : Y -> D -> Y.
Hypothesis veqb_eq : forall v w, veqb v w = true <-> v = w.
(** keyword arguments: their order does not matter *)
Hypothesis source_ext : forall m x d d', (forall k, dget d k = dget d' k) -> source m x d = source m x d'.
(** the conversion returns a dictionary, which has no key twice *)
Hypothesis conv_wf : forall d n, conv d = Some n -> wf n.
Notation wg := (@wg D F A V Y).
Notation cts := (@cts D F A).
Notation strain := (strain mkf mkt veqb source conv nfft infft).
Notation set_parameters := (set_parameters conv).
Notation compute := (compute source nfft infft).
Notation cached := (cached veqb source nfft infft).
Notation arrays := (arrays mkf mkt).
Notation step := (step mkf mkt off oft t0of veqb source conv nfft infft).
Notation run := (run mkf mkt off oft t0of veqb source conv nfft infft).

Lemma update_get (d p : dict V) k : wf p -> dget (update d p) k = match dget p k with Some v => Some v | None => dget d k end.
Proof.
  unfold update. revert d. induction p as [|[a v] p IH]; intros d W; [reflexivity|]. inversion W as [|? ? NI W']; subst. cbn [fold_left fst snd dget].
  rewrite IH by exact W'. destruct (String.eqb_spec k a) as [->|N].
  - rewrite (proj2 (dget_none p a)) by exact NI. rewrite dget_set_eq. reflexivity.
  - rewrite dget_set_ne by exact N. reflexivity.
Qed.
Lemma update_wf (d p : dict V) : wf d -> wf (update d p).
Proof. unfold update. revert d. induction p as [|[a v] p IH]; intros d W; [exact W|]. cbn [fold_left fst snd]. apply IH. apply wf_set. exact W. Qed.
Lemma filter_keys_in (f : string * V -> bool) d k : In k (dkeys (filter f d)) -> In k (dkeys d).
Proof. unfold dkeys. rewrite !in_map_iff. intros (x & E & H). apply filter_In in H. exists x. tauto. Qed.
Lemma filter_wf (f : string * V -> bool) d : wf d -> wf (filter f d).
Proof.
  unfold wf. induction d as [|[a v] d IH]; intros W; [constructor|]. inversion W as [|? ? NI W']; subst. cbn [filter]. destruct (f (a, v)); [|auto].
  cbn [dkeys map fst]. constructor; [|apply IH; exact W']. intros H. apply NI. apply filter_keys_in in H. exact H.
Qed.
Lemma filter_get (f : string -> bool) (d : dict V) k : dget (filter (fun kv => f (fst kv)) d) k = if f k then dget d k else None.
Proof.
  induction d as [|[a v] d IH]; [destruct (f k); reflexivity|]. cbn [filter fst]. destruct (f a) eqn:E; cbn [dget]; destruct (String.eqb_spec k a) as [->|N]; try rewrite E; try exact IH; try reflexivity.
  rewrite IH. rewrite E. reflexivity.
Qed.
Lemma mem_existsb k (l : list string) : existsb (String.eqb k) l = true <-> In k l.
Proof. rewrite existsb_exists. split; [intros (x & H & E); apply String.eqb_eq in E; subst; exact H|intros H; exists k; split; [exact H|apply String.eqb_refl]]. Qed.

(** python equality of dictionaries is equality of all look-ups *)
Lemma deq_get (a b : dict V) : wf a -> wf b -> deq veqb a b = true -> forall k, dget a k = dget b k.
Proof using veqb_eq.
  intros Wa Wb H k. unfold deq in H. apply andb_true_iff in H. destruct H as [L H]. apply Nat.eqb_eq in L. rewrite forallb_forall in H.
  assert (S1 : forall k v, dget a k = Some v -> dget b k = Some v).
  { intros k' v E. apply dget_some_in in E. specialize (H _ E). cbn in H. destruct (dget b k') as [w|]; [|discriminate]. apply veqb_eq in H. subst. reflexivity. }
  destruct (dget a k) as [v|] eqn:E; [symmetry; apply S1; exact E|]. destruct (dget b k) as [v|] eqn:E'; [|reflexivity]. exfalso.
  assert (I : incl (dkeys b) (dkeys a)).
  { apply NoDup_length_incl; [exact Wa|unfold dkeys; rewrite !map_length; lia|]. intros x Hx. apply dmem_in. apply dmem_in in Hx. unfold dmem in *. destruct (dget a x) as [v'|] eqn:Ex; [|discriminate]. rewrite (S1 _ _ Ex). reflexivity. }
  assert (In k (dkeys a)) by (apply I, dmem_in; unfold dmem; rewrite E'; reflexivity). apply dget_none in E. contradiction.
Qed.
Lemma deq_refl (a : dict V) : wf a -> deq veqb a a = true.
Proof using veqb_eq.
  intros W. unfold deq. rewrite Nat.eqb_refl. cbn. apply forallb_forall. intros [k v] H. cbn. apply (dget_in a k v W) in H. rewrite H. apply veqb_eq. reflexivity.
Qed.
Lemma oeq_eq a b : oeq a b = true <-> a = b.
Proof. destruct a as [x|], b as [y|]; cbn; try (split; [discriminate|congruence]); [|tauto]. rewrite Nat.eqb_eq. split; congruence. Qed.
Lemma compute_ext fd fs pf pt m t p q : (forall k, dget p k = dget q k) -> compute fd fs pf pt m t p = compute fd fs pf pt m t q.
Proof using source_ext. intros H. unfold WfGen_Model.compute. destruct m as [m|]; [rewrite (source_ext m _ p q H); reflexivity|]. destruct t as [t|]; [rewrite (source_ext t _ p q H)|]; reflexivity. Qed.

(** the arrays do not change by being read *)
Definition view (s : cts) := (fst (get_f mkf s), fst (get_t mkt s), c_fs s).
Lemma view_get_f s : view (snd (get_f mkf s)) = view s.
Proof.
  destruct s as [fs T t0 f fok t tok]. unfold view, get_f, get_t. cbn.
  destruct fok, tok, fs as [fs|], T as [T|]; cbn; try reflexivity; try (destruct (mkf fs T) eqn:E1); cbn; try rewrite E1; cbn; try reflexivity; destruct (mkt fs T t0) eqn:E2; cbn; try rewrite E1; try rewrite E2; reflexivity.
Qed.
Lemma view_get_t s : view (snd (get_t mkt s)) = view s.
Proof.
  destruct s as [fs T t0 f fok t tok]. unfold view, get_f, get_t. cbn.
  destruct fok, tok, fs as [fs|], T as [T|]; cbn; try reflexivity; try (destruct (mkf fs T) eqn:E1); cbn; try rewrite E1; cbn; try reflexivity; destruct (mkt fs T t0) eqn:E2; cbn; try rewrite E1; try rewrite E2; reflexivity.
Qed.
Definition both (s : cts) : option (F * A) := match fst (get_f mkf s), fst (get_t mkt s) with Some f, Some t => Some (f, t) | _, _ => None end.
Lemma arrays_spec fd s : fst (arrays fd s) = both s /\ view (snd (arrays fd s)) = view s.
Proof.
  unfold WfGen_Model.arrays, both. destruct fd.
  - pose proof (view_get_f s) as V1. destruct (get_f mkf s) as [f s1] eqn:E. cbn [fst snd] in *. destruct f as [f|]; [|cbn; split; [reflexivity|exact V1]].
    pose proof (view_get_t s1) as V2. destruct (get_t mkt s1) as [t s2] eqn:E2. cbn [fst snd] in *. split; [|congruence].
    unfold view in V1. rewrite E2, E in V1. cbn [fst] in V1. injection V1 as _ V1 _. rewrite <- V1. reflexivity.
  - pose proof (view_get_t s) as V1. destruct (get_t mkt s) as [t s1] eqn:E. cbn [fst snd] in *. destruct t as [t|]; [|cbn; split; [destruct (fst (get_f mkf s)); reflexivity|exact V1]].
    pose proof (view_get_f s1) as V2. destruct (get_f mkf s1) as [f s2] eqn:E2. cbn [fst snd] in *. split; [|congruence].
    unfold view in V1. rewrite E2, E in V1. cbn [fst] in V1. injection V1 as V1 _ _. rewrite <- V1. reflexivity.
Qed.
Lemma both_view s s' : view s = view s' -> both s = both s' /\ c_fs s = c_fs s'.
Proof. unfold view, both. intros H. injection H as A1 A2 A3. rewrite A1, A2. auto. Qed.

(** the cache holds what its parameters give on the present arrays *)
Definition good (w : wg) : Prop :=
  (forall p, pars w = Some p -> wf p) /\
  (forall q m t x, cache w = Some (q, m, t, x) -> wf q /\ exists fd pf pt, both (tf w) = Some (pf, pt) /\ m = model_of fd w /\ t = trans_of fd w /\ compute fd (c_fs (tf w)) pf pt m t q = inl x).
Lemma set_parameters_spec (w : wg) d (w' : wg) : set_parameters w d = inl w' -> exists n, conv d = Some n /\ forallb (dmem n) (keys w) = true /\
  w' = set_pars w (update (filter (fun kv => existsb (String.eqb (fst kv)) (keys w)) n) (args w)).
Proof. unfold WfGen_Model.set_parameters. destruct (conv d) as [n|]; [|discriminate]. destruct (forallb (dmem n) (keys w)) eqn:E; [|discriminate]. intros H. injection H as <-. exists n. auto. Qed.
Lemma good_pars (w : wg) p : wf p -> good w -> good (set_pars w p).
Proof. intros W [_ G2]. split; [intros q E; injection E as <-; exact W|exact G2]. Qed.
Lemma good_set (w : wg) d (w' : wg) : good w -> set_parameters w d = inl w' -> good w'.
Proof using conv_wf. intros G H. apply set_parameters_spec in H. destruct H as (n & E & _ & ->). apply good_pars; [|exact G]. apply update_wf, filter_wf. exact (conv_wf _ _ E). Qed.
Lemma good_tf (w : wg) s : good w -> view s = view (tf w) -> good (set_tf w s).
Proof.
  intros [G1 G2] H. destruct (both_view _ _ H) as [B1 B2]. split; [exact G1|]. intros q m t x E. destruct (G2 q m t x E) as (W & fd & pf & pt & B & Em & Et & C). split; [exact W|].
  exists fd, pf, pt. cbn [tf set_tf]. rewrite B1, B2. auto.
Qed.
Lemma cached_good fd pf pt (w : wg) : good w -> both (tf w) = Some (pf, pt) -> good (snd (cached fd pf pt w)).
Proof.
  intros G B. unfold WfGen_Model.cached. destruct (pars w) as [p|] eqn:EP; [|exact G].
  match goal with |- context [match ?h with Some x => (inl x, w) | None => _ end] => destruct h as [x|]; [exact G|] end.
  destruct (compute _ _ _ _ _ _ _) as [x|e] eqn:EC; [|exact G]. destruct G as [G1 G2]. split; [intros p' E; cbn in E; apply G1; congruence|].
  intros q m t y E. cbn in E. injection E as <- <- <- <-. split; [apply G1; exact EP|]. exists fd, pf, pt. cbn [tf fdm tdm]. split; [exact B|]. split; [reflexivity|]. split; [reflexivity|]. exact EC.
Qed.
Lemma strain_good fd p (w : wg) : good w -> good (snd (strain fd p w)).
Proof using conv_wf.
  intros G. unfold WfGen_Model.strain. destruct (arrays_spec fd (tf w)) as [A1 A2]. destruct (arrays fd (tf w)) as [r s]. cbn [fst snd] in *.
  assert (GT : good (set_tf w s)) by (apply good_tf; [exact G|exact A2]). destruct (both_view _ _ A2) as [B1 _].
  destruct r as [[pf pt]|]; [|exact GT]. destruct p as [d|].
  - destruct (set_parameters (set_tf w s) d) as [w'|e] eqn:E; [|exact GT]. apply cached_good; [exact (good_set _ _ _ GT E)|].
    apply set_parameters_spec in E. destruct E as (n & _ & _ & ->). cbn [tf set_pars set_tf]. rewrite B1. symmetry. exact A1.
  - apply cached_good; [exact GT|]. cbn [tf set_tf]. rewrite B1. symmetry. exact A1.
Qed.
(** the operations that neither change the arrays nor edit a returned waveform *)
Definition quiet (o : @op D F A V Y) : Prop :=
  match o with Grid GetF => True | Grid GetTime => True | Grid _ => False | EditWave _ => False | _ => True end.
Lemma step_good o (w : wg) : quiet o -> good w -> good (step w o).
Proof using conv_wf.
  intros Q G. destruct o as [fd p|d|k v|k v|g|f]; cbn [WfGen_Model.step].
  - apply strain_good. exact G.
  - destruct (set_parameters w d) as [w'|e] eqn:E; [exact (good_set _ _ _ G E)|exact G].
  - destruct (pars w) as [p|] eqn:E; [|exact G]. apply good_pars; [apply wf_set, (proj1 G); exact E|exact G].
  - exact G.
  - apply good_tf; [exact G|]. destruct g; try contradiction; cbn [cstep]; [apply view_get_f|apply view_get_t].
  - contradiction.
Qed.
Lemma cached_models fd pf pt (w : wg) : fdm (snd (cached fd pf pt w)) = fdm w /\ tdm (snd (cached fd pf pt w)) = tdm w.
Proof.
  unfold WfGen_Model.cached. destruct (pars w) as [p|]; [|auto].
  match goal with |- context [match ?h with Some x => (inl x, w) | None => _ end] => destruct h as [x|]; [auto|] end.
  destruct (compute _ _ _ _ _ _ _); auto.
Qed.
Lemma step_models o (w : wg) : fdm (step w o) = fdm w /\ tdm (step w o) = tdm w.
Proof.
  destruct o as [fd p|d|k v|k v|g|f]; cbn [WfGen_Model.step]; auto.
  - unfold WfGen_Model.strain. destruct (arrays fd (tf w)) as [r s]. destruct r as [[pf pt]|]; [|auto]. destruct p as [d|]; [|destruct (cached_models fd pf pt (set_tf w s)) as [-> ->]; auto].
    destruct (set_parameters _ d) as [w'|e] eqn:E; [|auto]. destruct (cached_models fd pf pt w') as [-> ->]. apply set_parameters_spec in E. destruct E as (n & _ & _ & ->). auto.
  - destruct (set_parameters w d) as [w'|e] eqn:E; [|auto]. apply set_parameters_spec in E. destruct E as (n & _ & _ & ->). auto.
  - destruct (pars w); auto.
  - destruct (cache w) as [[[[q m] t] x]|]; auto.
Qed.
Definition forget (w : wg) : wg := mkW (tf w) (fdm w) (tdm w) (keys w) (args w) (pars w) None.
Lemma cached_fresh fd pf pt (w : wg) : good w -> fdm w <> tdm w -> both (tf w) = Some (pf, pt) -> fst (cached fd pf pt w) = fst (cached fd pf pt (forget w)).
Proof using veqb_eq source_ext.
  intros [G1 G2] N B. unfold WfGen_Model.cached. cbn [pars forget cache]. destruct (pars w) as [p|] eqn:EP; [|reflexivity].
  destruct (cache w) as [[[[q m] t] x]|] eqn:EC; [|cbn [tf forget]; unfold model_of, trans_of; cbn [fdm tdm forget]; destruct (compute _ _ _ _ _ _ _); reflexivity].
  destruct (deq veqb p q && oeq m (model_of fd w) && oeq t (trans_of fd w)) eqn:H.
  - apply andb_true_iff in H. destruct H as [H H3]. apply andb_true_iff in H. destruct H as [H1 H2]. apply oeq_eq in H2, H3. cbn [fst].
    destruct (G2 q m t x eq_refl) as (W & fd' & pf' & pt' & B' & Em & Et & C). rewrite B in B'. injection B' as <- <-.
    assert (fd' = fd). { destruct fd, fd'; try reflexivity; unfold model_of, trans_of in *; exfalso; apply N; congruence. } subst fd'.
    cbn [tf forget]. rewrite (compute_ext fd _ pf pt _ _ p q (deq_get p q (G1 p eq_refl) W H1)).
    unfold model_of, trans_of in *. cbn [fdm tdm forget]. rewrite <- H2, <- H3, C. reflexivity.
  - cbn [tf forget]. unfold model_of, trans_of. cbn [fdm tdm forget]. destruct (compute _ _ _ _ _ _ _); reflexivity.
Qed.

(** ** C99 the cache *)
(** as long as the arrays stay and nobody edits a returned waveform, every call returns what it would without
    the cache, whatever happened before *)
Theorem C99_transparent : forall (w : wg) l fd p, good w -> fdm w <> tdm w -> List.Forall quiet l ->
  fst (strain fd p (run w l)) = fst (strain fd p (forget (run w l))).
Proof using veqb_eq source_ext conv_wf.
  intros w l fd p G N Q.
  assert (H : good (run w l) /\ fdm (run w l) <> tdm (run w l)).
  { unfold WfGen_Model.run. revert w G N. induction Q as [|o l Ho Q IH]; intros w G N; [split; assumption|]. cbn [fold_left]. apply IH; [apply step_good; assumption|].
    destruct (step_models o w) as [-> ->]. exact N. }
  destruct H as [G' N']. set (v := run w l) in *. clearbody v. clear w l G N Q. unfold WfGen_Model.strain. cbn [tf forget].
  destruct (arrays_spec fd (tf v)) as [A1 A2]. destruct (arrays fd (tf v)) as [r s]. cbn [fst snd] in *. destruct (both_view _ _ A2) as [B1 _].
  destruct r as [[pf pt]|]; [|reflexivity].
  assert (GT : good (set_tf v s)) by (apply good_tf; [exact G'|exact A2]). assert (BT : both (tf (set_tf v s)) = Some (pf, pt)) by (cbn [tf set_tf]; rewrite B1; symmetry; exact A1).
  destruct p as [d|].
  - assert (E : set_parameters (set_tf (forget v) s) d = match set_parameters (set_tf v s) d with inl u => inl (forget u) | inr e => inr e end).
    { unfold WfGen_Model.set_parameters. cbn [keys set_tf forget]. destruct (conv d) as [n|]; [|reflexivity]. destruct (forallb _ _); reflexivity. }
    rewrite E. destruct (set_parameters (set_tf v s) d) as [u|e] eqn:E2; [|reflexivity]. 
    assert (GU : good u) by exact (good_set _ _ _ GT E2). apply set_parameters_spec in E2. destruct E2 as (n & _ & _ & ->). apply cached_fresh; assumption.
  - exact (cached_fresh fd pf pt (set_tf v s) GT N' BT).
Qed.
(** a generator that has computed nothing yet satisfies the hypothesis *)
Theorem C99_start : forall sig s f t p ar (w : wg), new_wg conv sig s f t p ar = inl w -> good w /\ fdm w = f /\ tdm w = t /\ cache w = None.
Proof using conv_wf.
  intros sig s f t p ar w H. unfold new_wg in H. destruct (source_keys sig f t) as [k|]; [|discriminate].
  assert (G : good (mkW s f t k ar None None)) by (split; discriminate). destruct p as [d|].
  - split; [exact (good_set _ _ _ G H)|]. apply set_parameters_spec in H. destruct H as (n & _ & _ & ->). auto.
  - injection H as <-. auto.
Qed.
(** the second call with the same parameters returns the first waveform ... *)
Lemma again fd d (w : wg) x (w1 w2 : wg) : good w -> strain fd (Some d) w = (inl x, w1) -> fdm w2 = fdm w1 -> tdm w2 = tdm w1 -> keys w2 = keys w1 -> args w2 = args w1 ->
  both (tf w2) <> None -> forall q m t y, cache w1 = Some (q, m, t, y) -> forall z, cache w2 = Some (q, m, t, z) ->
  fst (strain fd (Some d) w2) = inl z.
Proof using veqb_eq conv_wf.
  intros G E H1 H2 H3 H4 B q m t y C1 z C2. unfold WfGen_Model.strain in E |- *.
  destruct (arrays fd (tf w)) as [r s]. destruct r as [[pf pt]|]; [|discriminate]. destruct (set_parameters (set_tf w s) d) as [u|e] eqn:ES; [|discriminate].
  apply set_parameters_spec in ES. destruct ES as (n & EN & EK & ->).
  destruct (arrays_spec fd (tf w2)) as [A1 _]. destruct (arrays fd (tf w2)) as [r2 s2]. cbn [fst] in A1. subst r2. destruct (both (tf w2)) as [[pf2 pt2]|]; [|contradiction].
  set (p := update (filter (fun kv => existsb (String.eqb (fst kv)) (keys (set_tf w s))) n) (args (set_tf w s))) in *.
  assert (WP : wf p) by (unfold p; apply update_wf, filter_wf; exact (conv_wf _ _ EN)).
  assert (K : keys w1 = keys w /\ args w1 = args w /\ fdm w1 = fdm w /\ tdm w1 = tdm w /\ deq veqb p q = true /\ m = model_of fd w /\ t = trans_of fd w).
  { unfold WfGen_Model.cached in E. cbn [pars set_pars cache set_tf] in E. destruct (cache w) as [[[[q0 m0] t0] x0]|] eqn:EC.
    - destruct (deq veqb p q0 && oeq m0 (model_of fd _) && oeq t0 (trans_of fd _)) eqn:H.
      + injection E as -> <-. cbn [cache set_pars set_tf] in C1. rewrite EC in C1. injection C1 as -> -> -> _.
        apply andb_true_iff in H. destruct H as [H Ht]. apply andb_true_iff in H. destruct H as [Hd Hm]. apply oeq_eq in Hm, Ht. repeat split; auto.
      + destruct (compute _ _ _ _ _ _ _); [|discriminate]. injection E as -> <-. cbn in C1. injection C1 as <- <- <- _. repeat split; auto. apply deq_refl. exact WP.
    - destruct (compute _ _ _ _ _ _ _); [|discriminate]. injection E as -> <-. cbn in C1. injection C1 as <- <- <- _. repeat split; auto. apply deq_refl. exact WP. }
  destruct K as (K1 & K2 & K3 & K4 & K5 & K6 & K7).
  unfold WfGen_Model.set_parameters. cbn [keys set_tf]. rewrite EN, H3, K1. cbn [keys set_tf] in EK. rewrite EK. cbn [args set_tf]. rewrite H4, K2.
  unfold WfGen_Model.cached. cbn [pars set_pars cache set_tf]. rewrite C2. change (update _ (args w)) with p. rewrite K5.
  unfold model_of, trans_of in *. cbn [fdm tdm set_pars set_tf]. rewrite H1, H2, K3, K4, K6, K7, !(proj2 (oeq_eq _ _) eq_refl). reflexivity.
Qed.
Lemma strain_cached fd d (w : wg) x (w1 : wg) : strain fd (Some d) w = (inl x, w1) -> exists q m t, cache w1 = Some (q, m, t, x).
Proof.
  intros E. unfold WfGen_Model.strain in E. destruct (arrays fd (tf w)) as [r s]. destruct r as [[pf pt]|]; [|discriminate]. destruct (set_parameters (set_tf w s) d) as [u|e]; [|discriminate].
  unfold WfGen_Model.cached in E. destruct (pars u) as [p|]; [|discriminate]. destruct (cache u) as [[[[q0 m0] t0] x0]|] eqn:EC.
  - destruct (deq veqb p q0 && _ && _).
    + injection E as <- <-. rewrite EC. eauto.
    + destruct (compute _ _ _ _ _ _ _); [|discriminate]. injection E as <- <-. cbn. eauto.
  - destruct (compute _ _ _ _ _ _ _); [|discriminate]. injection E as <- <-. cbn. eauto.
Qed.
(** ... also after the duration, sampling frequency, start time or an array were set to something else *)
Theorem C99_grid_refuted : forall fd d (w : wg) x (w1 : wg) o, good w -> strain fd (Some d) w = (inl x, w1) ->
  both (tf (step w1 (Grid o))) <> None -> fst (strain fd (Some d) (step w1 (Grid o))) = inl x.
Proof using veqb_eq conv_wf.
  intros fd d w x w1 o G E B. destruct (strain_cached _ _ _ _ _ E) as (q & m & t & C).
  exact (again fd d w x w1 (step w1 (Grid o)) G E eq_refl eq_refl eq_refl eq_refl B q m t x C x C).
Qed.
(** ... and after the caller changed the arrays it was given, with the changes *)
Theorem C99_edited_refuted : forall fd d (w : wg) x (w1 : wg) f, good w -> strain fd (Some d) w = (inl x, w1) ->
  both (tf w1) <> None -> fst (strain fd (Some d) (step w1 (EditWave f))) = inl (f x).
Proof using veqb_eq conv_wf.
  intros fd d w x w1 f G E B. destruct (strain_cached _ _ _ _ _ E) as (q & m & t & C).
  assert (S : step w1 (EditWave f) = mkW (tf w1) (fdm w1) (tdm w1) (keys w1) (args w1) (pars w1) (Some (q, m, t, f x))) by (cbn [WfGen_Model.step]; rewrite C; reflexivity).
  rewrite S. exact (again fd d w x w1 (mkW (tf w1) (fdm w1) (tdm w1) (keys w1) (args w1) (pars w1) (Some (q, m, t, f x))) G E eq_refl eq_refl eq_refl eq_refl B q m t x C (f x) eq_refl).
Qed.
(** one function as model of both domains: the second domain gets the waveform of the first *)
Theorem C99_same_model_refuted : forall d (w : wg) x (w1 : wg), good w -> fdm w = tdm w -> strain true (Some d) w = (inl x, w1) -> fst (strain false (Some d) w1) = inl x.
Proof using veqb_eq conv_wf off oft t0of.
  intros d w x w1 G H E. destruct (strain_cached _ _ _ _ _ E) as (q & m & t & C).
  assert (HM : fdm w1 = tdm w1). { pose proof (step_models (Strain true (Some d)) w) as [M1 M2]. cbn [WfGen_Model.step] in M1, M2. rewrite E in M1, M2. cbn [snd] in M1, M2. congruence. }
  assert (B : both (tf w1) <> None).
  { pose proof E as E'. unfold WfGen_Model.strain in E'. destruct (arrays_spec true (tf w)) as [A1 A2]. destruct (arrays true (tf w)) as [r s]. cbn [fst snd] in *. destruct r as [[pf pt]|]; [|discriminate].
    destruct (set_parameters (set_tf w s) d) as [u|e] eqn:ES; [|discriminate]. apply set_parameters_spec in ES. destruct ES as (n & _ & _ & ->).
    assert (T : tf w1 = s). { unfold WfGen_Model.cached in E'. cbn [pars set_pars] in E'.
      match type of E' with match ?h with Some _ => _ | None => _ end = _ => destruct h as [y|]; [injection E' as _ <-; reflexivity|] end.
      destruct (compute _ _ _ _ _ _ _); [|discriminate]. injection E' as _ <-. reflexivity. }
    rewrite T. destruct (both_view _ _ A2) as [-> _]. congruence. }
  pose proof (again true d w x w1 w1 G E eq_refl eq_refl eq_refl eq_refl B q m t x C x C) as R.
  unfold WfGen_Model.strain in R |- *. destruct (arrays_spec false (tf w1)) as [A1 _]. destruct (arrays_spec true (tf w1)) as [A2 _].
  destruct (arrays false (tf w1)) as [r1 s1]. destruct (arrays true (tf w1)) as [r2 s2]. cbn [fst] in *. subst r1 r2. destruct (both (tf w1)) as [[pf pt]|]; [|contradiction].
  unfold WfGen_Model.set_parameters in R |- *. cbn [keys set_tf] in R |- *. destruct (conv d) as [n|] eqn:EQ; [|discriminate]. destruct (forallb _ _); [|discriminate].
  unfold WfGen_Model.cached in R |- *. cbn [pars set_pars set_tf cache fdm tdm args keys] in R |- *. rewrite C. unfold model_of, trans_of. cbn [fdm tdm set_pars set_tf]. rewrite HM.
  (* the first look-up hits: the cache was filled with these parameters *)
  match goal with |- context [deq veqb ?p q] => assert (HD : deq veqb p q && oeq m (tdm w1) && oeq t (tdm w1) = true) end.
  { clear R. unfold WfGen_Model.strain in E. destruct (arrays true (tf w)) as [r s]. destruct r as [[pf0 pt0]|]; [|discriminate].
    destruct (set_parameters (set_tf w s) d) as [u|e] eqn:ES; [|discriminate]. pose proof ES as ES'. apply set_parameters_spec in ES. destruct ES as (n' & EN & EK & ->).
    assert (n' = n) by congruence. subst n'.
    set (p := update (filter (fun kv => existsb (String.eqb (fst kv)) (keys (set_tf w s))) n) (args (set_tf w s))) in *.
    assert (WP : wf p) by (unfold p; apply update_wf, filter_wf; exact (conv_wf _ _ EN)).
    unfold WfGen_Model.cached in E. cbn [pars set_pars cache set_tf] in E.
    assert (Q : forall m0 t0 x0 q0, deq veqb p q0 && oeq m0 (tdm w) && oeq t0 (tdm w) = true -> w1 = mkW s (fdm w) (tdm w) (keys w) (args w) (Some p) (Some (q0, m0, t0, x0)) ->
       deq veqb (update (filter (fun kv => existsb (String.eqb (fst kv)) (keys w1)) n) (args w1)) q && oeq m (tdm w1) && oeq t (tdm w1) = true).
    { intros m0 t0 x0 q0 HQ EW. rewrite EW in C |- *. cbn in C. injection C as <- <- <- _. exact HQ. }
    unfold model_of, trans_of in E. cbn [fdm tdm set_pars set_tf] in E. rewrite H in E.
    destruct (cache w) as [[[[q0 m0] t0] x0]|] eqn:EC.
    - destruct (deq veqb p q0 && oeq m0 (tdm w) && oeq t0 (tdm w)) eqn:HQ.
      + injection E as _ E. apply (Q m0 t0 x0 q0 HQ). rewrite <- E. unfold set_pars, set_tf. cbn. rewrite EC, H. reflexivity.
      + destruct (compute _ _ _ _ _ _ _) as [y|]; [|discriminate]. injection E as _ E. apply (Q (tdm w) (tdm w) y p); [|rewrite H; symmetry; exact E].
        rewrite deq_refl by exact WP. rewrite !(proj2 (oeq_eq _ _) eq_refl). reflexivity.
    - destruct (compute _ _ _ _ _ _ _) as [y|]; [|discriminate]. injection E as _ E. apply (Q (tdm w) (tdm w) y p); [|rewrite H; symmetry; exact E].
      rewrite deq_refl by exact WP. rewrite !(proj2 (oeq_eq _ _) eq_refl). reflexivity. }
  rewrite HD. reflexivity.
Qed.
(** a time-domain model that returns a plain array gives a pair instead of a series *)
Theorem C99_array_refuted : forall (w : wg) d x (w1 : wg) m a fs, fdm w = None -> tdm w = Some m -> cache w = None -> c_fs (tf w) = Some fs ->
  (forall pt p, source m (Ti pt) p = Some (Arr a)) -> strain true (Some d) w = (inl x, w1) -> x = Tup (fst (nfft a fs)) (snd (nfft a fs)).
Proof using Type.
  intros w d x w1 m a fs H1 H2 H3 H4 HS E. unfold WfGen_Model.strain in E. destruct (arrays_spec true (tf w)) as [_ A2]. destruct (arrays true (tf w)) as [r s]. cbn [snd] in A2. destruct (both_view _ _ A2) as [_ B].
  destruct r as [[pf pt]|]; [|discriminate]. destruct (set_parameters (set_tf w s) d) as [u|e] eqn:ES; [|discriminate]. apply set_parameters_spec in ES. destruct ES as (n & _ & _ & ->).
  unfold WfGen_Model.cached in E. cbn [pars set_pars cache set_tf] in E. rewrite H3 in E. unfold model_of, trans_of in E. cbn [fdm tdm tf set_pars set_tf] in E. rewrite H1, H2 in E.
  unfold WfGen_Model.compute in E. rewrite HS, B, H4 in E. cbn [transformed] in E. injection E as <- _. reflexivity.
Qed.

(** ** C100 the parameters *)
(** what the source model is called with: waveform_arguments first, then the converted parameters it names, nothing else *)
Theorem C100_received : forall (w : wg) d (w' : wg), wf (args w) -> set_parameters w d = inl w' -> exists n p, conv d = Some n /\ pars w' = Some p /\
  (forall k, dget p k = match dget (args w) k with Some v => Some v | None => if existsb (String.eqb k) (keys w) then dget n k else None end) /\
  (forall k, In k (keys w) -> dget p k <> None) /\ cache w' = cache w /\ tf w' = tf w /\ args w' = args w.
Proof using Type.
  intros w d w' WA H. apply set_parameters_spec in H. destruct H as (n & EN & EK & ->). exists n. eexists. split; [exact EN|]. split; [reflexivity|].
  assert (G : forall k, dget (update (filter (fun kv => existsb (String.eqb (fst kv)) (keys w)) n) (args w)) k =
    match dget (args w) k with Some v => Some v | None => if existsb (String.eqb k) (keys w) then dget n k else None end).
  { intros k. rewrite update_get by exact WA. rewrite (filter_get (fun k => existsb (String.eqb k) (keys w))). reflexivity. }
  split; [exact G|]. split; [|auto]. intros k Hk. rewrite G. destruct (dget (args w) k); [discriminate|]. rewrite (proj2 (mem_existsb k (keys w)) Hk).
  rewrite forallb_forall in EK. specialize (EK k Hk). unfold dmem in EK. destruct (dget n k); [discriminate|discriminate EK].
Qed.
(** KeyError exactly if the converted parameters lack an argument of the model, even one given in waveform_arguments *)
Theorem C100_missing : forall (w : wg) d, set_parameters w d = inr KeyErr <-> exists n k, conv d = Some n /\ In k (keys w) /\ dget n k = None.
Proof using Type.
  intros w d. unfold WfGen_Model.set_parameters. destruct (conv d) as [n|]; [|split; [discriminate|intros (n & k & E & _); discriminate]].
  destruct (forallb (dmem n) (keys w)) eqn:E.
  - split; [discriminate|]. intros (n' & k & EN & Hk & Hd). injection EN as <-. rewrite forallb_forall in E. specialize (E k Hk). unfold dmem in E. rewrite Hd in E. discriminate.
  - split; [|reflexivity]. intros _. assert (X : exists k, In k (keys w) /\ dmem n k = false).
    { clear - E. induction (keys w) as [|k l IH]; [discriminate|]. cbn in E. destruct (dmem n k) eqn:M; [|exists k; split; [left; reflexivity|exact M]]. destruct (IH E) as (k' & H & H'). exists k'. split; [right; exact H|exact H']. }
    destruct X as (k & Hk & M). exists n, k. repeat split; auto. unfold dmem in M. destruct (dget n k); [discriminate|reflexivity].
Qed.
(** a call whose parameters are refused changes neither parameters nor cache: the call without parameters goes on
    with the earlier ones *)
Theorem C100_refused : forall fd d (w : wg) e, set_parameters w d = inr e -> both (tf w) <> None ->
  exists w', strain fd (Some d) w = (inr e, w') /\ fst (strain fd None w') = fst (strain fd None w).
Proof using Type.
  intros fd d w e H B. unfold WfGen_Model.strain. destruct (arrays_spec fd (tf w)) as [A1 A2]. destruct (arrays fd (tf w)) as [r s] eqn:EA. cbn [fst snd] in *. subst r.
  destruct (both (tf w)) as [[pf pt]|] eqn:EB; [|contradiction].
  assert (E : set_parameters (set_tf w s) d = inr e) by (unfold WfGen_Model.set_parameters in *; cbn [keys set_tf] in *; destruct (conv d); [destruct (forallb _ _); [discriminate|]|]; exact H).
  rewrite E. eexists. split; [reflexivity|]. cbn [tf set_tf].
  destruct (arrays_spec fd s) as [A3 A4]. destruct (arrays fd s) as [r' s'] eqn:EA'. cbn [fst snd] in *. subst r'. destruct (both_view _ _ A2) as [B1 B2]. rewrite B1. change (both (tf w)) with (both (tf w)). 
  destruct (both_view _ _ A4) as [_ B3]. try rewrite EB. unfold WfGen_Model.cached, set_tf. cbn. destruct (pars w) as [p|]; [|reflexivity]. rewrite B3. unfold model_of, trans_of. cbn [fdm tdm].
  match goal with |- context [match ?h with Some x => (inl x, ?v) | None => _ end] => destruct h; [reflexivity|] end. destruct (compute _ _ _ _ _ _ _); reflexivity.
Qed.
(** changed waveform_arguments reach the model with the next parameters only *)
Theorem C100_arguments_refuted : forall fd k v (w : wg), fst (strain fd None (step w (SetArg k v))) = fst (strain fd None w).
Proof using Type.
  intros fd k v w. cbn [WfGen_Model.step]. unfold WfGen_Model.strain. cbn [tf]. destruct (arrays fd (tf w)) as [r s]. destruct r as [[pf pt]|]; [|reflexivity].
  unfold WfGen_Model.cached, set_tf. cbn. destruct (pars w) as [p|]; [|reflexivity]. unfold model_of, trans_of. cbn [fdm tdm].
  match goal with |- context [match ?h with Some x => (inl x, ?v) | None => _ end] => destruct h; [reflexivity|] end. destruct (compute _ _ _ _ _ _ _); reflexivity.
Qed.
(** no models; no parameters; arrays that cannot be made *)
Theorem C100_errors : forall sig s p ar fd q (w : wg),
  (new_wg conv sig s None None p ar : wg + exn) = inr AttributeError /\
  (both (tf w) = None -> fst (strain fd q w) = inr ValueError) /\
  (pars w = None -> both (tf w) <> None -> fst (strain fd None w) = inr AttributeError).
Proof using Type.
  intros sig s p ar fd q w. split; [reflexivity|]. unfold WfGen_Model.strain. destruct (arrays_spec fd (tf w)) as [A1 _]. destruct (arrays fd (tf w)) as [r s']. cbn [fst] in A1. subst r. split.
  - intros ->. reflexivity.
  - intros E B. destruct (both (tf w)) as [[pf pt]|]; [|contradiction]. unfold WfGen_Model.cached. cbn [pars set_tf]. rewrite E. reflexivity.
Qed.
End P.

(** a frequency model that returns duration times amplitude on nat: the second result is for the old duration *)
Definition ex_src (m : nat) (x : @points nat nat) (d : dict nat) : option (@wave nat) :=
  match x with Fr f => match dget d "a" with Some a => Some (Arr (f * a)) | None => None end | Ti _ => None end.
Definition ex_new := new_wg (F := nat) (A := nat) (Y := nat) (fun d : dict nat => Some d) (fun _ => ["a"%string]) (new_cts (Some 8) (Some 4) 0) (Some 1) None (Some [("a"%string, 3); ("b"%string, 9)]) [("r"%string, 5)].
Definition ex_strain := strain (D := nat) (fun fs T => Some T) (fun fs T t => Some t) Nat.eqb ex_src (fun d => Some d) (fun y r => (y, r)) (fun y r => y).
Definition ex_step := step (D := nat) (fun fs T => Some T) (fun fs T t => Some t) (fun f => Some (8, f)) (fun t => Some (8, t)) (fun t => t) Nat.eqb ex_src (fun d => Some d) (fun y r => (y, r)) (fun y r => y).
Theorem C99_example : match ex_new with inl w =>
  fst (ex_strain true None w) = inl (Arr 12) /\
  fst (ex_strain true None (ex_step (ex_step w (Strain true None)) (Grid (SetT 10)))) = inl (Arr 12) /\
  fst (ex_strain true None (ex_step w (Grid (SetT 10)))) = inl (Arr 30) /\
  fst (ex_strain true (Some [("a"%string, 4)]) (ex_step (ex_step w (Strain true None)) (Grid (SetT 10)))) = inl (Arr 40) | inr _ => False end.
Proof. repeat split; reflexivity. Qed.
Theorem C100_example : match ex_new with inl w => pars w = Some [("a"%string, 3); ("r"%string, 5)] /\
  fst (ex_strain true (Some [("b"%string, 1)]) w) = inr KeyErr | inr _ => False end.
Proof. split; reflexivity. Qed.

(** ** Assumptions of every theorem above *)
Definition WfGen_Props_all :=
  (@C99_transparent,
   @C99_start,
   @C99_grid_refuted,
   @C99_edited_refuted,
   @C99_same_model_refuted,
   @C99_array_refuted,
   @C100_received,
   @C100_missing,
   @C100_refused,
   @C100_arguments_refuted,
   @C100_errors,
   @C99_example,
   @C100_example).
Print Assumptions WfGen_Props_all.
