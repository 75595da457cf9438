(** Reconstruction of marginalised parameters in blocks, with crashes and restarts (C167), and the
    attachment of computed columns to a table (C168). *)
From Coq Require Import String Bool List Arith ZArith Reals Lia Permutation.
From Verif Require Import PyReal PyDict GwRecon_Model.
Import ListNotations.
Open Scope list_scope.
Open Scope nat_scope.

(** ** Blocks *)

Definition stored {V} (c : cache V) : list V := concat (map snd c).

Lemma list_ext {A} (a : list A) : forall b, (forall i, nth_error a i = nth_error b i) -> a = b.
Proof.
  induction a as [|x t IH]; intros [|y u] H; [reflexivity|specialize (H 0); discriminate H|specialize (H 0); discriminate H|].
  pose proof (H 0) as H0. cbn in H0. injection H0 as ->. f_equal. apply IH. intros i. exact (H (S i)).
Qed.

Lemma stored_app {V} (a b : cache V) : stored (a ++ b) = stored a ++ stored b.
Proof. unfold stored. rewrite map_app, concat_app. reflexivity. Qed.

Lemma skipn_add {A} (l : list A) : forall a b, skipn b (skipn a l) = skipn (a + b) l.
Proof.
  induction l as [|x t IH]; intros a b; [rewrite !skipn_nil; reflexivity|].
  destruct a as [|a]; cbn; [reflexivity|apply IH].
Qed.

Lemma cached_iff {V} (c : cache V) ii : cached c ii = true <-> In ii (map fst c).
Proof.
  unfold cached. rewrite existsb_exists, in_map_iff. split; intros (e & H & E).
  - exists e. apply Nat.eqb_eq in E. auto.
  - exists e. split; [exact E|apply Nat.eqb_eq; exact H].
Qed.

Lemma cached_false {V} (c : cache V) ii : cached c ii = false <-> ~ In ii (map fst c).
Proof. rewrite <- cached_iff. destruct (cached c ii); split; congruence. Qed.

(** From a position from which on nothing is cached the loop computes every remaining row once. *)
Lemma passes_free {A V} (f : A -> V) args b : 1 <= b -> forall k ii c, length args - ii <= k ->
  (forall e, In e (map fst c) -> e < ii) ->
  exists L, passes k f args b ii c = (true, c ++ L) /\ stored L = skipn ii (map f args) /\ (ii < length args -> L <> []).
Proof.
  intros Hb. induction k as [|k IH]; intros ii c Hk Hc; cbn [passes].
  - exists []. rewrite app_nil_r. split; [f_equal; apply Nat.leb_le; lia|]. split; [|lia].
    rewrite skipn_all2; [reflexivity|rewrite map_length; lia].
  - destruct (Nat.ltb_spec ii (length args)) as [H|H].
    + unfold pass at 1. replace (cached c ii) with false by (symmetry; apply cached_false; intros G; apply Hc in G; lia).
      destruct (IH (ii + b) (c ++ [(ii, map f (block_of args ii b))]) ltac:(lia)) as (L & E & S & _).
      { intros e He. rewrite map_app in He. apply in_app_or in He. destruct He as [He|[<-|[]]]; [apply Hc in He|cbn [fst]]; lia. }
      exists ((ii, map f (block_of args ii b)) :: L). rewrite E, <- app_assoc. split; [reflexivity|]. split; [|discriminate].
      change (stored ((ii, map f (block_of args ii b)) :: L)) with (map f (block_of args ii b) ++ stored L). rewrite S.
      unfold block_of. rewrite <- skipn_add, <- firstn_map, <- skipn_map. apply firstn_skipn.
    + exists []. rewrite app_nil_r. split; [reflexivity|]. split; [|lia]. rewrite skipn_all2; [reflexivity|rewrite map_length; lia].
Qed.

(** *** C167: reconstruction in blocks *)

(** Without anything cached, block by block or all at once is the same, each row on its own; an empty table
    raises, a block size of zero never ends. *)
Theorem C167_blocks {A V} (f : A -> V) args b :
  (args = [] -> whole f args b [] = ValueError) /\
  (args <> [] -> 1 <= b -> whole f args b [] = Done (map f args)) /\
  (args <> [] -> b = 0 -> whole f args b [] = Endless).
Proof.
  split; [intros ->; reflexivity|]. split; intros Ha Hb.
  - unfold whole. destruct (passes_free f args b Hb (S (length args)) 0 []) as (L & E & S & N); [lia|intros e []|].
    rewrite E. cbn [app]. unfold column_of. specialize (N ltac:(destruct args; [congruence|cbn; lia])).
    destruct L as [|l L]; [congruence|]. change (length (l :: L) =? 0) with false. cbv iota. fold (stored (l :: L)).
    rewrite S. cbn [skipn]. rewrite map_length, Nat.eqb_refl. reflexivity.
  - subst b. unfold whole. assert (G : forall k c, fst (passes k f args 0 0 c) = false).
    { induction k as [|k IH]; intros c; cbn [passes]; [cbn [fst]; apply Nat.leb_gt; destruct args; [congruence|cbn; lia]|].
      destruct (Nat.ltb_spec 0 (length args)) as [H|H]; [apply IH|destruct args; [congruence|cbn in H; lia]]. }
    specialize (G (S (length args)) []). destruct (passes _ f args 0 0 []) as [[] c]; [discriminate|reflexivity].
Qed.

(** *** Restarting *)

(** A cache left by runs with blocks of [b] rows: its keys are 0, b, ..., (m-1) b and its values fill the
    first rows of the table. *)
Definition front {V} (b n m : nat) (c : cache V) : Prop :=
  map fst c = map (fun i => i * b) (seq 0 m) /\ length (stored c) = Nat.min (m * b) n /\ (m = 0 \/ (m - 1) * b < n).

Lemma front_cached {V} b n m (c : cache V) j : 1 <= b -> front b n m c -> (cached c (j * b) = true <-> j < m).
Proof.
  intros Hb (K & _). rewrite cached_iff, K, in_map_iff. split.
  - intros (i & E & H). apply in_seq in H. assert (i = j) by nia. lia.
  - intros H. exists j. split; [reflexivity|apply in_seq; lia].
Qed.

Lemma front_lt {V} b n m (c : cache V) e : 1 <= b -> front b n m c -> In e (map fst c) -> e < m * b.
Proof. intros Hb (K & _). rewrite K, in_map_iff. intros (i & <- & H). apply in_seq in H. nia. Qed.

(** What [k] passes do to such a cache. *)
Lemma passes_front {A V} (f : A -> V) args b : 1 <= b -> forall k j m c, front b (length args) m c -> j <= m ->
  exists L m', snd (passes k f args b (j * b) c) = c ++ L /\ front b (length args) m' (c ++ L) /\
    stored L = firstn (length (stored L)) (skipn (length (stored c)) (map f args)).
Proof.
  intros Hb. induction k as [|k IH]; intros j m c F Hj; cbn [passes].
  - exists [], m. rewrite app_nil_r. auto.
  - destruct (Nat.ltb_spec (j * b) (length args)) as [H|H]; [|exists [], m; rewrite app_nil_r; auto].
    unfold pass at 1. destruct (cached c (j * b)) eqn:Ec.
    + apply (front_cached b _ m c j Hb F) in Ec. change (j * b + b) with (j * b + b). replace (j * b + b) with (Datatypes.S j * b) by lia.
      apply (IH (Datatypes.S j) m c F). lia.
    + assert (j = m). { destruct (Nat.eq_dec j m) as [E|E]; [exact E|]. assert (G : j < m) by lia.
        apply (front_cached b _ m c j Hb F) in G. congruence. } subst j.
      set (new := map f (block_of args (m * b) b)).
      assert (Ln : length new = Nat.min b (length args - m * b)) by (unfold new, block_of; rewrite map_length, firstn_length, skipn_length; reflexivity).
      assert (Ls : length (stored c) = m * b) by (destruct F as (_ & F & _); lia).
      assert (F' : front b (length args) (Datatypes.S m) (c ++ [(m * b, new)])).
      { destruct F as (K & Lc & _). split; [|split].
        - rewrite map_app, K. replace (Datatypes.S m) with (m + 1) by lia. rewrite seq_app, map_app. reflexivity.
        - rewrite stored_app, app_length, Ls. unfold stored at 1. cbn [map snd concat]. rewrite app_nil_r, Ln. nia.
        - right. replace (Datatypes.S m - 1) with m by lia. exact H. }
      replace (m * b + b) with (Datatypes.S m * b) by lia.
      destruct (IH (Datatypes.S m) (Datatypes.S m) _ F' ltac:(lia)) as (L & m' & E & F2 & V2).
      exists ((m * b, new) :: L), m'. rewrite E, <- app_assoc in *. cbn [app] in *. split; [reflexivity|]. split; [exact F2|].
      change (stored ((m * b, new) :: L)) with (new ++ stored L).
      rewrite stored_app in V2. assert (Q1 : stored [(m * b, new)] = new) by (unfold stored; cbn [map snd concat]; apply app_nil_r).
      rewrite Q1, app_length in V2.
      rewrite <- skipn_add in V2. set (rest := skipn (length (stored c)) (map f args)) in *.
      assert (En : new = firstn (length new) rest).
      { unfold new at 1, rest. rewrite Ls, Ln. unfold block_of. rewrite skipn_map, firstn_map. f_equal.
        destruct (Nat.le_ge_cases b (length args - m * b)) as [Q|Q]; [rewrite Nat.min_l by lia; reflexivity|].
        rewrite Nat.min_r by lia. rewrite !firstn_all2; rewrite ?skipn_length; lia || reflexivity. }
      rewrite app_length. rewrite V2 at 1. rewrite En at 1.
      clear - En. assert (forall a n (l : list V), firstn a l ++ firstn n (skipn a l) = firstn (a + n) l) as Q.
      { induction a as [|a IHa]; intros n [|x t]; cbn; rewrite ?firstn_nil; try reflexivity. f_equal. apply IHa. }
      apply Q.
Qed.

(** An uninterrupted run on such a cache keeps what is stored and computes the other rows, each once. *)
Lemma whole_front {A V} (f : A -> V) args b m c : 1 <= b -> args <> [] -> front b (length args) m c ->
  whole f args b c = Done (stored c ++ skipn (length (stored c)) (map f args)).
Proof.
  intros Hb Ha F. unfold whole.
  assert (G : forall k j, j <= m -> length args - j * b <= k -> 
    exists L, passes k f args b (j * b) c = (true, c ++ L) /\ stored L = skipn (length (stored c)) (map f args) /\ (c = [] -> L <> [])).
  { assert (Hn : 0 < length args) by (destruct args; [congruence|cbn; lia]).
    assert (M0 : c = [] -> m = 0). { intros ->. destruct F as (K & _). destruct m; [reflexivity|discriminate K]. }
    induction k as [|k IH]; intros j Hj Hk.
    - exists []. rewrite app_nil_r. cbn [passes]. split; [f_equal; apply Nat.leb_le; lia|]. split.
      + rewrite skipn_all2; [reflexivity|]. destruct F as (_ & Lc & _). rewrite map_length, Lc. nia.
      + intros Q. specialize (M0 Q). assert (j = 0) by lia. subst. lia.
    - destruct (Nat.eq_dec j m) as [->|Nj].
      + destruct (Nat.le_gt_cases (length args) (m * b)) as [Q|Q].
        * exists []. cbn [passes]. replace (m * b <? length args) with false by (symmetry; apply Nat.ltb_ge; lia).
          rewrite app_nil_r. split; [reflexivity|]. split.
          -- rewrite skipn_all2; [reflexivity|]. destruct F as (_ & Lc & _). rewrite map_length, Lc. lia.
          -- intros Z. specialize (M0 Z). subst. lia.
        * destruct (passes_free f args b Hb (Datatypes.S k) (m * b) c Hk) as (L & E & S & N).
          { intros e He. exact (front_lt b _ m c e Hb F He). }
          exists L. split; [exact E|]. split; [|intros _; apply N; lia].
          rewrite S. destruct F as (_ & Lc & _). rewrite Lc, Nat.min_l by lia. reflexivity.
      + assert (Q : j < m) by lia. cbn [passes].
        assert (Hjn : j * b < length args). { destruct F as (_ & _ & [F|F]); [lia|nia]. }
        replace (j * b <? length args) with true by (symmetry; apply Nat.ltb_lt; lia).
        unfold pass at 1. rewrite (proj2 (front_cached b _ m c j Hb F) Q).
        replace (j * b + b) with (Datatypes.S j * b) by lia. apply IH; [lia|]. nia. }
  destruct (G (Datatypes.S (length args)) 0 ltac:(lia) ltac:(lia)) as (L & E & S & N). cbn [Nat.mul] in E. rewrite E.
  unfold column_of. assert (NE : length (c ++ L) <> 0).
  { rewrite app_length. destruct c; [specialize (N eq_refl); destruct L; [congruence|cbn; lia]|cbn; lia]. }
  apply Nat.eqb_neq in NE. rewrite NE. fold (stored (c ++ L)). rewrite stored_app, S.
  replace (length (stored c ++ skipn (length (stored c)) (map f args))) with (length args).
  - rewrite Nat.eqb_refl. reflexivity.
  - rewrite app_length, skipn_length, map_length. destruct F as (_ & Lc & _). lia.
Qed.

Section Restart_props.
Context {S V : Type} (Seq_dec : forall a b : S, {a = b} + {a <> b}) (draw : S -> nat -> V).

(** the [i]th value belongs to the [i]th row, under some seed *)
Definition own (samples : list S) (l : list V) : Prop :=
  forall i v, nth_error l i = Some v -> exists r s, nth_error samples i = Some r /\ v = draw r s.

(** an attempt: the seeds of the call and the number of passes before it is killed *)
Definition attempts (samples : list S) (b : nat) (l : list (list nat * nat)) (fl : cfile S V) : cfile S V :=
  fold_left (fun fl a => killed Seq_dec draw true false samples (fst a) b (snd a) fl) l fl.

Lemma args_len (samples : list S) seeds : length seeds = length samples -> length (fill_args samples seeds) = length samples.
Proof. intros H. unfold fill_args. rewrite combine_length. lia. Qed.

Lemma own_args samples seeds : length seeds = length samples -> own samples (map (fill draw) (fill_args samples seeds)).
Proof.
  intros HL i v E. rewrite nth_error_map in E. destruct (nth_error (fill_args samples seeds) i) as [[r s]|] eqn:G; [|discriminate].
  cbn in E. injection E as <-. exists r, s. split; [|reflexivity].
  unfold fill_args in G. clear - G HL. revert seeds i HL G. induction samples as [|x t IH]; intros [|y u] [|i] HL G; cbn in *; try discriminate.
  - injection G as <- <-. reflexivity.
  - apply (IH u i); [congruence|exact G].
Qed.

Lemma own_app samples a b : own samples a -> (forall i v, nth_error b i = Some v -> exists r s, nth_error samples (length a + i) = Some r /\ v = draw r s) ->
  own samples (a ++ b).
Proof.
  intros Ha Hb i v E. destruct (Nat.lt_ge_cases i (length a)) as [H|H].
  - rewrite nth_error_app1 in E by exact H. exact (Ha i v E).
  - rewrite nth_error_app2 in E by exact H. destruct (Hb _ _ E) as (r & s & G & ->). exists r, s.
    replace (length a + (i - length a)) with i in G by lia. auto.
Qed.

Lemma nth_error_skipn {A} (l : list A) : forall a i, nth_error (skipn a l) i = nth_error l (a + i).
Proof. induction l as [|x t IH]; intros [|a] i; cbn; rewrite ?nth_error_nil; try reflexivity; [destruct i; reflexivity|apply IH]. Qed.

Lemma nth_error_firstn {A} (l : list A) : forall n i v, nth_error (firstn n l) i = Some v -> nth_error l i = Some v.
Proof. induction l as [|x t IH]; intros [|n] [|i] v E; cbn in *; try discriminate; auto. eapply IH; eassumption. Qed.

(** what a restart may rely on *)
Definition sound (samples : list S) (b : nat) (fl : cfile S V) : Prop :=
  let c := start_cache Seq_dec true false fl samples in exists m, front b (length samples) m c /\ own samples (stored c).

Lemma sound_fresh samples b fl : start_cache Seq_dec true false fl samples = [] -> sound samples b fl.
Proof.
  intros E. unfold sound. rewrite E. exists 0. split.
  - split; [reflexivity|]. split; [reflexivity|]. left. reflexivity.
  - intros i v G. destruct i; discriminate G.
Qed.

Lemma start_pickled samples (c : cache V) : start_cache Seq_dec true false (Pickled samples c) samples = c.
Proof. unfold start_cache. cbn [andb negb]. destruct (list_eq_dec Seq_dec samples samples); congruence. Qed.

Lemma sound_killed samples b seeds k fl : 1 <= b -> length seeds = length samples -> sound samples b fl ->
  sound samples b (killed Seq_dec draw true false samples seeds b k fl) /\
  exists t, stored (start_cache Seq_dec true false (killed Seq_dec draw true false samples seeds b k fl) samples) =
            stored (start_cache Seq_dec true false fl samples) ++ t.
Proof.
  intros Hb HL (m & F & O). unfold killed. cbv zeta. cbv iota.
  set (c := start_cache Seq_dec true false fl samples) in *.
  rewrite <- (args_len samples seeds HL) in F.
  destruct (passes_front (fill draw) (fill_args samples seeds) b Hb k 0 m c F ltac:(lia)) as (L & m' & E & F' & S').
  cbn [Nat.mul] in E. rewrite E. destruct (length (c ++ L) =? length c).
  - split; [exists m; rewrite <- (args_len samples seeds HL); split; [exact F|exact O]|]. exists []. rewrite app_nil_r. reflexivity.
  - split.
    + exists m'. rewrite start_pickled. rewrite <- (args_len samples seeds HL) at 1. split; [exact F'|].
      rewrite stored_app. apply own_app; [exact O|]. intros i v G. rewrite S' in G. apply nth_error_firstn in G. rewrite nth_error_skipn in G.
      exact (own_args samples seeds HL _ _ G).
    + rewrite start_pickled. exists (stored L). apply stored_app.
Qed.

(** However often it is killed and restarted with the same block size, the reconstruction ends with one
    value per row, drawn for that row; what earlier attempts had stored is kept, the other rows are drawn
    with the seeds of the last call. *)
Theorem C167_restart samples b l seeds fl0 : 1 <= b -> samples <> [] -> length seeds = length samples ->
  Forall (fun a => length (fst a) = length samples) l ->
  start_cache Seq_dec true false fl0 samples = [] ->
  let fl := attempts samples b l fl0 in
  let kept := stored (start_cache Seq_dec true false fl samples) in
  exists v, reconstruct Seq_dec draw true false samples seeds b fl = Done v /\ length v = length samples /\ own samples v /\
    firstn (length kept) v = kept /\ skipn (length kept) v = skipn (length kept) (map (fill draw) (fill_args samples seeds)).
Proof.
  intros Hb Hs HL HA H0 fl kept.
  assert (SO : sound samples b fl).
  { unfold fl, attempts. clear kept fl. pose proof (sound_fresh samples b fl0 H0) as S0. clear H0.
    revert fl0 S0. induction HA as [|a l Ha HA IH]; intros fl0 S0; cbn [fold_left]; [exact S0|].
    apply IH. apply sound_killed; assumption. }
  destruct SO as (m & F & O). fold kept in O.
  unfold reconstruct. rewrite <- (args_len samples seeds HL) in F.
  assert (Ha : fill_args samples seeds <> []). { intros Q. apply Hs. apply length_zero_iff_nil. rewrite <- (args_len samples seeds HL), Q. reflexivity. }
  rewrite (whole_front (fill draw) _ b m _ Hb Ha F). fold kept. eexists. split; [reflexivity|].
  pose proof F as (_ & Lk & _). fold kept in Lk. rewrite (args_len samples seeds HL) in Lk.
  assert (Lkn : length kept <= length samples) by lia.
  split; [|split; [|split]].
  - rewrite app_length, skipn_length, map_length, (args_len samples seeds HL). lia.
  - apply own_app; [exact O|]. intros i v G. rewrite nth_error_skipn in G. exact (own_args samples seeds HL _ _ G).
  - rewrite firstn_app, firstn_all, Nat.sub_diag. cbn [firstn]. apply app_nil_r.
  - rewrite skipn_app, skipn_all, Nat.sub_diag. reflexivity.
Qed.

(** Progress is never lost: what is stored after an attempt extends what was stored before. *)
Theorem C167_progress samples b l1 l2 fl0 : 1 <= b ->
  Forall (fun a => length (fst a) = length samples) (l1 ++ l2) ->
  start_cache Seq_dec true false fl0 samples = [] ->
  exists t, stored (start_cache Seq_dec true false (attempts samples b (l1 ++ l2) fl0) samples) =
            stored (start_cache Seq_dec true false (attempts samples b l1 fl0) samples) ++ t.
Proof.
  intros Hb HA H0. unfold attempts. rewrite fold_left_app. apply Forall_app in HA. destruct HA as [H1 H2].
  assert (G : sound samples b (attempts samples b l1 fl0)).
  { unfold attempts. pose proof (sound_fresh samples b fl0 H0) as S0. clear H0 H2.
    revert fl0 S0. induction H1 as [|a l Ha HA IH]; intros fl0 S0; cbn [fold_left]; [exact S0|]. apply IH. apply sound_killed; assumption. }
  unfold attempts in G. revert G. generalize (fold_left (fun fl a => killed Seq_dec draw true false samples (fst a) b (snd a) fl) l1 fl0).
  clear - H2 Hb. induction H2 as [|a l Ha HA IH]; intros fl G; cbn [fold_left]; [exists []; rewrite app_nil_r; reflexivity|].
  destruct (sound_killed samples b (fst a) (snd a) fl Hb Ha G) as [G' (t & T)].
  destruct (IH _ G') as (t' & T'). exists (t ++ t'). rewrite T', T, app_assoc. reflexivity.
Qed.

End Restart_props.

(** A completed cache is used as it stands, whatever likelihood is passed; with caching off or a clean
    start it is not looked at. *)
Theorem C167_completed {S V} (Seq_dec : forall a b : S, {a = b} + {a <> b}) (d1 d2 : S -> nat -> V) samples b s1 s2 fl0 :
  1 <= b -> samples <> [] -> length s1 = length samples -> length s2 = length samples ->
  start_cache Seq_dec true false fl0 samples = [] ->
  let fl := file_after Seq_dec d1 true false samples s1 b fl0 in
  reconstruct Seq_dec d1 true false samples s1 b fl0 = Done (map (fill d1) (fill_args samples s1)) /\
  reconstruct Seq_dec d2 true false samples s2 b fl = Done (map (fill d1) (fill_args samples s1)) /\
  reconstruct Seq_dec d2 true true samples s2 b fl = Done (map (fill d2) (fill_args samples s2)) /\
  reconstruct Seq_dec d2 false false samples s2 b fl = Done (map (fill d2) (fill_args samples s2)).
Proof.
  intros Hb Hs H1 H2 H0 fl.
  assert (N : forall s, length s = length samples -> fill_args samples s <> []).
  { intros s Hl Q. apply Hs. apply length_zero_iff_nil. rewrite <- (args_len samples s Hl), Q. reflexivity. }
  assert (W : forall d s, length s = length samples -> whole (fill (V := V) d) (fill_args samples s) b [] = Done (map (fill d) (fill_args samples s))).
  { intros d s Hl. apply (C167_blocks (fill d) (fill_args samples s) b); [apply N; exact Hl|exact Hb]. }
  split; [|split; [|split]].
  - unfold reconstruct. rewrite H0. apply W, H1.
  - assert (exists c, fl = Pickled samples c /\ front b (length samples) (length c) c /\ stored c = map (fill d1) (fill_args samples s1)) as (c & E & F & St).
    { unfold fl, file_after, killed. cbv zeta. cbv iota. rewrite H0.
      destruct (passes_free (fill d1) (fill_args samples s1) b Hb (Datatypes.S (length samples)) 0 []) as (L & P & St & NE).
      { rewrite (args_len samples s1 H1). lia. } { intros e []. }
      rewrite P. cbn [snd app]. cbn [skipn] in St.
      assert (L <> []). { apply NE. specialize (N s1 H1). destruct (fill_args samples s1); [congruence|cbn; lia]. }
      replace (length L =? length (@nil (nat * list V))) with false by (symmetry; apply Nat.eqb_neq; destruct L; [congruence|cbn; lia]).
      exists L. split; [reflexivity|]. split; [|exact St].
      assert (F0 : front b (length (fill_args samples s1)) 0 (@nil (nat * list V))).
      { split; [reflexivity|]. split; [reflexivity|]. left. reflexivity. }
      destruct (passes_front (fill d1) (fill_args samples s1) b Hb (Datatypes.S (length samples)) 0 0 [] F0 ltac:(lia)) as (L' & m' & E' & F' & _).
      cbn [Nat.mul] in E'. rewrite P in E'. cbn [snd app] in E', F'. rewrite <- E' in F'. rewrite (args_len samples s1 H1) in F'.
      assert (length L = m'). { destruct F' as (K & _). apply (f_equal (@length nat)) in K. rewrite !map_length, seq_length in K. exact K. }
      subst m'. exact F'. }
    rewrite E. unfold reconstruct. rewrite start_pickled. rewrite <- (args_len samples s2 H2) in F.
    rewrite (whole_front (fill d2) _ b _ c Hb (N s2 H2) F). rewrite skipn_all2.
    + rewrite app_nil_r, St. reflexivity.
    + rewrite map_length, (args_len samples s2 H2), St, map_length, (args_len samples s1 H1). lia.
  - unfold reconstruct, start_cache. cbn [andb negb]. apply W, H2.
  - unfold reconstruct, start_cache. cbn [andb negb]. apply W, H2.
Qed.

(** *** Restarting with another block size *)

Lemma passes_other {A V} (f : A -> V) args b M : 1 <= b -> M <= length args -> forall k ii c, length args - ii <= k ->
  (forall e, In e (map fst c) -> e < M \/ e < ii) ->
  exists L, passes k f args b ii c = (true, c ++ L) /\ length args <= length (stored L) + Nat.max ii (M + b - 1) /\
    (length args < length (stored L) + M \/ exists p, M <= p /\ stored L = skipn p (map f args)).
Proof.
  intros Hb HM. induction k as [|k IH]; intros ii c Hk Hc.
  - exists []. cbn [passes]. rewrite app_nil_r. split; [f_equal; apply Nat.leb_le; lia|]. cbn [stored map concat length]. split; [lia|].
    right. exists (length args). split; [exact HM|]. rewrite skipn_all2; [reflexivity|rewrite map_length; lia].
  - destruct (Nat.le_gt_cases M ii) as [H|H].
    + destruct (passes_free f args b Hb (S k) ii c Hk) as (L & E & St & _); [intros e He; apply Hc in He; lia|].
      exists L. split; [exact E|]. rewrite St, skipn_length, map_length. split; [lia|]. right. exists ii. auto.
    + cbn [passes]. replace (ii <? length args) with true by (symmetry; apply Nat.ltb_lt; lia).
      unfold pass at 1. destruct (cached c ii) eqn:Ec.
      * destruct (IH (ii + b) c ltac:(lia)) as (L & E & B & O); [intros e He; apply Hc in He; lia|].
        exists L. split; [exact E|]. split; [lia|exact O].
      * destruct (IH (ii + b) (c ++ [(ii, map f (block_of args ii b))]) ltac:(lia)) as (L & E & B & _).
        { intros e He. rewrite map_app in He. apply in_app_or in He. destruct He as [He|[<-|[]]]; [apply Hc in He|cbn [fst]]; lia. }
        exists ((ii, map f (block_of args ii b)) :: L). rewrite E, <- app_assoc. split; [reflexivity|].
        change (stored ((ii, map f (block_of args ii b)) :: L)) with (map f (block_of args ii b) ++ stored L).
        assert (Ln : length (map f (block_of args ii b)) = Nat.min b (length args - ii)) by (unfold block_of; rewrite map_length, firstn_length, skipn_length; reflexivity).
        rewrite app_length, Ln. split; [lia|]. left. lia.
Qed.

Lemma whole_other {A V} (f : A -> V) args b b2 m c : 1 <= b -> 1 <= b2 -> args <> [] -> front b (length args) m c ->
  whole f args b2 c = ValueError \/ whole f args b2 c = Done (stored c ++ skipn (length (stored c)) (map f args)).
Proof.
  intros Hb Hb2 Ha F. pose proof F as (K & Lc & Hm). unfold whole.
  assert (Hk : forall e, In e (map fst c) -> e < length (stored c)).
  { intros e He. pose proof (front_lt b _ m c e Hb F He) as G. rewrite Lc.
    rewrite K in He. apply in_map_iff in He. destruct He as (i & <- & Hi). apply in_seq in Hi. destruct Hm as [->|Hm]; [lia|]. nia. }
  destruct (passes_other f args b2 (length (stored c)) Hb2 ltac:(lia) (S (length args)) 0 c ltac:(lia)) as (L & E & _ & O).
  { intros e He. left. apply Hk, He. }
  rewrite E. unfold column_of. destruct (length (c ++ L) =? 0); [left; reflexivity|]. fold (stored (c ++ L)). rewrite stored_app.
  destruct (Nat.eqb_spec (length (stored c ++ stored L)) (length args)) as [Q|Q]; [|left; reflexivity]. right. f_equal.
  rewrite app_length in Q. destruct O as [O|(p & Hp & O)]; [lia|]. f_equal. rewrite O in *.
  rewrite skipn_length, map_length in Q. destruct (Nat.eq_dec p (length (stored c))) as [->|Np]; [reflexivity|].
  rewrite !skipn_all2; [reflexivity|rewrite map_length; lia|rewrite map_length; lia].
Qed.

(** Restarting with another block size after any number of attempts with one size either raises or gives
    every row its own value. *)
Theorem C167_other_block {S V} (Seq_dec : forall a b : S, {a = b} + {a <> b}) (draw : S -> nat -> V) samples b b2 l seeds fl0 :
  1 <= b -> 1 <= b2 -> samples <> [] -> length seeds = length samples ->
  Forall (fun a => length (fst a) = length samples) l ->
  start_cache Seq_dec true false fl0 samples = [] ->
  let fl := attempts Seq_dec draw samples b l fl0 in
  let kept := stored (start_cache Seq_dec true false fl samples) in
  reconstruct Seq_dec draw true false samples seeds b2 fl = ValueError \/
  exists v, reconstruct Seq_dec draw true false samples seeds b2 fl = Done v /\ length v = length samples /\ own draw samples v /\
    firstn (length kept) v = kept /\ skipn (length kept) v = skipn (length kept) (map (fill draw) (fill_args samples seeds)).
Proof.
  intros Hb Hb2 Hs HL HA H0 fl kept.
  destruct (C167_restart Seq_dec draw samples b l seeds fl0 Hb Hs HL HA H0) as (v & E & R). fold fl in E, R. fold kept in R.
  assert (SO : sound Seq_dec draw samples b fl).
  { unfold fl, attempts. clear kept fl E R. pose proof (sound_fresh Seq_dec draw samples b fl0 H0) as S0. clear H0.
    revert fl0 S0. induction HA as [|a l Ha HA IH]; intros fl0 S0; cbn [fold_left]; [exact S0|].
    apply IH. apply sound_killed; assumption. }
  destruct SO as (m & F & _). rewrite <- (args_len samples seeds HL) in F.
  assert (Ha : fill_args samples seeds <> []). { intros Q. apply Hs. apply length_zero_iff_nil. rewrite <- (args_len samples seeds HL), Q. reflexivity. }
  unfold reconstruct in *. rewrite (whole_front (fill draw) _ b m _ Hb Ha F) in E.
  destruct (whole_other (fill draw) _ b b2 m _ Hb Hb2 Ha F) as [W|W]; [left; exact W|].
  right. exists v. rewrite W. split; [exact E|exact R].
Qed.

(** Two changes of block size are not safe.  Six rows: an attempt with blocks of two is killed after one
    block, a call with blocks of four computes the last two rows and raises, a call with blocks of two
    then returns -- with the values of the third to sixth rows exchanged. *)
Theorem C167_switch_back_refuted :
  let draw := fun r s : nat => (r, s) in
  let samples := [10; 11; 12; 13; 14; 15] in
  let seeds := [0; 1; 2; 3; 4; 5] in
  let fl1 := killed Nat.eq_dec draw true false samples seeds 2 1 NoFile in
  let fl2 := file_after Nat.eq_dec draw true false samples seeds 4 fl1 in
  reconstruct Nat.eq_dec draw true false samples seeds 4 fl1 = ValueError /\
  exists v, reconstruct Nat.eq_dec draw true false samples seeds 2 fl2 = Done v /\
    map fst v = [10; 11; 14; 15; 12; 13] /\ ~ own draw samples v.
Proof.
  cbv zeta. split; [vm_compute; reflexivity|]. eexists. split; [vm_compute; reflexivity|]. split; [reflexivity|].
  intros H. destruct (H 2 (14, 4) eq_refl) as (r & s & E & G). injection E as <-. discriminate G.
Qed.

(** Seven rows in blocks of three, killed after one block and again after two; then finished. *)
Theorem C167_example :
  let draw := fun r s : nat => (r, s) in
  let samples := [10; 11; 12; 13; 14; 15; 16] in
  let fl := attempts Nat.eq_dec draw samples 3 [(repeat 1 7, 1); (repeat 2 7, 2)] (Pickled [9] [(0, [(9, 0)])]) in
  reconstruct Nat.eq_dec draw true false samples (repeat 3 7) 3 fl =
    Done [(10, 1); (11, 1); (12, 1); (13, 2); (14, 2); (15, 2); (16, 3)] /\
  reconstruct Nat.eq_dec draw true false samples (repeat 3 7) 7 fl = ValueError /\
  reconstruct Nat.eq_dec draw true false samples (repeat 3 7) 6 fl =
    Done [(10, 1); (11, 1); (12, 1); (13, 2); (14, 2); (15, 2); (16, 3)] /\
  reconstruct Nat.eq_dec draw true false samples (repeat 3 7) 2 fl = ValueError.
Proof. vm_compute. repeat split; reflexivity. Qed.

(** *** C168: columns computed row by row *)

(** Lists and arrays are attached by position: each row gets the value computed from it, whatever the
    labels. *)
Theorem C168_snrs {S V} (snr : S -> V) (d : frame S) : length (labels d) = length (rows d) -> rows d <> [] ->
  snr_column snr d = Done (map (fun r => Some (snr r)) (rows d)).
Proof.
  intros H N. unfold snr_column, by_position. destruct (rows d) as [|r t] eqn:E; [congruence|]. rewrite <- E, map_length, H, E, Nat.eqb_refl.
  rewrite map_map. reflexivity.
Qed.

(** The sky-frame parameters are attached by label: right exactly when every row's label points at a row
    with the same value; in particular when the labels are 0 .. n-1. *)
Theorem C168_sky {S V} (sky : S -> V) (d : frame S) : length (labels d) = length (rows d) ->
  (sky_column sky d = Done (map (fun r => Some (sky r)) (rows d)) <->
   forall i l r, nth_error (labels d) i = Some l -> nth_error (rows d) i = Some r ->
     exists r', nth_error (rows d) l = Some r' /\ sky r' = sky r).
Proof.
  intros H. unfold sky_column, by_label. split.
  - intros E i l r El Er. assert (Q : map (fun l => nth_error (map sky (rows d)) l) (labels d) = map (fun r => Some (sky r)) (rows d)) by congruence.
    apply (f_equal (fun x => nth_error x i)) in Q. rewrite !nth_error_map, El, Er in Q. cbn in Q. injection Q as Q.
    rewrite nth_error_map in Q. destruct (nth_error (rows d) l) as [r'|]; [|discriminate]. injection Q as Q. exists r'. auto.
  - intros G. f_equal. apply list_ext. intros i. rewrite !nth_error_map.
    destruct (nth_error (labels d) i) as [l|] eqn:El; destruct (nth_error (rows d) i) as [r|] eqn:Er; cbn.
    + destruct (G i l r El Er) as (r' & E & Q). rewrite nth_error_map, E. cbn. rewrite Q. reflexivity.
    + apply nth_error_None in Er. assert (i < length (labels d)) by (apply nth_error_Some; congruence). lia.
    + apply nth_error_None in El. assert (i < length (rows d)) by (apply nth_error_Some; congruence). lia.
    + reflexivity.
Qed.

Theorem C168_sky_range {S V} (sky : S -> V) (d : frame S) : labels d = seq 0 (length (rows d)) ->
  sky_column sky d = Done (map (fun r => Some (sky r)) (rows d)).
Proof.
  intros H. apply C168_sky; [rewrite H; apply seq_length|]. intros i l r El Er. exists r. split; [|reflexivity].
  rewrite H in El. assert (i < length (rows d)) by (apply nth_error_Some; congruence).
  rewrite (nth_error_nth' _ 0) in El by (rewrite seq_length; lia). rewrite seq_nth in El by lia. injection El as <-. exact Er.
Qed.

(** Rows with different values must have the labels 0 .. n-1 in order. *)
Theorem C168_sky_only_range {S V} (sky : S -> V) (d : frame S) : length (labels d) = length (rows d) ->
  NoDup (map sky (rows d)) ->
  sky_column sky d = Done (map (fun r => Some (sky r)) (rows d)) -> labels d = seq 0 (length (rows d)).
Proof.
  intros H ND E. rewrite (C168_sky sky d H) in E. apply list_ext. intros i.
  destruct (nth_error (labels d) i) as [l|] eqn:El.
  - assert (Hi : i < length (labels d)) by (apply nth_error_Some; congruence). rewrite H in Hi.
    destruct (nth_error (rows d) i) as [r|] eqn:Er; [|apply nth_error_None in Er; lia].
    destruct (E i l r El Er) as (r' & Er' & Q).
    assert (l = i). { apply (NoDup_nth_error (map sky (rows d))); [exact ND|rewrite map_length; apply nth_error_Some; congruence|].
      rewrite !nth_error_map, Er, Er'. cbn. rewrite Q. reflexivity. }
    subst l. rewrite (nth_error_nth' _ 0) by (rewrite seq_length; lia). rewrite seq_nth by lia. reflexivity.
  - apply nth_error_None in El. symmetry. apply nth_error_None. rewrite seq_length. lia.
Qed.

(** A posterior that was filtered or reordered keeps its labels; the sky-frame parameters of a two-row
    table labelled 1, 0 are exchanged, those of a table labelled 5, 9 are missing.  The SNRs are right. *)
Theorem C168_sky_refuted :
  let d := mkFrame [1; 0] [20; 21] in let e := mkFrame [5; 9] [20; 21] in
  sky_column (fun x => x) d = Done [Some 21; Some 20] /\ sky_column (fun x => x) e = Done [None; None] /\
  snr_column (fun x => x) d = Done [Some 20; Some 21] /\ snr_column (fun x => x) e = Done [Some 20; Some 21].
Proof. vm_compute. repeat split; reflexivity. Qed.

(** Rows are evaluated one after the other on the same parameters.  If the rows have the same keys and an
    evaluation leaves the parameters unchanged, every row's result is the one it would have alone. *)
Lemma update_get {V} (p row : dict V) k : wf row -> dget (update p row) k = match dget row k with Some v => Some v | None => dget p k end.
Proof.
  unfold update. intros W. revert p. induction row as [|[a v] t IH]; intros p; [reflexivity|]. cbn [fold_left fst snd].
  inversion W as [|x y N W2]; subst. rewrite IH by exact W2. cbn [dget]. destruct (String.eqb_spec k a) as [->|Nk].
  - rewrite (proj2 (dget_none t a) N). apply dget_set_eq.
  - destruct (dget t k); [reflexivity|apply dget_set_ne; exact Nk].
Qed.

Theorem C168_rows_alone {V R} (ev : dict V -> R * dict V) keys : 
  (forall p q, (forall k, dget p k = dget q k) -> fst (ev p) = fst (ev q)) ->
  (forall p k, ~ In k keys -> dget (snd (ev p)) k = dget p k) ->
  forall p l, Forall (fun r => wf r /\ forall k, In k (dkeys r) <-> In k keys) l ->
  evaluate ev p l = map (fun r => fst (ev (update p r))) l.
Proof.
  intros Hx Hs p l HF.
  assert (G : forall q, (forall k, ~ In k keys -> dget q k = dget p k) -> evaluate ev q l = map (fun r => fst (ev (update p r))) l); [|apply G; auto].
  induction HF as [|r t [W HK] HF IH]; intros q Hq; [reflexivity|]. cbn [evaluate map].
  assert (E : forall k, dget (update q r) k = dget (update p r) k).
  { intros k. rewrite !update_get by exact W. destruct (dget r k) eqn:Ek; [reflexivity|]. apply Hq. rewrite <- HK. apply dget_none, Ek. }
  specialize (Hx _ _ E). destruct (ev (update q r)) as [x p'] eqn:Ev. cbn [fst] in Hx. rewrite <- Hx. f_equal. apply IH.
  intros k Nk. specialize (Hs (update q r) k Nk). rewrite Ev in Hs. cbn [snd] in Hs. rewrite Hs, E, update_get by exact W.
  replace (dget r k) with (@None V); [reflexivity|]. symmetry. apply dget_none. rewrite HK. exact Nk.
Qed.

(** Rows with different keys do see what earlier rows left. *)
Theorem C168_rows_alone_refuted :
  let ev := fun p : dict nat => (dget p "phase"%string, p) in
  evaluate ev [] [[("phase"%string, 1)]; [("mass"%string, 2)]] = [Some 1; Some 1] /\
  map (fun r => fst (ev (update [] r))) [[("phase"%string, 1)]; [("mass"%string, 2)]] = [Some 1; None].
Proof. vm_compute. split; reflexivity. Qed.

Theorem C168_example :
  let d := mkFrame [0; 1; 2] [7; 8; 9] in
  sky_column (fun x => x * x) d = Done [Some 49; Some 64; Some 81] /\
  by_position d [1; 2] = ValueError /\ by_label d [1; 2] = Done [Some 1; Some 2; None].
Proof. vm_compute. repeat split; reflexivity. Qed.

(** ** Assumptions of every theorem above *)
Definition GwRecon_Props_all :=
  (@C167_blocks,
   @C167_restart,
   @C167_progress,
   @C167_completed,
   @C167_other_block,
   @C167_switch_back_refuted,
   @C167_example,
   @C168_snrs,
   @C168_sky,
   @C168_sky_range,
   @C168_sky_only_range,
   @C168_sky_refuted,
   @C168_rows_alone,
   @C168_rows_alone_refuted,
   @C168_example).
Print Assumptions GwRecon_Props_all.
