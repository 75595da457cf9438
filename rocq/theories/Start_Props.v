(** C227: sampling sets refused before a run, and starting points given by the user. *)
From Coq Require Import String List Bool Arith Lia Permutation.
From Verif Require Import PyDict GwPrior_Model Start_Model.
Import ListNotations.
Open Scope string_scope.
Open Scope list_scope.

(** how many members of a group are sampled *)
Definition sampled_in (g : list string) (d : kinds) : nat := length (filter (fun e => is_in (fst e) g && match snd e with Sampled => true | _ => false end) d).

Lemma is_in_iff k l : is_in k l = true <-> In k l.
Proof.
  unfold is_in. rewrite existsb_exists. split.
  - intros (x & Hx & E). apply String.eqb_eq in E. subst. exact Hx.
  - intros H. exists k. split; [exact H|apply String.eqb_refl].
Qed.
Lemma nodup_filter {A} (p : A -> bool) l : NoDup l -> NoDup (filter p l).
Proof. induction 1; cbn [filter]; [constructor|]. destruct (p x); [constructor; [intros I; apply filter_In in I; tauto|assumption]|assumption]. Qed.
Lemma nodup_map_filter (p : string * kind -> bool) (d : kinds) : NoDup (map fst d) -> NoDup (map fst (filter p d)).
Proof.
  induction d as [|e d IH]; cbn [map filter]; intros N; [constructor|]. inversion N; subst. destruct (p e); [|apply IH; assumption].
  cbn [map]. constructor; [|apply IH; assumption]. intros I. apply in_map_iff in I. destruct I as (x & E & I). apply filter_In in I. apply H1. rewrite <- E. apply in_map. tauto.
Qed.
Lemma overlap_sampled g d : NoDup g -> NoDup (map fst d) -> overlap g d = sampled_in g d.
Proof.
  intros G D. unfold overlap, sampled_in. rewrite <- (map_length fst (filter _ d)). apply Permutation_length. apply NoDup_Permutation.
  - apply nodup_filter, G.
  - apply nodup_map_filter, D.
  - intros k. rewrite filter_In, is_in_iff, in_map_iff. unfold sampling_parameters. rewrite in_map_iff. split.
    + intros (I & (e & <- & J)). apply filter_In in J. exists e. split; [reflexivity|]. apply filter_In. split; [tauto|]. apply andb_true_iff. split; [apply is_in_iff, I|tauto].
    + intros (e & <- & J). apply filter_In in J. destruct J as [J Q]. apply andb_true_iff in Q. destruct Q as [Q1 Q2]. split; [apply is_in_iff, Q1|]. exists e. split; [reflexivity|]. apply filter_In. split; assumption.
Qed.
(** taking a key away *)
Lemma filter_other (p : string * kind -> bool) (d : kinds) k kd : NoDup (map fst d) -> In (k, kd) d ->
  length (filter p d) = length (filter p (filter (fun o => negb (String.eqb (fst o) k)) d)) + (if p (k, kd) then 1 else 0).
Proof.
  induction d as [|[a b] d IH]; intros N I; [contradiction|]. cbn [map fst] in N. inversion N as [|? ? Na Nd]; subst. destruct I as [E|I].
  - injection E as -> ->. cbn [filter fst]. rewrite String.eqb_refl. cbn [negb].
    assert (F : filter (fun o => negb (String.eqb (fst o) k)) d = d).
    { clear - Na. induction d as [|[x y] d IH]; [reflexivity|]. cbn [filter fst map In] in *. destruct (String.eqb_spec x k) as [->|]; [tauto|]. cbn [negb]. rewrite IH by tauto. reflexivity. }
    rewrite F. destruct (p (k, kd)); cbn [length]; lia.
  - cbn [filter fst]. destruct (String.eqb_spec a k) as [->|Ne]; [exfalso; apply Na; apply (in_map fst) in I; exact I|]. cbn [negb filter]. specialize (IH Nd I). destruct (p (a, b)); cbn [length]; lia.
Qed.
Lemma gone (d : kinds) k : is_in k (map fst (filter (fun o => negb (String.eqb (fst o) k)) d)) = false.
Proof.
  destruct (is_in _ _) eqn:E; [|reflexivity]. apply is_in_iff, in_map_iff in E. destruct E as (e & <- & I). apply filter_In in I. destruct I as [_ I]. rewrite String.eqb_refl in I. discriminate.
Qed.
Lemma groups_nodup n g : In (n, g) (groups ++ [(2, tidal_parameters)]) -> NoDup g.
Proof. intros I. cbn in I. repeat (destruct I as [I|I]; [injection I as <- <-; repeat constructor; cbn; intuition discriminate|]). contradiction. Qed.
Lemma bns_groups d k : is_in k (map fst d) = false ->
  bns_test_redundancy d k = existsb (fun ng => is_in k (snd ng) && Nat.leb (fst ng) (overlap (snd ng) d)) (groups ++ [(2, tidal_parameters)]).
Proof.
  intros E. unfold bns_test_redundancy, bbh_test_redundancy. rewrite E, existsb_app. destruct (existsb _ groups); [reflexivity|]. cbn [existsb orb fst snd]. rewrite orb_false_r.
  destruct (is_in k tidal_parameters); [|reflexivity]. cbn [andb]. destruct (Nat.ltb_spec 2 (overlap tidal_parameters d)); destruct (Nat.leb_spec 2 (overlap tidal_parameters d)); try lia; try reflexivity; destruct (Nat.eqb_spec (overlap tidal_parameters d) 2); try lia; reflexivity.
Qed.
Lemma redundant_groups (gs : list (nat * list string)) (test : kinds -> string -> bool) d :
  (forall n g, In (n, g) gs -> NoDup g) ->
  (forall d k, is_in k (map fst d) = false -> test d k = existsb (fun ng => is_in k (snd ng) && Nat.leb (fst ng) (overlap (snd ng) d)) gs) ->
  NoDup (map fst d) ->
  (has_redundant test d = true <-> exists n g, In (n, g) gs /\ (n < sampled_in g d \/ (n = sampled_in g d /\ exists k, In k g /\ In (k, Fixed) d) \/ (n < sampled_in g d /\ exists k, In k g /\ In (k, Fixed) d)) /\ (exists k kd, In k g /\ In (k, kd) d /\ kd <> Constrained)).
Proof.
  intros G T D. unfold has_redundant. rewrite existsb_exists. split.
  - intros ([k kd] & I & H). cbn [fst snd] in H. assert (C : kd <> Constrained) by (intros ->; discriminate).
    assert (H' : test (filter (fun o => negb (String.eqb (fst o) k)) d) k = true) by (destruct kd; [exact H|exact H|congruence]). clear H.
    rewrite T in H' by apply gone. apply existsb_exists in H'. destruct H' as ([n g] & J & Q). apply andb_true_iff in Q. cbn [fst snd] in Q. destruct Q as [Q1 Q2].
    apply is_in_iff in Q1. apply Nat.leb_le in Q2. rewrite overlap_sampled in Q2 by (try apply (G n), J; apply nodup_map_filter, D). unfold sampled_in in Q2.
    pose proof (filter_other (fun e => is_in (fst e) g && match snd e with Sampled => true | _ => false end) d k kd D I) as F. cbn [fst snd] in F. apply is_in_iff in Q1. rewrite Q1 in F. apply is_in_iff in Q1.
    exists n, g. split; [exact J|]. split; [|exists k, kd; repeat split; assumption]. fold (sampled_in g d) in F. destruct kd; [left; cbn [andb] in F; lia| |congruence].
    cbn [andb] in F. destruct (Nat.eq_dec n (sampled_in g d)) as [E|E]; [right; left; split; [exact E|exists k; split; assumption]|left; lia].
  - intros (n & g & J & H & _). assert (K : n < sampled_in g d \/ (n <= sampled_in g d /\ exists k, In k g /\ In (k, Fixed) d)).
    { destruct H as [H|[[H H']|[H H']]]; [left; exact H|right; split; [lia|exact H']|left; exact H]. } clear H.
    assert (S : forall k kd, In k g -> In (k, kd) d -> kd <> Constrained -> n + (match kd with Sampled => 1 | _ => 0 end) <= sampled_in g d ->
      exists x, In x d /\ match snd x with Constrained => false | _ => test (filter (fun o => negb (String.eqb (fst o) (fst x))) d) (fst x) end = true).
    { intros k kd I1 I2 C L. exists (k, kd). split; [exact I2|]. cbn [fst snd].
      assert (X : test (filter (fun o => negb (String.eqb (fst o) k)) d) k = true).
      { rewrite T by apply gone. apply existsb_exists. exists (n, g). split; [exact J|]. cbn [fst snd]. apply andb_true_iff. split; [apply is_in_iff, I1|]. apply Nat.leb_le.
        rewrite overlap_sampled by (try apply (G n), J; apply nodup_map_filter, D). unfold sampled_in.
        pose proof (filter_other (fun e => is_in (fst e) g && match snd e with Sampled => true | _ => false end) d k kd D I2) as F. cbn [fst snd] in F.
        apply is_in_iff in I1. rewrite I1 in F. fold (sampled_in g d) in F. destruct kd; cbn [andb] in F; lia. }
      destruct kd; [exact X|exact X|congruence]. }
    destruct K as [K|[K (k & I1 & I2)]].
    + assert (Q : exists e, In e (filter (fun e => is_in (fst e) g && match snd e with Sampled => true | _ => false end) d)).
      { unfold sampled_in in K. destruct (filter _ d) as [|e l]; [cbn in K; lia|exists e; left; reflexivity]. }
      destruct Q as ([k kd] & I). apply filter_In in I. cbn [fst snd] in I. destruct I as [I Q]. apply andb_true_iff in Q. destruct Q as [Q1 Q2]. destruct kd; try discriminate.
      apply (S k Sampled); [apply is_in_iff, Q1|exact I|discriminate|cbn; lia].
    + apply (S k Fixed); [exact I1|exact I2|discriminate|cbn; lia].
Qed.
Lemma tidy n g d : (n < sampled_in g d \/ (n = sampled_in g d /\ exists k, In k g /\ In (k, Fixed) d) \/ (n < sampled_in g d /\ exists k, In k g /\ In (k, Fixed) d)) /\ (exists k kd, In k g /\ In (k, kd) d /\ kd <> Constrained) <->
  n < sampled_in g d \/ (n = sampled_in g d /\ exists k, In k g /\ In (k, Fixed) d).
Proof.
  split; [intuition|]. intros H. split; [tauto|]. destruct H as [H|[_ (k & A & B)]]; [|exists k, Fixed; repeat split; [exact A|exact B|discriminate]].
  assert (Q : exists e, In e (filter (fun e => is_in (fst e) g && match snd e with Sampled => true | _ => false end) d)).
  { unfold sampled_in in H. destruct (filter _ d) as [|e l]; [cbn in H; lia|exists e; left; reflexivity]. }
  destruct Q as ([k kd] & I). apply filter_In in I. cbn [fst snd] in I. destruct I as [I Q]. apply andb_true_iff in Q. destruct Q as [Q1 Q2]. exists k, kd. split; [apply is_in_iff, Q1|]. split; [exact I|]. destruct kd; discriminate.
Qed.

(** ** C227 A run is refused exactly if a group has more sampled members than degrees of freedom, or as many and a fixed one besides *)
Theorem C227_redundant d : NoDup (map fst d) ->
  (has_redundant bbh_test_redundancy d = true <-> exists n g, In (n, g) groups /\ (n < sampled_in g d \/ (n = sampled_in g d /\ exists k, In k g /\ In (k, Fixed) d))) /\
  (has_redundant bns_test_redundancy d = true <-> exists n g, In (n, g) (groups ++ [(2, tidal_parameters)]) /\ (n < sampled_in g d \/ (n = sampled_in g d /\ exists k, In k g /\ In (k, Fixed) d))).
Proof.
  intros D. split.
  - rewrite (redundant_groups groups bbh_test_redundancy d); [|intros n g I; apply (groups_nodup n), in_or_app; left; exact I|intros d0 k E; unfold bbh_test_redundancy; rewrite E; reflexivity|exact D].
    split; intros (n & g & I & H); exists n, g; (split; [exact I|]); apply tidy; exact H.
  - rewrite (redundant_groups (groups ++ [(2, tidal_parameters)]) bns_test_redundancy d); [|apply groups_nodup|apply bns_groups|exact D].
    split; intros (n & g & I & H); exists n, g; (split; [exact I|]); apply tidy; exact H.
Qed.
(** The run starts exactly if the set is not refused and the likelihood can be evaluated at one draw, whatever its value *)
Theorem C227_verified {X} redundant (l : res X) :
  (verify_parameters redundant l = Ok tt <-> redundant = false /\ exists v, l = Ok v) /\
  (verify_parameters redundant l = Raise IllegalSamplingSetError <-> redundant = true \/ l = Raise IllegalSamplingSetError).
Proof. unfold verify_parameters. destruct redundant, l as [v|e]; split; split; intros H; try discriminate; try tauto; try (destruct H as [H|H]; discriminate); try (destruct H as [_ [v0 H]]; discriminate); try (destruct H; discriminate); [split; [reflexivity|eexists; reflexivity]|right; injection H as ->; reflexivity|destruct H as [H|H]; [discriminate|injection H as ->; reflexivity]]. Qed.
(** Fixed parameters alone are never found redundant, though they may contradict each other or the sampled one *)
Theorem C227_fixed_refuted : exists d, NoDup (map fst d) /\ In ("mass_1", Sampled) d /\ In ("mass_2", Fixed) d /\ In ("chirp_mass", Fixed) d /\ In ("total_mass", Fixed) d /\
  has_redundant bbh_test_redundancy d = false /\ has_redundant bns_test_redundancy d = false.
Proof. exists [("mass_1", Sampled); ("mass_2", Fixed); ("chirp_mass", Fixed); ("total_mass", Fixed)]. cbn [map fst In]. repeat split; try tauto. repeat constructor; cbn; intuition discriminate. Qed.
Example C227_redundant_example :
  has_redundant bbh_test_redundancy [("chirp_mass", Sampled); ("mass_ratio", Sampled); ("mass_1", Constrained); ("luminosity_distance", Sampled)] = false /\
  has_redundant bbh_test_redundancy [("chirp_mass", Sampled); ("mass_ratio", Sampled); ("mass_1", Fixed)] = true /\
  has_redundant bbh_test_redundancy [("lambda_1", Sampled); ("lambda_2", Sampled); ("lambda_tilde", Sampled)] = false /\
  has_redundant bns_test_redundancy [("lambda_1", Sampled); ("lambda_2", Sampled); ("lambda_tilde", Sampled)] = true.
Proof. repeat split; reflexivity. Qed.

Section Points.
Variable V : Type.
Variable zero : V.
Variable good : list V -> bool.
Lemma same_iff a b : same_shape a b = true <-> a = b.
Proof. unfold same_shape. destruct (list_eq_dec _ a b); split; congruence. Qed.
Lemma split_spec n w : forall l : list V, length l = n * w -> length (split n w l) = n /\ forall i, i < n -> length (nth i (split n w l) []) = w /\ forall j, j < w -> nth j (nth i (split n w l) []) zero = nth (i * w + j) l zero.
Proof.
  induction n as [|n IH]; intros l L; [split; [reflexivity|intros; lia]|]. cbn [Nat.mul] in L. cbn [split length].
  assert (L' : length (skipn w l) = n * w) by (rewrite skipn_length; lia). destruct (IH _ L') as [A B]. split; [lia|]. intros [|i] I.
  - cbn [nth Nat.mul Nat.add]. split; [rewrite firstn_length; lia|]. intros j J. rewrite <- (firstn_skipn w l) at 2. rewrite app_nth1 by (rewrite firstn_length; lia). reflexivity.
  - cbn [nth]. destruct (B i) as [B1 B2]; [lia|]. split; [exact B1|]. intros j J. rewrite B2 by exact J. rewrite <- (firstn_skipn w l) at 2. rewrite app_nth2 by (rewrite firstn_length; lia). f_equal. rewrite firstn_length. cbn [Nat.mul]. lia.
Qed.
(** ** C227 emcee, zeus and kombine: an array of one row per walker is used as it is; points with zero prior or likelihood are reported but kept *)
Theorem C227_array nwalkers keys draws (a : array V) : 2 <= nwalkers -> 2 <= length keys -> length (elements a) = fold_right Nat.mul 1 (shape a) ->
  (filter (fun n => negb (Nat.eqb n 1)) (shape a) = [nwalkers; length keys] ->
     exists rows warned, set_pos0 zero good nwalkers keys draws (Some (Given a)) = Ok (rows, warned) /\ length rows = nwalkers /\
       (forall i, i < nwalkers -> length (nth i rows []) = length keys /\ forall j, j < length keys -> nth j (nth i rows []) zero = nth (i * length keys + j) (elements a) zero) /\
       (forall r, In r warned <-> In r rows /\ good r = false)) /\
  (filter (fun n => negb (Nat.eqb n 1)) (shape a) <> [nwalkers; length keys] -> set_pos0 zero good nwalkers keys draws (Some (Given a)) = Raise ValueError).
Proof.
  intros N K L. unfold set_pos0, squeeze. cbn [shape elements]. split; intros H.
  - apply same_iff in H. rewrite H. apply same_iff in H.
    assert (P : forall s, fold_right Nat.mul 1 s = fold_right Nat.mul 1 (filter (fun n => negb (Nat.eqb n 1)) s)).
    { induction s as [|x s IH]; [reflexivity|]. cbn [fold_right filter]. destruct (Nat.eqb_spec x 1) as [->|]; cbn [negb fold_right]; rewrite IH; lia. }
    rewrite P, H in L. cbn [fold_right] in L. rewrite Nat.mul_1_r in L. destruct (split_spec nwalkers (length keys) (elements a) L) as [A B].
    eexists. eexists. split; [reflexivity|]. split; [exact A|]. split; [exact B|]. intros r. rewrite filter_In. destruct (good r); cbn [negb]; intuition discriminate.
  - destruct (same_shape _ _) eqn:E; [apply same_iff in E; contradiction|reflexivity].
Qed.
(** With a single parameter, or a single walker, every array is refused, since axes of length one are dropped before the shape is compared *)
Theorem C227_one_parameter_refuted nwalkers keys draws (a : array V) : nwalkers = 1 \/ length keys = 1 -> set_pos0 zero good nwalkers keys draws (Some (Given a)) = Raise ValueError.
Proof.
  intros H. unfold set_pos0, squeeze. cbn [shape]. destruct (same_shape _ _) eqn:E; [|reflexivity]. exfalso. apply same_iff in E.
  assert (F : forall x, In x (filter (fun n => negb (Nat.eqb n 1)) (shape a)) -> x <> 1) by (intros x I; apply filter_In in I; destruct I as [_ I]; destruct (Nat.eqb_spec x 1); [discriminate|assumption]).
  rewrite E in F. destruct H as [H|H]; [apply (F nwalkers); [left; reflexivity|exact H]|apply (F (length keys)); [right; left; reflexivity|exact H]].
Qed.
Lemma columns_ok keys d : (exists cs, columns_of keys d = Ok cs) <-> forall k, In k keys -> dget d k <> (None : option (list V)).
Proof.
  induction keys as [|k t IH]; cbn [columns_of]; [split; [intros _ k []|intros _; exists []; reflexivity]|]. split.
  - intros (cs & H). destruct (dget d k) eqn:E; [|discriminate]. destruct (columns_of t d) eqn:C; [|discriminate]. intros k' [<- | I]; [congruence|]. apply IH; [eexists; reflexivity|exact I].
  - intros H. destruct (dget d k) eqn:E; [|exfalso; apply (H k); [left; reflexivity|exact E]]. destruct (proj2 IH) as [cs ->]; [intros; apply H; right; assumption|]. eexists. reflexivity.
Qed.
Lemma columns_inv keys d cs : columns_of keys d = Ok cs -> length cs = length keys /\ forall j, j < length keys -> dget d (nth j keys "") = Some (nth j cs ([] : list V)).
Proof.
  revert cs. induction keys as [|k t IH]; cbn [columns_of]; intros cs H; [injection H as <-; split; [reflexivity|cbn; intros; lia]|].
  destruct (dget d k) eqn:E; [|discriminate]. destruct (columns_of t d) eqn:C; [|discriminate]. injection H as <-. destruct (IH _ eq_refl) as [A B].
  split; [cbn; lia|]. intros [|j] J; [exact E|]. cbn [nth length] in *. apply B. lia.
Qed.
Lemma concat_rows cs n : forall m, length (concat (map (row zero cs) (seq m n))) = n * length cs /\
  split n (length cs) (concat (map (row zero cs) (seq m n))) = map (row zero cs) (seq m n).
Proof.
  assert (W : forall i, length (row zero cs i) = length cs) by (intros; unfold row; apply map_length).
  induction n as [|n IH]; intros m; [split; reflexivity|]. cbn [seq map concat split]. destruct (IH (S m)) as [A B]. rewrite app_length, W, A. split; [lia|].
  f_equal; [rewrite <- (W m), firstn_app, Nat.sub_diag, firstn_all, app_nil_r; reflexivity|].
  rewrite <- (W m) at 2. rewrite skipn_app, Nat.sub_diag, skipn_all, app_nil_l. exact B.
Qed.
(** A data frame works for any number of parameters and walkers: the columns are found by name *)
Theorem C227_frame nwalkers keys draws n (cols : dict (list V)) :
  ((exists k, In k keys /\ dget cols k = None) -> set_pos0 zero good nwalkers keys draws (Some (Frame n cols)) = Raise KeyError) /\
  ((forall k, In k keys -> dget cols k <> None) -> n <> nwalkers -> set_pos0 zero good nwalkers keys draws (Some (Frame n cols)) = Raise ValueError) /\
  ((forall k, In k keys -> dget cols k <> None) -> n = nwalkers -> exists rows warned, set_pos0 zero good nwalkers keys draws (Some (Frame n cols)) = Ok (rows, warned) /\ length rows = nwalkers /\
     (forall i j, i < nwalkers -> j < length keys -> exists c, dget cols (nth j keys "") = Some c /\ nth j (nth i rows []) zero = nth i c zero) /\
     (forall r, In r warned <-> In r rows /\ good r = false)).
Proof.
  unfold set_pos0. split; [|split].
  - intros (k & I & E). destruct (columns_of keys cols) as [cs|e] eqn:C; [exfalso; apply (proj1 (columns_ok keys cols) (ex_intro _ _ C) k I E)|].
    clear I E. revert e C. induction keys as [|a t IH]; cbn [columns_of]; intros e C; [discriminate|]. destruct (dget cols a); [|injection C as <-; reflexivity]. destruct (columns_of t cols) eqn:Q; [discriminate|]. injection C as <-. apply IH. reflexivity.
  - intros H N. apply columns_ok in H. destruct H as [cs ->]. cbn [shape]. destruct (same_shape _ _) eqn:E; [|reflexivity]. apply same_iff in E. injection E as E. contradiction.
  - intros H ->. apply columns_ok in H. destruct H as [cs C]. rewrite C. cbn [shape elements]. rewrite (proj2 (same_iff _ _) eq_refl). destruct (columns_inv _ _ _ C) as [A B].
    replace (split nwalkers (length keys) (concat (map (row zero cs) (seq 0 nwalkers)))) with (map (row zero cs) (seq 0 nwalkers)) by (rewrite <- A; symmetry; apply concat_rows). eexists. eexists. split; [reflexivity|]. split; [rewrite map_length; apply seq_length|]. split.
    + intros i j I J. exists (nth j cs []). split; [apply B, J|]. rewrite (nth_indep _ [] (row zero cs 0)) by (rewrite map_length, seq_length; exact I). rewrite map_nth, seq_nth by exact I.
      unfold row. cbn [Nat.add]. rewrite (nth_indep _ zero (nth i [] zero)) by (rewrite map_length; lia). apply (map_nth (fun c => nth i c zero)).
    + intros r. rewrite filter_In. destruct (good r); cbn [negb]; intuition discriminate.
Qed.

Lemma arrays_ok keys d : (exists l, arrays_of keys d = Ok l) <-> forall k, In k keys -> dget d k <> (None : option (array V)).
Proof.
  induction keys as [|k t IH]; cbn [arrays_of]; [split; [intros _ k []|intros _; exists []; reflexivity]|]. split.
  - intros (cs & H). destruct (dget d k) eqn:E; [|discriminate]. destruct (arrays_of t d) eqn:C; [|discriminate]. intros k' [<- | I]; [congruence|]. apply IH; [eexists; reflexivity|exact I].
  - intros H. destruct (dget d k) eqn:E; [|exfalso; apply (H k); [left; reflexivity|exact E]]. destruct (proj2 IH) as [cs ->]; [intros; apply H; right; assumption|]. eexists. reflexivity.
Qed.
Lemma arrays_inv keys d l : arrays_of keys d = Ok l -> length l = length keys /\ forall j, j < length keys -> exists a, dget d (nth j keys "") = Some a /\ nth_error l j = Some (a : array V).
Proof.
  revert l. induction keys as [|k t IH]; cbn [arrays_of]; intros l H; [injection H as <-; split; [reflexivity|cbn; intros; lia]|].
  destruct (dget d k) eqn:E; [|discriminate]. destruct (arrays_of t d) eqn:C; [|discriminate]. injection H as <-. destruct (IH _ eq_refl) as [A B].
  split; [cbn; lia|]. intros [|j] J; [exists a; split; [exact E|reflexivity]|]. cbn [nth nth_error length] in *. apply B. lia.
Qed.
Lemma nth_concat (f : nat -> list V) w : (forall i, length (f i) = w) -> forall n m i j, i < n -> j < w -> nth (i * w + j) (concat (map f (seq m n))) zero = nth j (f (m + i)) zero.
Proof.
  intros W. induction n as [|n IH]; intros m i j I J; [lia|]. cbn [seq map concat]. destruct i as [|i].
  - cbn [Nat.mul Nat.add]. rewrite app_nth1 by (rewrite W; exact J). rewrite Nat.add_0_r. reflexivity.
  - rewrite app_nth2 by (rewrite W; cbn [Nat.mul]; lia). rewrite W. replace (S i * w + j - w) with (i * w + j) by (cbn [Nat.mul]; lia). rewrite IH by lia. f_equal. f_equal. lia.
Qed.
(** ** C227 ptemcee: starting points by name.  [keys] is not empty *)
Theorem C227_by_name ntemps nwalkers keys (d : dict (array V)) : keys <> [] -> (forall k a, dget d k = Some a -> length (elements a) = fold_right Nat.mul 1 (shape a)) ->
  ((exists k, In k keys /\ dget d k = None) -> get_pos0 zero ntemps nwalkers keys (ByName d) = Raise KeyError) /\
  ((forall k, In k keys -> exists a, dget d k = Some a /\ shape a = [ntemps; nwalkers]) ->
     exists p, get_pos0 zero ntemps nwalkers keys (ByName d) = Ok (At p) /\ shape p = [ntemps; nwalkers; length keys] /\
       forall t w j, t < ntemps -> w < nwalkers -> j < length keys -> exists a, dget d (nth j keys "") = Some a /\
         nth ((t * nwalkers + w) * length keys + j) (elements p) zero = nth (t * nwalkers + w) (elements a) zero) /\
  ((forall k, In k keys -> dget d k <> None) -> (exists k a, In k keys /\ dget d k = Some a /\ shape a <> [ntemps; nwalkers]) -> get_pos0 zero ntemps nwalkers keys (ByName d) = Raise ValueError).
Proof.
  intros NE L. unfold get_pos0. split; [|split].
  - intros (k & I & E). destruct (arrays_of keys d) as [cs|e] eqn:C; [exfalso; apply (proj1 (arrays_ok keys d) (ex_intro _ _ C) k I E)|].
    clear NE I E. revert e C. induction keys as [|a t IH]; cbn [arrays_of]; intros e C; [discriminate|]. destruct (dget d a); [|injection C as <-; reflexivity]. destruct (arrays_of t d) eqn:Q; [discriminate|]. injection C as <-. apply IH. reflexivity.
  - intros H. assert (H' : forall k, In k keys -> dget d k <> None) by (intros k I; destruct (H k I) as (a & E & _); congruence).
    apply arrays_ok in H'. destruct H' as [l C]. rewrite C. destruct (arrays_inv _ _ _ C) as [A B].
    assert (Sh : forall a, In a l -> shape a = [ntemps; nwalkers] /\ length (elements a) = ntemps * nwalkers).
    { intros a I. apply In_nth_error in I. destruct I as [j J]. assert (j < length keys) by (rewrite <- A; apply nth_error_Some; congruence). destruct (B j H0) as (b & D & E). rewrite J in E. injection E as <-.
      destruct (H (nth j keys "")) as (c & D' & Sc); [apply nth_In, H0|]. rewrite D in D'. injection D' as <-. split; [exact Sc|]. rewrite (L _ _ D), Sc. cbn [fold_right]. lia. }
    destruct l as [|a t]; [cbn in A; destruct keys; [congruence|discriminate]|]. cbn [stack_last].
    destruct (Sh a (or_introl eq_refl)) as [Sa La].
    assert (F : forallb (fun b => same_shape (shape b) (shape a)) t = true) by (apply forallb_forall; intros b I; apply same_iff; rewrite Sa; apply Sh; right; exact I).
    rewrite F. unfold from_array. cbn [shape]. rewrite Sa, A. cbn [app]. rewrite (proj2 (same_iff _ _) eq_refl). eexists. split; [reflexivity|]. split; [reflexivity|]. cbn [elements].
    intros u w j U W J. destruct (B j J) as (b & D & E). exists b. split; [exact D|].
    assert (X : length keys = length (a :: t)) by lia. rewrite X.
    rewrite (nth_concat (fun i => map (fun b => nth i (elements b) zero) (a :: t)) (length (a :: t))); [|intros; apply map_length|rewrite La; nia|lia].
    cbn [Nat.add]. apply (map_nth_error (fun b => nth (u * nwalkers + w) (elements b) zero)) in E. apply nth_error_nth with (d := zero) in E. exact E.
  - intros H (k & a & I & E & N). apply arrays_ok in H. destruct H as [l C]. rewrite C. destruct (arrays_inv _ _ _ C) as [A B].
    assert (J : exists b, In b l /\ shape b <> [ntemps; nwalkers]).
    { apply In_nth with (d := "") in I. destruct I as (j & J & Q). destruct (B j J) as (b & D & E'). rewrite Q, E in D. injection D as <-. exists a. split; [eapply nth_error_In, E'|exact N]. }
    destruct J as (b & J & Nb). destruct l as [|c t]; [contradiction|]. cbn [stack_last]. destruct (forallb _ t) eqn:F; [|reflexivity].
    assert (Sc : shape c <> [ntemps; nwalkers]). { destruct J as [-> | J]; [exact Nb|]. rewrite forallb_forall in F. specialize (F b J). apply same_iff in F. congruence. }
    unfold from_array. cbn [shape]. destruct (same_shape _ _) eqn:Q; [|reflexivity]. exfalso. apply same_iff in Q. change [ntemps; nwalkers; length keys] with ([ntemps; nwalkers] ++ [length keys]) in Q. apply app_inj_tail in Q. tauto.
Qed.
(** every other way of giving them *)
Theorem C227_ptemcee ntemps nwalkers keys (p : pt_points V) :
  match p with
  | Word true _ => get_pos0 zero ntemps nwalkers keys p = Ok FromPrior
  | Word false true => get_pos0 zero ntemps nwalkers keys p = Ok (FromMinimize None)
  | Names l => get_pos0 zero ntemps nwalkers keys p = Ok (FromMinimize (Some l))
  | Whole a => get_pos0 zero ntemps nwalkers keys p = (if list_eq_dec Nat.eq_dec (shape a) [ntemps; nwalkers; length keys] then Ok (At a) else Raise ValueError)
  | ByName _ => True
  | _ => get_pos0 zero ntemps nwalkers keys p = Raise SamplerError
  end.
Proof. destruct p as [[|] [|]| | | |]; try reflexivity; try exact I. unfold get_pos0, from_array, same_shape. destruct (list_eq_dec _ _ _); reflexivity. Qed.
End Points.
Example C227_example : set_pos0 0 (fun r => negb (Nat.eqb (nth 0 r 0) 5)) 2 ["a"; "b"] [] (Some (Given (Array [2; 1; 2] [1; 2; 5; 4]))) = Ok ([[1; 2]; [5; 4]], [[5; 4]]) /\
  set_pos0 0 (fun _ => true) 2 ["a"] [] (Some (Given (Array [2; 1] [1; 2]))) = Raise ValueError /\
  set_pos0 0 (fun _ => true) 2 ["a"] [] (Some (Frame 2 [("b", [7; 8]); ("a", [1; 2])])) = Ok ([[1]; [2]], []) /\
  get_pos0 0 1 2 ["a"; "b"] (ByName [("b", Array [1; 2] [7; 8]); ("a", Array [1; 2] [1; 2])]) = Ok (At (Array [1; 2; 2] [1; 7; 2; 8])).
Proof. repeat split; reflexivity. Qed.

(** ** Assumptions of every theorem above *)
Definition Start_Props_all :=
  (@C227_redundant,
   @C227_verified,
   @C227_fixed_refuted,
   @C227_array,
   @C227_one_parameter_refuted,
   @C227_frame,
   @C227_by_name,
   @C227_ptemcee).
Print Assumptions Start_Props_all.
