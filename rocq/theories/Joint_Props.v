(** C111-C117: joint priors. *)
From Coq Require Import String Reals List Bool Lia Lra Psatz Permutation.
From Verif Require Import Joint_Model Joint_Proofs.
Import ListNotations.
Open Scope list_scope.
Open Scope R_scope.

(** the values of a sample for a list of names *)
Definition values_at (sample : list (string * R)) (names : list string) (vs : list R) : Prop :=
  Forall2 (fun n v => In (n, v) sample) names vs.
Lemma values_assoc sample names vs : NoDup (map fst sample) -> values_at sample names vs ->
  map (fun n => assoc n sample) names = map Some vs.
Proof.
  intros N H. induction H as [|n v ns ws H _ IH]; [reflexivity|]. cbn. rewrite IH, (assoc_unique n v) by assumption. reflexivity.
Qed.

(** ** C111 the log density of a dictionary with joint priors *)
Lemma ladd_comm a b : ladd a b = ladd b a.
Proof. destruct a, b; cbn; try reflexivity. rewrite Rplus_comm. reflexivity. Qed.
Lemma ladd_assoc a b c : ladd a (ladd b c) = ladd (ladd a b) c.
Proof. destruct a, b, c; cbn; try reflexivity. rewrite Rplus_assoc. reflexivity. Qed.
Lemma ladd_0 a : ladd (Some 0) a = a.
Proof. destruct a; cbn; [rewrite Rplus_0_l|]; reflexivity. Qed.
Lemma ladd_0_r a : ladd a (Some 0) = a.
Proof. rewrite ladd_comm. apply ladd_0. Qed.
Lemma lsum_app l m : lsum (l ++ m) = ladd (lsum l) (lsum m).
Proof. induction l as [|a l IH]; [symmetry; apply ladd_0|]. change (ladd a (lsum (l ++ m)) = ladd (ladd a (lsum l)) (lsum m)). rewrite IH. apply ladd_assoc. Qed.
Definition term (r : option (option R)) : option R := match r with Some x => x | None => Some 0 end.
Lemma lsum_none {A} (l : list A) : lsum (map (fun _ => Some 0) l) = Some 0.
Proof. induction l; [reflexivity|]. change (ladd (Some 0) (lsum (map (fun _ => Some 0) l)) = Some 0). rewrite ladd_0. exact IHl. Qed.
Section Dict.
Variables (priors : string -> entry) (F : nat -> list R -> option R).
Definition mine (d : nat) (kv : string * R) : bool := match priors (fst kv) with Part e => Nat.eqb e d | Own _ => false end.
(** the terms of the priors that are not joint *)
Fixpoint own_terms (sample : list (string * R)) : list (option R) :=
  match sample with
  | [] => []
  | (k, v) :: t => match priors k with Own f => f v :: own_terms t | Part _ => own_terms t end
  end.
Lemma lsum_one ds d0 (g g' : nat -> option R) x : NoDup ds -> In d0 ds -> g d0 = ladd x (g' d0) ->
  (forall d, d <> d0 -> g d = g' d) -> lsum (map g ds) = ladd x (lsum (map g' ds)).
Proof.
  intros N I E H. induction ds as [|d t IH]; [contradiction|]. inversion N; subst. cbn [map].
  change (ladd (g d) (lsum (map g t)) = ladd x (ladd (g' d) (lsum (map g' t)))).
  destruct (Nat.eq_dec d d0) as [->|Hn].
  - rewrite E, <- ladd_assoc. do 2 f_equal. f_equal. apply map_ext_in. intros a Ha. apply H. intros ->. contradiction.
  - destruct I as [I|I]; [contradiction|]. rewrite (IH H3 I), (H d Hn). rewrite !ladd_assoc. f_equal. apply ladd_comm.
Qed.
Lemma terms_split ds : NoDup ds -> forall sample s, (forall k v, In (k, v) sample -> forall d, priors k = Part d -> In d ds) ->
  let '(s', l) := ln_prob_terms priors F s sample in
  (forall d, s' d = fst (run (F d) (s d) (filter (mine d) sample))) /\
  lsum l = ladd (lsum (own_terms sample)) (lsum (map (fun d => lsum (map term (snd (run (F d) (s d) (filter (mine d) sample))))) ds)).
Proof.
  intros ND. induction sample as [|[k v] t IH]; intros s Hd; cbn [ln_prob_terms own_terms filter].
  - split; [reflexivity|]. cbn [run snd map]. change (lsum (map term [])) with (Some 0). rewrite lsum_none. symmetry. apply ladd_0.
  - assert (Ht : forall k v, In (k, v) t -> forall d, priors k = Part d -> In d ds) by (intros a b Hi; apply (Hd a b); right; exact Hi).
    destruct (priors k) as [f|d0] eqn:Ek.
    + specialize (IH s Ht). destruct (ln_prob_terms priors F s t) as [s' l]. destruct IH as [A B].
      assert (M : forall d, mine d (k, v) = false) by (intros d; unfold mine; cbn [fst]; rewrite Ek; reflexivity).
      split.
      * intros d. rewrite M. apply A.
      * change (ladd (f v) (lsum l) = ladd (ladd (f v) (lsum (own_terms t))) (lsum (map (fun d => lsum (map term
          (snd (run (F d) (s d) (if mine d (k, v) then (k, v) :: filter (mine d) t else filter (mine d) t))))) ds))).
        rewrite B, ladd_assoc. f_equal. f_equal. apply map_ext. intros d. rewrite M. reflexivity.
    + destruct (offer (F d0) (s d0) k v) as [b r] eqn:Eo.
      specialize (IH (set_buffer s d0 b) Ht). destruct (ln_prob_terms priors F (set_buffer s d0 b) t) as [s' l]. destruct IH as [A B].
      assert (M : forall d, mine d (k, v) = Nat.eqb d0 d) by (intros d; unfold mine; cbn [fst]; rewrite Ek; reflexivity).
      assert (R0 : run (F d0) (s d0) ((k, v) :: filter (mine d0) t) =
                   (fst (run (F d0) b (filter (mine d0) t)), r :: snd (run (F d0) b (filter (mine d0) t)))).
      { cbn [run]. rewrite Eo. destruct (run (F d0) b (filter (mine d0) t)). reflexivity. }
      split.
      * intros d. rewrite M, A. unfold set_buffer. destruct (Nat.eqb_spec d d0) as [->|Hn].
        -- rewrite Nat.eqb_refl, R0. reflexivity.
        -- destruct (Nat.eqb_spec d0 d); [congruence|]. reflexivity.
      * change (ladd (term r) (lsum l) = ladd (lsum (own_terms t)) (lsum (map (fun d => lsum (map term
          (snd (run (F d) (s d) (if mine d (k, v) then (k, v) :: filter (mine d) t else filter (mine d) t))))) ds))).
        rewrite B.
        rewrite (lsum_one ds d0 (fun d => lsum (map term (snd (run (F d) (s d) (if mine d (k, v) then (k, v) :: filter (mine d) t else filter (mine d) t))))) (fun d => lsum (map term (snd (run (F d) (set_buffer s d0 b d) (filter (mine d) t))))) (term r) ND).
        -- rewrite !ladd_assoc. rewrite (ladd_comm (term r)). reflexivity.
        -- apply (Hd k v (or_introl eq_refl) d0 Ek).
        -- rewrite M, Nat.eqb_refl, R0. unfold set_buffer. rewrite Nat.eqb_refl. reflexivity.
        -- intros d Hn. rewrite M. destruct (Nat.eqb_spec d0 d); [congruence|]. unfold set_buffer.
           destruct (Nat.eqb_spec d d0); [congruence|]. reflexivity.
Qed.
End Dict.
(** any number of joint distributions [ds] with names [names d], mixed with other
    priors, the keys of the sample in any order *)
Theorem C111_dictionary priors F names ds s sample : NoDup ds -> NoDup (map fst sample) ->
  (forall d, In d ds -> NoDup (names d) /\ names d <> [] /\ s d = reset (names d)) ->
  (forall d k, In d ds -> In k (names d) -> In k (map fst sample) /\ priors k = Part d) ->
  (forall k v d, In (k, v) sample -> priors k = Part d -> In d ds /\ In k (names d)) ->
  forall vs, (forall d, In d ds -> values_at sample (names d) (vs d)) ->
  let r := dict_ln_prob priors F s sample in
  snd r = ladd (lsum (own_terms priors sample)) (lsum (map (fun d => F d (vs d)) ds)) /\
  forall d, In d ds -> fst r d = reset (names d).
Proof.
  intros ND NS Hb Hn Hk vs Hv. cbv zeta. unfold dict_ln_prob.
  pose proof (terms_split priors F ds ND sample s (fun k v Hi d Ep => proj1 (Hk k v d Hi Ep))) as T.
  destruct (ln_prob_terms priors F s sample) as [s' l]. cbn [fst snd]. destruct T as [A B].
  assert (RR : forall d, In d ds -> exists pre last, filter (mine priors d) sample = pre ++ [last] /\
     run (F d) (s d) (filter (mine priors d) sample) = (reset (names d), map (fun _ => None) pre ++ [Some (F d (vs d))])).
  { intros d Hd. destruct (Hb d Hd) as (N1 & N2 & ->).
    assert (NF : NoDup (map fst (filter (mine priors d) sample))).
    { clear - NS. induction sample as [|a t IH]; [constructor|]. cbn in NS. inversion NS; subst. cbn [filter].
      destruct (mine priors d a); [|apply IH; assumption]. cbn. constructor; [|apply IH; assumption].
      intros I. apply H1. apply in_map_iff in I. destruct I as (x & Ex & Hx). apply filter_In in Hx.
      rewrite <- Ex. apply in_map. apply Hx. }
    assert (MEM : forall k v, In (k, v) sample -> priors k = Part d -> In (k, v) (filter (mine priors d) sample)).
    { intros k v Hi Ep. apply filter_In. split; [exact Hi|]. unfold mine; cbn [fst]. rewrite Ep. apply Nat.eqb_refl. }
    apply run_round; try assumption.
    - apply NoDup_Permutation; [exact NF|exact N1|]. intros k. split.
      + intros I. apply in_map_iff in I. destruct I as ([k' v] & E & Hx). cbn in E. subst k'.
        apply filter_In in Hx. destruct Hx as [Hx Hm]. unfold mine in Hm; cbn [fst] in Hm.
        destruct (priors k) as [|e] eqn:Ep; [discriminate|]. apply Nat.eqb_eq in Hm. subst e. exact (proj2 (Hk k v d Hx Ep)).
      + intros I. destruct (Hn d k Hd I) as [I1 I2]. apply in_map_iff in I1. destruct I1 as ([k' v] & E & Hx). cbn in E. subst k'.
        apply in_map_iff. exists (k, v). split; [reflexivity|apply MEM; assumption].
    - apply values_assoc; [exact NF|]. specialize (Hv d Hd). unfold values_at in *.
      assert (G : forall n, In n (names d) -> priors n = Part d) by (intros n I; apply (Hn d n Hd I)).
      clear - Hv MEM G. induction Hv as [|n v ns ws H _ IH]; [constructor|].
      constructor; [apply MEM; [exact H|apply G; left; reflexivity]|apply IH; intros m I; apply G; right; exact I]. }
  split.
  - rewrite B. f_equal. f_equal. apply map_ext_in. intros d Hd. destruct (RR d Hd) as (pre & last & _ & ->). cbn [snd].
    rewrite map_app, lsum_app, map_map. cbn [term]. rewrite lsum_none, ladd_0.
    change (ladd (F d (vs d)) (Some 0) = F d (vs d)). apply ladd_0_r.
  - intros d Hd. rewrite A. destruct (RR d Hd) as (pre & last & _ & ->). reflexivity.
Qed.
(** one evaluation without the first parameter: from then on every evaluation, in
    the usual order, uses the second parameter of the sample before *)
Fixpoint evaluate_all priors F (s : nat -> buffer R) (samples : list (list (string * R))) : list (option R) :=
  match samples with
  | [] => []
  | x :: t => let '(s', v) := dict_ln_prob priors F s x in v :: evaluate_all priors F s' t
  end.
Fixpoint shifted (F : list R -> option R) (y0 : R) (samples : list (R * R)) : list (option R) :=
  match samples with [] => [] | (x, y) :: t => F [x; y0] :: shifted F y t end.
Theorem C111_incomplete_refuted F y0 samples :
  let priors := fun _ : string => Part 0 in
  let s0 := fun _ : nat => reset ["x"; "y"]%string in
  let s1 := fst (dict_ln_prob priors (fun _ => F) s0 [("y", y0)]%string) in
  evaluate_all priors (fun _ => F) s1 (map (fun p => [("x", fst p); ("y", snd p)]%string) samples) = shifted F y0 samples.
Proof.
  cbv zeta.
  assert (G : forall samples s y0, s 0%nat = [("x"%string, None); ("y"%string, Some y0)] ->
    evaluate_all (fun _ => Part 0) (fun _ => F) s (map (fun p => [("x", fst p); ("y", snd p)]%string) samples) = shifted F y0 samples).
  { clear. induction samples as [|[x y] t IH]; intros s y0 E; [reflexivity|].
    cbn [map evaluate_all fst snd shifted]. unfold dict_ln_prob. cbn [ln_prob_terms].
    rewrite E. unfold offer, put. cbn. unfold set_buffer at 1. cbn.
    f_equal; [apply ladd_0_r || (destruct (F [x; y0]); cbn; [rewrite !Rplus_0_r|]; reflexivity)|].
    apply IH. reflexivity. }
  apply G. reflexivity.
Qed.
(** arrays of different lengths: the error leaves every value in place, so no later
    call starts a new round by itself *)
Theorem C111_error_refuted {X} (F : list pyval -> X) b k v b' :
  joint_ln_prob F b k v = (b', LRaise) ->
  forall k' v', snd (joint_ln_prob F b' k' v') <> LZero.
Proof.
  unfold joint_ln_prob. destruct (filled (put k v b)) as [vs|] eqn:E; [|discriminate].
  destruct (shapes_ok vs); [discriminate|]. intros H. injection H as <-. intros k' v'.
  assert (A : exists ws, filled (put k' v' (put k v b)) = Some ws).
  { revert vs E. generalize (put k v b). clear. induction b as [|[n o] t IH]; intros vs E; [eexists; reflexivity|].
    cbn in *. destruct o as [w|]; [|discriminate]. destruct (filled t) as [us|]; [|discriminate].
    destruct (IH us eq_refl) as [ws Hw]. destruct (String.eqb n k'); cbn; unfold put in Hw; rewrite Hw; eexists; reflexivity. }
  destruct A as [ws ->]. destruct (shapes_ok ws); discriminate.
Qed.
(** the check compares neighbours, which is enough: it fails exactly if two values differ in kind or length *)
Theorem C111_shapes l : shapes_ok l = true <-> (forall a b, In a l -> In b l -> same_shape a b = true).
Proof.
  assert (SR : forall a, same_shape a a = true) by (intros []; cbn; [reflexivity|apply Nat.eqb_refl]).
  assert (SS : forall a b, same_shape a b = same_shape b a) by (intros [] []; cbn; try reflexivity; apply Nat.eqb_sym).
  assert (ST : forall a b c, same_shape a b = true -> same_shape b c = true -> same_shape a c = true).
  { intros [] [] []; cbn; try discriminate; try reflexivity. rewrite !Nat.eqb_eq. congruence. }
  induction l as [|a [|b t] IH].
  - split; [intros _ x y []|reflexivity].
  - split; [|reflexivity]. intros _ x y [<-|[]] [<-|[]]. apply SR.
  - change (shapes_ok (a :: b :: t)) with (same_shape a b && shapes_ok (b :: t)). rewrite andb_true_iff, IH. split.
    + intros [H1 H2] x y Hx Hy.
      assert (A : forall z, In z (a :: b :: t) -> same_shape b z = true).
      { intros z [<-|Hz]; [rewrite SS; exact H1|]. apply H2; [left; reflexivity|exact Hz]. }
      apply (ST x b y); [rewrite SS|]; apply A; assumption.
    + intros H. split; [apply H; [left; reflexivity|right; left; reflexivity]|]. intros x y Hx Hy. apply H; right; assumption.
Qed.
Example C111_example :
  let priors := fun k => if String.eqb k "m" then Own (fun v => Some (10 * v)) else Part 0 in
  let F := fun _ l => match l with [x; y] => Some (x + 100 * y) | _ => None end in
  snd (dict_ln_prob priors F (fun _ => reset ["x"; "y"]%string) [("y", 2); ("m", 3); ("x", 1)]%string) = Some 231.
Proof. cbv zeta. cbv -[Rplus Rmult IZR]. f_equal. lra. Qed.

(** ** C112 the unit-cube transform of a dictionary with a joint prior *)
Section Rescale.
Variables (priors : string -> rentry) (F : list R -> list R) (theta : string -> R).
Definition part (k : string) : bool := match priors k with RPart => true | ROwn _ => false end.
Definition own (k : string) : R := match priors k with ROwn f => f (theta k) | RPart => 0 end.
Definition pairs (ks : list string) : list (string * R) := map (fun k => (k, theta k)) (filter part ks).
Lemma rr_split : forall order b,
  let '(b', l) := rescale_results priors F theta b order in
  map fst l = order /\ b' = fst (run F b (pairs order)) /\
  (forall k, In k order -> part k = false -> NoDup order -> lookup l k = [own k]) /\
  (NoDup order -> map (lookup l) (filter part order) = map (fun r => match r with Some x => x | None => [] end) (snd (run F b (pairs order)))).
Proof.
  induction order as [|k t IH]; intros b; cbn [rescale_results].
  - repeat split; try reflexivity. intros k [].
  - destruct (priors k) as [f|] eqn:Ek.
    + assert (Pk : part k = false) by (unfold part; rewrite Ek; reflexivity).
      assert (PP : pairs (k :: t) = pairs t) by (unfold pairs; cbn [filter]; rewrite Pk; reflexivity).
      rewrite PP. cbn [filter]. rewrite Pk.
      specialize (IH b). destruct (rescale_results priors F theta b t) as [b' l]. destruct IH as (A & B & C & D).
      split; [cbn; rewrite A; reflexivity|]. split; [exact B|].
      assert (LK : forall k' v, k <> k' -> lookup ((k, v) :: l) k' = lookup l k').
      { intros k' v N. unfold lookup; cbn [find fst]. destruct (String.eqb_spec k k'); [congruence|reflexivity]. }
      split.
      * intros k' Hk' Hp ND. destruct (proj1 (NoDup_cons_iff k t) ND) as [N1 N2]. destruct (String.eqb_spec k k') as [->|N].
        -- unfold lookup; cbn [find fst]. rewrite String.eqb_refl. unfold own. rewrite Ek. reflexivity.
        -- rewrite LK by exact N. destruct Hk' as [Hk'|Hk']; [contradiction|]. apply C; assumption.
      * intros ND. destruct (proj1 (NoDup_cons_iff k t) ND) as [N1 N2]. etransitivity; [|exact (D N2)]. apply map_ext_in. intros k' Hk'. apply LK. intros ->.
        apply filter_In in Hk'. destruct Hk'. contradiction.
    + assert (Pk : part k = true) by (unfold part; rewrite Ek; reflexivity).
      assert (PP : pairs (k :: t) = (k, theta k) :: pairs t) by (unfold pairs; cbn [filter]; rewrite Pk; reflexivity).
      rewrite PP. cbn [filter run]. rewrite Pk.
      destruct (offer F b k (theta k)) as [b1 r] eqn:Eo.
      specialize (IH b1). destruct (rescale_results priors F theta b1 t) as [b' l]. destruct IH as (A & B & C & D).
      destruct (run F b1 (pairs t)) as [b2 l2]. cbn [fst snd] in *.
      assert (LK : forall k' v, k <> k' -> lookup ((k, v) :: l) k' = lookup l k').
      { intros k' v N. unfold lookup; cbn [find fst]. destruct (String.eqb_spec k k'); [congruence|reflexivity]. }
      split; [cbn; rewrite A; reflexivity|]. split; [exact B|]. split.
      * intros k' Hk' Hp ND. destruct (proj1 (NoDup_cons_iff k t) ND) as [N1 N2]. destruct (String.eqb_spec k k') as [->|N]; [unfold part in Hp; rewrite Ek in Hp; discriminate|].
        rewrite LK by exact N. destruct Hk' as [Hk'|Hk']; [contradiction|]. apply C; assumption.
      * intros ND. destruct (proj1 (NoDup_cons_iff k t) ND) as [N1 N2]. cbn [map]. f_equal.
        -- unfold lookup; cbn [find fst]. rewrite String.eqb_refl. reflexivity.
        -- etransitivity; [|exact (D N2)]. apply map_ext_in. intros k' Hk'. apply LK. intros ->. apply filter_In in Hk'. destruct Hk'. contradiction.
Qed.
End Rescale.
(** the names of the joint distribution in its own order and next to each other
    among the keys; the transforms evaluated in any order *)
Theorem C112_contiguous priors F theta names pre post order :
  NoDup (pre ++ names ++ post) -> names <> [] -> Permutation order (pre ++ names ++ post) ->
  (forall k, In k names -> priors k = RPart) ->
  (forall k, In k (pre ++ post) -> exists f, priors k = ROwn f) ->
  dict_rescale priors F theta (reset names) order (pre ++ names ++ post) =
  (reset names, map (own priors theta) pre ++ F (map theta names) ++ map (own priors theta) post).
Proof.
  intros ND NE PM HP HO. unfold dict_rescale.
  pose proof (rr_split priors F theta order (reset names)) as S.
  destruct (rescale_results priors F theta (reset names) order) as [b' l]. destruct S as (A & B & C & D).
  assert (NO : NoDup order) by (apply (Permutation_NoDup (Permutation_sym PM) ND)).
  assert (NN : NoDup names) by (revert ND; clear; induction pre as [|a p IH]; cbn; intros ND;
     [apply nodup_app_l in ND; exact ND|inversion ND; auto]).
  specialize (D NO).
  assert (PF : Permutation (filter (part priors) order) names).
  { apply NoDup_Permutation; [apply NoDup_filter; exact NO|exact NN|]. intros k. rewrite filter_In. split.
    - intros [Hi Hp]. apply (Permutation_in _ PM) in Hi. rewrite !in_app_iff in Hi. destruct Hi as [Hi|[Hi|Hi]]; [|exact Hi|].
      + destruct (HO k) as [f Hf]; [apply in_app_iff; left; exact Hi|]. unfold part in Hp. rewrite Hf in Hp. discriminate.
      + destruct (HO k) as [f Hf]; [apply in_app_iff; right; exact Hi|]. unfold part in Hp. rewrite Hf in Hp. discriminate.
    - intros Hi. split; [apply (Permutation_in _ (Permutation_sym PM)); rewrite !in_app_iff; tauto|]. unfold part. rewrite (HP k Hi). reflexivity. }
  destruct (run_round F names (pairs priors theta order) (map theta names)) as (q & lst & Eq & Er); try assumption.
  { unfold pairs. rewrite map_map. cbn. rewrite map_id. exact PF. }
  { rewrite map_map. apply map_ext_in. intros n Hn. apply assoc_unique.
    - unfold pairs. rewrite map_map. cbn. rewrite map_id. apply NoDup_filter. exact NO.
    - unfold pairs. apply in_map_iff. exists n. split; [reflexivity|]. apply (Permutation_in _ (Permutation_sym PF)). exact Hn. }
  rewrite Er in B, D. cbn [fst snd] in B, D. subst b'. f_equal.
  assert (OWN : forall ks, (forall k, In k ks -> In k (pre ++ post)) -> flat_map (lookup l) ks = map (own priors theta) ks).
  { induction ks as [|k t IH]; intros H; [reflexivity|]. cbn [flat_map map].
    rewrite (C k).
    - cbn. rewrite IH by (intros; apply H; right; assumption). reflexivity.
    - apply (Permutation_in _ (Permutation_sym PM)). specialize (H k (or_introl eq_refl)). rewrite !in_app_iff in *. tauto.
    - unfold part. destruct (HO k) as [f ->]; [apply H; left; reflexivity|reflexivity].
    - exact NO. }
  rewrite !flat_map_app. rewrite (OWN pre), (OWN post) by (intros; apply in_app_iff; tauto). f_equal. f_equal.
  (* the block of names *)
  rewrite map_app, map_map in D. cbn [map] in D.
  assert (Ef : exists q' kl, filter (part priors) order = q' ++ [kl] /\ List.length q' = List.length q).
  { unfold pairs in Eq. destruct (@exists_last _ (filter (part priors) order)) as (q' & kl & E).
    - intros E. rewrite E in Eq. destruct q; discriminate.
    - exists q', kl. split; [exact E|]. rewrite E, map_app in Eq. apply (f_equal (@List.length _)) in Eq.
      rewrite !app_length, map_length in Eq. cbn in Eq. lia. }
  destruct Ef as (q' & kl & Ef & EL). rewrite Ef, map_app in D. cbn [map] in D.
  apply app_inj_tail in D. destruct D as [D1 D2].
  assert (Z : forall k, In k q' -> lookup l k = []).
  { intros k Hk. apply (in_map (lookup l)) in Hk. rewrite D1 in Hk. apply in_map_iff in Hk. destruct Hk as (x & Hx & _). congruence. }
  rewrite Ef in PF.
  assert (Il : In kl names) by (apply (Permutation_in _ PF); apply in_app_iff; right; left; reflexivity).
  destruct (in_split _ _ Il) as (n1 & n2 & ->).
  assert (Zn : forall k, In k (n1 ++ n2) -> lookup l k = []).
  { intros k Hk. apply Z. apply NoDup_remove_2 in NN.
    assert (I : In k (q' ++ [kl])).
    { apply (Permutation_in _ (Permutation_sym PF)). rewrite in_app_iff in *. cbn. tauto. }
    apply in_app_iff in I. destruct I as [I|[I|[]]]; [exact I|]. subst k. contradiction. }
  assert (ZZ : forall ks, (forall k, In k ks -> lookup l k = []) -> flat_map (lookup l) ks = []).
  { clear. induction ks as [|k t IH]; intros H; [reflexivity|]. cbn. rewrite H by (left; reflexivity). apply IH. intros; apply H; right; assumption. }
  rewrite flat_map_app. cbn [flat_map]. rewrite !ZZ by (intros; apply Zn; apply in_app_iff; tauto).
  rewrite app_nil_r. exact D2.
Qed.
(** keys in another order than the names, or other keys in between: the values come
    back attached to the wrong keys *)
Theorem C112_order_refuted F theta : exists priors,
  dict_rescale priors F theta (reset ["x"; "y"]%string) ["y"; "x"]%string ["y"; "x"]%string =
    (reset ["x"; "y"]%string, F [theta "x"%string; theta "y"%string]).
Proof. exists (fun _ => RPart). cbn. rewrite app_nil_r. reflexivity. Qed.
Theorem C112_between_refuted F theta f : exists priors, priors "m"%string = ROwn f /\
  dict_rescale priors F theta (reset ["x"; "y"]%string) ["x"; "m"; "y"]%string ["x"; "m"; "y"]%string =
    (reset ["x"; "y"]%string, f (theta "m"%string) :: F [theta "x"%string; theta "y"%string]).
Proof.
  exists (fun k => if String.eqb k "m" then ROwn f else RPart). split; [reflexivity|]. cbn. rewrite app_nil_r. reflexivity.
Qed.
Example C112_example :
  dict_rescale (fun k => if String.eqb k "m" then ROwn (fun v => 10 * v) else RPart) (map (fun v => v + 1))
    (fun k => if String.eqb k "m" then 3 else if String.eqb k "x" then 5 else 7)
    (reset ["x"; "y"]%string) ["y"; "m"; "x"]%string ["m"; "x"; "y"]%string = (reset ["x"; "y"]%string, [10 * 3; 5 + 1; 7 + 1]).
Proof. reflexivity. Qed.

(** ** C113 drawing *)
Section Draw.
Context {V : Type}.
Variable draws : nat -> nat -> string -> V.
Lemma calls_partial names c : forall calls sampled n, NoDup (sampled ++ map fst calls) ->
  (forall k, In k (sampled ++ map fst calls) -> In k names) -> NoDup names ->
  (List.length sampled + List.length calls < List.length names)%nat ->
  sample_calls draws names (mkJS sampled (Some c) n) calls = (mkJS (sampled ++ map fst calls) (Some c) n, map (fun p => c (fst p)) calls).
Proof.
  induction calls as [|[k size] t IH]; intros sampled n ND SUB NN L; cbn [sample_calls map fst].
  - rewrite app_nil_r. reflexivity.
  - unfold joint_sample; cbn [js_current js_sampled js_count].
    assert (E : existsb (String.eqb k) sampled = false).
    { apply not_true_iff_false. rewrite existsb_exists. intros (x & Hx & Ex). apply String.eqb_eq in Ex. subst x.
      cbn in ND. apply NoDup_remove_2 in ND. apply ND. apply in_app_iff. left. exact Hx. }
    rewrite E. rewrite app_length. cbn [List.length] in *.
    destruct (Nat.eqb_spec (List.length sampled + 1) (List.length names)) as [X|X]; [lia|].
    rewrite IH.
    + rewrite <- app_assoc. reflexivity.
    + rewrite <- app_assoc. exact ND.
    + rewrite <- app_assoc. exact SUB.
    + exact NN.
    + rewrite app_length. cbn. lia.
Qed.
End Draw.
(** calls of sample() for every parameter of the distribution, each once, in any
    order: one joint draw (of the size asked for first), which is then used up *)
Theorem C113_round {V} (draws : nat -> nat -> string -> V) names k0 size0 calls n : NoDup names ->
  Permutation (map fst ((k0, size0) :: calls)) names ->
  sample_calls draws names (mkJS [] None n) ((k0, size0) :: calls) =
  (mkJS [] None (S n), map (fun p => draws n size0 (fst p)) ((k0, size0) :: calls)).
Proof.
  intros NN PM. pose proof (Permutation_length PM) as L. rewrite map_length in L. cbn [List.length] in L.
  assert (NC : NoDup (map fst ((k0, size0) :: calls))) by (apply (Permutation_NoDup (Permutation_sym PM) NN)).
  cbn [sample_calls map fst]. unfold joint_sample at 1; cbn [js_current js_sampled js_count existsb app List.length].
  destruct calls as [|c0 calls'] using rev_ind.
  - cbn [List.length] in L. rewrite <- L. reflexivity.
  - clear IHcalls'. rewrite app_length in L. cbn [List.length] in L.
    destruct (Nat.eqb_spec 1 (List.length names)) as [X|X]; [lia|].
    assert (K : forall s a b, sample_calls draws names s (a ++ b) =
       (fst (sample_calls draws names (fst (sample_calls draws names s a)) b),
        snd (sample_calls draws names s a) ++ snd (sample_calls draws names (fst (sample_calls draws names s a)) b))).
    { clear. intros s a. revert s. induction a as [|[k z] a IH]; intros s b; cbn [sample_calls app].
      - cbn [fst snd app]. destruct (sample_calls draws names s b); reflexivity.
      - destruct (joint_sample draws names s k z) as [s1 v]. rewrite IH. destruct (sample_calls draws names s1 a) as [s2 l]. cbn [fst snd].
        cbn [app]. reflexivity. }
    rewrite K.
    rewrite (calls_partial draws names (draws n size0) calls' [k0] (S n)).
    + cbn [fst snd]. destruct c0 as [k z]. cbn [sample_calls]. unfold joint_sample; cbn [js_current js_sampled js_count].
      assert (E : existsb (String.eqb k) ([k0] ++ map fst calls') = false).
      { apply not_true_iff_false. rewrite existsb_exists. intros (x & Hx & Ex). apply String.eqb_eq in Ex. subst x.
        cbn [map fst] in NC. rewrite map_app in NC. cbn [map fst] in NC. change (k0 :: map fst calls' ++ [k]) with ((k0 :: map fst calls') ++ [k]) in NC.
        apply NoDup_remove_2 in NC. rewrite app_nil_r in NC. contradiction. }
      rewrite E. rewrite !app_length, map_length. cbn [List.length].
      destruct (Nat.eqb_spec (1 + List.length calls' + 1) (List.length names)) as [Y|Y]; [|lia].
      cbn [fst snd]. rewrite map_app. reflexivity.
    + cbn [map fst] in NC. rewrite map_app in NC. apply (nodup_app_l _ (map fst [c0])). exact NC.
    + intros k Hk. apply (Permutation_in _ PM). cbn [map fst]. rewrite map_app. cbn in Hk. destruct Hk as [Hk|Hk]; [left; exact Hk|right; apply in_app_iff; left; exact Hk].
    + exact NN.
    + cbn [List.length]. lia.
Qed.
(** after asking for some of the parameters only, any further call answers from the
    same old draw, whatever size it asks for *)
Theorem C113_unfinished_refuted {V} (draws : nat -> nat -> string -> V) names k0 size0 calls n k size : NoDup names ->
  NoDup (map fst ((k0, size0) :: calls)) -> (forall x, In x (map fst ((k0, size0) :: calls)) -> In x names) ->
  (S (List.length calls) < List.length names)%nat ->
  snd (joint_sample draws names (fst (sample_calls draws names (mkJS [] None n) ((k0, size0) :: calls))) k size) = draws n size0 k.
Proof.
  intros NN NC SUB L. cbn [sample_calls]. unfold joint_sample at 2; cbn [js_current js_sampled js_count existsb app List.length].
  destruct (Nat.eqb_spec 1 (List.length names)) as [X|X]; [lia|].
  rewrite (calls_partial draws names (draws n size0) calls [k0] (S n)).
  - cbn [fst]. reflexivity.
  - exact NC.
  - exact SUB.
  - exact NN.
  - cbn [List.length]. lia.
Qed.
Example C113_example :
  let draws := fun n size k => (n, size, k) in
  snd (sample_calls draws ["x"; "y"]%string (mkJS [] None 0) [("y", 3%nat); ("x", 4%nat); ("x", 5%nat); ("x", 6%nat)]%string) =
  [(0%nat, 3%nat, "y"); (0%nat, 3%nat, "x"); (1%nat, 5%nat, "x"); (1%nat, 5%nat, "x")]%string.
Proof. reflexivity. Qed.

(** ** C114 the bounds check *)
(** a row lies outside the bounds *)
Definition outside (row : list R) (bounds : list (R * R)) : Prop :=
  exists c b, nth_error bounds c = Some b /\ (nth c row 0 < fst b \/ snd b < nth c row 0).
Lemma out1_iff b x : out1 b x = true <-> (x < fst b \/ snd b < x).
Proof. unfold out1. destruct (Rlt_dec x (fst b)); [tauto|]. destruct (Rlt_dec (snd b) x); [tauto|]. split; [discriminate|tauto]. Qed.
Definition column_out (samp : list (list R)) (b : R * R) (c : nat) : list bool := map (fun row => out1 b (nth c row 0)) samp.
(** the answer is the column of the first parameter that some sample violates *)
Lemma outbounds_shape samp : forall bounds col last, bounds <> [] ->
  (exists c b, nth_error bounds c = Some b /\ outbounds_from samp bounds col last = column_out samp b (col + c) /\
     existsb (fun x => x) (column_out samp b (col + c)) = true /\
     forall c' b', (c' < c)%nat -> nth_error bounds c' = Some b' -> existsb (fun x => x) (column_out samp b' (col + c')) = false) \/
  (outbounds_from samp bounds col last = map (fun _ => false) samp /\
   forall c b, nth_error bounds c = Some b -> existsb (fun x => x) (column_out samp b (col + c)) = false).
Proof.
  induction bounds as [|b t IH]; intros col last H; [contradiction|]. cbn [outbounds_from].
  fold (column_out samp b col). destruct (existsb (fun x => x) (column_out samp b col)) eqn:E.
  - left. exists 0%nat, b. rewrite Nat.add_0_r. repeat split; try assumption. intros; lia.
  - assert (E0 : column_out samp b col = map (fun _ => false) samp).
    { clear - E. unfold column_out in *. induction samp as [|r t IH]; [reflexivity|]. cbn in *. apply orb_false_iff in E. destruct E as [-> E]. rewrite IH by exact E. reflexivity. }
    destruct t as [|b2 t'].
    + right. cbn [outbounds_from]. split; [exact E0|]. intros c b' Hc. destruct c; [|destruct c; discriminate]. injection Hc as <-. rewrite Nat.add_0_r. exact E.
    + destruct (IH (S col) (column_out samp b col)) as [(c & b' & H1 & H2 & H3 & H4)|[H1 H2]]; [discriminate| |].
      * left. exists (S c), b'. replace (col + S c)%nat with (S col + c)%nat by lia. repeat split; try assumption.
        intros c' b'' Hc Hn. destruct c' as [|c']; [injection Hn as <-; rewrite Nat.add_0_r; exact E|].
        replace (col + S c')%nat with (S col + c')%nat by lia. apply (H4 c'); [lia|exact Hn].
      * right. split; [exact H1|]. intros c b' Hn. destruct c as [|c]; [injection Hn as <-; rewrite Nat.add_0_r; exact E|].
        replace (col + S c)%nat with (S col + c)%nat by lia. apply (H2 c). exact Hn.
Qed.
Lemma column_none samp b c row : existsb (fun x => x) (column_out samp b c) = false -> In row samp -> out1 b (nth c row 0) = false.
Proof.
  intros E I. destruct (out1 b (nth c row 0)) eqn:O; [|reflexivity]. exfalso. apply not_true_iff_false in E. apply E.
  apply existsb_exists. exists true. split; [|reflexivity]. unfold column_out. apply in_map_iff. exists row. split; assumption.
Qed.
(** one sample: flagged exactly if it is outside *)
Theorem C114_one_sample row bounds : bounds <> [] ->
  outbounds [row] bounds = [true] /\ outside row bounds \/ outbounds [row] bounds = [false] /\ ~ outside row bounds.
Proof.
  intros NE. unfold outbounds. destruct (outbounds_shape [row] bounds 0 (map (fun _ => true) [row]) NE) as [(c & b & H1 & H2 & H3 & _)|[H1 H2]].
  - left. rewrite H2. unfold column_out in *. cbn in H3 |- *. rewrite orb_false_r in H3. rewrite H3. split; [reflexivity|].
    exists c, b. split; [exact H1|]. apply out1_iff. exact H3.
  - right. split; [exact H1|]. intros (c & b & Hc & Ho). apply out1_iff in Ho.
    pose proof (column_none _ _ _ row (H2 c b Hc) (or_introl eq_refl)) as E. cbn in E. congruence.
Qed.
(** several samples: a flagged sample is outside, and nothing is flagged exactly if all are inside *)
Theorem C114_several samp bounds : bounds <> [] ->
  List.length (outbounds samp bounds) = List.length samp /\
  (forall i row, nth_error samp i = Some row -> nth_error (outbounds samp bounds) i = Some true -> outside row bounds) /\
  ((forall row, In row samp -> ~ outside row bounds) <-> outbounds samp bounds = map (fun _ => false) samp).
Proof.
  intros NE. unfold outbounds. destruct (outbounds_shape samp bounds 0 (map (fun _ => true) samp) NE) as [(c & b & H1 & H2 & H3 & _)|[H1 H2]].
  - rewrite H2. split; [unfold column_out; apply map_length|]. split.
    + intros i row Hr Hf. unfold column_out in Hf. rewrite nth_error_map, Hr in Hf. cbn in Hf. injection Hf as Hf.
      exists c, b. split; [exact H1|]. apply out1_iff. exact Hf.
    + apply existsb_exists in H3. destruct H3 as (x & Hx & ->). pose proof Hx as Hx2. unfold column_out in Hx. apply in_map_iff in Hx. destruct Hx as (row & Ho & Hi).
      split.
      * intros H. exfalso. apply (H row Hi). exists c, b. split; [exact H1|]. apply out1_iff. exact Ho.
      * intros E. rewrite E in Hx2. apply in_map_iff in Hx2. destruct Hx2 as (? & Hf & _). discriminate.
  - rewrite H1. split; [apply map_length|]. split.
    + intros i row Hr Hf. rewrite nth_error_map, Hr in Hf. discriminate.
    + split; [reflexivity|]. intros _ row Hi (c & b & Hc & Ho). apply out1_iff in Ho.
      pose proof (column_none _ _ _ row (H2 c b Hc) Hi) as E. cbn in E. congruence.
Qed.
(** ... but a sample outside in a later parameter goes unnoticed once another is outside in an earlier one *)
Theorem C114_missed_refuted : exists samp bounds row, nth_error samp 1 = Some row /\ outside row bounds /\
  outbounds samp bounds = [true; false].
Proof.
  exists [[2; 0]; [0; 2]], [(-1, 1); (-1, 1)], [0; 2]. split; [reflexivity|]. split.
  - exists 1%nat, (-1, 1). split; [reflexivity|]. cbn. right. lra.
  - unfold outbounds; cbn. unfold out1; cbn. repeat (destruct Rlt_dec; try lra); reflexivity.
Qed.
Example C114_example : outbounds [[0; 5]; [0; 0]; [1/2; -3]] [(-1, 1); (-1, 1)] = [true; false; true].
Proof. unfold outbounds; cbn. unfold out1; cbn. repeat (destruct Rlt_dec; try lra; cbn); reflexivity. Qed.

(** ** C115 the matrices of one Gaussian mode *)
Theorem C115_covariance_given n mus sigmas corr (c : mat) : (forall i, (i < n)%nat -> 0 < c i i) ->
  let m := add_mode n mus sigmas corr (Some c) in
  (forall i j, (i < n)%nat -> (j < n)%nat -> m_sigma m i * m_corr m i j * m_sigma m j = c i j) /\
  (forall i, (i < n)%nat -> m_corr m i i = 1 /\ 0 < m_sigma m i /\ m_sigma m i ^ 2 = c i i) /\
  ((forall i j, (i < n)%nat -> (j < n)%nat -> c i j = c j i) -> forall i j, (i < n)%nat -> (j < n)%nat -> m_corr m i j = m_corr m j i) /\
  m_cov m = c.
Proof.
  intros Hp m.
  assert (S : forall i, (i < n)%nat -> 0 < sqrt (c i i)) by (intros i Hi; apply sqrt_lt_R0, Hp, Hi).
  assert (E : forall i j, (i < n)%nat -> (j < n)%nat -> m_corr m i j = / sqrt (c i i) * c i j * / sqrt (c j j)).
  { intros i j Hi Hj. unfold m, add_mode; cbn [m_corr]. rewrite diag_r by exact Hj. rewrite diag_l by exact Hi. reflexivity. }
  split; [|split; [|split; [|reflexivity]]].
  - intros i j Hi Hj. rewrite E by assumption. unfold m, add_mode; cbn [m_sigma]. pose proof (S i Hi). pose proof (S j Hj). field. split; lra.
  - intros i Hi. rewrite E by assumption. unfold m, add_mode; cbn [m_sigma]. pose proof (S i Hi) as Si.
    assert (Q : sqrt (c i i) ^ 2 = c i i) by (cbn; rewrite Rmult_1_r; apply sqrt_sqrt; left; apply Hp, Hi).
    split; [|split; [exact Si|exact Q]]. rewrite <- Q at 2. field. lra.
  - intros Hs i j Hi Hj. rewrite !E by assumption. rewrite (Hs i j) by assumption. ring.
Qed.
Theorem C115_correlation_given n mus sg (r : mat) i j : (i < n)%nat -> (j < n)%nat ->
  m_cov (add_mode n mus (Some sg) (Some r) None) i j = sg i * sg j * r i j.
Proof. intros Hi Hj. unfold add_mode; cbn [m_cov]. rewrite diag_l by exact Hi. rewrite diag_r by exact Hj. ring. Qed.
(** giving back the standard deviations and correlations worked out from a covariance gives the same covariance *)
Theorem C115_roundtrip n mus sigmas corr (c : mat) i j : (forall i, (i < n)%nat -> 0 < c i i) -> (i < n)%nat -> (j < n)%nat ->
  let m := add_mode n mus sigmas corr (Some c) in
  m_cov (add_mode n mus (Some (m_sigma m)) (Some (m_corr m)) None) i j = c i j.
Proof.
  intros Hp Hi Hj m. rewrite C115_correlation_given by assumption.
  destruct (C115_covariance_given n mus sigmas corr c Hp) as (A & _). fold m in A. rewrite <- (A i j Hi Hj). ring.
Qed.
(** standard deviations without correlations, documented to mean uncorrelated parameters, are not used; nor the other way round *)
Theorem C115_sigmas_alone_refuted n mus sg r :
  (forall i, m_sigma (add_mode n mus (Some sg) None None) i = 1) /\
  (forall i j, m_cov (add_mode n mus None (Some r) None) i j = if Nat.eqb i j then 1 else 0).
Proof. split; intros; reflexivity. Qed.
Example C115_example : let m := add_mode 2 None None None (Some (fun i j => if Nat.eqb i j then (if Nat.eqb i 0 then 4 else 9) else 3)) in
  m_sigma m 0%nat = 2 /\ m_corr m 0%nat 1%nat = 1/2.
Proof.
  cbv zeta. assert (S4 : sqrt 4 = 2) by (replace 4 with (2 * 2) by lra; apply sqrt_square; lra).
  assert (S9 : sqrt 9 = 3) by (replace 9 with (3 * 3) by lra; apply sqrt_square; lra).
  split; [exact S4|]. unfold add_mode; cbn [m_corr]. rewrite diag_r by lia. rewrite diag_l by lia. cbn [Nat.eqb]. rewrite S4, S9. lra.
Qed.

(** ** C116 the transform to a correlated Gaussian *)
(** [evecs j] (column [j]) is an eigenvector of unit length with eigenvalue [evals j] *)
Definition eig_answer (n : nat) (r : mat) (evals : vec) (evecs : mat) : Prop :=
  (forall k j, (k < n)%nat -> (j < n)%nat -> vsum n (fun l => r k l * evecs l j) = evals j * evecs k j) /\
  (forall j, (j < n)%nat -> vsum n (fun k => evecs k j * evecs k j) = 1 /\ 0 < evals j).
(** the transform is affine; [factor] is its matrix *)
Definition factor (m : mode) (evals : vec) (evecs : mat) : mat := fun k j => m_sigma m k * sqrt (evals j) * evecs k j.
Lemma rescale_affine n m evals evecs z k : mvg_rescale n m evals evecs z k = m_mu m k + vsum n (fun j => factor m evals evecs k j * z j).
Proof. unfold mvg_rescale, factor. rewrite <- vsum_scal. f_equal. apply vsum_ext. intros. ring. Qed.
Lemma orthogonal_covariance n m evals evecs : eig_answer n (m_corr m) evals evecs ->
  (forall i j, (i < n)%nat -> (j < n)%nat -> i <> j -> vsum n (fun k => evecs k i * evecs k j) = 0) ->
  forall i k, (i < n)%nat -> (k < n)%nat ->
  vsum n (fun j => factor m evals evecs i j * factor m evals evecs k j) = m_sigma m i * m_sigma m k * m_corr m i k.
Proof.
  intros [EV U] OR i k Hi Hk.
  assert (L : forall a b, (a < n)%nat -> (b < n)%nat -> mmul n (transpose evecs) evecs a b = ident a b).
  { intros a b Ha Hb. unfold mmul, transpose, ident, diag. destruct (Nat.eqb_spec a b) as [->|N]; [apply U; exact Hb|apply OR; assumption]. }
  pose proof (left_right n evecs (transpose evecs) L) as RI.
  rewrite (vsum_ext n _ (fun j => m_sigma m i * m_sigma m k * (evals j * evecs i j * evecs k j))).
  2:{ intros j Hj. unfold factor. destruct (U j Hj) as [_ P]. rewrite <- (sqrt_sqrt (evals j)) at 3 by lra. ring. }
  rewrite vsum_scal. f_equal.
  (* sum_j evals j E i j E k j = sum_j (sum_l r i l E l j) E k j = sum_l r i l delta l k *)
  rewrite (vsum_ext n _ (fun j => vsum n (fun l => m_corr m i l * (evecs l j * evecs k j)))).
  2:{ intros j Hj. rewrite <- (EV i j Hi Hj), <- vsum_scal_r. apply vsum_ext. intros. ring. }
  rewrite vsum_swap.
  rewrite (vsum_ext n _ (fun l => m_corr m i l * ident l k)).
  2:{ intros l Hl. rewrite vsum_scal. f_equal. exact (RI l k Hl Hk). }
  exact (ident_r n (m_corr m) i k Hk).
Qed.
(** pairwise different eigenvalues: standard normal numbers are turned into numbers with the mode's covariance *)
Theorem C116_covariance n m evals evecs : eig_answer n (m_corr m) evals evecs ->
  (forall i j, (i < n)%nat -> (j < n)%nat -> m_corr m i j = m_corr m j i) ->
  (forall i j, (i < n)%nat -> (j < n)%nat -> i <> j -> evals i <> evals j) ->
  exists A : mat, (forall z k, mvg_rescale n m evals evecs z k = m_mu m k + vsum n (fun j => A k j * z j)) /\
  forall i k, (i < n)%nat -> (k < n)%nat -> vsum n (fun j => A i j * A k j) = m_sigma m i * m_sigma m k * m_corr m i k.
Proof.
  intros H SY D. exists (factor m evals evecs). split; [intros; apply rescale_affine|].
  apply orthogonal_covariance; [exact H|]. destruct H as [EV U]. intros i j Hi Hj N.
  (* evals i <E_i,E_j> = <R E_i, E_j> = <E_i, R E_j> = evals j <E_i,E_j> *)
  set (t := vsum n (fun k => evecs k i * evecs k j)).
  assert (E1 : vsum n (fun k => vsum n (fun l => m_corr m k l * evecs l i * evecs k j)) = evals i * t).
  { unfold t. rewrite <- vsum_scal. apply vsum_ext. intros k Hk. rewrite vsum_scal_r, (EV k i Hk Hi). ring. }
  assert (E2 : vsum n (fun k => vsum n (fun l => m_corr m k l * evecs l i * evecs k j)) = evals j * t).
  { rewrite vsum_swap. unfold t. rewrite <- vsum_scal. apply vsum_ext. intros l Hl.
    rewrite (vsum_ext n _ (fun k => m_corr m l k * evecs k j * evecs l i)) by (intros k Hk; rewrite (SY k l) by assumption; ring).
    rewrite vsum_scal_r, (EV l j Hl Hj). ring. }
  assert (X : (evals i - evals j) * t = 0) by lra.
  apply Rmult_integral in X. destruct X as [X|X]; [|exact X]. exfalso. apply (D i j Hi Hj N). lra.
Qed.
(** with a repeated eigenvalue unit eigenvectors need not be orthogonal, and np.linalg.eig does not
    make them so: three equally correlated parameters *)
Definition equal_corr : mat := fun i j => if Nat.eqb i j then 1 else 1/2.
Theorem C116_repeated_refuted : exists evals evecs,
  let m := add_mode 3 None (Some (fun _ => 1)) (Some equal_corr) None in
  eig_answer 3 (m_corr m) evals evecs /\
  (forall x, (forall k, (k < 3)%nat -> vsum 3 (fun j => evecs k j * x j) = 0) -> forall j, (j < 3)%nat -> x j = 0) /\
  exists A : mat, (forall z k, mvg_rescale 3 m evals evecs z k = m_mu m k + vsum 3 (fun j => A k j * z j)) /\
  vsum 3 (fun j => A 0%nat j * A 0%nat j) = 7/6 /\ m_cov m 0%nat 0%nat = 1.
Proof.
  set (a := / sqrt 3). set (b := / sqrt 2).
  assert (Ha : a * a = 1/3).
  { unfold a. rewrite <- Rinv_mult. rewrite sqrt_sqrt by lra. lra. }
  assert (Hb : b * b = 1/2).
  { unfold b. rewrite <- Rinv_mult. rewrite sqrt_sqrt by lra. lra. }
  assert (Pa : 0 < a) by (apply Rinv_0_lt_compat, sqrt_lt_R0; lra).
  assert (Pb : 0 < b) by (apply Rinv_0_lt_compat, sqrt_lt_R0; lra).
  set (evals := fun j : nat => match j with O => 2 | _ => 1/2 end).
  set (evecs := fun k j : nat => match j with
     | O => a
     | 1%nat => match k with O => b | 1%nat => - b | _ => 0 end
     | _ => match k with O => b | 1%nat => 0 | _ => - b end end).
  exists evals, evecs. cbv zeta. split; [|split].
  - split.
    + intros k j Hk Hj. destruct k as [|[|[|k]]]; [| | |lia]; destruct j as [|[|[|j]]]; try (exfalso; clear - Hj; lia); unfold evals, evecs; cbn; unfold equal_corr; cbn; lra.
    + intros j Hj. destruct j as [|[|[|j]]]; [| | |lia]; cbn; split; lra.
  - intros x H j Hj. pose proof (H 0%nat ltac:(lia)) as H0. pose proof (H 1%nat ltac:(lia)) as H1. pose proof (H 2%nat ltac:(lia)) as H2.
    cbn in H0, H1, H2.
    assert (X0 : a * x 0%nat = 0) by lra. assert (X1 : b * x 1%nat = 0) by lra. assert (X2 : b * x 2%nat = 0) by lra.
    assert (G : forall c y, 0 < c -> c * y = 0 -> y = 0) by (intros c y Hc E; apply Rmult_integral in E; destruct E; lra).
    destruct j as [|[|[|j]]]; [apply (G a)|apply (G b)|apply (G b)|lia]; assumption.
  - exists (factor (add_mode 3 None (Some (fun _ => 1)) (Some equal_corr) None) evals evecs).
    split; [intros; apply rescale_affine|]. split.
    + cbn [vsum]. unfold factor. cbn [m_sigma add_mode evals evecs].
      assert (S2 : sqrt 2 * sqrt 2 = 2) by (apply sqrt_sqrt; lra). assert (Sh : sqrt (1/2) * sqrt (1/2) = 1/2) by (apply sqrt_sqrt; lra).
      replace (0 + 1 * sqrt 2 * a * (1 * sqrt 2 * a) + 1 * sqrt (1/2) * b * (1 * sqrt (1/2) * b) + 1 * sqrt (1/2) * b * (1 * sqrt (1/2) * b))
        with ((sqrt 2 * sqrt 2) * (a * a) + 2 * ((sqrt (1/2) * sqrt (1/2)) * (b * b))) by ring.
      rewrite S2, Sh, Ha, Hb. lra.
    + rewrite C115_correlation_given by lia. unfold equal_corr. cbn. lra.
Qed.
Example C116_example : let m := add_mode 2 None (Some (fun i => match i with O => 2 | _ => 3 end)) (Some (fun i j => if Nat.eqb i j then 1 else 1/2)) None in
  m_cov m 0%nat 1%nat = 3 /\ mvg_rescale 2 m (fun _ => 1) (fun i j => if Nat.eqb i j then 1 else 0) (fun _ => 5) 1%nat = 15.
Proof.
  cbv zeta. split; [rewrite C115_correlation_given by lia; cbn; lra|].
  unfold mvg_rescale. cbn. rewrite sqrt_1. lra.
Qed.

(** ** C117 several modes *)
Lemma rsum_cut a t k : rsum_list (firstn (S k) (a :: t)) = a + rsum_list (firstn k t).
Proof. reflexivity. Qed.
Lemma cumsum_nth l : forall acc k x, nth_error (cumsum acc l) k = Some x -> x = acc + rsum_list (firstn (S k) l).
Proof.
  induction l as [|a t IH]; intros acc k x H; [destruct k; discriminate|]. destruct k as [|k].
  - cbn in H. injection H as <-. cbn. lra.
  - cbn in H. rewrite (IH _ _ _ H). rewrite (rsum_cut a t (S k)). ring.
Qed.
Lemma cumsum_length l : forall acc, List.length (cumsum acc l) = List.length l.
Proof. induction l; intros; cbn; [reflexivity|]. rewrite IHl. reflexivity. Qed.
Lemma first_above_spec l u : forall i k, first_above l u i = Some k <->
  (i <= k)%nat /\ (exists c, nth_error l (k - i) = Some c /\ u < c) /\ forall j c, (j < k - i)%nat -> nth_error l j = Some c -> c <= u.
Proof.
  induction l as [|a t IH]; intros i k.
  - cbn. split; [discriminate|]. intros (_ & (c & H & _) & _). destruct (k - i)%nat; discriminate.
  - cbn [first_above]. destruct (Rlt_dec 0 (a - u)) as [P|P].
    + split.
      * intros H. injection H as <-. rewrite Nat.sub_diag. split; [lia|]. split; [exists a; split; [reflexivity|lra]|]. intros; lia.
      * intros (L & _ & H). destruct (Nat.eq_dec k i) as [->|N]; [reflexivity|]. exfalso. specialize (H 0%nat a ltac:(lia) eq_refl). lra.
    + rewrite IH. split.
      * intros (L & (c & Hc & Hu) & H). split; [lia|]. replace (k - i)%nat with (S (k - S i)) by lia. split; [exists c; split; assumption|].
        intros j x Hj Hx. destruct j as [|j]; [injection Hx as <-; lra|]. apply (H j); [lia|exact Hx].
      * intros (L & (c & Hc & Hu) & H). destruct (Nat.eq_dec k i) as [->|N].
        -- exfalso. rewrite Nat.sub_diag in Hc. injection Hc as <-. lra.
        -- replace (k - i)%nat with (S (k - S i)) in Hc by lia. split; [lia|]. split; [exists c; split; assumption|].
           intros j x Hj Hx. apply (H (S j)); [lia|exact Hx].
Qed.
Lemma rsum_firstn w k x : nth_error w k = Some x -> rsum_list (firstn (S k) w) = rsum_list (firstn k w) + x.
Proof.
  revert k. induction w as [|a t IH]; intros k H; [destruct k; discriminate|]. destruct k as [|k].
  - injection H as <-. cbn. lra.
  - cbn [firstn]. change (a + rsum_list (firstn (S k) t) = a + rsum_list (firstn k t) + x). rewrite (IH k H). lra.
Qed.
Lemma rsum_mono w k j : (forall x, In x w -> 0 <= x) -> (j <= k)%nat -> rsum_list (firstn j w) <= rsum_list (firstn k w).
Proof.
  revert k j. induction w as [|a t IH]; intros k j H L; [rewrite !firstn_nil; lra|].
  assert (P : forall k, 0 <= rsum_list (firstn k t)).
  { assert (Ht : forall x, In x t -> 0 <= x) by (intros; apply H; right; assumption). clear - Ht. induction t as [|b t IHt]; intros k; [rewrite firstn_nil; cbn; lra|].
    destruct k; [cbn; lra|]. cbn [firstn]. change (0 <= b + rsum_list (firstn k t)). pose proof (Ht b (or_introl eq_refl)).
    specialize (IHt ltac:(intros; apply Ht; right; assumption) k). lra. }
  destruct k as [|k], j as [|j]; try lia; [cbn; lra| |].
  - cbn [firstn]. change (0 <= a + rsum_list (firstn k t)). pose proof (H a (or_introl eq_refl)). specialize (P k). lra.
  - cbn [firstn]. change (a + rsum_list (firstn j t) <= a + rsum_list (firstn k t)). specialize (IH k j ltac:(intros; apply H; right; assumption) ltac:(lia)). lra.
Qed.
(** mode [k] is drawn exactly for a uniform number in an interval of length weight k / sum of the weights *)
Theorem C117_mode_probability w k x u : (forall y, In y w -> 0 <= y) -> 0 < rsum_list w -> 0 <= u -> nth_error w k = Some x ->
  let lo := rsum_list (firstn k w) / rsum_list w in
  (pick_mode w u = Some k <-> lo <= u < lo + x / rsum_list w).
Proof.
  intros Hw Hs Hu Hk lo. unfold pick_mode. rewrite first_above_spec, Nat.sub_0_r.
  assert (N : forall j c, nth_error (cumweights w) j = Some c -> c = rsum_list (firstn (S j) w) / rsum_list w).
  { intros j c H. unfold cumweights in H. rewrite nth_error_map in H. destruct (nth_error (cumsum 0 w) j) as [d|] eqn:E; [|discriminate].
    cbn in H. injection H as <-. rewrite (cumsum_nth _ _ _ _ E). f_equal. lra. }
  assert (NE : exists c, nth_error (cumweights w) k = Some c).
  { destruct (nth_error (cumweights w) k) eqn:E; [eauto|]. exfalso. apply nth_error_None in E. unfold cumweights in E. rewrite map_length, cumsum_length in E.
    assert (k < List.length w)%nat by (apply nth_error_Some; congruence). lia. }
  destruct NE as (c & Hc). pose proof (N k c Hc) as Ec. rewrite (rsum_firstn w k x Hk) in Ec.
  assert (Ec2 : c = lo + x / rsum_list w) by (rewrite Ec; unfold lo; field; lra).
  split.
  - intros (_ & (c' & Hc' & Hl) & H). rewrite Hc in Hc'. injection Hc' as <-. split; [|lra].
    destruct k as [|k]; [unfold lo; cbn; unfold Rdiv; rewrite Rmult_0_l; exact Hu|].
    assert (exists d, nth_error (cumweights w) k = Some d) as (d & Hd).
    { destruct (nth_error (cumweights w) k) eqn:E; [eauto|]. exfalso. apply nth_error_None in E.
      assert (S k < List.length (cumweights w))%nat by (apply nth_error_Some; congruence). lia. }
    specialize (H k d ltac:(lia) Hd). rewrite (N k d Hd) in H. exact H.
  - intros [H1 H2]. split; [lia|]. split; [exists c; split; [exact Hc|lra]|].
    intros j d Hj Hd. rewrite (N j d Hd). apply Rle_trans with lo; [|exact H1]. unfold lo. unfold Rdiv.
    apply Rmult_le_compat_r; [left; apply Rinv_0_lt_compat; exact Hs|]. apply rsum_mono; [exact Hw|lia].
Qed.
(** the density is the plain sum over the modes: the number of modes times the equal-weight mixture *)
Theorem C117_density dens x : dens <> [] ->
  mvg_prob dens x = INR (List.length dens) * rsum_list (map (fun f => / INR (List.length dens) * f x) dens).
Proof.
  intros NE. assert (P : 0 < INR (List.length dens)) by (apply lt_0_INR; destruct dens; [contradiction|cbn; lia]).
  set (c := INR (List.length dens)) in *. clearbody c. unfold mvg_prob.
  assert (G : forall l acc, fold_left (fun acc f => acc + f x) l acc = acc + c * rsum_list (map (fun f => / c * f x) l)).
  { induction l as [|f t IH]; intros acc; cbn [fold_left map]; [cbn; ring|]. rewrite IH.
    change (rsum_list (/ c * f x :: map (fun f0 => / c * f0 x) t)) with (/ c * f x + rsum_list (map (fun f0 => / c * f0 x) t)). field. lra. }
  rewrite G. ring.
Qed.
(** so with unequal weights it is not proportional to the density of the draws *)
Theorem C117_weights_refuted : exists (w : list R) (dens : list (vec -> R)) x y, (forall v, In v w -> 0 < v) /\ List.length w = List.length dens /\
  let mixture := fun z => rsum_list (map (fun p => fst p / rsum_list w * snd p z) (combine w dens)) in
  mvg_prob dens x * mixture y <> mvg_prob dens y * mixture x.
Proof.
  exists [1; 3], [fun z => z 0%nat; fun z => 1 - z 0%nat], (fun _ => 1), (fun _ => 0). split; [intros v [<-|[<-|[]]]; lra|].
  split; [reflexivity|]. cbn. lra.
Qed.
Example C117_example : pick_mode [1; 3] (1/8) = Some 0%nat /\ pick_mode [1; 3] (1/4) = Some 1%nat.
Proof.
  split.
  - apply (C117_mode_probability [1; 3] 0 1 (1/8)); [intros y [<-|[<-|[]]]; lra|cbn; lra|lra|reflexivity|cbn; lra].
  - apply (C117_mode_probability [1; 3] 1 3 (1/4)); [intros y [<-|[<-|[]]]; lra|cbn; lra|lra|reflexivity|cbn; lra].
Qed.

(** ** Assumptions of every theorem above *)
Definition Joint_Props_all :=
  (@C111_dictionary,
   @C111_incomplete_refuted,
   @C111_error_refuted,
   @C111_shapes,
   @C112_contiguous,
   @C112_order_refuted,
   @C112_between_refuted,
   @C113_round,
   @C113_unfinished_refuted,
   @C114_one_sample,
   @C114_several,
   @C114_missed_refuted,
   @C115_covariance_given,
   @C115_correlation_given,
   @C115_roundtrip,
   @C115_sigmas_alone_refuted,
   @C116_covariance,
   @C116_repeated_refuted,
   @C117_mode_probability,
   @C117_density,
   @C117_weights_refuted).
Print Assumptions Joint_Props_all.
