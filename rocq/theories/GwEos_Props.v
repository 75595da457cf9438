(** * Properties of the neutron-star equations of state and of the binary Love relations *)
From Coq Require Import Reals String List Bool Arith Lia Lra Psatz.
From Coquelicot Require Import Coquelicot.
From Verif Require Import PyReal PyDict GwMass_Model GwGen_Model GwBns_Model.
Import ListNotations.
Open Scope R_scope. Open Scope string_scope. Open Scope list_scope.

(** ** C140: arrays of samples *)
(** what parameter [c] is for sample [i] *)
Definition at_sample (i : nat) (c : cell) : num := match c with Fl x => x | Ar l => nth i l None end.

Lemma get_all_some : forall {V} (d : dict V) ks cs, get_all d ks = Some cs -> length cs = length ks /\ forall k, In k ks -> exists c, dget d k = Some c /\ In c cs.
Proof.
  induction ks as [|k ks IH]; intros cs H; cbn in H; [apply some_inj in H; subst; split; [reflexivity|intros k []]|].
  destruct (dget d k) as [v|] eqn:G; [|discriminate]. destruct (get_all d ks) as [t|]; [|discriminate]. apply some_inj in H. subst cs.
  destruct (IH t eq_refl) as [L I]. split; [cbn; rewrite L; reflexivity|]. intros a [<-|A]; [exists v; cbn; auto|]. destruct (I a A) as [c [C1 C2]]. exists c. cbn. auto.
Qed.
Lemma get_all_map : forall {V} (d d' : dict V) (f : V -> V) ks cs, get_all d ks = Some cs -> (forall k v, In k ks -> dget d k = Some v -> dget d' k = Some (f v)) -> get_all d' ks = Some (map f cs).
Proof.
  induction ks as [|k ks IH]; intros cs H F; cbn in H |- *; [apply some_inj in H; subst; reflexivity|].
  destruct (dget d k) as [v|] eqn:G; [|discriminate]. destruct (get_all d ks) as [t|] eqn:T; [|discriminate]. apply some_inj in H. subst cs.
  rewrite (F k v (or_introl eq_refl) G), (IH t eq_refl) by (intros; apply F; [right|]; assumption). reflexivity.
Qed.
Definition widen (n : nat) (c : cell) : cell := match c with Fl x => Ar (repeat x n) | Ar l => Ar l end.
Lemma expand_fold : forall n ks (d : dict cell) k, NoDup ks ->
  dget (fold_left (expand_step n) ks d) k = if in_dec string_dec k ks then option_map (widen n) (dget d k) else dget d k.
Proof.
  induction ks as [|a ks IH]; intros d k ND; cbn [fold_left]; [reflexivity|].
  destruct (proj1 (NoDup_cons_iff a ks) ND) as [NA NK]. rewrite IH by exact NK.
  assert (X : dget (expand_step n d a) k = if string_dec k a then option_map (widen n) (dget d k) else dget d k).
  { unfold expand_step. destruct (dget d a) as [[x|l]|] eqn:G; destruct (string_dec k a) as [->|NE]; rewrite ?dget_set_eq, ?G; try reflexivity. rewrite dget_set_ne by exact NE. reflexivity. }
  rewrite X. destruct (in_dec string_dec k (a :: ks)) as [I|I]; destruct (in_dec string_dec k ks) as [J|J]; destruct (string_dec k a) as [E|E]; try reflexivity; subst; try contradiction.
  all: exfalso; cbn in *; intuition congruence.
Qed.
Lemma restore_fold : forall (orig : dict cell) ks (d : dict cell) k,
  dget (fold_left (restore_step orig) ks d) k = if in_dec string_dec k ks then match dget orig k with Some (Fl x) => Some (Fl x) | _ => dget d k end else dget d k.
Proof.
  induction ks as [|a ks IH]; intros d k; cbn [fold_left]; [reflexivity|]. rewrite IH.
  assert (X : dget (restore_step orig d a) k = if string_dec k a then match dget orig k with Some (Fl x) => Some (Fl x) | _ => dget d k end else dget d k).
  { unfold restore_step. destruct (string_dec k a) as [->|NE]; [destruct (dget orig a) as [[x|l]|]; rewrite ?dget_set_eq; reflexivity|].
    destruct (dget orig a) as [[x|l]|]; try reflexivity. apply dget_set_ne, NE. }
  rewrite X. destruct (in_dec string_dec k (a :: ks)) as [I|I]; destruct (in_dec string_dec k ks) as [J|J]; destruct (string_dec k a) as [E|E]; subst; try reflexivity; try (destruct (dget orig _) as [[?|?]|]; reflexivity).
  all: exfalso; cbn in *; intuition congruence.
Qed.
Lemma max_len_ge : forall cs m, (m <= fold_left (fun m c => match c with Fl _ => m | Ar l => Nat.max m (length l) end) cs m)%nat /\
  forall l, In (Ar l) cs -> (length l <= fold_left (fun m c => match c with Fl _ => m | Ar l => Nat.max m (length l) end) cs m)%nat.
Proof.
  induction cs as [|c cs IH]; intros m; cbn [fold_left]; [split; [lia|intros l []]|].
  destruct (IH (match c with Fl _ => m | Ar l => Nat.max m (length l) end)) as [A B]. split; [destruct c; lia|].
  intros l [->|I]; [cbn in A |- *; lia|apply B, I].
Qed.
Lemma zip_rows_spec : forall fuel m cols, (m <= fuel)%nat -> (forall c, In c cols -> (m <= length c)%nat) -> (exists c, In c cols /\ length c = m) ->
  zip_rows fuel cols = map (fun i => map (fun c => nth i c None) cols) (seq 0 m).
Proof.
  induction fuel as [|fuel IH]; intros m cols L A [c0 [C1 C2]]; cbn [zip_rows]; [replace m with 0%nat by lia; reflexivity|].
  destruct m as [|m].
  - replace (forallb _ cols) with false; [reflexivity|]. symmetry. apply not_true_is_false. intro T. rewrite forallb_forall in T. specialize (T c0 C1). destruct c0; discriminate.
  - replace (forallb _ cols) with true.
    2:{ symmetry. apply forallb_forall. intros c C. specialize (A c C). destruct c; [cbn in A; lia|reflexivity]. }
    rewrite (IH m).
    + cbn [seq map]. f_equal; [apply map_ext; intros [|x c]; reflexivity|]. rewrite <- seq_shift, map_map. apply map_ext. intros i. rewrite map_map. apply map_ext. intros [|x c]; [destruct i|]; reflexivity.
    + lia.
    + intros c C. apply in_map_iff in C as [c' [<- C']]. specialize (A c' C'). destruct c'; cbn in *; lia.
    + exists (tl c0). split; [apply in_map, C1|]. destruct c0; cbn in *; lia.
Qed.

Section Loop.
Variables (ks : list string) (f : row).
Hypothesis keys_nodup : NoDup ks.
Hypothesis keys_apart : forall k, In k ["lambda_1"; "lambda_2"; "eos_check"] -> ~ In k ks.
(** arrays: as many results as the shortest array has elements; each is what its own sample gives; nothing else changes *)
Theorem C140_loop : forall (d : dict cell) cs m, get_all d ks = Some cs -> (exists l, In (Ar l) cs /\ length l = m) -> (forall l, In (Ar l) cs -> (m <= length l)%nat) ->
  exists o l1 l2 ck, eos_columns ks f d = Some o /\ dget o "lambda_1" = Some (Ar l1) /\ dget o "lambda_2" = Some (Ar l2) /\ dget o "eos_check" = Some (Ar ck) /\
    length l1 = m /\ length l2 = m /\ length ck = m /\
    (forall i, (i < m)%nat -> (nth i l1 None, nth i l2 None, nth i ck None) = on_row f (map (at_sample i) cs)) /\
    (forall k, ~ In k ["lambda_1"; "lambda_2"; "eos_check"] -> dget o k = dget d k).
Proof using keys_nodup keys_apart.
  intros d cs m G [l0 [L1 L2]] LE. unfold eos_columns. rewrite G.
  replace (forallb is_float cs) with false by (symmetry; apply not_true_is_false; intro T; rewrite forallb_forall in T; specialize (T _ L1); discriminate).
  cbv zeta. set (n := max_len cs). assert (MN : (m <= n)%nat) by (rewrite <- L2; exact (proj2 (max_len_ge cs 1%nat) l0 L1)).
  rewrite (get_all_map d _ (widen n) ks cs G).
  2:{ intros k v K V. rewrite expand_fold by exact keys_nodup. destruct (in_dec string_dec k ks); [|contradiction]. rewrite V. reflexivity. }
  set (outs := map (on_row f) _).
  assert (O : outs = map (fun i => on_row f (map (at_sample i) cs)) (seq 0 m)).
  { unfold outs. rewrite (map_map (widen n) (expand n)). rewrite (zip_rows_spec n m).
    - rewrite map_map. apply map_ext_in. intros i I. apply in_seq in I. f_equal. rewrite map_map. apply map_ext_in. intros c C. destruct c as [x|l]; [|reflexivity].
      cbn. rewrite (nth_indep _ None x) by (rewrite repeat_length; lia). apply nth_repeat.
    - exact MN.
    - intros c C. apply in_map_iff in C as [c' [<- C']]. destruct c' as [x|l]; cbn; [rewrite repeat_length; exact MN|apply LE, C'].
    - exists l0. split; [|exact L2]. apply in_map_iff. exists (Ar l0). auto. }
  eexists. exists (map (fun t => fst (fst t)) outs), (map (fun t => snd (fst t)) outs), (map snd outs). split; [reflexivity|].
  assert (K3 : forall k, In k ["lambda_1"; "lambda_2"; "eos_check"] -> forall (o : dict cell), dget (fold_left (restore_step d) ks o) k = dget o k).
  { intros k K o. rewrite restore_fold. destruct (in_dec string_dec k ks) as [I|I]; [exfalso; exact (keys_apart k K I)|reflexivity]. }
  rewrite !K3 by (cbn; auto). unfold store3. rewrite dget_set_ne, dget_set_ne, dget_set_eq by discriminate. rewrite dget_set_ne, dget_set_eq by discriminate. rewrite dget_set_eq.
  split; [reflexivity|]. split; [reflexivity|]. split; [reflexivity|]. rewrite !map_length, O, map_length, seq_length. do 3 (split; [reflexivity|]). split.
  - intros i I.
    assert (N : forall (h : num * num * num -> num), nth i (map h (map (fun i => on_row f (map (at_sample i) cs)) (seq 0 m))) None = h (on_row f (map (at_sample i) cs))).
    { intros h. rewrite map_map. rewrite (nth_indep _ None (h (on_row f (map (at_sample 0) cs)))) by (rewrite map_length, seq_length; exact I).
      rewrite (map_nth (fun i => h (on_row f (map (at_sample i) cs)))). rewrite seq_nth by exact I. reflexivity. }
    rewrite (N (fun t => fst (fst t))), (N (fun t => snd (fst t))), (N snd). destruct (on_row f (map (at_sample i) cs)) as [[a b] c]. reflexivity.
  - intros k K. rewrite restore_fold. rewrite !dget_set_ne by (intros ->; apply K; cbn; auto). rewrite expand_fold by exact keys_nodup.
    destruct (in_dec string_dec k ks); [|reflexivity]. destruct (dget d k) as [[x|l]|]; reflexivity.
Qed.
(** all parameters floats: what [eos_step] stores *)
Theorem C140_floats : forall (d : dict cell) (xs : list num), get_all d ks = Some (map Fl xs) ->
  exists o a b c, eos_columns ks f d = Some o /\ on_row f xs = (a, b, c) /\ dget o "lambda_1" = Some (Fl a) /\ dget o "lambda_2" = Some (Fl b) /\ dget o "eos_check" = Some (Fl c) /\
    (forall k, ~ In k ["lambda_1"; "lambda_2"; "eos_check"] -> dget o k = dget d k).
Proof using.
  intros d xs G. unfold eos_columns. rewrite G.
  replace (forallb is_float (map Fl xs)) with true by (symmetry; apply forallb_forall; intros c C; apply in_map_iff in C as [x [<- _]]; reflexivity).
  rewrite map_map, map_id. destruct (on_row f xs) as [[a b] c] eqn:E. eexists. exists a, b, c. split; [reflexivity|]. split; [reflexivity|].
  unfold store3. rewrite dget_set_ne, dget_set_ne, dget_set_eq by discriminate. rewrite dget_set_ne, dget_set_eq by discriminate. rewrite dget_set_eq.
  do 3 (split; [reflexivity|]). intros k K. rewrite !dget_set_ne by (intros ->; apply K; cbn; auto). reflexivity.
Qed.
(** the conversion of a table one row at a time gives the same numbers as the conversion of its columns *)
Corollary C140_rowwise : forall (d : dict cell) cs n i (di : dict cell), get_all d ks = Some cs -> (exists l, In (Ar l) cs) -> (forall l, In (Ar l) cs -> length l = n) -> (i < n)%nat ->
  get_all di ks = Some (map (fun c => Fl (at_sample i c)) cs) ->
  exists o oi, eos_columns ks f d = Some o /\ eos_columns ks f di = Some oi /\
    forall k, In k ["lambda_1"; "lambda_2"; "eos_check"] -> option_map (at_sample i) (dget o k) = option_map (at_sample 0) (dget oi k) /\ dget o k <> None.
Proof using keys_nodup keys_apart.
  intros d cs n i di G [l0 L0] LE I GI.
  destruct (C140_loop d cs n G) as [o [l1 [l2 [ck [E [G1 [G2 [G3 [_ [_ [_ [V _]]]]]]]]]]]]; [exists l0; auto|intros l L; rewrite (LE l L); lia|].
  assert (GX : get_all di ks = Some (map Fl (map (at_sample i) cs))) by (rewrite map_map; exact GI).
  destruct (C140_floats di _ GX) as [oi [a [b [c [EI [R [H1 [H2 [H3 _]]]]]]]]]. exists o, oi. split; [exact E|]. split; [exact EI|].
  specialize (V i I). rewrite R in V. injection V as V1 V2 V3.
  intros k K. cbn in K. destruct K as [<-|[<-|[<-|[]]]]; rewrite ?G1, ?G2, ?G3, ?H1, ?H2, ?H3; cbn; rewrite ?V1, ?V2, ?V3; (split; [reflexivity|discriminate]).
Qed.
End Loop.
(** the four lists of keys satisfy the two conditions *)
Lemma branch_keys : forall ks, In ks [pca_keys; poly_keys; scaled_keys; causal_keys] -> NoDup ks /\ forall k, In k ["lambda_1"; "lambda_2"; "eos_check"] -> ~ In k ks.
Proof.
  intros ks K. split.
  - cbn in K. repeat destruct K as [<-|K]; try contradiction; repeat constructor; cbn; intuition discriminate.
  - intros k I J. cbn in K, I. repeat destruct K as [<-|K]; try contradiction; repeat destruct I as [<-|I]; try contradiction; cbn in J; intuition discriminate.
Qed.
Definition sum_row : row := fun l => match l with [a; b; c; d; m1; m2] => Some (Some (a + b + c + d + m1), Some (a + b + c + d + m2), if Rle_dec m2 m1 then true else false) | _ => None end.
(** an array of one element is not broadcast: only the first of two samples is converted, and nothing is said *)
Theorem C140_broadcast_refuted : exists (d : dict cell) o l, eos_columns pca_keys sum_row d = Some o /\
  dget d "mass_1_source" = Some (Ar [Some 2; Some 3]) /\ dget d "eos_spectral_pca_gamma_0" = Some (Ar [Some 1]) /\ dget o "lambda_1" = Some (Ar l) /\ length l = 1%nat.
Proof.
  set (d := [("eos_spectral_pca_gamma_0", Ar [Some 1]); ("eos_spectral_pca_gamma_1", Fl (Some 0)); ("eos_spectral_pca_gamma_2", Fl (Some 0)); ("eos_spectral_pca_gamma_3", Fl (Some 0));
    ("mass_1_source", Ar [Some 2; Some 3]); ("mass_2_source", Ar [Some 1; Some 1])]).
  destruct (branch_keys pca_keys (or_introl eq_refl)) as [ND AP].
  destruct (C140_loop pca_keys sum_row ND AP d [Ar [Some 1]; Fl (Some 0); Fl (Some 0); Fl (Some 0); Ar [Some 2; Some 3]; Ar [Some 1; Some 1]] 1%nat eq_refl) as [o [l1 [_ [_ [E [G1 [_ [_ [L _]]]]]]]]].
  - exists [Some 1]. cbn. auto.
  - intros l H. cbn in H. repeat destruct H as [H|H]; try discriminate; try contradiction; injection H as <-; cbn; lia.
  - exists d, o, l1. repeat split; assumption.
Qed.
Example C140_example : exists o,
  eos_columns pca_keys sum_row [("eos_spectral_pca_gamma_0", Ar [Some 1; Some 2]); ("eos_spectral_pca_gamma_1", Fl (Some 10)); ("eos_spectral_pca_gamma_2", Fl (Some 0));
    ("eos_spectral_pca_gamma_3", Fl (Some 0)); ("mass_1_source", Ar [Some 2; None]); ("mass_2_source", Fl (Some 1)); ("psi", Fl (Some 7))] = Some o /\
  dget o "lambda_1" = Some (Ar [Some (1 + 10 + 0 + 0 + 2); None]) /\ dget o "eos_spectral_pca_gamma_1" = Some (Fl (Some 10)) /\ dget o "psi" = Some (Fl (Some 7)) /\
  option_map (at_sample 0) (dget o "eos_check") = Some (Some 1).
Proof.
  eexists. split; [reflexivity|]. cbn. destruct (Rle_dec 1 2); [|lra]. repeat split.
Qed.

(** ** C141: viability and value of the tidal deformabilities *)
Section Eos.
Variable eos : Type.
Variables (sd_eos : R -> R -> R -> R -> eos) (sd_gamma_bad sd_family_bad : R -> R -> R -> R -> bool).
Variables (poly_eos : bool -> R -> R -> R -> R -> R -> eos) (poly_bad : R -> R -> R -> R -> R -> bool -> bool).
Variables (max_sound min_mass_si max_mass_si : eos -> R) (radius love_k2 : R -> eos -> R).
Variables solar_mass grav light : R.
Notation fam := (family_check eos max_sound min_mass_si max_mass_si radius love_k2 solar_mass grav light).
Notation spectral := (spectral_lambdas eos sd_eos sd_gamma_bad sd_family_bad max_sound min_mass_si max_mass_si radius love_k2 solar_mass grav light).
Notation piecewise := (piecewise_lambdas eos poly_eos poly_bad max_sound min_mass_si max_mass_si radius love_k2 solar_mass grav light).
Notation lam := (lambda_from_mass eos radius love_k2 solar_mass grav light).
(** a star of mass [m] (in solar masses) is in the mass range of the family *)
Definition in_range (e : eos) (m : R) : Prop := min_mass_si e <= m * solar_mass <= max_mass_si e.
Definition physical (e : eos) (m1 m2 : R) : Prop := max_sound e <= 11 / 10 /\ in_range e m1 /\ in_range e m2.

Lemma family_cases : forall e m1 m2, 0 < solar_mass ->
  (physical e m1 m2 /\ fam e m1 m2 = (lam m1 e, lam m2 e, true)) \/ (~ physical e m1 m2 /\ fam e m1 m2 = (Some 0, Some 0, false)).
Proof using.
  clear sd_eos sd_gamma_bad sd_family_bad poly_eos poly_bad. intros e m1 m2 S.
  assert (D1 : forall x m, x / solar_mass <= m <-> x <= m * solar_mass) by (intros x m; split; intro H; [apply Rmult_le_compat_r with (r := solar_mass) in H; [|lra]; field_simplify in H; lra|apply Rmult_le_reg_r with solar_mass; [lra|]; field_simplify; lra]).
  assert (D2 : forall x m, m <= x / solar_mass <-> m * solar_mass <= x) by (intros x m; split; intro H; [apply Rmult_le_compat_r with (r := solar_mass) in H; [|lra]; field_simplify in H; lra|apply Rmult_le_reg_r with solar_mass; [lra|]; field_simplify; lra]).
  unfold family_check, physical, in_range, rle.
  destruct (Rle_dec (max_sound e) (11 / 10)) as [A|A]; cbn [andb]; [|right; split; [tauto|reflexivity]].
  destruct (Rle_dec (min_mass_si e / solar_mass) m1) as [B|B]; rewrite D1 in B; cbn [andb]; [|right; split; [tauto|reflexivity]].
  destruct (Rle_dec m1 (max_mass_si e / solar_mass)) as [C|C]; rewrite D2 in C; cbn [andb]; [|right; split; [tauto|reflexivity]].
  destruct (Rle_dec (min_mass_si e / solar_mass) m2) as [B'|B']; rewrite D1 in B'; cbn [andb]; [|right; split; [tauto|reflexivity]].
  destruct (Rle_dec m2 (max_mass_si e / solar_mass)) as [C'|C']; rewrite D2 in C'; cbn [andb]; [|right; split; [tauto|reflexivity]].
  left. split; [tauto|reflexivity].
Qed.
(** when the flag is set, and what the numbers are if it is not *)
Theorem C141_polytrope_check : forall p1 lp1 p2 lp2 p3 m1 m2 causal l1 l2 ok, 0 < solar_mass -> piecewise p1 lp1 p2 lp2 p3 m1 m2 causal = (l1, l2, ok) ->
  let e := poly_eos causal p1 (lp1 - 1) p2 (lp2 - 1) p3 in
  (ok = true <-> lp1 < lp2 /\ poly_bad p1 (lp1 - 1) p2 (lp2 - 1) p3 causal = false /\ physical e m1 m2) /\
  (ok = false -> l1 = Some 0 /\ l2 = Some 0) /\ (ok = true -> l1 = lam m1 e /\ l2 = lam m2 e).
Proof using.
  intros p1 lp1 p2 lp2 p3 m1 m2 causal l1 l2 ok S H e. unfold piecewise_lambdas in H. fold e in H. unfold rle in H.
  destruct (Rle_dec lp2 lp1) as [A|A]; [injection H as <- <- <-; split; [split; [discriminate|intros [X _]; lra]|split; [auto|discriminate]]|].
  destruct (poly_bad p1 (lp1 - 1) p2 (lp2 - 1) p3 causal); [injection H as <- <- <-; split; [split; [discriminate|intros [_ [X _]]; discriminate]|split; [auto|discriminate]]|].
  destruct (family_cases e m1 m2 S) as [[P F]|[P F]]; rewrite F in H; injection H as <- <- <-.
  - split; [split; [intros _; split; [lra|split; [reflexivity|exact P]]|reflexivity]|]. split; [discriminate|auto].
  - split; [split; [discriminate|intros [_ [_ X]]; contradiction]|]. split; [auto|discriminate].
Qed.
Theorem C141_spectral_check : forall g0 g1 g2 g3 m1 m2 l1 l2 ok, 0 < solar_mass -> spectral g0 g1 g2 g3 m1 m2 = (l1, l2, ok) ->
  let e := sd_eos g0 g1 g2 g3 in
  (ok = true <-> sd_gamma_bad g0 g1 g2 g3 = false /\ sd_family_bad g0 g1 g2 g3 = false /\ physical e m1 m2) /\
  (ok = false -> l1 = Some 0 /\ l2 = Some 0) /\ (ok = true -> l1 = lam m1 e /\ l2 = lam m2 e).
Proof using.
  intros g0 g1 g2 g3 m1 m2 l1 l2 ok S H e. unfold spectral_lambdas in H. fold e in H.
  destruct (sd_gamma_bad g0 g1 g2 g3); [injection H as <- <- <-; split; [split; [discriminate|intros [X _]; discriminate]|split; [auto|discriminate]]|].
  destruct (sd_family_bad g0 g1 g2 g3); [injection H as <- <- <-; split; [split; [discriminate|intros [_ [X _]]; discriminate]|split; [auto|discriminate]]|].
  destruct (family_cases e m1 m2 S) as [[P F]|[P F]]; rewrite F in H; injection H as <- <- <-.
  - split; [split; [intros _; split; [reflexivity|split; [reflexivity|exact P]]|reflexivity]|]. split; [discriminate|auto].
  - split; [split; [discriminate|intros [_ [_ X]]; contradiction]|]. split; [auto|discriminate].
Qed.
(** the deformability is (2/3) k2 (c^2 r / (G m))^5, in SI units *)
Theorem C141_lambda : forall m e, 0 < m -> 0 < solar_mass -> 0 < grav -> 0 < light -> 0 < radius (m * solar_mass) e ->
  let M := m * solar_mass in
  lam m e = Some (2 / 3 * love_k2 M e * (light ^ 2 * radius M e / (grav * M)) ^ 5) /\
  (0 < love_k2 M e -> exists x, lam m e = Some x /\ 0 < x).
Proof using.
  intros m e Pm Ps Pg Pl Pr M.
  assert (E : lam m e = Some (2 / 3 * love_k2 M e * (light ^ 2 * radius M e / (grav * M)) ^ 5)).
  { unfold lambda_from_mass. fold M in Pr |- *. assert (PM : 0 < M) by (unfold M; nra). assert (0 < M * grav) by nra. assert (0 < light ^ 2) by (apply pow_lt, Pl).
    rewrite pdiv_some by lra. cbn [bindo]. rewrite pdiv_some by lra. cbn [bindo]. rewrite pdiv_some.
    - f_equal. field. repeat split; lra.
    - apply pow_nonzero. assert (0 < M * grav / light ^ 2 / radius M e) by (repeat apply Rdiv_lt_0_compat; assumption). lra. }
  split; [exact E|]. intros K. eexists. split; [exact E|]. apply Rmult_lt_0_compat; [lra|]. apply pow_lt. apply Rdiv_lt_0_compat; [apply Rmult_lt_0_compat; [apply pow_lt|]; assumption|].
  apply Rmult_lt_0_compat; [assumption|]. unfold M. apply Rmult_lt_0_compat; assumption.
Qed.
(** the three piecewise rows: which number goes where, and the three names of the same model *)
Theorem C141_rows : forall a b c x y m1 m2, let po := poly_row eos poly_eos poly_bad max_sound min_mass_si max_mass_si radius love_k2 solar_mass grav light in
  let sc := scaled_row eos poly_eos poly_bad max_sound min_mass_si max_mass_si radius love_k2 solar_mass grav light in
  sc [a; b; c; x; y; m1; m2] = po [a; b; c; 33 + x * y; 33 + y; m1; m2] /\
  (0 < solar_mass -> 0 < y -> forall l1 l2, sc [a; b; c; x; y; m1; m2] = Some (l1, l2, true) -> x < 1) /\
  (0 < solar_mass -> forall l1 l2, po [a; b; c; x; y; m1; m2] = Some (l1, l2, true) -> x < y).
Proof using.
  intros a b c x y m1 m2 po sc.
  assert (E : sc [a; b; c; x; y; m1; m2] = po [a; b; c; 33 + x * y; 33 + y; m1; m2]) by (unfold sc, po, scaled_row, poly_row, log_pressures; replace (x * y + 33) with (33 + x * y) by lra; reflexivity).
  assert (P : 0 < solar_mass -> forall x y l1 l2, po [a; b; c; x; y; m1; m2] = Some (l1, l2, true) -> x < y).
  { intros S x' y' l1 l2 H. unfold po, poly_row in H. apply some_inj in H. apply (proj1 (proj1 (C141_polytrope_check _ _ _ _ _ _ _ _ _ _ _ S H)) eq_refl). }
  split; [exact E|]. split; [|intros S l1 l2 H; exact (P S _ _ _ _ H)].
  intros S Y l1 l2 H. rewrite E in H. apply (P S) in H. nra.
Qed.
End Eos.
Lemma quad : forall a b c d a' b' c' d' : R, a = a' -> b = b' -> c = c' -> d = d' -> (a, b, c, d) = (a', b', c', d').
Proof. intros. subst. reflexivity. Qed.
(** principal components: 0 is the mean, the map is injective, and up to the rounding of the table it preserves lengths once
    each parameter is divided by its deviation *)
Theorem C141_pca : (pca_to_spectral 0 0 0 0 = (89421 / 100000, 33878 / 100000, -7894 / 100000, 393 / 100000)) /\
  (forall a b c d a' b' c' d', pca_to_spectral a b c d = pca_to_spectral a' b' c' d' -> (a, b, c, d) = (a', b', c', d')) /\
  (forall a b c d g0 g1 g2 g3, pca_to_spectral a b c d = (g0, g1, g2, g3) ->
     Rabs (((g0 - 89421 / 100000) / (357 / 1000)) ^ 2 + ((g1 - 33878 / 100000) / (25769 / 100000)) ^ 2 + ((g2 + 7894 / 100000) / (5452 / 100000)) ^ 2 +
           ((g3 - 393 / 100000) / (312 / 100000)) ^ 2 - (a ^ 2 + b ^ 2 + c ^ 2 + d ^ 2)) <= 1 / 40000 * (a ^ 2 + b ^ 2 + c ^ 2 + d ^ 2)).
Proof.
  split; [unfold pca_to_spectral; apply quad; field|]. split.
  - intros a b c d a' b' c' d' H. unfold pca_to_spectral in H. injection H as H0 H1 H2 H3. apply quad; lra.
  - intros a b c d g0 g1 g2 g3 H. unfold pca_to_spectral in H. injection H as <- <- <- <-.
    match goal with |- Rabs ?x <= _ => replace x with
      (-44829 / 10000000000 * a ^ 2 + 35507 / 10000000000 * b ^ 2 + 146725 / 10000000000 * c ^ 2 + -20484 / 10000000000 * d ^ 2 + 2 * (
       16102 / 10000000000 * (a * b) + 1515 / 10000000000 * (a * c) + -48476 / 10000000000 * (a * d) + 39191 / 10000000000 * (b * c) + 7382 / 10000000000 * (b * d) + -11458 / 10000000000 * (c * d))) by field end.
    assert (Q : forall x y, - (x ^ 2 + y ^ 2) <= 2 * (x * y) <= x ^ 2 + y ^ 2) by (intros x y; pose proof (pow2_ge_0 (x + y)); pose proof (pow2_ge_0 (x - y)); split; lra).
    pose proof pow2_ge_0 as S.
    pose proof (Q a b). pose proof (Q a c). pose proof (Q a d). pose proof (Q b c). pose proof (Q b d). pose proof (Q c d). pose proof (S a). pose proof (S b). pose proof (S c). pose proof (S d).
    apply Rabs_le. split; lra.
Qed.
(** the scaled pressures: if the ratio is uniform on [0,1] and the second pressure has density 2 s / S^2 on [0,S], the pair of pressures has
    the distribution function of the uniform density 2 / S^2 on the triangle 33 < p1 < p2 < 33 + S *)
Theorem C141_triangle : forall S x y, 0 < S -> 0 < x -> x <= y -> y <= S ->
  (forall r s, 0 < s -> (fst (log_pressures r s) <= 33 + x <-> r <= x / s) /\ (snd (log_pressures r s) <= 33 + y <-> s <= y)) /\
  is_RInt (fun s => 2 * s / S ^ 2 * Rmin 1 (x / s)) 0 y ((2 * x * y - x ^ 2) / S ^ 2) /\
  is_RInt (fun u => RInt (fun v => 2 / S ^ 2) u y) 0 x ((2 * x * y - x ^ 2) / S ^ 2) /\
  (2 * S * S - S ^ 2) / S ^ 2 = 1.
Proof.
  intros S x y PS PX XY YS. split; [|split; [|split]].
  - intros r s Ps. unfold log_pressures. cbn [fst snd]. split; [|split; lra]. split; intro H.
    + apply Rmult_le_reg_r with s; [exact Ps|]. field_simplify; lra.
    + apply Rmult_le_compat_r with (r := s) in H; [|lra]. field_simplify in H; lra.
  - assert (I1 : is_RInt (fun s => 2 * s / S ^ 2 * Rmin 1 (x / s)) 0 x (x ^ 2 / S ^ 2)).
    { apply (is_RInt_ext (fun s => 2 * s / S ^ 2)).
      { intros s [H1 H2]. rewrite Rmin_left in H1 by lra. rewrite Rmax_right in H2 by lra. rewrite Rmin_left; [match goal with |- ?a = ?b => change (@eq R a b) end; ring|]. apply Rmult_le_reg_r with s; [lra|]. field_simplify; lra. }
      replace (x ^ 2 / S ^ 2) with (minus (x ^ 2 / S ^ 2) (0 ^ 2 / S ^ 2)) by (unfold minus, plus, opp; cbn; match goal with |- ?a = ?b => change (@eq R a b) end; field; lra).
      apply (is_RInt_derive (fun s => s ^ 2 / S ^ 2)); intros s _; [auto_derive; [exact I|field; lra]|]. apply continuity_pt_filterlim. reg. }
    assert (I2 : is_RInt (fun s => 2 * s / S ^ 2 * Rmin 1 (x / s)) x y (2 * x * (y - x) / S ^ 2)).
    { apply (is_RInt_ext (fun s => 2 * x / S ^ 2)).
      { intros s [H1 H2]. rewrite Rmin_left in H1 by lra. rewrite Rmax_right in H2 by lra. rewrite Rmin_right; [match goal with |- ?a = ?b => change (@eq R a b) end; field; lra|]. apply Rmult_le_reg_r with s; [lra|]. field_simplify; lra. }
      replace (2 * x * (y - x) / S ^ 2) with (scal (y - x) (2 * x / S ^ 2)) by (unfold scal; cbn; unfold mult; cbn; match goal with |- ?a = ?b => change (@eq R a b) end; field; lra). exact (is_RInt_const (V := R_NormedModule) x y _). }
    replace ((2 * x * y - x ^ 2) / S ^ 2) with (x ^ 2 / S ^ 2 + 2 * x * (y - x) / S ^ 2) by (field; lra).
    exact (is_RInt_Chasles (V := R_NormedModule) _ 0 x y _ _ I1 I2).
  - apply (is_RInt_ext (fun u => (y - u) * (2 / S ^ 2))).
    { intros u _. symmetry. rewrite RInt_const. unfold scal. cbn. unfold mult. cbn. reflexivity. }
    replace ((2 * x * y - x ^ 2) / S ^ 2) with (minus ((2 * x * y - x ^ 2) / S ^ 2) ((2 * 0 * y - 0 ^ 2) / S ^ 2)) by (unfold minus, plus, opp; cbn; match goal with |- ?a = ?b => change (@eq R a b) end; field; lra).
    apply (is_RInt_derive (fun u => (2 * u * y - u ^ 2) / S ^ 2)); intros u _; [auto_derive; [exact I|field; lra]|]. apply continuity_pt_filterlim. reg.
  - field. lra.
Qed.
Example C141_example :
  log_pressures (1 / 2) 2 = (34, 35) /\
  piecewise_lambdas unit (fun _ _ _ _ _ _ => tt) (fun _ _ _ _ _ _ => false) (fun _ => 1) (fun _ => 1) (fun _ => 4) (fun _ _ => 6) (fun _ _ => 3) 2 1 1 1 34 2 35 3 2 1 false = (Some 15.1875, Some 486, true) /\
  piecewise_lambdas unit (fun _ _ _ _ _ _ => tt) (fun _ _ _ _ _ _ => false) (fun _ => 1) (fun _ => 1) (fun _ => 4) (fun _ _ => 6) (fun _ _ => 3) 2 1 1 1 35 2 35 3 2 1 false = (Some 0, Some 0, false) /\
  piecewise_lambdas unit (fun _ _ _ _ _ _ => tt) (fun _ _ _ _ _ _ => false) (fun _ => 1) (fun _ => 1) (fun _ => 4) (fun _ _ => 6) (fun _ _ => 3) 2 1 1 1 34 2 35 3 3 1 false = (Some 0, Some 0, false).
Proof.
  split; [unfold log_pressures; f_equal; lra|]. unfold piecewise_lambdas, family_check, rle.
  split; [|split; repeat match goal with |- context [Rle_dec ?a ?b] => destruct (Rle_dec a b); try (exfalso; lra) end; reflexivity].
  repeat match goal with |- context [Rle_dec ?a ?b] => destruct (Rle_dec a b); try (exfalso; lra) end. cbn [andb].
  destruct (C141_lambda unit (fun _ _ => 6) (fun _ _ => 3) 2 1 1 2 tt) as [-> _]; try lra. destruct (C141_lambda unit (fun _ _ => 6) (fun _ _ => 3) 2 1 1 1 tt) as [-> _]; try lra.
  assert (T : forall a b a' b' : R, a = a' -> b = b' -> (Some a, Some b, true) = (Some a', Some b', true)) by (intros; subst; reflexivity). apply T; lra.
Qed.

(** ** C143: binary Love relations *)
Section LoveProps.
Variable std_ppf : R -> option R.
Notation manual := (love_manual std_ppf).
(** the two deformabilities are symmetric about the given one; their difference is twice fit + mean + z * deviation *)
Theorem C143_value : forall u ls q l1 l2, manual u ls q = Some (l1, l2) ->
  (l1 + l2) / 2 = ls /\
  exists fit mean sd z, love_fit ls q = Some fit /\ love_mean ls q = Some mean /\ love_std ls q = Some sd /\ 0 < sd /\ std_ppf u = Some z /\ (l2 - l1) / 2 = fit + mean + sd * z.
Proof using.
  intros u ls q l1 l2 H. unfold love_manual, norm_ppf in H.
  destruct (love_fit ls q) as [fit|]; [|discriminate]. cbn [bindo] in H. destruct (love_mean ls q) as [mean|]; [|discriminate]. cbn [bindo] in H.
  destruct (love_std ls q) as [sd|]; [|discriminate]. cbn [bindo] in H. destruct (Rlt_dec 0 sd) as [P|]; [|discriminate]. destruct (std_ppf u) as [z|]; [|discriminate]. cbn [bindo] in H.
  unfold lambda_symmetric_lambda_antisymmetric_to_lambda_1_lambda_2, lambda_symmetric_lambda_antisymmetric_to_lambda_1, lambda_symmetric_lambda_antisymmetric_to_lambda_2 in H. injection H as <- <-.
  split; [lra|]. exists fit, mean, sd, z. repeat split; try assumption. lra.
Qed.
(** a larger draw moves the heavier star's deformability down and the lighter one's up *)
Theorem C143_monotone : forall u u' ls q l1 l2 l1' l2', (forall z z', std_ppf u = Some z -> std_ppf u' = Some z' -> z < z') ->
  manual u ls q = Some (l1, l2) -> manual u' ls q = Some (l1', l2') -> l1' < l1 /\ l2 < l2'.
Proof using.
  intros u u' ls q l1 l2 l1' l2' M H H'. destruct (C143_value _ _ _ _ _ H) as [S [fit [mean [sd [z [F [ME [SD [P [Z D]]]]]]]]]].
  destruct (C143_value _ _ _ _ _ H') as [S' [fit' [mean' [sd' [z' [F' [ME' [SD' [_ [Z' D']]]]]]]]]].
  rewrite F in F'. rewrite ME in ME'. rewrite SD in SD'. injection F' as <-. injection ME' as <-. injection SD' as <-. specialize (M z z' Z Z').
  assert (sd * z < sd * z') by (apply Rmult_lt_compat_l; assumption). lra.
Qed.
(** the middle of the distribution *)
Corollary C143_median : forall ls q l1 l2, std_ppf (1 / 2) = Some 0 -> manual (1 / 2) ls q = Some (l1, l2) ->
  exists fit mean, love_fit ls q = Some fit /\ love_mean ls q = Some mean /\ l1 = ls - (fit + mean) /\ l2 = ls + (fit + mean).
Proof using.
  intros ls q l1 l2 H0 H. destruct (C143_value _ _ _ _ _ H) as [S [fit [mean [sd [z [F [ME [_ [_ [Z D]]]]]]]]]]. rewrite H0 in Z. injection Z as <-. exists fit, mean. repeat split; try assumption; lra.
Qed.
(** equal masses: the fit vanishes, the mean of the correction does not *)
Lemma fit_equal_mass : forall ls x, love_fit ls 1 = Some x -> x = 0.
Proof using.
  intros ls x H. unfold love_fit in H. destruct (ppow ls (-1 / 5)) as [l|]; [|discriminate]. cbn [bindo] in H. rewrite ppow_some in H by lra. cbn [bindo] in H.
  assert (E : Rpower 1 (10 / (3 - 743 / 1000)) = 1) by (unfold Rpower; rewrite ln_1, Rmult_0_r, exp_0; reflexivity). rewrite E in H. rewrite pdiv_some in H by lra. cbn [bindo] in H.
  unfold pdiv in H. match type of H with (if ?b then _ else _) = _ => destruct b; [discriminate|] end. apply some_inj in H. subst x. unfold Rdiv. ring.
Qed.
Theorem C143_equal_mass : forall u ls l1 l2, manual u ls 1 = Some (l1, l2) ->
  exists mean sd z, love_mean ls 1 = Some mean /\ love_std ls 1 = Some sd /\ std_ppf u = Some z /\ (l2 - l1) / 2 = mean + sd * z.
Proof using.
  intros u ls l1 l2 H. destruct (C143_value _ _ _ _ _ H) as [S [fit [mean [sd [z [F [ME [SD [_ [Z D]]]]]]]]]]. apply fit_equal_mass in F. subst fit. exists mean, sd, z. repeat split; try assumption. lra.
Qed.
(** so two stars of equal mass get different deformabilities *)
Theorem C143_equal_mass_refuted : forall ls l1 l2, std_ppf (1 / 2) = Some 0 -> 1000 <= ls -> manual (1 / 2) ls 1 = Some (l1, l2) -> l1 <> l2.
Proof using.
  intros ls l1 l2 H0 B H. destruct (C143_median ls 1 l1 l2 H0 H) as [fit [mean [F [ME [-> ->]]]]]. apply fit_equal_mass in F. subst fit.
  assert (PL : 0 < ls * ls) by nra. unfold love_mean in ME. rewrite !pdiv_some in ME by lra. cbn [bindo] in ME. apply some_inj in ME.
  assert (Q1 : 1371252739 / 10000000 / (ls * ls) < 1 / 10) by (apply Rmult_lt_reg_r with (ls * ls); [lra|]; field_simplify; [nra|lra]).
  assert (Q2 : -328026613 / 10000000 / ls < 0) by (apply Rmult_lt_reg_r with ls; [lra|]; field_simplify; lra).
  assert (mean < 0) by (subst mean; lra). lra.
Qed.
(** and a draw close enough to either end gives a negative deformability *)
Theorem C143_negative_refuted : (forall z, exists u, 0 < u < 1 /\ std_ppf u = Some z) -> forall u0 ls q l1 l2, manual u0 ls q = Some (l1, l2) ->
  (exists u a b, 0 < u < 1 /\ manual u ls q = Some (a, b) /\ a < 0) /\ (exists u a b, 0 < u < 1 /\ manual u ls q = Some (a, b) /\ b < 0).
Proof using.
  intros SU u0 ls q l1 l2 H. destruct (C143_value _ _ _ _ _ H) as [_ [fit [mean [sd [z [F [ME [SD [P _]]]]]]]]].
  assert (G : forall t, exists u, 0 < u < 1 /\ manual u ls q = Some (ls - t, ls + t)).
  { intros t. destruct (SU ((t - fit - mean) / sd)) as [u [U Z]]. exists u. split; [exact U|]. unfold love_manual, norm_ppf. rewrite F, ME, SD. cbn [bindo].
    destruct (Rlt_dec 0 sd); [|contradiction]. rewrite Z. cbn [bindo]. f_equal. unfold lambda_symmetric_lambda_antisymmetric_to_lambda_1_lambda_2, lambda_symmetric_lambda_antisymmetric_to_lambda_1, lambda_symmetric_lambda_antisymmetric_to_lambda_2.
    assert (E : fit + (mean + (t - fit - mean) / sd * sd) = t) by (field; lra). rewrite E. reflexivity. }
  split.
  - destruct (G (ls + 1)) as [u [U E]]. exists u. eexists. eexists. split; [exact U|]. split; [exact E|lra].
  - destruct (G (- ls - 1)) as [u [U E]]. exists u. eexists. eexists. split; [exact U|]. split; [exact E|lra].
Qed.
(** the automatic version: sample by sample, with its own draw *)
Theorem C143_automatic : forall us ls qs i u l q, length us = length ls -> length qs = length ls -> nth_error us i = Some u -> nth_error ls i = Some l -> nth_error qs i = Some q ->
  nth_error (love_automatic std_ppf us ls qs) i = Some (manual u l q) /\ length (love_automatic std_ppf us ls qs) = length ls.
Proof using.
  induction us as [|a us IH]; intros ls qs i u l q L1 L2 N1 N2 N3; [destruct i; discriminate|]. destruct ls as [|b ls]; [discriminate|]. destruct qs as [|c qs]; [discriminate|].
  cbn [love_automatic length] in *. destruct i as [|i]; cbn [nth_error] in *.
  - injection N1 as <-. injection N2 as <-. injection N3 as <-. split; [reflexivity|]. f_equal.
    assert (X : forall us ls qs, length us = length ls -> length qs = length ls -> length (love_automatic std_ppf us ls qs) = length ls).
    { clear. induction us as [|a us IH]; intros [|b ls] [|c qs] H1 H2; cbn in *; try discriminate; [reflexivity|]. rewrite IH by lia. reflexivity. }
    apply X; lia.
  - destruct (IH ls qs i u l q) as [A B]; try assumption; try lia. split; [exact A|rewrite B; reflexivity].
Qed.
End LoveProps.
Example C143_example : exists l1 l2, love_manual (fun u => Some (u - 1 / 2)) (1 / 2) 1024 1 = Some (l1, l2) /\ l1 + l2 = 2048 /\ l1 <> l2.
Proof.
  set (pf := fun u => Some (u - 1 / 2)). assert (P0 : pf (1 / 2) = Some 0) by (unfold pf; f_equal; lra).
  assert (R1 : Rpower 1024 (-1 / 5) = / 4).
  { replace 1024 with (4 ^ 5) by lra. rewrite <- Rpower_pow by lra. rewrite Rpower_mult. replace (INR 5 * (-1 / 5)) with (- (1)) by (cbn; field). rewrite Rpower_Ropp, Rpower_1 by lra. reflexivity. }
  assert (R2 : Rpower 1 (10 / (3 - 743 / 1000)) = 1) by (unfold Rpower; rewrite ln_1, Rmult_0_r, exp_0; reflexivity).
  assert (R3 : sqrt 1024 = 32) by (replace 1024 with (32 * 32) by lra; apply sqrt_square; lra).
  destruct (love_manual pf (1 / 2) 1024 1) as [[l1 l2]|] eqn:E.
  - exists l1, l2. split; [reflexivity|]. destruct (C143_value pf _ _ _ _ _ E) as [S _]. split; [lra|]. apply (C143_equal_mass_refuted pf 1024 l1 l2 P0); [lra|exact E].
  - exfalso. unfold love_manual, norm_ppf in E. rewrite P0 in E.
    assert (F : exists x, love_fit 1024 1 = Some x).
    { unfold love_fit. rewrite !ppow_some by lra. cbn [bindo]. rewrite R1, R2. rewrite pdiv_some by lra. cbn [bindo]. eexists. apply pdiv_some. lra. }
    destruct F as [x F]. rewrite F in E. cbn [bindo] in E.
    assert (M : exists y, love_mean 1024 1 = Some y) by (unfold love_mean; rewrite !pdiv_some by lra; eexists; reflexivity). destruct M as [y M]. rewrite M in E. cbn [bindo] in E.
    assert (D : exists w, love_std 1024 1 = Some w /\ 0 < w).
    { unfold love_std. rewrite psqrt_some by lra. cbn [bindo]. rewrite R3. rewrite psqrt_some by nra. eexists. split; [reflexivity|]. apply sqrt_lt_R0. nra. }
    destruct D as [w [D W]]. rewrite D in E. cbn [bindo] in E. destruct (Rlt_dec 0 w); [discriminate|contradiction].
Qed.

(** ** Assumptions of every theorem above *)
Definition GwEos_Props_all :=
  (@C140_loop,
   @C140_floats,
   @C140_broadcast_refuted,
   @C141_polytrope_check,
   @C141_spectral_check,
   @C141_lambda,
   @C141_rows,
   @C141_pca,
   @C141_triangle,
   @C143_value,
   @C143_monotone,
   @C143_equal_mass,
   @C143_equal_mass_refuted,
   @C143_negative_refuted,
   @C143_automatic).
Print Assumptions GwEos_Props_all.
