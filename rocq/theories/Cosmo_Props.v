(** C108-C110: cosmological distance priors and the default cosmology. *)
From Coq Require Import Reals List Lra Psatz.
From Verif Require Import Cosmo_Model.
Import ListNotations.
Open Scope R_scope.

(** a cosmology: both distances vanish at redshift 0 and increase, and
    z_at_value inverts them *)
Record cosmology (DL DC zL zC : R -> R) : Prop := {
  DL0 : DL 0 = 0; DC0 : DC 0 = 0;
  DLi : forall a b, 0 <= a < b -> DL a < DL b;
  DCi : forall a b, 0 <= a < b -> DC a < DC b;
  zLr : forall d, 0 < d -> 0 < zL d /\ DL (zL d) = d;
  zCr : forall d, 0 < d -> 0 < zC d /\ DC (zC d) = d }.

Section P.
Variables (DL DC zL zC : R -> R).
Hypothesis cosmo : cosmology DL DC zL zC.
Notation dist := (dist DL DC).
Notation set_limit := (set_limit DL DC zL zC).
Notation set_minimum := (set_minimum DL DC zL zC).
Notation set_maximum := (set_maximum DL DC zL zC).
Notation construct := (construct DL DC zL zC).
Notation capply := (capply DL DC zL zC).
Notation get_corresponding_prior := (get_corresponding_prior DL DC zL zC).

Definition consistent (l : limit) : Prop := 0 <= l_z l /\ l_dl l = DL (l_z l) /\ l_dc l = DC (l_z l).
Lemma dist_incr n a b : 0 <= a < b -> dist n a < dist n b.
Proof using cosmo. intros H. destruct n; cbn; [lra|apply (DLi _ _ _ _ cosmo)|apply (DCi _ _ _ _ cosmo)]; exact H. Qed.
Lemma dist_le n a b : 0 <= a <= b -> dist n a <= dist n b.
Proof using cosmo. intros H. destruct (Req_dec a b) as [->|Hn]; [lra|]. left. apply dist_incr. lra. Qed.
Lemma consistent_entry l n : consistent l -> entry n l = dist n (l_z l).
Proof. intros (_ & E1 & E2). destruct n; cbn; [reflexivity|exact E1|exact E2]. Qed.
Lemma set_limit_ok n v : 0 <= v -> consistent (set_limit n 1 v) /\ entry n (set_limit n 1 v) = v.
Proof using cosmo.
  intros Hv. destruct cosmo as [d0 c0 di ci zr zr']. unfold consistent. destruct n; cbn.
  - repeat split; lra.
  - rewrite Rmult_1_r. destruct (Req_EM_T v 0) as [->|Hn]; [repeat split; lra|].
    destruct (zr v) as [A B]; [lra|]. repeat split; lra.
  - rewrite Rmult_1_r. destruct (Req_EM_T v 0) as [->|Hn]; [repeat split; lra|].
    destruct (zr' v) as [A B]; [lra|]. repeat split; lra.
Qed.
(** what holds of the object between calls: the three entries of each limit
    dictionary describe the same redshift and the tabulated interval covers the
    range of the prior *)
Definition ok (p : cprior) : Prop :=
  cp_unit p = 1 /\ consistent (cp_min p) /\ consistent (cp_max p) /\
  0 <= fst (cp_table p) <= l_z (cp_min p) /\ l_z (cp_max p) <= snd (cp_table p).
Lemma entry_order n l l' : consistent l -> consistent l' -> entry n l <= entry n l' -> l_z l <= l_z l'.
Proof using cosmo.
  intros C C' H. rewrite (consistent_entry l n C), (consistent_entry l' n C') in H.
  destruct (Rle_dec (l_z l) (l_z l')) as [|Hn]; [assumption|]. exfalso.
  assert (dist n (l_z l') < dist n (l_z l)) by (apply dist_incr; destruct C'; lra). lra.
Qed.
Lemma set_minimum_ok p v : ok p -> 0 <= v -> ok (set_minimum p v) /\ minimum (set_minimum p v) = v /\
  maximum (set_minimum p v) = maximum p.
Proof using cosmo.
  intros (U & C1 & C2 & T1 & T2) Hv. unfold set_minimum, ok, minimum, maximum; cbn. rewrite U.
  destruct (set_limit_ok (cp_name p) v Hv) as [C E]. split; [|split; [exact E|reflexivity]].
  split; [reflexivity|]. split; [exact C|]. split; [exact C2|].
  destruct (Rlt_dec v (entry (cp_name p) (cp_min p))) as [L|L].
  - unfold redshift_range; cbn. destruct C as (Cz & _). destruct C2 as (Cz2 & _). split; lra.
  - split; [|exact T2]. split; [apply T1|]. apply Rle_trans with (l_z (cp_min p)); [apply T1|].
    apply (entry_order (cp_name p)); [exact C1|exact C|]. rewrite E. lra.
Qed.
Lemma set_maximum_ok p v : ok p -> 0 <= v -> ok (set_maximum p v) /\ maximum (set_maximum p v) = v /\
  minimum (set_maximum p v) = minimum p.
Proof using cosmo.
  intros (U & C1 & C2 & T1 & T2) Hv. unfold set_maximum, ok, minimum, maximum; cbn. rewrite U.
  destruct (set_limit_ok (cp_name p) v Hv) as [C E]. split; [|split; [exact E|reflexivity]].
  split; [reflexivity|]. split; [exact C1|]. split; [exact C|].
  destruct (Rlt_dec (entry (cp_name p) (cp_max p)) v) as [L|L].
  - unfold redshift_range; cbn. destruct C as (Cz & _). destruct C1 as (Cz1 & _). split; lra.
  - split; [exact T1|]. apply Rle_trans with (l_z (cp_max p)); [|exact T2].
    apply (entry_order (cp_name p)); [exact C|exact C2|]. rewrite E. lra.
Qed.
Lemma construct_ok n mn mx : 0 <= mn -> 0 <= mx ->
  ok (construct n 1 mn mx) /\ minimum (construct n 1 mn mx) = mn /\ maximum (construct n 1 mn mx) = mx /\
  cp_name (construct n 1 mn mx) = n.
Proof using cosmo.
  intros H1 H2. unfold construct.
  destruct (set_limit_ok n mn H1) as [C1 E1]. destruct (set_limit_ok n mx H2) as [C2 E2].
  set (a := set_limit n 1 mn) in *. set (b := set_limit n 1 mx) in *.
  set (p := mkCP n 1 a b (redshift_range a b)).
  assert (K : ok p).
  { unfold ok, p, redshift_range; cbn. split; [reflexivity|]. split; [exact C1|]. split; [exact C2|].
    destruct C1 as (Z1 & _), C2 as (Z2 & _). split; lra. }
  assert (M1 : Rmax (dist n (fst (redshift_range a b))) mn = mn).
  { apply Rmax_right. rewrite <- E1. rewrite (consistent_entry a n C1).
    apply dist_le. unfold redshift_range; cbn. destruct C1; lra. }
  assert (M2 : Rmin (dist n (snd (redshift_range a b))) mx = mx).
  { apply Rmin_right. rewrite <- E2. rewrite (consistent_entry b n C2).
    apply dist_le. unfold redshift_range; cbn. destruct C2; lra. }
  cbv zeta. fold p. rewrite M1, M2.
  destruct (set_minimum_ok p mn K H1) as (K1 & A1 & A2).
  destruct (set_maximum_ok _ mx K1 H2) as (K2 & B1 & B2).
  split; [exact K2|]. split; [rewrite B2; exact A1|]. split; [exact B1|reflexivity].
Qed.
Definition op_value (o : cop) : R := match o with SetMin v => v | SetMax v => v end.
Fixpoint last_min (ops : list cop) (v : R) : R :=
  match ops with [] => v | SetMin w :: t => last_min t w | _ :: t => last_min t v end.
Fixpoint last_max (ops : list cop) (v : R) : R :=
  match ops with [] => v | SetMax w :: t => last_max t w | _ :: t => last_max t v end.
Lemma ops_ok ops : forall p, ok p -> (forall o, In o ops -> 0 <= op_value o) ->
  ok (fold_left capply ops p) /\ minimum (fold_left capply ops p) = last_min ops (minimum p) /\
  maximum (fold_left capply ops p) = last_max ops (maximum p) /\ cp_name (fold_left capply ops p) = cp_name p.
Proof using cosmo.
  induction ops as [|o ops IH]; intros p K H; [tauto|].
  cbn [fold_left]. assert (Ho : 0 <= op_value o) by (apply H; left; reflexivity).
  assert (Hr : forall o, In o ops -> 0 <= op_value o) by (intros x Hx; apply H; right; exact Hx).
  destruct o as [v|v]; cbn [op_value] in Ho; cbn [capply last_min last_max].
  - destruct (set_minimum_ok p v K Ho) as (K1 & A & B).
    destruct (IH _ K1 Hr) as (K2 & X & Y & Z). rewrite A in X. rewrite B in Y. split; [exact K2|]. split; [exact X|]. split; [exact Y|exact Z].
  - destruct (set_maximum_ok p v K Ho) as (K1 & A & B).
    destruct (IH _ K1 Hr) as (K2 & X & Y & Z). rewrite B in X. rewrite A in Y. split; [exact K2|]. split; [exact X|]. split; [exact Y|exact Z].
Qed.
End P.

(** ** C108 limits of a distance prior in Mpc (or a redshift prior), after any
    sequence of assignments to [minimum] and [maximum] *)
Theorem C108_limits DL DC zL zC n mn mx ops : cosmology DL DC zL zC ->
  0 <= mn -> 0 <= mx -> (forall o, In o ops -> 0 <= op_value o) ->
  let p := fold_left (capply DL DC zL zC) ops (construct DL DC zL zC n 1 mn mx) in
  minimum p = last_min ops mn /\ maximum p = last_max ops mx /\
  l_dl (cp_min p) = DL (l_z (cp_min p)) /\ l_dc (cp_min p) = DC (l_z (cp_min p)) /\
  l_dl (cp_max p) = DL (l_z (cp_max p)) /\ l_dc (cp_max p) = DC (l_z (cp_max p)) /\
  dist DL DC n (fst (cp_table p)) <= minimum p /\ maximum p <= dist DL DC n (snd (cp_table p)).
Proof.
  intros Hc H1 H2 Ho. cbv zeta.
  destruct (construct_ok DL DC zL zC Hc n mn mx H1 H2) as (K & A & B & Cn).
  destruct (ops_ok DL DC zL zC Hc ops _ K Ho) as ((U & C1 & C2 & T1 & T2) & X & Y & Z).
  rewrite A in X. rewrite B in Y. rewrite Cn in Z.
  split; [exact X|]. split; [exact Y|]. destruct C1 as (z1 & e1 & e2). destruct C2 as (z2 & e3 & e4).
  split; [exact e1|]. split; [exact e2|]. split; [exact e3|]. split; [exact e4|].
  unfold minimum, maximum. rewrite Z.
  rewrite (consistent_entry DL DC _ n (conj z1 (conj e1 e2))), (consistent_entry DL DC _ n (conj z2 (conj e3 e4))).
  split; apply (dist_le DL DC zL zC Hc); lra.
Qed.
(** the corresponding prior in another variable has the same limits in redshift,
    and going back returns the limits one started from *)
Theorem C108_corresponding_prior DL DC zL zC n m mn mx : cosmology DL DC zL zC ->
  0 <= mn -> 0 <= mx ->
  let p := construct DL DC zL zC n 1 mn mx in
  let p' := get_corresponding_prior DL DC zL zC p m None in
  let p'' := get_corresponding_prior DL DC zL zC p' n None in
  l_z (cp_min p') = l_z (cp_min p) /\ l_z (cp_max p') = l_z (cp_max p) /\
  minimum p'' = mn /\ maximum p'' = mx.
Proof.
  intros Hc H1 H2. cbv zeta.
  destruct (construct_ok DL DC zL zC Hc n mn mx H1 H2) as ((U & C1 & C2 & T1 & T2) & A & B & Cn).
  set (p := construct DL DC zL zC n 1 mn mx) in *. unfold minimum in A. unfold maximum in B. rewrite Cn in A, B.
  unfold get_corresponding_prior at 1 2 3 4 5 6.
  assert (P1 : 0 <= entry m (cp_min p)).
  { rewrite (consistent_entry DL DC _ m C1). replace 0 with (dist DL DC m 0) by (destruct Hc; destruct m; cbn; lra).
    apply (dist_le DL DC zL zC Hc). destruct C1; lra. }
  assert (P2 : 0 <= entry m (cp_max p)).
  { rewrite (consistent_entry DL DC _ m C2). replace 0 with (dist DL DC m 0) by (destruct Hc; destruct m; cbn; lra).
    apply (dist_le DL DC zL zC Hc). destruct C2; lra. }
  destruct (construct_ok DL DC zL zC Hc m _ _ P1 P2) as ((U' & C1' & C2' & _) & A' & B' & Cn').
  set (p' := construct DL DC zL zC m 1 (entry m (cp_min p)) (entry m (cp_max p))) in *.
  unfold minimum in A'. unfold maximum in B'. rewrite Cn' in A', B'.
  assert (Z1 : l_z (cp_min p') = l_z (cp_min p)).
  { apply Rle_antisym; apply (entry_order DL DC zL zC Hc m); try assumption; lra. }
  assert (Z2 : l_z (cp_max p') = l_z (cp_max p)).
  { apply Rle_antisym; apply (entry_order DL DC zL zC Hc m); try assumption; lra. }
  split; [exact Z1|]. split; [exact Z2|].
  assert (E1 : entry n (cp_min p') = mn).
  { rewrite (consistent_entry DL DC _ n C1'), Z1, <- (consistent_entry DL DC _ n C1). exact A. }
  assert (E2 : entry n (cp_max p') = mx).
  { rewrite (consistent_entry DL DC _ n C2'), Z2, <- (consistent_entry DL DC _ n C2). exact B. }
  rewrite E1, E2.
  destruct (construct_ok DL DC zL zC Hc n mn mx H1 H2) as (_ & A2 & B2 & _). split; assumption.
Qed.

(** ** C109 any unit other than Mpc *)
(** the arrays are in Mpc while the limits stay in the unit given *)
Theorem C109_unit_changes_limits_refuted DL DC zL zC unit mn mx : cosmology DL DC zL zC ->
  0 < mn -> 0 < mx -> 0 < unit ->
  minimum (construct DL DC zL zC Luminosity unit mn mx) = Rmax (DL (zL (mn * unit) * (99/100))) mn /\
  maximum (construct DL DC zL zC Luminosity unit mn mx) = Rmin (DL (zL (mx * unit) * (101/100))) mx.
Proof.
  intros Hc H1 H2 Hu. unfold construct, minimum, maximum, set_maximum, set_minimum, set_limit, redshift_range, dist; cbn.
  destruct (Req_EM_T mn 0); [lra|]. destruct (Req_EM_T mx 0); [lra|]. cbn. split; reflexivity.
Qed.
(** in particular the minimum of the constructed prior lies above its maximum *)
Theorem C109_range_reversed_refuted : exists DL DC zL zC, cosmology DL DC zL zC /\
  forall mn mx unit, 0 < mn < mx -> 0 < unit -> mx < mn * unit * (99/100) ->
    maximum (construct DL DC zL zC Luminosity unit mn mx) < minimum (construct DL DC zL zC Luminosity unit mn mx).
Proof.
  assert (Hc : cosmology (fun z => z) (fun z => z) (fun z => z) (fun z => z)) by (constructor; intros; lra).
  exists (fun z => z), (fun z => z), (fun z => z), (fun z => z). split; [exact Hc|].
  intros mn mx unit Hm Hu Hx.
  destruct (C109_unit_changes_limits_refuted _ _ _ _ unit mn mx Hc) as [-> ->]; try lra.
  apply Rle_lt_trans with mx; [apply Rmin_r|]. apply Rlt_le_trans with (mn * unit * (99/100)); [exact Hx|apply Rmax_l].
Qed.
(** asking for the corresponding prior in another unit reinterprets the Mpc limits in that unit *)
Theorem C109_corresponding_unit_refuted : exists DL DC zL zC, cosmology DL DC zL zC /\
  let p := construct DL DC zL zC Redshift 1 1 2 in
  let p' := get_corresponding_prior DL DC zL zC p Luminosity (Some 1000) in
  l_z (cp_max p) = 2 /\ l_z (cp_max p') = 2000.
Proof.
  assert (Hc : cosmology (fun z => z) (fun z => z) (fun z => z) (fun z => z)) by (constructor; intros; lra).
  exists (fun z => z), (fun z => z), (fun z => z), (fun z => z). split; [exact Hc|]. cbv zeta.
  assert (E : construct (fun z => z) (fun z => z) (fun z => z) (fun z => z) Redshift 1 1 2 =
              mkCP Redshift 1 (mkLim 1 1 1) (mkLim 2 2 2) (1 * (99/100), 2 * (101/100))).
  { unfold construct, set_minimum, set_maximum, set_limit, redshift_range, dist; cbn.
    rewrite Rmax_right, Rmin_right by lra. cbn.
    destruct (Rlt_dec 2 2); [lra|]. destruct (Rlt_dec 1 1); [lra|]. reflexivity. }
  rewrite E. split; [reflexivity|].
  unfold get_corresponding_prior, construct, set_minimum, set_maximum, set_limit, redshift_range, dist; cbn.
  destruct (Req_EM_T 1 0); [lra|]. destruct (Req_EM_T 2 0); [lra|]. cbn.
  rewrite Rmin_right by lra. destruct (Req_EM_T 2 0); [lra|]. ring.
Qed.
Example C109_example : let p := construct (fun z => z) (fun z => z) (fun z => z) (fun z => z) Luminosity 1000 1 5 in
  minimum p = 990 /\ maximum p = 5.
Proof.
  assert (Hc : cosmology (fun z => z) (fun z => z) (fun z => z) (fun z => z)) by (constructor; intros; lra).
  cbv zeta. destruct (C109_unit_changes_limits_refuted _ _ _ _ 1000 1 5 Hc) as [-> ->]; try lra.
  rewrite Rmax_left, Rmin_right by lra. lra.
Qed.
Example C108_example : let p := fold_left (capply (fun z => 3 * z) (fun z => 2 * z) (fun d => d / 3) (fun d => d / 2))
    [SetMin 60; SetMax 120; SetMin 30]
    (construct (fun z => 3 * z) (fun z => 2 * z) (fun d => d / 3) (fun d => d / 2) Luminosity 1 45 90) in
  minimum p = 30 /\ l_z (cp_min p) = 10 /\ l_dc (cp_max p) = 80.
Proof.
  assert (Hc : cosmology (fun z => 3 * z) (fun z => 2 * z) (fun d => d / 3) (fun d => d / 2)) by (constructor; intros; lra).
  cbv zeta.
  destruct (C108_limits _ _ _ _ Luminosity 45 90 [SetMin 60; SetMax 120; SetMin 30] Hc) as (A & B & E1 & E2 & E3 & E4 & _); try lra.
  { intros o [<-|[<-|[<-|[]]]]; cbn; lra. }
  cbn [last_min last_max] in A, B.
  unfold minimum, maximum in A, B.
  set (p := fold_left _ _ _) in *. change (cp_name p) with Luminosity in A, B. cbn [entry] in A, B.
  split; [exact A|]. split; lra.
Qed.

(** ** C110 the default cosmology *)
(** get_cosmology with no argument answers Planck15 whatever set_cosmology was called with *)
Theorem C110_set_cosmology_ignored_refuted (C N D : Type) (by_name : N -> C) (build : D -> C) (planck : C) calls :
  snd (get_cosmology C N D by_name planck
         (fold_left (set_cosmology C N D by_name build planck) calls (initial C)) (ANone C N D)) =
  Some (VInstance C D planck).
Proof.
  assert (A : forall calls g, (g_default C g = None \/ g_default C g = Some planck) ->
    g_default C (fold_left (set_cosmology C N D by_name build planck) calls g) = None \/
    g_default C (fold_left (set_cosmology C N D by_name build planck) calls g) = Some planck).
  { clear. induction calls as [|a t IH]; intros g H; [exact H|]. cbn [fold_left]. apply IH.
    unfold set_cosmology, set_default_cosmology; cbn. right. destruct H as [H|H]; rewrite H; [reflexivity|exact H]. }
  unfold get_cosmology, set_default_cosmology; cbn.
  destruct (A calls (initial C) (or_introl eq_refl)) as [H|H]; rewrite H; [reflexivity|].
  rewrite H. reflexivity.
Qed.
(** an explicit instance or name is what is returned, and asking never changes what is stored *)
Theorem C110_explicit (C N D : Type) (by_name : N -> C) (planck : C) g c n :
  snd (get_cosmology C N D by_name planck g (AInstance C N D c)) = Some (VInstance C D c) /\
  snd (get_cosmology C N D by_name planck g (AName C N D n)) = Some (VInstance C D (by_name n)) /\
  forall a a', snd (get_cosmology C N D by_name planck (fst (get_cosmology C N D by_name planck g a)) a') =
    snd (get_cosmology C N D by_name planck g a').
Proof.
  split; [reflexivity|]. split; [reflexivity|]. intros a a'. unfold get_cosmology; cbn.
  assert (E : set_default_cosmology C planck (set_default_cosmology C planck g) = set_default_cosmology C planck g).
  { unfold set_default_cosmology. destruct (g_default C g) eqn:E; cbn; [rewrite E|]; reflexivity. }
  rewrite E. reflexivity.
Qed.
(** a dictionary, which set_cosmology turns into an instance, is handed back unchanged *)
Theorem C110_dictionary_refuted (C N D : Type) (by_name : N -> C) (build : D -> C) (planck : C) g d :
  snd (get_cosmology C N D by_name planck g (ADict C N D d)) = Some (VDict C D d) /\
  g_cosmology C (set_cosmology C N D by_name build planck g (ADict C N D d)) = Some (build d).
Proof. split; reflexivity. Qed.
(** after any calls, what is stored as the cosmology in use is that of the last call, Planck15 if it had no argument *)
Theorem C110_stored (C N D : Type) (by_name : N -> C) (build : D -> C) (planck : C) calls a :
  g_cosmology C (fold_left (set_cosmology C N D by_name build planck) (calls ++ [a]) (initial C)) =
  Some (match a with ANone _ _ _ => planck | AInstance _ _ _ c => c | AName _ _ _ n => by_name n | ADict _ _ _ d => build d end).
Proof.
  rewrite fold_left_app. cbn [fold_left].
  assert (A : forall calls g, (g_default C g = None \/ g_default C g = Some planck) ->
    g_default C (fold_left (set_cosmology C N D by_name build planck) calls g) = None \/
    g_default C (fold_left (set_cosmology C N D by_name build planck) calls g) = Some planck).
  { clear. induction calls as [|a t IH]; intros g H; [exact H|]. cbn [fold_left]. apply IH.
    unfold set_cosmology, set_default_cosmology; cbn. right. destruct H as [H|H]; rewrite H; [reflexivity|exact H]. }
  destruct a; try reflexivity. unfold set_cosmology at 1, set_default_cosmology; cbn.
  destruct (A calls (initial C) (or_introl eq_refl)) as [H|H]; rewrite H; [reflexivity|]. exact H.
Qed.
Example C110_example :
  let g := set_cosmology nat nat nat (fun n => n) (fun d => d + 100)%nat 15%nat (initial nat) (AName nat nat nat 18%nat) in
  g_cosmology nat g = Some 18%nat /\
  snd (get_cosmology nat nat nat (fun n => n) 15%nat g (ANone nat nat nat)) = Some (VInstance nat nat 15%nat).
Proof. split; reflexivity. Qed.

(** ** Assumptions of every theorem above *)
Definition Cosmo_Props_all :=
  (@C108_limits,
   @C108_corresponding_prior,
   @C109_unit_changes_limits_refuted,
   @C109_range_reversed_refuted,
   @C109_corresponding_unit_refuted,
   @C110_set_cosmology_ignored_refuted,
   @C110_explicit,
   @C110_dictionary_refuted,
   @C110_stored).
Print Assumptions Cosmo_Props_all.
