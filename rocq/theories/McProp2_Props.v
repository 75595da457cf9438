(** Theorems about the proposals of bilby_mcmc: reversibility (C206) *)
From Coq Require Import String Bool List Reals ZArith Lia Lra.
From Verif Require Import PyReal PyDict Samples_Model Samples_Proofs Samples_Props Propose_Model McProp_Model McProp_Props.
Import ListNotations.
Open Scope list_scope.
Open Scope R_scope.

(** the value lies in the interval of its prior, if the prior has a boundary *)
Definition inside (ps : dict prior) (k : string) (x : R) : Prop :=
  exists p, dget ps k = Some p /\ match bnd p with
  | NoBoundary => True
  | Periodic => 0 < wid ps k /\ pmin p <= x < pmin p + wid ps k
  | Reflective => 0 < wid ps k /\ pmin p <= x <= pmin p + wid ps k
  | OtherBoundary => False
  end.
Lemma fold_back ps k x d y : inside ps k x -> fold_value ps k (x + d) = Some y ->
  exists e, (e = 1 \/ e = -1) /\ (forall p, dget ps k = Some p -> bnd p <> Reflective -> e = -1) /\ fold_value ps k (y + e * d) = Some x.
Proof.
  intros (p & D & B) F. unfold fold_value in *. rewrite D in *. destruct (bnd p) eqn:E.
  - injection F as <-. exists (-1). split; [auto|]. split; [auto|]. f_equal. ring.
  - destruct B as [W B]. injection F as <-. exists (-1). split; [auto|]. split; [auto|]. f_equal.
    unfold apply_periodic_boundary. set (m := pmin p) in *. set (w := wid ps k) in *.
    destruct (rmod_congr (x + d - m) w) as [n Hn].
    rewrite (rmod_unique (m + rmod (x + d - m) w + -1 * d - m) w (x - m) (- n)%Z W); [ring|lra|].
    rewrite Hn, opp_IZR. ring.
  - destruct B as [W B]. injection F as <-.
    set (m := pmin p) in *. set (w := wid ps k) in *. unfold apply_reflective_boundary.
    assert (U : 0 <= (x - m) / w <= 1). { split; [apply Rmult_le_reg_r with w | apply Rmult_le_reg_r with w]; try exact W; unfold Rdiv; rewrite Rmult_assoc, Rinv_l by lra; lra. }
    set (u := (x - m) / w) in *. set (e := d / w). assert (X : x = m + w * u) by (unfold u; field; lra).
    assert (S : (x + d - m) / w = u + e) by (unfold u, e; field; lra). rewrite S.
    set (v := reflect (u + e)). pose proof (C15_reflect_range (u + e)) as V. fold v in V.
    destruct (proj1 (C15_reflect_fibres (u + e) v V) eq_refl) as (n & [H | H]).
    + exists (-1). split; [auto|]. split; [intros p' D' N; congruence|]. f_equal.
      replace ((m + w * v + -1 * d - m) / w) with (u + 2 * IZR (- n)).
      * rewrite C15_reflect_period, C15_reflect_identity by exact U. symmetry. exact X.
      * unfold Rdiv. rewrite opp_IZR. assert (v = u + e - 2 * IZR n) by lra. unfold e in *. rewrite H0. field. lra.
    + exists 1. split; [auto|]. split; [intros p' D' N; congruence|]. f_equal.
      replace ((m + w * v + 1 * d - m) / w) with (- u + 2 * IZR n).
      * rewrite C15_reflect_period, C15_reflect_even, C15_reflect_identity by exact U. symmetry. exact X.
      * assert (v = 2 * IZR n - (u + e)) by lra. unfold e in *. rewrite H0. field. lra.
  - contradiction.
Qed.
Lemma choose_list {A B} (P : A -> B -> Prop) (l : list A) : (forall x, In x l -> exists y, P x y) -> exists ys, Forall2 P l ys.
Proof.
  induction l as [|x t IH]; intros H; [exists []; constructor|]. destruct (H x) as [y Hy]; [left; reflexivity|].
  destruct IH as [ys Hys]; [intros z Hz; apply H; right; exact Hz|]. exists (y :: ys). constructor; assumption.
Qed.
Definition steps_of (c : string -> R) (ks : list string) (zs : list R) : list (string * R) :=
  map (fun kz => (fst kz, c (fst kz) * snd kz)) (combine ks zs).
Lemma steps_keys c ks zs : length zs = length ks -> map fst (steps_of c ks zs) = ks.
Proof.
  unfold steps_of. revert zs. induction ks as [|k t IH]; destruct zs as [|z zs]; simpl; intros L; try discriminate; [reflexivity|].
  f_equal. apply IH. lia.
Qed.
Lemma combine_in_ex {A} (ks : list string) (zs : list A) k : length zs = length ks -> In k ks -> exists z, In (k, z) (combine ks zs).
Proof.
  revert zs. induction ks as [|a t IH]; destruct zs as [|z zs]; simpl; intros L I; try discriminate; [contradiction|].
  destruct I as [-> | I]; [exists z; auto|]. destruct (IH zs) as [z' H]; [lia|exact I|]. exists z'. auto.
Qed.
Lemma call_zero ps ks l s s' : call ps ks (with_factor 0 (adds l s)) = Some (s', 0) ->
  exists s1, adds l s = Some s1 /\ apply_boundaries ps ks s1 = Some s'.
Proof.
  unfold call, with_factor. destruct (adds l s) as [s1|]; [|discriminate]. destruct (Req_EM_T 0 0); [|congruence].
  destruct (apply_boundaries ps ks s1) as [s2|] eqn:B; [|discriminate]. intros H. exists s1. split; [reflexivity|]. congruence.
Qed.
Lemma zero_call ps ks l s s1 s' : adds l s = Some s1 -> apply_boundaries ps ks s1 = Some s' -> call ps ks (with_factor 0 (adds l s)) = Some (s', 0).
Proof. intros H1 H2. unfold call, with_factor. rewrite H1. destruct (Req_EM_T 0 0); [|congruence]. rewrite H2. reflexivity. Qed.
Lemma reverse_steps ps ks c zs s s' : NoDup ks -> length zs = length ks ->
  (forall k x, In k ks -> dget s k = Some x -> inside ps k x) ->
  call ps ks (with_factor 0 (adds (steps_of c ks zs) s)) = Some (s', 0) ->
  exists es s'', Forall2 (fun kz e => (e = 1 \/ e = -1) /\ (forall p, dget ps (fst kz) = Some p -> bnd p <> Reflective -> e = -1)) (combine ks zs) es /\
    call ps ks (with_factor 0 (adds (steps_of c ks (map (fun ze => snd ze * fst ze) (combine zs es))) s')) = Some (s'', 0) /\
    dkeys s'' = dkeys s /\ forall k, dget s'' k = dget s k.
Proof.
  intros N L I C. apply call_zero in C. destruct C as (s1 & A & B).
  destruct (adds_frame _ _ _ A) as [K1 F1]. destruct (bounds_frame _ _ _ _ B) as [K2 F2].
  rewrite steps_keys in F1 by exact L.
  assert (V : forall k z, In (k, z) (combine ks zs) -> exists x y, dget s k = Some x /\ dget s' k = Some y /\ fold_value ps k (x + c k * z) = Some y).
  { intros k z H. destruct (adds_value (steps_of c ks zs) s s1) with (k := k) (v := c k * z) as (x & X & X1); [rewrite steps_keys; assumption|exact A| |].
    - unfold steps_of. apply in_map_iff. exists (k, z). split; [reflexivity | exact H].
    - destruct (bounds_value _ _ _ _ N B k) as (x' & y & Y1 & Y2 & Y3); [apply in_combine_l in H; exact H|].
      exists x, y. split; [exact X|]. split; [exact Y3|]. assert (x' = x + c k * z) by congruence. subst x'. exact Y2. }
  destruct (choose_list (fun (kz : string * R) e => ((e = 1 \/ e = -1) /\ (forall p, dget ps (fst kz) = Some p -> bnd p <> Reflective -> e = -1)) /\
     exists x y, dget s (fst kz) = Some x /\ dget s' (fst kz) = Some y /\ fold_value ps (fst kz) (y + c (fst kz) * (e * snd kz)) = Some x) (combine ks zs)) as [es Hes].
  { intros [k z] H. destruct (V k z H) as (x & y & X & Y & F). destruct (fold_back ps k x (c k * z) y) as (e & E1 & E2 & E3).
    - apply (I k x); [apply in_combine_l in H; exact H | exact X].
    - exact F.
    - exists e. split; [split; [exact E1 | exact E2]|]. exists x, y. split; [exact X|]. split; [exact Y|]. simpl.
      replace (c k * (e * z)) with (e * (c k * z)) by ring. exact E3. }
  assert (Le : length es = length zs).
  { transitivity (length (combine ks zs)); [|rewrite combine_length; lia]. clear - Hes. induction Hes; simpl; congruence. }
  set (zs' := map (fun ze => snd ze * fst ze) (combine zs es)).
  assert (L' : length zs' = length ks). { unfold zs'. rewrite map_length, combine_length. lia. }
  assert (G : forall k z', In (k, z') (combine ks zs') -> exists x y, dget s k = Some x /\ dget s' k = Some y /\ fold_value ps k (y + c k * z') = Some x).
  { unfold zs'. clear - Hes L Le. revert zs es Hes L Le. induction ks as [|k t IH]; intros zs es Hes L Le k' z' H; [contradiction|].
    destruct zs as [|z zs]; [discriminate|]. simpl in Hes. inversion Hes as [|? e ? es' P Hes']; subst. simpl in H. destruct H as [H | H].
    - injection H as <- <-. exact (proj2 P).
    - apply (IH zs es' Hes'); [simpl in L; lia|simpl in Le; lia|exact H]. }
  destruct (adds_total (steps_of c ks zs') s') as [s2 A2].
  { rewrite steps_keys by exact L'. intros k Hk. destruct (combine_in_ex ks zs k L Hk) as [z Hz]. destruct (V k z Hz) as (x & y & _ & Y & _). congruence. }
  destruct (adds_frame _ _ _ A2) as [K3 F3]. rewrite steps_keys in F3 by exact L'.
  assert (V2 : forall k z, In (k, z) (combine ks zs') -> exists x, dget s k = Some x /\ exists y, dget s2 k = Some y /\ fold_value ps k y = Some x).
  { intros k z H. destruct (G k z H) as (x & y & X & Y & F). exists x. split; [exact X|].
    destruct (adds_value (steps_of c ks zs') s' s2) with (k := k) (v := c k * z) as (y' & Y1 & Y2); [rewrite steps_keys; assumption|exact A2| |].
    - unfold steps_of. apply in_map_iff. exists (k, z). split; [reflexivity | exact H].
    - exists (y' + c k * z). split; [exact Y2|]. assert (y' = y) by congruence. subst. exact F. }
  destruct (bounds_total ps ks s2) as [s3 B3].
  { intros k Hk. destruct (combine_in_ex ks zs' k L' Hk) as [z Hz]. destruct (V2 k z Hz) as (x & _ & y & Y & _). congruence. }
  { intros k x Hk. destruct (combine_in_ex ks zs k L Hk) as [z Hz]. destruct (V k z Hz) as (x0 & y & _ & _ & F). unfold fold_value in *.
    destruct (dget ps k) as [p|]; [|discriminate]. destruct (bnd p); discriminate. }
  destruct (bounds_frame _ _ _ _ B3) as [K4 F4].
  exists es, s3. split; [|split; [apply (zero_call _ _ _ _ s2); assumption|split; [congruence|]]].
  - clear - Hes. induction Hes; constructor; tauto.
  - intros k. destruct (in_dec string_dec k ks) as [Hk | Hk].
    + destruct (combine_in_ex ks zs' k L' Hk) as [z Hz]. destruct (V2 k z Hz) as (x & X & y & Y & F).
      destruct (bounds_value _ _ _ _ N B3 k Hk) as (x' & y' & Y1 & Y2 & Y3). assert (x' = y) by congruence. subst. congruence.
    + rewrite F4, F3, F2, F1 by exact Hk. reflexivity.
Qed.

(** ** C206 The Gaussian proposals are symmetric, also across the boundaries: from the proposed point the same draws, up to a sign for each parameter, lead back. *)
Lemma forall2_signs {A} (zs : list R) es (P : A -> R -> Prop) (ks : list A) : length zs = length ks ->
  Forall2 (fun (kz : A * R) e => (e = 1 \/ e = -1) /\ P (fst kz) e) (combine ks zs) es ->
  Forall2 (fun z z' => z' = z \/ z' = - z) zs (map (fun ze => snd ze * fst ze) (combine zs es)).
Proof.
  revert zs es. induction ks as [|k t IH]; intros zs es L H; destruct zs as [|z zs]; try discriminate; [constructor|].
  simpl in H. inversion H as [|? e ? es' [P1 P2] H']; subst. simpl. constructor; [|apply IH; [simpl in L; lia | exact H']].
  destruct P1 as [-> | ->]; [left | right]; ring.
Qed.
Theorem C206_reverse ps ks sigma factor scale zs s s' : NoDup ks -> length zs = length ks ->
  (forall k x, In k ks -> dget s k = Some x -> inside ps k x) ->
  (call ps ks (fixed_gaussian ps sigma ks zs s) = Some (s', 0) ->
   exists zs' s'', Forall2 (fun z z' => z' = z \/ z' = - z) zs zs' /\ call ps ks (fixed_gaussian ps sigma ks zs' s') = Some (s'', 0) /\
     dkeys s'' = dkeys s /\ forall k, dget s'' k = dget s k) /\
  (call ps ks (adaptive_gaussian ps sigma factor scale ks zs s) = Some (s', 0) ->
   exists zs' s'', Forall2 (fun z z' => z' = z \/ z' = - z) zs zs' /\ call ps ks (adaptive_gaussian ps sigma factor scale ks zs' s') = Some (s'', 0) /\
     dkeys s'' = dkeys s /\ forall k, dget s'' k = dget s k).
Proof.
  intros N L I. split; intros C.
  - destruct (reverse_steps ps ks (fun k => wid ps k * sigma k) zs s s' N L I C) as (es & s'' & H1 & H2).
    exists (map (fun ze => snd ze * fst ze) (combine zs es)), s''. split; [|exact H2].
    exact (forall2_signs zs es (fun k e => forall p, dget ps k = Some p -> bnd p <> Reflective -> e = -1) ks L H1).
  - destruct (reverse_steps ps ks (fun k => factor * scale * wid ps k * sigma k) zs s s' N L I C) as (es & s'' & H1 & H2).
    exists (map (fun ze => snd ze * fst ze) (combine zs es)), s''. split; [|exact H2].
    exact (forall2_signs zs es (fun k e => forall p, dget ps k = Some p -> bnd p <> Reflective -> e = -1) ks L H1).
Qed.

(** ** C206 Differential evolution is symmetric under exchange of the two points if no moved parameter is reflective. *)
Definition dval (d : dict R) (k : string) : R := match dget d k with Some x => x | None => 0 end.
Lemma de_steps ks th1 th2 g s : (forall k, In k ks -> dget th1 k <> None /\ dget th2 k <> None) ->
  de_move ks th1 th2 g s = adds (map (fun k => (k, g * (dval th2 k - dval th1 k))) ks) s.
Proof.
  revert s. induction ks as [|k t IH]; simpl; intros s H; [reflexivity|].
  destruct (H k) as [H1 H2]; [auto|]. destruct (dget s k) as [x|]; [|reflexivity].
  destruct (dget th2 k) as [b|] eqn:B; [|congruence]. destruct (dget th1 k) as [a|] eqn:A; [|congruence].
  replace (dval th2 k) with b by (unfold dval; rewrite B; reflexivity). replace (dval th1 k) with a by (unfold dval; rewrite A; reflexivity).
  apply IH. auto.
Qed.
Lemma steps_const c ks z : map (fun k => (k, c k * z)) ks = steps_of c ks (repeat z (length ks)).
Proof. unfold steps_of. induction ks as [|k t IH]; simpl; [reflexivity|]. f_equal. exact IH. Qed.
Theorem C206_reverse_de ps ks th1 th2 gamma s s' : NoDup ks ->
  (forall k, In k ks -> dget th1 k <> None /\ dget th2 k <> None) ->
  (forall k x, In k ks -> dget s k = Some x -> inside ps k x) ->
  (forall k, In k ks -> exists p, dget ps k = Some p /\ bnd p <> Reflective) ->
  call ps ks (differential_evolution ks th1 th2 gamma s) = Some (s', 0) ->
  exists s'', call ps ks (differential_evolution ks th2 th1 gamma s') = Some (s'', 0) /\ dkeys s'' = dkeys s /\ forall k, dget s'' k = dget s k.
Proof.
  intros N T I NR C. unfold differential_evolution in *. rewrite de_steps in C by exact T.
  rewrite de_steps by (intros k Hk; destruct (T k Hk); auto).
  set (c := fun k => gamma * (dval th2 k - dval th1 k)).
  assert (E : map (fun k => (k, gamma * (dval th2 k - dval th1 k))) ks = steps_of c ks (repeat 1 (length ks))).
  { rewrite <- steps_const. apply map_ext. intros k. unfold c. f_equal. ring. }
  rewrite E in C. destruct (reverse_steps ps ks c _ s s' N (repeat_length _ _) I C) as (es & s'' & H1 & H2 & H3).
  exists s''. split; [|exact H3].
  assert (E2 : map (fun k => (k, gamma * (dval th1 k - dval th2 k))) ks = steps_of c ks (map (fun ze => snd ze * fst ze) (combine (repeat 1 (length ks)) es))).
  { clear - H1 NR. revert es H1. subst c. induction ks as [|k t IH]; intros es H1; [reflexivity|]. simpl in H1. inversion H1 as [|? e ? es' [P1 P2] H']; subst.
    unfold steps_of. simpl. f_equal; [|apply IH; [intros k' Hk; apply NR; right; exact Hk | exact H']].
    simpl in P2. f_equal. destruct (NR k) as (p & D & B); [left; reflexivity|]. rewrite (P2 p D B). ring. }
  rewrite E2. exact H2.
Qed.
(** with a reflective parameter the way back can be closed: no pair of the two points of the chain leads back *)
Theorem C206_reverse_de_refuted : exists ps ks chain th1 th2 s s',
  NoDup ks /\ In th1 chain /\ In th2 chain /\
  (forall k x, In k ks -> dget s k = Some x -> inside ps k x) /\
  call ps ks (differential_evolution ks th1 th2 1 s) = Some (s', 0) /\
  forall a b s'', In a chain -> In b chain -> call ps ks (differential_evolution ks a b 1 s') = Some (s'', 0) ->
    exists k, dget s'' k <> dget s k.
Proof.
  set (ps := [("a", mkPrior false false Reflective 0 1 (Some 1)); ("b", mkPrior false false NoBoundary 0 1 (Some 1))]%string).
  set (t1 := [("a", 0); ("b", 0)]%string). set (t2 := [("a", 3 / 8); ("b", 1)]%string).
  assert (CA : forall x y dx dy (u v : dict R), u = [("a", x); ("b", y)]%string -> adds [("a", dx); ("b", dy)]%string u = Some [("a", x + dx); ("b", y + dy)]%string).
  { intros x y dx dy u v ->. reflexivity. }
  assert (CB : forall x y, apply_boundaries ps ["a"; "b"]%string [("a", x); ("b", y)]%string = Some [("a", 0 + 1 * reflect ((x - 0) / 1)); ("b", y)]%string).
  { intros x y. reflexivity. }
  assert (R1 : reflect ((3 / 4 + 1 * (3 / 8 - 0) - 0) / 1) = 7 / 8).
  { apply C15_reflect_fibres; [lra|]. exists 1%Z. right. simpl. field. }
  assert (CD : forall a1 a2 b1 b2 x y, call ps ["a"; "b"]%string (differential_evolution ["a"; "b"]%string [("a", a1); ("b", a2)]%string [("a", b1); ("b", b2)]%string 1 [("a", x); ("b", y)]%string)
      = Some ([("a", 0 + 1 * reflect ((x + 1 * (b1 - a1) - 0) / 1)); ("b", y + 1 * (b2 - a2))]%string, 0)).
  { intros. unfold differential_evolution, call, with_factor. cbn [de_move dget dset String.eqb Ascii.eqb Bool.eqb]. simpl de_move.
    destruct (Req_EM_T 0 0); [|congruence]. rewrite CB. reflexivity. }
  exists ps, ["a"; "b"]%string, [t1; t2], t1, t2, [("a", 3 / 4); ("b", 0)]%string, [("a", 7 / 8); ("b", 1)]%string.
  split; [repeat constructor; simpl; intuition discriminate|]. split; [left; reflexivity|]. split; [right; left; reflexivity|].
  split; [|split].
  - intros k x [<- | [<- | []]] H; injection H as <-; (eexists; split; [reflexivity|]); simpl; [|exact Logic.I].
    unfold wid. simpl. lra.
  - unfold t1, t2. rewrite CD, R1. replace (0 + 1 * (7 / 8)) with (7 / 8) by ring. replace (0 + 1 * (1 - 0)) with 1 by ring. reflexivity.
  - intros a b s'' Ha Hb H.
    assert (RR : forall x y, 0 <= x <= 1 -> reflect ((x - 0) / 1) = y -> y = x).
    { intros x y Hx <-. replace ((x - 0) / 1) with x by field. apply C15_reflect_identity, Hx. }
    destruct Ha as [<- | [<- | []]]; destruct Hb as [<- | [<- | []]]; unfold t1, t2 in H; rewrite CD in H; injection H as <-;
      try (exists "b"%string; simpl; intros C; injection C as C; exfalso; lra).
    exists "a"%string; simpl. intros C. injection C as C.
    rewrite (RR (7 / 8 + 1 * (0 - 3 / 8)) _ ltac:(lra) eq_refl) in C. lra.
Qed.

(** ** C206 The prior proposal reports the factor that makes it reversible: drawing the old values leads back with the opposite factor, and density times acceptance is the same both ways. *)
Lemma sets_value l s : NoDup (map fst l) -> forall k v, In (k, v) l -> dget (sets l s) k = Some v.
Proof.
  revert s. induction l as [|[a b] t IH]; simpl; intros s N k v I; [contradiction|]. inversion N as [|? ? Na Nt]; subst.
  destruct I as [I | I]; [|apply IH; assumption]. injection I as <- <-.
  clear IH Nt N. assert (G : forall (l : list (string * R)) (s : dict R), ~ In a (map fst l) -> dget (sets l s) a = dget s a).
  { clear. induction l as [|[c d] t IH]; simpl; intros s N; [reflexivity|]. rewrite IH by tauto. apply dget_set_ne. intros ->. tauto. }
  rewrite G by exact Na. apply dget_set_eq.
Qed.
Lemma values_sets ks l s : NoDup ks -> length l = length ks -> values ks (sets (combine ks l) s) = Some l.
Proof.
  intros N L. assert (G : forall ks' l', length l' = length ks' -> (forall k v, In (k, v) (combine ks' l') -> dget (sets (combine ks l) s) k = Some v) ->
    values ks' (sets (combine ks l) s) = Some l').
  { induction ks' as [|k t IH]; destruct l' as [|v l']; simpl; intros L' H; try discriminate; [reflexivity|].
    rewrite (H k v) by (left; reflexivity). rewrite (IH l'); [reflexivity|lia|]. intros; apply H; right; assumption. }
  apply G; [exact L|]. intros k v H. apply sets_value; [|exact H].
  rewrite <- (steps_keys (fun _ => 1) ks l L) in N. unfold steps_of in N. rewrite map_map in N. exact N.
Qed.
Lemma fst_combine (ks : list string) (l : list R) : length l = length ks -> map fst (combine ks l) = ks.
Proof. intros L. rewrite <- (steps_keys (fun _ => 1) ks l L) at 2. unfold steps_of. rewrite map_map. reflexivity. Qed.
Lemma values_in ks s l : values ks s = Some l -> length l = length ks /\ forall k v, In (k, v) (combine ks l) -> dget s k = Some v.
Proof.
  revert l. induction ks as [|k t IH]; simpl; intros l H; [injection H as <-; split; [reflexivity | intros ? ? []]|].
  destruct (dget s k) eqn:E; [|discriminate]. destruct (values t s) eqn:F; [|discriminate]. injection H as <-.
  destruct (IH _ eq_refl) as [H1 H2]. split; [simpl; congruence|]. intros k' v [I | I]; [injection I as <- <-; exact E | apply H2, I].
Qed.
Theorem C206_independent lnq ks draw s s1 lf : NoDup ks -> length draw = length ks -> independent lnq ks draw s = Some (s1, lf) ->
  values ks s1 = Some draw /\
  exists old s2, values ks s = Some old /\ lf = lnq old - lnq draw /\ independent lnq ks old s1 = Some (s2, - lf) /\
    dkeys s2 = dkeys s /\ (forall k, dget s2 k = dget s k) /\
    forall post : dict R -> R, exp (post s) * exp (lnq draw) * Rmin 1 (exp (lf + post s1 - post s)) =
                               exp (post s1) * exp (lnq old) * Rmin 1 (exp (- lf + post s - post s1)).
Proof.
  intros N L H. unfold independent in H. destruct (values ks s) as [old|] eqn:V; [|discriminate].
  rewrite values_sets in H by assumption. injection H as <- <-. destruct (values_in _ _ _ V) as [Lo Ho].
  set (s1 := sets (combine ks draw) s). assert (V1 : values ks s1 = Some draw) by (apply values_sets; assumption).
  split; [exact V1|]. exists old, (sets (combine ks old) s1). split; [reflexivity|]. split; [reflexivity|].
  assert (I0 : forall k, In k ks -> dget s k <> None) by (apply (values_some ks s old V)).
  assert (I1 : forall k, In k ks -> dget s1 k <> None) by (apply (values_some ks s1 draw V1)).
  destruct (sets_frame (combine ks draw) s) as [K1 F1]; [rewrite fst_combine by exact L; exact I0|].
  destruct (sets_frame (combine ks old) s1) as [K2 F2]; [rewrite fst_combine by exact Lo; exact I1|].
  rewrite fst_combine in F1 by exact L. rewrite fst_combine in F2 by exact Lo.
  split; [|split; [|split]].
  - unfold independent. rewrite V1, values_sets by assumption. f_equal. f_equal. ring.
  - unfold s1 in *. congruence.
  - intros k. destruct (in_dec string_dec k ks) as [Hk | Hk].
    + destruct (combine_in_ex ks old k Lo Hk) as [v Hv]. rewrite (Ho k v Hv). apply sets_value; [rewrite fst_combine by exact Lo; exact N | exact Hv].
    + rewrite F2, F1 by exact Hk. reflexivity.
  - intros post. set (x := post s) in *. set (y := post s1). set (a := lnq old). set (b := lnq draw).
    rewrite <- !exp_plus. unfold Rmin.
    assert (EM : forall t, Rle_dec 1 (exp t) = Rle_dec 1 (exp t)) by reflexivity.
    assert (E1 : forall t, 1 <= exp t <-> 0 <= t).
    { intros t. split; intros Ht.
      - destruct (Rle_dec 0 t); [assumption|]. exfalso. assert (exp t < exp 0) by (apply exp_increasing; lra). rewrite exp_0 in H. lra.
      - rewrite <- exp_0. destruct (Req_dec t 0) as [-> | NZ]; [lra|]. left. apply exp_increasing. lra. }
    destruct (Rle_dec 1 (exp (a - b + y - x))) as [A | A]; destruct (Rle_dec 1 (exp (- (a - b) + x - y))) as [B | B]; rewrite E1 in A, B.
    + f_equal. f_equal. lra.
    + rewrite Rmult_1_r, <- exp_plus. f_equal. ring.
    + rewrite Rmult_1_r, <- exp_plus. f_equal. ring.
    + exfalso. lra.
Qed.
Example C206_reverse_example :
  let ps := [("a", mkPrior false false Periodic 0 1 (Some 1)); ("b", mkPrior false false Reflective 0 1 (Some 1))]%string in
  let ks := ["a"; "b"]%string in
  call ps ks (fixed_gaussian ps (fun _ => 1) ks [1 / 2; 1 / 2] [("a", 3 / 4); ("b", 3 / 4); ("c", 9)]%string) = Some ([("a", 1 / 4); ("b", 3 / 4); ("c", 9)]%string, 0) /\
  call ps ks (fixed_gaussian ps (fun _ => 1) ks [- (1 / 2); 1 / 2] [("a", 1 / 4); ("b", 3 / 4); ("c", 9)]%string) = Some ([("a", 3 / 4); ("b", 3 / 4); ("c", 9)]%string, 0).
Proof.
  set (ps := [("a", mkPrior false false Periodic 0 1 (Some 1)); ("b", mkPrior false false Reflective 0 1 (Some 1))]%string).
  assert (G : forall x y d e, call ps ["a"; "b"]%string (fixed_gaussian ps (fun _ => 1) ["a"; "b"]%string [d; e] [("a", x); ("b", y); ("c", 9)]%string)
    = Some ([("a", 0 + rmod (x + 1 * 1 * d - 0) 1); ("b", 0 + 1 * reflect ((y + 1 * 1 * e - 0) / 1)); ("c", 9)]%string, 0)).
  { intros. unfold fixed_gaussian. eapply zero_call; [simpl; reflexivity | reflexivity]. }
  assert (R1 : reflect ((3 / 4 + 1 * 1 * (1 / 2) - 0) / 1) = 3 / 4).
  { apply C15_reflect_fibres; [lra|]. exists 1%Z. right. simpl. field. }
  split; rewrite G, R1.
  - rewrite (rmod_unique (3 / 4 + 1 * 1 * (1 / 2) - 0) 1 (1 / 4) 1); [|lra|lra|simpl; field].
    replace (0 + 1 / 4) with (1 / 4) by ring. replace (0 + 1 * (3 / 4)) with (3 / 4) by ring. reflexivity.
  - rewrite (rmod_unique (1 / 4 + 1 * 1 * - (1 / 2) - 0) 1 (3 / 4) (-1)); [|lra|lra|simpl; field].
    replace (0 + 3 / 4) with (3 / 4) by ring. replace (0 + 1 * (3 / 4)) with (3 / 4) by ring. reflexivity.
Qed.

(** ** Assumptions of every theorem above *)
Definition McProp2_Props_all :=
  (@C206_reverse,
   @C206_reverse_de,
   @C206_reverse_de_refuted,
   @C206_independent).
Print Assumptions McProp2_Props_all.
