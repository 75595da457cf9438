(** C77, C78: numerical derivatives (core/utils/calculus.py) and the Fisher matrix (core/fisher.py). *)
From Coq Require Import Reals List Bool Arith ZArith String Lia Lra Permutation.
From Verif Require Import PyDict PyReal Fisher_Model Fisher_Proofs.
Import ListNotations.
Open Scope R_scope.
Open Scope list_scope.

(** *** C77 derivatives *)
(** the indices asked for *)
Definition indices (vals : list R) (o : option (list Z)) : list Z := match o with Some l => l | None => map Z.of_nat (seq 0 (List.length vals)) end.
(** the function of one value, all others as given *)
Definition along (f : list R -> R) (vals : list R) (i : Z) (t : R) : R := f (firstn (Z.to_nat i) vals ++ t :: skipn (S (Z.to_nat i)) vals).
Definition value (vals : list R) (i : Z) : R := nth (Z.to_nat i) vals 0.

Lemma along_slice f vals i t : (0 <= i < Z.of_nat (List.length vals))%Z -> along f vals i t = slice f vals (Z.to_nat i) t.
Proof.
  intros H; unfold along, slice; f_equal. assert (N : (Z.to_nat i < List.length vals)%nat) by lia. clear H. revert N; generalize (Z.to_nat i). clear i.
  induction vals as [|v vals IH]; intros [|n]; cbn [firstn skipn app List.length upd]; try lia; [reflexivity|]. intros N; rewrite IH by lia; reflexivity.
Qed.
Lemma derivatives_inv f me rt s n vals re ae o g :
  derivatives f me rt s n vals re ae o = Grads g ->
  exists eps teps, steps vals re ae = Some (eps, teps) /\ Forall (fun i => (0 <= i < Z.of_nat (List.length vals))%Z) (indices vals o)
   /\ Forall2 (fun i x => gradient f me rt s n vals (nth (Z.to_nat i) eps 0) (nth (Z.to_nat i) teps 0) (Z.to_nat i) = Some x) (indices vals o) g.
Proof.
  unfold derivatives; fold (indices vals o). destruct (Nat.ltb _ _); [discriminate|]. destruct (Nat.eqb _ 0); [discriminate|].
  destruct (existsb _ _) eqn:E; [discriminate|]. destruct (steps vals re ae) as [[eps teps]|] eqn:S; [|discriminate].
  intros H; exists eps, teps; split; [reflexivity|]. split; [|apply gradients_forall; exact H].
  apply Forall_forall; intros i Hi. assert (X : (Z.leb (Z.of_nat (List.length vals)) i || Z.ltb i 0)%Z = false).
  { rewrite <- not_true_iff_false in *. intros X; apply E, existsb_exists; eauto. }
  apply orb_false_iff in X; destruct X as [X1 X2]. apply Z.leb_gt in X1; apply Z.ltb_ge in X2; lia.
Qed.

(** It raises exactly for too many, no, or non-existent indices, or step arrays of the wrong length. *)
Theorem C77_raises f me rt s n vals re ae o :
  derivatives f me rt s n vals re ae o = Raise <->
  (List.length vals < List.length (indices vals o))%nat \/ indices vals o = []
  \/ (exists i, In i (indices vals o) /\ ~ (0 <= i < Z.of_nat (List.length vals))%Z)
  \/ (match ae with Some (Vector l) => List.length l <> List.length vals | Some (Scalar _) => False
      | None => match re with Vector l => List.length l <> List.length vals | Scalar _ => False end end).
Proof.
  unfold derivatives; fold (indices vals o). set (idx := indices vals o).
  destruct (Nat.ltb_spec (List.length vals) (List.length idx)) as [A|A]; [tauto|].
  destruct (Nat.eqb_spec (List.length idx) 0) as [B|B].
  { destruct idx; [tauto|discriminate]. }
  assert (B' : idx <> []) by (intros E; rewrite E in B; apply B; reflexivity).
  destruct (existsb _ _) eqn:E.
  - apply existsb_exists in E. destruct E as [i [Hi Hx]]. split; [|reflexivity]. intros _; right; right; left. exists i; split; [exact Hi|].
    apply orb_true_iff in Hx; destruct Hx as [Hx|Hx]; [apply Z.leb_le in Hx|apply Z.ltb_lt in Hx]; lia.
  - assert (C : ~ exists i, In i idx /\ ~ (0 <= i < Z.of_nat (List.length vals))%Z).
    { intros [i [Hi Hx]]. apply not_true_iff_false in E; apply E, existsb_exists. exists i; split; [exact Hi|].
      apply orb_true_iff. destruct (Z.leb_spec (Z.of_nat (List.length vals)) i); [auto|]. right. apply Z.ltb_lt; lia. }
    assert (G : forall eps teps idx', gradients f me rt s n vals eps teps idx' <> Raise).
    { intros eps teps; induction idx' as [|i t IH]; cbn [gradients]; [discriminate|]. destruct (gradient _ _ _ _ _ _ _ _ _); [|discriminate].
      destruct (gradients f me rt s n vals eps teps t); try discriminate; congruence. }
    unfold steps. destruct ae as [[r|l]|]; [| |destruct re as [r|l]].
    + split; [intros H; exfalso; eapply G; exact H|]. intros [H|[H|[H|H]]]; try tauto; lia.
    + destruct (Nat.eqb_spec (List.length l) (List.length vals)) as [N|N].
      * split; [intros H; exfalso; eapply G; exact H|]. intros [H|[H|[H|H]]]; try tauto; lia.
      * split; [tauto|reflexivity].
    + split; [intros H; exfalso; eapply G; exact H|]. intros [H|[H|[H|H]]]; try tauto; lia.
    + destruct (Nat.eqb_spec (List.length l) (List.length vals)) as [N|N].
      * split; [intros H; exfalso; eapply G; exact H|]. intros [H|[H|[H|H]]]; try tauto; lia.
      * split; [tauto|reflexivity].
Qed.
(** With 0 <= epsscale < 1 and mineps > 0 it always comes to an end. *)
Theorem C77_terminates f me rt s vals re ae o : 0 < me -> 0 <= s < 1 ->
  exists N r, r <> Loops /\ forall n, (N <= n)%nat -> derivatives f me rt s n vals re ae o = r.
Proof.
  intros Hm Hs. unfold derivatives. set (idx := match o with Some l => l | None => _ end).
  destruct (Nat.ltb _ _); [exists 0%nat, Raise; split; [discriminate|reflexivity]|].
  destruct (Nat.eqb _ 0); [exists 0%nat, Raise; split; [discriminate|reflexivity]|].
  destruct (existsb _ _); [exists 0%nat, Raise; split; [discriminate|reflexivity]|].
  destruct (steps vals re ae) as [[eps teps]|]; [|exists 0%nat, Raise; split; [discriminate|reflexivity]].
  assert (G : exists N g, forall n, (N <= n)%nat -> gradients f me rt s n vals eps teps idx = Grads g).
  { induction idx as [|i t IH]; [exists 0%nat, []; reflexivity|]. destruct IH as [N [g IH]].
    destruct (gradient_total f me rt s Hm Hs vals (nth (Z.to_nat i) eps 0) (nth (Z.to_nat i) teps 0) (Z.to_nat i)) as [M [x Hx]].
    exists (Nat.max N M), (x :: g). intros n Hn. cbn [gradients]. rewrite Hx, IH by lia. reflexivity. }
  destruct G as [N [g G]]. exists N, (Grads g). split; [discriminate|exact G].
Qed.
(** One gradient per index; each is zero or a central difference that two successive step sizes agree on. *)
Theorem C77_agreement f me rt s n vals re ae o g eps teps :
  derivatives f me rt s n vals re ae o = Grads g -> steps vals re ae = Some (eps, teps) ->
  Forall2 (fun i x => x = 0 \/ exists k,
     let D h := (along f vals i (value vals i + h/2) - along f vals i (value vals i - h/2)) / h in
     let h := nth (Z.to_nat i) eps 0 * s^k in
     (x = D h /\ x = D (h*s)) \/ (x = D (h*s) /\ Rabs (1 - D h / x) < rt)) (indices vals o) g.
Proof.
  intros H S. destruct (derivatives_inv _ _ _ _ _ _ _ _ _ _ H) as [eps' [teps' [S' [I F]]]]. rewrite S in S'; injection S' as <- <-.
  clear S H. revert I; induction F as [|i x idx g H1 H2 IH]; intros I; constructor; inversion I; subst; auto. clear IH.
  apply gradient_result in H1. destruct H1 as [H1|[k H1]]; [auto|]. right; exists k. cbn beta zeta.
  rewrite !along_slice by assumption. replace (nth (Z.to_nat i) eps 0 * s^k * s) with (nth (Z.to_nat i) eps 0 * s^(S k)) by (cbn; ring).
  exact H1.
Qed.
(** For a differentiable function every gradient is zero or the exact derivative at a point within half a step. *)
Theorem C77_derivative_nearby f me rt s n vals re ae o g eps teps df :
  derivatives f me rt s n vals re ae o = Grads g -> steps vals re ae = Some (eps, teps) -> 0 < s <= 1 -> Forall (fun e => 0 < e) eps ->
  (forall i t, In i (indices vals o) -> derivable_pt_lim (along f vals i) t (df i t)) ->
  Forall2 (fun i x => x = 0 \/ exists t, Rabs (t - value vals i) < nth (Z.to_nat i) eps 0 / 2 /\ x = df i t) (indices vals o) g.
Proof.
  intros H S Hs He Hd. pose proof (C77_agreement _ _ _ _ _ _ _ _ _ _ _ _ H S) as A.
  destruct (derivatives_inv _ _ _ _ _ _ _ _ _ _ H) as [eps' [teps' [S' [I _]]]]. rewrite S in S'; injection S' as <- <-.
  assert (Ln : List.length eps = List.length vals).
  { revert S; unfold steps. destruct ae as [[r|l]|]; [| |destruct re as [r|l]].
    - intros [= <- _]; apply map_length.
    - destruct (Nat.eqb_spec (List.length l) (List.length vals)); [|discriminate]. intros [= <- _]; assumption.
    - intros [= <- _]; apply map_length.
    - destruct (Nat.eqb_spec (List.length l) (List.length vals)); [|discriminate]. intros [= <- _]. rewrite map_length, combine_length; lia. }
  clear H S. revert I Hd; induction A as [|i x idx g H1 H2 IH]; intros I Hd; constructor; inversion I; subst; [clear IH|apply IH; [assumption|intros; apply Hd; right; assumption]].
  destruct H1 as [H1|[k H1]]; [auto|right]. cbn beta zeta in H1.
  assert (E : 0 < nth (Z.to_nat i) eps 0).
  { rewrite Forall_forall in He; apply He, nth_In. lia. }
  set (e := nth (Z.to_nat i) eps 0) in *. set (v := value vals i) in *.
  assert (P : 0 < s^(S k) <= 1).
  { split; [apply pow_lt; lra|]. rewrite <- (pow1 (S k)). apply pow_incr; lra. }
  assert (X : x = (along f vals i (v + e * s^(S k)/2) - along f vals i (v - e * s^(S k)/2)) / (e * s^(S k))).
  { replace (e * s^(S k)) with (e * s^k * s) by (cbn; ring). destruct H1 as [[_ H1]|[H1 _]]; exact H1. }
  set (h := e * s^(S k)) in *. assert (Hh : 0 < h <= e).
  { unfold h; split; [apply Rmult_lt_0_compat; lra|]. rewrite <- (Rmult_1_r e) at 2. apply Rmult_le_compat_l; lra. }
  destruct (MVT_cor2 (along f vals i) (df i) (v - h/2) (v + h/2)) as [c [E1 Hc]]; [lra|intros; apply Hd; left; reflexivity|].
  exists c; split; [apply Rabs_def1; lra|]. rewrite X, E1. field. lra.
Qed.
(** For functions that are quadratic in every single value the gradient is exact,
    unless already the first halving of the step goes below mineps. *)
Theorem C77_exact_on_quadratics f me rt s n vals re ae o eps teps a b c :
  steps vals re ae = Some (eps, teps) -> (0 < n)%nat -> s <> 0 ->
  (forall i, In i (indices vals o) -> nth (Z.to_nat i) eps 0 <> 0 /\ me <= nth (Z.to_nat i) teps 0 * s) ->
  (forall i t, In i (indices vals o) -> along f vals i t = a i * t^2 + b i * t + c i) ->
  derivatives f me rt s n vals re ae o <> Raise ->
  derivatives f me rt s n vals re ae o = Grads (map (fun i => 2 * a i * value vals i + b i) (indices vals o)).
Proof.
  intros S Hn Hs He Hq. unfold derivatives; fold (indices vals o). rewrite S.
  destruct (Nat.ltb _ _); [congruence|]. destruct (Nat.eqb _ 0); [congruence|].
  destruct (existsb _ _) eqn:E; [congruence|]. intros _. apply gradients_intro.
  assert (I : Forall (fun i => (0 <= i < Z.of_nat (List.length vals))%Z) (indices vals o)).
  { apply Forall_forall; intros i Hi. assert (X : (Z.leb (Z.of_nat (List.length vals)) i || Z.ltb i 0)%Z = false).
    { rewrite <- not_true_iff_false in *. intros X; apply E, existsb_exists; eauto. }
    apply orb_false_iff in X; destruct X as [X1 X2]. apply Z.leb_gt in X1; apply Z.ltb_ge in X2; lia. }
  clear E. revert He I Hq. induction (indices vals o) as [|i t IH]; intros He I Hq; cbn [map]; constructor; inversion I; subst.
  - destruct (He i (or_introl eq_refl)) as [H3 H4]. apply gradient_quadratic with (c := c i); auto.
    intros x. rewrite <- along_slice by assumption. apply Hq; left; reflexivity.
  - apply IH; auto. + intros j Hj; apply He; right; exact Hj. + intros j x Hj; apply Hq; right; exact Hj.
Qed.
(** A function with derivative one for which the gradient is zero, for any default-like settings. *)
Theorem C77_flat_derivative_refuted : forall me rt r, 0 < me -> rt <= 1/2 -> 0 < r ->
  exists f, derivable_pt_lim (along f [0] 0%Z) 0 1 /\ exists N, forall n, (N <= n)%nat -> derivatives f me rt (1/2) n [0] (Scalar r) None None = Grads [0].
Proof.
  intros me rt r Hm Hr Hp. set (K := 4 / me^2).
  assert (HK : 0 < K) by (unfold K; apply Rmult_lt_0_compat; [lra|apply Rinv_0_lt_compat, pow_lt; lra]).
  exists (fun l => nth 0 l 0 + K * nth 0 l 0 ^ 3). split.
  - unfold along; cbn [Z.to_nat firstn skipn app nth].
    replace 1 with (1 + (0 * 0^3 + K * (INR 3 * 0^2))) by (cbn; ring).
    apply (derivable_pt_lim_plus (fun t => t) (fun t => K * t^3)); [apply derivable_pt_lim_id|].
    apply (derivable_pt_lim_mult (fun _ => K) (fun t => t^3)); [apply derivable_pt_lim_const|apply (derivable_pt_lim_pow 0 3)].
  - set (f := fun l => nth 0 l 0 + K * nth 0 l 0 ^ 3).
    destruct (gradient_total f me rt (1/2) Hm ltac:(lra) [0] r r 0) as [N [g G]].
    assert (C : forall h, h <> 0 -> central f [0] 0 h = 1 + K * h^2 / 4).
    { intros h Hh; unfold central, slice, f; cbn [upd nth]. field; exact Hh. }
    assert (Z0 : g = 0).
    { specialize (G N (Nat.le_refl N)). rewrite gradient_start in G.
      apply (search_flat f me rt (1/2) [0] 0 r r (fun _ => 0)) with (n := N) (k := 0%nat).
      - intros k Hk. assert (P : 0 < (1/2)^k) by (apply pow_lt; lra).
        assert (Pr : 0 < r * (1/2)^k) by (apply Rmult_lt_0_compat; lra).
        assert (E : r * (1/2)^(S k) = (r * (1/2)^k) / 2) by (cbn; field). rewrite E in *. set (h := r * (1/2)^k) in *.
        rewrite !C by lra.
        assert (Q : 1 <= K * (h/2)^2 / 4).
        { assert (me^2 <= (h/2)^2) by (apply pow_incr; lra). assert (Mp : 0 < me^2) by (apply pow_lt; lra).
          apply Rmult_le_reg_r with (me^2); [exact Mp|]. replace (K * (h/2)^2/4 * me^2) with ((h/2)^2); [lra|]. unfold K; field; lra. }
        assert (Q4 : K * h^2/4 = 4 * (K * (h/2)^2/4)) by field. rewrite Q4. set (q := K * (h/2)^2/4) in *.
        assert (W : (1 + 4*q)/(1+q) - 1 = 3 * q / (1+q)) by (field; lra).
        assert (W2 : 1/2 <= 3*q/(1+q)).
        { apply Rmult_le_reg_r with (1+q); [lra|]. replace (3*q/(1+q)*(1+q)) with (3*q) by (field; lra). lra. }
        repeat split; [lra|lra|apply Rmult_lt_0_compat; [lra|apply Rinv_0_lt_compat; lra]|].
        rewrite Rabs_minus_sym, Rabs_pos_eq; lra.
      - cbn [pow]; rewrite !Rmult_1_r; exact G. }
    exists N. intros n Hn. specialize (G n Hn). subst g.
    unfold derivatives; cbn [List.length seq map Nat.ltb Nat.leb Nat.eqb existsb Z.of_nat]. cbn [Z.leb Z.ltb Z.compare orb].
    cbn [steps map gradients]. rewrite Rabs_R0, Rmult_0_l. destruct (reqb_spec 0 0); [|lra].
    cbn [Z.to_nat nth]. rewrite G. reflexivity.
Qed.
Example C77_example :
  derivatives (fun l => nth 0 l 0 ^ 2 * nth 1 l 0) (1/1000000000) (1/1000) (1/2) 1 [3; -5] (Scalar (1/1000)) None None = Grads [-30; 9]
  /\ derivatives (fun l => nth 0 l 0 ^ 2 * nth 1 l 0) (1/1000000000) (1/1000) (1/2) 1 [3; -5] (Scalar (1/1000)) None (Some [1%Z; 2%Z]) = Raise.
Proof.
  split; [|apply C77_raises; right; right; left; exists 2%Z; cbn; split; [auto|lia]].
  rewrite (C77_exact_on_quadratics _ _ _ _ _ _ _ _ _ [Rabs 3 * (1/1000); Rabs (-5) * (1/1000)] [1/1000; 1/1000]
    (fun i => if Z.eqb i 0 then -5 else 0) (fun i => if Z.eqb i 0 then 0 else 9) (fun _ => 0)).
  - cbn. do 2 f_equal; [ring|f_equal; ring].
  - cbn [steps map]. rewrite (Rabs_pos_eq 3), (Rabs_left (-5)) by lra. 
    destruct (reqb_spec (3 * (1/1000)) 0); [lra|]. destruct (reqb_spec (- -5 * (1/1000)) 0); [lra|]. reflexivity.
  - lia.
  - lra.
  - cbn. rewrite (Rabs_pos_eq 3), (Rabs_left (-5)) by lra. intros i [<-|[<-|[]]]; change (Z.to_nat 1) with 1%nat; change (Pos.to_nat 1) with 1%nat; cbn; lra.
  - cbn. intros i t [<-|[<-|[]]]; unfold along; change (Z.to_nat 1) with 1%nat; cbn; ring.
  - rewrite C77_raises. cbn. intros [H|[H|[[i [[<-|[<-|[]]] H]]|H]]]; [lia|discriminate|lia|lia|exact H].
Qed.

(** *** C78 Fisher matrix *)
Section Fisher.
Variable L : dict R -> R.
Variable width : string -> R.
Variable fd_eps : R.
Notation FIM := (FIM L width fd_eps).
(** the log-likelihood at the given parameters, with the values of the sample and one or two of these replaced *)
Definition at1 (P s : dict R) (i : string) (x : R) : R := L (dupdate P (dset s i x)).
Definition at2 (P s : dict R) (i j : string) (x y : R) : R := L (dupdate P (dset (dset s i x) j y)).

(** The matrix exists exactly if the sample has all parameters; it is then square and symmetric. *)
Theorem C78_symmetric names P s : wf P -> wf s ->
  (FIM names s P = None <-> exists k, In k names /\ ~ In k (dkeys s))
  /\ forall F P', FIM names s P = Some (F, P') ->
     List.length F = List.length names /\ (forall r, In r F -> List.length r = List.length names)
     /\ forall i j, (i < List.length names)%nat -> (j < List.length names)%nat -> nth j (nth i F []) 0 = nth i (nth j F []) 0.
Proof.
  intros WP Ws.
  destruct (forallb (fun k => dmem s k) names) eqn:A.
  - rewrite forallb_forall in A. assert (A' : forall k, In k names -> In k (dkeys s)) by (intros k Hk; apply dmem_in, A, Hk).
    destruct (FIM_run L width fd_eps P WP s Ws names A') as [p' [E _]]. rewrite E. split.
    + split; [discriminate|]. intros [k [H1 H2]]; exfalso; apply H2, A', H1.
    + intros F P' [= <- <-]. split; [apply map_length|]. split; [intros r Hr; apply in_map_iff in Hr; destruct Hr as [x [<- _]]; apply map_length|].
      assert (G : forall i j, (i < List.length names)%nat -> (j < List.length names)%nat ->
        nth j (nth i (map (fun i => map (fun j => - second L width fd_eps P s i j) names) names) []) 0 = - second L width fd_eps P s (nth i names ""%string) (nth j names ""%string)).
      { intros i j Hi Hj.
        rewrite (nth_indep (map (fun i => map (fun j => - second L width fd_eps P s i j) names) names) [] (map (fun j => - second L width fd_eps P s ""%string j) names)) by (rewrite map_length; exact Hi).
        rewrite (map_nth (fun i => map (fun j => - second L width fd_eps P s i j) names)).
        rewrite (nth_indep _ 0 (- second L width fd_eps P s (nth i names ""%string) ""%string)) by (rewrite map_length; exact Hj).
        apply (map_nth (fun j => - second L width fd_eps P s (nth i names ""%string) j)). }
      intros i j Hi Hj. rewrite !G by assumption. f_equal. apply second_sym; apply A', nth_In; assumption.
  - assert (B : exists k, In k names /\ ~ In k (dkeys s)).
    { clear - A. induction names as [|k l IH]; [discriminate|]. cbn in A. apply andb_false_iff in A. destruct A as [A|A].
      - exists k; split; [left; reflexivity|]. intros H; apply dmem_in in H; congruence.
      - destruct (IH A) as [k' [H1 H2]]; exists k'; split; [right; exact H1|exact H2]. }
    destruct B as [k [H1 H2]]. pose proof (FIM_missing L width fd_eps P s names k H1 H2) as E. rewrite E.
    split; [split; [intros _; exists k; auto|reflexivity]|discriminate].
Qed.

Lemma entry names P s F P' i j : wf P -> wf s -> (forall k, In k names -> In k (dkeys s)) -> FIM names s P = Some (F, P') ->
  (i < List.length names)%nat -> (j < List.length names)%nat ->
  nth j (nth i F []) 0 = - second L width fd_eps P s (nth i names ""%string) (nth j names ""%string).
Proof.
  intros WP Ws A E Hi Hj. destruct (FIM_run L width fd_eps P WP s Ws names A) as [p' [E' _]]. rewrite E' in E. injection E as <- _.
  rewrite (nth_indep (map (fun i => map (fun j => - second L width fd_eps P s i j) names) names) [] (map (fun j => - second L width fd_eps P s ""%string j) names)) by (rewrite map_length; exact Hi).
  rewrite (map_nth (fun i => map (fun j => - second L width fd_eps P s i j) names)).
  rewrite (nth_indep _ 0 (- second L width fd_eps P s (nth i names ""%string) ""%string)) by (rewrite map_length; exact Hj).
  apply (map_nth (fun j => - second L width fd_eps P s (nth i names ""%string) j)).
Qed.
(** Every entry is minus the second derivative of the log-likelihood at a point closer than the step fd_eps * width. *)
Theorem C78_second_derivative_nearby names P s F P' i j (g1 g2 : R -> R) (gx gxy : R -> R -> R) :
  wf P -> wf s -> (forall k, In k names -> In k (dkeys s)) -> FIM names s P = Some (F, P') ->
  (i < List.length names)%nat -> (j < List.length names)%nat -> (forall k, In k names -> 0 < fd_eps * width k) ->
  let a := nth i names ""%string in let b := nth j names ""%string in
  let near k x := match dget s k with Some v => Rabs (x - v) < fd_eps * width k | None => False end in
  if String.eqb a b
  then (forall t, derivable_pt_lim (at1 P s a) t (g1 t)) -> (forall t, derivable_pt_lim g1 t (g2 t)) ->
       exists x, near a x /\ nth j (nth i F []) 0 = - g2 x
  else (forall x y, derivable_pt_lim (fun t => at2 P s a b t y) x (gx x y)) -> (forall x y, derivable_pt_lim (gx x) y (gxy x y)) ->
       exists x y, near a x /\ near b y /\ nth j (nth i F []) 0 = - gxy x y.
Proof.
  intros WP Ws A E Hi Hj Hw a b near. pose proof (entry names P s F P' i j WP Ws A E Hi Hj) as N. fold a b in N.
  assert (Ia : In a names) by (apply nth_In; exact Hi). assert (Ib : In b names) by (apply nth_In; exact Hj).
  assert (V : forall k, In k names -> dget s k = Some (val s k)).
  { intros k Hk; unfold val. specialize (A k Hk). apply dmem_in in A; unfold dmem in A. destruct (dget s k); [reflexivity|discriminate]. }
  unfold second in N. destruct (String.eqb_spec a b) as [Eab|Nab].
  - intros D1 D2. destruct (second_difference (at1 P s a) g1 g2 (val s a) (fd_eps * width a) (Hw a Ia) D1 D2) as [x [Hx Q]].
    exists x; split; [|rewrite N; f_equal; exact Q]. unfold near. rewrite (V a Ia). apply Rabs_def1; lra.
  - intros D1 D2. destruct (mixed_difference (at2 P s a b) gx gxy (val s a) (val s b) _ _ (Hw a Ia) (Hw b Ib) D1 D2) as [x [y [Hx [Hy Q]]]].
    exists x, y. unfold near. rewrite (V a Ia), (V b Ib). split; [apply Rabs_def1; lra|]. split; [apply Rabs_def1; lra|]. rewrite N; f_equal; exact Q.
Qed.
(** For a log-likelihood with constant second derivatives (a Gaussian likelihood of a linear model) the entries are exact for any step. *)
Theorem C78_exact_on_quadratics names P s F P' i j (g1 : R -> R) (gx : R -> R -> R) h :
  wf P -> wf s -> (forall k, In k names -> In k (dkeys s)) -> FIM names s P = Some (F, P') ->
  (i < List.length names)%nat -> (j < List.length names)%nat -> (forall k, In k names -> 0 < fd_eps * width k) ->
  let a := nth i names ""%string in let b := nth j names ""%string in
  (if String.eqb a b
   then (forall t, derivable_pt_lim (at1 P s a) t (g1 t)) /\ (forall t, derivable_pt_lim g1 t h)
   else (forall x y, derivable_pt_lim (fun t => at2 P s a b t y) x (gx x y)) /\ (forall x y, derivable_pt_lim (gx x) y h)) ->
  nth j (nth i F []) 0 = - h.
Proof.
  intros WP Ws A E Hi Hj Hw a b.
  pose proof (C78_second_derivative_nearby names P s F P' i j g1 (fun _ => h) gx (fun _ _ => h) WP Ws A E Hi Hj Hw) as T. cbn zeta in T.
  fold a b in T. destruct (String.eqb a b); intros [D1 D2].
  - destruct (T D1 D2) as [x [_ Q]]; exact Q.
  - destruct (T D1 D2) as [x [y [_ [_ Q]]]]; exact Q.
Qed.
(** The sample is left alone, but the likelihood's parameters end at a displaced point: the last parameter is one step too low. *)
Theorem C78_parameters_left_displaced names k P s F P' v : wf P -> wf s -> (forall a, In a (names ++ [k]) -> In a (dkeys s)) -> dget s k = Some v ->
  FIM (names ++ [k]) s P = Some (F, P') ->
  forall a, dget P' a = if String.eqb a k then Some (v - fd_eps * width k) else match dget s a with Some x => Some x | None => dget P a end.
Proof.
  intros WP Ws A Hk E a. rewrite (FIM_final L width fd_eps P WP s Ws names k v F P' A Hk E).
  rewrite dupdate_get by (apply wf_set; exact Ws). destruct (String.eqb_spec a k) as [->|N]; [rewrite dget_set_eq; reflexivity|].
  rewrite dget_set_ne by exact N. reflexivity.
Qed.
End Fisher.

(** iFIM: if the smallest eigenvalue bounds the quadratic form from below and is not zero, the returned matrix is positive definite;
    it differs from the inverse on the diagonal only, and not at all if that was positive definite. *)
Theorem C78_positive_definite n M e :
  (forall x, e * norm2 n x <= qform n M x) ->
  (e <> 0 -> forall x, (exists i, (i < n)%nat /\ x i <> 0) -> 0 < qform n (make_positive M e) x)
  /\ (forall i j, i <> j -> make_positive M e i j = M i j)
  /\ (0 <= e -> make_positive M e = M)
  /\ (e < 0 -> forall x, -9 * e * norm2 n x <= qform n (make_positive M e) x).
Proof.
  intros H.
  assert (Q : e < 0 -> forall x, -9 * e * norm2 n x <= qform n (make_positive M e) x).
  { intros He x. unfold make_positive. destruct (rltb_spec e 0); [|lra]. rewrite qform_shift. specialize (H x). lra. }
  repeat split.
  - intros He x Hx. pose proof (norm2_pos n x Hx) as Np. destruct (Rlt_dec e 0) as [L|L].
    + specialize (Q L x). assert (0 < -9 * e * norm2 n x) by (apply Rmult_lt_0_compat; lra). lra.
    + unfold make_positive. destruct (rltb_spec e 0); [lra|]. specialize (H x). assert (0 < e * norm2 n x) by (apply Rmult_lt_0_compat; lra). lra.
  - intros i j N. unfold make_positive. destruct (rltb e 0); [|reflexivity]. apply Nat.eqb_neq in N; rewrite N; ring.
  - intros He. unfold make_positive. destruct (rltb_spec e 0); [lra|reflexivity].
  - exact Q.
Qed.
(** get_maximum_likelihood_sample returns the last optimisation that gave a finite value, not the best. *)
Theorem C78_last_optimisation outs x :
  choose_max outs = Some x <-> exists before fx after, outs = before ++ (Some fx, x) :: after /\ forall o, In o after -> fst o = None.
Proof.
  assert (C : choose_max outs = fold_left (fun minout out => if better (fst out) None then Some (snd out) else minout) outs None) by reflexivity.
  rewrite C. clear C. rewrite <- (rev_involutive outs). generalize (rev outs); clear outs; intros l.
  induction l as [|[fo y] l IH]; cbn [rev].
  - split; [discriminate|]. intros [b [fx [a [E _]]]]. destruct b; discriminate.
  - rewrite fold_left_app; cbn [fold_left fst snd]. destruct fo as [fx|]; cbn [better].
    + split.
      * intros [= <-]. exists (rev l), fx, []. split; [reflexivity|intros o []].
      * intros [b [fx' [a [E H]]]]. destruct (exists_last (l := (Some fx', x) :: a) ltac:(discriminate)) as [a' [z Ez]].
        rewrite Ez, app_assoc in E. apply app_inj_tail in E. destruct E as [_ <-].
        destruct a as [|o a].
        -- destruct a' as [|w a']; [cbn in Ez; congruence|destruct a'; discriminate].
        -- exfalso. assert (I : In (Some fx, y) (o :: a)).
           { destruct a' as [|w a']; [discriminate|]. cbn in Ez. injection Ez as _ Ez. rewrite Ez. apply in_or_app; right; left; reflexivity. }
           specialize (H _ I). discriminate.
    + rewrite IH. split; intros [b [fx [a [E H]]]].
      * exists b, fx, (a ++ [(None, y)]). rewrite E, <- app_assoc. split; [reflexivity|]. intros o Ho. apply in_app_or in Ho. destruct Ho as [Ho|[<-|[]]]; auto.
      * destruct (exists_last (l := (Some fx, x) :: a) ltac:(discriminate)) as [a' [z Ez]].
        rewrite Ez, app_assoc in E. apply app_inj_tail in E. destruct E as [E <-].
        destruct a' as [|w a']; [discriminate|]. cbn in Ez. injection Ez as <- Ez.
        exists b, fx, a'. split; [exact E|]. intros o Ho; apply H. rewrite Ez. apply in_or_app; left; exact Ho.
Qed.
Theorem C78_best_optimisation_refuted : ~ (forall outs x, choose_max outs = Some x -> forall fx x', In (Some fx, x') outs -> exists fx', In (Some fx', x) outs /\ fx' <= fx).
Proof.
  intros H. destruct (H [(Some 1, [0]); (Some 2, [7])] [7] eq_refl 1 [0] (or_introl eq_refl)) as [f [[E|[E|[]]] Hf]].
  - injection E as _ E. lra.
  - injection E as <-. lra.
Qed.
(** The mean of the drawn samples is right column by column if the sample lists its values in the order of the parameter names, and wrong otherwise. *)
Theorem C78_mean_order names s : NoDup names -> List.length s = List.length names ->
  (mean_columns names s = s <-> dkeys s = names)
  /\ (dkeys s = names -> forall k, dget (mean_columns names s) k = dget s k).
Proof.
  intros N Hl. assert (K : dkeys s = names -> mean_columns names s = s).
  { intros <-. unfold mean_columns, dkeys, dvals. clear. induction s as [|[k v] s IH]; cbn; [reflexivity|rewrite IH; reflexivity]. }
  split; [split; [|exact K]|intros E k; rewrite (K E); reflexivity].
  intros E. rewrite <- E. unfold mean_columns, dkeys, dvals. clear - Hl. revert names Hl; induction s as [|[k v] s IH]; intros [|n names]; cbn; try discriminate; [reflexivity|].
  intros [= Hl]. f_equal. apply IH; exact Hl.
Qed.
Theorem C78_mean_order_refuted : ~ (forall names s k, NoDup names -> Permutation (dkeys s) names -> dget (mean_columns names s) k = dget s k).
Proof.
  intros H. specialize (H ["a"%string; "b"%string] [("b"%string, 1); ("a"%string, 2)] "a"%string).
  cbn in H. assert (E : Some 1 = Some 2); [|injection E; lra].
  apply H; [repeat constructor; cbn; intuition discriminate|apply perm_swap].
Qed.
(** log L = -(x-1)^2 - x*y at x = 3, y = 4 with width 2 and fd_eps 1/2. *)
Example C78_example :
  FIM (fun d => match dget d "x", dget d "y" with Some x, Some y => - (x-1)^2 - x*y | _, _ => 0 end) (fun _ => 2) (1/2) ["x"%string; "y"%string]
      [("y"%string, 4); ("x"%string, 3)] [("z"%string, 9)]
  = Some ([[2; 1]; [1; 0]], [("z"%string, 9); ("y"%string, 3); ("x"%string, 3)])
  /\ (forall i j, make_positive (fun i j => if Nat.eqb i j then -1 else 0) (-1) i j = if Nat.eqb i j then 9 else 0)
  /\ choose_max [(Some 5, [1]); (Some 3, [2]); (Some 4, [3]); (None, [4])] = Some [3].
Proof.
  split; [|split].
  - cbn. unfold ret.
    repeat match goal with |- Some _ = Some _ => f_equal | |- (_, _) = (_, _) => f_equal | |- _ :: _ = _ :: _ => f_equal end; try reflexivity; field.
  - intros i j. unfold make_positive. destruct (rltb_spec (-1) 0); [|lra]. destruct (Nat.eqb i j); ring.
  - cbn. reflexivity.
Qed.

(** ** Assumptions of every theorem above *)
Definition Fisher_Props_all :=
  (@C77_raises,
   @C77_terminates,
   @C77_agreement,
   @C77_derivative_nearby,
   @C77_exact_on_quadratics,
   @C77_flat_derivative_refuted,
   @C78_symmetric,
   @C78_second_derivative_nearby,
   @C78_exact_on_quadratics,
   @C78_parameters_left_displaced,
   @C78_positive_definite,
   @C78_last_optimisation,
   @C78_best_optimisation_refuted,
   @C78_mean_order,
   @C78_mean_order_refuted).
Print Assumptions Fisher_Props_all.
