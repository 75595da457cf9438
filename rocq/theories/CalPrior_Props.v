(** Theorems C121-C122 about priors for calibration parameters (CalPrior_Model). *)
From Coq Require Import String DecimalString DecimalNat Reals List Bool Arith Lia Lra.
From Coquelicot Require Import Complex.
From Verif Require Import PyDict PyReal Calib_Model Calib_Proofs Calib_Props CalPrior_Model.
Import ListNotations.
Open Scope R_scope.
Open Scope list_scope.

(** ** names *)
Lemma pname_inj kind i j : pname kind i = pname kind j -> i = j.
Proof.
  unfold pname. intros H. apply app_cancel in H. apply (app_cancel "_"%string) in H.
  assert (E : Nat.to_uint i = Nat.to_uint j).
  { apply (f_equal NilEmpty.uint_of_string) in H. rewrite !NilEmpty.usu in H. injection H. auto. }
  rewrite <- (Unsigned.of_to i), <- (Unsigned.of_to j), E. reflexivity.
Qed.
Definition kinds : list string := ["amplitude"; "phase"; "frequency"]%string.
Lemma key_inj label a b i j : In a kinds -> In b kinds -> key label a i = key label b j -> a = b /\ i = j.
Proof.
  intros Ha Hb H. unfold key in H. apply (app_cancel "recalib_"%string) in H. apply app_cancel in H. apply (app_cancel "_"%string) in H.
  destruct Ha as [<-|[<-|[<-|[]]]], Hb as [<-|[<-|[<-|[]]]]; try (cbn in H; discriminate H); (split; [reflexivity|apply (pname_inj _ _ _ H)]).
Qed.
Lemma loop_get label kind mk n d k :
  dget (loop label kind mk n d) k = match find (fun i => String.eqb k (key label kind i)) (seq 0 n) with
    | Some i => if in_dec string_dec kind kinds then Some (mk i) else dget (loop label kind mk n d) k | None => dget d k end.
Proof.
  destruct (in_dec string_dec kind kinds) as [K|K].
  2:{ destruct (find _ _) eqn:F; [reflexivity|]. unfold loop. revert d F. generalize 0%nat. induction n as [|n IH]; intros s d F; [reflexivity|].
      cbn [seq find] in F. destruct (String.eqb_spec k (key label kind s)) as [E|E]; [discriminate|]. cbn [seq fold_left]. rewrite IH by exact F. apply dget_set_ne. exact E. }
  unfold loop. assert (G : forall l d, NoDup l -> dget (fold_left (fun d i => dset d (key label kind i) (mk i)) l d) k =
    match find (fun i => String.eqb k (key label kind i)) l with Some i => Some (mk i) | None => dget d k end).
  { induction l as [|i l IH]; intros d' ND; [reflexivity|]. destruct (proj1 (NoDup_cons_iff i l) ND) as [NI ND']. cbn [fold_left find]. rewrite IH by exact ND'.
    destruct (String.eqb_spec k (key label kind i)) as [E|E].
    - destruct (find _ l) as [j|] eqn:F.
      + apply find_some in F. destruct F as [Fj Fe]. apply String.eqb_eq in Fe. rewrite E in Fe. apply key_inj in Fe; [|exact K|exact K]. destruct Fe as [_ <-]. contradiction.
      + rewrite E. apply dget_set_eq.
    - destruct (find _ l); [reflexivity|]. apply dget_set_ne. exact E. }
  apply G. apply seq_NoDup.
Qed.
Lemma loop_keys label kind mk n d : In kind kinds -> wf d -> (forall i, ~ In (key label kind i) (dkeys d)) ->
  dkeys (loop label kind mk n d) = dkeys d ++ map (key label kind) (seq 0 n) /\ wf (loop label kind mk n d).
Proof.
  intros K W H. unfold loop.
  assert (G : forall m d', wf d' -> (forall i, In i (seq m (n - m)) -> ~ In (key label kind i) (dkeys d')) -> (m <= n)%nat ->
    dkeys (fold_left (fun d i => dset d (key label kind i) (mk i)) (seq m (n - m)) d') = dkeys d' ++ map (key label kind) (seq m (n - m)) /\
    wf (fold_left (fun d i => dset d (key label kind i) (mk i)) (seq m (n - m)) d')).
  { intros m. remember (n - m)%nat as q eqn:Q. revert m Q. induction q as [|q IH]; intros m Q d' W' H' L; [cbn; rewrite app_nil_r; split; [reflexivity|exact W']|].
    cbn [seq fold_left map]. assert (NI : ~ In (key label kind m) (dkeys d')) by (apply H'; left; reflexivity).
    assert (M : dmem d' (key label kind m) = false) by (apply not_true_iff_false; intros X; apply dmem_in in X; contradiction).
    destruct (IH (S m) ltac:(lia) (dset d' (key label kind m) (mk m))) as [E1 E2].
    - apply wf_set. exact W'.
    - intros i Hi X. apply dkeys_set_in in X. destruct X as [X|X].
      + apply key_inj in X; [|exact K|exact K]. destruct X as [_ ->]. apply in_seq in Hi. lia.
      + apply (H' i); [right; exact Hi|exact X].
    - lia.
    - rewrite E1. split; [|exact E2]. rewrite dkeys_set, M, <- app_assoc. reflexivity. }
  specialize (G 0%nat d W). rewrite Nat.sub_0_r in G. apply G; [intros; apply H|lia].
Qed.
Definition three (label : string) (a p f : nat -> cprior) (n : nat) : dict cprior :=
  loop label "frequency" f n (loop label "phase" p n (loop label "amplitude" a n [])).
Lemma three_facts label a p f n : let d := three label a p f n in
  wf d /\ dkeys d = map (key label "amplitude") (seq 0 n) ++ map (key label "phase") (seq 0 n) ++ map (key label "frequency") (seq 0 n) /\
  forall i, (i < n)%nat -> dget d (key label "amplitude" i) = Some (a i) /\ dget d (key label "phase" i) = Some (p i) /\ dget d (key label "frequency" i) = Some (f i).
Proof.
  cbv zeta. unfold three.
  destruct (loop_keys label "amplitude" a n []) as [K1 W1]; [left; reflexivity|constructor|intros i []|].
  destruct (loop_keys label "phase" p n (loop label "amplitude" a n [])) as [K2 W2]; [right; left; reflexivity|exact W1| |].
  { intros i X. rewrite K1 in X. cbn [app dkeys map] in X. apply in_map_iff in X. destruct X as (j & E & _). apply key_inj in E; [destruct E; discriminate|cbn; tauto|cbn; tauto]. }
  destruct (loop_keys label "frequency" f n (loop label "phase" p n (loop label "amplitude" a n []))) as [K3 W3]; [cbn; tauto|exact W2| |].
  { intros i X. rewrite K2, K1 in X. cbn [app dkeys map] in X. apply in_app_iff in X. destruct X as [X|X]; apply in_map_iff in X; destruct X as (j & E & _); (apply key_inj in E; [destruct E; discriminate|cbn; tauto|cbn; tauto]). }
  split; [exact W3|]. split; [rewrite K3, K2, K1; cbn [app dkeys map]; rewrite app_assoc; reflexivity|].
  assert (FS : forall kind i, In kind kinds -> (i < n)%nat -> find (fun j => String.eqb (key label kind i) (key label kind j)) (seq 0 n) = Some i).
  { intros kind i K Hi. destruct (find _ _) as [j|] eqn:F.
    - apply find_some in F. destruct F as [_ F]. apply String.eqb_eq in F. apply key_inj in F; [|exact K|exact K]. destruct F as [_ ->]. reflexivity.
    - exfalso. pose proof (find_none _ _ F i ltac:(apply in_seq; lia)) as X. cbv beta in X. rewrite String.eqb_refl in X. discriminate. }
  assert (FN : forall kind kind' i, In kind kinds -> In kind' kinds -> kind <> kind' -> find (fun j => String.eqb (key label kind i) (key label kind' j)) (seq 0 n) = None).
  { intros kind kind' i K K' N. destruct (find _ _) as [j|] eqn:F; [|reflexivity]. apply find_some in F. destruct F as [_ F]. apply String.eqb_eq in F.
    apply key_inj in F; [|exact K|exact K']. destruct F; contradiction. }
  assert (KA : In "amplitude"%string kinds) by (cbn; tauto). assert (KP : In "phase"%string kinds) by (cbn; tauto). assert (KF : In "frequency"%string kinds) by (cbn; tauto).
  intros i Hi. split; [|split].
  - rewrite loop_get, FN by (assumption || discriminate). rewrite loop_get, FN by (assumption || discriminate). rewrite loop_get, FS by assumption. destruct in_dec; [reflexivity|contradiction].
  - rewrite loop_get, FN by (assumption || discriminate). rewrite loop_get, FS by assumption. destruct in_dec; [reflexivity|contradiction].
  - rewrite loop_get, FS by assumption. destruct in_dec; [reflexivity|contradiction].
Qed.
(** both constructors put their nodes where the spline has them *)
Lemma log_nodes lo hi n i : 0 < lo -> 0 < hi -> exp (lin (ln lo) (ln hi) n i) = node_freq lo hi n i.
Proof.
  intros L H. assert (E : ln (hi / lo) = ln hi - ln lo) by (unfold Rdiv; rewrite ln_mult, ln_Rinv by (try lra; apply Rinv_0_lt_compat; lra); ring).
  unfold lin, node_freq, Rpower. rewrite E, exp_plus, exp_ln by exact L. f_equal. f_equal. unfold Rdiv. ring.
Qed.
Lemma ten_nodes lo hi n i : 0 < lo -> 0 < hi -> Rpower 10 (lin (log10 lo) (log10 hi) n i) = node_freq lo hi n i.
Proof.
  intros L H. rewrite <- log_nodes by assumption. unfold Rpower. f_equal. pose proof ln10_pos as P.
  assert (E : lin (log10 lo) (log10 hi) n i = lin (ln lo) (ln hi) n i * / ln 10) by (unfold lin, log10, Rdiv; ring).
  rewrite E, Rmult_assoc, Rinv_l by lra. ring.
Qed.

(** ** C121 *)
(** 3n entries with different names, in order; the frequencies are fixed at the spline's nodes *)
Theorem C121_constant sA sP lo hi n label : 0 < lo -> 0 < hi ->
  let d := constant_uncertainty_spline sA sP lo hi n label in
  wf d /\ List.length d = (3 * n)%nat /\
  dkeys d = map (key label "amplitude") (seq 0 n) ++ map (key label "phase") (seq 0 n) ++ map (key label "frequency") (seq 0 n) /\
  forall i, (i < n)%nat -> dget d (key label "amplitude" i) = Some (Gauss 0 sA) /\ dget d (key label "phase" i) = Some (Gauss 0 sP) /\
    dget d (key label "frequency" i) = Some (Delta (node_freq lo hi n i)).
Proof.
  intros L H d. destruct (three_facts label (fun _ => Gauss 0 sA) (fun _ => Gauss 0 sP) (fun i => Delta (Rpower 10 (lin (log10 lo) (log10 hi) n i))) n) as (W & K & V).
  split; [exact W|]. split; [|split; [exact K|]].
  - apply (f_equal (@List.length string)) in K. unfold dkeys in K. rewrite !app_length, !map_length, !seq_length in K. unfold d, constant_uncertainty_spline. unfold three in K. rewrite K. lia.
  - intros i Hi. destruct (V i Hi) as (A & B & C). split; [exact A|]. split; [exact B|]. rewrite <- ten_nodes by assumption. exact C.
Qed.
(** a call of the spline model of the same label and band, with a sample of these priors: at each drawn node
    frequency the factor is the one of the drawn amplitude and phase of that node *)
Theorem C121_used_by_spline solve sA sP lo hi n label s call : 0 < lo < hi -> new_cspline ("recalib_" ++ label ++ "_") lo hi n = Some s ->
  fine ("recalib_" ++ label ++ "_") call ->
  (forall k, In k (dkeys (constant_uncertainty_spline sA sP lo hi n label)) -> dget call k <> None) ->
  forall i f, (i < n)%nat -> dget (constant_uncertainty_spline sA sP lo hi n label) (key label "frequency" i) = Some (Delta f) ->
  exists a p, dget call (key label "amplitude" i) = Some a /\ dget call (key label "phase" i) = Some p /\
  fst (get_factor solve s [f] call) = Some [factor a p].
Proof.
  intros LH NS [W CL] ALL i f Hi Hf. destruct (C121_constant sA sP lo hi n label ltac:(lra) ltac:(lra)) as (_ & _ & K & V). cbv zeta in *.
  destruct (V i Hi) as (_ & _ & F). rewrite F in Hf. injection Hf as <-.
  assert (PR : cs_prefix s = ("recalib_" ++ label ++ "_")%string /\ cs_n s = n /\ cs_lo s = lo /\ cs_hi s = hi /\ (4 <= n)%nat /\ cs_params s = []).
  { unfold new_cspline in NS. destruct (Nat.ltb_spec n 4); [discriminate|]. apply some_inj in NS. subst s. cbn. repeat split. exact H. }
  destruct PR as (P1 & P2 & P3 & P4 & P5 & P6).
  assert (KEY : forall kind j, (("recalib_" ++ label ++ "_") ++ pname kind j)%string = key label kind j).
  { intros kind j. unfold key. assert (AS : forall a b c : string, ((a ++ b) ++ c = a ++ (b ++ c))%string) by (induction a as [|x a IH]; intros; cbn; [reflexivity|rewrite IH; reflexivity]).
    change ("recalib_" ++ label ++ "_")%string with ("recalib_" ++ (label ++ "_"))%string. rewrite AS, AS. reflexivity. }
  assert (GET : forall kind j, dget (cs_params (set_params s call)) (pname kind j) = dget call (key label kind j)).
  { intros kind j. unfold set_params; cbn [cs_params]. rewrite dupdate_get by apply found_wf. rewrite found_get by (rewrite ?P1; assumption). rewrite P1, KEY, P6. cbn. destruct (dget call _); reflexivity. }
  assert (COL : forall kind, (forall j, (j < n)%nat -> dget call (key label kind j) <> None) -> exists l, collect (cs_params (set_params s call)) kind (cs_n s) = Some l /\
      forall j, (j < n)%nat -> dget call (key label kind j) = Some (at_ l j)).
  { intros kind HX. rewrite P2. clear - GET HX.
    assert (G : forall m, (m <= n)%nat -> exists l, collect (cs_params (set_params s call)) kind m = Some l /\ List.length l = m /\ forall j, (j < m)%nat -> dget call (key label kind j) = Some (at_ l j)).
    { induction m as [|m IH]; intros L; [exists []; split; [reflexivity|split; [reflexivity|intros; lia]]|].
      destruct (IH ltac:(lia)) as (l & E & LL & V). cbn [collect]. rewrite E, GET. destruct (dget call (key label kind m)) as [v|] eqn:D; [|exfalso; apply (HX m ltac:(lia) D)].
      exists (l ++ [v]). split; [reflexivity|]. split; [rewrite app_length; cbn; lia|]. intros j Hj. unfold at_. destruct (Nat.eq_dec j m) as [->|N].
      - rewrite app_nth2 by lia. rewrite LL, Nat.sub_diag. exact D.
      - rewrite app_nth1 by lia. apply V. lia. }
    destruct (G n ltac:(lia)) as (l & E & _ & V). exists l. split; assumption. }
  destruct (COL "amplitude"%string) as (A & EA & VA).
  { intros j Hj. apply ALL. rewrite K. apply in_app_iff. left. apply in_map, in_seq. lia. }
  destruct (COL "phase"%string) as (P & EP & VP).
  { intros j Hj. apply ALL. rewrite K. apply in_app_iff. right. apply in_app_iff. left. apply in_map, in_seq. lia. }
  exists (at_ A i), (at_ P i). split; [apply VA; exact Hi|]. split; [apply VP; exact Hi|].
  destruct (C95_node_factors solve s A P call i) as (_ & _ & Q); [rewrite P2; exact P5|rewrite P3, P4; exact LH|rewrite P2; exact Hi|exact EA|exact EP|].
  rewrite P2, P3, P4 in Q. exact Q.
Qed.
Example C121_example : dkeys (constant_uncertainty_spline 1 1 20 1024 2 "H1") =
  ["recalib_H1_amplitude_0"; "recalib_H1_amplitude_1"; "recalib_H1_phase_0"; "recalib_H1_phase_1"; "recalib_H1_frequency_0"; "recalib_H1_frequency_1"]%string.
Proof. destruct (C121_constant 1 1 20 1024 2 "H1") as (_ & _ & -> & _); [lra|lra|]. reflexivity. Qed.

(** ** C122 *)
Definition interpolates (interp : list R -> list R -> R -> R) : Prop :=
  forall xs ys i x y, NoDup xs -> nth_error xs i = Some x -> nth_error ys i = Some y -> interp xs ys x = y.
(** a node at a frequency of the file gets the medians of that line, the amplitude as a fractional deviation, and
    half the width of the 1-sigma interval *)
Theorem C122_at_file_frequency interp file lo hi n label i j l : interpolates interp -> NoDup (map (fun l => ln (e_f l)) file) ->
  0 < lo -> 0 < hi -> (i < n)%nat -> nth_error file j = Some l -> 0 < e_f l -> e_f l = node_freq lo hi n i ->
  let d := from_envelope_file interp file lo hi n label in
  dget d (key label "amplitude" i) = Some (Gauss (e_amp l - 1) ((e_amp_hi l - e_amp_lo l) / 2)) /\
  dget d (key label "phase" i) = Some (Gauss (e_ph l) ((e_ph_hi l - e_ph_lo l) / 2)) /\
  dget d (key label "frequency" i) = Some (Delta (e_f l)).
Proof.
  intros IN ND L H Hi Hj Hp E d. set (logf := map (fun l => ln (e_f l)) file) in *.
  assert (LN : lin (ln lo) (ln hi) n i = ln (e_f l)) by (rewrite E, <- log_nodes by assumption; rewrite ln_exp; reflexivity).
  assert (AT : forall col, interp logf (map col file) (lin (ln lo) (ln hi) n i) = col l).
  { intros col. rewrite LN. apply (IN logf _ j); [exact ND| |]; unfold logf; rewrite nth_error_map, Hj; reflexivity. }
  pose proof (three_facts label (fun i => Gauss (interp logf (map (fun l => e_amp l - 1) file) (lin (ln lo) (ln hi) n i)) (interp logf (map (fun l => (e_amp_hi l - e_amp_lo l) / 2) file) (lin (ln lo) (ln hi) n i)))
     (fun i => Gauss (interp logf (map e_ph file) (lin (ln lo) (ln hi) n i)) (interp logf (map (fun l => (e_ph_hi l - e_ph_lo l) / 2) file) (lin (ln lo) (ln hi) n i)))
     (fun i => Delta (exp (lin (ln lo) (ln hi) n i))) n) as (_ & _ & V). cbv zeta in V.
  destruct (V i Hi) as (A & B & C). rewrite !AT in A. rewrite !AT in B. rewrite LN, exp_ln in C by exact Hp. split; [exact A|]. split; [exact B|exact C].
Qed.
(** a file with median one and zero, and the same widths at all frequencies, gives the constant-uncertainty priors *)
Theorem C122_flat_file interp file sA sP lo hi n label : 0 < lo -> 0 < hi ->
  (forall xs c u, interp xs (map (fun _ => c) file) u = c) ->
  (forall l, In l file -> e_amp l = 1 /\ e_ph l = 0 /\ e_amp_hi l - e_amp_lo l = 2 * sA /\ e_ph_hi l - e_ph_lo l = 2 * sP) ->
  from_envelope_file interp file lo hi n label = constant_uncertainty_spline sA sP lo hi n label.
Proof.
  intros L H IC HF.
  assert (AT : forall col c xs u, (forall l, In l file -> col l = c) -> interp xs (map col file) u = c).
  { intros col c xs u E. rewrite (map_ext_in col (fun _ => c)) by exact E. apply IC. }
  assert (LE : forall kind mk mk' m d, (forall i, mk i = mk' i) -> loop label kind mk m d = loop label kind mk' m d).
  { intros kind mk mk' m d E. unfold loop. generalize (seq 0 m) as s. intros s. revert d. induction s as [|x s IH]; intros d; [reflexivity|]. cbn [fold_left]. rewrite E. apply IH. }
  unfold from_envelope_file, constant_uncertainty_spline.
  rewrite (LE "frequency"%string _ (fun i => Delta (Rpower 10 (lin (log10 lo) (log10 hi) n i)))).
  2:{ intros i. rewrite log_nodes, ten_nodes by assumption. reflexivity. }
  f_equal. rewrite (LE "phase"%string _ (fun _ => Gauss 0 sP)).
  2:{ intros i. f_equal; apply AT; intros l Hl; destruct (HF l Hl) as (_ & ? & _ & ?); [assumption|lra]. }
  f_equal. apply LE. intros i. f_equal; apply AT; intros l Hl; destruct (HF l Hl) as (? & _ & ? & _); lra.
Qed.
Example C122_example : let file := [mkLine 20 (101/100) 0 (99/100) (-1/50) (103/100) (1/50); mkLine 1024 1 0 (98/100) (-1/50) (102/100) (1/50)] in
  forall interp, interpolates interp -> dget (from_envelope_file interp file 20 1024 2 "L1") "recalib_L1_amplitude_0" = Some (Gauss (101/100 - 1) ((103/100 - 99/100) / 2)).
Proof.
  cbv zeta. intros interp IN.
  destruct (C122_at_file_frequency interp [mkLine 20 (101/100) 0 (99/100) (-1/50) (103/100) (1/50); mkLine 1024 1 0 (98/100) (-1/50) (102/100) (1/50)] 20 1024 2 "L1" 0 0
     (mkLine 20 (101/100) 0 (99/100) (-1/50) (103/100) (1/50)) IN) as (A & _); try lra; try lia; [| reflexivity | cbn; lra | | exact A].
  - cbn. constructor; [|constructor; [intros []|constructor]]. intros [E|[]]. apply ln_inv in E; lra.
  - cbn [e_f]. unfold node_freq. cbn [INR]. unfold Rdiv at 2. rewrite Rmult_0_l, Rpower_O by lra. lra.
Qed.

(** ** Assumptions of every theorem above *)
Definition CalPrior_Props_all :=
  (@C121_constant,
   @C121_used_by_spline,
   @C122_at_file_frequency,
   @C122_flat_file).
Print Assumptions CalPrior_Props_all.
