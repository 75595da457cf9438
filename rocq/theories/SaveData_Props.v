(** C228: data of a detector saved as text and read again. *)
From Coq Require Import Reals List Bool Lra Lia Arith.
From Coquelicot Require Import Complex.
From Verif Require Import PyReal Series_Model GwInner_Model Inject_Model SaveData_Model.
Import ListNotations.
Open Scope R_scope.

Lemma masked_length m X : length (masked m X) = Nat.min (length m) (@length C X).
Proof. unfold masked. rewrite map_length, combine_length. reflexivity. Qed.
Lemma parts (Y : list C) : combine (map fst Y) (map snd Y) = Y.
Proof. induction Y as [|[a b] Y IH]; [reflexivity|]. cbn [map combine fst snd]. rewrite IH. reflexivity. Qed.
Lemma masked_twice m (X : list C) : masked m (masked m X) = masked m X.
Proof.
  unfold masked. revert X. induction m as [|b m IH]; intros [|x X]; try reflexivity. cbn [combine map fst snd]. rewrite IH. destruct b; reflexivity.
Qed.

Section Saved.
Context {P : Type}.
Variable interp : list R -> list ext -> R -> ext.
(** interpolation gives the values at its own points *)
Hypothesis at_points : forall F A, length F = length A -> NoDup F -> map (interp F A) F = A.

(** a detector whose arrays fit: one frequency, one value of the curve, and one flag for each datum *)
Definition raw (d : det P) : list C := match data d with Data X => X | Pending X _ => X end.
Definition good (F : list R) (d : det P) : Prop :=
  NoDup F /\ length F = length (curve d) /\ length (mask d) = length F /\ length (raw d) = length F /\ dur d = 1 / (nth 1 F 0 - nth 0 F 0) /\
  (forall x, In (Fin x) (curve d) -> 0 <= x) /\ 0 <= window_factor d /\ match data d with Pending _ w => 0 <= w | _ => True end.

Lemma read_raw (d : det P) : read_fd d = (masked (mask d) (raw d), snd (read_fd d)).
Proof. unfold read_fd, raw. destruct (data d); reflexivity. Qed.
Lemma save_eq F (d : det P) : fst (save_data F d) = Files (F, map fst (masked (mask d) (raw d)), map snd (masked (mask d) (raw d))) (F, asd_array (snd (read_fd d))).
Proof. unfold save_data, read_fd, raw. destruct (data d); reflexivity. Qed.
Lemma read_keeps (d : det P) : let d1 := snd (read_fd d) in mask d1 = mask d /\ curve d1 = curve d /\ id d1 = id d /\ dur d1 = dur d /\ data d1 = Data (raw d) /\ md d1 = md d /\
  window_factor d1 = match data d with Pending _ w => w | Data _ => window_factor d end.
Proof. unfold read_fd, raw. destruct (data d) eqn:E; cbn; rewrite ?E; repeat split; reflexivity. Qed.
Lemma squares (d : det P) : (forall x, In (Fin x) (curve d) -> 0 <= x) -> 0 <= window_factor d -> map square (asd_array d) = psd_array d.
Proof.
  intros C W. unfold asd_array, psd_array. rewrite map_map. apply map_ext_in. intros [x|] I; [|reflexivity]. cbn [square]. apply (f_equal Fin).
  rewrite Rpow_mult_distr, !pow2_sqrt; [reflexivity|exact W|apply C, I].
Qed.

(** ** C228 What is read again: the same data inside the mask, and the spectral density with the window factor in it *)
Theorem C228_same F (d : det P) : good F d ->
  let l : det P := load_data interp (id d) (mask d) (fst (save_data F d)) in
  let d1 := snd (read_fd d) in
  fst (read_fd l) = fst (read_fd d) /\ psd_array l = psd_array d1 /\ dur l = dur d /\ window_factor l = 1 /\
  (forall h, det_optimal l h = det_optimal d1 h) /\ (forall h, det_matched l h = det_matched d h).
Proof.
  intros (N & LC & LM & LD & D & CP & WP & PP). cbv zeta. rewrite save_eq.
  destruct (read_keeps d) as (K1 & K2 & K3 & K4 & K5 & K6 & K7).
  set (d1 := snd (read_fd d)) in *. unfold load_data. cbn [data_file asd_file].
  assert (W1 : 0 <= window_factor d1) by (rewrite K7; destruct (data d); assumption).
  assert (Q : map square (asd_array d1) = psd_array d1) by (apply squares; [rewrite K2; exact CP|exact W1]).
  assert (LP : length (psd_array d1) = length F) by (unfold psd_array; rewrite map_length, K2; lia).
  rewrite Q, at_points by (rewrite ?LP; auto).
  set (l := Det P _ _ _ _ _ _ _).
  assert (R1 : fst (read_fd l) = masked (mask d) (raw d)) by (unfold l, read_fd; cbn [data fst mask]; rewrite parts; apply masked_twice).
  assert (R2 : psd_array l = psd_array d1).
  { unfold l. unfold psd_array at 1. cbn [curve window_factor]. rewrite <- (map_id (psd_array d1)) at 2. apply map_ext. intros [x|]; [rewrite Rmult_1_r|]; reflexivity. }
  assert (R3 : dur l = dur d) by (unfold l; cbn [dur]; symmetry; exact D).
  split; [rewrite R1, (read_raw d); reflexivity|]. split; [exact R2|]. split; [exact R3|]. split; [reflexivity|]. split.
  - intros h. unfold det_optimal. rewrite R2, R3, K1, K4. reflexivity.
  - intros h. unfold det_matched. rewrite (read_raw d). rewrite (read_raw l). fold d1. change (snd (read_fd l)) with l. rewrite R2, R3, K1, K4.
    assert (R4 : masked (mask l) (raw l) = masked (mask d) (raw d)) by (rewrite <- R1, (read_raw l); reflexivity).
    cbn [fst snd]. rewrite R4. reflexivity.
Qed.
(** ** C228 A signal injected afterwards gives the same data and the same record as without saving *)
Theorem C228_inject {W} (response : nat -> W -> P -> option (list C)) F (d : det P) p w : good F d ->
  let l : det P := load_data interp (id d) (mask d) (fst (save_data F d)) in
  let r := inject_polarizations response l p w in let s := inject_polarizations response d p w in
  fst r = fst s /\ fst (read_fd (snd r)) = fst (read_fd (snd s)) /\ (fst s = Done -> md (snd r) = md (snd s)).
Proof.
  intros G. cbv zeta. destruct (C228_same F d G) as (R1 & R2 & R3 & R4 & RO & RM). cbv zeta in *.
  set (l := load_data interp (id d) (mask d) (fst (save_data F d))) in *.
  assert (I : id l = id d) by (unfold l, load_data; destruct (data_file _) as [[? ?] ?], (asd_file _); reflexivity).
  assert (M : mask l = mask d) by (unfold l, load_data; destruct (data_file _) as [[? ?] ?], (asd_file _); reflexivity).
  assert (L1 : snd (read_fd l) = l) by (unfold l, load_data; destruct (data_file _) as [[? ?] ?], (asd_file _); reflexivity).
  destruct (read_keeps d) as (K1 & K2 & K3 & K4 & K5 & K6 & K7).
  unfold inject_polarizations. rewrite I. destruct (response (id d) w p) as [h|]; [|cbn [fst snd]; split; [reflexivity|]; split; [exact R1|discriminate]].
  destruct (read_fd l) as [Yl l1] eqn:El. destruct (read_fd d) as [Y d1] eqn:Ed. cbn [fst snd] in *. subst l1 Yl.
  destruct (Nat.eqb (length Y) (length h)); [|cbn [fst snd]; split; [reflexivity|]; split; [|discriminate]].
  - assert (O : det_optimal (with_data l (add Y h)) h = det_optimal (with_data d1 (add Y h)) h).
    { unfold det_optimal, psd_array, with_data. cbn [mask curve window_factor dur]. unfold psd_array in R2. rewrite R2, R3, K4, M, K1. reflexivity. }
    assert (T : det_matched (with_data l (add Y h)) h = det_matched (with_data d1 (add Y h)) h).
    { unfold det_matched, read_fd, with_data. cbn [data]. unfold psd_array. cbn [mask curve window_factor dur]. unfold psd_array in R2. rewrite R2, R3, K4, M, K1. reflexivity. }
    rewrite O, T. destruct (det_optimal (with_data d1 (add Y h)) h) as [s|]; cbn [fst snd]; (split; [reflexivity|]); (split; [unfold read_fd, with_meta, with_data; cbn [data fst mask]; rewrite M, K1; reflexivity|]); [reflexivity|discriminate].
  - rewrite El. cbn [fst]. unfold read_fd. rewrite K5. cbn [fst]. rewrite K1. pose proof (read_raw d) as Q. rewrite Ed in Q. injection Q as Q. exact Q.
Qed.
(** ** C228 Outside the mask zeros are saved, so limits widened afterwards do not bring the data back *)
Theorem C228_outside F (d : det P) i m k : length (mask d) = length F -> length (raw d) = length F -> (k < length F)%nat -> nth k (mask d) true = false ->
  length m = length F -> nth k (fst (read_fd (load_data (P := P) interp i m (fst (save_data F d))))) (RtoC 0) = RtoC 0.
Proof.
  intros LM LD K E Lm. rewrite save_eq. unfold load_data. cbn [data_file asd_file]. unfold read_fd. cbn [data fst mask]. rewrite parts.
  assert (Z : nth k (masked (mask d) (raw d)) (RtoC 0) = RtoC 0).
  { unfold masked. set (f := fun q : bool * C => if fst q then snd q else RtoC 0). change (RtoC 0) with (f (false, RtoC 0)) at 1. rewrite map_nth, combine_nth by lia.
    unfold f. cbn [fst]. rewrite (nth_indep _ false true) by lia. rewrite E. reflexivity. }
  unfold masked at 1. set (f := fun q : bool * C => if fst q then snd q else RtoC 0). change (RtoC 0) with (f (false, RtoC 0)) at 1.
  rewrite map_nth, combine_nth by (rewrite masked_length; lia). unfold f. cbn [fst snd]. destruct (nth k m false); [exact Z|reflexivity].
Qed.
(** ** C228 An amplitude spectral density taken before the data were first read lacks the window factor, unlike the saved one *)
Theorem C228_early_refuted : exists F (d : det P), good F d /\ asd_array d <> snd (asd_file (fst (save_data F d))) /\
  snd (asd_file (fst (save_data F d))) = asd_array (snd (save_data F d)).
Proof.
  exists [0; 1], (Det P 0 [true; true] [Fin 1; Fin 1] 1 (Pending [RtoC 0; RtoC 0] (1 / 4)) 1 None). split; [|split].
  - unfold good, raw. cbn. repeat split; try reflexivity; try lra; try lia; [repeat constructor; cbn; [intros [H|[]]; lra|tauto]|intros x [H|[H|[]]]; injection H as <-; lra].
  - cbn. rewrite sqrt_1. intros H. injection H as H _. assert (Q : sqrt (1 / 4) * sqrt (1 / 4) = 1 / 4) by (apply sqrt_sqrt; lra). nra.
  - reflexivity.
Qed.
End Saved.
(** the hypothesis on the interpolation can be met, and a detector with data pending in time *)
Example C228_example : let d := Det unit 0 [false; true; true] [Inf; Fin 4; Fin 9] 1 (Pending [(7, 0); (1, 2); (3, 0)] (1 / 4)) 1 None in
  let f := fst (save_data [0; 1; 2] d) in
  data_file f = ([0; 1; 2], [0; 1; 3], [0; 2; 0]) /\ map square (snd (asd_file f)) = [Inf; Fin 1; Fin (9 / 4)].
Proof.
  cbv zeta. split; [reflexivity|]. cbn [save_data read_fd data fst snd asd_file asd_array curve window_factor map square].
  assert (Q : forall x, 0 <= x -> (sqrt x * sqrt (1 / 4)) ^ 2 = x * (1 / 4)) by (intros x X; rewrite Rpow_mult_distr, !pow2_sqrt; lra).
  rewrite !Q by lra. replace (4 * (1 / 4)) with 1 by field. replace (9 * (1 / 4)) with (9 / 4) by field. reflexivity.
Qed.

(** ** Assumptions of every theorem above *)
Definition SaveData_Props_all :=
  (@C228_same,
   @C228_inject,
   @C228_outside,
   @C228_early_refuted).
Print Assumptions SaveData_Props_all.
