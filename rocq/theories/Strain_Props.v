(** Properties of InterferometerStrainData (gw/detector/strain_data.py) *)
From Coq Require Import Reals List ZArith Bool Lra Lia.
From Coquelicot Require Import Complex.
From Verif Require Import PyReal Interp_Model Series_Model Series_Proofs Series_Props Strain_Model Strain_Proofs.
Import ListNotations.
Open Scope R_scope.

Section C81.
Variable tukey : nat -> R -> list R.
Hypothesis tukey_length : forall n a, length (tukey n a) = n.
Variables (fs T : R) (n : nat).
Hypothesis Hclean : clean fs T n.

(** ** C81 the frequency mask and the frequency-domain strain *)
(** whatever was set and read, before and after the data were given: entry k of the mask is True exactly when
    k / T lies in the band of the settings in force *)
Theorem C81_mask : forall lo hi nl r pre o g post, List.Forall quiet pre -> gives fs T n o g -> List.Forall quiet post ->
  let s := srun tukey (new_sd lo hi nl r) (pre ++ o :: post) in let b := fold_left set_band (pre ++ post) (lo, hi, nl) in
  exists m, fst (get_mask s) = Some m /\ length m = (n / 2 + 1)%nat
    /\ forall k, (k < n / 2 + 1)%nat -> (nth k m false = true <-> in_band fs b (INR k / T)).
Proof.
  intros lo hi nl r pre o g post H1 G H2 s b.
  destruct (give_run tukey tukey_length fs T n Hclean lo hi nl r pre o g post H1 G H2) as (_ & _ & _ & _ & I).
  destruct (get_mask_ok fs T n Hclean _ _ I) as (E & _ & _). exists (bmask fs n b). split; [exact E|]. split; [apply bmask_length|].
  intros k Hk. destruct (clean_freqs _ _ _ Hclean) as (_ & _ & Q). rewrite <- Q by auto. apply bmask_spec; auto.
Qed.
(** and maximum_frequency reads as the smaller of the last assigned value and the Nyquist frequency *)
Theorem C81_maximum_frequency : forall lo hi nl r pre o g post, List.Forall quiet pre -> gives fs T n o g -> List.Forall quiet post ->
  let s := srun tukey (new_sd lo hi nl r) (pre ++ o :: post) in
  fst (get_max s) = Some (match snd (fst (fold_left set_band (pre ++ post) (lo, hi, nl))) with None => fs / 2 | Some h => Rmin h (fs / 2) end).
Proof.
  intros lo hi nl r pre o g post H1 G H2 s.
  destruct (give_run tukey tukey_length fs T n Hclean lo hi nl r pre o g post H1 G H2) as (_ & _ & _ & _ & I).
  apply (get_max_ok fs T n _ _ I).
Qed.
(** the data most recently assigned to frequency_domain_strain (refused if the length is wrong) *)
Definition newest (X : list C) (o : sop) : list C := match o with AFd Y => if Nat.eqb (n / 2 + 1) (length Y) then Y else X | _ => X end.
Lemma newest_step b s X o : quiet o -> Inv fs T n b s -> fd s = Some X -> fd (sstep tukey s o) = Some (newest X o).
Proof.
  intros Q I E. destruct o; try contradiction; cbn [sstep newest]; try (cbn; exact E).
  - destruct (notch_arg a); cbn; exact E.
  - destruct (get_max_ok fs T n b s I) as (_ & _ & S & _). unfold same in S. rewrite <- E. apply S.
  - destruct (get_mask_ok fs T n Hclean b s I) as (_ & _ & S). unfold same in S. rewrite <- E. apply S.
  - destruct (get_fd_ok tukey tukey_length fs T n Hclean b s I) as (X' & E1 & _ & _ & _ & E2 & _). rewrite E2, <- E1. unfold the_fd. rewrite E. reflexivity.
  - pose proof (get_td_ok tukey tukey_length fs T n Hclean b s I) as H. destruct (td s); [rewrite H; exact E|].
    destruct H as (X' & _ & _ & E1 & _ & _ & _ & _ & E2 & _). rewrite E2, <- E1. exact E.
  - pose proof (assign_ok fs T n Hclean b s X0 I) as H. destruct (Nat.eqb _ _).
    + apply H. + destruct H as (_ & _ & H & _). rewrite H. exact E.
Qed.
Lemma newest_run post : forall b s X, List.Forall quiet post -> Inv fs T n b s -> fd s = Some X -> fd (srun tukey s post) = Some (fold_left newest post X).
Proof.
  induction post as [|o post IH]; intros b s X Hq I E; [exact E|]. inversion Hq; subst. unfold srun. cbn [fold_left].
  apply (IH (set_band b o)); auto. - apply step_inv; auto. - apply (newest_step b); auto.
Qed.
Definition inside (b : band) (k : nat) : Prop := in_band fs b (INR k / T).
Lemma masked_nth b X Z k : length X = (n / 2 + 1)%nat -> apply_mask X (bmask fs n b) = Some Z -> (k < n / 2 + 1)%nat ->
  length Z = (n / 2 + 1)%nat /\ (inside b k -> nth k Z (RtoC 0) = nth k X (RtoC 0)) /\ (~ inside b k -> nth k Z (RtoC 0) = RtoC 0).
Proof.
  intros L E Hk. rewrite (apply_ok fs n b X L) in E. injection E as <-.
  assert (LZ : length (combine X (bmask fs n b)) = (n / 2 + 1)%nat) by (rewrite combine_length, L, bmask_length; lia).
  split; [rewrite map_length; exact LZ|].
  set (h := fun p : C * bool => if snd p then fst p else RtoC 0).
  rewrite (nth_indep _ (RtoC 0) (h (RtoC 0, false))) by (rewrite map_length, LZ; auto). rewrite map_nth.
  rewrite combine_nth by (rewrite L, bmask_length; auto). unfold h. cbn [fst snd].
  destruct (clean_freqs _ _ _ Hclean) as (_ & _ & Q). pose proof (bmask_spec fs n b k Hk) as S. rewrite Q in S by auto. fold (inside b k) in S.
  destruct (nth k (bmask fs n b) false) eqn:D; split; intros HI; auto.
  - exfalso. apply HI, S. reflexivity.
  - apply S in HI. discriminate.
Qed.
(** data given in the frequency domain: every read returns the newest data inside the band in force, zero
    outside; nothing is lost by narrowing and widening the band *)
Theorem C81_frequency_domain_strain : forall lo hi nl r pre o X post, List.Forall quiet pre -> gives fs T n o (GFreq X) -> List.Forall quiet post ->
  let s := srun tukey (new_sd lo hi nl r) (pre ++ o :: post) in let b := fold_left set_band (pre ++ post) (lo, hi, nl) in
  exists Z, fst (get_fd tukey s) = Some Z /\ length Z = (n / 2 + 1)%nat /\
    forall k, (k < n / 2 + 1)%nat ->
      (inside b k -> nth k Z (RtoC 0) = nth k (fold_left newest post X) (RtoC 0)) /\ (~ inside b k -> nth k Z (RtoC 0) = RtoC 0).
Proof.
  intros lo hi nl r pre o X post H1 G H2 s b.
  destruct (give_run tukey tukey_length fs T n Hclean lo hi nl r pre o _ post H1 G H2) as (I0 & E1 & _ & _ & I).
  assert (E : fd s = Some (fold_left newest post X)).
  { unfold s. change (pre ++ o :: post) with (pre ++ ([o] ++ post)). rewrite app_assoc. unfold srun. rewrite fold_left_app. apply (newest_run post _ _ _ H2 I0 E1). }
  fold s in I. fold b in I. destruct (get_fd_ok tukey tukey_length fs T n Hclean b s I) as (X' & E2 & L & E3 & _).
  unfold the_fd in E2. rewrite E in E2. injection E2 as E2. rewrite E2. pose proof (apply_ok fs n b X' L) as A. rewrite E3, A. eexists. split; [reflexivity|].
  split; [rewrite map_length, combine_length, L, bmask_length; lia|]. intros k Hk. apply (masked_nth b X' _ k L A Hk).
Qed.
(** data given in the time domain: the roll-off in force at the first read of the frequency-domain strain *)
Definition freeze (q : R * option R) (o : sop) : R * option R :=
  match o with ORoll v => (v, snd q) | GFd => (fst q, match snd q with None => Some (fst q) | f => f end) | _ => q end.
Definition frozen (q : R * option R) : R := match snd q with Some r => r | None => fst q end.
Definition noassign (o : sop) : Prop := match o with AFd _ => False | _ => quiet o end.
Lemma noassign_quiet l : List.Forall noassign l -> List.Forall quiet l.
Proof. intros H. eapply Forall_impl; [|exact H]. intros o. destruct o; simpl; auto; contradiction. Qed.
Definition tracks (x : list R) (q : R * option R) (s : sd) : Prop :=
  td s = Some x /\ roll s = fst q /\ fd s = match snd q with None => None | Some r => Some (spectrum tukey fs T x r) end.
Lemma freeze_step b s x q o : noassign o -> Inv fs T n b s -> tracks x q s -> tracks x (freeze q o) (sstep tukey s o).
Proof.
  intros Q I (E1 & E2 & E3). unfold tracks. destruct o; try contradiction; cbn [sstep freeze]; try (cbn; auto; fail).
  - destruct (notch_arg a); cbn; auto.
  - destruct (get_max_ok fs T n b s I) as (_ & _ & (_ & _ & S3 & _ & S5 & S6) & _). rewrite S3, S5, S6. auto.
  - destruct (get_mask_ok fs T n Hclean b s I) as (_ & _ & (_ & _ & S3 & _ & S5 & S6)). rewrite S3, S5, S6. auto.
  - destruct (get_fd_ok tukey tukey_length fs T n Hclean b s I) as (X' & S1 & _ & _ & _ & S2 & S3 & S4 & _). rewrite S2, S3, S4, <- S1.
    cbn [fst snd]. unfold the_fd. rewrite E1, E2, E3. destruct (snd q); auto.
  - pose proof (get_td_ok tukey tukey_length fs T n Hclean b s I) as H. rewrite E1 in H. rewrite H. cbn [snd]. auto.
Qed.
Lemma freeze_run post : forall b s x q, List.Forall noassign post -> Inv fs T n b s -> tracks x q s ->
  tracks x (fold_left freeze post q) (srun tukey s post).
Proof.
  induction post as [|o post IH]; intros b s x q Hq I E; [exact E|]. inversion Hq; subst. unfold srun. cbn [fold_left].
  apply (IH (set_band b o)); auto. - apply step_inv; auto. destruct o; simpl in *; auto. - apply (freeze_step b); auto.
Qed.
Theorem C81_from_time_domain : forall lo hi nl r pre o x post, List.Forall quiet pre -> gives fs T n o (GTime x) -> List.Forall noassign post ->
  let s := srun tukey (new_sd lo hi nl r) (pre ++ o :: post) in let b := fold_left set_band (pre ++ post) (lo, hi, nl) in
  let X := spectrum tukey fs T x (frozen (fold_left freeze post (last_roll r pre, None))) in
  exists Z, fst (get_fd tukey s) = Some Z /\ length Z = (n / 2 + 1)%nat /\
    forall k, (k < n / 2 + 1)%nat -> (inside b k -> nth k Z (RtoC 0) = nth k X (RtoC 0)) /\ (~ inside b k -> nth k Z (RtoC 0) = RtoC 0).
Proof.
  intros lo hi nl r pre o x post H1 G H2 s b X. pose proof (noassign_quiet _ H2) as H2'.
  destruct (give_run tukey tukey_length fs T n Hclean lo hi nl r pre o _ post H1 G H2') as (I0 & E1 & E1' & E1'' & I).
  assert (K : tracks x (fold_left freeze post (last_roll r pre, None)) s).
  { unfold s. change (pre ++ o :: post) with (pre ++ ([o] ++ post)). rewrite app_assoc. unfold srun. rewrite fold_left_app.
    apply (freeze_run post _ _ x (last_roll r pre, None) H2 I0). unfold tracks. cbn [fst snd]. auto. }
  fold s in I. fold b in I. destruct (get_fd_ok tukey tukey_length fs T n Hclean b s I) as (X' & E2 & L & E3 & _).
  assert (XX : X' = X).
  { unfold the_fd in E2. destruct K as (K1 & K2 & K3). rewrite K1, K2, K3 in E2. unfold X, frozen. destruct (snd _); congruence. }
  pose proof (apply_ok fs n b X' L) as A. rewrite E3, A. eexists. split; [reflexivity|].
  split; [rewrite map_length, combine_length, L, bmask_length; lia|]. intros k Hk. rewrite <- XX. apply (masked_nth b X' _ k L A Hk).
Qed.

(** ** C82 the time-domain strain *)
(** time-domain data read back as given, whatever is set or read in between *)
Theorem C82_time_domain : forall lo hi nl r pre o x post, List.Forall quiet pre -> gives fs T n o (GTime x) -> List.Forall noassign post ->
  fst (get_td tukey (srun tukey (new_sd lo hi nl r) (pre ++ o :: post))) = Some x.
Proof.
  intros lo hi nl r pre o x post H1 G H2. pose proof (noassign_quiet _ H2) as H2'.
  destruct (give_run tukey tukey_length fs T n Hclean lo hi nl r pre o _ post H1 G H2') as (I0 & E1 & E1' & E1'' & I).
  assert (K : tracks x (fold_left freeze post (last_roll r pre, None)) (srun tukey (new_sd lo hi nl r) (pre ++ o :: post))).
  { change (pre ++ o :: post) with (pre ++ ([o] ++ post)). rewrite app_assoc. unfold srun. rewrite fold_left_app.
    apply (freeze_run post _ _ x (last_roll r pre, None) H2 I0). unfold tracks. cbn [fst snd]. auto. }
  destruct K as (K & _). unfold get_td. rewrite K. reflexivity.
Qed.
(** frequency-domain data assigned to the attribute: the next time-domain read is the inverse transform of
    the masked data *)
Theorem C82_assigned : forall lo hi nl r pre o g post Y, List.Forall quiet pre -> gives fs T n o g -> List.Forall quiet post ->
  length Y = (n / 2 + 1)%nat ->
  let s := srun tukey (new_sd lo hi nl r) (pre ++ o :: post ++ [AFd Y]) in
  exists Z z, fst (get_fd tukey s) = Some Z /\ infft Z fs = Some z /\ fst (get_td tukey s) = Some z.
Proof.
  intros lo hi nl r pre o g post Y H1 G H2 L s.
  destruct (give_run tukey tukey_length fs T n Hclean lo hi nl r pre o g post H1 G H2) as (_ & _ & _ & _ & I).
  unfold s. replace (pre ++ o :: post ++ [AFd Y]) with ((pre ++ o :: post) ++ [AFd Y]) by (rewrite <- app_assoc; reflexivity).
  unfold srun. rewrite fold_left_app. cbn [fold_left sstep]. fold (srun tukey (new_sd lo hi nl r) (pre ++ o :: post)).
  set (s0 := srun tukey (new_sd lo hi nl r) (pre ++ o :: post)) in *. pose proof (assign_ok fs T n Hclean _ s0 Y I) as A. rewrite L, Nat.eqb_refl in A.
  destruct A as (_ & I2 & A2 & A3 & _). set (s2 := snd (assign_fd Y s0)) in *.
  pose proof (get_td_ok tukey tukey_length fs T n Hclean _ s2 I2) as Q. rewrite A3 in Q.
  destruct Q as (X & Z & z & Q1 & Q2 & Q3 & Q4 & _).
  destruct (get_fd_ok tukey tukey_length fs T n Hclean _ s2 I2) as (X' & E2 & _ & E3 & _).
  unfold the_fd in E2. rewrite Q1 in E2. injection E2 as <-. exists Z, z. rewrite E3. auto.
Qed.
(** unwindowed data in an unlimited band survive the way to the frequency domain and back *)
Theorem C82_round_trip : forall lo t0 x, lo <= 0 -> length x = n -> (forall m, tukey m 0 = repeat 1 m) ->
  let s := sstep tukey (new_sd lo None [] 0) (STd x (Rate fs T t0)) in
  exists X, fst (get_fd tukey s) = Some X /\ fst (get_td tukey (snd (assign_fd X (snd (get_fd tukey s))))) = Some x.
Proof.
  intros lo t0 x Hlo L Ht s. assert (G : gives fs T n (STd x (Rate fs T t0)) (GTime x)) by (constructor; auto).
  destruct (give_run tukey tukey_length fs T n Hclean lo None [] 0 [] _ _ [] (Forall_nil _) G (Forall_nil _)) as (I & E1 & E2 & E3 & _).
  cbn [app] in *. change (srun tukey (new_sd lo None [] 0) [STd x (Rate fs T t0)]) with s in *. cbn [fold_left] in I.
  pose proof (clean_T _ _ _ Hclean) as HT.
  destruct (get_fd_ok tukey tukey_length fs T n Hclean _ s I) as (X & F1 & F2 & F3 & F4 & _).
  unfold the_fd in F1. cbn [gfd gtd last_roll fold_left] in *. rewrite E1, E2, E3 in F1. injection F1 as F1.
  assert (XE : X = fst (nfft x fs)).
  { rewrite <- F1. unfold spectrum. f_equal. f_equal. rewrite Rmult_0_r. unfold Rdiv. rewrite Rmult_0_l, Ht. clear.
    induction x as [|a x IH]; [reflexivity|]. cbn. rewrite IH, Rmult_1_r. reflexivity. }
  assert (A : apply_mask X (bmask fs n (lo, None, [])) = Some X).
  { rewrite (apply_ok fs n _ X F2). f_equal. pose proof (fun k => masked_nth (lo, None, []) X _ k F2 (apply_ok fs n _ X F2)) as M.
    apply nth_ext with (d := RtoC 0) (d' := RtoC 0); [rewrite map_length, combine_length, F2, bmask_length; lia|].
    intros k Hk. rewrite map_length, combine_length, F2, bmask_length, Nat.min_id in Hk. apply M; auto.
    unfold inside, in_band. assert (0 <= INR k / T) by (apply Rmult_le_pos; [apply pos_INR|left; apply Rinv_0_lt_compat; auto]).
    split; [lra|]. split; [auto|]. split; [|intros p []].
    destruct Hclean as (Hf & Hn & [m He] & HTf & _). apply Rmult_le_reg_r with (T * 2); [lra|].
    replace (INR k / T * (T * 2)) with (2 * INR k) by (field; lra). replace (fs / 2 * (T * 2)) with (T * fs) by field. rewrite HTf.
    assert (Hh : (n / 2 = m)%nat) by (rewrite He, Nat.mul_comm; apply Nat.div_mul; lia).
    replace (2 * INR k) with (INR (2 * k)) by (rewrite mult_INR; reflexivity). apply le_INR. lia. }
  rewrite F3, A. exists X. split; [reflexivity|].
  pose proof (assign_ok fs T n Hclean _ _ X F4) as B. rewrite F2, Nat.eqb_refl in B. destruct B as (_ & I2 & B2 & B3 & _).
  pose proof (get_td_ok tukey tukey_length fs T n Hclean _ _ I2) as Q. rewrite B3 in Q. destruct Q as (X' & Z & z & Q1 & Q2 & Q3 & Q4 & _).
  rewrite Q4, <- Q3. rewrite B2 in Q1. injection Q1 as <-. rewrite A in Q2. injection Q2 as <-. rewrite XE.
  destruct Hclean as (Hf & Hn & He & _). apply C17_round_trip; [rewrite L; auto| |lra]. destruct x; [cbn in L; lia|discriminate].
Qed.
(** ** C84 injections *)
(** a signal is added to the masked data: inside the band data + signal, outside the signal alone; what the
    data had outside the band is gone for good, as later reads (C81) return the newest data *)
Theorem C84_injection : forall lo hi nl r pre o X post h, List.Forall quiet pre -> gives fs T n o (GFreq X) -> List.Forall quiet post ->
  length h = (n / 2 + 1)%nat ->
  let s := srun tukey (new_sd lo hi nl r) (pre ++ o :: post) in let b := fold_left set_band (pre ++ post) (lo, hi, nl) in
  let s' := snd (inject tukey h s) in
  fst (inject tukey h s) = true /\ exists Y, fd s' = Some Y /\ length Y = (n / 2 + 1)%nat /\ td s' = None /\
    forall k, (k < n / 2 + 1)%nat ->
      (inside b k -> nth k Y (RtoC 0) = (nth k (fold_left newest post X) (RtoC 0) + nth k h (RtoC 0))%C)
      /\ (~ inside b k -> nth k Y (RtoC 0) = nth k h (RtoC 0)).
Proof.
  intros lo hi nl r pre o X post h H1 G H2 Lh s b s'.
  destruct (C81_frequency_domain_strain lo hi nl r pre o X post H1 G H2) as (Z & E1 & L & E2). fold s in E1. fold b in E2.
  destruct (give_run tukey tukey_length fs T n Hclean lo hi nl r pre o _ post H1 G H2) as (_ & _ & _ & _ & I). fold s b in I.
  destruct (get_fd_ok tukey tukey_length fs T n Hclean b s I) as (_ & _ & _ & _ & I1 & _).
  unfold s', inject. destruct (get_fd tukey s) as [oz s1]. cbn [fst snd] in *. subst oz. rewrite L, Lh, Nat.eqb_refl.
  set (Y := map _ _).
  assert (LY : length Y = (n / 2 + 1)%nat) by (unfold Y; rewrite map_length, combine_length, L, Lh; lia).
  pose proof (assign_ok fs T n Hclean b s1 Y I1) as A. rewrite LY, Nat.eqb_refl in A. destruct A as (A1 & _ & A2 & A3 & _).
  split; [exact A1|]. exists Y. split; [exact A2|]. split; [exact LY|]. split; [exact A3|]. intros k Hk.
  assert (NY : nth k Y (RtoC 0) = (nth k Z (RtoC 0) + nth k h (RtoC 0))%C).
  { unfold Y. set (q := fun p : C * C => (fst p + snd p)%C).
    rewrite (nth_indep _ (RtoC 0) (q (RtoC 0, RtoC 0))) by (rewrite map_length, combine_length, L, Lh; lia).
    rewrite map_nth, combine_nth by (rewrite L, Lh; reflexivity). reflexivity. }
  rewrite NY. destruct (E2 k Hk) as [P1 P2]. split; intros Q; [rewrite P1 by auto; reflexivity|rewrite P2 by auto]. apply Cplus_0_l.
Qed.
End C81.

(** ** limits of C81, C82 *)
(** giving data a second time keeps the mask computed for the first data *)
Theorem C81_second_data_set_refuted : exists (lo : R) (ops : list sop), forall tukey,
  let s := srun tukey (new_sd lo None [] 0) ops in
  fst (get_mask s) = Some [false; false; true]
  /\ nth 1 (Freqs 8 4) 0 = 2 /\ in_band 8 (lo, None, []) 2
  /\ fst (t_f (tf s)) = Some (Freqs 8 4).
Proof.
  exists (3/2), [SZero 4 1 0; GMask; SZero 8 (1/2) 0]. intros tukey.
  assert (C1 : clean 4 1 4).
  { split; [lra|]. split; [lia|]. split; [exists 2%nat; reflexivity|]. split; [simpl; lra|].
    split; [exists 400000000000000%Z; lra|exists 100000000000000%Z; lra]. }
  assert (C2 : clean 8 (1/2) 4).
  { split; [lra|]. split; [lia|]. split; [exists 2%nat; reflexivity|]. split; [simpl; lra|].
    split; [exists 800000000000000%Z; lra|exists 50000000000000%Z; lra]. }
  destruct (clean_freqs _ _ _ C1) as (F1 & _ & N1). destruct (clean_freqs _ _ _ C2) as (F2 & _ & N2).
  assert (M : map (mask_at (3/2) (Some 2) []) (Freqs 4 4) = [false; false; true]).
  { unfold Freqs. cbn [Nat.div Nat.divmod fst Nat.add]. unfold linspace. cbn [seq map Nat.sub INR]. unfold mask_at. cbn [existsb negb].
    repeat (destruct (Rle_dec _ _) as [?H|?H]; [|]); cbn; try reflexivity; exfalso; lra. }
  cbv zeta. unfold srun. cbn [fold_left sstep]. unfold set_from_zero at 2.
  assert (T1 : t_f (new_cts (Some 4) (Some 1) 0) = (Some (Freqs 4 4), mkC (Some 4) (Some 1) 0 (Some (Freqs 4 4)) true None false)) by (unfold t_f, get_f; cbn [c_fok c_fs c_T new_cts c_t0 c_t c_tok]; rewrite F1; reflexivity).
  assert (T2 : t_f (new_cts (Some 8) (Some (1/2)) 0) = (Some (Freqs 8 4), mkC (Some 8) (Some (1/2)) 0 (Some (Freqs 8 4)) true None false)) by (unfold t_f, get_f; cbn [c_fok c_fs c_T new_cts c_t0 c_t c_tok]; rewrite F2; reflexivity).
  rewrite T1. cbv zeta. cbn [snd fst].
  unfold get_mask at 2. cbn [mok with_tf new_sd]. unfold t_f, get_f. cbn [tf with_tf c_fok c_f].
  unfold get_max. cbn [tf with_tf c_fs mx new_sd]. cbv zeta. cbn [mn notch with_tf new_sd].
  replace (4 / 2) with 2 by lra. rewrite M. cbn [snd].
  unfold set_from_zero. rewrite T2. cbv zeta. cbn [snd]. unfold get_mask. cbn [mok with_tf mask fst tf]. unfold t_f, get_f. cbn [c_fok fst c_f].
  split; [reflexivity|]. split; [rewrite N2 by (cbn; lia); simpl; lra|]. split; [|reflexivity].
  unfold in_band. split; [lra|]. split; [auto|]. split; [lra|]. intros p [].
Qed.
(** appending to notch_list instead of assigning it leaves the mask as it was *)
Theorem C81_append_refuted : forall tukey s m p, mok s = true -> mask s = Some m ->
  fst (get_mask (sstep tukey s (OAppend p))) = Some m /\ notch (sstep tukey s (OAppend p)) = notch s ++ [p].
Proof. intros tukey s m p H1 H2. unfold get_mask. cbn. rewrite H1. auto. Qed.
(** reading maximum_frequency stores the Nyquist frequency: data with a higher sampling frequency set later stay cut there *)
Theorem C81_sticky_maximum_refuted : forall tukey s fs fs' T', c_fs (tf s) = Some fs -> mx s = None -> fs < fs' ->
  let s' := sstep tukey (sstep tukey s GMax) (SZero fs' T' 0) in
  mx s' = Some (fs / 2) /\ fst (get_max s') = Some (fs / 2).
Proof.
  intros tukey s fs fs' T' H1 H2 H3 s'.
  assert (E : mx s' = Some (fs / 2) /\ c_fs (tf s') = Some fs').
  { unfold s'. cbn [sstep]. unfold set_from_zero, t_f, get_f. cbn. unfold get_max. rewrite H1, H2. cbn.
    destruct (create_frequency_series fs' T'); cbn; auto. }
  destruct E as [E1 E2]. split; [exact E1|]. unfold get_max. rewrite E1, E2. cbv zeta. destruct (Rlt_dec fs' (2 * (fs / 2))); [lra|reflexivity].
Qed.
(** data given in the time domain replace both representations, whatever the object held *)
Theorem C82_time_data_replace_all : forall x d s s', set_from_td x d s = (true, s') -> td s' = Some x /\ fd s' = None.
Proof.
  intros x d s s' H. unfold set_from_td in H. destruct (infer true d s) as [[|] s1]; [|discriminate].
  destruct (t_t (tf s1)) as [[t|] c]; [|discriminate]. destruct (Nat.eqb _ _); [|discriminate]. injection H as <-. cbn. auto.
Qed.
(** data given in the frequency domain, as noise or as zero noise, do not replace time-domain data the object held *)
Lemma infer_keeps k d s : td (snd (infer k d s)) = td s.
Proof. destruct d; cbn; auto. destruct k; cbn; auto. destruct (from_frequency_array l); reflexivity. Qed.
Theorem C82_stale_time_data_refuted : forall tukey x s, td s = Some x ->
  (forall X d, fst (get_td tukey (sstep tukey s (SFd X d))) = Some x)
  /\ (forall X fs T t0, fst (get_td tukey (sstep tukey s (SPsd X fs T t0))) = Some x)
  /\ (forall fs T t0, fst (get_td tukey (sstep tukey s (SZero fs T t0))) = Some x).
Proof.
  intros tukey x s H. assert (A : forall s', td s' = td s -> fst (get_td tukey s') = Some x).
  { intros s' E. unfold get_td. rewrite E, H. reflexivity. }
  split; [|split].
  - intros X d. apply A. cbn [sstep]. unfold set_from_fd. pose proof (infer_keeps false d s) as K. destruct (infer false d s) as [[|] s1]; [|exact K].
    cbn in K. destruct (t_f (tf s1)) as [[F|] c]; [|exact K]. cbv zeta. destruct (Nat.eqb _ _); exact K.
  - intros X fs T t0. apply A. cbn [sstep]. unfold set_from_psd. destruct (t_f _) as [[F|] c]; [|reflexivity]. cbv zeta. destruct (Nat.eqb _ _); reflexivity.
  - intros fs T t0. apply A. cbn [sstep]. unfold set_from_zero. destruct (t_f _) as [[F|] c]; reflexivity.
Qed.
(** nor do noise and zero noise reset the window factor of earlier, windowed data (data given with
    set_from_frequency_domain_strain do) *)
Theorem C82_window_factor : forall X fs T t0 d s,
  wf (snd (set_from_psd X fs T t0 s)) = wf s /\ wf (snd (set_from_zero fs T t0 s)) = wf s
  /\ (forall s', set_from_fd X d s = (true, s') -> wf s' = 1).
Proof.
  intros X fs T t0 d s. split; [|split].
  - unfold set_from_psd. destruct (t_f _) as [[F|] c]; [|reflexivity]. cbv zeta. destruct (Nat.eqb _ _); reflexivity.
  - unfold set_from_zero. destruct (t_f _) as [[F|] c]; reflexivity.
  - intros s' H. unfold set_from_fd in H. destruct (infer false d s) as [[|] s1]; [|discriminate].
    destruct (t_f (tf s1)) as [[F|] c]; [|discriminate]. cbv zeta in H. destruct (Nat.eqb _ _); [|discriminate]. injection H as <-. reflexivity.
Qed.
(** ** C83 notches *)
Theorem C83_accepted : forall l r, mk_notches l = Some r <->
  (forall e, In e l -> exists lo hi, e = Tup [lo; hi] /\ 0 < lo < hi) /\ r = map (fun e => match e with Tup [a; b] => (a, b) | _ => (0, 0) end) l.
Proof.
  induction l as [|e l IH]; intros r.
  - cbn. split; [intros [= <-]; split; [intros e []|reflexivity]|intros [_ ->]; reflexivity].
  - split.
    + intros H. destruct e as [[|a [|b [|c t]]]|p]; try discriminate. cbn in H. unfold mk_notch in H.
      destruct (Rlt_dec 0 a) as [Ha|]; [|discriminate]. destruct (Rlt_dec a b) as [Hb|]; [|discriminate].
      destruct (mk_notches l) as [r'|]; [|discriminate]. injection H as <-. destruct (proj1 (IH r') eq_refl) as [Q1 Q2]. split.
      * intros e [<-|He]; [exists a, b; auto|apply Q1; auto].
      * cbn. rewrite <- Q2. reflexivity.
    + intros [Q1 ->]. destruct (Q1 e (or_introl eq_refl)) as (a & b & -> & Hab). cbn. unfold mk_notch.
      destruct (Rlt_dec 0 a); [|lra]. destruct (Rlt_dec a b); [|lra]. erewrite (proj2 (IH _)); [reflexivity|]. split; [|reflexivity]. intros e He. apply Q1. right; auto.
Qed.
Theorem C83_check_frequency : forall l f, check_notches l f = true <-> exists p, In p l /\ fst p < f < snd p.
Proof.
  intros l f. unfold check_notches. rewrite existsb_exists. split; intros (p & H1 & H2); exists p; split; auto.
  - unfold check_notch in H2. destruct (Rlt_dec (fst p) f), (Rlt_dec f (snd p)); try discriminate; lra.
  - unfold check_notch. destruct (Rlt_dec (fst p) f), (Rlt_dec f (snd p)); try reflexivity; lra.
Qed.
(** a ready-made NotchList, which the documentation asks for, is refused unless it is empty; the settings stay *)
Theorem C83_notch_list_refused_refuted : forall tukey s p l, notch_arg (ANotchList (p :: l)) = None
  /\ sstep tukey s (ONotch (ANotchList (p :: l))) = s.
Proof. intros. split; reflexivity. Qed.
(** and so is a list written in the documented order (max, min) *)
Theorem C83_documented_order_refuted : forall hi lo l, lo <= hi -> mk_notches (Tup [hi; lo] :: l) = None.
Proof. intros hi lo l H. cbn. unfold mk_notch. destruct (Rlt_dec 0 hi); [|reflexivity]. destruct (Rlt_dec hi lo); [lra|reflexivity]. Qed.
(** ** C83 the data used for a PSD *)
(** create_power_spectral_density is documented to leave the analysis segment out; the test whether the
    segment lies inside the data never succeeds for data starting at a time t >= 0 *)
Theorem C83_psd_segment_refuted : forall t x fft a, 0 <= hd 0 t -> 0 <= fft -> psd_data t x fft (Some a) = x.
Proof. intros t x fft a H1 H2. unfold psd_data. cbv zeta. destruct (Rlt_dec _ a); [lra|reflexivity]. Qed.

Example C81_example : forall tukey, (forall n a, length (tukey n a) = n) ->
  exists m, fst (get_mask (srun tukey (new_sd 0 None [] 0) [OMin 3; SFd [RtoC 1; RtoC 2; RtoC 3] (Rate 4 1 0); GMask; OMin 1; GFd; ONotch (AList [Tup [1/2; 3/2]])])) = Some m
    /\ nth 0 m false = false /\ nth 1 m false = false /\ nth 2 m false = true.
Proof.
  intros tukey HT.
  assert (C1 : clean 4 1 4).
  { split; [lra|]. split; [lia|]. split; [exists 2%nat; reflexivity|]. split; [simpl; lra|].
    split; [exists 400000000000000%Z; lra|exists 100000000000000%Z; lra]. }
  destruct (C81_mask tukey HT 4 1 4 C1 0 None [] 0 [OMin 3] (SFd [RtoC 1; RtoC 2; RtoC 3] (Rate 4 1 0)) (GFreq [RtoC 1; RtoC 2; RtoC 3]) [GMask; OMin 1; GFd; ONotch (AList [Tup [1/2; 3/2]])]) as (m & E & L & H).
  { repeat constructor. } { constructor. reflexivity. } { repeat constructor. }
  exists m. split; [exact E|]. clear E. cbn [fold_left app set_band notch_arg mk_notches] in H. unfold mk_notch in H.
  destruct (Rlt_dec 0 (1/2)); [|lra]. destruct (Rlt_dec (1/2) (3/2)); [|lra]. unfold in_band in H. cbn in L.
  assert (N : forall k (P : Prop), (nth k m false = true <-> P) -> ~ P -> nth k m false = false).
  { intros k P [Q _] NP. destruct (nth k m false); auto. exfalso. auto. }
  split; [|split].
  - eapply N; [apply H; cbn; lia|]. simpl. lra.
  - eapply N; [apply H; cbn; lia|]. simpl. intros (_ & _ & _ & Q). apply (Q (1/2, 3/2)); [left; reflexivity|cbn; lra].
  - apply H; [cbn; lia|]. simpl. repeat split; try lra. intros p [<-|[]] Q. cbn in Q. lra.
Qed.
Example C82_example : fst (get_td (fun n _ => repeat 1 n) (sstep (fun n _ => repeat 1 n) (new_sd 0 None [] 0) (STd [1; 2; 3; 5] (Rate 4 1 7)))) = Some [1; 2; 3; 5].
Proof.
  assert (C1 : clean 4 1 4).
  { split; [lra|]. split; [lia|]. split; [exists 2%nat; reflexivity|]. split; [simpl; lra|].
    split; [exists 400000000000000%Z; lra|exists 100000000000000%Z; lra]. }
  apply (C82_time_domain (fun n _ => repeat 1 n) (fun n _ => repeat_length 1 n) 4 1 4 C1 0 None [] 0 [] (STd [1; 2; 3; 5] (Rate 4 1 7)) [1; 2; 3; 5] []); [constructor|constructor; reflexivity|constructor].
Qed.
Example C83_example : mk_notches [Tup [59; 61]; Tup [119; 121]] = Some [(59, 61); (119, 121)] /\ mk_notches [Tup [61; 59]] = None
  /\ check_notches [(59, 61); (119, 121)] 120 = true.
Proof.
  split; [|split].
  - apply C83_accepted. split; [|reflexivity]. intros e [<-|[<-|[]]]; do 2 eexists; (split; [reflexivity|lra]).
  - apply C83_documented_order_refuted. lra.
  - apply C83_check_frequency. exists (119, 121). cbn. split; [auto|lra].
Qed.
Example C83_psd_example : psd_data [100; 101; 102; 103] [1; 2; 3; 4] 1 (Some 101) = [1; 2; 3; 4].
Proof. apply C83_psd_segment_refuted; cbn; lra. Qed.

Example C84_example : exists Y, let s' := snd (inject (fun n _ => repeat 1 n) [RtoC 1; RtoC 1; RtoC 1]
    (srun (fun n _ => repeat 1 n) (new_sd 1 None [] 0) [SFd [RtoC 5; RtoC 6; RtoC 7] (Rate 4 1 0)])) in
  fd s' = Some Y /\ nth 0 Y (RtoC 0) = RtoC 1 /\ nth 1 Y (RtoC 0) = (RtoC 6 + RtoC 1)%C.
Proof.
  assert (C1 : clean 4 1 4).
  { split; [lra|]. split; [lia|]. split; [exists 2%nat; reflexivity|]. split; [simpl; lra|].
    split; [exists 400000000000000%Z; lra|exists 100000000000000%Z; lra]. }
  destruct (C84_injection (fun n _ => repeat 1 n) (fun n _ => repeat_length 1 n) 4 1 4 C1 1 None [] 0 [] (SFd [RtoC 5; RtoC 6; RtoC 7] (Rate 4 1 0))
    [RtoC 5; RtoC 6; RtoC 7] [] [RtoC 1; RtoC 1; RtoC 1]) as (_ & Y & E & L & _ & H); try (constructor; reflexivity).
  exists Y. split; [exact E|]. unfold inside, in_band in H. cbn [fold_left app] in H. split.
  - destruct (H 0%nat) as [_ Q]; [cbn; lia|]. rewrite Q; [reflexivity|]. simpl. lra.
  - destruct (H 1%nat) as [Q _]; [cbn; lia|]. rewrite Q; [reflexivity|]. simpl. repeat split; try lra. intros p [].
Qed.

(** ** Assumptions of every theorem above *)
Definition Strain_Props_all :=
  (@C81_mask,
   @C81_maximum_frequency,
   @C81_frequency_domain_strain,
   @C81_from_time_domain,
   @C82_time_domain,
   @C82_assigned,
   @C82_round_trip,
   @C84_injection,
   @C81_second_data_set_refuted,
   @C81_append_refuted,
   @C81_sticky_maximum_refuted,
   @C82_time_data_replace_all,
   @C82_stale_time_data_refuted,
   @C82_window_factor,
   @C83_accepted,
   @C83_check_frequency,
   @C83_notch_list_refused_refuted,
   @C83_documented_order_refuted,
   @C83_psd_segment_refuted).
Print Assumptions Strain_Props_all.
