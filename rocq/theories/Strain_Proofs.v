(** Invariant of a strain object that was given data once *)
From Coq Require Import Reals List ZArith Bool Lra Lia.
From Coquelicot Require Import Complex.
From Verif Require Import PyReal Interp_Model Series_Model Series_Proofs Series_Props Strain_Model.
Import ListNotations.
Open Scope R_scope.

(** sampling frequency and duration that numpy's 14-decimal rounding does not change, with an even number
    of samples *)
Definition clean (fs T : R) (n : nat) : Prop :=
  0 < fs /\ (2 <= n)%nat /\ Nat.Even n /\ T * fs = INR n /\ (exists a, fs * 10 ^ 14 = IZR a) /\ (exists b, T * 10 ^ 14 = IZR b).
Definition Freqs (fs : R) (n : nat) : list R := linspace 0 (fs / 2) (n / 2 + 1).
Lemma Freqs_length fs n : length (Freqs fs n) = (n / 2 + 1)%nat. Proof. apply linspace_length. Qed.
Lemma half2 n : (2 <= n)%nat -> (1 <= n / 2)%nat.
Proof. intros H. apply Nat.div_le_lower_bound; lia. Qed.
Lemma clean_T fs T n : clean fs T n -> 0 < T.
Proof.
  intros (Hf & Hn & _ & H & _). assert (2 <= INR n) by (change 2 with (INR 2); apply le_INR; lia).
  replace T with (INR n / fs) by (rewrite <- H; field; lra). apply Rdiv_lt_0_compat; lra.
Qed.
Lemma clean_freqs fs T n : clean fs T n -> create_frequency_series fs T = Some (Freqs fs n)
  /\ from_frequency_array (Freqs fs n) = Some (fs, T)
  /\ forall k, (k < n / 2 + 1)%nat -> nth k (Freqs fs n) 0 = INR k / T.
Proof.
  intros Hc. pose proof (clean_T _ _ _ Hc) as HT. destruct Hc as (Hf & Hn & He & H & [a Ha] & [b Hb]).
  destruct (C18_frequency_array_even fs T n Hf ltac:(lia) He H) as (l & E1 & E2 & E3 & E4).
  assert (Q : l = Freqs fs n).
  { apply nth_ext with (d := 0) (d' := 0); [rewrite Freqs_length; auto|]. intros k Hk. rewrite E2 in Hk.
    rewrite E3 by lia. unfold Freqs. rewrite linspace_nth by auto.
    replace (n / 2 + 1 - 1)%nat with (n / 2)%nat by lia. destruct He as [m He].
    assert (Hh : (n / 2 = m)%nat) by (rewrite He, Nat.mul_comm; apply Nat.div_mul; lia). rewrite Hh.
    assert (0 < INR m) by (apply lt_0_INR; lia). rewrite He, mult_INR in H. change (INR 2) with 2 in H.
    replace fs with (2 * INR m / T) by (rewrite <- H; field; lra). field. lra. }
  subst l. destruct (C18_read_back fs T 0 n a b Hf Hn He H Ha Hb) as [_ (l & E5 & E6)].
  rewrite E1 in E5. assert (l = Freqs fs n) by congruence. subst l. split; [auto|]. split; [auto|].
  intros k Hk. apply E3. lia.
Qed.
Lemma clean_nfft fs T n x : clean fs T n -> length x = n -> snd (nfft x fs) = Freqs fs n /\ length (fst (nfft x fs)) = (n / 2 + 1)%nat.
Proof. intros Hc Hx. unfold nfft. cbn [fst snd]. rewrite map_length, rfft_length, Hx. split; reflexivity. Qed.

(** settings in force after a sequence of operations *)
Definition band := (R * option R * list (R * R))%type.
Definition set_band (b : band) (o : sop) : band :=
  let '(lo, hi, nl) := b in
  match o with
  | OMin v => (v, hi, nl) | OMax v => (lo, v, nl)
  | ONotch a => match notch_arg a with Some l => (lo, hi, l) | None => b end
  | _ => b end.
(** operations that set no new data *)
Definition quiet (o : sop) : Prop :=
  match o with OMin _ | OMax _ | ONotch _ | ORoll _ | GMax | GMask | GFd | GTd | AFd _ => True | _ => False end.
Definition eff (fs : R) (hi : option R) : R := match hi with None => fs / 2 | Some m => Rmin m (fs / 2) end.
Definition bmask (fs : R) (n : nat) (b : band) : list bool :=
  let '(lo, hi, nl) := b in map (mask_at lo (Some (eff fs hi)) nl) (Freqs fs n).
(** in words: between minimum and maximum frequency, not above Nyquist, strictly inside no notch *)
Definition in_band (fs : R) (b : band) (f : R) : Prop :=
  let '(lo, hi, nl) := b in
  lo <= f /\ match hi with Some h => f <= h | None => True end /\ f <= fs / 2 /\ forall p, In p nl -> ~ (fst p < f < snd p).
Lemma bmask_spec fs n b k : (k < n / 2 + 1)%nat -> (nth k (bmask fs n b) false = true <-> in_band fs b (nth k (Freqs fs n) 0)).
Proof.
  intros Hk. destruct b as [[lo hi] nl]. unfold bmask.
  rewrite (nth_indep _ false (mask_at lo (Some (eff fs hi)) nl 0)) by (rewrite map_length, Freqs_length; auto).
  rewrite map_nth. set (f := nth k _ _). unfold mask_at, in_band.
  assert (E : existsb (fun q => in_idxs q f) nl = true <-> exists p, In p nl /\ fst p < f < snd p).
  { rewrite existsb_exists. split; intros (p & H1 & H2); exists p; split; auto.
    - unfold in_idxs in H2. destruct (Rlt_dec (fst p) f), (Rlt_dec f (snd p)); try discriminate. lra.
    - unfold in_idxs. destruct (Rlt_dec (fst p) f), (Rlt_dec f (snd p)); try reflexivity; lra. }
  assert (M : f <= eff fs hi <-> match hi with Some h => f <= h | None => True end /\ f <= fs / 2).
  { unfold eff. destruct hi as [h|]; [|tauto]. split.
    - intros H. pose proof (Rmin_l h (fs/2)). pose proof (Rmin_r h (fs/2)). lra.
    - intros [? ?]. apply Rmin_glb; auto. }
  rewrite !andb_true_iff, negb_true_iff. split.
  - intros [[H1 H2] H3]. destruct (Rle_dec lo f); [|discriminate]. destruct (Rle_dec f (eff fs hi)) as [Hle|]; [|discriminate].
    apply M in Hle. split; [auto|]. split; [tauto|]. split; [tauto|]. intros p Hp Hq.
    assert (existsb (fun q => in_idxs q f) nl = true) by (apply E; exists p; auto). congruence.
  - intros (H1 & H2 & H3 & H4). assert (Hle : f <= eff fs hi) by (apply M; auto).
    destruct (Rle_dec lo f); [|lra]. destruct (Rle_dec f (eff fs hi)); [|lra]. split; [auto|].
    destruct (existsb _ nl) eqn:Q; auto. destruct (proj1 E eq_refl) as (p & ? & ?). exfalso. eapply H4; eauto.
Qed.
Lemma bmask_length fs n b : length (bmask fs n b) = (n / 2 + 1)%nat.
Proof. destruct b as [[lo hi] nl]. unfold bmask. rewrite map_length, Freqs_length. reflexivity. Qed.

Section P.
Variable tukey : nat -> R -> list R.
Hypothesis tukey_length : forall n a, length (tukey n a) = n.
Variables (fs T : R) (n : nat).
Hypothesis Hclean : clean fs T n.
Notation step := (sstep tukey).

Record Inv (b : band) (s : sd) : Prop := mkInv {
  i_fs : c_fs (tf s) = Some fs; i_T : c_T (tf s) = Some T;
  i_f : c_fok (tf s) = true -> c_f (tf s) = Some (Freqs fs n);
  i_mn : mn s = fst (fst b); i_mx : eff fs (mx s) = eff fs (snd (fst b)); i_nl : notch s = snd b;
  i_mask : mok s = true -> mask s = Some (bmask fs n b);
  i_fd : forall X, fd s = Some X -> length X = (n / 2 + 1)%nat;
  i_td : fd s = None -> exists x, td s = Some x /\ length x = n }.

(** what a read may change *)
Definition same (s s' : sd) : Prop := mn s' = mn s /\ notch s' = notch s /\ roll s' = roll s /\ wf s' = wf s /\ fd s' = fd s /\ td s' = td s.

Lemma t_f_ok c : c_fs c = Some fs -> c_T c = Some T -> (c_fok c = true -> c_f c = Some (Freqs fs n)) ->
  exists c', t_f c = (Some (Freqs fs n), c') /\ c_fs c' = Some fs /\ c_T c' = Some T /\ (c_fok c' = true -> c_f c' = Some (Freqs fs n)).
Proof.
  intros H1 H2 H3. unfold t_f, get_f. destruct (c_fok c) eqn:E.
  - rewrite H3 by auto. exists c. auto.
  - rewrite H1, H2. destruct (clean_freqs _ _ _ Hclean) as (-> & _ & _). eexists. split; [reflexivity|]. cbn. auto.
Qed.
Lemma get_max_ok b s : Inv b s -> fst (get_max s) = Some (eff fs (snd (fst b))) /\ Inv b (snd (get_max s)) /\ same s (snd (get_max s)) /\ mok (snd (get_max s)) = mok s /\ mask (snd (get_max s)) = mask s.
Proof.
  intros [H1 H2 H3 H4 H5 H6 H7 H8 H9]. unfold get_max. rewrite H1. cbv zeta.
  assert (L : eff fs (Some (fs / 2)) = fs / 2) by (unfold eff; apply Rmin_left; lra).
  destruct (mx s) as [m|] eqn:Em.
  - destruct (Rlt_dec fs (2 * m)) as [Hl|Hl]; cbn [fst snd].
    + assert (E : eff fs (Some m) = fs / 2) by (unfold eff; apply Rmin_right; lra). rewrite <- H5, E.
      split; [auto|]. split; [constructor; cbn -[eff]; auto; rewrite L, <- H5; auto|]. unfold same. cbn. tauto.
    + assert (E : eff fs (Some m) = m) by (unfold eff; apply Rmin_left; lra). rewrite <- H5, E.
      split; [auto|]. split; [constructor; auto; rewrite Em; auto|]. unfold same. tauto.
  - cbn [fst snd]. rewrite <- H5. split; [reflexivity|]. split; [constructor; cbn -[eff]; auto; rewrite L, <- H5; reflexivity|]. unfold same. cbn. tauto.
Qed.
Lemma get_mask_ok b s : Inv b s -> fst (get_mask s) = Some (bmask fs n b) /\ Inv b (snd (get_mask s)) /\ same s (snd (get_mask s)).
Proof.
  intros I. unfold get_mask. destruct (mok s) eqn:Em.
  - cbn [fst snd]. split; [apply (i_mask b s I Em)|]. split; [auto|]. unfold same. tauto.
  - destruct (t_f_ok (tf s) (i_fs _ _ I) (i_T _ _ I) (i_f _ _ I)) as (c & -> & C1 & C2 & C3).
    assert (I2 : Inv b (with_tf s c)) by (destruct I; constructor; cbn -[eff]; auto).
    destruct (get_max_ok b _ I2) as (E1 & E2 & E3 & E4 & E5). destruct (get_max (with_tf s c)) as [hi s1]. cbn [fst snd] in *. subst hi.
    cbv zeta. cbn [fst snd]. rewrite (i_mn _ _ E2), (i_nl _ _ E2). destruct b as [[lo hi] nl]. cbn [fst snd] in *.
    split; [reflexivity|]. split; [destruct E2; constructor; cbn -[eff] in *; auto|]. destruct E3 as (? & ? & ? & ? & ? & ?). unfold same. cbn in *. repeat split; auto; [exact (eq_sym (i_mn _ _ I))|exact (eq_sym (i_nl _ _ I))].
Qed.
Lemma masked_ok b s X : Inv b s -> length X = (n / 2 + 1)%nat ->
  fst (masked X s) = apply_mask X (bmask fs n b) /\ Inv b (snd (masked X s)) /\ same s (snd (masked X s)).
Proof.
  intros I HX. destruct (get_mask_ok b s I) as (E1 & E2 & E3). unfold masked. destruct (get_mask s) as [m s1]. cbn [fst snd] in *. subst m. cbn. auto.
Qed.
Lemma apply_ok b X : length X = (n / 2 + 1)%nat ->
  apply_mask X (bmask fs n b) = Some (map (fun p => if snd p : bool then fst p else RtoC 0) (combine X (bmask fs n b))).
Proof. intros H. unfold apply_mask. rewrite H, bmask_length, Nat.eqb_refl. reflexivity. Qed.
(** transform of the windowed data *)
Definition spectrum (x : list R) (r : R) : list C :=
  fst (nfft (map (fun p => fst p * snd p) (combine x (tukey (length x) (2 * r / T)))) fs).
Definition factor (x : list R) (r : R) : R := mean (map (fun v => v ^ 2) (tukey (length x) (2 * r / T))).
Lemma spectrum_length x r : length x = n -> length (spectrum x r) = (n / 2 + 1)%nat.
Proof. intros H. apply (clean_nfft fs T n); auto. rewrite map_length, combine_length, tukey_length, H. lia. Qed.
Definition the_fd (s : sd) : option (list C) := match fd s, td s with Some X, _ => Some X | None, Some x => Some (spectrum x (roll s)) | None, None => None end.
Lemma get_fd_ok b s : Inv b s -> exists X, the_fd s = Some X /\ length X = (n / 2 + 1)%nat /\ fst (get_fd tukey s) = apply_mask X (bmask fs n b)
  /\ Inv b (snd (get_fd tukey s)) /\ fd (snd (get_fd tukey s)) = Some X /\ td (snd (get_fd tukey s)) = td s /\ roll (snd (get_fd tukey s)) = roll s
  /\ wf (snd (get_fd tukey s)) = match fd s, td s with None, Some x => factor x (roll s) | _, _ => wf s end.
Proof.
  intros I. unfold get_fd, the_fd. destruct (fd s) as [X|] eqn:Ef.
  - pose proof (i_fd _ _ I X Ef) as L. exists X. destruct (masked_ok b s X I L) as (E1 & E2 & E3).
    unfold same in E3. destruct E3 as (? & ? & ? & ? & E3 & ?). rewrite E3. repeat (split; auto).
  - destruct (i_td _ _ I Ef) as (x & Ex & Lx). rewrite Ex. exists (spectrum x (roll s)).
    pose proof (spectrum_length x (roll s) Lx) as L.
    unfold windowed. rewrite (i_T _ _ I), (i_fs _ _ I). cbv beta zeta iota.
    fold (factor x (roll s)).
    set (y := map (fun p => fst p * snd p) _).
    assert (Ly : length y = n) by (unfold y; rewrite map_length, combine_length, tukey_length, Lx; lia).
    destruct (clean_nfft fs T n y Hclean Ly) as [N1 _].
    change (spectrum x (roll s)) with (fst (nfft y fs)) in *. destruct (nfft y fs) as [X F]. cbn [fst snd] in *. subst F.
    destruct (clean_freqs _ _ _ Hclean) as (_ & -> & _).
    set (s1 := mkS _ _ _ _ _ _ _ _ _ _).
    assert (I1 : Inv b s1).
    { destruct (clean_freqs _ _ _ Hclean) as (_ & FF & _).
      assert (TS : t_step (tf s) (SetF (Freqs fs n)) = mkC (Some fs) (Some T) (c_t0 (tf s)) (Some (Freqs fs n)) true (c_t (tf s)) (c_tok (tf s)))
        by (unfold t_step, cstep; rewrite FF; reflexivity).
      unfold s1. rewrite TS. destruct I as [H1 H2 H3 H4 H5 H6 H7 H8 H9].
      constructor; cbn [mn mx notch roll wf tf mok mask fd td c_fs c_T c_fok c_f]; auto.
      - intros X0 H. injection H as <-. auto.
      - discriminate. }
    destruct (masked_ok b s1 X I1 L) as (E1 & E2 & E3). unfold same in E3.
    destruct E3 as (? & ? & Er & Ew & E3 & Et). rewrite E3, Et, Er, Ew. unfold s1. cbn [fd td roll wf]. unfold factor. repeat (split; auto).
Qed.
Lemma get_td_ok b s : Inv b s ->
  match td s with
  | Some x => get_td tukey s = (Some x, s)
  | None => exists X Y x, fd s = Some X /\ apply_mask X (bmask fs n b) = Some Y /\ infft Y fs = Some x /\ fst (get_td tukey s) = Some x
      /\ Inv b (snd (get_td tukey s)) /\ fd (snd (get_td tukey s)) = Some X /\ td (snd (get_td tukey s)) = Some x /\ roll (snd (get_td tukey s)) = roll s
  end.
Proof.
  intros I. unfold get_td. destruct (td s) as [x|] eqn:Et; auto.
  destruct (fd s) as [X|] eqn:Ef. 2:{ destruct (i_td _ _ I Ef) as (x & Ex & _). congruence. }
  destruct (get_fd_ok b s I) as (X' & E0 & L & E1 & E2 & E3 & E4 & E5 & _).
  assert (X' = X) by (unfold the_fd in E0; rewrite Ef in E0; congruence). subst X'.
  rewrite (apply_ok b X L) in *. set (Y := map _ _) in *.
  assert (LY : length Y = (n / 2 + 1)%nat) by (unfold Y; rewrite map_length, combine_length, L, bmask_length; lia).
  destruct (get_fd tukey s) as [o s1]. cbn [fst snd] in *. subst o. rewrite (i_fs _ _ E2).
  assert (exists x, infft Y fs = Some x) as [x Hx].
  { unfold infft, irfft. change (R * R)%type with C. rewrite LY. pose proof (half2 n (proj1 (proj2 Hclean))).
    replace (n / 2 + 1 - 1)%nat with (n / 2)%nat by lia. destruct (Nat.eqb_spec (n / 2) 0); [lia|]. eexists. reflexivity. }
  exists X, Y, x. change (list (R * R)) with (list C) in *. rewrite Hx. cbn [fst snd]. split; [auto|]. split; [exact (apply_ok b X L)|]. split; [auto|]. split; [auto|]. split; [|cbn; auto].
  destruct E2; constructor; cbn -[eff] in *; auto. intros E. congruence.
Qed.
Lemma assign_ok b s X : Inv b s -> if Nat.eqb (n / 2 + 1) (length X)
  then fst (assign_fd X s) = true /\ Inv b (snd (assign_fd X s)) /\ fd (snd (assign_fd X s)) = Some X /\ td (snd (assign_fd X s)) = None
    /\ roll (snd (assign_fd X s)) = roll s
  else fst (assign_fd X s) = false /\ Inv b (snd (assign_fd X s)) /\ fd (snd (assign_fd X s)) = fd s /\ td (snd (assign_fd X s)) = td s
    /\ roll (snd (assign_fd X s)) = roll s.
Proof.
  intros I. unfold assign_fd. destruct (t_f_ok (tf s) (i_fs _ _ I) (i_T _ _ I) (i_f _ _ I)) as (c & -> & C1 & C2 & C3).
  rewrite Freqs_length. cbv zeta. destruct (Nat.eqb_spec (n / 2 + 1) (length X)) as [E|E]; cbn [fst snd].
  - split; [auto|]. split; [|cbn; auto]. destruct I; constructor; cbn -[eff]; auto; [|discriminate]. intros X0 Q. injection Q as <-. auto.
  - split; [auto|]. split; [|cbn; auto]. destruct I; constructor; cbn -[eff]; auto.
Qed.
Lemma step_inv b s o : quiet o -> Inv b s -> Inv (set_band b o) (step s o).
Proof.
  intros Q I. destruct b as [[lo hi] nl]. destruct o; try contradiction; cbn [set_band sstep].
  - destruct I; constructor; cbn -[eff] in *; auto; discriminate.
  - destruct I; constructor; cbn -[eff] in *; auto; discriminate.
  - destruct (notch_arg a); [|auto]. destruct I; constructor; cbn -[eff] in *; auto; discriminate.
  - destruct I; constructor; cbn -[eff] in *; auto.
  - apply (get_max_ok _ s I).
  - apply (get_mask_ok _ s I).
  - destruct (get_fd_ok _ s I) as (X & _ & _ & _ & H & _). auto.
  - pose proof (get_td_ok _ s I) as H. destruct (td s) as [x|]; [rewrite H; auto|]. destruct H as (X & Y & x & _ & _ & _ & _ & H & _). auto.
  - pose proof (assign_ok _ s X I) as H. destruct (Nat.eqb _ _); apply H.
Qed.
Lemma run_inv l : forall b s, List.Forall quiet l -> Inv b s -> Inv (fold_left set_band l b) (srun tukey s l).
Proof. induction l as [|o l IH]; intros b s Hq I; [auto|]. inversion Hq; subst. unfold srun. cbn [fold_left]. apply IH; auto. apply step_inv; auto. Qed.

(** ** before any data *)
Record Pre (b : band) (s : sd) : Prop := mkPre {
  p_tf : tf s = new_cts None None 0; p_mn : mn s = fst (fst b); p_mx : mx s = snd (fst b); p_nl : notch s = snd b; p_mok : mok s = false; p_fd : fd s = None; p_td : td s = None; p_wf : wf s = 1 }.
Lemma pre_step b s o : quiet o -> Pre b s -> Pre (set_band b o) (step s o) /\ roll (step s o) = match o with ORoll r => r | _ => roll s end.
Proof.
  intros Q [H1 H2 H3 H4 H5 H6 H7 H8]. destruct b as [[lo hi] nl]. destruct s as [s1 s2 s3 s4 s5 s6 s7 s8 s9 s10]. cbn in H1, H2, H3, H4, H5, H6, H7, H8.
  subst. destruct o; try contradiction; cbn; try (split; [constructor; reflexivity|reflexivity]).
  destruct (notch_arg a); cbn; (split; [constructor; reflexivity|reflexivity]).
Qed.
Definition last_roll (r : R) (l : list sop) : R := fold_left (fun r o => match o with ORoll v => v | _ => r end) l r.
Lemma pre_run l : forall b s, List.Forall quiet l -> Pre b s -> Pre (fold_left set_band l b) (srun tukey s l) /\ roll (srun tukey s l) = last_roll (roll s) l.
Proof.
  induction l as [|o l IH]; intros b s Hq I; [auto|]. inversion Hq; subst. destruct (pre_step b s o H1 I) as [P1 P2].
  destruct (IH _ _ H2 P1) as [P3 P4]. split; [exact P3|]. unfold srun, last_roll. cbn [fold_left]. unfold srun, last_roll in P4. rewrite P4, P2. reflexivity.
Qed.
Lemma pre_new lo hi nl r : Pre (lo, hi, nl) (new_sd lo hi nl r).
Proof. constructor; reflexivity. Qed.

(** ** giving data *)
Inductive given := GTime (x : list R) | GFreq (X : list C).
(** the ways of giving data at this sampling frequency and duration *)
Inductive gives : sop -> given -> Prop :=
| g_td x t0 : length x = n -> gives (STd x (Rate fs T t0)) (GTime x)
| g_fd X t0 : length X = (n / 2 + 1)%nat -> gives (SFd X (Rate fs T t0)) (GFreq X)
| g_psd X t0 : length X = (n / 2 + 1)%nat -> gives (SPsd X fs T t0) (GFreq X)
| g_zero t0 : gives (SZero fs T t0) (GFreq (map (fun _ => RtoC 0) (Freqs fs n))).
Definition gfd (g : given) : option (list C) := match g with GTime _ => None | GFreq X => Some X end.
Definition gtd (g : given) : option (list R) := match g with GTime x => Some x | GFreq _ => None end.
Lemma t_t_ok t0 : exists t c', t_t (new_cts (Some fs) (Some T) t0) = (Some t, c') /\ length t = n
  /\ c_fs c' = Some fs /\ c_T c' = Some T /\ c_fok c' = false.
Proof.
  destruct Hclean as (H1 & H2 & H3 & H4 & _). destruct (C18_time_array fs T t0 n H1 ltac:(lia) H4) as (t & E1 & E2 & _).
  unfold t_t, get_t. cbn. rewrite E1. eexists. eexists. split; [reflexivity|]. cbn. auto.
Qed.
Lemma give_ok b s o g : gives o g -> Pre b s -> Inv b (step s o) /\ fd (step s o) = gfd g /\ td (step s o) = gtd g /\ roll (step s o) = roll s.
Proof.
  intros G P. destruct P. destruct G as [x t0 L|X t0 L|X t0 L|t0]; cbn [sstep].
  - unfold set_from_td, infer. cbv iota beta. cbn [tf with_tf].
    destruct (t_t_ok t0) as (t & c & -> & Lt & C1 & C2 & C3). cbv zeta. rewrite L, Lt, Nat.eqb_refl. split; [|cbn; auto].
    constructor; cbn -[eff]; try congruence; auto. intros _. exists x. auto.
  - unfold set_from_fd, infer. cbv iota beta. cbn [tf with_tf].
    destruct (t_f_ok (new_cts (Some fs) (Some T) t0) eq_refl eq_refl ltac:(discriminate)) as (c9 & -> & C1 & C2 & C3). cbv zeta.
    rewrite L, Freqs_length, Nat.eqb_refl. split; [|cbn; auto]. constructor; cbn -[eff]; try congruence; auto. intros X0 E0. injection E0 as <-. exact L.
  - unfold set_from_psd.
    destruct (t_f_ok (new_cts (Some fs) (Some T) t0) eq_refl eq_refl ltac:(discriminate)) as (c9 & -> & C1 & C2 & C3). cbv zeta.
    rewrite L, Freqs_length, Nat.eqb_refl. split; [|cbn; auto]. constructor; cbn -[eff]; try congruence; auto. intros X0 E0. injection E0 as <-. exact L.
  - unfold set_from_zero.
    destruct (t_f_ok (new_cts (Some fs) (Some T) t0) eq_refl eq_refl ltac:(discriminate)) as (c9 & -> & C1 & C2 & C3). cbv zeta.
    split; [|cbn; auto]. constructor; cbn -[eff]; try congruence; auto. intros X E. injection E as <-. rewrite map_length. apply Freqs_length.
Qed.
Lemma give_run lo hi nl r pre o g post : List.Forall quiet pre -> gives o g -> List.Forall quiet post ->
  let s := srun tukey (new_sd lo hi nl r) (pre ++ [o]) in
  Inv (fold_left set_band pre (lo, hi, nl)) s /\ fd s = gfd g /\ td s = gtd g /\ roll s = last_roll r pre
  /\ Inv (fold_left set_band (pre ++ post) (lo, hi, nl)) (srun tukey (new_sd lo hi nl r) (pre ++ o :: post)).
Proof.
  intros H1 G H2 s. destruct (pre_run pre _ _ H1 (pre_new lo hi nl r)) as [P1 P2].
  destruct (give_ok _ _ _ _ G P1) as (E1 & E2 & E3 & E4). cbn [roll new_sd] in P2.
  unfold s, srun. rewrite fold_left_app. cbn [fold_left]. fold (srun tukey (new_sd lo hi nl r) pre).
  split; [auto|]. split; [auto|]. split; [auto|]. split; [congruence|].
  rewrite !fold_left_app. cbn [fold_left]. fold (srun tukey (new_sd lo hi nl r) pre).
  apply (run_inv post); auto.
Qed.
End P.
