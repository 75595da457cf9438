(** C222: injection into a detector and a network. *)
From Coq Require Import Reals List Bool Lra Lia.
From Coquelicot Require Import Complex.
From Verif Require Import PyReal Series_Model GwInner_Model GwInner_Proofs Inject_Model.
Import ListNotations.
Open Scope R_scope.

Section Injection.
Context {P W : Type}.
Variables (response : nat -> W -> P -> option (list C)) (fits : nat -> P -> bool -> bool) (generate : P -> option W).
Notation inject1 := (inject_polarizations response).
Notation inject := (inject_signal response fits generate).
Notation network := (inject_network response fits generate).

(** the data of a detector, whatever form they are in, and the window they carry *)
Definition content (d : det P) : list C := match data d with Data X => X | Pending X _ => X end.
Definition window (d : det P) : R := match data d with Data _ => window_factor d | Pending _ w => w end.
(** a usable detector *)
Definition usable (d : det P) : Prop := length (content d) = length (mask d) /\ length (curve d) = length (mask d) /\ 0 < dur d /\
  0 < window d /\ List.Forall psd_pos (curve d).
(** the windowed spectral density in the band *)
Definition density (d : det P) : list ext := sel (mask d) (map (fun s => match s with Fin x => Fin (x * window d) | Inf => Inf end) (curve d)).
(** 4/T times the sum over the band of |h|^2 over the windowed density *)
Definition power (d : det P) (h : list C) : R := 4 / dur d * n2 (sel (mask d) h) (density d).

Lemma sel_length {A B} m (a : list A) (b : list B) : length a = length m -> length b = length m -> length (sel m a) = length (sel m b).
Proof.
  unfold sel. rewrite !map_length. revert a b. induction m as [|x m IH]; intros [|u a] [|v b] Ha Hb; cbn in *; try lia. destruct x; cbn; rewrite (IH a b); lia.
Qed.
Lemma sel_pos m S : List.Forall psd_pos S -> List.Forall psd_pos (sel m S).
Proof.
  unfold sel. revert S. induction m as [|x m IH]; intros [|s S] H; cbn; try constructor. inversion H; subst. destruct x; cbn; [constructor; auto|auto].
Qed.
Lemma scaled_pos w S : 0 < w -> List.Forall psd_pos S -> List.Forall psd_pos (map (fun s => match s with Fin x => Fin (x * w) | Inf => Inf end) S).
Proof. intros Hw H. induction H as [|s S Hs H IH]; cbn; constructor; auto. destruct s; cbn in *; [apply Rmult_lt_0_compat; auto|auto]. Qed.
Lemma add_sel m X h : length X = length m -> length h = length m -> sel m (add (masked m X) h) = lin (RtoC 1) (RtoC 1) (sel m X) (sel m h).
Proof.
  unfold sel, add, masked, lin. revert X h. induction m as [|x m IH]; intros [|u X] [|v h] HX Hh; cbn in *; try lia; [reflexivity|].
  destruct x; cbn; rewrite IH by lia; [|reflexivity]. f_equal. ring.
Qed.
Lemma masked_sel m X : length X = length m -> sel m (masked m X) = sel m X.
Proof. unfold sel, masked. revert X. induction m as [|x m IH]; intros [|u X] H; cbn in *; try lia; [reflexivity|]. destruct x; cbn; rewrite IH by lia; reflexivity. Qed.
Lemma masked_length m X : length X = length m -> length (masked m X) = length m.
Proof. intro H. unfold masked. rewrite map_length, combine_length, H. lia. Qed.
Lemma add_length a b : length a = length b -> length (add a b) = length a.
Proof. intro H. unfold add. rewrite map_length, combine_length, H. lia. Qed.

(** the detector after an injection of [h] *)
Lemma inject1_spec d p w h : usable d -> response (id d) w p = Some h -> length h = length (mask d) ->
  inject1 d p w = (Done, Det P (id d) (mask d) (curve d) (dur d) (Data (add (masked (mask d) (content d)) h)) (window d)
    (Some (Meta P (sqrt (power d h))
      (matched_filter_snr (sel (mask d) h) (lin (RtoC 1) (RtoC 1) (sel (mask d) (content d)) (sel (mask d) h)) (density d) (dur d)) p))).
Proof.
  intros (LX & LS & HT & Hw & HS) E Lh. unfold inject_polarizations. rewrite E.
  set (d1 := Det P (id d) (mask d) (curve d) (dur d) (Data (content d)) (window d) (md d)).
  assert (R1 : read_fd d = (masked (mask d) (content d), d1)).
  { unfold read_fd, d1, content, window. destruct d as [i m c T s wf me]; cbn. destruct s; reflexivity. }
  rewrite R1. rewrite masked_length, Lh, Nat.eqb_refl by exact LX. set (Y := add (masked (mask d) (content d)) h).
  assert (LY : length Y = length (mask d)) by (unfold Y; rewrite add_length; rewrite masked_length; congruence).
  assert (Q : det_optimal (with_data d1 Y) h = Some (RtoC (power d h))).
  { unfold det_optimal, optimal_snr_squared, psd_array. cbn. fold (density d). apply nwip_self. unfold density. apply sel_length; [exact Lh|]. now rewrite map_length. }
  rewrite Q. apply (f_equal (fun m => (Done, with_meta (with_data d1 Y) m))).
  assert (0 <= power d h).
  { apply Rmult_le_pos; [left; apply Rdiv_lt_0_compat; lra|]. apply n2_nonneg. apply sel_pos, scaled_pos; assumption. }
  rewrite csqrt_pos by assumption. cbn [fst RtoC]. f_equal.
  unfold det_matched. cbn [read_fd with_data data mask d1]. unfold psd_array. cbn.
  rewrite masked_sel by exact LY. unfold Y. rewrite add_sel by assumption. reflexivity.
Qed.

(** In the band the signal is added to the data, outside it stands alone; the recorded optimal SNR is the
    root of 4/T times the sum over the band of |h|^2 over the windowed spectral density, the matched
    filter SNR that of the signal with the data after the injection; nothing else of the detector changes. *)
Theorem C222_one d p w h : usable d -> response (id d) w p = Some h -> length h = length (mask d) ->
  exists Y m, inject1 d p w = (Done, Det P (id d) (mask d) (curve d) (dur d) (Data Y) (window d) (Some m)) /\
  (forall k z u, nth_error (content d) k = Some z -> nth_error h k = Some u ->
     (nth_error (mask d) k = Some true -> nth_error Y k = Some (z + u)%C) /\ (nth_error (mask d) k = Some false -> nth_error Y k = Some u)) /\
  opt_snr m = sqrt (power d h) /\ pars m = p /\
  mf_snr m = matched_filter_snr (sel (mask d) h) (sel (mask d) Y) (density d) (dur d).
Proof.
  intros U E Lh. pose proof (inject1_spec d p w h U E Lh) as Q. destruct U as (LX & _).
  eexists. eexists. split; [exact Q|]. split; [|split; [reflexivity|split; [reflexivity|]]].
  - clear -LX Lh. unfold add, masked. revert Lh LX. generalize (content d), (mask d). intros X m. revert X h. induction m as [|x m IH]; intros [|a X] [|b h] H1 H2 k z u; cbn in *; try lia.
    + destruct k; discriminate.
    + destruct k as [|k]; cbn; [|apply IH; lia]. intros [= ->] [= ->]. split; intros [= ->]; cbn; f_equal; ring.
  - cbn [mf_snr]. rewrite add_sel by assumption. reflexivity.
Qed.
(** The matched filter SNR of an injection is what the signal had with the data before, plus the
    optimal SNR. *)
Theorem C222_noise d p w h d' : usable d -> response (id d) w p = Some h -> length h = length (mask d) -> power d h <> 0 ->
  inject1 d p w = (Done, d') -> exists rho m, matched_filter_snr (sel (mask d) h) (sel (mask d) (content d)) (density d) (dur d) = Ok rho /\
  md d' = Some m /\ mf_snr m = Ok (rho + RtoC (opt_snr m))%C.
Proof.
  intros U E Lh Hp I1. rewrite (inject1_spec d p w h U E Lh) in I1. injection I1 as <-. destruct U as (LX & LS & HT & Hw & HS).
  assert (LD : forall l : list C, length l = length (mask d) -> length (sel (mask d) l) = length (density d)).
  { intros l Hl. unfold density. apply sel_length; [exact Hl|]. now rewrite map_length. }
  assert (PD : List.Forall psd_pos (density d)) by (apply sel_pos, scaled_pos; assumption).
  assert (N0 : n2 (sel (mask d) h) (density d) <> 0) by (intro Z; apply Hp; unfold power; rewrite Z; ring).
  assert (Pp : 0 < power d h).
  { unfold power in *. assert (0 <= n2 (sel (mask d) h) (density d)) by (apply n2_nonneg; exact PD). assert (0 < 4 / dur d) by (apply Rdiv_lt_0_compat; lra).
    apply Rmult_lt_0_compat; lra. }
  rewrite snr_ok by (auto). destruct (Req_EM_T (n2 (sel (mask d) h) (density d)) 0) as [Z|_]; [contradiction|].
  eexists. eexists. split; [reflexivity|]. split; [reflexivity|]. cbn [mf_snr opt_snr].
  rewrite snr_ok; auto; [|rewrite lin_length; rewrite !LD by assumption; reflexivity].
  destruct (Req_EM_T (n2 (sel (mask d) h) (density d)) 0) as [Z|_]; [contradiction|]. f_equal.
  rewrite ip_lin by (rewrite !LD by assumption; reflexivity). rewrite ip_self by auto. fold (power d h).
  assert (S0 : RtoC (sqrt (power d h)) <> RtoC 0) by (apply RtoC_neq; pose proof (sqrt_lt_R0 _ Pp); lra).
  assert (K : (RtoC (4 / dur d) * RtoC (n2 (sel (mask d) h) (density d)))%C = (RtoC (sqrt (power d h)) * RtoC (sqrt (power d h)))%C).
  { rewrite <- !RtoC_mult. f_equal. rewrite sqrt_sqrt by lra. reflexivity. }
  transitivity (RtoC (4 / dur d) * ip (sel (mask d) h) (sel (mask d) (content d)) (density d) / RtoC (sqrt (power d h)) +
                (RtoC (4 / dur d) * RtoC (n2 (sel (mask d) h) (density d))) / RtoC (sqrt (power d h)))%C; [field; exact S0|].
  rewrite K. field. exact S0.
Qed.
(** So without noise it equals the optimal SNR exactly. *)
Theorem C222_zero_noise d p w h d' : usable d -> response (id d) w p = Some h -> length h = length (mask d) -> power d h <> 0 ->
  List.Forall (fun z => z = RtoC 0) (content d) -> inject1 d p w = (Done, d') ->
  exists m, md d' = Some m /\ mf_snr m = Ok (RtoC (opt_snr m)) /\ 0 < opt_snr m.
Proof.
  intros U E Lh Hp Z I1. destruct (C222_noise d p w h d' U E Lh Hp I1) as (rho & m & R1 & M & F). exists m. split; [exact M|].
  assert (Op : opt_snr m = sqrt (power d h)).
  { rewrite (inject1_spec d p w h U E Lh) in I1. injection I1 as <-. cbn in M. injection M as <-. reflexivity. }
  destruct U as (LX & LS & HT & Hw & HS).
  assert (PD : List.Forall psd_pos (density d)) by (apply sel_pos, scaled_pos; assumption).
  assert (Pp : 0 < power d h).
  { assert (0 <= power d h); [|lra]. unfold power. apply Rmult_le_pos; [left; apply Rdiv_lt_0_compat; lra | apply n2_nonneg; exact PD]. }
  split; [|rewrite Op; apply sqrt_lt_R0; exact Pp].
  rewrite F. f_equal. rewrite snr_ok in R1; try assumption.
  - destruct (Req_EM_T _ 0); [discriminate R1|]. injection R1 as <-.
    assert (Z0 : forall a S, ip a (sel (mask d) (content d)) S = RtoC 0).
    { assert (ZF : List.Forall (fun z => z = RtoC 0) (sel (mask d) (content d))).
      { unfold sel. rewrite Forall_forall in Z |- *. intros z Hz. apply in_map_iff in Hz. destruct Hz as ((b & z') & <- & Hz). apply filter_In in Hz. apply Z. eapply in_combine_r. exact (proj1 Hz). }
      revert ZF. generalize (sel (mask d) (content d)). induction l as [|z l IH]; intros ZF [|a A] [|s S]; cbn [ip]; try reflexivity.
      inversion ZF; subst. rewrite (IH H2). destruct s; cbn [cdivr]; unfold Cplus, Cmult, Cconj, RtoC; cbn; f_equal; unfold Rdiv; ring. }
    rewrite Z0. unfold Cdiv. ring.
  - unfold density. apply sel_length; [exact Lh | now rewrite map_length].
  - unfold density. apply sel_length; [exact LX | now rewrite map_length].
Qed.
(** A signal without power in the band is recorded with optimal SNR 0 and a matched filter SNR of nan. *)
Theorem C222_no_power d p w h d' : usable d -> response (id d) w p = Some h -> length h = length (mask d) -> power d h = 0 ->
  inject1 d p w = (Done, d') -> exists m, md d' = Some m /\ opt_snr m = 0 /\ mf_snr m = CNan.
Proof.
  intros U E Lh Hp I1. rewrite (inject1_spec d p w h U E Lh) in I1. injection I1 as <-. destruct U as (LX & LS & HT & Hw & HS). eexists. split; [reflexivity|]. cbn.
  split; [rewrite Hp; apply sqrt_0|].
  assert (LD : forall l : list C, length l = length (mask d) -> length (sel (mask d) l) = length (density d)).
  { intros l Hl. unfold density. apply sel_length; [exact Hl|]. now rewrite map_length. }
  rewrite snr_ok; auto; [|rewrite lin_length; rewrite !LD by assumption; reflexivity | apply sel_pos, scaled_pos; assumption].
  destruct (Req_EM_T _ 0) as [|N]; [reflexivity|]. exfalso. apply N. unfold power in Hp. apply Rmult_integral in Hp. destruct Hp as [Hp|Hp]; [|exact Hp].
  assert (0 < 4 / dur d) by (apply Rdiv_lt_0_compat; lra). lra.
Qed.
(** A second injection gives the same data in either order (for signals within the band), and the record is
    that of the last signal alone. *)
Theorem C222_two d p1 w1 h1 p2 w2 h2 : usable d -> response (id d) w1 p1 = Some h1 -> response (id d) w2 p2 = Some h2 ->
  masked (mask d) h1 = h1 -> masked (mask d) h2 = h2 -> length h1 = length (mask d) -> length h2 = length (mask d) ->
  exists d12 d21 m, inject1 (snd (inject1 d p1 w1)) p2 w2 = (Done, d12) /\ inject1 (snd (inject1 d p2 w2)) p1 w1 = (Done, d21) /\
  data d12 = data d21 /\ md d12 = Some m /\ pars m = p2 /\ opt_snr m = sqrt (power d h2).
Proof.
  intros U E1 E2 B1 B2 L1 L2. pose proof (inject1_spec d p1 w1 h1 U E1 L1) as Q1. pose proof (inject1_spec d p2 w2 h2 U E2 L2) as Q2.
  rewrite Q1, Q2. cbn [snd]. destruct U as (LX & LS & HT & Hw & HS).
  match goal with |- exists d12 d21 m, inject1 ?a _ _ = _ /\ inject1 ?b _ _ = _ /\ _ => set (da := a); set (db := b) end.
  assert (Ua : usable da). { repeat split; try assumption. cbn. rewrite add_length; rewrite masked_length; congruence. }
  assert (Ub : usable db). { repeat split; try assumption. cbn. rewrite add_length; rewrite masked_length; congruence. }
  eexists. eexists. eexists. split; [apply (inject1_spec da p2 w2 h2 Ua E2 L2)|]. split; [apply (inject1_spec db p1 w1 h1 Ub E1 L1)|]. cbn [data].
  split; [|split; [reflexivity|]; split; reflexivity]. f_equal. cbn. clear -B1 B2 L1 L2 LX. revert B1 B2 L1 L2 LX. generalize (content d), (mask d). intros X m. revert X h1 h2.
  unfold add, masked. induction m as [|x m IH]; intros [|z X] [|a h1] [|b h2] B1 B2 L1 L2 LX; cbn in *; try lia; [reflexivity|].
  injection B1 as A1 B1. injection B2 as A2 B2. f_equal; [|apply IH; auto; lia]. destruct x; [ring|]. rewrite <- A1, <- A2. ring.
Qed.

(** ** inject_signal *)
(** Given polarizations are injected, whatever generator is given with them; without them those of the
    generator; without both, or if the signal does not fit, nothing changes and an error is raised. *)
Theorem C222_signal d p e :
  (forall w g, fits (id d) p e = true -> inject d p (Some w) g e = (fst (inject1 d p w), Some w, snd (inject1 d p w))) /\
  (forall w, fits (id d) p e = true -> generate p = Some w -> inject d p None true e = inject d p (Some w) false e) /\
  inject d p None false e = (Err, None, d) /\ (forall w g, fits (id d) p e = false -> inject d p w g e = (Err, None, d)).
Proof.
  repeat split.
  - intros w g F. unfold inject_signal. rewrite F. cbn [negb]. destruct (inject1 d p w). destruct g; reflexivity.
  - intros w F G. unfold inject_signal. rewrite F. cbn [negb]. rewrite G. destruct (inject1 d p w). reflexivity.
  - unfold inject_signal. destruct (fits _ _ _); reflexivity.
  - intros w g F. unfold inject_signal. rewrite F. reflexivity.
Qed.
Definition ready (p : P) (w : W) (e : bool) (d : det P) : Prop := usable d /\ fits (id d) p e = true /\ exists h, response (id d) w p = Some h /\ length h = length (mask d).
(** A network: the same polarizations, generated once, go to every detector, each with its own response. *)
Theorem C222_network l p w e : List.Forall (ready p w e) l ->
  network l p (Some w) false e = (Done, map (fun _ => w) l, map (fun d => snd (inject1 d p w)) l) /\
  List.Forall (fun d => fst (inject1 d p w) = Done) l /\ (generate p = Some w -> network l p None true e = network l p (Some w) false e).
Proof.
  intro F. split; [|split; [|intro G; cbn; rewrite G; reflexivity]].
  - cbn. induction F as [|d l (U & Ft & h & E & Lh) F IH]; [reflexivity|]. cbn [inject_each map]. destruct (C222_signal d p e) as (S1 & _). rewrite (S1 w false Ft).
    rewrite (inject1_spec d p w h U E Lh). cbn [fst snd]. rewrite IH. reflexivity.
  - rewrite Forall_forall in F |- *. intros d Hd. destruct (F d Hd) as (U & _ & h & E & Lh). rewrite (inject1_spec d p w h U E Lh). reflexivity.
Qed.
(** It is not all or nothing: if the signal does not fit one detector, those before it have it already and
    those from there on do not; a second try after mending it injects the first ones twice. *)
Theorem C222_interrupted_refuted l1 d l2 p w e : List.Forall (ready p w e) l1 -> fits (id d) p e = false ->
  network (l1 ++ d :: l2) p (Some w) false e = (Err, map (fun _ => w) l1, map (fun x => snd (inject1 x p w)) l1 ++ d :: l2).
Proof.
  intros F Nf. cbn. induction F as [|x l (U & Ft & h & E & Lh) F IH].
  - cbn. destruct (C222_signal d p e) as (_ & _ & _ & S4). rewrite (S4 _ _ Nf). reflexivity.
  - cbn [app inject_each map]. destruct (C222_signal x p e) as (S1 & _). rewrite (S1 w false Ft). rewrite (inject1_spec x p w h U E Lh). cbn [fst snd]. rewrite IH. reflexivity.
Qed.
(** The window counts only after the data in frequency have been read once: before, the optimal SNR a
    detector gives for a signal is that without a window. *)
Theorem C222_window_refuted d X wd h : data d = Pending X wd -> window_factor d = 1 -> usable d -> length h = length (mask d) ->
  det_optimal d h = Some (RtoC (wd * power d h)) /\ det_optimal (snd (read_fd d)) h = Some (RtoC (power d h)).
Proof.
  intros Ed W1 (LX & LS & HT & Hw & HS) Lh. assert (Ww : window d = wd) by (unfold window; now rewrite Ed).
  assert (LD : forall f : ext -> ext, length (sel (mask d) h) = length (sel (mask d) (map f (curve d)))) by (intro f; apply sel_length; [exact Lh | now rewrite map_length]).
  split.
  - unfold det_optimal, optimal_snr_squared, psd_array. rewrite nwip_self by apply LD. f_equal. f_equal. unfold power, density. rewrite W1, Ww in *.
    rewrite <- Rmult_assoc, (Rmult_comm wd), Rmult_assoc. f_equal. clear -Lh LS Hw HS. revert Lh LS HS. generalize (mask d), (curve d). intros m S. unfold sel. revert h S.
    induction m as [|x m IH]; intros [|u h] [|s S] Lh LS HS; cbn in *; try lia; try (now rewrite ?Rmult_0_r). inversion HS; subst. destruct x; cbn; [|apply IH; auto; lia].
    destruct s as [s|]; cbn; rewrite IH by (auto; lia); [|reflexivity]. cbn in H1. field. lra.
  - unfold read_fd. rewrite Ed. cbn [snd]. unfold det_optimal, optimal_snr_squared, psd_array. cbn. rewrite <- Ww. fold (density d). fold (power d h). apply nwip_self. apply LD.
Qed.
End Injection.
(** Two frequencies, the first outside the band; the signal (3, 3+4i), density 1, duration 4 and no noise:
    optimal SNR 5, which the second detector of the network has as well. *)
Definition ex_signal : list C := [(0, 0); (3, 4)].
Definition ex_det (i : nat) : det nat := Det nat i [false; true] [Fin 2; Fin 1] 4 (Data [(1, 0); (0, 0)]) 1 None.
Example C222_example :
  let out := inject_network (fun _ (w : list C) (_ : nat) => Some w) (fun _ _ _ => true) (fun _ => None) [ex_det 1; ex_det 2] 7%nat (Some ex_signal) false true in
  fst (fst out) = Done /\ map (fun d => match md d with Some m => opt_snr m | None => 0 end) (snd out) = [5; 5] /\
  map data (snd out) = [Data [(0, 0); (3, 4)]; Data [(0, 0); (3, 4)]].
Proof.
  cbv zeta. set (r := fun _ => _). set (ft := fun _ _ _ => true). set (g := fun _ => None).
  match goal with |- context [inject_network r ft g ?l] => set (ds := l) end.
  assert (Rd : List.Forall (ready r ft 7%nat ex_signal true) ds).
  { unfold ds. repeat constructor; cbn; try lra; try reflexivity. all: eexists; split; reflexivity. }
  destruct (C222_network r ft g ds 7%nat _ true Rd) as (E & F & _). rewrite E. cbn [fst snd]. split; [reflexivity|].
  rewrite Forall_forall in Rd.
  assert (Q : forall x, In x ds -> exists m, md (snd (inject_polarizations r x 7%nat ex_signal)) = Some m /\ opt_snr m = sqrt (power x ex_signal) /\
              data (snd (inject_polarizations r x 7%nat ex_signal)) = Data (add (masked (mask x) (content x)) ex_signal)).
  { intros x Hx. destruct (Rd x Hx) as (U & _ & h & Eh & Lh). unfold r in Eh. injection Eh as <-. rewrite (inject1_spec r x 7%nat _ _ U eq_refl Lh). eexists. repeat split. }
  destruct (Q (ex_det 1) ltac:(cbn; tauto)) as (m1 & M1 & O1 & D1). destruct (Q (ex_det 2) ltac:(cbn; tauto)) as (m2 & M2 & O2 & D2).
  unfold ds. cbn [map]. rewrite M1, M2, O1, O2, D1, D2.
  assert (S : forall i, sqrt (power (ex_det i) ex_signal) = 5).
  { intro i. replace (power _ _) with (5 * 5); [apply sqrt_square; lra|]. unfold power, density, window, ex_det, ex_signal. cbn. field. }
  split; [rewrite !S; reflexivity|]. unfold add, masked, Cplus, RtoC, ex_signal. cbn. repeat f_equal; ring.
Qed.

(** ** Assumptions of every theorem above *)
Definition Inject_Props_all :=
  (@C222_one,
   @C222_noise,
   @C222_zero_noise,
   @C222_no_power,
   @C222_two,
   @C222_signal,
   @C222_network,
   @C222_interrupted_refuted,
   @C222_window_refuted).
Print Assumptions Inject_Props_all.
