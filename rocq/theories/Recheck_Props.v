(** * Further statements about models of other files: chains of bilby_mcmc, progress of its parallel tempering, gwsignal *)
From Coq Require Import String Reals List Bool ZArith Arith Lra Lia.
From Coquelicot Require Import Coquelicot.
From Verif Require Import PyDict PyReal Source_Model Gwsig_Model PtSamp_Model Mband_Model Ensemble_Model Ifo_Model Samples_Model Tau_Model Tau_Props Tau2_Props.
From Verif Require Gwsig_Props McProp_Model McProp_Props.
Import ListNotations.
Open Scope list_scope.
Open Scope R_scope.

(** ** chain.py 100-113: the rows are kept in the order of arrival *)
Section Rows.
Variable act : list R -> option R.
Variable st : settings.
(** the log posteriors, and one parameter's values, among the operations *)
Definition arrivals (os : list op) : list R := flat_map (fun o => match o with OAppend _ lp => [lp] | _ => [] end) os.
Definition values_of (j : nat) (os : list op) : list R := flat_map (fun o => match o with OAppend row _ => [nth j row 0] | _ => [] end) os.

Lemma min_same b : lpost (snd (minimum_index act st b)) = lpost b /\ columns (snd (minimum_index act st b)) = columns b.
Proof. unfold minimum_index. destruct (_ =? _)%nat; [split; reflexivity|]. destruct (_ <? _)%Z; split; reflexivity. Qed.
Lemma nocache_same b : lpost (snd (tau_nocache act st b)) = lpost b /\ columns (snd (tau_nocache act st b)) = columns b.
Proof. pose proof (min_same b) as [A B]. unfold tau_nocache. destruct (minimum_index act st b) as [m b1]. cbn [snd] in *. cbn [lpost columns]. split; assumption. Qed.
Lemma tau_same b : lpost (snd (tau act st b)) = lpost b /\ columns (snd (tau act st b)) = columns b.
Proof.
  unfold tau. destruct (look _ _); [split; reflexivity|]. destruct (tau_last b); [|apply nocache_same]. destruct (_ <? _)%nat; [|apply nocache_same].
  unfold nsamples_last. pose proof (min_same b) as [A B]. destruct (minimum_index act st b) as [m b1]. cbn [snd] in *. destruct (50 <? _)%Z; [cbn [snd lpost columns]; split; assumption|].
  pose proof (nocache_same b1) as [C D]. split; congruence.
Qed.
Lemma thin_same b : lpost (snd (thin act st b)) = lpost b /\ columns (snd (thin act st b)) = columns b.
Proof.
  unfold thin. pose proof (tau_same b) as [A B]. destruct (tau act st b) as [[t|] b1]; cbn [snd] in *; [|split; assumption].
  pose proof (tau_same b1) as [C D]. destruct (tau act st b1) as [[u|] b2]; cbn [snd] in *; split; congruence.
Qed.
Lemma count_same b : lpost (snd (nsamples act st b)) = lpost b /\ columns (snd (nsamples act st b)) = columns b.
Proof.
  unfold nsamples. pose proof (min_same b) as [A B]. destruct (minimum_index act st b) as [m b1]. cbn [snd] in *.
  pose proof (tau_same b1) as [C D]. destruct (tau act st b1) as [t b2]. cbn [snd] in *. split; congruence.
Qed.
Lemma samples_same b : lpost (snd (samples act st b)) = lpost b /\ columns (snd (samples act st b)) = columns b.
Proof.
  unfold samples. pose proof (min_same b) as [A B]. destruct (minimum_index act st b) as [m b1]. cbn [snd] in *.
  pose proof (thin_same b1) as [C D]. destruct (thin act st b1) as [t b2]. cbn [snd] in *. split; congruence.
Qed.
Lemma setter_same b z : (lpost (set_proposal b z) = lpost b /\ columns (set_proposal b z) = columns b) /\ (lpost (set_adapt b z) = lpost b /\ columns (set_adapt b z) = columns b).
Proof. unfold set_proposal, set_adapt. split; destruct (_ <? _)%Z; split; reflexivity. Qed.

Lemma add_each_nth xs : forall row j, length row = length xs -> (j < length xs)%nat -> nth j (add_each xs row) [] = nth j xs [] ++ [nth j row 0].
Proof.
  induction xs as [|x xs IH]; intros [|v row] j L J; cbn [length] in *; try lia. destruct j; [reflexivity|]. cbn [add_each nth]. apply IH; lia.
Qed.
Lemma add_each_length xs : forall row, length row = length xs -> length (add_each xs row) = length xs.
Proof. induction xs as [|x xs IH]; intros [|v row] L; cbn [length] in *; try lia; [reflexivity|]. cbn [add_each length]. rewrite IH; lia. Qed.

(** After any operations the log posteriors are the first one followed by those appended, in order, and so for every parameter. *)
Theorem C201_rows row lp os j : (forall r l, In (OAppend r l) os -> length r = length row) -> (j < length row)%nat ->
  lpost (run act st (init row lp) os) = lp :: arrivals os /\ nth j (columns (run act st (init row lp) os)) [] = nth j row 0 :: values_of j os.
Proof.
  intros F J.
  assert (G : forall os b, length (columns b) = length row -> (forall r l, In (OAppend r l) os -> length r = length row) ->
    lpost (run act st b os) = lpost b ++ arrivals os /\ nth j (columns (run act st b os)) [] = nth j (columns b) [] ++ values_of j os).
  { clear os F. induction os as [|o os IH]; intros b L F; [cbn; rewrite !app_nil_r; split; reflexivity|].
    assert (F' : forall r l, In (OAppend r l) os -> length r = length row) by (intros r l I; apply (F r l); right; exact I).
    change (run act st b (o :: os)) with (run act st (step act st b o) os).
    assert (S : lpost (step act st b o) = lpost b ++ arrivals [o] /\ nth j (columns (step act st b o)) [] = nth j (columns b) [] ++ values_of j [o] /\ length (columns (step act st b o)) = length row).
    { destruct o as [r l| | | | | | |z|z]; cbn [step arrivals values_of flat_map app].
      1: { cbn [append lpost columns]. assert (LR : length r = length (columns b)) by (rewrite L; apply (F r l); left; reflexivity).
           rewrite add_each_nth, add_each_length; [|exact LR|exact LR|lia]. repeat split. exact L. }
      all: rewrite !app_nil_r.
      - destruct (min_same b) as [-> ->]. repeat split; assumption.
      - destruct (tau_same b) as [-> ->]. repeat split; assumption.
      - destruct (nocache_same b) as [-> ->]. repeat split; assumption.
      - destruct (thin_same b) as [-> ->]. repeat split; assumption.
      - destruct (count_same b) as [-> ->]. repeat split; assumption.
      - destruct (samples_same b) as [-> ->]. repeat split; assumption.
      - destruct (setter_same b z) as [[-> ->] _]. repeat split; assumption.
      - destruct (setter_same b z) as [_ [-> ->]]. repeat split; assumption. }
    destruct S as (S1 & S2 & S3). destruct (IH (step act st b o) S3 F') as [-> ->]. rewrite S1, S2, <- !app_assoc.
    unfold arrivals, values_of. cbn [flat_map]. rewrite !app_nil_r. split; reflexivity. }
  destruct (G os (init row lp)) as [-> ->]; [cbn [init columns]; apply map_length|exact F|]. cbn [init lpost columns app]. split; [reflexivity|].
  rewrite (nth_indep _ _ ((fun v => [v]) 0)) by (rewrite map_length; exact J). rewrite (map_nth (fun v => [v]) row 0 j). reflexivity.
Qed.

(** While the last recorded autocorrelation time is infinite, the rows of the parameters play no part in the burn-in. *)
Theorem C201_infinite b cols : taus b <> [] -> last (map snd (taus b)) None = None ->
  fst (minimum_index act st (mkBook (pos b) cols (lpost b) (last_min b) (by_proposal b) (by_adapt b) (taus b) (cached b))) = fst (minimum_index act st b).
Proof.
  intros NE I. unfold minimum_index. cbn [pos last_min lpost]. destruct (_ =? _)%nat; [reflexivity|]. destruct (_ <? _)%Z; [reflexivity|]. cbn [fst].
  unfold sources. cbn [lpost by_proposal by_adapt]. unfold burn_tau, tau_last. cbn [taus]. rewrite I. destruct (taus b); [contradiction|reflexivity].
Qed.
End Rows.
Example C201_rows_example : let b := run (fun _ => None) stuck_settings (init [1; 2] (-5)) [OAppend [3; 4] (-6); OMin; OAdapt 7; OAppend [5; 6] (-4)] in
  lpost b = [-5; -6; -4] /\ nth 1 (columns b) [] = [2; 4; 6].
Proof.
  cbv zeta. apply (C201_rows (fun _ => None) stuck_settings [1; 2] (-5) [OAppend [3; 4] (-6); OMin; OAdapt 7; OAppend [5; 6] (-4)] 1); [|cbn; lia].
  intros r l I. cbn in I. destruct I as [E|[E|[E|[E|[]]]]]; try discriminate E; injection E as <- _; reflexivity.
Qed.

(** ** ptsampler's progress: the percentage shown is between 0 and 100 and gives back the count *)
Theorem C205_percentage c n : (n <> 0)%nat -> (c <= n)%nat ->
  exists p, rejection_percentage true c n = Some p /\ 0 <= p <= 100 /\ p * INR n = INR (100 * c).
Proof.
  intros N L. assert (0 < INR n) by (apply lt_0_INR; lia). assert (0 <= INR c <= INR n) by (split; [apply pos_INR|apply le_INR, L]).
  unfold rejection_percentage. destruct (Nat.eqb_spec n 0) as [|_]; [contradiction|]. eexists. split; [reflexivity|]. split.
  - split; [apply Rmult_le_pos; [lra|apply Rlt_le, Rinv_0_lt_compat; assumption]|]. apply Rmult_le_reg_r with (INR n); [assumption|]. unfold Rdiv. rewrite Rmult_assoc, Rinv_l by lra. lra.
  - rewrite mult_INR. replace (INR 100) with 100 by (rewrite INR_IZR_INZ; reflexivity). field. lra.
Qed.

(** ** gwsignal: what is used when an argument is not given, and the approximants that are accepted *)
Theorem C215_defaults fs : let given := Gwsig_Props.argument fs [] in
  given "waveform_approximant"%string = Some (VText "SEOBNRv5PHM"%string) /\ given "reference_frequency"%string = Some (VNum 50) /\
  given "minimum_frequency"%string = Some (VNum 20) /\ given "maximum_frequency"%string = Some (VNum (last fs 0)) /\
  given "catch_waveform_errors"%string = Some (VFlag false) /\ given "mode_array"%string = Some VNone /\ given "pn_amplitude_order"%string = Some (VNum 0).
Proof. cbv zeta. unfold Gwsig_Props.argument. repeat split. Qed.
Theorem C215_accepted transform time_domain generate solar_mass fs b kwargs a : wf kwargs -> fs <> [] -> dget kwargs "waveform_approximant" = Some (VText a) ->
  ~ In a ["SEOBNRv5HM"; "SEOBNRv5PHM"; "IMRPhenomXPHM"]%string -> gwsignal transform time_domain generate solar_mass fs b kwargs = Raise ValueError.
Proof.
  intros W NE A N. apply (Gwsig_Props.C215_refused transform time_domain generate solar_mass fs b kwargs (VText a) W NE).
  - unfold Gwsig_Props.argument. rewrite A. reflexivity.
  - intros a' I E. injection E as ->. apply N. exact I.
Qed.

(** ** proposals.py 200-269: the size of a Gaussian step *)
Section Steps.
Import McProp_Model McProp_Props.
(** the width of a prior, 1 where it is infinite *)
Definition span (p : prior) : R := match width p with Some w => w | None => 1 end.
Lemma steps_fst (c : string -> R) ks : forall zs, length zs = length ks -> map fst (map (fun kz : string * R => (fst kz, c (fst kz) * snd kz)) (combine ks zs)) = ks.
Proof. induction ks as [|k ks IH]; intros [|z zs] L; cbn [length] in *; try lia; [reflexivity|]. cbn [combine map fst]. rewrite IH by lia. reflexivity. Qed.
Lemma step_value (c : string -> R) ks zs s s' lf : NoDup ks -> length zs = length ks ->
  with_factor 0 (adds (map (fun kz => (fst kz, c (fst kz) * snd kz)) (combine ks zs)) s) = Some (s', lf) ->
  forall k z, In (k, z) (combine ks zs) -> exists x, dget s k = Some x /\ dget s' k = Some (x + c k * z).
Proof.
  intros N L H k z I. destruct (adds _ s) as [s1|] eqn:A; [|discriminate]. cbn [with_factor] in H. injection H as <- _.
  refine (adds_value _ s s1 _ A k (c k * z) _); [rewrite steps_fst; assumption|].
  change (k, c k * z) with ((fun kz : string * R => (fst kz, c (fst kz) * snd kz)) (k, z)). apply in_map. exact I.
Qed.
(** Every parameter moves by its own normal draw times sigma times the width of its prior, or 1 if the width is infinite;
    the adaptive proposal multiplies by its scale and by one factor, ten, a hundred or one, common to all the parameters. *)
Theorem C206_steps ps sigma ks zs s s' lf : NoDup ks -> length zs = length ks -> fixed_gaussian ps sigma ks zs s = Some (s', lf) ->
  forall k z p, In (k, z) (combine ks zs) -> dget ps k = Some p -> exists x, dget s k = Some x /\ dget s' k = Some (x + span p * sigma k * z).
Proof.
  intros N L H k z p I P. destruct (step_value (fun k => wid ps k * sigma k) ks zs s s' lf N L H k z I) as (x & X & Y). exists x. split; [exact X|].
  rewrite Y. unfold wid, span. rewrite P. reflexivity.
Qed.
Theorem C206_adaptive_steps ps sigma u1 u2 scale ks zs s s' lf : NoDup ks -> length zs = length ks -> adaptive_gaussian ps sigma (adaptive_factor u1 u2) scale ks zs s = Some (s', lf) ->
  exists factor, (u1 < 1 / 1000 -> factor = 10) /\ (1 / 1000 <= u1 -> u2 < 1 / 10000 -> factor = 100) /\ (1 / 1000 <= u1 -> 1 / 10000 <= u2 -> factor = 1) /\
  forall k z p, In (k, z) (combine ks zs) -> dget ps k = Some p -> exists x, dget s k = Some x /\ dget s' k = Some (x + factor * (scale * span p * sigma k * z)).
Proof.
  intros N L H. exists (adaptive_factor u1 u2). unfold adaptive_factor at 1 2 3.
  split; [intros; destruct (Rlt_dec _ _); [reflexivity|lra]|]. split; [intros; destruct (Rlt_dec u1 _); [lra|]; destruct (Rlt_dec _ _); [reflexivity|lra]|].
  split; [intros; destruct (Rlt_dec u1 _); [lra|]; destruct (Rlt_dec _ _); [lra|reflexivity]|].
  intros k z p I P. destruct (step_value (fun k => adaptive_factor u1 u2 * scale * wid ps k * sigma k) ks zs s s' lf N L H k z I) as (x & X & Y). exists x. split; [exact X|].
  rewrite Y. apply (f_equal Some). unfold wid, span. rewrite P. ring.
Qed.
Example C206_steps_example : exists s', fixed_gaussian [("a"%string, mkPrior false false NoBoundary 0 8 (Some 8)); ("b"%string, mkPrior false false NoBoundary 0 0 None)] (fun _ => 1 / 2) ["a"; "b"]%string [1; -1] [("a"%string, 3); ("b"%string, 3)] = Some (s', 0) /\
  dget s' "a" = Some 7 /\ dget s' "b" = Some (5 / 2).
Proof.
  eexists. split; [reflexivity|]. cbn. split; apply (f_equal Some); lra.
Qed.
End Steps.

(** ** Assumptions of every theorem above *)
Definition Recheck_Props_all :=
  (@C201_rows,
   @C201_infinite,
   @C205_percentage,
   @C215_defaults,
   @C215_accepted,
   @C206_steps,
   @C206_adaptive_steps).
Print Assumptions Recheck_Props_all.
