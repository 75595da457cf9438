(** * Joined tables and families of stars (C199) *)
From Coq Require Import Reals Lra Lia List Bool Psatz.
From Coquelicot Require Import Coquelicot.
From Verif Require Import PyReal Interp_Model Interp_Proofs Eos_Model Eos_Props Eos2_Props.
Import ListNotations.
Open Scope list_scope.
Open Scope R_scope.

(** ** joined tables *)
Lemma break_spec low c n i : (1 <= i)%nat -> (n + i = length low)%nat ->
  (exists j, (1 <= j <= length low - i)%nat /\ below c (nth j low (0, 0)) = true /\ (forall k, (j < k <= length low - i)%nat -> below c (nth k low (0, 0)) = false) /\ break_point low c n i = S j) \/
  (forall k, (1 <= k <= length low - i)%nat -> below c (nth k low (0, 0)) = false) /\ break_point low c n i = length low.
Proof.
  revert i. induction n as [|n IH]; intros i I1 E; [right; split; [intros k Hk; lia|reflexivity]|]. cbn [break_point]. destruct (below c (nth (length low - i) low (0, 0))) eqn:B.
  - left. exists (length low - i)%nat. split; [lia|]. split; [exact B|]. split; [intros k Hk; lia|lia].
  - destruct (IH (S i) ltac:(lia) ltac:(lia)) as [(j & Hj & Bj & A & R)|[A R]].
    + left. exists j. split; [lia|]. split; [exact Bj|]. split; [|exact R]. intros k Hk. destruct (Nat.eq_dec k (length low - i)) as [->|]; [exact B|apply A; lia].
    + right. split; [|exact R]. intros k Hk. destruct (Nat.eq_dec k (length low - i)) as [->|]; [exact B|apply A; lia].
Qed.
Lemma filter_firstn {A} (p : A -> bool) (d : A) l m : (m <= length l)%nat -> (forall k, (k < m)%nat -> p (nth k l d) = true) -> (forall k, (m <= k < length l)%nat -> p (nth k l d) = false) -> filter p l = firstn m l.
Proof.
  revert m. induction l as [|a l IH]; intros m L T F; [now rewrite firstn_nil|]. destruct m as [|m].
  - cbn. pose proof (F 0%nat ltac:(cbn; lia)) as F0. cbn in F0. rewrite F0. rewrite (IH 0%nat); [reflexivity|lia|intros; lia|]. intros k Hk. apply (F (S k)). cbn. lia.
  - cbn. pose proof (T 0%nat ltac:(lia)) as T0. cbn in T0. rewrite T0. f_equal. cbn in L. apply IH; [lia| |]; intros k Hk; [apply (T (S k))|apply (F (S k))]; cbn; lia.
Qed.
Lemma increasing_nth l i j : increasing l = true -> (i < j < length l)%nat -> nth i l 0 < nth j l 0.
Proof.
  intros H. rewrite increasing_steps in H. intros [A B]. induction j as [|j IH]; [lia|]. destruct (Nat.eq_dec i j) as [->|]; [apply H; lia|]. pose proof (H j ltac:(lia)). pose proof (IH ltac:(lia) ltac:(lia)). lra.
Qed.
Lemma below_iff c r : below c r = true <-> fst r < fst c /\ snd r < snd c.
Proof. unfold below. destruct (Rlt_dec (fst r) (fst c)); destruct (Rlt_dec (snd r) (snd c)); cbn; intuition (try discriminate; try lra). Qed.
Definition rising (t : list row) : Prop := increasing (map fst t) = true /\ increasing (map snd t) = true.
Lemma rising_nth t i j : rising t -> (i < j < length t)%nat -> fst (nth i t (0, 0)) < fst (nth j t (0, 0)) /\ snd (nth i t (0, 0)) < snd (nth j t (0, 0)).
Proof. intros [A B] H. rewrite <- !map_fst_nth, <- !map_snd_nth. split; apply increasing_nth; rewrite ?map_length; assumption. Qed.
(** The rows kept are exactly those below the first spectral row in pressure and energy density. *)
Theorem C199_kept low c high j : rising low -> (1 <= j < length low)%nat -> below c (nth j low (0, 0)) = true -> stitch low (c :: high) = Some (filter (below c) low ++ c :: high).
Proof.
  intros RL Hj Bj. unfold stitch. do 2 f_equal. destruct (break_spec low c (length low - 1) 1) as [(k & Hk & Bk & A & ->)|[A _]]; try lia.
  - symmetry. apply (filter_firstn _ (0, 0)); [lia| |intros i Hi; apply A; lia]. intros i Hi. destruct (Nat.eq_dec i k) as [->|]; [exact Bk|]. pose proof (rising_nth low i k RL ltac:(lia)) as L. rewrite below_iff in Bk |- *. lra.
  - rewrite A in Bj by lia. discriminate.
Qed.
Lemma increasing_app l1 b l2 : increasing l1 = true -> increasing (b :: l2) = true -> (forall x, In x l1 -> x < b) -> increasing (l1 ++ b :: l2) = true.
Proof.
  induction l1 as [|a l1 IH]; intros A B H; [exact B|]. destruct l1 as [|a' l1].
  - cbn [app]. apply increasing_cons. split; [apply H; left; reflexivity|exact B].
  - cbn [app]. apply increasing_cons in A. apply increasing_cons. split; [apply A|]. apply (IH (proj2 A) B). intros x Hx. apply H. right. exact Hx.
Qed.
Lemma increasing_map_filter (f : row -> R) p (t : list row) : increasing (map f t) = true -> increasing (map f (filter p t)) = true.
Proof.
  induction t as [|a t IH]; intros H; [reflexivity|]. cbn [map] in H. pose proof (IH (increasing_tail _ _ H)) as I. cbn [filter]. destruct (p a); [|exact I]. cbn [map]. destruct (map f (filter p t)) as [|b u] eqn:E; [reflexivity|]. apply increasing_cons. split; [|exact I].
  apply (increasing_lt _ _ _ H). assert (In b (map f (filter p t))) as J by (rewrite E; left; reflexivity). apply in_map_iff in J. destruct J as (r & <- & J). apply in_map. apply filter_In in J. tauto.
Qed.
(** So two increasing tables give an increasing one. *)
Theorem C199_rising low c high t : rising low -> rising (c :: high) -> (exists j, (1 <= j < length low)%nat /\ below c (nth j low (0, 0)) = true) -> stitch low (c :: high) = Some t -> rising t.
Proof.
  intros RL RH (j & Hj & Bj) H. rewrite (C199_kept low c high j RL Hj Bj) in H. apply some_inj in H. subst t. destruct RL as [A B]. destruct RH as [A' B'].
  split; rewrite map_app; cbn [map]; (apply increasing_app; [apply increasing_map_filter; assumption|assumption|]); intros x Hx; apply in_map_iff in Hx; destruct Hx as (r & <- & Hr); apply filter_In in Hr; destruct Hr as [_ Hr]; apply below_iff in Hr; tauto.
Qed.
(** When no row but the first can be kept, all are: the joined table does not increase. *)
Theorem C199_overlap_refuted low c high : (2 <= length low)%nat -> (forall j, (1 <= j < length low)%nat -> below c (nth j low (0, 0)) = false) ->
  stitch low (c :: high) = Some (low ++ c :: high) /\ ~ rising (low ++ c :: high).
Proof.
  intros L2 F. split.
  - unfold stitch. do 2 f_equal. destruct (break_spec low c (length low - 1) 1) as [(k & Hk & Bk & _)|[_ ->]]; try lia; [|apply firstn_all]. rewrite F in Bk by lia. discriminate.
  - intros RT. pose proof (rising_nth _ (length low - 1) (length low) RT ltac:(rewrite app_length; cbn; lia)) as L. rewrite app_nth1 in L by lia. rewrite app_nth2, Nat.sub_diag in L by lia. cbn [nth] in L. rewrite <- below_iff in L. rewrite F in L by lia. discriminate.
Qed.
Section Joined.
Variables (g : list R) (p0 e0 c unit xmax : R) (npts : nat).
Hypothesis (p0_pos : 0 < p0) (e0_pos : 0 < e0) (c_pos : 0 < c) (unit_pos : 0 < unit) (xmax_pos : 0 < xmax) (npts_2 : (2 <= npts)%nat).
Lemma grid_lt i : (S i < npts)%nat -> 0 <= nth i (linspace 0 xmax npts) 0 < nth (S i) (linspace 0 xmax npts) 0.
Proof using xmax_pos npts_2.
  intros H. rewrite !linspace_nth by lia. assert (0 < (xmax - 0) / INR (npts - 1)) by (apply Rdiv_lt_0_compat; [lra|apply lt_0_INR; lia]). pose proof (pos_INR i). rewrite S_INR. nra.
Qed.
Lemma spectral_length : length (spectral_rows g p0 e0 c unit xmax npts) = npts.
Proof using Type. unfold spectral_rows. now rewrite map_length, linspace_length. Qed.
Lemma spectral_nth i : (i < npts)%nat -> nth i (spectral_rows g p0 e0 c unit xmax npts) (0, 0) =
  (p0 * exp (nth i (linspace 0 xmax npts) 0) * unit, energy_density g p0 e0 c (nth i (linspace 0 xmax npts) 0) * unit).
Proof using Type.
  intros H. unfold spectral_rows. set (f := fun x => _). rewrite (nth_indep _ (0, 0) (f 0)) by (rewrite map_length, linspace_length; exact H). now rewrite map_nth.
Qed.
Lemma spectral_rising : rising (spectral_rows g p0 e0 c unit xmax npts).
Proof using p0_pos e0_pos c_pos unit_pos xmax_pos npts_2.
  split; apply increasing_steps; intros i Hi; rewrite map_length, spectral_length in Hi; rewrite ?map_fst_nth, ?map_snd_nth, !spectral_nth by lia; cbn [fst snd]; pose proof (grid_lt i Hi) as [P L].
  - apply Rmult_lt_compat_r; [exact unit_pos|]. apply Rmult_lt_compat_l; [exact p0_pos|]. now apply exp_increasing.
  - apply Rmult_lt_compat_r; [exact unit_pos|]. apply C198_increasing; assumption.
Qed.
(** The joined table of a spectral decomposition is accepted by TabularEOS once its leading row of zeros is gone. *)
Theorem C199_table low j (z : row) : z = (0, 0) -> rising (z :: low) -> (1 <= j < S (length low))%nat -> below (p0 * unit, e0 * c ^ 2 * unit) (nth j (z :: low) (0, 0)) = true ->
  exists t, stitch (z :: low) (spectral_rows g p0 e0 c unit xmax npts) = Some (z :: t) /\ good_table t /\
    t = filter (below (p0 * unit, e0 * c ^ 2 * unit)) low ++ spectral_rows g p0 e0 c unit xmax npts.
Proof using p0_pos e0_pos c_pos unit_pos xmax_pos npts_2.
  intros Ez RL Hj Bj. set (cut := (p0 * unit, e0 * c ^ 2 * unit)) in *. set (H := spectral_rows g p0 e0 c unit xmax npts).
  assert (H0 : exists h, H = cut :: h).
  { pose proof (spectral_nth 0 ltac:(lia)) as N. rewrite linspace_nth in N by lia. cbn [INR] in N. rewrite Rmult_0_l, Rplus_0_l, exp_0, Rmult_1_r in N. rewrite (proj1 (C198_law g p0 e0 c)) in N. fold cut in N. fold H in N.
    pose proof spectral_length as L. fold H in L. destruct H as [|h0 h]; [cbn in L; lia|]. exists h. cbn in N. now rewrite N. }
  destruct H0 as [h EH]. assert (RH : rising (cut :: h)) by (rewrite <- EH; apply spectral_rising).
  assert (CP : 0 < fst cut /\ 0 < snd cut) by (unfold cut; cbn; split; repeat apply Rmult_lt_0_compat; try assumption; lra).
  exists (filter (below cut) low ++ H). assert (BZ : below cut z = true) by (rewrite below_iff, Ez; cbn [fst snd]; tauto).
  assert (ST : stitch (z :: low) H = Some (z :: filter (below cut) low ++ H)).
  { rewrite EH. rewrite (C199_kept (z :: low) cut h j RL ltac:(cbn [length]; lia) Bj). cbn [filter]. now rewrite BZ. }
  split; [exact ST|]. split; [|reflexivity]. assert (RT : rising (z :: filter (below cut) low ++ H)).
  { rewrite EH in ST |- *. apply (C199_rising (z :: low) cut h _ RL RH); [|exact ST]. exists j. split; [cbn [length]; lia|exact Bj]. }
  destruct RT as [RA RB]. split; [|split; [|split; [|split]]].
  - rewrite app_length. unfold H. rewrite spectral_length. lia.
  - apply all_positive_in. intros x Hx. cbn [map] in RA. pose proof (increasing_lt _ _ _ RA Hx) as L. rewrite Ez in L. exact L.
  - apply all_positive_in. intros x Hx. cbn [map] in RB. pose proof (increasing_lt _ _ _ RB Hx) as L. rewrite Ez in L. exact L.
  - cbn [map] in RA. exact (increasing_tail _ _ RA).
  - cbn [map] in RB. exact (increasing_tail _ _ RB).
Qed.
End Joined.

(** ** families of stars *)
Section Families.
Variable tov : R -> star.
Variable peak : list R -> list R -> option R.
Variable spline : list R -> list R -> R -> R.
Hypothesis spline_node : forall xs ys i, splinable xs ys = true -> (i < length xs)%nat -> spline xs ys (nth i xs 0) = nth i ys 0.
Variables c_si g_si msun : R.
Hypothesis (c_pos : 0 < c_si) (g_pos : 0 < g_si) (m_pos : 0 < msun).
Notation mass e := (st_m (tov e)).
(** energies whose masses increase, but perhaps for the last *)
Definition climbing (es : list R) : Prop := forall i, (S (S i) < length es)%nat -> mass (nth i es 0) < mass (nth (S i) es 0).
Lemma stars_spec prev grid : exists k, (k <= length grid)%nat /\ (grid <> [] -> (1 <= k)%nat) /\ (prev = None -> (2 <= length grid -> 2 <= k)%nat) /\ stars tov prev grid = map tov (firstn k grid) /\ climbing (firstn k grid) /\
  (forall m, prev = Some m -> (2 <= k)%nat -> m < mass (nth 0 grid 0)).
Proof using Type.
  revert prev. induction grid as [|e grid IH]; intros prev; [exists 0%nat; repeat split; try (cbn; lia); try congruence; intros i Hi; cbn in Hi; lia|].
  destruct (IH (Some (mass e))) as (k & LK & K1 & _ & E & CL & FK).
  assert (GO : forall m, exists k', (k' <= length (e :: grid))%nat /\ (e :: grid <> [] -> (1 <= k')%nat) /\ (prev = None -> (2 <= length (e :: grid) -> 2 <= k')%nat) /\ tov e :: stars tov (Some (mass e)) grid = map tov (firstn k' (e :: grid)) /\ climbing (firstn k' (e :: grid)) /\ (m < mass e -> (2 <= k')%nat -> m < mass (nth 0 (e :: grid) 0))).
  { intros m. exists (S k). split; [cbn; lia|]. split; [lia|]. split.
    { intros _ L. cbn in L. destruct grid; [cbn in L; lia|]. specialize (K1 ltac:(discriminate)). lia. }
    split; [cbn; now rewrite E|]. split; [|intros H _; exact H].
    intros i Hi. cbn [firstn]. cbn [firstn length] in Hi. rewrite firstn_length_le in Hi by exact LK. destruct i as [|i].
    - cbn [nth]. destruct grid as [|e1 grid]; [cbn in LK; lia|]. destruct k as [|k]; [lia|]. cbn [firstn nth]. exact (FK _ eq_refl ltac:(lia)).
    - cbn [nth]. apply (CL i). rewrite firstn_length_le by exact LK. lia. }
  cbn [stars]. destruct prev as [m|].
  - destruct (Rle_dec (mass e) m) as [LE|GT].
    + exists 1%nat. split; [cbn; lia|]. split; [lia|]. split; [discriminate|]. split; [reflexivity|]. split; [intros i Hi; cbn in Hi; lia|]. intros; lia.
    + destruct (GO m) as (k' & A & B & D & F & G & H). exists k'. repeat split; try assumption. intros m' E' L. injection E' as <-. apply H; [lra|exact L].
  - destruct (GO 0) as (k' & A & B & D & F & G & _). exists k'. repeat split; try assumption. discriminate.
Qed.
Lemma climbing_init es : climbing es -> forall i, (S i < length (removelast es))%nat -> mass (nth i (removelast es) 0) < mass (nth (S i) (removelast es) 0).
Proof using Type.
  intros CL i Hi. destruct es as [|e es] using rev_ind; [cbn in Hi; lia|]. clear IHes. rewrite removelast_last in Hi |- *. pose proof (CL i) as H. rewrite app_length in H. cbn [length] in H. specialize (H ltac:(lia)). rewrite !app_nth1 in H by lia. exact H.
Qed.
Lemma removelast_map {A B} (f : A -> B) l : removelast (map f l) = map f (removelast l).
Proof using Type. induction l as [|a l IH]; [reflexivity|]. destruct l; [reflexivity|]. cbn [map removelast] in *. now rewrite IH. Qed.
Lemma climbing_set es x : climbing es -> climbing (removelast es ++ [x]).
Proof using Type.
  intros CL i Hi. destruct es as [|e es] using rev_ind; [cbn in Hi; lia|]. clear IHes. rewrite removelast_last in Hi |- *. rewrite app_length in Hi. cbn [length] in Hi. pose proof (CL i) as H. rewrite app_length in H. cbn [length] in H. specialize (H ltac:(lia)). rewrite !app_nth1 in H |- * by lia. exact H.
Qed.
Lemma mass_nth es i : (i < length es)%nat -> nth i (map st_m (map tov es)) 0 = mass (nth i es 0).
Proof using Type. intros H. rewrite map_map. rewrite (nth_indep _ 0 (mass 0)) by (rewrite map_length; exact H). apply (map_nth (fun e => mass e)). Qed.
Lemma build_spec grid f : build tov peak c_si g_si msun grid = Some f -> exists es, es <> [] /\ f = pack c_si g_si msun (map tov es) /\
  (forall i, (S i < length es)%nat -> mass (nth i es 0) < mass (nth (S i) es 0) \/ S (S i) = length es /\ mass (nth i es 0) = mass (nth (S i) es 0)).
Proof using Type.
  intros H. unfold build in H. destruct grid as [|e0 grid]; [discriminate|]. destruct (stars_spec None (e0 :: grid)) as (k & LK & K1 & _ & E & CL & _). rewrite E in H. remember (firstn k (e0 :: grid)) as es.
  assert (F : exists es', finish tov peak (e0 :: grid) (map tov es) = Some (map tov es') /\ climbing es' \/ finish tov peak (e0 :: grid) (map tov es) = None).
  { unfold finish. destruct (_ <? _)%nat; [|exists es; left; split; [reflexivity|exact CL]]. destruct (peak _ _) as [x|]; [|exists []; right; reflexivity]. cbn [bindo]. exists (removelast es ++ [x]). left. split; [|now apply climbing_set]. unfold set_end. rewrite removelast_map, map_app. reflexivity. }
  destruct F as [es' [[F CL']|F]]; rewrite F in H; [|discriminate]. cbn [bindo] in H. rewrite map_length in H. destruct (length es' <? 2)%nat eqn:L2; [discriminate|]. apply Nat.ltb_ge in L2.
  assert (LA : last (map st_m (map tov es')) 0 = mass (nth (length es' - 1) es' 0)) by (rewrite last_nth_r, !map_length; apply mass_nth; lia). rewrite LA, mass_nth in H by lia.
  destruct (Rlt_dec _ _) as [LT|GE]; apply some_inj in H; subst f.
  - exists (removelast es'). split; [intros E0; apply (f_equal (@length R)) in E0; destruct es' as [|a es''] using rev_ind; [cbn in L2; lia|]; rewrite removelast_last in E0; rewrite app_length in L2; cbn in *; lia|].
    split; [now rewrite removelast_map|]. intros i Hi. left. now apply climbing_init.
  - exists es'. split; [intros ->; cbn in L2; lia|]. split; [reflexivity|]. intros i Hi. destruct (Nat.eq_dec (S (S i)) (length es')) as [E2|]; [|left; apply CL'; lia].
    replace (length es' - 1)%nat with (S i) in GE by lia. replace (length es' - 2)%nat with i in GE by lia. destruct (Req_dec (mass (nth i es' 0)) (mass (nth (S i) es' 0))); [right; split; assumption|left; lra].
Qed.
(** The masses increase, but the last may equal the one before; every column belongs to the same stars; the maximum mass is the largest, in solar masses. *)
Theorem C199_family grid f : build tov peak c_si g_si msun grid = Some f ->
  (exists es, es <> [] /\ f_mass f = map (fun e => mass e) es /\ f_radius f = map (fun e => st_r (tov e)) es /\ f_k2 f = map (fun e => st_k (tov e)) es /\ f_lambda f = map (fun e => 2 / 3 * st_k (tov e) * st_r (tov e) ^ 5 / mass e ^ 5) es) /\
  (forall i, (S i < length (f_mass f))%nat -> nth i (f_mass f) 0 < nth (S i) (f_mass f) 0 \/ S (S i) = length (f_mass f) /\ nth i (f_mass f) 0 = nth (S i) (f_mass f) 0) /\
  (forall m, In m (f_mass f) -> m <= f_max f * (msun * g_si / c_si ^ 2)) /\ In (f_max f * (msun * g_si / c_si ^ 2)) (f_mass f).
Proof using c_pos g_pos m_pos.
  intros H. destruct (build_spec grid f H) as (es & NE & -> & ST). unfold pack. cbn [f_mass f_radius f_k2 f_lambda f_max].
  assert (ST' : forall i, (S i < length (map st_m (map tov es)))%nat -> nth i (map st_m (map tov es)) 0 < nth (S i) (map st_m (map tov es)) 0 \/ S (S i) = length (map st_m (map tov es)) /\ nth i (map st_m (map tov es)) 0 = nth (S i) (map st_m (map tov es)) 0).
  { intros i Hi. rewrite !map_length in Hi |- *. rewrite !mass_nth by lia. apply ST. exact Hi. }
  assert (CV : last (map st_m (map tov es)) 0 * (c_si ^ 2 / g_si / msun) * (msun * g_si / c_si ^ 2) = last (map st_m (map tov es)) 0) by (field; repeat split; lra).
  split; [exists es; rewrite !map_map; repeat split; assumption|]. split; [exact ST'|]. rewrite CV. set (l := map st_m (map tov es)) in *. assert (NL : l <> []) by (unfold l; destruct es; [congruence|discriminate]). assert (LL : (0 < length l)%nat) by (destruct l; [congruence|cbn; lia]). rewrite last_nth_r. split; [|apply nth_In; lia].
  intros m Hm. destruct (In_nth l m 0 Hm) as (i & Hi & <-). clear Hm.
  assert (M : forall d, (i + d < length l)%nat -> nth i l 0 <= nth (i + d) l 0).
  { induction d as [|d IH]; intros L; [rewrite Nat.add_0_r; lra|]. specialize (IH ltac:(lia)). replace (i + S d)%nat with (S (i + d)) in * by lia. destruct (ST' (i + d)%nat L) as [A|[_ A]]; lra. }
  replace (length l - 1)%nat with (i + (length l - 1 - i))%nat by lia. apply M. lia.
Qed.
(** At the mass of a star of the family the tidal deformability is that star's. *)
Theorem C199_lambda grid f i : build tov peak c_si g_si msun grid = Some f -> (2 <= length (f_mass f))%nat -> increasing (f_mass f) = true -> (i < length (f_mass f))%nat ->
  nth i (f_mass f) 0 <> 0 -> nth i (f_radius f) 0 <> 0 ->
  let m := nth i (f_mass f) 0 * (c_si ^ 2 / g_si / msun) in
  from_mass spline c_si g_si msun f (f_radius f) m = Some (nth i (f_radius f) 0) /\ lambda_from_mass spline c_si g_si msun f m = Some (nth i (f_lambda f) 0).
Proof using spline_node c_pos g_pos m_pos.
  intros H L2 IN Hi MZ RZ. cbv zeta. destruct (build_spec grid f H) as (es & NE & -> & _). unfold pack in *. cbn [f_mass f_radius f_k2 f_lambda f_max] in *.
  assert (CV : nth i (map st_m (map tov es)) 0 * (c_si ^ 2 / g_si / msun) * msun * g_si / c_si ^ 2 = nth i (map st_m (map tov es)) 0) by (field; repeat split; lra).
  assert (FM : forall ys, length ys = length es -> from_mass spline c_si g_si msun (mkFamily (map st_m (map tov es)) (map st_r (map tov es)) (map st_k (map tov es)) (map lambda_of (map tov es)) (last (map st_m (map tov es)) 0 * (c_si ^ 2 / g_si / msun))) ys (nth i (map st_m (map tov es)) 0 * (c_si ^ 2 / g_si / msun)) = Some (nth i ys 0)).
  { intros ys LY. unfold from_mass. cbn [f_mass]. assert (SP : splinable (map st_m (map tov es)) ys = true) by (apply splinable_spec; split; [exact L2|split; [rewrite !map_length; symmetry; exact LY|exact IN]]). rewrite SP, CV. f_equal. apply spline_node; assumption. }
  split; [apply FM; rewrite !map_length; reflexivity|]. unfold lambda_from_mass. cbn [f_radius f_k2]. rewrite !FM by (rewrite !map_length; reflexivity). cbn [bindo]. rewrite CV. rewrite pdiv_some by exact RZ. cbn [bindo].
  rewrite pdiv_some. 2: { apply pow_nonzero. unfold Rdiv. apply Rmult_integral_contrapositive_currified; [exact MZ|apply Rinv_neq_0_compat; exact RZ]. }
  f_equal. rewrite !map_length in Hi. 
  assert (N : forall (q : star -> R), nth i (map q (map tov es)) 0 = q (tov (nth i es 0))). { intros q. rewrite map_map. rewrite (nth_indep _ 0 (q (tov 0))) by (rewrite map_length; exact Hi). apply (map_nth (fun e => q (tov e))). }
  rewrite !N in *. unfold lambda_of. field. split; assumption.
Qed.
(** Two equal last masses: no radius, no Love number, no deformability for any mass. *)
Theorem C199_equal_refuted f m : (exists i, (S i < length (f_mass f))%nat /\ nth i (f_mass f) 0 = nth (S i) (f_mass f) 0) ->
  from_mass spline c_si g_si msun f (f_radius f) m = None /\ from_mass spline c_si g_si msun f (f_k2 f) m = None /\ lambda_from_mass spline c_si g_si msun f m = None.
Proof using Type.
  intros (i & Hi & E). assert (SP : forall ys, splinable (f_mass f) ys = false).
  { intros ys. destruct (splinable (f_mass f) ys) eqn:S; [|reflexivity]. apply splinable_spec in S. destruct S as (_ & _ & IN). rewrite increasing_steps in IN. specialize (IN i Hi). lra. }
  unfold lambda_from_mass, from_mass. now rewrite !SP.
Qed.
(** A second star no heavier than the first: the parabola is put through the last energy of the grid, where no star was integrated, with the mass of the second star. *)
Theorem C199_wrap_refuted e0 e1 e2 grid : mass e1 <= mass e0 ->
  finish tov peak (e0 :: e1 :: e2 :: grid) (stars tov None (e0 :: e1 :: e2 :: grid)) =
  (let* x := peak [last (e2 :: grid) 0; e0; e1] [mass e1; mass e0; mass e1] in Some [tov e0; tov x]).
Proof using Type.
  intros LE. cbn [stars]. destruct (Rle_dec (mass e1) (mass e0)); [|lra]. unfold finish. cbn [length map Nat.sub]. replace (1 <? S (S (length grid)))%nat with true by (symmetry; apply Nat.ltb_lt; lia).
  assert (P : py_nth (e0 :: e1 :: e2 :: grid) 1 2 0 = last (e2 :: grid) 0). { unfold py_nth. cbn [Nat.leb length Nat.sub]. rewrite last_nth_r. cbn [length]. replace (S (length grid) - 1)%nat with (length grid) by lia. reflexivity. }
  rewrite P. unfold py_nth. cbn [Nat.leb length Nat.sub nth]. destruct (peak _ _); reflexivity.
Qed.
End Families.
(** Three stars, the last the heaviest; and a table whose rows below the spectral part are kept. *)
Example C199_ex : exists f, build (fun e => mkStar e (10 * e) (1 / 10)) (fun _ _ => None) 1 1 2 [1; 2; 4] = Some f /\ f_mass f = [1; 2; 4] /\ f_max f = 2 /\
  stitch [(0, 0); (1, 2); (3, 5); (6, 9)] [(4, 6); (5, 7)] = Some [(0, 0); (1, 2); (3, 5); (4, 6); (5, 7)].
Proof.
  eexists. split; [unfold build; cbn [stars]; cbn [st_m]; destruct (Rle_dec 2 1); [lra|]; destruct (Rle_dec 4 2); [lra|]; unfold finish; cbn [length Nat.sub Nat.ltb Nat.leb bindo map last nth st_m]; destruct (Rlt_dec 4 2); [lra|]; reflexivity|].
  unfold pack. cbn [f_mass f_max map st_m last]. split; [reflexivity|]. split; [field|].
  rewrite (C199_kept _ _ _ 1); [|split; cbn; repeat (destruct (Rlt_dec _ _); [|lra]); reflexivity|cbn; lia|apply below_iff; cbn; lra]. f_equal. cbn [filter]. unfold below. cbn [fst snd].
  repeat match goal with |- context [Rlt_dec ?a ?b] => first [destruct (Rlt_dec a b); [|lra]|destruct (Rlt_dec a b); [lra|]] end. reflexivity.
Qed.

(** ** Assumptions of every theorem above *)
Definition Eos3_Props_all :=
  (@C199_kept,
   @C199_rising,
   @C199_overlap_refuted,
   @C199_table,
   @C199_family,
   @C199_lambda,
   @C199_equal_refuted,
   @C199_wrap_refuted).
Print Assumptions Eos3_Props_all.
