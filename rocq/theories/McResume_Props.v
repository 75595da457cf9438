(** C241: checkpoints and resuming of bilby-mcmc. *)
From Coq Require Import ZArith List Bool Lia.
From Verif Require Import McResume_Model.
Import ListNotations.
Open Scope Z_scope. Open Scope list_scope.

Section Claims.
Context {S P C O W : Type}.
Variable same : P -> P -> bool.
Variable start : P -> O -> S.
Variable number : P -> nat.
Variable pickles : ptsampler S P C O W -> bool.
Notation pt := (ptsampler S P C O W).
Notation fl := (file S P C O W).
Notation stt := (settings P C O W).
Notation setup := (setup_chain_set S P C O W same start number).
Notation wr := (write_current_state S P C O W pickles).
Notation rds := (rounds S P C O W pickles).
Notation chn := (chains S P C O W). Notation pti := (pt_inputs S P C O W). Notation cnv := (conv S P C O W). Notation ofc := (of_chains S P C O W).
Notation rej := (rejection S P C O W). Notation opt := (options S P C O W). Notation poo := (pool S P C O W).

(** ** C241 A checkpoint does not disturb the run; resumed with equal tempering inputs the chains go on
    where they were, under the convergence settings, rejection and pool of the new run *)
Theorem C241_resumed now (p : pt) (f : fl) (s : stt) : pickles (set_pool S P C O W p None) = true -> resume P C O W s = true -> same (pti p) (my_pt P C O W s) = true ->
  fst (wr now p f) = p /\
  exists p', setup s (snd (wr now p f)) = Ok p' /\ chn p' = chn p /\ pti p' = pti p /\ cnv p' = my_conv P C O W s /\
  length (ofc p') = length (ofc p) /\ (forall c, In c (ofc p') -> c = my_conv P C O W s) /\
  rej p' = my_rejection P C O W s /\ poo p' = my_pool P C O W s /\ opt p' = opt p.
Proof.
  intros HP HR HS. split; [destruct p; reflexivity|]. unfold write_current_state. rewrite HP. cbn [snd]. unfold setup_chain_set, read_current_state.
  change (pti (set_pool S P C O W p None)) with (pti p). rewrite HS, HR. eexists. split; [reflexivity|].
  cbn [set_pool set_rejection set_convergence_inputs chains pt_inputs conv of_chains rejection options pool].
  repeat (split; [reflexivity|]). split; [apply map_length|]. split; [|repeat split]. intros c I. apply in_map_iff in I as (x & <- & _). reflexivity.
Qed.
(** ** C241 When the chains start anew, when they go on and when it fails *)
Theorem C241_setup (s : stt) (f : fl) :
  (setup s f = Ok (init_ptsampler S P C O W start number s) \/ (exists p m, f = Some (Saved S P C O W p, m) /\ resume P C O W s = true /\ same (pti p) (my_pt P C O W s) = true) \/ exists e, setup s f = Err e) /\
  (setup s f = Err ResumeError <-> exists p m, f = Some (Saved S P C O W p, m) /\ same (pti p) (my_pt P C O W s) = false) /\
  (setup s f = Err UnpicklingError <-> exists m, f = Some (Broken S P C O W, m)).
Proof.
  unfold setup_chain_set, read_current_state. destruct f as [[[| | |p] m]|].
  1, 3, 5: split; [left; reflexivity|]; split; (split; [discriminate|]); [intros (p & k & X & _); discriminate X | intros (k & X); discriminate X].
  - split; [right; right; eexists; reflexivity|]. split; (split; [try discriminate|]).
    + intros (p & k & X & _). discriminate X.
    + intros _. exists m. reflexivity.
    + reflexivity.
  - destruct (same (pti p) (my_pt P C O W s)) eqn:E.
    + split; [destruct (resume P C O W s) eqn:R; [right; left; exists p, m; repeat split; assumption | left; reflexivity]|].
      split; (split; [destruct (resume P C O W s); discriminate|]).
      * intros (q & k & X & Y). injection X as <- <-. congruence.
      * intros (k & X). discriminate X.
    + split; [right; right; eexists; reflexivity|]. split; (split; [try discriminate|]).
      * intros _. exists p, m. split; [reflexivity | exact E].
      * reflexivity.
      * intros (k & X). discriminate X.
Qed.
(** ** C241 Starting afresh is refused as well: the file is read even with resume=False *)
Theorem C241_fresh_refuted (s : stt) (p : pt) m : resume P C O W s = false ->
  setup s (Some (Saved S P C O W p, m)) = (if same (pti p) (my_pt P C O W s) then Ok (init_ptsampler S P C O W start number s) else Err ResumeError) /\
  setup s (Some (Broken S P C O W, m)) = Err UnpicklingError.
Proof. intros R. unfold setup_chain_set, read_current_state. rewrite R. destruct (same _ _); split; reflexivity. Qed.

(** ** C241 Checkpoints *)
Fixpoint apart (d : Z) (l : list Z) : Prop := match l with x :: (y :: _) as r => x + d < y /\ apart d r | _ => True end.
Lemma written_file now (p : pt) (f : fl) : exists c, snd (wr now p f) = Some (c, now).
Proof. unfold write_current_state. cbn [snd]. destruct (pickles _); [eexists; reflexivity|]. destruct f as [[c k]|]; eexists; reflexivity. Qed.
Lemma due_spec st d now (f : fl) : due S P C O W st d now f = true <-> st + d < now /\ forall c m, f = Some (c, m) -> m + d < now.
Proof.
  unfold due. destruct f as [[c m]|]; rewrite Z.ltb_lt; split.
  - intros H. split; [lia|]. intros c' m' E. injection E as <- <-. lia.
  - intros [H1 H2]. specialize (H2 c m eq_refl). lia.
  - intros H. split; [lia|]. discriminate.
  - intros [H _]. lia.
Qed.
(** More than delta lies between two checkpoints, between the start and the first, and between an old
    file and the first; and at the end of any round the file is not older than delta, unless the run is. *)
Theorem C241_spacing st d calls (f : fl) : let ws := snd (rds st d calls f) in
  apart d ws /\ (forall t, In t ws -> st + d < t) /\ (forall c m t, f = Some (c, m) -> hd_error ws = Some t -> m + d < t) /\
  (forall now p before, calls = before ++ [(now, p)] -> st + d < now -> exists c m, fst (rds st d calls f) = Some (c, m) /\ (now <= m + d \/ m = now)).
Proof.
  cbv zeta. revert f. induction calls as [|[now p] more IH]; intros f.
  - cbn. repeat split; try contradiction; try discriminate. intros now p [|? ?] E; discriminate.
  - cbn [rounds]. unfold check_point. cbn [orb]. destruct (due S P C O W st d now f) eqn:D.
    + destruct (written_file now p f) as [c E]. destruct (wr now p f) as [p1 f1] eqn:EW. cbn [snd] in E. subst f1.
      destruct (IH (Some (c, now))) as (A & B & G & H). destruct (rds st d more (Some (c, now))) as [f2 ws] eqn:ER. cbn [fst snd] in *.
      apply due_spec in D as [D1 D2]. repeat match goal with |- _ /\ _ => split end.
      * destruct ws as [|t ws]; [exact I|]. split; [exact (G c now t eq_refl eq_refl) | exact A].
      * intros t [<- | I]; [exact D1 | exact (B t I)].
      * intros c' m t E X. injection X as <-. exact (D2 c' m E).
      * intros n q before E L. destruct before as [|x before].
        -- injection E as -> -> ->. cbn in ER. injection ER as <- <-. exists c, n. split; [reflexivity | right; reflexivity].
        -- injection E as _ E. exact (H n q before E L).
    + destruct (IH f) as (A & B & G & H). destruct (rds st d more f) as [f2 ws] eqn:ER. cbn [fst snd] in *.
      repeat match goal with |- _ /\ _ => split end; [exact A | exact B | exact G |].
      intros n q before E L. destruct before as [|x before].
      * injection E as -> -> ->. cbn in ER. injection ER as <- <-.
        destruct f as [[c m]|].
        -- exists c, m. split; [reflexivity|]. left. destruct (Z_lt_le_dec (m + d) n) as [X|X]; [|exact X]. assert (Y : due S P C O W st d n (Some (c, m)) = true); [|congruence].
           apply due_spec. split; [exact L|]. intros c' m' E. injection E as <- <-. exact X.
        -- assert (Y : due S P C O W st d n None = true); [|congruence]. apply due_spec. split; [exact L | discriminate].
      * injection E as _ E. exact (H n q before E L).
Qed.
(** ** C241 Whenever the run is killed between two rounds, the file is the old one if there was no
    checkpoint yet, else the state at the end of the round of the last checkpoint, without its pool *)
Theorem C241_killed st d calls (f : fl) : (forall p, pickles p = true) ->
  let ws := snd (rds st d calls f) in
  (ws = [] /\ fst (rds st d calls f) = f) \/
  (ws <> [] /\ exists now p, In (now, p) calls /\ now = last ws now /\ fst (rds st d calls f) = Some (Saved S P C O W (set_pool S P C O W p None), now)).
Proof.
  intros HP. cbv zeta. revert f. induction calls as [|[now p] more IH]; intros f; [left; split; reflexivity|]. cbn [rounds]. unfold check_point. cbn [orb]. destruct (due S P C O W st d now f).
  - unfold write_current_state. rewrite HP. destruct (IH (Some (Saved S P C O W (set_pool S P C O W p None), now))) as [[E0 E] | (N & n & q & I & L & E)]; destruct (rds st d more _) as [f2 ws]; cbn [fst snd] in *; right.
    + rewrite E0. split; [discriminate|]. exists now, p. split; [left; reflexivity|]. split; [reflexivity | exact E].
    + split; [discriminate|]. exists n, q. split; [right; exact I|]. split; [|exact E]. destruct ws; [contradiction|]. exact L.
  - destruct (IH f) as [[E0 E] | (N & n & q & I & L & E)]; destruct (rds st d more f) as [f2 ws]; cbn [fst snd] in *; [left; split; assumption | right]. split; [exact N|]. exists n, q. split; [right; exact I|]. split; [exact L | exact E].
Qed.
(** ** C241 A sampler that cannot be saved never replaces what is in the file *)
Theorem C241_unpicklable st d calls (f : fl) : (forall p, pickles p = false) ->
  match fst (rds st d calls f), f with Some (c, _), Some (c', _) => c = c' | Some (c, _), None => c = Empty S P C O W | None, f0 => f0 = None end.
Proof.
  intros HP. revert f. induction calls as [|[now p] more IH]; intros f; [destruct f as [[c m]|]; reflexivity|]. cbn [rounds]. unfold check_point. cbn [orb]. destruct (due S P C O W st d now f).
  - unfold write_current_state. rewrite HP. specialize (IH (touch S P C O W now f)). destruct (rds st d more _) as [f2 ws]. cbn [fst] in *.
    destruct f2 as [[c2 m2]|], f as [[c m]|]; cbn [touch] in IH; try exact IH; discriminate IH.
  - specialize (IH f). destruct (rds st d more f) as [f2 ws]. cbn [fst] in *. exact IH.
Qed.
End Claims.

(** ** C241 Options are those of the file: a new proposal cycle (here 2 instead of 1) is ignored *)
Theorem C241_options_refuted : exists (p : ptsampler nat nat nat nat unit) (s : settings nat nat nat unit) q,
  my_options nat nat nat unit s = 2%nat /\ setup_chain_set nat nat nat nat unit Nat.eqb (fun _ _ => 0%nat) (fun n => n) s (Some (Saved nat nat nat nat unit p, 0)) = Ok q /\ options nat nat nat nat unit q = 1%nat.
Proof.
  exists (mkPt nat nat nat nat unit 7 1 3 [3] false 1 None)%nat, (mkS nat nat nat unit true 1 4 true 2 None)%nat. eexists. repeat split.
Qed.
(** Rounds at 5, 12, 14 and 25 with delta 10: checkpoints at 12 and 25; killed after 14 the state of 12 is left. *)
Definition e_pt (n : nat) : ptsampler nat nat nat nat unit := mkPt nat nat nat nat unit n 1%nat 3%nat [3%nat] false 1%nat (Some tt).
Example C241_example :
  snd (rounds nat nat nat nat unit (fun _ => true) 0 10 [(5, e_pt 1); (12, e_pt 2); (14, e_pt 3); (25, e_pt 4)] None) = [12; 25] /\
  fst (rounds nat nat nat nat unit (fun _ => true) 0 10 [(5, e_pt 1); (12, e_pt 2); (14, e_pt 3)] None) = Some (Saved nat nat nat nat unit (set_pool nat nat nat nat unit (e_pt 2) None), 12).
Proof. split; reflexivity. Qed.

(** ** Assumptions of every theorem above *)
Definition McResume_Props_all :=
  (@C241_resumed,
   @C241_setup,
   @C241_fresh_refuted,
   @C241_spacing,
   @C241_killed,
   @C241_unpicklable,
   @C241_options_refuted).
Print Assumptions McResume_Props_all.
