(** C221: arguments, burn-in and steps of the ensemble samplers. *)
From Coq Require Import String ZArith List Bool Lia.
From Verif Require Import PyDict Sampler_Model Sampler_Props EnsKw_Model.
Import ListNotations.
Open Scope string_scope.
Open Scope list_scope.

(** ** Which call gets an argument, and under which name *)
Inductive goes := ToInit (name : string) | ToSample (name : string) | Nowhere.
Section Args.
Context {V : Type}.
Definition delivered (kw init sample : dict V) (r : string * goes) : Prop :=
  match snd r with ToInit n => dget init n = dget kw (fst r) | ToSample n => dget sample n = dget kw (fst r) | Nowhere => True end.
(** the names a call is given, in terms of the table and of what bilby adds *)
Definition same_names (d : dict V) (l : list string) : Prop := forall k, In k (dkeys d) <-> In k l.

Lemma spell (kw : dict V) keys : dkeys kw = keys -> exists vs, length vs = length keys /\ kw = combine keys vs.
Proof.
  intros <-. exists (map snd kw). split; [unfold dkeys; now rewrite !map_length|]. unfold dkeys. induction kw as [|[k v] kw IH]; [reflexivity|]. cbn. now rewrite <- IH.
Qed.
Ltac values vs := repeat match goal with L : length vs = _ |- _ => destruct vs as [|? vs]; cbn in L; [discriminate L|]; apply eq_add_S in L end.
Ltac spelled kw H := destruct (spell kw _ H) as (vs & L & ->); unfold emcee_keys, zeus_keys, kombine_keys in L; cbn [length] in L;
  repeat (destruct vs as [|? vs]; [discriminate L | cbn [length] in L; apply eq_add_S in L]); destruct vs as [|? vs]; [|discriminate L]; clear L.

Definition emcee_new : list (string * goes) :=
  [("nwalkers", ToInit "nwalkers"); ("a", ToInit "a"); ("args", ToInit "args"); ("kwargs", ToInit "kwargs"); ("postargs", ToInit "postargs");
   ("pool", ToInit "pool"); ("live_dangerously", ToInit "live_dangerously"); ("runtime_sortingfn", ToInit "runtime_sortingfn");
   ("lnprob0", ToSample "log_prob0"); ("rstate0", ToSample "rstate0"); ("blobs0", ToSample "blobs0"); ("iterations", ToSample "iterations");
   ("thin", ToSample "thin"); ("storechain", ToSample "store"); ("mh_proposal", Nowhere)].
Definition emcee_old : list (string * goes) :=
  [("nwalkers", ToInit "nwalkers"); ("a", ToInit "a"); ("args", ToInit "args"); ("kwargs", ToInit "kwargs"); ("postargs", ToInit "postargs");
   ("pool", ToInit "pool"); ("live_dangerously", ToInit "live_dangerously"); ("runtime_sortingfn", ToInit "runtime_sortingfn");
   ("lnprob0", ToSample "lnprob0"); ("rstate0", ToSample "rstate0"); ("blobs0", ToSample "blobs0"); ("iterations", ToSample "iterations");
   ("thin", ToSample "thin"); ("storechain", ToSample "storechain"); ("mh_proposal", ToSample "mh_proposal")].
Definition target (g : goes) : list string := match g with ToInit n | ToSample n => [n] | Nowhere => [] end.
Definition to_init (t : list (string * goes)) : list string := flat_map (fun r => match snd r with ToInit n => [n] | _ => [] end) t.
Definition to_sample (t : list (string * goes)) : list string := flat_map (fun r => match snd r with ToSample n => [n] | _ => [] end) t.

Ltac table := intros r Hr; cbn in Hr; repeat (destruct Hr as [<- | Hr]; [reflexivity|]); contradiction.
Ltac namesof := intro k; cbn; tauto.
(** Every argument of emcee reaches exactly one of the constructor and sample(), with its value and
    under the name that version uses; with a new emcee mh_proposal alone is dropped. *)
Theorem C221_emcee (kw : dict V) new pos0 logp dim : dkeys kw = emcee_keys ->
  exists f i, emcee_function new kw pos0 = Some f /\ emcee_init new kw pos0 logp dim = Some i /\
  (forall r, In r (if new then emcee_new else emcee_old) -> delivered kw i f r) /\
  same_names f ((if new then "initial_state" else "p0") :: to_sample (if new then emcee_new else emcee_old)) /\
  same_names i ((if new then ["ndim"; "log_prob_fn"] else ["dim"; "lnpostfn"]) ++ to_init (if new then emcee_new else emcee_old)) /\
  dget f (if new then "initial_state" else "p0") = Some pos0 /\ dget i (if new then "ndim" else "dim") = Some dim /\
  dget i (if new then "log_prob_fn" else "lnpostfn") = Some logp.
Proof.
  intro H. spelled kw H. destruct new.
  - eexists. eexists. split; [reflexivity|]. split; [reflexivity|]. split; [table|]. split; [namesof|]. split; [namesof|]. repeat split.
  - eexists. eexists. split; [reflexivity|]. split; [reflexivity|]. split; [table|]. split; [namesof|]. split; [namesof|]. repeat split.
Qed.
Definition zeus_table : list (string * goes) :=
  [("nwalkers", ToInit "nwalkers"); ("args", ToInit "args"); ("kwargs", ToInit "kwargs"); ("pool", ToInit "pool");
   ("log_prob0", ToSample "log_prob0"); ("start", Nowhere); ("blobs0", ToSample "blobs0"); ("iterations", Nowhere); ("thin", ToSample "thin")].
(** zeus likewise, the iterations apart; but start, and rstate0 which bilby takes for it, is always
    replaced by the walkers' positions. *)
Theorem C221_zeus (kw : dict V) pos0 logp dim : dkeys kw = zeus_keys ->
  exists f, zeus_sample kw pos0 = Some f /\ dget (zeus_function kw) "iterations" = dget kw "iterations" /\
  (forall r, In r zeus_table -> delivered kw (zeus_init kw logp dim) f r) /\ same_names f ("start" :: to_sample zeus_table) /\
  same_names (zeus_init kw logp dim) ("logprob_fn" :: "ndim" :: to_init zeus_table) /\ dget f "start" = Some pos0.
Proof.
  intro H. spelled kw H. eexists. split; [reflexivity|]. split; [reflexivity|]. split; [table|]. split; [namesof|]. split; [namesof|]. reflexivity.
Qed.
Definition kombine_table : list (string * goes) :=
  [("nwalkers", ToInit "nwalkers"); ("args", ToInit "args"); ("pool", ToInit "pool"); ("transd", ToInit "transd"); ("processes", ToInit "processes");
   ("lnpost0", ToSample "lnpost0"); ("blob0", ToSample "blob0"); ("iterations", ToSample "iterations"); ("storechain", ToSample "storechain");
   ("update_interval", ToSample "update_interval"); ("kde", ToSample "kde"); ("kde_size", ToSample "kde_size"); ("spaces", ToSample "spaces");
   ("freeze_transd", ToSample "freeze_transd")].
Definition kombine_burn_table : list (string * goes) :=
  [("lnpost0", ToSample "lnpost0"); ("blob0", ToSample "blob0"); ("storechain", ToSample "storechain"); ("update_interval", ToSample "update_interval");
   ("kde", ToSample "kde"); ("kde_size", ToSample "kde_size"); ("test_steps", ToSample "test_steps"); ("critical_pval", ToSample "critical_pval");
   ("max_steps", ToSample "max_steps"); ("burnin_verbose", ToSample "verbose")].
(** kombine: constructor, sample() and burnin(). *)
Theorem C221_kombine (kw : dict V) pos0 logp dim : dkeys kw = kombine_keys ->
  exists i, kombine_init kw pos0 logp dim = Some i /\
  (forall r, In r kombine_table -> delivered kw i (kombine_function kw pos0) r) /\
  (forall r, In r kombine_burn_table -> delivered kw i (kombine_burnin kw pos0) r) /\
  same_names i ("lnpostfn" :: "ndim" :: to_init kombine_table) /\ same_names (kombine_function kw pos0) ("p0" :: to_sample kombine_table) /\
  same_names (kombine_burnin kw pos0) ("p0" :: to_sample kombine_burn_table) /\
  dget (kombine_function kw pos0) "p0" = Some pos0 /\ dget (kombine_burnin kw pos0) "p0" = Some pos0.
Proof.
  intro H. spelled kw H. eexists. split; [reflexivity|]. split; [table|]. split; [table|]. split; [namesof|]. split; [namesof|]. split; [namesof|]. split; reflexivity.
Qed.
Lemma rules_disjoint : disjoint_rules emcee_rules /\ disjoint_rules zeus_rules.
Proof.
  split; (split; [intros r Hr; cbn in Hr; repeat (destruct Hr as [<- | Hr]; [cbn; repeat (constructor; [cbn; intuition discriminate|]); constructor|]); contradiction|]).
  - repeat (constructor; [repeat (constructor; [intros x H1 H2; cbn in H1, H2; intuition (subst; discriminate)|]); constructor|]). constructor.
  - repeat (constructor; [repeat (constructor; [intros x H1 H2; cbn in H1, H2; intuition (subst; discriminate)|]); constructor|]). constructor.
Qed.
(** From the user's dictionary: the number of walkers of emcee is what is given as nwalkers, else
    under the last of nwalker, draws and Niter, else the default; the iterations what is given as
    iterations, else as nsteps; an argument emcee does not know is dropped. *)
Theorem C221_user (defaults user : dict V) pos0 logp dim new : wf defaults -> wf user -> dkeys defaults = emcee_keys ->
  exists f i, let kw := set_kwargs defaults emcee_rules user in
  emcee_function new kw pos0 = Some f /\ emcee_init new kw pos0 logp dim = Some i /\
  (forall v, dget user "nwalkers" = Some v -> dget i "nwalkers" = Some v) /\
  (forall v, dget user "nwalkers" = None -> dget user "Niter" = Some v -> dget i "nwalkers" = Some v) /\
  (forall v, dget user "nwalkers" = None -> dget user "Niter" = None -> dget user "draws" = Some v -> dget i "nwalkers" = Some v) /\
  (forall v, dget user "iterations" = Some v -> dget f "iterations" = Some v) /\
  (forall v, dget user "iterations" = None -> dget user "nsteps" = Some v -> dget f "iterations" = Some v) /\
  (forall k v, In k ["a"; "args"; "kwargs"; "pool"] -> dget user k = Some v -> dget i k = Some v) /\
  (forall k, ~ In k ("initial_state" :: "p0" :: to_sample emcee_new ++ to_sample emcee_old) -> dget f k = None).
Proof.
  intros Wd Wu K. set (kw := set_kwargs defaults emcee_rules user).
  assert (Kw : dkeys kw = emcee_keys) by (unfold kw; rewrite C53_known_names; assumption).
  destruct (C221_emcee kw new pos0 logp dim Kw) as (f & i & Ef & Ei & D & Nf & Ni & _). exists f, i. cbv zeta.
  split; [exact Ef|]. split; [exact Ei|].
  assert (DW : dget i "nwalkers" = dget kw "nwalkers") by (exact (D ("nwalkers", ToInit "nwalkers") ltac:(destruct new; cbn; tauto))).
  assert (DI : dget f "iterations" = dget kw "iterations") by (exact (D ("iterations", ToSample "iterations") ltac:(destruct new; cbn; tauto))).
  destruct rules_disjoint as [Dj _].
  destruct (C53_alias defaults emcee_rules user "nwalkers" nwalkers_equiv Wd Wu Dj ltac:(cbn; tauto) ltac:(rewrite K; cbn; tauto)) as (o & C1 & C2). fold kw in C2.
  destruct (C53_alias defaults emcee_rules user "iterations" ["nsteps"] Wd Wu Dj ltac:(cbn; tauto) ltac:(rewrite K; cbn; tauto)) as (o' & C3 & C4). fold kw in C4.
  assert (AL : forall v, dget user "nwalkers" = None -> (dget user "Niter" = Some v \/ (dget user "Niter" = None /\ dget user "draws" = Some v)) -> o = Some v).
  { intros v H0 H1. inversion C1 as [w E | A1 a A2 w E1 E2 E3 E4 | E1 E2]; subst o.
    - congruence.
    - unfold nwalkers_equiv in E2. destruct A1 as [|x1 [|x2 [|x3 [|x4 A1]]]]; cbn in E2; injection E2 as ?; subst; try (destruct A1; discriminate).
      + exfalso. destruct H1 as [H1 | [_ H1]]; [specialize (E4 "Niter" ltac:(cbn; tauto)) | specialize (E4 "draws" ltac:(cbn; tauto))]; congruence.
      + congruence.
      + destruct H1 as [H1 | [_ H1]]; [specialize (E4 "Niter" ltac:(cbn; tauto)); congruence | congruence].
      + destruct H1 as [H1 | [H1 _]]; congruence.
    - exfalso. destruct H1 as [H1 | [_ H1]]; [specialize (E2 "Niter" ltac:(cbn; tauto)) | specialize (E2 "draws" ltac:(cbn; tauto))]; congruence. }
  split; [|split; [|split; [|split; [|split; [|split]]]]].
  - intros v Hv. rewrite DW, C2. inversion C1 as [w E | A1 a A2 w E1 E2 E3 E4 | E1 E2]; subst o; congruence.
  - intros v H0 H1. rewrite DW, C2, (AL v H0 (or_introl H1)). reflexivity.
  - intros v H0 H1 H2. rewrite DW, C2, (AL v H0 (or_intror (conj H1 H2))). reflexivity.
  - intros v Hv. rewrite DI, C4. inversion C3 as [w E | A1 a A2 w E1 E2 E3 E4 | E1 E2]; subst o'; congruence.
  - intros v H0 H1. rewrite DI, C4. inversion C3 as [w E | A1 a A2 w E1 E2 E3 E4 | E1 E2]; subst o'; [congruence | | specialize (E2 "nsteps" ltac:(cbn; tauto)); congruence].
    destruct A1 as [|x1 A1]; cbn in E2; [|destruct A1; discriminate]. injection E2 as <- <-. congruence.
  - intros k v Hk Hv. assert (Dk : dget i k = dget kw k).
    { apply (D (k, ToInit k)). cbn in Hk. destruct Hk as [<- | [<- | [<- | [<- | []]]]]; destruct new; cbn; tauto. }
    rewrite Dk. unfold kw. rewrite C53_plain; try assumption.
    + rewrite Hv. reflexivity.
    + rewrite K. cbn in Hk |- *. destruct Hk as [<- | [<- | [<- | [<- | []]]]]; tauto.
    + intros r Hr. cbn in Hk, Hr |- *. destruct Hr as [<- | [<- | []]], Hk as [<- | [<- | [<- | [<- | []]]]]; cbn; intuition discriminate.
  - intros k Hk. apply dget_none. intro X. apply Nf in X. apply Hk. destruct new; cbn in X |- *; tauto.
Qed.
End Args.

(** ** Burn-in *)
Open Scope Z_scope.
(** A python number of burn-in steps from 0 on is accepted exactly if at least one step is left; after a
    complete run just those steps are dropped and the others of every walker kept. *)
Theorem C221_burn_in n more iterations fr tau : 0 <= n ->
  (burn_accepted (BFloat n more) iterations = true <-> (if more then n + 1 < iterations else n < iterations)) /\
  burn_accepted (BInt n) iterations = burn_accepted (BFloat n false) iterations /\
  (burn_accepted (BFloat n more) iterations = true ->
   result_steps iterations iterations (nburn (BFloat n more) fr tau) = Some (iterations - n) /\ 1 <= iterations - n).
Proof.
  intro Hn. split; [|split; [reflexivity|]].
  - unfold burn_accepted, too_long. destruct more; [destruct (Z.leb_spec (iterations - 1) n) | destruct (Z.ltb_spec (iterations - 1) n)]; cbn; split; intro; try discriminate; try lia; reflexivity.
  - unfold burn_accepted, too_long, result_steps, nburn, kept. intro H.
    assert (n < iterations).
    { destruct more; [destruct (Z.leb_spec (iterations - 1) n) | destruct (Z.ltb_spec (iterations - 1) n)]; cbn in H; try discriminate; lia. }
    destruct (Z.ltb_spec iterations n); [lia|]. destruct (Z.ltb_spec n 0); [lia|]. split; [f_equal; lia | lia].
Qed.
(** A negative number is accepted too and keeps only that many steps, the last ones. *)
Theorem C221_negative_refuted n iterations fr tau : n < 0 -> - n <= iterations ->
  burn_accepted (BInt n) iterations = true /\ result_steps iterations iterations (nburn (BInt n) fr tau) = Some (- n).
Proof.
  intros Hn Hi. unfold burn_accepted, too_long, result_steps, nburn, kept. destruct (Z.ltb_spec (iterations - 1) n); [lia|].
  destruct (Z.ltb_spec iterations n); [lia|]. destruct (Z.ltb_spec n 0); [|lia]. split; [reflexivity | f_equal; lia].
Qed.
(** A number of numpy's types is not used, whatever it is: the estimate is. *)
Theorem C221_numpy_refuted n m more fr tau : nburn (BNumpyInt n) fr tau = nburn BNone fr tau /\ nburn (BNumpyFloat m more) fr tau = nburn BNone fr tau /\
  forall iterations, burn_accepted (BNumpyInt n) iterations = true.
Proof. repeat split. Qed.
(** An estimate raises an error exactly if it exceeds the number of steps; if it equals it the result
    is empty. *)
Theorem C221_estimate fr tau iterations : 0 <= nburn BNone fr tau ->
  (result_steps iterations iterations (nburn BNone fr tau) = None <-> iterations < nburn BNone fr tau) /\
  (forall k, result_steps iterations iterations (nburn BNone fr tau) = Some k -> k = iterations - nburn BNone fr tau /\ 0 <= k).
Proof.
  intro H. unfold result_steps, kept. set (b := nburn BNone fr tau) in *. clearbody b.
  destruct (Z.ltb_spec iterations b); (split; [split; intro; try discriminate; try lia; auto|]); intros k E; [discriminate|].
  injection E as <-. destruct (Z.ltb_spec b 0); lia.
Qed.
Theorem C221_empty_refuted fr iterations : 0 <= iterations -> result_steps iterations iterations (nburn BNone fr (Some iterations)) = Some 0.
Proof. intro H. unfold result_steps, nburn, kept. destruct (Z.ltb_spec iterations iterations); [lia|]. destruct (Z.ltb_spec iterations 0); [lia|]. f_equal. lia. Qed.

(** ** Steps *)
(** However often a run is interrupted and resumed the chain has the requested number of steps. *)
Theorem C221_resumed iterations cuts : 0 <= iterations -> resumed iterations 0 cuts = iterations.
Proof.
  intro H. assert (G : forall done, 0 <= done <= iterations -> resumed iterations done cuts = iterations).
  { induction cuts as [|c cuts IH]; intros done Hd; cbn [resumed]; unfold after_loop; [lia|]. apply IH. lia. }
  apply G. lia.
Qed.
(** kombine's own burn-in, however long, is added to the run and dropped again: every walker keeps
    the requested iterations. *)
Theorem C221_auto_burnin iterations p b fr tau : 0 <= p -> 1 <= iterations ->
  let '(iterations', b', previous) := auto_burnin true false iterations p b in
  burn_accepted b' iterations' = true /\ after_loop iterations' previous = iterations + p /\
  result_steps iterations' (after_loop iterations' previous) (nburn b' fr tau) = Some iterations.
Proof.
  intros Hp Hi. cbn. unfold too_long. destruct (Z.ltb_spec (iterations + p - 1) p); [lia|]. split; [reflexivity|]. unfold after_loop.
  split; [lia|]. unfold result_steps, kept. destruct (Z.ltb_spec (iterations + p) p); [lia|]. destruct (Z.ltb_spec p 0); [lia|]. f_equal. lia.
Qed.
(** Not if it is resumed from a checkpoint: the steps of the burn-in then count as iterations and
    a quarter of all is dropped, so fewer are kept, and burn-in steps may be among them. *)
Theorem C221_auto_burnin_resumed_refuted iterations p : 4 <= iterations -> 0 <= p <= iterations ->
  let '(iterations', b', _) := auto_burnin true true iterations p BNone in
  exists k, result_steps iterations' (after_loop iterations' p) (nburn b' (iterations / 4) None) = Some k /\ k < iterations /\
  (iterations / 4 < p -> nburn b' (iterations / 4) None < p).
Proof.
  intros Hi Hp. cbn. assert (1 <= iterations / 4) by (apply Z.div_le_lower_bound; lia). assert (iterations / 4 < iterations) by (apply Z.div_lt; lia).
  unfold result_steps, after_loop, kept. destruct (Z.ltb_spec iterations (iterations / 4)); [lia|]. destruct (Z.ltb_spec (iterations / 4) 0); [lia|].
  eexists. split; [reflexivity|]. lia.
Qed.
(** kombine: as many iterations as walkers are enough, although the message asks for more. *)
Theorem C221_kombine_walkers n i : kombine_allowed n i = true <-> n <= i.
Proof. unfold kombine_allowed. destruct (Z.ltb_spec i n); cbn; split; intro; try discriminate; try lia; reflexivity. Qed.
Example C221_example : burn_accepted (BInt 100) 500 = true /\ result_steps 500 500 (nburn (BInt 100) 125 (Some 90)) = Some 400 /\
  result_steps 500 500 (nburn (BNumpyInt 100) 125 (Some 90)) = Some 410 /\ resumed 500 0 [120; 0; 200] = 500.
Proof. repeat split. Qed.

(** ** Assumptions of every theorem above *)
Definition EnsKw_Props_all :=
  (@C221_emcee,
   @C221_zeus,
   @C221_kombine,
   @C221_user,
   @C221_burn_in,
   @C221_negative_refuted,
   @C221_numpy_refuted,
   @C221_estimate,
   @C221_empty_refuted,
   @C221_resumed,
   @C221_auto_burnin,
   @C221_auto_burnin_resumed_refuted,
   @C221_kombine_walkers).
Print Assumptions EnsKw_Props_all.
