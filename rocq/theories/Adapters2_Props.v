(** * Properties of run directories and of the names given to samplers (C177, C178) *)
From Coq Require Import String Reals List Bool Arith Lra Lia ZArith.
From Verif Require Import PyReal PyDict Adapters_Model.
Import ListNotations.
Open Scope R_scope. Open Scope list_scope.

(** ** C177: temporary directories *)
Lemma copytree_get (s : dir) : forall d f, wf s ->
  dget (copytree s d) f = match dget s f with Some c => Some c | None => dget d f end.
Proof.
  unfold copytree. induction s as [|[k c] s IH]; intros d f W; [reflexivity|]. cbn [fold_left fst snd].
  inversion W as [|k' l' Nk Ws]; subst. cbn [map fst] in Nk. rewrite (IH _ _ Ws). cbn [dget].
  destruct (String.eqb_spec f k) as [E|N].
  - subst f. assert (E : dget s k = None) by (apply dget_none; exact Nk). rewrite E. apply dget_set_eq.
  - rewrite dget_set_ne by congruence. reflexivity.
Qed.
Lemma copytree_wf (s : dir) : forall d, wf d -> wf (copytree s d).
Proof. unfold copytree. induction s as [|[k c] s IH]; intros d W; [exact W|]. cbn [fold_left]. apply IH. apply wf_set. exact W. Qed.
Definition start_dir (o : option dir) : dir := match o with Some d => d | None => [] end.
Lemma setup_tmp o t0 : wf (start_dir o) ->
  exists t, setup true o t0 = mkP true (start_dir o) (Some t) (load_time (start_dir o)) t0 /\ wf t /\
    forall f, dget t f = dget (start_dir o) f.
Proof.
  intros W. unfold setup. fold (start_dir o). set (d := start_dir o) in *.
  assert (G : forall f, dget (copytree d (copytree d [])) f = dget d f).
  { intros f. rewrite copytree_get by exact W. rewrite copytree_get by exact W. destruct (dget d f); reflexivity. }
  exists (copytree d (copytree d [])). split; [|split; [apply copytree_wf; apply copytree_wf; constructor|exact G]].
  unfold load_time. rewrite G. reflexivity.
Qed.
(** One file operation or callback of the sampler, none of them touching the time file itself. *)
Definition plain (o : op) : Prop := match o with Write f _ | Delete f => f <> time_file | _ => True end.
Definition keeps (o : op) : Prop := match o with Delete _ => False | _ => True end.
(** The run with and the run without a temporary directory, side by side. *)
Record alike (p q : proc) : Prop := {
  a_tmp : use_tmp p = true; a_no : use_tmp q = false;
  a_dir : exists t, tmp p = Some t /\ wf t /\ (forall f, f <> time_file -> dget t f = dget (out q) f) /\
          (forall f, f <> time_file -> dget t f = None -> dget (out p) f = None);
  a_out : wf (out p); a_outq : wf (out q);
  a_time : total p - start p = total q - start q }.
Lemma alike_setup o t0 : wf (start_dir o) -> alike (setup true o t0) (setup false o t0).
Proof.
  intros W. destruct (setup_tmp o t0 W) as (t & E & Wt & Gt). rewrite E. unfold setup. fold (start_dir o).
  constructor; cbn; try reflexivity; try exact W. exists t. split; [reflexivity|]. split; [exact Wt|]. split; intros f; intros.
  - apply Gt.
  - rewrite <- Gt. assumption.
Qed.
Lemma alike_save p q now : alike p q -> exists p' q', save_time now p = Some p' /\ save_time now q = Some q' /\ alike p' q' /\
  total p' = total q' /\ start p' = now /\ start q' = now /\
  (exists t, tmp p' = Some t /\ dget t time_file = Some (Seconds (total p'))) /\ dget (out q') time_file = Some (Seconds (total q')).
Proof.
  intros [Tp Tq (t & Et & Wt & G1 & G2) Wo Wq Tm]. unfold save_time, work, set_work. rewrite Tp, Tq, Et.
  eexists _, _. split; [reflexivity|]. split; [reflexivity|]. cbn [use_tmp out tmp total start].
  assert (Eq : total p + (now - start p) = total q + (now - start q)) by lra.
  repeat apply conj.
  - constructor; cbn [use_tmp out tmp total start]; try reflexivity; try assumption.
    + eexists. split; [reflexivity|]. split; [apply wf_set; exact Wt|]. split; intros f Nf.
      * rewrite !dget_set_ne by congruence. apply G1. exact Nf.
      * rewrite dget_set_ne by congruence. apply G2. exact Nf.
    + apply wf_set. exact Wq.
    + lra.
  - exact Eq.
  - reflexivity.
  - reflexivity.
  - eexists. split; [reflexivity|]. apply dget_set_eq.
  - apply dget_set_eq.
Qed.
Lemma alike_copy p q : alike p q -> exists p', copy_back p = Some p' /\ alike p' q.
Proof.
  intros [Tp Tq (t & Et & Wt & G1 & G2) Wo Wq Tm]. unfold copy_back. rewrite Et. eexists. split; [reflexivity|].
  constructor; cbn [use_tmp out tmp total start]; try assumption.
  - exists t. split; [reflexivity|]. split; [exact Wt|]. split; [exact G1|]. intros f Nf Hn.
    rewrite copytree_get, Hn by exact Wt. apply G2; assumption.
  - apply copytree_wf. exact Wo.
Qed.
Lemma alike_step p q o : alike p q -> plain o -> keeps o ->
  exists p' q', step p o = Some p' /\ step q o = Some q' /\ alike p' q'.
Proof.
  intros A Pl Ke. destruct o as [f n|f|t|due t]; cbn [step plain keeps] in *; [| |  |].
  - destruct A as [Tp Tq (t & Et & Wt & G1 & G2) Wo Wq Tm]. unfold write_file, work, set_work. rewrite Tp, Tq, Et.
    eexists _, _. split; [reflexivity|]. split; [reflexivity|].
    constructor; cbn [use_tmp out tmp total start]; try assumption; try reflexivity.
    + eexists. split; [reflexivity|]. split; [apply wf_set; exact Wt|]. split; intros g Ng.
      * destruct (string_dec g f) as [->|Nf]; [rewrite !dget_set_eq; reflexivity|].
        rewrite !dget_set_ne by congruence. apply G1. exact Ng.
      * destruct (string_dec g f) as [->|Nf]; [rewrite dget_set_eq; discriminate|].
        rewrite dget_set_ne by congruence. apply G2. exact Ng.
    + apply wf_set. exact Wq.
  - destruct Ke.
  - unfold dump_callback. rewrite (a_tmp _ _ A), (a_no _ _ A).
    destruct (alike_copy p q A) as (p1 & E1 & A1). rewrite E1.
    destruct (alike_save p1 q t A1) as (p' & q' & Ep & Eq & A' & _). exists p', q'. auto.
  - unfold viz_callback. rewrite (a_tmp _ _ A), (a_no _ _ A). destruct due; [|exists p, q; auto].
    destruct (alike_save p q t A) as (p' & q' & Ep & Eq & A' & T1 & T2 & T3 & _). exists p', q. split; [exact Ep|]. split; [reflexivity|].
    destruct A' as [Tp Tq (t' & Et & Wt & G1 & G2) Wo Wq Tm]. destruct A as [_ Tq0 _ _ Wq0 Tm0].
    unfold save_time, work, set_work in Eq. rewrite Tq0 in Eq. apply some_inj in Eq.
    assert (Oq : out q' = dset (out q) time_file (Seconds (total q + (t - start q)))) by (rewrite <- Eq; reflexivity).
    assert (Sq : total q' = total q + (t - start q)) by (rewrite <- Eq; reflexivity).
    constructor; try assumption.
    + exists t'. split; [exact Et|]. split; [exact Wt|]. split; [|exact G2]. intros f Nf. rewrite (G1 f Nf), Oq. apply dget_set_ne. congruence.
    + lra.
Qed.
Lemma alike_steps ops : forall p q, alike p q -> Forall plain ops -> Forall keeps ops ->
  exists p' q', steps p ops = Some p' /\ steps q ops = Some q' /\ alike p' q'.
Proof.
  induction ops as [|o ops IH]; intros p q A Pl Ke; [exists p, q; auto|]. inversion Pl; inversion Ke; subst. cbn [steps].
  destruct (alike_step p q o A) as (p1 & q1 & -> & -> & A1); try assumption. apply IH; assumption.
Qed.
(** A run whose sampler deletes no file leaves the same output directory whether or not it worked in a
    temporary directory, and never fails. *)
Theorem C177_same o t0 ops t1 : wf (start_dir o) -> Forall plain ops -> Forall keeps ops ->
  exists d d', whole true o t0 ops t1 = Some d /\ whole false o t0 ops t1 = Some d' /\ forall f, dget d f = dget d' f.
Proof.
  intros W Pl Ke. unfold whole. destruct (alike_steps ops _ _ (alike_setup o t0 W) Pl Ke) as (p & q & -> & -> & A).
  unfold finish. destruct (alike_save p q t1 A) as (p' & q' & -> & -> & A' & Te & _ & _ & (t & Et & Ft) & Fq).
  rewrite (a_tmp _ _ A'), (a_no _ _ A'). unfold move_back, copy_back. rewrite Et.
  eexists _, _. split; [reflexivity|]. split; [reflexivity|]. intros f. cbn [out].
  destruct A' as [_ _ (t' & Et' & Wt & G1 & G2) _ _ _]. assert (t' = t) by congruence. subst t'.
  rewrite copytree_get by exact Wt. destruct (string_dec f time_file) as [->|Nf].
  - rewrite Ft, Fq, Te. reflexivity.
  - rewrite (G1 f Nf). destruct (dget (out q') f) eqn:Ef; [reflexivity|]. apply G2; [exact Nf|]. rewrite (G1 f Nf). exact Ef.
Qed.
(** With deletions it need not: files the sampler removed in the temporary directory stay in the output
    directory, although "anything in the proper path at this point is removed". *)
Theorem C177_delete_refuted : exists o ops d d' f,
  Forall plain ops /\ whole true (Some o) 0 ops 1 = Some d /\ whole false (Some o) 0 ops 1 = Some d' /\
  dget d f <> None /\ dget d' f = None.
Proof.
  exists [("live.dat"%string, Data 7)], [Delete "live.dat"]. eexists _, _, "live.dat"%string.
  split; [repeat constructor; intros E; discriminate E|]. split; [reflexivity|]. split; [reflexivity|].
  split; [cbv; discriminate|reflexivity].
Qed.
(** What it does then: a file of the output directory is never lost, and one that survives in the temporary
    directory has its last content. *)
Definition file_ops (ops : list op) : Prop := Forall (fun o => match o with Write _ _ | Delete _ => True | _ => False end) ops.
Definition no_dump (o : op) : Prop := match o with Dump _ => False | _ => True end.
(** The ground truth for the working directory: the last operation on the file decides. *)
Fixpoint last_op (f : string) (ops : list op) (c : option content) : option content :=
  match ops with
  | [] => c
  | Write g n :: ops => last_op f ops (if string_dec g f then Some (Data n) else c)
  | Delete g :: ops => last_op f ops (if string_dec g f then None else c)
  | _ :: ops => last_op f ops c
  end.
Lemma save_tmp p t now : use_tmp p = true -> tmp p = Some t ->
  save_time now p = Some (mkP true (out p) (Some (dset t time_file (Seconds (total p + (now - start p))))) (total p + (now - start p)) now).
Proof. intros U T. unfold save_time, work, set_work. rewrite U, T. reflexivity. Qed.
Lemma step_tmp p t o : use_tmp p = true -> tmp p = Some t -> wf t -> wf (out p) -> plain o ->
  exists p' t', step p o = Some p' /\ use_tmp p' = true /\ tmp p' = Some t' /\ wf t' /\ wf (out p') /\
    total p' - start p' = total p - start p /\
    (forall f, f <> time_file -> dget t' f = last_op f [o] (dget t f)) /\
    out p' = match o with Dump _ => copytree t (out p) | _ => out p end /\
    dget t' time_file = match o with Dump n | Viz true n => Some (Seconds (total p + (n - start p))) | _ => dget t time_file end.
Proof.
  intros U T Wt Wo Pl. destruct o as [f n|f|now|due now]; cbn [step plain] in *.
  - unfold write_file, work, set_work. rewrite U, T. eexists _, _. cbn. repeat (split; [first [reflexivity|apply wf_set; exact Wt|exact Wo]|]).
    split; [|split; [reflexivity|apply dget_set_ne; congruence]].
    intros g _. destruct (string_dec f g) as [->|N]; [apply dget_set_eq|apply dget_set_ne; congruence].
  - unfold delete_file, work, set_work. rewrite U, T. eexists _, _. cbn. repeat (split; [first [reflexivity|apply wf_del; exact Wt|exact Wo]|]).
    split; [|split; [reflexivity|apply dget_del_ne; congruence]].
    intros g _. destruct (string_dec f g) as [->|N]; [apply dget_del_eq; exact Wt|apply dget_del_ne; congruence].
  - unfold dump_callback, copy_back. rewrite U, T.
    rewrite (save_tmp (mkP true (copytree t (out p)) (Some t) (total p) (start p)) t now eq_refl eq_refl). cbn [out total start].
    eexists _, _. split; [reflexivity|]. cbn. split; [reflexivity|]. split; [reflexivity|]. split; [apply wf_set; exact Wt|].
    split; [apply copytree_wf; exact Wo|]. split; [lra|]. split; [intros g Ng; apply dget_set_ne; congruence|].
    split; [reflexivity|apply dget_set_eq].
  - unfold viz_callback. rewrite U. destruct due.
    + rewrite (save_tmp p t now U T). eexists _, _. split; [reflexivity|]. cbn. split; [reflexivity|]. split; [reflexivity|].
      split; [apply wf_set; exact Wt|]. split; [exact Wo|]. split; [lra|]. split; [intros g Ng; apply dget_set_ne; congruence|].
      split; [reflexivity|apply dget_set_eq].
    + exists p, t. repeat apply conj; try reflexivity; assumption.
Qed.
Lemma last_op_app f a b c : last_op f (a ++ b) c = last_op f b (last_op f a c).
Proof. revert c. induction a as [|o a IH]; intros c; [reflexivity|]. destruct o; cbn; apply IH. Qed.
Lemma steps_tmp ops : forall p t, use_tmp p = true -> tmp p = Some t -> wf t -> wf (out p) -> Forall plain ops ->
  exists p' t', steps p ops = Some p' /\ use_tmp p' = true /\ tmp p' = Some t' /\ wf t' /\ wf (out p') /\
    total p' - start p' = total p - start p /\
    (forall f, f <> time_file -> dget t' f = last_op f ops (dget t f)) /\
    (Forall no_dump ops -> out p' = out p).
Proof.
  induction ops as [|o ops IH]; intros p t U T Wt Wo Pl; [exists p, t; repeat apply conj; try reflexivity; assumption|].
  inversion Pl; subst. destruct (step_tmp p t o U T Wt Wo) as (p1 & t1 & E1 & U1 & T1 & W1 & O1 & S1 & G1 & D1 & _); [assumption|].
  destruct (IH p1 t1 U1 T1 W1 O1) as (p' & t' & E' & U' & T' & W' & O' & S' & G' & D'); [assumption|].
  exists p', t'. cbn [steps]. rewrite E1. repeat (split; [first [assumption|reflexivity]|]). split; [lra|]. split.
  - intros f Nf. rewrite (G' f Nf), (G1 f Nf). symmetry. apply (last_op_app f [o] ops).
  - intros Nd. inversion Nd as [|? ? N1 N2]; subst. rewrite (D' N2), D1. destruct o; try reflexivity. destruct N1.
Qed.
Lemma steps_app p a b : steps p (a ++ b) = match steps p a with Some p => steps p b | None => None end.
Proof. revert p. induction a as [|o a IH]; intros p; [reflexivity|]. cbn [app steps]. destruct (step p o); [apply IH|reflexivity]. Qed.
Theorem C177_delete o t0 ops t1 : wf (start_dir o) -> Forall plain ops ->
  exists d, whole true o t0 ops t1 = Some d /\
    (forall f c, f <> time_file -> last_op f ops (dget (start_dir o) f) = Some c -> dget d f = Some c) /\
    (forall f, dget (start_dir o) f <> None -> dget d f <> None).
Proof.
  intros W Pl. destruct (setup_tmp o t0 W) as (t & Es & Wt & Gt). unfold whole. rewrite Es.
  set (p0 := mkP true (start_dir o) (Some t) (load_time (start_dir o)) t0).
  destruct (steps_tmp ops p0 t eq_refl eq_refl Wt W Pl) as (p & tp & Ep & U & T & Wp & Wo & _ & G & _). rewrite Ep.
  assert (Mono : forall ops p p', Forall plain ops -> use_tmp p = true -> (exists t, tmp p = Some t /\ wf t) -> wf (out p) -> steps p ops = Some p' ->
            forall f, dget (out p) f <> None -> dget (out p') f <> None).
  { clear. induction ops as [|o ops IH]; intros p p' Pl U (t & T & Wt) Wo E f Hf; cbn [steps] in E; [assert (p = p') by congruence; subst; exact Hf|].
    inversion Pl; subst. destruct (step_tmp p t o U T Wt Wo) as (p1 & t1 & E1 & U1 & T1 & W1 & O1 & _ & _ & D1 & _); [assumption|].
    rewrite E1 in E. apply (IH p1 p'); try assumption; [exists t1; auto|]. rewrite D1. destruct o; try exact Hf.
    rewrite copytree_get by exact Wt. destruct (dget t f); [discriminate|exact Hf]. }
  unfold finish. rewrite (save_tmp p tp t1 U T). cbn [use_tmp]. unfold move_back, copy_back. cbn [tmp out].
  eexists. split; [reflexivity|]. cbn [out]. set (tt := dset tp time_file _).
  assert (Wtt : wf tt) by (apply wf_set; exact Wp). split.
  - intros f c Nf E. rewrite copytree_get by exact Wtt. unfold tt. rewrite dget_set_ne by congruence. rewrite (G f Nf), Gt, E. reflexivity.
  - intros f Hf. rewrite copytree_get by exact Wtt. destruct (dget tt f); [discriminate|].
    apply (Mono ops p0 p); try assumption; [reflexivity|exists t; split; [reflexivity|exact Wt]].
Qed.
(** Sampling time: over any number of processes on the same output directory, with or without temporary
    directories, whatever the callbacks, the recorded time is the sum of their durations. *)
Lemma steps_plain tmpdir ops : forall p, (tmpdir = true -> use_tmp p = true /\ exists t, tmp p = Some t /\ wf t) ->
  (tmpdir = false -> use_tmp p = false) -> wf (out p) -> Forall plain ops ->
  exists p', steps p ops = Some p' /\ (tmpdir = true -> use_tmp p' = true /\ exists t, tmp p' = Some t /\ wf t) /\
    (tmpdir = false -> use_tmp p' = false) /\ wf (out p') /\ total p' - start p' = total p - start p.
Proof.
  destruct tmpdir.
  - intros p H _ Wo Pl. destruct (H eq_refl) as [U (t & T & Wt)].
    destruct (steps_tmp ops p t U T Wt Wo Pl) as (p' & t' & E & U' & T' & W' & O' & S' & _).
    exists p'. split; [exact E|]. split; [intros _; split; [exact U'|exists t'; auto]|]. split; [discriminate|]. auto.
  - induction ops as [|o ops IH]; intros p _ H Wo Pl; specialize (H eq_refl); [exists p; repeat split; auto; discriminate|].
    inversion Pl; subst. cbn [steps].
    assert (exists p1, step p o = Some p1 /\ use_tmp p1 = false /\ wf (out p1) /\ total p1 - start p1 = total p - start p) as (p1 & -> & U1 & W1 & S1).
    { destruct o as [f n|f|now|due now]; cbn [step]; unfold write_file, delete_file, dump_callback, viz_callback, save_time, work, set_work; rewrite ?H.
      - eexists. split; [reflexivity|]. cbn. split; [reflexivity|]. split; [apply wf_set; exact Wo|reflexivity].
      - eexists. split; [reflexivity|]. cbn. split; [reflexivity|]. split; [apply wf_del; exact Wo|reflexivity].
      - eexists. split; [reflexivity|]. cbn. split; [reflexivity|]. split; [apply wf_set; exact Wo|lra].
      - exists p. auto. }
    destruct (IH p1) as (p' & E & A1 & A2 & A3 & A4); try assumption; try discriminate; [intros _; exact U1|].
    exists p'. split; [exact E|]. split; [exact A1|]. split; [exact A2|]. split; [exact A3|lra].
Qed.
Lemma whole_time tmpdir o t0 ops t1 : wf (start_dir o) -> Forall plain ops ->
  exists d, whole tmpdir o t0 ops t1 = Some d /\ wf d /\ dget d time_file = Some (Seconds (load_time (start_dir o) + (t1 - t0))).
Proof.
  intros W Pl.
  assert (exists p, setup tmpdir o t0 = p /\ (tmpdir = true -> use_tmp p = true /\ exists t, tmp p = Some t /\ wf t) /\
     (tmpdir = false -> use_tmp p = false) /\ wf (out p) /\ total p = load_time (start_dir o) /\ start p = t0) as (p & Es & H1 & H2 & H3 & H4 & H5).
  { destruct tmpdir.
    - destruct (setup_tmp o t0 W) as (t & E & Wt & _). eexists. split; [exact E|]. cbn. split; [intros _; split; [reflexivity|exists t; auto]|]. auto.
    - eexists. split; [reflexivity|]. cbn. split; [discriminate|]. auto. }
  destruct (steps_plain tmpdir ops p H1 H2 H3 Pl) as (p' & E & A1 & A2 & A3 & A4).
  unfold whole. rewrite Es, E. unfold finish.
  assert (Tt : total p' + (t1 - start p') = load_time (start_dir o) + (t1 - t0)) by lra. destruct tmpdir.
  - destruct (A1 eq_refl) as [U (t & T & Wt)]. rewrite (save_tmp p' t t1 U T). cbn [use_tmp]. unfold move_back, copy_back. cbn [tmp out].
    eexists. split; [reflexivity|]. cbn [out]. split; [apply copytree_wf; exact A3|].
    rewrite copytree_get by (apply wf_set; exact Wt). rewrite dget_set_eq, Tt. reflexivity.
  - unfold save_time, work, set_work. rewrite (A2 eq_refl). cbn [use_tmp]. eexists. split; [reflexivity|]. cbn [out].
    split; [apply wf_set; exact A3|]. rewrite dget_set_eq, Tt. reflexivity.
Qed.
Definition runs (o : option dir) (ps : list (bool * R * list op * R)) : option (option dir) :=
  fold_left (fun o p => match o with
    | Some o => match whole (fst (fst (fst p))) o (snd (fst (fst p))) (snd (fst p)) (snd p) with Some d => Some (Some d) | None => None end
    | None => None end) ps (Some o).
Definition durations (ps : list (bool * R * list op * R)) : R := fold_right (fun p s => (snd p - snd (fst (fst p))) + s) 0 ps.
Theorem C177_time ps : ps <> [] -> Forall (fun p => Forall plain (snd (fst p))) ps ->
  exists d, runs None ps = Some (Some d) /\ dget d time_file = Some (Seconds (durations ps)).
Proof.
  assert (G : forall ps o, wf (start_dir o) -> Forall (fun p => Forall plain (snd (fst p))) ps -> ps <> [] ->
     exists d, runs o ps = Some (Some d) /\ dget d time_file = Some (Seconds (load_time (start_dir o) + durations ps))).
  { clear. induction ps as [|[[[b t0] ops] t1] ps IH]; intros o W Pl Ne; [tauto|]. inversion Pl; subst. cbn [snd fst] in *.
    destruct (whole_time b o t0 ops t1 W) as (d & E & Wd & Ed); [assumption|].
    unfold runs. cbn [fold_left fst snd]. rewrite E. destruct ps as [|p ps].
    - exists d. split; [reflexivity|]. rewrite Ed. unfold durations. cbn. do 2 f_equal. ring.
    - destruct (IH (Some d)) as (d' & E' & Ed'); try assumption; [discriminate|]. exists d'. split; [exact E'|]. rewrite Ed'.
      cbn [start_dir]. unfold load_time at 1. rewrite Ed. unfold durations. cbn [fold_right fst snd]. do 2 f_equal. ring. }
  intros Ne Pl. destruct (G ps None (NoDup_nil _) Pl Ne) as (d & E & Ed). exists d. split; [exact E|]. rewrite Ed.
  change (load_time (start_dir None)) with 0. do 2 f_equal. ring.
Qed.
(** A process with a temporary directory that is killed without ever dumping - every killed run of Ultranest,
    whose visualisation callback copies nothing - leaves the output directory as it found it. *)
Theorem C177_killed_viz o t0 ops : wf (start_dir o) -> Forall plain ops -> Forall no_dump ops ->
  killed true o t0 ops = Some (start_dir o).
Proof.
  intros W Pl Nd. destruct (setup_tmp o t0 W) as (t & Es & Wt & Gt). unfold killed. rewrite Es.
  destruct (steps_tmp ops (mkP true (start_dir o) (Some t) (load_time (start_dir o)) t0) t eq_refl eq_refl Wt W Pl)
    as (p & tp & -> & _ & _ & _ & _ & _ & _ & D). rewrite (D Nd). reflexivity.
Qed.
(** Killed after a dump (Pymultinest), it holds every file as it was at the last dump. *)
Theorem C177_killed_dump o t0 ops now more f c : wf (start_dir o) -> Forall plain ops -> Forall plain more -> Forall no_dump more ->
  f <> time_file -> last_op f ops (dget (start_dir o) f) = Some c ->
  exists d, killed true o t0 (ops ++ [Dump now] ++ more) = Some d /\ dget d f = Some c.
Proof.
  intros W Pl Pm Nm Nf E. destruct (setup_tmp o t0 W) as (t & Es & Wt & Gt). unfold killed. rewrite Es, steps_app.
  destruct (steps_tmp ops (mkP true (start_dir o) (Some t) (load_time (start_dir o)) t0) t eq_refl eq_refl Wt W Pl)
    as (p & tp & -> & U & T & Wp & Wo & _ & G & _). rewrite steps_app. cbn [steps].
  destruct (step_tmp p tp (Dump now) U T Wp Wo I) as (p1 & t1 & -> & U1 & T1 & W1 & O1 & _ & _ & D1 & _).
  destruct (steps_tmp more p1 t1 U1 T1 W1 O1 Pm) as (p2 & t2 & -> & _ & _ & _ & _ & _ & _ & D2).
  eexists. split; [reflexivity|]. rewrite (D2 Nm), D1, copytree_get by exact Wp. rewrite (G f Nf), Gt, E. reflexivity.
Qed.
(** But the time copied by a dump is the one saved before it: the time of a process killed after its first
    dump is lost, though its files are there. *)
Theorem C177_killed_time_refuted o t0 ops now : wf (start_dir o) -> file_ops ops -> Forall plain ops ->
  exists d, killed true o t0 (ops ++ [Dump now]) = Some d /\ dget d time_file = dget (start_dir o) time_file.
Proof.
  intros W Fo Pl. destruct (setup_tmp o t0 W) as (t & Es & Wt & Gt). unfold killed. rewrite Es, steps_app.
  assert (Inv : forall ops p t, file_ops ops -> Forall plain ops -> use_tmp p = true -> tmp p = Some t -> wf t -> wf (out p) ->
     exists p' t', steps p ops = Some p' /\ use_tmp p' = true /\ tmp p' = Some t' /\ wf t' /\ out p' = out p /\ dget t' time_file = dget t time_file).
  { clear. induction ops as [|o ops IH]; intros p t Fo Pl U T Wt Wo; [exists p, t; auto 6|]. inversion Fo; inversion Pl; subst.
    destruct (step_tmp p t o U T Wt Wo) as (p1 & t1 & E1 & U1 & T1 & W1 & O1 & _ & _ & D1 & F1); [assumption|].
    assert (D1' : out p1 = out p) by (rewrite D1; destruct o; try reflexivity; tauto).
    assert (F1' : dget t1 time_file = dget t time_file) by (rewrite F1; destruct o; try reflexivity; tauto).
    destruct (IH p1 t1) as (p' & t' & A1 & A2 & A3 & A4 & A5 & A6); try assumption.
    exists p', t'. cbn [steps]. rewrite E1. repeat split; try assumption; congruence. }
  destruct (Inv ops (mkP true (start_dir o) (Some t) (load_time (start_dir o)) t0) t Fo Pl eq_refl eq_refl Wt W)
    as (p & tp & -> & U & T & Wp & Op & Ft). cbn [steps].
  assert (Wo : wf (out p)) by (rewrite Op; exact W).
  destruct (step_tmp p tp (Dump now) U T Wp Wo I) as (p1 & t1 & -> & _ & _ & _ & _ & _ & _ & D1 & _).
  eexists. split; [reflexivity|]. rewrite D1, copytree_get by exact Wp. rewrite Ft, Gt, Op. cbn [out].
  destruct (dget (start_dir o) time_file); reflexivity.
Qed.
(** Once the temporary directory has been moved, saving the time again - an interrupt after the run - fails. *)
Theorem C177_twice o t0 ops t1 t2 : wf (start_dir o) -> Forall plain ops ->
  exists p p', steps (setup true o t0) ops = Some p /\ finish t1 p = Some p' /\ finish t2 p' = None.
Proof.
  intros W Pl. destruct (setup_tmp o t0 W) as (t & Es & Wt & Gt). rewrite Es.
  destruct (steps_tmp ops (mkP true (start_dir o) (Some t) (load_time (start_dir o)) t0) t eq_refl eq_refl Wt W Pl)
    as (p & tp & -> & U & T & _).
  eexists _, _. split; [reflexivity|]. unfold finish at 1. rewrite (save_tmp p tp t1 U T). cbn [use_tmp]. unfold move_back, copy_back. cbn [tmp].
  split; reflexivity.
Qed.
Example C177_ex :
  let ops := [Write "a.dat" 1; Dump 5; Write "b.dat" 2; Write "a.dat" 3] in
  let o := Some [("a.dat"%string, Data 0); (time_file, Seconds 100)] in
  (exists d, killed true o 0 ops = Some d /\ dget d "a.dat" = Some (Data 1) /\ dget d "b.dat" = None /\ dget d time_file = Some (Seconds 100)) /\
  exists d, whole true o 0 ops 8 = Some d /\ dget d "a.dat" = Some (Data 3) /\ dget d "b.dat" = Some (Data 2) /\ dget d time_file = Some (Seconds (100 + (5 - 0) + (8 - 5))).
Proof. split; eexists; (split; [cbv -[IZR Rplus Rminus]; reflexivity|]); cbv -[IZR Rplus Rminus]; repeat apply conj; reflexivity. Qed.

(** ** C178: names *)
(** Whatever directory the user asks for, the sampler runs in the default one, whose name ends with a slash. *)
Theorem C178_default outdir short label user :
  run_directory outdir short label user = Some (outdir ++ "/" ++ short ++ "_" ++ label ++ "/")%string.
Proof.
  unfold run_directory, construct_names, verify_names. cbn [base kw set_basename].
  assert (E : forall s, ends_slash (s ++ "/")%string = true).
  { intros s. unfold ends_slash.
    assert (L : forall s, String.length (s ++ "/")%string = S (String.length s)) by (clear; induction s; cbn; congruence).
    rewrite L.
    assert (G : forall s, substring (String.length s) 1 (s ++ "/")%string = "/"%string) by (clear; induction s; cbn; auto).
    rewrite G. reflexivity. }
  unfold set_basename.
  assert (A : forall a b c : string, ((a ++ b) ++ c = a ++ (b ++ c))%string) by (clear; induction a; intros; cbn; congruence).
  replace (outdir ++ "/" ++ short ++ "_" ++ label ++ "/")%string with ((outdir ++ "/" ++ short ++ "_" ++ label) ++ "/")%string
    by (rewrite !A; reflexivity).
  rewrite E. reflexivity.
Qed.
Theorem C178_user_refuted : exists outdir short label user, run_directory outdir short label (Some user) <> Some user /\
  run_directory outdir short label (Some user) = run_directory outdir short label None /\ ends_slash user = true.
Proof.
  exists "outdir"%string, "pm"%string, "label"%string, "mine/"%string. rewrite !C178_default. split; [discriminate|]. split; reflexivity.
Qed.
(** Ultranest is told to overwrite for both values of the flag and without it; only another text passes. *)
Theorem C178_resume kw : wf kw ->
  dget (ultranest_translate kw) "resume" =
    match dget kw "resume" with
    | Some (ABool _) | None => Some (AText "overwrite")
    | Some v => Some v
    end.
Proof.
  intros W. unfold ultranest_translate.
  set (kw' := match dget kw "verbose" with Some _ => _ | None => kw end).
  assert (E : dget kw' "resume" = dget kw "resume").
  { unfold kw'. destruct (dget kw "verbose"); [|reflexivity]. destruct (dmem kw "show_status"); [reflexivity|].
    rewrite dget_set_ne by discriminate. apply dget_del_ne. discriminate. }
  rewrite E. destruct (dget kw "resume") as [[[]|s|n|]|] eqn:Ek; rewrite ?dget_set_eq; try reflexivity; exact E.
Qed.
Theorem C178_resume_refuted : exists kw, dget kw "resume" = Some (ABool true) /\ dget (ultranest_translate kw) "resume" = Some (AText "overwrite").
Proof. exists [("resume"%string, ABool true)]. split; reflexivity. Qed.
(** The other keywords: [verbose] becomes [show_status] unless that is given; nothing else changes. *)
Theorem C178_verbose kw k : wf kw -> k <> "resume"%string ->
  dget (ultranest_translate kw) k =
    if dmem kw "verbose" && negb (dmem kw "show_status")
    then (if string_dec k "show_status" then dget kw "verbose" else if string_dec k "verbose" then None else dget kw k)
    else dget kw k.
Proof.
  intros W Nk. unfold ultranest_translate.
  set (kw' := match dget kw "verbose" with Some _ => _ | None => kw end).
  assert (E : dget kw' k = if dmem kw "verbose" && negb (dmem kw "show_status")
    then (if string_dec k "show_status" then dget kw "verbose" else if string_dec k "verbose" then None else dget kw k)
    else dget kw k).
  { unfold kw'. replace (dmem kw "verbose") with (match dget kw "verbose" with Some _ => true | None => false end) by reflexivity.
    destruct (dget kw "verbose") as [v|] eqn:Ev; [|reflexivity]. cbn [andb].
    destruct (dmem kw "show_status"); cbn [negb]; [reflexivity|].
    destruct (string_dec k "show_status") as [->|N1]; [apply dget_set_eq|]. rewrite dget_set_ne by congruence.
    destruct (string_dec k "verbose") as [->|N2]; [apply dget_del_eq; exact W|apply dget_del_ne; congruence]. }
  destruct (match dget kw' "resume" with Some v => v | None => ABool false end) as [[]|s|n|]; rewrite ?dget_set_ne by congruence; exact E.
Qed.
(** The flags of periodic parameters stand in the order of the search parameters, one for each, in both
    adapters, when the search parameters are the keys of the priors that are not fixed, in their order. *)
Theorem C178_wrapped (priors : dict bool) (fixed : string -> bool) : wf priors ->
  let search := filter (fun k => negb (fixed k)) (dkeys priors) in
  ultranest_wrapped search priors = multinest_wrapped search priors /\
  forall i k, nth_error search i = Some k -> nth_error (multinest_wrapped search priors) i =
    Some (match dget priors k with Some true => 1%nat | _ => 0%nat end).
Proof.
  intros W search. split.
  - unfold ultranest_wrapped, multinest_wrapped.
    assert (F : filter (fun kv : string * bool => if in_dec string_dec (fst kv) search then true else false) priors
              = filter (fun kv => negb (fixed (fst kv))) priors).
    { apply filter_ext_in. intros [k b] Hin. cbn [fst]. destruct (in_dec string_dec k search) as [Hs|Hs]; unfold search in Hs.
      - apply filter_In in Hs. symmetry. tauto.
      - destruct (fixed k) eqn:Ef; [reflexivity|]. exfalso. apply Hs. apply filter_In. rewrite Ef. split; [|reflexivity].
        unfold dkeys. apply (in_map fst) in Hin. exact Hin. }
    rewrite F. unfold search, dkeys.
    assert (G : forall l : dict bool, (forall kv, In kv l -> In kv priors) ->
      map (fun kv => flag (snd kv)) (filter (fun kv => negb (fixed (fst kv))) l) =
      map (fun k => flag match dget priors k with Some b => b | None => false end) (filter (fun k => negb (fixed k)) (map fst l))).
    { induction l as [|[k b] l IH]; intros H; [reflexivity|]. cbn [filter map fst].
      assert (IH' := IH (fun kv Hk => H kv (or_intror Hk))). destruct (fixed k); cbn [negb map snd]; [exact IH'|].
      rewrite IH'. f_equal. rewrite (proj2 (dget_in priors k b W) (H _ (or_introl eq_refl))). reflexivity. }
    apply G. auto.
  - intros i k E. unfold multinest_wrapped. rewrite nth_error_map, E. cbn. unfold flag. destruct (dget priors k) as [[]|]; reflexivity.
Qed.
Example C178_ex : let priors := [("ra"%string, true); ("mass"%string, false); ("phase"%string, true)] in
  multinest_wrapped ["ra"; "phase"]%string priors = [1; 1]%nat /\ ultranest_wrapped ["ra"; "phase"]%string priors = [1; 1]%nat /\
  run_directory "out" "ultra" "lab" (Some "x"%string) = Some "out/ultra_lab/"%string.
Proof. repeat split. Qed.

(** ** Assumptions of every theorem above *)
Definition Adapters2_Props_all :=
  (@C177_same,
   @C177_delete_refuted,
   @C177_delete,
   @C177_time,
   @C177_killed_viz,
   @C177_killed_dump,
   @C177_killed_time_refuted,
   @C177_twice,
   @C178_default,
   @C178_user_refuted,
   @C178_resume,
   @C178_resume_refuted,
   @C178_verbose,
   @C178_wrapped).
Print Assumptions Adapters2_Props_all.
