(** C147, C148, C153: results and checkpoints of the ensemble samplers *)
From Coq Require Import Reals List Arith ZArith Bool Lia Lra Permutation.
From Verif Require Import PyReal Interp_Model Mband_Model Ensemble_Model.
Import ListNotations.
Open Scope nat_scope.
Open Scope list_scope.

(** ** Slices *)
(** the number of entries of [range(0, n, st)] *)
Definition nslice (n st : nat) : nat := (n + st - 1) / st.

Lemma filter_mod st lo n : 0 < st ->
  filter (fun i => (i - lo) mod st =? 0) (seq lo n) = map (fun j => lo + j * st) (seq 0 (nslice n st)).
Proof.
  intros P. unfold nslice. induction n as [|n IH].
  - cbn [seq filter]. replace ((0 + st - 1) / st) with 0; [reflexivity|]. symmetry. apply Nat.div_small. lia.
  - rewrite seq_S, filter_app, IH. cbn [filter]. replace (lo + n - lo) with n by lia.
    destruct (n mod st =? 0) eqn:E.
    + apply Nat.eqb_eq in E. pose proof (Nat.div_mod n st ltac:(lia)) as D. rewrite E, Nat.add_0_r in D. set (q := n / st) in *.
      replace ((n + st - 1) / st) with q.
      2:{ apply Nat.div_unique with (st - 1); lia. }
      replace ((S n + st - 1) / st) with (S q).
      2:{ apply Nat.div_unique with 0; lia. }
      rewrite seq_S, map_app. cbn [map]. do 2 f_equal. rewrite D at 1. lia.
    + apply Nat.eqb_neq in E. rewrite app_nil_r. do 2 f_equal.
      pose proof (Nat.div_mod n st ltac:(lia)) as D. pose proof (Nat.mod_upper_bound n st ltac:(lia)) as U. set (q := n / st) in *. set (r := n mod st) in *.
      transitivity (S q); [symmetry; apply Nat.div_unique with (r - 1)|apply Nat.div_unique with r]; nia.
Qed.

Lemma pyslice_spec {A} (d : A) lo hi st l : 0 < st ->
  pyslice d lo hi st l = map (fun j => nth (lo + j * st) l d) (seq 0 (nslice (Nat.min hi (length l) - lo) st)).
Proof. intros P. unfold pyslice. rewrite filter_mod by exact P. now rewrite map_map. Qed.

Lemma pyslice_map {A B} (f : A -> B) d d' lo hi st l : 0 < st -> pyslice d' lo hi st (map f l) = map f (pyslice d lo hi st l).
Proof.
  intros P. unfold pyslice. rewrite map_length, map_map. apply map_ext_in. intros i H. apply filter_In in H. destruct H as [H _].
  apply in_seq in H. rewrite nth_indep with (d' := f d) by (rewrite map_length; lia). apply map_nth.
Qed.

Lemma nth_concat_rows {A} (d : A) m (rows : list (list A)) : Forall (fun r => length r = m) rows ->
  forall i j, i < length rows -> j < m -> nth (i * m + j) (concat rows) d = nth j (nth i rows []) d.
Proof.
  induction 1 as [|r rows L H IH]; intros i j I J; [cbn in I; lia|]. cbn [concat]. destruct i as [|i].
  - cbn [Nat.mul Nat.add nth]. apply app_nth1. lia.
  - rewrite app_nth2 by (cbn; lia). cbn [nth]. rewrite <- IH by (cbn in I; lia || exact J). f_equal. cbn [Nat.mul]. lia.
Qed.
Lemma length_concat_rows {A} m (rows : list (list A)) : Forall (fun r => length r = m) rows -> length (concat rows) = length rows * m.
Proof. induction 1 as [|r rows L H IH]; [reflexivity|]. cbn [concat]. rewrite app_length, IH, L. reflexivity. Qed.

(** ** C147 samples and their log likelihoods *)
(** ptemcee: the samples are those of walker 0, then walker 1, ..., each taken every [thin] steps from [lo] on *)
Theorem C147_ptemcee_samples : forall (A : Type) (d : A) lo hi thin (chain : list (list A)) n, 0 < thin -> hi <= n ->
  Forall (fun w => length w = n) chain ->
  length (ptemcee_samples d lo hi thin chain) = length chain * nslice (hi - lo) thin /\
  forall w j, w < length chain -> j < nslice (hi - lo) thin ->
    nth (w * nslice (hi - lo) thin + j) (ptemcee_samples d lo hi thin chain) d = nth (lo + j * thin) (nth w chain []) d.
Proof.
  intros A d lo hi thin chain n P Hn F. unfold ptemcee_samples.
  assert (G : Forall (fun r => length r = nslice (hi - lo) thin) (map (pyslice d lo hi thin) chain)).
  { apply Forall_forall. intros r H. apply in_map_iff in H. destruct H as (w & <- & W). rewrite Forall_forall in F.
    rewrite pyslice_spec, map_length, seq_length, (F w W) by exact P. now rewrite Nat.min_l by lia. }
  split; [now rewrite (length_concat_rows _ _ G), map_length|]. intros w j W J.
  rewrite (nth_concat_rows d _ _ G) by (rewrite ?map_length; assumption).
  rewrite nth_indep with (d' := pyslice d lo hi thin []) by (rewrite map_length; exact W). rewrite map_nth.
  assert (L : length (nth w chain []) = n) by (rewrite Forall_forall in F; apply F, nth_In, W).
  rewrite pyslice_spec, L, Nat.min_l by lia.
  set (f := fun j => nth (lo + j * thin) (nth w chain []) d).
  rewrite nth_indep with (d' := f 0) by (rewrite map_length, seq_length; exact J). rewrite (map_nth f), seq_nth by exact J. reflexivity.
Qed.

(** and the log likelihoods, sliced from their own array, are those of the samples *)
Theorem C147_ptemcee_aligned : forall (A B : Type) (ll : A -> B) (d : A) (d' : B) lo hi thin (chain : list (list A)), 0 < thin ->
  ptemcee_samples d' lo hi thin (map (map ll) chain) = map ll (ptemcee_samples d lo hi thin chain).
Proof.
  intros A B ll d d' lo hi thin chain P. unfold ptemcee_samples. rewrite concat_map, !map_map. f_equal. apply map_ext. intros w.
  now apply pyslice_map.
Qed.

(** kombine: samples and blobs have the same order *)
Theorem C147_kombine_aligned : forall (A B : Type) (ll : A -> B) nburn (chain : list (list A)),
  emcee_loglikes nburn (map (map ll) chain) = map ll (kombine_samples nburn chain).
Proof. intros A B ll nburn chain. unfold emcee_loglikes, kombine_samples. now rewrite concat_map, skipn_map. Qed.

Lemma by_step_rows {A} (d : A) n chain : Forall (fun r => length r = length chain) (by_step d n chain).
Proof. apply Forall_forall. intros r H. apply in_map_iff in H. destruct H as (s & <- & _). apply map_length. Qed.
Lemma skipn_seq k : forall n a, skipn k (seq a n) = seq (a + k) (n - k).
Proof.
  induction k as [|k IH]; intros n a; [now rewrite Nat.add_0_r, Nat.sub_0_r|]. destruct n; [reflexivity|].
  cbn [seq skipn]. rewrite IH. f_equal; lia.
Qed.
Lemma Forall_skipn {A} (P : A -> Prop) k : forall l, Forall P l -> Forall P (skipn k l).
Proof. induction k; intros l H; [exact H|]. destruct H; [constructor|]. now apply IHk. Qed.

Section Emcee.
Context {A B : Type} (ll : A -> B) (d : A) (n nburn : nat) (walkers : list (list A)).
Hypothesis shape : Forall (fun w => length w = n) walkers.
(** the blobs emcee stores for this chain: one row per step *)
Let blobs := by_step (ll d) n (map (map ll) walkers).
Let m := n - nburn.

Lemma emcee_sample_rows : Forall (fun r => length r = m) (map (skipn nburn) walkers).
Proof using shape. apply Forall_forall. intros r H. apply in_map_iff in H. destruct H as (w & <- & W). rewrite skipn_length. rewrite Forall_forall in shape. now rewrite (shape w W). Qed.

Lemma emcee_sample_at w s : w < length walkers -> s < m ->
  nth (w * m + s) (emcee_samples nburn walkers) d = nth (nburn + s) (nth w walkers []) d.
Proof using shape.
  intros W S. unfold emcee_samples. rewrite (nth_concat_rows d m _ emcee_sample_rows) by (rewrite ?map_length; assumption).
  rewrite nth_indep with (d' := skipn nburn []) by (rewrite map_length; exact W). rewrite map_nth.
  rewrite <- (firstn_skipn nburn (nth w walkers [])) at 2.
  assert (L : length (nth w walkers []) = n) by (rewrite Forall_forall in shape; apply shape, nth_In, W).
  rewrite app_nth2; rewrite firstn_length, L; [|lia]. f_equal. subst m. lia.
Qed.

Lemma emcee_loglike_at w s : w < length walkers -> s < m ->
  nth (s * length walkers + w) (emcee_loglikes nburn blobs) (ll d) = ll (nth (nburn + s) (nth w walkers []) d).
Proof using Type.
  clear shape. intros W S. unfold emcee_loglikes.
  pose proof (Forall_skipn _ nburn _ (by_step_rows (ll d) n (map (map ll) walkers))) as G. rewrite map_length in G.
  rewrite (nth_concat_rows (ll d) _ _ G).
  - unfold blobs, by_step. rewrite skipn_map, skipn_seq. cbn [Nat.add].
    set (f := fun s => map (fun w => nth s w (ll d)) (map (map ll) walkers)).
    rewrite nth_indep with (d' := f 0) by (rewrite map_length, seq_length; exact S).
    rewrite (map_nth f), seq_nth by exact S. unfold f. rewrite map_map.
    set (g := fun w => nth (nburn + s) (map ll w) (ll d)).
    rewrite nth_indep with (d' := g []) by (rewrite map_length; exact W). rewrite (map_nth g). unfold g. apply map_nth.
  - unfold by_step. rewrite skipn_length, map_length, seq_length. exact S.
  - exact W.
Qed.

Lemma emcee_lengths : length (emcee_samples nburn walkers) = length walkers * m /\ length (emcee_loglikes nburn blobs) = length walkers * m.
Proof using shape.
  split.
  - unfold emcee_samples. now rewrite (length_concat_rows _ _ emcee_sample_rows), map_length.
  - unfold emcee_loglikes. pose proof (Forall_skipn _ nburn _ (by_step_rows (ll d) n (map (map ll) walkers))) as G. rewrite map_length in G.
    unfold blobs. rewrite (length_concat_rows _ _ G), skipn_length. unfold by_step. rewrite map_length, seq_length. subst m. lia.
Qed.

(** emcee: sample [w * m + s] is step [nburn + s] of walker [w], and so is log likelihood [s * nwalkers + w] *)
Theorem C147_emcee_order :
  length (emcee_samples nburn walkers) = length walkers * m /\ length (emcee_loglikes nburn blobs) = length walkers * m /\
  forall w s, w < length walkers -> s < m ->
    nth (w * m + s) (emcee_samples nburn walkers) d = nth (nburn + s) (nth w walkers []) d /\
    nth (s * length walkers + w) (emcee_loglikes nburn blobs) (ll d) = ll (nth (w * m + s) (emcee_samples nburn walkers) d).
Proof using shape.
  destruct emcee_lengths as [L1 L2]. split; [exact L1|]. split; [exact L2|]. intros w s W S.
  rewrite emcee_sample_at, emcee_loglike_at by assumption. split; reflexivity.
Qed.

(** so they are aligned for a single walker or a single step after burn-in *)
Theorem C147_emcee_aligned : length walkers = 1 \/ m = 1 -> emcee_loglikes nburn blobs = map ll (emcee_samples nburn walkers).
Proof using shape.
  intros C. destruct emcee_lengths as [L1 L2]. apply (nth_ext _ _ (ll d) (ll d)); [now rewrite map_length, L1, L2|].
  intros k K. rewrite L2 in K. rewrite map_nth. destruct C as [C|C]; rewrite C in K.
  - pose proof (emcee_loglike_at 0 k ltac:(lia) ltac:(lia)) as Q. pose proof (emcee_sample_at 0 k ltac:(lia) ltac:(lia)) as P. rewrite C in Q.
    rewrite Nat.mul_1_r, Nat.add_0_r in Q. cbn [Nat.mul Nat.add] in P. now rewrite Q, P.
  - pose proof (emcee_loglike_at k 0 ltac:(lia) ltac:(lia)) as Q. pose proof (emcee_sample_at k 0 ltac:(lia) ltac:(lia)) as P. rewrite C in P.
    rewrite Nat.mul_1_r, Nat.add_0_r in P. cbn [Nat.mul Nat.add] in Q. now rewrite Q, P.
Qed.
End Emcee.

(** the same values, in another order *)
Lemma concat_cons_perm {A} (f : nat -> A) (g : nat -> list A) l : Permutation (concat (map (fun s => f s :: g s) l)) (map f l ++ concat (map g l)).
Proof.
  induction l as [|s l IH]; [reflexivity|]. cbn [map concat app]. apply perm_skip. rewrite IH.
  rewrite !app_assoc. apply Permutation_app_tail, Permutation_app_comm.
Qed.
Lemma seq_nth_list {A} (d : A) : forall l k, map (fun s => nth s l d) (seq k (length l - k)) = skipn k l.
Proof.
  intros l k. revert l. induction k as [|k IH]; intros l.
  - rewrite Nat.sub_0_r. cbn [skipn]. induction l as [|x l IHl]; [reflexivity|]. cbn [length seq map nth]. f_equal. rewrite <- seq_shift, map_map. exact IHl.
  - destruct l as [|x l]; [reflexivity|]. cbn [length Nat.sub skipn]. rewrite <- IH, <- seq_shift, map_map. reflexivity.
Qed.
Theorem C147_emcee_permutation : forall (A B : Type) (ll : A -> B) (d : A) n nburn (walkers : list (list A)),
  Forall (fun w => length w = n) walkers ->
  Permutation (emcee_loglikes nburn (by_step (ll d) n (map (map ll) walkers))) (map ll (emcee_samples nburn walkers)).
Proof.
  intros A B ll d n nburn walkers F. unfold emcee_loglikes, emcee_samples, by_step. rewrite skipn_map, skipn_seq. cbn [Nat.add].
  induction F as [|w walkers L F IH].
  - cbn [map concat]. induction (seq nburn (n - nburn)); [reflexivity|exact IHl].
  - cbn [map concat].
    rewrite (concat_cons_perm (fun s => nth s (map ll w) (ll d)) (fun s => map (fun w => nth s w (ll d)) (map (map ll) walkers))).
    rewrite map_app. apply Permutation_app; [|exact IH].
    assert (E : length (map ll w) = n) by (rewrite map_length; exact L).
    rewrite <- E, seq_nth_list, skipn_map. reflexivity.
Qed.

(** two walkers, two steps: emcee's log likelihoods are not those of its samples *)
Theorem C147_emcee_aligned_refuted : exists (walkers : list (list nat)) (ll : nat -> nat), Forall (fun w => length w = 2) walkers /\
  emcee_loglikes 0 (by_step (ll 0) 2 (map (map ll) walkers)) <> map ll (emcee_samples 0 walkers).
Proof. exists [[1; 2]; [3; 4]], (fun x => x). split; [repeat constructor|]. vm_compute. discriminate. Qed.
Example C147_emcee_example :
  emcee_samples 1 [[0; 1; 2]; [0; 3; 4]] = [1; 2; 3; 4] /\
  emcee_loglikes 1 (by_step 0 3 (map (map (fun x => 10 * x)) [[0; 1; 2]; [0; 3; 4]])) = [10; 30; 20; 40].
Proof. split; reflexivity. Qed.
Example C147_ptemcee_example : ptemcee_samples 0 1 6 2 [[0; 1; 2; 3; 4; 5; 0; 0]; [0; 10; 20; 30; 40; 50; 0; 0]] = [1; 3; 5; 10; 30; 50].
Proof. reflexivity. Qed.

(** kombine's result.walkers: row [w] holds entries of consecutive walkers, not of walker [w] *)
Theorem C147_kombine_walkers : forall (A : Type) (d : A) nwalkers nsteps (chain : list (list A)), 0 < nwalkers ->
  length chain = nsteps -> Forall (fun r => length r = nwalkers) chain ->
  forall w s, w < nwalkers -> s < nsteps ->
  nth s (nth w (kombine_walkers nwalkers nsteps chain) []) d = nth ((w * nsteps + s) mod nwalkers) (nth ((w * nsteps + s) / nwalkers) chain []) d.
Proof.
  intros A d nw ns chain P L F w s W S. unfold kombine_walkers, chunks.
  set (f := fun i => firstn ns (skipn (i * ns) (concat chain))).
  rewrite nth_indep with (d' := f 0) by (rewrite map_length, seq_length; exact W). rewrite (map_nth f), seq_nth by exact W. unfold f. cbn [Nat.add].
  pose proof (length_concat_rows _ _ F) as LC. rewrite L in LC.
  assert (K : w * ns + s < ns * nw) by nia.
  transitivity (nth (w * ns + s) (concat chain) d).
  - rewrite <- (firstn_skipn (w * ns) (concat chain)) at 2. rewrite app_nth2; rewrite firstn_length, LC; [|nia].
    rewrite Nat.min_l by nia. replace (w * ns + s - w * ns) with s by lia.
    rewrite <- (firstn_skipn ns (skipn (w * ns) (concat chain))) at 2. rewrite app_nth1; [reflexivity|].
    rewrite firstn_length, skipn_length, LC. nia.
  - rewrite (Nat.div_mod (w * ns + s) nw) at 1 by lia. rewrite (Nat.mul_comm nw).
    apply (nth_concat_rows d nw _ F).
    + rewrite L. apply Nat.div_lt_upper_bound; lia.
    + apply Nat.mod_upper_bound. lia.
Qed.
Theorem C147_kombine_walkers_refuted : exists (chain : list (list nat)), Forall (fun r => length r = 2) chain /\ length chain = 3 /\
  nth 1 (nth 0 (kombine_walkers 2 3 chain) []) 0 <> nth 0 (nth 1 chain []) 0.
Proof. exists [[1; 10]; [2; 20]; [3; 30]]. split; [repeat constructor|]. split; [reflexivity|]. vm_compute. discriminate. Qed.
Example C147_kombine_example : kombine_walkers 2 3 [[1; 10]; [2; 20]; [3; 30]] = [[1; 10; 2]; [20; 3; 30]] /\ kombine_samples 1 [[1; 10]; [2; 20]; [3; 30]] = [2; 20; 3; 30].
Proof. split; reflexivity. Qed.

(** ** C148 ptemcee keeps what it recorded *)
Section Storage.
Context {row : Type} (zero : row) (max_steps : nat).
Hypothesis positive : 0 < max_steps.
(** the specification: the list of recorded rows and the number of completed checks *)
Definition spec := (list row * nat)%type.
Definition spec_step (s : spec) (disk : option spec) (e : event row) : option (spec * option spec) :=
  match e with
  | Record x => Some ((fst s ++ [x], snd s), disk)
  | Append => Some ((fst s, S (snd s)), disk)
  | Save => Some (s, Some s)
  | Relaunch => match disk with None => Some (([], 0), None) | Some (h, 0) => None | Some s' => Some (s', disk) end
  end.
Fixpoint spec_run (s : spec) (disk : option spec) (es : list (event row)) : option (spec * option spec) :=
  match es with [] => Some (s, disk) | e :: r => match spec_step s disk e with Some (s', disk') => spec_run s' disk' r | None => None end end.

(** the arrays hold exactly the recorded rows, then zeros, in whole blocks; the next start is from the last row *)
Definition represents (p : pstate row) (s : spec) : Prop :=
  it p = length (fst s) /\ nbeta p = snd s /\
  (exists k, 0 < k /\ length (arr p) = k * max_steps) /\
  arr p = fst s ++ repeat zero (length (arr p) - it p) /\ it p <= length (arr p) /\
  pos p = match rev (fst s) with x :: _ => Some x | [] => None end.
Definition orep (p : option (pstate row)) (s : option spec) : Prop :=
  match p, s with None, None => True | Some p, Some s => represents p s | _, _ => False end.

Lemma upd_at (x : row) : forall (h : list row) y t, upd (length h) x (h ++ y :: t) = Some (h ++ x :: t).
Proof using Type. clear. induction h as [|a h IH]; intros y t; [reflexivity|]. cbn [length app upd]. now rewrite IH. Qed.

Lemma fresh_represents : represents (fresh zero max_steps) ([], 0).
Proof using Type.
  clear positive. unfold represents, fresh. cbn. rewrite repeat_length, Nat.sub_0_r. repeat split; try lia. exists 1. lia.
Qed.

Lemma record_represents x p h n : represents p (h, n) -> exists p', record zero max_steps x p = Some p' /\ represents p' (h ++ [x], n).
Proof using positive.
  intros (I & N & (k & K & L) & AR & LE & PO). cbn [fst snd] in *. unfold record.
  destruct (it p =? length (arr p)) eqn:E.
  - apply Nat.eqb_eq in E. rewrite E, Nat.sub_diag in AR. cbn [repeat] in AR. rewrite app_nil_r in AR.
    destruct max_steps as [|ms] eqn:MS; [lia|]. cbn [repeat]. rewrite AR, I, upd_at. eexists. split; [reflexivity|].
    unfold represents. cbn [it nbeta arr pos fst snd]. rewrite !app_length. cbn [length]. rewrite repeat_length, rev_app_distr.
    repeat split; try lia.
    + exists (S k). rewrite AR in L. lia.
    + replace (length h + S ms - S (length h)) with ms by lia. now rewrite <- app_assoc.
  - apply Nat.eqb_neq in E. destruct (length (arr p) - it p) as [|q] eqn:Q; [lia|]. cbn [repeat] in AR.
    rewrite AR, I, upd_at. eexists. split; [reflexivity|].
    assert (LA : length (arr p) = length h + S q) by (rewrite AR, app_length; cbn [length]; now rewrite repeat_length).
    unfold represents. cbn [it nbeta arr pos fst snd]. rewrite !app_length. cbn [length]. rewrite repeat_length, rev_app_distr.
    repeat split; try lia.
    + exists k. lia.
    + replace (length h + S q - S (length h)) with q by lia. now rewrite <- app_assoc.
Qed.

Theorem C148_refinement : forall es,
  match run zero max_steps (fresh zero max_steps) None es, spec_run ([], 0) None es with
  | Some (p, pd), Some (s, sd) => represents p s /\ orep pd sd
  | None, None => True
  | _, _ => False
  end.
Proof using positive.
  intros es. pose proof fresh_represents as R0. assert (D0 : orep None None) by exact I.
  generalize dependent (@None spec). generalize dependent (@None (pstate row)). generalize dependent (@nil row, 0).
  generalize (fresh zero max_steps) as p.
  induction es as [|e es IH]; intros p s R0 pd sd D0; cbn [run spec_run]; [auto|].
  destruct s as [h n]. destruct e as [x| | |]; cbn [step spec_step fst snd].
  - destruct (record_represents x p h n R0) as (p' & -> & R). now apply IH.
  - apply IH; [|exact D0]. destruct R0 as (I & N & K & AR & LE & PO). cbn [fst snd] in *. unfold represents. cbn [it nbeta arr pos fst snd]. rewrite N. tauto.
  - apply IH; assumption.
  - destruct pd as [p'|], sd as [[h' n']|]; try contradiction.
    + pose proof D0 as R. destruct D0 as (_ & N & _). cbn [snd] in N. destruct n' as [|n']; rewrite N; cbn; [exact I|]. apply IH; [exact R|exact R].
    + apply IH; [exact fresh_represents|exact I].
Qed.
End Storage.

(** starting again fails exactly for a checkpoint without completed check, and otherwise goes on from all rows recorded until it was written *)
Theorem C148_resume : forall (row : Type) (zero : row) max_steps es p disk, 0 < max_steps ->
  run zero max_steps (fresh zero max_steps) None es = Some (p, Some disk) ->
  run zero max_steps (fresh zero max_steps) None (es ++ [Relaunch]) = (if nbeta disk =? 0 then None else Some (disk, Some disk)) /\
  firstn (it disk) (arr disk) = match spec_run ([], 0) None es with Some (_, Some (h, _)) => h | _ => [] end.
Proof.
  intros row zero ms es p disk P E. split.
  - revert E. generalize (fresh zero ms). generalize (@None (pstate row)). induction es as [|e es IH]; intros d0 s0 E; cbn [app run step] in *.
    + injection E as -> ->. cbn [run step]. now destruct (nbeta disk =? 0).
    + destruct (step zero ms s0 d0 e) as [[s1 d1]|]; [|discriminate]. now apply IH.
  - pose proof (C148_refinement zero ms P es) as H. rewrite E in H. destruct (spec_run ([], 0) None es) as [[s sd]|]; [|contradiction].
    destruct H as [_ H]. destruct sd as [[h n]|]; [|contradiction]. destruct H as (I & _ & _ & AR & _). cbn [fst] in *. rewrite AR, I.
    rewrite firstn_app, firstn_all, Nat.sub_diag. cbn [firstn]. apply app_nil_r.
Qed.
(** a signal before the first completed check leaves a checkpoint that cannot be resumed *)
Theorem C148_always_resumes_refuted : forall (row : Type) (zero x : row) max_steps, 0 < max_steps ->
  run zero max_steps (fresh zero max_steps) None [Save; Relaunch] = None /\ run zero max_steps (fresh zero max_steps) None [Record x; Save; Relaunch] = None.
Proof. intros row zero x [|ms] P; [lia|]. split; reflexivity. Qed.
Example C148_example : option_map (fun r => (arr (fst r), it (fst r), pos (fst r))) (run 0 2 (fresh 0 2) None [Record 7; Append; Record 8; Append; Save; Record 9; Append; Relaunch; Record 5; Append])
  = Some ([7; 8; 5; 0], 3, Some 5).
Proof. reflexivity. Qed.

(** ** C153 emcee: checkpoints and burn-in *)
(** subsequence: [a] is obtained from [b] by leaving entries out *)
Inductive subseq {A} : list A -> list A -> Prop :=
| subseq_nil : forall b, subseq [] b
| subseq_skip : forall a x b, subseq a b -> subseq a (x :: b)
| subseq_take : forall a x b, subseq a b -> subseq (x :: a) (x :: b).
Lemma subseq_app {A} (a b : list A) x : subseq a b -> subseq (a ++ [x]) (b ++ [x]).
Proof.
  induction 1 as [b|a y b H IH|a y b H IH]; cbn [app].
  - induction b as [|y b IHb]; cbn [app] in *; [apply subseq_take, subseq_nil|now apply subseq_skip].
  - now apply subseq_skip.
  - now apply subseq_take.
Qed.
Lemma subseq_weak {A} (a b : list A) x : subseq a b -> subseq a (b ++ [x]).
Proof. induction 1; cbn [app]; [apply subseq_nil|now apply subseq_skip|now apply subseq_take]. Qed.

Lemma erun_app {row : Type} (es : list (eevent row)) e : erun (es ++ [e]) = match erun es with Some s => estep s e | None => None end.
Proof. unfold erun. rewrite fold_left_app. reflexivity. Qed.

(** whatever happens, the steps in memory are in the file, in order *)
Theorem C153_file_complete : forall (row : Type) (es : list (eevent row)) s, erun es = Some s ->
  subseq (chain s) (file s) /\ (forall c, pickle s = Some c -> subseq c (file s)).
Proof.
  intros row es. induction es as [|e es IH] using rev_ind; intros s E.
  - unfold erun in E. cbn in E. apply some_inj in E. subst s. split; [apply subseq_nil|discriminate].
  - rewrite erun_app in E. destruct (erun es) as [s0|]; [|discriminate]. destruct (IH s0 eq_refl) as [H1 H2].
    destruct e as [x| |]; cbn [estep] in E.
    + apply some_inj in E. subst s. cbn. split; [now apply subseq_app|]. intros c C. apply subseq_weak, H2, C.
    + unfold erestart in E. cbn in E. destruct (chain s0) as [|y c0] eqn:C0; [discriminate|]. apply some_inj in E. subst s. cbn. split; [exact H1|].
      intros c [= <-]. exact H1.
    + unfold erestart in E. destruct (pickle s0) as [[|y c0]|] eqn:C0; [discriminate| |]; apply some_inj in E; subst s; cbn.
      * split; [now apply H2|]. intros c [= <-]. now apply H2.
      * split; [apply subseq_nil|discriminate].
Qed.

(** with signals only, memory and file hold every step ever done; a signal before the first step makes the resume fail *)
Definition esteps {row : Type} (es : list (eevent row)) : list row := flat_map (fun e => match e with EStep x => [x] | _ => [] end) es.
Theorem C153_signals : forall (row : Type) (es : list (eevent row)), ~ In EKill es ->
  (forall s, erun es = Some s -> chain s = esteps es /\ file s = esteps es) /\
  (erun es = None <-> exists r, es = ESignal :: r).
Proof.
  intros row es. induction es as [|e es IH] using rev_ind; intros N.
  - split; [|split; [discriminate|intros (r & D); discriminate]]. intros s E. unfold erun in E. cbn in E. apply some_inj in E. now subst s.
  - assert (N' : ~ In EKill es) by (intros H; apply N, in_or_app; now left). destruct (IH N') as [H1 H2]. rewrite erun_app.
    unfold esteps in *. rewrite flat_map_app. cbn [flat_map].
    destruct (erun es) as [s0|] eqn:R.
    + destruct (H1 s0 eq_refl) as [C F]. assert (NS : ~ exists r, es = ESignal :: r) by (intros D; apply H2 in D; discriminate).
      destruct e as [x| |].
      * cbn [estep]. split.
        -- intros s E. apply some_inj in E. subst s. cbn. now rewrite C, F.
        -- split; [discriminate|]. intros (r & D). destruct es as [|a es']; [discriminate|]. injection D as -> _. exfalso. apply NS. now exists es'.
      * cbn [estep]. unfold erestart. cbn [pickle]. rewrite !app_nil_r. destruct (chain s0) as [|y c] eqn:C0.
        -- split; [discriminate|]. split; [|reflexivity]. intros _. destruct es as [|a es']; [now exists []|].
           cbn [flat_map] in C. destruct a as [z| |]; [discriminate| |exfalso; apply N'; now left]. exfalso. apply NS. now exists es'.
        -- split; [|split; [discriminate|]].
           ++ intros s E. apply some_inj in E. subst s. cbn. now rewrite C, F.
           ++ intros (r & D). destruct es as [|a es']; [discriminate C|]. injection D as -> _. exfalso. apply NS. now exists es'.
      * exfalso. apply N, in_or_app. right. now left.
    + split; [discriminate|]. split; [|reflexivity]. intros _. destruct (proj1 H2 eq_refl) as (r & ->). exists (r ++ [e]). reflexivity.
Qed.

(** a process killed after an earlier checkpoint: the file keeps steps the resumed run does not *)
Theorem C153_file_equals_chain_refuted : forall (row : Type) (a b c : row),
  option_map (fun s => (chain s, file s)) (erun [EStep a; ESignal; EStep b; EKill; EStep c]) = Some ([a; c], [a; b; c]).
Proof. reflexivity. Qed.

(** a resumed run does the steps that are missing *)
Theorem C153_total_steps : forall (row : Type) (es : list (eevent row)) s iterations xs, erun es = Some s -> length (chain s) <= iterations ->
  length xs = remaining iterations s ->
  exists s', erun (es ++ map EStep xs) = Some s' /\ length (chain s') = iterations /\ firstn (length (chain s)) (chain s') = chain s.
Proof.
  intros row es s iterations xs E L X. unfold remaining in X.
  assert (G : forall (ys : list row) (s0 : estate row), fold_left (fun s e => match s with Some s => estep s e | None => None end) (map EStep ys) (Some s0)
      = Some {| chain := chain s0 ++ ys; file := file s0 ++ ys; pickle := pickle s0 |}).
  { clear. induction ys as [|y ys IH]; intros s0; cbn [map fold_left]; [now rewrite !app_nil_r; destruct s0|].
    cbn [estep]. rewrite IH. cbn. now rewrite <- !app_assoc. }
  eexists. split.
  - unfold erun in *. rewrite fold_left_app, E. apply G.
  - cbn. rewrite app_length. split; [lia|]. rewrite firstn_app, Nat.sub_diag, firstn_all. cbn [firstn]. apply app_nil_r.
Qed.

Lemma zfloor_nonneg_lt (x : R) n : (0 <= x)%R -> (x < INR n)%R -> (0 <= zfloor x)%Z /\ Z.to_nat (zfloor x) < n.
Proof.
  intros P U. unfold zfloor. destruct (archimed x) as [A1 A2]. assert (0 < up x)%Z by (apply lt_IZR; lra). split.
  - lia.
  - rewrite INR_IZR_INZ in U. assert (up x - 1 < Z.of_nat n)%Z; [|lia]. apply lt_IZR. rewrite minus_IZR. lra.
Qed.
(** a given number of burn-in steps that is accepted, and the default fraction, leave samples of every walker *)
Theorem C153_burn_in : forall (row : Type) (walkers : list (list row)) nsteps b fraction factor act, 0 < nsteps -> walkers <> [] ->
  Forall (fun w => length w = nsteps) walkers -> (0 <= fraction < 1)%R ->
  (set_nburn nsteps (Some b) = Some (Some b) ->
     get_nburn (Some b) fraction factor nsteps act = b /\ check_nburn b nsteps = true /\ length (emcee_samples b walkers) = length walkers * (nsteps - b) /\ 0 < length (emcee_samples b walkers)) /\
  (let b := get_nburn None fraction factor nsteps None in
     check_nburn b nsteps = true /\ length (emcee_samples b walkers) = length walkers * (nsteps - b) /\ 0 < length (emcee_samples b walkers)) /\
  (forall t, let b := get_nburn None fraction factor nsteps (Some t) in
     (check_nburn b nsteps = false -> emcee_samples b walkers = []) /\
     (check_nburn b nsteps = true -> (emcee_samples b walkers = [] <-> b = nsteps))).
Proof.
  intros row walkers nsteps b fraction factor act P NE F FR.
  assert (LEN : forall b, length (emcee_samples b walkers) = length walkers * (nsteps - b)).
  { intros b0. unfold emcee_samples. rewrite (length_concat_rows (nsteps - b0)); [now rewrite map_length|].
    apply Forall_forall. intros r H. apply in_map_iff in H. destruct H as (w & <- & W). rewrite Forall_forall in F. now rewrite skipn_length, (F w W). }
  assert (LW : 0 < length walkers) by (destruct walkers; [congruence|cbn; lia]).
  assert (G : forall b, b < nsteps -> check_nburn b nsteps = true /\ length (emcee_samples b walkers) = length walkers * (nsteps - b) /\ 0 < length (emcee_samples b walkers)).
  { intros b0 B0. split; [|rewrite LEN; split; [reflexivity|nia]]. unfold check_nburn. destruct (nsteps <? b0) eqn:E; [|reflexivity]. apply Nat.ltb_lt in E. lia. }
  split; [|split].
  - intros E. split; [reflexivity|]. apply G. unfold set_nburn in E. destruct (Z.of_nat nsteps - 1 <? Z.of_nat b)%Z eqn:Z; [discriminate|]. apply Z.ltb_ge in Z. lia.
  - apply G. unfold get_nburn, trunc. pose proof (lt_0_INR nsteps P) as PR.
    destruct (Rle_dec 0 (fraction * INR nsteps)) as [Q|Q]; [|exfalso; apply Q, Rmult_le_pos; lra].
    apply zfloor_nonneg_lt; [exact Q|]. nra.
  - intros t. cbv zeta. set (b0 := get_nburn None fraction factor nsteps (Some t)). unfold check_nburn.
    assert (Z : emcee_samples b0 walkers = [] <-> nsteps <= b0).
    { specialize (LEN b0). split; intros H; [rewrite H in LEN; cbn [length] in LEN; symmetry in LEN; apply Nat.eq_mul_0 in LEN; lia|]. apply length_zero_iff_nil. rewrite LEN. replace (nsteps - b0) with 0 by lia. lia. }
    rewrite Z. destruct (nsteps <? b0) eqn:E; cbn [negb]; split; intros H; try discriminate.
    + apply Nat.ltb_lt in E. lia.
    + apply Nat.ltb_ge in E. lia.
Qed.

Lemma zfloor_int z : zfloor (IZR z) = z.
Proof. unfold zfloor. pose proof (tech_up (IZR z) (z + 1)) as H. rewrite <- H; [lia| |]; rewrite plus_IZR; lra. Qed.
(** a burn-in of as many steps as were done passes the check, with no samples left *)
Theorem C153_not_burned_in_detected_refuted : exists (walkers : list (list nat)), Forall (fun w => length w = 6) walkers /\
  check_nburn (get_nburn None (1/4) 3 6 (Some 2)) 6 = true /\ emcee_samples (get_nburn None (1/4) 3 6 (Some 2)) walkers = [].
Proof.
  assert (E : get_nburn None (1/4) 3 6 (Some 2) = 6).
  { unfold get_nburn, trunc. replace (3 * INR 2)%R with (IZR 6) by (cbn; lra). destruct (Rle_dec 0 (IZR 6)) as [_|N]; [now rewrite zfloor_int|exfalso; apply N; lra]. }
  exists [[1; 2; 3; 4; 5; 6]]. rewrite E. split; [repeat constructor|]. split; reflexivity.
Qed.
Example C153_example : option_map (fun s => (chain s, file s)) (erun [EStep 1; EKill; EStep 2; ESignal; EStep 3; ESignal]) = Some ([2; 3], [2; 3]).
Proof. reflexivity. Qed.

(** ** Assumptions of every theorem above *)
Definition Ensemble_Props_all :=
  (@C147_ptemcee_samples,
   @C147_ptemcee_aligned,
   @C147_kombine_aligned,
   @C147_emcee_order,
   @C147_emcee_aligned,
   @C147_emcee_permutation,
   @C147_emcee_aligned_refuted,
   @C147_kombine_walkers,
   @C147_kombine_walkers_refuted,
   @C148_refinement,
   @C148_resume,
   @C148_always_resumes_refuted,
   @C153_file_complete,
   @C153_signals,
   @C153_file_equals_chain_refuted,
   @C153_total_steps,
   @C153_burn_in,
   @C153_not_burned_in_detected_refuted).
Print Assumptions Ensemble_Props_all.
