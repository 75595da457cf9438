(** C229: how the settings of ultranest, nessai and cpnest reach the calls made; the fake sampler. *)
From Coq Require Import String List Bool Arith Lia.
From Verif Require Import PyDict NestKw_Model.
Import ListNotations.
Open Scope string_scope.
Open Scope list_scope.

Section Values.
Variable V : Type.
Variable is_none : V -> bool.
Notation pick := (pick V).

Lemma dget_app (a b : dict V) k : dget (a ++ b) k = match dget a k with Some v => Some v | None => dget b k end.
Proof. induction a as [|[k' v] a IH]; [reflexivity|]. cbn. destruct (String.eqb k k'); [reflexivity|exact IH]. Qed.
Lemma dget_pick keys d k : dget (pick keys d) k = if existsb (String.eqb k) keys then dget d k else None.
Proof.
  induction keys as [|a keys IH]; [reflexivity|]. change (pick (a :: keys) d) with ((match dget d a with Some v => [(a, v)] | None => [] end) ++ pick keys d).
  rewrite dget_app, IH. cbn [existsb]. destruct (String.eqb_spec k a) as [->|N]; cbn [orb].
  - destruct (dget d a) eqn:E; cbn; [rewrite String.eqb_refl; reflexivity|]. destruct (existsb _ keys); reflexivity.
  - destruct (dget d a) eqn:E; cbn; [|reflexivity]. destruct (String.eqb_spec k a); [contradiction|reflexivity].
Qed.
Lemma dget_del (d : dict V) a k : wf d -> dget (ddel d a) k = if String.eqb k a then None else dget d k.
Proof. intros W. destruct (String.eqb_spec k a) as [->|N]; [apply dget_del_eq, W|apply dget_del_ne, N]. Qed.
Lemma wf_del (d : dict V) a : wf d -> wf (ddel d a).
Proof.
  unfold wf. induction d as [|[k v] d IH]; intros W; [exact W|]. cbn. inversion W as [|? ? N W']; subst. destruct (String.eqb a k); [exact W'|].
  cbn. constructor; [|apply IH, W']. intros I. apply N. apply (dkeys_del_in d a k W'). exact I.
Qed.
Lemma dget_set (d : dict V) a k v : dget (dset d a v) k = if String.eqb k a then Some v else dget d k.
Proof. destruct (String.eqb_spec k a) as [->|N]; [apply dget_set_eq|apply dget_set_ne, N]. Qed.
Lemma wf_set (d : dict V) a v : wf d -> wf (dset d a v).
Proof.
  unfold wf. intros W. rewrite dkeys_set. destruct (dmem d a) eqn:E; [exact W|].
  assert (N : ~ In a (dkeys d)) by (rewrite <- dget_none; unfold dmem in E; destruct (dget d a); [discriminate|reflexivity]).
  clear E. induction (dkeys d) as [|x l IH]; [repeat constructor; auto|]. inversion W; subst. cbn. constructor; [|apply IH; [assumption|intros I; apply N; right; exact I]].
  rewrite in_app_iff. intros [I|[<-|[]]]; [contradiction|apply N; left; reflexivity].
Qed.

(** the settings prepared by run_sampler, looked up *)
Lemma prepared cb dir d e k : wf d -> ultranest_prepare V is_none cb dir d = Ok e ->
  dget e k = if String.eqb k "log_dir" then Some dir else if String.eqb k "step_sampler" then None else
             if String.eqb k "viz_callback" then option_map (fun c => if is_none c then cb else c) (dget d k) else
             if String.eqb k "dlogz" then match dget d k with Some z => if is_none z then None else Some z | None => None end else dget d k.
Proof.
  intros W. unfold ultranest_prepare. destruct (dget d "dlogz") as [z|] eqn:Z; [|discriminate]. destruct (dget d "viz_callback") as [c|] eqn:Q; [|discriminate].
  intros H. injection H as <-. rewrite dget_set. destruct (String.eqb_spec k "log_dir"); [reflexivity|].
  rewrite dget_del by (destruct (is_none z), (is_none c); repeat first [apply wf_set|apply wf_del]; exact W). destruct (String.eqb_spec k "step_sampler"); [reflexivity|].
  destruct (String.eqb_spec k "viz_callback") as [->|N1].
  - destruct (is_none c) eqn:C; [rewrite dget_set, String.eqb_refl, Q; cbn; rewrite C; reflexivity|].
    destruct (is_none z); rewrite ?dget_del_ne by discriminate; rewrite Q; cbn; rewrite C; reflexivity.
  - destruct (String.eqb_spec k "dlogz") as [->|N2].
    + rewrite Z. destruct (is_none c), (is_none z); rewrite ?dget_set_ne by discriminate; rewrite ?dget_del_eq by exact W; rewrite ?Z; reflexivity.
    + destruct (is_none c), (is_none z); rewrite ?dget_set_ne by exact N1; rewrite ?dget_del_ne by exact N2; reflexivity.
Qed.

(** ** C229 ultranest without a number of live points: each setting reaches exactly one of constructor and run, unchanged *)
Theorem C229_reactive cb dir d e n : wf d -> dget d "num_live_points" = Some n -> is_none n = true -> ultranest_prepare V is_none cb dir d = Ok e ->
  let init := ultranest_init V is_none e in let run := ultranest_run V is_none e in
  (forall k v, In k ultranest_names -> ~ In k ["num_live_points"; "update_interval_iter"; "step_sampler"; "log_dir"; "viz_callback"; "dlogz"] -> dget d k = Some v ->
     (dget init k = Some v /\ dget run k = None) \/ (dget init k = None /\ dget run k = Some v)) /\
  (forall k, In k ["num_live_points"; "update_interval_iter"; "step_sampler"] -> dget init k = None /\ dget run k = None) /\
  (forall z, dget d "dlogz" = Some z -> dget run "dlogz" = if is_none z then None else Some z) /\
  (forall c, dget d "viz_callback" = Some c -> dget run "viz_callback" = Some (if is_none c then cb else c)) /\ dget init "log_dir" = Some dir.
Proof.
  intros W L NL Pr. cbv zeta.
  assert (LP : live_points V is_none e = false) by (unfold live_points; rewrite (prepared cb dir d e _ W Pr); cbn; rewrite L, NL; reflexivity).
  unfold ultranest_init, ultranest_run. rewrite LP.
  repeat match goal with |- _ /\ _ => split end.
  - intros k v I N Dk. rewrite !dget_pick, !(prepared cb dir d e k W Pr), Dk. unfold ultranest_names in I. cbn [In] in I, N.
    repeat (destruct I as [<- | I]; [cbn; tauto|]). destruct I.
  - intros k I. rewrite !dget_pick. cbn [In] in I. destruct I as [<- | [<- | [<- | []]]]; cbn; tauto.
  - intros z Z. rewrite dget_pick, (prepared cb dir d e _ W Pr), Z. reflexivity.
  - intros c Q. rewrite dget_pick, (prepared cb dir d e _ W Pr), Q. reflexivity.
  - rewrite dget_pick, (prepared cb dir d e _ W Pr). reflexivity.
Qed.
(** ** C229 With a number of live points twelve settings arrive, and the callback, the status line and the stopping criteria do not *)
Definition arriving := ["resume"; "num_live_points"; "wrapped_params"; "derived_param_names"; "run_num"; "vectorized"; "update_interval_iter"; "update_interval_ncall"; "log_interval"; "max_iters"].
Definition lost := ["show_status"; "viz_callback"; "dKL"; "frac_remain"; "Lepsilon"; "min_ess"; "max_ncalls"; "max_num_improvement_loops"; "min_num_live_points"; "cluster_num_live_points"; "num_test_samples"; "draw_multiple";
  "num_bootstraps"; "update_interval_volume_fraction"; "step_sampler"].
Theorem C229_live_points cb dir d e n : wf d -> dget d "num_live_points" = Some n -> is_none n = false -> ultranest_prepare V is_none cb dir d = Ok e ->
  let init := ultranest_init V is_none e in let run := ultranest_run V is_none e in
  (forall k, In k ultranest_names <-> In k (arriving ++ lost ++ ["dlogz"; "log_dir"])) /\
  (forall k v, In k arriving -> dget d k = Some v -> (dget init k = Some v /\ dget run k = None) \/ (dget init k = None /\ dget run k = Some v)) /\
  (forall k, In k lost -> dget init k = None /\ dget run k = None) /\
  (forall z, dget d "dlogz" = Some z -> dget run "dlogz" = if is_none z then None else Some z) /\ dget init "log_dir" = Some dir.
Proof.
  intros W L NL Pr. cbv zeta.
  assert (LP : live_points V is_none e = true) by (unfold live_points; rewrite (prepared cb dir d e _ W Pr); cbn; rewrite L, NL; reflexivity).
  unfold ultranest_init, ultranest_run. rewrite LP.
  repeat match goal with |- _ /\ _ => split end.
  - intros k. unfold ultranest_names, arriving, lost. cbn. tauto.
  - intros k v I Dk. rewrite !dget_pick, !(prepared cb dir d e k W Pr), Dk. unfold arriving in I. cbn [In] in I.
    repeat (destruct I as [<- | I]; [cbn; tauto|]). destruct I.
  - intros k I. rewrite !dget_pick. unfold lost in I. cbn [In] in I. repeat (destruct I as [<- | I]; [cbn; tauto|]). destruct I.
  - intros z Z. rewrite dget_pick, (prepared cb dir d e _ W Pr), Z. reflexivity.
  - rewrite dget_pick, (prepared cb dir d e _ W Pr). reflexivity.
Qed.
(** ** C229 A second run with the same object fails where dlogz was left at None *)
Theorem C229_again_refuted cb dir d e z : wf d -> dget d "dlogz" = Some z -> is_none z = true -> ultranest_prepare V is_none cb dir d = Ok e ->
  ultranest_prepare V is_none cb dir e = KeyErr.
Proof. intros W Z NZ Pr. unfold ultranest_prepare at 1. rewrite (prepared cb dir d e "dlogz" W Pr), Z, NZ. reflexivity. Qed.

(** ** C229 nessai: every setting goes to exactly one of the two calls; the plotting of the run is nessai_plot *)
Lemma pops_get keys : forall d run d' run' k, wf d -> pops V keys d run = Ok (d', run') ->
  dget d' k = (if existsb (String.eqb k) keys then None else dget d k) /\ dget run' k = (if existsb (String.eqb k) keys then dget d k else dget run k) /\ wf d'.
Proof.
  induction keys as [|a keys IH]; intros d run d' run' k W H.
  - injection H as <- <-. split; [reflexivity|]. split; [reflexivity|exact W].
  - cbn [pops] in H. destruct (dget d a) as [v|] eqn:E; [|discriminate]. destruct (IH _ _ _ _ k (wf_del d a W) H) as (A & B & D). rewrite A, B, dget_del, dget_set by exact W. cbn [existsb].
    destruct (String.eqb_spec k a) as [->|N]; cbn [orb]; [|auto]. rewrite E. destruct (existsb _ keys) eqn:X; [|auto].
    exfalso. clear - X E H W. revert H. assert (Q : dget (ddel d a) a = None) by (apply dget_del_eq, W). revert Q. generalize (ddel d a) (dset run a v). 
    intros q. revert q. induction keys as [|b keys IH]; intros q r Q H; [discriminate|]. cbn [existsb] in X. cbn [pops] in H. destruct (String.eqb_spec a b) as [->|N]; [rewrite Q in H; discriminate|].
    destruct (dget q b); [|discriminate]. eapply (IH X (ddel q b)); [|exact H]. rewrite dget_del_ne by exact N. exact Q.
Qed.
Lemma pops_all keys : forall d run, NoDup keys -> (forall k, In k keys -> dget d k <> None) -> exists r, pops V keys d run = Ok r.
Proof.
  induction keys as [|a keys IH]; intros d run N H; [eexists; reflexivity|]. inversion N; subst. cbn [pops]. destruct (dget d a) eqn:E; [|exfalso; apply (H a); [left; reflexivity|exact E]].
  apply IH; [assumption|]. intros k I. rewrite dget_del_ne; [apply H; right; exact I|]. intros ->. contradiction.
Qed.
Lemma in_existsb k l : existsb (String.eqb k) l = true <-> In k l.
Proof. rewrite existsb_exists. split; [intros (x & I & E); apply String.eqb_eq in E; subst; exact I|intros I; exists k; split; [exact I|apply String.eqb_refl]]. Qed.
Lemma in_run_list k l : NoDup l -> (In k (run_list l) <-> In k l /\ k <> "save").
Proof.
  unfold run_list. induction l as [|x l IH]; intros N; [cbn; tauto|]. inversion N; subst. cbn [remove_first]. destruct (String.eqb_spec x "save") as [->|E].
  - split; [intros I; split; [right; exact I|intros ->; contradiction]|intros [[<- | I] Q]; [congruence|exact I]].
  - cbn [In]. rewrite IH by assumption. split; [intros [<- | [A B]]; auto|intros [[<- | A] B]; auto].
Qed.
Lemma nodup_run_list l : NoDup l -> NoDup (run_list l).
Proof.
  unfold run_list. induction l as [|x l IH]; intros N; [constructor|]. inversion N as [|? ? A B]; subst. cbn [remove_first]. destruct (String.eqb x "save"); [exact B|].
  constructor; [|apply IH, B]. intros I. apply A. apply (in_run_list x l B). exact I.
Qed.
Theorem C229_nessai package d : wf d -> NoDup package -> ~ In "nessai_plot" package -> dget d "nessai_plot" <> None -> (forall k, In k package -> k <> "save" -> dget d k <> None) ->
  exists init run, nessai_split V package d = Ok (init, run) /\ dget run "plot" = dget d "nessai_plot" /\ dget init "nessai_plot" = None /\
  (forall k, k <> "plot" -> k <> "nessai_plot" -> In k package -> k <> "save" -> dget run k = dget d k /\ dget init k = None) /\
  (forall k, k <> "plot" -> k <> "nessai_plot" -> (~ In k package \/ k = "save") -> dget init k = dget d k /\ dget run k = None) /\
  (In "plot" package -> dget init "plot" = None) /\ (~ In "plot" package -> dget init "plot" = dget d "plot").
Proof.
  intros W N NP P H. destruct (pops_all (run_list package) d [] (nodup_run_list _ N)) as [[d' run] E].
  { intros k I. apply in_run_list in I; [|exact N]. apply H; tauto. }
  assert (G := fun k => pops_get (run_list package) d [] d' run k W E).
  assert (RN : existsb (String.eqb "nessai_plot") (run_list package) = false).
  { destruct (existsb _ _) eqn:X; [|reflexivity]. apply in_existsb in X. apply in_run_list in X; [tauto|exact N]. }
  unfold nessai_split. rewrite E. destruct (G "nessai_plot") as (A & _ & W'). rewrite RN in A. destruct (dget d "nessai_plot") as [v|] eqn:Dv; [|congruence]. rewrite A.
  exists (ddel d' "nessai_plot"), (dset run "plot" v). split; [reflexivity|]. split; [apply dget_set_eq|]. split; [apply dget_del_eq, W'|].
  assert (In_ : forall k, In k package -> k <> "save" -> existsb (String.eqb k) (run_list package) = true) by (intros k I S; apply in_existsb, in_run_list; auto).
  assert (Out : forall k, ~ In k package \/ k = "save" -> existsb (String.eqb k) (run_list package) = false).
  { intros k O. destruct (existsb (String.eqb k) (run_list package)) eqn:X; [|reflexivity]. apply in_existsb in X. apply in_run_list in X; [tauto|exact N]. }
  split; [|split; [|split]].
  - intros k K1 K2 I S. rewrite dget_set_ne, dget_del_ne by assumption. destruct (G k) as (B & D & _). rewrite (In_ k I S) in *. auto.
  - intros k K1 K2 O. rewrite dget_set_ne, dget_del_ne by assumption. destruct (G k) as (B & D & _). rewrite (Out k O) in *. auto.
  - intros I. rewrite dget_del_ne by discriminate. destruct (G "plot") as (B & _). rewrite (In_ "plot" I) in B by discriminate. exact B.
  - intros O. rewrite dget_del_ne by discriminate. destruct (G "plot") as (B & _). rewrite (Out "plot") in B by (left; exact O). exact B.
Qed.

(** ** C229 cpnest: a constructor that raises TypeError is tried again without the proposals, then without the checkpoints too *)
Theorem C229_cpnest takes d : dget d "proposals" <> None -> dget d "n_periodic_checkpoint" <> None ->
  let d1 := ddel d "proposals" in let d2 := ddel d1 "n_periodic_checkpoint" in
  (forall e, cpnest_construct V takes d = Ok e <-> (takes d = true /\ e = d) \/ (takes d = false /\ takes d1 = true /\ e = d1) \/ (takes d = false /\ takes d1 = false /\ takes d2 = true /\ e = d2)) /\
  (cpnest_construct V takes d = TypeErr <-> takes d = false /\ takes d1 = false /\ takes d2 = false) /\ cpnest_construct V takes d <> KeyErr.
Proof.
  intros P C. cbv zeta. unfold cpnest_construct. cbn [cpnest_loop]. destruct (dget d "proposals"); [|congruence].
  rewrite dget_del_ne by discriminate. destruct (dget d "n_periodic_checkpoint"); [|congruence].
  destruct (takes d), (takes (ddel d "proposals")), (takes (ddel (ddel d "proposals") "n_periodic_checkpoint")); (split; [intros e; split; [intros H; try discriminate; injection H as <-; tauto|intros H; intuition (subst; try discriminate; reflexivity)]|split; [split; [intros H; try discriminate; tauto|intros (A & B & D); congruence]|discriminate]]).
Qed.
(** ** C229 Hence a fault in another setting can cost the user's proposals without an error *)
Theorem C229_cpnest_refuted (v : V) : exists takes (d : dict V), dget d "proposals" <> None /\ dget d "n_periodic_checkpoint" <> None /\ exists e, cpnest_construct V takes d = Ok e /\ dget e "proposals" = None.
Proof.
  exists (fun d => negb (dmem d "proposals")), [("proposals", v); ("n_periodic_checkpoint", v)]. split; [discriminate|]. split; [discriminate|].
  exists [("n_periodic_checkpoint", v)]. split; reflexivity.
Qed.
End Values.

(** ** C229 Proposals for cpnest: one cycle serves both kinds of walk, a dictionary is converted entry by entry *)
Definition fine (p : proposal) : Prop := match p with Jump _ | Native _ => True | _ => False end.
Definition converted (p : proposal) : proposal := match p with Jump n => Made n | q => q end.
Lemma resolve_each_ok d : (fst (resolve_each d) = true <-> Forall (fun q => fine (snd q)) d) /\ (fst (resolve_each d) = true -> snd (resolve_each d) = dmap converted d).
Proof.
  induction d as [|[k p] d [A B]]; [split; [split; auto|reflexivity]|]. cbn [resolve_each]. rewrite Forall_cons_iff. cbn [snd].
  destruct p; cbn [fine]; try (cbn [fst snd]; split; [split; [discriminate|tauto]|discriminate]);
    destruct (resolve_each d) as [ok t]; cbn [fst snd] in *; (split; [rewrite A; tauto|intros H; rewrite (B H); reflexivity]).
Qed.
Theorem C229_proposals :
  (forall n, resolve (Single (Jump n)) = (true, Dict [("mhs", Made n); ("hmc", Made n)])) /\ resolve NoProposals = (true, NoProposals) /\
  (forall d, fst (resolve (Dict d)) = true <-> Forall (fun q => fine (snd q)) d) /\
  (forall d, fst (resolve (Dict d)) = true -> snd (resolve (Dict d)) = Dict (dmap converted d)) /\
  (forall n, fst (resolve (Single (Native n))) = false).
Proof.
  repeat match goal with |- _ /\ _ => split end; try reflexivity; intros d; pose proof (resolve_each_ok d) as [A B]; cbn [resolve]; destruct (resolve_each d) as [ok t]; cbn [fst snd] in *; [exact A|].
  intros H. rewrite (B H). reflexivity.
Qed.
(** ** C229 A dictionary with a cycle of bilby's serves one run only: it holds classes afterwards, which the second run refuses *)
Theorem C229_reuse_refuted d k n : fst (resolve (Dict d)) = true -> In (k, Jump n) d -> fst (resolve (snd (resolve (Dict d)))) = false.
Proof.
  intros H I. destruct C229_proposals as (_ & _ & A & B & _). rewrite (B d H). destruct (fst (resolve (Dict (dmap converted d)))) eqn:E; [|reflexivity].
  exfalso. apply A in E. rewrite Forall_forall in E. specialize (E (k, Made n)). apply E. unfold dmap. apply in_map_iff. exists (k, Jump n). auto.
Qed.
(** ** C229 but one without serves any number, as does a single cycle that is passed again *)
Theorem C229_reuse d : fst (resolve (Dict d)) = true -> (forall k n, ~ In (k, Jump n) d) -> resolve (snd (resolve (Dict d))) = resolve (Dict d).
Proof.
  intros H N. destruct C229_proposals as (_ & _ & A & B & _). assert (Q : dmap converted d = d).
  { unfold dmap. rewrite <- (map_id d) at 2. apply map_ext_in. intros [k p] I. destruct p; try reflexivity. exfalso. exact (N k n I). }
  rewrite (B d H), Q. reflexivity.
Qed.

(** ** C229 The fake sampler: the ratio at each row in order; while verbose the rows need a log_likelihood *)
Theorem C229_fake {X} (ratio : dict X -> X) verbose rows left :
  ((verbose = false \/ Forall (fun r => dmem r "log_likelihood" = true) rows) -> fake_run ratio verbose rows left = Ok (map ratio rows, last rows left)) /\
  ((verbose = true /\ Exists (fun r => dmem r "log_likelihood" = false) rows) -> fake_run ratio verbose rows left = KeyErr).
Proof.
  revert left. induction rows as [|r rows IH]; intros left.
  - split; [reflexivity|]. intros [_ E]. inversion E.
  - destruct (IH r) as [A B]. cbn [fake_run]. split.
    + intros H. assert (Q : verbose && negb (dmem r "log_likelihood") = false).
      { destruct H as [->|H]; [reflexivity|]. inversion H as [|? ? E F]; subst. rewrite E. destruct verbose; reflexivity. }
      rewrite Q, A; [|destruct H as [H|H]; [left; exact H|inversion H; right; assumption]]. do 2 f_equal.
      clear. revert left r. induction rows as [|a t IH]; intros left r; [reflexivity|]. cbn [last] in *. destruct t; [reflexivity|]. apply (IH left r).
    + intros [-> E]. destruct (dmem r "log_likelihood") eqn:D; cbn [andb negb]; [|reflexivity]. inversion E as [? ? F|? ? F]; subst; [congruence|]. rewrite B by auto. reflexivity.
Qed.

Example C229_example :
  let none (v : nat) := Nat.eqb v 0 in
  let d := map (fun k => (k, if String.eqb k "num_live_points" then 500 else if String.eqb k "min_ess" then 7 else if String.eqb k "max_iters" then 9 else 0)) ultranest_names in
  match ultranest_prepare nat none 3 4 d with
  | Ok e => dget (ultranest_init nat none e) "num_live_points" = Some 500 /\ dget (ultranest_run nat none e) "max_iters" = Some 9 /\ dget (ultranest_run nat none e) "min_ess" = None /\
            dget (ultranest_run nat none e) "viz_callback" = None /\ dget (ultranest_run nat none e) "dlogz" = None
  | _ => False end /\
  nessai_split nat ["save"; "plot"; "close_pool"] [("nlive", 1); ("plot", 2); ("close_pool", 3); ("nessai_plot", 4)] = Ok ([("nlive", 1)], [("plot", 4); ("close_pool", 3)]) /\
  resolve (Dict [("mhs", Jump 1); ("hmc", Native 2)]) = (true, Dict [("mhs", Made 1); ("hmc", Native 2)]) /\
  fake_run (fun r => match dget r "x" with Some v => v | None => 0 end) true [[("x", 1); ("log_likelihood", 5)]; [("x", 2); ("log_likelihood", 6)]] [] = Ok ([1; 2], [("x", 2); ("log_likelihood", 6)]).
Proof. vm_compute. repeat split. Qed.

(** ** Assumptions of every theorem above *)
Definition NestKw_Props_all :=
  (@C229_reactive,
   @C229_live_points,
   @C229_again_refuted,
   @C229_nessai,
   @C229_cpnest,
   @C229_cpnest_refuted,
   @C229_proposals,
   @C229_reuse_refuted,
   @C229_reuse,
   @C229_fake).
Print Assumptions NestKw_Props_all.
