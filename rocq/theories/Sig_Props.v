(** Theorems about inferred parameters and the calls made with them (C225) *)
From Coq Require Import String List Bool Arith Lia Permutation.
From Verif Require Import PyDict Sig_Model.
Import ListNotations.
Open Scope list_scope.

(** Python accepts no signature with a name twice *)
Definition good (s : sig) : Prop := NoDup (map fst (positional s) ++ map fst (keyword_only s)).

Lemma app_disjoint (l1 l2 : list string) k : NoDup (l1 ++ l2) -> In k l1 -> In k l2 -> False.
Proof.
  intros ND I1 I2. induction l1 as [|a l1 IH]; [destruct I1|]. cbn in ND. inversion ND as [|? ? NI ND']; subst.
  destruct I1 as [->|I1]; [apply NI, in_or_app; right; exact I2|exact (IH ND' I1)].
Qed.
Lemma app_left (l1 l2 : list string) : NoDup (l1 ++ l2) -> NoDup l1.
Proof. induction l1 as [|a l1 IH]; intros ND; [constructor|]. cbn in ND. inversion ND as [|? ? NI ND']; subst. constructor; [intros I; apply NI, in_or_app; left; exact I|exact (IH ND')]. Qed.

Section Bind.
Variable V : Type.
Notation call := (@call V). Notation bind := (@bind V). Notation fill := (@fill V).
Definition given (o i : nat) (k : string) (kw : dict V) : option V := if (i <? o)%nat then None else dget kw k.

Lemma fill_cons o i k d ps args kw : fill o i ((k, d) :: ps) args kw =
  match match args with
        | a :: _ => match given o i k kw with Some _ => None | None => Some (Some a) end
        | [] => match given o i k kw with Some v => Some (Some v) | None => if d then Some None else None end
        end with
  | None => None
  | Some v => match fill o (S i) ps (tl args) kw with Some l => Some ((k, v) :: l) | None => None end
  end.
Proof. reflexivity. Qed.
Lemma fill_nil_ok o kw ps : forall i, (forall j k, nth_error ps j = Some (k, false) -> given o (i + j) k kw <> None) ->
  exists l, fill o i ps [] kw = Some l.
Proof.
  induction ps as [|[k d] ps IH]; intros i H; [exists []; reflexivity|]. rewrite fill_cons. cbn [tl].
  destruct (IH (S i)) as [l E]. { intros j k' N. specialize (H (S j) k' N). rewrite Nat.add_succ_r in H. exact H. }
  rewrite E. destruct (given o i k kw) eqn:G; [eauto|]. destruct d; [eauto|]. exfalso. apply (H 0 k); [reflexivity|rewrite Nat.add_0_r; exact G].
Qed.
Lemma fill_nil_inv o kw ps : forall i l, fill o i ps [] kw = Some l -> map fst l = map fst ps /\
  forall j k d, nth_error ps j = Some (k, d) -> nth_error l j = Some (k, given o (i + j) k kw) /\ (d = false -> given o (i + j) k kw <> None).
Proof.
  induction ps as [|[k d] ps IH]; intros i l H.
  - injection H as <-. split; [reflexivity|]. intros [|j] k d N; discriminate N.
  - rewrite fill_cons in H. cbn [tl] in H. destruct (fill o (S i) ps [] kw) as [l'|] eqn:E.
    + destruct (IH _ _ E) as [F G]. assert (HL : l = (k, given o i k kw) :: l' /\ (d = false -> given o i k kw <> None)).
      { destruct (given o i k kw); [injection H as <-; split; [reflexivity|discriminate]|]. destruct d; [injection H as <-; split; [reflexivity|discriminate]|discriminate H]. }
      destruct HL as [-> HD]. split; [cbn [map fst]; rewrite F; reflexivity|]. intros [|j] k' d' N; cbn [nth_error] in *.
      * injection N as <- <-. rewrite Nat.add_0_r. split; [reflexivity|exact HD].
      * rewrite Nat.add_succ_r. exact (G j k' d' N).
    + exfalso. destruct (given o i k kw); [discriminate H|]. destruct d; discriminate H.
Qed.
Lemma mem_in k l : mem k l = true <-> In k l.
Proof. unfold mem. rewrite existsb_exists. split; [intros (x & I & E); apply String.eqb_eq in E; subst; exact I|intros I; exists k; split; [exact I|apply String.eqb_refl]]. Qed.
Lemma unknown_nil s (kw : dict V) : (0 <? length (filter (fun kv => negb (mem (fst kv) (by_keyword s))) kw))%nat = false <-> forall k, In k (dkeys kw) -> In k (by_keyword s).
Proof.
  induction kw as [|[k v] kw IH]; cbn [filter dkeys map fst]; [split; [intros _ k []|reflexivity]|].
  destruct (mem k (by_keyword s)) eqn:E; cbn [negb].
  - rewrite IH. apply mem_in in E. split; [intros H k' [<- | I]; auto|intros H k' I; apply H; right; exact I].
  - split; [discriminate|]. intros H. exfalso. assert (I : In k (by_keyword s)) by (apply H; left; reflexivity). apply mem_in in I. congruence.
Qed.

(** When f(x, **kw) is accepted *)
Definition accepted (s : sig) (kw : dict V) : Prop :=
  (positional s = [] -> star s = true) /\
  (starstar s = false -> forall k, In k (dkeys kw) -> In k (by_keyword s)) /\
  (forall k d, nth_error (positional s) 0 = Some (k, d) -> only s = 0%nat -> ~ In k (dkeys kw)) /\
  (forall j k, (0 < j)%nat -> nth_error (positional s) j = Some (k, false) -> (only s <= j)%nat /\ In k (dkeys kw)) /\
  (forall k, In (k, false) (keyword_only s) -> In k (dkeys kw)).
Lemma has_key (kw : dict V) k : dget kw k <> None <-> In k (dkeys kw).
Proof. rewrite dget_none. destruct (in_dec string_dec k (dkeys kw)); split; intros H; tauto. Qed.
Lemma named_get (l : list (string * option V)) j k v : NoDup (map fst l) -> nth_error l j = Some (k, v) -> dget l k = Some v.
Proof. intros N E. apply dget_in; [exact N|]. apply nth_error_In with j. exact E. Qed.

Lemma bind_one s x kw : good s -> (accepted s kw <-> exists b, bind s [x] kw = Ok b).
Proof.
  intros G. unfold bind. set (unknown := filter _ kw). split.
  - intros (A & D & E & B & C).
    assert (H1 : negb (star s) && (length (positional s) <? length [x])%nat = false).
    { destruct (positional s) as [|p ps]; [rewrite (A eq_refl); reflexivity|]. cbn. apply andb_false_r. }
    rewrite H1. assert (H2 : negb (starstar s) && (0 <? length unknown)%nat = false).
    { destruct (starstar s); [reflexivity|]. cbn [negb andb]. apply unknown_nil, D. reflexivity. }
    rewrite H2. destruct (fill_nil_ok 0 kw (keyword_only s) 0) as [lb LB].
    { intros j k N. unfold given. cbn. apply has_key, C. apply nth_error_In with j. exact N. }
    rewrite LB. destruct (positional s) as [|[k d] ps]; [cbn [Sig_Model.fill]; eauto|].
    rewrite fill_cons. cbn [tl]. destruct (fill_nil_ok (only s) kw ps 1) as [la LA].
    { intros j k' N. destruct (B (S j) k' ltac:(lia) N) as [L I]. unfold given. destruct (Nat.ltb_spec (1 + j) (only s)); [lia|]. apply has_key, I. }
    rewrite LA. unfold given. destruct (Nat.ltb_spec 0 (only s)); [eauto|]. destruct (dget kw k) eqn:W; [|eauto].
    exfalso. apply (E k d eq_refl ltac:(lia)). apply has_key. congruence.
  - intros [b H]. destruct (negb (star s) && _) eqn:H1; [discriminate|]. destruct (negb (starstar s) && _) eqn:H2; [discriminate|].
    destruct (fill (only s) 0 (positional s) [x] kw) as [la|] eqn:LA; [|discriminate]. destruct (fill 0 0 (keyword_only s) [] kw) as [lb|] eqn:LB; [|discriminate].
    destruct (fill_nil_inv _ _ _ _ _ LB) as [_ FB].
    split. { intros Z. rewrite Z in H1. destruct (star s); [reflexivity|discriminate]. }
    split. { intros Z. rewrite Z in H2. cbn [negb andb] in H2. apply unknown_nil, H2. }
    split; [|split].
    + intros k d N O I. destruct (positional s) as [|p ps]; [discriminate|]. injection N as ->. rewrite fill_cons in LA. unfold given in LA. rewrite O in LA. cbn [Nat.ltb Nat.leb] in LA.
      apply has_key in I. destruct (dget kw k); [discriminate|contradiction].
    + intros [|j] k J N; [lia|]. destruct (positional s) as [|[p d] ps]; [discriminate|]. cbn [nth_error] in N. rewrite fill_cons in LA. cbn [tl] in LA.
      destruct (given (only s) 0 p kw); [discriminate|]. destruct (fill (only s) 1 ps [] kw) as [l|] eqn:L; [|discriminate].
      destruct (fill_nil_inv _ _ _ _ _ L) as [_ F]. destruct (F j k false N) as [_ NN]. specialize (NN eq_refl). unfold given in NN.
      destruct (Nat.ltb_spec (1 + j) (only s)); [contradiction|]. split; [lia|]. apply has_key, NN.
    + intros k I. apply In_nth_error in I. destruct I as [j N]. destruct (FB j k false N) as [_ NN]. specialize (NN eq_refl). apply has_key, NN.
Qed.
Lemma bind_error s x kw : (forall b, bind s [x] kw <> Ok b) -> bind s [x] kw = Raise TypeError.
Proof.
  intros H. unfold bind in *. destruct (negb (star s) && _); [reflexivity|]. destruct (negb (starstar s) && _); [reflexivity|].
  destruct (fill (only s) 0 _ _ kw); [|reflexivity]. destruct (fill 0 0 _ _ kw); [|reflexivity]. exfalso. eapply H. reflexivity.
Qed.
(** What each parameter then receives: None stands for its default *)
Lemma bind_values s x kw b : good s -> bind s [x] kw = Ok b ->
  (forall k d, nth_error (positional s) 0 = Some (k, d) -> dget (named _ b) k = Some (Some x)) /\
  (forall j k d, (0 < j)%nat -> nth_error (positional s) j = Some (k, d) -> dget (named _ b) k = Some (given (only s) j k kw)) /\
  (forall k d, In (k, d) (keyword_only s) -> dget (named _ b) k = Some (dget kw k)) /\
  extra_args _ b = match positional s with [] => [x] | _ => [] end.
Proof.
  intros G H. unfold bind in H. destruct (negb (star s) && _) eqn:H1; [discriminate|]. destruct (negb (starstar s) && _) eqn:H2; [discriminate|].
  destruct (fill (only s) 0 (positional s) [x] kw) as [la|] eqn:LA; [|discriminate]. destruct (fill 0 0 (keyword_only s) [] kw) as [lb|] eqn:LB; [|discriminate].
  injection H as <-. cbn [named extra_args]. destruct (fill_nil_inv _ _ _ _ _ LB) as [MB FB].
  assert (PA : map fst la = map fst (positional s) /\ (forall k d, nth_error (positional s) 0 = Some (k, d) -> nth_error la 0 = Some (k, Some x)) /\
    forall j k d, (0 < j)%nat -> nth_error (positional s) j = Some (k, d) -> nth_error la j = Some (k, given (only s) j k kw)).
  { destruct (positional s) as [|[p d] ps].
    - injection LA as <-. split; [reflexivity|]. split; [discriminate|]. intros [|j] k d' J N; discriminate.
    - rewrite fill_cons in LA. cbn [tl] in LA. destruct (given (only s) 0 p kw); [discriminate|]. destruct (fill (only s) 1 ps [] kw) as [l|] eqn:L; [|discriminate].
      injection LA as <-. destruct (fill_nil_inv _ _ _ _ _ L) as [M F]. split; [cbn [map fst]; rewrite M; reflexivity|]. split.
      + intros k d' N. injection N as <- <-. reflexivity.
      + intros [|j] k d' J N; [lia|]. cbn [nth_error] in *. apply (F j k d' N). }
  destruct PA as (MA & P0 & PJ).
  assert (W : NoDup (map fst (la ++ lb))) by (rewrite map_app, MA, MB; exact G).
  assert (NA : forall j p, nth_error la j = Some p -> nth_error (la ++ lb) j = Some p).
  { intros j p N. rewrite nth_error_app1; [exact N|]. apply nth_error_Some. congruence. }
  split; [intros k d N; eapply named_get; [exact W|apply NA, P0 with d; exact N]|].
  split; [intros j k d J N; eapply named_get; [exact W|apply NA, PJ with d; assumption]|].
  split. 2:{ destruct (positional s) as [|p ps]; [reflexivity|]. cbn. destruct ps; reflexivity. }
  intros k d I. apply In_nth_error in I. destruct I as [j N]. destruct (FB j k d N) as [E _]. eapply named_get with (j := (length la + j)%nat); [exact W|].
  rewrite nth_error_app2 by lia. replace (length la + j - length la)%nat with j by lia. rewrite E. reflexivity.
Qed.
End Bind.

Section Likelihood.
Variable V : Type.
Notation callable := (@callable V).

Lemma select_ok ks (d : dict V) : (forall k, In k ks -> dget d k <> None) -> exists m, select V ks d = Ok m.
Proof.
  induction ks as [|k ks IH]; intros H; [exists []; reflexivity|]. cbn [select]. destruct (dget d k) eqn:E; [|exfalso; apply (H k); [left; reflexivity|exact E]].
  destruct IH as [m ->]; [intros; apply H; right; assumption|]. eauto.
Qed.
Lemma select_inv ks (d m : dict V) : select V ks d = Ok m -> dkeys m = ks /\ (forall k, dget m k = if mem k ks then dget d k else None) /\ forall k, In k ks -> dget d k <> None.
Proof.
  revert m. induction ks as [|k ks IH]; intros m H; cbn [select] in H.
  - injection H as <-. split; [reflexivity|]. split; [reflexivity|intros k []].
  - destruct (dget d k) as [v|] eqn:E; [|discriminate]. destruct (select V ks d) as [r|e] eqn:S; [|discriminate]. injection H as <-.
    destruct (IH r eq_refl) as (K & G & F). split; [cbn; rewrite <- K; reflexivity|]. split.
    + intros k'. cbn [dget]. unfold mem. cbn [existsb]. destruct (String.eqb_spec k' k) as [->|N]; [cbn; congruence|]. cbn [orb]. apply G.
    + intros k' [<-|I]; [congruence|apply F, I].
Qed.
Lemma select_error ks (d : dict V) e : select V ks d = Raise e -> e = KeyError /\ exists k, In k ks /\ dget d k = None.
Proof.
  induction ks as [|k ks IH]; cbn [select]; [discriminate|]. destruct (dget d k) eqn:E; [|intros H; injection H as <-; split; [reflexivity|exists k; split; [left; reflexivity|exact E]]].
  destruct (select V ks d) as [r|e']; [discriminate|]. intros H. injection H as ->. destruct (IH eq_refl) as (-> & k' & I & N). split; [reflexivity|]. exists k'. split; [right; exact I|exact N].
Qed.
Lemma dget_app (a b : dict V) k : dget (a ++ b) k = match dget a k with Some v => Some v | None => dget b k end.
Proof. induction a as [|[k' v] a IH]; [reflexivity|]. cbn [app dget]. destruct (String.eqb k k'); [reflexivity|exact IH]. Qed.
Lemma keys_app (a b : dict V) : dkeys (a ++ b) = dkeys a ++ dkeys b.
Proof. apply map_app. Qed.
Lemma first_rest s k d : good s -> nth_error (positional s) 0 = Some (k, d) -> ~ In k (except_n 1 s).
Proof.
  unfold good, except_n. intros G N. destruct (positional s) as [|p ps]; [discriminate|]. injection N as ->. cbn [map fst skipn app] in *. inversion G as [|? ? NI _]; subst. intros I. apply NI, in_or_app. left. exact I.
Qed.
Lemma later_in s j k d : (0 < j)%nat -> nth_error (positional s) j = Some (k, d) -> In k (except_n 1 s).
Proof.
  intros J N. unfold except_n. destruct (positional s) as [|p ps]; [destruct j; discriminate|]. destruct j; [lia|]. cbn [nth_error] in N. cbn [map skipn].
  apply nth_error_In in N. change k with (fst (k, d)). apply in_map, N.
Qed.
Lemma in_later s k : In k (except_n 1 s) -> exists j d, (0 < j)%nat /\ nth_error (positional s) j = Some (k, d).
Proof.
  unfold except_n. destruct (positional s) as [|p ps]; [intros []|]. cbn [map skipn]. intros I. apply in_map_iff in I. destruct I as ([k' d] & <- & I).
  apply In_nth_error in I. destruct I as [j N]. exists (S j), d. split; [lia|exact N].
Qed.

(** the parameters that are sampled, and the value of one in a call *)
Definition sampled (s : sig) (kwargs : dict V) (k : string) : Prop := In k (except_n 1 s) /\ dget kwargs k = None.
Definition value (kwargs parameters : dict V) (k : string) : option V := match dget kwargs k with Some v => Some v | None => dget parameters k end.

Lemma keys_sampled s kwargs k : In k (filter (fun k => negb (dmem kwargs k)) (except_n 1 s)) <-> sampled s kwargs k.
Proof. rewrite filter_In. unfold sampled, dmem. destruct (dget kwargs k); cbn; intuition congruence. Qed.
Lemma merged s kwargs parameters m : select V (filter (fun k => negb (dmem kwargs k)) (except_n 1 s)) parameters = Ok m ->
  (forall k, In k (dkeys (m ++ kwargs)) <-> In k (except_n 1 s) \/ In k (dkeys kwargs)) /\
  (forall k, In k (except_n 1 s) -> dget (m ++ kwargs) k = value kwargs parameters k) /\
  (forall k, ~ In k (except_n 1 s) -> dget (m ++ kwargs) k = dget kwargs k).
Proof.
  intros H. apply select_inv in H. destruct H as (K & G & F). split; [|split].
  - intros k. rewrite keys_app, K, in_app_iff, keys_sampled. unfold sampled. destruct (dget kwargs k) eqn:E.
    + assert (I : In k (dkeys kwargs)) by (apply has_key; congruence). intuition congruence.
    + apply dget_none in E. intuition.
  - intros k I. rewrite dget_app, G. unfold value. destruct (mem k (filter _ _)) eqn:M.
    + apply mem_in in M. pose proof (F k M) as N. apply keys_sampled in M. destruct M as [_ M]. rewrite M. destruct (dget parameters k); [reflexivity|contradiction].
    + destruct (dget kwargs k) eqn:E; [reflexivity|]. exfalso. assert (X : In k (filter (fun k => negb (dmem kwargs k)) (except_n 1 s))) by (apply keys_sampled; split; assumption). apply mem_in in X. congruence.
  - intros k N. rewrite dget_app, G. destruct (mem k (filter _ _)) eqn:M; [|reflexivity]. exfalso. apply mem_in, keys_sampled in M. apply N, M.
Qed.

(** *** C225 The model function of a likelihood is called without error exactly if it takes the data first, every sampled parameter has a
    value, parameters after the first can be passed by name (or have a default and are swallowed by **kwargs), and the fixed arguments
    are known to it, do not name the data and include the keyword-only arguments without default. *)
Theorem C225_accepted s kwargs parameters x : good s ->
  ((exists b, evaluate V (Fn s) kwargs parameters x = Ok b) <->
   (forall k, sampled s kwargs k -> dget parameters k <> None) /\
   (positional s = [] -> star s = true) /\
   (forall j k d, (0 < j < only s)%nat -> nth_error (positional s) j = Some (k, d) -> d = true /\ starstar s = true) /\
   (forall k d, nth_error (positional s) 0 = Some (k, d) -> only s = 0%nat -> dget kwargs k = None) /\
   (forall k, dget kwargs k <> None -> starstar s = false -> In k (by_keyword s)) /\
   (forall k, In (k, false) (keyword_only s) -> dget kwargs k <> None)).
Proof.
  intros G. unfold evaluate, function_keys. cbn [infer].
  destruct (select V _ parameters) as [m|e] eqn:S.
  - destruct (merged _ _ _ _ S) as (K & V1 & V2). cbn [call]. rewrite <- (bind_one V s x (m ++ kwargs) G). unfold accepted. split.
    + intros (A & D & E & B & C).
      split. { intros k Hk. apply select_inv in S. destruct S as (_ & _ & F). apply F, keys_sampled, Hk. }
      split; [exact A|]. split; [|split; [|split]].
      * intros j k d J N. assert (I : In k (except_n 1 s)) by (eapply later_in; [|exact N]; lia). split.
        -- destruct d; [reflexivity|]. destruct (B j k ltac:(lia) N). lia.
        -- destruct (starstar s) eqn:SS; [reflexivity|]. exfalso. assert (IB : In k (by_keyword s)) by (apply D; [reflexivity|apply K; left; exact I]).
           unfold by_keyword in IB. apply in_app_or in IB. unfold good in G. 
           assert (NP : nth_error (map fst (positional s)) j = Some k) by (rewrite nth_error_map, N; reflexivity).
           destruct IB as [IB|IB].
           ++ rewrite <- (firstn_skipn (only s) (map fst (positional s))) in NP. rewrite nth_error_app1 in NP.
              2:{ rewrite firstn_length, map_length. apply Nat.min_glb_lt; [lia|]. apply nth_error_Some. congruence. }
              apply nth_error_In in NP. apply app_left in G. rewrite <- (firstn_skipn (only s) (map fst (positional s))) in G.
              exact (app_disjoint _ _ k G NP IB).
           ++ apply nth_error_In in NP. exact (app_disjoint _ _ k G NP IB).
      * intros k d N O. destruct (dget kwargs k) eqn:W; [|reflexivity]. exfalso. apply (E k d N O). apply K. right. apply has_key. congruence.
      * intros k H SS. apply (D SS). apply K. right. apply has_key, H.
      * intros k I. specialize (C k I). apply K in C. destruct C as [C|C]; [|apply has_key, C]. exfalso. unfold good in G. unfold except_n in C.
        assert (I1 : In k (map fst (positional s))) by (rewrite <- (firstn_skipn 1 (map fst (positional s))); apply in_or_app; right; exact C). assert (I2 : In k (map fst (keyword_only s))) by (change k with (fst (k, false)); apply in_map, I).
        exact (app_disjoint _ _ k G I1 I2).
    + intros (P & A & B & E & D & C). split; [exact A|]. split; [|split; [|split]].
      * intros SS k I. apply K in I. destruct I as [I|I]; [|apply D; [apply has_key, I|exact SS]].
        destruct (in_later _ _ I) as (j & d & J & N). destruct (Nat.lt_ge_cases j (only s)) as [L|L]; [destruct (B j k d ltac:(lia) N); congruence|].
        unfold by_keyword. apply in_or_app. left. assert (NP : nth_error (map fst (positional s)) j = Some k) by (rewrite nth_error_map, N; reflexivity).
        rewrite <- (firstn_skipn (only s) (map fst (positional s))) in NP. rewrite nth_error_app2 in NP by (rewrite firstn_length; lia). apply nth_error_In in NP. exact NP.
      * intros k d N O I. apply K in I. destruct I as [I|I]; [exact (first_rest s k d G N I)|]. apply has_key in I. apply I, (E k d N O).
      * intros j k J N. destruct (Nat.lt_ge_cases j (only s)) as [L|L]; [destruct (B j k false ltac:(lia) N); discriminate|]. split; [exact L|]. apply K. left. eapply later_in; [exact J|exact N].
      * intros k I. apply K. right. apply has_key, C, I.
  - split; [intros [b H]; discriminate|]. intros (P & _). exfalso. apply select_error in S. destruct S as (_ & k & I & N). apply keys_sampled in I. exact (P k I N).
Qed.
(** Then the data go to the first parameter, every other parameter gets its fixed value or else its sampled one, keyword-only ones their
    fixed value or default. *)
Theorem C225_values s kwargs parameters x b : good s -> evaluate V (Fn s) kwargs parameters x = Ok b ->
  (forall k d, nth_error (positional s) 0 = Some (k, d) -> dget (named _ b) k = Some (Some x)) /\
  (forall j k d, (0 < j)%nat -> nth_error (positional s) j = Some (k, d) ->
     dget (named _ b) k = Some (if (j <? only s)%nat then None else value kwargs parameters k)) /\
  (forall k d, In (k, d) (keyword_only s) -> dget (named _ b) k = Some (dget kwargs k)) /\
  extra_args _ b = match positional s with [] => [x] | _ => [] end.
Proof.
  intros G H. unfold evaluate, function_keys in H. cbn [infer] in H. destruct (select V _ parameters) as [m|e] eqn:S; [|discriminate]. cbn [call] in H.
  destruct (merged _ _ _ _ S) as (K & V1 & V2). destruct (bind_values V s x _ b G H) as (A & B & C & D). split; [exact A|]. split; [|split; [|exact D]].
  - intros j k d J N. rewrite (B j k d J N). unfold given. rewrite V1 by (eapply later_in; eassumption). reflexivity.
  - intros k d I. rewrite (C k d I). rewrite V2; [reflexivity|]. intros X. unfold good in G. unfold except_n in X.
    assert (I1 : In k (map fst (positional s))) by (rewrite <- (firstn_skipn 1 (map fst (positional s))); apply in_or_app; right; exact X). assert (I2 : In k (map fst (keyword_only s))) by (change k with (fst (k, d)); apply in_map, I).
    exact (app_disjoint _ _ k G I1 I2).
Qed.
(** What is sampled does not depend on values: the positional parameters after the first that are not fixed, so never a keyword-only one;
    entries of parameters beyond them change nothing. *)
Theorem C225_sampled s kwargs ks : good s -> function_keys V (Fn s) kwargs = Ok ks ->
  (forall k, In k ks <-> (exists j d, (0 < j)%nat /\ nth_error (positional s) j = Some (k, d)) /\ dget kwargs k = None) /\
  (forall k d, In (k, d) (keyword_only s) -> ~ In k ks) /\
  (forall p q x, (forall k, In k ks -> dget p k = dget q k) -> evaluate V (Fn s) kwargs p x = evaluate V (Fn s) kwargs q x).
Proof.
  intros G H. unfold function_keys in H. cbn [infer] in H. injection H as <-. split; [|split].
  - intros k. rewrite keys_sampled. unfold sampled. split; intros [A B]; (split; [|exact B]); [apply in_later, A|]. destruct A as (j & d & J & N). eapply later_in; eassumption.
  - intros k d I X. apply keys_sampled in X. destruct X as [X _]. apply in_later in X. destruct X as (j & d' & J & N). apply nth_error_In in N.
    assert (I1 : In k (map fst (positional s))) by (change k with (fst (k, d')); apply in_map, N). assert (I2 : In k (map fst (keyword_only s))) by (change k with (fst (k, d)); apply in_map, I).
    unfold good in G. exact (app_disjoint _ _ k G I1 I2).
  - intros p q x E. unfold evaluate, function_keys. cbn [infer]. set (ks := filter _ _) in *. assert (S : select V ks p = select V ks q).
    { clearbody ks. induction ks as [|k ks IH]; [reflexivity|]. cbn [select]. rewrite (E k) by (left; reflexivity). rewrite IH by (intros; apply E; right; assumption). reflexivity. }
    rewrite S. reflexivity.
Qed.
End Likelihood.

(** *** Methods: the instance is left out of the parameters and passed on *)
Section Methods.
Variable V : Type.
Definition without_self (s : sig) : sig := Sig (tl (positional s)) (only s - 1) (star s) (keyword_only s) (starstar s).
Lemma fill_shift o ps : forall i args (kw : dict V), fill V (S o) (S i) ps args kw = fill V o i ps args kw.
Proof. induction ps as [|[k d] ps IH]; intros; [reflexivity|]. rewrite !fill_cons, IH. reflexivity. Qed.
Lemma fill_zero ps : forall i j args (kw : dict V), fill V 0 i ps args kw = fill V 0 j ps args kw.
Proof. induction ps as [|[k d] ps IH]; intros; [reflexivity|]. rewrite !fill_cons, (IH (S i) (S j)). reflexivity. Qed.
Lemma bind_method s (v : V) self d ps args kw : positional s = (self, d) :: ps -> ~ In self (dkeys kw) -> ~ In self (map fst ps) ->
  bind V s (v :: args) kw = match bind V (without_self s) args kw with Ok b => Ok (Binding ((self, Some v) :: named _ b) (extra_args _ b) (extra_kwargs _ b)) | Raise e => Raise e end.
Proof.
  intros P N NP. unfold bind, without_self. cbn [positional only star keyword_only starstar]. rewrite P. cbn [tl].
  assert (U : filter (fun kv => negb (mem (fst kv) (by_keyword s))) kw = filter (fun kv => negb (mem (fst kv) (by_keyword (Sig ps (only s - 1) (star s) (keyword_only s) (starstar s))))) kw).
  { apply filter_ext_in. intros [k w] I. f_equal. cbn [fst]. assert (K : k <> self) by (intros ->; apply N; change self with (fst (self, w)); apply in_map, I).
    unfold by_keyword. rewrite P. cbn [positional only keyword_only map fst]. destruct (only s) as [|o]; cbn [skipn Nat.sub].
    - unfold mem. cbn [app existsb]. destruct (String.eqb_spec k self); [contradiction|reflexivity].
    - rewrite Nat.sub_0_r. reflexivity. }
  rewrite U. cbn [length]. change (S (length ps) <? S (length args))%nat with (length ps <? length args)%nat. destruct (negb (star s) && _); [reflexivity|]. destruct (negb (starstar s) && _); [reflexivity|].
  rewrite fill_cons. cbn [tl skipn]. assert (GI : given V (only s) 0 self kw = None) by (unfold given; destruct (_ <? _)%nat; [reflexivity|apply dget_none, N]). rewrite GI.
  assert (FS : fill V (only s) 1 ps args kw = fill V (only s - 1) 0 ps args kw).
  { destruct (only s) as [|o]; [apply fill_zero|]. rewrite fill_shift. cbn [Nat.sub]. rewrite Nat.sub_0_r. reflexivity. }
  rewrite FS. destruct (fill V (only s - 1) 0 ps args kw); [|reflexivity]. destruct (fill V 0 0 (keyword_only s) [] kw); reflexivity.
Qed.
(** A likelihood given a bound method samples and calls as for the function without its first parameter, which gets the instance. *)
Theorem C225_method s (v : V) self d ps kwargs parameters x : good s -> positional s = (self, d) :: ps -> ~ In self (dkeys kwargs) ->
  evaluate V (Method s v) kwargs parameters x =
    match evaluate V (Fn (without_self s)) kwargs parameters x with Ok b => Ok (Binding ((self, Some v) :: named _ b) (extra_args _ b) (extra_kwargs _ b)) | Raise e => Raise e end.
Proof.
  intros G P N. unfold evaluate, function_keys. cbn [infer]. assert (X : except_n 2 s = except_n 1 (without_self s)) by (unfold except_n, without_self; cbn [positional]; rewrite P; reflexivity).
  rewrite X. destruct (select V _ parameters) as [m|e] eqn:S; [|reflexivity]. cbn [call].
  assert (NP : ~ In self (map fst ps)). { unfold good in G. rewrite P in G. cbn in G. inversion G as [|? ? NI _]; subst. intros I. apply NI, in_or_app. left. exact I. }
  apply (bind_method s v self d ps [x] (m ++ kwargs) P); [|exact NP].
  intros I. apply (merged V (without_self s) kwargs parameters m S) in I. destruct I as [I|I]; [|exact (N I)]. apply NP.
  unfold except_n, without_self in I. cbn [positional] in I. rewrite P in I. cbn [tl] in I. rewrite <- (firstn_skipn 1 (map fst ps)). apply in_or_app. right. exact I.
Qed.
(** anything that is neither a function nor a method, a class with __call__ or a partial, is refused *)
Theorem C225_other kwargs parameters (x : V) : evaluate V Other kwargs parameters x = Raise ValueError.
Proof. reflexivity. Qed.

(** *** Conditions of a prior *)
Lemma same_names_perm a b : NoDup a -> NoDup b -> (same_names a b = true <-> Permutation a b).
Proof.
  intros NA NB. unfold same_names. rewrite !andb_true_iff, Nat.eqb_eq, !forallb_forall. split.
  - intros [[L A] B]. apply NoDup_Permutation; [assumption..|]. intros k. split; intros I; [apply mem_in, A, I|apply mem_in, B, I].
  - intros P. split; [split; [apply Permutation_length, P|]|]; intros k I; apply mem_in; [apply (Permutation_in _ P I)|apply (Permutation_in _ (Permutation_sym P) I)].
Qed.
Theorem C225_conditions s (reference : V) required : good s -> wf required ->
  (Permutation (dkeys required) (except_n 1 s) -> forall r, update_conditions V (Fn s) reference required = Ok r ->
     exists b, r = Some b /\ (forall k d, nth_error (positional s) 0 = Some (k, d) -> dget (named _ b) k = Some (Some reference)) /\
       forall j k d, (0 < j)%nat -> (only s <= j)%nat -> nth_error (positional s) j = Some (k, d) -> exists v, dget required k = Some v /\ dget (named _ b) k = Some (Some v)) /\
  (Permutation (dkeys required) (except_n 1 s) -> (only s <= 1)%nat -> positional s <> [] -> (forall k, ~ In (k, false) (keyword_only s)) ->
     exists b, update_conditions V (Fn s) reference required = Ok (Some b)) /\
  (~ Permutation (dkeys required) (except_n 1 s) -> required <> [] -> update_conditions V (Fn s) reference required = Raise IllegalRequiredVariablesException) /\
  (except_n 1 s <> [] -> update_conditions V (Fn s) reference [] = Ok None).
Proof.
  intros G W. assert (NE : NoDup (except_n 1 s)).
  { unfold except_n. pose proof (app_left _ _ G) as NP. destruct (map fst (positional s)); [constructor|]. inversion NP; assumption. }
  unfold update_conditions. cbn [infer call].
  split; [|split; [|split]].
  - intros P r H. apply same_names_perm in P as P'; [|assumption..]. rewrite P' in H. destruct (bind V s [reference] required) as [b|e] eqn:B; [|discriminate]. injection H as <-.
    exists b. split; [reflexivity|]. destruct (bind_values V s reference required b G B) as (A1 & A2 & _). split; [exact A1|]. intros j k d J O N. rewrite (A2 j k d J N).
    unfold given. destruct (Nat.ltb_spec j (only s)); [lia|]. assert (I : In k (dkeys required)) by (apply (Permutation_in _ (Permutation_sym P)); eapply later_in; eassumption).
    apply has_key in I. destruct (dget required k) as [v|]; [exists v; split; reflexivity|contradiction].
  - intros P O NP C. apply same_names_perm in P as P'; [|assumption..]. rewrite P'.
    assert (AC : accepted V s required).
    { split; [intros; contradiction|]. split; [|split; [|split]].
      - intros _ k I. apply (Permutation_in _ P) in I. destruct (in_later s k I) as (j & d & J & N). unfold by_keyword. apply in_or_app. left.
        assert (NM : nth_error (map fst (positional s)) j = Some k) by (rewrite nth_error_map, N; reflexivity).
        rewrite <- (firstn_skipn (only s) (map fst (positional s))) in NM. rewrite nth_error_app2 in NM by (rewrite firstn_length; lia). apply nth_error_In in NM. exact NM.
      - intros k d N _ I. apply (Permutation_in _ P) in I. exact (first_rest s k d G N I).
      - intros j k J N. split; [lia|]. apply (Permutation_in _ (Permutation_sym P)). eapply later_in; eassumption.
      - intros k I. destruct (C k I). }
    apply (bind_one V s reference required G) in AC. destruct AC as [b ->]. eauto.
  - intros P N. destruct (same_names _ _) eqn:E; [exfalso; apply P, same_names_perm; assumption|]. destruct required; [contradiction|reflexivity].
  - intros N. cbn [dkeys map]. destruct (except_n 1 s) as [|k ks]; [contradiction|]. reflexivity.
Qed.

(** *** Gaussian process mean models: a bound method never works *)
Theorem C225_gp_function s (attributes : dict V) t : gp_value V (Fn s) attributes t = evaluate V (Fn s) [] attributes t.
Proof.
  unfold gp_value, evaluate, function_keys, gp_names. cbn [infer]. assert (F : filter (fun k => negb (dmem (V := V) [] k)) (except_n 1 s) = except_n 1 s).
  { induction (except_n 1 s) as [|k l IH]; [reflexivity|]. cbn [filter dmem dget negb]. apply (f_equal (cons k)). exact IH. }
  rewrite F. destruct (select V (except_n 1 s) attributes) as [m|]; [|reflexivity]. rewrite app_nil_r. reflexivity.
Qed.
Theorem C225_gp_method_refuted s (v : V) self x d d' ps attributes t b : only s = 0%nat -> positional s = (self, d) :: (x, d') :: ps -> gp_value V (Method s v) attributes t <> Ok b.
Proof.
  intros O P. unfold gp_value, gp_names. destruct (select V (except_n 1 s) attributes) as [m|] eqn:S; [|discriminate]. cbn [call].
  apply select_inv in S. destruct S as (_ & G & F). unfold except_n in *. rewrite P in *. cbn [map fst skipn] in *.
  assert (X : dget m x <> None). { rewrite G. unfold mem. cbn [existsb]. rewrite String.eqb_refl. cbn [orb]. apply F. left. reflexivity. }
  unfold bind. destruct (negb (star s) && _); [discriminate|]. destruct (negb (starstar s) && _); [discriminate|]. rewrite P, !fill_cons. cbn [tl]. unfold given. rewrite O. cbn [Nat.ltb Nat.leb].
  destruct (dget m self); [discriminate|]. destruct (dget m x); [discriminate|contradiction].
Qed.

(** *** Population models: the name of the first argument matters *)
Lemma remove_first_in k l a : NoDup l -> (In a (remove_first k l) <-> In a l /\ a <> k).
Proof.
  induction l as [|b l IH]; intros ND; [cbn; tauto|]. inversion ND as [|? ? NI ND']; subst. cbn [remove_first]. destruct (String.eqb_spec k b) as [->|E].
  - split; [intros I; split; [right; exact I|intros ->; contradiction]|]. intros [[->|I] N]; [contradiction|exact I].
  - cbn [In]. rewrite IH by exact ND'. split; [intros [->|[I N]]; split; auto|]. intros [[->|I] N]; auto.
Qed.
Lemma remove_first_nodup k l : NoDup l -> NoDup (remove_first k l).
Proof.
  induction l as [|b l IH]; intros ND; [constructor|]. inversion ND as [|? ? NI ND']; subst. cbn [remove_first]. destruct (String.eqb k b); [exact ND'|].
  constructor; [|apply IH, ND']. intros I. apply remove_first_in in I; [|exact ND']. apply NI, I.
Qed.
Definition reserved : list string := ["dataset"; "data"; "self"; "cls"]%string.
Lemma hyper_names_in s k : good s -> (In k (hyper_names s) <-> In k (map fst (positional s)) /\ ~ In k reserved).
Proof.
  intros G. pose proof (app_left _ _ G) as N. unfold hyper_names. cbn [fold_left].
  rewrite remove_first_in by (repeat apply remove_first_nodup; exact N). rewrite remove_first_in by (repeat apply remove_first_nodup; exact N).
  rewrite remove_first_in by (repeat apply remove_first_nodup; exact N). rewrite remove_first_in by exact N. unfold reserved. cbn [In].
  split; [intros ((((A & B) & C) & D) & E)|intros (A & B)]; intuition congruence.
Qed.
(** A function whose first argument has none of the four names never works, with or without a parameter of that name. *)
Theorem C225_hyper_refuted s k d ps (parameters : dict V) data b : good s -> only s = 0%nat -> positional s = (k, d) :: ps -> ~ In k reserved -> hyper_value V (Fn s) parameters data <> Ok b.
Proof.
  intros G O P N. unfold hyper_value. destruct (select V (hyper_names s) parameters) as [m|] eqn:S; [|discriminate]. cbn [call]. intros H.
  assert (AC : accepted V s m) by (apply (bind_one V s data m G); exists b; exact H). destruct AC as (_ & _ & E & _). apply (E k d); [rewrite P; reflexivity|exact O|].
  apply select_inv in S. destruct S as (K & _). rewrite K. apply hyper_names_in; [exact G|]. split; [rewrite P; left; reflexivity|exact N].
Qed.
Theorem C225_hyper s k d ps (parameters : dict V) data : good s -> only s = 0%nat -> positional s = (k, d) :: ps -> In k reserved -> keyword_only s = [] ->
  (forall a e, In (a, e) ps -> ~ In a reserved /\ dget parameters a <> None) ->
  exists b, hyper_value V (Fn s) parameters data = Ok b /\ dget (named _ b) k = Some (Some data) /\ forall a e, In (a, e) ps -> dget (named _ b) a = Some (dget parameters a).
Proof.
  intros G O P R KO F. unfold hyper_value. assert (NI : ~ In k (map fst ps)). { unfold good in G. rewrite P in G. cbn in G. inversion G as [|? ? X _]; subst. intros I. apply X, in_or_app. left. exact I. }
  destruct (select_ok V (hyper_names s) parameters) as [m S].
  { intros a I. apply hyper_names_in in I; [|exact G]. destruct I as [I NR]. rewrite P in I. cbn in I. destruct I as [->|I]; [contradiction|]. apply in_map_iff in I. destruct I as ([a' e] & <- & I). apply (F a' e I). }
  rewrite S. cbn [call]. apply select_inv in S as S'. destruct S' as (K & GM & _).
  assert (IN : forall a e, In (a, e) ps -> In a (hyper_names s)). { intros a e I. apply hyper_names_in; [exact G|]. split; [rewrite P; right; change a with (fst (a, e)); apply in_map, I|apply (F a e I)]. }
  assert (AC : accepted V s m).
  { split; [intros Z; rewrite Z in P; discriminate|]. split; [|split; [|split]].
    - intros _ a I. rewrite K in I. apply hyper_names_in in I; [|exact G]. unfold by_keyword. rewrite O. apply in_or_app. left. apply I.
    - intros a e N _ I. rewrite P in N. injection N as <- <-. rewrite K in I. apply hyper_names_in in I; [|exact G]. apply I, R.
    - intros j a J N. split; [lia|]. rewrite K. rewrite P in N. destruct j; [lia|]. cbn [nth_error] in N. eapply IN, nth_error_In, N.
    - intros a I. rewrite KO in I. destruct I. }
  apply (bind_one V s data m G) in AC. destruct AC as [b B]. exists b. split; [exact B|]. destruct (bind_values V s data m b G B) as (A1 & A2 & _).
  split; [apply (A1 k d); rewrite P; reflexivity|]. intros a e I. apply In_nth_error in I as I'. destruct I' as [j N]. rewrite (A2 (1 + j)%nat a e); [|lia|rewrite P; exact N].
  unfold given. rewrite O. cbn [Nat.ltb Nat.leb]. rewrite GM. assert (X : mem a (hyper_names s) = true) by (apply mem_in, (IN a e I)). rewrite X. reflexivity.
Qed.
End Methods.

(** *** Examples: def f(x, m, c=0, *, scale=1) with scale fixed to 2; a keyword-only argument without default is not sampled and so always missing *)
Open Scope string_scope.
Definition line := Sig [("x", false); ("m", false); ("c", true)] 0 false [("scale", true)] false.
Example C225_example : good line /\ function_keys nat (Fn line) [("scale", 2)] = Ok ["m"; "c"] /\
  evaluate nat (Fn line) [("scale", 2)] [("m", 3); ("c", 4); ("sigma", 9)] 7 = Ok (Binding [("x", Some 7); ("m", Some 3); ("c", Some 4); ("scale", Some 2)] [] []) /\
  evaluate nat (Fn line) [] [("m", 3)] 7 = Raise KeyError /\ evaluate nat (Fn line) [("slope", 1)] [("m", 3); ("c", 4)] 7 = Raise TypeError.
Proof. split; [|repeat split; reflexivity]. unfold good. cbn. repeat constructor; cbn; intuition discriminate. Qed.
Theorem C225_keyword_only_refuted : exists s : sig, good s /\ function_keys nat (Fn s) [] = Ok ["m"] /\ forall parameters x, dget parameters "m" <> None -> evaluate nat (Fn s) [] parameters x = Raise TypeError.
Proof.
  exists (Sig [("x", false); ("m", false)] 0 false [("c", false)] false). split; [unfold good; cbn; repeat constructor; cbn; intuition discriminate|]. split; [reflexivity|].
  intros p x H. unfold evaluate. cbn. destruct (dget p "m"); [reflexivity|contradiction].
Qed.
(** a positional-only parameter with default is listed and sampled, but with **kwargs its value never arrives *)
Theorem C225_positional_only_refuted : exists s : sig, good s /\ function_keys nat (Fn s) [] = Ok ["m"] /\
  forall v x, exists b, evaluate nat (Fn s) [] [("m", v)] x = Ok b /\ dget (named _ b) "m" = Some None /\ extra_kwargs _ b = [("m", v)].
Proof.
  exists (Sig [("x", false); ("m", true)] 2 false [] true). split; [unfold good; cbn; repeat constructor; cbn; intuition discriminate|]. split; [reflexivity|].
  intros v x. eexists. split; [reflexivity|]. split; reflexivity.
Qed.
(** the same function as a mean model and as a method of an object *)
Example C225_gp_example : gp_value nat (Fn (Sig [("t", false); ("m", false)] 0 false [] false)) [("m", 3)] 7 = Ok (Binding [("t", Some 7); ("m", Some 3)] [] []) /\
  gp_value nat (Method (Sig [("self", false); ("t", false); ("m", false)] 0 false [] false) 0) [("t", 5); ("m", 3)] 7 = Raise TypeError.
Proof. split; reflexivity. Qed.
Example C225_hyper_example : hyper_value nat (Fn (Sig [("dataset", false); ("mu", false)] 0 false [] false)) [("mu", 3); ("other", 4)] 7 = Ok (Binding [("dataset", Some 7); ("mu", Some 3)] [] []) /\
  hyper_value nat (Fn (Sig [("points", false); ("mu", false)] 0 false [] false)) [("mu", 3)] 7 = Raise KeyError.
Proof. split; reflexivity. Qed.

(** ** Assumptions of every theorem above *)
Definition Sig_Props_all :=
  (@C225_accepted,
   @C225_values,
   @C225_sampled,
   @C225_method,
   @C225_other,
   @C225_conditions,
   @C225_gp_function,
   @C225_gp_method_refuted,
   @C225_hyper_refuted,
   @C225_hyper,
   @C225_keyword_only_refuted,
   @C225_positional_only_refuted).
Print Assumptions Sig_Props_all.
