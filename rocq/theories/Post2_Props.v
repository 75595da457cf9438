(** * Properties of the posterior file, of volumes and of the density estimate (C182, C183, C184) *)
From Coq Require Import String Ascii List Bool Arith Lia Permutation.
From Coq Require Import Reals Lra.
From Verif Require Import PyDict PyReal Post_Model.
Import ListNotations.
Open Scope R_scope.
Open Scope list_scope.

(** ** C182 *)
Lemma T_app a b : list_ascii_of_string (a ++ b) = list_ascii_of_string a ++ list_ascii_of_string b.
Proof. induction a as [|c a IH]; [reflexivity|]; cbn. now rewrite IH. Qed.
Lemma T_inj a b : list_ascii_of_string a = list_ascii_of_string b -> a = b.
Proof. intros H. rewrite <- (string_of_list_ascii_of_string a), H. apply string_of_list_ascii_of_string. Qed.
Lemma suffix_inj a b s : (a ++ s)%string = (b ++ s)%string -> a = b.
Proof. intros H. apply (f_equal list_ascii_of_string) in H. rewrite !T_app in H. apply app_inv_tail in H. now apply T_inj. Qed.
Lemma abs_angle_ne a b : (a ++ "_abs")%string <> (b ++ "_angle")%string.
Proof. intros H. apply (f_equal (fun s => rev (list_ascii_of_string s))) in H. rewrite !T_app, !rev_app_distr in H. cbn in H. discriminate. Qed.

(** The columns that take the place of a column with a complex number in it. *)
Definition polar (k : string) (v : list (R * R)) : dict scol :=
  [((k ++ "_abs")%string, SReal (map cabs v)); ((k ++ "_angle")%string, SReal (map cangle v))].
Definition expand (df : dict scol) (k : string) : dict scol :=
  match dget df k with Some (SComplex v) => if any_complex (SComplex v) then polar k v else [] | _ => [] end.
Definition smem (k : string) (l : list string) : bool := existsb (String.eqb k) l.
Lemma smem_in k l : smem k l = true <-> In k l.
Proof.
  unfold smem. rewrite existsb_exists. split.
  - intros (x & I & E). apply String.eqb_eq in E. now subst.
  - intros I. exists k. split; [exact I|apply String.eqb_refl].
Qed.
Lemma dset_new {V} (d : dict V) k v : ~ In k (dkeys d) -> dset d k v = d ++ [(k, v)].
Proof.
  induction d as [|[a w] t IH]; intros N; [reflexivity|]. cbn. destruct (String.eqb_spec k a) as [->|Ne].
  - exfalso; apply N; now left.
  - f_equal. apply IH. intros I; apply N; now right.
Qed.
Lemma dget_app {V} (d e : dict V) k : dget (d ++ e) k = match dget d k with Some v => Some v | None => dget e k end.
Proof. induction d as [|[a w] t IH]; [reflexivity|]; cbn. destruct (String.eqb k a); [reflexivity|exact IH]. Qed.
Lemma ddel_filter {V} (f : string * V -> bool) d k : wf d ->
  filter f (ddel d k) = filter (fun kv => negb (String.eqb (fst kv) k) && f kv) d.
Proof.
  intros W. induction d as [|[a w] t IH]; [reflexivity|]. apply NoDup_cons_iff in W as [N W]. cbn [ddel filter fst].
  destruct (String.eqb_spec k a) as [->|Ne].
  - rewrite String.eqb_refl. cbn [negb andb]. clear IH.
    assert (G : forall t', ~ In a (dkeys t') -> filter f t' = filter (fun kv => negb (String.eqb (fst kv) a) && f kv) t').
    { induction t' as [|[b x] t' IHt]; intros Nt; [reflexivity|]. cbn [filter fst]. destruct (String.eqb_spec b a) as [->|Nb].
      - exfalso; apply Nt; now left.
      - cbn [negb andb]. rewrite <- IHt by (intros I; apply Nt; now right). reflexivity. }
    apply G. exact N.
  - destruct (String.eqb_spec a k) as [->|_]; [congruence|]. cbn [negb andb filter]. rewrite IH by exact W. reflexivity.
Qed.

Lemma split_spec keys : forall df, wf df -> NoDup keys -> (forall k, In k keys -> In k (dkeys df)) ->
  (forall k v, In k keys -> dget df k = Some (SComplex v) -> any_complex (SComplex v) = true ->
     ~ In (k ++ "_abs")%string (dkeys df) /\ ~ In (k ++ "_angle")%string (dkeys df)) ->
  split_complex df keys = filter (fun kc => negb (smem (fst kc) keys && any_complex (snd kc))) df ++ flat_map (expand df) keys.
Proof.
  induction keys as [|k t IH]; intros df W N Sub NC.
  - cbn. rewrite app_nil_r. induction df as [|x df IHd]; [reflexivity|]. cbn. f_equal. apply IHd.
    + now apply NoDup_cons_iff in W.
    + easy.
    + easy.
  - apply NoDup_cons_iff in N as [N1 N2]. cbn [split_complex flat_map].
    assert (Skip : forall c, dget df k = Some c -> any_complex c = false -> split_complex df t =
       filter (fun kc => negb (smem (fst kc) (k :: t) && any_complex (snd kc))) df ++ [] ++ flat_map (expand df) t).
    { intros c Hc Ac. rewrite IH; try assumption; [|intros; apply Sub; now right|intros; eapply NC; eauto; now right].
      cbn [app]. f_equal. apply filter_ext_in. intros [a x] I. cbn [fst snd]. unfold smem; cbn [existsb].
      destruct (String.eqb_spec a k) as [->|Ne]; [|reflexivity]. cbn [orb].
      assert (x = c). { apply (proj2 (dget_in df k x W)) in I. congruence. } subst x. rewrite Ac, !andb_false_r. reflexivity. }
    unfold expand at 1. destruct (dget df k) as [c|] eqn:Hc.
    2:{ exfalso. apply dget_none in Hc. apply Hc, Sub. now left. }
    destruct c as [v|v|v|v]; try (apply (Skip _ eq_refl); reflexivity).
    destruct (any_complex (SComplex v)) eqn:Av; [|apply (Skip _ eq_refl Av)].
    destruct (NC k v (or_introl eq_refl) Hc Av) as [A1 A2].
    set (df' := dset (dset (ddel df k) (k ++ "_abs") (SReal (map cabs v))) (k ++ "_angle") (SReal (map cangle v))).
    assert (Ed : df' = ddel df k ++ polar k v).
    { unfold df'. rewrite (dset_new (ddel df k)) by (intros I; apply dkeys_del_in in I; tauto).
      rewrite dset_new; [now rewrite <- app_assoc|]. unfold dkeys. rewrite map_app. intros I. apply in_app_or in I as [I|[I|[]]].
      - apply dkeys_del_in in I; tauto.
      - cbn in I. now apply abs_angle_ne in I. }
    assert (Kd : forall a, In a (dkeys df') <-> (a <> k /\ In a (dkeys df)) \/ a = (k ++ "_abs")%string \/ a = (k ++ "_angle")%string).
    { intros a. rewrite Ed. unfold dkeys. rewrite map_app, in_app_iff. fold (dkeys (ddel df k)). rewrite dkeys_del_in by exact W. cbn. unfold dkeys. intuition congruence. }
    assert (Gd : forall a, In a t -> dget df' a = dget df a).
    { intros a I. unfold df'. assert (Ia : In a (dkeys df)) by (apply Sub; now right).
      rewrite !dget_set_ne by (intros ->; contradiction). apply dget_del_ne. intros ->; contradiction. }
    rewrite IH.
    + rewrite Ed at 1. rewrite filter_app. cbn [filter snd any_complex fst]. unfold polar at 1. cbn [filter fst snd any_complex]. rewrite !andb_false_r. cbn [negb].
      fold (polar k v). rewrite <- app_assoc. f_equal.
      * rewrite ddel_filter by auto. apply filter_ext_in. intros [a x] I. cbn [fst snd]. unfold smem; cbn [existsb].
        destruct (String.eqb_spec a k) as [->|Ne]; [|reflexivity]. cbn [negb andb orb].
        assert (x = SComplex v). { apply (proj2 (dget_in df k x W)) in I. congruence. } subst x. rewrite Av. reflexivity.
      * f_equal. clear -Gd. induction t as [|a t IHt]; [reflexivity|]. cbn [flat_map]. rewrite IHt by (intros; apply Gd; now right). f_equal.
        unfold expand. now rewrite Gd by now left.
    + apply wf_set, wf_set, wf_del, W.
    + exact N2.
    + intros a I. apply Kd. left. split; [intros ->; contradiction|apply Sub; now right].
    + intros a w I Ha Aw. rewrite Gd in Ha by exact I. destruct (NC a w (or_intror I) Ha Aw) as [B1 B2].
      assert (Na : a <> k) by (intros ->; contradiction).
      split; intros J; apply Kd in J as [[_ J]|[J|J]]; try contradiction.
      * apply suffix_inj in J. contradiction.
      * now apply abs_angle_ne in J.
      * symmetry in J. now apply abs_angle_ne in J.
      * apply suffix_inj in J. contradiction.
Qed.

(** No name of a column clashes with a name that saving makes up. *)
Definition no_clash (p : dict scol) : Prop := forall k v, dget p k = Some (SComplex v) -> any_complex (SComplex v) = true ->
  forall c, dget p (k ++ "_abs") = Some c \/ dget p (k ++ "_angle") = Some c -> numeric c = false.

Lemma wf_filter {V} (f : string * V -> bool) d : wf d -> wf (filter f d).
Proof.
  intros W. induction d as [|[a w] t IH]; [constructor|]. apply NoDup_cons_iff in W as [N W]. cbn. destruct (f (a, w)); [|now apply IH].
  apply NoDup_cons_iff. split; [|now apply IH]. cbn. intros I. apply N. apply in_map_iff in I as [kv [E I]]. apply filter_In in I as [I _]. apply in_map_iff. eauto.
Qed.
(** The file has the real columns of the posterior, in their order and unchanged, and then, for each column that
    holds a complex number and in their order, the absolute values and the angles. Flags and texts are left
    out. *)
Theorem C182_columns : forall p, wf p -> no_clash p ->
  posterior_file p =
    filter (fun kc => numeric (snd kc) && negb (any_complex (snd kc))) p ++
    flat_map (fun kc => match snd kc with SComplex v => if any_complex (snd kc) then polar (fst kc) v else [] | _ => [] end) p.
Proof.
  intros p W NC. unfold posterior_file. set (df := filter (fun kc => numeric (snd kc)) p).
  assert (Wd : wf df) by now apply wf_filter.
  assert (Gd : forall k c, dget df k = Some c <-> dget p k = Some c /\ numeric c = true).
  { intros k c. rewrite (dget_in df k c Wd), (dget_in p k c W). unfold df. rewrite filter_In. reflexivity. }
  rewrite split_spec; auto.
  - f_equal.
    + unfold df. clear -W. assert (G : forall keys, (forall kc, In kc p -> numeric (snd kc) = true -> In (fst kc) keys) ->
        filter (fun kc => negb (smem (fst kc) keys && any_complex (snd kc))) (filter (fun kc => numeric (snd kc)) p) = filter (fun kc => numeric (snd kc) && negb (any_complex (snd kc))) p).
      { intros keys. clear W. induction p as [|x p IH]; intros H; [reflexivity|]. cbn [filter]. destruct (numeric (snd x)) eqn:E; cbn [filter andb].
        - replace (smem (fst x) keys) with true by (symmetry; apply smem_in, H; [now left|exact E]). cbn [andb]. rewrite IH by (intros; apply H; auto; now right). reflexivity.
        - apply IH. intros; apply H; auto; now right. }
      apply G. intros kc I E. unfold dkeys. apply in_map. apply filter_In. auto.
    + assert (G : forall l, (forall kc, In kc l -> In kc p) -> flat_map (expand df) (dkeys (filter (fun kc => numeric (snd kc)) l)) =
        flat_map (fun kc => match snd kc with SComplex v => if any_complex (snd kc) then polar (fst kc) v else [] | _ => [] end) l).
      { induction l as [|[k c] l IH]; intros H; [reflexivity|]. cbn [filter snd flat_map fst].
        assert (Hc : dget p k = Some c) by (apply dget_in; [exact W|apply H; now left]).
        destruct (numeric c) eqn:E.
        - cbn [dkeys map flat_map fst]. fold (dkeys (filter (fun kc => numeric (snd kc)) l)). rewrite IH by (intros; apply H; now right). f_equal.
          unfold expand. rewrite (proj2 (Gd k c) (conj Hc E)). now destruct c.
        - rewrite IH by (intros; apply H; now right). destruct c; try discriminate; reflexivity. }
      apply G. auto.
  - intros k v I Hk Av. apply Gd in Hk as [Hk _]. split; intros J; apply dmem_in in J; unfold dmem in J.
    + destruct (dget df (k ++ "_abs")) as [c|] eqn:E; [|discriminate]. apply Gd in E as [E Nc]. rewrite (NC k v Hk Av c (or_introl E)) in Nc. discriminate.
    + destruct (dget df (k ++ "_angle")) as [c|] eqn:E; [|discriminate]. apply Gd in E as [E Nc]. rewrite (NC k v Hk Av c (or_intror E)) in Nc. discriminate.
Qed.

(** The two columns determine the complex numbers. *)
Theorem C182_polar : forall z, 0 <= cabs z /\ - PI < cangle z <= PI /\ cabs z * cos (cangle z) = fst z /\ cabs z * sin (cangle z) = snd z.
Proof.
  intros [x y]. unfold cabs. cbn [fst snd]. pose proof PI_RGT_0 as PP. split; [apply sqrt_pos|].
  assert (AB : forall u, - PI / 2 < atan u < PI / 2) by apply atan_bound.
  assert (AT : forall u, x <> 0 -> u = y / x -> Rabs x * sqrt (1 + u ^ 2) = sqrt (x * x + y * y)).
  { intros u N ->. rewrite <- sqrt_Rsqr_abs. rewrite <- sqrt_mult by (unfold Rsqr; nra). f_equal. unfold Rsqr. field. exact N. }
  assert (CA : forall u, cos (atan u) * sqrt (1 + u ^ 2) = 1 /\ sin (atan u) = u * cos (atan u)).
  { intro u. assert (0 < sqrt (1 + u ^ 2)) by (apply sqrt_lt_R0; nra). rewrite cos_atan, sin_atan. replace (1 + u ^ 2) with (1 + u²) in * by (unfold Rsqr; ring). split; field; lra. }
  unfold cangle. destruct (Rlt_dec 0 x) as [X|X].
  - split; [destruct (AB (y / x)); lra|].
    destruct (CA (y / x)) as [C Sn]. rewrite Sn. rewrite <- (AT (y / x)) by (reflexivity || lra). rewrite Rabs_pos_eq by lra.
    split; [|replace (x * sqrt (1 + (y / x) ^ 2) * (y / x * cos (atan (y / x)))) with (y * (cos (atan (y / x)) * sqrt (1 + (y / x) ^ 2))) by (field; lra)]; [replace (x * sqrt (1 + (y / x) ^ 2) * cos (atan (y / x))) with (x * (cos (atan (y / x)) * sqrt (1 + (y / x) ^ 2))) by ring|]; rewrite C; ring.
  - destruct (Rlt_dec x 0) as [X'|X'].
    + destruct (CA (y / x)) as [C Sn].
      assert (G : forall t, cos t = - cos (atan (y / x)) -> sin t = - sin (atan (y / x)) -> sqrt (x * x + y * y) * cos t = x /\ sqrt (x * x + y * y) * sin t = y).
      { intros t -> ->. rewrite Sn. rewrite <- (AT (y / x)) by (reflexivity || lra). rewrite Rabs_left by lra.
        split; [replace (- x * sqrt (1 + (y / x) ^ 2) * - cos (atan (y / x))) with (x * (cos (atan (y / x)) * sqrt (1 + (y / x) ^ 2))) by ring|replace (- x * sqrt (1 + (y / x) ^ 2) * - (y / x * cos (atan (y / x)))) with (y * (cos (atan (y / x)) * sqrt (1 + (y / x) ^ 2))) by (field; lra)]; rewrite C; ring. }
      assert (Sg : (0 <= y -> atan (y / x) <= 0) /\ (y < 0 -> 0 < atan (y / x))).
      { assert (Ix : / x < 0) by now apply Rinv_lt_0_compat. split; intros Y.
        - assert (y / x <= 0) by (unfold Rdiv; nra). destruct (Req_dec (y / x) 0) as [->|Ne]; [rewrite atan_0; lra|]. left. rewrite <- atan_0. apply atan_increasing. lra.
        - rewrite <- atan_0. apply atan_increasing. unfold Rdiv. nra. }
      destruct (Rle_dec 0 y) as [Y|Y].
      * split; [destruct (AB (y / x)), Sg as [Sg _]; specialize (Sg Y); lra|]. apply G; [apply neg_cos|apply neg_sin].
      * split; [destruct (AB (y / x)), Sg as [_ Sg]; specialize (Sg ltac:(lra)); lra|]. apply G.
        -- rewrite cos_minus, cos_PI, sin_PI. ring.
        -- rewrite sin_minus, cos_PI, sin_PI. ring.
    + assert (x = 0) by lra. subst x. replace (0 * 0 + y * y) with (y * y) by ring.
      destruct (Rlt_dec 0 y) as [Y|Y]; [split; [lra|]; rewrite sqrt_square, cos_PI2, sin_PI2 by lra; split; ring|].
      destruct (Rlt_dec y 0) as [Y'|Y'].
      * split; [lra|]. replace (y * y) with ((- y) * (- y)) by ring. rewrite sqrt_square by lra. rewrite cos_neg, sin_neg, cos_PI2, sin_PI2. split; ring.
      * assert (y = 0) by lra. subst y. split; [lra|]. rewrite Rmult_0_r, sqrt_0. split; ring.
Qed.

(** A complex column whose imaginary parts all vanish is left complex; a real column that has the name of the
    absolute values of another is lost. *)
Theorem C182_complex_left_refuted : forall k v, (forall z, In z v -> snd z = 0) -> posterior_file [(k, SComplex v)] = [(k, SComplex v)].
Proof.
  intros k v H. unfold posterior_file. cbn [filter numeric snd dkeys map fst split_complex dget]. rewrite String.eqb_refl.
  replace (any_complex (SComplex v)) with false; [reflexivity|]. symmetry. apply not_true_is_false. intros E. cbn in E. apply existsb_exists in E as (z & I & E).
  destruct (Req_EM_T (snd z) 0) as [_|N]; [discriminate|]. apply N. now apply H.
Qed.
Theorem C182_clash_refuted : forall k v w, any_complex (SComplex v) = true ->
  posterior_file [(k, SComplex v); ((k ++ "_abs")%string, SReal w)] = [((k ++ "_abs")%string, SReal (map cabs v)); ((k ++ "_angle")%string, SReal (map cangle v))].
Proof.
  intros k v w Av. unfold posterior_file. cbn [filter numeric snd dkeys map fst split_complex dget]. rewrite String.eqb_refl, Av.
  assert (N1 : String.eqb (k ++ "_abs") k = false).
  { apply String.eqb_neq. intros E. apply (f_equal String.length) in E. revert E. clear. induction k as [|c k IH]; [discriminate|]. cbn. intros E. apply IH. congruence. }
  assert (N2 : String.eqb (k ++ "_angle") (k ++ "_abs") = false) by (apply String.eqb_neq; intros E; symmetry in E; now apply abs_angle_ne in E).
  cbn [ddel]. rewrite String.eqb_refl. cbn [dset]. rewrite String.eqb_refl. cbn [dset]. rewrite N2. cbn [dget]. rewrite String.eqb_refl. reflexivity.
Qed.
Example C182_ex : exists d, posterior_file [("a", SComplex [(3, 4)]); ("b", SReal [1]); ("t", SText ["x"]); ("f", SBool [true])]%string = d /\
  dkeys d = ["b"; "a_abs"; "a_angle"]%string.
Proof.
  eexists. split; [apply C182_columns|].
  - unfold wf, dkeys; cbn. repeat constructor; cbn; intuition discriminate.
  - intros k v. cbn. destruct (String.eqb_spec k "a") as [->|N1]; [|destruct (String.eqb_spec k "b") as [->|N2]; [discriminate|destruct (String.eqb_spec k "t") as [->|N3]; [discriminate|destruct (String.eqb_spec k "f") as [->|N4]; discriminate]]].
    intros _ _ c [H|H]; cbn in H; discriminate.
  - cbn [filter snd numeric andb any_complex existsb fst flat_map app]. destruct (Req_EM_T 4 0) as [E|_]; [lra|]. reflexivity.
Qed.

(** ** C183 *)
Lemma rsum_scale c l : rsum (map (fun x => c * x) l) = c * rsum l.
Proof. unfold rsum. induction l as [|a l IH]; cbn; [ring|rewrite IH; ring]. Qed.
Lemma rsum_shift c l : rsum (map (fun x => x + c) l) = rsum l + INR (length l) * c.
Proof. unfold rsum. induction l as [|a l IH]; [cbn; ring|]. cbn [map fold_right length]. rewrite IH, S_INR. ring. Qed.
Lemma mean_scale c l : mean (map (fun x => c * x) l) = c * mean l.
Proof. unfold mean. rewrite rsum_scale, map_length. unfold Rdiv; ring. Qed.
Lemma mean_shift c l : l <> [] -> mean (map (fun x => x + c) l) = mean l + c.
Proof. intros N. unfold mean. rewrite rsum_shift, map_length. field. apply not_0_INR. destruct l; [congruence|cbn; lia]. Qed.
Lemma combine_map2 {A B A' B'} (f : A -> A') (g : B -> B') a : forall b, combine (map f a) (map g b) = map (fun p => (f (fst p), g (snd p))) (combine a b).
Proof. induction a as [|x a IH]; intros [|y b]; try reflexivity. cbn. now rewrite IH. Qed.
Lemma cov_affine c d s t a b : a <> [] -> length a = length b ->
  cov (map (fun x => c * x + s) a) (map (fun x => d * x + t) b) = c * d * cov a b.
Proof.
  intros N L. assert (Nb : b <> []) by (destruct a, b; cbn in *; congruence).
  assert (Ma : mean (map (fun x => c * x + s) a) = c * mean a + s).
  { rewrite <- (map_map (fun x => c * x) (fun x => x + s)), mean_shift, mean_scale; [reflexivity|]. destruct a; cbn; congruence. }
  assert (Mb : mean (map (fun x => d * x + t) b) = d * mean b + t).
  { rewrite <- (map_map (fun x => d * x) (fun x => x + t)), mean_shift, mean_scale; [reflexivity|]. destruct b; cbn; congruence. }
  unfold cov. rewrite map_length, combine_map2, map_map, Ma, Mb. cbn [fst snd].
  assert (E : rsum (map (fun p => (c * fst p + s - (c * mean a + s)) * (d * snd p + t - (d * mean b + t))) (combine a b)) =
    c * d * rsum (map (fun p => (fst p - mean a) * (snd p - mean b)) (combine a b))).
  { generalize (mean a) (mean b). intros ma mb. unfold rsum. induction (combine a b) as [|p l IH]; cbn; [ring|]. rewrite IH. ring. }
  rewrite E. unfold Rdiv. ring.
Qed.
Lemma rsum_sq_nonneg {A} (f : A -> R) l : 0 <= rsum (map (fun x => f x * f x) l).
Proof. unfold rsum. induction l as [|a l IH]; cbn; [lra|]. pose proof (Rle_0_sqr (f a)). unfold Rsqr in *. lra. Qed.
Lemma combine_self {A} (l : list A) : combine l l = map (fun x => (x, x)) l.
Proof. induction l as [|x l IH]; [reflexivity|]. cbn. now rewrite IH. Qed.
Lemma cov_self a : cov a a = rsum (map (fun x => (x - mean a) * (x - mean a)) a) / (INR (length a) - 1).
Proof. unfold cov. rewrite combine_self, map_map. reflexivity. Qed.
Lemma cov_self_nonneg a : (2 <= length a)%nat -> 0 <= cov a a.
Proof.
  intros L. rewrite cov_self. apply Rmult_le_pos; [apply (rsum_sq_nonneg (fun x => x - mean a))|]. apply Rlt_le, Rinv_0_lt_compat.
  apply le_INR in L. cbn in L. lra.
Qed.
Lemma cov_sym a b : length a = length b -> cov a b = cov b a.
Proof.
  intros L. unfold cov. rewrite L. f_equal. generalize (mean a) (mean b). intros ma mb. unfold rsum.
  revert b L. induction a as [|x a IH]; intros [|y b] L; try discriminate; [reflexivity|]. cbn. rewrite (IH b) by (cbn in L; lia). ring.
Qed.

(** With one parameter the volume is the standard deviation: it does not depend on where the samples lie and is
    scaled with them. *)
Theorem C183_one : forall a c s, (2 <= length a)%nat ->
  0 <= volume1 a /\ volume1 a * volume1 a = rsum (map (fun x => (x - mean a) * (x - mean a)) a) / (INR (length a) - 1) /\
  volume1 (map (fun x => c * x + s) a) = Rabs c * volume1 a.
Proof.
  intros a c s L. unfold volume1. pose proof (cov_self_nonneg a L) as P. split; [apply sqrt_pos|]. split.
  - rewrite sqrt_sqrt by exact P. apply cov_self.
  - rewrite (cov_affine c c s s a a); [|destruct a; cbn in L; [lia|discriminate]|reflexivity].
    rewrite (sqrt_mult_alt (c * c)) by (pose proof (Rle_0_sqr c) as Q; unfold Rsqr in Q; exact Q).
    replace (c * c) with (Rsqr c) by reflexivity. now rewrite sqrt_Rsqr_abs.
Qed.

(** The square root of the determinant of the covariance matrix, and the correlation. *)
Definition true_volume2 (a b : list R) : R := sqrt (cov a a * cov b b - cov a b * cov a b).
Definition correlation (a b : list R) : R := cov a b / (sqrt (cov a a) * sqrt (cov b b)).
(** With two correlated parameters the volume comes out as the right one times |r| / (1 - r^2), with r the
    correlation. *)
Theorem C183_two : forall a b, 0 < cov a a -> 0 < cov b b -> cov a b <> 0 -> cov a b * cov a b < cov a a * cov b b ->
  let r := correlation a b in
  0 < Rabs r < 1 /\ volume2 a b = Some (true_volume2 a b * (Rabs r / (1 - r * r))).
Proof.
  intros a b Ha Hb Hn Hd r.
  set (x := cov a a) in *. set (y := cov b b) in *. set (z := cov a b) in *.
  assert (Sx : 0 < sqrt x) by now apply sqrt_lt_R0. assert (Sy : 0 < sqrt y) by now apply sqrt_lt_R0.
  assert (Qx : sqrt x * sqrt x = x) by (apply sqrt_sqrt; lra). assert (Qy : sqrt y * sqrt y = y) by (apply sqrt_sqrt; lra).
  assert (Rr : r * r = z * z / (x * y)).
  { unfold r, correlation. fold x y z. rewrite <- Qx at 3. rewrite <- Qy at 3. field. lra. }
  assert (Pxy : 0 < x * y) by nra.
  assert (Az : 0 < Rabs z) by now apply Rabs_pos_lt.
  assert (Ar : Rabs r = Rabs z / (sqrt x * sqrt y)).
  { unfold r, correlation. fold x y z. unfold Rdiv. rewrite Rabs_mult. f_equal. apply Rabs_pos_eq. apply Rlt_le, Rinv_0_lt_compat. nra. }
  assert (R1 : r * r < 1).
  { rewrite Rr. apply (Rmult_lt_reg_r (x * y)); [exact Pxy|]. unfold Rdiv. rewrite Rmult_assoc, Rinv_l by lra. lra. }
  split.
  - split.
    + rewrite Ar. apply Rdiv_lt_0_compat; nra.
    + destruct (Rlt_dec (Rabs r) 1) as [|G]; [assumption|]. exfalso. assert (1 <= Rabs r) by lra.
      assert (1 <= Rabs r * Rabs r) by nra. rewrite <- Rabs_mult in H0. rewrite Rabs_pos_eq in H0 by (pose proof (Rle_0_sqr r); unfold Rsqr in *; lra). lra.
  - unfold volume2. fold x y z. rewrite !pdiv_some by lra. cbn [bindo].
    set (D := x * y - z * z). assert (PD : 0 < D) by (unfold D; lra).
    assert (E : Rabs (1 / x * (1 / y) - 1 / z * (1 / z)) = D / (x * y * (z * z))).
    { replace (1 / x * (1 / y) - 1 / z * (1 / z)) with (- (D / (x * y * (z * z)))) by (unfold D; field; lra).
      rewrite Rabs_Ropp. apply Rabs_pos_eq. apply Rlt_le, Rdiv_lt_0_compat; [exact PD|]. assert (0 < z * z) by nra. nra. }
    rewrite E. assert (Pz : 0 < z * z) by nra.
    assert (Sq : sqrt (D / (x * y * (z * z))) = sqrt D / (sqrt x * sqrt y * Rabs z)).
    { rewrite sqrt_div_alt by nra. rewrite sqrt_mult_alt by nra. rewrite sqrt_mult_alt by lra. replace (z * z) with (Rsqr z) by reflexivity. now rewrite sqrt_Rsqr_abs. }
    assert (SD : 0 < sqrt D) by now apply sqrt_lt_R0.
    rewrite Sq. rewrite pdiv_some.
    2:{ apply Rgt_not_eq. apply Rdiv_lt_0_compat; [exact SD|]. assert (0 < sqrt x * sqrt y) by nra. nra. }
    f_equal. unfold true_volume2. fold x y z D. rewrite Ar, Rr.
    replace (1 - z * z / (x * y)) with (D / (x * y)) by (unfold D; field; lra).
    replace (x * y) with (sqrt x * sqrt x * (sqrt y * sqrt y)) by (rewrite Qx, Qy; reflexivity).
    replace (D / (sqrt x * sqrt x * (sqrt y * sqrt y))) with (sqrt D * sqrt D / (sqrt x * sqrt x * (sqrt y * sqrt y))) by (rewrite (sqrt_sqrt D) by lra; reflexivity).
    field. repeat apply conj; lra.
Qed.
(** So it is wrong: below the right one, without bound, for weakly correlated parameters, and not a number for
    uncorrelated ones. *)
Theorem C183_two_refuted : forall a b, 0 < cov a a -> 0 < cov b b ->
  (cov a b = 0 -> volume2 a b = None /\ 0 < true_volume2 a b) /\
  (cov a b <> 0 -> cov a b * cov a b < cov a a * cov b b -> Rabs (correlation a b) < 1 / 2 ->
   exists v, volume2 a b = Some v /\ 0 < v < 2 / 3 * true_volume2 a b).
Proof.
  intros a b Ha Hb. split.
  - intros E. split.
    + unfold volume2. rewrite E. rewrite pdiv_some by lra. cbn [bindo]. unfold pdiv at 1. destruct (Req_EM_T 0 0); [reflexivity|congruence].
    + unfold true_volume2. rewrite E. apply sqrt_lt_R0. nra.
  - intros N D Hr. destruct (C183_two a b Ha Hb N D) as [[R0 R1] E]. eexists. split; [exact E|].
    set (r := correlation a b) in *. assert (Pv : 0 < true_volume2 a b) by (unfold true_volume2; apply sqrt_lt_R0; lra).
    assert (Q : r * r = Rabs r * Rabs r) by (rewrite <- Rabs_mult; symmetry; apply Rabs_pos_eq; pose proof (Rle_0_sqr r); unfold Rsqr in *; lra).
    rewrite Q. assert (0 < 1 - Rabs r * Rabs r) by nra.
    assert (0 < Rabs r / (1 - Rabs r * Rabs r) < 2 / 3).
    { split; [now apply Rdiv_lt_0_compat|]. apply (Rmult_lt_reg_r (1 - Rabs r * Rabs r)); [assumption|]. unfold Rdiv at 1. rewrite Rmult_assoc, Rinv_l by lra. nra. }
    split; nra.
Qed.
Example C183_ex : cov [-1; 0; 1] [-1; 0; 1] = 1 /\ cov [-1; 0; 1] [-1; 1; 0] = 1 / 2 /\ cov [-1; 0; 1] [1; -2; 1] = 0.
Proof. unfold cov, mean, rsum; cbn. repeat split; field. Qed.

(** The volume of the priors is the product of the widths, in any order; it vanishes exactly when one of the
    parameters is fixed. *)
Theorem C183_prior_volume : forall p q, (forall k mm, In (k, mm) p -> fst mm <= snd mm) ->
  0 <= prior_volume p /\ (prior_volume p = 0 <-> exists k m, In (k, (m, m)) p) /\
  prior_volume (p ++ q) = prior_volume p * prior_volume q /\ (Permutation p q -> prior_volume p = prior_volume q).
Proof.
  intros p q H. split; [|split; [|split]].
  - induction p as [|[k [m M]] p IH]; cbn; [lra|]. apply Rmult_le_pos; [|apply IH; intros; eapply H; right; eauto].
    specialize (H k (m, M) (or_introl eq_refl)). cbn in H. lra.
  - unfold prior_volume in *. induction p as [|[k [m M]] p IH]; cbn [fold_right fst snd].
    + split; [lra|intros (? & ? & [])].
    + split.
      * intros E. apply Rmult_integral in E as [E|E].
        -- exists k, m. left. do 2 f_equal. lra.
        -- destruct (proj1 (IH ltac:(intros; eapply H; right; eauto)) E) as (k' & m' & I). exists k', m'. now right.
      * intros (k' & m' & [I|I]).
        -- injection I as _ <- <-. ring.
        -- rewrite (proj2 (IH ltac:(intros; eapply H; right; eauto))); [ring|eauto].
  - unfold prior_volume. induction p as [|x p IH]; cbn; [ring|]. rewrite IH by (intros; eapply H; right; eauto). ring.
  - intros P. clear H. unfold prior_volume. induction P; cbn; [reflexivity|now rewrite IHP|ring|congruence].
Qed.
Theorem C183_occam : forall a p, (forall k mm, In (k, mm) p -> fst mm < snd mm) -> occam1 a p = Some (volume1 a / prior_volume p).
Proof.
  intros a p H. unfold occam1. apply pdiv_some. intros E.
  assert (H' : forall k mm, In (k, mm) p -> fst mm <= snd mm) by (intros k mm I; specialize (H k mm I); lra).
  apply (proj1 (proj2 (C183_prior_volume p [] H'))) in E as (k & m & I). specialize (H k (m, m) I). cbn in H. lra.
Qed.

Lemma dimension_var l : l <> [] -> dimensionality l = 2 * (rsum (map (fun x => (x - mean l) * (x - mean l)) l) / INR (length l)).
Proof.
  intros N. unfold dimensionality. set (m := mean l). assert (Hn : INR (length l) <> 0) by (apply not_0_INR; destruct l; [congruence|cbn; lia]).
  assert (E : forall l', rsum (map (fun x => (x - m) * (x - m)) l') = rsum (map (fun x => x ^ 2) l') - 2 * m * rsum l' + INR (length l') * (m * m)).
  { unfold rsum. induction l' as [|x l' IH]; [cbn; ring|]. cbn [map fold_right length]. rewrite IH, S_INR. ring. }
  rewrite E. assert (Es : rsum l = INR (length l) * m) by (unfold m, mean; field; exact Hn). rewrite Es. unfold mean at 1. rewrite map_length. field. exact Hn.
Qed.
(** The dimensionality is twice the variance of the log likelihood: not negative, zero only if that is constant,
    and the same when a constant is added to every log likelihood. *)
Theorem C183_dimension : forall l c, l <> [] ->
  0 <= dimensionality l /\ (dimensionality l = 0 <-> forall x, In x l -> x = mean l) /\ dimensionality (map (fun x => x + c) l) = dimensionality l.
Proof.
  intros l c N. assert (Hn : 0 < INR (length l)) by (apply lt_0_INR; destruct l; [congruence|cbn; lia]).
  assert (Z : forall l', rsum (map (fun x => (x - mean l) * (x - mean l)) l') = 0 <-> forall x, In x l' -> x = mean l).
  { generalize (mean l). intros m. induction l' as [|x l' IH]; cbn; [split; [easy|lra]|].
    pose proof (rsum_sq_nonneg (fun x => x - m) l') as P1. pose proof (Rle_0_sqr (x - m)) as P2. unfold Rsqr, rsum in *. split.
    - intros E. assert (E1 : (x - m) * (x - m) = 0) by lra. assert (E2 : fold_right Rplus 0 (map (fun x => (x - m) * (x - m)) l') = 0) by lra.
      intros y [<-|I]; [nra|]. now apply (proj1 IH).
    - intros H. rewrite (proj2 IH) by (intros; apply H; now right). rewrite (H x) by now left. ring. }
  split; [|split].
  - rewrite dimension_var by exact N. pose proof (rsum_sq_nonneg (fun x => x - mean l) l). assert (0 <= / INR (length l)) by (apply Rlt_le, Rinv_0_lt_compat, Hn). unfold Rdiv. nra.
  - rewrite dimension_var by exact N. rewrite <- Z. split; intros H; [|rewrite H; unfold Rdiv; ring].
    apply Rmult_integral in H as [H|H]; [lra|]. unfold Rdiv in H. apply Rmult_integral in H as [H|H]; [exact H|]. pose proof (Rinv_0_lt_compat _ Hn). lra.
  - rewrite !dimension_var by (try exact N; destruct l; cbn; congruence). rewrite mean_shift by exact N. rewrite map_map, map_length. do 3 f_equal. apply map_ext. intros; ring.
Qed.
Example C183_dimension_ex : dimensionality [1; 3] = 2.
Proof. unfold dimensionality, mean, rsum; cbn. field. Qed.

(** ** C184 *)
Section KdeProps.
Variable table : Type.
Variable estimate : table -> list R -> R.
Notation kstate := (kstate table).
Notation prob := (posterior_probability table estimate).
Definition is_ask (o : kop table) : bool := match o with KAsk _ => true | KSet _ _ => false end.
Definition fresh (t : table) : kstate := mkK table t None.

Lemma run_app s l1 l2 : krun table s (l1 ++ l2) = krun table (krun table s l1) l2.
Proof. apply fold_left_app. Qed.
Lemma quiet l : forall s, forallb (fun o => negb (is_ask o)) l = true -> k_cached table (krun table s l) = k_cached table s.
Proof. induction l as [|[t|] l IH]; intros s H; [reflexivity| |discriminate]. cbn in H. unfold krun in *. cbn. now rewrite IH. Qed.
Lemma stuck l : forall s t, k_cached table s = Some t -> k_cached table (krun table s l) = Some t.
Proof. induction l as [|[u|] l IH]; intros s t H; [exact H| |]; unfold krun in *; cbn; apply IH; cbn; [exact H|now rewrite H]. Qed.

(** The density of one sample is that of the estimate at the sample's values in the order of the search
    parameters, however the sample's own entries are ordered and whatever else it has. *)
Theorem C184_one : forall keys t s vals, length vals = length keys -> keys <> [] ->
  (forall j k v, nth_error keys j = Some k -> nth_error vals j = Some v -> dget s k = Some v) ->
  prob keys (fresh t) [s] = Some [estimate t vals].
Proof.
  intros keys t s vals L N G. unfold posterior_probability.
  assert (O : ordered keys s = Some vals).
  { clear N. revert vals L G. induction keys as [|k keys IH]; intros [|v vals] L G; try discriminate; [reflexivity|]. cbn [ordered].
    rewrite (G 0%nat k v eq_refl eq_refl). cbn [bindo]. rewrite (IH vals) by (try (cbn in L; lia); intros j; exact (G (S j))). reflexivity. }
  cbn [all_ordered]. rewrite O. cbn [bindo]. unfold kde_points. cbn [length]. rewrite L.
  destruct keys as [|k [|k2 keys]]; [congruence| |].
  - cbn [length Nat.eqb]. destruct vals as [|v [|]]; try discriminate. reflexivity.
  - cbn [length Nat.eqb]. rewrite Nat.eqb_refl. reflexivity.
Qed.
(** A sample that lacks a search parameter is refused. *)
Theorem C184_missing : forall keys st s l k, In k keys -> dget s k = None -> In s l -> prob keys st l = None.
Proof.
  intros keys st s l k Ik Hk Il. unfold posterior_probability.
  assert (O : ordered keys s = None).
  { induction keys as [|a keys IH]; [easy|]. cbn [ordered]. destruct Ik as [->|Ik]; [now rewrite Hk|]. destruct (dget s a); cbn [bindo]; [|reflexivity]. now rewrite IH. }
  assert (A : all_ordered keys l = None).
  { induction l as [|a l IH]; [easy|]. cbn [all_ordered]. destruct Il as [->|Il]; [now rewrite O|]. destruct (ordered keys a); cbn [bindo]; [|reflexivity]. now rewrite IH. }
  now rewrite A.
Qed.
(** A list of several samples is refused unless there are as many samples as parameters; then the points
    evaluated are not the samples: the first is made of the first parameter of each sample, and so on. *)
Theorem C184_many_refuted : forall keys t l m, all_ordered keys l = Some m -> (2 <= length l)%nat ->
  (length l <> length keys -> prob keys (fresh t) l = None) /\
  (length l = length keys -> exists pts, prob keys (fresh t) l = Some (map (estimate t) pts) /\ length pts = length l /\
    forall i j, (i < length keys)%nat -> (j < length keys)%nat -> nth j (nth i pts []) 0 = nth i (nth j m []) 0).
Proof.
  intros keys t l m Hm L2.
  assert (Lm : length m = length l /\ forall r, In r m -> length r = length keys).
  { clear L2. revert m Hm. induction l as [|s l IH]; intros m; cbn [all_ordered]; [intros [= <-]; split; [reflexivity|easy]|].
    destruct (ordered keys s) as [r|] eqn:O; cbn [bindo]; [|discriminate]. destruct (all_ordered keys l) as [m'|]; cbn [bindo]; [|discriminate].
    intros [= <-]. destruct (IH m' eq_refl) as [A B]. split; [cbn; lia|]. intros x [<-|I]; [|now apply B].
    clear -O. revert r O. induction keys as [|k keys IHk]; intros r; cbn [ordered]; [now intros [= <-]|].
    destruct (dget s k); cbn [bindo]; [|discriminate]. destruct (ordered keys s) as [r'|]; cbn [bindo]; [|discriminate]. intros [= <-]. cbn. now rewrite (IHk r' eq_refl). }
  destruct Lm as [Lm Lr]. unfold posterior_probability. rewrite Hm. cbn [bindo]. unfold kde_points. rewrite Lm. split.
  - intros N. apply Nat.eqb_neq in N. rewrite N. destruct m as [|r1 [|r2 m]]; cbn in Lm; [reflexivity|lia|reflexivity].
  - intros E. rewrite E, Nat.eqb_refl. cbn [bindo]. cbn [kstep fresh k_cached k_posterior].
    destruct m as [|r0 m0] eqn:Em; [cbn in Lm; lia|]. rewrite <- Em in *.
    assert (Lr0 : length r0 = length keys) by (apply Lr; rewrite Em; now left). rewrite Lr0.
    eexists. split; [reflexivity|]. split; [now rewrite map_length, seq_length|]. intros i j Hi Hj.
    rewrite (nth_indep _ [] (column_at m 0)) by (rewrite map_length, seq_length; exact Hi).
    rewrite (map_nth (column_at m) (seq 0 (length keys)) 0%nat i). rewrite seq_nth by exact Hi. cbn [plus]. unfold column_at.
    rewrite (nth_indep _ 0 ((fun r => nth i r 0) [])) by (rewrite map_length; lia). now rewrite (map_nth (fun r => nth i r 0) m [] j).
Qed.
(** The estimate is made from the posterior at the time of the first question and never again: a posterior put
    in place afterwards is not seen. *)
Theorem C184_cached : forall t l1 l2, forallb (fun o => negb (is_ask o)) l1 = true ->
  let s1 := krun table (fresh t) l1 in
  let s2 := krun table s1 (KAsk table :: l2) in
  k_cached table s2 = Some (k_posterior table s1).
Proof.
  intros t l1 l2 H s1 s2. subst s2. change (KAsk table :: l2) with ([KAsk table] ++ l2). rewrite run_app. apply stuck. cbn [krun fold_left kstep].
  unfold s1 at 1. rewrite (quiet l1 (fresh t) H). reflexivity.
Qed.
Theorem C184_stale_refuted : forall keys t t' s vals, ordered keys s = Some vals -> length keys <> 1%nat -> keys <> [] ->
  let st := krun table (fresh t) [KAsk table; KSet table t'] in
  k_posterior table st = t' /\ prob keys st [s] = Some [estimate t vals].
Proof.
  intros keys t t' s vals O N1 N0. cbn. split; [reflexivity|]. unfold posterior_probability. cbn [all_ordered]. rewrite O. cbn [bindo].
  assert (L : length vals = length keys).
  { clear -O. revert vals O. induction keys as [|k keys IHk]; intros r; cbn [ordered]; [now intros [= <-]|].
    destruct (dget s k); cbn [bindo]; [|discriminate]. destruct (ordered keys s) as [r'|]; cbn [bindo]; [|discriminate]. intros [= <-]. cbn. now rewrite (IHk r' eq_refl). }
  unfold kde_points. cbn [length]. destruct keys as [|k [|k2 keys]]; [congruence|cbn in N1; congruence|]. rewrite L. cbn [length Nat.eqb]. rewrite Nat.eqb_refl. reflexivity.
Qed.
End KdeProps.
Example C184_ex : forall est : unit -> list R -> R,
  posterior_probability unit est ["a"; "b"]%string (mkK unit tt None) [[("b", 2); ("a", 1); ("c", 7)]%string] = Some [est tt [1; 2]] /\
  posterior_probability unit est ["a"; "b"]%string (mkK unit tt None) [[("a", 1); ("b", 2)]%string; [("a", 3); ("b", 4)]%string] = Some [est tt [1; 3]; est tt [2; 4]].
Proof. intros est. split; reflexivity. Qed.

(** ** Assumptions of every theorem above *)
Definition Post2_Props_all :=
  (@C182_columns,
   @C182_polar,
   @C182_complex_left_refuted,
   @C182_clash_refuted,
   @C183_one,
   @C183_two,
   @C183_two_refuted,
   @C183_prior_volume,
   @C183_occam,
   @C183_dimension,
   @C184_one,
   @C184_missing,
   @C184_many_refuted,
   @C184_cached,
   @C184_stale_refuted).
Print Assumptions Post2_Props_all.
