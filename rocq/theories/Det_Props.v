(** Properties of detector geometry, power spectral densities and detector lists *)
From Coq Require Import String Reals List ZArith Bool Lra Lia.
From Verif Require Import PyReal Interp_Model Interp_Proofs GwInner_Model Det_Model.
Import ListNotations.
Open Scope R_scope.
Open Scope list_scope.

(** ** C85 detector geometry *)
Section Geometry.
Context {V M : Type}.
Variable arm : R -> R -> R -> R -> V.
Variable tensor : V -> V -> M.
Notation geo := (@geo V M).
(** the attributes as a user sets them *)
Record att := mkA { a_lat : R; a_lon : R; a_el : R; a_xa : R; a_ya : R; a_xt : R; a_yt : R }.
Definition fresh (a : att) : geo := new_geo (a_lat a) (a_lon a) (a_el a) (a_xa a) (a_ya a) (a_xt a) (a_yt a).
Definition upd (a : att) (o : gop) : att :=
  match o with
  | GSet (SLat v) => mkA v (a_lon a) (a_el a) (a_xa a) (a_ya a) (a_xt a) (a_yt a)
  | GSet (SLon v) => mkA (a_lat a) v (a_el a) (a_xa a) (a_ya a) (a_xt a) (a_yt a)
  | GSet (SEl v) => mkA (a_lat a) (a_lon a) v (a_xa a) (a_ya a) (a_xt a) (a_yt a)
  | GSet (SXa v) => mkA (a_lat a) (a_lon a) (a_el a) v (a_ya a) (a_xt a) (a_yt a)
  | GSet (SYa v) => mkA (a_lat a) (a_lon a) (a_el a) (a_xa a) v (a_xt a) (a_yt a)
  | GSet (SXt v) => mkA (a_lat a) (a_lon a) (a_el a) (a_xa a) (a_ya a) v (a_yt a)
  | GSet (SYt v) => mkA (a_lat a) (a_lon a) (a_el a) (a_xa a) (a_ya a) (a_xt a) v
  | _ => a end.
Definition ax (a : att) := arm (a_xt a) (deg (a_xa a)) (deg (a_lon a)) (deg (a_lat a)).
Definition ay (a : att) := arm (a_yt a) (deg (a_ya a)) (deg (a_lon a)) (deg (a_lat a)).
Record GInv (a : att) (s : geo) : Prop := mkGI {
  h1 : g_lat s = deg (a_lat a); h2 : g_lon s = deg (a_lon a); h3 : g_el s = a_el a; h4 : g_xa s = deg (a_xa a); h5 : g_ya s = deg (a_ya a);
  h6 : g_xt s = a_xt a; h7 : g_yt s = a_yt a;
  hx : xu s = true -> g_x s = Some (ax a); hy : yu s = true -> g_y s = Some (ay a);
  hv : vu s = true -> g_v s = Some (vertex_position (deg (a_lat a)) (deg (a_lon a)) (a_el a));
  ht : xu s = true -> yu s = true -> tu s = true -> g_t s = Some (tensor (ax a) (ay a)) }.
Lemma get_vertex_ok a s : GInv a s -> fst (get_vertex s) = Some (vertex_position (deg (a_lat a)) (deg (a_lon a)) (a_el a)) /\ GInv a (snd (get_vertex s)).
Proof.
  intros I. unfold get_vertex. destruct (vu s) eqn:E; [split; [apply (hv a s I E)|exact I]|].
  destruct I. cbn [fst snd]. rewrite h8, h9, h10. split; [reflexivity|]. constructor; cbn; auto. Qed.
Lemma get_x_ok a s : GInv a s -> fst (get_x arm s) = Some (ax a) /\ GInv a (snd (get_x arm s)) /\ xu (snd (get_x arm s)) = true /\ yu (snd (get_x arm s)) = yu s.
Proof.
  intros I. unfold get_x. destruct (xu s) eqn:E; [split; [apply (hx a s I E)|auto]|].
  destruct I. cbn [fst snd]. rewrite h8, h9, h11, h13. split; [reflexivity|]. split; [|auto]. constructor; cbn; auto; discriminate. Qed.
Lemma get_y_ok a s : GInv a s -> fst (get_y arm s) = Some (ay a) /\ GInv a (snd (get_y arm s)) /\ yu (snd (get_y arm s)) = true /\ xu (snd (get_y arm s)) = xu s.
Proof.
  intros I. unfold get_y. destruct (yu s) eqn:E; [split; [apply (hy a s I E)|auto]|].
  destruct I. cbn [fst snd]. rewrite h8, h9, h12, h14. split; [reflexivity|]. split; [|auto]. constructor; cbn; auto; discriminate. Qed.
Lemma get_tensor_ok a s : GInv a s -> fst (get_tensor arm tensor s) = Some (tensor (ax a) (ay a)) /\ GInv a (snd (get_tensor arm tensor s)).
Proof.
  intros I. unfold get_tensor. set (s1 := if negb (xu s) || negb (yu s) then _ else _).
  assert (I1 : GInv a s1 /\ xu s1 = true /\ yu s1 = true).
  { unfold s1. destruct (negb (xu s) || negb (yu s)) eqn:E.
    - destruct (get_x_ok a s I) as (_ & I1 & X1 & _). destruct (get_y_ok a _ I1) as (_ & I2 & Y2 & X2). rewrite X2. auto.
    - apply orb_false_iff in E. destruct E as [E1 E2]. apply negb_false_iff in E1, E2. auto. }
  clearbody s1. destruct I1 as (I1 & X1 & Y1). cbv zeta. destruct (tu s1) eqn:Et; [split; [apply (ht a s1 I1 X1 Y1 Et)|exact I1]|].
  destruct (get_x_ok a s1 I1) as (P1 & P2 & P3 & _). destruct (get_x arm s1) as [x s2]. cbn [fst snd] in *. subst x.
  destruct (get_y_ok a s2 P2) as (Q1 & Q2 & Q3 & Q4). destruct (get_y arm s2) as [y s3]. cbn [fst snd] in *. subst y.
  split; [reflexivity|]. destruct Q2. constructor; cbn; auto.
Qed.
Lemma gstep_inv a s o : GInv a s -> GInv (upd a o) (gstep arm tensor s o).
Proof.
  intros I. destruct o as [[v|v|v|v|v|v|v]| | | |]; cbn [gstep upd].
  1-7: destruct I; constructor; cbn; auto; try discriminate.
  - apply get_vertex_ok; auto.
  - apply (get_x_ok a s I).
  - apply (get_y_ok a s I).
  - apply get_tensor_ok; auto.
Qed.
Lemma grun_inv l : forall a s, GInv a s -> GInv (fold_left upd l a) (grun arm tensor s l).
Proof. induction l as [|o l IH]; intros a s I; [exact I|]. cbn. apply IH, gstep_inv; auto. Qed.
Lemma fresh_inv a : GInv a (fresh a). Proof. constructor; cbn; auto; discriminate. Qed.
(** after any sequence of assignments and reads every quantity is that of an object just built with the
    attributes now in force *)
Theorem C85_cache : forall a l, let s := grun arm tensor (fresh a) l in let f := fresh (fold_left upd l a) in
  fst (get_vertex s) = fst (get_vertex f) /\ fst (get_x arm s) = fst (get_x arm f) /\ fst (get_y arm s) = fst (get_y arm f)
  /\ fst (get_tensor arm tensor s) = fst (get_tensor arm tensor f) /\ fst (get_tensor arm tensor s) <> None.
Proof.
  intros a l s f. assert (I : GInv (fold_left upd l a) s) by (apply grun_inv, fresh_inv). pose proof (fresh_inv (fold_left upd l a)) as J. fold f in J.
  rewrite (proj1 (get_vertex_ok _ s I)), (proj1 (get_vertex_ok _ f J)), (proj1 (get_x_ok _ s I)), (proj1 (get_x_ok _ f J)),
    (proj1 (get_y_ok _ s I)), (proj1 (get_y_ok _ f J)), (proj1 (get_tensor_ok _ s I)), (proj1 (get_tensor_ok _ f J)). repeat split; auto. discriminate.
Qed.
(** and angles read back in degrees as set *)
Theorem C85_degrees : forall a l, let s := grun arm tensor (fresh a) l in let b := fold_left upd l a in
  degrees (g_lat s) = a_lat b /\ degrees (g_lon s) = a_lon b /\ degrees (g_xa s) = a_xa b /\ degrees (g_ya s) = a_ya b /\ g_el s = a_el b.
Proof.
  intros a l s b. assert (I : GInv b s) by (apply grun_inv, fresh_inv). destruct I. pose proof PI_neq0.
  rewrite h8, h9, h11, h12, h10. unfold degrees, deg. repeat split; field; auto.
Qed.
End Geometry.
(** the vertex at elevation 0 lies on the ellipsoid; elevation moves it along the outward unit normal *)
Lemma radius_pos lat : 0 < semi_major ^ 2 * cos lat ^ 2 + semi_minor ^ 2 * sin lat ^ 2.
Proof.
  pose proof (sin2_cos2 lat) as H. unfold Rsqr in H. unfold semi_major, semi_minor.
  assert (6356752 ^ 2 * (cos lat ^ 2 + sin lat ^ 2) <= 6378137 ^ 2 * cos lat ^ 2 + 6356752.314 ^ 2 * sin lat ^ 2).
  { rewrite Rmult_plus_distr_l. pose proof (pow2_ge_0 (cos lat)). pose proof (pow2_ge_0 (sin lat)). apply Rplus_le_compat; apply Rmult_le_compat_r; auto; lra. }
  replace (cos lat ^ 2 + sin lat ^ 2) with 1 in H0 by (rewrite <- H; ring). lra.
Qed.
Theorem C85_vertex_on_ellipsoid : forall lat lon, let '(x, y, z) := vertex_position lat lon 0 in
  x ^ 2 / semi_major ^ 2 + y ^ 2 / semi_major ^ 2 + z ^ 2 / semi_minor ^ 2 = 1.
Proof.
  intros lat lon. unfold vertex_position. pose proof (radius_pos lat) as P. set (q := semi_major ^ 2 * cos lat ^ 2 + semi_minor ^ 2 * sin lat ^ 2) in *.
  pose proof (sqrt_lt_R0 q P) as S. pose proof (sqrt_sqrt q (Rlt_le _ _ P)) as SS. set (r := sqrt q) in *.
  assert (A : semi_major <> 0) by (unfold semi_major; lra). assert (B : semi_minor <> 0) by (unfold semi_minor; lra).
  pose proof (sin2_cos2 lon) as T. unfold Rsqr in T.
  assert (E : (semi_major ^ 2 * cos lat ^ 2 * (sin lon * sin lon + cos lon * cos lon) + semi_minor ^ 2 * sin lat ^ 2) / (r * r) = 1).
  { rewrite T, SS, Rmult_1_r. fold q. field. lra. }
  rewrite <- E. field. repeat split; auto; lra.
Qed.
Theorem C85_elevation_along_normal : forall lat lon h, let '(x0, y0, z0) := vertex_position lat lon 0 in let '(x, y, z) := vertex_position lat lon h in
  let nx := cos lat * cos lon in let ny := cos lat * sin lon in let nz := sin lat in
  x = x0 + h * nx /\ y = y0 + h * ny /\ z = z0 + h * nz /\ nx ^ 2 + ny ^ 2 + nz ^ 2 = 1
  /\ exists k, 0 < k /\ x0 / semi_major ^ 2 = k * nx /\ y0 / semi_major ^ 2 = k * ny /\ z0 / semi_minor ^ 2 = k * nz.
Proof.
  intros lat lon h. unfold vertex_position. cbv zeta. pose proof (radius_pos lat) as P. set (q := semi_major ^ 2 * cos lat ^ 2 + semi_minor ^ 2 * sin lat ^ 2) in *.
  pose proof (sqrt_lt_R0 q P) as S. set (r := sqrt q) in *.
  assert (A : semi_major <> 0) by (unfold semi_major; lra). assert (B : semi_minor <> 0) by (unfold semi_minor; lra).
  split; [ring|]. split; [ring|]. split; [ring|]. split.
  - pose proof (sin2_cos2 lat) as H1. pose proof (sin2_cos2 lon) as H2. unfold Rsqr in *.
    replace ((cos lat * cos lon) ^ 2 + (cos lat * sin lon) ^ 2 + sin lat ^ 2) with (cos lat * cos lat * (sin lon * sin lon + cos lon * cos lon) + sin lat * sin lat) by ring. rewrite H2. lra.
  - exists (/ r). split; [apply Rinv_0_lt_compat; auto|]. repeat split; field; repeat split; auto; lra.
Qed.
(** TriangularInterferometer: the arms are turned by 240 degrees each time, but for arms 60 degrees apart the
    next vertex is put at the point opposite to the end of the y arm, so no two arms share an end *)
Theorem C85_triangle_orientation : forall Re len q, let l := triangle Re len q in
  length l = 3%nat /\ forall k, (k < 3)%nat -> let '(_, _, xa, ya) := nth k l q in let '(_, _, xa0, ya0) := q in
    xa = xa0 + 240 * INR k /\ ya = ya0 + 240 * INR k.
Proof.
  intros Re len [[[lat lon] xa] ya]. cbv zeta. split; [reflexivity|]. intros [|[|[|k]]] H; try lia; simpl; split; lra.
Qed.
Theorem C85_triangle_refuted : forall Re len lat lon xa, 0 < len -> 0 < Re ->
  let ya := xa + 60 in let '(lat1, lon1, _, _) := tri_next Re len (lat, lon, xa, ya) in
  let step_lat a := atan (len * sin (a * PI / 180) * 1000 / Re) * 180 / PI in
  let step_lon a := atan (len * cos (a * PI / 180) * 1000 / Re) * 180 / PI in
  lat1 = lat - step_lat ya /\ lon1 = lon - step_lon ya /\ (lat1 <> lat + step_lat ya \/ lon1 <> lon + step_lon ya).
Proof.
  intros Re len lat lon xa Hl HR ya. unfold tri_next. cbv zeta.
  assert (E : (xa + 240) * PI / 180 = ya * PI / 180 + PI) by (unfold ya; field).
  rewrite E, neg_sin, neg_cos.
  replace (len * - sin (ya * PI / 180) * 1000 / Re) with (- (len * sin (ya * PI / 180) * 1000 / Re)) by (unfold Rdiv; ring).
  replace (len * - cos (ya * PI / 180) * 1000 / Re) with (- (len * cos (ya * PI / 180) * 1000 / Re)) by (unfold Rdiv; ring).
  rewrite !atan_opp. pose proof PI_neq0 as HP. pose proof PI_RGT_0.
  split; [field; auto|]. split; [field; auto|].
  assert (Z : forall u, atan (len * u * 1000 / Re) = 0 -> u = 0).
  { intros u Hu. rewrite <- atan_0 in Hu. apply (f_equal tan) in Hu. rewrite !tan_atan in Hu.
    apply Rmult_eq_reg_r with (len * 1000 / Re); [|apply Rgt_not_eq, Rdiv_lt_0_compat; nra]. rewrite Rmult_0_l, <- Hu. field. lra. }
  destruct (Req_dec (sin (ya * PI / 180)) 0) as [Hs|Hs].
  - right. intros Q. assert (C0 : cos (ya * PI / 180) = 0).
    { apply Z. apply Rmult_eq_reg_r with (2 * 180 / PI); [|apply Rgt_not_eq, Rdiv_lt_0_compat; lra]. unfold Rdiv in *. lra. }
    pose proof (sin2_cos2 (ya * PI / 180)) as T. unfold Rsqr in T. rewrite Hs, C0 in T. lra.
  - left. intros Q. apply Hs. apply Z. apply Rmult_eq_reg_r with (2 * 180 / PI); [|apply Rgt_not_eq, Rdiv_lt_0_compat; lra]. unfold Rdiv in *. lra.
Qed.
Example C85_example : let s := grun (fun a b c d => a + b + c + d) (fun x y => x - y) (fresh (mkA 10 20 30 40 50 0 0)) [GTensor; GSet (SXt 7); GVertex; GSet (SYt 3)] in
  fst (get_tensor (fun a b c d => a + b + c + d) (fun x y => x - y) s) = Some ((7 + deg 40 + deg 20 + deg 10) - (3 + deg 50 + deg 20 + deg 10)).
Proof. reflexivity. Qed.

(** ** C86 power spectral densities *)
Lemma arr_eq_ok a : forall b, arr_eq a b = true <-> a = b.
Proof.
  induction a as [|x a IH]; intros [|y b]; cbn; try (split; intros H; (reflexivity || discriminate || congruence)).
  destruct (Req_EM_T x y) as [->|N]; [rewrite IH; split; intros H; congruence|]. split; [discriminate|]. intros H. injection H as H _. contradiction.
Qed.
(** frequencies and density in force, and the frequencies and density of the interpolation *)
Definition pspec (q : list R * option (list R * list R)) (o : pop) : list R * option (list R * list R) :=
  let '(f, nd) := q in
  let put g v := if Nat.eqb (length g) (length v) then (g, Some (g, v)) else (g, nd) in
  match o with
  | PPsd v => put f v | PAsd v => put f (map (fun a => a ^ 2) v)
  | PFilePsd g v => put g v | PFileAsd g v => put g (map (fun a => a ^ 2) v)
  | PF g => (g, nd) | _ => q end.
Definition values (nd : option (list R * list R)) (x : list R) : option (list (option ext)) :=
  match nd with Some (f, v) => Some (map (psd_at f v) x) | None => None end.
Record PInv (q : list R * option (list R * list R)) (s : psd) : Prop := mkPI {
  k1 : p_f s = fst q; k2 : nodes s = snd q;
  k3 : snd q <> None -> cp s = values (snd q) (cf s) /\ ca s = option_map (map ext_sqrt) (cp s);
  k4 : snd q = None -> cf s = [] /\ cp s = None /\ ca s = None }.
Lemma interpolate_ok q f v a c cp0 ca0 nd : q = (f, Some (f, v)) -> PInv q (interpolate (mkP f v a nd c cp0 ca0))
  /\ p_psd (interpolate (mkP f v a nd c cp0 ca0)) = v /\ p_asd (interpolate (mkP f v a nd c cp0 ca0)) = a.
Proof. intros ->. cbn. split; [|auto]. constructor; cbn; auto; discriminate. Qed.
Lemma refresh_ok q s x : PInv q s -> match snd q with
  | Some _ => exists s1, refresh s x = Some s1 /\ PInv q s1 /\ cp s1 = values (snd q) x /\ ca s1 = option_map (map ext_sqrt) (values (snd q) x)
  | None => x <> [] -> refresh s x = None end.
Proof.
  intros I. destruct (snd q) as [[nf np]|] eqn:E.
  - unfold refresh. destruct (k3 q s I ltac:(congruence)) as [K1 K2]. rewrite E in K1. destruct (arr_eq x (cf s)) eqn:A.
    + apply arr_eq_ok in A. subst x. exists s. rewrite <- K1. auto.
    + unfold update_cache. rewrite (k2 q s I), E. eexists. split; [reflexivity|]. split; [|cbn; auto].
      constructor; cbn; try apply I; auto; try congruence. rewrite E. cbn. auto.
  - intros Hx. unfold refresh. destruct (k4 q s I E) as (K1 & _ & _). rewrite K1. destruct x; [congruence|]. cbn. unfold update_cache. rewrite (k2 q s I), E. reflexivity.
Qed.
Lemma pstep_inv q s o : PInv q s -> PInv (pspec q o) (pstep s o).
Proof.
  intros I. destruct q as [f nd]. pose proof (k1 _ _ I) as Kf. cbn [fst] in Kf. destruct o; cbn [pstep pspec].
  - unfold set_psd. rewrite Kf. destruct (Nat.eqb _ _); [|exact I]. apply interpolate_ok. reflexivity.
  - unfold set_asd. rewrite Kf, map_length. destruct (Nat.eqb _ _); [|exact I]. apply interpolate_ok. reflexivity.
  - destruct I; constructor; cbn in *; auto.
  - unfold load_psd, set_psd, set_f. cbn [p_f]. destruct (Nat.eqb _ _); [apply interpolate_ok; reflexivity|]. destruct I; constructor; cbn in *; auto.
  - unfold load_asd, set_asd, set_f. cbn [p_f]. rewrite map_length. destruct (Nat.eqb _ _); [apply interpolate_ok; reflexivity|]. destruct I; constructor; cbn in *; auto.
  - unfold get_psd. pose proof (refresh_ok _ s f0 I) as Q. cbn [snd] in Q. destruct nd as [p|].
    + destruct Q as (s1 & -> & Q & _). exact Q.
    + destruct f0 as [|y t]; [unfold refresh; destruct (k4 _ _ I eq_refl) as (-> & _); exact I|]. rewrite Q by discriminate. exact I.
  - unfold get_asd. pose proof (refresh_ok _ s f0 I) as Q. cbn [snd] in Q. destruct nd as [p|].
    + destruct Q as (s1 & -> & Q & _). exact Q.
    + destruct f0 as [|y t]; [unfold refresh; destruct (k4 _ _ I eq_refl) as (-> & _); exact I|]. rewrite Q by discriminate. exact I.
Qed.
Lemma prun_inv l : forall q s, PInv q s -> PInv (fold_left pspec l q) (prun s l).
Proof. induction l as [|o l IH]; intros q s I; [exact I|]. cbn. apply IH, pstep_inv; auto. Qed.
(** the cache never shows: a query returns the interpolation of the last accepted density at the frequencies
    asked for, and raises exactly before the first one *)
Theorem C86_queries : forall f0 l x, x <> [] -> let s := prun (blank f0) l in let nd := snd (fold_left pspec l (f0, None)) in
  fst (get_psd s x) = values nd x /\ fst (get_asd s x) = option_map (map ext_sqrt) (values nd x).
Proof.
  intros f0 l x Hx s nd. assert (I : PInv (fold_left pspec l (f0, None)) s).
  { apply prun_inv. constructor; cbn; auto; congruence. }
  pose proof (refresh_ok _ s x I) as Q. unfold get_psd, get_asd. fold nd in Q |- *. destruct nd as [p|].
  - destruct Q as (s1 & -> & _ & Q1 & Q2). cbn [fst]. auto.
  - rewrite Q by auto. auto.
Qed.
(** both arrays describe the same density *)
Theorem C86_asd_squared_is_psd : forall s v, List.Forall (fun a => 0 <= a) v -> length (p_f s) = length v ->
  (let s1 := snd (set_psd s v) in p_psd s1 = v /\ map (fun a => a ^ 2) (p_asd s1) = p_psd s1)
  /\ (let s1 := snd (set_asd s v) in p_asd s1 = v /\ map sqrt (p_psd s1) = p_asd s1).
Proof.
  intros s v Hv L. unfold set_psd, set_asd. rewrite L, Nat.eqb_refl. cbn [snd]. split.
  - unfold interpolate. cbn. split; [reflexivity|]. rewrite map_map. rewrite <- (map_id v) at 2. apply map_ext_Forall. eapply Forall_impl; [|exact Hv].
    intros a Ha. cbv beta. apply pow2_sqrt. exact Ha.
  - unfold interpolate. cbn. split; [reflexivity|]. rewrite map_map. rewrite <- (map_id v) at 2. apply map_ext_Forall. eapply Forall_impl; [|exact Hv].
    intros a Ha. cbv beta. apply sqrt_pow2. exact Ha.
Qed.
(** a density of the wrong length is refused and changes nothing *)
Theorem C86_wrong_length : forall s v, length (p_f s) <> length v -> set_psd s v = (false, s) /\ set_asd s v = (false, s).
Proof. intros s v H. unfold set_psd, set_asd. destruct (Nat.eqb_spec (length (p_f s)) (length v)); [contradiction|auto]. Qed.
(** at its own frequencies the interpolation is the array given, outside it is infinite *)
Lemma combine_incr f v : length f = length v -> incr (combine f v) -> (2 <= length f)%nat -> forall k, (k < length f)%nat -> psd_at f v (nth k f 0) = Some (Fin (nth k v 0)).
Proof.
  intros L HI L2 k Hk. unfold psd_at.
  assert (HIn : In (nth k f 0, nth k v 0) (combine f v)) by (rewrite <- combine_nth by auto; apply nth_In; rewrite combine_length; lia).
  assert (LL : (2 <= length (combine f v))%nat) by (rewrite combine_length; lia).
  assert (B : first_x (combine f v) <= nth k f 0 <= last_x (combine f v) 0).
  { revert HI HIn LL. generalize (combine f v) (nth k f 0) (nth k v 0). clear. intros l x y HI HIn _.
    assert (G : forall l a b, incr ((a, b) :: l) -> forall x y, In (x, y) ((a, b) :: l) -> a <= x <= last_x l a).
    { clear. induction l as [|[c d] l IH]; intros a b HI x y [E|HIn].
      - injection E as -> ->. simpl. lra. - destruct HIn.
      - injection E as -> ->. destruct HI as [HI1 HI2]. cbn [last_x]. destruct (IH c d HI2 c d (or_introl eq_refl)). lra.
      - destruct HI as [HI1 HI2]. cbn [last_x]. destruct (IH c d HI2 x y HIn). lra. }
    destruct l as [|[a b] l]; [destruct HIn|]. apply (G l a b HI x y HIn). }
  destruct (Rlt_dec _ _); [lra|]. destruct (Rlt_dec _ _); [lra|]. rewrite (interp_node _ _ _ HI HIn LL). reflexivity.
Qed.
Theorem C86_at_nodes : forall s v, length (p_f s) = length v -> (2 <= length v)%nat -> incr (combine (p_f s) v) ->
  let s1 := snd (set_psd s v) in
  fst (get_psd s1 (p_f s)) = Some (map (fun a => Some (Fin a)) v)
  /\ forall x, x < hd 0 (p_f s) \/ last (p_f s) 0 < x -> fst (get_psd s1 [x]) = Some [Some Inf].
Proof.
  intros s v L L2 HI s1. assert (J : PInv (p_f s, Some (p_f s, v)) s1).
  { unfold s1, set_psd. rewrite L, Nat.eqb_refl. apply interpolate_ok. reflexivity. }
  assert (A : forall x, fst (get_psd s1 x) = Some (map (psd_at (p_f s) v) x)).
  { intros x. pose proof (refresh_ok _ s1 x J) as Q. cbn [snd] in Q. destruct Q as (s2 & E & _ & Q & _). unfold get_psd. rewrite E. exact Q. }
  split.
  - rewrite A. f_equal. apply nth_ext with (d := psd_at (p_f s) v 0) (d' := Some (Fin 0)); rewrite !map_length; auto.
    intros k Hk. rewrite (map_nth (psd_at (p_f s) v)), (map_nth (fun a => Some (Fin a))). apply combine_incr; auto; lia.
  - intros x Hx. rewrite A. cbn [map]. do 2 f_equal. unfold psd_at.
    assert (F : first_x (combine (p_f s) v) = hd 0 (p_f s)) by (destruct (p_f s), v; cbn in *; try lia; reflexivity).
    assert (G : forall f w d, length f = length w -> last_x (combine f w) d = last f d).
    { clear. induction f as [|a f IH]; intros w d L; destruct w as [|b w]; cbn in L; try discriminate; [reflexivity|]. cbn [combine last_x].
      rewrite IH by lia. cbn [last]. destruct f; [reflexivity|]. clear. revert r. induction f as [|b f IH]; intros r; [reflexivity|]. cbn [last]. cbn [last] in IH. apply IH. }
    rewrite F, G by auto. destruct (Rlt_dec x (hd 0 (p_f s))) as [_|N]; [reflexivity|]. destruct Hx as [Hx|Hx]; [contradiction|]. destruct (Rlt_dec (last (p_f s) 0) x); [reflexivity|contradiction].
Qed.
(** the constructor: the amplitude array wins over the power array, a file over both, and an amplitude file over all *)
Theorem C86_constructor : forall f pv av fp fa s, make f pv av fp fa = Some s ->
  nodes s = match fa with Some (g, v) => Some (g, map (fun a => a ^ 2) v) | None =>
            match fp with Some (g, v) => Some (g, v) | None =>
            match av with Some v => Some (f, map (fun a => a ^ 2) v) | None =>
            match pv with Some v => Some (f, v) | None => None end end end end.
Proof.
  intros f pv av fp fa s H. unfold make, bind in H.
  assert (P1 : forall s v s', ok (set_psd s v) = Some s' -> nodes s' = Some (p_f s, v) /\ p_f s' = p_f s).
  { intros s1 v s' E. unfold set_psd, ok in E. destruct (Nat.eqb _ _); [|discriminate]. cbn in E. injection E as <-. auto. }
  assert (P2 : forall s v s', ok (set_asd s v) = Some s' -> nodes s' = Some (p_f s, map (fun a => a ^ 2) v) /\ p_f s' = p_f s).
  { intros s1 v s' E. unfold set_asd, ok in E. destruct (Nat.eqb _ _); [|discriminate]. cbn in E. injection E as <-. auto. }
  assert (A1 : forall s1, (match pv with Some v => ok (set_psd (blank f) v) | None => Some (blank f) end) = Some s1 ->
    p_f s1 = f /\ nodes s1 = match pv with Some v => Some (f, v) | None => None end).
  { intros s1 E. destruct pv as [v|]; [destruct (P1 _ _ _ E); auto|injection E as <-; auto]. }
  destruct (match pv with Some v => ok (set_psd (blank f) v) | None => Some (blank f) end) as [s1|]; [|discriminate].
  destruct (A1 s1 eq_refl) as [F1 N1]. clear A1.
  assert (A2 : forall s2, (match av with Some v => ok (set_asd s1 v) | None => Some s1 end) = Some s2 ->
    nodes s2 = match av with Some v => Some (f, map (fun a => a ^ 2) v) | None => nodes s1 end).
  { intros s2 E. destruct av as [v|]; [destruct (P2 _ _ _ E) as [-> _]; rewrite F1; auto|injection E as <-; auto]. }
  destruct (match av with Some v => ok (set_asd s1 v) | None => Some s1 end) as [s2|]; [|discriminate]. specialize (A2 s2 eq_refl).
  assert (A3 : forall s3, (match fp with Some (g, v) => ok (load_psd s2 g v) | None => Some s2 end) = Some s3 ->
    nodes s3 = match fp with Some (g, v) => Some (g, v) | None => nodes s2 end).
  { intros s3 E. destruct fp as [[g v]|]; [apply (P1 _ _ _ E)|injection E as <-; auto]. }
  destruct (match fp with Some (g, v) => ok (load_psd s2 g v) | None => Some s2 end) as [s3|]; [|discriminate]. specialize (A3 s3 eq_refl).
  destruct fa as [[g v]|]; [apply (P2 _ _ _ H)|]. injection H as <-. rewrite A3. destruct fp as [[g v]|]; auto. rewrite A2. destruct av; auto.
Qed.
(** reassigning frequency_array alone leaves the interpolation on the old frequencies *)
Theorem C86_frequency_array_refuted : forall s g, nodes (set_f s g) = nodes s /\ p_f (set_f s g) = g.
Proof. intros. split; reflexivity. Qed.
(** noise: zero outside the frequencies of the density, the scaled white noise inside, never nan *)
Lemma min_first f : forall a v, length f = length v -> incr (combine (a :: f) (0 :: v)) -> fold_right Rmin a (a :: f) = a /\ fold_right Rmin a f = a.
Proof.
  assert (G : forall f b a v, length f = length v -> b <= a -> incr (combine (a :: f) (0 :: v)) -> fold_right Rmin b f = b).
  { clear f. induction f as [|c f IH]; intros b a v L Hb HI; [reflexivity|]. destruct v as [|w v]; [discriminate|]. cbn [combine] in HI. destruct HI as [H1 H2].
    cbn [fold_right]. rewrite (IH b c v); [apply Rmin_right; lra|cbn in L; lia|lra|]. cbn [combine]. destruct (combine f v) as [|[p q] t]; [exact I|exact H2]. }
  intros a v L HI. assert (E : fold_right Rmin a f = a) by (apply (G f a a v); auto; lra). cbn. rewrite E. split; [apply Rmin_left; lra|reflexivity].
Qed.
Lemma max_last f : forall a v, length f = length v -> incr (combine (a :: f) (0 :: v)) -> fold_right Rmax a f = last_x (combine f v) a.
Proof.
  assert (G : forall f b a v, length f = length v -> b <= a -> incr (combine (a :: f) (0 :: v)) -> a <= last_x (combine f v) a /\ (f <> [] -> fold_right Rmax b f = last_x (combine f v) a)).
  { clear f. induction f as [|c f IH]; intros b a v L Hb HI; [cbn; split; [lra|congruence]|]. destruct v as [|w v]; [discriminate|]. cbn [combine] in HI. destruct HI as [H1 H2].
    assert (HI2 : incr (combine (c :: f) (0 :: v))) by (cbn [combine]; destruct (combine f v) as [|[p q] t]; [exact I|exact H2]).
    destruct (IH b c v ltac:(cbn in L; lia) ltac:(lra) HI2) as [J1 J2]. cbn [combine last_x]. split; [lra|]. intros _. cbn [fold_right].
    destruct f as [|d f]; [cbn in *; apply Rmax_left; destruct v; cbn; lra|]. rewrite J2 by discriminate. apply Rmax_right. exact J1. }
  intros a v L HI. destruct f as [|c f]; [destruct v; [reflexivity|discriminate]|]. apply (G (c :: f) a a v); auto; [lra|discriminate].
Qed.
Theorem C86_noise : forall s v f w, length (p_f s) = length v -> (2 <= length v)%nat -> incr (combine (p_f s) v) ->
  let s1 := snd (set_psd s v) in
  (f < hd 0 (p_f s) \/ last_x (combine (p_f s) v) 0 < f -> noise_bin s1 f w = Some 0)
  /\ (hd 0 (p_f s) <= f <= last_x (combine (p_f s) v) 0 -> exists a, psd_at (p_f s) v f = Some (Fin a) /\ noise_bin s1 f w = Some (sqrt a * w)).
Proof.
  intros s v f w L L2 HI s1.
  assert (E : p_f s1 = p_f s /\ nodes s1 = Some (p_f s, v)) by (unfold s1, set_psd; rewrite L, Nat.eqb_refl; cbn; auto). destruct E as [E1 E2].
  unfold noise_bin. rewrite E1, E2. clear E1 E2 s1. destruct (p_f s) as [|a g]; [cbn in L; lia|]. destruct v as [|b v]; [cbn in L2; lia|]. cbn in L.
  assert (HI0 : incr (combine (a :: g) (0 :: v))) by (cbn [combine] in *; destruct (combine g v) as [|[p q] t]; [exact I|exact HI]).
  assert (L' : length g = length v) by lia. cbn [hd].
  rewrite (proj1 (min_first g a v L' HI0)).
  assert (EM : fold_right Rmax a (a :: g) = last_x (combine (a :: g) (b :: v)) 0).
  { cbn [fold_right combine last_x]. rewrite (max_last g a v L' HI0). apply Rmax_right.
    destruct g as [|c g]; destruct v as [|e v]; try discriminate; [cbn; lra|]. cbn [combine last_x]. destruct HI0 as [J1 J2].
    assert (Q : forall l x z, incr ((x, z) :: l) -> x <= last_x l x).
    { clear. induction l as [|[y z] l IH]; intros x z' H; [cbn; lra|]. destruct H as [H1 H2]. cbn [last_x]. specialize (IH y z H2). lra. }
    specialize (Q (combine g v) c e J2). lra. }
  rewrite EM. set (hi := last_x _ 0) in *. split.
  - intros H. destruct (Rlt_dec f a); [reflexivity|]. destruct (Rlt_dec hi f); [reflexivity|]. destruct H; contradiction.
  - intros [H1 H2]. destruct (Rlt_dec f a); [lra|]. destruct (Rlt_dec hi f); [lra|].
    unfold psd_at. cbn [combine first_x]. destruct (Rlt_dec f a); [lra|]. change (last_x ((a, b) :: combine g v) 0) with hi. destruct (Rlt_dec hi f); [lra|].
    destruct g as [|c g]; destruct v as [|e v]; try discriminate; [cbn in L2; lia|].
    destruct (interp_defined a b c e (combine g v) f HI H2) as [y Hy]. cbn [combine]. rewrite Hy. exists y. split; reflexivity.
Qed.
(** if frequency_array was widened afterwards the noise contains nan or inf *)
Theorem C86_noise_after_reassignment_refuted : exists s g f, forall w, noise_bin (set_f s g) f w = None.
Proof.
  exists (snd (set_psd (blank [1; 2]) [3; 4])), [0; 5], 4. intros w. unfold noise_bin, set_f, set_psd. cbn [p_f blank length Nat.eqb snd nodes interpolate update_cache fold_right hd].
  rewrite (Rmin_left 5 0 ltac:(lra)) || idtac. destruct (Rlt_dec _ _) as [H|_].
  - exfalso. pose proof (Rmin_l 0 (Rmin 5 0)). lra.
  - destruct (Rlt_dec _ _) as [H|_].
    + exfalso. pose proof (Rmax_r 0 (Rmax 5 0)). pose proof (Rmax_l 5 0). lra.
    + unfold psd_at. cbn -[Rlt_dec]. destruct (Rlt_dec 4 1); [lra|]. destruct (Rlt_dec 2 4); [reflexivity|lra].
Qed.
Example C86_example : fst (get_psd (prun (blank [10; 20]) [PAsd [2; 4]; PGet [15]; PPsd [1; 9]]) [15; 30]) = Some [Some (Fin 5); Some Inf].
Proof.
  destruct (C86_queries [10; 20] [PAsd [2; 4]; PGet [15]; PPsd [1; 9]] [15; 30] ltac:(discriminate)) as [-> _].
  cbn [fold_left pspec snd length Nat.eqb values map]. unfold psd_at. cbn [combine first_x last_x interp_in].
  destruct (Rlt_dec 15 10); [lra|]. destruct (Rlt_dec 20 15); [lra|]. destruct (Rle_dec 15 20); [|lra]. destruct (Req_EM_T (20 - 10) 0); [lra|].
  destruct (Rlt_dec 30 10); [lra|]. destruct (Rlt_dec 20 30); [|lra]. repeat f_equal. lra.
Qed.
(** ** C87 lists of detectors *)
Definition near (a b : R) : Prop := Rabs (a - b) <= Rmax (/ 10 ^ 9 * Rmax (Rabs a) (Rabs b)) (/ 10 ^ 5).
(** all equal, or all set and within the tolerance of the first *)
Definition alike (x : list (option R)) : Prop :=
  (forall y, In y x -> y = hd None x) \/ exists b, hd None x = Some b /\ forall y, In y x -> exists a, y = Some a /\ near a b.
Definition consistent (l : list ifo) : Prop := alike (map i_dur l) /\ alike (map i_start l) /\ alike (map i_fs l).
Lemma oeq_ok a b : oeq a b = true <-> a = b.
Proof. destruct a as [x|], b as [y|]; cbn; try (split; intros H; (discriminate || reflexivity)). destruct (Req_EM_T x y) as [->|N]; split; intros H; try congruence; try reflexivity. Qed.
Lemma isclose_ok a b : isclose a b = true <-> near a b.
Proof. unfold isclose, near. destruct (Rle_dec _ _); split; intros H; auto; try discriminate; contradiction. Qed.
Lemma all_close_ok x0 x : all_close x0 x = LOk <-> (x = [] \/ exists b, x0 = Some b /\ forall y, In y x -> exists a, y = Some a /\ near a b).
Proof.
  induction x as [|y x IH]; [cbn; tauto|]. split.
  - intros H. right. cbn in H. destruct y as [a|], x0 as [b|]; try discriminate. destruct (isclose a b) eqn:E; [|discriminate]. apply isclose_ok in E. apply IH in H.
    exists b. split; [auto|]. intros z [<-|Hz]; [eauto|]. destruct H as [->|(b' & Q & H)]; [destruct Hz|]. injection Q as <-. auto.
  - intros [H|(b & -> & H)]; [discriminate|]. cbn. destruct (H y (or_introl eq_refl)) as (a & -> & Hn). apply isclose_ok in Hn. rewrite Hn. apply IH. right. exists b. split; auto. intros z Hz. apply H. right; auto.
Qed.
Lemma check_attr_ok x : check_attr x = LOk <-> alike x.
Proof.
  unfold check_attr, alike. destruct (forallb _ x) eqn:E.
  - split; auto. intros _. left. rewrite forallb_forall in E. intros y Hy. apply oeq_ok. auto.
  - rewrite all_close_ok. split.
    + intros [->|H]; [cbn in E; discriminate|auto].
    + intros [H|H]; [|auto]. exfalso. rewrite <- not_true_iff_false, forallb_forall in E. apply E. intros y Hy. apply oeq_ok. auto.
Qed.
Lemma check_ok l : check l = LOk <-> consistent l.
Proof.
  unfold check, consistent. rewrite <- !check_attr_ok. destruct (check_attr (map i_dur l)); [|split; [discriminate|intros (?&?&?); discriminate]..].
  destruct (check_attr (map i_start l)); [|split; [discriminate|intros (?&?&?); discriminate]..]. tauto.
Qed.
(** append, extend and insert raise exactly if the resulting list is inconsistent *)
Theorem C87_raises_iff : forall l o, fst (lstep l o) = LOk <-> consistent (list_op l o).
Proof. intros l o. apply check_ok. Qed.
(** the constructor succeeds exactly if every initial part of the list is consistent, and then keeps the order *)
Lemma build_ok l : forall acc r, build acc l = (LOk, r) <-> (r = acc ++ l /\ consistent acc /\ forall k, consistent (acc ++ firstn k l)).
Proof.
  induction l as [|x l IH]; intros acc r.
  - cbn. split.
    + intros [= H <-]. apply check_ok in H. rewrite app_nil_r. split; [reflexivity|]. split; [exact H|]. intros k. rewrite firstn_nil, app_nil_r. exact H.
    + intros (-> & H & _). rewrite app_nil_r. apply check_ok in H. rewrite H. reflexivity.
  - cbn [build lstep list_op]. destruct (check (acc ++ [x])) eqn:E.
    + rewrite IH. apply check_ok in E. rewrite <- app_assoc. cbn [app]. split.
      * intros (-> & H1 & H2). split; [reflexivity|].
        assert (A : forall k, consistent (acc ++ firstn k (x :: l)) \/ k = O).
        { intros [|k]; [right; auto|left]. cbn. specialize (H2 k). rewrite <- app_assoc in H2. exact H2. }
        assert (P : consistent acc).
        { clear - E. assert (G : forall (f : ifo -> option R) acc x, alike (map f (acc ++ [x])) -> alike (map f acc)).
          { clear. intros f [|a acc] x; [intros _; left; intros y []|]. rewrite map_app. cbn. unfold alike. cbn [hd].
            intros [H|(b & H1 & H2)]; [left|right; exists b; split; [auto|]]; intros y Hy; (apply H || apply H2); destruct Hy as [<-|Hy]; [left; auto|right; apply in_or_app; auto|left; auto|right; apply in_or_app; auto]. }
          destruct E as (E1 & E2 & E3). split; [|split]; eapply G; eauto. }
        split; [exact P|]. intros k. destruct (A k) as [H| ->]; [exact H|]. cbn. rewrite app_nil_r. exact P.
      * intros (-> & H1 & H2). split; [reflexivity|]. split; [exact E|]. intros k. rewrite <- app_assoc. exact (H2 (S k)).
    + split; [discriminate|]. intros (_ & _ & H). specialize (H 1%nat). cbn in H. apply check_ok in H. rewrite H in E. discriminate.
    + split; [discriminate|]. intros (_ & _ & H). specialize (H 1%nat). cbn in H. apply check_ok in H. rewrite H in E. discriminate.
Qed.
Theorem C87_constructor : forall l r, build [] l = (LOk, r) <-> (r = l /\ consistent l).
Proof.
  intros l r. rewrite build_ok. cbn [app]. split.
  - intros (-> & _ & H). split; [reflexivity|]. specialize (H (length l)). rewrite firstn_all in H. exact H.
  - intros [-> H]. split; [reflexivity|]. split; [repeat split; left; intros y []|]. intros k.
    assert (G : forall (f : ifo -> option R), alike (map f l) -> alike (map f (firstn k l))).
    { intros f Hf. destruct l as [|a l]; [rewrite firstn_nil; exact Hf|]. destruct k as [|k]; [left; intros y []|]. cbn [firstn map] in *. unfold alike in *. cbn [hd] in *.
      assert (S : forall y, In y (f a :: map f (firstn k l)) -> In y (f a :: map f l)).
      { intros y [<-|Hy]; [left; auto|right]. rewrite in_map_iff in Hy |- *. destruct Hy as (z & E & Hz). exists z. split; auto. rewrite <- (firstn_skipn k l). apply in_or_app; auto. }
      destruct Hf as [Hf|(b & H1 & H2)]; [left|right; exists b; split; auto]; intros y Hy; auto. }
    destruct H as (? & ? & ?). split; [|split]; apply G; auto.
Qed.
(** a list operation that raises has already changed the list; every later operation then raises too, until the
    first detector differs *)
Theorem C87_failed_append_refuted : forall l x, fst (lstep l (LAppend x)) <> LOk ->
  snd (lstep l (LAppend x)) = l ++ [x] /\ forall ops, List.Forall (fun o => match o with LInsert _ _ => False | _ => True end) ops ->
    check (fold_left list_op ops (l ++ [x])) <> LOk.
Proof.
  intros l x H. split; [reflexivity|]. cbn in H.
  assert (G : forall a b, consistent (a ++ b) -> consistent a).
  { intros a b (H1 & H2 & H3).
    assert (Q : forall f : ifo -> option R, alike (map f (a ++ b)) -> alike (map f a)).
    { intros f. rewrite map_app. destruct a as [|a0 a]; [intros _; left; intros y []|]. cbn. unfold alike. cbn [hd].
      intros [K|(c & K1 & K2)]; [left|right; exists c; split; [auto|]]; intros y Hy; (apply K || apply K2); destruct Hy as [<-|Hy]; [left; auto|right; apply in_or_app; auto|left; auto|right; apply in_or_app; auto]. }
    split; [|split]; apply Q; auto. }
  assert (P : forall ops m, check m <> LOk -> List.Forall (fun o => match o with LInsert _ _ => False | _ => True end) ops -> check (fold_left list_op ops m) <> LOk).
  { induction ops as [|o ops IH]; intros m Hm Ho; [exact Hm|]. inversion Ho as [|? ? Ho1 Ho2]; subst. cbn. apply IH; auto. intros C. apply Hm, check_ok.
    apply check_ok in C. destruct o; cbn in C; try contradiction; apply G in C; auto. }
  intros ops Ho. apply P; auto.
Qed.
(** "the same up to 5 decimal places" holds for values up to 10^4; GPS start times a second apart are accepted *)
Theorem C87_tolerance : forall a b, Rabs a <= 10 ^ 4 -> Rabs b <= 10 ^ 4 -> (near a b <-> Rabs (a - b) <= / 10 ^ 5).
Proof.
  intros a b Ha Hb. unfold near. rewrite Rmax_right; [tauto|]. assert (Rmax (Rabs a) (Rabs b) <= 10 ^ 4) by (apply Rmax_lub; auto).
  apply Rle_trans with (/ 10 ^ 9 * 10 ^ 4); [apply Rmult_le_compat_l; [left; apply Rinv_0_lt_compat; lra|auto]|]. lra.
Qed.
Theorem C87_start_times_refuted : fst (build [] [mkI (Some 4) (Some 1126259462) (Some 2048); mkI (Some 4) (Some 1126259463) (Some 2048)]) = LOk.
Proof.
  set (l := [_; _]). assert (H : build [] l = (LOk, l)); [|rewrite H; reflexivity]. apply C87_constructor. split; [reflexivity|].
  split; [|split]; unfold alike, l; cbn [map i_dur i_start i_fs hd].
  - left. intros y [<-|[<-|[]]]; reflexivity.
  - right. exists 1126259462. split; [reflexivity|]. intros y [<-|[<-|[]]]; eexists; (split; [reflexivity|]); unfold near.
    + unfold Rminus; rewrite Rplus_opp_r, Rabs_R0. eapply Rle_trans; [|apply Rmax_r]. left. apply Rinv_0_lt_compat. lra.
    + replace (1126259463 - 1126259462) with 1 by lra. rewrite Rabs_R1. eapply Rle_trans; [|apply Rmax_l].
      rewrite (Rabs_right 1126259463), (Rabs_right 1126259462), Rmax_left by lra. lra.
  - left. intros y [<-|[<-|[]]]; reflexivity.
Qed.
(** a detector without data next to one with data: TypeError, not the documented ValueError *)
Theorem C87_unset_type_error : forall d s f, fst (build [] [mkI (Some d) s f; mkI None s f]) = LTypeError /\ fst (build [] [mkI None s f; mkI (Some d) s f]) = LTypeError.
Proof.
  intros d s f. assert (O : forall y, oeq y y = true) by (intros y; apply oeq_ok; reflexivity).
  assert (A : isclose d d = true) by (apply isclose_ok; unfold near; unfold Rminus; rewrite Rplus_opp_r, Rabs_R0; eapply Rle_trans; [|apply Rmax_r]; left; apply Rinv_0_lt_compat; lra).
  split.
  - cbn [build lstep list_op app]. unfold check, check_attr. cbn [map i_dur i_start i_fs hd forallb]. rewrite !O. cbn. rewrite A. reflexivity.
  - cbn [build lstep list_op app]. unfold check, check_attr. cbn [map i_dur i_start i_fs hd forallb]. rewrite !O. reflexivity.
Qed.
(** insert puts the detector before the one with the given index, counted from the end if negative *)
Theorem C87_insert : forall l k x, exists a b, l = a ++ b /\ snd (lstep l (LInsert k x)) = a ++ x :: b /\
  let n := Z.of_nat (length l) in
  ((0 <= k <= n)%Z -> Z.of_nat (length a) = k) /\ ((n < k)%Z -> b = []) /\
  ((- n <= k < 0)%Z -> Z.of_nat (length b) = (- k)%Z) /\ ((k < - n)%Z -> a = []).
Proof.
  intros l k x. cbn [lstep snd list_op]. set (i := Z.to_nat _). exists (firstn i l), (skipn i l).
  split; [symmetry; apply firstn_skipn|]. split; [reflexivity|]. cbv zeta. rewrite firstn_length, skipn_length.
  repeat split; intros H; subst i.
  - destruct (k <? 0)%Z eqn:E; [apply Z.ltb_lt in E; lia|]. lia.
  - destruct (k <? 0)%Z eqn:E; [apply Z.ltb_lt in E; lia|]. apply skipn_all2. lia.
  - destruct (k <? 0)%Z eqn:E; [|apply Z.ltb_ge in E; lia]. lia.
  - destruct (k <? 0)%Z eqn:E; [|apply Z.ltb_ge in E; lia]. replace (Z.to_nat _) with 0%nat by lia. reflexivity.
Qed.
(** meta_data has one entry per distinct name, the last detector of a name winning *)
Lemma meta_find {A} (l : list (string * A)) : forall d n, find (fun p => String.eqb (fst p) n) (meta l d) =
  match find (fun p => String.eqb (fst p) n) (rev l) with Some p => Some p | None => find (fun p => String.eqb (fst p) n) d end.
Proof.
  induction l as [|[m v] l IH]; intros d n; [reflexivity|]. cbn [meta rev]. rewrite IH.
  assert (F : forall a b : list (string * A), find (fun p => String.eqb (fst p) n) (a ++ b) = match find (fun p => String.eqb (fst p) n) a with Some p => Some p | None => find (fun p => String.eqb (fst p) n) b end).
  { induction a as [|q a IHa]; intros b; [reflexivity|]. cbn. destruct (String.eqb (fst q) n); auto. }
  rewrite F. destruct (find _ (rev l)); [reflexivity|]. cbn [find fst].
  destruct (existsb (fun p => String.eqb (fst p) m) d) eqn:E.
  - clear F IH. induction d as [|[a b] d IHd]; [discriminate|]. cbn [map find fst existsb] in *. destruct (String.eqb_spec a m) as [->|N].
    + cbn [find fst]. destruct (String.eqb_spec m n) as [->|N2]; [reflexivity|].
      clear IHd E. induction d as [|[a b'] d IHd]; [reflexivity|]. cbn [map find fst]. destruct (String.eqb_spec a m) as [->|N3]; cbn [find fst]; [destruct (String.eqb_spec m n); [contradiction|exact IHd]|destruct (String.eqb_spec a n); [reflexivity|exact IHd]].
    + cbn in E. cbn [find fst]. destruct (String.eqb_spec a n) as [->|N2]; [|apply IHd; auto]. destruct (String.eqb_spec m n); [congruence|reflexivity].
  - rewrite F. cbn [find fst]. destruct (String.eqb_spec m n) as [->|N].
    + assert (Z : find (fun p => String.eqb (fst p) n) d = None); [|rewrite Z; reflexivity].
      clear - E. induction d as [|q d IHd]; [reflexivity|]. cbn in *. destruct (String.eqb (fst q) n); [discriminate|auto].
    + destruct (find _ d); reflexivity.
Qed.
Theorem C87_meta_data : forall A (l : list (string * A)) n, find (fun p => String.eqb (fst p) n) (meta l []) = find (fun p => String.eqb (fst p) n) (rev l).
Proof. intros A l n. rewrite meta_find. destruct (find _ (rev l)); reflexivity. Qed.
Example C87_example : fst (lstep [mkI (Some 4) (Some 0) (Some 2048)] (LInsert 0 (mkI (Some 4) (Some 0) (Some 1024)))) = LValueError.
Proof.
  cbn [lstep fst list_op length Z.of_nat]. unfold check, check_attr, list_op. cbn -[isclose Rlt_dec oeq]. unfold oeq.
  destruct (Req_EM_T 4 4); [|lra]. destruct (Req_EM_T 0 0); [|lra]. destruct (Req_EM_T 1024 1024); [|lra]. destruct (Req_EM_T 2048 1024); [lra|]. cbn [andb].
  assert (A : isclose 1024 1024 = true) by (apply isclose_ok; unfold near; unfold Rminus; rewrite Rplus_opp_r, Rabs_R0; eapply Rle_trans; [|apply Rmax_r]; left; apply Rinv_0_lt_compat; lra).
  rewrite A. destruct (isclose 2048 1024) eqn:E; [|reflexivity]. exfalso. apply isclose_ok in E. unfold near in E.
  rewrite (Rabs_right (2048 - 1024)), (Rabs_right 2048), (Rabs_right 1024), (Rmax_left 2048 1024) in E by lra.
  assert (Rmax (/ 10 ^ 9 * 2048) (/ 10 ^ 5) <= 1) by (apply Rmax_lub; lra). lra.
Qed.

(** ** Assumptions of every theorem above *)
Definition Det_Props_all :=
  (@C85_cache,
   @C85_degrees,
   @C85_vertex_on_ellipsoid,
   @C85_elevation_along_normal,
   @C85_triangle_orientation,
   @C85_triangle_refuted,
   @C86_queries,
   @C86_asd_squared_is_psd,
   @C86_wrong_length,
   @C86_at_nodes,
   @C86_constructor,
   @C86_frequency_array_refuted,
   @C86_noise,
   @C86_noise_after_reassignment_refuted,
   @C87_raises_iff,
   @C87_constructor,
   @C87_failed_append_refuted,
   @C87_tolerance,
   @C87_start_times_refuted,
   @C87_unset_type_error,
   @C87_insert,
   @C87_meta_data).
Print Assumptions Det_Props_all.
