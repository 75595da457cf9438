(** * Triangular detectors (C187), detector files (C188), cache files and channel names (C189),
    the check of the signal duration (C190) *)
From Coq Require Import String Ascii Reals List ZArith Bool Lra Lia Psatz.
From Coquelicot Require Import Complex.
From Verif Require Import PyReal PyDict Interp_Model Series_Model Series_Proofs GwInner_Model Ifo_Model Ifo_Props.
Import ListNotations.
Open Scope R_scope.
Open Scope list_scope.

(** ** C187: the three detectors of a triangle *)
(** numbered 1, 2, 3; each turned by a further 240 degrees, all with the same opening angle; the first at the given place *)
Theorem C187_three : forall len lat lon xa ya,
  exists a b c, triangle len lat lon xa ya = [a; b; c]
  /\ (s_index a, s_index b, s_index c) = (1, 2, 3)%nat /\ (s_lat a, s_lon a) = (lat, lon)
  /\ (s_xa a, s_xa b, s_xa c) = (xa, xa + 240, xa + 480) /\ s_ya a - s_xa a = ya - xa /\ s_ya b - s_xa b = ya - xa /\ s_ya c - s_xa c = ya - xa.
Proof.
  intros. unfold triangle, triangle_from. do 3 eexists. split; [reflexivity|]. cbn [s_index s_lat s_lon s_xa s_ya].
  split; [reflexivity|]. split; [reflexivity|]. split; [f_equal; ring|]. split; [ring|]. split; ring.
Qed.
Lemma rad_turn a : sin (rad (a + 180)) = - sin (rad a) /\ cos (rad (a + 180)) = - cos (rad a).
Proof. replace (rad (a + 180)) with (rad a + PI) by (unfold rad; field). rewrite neg_sin, neg_cos. auto. Qed.
Lemma rad_full a : sin (rad (a + 360)) = sin (rad a) /\ cos (rad (a + 360)) = cos (rad a).
Proof. replace (a + 360) with (a + 180 + 180) by ring. destruct (rad_turn (a + 180)) as [-> ->], (rad_turn a) as [-> ->]. split; ring. Qed.
Lemma atan_deg u : tan (rad (atan u * 180 / PI)) = u.
Proof. replace (rad (atan u * 180 / PI)) with (atan u) by (unfold rad; field; apply PI_neq0). apply tan_atan. Qed.
(** with arms 60 degrees apart, the step from the first to the second detector, and from the second to the third,
    is one arm length exactly against the y arm of the detector it starts from (north component: latitude;
    east component: longitude) *)
Theorem C187_steps : forall len lat lon xa a b c, triangle len lat lon xa (xa + 60) = [a; b; c] ->
  tan (rad (s_lat b - s_lat a)) = - (len * sin (rad (s_ya a)) * 1e3 / earth)
  /\ tan (rad (s_lon b - s_lon a)) = - (len * cos (rad (s_ya a)) * 1e3 / earth)
  /\ tan (rad (s_lat c - s_lat b)) = - (len * sin (rad (s_ya b)) * 1e3 / earth)
  /\ tan (rad (s_lon c - s_lon b)) = - (len * cos (rad (s_ya b)) * 1e3 / earth).
Proof.
  intros len lat lon xa a b c E. unfold triangle, triangle_from in E. injection E as Ea Eb Ec.
  assert (S : forall v u, tan (rad (v + atan u * 180 / PI - v)) = u).
  { intros v u. replace (v + atan u * 180 / PI - v) with (atan u * 180 / PI) by ring. apply atan_deg. }
  assert (G : forall y, sin (rad (y + 180)) = - sin (rad y) /\ cos (rad (y + 180)) = - cos (rad y)) by exact rad_turn.
  subst a b c. cbn [s_lat s_lon s_ya]. rewrite !S.
  replace (xa + 240) with (xa + 60 + 180) by ring. replace (xa + 60 + 180 + 240) with (xa + 60 + 240 + 180) by ring.
  destruct (G (xa + 60)) as [-> ->], (G (xa + 60 + 240)) as [-> ->]. unfold Rdiv.
  split; [ring|]. split; [ring|]. split; ring.
Qed.
(** the three steps close: in each component they add up to zero before the arctangent *)
Theorem C187_closed : forall xa,
  sin (rad (xa + 240)) + sin (rad (xa + 480)) + sin (rad (xa + 720)) = 0
  /\ cos (rad (xa + 240)) + cos (rad (xa + 480)) + cos (rad (xa + 720)) = 0.
Proof.
  intros xa. replace (xa + 480) with (xa + 120 + 360) by ring. replace (xa + 720) with (xa + 360 + 360) by ring.
  destruct (rad_full (xa + 120)) as [-> ->], (rad_full (xa + 360)) as [-> ->], (rad_full xa) as [-> ->].
  replace (xa + 240) with (xa + 60 + 180) by ring. destruct (rad_turn (xa + 60)) as [-> ->].
  replace (rad (xa + 120)) with (rad xa + 2 * (PI / 3)) by (unfold rad; field). replace (rad (xa + 60)) with (rad xa + PI / 3) by (unfold rad; field).
  rewrite !sin_plus, !cos_plus, cos_PI3, sin_PI3.
  rewrite cos_2PI3, sin_2PI3. split; field.
Qed.
(** so the arms do not point to the other detectors: those of the Einstein Telescope's first detector point north
    (its y arm) while the second detector lies to the south *)
Theorem C187_arms_refuted : forall lat lon a b c, triangle 10 lat lon 70.5674 130.5674 = [a; b; c] ->
  0 < sin (rad (s_ya a)) /\ s_lat b < s_lat a.
Proof.
  intros lat lon a b c E. unfold triangle, triangle_from in E. injection E as Ea Eb Ec. subst a b c. cbn [s_lat s_ya].
  assert (P : 0 < sin (rad 130.5674)). { apply sin_gt_0; unfold rad; pose proof PI_RGT_0; nra. }
  split; [exact P|]. replace (70.5674 + 240) with (130.5674 + 180) by lra. destruct (rad_turn 130.5674) as [-> _].
  set (u := 10 * - sin (rad 130.5674) * 1e3 / earth).
  assert (U : u < 0). { unfold u, earth. assert (0 < sin (rad 130.5674) * (10 * 1e3 / 6378136.6)) by (apply Rmult_lt_0_compat; lra). lra. }
  assert (atan u < 0). { rewrite <- atan_0. now apply atan_increasing. }
  assert (atan u * 180 / PI < 0); [|lra]. pose proof PI_RGT_0. unfold Rdiv. rewrite Rmult_assoc.
  assert (0 < 180 * / PI) by (apply Rmult_lt_0_compat; [lra|now apply Rinv_0_lt_compat]). nra.
Qed.
(** and the step in longitude is not divided by the cosine of the latitude: the distance it covers on the ground,
    earth cos(latitude) tan(step), falls short of the arm's component by that cosine *)
Theorem C187_east_refuted : forall len lat lon xa ya a b c, triangle len lat lon xa ya = [a; b; c] ->
  earth * cos (rad lat) * tan (rad (s_lon b - s_lon a)) = cos (rad lat) * (len * 1e3 * cos (rad (s_xa b)))
  /\ (cos (rad lat) <> 1 -> len * cos (rad (s_xa b)) <> 0 ->
      earth * cos (rad lat) * tan (rad (s_lon b - s_lon a)) <> len * 1e3 * cos (rad (s_xa b))).
Proof.
  intros len lat lon xa ya a b c E. unfold triangle, triangle_from in E. injection E as Ea Eb Ec. subst a b c. cbn [s_lon s_xa].
  match goal with |- context [lon + atan ?u * 180 / PI - lon] => replace (lon + atan u * 180 / PI - lon) with (atan u * 180 / PI) by ring end.
  rewrite atan_deg. unfold earth. set (w := cos (rad (xa + 240))). split; [field; lra|].
  intros N1 N2 C. apply N1. apply Rmult_eq_reg_r with (len * 1e3 * w); [|intros D; apply N2; lra].
  lra.
Qed.
(** curve and cut-off frequencies: one for all three, or one each *)
Theorem C187_shared : forall {A} (v : A) (l : list A) (k : nat), (k < 3)%nat ->
  nth_error (three (inl v)) k = Some v /\ nth_error (three (inr l)) k = nth_error l k.
Proof. intros A v l [|[|[|k]]] H; try lia; split; reflexivity. Qed.
Example C187_ex : map s_ya (triangle 10 43 10 70 130) = [130; 130 + 240; 130 + 240 + 240] /\ three (@inl nat _ 5%nat) = [5; 5; 5]%nat.
Proof. split; reflexivity. Qed.

(** ** C188: detector files *)
Section FileProps.
Context {V I : Type}.
Variable ev : txt -> option V.
Variable as_str : V -> option string.
Variable new_l new_t : dict V -> option I.
Notation rd := (@read_param V ev).
Notation rds := (@read_params V ev).
Notation loads := (@load_ifo V I ev as_str new_l new_t).
Notation empty_ := (@get_empty V I ev as_str new_l new_t).
Lemma rd_none ls : fold_left rd ls None = None. Proof. induction ls; auto. Qed.
Lemma split_join t : exists p ps, split_eq t = p :: ps /\ ~ In "="%char p /\
  match ps with [] => t = p | _ => t = p ++ "="%char :: join_eq ps end.
Proof.
  induction t as [|c t (p & ps & E & N & Q)]; [exists [], []; repeat split; auto; intros []|]. cbn [split_eq].
  destruct (Ascii.eqb_spec c "=") as [->|Nc].
  - exists [], (split_eq t). split; [reflexivity|]. split; [intros []|]. rewrite E. cbn [app]. f_equal.
    destruct ps as [|q ps]; [exact Q|]. rewrite Q. reflexivity.
  - rewrite E. exists (c :: p), ps. split; [reflexivity|]. split; [intros [C|C]; [now apply Nc|now apply N]|].
    destruct ps; cbn [app]; now rewrite Q.
Qed.
Lemma split_key k v : ~ In "="%char k -> exists r, split_eq (k ++ "="%char :: v) = k :: r /\ join_eq r = v.
Proof.
  intros N. induction k as [|c k IH].
  - exists (split_eq v). split; [reflexivity|]. destruct (split_join v) as (p & ps & E & _ & Q). rewrite E. destruct ps; cbn [join_eq]; now rewrite Q.
  - destruct IH as (r & E & J); [intros C; apply N; now right|]. exists r. split; [|exact J]. cbn [app split_eq].
    destruct (Ascii.eqb_spec c "=") as [->|Nc]; [exfalso; apply N; now left|]. now rewrite E.
Qed.
(** a line that begins with # or a line break plays no part, wherever it stands *)
Theorem C188_skipped : forall (l1 : list txt) c (r : txt) (l2 : list txt), c = "#"%char \/ c = nl -> loads (l1 ++ (c :: r) :: l2) = loads (l1 ++ l2).
Proof.
  intros l1 c r l2 H. unfold load_ifo, read_params. rewrite !fold_left_app. cbn [fold_left].
  destruct (fold_left rd l1 (Some [])) as [d|]; [|reflexivity]. cbn [read_param].
  replace (Ascii.eqb c "#" || Ascii.eqb c nl) with true; [reflexivity|]. destruct H as [->| ->]; reflexivity.
Qed.
(** a line with a name, an equals sign and a text that evaluates: the text may hold further equals signs *)
Definition plain (k : txt) : Prop := ~ In "="%char k /\ exists c r, k = c :: r /\ c <> "#"%char /\ c <> nl.
Lemma rd_line d k v : plain k -> rd (Some d) (k ++ "="%char :: v) = match ev v with Some w => Some (dset d (string_of_list_ascii (strip_sp k)) w) | None => None end.
Proof.
  intros (N & c & r & E & N1 & N2). destruct (split_key k v N) as (q & S & J). unfold read_param. rewrite S, J. rewrite E. cbn [app].
  destruct (Ascii.eqb_spec c "#"); [contradiction|]. destruct (Ascii.eqb_spec c nl); [contradiction|]. reflexivity.
Qed.
Theorem C188_value : forall (l1 l2 : list txt) (k v : txt) w d, plain k -> ev v = Some w ->
  rds (l1 ++ (k ++ "="%char :: v) :: l2) = Some d ->
  (forall k' v', In (k' ++ "="%char :: v') l2 -> plain k' -> strip_sp k' <> strip_sp k) ->
  (forall line, In line l2 -> (exists k' v', line = k' ++ "="%char :: v' /\ plain k') \/ exists c r, line = c :: r /\ (c = "#"%char \/ c = nl)) ->
  dget d (string_of_list_ascii (strip_sp k)) = Some w.
Proof.
  intros l1 l2 k v w d Pk Ew E Last Shape. unfold read_params in E. rewrite fold_left_app in E. cbn [fold_left] in E.
  destruct (fold_left rd l1 (Some [])) as [d1|]; [|change (rd None (k ++ "="%char :: v)) with (@None (dict V)) in E; rewrite rd_none in E; discriminate].
  rewrite rd_line, Ew in E by auto.
  assert (G : forall l d0, (forall k' v', In (k' ++ "="%char :: v') l -> plain k' -> strip_sp k' <> strip_sp k) ->
    (forall line, In line l -> (exists k' v', line = k' ++ "="%char :: v' /\ plain k') \/ exists c r, line = c :: r /\ (c = "#"%char \/ c = nl)) ->
    fold_left rd l (Some d0) = Some d -> dget d0 (string_of_list_ascii (strip_sp k)) = Some w -> dget d (string_of_list_ascii (strip_sp k)) = Some w).
  { clear - Pk. induction l as [|line l IH]; intros d0 La Sh F G0; cbn [fold_left] in F; [apply some_inj in F; now subst|].
    assert (Sh' := Sh line (or_introl eq_refl)). destruct Sh' as [(k' & v' & -> & P')|(c & r & -> & Hc)].
    - rewrite rd_line in F by auto. destruct (ev v') as [w'|]; [|rewrite rd_none in F; discriminate].
      eapply IH; [intros a1 a2 a3; apply (La a1 a2); now right|intros ? ?; apply Sh; now right|exact F|].
      rewrite dget_set_ne; [exact G0|]. intros C. apply (La k' v' (or_introl eq_refl) P').
      apply (f_equal list_ascii_of_string) in C. rewrite !list_ascii_of_string_of_list_ascii in C. congruence.
    - replace (rd (Some d0) (c :: r)) with (Some d0) in F.
      + eapply IH; [intros a1 a2 a3; apply (La a1 a2); now right|intros ? ?; apply Sh; now right|exact F|exact G0].
      + cbn [read_param]. destruct Hc as [->| ->]; reflexivity. }
  eapply G; [exact Last|exact Shape|exact E|]. apply dget_set_eq.
Qed.
(** which class is built: from the value of "shape" whatever its letter case; the class never sees that parameter *)
Theorem C188_shape : forall ls d, rds ls = Some d ->
  loads ls =
  match dget d "shape" with
  | None => match new_l d with Some i => Loaded i | None => OtherErr end
  | Some v =>
      match as_str v with
      | None => OtherErr
      | Some s => if in_dec string_dec (lower s) ["l"; "ligo"]%string then match new_l (ddel d "shape") with Some i => Loaded i | None => OtherErr end
                  else if in_dec string_dec (lower s) ["triangular"; "triangle"]%string then match new_t (ddel d "shape") with Some i => Loaded i | None => OtherErr end
                  else OSErr
      end
  end.
Proof.
  intros ls d E. unfold load_ifo. rewrite E. destruct (dget d "shape") as [v|]; [|reflexivity]. destruct (as_str v) as [s|]; [|reflexivity].
  unfold made. destruct (String.eqb_spec (lower s) "l") as [E1|N1]; cbn [orb].
  - destruct (in_dec string_dec (lower s) ["l"; "ligo"]%string) as [|C]; [reflexivity|]. exfalso. apply C. left. auto.
  - destruct (String.eqb_spec (lower s) "ligo") as [E2|N2].
    + destruct (in_dec string_dec (lower s) ["l"; "ligo"]%string) as [|C]; [reflexivity|]. exfalso. apply C. right. left. auto.
    + destruct (in_dec string_dec (lower s) ["l"; "ligo"]%string) as [[C|[C|[]]]|_]; [congruence|congruence|].
      destruct (String.eqb_spec (lower s) "triangular") as [E3|N3]; cbn [orb].
      * destruct (in_dec string_dec (lower s) ["triangular"; "triangle"]%string) as [|C]; [reflexivity|]. exfalso. apply C. left. auto.
      * destruct (String.eqb_spec (lower s) "triangle") as [E4|N4].
        -- destruct (in_dec string_dec (lower s) ["triangular"; "triangle"]%string) as [|C]; [reflexivity|]. exfalso. apply C. right. left. auto.
        -- destruct (in_dec string_dec (lower s) ["triangular"; "triangle"]%string) as [[C|[C|[]]]|_]; [congruence|congruence|reflexivity].
Qed.
Theorem C188_never_shape : forall ls d i, wf d -> rds ls = Some d -> loads ls = Loaded i ->
  exists d', dget d' "shape" = None /\ (forall k, k <> "shape"%string -> dget d' k = dget d k) /\ (new_l d' = Some i \/ new_t d' = Some i).
Proof.
  intros ls d i W E L. unfold load_ifo in L. rewrite E in L. destruct (dget d "shape") as [v|] eqn:G.
  - exists (ddel d "shape"). split; [apply dget_del_eq; auto|]. split; [intros k Nk; apply dget_del_ne; auto|].
    destruct (as_str v) as [s|]; [|discriminate]. unfold made in L.
    destruct (_ || _); [left; destruct (new_l (ddel d "shape")); [|discriminate]; injection L as ->; reflexivity|].
    destruct (_ || _); [right; destruct (new_t (ddel d "shape")); [|discriminate]; injection L as ->; reflexivity|discriminate].
  - exists d. split; [exact G|]. split; [auto|]. left. unfold made in L. destruct (new_l d); [|discriminate]. injection L as ->. reflexivity.
Qed.
(** the ValueError "not implemented": no such file, or a file with another shape *)
Theorem C188_not_implemented : forall files name, empty_ files name = inr true <->
  files (name ++ ".interferometer")%string = None \/ exists ls d v s, files (name ++ ".interferometer")%string = Some ls /\ rds ls = Some d /\
    dget d "shape" = Some v /\ as_str v = Some s /\ ~ In (lower s) ["l"; "ligo"; "triangular"; "triangle"]%string.
Proof.
  intros files name. unfold get_empty. destruct (files (name ++ ".interferometer")%string) as [ls|]; [|split; [now left|reflexivity]].
  split.
  - intros H. right. exists ls. unfold load_ifo in H. destruct (rds ls) as [d|]; [|discriminate]. exists d.
    destruct (dget d "shape") as [v|]; [|unfold made in H; destruct (new_l d); discriminate]. exists v.
    destruct (as_str v) as [s|]; [|discriminate]. exists s. do 4 (split; [reflexivity|]). unfold made in H.
    destruct (String.eqb_spec (lower s) "l") as [E1|N1]; cbn [orb] in H; [destruct (new_l _); discriminate|].
    destruct (String.eqb_spec (lower s) "ligo") as [E2|N2]; [destruct (new_l _); discriminate|].
    destruct (String.eqb_spec (lower s) "triangular") as [E3|N3]; cbn [orb] in H; [destruct (new_t _); discriminate|].
    destruct (String.eqb_spec (lower s) "triangle") as [E4|N4]; [destruct (new_t _); discriminate|].
    intros [C|[C|[C|[C|[]]]]]; congruence.
  - intros [C|(ls' & d & v & s & Q & E & G & A & N)]; [discriminate|]. apply some_inj in Q. subst ls'.
    rewrite (C188_shape ls d E), G, A.
    destruct (in_dec string_dec (lower s) ["l"; "ligo"]%string) as [[C|[C|[]]]|_]; [exfalso; apply N; rewrite <- C; cbn; auto|exfalso; apply N; rewrite <- C; cbn; auto|].
    destruct (in_dec string_dec (lower s) ["triangular"; "triangle"]%string) as [[C|[C|[]]]|_]; [exfalso; apply N; rewrite <- C; cbn; auto|exfalso; apply N; rewrite <- C; cbn; auto|reflexivity].
Qed.
(** "blank lines are skipped" holds for the empty line only: a line of blanks is evaluated as the empty text, which raises *)
Theorem C188_blank_refuted : forall l1 l2 : list txt, ev [] = None -> loads (l1 ++ [" "%char; nl] :: l2) = OtherErr.
Proof.
  intros l1 l2 E. unfold load_ifo, read_params. rewrite fold_left_app. cbn [fold_left].
  destruct (fold_left rd l1 (Some [])) as [d|]; [|cbn [read_param]; now rewrite rd_none].
  replace (rd (Some d) [" "%char; nl]) with (@None (dict V)); [now rewrite rd_none|]. cbn. now rewrite E.
Qed.

(** ** C189: cache files *)
Notation lc := (@load_cache V I ev as_str new_l new_t).
(** an interferometer comes back exactly for a file of one line, naming a known observatory, whose frame begins before
    both stretches and ends after both *)
Theorem C189_loads : forall parse files ls start dur ps pd i path,
  lc parse files ls start dur ps pd = COk i path <->
  exists line c, ls = [line] /\ parse line = Some c /\ path = c_path c /\ empty_ files (c_obs c ++ "1")%string = inl i
    /\ IZR (c_from c) < start /\ start + dur < IZR (c_to c) /\ IZR (c_from c) < ps /\ ps + pd < IZR (c_to c).
Proof.
  intros parse files ls start dur ps pd i path. unfold load_cache, zlt_r, r_ltz. split.
  - destruct ls as [|line [|l2 ls]]; try discriminate. destruct (parse line) as [c|] eqn:P; [|discriminate].
    destruct (empty_ files _) as [i'|] eqn:G; [|discriminate].
    destruct (Rlt_dec (IZR (c_from c)) start); cbn [andb]; [|discriminate]. destruct (Rlt_dec (start + dur) (IZR (c_to c))); [|discriminate].
    destruct (Rlt_dec (IZR (c_from c)) ps); cbn [andb]; [|discriminate]. destruct (Rlt_dec (ps + pd) (IZR (c_to c))); [|discriminate].
    intros E. injection E as -> <-. exists line, c. repeat (split; auto).
  - intros (line & c & -> & -> & -> & -> & A & B & C & D).
    destruct (Rlt_dec (IZR (c_from c)) start); [|contradiction]. destruct (Rlt_dec (start + dur) (IZR (c_to c))); [|contradiction].
    destruct (Rlt_dec (IZR (c_from c)) ps); [|contradiction]. destruct (Rlt_dec (ps + pd) (IZR (c_to c))); [|contradiction]. reflexivity.
Qed.
(** so a stretch that begins with the frame is refused as missing from it *)
Theorem C189_boundary_refuted : forall parse files line c start dur ps pd i,
  parse line = Some c -> empty_ files (c_obs c ++ "1")%string = inl i -> start = IZR (c_from c) \/ start + dur = IZR (c_to c) ->
  lc parse files [line] start dur ps pd = CNoData.
Proof.
  intros parse files line c start dur ps pd i P G H. unfold load_cache, zlt_r, r_ltz. rewrite P, G.
  destruct H as [->|H].
  - destruct (Rlt_dec (IZR (c_from c)) (IZR (c_from c))); [lra|]. reflexivity.
  - destruct (Rlt_dec (start + dur) (IZR (c_to c))); [lra|]. now rewrite andb_false_r.
Qed.
(** an observatory is known only through its letter and the number 1 *)
Theorem C189_observatory : forall parse files line c start dur ps pd,
  parse line = Some c -> files (c_obs c ++ "1" ++ ".interferometer")%string = None -> lc parse files [line] start dur ps pd = CNoIfo.
Proof.
  intros parse files line c start dur ps pd P F. unfold load_cache. rewrite P. unfold get_empty.
  replace ((c_obs c ++ "1") ++ ".interferometer")%string with (c_obs c ++ "1" ++ ".interferometer")%string; [now rewrite F|].
  generalize (c_obs c) as s. induction s as [|a s IH]; cbn [append]; [reflexivity|]. f_equal. exact IH.
Qed.
Theorem C189_one_frame : forall parse files ls start dur ps pd, (2 <= length ls)%nat -> lc parse files ls start dur ps pd = CMany.
Proof. intros parse files [|a [|b ls]] start dur ps pd H; cbn in H; try lia. reflexivity. Qed.
End FileProps.

(** the directory of the package, reduced to two files *)
Definition ex_ev (t : txt) : option string := let u := strip_sp t in match u with [] => None | _ => Some (string_of_list_ascii u) end.
Definition ex_files (n : string) : option (list txt) :=
  if String.eqb n "H1.interferometer" then Some [list_ascii_of_string "# comment"; [nl]; list_ascii_of_string "name = H1"; list_ascii_of_string "name = a=b"]
  else if String.eqb n "X1.interferometer" then Some [list_ascii_of_string "shape = round"] else None.
Example C188_ex :
  get_empty ex_ev Some (fun d => Some (d, true)) (fun d => Some (d, false)) ex_files "H1" = inl ([("name", "a=b")]%string, true)
  /\ get_empty ex_ev Some (fun d => Some (d, true)) (fun d => Some (d, false)) ex_files "X1" = inr true
  /\ get_empty ex_ev Some (fun d => Some (d, true)) (fun d => Some (d, false)) ex_files "G1" = inr true
  /\ load_ifo ex_ev Some (fun d => Some (d, true)) (fun d => Some (d, false)) [list_ascii_of_string "shape = Triangle"; list_ascii_of_string "length = 10"] = Loaded ([("length", "10")]%string, false).
Proof. split; [reflexivity|]. split; [reflexivity|]. split; reflexivity. Qed.
Example C189_ex : let go := load_cache ex_ev Some (fun d => Some true) (fun d => Some false) (fun _ => Some (mkCache "H" 100 200 "f.gwf")) ex_files [[nl]] in
  go 110 4 120 32 = COk true "f.gwf"%string /\ go 100 4 120 32 = CNoData.
Proof.
  split.
  - apply C189_loads. exists [nl], (mkCache "H" 100 200 "f.gwf"). repeat (split; [reflexivity|]). cbn [c_from c_to]. repeat split; lra.
  - eapply C189_boundary_refuted; [reflexivity|reflexivity|]. left. reflexivity.
Qed.
(** *** the detector a channel name belongs to *)
Lemma colon_app a b : split_colon (a ++ ":"%char :: b) = split_colon a ++ split_colon b.
Proof.
  induction a as [|c a IH]; [reflexivity|]. cbn [app split_colon]. destruct (Ascii.eqb c ":"); [now rewrite IH|]. rewrite IH.
  destruct (split_colon a) eqn:E; [|reflexivity]. exfalso. clear - E. destruct a as [|c a]; cbn in E; [discriminate|].
  destruct (Ascii.eqb c ":"); [discriminate|]. destruct (split_colon a); discriminate.
Qed.
Lemma colon_none a : ~ In ":"%char a -> split_colon a = [a].
Proof.
  induction a as [|c a IH]; intros N; [reflexivity|]. cbn [split_colon]. destruct (Ascii.eqb_spec c ":") as [->|Nc]; [exfalso; apply N; now left|].
  rewrite IH; [reflexivity|]. intros C. apply N. now right.
Qed.
(** the part between the last two colons (or before the only one); a name without a colon has no detector *)
Theorem C189_channel : forall det rest pre : txt, ~ In ":"%char det -> ~ In ":"%char rest ->
  channel_det (det ++ ":"%char :: rest) = Some det /\ channel_det (pre ++ ":"%char :: det ++ ":"%char :: rest) = Some det /\ channel_det rest = None.
Proof.
  intros det rest pre N1 N2. unfold channel_det. rewrite !colon_app, (colon_none det), (colon_none rest) by auto.
  cbn [app]. split; [reflexivity|]. split; [|reflexivity]. now rewrite rev_app_distr.
Qed.
Example C189_channel_ex : channel_det (list_ascii_of_string "H1:GDS-CALIB_STRAIN") = Some (list_ascii_of_string "H1").
Proof. reflexivity. Qed.

(** ** C190: the check of the signal duration *)
Section CheckProps.
Variable conv : dict R -> option (dict R).
Variable merge_time : R -> R -> R -> R.
Variable solar_mass : R.
Notation chk := (check_duration conv merge_time solar_mass).
Notation tt := (time_to_merger merge_time solar_mass).
Lemma rabs_le x a : Rabs x <= a -> - a <= x <= a.
Proof. unfold Rabs. destruct (Rcase_abs x); lra. Qed.
Lemma round1_close x : Rabs (round1 x - x) <= 1 / 20.
Proof.
  unfold round1. pose proof (round_even_close (x * 10)) as H. apply rabs_le in H. apply Rabs_le. lra.
Qed.
(** both masses known: a signal more than a twentieth of a second longer than the data is refused, one more than a twentieth
    shorter accepted; the time is 1.1 times lalsimulation's *)
Theorem C190_decides : forall p q fmin dur m1 m2, conv p = Some q -> dget q "mass_1" = Some m1 -> dget q "mass_2" = Some m2 ->
  let t := 11 / 10 * merge_time fmin (m1 * solar_mass) (m2 * solar_mass) in
  (dur + 1 / 20 < t -> chk p fmin dur true = ErrValue /\ chk p fmin dur false = Warned) /\
  (t <= dur - 1 / 20 -> chk p fmin dur true = Pass /\ chk p fmin dur false = Pass).
Proof.
  intros p q fmin dur m1 m2 C G1 G2 t. unfold check_duration. rewrite C. unfold dmem. rewrite G1, G2. cbn [negb andb].
  assert (T : tt fmin m1 m2 = t) by (unfold time_to_merger, t; lra). rewrite T.
  pose proof (round1_close t) as H. apply rabs_le in H.
  split; intros L; destruct (Rlt_dec dur (round1 t)); try lra; auto.
Qed.
(** for data of a whole number of tenths of a second, nothing that fits is refused *)
Lemma round_even_le x z : x <= IZR z -> (round_even x <= z)%Z.
Proof.
  intros H. destruct (Z_le_gt_dec (round_even x) z) as [|G]; [auto|]. exfalso. pose proof (round_even_close x) as C. apply rabs_le in C.
  assert (IZR z + 1 <= IZR (round_even x)) by (rewrite <- plus_IZR; apply IZR_le; lia). lra.
Qed.
Theorem C190_fits : forall p q fmin z m1 m2 b, conv p = Some q -> dget q "mass_1" = Some m1 -> dget q "mass_2" = Some m2 ->
  11 / 10 * merge_time fmin (m1 * solar_mass) (m2 * solar_mass) <= IZR z / 10 -> chk p fmin (IZR z / 10) b = Pass.
Proof.
  intros p q fmin z m1 m2 b C G1 G2 L. unfold check_duration. rewrite C. unfold dmem. rewrite G1, G2. cbn [negb andb].
  destruct (Rlt_dec _ _) as [A|A]; [|reflexivity]. exfalso. unfold round1, time_to_merger in A.
  assert (R1 : (round_even (1.1 * merge_time fmin (m1 * solar_mass) (m2 * solar_mass) * 10) <= z)%Z) by (apply round_even_le; lra).
  apply IZR_le in R1. lra.
Qed.
(** a signal longer than the data by less than a twentieth passes *)
Theorem C190_rounding_refuted : forall p q fmin z m1 m2, conv p = Some q -> dget q "mass_1" = Some m1 -> dget q "mass_2" = Some m2 ->
  11 / 10 * merge_time fmin (m1 * solar_mass) (m2 * solar_mass) = IZR z / 10 + 1 / 25 -> chk p fmin (IZR z / 10) true = Pass.
Proof.
  intros p q fmin z m1 m2 C G1 G2 L. unfold check_duration. rewrite C. unfold dmem. rewrite G1, G2. cbn [negb andb].
  destruct (Rlt_dec _ _) as [A|A]; [|reflexivity]. exfalso. unfold round1, time_to_merger in A.
  replace (round_even (1.1 * merge_time fmin (m1 * solar_mass) (m2 * solar_mass) * 10)) with z in A; [lra|].
  symmetry. apply round_even_near. apply Rabs_def1; lra.
Qed.
(** nothing is checked, silently, when the conversion fails with an AttributeError; without either mass the call raises or
    passes as asked; with one mass alone it raises KeyError, whatever was asked *)
Theorem C190_masses : forall p fmin dur b,
  match conv p with
  | None => chk p fmin dur b = Pass
  | Some q =>
      match dget q "mass_1", dget q "mass_2" with
      | None, None => chk p fmin dur b = if b then ErrAttribute else Pass
      | Some _, None | None, Some _ => chk p fmin dur b = ErrKey
      | Some _, Some _ => chk p fmin dur b <> ErrKey /\ chk p fmin dur b <> ErrAttribute
      end
  end.
Proof.
  intros p fmin dur b. unfold check_duration. destruct (conv p) as [q|]; [|reflexivity]. unfold dmem.
  destruct (dget q "mass_1"), (dget q "mass_2"); cbn [negb andb]; try reflexivity.
  destruct (Rlt_dec _ _), b; split; discriminate.
Qed.
Theorem C190_no_raise_refuted : forall p q fmin dur m, conv p = Some q -> dget q "mass_1" = Some m -> dget q "mass_2" = None ->
  chk p fmin dur false = ErrKey.
Proof. intros p q fmin dur m C G1 G2. pose proof (C190_masses p fmin dur false) as H. now rewrite C, G1, G2 in H. Qed.
End CheckProps.
(** *** the span of the data *)
Theorem C190_within : forall start dur t, time_within start dur t = true <-> start <= t <= start + dur.
Proof. intros. unfold time_within. destruct (Rlt_dec t start); [split; [discriminate|lra]|]. destruct (Rlt_dec (start + dur) t); split; try discriminate; try lra; reflexivity. Qed.
(** the default start of the helper with fake noise puts the merger two seconds before the end, hence outside shorter data *)
Theorem C190_default_start : forall geocent dur, fake_noise_start None geocent dur + dur = geocent + 2 /\
  (time_within (fake_noise_start None geocent dur) dur geocent = true <-> 2 <= dur) /\ forall t, fake_noise_start (Some t) geocent dur = t.
Proof. intros geocent dur. unfold fake_noise_start. split; [ring|]. split; [|reflexivity]. rewrite C190_within. lra. Qed.
Example C190_ex : check_duration (fun p => Some p) (fun _ _ _ => 10) 1 [("mass_1", 1); ("mass_2", 1)]%string 20 4 true = ErrValue
  /\ check_duration (fun p => Some p) (fun _ _ _ => 10) 1 [("mass_1", 1)]%string 20 400 false = ErrKey.
Proof.
  split; [|reflexivity]. eapply C190_decides with (m1 := 1) (m2 := 1); [reflexivity|reflexivity|reflexivity|]. lra.
Qed.

(** ** Assumptions of every theorem above *)
Definition Ifo2_Props_all :=
  (@C187_three,
   @C187_steps,
   @C187_closed,
   @C187_arms_refuted,
   @C187_east_refuted,
   @C187_shared,
   @C188_skipped,
   @C188_value,
   @C188_shape,
   @C188_never_shape,
   @C188_not_implemented,
   @C188_blank_refuted,
   @C189_loads,
   @C189_boundary_refuted,
   @C189_observatory,
   @C189_one_frame,
   @C189_channel,
   @C190_decides,
   @C190_fits,
   @C190_rounding_refuted,
   @C190_masses,
   @C190_no_raise_refuted,
   @C190_within,
   @C190_default_start).
Print Assumptions Ifo2_Props_all.
