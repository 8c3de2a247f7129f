(** Scene files as text, robots, planners without sweep lines. *)
From Coq Require Import List Reals ZArith Arith Bool Ascii String Lia Lra.
From Verif.Base Require Import Outcome Float64.
From Verif.Model Require Import MGeom MMultiBody MCsv MSettings MFreeSpace MHRM2D MHRM3D.
From Verif.Spec Require Import SGeom SRigid SUtil SSettings.
From Verif.Proofs Require Import PGeom PRot PGeom3 PSettings PSettingsP PUtil PGraph PHRM2D PHRM3D PPlan3D PPlan3DY.
Import ListNotations.
Local Open Scope nat_scope.

(** ---- text ---- *)
Lemma parse_readable stof text : readable stof text -> parse_csv stof (Some text) = Ok (map (numbers_of stof) (data_lines text)).
Proof.
  intros [H0 H]. unfold parse_csv. rewrite getlines_nil. change newline with (ascii_of_nat 10).
  rewrite (parse_lines_ok stof H0); [reflexivity|]. intros l g Hl Hc. apply H. unfold data_lines. apply filter_In. split; [exact Hl|]. rewrite Hc. reflexivity.
Qed.
Lemma f2_map {A B C} (g : A -> B) (P : B -> C -> Prop) l r : Forall2 P (map g l) r <-> Forall2 (fun a c => P (g a) c) l r.
Proof.
  revert r. induction l as [|a l IH]; intros r; cbn [map]; split; intros H; inversion H; subst; constructor; try assumption; apply IH; assumption.
Qed.
Lemma file2_iff stof num text old r : readable stof text ->
  (load2_file stof num (Some text) old = Ok r <-> Forall2 (fun l => row_is2 num (numbers_of stof l)) (data_lines text) r).
Proof. intros H. unfold load2_file. rewrite (parse_readable _ _ H). cbn [obind]. rewrite load2_iff. apply f2_map. Qed.
Lemma file3_iff stof num text old r : readable stof text ->
  (load3_file stof num (Some text) old = Ok r <-> Forall2 (fun l => row_is3 num (numbers_of stof l)) (data_lines text) r).
Proof. intros H. unfold load3_file. rewrite (parse_readable _ _ H). cbn [obind]. rewrite load3_iff. apply f2_map. Qed.
Lemma file2_short stof num text old l : readable stof text -> In l (data_lines text) -> List.length (numbers_of stof l) < 6 -> load2_file stof num (Some text) old = UB.
Proof. intros H I L. unfold load2_file. rewrite (parse_readable _ _ H). cbn [obind]. eapply load2_short; [apply in_map; exact I|exact L]. Qed.
Lemma file3_short stof num text old l : readable stof text -> In l (data_lines text) -> List.length (numbers_of stof l) < 12 -> load3_file stof num (Some text) old = UB.
Proof. intros H I L. unfold load3_file. rewrite (parse_readable _ _ H). cbn [obind]. eapply load3_short; [apply in_map; exact I|exact L]. Qed.
Lemma blank_numbers stof : stof [] = Invalid -> numbers_of stof [] = [].
Proof. intros H. unfold numbers_of, line_fields. cbn [split flat_map]. rewrite H. reflexivity. Qed.
Lemma env2_iff stof num files pre fa fo fe ar ob ep :
  files (pre ++ "arena_config_2D.csv")%string = Some fa -> files (pre ++ "obstacle_config_2D.csv")%string = Some fo -> files (pre ++ "end_points_2D.csv")%string = Some fe ->
  readable stof fa -> readable stof fo -> readable stof fe ->
  (load_environment2 stof num files pre = Ok (ar, ob, ep) <->
   Forall2 (fun l => row_is2 num (numbers_of stof l)) (data_lines fa) ar /\
   Forall2 (fun l => row_is2 num (numbers_of stof l)) (data_lines fo) ob /\ ep = map (numbers_of stof) (data_lines fe)).
Proof.
  intros E1 E2 E3 R1 R2 R3. unfold load_environment2. rewrite E1, E2, E3. rewrite (parse_readable _ _ R3).
  rewrite <- (file2_iff stof num fa [] ar R1), <- (file2_iff stof num fo [] ob R2). split.
  - intros H. destruct (load2_file stof num (Some fa) []) as [x| |]; cbn [obind] in H; try discriminate H.
    destruct (load2_file stof num (Some fo) []) as [y| |]; cbn [obind] in H; try discriminate H. injection H as -> -> <-. repeat split.
  - intros (-> & -> & ->). reflexivity.
Qed.
Lemma env3_iff stof num files pre fa fo fe ar ob ep :
  files (pre ++ "arena_config_3D.csv")%string = Some fa -> files (pre ++ "obstacle_config_3D.csv")%string = Some fo -> files (pre ++ "end_points_3D.csv")%string = Some fe ->
  readable stof fa -> readable stof fo -> readable stof fe ->
  (load_environment3 stof num files pre = Ok (ar, ob, ep) <->
   Forall2 (fun l => row_is3 num (numbers_of stof l)) (data_lines fa) ar /\
   Forall2 (fun l => row_is3 num (numbers_of stof l)) (data_lines fo) ob /\ ep = map (numbers_of stof) (data_lines fe)).
Proof.
  intros E1 E2 E3 R1 R2 R3. unfold load_environment3. rewrite E1, E2, E3. rewrite (parse_readable _ _ R3).
  rewrite <- (file3_iff stof num fa [] ar R1), <- (file3_iff stof num fo [] ob R2). split.
  - intros H. destruct (load3_file stof num (Some fa) []) as [x| |]; cbn [obind] in H; try discriminate H.
    destruct (load3_file stof num (Some fo) []) as [y| |]; cbn [obind] in H; try discriminate H. injection H as -> -> <-. repeat split.
  - intros (-> & -> & ->). reflexivity.
Qed.

(** ---- robots ---- *)
Lemma robot2_iff {A} num (rows : list (list A)) b ls : robot_parts2 num rows = Ok (b, ls) <-> robot_rows (row_is2 num) rows b ls.
Proof.
  unfold robot_parts2, robot_rows. split.
  - intros H. destruct (load2 num rows []) as [ps| |] eqn:L; cbn [obind] in H; try discriminate H. apply load2_iff in L.
    destruct ps as [|p ps]; cbn [idx nth_error obind tl] in H; try discriminate H. injection H as <- <-. inversion L; subst. eauto.
  - intros (c & rest & -> & H1 & H2). assert (L : load2 num (c :: rest) [] = Ok (b :: ls)) by (apply load2_iff; constructor; assumption). rewrite L. reflexivity.
Qed.
Lemma samples_iff {A} (rows : list (list A)) qs : quat_samples (Some rows) = Ok qs <-> Forall2 sample_is rows qs.
Proof.
  unfold quat_samples. rewrite omap_ok_f2. apply f2_iff. intros c q. split.
  - intros H. destruct c as [|x [|y [|z [|w r]]]]; cbn [idx nth_error obind] in H; try discriminate H. injection H as <-. exists x, y, z, w, r. split; reflexivity.
  - intros (x & y & z & w & r & -> & ->). reflexivity.
Qed.
Lemma robot3_iff {A} num (rows : list (list A)) qrows b ls qs : robot_parts3 num rows qrows = Ok (b, ls, qs) <->
  robot_rows (row_is3 num) rows b ls /\ match qrows with None => qs = [] | Some qr => Forall2 sample_is qr qs end.
Proof.
  unfold robot_parts3, robot_rows. split.
  - intros H. destruct (load3 num rows []) as [ps| |] eqn:L; cbn [obind] in H; try discriminate H. apply load3_iff in L.
    destruct ps as [|p ps]; cbn [idx nth_error obind tl] in H; try discriminate H.
    destruct (quat_samples qrows) as [q| |] eqn:Q; cbn [obind] in H; try discriminate H. injection H as <- <- <-. inversion L; subst. split; [eauto|].
    destruct qrows as [qr|]; [apply samples_iff; exact Q|]. cbn [quat_samples] in Q. injection Q as <-. reflexivity.
  - intros ((c & rest & -> & H1 & H2) & Q). assert (L : load3 num (c :: rest) [] = Ok (b :: ls)) by (apply load3_iff; constructor; assumption). rewrite L. cbn [obind idx nth_error tl].
    destruct qrows as [qr|]; [apply samples_iff in Q; rewrite Q; reflexivity|]. subst qs. reflexivity.
Qed.

(** ---- limits of a robot ---- *)
Section Lim.
Local Open Scope R_scope.
Lemma tip_any a b t c : 0 < a -> 0 < b -> cos t = 0 -> sin t = 1 -> in2 (ellipse_at a b t c) (V2 (x2 c + b) (y2 c)).
Proof.
  intros Pa Pb C S. unfold in2, level2, ellipse_at. cbn [ba bb be]. replace (2 / 1) with 2 by field. rewrite !ppow_2. unfold along, across. cbn [bc bt x2 y2].
  rewrite C, S. right. field. lra.
Qed.
Lemma posed_body s g a b : se_axes s = [a; b] -> se_eps s = 1 -> body_of2 (pose2 s g) = ellipse_at a b (MMultiBody.heading (fst g)) (V2 (x2 (snd g)) (y2 (snd g))).
Proof. intros E1 E2. unfold body_of2, pose2, se_set_angle, se_set_pos, ellipse_at. cbn [se_axes se_eps se_pos se_angle nth]. rewrite E1, E2. reflexivity. Qed.
Lemma quarter_rot : rotation2 (M2 0 (-1) 1 0).
Proof. unfold rotation2, orthogonal2, mul2, tr2, id2, determinant2. cbn [m00 m01 m10 m11]. repeat split; try (f_equal; ring); ring. Qed.
Lemma robot2_in_box m ar rest obs p p' a b A0 A1 X Y : se_axes (mb2_base m) = [a; b] -> se_eps (mb2_base m) = 1 -> 0 < a -> 0 < b -> se_axes ar = [A0; A1] -> se_pos ar = [X; Y] ->
  define_params2 (mb2_base m) (ar :: rest) obs p = Ok p' -> 3 / 2 * a <= A0 -> 3 / 2 * a <= A1 ->
  ((forall g q, rigid2 g -> within2 p' (x2 (snd g)) (y2 (snd g)) -> in2 (body_of2 (mb2_base (robot_tf2 m g))) q -> in_box2 ar q) <-> b <= 3 / 2 * a).
Proof.
  intros E1 Ee Pa Pb E2 E3 H L1 L2. pose proof (fun x y => within2_iff _ _ _ _ _ _ _ _ _ _ _ _ x y E1 E2 E3 H) as W. unfold in_box2. rewrite E2, E3. cbn [nth]. unfold robot_tf2. cbn [mb2_base]. split.
  - intros K. assert (W0 : within2 p' (X + (A0 - 3 / 2 * a)) Y) by (apply W; rewrite !abs_le; lra).
    specialize (K (M2 0 (-1) 1 0, V2 (X + (A0 - 3 / 2 * a)) Y) (V2 (X + (A0 - 3 / 2 * a) + b) Y) quarter_rot W0).
    rewrite (posed_body _ _ a b E1 Ee) in K. cbn [fst snd x2 y2] in K. destruct (heading_heads _ quarter_rot) as [C S]. cbn [m00 m10] in C, S.
    specialize (K (tip_any a b _ _ Pa Pb C S)). rewrite !abs_le in K. lra.
  - intros B g q _ Wq I. apply W in Wq. destruct Wq as [W1 W2]. rewrite (posed_body _ _ a b E1 Ee) in I.
    destruct (ellipse_round a b _ _ (3 / 2 * a) q Pa Pb ltac:(lra) B I) as [D1 D2].
    cbn [x2 y2] in D1, D2. rewrite !abs_le in *. lra.
Qed.
Lemma tip3 a b c u v (w : v3) ctr : 0 < a -> 0 < b -> 0 < c -> dot3 u u = 1 -> (v = V3r 0 b 0 \/ v = V3r 0 0 c) ->
  in3 (ellipsoid_at a b c (angle_axis (PI / 2) u) ctr) (add3 ctr (turned u (PI / 2) v)).
Proof.
  intros Pa Pb Pc U V. exists v. split.
  - unfold placed, ellipsoid_at. cbn [sctr SGeom.sq]. rewrite (turn_rotm _ v (angle_axis_unit _ u U)), (angle_axis_turned _ u v U). reflexivity.
  - unfold shape3, ellipsoid_at. cbn [sa sb sc s1 s2]. replace (2 / 1) with 2 by field. replace (1 / 1) with 1 by field. rewrite !ppow_2.
    assert (P0 : ppow 0 1 = 0) by (unfold ppow; destruct (Req_EM_T 0 0) as [_|N]; [reflexivity|destruct (N eq_refl)]).
    assert (P1 : ppow 1 1 = 1) by (unfold ppow; destruct (Req_EM_T 1 0) as [N|_]; [lra|rewrite Rabs_R1; apply Rpower_1; lra]).
    destruct V as [-> | ->]; cbn [x3 y3 z3].
    + replace (0 / a * (0 / a) + b / b * (b / b)) with 1 by (field; lra). rewrite P1. right. field. lra.
    + replace (0 / a * (0 / a) + 0 / b * (0 / b)) with 0 by (field; lra). rewrite P0. right. field. lra.
Qed.
Lemma base3_iff base nq ar rest obs p p' a b c A0 A1 A2 X Y Z : sq_axes base = [a; b; c] -> 0 < a -> 0 < b -> 0 < c -> sq_axes ar = [A0; A1; A2] -> sq_pos ar = [X; Y; Z] ->
  define_params3 base nq (ar :: rest) obs p = Ok p' -> 6 / 5 * a <= A0 -> 6 / 5 * a <= A1 -> 6 / 5 * a <= A2 ->
  ((forall v o q, within3 p' v -> unit_quat o -> in3 (ellipsoid_at a b c o v) q -> in_box3 ar q) <-> b <= 6 / 5 * a /\ c <= 6 / 5 * a).
Proof.
  intros E1 Pa Pb Pc E2 E3 H L1 L2 L3. pose proof (fun v => within3_iff _ _ _ _ _ _ _ _ _ _ _ _ _ _ _ v E1 E2 E3 H) as W. unfold in_box3. rewrite E2, E3. cbn [nth]. split.
  - intros K. set (v1 := V3r (X - (A0 - 6 / 5 * a)) Y Z). set (v2 := V3r (X + (A0 - 6 / 5 * a)) Y Z).
    assert (W1 : within3 p' v1) by (apply W; unfold v1; cbn [x3 y3 z3]; rewrite !abs_le; lra).
    assert (W2 : within3 p' v2) by (apply W; unfold v2; cbn [x3 y3 z3]; rewrite !abs_le; lra).
    assert (U1 : dot3 (V3r 0 0 1) (V3r 0 0 1) = 1) by (unfold dot3; cbn [x3 y3 z3]; ring).
    assert (U2 : dot3 (V3r 0 1 0) (V3r 0 1 0) = 1) by (unfold dot3; cbn [x3 y3 z3]; ring).
    pose proof (K v1 _ _ W1 (angle_axis_unit _ _ U1) (tip3 a b c _ (V3r 0 b 0) v1 v1 Pa Pb Pc U1 (or_introl eq_refl))) as (K1 & _).
    pose proof (K v2 _ _ W2 (angle_axis_unit _ _ U2) (tip3 a b c _ (V3r 0 0 c) v2 v2 Pa Pb Pc U2 (or_intror eq_refl))) as (K2 & _).
    unfold turned, add3, scale3, cross, dot3, v1, v2 in K1, K2. cbn [x3 y3 z3] in K1, K2. rewrite cos_PI2, sin_PI2 in K1, K2. rewrite abs_le in K1, K2. lra.
  - intros [B C] v o q Wq U I. apply W in Wq. destruct Wq as (W1 & W2 & W3). destruct (ellipsoid_round a b c o v (6 / 5 * a) q Pa Pb Pc ltac:(lra) B C U I) as (D1 & D2 & D3).
    rewrite !abs_le in *. lra.
Qed.
End Lim.

(** ---- planners ---- *)
Lemma planar_no_lines (E : env) connect rounds robot fsr nx nA nO (s : MHRM2D.state E) : construct E robot fsr nx 0 nA nO = Ok s -> 0 < e_numSlice E ->
  plan E connect rounds s = UB.
Proof.
  intros H N. unfold construct in H. ob H l0 H0. ob H l1 H1. injection H as <-. unfold plan, build_roadmap.
  destruct (e_numSlice E) as [|k] eqn:K; [lia|]. cbn [seq ofold]. unfold construct_slice at 1, sample_orientations at 1. cbn [p_headings p_refine app]. rewrite K. cbn [seq map at_ nth_error obind].
  unfold sweep_process at 1. cbn [p_numLineY]. rewrite H0, H1. cbn [obind]. destruct (lim E 2) as [l2| |] eqn:Q2; cbn [obind]; try reflexivity; [|unfold lim, idx in Q2; destruct (nth_error _ 2); discriminate Q2].
  destruct (lim E 3) as [l3| |] eqn:Q3; cbn [obind]; try reflexivity. unfold lim, idx in Q3; destruct (nth_error _ 3); discriminate Q3.
Qed.
Lemma spatial_no_slices (E : env3) rq rounds (s s' : state3 E) r : m_samples E = [] -> q_numSlice s = 0 -> plan3 E rq rounds s <> Ok (s', r).
Proof.
  intros M N H. unfold plan3, build_roadmap3 in H. ob H sx H1. ob H sy H2. clear H. ob H1 sz H0.
  assert (Q : q_quats (sample_so3 E rq s) = [] /\ q_numSlice (sample_so3 E rq s) = 0) by (unfold sample_so3; rewrite M, N; split; reflexivity). destruct Q as [Q1 Q2].
  rewrite Q2 in H0. cbn [seq ofold] in H0. injection H0 as <-.
  apply do_search3_quats in H2. apply H2. unfold connect_multi3 in H1. destruct (Nat.eqb _ 1); [injection H1 as <-; exact Q1|]. ob H1 g Hg. injection H1 as <-. exact Q1.
Qed.
