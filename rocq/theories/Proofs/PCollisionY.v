(** The planar check against obstacles that became meshes. *)
From Coq Require Import List Reals Arith Bool Lia Lra Psatz.
From Verif.Base Require Import Outcome.
From Verif.Model Require Import MGeom MMultiBody MCollision.
From Verif.Spec Require Import SGeom SRigid SCollision.
From Verif.Proofs Require Import PGeom PGeom2 PGeom3 PRot PMulti PShape PCollision PCollisionX.
Import ListNotations.
Local Open Scope R_scope.

Lemma move_frame2 s l0 g q : rigid2 g -> stands2 s (mul2 (fst g) (turning (se_angle l0))) (move2 g (given_pos2 l0)) ->
  along (body_of2 s) (move2 g q) = along (body_of2 l0) q /\ across (body_of2 s) (move2 g q) = across (body_of2 l0) q.
Proof.
  intros G [P [C D]]. pose proof (rigid2_eqs g G) as E. destruct g as [[a b c d] [u v]]. cbn [fst] in *.
  destruct E as (e1 & e2 & e3 & e4). unfold along, across, body_of2. cbn [ba bb be bc bt x2 y2].
  rewrite P, C, D. unfold move2, given_pos2, turning, mul2, app2, add2. cbn [fst snd m00 m01 m10 m11 x2 y2 nth].
  set (px := nth 0 (se_pos l0) 0). set (py := nth 1 (se_pos l0) 0). set (ct := cos (se_angle l0)). set (st := sin (se_angle l0)).
  destruct (frame2 a b c d ct st (x2 q - px) (y2 q - py) e1 e2 e3 e4) as [X Y].
  replace (a * x2 q + b * y2 q + u - (a * px + b * py + u)) with (a * (x2 q - px) + b * (y2 q - py)) by ring.
  replace (c * x2 q + d * y2 q + v - (c * px + d * py + v)) with (c * (x2 q - px) + d * (y2 q - py)) by ring.
  split; [exact X|exact Y].
Qed.
Lemma move_frame_base2 s base g q : rigid2 g -> stands2 s (fst g) (snd g) ->
  let b := Body2 (nth 0 (se_axes base) 0) (nth 1 (se_axes base) 0) (se_eps base) (V2 0 0) 0 in
  along (body_of2 s) (move2 g q) = along b q /\ across (body_of2 s) (move2 g q) = across b q.
Proof.
  intros G [P [C D]]. pose proof (rigid2_eqs g G) as E. destruct g as [[a b c d] [u v]]. cbn [fst snd] in *.
  destruct E as (e1 & e2 & e3 & e4). cbv zeta. unfold along, across, body_of2. cbn [ba bb be bc bt x2 y2].
  rewrite P, C, D, cos_0, sin_0. unfold move2, app2, add2. cbn [fst snd m00 m01 m10 m11 x2 y2 nth].
  destruct (frame2 a b c d 1 0 (x2 q - 0) (y2 q - 0) e1 e2 e3 e4) as [X Y].
  replace (a * x2 q + b * y2 q + u - u) with (a * (x2 q - 0) + b * (y2 q - 0)) by ring.
  replace (c * x2 q + d * y2 q + v - v) with (c * (x2 q - 0) + d * (y2 q - 0)) by ring.
  replace (a * 1 + b * 0) with a in X, Y by ring. replace (c * 1 + d * 0) with c in X, Y by ring.
  split; [exact X|exact Y].
Qed.
(** A body's plate is the ellipsoid given to FCL, at the body's pose. *)
Definition pose_of (s : sellipse) : tf3 := (rotm (about_z (se_angle s)), V3r (x2 (given_pos2 s)) (y2 (given_pos2 s)) (1 / 10)).
Lemma plate_geom s p : plate (body_of2 s) (V2 (x3 p) (y3 p)) (z3 p) ->
  in_geom (pose_of s) (GEllipsoid (nth 0 (se_axes s) 0) (nth 1 (se_axes s) 0) (1 / 10)) p.
Proof.
  intros H. cbn [in_geom]. exists (V3r (along (body_of2 s) (V2 (x3 p) (y3 p))) (across (body_of2 s) (V2 (x3 p) (y3 p))) (z3 p - 1 / 10)). split.
  - unfold pose_of. rewrite rotm_z. unfold move3, app3, add3, dot3, along, across, body_of2, given_pos2. cbn [fst snd x3 y3 z3 x2 y2 r0 r1 r2 bc bt]. destruct p as [u v w]. cbn [x3 y3 z3].
    pose proof (sin2_cos2 (se_angle s)) as SC. unfold Rsqr in SC. set (c := cos (se_angle s)) in *. set (d := sin (se_angle s)) in *.
    set (mx := nth 0 (se_pos s) 0). set (my := nth 1 (se_pos s) 0). f_equal.
    + replace (_ + mx) with ((d * d + c * c) * (u - mx) + mx) by ring. rewrite SC. ring.
    + replace (_ + my) with ((d * d + c * c) * (v - my) + my) by ring. rewrite SC. ring.
    + ring.
  - cbn [x3 y3 z3]. exact H.
Qed.
Lemma ok_inj {A} (x y : A) : Ok x = Ok y -> x = y.
Proof. intros H. injection H as H. exact H. Qed.
(** Samples are points of the mesh. *)
Lemma sample_geom cgal o p g : covers_points cgal -> planar_obstacle o -> near_one (se_eps o) = false -> obj_from_se cgal o = Ok g ->
  surface_sample o p -> in_geom (pose_of o) g p.
Proof.
  intros CV (E & a & b & x & y & A & Pa & Pb & P) NE H (i & j & Hi & Hj & S). cbv zeta in S. destruct S as (S1 & S2 & S3).
  unfold obj_from_se in H. rewrite A, NE in H. cbn [at_ nth_error obind] in H.
  rewrite (mesh_sq cgal (SQ [a; b; 1 / 10] [se_eps o; 1 / 10] [0; 0; 0] (Q 1 0 0 0) 10) a b (1 / 10) (se_eps o) (1 / 10) eq_refl eq_refl E ltac:(lra)) in H.
  apply ok_inj in H. cbn [sq_num] in H. rewrite <- H. clear H.
  set (et := evenly 10 (cHALF_PI + cEPSILON) i) in *. set (om := evenly 10 (cPI + cEPSILON) j) in *.
  assert (IN : In (et, om) (params3 10)).
  { pose proof (param_in i j 10 Hi Hj ltac:(lia)) as IP. match type of IP with In (?u, ?v) _ => replace u with et in IP; [replace v with om in IP; [exact IP|]|] end.
    - unfold om, evenly. f_equal; [ring|]. f_equal. f_equal. ring.
    - unfold et, evenly. f_equal; [ring|]. f_equal. f_equal. ring. }
  clearbody et om.
  set (w := canon3 a b (1 / 10) (se_eps o) (1 / 10) (et, om)).
  assert (Q : p = move3 (pose_of o) w).
  { rewrite A in S1, S2. cbn [nth] in S1, S2. unfold w, canon3. cbn [fst snd]. rewrite !spow_spw, <- S1, <- S2.
    unfold pose_of. rewrite rotm_z. unfold move3, app3, add3, dot3, along, across, body_of2, given_pos2. cbn [fst snd x3 y3 z3 x2 y2 r0 r1 r2 bc bt]. destruct p as [u v z]. cbn [x3 y3 z3] in *.
    pose proof (sin2_cos2 (se_angle o)) as SC. unfold Rsqr in SC. set (c := cos (se_angle o)) in *. set (d := sin (se_angle o)) in *.
    set (mx := nth 0 (se_pos o) 0). set (my := nth 1 (se_pos o) 0). f_equal.
    + replace (_ + mx) with ((d * d + c * c) * (u - mx) + mx) by ring. rewrite SC. ring.
    + replace (_ + my) with ((d * d + c * c) * (v - my) + my) by ring. rewrite SC. ring.
    + rewrite S3. ring. }
  rewrite Q. apply mesh_vertex; [exact CV|]. apply in_map_iff. exists (et, om). split; [|exact IN].
  unfold sample3. rewrite rotm_id, app_id. fold w. unfold add3. destruct w as [wx wy wz]. cbn [MGeom.x3 MGeom.y3 MGeom.z3]. f_equal; ring.
Qed.

Definition flat_geom (s : sellipse) : geom := GEllipsoid (nth 0 (se_axes s) 0) (nth 1 (se_axes s) 0) (1 / 10).
Lemma omap_all_nth {A B} (h : A -> outcome B) l r i a : omap h l = Ok r -> nth_error l i = Some a -> exists b, nth_error r i = Some b /\ h a = Ok b.
Proof.
  revert r i. induction l as [|x l IH]; intros r i H E; [destruct i; discriminate E|]. cbn [omap] in H.
  destruct (h x) as [b| |] eqn:Q; cbn [obind] in H; try discriminate H. destruct (omap h l) as [r'| |] eqn:Q2; cbn [obind] in H; try discriminate H.
  injection H as <-. destruct i as [|i]; cbn [nth_error] in *; [injection E as <-; exists b; split; [reflexivity|exact Q]|]. exact (IH r' i eq_refl E).
Qed.
Lemma setups2_first cgal m obs n objs : setups2 cgal m obs (S n) = Ok objs ->
  exists gr go r1 r2, omap (obj_from_se cgal) (bodies2 m) = Ok gr /\ omap (obj_from_se cgal) obs = Ok go /\ objs = (gr ++ r1, go ++ r2).
Proof.
  revert objs. induction n as [|n IH]; intros objs H.
  - cbn [setups2 obind] in H. unfold collision_objects2 in H. fold (bodies2 m) in H.
    destruct (omap (obj_from_se cgal) (bodies2 m)) as [gr| |]; cbn [obind] in H; try discriminate H. destruct (omap (obj_from_se cgal) obs) as [go| |]; cbn [obind] in H; try discriminate H.
    injection H as <-. exists gr, go, [], []. rewrite !app_nil_r. split; [reflexivity|]. split; reflexivity.
  - cbn [setups2] in H. change (obind (setups2 cgal m obs (S n)) (collision_objects2 cgal m obs) = Ok objs) in H.
    destruct (setups2 cgal m obs (S n)) as [o1| |]; cbn [obind] in H; try discriminate H. destruct (IH o1 eq_refl) as (gr & go & r1 & r2 & E1 & E2 & ->).
    unfold collision_objects2 in H. fold (bodies2 m) in H. rewrite E1, E2 in H. cbn [obind fst snd] in H. injection H as <-.
    exists gr, go, (r1 ++ gr), (r2 ++ go). rewrite !app_assoc. split; [exact E1|]. split; [exact E2|reflexivity].
Qed.
Lemma separated2_mesh eig collide objs obs r o i : is_separated2 eig collide objs obs r = Ok true -> nth_error obs i = Some o -> near_one (se_eps o) = false ->
  forall k s, nth_error (bodies2 r) k = Some s -> exists g h, nth_error (fst objs) k = Some g /\ nth_error (snd objs) i = Some h /\ is_collision2 collide s g o h = Ok false.
Proof.
  intros H Ei NE k s Es. assert (Ii : In i (seq 0 (length obs))) by (apply in_seq; split; [lia|]; apply nth_error_Some; rewrite Ei; discriminate).
  pose proof (all_of_true _ _ H i Ii) as K. cbn beta in K. unfold at_ at 1 in K. rewrite Ei in K. cbn [obind] in K. rewrite NE in K.
  unfold at_ at 1 in K. destruct (nth_error (fst objs) 0) as [g0|] eqn:E0; cbn [obind] in K; [|discriminate K].
  unfold at_ at 1 in K. destruct (nth_error (snd objs) i) as [h|] eqn:Eh; cbn [obind] in K; [|discriminate K].
  destruct (is_collision2 collide (mb2_base r) g0 o h) as [b| |] eqn:C0; cbn [obind] in K; try discriminate K. destruct b; [discriminate K|].
  unfold bodies2 in Es. destruct k as [|j]; cbn [nth_error] in Es.
  - injection Es as <-. exists g0, h. split; [exact E0|]. split; [reflexivity|exact C0].
  - assert (Ij : In j (seq 0 (length (map fst (mb2_links r))))) by (apply in_seq; split; [lia|]; apply nth_error_Some; rewrite Es; discriminate).
    pose proof (all_of_true _ _ K j Ij) as M. cbn beta in M. unfold at_ at 1 in M. rewrite Es in M. cbn [obind] in M.
    unfold at_ at 1 in M. rewrite Nat.add_1_r in M. destruct (nth_error (fst objs) (S j)) as [g|] eqn:Eg; cbn [obind] in M; [|discriminate M].
    unfold at_ at 1 in M. rewrite Eh in M. cbn [obind] in M. destruct (is_collision2 collide s g o h) as [c| |] eqn:C1; cbn [obind] in M; try discriminate M.
    destruct c; [discriminate M|]. exists g, h. split; [reflexivity|]. split; [reflexivity|exact C1].
Qed.
Lemma no_collision2 collide s g o h : exact_fcl collide -> length (se_pos s) = 2%nat -> length (se_pos o) = 2%nat -> is_collision2 collide s g o h = Ok false ->
  forall p, in_geom (pose_of s) g p -> in_geom (pose_of o) h p -> False.
Proof.
  intros X Ls Lo H p I J. unfold is_collision2 in H. unfold pose_of, given_pos2 in *. destruct (se_pos s) as [|x1 [|y1 [|z1 r1]]]; try discriminate Ls. destruct (se_pos o) as [|x2' [|y2' [|z2 r2]]]; try discriminate Lo.
  cbn [at_ nth_error obind nth x2 y2] in *. injection H as E.
  assert (T : collide g (rotm (about_z (se_angle s)), V3r x1 y1 (1 / 10)) h (rotm (about_z (se_angle o)), V3r x2' y2' (1 / 10)) = true) by (apply X; exists p; split; assumption).
  rewrite T in E. discriminate E.
Qed.
Lemma bodies_axes m g k s : nth_error (bodies2 (robot_tf2 m g)) k = Some s -> exists s0, nth_error (bodies2 m) k = Some s0 /\ same_shape2 s s0.
Proof.
  intros H. unfold bodies2 in *. destruct k as [|k]; cbn [nth_error] in *.
  - injection H as <-. exists (mb2_base m). split; [reflexivity|]. repeat split.
  - unfold robot_tf2 in H. cbn [mb2_links] in H. rewrite map_map in H. rewrite nth_error_map in *. destruct (nth_error (mb2_links m) k) as [lt|]; cbn [option_map] in *; [|discriminate H].
    injection H as <-. exists (fst lt). split; [reflexivity|]. repeat split.
Qed.

Lemma plate_eq b b' q q' z : along b' q' = along b q -> across b' q' = across b q -> ba b' = ba b -> bb b' = bb b -> plate b q z -> plate b' q' z.
Proof. intros A B C D H. unfold plate in *. rewrite A, B, C, D. exact H. Qed.
Lemma planar_samples_detected eig collide cgal n base cs m obs objs x y th : exact_fcl collide -> covers_points cgal -> calls2 (new_mb2 base) cs = Ok m ->
  Forall robot_ellipse (base :: added2 cs) -> Forall planar_obstacle obs -> setups2 cgal m obs (S n) = Ok objs ->
  state_valid2 eig collide objs obs m x y th = Ok true ->
  forall o p, In o obs -> near_one (se_eps o) = false -> surface_sample o p -> ~ robot_plate base (added2 cs) x y th p.
Proof.
  intros X CV H F FO ST V o p Io NE SP RP. set (g := (turning th, V2 x y)) in *. assert (G : rigid2 g) by apply rot2_rotation.
  pose proof (built_calls2 base cs [] (new_mb2 base) m (built_new2 base) H) as B. cbn [app] in B.
  destruct (built_stands2 base (added2 cs) m g B G) as [S1 S2]. destruct (built_tf2 _ _ _ g B) as [SB _].
  change (state_valid2 eig collide objs obs m x y th) with (is_separated2 eig collide objs obs (robot_tf2 m g)) in V.
  destruct (setups2_first _ _ _ _ _ ST) as (gr & go & r1 & r2 & E1 & E2 & ->).
  apply In_nth_error in Io. destruct Io as [i Ei]. rewrite Forall_forall in F, FO. pose proof (FO o (nth_error_In _ _ Ei)) as PO.
  assert (DONE : forall s l0, In s (bodies2 (robot_tf2 m g)) -> same_shape2 s l0 -> robot_ellipse l0 -> length (se_pos s) = 2%nat -> plate (body_of2 s) (V2 (x3 p) (y3 p)) (z3 p) -> False).
  { intros s l0 Is SS RE Ls PL. apply In_nth_error in Is. destruct Is as [k Ek].
    destruct (separated2_mesh eig collide _ obs _ o i V Ei NE k s Ek) as (g1 & h & N1 & N2 & C). cbn [fst snd] in N1, N2.
    destruct (bodies_axes m g k s Ek) as (s0 & Ek0 & SS0). destruct (omap_all_nth _ _ _ _ _ E1 Ek0) as (g2 & M1 & M2). destruct (omap_all_nth _ _ _ _ _ E2 Ei) as (h2 & M3 & M4).
    rewrite nth_error_app1 in N1 by (apply nth_error_Some; rewrite M1; discriminate). rewrite nth_error_app1 in N2 by (apply nth_error_Some; rewrite M3; discriminate).
    rewrite M1 in N1. injection N1 as <-. rewrite M3 in N2. injection N2 as <-.
    assert (GE : g2 = flat_geom s).
    { destruct RE as (RE & a & b & xx & yy & A & _). destruct SS as (T1 & T2 & _). destruct SS0 as (U1 & U2 & _).
      assert (A0 : se_axes s0 = [a; b]) by (rewrite <- U1, T1; exact A). assert (e0 : se_eps s0 = 1) by (rewrite <- U2, T2; exact RE).
      unfold obj_from_se in M2. rewrite A0, e0, near_one_1 in M2. cbn [at_ nth_error obind] in M2. injection M2 as <-. unfold flat_geom. rewrite T1, A. reflexivity. }
    assert (Lo : length (se_pos o) = 2%nat) by (destruct PO as (_ & a & b & xx & yy & _ & _ & _ & ->); reflexivity).
    refine (no_collision2 collide s g2 o h2 X Ls Lo C p _ (sample_geom cgal o p h2 CV PO NE M4 SP)). rewrite GE. exact (plate_geom s p PL). }
  destruct RP as (b & l & Q & PL & [->|[l0 [I0 ->]]]); fold g in Q.
  - refine (DONE (mb2_base (robot_tf2 m g)) base (or_introl eq_refl) SB (F base (or_introl eq_refl)) _ _); [destruct S1 as [-> _]; reflexivity|].
    rewrite Q. destruct (move_frame_base2 _ base g l G S1) as [A C]. refine (plate_eq _ _ _ _ _ A C _ _ PL); destruct SB as (T1 & _); cbn [ba bb body_of2]; rewrite T1; reflexivity.
  - destruct (forall2_in_l _ _ _ _ S2 I0) as [lt [It [SS ST']]].
    refine (DONE (fst lt) l0 (or_intror (in_map fst _ _ It)) SS (F l0 (or_intror I0)) _ _); [destruct ST' as [-> _]; reflexivity|].
    rewrite Q. destruct (move_frame2 _ l0 g l G ST') as [A C]. refine (plate_eq _ _ _ _ _ A C _ _ PL); destruct SS as (T1 & _); cbn [ba bb body_of2]; rewrite T1; reflexivity.
Qed.
