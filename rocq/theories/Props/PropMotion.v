(** C62, C68, C69: the motion and point tests of the planners (src/planners/HRM2D.cpp:
    215-282, src/planners/HRM3D.cpp:319-425). *)
From Coq Require Import List Bool Arith Lia ZArith Reals Lra.
From Verif.Base Require Import Outcome Float64 FloatFacts.
From Verif.Model Require Import MScalar MDistance MInterval MFreeSpace MLine2D MLine3D MInterp MGraph MSearch MHRM2D MHRM3D.
From Verif.Spec Require Import SLine2D SLine3D SMotion.
From Verif.Proofs Require Import PGraph PHRM2D PLine2D PLine3D PTables PMotion PMotionR PMotionX PHRM2DW PHRM3DW.
Import ListNotations.

(** C68: the tests are exhaustive: every obstacle, every body, every interpolated pose
    (binary64, any scene). *)
(** Planar straight motion inside a slice: free exactly if no obstacle polygon is crossed. *)
Theorem C68_planar_straight : forall (E : env) b v1 v2,
  (same_slice_free E b v1 v2 = Ok true <-> forall p, In p (bobstacle b) -> seg_polygon F64 (e_solve E) v1 v2 p = Ok false) /\
  (same_slice_free E b v1 v2 = Ok false -> exists p, In p (bobstacle b) /\ seg_polygon F64 (e_solve E) v1 v2 p = Ok true).
Proof. intros E b v1 v2. split; [apply same_slice_free_iff|apply same_slice_blocked]. Qed.
Print Assumptions C68_planar_straight.

(** Planar motion between slices: free exactly if at each of the numPoint blends every
    body is clear of every boundary listed for that body. *)
Theorem C68_planar_between_slices : forall (E : env) r br v1 v2,
  multi_slice_free E r br v1 v2 = Ok true <->
  forall i, i < e_numPoint E -> exists v x y a,
    blended (fmul (fofnat i) (fdiv fone (fsub (fofnat (e_numPoint E)) fone))) v1 v2 v /\
    nth_error v 0 = Some x /\ nth_error v 1 = Some y /\ nth_error v 2 = Some a /\
    bodies_clear clear_of br (e_centers E (e_move E r x y a)).
Proof.
  intros E r br v1 v2. rewrite multi_slice_free_iff. split; intros H i Hi.
  - destruct (H i Hi) as (v & r' & B & (x & y & a & X & Y & A & ->) & C). exists v, x, y, a. auto 10.
  - destruct (H i Hi) as (v & x & y & a & B & X & Y & A & C). exists v, (e_move E r x y a). split; [auto|]. split; [exists x, y, a; auto|auto].
Qed.
Print Assumptions C68_planar_between_slices.

(** Spatial straight motion: free exactly if, for every obstacle mesh, the line finds
    nothing or the first two points found are not inside the segment. *)
Theorem C68_spatial_straight : forall ms t1 t2,
  (straight_free F64 ms t1 t2 = Ok true <->
     forall m, In m ms -> exists hits, line_mesh F64 (L3 t1 (normalize F64 (vsub F64 t2 t1))) m = Ok hits /\
       (hits = [] \/ exists h0 h1 rest, hits = h0 :: h1 :: rest /\ within F64 h0 t1 t2 = false /\ within F64 h1 t1 t2 = false)) /\
  (straight_free F64 ms t1 t2 = Ok false -> exists m hits h, In m ms /\ line_mesh F64 (L3 t1 (normalize F64 (vsub F64 t2 t1))) m = Ok hits /\
     In h hits /\ within F64 h t1 t2 = true).
Proof. intros ms t1 t2. split; [exact (straight_free_iff F64 ms t1 t2)|exact (straight_blocked F64 ms t1 t2)]. Qed.
Print Assumptions C68_spatial_straight.

(** On poses: the test reads the three coordinates of each pose. *)
Theorem C68_spatial_straight_poses : forall b v1 v2,
  same_slice_free3 b v1 v2 = Ok true <->
  exists x1 y1 z1 x2 y2 z2, firstn 3 v1 = [x1; y1; z1] /\ firstn 3 v2 = [x2; y2; z2] /\
    straight_free F64 (mobstacle b) (V3 (S := F64) x1 y1 z1) (V3 (S := F64) x2 y2 z2) = Ok true.
Proof.
  intros b v1 v2. unfold same_slice_free3, vec_of. split.
  - intros H. destruct v1 as [|x1 [|y1 [|z1 r1]]]; cbn [idx nth_error obind] in H; try discriminate H.
    destruct v2 as [|x2 [|y2 [|z2 r2]]]; cbn [idx nth_error obind] in H; try discriminate H.
    exists x1, y1, z1, x2, y2, z2. split; [reflexivity|]. split; [reflexivity|exact H].
  - intros (x1 & y1 & z1 & x2 & y2 & z2 & P1 & P2 & H).
    destruct v1 as [|a1 [|b1 [|c1 r1]]]; cbn [firstn] in P1; try discriminate P1.
    destruct v2 as [|a2 [|b2 [|c2 r2]]]; cbn [firstn] in P2; try discriminate P2.
    injection P1 as -> -> ->. injection P2 as -> -> ->. cbn [idx nth_error obind]. exact H.
Qed.
Print Assumptions C68_spatial_straight_poses.

Theorem C68_spatial_between_slices : forall (E : env3) r br v1 v2,
  multi_slice_free3 E r br v1 v2 = Ok true <->
  exists steps, interpolate_compound F64 (m_slerp E) v1 v2 (m_numPoint E) = Ok steps /\
    forall v, In v steps -> exists c, omap (idx v) (seq 0 (if m_prob E then 7 + m_dof E else 7)) = Ok c /\
      bodies_clear clear_of3 br (m_centers E (m_move E r c)).
Proof. intros. apply multi_slice_free3_iff. Qed.
Print Assumptions C68_spatial_between_slices.

(** A mesh on which exactly one point is found makes the straight test undefined. *)
Theorem C68_one_point_undefined : forall m rest t1 t2 h, line_mesh F64 (L3 t1 (normalize F64 (vsub F64 t2 t1))) m = Ok [h] ->
  straight_free F64 (m :: rest) t1 t2 = UB.
Proof. exact (straight_one_hit F64). Qed.
Print Assumptions C68_one_point_undefined.

Example C68_hyp :
  multi_slice_free (few 2) origin [[box (-5) 5 (-5) 5]] (zpose (-9) 0 0) (zpose 9 0 0) = Ok true /\
  multi_slice_free (few 2) origin [[box (-5) 5 (-5) 5]] (zpose 0 0 0) (zpose 1 0 0) = Ok false /\
  straight_free F64 [wall] (zv 0 1 0) (zv 0 1 9) = Ok false /\ straight_free F64 [wall] (zv 0 1 3) (zv 0 1 9) = Ok true /\
  straight_free F64 [one_plate] (zv 0 0 0) (zv 0 0 3) = UB.
Proof.
  pose proof few_scene as K. apply andb_prop in K. destruct K as [K K2]. apply andb_prop in K. destruct K as [_ K1].
  pose proof inside_scene as I. apply andb_prop in I. destruct I as [I I2]. apply andb_prop in I. destruct I as [_ I1].
  split; [apply is_ok_eq; exact K2|]. split; [apply is_ok_eq; exact K1|]. split; [apply is_ok_eq; exact I1|]. split; [apply is_ok_eq; exact I2|].
  pose proof plate_scene as P. apply andb_prop in P. destruct P as [P _].
  destruct (straight_free F64 [one_plate] (zv 0 0 0) (zv 0 0 3)); [discriminate P|discriminate P|reflexivity].
Qed.

(** C69: with no interpolation points every planar motion between slices is free; with
    one, every motion of a robot whose centres follow the pose (the only pose tested is
    NaN). *)
Theorem C69_no_points_nothing_tested : forall (E : env) r br v1 v2, e_numPoint E = 0 -> multi_slice_free E r br v1 v2 = Ok true.
Proof. exact no_points_free. Qed.
Print Assumptions C69_no_points_nothing_tested.

Theorem C69_one_point_nothing_tested : forall (E : env) r br v1 v2, e_numPoint E = 1 -> 3 <= length v1 <= length v2 ->
  (forall x y a c, fisnan x = true -> fisnan y = true -> fisnan a = true ->
     In c (fst (e_centers E (e_move E r x y a)) :: snd (e_centers E (e_move E r x y a))) -> fisnan (snd c) = true) ->
  (forall x y a, length (snd (e_centers E (e_move E r x y a))) < length br) ->
  (forall bs b, In bs br -> In b bs -> b <> []) ->
  multi_slice_free E r br v1 v2 = Ok true.
Proof. exact one_point_free. Qed.
Print Assumptions C69_one_point_nothing_tested.

(** Two points test the two end poses only, so passing through the obstacle between
    them is not seen. *)
Theorem C69_passing_through_refuted :
  ~ (forall (E : env) r br v1 v2 t v x y a, 2 <= e_numPoint E -> multi_slice_free E r br v1 v2 = Ok true ->
       fleb fzero t = true -> fleb t fone = true -> blended t v1 v2 v -> nth_error v 0 = Some x -> nth_error v 1 = Some y -> nth_error v 2 = Some a ->
       bodies_clear clear_of br (e_centers E (e_move E r x y a))).
Proof.
  intros H. pose proof few_scene as K. apply andb_prop in K. destruct K as [_ K]. apply is_ok_eq in K.
  set (t := fdiv fone ftwo). set (w := fun a b => fadd (fmul (fsub fone t) (fofZ a)) (fmul t (fofZ b))).
  assert (T : (fleb fzero t && fleb t fone && negb (is_ok true (point_clear2 F64 (w (-9)%Z 9%Z, w 0%Z 0%Z) [box (-5) 5 (-5) 5])))%bool = true) by (vm_compute; reflexivity).
  apply andb_prop in T. destruct T as [T T3]. apply andb_prop in T. destruct T as [T1 T2].
  specialize (H (few 2) origin [[box (-5) 5 (-5) 5]] (zpose (-9) 0 0) (zpose 9 0 0) t [w (-9)%Z 9%Z; w 0%Z 0%Z; w 0%Z 0%Z] (w (-9)%Z 9%Z) (w 0%Z 0%Z) (w 0%Z 0%Z) (le_n 2) K T1 T2).
  assert (B : blended t (zpose (-9) 0 0) (zpose 9 0 0) [w (-9)%Z 9%Z; w 0%Z 0%Z; w 0%Z 0%Z]).
  { split; [reflexivity|]. split; [apply le_n|]. unfold zpose. cbn [map]. intros [|[|[|j]]] p q Hp Hq; cbn [nth_error] in *.
    - unfold w. revert Hp Hq. generalize (fofZ (-9)), (fofZ 9). intros c d Hp Hq. injection Hp as <-. injection Hq as <-. reflexivity.
    - unfold w. revert Hp Hq. generalize (fofZ 0). intros c Hp Hq. injection Hp as <-. injection Hq as <-. reflexivity.
    - unfold w. revert Hp Hq. generalize (fofZ 0). intros c Hp Hq. injection Hp as <-. injection Hq as <-. reflexivity.
    - destruct j; discriminate Hp. }
  specialize (H B eq_refl eq_refl eq_refl). destruct (H 0 (w (-9)%Z 9%Z, w 0%Z 0%Z) eq_refl) as (bs & Hb & C).
  cbn [nth_error] in Hb. assert (Q : point_clear2 F64 (w (-9)%Z 9%Z, w 0%Z 0%Z) [box (-5) 5 (-5) 5] = Ok true).
  { apply point_clear2_iff. intros b Hin. apply C. revert Hb Hin. generalize (box (-5) 5 (-5) 5). intros c Hb Hin. injection Hb as <-. exact Hin. }
  rewrite Q in T3. discriminate T3.
Qed.
Print Assumptions C69_passing_through_refuted.

Example C69_hyp : e_numPoint (few 1) = 1 /\ multi_slice_free (few 1) origin [[box (-5) 5 (-5) 5]] (zpose 0 0 0) (zpose 1 0 0) = Ok true /\
  point_clear2 F64 (fofZ 0, fofZ 0) [box (-5) 5 (-5) 5] = Ok false.
Proof.
  split; [reflexivity|]. split.
  - apply C69_one_point_nothing_tested; [reflexivity|cbn; lia| | |].
    + intros x y a c X Y A [<-|[]]. exact Y.
    + intros x y a. cbn. lia.
    + intros bs b [<-|[]] [<-|[]] E. discriminate E.
  - apply is_ok_eq. vm_compute. reflexivity.
Qed.

(** C62: what the spatial tests mean in exact arithmetic. *)
(** Free: the segment crosses no face of a mesh which its line meets at most twice. *)
Theorem C62_free_segment_crosses_nothing : forall ms t1 t2, t1 <> t2 -> Forall mesh_ok ms ->
  straight_free XR (map lift_rmesh ms) (lift3 t1) (lift3 t2) = Ok true ->
  forall m f abc p, In m ms -> two_faces t1 (direction t1 t2) m ->
    not_tiny (rx (direction t1 t2)) -> not_tiny (ry (direction t1 t2)) -> not_tiny (rz (direction t1 t2)) ->
    In f (snd m) -> face_corners (fst m) f abc -> triangle_hit 0 t1 (direction t1 t2) abc p -> ~ strictly_inside t1 t2 p.
Proof. exact straight_true. Qed.
Print Assumptions C62_free_segment_crosses_nothing.

(** Blocked: some face is met inside the segment. *)
Theorem C62_blocked_segment_meets_a_face : forall ms t1 t2, t1 <> t2 -> Forall mesh_ok ms ->
  straight_free XR (map lift_rmesh ms) (lift3 t1) (lift3 t2) = Ok false ->
  exists m f p, In m ms /\ In f (snd m) /\ good_face (fst m) t1 (direction t1 t2) f p /\ strictly_inside t1 t2 p.
Proof. exact straight_false. Qed.
Print Assumptions C62_blocked_segment_meets_a_face.

(** Defined unless a mesh is met exactly once. *)
Theorem C62_defined : forall ms t1 t2, t1 <> t2 -> Forall mesh_ok ms ->
  (forall m ps, In m ms -> pick (good_face (fst m) t1 (direction t1 t2)) (snd m) ps -> length ps <> 1) ->
  exists b, straight_free XR (map lift_rmesh ms) (lift3 t1) (lift3 t2) = Ok b.
Proof. exact straight_defined. Qed.
Print Assumptions C62_defined.

(** The point test: clear means not between a face below and a face above. *)
Theorem C62_clear_point_not_inside : forall ms p, Forall mesh_ok ms -> point_clear3 XR (lift3 p) (map lift_rmesh ms) = Ok true ->
  forall m f1 f2 abc1 abc2 lo hi, In m ms -> two_faces p (RV 0 0 1) m ->
    In f1 (snd m) -> face_corners (fst m) f1 abc1 -> triangle_hit 0 p (RV 0 0 1) abc1 lo ->
    In f2 (snd m) -> face_corners (fst m) f2 abc2 -> triangle_hit 0 p (RV 0 0 1) abc2 hi ->
    ~ (rz lo < rz p < rz hi)%R.
Proof. exact point_true. Qed.
Print Assumptions C62_clear_point_not_inside.

Theorem C62_blocked_point_between_faces : forall ms p, Forall mesh_ok ms -> point_clear3 XR (lift3 p) (map lift_rmesh ms) = Ok false ->
  exists m f1 f2 lo hi, In m ms /\ In f1 (snd m) /\ In f2 (snd m) /\
    good_face (fst m) p (RV 0 0 1) f1 lo /\ good_face (fst m) p (RV 0 0 1) f2 hi /\ (rz lo < rz p < rz hi)%R.
Proof. exact point_false. Qed.
Print Assumptions C62_blocked_point_between_faces.

(** The planar point test likewise, on the horizontal line through the point. *)
Theorem C62_planar_clear_point : forall (x y : R) (bs : list (list rpoint)), (forall b, In b bs -> b <> []) ->
  point_clear2 XR (Some x, Some y) (map lift_poly bs) = Ok true ->
  forall b r, In b bs -> hline_polygon XR (Some y) (lift_poly b) = Ok r -> length r <= 2 ->
  forall lo hi a1 c1 a2 c2, is_edge b a1 c1 -> snd a1 <> snd c1 -> on_segment a1 c1 (lo, y) ->
    is_edge b a2 c2 -> snd a2 <> snd c2 -> on_segment a2 c2 (hi, y) -> ~ (lo < x < hi)%R.
Proof. exact point2_true. Qed.
Print Assumptions C62_planar_clear_point.

Theorem C62_planar_blocked_point : forall (x y : R) (bs : list (list rpoint)), (forall b, In b bs -> b <> []) ->
  point_clear2 XR (Some x, Some y) (map lift_poly bs) = Ok false ->
  exists b lo hi a1 c1 a2 c2, In b bs /\ is_edge b a1 c1 /\ on_segment a1 c1 (lo, y) /\
    is_edge b a2 c2 /\ on_segment a2 c2 (hi, y) /\ (lo < x < hi)%R.
Proof. exact point2_false. Qed.
Print Assumptions C62_planar_blocked_point.

(** A segment inside an obstacle is free for the straight test (its end points are not
    clear). *)
Theorem C62_segment_inside_is_free : exists m t1 t2, straight_free F64 [m] t1 t2 = Ok true /\
  point_clear3 F64 t1 [m] = Ok false /\ point_clear3 F64 t2 [m] = Ok false.
Proof.
  exists wall, (zv 0 1 0), (zv 3 1 0). pose proof inside_scene as I. apply andb_prop in I. destruct I as [I _]. apply andb_prop in I. destruct I as [I _].
  apply andb_prop in I. destruct I as [I I3]. apply andb_prop in I. destruct I as [I1 I2].
  split; [apply is_ok_eq; exact I1|]. split; apply is_ok_eq; assumption.
Qed.
Print Assumptions C62_segment_inside_is_free.

(** The restriction to lines with at most two hits is needed: four plates, two of them
    crossed by the segment, the other two listed first; and a point of a closed box on a
    vertical line through an edge shared by two faces. *)
Theorem C62_first_two_hits_only : (exists m t1 t2 h, straight_free F64 [m] t1 t2 = Ok true /\
    (exists abc, face_pts F64 m (6, 7, 8) = Ok abc /\ face_hit F64 (L3 t1 (normalize F64 (vsub F64 t2 t1))) abc = Some h) /\ within F64 h t1 t2 = true) /\
  (exists m p, point_clear3 F64 p [m] = Ok true /\ m = cuboid (-30) 30 (-31) 29 (-1) 1 /\ p = zv 3 2 0).
Proof.
  split.
  - pose proof plates_scene as K. apply andb_prop in K. destruct K as [K _]. apply is_ok_eq in K.
    assert (T : (match face_pts F64 four_plates (6, 7, 8) with Ok abc =>
        match face_hit F64 (L3 (zv 0 0 0) (normalize F64 (vsub F64 (zv 0 0 3) (zv 0 0 0)))) abc with Some h => within F64 h (zv 0 0 0) (zv 0 0 3) | None => false end
      | _ => false end) = true) by (vm_compute; reflexivity).
    destruct (face_pts F64 four_plates (6, 7, 8)) as [abc| |] eqn:Q; [|discriminate T..].
    destruct (face_hit F64 (L3 (zv 0 0 0) (normalize F64 (vsub F64 (zv 0 0 3) (zv 0 0 0)))) abc) as [h|] eqn:Q2; [|discriminate T].
    exists four_plates, (zv 0 0 0), (zv 0 0 3), h. split; [exact K|]. split; [exists abc; split; assumption|exact T].
  - exists wall, (zv 3 2 0). split; [apply is_ok_eq; exact edge_scene|]. split; reflexivity.
Qed.
Print Assumptions C62_first_two_hits_only.

Example C62_hyp : below <> short_of /\ Forall mesh_ok [slab] /\ two_faces below (direction below short_of) slab /\
  straight_free XR (map lift_rmesh [slab]) (lift3 below) (lift3 short_of) = Ok true /\
  straight_free XR (map lift_rmesh [slab]) (lift3 below) (lift3 (RV 0 0 3)) = Ok false /\
  point_clear3 XR (lift3 below) (map lift_rmesh [slab]) = Ok true.
Proof.
  split; [intros H; apply (f_equal rz) in H; unfold below, short_of in H; cbn in H; lra|]. split; [constructor; [exact slab_ok|constructor]|].
  split; [unfold short_of; rewrite slab_direction by lra; intros ps H; apply slab_pick in H; [|reflexivity..]; lia|].
  split; [exact slab_free|]. split; [exact slab_blocked|exact slab_point].
Qed.
