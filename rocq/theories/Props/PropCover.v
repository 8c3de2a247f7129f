(** C89-C91: what the sampled boundary of the forbidden positions blocks
    (src/geometry/LineIntersection.cpp, SuperEllipse.cpp, FreeSpace2D.cpp). *)
From Coq Require Import List Reals ZArith Arith Bool Lia Lra.
From Verif.Base Require Import Outcome.
From Verif.Model Require Import MScalar MLine2D MGeom.
From Verif.Spec Require Import SLine2D SGeom SRigid SCover.
From Verif.Proofs Require Import PLine2D PLine2DW PGeom PGeom2 PGeomX PShape PCover PCoverS PCoverX PCoverD PCoverE PCoverC.
Import ListNotations.
Local Open Scope R_scope.

(** C89: a position strictly inside a boundary polygon is strictly inside the interval that is
    recorded for the sweep line through it (the first two crossings), unless that line passes
    through a vertex. *)
Theorem C89_inside_is_blocked : forall (P : list rpoint) (p : rpoint), P <> [] ->
  strictly_inside P p -> (forall v, In v P -> snd v <> snd p) ->
  exists h0 h1 rest, hline_polygon XR (Some (snd p)) (lift_poly P) = Ok (Some h0 :: Some h1 :: rest) /\ strictly_between h0 h1 (fst p).
Proof. exact covered. Qed.
Print Assumptions C89_inside_is_blocked.
(** C14: for a convex polygon with an interior, on a sweep line that passes between the vertices, the
    recorded interval (the first two crossings) is the cross-section of the polygon. *)
Theorem C14_convex_cross_section : forall (P : list rpoint) (c : rpoint) (y : R), P <> [] -> convex_ccw P -> strictly_inside P c ->
  (exists v, In v P /\ snd v < y) -> (exists v, In v P /\ y < snd v) -> (forall v, In v P -> snd v <> y) ->
  exists h0 h1 rest, hline_polygon XR (Some y) (lift_poly P) = Ok (Some h0 :: Some h1 :: rest) /\ h0 <> h1 /\
    forall x, weakly_between h0 h1 x <-> inside_or_on P (x, y).
Proof. exact convex_cross_section. Qed.
Print Assumptions C14_convex_cross_section.
Example C14_convex_hyp : convex_ccw square /\ strictly_inside square (1, 1 / 2) /\ In (0, 0) square /\ In (2, 2) square /\
  (forall v, In v square -> snd v <> 1).
Proof.
  split; [exact (proj1 square_motion)|]. split; [|split; [|split]].
  - intros a b H. destruct (square_edges a b H) as [K|[K|[K|K]]]; injection K as -> ->; unfold turn_of; cbn [fst snd]; lra.
  - left. reflexivity.
  - right. right. left. reflexivity.
  - intros v [<- |[<- |[<- |[<- |[]]]]]; cbn [snd]; lra.
Qed.

(** Round robot, round obstacle: every centre nearer than (a + A) cos(3.1415926 / (num - 1)). *)
Theorem C89_disc_core_is_blocked : forall a px py t num A e2 pos2 t2 num2, (3 <= num)%nat -> INR num <= 3000000 -> 0 < a -> 0 < A ->
  exists bd, mink2 (SE [a; a] 1 [px; py] t num) (SE [A; A] e2 pos2 t2 num2) 1 = Ok bd /\
    forall x y, dist2 (V2 x y) (V2 px py) < (a + A) * cos (31415926 / 10000000 / (INR num - 1)) ->
      (forall p, In (Some p) bd -> y2 p <> y) ->
      exists h0 h1 rest, hline_polygon XR (Some y) (sampled_polygon bd) = Ok (Some h0 :: Some h1 :: rest) /\ strictly_between h0 h1 x.
Proof. exact disc_core_blocked. Qed.
Print Assumptions C89_disc_core_is_blocked.
Example C89_hyp : strictly_inside square (1, 1) /\ (forall v, In v square -> snd v <> snd ((1, 1) : rpoint)).
Proof.
  split.
  - intros a b E. apply redges_is_edge in E. cbn in E.
    destruct E as [E|[E|[E|[E|[]]]]]; injection E as <- <-; unfold turn_of; cbn [fst snd]; lra.
  - intros v V. cbn in V. destruct V as [<- |[<- |[<- |[<- |[]]]]]; cbn [snd]; lra.
Qed.
Example C89_disc_hyp : exists bd, mink2 (SE [1; 1] 1 [0; 0] 0 5) (SE [1 / 2; 1 / 2] 1 [0; 0] 0 5) 1 = Ok bd /\
  dist2 (V2 0 (1 / 2)) (V2 0 0) < (1 + 1 / 2) * cos (31415926 / 10000000 / (INR 5 - 1)) /\ forall p, In (Some p) bd -> y2 p <> 1 / 2.
Proof. exact disc_example. Qed.

(** C90: what is recorded as blocked is a collision: at every position between two crossings of a
    sweep line with the sampled boundary the robot's ellipse has a point in common with the
    obstacle - every obstacle with exponent below 2, round or elongated, every sweep line. *)
Theorem C90_blocked_means_contact : forall a b e px py t num A B e2 pos2 t2 num2 bd y r h0 h1 x,
  0 < a -> 0 < b -> 0 < e < 2 -> 0 < A -> 0 < B -> (2 <= num)%nat ->
  mink2 (SE [a; b] e [px; py] t num) (SE [A; B] e2 pos2 t2 num2) 1 = Ok bd ->
  hline_polygon XR (Some y) (sampled_polygon bd) = Ok r -> In (Some h0) r -> In (Some h1) r -> weakly_between h0 h1 x ->
  meet2 (body_of2 (SE [a; b] e [px; py] t num)) (ellipse_at A B t2 (V2 x y)).
Proof. exact blocked_meets. Qed.
Print Assumptions C90_blocked_means_contact.
(** Two discs: the centres are at most the sum of the radii apart. *)
Theorem C90_disc_blocked_is_near : forall a px py t num A e2 pos2 t2 num2 bd y r h0 h1 x,
  0 < a -> 0 < A -> (2 <= num)%nat ->
  mink2 (SE [a; a] 1 [px; py] t num) (SE [A; A] e2 pos2 t2 num2) 1 = Ok bd ->
  hline_polygon XR (Some y) (sampled_polygon bd) = Ok r -> In (Some h0) r -> In (Some h1) r -> weakly_between h0 h1 x ->
  dist2 (V2 x y) (V2 px py) <= a + A.
Proof. exact disc_blocked_near. Qed.
Print Assumptions C90_disc_blocked_is_near.
(** The hypotheses are met by the disc of [C89_disc_hyp]: its line has two crossings. *)
Example C90_hyp : exists bd r h0 h1, mink2 (SE [1; 1] 1 [0; 0] 0 5) (SE [1 / 2; 1 / 2] 1 [0; 0] 0 5) 1 = Ok bd /\
  hline_polygon XR (Some (1 / 2)) (sampled_polygon bd) = Ok r /\ In (Some h0) r /\ In (Some h1) r /\ weakly_between h0 h1 0.
Proof.
  destruct (C89_disc_core_is_blocked 1 0 0 0 5 (1 / 2) 1 [0; 0] 0 5) as (bd & E & H); [lia|cbn; lra|lra|lra|].
  destruct disc_example as (bd' & E' & D & V). assert (bd' = bd) as -> by (assert (Q : forall T (u v : T), Ok u = Ok v -> u = v) by (intros T u v Q; injection Q; auto); apply Q; rewrite <- E; symmetry; exact E').
  destruct (H 0 (1 / 2) D V) as (h0 & h1 & rest & R & B). exists bd, (Some h0 :: Some h1 :: rest), h0, h1.
  split; [exact E|]. split; [exact R|]. split; [left; reflexivity|]. split; [right; left; reflexivity|].
  destruct B; [left|right]; lra.
Qed.

(** C91: a straight motion that starts strictly outside a convex boundary polygon, whose line meets
    no vertex and for which no crossing is reported, has no point strictly inside. *)
Theorem C91_free_motion_stays_outside : forall solve (P : list rpoint) (q1 q2 : rpoint) r1 r2, solve_exact solve -> P <> [] ->
  convex_ccw P -> strictly_outside P q1 -> (forall v, In v P -> off_line q1 q2 v) ->
  seg_polygon XR solve (Some (fst q1) :: Some (snd q1) :: r1) (Some (fst q2) :: Some (snd q2) :: r2) (lift_poly P) = Ok false ->
  forall p, in_open_segment q1 q2 p -> ~ strictly_inside P p.
Proof. exact free_motion_outside. Qed.
Print Assumptions C91_free_motion_stays_outside.
(** Two discs: starting with the centres farther apart than the sum of the radii, the whole motion
    keeps them at least (a + A) cos(3.1415926 / (num - 1)) apart. *)
Theorem C91_disc_motion_clearance : forall solve a px py t num A e2 pos2 t2 num2, solve_exact solve ->
  (3 <= num)%nat -> INR num <= 3000000 -> 0 < a -> 0 < A ->
  exists bd, mink2 (SE [a; a] 1 [px; py] t num) (SE [A; A] e2 pos2 t2 num2) 1 = Ok bd /\
    forall (q1 q2 : rpoint) r1 r2, a + A < dist2 (V2 (fst q1) (snd q1)) (V2 px py) ->
      (forall p, In (Some p) bd -> off_line q1 q2 (x2 p, y2 p)) ->
      seg_polygon XR solve (Some (fst q1) :: Some (snd q1) :: r1) (Some (fst q2) :: Some (snd q2) :: r2) (sampled_polygon bd) = Ok false ->
      forall p, in_open_segment q1 q2 p -> (a + A) * cos (31415926 / 10000000 / (INR num - 1)) <= dist2 (V2 (fst p) (snd p)) (V2 px py).
Proof. exact disc_motion_clearance. Qed.
Print Assumptions C91_disc_motion_clearance.
Example C91_hyp : convex_ccw square /\ strictly_outside square (-1, 1 / 2) /\ (forall v, In v square -> off_line (-1, 1 / 2) (-1, 3) v) /\
  seg_polygon XR cramer [Some (-1); Some (1 / 2)] [Some (-1); Some 3] (lift_poly square) = Ok false.
Proof. exact square_motion. Qed.
(** With the start on the boundary the claim fails: the motion between two boundary points of the
    square passes through its middle and is not reported. *)
Theorem C91_from_boundary_refuted : forall solve, solve_exact solve ->
  convex_ccw square /\ (forall v, In v square -> off_line (0, 1) (2, 1) v) /\
  seg_polygon XR solve [Some 0; Some 1] [Some 2; Some 1] (lift_poly square) = Ok false /\
  in_open_segment (0, 1) (2, 1) (1, 1) /\ strictly_inside square (1, 1).
Proof. exact square_chord. Qed.
Print Assumptions C91_from_boundary_refuted.
