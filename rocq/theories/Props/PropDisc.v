(** C94: a round robot among round obstacles - from the sampled boundaries to the distance of every
    roadmap vertex (src/geometry/SuperEllipse.cpp, FreeSpace2D.cpp, src/planners/HRM2D.cpp). *)
From Coq Require Import List Reals ZArith Arith Bool Lia Lra.
From Flocq Require Import Core.Core.
From Verif.Base Require Import Outcome Float64 FloatFacts.
From Verif.Model Require Import MScalar MInterval MLine2D MGeom MGraph MSearch MHRM2D.
From Verif.Spec Require Import SLine2D SGeom SPlanner2D SCover SClear SHline.
From Verif.Proofs Require Import PPlan2D PPlan2DY PInterval PHRM2DW PHlineX PDiscPlan PDiscPlanX.
From Verif.Props Require Import PropHline.
Import ListNotations.
Local Open Scope R_scope.

(** C94: if the boundary polygon used for a round obstacle differs from the exact output of
    getMinkSum2D by at most eps per coordinate, every vertex of the roadmap keeps the robot's centre
    at (r + A) cos(3.1415926 / (num - 1)) from the obstacle's centre, less 3.5e8 eps and the error of
    the crossings. *)
Theorem C94_vertices_keep_distance : forall (E : env) robot fsr nx ny s0 s l0 l1 l2 l3,
  conforming (e_sort E) -> e_limits E = [l0; l1; l2; l3] -> (2 <= ny)%nat -> (Z.of_nat ny <= 2 ^ 53)%Z ->
  limit_ok l0 -> limit_ok l1 -> limit_ok l2 -> limit_ok l3 -> fval l2 <= fval l3 ->
  let B := e_mink E fsr in
  (forall P, In P (barena B) \/ In P (bobstacle B) -> moderate_poly P) ->
  construct E robot fsr nx ny (length (barena B)) (length (bobstacle B)) = Ok s0 -> planned E s0 s ->
  forall v, In v (gvert (p_graph s)) -> exists x y h, v = [x; y; h] /\
    forall P M eps A o, In P (bobstacle B) -> accurate_boundary eps A P o ->
      (3 <= d_n o)%nat -> INR (d_n o) <= 3000000 -> 0 < d_r o -> 0 < A -> 0 <= eps <= d_r o + A ->
      reach P M -> between_vertices P (fval y) ->
      (d_r o + A) * cos (31415926 / 10000000 / (INR (d_n o) - 1)) - 350000000 * eps - hit_error M
        <= dist2 (V2 (fval x) (fval y)) (V2 (d_x o) (d_y o)).
Proof.
  intros E robot fsr nx ny s0 s l0 l1 l2 l3 Hs Lm N1 N2 K0 K1 K2 K3 L23 B MP C Pl v Hv.
  destruct (C93_vertices_outside_obstacles E robot fsr nx ny s0 s l0 l1 l2 l3 Hs Lm N1 N2 K0 K1 K2 K3 L23 MP C Pl v Hv) as (x & y & h & -> & _ & G).
  exists x, y, h. split; [reflexivity|]. exact (outside_far (bobstacle B) (fval x) (fval y) G).
Qed.
Print Assumptions C94_vertices_keep_distance.
(** The waypoints of a returned path, other than the start and the goal. *)
Theorem C94_waypoints_keep_distance : forall (E : env) robot fsr nx ny s0 s rounds s' path ipath l0 l1 l2 l3,
  conforming (e_sort E) -> e_limits E = [l0; l1; l2; l3] -> (2 <= ny)%nat -> (Z.of_nat ny <= 2 ^ 53)%Z ->
  limit_ok l0 -> limit_ok l1 -> limit_ok l2 -> limit_ok l3 -> fval l2 <= fval l3 ->
  let B := e_mink E fsr in
  (forall P, In P (barena B) \/ In P (bobstacle B) -> moderate_poly P) ->
  construct E robot fsr nx ny (length (barena B)) (length (bobstacle B)) = Ok s0 -> planned E s0 s ->
  plan E (connect_multi E) rounds s = Ok (s', Some (path, ipath)) ->
  exists a z way, path = a :: way ++ [z] /\
    forall v, In v way -> exists x y h, v = [x; y; h] /\
      forall P M eps A o, In P (bobstacle B) -> accurate_boundary eps A P o ->
        (3 <= d_n o)%nat -> INR (d_n o) <= 3000000 -> 0 < d_r o -> 0 < A -> 0 <= eps <= d_r o + A ->
        reach P M -> between_vertices P (fval y) ->
        (d_r o + A) * cos (31415926 / 10000000 / (INR (d_n o) - 1)) - 350000000 * eps - hit_error M
          <= dist2 (V2 (fval x) (fval y)) (V2 (d_x o) (d_y o)).
Proof.
  intros E robot fsr nx ny s0 s rounds s' path ipath l0 l1 l2 l3 Hs Lm N1 N2 K0 K1 K2 K3 L23 B MP C P Pl.
  destruct (C93_waypoints_outside_obstacles E robot fsr nx ny s0 s rounds s' path ipath l0 l1 l2 l3 Hs Lm N1 N2 K0 K1 K2 K3 L23 MP C P Pl) as (a & z & way & -> & G).
  exists a, z, way. split; [reflexivity|]. intros v Hv. destruct (G v Hv) as (x & y & h & -> & K).
  exists x, y, h. split; [reflexivity|]. exact (outside_far (bobstacle B) (fval x) (fval y) K).
Qed.
Print Assumptions C94_waypoints_keep_distance.
(** A solved scene: obstacle of radius 4, robot of radius 1, five boundary samples, boundary known to
    nine decimals, a waypoint on the line of height -2 - which the claim keeps more than 3 away. *)
Example C94_hyp : exists l0 l1 l2 l3 s0 s path x y h,
  conforming (e_sort E12) /\ e_limits E12 = [l0; l1; l2; l3] /\ limit_ok l0 /\ limit_ok l1 /\ limit_ok l2 /\ limit_ok l3 /\ fval l2 <= fval l3 /\
  (forall P, In P (barena (e_mink E12 origin)) \/ In P (bobstacle (e_mink E12 origin)) -> moderate_poly P) /\
  construct E12 origin origin 1 6 (length (barena (e_mink E12 origin))) (length (bobstacle (e_mink E12 origin))) = Ok s0 /\
  plan E12 (connect_multi E12) [] s0 = Ok (s, Some (path, path)) /\ planned E12 s0 s /\ length path = 8%nat /\
  nth_error path 3 = Some [x; y; h] /\ In disc5 (bobstacle (e_mink E12 origin)) /\ accurate_boundary (1 / 1000000000) 1 disc5 round5 /\
  reach disc5 5 /\ between_vertices disc5 (fval y) /\
  3 < (d_r round5 + 1) * cos (31415926 / 10000000 / (INR (d_n round5) - 1)) - 350000000 * (1 / 1000000000) - hit_error 5.
Proof.
  destruct E12_run as (s0 & s & path & x & y & h & C & P & L & Q & Vy).
  exists (fofZ (-10)), (fofZ 10), (fofZ (-10)), (fofZ 10), s0, s, path, x, y, h.
  pose proof (limit_10 (-10) eq_refl) as La. pose proof (limit_10 10 eq_refl) as Lb.
  split; [exact isort_conforming|]. split; [reflexivity|]. split; [exact La|]. split; [exact Lb|]. split; [exact La|]. split; [exact Lb|].
  split; [rewrite !fofZ_val by lia; lra|]. split; [exact E12_polygons|]. split; [exact C|]. split; [exact P|].
  split; [exact (planned_plan _ _ _ _ _ _ (planned_0 _ _) P)|]. split; [exact L|]. split; [exact Q|]. split; [left; reflexivity|].
  split; [exact disc5_accurate|]. split; [exact disc5_reach|]. split; [rewrite Vy; exact disc5_between|exact disc5_bound].
Qed.
