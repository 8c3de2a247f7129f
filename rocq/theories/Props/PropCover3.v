(** C95-C96: what the sampled spatial boundary of the forbidden positions blocks
    (src/geometry/SuperQuadrics.cpp, MeshGenerator.cpp, LineIntersection.cpp, FreeSpace3D.cpp). *)
From Coq Require Import List Reals ZArith Arith Bool Lia Lra.
From Verif.Base Require Import Outcome Float64.
From Verif.Model Require Import MScalar MDistance MLine3D MInterp MGeom MMesh MHRM3D.
From Verif.Spec Require Import SLine3D SGeom SRigid SCover SCover3.
From Verif.Proofs Require Import PLine3D PGeom PGeom3 PHRM3DW PAxisX PAxisY PGlobe.
Import ListNotations.
Local Open Scope R_scope.

(** C95: what a vertical sweep line records as blocked is a collision: every position between two of
    its recorded hits with a mesh through the sampled boundary is within 4e-12 times the extent of
    that boundary of a centre at which the robot's ellipsoid has a point in common with the obstacle -
    every convex superquadric, every orientation, every face list, every line. *)
Theorem C95_blocked_means_contact : forall a b c e1 e2 px py pz q num A B C pos2 q2 num2 bd fs x y z r h0 h1 D,
  0 < a -> 0 < b -> 0 < c -> 0 < e1 < 2 -> 0 < e2 < 2 -> unit_quat q -> 0 < A -> 0 < B -> 0 < C -> unit_quat q2 -> (1 <= num)%nat ->
  mink3 (SQ [a; b; c] [e1; e2] [px; py; pz] q num) (SQ [A; B; C] [1; 1] pos2 q2 num2) 1 = Ok bd ->
  Forall (face_ok (length bd)) fs -> spread bd D ->
  vertical_line_mesh XR (vertical_at x y) (sampled_mesh bd fs) = Ok r -> height_of h0 r -> height_of h1 r -> weakly_between h0 h1 z ->
  exists ctr, near3 (4 / 10 ^ 12 * D) (V3r x y z) ctr /\
    meet3 (body_of3 (SQ [a; b; c] [e1; e2] [px; py; pz] q num)) (ellipsoid_at A B C q2 ctr).
Proof.
  intros a b c e1 e2 px py pz q num A B C pos2 q2 num2 bd fs x y z r h0 h1 D Ha Hb Hc E1 E2 U HA HB HC U2 N M F S H I0 I1 BT.
  refine (blocked_meets3 a b c e1 e2 px py pz q num A B C pos2 q2 num2 bd fs x y z r h0 h1 D _ HA HB HC U2 N M F S H I0 I1 BT).
  unfold convex3, proper3. cbn. repeat split; try lra; exact U.
Qed.
Print Assumptions C95_blocked_means_contact.
(** Two balls: the centres are at most the sum of the radii apart, up to a factor 1 + 1.6e-11. *)
Theorem C95_ball_blocked_is_near : forall a px py pz q num A pos2 q2 num2 bd fs x y z r h0 h1,
  unit_quat q -> unit_quat q2 -> 0 < a -> 0 < A -> (1 <= num)%nat ->
  mink3 (SQ [a; a; a] [1; 1] [px; py; pz] q num) (SQ [A; A; A] [1; 1] pos2 q2 num2) 1 = Ok bd ->
  Forall (face_ok (length bd)) fs ->
  vertical_line_mesh XR (vertical_at x y) (sampled_mesh bd fs) = Ok r -> height_of h0 r -> height_of h1 r -> weakly_between h0 h1 z ->
  dist3 (V3r x y z) (V3r px py pz) <= (a + A) * (1 + 16 / 10 ^ 12).
Proof. exact ball_blocked_near. Qed.
Print Assumptions C95_ball_blocked_is_near.
(** A case with two different hits, the centre of the obstacle strictly between them. *)
Example C95_hyp : exists bd fs r h0 h1, mink3 (SQ [1; 1; 1] [1; 1] [0; 0; 0] (Q 1 0 0 0) 4) (SQ [1 / 2; 1 / 2; 1 / 2] [1; 1] [0; 0; 0] (Q 1 0 0 0) 4) 1 = Ok bd /\
  Forall (face_ok (length bd)) fs /\ spread bd 3 /\
  vertical_line_mesh XR (vertical_at 0 0) (sampled_mesh bd fs) = Ok r /\ height_of h0 r /\ height_of h1 r /\ h0 < 0 < h1 /\ weakly_between h0 h1 0.
Proof.
  destruct ball4 as (bd & z1 & Z & M & F & H). exists bd, [(4, 5, 6)%nat; (8, 9, 10)%nat], [lift3 (RV 0 0 (- z1)); lift3 (RV 0 0 z1)], (- z1), z1.
  split; [exact M|]. split; [exact F|]. split.
  { replace 3 with (2 * (1 + 1 / 2)) by field. assert (U : unit_quat (Q 1 0 0 0)) by (unfold unit_quat; cbn; lra). refine (ball_spread 1 0 0 0 _ _ (1 / 2) _ _ _ _ U U _ _ M); lra. }
  split; [exact H|]. split; [exists (lift3 (RV 0 0 (- z1))); split; [left; reflexivity|reflexivity]|].
  split; [exists (lift3 (RV 0 0 z1)); split; [right; left; reflexivity|reflexivity]|]. split; [lra|]. left. lra.
Qed.

(** C96: the converse fails.  The latitudes overrun the poles by one millionth, so every triangle at
    the lower pole contains the polar axis: on the vertical line through the centre of an upright
    ball the two recorded hits are one and the same point, well below the centre, for every
    resolution between 4 and 1500000.  Nothing else on that line is blocked, although it runs
    through the middle of the obstacle. *)
Theorem C96_line_through_centre_not_blocked_refuted : forall a px py pz w z num A pos2 q2 num2,
  w * w + z * z = 1 -> unit_quat q2 -> 0 < a -> 0 < A -> (4 <= num)%nat -> INR num <= 1500000 ->
  exists bd fs z0, mink3 (SQ [a; a; a] [1; 1] [px; py; pz] (Q w 0 0 z) num) (SQ [A; A; A] [1; 1] pos2 q2 num2) 1 = Ok bd /\ mesh_faces num = Ok fs /\
    z0 <= pz - 2 / 5 * (a + A) /\
    vertical_line_mesh XR (vertical_at px py) (sampled_mesh bd fs) = Ok [lift3 (RV px py z0); lift3 (RV px py z0)].
Proof. exact axis_lost. Qed.
Print Assumptions C96_line_through_centre_not_blocked_refuted.
(** At resolution 10, an obstacle turned about the vertical, a robot turned upside down. *)
Example C96_hyp : exists bd fs z0, mink3 (SQ [2; 2; 2] [1; 1] [5; 5; 5] (Q (3 / 5) 0 0 (4 / 5)) 10) (SQ [1; 1; 1] [1; 1] [0; 0; 0] (Q 0 1 0 0) 10) 1 = Ok bd /\ mesh_faces 10 = Ok fs /\
    z0 <= 5 - 2 / 5 * (2 + 1) /\
    vertical_line_mesh XR (vertical_at 5 5) (sampled_mesh bd fs) = Ok [lift3 (RV 5 5 z0); lift3 (RV 5 5 z0)].
Proof. apply C96_line_through_centre_not_blocked_refuted; try lra; try lia; [unfold unit_quat; cbn; lra|cbn; lra]. Qed.

(** In double precision, with the whole planner: the boundary mesh of a ball of radius 4 for a robot
    of radius 2, every coordinate within 1e-7 of the exact one.  [plan] returns a path with a
    waypoint at which the robot overlaps the ball, and a leg that leads through the ball's centre. *)
Theorem C96_returned_path_through_ball_refuted : exists (E : env3) (r : robot3 E) s0 s path ip arena m bd a b c w x y z w',
  m_mink E r = Ok (BMesh [arena] [m]) /\
  mink3 (SQ [4; 4; 4] [1; 1] [0; 0; 0] (Q 1 0 0 0) 4) (SQ [2; 2; 2] [1; 1] [0; 0; 0] (Q 1 0 0 0) 4) 1 = Ok bd /\
  mesh_near (1 / 10 ^ 7) m bd /\ mesh_faces 4 = Ok (mfaces m) /\
  construct3 E r 1 3 3 1 1 = Ok s0 /\ plan3 E (fun _ => qa) [] s0 = Ok (s, Some (path, ip)) /\
  nth_error path 1 = Some (a :: b :: c :: w) /\ nth_error path 2 = Some (x :: y :: z :: w') /\
  overlap3 (body_of3 (SQ [4; 4; 4] [1; 1] [0; 0; 0] (Q 1 0 0 0) 4)) (ellipsoid_at 2 2 2 (Q 1 0 0 0) (V3r (fval x) (fval y) (fval z))) /\
  exists t, 0 <= t <= 1 /\ V3r (fval a + t * (fval x - fval a)) (fval b + t * (fval y - fval b)) (fval c + t * (fval z - fval c)) = V3r 0 0 0.
Proof. exact globe_path. Qed.
Print Assumptions C96_returned_path_through_ball_refuted.
