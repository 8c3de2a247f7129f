(** Specification vocabulary for rigid transforms, orientations and enclosing ellipses. *)
From Coq Require Import List Reals Bool.
From Verif.Model Require Import MInterp.
From Verif.Model Require Import MGeom.
From Verif.Spec Require Import SGeom.
Local Open Scope R_scope.

Definition id2 : m2 := M2 1 0 0 1.
Definition id3 : m3 := M3 (V3r 1 0 0) (V3r 0 1 0) (V3r 0 0 1).
Definition orthogonal2 (M : m2) : Prop := mul2 M (tr2 M) = id2 /\ mul2 (tr2 M) M = id2.
Definition orthogonal3 (M : m3) : Prop := mul3 M (tr3 M) = id3 /\ mul3 (tr3 M) M = id3.
Definition determinant2 (M : m2) : R := m00 M * m11 M - m01 M * m10 M.
Definition determinant3 (M : m3) : R :=
  x3 (r0 M) * (y3 (r1 M) * z3 (r2 M) - z3 (r1 M) * y3 (r2 M))
  - y3 (r0 M) * (x3 (r1 M) * z3 (r2 M) - z3 (r1 M) * x3 (r2 M))
  + z3 (r0 M) * (x3 (r1 M) * y3 (r2 M) - y3 (r1 M) * x3 (r2 M)).
Definition rotation2 (M : m2) : Prop := orthogonal2 M /\ determinant2 M = 1.
Definition rotation3 (M : m3) : Prop := orthogonal3 M /\ determinant3 M = 1.

(** The heading [t] is that of the rotation matrix M; the quaternion q turns as M does. *)
Definition heads (t : R) (M : m2) : Prop := cos t = m00 M /\ sin t = m10 M.
Definition turns (q : quat) (M : m3) : Prop := unit_quat q /\ forall v, turn q v = app3 M v.

(** Symmetric positive definite, and singular value decomposition. *)
Definition dotr2 (u v : v2) : R := x2 u * x2 v + y2 u * y2 v.
Definition sympd2 (A : m2) : Prop := tr2 A = A /\ forall x, x <> V2 0 0 -> 0 < dotr2 x (app2 A x).
Definition sympd3 (A : m3) : Prop := tr3 A = A /\ forall x, x <> V3r 0 0 0 -> 0 < dot3 x (app3 A x).
Definition svd2_of (A U : m2) (s0 s1 : R) : Prop :=
  orthogonal2 U /\ (exists V, orthogonal2 V /\ A = mul2 (mul2 U (diag2 s0 s1)) (tr2 V)) /\ s1 <= s0 /\ 0 <= s1.
Definition svd3_of (A U : m3) (s0 s1 s2 : R) : Prop :=
  orthogonal3 U /\ (exists V, orthogonal3 V /\ A = mul3 (mul3 U (diag3 s0 s1 s2)) (tr3 V)) /\ s1 <= s0 /\ s2 <= s1 /\ 0 <= s2.
(** The decomposition is right for all the matrices the code gives it. *)
Definition svd2_ok (svd : m2 -> m2 * (R * R)) : Prop :=
  forall A, sympd2 A -> let '(U, (s0, s1)) := svd A in svd2_of A U s0 s1.
Definition svd3_ok (svd : m3 -> m3 * (R * R * R)) : Prop :=
  forall A, sympd3 A -> let '(U, (s0, s1, s2)) := svd A in svd3_of A U s0 s1 s2.
(** Sign conventions a decomposition may or may not satisfy. *)
Definition upper_svd2 (svd : m2 -> m2 * (R * R)) : Prop := forall A, sympd2 A -> 0 <= m10 (fst (svd A)).
Definition proper_svd3 (svd : m3 -> m3 * (R * R * R)) : Prop := forall A, sympd3 A -> determinant3 (fst (svd A)) = 1.

Definition encloses2 (C A : body2) : Prop := forall p, in2 A p -> in2 C p.
Definition encloses3 (C A : body3) : Prop := forall p, in3 A p -> in3 C p.
(** Ellipses centred at the origin. *)
Definition ellipse0 (ax : R * R) (t : R) : body2 := ellipse_at (fst ax) (snd ax) t (V2 0 0).
Definition ellipsoid0 (ax : R * R * R) (q : quat) : body3 :=
  ellipsoid_at (fst (fst ax)) (snd (fst ax)) (snd ax) q (V3r 0 0 0).
Definition pos_axes2 (ax : R * R) : Prop := 0 < fst ax /\ 0 < snd ax.
Definition pos_axes3 (ax : R * R * R) : Prop := 0 < fst (fst ax) /\ 0 < snd (fst ax) /\ 0 < snd ax.

(** ---- robots of several bodies ---- *)
From Verif.Base Require Import Outcome.
From Verif.Model Require Import MMultiBody.
Import ListNotations.
(** The set of points of a shape object. *)
Definition body_of2 (s : sellipse) : body2 :=
  Body2 (nth 0 (se_axes s) 0) (nth 1 (se_axes s) 0) (se_eps s) (V2 (nth 0 (se_pos s) 0) (nth 1 (se_pos s) 0)) (se_angle s).
Definition body_of3 (s : squad) : body3 :=
  Body3 (nth 0 (sq_axes s) 0) (nth 1 (sq_axes s) 0) (nth 2 (sq_axes s) 0) (nth 0 (sq_eps s) 0) (nth 1 (sq_eps s) 0)
    (V3r (nth 0 (sq_pos s) 0) (nth 1 (sq_pos s) 0) (nth 2 (sq_pos s) 0)) (sq_quat s).
Definition move2 (g : tf2) (p : v2) : v2 := add2 (app2 (fst g) p) (snd g).
Definition move3 (g : tf3) (p : v3) : v3 := add3 (app3 (fst g) p) (snd g).
Definition rigid2 (g : tf2) : Prop := rotation2 (fst g).
Definition rigid3 (g : tf3) : Prop := rotation3 (fst g).
(** Histories of calls on a robot: add a body, move the robot. *)
Inductive call2 : Type := AddBody2 (l : sellipse) | RobotTF2 (g : tf2).
Inductive call3 : Type := AddBody3 (l : squad) | RobotTF3 (g : tf3) | RobotTFKdl (g : tf3) (kdl : nat -> tf3).
Definition do_call2 (m : mb2) (c : call2) : outcome mb2 :=
  match c with AddBody2 l => add_body2 m l | RobotTF2 g => Ok (robot_tf2 m g) end.
Definition do_call3 (m : mb3) (c : call3) : outcome (option mb3) :=
  match c with
  | AddBody3 l => obind (add_body3 m l) (fun m' => Ok (Some m'))
  | RobotTF3 g => Ok (robot_tf3 m g)
  | RobotTFKdl g kdl => Ok (robot_tf3_kdl m g (fun i => Some (kdl i)))
  end.
Fixpoint calls2 (m : mb2) (cs : list call2) : outcome mb2 :=
  match cs with [] => Ok m | c :: r => obind (do_call2 m c) (fun m' => calls2 m' r) end.
Fixpoint calls3 (m : mb3) (cs : list call3) : outcome (option mb3) :=
  match cs with
  | [] => Ok (Some m)
  | c :: r => obind (do_call3 m c) (fun o => match o with Some m' => calls3 m' r | None => Ok None end)
  end.
(** The bodies given to addBody, in order. *)
Definition added2 (cs : list call2) : list sellipse := flat_map (fun c => match c with AddBody2 l => [l] | _ => [] end) cs.
Definition added3 (cs : list call3) : list squad := flat_map (fun c => match c with AddBody3 l => [l] | _ => [] end) cs.
Definition same_shape2 (s t : sellipse) : Prop := se_axes s = se_axes t /\ se_eps s = se_eps t /\ se_num s = se_num t.
Definition same_shape3 (s t : squad) : Prop := sq_axes s = sq_axes t /\ sq_eps s = sq_eps t /\ sq_num s = sq_num t.
(** A shape object stands at position p with orientation M. *)
Definition stands2 (s : sellipse) (M : m2) (p : v2) : Prop := se_pos s = [x2 p; y2 p] /\ heads (se_angle s) M.
Definition stands3 (s : squad) (M : m3) (p : v3) : Prop := sq_pos s = [x3 p; y3 p; z3 p] /\ turns (sq_quat s) M.
(** The pose a shape object was given. *)
Definition given_pos2 (s : sellipse) : v2 := V2 (nth 0 (se_pos s) 0) (nth 1 (se_pos s) 0).
Definition given_pos3 (s : squad) : v3 := V3r (nth 0 (sq_pos s) 0) (nth 1 (sq_pos s) 0) (nth 2 (sq_pos s) 0).
Definition turning (t : R) : m2 := M2 (cos t) (- sin t) (sin t) (cos t).
(** Ellipses and ellipsoids as the planners use them for robot bodies. *)
Definition robot_ellipse (s : sellipse) : Prop :=
  se_eps s = 1 /\ exists a b x y, se_axes s = [a; b] /\ 0 < a /\ 0 < b /\ se_pos s = [x; y].
Definition robot_ellipsoid (s : squad) : Prop :=
  sq_eps s = [1; 1] /\ unit_quat (sq_quat s) /\
  exists a b c x y z, sq_axes s = [a; b; c] /\ 0 < a /\ 0 < b /\ 0 < c /\ sq_pos s = [x; y; z].
Definition bodies2 (m : mb2) : list sellipse := mb2_base m :: map fst (mb2_links m).
Definition bodies3 (m : mb3) : list squad := mb3_base m :: map fst (mb3_links m).

(** The orientation at the fraction t of the way from qA to qB (see C38 for what Eigen's slerp
    computes in exact arithmetic). *)
Definition rq (q : quat) : rquat := (qw q, qx q, qy q, qz q).
Definition qr (r : rquat) : quat := let '(w, x, y, z) := r in Q w x y z.
Definition between (qA qB : quat) (t : R) : quat := qr (slerp_R (rq qA) t (rq qB)).
(** Either the same orientation, or far enough apart for Eigen's slerp to interpolate the
    angle rather than the components. *)
Definition apart (qA qB : quat) : Prop :=
  Rabs (qdot (rq qA) (rq qB)) < 1 - / IZR (2 ^ 52) \/ Rabs (qdot (rq qA) (rq qB)) = 1.
(** All transforms of a call are rigid. *)
Definition rigid_call3 (c : call3) : Prop :=
  match c with AddBody3 _ => True | RobotTF3 g => rigid3 g | RobotTFKdl g kdl => rigid3 g /\ forall i, rigid3 (kdl i) end.
