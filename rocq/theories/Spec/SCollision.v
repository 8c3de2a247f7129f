(** Specification for C80-C82: what the collision geometries stand for, when the external
    collision and eigenvalue routines are exact, and the points a robot occupies. *)
From Coq Require Import List Reals Arith Bool.
From Verif.Base Require Import Outcome.
From Verif.Model Require Import MGeom MMultiBody MCollision.
From Verif.Model Require MSeparation.
From Verif.Spec Require Import SGeom SRigid.
From Verif.Spec Require SSeparation.
Import ListNotations.
Local Open Scope R_scope.

(** The points of a geometry under a transform: a solid ellipsoid, or the triangles of a mesh (FCL
    treats a mesh as a surface; what it encloses is not part of it). *)
Definition in_geom (t : tf3) (g : geom) (p : v3) : Prop :=
  match g with
  | GEllipsoid a b c => exists l, p = move3 t l /\ x3 l / a * (x3 l / a) + y3 l / b * (y3 l / b) + z3 l / c * (z3 l / c) <= 1
  | GMesh vs fs => exists i j k u v w wu wv ww, In (i, j, k) fs /\
      nth_error vs i = Some u /\ nth_error vs j = Some v /\ nth_error vs k = Some w /\
      0 <= wu /\ 0 <= wv /\ 0 <= ww /\ wu + wv + ww = 1 /\ p = move3 t (in_triangle wu wv ww u v w)
  end.
(** fcl::collide without error: it reports a collision exactly when there is a common point. *)
Definition exact_fcl (collide : collider) : Prop :=
  forall g1 t1 g2 t2, collide g1 t1 g2 t2 = true <-> exists p, in_geom t1 g1 p /\ in_geom t2 g2 p.
(** The vertices of a triangulation are points it was given. *)
Definition own_points (cgal : triangulation) : Prop := forall L p, In p (fst (cgal L)) -> In p L.
(** Every given point is a vertex of some cell. *)
Definition covers_points (cgal : triangulation) : Prop :=
  forall L p, In p L -> exists a b c d i, In (a, b, c, d) (snd (cgal L)) /\ In i [a; b; c; d] /\
    nth_error (fst (cgal L)) i = Some p /\ forall j, In j [a; b; c; d] -> exists q, nth_error (fst (cgal L)) j = Some q.

(** The ellipse a shape object with exponent 1 stands for. *)
Definition ell_of (s : sellipse) : MSeparation.ellipse :=
  MSeparation.Ell (nth 0 (se_axes s) 0) (nth 1 (se_axes s) 0) (nth 0 (se_pos s) 0) (nth 1 (se_pos s) 0) (se_angle s).
(** The eigenvalue routine is exact for a pair of ellipses, and no two roots are complex with a
    tiny imaginary part (C44 says why this is needed). *)
Definition clean_roots (eig : eigensolver) (s o : sellipse) : Prop :=
  let m := MSeparation.companion (MSeparation.coeffs3 (MSeparation.diag3 (ell_of s)) (MSeparation.pull3 (ell_of s) (ell_of o))) in
  SSeparation.spectrum3 m (eig m 3%nat) /\
  (forall re im, In (re, im) (eig m 3%nat) -> Rabs im < 1 / 1000000 -> re < 0 -> im = 0).

(** The two negative characteristic roots of a disjoint pair are not within the tolerance of
    the routine, 1e-6 (C44: there are exactly two). *)
Definition roots_apart (s o : sellipse) : Prop := forall l0 l1,
  let char l := SSeparation.det3 (SSeparation.pencil l (MSeparation.diag3 (ell_of s)) (MSeparation.pull3 (ell_of s) (ell_of o))) in
  l0 < l1 -> l1 < 0 -> char l0 = 0 -> char l1 = 0 -> 1 / 1000000 < l1 - l0.

(** The points of a robot whose base is placed at (x, y) with heading th; a body added with its own
    pose moves along. *)
Definition robot_points2 (base : sellipse) (ls : list sellipse) (x y th : R) (p : v2) : Prop :=
  exists b l, p = move2 (turning th, V2 x y) l /\ in2 b l /\
    (b = Body2 (nth 0 (se_axes base) 0) (nth 1 (se_axes base) 0) (se_eps base) (V2 0 0) 0 \/ exists l0, In l0 ls /\ b = body_of2 l0).
(** The same in space; link k is also moved by the k-th transform of the kinematic chain. *)
Definition robot_points3 (base : squad) (ls : list squad) (g : tf3) (kdl : nat -> option tf3) (p : v3) : Prop :=
  (exists l, p = move3 g l /\
     in3 (Body3 (nth 0 (sq_axes base) 0) (nth 1 (sq_axes base) 0) (nth 2 (sq_axes base) 0) (nth 0 (sq_eps base) 0) (nth 1 (sq_eps base) 0)
            (V3r 0 0 0) (Q 1 0 0 0)) l) \/
  (exists k l0 l, nth_error ls k = Some l0 /\ in3 (body_of3 l0) l /\
     p = move3 g (match kdl k with Some h => move3 h l | None => l end)).
(** No point of the robot is in an obstacle. *)
Definition robot_clear2 (base : sellipse) (ls obs : list sellipse) (x y th : R) : Prop :=
  forall o p, In o obs -> robot_points2 base ls x y th p -> ~ in2 (body_of2 o) p.
Definition robot_clear3 (base : squad) (ls obs : list squad) (g : tf3) (kdl : nat -> option tf3) : Prop :=
  forall o p, In o obs -> robot_points3 base ls g kdl p -> ~ in3 (body_of3 o) p.

(** The collision objects after n calls of setup. *)
Fixpoint setups2 (cgal : triangulation) (m : mb2) (obs : list sellipse) (n : nat) : outcome (list geom * list geom) :=
  match n with O => Ok ([], []) | S k => obind (setups2 cgal m obs k) (collision_objects2 cgal m obs) end.
Fixpoint setups3 (cgal : triangulation) (m : mb3) (obs : list squad) (n : nat) : outcome (list geom * list geom) :=
  match n with O => Ok ([], []) | S k => obind (setups3 cgal m obs k) (collision_objects3 cgal m obs) end.

(** ---- planar bodies against meshes ---- *)
(** The flat solid that stands for an elliptic body in the planar check: semi-axis
    0.1 in height, centred at height 0.1. *)
Definition plate (b : body2) (q : v2) (z : R) : Prop :=
  along b q / ba b * (along b q / ba b) + across b q / bb b * (across b q / bb b) + (z - 1 / 10) / (1 / 10) * ((z - 1 / 10) / (1 / 10)) <= 1.
Definition robot_plate (base : sellipse) (ls : list sellipse) (x y th : R) (p : v3) : Prop :=
  exists b l, V2 (x3 p) (y3 p) = move2 (turning th, V2 x y) l /\ plate b l (z3 p) /\
    (b = Body2 (nth 0 (se_axes base) 0) (nth 1 (se_axes base) 0) (se_eps base) (V2 0 0) 0 \/ exists l0, In l0 ls /\ b = body_of2 l0).
(** The 10 x 10 samples that stand for an obstacle with another exponent: points of the superquadric
    with the obstacle's semi-axes and 0.1, and exponents (eps, 0.1), at the obstacle's pose. *)
Definition surface_sample (o : sellipse) (p : v3) : Prop :=
  exists i j, (i < 10)%nat /\ (j < 10)%nat /\
    let et := evenly 10 (cHALF_PI + cEPSILON) i in let om := evenly 10 (cPI + cEPSILON) j in
    along (body_of2 o) (V2 (x3 p) (y3 p)) = nth 0 (se_axes o) 0 * (spw (cos et) (se_eps o) * spw (cos om) (1 / 10)) /\
    across (body_of2 o) (V2 (x3 p) (y3 p)) = nth 1 (se_axes o) 0 * (spw (cos et) (se_eps o) * spw (sin om) (1 / 10)) /\
    z3 p = 1 / 10 + 1 / 10 * spw (sin et) (se_eps o).
(** An obstacle with two semi-axes, a positive exponent and a position. *)
Definition planar_obstacle (o : sellipse) : Prop :=
  0 < se_eps o /\ exists a b x y, se_axes o = [a; b] /\ 0 < a /\ 0 < b /\ se_pos o = [x; y].
