(** Model of src/util/EllipsoidSQCollisionFCL.cpp, of getMesh and getMeshFromSQ
    (src/geometry/MeshGenerator.cpp:18-103), of the state validity check of the OMPL interface
    (OMPLInterface-inl.h:167-171, OMPL2D.cpp:90-153, OMPL3D.cpp:91-158) and of the motion check of
    HRM3DAblation (HRM3DAblation-inl.h:35-106), in exact real arithmetic.

    CGAL::Triangulation_3 and fcl::collide are parameters:
    [cgal L] is (finite vertices in iteration order, finite cells by the positions of their four
    vertices in that order) of the triangulation of the points L;
    [collide g1 t1 g2 t2] is fcl::collide's answer for two geometries under two transforms. *)
From Coq Require Import List Reals Arith Bool.
From Verif.Base Require Import Outcome.
From Verif.Model Require Import MGeom MMultiBody.
From Verif.Model Require MSeparation.
Import ListNotations.
Local Open Scope outcome_scope.
Local Open Scope R_scope.

(** fcl::CollisionGeometry: fcl::Ellipsoid with its radii, or fcl::BVHModel with vertices and
    triangles.  fcl::CollisionObject is its geometry: the functions below receive the objects by
    value and set the transform before every query (lines 11-18, 31-45). *)
Inductive geom : Type :=
| GEllipsoid (a b c : R)
| GMesh (vs : list v3) (fs : list (nat * nat * nat)).
Definition triangulation : Type := list v3 -> list v3 * list (nat * nat * nat * nat).
Definition collider : Type := geom -> tf3 -> geom -> tf3 -> bool.

(** [std::fabs(e - 1.0) < 1e-6]. *)
Definition near_one (e : R) : bool := if Rlt_dec (Rabs (e - 1)) (1 / 1000000) then true else false.

(** getMesh, MeshGenerator.cpp:29-86: the points are put in front of a list, the triangulation
    is built, every cell contributes four triangles.  The assertion of line 38 and the two messages
    are left out. *)
Definition get_mesh (cgal : triangulation) (pts : list v3) : geom :=
  let '(vs, cells) := cgal (rev pts) in
  GMesh vs (flat_map (fun abcd => let '(a, b, c, d) := abcd in [(a, b, c); (a, c, d); (b, c, d); (a, b, d)]) cells).

(** A sample that is not a number makes CGAL's predicates undefined. *)
Definition numbers (l : list (option v3)) : outcome (list v3) :=
  omap (fun o => match o with Some v => Ok v | None => UB end) l.

(** getMeshFromSQ, MeshGenerator.cpp:18-27, with getBoundary3D and getBoundaryFromMatrix,
    lines 88-103. *)
Definition mesh_from_sq (cgal : triangulation) (s : squad) : outcome geom :=
  do o <- origin3 (SQ (sq_axes s) (sq_eps s) [0; 0; 0] (Q 1 0 0 0) (sq_num s));
  do pts <- numbers o;
  Ok (get_mesh cgal pts).

(** [new fcl::Ellipsoid(axis.at(0), axis.at(1), axis.at(2))]. *)
Definition obj_ellipsoid (s : squad) : outcome geom :=
  do a <- at_ (sq_axes s) 0; do b <- at_ (sq_axes s) 1; do c <- at_ (sq_axes s) 2; Ok (GEllipsoid a b c).

(** Both exponents within 1e-6 of 1; the second is read only if the first is. *)
Definition is_ellipsoid (s : squad) : outcome bool :=
  do e1 <- at_ (sq_eps s) 0;
  if near_one e1 then do e2 <- at_ (sq_eps s) 1; Ok (near_one e2) else Ok false.

(** setCollisionObjectFromSQ(SuperQuadrics), EllipsoidSQCollisionFCL.cpp:54-74. *)
Definition obj_from_sq (cgal : triangulation) (s : squad) : outcome geom :=
  do e <- is_ellipsoid s; if e then obj_ellipsoid s else mesh_from_sq cgal s.

(** setCollisionObjectFromSQ(SuperEllipse), lines 76-98: height 0.1, and for other exponents the
    superquadric with exponents {epsilon, 0.1} and 10 x 10 samples. *)
Definition obj_from_se (cgal : triangulation) (s : sellipse) : outcome geom :=
  do a <- at_ (se_axes s) 0; do b <- at_ (se_axes s) 1;
  if near_one (se_eps s) then Ok (GEllipsoid a b (1 / 10))
  else mesh_from_sq cgal (SQ [a; b; 1 / 10] [se_eps s; 1 / 10] [0; 0; 0] (Q 1 0 0 0) 10).

(** isCollision(SuperQuadrics), lines 7-25. *)
Definition is_collision3 (collide : collider) (s1 : squad) (g1 : geom) (s2 : squad) (g2 : geom) : outcome bool :=
  do x1 <- at_ (sq_pos s1) 0; do y1 <- at_ (sq_pos s1) 1; do z1 <- at_ (sq_pos s1) 2;
  do x2 <- at_ (sq_pos s2) 0; do y2 <- at_ (sq_pos s2) 1; do z2 <- at_ (sq_pos s2) 2;
  Ok (collide g1 (rotm (sq_quat s1), V3r x1 y1 z1) g2 (rotm (sq_quat s2), V3r x2 y2 z2)).

(** Eigen::Quaterniond(AngleAxis(t, (0, 0, 1))). *)
Definition about_z (t : R) : quat := Q (cos (t / 2)) (sin (t / 2) * 0) (sin (t / 2) * 0) (sin (t / 2) * 1).
(** isCollision(SuperEllipse), lines 27-52: both objects at height 0.1. *)
Definition is_collision2 (collide : collider) (s1 : sellipse) (g1 : geom) (s2 : sellipse) (g2 : geom) : outcome bool :=
  do x1 <- at_ (se_pos s1) 0; do y1 <- at_ (se_pos s1) 1;
  do x2 <- at_ (se_pos s2) 0; do y2 <- at_ (se_pos s2) 1;
  Ok (collide g1 (rotm (about_z (se_angle s1)), V3r x1 y1 (1 / 10)) g2 (rotm (about_z (se_angle s2)), V3r x2 y2 (1 / 10))).

(** [for (x : l) if (!f(x)) return false; ... return true]. *)
Fixpoint all_of {A} (f : A -> outcome bool) (l : list A) : outcome bool :=
  match l with
  | [] => Ok true
  | a :: r => do b <- f a; if b then all_of f r else Ok false
  end.

(** ---- OMPL2D ---- *)
(** The arguments of isEllipseSeparated (MSeparation models the test itself; the message for
    exponents other than 1, EllipsoidSeparation.cpp:124-126, does not stop it). *)
Definition as_ellipse (s : sellipse) : outcome MSeparation.ellipse :=
  do a <- at_ (se_axes s) 0; do b <- at_ (se_axes s) 1; do x <- at_ (se_pos s) 0; do y <- at_ (se_pos s) 1;
  Ok (MSeparation.Ell a b x y (se_angle s)).
Definition eigensolver : Type := MSeparation.mat -> nat -> list MSeparation.cplx.
Definition ellipse_separated (eig : eigensolver) (s1 s2 : sellipse) : outcome bool :=
  do e1 <- as_ellipse s1; do e2 <- as_ellipse s2; Ok (MSeparation.is_ellipse_separated eig e1 e2).

(** setCollisionObject, OMPL2D.cpp:90-101: appends to objRobot_ and objObs_. *)
Definition collision_objects2 (cgal : triangulation) (robot : mb2) (obs : list sellipse) (objs : list geom * list geom)
    : outcome (list geom * list geom) :=
  do gr <- omap (obj_from_se cgal) (mb2_base robot :: map fst (mb2_links robot));
  do go <- omap (obj_from_se cgal) obs;
  Ok (fst objs ++ gr, snd objs ++ go).

(** isSeparated, OMPL2D.cpp:120-153. *)
Definition is_separated2 (eig : eigensolver) (collide : collider) (objs : list geom * list geom) (obs : list sellipse) (robot : mb2)
    : outcome bool :=
  let links := map fst (mb2_links robot) in
  all_of (fun i =>
    do o <- at_ obs i;
    if near_one (se_eps o) then
      do s <- ellipse_separated eig (mb2_base robot) o;
      if s then all_of (fun j => do l <- at_ links j; ellipse_separated eig l o) (seq 0 (length links)) else Ok false
    else
      do g0 <- at_ (fst objs) 0; do h <- at_ (snd objs) i;
      do c <- is_collision2 collide (mb2_base robot) g0 o h;
      if c then Ok false else
      all_of (fun j => do l <- at_ links j; do g <- at_ (fst objs) (j + 1); do h <- at_ (snd objs) i;
                       do c <- is_collision2 collide l g o h; Ok (negb c)) (seq 0 (length links)))
    (seq 0 (length obs)).

(** transformRobot, OMPL2D.cpp:103-118, and isStateValid, OMPLInterface-inl.h:167-171. *)
Definition state_valid2 (eig : eigensolver) (collide : collider) (objs : list geom * list geom) (obs : list sellipse) (robot : mb2)
    (x y th : R) : outcome bool :=
  is_separated2 eig collide objs obs (robot_tf2 robot (rot2 th, V2 x y)).

(** ---- OMPL3D, OMPL3DArticulated, HRM3DAblation ---- *)
(** setCollisionObject, OMPL3D.cpp:91-118 and HRM3DAblation-inl.h:79-106: the robot's bodies are
    ellipsoids whatever their exponents. *)
Definition collision_objects3 (cgal : triangulation) (robot : mb3) (obs : list squad) (objs : list geom * list geom)
    : outcome (list geom * list geom) :=
  do gr <- omap obj_ellipsoid (mb3_base robot :: map fst (mb3_links robot));
  do go <- omap (fun s => do e <- is_ellipsoid s; if e then obj_ellipsoid s else obj_from_sq cgal s) obs;
  Ok (fst objs ++ gr, snd objs ++ go).

(** isSeparated, OMPL3D.cpp:140-158; the two inner loops of HRM3DAblation-inl.h:46-61. *)
Definition is_separated3 (collide : collider) (objs : list geom * list geom) (obs : list squad) (robot : mb3) : outcome bool :=
  let links := map fst (mb3_links robot) in
  all_of (fun i =>
    do g0 <- at_ (fst objs) 0; do o <- at_ obs i; do h <- at_ (snd objs) i;
    do c <- is_collision3 collide (mb3_base robot) g0 o h;
    if c then Ok false else
    all_of (fun j => do l <- at_ links j; do g <- at_ (fst objs) (j + 1); do o <- at_ obs i; do h <- at_ (snd objs) i;
                     do c <- is_collision3 collide l g o h; Ok (negb c)) (seq 0 (length links)))
    (seq 0 (length obs)).

(** transformRobot, OMPL3D.cpp:121-137 ([kdl] = no transforms), OMPL3DArticulated.cpp:57-80
    ([kdl] = the chain's transforms for the joint values), and isStateValid.  An orientation that is not a number: FCL's
    answer is not specified. *)
Definition state_valid3 (collide : collider) (objs : list geom * list geom) (obs : list squad) (robot : mb3)
    (p : v3) (q : quat) (kdl : nat -> option tf3) : outcome bool :=
  match robot_tf3_kdl robot (rotm q, p) kdl with
  | Some r => is_separated3 collide objs obs r
  | None => UB
  end.

(** isMultiSliceTransitionFree, HRM3DAblation-inl.h:35-65, over the interpolated poses (position,
    orientation, transforms of the chain; MInterp models the interpolation).  Every step moves the
    planner's robot. *)
Fixpoint ablation_free (collide : collider) (objs : list geom * list geom) (obs : list squad) (robot : mb3)
    (steps : list (v3 * quat * (nat -> option tf3))) : outcome bool :=
  match steps with
  | [] => Ok true
  | (p, q, kdl) :: rest =>
      match robot_tf3_kdl robot (rotm q, p) kdl with
      | Some r => do b <- is_separated3 collide objs obs r; if b then ablation_free collide objs obs r rest else Ok false
      | None => UB
      end
  end.
