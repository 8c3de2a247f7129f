(** Specification vocabulary: convex solids bounded by a triangle mesh, in real 3-space. *)
From Coq Require Import List Reals.
From Verif.Spec Require Import SLine2D SLine3D SMotion SCover.
Import ListNotations.
Local Open Scope R_scope.

(** Which side of the plane of the triangle: the sign of the scalar product with the normal. *)
Definition side (abc : rvec * rvec * rvec) (p : rvec) : R :=
  let '(a, b, c) := abc in rdot (rcross (rsub b a) (rsub c a)) (rsub p a).
(** On the side of the triangle's plane, plane included, on which the vertices are (whichever
    way round the corners are listed). *)
Definition behind (vs : list rvec) (abc : rvec * rvec * rvec) (p : rvec) : Prop :=
  ((forall w, In w vs -> side abc w <= 0) -> side abc p <= 0) /\
  ((forall w, In w vs -> 0 <= side abc w) -> 0 <= side abc p).
(** The solid: behind every face. *)
Definition solid (vs : list rvec) (fs : list (nat * nat * nat)) (p : rvec) : Prop :=
  forall f abc, In f fs -> face_corners vs f abc -> behind vs abc p.
(** Its interior: and on none of the faces' planes. *)
Definition inside (vs : list rvec) (fs : list (nat * nat * nat)) (p : rvec) : Prop :=
  solid vs fs p /\ forall f abc, In f fs -> face_corners vs f abc -> side abc p <> 0.
(** In the triangle, edges included; in it, edges excluded. *)
Definition in_face (abc : rvec * rvec * rvec) (p : rvec) : Prop :=
  let '(a, b, c) := abc in in_triangle 0 a (rsub b a) (rsub c a) p.
Definition in_face_interior (abc : rvec * rvec * rvec) (p : rvec) : Prop :=
  let '(a, b, c) := abc in
  exists s t, p = radd a (radd (rscale s (rsub b a)) (rscale t (rsub c a))) /\ 0 < s /\ 0 < t /\ s + t < 1.

(** The faces are the surface of a bounded convex solid. *)
Record convex_surface (vs : list rvec) (fs : list (nat * nat * nat)) : Prop := {
  cs_faces : Forall (face_ok (length vs)) fs;
  (* all vertices are on one side of each face's plane, not all of them on it *)
  cs_convex : forall f abc, In f fs -> face_corners vs f abc ->
    (forall w, In w vs -> side abc w <= 0) \/ (forall w, In w vs -> 0 <= side abc w);
  cs_thick : forall f abc, In f fs -> face_corners vs f abc -> exists w, In w vs /\ side abc w <> 0;
  (* the faces leave no holes ... *)
  cs_closed : forall p f abc, solid vs fs p -> In f fs -> face_corners vs f abc -> side abc p = 0 ->
    exists g abc', In g fs /\ face_corners vs g abc' /\ in_face abc' p;
  (* ... and do not overlap *)
  cs_disjoint : ForallOrdPairs (fun f g => forall abc abc' p, face_corners vs f abc -> face_corners vs g abc' ->
    in_face_interior abc p -> ~ in_face_interior abc' p) fs;
  cs_bounded : exists M, forall p, solid vs fs p -> Rabs (rx p) <= M /\ Rabs (ry p) <= M /\ Rabs (rz p) <= M
}.
(** The line keeps away from edges (by the tolerance of the intersection test) and crosses the
    faces it meets. *)
Definition in_general_position (vs : list rvec) (fs : list (nat * nat * nat)) (o d : rvec) : Prop :=
  forall f a b c p, In f fs -> face_corners vs f (a, b, c) -> on_line o d p -> in_triangle tol a (rsub b a) (rsub c a) p ->
    crosses_plane d (rsub b a) (rsub c a) /\ in_face_interior (a, b, c) p.
(** The point at parameter [t] of the line. *)
Definition line_at (o d : rvec) (t : R) : rvec := radd o (rscale t d).

(** No coordinate of the direction is tiny but not zero (smaller than 1e-6: the code takes
    such a coordinate for zero). *)
Definition all_not_tiny (d : rvec) : Prop := not_tiny (rx d) /\ not_tiny (ry d) /\ not_tiny (rz d).
(** The mesh is the surface of a convex solid, and the vertical line through [p] is in general
    position to it. *)
Definition generic_up (p : rvec) (m : rmesh) : Prop :=
  convex_surface (fst m) (snd m) /\ in_general_position (fst m) (snd m) p (RV 0 0 1).
(** The same for the line through [t1] and [t2]. *)
Definition generic_line (t1 t2 : rvec) (m : rmesh) : Prop :=
  convex_surface (fst m) (snd m) /\ in_general_position (fst m) (snd m) t1 (direction t1 t2).
(** The point at fraction [k] of the segment. *)
Definition between (t1 t2 : rvec) (k : R) : rvec := radd t1 (rscale k (rsub t2 t1)).

(** -- the plane -- *)
(** A convex polygon with an interior, walked counter-clockwise. *)
Definition convex_polygon (P : list rpoint) : Prop := P <> [] /\ convex_ccw P /\ exists c, strictly_inside P c.
