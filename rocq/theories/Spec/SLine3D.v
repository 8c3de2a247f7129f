(** Specification vocabulary for line / triangle / mesh intersection in real
    3-space. *)
From Coq Require Import List Reals ZArith.
From Verif.Model Require Import MScalar MLine3D.
Import ListNotations.
Local Open Scope R_scope.

Record rvec : Type := RV { rx : R; ry : R; rz : R }.
Definition lift3 (p : rvec) : vec3 XR := @V3 XR (Some (rx p)) (Some (ry p)) (Some (rz p)).
Definition radd (a b : rvec) : rvec := RV (rx a + rx b) (ry a + ry b) (rz a + rz b).
Definition rsub (a b : rvec) : rvec := RV (rx a - rx b) (ry a - ry b) (rz a - rz b).
Definition rscale (k : R) (a : rvec) : rvec := RV (k * rx a) (k * ry a) (k * rz a).
Definition rdot (a b : rvec) : R := rx a * rx b + ry a * ry b + rz a * rz b.
Definition rcross (a b : rvec) : rvec :=
  RV (ry a * rz b - rz a * ry b) (rz a * rx b - rx a * rz b) (rx a * ry b - ry a * rx b).
Definition rnorm (a : rvec) : R := sqrt (rdot a a).

Definition tol : R := / 10 ^ 12.

(** [p] is on the line through [o] with direction [d]. *)
Definition on_line (o d p : rvec) : Prop := exists k, p = radd o (rscale k d).
(** [p] is in the triangle t0, t0+u, t0+v enlarged by [e] in each barycentric
    coordinate ([e = 0]: the closed triangle). *)
Definition in_triangle (e : R) (t0 u v p : rvec) : Prop :=
  exists s t, p = radd t0 (radd (rscale s u) (rscale t v)) /\ - e <= s /\ - e <= t /\ s <= 1 + e /\ s + t <= 1 + e.
(** The line is not (nearly) parallel to the plane of the non-degenerate triangle:
    the sine of the angle times |d| exceeds the tolerance. *)
Definition crosses_plane (d u v : rvec) : Prop :=
  rnorm (rcross u v) > 0 /\ Rabs (rdot (rcross u v) d) > tol * rnorm (rcross u v).

Definition lift_line (o d : rvec) : line3 XR := @L3 XR (lift3 o) (lift3 d).
Definition lift_mesh (vs : list rvec) (fs : list (nat * nat * nat)) : mesh XR :=
  @Mesh XR (map lift3 vs) fs.

(** The triangle (a, b, c) is hit by the line at p. *)
Definition triangle_hit (e : R) (o d : rvec) (abc : rvec * rvec * rvec) (p : rvec) : Prop :=
  let '(a, b, c) := abc in
  crosses_plane d (rsub b a) (rsub c a) /\ on_line o d p /\ in_triangle e a (rsub b a) (rsub c a) p.
(** The corners of a face. *)
Definition face_corners (vs : list rvec) (f : nat * nat * nat) (abc : rvec * rvec * rvec) : Prop :=
  let '(i, j, k) := f in let '(a, b, c) := abc in
  nth_error vs i = Some a /\ nth_error vs j = Some b /\ nth_error vs k = Some c.

(** [pick good fs out]: walk through [fs] in order, keeping a point for each face
    that has one ([good f p]) and nothing for a face that has none. *)
Inductive pick {F P : Type} (good : F -> P -> Prop) : list F -> list P -> Prop :=
| pick_nil : pick good [] []
| pick_hit f p fs ps : good f p -> pick good fs ps -> pick good (f :: fs) (p :: ps)
| pick_miss f fs ps : (forall p, ~ good f p) -> pick good fs ps -> pick good (f :: fs) ps.

(** The indices of a face are vertices. *)
Definition face_ok (n : nat) (f : nat * nat * nat) : Prop :=
  let '(i, j, k) := f in (i < n)%nat /\ (j < n)%nat /\ (k < n)%nat.

(** Face [f] is hit at [p] (with the tolerance). *)
Definition good_face (vs : list rvec) (o d : rvec) (f : nat * nat * nat) (p : rvec) : Prop :=
  exists abc, face_corners vs f abc /\ triangle_hit tol o d abc p.

(** The vertical line at (x,y) of [o] passes the xy bounding box of the triangle. *)
Definition bbox_ok (o : rvec) (abc : rvec * rvec * rvec) : Prop :=
  let '(a, b, c) := abc in
  Rmin (rx a) (Rmin (rx b) (rx c)) <= rx o <= Rmax (rx a) (Rmax (rx b) (rx c)) /\
  Rmin (ry a) (Rmin (ry b) (ry c)) <= ry o <= Rmax (ry a) (Rmax (ry b) (ry c)).

(** All mesh vertices strictly on one side of the line's origin in a coordinate. *)
Definition one_sided (g : rvec -> R) (o : rvec) (vs : list rvec) : Prop :=
  (forall p, In p vs -> g p < g o) \/ (forall p, In p vs -> g o < g p).

