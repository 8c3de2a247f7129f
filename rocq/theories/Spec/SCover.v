(** Specification vocabulary for "the boundary polygon blocks what is inside it": half planes,
    interiors and hulls in the real plane, and the reading of a sampled boundary as a polygon. *)
From Coq Require Import List Reals.
From Verif.Model Require Import MScalar MLine2D MGeom.
From Verif.Spec Require Import SLine2D SGeom.
Import ListNotations.
Local Open Scope R_scope.

(** Twice the signed area of the triangle a b p: positive iff p is strictly to the left of the
    line from a to b. *)
Definition turn_of (a b p : rpoint) : R :=
  (fst b - fst a) * (snd p - snd a) - (snd b - snd a) * (fst p - fst a).
(** [p] is strictly to the left of every edge of the closed polygon, walked in order. *)
Definition strictly_inside (P : list rpoint) (p : rpoint) : Prop :=
  forall a b, is_edge P a b -> 0 < turn_of a b p.
(** [p] is to the left of every edge or on its line. *)
Definition inside_or_on (P : list rpoint) (p : rpoint) : Prop :=
  forall a b, is_edge P a b -> 0 <= turn_of a b p.
(** Some edge has [p] strictly on its right. *)
Definition strictly_outside (P : list rpoint) (p : rpoint) : Prop :=
  exists a b, is_edge P a b /\ turn_of a b p < 0.
(** A convex polygon walked counter-clockwise: no vertex is to the right of an edge. *)
Definition convex_ccw (P : list rpoint) : Prop :=
  forall a b v, is_edge P a b -> In v P -> 0 <= turn_of a b v.
(** [v] is not on the line through [p] and [q]. *)
Definition off_line (p q v : rpoint) : Prop := turn_of p q v <> 0.

(** [x] lies strictly between [u] and [v] (in either order). *)
Definition strictly_between (u v x : R) : Prop := (u < x /\ x < v) \/ (v < x /\ x < u).
Definition weakly_between (u v x : R) : Prop := (u <= x /\ x <= v) \/ (v <= x /\ x <= u).

(** A list of sampled boundary points (what getMinkSum2D returns) read as a polygon in the
    exact-arithmetic scalars. *)
Definition sampled_polygon (bd : list (option v2)) : list (car XR * car XR) :=
  map (fun o => match o with Some p => (Some (x2 p), Some (y2 p)) | None => (None, None) end) bd.
(** Distance of two points of the plane. *)
Definition dist2 (p q : v2) : R := sqrt ((x2 p - x2 q) * (x2 p - x2 q) + (y2 p - y2 q) * (y2 p - y2 q)).
(** The two bodies have a common point (touching included). *)
Definition meet2 (A B : body2) : Prop := exists p, in2 A p /\ in2 B p.
Definition meet3 (A B : body3) : Prop := exists p, in3 A p /\ in3 B p.
