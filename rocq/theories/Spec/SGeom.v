(** Specification vocabulary for superellipses, superquadrics and contact: sets of points of
    the plane and of space.  Only the records of vectors and quaternions are shared with the
    model. *)
From Coq Require Import Reals.
From Verif.Model Require Import MGeom.
Local Open Scope R_scope.

(** |x|^p, with 0^p = 0 (used for p > 0). *)
Definition ppow (x p : R) : R := if Req_EM_T x 0 then 0 else Rpower (Rabs x) p.

(** |x|^p with the sign of x. *)
Definition spw (x p : R) : R := if Rlt_dec x 0 then - ppow x p else ppow x p.
(** The k-th of n equally spaced numbers from -h to h. *)
Definition evenly (n : nat) (h : R) (k : nat) : R := - h + INR k * (2 * h / (INR n - 1)).

(** ---- the plane ---- *)
(** A superellipse: semi-axes, exponent, centre, heading. *)
Record body2 : Type := Body2 { ba : R; bb : R; be : R; bc : v2; bt : R }.
(** Coordinates of a point along the two axes of the body. *)
Definition along (b : body2) (p : v2) : R := cos (bt b) * (x2 p - x2 (bc b)) + sin (bt b) * (y2 p - y2 (bc b)).
Definition across (b : body2) (p : v2) : R := - sin (bt b) * (x2 p - x2 (bc b)) + cos (bt b) * (y2 p - y2 (bc b)).
(** |x/a|^(2/eps) + |y/b|^(2/eps). *)
Definition level2 (b : body2) (p : v2) : R := ppow (along b p / ba b) (2 / be b) + ppow (across b p / bb b) (2 / be b).
Definition inside2 (b : body2) (p : v2) : Prop := level2 b p < 1.
Definition in2 (b : body2) (p : v2) : Prop := level2 b p <= 1.
Definition on2 (b : body2) (p : v2) : Prop := level2 b p = 1.
(** Semi-axes and exponent positive; strictly convex range of exponents. *)
Definition proper2 (b : body2) : Prop := 0 < ba b /\ 0 < bb b /\ 0 < be b.
Definition convex2 (b : body2) : Prop := proper2 b /\ be b < 2.
(** An ellipse with given centre. *)
Definition ellipse_at (a b t : R) (c : v2) : body2 := Body2 a b 1 c t.
Definition moved2 (b : body2) (c : v2) : body2 := Body2 (ba b) (bb b) (be b) c (bt b).
Definition dotp2 (u v : v2) : R := x2 u * x2 v + y2 u * y2 v.
(** The bodies share the point [y] of both boundaries, and a line through [y] has one of them
    on each side. *)
Definition contact2 (A B : body2) (y : v2) : Prop :=
  on2 A y /\ on2 B y /\
  exists n : v2, (x2 n <> 0 \/ y2 n <> 0) /\
    (forall p, in2 A p -> dotp2 n (sub2 p y) <= 0) /\ (forall p, in2 B p -> 0 <= dotp2 n (sub2 p y)).
Definition overlap2 (A B : body2) : Prop := exists p, inside2 A p /\ inside2 B p.
(** The same, with both bodies on the same side (inner contact). *)
Definition inner_contact2 (A B : body2) (y : v2) : Prop :=
  on2 A y /\ on2 B y /\
  exists n : v2, (x2 n <> 0 \/ y2 n <> 0) /\
    (forall p, in2 A p -> dotp2 n (sub2 p y) <= 0) /\ (forall p, in2 B p -> dotp2 n (sub2 p y) <= 0).

(** The point at weight w of the way from u to v. *)
Definition on_way2 (w : R) (u v : v2) : v2 := V2 ((1 - w) * x2 u + w * x2 v) ((1 - w) * y2 u + w * y2 v).

(** ---- space ---- *)
Definition hmul (p q : quat) : quat :=
  Q (qw p * qw q - qx p * qx q - qy p * qy q - qz p * qz q)
    (qw p * qx q + qx p * qw q + qy p * qz q - qz p * qy q)
    (qw p * qy q - qx p * qz q + qy p * qw q + qz p * qx q)
    (qw p * qz q + qx p * qy q - qy p * qx q + qz p * qw q).
Definition hconj (q : quat) : quat := Q (qw q) (- qx q) (- qy q) (- qz q).
Definition unit_quat (q : quat) : Prop := qw q * qw q + qx q * qx q + qy q * qy q + qz q * qz q = 1.
(** The vector v turned by q: the vector part of q v q*. *)
Definition turn (q : quat) (v : v3) : v3 :=
  let r := hmul (hmul q (Q 0 (x3 v) (y3 v) (z3 v))) (hconj q) in V3r (qx r) (qy r) (qz r).

(** A superquadric: semi-axes, exponents (of the meridian, of the equator), centre,
    orientation. *)
Record body3 : Type := Body3 { sa : R; sb : R; sc : R; s1 : R; s2 : R; sctr : v3; sq : quat }.
Definition shape3 (b : body3) (l : v3) : R :=
  ppow (ppow (x3 l / sa b) (2 / s2 b) + ppow (y3 l / sb b) (2 / s2 b)) (s2 b / s1 b) + ppow (z3 l / sc b) (2 / s1 b).
Definition placed (b : body3) (l : v3) : v3 := add3 (sctr b) (turn (sq b) l).
Definition inside3 (b : body3) (p : v3) : Prop := exists l, p = placed b l /\ shape3 b l < 1.
Definition in3 (b : body3) (p : v3) : Prop := exists l, p = placed b l /\ shape3 b l <= 1.
Definition on3 (b : body3) (p : v3) : Prop := exists l, p = placed b l /\ shape3 b l = 1.
Definition proper3 (b : body3) : Prop :=
  0 < sa b /\ 0 < sb b /\ 0 < sc b /\ 0 < s1 b /\ 0 < s2 b /\ unit_quat (sq b).
Definition convex3 (b : body3) : Prop := proper3 b /\ s1 b < 2 /\ s2 b < 2.
Definition ellipsoid_at (a b c : R) (q : quat) (ctr : v3) : body3 := Body3 a b c 1 1 ctr q.
Definition contact3 (A B : body3) (y : v3) : Prop :=
  on3 A y /\ on3 B y /\
  exists n : v3, n <> V3r 0 0 0 /\
    (forall p, in3 A p -> dot3 n (sub3 p y) <= 0) /\ (forall p, in3 B p -> 0 <= dot3 n (sub3 p y)).
Definition overlap3 (A B : body3) : Prop := exists p, inside3 A p /\ inside3 B p.
Definition inner_contact3 (A B : body3) (y : v3) : Prop :=
  on3 A y /\ on3 B y /\
  exists n : v3, n <> V3r 0 0 0 /\
    (forall p, in3 A p -> dot3 n (sub3 p y) <= 0) /\ (forall p, in3 B p -> dot3 n (sub3 p y) <= 0).
(** The point of the triangle u v w with the given weights. *)
Definition in_triangle (a b c : R) (u v w : v3) : v3 :=
  V3r (a * x3 u + b * x3 v + c * x3 w) (a * y3 u + b * y3 v + c * y3 w) (a * z3 u + b * z3 v + c * z3 w).
