(** C41 and C72 (which boundary points are sampled), C73 (the sampled boundary of the forbidden
    centres is inscribed): src/geometry/SuperEllipse.cpp, SuperQuadrics.cpp. *)
From Coq Require Import List Reals ZArith Arith Bool Lia Lra.
From Verif.Base Require Import Outcome.
From Verif.Model Require Import MGeom.
From Verif.Spec Require Import SGeom SRigid.
From Verif.Proofs Require Import PGeom PGeom2 PGeom3 PGeomX PInscribed PShape.
Import ListNotations.
Local Open Scope R_scope.

(** C41: which points: the i-th planar sample is the one at the angle 2 i 3.1415926 / (num - 1). *)
Theorem C41_planar_samples : forall a b e px py t num, 0 < e -> (2 <= num)%nat ->
  let s := SE [a; b] e [px; py] t num in
  exists pts, origin2 s = Ok pts /\ length pts = num /\
    forall i, (i < num)%nat -> exists p, nth_error pts i = Some (Some p) /\
      let th := 2 * INR i * (31415926 / 10000000) / (INR num - 1) in
      along (body_of2 s) p = a * spw (cos th) e /\ across (body_of2 s) p = b * spw (sin th) e.
Proof. exact planar_samples. Qed.
Print Assumptions C41_planar_samples.
(** Sample i * num + j of a superquadric is the one at the i-th of num equally spaced latitudes and
    the j-th of num equally spaced longitudes, both ranges extended by 10^-6 at each end. *)
Theorem C41_spatial_samples : forall a b c e1 e2 px py pz q num, 0 < e1 -> 0 < e2 -> unit_quat q -> (2 <= num)%nat ->
  let s := SQ [a; b; c] [e1; e2] [px; py; pz] q num in
  exists pts, origin3 s = Ok pts /\ length pts = (num * num)%nat /\
    forall i j, (i < num)%nat -> (j < num)%nat ->
      let et := evenly num (31415926 / 10000000 / 2 + 1 / 1000000) i in
      let om := evenly num (31415926 / 10000000 + 1 / 1000000) j in
      nth_error pts (i * num + j) = Some (Some (placed (body_of3 s)
        (V3r (a * (spw (cos et) e1 * spw (cos om) e2)) (b * (spw (cos et) e1 * spw (sin om) e2)) (c * spw (sin et) e1)))).
Proof. exact spatial_samples. Qed.
Print Assumptions C41_spatial_samples.
Example C41_samples_hyp : unit_quat (Q (3 / 5) 0 (4 / 5) 0) /\ (2 <= 10)%nat.
Proof. unfold unit_quat. cbn. split; [lra|lia]. Qed.

(** C72: in space the range of angles is more than a whole turn, so the ends overlap. *)
Theorem C72_spatial_ranges_overlap : forall num, (2 <= num)%nat ->
  evenly num (31415926 / 10000000 / 2 + 1 / 1000000) 0 < - (PI / 2) /\ PI / 2 < evenly num (31415926 / 10000000 / 2 + 1 / 1000000) (num - 1) /\
  evenly num (31415926 / 10000000 + 1 / 1000000) 0 < - PI /\ PI < evenly num (31415926 / 10000000 + 1 / 1000000) (num - 1).
Proof. exact ranges_overlap. Qed.
Print Assumptions C72_spatial_ranges_overlap.

(** C73: the returned centres are contact poses, and a centre strictly between two (or, in space,
    inside a triangle of three) of them is a collision: the polygon or mesh through the returned
    points lies inside the region of forbidden centres. *)
Theorem C73_planar_edges_collide : forall a e px py t num A B e2 pos2 t2 num2, 0 < a -> 0 < e < 2 -> 0 < A -> 0 < B -> (2 <= num)%nat ->
  let O := SE [a; a] e [px; py] t num in
  exists pts surf, mink2 O (SE [A; B] e2 pos2 t2 num2) 1 = Ok pts /\ origin2 O = Ok surf /\
    forall i j p1 p2 w, nth_error pts i = Some (Some p1) -> nth_error pts j = Some (Some p2) -> nth_error surf i <> nth_error surf j -> 0 < w < 1 ->
      overlap2 (body_of2 O) (ellipse_at A B t2 (on_way2 w p1 p2)).
Proof. exact planar_edges_collide. Qed.
Print Assumptions C73_planar_edges_collide.
(** The samples are all different, so this is about every edge of the polygon. *)
Theorem C73_planar_samples_differ : forall a b e px py t num, 0 < a -> 0 < b -> 0 < e -> (2 <= num)%nat ->
  exists surf, origin2 (SE [a; b] e [px; py] t num) = Ok surf /\ length surf = num /\
    forall i j, (i < num)%nat -> (j < num)%nat -> i <> j -> nth_error surf i <> nth_error surf j.
Proof. exact planar_samples_differ. Qed.
Print Assumptions C73_planar_samples_differ.
Theorem C73_spatial_triangles_collide : forall a b c e1 e2 px py pz q num A B C pos2 q2 num2,
  let O := SQ [a; b; c] [e1; e2] [px; py; pz] q num in
  convex3 (body_of3 O) -> 0 < A -> 0 < B -> 0 < C -> unit_quat q2 ->
  exists pts surf, mink3 O (SQ [A; B; C] [1; 1] pos2 q2 num2) 1 = Ok pts /\ origin3 O = Ok surf /\
    forall i j k p1 p2 p3 w1 w2 w3, nth_error pts i = Some (Some p1) -> nth_error pts j = Some (Some p2) -> nth_error pts k = Some (Some p3) ->
      nth_error surf i <> nth_error surf j -> 0 < w1 -> 0 < w2 -> 0 <= w3 -> w1 + w2 + w3 = 1 ->
      overlap3 (body_of3 O) (ellipsoid_at A B C q2 (in_triangle w1 w2 w3 p1 p2 p3)).
Proof. exact spatial_triangles_collide. Qed.
Print Assumptions C73_spatial_triangles_collide.
Example C73_hyp : convex3 (body_of3 (SQ [3; 2; 1] [1 / 2; 3 / 2] [1; 2; 3] (Q (3 / 5) 0 (4 / 5) 0) 7)) /\ unit_quat (Q 0 0 (3 / 5) (4 / 5)).
Proof. unfold convex3, proper3, body_of3, unit_quat. cbn. lra. Qed.
