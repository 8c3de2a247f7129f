(** C16-C17: spatial intersection (src/geometry/LineIntersection.cpp). *)
From Coq Require Import List Bool Reals Lra Lia ZArith Arith.
From Verif.Base Require Import Outcome Float64 FloatFacts.
From Verif.Model Require Import MScalar MLine2D MLine3D.
From Verif.Spec Require Import SLine3D.
From Verif.Proofs Require Import PLine2D PLine3D PLine3DW.
Import ListNotations.
Local Open Scope R_scope.

(** C16: in exact arithmetic a hit is reported exactly for the point common to the
    line and the (1e-12 enlarged) triangle, provided the triangle is not
    degenerate and the line not parallel to it. *)
Theorem C16_hit_iff : forall (o d t0 u v : rvec) (q : vec3 XR),
  line_triangle XR (lift_line o d) (lift3 t0) (lift3 u) (lift3 v) = Some q <->
  exists p, q = lift3 p /\ crosses_plane d u v /\ on_line o d p /\ in_triangle tol t0 u v p.
Proof. exact line_triangle_XR. Qed.
Print Assumptions C16_hit_iff.

Theorem C16_rejects_degenerate : forall (o d t0 u v : rvec),
  rcross u v = RV 0 0 0 \/ rdot (rcross u v) d = 0 ->
  line_triangle XR (lift_line o d) (lift3 t0) (lift3 u) (lift3 v) = None.
Proof.
  intros o d t0 u v H. destruct (line_triangle _ _ _ _ _) as [q|] eqn:E; [|reflexivity]. exfalso.
  apply line_triangle_XR in E. destruct E as (p & _ & [C1 C2] & _). pose proof tol_pos.
  destruct H as [H|H].
  - rewrite H in C1. unfold rnorm, rdot in C1; simpl in C1.
    replace (0 * 0 + 0 * 0 + 0 * 0) with 0 in C1 by ring. rewrite sqrt_0 in C1. lra.
  - rewrite H, Rabs_R0 in C2. assert (0 < tol * rnorm (rcross u v)) by (apply Rmult_lt_0_compat; lra). lra.
Qed.
Print Assumptions C16_rejects_degenerate.

(** In binary64 the soundness fails for thin triangles: the Gram determinant
    rounds to zero, the barycentric coordinates are NaN, no test rejects them and
    a hit 99 length units away from the triangle is reported. *)
Theorem C16_thin_triangle_refuted :
  line_triangle F64 far_line (fv 0 0 0) (fv 1 0 0) sliver_v = Some (fv 100 0 0).
Proof. exact sliver_hit. Qed.
Print Assumptions C16_thin_triangle_refuted.

Example C16_hyp : crosses_plane (RV 0 0 1) (RV 1 0 0) (RV 0 1 0) /\ on_line (RV 0 0 5) (RV 0 0 1) (RV 0 0 0) /\
  in_triangle tol (RV 0 0 0) (RV 1 0 0) (RV 0 1 0) (RV 0 0 0).
Proof.
  assert (E : rcross (RV 1 0 0) (RV 0 1 0) = RV 0 0 1) by (unfold rcross; simpl; f_equal; ring).
  assert (N : rnorm (RV 0 0 1) = 1).
  { unfold rnorm, rdot; simpl. replace (0 * 0 + 0 * 0 + 1 * 1) with 1 by ring. apply sqrt_1. }
  split; [|split].
  - unfold crosses_plane. rewrite E, N. split; [lra|]. unfold rdot; simpl.
    replace (0 * 0 + 0 * 0 + 1 * 1) with 1 by ring. rewrite Rabs_R1. pose proof tol_lt1. lra.
  - exists (-5). unfold radd, rscale; simpl. f_equal; ring.
  - exists 0, 0. pose proof tol_pos. split; [unfold radd, rscale; simpl; f_equal; ring|lra].
Qed.

(** C17: the hits of the first (at most two) hit faces in face order. *)
Theorem C17_line_first_two : forall (o d : rvec) (vs : list rvec) (fs : list (nat * nat * nat)),
  vs <> [] -> Forall (face_ok (length vs)) fs ->
  exists r, line_mesh XR (lift_line o d) (lift_mesh vs fs) = Ok r /\
   ((r = [] /\ ((Rabs (rx d) < / 10 ^ 6 /\ one_sided rx o vs) \/ (Rabs (ry d) < / 10 ^ 6 /\ one_sided ry o vs) \/
                (Rabs (rz d) < / 10 ^ 6 /\ one_sided rz o vs))) \/
    exists ps, pick (good_face vs o d) fs ps /\ r = map lift3 (firstn 2 ps)).
Proof. exact line_mesh_XR. Qed.
Print Assumptions C17_line_first_two.

(** Vertical lines: the bounding-box filters never lose an exact hit. *)
Theorem C17_vertical_first_two : forall (o : rvec) (vs : list rvec) (fs : list (nat * nat * nat)),
  vs <> [] -> Forall (face_ok (length vs)) fs ->
  exists r ps, vertical_line_mesh XR (lift_line o (RV 0 0 1)) (lift_mesh vs fs) = Ok r /\
    r = map lift3 (firstn 2 ps) /\
    exists hit, pick hit fs ps /\
      (forall f p, In f fs -> hit f p -> good_face vs o (RV 0 0 1) f p) /\
      (forall f p abc, In f fs -> face_corners vs f abc -> triangle_hit 0 o (RV 0 0 1) abc p -> hit f p).
Proof.
  intros o vs fs Hne F. destruct (vertical_line_mesh_XR o vs fs Hne F) as (r & E & [[-> H]|(ps & Hp & ->)]).
  - exists [], []. split; [exact E|]. split; [reflexivity|]. exists (fun _ _ => False). split.
    { clear. induction fs; [constructor|]. apply pick_miss; auto. }
    split; [tauto|]. intros f p abc _ Hc Ht. destruct (bbox_not_one_sided o vs f abc Hc (exact_hit_bbox _ _ _ Ht)) as [N1 N2].
    unfold one_sided in *. tauto.
  - exists (map lift3 (firstn 2 ps)), ps. split; [exact E|]. split; [reflexivity|]. eexists. split; [exact Hp|].
    split.
    + intros f p _ (abc & Hc & _ & Ht). exists abc. auto.
    + intros f p abc _ Hc Ht. exists abc. split; auto. split; [eapply exact_hit_bbox; eauto|].
      destruct abc as [[a b] c]. destruct Ht as (C & L & (s & t & Es & B)). split; auto. split; auto.
      exists s, t. pose proof tol_pos. split; [exact Es|lra].
Qed.
Print Assumptions C17_vertical_first_two.

Theorem C17_at_most_two : forall S (l : line3 S) (m : mesh S) r,
  (line_mesh S l m = Ok r \/ vertical_line_mesh S l m = Ok r) -> (length r <= 2)%nat.
Proof. exact mesh_at_most_two. Qed.
Print Assumptions C17_at_most_two.

(** A face index outside the vertex list is undefined behaviour. *)
Theorem C17_bad_face_undefined : forall (o d : rvec) (vs : list rvec) f fs,
  vs <> [] -> ~ face_ok (length vs) f ->
  line_mesh XR (lift_line o d) (lift_mesh vs (f :: fs)) = Ok [] \/
  line_mesh XR (lift_line o d) (lift_mesh vs (f :: fs)) = UB.
Proof. exact bad_face_UB. Qed.
Print Assumptions C17_bad_face_undefined.

(** The two hits need not be the entry and exit points: at a shared vertex the
    first two faces give the same point and the exit point is lost. *)
Theorem C17_shared_vertex_refuted :
  vertical_line_mesh F64 z_axis octa = Ok [fv 0 0 1; fv 0 0 1] /\
  face_hit F64 z_axis (fv 0 0 (-1), fv 1 0 0, fv 0 1 0) = Some (fv 0 0 (-1)).
Proof. exact (conj octa_hits octa_bottom). Qed.
Print Assumptions C17_shared_vertex_refuted.

(** The range filter of the general test uses the line's origin: a slightly
    tilted line loses a hit. *)
Theorem C17_tilted_line_refuted : line_mesh F64 tilted plate = Ok [] /\
  exists abc, face_pts F64 plate (0,1,2)%nat = Ok abc /\ face_hit F64 tilted abc = Some (fv 0 0 10000000).
Proof. exact tilted_lost. Qed.
Print Assumptions C17_tilted_line_refuted.

Example C17_hyp : [RV 0 0 0; RV 1 0 0; RV 0 1 0] <> [] /\
  Forall (face_ok (length [RV 0 0 0; RV 1 0 0; RV 0 1 0])) [(0,1,2)%nat].
Proof. split; [discriminate|]. constructor; [simpl; lia|constructor]. Qed.
