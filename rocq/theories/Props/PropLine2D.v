(** C13-C15: planar intersection tests (src/geometry/LineIntersection.cpp). *)
From Coq Require Import List Bool Reals Lra Lia ZArith Arith.
From Verif.Base Require Import Outcome Float64 FloatFacts.
From Verif.Model Require Import MScalar MLine2D MInterval MFreeSpace.
From Verif.Spec Require Import SLine2D SInterval SFreeSpace.
From Verif.Proofs Require Import PInterval PFreeSpace PTables PFreeAll PLine2D PLine2DW.
Import ListNotations.
Local Open Scope R_scope.

(** C13: the returned abscissae are exactly the points at height [ty] of the
    non-horizontal closed edges; at most one per edge; an empty polygon is UB. *)
Theorem C13_hits_exact : forall (ty : R) (P : list rpoint), P <> [] ->
  exists r, hline_polygon XR (Some ty) (lift_poly P) = Ok r /\
  (forall h, In h r <-> exists x a b, h = Some x /\ is_edge P a b /\ snd a <> snd b /\ on_segment a b (x, ty)) /\
  (length r <= length P)%nat.
Proof. exact hline_polygon_XR. Qed.
Print Assumptions C13_hits_exact.

Theorem C13_outside_range_empty : forall (ty : R) (P : list rpoint), P <> [] ->
  (forall p, In p P -> snd p < ty) \/ (forall p, In p P -> ty < snd p) ->
  hline_polygon XR (Some ty) (lift_poly P) = Ok [].
Proof.
  intros ty P Hne H. destruct (hline_polygon_XR ty P Hne) as (r & E & Hr & _). rewrite E. f_equal.
  destruct r as [|h r]; [reflexivity|]. exfalso.
  destruct (proj1 (Hr h) (or_introl eq_refl)) as (x & a & b & _ & He & _ & (t & Ht & _ & Hy)).
  destruct (is_edge_in P a b He) as [Ha Hb]. cbn [snd] in Hy.
  destruct H as [H|H]; pose proof (H a Ha); pose proof (H b Hb);
    [assert (t * snd a + (1 - t) * snd b < ty) by (destruct (Req_dec t 0); [subst; lra|nra])
    |assert (ty < t * snd a + (1 - t) * snd b) by (destruct (Req_dec t 0); [subst; lra|nra])]; lra.
Qed.
Print Assumptions C13_outside_range_empty.

Theorem C13_empty_polygon_undefined : forall S ty, hline_polygon S ty [] = UB.
Proof. intros; exact eq_refl. Qed.
Print Assumptions C13_empty_polygon_undefined.

Example C13_hyp : square <> [] /\ is_edge square (2,0) (2,2) /\ on_segment (2,0) (2,2) (2,1).
Proof.
  split; [discriminate|]. split; [left; exists 1%nat; auto|]. exists (1/2). unfold along; simpl. lra.
Qed.

(** C14: with two crossings (further ones are ignored) the recorded interval is
    the chord; through a vertex it collapses. *)
Theorem C14_chord : forall h0 h1 rest, fisnan h0 = false -> fisnan h1 = false ->
  exists l u, obstacle_entry (h0 :: h1 :: rest) = Ok (l, u) /\ fisnan l = false /\ fisnan u = false /\
    forall x : R, fval l <= x <= fval u <->
      (fval h0 <= x <= fval h1 \/ fval h1 <= x <= fval h0).
Proof.
  intros h0 h1 rest N0 N1. eexists; eexists. split; [reflexivity|].
  rewrite ffmin_nan, ffmax_nan, N0, N1. split; [reflexivity|]. split; [reflexivity|].
  intros x. rewrite ffmin_val, ffmax_val by assumption. unfold Rmin, Rmax.
  destruct (Rle_dec (fval h0) (fval h1)); lra.
Qed.
Print Assumptions C14_chord.

Theorem C14_vertex_hit_refuted :
  (** the sweep line y = 0 through two vertices of the diamond |x|+|y| <= 1: *)
  (exists h0 h1 h2 h3, hline_polygon F64 fzero diamond = Ok [h0; h1; h2; h3] /\
     fval h2 = 1 /\ fval h3 = 1 /\
     exists l u, obstacle_entry [h0; h1; h2; h3] = Ok (l, u) /\ fval l = -1 /\ fval u = -1) /\
  (** so the centre of the obstacle is reported free *)
  (forall srt, conforming srt -> exists t r,
    compute_intersection (fofZ (-10)) (fofZ 10) (fun _ => [Ok []]) (fun c => [hline_polygon F64 c diamond]) [fzero]
      (setup 1 (fofZ (-10)) (fofZ 10) 1 1 tables0) = Ok t /\
    sweep_line srt t 0 = Ok r /\ covers r 0).
Proof.
  split; [|exact vertex_collapse].
  rewrite (hline_nonempty diamond fzero) by discriminate.
  pose proof diamond_hits as L. pose proof diamond_pair as D. pose proof diamond_last as G.
  destruct (hits_of diamond fzero) as [|h0 [|h1 [|h2 [|h3 [|]]]]]; try discriminate L.
  apply andb_true_iff in G. apply andb_true_iff in D. rewrite !fsame_eq in *.
  destruct G as [-> ->]. destruct D as [D1 D2].
  exists h0, h1, (fofZ 1), (fofZ 1). rewrite !fofZ_val by lia.
  split; [reflexivity|]. split; [reflexivity|]. split; [reflexivity|].
  exists (fofZ (-1)), (fofZ (-1)). rewrite !fofZ_val by lia. split; [|split; reflexivity].
  rewrite obstacle_entry_ok by discriminate. rewrite <- D1 at 1. rewrite <- D2.
  rewrite D1, D2. destruct (obstacle_pair _) as [a b] eqn:E. cbn [fst snd] in *. congruence.
Qed.
Print Assumptions C14_vertex_hit_refuted.

(** C15 *)
Theorem C15_crossing_iff : forall solve (p q : rpoint) rp rq (P : list rpoint), solve_exact solve ->
  exists b, seg_polygon XR solve (Some (fst p) :: Some (snd p) :: rp) (Some (fst q) :: Some (snd q) :: rq)
      (lift_poly P) = Ok b /\
  (b = true <-> exists a c, is_edge P a c /\ transversal p q a c /\
      exists x, in_open_segment p q x /\ in_open_segment a c x).
Proof. intros solve p q rp rq P HS; exact (seg_polygon_XR solve HS p q rp rq P). Qed.
Print Assumptions C15_crossing_iff.

Theorem C15_segment_inside_not_reported_refuted : forall solve, solve_exact solve ->
  seg_polygon XR solve [Some (1/2); Some 1] [Some (3/2); Some 1] (lift_poly square) = Ok false.
Proof. exact square_inside. Qed.
Print Assumptions C15_segment_inside_not_reported_refuted.

Theorem C15_through_vertices_not_reported_refuted : forall solve, solve_exact solve ->
  seg_polygon XR solve [Some (-1); Some (-1)] [Some 3; Some 3] (lift_poly square) = Ok false.
Proof. exact square_diagonal. Qed.
Print Assumptions C15_through_vertices_not_reported_refuted.

Theorem C15_crossing_reported : forall solve, solve_exact solve ->
  seg_polygon XR solve [Some 1; Some (-1)] [Some 1; Some 1] (lift_poly square) = Ok true.
Proof. exact square_crossed. Qed.
Print Assumptions C15_crossing_reported.

(** Short vectors: [.at()] throws (no undefined behaviour). *)
Theorem C15_short_pose_throws : forall S solve v1 v2 P, (length v1 < 2)%nat \/ (length v2 < 2)%nat ->
  seg_polygon S solve v1 v2 P = Throw OutOfRange.
Proof.
  intros S solve v1 v2 P H. unfold seg_polygon, at_.
  destruct v1 as [|a [|b v1]]; try reflexivity; cbn [nth_error obind].
  destruct v2 as [|c [|d v2]]; try reflexivity. simpl in H. lia.
Qed.
Print Assumptions C15_short_pose_throws.

Example C15_hyp : solve_exact cramer.
Proof. exact cramer_exact. Qed.
