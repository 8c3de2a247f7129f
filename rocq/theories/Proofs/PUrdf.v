(** Forward kinematics of the tree built from a URDF description. *)
From Coq Require Import List Reals ZArith Arith Bool Ascii String Lia Lra Psatz.
From Verif.Base Require Import Outcome.
From Verif.Model Require Import MGeom MMultiBody MTightFit MStore MUrdf.
From Verif.Spec Require Import SGeom SRigid SUrdf.
From Verif.Proofs Require Import PGeom PGeom3 PRot PMulti PTight3.
Import ListNotations.
Local Open Scope R_scope.

(** -- rotations -- *)
Lemma kdl_rotation_eq q : unit_quat q -> kdl_rotation q = rotm q.
Proof.
  intros U. destruct q as [w x y z]. unfold unit_quat in U. cbn in U.
  unfold kdl_rotation, rotm. cbn [qw qx qy qz]. apply m3_eq; cbn [r0 r1 r2]; f_equal; lra.
Qed.
Lemma cross_rot M u v : rotation3 M -> cross3 (app3 M u) (app3 M v) = app3 M (cross3 u v).
Proof.
  destruct M as [[a b c] [d e f] [g h i]]. intros R. apply rotation3_facts in R. destruct R as [_ [_ [[C1 [C2 C3]] [[C4 [C5 C6]] [C7 [C8 C9]]]]]].
  destruct u as [u0 u1 u2], v as [v0 v1 v2]. unfold cross3, app3, dot3. cbn [x3 y3 z3 r0 r1 r2]. f_equal.
  - rewrite C1, C2, C3. ring.
  - rewrite C4, C5, C6. ring.
  - rewrite C7, C8, C9. ring.
Qed.
Lemma dot_rot M u v : rotation3 M -> dot3 (app3 M u) (app3 M v) = dot3 u v.
Proof.
  destruct M as [[a b c] [d e f] [g h i]]. intros R. apply rotation3_facts in R. destruct R as [_ [[[P1 [P2 P3]] [Q1 [Q2 Q3]]] _]].
  destruct u as [u0 u1 u2], v as [v0 v1 v2]. unfold app3, dot3. cbn [x3 y3 z3 r0 r1 r2].
  transitivity (u0 * v0 * (a*a + d*d + g*g) + u1 * v1 * (b*b + e*e + h*h) + u2 * v2 * (c*c + f*f + i*i) +
    (u0 * v1 + u1 * v0) * (a*b + d*e + g*h) + (u0 * v2 + u2 * v0) * (a*c + d*f + g*i) + (u1 * v2 + u2 * v1) * (b*c + e*f + h*i)); [ring|].
  rewrite P1, P2, P3, Q1, Q2, Q3. ring.
Qed.
(** Rodrigues' formula. *)
Lemma rot2_app a t v : app3 (kdl_rot2 a t) v =
  add3 (scale3 (cos t) v) (add3 (scale3 ((1 - cos t) * dot3 a v) a) (scale3 (sin t) (cross3 a v))).
Proof. destruct a as [a0 a1 a2], v as [v0 v1 v2]. unfold app3, kdl_rot2, add3, scale3, dot3, cross3. cbn [x3 y3 z3 r0 r1 r2]. f_equal; ring. Qed.
Lemma rot2_conj M a t v : rotation3 M -> app3 (kdl_rot2 (app3 M a) t) (app3 M v) = app3 M (app3 (kdl_rot2 a t) v).
Proof.
  intros R. rewrite !rot2_app, dot_rot, cross_rot by exact R. rewrite !app_add. 
  assert (S : forall k w, app3 M (scale3 k w) = scale3 k (app3 M w)) by (intros k w; unfold app3, scale3, dot3; cbn [x3 y3 z3]; f_equal; ring).
  rewrite !S. reflexivity.
Qed.
Lemma half_angle t : cos t = cos (t / 2) * cos (t / 2) - sin (t / 2) * sin (t / 2) /\ sin t = 2 * sin (t / 2) * cos (t / 2) /\ cos (t / 2) * cos (t / 2) + sin (t / 2) * sin (t / 2) = 1.
Proof.
  assert (E : t = 2 * (t / 2)) by field. split; [rewrite E at 1; apply cos_2a|]. split; [rewrite E at 1; apply sin_2a|].
  pose proof (sin2_cos2 (t / 2)) as P. unfold Rsqr in P. lra.
Qed.
Definition axis_of (a : v3) : v3 := let n := sqrt (dot3 a a) in V3r (x3 a / n) (y3 a / n) (z3 a / n).
Lemma dot_pos a : a <> V3r 0 0 0 -> 0 < dot3 a a.
Proof.
  intros N. destruct a as [x y z]. unfold dot3. cbn [x3 y3 z3].
  destruct (Req_EM_T x 0) as [->|X]; [destruct (Req_EM_T y 0) as [->|Y]; [destruct (Req_EM_T z 0) as [->|Z]; [elim N; reflexivity|]|]|].
  - pose proof (Rsqr_pos_lt z Z) as P. unfold Rsqr in P. lra.
  - pose proof (Rsqr_pos_lt y Y) as P. pose proof (Rle_0_sqr z) as P1. unfold Rsqr in P, P1. lra.
  - pose proof (Rsqr_pos_lt x X) as P. pose proof (Rle_0_sqr y) as P1. pose proof (Rle_0_sqr z) as P2. unfold Rsqr in P, P1, P2. lra.
Qed.
Lemma axis_unit a : a <> V3r 0 0 0 -> dot3 (axis_of a) (axis_of a) = 1.
Proof.
  intros N. pose proof (dot_pos a N) as D. set (n := sqrt (dot3 a a)). assert (P : 0 < n) by (apply sqrt_lt_R0; exact D).
  assert (E : n * n = dot3 a a) by (apply sqrt_sqrt; lra). unfold axis_of. fold n. unfold dot3 in *. cbn [x3 y3 z3].
  transitivity ((x3 a * x3 a + y3 a * y3 a + z3 a * z3 a) / (n * n)); [field; lra|]. rewrite <- E. field. lra.
Qed.
Lemma about_unit a t : a <> V3r 0 0 0 -> unit_quat (about a t).
Proof.
  intros N. pose proof (axis_unit a N) as U. unfold axis_of, dot3 in U. cbn [x3 y3 z3] in U. fold (dot3 a a) in U. destruct (half_angle t) as (_ & _ & H).
  unfold unit_quat, about. cbn [qw qx qy qz]. set (n := sqrt (dot3 a a)) in *.
  transitivity (cos (t / 2) * cos (t / 2) + sin (t / 2) * sin (t / 2) * (x3 a / n * (x3 a / n) + y3 a / n * (y3 a / n) + z3 a / n * (z3 a / n))); [ring|].
  rewrite U. lra.
Qed.
Lemma about_rot2 a t : a <> V3r 0 0 0 -> rotm (about a t) = kdl_rot2 (axis_of a) t.
Proof.
  intros N. pose proof (axis_unit a N) as U. destruct (half_angle t) as (C & S & H).
  unfold about. fold (axis_of a). change (x3 a / sqrt (dot3 a a)) with (x3 (axis_of a)). change (y3 a / sqrt (dot3 a a)) with (y3 (axis_of a)). change (z3 a / sqrt (dot3 a a)) with (z3 (axis_of a)).
  destruct (axis_of a) as [x y z]. unfold dot3 in U. cbn [x3 y3 z3] in *.
  set (c := cos (t / 2)) in *. set (s := sin (t / 2)) in *.
  assert (V : 1 - cos t = 2 * (s * s)) by lra.
  unfold rotm, kdl_rot2. rewrite V, S. cbn [qw qx qy qz x3 y3 z3].
  assert (D : forall p u v, p * p + u * u + v * v = 1 -> 1 - (2 * (s * u) * (s * u) + 2 * (s * v) * (s * v)) = cos t + 2 * (s * s) * p * p).
  { intros p u v E. assert (X : u * u + v * v = 1 - p * p) by lra.
    transitivity (1 - 2 * (s * s) * (u * u + v * v)); [ring|]. rewrite X. lra. }
  apply m3_eq; cbn [r0 r1 r2]; f_equal; try ring; apply D; lra.
Qed.
(** -- quaternion of a rotation -- *)
Lemma kdl_quaternion_rot M : rotation3 M -> exists q, kdl_quaternion M = Some q /\ unit_quat q /\ rotm q = M.
Proof.
  destruct M as [[a b c] [d e f] [g h i]]. intros R. apply rotation3_facts in R.
  destruct R as [[[N1 [N2 N3]] [O1 [O2 O3]]] [[[P1 [P2 P3]] [Q1 [Q2 Q3]]] [[C1 [C2 C3]] [[C4 [C5 C6]] [C7 [C8 C9]]]]]].
  unfold kdl_quaternion. cbn [r0 r1 r2 x3 y3 z3].
  destruct (Rlt_dec (1 / 1000000000000) (a + e + i)) as [T|T].
  { destruct (from_root_eq (a + e + i + 1) ltac:(lra)) as [s [S0 [S1 ->]]]. cbn [obnd]. eexists. split; [reflexivity|].
    assert (S2 : s * s <> 0) by nra. unfold unit_quat, rotm. cbn.
    split.
    - apply (eq_by_mult (4 * (s * s))); [lra|]. 
      transitivity ((s * s) * (s * s) + (h - f) * (h - f) + (c - g) * (c - g) + (d - b) * (d - b)); [field; lra|]. rewrite S1.
      enough ((a + e + i + 1) * (a + e + i + 1) + (h - f) * (h - f) + (c - g) * (c - g) + (d - b) * (d - b) = 4 * (a + e + i + 1)) by lra.
      lra.
    - apply m3_eq; cbn; f_equal.
      + apply (eq_by_mult (2 * (s * s))); [lra|]. transitivity (2 * (s * s) - ((c - g) * (c - g) + (d - b) * (d - b))); [field; lra|]. rewrite S1. lra.
      + apply (eq_by_mult (2 * (s * s))); [lra|]. transitivity ((h - f) * (c - g) - (s * s) * (d - b)); [field; lra|]. rewrite S1. lra.
      + apply (eq_by_mult (2 * (s * s))); [lra|]. transitivity ((h - f) * (d - b) + (s * s) * (c - g)); [field; lra|]. rewrite S1. lra.
      + apply (eq_by_mult (2 * (s * s))); [lra|]. transitivity ((h - f) * (c - g) + (s * s) * (d - b)); [field; lra|]. rewrite S1. lra.
      + apply (eq_by_mult (2 * (s * s))); [lra|]. transitivity (2 * (s * s) - ((h - f) * (h - f) + (d - b) * (d - b))); [field; lra|]. rewrite S1. lra.
      + apply (eq_by_mult (2 * (s * s))); [lra|]. transitivity ((c - g) * (d - b) - (s * s) * (h - f)); [field; lra|]. rewrite S1. lra.
      + apply (eq_by_mult (2 * (s * s))); [lra|]. transitivity ((h - f) * (d - b) - (s * s) * (c - g)); [field; lra|]. rewrite S1. lra.
      + apply (eq_by_mult (2 * (s * s))); [lra|]. transitivity ((c - g) * (d - b) + (s * s) * (h - f)); [field; lra|]. rewrite S1. lra.
      + apply (eq_by_mult (2 * (s * s))); [lra|]. transitivity (2 * (s * s) - ((h - f) * (h - f) + (c - g) * (c - g))); [field; lra|]. rewrite S1. lra. }
  assert (CASES : (e < a /\ i < a) \/ ~ (e < a /\ i < a)) by (destruct (Rlt_dec e a), (Rlt_dec i a); tauto).
  destruct CASES as [[L1 L2]|L].
  { destruct (Rlt_dec e a) as [_|Bad]; [|lra]. destruct (Rlt_dec i a) as [_|Bad]; [|lra].
    replace (1 + a - e - i) with (a - e - i + 1) by ring.
    destruct (from_root_eq (a - e - i + 1) ltac:(lra)) as [s [S0 [S1 ->]]]. cbn [obnd]. eexists. split; [reflexivity|].
    assert (S2 : s * s <> 0) by nra. unfold unit_quat, rotm. cbn.
    split.
    - apply (eq_by_mult (4 * (s * s))); [lra|].
      transitivity ((s * s) * (s * s) + (h - f) * (h - f) + (d + b) * (d + b) + (g + c) * (g + c)); [field; lra|]. rewrite S1. lra.
    - apply m3_eq; cbn; f_equal.
      + apply (eq_by_mult (2 * (s * s))); [lra|]. transitivity (2 * (s * s) - ((d + b) * (d + b) + (g + c) * (g + c))); [field; lra|]. rewrite S1. lra.
      + apply (eq_by_mult (2 * (s * s))); [lra|]. transitivity ((s * s) * (d + b) - (g + c) * (h - f)); [field; lra|]. rewrite S1. lra.
      + apply (eq_by_mult (2 * (s * s))); [lra|]. transitivity ((s * s) * (g + c) + (d + b) * (h - f)); [field; lra|]. rewrite S1. lra.
      + apply (eq_by_mult (2 * (s * s))); [lra|]. transitivity ((s * s) * (d + b) + (g + c) * (h - f)); [field; lra|]. rewrite S1. lra.
      + apply (eq_by_mult (2 * (s * s))); [lra|]. transitivity (2 * (s * s) - ((s * s) * (s * s) + (g + c) * (g + c))); [field; lra|]. rewrite S1. lra.
      + apply (eq_by_mult (2 * (s * s))); [lra|]. transitivity ((d + b) * (g + c) - (s * s) * (h - f)); [field; lra|]. rewrite S1. lra.
      + apply (eq_by_mult (2 * (s * s))); [lra|]. transitivity ((s * s) * (g + c) - (d + b) * (h - f)); [field; lra|]. rewrite S1. lra.
      + apply (eq_by_mult (2 * (s * s))); [lra|]. transitivity ((d + b) * (g + c) + (s * s) * (h - f)); [field; lra|]. rewrite S1. lra.
      + apply (eq_by_mult (2 * (s * s))); [lra|]. transitivity (2 * (s * s) - ((s * s) * (s * s) + (d + b) * (d + b))); [field; lra|]. rewrite S1. lra. }
  assert (FF : (if Rlt_dec e a then if Rlt_dec i a then true else false else false) = false).
  { destruct (Rlt_dec e a) as [X|X]; [|reflexivity]. destruct (Rlt_dec i a) as [Y|Y]; [elim L; split; assumption|reflexivity]. }
  rewrite FF. destruct (Rlt_dec i e) as [B|B].
  { replace (1 + e - a - i) with (e - i - a + 1) by ring. assert (Lae : a <= e) by (destruct (Rle_dec a e); [assumption|elim L; split; lra]).
    destruct (from_root_eq (e - i - a + 1) ltac:(lra)) as [s [S0 [S1 ->]]]. cbn [obnd]. eexists. split; [reflexivity|].
    assert (S2 : s * s <> 0) by nra. unfold unit_quat, rotm. cbn.
    split.
    - apply (eq_by_mult (4 * (s * s))); [lra|].
      transitivity ((s * s) * (s * s) + (c - g) * (c - g) + (b + d) * (b + d) + (h + f) * (h + f)); [field; lra|]. rewrite S1. lra.
    - apply m3_eq; cbn; f_equal.
      + apply (eq_by_mult (2 * (s * s))); [lra|]. transitivity (2 * (s * s) - ((s * s) * (s * s) + (h + f) * (h + f))); [field; lra|]. rewrite S1. lra.
      + apply (eq_by_mult (2 * (s * s))); [lra|]. transitivity ((s * s) * (b + d) - (h + f) * (c - g)); [field; lra|]. rewrite S1. lra.
      + apply (eq_by_mult (2 * (s * s))); [lra|]. transitivity ((b + d) * (h + f) + (s * s) * (c - g)); [field; lra|]. rewrite S1. lra.
      + apply (eq_by_mult (2 * (s * s))); [lra|]. transitivity ((s * s) * (b + d) + (h + f) * (c - g)); [field; lra|]. rewrite S1. lra.
      + apply (eq_by_mult (2 * (s * s))); [lra|]. transitivity (2 * (s * s) - ((b + d) * (b + d) + (h + f) * (h + f))); [field; lra|]. rewrite S1. lra.
      + apply (eq_by_mult (2 * (s * s))); [lra|]. transitivity ((s * s) * (h + f) - (b + d) * (c - g)); [field; lra|]. rewrite S1. lra.
      + apply (eq_by_mult (2 * (s * s))); [lra|]. transitivity ((b + d) * (h + f) - (s * s) * (c - g)); [field; lra|]. rewrite S1. lra.
      + apply (eq_by_mult (2 * (s * s))); [lra|]. transitivity ((s * s) * (h + f) + (b + d) * (c - g)); [field; lra|]. rewrite S1. lra.
      + apply (eq_by_mult (2 * (s * s))); [lra|]. transitivity (2 * (s * s) - ((b + d) * (b + d) + (s * s) * (s * s))); [field; lra|]. rewrite S1. lra. }
  { replace (1 + i - a - e) with (i - a - e + 1) by ring. assert (Lai : a <= i) by (destruct (Rle_dec a i); [assumption|elim L; split; lra]).
    destruct (from_root_eq (i - a - e + 1) ltac:(lra)) as [s [S0 [S1 ->]]]. cbn [obnd]. eexists. split; [reflexivity|].
    assert (S2 : s * s <> 0) by nra. unfold unit_quat, rotm. cbn.
    split.
    - apply (eq_by_mult (4 * (s * s))); [lra|].
      transitivity ((s * s) * (s * s) + (d - b) * (d - b) + (c + g) * (c + g) + (f + h) * (f + h)); [field; lra|]. rewrite S1. lra.
    - apply m3_eq; cbn; f_equal.
      + apply (eq_by_mult (2 * (s * s))); [lra|]. transitivity (2 * (s * s) - ((f + h) * (f + h) + (s * s) * (s * s))); [field; lra|]. rewrite S1. lra.
      + apply (eq_by_mult (2 * (s * s))); [lra|]. transitivity ((c + g) * (f + h) - (s * s) * (d - b)); [field; lra|]. rewrite S1. lra.
      + apply (eq_by_mult (2 * (s * s))); [lra|]. transitivity ((s * s) * (c + g) + (d - b) * (f + h)); [field; lra|]. rewrite S1. lra.
      + apply (eq_by_mult (2 * (s * s))); [lra|]. transitivity ((c + g) * (f + h) + (s * s) * (d - b)); [field; lra|]. rewrite S1. lra.
      + apply (eq_by_mult (2 * (s * s))); [lra|]. transitivity (2 * (s * s) - ((c + g) * (c + g) + (s * s) * (s * s))); [field; lra|]. rewrite S1. lra.
      + apply (eq_by_mult (2 * (s * s))); [lra|]. transitivity ((s * s) * (f + h) - (d - b) * (c + g)); [field; lra|]. rewrite S1. lra.
      + apply (eq_by_mult (2 * (s * s))); [lra|]. transitivity ((s * s) * (c + g) - (d - b) * (f + h)); [field; lra|]. rewrite S1. lra.
      + apply (eq_by_mult (2 * (s * s))); [lra|]. transitivity ((s * s) * (f + h) + (d - b) * (c + g)); [field; lra|]. rewrite S1. lra.
      + apply (eq_by_mult (2 * (s * s))); [lra|]. transitivity (2 * (s * s) - ((c + g) * (c + g) + (f + h) * (f + h))); [field; lra|]. rewrite S1. lra. }
Qed.
(** -- one joint -- *)
Definition good_joint (j : ujoint) : Prop := unit_quat (uj_rot j) /\ (has_variable j = 1%nat -> uj_axis j <> V3r 0 0 0).
Lemma unit_axis_eq a : a <> V3r 0 0 0 -> unit_axis a = Some (axis_of a).
Proof.
  intros N. unfold unit_axis. pose proof (dot_pos a N) as D. destruct (Req_EM_T (sqrt (dot3 a a)) 0) as [E|_]; [|reflexivity].
  pose proof (sqrt_lt_R0 _ D). lra.
Qed.
Lemma app_nz M a : rotation3 M -> a <> V3r 0 0 0 -> app3 M a <> V3r 0 0 0.
Proof. intros R N E. pose proof (dot_pos a N) as D. rewrite <- (dot_rot M a a R), E in D. unfold dot3 in D. cbn [x3 y3 z3] in D. lra. Qed.
Lemma axis_rot M a : rotation3 M -> axis_of (app3 M a) = app3 M (axis_of a).
Proof.
  intros R. unfold axis_of. rewrite (dot_rot M a a R). set (n := sqrt (dot3 a a)). unfold app3, dot3. cbn [x3 y3 z3]. unfold Rdiv. f_equal; ring.
Qed.
Lemma v3_eq u v : x3 u = x3 v -> y3 u = y3 v -> z3 u = z3 v -> u = v.
Proof. destruct u, v. cbn. intros -> -> ->. reflexivity. Qed.
Lemma add3_0 v : add3 (V3r 0 0 0) v = v.
Proof. apply v3_eq; cbn; ring. Qed.
Lemma app_z M : app3 M (V3r 0 0 0) = V3r 0 0 0.
Proof. apply v3_eq; unfold app3, dot3; cbn; ring. Qed.
Lemma kdl_rot2_0 a : kdl_rot2 a 0 = id3.
Proof. apply m3_ext. intros v. rewrite rot2_app, cos_0, sin_0, app_id. apply v3_eq; unfold add3, scale3, cross3; cbn [x3 y3 z3]; ring. Qed.
Lemma rot2_rotation a t : a <> V3r 0 0 0 -> rotation3 (kdl_rot2 (axis_of a) t).
Proof. intros N. rewrite <- about_rot2 by exact N. apply rotm_rotation, about_unit, N. Qed.
Lemma id3_rotation : rotation3 id3.
Proof.
  assert (E : id3 = rotm (Q 1 0 0 0)) by (unfold id3, rotm; cbn [qw qx qy qz]; apply m3_eq; cbn; f_equal; ring).
  rewrite E. apply rotm_rotation. unfold unit_quat. cbn. ring.
Qed.
Lemma tr_id : tr3 id3 = id3.
Proof. reflexivity. Qed.
Lemma inv_shift o F : comp3 (frame_inv (id3, o)) (F, o) = (F, V3r 0 0 0).
Proof.
  unfold comp3, frame_inv. cbn [fst snd]. rewrite tr_id, mul1_3, !app_id. f_equal. apply v3_eq; unfold add3, scale3; cbn [x3 y3 z3]; ring.
Qed.
Lemma inv_id F o : comp3 (frame_inv frame_id) (F, o) = (F, o).
Proof.
  unfold comp3, frame_inv, frame_id. cbn [fst snd]. change (diag3 1 1 1) with id3. rewrite tr_id, mul1_3, !app_id. f_equal. apply v3_eq; unfold add3, scale3; cbn [x3 y3 z3]; ring.
Qed.
Lemma joint_pose j x : good_joint j ->
  exists T, seg_pose (new_seg (joint_of j) (origin_frame j)) x = Some T /\ rigid3 T /\
    forall v, move3 T v = add3 (uj_pos j) (turn (uj_rot j) (joint_moves j x v)).
Proof.
  intros [U N]. pose proof (rotm_rotation (uj_rot j) U) as R.
  assert (TU : forall v, turn (uj_rot j) v = app3 (rotm (uj_rot j)) v) by (intros v; apply turn_rotm; exact U).
  unfold seg_pose, new_seg, joint_of, origin_frame. cbn [ks_joint ks_tip fst snd]. rewrite (kdl_rotation_eq _ U).
  set (M := rotm (uj_rot j)) in *. set (o := uj_pos j). set (a := uj_axis j) in *.
  assert (TURN : uj_type j = Revolute \/ uj_type j = Continuous -> exists T, obnd (kpose (KRot o (unit_axis (app3 M a))) x) (fun p => obnd (obnd (kpose (KRot o (unit_axis (app3 M a))) 0) (fun p => Some (comp3 (frame_inv p) (M, o)))) (fun t => Some (comp3 p t))) = Some T /\ rigid3 T /\
    forall v, move3 T v = add3 o (turn (uj_rot j) (turn (about a x) v))).
  { intros TY. assert (Na : a <> V3r 0 0 0) by (apply N; unfold has_variable; destruct TY as [->| ->]; reflexivity).
    rewrite (unit_axis_eq _ (app_nz M a R Na)). cbn [kpose obnd]. rewrite kdl_rot2_0, inv_shift. eexists. split; [reflexivity|].
    rewrite (axis_rot M a R). split.
    - unfold rigid3, comp3. cbn [fst snd]. apply rotation3_mul; [|exact R]. rewrite <- (axis_rot M a R). apply rot2_rotation. apply app_nz; assumption.
    - intros v. unfold move3, comp3. cbn [fst snd]. rewrite app_mul3, (rot2_conj M (axis_of a) x v R), app_z, add3_0, TU, <- about_rot2 by exact Na.
      rewrite turn_rotm by (apply about_unit; exact Na). apply v3_eq; unfold add3; cbn [x3 y3 z3]; ring. }
  assert (STILL : exists T, obnd (kpose KNone x) (fun p => obnd (obnd (kpose KNone 0) (fun p => Some (comp3 (frame_inv p) (M, o)))) (fun t => Some (comp3 p t))) = Some T /\ rigid3 T /\
    forall v, move3 T v = add3 o (turn (uj_rot j) v)).
  { cbn [kpose obnd]. rewrite inv_id. eexists. split; [reflexivity|]. unfold comp3, frame_id. cbn [fst snd]. change (diag3 1 1 1) with id3. rewrite mul1_3. split; [exact R|].
    intros v. unfold move3. cbn [fst snd]. rewrite app_id, TU. apply v3_eq; unfold add3; cbn [x3 y3 z3]; ring. }
  unfold joint_moves. fold a. destruct (uj_type j) eqn:TY.
  - exact STILL.
  - exact (TURN (or_introl eq_refl)).
  - exact (TURN (or_intror eq_refl)).
  - assert (Na : a <> V3r 0 0 0) by (apply N; unfold has_variable; rewrite TY; reflexivity).
    rewrite (unit_axis_eq _ (app_nz M a R Na)). cbn [kpose obnd]. change (diag3 1 1 1) with id3.
    replace (add3 o (scale3 0 (axis_of (app3 M a)))) with o by (apply v3_eq; unfold add3, scale3; cbn [x3 y3 z3]; ring).
    rewrite inv_shift. eexists. split; [reflexivity|]. unfold comp3. cbn [fst snd]. rewrite mul1_3, app_id. split; [exact R|].
    intros v. unfold move3. cbn [fst snd]. rewrite TU, (axis_rot M a R), app_add, add3_0.
    assert (SC : app3 M (V3r (x * (x3 a / sqrt (dot3 a a))) (x * (y3 a / sqrt (dot3 a a))) (x * (z3 a / sqrt (dot3 a a)))) = scale3 x (app3 M (axis_of a))).
    { unfold axis_of. apply v3_eq; unfold app3, scale3, dot3; cbn [x3 y3 z3]; ring. }
    rewrite SC. apply v3_eq; unfold add3; cbn [x3 y3 z3]; ring.
  - exact STILL.
  - exact STILL.
Qed.
(** -- the tree -- *)
Lemma same_name_t m n : same_name m n = true <-> m = n.
Proof. unfold same_name. destruct (list_eq_dec ascii_dec m n); split; intros H; congruence. Qed.
Lemma same_name_r n : same_name n n = true.
Proof. apply same_name_t. reflexivity. Qed.
Lemma lookup_app n a b : lookup n (a ++ b) = match lookup n a with Some e => Some e | None => lookup n b end.
Proof. induction a as [|[k e] a IH]; [reflexivity|]. cbn [app lookup]. destruct (same_name k n); [reflexivity|exact IH]. Qed.
Lemma lookup_none n m : lookup n m = None <-> ~ In n (map fst m).
Proof.
  induction m as [|[k e] m IH]; cbn [lookup map fst In]; [split; [intros _ []|reflexivity]|].
  destruct (same_name k n) eqn:E.
  - apply same_name_t in E. subst. split; [discriminate|intros H; elim H; left; reflexivity].
  - rewrite IH. split; [intros H [F|F]; [subst; rewrite same_name_r in E; discriminate E|exact (H F)]|intros H F; apply H; right; exact F].
Qed.
Lemma lookup_some n m : In n (map fst m) -> exists e, lookup n m = Some e.
Proof. intros I. destruct (lookup n m) as [e|] eqn:E; [exists e; reflexivity|]. apply lookup_none in E. contradiction. Qed.
Definition elem_of (parent : name) (j : ujoint) (k : nat) : kelem :=
  KElem (new_seg (joint_of j) (origin_frame j)) (Some parent) (if moving (joint_of j) then k else 0).
Fixpoint holds (k : nat) (parent : name) (ls : links) (t : ktree) : Prop :=
  match ls with
  | NoLink => True
  | Link n j cs rest => lookup n (kt_map t) = Some (elem_of parent j k) /\ holds (k + has_variable j) n cs t /\ holds (k + has_variable j + variables cs) parent rest t
  end.
Lemma holds_more k parent ls t t' : (forall n e, lookup n (kt_map t) = Some e -> lookup n (kt_map t') = Some e) -> holds k parent ls t -> holds k parent ls t'.
Proof.
  intros M. revert k parent. induction ls as [|n j cs IC rest IR]; intros k parent H; cbn [holds] in *; [exact I|].
  destruct H as (H1 & H2 & H3). split; [exact (M _ _ H1)|]. split; [exact (IC _ _ H2)|exact (IR _ _ H3)].
Qed.
Lemma moving_variable j : (if moving (joint_of j) then 1 else 0)%nat = has_variable j.
Proof. unfold joint_of, has_variable. destruct (uj_type j); reflexivity. Qed.
Lemma nodup_split {A} (a b : list A) : NoDup (a ++ b) -> NoDup a /\ NoDup b.
Proof.
  induction a as [|x a IH]; cbn [app]; intros H; [split; [constructor|exact H]|]. inversion H as [|y l N D]; subst. destruct (IH D) as [P Q].
  split; [constructor; [intros I; apply N; apply in_or_app; left; exact I|exact P]|exact Q].
Qed.
Lemma add_children_spec ls : forall parent t, In parent (map fst (kt_map t)) -> NoDup (link_names ls) -> (forall n, In n (link_names ls) -> ~ In n (map fst (kt_map t))) ->
  let t' := add_children parent ls t in
  (exists ext, kt_map t' = kt_map t ++ ext /\ map fst ext = link_names ls) /\
  kt_joints t' = (kt_joints t + variables ls)%nat /\ holds (kt_joints t) parent ls t'.
Proof.
  induction ls as [|n j cs IC rest IR]; intros parent t HP ND DJ; cbn [add_children link_names variables holds].
  - split; [exists []; split; [rewrite app_nil_r; reflexivity|reflexivity]|]. split; [lia|exact I].
  - cbn [link_names] in ND, DJ. inversion ND as [|x y Nn ND']; subst. destruct (nodup_split _ _ ND') as [NDc NDr].
    assert (A1 : add_segment n (new_seg (joint_of j) (origin_frame j)) parent t = KTree (kt_map t ++ [(n, elem_of parent j (kt_joints t))]) (kt_joints t + has_variable j)).
    { unfold add_segment. destruct (lookup_some parent _ HP) as [e ->].
      assert (L : lookup n (kt_map t) = None) by (apply lookup_none; apply DJ; left; reflexivity). rewrite L. unfold elem_of. cbn [ks_joint new_seg].
      rewrite <- moving_variable. destruct (moving (joint_of j)); [reflexivity|rewrite Nat.add_0_r; reflexivity]. }
    set (t1 := add_segment n (new_seg (joint_of j) (origin_frame j)) parent t) in *.
    assert (M1 : map fst (kt_map t1) = map fst (kt_map t) ++ [n]) by (rewrite A1; cbn [kt_map]; rewrite map_app; reflexivity).
    destruct (IC n t1) as ((ext1 & X1 & Y1) & J1 & H1).
    + rewrite M1. apply in_or_app. right. left. reflexivity.
    + exact NDc.
    + intros m I F. rewrite M1 in F. apply in_app_or in F. destruct F as [F|[F|[]]].
      * apply (DJ m); [right; apply in_or_app; left; exact I|exact F].
      * subst. apply Nn. apply in_or_app. left. exact I.
    + set (t2 := add_children n cs t1) in *.
      assert (M2 : map fst (kt_map t2) = map fst (kt_map t) ++ n :: link_names cs) by (rewrite X1, map_app, M1, Y1, <- app_assoc; reflexivity).
      destruct (IR parent t2) as ((ext2 & X2 & Y2) & J2 & H2).
      * rewrite M2. apply in_or_app. left. exact HP.
      * exact NDr.
      * intros m I F. rewrite M2 in F. apply in_app_or in F. destruct F as [F|[F|F]].
        -- apply (DJ m); [right; apply in_or_app; right; exact I|exact F].
        -- subst. apply Nn. apply in_or_app. right. exact I.
        -- clear - ND' F I. revert ND' F. generalize (link_names rest) I. intros r. clear. intros I ND F. revert ND F. induction (link_names cs) as [|c l IH]; intros ND F; [destruct F|].
           cbn in ND. inversion ND as [|? ? Q1 Q2]; subst. destruct F as [F|F]; [subst; apply Q1; apply in_or_app; right; exact I|exact (IH Q2 F)].
      * set (t3 := add_children parent rest t2) in *.
        assert (K1 : kt_joints t1 = (kt_joints t + has_variable j)%nat) by (rewrite A1; reflexivity).
        assert (UP : forall m e, lookup m (kt_map t2) = Some e -> lookup m (kt_map t3) = Some e) by (intros m e E; rewrite X2, lookup_app, E; reflexivity).
        split; [|split; [|split; [|split]]].
        -- exists ((n, elem_of parent j (kt_joints t)) :: ext1 ++ ext2). split.
           ++ rewrite X2, X1, A1. cbn [kt_map]. rewrite <- !app_assoc. reflexivity.
           ++ cbn [map fst]. rewrite map_app, Y1, Y2. reflexivity.
        -- rewrite J2, J1, K1. lia.
        -- apply UP. rewrite X1, lookup_app, A1. cbn [kt_map]. rewrite lookup_app.
           assert (L : lookup n (kt_map t) = None) by (apply lookup_none; apply DJ; left; reflexivity). rewrite L. cbn [lookup]. rewrite same_name_r. reflexivity.
        -- rewrite <- K1. exact (holds_more _ _ _ _ _ UP H1).
        -- rewrite J1, K1 in H2. exact H2.
Qed.
(** -- the recursion -- *)
Lemma fk_more t q n d d' r : recursive_fk d t q n = Ok r -> (d <= d')%nat -> recursive_fk d' t q n = Ok r.
Proof.
  revert d' n r. induction d as [|d IH]; intros d' n r H L; [discriminate H|]. destruct d' as [|d']; [lia|]. cbn [recursive_fk] in *.
  destruct (lookup n (kt_map t)) as [e|]; [|discriminate H]. destruct (idx q (ke_q e)) as [x| |]; cbn [obind] in *; try discriminate H.
  destruct (ke_parent e) as [p|]; [|exact H]. destruct (recursive_fk d t q p) as [g| |] eqn:E; cbn [obind] in H; try discriminate H.
  rewrite (IH d' p g E ltac:(lia)). exact H.
Qed.
Lemma leads_length k ls n p : leads k ls n p -> (List.length p <= List.length (link_names ls))%nat.
Proof. induction 1; cbn [List.length link_names]; rewrite ?app_length; lia. Qed.
Lemma leads_name k ls n p : leads k ls n p -> In n (link_names ls).
Proof. induction 1; cbn [link_names]; [left; reflexivity|right; apply in_or_app; left; assumption|right; apply in_or_app; right; assumption]. Qed.
Lemma leads_exists ls n : forall k, In n (link_names ls) -> exists p, leads k ls n p.
Proof.
  induction ls as [|m j cs IC rest IR]; intros k H; [destruct H|]. cbn [link_names] in H. destruct H as [->|H]; [exists [(j, k)]; constructor|].
  apply in_app_or in H. destruct H as [H|H]; [destruct (IC (k + has_variable j)%nat H) as [p P]; exists ((j, k) :: p); constructor; exact P|].
  destruct (IR (k + has_variable j + variables cs)%nat H) as [p P]. exists p. constructor. exact P.
Qed.
Lemma idx_some {A} (l : list A) i d : (i < List.length l)%nat -> idx l i = Ok (nth i l d).
Proof. intros L. unfold idx. rewrite (nth_error_nth' l d L). reflexivity. Qed.
Lemma seg_still j x y : moving (joint_of j) = false -> seg_pose (new_seg (joint_of j) (origin_frame j)) x = seg_pose (new_seg (joint_of j) (origin_frame j)) y.
Proof. intros M. unfold seg_pose, new_seg. cbn [ks_joint ks_tip]. destruct (joint_of j); [reflexivity|discriminate M|discriminate M]. Qed.
Lemma fk_chain t q k ls n p : leads k ls n p -> forall parent, proper_joints ls -> holds k parent ls t -> (0 < List.length q)%nat -> (k + variables ls <= List.length q)%nat ->
  forall d gp, recursive_fk d t q parent = Ok (Some gp) -> rigid3 gp ->
  exists T, recursive_fk (List.length p + d) t q n = Ok (Some T) /\ rigid3 T /\ forall v, move3 T v = move3 gp (chain_point q p v).
Proof.
  intros L. induction L as [k n j cs rest|k m j cs rest n p L IH|k m j cs rest n p L IH]; intros parent PJ H Q0 QL d gp FP RP; cbn [proper_joints holds variables] in *.
  - destruct PJ as (U & N & _). destruct H as (H & _). destruct (joint_pose j (nth k q 0) (conj U N)) as (T & ET & RT & MT).
    exists (comp3 gp T). split.
    + cbn [List.length Nat.add recursive_fk]. rewrite H. cbn [elem_of ke_q ke_seg ke_parent]. pose proof (moving_variable j) as MV. destruct (moving (joint_of j)) eqn:MO.
      * rewrite (idx_some q k 0) by lia. cbn [obind]. rewrite FP. cbn [obind obnd]. rewrite ET. reflexivity.
      * rewrite (idx_some q 0 0) by lia. cbn [obind]. rewrite FP. cbn [obind obnd]. rewrite (seg_still j _ (nth k q 0) MO), ET. reflexivity.
    + split; [apply rigid_comp3; assumption|]. intros v. rewrite move_comp3, MT. reflexivity.
  - destruct PJ as (U & N & PC & _). destruct H as (H & HC & _). destruct (joint_pose j (nth k q 0) (conj U N)) as (T & ET & RT & MT).
    assert (FM : recursive_fk (S d) t q m = Ok (Some (comp3 gp T))).
    { cbn [recursive_fk]. rewrite H. cbn [elem_of ke_q ke_seg ke_parent]. pose proof (moving_variable j) as MV. destruct (moving (joint_of j)) eqn:MO.
      * rewrite (idx_some q k 0) by lia. cbn [obind]. rewrite FP. cbn [obind obnd]. rewrite ET. reflexivity.
      * rewrite (idx_some q 0 0) by lia. cbn [obind]. rewrite FP. cbn [obind obnd]. rewrite (seg_still j _ (nth k q 0) MO), ET. reflexivity. }
    destruct (IH m PC HC Q0 ltac:(lia) (S d) (comp3 gp T) FM ltac:(apply rigid_comp3; assumption)) as (X & EX & RX & MX).
    exists X. split; [cbn [List.length]; replace (S (List.length p) + d)%nat with (List.length p + S d)%nat by lia; exact EX|]. split; [exact RX|].
    intros v. rewrite MX, move_comp3, MT. reflexivity.
  - destruct PJ as (_ & _ & _ & PR). destruct H as (_ & _ & HR). exact (IH parent PR HR Q0 ltac:(lia) d gp FP RP).
Qed.
Lemma tree_spec root ls : NoDup (root :: link_names ls) ->
  let t := tree_of root ls in map fst (kt_map t) = root :: link_names ls /\ kt_joints t = variables ls /\ holds 0 root ls t /\
    lookup root (kt_map t) = Some (KElem (KSeg KNone (Some frame_id)) None 0).
Proof.
  intros ND. inversion ND as [|x y Nr ND']; subst. destruct (add_children_spec ls root (new_tree root)) as ((ext & X & Y) & J & H).
  - left. reflexivity.
  - exact ND'.
  - intros n I [F|[]]. cbn in F. subst. contradiction.
  - cbn zeta. unfold tree_of. set (t := add_children root ls (new_tree root)) in *. split; [rewrite X, map_app, Y; reflexivity|]. split; [exact J|]. split; [exact H|].
    rewrite X. cbn [new_tree kt_map app lookup]. rewrite same_name_r. reflexivity.
Qed.
Lemma rigid_same T T' : rigid3 T -> rigid3 T' -> (forall v, move3 T v = move3 T' v) -> T = T'.
Proof.
  intros _ _ E. destruct T as [M o], T' as [M' o']. unfold move3 in E. cbn [fst snd] in E.
  assert (O : o = o') by (pose proof (E (V3r 0 0 0)) as H; rewrite !app_z, !add3_0 in H; exact H). subst o'. f_equal. apply m3_ext. intros v.
  pose proof (E v) as H. apply v3_eq; [apply (f_equal x3) in H|apply (f_equal y3) in H|apply (f_equal z3) in H]; unfold add3 in H; cbn [x3 y3 z3] in H; lra.
Qed.
Lemma transform_chain root ls q n p : proper_robot root ls -> leads 0 ls n p -> List.length q = variables ls -> (0 < variables ls)%nat ->
  exists T, get_transform (tree_of root ls) q n = Ok (Some T) /\ rigid3 T /\ forall v, move3 T v = chain_point q p v.
Proof.
  intros [PJ ND] L QL QP. destruct (tree_spec root ls ND) as (KM & KJ & HO & LR). set (t := tree_of root ls) in *.
  assert (F1 : recursive_fk 1 t q root = Ok (Some (comp3 frame_id frame_id))).
  { cbn [recursive_fk]. rewrite LR. cbn [ke_q ke_seg ke_parent]. rewrite (idx_some q 0 0) by lia. reflexivity. }
  assert (RI : rigid3 frame_id) by exact id3_rotation.
  destruct (fk_chain t q 0 ls n p L root PJ HO ltac:(lia) ltac:(lia) 1 (comp3 frame_id frame_id) F1 ltac:(apply rigid_comp3; exact RI)) as (T & ET & RT & MT).
  assert (MI : forall v, move3 frame_id v = v) by (intros v; unfold move3, frame_id; cbn [fst snd]; change (diag3 1 1 1) with id3; rewrite app_id; apply v3_eq; unfold add3; cbn [x3 y3 z3]; ring).
  exists T. split; [|split; [exact RT|intros v; rewrite MT, move_comp3, !MI; reflexivity]].
  unfold get_transform, jnt_to_cart. rewrite KJ, QL, Nat.eqb_refl.
  destruct (lookup_some n (kt_map t)) as [e ->]; [rewrite KM; right; exact (leads_name _ _ _ _ L)|].
  assert (LM : List.length (kt_map t) = S (List.length (link_names ls))) by (rewrite <- (map_length fst (kt_map t)), KM; reflexivity).
  rewrite (fk_more t q n _ (List.length (kt_map t)) _ ET) by (rewrite LM; pose proof (leads_length _ _ _ _ L); lia).
  cbn [obind obnd]. destruct (kdl_quaternion_rot (fst T) RT) as (u & -> & _ & EM). cbn [obnd]. rewrite EM. destruct T; reflexivity.
Qed.
Lemma transform_root root ls q : proper_robot root ls -> List.length q = variables ls -> (0 < variables ls)%nat ->
  get_transform (tree_of root ls) q root = Ok (Some frame_id).
Proof.
  intros [PJ ND] QL QP. destruct (tree_spec root ls ND) as (KM & KJ & HO & LR). set (t := tree_of root ls) in *.
  unfold get_transform, jnt_to_cart. rewrite KJ, QL, Nat.eqb_refl, LR.
  assert (LM : List.length (kt_map t) = S (List.length (link_names ls))) by (rewrite <- (map_length fst (kt_map t)), KM; reflexivity).
  rewrite LM. cbn [recursive_fk]. rewrite LR. cbn [ke_q ke_seg ke_parent]. rewrite (idx_some q 0 0) by lia. cbn [obind seg_pose ks_joint ks_tip kpose obnd].
  assert (II : comp3 frame_id frame_id = frame_id).
  { unfold comp3, frame_id. cbn [fst snd]. change (diag3 1 1 1) with id3. rewrite mul1_3, app_id. f_equal. apply v3_eq; unfold add3; cbn [x3 y3 z3]; ring. }
  rewrite II. destruct (kdl_quaternion_rot (fst frame_id) id3_rotation) as (u & -> & _ & EM). cbn [obnd]. rewrite EM. reflexivity.
Qed.
Lemma quat_id : exists u, kdl_quaternion (fst frame_id) = Some u /\ rotm u = diag3 1 1 1.
Proof. destruct (kdl_quaternion_rot (fst frame_id) id3_rotation) as (u & E & _ & M). exists u. split; [exact E|exact M]. Qed.
Lemma transform_error t q n : List.length q <> kt_joints t \/ lookup n (kt_map t) = None -> get_transform t q n = Ok (Some frame_id).
Proof.
  intros H. unfold get_transform. assert (E : exists r, jnt_to_cart t q n = Ok r /\ forall f, r <> FkFrame f).
  { unfold jnt_to_cart. destruct (Nat.eqb (List.length q) (kt_joints t)) eqn:B; [|exists FkSize; split; [reflexivity|discriminate]].
    apply Nat.eqb_eq in B. destruct H as [H|H]; [contradiction|]. rewrite H. exists FkUnknown. split; [reflexivity|discriminate]. }
  destruct E as (r & -> & N). cbn [obind]. destruct quat_id as (u & EU & EM).
  destruct r as [| |f]; [| |elim (N f); reflexivity]; cbn [obnd]; rewrite EU; cbn [obnd]; rewrite EM; reflexivity.
Qed.
