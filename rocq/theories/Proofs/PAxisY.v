(** Balls: how far a recorded interval can be from the obstacle, and an example. *)
From Coq Require Import List Reals ZArith Arith Bool Lia Lra Psatz.
From Verif.Base Require Import Outcome.
From Verif.Model Require Import MScalar MLine3D MInterp MGeom MMesh.
From Verif.Spec Require Import SLine3D SGeom SRigid SCover SCover3.
From Verif.Proofs Require Import PLine3D PGeom PGeom2 PGeom3 PGeomX PInscribed PShape PCoverX PDiscPlan PCollisionX PCover3 PAxis PAxisX.
Import ListNotations.
Local Open Scope R_scope.

Lemma norm3_tri u v : norm3 (add3 u v) <= norm3 u + norm3 v.
Proof.
  assert (Z : forall w, 0 <= dot3 w w) by (intros w; unfold dot3; nra).
  unfold norm3. apply Rsqr_incr_0_var; [|pose proof (sqrt_pos (dot3 u u)); pose proof (sqrt_pos (dot3 v v)); lra].
  rewrite Rsqr_sqrt by apply Z. unfold Rsqr. replace ((sqrt (dot3 u u) + sqrt (dot3 v v)) * (sqrt (dot3 u u) + sqrt (dot3 v v))) with (sqrt (dot3 u u) * sqrt (dot3 u u) + sqrt (dot3 v v) * sqrt (dot3 v v) + 2 * (sqrt (dot3 u u) * sqrt (dot3 v v))) by ring.
  rewrite !sqrt_sqrt by apply Z. rewrite <- sqrt_mult by apply Z.
  assert (CS : dot3 u v <= sqrt (dot3 u u * dot3 v v)).
  { apply Rle_trans with (Rabs (dot3 u v)); [apply Rle_abs|]. rewrite <- sqrt_Rsqr_abs. apply sqrt_le_1_alt. unfold Rsqr, dot3.
    pose proof (Rle_0_sqr (x3 u * y3 v - y3 u * x3 v)) as Q1. pose proof (Rle_0_sqr (x3 u * z3 v - z3 u * x3 v)) as Q2. pose proof (Rle_0_sqr (y3 u * z3 v - z3 u * y3 v)) as Q3. unfold Rsqr in *. nra. }
  replace (dot3 (add3 u v) (add3 u v)) with (dot3 u u + dot3 v v + 2 * dot3 u v) by (unfold dot3, add3; cbn [x3 y3 z3]; ring). lra.
Qed.
Lemma dist_norm u v : dist3 u v = norm3 (sub3 u v).
Proof. reflexivity. Qed.
Lemma dist3_tri u v w : dist3 u w <= dist3 u v + dist3 v w.
Proof.
  rewrite !dist_norm. replace (sub3 u w) with (add3 (sub3 u v) (sub3 v w)); [apply norm3_tri|]. unfold add3, sub3. cbn [x3 y3 z3]. f_equal; ring.
Qed.
Lemma dist3_sym u v : dist3 u v = dist3 v u.
Proof. unfold dist3. f_equal. ring. Qed.
Lemma ball_in R0 q c p : 0 < R0 -> unit_quat q -> in3 (ellipsoid_at R0 R0 R0 q c) p -> dist3 p c <= R0.
Proof.
  intros HR U (l & -> & L). unfold placed, ellipsoid_at in *. cbn [sctr SGeom.sq] in *. rewrite turn_rotm by exact U.
  assert (E : dist3 (add3 c (app3 (rotm q) l)) c = norm3 l).
  { rewrite dist_norm, <- (norm_rot q l U). f_equal. unfold sub3, add3. cbn [x3 y3 z3]. destruct (app3 (rotm q) l) as [i1 i2 i3]. cbn [x3 y3 z3]. f_equal; ring. }
  rewrite E. unfold norm3. rewrite <- (sqrt_square R0) by lra. apply sqrt_le_1_alt.
  assert (S : shape3 (Body3 R0 R0 R0 1 1 c q) l = dot3 l l * / (R0 * R0)).
  { change (Body3 R0 R0 R0 1 1 c q) with (ellipsoid_at R0 R0 R0 q c). rewrite PGeom3.shape_ell. unfold dot3. field. lra. }
  rewrite S in L. apply Rmult_le_reg_r with (/ (R0 * R0)); [apply Rinv_0_lt_compat; nra|]. rewrite Rinv_r by nra. exact L.
Qed.
Lemma near_dist e u v : 0 <= e -> near3 e u v -> dist3 u v <= 2 * e.
Proof.
  intros E (X & Y & Z). unfold dist3. rewrite <- (sqrt_square (2 * e)) by lra. apply sqrt_le_1_alt.
  assert (G : forall t, Rabs t <= e -> t * t <= e * e).
  { intros t T. replace (t * t) with (Rabs t * Rabs t) by (rewrite <- Rabs_mult; apply Rabs_pos_eq; nra). pose proof (Rabs_pos t). apply Rmult_le_compat; lra. }
  pose proof (G _ X). pose proof (G _ Y). pose proof (G _ Z). nra.
Qed.
Lemma coord_norm v : Rabs (x3 v) <= norm3 v /\ Rabs (y3 v) <= norm3 v /\ Rabs (z3 v) <= norm3 v.
Proof.
  assert (G : forall t, t * t <= dot3 v v -> Rabs t <= norm3 v).
  { intros t T. rewrite <- sqrt_Rsqr_abs. unfold norm3. apply sqrt_le_1_alt. exact T. }
  unfold dot3 in G. split; [|split]; apply G; nra.
Qed.
Lemma ball_spread a px py pz q num A pos2 q2 num2 bd : unit_quat q -> unit_quat q2 -> 0 < a -> 0 < A ->
  mink3 (SQ [a; a; a] [1; 1] [px; py; pz] q num) (SQ [A; A; A] [1; 1] pos2 q2 num2) 1 = Ok bd -> spread bd (2 * (a + A)).
Proof.
  intros U U2 Ha HA M. assert (CV : convex3 (Body3 a a a 1 1 (V3r px py pz) q)) by (unfold convex3, proper3; cbn; repeat split; try lra; exact U).
  pose proof (ok_inj3 _ _ _ (eq_trans (eq_sym M) (mink3_eq a a a 1 1 px py pz q num A A A pos2 q2 num2 1 CV HA HA HA U2))) as EB.
  assert (G : forall u, In (Some u) bd -> exists w, u = add3 (V3r px py pz) w /\ norm3 w = a + A).
  { intros u Iu. rewrite EB in Iu. apply in_map_iff in Iu. destruct Iu as ([et om] & E & _). injection E as <-. eexists. split; [apply msample_ball; assumption|].
    unfold norm3. match goal with |- sqrt ?t = _ => replace t with ((a + A) * (a + A)) end; [apply sqrt_square; lra|].
    transitivity ((a + A) * (a + A) * dot3 (app3 (rotm q) (dir3 et om)) (app3 (rotm q) (dir3 et om))); [rewrite rot_dot, dir_unit by exact U; ring|].
    unfold dot3, scale3. cbn [x3 y3 z3]. ring. }
  intros u v Iu Iv. destruct (G u Iu) as (w1 & -> & W1). destruct (G v Iv) as (w2 & -> & W2).
  destruct (coord_norm w1) as (P1 & P2 & P3). destruct (coord_norm w2) as (Q1 & Q2 & Q3). rewrite W1 in *. rewrite W2 in *.
  assert (T : forall c s t, Rabs s <= a + A -> Rabs t <= a + A -> Rabs (c + s - (c + t)) <= 2 * (a + A)).
  { intros c s t S T. replace (c + s - (c + t)) with (s + - t) by ring. apply Rle_trans with (1 := Rabs_triang _ _). rewrite Rabs_Ropp. lra. }
  unfold add3. cbn [x3 y3 z3]. split; [|split]; apply T; assumption.
Qed.
Lemma ball_blocked_near a px py pz q num A pos2 q2 num2 bd fs x y z r h0 h1 :
  unit_quat q -> unit_quat q2 -> 0 < a -> 0 < A -> (1 <= num)%nat ->
  mink3 (SQ [a; a; a] [1; 1] [px; py; pz] q num) (SQ [A; A; A] [1; 1] pos2 q2 num2) 1 = Ok bd ->
  Forall (face_ok (length bd)) fs ->
  vertical_line_mesh XR (vertical_at x y) (sampled_mesh bd fs) = Ok r -> height_of h0 r -> height_of h1 r -> weakly_between h0 h1 z ->
  dist3 (V3r x y z) (V3r px py pz) <= (a + A) * (1 + 16 * tol).
Proof.
  intros U U2 Ha HA N M F H I0 I1 BT. assert (CV : convex3 (Body3 a a a 1 1 (V3r px py pz) q)) by (unfold convex3, proper3; cbn; repeat split; try lra; exact U).
  destruct (blocked_meets3 a a a 1 1 px py pz q num A A A pos2 q2 num2 bd fs x y z r h0 h1 (2 * (a + A)) CV HA HA HA U2 N M F (ball_spread _ _ _ _ _ _ _ _ _ _ _ U U2 Ha HA M) H I0 I1 BT) as (c & NR & (p & PO & PB)).
  pose proof tol_pos as T. assert (E0 : 0 <= 4 * tol * (2 * (a + A))) by (repeat apply Rmult_le_pos; lra). pose proof (near_dist _ _ _ E0 NR) as D1. pose proof (ball_in A q2 c p HA U2 PB) as D2. 
  pose proof (ball_in a q (V3r px py pz) p Ha U PO) as D3.
  pose proof (dist3_tri (V3r x y z) c (V3r px py pz)) as T1. pose proof (dist3_tri c p (V3r px py pz)) as T2. rewrite (dist3_sym c p) in T2. lra.
Qed.
(** ---- an example with two different hits ---- *)
Lemma flat_hit c k (ex ey fx fy gx gy : R) : 
  let s1' := fx * gy - fy * gx in let s2' := gx * ey - gy * ex in let s3' := ex * fy - ey * fx in
  0 < s1' -> 0 < s2' -> 0 < s3' ->
  triangle_hit 0 (RV (rx c) (ry c) 0) (RV 0 0 1) (RV (rx c + ex) (ry c + ey) k, RV (rx c + fx) (ry c + fy) k, RV (rx c + gx) (ry c + gy) k) (RV (rx c) (ry c) k).
Proof.
  intros s1' s2' s3' H1 H2 H3. set (n := s1' + s2' + s3'). assert (HN : 0 < n) by (unfold n; lra). split; [|split].
  - unfold crosses_plane. 
    assert (E : rcross (rsub (RV (rx c + fx) (ry c + fy) k) (RV (rx c + ex) (ry c + ey) k)) (rsub (RV (rx c + gx) (ry c + gy) k) (RV (rx c + ex) (ry c + ey) k)) = RV 0 0 n).
    { unfold rcross, rsub, n, s1', s2', s3'. cbn [rx ry rz]. f_equal; ring. }
    rewrite E. replace (rnorm (RV 0 0 n)) with n by (unfold rnorm, rdot; cbn [rx ry rz]; replace (0 * 0 + 0 * 0 + n * n) with (n * n) by ring; rewrite sqrt_square; lra).
    replace (rdot (RV 0 0 n) (RV 0 0 1)) with n by (unfold rdot; cbn [rx ry rz]; ring). rewrite Rabs_pos_eq by lra. pose proof tol_lt1. split; [lra|nra].
  - exists k. unfold radd, rscale. cbn [rx ry rz]. f_equal; ring.
  - exists (s2' / n), (s3' / n). assert (B : forall t, 0 <= t -> 0 <= t / n) by (intros t Ht; apply Rmult_le_pos; [exact Ht|left; apply Rinv_0_lt_compat; exact HN]).
    assert (S : s2' / n + s3' / n = 1 - s1' / n) by (unfold n; field; unfold n in HN; lra).
    pose proof (B s1' ltac:(lra)). pose proof (B s2' ltac:(lra)). pose proof (B s3' ltac:(lra)).
    split; [|lra]. unfold radd, rscale, rsub. cbn [rx ry rz]. unfold n, s1', s2', s3' in *. f_equal; field; lra.
Qed.

Lemma ball4 : exists bd z1, 0 < z1 /\
  mink3 (SQ [1; 1; 1] [1; 1] [0; 0; 0] (Q 1 0 0 0) 4) (SQ [1 / 2; 1 / 2; 1 / 2] [1; 1] [0; 0; 0] (Q 1 0 0 0) 4) 1 = Ok bd /\
  Forall (face_ok (length bd)) [(4, 5, 6)%nat; (8, 9, 10)%nat] /\
  vertical_line_mesh XR (vertical_at 0 0) (sampled_mesh bd [(4, 5, 6)%nat; (8, 9, 10)%nat]) = Ok [lift3 (RV 0 0 (- z1)); lift3 (RV 0 0 z1)].
Proof.
  assert (U : unit_quat (Q 1 0 0 0)) by (unfold unit_quat; cbn; lra).
  destruct (ball_bd 1 0 0 0 (Q 1 0 0 0) 4 (1 / 2) [0; 0; 0] (Q 1 0 0 0) 4 U U ltac:(lra) ltac:(lra) ltac:(lia)) as (vs & M & LV & NV).
  set (h := 31415926 / 10000000 / 2 + 1 / 1000000) in *. set (g := 31415926 / 10000000 + 1 / 1000000) in *.
  pose proof pi_lo as P1. pose proof pi_hi as P2. unfold cPI in *.
  set (t := h / 3). assert (HT : 5 / 10 < t < 53 / 100) by (unfold t, h; lra).
  set (w := fun j => evenly 4 g j).
  assert (DW : forall i j, w j - w i = (INR j - INR i) * (2 * g / 3)) by (intros i j; unfold w, evenly; cbn [INR]; field).
  assert (ET : evenly 4 h 1 = - t /\ evenly 4 h 2 = t) by (unfold evenly, t; cbn [INR]; split; field).
  assert (ID : forall v, app3 (rotm (Q 1 0 0 0)) v = v) by (intros v; rewrite upright_turn by ring; destruct v as [i1 i2 i3]; cbn [x3 y3 z3]; f_equal; ring).
  set (k := 3 / 2 * cos t). assert (K : 0 < k) by (unfold k; assert (0 < cos t) by (apply cos_gt_0; lra); lra).
  assert (V1 : forall j, (j < 4)%nat -> nth_error vs (4 + j) = Some (RV (0 + k * cos (w j)) (0 + k * sin (w j)) (- (3 / 2 * sin t)))).
  { intros j Lj. pose proof (NV 1%nat j ltac:(lia) Lj) as X. replace (1 * 4 + j)%nat with (4 + j)%nat in X by lia. rewrite X, ID. destruct ET as [E _]. rewrite E.
    unfold dir3, add3, scale3. cbn [x3 y3 z3]. rewrite cos_neg, sin_neg. f_equal. unfold k, w. f_equal; field. }
  assert (V2' : forall j, (j < 4)%nat -> nth_error vs (8 + j) = Some (RV (0 + k * cos (w j)) (0 + k * sin (w j)) (3 / 2 * sin t))).
  { intros j Lj. pose proof (NV 2%nat j ltac:(lia) Lj) as X. replace (2 * 4 + j)%nat with (8 + j)%nat in X by lia. rewrite X, ID. destruct ET as [_ E]. rewrite E.
    unfold dir3, add3, scale3. cbn [x3 y3 z3]. f_equal. unfold k, w. f_equal; field. }
  assert (CR : forall i j, k * cos (w i) * (k * sin (w j)) - k * sin (w i) * (k * cos (w j)) = k * k * sin (w j - w i)) by (intros i j; rewrite sin_minus; ring).
  assert (KK : 0 < k * k) by nra.
  assert (POS : forall z, triangle_hit 0 (RV 0 0 0) (RV 0 0 1) (RV (0 + k * cos (w 0%nat)) (0 + k * sin (w 0%nat)) z, RV (0 + k * cos (w 1%nat)) (0 + k * sin (w 1%nat)) z, RV (0 + k * cos (w 2%nat)) (0 + k * sin (w 2%nat)) z) (RV 0 0 z)).
  { intros z. apply (flat_hit (RV 0 0 0) z); rewrite CR, DW; cbn [INR]; apply Rmult_lt_0_compat; try exact KK.
    - apply sin_gt_0; unfold g; lra.
    - replace ((0 - (1 + 1)) * (2 * g / 3)) with (- (4 * g / 3)) by field. rewrite sin_neg. assert (sin (4 * g / 3) < 0) by (apply sin_lt_0; unfold g; lra). lra.
    - apply sin_gt_0; unfold g; lra. }
  exists (map (fun v => Some (v3_of v)) vs), (3 / 2 * sin t). assert (ST : 0 < sin t) by (apply sin_gt_0; lra).
  split; [lra|]. split; [exact M|]. rewrite map_length, LV. assert (FO : Forall (face_ok (4 * 4)) [(4, 5, 6)%nat; (8, 9, 10)%nat]) by (repeat constructor; unfold face_ok; lia).
  split; [exact FO|]. rewrite sampled_lift3. unfold vertical_at.
  eapply first_two with (t0 := (_, _, _)) (t1 := (_, _, _)); [| | | |exact (POS _)|exact (POS _)].
  - intros E. rewrite E in LV. cbn [length] in LV. lia.
  - rewrite LV. exact FO.
  - unfold face_corners. split; [exact (V1 0%nat ltac:(lia))|]. split; [exact (V1 1%nat ltac:(lia))|exact (V1 2%nat ltac:(lia))].
  - unfold face_corners. split; [exact (V2' 0%nat ltac:(lia))|]. split; [exact (V2' 1%nat ltac:(lia))|exact (V2' 2%nat ltac:(lia))].
Qed.
