(** A correct decomposition whose orthogonal factor is a reflection spoils the ellipsoid. *)
From Coq Require Import List Reals ZArith Arith Bool Lia Lra Psatz.
From Verif.Base Require Import Outcome.
From Verif.Model Require Import MGeom MMultiBody MTightFit.
From Verif.Spec Require Import SGeom SRigid.
From Verif.Proofs Require Import PGeom PGeom2 PGeom3 PRot PTight2 PTight2X PTight3 PSpectral3.
Import ListNotations.
Local Open Scope R_scope.

Lemma v3_deci (u v : v3) : {u = v} + {u <> v}.
Proof.
  destruct u as [a b c], v as [d e f]. destruct (Req_EM_T a d) as [->|N]; [|right; intros E; injection E; intros; contradiction].
  destruct (Req_EM_T b e) as [->|N]; [|right; intros E; injection E; intros; contradiction].
  destruct (Req_EM_T c f) as [->|N]; [left; reflexivity|right; intros E; injection E; intros; contradiction].
Qed.
Lemma m3_deci (A B : m3) : {A = B} + {A <> B}.
Proof.
  destruct A as [a b c], B as [d e f]. destruct (v3_deci a d) as [->|N]; [|right; intros E; injection E; intros; contradiction].
  destruct (v3_deci b e) as [->|N]; [|right; intros E; injection E; intros; contradiction].
  destruct (v3_deci c f) as [->|N]; [left; reflexivity|right; intros E; injection E; intros; contradiction].
Qed.
Definition one_q : quat := Q 1 0 0 0.
Lemma one_unit : unit_quat one_q.
Proof. unfold unit_quat, one_q. cbn. ring. Qed.
(** The matrix of the ellipsoid with semi-axes 3, 2, 1, and its decomposition with the vectors
    in order of decreasing singular value. *)
Definition C0m : m3 := diag3 (/ (3 * 3)) (/ (2 * 2)) (/ (1 * 1)).
Definition W0m : m3 := M3 (V3r 0 0 1) (V3r 0 1 0) (V3r 1 0 0).
Definition svd_swap (A : m3) : m3 * (R * R * R) := if m3_deci A C0m then (W0m, (/ (1 * 1), / (2 * 2), / (3 * 3))) else eigen_svd 1 A.
Lemma W0_orth : orthogonal3 W0m.
Proof. split; apply m3_ext; intros v; rewrite app_mul3, app_id; unfold W0m, tr3; v3r. Qed.
Lemma swap_ok : svd3_ok svd_swap.
Proof.
  intros A PA. unfold svd_swap. destruct (m3_deci A C0m) as [->|_].
  - split; [exact W0_orth|]. split; [exists W0m; split; [exact W0_orth|]|lra].
    apply m3_ext. intros v. rewrite !app_mul3. unfold C0m, W0m, tr3, diag3, app3, dot3. cbn [x3 y3 z3 r0 r1 r2]. apply v3_eq; cbn [x3 y3 z3]; ring.
  - destruct (eigen_svd_ok 1) as [OK _]; [ring|]. exact (OK A PA).
Qed.
Lemma swap_quat : exists w, quat_of W0m = Some (Q w 0 0 0) /\ w * w = 1 / 2.
Proof.
  unfold quat_of, W0m. cbn [x3 y3 z3 r0 r1 r2]. replace (0 + 1 + 0) with 1 by ring. destruct (Rlt_dec 0 1) as [_|N]; [|lra].
  unfold from_root. destruct (Rlt_dec 0 (1 + 1)) as [_|N]; [|lra]. cbn [obnd].
  exists (sqrt (1 + 1) / 2). split; [|replace (sqrt (1 + 1) / 2 * (sqrt (1 + 1) / 2)) with (sqrt (1 + 1) * sqrt (1 + 1) / 4) by field; rewrite sqrt_sqrt by lra; field].
  f_equal. f_equal; ring.
Qed.
(** The result for two identical ellipsoids: not a unit quaternion, and it contains neither,
    whether points are turned by q v q* or by the matrix the shape classes use. *)
Lemma mvce3_swap : exists c q p, mvce3 svd_swap (3, 2, 1) (3, 2, 1) one_q one_q = Some (c, q) /\
  ~ unit_quat q /\ in3 (ellipsoid0 (3, 2, 1) one_q) p /\ ~ in3 (ellipsoid0 c q) p /\
  (forall l, p = app3 (rotm q) l -> 1 < shape3 (ellipsoid0 c q) l).
Proof.
  assert (PA : pos_axes3 (3, 2, 1)) by (repeat split; cbn; lra).
  destruct (mvce3_matrix svd_swap swap_ok (3, 2, 1) (3, 2, 1) one_q one_q PA PA one_unit one_unit) as (C & W & z0 & z1 & z2 & PC & EW & SW & Z0 & Z1 & Z2 & EC & ER & _ & _ & EQ & _).
  specialize (EQ eq_refl eq_refl). cbn [fst snd] in EQ.
  assert (R1 : rotm one_q = id3) by (apply m3_ext; intros v; rewrite <- turn_rotm by exact one_unit; rewrite app_id; destruct v; apply v3_eq; unfold turn, hmul, one_q; cbn; ring).
  assert (CE : C = C0m). { rewrite EQ, R1. apply m3_ext. intros v. unfold conj3. rewrite !app_mul3, app_id. assert (T : tr3 id3 = id3) by reflexivity. rewrite T, app_id. reflexivity. }
  rewrite CE in EW. unfold svd_swap in EW. destruct (m3_deci C0m C0m) as [_|N]; [|elim N; reflexivity]. injection EW as <- <- <- <-.
  destruct swap_quat as [w [QE WW]]. rewrite QE in ER. cbn [obnd] in ER.
  set (c := (/ sqrt (/ (1 * 1)), / sqrt (/ (2 * 2)), / sqrt (/ (3 * 3)))) in ER.
  assert (SR : forall x, 0 < x -> / sqrt (/ (x * x)) = x). { intros x P. rewrite sqrt_inv by nra. rewrite sqrt_square by lra. apply Rinv_inv. }
  assert (CC : c = (1, 2, 3)) by (unfold c; rewrite !SR by lra; reflexivity). rewrite CC in ER. clear c CC.
  exists (1, 2, 3), (Q w 0 0 0), (V3r 3 0 0). split; [exact ER|].
  assert (SH : forall l q, shape3 (ellipsoid0 (1, 2, 3) q) l = x3 l / 1 * (x3 l / 1) + y3 l / 2 * (y3 l / 2) + z3 l / 3 * (z3 l / 3)) by (intros; apply shape_ell).
  split; [unfold unit_quat; cbn; lra|]. split; [|split].
  - exists (V3r 3 0 0). split.
    + unfold placed. rewrite turn_rotm by exact one_unit. cbn [ellipsoid0 ellipsoid_at sctr SGeom.sq]. rewrite R1, app_id. v3r.
    + unfold ellipsoid0. cbn [fst snd]. rewrite shape_ell. cbn. lra.
  - intros [l [E H]]. rewrite SH in H. unfold placed in E. cbn [ellipsoid0 ellipsoid_at sctr SGeom.sq fst snd] in E.
    assert (X : 3 = w * w * x3 l) by (pose proof (f_equal x3 E) as X; unfold turn, hmul, hconj, add3 in X; cbn in X; lra).
    rewrite WW in X. assert (X6 : x3 l = 6) by lra. rewrite X6 in H.
    pose proof (Rle_0_sqr (y3 l / 2)). pose proof (Rle_0_sqr (z3 l / 3)). unfold Rsqr in *. lra.
  - intros l E. rewrite SH. assert (RQ : app3 (rotm (Q w 0 0 0)) l = l) by (destruct l; apply v3_eq; unfold app3, rotm, dot3; cbn; ring).
    rewrite RQ in E. subst l. cbn. lra.
Qed.
