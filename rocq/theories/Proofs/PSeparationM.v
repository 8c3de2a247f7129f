(** Two positive quadratic forms in space, brought to diagonal form together. *)
From Coq Require Import List Reals ZArith Arith Bool Lia Lra Psatz.
From Verif.Model Require Import MGeom MMultiBody MTightFit.
From Verif.Spec Require Import SGeom SRigid.
From Verif.Proofs Require Import PGeom PGeom2 PGeom3 PRot PTight2 PTight2X PTight3 PSpectral3.
Import ListNotations.
Local Open Scope R_scope.

Lemma joint_diagonal s1 s2 s3 b11 b12 b13 b22 b23 b33 c1 c2 c3 : 0 < s1 -> 0 < s2 -> 0 < s3 ->
  (forall x y z, (x <> 0 \/ y <> 0 \/ z <> 0) -> 0 < b11 * (x * x) + b22 * (y * y) + b33 * (z * z) + 2 * (b12 * (x * y)) + 2 * (b13 * (x * z)) + 2 * (b23 * (y * z))) ->
  exists u1 u2 u3 v1 v2 v3 w1 w2 w3 la lb lc y1 y2 y3,
    lb <= la /\ lc <= lb /\ 0 < lb /\
    b11 = la * (u1 * u1) + lb * (v1 * v1) + lc * (w1 * w1) /\
    b12 = la * (u1 * u2) + lb * (v1 * v2) + lc * (w1 * w2) /\
    b13 = la * (u1 * u3) + lb * (v1 * v3) + lc * (w1 * w3) /\
    b22 = la * (u2 * u2) + lb * (v2 * v2) + lc * (w2 * w2) /\
    b23 = la * (u2 * u3) + lb * (v2 * v3) + lc * (w2 * w3) /\
    b33 = la * (u3 * u3) + lb * (v3 * v3) + lc * (w3 * w3) /\
    / (s1 * s1) = u1 * u1 + v1 * v1 + w1 * w1 /\ 0 = u1 * u2 + v1 * v2 + w1 * w2 /\ 0 = u1 * u3 + v1 * v3 + w1 * w3 /\
    / (s2 * s2) = u2 * u2 + v2 * v2 + w2 * w2 /\ 0 = u2 * u3 + v2 * v3 + w2 * w3 /\ / (s3 * s3) = u3 * u3 + v3 * v3 + w3 * w3 /\
    c1 = y1 * u1 + y2 * v1 + y3 * w1 /\ c2 = y1 * u2 + y2 * v2 + y3 * w2 /\ c3 = y1 * u3 + y2 * v3 + y3 * w3.
Proof.
  intros S1 S2 S3 PD.
  set (A := M3 (V3r (s1 * s1 * b11) (s1 * s2 * b12) (s1 * s3 * b13)) (V3r (s1 * s2 * b12) (s2 * s2 * b22) (s2 * s3 * b23)) (V3r (s1 * s3 * b13) (s2 * s3 * b23) (s3 * s3 * b33))).
  destruct (eigen_spec A eq_refl) as (F & EU & EV & EW & L1 & L2).
  pose proof (eigen_frame A _ _ _ _ _ _ F EU EV EW) as AE. pose proof (frame_orth _ _ _ F) as [O _].
  pose proof (frame_decomp _ _ _ (V3r (s1 * c1) (s2 * c2) (s3 * c3)) F) as XD.
  set (la := PSpectral3.la (eigen A)) in *. set (lb := PSpectral3.lb (eigen A)) in *. set (lc := PSpectral3.lc (eigen A)) in *.
  destruct (PSpectral3.eu (eigen A)) as [u1 u2 u3]. destruct (PSpectral3.ev (eigen A)) as [v1 v2 v3]. destruct (PSpectral3.ew (eigen A)) as [w1 w2 w3].
  clearbody la lb lc.
  unfold conj3, cols, mul3, tr3, diag3, app3, dot3, A in AE. cbn [r0 r1 r2 x3 y3 z3] in AE.
  unfold cols, mul3, tr3, app3, dot3, id3 in O. cbn [r0 r1 r2 x3 y3 z3] in O.
  unfold add3, scale3 in XD. cbn [x3 y3 z3] in XD.
  assert (A11 := f_equal (fun m => x3 (r0 m)) AE). assert (A12 := f_equal (fun m => y3 (r0 m)) AE). assert (A13 := f_equal (fun m => z3 (r0 m)) AE).
  assert (A22 := f_equal (fun m => y3 (r1 m)) AE). assert (A23 := f_equal (fun m => z3 (r1 m)) AE). assert (A33 := f_equal (fun m => z3 (r2 m)) AE).
  assert (O11 := f_equal (fun m => x3 (r0 m)) O). assert (O12 := f_equal (fun m => y3 (r0 m)) O). assert (O13 := f_equal (fun m => z3 (r0 m)) O).
  assert (O22 := f_equal (fun m => y3 (r1 m)) O). assert (O23 := f_equal (fun m => z3 (r1 m)) O). assert (O33 := f_equal (fun m => z3 (r2 m)) O).
  assert (X1 := f_equal x3 XD). assert (X2 := f_equal y3 XD). assert (X3 := f_equal z3 XD).
  cbn [r0 r1 r2 x3 y3 z3] in A11, A12, A13, A22, A23, A33, O11, O12, O13, O22, O23, O33, X1, X2, X3. clear AE O XD.
  assert (U : v1 * v1 + v2 * v2 + v3 * v3 = 1) by (destruct F as (_ & F & _); unfold dot3 in F; cbn [x3 y3 z3] in F; lra).
  assert (LB : lb = b11 * (s1 * v1 * (s1 * v1)) + b22 * (s2 * v2 * (s2 * v2)) + b33 * (s3 * v3 * (s3 * v3)) + 2 * (b12 * (s1 * v1 * (s2 * v2))) + 2 * (b13 * (s1 * v1 * (s3 * v3))) + 2 * (b23 * (s2 * v2 * (s3 * v3)))).
  { assert (V1 := f_equal x3 EV). assert (V2 := f_equal y3 EV). assert (V3' := f_equal z3 EV). unfold A, app3, dot3, scale3 in V1, V2, V3'. cbn [r0 r1 r2 x3 y3 z3] in V1, V2, V3'.
    transitivity (v1 * (lb * v1) + v2 * (lb * v2) + v3 * (lb * v3)); [transitivity (lb * (v1 * v1 + v2 * v2 + v3 * v3)); [rewrite U; ring|ring]|].
    rewrite <- V1, <- V2, <- V3'. ring. }
  assert (LP : 0 < lb).
  { rewrite LB. apply PD. destruct (Req_dec v1 0) as [->|N1].
    - destruct (Req_dec v2 0) as [->|N2].
      + destruct (Req_dec v3 0) as [->|N3]; [lra|]. right; right. apply Rmult_integral_contrapositive; split; lra.
      + right; left. apply Rmult_integral_contrapositive; split; lra.
    - left. apply Rmult_integral_contrapositive; split; lra. }
  set (d := dot3 (V3r u1 u2 u3) (V3r (s1 * c1) (s2 * c2) (s3 * c3))) in *. set (e := dot3 (V3r v1 v2 v3) (V3r (s1 * c1) (s2 * c2) (s3 * c3))) in *.
  set (f := dot3 (V3r w1 w2 w3) (V3r (s1 * c1) (s2 * c2) (s3 * c3))) in *. clearbody d e f. clear LB F EU EV EW A PD U.
  exists (u1 / s1), (u2 / s2), (u3 / s3), (v1 / s1), (v2 / s2), (v3 / s3), (w1 / s1), (w2 / s2), (w3 / s3), la, lb, lc, d, e, f.
  assert (EQ : forall k x y, k <> 0 -> k * x = k * y -> x = y) by (intros k x y K E; apply (Rmult_eq_reg_l k); auto).
  assert (N1 : s1 <> 0) by lra. assert (N2 : s2 <> 0) by lra. assert (N3 : s3 <> 0) by lra.
  split; [exact L1|]. split; [exact L2|]. split; [exact LP|].
  assert (PR : forall a b, a <> 0 -> b <> 0 -> a * b <> 0) by (intros a b Ha Hb; apply Rmult_integral_contrapositive; auto).
  split; [apply (EQ (s1 * s1)); [auto|rewrite A11; field; auto]|].
  split; [apply (EQ (s1 * s2)); [auto|rewrite A12; field; auto]|].
  split; [apply (EQ (s1 * s3)); [auto|rewrite A13; field; auto]|].
  split; [apply (EQ (s2 * s2)); [auto|rewrite A22; field; auto]|].
  split; [apply (EQ (s2 * s3)); [auto|rewrite A23; field; auto]|].
  split; [apply (EQ (s3 * s3)); [auto|rewrite A33; field; auto]|].
  split; [apply (EQ (s1 * s1)); [auto|rewrite Rinv_r by auto; rewrite <- O11; field; auto]|].
  split; [apply (EQ (s1 * s2)); [auto|rewrite Rmult_0_r; rewrite <- O12; field; auto]|].
  split; [apply (EQ (s1 * s3)); [auto|rewrite Rmult_0_r; rewrite <- O13; field; auto]|].
  split; [apply (EQ (s2 * s2)); [auto|rewrite Rinv_r by auto; rewrite <- O22; field; auto]|].
  split; [apply (EQ (s2 * s3)); [auto|rewrite Rmult_0_r; rewrite <- O23; field; auto]|].
  split; [apply (EQ (s3 * s3)); [auto|rewrite Rinv_r by auto; rewrite <- O33; field; auto]|].
  split; [apply (EQ s1); [auto|rewrite X1; field; auto]|].
  split; [apply (EQ s2); [auto|rewrite X2; field; auto]|].
  apply (EQ s3); [auto|rewrite X3; field; auto].
Qed.
