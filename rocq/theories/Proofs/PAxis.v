(** The vertical line through the centre of a ball: the first two faces it hits are both at the
    bottom. *)
From Coq Require Import List Reals ZArith Arith Bool Lia Lra Psatz.
From Verif.Base Require Import Outcome.
From Verif.Model Require Import MScalar MLine3D MInterp MGeom MMesh.
From Verif.Spec Require Import SLine3D SGeom SRigid SCover SCover3.
From Verif.Proofs Require Import PLine3D PGeom PGeom2 PGeom3 PGeomX PInscribed PShape PCoverX PDiscPlan PCover3.
Import ListNotations.
Local Open Scope R_scope.

(** ---- one triangle of the fan ---- *)
Section Fan.
Variables (c : rvec) (R0 s0 c0 sb cb : R).
Hypothesis RP : 0 < R0.
Hypothesis S0 : 0 < s0.
Hypothesis S01 : s0 <= sb.
Hypothesis C0 : 0 < cb <= c0.
Hypothesis C01 : c0 <= 1.
Hypothesis U1 : sb * sb + cb * cb = 1.
Definition top (ex ey : R) : rvec := RV (rx c - R0 * s0 * ex) (ry c - R0 * s0 * ey) (rz c - R0 * c0).
Definition ring1 (ex ey : R) : rvec := RV (rx c + R0 * sb * ex) (ry c + R0 * sb * ey) (rz c - R0 * cb).
Definition foot : R := rz c - R0 * ((sb * c0 + s0 * cb) / (s0 + sb)).
Lemma fan_hit ex ey fx fy : ex * ex + ey * ey = 1 -> fx * fx + fy * fy = 1 -> 4 * tol < ex * fy - ey * fx ->
  triangle_hit 0 (RV (rx c) (ry c) 0) (RV 0 0 1) (top ex ey, ring1 ex ey, ring1 fx fy) (RV (rx c) (ry c) foot).
Proof.
  intros E1 F1 CR. pose proof tol_pos as T0. split; [|split].
  - set (k := s0 + sb). set (w := c0 - cb).
    assert (W : 0 <= w <= sb).
    { unfold w. split; [lra|]. assert (1 - cb <= sb). { assert (sb * sb <= sb * 1) by (apply Rmult_le_compat_l; nra). assert (cb * cb <= cb * 1) by (apply Rmult_le_compat_l; nra). lra. } lra. }
    set (u := rsub (ring1 ex ey) (top ex ey)). set (v := rsub (ring1 fx fy) (top ex ey)).
    assert (Eu : u = RV (R0 * (k * ex)) (R0 * (k * ey)) (R0 * w)) by (unfold u, rsub, ring1, top, k, w; cbn [rx ry rz]; f_equal; ring).
    assert (Ev : v = RV (R0 * (sb * fx + s0 * ex)) (R0 * (sb * fy + s0 * ey)) (R0 * w)) by (unfold v, rsub, ring1, top, w; cbn [rx ry rz]; f_equal; ring).
    assert (NZ : rdot (rcross u v) (RV 0 0 1) = R0 * R0 * (k * sb * (ex * fy - ey * fx))) by (rewrite Eu, Ev; unfold rdot, rcross; cbn [rx ry rz]; ring).
    assert (LG : rdot (rcross u v) (rcross u v) = rdot u u * rdot v v - rdot u v * rdot u v) by (unfold rdot, rcross; cbn [rx ry rz]; ring).
    assert (UU : rdot u u <= R0 * R0 * (2 * (k * k))).
    { rewrite Eu. unfold rdot. cbn [rx ry rz]. replace (R0 * (k * ex) * (R0 * (k * ex)) + R0 * (k * ey) * (R0 * (k * ey)) + R0 * w * (R0 * w)) with (R0 * R0 * (k * k * (ex * ex + ey * ey) + w * w)) by ring.
      rewrite E1. apply Rmult_le_compat_l; [nra|]. assert (w * w <= k * k) by (apply Rmult_le_compat; unfold k; lra). lra. }
    assert (VV : rdot v v <= R0 * R0 * (2 * (k * k))).
    { rewrite Ev. unfold rdot. cbn [rx ry rz]. 
      replace (R0 * (sb * fx + s0 * ex) * (R0 * (sb * fx + s0 * ex)) + R0 * (sb * fy + s0 * ey) * (R0 * (sb * fy + s0 * ey)) + R0 * w * (R0 * w))
        with (R0 * R0 * (sb * sb * (fx * fx + fy * fy) + s0 * s0 * (ex * ex + ey * ey) + 2 * (s0 * sb) * (fx * ex + fy * ey) + w * w)) by ring.
      rewrite E1, F1. apply Rmult_le_compat_l; [nra|]. assert (w * w <= k * k) by (apply Rmult_le_compat; unfold k; lra).
      assert (DT : fx * ex + fy * ey <= 1) by (pose proof (Rle_0_sqr (fx - ex)) as Q1; pose proof (Rle_0_sqr (fy - ey)) as Q2; unfold Rsqr in *; lra).
      assert (0 <= s0 * sb) by (apply Rmult_le_pos; lra). assert (2 * (s0 * sb) * (fx * ex + fy * ey) <= 2 * (s0 * sb)) by nra. unfold k. unfold k in H. lra. }
    assert (U0 : 0 <= rdot u u) by (unfold rdot; nra). assert (V0 : 0 <= rdot v v) by (unfold rdot; nra).
    set (m := R0 * R0 * (2 * (k * k))) in *. assert (KP : 0 < k) by (unfold k; lra). assert (RR : 0 < R0 * R0) by (apply Rmult_lt_0_compat; lra).
    assert (M0 : 0 < m) by (unfold m; apply Rmult_lt_0_compat; [exact RR|]; nra).
    assert (NN : rnorm (rcross u v) <= m).
    { unfold rnorm. rewrite <- (sqrt_square m) by lra. apply sqrt_le_1_alt. rewrite LG. pose proof (Rle_0_sqr (rdot u v)) as Q. unfold Rsqr in Q.
      assert (rdot u u * rdot v v <= m * m) by (apply Rmult_le_compat; assumption). lra. }
    assert (BIG : tol * m < rdot (rcross u v) (RV 0 0 1)).
    { rewrite NZ. unfold m. replace (tol * (R0 * R0 * (2 * (k * k)))) with (R0 * R0 * (k * (2 * tol * k))) by ring. replace (k * sb * (ex * fy - ey * fx)) with (k * (sb * (ex * fy - ey * fx))) by ring.
      apply Rmult_lt_compat_l; [exact RR|]. apply Rmult_lt_compat_l; [exact KP|].
      apply Rle_lt_trans with (sb * (4 * tol)); [unfold k; nra|]. apply Rmult_lt_compat_l; lra. }
    assert (TM : 0 < tol * m) by (apply Rmult_lt_0_compat; lra).
    unfold crosses_plane. fold u v. split.
    + unfold rnorm. apply sqrt_lt_R0. set (nz := rdot (rcross u v) (RV 0 0 1)) in *.
      assert (Q : nz = rz (rcross u v)) by (unfold nz, rdot; cbn [rx ry rz]; ring). unfold rdot. rewrite <- Q.
      pose proof (Rle_0_sqr (rx (rcross u v))) as Q1. pose proof (Rle_0_sqr (ry (rcross u v))) as Q2. unfold Rsqr in *.
      assert (0 < nz * nz) by (apply Rmult_lt_0_compat; lra). lra.
    + rewrite Rabs_pos_eq by lra. apply Rle_lt_trans with (tol * m); [apply Rmult_le_compat_l; lra|exact BIG].
  - exists foot. unfold radd, rscale. cbn [rx ry rz]. f_equal; ring.
  - exists (s0 / (s0 + sb)), 0. assert (KP : 0 < s0 + sb) by lra. assert (Q : 0 <= s0 / (s0 + sb) <= 1).
    { split; [apply Rmult_le_pos; [lra|left; apply Rinv_0_lt_compat; lra]|]. apply Rmult_le_reg_r with (s0 + sb); [lra|]. unfold Rdiv. rewrite Rmult_assoc, Rinv_l by lra. lra. }
    split; [|lra]. unfold radd, rscale, rsub, ring1, top, foot. cbn [rx ry rz]. f_equal; field; lra.
Qed.
Lemma foot_low : foot <= rz c - R0 * cb.
Proof.
  unfold foot. assert (cb <= (sb * c0 + s0 * cb) / (s0 + sb)).
  { apply Rmult_le_reg_r with (s0 + sb); [lra|]. unfold Rdiv. rewrite Rmult_assoc, Rinv_l by lra. nra. }
  assert (R0 * cb <= R0 * ((sb * c0 + s0 * cb) / (s0 + sb))) by (apply Rmult_le_compat_l; lra). lra.
Qed.
End Fan.

(** ---- the samples of a ball ---- *)
Definition dir3 (et om : R) : v3 := V3r (cos et * cos om) (cos et * sin om) (sin et).
Lemma dir_unit et om : dot3 (dir3 et om) (dir3 et om) = 1.
Proof.
  unfold dot3, dir3. cbn [x3 y3 z3]. pose proof (cs1 et) as C1'. pose proof (cs1 om) as C2.
  transitivity (cos et * cos et * (cos om * cos om + sin om * sin om) + sin et * sin et); [ring|]. rewrite C2. lra.
Qed.
Lemma tr_dot_ q n : unit_quat q -> dot3 (app3 (tr3 (rotm q)) n) (app3 (tr3 (rotm q)) n) = dot3 n n.
Proof. intros U. rewrite <- (rot_dot q _ _ U). rewrite tr_rot by exact U. reflexivity. Qed.
Lemma off_ball A q n r : unit_quat q -> 0 < A -> 0 < r -> dot3 n n = r * r -> off3 A A A q n = scale3 (A / r) n.
Proof.
  intros U HA Hr E. assert (D : dq A A A q n = scale3 A (app3 (tr3 (rotm q)) n)) by (unfold dq, dia, scale3; cbn [x3 y3 z3]; reflexivity).
  assert (NR : norm3 (dq A A A q n) = A * r).
  { rewrite D. unfold norm3. replace (dot3 (scale3 A (app3 (tr3 (rotm q)) n)) (scale3 A (app3 (tr3 (rotm q)) n))) with (A * (A * dot3 (app3 (tr3 (rotm q)) n) (app3 (tr3 (rotm q)) n))) by (unfold dot3, scale3; cbn [x3 y3 z3]; ring).
    replace (dot3 (app3 (tr3 (rotm q)) n) (app3 (tr3 (rotm q)) n)) with (r * r).
    2:{ rewrite <- E. symmetry. exact (tr_dot_ q n U). }
    replace (A * (A * (r * r))) with (A * r * (A * r)) by ring. apply sqrt_square. apply Rmult_le_pos; lra. }
  unfold off3. rewrite NR, D. 
  replace (dia A A A (scale3 A (app3 (tr3 (rotm q)) n))) with (scale3 (A * A) (app3 (tr3 (rotm q)) n)) by (unfold dia, scale3; cbn [x3 y3 z3]; f_equal; ring).
  rewrite app_scale, tr_rot by exact U. unfold scale3. cbn [x3 y3 z3]. f_equal; field; lra.
Qed.
Lemma msample_ball a A q ctr q2 et om : unit_quat q -> unit_quat q2 -> 0 < a -> 0 < A ->
  msample3 a a a 1 1 q ctr A A A q2 1 (et, om) = add3 ctr (scale3 (a + A) (app3 (rotm q) (dir3 et om))).
Proof.
  intros U U2 Ha HA. unfold msample3.
  assert (G : gcanon3 a a a 1 1 (et, om) = scale3 (/ a) (dir3 et om)).
  { unfold gcanon3, dir3, scale3. cbn [fst snd x3 y3 z3]. replace (2 - 1) with 1 by ring. rewrite !spow1. f_equal; field; lra. }
  rewrite G, (off_ball A q2 _ (/ a)); [|exact U2|exact HA|apply Rinv_0_lt_compat; exact Ha|].
  - unfold sample3. replace (canon3 a a a 1 1 (et, om)) with (scale3 a (dir3 et om)).
    + rewrite !app_scale. unfold add3, scale3. cbn [x3 y3 z3]. f_equal; field; lra.
    + unfold canon3, dir3, scale3. cbn [fst snd x3 y3 z3]. rewrite !spow1. f_equal; ring.
  - transitivity (/ a * (/ a * dot3 (app3 (rotm q) (dir3 et om)) (app3 (rotm q) (dir3 et om)))).
    + rewrite app_scale. unfold dot3, scale3. cbn [x3 y3 z3]. ring.
    + rewrite rot_dot by exact U. rewrite dir_unit. ring.
Qed.
Lemma ball_bd a px py pz q num A pos2 q2 num2 : unit_quat q -> unit_quat q2 -> 0 < a -> 0 < A -> (2 <= num)%nat ->
  exists vs, mink3 (SQ [a; a; a] [1; 1] [px; py; pz] q num) (SQ [A; A; A] [1; 1] pos2 q2 num2) 1 = Ok (map (fun v => Some (v3_of v)) vs) /\
    length vs = (num * num)%nat /\
    forall i j, (i < num)%nat -> (j < num)%nat -> nth_error vs (i * num + j) = Some (
      let v := add3 (V3r px py pz) (scale3 (a + A) (app3 (rotm q) (dir3 (evenly num (31415926 / 10000000 / 2 + 1 / 1000000) i) (evenly num (31415926 / 10000000 + 1 / 1000000) j)))) in
      RV (x3 v) (y3 v) (z3 v)).
Proof.
  intros U U2 Ha HA N.
  exists (map (fun eo => let v := msample3 a a a 1 1 q (V3r px py pz) A A A q2 (IZR 1) eo in RV (x3 v) (y3 v) (z3 v)) (params3 num)).
  split.
  - rewrite mink3_eq; try assumption.
    + rewrite map_map. f_equal.
    + unfold convex3, proper3. cbn. repeat split; try lra; exact U.
  - split; [rewrite map_length; apply params3_len|]. intros i j Li Lj. rewrite nth_error_map.
    assert (P : nth_error (params3 num) (i * num + j) = Some (evenly num (31415926 / 10000000 / 2 + 1 / 1000000) i, evenly num (31415926 / 10000000 + 1 / 1000000) j)).
    { unfold params3. pose proof (linspaced_len num (- cPI - cEPSILON) (cPI + cEPSILON)) as LL. fold (omegas num) in LL. rewrite <- LL at 2.
      apply nth_flat.
      - unfold etas. replace (- cHALF_PI - cEPSILON) with (- (cHALF_PI + cEPSILON)) by ring. apply nth_linspaced; assumption.
      - unfold omegas. replace (- cPI - cEPSILON) with (- (cPI + cEPSILON)) by ring. apply nth_linspaced; assumption. }
    rewrite P. cbn [option_map]. rewrite msample_ball by assumption. reflexivity.
Qed.
Lemma sampled_lift3 vs fs : sampled_mesh (map (fun v => Some (v3_of v)) vs) fs = lift_mesh vs fs.
Proof. unfold sampled_mesh, lift_mesh. rewrite map_map. f_equal. Qed.
