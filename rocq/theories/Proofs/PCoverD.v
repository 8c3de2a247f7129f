(** A point farther from the centre than the sampled circle is outside its polygon. *)
From Coq Require Import List Reals ZArith Arith Bool Lia Lra Psatz.
From Verif.Base Require Import Outcome.
From Verif.Model Require Import MScalar MLine2D MGeom.
From Verif.Spec Require Import SLine2D SGeom SRigid SCover.
From Verif.Proofs Require Import PLine2D PGeom PGeom2 PGeomX PShape PInscribed PCover PCoverS PCoverX.
Import ListNotations.
Local Open Scope R_scope.

Lemma angle_of X Y : 0 < X * X + Y * Y -> exists ph, 0 <= ph <= 2 * PI /\ X = sqrt (X * X + Y * Y) * cos ph /\ Y = sqrt (X * X + Y * Y) * sin ph.
Proof.
  intros P. set (q := sqrt (X * X + Y * Y)). assert (Q : 0 < q) by (apply sqrt_lt_R0; exact P).
  assert (QQ : q * q = X * X + Y * Y) by (apply sqrt_sqrt; lra). clearbody q.
  assert (XB : -1 <= X / q <= 1).
  { assert (A : - q <= X <= q) by (split; nra). split; apply Rmult_le_reg_r with q; try lra; unfold Rdiv; rewrite Rmult_assoc, Rinv_l by lra; lra. }
  pose proof (acos_bound (X / q)) as B. pose proof (cos_acos (X / q) XB) as C. pose proof (sin_acos (X / q) XB) as S.
  assert (SV : sqrt (1 - (X / q)²) = Rabs Y / q).
  { replace (1 - (X / q)²) with ((Rabs Y / q) * (Rabs Y / q)).
    - apply sqrt_square. apply Rmult_le_pos; [apply Rabs_pos|left; apply Rinv_0_lt_compat; exact Q].
    - unfold Rsqr. assert (Rabs Y * Rabs Y = Y * Y) by (unfold Rabs; destruct (Rcase_abs Y); ring).
      replace (Rabs Y / q * (Rabs Y / q)) with (Rabs Y * Rabs Y / (q * q)) by (field; lra). rewrite H. replace (Y * Y) with (q * q - X * X) by lra. field. lra. }
  rewrite SV in S. destruct (Rle_dec 0 Y) as [Y0|Y0].
  - exists (acos (X / q)). pose proof PI_RGT_0. split; [lra|]. rewrite C, S, Rabs_right by lra. split; field; lra.
  - exists (2 * PI - acos (X / q)). pose proof PI_RGT_0. split; [lra|]. rewrite cos_minus, sin_minus, cos_2PI, sin_2PI, C, S, Rabs_left by lra. split; field; lra.
Qed.
Lemma sector h n ph : 0 <= ph <= 2 * INR n * h -> (0 < n)%nat -> exists i, (i < n)%nat /\ 2 * INR i * h <= ph <= 2 * INR (S i) * h.
Proof.
  induction n as [|n IH]; intros P N; [lia|]. destruct (Rle_dec (2 * INR n * h) ph) as [L|L].
  - exists n. split; [lia|]. lra.
  - destruct n as [|n]; [cbn in L; lra|]. destruct (IH ltac:(lra) ltac:(lia)) as (i & I & H). exists i. split; [lia|exact H].
Qed.
Lemma cos_near h x : 0 <= h <= PI -> - h <= x <= h -> cos h <= cos x.
Proof.
  intros H X. destruct (Rle_dec 0 x) as [P|P].
  - destruct (Req_dec x h) as [-> |N]; [lra|]. left. apply cos_decreasing_1; lra.
  - rewrite <- (cos_neg x). destruct (Req_dec (- x) h) as [-> |N]; [lra|]. left. apply cos_decreasing_1; lra.
Qed.
Section DiscOut.
Variables (c : v2) (r t : R) (num : nat).
Hypothesis R0 : 0 < r.
Hypothesis N3 : (3 <= num)%nat.
Lemma edge_step i : (S i < num)%nat -> is_edge (disc_poly c r t num) (vert c r t num i) (vert c r t num (S i)).
Proof.
  intros L. left. exists i. unfold disc_poly. assert (K : forall j, (j < num)%nat -> nth_error (map (vert c r t num) (seq 0 num)) j = Some (vert c r t num j)).
  { intros j J. rewrite nth_error_map, (nth_error_nth' (seq 0 num) 0%nat) by (rewrite seq_length; exact J). rewrite seq_nth by exact J. reflexivity. }
  rewrite !K by lia. auto.
Qed.
Lemma edge_close : is_edge (disc_poly c r t num) (vert c r t num (num - 1)) (vert c r t num 0).
Proof.
  right. unfold disc_poly. destruct num as [|n]; [lia|]. exists (map (vert c r t (S n)) (seq 1 n)). split; [reflexivity|].
  assert (E : seq 0 (S n) = seq 0 n ++ [n]) by (rewrite seq_S; reflexivity). rewrite E, map_app. cbn [map]. rewrite last_last. f_equal. lia.
Qed.
Lemma disc_outside q : r * r < (fst q - x2 c) * (fst q - x2 c) + (snd q - y2 c) * (snd q - y2 c) -> strictly_outside (disc_poly c r t num) q.
Proof.
  intros H. set (X := fst q - x2 c) in *. set (Y := snd q - y2 c) in *.
  assert (RR : 0 < r * r) by (apply Rmult_lt_0_compat; lra).
  pose (X' := X * cos t + Y * sin t). pose (Y' := - X * sin t + Y * cos t). pose proof (cs1 t) as CT.
  assert (Q2 : X' * X' + Y' * Y' = X * X + Y * Y).
  { unfold X', Y'. transitivity ((X * X + Y * Y) * (cos t * cos t + sin t * sin t)); [ring|rewrite CT; ring]. }
  destruct (angle_of X' Y' ltac:(rewrite Q2; lra)) as (ph & PH & EX & EY). rewrite Q2 in EX, EY.
  set (rho := sqrt (X * X + Y * Y)) in *.
  assert (RHO : r < rho) by (unfold rho; rewrite <- (sqrt_square r) by lra; apply sqrt_lt_1; lra). clearbody rho.
  assert (EDIR : forall m, X * cos m + Y * sin m = rho * cos (t + ph - m)).
  { intros m. replace (t + ph - m) with (ph - (m - t)) by ring. rewrite cos_minus.
    replace (rho * (cos ph * cos (m - t) + sin ph * sin (m - t))) with (rho * cos ph * cos (m - t) + rho * sin ph * sin (m - t)) by ring.
    rewrite <- EX, <- EY. unfold X', Y'. replace m with ((m - t) + t) at 1 2 by ring. rewrite cos_plus, sin_plus. ring. }
  pose proof (hstep_range num N3) as [H1 H2]. pose proof (num_ge num N3) as N. pose proof pi_lo as PL. assert (CP : 0 < cPI) by (unfold cPI; lra).
  pose proof pi_hi as PHI.
  destruct (Rle_dec ph (2 * cPI)) as [L|L].
  - destruct (sector (hstep num) (num - 1) ph) as (i & I & S1 & S2); [|lia|].
    { rewrite minus_INR by lia. cbn [INR]. replace (2 * (INR num - 1) * hstep num) with (2 * cPI) by (unfold hstep; field; lra). lra. }
    exists (vert c r t num i), (vert c r t num (S i)). split; [apply edge_step; lia|].
    destruct (edge_mid c r t num N3 i) as [-> ->]. rewrite turn_circ. fold X Y. rewrite EDIR.
    assert (SH : 0 < sin (hstep num)) by (apply sin_gt_0; lra). assert (CH : 0 < cos (hstep num)) by (apply cos_gt_0; lra).
    rewrite S_INR in S2.
    pose proof (cos_near (hstep num) (t + ph - (t + (2 * INR i + 1) * hstep num)) ltac:(lra) ltac:(lra)) as CN.
    set (cx := cos (t + ph - (t + (2 * INR i + 1) * hstep num))) in *. clearbody cx.
    assert (K : r * cos (hstep num) < rho * cx) by (apply Rlt_le_trans with (rho * cos (hstep num)); [apply Rmult_lt_compat_r; lra|apply Rmult_le_compat_l; lra]).
    assert (0 < 2 * r * sin (hstep num)) by (apply Rmult_lt_0_compat; lra).
    assert (0 < 2 * r * sin (hstep num) * (rho * cx - r * cos (hstep num))) by (apply Rmult_lt_0_compat; lra). lra.
  - exists (vert c r t num (num - 1)), (vert c r t num 0). split; [apply edge_close|].
    destruct (close_mid c r t num N3) as [-> ->]. rewrite turn_circ. fold X Y. rewrite EDIR, sin_neg, cos_neg.
    assert (SP : 0 < sin cPI) by (apply sin_gt_0; lra).
    assert (E1 : forall u, cos u = - cos (u - PI)) by (intros u; replace u with (u - PI + PI) at 1 by ring; apply neg_cos).
    assert (CN : cos (PI - cPI) <= cos (t + ph - (t + cPI) - PI)) by (apply cos_near; lra).
    rewrite (E1 (t + ph - (t + cPI))). rewrite (E1 cPI). assert (E2 : cos (cPI - PI) = cos (PI - cPI)) by (rewrite <- cos_neg; f_equal; ring). rewrite E2.
    assert (C0 : 0 < cos (PI - cPI)) by (apply cos_gt_0; unfold cPI in *; lra).
    set (cx := cos (t + ph - (t + cPI) - PI)) in *. set (cc := cos (PI - cPI)) in *. clearbody cx cc.
    assert (K : r * cc < rho * cx) by (apply Rlt_le_trans with (rho * cc); [apply Rmult_lt_compat_r; lra|apply Rmult_le_compat_l; lra]).
    assert (0 < 2 * r * sin cPI) by (apply Rmult_lt_0_compat; lra).
    assert (0 < 2 * r * sin cPI * (rho * cx - r * cc)) by (apply Rmult_lt_0_compat; lra).
    replace (2 * r * - sin cPI * (r * - cc - rho * - cx)) with (- (2 * r * sin cPI * (rho * cx - r * cc))) by ring. lra.
Qed.
End DiscOut.
