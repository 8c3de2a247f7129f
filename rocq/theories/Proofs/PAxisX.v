(** The vertical line through the centre of a ball records two coinciding hits; and the spatial
    recorded intervals are contact poses. *)
From Coq Require Import List Reals ZArith Arith Bool Lia Lra Psatz.
From Verif.Base Require Import Outcome.
From Verif.Model Require Import MScalar MLine3D MInterp MGeom MMesh.
From Verif.Spec Require Import SLine3D SGeom SRigid SCover SCover3.
From Verif.Proofs Require Import PLine3D PGeom PGeom2 PGeom3 PGeomX PInscribed PShape PCoverX PDiscPlan PCollisionX PCover3 PAxis.
Import ListNotations.
Local Open Scope R_scope.

(** ---- the recorded interval of any convex obstacle ---- *)
Lemma ok_inj3 T (u v : T) : Ok u = Ok v -> u = v.
Proof. intros H. injection H. auto. Qed.
Lemma blocked_meets3 a b c e1 e2 px py pz q num A B C pos2 q2 num2 bd fs x y z r h0 h1 D :
  convex3 (Body3 a b c e1 e2 (V3r px py pz) q) -> 0 < A -> 0 < B -> 0 < C -> unit_quat q2 -> (1 <= num)%nat ->
  mink3 (SQ [a; b; c] [e1; e2] [px; py; pz] q num) (SQ [A; B; C] [1; 1] pos2 q2 num2) 1 = Ok bd ->
  Forall (face_ok (length bd)) fs -> spread bd D ->
  vertical_line_mesh XR (vertical_at x y) (sampled_mesh bd fs) = Ok r -> height_of h0 r -> height_of h1 r -> weakly_between h0 h1 z ->
  exists ctr, near3 (4 * tol * D) (V3r x y z) ctr /\ meet3 (body_of3 (SQ [a; b; c] [e1; e2] [px; py; pz] q num)) (ellipsoid_at A B C q2 ctr).
Proof.
  intros CV HA HB HC U N M F SP H I0 I1 BT.
  pose proof (ok_inj3 _ _ _ (eq_trans (eq_sym M) (mink3_eq a b c e1 e2 px py pz q num A B C pos2 q2 num2 1 CV HA HB HC U))) as EB.
  set (ms := msample3 a b c e1 e2 q (V3r px py pz) A B C q2 (IZR 1)) in EB.
  set (vs := map (fun eo => RV (x3 (ms eo)) (y3 (ms eo)) (z3 (ms eo))) (params3 num)).
  assert (EV : bd = map (fun v => Some (v3_of v)) vs).
  { rewrite EB. unfold vs. rewrite map_map. apply map_ext. intros eo. unfold v3_of. cbn [rx ry rz]. destruct (ms eo). reflexivity. }
  assert (IN : forall v, In v vs -> In (Some (v3_of v)) bd) by (intros v Iv; rewrite EV; apply in_map_iff; exists v; split; [reflexivity|exact Iv]).
  rewrite EV, sampled_lift3 in H.
  refine (hits_meet3 (Body3 a b c e1 e2 (V3r px py pz) q) A B C q2 vs fs x y z r h0 h1 D CV HA HB HC U _ _ _ _ H I0 I1 BT).
  - intros E. apply (f_equal (@length _)) in E. unfold vs in E. rewrite map_length, params3_len in E. cbn [length] in E. nia.
  - rewrite EV, map_length in F. exact F.
  - intros v Iv. unfold vs in Iv. apply in_map_iff in Iv. destruct Iv as (eo & <- & _).
    destruct (quadric_contact a b c e1 e2 (V3r px py pz) q A B C q2 eo CV HA HB HC U) as ((O1 & O2 & _) & _).
    exists (sample3 a b c e1 e2 q (V3r px py pz) eo). split; [exact (on_in3 _ _ O1)|].
    replace (v3_of _) with (msample3 a b c e1 e2 q (V3r px py pz) A B C q2 1 eo); [exact (on_in3 _ _ O2)|].
    unfold v3_of. cbn [rx ry rz]. unfold ms. destruct (msample3 a b c e1 e2 q (V3r px py pz) A B C q2 1 eo). reflexivity.
  - intros u v Iu Iv. exact (SP _ _ (IN u Iu) (IN v Iv)).
Qed.

(** ---- two exact hits at the head of the face list ---- *)
Lemma hit_unique o d a b c p q : triangle_hit tol o d (a, b, c) p -> triangle_hit tol o d (a, b, c) q -> p = q.
Proof.
  intros P Q. assert (X : forall p, triangle_hit tol o d (a, b, c) p -> line_triangle XR (lift_line o d) (lift3 a) (lift3 (rsub b a)) (lift3 (rsub c a)) = Some (lift3 p)).
  { intros w (H1 & H2 & H3). apply line_triangle_XR. exists w. split; [reflexivity|]. split; [exact H1|]. split; [exact H2|exact H3]. }
  pose proof (eq_trans (eq_sym (X p P)) (X q Q)) as E. destruct p as [i1 i2 i3], q as [k1 k2 k3]. unfold lift3 in E. cbn [rx ry rz] in E. injection E as -> -> ->. reflexivity.
Qed.
Lemma exact_tol o d abc p : triangle_hit 0 o d abc p -> triangle_hit tol o d abc p.
Proof.
  destruct abc as [[a b] c]. intros (H1 & H2 & (s & t & E & B)). split; [exact H1|]. split; [exact H2|]. exists s, t. pose proof tol_pos. split; [exact E|lra].
Qed.
Lemma corners_fun vs f u v : face_corners vs f u -> face_corners vs f v -> u = v.
Proof.
  destruct f as [[i j] k], u as [[a b] c], v as [[a' b'] c']. intros (X1 & X2 & X3) (Y1 & Y2 & Y3).
  rewrite X1 in Y1. rewrite X2 in Y2. rewrite X3 in Y3. injection Y1 as ->. injection Y2 as ->. injection Y3 as ->. reflexivity.
Qed.
Lemma first_two o vs f0 f1 fs t0 t1 q0 q1 : vs <> [] -> Forall (face_ok (length vs)) (f0 :: f1 :: fs) ->
  face_corners vs f0 t0 -> face_corners vs f1 t1 -> triangle_hit 0 o (RV 0 0 1) t0 q0 -> triangle_hit 0 o (RV 0 0 1) t1 q1 ->
  vertical_line_mesh XR (lift_line o (RV 0 0 1)) (lift_mesh vs (f0 :: f1 :: fs)) = Ok [lift3 q0; lift3 q1].
Proof.
  intros NE F K0 K1 H0 H1. destruct (vertical_line_mesh_XR o vs _ NE F) as (r & E & [[-> X]|(ps & P & ->)]).
  - exfalso. destruct (bbox_not_one_sided o vs f0 t0 K0 (exact_hit_bbox _ _ _ H0)) as [N1 N2]. unfold one_sided in *. tauto.
  - assert (G : forall f t q p, face_corners vs f t -> triangle_hit 0 o (RV 0 0 1) t q ->
      (exists abc, face_corners vs f abc /\ bbox_ok o abc /\ triangle_hit tol o (RV 0 0 1) abc p) -> p = q).
    { intros f t q p K H (abc & K' & _ & H'). pose proof (corners_fun vs f _ _ K K') as <-. apply exact_tol in H. destruct t as [[a b] c]. exact (hit_unique _ _ _ _ _ _ _ H' H). }
    assert (Z : forall f t q, face_corners vs f t -> triangle_hit 0 o (RV 0 0 1) t q ->
      (exists abc, face_corners vs f abc /\ bbox_ok o abc /\ triangle_hit tol o (RV 0 0 1) abc q)).
    { intros f t q K H. exists t. split; [exact K|]. split; [exact (exact_hit_bbox _ _ _ H)|exact (exact_tol _ _ _ _ H)]. }
    rewrite E. inversion P as [|g p gs ps' Hg P' E1 E2|g gs ps' Hg P' E1 E2]; [|exfalso; exact (Hg q0 (Z f0 t0 q0 K0 H0))].
    rewrite (G f0 t0 q0 p K0 H0 Hg).
    inversion P' as [|g' p' gs' ps'' Hg' P'' E3 E4|g' gs' ps'' Hg' P'' E3 E4]; [|exfalso; exact (Hg' q1 (Z f1 t1 q1 K1 H1))].
    rewrite (G f1 t1 q1 p' K1 H1 Hg'). reflexivity.
Qed.

(** ---- the faces ---- *)
Lemma mesh_head n : (3 <= n)%nat -> exists fs, mesh_faces n = Ok ((0, n, n + 1)%nat :: (1, n + 1, n + 2)%nat :: fs).
Proof.
  intros N. unfold mesh_faces. replace (Nat.eqb n 0) with false by (symmetry; apply Nat.eqb_neq; lia).
  assert (Q : exists l, mesh_q n = (0 :: 1 :: l)%nat).
  { unfold mesh_q. destruct n as [|[|[|n]]]; try lia. replace (S (S (S n)) - 1)%nat with (S (S n)) by lia.
    cbn [seq flat_map map app]. eexists. repeat f_equal; lia. }
  destruct Q as (l & ->). cbn [map app]. rewrite !Nat.add_0_l. replace (1 + n)%nat with (n + 1)%nat by lia. replace (n + 1 + 1)%nat with (n + 2)%nat by lia. eexists. reflexivity.
Qed.
Lemma mesh_ok n fs : (1 <= n)%nat -> mesh_faces n = Ok fs -> Forall (face_ok (n * n)) fs.
Proof.
  intros N E. unfold mesh_faces in E. replace (Nat.eqb n 0) with false in E by (symmetry; apply Nat.eqb_neq; lia). apply ok_inj3 in E. subst fs.
  assert (G : forall q, In q (mesh_q n) -> (q + n + 1 < n * n)%nat).
  { intros q Hq. unfold mesh_q in Hq. apply in_flat_map in Hq. destruct Hq as (i & Hi & Hq). apply in_map_iff in Hq. destruct Hq as (j & <- & Hj).
    apply in_seq in Hi. apply in_seq in Hj. nia. }
  apply Forall_forall. intros f Hf. apply in_app_or in Hf.
  destruct Hf as [Hf|Hf]; apply in_map_iff in Hf; destruct Hf as (q & <- & Hq); specialize (G q Hq); unfold face_ok; lia.
Qed.

(** ---- the angles ---- *)
Section Ang.
Variable n : nat.
Hypothesis N4 : (4 <= n)%nat.
Hypothesis NB : INR n <= 1500000.
Let h := 31415926 / 10000000 / 2 + 1 / 1000000.
Let e := h - PI / 2.
Let d := 2 * h / (INR n - 1).
Let b := d - e.
Lemma INR4 : 4 <= INR n.
Proof. replace 4 with (INR 4) by (cbn; lra). apply le_INR. exact N4. Qed.
Lemma e_b : 0 < e <= 1 / 1000000.
Proof. pose proof pi_gap as P1. pose proof pi_hi as P2. unfold cPI in *. unfold e, h. lra. Qed.
Lemma b_b : e <= b <= 105 / 100.
Proof.
  pose proof INR4 as I. pose proof e_b as E. assert (H0 : 157 / 100 < h < 1571 / 1000) by (unfold h; lra).
  assert (D : d * (INR n - 1) = 2 * h) by (unfold d; field; lra). unfold b. split.
  - assert (2 * e * (INR n - 1) <= 2 * h) by nra. assert (2 * e <= d) by (apply Rmult_le_reg_r with (INR n - 1); lra). lra.
  - assert (d <= 2 * h / 3) by (apply Rmult_le_reg_r with (INR n - 1); [lra|]; rewrite D; nra). lra.
Qed.
Lemma row0 : cos (evenly n h 0) = - sin e /\ sin (evenly n h 0) = - cos e.
Proof.
  rewrite evenly_0, cos_neg, sin_neg. replace h with (PI / 2 + e) by (unfold e; ring).
  split; [|f_equal]; [rewrite <- cos_shift; rewrite cos_plus, cos_PI2, sin_PI2; rewrite cos_minus, cos_PI2, sin_PI2; ring|rewrite sin_plus, cos_PI2, sin_PI2; ring].
Qed.
Lemma row1 : cos (evenly n h 1) = sin b /\ sin (evenly n h 1) = - cos b.
Proof.
  replace (evenly n h 1) with (- (PI / 2 - b)) by (unfold evenly, b, e, d; cbn [INR]; field; pose proof INR4; lra).
  rewrite cos_neg, sin_neg, cos_shift, sin_shift. split; reflexivity.
Qed.
Lemma sin_eb : 0 < sin e <= sin b.
Proof.
  pose proof e_b. pose proof b_b. pose proof pi_lo as P. unfold cPI in P. split; [apply sin_gt_0; lra|]. apply sin_incr_1; lra.
Qed.
Lemma cos_be : 2 / 5 <= cos b <= cos e.
Proof.
  pose proof e_b. pose proof b_b. pose proof pi_lo as P. unfold cPI in P. split; [|apply cos_decr_1; lra].
  pose proof (cos_low b ltac:(lra)) as L. assert (b * b <= 105 / 100 * (105 / 100)) by (apply Rmult_le_compat; lra). lra.
Qed.
Let g := 31415926 / 10000000 + 1 / 1000000.
Lemma cross_b j : 4 * tol < sin (evenly n g (S j) - evenly n g j).
Proof.
  pose proof INR4 as I. set (D := evenly n g (S j) - evenly n g j). assert (E : D * (INR n - 1) = 2 * g) by (unfold D, evenly; rewrite S_INR; field; lra).
  assert (G : 314 / 100 < g < 3142 / 1000) by (unfold g; lra).
  assert (D1 : 4 / 1000000 <= D) by (apply Rmult_le_reg_r with (INR n - 1); [lra|]; rewrite E; nra).
  assert (D2 : D <= 21 / 10) by (apply Rmult_le_reg_r with (INR n - 1); [lra|]; rewrite E; nra).
  replace D with (2 * (D / 2)) by field. rewrite sin_2a.
  assert (S1' : 1 / 1000000 <= sin (D / 2)).
  { destruct (Rle_dec (D / 2) 1) as [L|L]; [pose proof (sin_small (D / 2) ltac:(lra)); lra|].
    apply Rle_trans with (sin 1); [pose proof (sin_small 1 ltac:(lra)); lra|]. pose proof pi_lo as P. unfold cPI in P. apply sin_incr_1; lra. }
  pose proof (cos_low (D / 2) ltac:(lra)) as CL. assert (D / 2 * (D / 2) <= 105 / 100 * (105 / 100)) by (apply Rmult_le_compat; lra).
  assert (CC : 2 / 5 <= cos (D / 2)) by lra. 
  assert (T : 4 * tol < 2 * (1 / 1000000) * (2 / 5)) by (unfold tol; cbn; lra). nra.
Qed.
End Ang.
(** ---- the axis of a ball ---- *)
Lemma upright_turn w z v : w * w + z * z = 1 -> 
  app3 (rotm (Q w 0 0 z)) v = V3r ((w * w - z * z) * x3 v - 2 * w * z * y3 v) (2 * w * z * x3 v + (w * w - z * z) * y3 v) (z3 v).
Proof. intros U. destruct v as [v1 v2' v3']. unfold app3, rotm, dot3. cbn [qw qx qy qz x3 y3 z3]. assert (E : w * w = 1 - z * z) by lra. cbn. f_equal; [| |ring]; rewrite ?E; ring. Qed.
Lemma axis_lost a px py pz w z num A pos2 q2 num2 : w * w + z * z = 1 -> unit_quat q2 -> 0 < a -> 0 < A -> (4 <= num)%nat -> INR num <= 1500000 ->
  exists bd fs z0, mink3 (SQ [a; a; a] [1; 1] [px; py; pz] (Q w 0 0 z) num) (SQ [A; A; A] [1; 1] pos2 q2 num2) 1 = Ok bd /\ mesh_faces num = Ok fs /\
    z0 <= pz - 2 / 5 * (a + A) /\
    vertical_line_mesh XR (vertical_at px py) (sampled_mesh bd fs) = Ok [lift3 (RV px py z0); lift3 (RV px py z0)].
Proof.
  intros UW U2 Ha HA N NB. assert (U : unit_quat (Q w 0 0 z)) by (unfold unit_quat; cbn [qw qx qy qz]; lra).
  destruct (ball_bd a px py pz (Q w 0 0 z) num A pos2 q2 num2 U U2 Ha HA ltac:(lia)) as (vs & M & LV & NV).
  destruct (mesh_head num ltac:(lia)) as (fs & MF).
  set (h := 31415926 / 10000000 / 2 + 1 / 1000000) in *. set (g := 31415926 / 10000000 + 1 / 1000000) in *.
  set (e := h - PI / 2). set (b := 2 * h / (INR num - 1) - e).
  set (ex := fun j => (w * w - z * z) * cos (evenly num g j) - 2 * w * z * sin (evenly num g j)).
  set (ey := fun j => 2 * w * z * cos (evenly num g j) + (w * w - z * z) * sin (evenly num g j)).
  assert (UC : (w * w - z * z) * (w * w - z * z) + 2 * w * z * (2 * w * z) = 1).
  { transitivity ((w * w + z * z) * (w * w + z * z)); [ring|]. rewrite UW. ring. }
  assert (EU : forall j, ex j * ex j + ey j * ey j = 1).
  { intros j. unfold ex, ey. transitivity (((w * w - z * z) * (w * w - z * z) + 2 * w * z * (2 * w * z)) * (cos (evenly num g j) * cos (evenly num g j) + sin (evenly num g j) * sin (evenly num g j))); [ring|].
    rewrite UC, cs1. ring. }
  assert (EC : forall j, 4 * tol < ex j * ey (S j) - ey j * ex (S j)).
  { intros j. replace (ex j * ey (S j) - ey j * ex (S j)) with (sin (evenly num g (S j) - evenly num g j)); [exact (cross_b num N NB j)|].
    rewrite sin_minus. unfold ex, ey. transitivity (((w * w - z * z) * (w * w - z * z) + 2 * w * z * (2 * w * z)) * (sin (evenly num g (S j)) * cos (evenly num g j) - cos (evenly num g (S j)) * sin (evenly num g j))); [rewrite UC; ring|ring]. }
  set (c := RV px py pz).
  assert (V0 : forall j, (j < num)%nat -> nth_error vs j = Some (top c (a + A) (sin e) (cos e) (ex j) (ey j))).
  { intros j Lj. pose proof (NV 0%nat j ltac:(lia) Lj) as X. cbn [Nat.mul Nat.add] in X. rewrite X. f_equal. rewrite upright_turn by exact UW.
    destruct (row0 num) as [R1 R2]. fold h e in R1, R2. unfold dir3, top, c, ex, ey, add3, scale3. cbn [x3 y3 z3 rx ry rz]. rewrite R1, R2. f_equal; ring. }
  assert (V1 : forall j, (j < num)%nat -> nth_error vs (num + j) = Some (ring1 c (a + A) (sin b) (cos b) (ex j) (ey j))).
  { intros j Lj. pose proof (NV 1%nat j ltac:(lia) Lj) as X. rewrite Nat.mul_1_l in X. rewrite X. f_equal. rewrite upright_turn by exact UW.
    destruct (row1 num N) as [R1 R2]. fold h e b in R1, R2. unfold dir3, ring1, c, ex, ey, add3, scale3. cbn [x3 y3 z3 rx ry rz]. rewrite R1, R2. f_equal; ring. }
  pose proof (sin_eb num N NB) as SE. pose proof (cos_be num N NB) as CE. fold h e b in SE, CE.
  assert (U1 : sin b * sin b + cos b * cos b = 1) by (pose proof (cs1 b); lra). assert (CO1 : cos e <= 1) by apply COS_bound.
  set (z0 := foot c (a + A) (sin e) (cos e) (sin b) (cos b)).
  assert (FH : forall j, triangle_hit 0 (RV px py 0) (RV 0 0 1) (top c (a + A) (sin e) (cos e) (ex j) (ey j), ring1 c (a + A) (sin b) (cos b) (ex j) (ey j), ring1 c (a + A) (sin b) (cos b) (ex (S j)) (ey (S j))) (RV px py z0)).
  { intros j. apply (fan_hit c (a + A) (sin e) (cos e) (sin b) (cos b)); try lra; try apply EU. apply EC. }
  eexists _, _, z0. split; [exact M|]. split; [exact MF|]. split.
  - assert (z0 <= rz c - (a + A) * cos b) by (apply foot_low; lra). cbn [c rz] in H. unfold c in H. cbn [rz] in H. nra.
  - rewrite sampled_lift3. unfold vertical_at. eapply first_two with (t0 := (_, _, _)) (t1 := (_, _, _)); [| | | |exact (FH 0%nat)|exact (FH 1%nat)].
    + intros E. rewrite E in LV. cbn [length] in LV. nia.
    + rewrite LV. apply mesh_ok; [lia|exact MF].
    + unfold face_corners. split; [apply V0; lia|]. split; [replace num with (num + 0)%nat at 1 by lia; apply V1; lia|apply V1; lia].
    + unfold face_corners. split; [apply V0; lia|]. split; apply V1; lia.
Qed.
