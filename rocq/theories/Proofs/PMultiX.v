(** The spatial Minkowski samples of the links are relative to a base that stands at the
    origin: after the robot was moved, a sample can put the link into the obstacle. *)
From Coq Require Import List Reals ZArith Arith Bool Lia Lra Psatz.
From Verif.Base Require Import Outcome.
From Verif.Model Require Import MGeom MMultiBody.
From Verif.Spec Require Import SGeom SRigid.
From Verif.Proofs Require Import PGeom PGeom2 PGeom3 PRot PMulti.
Import ListNotations.
Local Open Scope outcome_scope.
Local Open Scope R_scope.

Lemma ppow_zero p : ppow 0 p = 0.
Proof. unfold ppow. destruct (Req_EM_T 0 0) as [|N]; [reflexivity|now elim N]. Qed.
Lemma center_inside3 b : proper3 b -> inside3 b (sctr b).
Proof.
  intros (A & B & C & E1 & E2 & U). exists (V3r 0 0 0). split.
  - unfold placed. rewrite turn_rotm by exact U. apply v3_eq; unfold add3, app3; cbn; unfold dot3; cbn; ring.
  - unfold shape3. cbn [x3 y3 z3]. replace (0 / sa b) with 0 by (unfold Rdiv; ring). replace (0 / sb b) with 0 by (unfold Rdiv; ring). replace (0 / sc b) with 0 by (unfold Rdiv; ring).
    rewrite !ppow_zero. replace (0 + 0) with 0 by ring. rewrite ppow_zero. lra.
Qed.
Lemma params3_ne n : (1 <= n)%nat -> exists eo r, params3 n = eo :: r.
Proof. intros H. pose proof (params3_len n) as E. destruct (params3 n) as [|eo r]; [cbn in E; nia|]. now exists eo, r. Qed.
(** For one link among others. *)
Lemma mink_sum3_link base ls m M t0 a b c e1 e2 px py pz qo num k l0 :
  built3 base ls m -> rotation3 M -> robot_ellipsoid base -> Forall robot_ellipsoid ls -> nth_error ls k = Some l0 ->
  convex3 (Body3 a b c e1 e2 (V3r px py pz) qo) ->
  let O := SQ [a; b; c] [e1; e2] [px; py; pz] qo num in
  exists m1 bs A1 A2 A3 q1, robot_tf3 m (M, t0) = Some m1 /\ mink_sum3 m1 O 1 = Ok bs /\
    sq_axes l0 = [A1; A2; A3] /\ 0 < A1 /\ 0 < A2 /\ 0 < A3 /\ quat_of (mul3 M (rotm (sq_quat l0))) = Some q1 /\ unit_quat q1 /\
    nth_error bs (S k) = Some (map (fun eo => Some (sub3 (msample3 a b c e1 e2 qo (V3r px py pz) A1 A2 A3 q1 1 eo) (add3 (app3 M (given_pos3 l0)) t0))) (params3 num)).
Proof.
  intros BT RM RB RL NK CV O. pose proof BT as [B L].
  assert (UL : Forall (fun l => unit_quat (sq_quat l)) ls) by (eapply Forall_impl; [|exact RL]; intros l (_ & H & _); exact H).
  destruct (tf3_explicit base ls m (M, t0) BT RM UL) as (b1 & ls1 & T1 & P1 & F1).
  destruct (mink_sum3_contact base ls m M t0 a b c e1 e2 px py pz qo num BT RM RB RL CV) as (m1 & bs & T1' & MS & LN & _).
  rewrite T1 in T1'. injection T1' as <-. fold O in MS.
  destruct (nth_forall2 _ _ _ L k l0 NK) as [lt [N0 [(S1 & S2 & S3) H2]]].
  destruct (nth_forall2 _ _ _ F1 k lt N0) as [lt1 [N1 [S0 P0]]].
  pose proof (proj1 (Forall_forall _ _) RL l0 (nth_error_In _ _ NK)) as [Re [Ru (A1 & A2 & A3 & x & y & z & AX1 & PA1 & PA2 & PA3 & _)]].
  destruct (body_pose3 _ _ _ A1 A2 A3 P0 ltac:(congruence) ltac:(congruence)) as (q1 & W1 & W2 & W3 & W4 & W5 & _).
  assert (RR : rotation3 (mul3 M (rotm (sq_quat l0)))). { apply rotation3_mul; [exact RM|]. apply rotm_rotation. exact Ru. }
  rewrite H2 in W1. cbn [fst comp3] in W1.
  assert (Uq1 : unit_quat q1). { destruct (quat_of_rot _ RR) as [q' [E [U _]]]. rewrite E in W1. injection W1 as <-. exact U. }
  exists (MB3 b1 ls1), bs, A1, A2, A3, q1. repeat (split; [assumption|]).
  unfold mink_sum3 in MS. cbn [mb3_base mb3_links] in MS.
  destruct (mink3 O b1 1) as [bp| |]; cbn [obind] in MS; try discriminate MS.
  destruct (omap _ ls1) as [lss| |] eqn:OM; cbn [obind] in MS; try discriminate MS. injection MS as <-. cbn [nth_error].
  assert (G : forall l r, omap (fun lt : squad * tf3 => let l := fst lt in
      do p <- mink3 O l 1; do x <- idx (sq_pos l) 0; do y <- idx (sq_pos l) 1; do z <- idx (sq_pos l) 2;
      Ok (map (option_map (fun v => sub3 v (V3r x y z))) p)) l = Ok r -> forall i u, nth_error l i = Some u -> exists w, nth_error r i = Some w /\
      (do p <- mink3 O (fst u) 1; do x <- idx (sq_pos (fst u)) 0; do y <- idx (sq_pos (fst u)) 1; do z <- idx (sq_pos (fst u)) 2;
      Ok (map (option_map (fun v => sub3 v (V3r x y z))) p)) = Ok w).
  { clear. induction l as [|u0 l IH]; intros r H i u N; [destruct i; discriminate N|]. cbn [omap] in H. 
    match type of H with obind ?X _ = _ => destruct X as [w0| |] eqn:E0 end; cbn [obind] in H; try discriminate H.
    match type of H with obind ?X _ = _ => destruct X as [r0| |] eqn:E1 end; cbn [obind] in H; try discriminate H. injection H as <-.
    destruct i as [|i]; cbn in N.
    - injection N as <-. exists w0. split; [reflexivity|exact E0].
    - destruct (IH r0 eq_refl i u N) as [w [I1 I2]]. exists w. split; [exact I1|exact I2]. }
  destruct (G ls1 lss OM k lt1 N1) as [w [I1 I2]]. rewrite I1. f_equal.
  destruct lt1 as [[ax1 ep1 pos1 qu1 nu1] tf1]. cbn [fst sq_axes sq_eps sq_quat sq_pos] in W2, W3, W4, W5, I2. subst ax1 ep1 qu1 pos1.
  unfold O in I2. rewrite (mink3_eq a b c e1 e2 px py pz qo num A1 A2 A3 _ q1 nu1 1%Z CV PA1 PA2 PA3 Uq1) in I2. cbn [obind idx nth_error] in I2.
  assert (I3 : map (option_map (fun v => sub3 v (V3r (x3 (snd (comp3 (M, t0) (snd lt)))) (y3 (snd (comp3 (M, t0) (snd lt)))) (z3 (snd (comp3 (M, t0) (snd lt)))))))
    (map (fun eo => Some (msample3 a b c e1 e2 qo (V3r px py pz) A1 A2 A3 q1 (IZR 1) eo)) (params3 num)) = w) by (injection I2 as I2; exact I2).
  rewrite <- I3, map_map. apply map_ext. intros eo. cbn [option_map]. f_equal. f_equal. rewrite H2.
  change (snd (comp3 (M, t0) (rotm (sq_quat l0), given_pos3 l0))) with (add3 (app3 M (given_pos3 l0)) t0).
  destruct (add3 (app3 M (given_pos3 l0)) t0). reflexivity.
Qed.

Lemma moved_base_overlap base ls m M a b c e1 e2 px py pz qo num k l0 :
  built3 base ls m -> rotation3 M -> robot_ellipsoid base -> Forall robot_ellipsoid ls -> nth_error ls k = Some l0 ->
  convex3 (Body3 a b c e1 e2 (V3r px py pz) qo) -> (1 <= num)%nat ->
  let O := SQ [a; b; c] [e1; e2] [px; py; pz] qo num in
  exists t0 m1 bs pts p m2 s, robot_tf3 m (M, t0) = Some m1 /\ mink_sum3 m1 O 1 = Ok bs /\ nth_error bs (S k) = Some pts /\ In (Some p) pts /\
    robot_tf3 m (M, p) = Some m2 /\ nth_error (bodies3 m2) (S k) = Some s /\ overlap3 (body_of3 O) (body_of3 s).
Proof.
  intros BT RM RB RL NK CV N1 O. destruct (params3_ne num N1) as [eo [r PE]].
  pose proof BT as [B L].
  assert (UL : Forall (fun l => unit_quat (sq_quat l)) ls) by (eapply Forall_impl; [|exact RL]; intros l (_ & H & _); exact H).
  (* the contact centre does not depend on the translation *)
  destruct (mink_sum3_link base ls m M (V3r 0 0 0) a b c e1 e2 px py pz qo num k l0 BT RM RB RL NK CV) as (_ & _ & A1 & A2 & A3 & q1 & _ & _ & AX & PA1 & PA2 & PA3 & Q1 & Uq & _).
  set (cc := msample3 a b c e1 e2 qo (V3r px py pz) A1 A2 A3 q1 1 eo).
  set (t0 := sub3 cc (V3r px py pz)).
  destruct (mink_sum3_link base ls m M t0 a b c e1 e2 px py pz qo num k l0 BT RM RB RL NK CV) as (m1 & bs & A1' & A2' & A3' & q1' & T1 & MS & AX' & _ & _ & _ & Q1' & _ & NB).
  rewrite AX in AX'. injection AX' as <- <- <-. rewrite Q1 in Q1'. injection Q1' as <-.
  set (p := sub3 cc (add3 (app3 M (given_pos3 l0)) t0)).
  destruct (tf3_explicit base ls m (M, p) BT RM UL) as (b2 & ls2 & T2 & _ & F2).
  destruct (nth_forall2 _ _ _ L k l0 NK) as [lt [N0 [(S1 & S2 & S3) H2]]].
  destruct (nth_forall2 _ _ _ F2 k lt N0) as [lt2 [N2 [S0 P2]]].
  exists t0, m1, bs, (map (fun eo => Some (sub3 (msample3 a b c e1 e2 qo (V3r px py pz) A1 A2 A3 q1 1 eo) (add3 (app3 M (given_pos3 l0)) t0))) (params3 num)), p, (MB3 b2 ls2), (fst lt2).
  split; [exact T1|]. split; [exact MS|]. split; [exact NB|]. split; [rewrite PE; left; reflexivity|]. split; [exact T2|].
  split; [cbn [bodies3 mb3_base mb3_links nth_error]; rewrite nth_error_map, N2; reflexivity|].
  pose proof (proj1 (Forall_forall _ _) RL l0 (nth_error_In _ _ NK)) as [Re [Ru _]].
  destruct (body_pose3 _ _ _ A1 A2 A3 P2 ltac:(congruence) ltac:(congruence)) as (q2 & V1 & _ & _ & _ & _ & V6).
  rewrite V6. rewrite H2 in V1. cbn [fst comp3] in V1. rewrite Q1 in V1. injection V1 as <-.
  assert (EC : snd (comp3 (M, p) (snd lt)) = V3r px py pz).
  { rewrite H2. unfold p, t0, comp3. cbn [fst snd]. generalize (app3 M (given_pos3 l0)). intros v. clearbody cc. destruct cc. unfold add3, sub3. cbn. f_equal; ring. }
  rewrite EC. exists (V3r px py pz). split.
  - exact (center_inside3 (Body3 a b c e1 e2 (V3r px py pz) qo) (proj1 CV)).
  - apply (center_inside3 (ellipsoid_at A1 A2 A3 q1 (V3r px py pz))). repeat split; cbn; try assumption; lra.
Qed.
