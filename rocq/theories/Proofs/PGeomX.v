(** The last sample of a planar boundary, and the order of placing and moving. *)
From Coq Require Import List Reals ZArith Arith Bool Lia Lra Psatz.
From Verif.Base Require Import Outcome.
From Verif.Model Require Import MGeom MMultiBody.
From Verif.Spec Require Import SGeom SRigid.
From Verif.Proofs Require Import PGeom PGeom2 PGeom2N PGeom3 PRot PMulti.
Import ListNotations.
Local Open Scope R_scope.

Lemma pi_lo : cPI < PI.
Proof.
  unfold cPI. pose proof (PI_2_3_7_ineq 4) as [H _].
  unfold tg_alt, PI_2_3_7_tg, Ratan_seq in H. cbn -[pow INR] in H.
  repeat (rewrite S_INR in H). cbn [INR pow Nat.mul Nat.add] in H.
  set (x := PI) in *. clearbody x. lra.
Qed.
Lemma last_theta num : (2 <= num)%nat -> theta num (num - 1) = 2 * cPI.
Proof.
  intros N. unfold theta. rewrite minus_INR by lia. cbn [INR]. assert (INR num - 1 <> 0). { assert (2 <= INR num) by (change 2 with (INR 2); apply le_INR; exact N). lra. }
  field. assumption.
Qed.
Lemma last_cs : 0 < cos (2 * cPI) /\ sin (2 * cPI) < 0.
Proof.
  set (y := 2 * PI - 2 * cPI). pose proof pi_lo as L. pose proof PI_4 as H. assert (Y : 0 < y < PI / 2) by (unfold y, cPI in *; lra).
  assert (E : 2 * cPI = - y + 2 * INR 1 * PI) by (unfold y; cbn; ring). rewrite E, cos_period, sin_period, cos_neg, sin_neg.
  split; [apply cos_gt_0; lra|]. pose proof (sin_gt_0 y ltac:(lra) ltac:(lra)). lra.
Qed.
(** Every elongated obstacle has a returned centre at which the robot penetrates it. *)
Lemma elongated_sample a b e px py t num A B e2 pos2 t2 num2 : 0 < a -> 0 < b -> a <> b -> 0 < e < 2 -> 0 < A -> 0 < B -> (2 <= num)%nat ->
  exists pts c, mink2 (SE [a; b] e [px; py] t num) (SE [A; B] e2 pos2 t2 num2) 1 = Ok pts /\ In (Some c) pts /\
    overlap2 (Body2 a b e (V2 px py) t) (ellipse_at A B t2 c).
Proof.
  intros Ha Hb AB E HA HB N. rewrite mink2_eq by assumption. eexists. exists (msample2 a b e (V2 px py) t A B t2 1 (theta num (num - 1))).
  split; [reflexivity|]. split.
  - apply in_map_iff. exists (num - 1)%nat. split; [reflexivity|]. apply in_seq. lia.
  - apply elongated_overlap; try assumption; try lra; rewrite last_theta by exact N; destruct last_cs; lra.
Qed.
(** The last sample is not the first. *)
Lemma open_boundary a b e px py t num : 0 < a -> 0 < b -> 0 < e -> (2 <= num)%nat ->
  exists pts p q, origin2 (SE [a; b] e [px; py] t num) = Ok pts /\ nth_error pts 0 = Some (Some p) /\ nth_error pts (num - 1) = Some (Some q) /\ length pts = num /\ p <> q.
Proof.
  intros Ha Hb E N. rewrite origin2_eq by assumption. eexists. exists (sample2 a b e (V2 px py) t (theta num 0)), (sample2 a b e (V2 px py) t (theta num (num - 1))).
  split; [reflexivity|]. assert (NS : forall i, (i < num)%nat -> nth_error (seq 0 num) i = Some i). { intros i L. rewrite (nth_error_nth' _ 0%nat) by (rewrite seq_length; lia). now rewrite seq_nth by lia. }
  rewrite !nth_error_map, !NS by lia. split; [reflexivity|]. split; [reflexivity|]. split; [now rewrite map_length, seq_length|].
  intros EQ. set (B := Body2 a b e (V2 px py) t).
  assert (A0 : across B (sample2 a b e (V2 px py) t (theta num 0)) = 0).
  { unfold B, sample2. rewrite across_sample. cbn [canon2 y2]. assert (T : theta num 0 = 0) by (unfold theta; cbn [INR]; unfold Rdiv; ring). rewrite T, sin_0.
    unfold canon2. cbn [y2]. assert (S0 : spow 0 e = 0) by (unfold spow; rewrite sgn_0; ring). rewrite S0. ring. }
  rewrite EQ in A0. unfold B, sample2 in A0. rewrite across_sample, last_theta in A0 by exact N. unfold canon2 in A0. cbn [y2] in A0.
  destruct last_cs as [_ S]. pose proof (spow_ne (sin (2 * cPI)) e ltac:(lra)) as NE.
  apply Rmult_integral in A0. destruct A0; [lra|contradiction].
Qed.

(** ---- placing does not accumulate ---- *)
Lemma pose2_shape s s' g : same_shape2 s s' -> pose2 s g = pose2 s' g.
Proof. intros (A & B & C). unfold pose2, se_set_angle, se_set_pos. cbn [se_axes se_eps se_pos se_num se_angle]. rewrite A, B, C. reflexivity. Qed.
Lemma built_same2 base ls m1 m2 g : built2 base ls m1 -> built2 base ls m2 -> robot_tf2 m1 g = robot_tf2 m2 g.
Proof.
  intros [B1 L1] [B2 L2]. unfold robot_tf2. f_equal.
  - rewrite (pose2_shape _ base g B1), (pose2_shape _ base g B2). reflexivity.
  - revert L2. generalize (mb2_links m2). induction L1 as [|l0 lt ls' lts (H1 & H2 & _) _ IH]; intros l2 L2; inversion L2 as [|u v w x (G1 & G2 & _) G3]; subst; [reflexivity|].
    cbn [map]. rewrite (IH _ G3). f_equal. rewrite H2, G2. f_equal. rewrite (pose2_shape _ l0 _ H1), (pose2_shape _ l0 _ G1). reflexivity.
Qed.
Lemma pose3_same s s' g : same_shape3 s s' -> pose3 s g = pose3 s' g.
Proof. intros (A & B & C). unfold pose3. destruct (quat_of (fst g)); [|reflexivity]. cbn [obnd]. unfold sq_set_quat, sq_set_pos. cbn [sq_axes sq_eps sq_pos sq_num sq_quat]. rewrite A, B, C. reflexivity. Qed.
Lemma built_same3 base ls m1 m2 g kdl : built3 base ls m1 -> built3 base ls m2 -> robot_tf3_kdl m1 g kdl = robot_tf3_kdl m2 g kdl.
Proof.
  intros [B1 L1] [B2 L2]. unfold robot_tf3_kdl. rewrite (pose3_same _ base g B1), (pose3_same _ base g B2).
  assert (E : forall i, pose_links g kdl i (mb3_links m1) = pose_links g kdl i (mb3_links m2)).
  { revert L2. generalize (mb3_links m2). induction L1 as [|l0 lt ls' lts [H1 H2] _ IH]; intros l2 L2 i; inversion L2 as [|u v w x [G1 G2] G3]; subst; [reflexivity|].
    cbn [pose_links]. rewrite H2, G2, (pose3_same _ l0 _ H1), (pose3_same _ l0 _ G1), (IH _ G3). reflexivity. }
  rewrite E. reflexivity.
Qed.
(** ---- histories run ---- *)
Lemma calls2_total cs : Forall (fun l => (2 <= length (se_pos l))%nat) (added2 cs) -> forall m, exists m', calls2 m cs = Ok m'.
Proof.
  induction cs as [|[l|g] cs IH]; intros F m.
  - exists m. reflexivity.
  - cbn in F. inversion F as [|u v F1 F2]; subst. destruct (se_pos l) as [|x [|y r]] eqn:E; cbn in F1; [lia|lia|].
    cbn [calls2 do_call2]. unfold add_body2. rewrite E. cbn [idx nth_error obind]. apply IH. exact F2.
  - cbn [calls2 do_call2 obind]. apply IH. exact F.
Qed.
Lemma calls3_total base cs : Forall (fun l => (3 <= length (sq_pos l))%nat /\ unit_quat (sq_quat l)) (added3 cs) -> Forall rigid_call3 cs ->
  forall ls m, built3 base ls m -> Forall (fun l => unit_quat (sq_quat l)) ls -> exists m', calls3 m cs = Ok (Some m').
Proof.
  induction cs as [|c cs IH]; intros F G ls m B U.
  - exists m. reflexivity.
  - inversion G as [|c' cs' G1 G2]; subst. destruct c as [l|g|g kdl]; cbn [calls3 do_call3].
    + cbn in F. inversion F as [|u v [F1 FU] F2]; subst. destruct (sq_pos l) as [|x [|y [|z r]]] eqn:E; cbn in F1; [lia|lia|lia|].
      assert (A : exists m', add_body3 m l = Ok m') by (unfold add_body3; rewrite E; cbn [idx nth_error obind]; eexists; reflexivity).
      destruct A as [m' A]. rewrite A. cbn [obind]. apply (IH F2 G2 (ls ++ [l]) m' (built_add3 _ _ _ _ _ B A)). apply Forall_app. split; [exact U|constructor; [exact FU|constructor]].
    + destruct (built_stands3 base ls m g (fun _ => None) B G1 ltac:(intros i h X; discriminate X) U) as (m' & E & B' & _).
      unfold robot_tf3. rewrite E. cbn [obind]. exact (IH F G2 ls m' B' U).
    + destruct G1 as [G1 K]. destruct (built_stands3 base ls m g (fun i => Some (kdl i)) B G1 ltac:(intros i h X; injection X as <-; apply K) U) as (m' & E & B' & _).
      rewrite E. cbn [obind]. exact (IH F G2 ls m' B' U).
Qed.
