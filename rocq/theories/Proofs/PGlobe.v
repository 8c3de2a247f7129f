(** A double-precision scene in which a returned path runs through a ball. *)
From Coq Require Import List Reals ZArith Arith Bool Lia Lra Psatz.
From Flocq Require Import Core.
From Verif.Base Require Import Outcome Float64 FloatFacts.
From Verif.Model Require Import MScalar MDistance MInterval MFreeSpace MLine3D MInterp MGraph MSearch MHRM3D MAStar MGeom MMesh.
From Verif.Spec Require Import SLine3D SGeom SRigid SCover SCover3 SPlanner3D.
From Verif.Proofs Require Import PSampling PHline PHlineX PLine3D PGeom PGeom2 PGeom3 PGeomX PShape PHRM2DW PHRM3DW PDiscPlan PDiscPlanX PCover3 PAxis PAxisX PAxisY.
Import ListNotations.
Local Open Scope R_scope.
Local Opaque fval fofZ.

Lemma nano_big k : (Z.abs k <= 10000000000)%Z -> fisfin (nano k) = true /\ Rabs (fval (nano k) - IZR k / 1000000000) <= 1 / 1000000000000.
Proof.
  intros H. unfold nano. assert (V : forall z, (Z.abs z <= 10000000000)%Z -> fval (fofZ z) = IZR z) by (intros z Hz; apply fofZ_val; lia).
  assert (K : Rabs (IZR k / 1000000000) <= 10).
  { unfold Rdiv at 1. rewrite Rabs_mult, (Rabs_pos_eq (/ 1000000000)) by lra. rewrite <- abs_IZR. apply IZR_le in H. lra. }
  destruct (fdiv_val (fofZ k) (fofZ 1000000000)) as [Fd Vd]; [apply fofZ_fin; lia|apply fofZ_fin; lia|rewrite V by lia; lra| |].
  { rewrite !V by lia. apply Rle_trans with (1 := K). apply Rle_trans with (bpow radix2 4); [cbn; lra|apply bpow_le; lia]. }
  split; [exact Fd|]. rewrite Vd, !V by lia. destruct (rnd_any (IZR k / 1000000000)) as (e & n & He & Hn & ->).
  pose proof (mabs _ _ _ _ He K) as M1. 
  replace (IZR k / 1000000000 * (1 + e) + n - IZR k / 1000000000) with (e * (IZR k / 1000000000) + n) by ring.
  apply Rle_trans with (1 := Rabs_triang _ _). 
  assert (U : uu <= 1 / 100000000000000) by (apply Rle_trans with (bpow radix2 (-52)); [first [apply Rle_refl|apply bpow_le; lia]|cbn; lra]).
  assert (T : eta <= 1 / 1000000000000000) by (apply Rle_trans with (bpow radix2 (-60)); [apply bpow_le; lia|cbn; lra]). lra.
Qed.
Lemma close_mix k a a' b b' : (Z.abs k <= 10000000000)%Z -> Rabs (a - a') <= 1 / 1000000000 -> Rabs (b - b') <= 1 / 1000000000 -> Rabs a' <= 1 -> Rabs b <= 1 ->
  Rabs (IZR k / 1000000000 - 6 * (a' * b')) <= 1 / 100000000 -> Rabs (fval (nano k) - 6 * (a * b)) <= 1 / 10000000.
Proof.
  intros Hk Ha Hb A' B' H. destruct (nano_big k Hk) as [_ N].
  replace (fval (nano k) - 6 * (a * b)) with ((fval (nano k) - IZR k / 1000000000) + (IZR k / 1000000000 - 6 * (a' * b')) + - (6 * ((a - a') * b)) + - (6 * (a' * (b - b')))) by ring.
  assert (T : forall x y z w, Rabs (x + y + z + w) <= Rabs x + Rabs y + Rabs z + Rabs w).
  { intros x y z w. eapply Rle_trans; [apply Rabs_triang|]. apply Rplus_le_compat_r. eapply Rle_trans; [apply Rabs_triang|]. apply Rplus_le_compat_r. apply Rabs_triang. }
  eapply Rle_trans; [apply T|]. rewrite !Rabs_Ropp, !(Rabs_mult 6), (Rabs_pos_eq 6), !Rabs_mult by lra.
  assert (Rabs (a - a') * Rabs b <= 1 / 1000000000 * 1) by (apply Rmult_le_compat; try apply Rabs_pos; assumption).
  assert (Rabs a' * Rabs (b - b') <= 1 * (1 / 1000000000)) by (apply Rmult_le_compat; try apply Rabs_pos; assumption). lra.
Qed.
(** ---- the angles ---- *)
Definition h4 : R := 31415926 / 10000000 / 2 + 1 / 1000000.
Definition g4 : R := 31415926 / 10000000 + 1 / 1000000.
Lemma sqrt3_b : 17320508075 / 10000000000 <= sqrt 3 <= 17320508076 / 10000000000.
Proof.
  split.
  - rewrite <- (sqrt_square (17320508075 / 10000000000)) by lra. apply sqrt_le_1_alt. lra.
  - rewrite <- (sqrt_square (17320508076 / 10000000000)) by lra. apply sqrt_le_1_alt. lra.
Qed.
Lemma trig4 : (Rabs (cos h4 - -9732 / 10000000000) <= 1 / 1000000000 /\ Rabs (sin h4 - 1) <= 1 / 1000000000) /\
  (Rabs (cos (h4 / 3) - 8660252416 / 10000000000) <= 1 / 1000000000 /\ Rabs (sin (h4 / 3) - 5000002809 / 10000000000) <= 1 / 1000000000) /\
  (Rabs (cos g4 - -1) <= 1 / 1000000000 /\ Rabs (sin g4 - -9464 / 10000000000) <= 1 / 1000000000) /\
  (Rabs (cos (g4 / 3) - 4999997268 / 10000000000) <= 1 / 1000000000 /\ Rabs (sin (g4 / 3) - 8660255615 / 10000000000) <= 1 / 1000000000).
Proof.
  pose proof pi_nine as PI9. pose proof sqrt3_b as S3.
  set (e := h4 - PI / 2). set (d := g4 - PI).
  assert (E : 97318 / 100000000000 < e < 97324 / 100000000000) by (unfold e, h4; lra).
  assert (D : 94635 / 100000000000 < d < 94647 / 100000000000) by (unfold d, g4; lra).
  replace h4 with (PI / 2 + e) by (unfold e; ring). replace g4 with (PI + d) by (unfold d; ring).
  replace ((PI / 2 + e) / 3) with (PI / 6 + e / 3) by field. replace ((PI + d) / 3) with (PI / 3 + d / 3) by field.
  rewrite !cos_plus, !sin_plus, cos_PI2, sin_PI2, cos_PI, sin_PI, cos_PI6, sin_PI6, cos_PI3, sin_PI3.
  pose proof (sin_tiny e ltac:(lra)) as E1'. pose proof (cos_tiny e ltac:(lra)) as E2'. pose proof (sin_tiny (e / 3) ltac:(lra)) as E3'. pose proof (cos_tiny (e / 3) ltac:(lra)) as E4'.
  pose proof (sin_tiny d ltac:(lra)) as D1'. pose proof (cos_tiny d ltac:(lra)) as D2'. pose proof (sin_tiny (d / 3) ltac:(lra)) as D3'. pose proof (cos_tiny (d / 3) ltac:(lra)) as D4'.
  generalize dependent (sin e). generalize dependent (cos e). generalize dependent (sin (e / 3)). generalize dependent (cos (e / 3)).
  generalize dependent (sin d). generalize dependent (cos d). generalize dependent (sin (d / 3)). generalize dependent (cos (d / 3)).
  intros cd3 C1' sd3 C2 cd C3 sd C4 ce3 C5 se3 C6 ce C7 se C8.
  generalize dependent (sqrt 3). intros q Q.
  assert (P : forall x, 0 <= x <= 1 / 1000000 -> 17320508075 / 10000000000 * x <= q * x <= 17320508076 / 10000000000 * x) by (intros x X; split; apply Rmult_le_compat_r; lra).
  assert (P1 : forall x, 1 - 1 / 1000000000000 <= x <= 1 -> 17320508075 / 10000000000 - 2 / 1000000000000 <= q * x <= 17320508076 / 10000000000).
  { intros x X. split; [|nra]. apply Rle_trans with (17320508075 / 10000000000 * (1 - 1 / 1000000000000)); [lra|]. apply Rmult_le_compat; lra. }
  pose proof (P sd3 ltac:(lra)). pose proof (P se3 ltac:(lra)). pose proof (P1 cd3 ltac:(lra)). pose proof (P1 ce3 ltac:(lra)).
  repeat split; apply Rabs_le; split; lra.
Qed.
(** ---- the mesh ---- *)
Definition gv (x y z : Z) : vec3 F64 := V3 (S := F64) (nano x) (nano y) (nano z).
Definition globe : mesh64 := Mesh (S := F64) [gv (5839) (0) (-6000000000); gv (-2920) (5057) (-6000000000); gv (-2920) (-5057) (-6000000000); gv (5839) (0) (-6000000000); gv (-5196151449) (4918) (-3000001686); gv (2598074305) (-4499999977) (-3000001686); gv (2598074305) (4499999977) (-3000001686); gv (-5196151449) (-4918) (-3000001686); gv (-5196151449) (4918) (3000001686); gv (2598074305) (-4499999977) (3000001686); gv (2598074305) (4499999977) (3000001686); gv (-5196151449) (-4918) (3000001686); gv (5839) (0) (6000000000); gv (-2920) (5057) (6000000000); gv (-2920) (-5057) (6000000000); gv (5839) (0) (6000000000)]
  (match mesh_faces 4 with Ok f => f | _ => [] end).
Definition near_vertex (w : vec3 F64) (v : rvec) : Prop :=
  Rabs (fval (vx w) - rx v) <= 1 / 10000000 /\ Rabs (fval (vy w) - ry v) <= 1 / 10000000 /\ Rabs (fval (vz w) - rz v) <= 1 / 10000000.
Lemma vertex_near kx ky kz et om ca sa ct st : (Z.abs kx <= 10000000000)%Z -> (Z.abs ky <= 10000000000)%Z -> (Z.abs kz <= 10000000000)%Z ->
  Rabs (cos et - ca) <= 1 / 1000000000 -> Rabs (sin et - sa) <= 1 / 1000000000 -> Rabs (cos om - ct) <= 1 / 1000000000 -> Rabs (sin om - st) <= 1 / 1000000000 ->
  Rabs ca <= 1 -> Rabs sa <= 1 ->
  Rabs (IZR kx / 1000000000 - 6 * (ca * ct)) <= 1 / 100000000 -> Rabs (IZR ky / 1000000000 - 6 * (ca * st)) <= 1 / 100000000 -> Rabs (IZR kz / 1000000000 - 6 * (sa * 1)) <= 1 / 100000000 ->
  near_vertex (gv kx ky kz) (let v := add3 (V3r 0 0 0) (scale3 (4 + 2) (app3 (rotm (Q 1 0 0 0)) (dir3 et om))) in RV (x3 v) (y3 v) (z3 v)).
Proof.
  intros KX KY KZ H1 H2 H3 H4 A1' A2 X Y Z. rewrite upright_turn by ring. unfold near_vertex, gv, dir3, add3, scale3. cbn [vx vy vz x3 y3 z3 rx ry rz].
  replace (0 + (4 + 2) * ((1 * 1 - 0 * 0) * (cos et * cos om) - 2 * 1 * 0 * (cos et * sin om))) with (6 * (cos et * cos om)) by ring.
  replace (0 + (4 + 2) * (2 * 1 * 0 * (cos et * cos om) + (1 * 1 - 0 * 0) * (cos et * sin om))) with (6 * (cos et * sin om)) by ring.
  replace (0 + (4 + 2) * sin et) with (6 * (sin et * 1)) by ring.
  split; [|split].
  - apply (close_mix kx _ ca _ ct); try assumption. apply Rabs_le. pose proof (COS_bound om). lra.
  - apply (close_mix ky _ ca _ st); try assumption. apply Rabs_le. pose proof (SIN_bound om). lra.
  - apply (close_mix kz _ sa 1 1); try assumption; apply Rabs_le; lra.
Qed.
Definition ca (i : nat) : R := match i with 0%nat | 3%nat => -9732 / 10000000000 | _ => 8660252416 / 10000000000 end.
Definition sa (i : nat) : R := match i with 0%nat => -1 | 1%nat => - (5000002809 / 10000000000) | 2%nat => 5000002809 / 10000000000 | _ => 1 end.
Definition ct (j : nat) : R := match j with 0%nat | 3%nat => -1 | _ => 4999997268 / 10000000000 end.
Definition st (j : nat) : R := match j with 0%nat => 9464 / 10000000000 | 1%nat => - (8660255615 / 10000000000) | 2%nat => 8660255615 / 10000000000 | _ => -9464 / 10000000000 end.
Lemma ev4 h i : (i < 4)%nat -> evenly 4 h i = match i with 0%nat => - h | 1%nat => - (h / 3) | 2%nat => h / 3 | _ => h end.
Proof. intros L. unfold evenly. destruct i as [|[|[|[|i]]]]; try lia; cbn [INR]; field. Qed.
Lemma angles i j : (i < 4)%nat -> (j < 4)%nat ->
  Rabs (cos (evenly 4 h4 i) - ca i) <= 1 / 1000000000 /\ Rabs (sin (evenly 4 h4 i) - sa i) <= 1 / 1000000000 /\
  Rabs (cos (evenly 4 g4 j) - ct j) <= 1 / 1000000000 /\ Rabs (sin (evenly 4 g4 j) - st j) <= 1 / 1000000000.
Proof.
  intros Li Lj. destruct trig4 as ((T1 & T2) & (T3 & T4) & (T5 & T6) & (T7 & T8)). rewrite !ev4 by assumption.
  assert (N : forall a b, Rabs (a - b) <= 1 / 1000000000 -> Rabs (- a - - b) <= 1 / 1000000000) by (intros a b H; replace (- a - - b) with (- (a - b)) by ring; rewrite Rabs_Ropp; exact H).
  assert (S6 : Rabs (- sin g4 - 9464 / 10000000000) <= 1 / 1000000000) by (replace (9464 / 10000000000) with (- (-9464 / 10000000000)) by field; apply N; exact T6).
  split; [|split; [|split]].
  - destruct i as [|[|[|[|i]]]]; try lia; cbn [ca]; rewrite ?cos_neg; assumption.
  - destruct i as [|[|[|[|i]]]]; try lia; cbn [sa]; rewrite ?sin_neg; try assumption; [replace (-1) with (- (1)) by ring|]; apply N; assumption.
  - destruct j as [|[|[|[|j]]]]; try lia; cbn [ct]; rewrite ?cos_neg; assumption.
  - destruct j as [|[|[|[|j]]]]; try lia; cbn [st]; rewrite ?sin_neg; try assumption; apply N; assumption.
Qed.
Lemma globe_near : exists bd, mink3 (SQ [4; 4; 4] [1; 1] [0; 0; 0] (Q 1 0 0 0) 4) (SQ [2; 2; 2] [1; 1] [0; 0; 0] (Q 1 0 0 0) 4) 1 = Ok bd /\ mesh_near (1 / 10000000) globe bd.
Proof.
  assert (U : unit_quat (Q 1 0 0 0)) by (unfold unit_quat; cbn; lra).
  destruct (ball_bd 4 0 0 0 (Q 1 0 0 0) 4 2 [0; 0; 0] (Q 1 0 0 0) 4 U U ltac:(lra) ltac:(lra) ltac:(lia)) as (vs & M & LV & NV).
  fold h4 g4 in NV. eexists. split; [exact M|]. clear M.
  assert (F : Forall2 near_vertex (mverts globe) vs).
  2:{ unfold mesh_near. revert F. generalize (mverts globe). revert vs LV NV. intros vs _ _ l F. induction F as [|w v l vs H F IH]; [constructor|]. cbn [map]. constructor; [|exact IH].
      exists (v3_of v). split; [reflexivity|exact H]. }
  cbn [Nat.mul Nat.add] in LV. 
  destruct vs as [|v0 [|v1 [|v2 [|v3 [|v4 [|v5 [|v6 [|v7 [|v8 [|v9 [|v10 [|v11 [|v12 [|v13 [|v14 [|v15 [|]]]]]]]]]]]]]]]]]; try discriminate LV. clear LV.
  assert (G : forall i j kx ky kz v, (i < 4)%nat -> (j < 4)%nat -> 
    nth_error [v0; v1; v2; v3; v4; v5; v6; v7; v8; v9; v10; v11; v12; v13; v14; v15] (i * 4 + j) = Some v ->
    (Z.abs kx <= 10000000000)%Z -> (Z.abs ky <= 10000000000)%Z -> (Z.abs kz <= 10000000000)%Z -> Rabs (ca i) <= 1 -> Rabs (sa i) <= 1 ->
    Rabs (IZR kx / 1000000000 - 6 * (ca i * ct j)) <= 1 / 100000000 -> Rabs (IZR ky / 1000000000 - 6 * (ca i * st j)) <= 1 / 100000000 -> Rabs (IZR kz / 1000000000 - 6 * (sa i * 1)) <= 1 / 100000000 ->
    near_vertex (gv kx ky kz) v).
  { intros i j kx ky kz v Li Lj N K1 K2 K3 B1' B2 X Y Z. pose proof (NV i j Li Lj) as W. rewrite N in W. injection W as ->. destruct (angles i j Li Lj) as (Q1 & Q2 & Q3 & Q4).
    exact (vertex_near kx ky kz _ _ _ _ _ _ K1 K2 K3 Q1 Q2 Q3 Q4 B1' B2 X Y Z). }
  clear NV. unfold globe. cbn [mverts].
  apply Forall2_cons; [apply (G 0 0)%nat; [lia|lia|reflexivity|lia|lia|lia|..]; unfold ca, sa, ct, st; apply Rabs_le; lra|].
  apply Forall2_cons; [apply (G 0 1)%nat; [lia|lia|reflexivity|lia|lia|lia|..]; unfold ca, sa, ct, st; apply Rabs_le; lra|].
  apply Forall2_cons; [apply (G 0 2)%nat; [lia|lia|reflexivity|lia|lia|lia|..]; unfold ca, sa, ct, st; apply Rabs_le; lra|].
  apply Forall2_cons; [apply (G 0 3)%nat; [lia|lia|reflexivity|lia|lia|lia|..]; unfold ca, sa, ct, st; apply Rabs_le; lra|].
  apply Forall2_cons; [apply (G 1 0)%nat; [lia|lia|reflexivity|lia|lia|lia|..]; unfold ca, sa, ct, st; apply Rabs_le; lra|].
  apply Forall2_cons; [apply (G 1 1)%nat; [lia|lia|reflexivity|lia|lia|lia|..]; unfold ca, sa, ct, st; apply Rabs_le; lra|].
  apply Forall2_cons; [apply (G 1 2)%nat; [lia|lia|reflexivity|lia|lia|lia|..]; unfold ca, sa, ct, st; apply Rabs_le; lra|].
  apply Forall2_cons; [apply (G 1 3)%nat; [lia|lia|reflexivity|lia|lia|lia|..]; unfold ca, sa, ct, st; apply Rabs_le; lra|].
  apply Forall2_cons; [apply (G 2 0)%nat; [lia|lia|reflexivity|lia|lia|lia|..]; unfold ca, sa, ct, st; apply Rabs_le; lra|].
  apply Forall2_cons; [apply (G 2 1)%nat; [lia|lia|reflexivity|lia|lia|lia|..]; unfold ca, sa, ct, st; apply Rabs_le; lra|].
  apply Forall2_cons; [apply (G 2 2)%nat; [lia|lia|reflexivity|lia|lia|lia|..]; unfold ca, sa, ct, st; apply Rabs_le; lra|].
  apply Forall2_cons; [apply (G 2 3)%nat; [lia|lia|reflexivity|lia|lia|lia|..]; unfold ca, sa, ct, st; apply Rabs_le; lra|].
  apply Forall2_cons; [apply (G 3 0)%nat; [lia|lia|reflexivity|lia|lia|lia|..]; unfold ca, sa, ct, st; apply Rabs_le; lra|].
  apply Forall2_cons; [apply (G 3 1)%nat; [lia|lia|reflexivity|lia|lia|lia|..]; unfold ca, sa, ct, st; apply Rabs_le; lra|].
  apply Forall2_cons; [apply (G 3 2)%nat; [lia|lia|reflexivity|lia|lia|lia|..]; unfold ca, sa, ct, st; apply Rabs_le; lra|].
  apply Forall2_cons; [apply (G 3 3)%nat; [lia|lia|reflexivity|lia|lia|lia|..]; unfold ca, sa, ct, st; apply Rabs_le; lra|].
  apply Forall2_nil.
Qed.

(** ---- the scene: an arena of height 20, the ball in the middle ---- *)
Definition D6 : env3 :=
  {| robot3 := pose; m_move := fun _ v => v; m_quat := quat_of;
     m_centers := fun v => ((nth 0 v fzero, nth 1 v fzero, nth 2 v fzero), []);
     m_mink := fun _ => Ok (BMesh [cuboid (-20) 20 (-19) 23 (-10) 10] [globe]);
     m_tfe_q := fun _ _ _ => Ok [[]]; m_tfe_v := fun _ _ _ => Ok [[]];
     m_qdist := demo_qdist; m_slerp := demo_slerp; m_sort := isort; m_astar := demo_astar; m_uninit := read_first;
     m_prob := false; m_dof := 0; m_rigid := true; m_samples := [qa]; m_limits := map fofZ [-10; 10; -10; 10; -10; 10]%Z;
     m_numPoint := 2; m_numNeighbor := 10; m_radius := Float64.cHALF_PI; m_start := zpose3 0 0 (-9) (1, 0, 0, 0)%Z; m_goal := zpose3 0 0 9 (1, 0, 0, 0)%Z |}.
Definition through (E : env3) (o : outcome (state3 E * option (list pose * list pose))) : bool :=
  match o with
  | Ok (_, Some (path, _)) => Nat.eqb (length path) 4 && 
      match nth_error path 1, nth_error path 2 with
      | Some (a :: b :: c :: _), Some (x :: y :: z :: _) =>
          feqb a fzero && feqb b fzero && fltb (fofZ (-9)) c && fltb c (fofZ (-7)) && feqb x fzero && feqb y fzero && fltb (fofZ 1) z && fltb z (fofZ 3)
      | _, _ => false end
  | _ => false end.
Lemma D6_through : through D6 (run3 D6 [] 1 3 3 []) = true.
Proof. vm_compute. reflexivity. Qed.
Lemma ltb_num x y : fltb x y = true -> fisnan x = false /\ fisnan y = false.
Proof.
  intros H. split.
  - destruct (fisnan x) eqn:E; [|reflexivity]. rewrite (fltb_nan_l x y E) in H. discriminate H.
  - destruct (fisnan y) eqn:E; [|reflexivity]. rewrite (fltb_nan_r x y E) in H. discriminate H.
Qed.
Lemma ltb_vals k z : (Z.abs k <= 1000)%Z -> (fltb (fofZ k) z = true -> IZR k < fval z) /\ (fltb z (fofZ k) = true -> fval z < IZR k).
Proof.
  intros K. rewrite <- (fofZ_val k) by lia. split; intros H; pose proof (ltb_num _ _ H) as [N1 N2]; apply (fltb_val _ _ N1 N2); exact H.
Qed.
Lemma through_ok E r nS nx ny : through E (run3 E r nS nx ny []) = true ->
  exists s0 s path ip a b c w x y z w', construct3 E r nS nx ny 1 1 = Ok s0 /\ plan3 E (fun _ => qa) [] s0 = Ok (s, Some (path, ip)) /\
    length path = 4%nat /\ nth_error path 1 = Some (a :: b :: c :: w) /\ nth_error path 2 = Some (x :: y :: z :: w') /\
    fval a = 0 /\ fval b = 0 /\ -9 < fval c < -7 /\ fval x = 0 /\ fval y = 0 /\ 1 < fval z < 3.
Proof.
  intros H. unfold through in H. destruct (run3 E r nS nx ny []) as [[s [[path ip]|]]| |] eqn:R; [|discriminate H..].
  apply run3_construct in R. destruct R as (s0 & C & P).
  apply andb_prop in H. destruct H as [L H]. apply Nat.eqb_eq in L.
  destruct (nth_error path 1) as [[|a [|b [|c w]]]|] eqn:Q1; try discriminate H.
  destruct (nth_error path 2) as [[|x [|y [|z w']]]|] eqn:Q2; try discriminate H.
  repeat (apply andb_prop in H; let K := fresh "K" in destruct H as [H K]).
  exists s0, s, path, ip, a, b, c, w, x, y, z, w'. split; [exact C|]. split; [exact P|]. split; [exact L|]. split; [exact Q1|]. split; [exact Q2|].
  pose proof (fofZ_val 0 ltac:(lia)) as Z0.
  assert (ZF : fisfin fzero = true) by reflexivity.
  assert (V0 : fval fzero = 0) by exact Z0.
  split; [rewrite <- V0; apply feqb_val_true; assumption|]. split; [rewrite <- V0; apply feqb_val_true; assumption|].
  split; [split; [apply (ltb_vals (-9) c ltac:(lia)); assumption|apply (ltb_vals (-7) c ltac:(lia)); assumption]|].
  split; [rewrite <- V0; apply feqb_val_true; assumption|]. split; [rewrite <- V0; apply feqb_val_true; assumption|].
  split; [apply (ltb_vals 1 z ltac:(lia)); assumption|apply (ltb_vals 3 z ltac:(lia)); assumption].
Qed.

Lemma inside_ball R0 c p : 0 < R0 -> dot3 (sub3 p c) (sub3 p c) < R0 * R0 -> inside3 (ellipsoid_at R0 R0 R0 (Q 1 0 0 0) c) p.
Proof.
  intros HR H. assert (U : unit_quat (Q 1 0 0 0)) by (unfold unit_quat; cbn; lra). exists (sub3 p c). split.
  - unfold placed, ellipsoid_at. cbn [sctr SGeom.sq]. rewrite turn_rotm by exact U. rewrite upright_turn by ring. unfold add3, sub3. cbn [x3 y3 z3]. destruct p as [i1 i2 i3]. cbn [x3 y3 z3]. f_equal; ring.
  - rewrite PGeom3.shape_ell. replace (x3 (sub3 p c) / R0 * (x3 (sub3 p c) / R0) + y3 (sub3 p c) / R0 * (y3 (sub3 p c) / R0) + z3 (sub3 p c) / R0 * (z3 (sub3 p c) / R0)) with (dot3 (sub3 p c) (sub3 p c) * / (R0 * R0)) by (unfold dot3; field; lra).
    apply Rmult_lt_reg_r with (R0 * R0); [nra|]. rewrite Rmult_assoc, Rinv_l by nra. lra.
Qed.
Lemma globe_path : exists (E : env3) (r : robot3 E) s0 s path ip arena m bd a b c w x y z w',
  m_mink E r = Ok (BMesh [arena] [m]) /\
  mink3 (SQ [4; 4; 4] [1; 1] [0; 0; 0] (Q 1 0 0 0) 4) (SQ [2; 2; 2] [1; 1] [0; 0; 0] (Q 1 0 0 0) 4) 1 = Ok bd /\
  mesh_near (1 / 10 ^ 7) m bd /\ mesh_faces 4 = Ok (mfaces m) /\
  construct3 E r 1 3 3 1 1 = Ok s0 /\ plan3 E (fun _ => qa) [] s0 = Ok (s, Some (path, ip)) /\
  nth_error path 1 = Some (a :: b :: c :: w) /\ nth_error path 2 = Some (x :: y :: z :: w') /\
  overlap3 (body_of3 (SQ [4; 4; 4] [1; 1] [0; 0; 0] (Q 1 0 0 0) 4)) (ellipsoid_at 2 2 2 (Q 1 0 0 0) (V3r (fval x) (fval y) (fval z))) /\
  exists t, 0 <= t <= 1 /\ V3r (fval a + t * (fval x - fval a)) (fval b + t * (fval y - fval b)) (fval c + t * (fval z - fval c)) = V3r 0 0 0.
Proof.
  destruct (through_ok D6 [] 1 3 3 D6_through) as (s0 & s & path & ip & a & b & c & w & x & y & z & w' & C & P & L & Q1 & Q2 & Va & Vb & Vc & Vx & Vy & Vz).
  destruct globe_near as (bd & M & N).
  exists D6, [], s0, s, path, ip, (cuboid (-20) 20 (-19) 23 (-10) 10), globe, bd, a, b, c, w, x, y, z, w'.
  split; [reflexivity|]. split; [exact M|]. split; [replace (1 / 10 ^ 7) with (1 / 10000000) by (cbn [pow]; lra); exact N|]. split; [reflexivity|]. split; [exact C|]. split; [exact P|]. split; [exact Q1|]. split; [exact Q2|].
  rewrite Va, Vb, Vx, Vy. revert Vc Vz. generalize (fval c) (fval z). intros zc zz Hc Hz. split.
  - exists (V3r 0 0 zz). split.
    + change (body_of3 (SQ [4; 4; 4] [1; 1] [0; 0; 0] (Q 1 0 0 0) 4)) with (ellipsoid_at 4 4 4 (Q 1 0 0 0) (V3r 0 0 0)). apply inside_ball; [lra|]. unfold dot3, sub3. cbn [x3 y3 z3]. nra.
    + apply inside_ball; [lra|]. unfold dot3, sub3. cbn [x3 y3 z3]. nra.
  - exists (- zc / (zz - zc)). split; [|f_equal; field; lra].
    assert (I : 0 < / (zz - zc)) by (apply Rinv_0_lt_compat; lra). assert (J : (zz - zc) * / (zz - zc) = 1) by (apply Rinv_r; lra). unfold Rdiv. split; nra.
Qed.
