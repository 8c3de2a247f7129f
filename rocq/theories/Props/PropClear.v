(** C74-C76: clearance of the vertices and waypoints of the roadmaps (src/planners/HRM2D.cpp,
    HRM3D.cpp, ProbHRM3D.cpp, FreeSpace2D.cpp, FreeSpace3D.cpp, HighwayRoadMap-inl.h). *)
From Coq Require Import List Bool Reals Lra Lia ZArith Arith.
From Flocq Require Import Core.
From Verif.Base Require Import Outcome Float64 FloatFacts.
From Verif.Model Require Import MScalar MInterval MFreeSpace MLine2D MLine3D MInterp MGraph MSearch MHRM2D MHRM3D.
From Verif.Spec Require Import SInterval SFreeSpace SGraph SSearch SPlanner2D SPlanner3D SClear.
From Verif.Proofs Require Import PInterval PSearch PHRM2D PPlan2D PPlan2DY PHRM2DW PHRM3DW PPlan3DX PClear PClear3 PClearX.
Import ListNotations.
Local Open Scope R_scope.

(** C74: whatever the planner did, every vertex of its roadmap lies on a sweep line, is never
    strictly between the crossings of an obstacle's boundary and is within the arena. *)
Theorem C74_planar_vertices_are_clear : forall (E : env) robot fsr nx ny s0 s l0 l1 l2 l3,
  conforming (e_sort E) -> e_limits E = [l0; l1; l2; l3] ->
  fisnan l0 = false -> fisnan l1 = false -> Rabs (fval l0) <= bpow radix2 1022 -> Rabs (fval l1) <= bpow radix2 1022 ->
  let B := e_mink E fsr in
  (forall y, In y (sweep_heights ny l2 l3) -> moderate_arena2 B y) ->
  construct E robot fsr nx ny (length (barena B)) (length (bobstacle B)) = Ok s0 -> planned E s0 s ->
  forall v, In v (gvert (p_graph s)) -> exists x y h, v = [x; y; h] /\ In y (sweep_heights ny l2 l3) /\
    fisnan x = false /\ clear2 B x y /\ in_arena2 B l0 l1 x y.
Proof. exact planar_clear. Qed.
Print Assumptions C74_planar_vertices_are_clear.

(** The waypoints of a returned path, other than the start and the goal. *)
Theorem C74_planar_waypoints_are_clear : forall (E : env) robot fsr nx ny s0 s rounds s' path ipath l0 l1 l2 l3,
  conforming (e_sort E) -> e_limits E = [l0; l1; l2; l3] ->
  fisnan l0 = false -> fisnan l1 = false -> Rabs (fval l0) <= bpow radix2 1022 -> Rabs (fval l1) <= bpow radix2 1022 ->
  let B := e_mink E fsr in
  (forall y, In y (sweep_heights ny l2 l3) -> moderate_arena2 B y) ->
  construct E robot fsr nx ny (length (barena B)) (length (bobstacle B)) = Ok s0 -> planned E s0 s ->
  plan E (connect_multi E) rounds s = Ok (s', Some (path, ipath)) ->
  exists a z way, path = a :: way ++ [z] /\
    forall v, In v way -> exists x y h, v = [x; y; h] /\ In y (sweep_heights ny l2 l3) /\
      fisnan x = false /\ clear2 B x y /\ in_arena2 B l0 l1 x y.
Proof.
  intros E robot fsr nx ny s0 s rounds s' path ipath l0 l1 l2 l3 Hs Lm N0 N1 B0 B1 B MO C P Pl.
  pose proof (planar_clear E robot fsr nx ny s0 s' l0 l1 l2 l3 Hs Lm N0 N1 B0 B1 MO C (planned_plan _ _ _ _ _ _ P Pl)) as CL.
  apply plan_result in Pl. destruct Pl as [[_ Q]|(_ & p & Q & Sp)]; [discriminate Q|]. injection Q as -> ->.
  apply solution_path_spec in Sp. destruct Sp as (v0 & ms & _ & -> & F). eexists _, _, ms. split; [reflexivity|].
  intros v Hv. apply CL. clear - F Hv. induction F as [|i w is ws Hw F IH]; [destruct Hv|]. destruct Hv as [->|Hv]; [exact (nth_error_In _ _ Hw)|exact (IH Hv)].
Qed.
Print Assumptions C74_planar_waypoints_are_clear.

(** The hypotheses in the demonstration scene: three slices, ten vertices each, a solved path. *)
Example C74_hyp : exists l0 l1 l2 l3 s0 s path,
  conforming (e_sort E1) /\ e_limits E1 = [l0; l1; l2; l3] /\ fisnan l0 = false /\ fisnan l1 = false /\
  Rabs (fval l0) <= bpow radix2 1022 /\ Rabs (fval l1) <= bpow radix2 1022 /\
  (forall y, In y (sweep_heights 4 l2 l3) -> moderate_arena2 (e_mink E1 origin) y) /\
  construct E1 origin origin 1 4 (length (barena (e_mink E1 origin))) (length (bobstacle (e_mink E1 origin))) = Ok s0 /\
  plan E1 (connect_multi E1) [] s0 = Ok (s, Some (path, path)) /\ planned E1 s0 s /\
  length (gvert (p_graph s)) = 30%nat /\ length path = 6%nat.
Proof.
  destruct E1_run as (s0 & s & path & C & P & _ & L & _ & V & _).
  exists (fofZ (-10)), (fofZ 10), (fofZ (-10)), (fofZ 10), s0, s, path.
  assert (BB : forall z, Z.abs z = 10%Z -> fisnan (fofZ z) = false /\ Rabs (fval (fofZ z)) <= bpow radix2 1022) by (intros z Hz; exact (moderate_10 z Hz)).
  destruct (BB (-10)%Z eq_refl) as [N0 B0]. destruct (BB 10%Z eq_refl) as [N1 B1].
  split; [exact isort_conforming|]. split; [reflexivity|]. split; [exact N0|]. split; [exact N1|]. split; [exact B0|]. split; [exact B1|].
  split; [exact E1_moderate|]. split; [exact C|]. split; [exact P|]. split; [exact (planned_plan _ _ _ _ _ _ (planned_0 _ _) P)|]. split; [exact V|exact L].
Qed.

(** C74 in space (HRM3D and ProbHRM3D): a vertex on a sweep line of the grid is clear of the meshes
    swept over; any other vertex is a corner of two earlier vertices whose two straight legs passed the motion test. *)
Theorem C74_spatial_vertices_are_clear : forall (E : env3) robot B nS nx ny s0 s l0 l1 l2 l3 l4 l5,
  conforming (m_sort E) -> m_limits E = [l0; l1; l2; l3; l4; l5] ->
  fisnan l4 = false -> fisnan l5 = false -> Rabs (fval l4) <= bpow radix2 1022 -> Rabs (fval l5) <= bpow radix2 1022 ->
  m_mink E robot = Ok B ->
  (forall x y, In x (grid nx l0 l1) -> In y (grid ny l2 l3) -> moderate_arena3 B x y) ->
  construct3 E robot nS nx ny (length (marena B)) (length (mobstacle B)) = Ok s0 -> planned3 E s0 s ->
  forall k v, nth_error (gvert (q_graph s)) k = Some v ->
    (exists x y z tail, v = [x; y; z] ++ tail /\ In x (grid nx l0 l1) /\ In y (grid ny l2 l3) /\
       fisnan z = false /\ clear3 B x y z /\ in_arena3 B l4 l5 x y z) \/
    (exists i j v1 v2, (i < k)%nat /\ (j < k)%nat /\ nth_error (gvert (q_graph s)) i = Some v1 /\ nth_error (gvert (q_graph s)) j = Some v2 /\
       corner3 B v1 v2 v).
Proof. exact spatial_clear. Qed.
Print Assumptions C74_spatial_vertices_are_clear.
Example C74_spatial_hyp : exists l0 l1 l2 l3 l4 l5 s0 s,
  conforming (m_sort D1) /\ m_limits D1 = [l0; l1; l2; l3; l4; l5] /\ fisnan l4 = false /\ fisnan l5 = false /\
  Rabs (fval l4) <= bpow radix2 1022 /\ Rabs (fval l5) <= bpow radix2 1022 /\ m_mink D1 [] = Ok D_bound /\
  (forall x y, In x (grid 2 l0 l1) -> In y (grid 2 l2 l3) -> moderate_arena3 D_bound x y) /\
  construct3 D1 [] 2 2 2 (length (marena D_bound)) (length (mobstacle D_bound)) = Ok s0 /\ planned3 D1 s0 s /\
  length (gvert (q_graph s)) = 14%nat.
Proof.
  destruct D1_run as (s0 & s & path & C & P & _ & _ & _ & _ & V & _).
  exists (fofZ (-10)), (fofZ 10), (fofZ (-10)), (fofZ 10), (fofZ (-10)), (fofZ 10), s0, s.
  destruct (moderate_10 (-10)%Z eq_refl) as [N0 B0]. destruct (moderate_10 10%Z eq_refl) as [N1 B1].
  split; [exact isort_conforming|]. split; [reflexivity|]. split; [exact N0|]. split; [exact N1|]. split; [exact B0|]. split; [exact B1|]. split; [reflexivity|].
  split; [exact D1_moderate|]. split; [exact C|]. split; [|exact V].
  exact (planned3_plan D1 s0 s0 (fun _ => qa) [] s (Some (path, path)) eq_refl (planned3_0 _ _) P).
Qed.

(** C75: the first and the last waypoint and the legs that join them to the roadmap are not
    checked. A path whose first waypoint is inside an obstacle's boundary: *)
Theorem C75_start_is_clear_refuted : exists (E : env) r s0 s path P x y h h0 h1,
  construct E r r 1 4 (length (barena (e_mink E r))) (length (bobstacle (e_mink E r))) = Ok s0 /\
  plan E (connect_multi E) [] s0 = Ok (s, Some (path, path)) /\
  (forall r', bobstacle (e_mink E r') = [P]) /\ hd_error path = Some [x; y; h] /\
  crosses2 P y h0 h1 /\ Rmin (fval h0) (fval h1) < fval x < Rmax (fval h0) (fval h1).
Proof.
  destruct (solved_run _ _ _ _ _ _ _ _ _ E8_view) as (s0 & s & path & C & P & _ & _).
  destruct (inside_b_ok _ _ _ E8_inside) as (h0 & h1 & K & I).
  exists E8, origin, s0, s, path, (box (-3) 3 (-4) 4), (fofZ 0), (fofZ (-3)), (fofZ 0), h0, h1.
  split; [exact C|]. split; [exact P|]. split; [reflexivity|]. split; [|split; [exact K|exact I]].
  exact (E8_first s0 s path C P).
Qed.
Print Assumptions C75_start_is_clear_refuted.

(** A path returned although a wall separates the start from the goal: every continuous motion
    of the robot's centre that stays within the arena passes through the wall. The start is
    clear; the first leg passes through the wall. *)
Theorem C75_first_leg_is_clear_refuted : exists (E : env) r s0 s path,
  construct E r r 1 4 (length (barena (e_mink E r))) (length (bobstacle (e_mink E r))) = Ok s0 /\
  plan E (connect_multi E) [] s0 = Ok (s, Some (path, path)) /\
  (forall r' x y h, fst (e_centers E (e_move E r' x y h)) = (x, y)) /\
  (exists a w, (forall r', e_mink E r' = Bound [a] [w]) /\
    map (fun p => (fval (fst p), fval (snd p))) a = [(-20, -20); (20, -20); (20, 20); (-20, 20)] /\
    map (fun p => (fval (fst p), fval (snd p))) w = [(-30, -5); (30, -5); (30, -4); (-30, -4)]) /\
  map fval (e_start E) = [0; -6; 0] /\ map fval (e_goal E) = [0; 10; 0] /\
  forall x y : R -> R, continuity x -> continuity y -> (x 0, y 0) = (0, -6) -> (x 1, y 1) = (0, 10) ->
    (forall t, 0 <= t <= 1 -> -20 <= x t <= 20) -> exists t, 0 <= t <= 1 /\ -30 < x t < 30 /\ -5 < y t < -4.
Proof.
  destruct (solved_run _ _ _ _ _ _ _ _ _ E10_view) as (s0 & s & path & C & P & _ & _).
  exists E10, origin, s0, s, path. split; [exact C|]. split; [exact P|]. split; [reflexivity|]. split.
  { exists (box (-20) 20 (-20) 20), (box (-30) 30 (-5) (-4)). split; [reflexivity|]. split; apply box_val; lia. }
  assert (V : forall z, (Z.abs z <= 1000)%Z -> fval (fofZ z) = IZR z) by (intros z Hz; apply fofZ_spec; lia).
  split; [cbn [E10 demo_env e_start zpose map]; rewrite !V by lia; reflexivity|].
  split; [cbn [E10 demo_env e_goal zpose map]; rewrite !V by lia; reflexivity|].
  intros x y Cx Cy S0 S1 A. injection S0 as X0 Y0. injection S1 as X1 Y1.
  destruct (crossing y (-5) (-4) (-9 / 2) Cy) as (t & Ht & Hy); try lra. exists t. pose proof (A t Ht). lra.
Qed.
Print Assumptions C75_first_leg_is_clear_refuted.

(** C76: obstacles thinner than the spacing of the interpolated poses are passed through between
    slices, so a path is returned although a wall separates the start from the goal. *)
Theorem C76_path_exists_refuted : exists (E : env) r s0 s path,
  construct E r r 1 4 (length (barena (e_mink E r))) (length (bobstacle (e_mink E r))) = Ok s0 /\
  plan E (connect_multi E) [] s0 = Ok (s, Some (path, path)) /\ e_numPoint E = 5%nat /\
  (forall r' x y h, fst (e_centers E (e_move E r' x y h)) = (x, y)) /\
  (exists a w, (forall r', e_mink E r' = Bound [a] [w]) /\ (forall r' u v, e_tfe E r' u v = Ok [[w]]) /\
    map (fun p => (fval (fst p), fval (snd p))) a = [(-200, -200); (200, -200); (200, 200); (-200, 200)] /\
    map (fun p => (fval (fst p), fval (snd p))) w = [(-300, 1); (300, 1); (300, 3); (-300, 3)]) /\
  map fval (e_start E) = [0; -100; 0] /\ map fval (e_goal E) = [0; 100; 0] /\
  forall x y : R -> R, continuity x -> continuity y -> (x 0, y 0) = (0, -100) -> (x 1, y 1) = (0, 100) ->
    (forall t, 0 <= t <= 1 -> -200 <= x t <= 200) -> exists t, 0 <= t <= 1 /\ -300 < x t < 300 /\ 1 < y t < 3.
Proof.
  destruct (solved_run _ _ _ _ _ _ _ _ _ E9_view) as (s0 & s & path & C & P & _ & _).
  exists E9, origin, s0, s, path. split; [exact C|]. split; [exact P|]. split; [reflexivity|]. split; [reflexivity|]. split.
  { exists (box (-200) 200 (-200) 200), (box (-300) 300 1 3). split; [reflexivity|]. split; [reflexivity|]. split; apply box_val; lia. }
  assert (V : forall z, (Z.abs z <= 1000)%Z -> fval (fofZ z) = IZR z) by (intros z Hz; apply fofZ_spec; lia).
  split; [cbn [E9 e_start zpose map]; rewrite !V by lia; reflexivity|].
  split; [cbn [E9 e_goal zpose map]; rewrite !V by lia; reflexivity|].
  intros x y Cx Cy S0 S1 A. injection S0 as X0 Y0. injection S1 as X1 Y1.
  destruct (crossing y 1 3 2 Cy) as (t & Ht & Hy); try lra. exists t. pose proof (A t Ht). lra.
Qed.
Print Assumptions C76_path_exists_refuted.
