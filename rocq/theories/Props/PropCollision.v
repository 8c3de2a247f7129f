(** C80-C82: the collision check of the OMPL planners and of HRM3DAblation. *)
From Coq Require Import List Reals Arith Bool Lia Lra Classical_Prop ClassicalDedekindReals.
From Verif.Base Require Import Outcome.
From Verif.Model Require Import MGeom MMultiBody MCollision.
From Verif.Model Require MSeparation.
From Verif.Spec Require Import SGeom SRigid SCollision.
From Verif.Spec Require SSeparation.
From Verif.Proofs Require Import PGeom PRot PMulti PCollision PCollisionX PCollisionY PCollisionZ.
From Verif.Props Require PropSeparation.
Import ListNotations.
Local Open Scope R_scope.

(** An exact collision routine and a triangulation with the assumed properties exist. *)
Lemma sure (P : Prop) : ~ ~ P -> P.
Proof. destruct (classic P) as [H|H]; [auto|intros N; destruct (N H)]. Qed.
Definition ideal_fcl : collider := fun g1 t1 g2 t2 => if sig_not_dec (exists p, in_geom t1 g1 p /\ in_geom t2 g2 p) then true else false.
Definition plain_cgal : triangulation := fun L => (L, map (fun i => (i, i, i, i)) (seq 0 (length L))).
Example C80_example_routines : exact_fcl ideal_fcl /\ own_points plain_cgal /\ covers_points plain_cgal.
Proof.
  split; [|split].
  - intros g1 t1 g2 t2. unfold ideal_fcl. destruct (sig_not_dec _) as [H|H]; [apply sure in H; split; auto|split; [discriminate|intros E; contradiction]].
  - intros L p I. exact I.
  - intros L p I. apply In_nth_error in I. destruct I as [i E]. exists i, i, i, i, i. cbn [plain_cgal fst snd]. split; [apply in_map_iff; exists i; split; [reflexivity|apply in_seq; split; [lia|]; apply nth_error_Some; rewrite E; discriminate]|].
    split; [left; reflexivity|]. split; [exact E|]. intros j [<-|[<-|[<-|[<-|[]]]]]; exists p; exact E.
Qed.

(** ---- C80 ---- *)
(** A planar state found valid is free of collision: robot of ellipses built by any history of
    calls, elliptic obstacles, any number of calls of setup. *)
Theorem C80_planar_valid_sound eig collide cgal n base cs m obs x y th : calls2 (new_mb2 base) cs = Ok m ->
  Forall robot_ellipse (base :: added2 cs) -> Forall robot_ellipse obs ->
  (forall s o, In s (bodies2 (robot_tf2 m (turning th, V2 x y))) -> In o obs -> clean_roots eig s o) ->
  exists objs, setups2 cgal m obs n = Ok objs /\
    (state_valid2 eig collide objs obs m x y th = Ok true -> robot_clear2 base (added2 cs) obs x y th).
Proof.
  intros H F G C. destruct (setups2_any cgal base cs m obs n H F G) as [objs E]. exists objs. split; [exact E|].
  exact (planar_valid_sound eig collide objs base cs m obs x y th H F G C).
Qed.
Print Assumptions C80_planar_valid_sound.
(** It is exact up to the root tolerance: a state is valid exactly if the robot is clear of the
    obstacles and no pair's two negative roots are within 1e-6 of each other. *)
Theorem C80_planar_valid_exact eig collide cgal n base cs m obs x y th : calls2 (new_mb2 base) cs = Ok m ->
  Forall robot_ellipse (base :: added2 cs) -> Forall robot_ellipse obs ->
  (forall s o, In s (bodies2 (robot_tf2 m (turning th, V2 x y))) -> In o obs -> clean_roots eig s o) ->
  exists objs b, setups2 cgal m obs n = Ok objs /\ state_valid2 eig collide objs obs m x y th = Ok b /\
    (b = true <-> robot_clear2 base (added2 cs) obs x y th /\
       forall s o, In s (bodies2 (robot_tf2 m (turning th, V2 x y))) -> In o obs -> roots_apart s o).
Proof.
  intros H F G C. destruct (setups2_any cgal base cs m obs n H F G) as [objs E].
  destruct (planar_valid_exact eig collide objs base cs m obs x y th H F G C) as [b [E' X]]. exists objs, b. split; [exact E|]. split; [exact E'|exact X].
Qed.
Print Assumptions C80_planar_valid_exact.
(** In space the check is exact for ellipsoids, also for an articulated robot. *)
Theorem C80_spatial_valid_exact collide cgal n base cs m obs p q kdl : exact_fcl collide -> calls3 (new_mb3 base) cs = Ok (Some m) ->
  Forall robot_ellipsoid (base :: added3 cs) -> Forall robot_ellipsoid obs -> unit_quat q -> (forall k h, kdl k = Some h -> rigid3 h) ->
  exists objs b, setups3 cgal m obs (S n) = Ok objs /\ state_valid3 collide objs obs m p q kdl = Ok b /\
    (b = true <-> robot_clear3 base (added3 cs) obs (rotm q, p) kdl).
Proof. exact (spatial_valid_exact collide cgal n base cs m obs p q kdl). Qed.
Print Assumptions C80_spatial_valid_exact.
(** HRM3DAblation's check of a motion between slices: every interpolated pose is clear. *)
Theorem C80_ablation_exact collide cgal n base cs m obs steps : exact_fcl collide -> calls3 (new_mb3 base) cs = Ok (Some m) ->
  Forall robot_ellipsoid (base :: added3 cs) -> Forall robot_ellipsoid obs ->
  (forall p q kdl, In (p, q, kdl) steps -> unit_quat q /\ forall k h, kdl k = Some h -> rigid3 h) ->
  exists objs b, setups3 cgal m obs (S n) = Ok objs /\ ablation_free collide objs obs m steps = Ok b /\
    (b = true <-> forall p q kdl, In (p, q, kdl) steps -> robot_clear3 base (added3 cs) obs (rotm q, p) kdl).
Proof. exact (ablation_exact collide cgal n base cs m obs steps). Qed.
Print Assumptions C80_ablation_exact.

(** A unit disc three units away from a unit disc. *)
Definition unit_disc (x : R) : sellipse := SE [1; 1] 1 [x; 0] 0 50.
Definition far_roots : eigensolver := fun _ _ => [((- 7 + 3 * sqrt 5) / 2, 0); ((- 7 - 3 * sqrt 5) / 2, 0); (1 * 1 / (1 * 1), 0)].
Example C80_example_planar : forall s o, In s (bodies2 (robot_tf2 (new_mb2 (unit_disc 0)) (turning 0, V2 0 0))) -> In o [unit_disc 3] -> clean_roots far_roots s o.
Proof.
  intros s o [<-|[]] [<-|[]]. assert (A : ell_of (pose2 (unit_disc 0) (turning 0, V2 0 0)) = MSeparation.Ell 1 1 0 0 0).
  { unfold ell_of, pose2, unit_disc. cbn. f_equal. unfold heading. cbn. rewrite sin_0, cos_0. unfold ratan2. destruct (Rlt_dec 0 1); [|lra]. unfold Rdiv. rewrite Rmult_0_l. apply atan_0. }
  unfold clean_roots. change (mb2_base _) with (pose2 (unit_disc 0) (turning 0, V2 0 0)). rewrite A. split.
  - exact PropSeparation.C44_example_spectrum_exists.
  - intros re im [E|[E|[E|[]]]] _ _; injection E as _ <-; reflexivity.
Qed.
Example C80_example_planar_apart : (forall s o, In s (bodies2 (robot_tf2 (new_mb2 (unit_disc 0)) (turning 0, V2 0 0))) -> In o [unit_disc 3] -> roots_apart s o) /\
  robot_clear2 (unit_disc 0) [] [unit_disc 3] 0 0 0.
Proof.
  assert (R : forall t, robot_ellipse (unit_disc t)).
  { intros t. split; [reflexivity|]. exists 1, 1, t, 0. repeat split; lra. }
  destruct (planar_valid_exact far_roots ideal_fcl ([], []) (unit_disc 0) [] (new_mb2 (unit_disc 0)) [unit_disc 3] 0 0 0 eq_refl
    (Forall_cons _ (R 0) (Forall_nil _)) (Forall_cons _ (R 3) (Forall_nil _)) C80_example_planar) as [b [E X]].
  assert (T : b = true).
  { assert (A : ell_of (pose2 (unit_disc 0) (turning 0, V2 0 0)) = MSeparation.Ell 1 1 0 0 0).
    { unfold ell_of, pose2, unit_disc. cbn. f_equal. unfold heading. cbn. rewrite sin_0, cos_0. unfold ratan2. destruct (Rlt_dec 0 1); [|lra]. unfold Rdiv. rewrite Rmult_0_l. apply atan_0. }
    assert (P : ellipse_separated far_roots (pose2 (unit_disc 0) (turning 0, V2 0 0)) (unit_disc 3) = Ok true).
    { assert (RB : robot_ellipse (pose2 (unit_disc 0) (turning 0, V2 0 0))).
      { split; [reflexivity|]. exists 1, 1, 0, 0. repeat split; lra. }
      destruct (proper_ell _ RB) as [_ AS]. destruct (proper_ell _ (R 3)) as [_ AO]. unfold ellipse_separated. rewrite AS, AO, A. cbn [obind].
      f_equal. apply PropSeparation.C44_example_far_circles. exact PropSeparation.C44_example_spectrum_exists. }
    unfold state_valid2, is_separated2 in E. cbn [length map mb2_links seq all_of at_ nth_error obind] in E.
    change (se_eps (unit_disc 3)) with 1 in E. rewrite near_one_1 in E.
    change (mb2_base (robot_tf2 (new_mb2 (unit_disc 0)) (rot2 0, V2 0 0))) with (pose2 (unit_disc 0) (turning 0, V2 0 0)) in E.
    rewrite P in E. cbn in E. apply (f_equal (fun o => match o with Ok v => v | _ => false end)) in E. symmetry. exact E. }
  apply X in T. destruct T as [T1 T2]. split; assumption.
Qed.
Example C80_example_spatial : Forall robot_ellipsoid [ball_robot 1] /\ robot_clear3 (ball_robot 1) [] [ball_at 1 (V3r 3 0 0)] (id3, V3r 0 0 0) (fun _ => None) /\
  ~ robot_clear3 (ball_robot 1) [] [ball_at 1 (V3r 1 0 0)] (id3, V3r 0 0 0) (fun _ => None).
Proof. exact balls_example. Qed.

(** ---- C81 ---- *)
(** The arena is no part of the check: without obstacles every pose is valid, however far outside. *)
Theorem C81_arena_checked_refuted : 
  (forall eig collide objs m x y th, state_valid2 eig collide objs [] m x y th = Ok true) /\
  (forall collide objs base cs m p q kdl, calls3 (new_mb3 base) cs = Ok (Some m) -> Forall (fun l => unit_quat (sq_quat l)) (added3 cs) ->
     unit_quat q -> (forall k h, kdl k = Some h -> rigid3 h) -> state_valid3 collide objs [] m p q kdl = Ok true).
Proof. split; [exact no_obstacles2|exact no_obstacles3]. Qed.
Print Assumptions C81_arena_checked_refuted.
(** A robot body with a small exponent is checked as the ellipsoid with its semi-axes: some ball
    reaches into its corner and the state is valid. *)
Theorem C81_robot_shape_checked_refuted collide cgal a b c e1 e2 num : exact_fcl collide -> 0 < a -> 0 < b -> 0 < c -> 0 < e1 -> 0 < e2 < 1 ->
  let base := SQ [a; b; c] [e1; e2] [0; 0; 0] (Q 1 0 0 0) num in
  exists r p objs, 0 < r /\ setups3 cgal (new_mb3 base) [ball_at r p] 1 = Ok objs /\
    state_valid3 collide objs [ball_at r p] (new_mb3 base) (V3r 0 0 0) (Q 1 0 0 0) (fun _ => None) = Ok true /\
    exists x, robot_points3 base [] (id3, V3r 0 0 0) (fun _ => None) x /\ inside3 (body_of3 (ball_at r p)) x.
Proof. exact (corner_undetected collide cgal a b c e1 e2 num). Qed.
Print Assumptions C81_robot_shape_checked_refuted.

(** ---- C82 ---- *)
(** An obstacle that is not an ellipsoid becomes a surface: some ball strictly inside it is valid. *)
Theorem C82_inside_detected_refuted collide cgal a b c e1 e2 px py pz q num : exact_fcl collide ->
  let s := SQ [a; b; c] [e1; e2] [px; py; pz] q num in proper3 (body_of3 s) -> (1 / 1000000 <= Rabs (e1 - 1) \/ 1 / 1000000 <= Rabs (e2 - 1)) ->
  exists r p objs, 0 < r /\ setups3 cgal (new_mb3 (ball_robot r)) [s] 1 = Ok objs /\
    state_valid3 collide objs [s] (new_mb3 (ball_robot r)) p (Q 1 0 0 0) (fun _ => None) = Ok true /\
    (exists x, robot_points3 (ball_robot r) [] (rotm (Q 1 0 0 0), p) (fun _ => None) x) /\
    forall x, robot_points3 (ball_robot r) [] (rotm (Q 1 0 0 0), p) (fun _ => None) x -> inside3 (body_of3 s) x.
Proof. intros X s P N. exact (inside_undetected collide cgal a b c e1 e2 px py pz q num X P (not_ellipsoid a b c e1 e2 px py pz q num N)). Qed.
Print Assumptions C82_inside_detected_refuted.
(** What the planar check does detect: at a valid state no sample of an obstacle's surface is in the
    flat solid of a body of the robot, which has the body's own semi-axes. *)
Theorem C82_planar_samples_detected eig collide cgal n base cs m obs objs x y th : exact_fcl collide -> covers_points cgal -> calls2 (new_mb2 base) cs = Ok m ->
  Forall robot_ellipse (base :: added2 cs) -> Forall planar_obstacle obs -> setups2 cgal m obs (S n) = Ok objs ->
  state_valid2 eig collide objs obs m x y th = Ok true ->
  forall o p, In o obs -> 1 / 1000000 <= Rabs (se_eps o - 1) -> surface_sample o p -> ~ robot_plate base (added2 cs) x y th p.
Proof. intros X C H F G S V o p I N. exact (planar_samples_detected eig collide cgal n base cs m obs objs x y th X C H F G S V o p I (not_near_one _ N)). Qed.
Print Assumptions C82_planar_samples_detected.
(** In the plane some disc that reaches into the obstacle is valid ... *)
Theorem C82_planar_overlap_detected_refuted eig collide cgal a b e px py th num : exact_fcl collide -> own_points cgal -> 0 < a -> 0 < b -> 0 < e -> 1 / 1000000 <= Rabs (e - 1) ->
  let o := SE [a; b] e [px; py] th num in
  exists r x y objs, 0 < r /\ setups2 cgal (new_mb2 (disc r)) [o] 1 = Ok objs /\
    state_valid2 eig collide objs [o] (new_mb2 (disc r)) x y 0 = Ok true /\
    exists p, robot_points2 (disc r) [] x y 0 p /\ inside2 (body_of2 o) p.
Proof. intros X O A B E N. exact (tip_undetected eig collide cgal a b e px py th num X O A B E (not_near_one _ N)). Qed.
Print Assumptions C82_planar_overlap_detected_refuted.
(** ... and some disc away from the obstacle is not. *)
Theorem C82_planar_clear_accepted_refuted eig collide cgal a b e px py th num : exact_fcl collide -> covers_points cgal -> 0 < a -> 0 < b -> 1 / 5 <= e -> 1 / 1000000 <= Rabs (e - 1) ->
  let o := SE [a; b] e [px; py] th num in
  exists r x y objs, 0 < r /\ setups2 cgal (new_mb2 (disc r)) [o] 1 = Ok objs /\
    state_valid2 eig collide objs [o] (new_mb2 (disc r)) x y 0 = Ok false /\ robot_clear2 (disc r) [] [o] x y 0.
Proof. intros X O A B E N. exact (false_collision eig collide cgal a b e px py th num X O A B E (not_near_one _ N)). Qed.
Print Assumptions C82_planar_clear_accepted_refuted.
(** An obstacle with exponents within 1e-6 of one is checked as the ellipse (ellipsoid) with its
    semi-axes and pose. *)
Theorem C82_within_tolerance_as_ellipse eig collide cgal m obs n : Forall (fun o => Rabs (se_eps o - 1) < 1 / 1000000) obs ->
  let obs1 := map (fun o => SE (se_axes o) 1 (se_pos o) (se_angle o) (se_num o)) obs in
  setups2 cgal m obs n = setups2 cgal m obs1 n /\
  forall objs x y th, state_valid2 eig collide objs obs m x y th = state_valid2 eig collide objs obs1 m x y th.
Proof. exact (near_ellipses eig collide cgal m obs n). Qed.
Print Assumptions C82_within_tolerance_as_ellipse.
Theorem C82_within_tolerance_as_ellipsoid collide cgal m obs n :
  Forall (fun o => exists e1 e2, sq_eps o = [e1; e2] /\ Rabs (e1 - 1) < 1 / 1000000 /\ Rabs (e2 - 1) < 1 / 1000000) obs ->
  let obs1 := map (fun o => SQ (sq_axes o) [1; 1] (sq_pos o) (sq_quat o) (sq_num o)) obs in
  setups3 cgal m obs n = setups3 cgal m obs1 n /\
  forall objs p q kdl, state_valid3 collide objs obs m p q kdl = state_valid3 collide objs obs1 m p q kdl.
Proof. exact (near_ellipsoids collide cgal m obs n). Qed.
Print Assumptions C82_within_tolerance_as_ellipsoid.
Example C82_example_exponents : 1 / 1000000 <= Rabs (1 / 2 - 1) /\ Rabs ((1 + 1 / 10000000) - 1) < 1 / 1000000 /\ 1 + 1 / 10000000 <> 1.
Proof. unfold Rabs. split; [|split]; try lra; destruct (Rcase_abs _); lra. Qed.
Example C82_example_samples : let o := SE [1; 1] (1 / 2) [0; 0] 0 10 in exists r x y objs,
  Forall robot_ellipse [disc r] /\ Forall planar_obstacle [o] /\ 1 / 1000000 <= Rabs (se_eps o - 1) /\
  setups2 plain_cgal (new_mb2 (disc r)) [o] 1 = Ok objs /\ state_valid2 (fun _ _ => []) ideal_fcl objs [o] (new_mb2 (disc r)) x y 0 = Ok true /\ exists p, surface_sample o p.
Proof.
  intros o. destruct C80_example_routines as (X & OP & _). destruct C82_example_exponents as [NE _].
  destruct (C82_planar_overlap_detected_refuted (fun _ _ => []) ideal_fcl plain_cgal 1 1 (1 / 2) 0 0 0 10 X OP ltac:(lra) ltac:(lra) ltac:(lra) NE) as (r & x & y & objs & R & S & V & _).
  exists r, x, y, objs. split; [constructor; [|constructor]; split; [reflexivity|]; exists r, r, 0, 0; cbn; repeat split; assumption|].
  split; [constructor; [|constructor]; split; [cbn; lra|]; exists 1, 1, 0, 0; cbn; repeat split; lra|]. split; [exact NE|]. split; [exact S|]. split; [exact V|].
  pose (et := evenly 10 (cHALF_PI + cEPSILON) 0). pose (om := evenly 10 (cPI + cEPSILON) 0).
  exists (V3r (1 * (spw (cos et) (1 / 2) * spw (cos om) (1 / 10))) (1 * (spw (cos et) (1 / 2) * spw (sin om) (1 / 10))) (1 / 10 + 1 / 10 * spw (sin et) (1 / 2))), 0%nat, 0%nat.
  split; [lia|]. split; [lia|]. fold et om. clearbody et om. cbv zeta. unfold along, across, body_of2, o. cbn [se_axes se_eps se_pos se_angle nth bc bt x2 y2 x3 y3 z3].
  rewrite cos_0, sin_0. split; [ring|]. split; [ring|reflexivity].
Qed.
