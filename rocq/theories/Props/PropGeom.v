(** C40-C43, C46, C70-C72: shapes, robots of several bodies, enclosing ellipsoids
    (src/geometry, src/datastructure/MultiBodyTree2D.cpp, MultiBodyTree3D.cpp). *)
From Coq Require Import List Reals ZArith Arith Bool Lia Lra.
From Verif.Base Require Import Outcome.
From Verif.Model Require Import MGeom MMultiBody MTightFit.
From Verif.Spec Require Import SGeom SRigid.
From Verif.Proofs Require Import PGeom PGeom2 PGeom2N PGeom3 PRot PMulti PMultiX PGeomX PTight2 PTight2X PTight3 PSpectral3 PTight3X PTightS.
Import ListNotations.
Local Open Scope R_scope.

(** C40: after any history of calls, robotTF(g) puts the base at g and every link at g
    composed with the pose it had when it was added; the shapes are the ones given. *)
Theorem C40_planar_placement : forall base cs m g, calls2 (new_mb2 base) cs = Ok m -> rigid2 g ->
  let m' := robot_tf2 m g in
  same_shape2 (mb2_base m') base /\ stands2 (mb2_base m') (fst g) (snd g) /\
  Forall2 (fun l0 l => same_shape2 l l0 /\ stands2 l (mul2 (fst g) (turning (se_angle l0))) (move2 g (given_pos2 l0)))
    (added2 cs) (map fst (mb2_links m')).
Proof.
  intros base cs m g H G m'. pose proof (built_calls2 base cs [] (new_mb2 base) m (built_new2 base) H) as B. cbn [app] in B.
  destruct (built_stands2 base (added2 cs) m g B G) as [S1 S2]. split; [exact (proj1 (built_tf2 _ _ _ g B))|]. split; [exact S1|].
  clear - S2. fold m' in S2. induction S2; cbn [map]; constructor; assumption.
Qed.
Print Assumptions C40_planar_placement.
(** The same in space, with the transforms of a kinematic chain ([kdl k] for the k-th link) or
    without; no history of rigid transforms fails. *)
Theorem C40_spatial_placement : forall base cs m g (kdl : nat -> option tf3), calls3 (new_mb3 base) cs = Ok (Some m) -> rigid3 g ->
  (forall k h, kdl k = Some h -> rigid3 h) -> Forall (fun l => unit_quat (sq_quat l)) (added3 cs) ->
  exists m', robot_tf3_kdl m g kdl = Some m' /\ length (mb3_links m') = length (added3 cs) /\
    same_shape3 (mb3_base m') base /\ stands3 (mb3_base m') (fst g) (snd g) /\
    forall k l0, nth_error (added3 cs) k = Some l0 -> exists l, nth_error (map fst (mb3_links m')) k = Some l /\ same_shape3 l l0 /\
      let gk := match kdl k with Some h => comp3 g h | None => g end in
      stands3 l (mul3 (fst gk) (rotm (sq_quat l0))) (move3 gk (given_pos3 l0)).
Proof.
  intros base cs m g kdl H G K U. pose proof (built_calls3 base cs [] (new_mb3 base) m (built_new3 base) H) as B. cbn [app] in B.
  destruct (built_stands3 base (added3 cs) m g kdl B G K U) as (m' & E & B' & S1 & S2). exists m'. split; [exact E|].
  split; [symmetry; exact (f2_length _ _ _ (proj2 B'))|]. split; [exact (proj1 B')|]. split; [exact S1|].
  intros k l0 N. destruct (S2 k l0 N) as (lt & N' & X & Y). exists (fst lt). split; [rewrite nth_error_map, N'; reflexivity|]. split; [exact X|exact Y].
Qed.
Print Assumptions C40_spatial_placement.
(** Composing transforms is moving points one after the other. *)
Theorem C40_composition_moves_points : forall g h p, move3 (comp3 g h) p = move3 g (move3 h p).
Proof. exact move_comp3. Qed.
Print Assumptions C40_composition_moves_points.
(** Placing does not accumulate: the result of robotTF depends on the bodies added, not on
    where the robot was put before. *)
Theorem C40_placing_overrides : 
  (forall base cs1 cs2 m1 m2 g, calls2 (new_mb2 base) cs1 = Ok m1 -> calls2 (new_mb2 base) cs2 = Ok m2 -> added2 cs1 = added2 cs2 ->
     robot_tf2 m1 g = robot_tf2 m2 g) /\
  (forall base cs1 cs2 m1 m2 g kdl, calls3 (new_mb3 base) cs1 = Ok (Some m1) -> calls3 (new_mb3 base) cs2 = Ok (Some m2) -> added3 cs1 = added3 cs2 ->
     robot_tf3_kdl m1 g kdl = robot_tf3_kdl m2 g kdl).
Proof.
  split.
  - intros base cs1 cs2 m1 m2 g H1 H2 E. apply (built_same2 base (added2 cs1)).
    + exact (built_calls2 base cs1 [] _ m1 (built_new2 base) H1).
    + rewrite E. exact (built_calls2 base cs2 [] _ m2 (built_new2 base) H2).
  - intros base cs1 cs2 m1 m2 g kdl H1 H2 E. apply (built_same3 base (added3 cs1)).
    + exact (built_calls3 base cs1 [] _ m1 (built_new3 base) H1).
    + rewrite E. exact (built_calls3 base cs2 [] _ m2 (built_new3 base) H2).
Qed.
Print Assumptions C40_placing_overrides.
(** Histories of complete bodies and rigid transforms run to the end. *)
Theorem C40_histories_run :
  (forall base cs, Forall (fun l => (2 <= length (se_pos l))%nat) (added2 cs) -> exists m, calls2 (new_mb2 base) cs = Ok m) /\
  (forall base cs, Forall (fun l => (3 <= length (sq_pos l))%nat /\ unit_quat (sq_quat l)) (added3 cs) -> Forall rigid_call3 cs ->
     exists m, calls3 (new_mb3 base) cs = Ok (Some m)).
Proof.
  split.
  - intros base cs F. exact (calls2_total cs F (new_mb2 base)).
  - intros base cs F G. exact (calls3_total base cs F G [] (new_mb3 base) (built_new3 base) (Forall_nil _)).
Qed.
Print Assumptions C40_histories_run.
Definition ell_ex (a b x y t : R) : sellipse := SE [a; b] 1 [x; y] t 10.
Definition eld_ex (a b c x y z : R) (q : quat) : squad := SQ [a; b; c] [1; 1] [x; y; z] q 10.
Definition q345 : quat := Q (3 / 5) (4 / 5) 0 0.
Example C40_hyp : let g := (turning (PI / 3), V2 5 6) in let g3 := (rotm q345, V3r 1 2 3) in
  rigid2 g /\ rigid3 g3 /\
  (exists m, calls2 (new_mb2 (ell_ex 2 1 0 0 0)) [AddBody2 (ell_ex 3 1 4 0 1); RobotTF2 g; AddBody2 (ell_ex 1 1 0 7 0)] = Ok m) /\
  (exists m, calls3 (new_mb3 (eld_ex 2 1 1 0 0 0 (Q 1 0 0 0))) [AddBody3 (eld_ex 3 1 2 4 0 0 q345); RobotTF3 g3; AddBody3 (eld_ex 1 1 1 0 7 0 q345)] = Ok (Some m)).
Proof.
  cbv zeta. assert (U : unit_quat q345) by (unfold unit_quat, q345; cbn; lra). assert (G : rigid3 (rotm q345, V3r 1 2 3)) by (apply rotm_rotation; exact U).
  split; [apply rot2_rotation|]. split; [exact G|]. split.
  - apply C40_histories_run. repeat constructor; cbn; lia.
  - apply C40_histories_run; [repeat constructor; cbn; try lia; exact U|]. repeat constructor; apply G.
Qed.

(** C41: every point of the sampled boundary satisfies the equation of the body. *)
Theorem C41_planar_boundary : forall a b e px py t num, 0 < a -> 0 < b -> 0 < e -> (2 <= num)%nat ->
  let s := SE [a; b] e [px; py] t num in
  exists pts, origin2 s = Ok pts /\ length pts = num /\ forall o, In o pts -> exists p, o = Some p /\ on2 (body_of2 s) p.
Proof.
  intros a b e px py t num A B E N s. unfold s. rewrite origin2_eq by assumption. eexists. split; [reflexivity|]. split; [now rewrite map_length, seq_length|].
  intros o I. apply in_map_iff in I. destruct I as [i [<- _]]. eexists. split; [reflexivity|]. exact (sample_on a b e (V2 px py) t _ A B E).
Qed.
Print Assumptions C41_planar_boundary.
Theorem C41_spatial_boundary : forall a b c e1 e2 px py pz q num,
  let s := SQ [a; b; c] [e1; e2] [px; py; pz] q num in
  proper3 (body_of3 s) ->
  exists pts, origin3 s = Ok pts /\ length pts = (num * num)%nat /\ forall o, In o pts -> exists p, o = Some p /\ on3 (body_of3 s) p.
Proof.
  intros a b c e1 e2 px py pz q num s P. pose proof P as (_ & _ & _ & E1 & E2 & _). unfold s. rewrite origin3_eq by assumption. eexists. split; [reflexivity|].
  split; [now rewrite map_length, params3_len|].
  intros o I. apply in_map_iff in I. destruct I as [i [<- _]]. eexists. split; [reflexivity|]. exact (sample3_on a b c e1 e2 q (V3r px py pz) _ P).
Qed.
Print Assumptions C41_spatial_boundary.
(** With one sample the planar boundary is not a number. *)
Theorem C41_one_sample : forall a b e px py t, origin2 (SE [a; b] e [px; py] t 1) = Ok [None].
Proof. intros. unfold origin2. cbn [se_num seq omap se_axes se_pos at_ nth_error obind]. rewrite se_theta_1. reflexivity. Qed.
Print Assumptions C41_one_sample.
Example C41_hyp : proper3 (body_of3 (SQ [3; 2; 1] [1 / 2; 3] [1; 2; 3] q345 7)).
Proof. unfold proper3, body_of3, unit_quat, q345. cbn. lra. Qed.

(** C42: the robot ellipsoid centred at a returned point touches the obstacle at the
    corresponding boundary point, a plane separates them and their interiors are disjoint;
    with k = -1 it touches from inside. *)
Theorem C42_returned_points_are_contacts : forall a b c e1 e2 px py pz q num A B C pos2 q2 num2,
  let O := SQ [a; b; c] [e1; e2] [px; py; pz] q num in
  convex3 (body_of3 O) -> 0 < A -> 0 < B -> 0 < C -> unit_quat q2 ->
  exists outer inner surf, mink3 O (SQ [A; B; C] [1; 1] pos2 q2 num2) 1 = Ok outer /\ mink3 O (SQ [A; B; C] [1; 1] pos2 q2 num2) (-1) = Ok inner /\
    origin3 O = Ok surf /\ length outer = (num * num)%nat /\ length inner = (num * num)%nat /\ length surf = (num * num)%nat /\
    (forall k o, nth_error outer k = Some o -> exists p y, o = Some p /\ nth_error surf k = Some (Some y) /\
       contact3 (body_of3 O) (ellipsoid_at A B C q2 p) y /\ ~ overlap3 (body_of3 O) (ellipsoid_at A B C q2 p)) /\
    (forall k o, nth_error inner k = Some o -> exists p y, o = Some p /\ nth_error surf k = Some (Some y) /\
       inner_contact3 (body_of3 O) (ellipsoid_at A B C q2 p) y).
Proof.
  intros a b c e1 e2 px py pz q num A B C pos2 q2 num2 O CV HA HB HC U. pose proof CV as [(_ & _ & _ & E1 & E2 & _) _]. cbn in E1, E2.
  unfold O. rewrite !(mink3_eq a b c e1 e2 px py pz q num A B C pos2 q2 num2) by assumption. rewrite origin3_eq by assumption.
  do 3 eexists. do 3 (split; [reflexivity|]). rewrite !map_length, params3_len. do 3 (split; [reflexivity|]). split; intros k o N; rewrite nth_error_map in N |- *.
  - destruct (nth_error (params3 num) k) as [eo|]; cbn [option_map] in N |- *; [|discriminate N]. injection N as <-.
    destruct (quadric_contact a b c e1 e2 (V3r px py pz) q A B C q2 eo CV HA HB HC U) as [C1 [C2 _]].
    do 2 eexists. split; [reflexivity|]. split; [reflexivity|]. split; [exact C1|exact C2].
  - destruct (nth_error (params3 num) k) as [eo|]; cbn [option_map] in N |- *; [|discriminate N]. injection N as <-.
    destruct (quadric_contact a b c e1 e2 (V3r px py pz) q A B C q2 eo CV HA HB HC U) as [_ [_ C3]].
    do 2 eexists. split; [reflexivity|]. split; [reflexivity|]. exact C3.
Qed.
Print Assumptions C42_returned_points_are_contacts.
Example C42_hyp : convex3 (body_of3 (SQ [3; 2; 1] [1 / 2; 3 / 2] [1; 2; 3] q345 7)) /\ unit_quat (Q 0 0 (3 / 5) (4 / 5)).
Proof. unfold convex3, proper3, body_of3, unit_quat, q345. cbn. lra. Qed.

(** C43: the same in the plane when the semi-axes of the obstacle are equal ... *)
Theorem C43_round_obstacle : forall a e px py t num A B e2 pos2 t2 num2, 0 < a -> 0 < e < 2 -> 0 < A -> 0 < B -> (2 <= num)%nat ->
  let O := SE [a; a] e [px; py] t num in
  exists outer inner surf, mink2 O (SE [A; B] e2 pos2 t2 num2) 1 = Ok outer /\ mink2 O (SE [A; B] e2 pos2 t2 num2) (-1) = Ok inner /\
    origin2 O = Ok surf /\ length outer = num /\ length inner = num /\ length surf = num /\
    (forall k o, nth_error outer k = Some o -> exists p y, o = Some p /\ nth_error surf k = Some (Some y) /\
       contact2 (body_of2 O) (ellipse_at A B t2 p) y /\ ~ overlap2 (body_of2 O) (ellipse_at A B t2 p)) /\
    (forall k o, nth_error inner k = Some o -> exists p y, o = Some p /\ nth_error surf k = Some (Some y) /\
       inner_contact2 (body_of2 O) (ellipse_at A B t2 p) y).
Proof.
  intros a e px py t num A B e2 pos2 t2 num2 HA E A0 B0 N O. unfold O.
  rewrite !(mink2_eq a a e px py t num A B e2 pos2 t2 num2) by assumption. rewrite origin2_eq by (assumption || lra).
  do 3 eexists. do 3 (split; [reflexivity|]). rewrite !map_length, seq_length. do 3 (split; [reflexivity|]). split; intros k o NE; rewrite nth_error_map in NE |- *.
  - destruct (nth_error (seq 0 num) k) as [i|]; cbn [option_map] in NE |- *; [|discriminate NE]. injection NE as <-.
    destruct (circle_contact a e (V2 px py) t A B t2 (theta num i) HA E A0 B0) as [C1 [C2 _]].
    do 2 eexists. split; [reflexivity|]. split; [reflexivity|]. split; [exact C1|exact C2].
  - destruct (nth_error (seq 0 num) k) as [i|]; cbn [option_map] in NE |- *; [|discriminate NE]. injection NE as <-.
    destruct (circle_contact a e (V2 px py) t A B t2 (theta num i) HA E A0 B0) as [_ [_ C3]].
    do 2 eexists. split; [reflexivity|]. split; [reflexivity|]. exact C3.
Qed.
Print Assumptions C43_round_obstacle.
(** ... and for every other obstacle, robot and number of samples some returned centre lets the
    robot penetrate the obstacle. *)
Theorem C43_elongated_obstacle_refuted : forall a b e px py t num A B e2 pos2 t2 num2,
  0 < a -> 0 < b -> a <> b -> 0 < e < 2 -> 0 < A -> 0 < B -> (2 <= num)%nat ->
  let O := SE [a; b] e [px; py] t num in
  exists pts p, mink2 O (SE [A; B] e2 pos2 t2 num2) 1 = Ok pts /\ In (Some p) pts /\ overlap2 (body_of2 O) (ellipse_at A B t2 p).
Proof. intros a b e px py t num A B e2 pos2 t2 num2 Ha Hb AB E HA HB N O. exact (elongated_sample a b e px py t num A B e2 pos2 t2 num2 Ha Hb AB E HA HB N). Qed.
Print Assumptions C43_elongated_obstacle_refuted.

(** C46: with any correct singular value decomposition the ellipse returned by getMVCE2D
    encloses both arguments with the returned angle or with its opposite ... *)
Theorem C46_planar_up_to_the_sign : forall svd a0 a1 b0 b1 thA thB num, svd2_ok svd -> 0 < a0 -> 0 < a1 -> 0 < b0 -> 0 < b1 ->
  exists c0 c1 t, get_mvce2 svd [a0; a1] [b0; b1] thA thB num = Ok (Some (SE [c0; c1] 1 [0; 0] t num)) /\ 0 < c0 /\ 0 < c1 /\
    exists t', (t' = t \/ t' = - t) /\ encloses2 (ellipse0 (c0, c1) t') (ellipse0 (a0, a1) thA) /\ encloses2 (ellipse0 (c0, c1) t') (ellipse0 (b0, b1) thB).
Proof.
  intros svd a0 a1 b0 b1 thA thB num OK A0 A1 B0 B1.
  destruct (mvce2_either svd OK (a0, a1) (b0, b1) thA thB (conj A0 A1) (conj B0 B1)) as ([c0 c1] & t & E & [P0 P1] & _ & D).
  exists c0, c1, t. split; [unfold get_mvce2; cbn [idx nth_error obind]; rewrite E; reflexivity|]. split; [exact P0|]. split; [exact P1|].
  destruct D as [D|D]; [exists t|exists (- t)]; (split; [auto|exact D]).
Qed.
Print Assumptions C46_planar_up_to_the_sign.
(** ... with the returned angle if the first vector of the decomposition points upwards ... *)
Theorem C46_planar_upwards : forall svd a0 a1 b0 b1 thA thB num, svd2_ok svd -> upper_svd2 svd -> 0 < a0 -> 0 < a1 -> 0 < b0 -> 0 < b1 ->
  exists C, get_mvce2 svd [a0; a1] [b0; b1] thA thB num = Ok (Some C) /\
    encloses2 (body_of2 C) (ellipse0 (a0, a1) thA) /\ encloses2 (body_of2 C) (ellipse0 (b0, b1) thB).
Proof.
  intros svd a0 a1 b0 b1 thA thB num OK UP A0 A1 B0 B1.
  destruct (mvce2_upper svd OK (a0, a1) (b0, b1) thA thB UP (conj A0 A1) (conj B0 B1)) as ([c0 c1] & t & E & _ & D).
  eexists. split; [unfold get_mvce2; cbn [idx nth_error obind]; rewrite E; reflexivity|]. exact D.
Qed.
Print Assumptions C46_planar_upwards.
(** ... but not otherwise: with a correct decomposition pointing downwards, no elongated
    ellipse that is not along the axes is enclosed by the result computed for it. *)
Theorem C46_planar_angle_refuted : exists svd, svd2_ok svd /\
  forall a0 a1 th num, 0 < a0 -> 0 < a1 -> a0 <> a1 -> sin th <> 0 -> cos th <> 0 ->
  exists C, get_mvce2 svd [a0; a1] [a0; a1] th th num = Ok (Some C) /\ ~ encloses2 (body_of2 C) (ellipse0 (a0, a1) th).
Proof.
  exists (eig_svd false). split; [apply eig_svd_ok|]. intros a0 a1 th num A0 A1 NE S C.
  destruct (mvce2_down (eig_svd false) (a0, a1) th (eig_svd_ok false) eig_svd_down (conj A0 A1) NE S C) as ([c0 c1] & t & E & _ & D).
  eexists. split; [unfold get_mvce2; cbn [idx nth_error obind]; rewrite E; reflexivity|]. exact D.
Qed.
Print Assumptions C46_planar_angle_refuted.
(** In space: both ellipsoids are enclosed if the orthogonal factor is a rotation ... *)
Theorem C46_spatial_rotation : forall svd a0 a1 a2 b0 b1 b2 qA qB num, svd3_ok svd -> proper_svd3 svd ->
  0 < a0 -> 0 < a1 -> 0 < a2 -> 0 < b0 -> 0 < b1 -> 0 < b2 -> unit_quat qA -> unit_quat qB ->
  exists C, get_mvce3 svd [a0; a1; a2] [b0; b1; b2] qA qB num = Ok (Some C) /\ unit_quat (sq_quat C) /\
    encloses3 (body_of3 C) (ellipsoid0 (a0, a1, a2) qA) /\ encloses3 (body_of3 C) (ellipsoid0 (b0, b1, b2) qB).
Proof.
  intros svd a0 a1 a2 b0 b1 b2 qA qB num OK PR A0 A1 A2 B0 B1 B2 UA UB.
  destruct (mvce3_proper svd OK (a0, a1, a2) (b0, b1, b2) qA qB PR (conj A0 (conj A1 A2)) (conj B0 (conj B1 B2)) UA UB) as ([[c0 c1] c2] & q & E & _ & U & D).
  eexists. split; [unfold get_mvce3; cbn [idx nth_error obind]; rewrite E; reflexivity|]. split; [exact U|]. exact D.
Qed.
Print Assumptions C46_spatial_rotation.
(** ... but a correct decomposition whose factor is a reflection (vectors exchanged to sort the
    singular values) gives a quaternion that is not of norm 1 and an ellipsoid that does not
    contain its arguments, with q v q* as well as with the matrix of the shape classes. *)
Theorem C46_spatial_orientation_refuted : exists svd, svd3_ok svd /\ forall num,
  exists C p, get_mvce3 svd [3; 2; 1] [3; 2; 1] (Q 1 0 0 0) (Q 1 0 0 0) num = Ok (Some C) /\ ~ unit_quat (sq_quat C) /\
    in3 (ellipsoid0 (3, 2, 1) (Q 1 0 0 0)) p /\ ~ in3 (body_of3 C) p /\ forall l, p = app3 (rotm (sq_quat C)) l -> 1 < shape3 (body_of3 C) l.
Proof.
  exists svd_swap. split; [exact swap_ok|]. intros num. destruct mvce3_swap as ([[c0 c1] c2] & q & p & E & D).
  eexists. exists p. split; [unfold get_mvce3; cbn [idx nth_error obind]; change (Q 1 0 0 0) with one_q; rewrite E; reflexivity|]. exact D.
Qed.
Print Assumptions C46_spatial_orientation_refuted.
Example C46_hyp : (exists svd, svd2_ok svd /\ upper_svd2 svd) /\ (exists svd, svd3_ok svd /\ proper_svd3 svd).
Proof.
  split; [exists (eig_svd true); split; [apply eig_svd_ok|exact eig_svd_up]|]. destruct (eigen_svd_ok 1 ltac:(ring)) as [O D].
  exists (eigen_svd 1). split; [exact O|]. intros A [S _]. exact (D A S).
Qed.

(** C70: the samples of minkSum of a robot of any number of bodies are poses of the base at
    which the corresponding body touches the obstacle; the robot may have been moved before. *)
Theorem C70_planar_poses_touch : forall base cs m M t0 a e px py t num,
  calls2 (new_mb2 base) cs = Ok m -> rotation2 M -> robot_ellipse base -> Forall robot_ellipse (added2 cs) ->
  0 < a -> 0 < e < 2 -> (2 <= num)%nat ->
  let O := SE [a; a] e [px; py] t num in
  exists bs, mink_sum2 (robot_tf2 m (M, t0)) O 1 = Ok bs /\ length bs = S (length (added2 cs)) /\
  forall k pts, nth_error bs k = Some pts -> length pts = num /\
    forall o, In o pts -> exists p, o = Some p /\
      exists s, nth_error (bodies2 (robot_tf2 m (M, p))) k = Some s /\
        (exists y, contact2 (body_of2 O) (body_of2 s) y) /\ ~ overlap2 (body_of2 O) (body_of2 s).
Proof.
  intros base cs m M t0 a e px py t num H. exact (mink_sum2_contact base (added2 cs) m M t0 a e px py t num (built_calls2 base cs [] _ m (built_new2 base) H)).
Qed.
Print Assumptions C70_planar_poses_touch.
(** In space the samples for the links are relative to the translation at which the robot
    stood: the link touches the obstacle when the base is put at the sample plus that
    translation. *)
Theorem C70_spatial_poses_touch : forall base cs m M t0 a b c e1 e2 px py pz qo num,
  calls3 (new_mb3 base) cs = Ok (Some m) -> rotation3 M -> robot_ellipsoid base -> Forall robot_ellipsoid (added3 cs) ->
  let O := SQ [a; b; c] [e1; e2] [px; py; pz] qo num in
  convex3 (body_of3 O) ->
  exists m1 bs, robot_tf3 m (M, t0) = Some m1 /\ mink_sum3 m1 O 1 = Ok bs /\ length bs = S (length (added3 cs)) /\
  forall k pts, nth_error bs k = Some pts -> length pts = (num * num)%nat /\
    forall o, In o pts -> exists p, o = Some p /\
      exists m2 s, robot_tf3 m (M, match k with O => p | S _ => add3 p t0 end) = Some m2 /\
        nth_error (bodies3 m2) k = Some s /\
        (exists y, contact3 (body_of3 O) (body_of3 s) y) /\ ~ overlap3 (body_of3 O) (body_of3 s).
Proof.
  intros base cs m M t0 a b c e1 e2 px py pz qo num H R B L O C.
  exact (mink_sum3_contact base (added3 cs) m M t0 a b c e1 e2 px py pz qo num (built_calls3 base cs [] _ m (built_new3 base) H) R B L C).
Qed.
Print Assumptions C70_spatial_poses_touch.
(** Without that correction: for every robot with a link, every orientation and every convex
    obstacle there is a translation of the robot after which some sample for the link puts the
    link into the obstacle. *)
Theorem C70_spatial_moved_base_refuted : forall base cs m M a b c e1 e2 px py pz qo num k l0,
  calls3 (new_mb3 base) cs = Ok (Some m) -> rotation3 M -> robot_ellipsoid base -> Forall robot_ellipsoid (added3 cs) ->
  nth_error (added3 cs) k = Some l0 -> (1 <= num)%nat ->
  let O := SQ [a; b; c] [e1; e2] [px; py; pz] qo num in
  convex3 (body_of3 O) ->
  exists t0 m1 bs pts p m2 s, robot_tf3 m (M, t0) = Some m1 /\ mink_sum3 m1 O 1 = Ok bs /\ nth_error bs (S k) = Some pts /\ In (Some p) pts /\
    robot_tf3 m (M, p) = Some m2 /\ nth_error (bodies3 m2) (S k) = Some s /\ overlap3 (body_of3 O) (body_of3 s).
Proof.
  intros base cs m M a b c e1 e2 px py pz qo num k l0 H R B L N N1 O C.
  exact (moved_base_overlap base (added3 cs) m M a b c e1 e2 px py pz qo num k l0 (built_calls3 base cs [] _ m (built_new3 base) H) R B L N C N1).
Qed.
Print Assumptions C70_spatial_moved_base_refuted.
Example C70_hyp : Forall robot_ellipse [ell_ex 3 1 4 0 1; ell_ex 1 1 0 7 0] /\ Forall robot_ellipsoid [eld_ex 3 1 2 4 0 0 q345] /\
  rotation2 (turning 1) /\ rotation3 (rotm q345).
Proof.
  assert (U : unit_quat q345) by (unfold unit_quat, q345; cbn; lra).
  split; [|split; [|split; [apply rot2_rotation|apply rotm_rotation; exact U]]].
  - repeat constructor; [exists 3, 1, 4, 0|exists 1, 1, 0, 7]; cbn; repeat split; lra.
  - repeat constructor; [exact U|]. exists 3, 1, 2, 4, 0, 0. cbn. repeat split; lra.
Qed.

(** C71: the tight-fitted ellipse of a range of orientations encloses the body at both ends and
    at every interpolated orientation. *)
Theorem C71_planar_range : forall svd a0 a1 thA thB n num, svd2_ok svd -> upper_svd2 svd -> 0 < a0 -> 0 < a1 -> n <> 1%nat ->
  exists C, get_tfe2 svd [a0; a1] thA thB n num = Ok (Some C) /\
    encloses2 (body_of2 C) (ellipse0 (a0, a1) thA) /\ encloses2 (body_of2 C) (ellipse0 (a0, a1) thB) /\
    forall i, (i < n)%nat -> encloses2 (body_of2 C) (ellipse0 (a0, a1) (thA + INR i / (INR n - 1) * (thB - thA))).
Proof.
  intros svd a0 a1 thA thB n num OK UP A0 A1 N.
  destruct (tfe2_encloses svd OK (a0, a1) thA thB n UP (conj A0 A1) N) as ([c0 c1] & t & E & _ & D1 & D2 & D3).
  eexists. split; [unfold get_tfe2; cbn [idx nth_error obind]; rewrite E; reflexivity|]. split; [exact D1|]. split; [exact D2|].
  intros i L. replace (thA + INR i / (INR n - 1) * (thB - thA)) with ((1 - INR i / (INR n - 1)) * thA + INR i / (INR n - 1) * thB) by ring. exact (D3 i L).
Qed.
Print Assumptions C71_planar_range.
(** One step: the result is not a number. *)
Theorem C71_planar_one_step : forall svd a0 a1 thA thB num, get_tfe2 svd [a0; a1] thA thB 1 num = Ok None.
Proof. intros. unfold get_tfe2. cbn [idx nth_error obind]. rewrite tfe2_one. reflexivity. Qed.
Print Assumptions C71_planar_one_step.
Theorem C71_spatial_range : forall svd a0 a1 a2 qA qB n num, svd3_ok svd -> proper_svd3 svd -> 0 < a0 -> 0 < a1 -> 0 < a2 ->
  unit_quat qA -> unit_quat qB -> apart qA qB ->
  exists C, get_tfe3 svd [a0; a1; a2] qA qB n num = Ok (Some C) /\ unit_quat (sq_quat C) /\
    encloses3 (body_of3 C) (ellipsoid0 (a0, a1, a2) qA) /\ encloses3 (body_of3 C) (ellipsoid0 (a0, a1, a2) qB) /\
    forall i, (1 <= n)%nat -> (i <= n)%nat -> encloses3 (body_of3 C) (ellipsoid0 (a0, a1, a2) (between qA qB (INR i / INR n))).
Proof.
  intros svd a0 a1 a2 qA qB n num OK PR A0 A1 A2 UA UB AP.
  destruct (tfe3_slerp svd (a0, a1, a2) qA qB n OK PR (conj A0 (conj A1 A2)) UA UB AP) as ([[c0 c1] c2] & q & E & _ & U & D1 & D2 & D3).
  eexists. split; [unfold get_tfe3; cbn [idx nth_error obind]; rewrite E; reflexivity|]. split; [exact U|]. split; [exact D1|]. split; [exact D2|exact D3].
Qed.
Print Assumptions C71_spatial_range.
Example C71_hyp : apart (Q 1 0 0 0) q345 /\ apart q345 q345.
Proof.
  unfold apart, q345, rq, MInterp.qdot. cbn [qw qx qy qz]. split; [left|right].
  - change (2 ^ 52)%Z with 4503599627370496%Z. rewrite Rabs_right by lra. lra.
  - rewrite Rabs_right; lra.
Qed.

(** C72: the sampled planar boundary does not close: PI is the decimal 3.1415926, so the last
    point is not the first. *)
Theorem C72_boundary_is_open : forall a b e px py t num, 0 < a -> 0 < b -> 0 < e -> (2 <= num)%nat ->
  exists pts p q, origin2 (SE [a; b] e [px; py] t num) = Ok pts /\ length pts = num /\
    nth_error pts 0 = Some (Some p) /\ nth_error pts (num - 1) = Some (Some q) /\ p <> q.
Proof.
  intros a b e px py t num A B E N. destruct (open_boundary a b e px py t num A B E N) as (pts & p & q & H1 & H2 & H3 & H4 & H5).
  exists pts, p, q. repeat (split; [assumption|]). exact H5.
Qed.
Print Assumptions C72_boundary_is_open.
