(** C106: planning parameters after several calls of defineParameters
    (src/test/util/ParsePlanningSettings.cpp:108-160). *)
From Coq Require Import List Reals ZArith Arith Bool Lia Lra.
From Verif.Base Require Import Outcome.
From Verif.Model Require Import MGeom MMultiBody MSettings MParams.
From Verif.Spec Require Import SParams.
From Verif.Proofs Require Import PParams PSettingsP.
Import ListNotations.
Local Open Scope R_scope.

(** After any calls with the same parameters, exceptions caught: the limits are those of the last scene
    that has limits at all, or the ones given if none has; the number of slices is the one given, and a
    count of lines once there is never replaced. *)
Theorem C106_planar_history : forall cs p p', params_history cs p = Ok p' ->
  r_numSlice p' = r_numSlice p /\ r_numLineX p' = r_numLineX p /\ (r_numLineY p <> 0%Z -> r_numLineY p' = r_numLineY p) /\
  ((exists h1 c h2, cs = h1 ++ c :: h2 /\ limits_of2 c (r_limits p') /\ forall c' l, In c' h2 -> ~ limits_of2 c' l) \/
   ((forall c l, In c cs -> ~ limits_of2 c l) /\ p' = p)).
Proof. exact limits_history. Qed.
Print Assumptions C106_planar_history.
(** Space: the number of slices is that of the same scene, also if computing the counts failed. *)
Theorem C106_spatial_history : forall cs p p', params_history3 cs p = Ok p' ->
  (r_numLineX p <> 0%Z -> r_numLineY p <> 0%Z -> r_numLineX p' = r_numLineX p /\ r_numLineY p' = r_numLineY p) /\
  ((exists h1 c h2, cs = h1 ++ c :: h2 /\ limits_of3 c (r_limits p') /\ r_numSlice p' = Z.of_nat (d_samples c) /\ forall c' l, In c' h2 -> ~ limits_of3 c' l) \/
   ((forall c l, In c cs -> ~ limits_of3 c l) /\ p' = p)).
Proof. exact limits_history3. Qed.
Print Assumptions C106_spatial_history.

(** A call that returns is the call of C87 and C88. *)
Theorem C106_returns_as_once : forall (p p' : params),
  (forall base arena obs, set_params2 base arena obs p = (p', Ok tt) <-> define_params2 base arena obs p = Ok p') /\
  (forall base nq arena obs, set_params3 base nq arena obs p = (p', Ok tt) <-> define_params3 base nq arena obs p = Ok p').
Proof. intros p p'. split; intros; [apply define2_same|apply define3_same]. Qed.
Print Assumptions C106_returns_as_once.

(** Without obstacles and without a count the call throws, but the limits (in space also the number of
    slices) are already those of the new scene. *)
Theorem C106_failed_count_keeps_limits : forall base arena p l, limits_of2 (Scene2 base arena []) l -> r_numLineY p = 0%Z ->
  set_params2 base arena [] p = (Params l (r_numSlice p) (r_numLineX p) 0, Throw OutOfRange).
Proof.
  intros base arena p l L Z0. apply limits2_iff in L. destruct L as (b1 & L). unfold set_params2. rewrite L. cbv zeta. cbn [r_numLineY]. rewrite Z0. reflexivity.
Qed.
Print Assumptions C106_failed_count_keeps_limits.
Theorem C106_failed_spatial_count_keeps_limits : forall base nq arena p l, limits_of3 (Scene3 base nq arena []) l -> r_numLineX p = 0%Z \/ r_numLineY p = 0%Z ->
  set_params3 base nq arena [] p = (Params l (Z.of_nat nq) (r_numLineX p) (r_numLineY p), Throw OutOfRange).
Proof.
  intros base nq arena p l L Z0. apply limits3_iff in L. destruct L as ((b0 & b1) & L). unfold set_params3. rewrite L. cbv zeta. cbn [r_numLineY r_numLineX].
  assert (B : (Z.eqb (r_numLineX p) 0 || Z.eqb (r_numLineY p) 0)%bool = true) by (apply orb_true_iff; destruct Z0 as [-> | ->]; [left|right]; reflexivity).
  rewrite B. reflexivity.
Qed.
Print Assumptions C106_failed_spatial_count_keeps_limits.
(** A scene without limits (no arena, or too few numbers): the parameters stay as they are. *)
Theorem C106_no_limits_nothing_changes : forall base arena obs p, (forall l, ~ limits_of2 (Scene2 base arena obs) l) ->
  exists e, set_params2 base arena obs p = (p, Throw e).
Proof.
  intros base arena obs p N. unfold set_params2. destruct (limits2 base arena) as [[l b1]|e|] eqn:L.
  - exfalso. apply (N l). apply limits2_iff. exists b1. exact L.
  - exists e. reflexivity.
  - contradiction (limits2_no_ub base arena L).
Qed.
Print Assumptions C106_no_limits_nothing_changes.

(** Claim "the count of lines fits the scene last given": refuted, it is that of the first scene. *)
Definition round (r x y : R) : sellipse := SE [r; r] 1 [x; y] 0 10.
Definition unset : params := Params [] 10 0 0.
Lemma quot_is n m k : 0 < m -> (0 <= k < 2 ^ 31)%Z -> IZR k * m <= n < (IZR k + 1) * m -> int_quot n m = Ok k.
Proof.
  intros P K [L U]. unfold int_quot. destruct (Req_EM_T m 0) as [Z0|_]; [lra|].
  assert (L' : IZR k <= n / m) by (apply Rmult_le_reg_r with m; [exact P|]; unfold Rdiv; rewrite Rmult_assoc, Rinv_l by lra; lra).
  assert (U' : n / m < IZR k + 1) by (apply Rmult_lt_reg_r with m; [exact P|]; unfold Rdiv; rewrite Rmult_assoc, Rinv_l by lra; lra).
  assert (0 <= IZR k) by (apply IZR_le; lia).
  unfold trunc. destruct (Rle_dec 0 (n / m)) as [_|N]; [|lra].
  assert (E : Int_part (n / m) = k).
  { pose proof (int_part (n / m)) as [A B]. assert (Int_part (n / m) < k + 1)%Z by (apply lt_IZR; rewrite plus_IZR; lra).
    assert (k - 1 < Int_part (n / m))%Z by (apply lt_IZR; rewrite minus_IZR; lra). lia. }
  rewrite E. replace (Z.leb (- 2 ^ 31) k) with true by (symmetry; apply Z.leb_le; lia). replace (Z.ltb k (2 ^ 31)) with true by (symmetry; apply Z.ltb_lt; lia).
  cbn [andb]. rewrite Z.mod_small by lia. reflexivity.
Qed.
Lemma one_size m x y : min_size (map se_axes [round m x y]) = Ok m.
Proof. unfold min_size, round. cbn [map se_axes at_ nth_error obind fold_left]. unfold smaller. cbn [fold_left]. destruct (Rlt_dec m m) as [L|_]; [lra|]. destruct (Rlt_dec m m) as [L|_]; [lra|]. reflexivity. Qed.
Lemma nine_high p m k : r_numLineY p = 0%Z -> 0 < m -> (0 <= k < 2 ^ 31)%Z -> IZR k * m <= 9 < (IZR k + 1) * m ->
  set_params2 (round (2 / 3) 0 0) [round 10 0 0] [round m 5 5] p =
  (Params [0 - (10 - 3 / 2 * (2 / 3)); 0 + (10 - 3 / 2 * (2 / 3)); 0 - (10 - 3 / 2 * (2 / 3)); 0 + (10 - 3 / 2 * (2 / 3))] (r_numSlice p) (r_numLineX p) k, Ok tt).
Proof.
  intros Z0 P K B.
  assert (L : limits2 (round (2 / 3) 0 0) [round 10 0 0] = Ok ([0 - (10 - 3 / 2 * (2 / 3)); 0 + (10 - 3 / 2 * (2 / 3)); 0 - (10 - 3 / 2 * (2 / 3)); 0 + (10 - 3 / 2 * (2 / 3))], 10 - 3 / 2 * (2 / 3))) by reflexivity.
  unfold set_params2. rewrite L. cbv zeta. cbn [r_numLineY]. rewrite Z0. cbn [Z.eqb]. rewrite (one_size m 5 5). cbn [obind].
  rewrite (quot_is (10 - 3 / 2 * (2 / 3)) m k P K) by lra. reflexivity.
Qed.
Theorem C106_count_fits_the_scene_refuted :
  ~ (forall base arena obs arena' obs' p p1 p2 q, set_params2 base arena obs p = (p1, Ok tt) -> set_params2 base arena' obs' p1 = (p2, Ok tt) ->
       set_params2 base arena' obs' p = (q, Ok tt) -> r_numLineY p2 = r_numLineY q).
Proof.
  intros H. pose proof (nine_high unset 1 9 eq_refl ltac:(lra) ltac:(lia) ltac:(lra)) as E1. pose proof (nine_high unset 3 3 eq_refl ltac:(lra) ltac:(lia) ltac:(lra)) as E2.
  specialize (H _ _ _ [round 10 0 0] [round 3 5 5] _ _ _ _ E1 ltac:(reflexivity) E2). cbn [r_numLineY] in H. discriminate H.
Qed.
Print Assumptions C106_count_fits_the_scene_refuted.

(** Non-vacuity: a 20 x 20 arena, a scene without arena and a scene without obstacles after it: the count
    is that of the first, the limits are those of the last. *)
Example C106_witness : exists p', params_history [Scene2 (round (2 / 3) 0 0) [round 10 0 0] [round 1 5 5]; Scene2 (round 1 0 0) [] [round 1 0 0]; Scene2 (round 2 0 0) [round 5 1 2] []] unset = Ok p' /\
  r_numLineY p' = 9%Z /\ r_limits p' = [1 - (5 - 3 / 2 * 2); 1 + (5 - 3 / 2 * 2); 2 - (5 - 3 / 2 * 2); 2 + (5 - 3 / 2 * 2)] /\
  limits_of2 (Scene2 (round 2 0 0) [round 5 1 2] []) (r_limits p') /\ (forall l, ~ limits_of2 (Scene2 (round 1 0 0) [] [round 1 0 0]) l).
Proof.
  eexists. split; [|split; [|split; [|split]]].
  - cbn [params_history c_base c_arena c_obs]. rewrite (nine_high unset 1 9 eq_refl ltac:(lra) ltac:(lia) ltac:(lra)). reflexivity.
  - reflexivity.
  - reflexivity.
  - exists (round 5 1 2). do 9 eexists. repeat (split; [reflexivity|]). reflexivity.
  - intros l (ar & rest & r & b & A0 & A1 & as' & X & Y & ps & E & _). discriminate E.
Qed.
