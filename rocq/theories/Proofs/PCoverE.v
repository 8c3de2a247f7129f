(** The statements of C89-C91 for sampled boundaries, and examples. *)
From Coq Require Import List Reals ZArith Arith Bool Lia Lra Psatz.
From Verif.Base Require Import Outcome.
From Verif.Model Require Import MScalar MLine2D MGeom.
From Verif.Spec Require Import SLine2D SGeom SRigid SCover.
From Verif.Proofs Require Import PLine2D PLine2DW PGeom PGeom2 PGeomX PShape PInscribed PCover PCoverS PCoverX PCoverD.
Import ListNotations.
Local Open Scope R_scope.

Lemma ok_eq {T} (a b : T) : Ok a = Ok b -> a = b.
Proof. intros Q. injection Q. auto. Qed.
Lemma disc_bd a px py t num A e2 pos2 t2 num2 : (3 <= num)%nat -> 0 < a -> 0 < A ->
  exists bd, mink2 (SE [a; a] 1 [px; py] t num) (SE [A; A] e2 pos2 t2 num2) 1 = Ok bd /\
    sampled_polygon bd = lift_poly (disc_poly (V2 px py) (a + A) t num) /\
    (forall v, In v (disc_poly (V2 px py) (a + A) t num) -> exists p, In (Some p) bd /\ v = (x2 p, y2 p)).
Proof.
  intros N Ha HA. rewrite mink2_eq by (lia || lra). eexists. split; [reflexivity|].
  assert (E : map (fun i => pt_of (msample2 a a 1 (V2 px py) t A A t2 1 (theta num i))) (seq 0 num) = disc_poly (V2 px py) (a + A) t num).
  { unfold disc_poly. apply map_ext. intros i. unfold vert. apply (msample_disc a A (V2 px py) t t2 (theta num i) Ha HA). }
  split; [rewrite sampled_lift; f_equal; exact E|].
  intros v V. rewrite <- E in V. apply in_map_iff in V. destruct V as (i & <- & I). eexists. split; [apply in_map_iff; exists i; split; [reflexivity|exact I]|reflexivity].
Qed.
Lemma poly_ne c r t num : (3 <= num)%nat -> disc_poly c r t num <> [].
Proof. intros N. unfold disc_poly. destruct num; [lia|discriminate]. Qed.
Lemma dist_lt p q k : 0 < k -> dist2 p q < k -> (x2 p - x2 q) * (x2 p - x2 q) + (y2 p - y2 q) * (y2 p - y2 q) < k * k.
Proof.
  intros K H. unfold dist2 in H. set (s := (x2 p - x2 q) * (x2 p - x2 q) + (y2 p - y2 q) * (y2 p - y2 q)) in *.
  assert (S : 0 <= s) by (unfold s; pose proof (Rle_0_sqr (x2 p - x2 q)); pose proof (Rle_0_sqr (y2 p - y2 q)); unfold Rsqr in *; lra).
  rewrite <- (sqrt_sqrt s S). pose proof (sqrt_pos s). apply Rmult_le_0_lt_compat; lra.
Qed.
Lemma dist_gt p q k : 0 <= k -> k < dist2 p q -> k * k < (x2 p - x2 q) * (x2 p - x2 q) + (y2 p - y2 q) * (y2 p - y2 q).
Proof.
  intros K H. unfold dist2 in H. set (s := (x2 p - x2 q) * (x2 p - x2 q) + (y2 p - y2 q) * (y2 p - y2 q)) in *.
  assert (S : 0 <= s) by (unfold s; pose proof (Rle_0_sqr (x2 p - x2 q)); pose proof (Rle_0_sqr (y2 p - y2 q)); unfold Rsqr in *; lra).
  rewrite <- (sqrt_sqrt s S). apply Rmult_le_0_lt_compat; lra.
Qed.
Lemma core_pos r num : 0 < r -> (3 <= num)%nat -> 0 < r * cos (hstep num).
Proof. intros R0 N. pose proof (hstep_range num N) as [H1 H2]. apply Rmult_lt_0_compat; [exact R0|]. apply cos_gt_0; lra. Qed.
Lemma disc_core_blocked a px py t num A e2 pos2 t2 num2 : (3 <= num)%nat -> INR num <= 3000000 -> 0 < a -> 0 < A ->
  exists bd, mink2 (SE [a; a] 1 [px; py] t num) (SE [A; A] e2 pos2 t2 num2) 1 = Ok bd /\
    forall x y, dist2 (V2 x y) (V2 px py) < (a + A) * cos (31415926 / 10000000 / (INR num - 1)) ->
      (forall p, In (Some p) bd -> y2 p <> y) ->
      exists h0 h1 rest, hline_polygon XR (Some y) (sampled_polygon bd) = Ok (Some h0 :: Some h1 :: rest) /\ strictly_between h0 h1 x.
Proof.
  intros N NB Ha HA. destruct (disc_bd a px py t num A e2 pos2 t2 num2 N Ha HA) as (bd & E & SP & VV). exists bd. split; [exact E|].
  intros x y D NV. rewrite SP. pose proof (core_pos (a + A) num ltac:(lra) N) as CP.
  refine (covered (disc_poly (V2 px py) (a + A) t num) (x, y) (poly_ne _ _ _ _ N) _ _).
  - apply disc_inside; [lra|exact N|exact NB|]. exact (dist_lt (V2 x y) (V2 px py) _ CP D).
  - intros v V. destruct (VV v V) as (p & I & ->). exact (NV p I).
Qed.
Lemma disc_motion_clearance solve a px py t num A e2 pos2 t2 num2 : solve_exact solve ->
  (3 <= num)%nat -> INR num <= 3000000 -> 0 < a -> 0 < A ->
  exists bd, mink2 (SE [a; a] 1 [px; py] t num) (SE [A; A] e2 pos2 t2 num2) 1 = Ok bd /\
    forall (q1 q2 : rpoint) r1 r2, a + A < dist2 (V2 (fst q1) (snd q1)) (V2 px py) ->
      (forall p, In (Some p) bd -> off_line q1 q2 (x2 p, y2 p)) ->
      seg_polygon XR solve (Some (fst q1) :: Some (snd q1) :: r1) (Some (fst q2) :: Some (snd q2) :: r2) (sampled_polygon bd) = Ok false ->
      forall p, in_open_segment q1 q2 p -> (a + A) * cos (31415926 / 10000000 / (INR num - 1)) <= dist2 (V2 (fst p) (snd p)) (V2 px py).
Proof.
  intros HS N NB Ha HA. destruct (disc_bd a px py t num A e2 pos2 t2 num2 N Ha HA) as (bd & E & SP & VV). exists bd. split; [exact E|].
  intros q1 q2 r1 r2 OUT NV SEG p IP. rewrite SP in SEG. pose proof (core_pos (a + A) num ltac:(lra) N) as CP.
  destruct (Rle_dec ((a + A) * cos (31415926 / 10000000 / (INR num - 1))) (dist2 (V2 (fst p) (snd p)) (V2 px py))) as [|NL]; [assumption|exfalso].
  assert (IN : strictly_inside (disc_poly (V2 px py) (a + A) t num) p).
  { apply disc_inside; [lra|exact N|exact NB|]. refine (dist_lt (V2 (fst p) (snd p)) (V2 px py) _ CP _). apply Rnot_le_lt. exact NL. }
  assert (OU : strictly_outside (disc_poly (V2 px py) (a + A) t num) q1).
  { apply disc_outside; [lra|exact N|]. exact (dist_gt (V2 (fst q1) (snd q1)) (V2 px py) (a + A) ltac:(lra) OUT). }
  destruct (seg_polygon_XR solve HS q1 q2 r1 r2 (disc_poly (V2 px py) (a + A) t num)) as (b & Eb & Hb). pose proof (ok_eq _ _ (eq_trans (eq_sym SEG) Eb)) as <-.
  enough (false = true) as F by discriminate F. apply (proj2 Hb).
  apply (entering _ p q1 q2 (poly_ne _ _ _ _ N)); [apply disc_convex; [lra|exact N]|exact OU|exact IN|exact IP|].
  intros v V. destruct (VV v V) as (w & I & ->). exact (NV w I).
Qed.
Lemma free_motion_outside solve (P : list rpoint) (q1 q2 : rpoint) r1 r2 : solve_exact solve -> P <> [] ->
  convex_ccw P -> strictly_outside P q1 -> (forall v, In v P -> off_line q1 q2 v) ->
  seg_polygon XR solve (Some (fst q1) :: Some (snd q1) :: r1) (Some (fst q2) :: Some (snd q2) :: r2) (lift_poly P) = Ok false ->
  forall p, in_open_segment q1 q2 p -> ~ strictly_inside P p.
Proof.
  intros HS NE CV OU NV SEG p IP IN. destruct (seg_polygon_XR solve HS q1 q2 r1 r2 P) as (b & Eb & Hb). pose proof (ok_eq _ _ (eq_trans (eq_sym SEG) Eb)) as <-.
  enough (false = true) as F by discriminate F. apply (proj2 Hb). exact (entering P p q1 q2 NE CV OU IN IP NV).
Qed.
Lemma blocked_meets a b e px py t num A B e2 pos2 t2 num2 bd y r h0 h1 x :
  0 < a -> 0 < b -> 0 < e < 2 -> 0 < A -> 0 < B -> (2 <= num)%nat ->
  mink2 (SE [a; b] e [px; py] t num) (SE [A; B] e2 pos2 t2 num2) 1 = Ok bd ->
  hline_polygon XR (Some y) (sampled_polygon bd) = Ok r -> In (Some h0) r -> In (Some h1) r -> weakly_between h0 h1 x ->
  meet2 (body_of2 (SE [a; b] e [px; py] t num)) (ellipse_at A B t2 (V2 x y)).
Proof.
  intros Ha Hb He HA HB N E H I0 I1 BT. rewrite mink2_eq in E by assumption. apply ok_eq in E. subst bd. rewrite sampled_lift in H.
  refine (hits_meet _ A B t2 (map (fun i => pt_of (msample2 a b e (V2 px py) t A B t2 1 (theta num i))) (seq 0 num)) y r h0 h1 x _ HA HB _ _ H I0 I1 BT).
  - unfold convex2, proper2. cbn. lra.
  - destruct num; [lia|discriminate].
  - intros v V. apply in_map_iff in V. destruct V as (i & <- & _). apply (sample_meets a b e (V2 px py) t A B t2 (theta num i)); lra.
Qed.
Lemma in_disc2 r c t p : 0 < r -> in2 (Body2 r r 1 c t) p -> (x2 p - x2 c) * (x2 p - x2 c) + (y2 p - y2 c) * (y2 p - y2 c) <= r * r.
Proof.
  intros R0 H. unfold in2, level2 in H. cbn [ba bb be] in H. replace (2 / 1) with 2 in H by field. rewrite !ppow_2 in H. unfold along, across in H. cbn [bc bt] in H.
  pose proof (cs1 t) as C. set (X := x2 p - x2 c) in *. set (Y := y2 p - y2 c) in *. set (ct := cos t) in *. set (st := sin t) in *. clearbody X Y ct st.
  assert (K : (X * X + Y * Y) / (r * r) <= 1).
  { replace ((X * X + Y * Y) / (r * r)) with ((X * X + Y * Y) * (ct * ct + st * st) / (r * r)) by (rewrite C; field; lra).
    replace ((X * X + Y * Y) * (ct * ct + st * st) / (r * r)) with ((ct * X + st * Y) / r * ((ct * X + st * Y) / r) + (- st * X + ct * Y) / r * ((- st * X + ct * Y) / r)) by (field; lra). exact H. }
  assert (RR : 0 < r * r) by (apply Rmult_lt_0_compat; lra). apply Rmult_le_reg_r with (/ (r * r)); [apply Rinv_0_lt_compat; exact RR|]. rewrite Rinv_r by lra. exact K.
Qed.
Lemma disc_blocked_near a px py t num A e2 pos2 t2 num2 bd y r h0 h1 x :
  0 < a -> 0 < A -> (2 <= num)%nat ->
  mink2 (SE [a; a] 1 [px; py] t num) (SE [A; A] e2 pos2 t2 num2) 1 = Ok bd ->
  hline_polygon XR (Some y) (sampled_polygon bd) = Ok r -> In (Some h0) r -> In (Some h1) r -> weakly_between h0 h1 x ->
  dist2 (V2 x y) (V2 px py) <= a + A.
Proof.
  intros Ha HA N E H I0 I1 BT. destruct (blocked_meets a a 1 px py t num A A e2 pos2 t2 num2 bd y r h0 h1 x Ha Ha ltac:(lra) HA HA N E H I0 I1 BT) as (p & P1 & P2).
  unfold body_of2 in P1. cbn [se_axes se_eps se_pos se_angle nth] in P1.
  apply (in_disc2 a (V2 px py) t p Ha) in P1. apply (in_disc2 A (V2 x y) t2 p HA) in P2. cbn [x2 y2] in P1, P2. unfold dist2. cbn [x2 y2].
  set (u1 := x2 p - px) in *. set (u2 := y2 p - py) in *. set (w1 := x2 p - x) in *. set (w2 := y2 p - y) in *.
  replace (x - px) with (u1 - w1) by (unfold u1, w1; ring). replace (y - py) with (u2 - w2) by (unfold u2, w2; ring). clearbody u1 u2 w1 w2.
  assert (CS : - (u1 * w1 + u2 * w2) <= a * A).
  { assert (Q : (u1 * w1 + u2 * w2) * (u1 * w1 + u2 * w2) <= (a * A) * (a * A)).
    { assert (I : (u1 * w1 + u2 * w2) * (u1 * w1 + u2 * w2) + (u1 * w2 - u2 * w1) * (u1 * w2 - u2 * w1) = (u1 * u1 + u2 * u2) * (w1 * w1 + w2 * w2)) by ring.
      pose proof (Rle_0_sqr (u1 * w2 - u2 * w1)) as S0. pose proof (Rle_0_sqr u1) as S1. pose proof (Rle_0_sqr u2) as S2. pose proof (Rle_0_sqr w1) as S3. pose proof (Rle_0_sqr w2) as S4. unfold Rsqr in *.
      assert ((u1 * u1 + u2 * u2) * (w1 * w1 + w2 * w2) <= (a * a) * (A * A)) by (apply Rmult_le_compat; lra). lra. }
    assert (P : 0 < a * A) by (apply Rmult_lt_0_compat; lra). destruct (Rle_dec (- (u1 * w1 + u2 * w2)) (a * A)) as [|NL]; [assumption|exfalso].
    set (z := - (u1 * w1 + u2 * w2)) in *. replace ((u1 * w1 + u2 * w2) * (u1 * w1 + u2 * w2)) with (z * z) in Q by (unfold z; ring). clearbody z.
    assert (0 < (z - a * A) * (z + a * A)) by (apply Rmult_lt_0_compat; lra). lra. }
  rewrite <- (sqrt_square (a + A)) by lra. apply sqrt_le_1_alt. lra.
Qed.
(** ---- examples ---- *)
Lemma disc_example : exists bd, mink2 (SE [1; 1] 1 [0; 0] 0 5) (SE [1 / 2; 1 / 2] 1 [0; 0] 0 5) 1 = Ok bd /\
  dist2 (V2 0 (1 / 2)) (V2 0 0) < (1 + 1 / 2) * cos (31415926 / 10000000 / (INR 5 - 1)) /\ forall p, In (Some p) bd -> y2 p <> 1 / 2.
Proof.
  pose proof pi_lo as PL. pose proof pi_hi as PH. pose proof PI_4 as P4. assert (CV : cPI = 31415926 / 10000000) by reflexivity.
  rewrite mink2_eq by (lia || lra). eexists. split; [reflexivity|]. split.
  - unfold dist2. cbn [x2 y2]. replace ((0 - 0) * (0 - 0) + (1 / 2 - 0) * (1 / 2 - 0)) with ((1 / 2) * (1 / 2)) by field. rewrite sqrt_square by lra.
    assert (C3 : 1 / 2 < cos (31415926 / 10000000 / (INR 5 - 1))).
    { rewrite <- cos_PI3. replace (INR 5) with 5 by (cbn; ring). apply cos_decreasing_1; lra. }
    lra.
  - intros p I. apply in_map_iff in I. destruct I as (i & E & I). injection E as E. apply in_seq in I.
    assert (Y : y2 p = snd (circ (V2 0 0) (1 + 1 / 2) (0 + theta 5 i))).
    { rewrite <- (msample_disc 1 (1 / 2) (V2 0 0) 0 0 (theta 5 i)) by lra. rewrite E. reflexivity. }
    rewrite Y. unfold circ. cbn [snd y2]. assert (TH : theta 5 i = INR i * (cPI / 2)) by (unfold theta; replace (INR 5) with 5 by (cbn; ring); field).
    rewrite TH. destruct I as [_ I]. destruct i as [|[|[|[|[|i]]]]]; [| | | | |cbn in I; lia].
    + replace (0 + INR 0 * (cPI / 2)) with 0 by (cbn; ring). rewrite sin_0. lra.
    + replace (0 + INR 1 * (cPI / 2)) with (cPI / 2) by (cbn; ring).
      assert (1 / 2 < sin (cPI / 2)) by (rewrite <- sin_PI6; apply sin_increasing_1; lra). lra.
    + replace (0 + INR 2 * (cPI / 2)) with cPI by (cbn; field). assert (0 < sin cPI) by (apply sin_gt_0; lra).
      assert (sin cPI < 1 / 10); [|lra]. replace (sin cPI) with (sin (PI - cPI)) by (rewrite sin_minus, sin_PI, cos_PI; ring).
      apply Rlt_trans with (PI - cPI); [apply sin_lt_x; lra|lra].
    + replace (0 + INR 3 * (cPI / 2)) with (3 * (cPI / 2)) by (cbn; ring). assert (sin (3 * (cPI / 2)) < 0) by (apply sin_lt_0; lra). lra.
    + replace (0 + INR 4 * (cPI / 2)) with (2 * cPI) by (cbn; field). assert (sin (2 * cPI) < 0) by (apply sin_lt_0; lra). lra.
Qed.
Lemma sq_edges a b : is_edge square a b -> (a, b) = ((0, 0), (2, 0)) \/ (a, b) = ((2, 0), (2, 2)) \/ (a, b) = ((2, 2), (0, 2)) \/ (a, b) = ((0, 2), (0, 0)).
Proof.
  intros E. apply redges_is_edge in E. cbn in E.
  destruct E as [<- |[<- |[<- |[<- |[]]]]]; [left|right; left|right; right; left|right; right; right]; reflexivity.
Qed.
Lemma square_convex : convex_ccw square.
Proof.
  intros a b v E V. cbn in V. destruct (sq_edges a b E) as [Q|[Q|[Q|Q]]]; injection Q as -> ->; destruct V as [<- |[<- |[<- |[<- |[]]]]]; unfold turn_of; cbn [fst snd]; lra.
Qed.
Lemma square_inner : strictly_inside square (1, 1).
Proof. intros a b E. destruct (sq_edges a b E) as [Q|[Q|[Q|Q]]]; injection Q as -> ->; unfold turn_of; cbn [fst snd]; lra. Qed.
Lemma square_motion : convex_ccw square /\ strictly_outside square (-1, 1 / 2) /\ (forall v, In v square -> off_line (-1, 1 / 2) (-1, 3) v) /\
  seg_polygon XR cramer [Some (-1); Some (1 / 2)] [Some (-1); Some 3] (lift_poly square) = Ok false.
Proof.
  split; [exact square_convex|]. split; [|split].
  - exists (0, 2), (0, 0). split; [right; exists [(2, 0); (2, 2); (0, 2)]; split; reflexivity|]. unfold turn_of. cbn [fst snd]. lra.
  - intros v V. cbn in V. unfold off_line, turn_of. destruct V as [<- |[<- |[<- |[<- |[]]]]]; cbn [fst snd]; lra.
  - destruct (seg_polygon_XR cramer cramer_exact (-1, 1 / 2) (-1, 3) [] [] square) as (b & Eb & Hb). cbn [fst snd] in Eb. refine (eq_trans Eb _). destruct b; [exfalso|reflexivity].
    destruct (proj1 Hb eq_refl) as (a & c & E & _ & x & (l & L & X & _) & (m & M & X' & _)). cbn [fst snd] in X.
    destruct (sq_edges a c E) as [Q|[Q|[Q|Q]]]; injection Q as -> ->; cbn [fst snd] in X'; lra.
Qed.
Lemma square_chord solve : solve_exact solve ->
  convex_ccw square /\ (forall v, In v square -> off_line (0, 1) (2, 1) v) /\
  seg_polygon XR solve [Some 0; Some 1] [Some 2; Some 1] (lift_poly square) = Ok false /\
  in_open_segment (0, 1) (2, 1) (1, 1) /\ strictly_inside square (1, 1).
Proof.
  intros HS. split; [exact square_convex|]. split; [|split; [|split; [|exact square_inner]]].
  - intros v V. cbn in V. unfold off_line, turn_of. destruct V as [<- |[<- |[<- |[<- |[]]]]]; cbn [fst snd]; lra.
  - destruct (seg_polygon_XR solve HS (0, 1) (2, 1) [] [] square) as (b & Eb & Hb). cbn [fst snd] in Eb. refine (eq_trans Eb _). destruct b; [exfalso|reflexivity].
    destruct (proj1 Hb eq_refl) as (a & c & E & _ & x & (l & L & X & Y) & (m & M & X' & Y')). cbn [fst snd] in X, Y.
    destruct (sq_edges a c E) as [Q|[Q|[Q|Q]]]; injection Q as -> ->; cbn [fst snd] in X', Y'; lra.
  - exists (1 / 2). split; [lra|]. split; cbn [fst snd]; field.
Qed.
