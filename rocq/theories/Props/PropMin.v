(** C99: the ellipse (ellipsoid) enclosing two others is the smallest one
    (src/geometry/TightFitEllipsoid.cpp). *)
From Coq Require Import List Reals ZArith Arith Bool Lia Lra Psatz.
From Verif.Base Require Import Outcome.
From Verif.Model Require Import MGeom MMultiBody MTightFit.
From Verif.Spec Require Import SGeom SRigid.
From Verif.Proofs Require Import PGeom PGeom2 PGeom3 PRot PTight2 PTight2X PTight3 PSpectral3 PMin PMinU.
Import ListNotations.
Local Open Scope R_scope.

(** No ellipse enclosing both arguments, of whatever axes, heading and centre, has a smaller
    area (product of semi-axes) than the result, whatever signs the decomposition chose ... *)
Theorem C99_planar_no_smaller : forall svd a0 a1 b0 b1 thA thB num C, svd2_ok svd -> 0 < a0 -> 0 < a1 -> 0 < b0 -> 0 < b1 ->
  get_mvce2 svd [a0; a1] [b0; b1] thA thB num = Ok (Some C) ->
  forall e0 e1 t ctr, 0 < e0 -> 0 < e1 ->
    encloses2 (ellipse_at e0 e1 t ctr) (ellipse0 (a0, a1) thA) -> encloses2 (ellipse_at e0 e1 t ctr) (ellipse0 (b0, b1) thB) ->
    ba (body_of2 C) * bb (body_of2 C) <= e0 * e1.
Proof.
  intros svd a0 a1 b0 b1 thA thB num C OK A0 A1 B0 B1 H e0 e1 t ctr E0 E1 XA XB.
  unfold get_mvce2 in H. cbn [idx nth_error obind] in H. destruct (mvce2 svd (a0, a1) (b0, b1) thA thB) as [[c s]|] eqn:E; [|discriminate H].
  injection H as <-. exact (mvce2_least svd a0 a1 b0 b1 thA thB c s e0 e1 t ctr OK A0 A1 B0 B1 E0 E1 E XA XB).
Qed.
Print Assumptions C99_planar_no_smaller.
(** ... so that with a decomposition pointing upwards the result is a smallest enclosing
    ellipse: it encloses both and none that does is smaller. *)
Theorem C99_planar_smallest : forall svd a0 a1 b0 b1 thA thB num, svd2_ok svd -> upper_svd2 svd -> 0 < a0 -> 0 < a1 -> 0 < b0 -> 0 < b1 ->
  exists C, get_mvce2 svd [a0; a1] [b0; b1] thA thB num = Ok (Some C) /\
    encloses2 (body_of2 C) (ellipse0 (a0, a1) thA) /\ encloses2 (body_of2 C) (ellipse0 (b0, b1) thB) /\
    forall e0 e1 t ctr, 0 < e0 -> 0 < e1 ->
      encloses2 (ellipse_at e0 e1 t ctr) (ellipse0 (a0, a1) thA) -> encloses2 (ellipse_at e0 e1 t ctr) (ellipse0 (b0, b1) thB) ->
      ba (body_of2 C) * bb (body_of2 C) <= e0 * e1.
Proof.
  intros svd a0 a1 b0 b1 thA thB num OK UP A0 A1 B0 B1.
  destruct (mvce2_upper svd OK (a0, a1) (b0, b1) thA thB UP (conj A0 A1) (conj B0 B1)) as ([c0 c1] & s & E & _ & X & Y).
  assert (H : get_mvce2 svd [a0; a1] [b0; b1] thA thB num = Ok (Some (SE [c0; c1] 1 [0; 0] s num))) by (unfold get_mvce2; cbn [idx nth_error obind]; rewrite E; reflexivity).
  eexists. split; [exact H|]. split; [exact X|]. split; [exact Y|]. exact (C99_planar_no_smaller svd a0 a1 b0 b1 thA thB num _ OK A0 A1 B0 B1 H).
Qed.
Print Assumptions C99_planar_smallest.
(** In particular the order of the two arguments does not matter for the area. *)
Theorem C99_planar_order : forall svd svd' a0 a1 b0 b1 thA thB num C D, svd2_ok svd -> svd2_ok svd' -> 0 < a0 -> 0 < a1 -> 0 < b0 -> 0 < b1 ->
  get_mvce2 svd [a0; a1] [b0; b1] thA thB num = Ok (Some C) -> get_mvce2 svd' [b0; b1] [a0; a1] thB thA num = Ok (Some D) ->
  ba (body_of2 C) * bb (body_of2 C) = ba (body_of2 D) * bb (body_of2 D).
Proof.
  assert (HALF : forall svd svd' a0 a1 b0 b1 thA thB num C D, svd2_ok svd -> svd2_ok svd' -> 0 < a0 -> 0 < a1 -> 0 < b0 -> 0 < b1 ->
    get_mvce2 svd [a0; a1] [b0; b1] thA thB num = Ok (Some C) -> get_mvce2 svd' [b0; b1] [a0; a1] thB thA num = Ok (Some D) ->
    ba (body_of2 C) * bb (body_of2 C) <= ba (body_of2 D) * bb (body_of2 D)).
  { intros svd svd' a0 a1 b0 b1 thA thB num C D OK OK' A0 A1 B0 B1 H H'.
    destruct (mvce2_either svd' OK' (b0, b1) (a0, a1) thB thA (conj B0 B1) (conj A0 A1)) as ([d0 d1] & s & E & [P0 P1] & _ & X). cbn [fst snd] in P0, P1.
    assert (ED : body_of2 D = ellipse0 (d0, d1) s).
    { unfold get_mvce2 in H'. cbn [idx nth_error obind] in H'. rewrite E in H'. injection H' as <-. reflexivity. }
    rewrite ED. cbn [ba bb ellipse0 ellipse_at fst snd].
    destruct X as [[X Y]|[X Y]]; exact (C99_planar_no_smaller svd a0 a1 b0 b1 thA thB num C OK A0 A1 B0 B1 H d0 d1 _ (V2 0 0) P0 P1 Y X). }
  intros svd svd' a0 a1 b0 b1 thA thB num C D OK OK' A0 A1 B0 B1 H H'. apply Rle_antisym.
  - exact (HALF svd svd' a0 a1 b0 b1 thA thB num C D OK OK' A0 A1 B0 B1 H H').
  - exact (HALF svd' svd b0 b1 a0 a1 thB thA num D C OK' OK B0 B1 A0 A1 H' H).
Qed.
Print Assumptions C99_planar_order.
(** In space: no ellipsoid enclosing both arguments has a smaller volume than the result,
    even if the decomposition is a reflection (and the returned orientation wrong) ... *)
Theorem C99_spatial_no_smaller : forall svd a0 a1 a2 b0 b1 b2 qA qB num C, svd3_ok svd ->
  0 < a0 -> 0 < a1 -> 0 < a2 -> 0 < b0 -> 0 < b1 -> 0 < b2 -> unit_quat qA -> unit_quat qB ->
  get_mvce3 svd [a0; a1; a2] [b0; b1; b2] qA qB num = Ok (Some C) ->
  forall e0 e1 e2 q ctr, 0 < e0 -> 0 < e1 -> 0 < e2 -> unit_quat q ->
    encloses3 (ellipsoid_at e0 e1 e2 q ctr) (ellipsoid0 (a0, a1, a2) qA) -> encloses3 (ellipsoid_at e0 e1 e2 q ctr) (ellipsoid0 (b0, b1, b2) qB) ->
    sa (body_of3 C) * sb (body_of3 C) * sc (body_of3 C) <= e0 * e1 * e2.
Proof.
  intros svd a0 a1 a2 b0 b1 b2 qA qB num C OK A0 A1 A2 B0 B1 B2 UA UB H e0 e1 e2 q ctr E0 E1 E2 UQ XA XB.
  unfold get_mvce3 in H. cbn [idx nth_error obind] in H. destruct (mvce3 svd (a0, a1, a2) (b0, b1, b2) qA qB) as [[c s]|] eqn:E; [|discriminate H].
  injection H as <-. exact (mvce3_least svd a0 a1 a2 b0 b1 b2 qA qB c s e0 e1 e2 q ctr OK A0 A1 A2 B0 B1 B2 UA UB E0 E1 E2 UQ E XA XB).
Qed.
Print Assumptions C99_spatial_no_smaller.
(** ... and with a rotation it is a smallest enclosing ellipsoid. *)
Theorem C99_spatial_smallest : forall svd a0 a1 a2 b0 b1 b2 qA qB num, svd3_ok svd -> proper_svd3 svd ->
  0 < a0 -> 0 < a1 -> 0 < a2 -> 0 < b0 -> 0 < b1 -> 0 < b2 -> unit_quat qA -> unit_quat qB ->
  exists C, get_mvce3 svd [a0; a1; a2] [b0; b1; b2] qA qB num = Ok (Some C) /\
    encloses3 (body_of3 C) (ellipsoid0 (a0, a1, a2) qA) /\ encloses3 (body_of3 C) (ellipsoid0 (b0, b1, b2) qB) /\
    forall e0 e1 e2 q ctr, 0 < e0 -> 0 < e1 -> 0 < e2 -> unit_quat q ->
      encloses3 (ellipsoid_at e0 e1 e2 q ctr) (ellipsoid0 (a0, a1, a2) qA) -> encloses3 (ellipsoid_at e0 e1 e2 q ctr) (ellipsoid0 (b0, b1, b2) qB) ->
      sa (body_of3 C) * sb (body_of3 C) * sc (body_of3 C) <= e0 * e1 * e2.
Proof.
  intros svd a0 a1 a2 b0 b1 b2 qA qB num OK PR A0 A1 A2 B0 B1 B2 UA UB.
  destruct (mvce3_proper svd OK (a0, a1, a2) (b0, b1, b2) qA qB PR (conj A0 (conj A1 A2)) (conj B0 (conj B1 B2)) UA UB) as ([[c0 c1] c2] & s & E & _ & _ & X & Y).
  assert (H : get_mvce3 svd [a0; a1; a2] [b0; b1; b2] qA qB num = Ok (Some (SQ [c0; c1; c2] [1; 1] [0; 0; 0] s num))) by (unfold get_mvce3; cbn [idx nth_error obind]; rewrite E; reflexivity).
  eexists. split; [exact H|]. split; [exact X|]. split; [exact Y|]. exact (C99_spatial_no_smaller svd a0 a1 a2 b0 b1 b2 qA qB num _ OK A0 A1 A2 B0 B1 B2 UA UB H).
Qed.
Print Assumptions C99_spatial_smallest.
(** It is the only one: an ellipse of no larger area enclosing both, of whatever axes, heading
    and centre, is the same set of points ... *)
Theorem C99_planar_unique : forall svd a0 a1 b0 b1 thA thB num C, svd2_ok svd -> upper_svd2 svd -> 0 < a0 -> 0 < a1 -> 0 < b0 -> 0 < b1 ->
  get_mvce2 svd [a0; a1] [b0; b1] thA thB num = Ok (Some C) ->
  forall e0 e1 t ctr, 0 < e0 -> 0 < e1 ->
    encloses2 (ellipse_at e0 e1 t ctr) (ellipse0 (a0, a1) thA) -> encloses2 (ellipse_at e0 e1 t ctr) (ellipse0 (b0, b1) thB) ->
    e0 * e1 <= ba (body_of2 C) * bb (body_of2 C) -> forall p, in2 (ellipse_at e0 e1 t ctr) p <-> in2 (body_of2 C) p.
Proof.
  intros svd a0 a1 b0 b1 thA thB num C OK UP A0 A1 B0 B1 H e0 e1 t ctr E0 E1 XA XB L.
  unfold get_mvce2 in H. cbn [idx nth_error obind] in H. destruct (mvce2 svd (a0, a1) (b0, b1) thA thB) as [[c s]|] eqn:E; [|discriminate H].
  injection H as <-. exact (mvce2_unique svd a0 a1 b0 b1 thA thB c s e0 e1 t ctr OK UP A0 A1 B0 B1 E0 E1 E XA XB L).
Qed.
Print Assumptions C99_planar_unique.
(** ... so that the order of the arguments does not matter for the region either. *)
Theorem C99_planar_same : forall svd svd' a0 a1 b0 b1 thA thB num C D, svd2_ok svd -> upper_svd2 svd -> svd2_ok svd' -> upper_svd2 svd' ->
  0 < a0 -> 0 < a1 -> 0 < b0 -> 0 < b1 ->
  get_mvce2 svd [a0; a1] [b0; b1] thA thB num = Ok (Some C) -> get_mvce2 svd' [b0; b1] [a0; a1] thB thA num = Ok (Some D) ->
  forall p, in2 (body_of2 C) p <-> in2 (body_of2 D) p.
Proof.
  intros svd svd' a0 a1 b0 b1 thA thB num C D OK UP OK' UP' A0 A1 B0 B1 H H' p.
  pose proof (C99_planar_order svd svd' a0 a1 b0 b1 thA thB num C D OK OK' A0 A1 B0 B1 H H') as EQ.
  destruct (mvce2_upper svd OK (a0, a1) (b0, b1) thA thB UP (conj A0 A1) (conj B0 B1)) as ([c0 c1] & s & E & [P0 P1] & X & Y). cbn [fst snd] in P0, P1.
  assert (EC : body_of2 C = ellipse0 (c0, c1) s) by (unfold get_mvce2 in H; cbn [idx nth_error obind] in H; rewrite E in H; injection H as <-; reflexivity).
  rewrite EC in EQ |- *. cbn [ba bb ellipse0 ellipse_at fst snd] in EQ.
  exact (C99_planar_unique svd' b0 b1 a0 a1 thB thA num D OK' UP' B0 B1 A0 A1 H' c0 c1 s (V2 0 0) P0 P1 Y X ltac:(rewrite EQ; apply Rle_refl) p).
Qed.
Print Assumptions C99_planar_same.
(** The same in space. *)
Theorem C99_spatial_unique : forall svd a0 a1 a2 b0 b1 b2 qA qB num C, svd3_ok svd -> proper_svd3 svd ->
  0 < a0 -> 0 < a1 -> 0 < a2 -> 0 < b0 -> 0 < b1 -> 0 < b2 -> unit_quat qA -> unit_quat qB ->
  get_mvce3 svd [a0; a1; a2] [b0; b1; b2] qA qB num = Ok (Some C) ->
  forall e0 e1 e2 q ctr, 0 < e0 -> 0 < e1 -> 0 < e2 -> unit_quat q ->
    encloses3 (ellipsoid_at e0 e1 e2 q ctr) (ellipsoid0 (a0, a1, a2) qA) -> encloses3 (ellipsoid_at e0 e1 e2 q ctr) (ellipsoid0 (b0, b1, b2) qB) ->
    e0 * e1 * e2 <= sa (body_of3 C) * sb (body_of3 C) * sc (body_of3 C) ->
    forall p, in3 (ellipsoid_at e0 e1 e2 q ctr) p <-> in3 (body_of3 C) p.
Proof.
  intros svd a0 a1 a2 b0 b1 b2 qA qB num C OK PR A0 A1 A2 B0 B1 B2 UA UB H e0 e1 e2 q ctr E0 E1 E2 UQ XA XB L.
  unfold get_mvce3 in H. cbn [idx nth_error obind] in H. destruct (mvce3 svd (a0, a1, a2) (b0, b1, b2) qA qB) as [[c s]|] eqn:E; [|discriminate H].
  injection H as <-. exact (mvce3_unique svd a0 a1 a2 b0 b1 b2 qA qB c s e0 e1 e2 q ctr OK PR A0 A1 A2 B0 B1 B2 UA UB E0 E1 E2 UQ E XA XB L).
Qed.
Print Assumptions C99_spatial_unique.
Theorem C99_spatial_same : forall svd svd' a0 a1 a2 b0 b1 b2 qA qB num C D, svd3_ok svd -> proper_svd3 svd -> svd3_ok svd' -> proper_svd3 svd' ->
  0 < a0 -> 0 < a1 -> 0 < a2 -> 0 < b0 -> 0 < b1 -> 0 < b2 -> unit_quat qA -> unit_quat qB ->
  get_mvce3 svd [a0; a1; a2] [b0; b1; b2] qA qB num = Ok (Some C) -> get_mvce3 svd' [b0; b1; b2] [a0; a1; a2] qB qA num = Ok (Some D) ->
  sa (body_of3 C) * sb (body_of3 C) * sc (body_of3 C) = sa (body_of3 D) * sb (body_of3 D) * sc (body_of3 D) /\
  forall p, in3 (body_of3 C) p <-> in3 (body_of3 D) p.
Proof.
  assert (BD : forall svd a0 a1 a2 b0 b1 b2 qA qB num C, svd3_ok svd -> proper_svd3 svd -> 0 < a0 -> 0 < a1 -> 0 < a2 -> 0 < b0 -> 0 < b1 -> 0 < b2 ->
    unit_quat qA -> unit_quat qB -> get_mvce3 svd [a0; a1; a2] [b0; b1; b2] qA qB num = Ok (Some C) ->
    exists c0 c1 c2 s, body_of3 C = ellipsoid0 (c0, c1, c2) s /\ 0 < c0 /\ 0 < c1 /\ 0 < c2 /\ unit_quat s /\
      encloses3 (body_of3 C) (ellipsoid0 (a0, a1, a2) qA) /\ encloses3 (body_of3 C) (ellipsoid0 (b0, b1, b2) qB)).
  { intros svd a0 a1 a2 b0 b1 b2 qA qB num C OK PR A0 A1 A2 B0 B1 B2 UA UB H.
    destruct (mvce3_proper svd OK (a0, a1, a2) (b0, b1, b2) qA qB PR (conj A0 (conj A1 A2)) (conj B0 (conj B1 B2)) UA UB) as ([[c0 c1] c2] & s & E & (P0 & P1 & P2) & US & X & Y).
    cbn [fst snd] in P0, P1, P2.
    assert (EC : body_of3 C = ellipsoid0 (c0, c1, c2) s) by (unfold get_mvce3 in H; cbn [idx nth_error obind] in H; rewrite E in H; injection H as <-; reflexivity).
    exists c0, c1, c2, s. rewrite EC. split; [reflexivity|]. split; [exact P0|]. split; [exact P1|]. split; [exact P2|]. split; [exact US|]. split; [exact X|exact Y]. }
  intros svd svd' a0 a1 a2 b0 b1 b2 qA qB num C D OK PR OK' PR' A0 A1 A2 B0 B1 B2 UA UB H H'.
  destruct (BD svd a0 a1 a2 b0 b1 b2 qA qB num C OK PR A0 A1 A2 B0 B1 B2 UA UB H) as (c0 & c1' & c2 & s & EC & P0 & P1 & P2 & US & X & Y).
  destruct (BD svd' b0 b1 b2 a0 a1 a2 qB qA num D OK' PR' B0 B1 B2 A0 A1 A2 UB UA H') as (d0 & d1 & d2 & t & ED & R0 & R1 & R2 & UT & X' & Y').
  assert (VOL : sa (body_of3 C) * sb (body_of3 C) * sc (body_of3 C) = sa (body_of3 D) * sb (body_of3 D) * sc (body_of3 D)).
  { apply Rle_antisym.
    - rewrite ED in X', Y' |- *. exact (C99_spatial_no_smaller svd a0 a1 a2 b0 b1 b2 qA qB num C OK A0 A1 A2 B0 B1 B2 UA UB H d0 d1 d2 t (V3r 0 0 0) R0 R1 R2 UT Y' X').
    - rewrite EC in X, Y |- *. exact (C99_spatial_no_smaller svd' b0 b1 b2 a0 a1 a2 qB qA num D OK' B0 B1 B2 A0 A1 A2 UB UA H' c0 c1' c2 s (V3r 0 0 0) P0 P1 P2 US Y X). }
  split; [exact VOL|]. intros p. rewrite EC in X, Y, VOL |- *. cbn [sa sb sc ellipsoid0 ellipsoid_at fst snd] in VOL.
  exact (C99_spatial_unique svd' b0 b1 b2 a0 a1 a2 qB qA num D OK' PR' B0 B1 B2 A0 A1 A2 UB UA H' c0 c1' c2 s (V3r 0 0 0) P0 P1 P2 US Y X ltac:(rewrite VOL; apply Rle_refl) p).
Qed.
Print Assumptions C99_spatial_same.
(** Two crossed ellipses of axes 3 and 1: the circle of radius 3 encloses both, so that the
    result has an area of at most 9 PI. *)
Example C99_hyp : forall num, exists C, get_mvce2 (eig_svd true) [3; 1] [1; 3] 0 0 num = Ok (Some C) /\ 3 <= ba (body_of2 C) * bb (body_of2 C) <= 9.
Proof.
  intros num. destruct (C99_planar_smallest (eig_svd true) 3 1 1 3 0 0 num (eig_svd_ok true) eig_svd_up ltac:(lra) ltac:(lra) ltac:(lra) ltac:(lra)) as (C & H & X & Y & M).
  exists C. split; [exact H|].
  assert (IN : forall a b p, 0 < a -> 0 < b -> in2 (ellipse0 (a, b) 0) p <-> / (a * a) * (x2 p * x2 p) + / (b * b) * (y2 p * y2 p) <= 1).
  { intros a b p Pa Pb. rewrite in_form2 by assumption. rewrite form_conj2. unfold app2, tr2, rot2. cbn [m00 m01 m10 m11 x2 y2]. rewrite cos_0, sin_0.
    replace (1 * x2 p + 0 * y2 p) with (x2 p) by ring. replace (- 0 * x2 p + 1 * y2 p) with (y2 p) by ring. split; intros L; exact L. }
  split.
  - destruct (mvce2_upper (eig_svd true) (eig_svd_ok true) (3, 1) (1, 3) 0 0 eig_svd_up) as ([c0 c1] & s & E & [P0 P1] & U & V); [split; cbn; lra|split; cbn; lra|]. cbn [fst snd] in P0, P1.
    assert (EC : body_of2 C = ellipse0 (c0, c1) s) by (unfold get_mvce2 in H; cbn [idx nth_error obind] in H; rewrite E in H; injection H as <-; reflexivity).
    rewrite EC. cbn [ba bb ellipse0 ellipse_at fst snd].
    destruct (C99_planar_smallest (eig_svd true) 3 1 3 1 0 0 num (eig_svd_ok true) eig_svd_up ltac:(lra) ltac:(lra) ltac:(lra) ltac:(lra)) as (D & HD & XD & _ & MD).
    pose proof (MD c0 c1 s (V2 0 0) P0 P1 U U) as L1.
    assert (D3 : 3 <= ba (body_of2 D) * bb (body_of2 D)); [|lra].
    destruct (mvce2_matrix (eig_svd true) (eig_svd_ok true) (3, 1) (3, 1) 0 0) as (M2' & W & z0 & z1 & _ & _ & SW & Z0 & Z1 & EM & ER & _ & _ & EQ & _); [split; cbn; lra|split; cbn; lra|].
    specialize (EQ eq_refl eq_refl). cbn [fst snd] in EQ.
    unfold get_mvce2 in HD. cbn [idx nth_error obind] in HD. rewrite ER in HD. injection HD as <-. cbn [body_of2 ba bb se_axes nth].
    pose proof SW as (OW & _).
    assert (DZ : z0 * z1 = / 9). { rewrite <- (conj_det W z0 z1 OW), <- EM, EQ, conj_det by apply rot2_rotation. field. }
    cbn. rewrite <- Rinv_mult, <- sqrt_mult, DZ, sqrt_inv, Rinv_inv by lra. replace 9 with (3 * 3) by ring. rewrite sqrt_square by lra. lra.
  - replace 9 with (3 * 3) by ring. apply (M 3 3 0 (V2 0 0)); [lra|lra| |]; intros p Hp; apply (IN 3 3 p); try lra; apply (IN _ _ p) in Hp; try lra;
      pose proof (Rle_0_sqr (x2 p)) as Q0; pose proof (Rle_0_sqr (y2 p)) as Q1; unfold Rsqr in Q0, Q1; lra.
Qed.
