(** C103: lines meet the meshes of convex solids where they enter and leave the solid, and the
    spatial point and straight motion tests are exact for such obstacles (src/geometry/
    LineIntersection.cpp:10-94,152-212, src/planners/HRM3D.cpp:319-425; exact arithmetic). *)
From Coq Require Import List Bool Reals Lra Lia ZArith Arith Psatz.
From Verif.Base Require Import Outcome Float64 FloatFacts.
From Verif.Model Require Import MScalar MLine2D MLine3D MHRM2D MHRM3D.
From Verif.Spec Require Import SLine2D SLine3D SMotion SCover SSolid.
From Verif.Proofs Require Import PLine2D PLine2DW PLine3D PMotion PMotionR PCoverX PCoverD PCoverE PSolid PConvex2.
Import ListNotations.
Local Open Scope R_scope.

(** A vertical line in general position finds nothing and misses the solid, or finds exactly
    two points, the ends of the part of the line in the solid. *)
Theorem C103_vertical_hits : forall vs fs o, convex_surface vs fs -> in_general_position vs fs o (RV 0 0 1) ->
  (vertical_line_mesh XR (lift_line o (RV 0 0 1)) (lift_mesh vs fs) = Ok [] /\
     forall t, ~ solid vs fs (line_at o (RV 0 0 1) t)) \/
  exists t0 t1, t0 < t1 /\
    (vertical_line_mesh XR (lift_line o (RV 0 0 1)) (lift_mesh vs fs) =
       Ok [lift3 (line_at o (RV 0 0 1) t0); lift3 (line_at o (RV 0 0 1) t1)] \/
     vertical_line_mesh XR (lift_line o (RV 0 0 1)) (lift_mesh vs fs) =
       Ok [lift3 (line_at o (RV 0 0 1) t1); lift3 (line_at o (RV 0 0 1) t0)]) /\
    (forall t, solid vs fs (line_at o (RV 0 0 1) t) <-> t0 <= t <= t1) /\
    (forall t, inside vs fs (line_at o (RV 0 0 1) t) <-> t0 < t < t1).
Proof. exact vertical_hits. Qed.
Print Assumptions C103_vertical_hits.

(** The same for a line in any direction. *)
Theorem C103_line_hits : forall vs fs o d, convex_surface vs fs -> in_general_position vs fs o d -> d <> RV 0 0 0 -> all_not_tiny d ->
  (line_mesh XR (lift_line o d) (lift_mesh vs fs) = Ok [] /\ forall t, ~ solid vs fs (line_at o d t)) \/
  exists t0 t1, t0 < t1 /\
    (line_mesh XR (lift_line o d) (lift_mesh vs fs) = Ok [lift3 (line_at o d t0); lift3 (line_at o d t1)] \/
     line_mesh XR (lift_line o d) (lift_mesh vs fs) = Ok [lift3 (line_at o d t1); lift3 (line_at o d t0)]) /\
    (forall t, solid vs fs (line_at o d t) <-> t0 <= t <= t1) /\
    (forall t, inside vs fs (line_at o d t) <-> t0 < t < t1).
Proof. exact line_hits. Qed.
Print Assumptions C103_line_hits.

(** The point test answers, and says "clear" exactly for the points in no solid's interior. *)
Theorem C103_point_test : forall ms p, Forall (generic_up p) ms ->
  exists b, point_clear3 XR (lift3 p) (map lift_rmesh ms) = Ok b /\
    (b = true <-> forall m, In m ms -> ~ inside (fst m) (snd m) p).
Proof. exact point_exact. Qed.
Print Assumptions C103_point_test.

(** The straight motion test between two points outside the solids answers, and says "free"
    exactly if no point of the segment is in a solid. *)
Theorem C103_straight_motion : forall ms t1 t2, t1 <> t2 -> all_not_tiny (direction t1 t2) -> Forall (generic_line t1 t2) ms ->
  (forall m, In m ms -> ~ solid (fst m) (snd m) t1 /\ ~ solid (fst m) (snd m) t2) ->
  exists b, straight_free XR (map lift_rmesh ms) (lift3 t1) (lift3 t2) = Ok b /\
    (b = true <-> forall m k, In m ms -> 0 <= k <= 1 -> ~ solid (fst m) (snd m) (between t1 t2 k)).
Proof. exact straight_exact. Qed.
Print Assumptions C103_straight_motion.

(** A tetrahedron. *)
Definition tetra_vs : list rvec := [RV 0 0 0; RV 4 0 0; RV 0 4 0; RV 0 0 4].
Definition tetra_fs : list (nat * nat * nat) := [(0, 1, 2); (0, 1, 3); (0, 2, 3); (1, 2, 3)]%nat.
Definition tetra : rmesh := (tetra_vs, tetra_fs).
Lemma tetra_face f abc : In f tetra_fs -> face_corners tetra_vs f abc ->
  (abc = (RV 0 0 0, RV 4 0 0, RV 0 4 0) /\ forall p, side abc p = 16 * rz p) \/
  (abc = (RV 0 0 0, RV 4 0 0, RV 0 0 4) /\ forall p, side abc p = - 16 * ry p) \/
  (abc = (RV 0 0 0, RV 0 4 0, RV 0 0 4) /\ forall p, side abc p = 16 * rx p) \/
  (abc = (RV 4 0 0, RV 0 4 0, RV 0 0 4) /\ forall p, side abc p = 16 * (rx p + ry p + rz p - 4)).
Proof.
  destruct abc as [[a b] c]. unfold tetra_fs, tetra_vs. intros [<- |[<- |[<- |[<- |[]]]]]; cbn [face_corners nth_error]; intros (E & F & G).
  all: apply (f_equal (fun o => match o with Some x => x | None => a end)) in E;
       apply (f_equal (fun o => match o with Some x => x | None => b end)) in F;
       apply (f_equal (fun o => match o with Some x => x | None => c end)) in G; subst a b c.
  1: left. 2: right; left. 3: right; right; left. 4: right; right; right.
  all: split; [reflexivity|intros [x y z]; unfold side, rdot, rcross, rsub; cbn [rx ry rz]; ring].
Qed.
Lemma tetra_in w : In w tetra_vs -> 0 <= rx w /\ 0 <= ry w /\ 0 <= rz w /\ rx w + ry w + rz w <= 4.
Proof. unfold tetra_vs. intros [<- |[<- |[<- |[<- |[]]]]]; cbn [rx ry rz]; lra. Qed.
Lemma tetra_solid p : solid tetra_vs tetra_fs p <-> 0 <= rx p /\ 0 <= ry p /\ 0 <= rz p /\ rx p + ry p + rz p <= 4.
Proof.
  split.
  - intros H.
    pose proof (H (0,1,2)%nat (RV 0 0 0, RV 4 0 0, RV 0 4 0) ltac:(unfold tetra_fs; simpl; auto) ltac:(cbn; auto)) as [_ H1].
    pose proof (H (0,1,3)%nat (RV 0 0 0, RV 4 0 0, RV 0 0 4) ltac:(unfold tetra_fs; simpl; auto) ltac:(cbn; auto)) as [H2 _].
    pose proof (H (0,2,3)%nat (RV 0 0 0, RV 0 4 0, RV 0 0 4) ltac:(unfold tetra_fs; simpl; auto) ltac:(cbn; auto)) as [_ H3].
    pose proof (H (1,2,3)%nat (RV 4 0 0, RV 0 4 0, RV 0 0 4) ltac:(unfold tetra_fs; simpl; auto) ltac:(cbn; auto)) as [H4 _].
    assert (K : forall x y z, side (RV 0 0 0, RV 4 0 0, RV 0 4 0) (RV x y z) = 16 * z /\ side (RV 0 0 0, RV 4 0 0, RV 0 0 4) (RV x y z) = - 16 * y /\
      side (RV 0 0 0, RV 0 4 0, RV 0 0 4) (RV x y z) = 16 * x /\ side (RV 4 0 0, RV 0 4 0, RV 0 0 4) (RV x y z) = 16 * (x + y + z - 4)).
    { intros x y z. unfold side, rdot, rcross, rsub; cbn [rx ry rz]. repeat split; ring. }
    assert (Q1 := H1 ltac:(intros [x y z] W; destruct (tetra_in _ W) as (? & ? & ? & ?); destruct (K x y z) as (-> & _); cbn [rx ry rz] in *; lra)).
    assert (Q2 := H2 ltac:(intros [x y z] W; destruct (tetra_in _ W) as (? & ? & ? & ?); destruct (K x y z) as (_ & -> & _); cbn [rx ry rz] in *; lra)).
    assert (Q3 := H3 ltac:(intros [x y z] W; destruct (tetra_in _ W) as (? & ? & ? & ?); destruct (K x y z) as (_ & _ & -> & _); cbn [rx ry rz] in *; lra)).
    assert (Q4 := H4 ltac:(intros [x y z] W; destruct (tetra_in _ W) as (? & ? & ? & ?); destruct (K x y z) as (_ & _ & _ & ->); cbn [rx ry rz] in *; lra)).
    destruct p as [x y z]. destruct (K x y z) as (E1' & E2' & E3' & E4'). rewrite E1' in Q1. rewrite E2' in Q2. rewrite E3' in Q3. rewrite E4' in Q4.
    cbn [rx ry rz]. lra.
  - intros H f abc I C. unfold behind.
    assert (V : In (RV 4 0 0) tetra_vs /\ In (RV 0 4 0) tetra_vs /\ In (RV 0 0 4) tetra_vs /\ In (RV 0 0 0) tetra_vs) by (unfold tetra_vs; simpl; auto 10).
    destruct V as (V1 & V2 & V3' & V0).
    destruct (tetra_face f abc I C) as [[_ S]|[[_ S]|[[_ S]|[_ S]]]]; rewrite S; split; intros G; pose proof (G _ V1) as G1; pose proof (G _ V2) as G2; pose proof (G _ V3') as G3; pose proof (G _ V0) as G0;
      rewrite S in G0, G1, G2, G3; cbn [rx ry rz] in G0, G1, G2, G3; lra.
Qed.
Lemma tetra_convex : convex_surface tetra_vs tetra_fs.
Proof.
  constructor.
  - unfold tetra_fs, tetra_vs, face_ok. repeat constructor.
  - intros f abc I C. destruct (tetra_face f abc I C) as [[_ S]|[[_ S]|[[_ S]|[_ S]]]]; [right|left|right|left]; intros w W; destruct (tetra_in w W) as (? & ? & ? & ?); rewrite S; lra.
  - intros f abc I C.
    destruct (tetra_face f abc I C) as [[_ S]|[[_ S]|[[_ S]|[_ S]]]]; [exists (RV 0 0 4)|exists (RV 0 4 0)|exists (RV 4 0 0)|exists (RV 0 0 0)];
      rewrite S; cbn [rx ry rz]; (split; [unfold tetra_vs; simpl; auto 10|lra]).
  - intros p f abc P I C Z. apply (proj1 (tetra_solid p)) in P. exists f, abc. split; [auto|]. split; [auto|]. destruct p as [x y z]; cbn [rx ry rz] in P.
    destruct (tetra_face f abc I C) as [[-> S]|[[-> S]|[[-> S]|[-> S]]]]; rewrite S in Z; cbn [rx ry rz] in Z; unfold in_face, in_triangle, radd, rscale, rsub; cbn [rx ry rz].
    + exists (x / 4), (y / 4). split; [f_equal; lra|lra].
    + exists (x / 4), (z / 4). split; [f_equal; lra|lra].
    + exists (y / 4), (z / 4). split; [f_equal; lra|lra].
    + exists (y / 4), (z / 4). split; [f_equal; lra|lra].
  - assert (K : forall abc abc' p, ((abc = (RV 0 0 0, RV 4 0 0, RV 0 4 0) /\ (abc' = (RV 0 0 0, RV 4 0 0, RV 0 0 4) \/ abc' = (RV 0 0 0, RV 0 4 0, RV 0 0 4) \/ abc' = (RV 4 0 0, RV 0 4 0, RV 0 0 4))) \/
      (abc = (RV 0 0 0, RV 4 0 0, RV 0 0 4) /\ (abc' = (RV 0 0 0, RV 0 4 0, RV 0 0 4) \/ abc' = (RV 4 0 0, RV 0 4 0, RV 0 0 4))) \/
      (abc = (RV 0 0 0, RV 0 4 0, RV 0 0 4) /\ abc' = (RV 4 0 0, RV 0 4 0, RV 0 0 4))) -> in_face_interior abc p -> ~ in_face_interior abc' p).
    { intros abc abc' [x y z] H. unfold in_face_interior.
      destruct H as [(-> & [-> |[-> | ->]])|[(-> & [-> | ->])|(-> & ->)]]; intros (s & t & P & S1 & S2 & S3) (s' & t' & P' & S1' & S2' & S3');
        unfold radd, rscale, rsub in P, P'; cbn [rx ry rz] in P, P'; injection P; injection P'; intros; lra. }
    assert (N : forall i j k abc, face_corners tetra_vs (i, j, k) abc -> abc = (nth i tetra_vs (RV 0 0 0), nth j tetra_vs (RV 0 0 0), nth k tetra_vs (RV 0 0 0))).
    { intros i j k [[a b] c] (E & F & G). apply nth_error_nth with (d := RV 0 0 0) in E. apply nth_error_nth with (d := RV 0 0 0) in F. apply nth_error_nth with (d := RV 0 0 0) in G.
      rewrite E, F, G. reflexivity. }
    unfold tetra_fs. repeat constructor; intros abc abc' p Fa Fb; rewrite (N _ _ _ _ Fa), (N _ _ _ _ Fb); apply K; unfold tetra_vs; cbn [nth]; tauto.
  - exists 4. intros p P. apply (proj1 (tetra_solid p)) in P. split; [|split]; apply Rabs_le; lra.
Qed.

(** The vertical line at (1, 1) enters the tetrahedron at height 0 and leaves it at height 2. *)
Lemma tetra_generic h : in_general_position tetra_vs tetra_fs (RV 1 1 h) (RV 0 0 1).
Proof.
  intros f a b c p I C (k & ->) T.
  pose proof tol_pos as T0. pose proof tol_lt1 as T1. assert (TS : tol <= / 1000) by (unfold tol; apply Rinv_le_contravar; [lra|]; replace (10 ^ 12) with 1000000000000 by ring; lra).
  unfold in_triangle in T. destruct T as (s & t & P & B).
  destruct (tetra_face f (a, b, c) I C) as [[E _]|[[E _]|[[E _]|[E _]]]];
    assert (Ea := f_equal (fun q : rvec * rvec * rvec => fst (fst q)) E); assert (Eb := f_equal (fun q : rvec * rvec * rvec => snd (fst q)) E); assert (Ec := f_equal (fun q : rvec * rvec * rvec => snd q) E);
    cbn [fst snd] in Ea, Eb, Ec; subst a b c; unfold radd, rscale, rsub in P; cbn [rx ry rz] in P; injection P; intros.
  - split.
    + unfold crosses_plane. assert (EC : rcross (rsub (RV 4 0 0) (RV 0 0 0)) (rsub (RV 0 4 0) (RV 0 0 0)) = RV 0 0 16) by (unfold rcross, rsub; cbn [rx ry rz]; f_equal; ring).
      rewrite EC. assert (EN : rnorm (RV 0 0 16) = 16) by (unfold rnorm, rdot; cbn [rx ry rz]; replace (0 * 0 + 0 * 0 + 16 * 16) with (16 * 16) by ring; apply sqrt_square; lra).
      rewrite EN. split; [lra|]. unfold rdot; cbn [rx ry rz]. rewrite Rabs_pos_eq by lra. lra.
    + unfold in_face_interior. exists s, t. split; [unfold radd, rscale, rsub; cbn [rx ry rz]; f_equal; lra|lra].
  - exfalso; lra.
  - exfalso; lra.
  - split.
    + unfold crosses_plane. assert (EC : rcross (rsub (RV 0 4 0) (RV 4 0 0)) (rsub (RV 0 0 4) (RV 4 0 0)) = RV 16 16 16) by (unfold rcross, rsub; cbn [rx ry rz]; f_equal; ring).
      rewrite EC. assert (EN : 0 < rnorm (RV 16 16 16) <= 48).
      { unfold rnorm, rdot; cbn [rx ry rz]. split; [apply sqrt_lt_R0; lra|]. rewrite <- (sqrt_square 48) by lra. apply sqrt_le_1_alt; lra. }
      split; [lra|]. unfold rdot; cbn [rx ry rz]. rewrite Rabs_pos_eq by lra. nra.
    + unfold in_face_interior. exists s, t. split; [unfold radd, rscale, rsub; cbn [rx ry rz]; f_equal; lra|lra].
Qed.
Example C103_hyp_vertical : convex_surface tetra_vs tetra_fs /\ in_general_position tetra_vs tetra_fs (RV 1 1 7) (RV 0 0 1) /\
  solid tetra_vs tetra_fs (line_at (RV 1 1 7) (RV 0 0 1) (-6)).
Proof.
  split; [apply tetra_convex|]. split; [apply tetra_generic|]. apply tetra_solid. unfold line_at, radd, rscale; cbn [rx ry rz]. lra.
Qed.
(** One clear and one blocked point. *)
Example C103_hyp_point : Forall (generic_up (RV 1 1 3)) [tetra] /\ ~ inside tetra_vs tetra_fs (RV 1 1 3) /\
  Forall (generic_up (RV 1 1 1)) [tetra] /\ inside tetra_vs tetra_fs (RV 1 1 1).
Proof.
  assert (G : forall h, Forall (generic_up (RV 1 1 h)) [tetra]) by (intros h; constructor; [split; [apply tetra_convex|apply tetra_generic]|constructor]).
  split; [apply G|]. split; [intros [P _]; apply tetra_solid in P; cbn [rx ry rz] in P; lra|]. split; [apply G|].
  split; [apply tetra_solid; cbn [rx ry rz]; lra|]. intros f abc I C.
  destruct (tetra_face f abc I C) as [[_ S]|[[_ S]|[[_ S]|[_ S]]]]; rewrite S; cbn [rx ry rz]; lra.
Qed.
(** A blocked segment, from below to above. *)
Example C103_hyp_straight : RV 1 1 (-1) <> RV 1 1 4 /\ all_not_tiny (direction (RV 1 1 (-1)) (RV 1 1 4)) /\ Forall (generic_line (RV 1 1 (-1)) (RV 1 1 4)) [tetra] /\
  ~ solid tetra_vs tetra_fs (RV 1 1 (-1)) /\ ~ solid tetra_vs tetra_fs (RV 1 1 4) /\ solid tetra_vs tetra_fs (between (RV 1 1 (-1)) (RV 1 1 4) (2 / 5)).
Proof.
  assert (D : direction (RV 1 1 (-1)) (RV 1 1 4) = RV 0 0 1).
  { unfold direction, rnorm, rdot, rsub, rscale; cbn [rx ry rz]. replace ((1 - 1) * (1 - 1) + (1 - 1) * (1 - 1) + (4 - -1) * (4 - -1)) with (5 * 5) by ring. rewrite sqrt_square by lra. f_equal; field. }
  split; [intros H; injection H; lra|]. split; [rewrite D; unfold all_not_tiny, not_tiny; cbn [rx ry rz]; split; [auto|]; split; [auto|]; right; rewrite Rabs_R1; replace (10 ^ 6) with 1000000 by ring; lra|].
  split; [constructor; [split; [apply tetra_convex|cbn [fst snd]; rewrite D; apply tetra_generic]|constructor]|].
  split; [intros P; apply tetra_solid in P; cbn [rx ry rz] in P; lra|]. split; [intros P; apply tetra_solid in P; cbn [rx ry rz] in P; lra|].
  apply tetra_solid. unfold between, radd, rscale, rsub; cbn [rx ry rz]. lra.
Qed.

(** -- the plane -- *)
(** The planar point test says "clear" exactly for the points in no polygon's interior. *)
Theorem C103_planar_point_test : forall (Ps : list (list rpoint)) x y,
  (forall P, In P Ps -> convex_polygon P /\ forall v, In v P -> snd v <> y) ->
  exists b, point_clear2 XR (Some x, Some y) (map lift_poly Ps) = Ok b /\
    (b = true <-> forall P, In P Ps -> ~ strictly_inside P (x, y)).
Proof. exact planar_point_exact. Qed.
Print Assumptions C103_planar_point_test.

(** A straight planar motion that starts strictly outside and whose line meets no vertex is
    reported blocked exactly if it has a point strictly inside the polygon. *)
Theorem C103_planar_straight_motion : forall solve P (q1 q2 : rpoint) r1 r2, solve_exact solve -> convex_polygon P ->
  strictly_outside P q1 -> (forall v, In v P -> off_line q1 q2 v) ->
  exists b, seg_polygon XR solve (Some (fst q1) :: Some (snd q1) :: r1) (Some (fst q2) :: Some (snd q2) :: r2) (lift_poly P) = Ok b /\
    (b = true <-> exists p, in_open_segment q1 q2 p /\ strictly_inside P p).
Proof. exact planar_straight_exact. Qed.
Print Assumptions C103_planar_straight_motion.

Lemma square_convex : convex_polygon square.
Proof.
  split; [discriminate|]. split; [exact (proj1 square_motion)|]. exists (1, 1).
  intros a b H. destruct (square_edges a b H) as [K|[K|[K|K]]]; injection K as -> ->; unfold turn_of; cbn [fst snd]; lra.
Qed.
Example C103_hyp_planar_point : convex_polygon square /\ (forall v, In v square -> snd v <> 1) /\ strictly_inside square (1, 1) /\ ~ strictly_inside square (3, 1).
Proof.
  split; [apply square_convex|]. split; [|split].
  - intros v [<- |[<- |[<- |[<- |[]]]]]; cbn [snd]; lra.
  - intros a b H. destruct (square_edges a b H) as [K|[K|[K|K]]]; injection K as -> ->; unfold turn_of; cbn [fst snd]; lra.
  - intros H. pose proof (H (2, 0) (2, 2) ltac:(left; exists 1%nat; split; reflexivity)) as K. unfold turn_of in K. cbn [fst snd] in K. lra.
Qed.
Example C103_hyp_planar_straight : strictly_outside square (-1, 1) /\ (forall v, In v square -> off_line (-1, 1) (3, 1) v) /\
  in_open_segment (-1, 1) (3, 1) (1, 1) /\ strictly_inside square (1, 1).
Proof.
  split; [|split; [|split]].
  - exists (0, 2), (0, 0). split; [right; exists [(2, 0); (2, 2); (0, 2)]; split; reflexivity|]. unfold turn_of; cbn [fst snd]; lra.
  - intros v [<- |[<- |[<- |[<- |[]]]]]; unfold off_line, turn_of; cbn [fst snd]; lra.
  - exists (1 / 2). split; [lra|]. unfold along; cbn [fst snd]; lra.
  - intros a b H. destruct (square_edges a b H) as [K|[K|[K|K]]]; injection K as -> ->; unfold turn_of; cbn [fst snd]; lra.
Qed.
