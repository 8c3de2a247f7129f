(** What a vertical sweep line records as blocked are contact poses, up to the tolerance. *)
From Coq Require Import List Reals ZArith Arith Bool Lia Lra Psatz.
From Verif.Base Require Import Outcome.
From Verif.Model Require Import MScalar MLine3D MGeom.
From Verif.Spec Require Import SLine3D SGeom SRigid SCover SCover3.
From Verif.Proofs Require Import PLine3D PGeom PGeom2 PGeom3 PGeomX PInscribed PShape PCoverX.
Import ListNotations.
Local Open Scope R_scope.

(** ---- mixtures of contact poses ---- *)
Lemma mix_shape b a1 a2 a3 u v w : convex3 b -> 0 <= a1 -> 0 <= a2 -> 0 <= a3 -> a1 + a2 + a3 = 1 ->
  shape3 b u <= 1 -> shape3 b v <= 1 -> shape3 b w <= 1 -> shape3 b (mix3 a1 a2 a3 u v w) <= 1.
Proof.
  intros CV P1 P2 P3 S U V W. destruct (Rle_dec (shape3 b (mix3 a1 a2 a3 u v w)) 1) as [|N]; [assumption|exfalso].
  destruct (strict_mix b a1 a2 a3 u v w CV P1 P2 P3 S U V W ltac:(lra)) as (X1 & X2 & X3).
  destruct (Rlt_dec 0 a1) as [H|H]; [rewrite <- (X1 H) in N; lra|].
  destruct (Rlt_dec 0 a2) as [H'|H']; [rewrite <- (X2 H') in N; lra|]. rewrite <- (X3 ltac:(lra)) in N. lra.
Qed.
Lemma meet_mix3 O A B C q a1 a2 a3 c1 c2 c3 : convex3 O -> 0 < A -> 0 < B -> 0 < C -> unit_quat q ->
  0 <= a1 -> 0 <= a2 -> 0 <= a3 -> a1 + a2 + a3 = 1 ->
  meet3 O (ellipsoid_at A B C q c1) -> meet3 O (ellipsoid_at A B C q c2) -> meet3 O (ellipsoid_at A B C q c3) ->
  meet3 O (ellipsoid_at A B C q (mix3 a1 a2 a3 c1 c2 c3)).
Proof.
  intros CV HA HB HC U P1 P2 P3 S (u1 & (l1 & E1 & L1) & (r1 & F1 & R1)) (u2 & (l2 & E2 & L2) & (r2 & F2 & R2)) (u3 & (l3 & E3 & L3) & (r3 & F3 & R3)).
  pose proof CV as [(_ & _ & _ & _ & _ & UO) _].
  exists (placed O (mix3 a1 a2 a3 l1 l2 l3)). split.
  - eexists. split; [reflexivity|]. apply mix_shape; assumption.
  - exists (mix3 a1 a2 a3 r1 r2 r3). split.
    + rewrite <- placed_mix by assumption. rewrite <- E1, <- E2, <- E3, F1, F2, F3. unfold placed, ellipsoid_at. cbn [sctr SGeom.sq].
      rewrite !turn_rotm by exact U. unfold mix3. rewrite !app_add, !app_scale. unfold add3, scale3. cbn [x3 y3 z3]. f_equal; ring.
    + apply (mix_shape (ellipsoid_at A B C q (V3r 0 0 0))); try assumption. apply ellipsoid_convex; assumption.
Qed.
(** ---- a hit is near a point of the triangle ---- *)
Definition v3_of (p : rvec) : v3 := V3r (rx p) (ry p) (rz p).
Lemma clip s t : - tol <= s -> - tol <= t -> s <= 1 + tol -> s + t <= 1 + tol ->
  exists a1 a2 a3, 0 <= a1 /\ 0 <= a2 /\ 0 <= a3 /\ a1 + a2 + a3 = 1 /\ Rabs (s - a2) <= 2 * tol /\ Rabs (t - a3) <= 2 * tol.
Proof.
  intros H1 H2 H3 H4. pose proof tol_pos as T0. assert (T1 : tol <= 1 / 1000) by (unfold tol; cbn; lra).
  set (e := tol) in *. clearbody e. set (k := / (1 + 3 * e)). assert (K : k * (1 + 3 * e) = 1) by (unfold k; field; lra). assert (K0 : 0 < k) by (unfold k; apply Rinv_0_lt_compat; lra). clearbody k.
  assert (G : forall w, - e <= w -> w <= 1 + e + e -> Rabs (w - (w + e) * k) <= 2 * e).
  { intros w W1 W2. assert (E : w - (w + e) * k = k * (3 * e * w - e)) by (replace w with (w * (k * (1 + 3 * e))) at 1 by (rewrite K; ring); ring).
    rewrite E. rewrite Rabs_mult, (Rabs_pos_eq k) by lra. 
    assert (Q : Rabs (3 * e * w - e) <= 2 * e * (1 + 3 * e)) by (apply Rabs_le; split; nra).
    apply Rle_trans with (k * (2 * e * (1 + 3 * e))); [apply Rmult_le_compat_l; lra|]. replace (k * (2 * e * (1 + 3 * e))) with (2 * e * (k * (1 + 3 * e))) by ring. rewrite K. lra. }
  exists ((1 - s - t + e) * k), ((s + e) * k), ((t + e) * k).
  split; [apply Rmult_le_pos; lra|]. split; [apply Rmult_le_pos; lra|]. split; [apply Rmult_le_pos; lra|].
  split; [transitivity (k * (1 + 3 * e)); [ring|exact K]|]. split; apply G; lra.
Qed.
Lemma hit_near a b c p D : SLine3D.in_triangle tol a (rsub b a) (rsub c a) p ->
  near3 D (v3_of b) (v3_of a) -> near3 D (v3_of c) (v3_of a) ->
  exists a1 a2 a3, 0 <= a1 /\ 0 <= a2 /\ 0 <= a3 /\ a1 + a2 + a3 = 1 /\ near3 (4 * tol * D) (v3_of p) (mix3 a1 a2 a3 (v3_of a) (v3_of b) (v3_of c)).
Proof.
  intros (s & t & -> & S1 & T1 & S2 & T2) (B1 & B2 & B3) (C1' & C2 & C3). destruct (clip s t S1 T1 S2 T2) as (a1 & a2 & a3 & P1 & P2 & P3 & S & Q2 & Q3).
  exists a1, a2, a3. split; [exact P1|]. split; [exact P2|]. split; [exact P3|]. split; [exact S|].
  assert (G : forall xa xb xc, Rabs (xb - xa) <= D -> Rabs (xc - xa) <= D -> Rabs (xa + (s * (xb - xa) + t * (xc - xa)) - (a1 * xa + (a2 * xb + a3 * xc))) <= 4 * tol * D).
  { intros xa xb xc Hb Hc. replace a1 with (1 - a2 - a3) by lra.
    replace (xa + (s * (xb - xa) + t * (xc - xa)) - ((1 - a2 - a3) * xa + (a2 * xb + a3 * xc))) with ((s - a2) * (xb - xa) + (t - a3) * (xc - xa)) by ring.
    apply Rle_trans with (1 := Rabs_triang _ _). rewrite !Rabs_mult. pose proof (Rabs_pos (s - a2)). pose proof (Rabs_pos (t - a3)). pose proof (Rabs_pos (xb - xa)). pose proof (Rabs_pos (xc - xa)).
    assert (Rabs (s - a2) * Rabs (xb - xa) <= 2 * tol * D) by (apply Rmult_le_compat; assumption).
    assert (Rabs (t - a3) * Rabs (xc - xa) <= 2 * tol * D) by (apply Rmult_le_compat; assumption). lra. }
  unfold near3, v3_of in *. unfold mix3, radd, rscale, rsub, add3, scale3. cbn [x3 y3 z3 rx ry rz] in *.
  split; [|split]; apply G; assumption.
Qed.
(** ---- the recorded interval ---- *)
Lemma pick_in {F P} (good : F -> P -> Prop) fs ps : pick good fs ps -> forall p, In p ps -> exists f, In f fs /\ good f p.
Proof.
  induction 1 as [|f p fs ps H _ IH|f fs ps _ _ IH]; intros q Hq; [destruct Hq| |].
  - destruct Hq as [<- |Hq]; [exists f; split; [left; reflexivity|exact H]|]. destruct (IH q Hq) as (g & Hg & K). exists g. split; [right; exact Hg|exact K].
  - destruct (IH q Hq) as (g & Hg & K). exists g. split; [right; exact Hg|exact K].
Qed.
Lemma in_firstn {A} n (l : list A) x : In x (firstn n l) -> In x l.
Proof. revert l. induction n as [|n IH]; intros [|y l] H; cbn in *; try tauto. destruct H as [H|H]; [left; exact H|right; exact (IH l H)]. Qed.
Lemma vertical_hits x y vs fs r : vs <> [] -> Forall (face_ok (length vs)) fs -> vertical_line_mesh XR (vertical_at x y) (lift_mesh vs fs) = Ok r ->
  forall h, height_of h r -> exists f abc, In f fs /\ face_corners vs f abc /\ triangle_hit tol (RV x y 0) (RV 0 0 1) abc (RV x y h).
Proof.
  intros Hne F H h (p & Ip & Vp). destruct (vertical_line_mesh_XR (RV x y 0) vs fs Hne F) as (r' & E & K).
  assert (r' = r) as -> by (assert (Q : forall T (u v : T), Ok u = Ok v -> u = v) by (intros T u v Q; injection Q; auto); apply Q; rewrite <- E; exact H).
  destruct K as [[-> _]|(ps & Pk & ->)]; [destruct Ip|]. apply in_map_iff in Ip. destruct Ip as (q & <- & Iq). apply in_firstn in Iq.
  destruct (pick_in _ _ _ Pk q Iq) as (f & If & abc & Hc & _ & Ht). exists f, abc. split; [exact If|]. split; [exact Hc|].
  assert (q = RV x y h) as <-; [|exact Ht]. destruct abc as [[a b] c]. destruct Ht as (_ & (k & ->) & _).
  unfold lift3, radd, rscale in Vp |- *. cbn [rx ry rz vz] in *. injection Vp as Vp. f_equal; lra.
Qed.
Lemma near_mix e w u u' v v' : 0 <= w <= 1 -> near3 e u u' -> near3 e v v' -> near3 e (mix3 w (1 - w) 0 u v v) (mix3 w (1 - w) 0 u' v' v').
Proof.
  intros W (U1 & U2 & U3) (V1 & V2' & V3'). assert (G : forall a a' b b', Rabs (a - a') <= e -> Rabs (b - b') <= e -> Rabs (w * a + ((1 - w) * b + 0 * b) - (w * a' + ((1 - w) * b' + 0 * b'))) <= e).
  { intros a a' b b' Ha Hb. replace (w * a + ((1 - w) * b + 0 * b) - (w * a' + ((1 - w) * b' + 0 * b'))) with (w * (a - a') + (1 - w) * (b - b')) by ring.
    apply Rle_trans with (1 := Rabs_triang _ _). rewrite !Rabs_mult, (Rabs_pos_eq w), (Rabs_pos_eq (1 - w)) by lra.
    assert (w * Rabs (a - a') <= w * e) by (apply Rmult_le_compat_l; lra). assert ((1 - w) * Rabs (b - b') <= (1 - w) * e) by (apply Rmult_le_compat_l; lra). lra. }
  unfold near3, mix3, add3, scale3. cbn [x3 y3 z3]. split; [|split]; apply G; assumption.
Qed.
Lemma hits_meet3 O A B C q2 (vs : list rvec) fs x y z r h0 h1 D : convex3 O -> 0 < A -> 0 < B -> 0 < C -> unit_quat q2 -> vs <> [] -> Forall (face_ok (length vs)) fs ->
  (forall v, In v vs -> meet3 O (ellipsoid_at A B C q2 (v3_of v))) -> (forall u v, In u vs -> In v vs -> near3 D (v3_of u) (v3_of v)) ->
  vertical_line_mesh XR (vertical_at x y) (lift_mesh vs fs) = Ok r -> height_of h0 r -> height_of h1 r -> weakly_between h0 h1 z ->
  exists c, near3 (4 * tol * D) (V3r x y z) c /\ meet3 O (ellipsoid_at A B C q2 c).
Proof.
  intros CV HA HB HC U NE F PM SP H I0 I1 BT.
  assert (ON : forall h, height_of h r -> exists c, near3 (4 * tol * D) (V3r x y h) c /\ meet3 O (ellipsoid_at A B C q2 c)).
  { intros h Ih. destruct (vertical_hits x y vs fs r NE F H h Ih) as ([[i j] k] & [[a b] c] & _ & (Ea & Eb & Ec) & (_ & _ & T)).
    pose proof (nth_error_In _ _ Ea) as Ia. pose proof (nth_error_In _ _ Eb) as Ib. pose proof (nth_error_In _ _ Ec) as Ic.
    destruct (hit_near a b c (RV x y h) D T (SP b a Ib Ia) (SP c a Ic Ia)) as (a1 & a2 & a3 & P1 & P2 & P3 & S & NR).
    eexists. split; [exact NR|]. apply meet_mix3; try assumption; apply PM; assumption. }
  destruct (ON h0 I0) as (c0 & N0 & M0). destruct (ON h1 I1) as (c1' & N1 & M1).
  destruct (between_mix h0 h1 z BT) as (w & W & ->).
  exists (mix3 w (1 - w) 0 c0 c1' c1'). split.
  - replace (V3r x y (w * h0 + (1 - w) * h1)) with (mix3 w (1 - w) 0 (V3r x y h0) (V3r x y h1) (V3r x y h1)).
    + apply near_mix; assumption.
    + unfold mix3, add3, scale3. cbn [x3 y3 z3]. f_equal; ring.
  - apply meet_mix3; try assumption; lra.
Qed.
