(** The spatial boundary samples and Minkowski samples. *)
From Coq Require Import List Reals ZArith Arith Bool Lia Lra Psatz.
From Verif.Base Require Import Outcome.
From Verif.Model Require Import MGeom.
From Verif.Spec Require Import SGeom.
From Verif.Proofs Require Import PGeom PGeom2.
Import ListNotations.
Local Open Scope outcome_scope.
Local Open Scope R_scope.

(** ---- linear algebra ---- *)
Lemma v3_eq u v : x3 u = x3 v -> y3 u = y3 v -> z3 u = z3 v -> u = v.
Proof. destruct u, v. cbn. intros -> -> ->. reflexivity. Qed.
Lemma app_mul3 A B v : app3 (mul3 A B) v = app3 A (app3 B v).
Proof. destruct A as [[] [] []], B as [[] [] []], v. unfold app3, mul3, tr3, app3, dot3. cbn. f_equal; ring. Qed.
Lemma dot_tr A u v : dot3 (app3 A u) v = dot3 u (app3 (tr3 A) v).
Proof. destruct A as [[] [] []], u, v. unfold app3, tr3, dot3. cbn. ring. Qed.
Lemma dot_comm u v : dot3 u v = dot3 v u.
Proof. unfold dot3. ring. Qed.
Lemma dot_add u v w : dot3 u (add3 v w) = dot3 u v + dot3 u w.
Proof. unfold dot3. cbn. ring. Qed.
Lemma dot_sub u v w : dot3 u (sub3 v w) = dot3 u v - dot3 u w.
Proof. unfold dot3. cbn. ring. Qed.
Lemma dot_scale u k v : dot3 u (scale3 k v) = k * dot3 u v.
Proof. unfold dot3. cbn. ring. Qed.
Lemma app_scale A k v : app3 A (scale3 k v) = scale3 k (app3 A v).
Proof. destruct A as [[] [] []], v. unfold app3, scale3, dot3. cbn. f_equal; ring. Qed.
Lemma app_add A u v : app3 A (add3 u v) = add3 (app3 A u) (app3 A v).
Proof. destruct A as [[] [] []], u, v. unfold app3, add3, dot3. cbn. f_equal; ring. Qed.
Lemma dot_ge v : 0 <= dot3 v v.
Proof. unfold dot3. pose proof (Rle_0_sqr (x3 v)). pose proof (Rle_0_sqr (y3 v)). pose proof (Rle_0_sqr (z3 v)). unfold Rsqr in *. lra. Qed.
Lemma sq0 x : x * x = 0 -> x = 0.
Proof. intros H. apply Rmult_integral in H. tauto. Qed.
Lemma dot_0 v : dot3 v v = 0 -> v = V3r 0 0 0.
Proof.
  unfold dot3. intros H. pose proof (Rle_0_sqr (x3 v)). pose proof (Rle_0_sqr (y3 v)). pose proof (Rle_0_sqr (z3 v)). unfold Rsqr in *.
  apply v3_eq; cbn; apply sq0; lra.
Qed.
Lemma dot_pos v : v <> V3r 0 0 0 -> 0 < dot3 v v.
Proof. intros H. destruct (dot_ge v) as [L|E]; [exact L|]. exfalso. apply H, dot_0. congruence. Qed.
Lemma norm_pos v : v <> V3r 0 0 0 -> 0 < norm3 v.
Proof. intros H. apply sqrt_lt_R0, dot_pos, H. Qed.
Lemma norm_sq v : norm3 v * norm3 v = dot3 v v.
Proof. apply sqrt_sqrt, dot_ge. Qed.
Lemma cauchy3 u v q : 0 <= q -> dot3 v v <= q * q -> - (norm3 u * q) <= dot3 u v.
Proof.
  intros Q H.
  assert (C : dot3 u v * dot3 u v <= dot3 u u * dot3 v v).
  { unfold dot3. pose proof (Rle_0_sqr (x3 u * y3 v - y3 u * x3 v)). pose proof (Rle_0_sqr (x3 u * z3 v - z3 u * x3 v)).
    pose proof (Rle_0_sqr (y3 u * z3 v - z3 u * y3 v)). unfold Rsqr in *. nra. }
  assert (C2 : dot3 u v * dot3 u v <= (norm3 u * q) * (norm3 u * q)).
  { replace (norm3 u * q * (norm3 u * q)) with ((norm3 u * norm3 u) * (q * q)) by ring. rewrite norm_sq.
    eapply Rle_trans; [exact C|]. apply Rmult_le_compat_l; [apply dot_ge|exact H]. }
  assert (0 <= norm3 u * q) by (apply Rmult_le_pos; [apply sqrt_pos|exact Q]).
  set (A := dot3 u v) in *. set (B := norm3 u * q) in *. nra.
Qed.
Lemma rot_tr q v : unit_quat q -> app3 (tr3 (rotm q)) (app3 (rotm q) v) = v.
Proof.
  intros U. destruct q as [w x y z], v as [a b c]. unfold unit_quat in U. cbn in U.
  assert (W : w * w = 1 - x * x - y * y - z * z) by lra.
  apply v3_eq; unfold rotm, app3, tr3, dot3; cbn; ring [W].
Qed.
Lemma tr_rot q v : unit_quat q -> app3 (rotm q) (app3 (tr3 (rotm q)) v) = v.
Proof.
  intros U. destruct q as [w x y z], v as [a b c]. unfold unit_quat in U. cbn in U.
  assert (W : w * w = 1 - x * x - y * y - z * z) by lra.
  apply v3_eq; unfold rotm, app3, tr3, dot3; cbn; ring [W].
Qed.
Lemma turn_rotm q v : unit_quat q -> turn q v = app3 (rotm q) v.
Proof.
  intros U. destruct q as [w x y z], v as [a b c]. unfold unit_quat in U. cbn in U.
  assert (W : w * w = 1 - x * x - y * y - z * z) by lra.
  apply v3_eq; unfold turn, rotm, app3, hmul, hconj, dot3; cbn; ring [W].
Qed.
Lemma tr_tr A : tr3 (tr3 A) = A.
Proof. destruct A as [[] [] []]. reflexivity. Qed.
Lemma rot_dot q u v : unit_quat q -> dot3 (app3 (rotm q) u) (app3 (rotm q) v) = dot3 u v.
Proof. intros U. rewrite dot_tr, rot_tr by exact U. reflexivity. Qed.
Lemma dot_rot q n v : dot3 n (app3 (rotm q) v) = dot3 (app3 (tr3 (rotm q)) n) v.
Proof. rewrite dot_tr, tr_tr. reflexivity. Qed.

(** ---- samples ---- *)
Definition canon3 (a b c e1 e2 : R) (eo : R * R) : v3 :=
  V3r (a * (spow (cos (fst eo)) e1 * spow (cos (snd eo)) e2))
      (b * (spow (cos (fst eo)) e1 * spow (sin (snd eo)) e2))
      (c * (spow (sin (fst eo)) e1 * 1)).
Definition sample3 (a b c e1 e2 : R) (q : quat) (ctr : v3) (eo : R * R) : v3 :=
  add3 (app3 (rotm q) (canon3 a b c e1 e2 eo)) ctr.
Lemma surf3_eq a b c e1 e2 q ctr eo : 0 < e1 -> 0 < e2 -> surf3 a b c e1 e2 q ctr eo = Some (sample3 a b c e1 e2 q ctr eo).
Proof. intros E1 E2. unfold surf3. rewrite !expfun_some by assumption. reflexivity. Qed.
Lemma add_comm3 u v : add3 u v = add3 v u.
Proof. unfold add3. f_equal; ring. Qed.
Lemma sample3_on a b c e1 e2 q ctr eo : proper3 (Body3 a b c e1 e2 ctr q) -> on3 (Body3 a b c e1 e2 ctr q) (sample3 a b c e1 e2 q ctr eo).
Proof.
  intros (A & B & C & E1 & E2 & U). cbn in *. exists (canon3 a b c e1 e2 eo). split.
  - unfold placed, sample3. cbn. rewrite turn_rotm by exact U. apply add_comm3.
  - unfold shape3, canon3. cbn [sa sb sc s1 s2 x3 y3 z3]. destruct eo as [et om]. cbn [fst snd].
    replace (a * (spow (cos et) e1 * spow (cos om) e2) / a) with (spow (cos et) e1 * spow (cos om) e2) by (field; lra).
    replace (b * (spow (cos et) e1 * spow (sin om) e2) / b) with (spow (cos et) e1 * spow (sin om) e2) by (field; lra).
    replace (c * (spow (sin et) e1 * 1) / c) with (spow (sin et) e1) by (field; lra).
    rewrite !ppow_mult, !ppow_spow. replace (e2 * (2 / e2)) with 2 by (field; lra). replace (e1 * (2 / e1)) with 2 by (field; lra).
    rewrite <- Rmult_plus_distr_l, !ppow_2, cs1, Rmult_1_r, ppow_ppow.
    replace (e1 * (2 / e2) * (e2 / e1)) with 2 by (field; lra). rewrite ppow_2. apply cs1.
Qed.
Lemma origin3_eq a b c e1 e2 p0 p1 p2 q num : 0 < e1 -> 0 < e2 ->
  origin3 (SQ [a; b; c] [e1; e2] [p0; p1; p2] q num) =
  Ok (map (fun eo => Some (sample3 a b c e1 e2 q (V3r p0 p1 p2) eo)) (params3 num)).
Proof.
  intros E1 E2. unfold origin3. cbn [sq_axes sq_eps sq_pos sq_quat sq_num at_ nth_error obind]. f_equal.
  apply map_ext. intros eo. apply surf3_eq; assumption.
Qed.

(** ---- the ellipsoid touching a point with a given normal ---- *)
Definition dia (A B C : R) (v : v3) : v3 := V3r (A * x3 v) (B * y3 v) (C * z3 v).
Lemma app_diag A B C v : app3 (diag3 A B C) v = dia A B C v.
Proof. unfold app3, diag3, dia, dot3. cbn. f_equal; ring. Qed.
(** D Q^T n. *)
Definition dq (A B C : R) (q : quat) (n : v3) : v3 := dia A B C (app3 (tr3 (rotm q)) n).
Definition off3 (A B C : R) (q : quat) (n : v3) : v3 :=
  scale3 (/ norm3 (dq A B C q n)) (app3 (rotm q) (dia A B C (dq A B C q n))).
Lemma tr_ne q n : unit_quat q -> n <> V3r 0 0 0 -> app3 (tr3 (rotm q)) n <> V3r 0 0 0.
Proof.
  intros U N E. apply N. rewrite <- (tr_rot q n U), E. unfold app3, dot3. cbn. f_equal; ring.
Qed.
Lemma rot_ne q n : unit_quat q -> n <> V3r 0 0 0 -> app3 (rotm q) n <> V3r 0 0 0.
Proof. intros U N E. apply N. rewrite <- (rot_tr q n U), E. unfold app3, dot3. cbn. f_equal; ring. Qed.
Lemma dia_ne A B C v : 0 < A -> 0 < B -> 0 < C -> v <> V3r 0 0 0 -> dia A B C v <> V3r 0 0 0.
Proof.
  intros HA HB HC N E. apply N. unfold dia in E. injection E as E1 E2 E3.
  apply v3_eq; cbn.
  - apply Rmult_integral in E1. destruct E1; [lra|assumption].
  - apply Rmult_integral in E2. destruct E2; [lra|assumption].
  - apply Rmult_integral in E3. destruct E3; [lra|assumption].
Qed.
Lemma tinv3_app A B C q v : app3 (tinv3 A B C q) v = app3 (rotm q) (dq A B C q v).
Proof. unfold tinv3. rewrite !app_mul3, app_diag. reflexivity. Qed.
Lemma dq_rot A B C q v : unit_quat q -> dq A B C q (app3 (rotm q) v) = dia A B C v.
Proof. intros U. unfold dq. rewrite rot_tr by exact U. reflexivity. Qed.
Lemma norm_rot q v : unit_quat q -> norm3 (app3 (rotm q) v) = norm3 v.
Proof. intros U. unfold norm3. rewrite rot_dot by exact U. reflexivity. Qed.
Lemma offset3_eq k A B C q2 q1 g : unit_quat q2 -> unit_quat q1 -> 0 < A -> 0 < B -> 0 < C -> g <> V3r 0 0 0 ->
  offset3 k (tinv3 A B C q2) (rotm q1) g = Some (scale3 k (off3 A B C q2 (app3 (rotm q1) g))).
Proof.
  intros U2 U1 HA HB HC G. set (n := app3 (rotm q1) g). assert (N : n <> V3r 0 0 0) by (apply rot_ne; assumption).
  assert (D : dq A B C q2 n <> V3r 0 0 0) by (apply dia_ne; try assumption; apply tr_ne; assumption).
  unfold offset3. rewrite !app_mul3. fold n. rewrite (tinv3_app A B C q2 n).
  rewrite tinv3_app, dq_rot by exact U2. rewrite norm_rot by exact U2.
  pose proof (norm_pos _ D) as P. unfold odiv. destruct (Req_EM_T (norm3 (dq A B C q2 n)) 0); [lra|]. cbn [obnd].
  f_equal. unfold off3, scale3. cbn [x3 y3 z3]. f_equal; field; lra.
Qed.
Lemma shape_ell A B C q ctr l : shape3 (ellipsoid_at A B C q ctr) l = x3 l / A * (x3 l / A) + y3 l / B * (y3 l / B) + z3 l / C * (z3 l / C).
Proof.
  unfold shape3, ellipsoid_at. cbn [sa sb sc s1 s2]. replace (2 / 1) with 2 by field. rewrite !ppow_2.
  replace (1 / 1) with 1 by field. rewrite ppow_1. rewrite Rabs_right; [reflexivity|].
  pose proof (Rle_0_sqr (x3 l / A)). pose proof (Rle_0_sqr (y3 l / B)). unfold Rsqr in *. lra.
Qed.
Lemma shape_dia A B C q ctr u : 0 < A -> 0 < B -> 0 < C -> shape3 (ellipsoid_at A B C q ctr) (dia A B C u) = dot3 u u.
Proof. intros. rewrite shape_ell. unfold dia, dot3. cbn. field. lra. Qed.
Lemma dia_surj A B C l : 0 < A -> 0 < B -> 0 < C -> exists u, l = dia A B C u.
Proof. intros. exists (V3r (x3 l / A) (y3 l / B) (z3 l / C)). destruct l. unfold dia. cbn. f_equal; field; lra. Qed.
Lemma n_off A B C q n : unit_quat q -> 0 < A -> 0 < B -> 0 < C -> n <> V3r 0 0 0 -> dot3 n (off3 A B C q n) = norm3 (dq A B C q n).
Proof.
  intros U HA HB HC N. set (m := dq A B C q n). assert (M : m <> V3r 0 0 0) by (apply dia_ne; try assumption; apply tr_ne; assumption).
  unfold off3. fold m. rewrite dot_scale, dot_rot.
  replace (dot3 (app3 (tr3 (rotm q)) n) (dia A B C m)) with (dot3 m m).
  2:{ unfold m at 1, dq, dot3, dia. cbn [x3 y3 z3]. ring. }
  rewrite <- norm_sq. pose proof (norm_pos m M). field. lra.
Qed.
Lemma touch3_on A B C q n y k : unit_quat q -> 0 < A -> 0 < B -> 0 < C -> n <> V3r 0 0 0 -> k * k = 1 ->
  on3 (ellipsoid_at A B C q (add3 y (scale3 k (off3 A B C q n)))) y.
Proof.
  intros U HA HB HC N K. set (m := dq A B C q n). assert (M : m <> V3r 0 0 0) by (apply dia_ne; try assumption; apply tr_ne; assumption).
  pose proof (norm_pos m M) as P. exists (dia A B C (scale3 (- k * / norm3 m) m)). split.
  - unfold placed, ellipsoid_at. cbn [sctr SGeom.sq]. rewrite turn_rotm by exact U.
    assert (E : app3 (rotm q) (dia A B C (scale3 (- k * / norm3 m) m)) = scale3 (- k) (off3 A B C q n)).
    { unfold off3. fold m.
      replace (dia A B C (scale3 (- k * / norm3 m) m)) with (scale3 (- k * / norm3 m) (dia A B C m)) by (unfold dia, scale3; cbn; f_equal; ring).
      rewrite app_scale. unfold scale3. cbn. f_equal; ring. }
    rewrite E. destruct y. unfold add3, scale3. cbn. f_equal; ring.
  - rewrite shape_dia by assumption. rewrite dot_scale, dot_comm, dot_scale, <- norm_sq.
    replace (- k * / norm3 m * (- k * / norm3 m * (norm3 m * norm3 m))) with (k * k) by (field; lra). exact K.
Qed.
Lemma touch3_side A B C q n y k p : unit_quat q -> 0 < A -> 0 < B -> 0 < C -> n <> V3r 0 0 0 -> k * k = 1 ->
  (in3 (ellipsoid_at A B C q (add3 y (scale3 k (off3 A B C q n)))) p -> 0 <= k * dot3 n (sub3 p y)) /\
  (inside3 (ellipsoid_at A B C q (add3 y (scale3 k (off3 A B C q n)))) p -> 0 < k * dot3 n (sub3 p y)).
Proof.
  intros U HA HB HC N K. set (m := dq A B C q n). assert (M : m <> V3r 0 0 0) by (apply dia_ne; try assumption; apply tr_ne; assumption).
  pose proof (norm_pos m M) as P.
  assert (G : forall u, k * dot3 n (sub3 (placed (ellipsoid_at A B C q (add3 y (scale3 k (off3 A B C q n)))) (dia A B C u)) y) = norm3 m + dot3 (scale3 k m) u).
  { intros u. unfold placed, ellipsoid_at. cbn [sctr SGeom.sq]. rewrite turn_rotm by exact U.
    rewrite dot_sub, !dot_add, dot_scale, n_off by assumption. fold m. rewrite dot_rot.
    replace (dot3 (app3 (tr3 (rotm q)) n) (dia A B C u)) with (dot3 m u).
    2:{ unfold m, dq, dot3, dia. cbn [x3 y3 z3]. ring. }
    rewrite (dot_comm (scale3 k m)), dot_scale, (dot_comm u).
    replace (k * (dot3 n y + k * norm3 m + dot3 m u - dot3 n y)) with ((k * k) * norm3 m + k * dot3 m u) by ring. rewrite K. ring. }
  assert (NK : norm3 (scale3 k m) = norm3 m).
  { unfold norm3. f_equal. rewrite dot_scale, dot_comm, dot_scale. rewrite <- Rmult_assoc, K. ring. }
  split; intros [l [-> L]]; destruct (dia_surj A B C l HA HB HC) as [u ->]; rewrite shape_dia in L by assumption; rewrite G.
  - pose proof (cauchy3 (scale3 k m) u 1 ltac:(lra) ltac:(lra)) as H. rewrite NK in H. lra.
  - destruct (sqrt_lt1 (dot3 u u) (conj (dot_ge u) L)) as [[S1 S2] S3].
    pose proof (cauchy3 (scale3 k m) u (sqrt (dot3 u u)) S1 ltac:(lra)) as H. rewrite NK in H.
    set (s := sqrt (dot3 u u)) in *. nra.
Qed.

(** ---- getMinkSum3D ---- *)
Definition gcanon3 (a b c e1 e2 : R) (eo : R * R) : v3 :=
  V3r (spow (cos (fst eo)) (2 - e1) * spow (cos (snd eo)) (2 - e2) / a)
      (spow (cos (fst eo)) (2 - e1) * spow (sin (snd eo)) (2 - e2) / b)
      (spow (sin (fst eo)) (2 - e1) * 1 / c).
Lemma grad3_eq a b c e1 e2 eo : 0 < a -> 0 < b -> 0 < c -> e1 < 2 -> e2 < 2 -> grad3 a b c e1 e2 eo = Some (gcanon3 a b c e1 e2 eo).
Proof.
  intros A B C E1 E2. unfold grad3. rewrite !expfun_some by lra. cbn [obnd]. unfold odiv.
  destruct (Req_EM_T a 0); [lra|]. destruct (Req_EM_T b 0); [lra|]. destruct (Req_EM_T c 0); [lra|]. reflexivity.
Qed.
Lemma gcanon3_dot a b c e1 e2 eo : 0 < a -> 0 < b -> 0 < c -> dot3 (gcanon3 a b c e1 e2 eo) (canon3 a b c e1 e2 eo) = 1.
Proof.
  intros A B C. destruct eo as [et om]. unfold gcanon3, canon3, dot3. cbn [x3 y3 z3 fst snd].
  transitivity ((spow (cos et) (2 - e1) * spow (cos et) e1) * (spow (cos om) (2 - e2) * spow (cos om) e2 + spow (sin om) (2 - e2) * spow (sin om) e2) + spow (sin et) (2 - e1) * spow (sin et) e1); [field; lra|].
  rewrite !spow_compl, cs1, Rmult_1_r. apply cs1.
Qed.
Lemma gcanon3_ne a b c e1 e2 eo : 0 < a -> 0 < b -> 0 < c -> gcanon3 a b c e1 e2 eo <> V3r 0 0 0.
Proof.
  intros A B C E. pose proof (gcanon3_dot a b c e1 e2 eo A B C) as H. rewrite E in H. unfold dot3 in H. cbn [x3 y3 z3] in H. lra.
Qed.
Lemma obstacle_side3 a b c e1 e2 ctr q eo p : convex3 (Body3 a b c e1 e2 ctr q) -> in3 (Body3 a b c e1 e2 ctr q) p ->
  dot3 (app3 (rotm q) (gcanon3 a b c e1 e2 eo)) (sub3 p (sample3 a b c e1 e2 q ctr eo)) <= 0.
Proof.
  intros [(A & B & C & E1 & E2 & U) [F1 F2]] [l [-> L]]. cbn in *.
  unfold placed, sample3. cbn [sctr SGeom.sq]. rewrite turn_rotm by exact U.
  replace (sub3 (add3 ctr (app3 (rotm q) l)) (add3 (app3 (rotm q) (canon3 a b c e1 e2 eo)) ctr))
    with (sub3 (app3 (rotm q) l) (app3 (rotm q) (canon3 a b c e1 e2 eo))) by (unfold sub3, add3; cbn; f_equal; ring).
  rewrite dot_sub, !rot_dot by exact U. rewrite gcanon3_dot by assumption.
  unfold shape3 in L. cbn [sa sb sc s1 s2] in L. destruct eo as [et om].
  pose proof (support3 (cos et) (sin et) (cos om) (sin om) e1 e2 (x3 l / a) (y3 l / b) (z3 l / c) (conj E1 F1) (conj E2 F2) (cs1 et) (cs1 om)) as S.
  set (w := ppow (ppow (x3 l / a) (2 / e2) + ppow (y3 l / b) (2 / e2)) (e2 / e1) + ppow (z3 l / c) (2 / e1)) in *.
  assert (e1 / 2 * w <= e1 / 2 * 1) by (apply Rmult_le_compat_l; lra).
  unfold gcanon3, dot3. cbn [x3 y3 z3 fst snd].
  replace (spow (cos et) (2 - e1) * spow (cos om) (2 - e2) / a * x3 l + spow (cos et) (2 - e1) * spow (sin om) (2 - e2) / b * y3 l + spow (sin et) (2 - e1) * 1 / c * z3 l)
    with (spow (cos et) (2 - e1) * spow (cos om) (2 - e2) * (x3 l / a) + spow (cos et) (2 - e1) * spow (sin om) (2 - e2) * (y3 l / b) + spow (sin et) (2 - e1) * (z3 l / c)) by (field; lra).
  lra.
Qed.
Definition msample3 (a b c e1 e2 : R) (q : quat) (ctr : v3) (A B C : R) (q2 : quat) (k : R) (eo : R * R) : v3 :=
  add3 (sample3 a b c e1 e2 q ctr eo) (scale3 k (off3 A B C q2 (app3 (rotm q) (gcanon3 a b c e1 e2 eo)))).
Lemma mink3_eq a b c e1 e2 p0 p1 p2 q num A B C pos2 q2 num2 k : convex3 (Body3 a b c e1 e2 (V3r p0 p1 p2) q) ->
  0 < A -> 0 < B -> 0 < C -> unit_quat q2 ->
  mink3 (SQ [a; b; c] [e1; e2] [p0; p1; p2] q num) (SQ [A; B; C] [1; 1] pos2 q2 num2) k =
  Ok (map (fun eo => Some (msample3 a b c e1 e2 q (V3r p0 p1 p2) A B C q2 (IZR k) eo)) (params3 num)).
Proof.
  intros [(Ha & Hb & Hc & E1 & E2 & U) [F1 F2]] HA HB HC U2. cbn in *. unfold mink3. cbn [sq_axes sq_eps sq_quat sq_num at_ nth_error obind].
  destruct (Req_EM_T 1 1) as [_|X]; [|exfalso; apply X; reflexivity]. cbn [at_ nth_error obind].
  rewrite (map_ext _ (fun eo => Some (sample3 a b c e1 e2 q (V3r p0 p1 p2) eo)) (fun eo => surf3_eq a b c e1 e2 q (V3r p0 p1 p2) eo E1 E2)). f_equal.
  rewrite combine_map, map_map. apply map_ext. intros eo. cbn [fst snd obnd].
  rewrite grad3_eq by assumption. cbn [obnd]. rewrite offset3_eq; try assumption; [reflexivity|]. apply gcanon3_ne; assumption.
Qed.
Lemma quadric_contact a b c e1 e2 ctr q A B C q2 eo : convex3 (Body3 a b c e1 e2 ctr q) -> 0 < A -> 0 < B -> 0 < C -> unit_quat q2 ->
  let y := sample3 a b c e1 e2 q ctr eo in let O := Body3 a b c e1 e2 ctr q in
  contact3 O (ellipsoid_at A B C q2 (msample3 a b c e1 e2 q ctr A B C q2 1 eo)) y /\
  ~ overlap3 O (ellipsoid_at A B C q2 (msample3 a b c e1 e2 q ctr A B C q2 1 eo)) /\
  inner_contact3 O (ellipsoid_at A B C q2 (msample3 a b c e1 e2 q ctr A B C q2 (-1) eo)) y.
Proof.
  intros CV HA HB HC U2 y O. pose proof CV as [(Ha & Hb & Hc & E1 & E2 & U) [F1 F2]]. cbn in Ha, Hb, Hc, E1, E2, U, F1, F2.
  set (n := app3 (rotm q) (gcanon3 a b c e1 e2 eo)).
  assert (N : n <> V3r 0 0 0) by (apply rot_ne; [exact U|]; apply gcanon3_ne; assumption).
  assert (OB : forall p, in3 O p -> dot3 n (sub3 p y) <= 0) by (intros p Hp; exact (obstacle_side3 a b c e1 e2 ctr q eo p CV Hp)).
  assert (ON : on3 O y) by (apply sample3_on; exact (proj1 CV)).
  split; [|split].
  - split; [exact ON|]. split; [apply (touch3_on A B C q2 n y 1); try assumption; ring|].
    exists n. split; [exact N|]. split; [exact OB|]. intros p Hp.
    destruct (touch3_side A B C q2 n y 1 p U2 HA HB HC N ltac:(ring)) as [S _]. specialize (S Hp). lra.
  - intros [p [[l [P0 P1]] P2]]. assert (P1' : in3 O p) by (exists l; split; [exact P0|lra]).
    pose proof (OB p P1') as OO. destruct (touch3_side A B C q2 n y 1 p U2 HA HB HC N ltac:(ring)) as [_ S]. specialize (S P2). lra.
  - split; [exact ON|]. split; [apply (touch3_on A B C q2 n y (-1)); try assumption; ring|].
    exists n. split; [exact N|]. split; [exact OB|]. intros p Hp.
    destruct (touch3_side A B C q2 n y (-1) p U2 HA HB HC N ltac:(ring)) as [S _]. specialize (S Hp). lra.
Qed.
Lemma linspaced_len n lo hi : length (linspaced n lo hi) = n.
Proof. unfold linspaced. destruct (Nat.eqb n 1) eqn:E; [apply Nat.eqb_eq in E; now subst|]. rewrite map_length, seq_length. reflexivity. Qed.
Lemma flat_len {A B C} (f : A -> B -> C) l m : length (flat_map (fun a => map (f a) m) l) = (length l * length m)%nat.
Proof. induction l as [|a l IH]; [reflexivity|]. cbn. rewrite app_length, map_length, IH. reflexivity. Qed.
Lemma params3_len n : length (params3 n) = (n * n)%nat.
Proof. unfold params3. rewrite (flat_len (fun eta om => (eta, om))). unfold etas, omegas. rewrite !linspaced_len. reflexivity. Qed.
