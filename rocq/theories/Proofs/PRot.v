(** Rotation matrices, quaternions and headings. *)
From Coq Require Import List Reals ZArith Arith Bool Lia Lra Psatz.
From Verif.Base Require Import Outcome.
From Verif.Model Require Import MGeom MMultiBody.
From Verif.Spec Require Import SGeom SRigid.
From Verif.Proofs Require Import PGeom PGeom2 PGeom3.
Import ListNotations.
Local Open Scope R_scope.

(** ---- the plane ---- *)
Lemma sq_sum_cos y x : x <> 0 -> x * x + y * y = 1 -> sqrt (1 + (y / x) * (y / x)) = / Rabs x.
Proof.
  intros X H. replace (1 + y / x * (y / x)) with (/ Rabs x * / Rabs x).
  - apply sqrt_square. left. apply Rinv_0_lt_compat, Rabs_pos_lt, X.
  - rewrite <- Rinv_mult. replace (Rabs x * Rabs x) with (x * x).
    2:{ unfold Rabs. destruct (Rcase_abs x); ring. }
    replace (1 + y / x * (y / x)) with ((x * x + y * y) / (x * x)) by (field; exact X). rewrite H. field. exact X.
Qed.
Lemma atan2_cs y x : x * x + y * y = 1 -> cos (ratan2 y x) = x /\ sin (ratan2 y x) = y.
Proof.
  intros H. unfold ratan2.
  assert (CA : x <> 0 -> cos (atan (y / x)) = Rabs x /\ sin (atan (y / x)) = y / x * Rabs x).
  { intros X. rewrite cos_atan, sin_atan. unfold Rsqr. rewrite sq_sum_cos by assumption.
    pose proof (Rabs_no_R0 x X). split; field; auto. }
  destruct (Rlt_dec 0 x) as [P|P].
  { destruct (CA ltac:(lra)) as [-> ->]. rewrite Rabs_right by lra. split; [reflexivity|field; lra]. }
  destruct (Rlt_dec x 0) as [N|N].
  { destruct (CA ltac:(lra)) as [C S]. rewrite (Rabs_left x) in * by lra.
    destruct (Rle_dec 0 y).
    - rewrite neg_cos, neg_sin, C, S. split; field; lra.
    - replace (cos (atan (y / x) - PI)) with (cos (atan (y / x) + PI)).
      2:{ replace (atan (y / x) + PI) with (atan (y / x) - PI + 2 * PI) by ring. rewrite <- (cos_period (atan (y / x) - PI) 1). f_equal. cbn [INR]. ring. }
      replace (sin (atan (y / x) - PI)) with (sin (atan (y / x) + PI)).
      2:{ replace (atan (y / x) + PI) with (atan (y / x) - PI + 2 * PI) by ring. rewrite <- (sin_period (atan (y / x) - PI) 1). f_equal. cbn [INR]. ring. }
      rewrite neg_cos, neg_sin, C, S. split; field; lra. }
  assert (x = 0) by lra. subst x. assert (Y : y * y = 1) by lra.
  destruct (Rlt_dec 0 y) as [Q1|Q1].
  { rewrite cos_PI2, sin_PI2. split; [reflexivity|nra]. }
  destruct (Rlt_dec y 0) as [Q2|Q2].
  { rewrite cos_neg, sin_neg, cos_PI2, sin_PI2. split; [reflexivity|nra]. }
  assert (y = 0) by lra. subst y. lra.
Qed.
Lemma m2_eq A B : m00 A = m00 B -> m01 A = m01 B -> m10 A = m10 B -> m11 A = m11 B -> A = B.
Proof. destruct A, B. cbn. intros -> -> -> ->. reflexivity. Qed.
Lemma orth2_facts M : orthogonal2 M ->
  m00 M * m00 M + m01 M * m01 M = 1 /\ m00 M * m10 M + m01 M * m11 M = 0 /\ m10 M * m10 M + m11 M * m11 M = 1 /\
  m00 M * m00 M + m10 M * m10 M = 1 /\ m00 M * m01 M + m10 M * m11 M = 0 /\ m01 M * m01 M + m11 M * m11 M = 1.
Proof.
  intros [H1 H2]. destruct M as [a b c d]. unfold mul2, tr2, id2 in *. cbn in *. injection H1 as A1 A2 A3 A4. injection H2 as B1 B2 B3 B4.
  repeat split; lra.
Qed.
Lemma rotation2_form M : rotation2 M -> M = M2 (m00 M) (- m10 M) (m10 M) (m00 M) /\ m00 M * m00 M + m10 M * m10 M = 1.
Proof.
  intros [O D]. destruct (orth2_facts M O) as (F1 & F2 & F3 & F4 & F5 & F6). unfold determinant2 in D.
  destruct M as [a b c d]. cbn in *. split; [|exact F4].
  assert (E1 : (b + c) * (b + c) + (a - d) * (a - d) = 0) by nra.
  pose proof (Rle_0_sqr (b + c)) as S1. pose proof (Rle_0_sqr (a - d)) as S2. unfold Rsqr in *.
  assert (b + c = 0) by (apply sq0; lra). assert (a - d = 0) by (apply sq0; lra).
  f_equal; lra.
Qed.
Lemma rot2_rotation t : rotation2 (rot2 t).
Proof.
  pose proof (cs1 t) as C. split; [split; apply m2_eq|]; unfold determinant2; cbn; lra.
Qed.
Lemma heading_heads M : rotation2 M -> heads (heading M) M.
Proof. intros R. destruct (rotation2_form M R) as [_ F]. unfold heads, heading. apply atan2_cs. exact F. Qed.
Lemma rot2_heads t M : rotation2 M -> heads t M -> rot2 t = M.
Proof. intros R [C S]. destruct (rotation2_form M R) as [F _]. rewrite F. unfold rot2. rewrite C, S. reflexivity. Qed.
Lemma mul2_assoc A B C : mul2 (mul2 A B) C = mul2 A (mul2 B C).
Proof. apply m2_eq; cbn; ring. Qed.
Lemma tr_mul2 A B : tr2 (mul2 A B) = mul2 (tr2 B) (tr2 A).
Proof. apply m2_eq; cbn; ring. Qed.
Lemma mul2_1 A : mul2 A id2 = A.
Proof. apply m2_eq; cbn; ring. Qed.
Lemma mul1_2 A : mul2 id2 A = A.
Proof. apply m2_eq; cbn; ring. Qed.
Lemma rotation2_mul A B : rotation2 A -> rotation2 B -> rotation2 (mul2 A B).
Proof.
  intros [[A1 A2] A3] [[B1 B2] B3]. split; [split|].
  - rewrite tr_mul2, mul2_assoc, <- (mul2_assoc B), B1, mul1_2. exact A1.
  - rewrite tr_mul2, mul2_assoc, <- (mul2_assoc (tr2 A)), A2, mul1_2. exact B2.
  - unfold determinant2 in *. cbn. nra.
Qed.

(** ---- space ---- *)
Lemma m3_eq A B : r0 A = r0 B -> r1 A = r1 B -> r2 A = r2 B -> A = B.
Proof. destruct A, B. cbn. intros -> -> ->. reflexivity. Qed.
Lemma m3_ext A B : (forall v, app3 A v = app3 B v) -> A = B.
Proof.
  intros H. pose proof (H (V3r 1 0 0)) as H1. pose proof (H (V3r 0 1 0)) as H2. pose proof (H (V3r 0 0 1)) as H3.
  destruct A as [[a b c] [d e f] [g h i]], B as [[a' b' c'] [d' e' f'] [g' h' i']]. unfold app3, dot3 in *. cbn in *.
  injection H1 as P1 P2 P3. injection H2 as Q1 Q2 Q3. injection H3 as R1 R2 R3.
  apply m3_eq; cbn; f_equal; lra.
Qed.
Lemma mul3_assoc A B C : mul3 (mul3 A B) C = mul3 A (mul3 B C).
Proof. apply m3_ext. intros v. rewrite !app_mul3. reflexivity. Qed.
Lemma tr_mul3 A B : tr3 (mul3 A B) = mul3 (tr3 B) (tr3 A).
Proof. destruct A as [[] [] []], B as [[] [] []]. unfold mul3, tr3, app3, dot3. cbn. f_equal; f_equal; ring. Qed.
Lemma app_id v : app3 id3 v = v.
Proof. destruct v. unfold app3, id3, dot3. cbn. f_equal; ring. Qed.
Lemma mul3_1 A : mul3 A id3 = A.
Proof. apply m3_ext. intros v. rewrite app_mul3, app_id. reflexivity. Qed.
Lemma mul1_3 A : mul3 id3 A = A.
Proof. apply m3_ext. intros v. rewrite app_mul3, app_id. reflexivity. Qed.
Lemma det_mul A B : determinant3 (mul3 A B) = determinant3 A * determinant3 B.
Proof. destruct A as [[] [] []], B as [[] [] []]. unfold determinant3, mul3, tr3, app3, dot3. cbn. ring. Qed.
Lemma orth3_mul A B : orthogonal3 A -> orthogonal3 B -> orthogonal3 (mul3 A B).
Proof.
  intros [A1 A2] [B1 B2]. split.
  - rewrite tr_mul3, mul3_assoc, <- (mul3_assoc B), B1, mul1_3. exact A1.
  - rewrite tr_mul3, mul3_assoc, <- (mul3_assoc (tr3 A)), A2, mul1_3. exact B2.
Qed.
Lemma rotation3_mul A B : rotation3 A -> rotation3 B -> rotation3 (mul3 A B).
Proof. intros [A1 A2] [B1 B2]. split; [apply orth3_mul; assumption|]. rewrite det_mul, A2, B2. ring. Qed.
Lemma rotm_rotation q : unit_quat q -> rotation3 (rotm q).
Proof.
  intros U. split; [split|].
  - apply m3_ext. intros v. rewrite app_mul3, app_id. apply tr_rot. exact U.
  - apply m3_ext. intros v. rewrite app_mul3, app_id. apply rot_tr. exact U.
  - destruct q as [w x y z]. unfold unit_quat in U. cbn in U. assert (W : w * w = 1 - x * x - y * y - z * z) by lra.
    unfold determinant3, rotm. cbn. ring [W].
Qed.
(** Entries of a rotation matrix: orthonormal rows and columns, and cofactors. *)
Lemma rotation3_facts a b c d e f g h i : rotation3 (M3 (V3r a b c) (V3r d e f) (V3r g h i)) ->
  ((a*a + b*b + c*c = 1 /\ d*d + e*e + f*f = 1 /\ g*g + h*h + i*i = 1) /\
   (a*d + b*e + c*f = 0 /\ a*g + b*h + c*i = 0 /\ d*g + e*h + f*i = 0)) /\
  ((a*a + d*d + g*g = 1 /\ b*b + e*e + h*h = 1 /\ c*c + f*f + i*i = 1) /\
   (a*b + d*e + g*h = 0 /\ a*c + d*f + g*i = 0 /\ b*c + e*f + h*i = 0)) /\
  ((a = e*i - f*h /\ b = f*g - d*i /\ c = d*h - e*g) /\
   (d = h*c - i*b /\ e = i*a - g*c /\ f = g*b - h*a) /\
   (g = b*f - c*e /\ h = c*d - a*f /\ i = a*e - b*d)).
Proof.
  intros [[H1 H2] D]. unfold mul3, tr3, app3, dot3, id3 in H1, H2. cbn in H1, H2.
  injection H1 as A1 A2 A3 A4 A5 A6 A7 A8 A9. injection H2 as B1 B2 B3 B4 B5 B6 B7 B8 B9.
  unfold determinant3 in D. cbn in D.
  assert (K : forall p q r x y z u v w, p*p+q*q+r*r = 1 -> x*x+y*y+z*z = 1 -> u*u+v*v+w*w = 1 -> x*u+y*v+z*w = 0 ->
     p * (y*w - z*v) + q * (z*u - x*w) + r * (x*v - y*u) = 1 ->
     p = y*w - z*v /\ q = z*u - x*w /\ r = x*v - y*u).
  { intros p q r x y z u v w N1 N2 N3 O DD.
    assert (L : (y*w - z*v)*(y*w - z*v) + (z*u - x*w)*(z*u - x*w) + (x*v - y*u)*(x*v - y*u) = 1).
    { transitivity ((x*x+y*y+z*z)*(u*u+v*v+w*w) - (x*u+y*v+z*w)*(x*u+y*v+z*w)); [ring|]. rewrite N2, N3, O. ring. }
    pose proof (Rle_0_sqr (p - (y*w - z*v))) as S1. pose proof (Rle_0_sqr (q - (z*u - x*w))) as S2. pose proof (Rle_0_sqr (r - (x*v - y*u))) as S3.
    unfold Rsqr in *.
    assert (Z : (p - (y*w - z*v))*(p - (y*w - z*v)) + (q - (z*u - x*w))*(q - (z*u - x*w)) + (r - (x*v - y*u))*(r - (x*v - y*u)) = 0).
    { transitivity ((p*p+q*q+r*r) + ((y*w - z*v)*(y*w - z*v) + (z*u - x*w)*(z*u - x*w) + (x*v - y*u)*(x*v - y*u))
        - 2 * (p * (y*w - z*v) + q * (z*u - x*w) + r * (x*v - y*u))); [ring|]. rewrite N1, L, DD. ring. }
    assert (p - (y*w - z*v) = 0) by (apply sq0; lra). assert (q - (z*u - x*w) = 0) by (apply sq0; lra). assert (r - (x*v - y*u) = 0) by (apply sq0; lra).
    repeat split; lra. }
  split; [repeat split; lra|]. split; [repeat split; lra|].
  split; [|split].
  - apply (K a b c d e f g h i); lra.
  - apply (K d e f g h i a b c); lra.
  - apply (K g h i a b c d e f); lra.
Qed.
Lemma from_root_eq t : 0 < t -> exists s, 0 < s /\ s * s = t /\ from_root t = Some (s / 2, 1 / 2 / s).
Proof.
  intros H. exists (sqrt t). pose proof (sqrt_lt_R0 t H). split; [assumption|]. split; [apply sqrt_sqrt; lra|].
  unfold from_root. destruct (Rlt_dec 0 t); [reflexivity|lra].
Qed.
(** Eigen's conversion of a rotation matrix to a quaternion is right. *)
Lemma eq_by_mult k x y : k <> 0 -> k * x = k * y -> x = y.
Proof. intros K H. apply (Rmult_eq_reg_l k); assumption. Qed.
Lemma quat_of_rot M : rotation3 M -> exists q, quat_of M = Some q /\ unit_quat q /\ rotm q = M.
Proof.
  destruct M as [[a b c] [d e f] [g h i]]. intros R. apply rotation3_facts in R.
  destruct R as [[[N1 [N2 N3]] [O1 [O2 O3]]] [[[P1 [P2 P3]] [Q1 [Q2 Q3]]] [[C1 [C2 C3]] [[C4 [C5 C6]] [C7 [C8 C9]]]]]].
  unfold quat_of. cbn [r0 r1 r2 x3 y3 z3].
  destruct (Rlt_dec 0 (a + e + i)) as [T|T].
  { destruct (from_root_eq (a + e + i + 1) ltac:(lra)) as [s [S0 [S1 ->]]]. cbn [obnd]. eexists. split; [reflexivity|].
    assert (S2 : s * s <> 0) by nra. unfold unit_quat, rotm. cbn.
    split.
    - apply (eq_by_mult (4 * (s * s))); [lra|]. 
      transitivity ((s * s) * (s * s) + (h - f) * (h - f) + (c - g) * (c - g) + (d - b) * (d - b)); [field; lra|]. rewrite S1.
      enough ((a + e + i + 1) * (a + e + i + 1) + (h - f) * (h - f) + (c - g) * (c - g) + (d - b) * (d - b) = 4 * (a + e + i + 1)) by lra.
      lra.
    - apply m3_eq; cbn; f_equal.
      + apply (eq_by_mult (2 * (s * s))); [lra|]. transitivity (2 * (s * s) - ((c - g) * (c - g) + (d - b) * (d - b))); [field; lra|]. rewrite S1. lra.
      + apply (eq_by_mult (2 * (s * s))); [lra|]. transitivity ((h - f) * (c - g) - (s * s) * (d - b)); [field; lra|]. rewrite S1. lra.
      + apply (eq_by_mult (2 * (s * s))); [lra|]. transitivity ((h - f) * (d - b) + (s * s) * (c - g)); [field; lra|]. rewrite S1. lra.
      + apply (eq_by_mult (2 * (s * s))); [lra|]. transitivity ((h - f) * (c - g) + (s * s) * (d - b)); [field; lra|]. rewrite S1. lra.
      + apply (eq_by_mult (2 * (s * s))); [lra|]. transitivity (2 * (s * s) - ((h - f) * (h - f) + (d - b) * (d - b))); [field; lra|]. rewrite S1. lra.
      + apply (eq_by_mult (2 * (s * s))); [lra|]. transitivity ((c - g) * (d - b) - (s * s) * (h - f)); [field; lra|]. rewrite S1. lra.
      + apply (eq_by_mult (2 * (s * s))); [lra|]. transitivity ((h - f) * (d - b) - (s * s) * (c - g)); [field; lra|]. rewrite S1. lra.
      + apply (eq_by_mult (2 * (s * s))); [lra|]. transitivity ((c - g) * (d - b) + (s * s) * (h - f)); [field; lra|]. rewrite S1. lra.
      + apply (eq_by_mult (2 * (s * s))); [lra|]. transitivity (2 * (s * s) - ((h - f) * (h - f) + (c - g) * (c - g))); [field; lra|]. rewrite S1. lra. }
  destruct (Rlt_dec (if if Rlt_dec a e then true else false then e else a) i) as [B2|B2].
  { assert (L : a < i /\ e < i) by (destruct (Rlt_dec a e); lra).
    destruct (from_root_eq (i - a - e + 1) ltac:(lra)) as [s [S0 [S1 ->]]]. cbn [obnd]. eexists. split; [reflexivity|].
    assert (S2 : s * s <> 0) by nra. unfold unit_quat, rotm. cbn.
    split.
    - apply (eq_by_mult (4 * (s * s))); [lra|].
      transitivity ((s * s) * (s * s) + (d - b) * (d - b) + (c + g) * (c + g) + (f + h) * (f + h)); [field; lra|]. rewrite S1. lra.
    - apply m3_eq; cbn; f_equal.
      + apply (eq_by_mult (2 * (s * s))); [lra|]. transitivity (2 * (s * s) - ((f + h) * (f + h) + (s * s) * (s * s))); [field; lra|]. rewrite S1. lra.
      + apply (eq_by_mult (2 * (s * s))); [lra|]. transitivity ((c + g) * (f + h) - (s * s) * (d - b)); [field; lra|]. rewrite S1. lra.
      + apply (eq_by_mult (2 * (s * s))); [lra|]. transitivity ((s * s) * (c + g) + (d - b) * (f + h)); [field; lra|]. rewrite S1. lra.
      + apply (eq_by_mult (2 * (s * s))); [lra|]. transitivity ((c + g) * (f + h) + (s * s) * (d - b)); [field; lra|]. rewrite S1. lra.
      + apply (eq_by_mult (2 * (s * s))); [lra|]. transitivity (2 * (s * s) - ((c + g) * (c + g) + (s * s) * (s * s))); [field; lra|]. rewrite S1. lra.
      + apply (eq_by_mult (2 * (s * s))); [lra|]. transitivity ((s * s) * (f + h) - (d - b) * (c + g)); [field; lra|]. rewrite S1. lra.
      + apply (eq_by_mult (2 * (s * s))); [lra|]. transitivity ((s * s) * (c + g) - (d - b) * (f + h)); [field; lra|]. rewrite S1. lra.
      + apply (eq_by_mult (2 * (s * s))); [lra|]. transitivity ((s * s) * (f + h) + (d - b) * (c + g)); [field; lra|]. rewrite S1. lra.
      + apply (eq_by_mult (2 * (s * s))); [lra|]. transitivity (2 * (s * s) - ((c + g) * (c + g) + (f + h) * (f + h))); [field; lra|]. rewrite S1. lra. }
  destruct (Rlt_dec a e) as [B1|B1].
  { destruct (from_root_eq (e - i - a + 1) ltac:(lra)) as [s [S0 [S1 ->]]]. cbn [obnd]. eexists. split; [reflexivity|].
    assert (S2 : s * s <> 0) by nra. unfold unit_quat, rotm. cbn.
    split.
    - apply (eq_by_mult (4 * (s * s))); [lra|].
      transitivity ((s * s) * (s * s) + (c - g) * (c - g) + (b + d) * (b + d) + (h + f) * (h + f)); [field; lra|]. rewrite S1. lra.
    - apply m3_eq; cbn; f_equal.
      + apply (eq_by_mult (2 * (s * s))); [lra|]. transitivity (2 * (s * s) - ((s * s) * (s * s) + (h + f) * (h + f))); [field; lra|]. rewrite S1. lra.
      + apply (eq_by_mult (2 * (s * s))); [lra|]. transitivity ((s * s) * (b + d) - (h + f) * (c - g)); [field; lra|]. rewrite S1. lra.
      + apply (eq_by_mult (2 * (s * s))); [lra|]. transitivity ((b + d) * (h + f) + (s * s) * (c - g)); [field; lra|]. rewrite S1. lra.
      + apply (eq_by_mult (2 * (s * s))); [lra|]. transitivity ((s * s) * (b + d) + (h + f) * (c - g)); [field; lra|]. rewrite S1. lra.
      + apply (eq_by_mult (2 * (s * s))); [lra|]. transitivity (2 * (s * s) - ((b + d) * (b + d) + (h + f) * (h + f))); [field; lra|]. rewrite S1. lra.
      + apply (eq_by_mult (2 * (s * s))); [lra|]. transitivity ((s * s) * (h + f) - (b + d) * (c - g)); [field; lra|]. rewrite S1. lra.
      + apply (eq_by_mult (2 * (s * s))); [lra|]. transitivity ((b + d) * (h + f) - (s * s) * (c - g)); [field; lra|]. rewrite S1. lra.
      + apply (eq_by_mult (2 * (s * s))); [lra|]. transitivity ((s * s) * (h + f) + (b + d) * (c - g)); [field; lra|]. rewrite S1. lra.
      + apply (eq_by_mult (2 * (s * s))); [lra|]. transitivity (2 * (s * s) - ((b + d) * (b + d) + (s * s) * (s * s))); [field; lra|]. rewrite S1. lra. }
  { destruct (from_root_eq (a - e - i + 1) ltac:(lra)) as [s [S0 [S1 ->]]]. cbn [obnd]. eexists. split; [reflexivity|].
    assert (S2 : s * s <> 0) by nra. unfold unit_quat, rotm. cbn.
    split.
    - apply (eq_by_mult (4 * (s * s))); [lra|].
      transitivity ((s * s) * (s * s) + (h - f) * (h - f) + (d + b) * (d + b) + (g + c) * (g + c)); [field; lra|]. rewrite S1. lra.
    - apply m3_eq; cbn; f_equal.
      + apply (eq_by_mult (2 * (s * s))); [lra|]. transitivity (2 * (s * s) - ((d + b) * (d + b) + (g + c) * (g + c))); [field; lra|]. rewrite S1. lra.
      + apply (eq_by_mult (2 * (s * s))); [lra|]. transitivity ((s * s) * (d + b) - (g + c) * (h - f)); [field; lra|]. rewrite S1. lra.
      + apply (eq_by_mult (2 * (s * s))); [lra|]. transitivity ((s * s) * (g + c) + (d + b) * (h - f)); [field; lra|]. rewrite S1. lra.
      + apply (eq_by_mult (2 * (s * s))); [lra|]. transitivity ((s * s) * (d + b) + (g + c) * (h - f)); [field; lra|]. rewrite S1. lra.
      + apply (eq_by_mult (2 * (s * s))); [lra|]. transitivity (2 * (s * s) - ((s * s) * (s * s) + (g + c) * (g + c))); [field; lra|]. rewrite S1. lra.
      + apply (eq_by_mult (2 * (s * s))); [lra|]. transitivity ((d + b) * (g + c) - (s * s) * (h - f)); [field; lra|]. rewrite S1. lra.
      + apply (eq_by_mult (2 * (s * s))); [lra|]. transitivity ((s * s) * (g + c) - (d + b) * (h - f)); [field; lra|]. rewrite S1. lra.
      + apply (eq_by_mult (2 * (s * s))); [lra|]. transitivity ((d + b) * (g + c) + (s * s) * (h - f)); [field; lra|]. rewrite S1. lra.
      + apply (eq_by_mult (2 * (s * s))); [lra|]. transitivity (2 * (s * s) - ((s * s) * (s * s) + (d + b) * (d + b))); [field; lra|]. rewrite S1. lra. }
Qed.
Lemma rotm_turns q M : unit_quat q -> rotm q = M -> turns q M.
Proof. intros U <-. split; [exact U|]. intros v. apply turn_rotm. exact U. Qed.
Lemma turns_rotm q M : turns q M -> rotm q = M.
Proof. intros [U H]. apply m3_ext. intros v. rewrite <- turn_rotm by exact U. apply H. Qed.
