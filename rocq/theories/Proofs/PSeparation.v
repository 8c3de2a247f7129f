(** Separation of ellipses and ellipsoids. *)
From Coq Require Import List Bool Arith Lia Reals Lra Psatz Nsatz.
From Verif.Model Require Import MSeparation.
From Verif.Spec Require Import SSeparation.
Import ListNotations.
Local Open Scope R_scope.

Lemma poly3 a b x : a 2%nat 2%nat = -1 -> (forall i j, i <> j -> a i j = 0) ->
  poly (coeffs3 a b) x = - det3 (pencil x a b).
Proof.
  intros _ D. unfold poly, coeffs3. cbn [fold_left]. unfold det3, det2, pencil.
  rewrite (D 0%nat 1%nat), (D 0%nat 2%nat), (D 1%nat 0%nat), (D 1%nat 2%nat), (D 2%nat 0%nat), (D 2%nat 1%nat) by lia. ring.
Qed.
Lemma poly4 a b x : a 3%nat 3%nat = -1 -> (forall i j, i <> j -> a i j = 0) ->
  poly (coeffs4 a b) x = det4 (pencil x a b).
Proof.
  intros D4 D. unfold poly, coeffs4. cbn [fold_left]. unfold det4, det3, det2, minor, pencil. cbn [Nat.ltb Nat.leb].
  rewrite D4, (D 0%nat 1%nat), (D 0%nat 2%nat), (D 0%nat 3%nat), (D 1%nat 0%nat), (D 1%nat 2%nat), (D 1%nat 3%nat),
    (D 2%nat 0%nat), (D 2%nat 1%nat), (D 2%nat 3%nat), (D 3%nat 0%nat), (D 3%nat 1%nat), (D 3%nat 2%nat) by lia. ring.
Qed.
Lemma companion3 c0 c1 c2 c3 x : c0 <> 0 -> c0 * det3 (pencil x ident (companion [c0; c1; c2; c3])) = poly [c0; c1; c2; c3] x.
Proof. intros H. unfold det3, det2, pencil, companion, ident, poly. cbn. field. exact H. Qed.
Lemma companion4 c0 c1 c2 c3 c4 x : c0 <> 0 ->
  c0 * det4 (pencil x ident (companion [c0; c1; c2; c3; c4])) = poly [c0; c1; c2; c3; c4] x.
Proof. intros H. unfold det4, det3, det2, minor, pencil, companion, ident, poly. cbn. field. exact H. Qed.

Lemma factors_root rs r : In (r, 0) rs -> fst (factors rs r) = 0.
Proof.
  assert (G : In (r, 0) rs -> factors rs r = (0, 0)).
  { induction rs as [|z rs IH]; intros H; [destruct H|]. cbn [factors fold_right]. fold (factors rs r). destruct H as [->|H].
    - unfold cmul. cbn [fst snd]. f_equal; ring.
    - rewrite IH by exact H. unfold cmul. cbn [fst snd]. f_equal; ring. }
  intros H. rewrite G by exact H. reflexivity.
Qed.

Lemma negative_zero : negative_root (0, 0) = false.
Proof. unfold negative_root. cbn. destruct (Rlt_dec _ _); auto. destruct (Rlt_dec 0 0); auto. lra. Qed.
Lemma filter_pad n rs : filter negative_root (repeat (0, 0) n ++ rs) = filter negative_root rs.
Proof. induction n as [|n IH]; [reflexivity|]. cbn [repeat app filter]. rewrite negative_zero. exact IH. Qed.
Lemma decide_pad n rs : decide (repeat (0, 0) n ++ rs) = decide rs.
Proof. unfold decide. rewrite filter_pad. reflexivity. Qed.
Lemma negative_true r : negative_root r = true -> Rabs (snd r) < 1 / 1000000 /\ fst r < 0.
Proof. unfold negative_root. destruct (Rlt_dec _ _); [|intros H; discriminate H]. destruct (Rlt_dec _ 0); [auto|intros H; discriminate H]. Qed.
Lemma decide_true rs : decide rs = true -> exists r0 r1, In r0 rs /\ In r1 rs /\ r0 <> r1 /\
  negative_root r0 = true /\ negative_root r1 = true.
Proof.
  unfold decide. destruct (filter negative_root rs) as [|r0 [|r1 [|? ?]]] eqn:E; intros H; try discriminate H.
  assert (I0 : In r0 (filter negative_root rs)) by (rewrite E; left; auto).
  assert (I1 : In r1 (filter negative_root rs)) by (rewrite E; right; left; auto).
  apply filter_In in I0, I1. exists r0, r1. destruct I0, I1. split; [auto|]. split; [auto|]. split; [|auto].
  intros ->. destruct (Rlt_dec _ _) as [L|L]; [|discriminate H]. unfold cabs in L. cbn [fst snd] in L.
  replace (_ + _) with 0 in L by ring. rewrite sqrt_0 in L. lra.
Qed.

Lemma lin_coeff_0 c k : (forall t, 0 <= c * t + k * (t * t)) -> c = 0.
Proof.
  intros H. destruct (Req_dec c 0) as [|N]; [auto|exfalso].
  pose proof (Rabs_pos k) as K0. pose proof (Rle_abs k) as K1.
  set (e := / (2 * (Rabs k + 1))). assert (E0 : 0 < e) by (apply Rinv_0_lt_compat; lra).
  assert (E1 : e * (2 * (Rabs k + 1)) = 1) by (unfold e; field; lra).
  specialize (H (- e * c)). assert (P : 0 < c * c) by (destruct (Rdichotomy _ _ N); nra).
  assert (Q : 0 <= (e * (c * c)) * (k * e - 1)) by lra.
  assert (Z : k * e < 1) by nra. assert (0 < e * (c * c)) by (apply Rmult_lt_0_compat; lra). nra.
Qed.

(** -- planar -- *)
(** Schur complement: with P = [[p11 p12] [p12 p22]] and gradient y, detP * Q - detM
    is the adjugate form at y. *)
Lemma schur2 p11 p12 p22 q1 q2 r x y :
  (p11 * p22 - p12 * p12) * (p11 * (x * x) + 2 * (p12 * (x * y)) + p22 * (y * y) + 2 * (q1 * x) + 2 * (q2 * y) + r) -
  (p11 * (p22 * r - q2 * q2) - p12 * (p12 * r - q2 * q1) + q1 * (p12 * q2 - p22 * q1)) =
  p22 * ((p11 * x + p12 * y + q1) * (p11 * x + p12 * y + q1)) - 2 * (p12 * ((p11 * x + p12 * y + q1) * (p12 * x + p22 * y + q2))) +
  p11 * ((p12 * x + p22 * y + q2) * (p12 * x + p22 * y + q2)).
Proof. ring. Qed.

Lemma semi_def2 p11 p12 p22 q1 q2 r : (forall x y, (x <> 0 \/ y <> 0) -> 0 < p11 * (x * x) + 2 * (p12 * (x * y)) + p22 * (y * y)) ->
  p11 * (p22 * r - q2 * q2) - p12 * (p12 * r - q2 * q1) + q1 * (p12 * q2 - p22 * q1) = 0 ->
  forall x y, 0 <= p11 * (x * x) + 2 * (p12 * (x * y)) + p22 * (y * y) + 2 * (q1 * x) + 2 * (q2 * y) + r.
Proof.
  intros PD Z x y. pose proof (PD 1 0 ltac:(left; lra)) as P1. pose proof (PD (- p12) p11 ltac:(right; lra)) as P2.
  assert (D : 0 < p11 * p22 - p12 * p12) by nra.
  pose proof (schur2 p11 p12 p22 q1 q2 r x y) as S. rewrite Z in S.
  set (u := p11 * x + p12 * y + q1) in *. set (v := p12 * x + p22 * y + q2) in *.
  assert (A : 0 <= p22 * (u * u) - 2 * (p12 * (u * v)) + p11 * (v * v)).
  { destruct (Req_dec u 0) as [U|U]; [destruct (Req_dec v 0) as [V|V]; [rewrite U, V; lra|]|]; left;
      pose proof (PD (- v) u) as Q; (assert (0 < p11 * (- v * - v) + 2 * (p12 * (- v * u)) + p22 * (u * u)) by (apply Q; lra)); lra. }
  set (Q := p11 * (x * x) + 2 * (p12 * (x * y)) + p22 * (y * y) + 2 * (q1 * x) + 2 * (q2 * y) + r) in *.
  apply Rnot_lt_le. intros N. assert ((p11 * p22 - p12 * p12) * Q < 0) by nra. lra.
Qed.


(** Two distinct singular members of the pencil forbid a common point. *)
Definition detM2 p11 p12 p22 q1 q2 r : R := p11 * (p22 * r - q2 * q2) - p12 * (p12 * r - q2 * q1) + q1 * (p12 * q2 - p22 * q1).
Lemma no_common2 a1 a2 b11 b12 b22 b13 b23 b33 mu1 mu2 : 0 < a1 -> 0 < a2 ->
  (forall x y, 0 <= b11 * (x * x) + 2 * (b12 * (x * y)) + b22 * (y * y)) ->
  0 < mu1 -> 0 < mu2 -> mu1 <> mu2 ->
  detM2 (mu1 * a1 + b11) b12 (mu1 * a2 + b22) b13 b23 (b33 - mu1) = 0 ->
  detM2 (mu2 * a1 + b11) b12 (mu2 * a2 + b22) b13 b23 (b33 - mu2) = 0 ->
  forall x y, a1 * (x * x) + a2 * (y * y) <= 1 ->
    b11 * (x * x) + 2 * (b12 * (x * y)) + b22 * (y * y) + 2 * (b13 * x) + 2 * (b23 * y) + b33 <= 0 -> False.
Proof.
  intros A1 A2 PS M1 M2 NE Z1 Z2 x y Ha Hb.
  assert (PD : forall mu, 0 < mu -> forall x y, (x <> 0 \/ y <> 0) -> 0 < (mu * a1 + b11) * (x * x) + 2 * (b12 * (x * y)) + (mu * a2 + b22) * (y * y)).
  { intros mu Hm u v N. pose proof (PS u v) as Q. assert (0 < mu * (a1 * (u * u) + a2 * (v * v))); [|lra].
    apply Rmult_lt_0_compat; [exact Hm|]. destruct N as [N|N]; [assert (0 < u * u) by (destruct (Rdichotomy _ _ N); nra)|assert (0 < v * v) by (destruct (Rdichotomy _ _ N); nra)]; nra. }
  pose proof (semi_def2 _ _ _ _ _ _ (PD mu1 M1) Z1) as S1. pose proof (semi_def2 _ _ _ _ _ _ (PD mu2 M2) Z2) as S2. clear PD Z1 Z2 PS.
  pose proof (S1 x y) as T1. pose proof (S2 x y) as T2.
  set (al := a1 * (x * x) + a2 * (y * y)) in *.
  set (be := b11 * (x * x) + 2 * (b12 * (x * y)) + b22 * (y * y) + 2 * (b13 * x) + 2 * (b23 * y) + b33) in *.
  assert (E1 : 0 <= mu1 * (al - 1) + be) by (unfold al, be; lra). assert (E2 : 0 <= mu2 * (al - 1) + be) by (unfold al, be; lra).
  assert (W : al = 1) by nra. assert (Be : be = 0) by (rewrite W in *; lra).
  set (s := 2 * (b11 * (x * x) + 2 * (b12 * (x * y)) + b22 * (y * y)) + 2 * (b13 * x) + 2 * (b23 * y)).
  set (k := b11 * (x * x) + 2 * (b12 * (x * y)) + b22 * (y * y)).
  assert (L1 : 2 * mu1 + s = 0).
  { apply (lin_coeff_0 _ (mu1 + k)). intros t. pose proof (S1 ((1 + t) * x) ((1 + t) * y)) as Q.
    replace ((2 * mu1 + s) * t + (mu1 + k) * (t * t)) with
      ((mu1 * (al - 1) + be) + (2 * (mu1 * al) + s) * t + (mu1 * al + k) * (t * t)) by (rewrite W, Be; ring).
    unfold s, k, al, be in *. lra. }
  assert (L2 : 2 * mu2 + s = 0).
  { apply (lin_coeff_0 _ (mu2 + k)). intros t. pose proof (S2 ((1 + t) * x) ((1 + t) * y)) as Q.
    replace ((2 * mu2 + s) * t + (mu2 + k) * (t * t)) with
      ((mu2 * (al - 1) + be) + (2 * (mu2 * al) + s) * t + (mu2 * al + k) * (t * t)) by (rewrite W, Be; ring).
    unfold s, k, al, be in *. lra. }
  apply NE. lra.
Qed.

(** -- spatial -- *)
Lemma semi_def3 p11 p12 p13 p22 p23 p33 q1 q2 q3 r :
  (forall x y z, (x <> 0 \/ y <> 0 \/ z <> 0) -> 0 < p11 * (x * x) + p22 * (y * y) + p33 * (z * z) + 2 * (p12 * (x * y)) + 2 * (p13 * (x * z)) + 2 * (p23 * (y * z))) ->
  det4 (fun i j => match i, j with
        | 0, 0 => p11 | 0, 1 => p12 | 0, 2 => p13 | 0, 3 => q1
        | 1, 0 => p12 | 1, 1 => p22 | 1, 2 => p23 | 1, 3 => q2
        | 2, 0 => p13 | 2, 1 => p23 | 2, 2 => p33 | 2, 3 => q3
        | 3, 0 => q1 | 3, 1 => q2 | 3, 2 => q3 | _, _ => r end%nat) = 0 ->
  forall x y z, 0 <= p11 * (x * x) + p22 * (y * y) + p33 * (z * z) + 2 * (p12 * (x * y)) + 2 * (p13 * (x * z)) + 2 * (p23 * (y * z)) +
    2 * (q1 * x) + 2 * (q2 * y) + 2 * (q3 * z) + r.
Proof.
  intros PD Z x y z.
  set (A11 := p22 * p33 - p23 * p23). set (A12 := p13 * p23 - p12 * p33). set (A13 := p12 * p23 - p13 * p22).
  set (A22 := p11 * p33 - p13 * p13). set (A23 := p12 * p13 - p11 * p23). set (A33 := p11 * p22 - p12 * p12).
  set (dP := p11 * A11 + p12 * A12 + p13 * A13).
  assert (P1 : 0 < p11) by (pose proof (PD 1 0 0 ltac:(left; lra)); lra).
  assert (P2 : 0 < A33).
  { pose proof (PD (- p12) p11 0 ltac:(right; left; lra)) as Q. unfold A33. replace (_ + _) with (p11 * (p11 * p22 - p12 * p12)) in Q by ring. nra. }
  assert (P3 : 0 < dP).
  { assert (N : A13 <> 0 \/ A23 <> 0 \/ A33 <> 0) by (right; right; lra). pose proof (PD A13 A23 A33 N) as Q.
    assert (Q' : 0 < dP * A33) by (unfold dP, A11, A12, A13, A23, A33 in *; nra || (replace (dP * A33) with
      (p11 * (A13 * A13) + p22 * (A23 * A23) + p33 * (A33 * A33) + 2 * (p12 * (A13 * A23)) + 2 * (p13 * (A13 * A33)) + 2 * (p23 * (A23 * A33))) by (unfold dP, A11, A12, A13, A23, A33; ring); exact Q)).
    nra. }
  set (u := p11 * x + p12 * y + p13 * z + q1). set (v := p12 * x + p22 * y + p23 * z + q2). set (w := p13 * x + p23 * y + p33 * z + q3).
  set (Q := p11 * (x * x) + p22 * (y * y) + p33 * (z * z) + 2 * (p12 * (x * y)) + 2 * (p13 * (x * z)) + 2 * (p23 * (y * z)) +
    2 * (q1 * x) + 2 * (q2 * y) + 2 * (q3 * z) + r).
  set (F := A11 * (u * u) + A22 * (v * v) + A33 * (w * w) + 2 * (A12 * (u * v)) + 2 * (A13 * (u * w)) + 2 * (A23 * (v * w))).
  assert (S : dP * Q = F).
  { rewrite <- (Rplus_0_r F), <- Z. unfold F, dP, Q, det4, det3, det2, minor. cbn [Nat.ltb Nat.leb]. unfold u, v, w, A11, A12, A13, A22, A23, A33. ring. }
  assert (FP : 0 <= F).
  { set (x1 := A11 * u + A12 * v + A13 * w). set (y1 := A12 * u + A22 * v + A23 * w). set (z1 := A13 * u + A23 * v + A33 * w).
    assert (G : dP * F = p11 * (x1 * x1) + p22 * (y1 * y1) + p33 * (z1 * z1) + 2 * (p12 * (x1 * y1)) + 2 * (p13 * (x1 * z1)) + 2 * (p23 * (y1 * z1)))
      by (unfold F, x1, y1, z1, dP, A11, A12, A13, A22, A23, A33; ring).
    assert (G0 : 0 <= dP * F).
    { rewrite G. destruct (Req_dec x1 0) as [X|X]; [destruct (Req_dec y1 0) as [Y|Y]; [destruct (Req_dec z1 0) as [W|W]; [rewrite X, Y, W; lra|]|]|]; left; apply PD; auto. }
    apply Rnot_lt_le. intros N. nra. }
  apply Rnot_lt_le. intros N. change (Q < 0) in N. nra.
Qed.
Definition sym4 (p11 p12 p13 p22 p23 p33 q1 q2 q3 r : R) : mat := fun i j => match i, j with
        | 0, 0 => p11 | 0, 1 => p12 | 0, 2 => p13 | 0, 3 => q1
        | 1, 0 => p12 | 1, 1 => p22 | 1, 2 => p23 | 1, 3 => q2
        | 2, 0 => p13 | 2, 1 => p23 | 2, 2 => p33 | 2, 3 => q3
        | 3, 0 => q1 | 3, 1 => q2 | 3, 2 => q3 | _, _ => r end%nat.
Lemma no_common3 a1 a2 a3 b11 b12 b13 b22 b23 b33 c1 c2 c3 b44 mu1 mu2 : 0 < a1 -> 0 < a2 -> 0 < a3 ->
  (forall x y z, 0 <= b11 * (x * x) + b22 * (y * y) + b33 * (z * z) + 2 * (b12 * (x * y)) + 2 * (b13 * (x * z)) + 2 * (b23 * (y * z))) ->
  0 < mu1 -> 0 < mu2 -> mu1 <> mu2 ->
  det4 (sym4 (mu1 * a1 + b11) b12 b13 (mu1 * a2 + b22) b23 (mu1 * a3 + b33) c1 c2 c3 (b44 - mu1)) = 0 ->
  det4 (sym4 (mu2 * a1 + b11) b12 b13 (mu2 * a2 + b22) b23 (mu2 * a3 + b33) c1 c2 c3 (b44 - mu2)) = 0 ->
  forall x y z, a1 * (x * x) + a2 * (y * y) + a3 * (z * z) <= 1 ->
    b11 * (x * x) + b22 * (y * y) + b33 * (z * z) + 2 * (b12 * (x * y)) + 2 * (b13 * (x * z)) + 2 * (b23 * (y * z)) +
      2 * (c1 * x) + 2 * (c2 * y) + 2 * (c3 * z) + b44 <= 0 -> False.
Proof.
  intros A1 A2 A3 PS M1 M2 NE Z1 Z2 x y z Ha Hb.
  assert (PD : forall mu, 0 < mu -> forall x y z, (x <> 0 \/ y <> 0 \/ z <> 0) ->
    0 < (mu * a1 + b11) * (x * x) + (mu * a2 + b22) * (y * y) + (mu * a3 + b33) * (z * z) + 2 * (b12 * (x * y)) + 2 * (b13 * (x * z)) + 2 * (b23 * (y * z))).
  { intros mu Hm u v w N. pose proof (PS u v w) as Q. assert (0 < mu * (a1 * (u * u) + a2 * (v * v) + a3 * (w * w))); [|lra].
    apply Rmult_lt_0_compat; [exact Hm|]. assert (0 <= u * u) by nra. assert (0 <= v * v) by nra. assert (0 <= w * w) by nra.
    assert (0 <= a1 * (u * u)) by (apply Rmult_le_pos; lra). assert (0 <= a2 * (v * v)) by (apply Rmult_le_pos; lra). assert (0 <= a3 * (w * w)) by (apply Rmult_le_pos; lra).
    assert (SQ : forall t, t <> 0 -> 0 < t * t) by (intros t Nt; destruct (Rdichotomy _ _ Nt); nra).
    destruct N as [N|[N|N]]; apply SQ in N; [assert (0 < a1 * (u * u)) by (apply Rmult_lt_0_compat; lra)|assert (0 < a2 * (v * v)) by (apply Rmult_lt_0_compat; lra)|assert (0 < a3 * (w * w)) by (apply Rmult_lt_0_compat; lra)]; lra. }
  pose proof (semi_def3 _ _ _ _ _ _ _ _ _ _ (PD mu1 M1) Z1) as S1. pose proof (semi_def3 _ _ _ _ _ _ _ _ _ _ (PD mu2 M2) Z2) as S2. clear PD Z1 Z2 PS.
  pose proof (S1 x y z) as T1. pose proof (S2 x y z) as T2.
  set (al := a1 * (x * x) + a2 * (y * y) + a3 * (z * z)) in *.
  set (k := b11 * (x * x) + b22 * (y * y) + b33 * (z * z) + 2 * (b12 * (x * y)) + 2 * (b13 * (x * z)) + 2 * (b23 * (y * z))) in *.
  set (be := k + 2 * (c1 * x) + 2 * (c2 * y) + 2 * (c3 * z) + b44) in *.
  assert (E1 : 0 <= mu1 * (al - 1) + be) by (unfold al, be, k; lra). assert (E2 : 0 <= mu2 * (al - 1) + be) by (unfold al, be, k; lra).
  assert (W : al = 1) by nra. assert (Be : be = 0) by (rewrite W in *; lra).
  set (s := 2 * k + 2 * (c1 * x) + 2 * (c2 * y) + 2 * (c3 * z)).
  assert (L1 : 2 * mu1 + s = 0).
  { apply (lin_coeff_0 _ (mu1 + k)). intros t. pose proof (S1 ((1 + t) * x) ((1 + t) * y) ((1 + t) * z)) as Q.
    replace ((2 * mu1 + s) * t + (mu1 + k) * (t * t)) with
      ((mu1 * (al - 1) + be) + (2 * (mu1 * al) + s) * t + (mu1 * al + k) * (t * t)) by (rewrite W, Be; ring).
    unfold s, be, k, al in *. lra. }
  assert (L2 : 2 * mu2 + s = 0).
  { apply (lin_coeff_0 _ (mu2 + k)). intros t. pose proof (S2 ((1 + t) * x) ((1 + t) * y) ((1 + t) * z)) as Q.
    replace ((2 * mu2 + s) * t + (mu2 + k) * (t * t)) with
      ((mu2 * (al - 1) + be) + (2 * (mu2 * al) + s) * t + (mu2 * al + k) * (t * t)) by (rewrite W, Be; ring).
    unfold s, be, k, al in *. lra. }
  apply NE. lra.
Qed.

(** -- from the code's matrices to the pencil -- *)
Lemma diag3_off e i j : i <> j -> diag3 e i j = 0.
Proof. intros H. destruct i as [|[|[|i]]], j as [|[|[|j]]]; try reflexivity; congruence. Qed.
Lemma diag4_off e i j : i <> j -> diag4 e i j = 0.
Proof. intros H. destruct i as [|[|[|[|i]]]], j as [|[|[|[|j]]]]; try reflexivity; congruence. Qed.

Lemma pull3_sym ea eb i j : pull3 ea eb i j = pull3 ea eb j i.
Proof. unfold pull3, mul3, tr, diag3. ring. Qed.
Lemma pull4_sym ea eb i j : pull4 ea eb i j = pull4 ea eb j i.
Proof. unfold pull4. generalize (mul4 (trans4_inv eb) (trans4 ea)). intros m. unfold mul4, tr, diag4. ring. Qed.
Lemma pull3_form ea eb x y z : let m := mul3 (trans3_inv eb) (trans3 ea) in let b := pull3 ea eb in
  let X := m 0%nat 0%nat * x + m 0%nat 1%nat * y + m 0%nat 2%nat * z in
  let Y := m 1%nat 0%nat * x + m 1%nat 1%nat * y + m 1%nat 2%nat * z in
  let Z := m 2%nat 0%nat * x + m 2%nat 1%nat * y + m 2%nat 2%nat * z in
  b 0%nat 0%nat * (x * x) + 2 * (b 0%nat 1%nat * (x * y)) + b 1%nat 1%nat * (y * y) + 2 * (b 0%nat 2%nat * (x * z)) + 2 * (b 1%nat 2%nat * (y * z)) + b 2%nat 2%nat * (z * z) =
  / (e_a eb * e_a eb) * (X * X) + / (e_b eb * e_b eb) * (Y * Y) - Z * Z.
Proof. cbv zeta. unfold pull3. generalize (mul3 (trans3_inv eb) (trans3 ea)). intros m. unfold mul3, tr, diag3. ring. Qed.
Lemma pull4_form ea eb x y z t : let m := mul4 (trans4_inv eb) (trans4 ea) in let b := pull4 ea eb in
  let X i := m i 0%nat * x + m i 1%nat * y + m i 2%nat * z + m i 3%nat * t in
  b 0%nat 0%nat * (x * x) + b 1%nat 1%nat * (y * y) + b 2%nat 2%nat * (z * z) + 2 * (b 0%nat 1%nat * (x * y)) + 2 * (b 0%nat 2%nat * (x * z)) + 2 * (b 1%nat 2%nat * (y * z)) +
  2 * (b 0%nat 3%nat * (x * t)) + 2 * (b 1%nat 3%nat * (y * t)) + 2 * (b 2%nat 3%nat * (z * t)) + b 3%nat 3%nat * (t * t) =
  / (d_a eb * d_a eb) * (X 0%nat * X 0%nat) + / (d_b eb * d_b eb) * (X 1%nat * X 1%nat) + / (d_c eb * d_c eb) * (X 2%nat * X 2%nat) - X 3%nat * X 3%nat.
Proof. cbv zeta. unfold pull4. generalize (mul4 (trans4_inv eb) (trans4 ea)). intros m. unfold mul4, tr, diag4. ring. Qed.

(** -- Soundness -- *)
Lemma pull3_last ea eb : let m := mul3 (trans3_inv eb) (trans3 ea) in m 2%nat 0%nat = 0 /\ m 2%nat 1%nat = 0 /\ m 2%nat 2%nat = 1.
Proof. cbv zeta. unfold mul3, trans3_inv, trans3. repeat split; ring. Qed.
Lemma pull4_last ea eb : let m := mul4 (trans4_inv eb) (trans4 ea) in
  m 3%nat 0%nat = 0 /\ m 3%nat 1%nat = 0 /\ m 3%nat 2%nat = 0 /\ m 3%nat 3%nat = 1.
Proof. cbv zeta. unfold mul4, trans4_inv, trans4. repeat split; ring. Qed.

Lemma body3_change ea eb px py : let m := mul3 (trans3_inv eb) (trans3 ea) in
  let u := cos (e_th ea) * (px - e_x ea) + sin (e_th ea) * (py - e_y ea) in
  let v := - sin (e_th ea) * (px - e_x ea) + cos (e_th ea) * (py - e_y ea) in
  m 0%nat 0%nat * u + m 0%nat 1%nat * v + m 0%nat 2%nat = cos (e_th eb) * (px - e_x eb) + sin (e_th eb) * (py - e_y eb) /\
  m 1%nat 0%nat * u + m 1%nat 1%nat * v + m 1%nat 2%nat = - sin (e_th eb) * (px - e_x eb) + cos (e_th eb) * (py - e_y eb).
Proof.
  cbv zeta. unfold mul3, trans3_inv, trans3.
  pose proof (sin2_cos2 (e_th ea)) as S. unfold Rsqr in S.
  set (c := cos (e_th ea)) in *. set (s := sin (e_th ea)) in *. set (cb := cos (e_th eb)). set (sb := sin (e_th eb)).
  set (dx := px - e_x ea). set (dy := py - e_y ea).
  assert (X : c * (c * dx + s * dy) - s * (- s * dx + c * dy) = dx) by (transitivity ((s * s + c * c) * dx); [ring|rewrite S; ring]).
  assert (Y : s * (c * dx + s * dy) + c * (- s * dx + c * dy) = dy) by (transitivity ((s * s + c * c) * dy); [ring|rewrite S; ring]).
  split.
  - transitivity (cb * (c * (c * dx + s * dy) - s * (- s * dx + c * dy)) + sb * (s * (c * dx + s * dy) + c * (- s * dx + c * dy)) +
      cb * (e_x ea - e_x eb) + sb * (e_y ea - e_y eb)); [ring|]. rewrite X, Y. unfold dx, dy. ring.
  - transitivity (- sb * (c * (c * dx + s * dy) - s * (- s * dx + c * dy)) + cb * (s * (c * dx + s * dy) + c * (- s * dx + c * dy)) -
      sb * (e_x ea - e_x eb) + cb * (e_y ea - e_y eb)); [ring|]. rewrite X, Y. unfold dx, dy. ring.
Qed.

Lemma sq_div u a : 0 < a -> (u / a) * (u / a) = / (a * a) * (u * u).
Proof. intros H. field. lra. Qed.

Definition real_root (r : cplx) : Prop := snd r = 0.

Lemma sound3 ea eb rs px py : proper_ellipse ea -> proper_ellipse eb ->
  spectrum3 (companion (coeffs3 (diag3 ea) (pull3 ea eb))) rs ->
  (forall r, In r rs -> negative_root r = true -> snd r = 0) ->
  decide rs = true -> in_ellipse ea px py -> in_ellipse eb px py -> False.
Proof.
  intros [A1 A2] [B1 B2] [_ SP] RE D IA IB.
  destruct (decide_true _ D) as (r0 & r1 & I0 & I1 & NE & N0 & N1).
  pose proof (RE _ I0 N0) as S0. pose proof (RE _ I1 N1) as S1.
  destruct r0 as [l0 i0], r1 as [l1 i1]. cbn [snd] in S0, S1. subst i0 i1.
  apply negative_true in N0, N1. cbn [fst snd] in N0, N1. destruct N0 as [_ N0], N1 as [_ N1].
  assert (NL : l0 <> l1) by (intros ->; apply NE; reflexivity). clear NE.
  assert (Q1 : 0 < / (e_a ea * e_a ea)) by (apply Rinv_0_lt_compat; nra).
  assert (Q2 : 0 < / (e_b ea * e_b ea)) by (apply Rinv_0_lt_compat; nra).
  assert (W1 : 0 < / (e_a eb * e_a eb)) by (apply Rinv_0_lt_compat; nra).
  assert (W2 : 0 < / (e_b eb * e_b eb)) by (apply Rinv_0_lt_compat; nra).
  assert (Z : forall l, In (l, 0) rs -> det3 (pencil l (diag3 ea) (pull3 ea eb)) = 0).
  { intros l I. apply factors_root in I. rewrite SP in I. cbn [fst] in I.
    assert (C0 : - diag3 ea 0%nat 0%nat * diag3 ea 1%nat 1%nat * diag3 ea 2%nat 2%nat <> 0).
    { cbn [diag3]. assert (0 < / (e_a ea * e_a ea) * / (e_b ea * e_b ea)) by (apply Rmult_lt_0_compat; auto). lra. }
    pose proof (poly3 (diag3 ea) (pull3 ea eb) l eq_refl (diag3_off ea)) as P.
    unfold coeffs3 in I, P. rewrite <- (companion3 _ _ _ _ l C0), I in P. lra. }
  pose proof (Z _ I0) as Z0. pose proof (Z _ I1) as Z1. clear Z SP RE D I0 I1.
  set (u := cos (e_th ea) * (px - e_x ea) + sin (e_th ea) * (py - e_y ea)).
  set (v := - sin (e_th ea) * (px - e_x ea) + cos (e_th ea) * (py - e_y ea)).
  unfold in_ellipse in IA, IB. fold u v in IA. rewrite !sq_div in IA, IB by auto.
  pose proof (pull3_sym ea eb) as SY.
  pose proof (fun x y z => pull3_form ea eb x y z) as FO. cbv zeta in FO.
  pose proof (pull3_last ea eb) as LA. cbv zeta in LA. destruct LA as (L0 & L1 & L2).
  pose proof (body3_change ea eb px py) as BC. cbv zeta in BC. fold u v in BC. destruct BC as [BX BY].
  set (m := mul3 (trans3_inv eb) (trans3 ea)) in *. clearbody m. set (b := pull3 ea eb) in *. clearbody b.
  apply (no_common2 (/ (e_a ea * e_a ea)) (/ (e_b ea * e_b ea)) (b 0%nat 0%nat) (b 0%nat 1%nat) (b 1%nat 1%nat)
    (b 0%nat 2%nat) (b 1%nat 2%nat) (b 2%nat 2%nat) (- l0) (- l1)) with (x := u) (y := v); auto; try lra.
  - intros x y. specialize (FO x y 0). rewrite L0, L1 in FO.
    assert (0 <= / (e_a eb * e_a eb) * ((m 0%nat 0%nat * x + m 0%nat 1%nat * y + m 0%nat 2%nat * 0) * (m 0%nat 0%nat * x + m 0%nat 1%nat * y + m 0%nat 2%nat * 0))) by (apply Rmult_le_pos; [lra|apply Rle_0_sqr]).
    assert (0 <= / (e_b eb * e_b eb) * ((m 1%nat 0%nat * x + m 1%nat 1%nat * y + m 1%nat 2%nat * 0) * (m 1%nat 0%nat * x + m 1%nat 1%nat * y + m 1%nat 2%nat * 0))) by (apply Rmult_le_pos; [lra|apply Rle_0_sqr]).
    lra.
  - revert Z0. unfold det3, det2, pencil, detM2. rewrite (SY 1%nat 0%nat), (SY 2%nat 0%nat), (SY 2%nat 1%nat). cbn [diag3]. intros Z0.
    match type of Z0 with ?t = 0 => transitivity (- t); [ring|rewrite Z0; ring] end.
  - revert Z1. unfold det3, det2, pencil, detM2. rewrite (SY 1%nat 0%nat), (SY 2%nat 0%nat), (SY 2%nat 1%nat). cbn [diag3]. intros Z1.
    match type of Z1 with ?t = 0 => transitivity (- t); [ring|rewrite Z1; ring] end.
  - specialize (FO u v 1). rewrite L0, L1, L2 in FO. rewrite !Rmult_1_r in FO. rewrite BX, BY in FO. lra.
Qed.

Lemma rot_orth w x y z : w * w + x * x + y * y + z * z = 1 -> forall i j, (i < 3)%nat -> (j < 3)%nat ->
  rotq w x y z i 0%nat * rotq w x y z j 0%nat + rotq w x y z i 1%nat * rotq w x y z j 1%nat + rotq w x y z i 2%nat * rotq w x y z j 2%nat = ident i j.
Proof.
  intros H i j Hi Hj. assert (E : w * w = 1 - x * x - y * y - z * z) by lra.
  destruct i as [|[|[|i]]]; [| | |lia]; (destruct j as [|[|[|j]]]; [| | |lia]); unfold rotq, ident; cbn [Nat.eqb]; ring [E].
Qed.
Lemma body4_change ea eb px py pz i : proper_ellipsoid ea -> (i < 3)%nat -> let m := mul4 (trans4_inv eb) (trans4 ea) in
  m i 0%nat * body ea px py pz 0%nat + m i 1%nat * body ea px py pz 1%nat + m i 2%nat * body ea px py pz 2%nat + m i 3%nat =
  body eb px py pz i.
Proof.
  intros (_ & _ & _ & U) Hi. cbv zeta.
  pose proof (rot_orth _ _ _ _ U) as O. fold (rot_of ea) in O.
  pose proof (O 0%nat 0%nat ltac:(lia) ltac:(lia)) as O00. pose proof (O 0%nat 1%nat ltac:(lia) ltac:(lia)) as O01.
  pose proof (O 0%nat 2%nat ltac:(lia) ltac:(lia)) as O02. pose proof (O 1%nat 1%nat ltac:(lia) ltac:(lia)) as O11.
  pose proof (O 1%nat 2%nat ltac:(lia) ltac:(lia)) as O12. pose proof (O 2%nat 2%nat ltac:(lia) ltac:(lia)) as O22. clear O.
  unfold ident in *. cbn [Nat.eqb] in *.
  assert (X : forall j, (j < 3)%nat -> rot_of ea j 0%nat * body ea px py pz 0%nat + rot_of ea j 1%nat * body ea px py pz 1%nat + rot_of ea j 2%nat * body ea px py pz 2%nat =
    match j with 0 => (px - d_x ea)%R | 1 => (py - d_y ea)%R | _ => (pz - d_z ea)%R end%nat).
  { intros j Hj. unfold body. set (R := rot_of ea) in *. clearbody R.
    set (dx := px - d_x ea). set (dy := py - d_y ea). set (dz := pz - d_z ea).
    destruct j as [|[|[|j]]]; [| | |lia].
    - transitivity ((R 0%nat 0%nat * R 0%nat 0%nat + R 0%nat 1%nat * R 0%nat 1%nat + R 0%nat 2%nat * R 0%nat 2%nat) * dx + (R 0%nat 0%nat * R 1%nat 0%nat + R 0%nat 1%nat * R 1%nat 1%nat + R 0%nat 2%nat * R 1%nat 2%nat) * dy +
        (R 0%nat 0%nat * R 2%nat 0%nat + R 0%nat 1%nat * R 2%nat 1%nat + R 0%nat 2%nat * R 2%nat 2%nat) * dz); [ring|rewrite O00, O01, O02; ring].
    - transitivity ((R 0%nat 0%nat * R 1%nat 0%nat + R 0%nat 1%nat * R 1%nat 1%nat + R 0%nat 2%nat * R 1%nat 2%nat) * dx + (R 1%nat 0%nat * R 1%nat 0%nat + R 1%nat 1%nat * R 1%nat 1%nat + R 1%nat 2%nat * R 1%nat 2%nat) * dy +
        (R 1%nat 0%nat * R 2%nat 0%nat + R 1%nat 1%nat * R 2%nat 1%nat + R 1%nat 2%nat * R 2%nat 2%nat) * dz); [ring|rewrite O01, O11, O12; ring].
    - transitivity ((R 0%nat 0%nat * R 2%nat 0%nat + R 0%nat 1%nat * R 2%nat 1%nat + R 0%nat 2%nat * R 2%nat 2%nat) * dx + (R 1%nat 0%nat * R 2%nat 0%nat + R 1%nat 1%nat * R 2%nat 1%nat + R 1%nat 2%nat * R 2%nat 2%nat) * dy +
        (R 2%nat 0%nat * R 2%nat 0%nat + R 2%nat 1%nat * R 2%nat 1%nat + R 2%nat 2%nat * R 2%nat 2%nat) * dz); [ring|rewrite O02, O12, O22; ring]. }
  pose proof (X 0%nat ltac:(lia)) as X0. pose proof (X 1%nat ltac:(lia)) as X1. pose proof (X 2%nat ltac:(lia)) as X2. clear X. cbv iota in X0, X1, X2.
  set (b0 := body ea px py pz 0%nat) in *. set (b1 := body ea px py pz 1%nat) in *. set (b2 := body ea px py pz 2%nat) in *.
  clearbody b0 b1 b2. unfold body.
  transitivity (rot_of eb 0%nat i * (rot_of ea 0%nat 0%nat * b0 + rot_of ea 0%nat 1%nat * b1 + rot_of ea 0%nat 2%nat * b2) +
    rot_of eb 1%nat i * (rot_of ea 1%nat 0%nat * b0 + rot_of ea 1%nat 1%nat * b1 + rot_of ea 1%nat 2%nat * b2) +
    rot_of eb 2%nat i * (rot_of ea 2%nat 0%nat * b0 + rot_of ea 2%nat 1%nat * b1 + rot_of ea 2%nat 2%nat * b2) +
    rot_of eb 0%nat i * (d_x ea - d_x eb) + rot_of eb 1%nat i * (d_y ea - d_y eb) + rot_of eb 2%nat i * (d_z ea - d_z eb)).
  - set (RA := rot_of ea) in *. unfold mul4. destruct i as [|[|[|i]]]; [| | |lia]; unfold trans4_inv, trans4, pos_of; fold RA; ring.
  - rewrite X0, X1, X2. ring.
Qed.

Lemma sound4 ea eb rs px py pz : proper_ellipsoid ea -> proper_ellipsoid eb ->
  spectrum4 (companion (coeffs4 (diag4 ea) (pull4 ea eb))) rs ->
  (forall r, In r rs -> negative_root r = true -> snd r = 0) ->
  decide rs = true -> in_ellipsoid ea px py pz -> in_ellipsoid eb px py pz -> False.
Proof.
  intros PA PB [_ SP] RE D IA IB. pose proof PA as (A1 & A2 & A3 & UA). pose proof PB as (B1 & B2 & B3 & UB).
  destruct (decide_true _ D) as (r0 & r1 & I0 & I1 & NE & N0 & N1).
  pose proof (RE _ I0 N0) as S0. pose proof (RE _ I1 N1) as S1.
  destruct r0 as [l0 i0], r1 as [l1 i1]. cbn [snd] in S0, S1. subst i0 i1.
  apply negative_true in N0, N1. cbn [fst snd] in N0, N1. destruct N0 as [_ N0], N1 as [_ N1].
  assert (NL : l0 <> l1) by (intros ->; apply NE; reflexivity). clear NE.
  assert (Q1 : 0 < / (d_a ea * d_a ea)) by (apply Rinv_0_lt_compat; nra).
  assert (Q2 : 0 < / (d_b ea * d_b ea)) by (apply Rinv_0_lt_compat; nra).
  assert (Q3 : 0 < / (d_c ea * d_c ea)) by (apply Rinv_0_lt_compat; nra).
  assert (W1 : 0 < / (d_a eb * d_a eb)) by (apply Rinv_0_lt_compat; nra).
  assert (W2 : 0 < / (d_b eb * d_b eb)) by (apply Rinv_0_lt_compat; nra).
  assert (W3 : 0 < / (d_c eb * d_c eb)) by (apply Rinv_0_lt_compat; nra).
  assert (Z : forall l, In (l, 0) rs -> det4 (pencil l (diag4 ea) (pull4 ea eb)) = 0).
  { intros l I. apply factors_root in I. rewrite SP in I. cbn [fst] in I.
    assert (C0 : - diag4 ea 0%nat 0%nat * diag4 ea 1%nat 1%nat * diag4 ea 2%nat 2%nat <> 0).
    { cbn [diag4]. assert (0 < / (d_a ea * d_a ea) * / (d_b ea * d_b ea) * / (d_c ea * d_c ea)) by (repeat apply Rmult_lt_0_compat; auto). lra. }
    pose proof (poly4 (diag4 ea) (pull4 ea eb) l eq_refl (diag4_off ea)) as P.
    unfold coeffs4 in I, P. cbv zeta in I, P. rewrite <- (companion4 _ _ _ _ _ l C0), I in P. lra. }
  pose proof (Z _ I0) as Z0. pose proof (Z _ I1) as Z1. clear Z SP RE D I0 I1.
  unfold in_ellipsoid in IA, IB. rewrite !sq_div in IA, IB by auto.
  pose proof (pull4_sym ea eb) as SY.
  pose proof (fun x y z t => pull4_form ea eb x y z t) as FO. cbv zeta beta in FO.
  pose proof (pull4_last ea eb) as LA. cbv zeta in LA. destruct LA as (L0 & L1 & L2 & L3).
  pose proof (body4_change ea eb px py pz 0%nat PA ltac:(lia)) as BX.
  pose proof (body4_change ea eb px py pz 1%nat PA ltac:(lia)) as BY.
  pose proof (body4_change ea eb px py pz 2%nat PA ltac:(lia)) as BZ. cbv zeta in BX, BY, BZ.
  set (m := mul4 (trans4_inv eb) (trans4 ea)) in *. clearbody m. set (b := pull4 ea eb) in *. clearbody b.
  set (u := body ea px py pz 0%nat) in *. set (v := body ea px py pz 1%nat) in *. set (w := body ea px py pz 2%nat) in *. clearbody u v w.
  apply (no_common3 (/ (d_a ea * d_a ea)) (/ (d_b ea * d_b ea)) (/ (d_c ea * d_c ea)) (b 0%nat 0%nat) (b 0%nat 1%nat) (b 0%nat 2%nat) (b 1%nat 1%nat) (b 1%nat 2%nat) (b 2%nat 2%nat)
    (b 0%nat 3%nat) (b 1%nat 3%nat) (b 2%nat 3%nat) (b 3%nat 3%nat) (- l0) (- l1)) with (x := u) (y := v) (z := w); auto; try lra.
  - intros x y z. specialize (FO x y z 0). rewrite L0, L1, L2 in FO.
    set (X0 := m 0%nat 0%nat * x + m 0%nat 1%nat * y + m 0%nat 2%nat * z + m 0%nat 3%nat * 0) in *.
    set (X1 := m 1%nat 0%nat * x + m 1%nat 1%nat * y + m 1%nat 2%nat * z + m 1%nat 3%nat * 0) in *.
    set (X2 := m 2%nat 0%nat * x + m 2%nat 1%nat * y + m 2%nat 2%nat * z + m 2%nat 3%nat * 0) in *.
    assert (0 <= / (d_a eb * d_a eb) * (X0 * X0)) by (apply Rmult_le_pos; [lra|apply Rle_0_sqr]).
    assert (0 <= / (d_b eb * d_b eb) * (X1 * X1)) by (apply Rmult_le_pos; [lra|apply Rle_0_sqr]).
    assert (0 <= / (d_c eb * d_c eb) * (X2 * X2)) by (apply Rmult_le_pos; [lra|apply Rle_0_sqr]). lra.
  - revert Z0. unfold det4, det3, det2, minor, pencil, sym4. cbn [Nat.ltb Nat.leb].
    rewrite (SY 1%nat 0%nat), (SY 2%nat 0%nat), (SY 2%nat 1%nat), (SY 3%nat 0%nat), (SY 3%nat 1%nat), (SY 3%nat 2%nat). cbn [diag4]. intros Z0.
    match type of Z0 with ?t = 0 => transitivity t; [ring|exact Z0] end.
  - revert Z1. unfold det4, det3, det2, minor, pencil, sym4. cbn [Nat.ltb Nat.leb].
    rewrite (SY 1%nat 0%nat), (SY 2%nat 0%nat), (SY 2%nat 1%nat), (SY 3%nat 0%nat), (SY 3%nat 1%nat), (SY 3%nat 2%nat). cbn [diag4]. intros Z1.
    match type of Z1 with ?t = 0 => transitivity t; [ring|exact Z1] end.
  - specialize (FO u v w 1). rewrite L0, L1, L2, L3 in FO. rewrite !Rmult_1_r in FO. rewrite BX, BY, BZ in FO. lra.
Qed.
