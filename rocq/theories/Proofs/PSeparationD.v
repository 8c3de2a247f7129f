(** C44: disjoint ellipses and ellipsoids have exactly two distinct negative characteristic roots. *)
From Coq Require Import List Bool Arith Lia Reals Lra Psatz Permutation.
From Verif.Model Require Import MSeparation.
From Verif.Spec Require Import SSeparation.
From Verif.Proofs Require Import PSeparation PSeparationC PSeparationM.
Import ListNotations.
Local Open Scope R_scope.

Ltac cont :=
  match goal with
  | |- continuity (fun t => t) => exact (derivable_continuous _ derivable_id)
  | |- continuity (fun _ => ?c) => apply continuity_const; intros ? ?; reflexivity
  | |- continuity (fun t => @?f t + @?h t) => apply (continuity_plus f h); cont
  | |- continuity (fun t => @?f t - @?h t) => apply (continuity_minus f h); cont
  | |- continuity (fun t => - @?f t) => apply (continuity_opp f); cont
  | |- continuity (fun t => @?f t * @?h t) => apply (continuity_mult f h); cont
  | _ => assumption
  end.

(** A sign change has a zero in between. *)
Lemma zero_between (g : R -> R) x y : continuity g -> x < y -> (g x < 0 /\ 0 < g y \/ 0 < g x /\ g y < 0) -> exists z, x < z < y /\ g z = 0.
Proof.
  intros C L H. assert (P : g x * g y <= 0) by (destruct H as [[H1 H2]|[H1 H2]]; nra).
  destruct (IVT_cor g x y C ltac:(lra) P) as (z & Hz & Z). exists z. split; [|exact Z].
  assert (z <> x) by (intros ->; lra). assert (z <> y) by (intros ->; lra). lra.
Qed.

(** ---- the plane ---- *)
Lemma det_pos2 m11 m12 m22 : (forall x y, (x <> 0 \/ y <> 0) -> 0 < m11 * (x * x) + 2 * (m12 * (x * y)) + m22 * (y * y)) -> 0 < m11 * m22 - m12 * m12.
Proof. intros PD. pose proof (PD 1 0 ltac:(left; lra)) as P1. pose proof (PD (- m12) m11 ltac:(right; lra)) as P2. nra. Qed.

(** The form of the matrix at the cofactors of its last column. *)
Lemma cofactor_form2 m11 m12 m22 r1 r2 s : let h1 := m12 * r2 - m22 * r1 in let h2 := m12 * r1 - m11 * r2 in let h3 := m11 * m22 - m12 * m12 in
  m11 * (h1 * h1) + 2 * (m12 * (h1 * h2)) + m22 * (h2 * h2) + 2 * (r1 * (h1 * h3)) + 2 * (r2 * (h2 * h3)) + s * (h3 * h3) = detM2 m11 m12 m22 r1 r2 s * h3.
Proof. cbv zeta. unfold detM2. ring. Qed.

Lemma crossing2 a1 a2 b11 b12 b22 b13 b23 b33 : 0 < a1 -> 0 < a2 ->
  (forall x y, (x <> 0 \/ y <> 0) -> 0 < b11 * (x * x) + 2 * (b12 * (x * y)) + b22 * (y * y)) ->
  detM2 b11 b12 b22 b13 b23 b33 < 0 ->
  (forall x y, a1 * (x * x) + a2 * (y * y) <= 1 -> 0 < b11 * (x * x) + 2 * (b12 * (x * y)) + b22 * (y * y) + 2 * (b13 * x) + 2 * (b23 * y) + b33) ->
  exists mu, 0 < mu /\ 0 < detM2 (mu * a1 + b11) b12 (mu * a2 + b22) b13 b23 (b33 - mu).
Proof.
  intros A1 A2 PB DB DJ.
  set (m11 := fun t => (1 - t) * a1 + t * b11). set (m12 := fun t => t * b12). set (m22 := fun t => (1 - t) * a2 + t * b22).
  set (r1 := fun t => t * b13). set (r2 := fun t => t * b23).
  set (h1 := fun t => m12 t * r2 t - m22 t * r1 t). set (h2 := fun t => m12 t * r1 t - m11 t * r2 t). set (h3 := fun t => m11 t * m22 t - m12 t * m12 t).
  set (g := fun t => b11 * (h1 t * h1 t) + 2 * (b12 * (h1 t * h2 t)) + b22 * (h2 t * h2 t) + 2 * (b13 * (h1 t * h3 t)) + 2 * (b23 * (h2 t * h3 t)) + b33 * (h3 t * h3 t)).
  assert (C11 : continuity m11) by (unfold m11; cont). assert (C12 : continuity m12) by (unfold m12; cont). assert (C22 : continuity m22) by (unfold m22; cont).
  assert (Cr1 : continuity r1) by (unfold r1; cont). assert (Cr2 : continuity r2) by (unfold r2; cont).
  assert (Ch1 : continuity h1) by (unfold h1; cont). assert (Ch2 : continuity h2) by (unfold h2; cont). assert (Ch3 : continuity h3) by (unfold h3; cont).
  assert (Cg : continuity g) by (unfold g; cont).
  assert (HP : forall t, 0 <= t <= 1 -> 0 < h3 t).
  { intros t T. unfold h3. apply det_pos2. intros x y N. unfold m11, m12, m22. pose proof (PB x y N) as Q.
    assert (QA : 0 < a1 * (x * x) + a2 * (y * y)).
    { destruct N as [N|N]; [assert (0 < x * x) by (destruct (Rdichotomy _ _ N); nra)|assert (0 < y * y) by (destruct (Rdichotomy _ _ N); nra)]; nra. }
    assert (E : ((1 - t) * a1 + t * b11) * (x * x) + 2 * (t * b12 * (x * y)) + ((1 - t) * a2 + t * b22) * (y * y) =
      (1 - t) * (a1 * (x * x) + a2 * (y * y)) + t * (b11 * (x * x) + 2 * (b12 * (x * y)) + b22 * (y * y))) by ring.
    rewrite E. destruct (Req_dec t 1) as [->|T1]; [lra|].
    assert (0 < (1 - t) * (a1 * (x * x) + a2 * (y * y))) by (apply Rmult_lt_0_compat; lra).
    assert (0 <= t * (b11 * (x * x) + 2 * (b12 * (x * y)) + b22 * (y * y))) by (apply Rmult_le_pos; lra). lra. }
  assert (G1 : g 1 < 0).
  { pose proof (HP 1 ltac:(lra)) as H. unfold g. pose proof (cofactor_form2 b11 b12 b22 b13 b23 b33) as K. cbv zeta in K.
    assert (E1 : h1 1 = b12 * b23 - b22 * b13) by (unfold h1, m12, r2, m22, r1; ring).
    assert (E2 : h2 1 = b12 * b13 - b11 * b23) by (unfold h2, m12, r1, m11, r2; ring).
    assert (E3 : h3 1 = b11 * b22 - b12 * b12) by (unfold h3, m11, m22, m12; ring).
    rewrite E1, E2, E3, K. rewrite E3 in H.
    assert (0 < - detM2 b11 b12 b22 b13 b23 b33 * (b11 * b22 - b12 * b12)) by (apply Rmult_lt_0_compat; lra). lra. }
  assert (G0 : 0 < g 0).
  { pose proof (HP 0 ltac:(lra)) as H. pose proof (DJ 0 0 ltac:(lra)) as B0. unfold g.
    assert (E1 : h1 0 = 0) by (unfold h1, m12, r2, m22, r1; ring). assert (E2 : h2 0 = 0) by (unfold h2, m12, r1, m11, r2; ring).
    rewrite E1, E2. assert (0 < h3 0 * h3 0) by (apply Rmult_lt_0_compat; auto). assert (0 < b33 * (h3 0 * h3 0)) by (apply Rmult_lt_0_compat; lra). lra. }
  destruct (zero_between g 0 1 Cg ltac:(lra) (or_intror (conj G0 G1))) as (t & T & Z).
  pose proof (HP t ltac:(lra)) as H3.
  pose proof (cofactor_form2 (m11 t) (m12 t) (m22 t) (r1 t) (r2 t) ((1 - t) * -1 + t * b33)) as K. cbv zeta in K.
  fold (h1 t) in K. fold (h2 t) in K. fold (h3 t) in K.
  set (QA := a1 * (h1 t * h1 t) + a2 * (h2 t * h2 t) - h3 t * h3 t).
  assert (E : (1 - t) * QA + t * g t = detM2 (m11 t) (m12 t) (m22 t) (r1 t) (r2 t) ((1 - t) * -1 + t * b33) * h3 t).
  { rewrite <- K. unfold QA, g. generalize (h1 t) (h2 t) (h3 t). intros u v w. unfold m11, m12, m22, r1, r2. ring. }
  assert (PA : 0 < QA).
  { destruct (Rlt_le_dec 0 QA) as [Q|Q]; [exact Q|exfalso].
    pose proof (DJ (h1 t / h3 t) (h2 t / h3 t)) as D.
    assert (S1 : a1 * (h1 t / h3 t * (h1 t / h3 t)) + a2 * (h2 t / h3 t * (h2 t / h3 t)) - 1 = QA * / (h3 t * h3 t)) by (unfold QA; field; lra).
    assert (I : 0 < / (h3 t * h3 t)) by (apply Rinv_0_lt_compat, Rmult_lt_0_compat; auto).
    assert (QA * / (h3 t * h3 t) <= 0) by nra.
    assert (S2 : b11 * (h1 t / h3 t * (h1 t / h3 t)) + 2 * (b12 * (h1 t / h3 t * (h2 t / h3 t))) + b22 * (h2 t / h3 t * (h2 t / h3 t)) + 2 * (b13 * (h1 t / h3 t)) + 2 * (b23 * (h2 t / h3 t)) + b33 = g t * / (h3 t * h3 t)) by (unfold g; field; lra).
    rewrite S2, Z in D. specialize (D ltac:(lra)). lra. }
  rewrite Z in E.
  assert (DP : 0 < detM2 (m11 t) (m12 t) (m22 t) (r1 t) (r2 t) ((1 - t) * -1 + t * b33)).
  { assert (0 < (1 - t) * QA) by (apply Rmult_lt_0_compat; lra).
    destruct (Rlt_le_dec 0 (detM2 (m11 t) (m12 t) (m22 t) (r1 t) (r2 t) ((1 - t) * -1 + t * b33))) as [Q|Q]; [exact Q|exfalso]. nra. }
  exists ((1 - t) / t). split; [apply Rdiv_lt_0_compat; lra|].
  assert (S : detM2 (m11 t) (m12 t) (m22 t) (r1 t) (r2 t) ((1 - t) * -1 + t * b33) = t * t * t * detM2 ((1 - t) / t * a1 + b11) b12 ((1 - t) / t * a2 + b22) b13 b23 (b33 - (1 - t) / t)).
  { unfold detM2, m11, m12, m22, r1, r2. field. lra. }
  rewrite S in DP. assert (0 < t * t * t) by (repeat apply Rmult_lt_0_compat; lra).
  destruct (Rlt_le_dec 0 (detM2 ((1 - t) / t * a1 + b11) b12 ((1 - t) / t * a2 + b22) b13 b23 (b33 - (1 - t) / t))) as [Q|Q]; [exact Q|exfalso]. nra.
Qed.

(** ---- space ---- *)
Definition f3 (m11 m12 m13 m22 m23 m33 x y z : R) : R :=
  m11 * (x * x) + m22 * (y * y) + m33 * (z * z) + 2 * (m12 * (x * y)) + 2 * (m13 * (x * z)) + 2 * (m23 * (y * z)).
Definition d3 (m11 m12 m13 m22 m23 m33 : R) : R := m11 * (m22 * m33 - m23 * m23) + m12 * (m13 * m23 - m12 * m33) + m13 * (m12 * m23 - m13 * m22).
Lemma det_pos3 m11 m12 m13 m22 m23 m33 : (forall x y z, (x <> 0 \/ y <> 0 \/ z <> 0) -> 0 < f3 m11 m12 m13 m22 m23 m33 x y z) -> 0 < d3 m11 m12 m13 m22 m23 m33.
Proof.
  intros PD. unfold f3 in PD.
  assert (P1 : 0 < m11) by (pose proof (PD 1 0 0 ltac:(left; lra)); lra).
  assert (P2 : 0 < m11 * m22 - m12 * m12).
  { pose proof (PD (- m12) m11 0 ltac:(right; left; lra)) as Q.
    assert (E : m11 * (- m12 * - m12) + m22 * (m11 * m11) + m33 * (0 * 0) + 2 * (m12 * (- m12 * m11)) + 2 * (m13 * (- m12 * 0)) + 2 * (m23 * (m11 * 0)) = m11 * (m11 * m22 - m12 * m12)) by ring.
    rewrite E in Q. apply (Rmult_lt_reg_l m11); lra. }
  pose proof (PD (m12 * m23 - m13 * m22) (m12 * m13 - m11 * m23) (m11 * m22 - m12 * m12) ltac:(right; right; lra)) as Q.
  apply (Rmult_lt_reg_l (m11 * m22 - m12 * m12)); [exact P2|]. rewrite Rmult_0_r.
  eapply Rlt_le_trans; [exact Q|]. right. unfold d3. ring.
Qed.
Lemma cofactor_form3 m11 m12 m13 m22 m23 m33 r1 r2 r3 s :
  let h1 := - ((m22 * m33 - m23 * m23) * r1 + (m13 * m23 - m12 * m33) * r2 + (m12 * m23 - m13 * m22) * r3) in
  let h2 := - ((m13 * m23 - m12 * m33) * r1 + (m11 * m33 - m13 * m13) * r2 + (m12 * m13 - m11 * m23) * r3) in
  let h3 := - ((m12 * m23 - m13 * m22) * r1 + (m12 * m13 - m11 * m23) * r2 + (m11 * m22 - m12 * m12) * r3) in
  let h4 := d3 m11 m12 m13 m22 m23 m33 in
  f3 m11 m12 m13 m22 m23 m33 h1 h2 h3 + 2 * (r1 * (h1 * h4)) + 2 * (r2 * (h2 * h4)) + 2 * (r3 * (h3 * h4)) + s * (h4 * h4) =
  det4 (sym4 m11 m12 m13 m22 m23 m33 r1 r2 r3 s) * h4.
Proof. cbv zeta. unfold f3, d3, det4, det3, det2, minor, sym4. cbn [Nat.ltb Nat.leb]. ring. Qed.

Lemma sq_pos u : u <> 0 -> 0 < u * u.
Proof. intros N. destruct (Rdichotomy _ _ N); nra. Qed.

Lemma crossing3 a1 a2 a3 b11 b12 b13 b22 b23 b33 c1 c2 c3 b44 : 0 < a1 -> 0 < a2 -> 0 < a3 ->
  (forall x y z, (x <> 0 \/ y <> 0 \/ z <> 0) -> 0 < f3 b11 b12 b13 b22 b23 b33 x y z) ->
  det4 (sym4 b11 b12 b13 b22 b23 b33 c1 c2 c3 b44) < 0 ->
  (forall x y z, a1 * (x * x) + a2 * (y * y) + a3 * (z * z) <= 1 -> 0 < f3 b11 b12 b13 b22 b23 b33 x y z + 2 * (c1 * x) + 2 * (c2 * y) + 2 * (c3 * z) + b44) ->
  exists mu, 0 < mu /\ 0 < det4 (sym4 (mu * a1 + b11) b12 b13 (mu * a2 + b22) b23 (mu * a3 + b33) c1 c2 c3 (b44 - mu)).
Proof.
  intros A1 A2 A3 PB DB DJ.
  set (m11 := fun t => (1 - t) * a1 + t * b11). set (m12 := fun t => t * b12). set (m13 := fun t => t * b13).
  set (m22 := fun t => (1 - t) * a2 + t * b22). set (m23 := fun t => t * b23). set (m33 := fun t => (1 - t) * a3 + t * b33).
  set (r1 := fun t => t * c1). set (r2 := fun t => t * c2). set (r3 := fun t => t * c3).
  set (h1 := fun t => - ((m22 t * m33 t - m23 t * m23 t) * r1 t + (m13 t * m23 t - m12 t * m33 t) * r2 t + (m12 t * m23 t - m13 t * m22 t) * r3 t)).
  set (h2 := fun t => - ((m13 t * m23 t - m12 t * m33 t) * r1 t + (m11 t * m33 t - m13 t * m13 t) * r2 t + (m12 t * m13 t - m11 t * m23 t) * r3 t)).
  set (h3 := fun t => - ((m12 t * m23 t - m13 t * m22 t) * r1 t + (m12 t * m13 t - m11 t * m23 t) * r2 t + (m11 t * m22 t - m12 t * m12 t) * r3 t)).
  set (h4 := fun t => m11 t * (m22 t * m33 t - m23 t * m23 t) + m12 t * (m13 t * m23 t - m12 t * m33 t) + m13 t * (m12 t * m23 t - m13 t * m22 t)).
  set (g := fun t => (b11 * (h1 t * h1 t) + b22 * (h2 t * h2 t) + b33 * (h3 t * h3 t) + 2 * (b12 * (h1 t * h2 t)) + 2 * (b13 * (h1 t * h3 t)) + 2 * (b23 * (h2 t * h3 t))) +
    2 * (c1 * (h1 t * h4 t)) + 2 * (c2 * (h2 t * h4 t)) + 2 * (c3 * (h3 t * h4 t)) + b44 * (h4 t * h4 t)).
  assert (C11 : continuity m11) by (unfold m11; cont). assert (C12 : continuity m12) by (unfold m12; cont). assert (C13 : continuity m13) by (unfold m13; cont).
  assert (C22 : continuity m22) by (unfold m22; cont). assert (C23 : continuity m23) by (unfold m23; cont). assert (C33 : continuity m33) by (unfold m33; cont).
  assert (Cr1 : continuity r1) by (unfold r1; cont). assert (Cr2 : continuity r2) by (unfold r2; cont). assert (Cr3 : continuity r3) by (unfold r3; cont).
  assert (Ch1 : continuity h1) by (unfold h1; cont). assert (Ch2 : continuity h2) by (unfold h2; cont). assert (Ch3 : continuity h3) by (unfold h3; cont).
  assert (Ch4 : continuity h4) by (unfold h4; cont).
  assert (Cg : continuity g) by (unfold g; cont).
  assert (HP : forall t, 0 <= t <= 1 -> 0 < h4 t).
  { intros t T. change (0 < d3 (m11 t) (m12 t) (m13 t) (m22 t) (m23 t) (m33 t)). apply det_pos3. intros x y z N. pose proof (PB x y z N) as Q.
    assert (QA : 0 < a1 * (x * x) + a2 * (y * y) + a3 * (z * z)).
    { pose proof (Rle_0_sqr x). pose proof (Rle_0_sqr y). pose proof (Rle_0_sqr z). unfold Rsqr in *.
      assert (0 <= a1 * (x * x)) by (apply Rmult_le_pos; lra). assert (0 <= a2 * (y * y)) by (apply Rmult_le_pos; lra). assert (0 <= a3 * (z * z)) by (apply Rmult_le_pos; lra).
      destruct N as [N|[N|N]]; apply sq_pos in N; [assert (0 < a1 * (x * x)) by (apply Rmult_lt_0_compat; auto)|assert (0 < a2 * (y * y)) by (apply Rmult_lt_0_compat; auto)|assert (0 < a3 * (z * z)) by (apply Rmult_lt_0_compat; auto)]; lra. }
    assert (E : f3 (m11 t) (m12 t) (m13 t) (m22 t) (m23 t) (m33 t) x y z = (1 - t) * (a1 * (x * x) + a2 * (y * y) + a3 * (z * z)) + t * f3 b11 b12 b13 b22 b23 b33 x y z) by (unfold f3, m11, m12, m13, m22, m23, m33; ring).
    rewrite E. destruct (Req_dec t 1) as [->|T1]; [lra|].
    assert (0 < (1 - t) * (a1 * (x * x) + a2 * (y * y) + a3 * (z * z))) by (apply Rmult_lt_0_compat; lra).
    assert (0 <= t * f3 b11 b12 b13 b22 b23 b33 x y z) by (apply Rmult_le_pos; lra). lra. }
  assert (KF : forall t s, f3 (m11 t) (m12 t) (m13 t) (m22 t) (m23 t) (m33 t) (h1 t) (h2 t) (h3 t) + 2 * (r1 t * (h1 t * h4 t)) + 2 * (r2 t * (h2 t * h4 t)) + 2 * (r3 t * (h3 t * h4 t)) + s * (h4 t * h4 t) =
    det4 (sym4 (m11 t) (m12 t) (m13 t) (m22 t) (m23 t) (m33 t) (r1 t) (r2 t) (r3 t) s) * h4 t).
  { intros t s. exact (cofactor_form3 (m11 t) (m12 t) (m13 t) (m22 t) (m23 t) (m33 t) (r1 t) (r2 t) (r3 t) s). }
  set (QA := fun t => a1 * (h1 t * h1 t) + a2 * (h2 t * h2 t) + a3 * (h3 t * h3 t) - h4 t * h4 t).
  set (DD := fun t => det4 (sym4 (m11 t) (m12 t) (m13 t) (m22 t) (m23 t) (m33 t) (r1 t) (r2 t) (r3 t) ((1 - t) * -1 + t * b44))).
  assert (E : forall t, (1 - t) * QA t + t * g t = DD t * h4 t).
  { intros t. unfold DD. rewrite <- KF. unfold QA, g. generalize (h1 t) (h2 t) (h3 t) (h4 t). intros u v w q. unfold f3, m11, m12, m13, m22, m23, m33, r1, r2, r3. ring. }
  assert (SC : forall t, 0 < t -> DD t = t * t * t * t * det4 (sym4 ((1 - t) / t * a1 + b11) b12 b13 ((1 - t) / t * a2 + b22) b23 ((1 - t) / t * a3 + b33) c1 c2 c3 (b44 - (1 - t) / t))).
  { intros t T. unfold DD, det4, det3, det2, minor, sym4, m11, m12, m13, m22, m23, m33, r1, r2, r3. cbn [Nat.ltb Nat.leb]. field. lra. }
  assert (G1 : g 1 < 0).
  { pose proof (HP 1 ltac:(lra)) as H. pose proof (E 1) as E1. pose proof (SC 1 ltac:(lra)) as S1.
    replace ((1 - 1) / 1) with 0 in S1 by field. rewrite !Rmult_0_l, !Rplus_0_l, Rminus_0_r, !Rmult_1_l in S1. rewrite S1 in E1.
    assert (0 < - det4 (sym4 b11 b12 b13 b22 b23 b33 c1 c2 c3 b44) * h4 1) by (apply Rmult_lt_0_compat; lra). lra. }
  assert (G0 : 0 < g 0).
  { pose proof (HP 0 ltac:(lra)) as H. pose proof (DJ 0 0 0 ltac:(lra)) as B0. unfold g.
    assert (E1 : h1 0 = 0) by (unfold h1, r1, r2, r3; ring). assert (E2 : h2 0 = 0) by (unfold h2, r1, r2, r3; ring). assert (E3 : h3 0 = 0) by (unfold h3, r1, r2, r3; ring).
    rewrite E1, E2, E3. unfold f3 in B0. assert (0 < h4 0 * h4 0) by (apply Rmult_lt_0_compat; auto). assert (0 < b44 * (h4 0 * h4 0)) by (apply Rmult_lt_0_compat; lra). lra. }
  destruct (zero_between g 0 1 Cg ltac:(lra) (or_intror (conj G0 G1))) as (t & T & Z).
  pose proof (HP t ltac:(lra)) as H4. pose proof (E t) as Et. rewrite Z in Et.
  assert (PA : 0 < QA t).
  { destruct (Rlt_le_dec 0 (QA t)) as [Q|Q]; [exact Q|exfalso].
    pose proof (DJ (h1 t / h4 t) (h2 t / h4 t) (h3 t / h4 t)) as D.
    assert (S1 : a1 * (h1 t / h4 t * (h1 t / h4 t)) + a2 * (h2 t / h4 t * (h2 t / h4 t)) + a3 * (h3 t / h4 t * (h3 t / h4 t)) - 1 = QA t * / (h4 t * h4 t)) by (unfold QA; field; lra).
    assert (I : 0 < / (h4 t * h4 t)) by (apply Rinv_0_lt_compat, Rmult_lt_0_compat; auto).
    assert (QA t * / (h4 t * h4 t) <= 0) by nra.
    assert (S2 : f3 b11 b12 b13 b22 b23 b33 (h1 t / h4 t) (h2 t / h4 t) (h3 t / h4 t) + 2 * (c1 * (h1 t / h4 t)) + 2 * (c2 * (h2 t / h4 t)) + 2 * (c3 * (h3 t / h4 t)) + b44 = g t * / (h4 t * h4 t)).
    { unfold g, f3. generalize dependent (h4 t). intros q. intros. generalize (h1 t) (h2 t) (h3 t). intros u v w. field. lra. }
    rewrite S2, Z in D. specialize (D ltac:(lra)). lra. }
  exists ((1 - t) / t). split; [apply Rdiv_lt_0_compat; lra|].
  assert (DP : 0 < DD t).
  { assert (0 < (1 - t) * QA t) by (apply Rmult_lt_0_compat; lra). apply (Rmult_lt_reg_r (h4 t)); lra. }
  rewrite SC in DP by lra. assert (TT : 0 < t * t * t * t) by (repeat apply Rmult_lt_0_compat; lra).
  apply (Rmult_lt_reg_l (t * t * t * t)); lra.
Qed.

(** At the middle one of the three relative eigenvalues of the leading blocks the determinant of
    the pencil does not have its sign at infinity. *)
Lemma middle_sign s1 s2 s3 b11 b12 b13 b22 b23 b33 c1 c2 c3 b44 : 0 < s1 -> 0 < s2 -> 0 < s3 ->
  (forall x y z, (x <> 0 \/ y <> 0 \/ z <> 0) -> 0 < f3 b11 b12 b13 b22 b23 b33 x y z) ->
  exists nu, 0 < nu /\ 0 <= det4 (sym4 (nu * / (s1 * s1) - b11) (- b12) (- b13) (nu * / (s2 * s2) - b22) (- b23) (nu * / (s3 * s3) - b33) (- c1) (- c2) (- c3) (- nu - b44)).
Proof.
  intros S1 S2 S3 PD.
  destruct (joint_diagonal s1 s2 s3 b11 b12 b13 b22 b23 b33 c1 c2 c3 S1 S2 S3 PD) as (u1 & u2 & u3 & v1 & v2 & v3 & w1 & w2 & w3 & la & lb & lc & y1 & y2 & y3 & L1 & L2 & LP & E11 & E12 & E13 & E22 & E23 & E33 & A11 & A12 & A13 & A22 & A23 & A33 & C1 & C2 & C3).
  exists lb. split; [exact LP|]. rewrite A11, A22, A33.
  set (dF := u1 * (v2 * w3 - v3 * w2) - u2 * (v1 * w3 - v3 * w1) + u3 * (v1 * w2 - v2 * w1)).
  assert (E : det4 (sym4 (lb * (u1 * u1 + v1 * v1 + w1 * w1) - b11) (- b12) (- b13) (lb * (u2 * u2 + v2 * v2 + w2 * w2) - b22) (- b23) (lb * (u3 * u3 + v3 * v3 + w3 * w3) - b33) (- c1) (- c2) (- c3) (- lb - b44)) =
    (la - lb) * (lb - lc) * (dF * y2 * (dF * y2))).
  { set (al := lb - la). set (ga := lb - lc).
    assert (M11 : lb * (u1 * u1 + v1 * v1 + w1 * w1) - b11 = al * (u1 * u1) + ga * (w1 * w1)) by (rewrite E11; unfold al, ga; ring).
    assert (M22 : lb * (u2 * u2 + v2 * v2 + w2 * w2) - b22 = al * (u2 * u2) + ga * (w2 * w2)) by (rewrite E22; unfold al, ga; ring).
    assert (M33 : lb * (u3 * u3 + v3 * v3 + w3 * w3) - b33 = al * (u3 * u3) + ga * (w3 * w3)) by (rewrite E33; unfold al, ga; ring).
    assert (M12 : - b12 = al * (u1 * u2) + ga * (w1 * w2)).
    { transitivity (lb * 0 - b12); [ring|]. rewrite A12, E12. unfold al, ga. ring. }
    assert (M13 : - b13 = al * (u1 * u3) + ga * (w1 * w3)).
    { transitivity (lb * 0 - b13); [ring|]. rewrite A13, E13. unfold al, ga. ring. }
    assert (M23 : - b23 = al * (u2 * u3) + ga * (w2 * w3)).
    { transitivity (lb * 0 - b23); [ring|]. rewrite A23, E23. unfold al, ga. ring. }
    rewrite M11, M12, M13, M22, M23, M33, C1, C2, C3.
    replace (la - lb) with (- al) by (unfold al; ring). fold ga. generalize al ga (- lb - b44). intros p q r. unfold dF.
    unfold det4, det3, det2, minor, sym4. cbn [Nat.ltb Nat.leb]. ring. }
  rewrite E. apply Rmult_le_pos; [apply Rmult_le_pos; lra|apply Rle_0_sqr].
Qed.

(** ---- counting roots ---- *)
Lemma far_negative3 c0 c1 c2 c3 m : 0 < c0 -> exists L, L < m /\ ((c0 * L + c1) * L + c2) * L + c3 < 0.
Proof.
  intros C0. set (K := Rabs c1 + Rabs c2 + Rabs c3).
  pose proof (Rabs_pos c1). pose proof (Rabs_pos c2). pose proof (Rabs_pos c3).
  set (y := 1 + Rabs m + K / c0). assert (K0 : 0 <= K) by (unfold K; lra).
  assert (KC : 0 <= K / c0) by (apply Rmult_le_pos; [lra|left; apply Rinv_0_lt_compat; lra]).
  assert (Y1 : 1 <= y) by (unfold y; pose proof (Rabs_pos m); lra).
  assert (YK : K < c0 * y).
  { unfold y. assert (c0 * (K / c0) = K) by (field; lra). pose proof (Rabs_pos m). assert (0 < c0 * (1 + Rabs m)) by (apply Rmult_lt_0_compat; lra). lra. }
  exists (- y). split; [unfold y; pose proof (Rle_abs (- m)); rewrite Rabs_Ropp in *; lra|].
  assert (Y2 : 1 <= y * y) by nra. assert (Yy : y <= y * y) by nra.
  assert (B1 : c1 * (y * y) <= Rabs c1 * (y * y)) by (apply Rmult_le_compat_r; [lra|apply Rle_abs]).
  assert (B2 : - c2 * y <= Rabs c2 * (y * y)).
  { apply Rle_trans with (Rabs c2 * y); [apply Rmult_le_compat_r; [lra|rewrite <- Rabs_Ropp; apply Rle_abs]|apply Rmult_le_compat_l; lra]. }
  assert (B3 : c3 <= Rabs c3 * (y * y)).
  { apply Rle_trans with (Rabs c3 * 1); [rewrite Rmult_1_r; apply Rle_abs|apply Rmult_le_compat_l; lra]. }
  assert (B4 : K * (y * y) < c0 * y * (y * y)) by (apply Rmult_lt_compat_r; lra).
  replace (((c0 * - y + c1) * - y + c2) * - y + c3) with (- (c0 * y * (y * y)) + c1 * (y * y) + - c2 * y + c3) by ring.
  unfold K in B4. lra.
Qed.
Lemma far_negative4 c0 c1 c2 c3 c4 m : c0 < 0 -> exists L, L < m /\ (((c0 * L + c1) * L + c2) * L + c3) * L + c4 < 0.
Proof.
  intros C0. set (K := Rabs c1 + Rabs c2 + Rabs c3 + Rabs c4).
  pose proof (Rabs_pos c1). pose proof (Rabs_pos c2). pose proof (Rabs_pos c3). pose proof (Rabs_pos c4).
  set (y := 1 + Rabs m + K / - c0). assert (K0 : 0 <= K) by (unfold K; lra).
  assert (KC : 0 <= K / - c0) by (apply Rmult_le_pos; [lra|left; apply Rinv_0_lt_compat; lra]).
  assert (Y1 : 1 <= y) by (unfold y; pose proof (Rabs_pos m); lra).
  assert (YK : K < - c0 * y).
  { unfold y. assert (- c0 * (K / - c0) = K) by (field; lra). pose proof (Rabs_pos m). assert (0 < - c0 * (1 + Rabs m)) by (apply Rmult_lt_0_compat; lra). lra. }
  exists (- y). split; [unfold y; pose proof (Rle_abs (- m)); rewrite Rabs_Ropp in *; lra|].
  set (z := y * y * y). assert (Y2 : 1 <= y * y) by nra. assert (Yy : y <= y * y) by nra. assert (Yz : y * y <= z) by (unfold z; nra). assert (Y3 : 1 <= z) by lra.
  assert (B1 : - c1 * z <= Rabs c1 * z) by (apply Rmult_le_compat_r; [lra|rewrite <- Rabs_Ropp; apply Rle_abs]).
  assert (B2 : c2 * (y * y) <= Rabs c2 * z).
  { apply Rle_trans with (Rabs c2 * (y * y)); [apply Rmult_le_compat_r; [lra|apply Rle_abs]|apply Rmult_le_compat_l; lra]. }
  assert (B3 : - c3 * y <= Rabs c3 * z).
  { apply Rle_trans with (Rabs c3 * y); [apply Rmult_le_compat_r; [lra|rewrite <- Rabs_Ropp; apply Rle_abs]|apply Rmult_le_compat_l; lra]. }
  assert (B4 : c4 <= Rabs c4 * z).
  { apply Rle_trans with (Rabs c4 * 1); [rewrite Rmult_1_r; apply Rle_abs|apply Rmult_le_compat_l; lra]. }
  assert (B5 : K * z < - c0 * y * z) by (apply Rmult_lt_compat_r; lra).
  replace ((((c0 * - y + c1) * - y + c2) * - y + c3) * - y + c4) with (- (- c0 * y * z) + - c1 * z + c2 * (y * y) + - c3 * y + c4) by (unfold z; ring).
  unfold K in B5. lra.
Qed.

Lemma cubic_factors c0 c1 c2 c3 mu : 0 < c0 -> 0 < mu -> let f x := ((c0 * x + c1) * x + c2) * x + c3 in
  f 0 < 0 -> 0 < f (- mu) -> exists l0 l1 k, l0 < - mu /\ - mu < l1 /\ l1 < 0 /\ 0 < k /\ forall x, f x = c0 * ((x - l0) * (x - l1) * (x - k)).
Proof.
  intros C0 M f F0 FM. assert (Cf : continuity f) by (unfold f; cont).
  destruct (far_negative3 c0 c1 c2 c3 (- mu) C0) as (L & LM & FL). change (f L < 0) in FL.
  destruct (zero_between f L (- mu) Cf LM ltac:(left; auto)) as (l0 & H0 & Z0).
  destruct (zero_between f (- mu) 0 Cf ltac:(lra) ltac:(right; auto)) as (l1 & H1 & Z1).
  set (k := - c1 / c0 - l0 - l1). exists l0, l1, k.
  assert (FA : forall x, f x = c0 * ((x - l0) * (x - l1) * (x - k))).
  { set (p := c2 - c0 * (l0 * l1 + (l0 + l1) * k)). set (q := c3 + c0 * (l0 * l1 * k)).
    assert (D : forall x, f x = c0 * ((x - l0) * (x - l1) * (x - k)) + p * x + q).
    { intros x. unfold f, p, q. assert (CK : c1 = - c0 * (l0 + l1 + k)) by (unfold k; field; lra). rewrite CK. ring. }
    pose proof (D l0) as D0. pose proof (D l1) as D1. rewrite Z0 in D0. rewrite Z1 in D1.
    assert (P0 : p * (l0 - l1) = 0) by lra. apply Rmult_integral in P0. destruct P0 as [P0|P0]; [|lra].
    rewrite P0 in D0. assert (Q0 : q = 0) by lra. intros x. rewrite D, P0, Q0. ring. }
  split; [lra|]. split; [lra|]. split; [lra|]. split; [|exact FA].
  rewrite FA in F0. destruct (Rlt_le_dec 0 k) as [?|Kn]; [auto|exfalso].
  assert (0 < l0 * l1) by nra. assert (0 <= c0 * (l0 * l1) * - k) by (apply Rmult_le_pos; [apply Rmult_le_pos; lra|lra]).
  replace (c0 * ((0 - l0) * (0 - l1) * (0 - k))) with (c0 * (l0 * l1) * - k) in F0 by ring. lra.
Qed.

Lemma quartic_factors c0 c1 c2 c3 c4 mu nu : c0 < 0 -> 0 < mu -> 0 < nu -> let f x := (((c0 * x + c1) * x + c2) * x + c3) * x + c4 in
  f 0 < 0 -> 0 < f (- mu) -> 0 <= f nu -> exists l0 l1 k0 k1, l0 < - mu /\ - mu < l1 /\ l1 < 0 /\ 0 < k0 /\ 0 < k1 /\
    forall x, f x = c0 * ((x - l0) * (x - l1) * ((x - k0) * (x - k1))).
Proof.
  intros C0 M N f F0 FM FN. assert (Cf : continuity f) by (unfold f; cont).
  destruct (far_negative4 c0 c1 c2 c3 c4 (- mu) C0) as (L & LM & FL). change (f L < 0) in FL.
  destruct (zero_between f L (- mu) Cf LM ltac:(left; auto)) as (l0 & H0 & Z0).
  destruct (zero_between f (- mu) 0 Cf ltac:(lra) ltac:(right; auto)) as (l1 & H1 & Z1).
  assert (exists k0, 0 < k0 /\ f k0 = 0) as (k0 & K0 & Z2).
  { destruct FN as [FN|FN]; [|exists nu; auto]. destruct (zero_between f 0 nu Cf N ltac:(left; auto)) as (k & Hk & Z). exists k. split; [lra|auto]. }
  set (k1 := - c1 / c0 - l0 - l1 - k0). exists l0, l1, k0, k1.
  assert (FA : forall x, f x = c0 * ((x - l0) * (x - l1) * ((x - k0) * (x - k1)))).
  { set (a := c2 - c0 * (l0 * l1 + (l0 + l1) * (k0 + k1) + k0 * k1)). set (p := c3 + c0 * (l0 * l1 * (k0 + k1) + (l0 + l1) * (k0 * k1))). set (q := c4 - c0 * (l0 * l1 * (k0 * k1))).
    assert (D : forall x, f x = c0 * ((x - l0) * (x - l1) * ((x - k0) * (x - k1))) + (a * (x * x) + p * x + q)).
    { intros x. unfold f, a, p, q. assert (CK : c1 = - c0 * (l0 + l1 + k0 + k1)) by (unfold k1; field; lra). rewrite CK. ring. }
    pose proof (D l0) as D0. pose proof (D l1) as D1. pose proof (D k0) as D2. rewrite Z0 in D0. rewrite Z1 in D1. rewrite Z2 in D2.
    assert (P0 : (l0 - l1) * (a * (l0 + l1) + p) = 0) by lra. assert (P1 : (l0 - k0) * (a * (l0 + k0) + p) = 0) by lra.
    apply Rmult_integral in P0. destruct P0 as [P0|P0]; [lra|]. apply Rmult_integral in P1. destruct P1 as [P1|P1]; [lra|].
    assert (A0 : (l1 - k0) * a = 0) by lra. apply Rmult_integral in A0. destruct A0 as [A0|A0]; [lra|].
    rewrite A0 in P0, D0. assert (Pz : p = 0) by lra. rewrite Pz in D0. assert (Qz : q = 0) by lra. intros x. rewrite D, A0, Pz, Qz. ring. }
  split; [lra|]. split; [lra|]. split; [lra|]. split; [lra|]. split; [|exact FA].
  rewrite FA in F0. destruct (Rlt_le_dec 0 k1) as [?|Kn]; [auto|exfalso].
  assert (0 < l0 * l1) by nra. assert (0 <= - c0 * (l0 * l1 * k0) * - k1) by (apply Rmult_le_pos; [apply Rmult_le_pos; [lra|apply Rmult_le_pos; lra]|lra]).
  replace (c0 * ((0 - l0) * (0 - l1) * ((0 - k0) * (0 - k1)))) with (- c0 * (l0 * l1 * k0) * - k1) in F0 by ring. lra.
Qed.

(** Four real roots, two of them possibly equal. *)
Lemma four_real_roots (rs : list cplx) (l0 l1 k0 k1 : R) : length rs = 4%nat -> l0 <> l1 -> k0 <> l0 -> k0 <> l1 ->
  (forall x, factors rs x = ((x - l0) * (x - l1) * ((x - k0) * (x - k1)), 0)) ->
  Permutation rs [(l0, 0); (l1, 0); (k0, 0); (k1, 0)].
Proof.
  intros L N K0 K1 F. destruct (two_first rs l0 l1 N) as (rest & P).
  { apply factors_zero. rewrite F. f_equal. ring. } { apply factors_zero. rewrite F. f_equal. ring. }
  pose proof (Permutation_length P) as L'. rewrite L in L'. cbn [length] in L'.
  rewrite P. do 2 apply perm_skip.
  assert (G : forall x, x <> l0 -> x <> l1 -> factors rest x = ((x - k0) * (x - k1), 0)).
  { intros x X0 X1. specialize (F x). rewrite (factors_perm _ _ _ P), !factors_real, cmul_assoc in F.
    replace (cmul (x - l0, 0) (x - l1, 0)) with ((x - l0) * (x - l1), 0) in F by (unfold cmul; cbn [fst snd]; f_equal; ring).
    replace ((x - l0) * (x - l1) * ((x - k0) * (x - k1)), 0) with (cmul ((x - l0) * (x - l1), 0) ((x - k0) * (x - k1), 0)) in F by (unfold cmul; cbn [fst snd]; f_equal; ring).
    apply cmul_real_inj in F; [exact F|apply Rmult_integral_contrapositive; split; lra]. }
  assert (I : In (k0, 0) rest). { apply factors_zero. rewrite G by auto. f_equal; ring. }
  destruct (in_split _ _ I) as (a & b & ->). rewrite <- Permutation_middle. apply perm_skip.
  assert (P2 : Permutation (a ++ (k0, 0) :: b) ((k0, 0) :: a ++ b)) by (symmetry; apply Permutation_middle).
  pose proof (Permutation_length P2) as L2. cbn [length] in L2.
  assert (L3 : (2 = S (length (a ++ b)))%nat) by (rewrite <- L2; apply eq_add_S, eq_add_S; exact L'). clear L'. destruct (a ++ b) as [|r [|? ?]]; try (cbn [length] in L3; lia).
  destruct (roots_of_quadratic l0 l1 k0) as (x0 & X0 & X1 & X2).
  specialize (G x0 ltac:(lra) ltac:(lra)). rewrite (factors_perm _ _ _ P2), factors_real in G.
  replace ((x0 - k0) * (x0 - k1), 0) with (cmul (x0 - k0, 0) (x0 - k1, 0)) in G by (unfold cmul; cbn [fst snd]; f_equal; ring).
  apply cmul_real_inj in G; [|lra].
  cbn [factors fold_right] in G. unfold cmul in G. cbn [fst snd] in G. destruct r as [q1 q2]. cbn [fst snd] in G.
  assert (E1 := f_equal fst G). assert (E2 := f_equal snd G). cbn [fst snd] in E1, E2.
  replace (q1, q2) with (k1, 0); auto. f_equal; lra.
Qed.

(** ---- the matrices of the code ---- *)
Definition disjoint2 (ea eb : ellipse) : Prop := forall px py, ~ (in_ellipse ea px py /\ in_ellipse eb px py).
Definition disjoint3 (ea eb : ellipsoid) : Prop := forall px py pz, ~ (in_ellipsoid ea px py pz /\ in_ellipsoid eb px py pz).

Lemma rot_norm c s x y : s * s + c * c = 1 -> (c * x - s * y) * (c * x - s * y) + (s * x + c * y) * (s * x + c * y) = x * x + y * y.
Proof. intros H. transitivity ((s * s + c * c) * (x * x + y * y)); [ring|rewrite H; ring]. Qed.

(** The quadratic form of the second ellipse in the frame of the first. *)
Lemma planar_form ea eb : proper_ellipse ea -> proper_ellipse eb -> let b := pull3 ea eb in
  (forall x y, (x <> 0 \/ y <> 0) -> 0 < b 0%nat 0%nat * (x * x) + 2 * (b 0%nat 1%nat * (x * y)) + b 1%nat 1%nat * (y * y)) /\
  (exists x y, b 0%nat 0%nat * (x * x) + 2 * (b 0%nat 1%nat * (x * y)) + b 1%nat 1%nat * (y * y) + 2 * (b 0%nat 2%nat * x) + 2 * (b 1%nat 2%nat * y) + b 2%nat 2%nat < 0) /\
  (forall x y, / (e_a ea * e_a ea) * (x * x) + / (e_b ea * e_b ea) * (y * y) <= 1 ->
    b 0%nat 0%nat * (x * x) + 2 * (b 0%nat 1%nat * (x * y)) + b 1%nat 1%nat * (y * y) + 2 * (b 0%nat 2%nat * x) + 2 * (b 1%nat 2%nat * y) + b 2%nat 2%nat <= 0 ->
    exists px py, in_ellipse ea px py /\ in_ellipse eb px py).
Proof.
  intros [A1 A2] [B1 B2]. cbv zeta.
  pose proof (fun x y z => pull3_form ea eb x y z) as FO. cbv zeta in FO.
  pose proof (pull3_last ea eb) as LA. cbv zeta in LA. destruct LA as (L0 & L1 & L2).
  pose proof (body3_change ea eb) as BC. cbv zeta in BC.
  assert (W1 : 0 < / (e_a eb * e_a eb)) by (apply Rinv_0_lt_compat; nra).
  assert (W2 : 0 < / (e_b eb * e_b eb)) by (apply Rinv_0_lt_compat; nra).
  (* world coordinates *)
  assert (WC : forall x y, exists px py, cos (e_th ea) * (px - e_x ea) + sin (e_th ea) * (py - e_y ea) = x /\ - sin (e_th ea) * (px - e_x ea) + cos (e_th ea) * (py - e_y ea) = y).
  { intros x y. pose proof (sin2_cos2 (e_th ea)) as S. unfold Rsqr in S. set (c := cos (e_th ea)) in *. set (s := sin (e_th ea)) in *.
    exists (e_x ea + (c * x - s * y)), (e_y ea + (s * x + c * y)). split.
    - transitivity ((s * s + c * c) * x); [ring|rewrite S; ring].
    - transitivity ((s * s + c * c) * y); [ring|rewrite S; ring]. }
  split; [|split].
  - intros x y N. specialize (FO x y 0). rewrite L0, L1, L2 in FO.
    assert (NX : x * x + y * y = (mul3 (trans3_inv eb) (trans3 ea) 0%nat 0%nat * x + mul3 (trans3_inv eb) (trans3 ea) 0%nat 1%nat * y + mul3 (trans3_inv eb) (trans3 ea) 0%nat 2%nat * 0) *
      (mul3 (trans3_inv eb) (trans3 ea) 0%nat 0%nat * x + mul3 (trans3_inv eb) (trans3 ea) 0%nat 1%nat * y + mul3 (trans3_inv eb) (trans3 ea) 0%nat 2%nat * 0) +
      (mul3 (trans3_inv eb) (trans3 ea) 1%nat 0%nat * x + mul3 (trans3_inv eb) (trans3 ea) 1%nat 1%nat * y + mul3 (trans3_inv eb) (trans3 ea) 1%nat 2%nat * 0) *
      (mul3 (trans3_inv eb) (trans3 ea) 1%nat 0%nat * x + mul3 (trans3_inv eb) (trans3 ea) 1%nat 1%nat * y + mul3 (trans3_inv eb) (trans3 ea) 1%nat 2%nat * 0)).
    { unfold mul3, trans3_inv, trans3. pose proof (sin2_cos2 (e_th ea)) as SA. pose proof (sin2_cos2 (e_th eb)) as SB. unfold Rsqr in SA, SB.
      rewrite <- (rot_norm _ _ x y SA). rewrite <- (rot_norm (cos (e_th eb)) (- sin (e_th eb)) (cos (e_th ea) * x - sin (e_th ea) * y)) by lra. ring. }
    set (X0 := mul3 (trans3_inv eb) (trans3 ea) 0%nat 0%nat * x + mul3 (trans3_inv eb) (trans3 ea) 0%nat 1%nat * y + mul3 (trans3_inv eb) (trans3 ea) 0%nat 2%nat * 0) in *.
    set (X1 := mul3 (trans3_inv eb) (trans3 ea) 1%nat 0%nat * x + mul3 (trans3_inv eb) (trans3 ea) 1%nat 1%nat * y + mul3 (trans3_inv eb) (trans3 ea) 1%nat 2%nat * 0) in *.
    assert (0 < x * x + y * y) by (destruct N as [N|N]; apply sq_pos in N; nra).
    assert (P : 0 < / (e_a eb * e_a eb) * (X0 * X0) + / (e_b eb * e_b eb) * (X1 * X1)).
    { destruct (Req_dec X0 0) as [Z|Z]; [assert (0 < X1 * X1) by (rewrite Z in NX; lra)|apply sq_pos in Z]; pose proof (Rle_0_sqr X0); pose proof (Rle_0_sqr X1); unfold Rsqr in *;
        [assert (0 < / (e_b eb * e_b eb) * (X1 * X1)) by (apply Rmult_lt_0_compat; auto)|assert (0 < / (e_a eb * e_a eb) * (X0 * X0)) by (apply Rmult_lt_0_compat; auto)];
        assert (0 <= / (e_a eb * e_a eb) * (X0 * X0)) by (apply Rmult_le_pos; lra); assert (0 <= / (e_b eb * e_b eb) * (X1 * X1)) by (apply Rmult_le_pos; lra); lra. }
    lra.
  - destruct (BC (e_x eb) (e_y eb)) as [BX BY]. set (u := cos (e_th ea) * (e_x eb - e_x ea) + sin (e_th ea) * (e_y eb - e_y ea)) in *. set (v := - sin (e_th ea) * (e_x eb - e_x ea) + cos (e_th ea) * (e_y eb - e_y ea)) in *.
    exists u, v. specialize (FO u v 1). rewrite L0, L1, L2 in FO. rewrite !Rmult_1_r in FO. rewrite BX, BY in FO.
    replace (cos (e_th eb) * (e_x eb - e_x eb) + sin (e_th eb) * (e_y eb - e_y eb)) with 0 in FO by ring.
    replace (- sin (e_th eb) * (e_x eb - e_x eb) + cos (e_th eb) * (e_y eb - e_y eb)) with 0 in FO by ring. lra.
  - intros x y HA HB. destruct (WC x y) as (px & py & WX & WY). exists px, py. destruct (BC px py) as [BX BY]. rewrite WX, WY in BX, BY.
    unfold in_ellipse. cbv zeta. rewrite WX, WY. rewrite !sq_div by auto. split; [exact HA|].
    specialize (FO x y 1). rewrite L0, L1, L2 in FO. rewrite !Rmult_1_r in FO. rewrite BX, BY in FO. lra.
Qed.

Lemma negative_det2 p11 p12 p22 q1 q2 r : (forall x y, (x <> 0 \/ y <> 0) -> 0 < p11 * (x * x) + 2 * (p12 * (x * y)) + p22 * (y * y)) ->
  (exists x y, p11 * (x * x) + 2 * (p12 * (x * y)) + p22 * (y * y) + 2 * (q1 * x) + 2 * (q2 * y) + r < 0) -> detM2 p11 p12 p22 q1 q2 r < 0.
Proof.
  intros PD (x & y & N). pose proof (det_pos2 _ _ _ PD) as D. destruct (Rlt_le_dec (detM2 p11 p12 p22 q1 q2 r) 0) as [H|H]; [exact H|exfalso].
  set (e := detM2 p11 p12 p22 q1 q2 r / (p11 * p22 - p12 * p12)).
  assert (Z : detM2 p11 p12 p22 q1 q2 (r - e) = 0).
  { transitivity (detM2 p11 p12 p22 q1 q2 r - e * (p11 * p22 - p12 * p12)); [unfold detM2; ring|unfold e; field; lra]. }
  pose proof (semi_def2 p11 p12 p22 q1 q2 (r - e) PD Z x y) as S.
  assert (0 <= e) by (apply Rmult_le_pos; [exact H|left; apply Rinv_0_lt_compat; exact D]). lra.
Qed.
Lemma negative_det3 p11 p12 p13 p22 p23 p33 q1 q2 q3 r : (forall x y z, (x <> 0 \/ y <> 0 \/ z <> 0) -> 0 < f3 p11 p12 p13 p22 p23 p33 x y z) ->
  (exists x y z, f3 p11 p12 p13 p22 p23 p33 x y z + 2 * (q1 * x) + 2 * (q2 * y) + 2 * (q3 * z) + r < 0) -> det4 (sym4 p11 p12 p13 p22 p23 p33 q1 q2 q3 r) < 0.
Proof.
  intros PD (x & y & z & N). pose proof (det_pos3 _ _ _ _ _ _ PD) as D. destruct (Rlt_le_dec (det4 (sym4 p11 p12 p13 p22 p23 p33 q1 q2 q3 r)) 0) as [H|H]; [exact H|exfalso].
  set (e := det4 (sym4 p11 p12 p13 p22 p23 p33 q1 q2 q3 r) / d3 p11 p12 p13 p22 p23 p33).
  assert (Z : det4 (sym4 p11 p12 p13 p22 p23 p33 q1 q2 q3 (r - e)) = 0).
  { transitivity (det4 (sym4 p11 p12 p13 p22 p23 p33 q1 q2 q3 r) - e * d3 p11 p12 p13 p22 p23 p33); [unfold d3, det4, det3, det2, minor, sym4; cbn [Nat.ltb Nat.leb]; ring|unfold e; field; lra]. }
  pose proof (semi_def3 p11 p12 p13 p22 p23 p33 q1 q2 q3 (r - e) PD Z x y z) as S. unfold f3 in N.
  assert (0 <= e) by (apply Rmult_le_pos; [exact H|left; apply Rinv_0_lt_compat; exact D]). lra.
Qed.

Lemma pencil3_M ea eb l : det3 (pencil l (diag3 ea) (pull3 ea eb)) =
  - detM2 (- l * / (e_a ea * e_a ea) + pull3 ea eb 0%nat 0%nat) (pull3 ea eb 0%nat 1%nat) (- l * / (e_b ea * e_b ea) + pull3 ea eb 1%nat 1%nat) (pull3 ea eb 0%nat 2%nat) (pull3 ea eb 1%nat 2%nat) (pull3 ea eb 2%nat 2%nat - - l).
Proof.
  pose proof (pull3_sym ea eb) as SY. unfold det3, det2, pencil, detM2. rewrite (SY 1%nat 0%nat), (SY 2%nat 0%nat), (SY 2%nat 1%nat). cbn [diag3]. ring.
Qed.
Lemma lead3 ea : proper_ellipse ea -> 0 < - diag3 ea 0%nat 0%nat * diag3 ea 1%nat 1%nat * diag3 ea 2%nat 2%nat.
Proof.
  intros [A1 A2]. cbn [diag3]. assert (0 < / (e_a ea * e_a ea)) by (apply Rinv_0_lt_compat; nra). assert (0 < / (e_b ea * e_b ea)) by (apply Rinv_0_lt_compat; nra).
  assert (0 < / (e_a ea * e_a ea) * / (e_b ea * e_b ea)) by (apply Rmult_lt_0_compat; auto). lra.
Qed.
Lemma planar_roots ea eb : proper_ellipse ea -> proper_ellipse eb -> disjoint2 ea eb -> exists l0 l1 k, l0 < l1 /\ l1 < 0 /\ 0 < k /\
  (forall x, det3 (pencil x (diag3 ea) (pull3 ea eb)) = diag3 ea 0%nat 0%nat * diag3 ea 1%nat 1%nat * diag3 ea 2%nat 2%nat * ((x - l0) * (x - l1) * (x - k))).
Proof.
  intros PA PB DJ. destruct (planar_form ea eb PA PB) as (PD & NG & IN). pose proof (lead3 ea PA) as C0.
  pose proof (fun x => poly3 (diag3 ea) (pull3 ea eb) x eq_refl (diag3_off ea)) as PO.
  assert (Q1 : 0 < / (e_a ea * e_a ea)) by (apply Rinv_0_lt_compat; destruct PA; nra).
  assert (Q2 : 0 < / (e_b ea * e_b ea)) by (apply Rinv_0_lt_compat; destruct PA; nra).
  destruct (crossing2 (/ (e_a ea * e_a ea)) (/ (e_b ea * e_b ea)) (pull3 ea eb 0%nat 0%nat) (pull3 ea eb 0%nat 1%nat) (pull3 ea eb 1%nat 1%nat) (pull3 ea eb 0%nat 2%nat) (pull3 ea eb 1%nat 2%nat) (pull3 ea eb 2%nat 2%nat) Q1 Q2 PD) as (mu & M & DM).
  { apply negative_det2; auto. }
  { intros x y H. match goal with |- 0 < ?t => destruct (Rlt_le_dec 0 t) as [G|G]; [exact G|exfalso] end. destruct (IN x y H G) as (px & py & I). exact (DJ px py I). }
  unfold coeffs3 in PO.
  set (e0 := - diag3 ea 0%nat 0%nat * diag3 ea 1%nat 1%nat * diag3 ea 2%nat 2%nat) in *.
  match type of PO with forall x, poly [_; ?b; ?c; ?d] x = _ => set (e1 := b) in *; set (e2 := c) in *; set (e3 := d) in * end.
  assert (PF : forall x, ((e0 * x + e1) * x + e2) * x + e3 = - det3 (pencil x (diag3 ea) (pull3 ea eb))) by (intros x; rewrite <- PO; unfold poly; cbn [fold_left]; ring).
  destruct (cubic_factors e0 e1 e2 e3 mu C0 M) as (l0 & l1 & k & H0 & H1 & H2 & HK & FA).
  - rewrite PF, pencil3_M. rewrite !Ropp_0, !Rmult_0_l, !Rplus_0_l, Rminus_0_r, Ropp_involutive. apply negative_det2; auto.
  - rewrite PF, pencil3_M. rewrite !Ropp_involutive. exact DM.
  - exists l0, l1, k. split; [lra|]. split; [exact H2|]. split; [exact HK|]. intros x. pose proof (FA x) as F. cbv beta in F. rewrite PF in F. unfold e0 in F. lra.
Qed.

Lemma planar_complete ea eb : proper_ellipse ea -> proper_ellipse eb -> disjoint2 ea eb -> exists l0 l1, l0 < l1 /\ l1 < 0 /\
  (forall l, l < 0 -> det3 (pencil l (diag3 ea) (pull3 ea eb)) = 0 <-> (l = l0 \/ l = l1)) /\
  forall eig, (let m := companion (coeffs3 (diag3 ea) (pull3 ea eb)) in spectrum3 m (eig m 3%nat)) ->
    (is_ellipse_separated eig ea eb = true <-> 1 / 1000000 < l1 - l0).
Proof.
  intros PA PB DJ. destruct (planar_roots ea eb PA PB DJ) as (l0 & l1 & k & H0 & H1 & HK & FA). pose proof (lead3 ea PA) as C0.
  exists l0, l1. split; [exact H0|]. split; [exact H1|]. split.
  - intros l L. rewrite FA. split.
    + intros Z. apply Rmult_integral in Z. destruct Z as [Z|Z]; [lra|]. apply Rmult_integral in Z. destruct Z as [Z|Z]; [|lra]. apply Rmult_integral in Z. destruct Z; [left|right]; lra.
    + intros [-> | ->]; ring.
  - intros eig [LN SP]. unfold is_ellipse_separated, roots_polynomial. change (length (coeffs3 (diag3 ea) (pull3 ea eb)) - 1)%nat with 3%nat. rewrite decide_pad.
    set (m := companion (coeffs3 (diag3 ea) (pull3 ea eb))) in *.
    assert (P : Permutation (eig m 3%nat) [(l0, 0); (l1, 0); (k, 0)]).
    { apply three_roots; [exact LN|lra|]. intros x. rewrite SP. f_equal. unfold m.
      pose proof (poly3 (diag3 ea) (pull3 ea eb) x eq_refl (diag3_off ea)) as PO. unfold coeffs3 in PO |- *. rewrite <- companion3 in PO by lra. rewrite FA in PO.
      apply (Rmult_eq_reg_l (- diag3 ea 0%nat 0%nat * diag3 ea 1%nat 1%nat * diag3 ea 2%nat 2%nat)); [|lra]. rewrite PO. ring. }
    rewrite (decide_two _ l0 l1 [k]); [|lra|lra|constructor; [lra|constructor]|exact P]. rewrite Rabs_left1 by lra. split; intros; lra.
Qed.
Lemma planar_iff ea eb : proper_ellipse ea -> proper_ellipse eb ->
  (disjoint2 ea eb <-> exists l0 l1, l0 < l1 /\ l1 < 0 /\ det3 (pencil l0 (diag3 ea) (pull3 ea eb)) = 0 /\ det3 (pencil l1 (diag3 ea) (pull3 ea eb)) = 0).
Proof.
  intros PA PB. split.
  - intros DJ. destruct (planar_roots ea eb PA PB DJ) as (l0 & l1 & k & H0 & H1 & HK & FA). exists l0, l1. rewrite !FA. repeat split; auto; ring.
  - intros (l0 & l1 & H0 & H1 & Z0 & Z1) px py [IA IB]. destruct (planar_form ea eb PA PB) as (PD & _ & _). rewrite pencil3_M in Z0, Z1.
    unfold in_ellipse in IA, IB. cbv zeta in IA, IB. rewrite !sq_div in IA, IB by (destruct PA, PB; auto).
    pose proof (body3_change ea eb px py) as BC. cbv zeta in BC. destruct BC as [BX BY].
    set (u := cos (e_th ea) * (px - e_x ea) + sin (e_th ea) * (py - e_y ea)) in *. set (v := - sin (e_th ea) * (px - e_x ea) + cos (e_th ea) * (py - e_y ea)) in *.
    pose proof (pull3_form ea eb u v 1) as FO. cbv zeta in FO. pose proof (pull3_last ea eb) as LA. cbv zeta in LA. destruct LA as (L0 & L1 & L2). rewrite L0, L1, L2 in FO. rewrite !Rmult_1_r in FO. rewrite BX, BY in FO.
    assert (Q1 : 0 < / (e_a ea * e_a ea)) by (apply Rinv_0_lt_compat; destruct PA; nra).
    assert (Q2 : 0 < / (e_b ea * e_b ea)) by (apply Rinv_0_lt_compat; destruct PA; nra).
    apply (no_common2 (/ (e_a ea * e_a ea)) (/ (e_b ea * e_b ea)) (pull3 ea eb 0%nat 0%nat) (pull3 ea eb 0%nat 1%nat) (pull3 ea eb 1%nat 1%nat) (pull3 ea eb 0%nat 2%nat) (pull3 ea eb 1%nat 2%nat) (pull3 ea eb 2%nat 2%nat) (- l0) (- l1)) with (x := u) (y := v); auto; try lra.
    intros x y. destruct (Req_dec x 0) as [->|NX]; [destruct (Req_dec y 0) as [->|NY]; [lra|]|]; left; apply PD; auto.
Qed.

(** ---- space: the matrices of the code ---- *)
Lemma iso3 (Q : mat) x y z :
  (forall i j, (i < 3)%nat -> (j < 3)%nat -> Q i 0%nat * Q j 0%nat + Q i 1%nat * Q j 1%nat + Q i 2%nat * Q j 2%nat = ident i j) ->
  (Q 0%nat 0%nat * x + Q 1%nat 0%nat * y + Q 2%nat 0%nat * z) * (Q 0%nat 0%nat * x + Q 1%nat 0%nat * y + Q 2%nat 0%nat * z) +
  (Q 0%nat 1%nat * x + Q 1%nat 1%nat * y + Q 2%nat 1%nat * z) * (Q 0%nat 1%nat * x + Q 1%nat 1%nat * y + Q 2%nat 1%nat * z) +
  (Q 0%nat 2%nat * x + Q 1%nat 2%nat * y + Q 2%nat 2%nat * z) * (Q 0%nat 2%nat * x + Q 1%nat 2%nat * y + Q 2%nat 2%nat * z) = x * x + y * y + z * z.
Proof.
  intros O.
  pose proof (O 0%nat 0%nat ltac:(lia) ltac:(lia)) as O00. pose proof (O 0%nat 1%nat ltac:(lia) ltac:(lia)) as O01.
  pose proof (O 0%nat 2%nat ltac:(lia) ltac:(lia)) as O02. pose proof (O 1%nat 1%nat ltac:(lia) ltac:(lia)) as O11.
  pose proof (O 1%nat 2%nat ltac:(lia) ltac:(lia)) as O12. pose proof (O 2%nat 2%nat ltac:(lia) ltac:(lia)) as O22. clear O.
  unfold ident in *. cbn [Nat.eqb] in *.
  transitivity ((Q 0%nat 0%nat * Q 0%nat 0%nat + Q 0%nat 1%nat * Q 0%nat 1%nat + Q 0%nat 2%nat * Q 0%nat 2%nat) * (x * x) +
    (Q 1%nat 0%nat * Q 1%nat 0%nat + Q 1%nat 1%nat * Q 1%nat 1%nat + Q 1%nat 2%nat * Q 1%nat 2%nat) * (y * y) +
    (Q 2%nat 0%nat * Q 2%nat 0%nat + Q 2%nat 1%nat * Q 2%nat 1%nat + Q 2%nat 2%nat * Q 2%nat 2%nat) * (z * z) +
    2 * ((Q 0%nat 0%nat * Q 1%nat 0%nat + Q 0%nat 1%nat * Q 1%nat 1%nat + Q 0%nat 2%nat * Q 1%nat 2%nat) * (x * y)) +
    2 * ((Q 0%nat 0%nat * Q 2%nat 0%nat + Q 0%nat 1%nat * Q 2%nat 1%nat + Q 0%nat 2%nat * Q 2%nat 2%nat) * (x * z)) +
    2 * ((Q 1%nat 0%nat * Q 2%nat 0%nat + Q 1%nat 1%nat * Q 2%nat 1%nat + Q 1%nat 2%nat * Q 2%nat 2%nat) * (y * z))); [ring|].
  rewrite O00, O01, O02, O11, O12, O22. ring.
Qed.
Lemma rot_orth_cols w x y z : w * w + x * x + y * y + z * z = 1 -> forall i j, (i < 3)%nat -> (j < 3)%nat ->
  rotq w x y z 0%nat i * rotq w x y z 0%nat j + rotq w x y z 1%nat i * rotq w x y z 1%nat j + rotq w x y z 2%nat i * rotq w x y z 2%nat j = ident i j.
Proof.
  intros H i j Hi Hj. assert (E : w * w = 1 - x * x - y * y - z * z) by lra.
  destruct i as [|[|[|i]]]; [| | |lia]; (destruct j as [|[|[|j]]]; [| | |lia]); unfold rotq, ident; cbn [Nat.eqb]; ring [E].
Qed.

(** World coordinates of a point given in the frame of the body. *)
Lemma body_inv e u v w : proper_ellipsoid e -> exists px py pz, body e px py pz 0%nat = u /\ body e px py pz 1%nat = v /\ body e px py pz 2%nat = w.
Proof.
  intros (_ & _ & _ & U). pose proof (rot_orth_cols _ _ _ _ U) as O. fold (rot_of e) in O.
  pose proof (O 0%nat 0%nat ltac:(lia) ltac:(lia)) as O00. pose proof (O 0%nat 1%nat ltac:(lia) ltac:(lia)) as O01.
  pose proof (O 0%nat 2%nat ltac:(lia) ltac:(lia)) as O02. pose proof (O 1%nat 1%nat ltac:(lia) ltac:(lia)) as O11.
  pose proof (O 1%nat 2%nat ltac:(lia) ltac:(lia)) as O12. pose proof (O 2%nat 2%nat ltac:(lia) ltac:(lia)) as O22. clear O.
  unfold ident in *. cbn [Nat.eqb] in *. unfold body. set (Q := rot_of e) in *. clearbody Q.
  exists (d_x e + (Q 0%nat 0%nat * u + Q 0%nat 1%nat * v + Q 0%nat 2%nat * w)), (d_y e + (Q 1%nat 0%nat * u + Q 1%nat 1%nat * v + Q 1%nat 2%nat * w)), (d_z e + (Q 2%nat 0%nat * u + Q 2%nat 1%nat * v + Q 2%nat 2%nat * w)).
  split; [|split].
  - transitivity ((Q 0%nat 0%nat * Q 0%nat 0%nat + Q 1%nat 0%nat * Q 1%nat 0%nat + Q 2%nat 0%nat * Q 2%nat 0%nat) * u + (Q 0%nat 0%nat * Q 0%nat 1%nat + Q 1%nat 0%nat * Q 1%nat 1%nat + Q 2%nat 0%nat * Q 2%nat 1%nat) * v +
      (Q 0%nat 0%nat * Q 0%nat 2%nat + Q 1%nat 0%nat * Q 1%nat 2%nat + Q 2%nat 0%nat * Q 2%nat 2%nat) * w); [ring|rewrite O00, O01, O02; ring].
  - transitivity ((Q 0%nat 0%nat * Q 0%nat 1%nat + Q 1%nat 0%nat * Q 1%nat 1%nat + Q 2%nat 0%nat * Q 2%nat 1%nat) * u + (Q 0%nat 1%nat * Q 0%nat 1%nat + Q 1%nat 1%nat * Q 1%nat 1%nat + Q 2%nat 1%nat * Q 2%nat 1%nat) * v +
      (Q 0%nat 1%nat * Q 0%nat 2%nat + Q 1%nat 1%nat * Q 1%nat 2%nat + Q 2%nat 1%nat * Q 2%nat 2%nat) * w); [ring|rewrite O01, O11, O12; ring].
  - transitivity ((Q 0%nat 0%nat * Q 0%nat 2%nat + Q 1%nat 0%nat * Q 1%nat 2%nat + Q 2%nat 0%nat * Q 2%nat 2%nat) * u + (Q 0%nat 1%nat * Q 0%nat 2%nat + Q 1%nat 1%nat * Q 1%nat 2%nat + Q 2%nat 1%nat * Q 2%nat 2%nat) * v +
      (Q 0%nat 2%nat * Q 0%nat 2%nat + Q 1%nat 2%nat * Q 1%nat 2%nat + Q 2%nat 2%nat * Q 2%nat 2%nat) * w); [ring|rewrite O02, O12, O22; ring].
Qed.

Lemma block_norm ea eb x y z : proper_ellipsoid ea -> proper_ellipsoid eb -> let m := mul4 (trans4_inv eb) (trans4 ea) in
  let X i := m i 0%nat * x + m i 1%nat * y + m i 2%nat * z in
  X 0%nat * X 0%nat + X 1%nat * X 1%nat + X 2%nat * X 2%nat = x * x + y * y + z * z.
Proof.
  intros (_ & _ & _ & UA) (_ & _ & _ & UB). cbv zeta.
  pose proof (rot_orth _ _ _ _ UB) as OB. fold (rot_of eb) in OB.
  pose proof (rot_orth_cols _ _ _ _ UA) as OA. fold (rot_of ea) in OA.
  pose proof (iso3 (fun i j => rot_of ea j i) x y z OA) as EA. cbv beta in EA.
  pose proof (iso3 (rot_of eb) (rot_of ea 0%nat 0%nat * x + rot_of ea 0%nat 1%nat * y + rot_of ea 0%nat 2%nat * z) (rot_of ea 1%nat 0%nat * x + rot_of ea 1%nat 1%nat * y + rot_of ea 1%nat 2%nat * z)
    (rot_of ea 2%nat 0%nat * x + rot_of ea 2%nat 1%nat * y + rot_of ea 2%nat 2%nat * z) OB) as EB.
  rewrite <- EA, <- EB. clear EA EB OA OB UA UB.
  unfold mul4, trans4_inv, trans4. set (RA := rot_of ea). set (RB := rot_of eb). clearbody RA RB.
  assert (E : forall i, RB 0%nat i * (RA 0%nat 0%nat * x + RA 0%nat 1%nat * y + RA 0%nat 2%nat * z) + RB 1%nat i * (RA 1%nat 0%nat * x + RA 1%nat 1%nat * y + RA 1%nat 2%nat * z) + RB 2%nat i * (RA 2%nat 0%nat * x + RA 2%nat 1%nat * y + RA 2%nat 2%nat * z) =
    (RB 0%nat i * RA 0%nat 0%nat + RB 1%nat i * RA 1%nat 0%nat + RB 2%nat i * RA 2%nat 0%nat) * x + (RB 0%nat i * RA 0%nat 1%nat + RB 1%nat i * RA 1%nat 1%nat + RB 2%nat i * RA 2%nat 1%nat) * y + (RB 0%nat i * RA 0%nat 2%nat + RB 1%nat i * RA 1%nat 2%nat + RB 2%nat i * RA 2%nat 2%nat) * z) by (intros i; ring).
  rewrite !E. rewrite !Rmult_0_r, !Rplus_0_r. reflexivity.
Qed.

Lemma spatial_form ea eb : proper_ellipsoid ea -> proper_ellipsoid eb -> let b := pull4 ea eb in
  let fb x y z := f3 (b 0%nat 0%nat) (b 0%nat 1%nat) (b 0%nat 2%nat) (b 1%nat 1%nat) (b 1%nat 2%nat) (b 2%nat 2%nat) x y z in
  (forall x y z, (x <> 0 \/ y <> 0 \/ z <> 0) -> 0 < fb x y z) /\
  (exists x y z, fb x y z + 2 * (b 0%nat 3%nat * x) + 2 * (b 1%nat 3%nat * y) + 2 * (b 2%nat 3%nat * z) + b 3%nat 3%nat < 0) /\
  (forall x y z, / (d_a ea * d_a ea) * (x * x) + / (d_b ea * d_b ea) * (y * y) + / (d_c ea * d_c ea) * (z * z) <= 1 ->
    fb x y z + 2 * (b 0%nat 3%nat * x) + 2 * (b 1%nat 3%nat * y) + 2 * (b 2%nat 3%nat * z) + b 3%nat 3%nat <= 0 ->
    exists px py pz, in_ellipsoid ea px py pz /\ in_ellipsoid eb px py pz) /\
  (forall px py pz, in_ellipsoid ea px py pz -> in_ellipsoid eb px py pz -> exists x y z,
    / (d_a ea * d_a ea) * (x * x) + / (d_b ea * d_b ea) * (y * y) + / (d_c ea * d_c ea) * (z * z) <= 1 /\
    fb x y z + 2 * (b 0%nat 3%nat * x) + 2 * (b 1%nat 3%nat * y) + 2 * (b 2%nat 3%nat * z) + b 3%nat 3%nat <= 0).
Proof.
  intros PA PB. cbv zeta.
  pose proof PA as (A1 & A2 & A3 & UA). pose proof PB as (B1 & B2 & B3 & UB).
  pose proof (fun x y z t => pull4_form ea eb x y z t) as FO. cbv zeta beta in FO.
  pose proof (pull4_last ea eb) as LA. cbv zeta in LA. destruct LA as (L0 & L1 & L2 & L3).
  pose proof (fun px py pz => body4_change ea eb px py pz 0%nat PA ltac:(lia)) as BX.
  pose proof (fun px py pz => body4_change ea eb px py pz 1%nat PA ltac:(lia)) as BY.
  pose proof (fun px py pz => body4_change ea eb px py pz 2%nat PA ltac:(lia)) as BZ. cbv zeta in BX, BY, BZ.
  pose proof (fun x y z => block_norm ea eb x y z PA PB) as NX. cbv zeta beta in NX.
  assert (W1 : 0 < / (d_a eb * d_a eb)) by (apply Rinv_0_lt_compat; nra).
  assert (W2 : 0 < / (d_b eb * d_b eb)) by (apply Rinv_0_lt_compat; nra).
  assert (W3 : 0 < / (d_c eb * d_c eb)) by (apply Rinv_0_lt_compat; nra).
  set (m := mul4 (trans4_inv eb) (trans4 ea)) in *. clearbody m. set (b := pull4 ea eb) in *. clearbody b.
  assert (F1 : forall px py pz, let u := body ea px py pz 0%nat in let v := body ea px py pz 1%nat in let w := body ea px py pz 2%nat in
    f3 (b 0%nat 0%nat) (b 0%nat 1%nat) (b 0%nat 2%nat) (b 1%nat 1%nat) (b 1%nat 2%nat) (b 2%nat 2%nat) u v w + 2 * (b 0%nat 3%nat * u) + 2 * (b 1%nat 3%nat * v) + 2 * (b 2%nat 3%nat * w) + b 3%nat 3%nat =
    / (d_a eb * d_a eb) * (body eb px py pz 0%nat * body eb px py pz 0%nat) + / (d_b eb * d_b eb) * (body eb px py pz 1%nat * body eb px py pz 1%nat) + / (d_c eb * d_c eb) * (body eb px py pz 2%nat * body eb px py pz 2%nat) - 1).
  { intros px py pz. cbv zeta. specialize (BX px py pz). specialize (BY px py pz). specialize (BZ px py pz).
    pose proof (FO (body ea px py pz 0%nat) (body ea px py pz 1%nat) (body ea px py pz 2%nat) 1) as G. rewrite L0, L1, L2, L3 in G. rewrite !Rmult_1_r in G. rewrite BX, BY, BZ in G.
    unfold f3. lra. }
  cbv zeta in F1. clear BX BY BZ.
  split; [|split; [|split]].
  - intros x y z N. specialize (FO x y z 0). rewrite L0, L1, L2 in FO. rewrite !Rmult_0_r, !Rplus_0_r in FO. specialize (NX x y z).
    set (X0 := m 0%nat 0%nat * x + m 0%nat 1%nat * y + m 0%nat 2%nat * z) in *.
    set (X1 := m 1%nat 0%nat * x + m 1%nat 1%nat * y + m 1%nat 2%nat * z) in *.
    set (X2 := m 2%nat 0%nat * x + m 2%nat 1%nat * y + m 2%nat 2%nat * z) in *. clearbody X0 X1 X2.
    assert (NP : 0 < x * x + y * y + z * z).
    { pose proof (Rle_0_sqr x). pose proof (Rle_0_sqr y). pose proof (Rle_0_sqr z). unfold Rsqr in *. destruct N as [N|[N|N]]; apply sq_pos in N; lra. }
    pose proof (Rle_0_sqr X0) as S0. pose proof (Rle_0_sqr X1) as S1. pose proof (Rle_0_sqr X2) as S2. unfold Rsqr in *.
    assert (G0 : 0 <= / (d_a eb * d_a eb) * (X0 * X0)) by (apply Rmult_le_pos; lra).
    assert (G1 : 0 <= / (d_b eb * d_b eb) * (X1 * X1)) by (apply Rmult_le_pos; lra).
    assert (G2 : 0 <= / (d_c eb * d_c eb) * (X2 * X2)) by (apply Rmult_le_pos; lra).
    assert (P : 0 < / (d_a eb * d_a eb) * (X0 * X0) + / (d_b eb * d_b eb) * (X1 * X1) + / (d_c eb * d_c eb) * (X2 * X2)).
    { destruct (Req_dec X0 0) as [Z0|Z0].
      - destruct (Req_dec X1 0) as [Z1|Z1].
        + assert (0 < X2 * X2) by (rewrite Z0, Z1 in NX; lra). assert (0 < / (d_c eb * d_c eb) * (X2 * X2)) by (apply Rmult_lt_0_compat; auto). lra.
        + apply sq_pos in Z1. assert (0 < / (d_b eb * d_b eb) * (X1 * X1)) by (apply Rmult_lt_0_compat; auto). lra.
      - apply sq_pos in Z0. assert (0 < / (d_a eb * d_a eb) * (X0 * X0)) by (apply Rmult_lt_0_compat; auto). lra. }
    unfold f3. lra.
  - exists (body ea (d_x eb) (d_y eb) (d_z eb) 0%nat), (body ea (d_x eb) (d_y eb) (d_z eb) 1%nat), (body ea (d_x eb) (d_y eb) (d_z eb) 2%nat).
    rewrite F1. assert (Z : forall i, body eb (d_x eb) (d_y eb) (d_z eb) i = 0) by (intros i; unfold body; ring). rewrite !Z. lra.
  - intros x y z HA HB. destruct (body_inv ea x y z PA) as (px & py & pz & X & Y & Z). exists px, py, pz. specialize (F1 px py pz). rewrite X, Y, Z in F1.
    unfold in_ellipsoid. rewrite X, Y, Z. rewrite !sq_div by auto. split; [exact HA|lra].
  - intros px py pz IA IB. exists (body ea px py pz 0%nat), (body ea px py pz 1%nat), (body ea px py pz 2%nat). rewrite F1.
    unfold in_ellipsoid in IA, IB. rewrite !sq_div in IA, IB by auto. split; lra.
Qed.

Lemma pencil4_M ea eb l : det4 (pencil l (diag4 ea) (pull4 ea eb)) =
  det4 (sym4 (- l * / (d_a ea * d_a ea) + pull4 ea eb 0%nat 0%nat) (pull4 ea eb 0%nat 1%nat) (pull4 ea eb 0%nat 2%nat) (- l * / (d_b ea * d_b ea) + pull4 ea eb 1%nat 1%nat) (pull4 ea eb 1%nat 2%nat)
    (- l * / (d_c ea * d_c ea) + pull4 ea eb 2%nat 2%nat) (pull4 ea eb 0%nat 3%nat) (pull4 ea eb 1%nat 3%nat) (pull4 ea eb 2%nat 3%nat) (pull4 ea eb 3%nat 3%nat - - l)).
Proof.
  pose proof (pull4_sym ea eb) as SY. unfold det4, det3, det2, minor, pencil, sym4. cbn [Nat.ltb Nat.leb].
  rewrite (SY 1%nat 0%nat), (SY 2%nat 0%nat), (SY 2%nat 1%nat), (SY 3%nat 0%nat), (SY 3%nat 1%nat), (SY 3%nat 2%nat). cbn [diag4]. ring.
Qed.
Lemma pencil4_N ea eb l : det4 (pencil l (diag4 ea) (pull4 ea eb)) =
  det4 (sym4 (l * / (d_a ea * d_a ea) - pull4 ea eb 0%nat 0%nat) (- pull4 ea eb 0%nat 1%nat) (- pull4 ea eb 0%nat 2%nat) (l * / (d_b ea * d_b ea) - pull4 ea eb 1%nat 1%nat) (- pull4 ea eb 1%nat 2%nat)
    (l * / (d_c ea * d_c ea) - pull4 ea eb 2%nat 2%nat) (- pull4 ea eb 0%nat 3%nat) (- pull4 ea eb 1%nat 3%nat) (- pull4 ea eb 2%nat 3%nat) (- l - pull4 ea eb 3%nat 3%nat)).
Proof.
  pose proof (pull4_sym ea eb) as SY. unfold det4, det3, det2, minor, pencil, sym4. cbn [Nat.ltb Nat.leb].
  rewrite (SY 1%nat 0%nat), (SY 2%nat 0%nat), (SY 2%nat 1%nat), (SY 3%nat 0%nat), (SY 3%nat 1%nat), (SY 3%nat 2%nat). cbn [diag4]. ring.
Qed.
Lemma lead4 ea : proper_ellipsoid ea -> - diag4 ea 0%nat 0%nat * diag4 ea 1%nat 1%nat * diag4 ea 2%nat 2%nat < 0.
Proof.
  intros (A1 & A2 & A3 & _). cbn [diag4]. assert (0 < / (d_a ea * d_a ea)) by (apply Rinv_0_lt_compat; nra). assert (0 < / (d_b ea * d_b ea)) by (apply Rinv_0_lt_compat; nra). assert (0 < / (d_c ea * d_c ea)) by (apply Rinv_0_lt_compat; nra).
  assert (0 < / (d_a ea * d_a ea) * / (d_b ea * d_b ea) * / (d_c ea * d_c ea)) by (repeat apply Rmult_lt_0_compat; auto). lra.
Qed.
Lemma spatial_roots ea eb : proper_ellipsoid ea -> proper_ellipsoid eb -> disjoint3 ea eb -> exists l0 l1 k0 k1, l0 < l1 /\ l1 < 0 /\ 0 < k0 /\ 0 < k1 /\
  (forall x, det4 (pencil x (diag4 ea) (pull4 ea eb)) = - diag4 ea 0%nat 0%nat * diag4 ea 1%nat 1%nat * diag4 ea 2%nat 2%nat * ((x - l0) * (x - l1) * ((x - k0) * (x - k1)))).
Proof.
  intros PA PB DJ. destruct (spatial_form ea eb PA PB) as (PD & NG & IN & _). pose proof (lead4 ea PA) as C0. pose proof PA as (A1 & A2 & A3 & _).
  pose proof (fun x => poly4 (diag4 ea) (pull4 ea eb) x eq_refl (diag4_off ea)) as PO.
  assert (Q1 : 0 < / (d_a ea * d_a ea)) by (apply Rinv_0_lt_compat; nra).
  assert (Q2 : 0 < / (d_b ea * d_b ea)) by (apply Rinv_0_lt_compat; nra).
  assert (Q3 : 0 < / (d_c ea * d_c ea)) by (apply Rinv_0_lt_compat; nra).
  pose proof (negative_det3 _ _ _ _ _ _ _ _ _ _ PD NG) as DB.
  destruct (crossing3 _ _ _ _ _ _ _ _ _ (pull4 ea eb 0%nat 3%nat) (pull4 ea eb 1%nat 3%nat) (pull4 ea eb 2%nat 3%nat) (pull4 ea eb 3%nat 3%nat) Q1 Q2 Q3 PD DB) as (mu & M & DM).
  { intros x y z H. match goal with |- 0 < ?t => destruct (Rlt_le_dec 0 t) as [G|G]; [exact G|exfalso] end. destruct (IN x y z H G) as (px & py & pz & I). exact (DJ px py pz I). }
  destruct (middle_sign (d_a ea) (d_b ea) (d_c ea) _ _ _ _ _ _ (pull4 ea eb 0%nat 3%nat) (pull4 ea eb 1%nat 3%nat) (pull4 ea eb 2%nat 3%nat) (pull4 ea eb 3%nat 3%nat) A1 A2 A3 PD) as (nu & N & DN).
  unfold coeffs4 in PO. cbv zeta in PO.
  set (e0 := - diag4 ea 0%nat 0%nat * diag4 ea 1%nat 1%nat * diag4 ea 2%nat 2%nat) in *.
  match type of PO with forall x, poly [_; ?b; ?c; ?d; ?e] x = _ => set (e1 := b) in *; set (e2 := c) in *; set (e3 := d) in *; set (e4 := e) in * end.
  assert (PF : forall x, (((e0 * x + e1) * x + e2) * x + e3) * x + e4 = det4 (pencil x (diag4 ea) (pull4 ea eb))) by (intros x; rewrite <- PO; unfold poly; cbn [fold_left]; ring).
  destruct (quartic_factors e0 e1 e2 e3 e4 mu nu C0 M N) as (l0 & l1 & k0 & k1 & H0 & H1 & H2 & HK0 & HK1 & FA).
  - rewrite PF, pencil4_M. rewrite !Ropp_0, !Rmult_0_l, !Rplus_0_l, Rminus_0_r. exact DB.
  - rewrite PF, pencil4_M. rewrite !Ropp_involutive. exact DM.
  - rewrite PF, pencil4_N. exact DN.
  - exists l0, l1, k0, k1. split; [lra|]. split; [exact H2|]. split; [exact HK0|]. split; [exact HK1|]. intros x. pose proof (FA x) as F. cbv beta in F. rewrite PF in F. exact F.
Qed.

Lemma spatial_complete ea eb : proper_ellipsoid ea -> proper_ellipsoid eb -> disjoint3 ea eb -> exists l0 l1, l0 < l1 /\ l1 < 0 /\
  (forall l, l < 0 -> det4 (pencil l (diag4 ea) (pull4 ea eb)) = 0 <-> (l = l0 \/ l = l1)) /\
  forall eig, (let m := companion (coeffs4 (diag4 ea) (pull4 ea eb)) in spectrum4 m (eig m 4%nat)) ->
    (is_ellipsoid_separated eig ea eb = true <-> 1 / 1000000 < l1 - l0).
Proof.
  intros PA PB DJ. destruct (spatial_roots ea eb PA PB DJ) as (l0 & l1 & k0 & k1 & H0 & H1 & HK0 & HK1 & FA). pose proof (lead4 ea PA) as C0.
  exists l0, l1. split; [exact H0|]. split; [exact H1|]. split.
  - intros l L. rewrite FA. split.
    + intros Z. apply Rmult_integral in Z. destruct Z as [Z|Z]; [lra|]. apply Rmult_integral in Z. destruct Z as [Z|Z]; apply Rmult_integral in Z; destruct Z; first [left; lra|right; lra|exfalso; lra].
    + intros [-> | ->]; ring.
  - intros eig [LN SP]. unfold is_ellipsoid_separated, roots_polynomial. change (length (coeffs4 (diag4 ea) (pull4 ea eb)) - 1)%nat with 4%nat. rewrite decide_pad.
    set (m := companion (coeffs4 (diag4 ea) (pull4 ea eb))) in *.
    assert (P : Permutation (eig m 4%nat) [(l0, 0); (l1, 0); (k0, 0); (k1, 0)]).
    { apply four_real_roots; [exact LN|lra|lra|lra|]. intros x. rewrite SP. f_equal. unfold m.
      pose proof (poly4 (diag4 ea) (pull4 ea eb) x eq_refl (diag4_off ea)) as PO. unfold coeffs4 in PO |- *. cbv zeta in PO |- *. rewrite <- companion4 in PO by lra. rewrite FA in PO.
      apply (Rmult_eq_reg_l (- diag4 ea 0%nat 0%nat * diag4 ea 1%nat 1%nat * diag4 ea 2%nat 2%nat)); [|lra]. rewrite PO. ring. }
    rewrite (decide_two _ l0 l1 [k0; k1]); [|lra|lra|constructor; [lra|constructor; [lra|constructor]]|exact P]. rewrite Rabs_left1 by lra. split; intros; lra.
Qed.
Lemma spatial_iff ea eb : proper_ellipsoid ea -> proper_ellipsoid eb ->
  (disjoint3 ea eb <-> exists l0 l1, l0 < l1 /\ l1 < 0 /\ det4 (pencil l0 (diag4 ea) (pull4 ea eb)) = 0 /\ det4 (pencil l1 (diag4 ea) (pull4 ea eb)) = 0).
Proof.
  intros PA PB. split.
  - intros DJ. destruct (spatial_roots ea eb PA PB DJ) as (l0 & l1 & k0 & k1 & H0 & H1 & HK0 & HK1 & FA). exists l0, l1. rewrite !FA. split; [exact H0|]. split; [exact H1|]. split; ring.
  - intros (l0 & l1 & H0 & H1 & Z0 & Z1) px py pz [IA IB]. destruct (spatial_form ea eb PA PB) as (PD & _ & _ & OUT). rewrite pencil4_M in Z0, Z1. pose proof PA as (A1 & A2 & A3 & _).
    destruct (OUT px py pz IA IB) as (x & y & z & HA & HB). unfold f3 in PD, HB.
    assert (Q1 : 0 < / (d_a ea * d_a ea)) by (apply Rinv_0_lt_compat; nra).
    assert (Q2 : 0 < / (d_b ea * d_b ea)) by (apply Rinv_0_lt_compat; nra).
    assert (Q3 : 0 < / (d_c ea * d_c ea)) by (apply Rinv_0_lt_compat; nra).
    refine (no_common3 _ _ _ _ _ _ _ _ _ _ _ _ _ (- l0) (- l1) Q1 Q2 Q3 _ _ _ _ Z0 Z1 x y z HA HB); try lra.
    intros u v w. destruct (Req_dec u 0) as [->|N1]; [destruct (Req_dec v 0) as [->|N2]; [destruct (Req_dec w 0) as [->|N3]; [lra|]|]|]; left; apply PD; auto.
Qed.
