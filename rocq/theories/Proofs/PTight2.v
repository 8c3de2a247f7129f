(** Enclosing ellipses in the plane. *)
From Coq Require Import List Reals ZArith Arith Bool Lia Lra Psatz.
From Verif.Base Require Import Outcome.
From Verif.Model Require Import MGeom MMultiBody MTightFit.
From Verif.Spec Require Import SGeom SRigid.
From Verif.Proofs Require Import PGeom PGeom2 PRot.
Import ListNotations.
Local Open Scope R_scope.

Lemma v2_eq u v : x2 u = x2 v -> y2 u = y2 v -> u = v.
Proof. destruct u, v. cbn. intros -> ->. reflexivity. Qed.
Lemma app_mul2 A B v : app2 (mul2 A B) v = app2 A (app2 B v).
Proof. apply v2_eq; cbn; ring. Qed.
Lemma dot_tr2 A u v : dotr2 (app2 A u) v = dotr2 u (app2 (tr2 A) v).
Proof. unfold dotr2. cbn. ring. Qed.
Lemma tr_tr2 A : tr2 (tr2 A) = A.
Proof. destruct A. reflexivity. Qed.
Lemma app_id2 v : app2 id2 v = v.
Proof. apply v2_eq; cbn; ring. Qed.
Lemma dotr_ge v : 0 <= dotr2 v v.
Proof. unfold dotr2. pose proof (Rle_0_sqr (x2 v)). pose proof (Rle_0_sqr (y2 v)). unfold Rsqr in *. lra. Qed.
Lemma dotr_0 v : dotr2 v v <= 0 -> v = V2 0 0.
Proof.
  unfold dotr2. intros H. pose proof (Rle_0_sqr (x2 v)). pose proof (Rle_0_sqr (y2 v)). unfold Rsqr in *.
  apply v2_eq; cbn; apply Rsqr_0_uniq; unfold Rsqr; lra.
Qed.
Definition v2_dec (v : v2) : v = V2 0 0 \/ v <> V2 0 0.
Proof.
  destruct (Req_EM_T (x2 v) 0) as [E|N].
  - destruct (Req_EM_T (y2 v) 0) as [E2|N2]; [left; apply v2_eq; assumption|]. right. intros ->. apply N2. reflexivity.
  - right. intros ->. apply N. reflexivity.
Qed.
(** For a symmetric positive definite matrix the decomposition diagonalises it. *)
Lemma svd2_col A U V s0 s1 e s : sympd2 A -> orthogonal2 U -> orthogonal2 V -> A = mul2 (mul2 U (diag2 s0 s1)) (tr2 V) ->
  app2 (diag2 s0 s1) e = scale2 s e -> 0 <= s -> app2 U e = app2 V e.
Proof.
  intros [S P] [U1 U2] [V1 OV2] EA D S0.
  assert (A1 : app2 A (app2 V e) = scale2 s (app2 U e)).
  { rewrite EA, !app_mul2. rewrite <- (app_mul2 (tr2 V) V), OV2, app_id2, D. apply v2_eq; cbn; ring. }
  assert (A2 : app2 A (app2 U e) = scale2 s (app2 V e)).
  { rewrite <- S, EA, !tr_mul2, tr_tr2. change (tr2 (diag2 s0 s1)) with (diag2 s0 s1). rewrite !app_mul2. rewrite <- (app_mul2 (tr2 U) U), U2, app_id2, D. apply v2_eq; cbn; ring. }
  set (u := app2 U e) in *. set (v := app2 V e) in *. set (w := sub2 u v).
  assert (W : w = V2 0 0).
  { destruct (v2_dec w) as [E|N]; [exact E|]. exfalso. specialize (P w N).
    assert (AW : app2 A w = scale2 (- s) w).
    { assert (E : app2 A w = sub2 (app2 A u) (app2 A v)) by (unfold w; apply v2_eq; cbn; ring). rewrite E, A1, A2. unfold w. apply v2_eq; cbn; ring. }
    rewrite AW in P. replace (dotr2 w (scale2 (- s) w)) with (- (s * dotr2 w w)) in P by (unfold dotr2; cbn; ring).
    pose proof (dotr_ge w). nra. }
  unfold w in W. apply v2_eq.
  - apply Rminus_diag_uniq. change (x2 (sub2 u v) = 0). rewrite W. reflexivity.
  - apply Rminus_diag_uniq. change (y2 (sub2 u v) = 0). rewrite W. reflexivity.
Qed.
Lemma svd2_sym A U s0 s1 : sympd2 A -> svd2_of A U s0 s1 -> A = conj2 U s0 s1 /\ 0 < s0 /\ 0 < s1.
Proof.
  intros SP (OU & [V [OV EA]] & S01 & S1).
  assert (C0 : app2 U (V2 1 0) = app2 V (V2 1 0)) by (apply (svd2_col A U V s0 s1 (V2 1 0) s0 SP OU OV EA); [apply v2_eq; cbn; ring|lra]).
  assert (C1 : app2 U (V2 0 1) = app2 V (V2 0 1)) by (apply (svd2_col A U V s0 s1 (V2 0 1) s1 SP OU OV EA); [apply v2_eq; cbn; ring|lra]).
  assert (UV : U = V).
  { unfold app2 in C0, C1. cbn in C0, C1. injection C0 as C00 C01. injection C1 as C10 C11. apply m2_eq; lra. }
  subst V. assert (EC : A = conj2 U s0 s1) by exact EA. split; [exact EC|].
  destruct OU as [U1 U2].
  assert (NE : forall e, e <> V2 0 0 -> app2 U e <> V2 0 0).
  { intros e N Z. apply N. rewrite <- (app_id2 e), <- U2, app_mul2, Z. apply v2_eq; cbn; ring. }
  assert (F : forall e, dotr2 (app2 U e) (app2 A (app2 U e)) = dotr2 e (app2 (diag2 s0 s1) e)).
  { intros e. rewrite EA, !app_mul2, <- (app_mul2 (tr2 U) U), U2, app_id2, dot_tr2, <- (app_mul2 (tr2 U) U), U2, app_id2. reflexivity. }
  destruct SP as [_ P]. split.
  - assert (N : V2 1 0 <> V2 0 0) by (intros E; injection E; lra). pose proof (P _ (NE _ N)) as H. rewrite F in H. unfold dotr2 in H. cbn in H. lra.
  - assert (N : V2 0 1 <> V2 0 0) by (intros E; injection E; lra). pose proof (P _ (NE _ N)) as H. rewrite F in H. unfold dotr2 in H. cbn in H. lra.
Qed.
(** Quadratic forms. *)
Definition form2 (A : m2) (x : v2) : R := dotr2 x (app2 A x).
Lemma form_conj2 Rm d0 d1 x : form2 (conj2 Rm d0 d1) x = d0 * (x2 (app2 (tr2 Rm) x) * x2 (app2 (tr2 Rm) x)) + d1 * (y2 (app2 (tr2 Rm) x) * y2 (app2 (tr2 Rm) x)).
Proof. unfold form2, conj2, dotr2. cbn. ring. Qed.
Lemma orth_norm2 M x : orthogonal2 M -> dotr2 (app2 (tr2 M) x) (app2 (tr2 M) x) = dotr2 x x.
Proof. intros [E _]. rewrite dot_tr2, tr_tr2, <- app_mul2, E, app_id2. reflexivity. Qed.
Lemma conj2_sym Rm d0 d1 : tr2 (conj2 Rm d0 d1) = conj2 Rm d0 d1.
Proof. unfold conj2. apply m2_eq; cbn; ring. Qed.
Lemma conj2_scal Rm d0 d1 k : mul2 (conj2 Rm d0 d1) (diag2 k k) = conj2 Rm (d0 * k) (d1 * k).
Proof. unfold conj2. apply m2_eq; cbn; ring. Qed.
Lemma conj2_mul Rm d0 d1 e0 e1 : orthogonal2 Rm -> mul2 (conj2 Rm d0 d1) (conj2 Rm e0 e1) = conj2 Rm (d0 * e0) (d1 * e1).
Proof.
  intros [_ O2]. unfold conj2. rewrite (mul2_assoc (mul2 Rm (diag2 d0 d1)) (tr2 Rm)), <- (mul2_assoc (tr2 Rm)), <- (mul2_assoc (tr2 Rm) Rm), O2, mul1_2.
  rewrite <- !mul2_assoc. f_equal. rewrite mul2_assoc. f_equal. apply m2_eq; cbn; ring.
Qed.
Lemma conj2_pd Rm d0 d1 : orthogonal2 Rm -> 0 < d0 -> 0 < d1 -> sympd2 (conj2 Rm d0 d1).
Proof.
  intros O D0 D1. split; [apply conj2_sym|]. intros x N. fold (form2 (conj2 Rm d0 d1) x). rewrite form_conj2.
  set (y := app2 (tr2 Rm) x). assert (Ny : y <> V2 0 0).
  { intros E. apply N. destruct O as [O1 _]. rewrite <- (app_id2 x), <- O1, app_mul2. fold y. rewrite E. apply v2_eq; cbn; ring. }
  pose proof (Rle_0_sqr (x2 y)). pose proof (Rle_0_sqr (y2 y)). unfold Rsqr in *.
  destruct (Req_EM_T (x2 y) 0) as [E1|N1].
  - destruct (Req_EM_T (y2 y) 0) as [E2|N2]; [elim Ny; apply v2_eq; assumption|].
    assert (0 < y2 y * y2 y) by (pose proof (Rlt_0_sqr _ N2); assumption). nra.
  - assert (0 < x2 y * x2 y) by (pose proof (Rlt_0_sqr _ N1); assumption). nra.
Qed.
Lemma sandwich_pd T A : tr2 T = T -> sympd2 A -> (forall x, x <> V2 0 0 -> app2 T x <> V2 0 0) -> sympd2 (mul2 (mul2 T A) T).
Proof.
  intros ST [SA P] N. split.
  - rewrite !tr_mul2, ST, SA, mul2_assoc. reflexivity.
  - intros x Nx. rewrite !app_mul2. rewrite <- ST at 1. rewrite <- dot_tr2. apply P. apply N. exact Nx.
Qed.
Lemma form_sandwich T A x : tr2 T = T -> form2 (mul2 (mul2 T A) T) x = form2 A (app2 T x).
Proof. intros ST. unfold form2. rewrite !app_mul2. rewrite <- ST at 1. rewrite <- dot_tr2. reflexivity. Qed.
Lemma ppow_two x : ppow x (2 / 1) = x * x.
Proof.
  unfold ppow. destruct (Req_EM_T x 0) as [->|N]; [ring|]. replace (2 / 1) with (1 + 1) by field.
  rewrite Rpower_plus, Rpower_1 by (apply Rabs_pos_lt; exact N).
  fold (Rsqr (Rabs x)). rewrite <- Rsqr_abs. reflexivity.
Qed.
Lemma in_form2 a b t p : 0 < a -> 0 < b -> in2 (ellipse0 (a, b) t) p <-> form2 (conj2 (rot2 t) (/ (a * a)) (/ (b * b))) p <= 1.
Proof.
  intros A B. rewrite form_conj2. unfold in2, level2, ellipse0, ellipse_at, along, across. cbn [ba bb be bc bt fst snd x2 y2].
  rewrite !ppow_two. cbn [app2 tr2 rot2 x2 y2 m00 m01 m10 m11].
  set (u := cos t * x2 p + sin t * y2 p). set (v := - sin t * x2 p + cos t * y2 p).
  replace (cos t * (x2 p - 0) + sin t * (y2 p - 0)) with u by (unfold u; ring).
  replace (- sin t * (x2 p - 0) + cos t * (y2 p - 0)) with v by (unfold v; ring).
  replace (u / a * (u / a) + v / b * (v / b)) with (/ (a * a) * (u * u) + / (b * b) * (v * v)) by (field; lra).
  reflexivity.
Qed.
Lemma odiv_eq x y : y <> 0 -> odiv x y = Some (x / y).
Proof. intros N. unfold odiv. destruct (Req_EM_T y 0); [contradiction|reflexivity]. Qed.
Lemma inv_sq_eq x : 0 < x -> inv_sq x = Some (/ (x * x)).
Proof. intros P. unfold inv_sq. rewrite odiv_eq by nra. f_equal. field. lra. Qed.
Lemma inv_root_eq x : 0 < x -> inv_root x = Some (/ sqrt x).
Proof. intros P. unfold inv_root. destruct (Rlt_dec 0 x); [reflexivity|contradiction]. Qed.
Lemma conj_det O d0 d1 : orthogonal2 O -> determinant2 (conj2 O d0 d1) = d0 * d1.
Proof.
  intros [O1 O2]. unfold conj2, determinant2. cbn.
  assert (D : determinant2 O * determinant2 O = 1).
  { assert (E : determinant2 (mul2 O (tr2 O)) = 1) by (rewrite O1; unfold determinant2; cbn; ring). rewrite <- E. unfold determinant2. cbn. ring. }
  unfold determinant2 in D. replace (d0 * d1) with (d0 * d1 * 1) by ring. rewrite <- D. ring.
Qed.
Lemma inv2_eq T : determinant2 T <> 0 -> exists Ti, inv2 T = Some Ti /\ mul2 Ti T = id2 /\ mul2 T Ti = id2 /\ (tr2 T = T -> tr2 Ti = Ti).
Proof.
  intros D. unfold inv2. change (det2 T) with (determinant2 T). rewrite odiv_eq by exact D. cbn [obnd]. eexists. split; [reflexivity|].
  unfold determinant2 in *. split; [|split].
  - apply m2_eq; cbn; field; exact D.
  - apply m2_eq; cbn; field; exact D.
  - intros S. assert (m01 T = m10 T) by (rewrite <- S at 1; reflexivity). apply m2_eq; cbn; try reflexivity; rewrite H; reflexivity.
Qed.
(** The forms are comparable through their coefficients. *)
Lemma form_le2 U c0 c1 d0 d1 x : c0 <= d0 -> c1 <= d1 -> form2 (conj2 U c0 c1) x <= form2 (conj2 U d0 d1) x.
Proof.
  intros A B. rewrite !form_conj2. pose proof (Rle_0_sqr (x2 (app2 (tr2 U) x))). pose proof (Rle_0_sqr (y2 (app2 (tr2 U) x))). unfold Rsqr in *. nra.
Qed.
Lemma form_iso2 U d x : orthogonal2 U -> form2 (conj2 U d d) x = d * dotr2 x x.
Proof. intros O. rewrite form_conj2, <- (orth_norm2 U x O). unfold dotr2. ring. Qed.
(** Hadamard's inequality for the form on two vectors. *)
Lemma hadamard2 F u v : sympd2 F ->
  determinant2 F * ((x2 u * y2 v - y2 u * x2 v) * (x2 u * y2 v - y2 u * x2 v)) <= form2 F u * form2 F v.
Proof.
  intros [S _]. destruct F as [f00 f01 f10 f11], u as [u0 u1], v as [v0 v1]. injection S as E _. subst f10.
  unfold form2, dotr2, determinant2, app2. cbn [m00 m01 m10 m11 x2 y2].
  pose proof (Rle_0_sqr (u0 * (f00 * v0 + f01 * v1) + u1 * (f01 * v0 + f11 * v1))) as P. unfold Rsqr in P.
  match goal with |- ?l <= ?r => replace r with (l + (u0 * (f00 * v0 + f01 * v1) + u1 * (f01 * v0 + f11 * v1)) * (u0 * (f00 * v0 + f01 * v1) + u1 * (f01 * v0 + f11 * v1))) by ring end. lra.
Qed.
Lemma det_mul2 A B : determinant2 (mul2 A B) = determinant2 A * determinant2 B.
Proof. unfold determinant2, mul2. cbn [m00 m01 m10 m11]. ring. Qed.
Lemma form_scale2 F k u : form2 F (V2 (k * x2 u) (k * y2 u)) = k * k * form2 F u.
Proof. unfold form2, dotr2, app2. cbn [x2 y2]. ring. Qed.
(** The orientation read off the decomposition. *)
Lemma orth_conj_angle W z0 z1 t : orthogonal2 W -> cos t = m00 W -> sin t = m10 W -> conj2 W z0 z1 = conj2 (rot2 t) z0 z1.
Proof.
  intros [O1 O2] C S. unfold conj2. destruct W as [w00 w01 w10 w11]. cbn in C, S.
  injection O1 as H1 H2 H3 H4. injection O2 as G1 G2 G3 G4. cbn in *.
  apply m2_eq; cbn; rewrite ?C, ?S.
  - assert (w01 * w01 = w10 * w10) by lra. ring [H].
  - assert (w01 * w11 = - (w00 * w10)) by lra. ring [H].
  - assert (w01 * w11 = - (w00 * w10)) by lra. ring [H].
  - assert (w11 * w11 = w00 * w00) by lra. ring [H].
Qed.
Lemma acos_upper W : orthogonal2 W -> -1 <= m00 W <= 1 /\ cos (acos (m00 W)) = m00 W /\ sin (acos (m00 W)) = Rabs (m10 W).
Proof.
  intros [O1 O2]. destruct W as [w00 w01 w10 w11]. injection O2 as G1 G2 G3 G4. cbn in *.
  assert (B : -1 <= w00 <= 1) by (split; nra). split; [exact B|]. split; [apply cos_acos; exact B|].
  rewrite sin_acos by exact B. unfold Rsqr. replace (1 - w00 * w00) with (w10 * w10) by lra. fold (Rsqr w10). apply sqrt_Rsqr_abs.
Qed.

Section S.
Variable svd : m2 -> m2 * (R * R).
Hypothesis OK : svd2_ok svd.
(** The matrix C of the enclosing ellipse, and its decomposition. *)
Lemma mvce2_matrix a b thA thB : pos_axes2 a -> pos_axes2 b ->
  exists C W z0 z1, sympd2 C /\ svd C = (W, (z0, z1)) /\ svd2_of C W z0 z1 /\ 0 < z0 /\ 0 < z1 /\ C = conj2 W z0 z1 /\
    mvce2 svd a b thA thB = Some ((/ sqrt z0, / sqrt z1), acos (m00 W)) /\
    (forall p, in2 (ellipse0 a thA) p -> form2 C p <= 1) /\ (forall p, in2 (ellipse0 b thB) p -> form2 C p <= 1) /\
    (a = b -> thA = thB -> C = conj2 (rot2 thA) (/ (fst a * fst a)) (/ (snd a * snd a))) /\
    (forall F, sympd2 F -> (forall p, in2 (ellipse0 a thA) p -> form2 F p <= 1) -> (forall p, in2 (ellipse0 b thB) p -> form2 F p <= 1) ->
       determinant2 F <= z0 * z1).
Proof.
  destruct a as [a0 a1], b as [b0 b1]. intros [A0 A1] [B0 B1]. cbn [fst snd] in *.
  set (r := Rmin b0 b1). assert (R0 : 0 < r) by (unfold r; apply Rmin_glb_lt; assumption).
  assert (ORb : orthogonal2 (rot2 thB)) by apply rot2_rotation. assert (ORa : orthogonal2 (rot2 thA)) by apply rot2_rotation.
  set (T := conj2 (rot2 thB) (r / b0) (r / b1)).
  assert (ST : tr2 T = T) by apply conj2_sym.
  assert (D0 : 0 < r / b0) by (apply Rdiv_lt_0_compat; assumption). assert (D1 : 0 < r / b1) by (apply Rdiv_lt_0_compat; assumption).
  assert (DT : determinant2 T <> 0) by (unfold T; rewrite conj_det by exact ORb; nra).
  destruct (inv2_eq T DT) as (Ti & IE & I1 & I2 & STi). specialize (STi ST).
  set (A := conj2 (rot2 thA) (/ (a0 * a0)) (/ (a1 * a1))).
  assert (PA : sympd2 A) by (apply conj2_pd; [exact ORa| |]; apply Rinv_0_lt_compat; nra).
  set (Ap := mul2 (mul2 Ti A) Ti).
  assert (NT : forall M N, mul2 N M = id2 -> forall x, x <> V2 0 0 -> app2 M x <> V2 0 0).
  { intros M N E x Nx Z. apply Nx. rewrite <- (app_id2 x), <- E, app_mul2, Z. apply v2_eq; cbn; ring. }
  assert (PAp : sympd2 Ap) by (apply sandwich_pd; [exact STi|exact PA|exact (NT Ti T I2)]).
  pose proof (OK Ap PAp) as SV. destruct (svd Ap) as [U [s0 s1]] eqn:EU.
  destruct (svd2_sym Ap U s0 s1 PAp SV) as (EA & P0 & P1).
  set (c0 := / (Rmax (/ sqrt s0) r * Rmax (/ sqrt s0) r)). set (c1 := / (Rmax (/ sqrt s1) r * Rmax (/ sqrt s1) r)).
  assert (MX : forall s, 0 < s -> 0 < Rmax (/ sqrt s) r /\ / (Rmax (/ sqrt s) r * Rmax (/ sqrt s) r) <= s /\ / (Rmax (/ sqrt s) r * Rmax (/ sqrt s) r) <= / (r * r) /\ 0 < / (Rmax (/ sqrt s) r * Rmax (/ sqrt s) r)).
  { clear -R0. intros s P. assert (Q : 0 < sqrt s) by (apply sqrt_lt_R0; exact P). assert (Qi : 0 < / sqrt s) by (apply Rinv_0_lt_compat; exact Q).
    set (m := Rmax (/ sqrt s) r). assert (M1 : / sqrt s <= m) by apply Rmax_l. assert (M2 : r <= m) by apply Rmax_r.
    assert (SS : sqrt s * sqrt s = s) by (apply sqrt_sqrt; lra).
    split; [lra|]. split; [|split].
    - apply Rle_trans with (/ (/ sqrt s * / sqrt s)).
      + apply Rinv_le_contravar; nra.
      + rewrite Rinv_mult, Rinv_inv, SS. lra.
    - apply Rinv_le_contravar; nra.
    - apply Rinv_0_lt_compat. nra. }
  destruct (MX s0 P0) as (X0 & Y0 & Z0 & W0). destruct (MX s1 P1) as (X1 & Y1 & Z1 & W1).
  set (Cp := conj2 U c0 c1). set (C := mul2 (mul2 T Cp) T).
  pose proof SV as (OU & _).
  assert (PC : sympd2 C) by (apply sandwich_pd; [exact ST|apply conj2_pd; assumption|exact (NT T Ti I1)]).
  pose proof (OK C PC) as SW. destruct (svd C) as [W [z0 z1]] eqn:EW.
  destruct (svd2_sym C W z0 z1 PC SW) as (EC & Q0 & Q1). pose proof SW as (OW & _).
  exists C, W, z0, z1. split; [exact PC|]. split; [exact EW|]. split; [exact SW|]. split; [exact Q0|]. split; [exact Q1|]. split; [exact EC|].
  assert (EB : forall p, dotr2 (app2 T p) (app2 T p) = r * r * form2 (conj2 (rot2 thB) (/ (b0 * b0)) (/ (b1 * b1))) p).
  { intros p. rewrite form_conj2. unfold T, conj2. rewrite !app_mul2. set (y := app2 (tr2 (rot2 thB)) p). set (w := app2 (diag2 (r / b0) (r / b1)) y).
    rewrite <- (orth_norm2 (rot2 thB) (app2 (rot2 thB) w) ORb), <- app_mul2. destruct ORb as [_ O2]. rewrite O2, app_id2. unfold w, dotr2. cbn. field. lra. }
  split; [|split; [|split; [|split]]].
  - unfold mvce2. cbn [fst snd]. fold r. rewrite !odiv_eq by lra. cbn [obnd]. rewrite !inv_sq_eq by assumption. cbn [obnd].
    fold T. rewrite IE. cbn [obnd]. fold A. fold Ap. rewrite EU. rewrite !inv_root_eq by assumption. cbn [obnd].
    rewrite !inv_sq_eq by assumption. cbn [obnd]. fold c0 c1. fold Cp. fold C. rewrite EW, !inv_root_eq by assumption. cbn [obnd].
    destruct (acos_upper W OW) as [[L1 L2] _].
    destruct (Rlt_dec (m00 W) (-1)) as [Bad|_]; [lra|]. destruct (Rlt_dec 1 (m00 W)) as [Bad|_]; [lra|]. reflexivity.
  - intros p Hp. apply (in_form2 a0 a1 thA p A0 A1) in Hp. fold A in Hp.
    unfold C. rewrite form_sandwich by exact ST.
    apply Rle_trans with (form2 (conj2 U s0 s1) (app2 T p)); [apply form_le2; assumption|]. rewrite <- EA. unfold Ap.
    rewrite form_sandwich by exact STi. rewrite <- app_mul2, I1, app_id2. exact Hp.
  - intros p Hp. apply (in_form2 b0 b1 thB p B0 B1) in Hp.
    unfold C. rewrite form_sandwich by exact ST.
    apply Rle_trans with (form2 (conj2 U (/ (r * r)) (/ (r * r))) (app2 T p)); [apply form_le2; assumption|].
    rewrite form_iso2 by exact OU. rewrite EB. set (q := form2 _ p) in *. replace (/ (r * r) * (r * r * q)) with q by (field; lra). exact Hp.
  - intros EAB ETH. injection EAB as <- <-. subst thB. cbn [fst snd]. fold A.
    set (k := / (r * r)).
    assert (TT : A = mul2 (mul2 T (diag2 k k)) T).
    { unfold A, T. rewrite conj2_scal, conj2_mul by exact ORa. f_equal; unfold k; field; lra. }
    assert (KI : Ap = diag2 k k).
    { unfold Ap. rewrite TT, !mul2_assoc. rewrite I2, mul2_1, <- mul2_assoc, I1, mul1_2. reflexivity. }
    assert (KS : diag2 s0 s1 = diag2 k k).
    { destruct OU as [O1 O2]. assert (E : mul2 (mul2 (tr2 U) Ap) U = diag2 s0 s1).
      { rewrite EA. unfold conj2. rewrite !mul2_assoc, O2, mul2_1, <- mul2_assoc, O2, mul1_2. reflexivity. }
      rewrite <- E, KI. assert (KC : mul2 (diag2 k k) U = mul2 U (diag2 k k)) by (apply m2_eq; cbn; ring).
      rewrite mul2_assoc, KC, <- mul2_assoc, O2, mul1_2. reflexivity. }
    injection KS as K0 K1.
    assert (KR : / sqrt k = r). { unfold k. rewrite sqrt_inv by nra. rewrite sqrt_square by lra. apply Rinv_inv. }
    assert (CK : Cp = diag2 k k).
    { unfold Cp, c0, c1. rewrite K0, K1, KR, Rmax_left by lra. fold k. unfold conj2.
      assert (KC : mul2 U (diag2 k k) = mul2 (diag2 k k) U) by (apply m2_eq; cbn; ring). rewrite KC, mul2_assoc. destruct OU as [O1 _]. rewrite O1, mul2_1. reflexivity. }
    unfold C. rewrite CK. symmetry. exact TT.
  - intros F PF FA FB.
    assert (UN : forall e, dotr2 e e = 1 -> dotr2 (app2 U e) (app2 U e) = 1).
    { intros e He. rewrite <- (orth_norm2 U (app2 U e) OU), <- app_mul2. destruct OU as [_ O2]. rewrite O2, app_id2. exact He. }
    assert (UF : forall e s, dotr2 e e = 1 -> 0 < s -> form2 (conj2 U s0 s1) (app2 U e) = s -> form2 F (app2 Ti (app2 U e)) <= / (Rmax (/ sqrt s) r * Rmax (/ sqrt s) r)).
    { intros e s He Ps Es. set (u := app2 Ti (app2 U e)).
      assert (KF : forall k, 0 < k -> form2 F (V2 (k * x2 u) (k * y2 u)) <= 1 -> form2 F u <= / (k * k)).
      { intros k Kp. rewrite form_scale2. intros L. assert (KK : 0 < k * k) by nra. apply Rmult_le_reg_l with (k * k); [exact KK|]. rewrite Rinv_r by lra. exact L. }
      assert (TU : app2 T u = app2 U e) by (unfold u; rewrite <- app_mul2, I2, app_id2; reflexivity).
      destruct (Rle_dec r (/ sqrt s)) as [G|G].
      - rewrite Rmax_left by exact G. apply KF; [lra|]. apply FA. apply (in_form2 a0 a1 thA _ A0 A1). fold A. rewrite form_scale2.
        assert (FAu : form2 A u = s). { unfold u. rewrite <- form_sandwich by exact STi. fold Ap. rewrite EA. exact Es. }
        rewrite FAu, <- Rinv_mult, sqrt_sqrt, Rinv_l by lra. lra.
      - rewrite Rmax_right by lra. apply KF; [exact R0|]. apply FB. apply (in_form2 b0 b1 thB _ B0 B1). rewrite form_scale2, <- EB, TU, (UN e He). lra. }
    assert (H0 := UF (V2 1 0) s0). assert (H1 := UF (V2 0 1) s1).
    assert (TE : forall e, app2 (tr2 U) (app2 U e) = e) by (intros e; rewrite <- app_mul2; destruct OU as [_ O2]; rewrite O2, app_id2; reflexivity).
    rewrite form_conj2, TE in H0, H1. cbn [x2 y2] in H0, H1. unfold dotr2 in H0, H1. cbn [x2 y2] in H0, H1.
    specialize (H0 ltac:(lra) P0 ltac:(ring)). specialize (H1 ltac:(lra) P1 ltac:(ring)). fold c0 in H0. fold c1 in H1.
    set (M := mul2 Ti U). rewrite <- app_mul2 in H0, H1. fold M in H0, H1.
    pose proof (hadamard2 F (app2 M (V2 1 0)) (app2 M (V2 0 1)) PF) as HD.
    replace (x2 (app2 M (V2 1 0)) * y2 (app2 M (V2 0 1)) - y2 (app2 M (V2 1 0)) * x2 (app2 M (V2 0 1))) with (determinant2 M) in HD by (unfold determinant2, app2; cbn [x2 y2]; ring).
    assert (NN : forall x, 0 <= form2 F x).
    { intros x. destruct (Req_EM_T (x2 x) 0) as [X|X]; [destruct (Req_EM_T (y2 x) 0) as [Y|Y]|].
      - unfold form2, dotr2, app2. cbn [x2 y2]. rewrite X, Y. lra.
      - left. apply PF. intros E. rewrite E in Y. apply Y. reflexivity.
      - left. apply PF. intros E. rewrite E in X. apply X. reflexivity. }
    assert (HP : form2 F (app2 M (V2 1 0)) * form2 F (app2 M (V2 0 1)) <= c0 * c1) by (apply Rmult_le_compat; [apply NN|apply NN|exact H0|exact H1]).
    assert (DZ : determinant2 C = z0 * z1) by (rewrite EC; apply conj_det; exact OW).
    assert (DC : determinant2 C = determinant2 T * determinant2 T * (c0 * c1)).
    { unfold C. rewrite !det_mul2. unfold Cp. rewrite conj_det by exact OU. ring. }
    assert (DU : determinant2 U * determinant2 U = 1).
    { destruct OU as [O1 _]. pose proof (f_equal determinant2 O1) as E. rewrite det_mul2 in E. replace (determinant2 (tr2 U)) with (determinant2 U) in E by (unfold determinant2; cbn; ring).
      rewrite E. unfold determinant2. cbn. ring. }
    assert (DI : determinant2 Ti * determinant2 T = 1) by (rewrite <- det_mul2, I1; unfold determinant2; cbn; ring).
    assert (DM : determinant2 M * determinant2 M * (determinant2 T * determinant2 T) = 1).
    { unfold M. rewrite det_mul2. replace (determinant2 Ti * determinant2 U * (determinant2 Ti * determinant2 U) * (determinant2 T * determinant2 T)) with ((determinant2 Ti * determinant2 T) * (determinant2 Ti * determinant2 T) * (determinant2 U * determinant2 U)) by ring.
      rewrite DI, DU. ring. }
    rewrite <- DZ, DC. replace (determinant2 F) with (determinant2 T * determinant2 T * (determinant2 F * (determinant2 M * determinant2 M))) by (transitivity (determinant2 F * (determinant2 M * determinant2 M * (determinant2 T * determinant2 T))); [ring|rewrite DM; ring]).
    apply Rmult_le_compat_l; [apply Rle_0_sqr|]. exact (Rle_trans _ _ _ HD HP).
Qed.
Lemma form_in2 z0 z1 t p : 0 < z0 -> 0 < z1 -> form2 (conj2 (rot2 t) z0 z1) p <= 1 -> in2 (ellipse0 (/ sqrt z0, / sqrt z1) t) p.
Proof.
  intros Z0 Z1 H. apply in_form2; [apply Rinv_0_lt_compat, sqrt_lt_R0; assumption ..|].
  replace (/ (/ sqrt z0 * / sqrt z0)) with z0; [replace (/ (/ sqrt z1 * / sqrt z1)) with z1; [exact H|]|].
  - rewrite <- Rinv_mult, Rinv_inv, sqrt_sqrt; [reflexivity|lra].
  - rewrite <- Rinv_mult, Rinv_inv, sqrt_sqrt; [reflexivity|lra].
Qed.
Lemma pos_root z0 z1 : 0 < z0 -> 0 < z1 -> pos_axes2 (/ sqrt z0, / sqrt z1).
Proof. intros A B. split; cbn [fst snd]; apply Rinv_0_lt_compat, sqrt_lt_R0; assumption. Qed.
(** Up to the sign of the returned angle. *)
Lemma mvce2_either a b thA thB : pos_axes2 a -> pos_axes2 b ->
  exists c t, mvce2 svd a b thA thB = Some (c, t) /\ pos_axes2 c /\ 0 <= t <= PI /\
    ((encloses2 (ellipse0 c t) (ellipse0 a thA) /\ encloses2 (ellipse0 c t) (ellipse0 b thB)) \/
     (encloses2 (ellipse0 c (- t)) (ellipse0 a thA) /\ encloses2 (ellipse0 c (- t)) (ellipse0 b thB))).
Proof.
  intros PA PB. destruct (mvce2_matrix a b thA thB PA PB) as (C & W & z0 & z1 & PC & EW & SW & Z0 & Z1 & EC & ER & EA & EB & _).
  exists (/ sqrt z0, / sqrt z1), (acos (m00 W)). split; [exact ER|]. split; [apply pos_root; assumption|].
  split; [apply acos_bound|]. pose proof SW as (OW & _).
  destruct (acos_upper W OW) as [_ [CT ST]]. destruct (Rle_dec 0 (m10 W)) as [P|N].
  - left. rewrite Rabs_right in ST by lra. rewrite (orth_conj_angle W z0 z1 _ OW CT ST) in EC. rewrite EC in EA, EB.
    split; intros p Hp; apply form_in2; auto.
  - right. rewrite Rabs_left in ST by lra.
    assert (CT' : cos (- acos (m00 W)) = m00 W) by (rewrite cos_neg; exact CT).
    assert (ST' : sin (- acos (m00 W)) = m10 W) by (rewrite sin_neg, ST; ring).
    rewrite (orth_conj_angle W z0 z1 _ OW CT' ST') in EC. rewrite EC in EA, EB.
    split; intros p Hp; apply form_in2; auto.
Qed.
Lemma mvce2_upper a b thA thB : upper_svd2 svd -> pos_axes2 a -> pos_axes2 b ->
  exists c t, mvce2 svd a b thA thB = Some (c, t) /\ pos_axes2 c /\
    encloses2 (ellipse0 c t) (ellipse0 a thA) /\ encloses2 (ellipse0 c t) (ellipse0 b thB).
Proof.
  intros UP PA PB. destruct (mvce2_matrix a b thA thB PA PB) as (C & W & z0 & z1 & PC & EW & SW & Z0 & Z1 & EC & ER & EA & EB & _).
  exists (/ sqrt z0, / sqrt z1), (acos (m00 W)). split; [exact ER|]. split; [apply pos_root; assumption|]. pose proof SW as (OW & _).
  destruct (acos_upper W OW) as [_ [CT ST]]. pose proof (UP C PC) as P. rewrite EW in P. cbn [fst] in P.
  rewrite Rabs_right in ST by lra. rewrite (orth_conj_angle W z0 z1 _ OW CT ST) in EC. rewrite EC in EA, EB.
  split; intros p Hp; apply form_in2; auto.
Qed.
(** The tight-fitted ellipse of several orientations. *)
Lemma tfe2_fold a thA thB dt l : upper_svd2 svd -> pos_axes2 a -> forall c t, pos_axes2 c ->
  exists c' t', fold_left (tfe_step2 svd a thA thB dt) l (Some (c, t)) = Some (c', t') /\ pos_axes2 c' /\
    encloses2 (ellipse0 c' t') (ellipse0 c t) /\
    (forall i, In i l -> encloses2 (ellipse0 c' t') (ellipse0 a ((1 - INR i * dt) * thA + INR i * dt * thB))).
Proof.
  intros UP PA. induction l as [|i l IH]; intros c t PC.
  - exists c, t. split; [reflexivity|]. split; [exact PC|]. split; [intros p H; exact H|intros i []].
  - cbn [fold_left]. unfold tfe_step2 at 2. cbn [obnd fst snd].
    destruct (mvce2_upper a c ((1 - INR i * dt) * thA + INR i * dt * thB) t UP PA PC) as (c1 & t1 & E1 & P1 & X1 & X2). rewrite E1.
    destruct (IH c1 t1 P1) as (c' & t' & E2 & P2 & Y1 & Y2). exists c', t'. split; [exact E2|]. split; [exact P2|].
    split; [intros p H; exact (Y1 p (X2 p H))|]. intros j [<-|I]; [intros p H; exact (Y1 p (X1 p H))|exact (Y2 j I)].
Qed.
Lemma tfe2_encloses a thA thB numStep : upper_svd2 svd -> pos_axes2 a -> numStep <> 1%nat ->
  exists c t, tfe2 svd a thA thB numStep = Some (c, t) /\ pos_axes2 c /\
    encloses2 (ellipse0 c t) (ellipse0 a thA) /\ encloses2 (ellipse0 c t) (ellipse0 a thB) /\
    forall i, (i < numStep)%nat -> encloses2 (ellipse0 c t) (ellipse0 a ((1 - INR i / (INR numStep - 1)) * thA + INR i / (INR numStep - 1) * thB)).
Proof.
  intros UP PA N. unfold tfe2. destruct (mvce2_upper a a thA thB UP PA PA) as (c0 & t0 & E0 & P0 & X1 & X2). rewrite E0.
  destruct (Nat.eqb numStep 0) eqn:Z.
  - apply Nat.eqb_eq in Z. exists c0, t0. split; [reflexivity|]. split; [exact P0|]. split; [exact X1|]. split; [exact X2|]. intros i L. lia.
  - assert (D : INR numStep - 1 <> 0). { intros E. apply N. apply INR_eq. cbn. lra. }
    rewrite odiv_eq by exact D. cbn [obnd].
    destruct (tfe2_fold a thA thB (1 / (INR numStep - 1)) (seq 0 numStep) UP PA c0 t0 P0) as (c & t & E & P & Y1 & Y2).
    exists c, t. split; [exact E|]. split; [exact P|]. split; [intros p H; exact (Y1 p (X1 p H))|]. split; [intros p H; exact (Y1 p (X2 p H))|].
    intros i L. replace (INR i / (INR numStep - 1)) with (INR i * (1 / (INR numStep - 1))) by (field; exact D). apply Y2. apply in_seq. lia.
Qed.
Lemma tfe2_one a thA thB : tfe2 svd a thA thB 1 = None.
Proof. unfold tfe2. cbn [Nat.eqb]. unfold odiv. cbn [INR]. replace (1 - 1) with 0 by ring. destruct (Req_EM_T 0 0) as [_|Bad]; [reflexivity|elim Bad; reflexivity]. Qed.
End S.
