(** Superellipses and superquadrics in exact arithmetic: powers, boundary points, supporting
    lines and planes. *)
From Coq Require Import List Reals ZArith Arith Bool Lia Lra Psatz.
From Verif.Base Require Import Outcome.
From Verif.Model Require Import MGeom.
From Verif.Spec Require Import SGeom.
Import ListNotations.
Local Open Scope outcome_scope.
Local Open Scope R_scope.

(** ---- powers ---- *)
Lemma ppow_0 p : ppow 0 p = 0.
Proof. unfold ppow. destruct (Req_EM_T 0 0); [reflexivity|congruence]. Qed.
Lemma ppow_ne x p : x <> 0 -> ppow x p = Rpower (Rabs x) p.
Proof. intros H. unfold ppow. destruct (Req_EM_T x 0); [contradiction|reflexivity]. Qed.
Lemma ppow_pos x p : x <> 0 -> 0 < ppow x p.
Proof. intros H. rewrite ppow_ne by assumption. unfold Rpower. apply exp_pos. Qed.
Lemma ppow_ge x p : 0 <= ppow x p.
Proof. destruct (Req_EM_T x 0) as [->|H]; [rewrite ppow_0; lra|]. left. apply ppow_pos; assumption. Qed.
Lemma ppow_abs x p : ppow (Rabs x) p = ppow x p.
Proof.
  destruct (Req_EM_T x 0) as [->|H]; [now rewrite Rabs_R0|].
  rewrite !ppow_ne by (try apply Rabs_no_R0; assumption). now rewrite Rabs_Rabsolu.
Qed.
Lemma ppow_mult x y p : ppow (x * y) p = ppow x p * ppow y p.
Proof.
  destruct (Req_EM_T x 0) as [->|Hx]; [rewrite Rmult_0_l, ppow_0; ring|].
  destruct (Req_EM_T y 0) as [->|Hy]; [rewrite Rmult_0_r, ppow_0; ring|].
  rewrite !ppow_ne by (try apply Rmult_integral_contrapositive; auto).
  rewrite Rabs_mult. symmetry. apply Rpower_mult_distr; apply Rabs_pos_lt; assumption.
Qed.
Lemma ppow_ppow x p q : ppow (ppow x p) q = ppow x (p * q).
Proof.
  destruct (Req_EM_T x 0) as [->|H]; [now rewrite !ppow_0|].
  pose proof (ppow_pos x p H) as P. rewrite (ppow_ne (ppow x p)) by lra. rewrite (Rabs_right (ppow x p)) by lra.
  rewrite !ppow_ne by assumption. apply Rpower_mult.
Qed.
Lemma ppow_1 x : ppow x 1 = Rabs x.
Proof.
  destruct (Req_EM_T x 0) as [->|H]; [now rewrite ppow_0, Rabs_R0|].
  rewrite ppow_ne by assumption. apply Rpower_1. apply Rabs_pos_lt; assumption.
Qed.
Lemma ppow_plus x p q : ppow x (p + q) = ppow x p * ppow x q.
Proof.
  destruct (Req_EM_T x 0) as [->|H]; [rewrite !ppow_0; ring|].
  rewrite !ppow_ne by assumption. apply Rpower_plus.
Qed.
Lemma ppow_2 x : ppow x 2 = x * x.
Proof.
  replace 2 with (1 + 1) by ring. rewrite ppow_plus, ppow_1.
  destruct (Rcase_abs x); unfold Rabs; destruct (Rcase_abs x); lra.
Qed.
Lemma ppow_one p : ppow 1 p = 1.
Proof. rewrite ppow_ne by lra. rewrite Rabs_R1. unfold Rpower. rewrite ln_1, Rmult_0_r. apply exp_0. Qed.
Lemma ppow_le x y p : 0 < p -> 0 <= x <= y -> ppow x p <= ppow y p.
Proof.
  intros P [[X|<-] Y]; [|rewrite ppow_0; apply ppow_ge].
  rewrite !ppow_ne by lra. rewrite !Rabs_right by lra. apply Rle_Rpower_l; lra.
Qed.
Lemma ppow_lt x y p : 0 < p -> 0 <= x < y -> ppow x p < ppow y p.
Proof.
  intros P [[X|<-] Y]; [|rewrite ppow_0; apply ppow_pos; lra].
  rewrite !ppow_ne by lra. rewrite !Rabs_right by lra. apply Rlt_Rpower_l; lra.
Qed.

(** ---- sgn and the exponential function ---- *)
Definition spow (t p : R) : R := sgn t * ppow t p.
Lemma sgn_0 : sgn 0 = 0.
Proof. unfold sgn. destruct (Rlt_dec 0 0); [lra|]. reflexivity. Qed.
Lemma sgn_abs t : sgn t * t = Rabs t.
Proof. unfold sgn, Rabs. destruct (Rlt_dec t 0), (Rlt_dec 0 t), (Rcase_abs t); lra. Qed.
Lemma sgn_sq t : t <> 0 -> sgn t * sgn t = 1.
Proof. unfold sgn. destruct (Rlt_dec t 0), (Rlt_dec 0 t); lra. Qed.
Lemma sgn_ne t : t <> 0 -> sgn t <> 0.
Proof. unfold sgn. destruct (Rlt_dec t 0), (Rlt_dec 0 t); lra. Qed.
Lemma abs_sgn t : t <> 0 -> Rabs (sgn t) = 1.
Proof. intros H. unfold sgn. destruct (Rlt_dec t 0), (Rlt_dec 0 t); try lra; [rewrite Rabs_left; lra|apply Rabs_R1]. Qed.
Lemma expfun_some th p (b : bool) : 0 < p -> expfun th p b = Some (spow (if b then sin th else cos th) p).
Proof.
  intros P. unfold expfun, spow, rpow. set (t := if b then sin th else cos th).
  destruct (Rlt_dec 0 (Rabs t)) as [H|H].
  - rewrite ppow_ne; [reflexivity|]. intros E. rewrite E, Rabs_R0 in H. lra.
  - destruct (Rlt_dec 0 p); [|lra]. assert (E : t = 0). { destruct (Req_dec t 0); [assumption|]. pose proof (Rabs_pos_lt t H0). lra. }
    rewrite E, sgn_0, ppow_0. reflexivity.
Qed.
Lemma spow_0 p : spow 0 p = 0.
Proof. unfold spow. rewrite sgn_0. ring. Qed.
Lemma abs_spow t p : Rabs (spow t p) = ppow t p.
Proof.
  unfold spow. destruct (Req_EM_T t 0) as [->|H]; [rewrite ppow_0, Rmult_0_r, Rabs_R0; reflexivity|].
  rewrite Rabs_mult, abs_sgn by assumption. rewrite Rabs_right; [ring|]. apply Rle_ge, ppow_ge.
Qed.
Lemma spow_ne t p : t <> 0 -> spow t p <> 0.
Proof. intros H. apply Rmult_integral_contrapositive. split; [apply sgn_ne; assumption|]. pose proof (ppow_pos t p H). lra. Qed.
Lemma ppow_spow t p q : ppow (spow t p) q = ppow t (p * q).
Proof. rewrite <- ppow_abs, abs_spow. apply ppow_ppow. Qed.
Lemma spow_compl t e : spow t (2 - e) * spow t e = t * t.
Proof.
  unfold spow. destruct (Req_EM_T t 0) as [->|H]; [rewrite sgn_0; ring|].
  replace (sgn t * ppow t (2 - e) * (sgn t * ppow t e)) with ((sgn t * sgn t) * (ppow t (2 - e) * ppow t e)) by ring.
  rewrite sgn_sq by assumption. rewrite <- ppow_plus. replace (2 - e + e) with 2 by ring. rewrite ppow_2. ring.
Qed.
Lemma cs1 t : cos t * cos t + sin t * sin t = 1.
Proof. pose proof (sin2_cos2 t). unfold Rsqr in H. lra. Qed.

(** ---- Young's inequality ---- *)
Lemma exp_tangent m s : exp m * (1 + (s - m)) <= exp s.
Proof.
  replace (exp s) with (exp m * exp (s - m)) by (rewrite <- exp_plus; f_equal; ring).
  apply Rmult_le_compat_l; [left; apply exp_pos|].
  destruct (Req_EM_T (s - m) 0) as [->|H]; [rewrite exp_0; lra|]. left. apply exp_ineq1. assumption.
Qed.
Lemma amgm s t al : 0 <= al <= 1 -> exp (al * s + (1 - al) * t) <= al * exp s + (1 - al) * exp t.
Proof.
  intros A. set (m := al * s + (1 - al) * t).
  pose proof (exp_tangent m s) as H1. pose proof (exp_tangent m t) as H2.
  apply (Rmult_le_compat_l al) in H1; [|lra]. apply (Rmult_le_compat_l (1 - al)) in H2; [|lra].
  replace (exp m) with (al * (exp m * (1 + (s - m))) + (1 - al) * (exp m * (1 + (t - m)))); [lra|].
  unfold m. ring.
Qed.
(** |u|^(2-e) |v| <= (2-e)/2 u^2 + e/2 |v|^(2/e). *)
Lemma young u v e : 0 < e < 2 -> ppow u (2 - e) * Rabs v <= (2 - e) / 2 * (u * u) + e / 2 * ppow v (2 / e).
Proof.
  intros E. pose proof (ppow_ge v (2 / e)) as Pv. assert (Hu : 0 <= u * u) by nra.
  destruct (Req_EM_T u 0) as [->|U]; [rewrite ppow_0; nra|].
  destruct (Req_EM_T v 0) as [->|V]; [rewrite Rabs_R0, ppow_0; nra|].
  rewrite <- (ppow_2 u), !ppow_ne by assumption. unfold Rpower.
  set (lu := ln (Rabs u)). set (lv := ln (Rabs v)).
  replace (Rabs v) with (exp lv) by (apply exp_ln, Rabs_pos_lt; assumption).
  rewrite <- exp_plus.
  pose proof (amgm (2 * lu) (2 / e * lv) ((2 - e) / 2) ltac:(lra)) as H.
  replace (1 - (2 - e) / 2) with (e / 2) in H by field.
  replace ((2 - e) * lu + lv) with ((2 - e) / 2 * (2 * lu) + e / 2 * (2 / e * lv)) by (field; lra).
  exact H.
Qed.
Lemma abs_bound a b : a * b <= Rabs a * Rabs b.
Proof. rewrite <- Rabs_mult. apply Rle_abs. Qed.
(** The supporting line of a superellipse at (spow c e, spow s e). *)
Lemma support2 c s e X Y : 0 < e < 2 -> c * c + s * s = 1 ->
  spow c (2 - e) * X + spow s (2 - e) * Y <= (2 - e) / 2 + e / 2 * (ppow X (2 / e) + ppow Y (2 / e)).
Proof.
  intros E CS.
  pose proof (abs_bound (spow c (2 - e)) X) as A. pose proof (abs_bound (spow s (2 - e)) Y) as B. rewrite abs_spow in A, B.
  pose proof (young c X e E) as YA. pose proof (young s Y e E) as YB.
  replace ((2 - e) / 2) with ((2 - e) / 2 * (c * c + s * s)) at 1 by (rewrite CS; ring). lra.
Qed.
(** Hoelder: the same bound by the gauge. *)
Lemma hoelder c s e X Y : 0 < e < 2 -> c * c + s * s = 1 ->
  spow c (2 - e) * X + spow s (2 - e) * Y <= ppow (ppow X (2 / e) + ppow Y (2 / e)) (e / 2).
Proof.
  intros E CS. set (m := ppow X (2 / e) + ppow Y (2 / e)).
  pose proof (ppow_ge X (2 / e)) as PX. pose proof (ppow_ge Y (2 / e)) as PY.
  assert (H2e : 2 / e * (e / 2) = 1) by (field; lra).
  destruct (Req_EM_T m 0) as [M|M].
  - assert (X = 0 /\ Y = 0) as [-> ->].
    { split; [destruct (Req_dec X 0) as [|N]|destruct (Req_dec Y 0) as [|N]]; try assumption; exfalso;
        pose proof (ppow_pos _ (2 / e) N); unfold m in M; lra. }
    rewrite !Rmult_0_r, Rplus_0_r. apply ppow_ge.
  - assert (Mp : 0 < m) by (unfold m in *; lra).
    set (rho := ppow m (e / 2)). assert (Rp : 0 < rho) by (apply ppow_pos; assumption).
    assert (Er : ppow rho (2 / e) = m).
    { unfold rho. rewrite ppow_ppow. replace (e / 2 * (2 / e)) with 1 by (field; lra). rewrite ppow_1. apply Rabs_right. lra. }
    assert (Ei : ppow (/ rho) (2 / e) = / m).
    { apply (Rmult_eq_reg_l (ppow rho (2 / e))); [|rewrite Er; assumption].
      rewrite <- ppow_mult. rewrite Rinv_r by lra. rewrite ppow_one, Er. rewrite Rinv_r by assumption. reflexivity. }
    pose proof (support2 c s e (X * / rho) (Y * / rho) E CS) as S.
    rewrite !ppow_mult, Ei in S. rewrite <- Rmult_plus_distr_r in S. fold m in S. rewrite Rinv_r in S by assumption.
    apply (Rmult_le_reg_r (/ rho)); [apply Rinv_0_lt_compat; assumption|].
    rewrite Rinv_r by lra. rewrite Rmult_plus_distr_r, !Rmult_assoc. lra.
Qed.
Lemma ppow_sum_0 X Y p : ppow X p + ppow Y p = 0 -> X = 0 /\ Y = 0.
Proof.
  intros H. pose proof (ppow_ge X p). pose proof (ppow_ge Y p).
  split; [destruct (Req_dec X 0) as [|N]|destruct (Req_dec Y 0) as [|N]]; try assumption; exfalso;
    pose proof (ppow_pos _ p N); lra.
Qed.
(** The supporting plane of a superquadric. *)
Lemma support3 ce se co so e1 e2 X Y Z : 0 < e1 < 2 -> 0 < e2 < 2 -> ce * ce + se * se = 1 -> co * co + so * so = 1 ->
  spow ce (2 - e1) * spow co (2 - e2) * X + spow ce (2 - e1) * spow so (2 - e2) * Y + spow se (2 - e1) * Z
  <= (2 - e1) / 2 + e1 / 2 * (ppow (ppow X (2 / e2) + ppow Y (2 / e2)) (e2 / e1) + ppow Z (2 / e1)).
Proof.
  intros E1 E2 C1 C2.
  set (m := ppow X (2 / e2) + ppow Y (2 / e2)).
  set (rho := spow co (2 - e2) * X + spow so (2 - e2) * Y).
  replace (spow ce (2 - e1) * spow co (2 - e2) * X + spow ce (2 - e1) * spow so (2 - e2) * Y)
    with (spow ce (2 - e1) * rho) by (unfold rho; ring).
  assert (B1 : Rabs rho <= ppow m (e2 / 2)).
  { pose proof (hoelder co so e2 X Y E2 C2) as H1. pose proof (hoelder co so e2 (- X) (- Y) E2 C2) as H2.
    assert (Eo : forall u p, ppow (- u) p = ppow u p). { intros u p. rewrite <- ppow_abs, Rabs_Ropp. apply ppow_abs. }
    rewrite !Eo in H2. fold m in H1, H2. unfold Rabs. destruct (Rcase_abs rho); unfold rho in *; lra. }
  pose proof (abs_bound (spow ce (2 - e1)) rho) as A. rewrite abs_spow in A.
  assert (B2 : ppow ce (2 - e1) * Rabs rho <= ppow ce (2 - e1) * Rabs (ppow m (e2 / 2))).
  { apply Rmult_le_compat_l; [apply ppow_ge|]. rewrite (Rabs_right (ppow m _)); [assumption|]. apply Rle_ge, ppow_ge. }
  pose proof (young ce (ppow m (e2 / 2)) e1 E1) as Y1. rewrite ppow_ppow in Y1.
  replace (e2 / 2 * (2 / e1)) with (e2 / e1) in Y1 by (field; lra).
  pose proof (abs_bound (spow se (2 - e1)) Z) as B. rewrite abs_spow in B.
  pose proof (young se Z e1 E1) as Y2.
  replace ((2 - e1) / 2) with ((2 - e1) / 2 * (ce * ce + se * se)) at 1 by (rewrite C1; ring). lra.
Qed.
