(** A decomposition of symmetric 2x2 matrices, and what happens with the other sign of its
    first vector. *)
From Coq Require Import List Reals ZArith Arith Bool Lia Lra Psatz.
From Verif.Base Require Import Outcome.
From Verif.Model Require Import MGeom MMultiBody MTightFit.
From Verif.Spec Require Import SGeom SRigid.
From Verif.Proofs Require Import PGeom PGeom2 PRot PTight2.
Import ListNotations.
Local Open Scope R_scope.

(** (c, s), larger and smaller eigenvalue. *)
Definition eig2 (p q s : R) : (R * R) * (R * R) :=
  if Req_EM_T q 0 then (if Rle_dec s p then ((1, 0), (p, s)) else ((0, 1), (s, p)))
  else let l0 := (p + s + sqrt ((p - s) * (p - s) + 4 * (q * q))) / 2 in
       let k := l0 - p in let n := sqrt (q * q + k * k) in ((q / n, k / n), (l0, s - k)).
Lemma eig2_spec p q s : let '((c, sn), (l0, l1)) := eig2 p q s in
  c * c + sn * sn = 1 /\ l1 <= l0 /\ p = l0 * (c * c) + l1 * (sn * sn) /\ q = (l0 - l1) * (c * sn) /\ s = l0 * (sn * sn) + l1 * (c * c).
Proof.
  unfold eig2. destruct (Req_EM_T q 0) as [->|N].
  - destruct (Rle_dec s p); repeat split; try lra.
  - set (D := (p - s) * (p - s) + 4 * (q * q)). set (d := sqrt D).
    assert (Q0 : 0 < q * q) by (pose proof (Rlt_0_sqr _ N); assumption).
    assert (D0 : 0 < D) by (unfold D; pose proof (Rle_0_sqr (p - s)); unfold Rsqr in *; lra).
    assert (dd : d * d = D) by (apply sqrt_sqrt; lra). assert (d0 : 0 < d) by (apply sqrt_lt_R0; exact D0).
    cbv zeta. set (l0 := (p + s + d) / 2). set (k := l0 - p).
    assert (K : k * (k + p - s) = q * q) by (unfold k, l0; unfold D in dd; nra).
    set (n := sqrt (q * q + k * k)). assert (N0 : 0 < q * q + k * k) by (pose proof (Rle_0_sqr k); unfold Rsqr in *; lra).
    assert (nn : n * n = q * q + k * k) by (apply sqrt_sqrt; lra). assert (n0 : 0 < n) by (apply sqrt_lt_R0; exact N0).
    assert (K2 : 2 * k = s - p + d) by (unfold k, l0; lra).
    set (w := / (q * q + k * k)). assert (W : (q * q + k * k) * w = 1) by (unfold w; field; lra).
    assert (E1 : q / n * (q / n) = q * q * w) by (unfold w; rewrite <- nn; field; lra).
    assert (E2 : k / n * (k / n) = k * k * w) by (unfold w; rewrite <- nn; field; lra).
    assert (E3 : q / n * (k / n) = q * k * w) by (unfold w; rewrite <- nn; field; lra). rewrite E1, E2, E3.
    assert (KL : l0 = k + p) by (unfold k; ring). rewrite KL. clearbody w. clear E1 E2 E3 KL nn n0. clearbody k.
    repeat split.
    + lra.
    + lra.
    + apply Rminus_diag_uniq. replace (p - _) with (p * (1 - (q * q + k * k) * w) + w * k * (k * (k + p - s) - q * q)) by ring. rewrite W, K. ring.
    + apply Rminus_diag_uniq. replace (q - _) with (q * (1 - (q * q + k * k) * w) + q * w * (q * q - k * (k + p - s))) by ring. rewrite W, K. ring.
    + apply Rminus_diag_uniq. replace (s - _) with (s * (1 - (q * q + k * k) * w) + k * w * (q * q - k * (k + p - s))) by ring. rewrite W, K. ring.
Qed.
(** A decomposition with the first vector upwards or downwards. *)
Definition eig_svd (up : bool) (A : m2) : m2 * (R * R) :=
  let '((c, s), l) := eig2 (m00 A) (m01 A) (m11 A) in
  let k := if Rlt_dec s 0 then (if up then -1 else 1) else (if up then 1 else -1) in
  (M2 (k * c) (- (k * s)) (k * s) (k * c), l).
Lemma eig_svd_ok up : svd2_ok (eig_svd up).
Proof.
  intros A [SA PA]. unfold eig_svd. pose proof (eig2_spec (m00 A) (m01 A) (m11 A)) as E.
  destruct (eig2 (m00 A) (m01 A) (m11 A)) as [[c s] [l0 l1]]. destruct E as (E0 & E1 & E2 & E3 & E4).
  set (k := if Rlt_dec s 0 then (if up then -1 else 1) else (if up then 1 else -1)).
  assert (K : k * k = 1) by (unfold k; destruct (Rlt_dec s 0), up; ring). clearbody k.
  assert (S01 : m01 A = m10 A) by (rewrite <- SA at 1; reflexivity).
  assert (O : orthogonal2 (M2 (k * c) (- (k * s)) (k * s) (k * c))).
  { assert (H : k * c * (k * c) + k * s * (k * s) = 1) by (replace (k * c * (k * c) + k * s * (k * s)) with (k * k * (c * c + s * s)) by ring; rewrite K, E0; ring).
    split; apply m2_eq; cbn; lra. }
  assert (EA : A = mul2 (mul2 (M2 (k * c) (- (k * s)) (k * s) (k * c)) (diag2 l0 l1)) (tr2 (M2 (k * c) (- (k * s)) (k * s) (k * c)))).
  { apply m2_eq; cbn; rewrite <- ?S01, ?E3, ?E4, ?E2 at 1.
    - replace (l0 * (c * c) + l1 * (s * s)) with (k * k * (l0 * (c * c) + l1 * (s * s))) by (rewrite K; ring). ring.
    - replace ((l0 - l1) * (c * s)) with (k * k * ((l0 - l1) * (c * s))) by (rewrite K; ring). ring.
    - replace ((l0 - l1) * (c * s)) with (k * k * ((l0 - l1) * (c * s))) by (rewrite K; ring). ring.
    - replace (l0 * (s * s) + l1 * (c * c)) with (k * k * (l0 * (s * s) + l1 * (c * c))) by (rewrite K; ring). ring. }
  split; [exact O|]. split; [eexists; split; [exact O|exact EA]|]. split; [exact E1|].
  assert (N : V2 (- s) c <> V2 0 0). { intros H. injection H as H1 H2. assert (s = 0) by lra. subst. lra. }
  pose proof (PA _ N) as P. unfold dotr2 in P. cbn in P. rewrite <- S01, E2, E3, E4 in P.
  apply Rlt_le. replace l1 with (l1 * ((c * c + s * s) * (c * c + s * s))) by (rewrite E0; ring). 
  match type of P with 0 < ?X => replace (l1 * ((c * c + s * s) * (c * c + s * s))) with X by ring end. exact P.
Qed.
Lemma eig_svd_up : upper_svd2 (eig_svd true).
Proof.
  intros A _. unfold eig_svd. destruct (eig2 (m00 A) (m01 A) (m11 A)) as [[c s] l]. cbn [fst m10]. destruct (Rlt_dec s 0); lra.
Qed.
Lemma eig_svd_down A : m10 (fst (eig_svd false A)) <= 0.
Proof. unfold eig_svd. destruct (eig2 (m00 A) (m01 A) (m11 A)) as [[c s] l]. cbn [fst m10]. destruct (Rlt_dec s 0); lra. Qed.

(** An ellipse turned by -t is not inside the same ellipse turned by t. *)
Lemma mirror_not_inside z0 z1 t : 0 < z0 -> 0 < z1 -> z0 <> z1 -> sin t <> 0 -> cos t <> 0 ->
  exists p, form2 (conj2 (rot2 (- t)) z0 z1) p <= 1 /\ 1 < form2 (conj2 (rot2 t) z0 z1) p.
Proof.
  intros Z0 Z1 N S C. set (w := 4 * cos t * sin t * (z0 - z1)).
  assert (W : w <> 0) by (unfold w; repeat apply Rmult_integral_contrapositive_currified; try lra; assumption).
  set (x := V2 1 w). set (F := form2 (conj2 (rot2 (- t)) z0 z1) x).
  assert (FP : 0 < F). { apply conj2_pd; [apply rot2_rotation|exact Z0|exact Z1|]. intros E. injection E. lra. }
  assert (FF : form2 (conj2 (rot2 t) z0 z1) x = F + w * w).
  { unfold F. rewrite !form_conj2. cbn. rewrite cos_neg, sin_neg. unfold w. ring. }
  set (k := / sqrt F). assert (SF : 0 < sqrt F) by (apply sqrt_lt_R0; exact FP).
  assert (KK : k * k * F = 1). { unfold k. rewrite <- (sqrt_sqrt F) at 3 by lra. field. lra. }
  assert (SC : forall M, form2 M (scale2 k x) = k * k * form2 M x) by (intros M; unfold form2, dotr2; cbn; ring).
  exists (scale2 k x). rewrite !SC. fold F. rewrite FF. split; [lra|].
  assert (0 < k * k). { assert (0 < k) by (apply Rinv_0_lt_compat; exact SF). nra. }
  assert (0 < w * w) by (pose proof (Rlt_0_sqr _ W); assumption).
  assert (0 < k * k * (w * w)) by (apply Rmult_lt_0_compat; assumption). lra.
Qed.
Lemma mvce2_down svd a th : svd2_ok svd -> (forall A, m10 (fst (svd A)) <= 0) -> pos_axes2 a -> fst a <> snd a -> sin th <> 0 -> cos th <> 0 ->
  exists c t, mvce2 svd a a th th = Some (c, t) /\ pos_axes2 c /\ ~ encloses2 (ellipse0 c t) (ellipse0 a th).
Proof.
  intros OK DN PA NA S C. destruct (mvce2_matrix svd OK a a th th PA PA) as (M & W & z0 & z1 & PC & EW & SW & Z0 & Z1 & EC & ER & EA & _ & EQ & _).
  specialize (EQ eq_refl eq_refl). exists (/ sqrt z0, / sqrt z1), (acos (m00 W)). split; [exact ER|]. split; [apply pos_root; assumption|].
  pose proof SW as (OW & _). destruct (acos_upper W OW) as [_ [CT ST]]. pose proof (DN M) as D. rewrite EW in D. cbn [fst] in D.
  rewrite Rabs_left1 in ST by exact D.
  assert (CT' : cos (- acos (m00 W)) = m00 W) by (rewrite cos_neg; exact CT).
  assert (ST' : sin (- acos (m00 W)) = m10 W) by (rewrite sin_neg, ST; ring).
  rewrite (orth_conj_angle W z0 z1 _ OW CT' ST') in EC. set (t := acos (m00 W)) in *.
  destruct a as [a0 a1]. destruct PA as [A0 A1]. cbn [fst snd] in *.
  assert (OFF : (z0 - z1) * (cos t * sin t) = - ((/ (a0 * a0) - / (a1 * a1)) * (cos th * sin th))).
  { assert (E : m01 (conj2 (rot2 (- t)) z0 z1) = m01 (conj2 (rot2 th) (/ (a0 * a0)) (/ (a1 * a1)))) by (rewrite <- EC, <- EQ; reflexivity).
    unfold conj2 in E. cbn in E. rewrite cos_neg, sin_neg in E. set (u := / (a0 * a0)) in *. set (v := / (a1 * a1)) in *. clearbody u v. lra. }
  assert (NZ : (z0 - z1) * (cos t * sin t) <> 0).
  { rewrite OFF. apply Ropp_neq_0_compat. apply Rmult_integral_contrapositive_currified; [|apply Rmult_integral_contrapositive_currified; assumption].
    intros E. apply NA. assert (E2 : / (a0 * a0) = / (a1 * a1)) by lra. assert (E3 : a0 * a0 = a1 * a1) by (rewrite <- (Rinv_inv (a0 * a0)), E2, Rinv_inv; reflexivity). nra. }
  destruct (mirror_not_inside z0 z1 t Z0 Z1) as [p [P1 P2]].
  - intros E. apply NZ. rewrite E. ring.
  - intros E. apply NZ. rewrite E. ring.
  - intros E. apply NZ. rewrite E. ring.
  - intros H. rewrite <- EC, EQ in P1. apply (in_form2 a0 a1 th p A0 A1) in P1. specialize (H p P1).
    pose proof (pos_root z0 z1 Z0 Z1) as [K0 K1]. cbn [fst snd] in K0, K1.
    apply (in_form2 _ _ t p K0 K1) in H. rewrite <- !Rinv_mult, !Rinv_inv, !sqrt_sqrt in H by lra. lra.
Qed.
