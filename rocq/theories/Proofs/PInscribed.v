(** Strict convexity of superquadrics and what it means between sampled boundary points. *)
From Coq Require Import List Reals ZArith Lra Lia.
From Verif.Model Require Import MGeom.
From Verif.Spec Require Import SGeom.
From Verif.Proofs Require Import PGeom PGeom2 PGeom3.
Local Open Scope R_scope.

(** ---- equality cases ---- *)
Lemma exp_tangent_strict m s : s <> m -> exp m * (1 + (s - m)) < exp s.
Proof.
  intros H. replace (exp s) with (exp m * exp (s - m)) by (rewrite <- exp_plus; f_equal; ring).
  apply Rmult_lt_compat_l; [apply exp_pos|]. apply exp_ineq1. lra.
Qed.
Lemma amgm_eq s t al : 0 < al < 1 -> al * exp s + (1 - al) * exp t <= exp (al * s + (1 - al) * t) -> s = t.
Proof.
  intros A H. destruct (Req_dec s t) as [|N]; [assumption|]. exfalso. set (m := al * s + (1 - al) * t) in *.
  assert (s <> m). { unfold m. intros X. apply N. assert (X2 : (1 - al) * (s - t) = 0) by lra. apply Rmult_integral in X2. lra. }
  pose proof (exp_tangent_strict m s H0) as H1. pose proof (exp_tangent m t) as H2.
  apply (Rmult_lt_compat_l al) in H1; [|lra]. apply (Rmult_le_compat_l (1 - al)) in H2; [|lra].
  assert (X : exp m = al * (exp m * (1 + (s - m))) + (1 - al) * (exp m * (1 + (t - m)))) by (unfold m; ring). lra.
Qed.
Lemma young_eq u v e : 0 < e < 2 -> (2 - e) / 2 * (u * u) + e / 2 * ppow v (2 / e) <= ppow u (2 - e) * Rabs v -> Rabs v = ppow u e.
Proof.
  intros E. pose proof (ppow_ge v (2 / e)) as Pv.
  destruct (Req_EM_T u 0) as [->|U].
  { rewrite !ppow_0. intros H. destruct (Req_EM_T v 0) as [->|V]; [apply Rabs_R0|]. pose proof (ppow_pos v (2 / e) V).
    assert (0 < e / 2 * ppow v (2 / e)) by (apply Rmult_lt_0_compat; lra). lra. }
  destruct (Req_EM_T v 0) as [->|V].
  { rewrite Rabs_R0, ppow_0. intros H. assert (0 < u * u) by nra. assert (0 < (2 - e) / 2 * (u * u)) by (apply Rmult_lt_0_compat; lra). lra. }
  rewrite <- (ppow_2 u), !ppow_ne by assumption. unfold Rpower.
  set (lu := ln (Rabs u)). set (lv := ln (Rabs v)).
  replace (Rabs v) with (exp lv) by (apply exp_ln, Rabs_pos_lt; assumption).
  rewrite <- exp_plus. intros H.
  pose proof (amgm_eq (2 * lu) (2 / e * lv) ((2 - e) / 2) ltac:(lra)) as K.
  replace (1 - (2 - e) / 2) with (e / 2) in K by field.
  replace ((2 - e) * lu + lv) with ((2 - e) / 2 * (2 * lu) + e / 2 * (2 / e * lv)) in H by (field; lra).
  specialize (K H). f_equal. replace lv with (e / 2 * (2 / e * lv)) by (field; lra). rewrite <- K. field.
Qed.
Lemma spow_dir c e X p : Rabs X = ppow c e -> 0 <= spow c p * X -> X = spow c e.
Proof.
  intros A S. destruct (Req_EM_T c 0) as [->|C].
  - rewrite ppow_0 in A. rewrite spow_0. destruct (Req_dec X 0) as [|N]; [assumption|]. pose proof (Rabs_pos_lt _ N). lra.
  - pose proof (ppow_pos c p C) as P. pose proof (ppow_pos c e C) as Q. unfold spow in *.
    unfold sgn in *. destruct (Rlt_dec c 0); [|destruct (Rlt_dec 0 c); [|lra]]; unfold Rabs in A; destruct (Rcase_abs X); try lra; exfalso; nra.
Qed.
Lemma support2_eq c s e X Y : 0 < e < 2 -> c * c + s * s = 1 -> ppow X (2 / e) + ppow Y (2 / e) <= 1 ->
  1 <= spow c (2 - e) * X + spow s (2 - e) * Y -> X = spow c e /\ Y = spow s e.
Proof.
  intros E CS L G.
  pose proof (abs_bound (spow c (2 - e)) X) as A. pose proof (abs_bound (spow s (2 - e)) Y) as B. rewrite abs_spow in A, B.
  pose proof (young c X e E) as YA. pose proof (young s Y e E) as YB.
  assert (T : (2 - e) / 2 * (c * c) + (2 - e) / 2 * (s * s) = (2 - e) / 2) by (rewrite <- Rmult_plus_distr_l, CS; ring).
  assert (L' : e / 2 * ppow X (2 / e) + e / 2 * ppow Y (2 / e) <= e / 2).
  { rewrite <- Rmult_plus_distr_l. rewrite <- (Rmult_1_r (e / 2)) at 2. apply Rmult_le_compat_l; lra. }
  split.
  - apply (spow_dir c e X (2 - e)); [apply young_eq; [exact E|lra]|]. pose proof (ppow_ge c (2 - e)). pose proof (Rabs_pos X). nra.
  - apply (spow_dir s e Y (2 - e)); [apply young_eq; [exact E|lra]|]. pose proof (ppow_ge s (2 - e)). pose proof (Rabs_pos Y). nra.
Qed.
Lemma ppow_back m e : 0 < e -> 0 <= m -> ppow (ppow m (e / 2)) (2 / e) = m.
Proof. intros E M. rewrite ppow_ppow. replace (e / 2 * (2 / e)) with 1 by (field; lra). rewrite ppow_1. apply Rabs_right. lra. Qed.
Lemma ppow_inv r p : r <> 0 -> ppow (/ r) p = / ppow r p.
Proof.
  intros N. pose proof (ppow_pos r p N) as P. apply (Rmult_eq_reg_l (ppow r p)); [|lra].
  rewrite <- ppow_mult, Rinv_r, ppow_one, Rinv_r by lra. reflexivity.
Qed.
Lemma hoelder_eq c s e X Y : 0 < e < 2 -> c * c + s * s = 1 -> let rho := ppow (ppow X (2 / e) + ppow Y (2 / e)) (e / 2) in
  rho <= spow c (2 - e) * X + spow s (2 - e) * Y -> X = rho * spow c e /\ Y = rho * spow s e.
Proof.
  intros E CS rho. set (m := ppow X (2 / e) + ppow Y (2 / e)) in *.
  pose proof (ppow_ge X (2 / e)) as PX. pose proof (ppow_ge Y (2 / e)) as PY.
  destruct (Req_EM_T m 0) as [M|M].
  - destruct (ppow_sum_0 X Y (2 / e) M) as [-> ->]. assert (rho = 0) as -> by (unfold rho; rewrite M; apply ppow_0). intros _. lra.
  - intros G. assert (Mp : 0 < m) by (unfold m in *; lra). assert (Rp : 0 < rho) by (apply ppow_pos; assumption).
    assert (Er : ppow rho (2 / e) = m) by (apply ppow_back; lra).
    destruct (support2_eq c s e (X * / rho) (Y * / rho) E CS) as [U V].
    + rewrite !ppow_mult, ppow_inv, Er by lra. rewrite <- Rmult_plus_distr_r. fold m. rewrite Rinv_r by assumption. right; reflexivity.
    + rewrite <- !Rmult_assoc, <- Rmult_plus_distr_r. apply (Rmult_le_reg_r rho); [exact Rp|]. rewrite Rmult_assoc, Rinv_l by lra. lra.
    + rewrite <- U, <- V. split; field; lra.
Qed.
Lemma support3_eq ce se co so e1 e2 X Y Z : 0 < e1 < 2 -> 0 < e2 < 2 -> ce * ce + se * se = 1 -> co * co + so * so = 1 ->
  ppow (ppow X (2 / e2) + ppow Y (2 / e2)) (e2 / e1) + ppow Z (2 / e1) <= 1 ->
  1 <= spow ce (2 - e1) * spow co (2 - e2) * X + spow ce (2 - e1) * spow so (2 - e2) * Y + spow se (2 - e1) * Z ->
  X = spow ce e1 * spow co e2 /\ Y = spow ce e1 * spow so e2 /\ Z = spow se e1.
Proof.
  intros E1 E2 C1 C2 L G.
  set (m := ppow X (2 / e2) + ppow Y (2 / e2)) in *.
  assert (Mge : 0 <= m) by (unfold m; pose proof (ppow_ge X (2 / e2)); pose proof (ppow_ge Y (2 / e2)); lra).
  set (rho := spow co (2 - e2) * X + spow so (2 - e2) * Y).
  replace (spow ce (2 - e1) * spow co (2 - e2) * X + spow ce (2 - e1) * spow so (2 - e2) * Y)
    with (spow ce (2 - e1) * rho) in G by (unfold rho; ring).
  assert (Eo : forall u p, ppow (- u) p = ppow u p). { intros u p. rewrite <- ppow_abs, Rabs_Ropp. apply ppow_abs. }
  set (M := ppow m (e2 / 2)). pose proof (ppow_ge m (e2 / 2)) as Mp. fold M in Mp.
  assert (B1 : Rabs rho <= M).
  { pose proof (hoelder co so e2 X Y E2 C2) as H1. pose proof (hoelder co so e2 (- X) (- Y) E2 C2) as H2.
    rewrite !Eo in H2. fold m M in H1, H2. unfold Rabs. destruct (Rcase_abs rho); unfold rho in *; lra. }
  pose proof (abs_bound (spow ce (2 - e1)) rho) as A. rewrite abs_spow in A.
  assert (B2 : ppow ce (2 - e1) * Rabs rho <= ppow ce (2 - e1) * M) by (apply Rmult_le_compat_l; [apply ppow_ge|exact B1]).
  pose proof (young ce M e1 E1) as Y1. rewrite (Rabs_right M) in Y1 by lra.
  assert (EM : ppow M (2 / e1) = ppow m (e2 / e1)) by (unfold M; rewrite ppow_ppow; f_equal; field; lra).
  pose proof (abs_bound (spow se (2 - e1)) Z) as B. rewrite abs_spow in B.
  pose proof (young se Z e1 E1) as Y2.
  assert (T : (2 - e1) / 2 * (ce * ce) + (2 - e1) / 2 * (se * se) = (2 - e1) / 2) by (rewrite <- Rmult_plus_distr_l, C1; ring).
  assert (L' : e1 / 2 * ppow M (2 / e1) + e1 / 2 * ppow Z (2 / e1) <= e1 / 2).
  { rewrite EM, <- Rmult_plus_distr_l. rewrite <- (Rmult_1_r (e1 / 2)) at 2. apply Rmult_le_compat_l; lra. }
  assert (Z1 : Z = spow se e1).
  { apply (spow_dir se e1 Z (2 - e1)); [apply young_eq; [exact E1|lra]|]. pose proof (ppow_ge se (2 - e1)). pose proof (Rabs_pos Z). nra. }
  assert (M1 : Rabs M = ppow ce e1) by (apply young_eq; [exact E1|]; rewrite (Rabs_right M) by lra; lra).
  rewrite Rabs_right in M1 by lra.
  enough (X = spow ce e1 * spow co e2 /\ Y = spow ce e1 * spow so e2) by tauto.
  destruct (Req_EM_T ce 0) as [->|C].
  - rewrite ppow_0 in M1. rewrite spow_0. assert (m = 0).
    { destruct (Req_dec m 0) as [|N]; [assumption|]. pose proof (ppow_pos m (e2 / 2) N). fold M in H. lra. }
    destruct (ppow_sum_0 X Y (2 / e2) H) as [-> ->]. lra.
  - pose proof (ppow_pos ce (2 - e1) C) as P. pose proof (ppow_pos ce e1 C) as P1.
    assert (R1 : Rabs rho = M) by (apply (Rmult_eq_reg_l (ppow ce (2 - e1))); [lra|lra]).
    assert (R2 : rho = spow ce e1).
    { apply (spow_dir ce e1 rho (2 - e1)); [lra|]. pose proof (Rabs_pos rho). nra. }
    destruct (Rlt_dec 0 ce) as [Cp|Cn].
    + assert (S1 : spow ce e1 = M) by (rewrite M1; unfold spow, sgn; destruct (Rlt_dec ce 0); [lra|]; destruct (Rlt_dec 0 ce); lra).
      rewrite S1. apply hoelder_eq; [exact E2|exact C2|]. fold m M rho. lra.
    + assert (S1 : spow ce e1 = - M) by (rewrite M1; unfold spow, sgn; destruct (Rlt_dec ce 0); lra).
      destruct (hoelder_eq co so e2 (- X) (- Y) E2 C2) as [U V].
      { rewrite !Eo. fold m M. unfold rho in R2. lra. }
      rewrite !Eo in U, V. fold m M in U, V. rewrite S1. lra.
Qed.

(** ---- supporting planes at every boundary point ---- *)
Lemma spow_inv Z e : 0 < e -> spow (spow Z (1 / e)) e = Z.
Proof.
  intros E. symmetry. apply (spow_dir (spow Z (1 / e)) e Z 1).
  - rewrite ppow_spow. replace (1 / e * e) with 1 by (field; lra). symmetry. apply ppow_1.
  - destruct (Req_EM_T Z 0) as [->|N]; [lra|]. pose proof (ppow_pos Z (1 / e) N) as P.
    set (w := spow Z (1 / e)). assert (W : w <> 0) by (apply spow_ne; exact N). pose proof (ppow_pos w 1 W) as Q.
    assert (SZ : 0 < w * Z) by (unfold w, spow, sgn; destruct (Rlt_dec Z 0); [nra|]; destruct (Rlt_dec 0 Z); [nra|lra]).
    unfold spow at 1, sgn. destruct (Rlt_dec w 0); [nra|]. destruct (Rlt_dec 0 w); nra.
Qed.
Lemma spow_sq Z e : 0 < e -> spow Z (1 / e) * spow Z (1 / e) = ppow Z (2 / e).
Proof. intros E. rewrite <- ppow_2, ppow_spow. f_equal. field. lra. Qed.
Lemma spow_nonneg c e : 0 <= c -> spow c e = ppow c e.
Proof. intros C. unfold spow, sgn. destruct (Rlt_dec c 0); [lra|]. destruct (Rlt_dec 0 c); [ring|]. assert (c = 0) as -> by lra. rewrite ppow_0. ring. Qed.
Lemma param3 X Y Z e1 e2 : 0 < e1 -> 0 < e2 -> ppow (ppow X (2 / e2) + ppow Y (2 / e2)) (e2 / e1) + ppow Z (2 / e1) = 1 ->
  exists ce se co so, ce * ce + se * se = 1 /\ co * co + so * so = 1 /\ X = spow ce e1 * spow co e2 /\ Y = spow ce e1 * spow so e2 /\ Z = spow se e1.
Proof.
  intros E1 E2 L. set (m := ppow X (2 / e2) + ppow Y (2 / e2)) in *.
  assert (Mge : 0 <= m) by (unfold m; pose proof (ppow_ge X (2 / e2)); pose proof (ppow_ge Y (2 / e2)); lra).
  set (ce := ppow m (e2 / 2 / e1)). set (M := ppow m (e2 / 2)).
  assert (CM : spow ce e1 = M).
  { rewrite spow_nonneg by apply ppow_ge. unfold ce. rewrite ppow_ppow. unfold M. f_equal. field. lra. }
  assert (CC : ce * ce = ppow m (e2 / e1)).
  { rewrite <- ppow_2. unfold ce. rewrite ppow_ppow. f_equal. field. lra. }
  exists ce, (spow Z (1 / e1)). rewrite CC, CM.
  destruct (Req_EM_T m 0) as [M0|M0].
  - exists 1, 0. destruct (ppow_sum_0 X Y (2 / e2) M0) as [-> ->]. split; [rewrite spow_sq by lra; exact L|]. split; [ring|].
    assert (M = 0) as -> by (unfold M; rewrite M0; apply ppow_0). split; [ring|]. split; [ring|]. symmetry. apply spow_inv, E1.
  - assert (Mp : 0 < M) by (apply ppow_pos; exact M0).
    exists (spow (X / M) (1 / e2)), (spow (Y / M) (1 / e2)). split; [rewrite spow_sq by lra; exact L|]. split.
    + rewrite !spow_sq by lra. assert (B : ppow M (2 / e2) = m) by (apply ppow_back; lra).
      assert (D : forall u, ppow (u / M) (2 / e2) = ppow u (2 / e2) * / m) by (intros u; unfold Rdiv at 1; rewrite ppow_mult, ppow_inv, B by lra; reflexivity).
      rewrite !D, <- Rmult_plus_distr_r. fold m. apply Rinv_r. exact M0.
    + rewrite !spow_inv by lra. split; [field; lra|]. split; [field; lra|reflexivity].
Qed.
Definition unitd (a b c : R) (l : v3) : v3 := V3r (x3 l / a) (y3 l / b) (z3 l / c).
(** A plane through the boundary point meets the body in that point only. *)
Lemma support_at (b : body3) (m : v3) : convex3 b -> shape3 b m = 1 ->
  exists g, dot3 g m = 1 /\ forall l, shape3 b l <= 1 -> dot3 g l <= 1 /\ (1 <= dot3 g l -> l = m).
Proof.
  intros [(A & B & C & E1 & E2 & _) [F1 F2]] H. unfold shape3 in H.
  destruct (param3 _ _ _ (s1 b) (s2 b) E1 E2 H) as (ce & se & co & so & C1 & C2 & EX & EY & EZ).
  set (gx := spow ce (2 - s1 b) * spow co (2 - s2 b)). set (gy := spow ce (2 - s1 b) * spow so (2 - s2 b)). set (gz := spow se (2 - s1 b)).
  assert (D : forall l, dot3 (V3r (gx / sa b) (gy / sb b) (gz / sc b)) l = gx * (x3 l / sa b) + gy * (y3 l / sb b) + gz * (z3 l / sc b)) by (intros l; unfold dot3; cbn [x3 y3 z3]; field; lra).
  exists (V3r (gx / sa b) (gy / sb b) (gz / sc b)). split.
  - rewrite D, EX, EY, EZ. unfold gx, gy, gz.
    replace (spow ce (2 - s1 b) * spow co (2 - s2 b) * (spow ce (s1 b) * spow co (s2 b)) + spow ce (2 - s1 b) * spow so (2 - s2 b) * (spow ce (s1 b) * spow so (s2 b)) + spow se (2 - s1 b) * spow se (s1 b))
      with ((spow ce (2 - s1 b) * spow ce (s1 b)) * (spow co (2 - s2 b) * spow co (s2 b) + spow so (2 - s2 b) * spow so (s2 b)) + spow se (2 - s1 b) * spow se (s1 b)) by ring.
    rewrite !spow_compl, C2. lra.
  - intros l L. rewrite D. unfold shape3 in L. split.
    + pose proof (support3 ce se co so (s1 b) (s2 b) (x3 l / sa b) (y3 l / sb b) (z3 l / sc b) (conj E1 F1) (conj E2 F2) C1 C2) as S. fold gx gy gz in S.
      set (w := ppow (ppow (x3 l / sa b) (2 / s2 b) + ppow (y3 l / sb b) (2 / s2 b)) (s2 b / s1 b) + ppow (z3 l / sc b) (2 / s1 b)) in *.
      assert (s1 b / 2 * w <= s1 b / 2 * 1) by (apply Rmult_le_compat_l; lra). lra.
    + intros G. destruct (support3_eq ce se co so (s1 b) (s2 b) (x3 l / sa b) (y3 l / sb b) (z3 l / sc b) (conj E1 F1) (conj E2 F2) C1 C2 L G) as (U & V & W).
      rewrite <- EX in U. rewrite <- EY in V. rewrite <- EZ in W.
      assert (X : forall u v w, w <> 0 -> u / w = v / w -> u = v) by (intros u v w N Q; apply (Rmult_eq_reg_r (/ w)); [exact Q|apply Rinv_neq_0_compat; exact N]).
      apply v3_eq; [apply (X _ _ (sa b))|apply (X _ _ (sb b))|apply (X _ _ (sc b))]; (exact U || exact V || exact W || lra).
Qed.
Lemma shape_ge b l : 0 <= shape3 b l.
Proof. unfold shape3. pose proof (ppow_ge (ppow (x3 l / sa b) (2 / s2 b) + ppow (y3 l / sb b) (2 / s2 b)) (s2 b / s1 b)). pose proof (ppow_ge (z3 l / sc b) (2 / s1 b)). lra. Qed.
Lemma shape_scale b k l : 0 < s1 b -> 0 < s2 b -> shape3 b (scale3 k l) = ppow k (2 / s1 b) * shape3 b l.
Proof.
  intros E1 E2. unfold shape3, scale3. cbn [x3 y3 z3]. unfold Rdiv. rewrite !(Rmult_assoc k), !ppow_mult. fold (Rdiv 2 (s2 b)).
  rewrite <- Rmult_plus_distr_l, ppow_mult, ppow_ppow. replace (2 / s2 b * (s2 b * / s1 b)) with (2 * / s1 b) by (field; lra). ring.
Qed.
Definition mix3 (w1 w2 w3 : R) (u v w : v3) : v3 := add3 (scale3 w1 u) (add3 (scale3 w2 v) (scale3 w3 w)).
Lemma dot_mix g a b c u v w : dot3 g (mix3 a b c u v w) = a * dot3 g u + b * dot3 g v + c * dot3 g w.
Proof. unfold mix3. rewrite !dot_add, !dot_scale. ring. Qed.
(** A mixture of points of the body is inside it, unless the points are all the same. *)
Lemma strict_mix b a1 a2 a3 u v w : convex3 b -> 0 <= a1 -> 0 <= a2 -> 0 <= a3 -> a1 + a2 + a3 = 1 ->
  shape3 b u <= 1 -> shape3 b v <= 1 -> shape3 b w <= 1 -> 1 <= shape3 b (mix3 a1 a2 a3 u v w) ->
  let m := mix3 a1 a2 a3 u v w in (0 < a1 -> u = m) /\ (0 < a2 -> v = m) /\ (0 < a3 -> w = m).
Proof.
  intros CV P1 P2 P3 S U V W H m. fold m in H. pose proof CV as [(_ & _ & _ & E1 & E2 & _) _].
  set (k := ppow (shape3 b m) (- (s1 b / 2))).
  assert (Kp : 0 < k) by (apply ppow_pos; lra).
  assert (Ks : ppow k (2 / s1 b) * shape3 b m = 1).
  { unfold k. rewrite ppow_ppow. replace (- (s1 b / 2) * (2 / s1 b)) with (-1) by (field; lra).
    rewrite <- (Rabs_right (shape3 b m)) at 2 by lra. rewrite <- ppow_1, <- ppow_plus. replace (-1 + 1) with 0 by ring.
    rewrite ppow_ne by lra. unfold Rpower. rewrite Rmult_0_l. apply exp_0. }
  assert (K1 : k <= 1).
  { destruct (Rle_dec k 1) as [|N]; [assumption|]. assert (1 < ppow k (2 / s1 b)).
    { rewrite <- (ppow_one (2 / s1 b)). apply ppow_lt; [apply Rdiv_lt_0_compat; lra|lra]. } nra. }
  destruct (support_at b (scale3 k m) CV) as [g [G1 G2]]; [rewrite shape_scale by assumption; exact Ks|].
  rewrite dot_scale in G1. unfold m in G1 at 1. rewrite dot_mix in G1.
  destruct (G2 u U) as [D1 Q1]. destruct (G2 v V) as [D2 Q2]. destruct (G2 w W) as [D3 Q3].
  set (du := dot3 g u) in *. set (dv := dot3 g v) in *. set (dw := dot3 g w) in *.
  assert (T1 : a1 * du <= a1) by nra. assert (T2 : a2 * dv <= a2) by nra. assert (T3 : a3 * dw <= a3) by nra.
  assert (SM : a1 * du + a2 * dv + a3 * dw = / k) by (apply (Rmult_eq_reg_l k); [rewrite Rinv_r by lra; exact G1|lra]).
  assert (Ki : 1 <= / k) by (rewrite <- Rinv_1; apply Rinv_le_contravar; lra).
  assert (KE : k = 1) by (assert (/ k = 1) by lra; rewrite <- (Rinv_inv k), H0, Rinv_1; reflexivity).
  assert (SC : scale3 k m = m) by (rewrite KE; destruct m; unfold scale3; cbn; f_equal; ring). rewrite SC in Q1, Q2, Q3.
  assert (R : forall a d, 0 < a -> a * d = a -> 1 <= d) by (intros a d Pa Ea; assert (a * (d - 1) = 0) by lra; apply Rmult_integral in H0; lra).
  split; [intros Pa; apply Q1, (R a1); [exact Pa|lra]|]. split; [intros Pa; apply Q2, (R a2); [exact Pa|lra]|intros Pa; apply Q3, (R a3); [exact Pa|lra]].
Qed.
(** Moving a little from an inside point stays inside. *)
Lemma stay_inside b m d : convex3 b -> shape3 b m < 1 -> exists t0, 0 < t0 /\ forall t, 0 <= t < t0 -> shape3 b (add3 m (scale3 t d)) < 1.
Proof.
  intros CV H. pose proof CV as [(_ & _ & _ & E1 & E2 & _) _]. pose proof (shape_ge b m) as Sm.
  assert (Pi : 0 < 2 / s1 b) by (apply Rdiv_lt_0_compat; lra).
  set (v := (1 + shape3 b m) / 2). assert (Hv : 0 < v < 1 /\ shape3 b m < v) by (unfold v; lra).
  set (k := ppow v (s1 b / 2)). assert (Kp : 0 < k) by (apply ppow_pos; lra).
  assert (Kv : ppow k (2 / s1 b) = v) by (apply ppow_back; lra).
  assert (K1 : k < 1).
  { destruct (Rlt_dec k 1) as [|N]; [assumption|]. assert (1 <= ppow k (2 / s1 b)) by (rewrite <- (ppow_one (2 / s1 b)); apply ppow_le; [assumption|lra]). lra. }
  set (d' := scale3 (/ (1 - k)) d). pose proof (shape_ge b d') as Sd.
  set (i := / (1 + shape3 b d')). assert (Hi : 0 < i) by (apply Rinv_0_lt_compat; lra).
  set (t0 := ppow i (s1 b / 2)). assert (T0 : 0 < t0) by (apply ppow_pos; lra).
  assert (Ti : ppow t0 (2 / s1 b) = i) by (apply ppow_back; lra).
  exists t0. split; [exact T0|]. intros t Ht.
  assert (Tt : ppow t (2 / s1 b) < i) by (rewrite <- Ti; apply ppow_lt; [assumption|lra]).
  assert (S2 : shape3 b (scale3 t d') < 1).
  { rewrite shape_scale by assumption. assert (i * (1 + shape3 b d') = 1) by (unfold i; apply Rinv_l; lra).
    pose proof (ppow_ge t (2 / s1 b)). nra. }
  assert (S1 : shape3 b (scale3 (/ k) m) < 1).
  { rewrite shape_scale by assumption. rewrite ppow_inv, Kv by lra. apply (Rmult_lt_reg_l v); [lra|]. rewrite <- Rmult_assoc, Rinv_r by lra. lra. }
  destruct (Rlt_dec (shape3 b (add3 m (scale3 t d))) 1) as [|N]; [assumption|]. exfalso.
  assert (EQ : add3 m (scale3 t d) = mix3 k (1 - k) 0 (scale3 (/ k) m) (scale3 t d') (scale3 t d')).
  { unfold mix3, d', add3, scale3. cbn [x3 y3 z3]. f_equal; field; lra. }
  rewrite EQ in N. destruct (strict_mix b k (1 - k) 0 (scale3 (/ k) m) (scale3 t d') (scale3 t d') CV) as [X _]; try lra.
  specialize (X Kp). rewrite <- X in N. lra.
Qed.
(** ---- between contact poses ---- *)
Lemma placed_mix b a1 a2 a3 u v w : unit_quat (SGeom.sq b) -> a1 + a2 + a3 = 1 ->
  mix3 a1 a2 a3 (placed b u) (placed b v) (placed b w) = placed b (mix3 a1 a2 a3 u v w).
Proof.
  intros U S. unfold placed. rewrite !turn_rotm by exact U. unfold mix3. rewrite !app_add, !app_scale.
  set (ru := app3 (rotm (SGeom.sq b)) u). set (rv := app3 (rotm (SGeom.sq b)) v). set (rw := app3 (rotm (SGeom.sq b)) w).
  destruct (sctr b) as [cx cy cz]. assert (a3 = 1 - a1 - a2) as -> by lra. unfold add3, scale3. cbn [x3 y3 z3]. f_equal; ring.
Qed.
Lemma placed_move b l d : unit_quat (SGeom.sq b) -> add3 (placed b l) d = placed b (add3 l (app3 (tr3 (rotm (SGeom.sq b))) d)).
Proof.
  intros U. unfold placed. rewrite !turn_rotm by exact U. rewrite app_add, tr_rot by exact U. unfold add3. cbn [x3 y3 z3]. f_equal; ring.
Qed.
Lemma ellipsoid_convex A B C q c : 0 < A -> 0 < B -> 0 < C -> unit_quat q -> convex3 (ellipsoid_at A B C q c).
Proof. intros HA HB HC U. unfold convex3, proper3, ellipsoid_at. cbn. repeat split; try lra; exact U. Qed.
Lemma between_contacts O A B C q c1 c2 c3 u1 u2 u3 a1 a2 a3 : convex3 O -> 0 < A -> 0 < B -> 0 < C -> unit_quat q ->
  on3 O u1 -> on3 O u2 -> on3 O u3 -> in3 (ellipsoid_at A B C q c1) u1 -> in3 (ellipsoid_at A B C q c2) u2 -> in3 (ellipsoid_at A B C q c3) u3 ->
  u1 <> u2 -> 0 < a1 -> 0 < a2 -> 0 <= a3 -> a1 + a2 + a3 = 1 ->
  overlap3 O (ellipsoid_at A B C q (mix3 a1 a2 a3 c1 c2 c3)).
Proof.
  intros CV HA HB HC U [l1 [P1 L1]] [l2 [P2 L2]] [l3 [P3 L3]] [r1 [Q1 R1]] [r2 [Q2 R2]] [r3 [Q3 R3]] NE W1 W2 W3 S.
  pose proof CV as [(_ & _ & _ & E1 & E2 & UO) _].
  set (lm := mix3 a1 a2 a3 l1 l2 l3). set (rm := mix3 a1 a2 a3 r1 r2 r3). set (c := mix3 a1 a2 a3 c1 c2 c3).
  assert (LM : shape3 O lm < 1).
  { destruct (Rlt_dec (shape3 O lm) 1) as [|N]; [assumption|]. exfalso.
    destruct (strict_mix O a1 a2 a3 l1 l2 l3 CV) as (X1 & X2 & _); try (lra || (unfold lm in N; lra)).
    apply NE. rewrite P1, P2. f_equal. exact (eq_trans (X1 W1) (eq_sym (X2 W2))). }
  set (E0 := ellipsoid_at A B C q (V3r 0 0 0)). assert (SH : forall x l, shape3 (ellipsoid_at A B C q x) l = shape3 E0 l) by reflexivity.
  rewrite SH in R1, R2, R3. assert (CE : convex3 E0) by (apply ellipsoid_convex; assumption).
  assert (RM : shape3 E0 rm <= 1).
  { destruct (Rle_dec (shape3 E0 rm) 1) as [|N]; [assumption|]. exfalso.
    destruct (strict_mix E0 a1 a2 a3 r1 r2 r3 CE) as (X1 & _ & _); try (lra || (unfold rm in N; lra)).
    specialize (X1 W1). fold rm in X1. rewrite <- X1 in N. lra. }
  set (y := placed O lm).
  assert (YE : y = add3 c (app3 (rotm q) rm)).
  { unfold y, lm. rewrite <- placed_mix by assumption. rewrite <- P1, <- P2, <- P3, Q1, Q2, Q3. unfold placed, ellipsoid_at. cbn [sctr SGeom.sq].
    rewrite !turn_rotm by exact U. unfold c, rm, mix3. rewrite !app_add, !app_scale. unfold add3, scale3. cbn [x3 y3 z3]. f_equal; ring. }
  set (d := scale3 (-1) (app3 (rotm q) rm)).
  destruct (stay_inside O lm (app3 (tr3 (rotm (SGeom.sq O))) d) CV LM) as [t0 [T0 ST]].
  set (t := Rmin t0 1 / 2). assert (Ht : 0 < t < t0 /\ t <= 1 / 2) by (unfold t, Rmin; destruct (Rle_dec t0 1); lra).
  exists (add3 y (scale3 t d)). split.
  - exists (add3 lm (scale3 t (app3 (tr3 (rotm (SGeom.sq O))) d))). split; [|apply ST; lra].
    unfold y. rewrite placed_move by exact UO. rewrite app_scale. reflexivity.
  - exists (scale3 (1 - t) rm). split.
    + unfold placed, ellipsoid_at. cbn [sctr SGeom.sq]. rewrite turn_rotm by exact U. rewrite app_scale, YE. unfold d, add3, scale3. cbn [x3 y3 z3]. f_equal; ring.
    + rewrite SH, shape_scale by (cbn; lra). cbn [s1 E0 ellipsoid_at]. replace (2 / 1) with 2 by field. rewrite ppow_2. pose proof (shape_ge E0 rm). nra.
Qed.

(** ---- the plane, as a section of space ---- *)
Definition flat (v : v2) : v3 := V3r (x2 v) (y2 v) 0.
Definition solid (b : body2) : body3 := Body3 (ba b) (bb b) 1 (be b) (be b) (V3r 0 0 0) (Q 1 0 0 0).
Definition local2 (b : body2) (p : v2) : v2 := V2 (along b p) (across b p).
Lemma solid_convex b : convex2 b -> convex3 (solid b).
Proof. intros [(A & B & E) F]. unfold convex3, proper3, solid, unit_quat. cbn. repeat split; lra. Qed.
Lemma solid_level b p : proper2 b -> shape3 (solid b) (flat (local2 b p)) = level2 b p.
Proof.
  intros (A & B & E). unfold shape3, solid, flat, local2, level2. cbn [x3 y3 z3 x2 y2 sa sb sc s1 s2].
  replace (be b / be b) with 1 by (field; lra). rewrite ppow_1. replace (0 / 1) with 0 by field. rewrite ppow_0.
  pose proof (ppow_ge (along b p / ba b) (2 / be b)). pose proof (ppow_ge (across b p / bb b) (2 / be b)).
  rewrite Rabs_right by lra. ring.
Qed.
Definition mix2 (w1 w2 : R) (u v : v2) : v2 := add2 (scale2 w1 u) (scale2 w2 v).
Lemma local_mix b w1 w2 u v : w1 + w2 = 1 -> local2 b (mix2 w1 w2 u v) = mix2 w1 w2 (local2 b u) (local2 b v).
Proof.
  intros S. assert (w2 = 1 - w1) as -> by lra. unfold local2, mix2, add2, scale2, along, across. cbn [x2 y2]. f_equal; ring.
Qed.
Lemma flat_mix w1 w2 u v : flat (mix2 w1 w2 u v) = mix3 w1 w2 0 (flat u) (flat v) (flat v).
Proof. unfold flat, mix2, mix3, add2, scale2, add3, scale3. cbn. f_equal; ring. Qed.
Lemma local_inj b u v : local2 b u = local2 b v -> u = v.
Proof.
  intros H. unfold local2, along, across in H. injection H as H1 H2. pose proof (cs1 (bt b)) as CS.
  destruct u as [ux uy], v as [vx vy]. cbn [x2 y2] in *. set (c := cos (bt b)) in *. set (s := sin (bt b)) in *.
  assert (K1 : c * (ux - vx) + s * (uy - vy) = 0) by lra. assert (K2 : - s * (ux - vx) + c * (uy - vy) = 0) by lra.
  f_equal.
  - assert ((c * c + s * s) * (ux - vx) = 0) by (replace ((c * c + s * s) * (ux - vx)) with (c * (c * (ux - vx) + s * (uy - vy)) - s * (- s * (ux - vx) + c * (uy - vy))) by ring; rewrite K1, K2; ring).
    rewrite CS in H. lra.
  - assert ((c * c + s * s) * (uy - vy) = 0) by (replace ((c * c + s * s) * (uy - vy)) with (s * (c * (ux - vx) + s * (uy - vy)) + c * (- s * (ux - vx) + c * (uy - vy))) by ring; rewrite K1, K2; ring).
    rewrite CS in H. lra.
Qed.
Lemma strict_mix2 b w1 w2 u v : convex2 b -> 0 < w1 -> 0 < w2 -> w1 + w2 = 1 -> in2 b u -> in2 b v -> 1 <= level2 b (mix2 w1 w2 u v) -> u = v.
Proof.
  intros CV W1 W2 S U V H. pose proof (proj1 CV) as P. unfold in2 in U, V. rewrite <- solid_level in U, V, H by exact P.
  rewrite local_mix, flat_mix in H by exact S.
  destruct (strict_mix (solid b) w1 w2 0 _ _ _ (solid_convex b CV) ltac:(lra) ltac:(lra) ltac:(lra) ltac:(lra) U V V H) as (X1 & X2 & _).
  apply (local_inj b). pose proof (eq_trans (X1 W1) (eq_sym (X2 W2))) as X. unfold flat in X. injection X as Ea Eb. unfold local2. cbn [x2 y2 local2] in *. f_equal; assumption.
Qed.
Lemma stay_inside2 b p d : convex2 b -> inside2 b p -> exists t0, 0 < t0 /\ forall t, 0 <= t < t0 -> inside2 b (add2 p (scale2 t d)).
Proof.
  intros CV H. pose proof (proj1 CV) as P. unfold inside2 in *. rewrite <- solid_level in H by exact P.
  destruct (stay_inside (solid b) _ (flat (V2 (cos (bt b) * x2 d + sin (bt b) * y2 d) (- sin (bt b) * x2 d + cos (bt b) * y2 d))) (solid_convex b CV) H) as [t0 [T0 ST]].
  exists t0. split; [exact T0|]. intros t Ht. specialize (ST t Ht). rewrite <- solid_level by exact P.
  replace (flat (local2 b (add2 p (scale2 t d)))) with (add3 (flat (local2 b p)) (scale3 t (flat (V2 (cos (bt b) * x2 d + sin (bt b) * y2 d) (- sin (bt b) * x2 d + cos (bt b) * y2 d))))); [exact ST|].
  unfold flat, local2, along, across, add2, add3, scale2, scale3. cbn [x2 y2 x3 y3 z3]. f_equal; ring.
Qed.
Lemma between_contacts2 O A B t c1 c2 u1 u2 w1 w2 : convex2 O -> 0 < A -> 0 < B ->
  on2 O u1 -> on2 O u2 -> in2 (ellipse_at A B t c1) u1 -> in2 (ellipse_at A B t c2) u2 ->
  u1 <> u2 -> 0 < w1 -> 0 < w2 -> w1 + w2 = 1 -> overlap2 O (ellipse_at A B t (mix2 w1 w2 c1 c2)).
Proof.
  intros CV HA HB O1 O2 R1 R2 NE W1 W2 S.
  set (y := mix2 w1 w2 u1 u2). set (c := mix2 w1 w2 c1 c2).
  assert (PE : forall x, convex2 (ellipse_at A B t x)) by (intros x; unfold convex2, proper2, ellipse_at; cbn; lra).
  assert (IY : inside2 O y).
  { unfold inside2. destruct (Rlt_dec (level2 O y) 1) as [|N]; [assumption|]. exfalso. apply NE.
    apply (strict_mix2 O w1 w2 u1 u2 CV W1 W2 S); [unfold in2; unfold on2 in O1; lra|unfold in2; unfold on2 in O2; lra|fold y; lra]. }
  set (E0 := solid (ellipse_at A B t c)).
  assert (LV : forall x p, level2 (ellipse_at A B t x) p = shape3 E0 (flat (local2 (ellipse_at A B t x) p))) by (intros x p; rewrite <- solid_level by exact (proj1 (PE x)); reflexivity).
  set (r := mix3 w1 w2 0 (flat (local2 (ellipse_at A B t c1) u1)) (flat (local2 (ellipse_at A B t c2) u2)) (flat (local2 (ellipse_at A B t c2) u2))).
  assert (RR : shape3 E0 r <= 1).
  { unfold in2 in R1, R2. rewrite LV in R1, R2. destruct (Rle_dec (shape3 E0 r) 1) as [|N]; [assumption|]. exfalso.
    destruct (strict_mix E0 w1 w2 0 _ _ _ (solid_convex _ (PE c)) ltac:(lra) ltac:(lra) ltac:(lra) ltac:(lra) R1 R2 R2) as (X1 & _ & _); [fold r; lra|].
    specialize (X1 W1). fold r in X1. rewrite <- X1 in N. lra. }
  destruct (stay_inside2 O y (sub2 c y) CV IY) as [t0 [T0 ST]].
  set (k := Rmin t0 1 / 2). assert (Ht : 0 < k < t0 /\ k <= 1 / 2) by (unfold k, Rmin; destruct (Rle_dec t0 1); lra).
  exists (add2 y (scale2 k (sub2 c y))). split; [apply ST; lra|]. unfold inside2. fold c. rewrite LV.
  replace (flat (local2 (ellipse_at A B t c) (add2 y (scale2 k (sub2 c y))))) with (scale3 (1 - k) r).
  - rewrite shape_scale by (cbn; lra). cbn [s1 E0 solid be ellipse_at]. replace (2 / 1) with 2 by field. rewrite ppow_2. pose proof (shape_ge E0 r). nra.
  - unfold r, mix3, flat, local2, along, across, y, c, mix2, add2, sub2, add3, scale2, scale3. cbn [x2 y2 x3 y3 z3 bt bc ellipse_at]. f_equal; ring.
Qed.
