(** getMinkSum2D for an elongated obstacle: the robot penetrates. *)
From Coq Require Import List Reals ZArith Arith Bool Lia Lra Psatz.
From Verif.Base Require Import Outcome.
From Verif.Model Require Import MGeom.
From Verif.Spec Require Import SGeom.
From Verif.Proofs Require Import PGeom PGeom2.
Import ListNotations.
Local Open Scope R_scope.

Lemma neg_deriv g l : derivable_pt_lim g 0 l -> l < 0 -> exists d, 0 < d /\ forall t, 0 < t < d -> g t < g 0.
Proof.
  intros H L. destruct (H (- l) ltac:(lra)) as [d Hd]. exists d. split; [apply cond_pos|]. intros t [T1 T2].
  specialize (Hd t ltac:(lra) ltac:(rewrite Rabs_right; lra)). rewrite Rplus_0_l in Hd.
  apply Rabs_def2 in Hd. destruct Hd as [H1 _].
  assert ((g t - g 0) / t < 0) by lra.
  assert (H2 : (g t - g 0) / t * t < 0 * t) by (apply Rmult_lt_compat_r; lra).
  replace ((g t - g 0) / t * t) with (g t - g 0) in H2 by (field; lra). lra.
Qed.
Lemma pow_deriv s X d p : 0 < s * X ->
  derivable_pt_lim (fun t => Rpower (s * (X + t * d)) p) 0 (p * Rpower (s * X) (p - 1) * (s * d)).
Proof.
  intros P.
  assert (L : derivable_pt_lim (fun t => s * (X + t * d)) 0 (s * d)).
  { intros eps E. exists (mkposreal 1 Rlt_0_1). intros h Hh _.
    replace ((s * (X + (0 + h) * d) - s * (X + 0 * d)) / h - s * d) with 0 by (field; assumption). rewrite Rabs_R0. exact E. }
  pose proof (derivable_pt_lim_comp (fun t => s * (X + t * d)) (fun x => Rpower x p) 0 (s * d) (p * Rpower (s * X) (p - 1)) L) as C.
  cbv beta in C. apply C. replace (s * (X + 0 * d)) with (s * X) by ring. apply derivable_pt_lim_power. exact P.
Qed.
Lemma small_pos P d : 0 < P -> exists e, 0 < e /\ forall t, 0 < t < e -> 0 < P + t * d.
Proof.
  intros H. exists (P / (Rabs d + 1)). pose proof (Rabs_pos d). split; [apply Rdiv_lt_0_compat; lra|].
  intros t [T1 T2]. assert (T3 : t * (Rabs d + 1) < P).
  { apply (Rmult_lt_compat_r (Rabs d + 1)) in T2; [|lra]. replace (P / (Rabs d + 1) * (Rabs d + 1)) with P in T2 by (field; lra). exact T2. }
  pose proof (Rle_abs (- d)) as B. rewrite Rabs_Ropp in B. nra.
Qed.
(** Moving the boundary point of a superellipse against its normal goes inside. *)
Lemma level_decreases c s e d1 d2 : 0 < e -> c <> 0 -> s <> 0 -> c * c + s * s = 1 ->
  spow c (2 - e) * d1 + spow s (2 - e) * d2 < 0 ->
  exists dl, 0 < dl /\ forall t, 0 < t < dl -> ppow (spow c e + t * d1) (2 / e) + ppow (spow s e + t * d2) (2 / e) < 1.
Proof.
  intros E C S CS N. set (p := 2 / e).
  assert (Pp : forall w, w <> 0 -> 0 < sgn w * spow w e).
  { intros w W. unfold spow. rewrite <- Rmult_assoc, sgn_sq by assumption. rewrite Rmult_1_l. apply ppow_pos. assumption. }
  assert (Pe : forall w, w <> 0 -> sgn w * spow w e = ppow w e).
  { intros w W. unfold spow. rewrite <- Rmult_assoc, sgn_sq by assumption. ring. }
  assert (Pq : forall w, w <> 0 -> Rpower (sgn w * spow w e) p = w * w).
  { intros w W. rewrite Pe by assumption. pose proof (ppow_pos w e W). rewrite <- (Rabs_right (ppow w e)) by lra.
    rewrite <- ppow_ne by lra. rewrite ppow_ppow. unfold p. replace (e * (2 / e)) with 2 by (field; lra). apply ppow_2. }
  assert (Pr : forall w, w <> 0 -> Rpower (sgn w * spow w e) (p - 1) * sgn w = spow w (2 - e)).
  { intros w W. rewrite Pe by assumption. pose proof (ppow_pos w e W). rewrite <- (Rabs_right (ppow w e)) by lra.
    rewrite <- ppow_ne by lra. rewrite ppow_ppow. unfold p. replace (e * (2 / e - 1)) with (2 - e) by (field; lra). unfold spow. ring. }
  pose proof (derivable_pt_lim_plus _ _ 0 _ _ (pow_deriv (sgn c) (spow c e) d1 p (Pp c C)) (pow_deriv (sgn s) (spow s e) d2 p (Pp s S))) as D.
  assert (P2 : 0 < p) by (apply Rdiv_lt_0_compat; lra).
  destruct (neg_deriv _ _ D) as [x [X HX]].
  { replace (p * Rpower (sgn c * spow c e) (p - 1) * (sgn c * d1) + p * Rpower (sgn s * spow s e) (p - 1) * (sgn s * d2))
      with (p * ((Rpower (sgn c * spow c e) (p - 1) * sgn c) * d1 + (Rpower (sgn s * spow s e) (p - 1) * sgn s) * d2)) by ring.
    rewrite !Pr by assumption. nra. }
  destruct (small_pos (sgn c * spow c e) (sgn c * d1) (Pp c C)) as [y [Y HY]].
  destruct (small_pos (sgn s * spow s e) (sgn s * d2) (Pp s S)) as [z [Z HZ]].
  exists (Rmin x (Rmin y z)). split; [repeat apply Rmin_glb_lt; assumption|]. intros t [T1 T2].
  pose proof (Rmin_l x (Rmin y z)). pose proof (Rmin_r x (Rmin y z)). pose proof (Rmin_l y z). pose proof (Rmin_r y z).
  specialize (HX t ltac:(lra)). specialize (HY t ltac:(lra)). specialize (HZ t ltac:(lra)).
  unfold plus_fct in HX. rewrite !Rmult_0_l, !Rplus_0_r, !Pq, CS in HX by assumption.
  assert (A : forall w v, w <> 0 -> 0 < sgn w * v -> ppow v p = Rpower (sgn w * v) p).
  { intros w v W V. assert (v <> 0) by (intros ->; lra). rewrite ppow_ne by assumption. f_equal.
    rewrite <- (Rmult_1_l (Rabs v)), <- (abs_sgn w W), <- Rabs_mult. apply Rabs_right. lra. }
  fold p. rewrite (A c) by (try assumption; replace (sgn c * (spow c e + t * d1)) with (sgn c * spow c e + t * (sgn c * d1)) by ring; assumption).
  rewrite (A s) by (try assumption; replace (sgn s * (spow s e + t * d2)) with (sgn s * spow s e + t * (sgn s * d2)) by ring; assumption).
  exact HX.
Qed.
(** Moving the touching point along the normal used by the ellipse goes inside it. *)
Lemma ellipse_enters A B t n y d : 0 < A -> 0 < B -> x2 n <> 0 \/ y2 n <> 0 -> 0 < dotp2 n d ->
  exists dl, 0 < dl /\ forall k, 0 < k < dl -> inside2 (ellipse_at A B t (add2 y (scale2 1 (off2 A B t n)))) (add2 y (scale2 k d)).
Proof.
  intros HA HB N Dp. pose proof (dn_pos A B t n HA HB N) as D. pose proof (dn_sq A B t n HA HB N) as DS. pose proof (cs1 t) as CS.
  set (p := cos t * x2 d + sin t * y2 d). set (q := - sin t * x2 d + cos t * y2 d).
  set (M := p / A * (p / A) + q / B * (q / B)).
  assert (M0 : 0 <= M). { unfold M. pose proof (Rle_0_sqr (p / A)). pose proof (Rle_0_sqr (q / B)). unfold Rsqr in *. lra. }
  assert (E : dotp2 n d = un t n * p + vn t n * q).
  { unfold dotp2, un, vn, p, q. transitivity ((x2 n * x2 d + y2 n * y2 d) * (cos t * cos t + sin t * sin t)); [rewrite CS; ring|ring]. }
  exists (dotp2 n d / (dn A B t n * (M + 1))). assert (0 < dn A B t n * (M + 1)) by nra.
  split; [apply Rdiv_lt_0_compat; assumption|]. intros k [K1 K2].
  assert (K3 : k * (dn A B t n * (M + 1)) < dotp2 n d).
  { apply (Rmult_lt_compat_r (dn A B t n * (M + 1))) in K2; [|assumption].
    replace (dotp2 n d / (dn A B t n * (M + 1)) * (dn A B t n * (M + 1))) with (dotp2 n d) in K2 by (field; lra). exact K2. }
  unfold inside2, level2. cbn [ba bb be ellipse_at]. rewrite !div_sq2. unfold along, across, ellipse_at. cbn [bt bc x2 y2 add2 scale2 off2].
  set (dd := dn A B t n) in *. set (u := un t n) in *. set (w := vn t n) in *.
  replace (cos t * (x2 y + k * x2 d - (x2 y + 1 * ((A * A * u * cos t - B * B * w * sin t) / dd))) + sin t * (y2 y + k * y2 d - (y2 y + 1 * ((A * A * u * sin t + B * B * w * cos t) / dd))))
    with (k * p - A * A * u * (cos t * cos t + sin t * sin t) / dd) by (unfold p; field; lra).
  replace (- sin t * (x2 y + k * x2 d - (x2 y + 1 * ((A * A * u * cos t - B * B * w * sin t) / dd))) + cos t * (y2 y + k * y2 d - (y2 y + 1 * ((A * A * u * sin t + B * B * w * cos t) / dd))))
    with (k * q - B * B * w * (cos t * cos t + sin t * sin t) / dd) by (unfold q; field; lra).
  rewrite CS.
  replace ((k * p - A * A * u * 1 / dd) / A * ((k * p - A * A * u * 1 / dd) / A) + (k * q - B * B * w * 1 / dd) / B * ((k * q - B * B * w * 1 / dd) / B))
    with (k * (k * M) - 2 * k * (u * p + w * q) / dd + (A * A * (u * u) + B * B * (w * w)) / (dd * dd)) by (unfold M; field; lra).
  rewrite <- DS, <- E. replace (dd * dd / (dd * dd)) with 1 by (field; lra).
  assert (k * M * dd < 2 * dotp2 n d) by nra.
  assert (k * M < 2 * dotp2 n d / dd). { apply (Rmult_lt_reg_r dd); [assumption|]. replace (2 * dotp2 n d / dd * dd) with (2 * dotp2 n d) by (field; lra). assumption. }
  assert (0 < k * (2 * dotp2 n d / dd - k * M)) by (apply Rmult_lt_0_compat; lra).
  replace (2 * k * dotp2 n d / dd) with (k * (2 * dotp2 n d / dd)) by (field; lra). lra.
Qed.
(** A direction leaving the true tangent but entering by the code's one. *)
Lemma direction a b u v k : 0 < a -> 0 < b -> a <> b -> u <> 0 -> v <> 0 -> 0 < k ->
  exists d1 d2, u / a * d1 + v / b * d2 < 0 /\ 0 < k * u * d1 + k * v * d2.
Proof.
  intros A B AB U V K. destruct (Rlt_dec a b) as [L|L].
  - exists (- / u), ((1 + b / a) / 2 / v). split.
    + replace (u / a * - / u + v / b * ((1 + b / a) / 2 / v)) with ((a - b) / (2 * a * b)) by (field; lra).
      apply Ropp_lt_cancel. rewrite Ropp_0. replace (- ((a - b) / (2 * a * b))) with ((b - a) / (2 * a * b)) by (field; lra).
      apply Rdiv_lt_0_compat; [lra|]. repeat apply Rmult_lt_0_compat; lra.
    + replace (k * u * - / u + k * v * ((1 + b / a) / 2 / v)) with (k * ((b - a) / (2 * a))) by (field; lra).
      apply Rmult_lt_0_compat; [assumption|]. apply Rdiv_lt_0_compat; lra.
  - exists ((1 + a / b) / 2 / u), (- / v). split.
    + replace (u / a * ((1 + a / b) / 2 / u) + v / b * - / v) with ((b - a) / (2 * a * b)) by (field; lra).
      apply Ropp_lt_cancel. rewrite Ropp_0. replace (- ((b - a) / (2 * a * b))) with ((a - b) / (2 * a * b)) by (field; lra).
      apply Rdiv_lt_0_compat; [lra|]. repeat apply Rmult_lt_0_compat; lra.
    + replace (k * u * ((1 + a / b) / 2 / u) + k * v * - / v) with (k * ((a - b) / (2 * b))) by (field; lra).
      apply Rmult_lt_0_compat; [assumption|]. apply Rdiv_lt_0_compat; lra.
Qed.
Lemma elongated_overlap a b e c t A B t2 th : 0 < a -> 0 < b -> a <> b -> 0 < e -> 0 < A -> 0 < B -> cos th <> 0 -> sin th <> 0 ->
  overlap2 (Body2 a b e c t) (ellipse_at A B t2 (msample2 a b e c t A B t2 1 th)).
Proof.
  intros Ha Hb AB E HA HB C S.
  pose proof (spow_ne (cos th) (2 - e) C) as U. pose proof (spow_ne (sin th) (2 - e) S) as V.
  assert (K : 0 < 2 / e) by (apply Rdiv_lt_0_compat; lra).
  destruct (direction a b _ _ _ Ha Hb AB U V K) as [d1 [d2 [D1 D2]]].
  destruct (level_decreases (cos th) (sin th) e (d1 / a) (d2 / b) E C S (cs1 th)) as [x [X HX]].
  { replace (spow (cos th) (2 - e) * (d1 / a) + spow (sin th) (2 - e) * (d2 / b)) with (spow (cos th) (2 - e) / a * d1 + spow (sin th) (2 - e) / b * d2) by (field; lra). exact D1. }
  set (n := app2 (rot2 t) (gcanon2 e th)). set (d := app2 (rot2 t) (V2 d1 d2)). set (y := sample2 a b e c t th).
  assert (N : x2 n <> 0 \/ y2 n <> 0) by (apply rot_nonzero, gcanon_ne; lra).
  destruct (ellipse_enters A B t2 n y d HA HB N) as [z [Z HZ]].
  { unfold n, d, gcanon2, dotp2. cbn. pose proof (cs1 t) as CS.
    replace ((cos t * (2 / e * spow (cos th) (2 - e)) + - sin t * (2 / e * spow (sin th) (2 - e))) * (cos t * d1 + - sin t * d2) + (sin t * (2 / e * spow (cos th) (2 - e)) + cos t * (2 / e * spow (sin th) (2 - e))) * (sin t * d1 + cos t * d2))
      with ((2 / e * spow (cos th) (2 - e) * d1 + 2 / e * spow (sin th) (2 - e) * d2) * (cos t * cos t + sin t * sin t)) by (field; lra).
    rewrite CS, Rmult_1_r. exact D2. }
  set (k := Rmin x z / 2). assert (0 < Rmin x z) by (apply Rmin_glb_lt; assumption).
  pose proof (Rmin_l x z). pose proof (Rmin_r x z).
  exists (add2 y (scale2 k d)). split; [|apply HZ; unfold k; lra].
  specialize (HX k ltac:(unfold k; lra)). unfold inside2, level2. cbn [ba bb be].
  replace (add2 y (scale2 k d)) with (add2 (app2 (rot2 t) (V2 (a * (spow (cos th) e + k * (d1 / a))) (b * (spow (sin th) e + k * (d2 / b))))) c).
  2:{ unfold y, sample2, d, canon2. destruct c. cbn. unfold add2, scale2. cbn. f_equal; field; lra. }
  rewrite along_sample, across_sample. cbn [x2 y2].
  replace (a * (spow (cos th) e + k * (d1 / a)) / a) with (spow (cos th) e + k * (d1 / a)) by (field; lra).
  replace (b * (spow (sin th) e + k * (d2 / b)) / b) with (spow (sin th) e + k * (d2 / b)) by (field; lra).
  exact HX.
Qed.
