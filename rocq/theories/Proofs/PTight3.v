(** Enclosing ellipsoids in space. *)
From Coq Require Import List Reals ZArith Arith Bool Lia Lra Psatz.
From Verif.Base Require Import Outcome.
From Verif.Model Require Import MGeom MMultiBody MTightFit.
From Verif.Spec Require Import SGeom SRigid.
From Verif.Proofs Require Import PGeom PGeom2 PGeom3 PRot PTight2.
Import ListNotations.
Local Open Scope R_scope.

Definition o3 : v3 := V3r 0 0 0.
Ltac v3r := apply v3_eq; unfold add3, sub3, scale3, app3, diag3, dot3; cbn; ring.
Lemma app_0 M : app3 M o3 = o3.
Proof. unfold o3. v3r. Qed.
Lemma app_sub A u v : app3 A (sub3 u v) = sub3 (app3 A u) (app3 A v).
Proof. v3r. Qed.
Lemma tr_diag a b c : tr3 (diag3 a b c) = diag3 a b c.
Proof. reflexivity. Qed.
Lemma v3_dec (v : v3) : v = o3 \/ v <> o3.
Proof.
  destruct (Req_EM_T (x3 v) 0) as [E|N]; [|right; intros ->; apply N; reflexivity].
  destruct (Req_EM_T (y3 v) 0) as [E2|N2]; [|right; intros ->; apply N2; reflexivity].
  destruct (Req_EM_T (z3 v) 0) as [E3|N3]; [left; apply v3_eq; assumption|right; intros ->; apply N3; reflexivity].
Qed.
Lemma svd3_col A U V s0 s1 s2 e s : sympd3 A -> orthogonal3 U -> orthogonal3 V -> A = mul3 (mul3 U (diag3 s0 s1 s2)) (tr3 V) ->
  app3 (diag3 s0 s1 s2) e = scale3 s e -> 0 <= s -> app3 U e = app3 V e.
Proof.
  intros [S P] [U1 U2] [V1 OV2] EA D S0.
  assert (A1 : app3 A (app3 V e) = scale3 s (app3 U e)).
  { rewrite EA, !app_mul3. rewrite <- (app_mul3 (tr3 V) V), OV2, app_id, D. apply app_scale. }
  assert (A2 : app3 A (app3 U e) = scale3 s (app3 V e)).
  { rewrite <- S, EA, !tr_mul3, tr_tr, tr_diag. rewrite !app_mul3. rewrite <- (app_mul3 (tr3 U) U), U2, app_id, D. apply app_scale. }
  set (u := app3 U e) in *. set (v := app3 V e) in *. clearbody u v. set (w := sub3 u v).
  assert (W : w = o3).
  { destruct (v3_dec w) as [E|N]; [exact E|]. exfalso. specialize (P w N).
    assert (AW : app3 A w = scale3 (- s) w). { unfold w. rewrite app_sub, A1, A2. v3r. }
    rewrite AW, dot_scale in P. assert (0 <= s * dot3 w w) by (apply Rmult_le_pos; [exact S0|apply dot_ge]). lra. }
  apply v3_eq; apply Rminus_diag_uniq.
  - change (x3 (sub3 u v) = 0). fold w. rewrite W. reflexivity.
  - change (y3 (sub3 u v) = 0). fold w. rewrite W. reflexivity.
  - change (z3 (sub3 u v) = 0). fold w. rewrite W. reflexivity.
Qed.
Lemma svd3_sym A U s0 s1 s2 : sympd3 A -> svd3_of A U s0 s1 s2 -> A = conj3 U s0 s1 s2 /\ 0 < s0 /\ 0 < s1 /\ 0 < s2.
Proof.
  intros SP (OU & [V [OV EA]] & S01 & S12 & S2).
  assert (C0 : app3 U (V3r 1 0 0) = app3 V (V3r 1 0 0)) by (apply (svd3_col A U V s0 s1 s2 (V3r 1 0 0) s0 SP OU OV EA); [v3r|lra]).
  assert (C1 : app3 U (V3r 0 1 0) = app3 V (V3r 0 1 0)) by (apply (svd3_col A U V s0 s1 s2 (V3r 0 1 0) s1 SP OU OV EA); [v3r|lra]).
  assert (C2 : app3 U (V3r 0 0 1) = app3 V (V3r 0 0 1)) by (apply (svd3_col A U V s0 s1 s2 (V3r 0 0 1) s2 SP OU OV EA); [v3r|lra]).
  assert (UV : U = V).
  { apply m3_ext. intros v. assert (D : v = add3 (scale3 (x3 v) (V3r 1 0 0)) (add3 (scale3 (y3 v) (V3r 0 1 0)) (scale3 (z3 v) (V3r 0 0 1)))) by (destruct v; v3r).
    rewrite D, !app_add, !app_scale, C0, C1, C2. reflexivity. }
  subst V. assert (EC : A = conj3 U s0 s1 s2) by exact EA. split; [exact EC|].
  destruct OU as [U1 U2].
  assert (NE : forall e, e <> o3 -> app3 U e <> o3).
  { intros e N Z. apply N. rewrite <- (app_id e), <- U2, app_mul3, Z. apply app_0. }
  assert (F : forall e, dot3 (app3 U e) (app3 A (app3 U e)) = dot3 e (app3 (diag3 s0 s1 s2) e)).
  { intros e. rewrite EA, !app_mul3, <- (app_mul3 (tr3 U) U), U2, app_id, dot_tr, <- (app_mul3 (tr3 U) U), U2, app_id. reflexivity. }
  destruct SP as [_ P]. split; [|split].
  - assert (N : V3r 1 0 0 <> o3) by (intros E; injection E; lra). pose proof (P _ (NE _ N)) as H. rewrite F in H. unfold app3, diag3, dot3 in H. cbn in H. lra.
  - assert (N : V3r 0 1 0 <> o3) by (intros E; injection E; lra). pose proof (P _ (NE _ N)) as H. rewrite F in H. unfold app3, diag3, dot3 in H. cbn in H. lra.
  - assert (N : V3r 0 0 1 <> o3) by (intros E; injection E; lra). pose proof (P _ (NE _ N)) as H. rewrite F in H. unfold app3, diag3, dot3 in H. cbn in H. lra.
Qed.
Definition form3 (A : m3) (x : v3) : R := dot3 x (app3 A x).
Definition wsum (d0 d1 d2 : R) (y : v3) : R := d0 * (x3 y * x3 y) + d1 * (y3 y * y3 y) + d2 * (z3 y * z3 y).
Lemma form_conj3 Rm d0 d1 d2 x : form3 (conj3 Rm d0 d1 d2) x = wsum d0 d1 d2 (app3 (tr3 Rm) x).
Proof.
  unfold form3, conj3. rewrite !app_mul3, dot_comm, dot_tr. rewrite dot_comm. generalize (app3 (tr3 Rm) x). intros y.
  unfold wsum, app3, diag3, dot3. cbn. ring.
Qed.
Lemma orth_norm3 M x : orthogonal3 M -> dot3 (app3 (tr3 M) x) (app3 (tr3 M) x) = dot3 x x.
Proof. intros [E _]. rewrite dot_tr, tr_tr, <- app_mul3, E, app_id. reflexivity. Qed.
Lemma conj3_sym Rm d0 d1 d2 : tr3 (conj3 Rm d0 d1 d2) = conj3 Rm d0 d1 d2.
Proof. unfold conj3. rewrite !tr_mul3, tr_tr, tr_diag, mul3_assoc. reflexivity. Qed.
Lemma wsum_pos d0 d1 d2 y : 0 < d0 -> 0 < d1 -> 0 < d2 -> y <> o3 -> 0 < wsum d0 d1 d2 y.
Proof.
  intros D0 D1 D2 N. unfold wsum. pose proof (Rle_0_sqr (x3 y)) as X. pose proof (Rle_0_sqr (y3 y)) as Y. pose proof (Rle_0_sqr (z3 y)) as Z. unfold Rsqr in *.
  assert (X' := Rmult_le_pos d0 _ (Rlt_le _ _ D0) X). assert (Y' := Rmult_le_pos d1 _ (Rlt_le _ _ D1) Y). assert (Z' := Rmult_le_pos d2 _ (Rlt_le _ _ D2) Z).
  destruct (Req_EM_T (x3 y) 0) as [E1|N1]; [|pose proof (Rmult_lt_0_compat _ _ D0 (Rlt_0_sqr _ N1)); unfold Rsqr in *; lra].
  destruct (Req_EM_T (y3 y) 0) as [E2|N2]; [|pose proof (Rmult_lt_0_compat _ _ D1 (Rlt_0_sqr _ N2)); unfold Rsqr in *; lra].
  destruct (Req_EM_T (z3 y) 0) as [E3|N3]; [|pose proof (Rmult_lt_0_compat _ _ D2 (Rlt_0_sqr _ N3)); unfold Rsqr in *; lra].
  elim N. apply v3_eq; assumption.
Qed.
Lemma conj3_pd Rm d0 d1 d2 : orthogonal3 Rm -> 0 < d0 -> 0 < d1 -> 0 < d2 -> sympd3 (conj3 Rm d0 d1 d2).
Proof.
  intros O D0 D1 D2. split; [apply conj3_sym|]. intros x N. fold (form3 (conj3 Rm d0 d1 d2) x). rewrite form_conj3.
  apply wsum_pos; try assumption. intros E. apply N. destruct O as [O1 _]. rewrite <- (app_id x), <- O1, app_mul3, E. apply app_0.
Qed.
Lemma sandwich_pd3 T A : tr3 T = T -> sympd3 A -> (forall x, x <> o3 -> app3 T x <> o3) -> sympd3 (mul3 (mul3 T A) T).
Proof.
  intros ST [SA P] N. split.
  - rewrite !tr_mul3, ST, SA, mul3_assoc. reflexivity.
  - intros x Nx. rewrite !app_mul3. rewrite <- ST at 1. rewrite <- dot_tr. apply P. apply N. exact Nx.
Qed.
Lemma form_sandwich3 T A x : tr3 T = T -> form3 (mul3 (mul3 T A) T) x = form3 A (app3 T x).
Proof. intros ST. unfold form3. rewrite !app_mul3. rewrite <- ST at 1. rewrite <- dot_tr. reflexivity. Qed.
Lemma in_form3 a b c q p : 0 < a -> 0 < b -> 0 < c -> unit_quat q ->
  in3 (ellipsoid0 (a, b, c) q) p <-> form3 (conj3 (rotm q) (/ (a * a)) (/ (b * b)) (/ (c * c))) p <= 1.
Proof.
  intros A B C U. rewrite form_conj3. unfold in3, ellipsoid0, placed. cbn [fst snd].
  assert (SH : forall l, shape3 (ellipsoid_at a b c q (V3r 0 0 0)) l = wsum (/ (a * a)) (/ (b * b)) (/ (c * c)) l).
  { intros l. rewrite shape_ell. unfold wsum. field. repeat split; lra. }
  split.
  - intros [l [-> H]]. rewrite SH in H. cbn [sctr SGeom.sq ellipsoid_at]. rewrite turn_rotm by exact U.
    replace (add3 (V3r 0 0 0) (app3 (rotm q) l)) with (app3 (rotm q) l) by v3r. rewrite rot_tr by exact U. exact H.
  - intros H. exists (app3 (tr3 (rotm q)) p). rewrite SH. split; [|exact H]. cbn [sctr SGeom.sq ellipsoid_at].
    rewrite turn_rotm by exact U. rewrite tr_rot by exact U. destruct p. v3r.
Qed.
Lemma det_conj3 O d0 d1 d2 : orthogonal3 O -> determinant3 (conj3 O d0 d1 d2) = d0 * d1 * d2.
Proof.
  intros [O1 O2]. unfold conj3. rewrite !det_mul.
  assert (DI : determinant3 O * determinant3 (tr3 O) = 1) by (rewrite <- det_mul, O1; unfold determinant3; cbn; ring).
  assert (DD : determinant3 (diag3 d0 d1 d2) = d0 * d1 * d2) by (unfold determinant3; cbn; ring).
  rewrite DD. replace (determinant3 O * (d0 * d1 * d2) * determinant3 (tr3 O)) with (d0 * d1 * d2 * (determinant3 O * determinant3 (tr3 O))) by ring.
  rewrite DI. ring.
Qed.
Lemma inv3_eq T : tr3 T = T -> determinant3 T <> 0 -> exists Ti, inv3 T = Some Ti /\ mul3 Ti T = id3 /\ mul3 T Ti = id3 /\ tr3 Ti = Ti.
Proof.
  intros ST D. unfold inv3.
  assert (DE : det3 T = determinant3 T) by (unfold det3, determinant3, cross3, dot3; cbn; ring).
  rewrite DE, odiv_eq by exact D. cbn [obnd]. set (w := 1 / determinant3 T).
  assert (H : w * det3 T = 1) by (unfold w; rewrite DE; field; exact D). clearbody w.
  set (K := M3 (scale3 w (cross3 (r1 T) (r2 T))) (scale3 w (cross3 (r2 T) (r0 T))) (scale3 w (cross3 (r0 T) (r1 T)))).
  assert (CY : forall u v x, dot3 u (cross3 v x) = dot3 v (cross3 x u)) by (intros; unfold dot3, cross3; cbn; ring).
  assert (C0 : forall u v, dot3 u (cross3 u v) = 0) by (intros; unfold dot3, cross3; cbn; ring).
  assert (E : mul3 T (tr3 K) = id3).
  { unfold mul3. rewrite tr_tr. unfold K, app3. cbn [r0 r1 r2].
    assert (G : forall c u, dot3 (scale3 w c) u = w * dot3 u c) by (intros; unfold dot3, scale3; cbn; ring). rewrite !G.
    assert (D0 : dot3 (r0 T) (cross3 (r1 T) (r2 T)) = det3 T) by reflexivity.
    assert (D1 : dot3 (r1 T) (cross3 (r2 T) (r0 T)) = det3 T) by (rewrite <- CY; reflexivity).
    assert (D2 : dot3 (r2 T) (cross3 (r0 T) (r1 T)) = det3 T) by (rewrite CY; reflexivity).
    rewrite D0, D1, D2, H, !C0.
    rewrite (CY (r0 T) (r2 T) (r0 T)), (CY (r1 T) (r0 T) (r1 T)), (CY (r2 T) (r1 T) (r2 T)).
    rewrite (CY (r2 T) (r0 T) (r0 T)), (CY (r0 T) (r1 T) (r1 T)), (CY (r1 T) (r2 T) (r2 T)).
    assert (CX : forall u v, dot3 u (cross3 v v) = 0) by (intros; unfold dot3, cross3; cbn; ring).
    rewrite ?C0, ?CX, !Rmult_0_r. reflexivity. }
  assert (F : mul3 (tr3 (tr3 K)) T = id3) by (pose proof (f_equal tr3 E) as E'; rewrite tr_mul3, ST in E'; exact E').
  assert (S : tr3 (tr3 K) = tr3 K). { rewrite <- (mul3_1 (tr3 (tr3 K))), <- E, <- mul3_assoc, F, mul1_3. reflexivity. }
  exists (tr3 K). split; [reflexivity|]. rewrite S in F. split; [exact F|]. split; [exact E|exact S].
Qed.
Lemma wsum_le c0 c1 c2 d0 d1 d2 y : c0 <= d0 -> c1 <= d1 -> c2 <= d2 -> wsum c0 c1 c2 y <= wsum d0 d1 d2 y.
Proof.
  intros A B C. unfold wsum. pose proof (Rle_0_sqr (x3 y)) as X. pose proof (Rle_0_sqr (y3 y)) as Y. pose proof (Rle_0_sqr (z3 y)) as Z. unfold Rsqr in *.
  apply Rplus_le_compat; [apply Rplus_le_compat|]; apply Rmult_le_compat_r; assumption.
Qed.
Lemma cap_bounds s r : 0 < s -> 0 < r -> 0 < Rmax (/ sqrt s) r /\ / (Rmax (/ sqrt s) r * Rmax (/ sqrt s) r) <= s /\
  / (Rmax (/ sqrt s) r * Rmax (/ sqrt s) r) <= / (r * r) /\ 0 < / (Rmax (/ sqrt s) r * Rmax (/ sqrt s) r).
Proof.
  intros P R0. assert (Q : 0 < sqrt s) by (apply sqrt_lt_R0; exact P). assert (Qi : 0 < / sqrt s) by (apply Rinv_0_lt_compat; exact Q).
  set (m := Rmax (/ sqrt s) r). assert (M1 : / sqrt s <= m) by apply Rmax_l. assert (M2 : r <= m) by apply Rmax_r.
  assert (SS : sqrt s * sqrt s = s) by (apply sqrt_sqrt; lra).
  split; [lra|]. split; [|split].
  - apply Rle_trans with (/ (/ sqrt s * / sqrt s)); [apply Rinv_le_contravar; nra|rewrite Rinv_mult, Rinv_inv, SS; lra].
  - apply Rinv_le_contravar; nra.
  - apply Rinv_0_lt_compat. nra.
Qed.
Lemma conj3_mul Rm d0 d1 d2 e0 e1 e2 : orthogonal3 Rm -> mul3 (conj3 Rm d0 d1 d2) (conj3 Rm e0 e1 e2) = conj3 Rm (d0 * e0) (d1 * e1) (d2 * e2).
Proof.
  intros [_ O2]. unfold conj3. rewrite (mul3_assoc (mul3 Rm (diag3 d0 d1 d2)) (tr3 Rm)), <- (mul3_assoc (tr3 Rm)), <- (mul3_assoc (tr3 Rm) Rm), O2, mul1_3.
  rewrite <- !mul3_assoc. f_equal. rewrite mul3_assoc. f_equal. apply m3_ext. intros v. rewrite app_mul3. v3r.
Qed.
Lemma scal_comm k M : mul3 (diag3 k k k) M = mul3 M (diag3 k k k).
Proof. apply m3_ext. intros v. rewrite !app_mul3. v3r. Qed.
Lemma conj3_scal Rm d0 d1 d2 k : mul3 (conj3 Rm d0 d1 d2) (diag3 k k k) = conj3 Rm (d0 * k) (d1 * k) (d2 * k).
Proof. unfold conj3. rewrite mul3_assoc, <- scal_comm, <- mul3_assoc. f_equal. rewrite mul3_assoc. f_equal. apply m3_ext. intros v. rewrite app_mul3. v3r. Qed.

(** Hadamard's inequality for the form on three vectors. *)
Definition bil3 (F : m3) (u v : v3) : R := dot3 u (app3 F v).
Lemma bil3_sym F u v : tr3 F = F -> bil3 F u v = bil3 F v u.
Proof.
  intros S. unfold bil3. destruct F as [[a b c] [d e f] [g h i]]. injection S as E1 E2 E3 E4. subst. unfold dot3, app3, dot3. cbn [x3 y3 z3 r0 r1 r2]. ring.
Qed.
Lemma form_bil F u : form3 F u = bil3 F u u.
Proof. reflexivity. Qed.
Lemma gram3 F u v w : tr3 F = F ->
  determinant3 F * (determinant3 (M3 u v w) * determinant3 (M3 u v w)) =
  bil3 F u u * bil3 F v v * bil3 F w w + 2 * (bil3 F u v * bil3 F u w * bil3 F v w) - bil3 F u u * (bil3 F v w * bil3 F v w) -
  bil3 F v v * (bil3 F u w * bil3 F u w) - bil3 F w w * (bil3 F u v * bil3 F u v).
Proof.
  intros S. set (N := M3 u v w).
  assert (DT : determinant3 (tr3 N) = determinant3 N) by (unfold determinant3, tr3; cbn [x3 y3 z3 r0 r1 r2]; ring).
  transitivity (determinant3 (mul3 N (mul3 F (tr3 N)))); [rewrite !det_mul, DT; ring|].
  assert (EN : mul3 N (mul3 F (tr3 N)) = M3 (V3r (bil3 F u u) (bil3 F u v) (bil3 F u w)) (V3r (bil3 F v u) (bil3 F v v) (bil3 F v w)) (V3r (bil3 F w u) (bil3 F w v) (bil3 F w w))).
  { apply m3_eq; unfold N, bil3, mul3, app3, tr3, dot3; cbn [x3 y3 z3 r0 r1 r2]; f_equal; ring. }
  rewrite EN. rewrite (bil3_sym F v u S), (bil3_sym F w u S), (bil3_sym F w v S). unfold determinant3. cbn [x3 y3 z3 r0 r1 r2]. ring.
Qed.
Lemma hadamard3 F u v w : sympd3 F -> u <> o3 ->
  determinant3 F * (determinant3 (M3 u v w) * determinant3 (M3 u v w)) <= form3 F u * form3 F v * form3 F w.
Proof.
  intros [S PD] Nu. rewrite (gram3 F u v w S). rewrite !form_bil.
  assert (NN : forall x, 0 <= bil3 F x x).
  { intros x. destruct (v3_dec x) as [->|N]; [unfold bil3; rewrite app_0; unfold dot3; cbn; lra|left; exact (PD x N)]. }
  assert (PU : 0 < bil3 F u u) by exact (PD u Nu).
  set (y := sub3 (scale3 (bil3 F u u) v) (scale3 (bil3 F u v) u)).
  assert (CS : bil3 F y y = bil3 F u u * (bil3 F u u * bil3 F v v - bil3 F u v * bil3 F u v)).
  { assert (X : forall k l, bil3 F (sub3 (scale3 k v) (scale3 l u)) (sub3 (scale3 k v) (scale3 l u)) = k * k * bil3 F v v - k * l * bil3 F v u - l * k * bil3 F u v + l * l * bil3 F u u).
    { intros k l. unfold bil3, app3, sub3, scale3, dot3. cbn [x3 y3 z3]. ring. }
    unfold y. rewrite X, (bil3_sym F v u S). ring. }
  pose proof (NN y) as Ny. rewrite CS in Ny.
  pose proof (NN w) as Nw. generalize dependent (bil3 F u u). generalize dependent (bil3 F v v). generalize dependent (bil3 F w w).
  generalize (bil3 F u v) (bil3 F u w) (bil3 F v w). intros d e f c Nc b a Pa _ _ Ny.
  assert (Q : 0 <= a * b - d * d). { apply Rmult_le_reg_l with a; [exact Pa|]. rewrite Rmult_0_r. exact Ny. }
  assert (K : 0 <= a * (a * (f * f) - 2 * (d * e * f) + b * (e * e))).
  { replace (a * (a * (f * f) - 2 * (d * e * f) + b * (e * e))) with ((a * f - d * e) * (a * f - d * e) + (a * b - d * d) * (e * e)) by ring.
    apply Rplus_le_le_0_compat; [apply Rle_0_sqr|apply Rmult_le_pos; [exact Q|apply Rle_0_sqr]]. }
  assert (K' : 0 <= a * (f * f) - 2 * (d * e * f) + b * (e * e)). { apply Rmult_le_reg_l with a; [exact Pa|]. rewrite Rmult_0_r. exact K. }
  assert (K2 : 0 <= c * (d * d)) by (apply Rmult_le_pos; [exact Nc|apply Rle_0_sqr]). lra.
Qed.
Lemma form_scale3 F k u : form3 F (scale3 k u) = k * k * form3 F u.
Proof. unfold form3, dot3, app3, scale3, dot3. cbn [x3 y3 z3]. ring. Qed.

Section S.
Variable svd : m3 -> m3 * (R * R * R).
Hypothesis OK : svd3_ok svd.
Lemma mvce3_matrix a b qA qB : pos_axes3 a -> pos_axes3 b -> unit_quat qA -> unit_quat qB ->
  exists C W z0 z1 z2, sympd3 C /\ svd C = (W, (z0, z1, z2)) /\ svd3_of C W z0 z1 z2 /\ 0 < z0 /\ 0 < z1 /\ 0 < z2 /\ C = conj3 W z0 z1 z2 /\
    mvce3 svd a b qA qB = obnd (quat_of W) (fun qc => Some ((/ sqrt z0, / sqrt z1, / sqrt z2), qc)) /\
    (forall p, in3 (ellipsoid0 a qA) p -> form3 C p <= 1) /\ (forall p, in3 (ellipsoid0 b qB) p -> form3 C p <= 1) /\
    (a = b -> qA = qB -> C = conj3 (rotm qA) (/ (fst (fst a) * fst (fst a))) (/ (snd (fst a) * snd (fst a))) (/ (snd a * snd a))) /\
    (forall F, sympd3 F -> (forall p, in3 (ellipsoid0 a qA) p -> form3 F p <= 1) -> (forall p, in3 (ellipsoid0 b qB) p -> form3 F p <= 1) ->
       determinant3 F <= z0 * z1 * z2).
Proof.
  destruct a as [[a0 a1] a2], b as [[b0 b1] b2]. intros (A0 & A1 & A2) (B0 & B1 & B2) UA UB. cbn [fst snd] in *.
  set (r := Rmin b0 (Rmin b1 b2)). assert (R0 : 0 < r) by (unfold r; repeat apply Rmin_glb_lt; assumption).
  assert (ORb : orthogonal3 (rotm qB)) by (apply rotm_rotation; exact UB). assert (ORa : orthogonal3 (rotm qA)) by (apply rotm_rotation; exact UA).
  set (T := conj3 (rotm qB) (r / b0) (r / b1) (r / b2)).
  assert (ST : tr3 T = T) by apply conj3_sym.
  assert (D0 : 0 < r / b0) by (apply Rdiv_lt_0_compat; assumption). assert (D1 : 0 < r / b1) by (apply Rdiv_lt_0_compat; assumption). assert (D2 : 0 < r / b2) by (apply Rdiv_lt_0_compat; assumption).
  assert (DT : determinant3 T <> 0).
  { unfold T. rewrite det_conj3 by exact ORb. apply Rgt_not_eq. apply Rmult_lt_0_compat; [apply Rmult_lt_0_compat|]; assumption. }
  destruct (inv3_eq T ST DT) as (Ti & IE & I1 & I2 & STi).
  set (A := conj3 (rotm qA) (/ (a0 * a0)) (/ (a1 * a1)) (/ (a2 * a2))).
  assert (PA : sympd3 A) by (apply conj3_pd; [exact ORa| | |]; apply Rinv_0_lt_compat; apply Rmult_lt_0_compat; assumption).
  set (Ap := mul3 (mul3 Ti A) Ti).
  assert (NT : forall M N, mul3 N M = id3 -> forall x, x <> o3 -> app3 M x <> o3).
  { intros M N E x Nx Z. apply Nx. rewrite <- (app_id x), <- E, app_mul3, Z. apply app_0. }
  assert (PAp : sympd3 Ap) by (apply sandwich_pd3; [exact STi|exact PA|exact (NT Ti T I2)]).
  pose proof (OK Ap PAp) as SV. destruct (svd Ap) as [U [[s0 s1] s2]] eqn:EU.
  destruct (svd3_sym Ap U s0 s1 s2 PAp SV) as (EA & P0 & P1 & P2).
  set (c0 := / (Rmax (/ sqrt s0) r * Rmax (/ sqrt s0) r)). set (c1 := / (Rmax (/ sqrt s1) r * Rmax (/ sqrt s1) r)). set (c2 := / (Rmax (/ sqrt s2) r * Rmax (/ sqrt s2) r)).
  destruct (cap_bounds s0 r P0 R0) as (X0 & Y0 & Z0 & W0). destruct (cap_bounds s1 r P1 R0) as (X1 & Y1 & Z1 & W1). destruct (cap_bounds s2 r P2 R0) as (X2 & Y2 & Z2 & W2).
  set (Cp := conj3 U c0 c1 c2). set (C := mul3 (mul3 T Cp) T).
  pose proof SV as (OU & _).
  assert (PC : sympd3 C) by (apply sandwich_pd3; [exact ST|apply conj3_pd; assumption|exact (NT T Ti I1)]).
  pose proof (OK C PC) as SW. destruct (svd C) as [W [[z0 z1] z2]] eqn:EW.
  destruct (svd3_sym C W z0 z1 z2 PC SW) as (EC & Q0 & Q1 & Q2). pose proof SW as (OW & _).
  exists C, W, z0, z1, z2. split; [exact PC|]. split; [exact EW|]. split; [exact SW|]. split; [exact Q0|]. split; [exact Q1|]. split; [exact Q2|]. split; [exact EC|].
  assert (EB : forall p, dot3 (app3 T p) (app3 T p) = r * r * form3 (conj3 (rotm qB) (/ (b0 * b0)) (/ (b1 * b1)) (/ (b2 * b2))) p).
  { intros p. rewrite form_conj3. unfold T, conj3. rewrite !app_mul3. set (y := app3 (tr3 (rotm qB)) p). set (w := app3 (diag3 (r / b0) (r / b1) (r / b2)) y).
    rewrite <- (orth_norm3 (rotm qB) (app3 (rotm qB) w) ORb), <- app_mul3. destruct ORb as [_ O2]. rewrite O2, app_id. unfold w, wsum, app3, diag3, dot3. cbn [x3 y3 z3 r0 r1 r2]. field. repeat split; lra. }
  split; [|split; [|split; [|split]]].
  - unfold mvce3. fold r. rewrite !odiv_eq by lra. cbn [obnd]. rewrite !inv_sq_eq by assumption. cbn [obnd].
    fold T. rewrite IE. cbn [obnd]. fold A. fold Ap. rewrite EU. rewrite !inv_root_eq by assumption. cbn [obnd].
    rewrite !inv_sq_eq by assumption. cbn [obnd]. fold c0 c1 c2. fold Cp. fold C. rewrite EW, !inv_root_eq by assumption. cbn [obnd]. reflexivity.
  - intros p Hp. apply (in_form3 a0 a1 a2 qA p A0 A1 A2 UA) in Hp. fold A in Hp.
    unfold C. rewrite form_sandwich3 by exact ST.
    apply Rle_trans with (form3 (conj3 U s0 s1 s2) (app3 T p)); [unfold Cp; rewrite !form_conj3; apply wsum_le; assumption|]. rewrite <- EA. unfold Ap.
    rewrite form_sandwich3 by exact STi. rewrite <- app_mul3, I1, app_id. exact Hp.
  - intros p Hp. apply (in_form3 b0 b1 b2 qB p B0 B1 B2 UB) in Hp.
    unfold C. rewrite form_sandwich3 by exact ST. unfold Cp. rewrite form_conj3.
    apply Rle_trans with (wsum (/ (r * r)) (/ (r * r)) (/ (r * r)) (app3 (tr3 U) (app3 T p))); [apply wsum_le; assumption|].
    replace (wsum (/ (r * r)) (/ (r * r)) (/ (r * r)) (app3 (tr3 U) (app3 T p))) with (/ (r * r) * dot3 (app3 (tr3 U) (app3 T p)) (app3 (tr3 U) (app3 T p))) by (unfold wsum, dot3; ring).
    rewrite orth_norm3 by exact OU. rewrite EB. set (q := form3 _ p) in *. replace (/ (r * r) * (r * r * q)) with q by (field; lra). exact Hp.
  - intros EAB EQ. injection EAB as <- <- <-. subst qB. fold A.
    set (k := / (r * r)).
    assert (TT : A = mul3 (mul3 T (diag3 k k k)) T).
    { unfold A, T. rewrite conj3_scal, conj3_mul by exact ORa. f_equal; unfold k; field; lra. }
    assert (KI : Ap = diag3 k k k).
    { unfold Ap. rewrite TT, !mul3_assoc. rewrite I2, mul3_1, <- mul3_assoc, I1, mul1_3. reflexivity. }
    assert (KS : diag3 s0 s1 s2 = diag3 k k k).
    { destruct OU as [O1 O2]. assert (E : mul3 (mul3 (tr3 U) Ap) U = diag3 s0 s1 s2).
      { rewrite EA. unfold conj3. rewrite !mul3_assoc, O2, mul3_1, <- mul3_assoc, O2, mul1_3. reflexivity. }
      rewrite <- E, KI. rewrite mul3_assoc, scal_comm, <- mul3_assoc, O2, mul1_3. reflexivity. }
    injection KS as K0 K1 K2.
    assert (KR : / sqrt k = r). { unfold k. rewrite sqrt_inv by nra. rewrite sqrt_square by lra. apply Rinv_inv. }
    assert (CK : Cp = diag3 k k k).
    { unfold Cp, c0, c1, c2. rewrite K0, K1, K2, KR, Rmax_left by lra. fold k. unfold conj3. rewrite <- scal_comm, mul3_assoc. destruct OU as [O1 _]. rewrite O1, mul3_1. reflexivity. }
    unfold C. rewrite CK. symmetry. exact TT.
  - intros F PF FA FB.
    assert (TE : forall e, app3 (tr3 U) (app3 U e) = e) by (intros e; rewrite <- app_mul3; destruct OU as [_ O2]; rewrite O2, app_id; reflexivity).
    assert (UN : forall e, dot3 e e = 1 -> dot3 (app3 U e) (app3 U e) = 1).
    { intros e He. rewrite <- (orth_norm3 U (app3 U e) OU), TE. exact He. }
    assert (UF : forall e s, dot3 e e = 1 -> 0 < s -> wsum s0 s1 s2 e = s -> form3 F (app3 Ti (app3 U e)) <= / (Rmax (/ sqrt s) r * Rmax (/ sqrt s) r)).
    { intros e s He Ps Es. set (u := app3 Ti (app3 U e)).
      assert (KF : forall k, 0 < k -> form3 F (scale3 k u) <= 1 -> form3 F u <= / (k * k)).
      { intros k Kp. rewrite form_scale3. intros L. assert (KK : 0 < k * k) by (apply Rmult_lt_0_compat; exact Kp). apply Rmult_le_reg_l with (k * k); [exact KK|]. rewrite Rinv_r by lra. exact L. }
      assert (TU : app3 T u = app3 U e) by (unfold u; rewrite <- app_mul3, I2, app_id; reflexivity).
      destruct (Rle_dec r (/ sqrt s)) as [G|G].
      - rewrite Rmax_left by exact G. apply KF; [lra|]. apply FA. apply (in_form3 a0 a1 a2 qA _ A0 A1 A2 UA). fold A. rewrite form_scale3.
        assert (FAu : form3 A u = s). { unfold u. rewrite <- form_sandwich3 by exact STi. fold Ap. rewrite EA, form_conj3, TE. exact Es. }
        rewrite FAu, <- Rinv_mult, sqrt_sqrt, Rinv_l by lra. lra.
      - rewrite Rmax_right by lra. apply KF; [exact R0|]. apply FB. apply (in_form3 b0 b1 b2 qB _ B0 B1 B2 UB). rewrite form_scale3, <- EB, TU, (UN e He). lra. }
    pose (e0 := V3r 1 0 0). pose (e1 := V3r 0 1 0). pose (e2 := V3r 0 0 1).
    assert (H0 : form3 F (app3 Ti (app3 U e0)) <= c0) by (apply (UF e0 s0); [unfold e0, dot3; cbn [x3 y3 z3]; lra|exact P0|unfold e0, wsum; cbn [x3 y3 z3]; ring]).
    assert (H1 : form3 F (app3 Ti (app3 U e1)) <= c1) by (apply (UF e1 s1); [unfold e1, dot3; cbn [x3 y3 z3]; lra|exact P1|unfold e1, wsum; cbn [x3 y3 z3]; ring]).
    assert (H2 : form3 F (app3 Ti (app3 U e2)) <= c2) by (apply (UF e2 s2); [unfold e2, dot3; cbn [x3 y3 z3]; lra|exact P2|unfold e2, wsum; cbn [x3 y3 z3]; ring]).
    set (M := mul3 Ti U). rewrite <- app_mul3 in H0, H1, H2. fold M in H0, H1, H2.
    assert (NM : app3 M e0 <> o3).
    { apply (NT M (mul3 (tr3 U) T)).
      - unfold M. rewrite mul3_assoc, <- (mul3_assoc T Ti), I2, mul1_3. destruct OU as [_ O2]. exact O2.
      - intros Z. assert (X := f_equal x3 Z). cbn in X. lra. }
    pose proof (hadamard3 F (app3 M e0) (app3 M e1) (app3 M e2) PF NM) as HD.
    replace (determinant3 (M3 (app3 M e0) (app3 M e1) (app3 M e2))) with (determinant3 M) in HD by (unfold determinant3, app3, dot3, e0, e1, e2; cbn [x3 y3 z3 r0 r1 r2]; ring).
    assert (NN : forall x, 0 <= form3 F x).
    { intros x. destruct (v3_dec x) as [->|N]; [rewrite form_bil; unfold bil3; rewrite app_0; unfold dot3; cbn; lra|left; exact (proj2 PF x N)]. }
    assert (HP : form3 F (app3 M e0) * form3 F (app3 M e1) * form3 F (app3 M e2) <= c0 * c1 * c2).
    { apply Rmult_le_compat; [apply Rmult_le_pos; apply NN|apply NN|apply Rmult_le_compat; [apply NN|apply NN|exact H0|exact H1]|exact H2]. }
    assert (DZ : determinant3 C = z0 * z1 * z2) by (rewrite EC; apply det_conj3; exact OW).
    assert (DC : determinant3 C = determinant3 T * determinant3 T * (c0 * c1 * c2)).
    { unfold C. rewrite !det_mul. unfold Cp. rewrite det_conj3 by exact OU. ring. }
    assert (DU : determinant3 U * determinant3 U = 1).
    { destruct OU as [O1 _]. pose proof (f_equal determinant3 O1) as E. rewrite det_mul in E. replace (determinant3 (tr3 U)) with (determinant3 U) in E by (unfold determinant3, tr3; cbn [x3 y3 z3 r0 r1 r2]; ring).
      rewrite E. unfold determinant3, id3. cbn. ring. }
    assert (DI : determinant3 Ti * determinant3 T = 1) by (rewrite <- det_mul, I1; unfold determinant3, id3; cbn; ring).
    assert (DM : determinant3 M * determinant3 M * (determinant3 T * determinant3 T) = 1).
    { unfold M. rewrite det_mul. replace (determinant3 Ti * determinant3 U * (determinant3 Ti * determinant3 U) * (determinant3 T * determinant3 T)) with ((determinant3 Ti * determinant3 T) * (determinant3 Ti * determinant3 T) * (determinant3 U * determinant3 U)) by ring.
      rewrite DI, DU. ring. }
    rewrite <- DZ, DC. replace (determinant3 F) with (determinant3 T * determinant3 T * (determinant3 F * (determinant3 M * determinant3 M))) by (transitivity (determinant3 F * (determinant3 M * determinant3 M * (determinant3 T * determinant3 T))); [ring|rewrite DM; ring]).
    apply Rmult_le_compat_l; [apply Rle_0_sqr|]. exact (Rle_trans _ _ _ HD HP).
Qed.
Lemma form_in3 z0 z1 z2 q p : 0 < z0 -> 0 < z1 -> 0 < z2 -> unit_quat q -> form3 (conj3 (rotm q) z0 z1 z2) p <= 1 -> in3 (ellipsoid0 (/ sqrt z0, / sqrt z1, / sqrt z2) q) p.
Proof.
  intros Z0 Z1 Z2 U H. apply in_form3; [apply Rinv_0_lt_compat, sqrt_lt_R0; assumption ..|exact U|].
  rewrite <- !Rinv_mult, !Rinv_inv, !sqrt_sqrt by lra. exact H.
Qed.
Lemma pos_root3 z0 z1 z2 : 0 < z0 -> 0 < z1 -> 0 < z2 -> pos_axes3 (/ sqrt z0, / sqrt z1, / sqrt z2).
Proof. intros A B C. repeat split; cbn [fst snd]; apply Rinv_0_lt_compat, sqrt_lt_R0; assumption. Qed.
Lemma mvce3_proper a b qA qB : proper_svd3 svd -> pos_axes3 a -> pos_axes3 b -> unit_quat qA -> unit_quat qB ->
  exists c q, mvce3 svd a b qA qB = Some (c, q) /\ pos_axes3 c /\ unit_quat q /\
    encloses3 (ellipsoid0 c q) (ellipsoid0 a qA) /\ encloses3 (ellipsoid0 c q) (ellipsoid0 b qB).
Proof.
  intros PR PA PB UA UB. destruct (mvce3_matrix a b qA qB PA PB UA UB) as (C & W & z0 & z1 & z2 & PC & EW & SW & Z0 & Z1 & Z2 & EC & ER & EA & EB & _).
  pose proof SW as (OW & _). pose proof (PR C PC) as D. rewrite EW in D. cbn [fst] in D.
  destruct (quat_of_rot W (conj OW D)) as (q & Q1 & Q2 & Q3). rewrite Q1 in ER. cbn [obnd] in ER.
  exists (/ sqrt z0, / sqrt z1, / sqrt z2), q. split; [exact ER|]. split; [apply pos_root3; assumption|]. split; [exact Q2|].
  rewrite <- Q3 in EC. rewrite EC in EA, EB. split; intros p Hp; apply form_in3; auto.
Qed.
(** Only one call is needed to be right when its decomposition is: no convention on other
    matrices. *)
Lemma tfe3_fold a quats l : proper_svd3 svd -> pos_axes3 a -> Forall (fun i => exists qi, nth_error quats i = Some (Some qi) /\ unit_quat qi) l -> forall c q, pos_axes3 c -> unit_quat q ->
  exists c' q', ofold (tfe_step3 svd a quats) l (Some (c, q)) = Ok (Some (c', q')) /\ pos_axes3 c' /\ unit_quat q' /\
    encloses3 (ellipsoid0 c' q') (ellipsoid0 c q) /\
    (forall i qi, In i l -> nth_error quats i = Some (Some qi) -> encloses3 (ellipsoid0 c' q') (ellipsoid0 a qi)).
Proof.
  intros PR PA. induction l as [|i l IH]; intros LL c q PC U.
  - exists c, q. split; [reflexivity|]. split; [exact PC|]. split; [exact U|]. split; [intros p H; exact H|intros i qi []].
  - inversion LL as [|u v L1 L2]; subst. destruct L1 as (qi & E & Ui).
    destruct (mvce3_proper a c qi q PR PA PC Ui U) as (c1 & q1 & E1 & P1 & U1 & X1 & X2).
    destruct (IH L2 c1 q1 P1 U1) as (c' & q' & E2 & P2 & U2 & Y1 & Y2).
    exists c', q'. split.
    + cbn [ofold]. unfold tfe_step3 at 1. unfold at_. rewrite E. cbn [obind obnd fst snd]. rewrite E1. exact E2.
    + split; [exact P2|]. split; [exact U2|]. split; [intros p H; exact (Y1 p (X2 p H))|].
      intros j qj [<-|I] N; [rewrite E in N; injection N as <-; intros p H; exact (Y1 p (X1 p H))|exact (Y2 j qj I N)].
Qed.
Lemma tfe3_encloses a qA qB quats numStep : proper_svd3 svd -> pos_axes3 a -> unit_quat qA -> unit_quat qB ->
  (forall i, (1 <= i < numStep)%nat -> exists qi, nth_error quats i = Some (Some qi) /\ unit_quat qi) ->
  exists c q, tfe3 svd a qA qB quats numStep = Ok (Some (c, q)) /\ pos_axes3 c /\ unit_quat q /\
    encloses3 (ellipsoid0 c q) (ellipsoid0 a qA) /\ encloses3 (ellipsoid0 c q) (ellipsoid0 a qB) /\
    forall i qi, (1 <= i < numStep)%nat -> nth_error quats i = Some (Some qi) -> encloses3 (ellipsoid0 c q) (ellipsoid0 a qi).
Proof.
  intros PR PA UA UB UQ. unfold tfe3. destruct (mvce3_proper a a qA qB PR PA PA UA UB) as (c0 & q0 & E0 & P0 & U0 & X1 & X2). rewrite E0.
  destruct (tfe3_fold a quats (seq 1 (numStep - 1)) PR PA) with (c := c0) (q := q0) as (c & q & E & P & U & Y1 & Y2); [|exact P0|exact U0|].
  - apply Forall_forall. intros i I. apply in_seq in I. apply UQ. lia.
  - exists c, q. split; [exact E|]. split; [exact P|]. split; [exact U|]. split; [intros p H; exact (Y1 p (X1 p H))|]. split; [intros p H; exact (Y1 p (X2 p H))|].
    intros i qi L N. apply (Y2 i qi); [apply in_seq; lia|exact N].
Qed.
End S.
