(** The roadmap of a round robot among round obstacles: boundaries that are accurate up to [eps] keep
    every vertex at a distance. *)
From Coq Require Import List Reals ZArith Arith Bool Lia Lra Psatz.
From Flocq Require Import Core.Core.
From Verif.Base Require Import Outcome Float64 FloatFacts.
From Verif.Model Require Import MScalar MInterval MLine2D MGeom MGraph MSearch MHRM2D.
From Verif.Spec Require Import SLine2D SGeom SRigid SPlanner2D SCover SClear SHline.
From Verif.Proofs Require Import PLine2D PGeom PGeom2 PGeomX PShape PCover PCoverX PHline PHlineX.
Import ListNotations.
Local Open Scope R_scope.

Lemma pi_gap : cPI + 5 / 100000000 < PI.
Proof.
  unfold cPI. pose proof (PI_2_3_7_ineq 4) as [H _].
  unfold tg_alt, PI_2_3_7_tg, Ratan_seq in H. cbn -[pow INR] in H.
  repeat (rewrite S_INR in H). cbn [INR pow Nat.mul Nat.add] in H. lra.
Qed.

Definition close_pt (eps : R) (u v : rpoint) : Prop := Rabs (fst u - fst v) <= eps /\ Rabs (snd u - snd v) <= eps.

Lemma f2_nth {A B} (Q : A -> B -> Prop) l m : Forall2 Q l m -> forall i a, nth_error l i = Some a -> exists b, nth_error m i = Some b /\ Q a b.
Proof.
  induction 1 as [|x y l m H F IH]; intros [|i] a E; try discriminate E.
  - injection E as <-. exists y. split; [reflexivity|exact H].
  - exact (IH i a E).
Qed.
Lemma edge_close eps P' P a' b' : Forall2 (close_pt eps) P' P -> is_edge P' a' b' -> exists a b, is_edge P a b /\ close_pt eps a' a /\ close_pt eps b' b.
Proof.
  intros F [(i & E1 & E2)|(l & E & La)].
  - destruct (f2_nth _ _ _ F _ _ E1) as (a & A1 & A2). destruct (f2_nth _ _ _ F _ _ E2) as (b & B1 & B2).
    exists a, b. split; [left; exists i; auto|auto].
  - pose proof (f2len _ _ _ F) as L. subst P'. inversion F as [|? b0 ? P0 HB F0]; subst.
    pose proof (last_nth (b' :: l) b' ltac:(discriminate)) as LN.
    destruct (f2_nth _ _ _ F _ _ LN) as (a & A1 & A2). rewrite L in A1.
    exists a, b0. split; [|split; [exact A2|exact HB]].
    right. exists P0. split; [reflexivity|]. pose proof (last_nth (b0 :: P0) b0 ltac:(discriminate)) as LN'. rewrite LN' in A1. injection A1 as <-. reflexivity.
Qed.
Lemma turn_close eps D (a b a' b' p : rpoint) : 0 <= eps -> 0 <= D -> close_pt eps a' a -> close_pt eps b' b ->
  Rabs (fst p - fst a) <= D -> Rabs (snd p - snd a) <= D -> Rabs (fst b - fst a) <= D -> Rabs (snd b - snd a) <= D ->
  turn_of a b p - (6 * eps * D + 4 * eps * eps) <= turn_of a' b' p.
Proof.
  intros E0 D0 [A1 A2] [B1' B2] P1 P2 Q1 Q2.
  assert (C1' : Rabs ((fst b' - fst b) - (fst a' - fst a)) <= 2 * eps).
  { pose proof (Rabs_triang (fst b' - fst b) (- (fst a' - fst a))) as T. rewrite Rabs_Ropp in T. unfold Rminus at 1. lra. }
  assert (C2 : Rabs ((snd b' - snd b) - (snd a' - snd a)) <= 2 * eps).
  { pose proof (Rabs_triang (snd b' - snd b) (- (snd a' - snd a))) as T. rewrite Rabs_Ropp in T. unfold Rminus at 1. lra. }
  pose proof (mabs _ _ _ _ C1' P2) as M1. pose proof (mabs _ _ _ _ C2 P1) as M2.
  pose proof (mabs _ _ _ _ Q1 A2) as M3. pose proof (mabs _ _ _ _ Q2 A1) as M4.
  pose proof (mabs _ _ _ _ C1' A2) as M5. pose proof (mabs _ _ _ _ C2 A1) as M6.
  apply Rabs_le_inv in M1, M2, M3, M4, M5, M6.
  assert (K : turn_of a' b' p = turn_of a b p
     + ((fst b' - fst b - (fst a' - fst a)) * (snd p - snd a) - (snd b' - snd b - (snd a' - snd a)) * (fst p - fst a))
     - ((fst b - fst a) * (snd a' - snd a) - (snd b - snd a) * (fst a' - fst a))
     - ((fst b' - fst b - (fst a' - fst a)) * (snd a' - snd a) - (snd b' - snd b - (snd a' - snd a)) * (fst a' - fst a))) by (unfold turn_of; ring).
  rewrite K. lra.
Qed.

Lemma sin_small h : 1 / 100000000 <= h <= 1 -> 1 / 2 * h <= sin h.
Proof.
  intros H. pose proof (pre_sin_bound h 0 ltac:(lra) ltac:(lra)) as [L _].
  cbn [Nat.mul Nat.add] in L. unfold sin_approx, sum_f_R0, sin_term in L. cbn [Nat.mul Nat.add pow fact INR] in L.
  assert (h * h <= 1) by nra. assert (h * (h * h) <= h) by nra. cbn in L. lra.
Qed.

Section DiscMargin.
Variables (c : v2) (r t : R) (num : nat).
Hypothesis R0 : 0 < r.
Hypothesis N3 : (3 <= num)%nat.
Hypothesis NB : INR num <= 3000000.
Lemma hstep_low : 1 / 1000000 <= hstep num.
Proof.
  pose proof (num_ge num N3) as N. unfold hstep, cPI. apply Rmult_le_reg_r with (INR num - 1); [lra|]. unfold Rdiv at 2. rewrite Rmult_assoc, Rinv_l by lra. lra.
Qed.
Lemma sin_hstep : 5 / 100000000 <= sin (hstep num).
Proof.
  pose proof hstep_low as L. pose proof (hstep_range num N3) as [_ H].
  destruct (Rle_dec (hstep num) 1) as [K|K].
  - pose proof (sin_small (hstep num) ltac:(lra)). lra.
  - pose proof (sin_small 1 ltac:(lra)) as S1. assert (sin 1 <= sin (hstep num)) by (apply sin_incr_1; lra). lra.
Qed.
Lemma sin_gap : 24 / 1000000000 <= sin cPI.
Proof.
  pose proof pi_gap as G. pose proof pi_hi as PH. assert (E : sin cPI = sin (PI - cPI)) by (rewrite sin_minus, cos_PI, sin_PI; ring).
  rewrite E. pose proof (sin_small (PI - cPI) ltac:(lra)). lra.
Qed.
(** Distance of p from every edge, times the length of the edge. *)
Lemma edge_margin p rho a b : 0 <= rho -> rho <= r * cos (hstep num) ->
  (fst p - x2 c) * (fst p - x2 c) + (snd p - y2 c) * (snd p - y2 c) <= rho * rho -> is_edge (disc_poly c r t num) a b ->
  48 / 1000000000 * r * (r * cos (hstep num) - rho) <= turn_of a b p.
Proof.
  intros P0 PB H E. pose proof (hstep_range num N3) as [H1 H2]. pose proof pi_lo as PL. pose proof pi_hi as PH. pose proof (num_ge num N3) as N. assert (CP : 0 < cPI) by (unfold cPI; lra).
  set (X := fst p - x2 c) in *. set (Y := snd p - y2 c) in *.
  assert (DOT : forall m, X * cos m + Y * sin m <= rho) by (intros m; apply dot_le; assumption).
  assert (G : forall s k d, 24 / 1000000000 <= s -> r * cos (hstep num) <= k -> d <= rho -> 48 / 1000000000 * r * (r * cos (hstep num) - rho) <= 2 * r * s * (k - d)).
  { intros s k d Hs Hk Hd. replace (48 / 1000000000 * r * (r * cos (hstep num) - rho)) with (2 * r * (24 / 1000000000) * (r * cos (hstep num) - rho)) by field.
    apply Rmult_le_compat; [apply Rmult_le_pos; lra|lra| |lra]. apply Rmult_le_compat_l; lra. }
  unfold disc_poly in E. destruct (is_edge_seq (vert c r t num) num a b E) as [(i & L & -> & ->)|(L & -> & ->)].
  - destruct (edge_mid c r t num N3 i) as [-> ->]. rewrite turn_circ. fold X Y. apply G; [pose proof sin_hstep; lra|lra|apply DOT].
  - destruct (close_mid c r t num N3) as [-> ->]. rewrite turn_circ. fold X Y. rewrite sin_neg, cos_neg.
    assert (CC : r * cos (hstep num) <= - (r * cos cPI)).
    { assert (Q : - cos cPI = cos (PI - cPI)) by (rewrite cos_minus, cos_PI, sin_PI; ring).
      replace (- (r * cos cPI)) with (r * - cos cPI) by ring. rewrite Q. apply Rmult_le_compat_l; [lra|].
      pose proof hstep_low. apply cos_decr_1; lra. }
    assert (D2 : - (X * cos (t + cPI) + Y * sin (t + cPI)) <= rho).
    { specialize (DOT (t + cPI + PI)). rewrite neg_cos, neg_sin in DOT. lra. }
    replace (2 * r * - sin cPI * (r * cos cPI - (X * cos (t + cPI) + Y * sin (t + cPI)))) with (2 * r * sin cPI * (- (r * cos cPI) - - (X * cos (t + cPI) + Y * sin (t + cPI)))) by ring.
    apply G; [exact sin_gap|exact CC|exact D2].
Qed.
Lemma circ_near_c i : Rabs (fst (vert c r t num i) - x2 c) <= r /\ Rabs (snd (vert c r t num i) - y2 c) <= r.
Proof.
  unfold vert, circ. cbn [fst snd]. set (th := t + theta num i).
  pose proof (COS_bound th) as [C1' C2']. pose proof (SIN_bound th) as [D1' D2'].
  assert (Kc : - r <= r * cos th <= r) by (split; nra). assert (Ks : - r <= r * sin th <= r) by (split; nra).
  split; apply Rabs_le; lra.
Qed.
Lemma near_inside eps (P' : list rpoint) p rho : 0 <= eps <= r -> Forall2 (close_pt eps) P' (disc_poly c r t num) -> 0 <= rho ->
  (fst p - x2 c) * (fst p - x2 c) + (snd p - y2 c) * (snd p - y2 c) <= rho * rho ->
  rho < r * cos (hstep num) - 350000000 * eps -> strictly_inside P' p.
Proof.
  intros E0 F P0 H L a' b' E. destruct (edge_close _ _ _ _ _ F E) as (a & b & Eab & Ca & Cb).
  pose proof (edge_margin p rho a b P0 ltac:(lra) H Eab) as M.
  assert (Cos1 : cos (hstep num) <= 1) by apply COS_bound.
  assert (Rr : rho < r) by nra.
  assert (PX : Rabs (fst p - x2 c) <= r /\ Rabs (snd p - y2 c) <= r).
  { clear - H Rr P0 R0. generalize dependent (fst p - x2 c). intros X. generalize dependent (snd p - y2 c). intros Y. intros H.
    split; apply Rabs_le; split; nra. }
  assert (V : forall q, In q (disc_poly c r t num) -> Rabs (fst q - x2 c) <= r /\ Rabs (snd q - y2 c) <= r).
  { intros q Hq. unfold disc_poly in Hq. apply in_map_iff in Hq. destruct Hq as (i & <- & _). apply circ_near_c. }
  destruct (is_edge_in _ _ _ Eab) as [Ia Ib]. destruct (V a Ia) as [A1 A2]. destruct (V b Ib) as [B1' B2]. destruct PX as [P1 P2].
  apply Rabs_le_inv in A1, A2, B1', B2, P1, P2.
  pose proof (turn_close eps (2 * r) a b a' b' p (proj1 E0) ltac:(lra) Ca Cb ltac:(apply Rabs_le; lra) ltac:(apply Rabs_le; lra) ltac:(apply Rabs_le; lra) ltac:(apply Rabs_le; lra)) as T.
  assert (Q1 : eps * eps <= eps * r) by (apply Rmult_le_compat_l; lra).
  assert (Q2 : 16 * (eps * r) < 48 / 1000000000 * r * (r * cos (hstep num) - rho)).
  { assert (350000000 * eps < r * cos (hstep num) - rho) by lra.
    assert (48 / 1000000000 * r * (350000000 * eps) < 48 / 1000000000 * r * (r * cos (hstep num) - rho)) by (apply Rmult_lt_compat_l; lra).
    assert (0 <= r * eps) by (apply Rmult_le_pos; lra). lra. }
  lra.
Qed.
End DiscMargin.

Lemma norm_shift u v w : sqrt ((u + w) * (u + w) + v * v) <= sqrt (u * u + v * v) + Rabs w.
Proof.
  set (s := sqrt (u * u + v * v)). assert (Q : 0 <= u * u + v * v) by nra. assert (S0 : 0 <= s) by apply sqrt_pos.
  assert (S2 : s * s = u * u + v * v) by (apply sqrt_sqrt; exact Q). pose proof (Rabs_pos w) as W0.
  assert (US : Rabs u <= s) by (apply Rsqr_incr_0_var; [|exact S0]; unfold Rsqr; rewrite <- Rabs_mult, Rabs_pos_eq by nra; nra).
  assert (W2 : Rabs w * Rabs w = w * w) by (rewrite <- Rabs_mult; apply Rabs_pos_eq; nra).
  assert (UW : u * w <= s * Rabs w).
  { apply Rle_trans with (Rabs (u * w)); [apply Rle_abs|]. rewrite Rabs_mult. apply Rmult_le_compat_r; assumption. }
  replace (s + Rabs w) with (sqrt ((s + Rabs w) * (s + Rabs w))) by (apply sqrt_square; lra).
  apply sqrt_le_1_alt. nra.
Qed.
Lemma accurate_close eps A P o : (3 <= d_n o)%nat -> 0 < d_r o -> 0 < A -> accurate_boundary eps A P o ->
  Forall2 (close_pt eps) (real_poly P) (disc_poly (V2 (d_x o) (d_y o)) (d_r o + A) (d_t o) (d_n o)).
Proof.
  intros N Hr HA (bd & E & F).
  destruct (mink_discs (d_r o) (d_x o) (d_y o) (d_t o) (d_n o) A 1 [0; 0] 0 (d_n o) N Hr HA) as (bd' & E' & SP).
  assert (bd' = bd) as -> by (assert (Q : forall T (u v : T), Ok u = Ok v -> u = v) by (intros T u v Q; injection Q; auto); apply Q; rewrite <- E; symmetry; exact E').
  clear E E'. unfold sampled_polygon, lift_poly in SP. revert SP. generalize (disc_poly (V2 (d_x o) (d_y o)) (d_r o + A) (d_t o) (d_n o)). 
  induction F as [|p q P bd (v & -> & V1 & V2') F IH]; intros [|d D] SP; try discriminate SP; [constructor|].
  cbn [map] in SP. injection SP as S1 S2 S3. cbn [real_poly map]. constructor; [|exact (IH D S3)].
  unfold close_pt, real_pt. cbn [fst snd]. destruct d as [d1 d2]. cbn [fst snd] in *. subst. split; assumption.
Qed.
Lemma disc_deep eps A P o M x y : (3 <= d_n o)%nat -> INR (d_n o) <= 3000000 -> 0 < d_r o -> 0 < A -> 0 <= eps <= d_r o + A ->
  accurate_boundary eps A P o -> 0 <= hit_error M ->
  dist2 (V2 x y) (V2 (d_x o) (d_y o)) < (d_r o + A) * cos (31415926 / 10000000 / (INR (d_n o) - 1)) - 350000000 * eps - hit_error M ->
  deep_inside P M x y.
Proof.
  intros N NB Hr HA He Ac HM D. pose proof (accurate_close _ _ _ _ N Hr HA Ac) as F.
  assert (G : forall w, Rabs w <= hit_error M -> strictly_inside (real_poly P) (x + w, y)).
  { intros w Hw. set (rho := sqrt ((x + w - d_x o) * (x + w - d_x o) + (y - d_y o) * (y - d_y o))).
    assert (R1 : rho <= dist2 (V2 x y) (V2 (d_x o) (d_y o)) + Rabs w).
    { unfold rho. replace (x + w - d_x o) with (x - d_x o + w) by ring. apply norm_shift. }
    refine (near_inside (V2 (d_x o) (d_y o)) (d_r o + A) (d_t o) (d_n o) _ N NB eps (real_poly P) (x + w, y) rho He F (sqrt_pos _) _ _).
    - lra.
    - cbn [fst snd x2 y2]. unfold rho. rewrite sqrt_sqrt; [lra|]. apply Rplus_le_le_0_compat; apply Rle_0_sqr.
    - unfold hstep, cPI. lra. }
  split; [unfold Rminus|]; apply G; [rewrite Rabs_Ropp|]; rewrite Rabs_pos_eq by exact HM; lra.
Qed.
Lemma reach_err P M : P <> [] -> reach P M -> 0 <= hit_error M.
Proof.
  intros Ne Rc. destruct P as [|p P]; [contradiction (Ne eq_refl)|]. pose proof (Rc p (or_introl eq_refl)) as H. pose proof (Rabs_pos (fval (fst p))) as H0.
  unfold hit_error. pose proof (bpow_gt_0 radix2 (-49)). pose proof (bpow_gt_0 radix2 (-1073)).
  assert (0 <= bpow radix2 (-49) * M) by (apply Rmult_le_pos; lra). lra.
Qed.
(** What the vertices outside the obstacles are far from. *)
Lemma outside_far (obs : list (list (f64 * f64))) x y :
  (forall P M, In P obs -> P <> [] -> reach P M -> between_vertices P y -> ~ deep_inside P M x y) ->
  forall P M eps A o, In P obs -> accurate_boundary eps A P o -> (3 <= d_n o)%nat -> INR (d_n o) <= 3000000 -> 0 < d_r o -> 0 < A -> 0 <= eps <= d_r o + A ->
    reach P M -> between_vertices P y ->
    (d_r o + A) * cos (31415926 / 10000000 / (INR (d_n o) - 1)) - 350000000 * eps - hit_error M <= dist2 (V2 x y) (V2 (d_x o) (d_y o)).
Proof.
  intros H P M eps A o IP Ac N NB Hr HA He Rc BV. apply Rnot_lt_le. intros D.
  assert (Ne : P <> []).
  { intros ->. pose proof (accurate_close _ _ _ _ N Hr HA Ac) as F. cbn in F. apply f2len in F. unfold disc_poly in F. rewrite map_length, seq_length in F. cbn in F. lia. }
  exact (H P M IP Ne Rc BV (disc_deep eps A P o M x y N NB Hr HA He Ac (reach_err P M Ne Rc) D)).
Qed.
