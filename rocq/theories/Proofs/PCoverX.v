(** Round obstacles and robots: how much of the forbidden disc the sampled boundary blocks; and
    for every obstacle: what is recorded as blocked is a collision. *)
From Coq Require Import List Reals ZArith Arith Bool Lia Lra Psatz.
From Verif.Base Require Import Outcome.
From Verif.Model Require Import MScalar MLine2D MGeom.
From Verif.Spec Require Import SLine2D SGeom SRigid SCover.
From Verif.Proofs Require Import PLine2D PGeom PGeom2 PGeomX PShape PInscribed PCover PCoverS.
Import ListNotations.
Local Open Scope R_scope.

(** ---- vertices of the polygon ---- *)
Definition pt_of (p : v2) : rpoint := (x2 p, y2 p).
Lemma sampled_lift {I} (f : I -> v2) (l : list I) : sampled_polygon (map (fun i => Some (f i)) l) = lift_poly (map (fun i => pt_of (f i)) l).
Proof. unfold sampled_polygon, lift_poly. rewrite !map_map. reflexivity. Qed.
Lemma is_edge_seq (f : nat -> rpoint) n a b : is_edge (map f (seq 0 n)) a b ->
  (exists i, (S i < n)%nat /\ a = f i /\ b = f (S i)) \/ ((0 < n)%nat /\ a = f (n - 1)%nat /\ b = f 0%nat).
Proof.
  assert (N : forall i x, nth_error (map f (seq 0 n)) i = Some x -> (i < n)%nat /\ x = f i).
  { intros i x H. assert (L : (i < n)%nat) by (rewrite <- (seq_length n 0), <- (map_length f); apply nth_error_Some; congruence).
    split; [exact L|]. rewrite nth_error_map in H. rewrite (nth_error_nth' (seq 0 n) 0%nat) in H by (rewrite seq_length; exact L).
    rewrite seq_nth in H by exact L. cbn in H. congruence. }
  intros [(i & A & B)|(l & E & La)].
  - left. exists i. destruct (N _ _ A) as [_ ->]. destruct (N _ _ B) as [L ->]. auto.
  - right. assert (NE : map f (seq 0 n) <> []) by (rewrite E; discriminate).
    pose proof (last_nth (map f (seq 0 n)) b NE) as LN. rewrite La, map_length, seq_length in LN. destruct (N _ _ LN) as [L ->].
    assert (B : nth_error (map f (seq 0 n)) 0 = Some b) by (rewrite E; reflexivity). destruct (N _ _ B) as [L' ->]. auto.
Qed.

(** ---- the circle ---- *)
Definition circ (c : v2) (r th : R) : rpoint := (x2 c + r * cos th, y2 c + r * sin th).
(** the edge from the angle m - h to m + h *)
Lemma turn_circ c r m h p : turn_of (circ c r (m - h)) (circ c r (m + h)) p =
  2 * r * sin h * (r * cos h - ((fst p - x2 c) * cos m + (snd p - y2 c) * sin m)).
Proof.
  unfold turn_of, circ. cbn [fst snd]. rewrite !cos_minus, !sin_minus, !cos_plus, !sin_plus.
  pose proof (cs1 m) as C. set (cm := cos m) in *. set (sm := sin m) in *. set (ch := cos h). set (sh := sin h). clearbody cm sm ch sh.
  set (X := fst p - x2 c). set (Y := snd p - y2 c). replace (fst p) with (x2 c + X) by (unfold X; ring). replace (snd p) with (y2 c + Y) by (unfold Y; ring). clearbody X Y.
  transitivity (2 * r * sh * (r * ch * (cm * cm + sm * sm) - (X * cm + Y * sm))); [ring|rewrite C; ring].
Qed.
Lemma dot_le X Y m rho : X * X + Y * Y <= rho * rho -> 0 <= rho -> X * cos m + Y * sin m <= rho.
Proof.
  intros H P. pose proof (cs1 m) as C. set (cm := cos m) in *. set (sm := sin m) in *. clearbody cm sm.
  assert (K : (X * cm + Y * sm) * (X * cm + Y * sm) <= rho * rho).
  { assert (Q : (X * cm + Y * sm) * (X * cm + Y * sm) + (X * sm - Y * cm) * (X * sm - Y * cm) = (X * X + Y * Y) * (cm * cm + sm * sm)) by ring.
    rewrite C in Q. pose proof (Rle_0_sqr (X * sm - Y * cm)). unfold Rsqr in *. lra. }
  destruct (Rle_dec (X * cm + Y * sm) rho) as [|N]; [assumption|]. exfalso. assert (0 < (X * cm + Y * sm - rho) * (X * cm + Y * sm + rho)) by (apply Rmult_lt_0_compat; lra). lra.
Qed.
(** the vertex at angle ph against the edge *)
Lemma turn_vertex c r m h ph : turn_of (circ c r (m - h)) (circ c r (m + h)) (circ c r ph) =
  4 * r * r * sin h * sin ((ph - (m - h)) / 2) * sin ((ph - (m + h)) / 2).
Proof.
  rewrite turn_circ. unfold circ. cbn [fst snd].
  replace ((x2 c + r * cos ph - x2 c) * cos m + (y2 c + r * sin ph - y2 c) * sin m) with (r * cos (ph - m)) by (rewrite cos_minus; ring).
  set (u := (ph - (m - h)) / 2). set (v := (ph - (m + h)) / 2). replace (ph - m) with (u + v) by (unfold u, v; field). replace h with (u - v) by (unfold u, v; field).
  rewrite cos_plus, cos_minus. ring.
Qed.

Section Disc.
Variables (c : v2) (r t : R) (num : nat).
Hypothesis R0 : 0 < r.
Hypothesis N3 : (3 <= num)%nat.
Definition vert (i : nat) : rpoint := circ c r (t + theta num i).
Definition disc_poly : list rpoint := map vert (seq 0 num).
Definition hstep : R := cPI / (INR num - 1).
Lemma num_ge : 3 <= INR num.
Proof. apply le_INR in N3. cbn in N3. lra. Qed.
Lemma hstep_range : 0 < hstep /\ hstep < PI / 2.
Proof.
  pose proof num_ge as N. pose proof pi_lo as P. assert (C : 0 < cPI) by (unfold cPI; lra). unfold hstep. split; [apply Rdiv_lt_0_compat; lra|].
  apply Rmult_lt_reg_r with (INR num - 1); [lra|]. unfold Rdiv. rewrite Rmult_assoc, Rinv_l by lra.
  assert (PI * / 2 * 2 <= PI * / 2 * (INR num - 1)) by (apply Rmult_le_compat_l; lra). lra.
Qed.
Lemma theta_step i : theta num i = 2 * INR i * hstep.
Proof. unfold theta, hstep. pose proof num_ge. field. lra. Qed.
Lemma theta_range i : (i < num)%nat -> 0 <= theta num i <= 2 * cPI.
Proof.
  intros L. rewrite theta_step. pose proof hstep_range as [H _]. pose proof num_ge as N.
  assert (INR i <= INR num - 1) by (replace 1 with (INR 1) by reflexivity; rewrite <- minus_INR by lia; apply le_INR; lia).
  pose proof (pos_INR i). split; [apply Rmult_le_pos; lra|]. assert (K : INR i * hstep <= (INR num - 1) * hstep) by (apply Rmult_le_compat_r; lra).
  assert (E : (INR num - 1) * hstep = cPI) by (unfold hstep; field; lra). lra.
Qed.
Lemma edge_mid i : vert i = circ c r (t + (2 * INR i + 1) * hstep - hstep) /\ vert (S i) = circ c r (t + (2 * INR i + 1) * hstep + hstep).
Proof. unfold vert. rewrite !theta_step, S_INR. split; f_equal; ring. Qed.
Lemma close_mid : vert (num - 1) = circ c r (t + cPI - - cPI) /\ vert 0 = circ c r (t + cPI + - cPI).
Proof.
  unfold vert. rewrite last_theta by lia. split; f_equal; [ring|]. rewrite theta_step. cbn. ring.
Qed.
Lemma disc_convex : convex_ccw disc_poly.
Proof.
  intros a b v E V. unfold disc_poly in *. apply in_map_iff in V. destruct V as (j & <- & J). apply in_seq in J. destruct J as [_ J]. cbn in J.
  pose proof hstep_range as [H1 H2]. pose proof pi_lo as PL. pose proof (theta_range j J) as TR. assert (CP : 0 < cPI) by (unfold cPI; lra).
  assert (RR : 0 < 4 * r * r) by (apply Rmult_lt_0_compat; lra).
  destruct (is_edge_seq vert num a b E) as [(i & L & -> & ->)|(L & -> & ->)].
  - destruct (edge_mid i) as [-> ->]. unfold vert. rewrite turn_vertex.
    replace ((t + theta num j - (t + (2 * INR i + 1) * hstep - hstep)) / 2) with ((theta num j - theta num i) / 2) by (rewrite (theta_step i); field).
    replace ((t + theta num j - (t + (2 * INR i + 1) * hstep + hstep)) / 2) with ((theta num j - theta num (S i)) / 2) by (rewrite (theta_step (S i)), S_INR; field).
    assert (SH : 0 < sin hstep) by (apply sin_gt_0; lra).
    pose proof (theta_range i ltac:(lia)) as TI. pose proof (theta_range (S i) L) as TS.
    assert (CASE : theta num j <= theta num i \/ theta num (S i) <= theta num j).
    { rewrite !theta_step. destruct (le_lt_dec j i) as [G|G]; [left|right]; apply Rmult_le_compat_r; try lra; apply Rmult_le_compat_l; try lra; apply le_INR; lia. }
    assert (MON : theta num i <= theta num (S i)) by (rewrite !theta_step, S_INR; nra).
    assert (K : 0 <= sin ((theta num j - theta num i) / 2) * sin ((theta num j - theta num (S i)) / 2)).
    { destruct CASE as [G|G].
      - replace ((theta num j - theta num i) / 2) with (- ((theta num i - theta num j) / 2)) by field. replace ((theta num j - theta num (S i)) / 2) with (- ((theta num (S i) - theta num j) / 2)) by field.
        rewrite !sin_neg. replace (- sin ((theta num i - theta num j) / 2) * - sin ((theta num (S i) - theta num j) / 2)) with (sin ((theta num i - theta num j) / 2) * sin ((theta num (S i) - theta num j) / 2)) by ring.
        apply Rmult_le_pos; apply sin_ge_0; lra.
      - apply Rmult_le_pos; apply sin_ge_0; lra. }
    rewrite Rmult_assoc. apply Rmult_le_pos; [apply Rmult_le_pos; lra|exact K].
  - destruct close_mid as [-> ->]. unfold vert. rewrite turn_vertex.
    replace ((t + theta num j - (t + cPI - - cPI)) / 2) with (- ((2 * cPI - theta num j) / 2)) by field.
    replace ((t + theta num j - (t + cPI + - cPI)) / 2) with (theta num j / 2) by field.
    rewrite !sin_neg. assert (S1 : 0 <= sin cPI) by (apply sin_ge_0; lra). assert (S2 : 0 <= sin ((2 * cPI - theta num j) / 2)) by (apply sin_ge_0; lra). assert (S3 : 0 <= sin (theta num j / 2)) by (apply sin_ge_0; lra).
    replace (4 * r * r * - sin cPI * - sin ((2 * cPI - theta num j) / 2) * sin (theta num j / 2)) with (4 * r * r * (sin cPI * (sin ((2 * cPI - theta num j) / 2) * sin (theta num j / 2)))) by ring.
    apply Rmult_le_pos; [lra|]. apply Rmult_le_pos; [exact S1|]. apply Rmult_le_pos; assumption.
Qed.
Lemma disc_inside p : INR num <= 3000000 -> (fst p - x2 c) * (fst p - x2 c) + (snd p - y2 c) * (snd p - y2 c) < (r * cos hstep) * (r * cos hstep) ->
  strictly_inside disc_poly p.
Proof.
  intros NB H a b E. pose proof hstep_range as [H1 H2]. pose proof pi_lo as PL. pose proof pi_hi as PH. pose proof num_ge as N. assert (CP : 0 < cPI) by (unfold cPI; lra).
  assert (CH : 0 < cos hstep) by (apply cos_gt_0; lra). assert (RC : 0 < r * cos hstep) by (apply Rmult_lt_0_compat; lra).
  set (X := fst p - x2 c) in *. set (Y := snd p - y2 c) in *.
  assert (DOT : forall m, X * cos m + Y * sin m < r * cos hstep).
  { intros m. set (q := X * X + Y * Y) in *. assert (Q0 : 0 <= q) by (unfold q; pose proof (Rle_0_sqr X); pose proof (Rle_0_sqr Y); unfold Rsqr in *; lra).
    pose proof (dot_le X Y m (sqrt q) ltac:(rewrite sqrt_sqrt by exact Q0; unfold q; lra) (sqrt_pos q)) as D.
    assert (sqrt q < r * cos hstep); [|lra]. rewrite <- (sqrt_square (r * cos hstep)) by lra. apply sqrt_lt_1; [exact Q0|apply Rmult_le_pos; lra|exact H]. }
  unfold disc_poly in E. destruct (is_edge_seq vert num a b E) as [(i & L & -> & ->)|(L & -> & ->)].
  - destruct (edge_mid i) as [-> ->]. rewrite turn_circ. fold X Y. assert (SH : 0 < sin hstep) by (apply sin_gt_0; lra).
    specialize (DOT (t + (2 * INR i + 1) * hstep)). apply Rmult_lt_0_compat; [apply Rmult_lt_0_compat; lra|]. lra.
  - destruct close_mid as [-> ->]. rewrite turn_circ. fold X Y. rewrite sin_neg, cos_neg.
    assert (SP : 0 < sin cPI) by (apply sin_gt_0; lra).
    assert (CC : r * cos hstep <= - (r * cos cPI)).
    { assert (E1 : - cos cPI = cos (PI - cPI)) by (rewrite cos_minus, cos_PI, sin_PI; ring).
      replace (- (r * cos cPI)) with (r * - cos cPI) by ring. rewrite E1. apply Rmult_le_compat_l; [lra|].
      apply cos_decr_1; try lra. unfold hstep. apply Rmult_le_reg_r with (INR num - 1); [lra|]. unfold Rdiv. rewrite Rmult_assoc, Rinv_l by lra.
      assert ((PI - cPI) * (INR num - 1) <= (1 / 1000000) * 3000000); [|assert (CV : cPI = 31415926 / 10000000) by reflexivity; lra]. apply Rmult_le_compat; lra. }
    assert (D2 : - (X * cos (t + cPI) + Y * sin (t + cPI)) < r * cos hstep).
    { specialize (DOT (t + cPI + PI)). rewrite neg_cos, neg_sin in DOT. lra. }
    replace (2 * r * - sin cPI * (r * cos cPI - (X * cos (t + cPI) + Y * sin (t + cPI)))) with (2 * r * (sin cPI * (- (r * cos cPI) - - (X * cos (t + cPI) + Y * sin (t + cPI))))) by ring.
    apply Rmult_lt_0_compat; [lra|]. apply Rmult_lt_0_compat; lra.
Qed.
End Disc.

(** ---- getMinkSum2D of two discs ---- *)
Lemma off_disc A t2 n : 0 < A -> x2 n * x2 n + y2 n * y2 n = 2 * 2 -> off2 A A t2 n = scale2 (A / 2) n.
Proof.
  intros HA N. assert (D : dn A A t2 n = 2 * A).
  { unfold dn. rewrite <- Rmult_plus_distr_l, un_vn, N. replace (A * A * (2 * 2)) with ((2 * A) * (2 * A)) by ring. apply sqrt_square. lra. }
  unfold off2. rewrite D. unfold scale2. pose proof (cs1 t2) as C. unfold un, vn.
  set (ct := cos t2) in *. set (st := sin t2) in *. clearbody ct st. f_equal.
  - transitivity (A / 2 * (x2 n * (ct * ct + st * st))); [field; lra|rewrite C; ring].
  - transitivity (A / 2 * (y2 n * (ct * ct + st * st))); [field; lra|rewrite C; ring].
Qed.
Lemma spow1 x : spow x 1 = x.
Proof.
  pose proof (spow_compl x 1) as H. replace (2 - 1) with 1 in H by ring. destruct (Req_dec x 0) as [-> |N]; [apply spow_0|].
  unfold spow in *. rewrite ppow_1 in *. rewrite <- sgn_abs. rewrite <- Rmult_assoc, (sgn_sq x N). ring.
Qed.
Lemma msample_disc a A c t t2 th : 0 < a -> 0 < A -> pt_of (msample2 a a 1 c t A A t2 1 th) = circ c (a + A) (t + th).
Proof.
  intros Ha HA. set (n := app2 (rot2 t) (gcanon2 1 th)).
  assert (G : gcanon2 1 th = V2 (2 * cos th) (2 * sin th)).
  { unfold gcanon2. replace (2 - 1) with 1 by ring. rewrite !spow1. f_equal; field. }
  assert (N : n = V2 (2 * cos (t + th)) (2 * sin (t + th))).
  { unfold n. rewrite G. unfold app2, rot2. cbn [x2 y2 m00 m01 m10 m11]. rewrite cos_plus, sin_plus. f_equal; ring. }
  unfold msample2. fold n. rewrite off_disc; [|exact HA|rewrite N; cbn [x2 y2]; pose proof (cs1 (t + th)) as C; transitivity (2 * 2 * (cos (t + th) * cos (t + th) + sin (t + th) * sin (t + th))); [ring|rewrite C; ring]].
  rewrite N. unfold sample2, canon2, pt_of, circ, add2, scale2, app2, rot2. cbn [x2 y2 m00 m01 m10 m11]. rewrite !spow1, cos_plus, sin_plus. f_equal; field.
Qed.
Lemma mink_discs a px py t num A e2 pos2 t2 num2 : (3 <= num)%nat -> 0 < a -> 0 < A ->
  exists bd, mink2 (SE [a; a] 1 [px; py] t num) (SE [A; A] e2 pos2 t2 num2) 1 = Ok bd /\
    sampled_polygon bd = lift_poly (disc_poly (V2 px py) (a + A) t num).
Proof.
  intros N Ha HA. rewrite mink2_eq by (lia || lra). eexists. split; [reflexivity|]. rewrite sampled_lift. f_equal. unfold disc_poly. apply map_ext.
  intros i. unfold vert. apply (msample_disc a A (V2 px py) t t2 (theta num i) Ha HA).
Qed.

(** ---- what is recorded is a collision ---- *)
Lemma mix_in2 b w u v : convex2 b -> 0 <= w <= 1 -> in2 b u -> in2 b v -> in2 b (mix2 w (1 - w) u v).
Proof.
  intros CV W U V. destruct (Req_dec w 0) as [-> |N0].
  { replace (mix2 0 (1 - 0) u v) with v; [exact V|]. destruct v. unfold mix2, add2, scale2. cbn. f_equal; ring. }
  destruct (Req_dec w 1) as [-> |N1].
  { replace (mix2 1 (1 - 1) u v) with u; [exact U|]. destruct u. unfold mix2, add2, scale2. cbn. f_equal; ring. }
  unfold in2. destruct (Rle_dec (level2 b (mix2 w (1 - w) u v)) 1) as [|N]; [assumption|exfalso].
  assert (E : u = v) by (apply (strict_mix2 b w (1 - w)); try assumption; lra). subst v.
  replace (mix2 w (1 - w) u u) with u in N; [unfold in2 in U; lra|]. destruct u. unfold mix2, add2, scale2. cbn. f_equal; ring.
Qed.
Lemma level_move A B t c y : level2 (ellipse_at A B t c) y = level2 (ellipse_at A B t (V2 0 0)) (sub2 y c).
Proof. unfold level2, along, across, ellipse_at, sub2. cbn [x2 y2 bc bt ba bb be]. rewrite !Rminus_0_r. reflexivity. Qed.
Lemma meet_mix O A B t c1 c2 w : convex2 O -> 0 < A -> 0 < B -> 0 <= w <= 1 -> meet2 O (ellipse_at A B t c1) -> meet2 O (ellipse_at A B t c2) ->
  meet2 O (ellipse_at A B t (mix2 w (1 - w) c1 c2)).
Proof.
  intros CV HA HB W (y1 & O1 & R1) (y2' & O2 & R2). exists (mix2 w (1 - w) y1 y2'). split; [apply mix_in2; assumption|].
  unfold in2 in *. rewrite level_move in R1, R2 |- *.
  replace (sub2 (mix2 w (1 - w) y1 y2') (mix2 w (1 - w) c1 c2)) with (mix2 w (1 - w) (sub2 y1 c1) (sub2 y2' c2)).
  - apply (mix_in2 (ellipse_at A B t (V2 0 0))); try assumption. unfold convex2, proper2, ellipse_at. cbn. lra.
  - unfold mix2, sub2, add2, scale2. cbn [x2 y2]. f_equal; ring.
Qed.
Lemma sample_meets a b e c t A B t2 th : 0 < a -> 0 < b -> 0 < e -> 0 < A -> 0 < B ->
  meet2 (Body2 a b e c t) (ellipse_at A B t2 (msample2 a b e c t A B t2 1 th)).
Proof.
  intros Ha Hb He HA HB. exists (sample2 a b e c t th). pose proof (sample_on a b e c t th Ha Hb He) as ON. split; [unfold in2, on2 in *; lra|].
  assert (N : x2 (app2 (rot2 t) (gcanon2 e th)) <> 0 \/ y2 (app2 (rot2 t) (gcanon2 e th)) <> 0) by (apply rot_nonzero, gcanon_ne, He).
  pose proof (touch_on A B t2 _ (sample2 a b e c t th) 1 HA HB N ltac:(ring)) as T. unfold in2, on2, msample2 in *. lra.
Qed.
Lemma between_mix u v x : weakly_between u v x -> exists w, 0 <= w <= 1 /\ x = w * u + (1 - w) * v.
Proof.
  intros H. destruct (Req_dec u v) as [<- |N]; [exists 0; split; [lra|destruct H; lra]|].
  exists ((x - v) / (u - v)). split; [|field; lra]. destruct (Rlt_dec u v) as [L|L].
  - assert (H' : u <= x <= v) by (destruct H; lra). replace ((x - v) / (u - v)) with ((v - x) / (v - u)) by (field; lra).
    split; [apply Rmult_le_pos; [lra|left; apply Rinv_0_lt_compat; lra]|]. apply Rmult_le_reg_r with (v - u); [lra|]. unfold Rdiv. rewrite Rmult_assoc, Rinv_l by lra. lra.
  - assert (H' : v <= x <= u) by (destruct H; lra).
    split; [apply Rmult_le_pos; [lra|left; apply Rinv_0_lt_compat; lra]|]. apply Rmult_le_reg_r with (u - v); [lra|]. unfold Rdiv. rewrite Rmult_assoc, Rinv_l by lra. lra.
Qed.
Lemma hits_meet O A B t2 (P : list rpoint) y r h0 h1 x : convex2 O -> 0 < A -> 0 < B -> P <> [] ->
  (forall v, In v P -> meet2 O (ellipse_at A B t2 (V2 (fst v) (snd v)))) ->
  hline_polygon XR (Some y) (lift_poly P) = Ok r -> In (Some h0) r -> In (Some h1) r -> weakly_between h0 h1 x ->
  meet2 O (ellipse_at A B t2 (V2 x y)).
Proof.
  intros CV HA HB NE PM H I0 I1 BT. destruct (hline_polygon_XR y P NE) as (r' & Er & Hr & _).
  assert (r' = r) as -> by (assert (Q : forall T (a b : T), Ok a = Ok b -> a = b) by (intros T a b Q; injection Q; auto); apply Q; rewrite <- Er; exact H).
  assert (ON : forall h, In (Some h) r -> meet2 O (ellipse_at A B t2 (V2 h y))).
  { intros h I. destruct (proj1 (Hr (Some h)) I) as (x0 & a & b & Eh & E & _ & (w & W & X & Y)). injection Eh as <-. cbn [fst snd] in X, Y.
    destruct (is_edge_in P a b E) as [Ia Ib]. rewrite X, Y.
    exact (meet_mix O A B t2 (V2 (fst a) (snd a)) (V2 (fst b) (snd b)) w CV HA HB W (PM a Ia) (PM b Ib)). }
  destruct (between_mix h0 h1 x BT) as (w & W & ->).
  pose proof (meet_mix O A B t2 _ _ w CV HA HB W (ON h0 I0) (ON h1 I1)) as M. unfold mix2, add2, scale2 in M. cbn [x2 y2] in M.
  replace (w * y + (1 - w) * y) with y in M by ring. exact M.
Qed.
