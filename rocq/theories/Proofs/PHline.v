(** Line/polygon intersection in binary64: rounding errors of the crossings. *)
From Coq Require Import List Reals ZArith Arith Bool Lia Lra.
From Flocq Require Import Core.Core IEEE754.BinarySingleNaN.
From Flocq.Prop Require Import Relative Plus_error.
From Verif.Base Require Import Outcome Float64 FloatFacts.
From Verif.Model Require Import MScalar MLine2D.
From Verif.Spec Require Import SLine2D SHline.
From Verif.Proofs Require Import PLine2D PSampling.
Import ListNotations.
Local Open Scope R_scope.

Definition uu : R := bpow radix2 (-53).
Definition eta : R := bpow radix2 (-1075).
Lemma uu_pos : 0 < uu. Proof. apply bpow_gt_0. Qed.
Lemma eta_pos : 0 < eta. Proof. apply bpow_gt_0. Qed.
Lemma eta_uu : eta <= uu / 1000.
Proof.
  apply Rle_trans with (bpow radix2 (-63)); [apply bpow_le; lia|].
  unfold uu. replace (-63)%Z with (-10 + -53)%Z by lia. rewrite bpow_plus.
  pose proof (bpow_gt_0 radix2 (-53)). generalize dependent (bpow radix2 (-53)). intros q Q.
  assert (bpow radix2 (-10) = / 1024) as -> by (simpl; lra). lra.
Qed.
Lemma uu_small : uu <= / 1000.
Proof. apply Rle_trans with (bpow radix2 (-10)); [apply bpow_le; lia|]. simpl; lra. Qed.

Lemma mabs a b A B : Rabs a <= A -> Rabs b <= B -> Rabs (a * b) <= A * B.
Proof. intros H1 H2. rewrite Rabs_mult. apply Rmult_le_compat; auto using Rabs_pos. Qed.
Lemma tabs a b A B : Rabs a <= A -> Rabs b <= B -> Rabs (a + b) <= A + B.
Proof. intros H1 H2. pose proof (Rabs_triang a b). lra. Qed.
Lemma abs01 t : 0 <= t <= 1 -> Rabs t <= 1.
Proof. intros. apply Rabs_le. lra. Qed.
Lemma ale a b c : Rabs a <= b -> b <= c -> Rabs a <= c.
Proof. lra. Qed.
Lemma aeq a a' b : Rabs a <= b -> a' = a -> Rabs a' <= b.
Proof. intros H ->. exact H. Qed.

Lemma cross_err (t0 d x1 x2 M e1 e2 e3 e4 e5 e6 e7 n3 n5 n6 u h : R) :
  0 <= u <= / 1000 -> 0 <= h <= u / 1000 -> 0 <= t0 <= 1 -> d <> 0 -> Rabs x1 <= M -> Rabs x2 <= M ->
  Rabs e1 <= u -> Rabs e2 <= u -> Rabs e3 <= u -> Rabs e4 <= u -> Rabs e5 <= u -> Rabs e6 <= u -> Rabs e7 <= u ->
  Rabs n3 <= h -> Rabs n5 <= h -> Rabs n6 <= h ->
  forall w t s p q, w = (t0 * d * (1 + e1)) / (d * (1 + e2)) ->
  0 <= w <= 1 -> t = w * (1 + e3) + n3 -> 0 <= t <= 1 ->
  s = (1 - t) * (1 + e4) -> p = t * x1 * (1 + e5) + n5 -> q = s * x2 * (1 + e6) + n6 ->
  Rabs ((p + q) * (1 + e7) - (t0 * x1 + (1 - t0) * x2)) <= 16 * u * M + 4 * h.
Proof.
  intros Hu Hh T0 D X1 X2 H1 H2 H3 H4 H5 H6 H7 N3 N5 N6 w t s p q Ew W Et T Es Ep Eq.
  assert (M0 : 0 <= M) by (pose proof (Rabs_pos x1); lra).
  assert (P2 : 999 / 1000 <= 1 + e2) by (apply Rabs_le_inv in H2; lra).
  (* w against t0 *)
  assert (K : Rabs (e1 - e2) <= 2 * u) by (pose proof (Rabs_triang e1 (- e2)) as Q; rewrite Rabs_Ropp in Q; replace (e1 + - e2) with (e1 - e2) in Q by ring; lra).
  assert (Iv : Rabs (/ (1 + e2)) <= 1000 / 999).
  { rewrite Rabs_pos_eq; [|left; apply Rinv_0_lt_compat; lra]. replace (1000 / 999) with (/ (999 / 1000)) by lra. apply Rinv_le; lra. }
  assert (Dw : Rabs (w - t0) <= 201 / 100 * u).
  { pose proof (mabs _ _ _ _ (mabs _ _ _ _ (abs01 t0 T0) K) Iv) as Q. apply (ale _ _ (201 / 100 * u)) in Q; [|lra].
    apply (aeq _ _ _ Q). rewrite Ew. field. split; [lra|exact D]. }
  assert (Dt : Rabs (t - t0) <= 302 / 100 * u).
  { pose proof (tabs _ _ _ _ Dw (tabs _ _ _ _ (mabs _ _ _ _ (abs01 w W) H3) N3)) as Q. apply (ale _ _ (302 / 100 * u)) in Q; [|lra].
    apply (aeq _ _ _ Q). rewrite Et. ring. }
  assert (T1 : 0 <= 1 - t <= 1) by lra.
  assert (Ds : Rabs (s - (1 - t)) <= u).
  { pose proof (mabs _ _ _ _ (abs01 _ T1) H4) as Q. rewrite Rmult_1_l in Q. apply (aeq _ _ _ Q). rewrite Es. ring. }
  assert (Sb : Rabs s <= 1001 / 1000).
  { pose proof (tabs _ _ _ _ Ds (abs01 _ T1)) as Q. apply (ale _ _ (1001 / 1000)) in Q; [|lra]. apply (aeq _ _ _ Q). ring. }
  assert (Dp : Rabs (p - t * x1) <= M * u + h).
  { pose proof (tabs _ _ _ _ (mabs _ _ _ _ (mabs _ _ _ _ (abs01 t T) X1) H5) N5) as Q. apply (ale _ _ (M * u + h)) in Q; [|lra].
    apply (aeq _ _ _ Q). rewrite Ep. ring. }
  assert (Mu : 0 <= M * u) by (apply Rmult_le_pos; lra).
  assert (Dq : Rabs (q - (1 - t) * x2) <= 2002 / 1000 * (M * u) + h).
  { pose proof (tabs _ _ _ _ (tabs _ _ _ _ (mabs _ _ _ _ Ds X2) (mabs _ _ _ _ (mabs _ _ _ _ Sb X2) H6)) N6) as Q.
    apply (ale _ _ (2002 / 1000 * (M * u) + h)) in Q; [|lra]. apply (aeq _ _ _ Q). rewrite Eq. ring. }
  assert (Xd : Rabs (x1 - x2) <= 2 * M).
  { assert (Xo : Rabs (- x2) <= M) by (rewrite Rabs_Ropp; exact X2). pose proof (tabs _ _ _ _ X1 Xo) as Q. apply (ale _ _ (2 * M)) in Q; [|lra]. exact Q. }
  assert (Dpq : Rabs ((p + q) - (t0 * x1 + (1 - t0) * x2)) <= 905 / 100 * (M * u) + 2 * h).
  { pose proof (tabs _ _ _ _ (tabs _ _ _ _ Dp Dq) (mabs _ _ _ _ Dt Xd)) as Q. apply (ale _ _ (905 / 100 * (M * u) + 2 * h)) in Q; [|lra].
    apply (aeq _ _ _ Q). ring. }
  assert (T0' : 0 <= 1 - t0 <= 1) by lra.
  assert (Ex : Rabs (t0 * x1 + (1 - t0) * x2) <= M).
  { apply Rabs_le_inv in X1, X2. apply Rabs_le. nra. }
  assert (Bpq : Rabs (p + q) <= 102 / 100 * M + 2 * h).
  { pose proof (tabs _ _ _ _ Dpq Ex) as Q. assert (M * u <= M * / 1000) by (apply Rmult_le_compat_l; lra).
    apply (ale _ _ (102 / 100 * M + 2 * h)) in Q; [|lra]. apply (aeq _ _ _ Q). ring. }
  pose proof (tabs _ _ _ _ Dpq (mabs _ _ _ _ Bpq H7)) as Q.
  assert (h * u <= h * / 1000) by (apply Rmult_le_compat_l; lra).
  apply (ale _ _ (16 * u * M + 4 * h)) in Q; [|lra]. apply (aeq _ _ _ Q). ring.
Qed.

(** ---- the rounding errors of the operations ---- *)
Lemma uro53 : u_ro radix2 53 = uu.
Proof. unfold u_ro, uu. rewrite bpow_plus. change (bpow radix2 1) with 2. change (- (53))%Z with (-53)%Z. lra. Qed.
Lemma ulp_le_u x : x / (1 + x) <= x \/ x < 0.
Proof.
  destruct (Rlt_or_le x 0) as [H|H]; [right; exact H|left]. apply Rmult_le_reg_r with (1 + x); [lra|].
  unfold Rdiv. rewrite Rmult_assoc, Rinv_l by lra. nra.
Qed.
Lemma uro_le : u_ro radix2 53 / (1 + u_ro radix2 53) <= uu.
Proof. rewrite uro53. destruct (ulp_le_u uu) as [H|H]; [exact H|]. pose proof uu_pos. lra. Qed.

Lemma rnd_add a b : generic_format radix2 fexp64 a -> generic_format radix2 fexp64 b ->
  exists e, Rabs e <= uu /\ rnd64 (a + b) = (a + b) * (1 + e).
Proof.
  intros A B. destruct (FLT_plus_error_N_ex radix2 (-1074) 53 (fun x => negb (Z.even x)) a b A B) as (e & He & E).
  exists e. split; [pose proof uro_le; lra|exact E].
Qed.
Lemma rnd_sub a b : generic_format radix2 fexp64 a -> generic_format radix2 fexp64 b ->
  exists e, Rabs e <= uu /\ rnd64 (a - b) = (a - b) * (1 + e).
Proof. intros A B. apply rnd_add; [exact A|]. apply generic_format_opp. exact B. Qed.
Lemma rnd_any a : exists e n, Rabs e <= uu /\ Rabs n <= eta /\ rnd64 a = a * (1 + e) + n.
Proof.
  destruct (relative_error_N_FLT'_ex radix2 (-1074) 53 Hprec53 (fun x => negb (Z.even x)) a) as (e & n & He & Hn & _ & E).
  exists e, n. split; [pose proof uro_le; lra|]. split; [|exact E].
  unfold eta. replace (-1075)%Z with (-1 + -1074)%Z by lia. rewrite bpow_plus. exact Hn.
Qed.
Lemma rnd64_0 : rnd64 0 = 0.
Proof. unfold rnd64. apply round_0. auto with typeclass_instances. Qed.
Lemma fone_val : fval fone = 1. Proof. apply (fofZ_val 1). lia. Qed.
Lemma fone_fin : fisfin fone = true. Proof. apply (fofZ_fin 1). lia. Qed.
Lemma rnd64_1 : rnd64 1 = 1.
Proof. pose proof (rnd64_fval fone fone_fin) as H. rewrite fone_val in H. exact H. Qed.

Lemma fsub_ok x y : fisfin x = true -> fisfin y = true -> Rabs (fval x - fval y) <= bpow radix2 1023 ->
  fisfin (fsub x y) = true /\ fval (fsub x y) = rnd64 (fval x - fval y).
Proof.
  intros Fx Fy B. pose proof (Bminus_correct 53 1024 Hprec53 Hemax1024 mode_NE x y Fx Fy) as H.
  rewrite (fval_finite x Fx), (fval_finite y Fy) in *.
  rewrite Rlt_bool_true in H.
  - destruct H as (V & F & _). split; [exact F|]. rewrite fval_finite by exact F. exact V.
  - apply Rle_lt_trans with (bpow radix2 1023); [|apply bpow_lt; lia].
    apply abs_round_le_generic; auto with typeclass_instances. apply generic_format_bpow. unfold fexp64, SpecFloat.fexp, SpecFloat.emin. lia.
Qed.
Lemma fadd_ok x y : fisfin x = true -> fisfin y = true -> Rabs (fval x + fval y) <= bpow radix2 1023 ->
  fisfin (fadd x y) = true /\ fval (fadd x y) = rnd64 (fval x + fval y).
Proof.
  intros Fx Fy B. pose proof (Bplus_correct 53 1024 Hprec53 Hemax1024 mode_NE x y Fx Fy) as H.
  rewrite (fval_finite x Fx), (fval_finite y Fy) in *.
  rewrite Rlt_bool_true in H.
  - destruct H as (V & F & _). split; [exact F|]. rewrite fval_finite by exact F. exact V.
  - apply Rle_lt_trans with (bpow radix2 1023); [|apply bpow_lt; lia].
    apply abs_round_le_generic; auto with typeclass_instances. apply generic_format_bpow. unfold fexp64, SpecFloat.fexp, SpecFloat.emin. lia.
Qed.

(** ---- one edge ---- *)
Definition near (M : R) (h : f64) (x : option R) : Prop := exists r, x = Some r /\ fisfin h = true /\ Rabs (fval h - r) <= hit_error M.
Local Opaque fval fofZ fsub fadd fmul fdiv fleb fltb.

Lemma div00 (x y : f64) : fisfin x = true -> fisfin y = true -> fval x = 0 -> fval y = 0 -> fisnan (fdiv x y) = true.
Proof.
  intros Fx Fy Vx Vy. rewrite fval_finite in Vx, Vy by assumption.
  assert (Z : forall z : f64, fisfin z = true -> B2R z = 0 -> exists s, z = B754_zero s).
  { intros z F V. destruct z as [s|s| |s m e B]; try discriminate F; [exists s; reflexivity|].
    exfalso. unfold B2R in V. apply eq_0_F2R in V. destruct s; discriminate V. }
  destruct (Z x Fx Vx) as [s1 ->]. destruct (Z y Fy Vy) as [s2 ->]. reflexivity.
Qed.
Lemma format_of x : moderate x -> generic_format radix2 fexp64 (fval x).
Proof. intros [F _]. exact (fval_format x F). Qed.
Lemma hit_error_eq M : hit_error M = 16 * uu * M + 4 * eta.
Proof.
  unfold hit_error, uu, eta. replace (-49)%Z with (4 + -53)%Z by lia. replace (-1073)%Z with (2 + -1075)%Z by lia.
  rewrite !bpow_plus. change (bpow radix2 4) with 16. change (bpow radix2 2) with 4. reflexivity.
Qed.
Lemma mod1022 x : moderate x -> Rabs (fval x) <= bpow radix2 1022.
Proof. intros [_ B]. apply Rle_trans with (bpow radix2 1021); [exact B|apply bpow_le; lia]. Qed.
Lemma pow1022 : 2 * bpow radix2 1022 = bpow radix2 1023.
Proof. change 1023%Z with (1 + 1022)%Z. rewrite bpow_plus. reflexivity. Qed.

(** The parameter of the crossing. *)
Lemma param_ok (ty y1 y2 : f64) : moderate ty -> moderate y1 -> moderate y2 -> fval y1 <> fval y2 ->
  Rmin (fval y1) (fval y2) <= fval ty <= Rmax (fval y1) (fval y2) ->
  let t := fdiv (fsub ty y2) (fsub y1 y2) in
  fisfin t = true /\ 0 <= fval t <= 1 /\
  exists e1 e2 e3 n3, Rabs e1 <= uu /\ Rabs e2 <= uu /\ Rabs e3 <= uu /\ Rabs n3 <= eta /\
    let w := (fval ty - fval y2) * (1 + e1) / ((fval y1 - fval y2) * (1 + e2)) in 0 <= w <= 1 /\ fval t = w * (1 + e3) + n3.
Proof.
  intros Mt M1 M2 D F t. pose proof pow1022 as P2.
  assert (Sb : forall x y, moderate x -> moderate y -> fisfin (fsub x y) = true /\ fval (fsub x y) = rnd64 (fval x - fval y)).
  { intros x y Mx My. pose proof (mod1022 _ Mx) as Bx. pose proof (mod1022 _ My) as By. apply fsub_ok; [exact (proj1 Mx)|exact (proj1 My)|]. apply Rabs_le_inv in Bx, By. apply Rabs_le. lra. }
  destruct (Sb ty y2 Mt M2) as [Fa Va]. destruct (Sb y1 y2 M1 M2) as [Fb Vb].
  destruct (rnd_sub _ _ (format_of _ Mt) (format_of _ M2)) as (e1 & H1 & R1).
  destruct (rnd_sub _ _ (format_of _ M1) (format_of _ M2)) as (e2 & H2 & R2).
  pose proof uu_small as U. pose proof uu_pos as U0.
  assert (P2' : 0 < 1 + e2) by (apply Rabs_le_inv in H2; lra).
  assert (W : 0 <= fval (fsub ty y2) / fval (fsub y1 y2) <= 1 /\ fval (fsub y1 y2) <> 0).
  { assert (N : fval (fsub y1 y2) <> 0) by (rewrite Vb, R2; apply Rmult_integral_contrapositive_currified; lra).
    split; [|exact N]. destruct (Rlt_or_le (fval y2) (fval y1)) as [L|L].
    - rewrite Rmin_right, Rmax_left in F by lra.
      assert (A0 : 0 <= fval (fsub ty y2)) by (rewrite Va, <- rnd64_0; apply rnd64_le; lra).
      assert (A1 : fval (fsub ty y2) <= fval (fsub y1 y2)) by (rewrite Va, Vb; apply rnd64_le; lra).
      assert (B0 : 0 < fval (fsub y1 y2)) by lra.
      split; [apply Rmult_le_pos; [exact A0|left; apply Rinv_0_lt_compat; exact B0]|].
      apply Rmult_le_reg_r with (fval (fsub y1 y2)); [exact B0|]. unfold Rdiv. rewrite Rmult_assoc, Rinv_l by exact N. lra.
    - rewrite Rmin_left, Rmax_right in F by lra.
      assert (A0 : fval (fsub ty y2) <= 0) by (rewrite Va, <- rnd64_0; apply rnd64_le; lra).
      assert (A1 : fval (fsub y1 y2) <= fval (fsub ty y2)) by (rewrite Va, Vb; apply rnd64_le; lra).
      assert (B0 : 0 < - fval (fsub y1 y2)) by lra.
      replace (fval (fsub ty y2) / fval (fsub y1 y2)) with ((- fval (fsub ty y2)) / (- fval (fsub y1 y2))) by (field; exact N).
      split; [apply Rmult_le_pos; [lra|left; apply Rinv_0_lt_compat; exact B0]|].
      apply Rmult_le_reg_r with (- fval (fsub y1 y2)); [exact B0|]. unfold Rdiv. rewrite Rmult_assoc, Rinv_l by lra. lra. }
  destruct W as [W N].
  assert (One : 1 <= bpow radix2 1023) by (change 1 with (bpow radix2 0); apply bpow_le; lia).
  destruct (fdiv_val _ _ Fa Fb N) as [Ft Vt]; [rewrite Rabs_pos_eq; lra|].
  destruct (rnd_any (fval (fsub ty y2) / fval (fsub y1 y2))) as (e3 & n3 & H3 & N3 & R3).
  split; [exact Ft|]. split.
  { unfold t. rewrite Vt. split; [rewrite <- rnd64_0|rewrite <- rnd64_1]; apply rnd64_le; lra. }
  exists e1, e2, e3, n3. split; [exact H1|]. split; [exact H2|]. split; [exact H3|]. split; [exact N3|].
  cbv zeta. rewrite <- R1, <- R2, <- Va, <- Vb. split; [exact W|]. unfold t. rewrite Vt. exact R3.
Qed.

Lemma abscissa_ok (t x1 x2 : f64) (M : R) : fisfin t = true -> 0 <= fval t <= 1 -> moderate x1 -> moderate x2 ->
  let r := fadd (fmul t x1) (fmul (fsub (fofZ 1) t) x2) in
  fisfin r = true /\ exists e4 e5 e6 e7 n5 n6, Rabs e4 <= uu /\ Rabs e5 <= uu /\ Rabs e6 <= uu /\ Rabs e7 <= uu /\ Rabs n5 <= eta /\ Rabs n6 <= eta /\
    fval r = ((fval t * fval x1 * (1 + e5) + n5) + ((1 - fval t) * (1 + e4) * fval x2 * (1 + e6) + n6)) * (1 + e7).
Proof.
  intros Ft T Mx1 Mx2 r. pose proof (mod1022 _ Mx1) as B1. pose proof (mod1022 _ Mx2) as B2. destruct Mx1 as [F1 _], Mx2 as [F2 _]. pose proof pow1022 as P2. pose proof uu_small as U. pose proof uu_pos as U0.
  assert (One : 1 <= bpow radix2 1023) by (change 1 with (bpow radix2 0); apply bpow_le; lia).
  assert (Big : 4 <= bpow radix2 1022) by (change 4 with (bpow radix2 2); apply bpow_le; lia).
  destruct (fsub_ok (fofZ 1) t fone_fin Ft) as [Fs Vs]; [change (fofZ 1) with fone; rewrite fone_val; apply Rabs_le; lra|].
  destruct (rnd_sub _ _ (fval_format _ fone_fin) (fval_format _ Ft)) as (e4 & H4 & R4).
  change (fofZ 1) with fone in *. rewrite fone_val in *. rewrite R4 in Vs.
  assert (S01 : 0 <= fval (fsub fone t) <= 1).
  { rewrite Vs, <- R4. split.
    - pose proof (rnd64_le 0 (1 - fval t)) as Q. rewrite rnd64_0 in Q. apply Q. lra.
    - pose proof (rnd64_le (1 - fval t) 1) as Q. rewrite rnd64_1 in Q. apply Q. lra. }
  assert (Hb : forall z x, 0 <= z <= 1 -> Rabs x <= bpow radix2 1022 -> Rabs (z * x) <= bpow radix2 1022).
  { intros z x Hz Hx. pose proof (mabs _ _ _ _ (abs01 z Hz) Hx). lra. }
  destruct (fmul_val t x1 Ft F1) as [Fp Vp]; [pose proof (Hb _ _ T B1); lra|].
  destruct (fmul_val (fsub fone t) x2 Fs F2) as [Fq Vq]; [pose proof (Hb _ _ S01 B2); lra|].
  assert (G : generic_format radix2 fexp64 (bpow radix2 1022)) by (apply generic_format_bpow; unfold fexp64, SpecFloat.fexp, SpecFloat.emin; lia).
  assert (Rb : forall z, Rabs z <= bpow radix2 1022 -> Rabs (rnd64 z) <= bpow radix2 1022).
  { intros z Hz. apply abs_round_le_generic; auto with typeclass_instances. }
  destruct (fadd_ok _ _ Fp Fq) as [Fr Vr].
  { pose proof (Rabs_triang (fval (fmul t x1)) (fval (fmul (fsub fone t) x2))) as Q.
    assert (Q1 : Rabs (fval (fmul t x1)) <= bpow radix2 1022) by (rewrite Vp; apply Rb, Hb; [exact T|exact B1]).
    assert (Q2 : Rabs (fval (fmul (fsub fone t) x2)) <= bpow radix2 1022) by (rewrite Vq; apply Rb, Hb; [exact S01|exact B2]). lra. }
  destruct (rnd_add _ _ (fval_format _ Fp) (fval_format _ Fq)) as (e7 & H7 & R7).
  destruct (rnd_any (fval t * fval x1)) as (e5 & n5 & H5 & N5 & R5).
  destruct (rnd_any (fval (fsub fone t) * fval x2)) as (e6 & n6 & H6 & N6 & R6).
  split; [exact Fr|]. exists e4, e5, e6, e7, n5, n6. do 6 (split; [assumption|]).
  unfold r. rewrite Vr, R7, Vp, Vq, R5, R6, Vs. reflexivity.
Qed.

Lemma hline_edge_near (ty : f64) (a b : f64 * f64) (M : R) : moderate ty ->
  moderate (fst a) -> moderate (snd a) -> moderate (fst b) -> moderate (snd b) ->
  Rabs (fval (fst a)) <= M -> Rabs (fval (fst b)) <= M ->
  Forall2 (near M) (hline_edge F64 ty (a, b)) (hline_edge XR (Some (fval ty)) (lift_pt (real_pt a), lift_pt (real_pt b))).
Proof.
  destruct a as [x1 y1], b as [x2 y2]. cbn [fst snd]. intros Mt Mx1 My1 Mx2 My2 X1 X2.
  unfold hline_edge, lift_pt, real_pt. cbn [fst snd].
  assert (Nn : forall x, moderate x -> fisnan x = false) by (intros x [F _]; exact (finite_not_nan x F)).
  change (sfmin F64 y1 y2) with (ffmin y1 y2). change (sfmax F64 y1 y2) with (ffmax y1 y2).
  assert (Nm : fisnan (ffmin y1 y2) = false) by (rewrite ffmin_nan, (Nn _ My1); reflexivity).
  assert (Nx : fisnan (ffmax y1 y2) = false) by (rewrite ffmax_nan, (Nn _ My1); reflexivity).
  pose proof (ffmin_val y1 y2 (Nn _ My1) (Nn _ My2)) as Vm. pose proof (ffmax_val y1 y2 (Nn _ My1) (Nn _ My2)) as Vx.
  rewrite sfmin_XR, sfmax_XR.
  change (sleb F64) with fleb. change (sleb XR) with (xcmp Rleb). cbn [xcmp].
  destruct (fleb (ffmin y1 y2) ty) eqn:L1.
  2: { apply fleb_val_false in L1; [|exact Nm|exact (Nn _ Mt)]. rewrite Vm in L1.
       destruct (Rleb (Rmin (fval y1) (fval y2)) (fval ty)) eqn:L2; [apply Rleb_true in L2; lra|]. constructor. }
  apply fleb_val in L1; [|exact Nm|exact (Nn _ Mt)]. rewrite Vm in L1. rewrite (proj2 (Rleb_true _ _) L1).
  destruct (fleb ty (ffmax y1 y2)) eqn:L3.
  2: { apply fleb_val_false in L3; [|exact (Nn _ Mt)|exact Nx]. rewrite Vx in L3.
       destruct (Rleb (fval ty) (Rmax (fval y1) (fval y2))) eqn:L4; [apply Rleb_true in L4; lra|]. constructor. }
  apply fleb_val in L3; [|exact (Nn _ Mt)|exact Nx]. rewrite Vx in L3. rewrite (proj2 (Rleb_true _ _) L3). cbn [andb].
  change (sdiv F64) with fdiv. change (ssub F64) with fsub. change (sdiv XR) with xdiv. change (ssub XR) with (xlift2 Rminus).
  change (sofZ F64) with fofZ. change (sofZ XR) with (fun z => Some (IZR z)). change (sadd F64) with fadd. change (smul F64) with fmul.
  change (sadd XR) with (xlift2 Rplus). change (smul XR) with (xlift2 Rmult).
  cbn [xlift2 xdiv].
  assert (Dec : fval y1 = fval y2 \/ fval y1 <> fval y2) by (destruct (Req_dec (fval y1) (fval y2)); auto).
  destruct Dec as [E|D].
  - assert (Et : fval ty = fval y2) by (rewrite E, Rmin_left in L1 by lra; rewrite E, Rmax_left in L3 by lra; lra).
    assert (Z : forall x y, moderate x -> moderate y -> fval x = fval y -> fisfin (fsub x y) = true /\ fval (fsub x y) = 0).
    { intros x y [Fx Bx] [Fy By] Q. destruct (fsub_ok x y Fx Fy) as [Fz Vz].
      - rewrite Q. replace (fval y - fval y) with 0 by ring. rewrite Rabs_R0. apply bpow_ge_0.
      - split; [exact Fz|]. rewrite Vz, Q. replace (fval y - fval y) with 0 by ring. exact rnd64_0. }
    destruct (Z ty y2 Mt My2 Et) as [Fa Va]. destruct (Z y1 y2 My1 My2 E) as [Fb Vb].
    rewrite (fleb_nan_r (fofZ 0) _ (div00 _ _ Fa Fb Va Vb)). cbn [andb].
    destruct (Req_EM_T (fval y1 - fval y2) 0) as [_|N]; [|exfalso; apply N; lra]. constructor.
  - destruct (param_ok ty y1 y2 Mt My1 My2 D (conj L1 L3)) as (Ft & T & e1 & e2 & e3 & n3 & H1 & H2 & H3 & N3 & W & Vt).
    destruct (abscissa_ok _ x1 x2 M Ft T Mx1 Mx2) as (Fr & e4 & e5 & e6 & e7 & n5 & n6 & H4 & H5 & H6 & H7 & N5 & N6 & Vr).
    set (t := fdiv (fsub ty y2) (fsub y1 y2)) in *.
    assert (C0 : fleb (fofZ 0) t = true).
    { apply fleb_val; [apply fofZ_nan; lia|exact (finite_not_nan _ Ft)|]. rewrite fofZ_val by lia. exact (proj1 T). }
    assert (C1 : fleb t (fofZ 1) = true).
    { apply fleb_val; [exact (finite_not_nan _ Ft)|apply fofZ_nan; lia|]. rewrite fofZ_val by lia. exact (proj2 T). }
    rewrite C0, C1. cbn [andb].
    destruct (Req_EM_T (fval y1 - fval y2) 0) as [N|_]; [exfalso; apply D; lra|].
    assert (Q : 0 <= (fval ty - fval y2) / (fval y1 - fval y2) <= 1).
    { clear - L1 L3 D. revert L1 L3. destruct (Rlt_or_le (fval y2) (fval y1)) as [L|L].
      - rewrite Rmin_right, Rmax_left by lra. intros L1 L3. split; [apply Rmult_le_pos; [lra|left; apply Rinv_0_lt_compat; lra]|].
        apply Rmult_le_reg_r with (fval y1 - fval y2); [lra|]. unfold Rdiv. rewrite Rmult_assoc, Rinv_l by lra. lra.
      - rewrite Rmin_left, Rmax_right by lra. intros L1 L3.
        replace ((fval ty - fval y2) / (fval y1 - fval y2)) with ((fval y2 - fval ty) / (fval y2 - fval y1)) by (field; lra).
        split; [apply Rmult_le_pos; [lra|left; apply Rinv_0_lt_compat; lra]|].
        apply Rmult_le_reg_r with (fval y2 - fval y1); [lra|]. unfold Rdiv. rewrite Rmult_assoc, Rinv_l by lra. lra. }
    cbn [xcmp xlift2]. rewrite (proj2 (Rleb_true _ _) (proj1 Q)), (proj2 (Rleb_true _ _) (proj2 Q)). cbn [andb].
    constructor; [|constructor]. eexists. split; [reflexivity|]. split; [exact Fr|].
    rewrite Vr, hit_error_eq. set (t0 := (fval ty - fval y2) / (fval y1 - fval y2)) in *.
    assert (Qt : t0 * (fval y1 - fval y2) = fval ty - fval y2) by (unfold t0; field; lra).
    pose proof uu_small as U. pose proof uu_pos as U0. pose proof eta_pos as Ep. pose proof eta_uu as Eu.
    assert (Dy : fval y1 - fval y2 <> 0) by lra.
    refine (cross_err t0 (fval y1 - fval y2) (fval x1) (fval x2) M e1 e2 e3 e4 e5 e6 e7 n3 n5 n6 uu eta _ _ Q Dy X1 X2 H1 H2 H3 H4 H5 H6 H7 N3 N5 N6 _ (fval t) _ _ _ eq_refl _ _ T eq_refl eq_refl eq_refl).
    + lra.
    + lra.
    + rewrite Qt. exact W.
    + rewrite Qt. exact Vt.
Qed.

(** ---- the polygon ---- *)
Lemma max_coeff_val l : forall x, fisfin x = true -> (forall y, In y l -> fisfin y = true) ->
  fisfin (max_coeff F64 x l) = true /\ max_coeff XR (Some (fval x)) (map (fun y => Some (fval y)) l) = Some (fval (max_coeff F64 x l)).
Proof.
  induction l as [|y l IH]; intros x Fx Fl; [split; [exact Fx|reflexivity]|].
  assert (Fy : fisfin y = true) by (apply Fl; left; reflexivity).
  unfold max_coeff in *. cbn [fold_left map]. change (sltb F64 x y) with (fltb x y).
  change (sltb XR (Some (fval x)) (Some (fval y))) with (Rltb (fval x) (fval y)).
  destruct (fltb x y) eqn:E.
  - apply fltb_val in E; [|exact (finite_not_nan _ Fx)|exact (finite_not_nan _ Fy)]. rewrite (proj2 (Rltb_true _ _) E).
    apply IH; [exact Fy|]. intros z Hz. apply Fl. right. exact Hz.
  - apply fltb_val_false in E; [|exact (finite_not_nan _ Fx)|exact (finite_not_nan _ Fy)]. rewrite (proj2 (Rltb_false _ _) E).
    apply IH; [exact Fx|]. intros z Hz. apply Fl. right. exact Hz.
Qed.
Lemma min_coeff_val l : forall x, fisfin x = true -> (forall y, In y l -> fisfin y = true) ->
  fisfin (min_coeff F64 x l) = true /\ min_coeff XR (Some (fval x)) (map (fun y => Some (fval y)) l) = Some (fval (min_coeff F64 x l)).
Proof.
  induction l as [|y l IH]; intros x Fx Fl; [split; [exact Fx|reflexivity]|].
  assert (Fy : fisfin y = true) by (apply Fl; left; reflexivity).
  unfold min_coeff in *. cbn [fold_left map]. change (sltb F64 y x) with (fltb y x).
  change (sltb XR (Some (fval y)) (Some (fval x))) with (Rltb (fval y) (fval x)).
  destruct (fltb y x) eqn:E.
  - apply fltb_val in E; [|exact (finite_not_nan _ Fy)|exact (finite_not_nan _ Fx)]. rewrite (proj2 (Rltb_true _ _) E).
    apply IH; [exact Fy|]. intros z Hz. apply Fl. right. exact Hz.
  - apply fltb_val_false in E; [|exact (finite_not_nan _ Fy)|exact (finite_not_nan _ Fx)]. rewrite (proj2 (Rltb_false _ _) E).
    apply IH; [exact Fx|]. intros z Hz. apply Fl. right. exact Hz.
Qed.
Lemma fltb_Rltb x y : fisfin x = true -> fisfin y = true -> Rltb (fval x) (fval y) = fltb x y.
Proof.
  intros Fx Fy. destruct (fltb x y) eqn:E.
  - apply Rltb_true. apply fltb_val; [exact (finite_not_nan _ Fx)|exact (finite_not_nan _ Fy)|exact E].
  - apply Rltb_false. apply fltb_val_false; [exact (finite_not_nan _ Fx)|exact (finite_not_nan _ Fy)|exact E].
Qed.

Definition lr (p : f64 * f64) : car XR * car XR := lift_pt (real_pt p).
Lemma edges_real (P : list (f64 * f64)) : edges (S := XR) (lift_poly (real_poly P)) = map (fun e => (lr (fst e), lr (snd e))) (edges (S := F64) P).
Proof.
  assert (Q : lift_poly (real_poly P) = map lr P) by (unfold lift_poly, real_poly; rewrite map_map; reflexivity).
  rewrite Q. clear Q. destruct P as [|h t]; [reflexivity|].
  unfold edges. change (map lr (h :: t)) with (lr h :: map lr t).
  assert (G : forall A B, combine (map lr A) (map lr B) = map (fun e => (lr (fst e), lr (snd e))) (combine A B)).
  { induction A as [|x A IH]; intros [|y B]; [reflexivity|reflexivity|reflexivity|]. cbn [map combine fst snd]. rewrite IH. reflexivity. }
  refine (eq_trans _ (G (h :: t) (t ++ [h]))). rewrite map_app. reflexivity.
Qed.
Lemma edges_in (P : list (f64 * f64)) e : In e (edges (S := F64) P) -> In (fst e) P /\ In (snd e) P.
Proof.
  destruct P as [|h t]; [intros []|]. destruct e as [a b]. unfold edges. intros H. split.
  - exact (in_combine_l _ _ _ _ H).
  - apply in_combine_r in H. apply in_app_or in H. destruct H as [H|[<- |[]]]; [right; exact H|left; reflexivity].
Qed.

Lemma flat_near {A} (f : A -> list f64) (g : A -> list (option R)) M l : (forall a, In a l -> Forall2 (near M) (f a) (g a)) ->
  Forall2 (near M) (flat_map f l) (flat_map g l).
Proof.
  induction l as [|a l IH]; intros H; [constructor|]. cbn [flat_map]. apply Forall2_app; [apply H; left; reflexivity|].
  apply IH. intros b Hb. apply H. right. exact Hb.
Qed.
Lemma flat_map_map_ {A B C} (g : B -> list C) (h : A -> B) l : flat_map g (map h l) = flat_map (fun a => g (h a)) l.
Proof. induction l as [|a l IH]; [reflexivity|]. cbn [map flat_map]. rewrite IH. reflexivity. Qed.
Lemma near_list M hits xs : Forall2 (near M) hits xs ->
  exists rs, xs = map Some rs /\ Forall2 (fun h r => fisfin h = true /\ Rabs (fval h - r) <= hit_error M) hits rs.
Proof.
  induction 1 as [|h x hits xs (r & -> & F & B) _ (rs & -> & IH)]; [exists []; split; [reflexivity|constructor]|].
  exists (r :: rs). split; [reflexivity|]. constructor; [split; assumption|exact IH].
Qed.

Lemma hline_polygon_near (ty : f64) (P : list (f64 * f64)) (M : R) : P <> [] -> moderate ty -> moderate_poly P -> reach P M ->
  exists hits xs, hline_polygon F64 ty P = Ok hits /\ hline_polygon XR (Some (fval ty)) (lift_poly (real_poly P)) = Ok (map Some xs) /\
    Forall2 (fun h x => fisfin h = true /\ Rabs (fval h - x) <= hit_error M) hits xs.
Proof.
  intros Ne Mt MP Rc.
  assert (FE : Forall2 (near M) (flat_map (hline_edge F64 ty) (edges (S := F64) P)) (flat_map (hline_edge XR (Some (fval ty))) (edges (S := XR) (lift_poly (real_poly P))))).
  { rewrite edges_real, flat_map_map_.
    apply flat_near. intros [a b] He. destruct (edges_in P _ He) as [Ia Ib]. cbn [fst snd] in *.
    destruct (MP _ Ia) as [Ma1 Ma2]. destruct (MP _ Ib) as [Mb1 Mb2].
    exact (hline_edge_near ty a b M Mt Ma1 Ma2 Mb1 Mb2 (Rc _ Ia) (Rc _ Ib)). }
  unfold hline_polygon. destruct P as [|p P]; [exfalso; apply Ne; reflexivity|].
  assert (Q : map snd (lift_poly (real_poly (p :: P))) = Some (fval (snd p)) :: map (fun y => Some (fval y)) (map snd P)).
  { unfold lift_poly, real_poly. cbn [map]. rewrite !map_map. reflexivity. }
  rewrite Q. clear Q. change (map snd (p :: P)) with (snd p :: map snd P).
  assert (Fp : fisfin (snd p) = true) by (destruct (MP p (or_introl eq_refl)) as [_ [F _]]; exact F).
  assert (Fl : forall y, In y (map snd P) -> fisfin y = true).
  { intros y Hy. apply in_map_iff in Hy. destruct Hy as (q & <- & Hq). destruct (MP q (or_intror Hq)) as [_ [F _]]. exact F. }
  destruct (max_coeff_val _ _ Fp Fl) as [Fx Vx]. destruct (min_coeff_val _ _ Fp Fl) as [Fm Vm].
  rewrite Vx, Vm. change (sltb F64) with fltb. change (sltb XR) with (xcmp Rltb). cbn [xcmp].
  rewrite (fltb_Rltb _ _ Fx (proj1 Mt)), (fltb_Rltb _ _ (proj1 Mt) Fm).
  destruct (fltb (max_coeff F64 (snd p) (map snd P)) ty || fltb ty (min_coeff F64 (snd p) (map snd P))).
  - exists [], []. split; [reflexivity|]. split; [reflexivity|constructor].
  - destruct (near_list _ _ _ FE) as (rs & E & F2). eexists _, rs. split; [reflexivity|]. split; [rewrite E; reflexivity|exact F2].
Qed.
