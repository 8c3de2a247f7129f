(** The rounding errors of the Euclidean distance, and the distance of A*'s answer from a shortest
    path. *)
From Coq Require Import List Bool Arith Lia ZArith Reals Lra Psatz.
From Flocq Require Import Core.Core Relative Plus_error IEEE754.BinarySingleNaN.
From Verif.Base Require Import Outcome Float64 FloatFacts.
From Verif.Model Require Import MScalar MDistance MGraph MSearch MAStar.
From Verif.Spec Require Import SGraph SSearch SUtil SShort.
From Verif.Proofs Require Import PUtil PGraph PSampling PAStar PAStarF.
Import ListNotations.
Local Open Scope R_scope.
Local Opaque fval fdblmax fofZ.

Definition uu : R := bpow radix2 (-53).
Definition eta0 : R := bpow radix2 (-1075).
Lemma uu_small : 0 < uu <= / 2 ^ 53.
Proof. unfold uu. split; [apply bpow_gt_0|]. rewrite pow_IZR. apply Req_le. reflexivity. Qed.
Lemma half_u : / 2 * bpow radix2 (-53 + 1) = uu.
Proof. unfold uu. rewrite bpow_plus. change (bpow radix2 1) with 2. field. Qed.
Lemma half_eta : / 2 * bpow radix2 (-1074) = eta0.
Proof. unfold eta0. change (-1074)%Z with (-1075 + 1)%Z. rewrite bpow_plus. change (bpow radix2 1) with 2. field. Qed.
Lemma eta0_pos : 0 < eta0.
Proof. apply bpow_gt_0. Qed.

(** Sums and differences of doubles have a relative error. *)
Lemma sum_err x y : generic_format radix2 fexp64 x -> generic_format radix2 fexp64 y -> Rabs (rnd64 (x + y) - (x + y)) <= uu * Rabs (x + y).
Proof.
  intros Fx Fy. destruct (FLT_plus_error_N_ex radix2 (-1074) 53 (fun z => negb (Z.even z)) x y Fx Fy) as (e & He & Q).
  change (round radix2 (FLT_exp (-1074) 53) (Znearest (fun z => negb (Z.even z))) (x + y)) with (rnd64 (x + y)) in Q. rewrite Q.
  replace ((x + y) * (1 + e) - (x + y)) with (e * (x + y)) by ring. rewrite Rabs_mult. apply Rmult_le_compat_r; [apply Rabs_pos|].
  eapply Rle_trans; [exact He|]. unfold u_ro. change (- (53) + 1)%Z with (-53 + 1)%Z. rewrite half_u. destruct uu_small. apply Rle_trans with (uu / 1); [|lra].
  apply Rmult_le_compat_l; [lra|]. apply Rinv_le_contravar; lra.
Qed.
Lemma any_err x : Rabs (rnd64 x - x) <= uu * Rabs x + eta0.
Proof.
  destruct (error_N_FLT radix2 (-1074) 53 ltac:(lia) (fun z => negb (Z.even z)) x) as (e & n & He & Hn & _ & Q).
  change (round radix2 (FLT_exp (-1074) 53) (Znearest (fun z => negb (Z.even z))) x) with (rnd64 x) in Q. rewrite Q.
  change (- (53) + 1)%Z with (-53 + 1)%Z in He. rewrite half_u in He. rewrite half_eta in Hn.
  replace (x * (1 + e) + n - x) with (e * x + n) by ring. eapply Rle_trans; [apply Rabs_triang|]. rewrite Rabs_mult.
  assert (Rabs e * Rabs x <= uu * Rabs x) by (apply Rmult_le_compat_r; [apply Rabs_pos|auto]). lra.
Qed.
Lemma absd a b : Rabs a <= b <-> - b <= a <= b.
Proof. unfold Rabs. destruct (Rcase_abs a); lra. Qed.

(** ---- vectorEuclidean ---- *)
Lemma sq_err a b : coord a -> coord b -> exists d, fsub a b = d /\
  Rabs (fval (fmul d d) - (fval a - fval b) * (fval a - fval b)) <= 4 * uu * ((fval a - fval b) * (fval a - fval b)) + eta0.
Proof.
  intros [Fa Ba] [Fb Bb]. exists (fsub a b). split; [auto|]. apply Rabs_le_inv in Ba, Bb.
  assert (D : bpow radix2 301 = 2 * bpow radix2 300) by (change 301%Z with (1 + 300)%Z; rewrite bpow_plus; reflexivity).
  assert (F : fisfin (fsub a b) = true).
  { apply fsub_fin; auto. assert (bpow radix2 301 <= bpow radix2 1023) by (apply bpow_le; lia). apply Rabs_le. lra. }
  pose proof (fsub_val a b F) as V.
  assert (B : - bpow radix2 301 <= fval (fsub a b) <= bpow radix2 301).
  { rewrite V. apply rnd_between; [apply generic_format_opp|apply bpow_format; lia|lra]. apply bpow_format. lia. }
  destruct (fmul_val _ _ F F) as [Fm Vm].
  { rewrite Rabs_pos_eq by nra. apply Rle_trans with (bpow radix2 602); [|apply bpow_le; lia].
    change 602%Z with (301 + 301)%Z. rewrite bpow_plus. pose proof (bpow_gt_0 radix2 301). nra. }
  rewrite Vm. clear Vm Fm B. pose proof (sum_err (fval a) (- fval b)) as S1.
  replace (fval a + - fval b) with (fval a - fval b) in S1 by ring. rewrite <- V in S1.
  specialize (S1 (fval_format a Fa) (generic_format_opp _ _ _ (fval_format b Fb))).
  pose proof (any_err (fval (fsub a b) * fval (fsub a b))) as S2. clear V F D.
  generalize dependent (fval (fsub a b)). intros q S1 S2. set (x := fval a - fval b) in *. clearbody x.
  destruct uu_small as [U0 U1]. assert (U2 : uu <= / 1000) by (eapply Rle_trans; [exact U1|]; apply Rinv_le_contravar; lra).
  assert (X0 : 0 <= x * x) by nra. assert (Sq : Rabs (q * q - x * x) <= 5 / 2 * uu * (x * x)).
  { replace (q * q - x * x) with ((q - x) * (q - x) + 2 * (x * (q - x))) by ring. eapply Rle_trans; [apply Rabs_triang|].
    rewrite !Rabs_mult, (Rabs_pos_eq 2) by lra. pose proof (Rabs_pos (q - x)) as P0. pose proof (Rabs_pos x) as P1.
    assert (XX : Rabs x * Rabs x = x * x) by (rewrite <- Rabs_mult; apply Rabs_pos_eq; auto). rewrite <- XX.
    assert (Rabs (q - x) * Rabs (q - x) <= uu * Rabs x * (uu * Rabs x)) by (apply Rmult_le_compat; auto).
    assert (Rabs x * Rabs (q - x) <= Rabs x * (uu * Rabs x)) by (apply Rmult_le_compat_l; auto).
    assert (uu * uu <= / 1000 * uu) by (apply Rmult_le_compat_r; lra).
    assert (0 <= Rabs x * Rabs x) by (apply Rmult_le_pos; auto).
    assert (uu * uu * (Rabs x * Rabs x) <= / 1000 * uu * (Rabs x * Rabs x)) by (apply Rmult_le_compat_r; auto). nra. }
  assert (QQ : Rabs (q * q) <= 11 / 10 * (x * x)).
  { replace (q * q) with ((q * q - x * x) + x * x) by ring. eapply Rle_trans; [apply Rabs_triang|]. rewrite (Rabs_pos_eq (x * x)) by auto.
    assert (uu * (x * x) <= / 1000 * (x * x)) by (apply Rmult_le_compat_r; lra). lra. }
  assert (uu * Rabs (q * q) <= uu * (11 / 10 * (x * x))) by (apply Rmult_le_compat_l; lra). apply absd in S2, Sq. apply absd. assert (0 <= uu * (x * x)) by (apply Rmult_le_pos; lra). lra.
Qed.

Lemma vdiff_err v1 v2 ds : vdiff F64 v1 v2 = Ok ds -> (forall x, In x v1 -> coord x) -> (forall x, In x v2 -> coord x) -> length v1 = length v2 ->
  exists xs, length xs = length ds /\ sqdist v1 v2 = fold_right (fun x s => x * x + s) 0 xs /\
    Forall2 (fun d x => Rabs (fval (fmul d d) - x * x) <= 4 * uu * (x * x) + eta0) ds xs.
Proof.
  revert v2 ds; induction v1 as [|a v1 IH]; intros [|b v2] ds H H1 H2 Hl; cbn [vdiff] in H; try discriminate Hl.
  - injection H as <-. exists []. split; [auto|]. split; [auto|constructor].
  - apply obind_Ok in H. destruct H as (t & Ht & H). injection H as <-. injection Hl as Hl.
    destruct (IH v2 t Ht) as (xs & L & S & A); [intros; apply H1; right; auto|intros; apply H2; right; auto|auto|].
    exists ((fval a - fval b) :: xs). cbn [length sqdist fold_right]. split; [f_equal; exact L|]. split; [rewrite S; ring|].
    constructor; [|exact A]. destruct (sq_err a b) as (d & <- & Q); [apply H1; left; auto|apply H2; left; auto|exact Q].
Qed.

(** The running sum of squares. *)
Lemma fold_err ds xs : Forall2 (fun d x => Rabs (fval (fmul d d) - x * x) <= 4 * uu * (x * x) + eta0) ds xs ->
  (forall d, In d ds -> lvl 602 1 (fmul d d)) -> forall k acc S, (Z.of_nat (k + length ds) <= 2 ^ 40)%Z -> lvl 602 k acc -> 0 <= S ->
  Rabs (fval acc - S) <= (2 * INR k + 6) * uu * S + 2 * INR k * eta0 ->
  let F := fold_left (fun acc d => fadd acc (fmul d d)) ds acc in let T := S + fold_right (fun x s => x * x + s) 0 xs in
  Rabs (fval F - T) <= (2 * INR (k + length ds) + 6) * uu * T + 2 * INR (k + length ds) * eta0.
Proof.
  induction 1 as [|d x ds xs Hd _ IH]; intros Hl k acc S Hk A S0 Err; cbn [fold_left fold_right length].
  - rewrite Nat.add_0_r, Rplus_0_r. exact Err.
  - cbn [length] in Hk. destruct (lvl_add 602 k acc (fmul d d)) as [A' V]; [lia|lia|auto|apply Hl; left; auto|].
    replace (k + Datatypes.S (length ds))%nat with (Datatypes.S k + length ds)%nat by lia.
    replace (S + (x * x + fold_right (fun x s => x * x + s) 0 xs)) with ((S + x * x) + fold_right (fun x s => x * x + s) 0 xs) by ring.
    assert (X0 : 0 <= x * x) by nra.
    apply IH; [intros; apply Hl; right; auto|lia|auto|lra|]. rewrite V.
    assert (Fm : fisfin (fmul d d) = true) by (apply (Hl d (or_introl eq_refl))).
    pose proof (sum_err (fval acc) (fval (fmul d d)) (fval_format _ (proj1 A)) (fval_format _ Fm)) as S1.
    destruct A as [_ [P0 _]]. destruct (Hl d (or_introl eq_refl)) as [_ [P1 _]]. rewrite (Rabs_pos_eq (fval acc + fval (fmul d d))) in S1 by lra. rewrite S_INR.
    assert (K : INR k <= 2 ^ 40). { rewrite INR_IZR_INZ. rewrite pow_IZR. apply IZR_le. change (2 ^ Z.of_nat 40)%Z with (2 ^ 40)%Z. lia. }
    pose proof (pos_INR k) as K0. clear V A'. generalize dependent (rnd64 (fval acc + fval (fmul d d))). intros r S1.
    revert S1 Err Hd P0 P1. generalize (fval acc) (fval (fmul d d)). intros p q S1 Err Hd P0 P1.
    clear - S1 Err Hd X0 S0 P0 P1 K K0. destruct uu_small as [U0 U1]. pose proof eta0_pos as E0.
    assert (KU : INR k * uu <= / 2 ^ 13).
    { apply Rle_trans with (2 ^ 40 * / 2 ^ 53); [apply Rmult_le_compat; lra|]. right. field. }
    assert (U2 : uu <= / 1000) by (eapply Rle_trans; [exact U1|]; apply Rinv_le_contravar; lra).
    assert (KU' : INR k * uu <= / 1000) by (eapply Rle_trans; [exact KU|]; apply Rinv_le_contravar; lra). clear KU U1 K.
    set (m := INR k) in *. clearbody m. set (y := x * x) in *. clearbody y. apply absd in S1, Err, Hd. apply absd.
    set (ku := m * uu) in *.
    assert (Z1 : 0 <= ku) by (apply Rmult_le_pos; lra).
    replace ((2 * m + 6) * uu) with (2 * ku + 6 * uu) in Err by (unfold ku; ring).
    replace ((2 * (m + 1) + 6) * uu) with (2 * ku + 8 * uu) by (unfold ku; ring).
    assert (Z2 : 0 <= ku * y) by (apply Rmult_le_pos; auto). assert (Z3 : 0 <= ku * S) by (apply Rmult_le_pos; auto).
    assert (Z4 : 0 <= uu * y) by (apply Rmult_le_pos; lra). assert (Z5 : 0 <= uu * S) by (apply Rmult_le_pos; lra).
    assert (Me : uu * (m * eta0) <= / 1000 * eta0) by (replace (uu * (m * eta0)) with (ku * eta0) by (unfold ku; ring); apply Rmult_le_compat_r; lra).
    assert (UE : uu * eta0 <= / 1000 * eta0) by (apply Rmult_le_compat_r; lra).
    assert (Mp : 0 <= m * eta0) by (apply Rmult_le_pos; lra).
    assert (PQ : uu * (p + q) <= uu * ((S + y) + (2 * ku + 6 * uu) * S + 2 * m * eta0 + 4 * uu * y + eta0)) by (apply Rmult_le_compat_l; lra).
    assert (W1 : uu * (ku * S) <= / 1000 * (uu * S)) by (replace (uu * (ku * S)) with (ku * (uu * S)) by ring; apply Rmult_le_compat_r; lra).
    assert (W2 : uu * (uu * S) <= / 1000 * (uu * S)) by (apply Rmult_le_compat_r; lra).
    assert (W3 : uu * (uu * y) <= / 1000 * (uu * y)) by (apply Rmult_le_compat_r; lra).
    lra.
Qed.

Lemma sqrt_err a b S F : 0 <= a <= 1 -> 0 <= b -> 0 <= S -> 0 <= F -> Rabs (F - S) <= a * S + b * b -> Rabs (sqrt F - sqrt S) <= a * sqrt S + b.
Proof.
  intros A B HS HF H. apply absd in H. apply absd. pose proof (sqrt_pos S) as P1. pose proof (sqrt_pos F) as P2. pose proof (sqrt_sqrt S HS) as Q1. pose proof (sqrt_sqrt F HF) as Q2.
  assert (AS : 0 <= a * S) by (apply Rmult_le_pos; lra). split.
  - destruct (Rle_lt_dec (sqrt S) (sqrt F + a * sqrt S + b)) as [X|X]; [lra|exfalso].
    assert (Y : sqrt F + b < (1 - a) * sqrt S) by lra.
    assert (Z : (sqrt F + b) * (sqrt F + b) < (1 - a) * sqrt S * ((1 - a) * sqrt S)) by (apply Rmult_le_0_lt_compat; lra).
    assert (0 <= sqrt F * b) by (apply Rmult_le_pos; lra).
    replace ((1 - a) * sqrt S * ((1 - a) * sqrt S)) with ((1 - a) * (1 - a) * S) in Z by ring [Q1].
    assert ((1 - a) * (1 - a) * S <= (1 - a) * S) by (apply Rmult_le_compat_r; [auto|nra]). nra.
  - destruct (Rle_lt_dec (sqrt F) (sqrt S + a * sqrt S + b)) as [X|X]; [lra|exfalso].
    assert (0 <= a * sqrt S) by (apply Rmult_le_pos; lra).
    assert (Z : (sqrt S + a * sqrt S + b) * (sqrt S + a * sqrt S + b) < sqrt F * sqrt F) by (apply Rmult_le_0_lt_compat; lra).
    rewrite Q2 in Z. replace ((sqrt S + a * sqrt S + b) * (sqrt S + a * sqrt S + b)) with (S + 2 * (a * S) + a * a * S + 2 * (sqrt S * b) + 2 * (a * sqrt S * b) + b * b) in Z by ring [Q1].
    assert (0 <= sqrt S * b) by (apply Rmult_le_pos; lra). assert (0 <= a * sqrt S * b) by (apply Rmult_le_pos; lra).
    assert (0 <= a * a * S) by (apply Rmult_le_pos; [nra|auto]). lra.
Qed.
Lemma sqdist_pos a b : 0 <= sqdist a b.
Proof. revert b. induction a as [|x a IH]; intros [|y b]; cbn [sqdist]; try apply Rle_refl. apply Rplus_le_le_0_compat; [apply Rle_0_sqr|apply IH]. Qed.

Definition delta (m : nat) : R := (2 * INR m + 8) * uu.
Definition eta : R := bpow radix2 (-520).
Lemma euclid_err v1 v2 w : vec_euclid F64 v1 v2 = Ok w -> (forall x, In x v1 -> coord x) -> (forall x, In x v2 -> coord x) -> length v1 = length v2 -> (length v1 <= 1000)%nat ->
  Rabs (fval w - sqrt (sqdist v1 v2)) <= delta (length v1) * sqrt (sqdist v1 v2) + eta.
Proof.
  unfold vec_euclid. intros H H1 H2 Hl Hm. apply obind_Ok in H. destruct H as (ds & Hd & H). injection H as <-.
  destruct (vdiff_sq _ _ _ Hd H1 H2) as [Ld A]. destruct (vdiff_err _ _ _ Hd H1 H2 Hl) as (xs & _ & Sq & Er).
  change (@length f64 ds = length v1) in Ld.
  assert (Z0 : lvl 602 0 (fofZ 0)) by (split; [apply fofZ_fin; lia|rewrite fofZ_val by lia; cbn [INR]; lra]).
  assert (Fe : Rabs (fval (sumsq F64 ds) - (0 + fold_right (fun x s => x * x + s) 0 xs)) <= (2 * INR (0 + length v1) + 6) * uu * (0 + fold_right (fun x s => x * x + s) 0 xs) + 2 * INR (0 + length v1) * eta0).
  { unfold sumsq. rewrite <- Ld. apply (fold_err ds xs Er A 0 (fofZ 0) 0); [change (Z.of_nat (0 + @length f64 ds) <= 2 ^ 40)%Z; rewrite Ld; lia|auto|lra|].
    rewrite fofZ_val by lia. cbn [INR]. rewrite Rminus_0_r, Rabs_R0. lra. }
  rewrite <- Sq, Rplus_0_l in Fe. cbn [Nat.add] in Fe.
  assert (S : lvl 602 (0 + length v1) (sumsq F64 ds)).
  { unfold sumsq. rewrite <- Ld. apply (sumsq_lvl ds 0 (fofZ 0)); [change (Z.of_nat (0 + @length f64 ds) <= 2 ^ 53)%Z; rewrite Ld; lia|auto|auto]. }
  destruct S as [F [S0 _]]. destruct (fsqrt_val _ F S0) as [Fs Vs].
  change (ssqrt F64) with fsqrt. rewrite Vs. pose proof (sqdist_pos v1 v2) as D0.
  destruct uu_small as [U0 U1]. pose proof eta0_pos as E0. pose proof (pos_INR (length v1)) as M0.
  assert (M1 : INR (length v1) <= 1000). { replace 1000 with (INR 1000) by (rewrite INR_IZR_INZ; reflexivity). apply le_INR. auto. }
  assert (U2 : uu <= / 2 ^ 20) by (eapply Rle_trans; [exact U1|]; apply Rinv_le_contravar; lra).
  set (m := INR (length v1)) in *. assert (Mu : m * uu <= / 1000).
  { apply Rle_trans with (1000 * / 2 ^ 20); [apply Rmult_le_compat; lra|lra]. }
  pose proof (any_err (sqrt (fval (sumsq F64 ds)))) as R1. rewrite (Rabs_pos_eq (sqrt (fval (sumsq F64 ds)))) in R1 by apply sqrt_pos.
  set (b := bpow radix2 (-525)). assert (Bb : 2 * m * eta0 <= b * b).
  { unfold b. rewrite <- bpow_plus. change (-525 + -525)%Z with (-1050)%Z. unfold eta0. change (-1050)%Z with (25 + -1075)%Z. rewrite (bpow_plus radix2 25). apply Rmult_le_compat_r; [apply bpow_ge_0|].
    apply Rle_trans with 2000; [lra|]. change (bpow radix2 25) with (IZR (2 ^ 25)). apply IZR_le. lia. }
  assert (B0 : 0 < b) by apply bpow_gt_0.
  pose proof (sqrt_err ((2 * m + 6) * uu) b (sqdist v1 v2) (fval (sumsq F64 ds))) as R2.
  assert (A0 : 0 <= (2 * m + 6) * uu <= / 100) by (split; [apply Rmult_le_pos; lra|]; lra).
  specialize (R2 ltac:(lra) ltac:(lra) D0 S0 ltac:(lra)).
  clear Vs Fs F S0 Er Sq A Hd Z0 Fe Ld. set (q := sqrt (fval (sumsq F64 ds))) in *. clearbody q.
  set (r := rnd64 q) in *. clearbody r. set (E := sqrt (sqdist v1 v2)) in *. assert (P0 : 0 <= E) by apply sqrt_pos. clearbody E.
  assert (E1 : eta0 <= b) by (unfold eta0, b; apply bpow_le; lia).
  assert (E2 : 4 * b <= eta). { unfold eta, b. change (-520)%Z with (5 + -525)%Z. rewrite bpow_plus. change (bpow radix2 5) with 32. pose proof (bpow_gt_0 radix2 (-525)). lra. }
  unfold delta. fold m. apply absd in R1, R2. apply absd.
  assert (Q1 : uu * q <= uu * (E + (2 * m + 6) * uu * E + b)) by (apply Rmult_le_compat_l; lra).
  assert (Q2 : uu * ((2 * m + 6) * uu * E) <= / 100 * (uu * E)).
  { replace (uu * ((2 * m + 6) * uu * E)) with ((2 * m + 6) * uu * (uu * E)) by ring. apply Rmult_le_compat_r; [apply Rmult_le_pos; lra|lra]. }
  assert (Q3 : uu * b <= b) by (rewrite <- (Rmult_1_l b) at 2; apply Rmult_le_compat_r; lra).
  assert (Q4 : 0 <= uu * E) by (apply Rmult_le_pos; lra). lra.
Qed.

(** ---- the exact distance is a metric ---- *)
Lemma sqdist_eq a b : sqdist a b = SUtil.sq_dist (map fval a) (map fval b).
Proof. revert b. induction a as [|x a IH]; intros [|y b]; cbn [sqdist SUtil.sq_dist map]; auto. rewrite IH. reflexivity. Qed.
Lemma apart_pos g a b : 0 <= apart g a b.
Proof. unfold apart. destruct (nth_error (gvert g) a); [|apply Rle_refl]. destruct (nth_error (gvert g) b); [apply sqrt_pos|apply Rle_refl]. Qed.
Lemma apart_refl g a : apart g a a = 0.
Proof.
  unfold apart. destruct (nth_error (gvert g) a); [|auto]. rewrite sqdist_eq. rewrite (proj2 (PUtil.sq_dist_0 _ _ eq_refl) eq_refl). apply sqrt_0.
Qed.
Lemma apart_sym g a b : apart g a b = apart g b a.
Proof.
  unfold apart. destruct (nth_error (gvert g) a), (nth_error (gvert g) b); auto. rewrite !sqdist_eq. f_equal. apply PUtil.sq_dist_sym.
Qed.
Lemma apart_tri g m a b c : dimension g m -> (a < length (gvert g))%nat -> (b < length (gvert g))%nat -> (c < length (gvert g))%nat -> apart g a c <= apart g a b + apart g b c.
Proof.
  intros D Ha Hb Hc. unfold apart. apply nth_error_Some in Ha, Hb, Hc.
  destruct (nth_error (gvert g) a) as [va|] eqn:Ea; [|congruence]. destruct (nth_error (gvert g) b) as [vb|] eqn:Eb; [|congruence]. destruct (nth_error (gvert g) c) as [vc|] eqn:Ec; [|congruence].
  apply nth_error_In in Ea, Eb, Ec. apply D in Ea, Eb, Ec. rewrite !sqdist_eq. apply PUtil.triangle; rewrite !map_length; congruence.
Qed.

(** ---- walks ---- *)
Lemma walk_cons g a b r : walk_length g (a :: b :: r) = apart g a b + walk_length g (b :: r).
Proof. reflexivity. Qed.
Lemma chain_cons (E : nat -> nat -> R) a b r : chain_len E (a :: b :: r) = E b a + chain_len E (b :: r).
Proof. reflexivity. Qed.
Lemma wb_head g b a l : walk_between g b a l -> exists r, l = a :: r.
Proof. inversion 1; eauto. Qed.
Lemma wb_suffix g b c l : walk_between g b c l -> forall a, In a l -> exists l', walk_between g b a l' /\ walk_length g l' <= walk_length g l /\ exists pre, l = pre ++ l'.
Proof.
  induction 1 as [|c d l Hc H IH]; intros a Ha.
  - destruct Ha as [<-|[]]. exists [b]. split; [constructor|]. split; [apply Rle_refl|exists []; auto].
  - destruct Ha as [<-|Ha]; [exists (c :: l); split; [econstructor; eauto|split; [apply Rle_refl|exists []; auto]]|].
    destruct (IH a Ha) as (l' & A & B & (pre & ->)). exists l'. split; [auto|]. split; [|exists (c :: pre); auto].
    destruct (wb_head _ _ _ _ H) as (r & Q). rewrite Q in *. rewrite walk_cons. pose proof (apart_pos g c d). lra.
Qed.
Lemma NoDup_suffix {A} (a b : list A) : NoDup (a ++ b) -> NoDup b.
Proof. induction a as [|x a IH]; cbn [app]; auto. inversion 1; auto. Qed.
Lemma simple_walk g b a l : walk_between g b a l -> exists l', walk_between g b a l' /\ NoDup l' /\ walk_length g l' <= walk_length g l.
Proof.
  induction 1 as [|a c l Ha H (l' & W & N & Le)].
  - exists [b]. split; [constructor|]. split; [constructor; [intros []|constructor]|apply Rle_refl].
  - assert (Le' : walk_length g (a :: l') <= walk_length g (a :: l)).
    { destruct (wb_head _ _ _ _ H) as (r & ->). destruct (wb_head _ _ _ _ W) as (r' & ->). rewrite !walk_cons. lra. }
    destruct (in_dec Nat.eq_dec a l') as [Q|Q].
    + destruct (wb_suffix _ _ _ _ W a Q) as (s & W' & L' & (pre & E)). exists s. split; [auto|]. split; [rewrite E in N; eapply NoDup_suffix; eauto|].
      assert (walk_length g l' <= walk_length g (a :: l')). { destruct (wb_head _ _ _ _ W) as (r' & ->). rewrite walk_cons. pose proof (apart_pos g a c). lra. }
      lra.
    + exists (a :: l'). split; [econstructor; eauto|]. split; [constructor; auto|auto].
Qed.
Lemma walk_pos g l : 0 <= walk_length g l.
Proof. induction l as [|a l IH]; [apply Rle_refl|]. destruct l as [|b l]; [apply Rle_refl|]. rewrite walk_cons. pose proof (apart_pos g a b). lra. Qed.
Lemma wb_lt g b a l : well_formed g -> (b < length (gvert g))%nat -> walk_between g b a l -> forall x, In x l -> (x < length (gvert g))%nat.
Proof.
  intros [_ Wf] Hb. induction 1 as [|a c l Ha _ IH]; intros x Hx.
  - destruct Hx as [<-|[]]. auto.
  - destruct Hx as [<-|Hx]; [|auto]. destruct Ha as [Ha|Ha]; apply In_nth_error in Ha; destruct Ha as (k & Hk); destruct (Wf k _ _ Hk) as (v1 & v2 & w & A & B & _); eapply nth_error_lt; eauto.
Qed.
Lemma rwalk_of g s b a l : well_formed g -> walk_between g b a l -> forall j x, rwalk f64 (out_edges (combine (gedge g) (gweight g))) s (apart g) a j x ->
  rwalk f64 (out_edges (combine (gedge g) (gweight g))) s (apart g) b (j + (length l - 1)) (x + walk_length g l).
Proof.
  intros Wf. induction 1 as [|a c l Ha H IH]; intros j x R.
  - cbn [length walk_length Nat.sub]. rewrite Nat.add_0_r, Rplus_0_r. exact R.
  - destruct (adj_out g Wf _ _ Ha) as (w & Hw). destruct (wb_head _ _ _ _ H) as (r & ->).
    specialize (IH (S j) (x + apart g a c) (rwS _ _ _ _ _ _ _ _ _ R Hw)). rewrite walk_cons. cbn [length] in *.
    replace (j + (S (S (length r)) - 1))%nat with (S j + (S (length r) - 1))%nat by lia. rewrite <- Rplus_assoc. exact IH.
Qed.

Section S.
Variable g : graph.
Variable m : nat.
Notation nv := (length (gvert g)).
Notation OUT := (out_edges (combine (gedge g) (gweight g))).
Hypothesis wf : well_formed g.
Hypothesis tm : tame g.
Hypothesis dm : dimension g m.
Hypothesis m_small : (m <= 1000)%nat.
Hypothesis n_small : INR nv * (INR m + 4) <= 2 ^ 44.

Lemma vert_err a b v1 v2 w : nth_error (gvert g) a = Some v1 -> nth_error (gvert g) b = Some v2 -> vec_euclid F64 v1 v2 = Ok w ->
  Rabs (fval w - apart g a b) <= delta m * apart g a b + eta.
Proof.
  intros A B D. unfold apart. rewrite A, B. pose proof (nth_error_In _ _ A) as I1. pose proof (nth_error_In _ _ B) as I2.
  pose proof (dm _ I1) as D1. pose proof (dm _ I2) as D2. rewrite <- D1.
  apply euclid_err; [exact D| | |exact (eq_trans D1 (eq_sym D2))|exact (eq_ind_r (fun z => (z <= 1000)%nat) m_small D1)]; intros x Hx; [exact (coord_of g tm v1 x I1 Hx)|exact (coord_of g tm v2 x I2 Hx)].
Qed.
Lemma edge_err u v w : In (v, w) (OUT u) -> Rabs (fval w - apart g u v) <= delta m * apart g u v + eta.
Proof.
  assert (X : forall a b, In ((a, b), w) (combine (gedge g) (gweight g)) -> Rabs (fval w - apart g a b) <= delta m * apart g a b + eta).
  { intros a b H. apply combine_nth_In in H. destruct H as (k & H1 & H2). destruct wf as [_ Wf].
    destruct (Wf k a b H1) as (v1 & v2 & w' & A & B & C & D). rewrite H2 in C. injection C as <-. exact (vert_err a b v1 v2 w A B D). }
  intros H. apply out_In in H. destruct H as [H|H]; [exact (X _ _ H)|]. rewrite apart_sym. exact (X _ _ H).
Qed.
Lemma vdiff_ok (v1 v2 : list f64) : length v1 = length v2 -> exists ds, vdiff F64 v1 v2 = Ok ds.
Proof.
  revert v2. induction v1 as [|a v1 IH]; intros [|b v2] H; try discriminate H; cbn [vdiff]; [eauto|].
  destruct (IH v2) as (ds & Hd); [injection H; auto|]. rewrite Hd. cbn [obind]. eauto.
Qed.
Lemma heur t v : (v < nv)%nat -> (t < nv)%nat -> lvl 900 1 (heuristic g t v) /\ Rabs (fval (heuristic g t v) - apart g v t) <= delta m * apart g v t + eta.
Proof.
  intros Hv Ht. apply nth_error_Some in Hv, Ht. unfold heuristic.
  destruct (nth_error (gvert g) v) as [a|] eqn:A; [|congruence]. destruct (nth_error (gvert g) t) as [b|] eqn:B; [|congruence].
  pose proof (nth_error_In _ _ A) as I1. pose proof (nth_error_In _ _ B) as I2.
  destruct (vdiff_ok a b) as (ds & Hd); [rewrite (dm _ I1), (dm _ I2); auto|].
  destruct (vec_euclid F64 a b) as [d| |] eqn:D; try (unfold vec_euclid in D; rewrite Hd in D; discriminate D).
  split; [|exact (vert_err v t a b d A B D)].
  eapply euclid_lvl; [exact D| | |].
  - exact (proj1 (proj2 tm a I1)).
  - intros x Hx. exact (coord_of g tm a x I1 Hx).
  - intros x Hx. exact (coord_of g tm b x I2 Hx).
Qed.

Variable L : R.
Hypothesis L_pos : 0 <= L.
Definition bigM : R := 2 * L + 24 * (INR nv + 2) * eta.
Definition tau : R := 4 * delta m * bigM + 2 * eta.
Lemma eta_pos : 0 < eta. Proof. apply bpow_gt_0. Qed.
Lemma delta_small : (0 < nv)%nat -> uu <= delta m /\ 48 * (INR nv + 2) * delta m <= 1 /\ delta m <= / 100.
Proof.
  intros N. unfold delta. destruct uu_small as [U0 U1]. pose proof (pos_INR m) as M0. assert (N1 : 1 <= INR nv) by (change 1 with (INR 1); apply le_INR; lia).
  split; [nra|]. set (n := INR nv) in *. set (k := INR m) in *. clearbody n k.
  assert (Q : n * (k + 4) * uu <= / 2 ^ 9). { apply Rle_trans with (2 ^ 44 * / 2 ^ 53); [apply Rmult_le_compat; try lra; apply Rmult_le_pos; lra|]. right. field. }
  assert (B : 48 * (n + 2) * ((2 * k + 8) * uu) <= 1).
  { apply Rle_trans with (288 * (n * (k + 4) * uu)); [|lra]. replace (48 * (n + 2) * ((2 * k + 8) * uu)) with (96 * (n + 2) * ((k + 4) * uu)) by ring.
    replace (288 * (n * (k + 4) * uu)) with (96 * (3 * n) * ((k + 4) * uu)) by ring. apply Rmult_le_compat_r; [apply Rmult_le_pos; lra|lra]. }
  split; [exact B|]. assert (0 <= (2 * k + 8) * uu) by (apply Rmult_le_pos; lra). nra.
Qed.
Lemma near_err x e : (0 < nv)%nat -> Rabs (x - e) <= delta m * e + eta -> 0 <= x -> 0 <= e -> x <= 2 * bigM \/ e <= 2 * bigM -> Rabs (x - e) <= tau.
Proof.
  intros N H X0 E0 C. destruct (delta_small N) as (D0 & _ & D1). destruct uu_small as [U0 _]. pose proof eta_pos as H0.
  eapply Rle_trans; [exact H|]. apply absd in H. unfold tau.
  assert (e <= 2 * bigM + eta + delta m * e) by (destruct C; [lra|]; assert (0 <= delta m * e) by (apply Rmult_le_pos; lra); lra).
  assert (delta m * e <= / 100 * e) by (apply Rmult_le_compat_r; lra).
  assert (e <= 100 / 99 * (2 * bigM + eta)) by lra.
  assert (delta m * e <= delta m * (100 / 99 * (2 * bigM + eta))) by (apply Rmult_le_compat_l; lra).
  assert (delta m * eta <= / 100 * eta) by (apply Rmult_le_compat_r; lra).
  assert (0 <= bigM). { unfold bigM. pose proof (pos_INR nv). assert (0 <= 24 * (INR nv + 2) * eta) by (apply Rmult_le_pos; lra). lra. }
  assert (0 <= delta m * bigM) by (apply Rmult_le_pos; lra). lra.
Qed.
Lemma plus_facts k x w : (k < nv)%nat -> lvl 900 k x -> lvl 900 1 w -> Rabs (fval (closed_plus x w) - (fval x + fval w)) <= uu * (fval x + fval w).
Proof.
  intros Hk X Wt. destruct tm as [T _]. rewrite (plus_val 900 k) by (auto; lia). destruct (lvl_add 900 k x w) as [_ ->]; auto; [lia|lia|].
  destruct X as [Fx [X0 _]], Wt as [Fw [W0 _]]. eapply Rle_trans; [apply sum_err; apply fval_format; auto|]. rewrite (Rabs_pos_eq (fval x + fval w)) by lra. apply Rle_refl.
Qed.

Variable top : (nat -> f64) -> list nat -> nat.
Hypothesis top_ok : heap_ok fltb top.
Variables s t : nat.
Hypothesis Hs : (s < nv)%nat.
Hypothesis Ht : (t < nv)%nat.

Lemma loop_short fuel st : astar_loop f64 fltb closed_plus OUT (heuristic g t) top fuel t (astar_init f64 fdblmax fzero (heuristic g t) s) = Some (Some st) ->
  forall l l', fchain (a_pred st) s t l -> walk_between g t s l' -> NoDup l' -> walk_length g l' <= L -> chain_len (apart g) l <= walk_length g l' + 8 * tau * INR nv.
Proof.
  intros H l l' Hc Hw Hn HL. destruct L_0 as [G0 V0]. destruct (delta_small ltac:(lia)) as (D0 & D2 & D1). destruct uu_small as [U0 U1]. pose proof eta_pos as H0.
  pose proof (pos_INR nv) as N0. assert (Q : 0 <= 24 * (INR nv + 2) * eta) by (apply Rmult_le_pos; lra).
  assert (B0 : 0 <= bigM) by (unfold bigM; lra).
  assert (DB : 0 <= delta m * bigM) by (apply Rmult_le_pos; lra). assert (T0 : 0 <= tau) by (unfold tau; lra).
  assert (MB : L + 6 * tau * (INR nv + 2) <= bigM).
  { replace (6 * tau * (INR nv + 2)) with ((48 * (INR nv + 2) * delta m) * (bigM / 2) + 12 * (INR nv + 2) * eta) by (unfold tau; field).
    assert ((48 * (INR nv + 2) * delta m) * (bigM / 2) <= 1 * (bigM / 2)) by (apply Rmult_le_compat_r; lra). unfold bigM at 2. unfold bigM in H1 at 2. lra. }
  assert (Ti : forall c q, q <> [] -> In (top c q) q) by (intros c q N; apply top_ok; auto).
  assert (R : rwalk f64 OUT s (apart g) t (0 + (length l' - 1)) (0 + walk_length g l')) by (apply (rwalk_of g s t s l' wf Hw); constructor).
  rewrite Rplus_0_l in R. cbn [Nat.add] in R.
  assert (Ll : (length l' - 1 < nv)%nat).
  { assert ((length l' <= nv)%nat); [|lia]. rewrite <- (seq_length nv 0). apply NoDup_incl_length; auto. intros x Hx. apply in_seq. pose proof (wb_lt g t s l' wf Ht Hw x Hx). lia. }
  refine (astar_near f64 fltb closed_plus fdblmax fzero OUT (heuristic g t) top nv s t Ti fval (lvl 900) (lvl 900 1)
     G0 V0 L_S (L_plus g tm) (L_lt g) (L_inf g tm) (L_infl g tm) (L_mono g tm) L_down (fun k x H => proj1 (proj2 H)) (out_facts g wf tm) (out_sym g) Hs frank (L_rank g) (L_rank_inf g tm)
     (apart g) L bigM tau T0 MB Ht (apart_pos g) (fun a _ => apart_refl g a) (fun a b c => apart_tri g m a b c dm) (fun w H => proj1 (proj2 H)) (fun v Hv => proj1 (heur t v Hv Ht))
     _ _ _ _ (fun w H => H) _ _ fuel st H (length l' - 1) (walk_length g l') l Ll R HL Hc).
  - intros v Hv. destruct (heur t v Hv Ht) as [A B]. apply near_err; auto; [lia|exact (proj1 (proj2 A))|apply apart_pos].
  - intros u v w Hin. apply near_err; [lia|exact (edge_err u v w Hin)|exact (proj1 (proj2 (proj1 (out_facts g wf tm u v w Hin))))|apply apart_pos].
  - intros k x w Hk X Wt Hx. eapply Rle_trans; [exact (plus_facts k x w Hk X Wt)|]. destruct X as [_ [X0 _]], Wt as [_ [W0 _]].
    revert Hx X0 W0. generalize (fval x) (fval w). intros p q Hx X0 W0. clear - Hx X0 W0 U0 D0 DB H0 B0. unfold tau.
    assert (uu * (p + q) <= delta m * (2 * bigM)) by (apply Rmult_le_compat; lra). lra.
  - intros k x w Hk X Wt. pose proof (plus_facts k x w Hk X Wt) as P. destruct X as [_ [X0 _]], Wt as [_ [W0 _]].
    revert P X0 W0. generalize (fval x) (fval w) (fval (closed_plus x w)). intros p q r P X0 W0. clear - P X0 W0 U0 D0 D1. apply absd in P.
    assert (uu * (p + q) <= / 100 * (p + q)) by (apply Rmult_le_compat_r; lra). lra.
  - intros w Wt. rewrite (plus_val 900 0) by (auto; lia). destruct (lvl_add 900 0 fzero w) as [_ ->]; auto; [lia|lia|]. rewrite V0, Rplus_0_l. apply rnd64_fval. apply Wt.
  - intros c q x Hx. apply top_ok; [|auto]. intros ->. destruct Hx.
Qed.
End S.

Lemma chain_walk g l : chain_len (apart g) l = walk_length g l.
Proof. induction l as [|a l IH]; [auto|]. destruct l as [|b l]; [auto|]. rewrite walk_cons, chain_cons. rewrite IH, (apart_sym g b a). reflexivity. Qed.

Theorem near_shortest g m top s t fuel p : well_formed g -> tame g -> dimension g m -> (m <= 1000)%nat -> INR (length (gvert g)) * (INR m + 4) <= 2 ^ 44 ->
  heap_ok fltb top -> (s < length (gvert g))%nat -> (t < length (gvert g))%nat -> boost_astar top fuel g s t = Some (Some p) ->
  exists l, pred_chain g p s t l /\ forall l', walk_between g t s l' -> walk_length g l <= (1 + excess g m) * walk_length g l' + speck g.
Proof.
  intros Wf Tm Dm Hm Hn Hh Hs Ht H. assert (Ti : forall c q, q <> [] -> In (top c q) q) by (intros c q N; apply Hh; auto).
  destruct (boost_sound g Wf Tm top Ti s t Hs fuel p H) as (Lp & l & Pc & Ll). exists l. split; [exact Pc|]. intros l1 Hw1.
  destruct (simple_walk _ _ _ _ Hw1) as (l' & Hw & Nd & Hle).
  unfold boost_astar in H. destruct (astar_loop _ _ _ _ _ _ _ _ _) as [[st|]|] eqn:Lo; try discriminate H. injection H as <-.
  assert (Fc : fchain (a_pred st) s t l).
  { clear - Pc. induction Pc as [|x y l Hx Hy _ _ IH]; constructor; auto. assert (Lx : (x < length (gvert g))%nat) by (apply nth_error_lt in Hy; rewrite map_length, seq_length in Hy; auto).
    rewrite nth_error_map, (nth_error_nth' _ 0%nat) in Hy by (rewrite seq_length; auto). rewrite seq_nth in Hy by auto. cbn [option_map Nat.add] in Hy. injection Hy as ->. exact IH. }
  pose proof (loop_short g m Wf Tm Dm Hm Hn (walk_length g l') (walk_pos g l') top Hh s t Hs Ht fuel st Lo l l' Fc Hw Nd (Rle_refl _)) as Fin.
  rewrite chain_walk in Fin. eapply Rle_trans; [exact Fin|]. destruct (delta_small g m Hm Hn ltac:(lia)) as (_ & D2 & _).
  pose proof (walk_pos g l') as W0. pose proof (pos_INR (length (gvert g))) as N0. pose proof (pos_INR m) as M0. pose proof eta_pos as E0.
  assert (Ex : 0 <= excess g m). { unfold excess. apply Rmult_le_pos; [apply Rmult_le_pos; lra|]. left. apply Rinv_0_lt_compat. lra. }
  apply Rle_trans with ((1 + excess g m) * walk_length g l' + speck g); [|apply Rplus_le_compat_r, Rmult_le_compat_l; lra].
  unfold tau, bigM. set (n := INR (length (gvert g))) in *. set (w := walk_length g l') in *.
  assert (T : 8 * (4 * delta m * (2 * w + 24 * (n + 2) * eta) + 2 * eta) * n <= 64 * n * delta m * w + 32 * n * eta).
  { replace (8 * (4 * delta m * (2 * w + 24 * (n + 2) * eta) + 2 * eta) * n) with (64 * n * delta m * w + 16 * (48 * (n + 2) * delta m) * (n * eta) + 16 * (n * eta)) by ring.
    assert (16 * (48 * (n + 2) * delta m) * (n * eta) <= 16 * 1 * (n * eta)) by (apply Rmult_le_compat_r; [apply Rmult_le_pos; lra|lra]). lra. }
  assert (X1 : 64 * n * delta m = excess g m).
  { unfold excess, delta, uu. fold n. change (bpow radix2 (-53)) with (/ IZR (2 ^ 53)). change (IZR (2 ^ 53)) with (IZR (Zpower_pos 2 53)). change (Zpower_pos 2 53) with (2 ^ Z.of_nat 53)%Z. rewrite <- pow_IZR. field. }
  assert (X2 : 32 * n * eta <= speck g).
  { unfold speck. fold n. unfold Rdiv. replace (32 * n * eta) with (n * (32 * eta)) by ring. apply Rmult_le_compat_l; [lra|]. unfold eta. change 32 with (bpow radix2 5). rewrite <- bpow_plus.
    apply Rle_trans with (bpow radix2 (-500)); [apply bpow_le; lia|]. change (-500)%Z with (- (500))%Z. rewrite bpow_opp. apply Rinv_le_contravar; [apply pow_lt; lra|]. rewrite bpow_R by lia. rewrite pow_IZR. apply IZR_le. lia. }
  rewrite X1 in T. lra.
Qed.
