(** The sampled headings and sweep-line heights in binary64. *)
From Coq Require Import List Bool Arith Lia ZArith Reals Lra.
From Flocq Require Import Core.Core IEEE754.BinarySingleNaN.
From Flocq.Prop Require Import Relative.
From Verif.Base Require Import Outcome Float64 FloatFacts.
From Verif.Model Require Import MScalar MHRM2D.
Import ListNotations.
Local Open Scope R_scope.

Lemma fmul_val x y : fisfin x = true -> fisfin y = true -> Rabs (fval x * fval y) <= bpow radix2 1023 ->
  fisfin (fmul x y) = true /\ fval (fmul x y) = rnd64 (fval x * fval y).
Proof.
  intros Fx Fy B. pose proof (Bmult_correct 53 1024 Hprec53 Hemax1024 mode_NE x y) as H.
  rewrite (fval_finite x Fx), (fval_finite y Fy) in *.
  rewrite Rlt_bool_true in H.
  - destruct H as (H1 & H2 & _). fold (fmul x y) in *.
    assert (F : fisfin (fmul x y) = true) by (unfold fisfin in *; rewrite H2, Fx, Fy; auto).
    split; [auto|]. rewrite fval_finite by auto. exact H1.
  - apply Rle_lt_trans with (bpow radix2 1023); [|apply bpow_lt; lia].
    apply abs_round_le_generic; auto with typeclass_instances.
    apply generic_format_bpow. unfold SpecFloat.fexp, SpecFloat.emin. lia.
Qed.
Lemma fdiv_val x y : fisfin x = true -> fisfin y = true -> fval y <> 0 -> Rabs (fval x / fval y) <= bpow radix2 1023 ->
  fisfin (fdiv x y) = true /\ fval (fdiv x y) = rnd64 (fval x / fval y).
Proof.
  intros Fx Fy Hy B. rewrite (fval_finite y Fy) in *.
  pose proof (Bdiv_correct 53 1024 Hprec53 Hemax1024 mode_NE x y Hy) as H.
  rewrite (fval_finite x Fx) in *.
  rewrite Rlt_bool_true in H.
  - destruct H as (H1 & H2 & _). fold (fdiv x y) in *.
    assert (F : fisfin (fdiv x y) = true) by (unfold fisfin in *; rewrite H2; auto).
    split; [auto|]. rewrite fval_finite by auto. exact H1.
  - apply Rle_lt_trans with (bpow radix2 1023); [|apply bpow_lt; lia].
    apply abs_round_le_generic; auto with typeclass_instances.
    apply generic_format_bpow. unfold SpecFloat.fexp, SpecFloat.emin. lia.
Qed.
Lemma fsub_fin x y : fisfin x = true -> fisfin y = true -> Rabs (fval x - fval y) <= bpow radix2 1023 -> fisfin (fsub x y) = true.
Proof.
  intros Fx Fy B. pose proof (Bminus_correct 53 1024 Hprec53 Hemax1024 mode_NE x y Fx Fy) as H.
  rewrite (fval_finite x Fx), (fval_finite y Fy) in *. rewrite Rlt_bool_true in H; [exact (proj1 (proj2 H))|].
  apply Rle_lt_trans with (bpow radix2 1023); [|apply bpow_lt; lia].
  apply abs_round_le_generic; auto with typeclass_instances.
  apply generic_format_bpow. unfold SpecFloat.fexp, SpecFloat.emin. lia.
Qed.
Lemma fadd_fin x y : fisfin x = true -> fisfin y = true -> Rabs (fval x + fval y) <= bpow radix2 1023 -> fisfin (fadd x y) = true.
Proof.
  intros Fx Fy B. pose proof (Bplus_correct 53 1024 Hprec53 Hemax1024 mode_NE x y Fx Fy) as H.
  rewrite (fval_finite x Fx), (fval_finite y Fy) in *. rewrite Rlt_bool_true in H; [exact (proj1 (proj2 H))|].
  apply Rle_lt_trans with (bpow radix2 1023); [|apply bpow_lt; lia].
  apply abs_round_le_generic; auto with typeclass_instances.
  apply generic_format_bpow. unfold SpecFloat.fexp, SpecFloat.emin. lia.
Qed.
Lemma fneg_val x : fisfin x = true -> fisfin (fneg x) = true /\ fval (fneg x) = - fval x.
Proof.
  intros F. assert (F' : fisfin (fneg x) = true) by (unfold fisfin, fneg in *; rewrite is_finite_Bopp; auto).
  split; [auto|]. rewrite !fval_finite by auto. apply B2R_Bopp.
Qed.
Lemma rnd64_0 : rnd64 0 = 0.
Proof. apply round_0; auto with typeclass_instances. Qed.
Lemma fofnat_spec n : (Z.of_nat n <= 2 ^ 53)%Z -> fval (fofnat n) = INR n /\ fisfin (fofnat n) = true.
Proof. intros H. unfold fofnat. destruct (fofZ_spec (Z.of_nat n) ltac:(lia)) as [-> ->]. split; [symmetry; apply INR_IZR_INZ|auto]. Qed.
(** n - 1 is exact. *)
Lemma pred_spec n : (2 <= n)%nat -> (Z.of_nat n <= 2 ^ 53)%Z ->
  fval (fsub (fofnat n) fone) = INR n - 1 /\ fisfin (fsub (fofnat n) fone) = true.
Proof.
  intros H1 H2. destruct (fofnat_spec n H2) as [V F]. destruct (fofZ_spec 1 ltac:(lia)) as [V1 F1]. fold fone in *.
  assert (E : fval (fofnat n) - fval fone = IZR (Z.of_nat n - 1)).
  { rewrite V, V1, minus_IZR, <- INR_IZR_INZ. reflexivity. }
  assert (Fs : fisfin (fsub (fofnat n) fone) = true).
  { apply fsub_fin; auto. rewrite E, <- abs_IZR. apply Rle_trans with (IZR (2 ^ 53)).
    - apply IZR_le. lia.
    - replace (IZR (2 ^ 53)) with (bpow radix2 53) by reflexivity. apply bpow_le. lia. }
  split; [|auto]. rewrite fsub_val by auto. rewrite E.
  destruct (fofZ_spec (Z.of_nat n - 1) ltac:(lia)) as [V2 F2]. rewrite <- V2, rnd64_fval by auto. rewrite V2, minus_IZR, <- INR_IZR_INZ. reflexivity.
Qed.

Lemma c2pi_facts : fisfin (fmul ftwo cPI) = true /\ fisfin cPI = true /\ 6 <= fval (fmul ftwo cPI) <= 7 /\ 3 <= fval cPI <= 4 /\
  fval (fmul ftwo cPI) = 2 * fval cPI.
Proof.
  assert (A : fisfin (fmul ftwo cPI) = true) by (vm_compute; reflexivity).
  assert (B : fisfin cPI = true) by (vm_compute; reflexivity).
  assert (C : fleb (fofZ 3) cPI = true) by (vm_compute; reflexivity).
  assert (C' : fleb cPI (fofZ 3 ) = false) by (vm_compute; reflexivity).
  assert (D : fleb cPI (fdiv (fofZ 7) (fofZ 2)) = true) by (vm_compute; reflexivity).
  assert (D2 : fisfin (fdiv (fofZ 7) (fofZ 2)) = true) by (vm_compute; reflexivity).
  apply fleb_val in C; [|apply fofZ_nan; lia|apply finite_not_nan; auto].
  apply fleb_val in D; [|apply finite_not_nan; auto|apply finite_not_nan; auto].
  rewrite fofZ_val in C by lia.
  destruct (fofZ_spec 7 ltac:(lia)) as [V7 F7]. destruct (fhalf_spec (fofZ 7) F7) as [_ V72]. unfold ftwo in V72. rewrite V72, V7 in D.
  assert (G : rnd64 (7 / 2) <= 7 / 2).
  { rewrite round_generic; auto with typeclass_instances; [lra|]. apply (generic_format_FLT radix2 (-1074) 53).
    exists (Float radix2 7 (-1)); cbn [Fnum Fexp]; [unfold F2R; cbn; lra|cbn; lia|lia]. }
  destruct (fofZ_spec 2 ltac:(lia)) as [V2 F2]. fold ftwo in *.
  destruct (fmul_val ftwo cPI F2 B) as [_ V].
  { rewrite V2. rewrite Rabs_pos_eq by lra. apply Rle_trans with (bpow radix2 4); [change (bpow radix2 4) with 16; lra|apply bpow_le; lia]. }
  rewrite V2 in V. rewrite round_generic in V; auto with typeclass_instances; [|apply format_double, fval_format; auto].
  rewrite V. repeat split; auto; lra.
Qed.

Lemma rnd_err x : exists eps eta, Rabs eps <= bpow radix2 (-53) /\ Rabs eta <= bpow radix2 (-1075) /\ rnd64 x = x * (1 + eps) + eta.
Proof.
  destruct (error_N_FLT radix2 (-1074) 53 eq_refl (fun z => negb (Z.even z)) x) as (eps & eta & H1 & H2 & _ & H4).
  exists eps, eta. split; [|split].
  - eapply Rle_trans; [exact H1|]. change (- (53) + 1)%Z with (-52)%Z. change (-53)%Z with (-1 + -52)%Z.
    rewrite bpow_plus. change (bpow radix2 (-1)) with (/ 2). apply Rle_refl.
  - eapply Rle_trans; [exact H2|]. change (-1075)%Z with (-1 + -1074)%Z. rewrite bpow_plus.
    change (bpow radix2 (-1)) with (/ 2). apply Rle_refl.
  - exact H4.
Qed.
Lemma rnd_err_abs x M : Rabs x <= M -> Rabs (rnd64 x - x) <= M * bpow radix2 (-53) + bpow radix2 (-1075).
Proof.
  intros Hx. destruct (rnd_err x) as (eps & eta & H1 & H2 & ->).
  replace (x * (1 + eps) + eta - x) with (x * eps + eta) by ring.
  eapply Rle_trans; [apply Rabs_triang|]. rewrite Rabs_mult.
  assert (Rabs x * Rabs eps <= M * bpow radix2 (-53)); [|lra].
  apply Rmult_le_compat; auto; apply Rabs_pos.
Qed.

(** b + fl(i * d), as in both sampling formulas. *)
Lemma bpow_R n : (0 <= n)%Z -> bpow radix2 n = IZR (2 ^ n).
Proof. intros H. rewrite <- (IZR_Zpower radix2) by auto. reflexivity. Qed.
Lemma rnd_between x lo hi : generic_format radix2 fexp64 lo -> generic_format radix2 fexp64 hi -> lo <= x <= hi -> lo <= rnd64 x <= hi.
Proof.
  intros Gl Gh [H1 H2]. split.
  - rewrite <- (round_generic radix2 fexp64 ZnearestE lo Gl). apply rnd64_le; auto.
  - rewrite <- (round_generic radix2 fexp64 ZnearestE hi Gh). apply rnd64_le; auto.
Qed.
Lemma bpow_format k : (-1074 <= k)%Z -> generic_format radix2 fexp64 (bpow radix2 k).
Proof. intros H. apply generic_format_bpow. unfold SpecFloat.fexp, SpecFloat.emin. lia. Qed.
Lemma spaced b d i : fisfin b = true -> fisfin d = true -> 0 <= fval d <= bpow radix2 900 -> Rabs (fval b) <= bpow radix2 960 ->
  (Z.of_nat i <= 2 ^ 53)%Z ->
  forall m, m = fmul (fofnat i) d \/ m = fmul d (fofnat i) ->
  fisfin (fadd b m) = true /\ fval (fadd b m) = rnd64 (fval b + rnd64 (INR i * fval d)).
Proof.
  intros Fb Fd [D0 D1] B Hi m Hm. destruct (fofnat_spec i Hi) as [Vi Fi].
  assert (Ib : 0 <= INR i <= bpow radix2 53).
  { split; [apply pos_INR|]. rewrite INR_IZR_INZ, bpow_R by lia. apply IZR_le; auto. }
  assert (P : 0 <= INR i * fval d <= bpow radix2 953).
  { split; [apply Rmult_le_pos; lra|]. change 953%Z with (53 + 900)%Z. rewrite bpow_plus. apply Rmult_le_compat; lra. }
  assert (M : fisfin m = true /\ fval m = rnd64 (INR i * fval d)).
  { assert (Bd : bpow radix2 953 <= bpow radix2 1023) by (apply bpow_le; lia).
    destruct Hm as [->| ->].
    - rewrite <- Vi in *. apply fmul_val; auto. rewrite Rabs_pos_eq; lra.
    - rewrite <- Vi in *. rewrite (Rmult_comm (fval (fofnat i)) (fval d)) in *. apply fmul_val; auto. rewrite Rabs_pos_eq; lra. }
  destruct M as [Fm Vm].
  assert (Mb : 0 <= fval m <= bpow radix2 953).
  { rewrite Vm. apply rnd_between; [apply generic_format_0|apply bpow_format; lia|auto]. }
  assert (F : fisfin (fadd b m) = true).
  { apply fadd_fin; auto. eapply Rle_trans; [apply Rabs_triang|]. rewrite (Rabs_pos_eq (fval m)) by lra.
    apply Rle_trans with (bpow radix2 960 + bpow radix2 960).
    - apply Rplus_le_compat; auto. apply Rle_trans with (bpow radix2 953); [lra|apply bpow_le; lia].
    - apply Rle_trans with (bpow radix2 961); [change 961%Z with (1 + 960)%Z; rewrite (bpow_plus _ 1 960); change (bpow radix2 1) with 2; lra|apply bpow_le; lia]. }
  split; [auto|]. rewrite fadd_val by auto. rewrite Vm. reflexivity.
Qed.

Section Headings.
Variable E : env.
Notation n := (e_numSlice E).

Lemma heading_one : n = 1%nat -> fisnan (heading E 0) = true.
Proof.
  intros H. unfold heading. rewrite H.
  assert (X : fisnan (fadd (fneg cPI) (fmul (fdiv (fmul ftwo cPI) (fsub (fofnat 1) fone)) (fofnat 0))) = true) by (vm_compute; reflexivity).
  exact X.
Qed.

Definition h_step : f64 := fdiv (fmul ftwo cPI) (fsub (fofnat n) fone).
Lemma h_step_spec : (2 <= n)%nat -> (Z.of_nat n <= 2 ^ 53)%Z ->
  fisfin h_step = true /\ fval h_step = rnd64 (2 * fval cPI / (INR n - 1)) /\ 0 <= fval h_step <= 7.
Proof.
  intros H1 H2. destruct (pred_spec n H1 H2) as [Vp Fp]. destruct c2pi_facts as (F2 & Fpi & B2 & Bpi & E2).
  assert (Hn : 1 <= INR n - 1). { apply le_INR in H1. cbn [INR] in H1. lra. }
  assert (Q : 0 <= 2 * fval cPI / (INR n - 1) <= 7).
  { split; [apply Rmult_le_pos; [lra|left; apply Rinv_0_lt_compat; lra]|].
    apply Rle_trans with (2 * fval cPI * / 1); [|rewrite Rinv_1; lra].
    apply Rmult_le_compat_l; [lra|]. apply Rinv_le_contravar; lra. }
  destruct (fdiv_val (fmul ftwo cPI) (fsub (fofnat n) fone) F2 Fp) as [F V].
  { rewrite Vp. lra. }
  { rewrite Vp, E2, Rabs_pos_eq by lra. apply Rle_trans with (bpow radix2 3); [change (bpow radix2 3) with 8; lra|apply bpow_le; lia]. }
  fold h_step in F, V. rewrite Vp, E2 in V. split; [auto|]. split; [auto|]. rewrite V. split.
  - rewrite <- rnd64_0. apply rnd64_le. lra.
  - destruct (fofZ_spec 7 ltac:(lia)) as [V7 F7]. rewrite <- V7, <- (rnd64_fval (fofZ 7) F7). apply rnd64_le. rewrite V7. lra.
Qed.

Lemma heading_spec i : (2 <= n)%nat -> (Z.of_nat n <= 2 ^ 53)%Z -> (i < n)%nat ->
  fisfin (heading E i) = true /\ fval (heading E i) = rnd64 (- fval cPI + rnd64 (INR i * fval (h_step))).
Proof.
  intros H1 H2 Hi. destruct (h_step_spec H1 H2) as (Fs & _ & B). destruct c2pi_facts as (_ & Fpi & _ & Bpi & _).
  destruct (fneg_val cPI Fpi) as [Fn Vn].
  rewrite <- Vn. unfold heading. fold h_step. apply spaced; auto; try lia.
  - split; [lra|]. apply Rle_trans with (bpow radix2 3); [change (bpow radix2 3) with 8; lra|apply bpow_le; lia].
  - rewrite Vn, Rabs_Ropp, Rabs_pos_eq by lra. apply Rle_trans with (bpow radix2 3); [change (bpow radix2 3) with 8; lra|apply bpow_le; lia].
Qed.
Lemma heading_first : (2 <= n)%nat -> (Z.of_nat n <= 2 ^ 53)%Z -> fval (heading E 0) = - fval cPI.
Proof.
  intros H1 H2. destruct (heading_spec 0 H1 H2 ltac:(lia)) as [_ ->]. cbn [INR]. rewrite Rmult_0_l, rnd64_0, Rplus_0_r.
  destruct c2pi_facts as (_ & Fpi & _). destruct (fneg_val cPI Fpi) as [Fn <-]. apply rnd64_fval; auto.
Qed.
Lemma heading_mono i j : (2 <= n)%nat -> (Z.of_nat n <= 2 ^ 53)%Z -> (i <= j < n)%nat -> fval (heading E i) <= fval (heading E j).
Proof.
  intros H1 H2 Hij. destruct (heading_spec i H1 H2 ltac:(lia)) as [_ ->]. destruct (heading_spec j H1 H2 ltac:(lia)) as [_ ->].
  destruct (h_step_spec H1 H2) as (_ & _ & B). apply rnd64_le. apply Rplus_le_compat_l. apply rnd64_le.
  apply Rmult_le_compat_r; [lra|]. apply le_INR. lia.
Qed.
(** Equally spaced from -PI to PI up to rounding. *)
Lemma heading_error i : (2 <= n)%nat -> (Z.of_nat n <= 2 ^ 53)%Z -> (i < n)%nat ->
  Rabs (fval (heading E i) - (- fval cPI + 2 * fval cPI * INR i / (INR n - 1))) <= bpow radix2 (-48).
Proof.
  intros H1 H2 Hi. destruct (heading_spec i H1 H2 Hi) as [_ ->]. destruct (h_step_spec H1 H2) as (_ & Vs & _). rewrite Vs.
  destruct c2pi_facts as (_ & _ & _ & Bpi & E2). set (P := fval cPI) in *.
  assert (Hn : 1 <= INR n - 1). { apply le_INR in H1. cbn [INR] in H1. lra. }
  assert (Hi' : 0 <= INR i <= INR n - 1).
  { split; [apply pos_INR|]. replace (INR n - 1) with (INR (n - 1)); [apply le_INR; lia|]. rewrite minus_INR by lia. cbn [INR]. lra. }
  set (k := INR n - 1) in *. set (x := INR i) in *.
  assert (Kb : k <= bpow radix2 53).
  { unfold k. rewrite INR_IZR_INZ, bpow_R by lia. apply IZR_le in H2. lra. }
  (* the exact quotient and its rounding *)
  set (q := 2 * P / k).
  assert (Q : 0 <= q <= 8 / k).
  { unfold q, Rdiv. pose proof (Rinv_0_lt_compat k ltac:(lra)). split; [apply Rmult_le_pos; lra|apply Rmult_le_compat_r; lra]. }
  assert (Eq1 : Rabs (x * rnd64 q - x * q) <= bpow radix2 (-50) + bpow radix2 (-1022)).
  { rewrite <- Rmult_minus_distr_l, Rabs_mult, (Rabs_pos_eq x) by lra.
    pose proof (rnd_err_abs q (8 / k) ltac:(rewrite Rabs_pos_eq; lra)) as R.
    apply Rle_trans with (k * (8 / k * bpow radix2 (-53) + bpow radix2 (-1075))).
    - apply Rmult_le_compat; try lra; apply Rabs_pos.
    - replace (k * (8 / k * bpow radix2 (-53) + bpow radix2 (-1075))) with (8 * bpow radix2 (-53) + k * bpow radix2 (-1075)) by (field; lra).
      apply Rplus_le_compat.
      + change 8 with (bpow radix2 3). rewrite <- bpow_plus. apply bpow_le. lia.
      + change (-1022)%Z with (53 + -1075)%Z. rewrite bpow_plus. apply Rmult_le_compat_r; [apply bpow_ge_0|auto]. }
  assert (Xq : 0 <= x * q <= 8).
  { split; [apply Rmult_le_pos; lra|]. apply Rle_trans with (k * (8 / k)); [apply Rmult_le_compat; lra|]. right. field. lra. }
  assert (T : forall a b, (a <= b)%Z -> bpow radix2 a <= bpow radix2 b) by (intros; apply bpow_le; auto).
  assert (D1 : bpow radix2 (-49) = 2 * bpow radix2 (-50)) by (change (-49)%Z with (1 + -50)%Z; rewrite bpow_plus; reflexivity).
  assert (D2 : bpow radix2 (-48) = 2 * bpow radix2 (-49)) by (change (-48)%Z with (1 + -49)%Z; rewrite bpow_plus; reflexivity).
  assert (D3 : bpow radix2 (-50) = 2 * bpow radix2 (-51)) by (change (-50)%Z with (1 + -51)%Z; rewrite bpow_plus; reflexivity).
  assert (D4 : bpow radix2 (-51) = 2 * bpow radix2 (-52)) by (change (-51)%Z with (1 + -52)%Z; rewrite bpow_plus; reflexivity).
  assert (D5 : bpow radix2 (-52) = 2 * bpow radix2 (-53)) by (change (-52)%Z with (1 + -53)%Z; rewrite bpow_plus; reflexivity).
  assert (D6 : bpow radix2 (-53) = 2 * bpow radix2 (-54)) by (change (-53)%Z with (1 + -54)%Z; rewrite bpow_plus; reflexivity).
  pose proof (T (-1022) (-54) ltac:(lia))%Z as T1. pose proof (T (-1075) (-54) ltac:(lia))%Z as T2.
  pose proof (bpow_gt_0 radix2 (-54)) as T0.
  assert (T3 : bpow radix2 (-54) <= / 1024) by (apply (T (-54) (-10))%Z; lia).
  assert (Xr : Rabs (x * rnd64 q) <= 9).
  { replace (x * rnd64 q) with (x * q + (x * rnd64 q - x * q)) by ring. eapply Rle_trans; [apply Rabs_triang|].
    rewrite (Rabs_pos_eq (x * q)) by lra. lra. }
  pose proof (rnd_err_abs (x * rnd64 q) 9 Xr) as E3.
  set (m := rnd64 (x * rnd64 q)) in *.
  assert (Mb : Rabs (m - x * q) <= 18 * bpow radix2 (-53)).
  { replace (m - x * q) with ((m - x * rnd64 q) + (x * rnd64 q - x * q)) by ring. eapply Rle_trans; [apply Rabs_triang|]. lra. }
  apply Rabs_le_inv in Mb.
  assert (S : Rabs (- P + m) <= 5).
  { apply Rabs_le. assert (0 <= x * q <= 2 * P); [|lra]. split; [lra|]. unfold q.
    replace (x * (2 * P / k)) with (2 * P * (x / k)) by (field; lra).
    rewrite <- (Rmult_1_r (2 * P)) at 2. apply Rmult_le_compat_l; [lra|]. apply Rmult_le_reg_r with k; [lra|].
    unfold Rdiv. rewrite Rmult_assoc, Rinv_l by lra. lra. }
  pose proof (rnd_err_abs (- P + m) 5 S) as E4. apply Rabs_le_inv in E4.
  replace (2 * P * x / k) with (x * q) by (unfold q; field; lra).
  apply Rabs_le. lra.
Qed.
End Headings.

(** Sweep-line heights. *)
Lemma fnan_add x : fisnan (fadd x fnan) = true.
Proof. destruct x as [| | |]; reflexivity. Qed.
Lemma fmul_nan x : fisnan (fmul x fnan) = true.
Proof. destruct x as [| | |]; reflexivity. Qed.
Lemma sweep_one l2 l3 : exists y, sweep_heights 1 l2 l3 = [y] /\ fisnan y = true.
Proof.
  unfold sweep_heights. cbn [seq map]. eexists. split; [reflexivity|].
  assert (Z : fsub (fofnat 1) fone = B754_zero false) by (apply fsame_eq; vm_compute; reflexivity). rewrite Z.
  assert (Z0 : fofnat 0 = B754_zero false) by (apply fsame_eq; vm_compute; reflexivity). rewrite Z0.
  generalize (fsub l3 l2). intros x. destruct x as [s|s| |s m e H]; cbn [fdiv Bdiv fmul Bmult];
    destruct l2 as [s'|s'| |s' m' e' H']; reflexivity.
Qed.

Lemma sweep_nth k l2 l3 i : (i < k)%nat -> nth_error (sweep_heights k l2 l3) i =
  Some (fadd l2 (fmul (fofnat i) (fdiv (fsub l3 l2) (fsub (fofnat k) fone)))).
Proof.
  intros H. unfold sweep_heights. rewrite nth_error_map. rewrite (nth_error_nth' _ 0%nat) by (rewrite seq_length; auto).
  rewrite seq_nth by auto. reflexivity.
Qed.
Lemma sweep_spec k l2 l3 : (2 <= k)%nat -> (Z.of_nat k <= 2 ^ 53)%Z -> fisfin l2 = true -> fisfin l3 = true ->
  Rabs (fval l2) <= bpow radix2 898 -> Rabs (fval l3) <= bpow radix2 898 -> fval l2 <= fval l3 ->
  exists d, d = rnd64 (rnd64 (fval l3 - fval l2) / (INR k - 1)) /\ 0 <= d /\
  forall i y, nth_error (sweep_heights k l2 l3) i = Some y ->
    fisfin y = true /\ fval y = rnd64 (fval l2 + rnd64 (INR i * d)).
Proof.
  intros H1 H2 F2 F3 B2 B3 Hle. destruct (pred_spec k H1 H2) as [Vp Fp].
  assert (Hn : 1 <= INR k - 1). { apply le_INR in H1. cbn [INR] in H1. lra. }
  apply Rabs_le_inv in B2. apply Rabs_le_inv in B3.
  assert (D9 : bpow radix2 899 = 2 * bpow radix2 898) by (change 899%Z with (1 + 898)%Z; rewrite bpow_plus; reflexivity).
  assert (S : 0 <= fval l3 - fval l2 <= bpow radix2 899) by lra.
  assert (Fs : fisfin (fsub l3 l2) = true).
  { apply fsub_fin; auto. rewrite Rabs_pos_eq by lra. apply Rle_trans with (bpow radix2 899); [lra|apply bpow_le; lia]. }
  pose proof (fsub_val _ _ Fs) as Vs.
  pose proof (rnd_between _ 0 (bpow radix2 899) ltac:(apply generic_format_0) ltac:(apply bpow_format; lia) S) as Sr. rewrite <- Vs in Sr.
  set (w := fsub l3 l2) in *.
  assert (Q : 0 <= fval w / (INR k - 1) <= bpow radix2 899).
  { split; [apply Rmult_le_pos; [lra|left; apply Rinv_0_lt_compat; lra]|].
    apply Rle_trans with (fval w * / 1); [|rewrite Rinv_1; lra]. apply Rmult_le_compat_l; [lra|]. apply Rinv_le_contravar; lra. }
  destruct (fdiv_val w (fsub (fofnat k) fone) Fs Fp) as [Fd Vd]; rewrite Vp in *.
  { lra. } { rewrite Rabs_pos_eq by lra. apply Rle_trans with (bpow radix2 899); [lra|apply bpow_le; lia]. }
  pose proof (rnd_between _ 0 (bpow radix2 899) ltac:(apply generic_format_0) ltac:(apply bpow_format; lia) Q) as Qr. rewrite <- Vd in Qr.
  exists (fval (fdiv w (fsub (fofnat k) fone))). split; [rewrite Vd, Vs; auto|]. split; [lra|].
  intros i y Hy. assert (Hi : (i < k)%nat).
  { assert (nth_error (sweep_heights k l2 l3) i <> None) as X by congruence. apply nth_error_Some in X. unfold sweep_heights in X.
    rewrite map_length, seq_length in X. auto. }
  rewrite sweep_nth in Hy by auto. injection Hy as <-. apply spaced; auto; try lia.
  - split; [lra|]. apply Rle_trans with (bpow radix2 899); [lra|apply bpow_le; lia].
  - apply Rabs_le. assert (bpow radix2 898 <= bpow radix2 960) by (apply bpow_le; lia). lra.
Qed.
