(** Facts about binary64 arithmetic: exact small integers, rounding bounds. *)
From Coq Require Import ZArith Reals List Lia Lra Bool.
From Flocq Require Import Core.Core IEEE754.BinarySingleNaN.
From Verif.Base Require Import Float64.
Local Open Scope R_scope.

Notation fexp64 := (SpecFloat.fexp 53 1024).
Notation rnd64 := (round radix2 (SpecFloat.fexp 53 1024) ZnearestE).

Lemma fexp64_FLT : forall e, fexp64 e = FLT_exp (-1074) 53 e.
Proof. intros; reflexivity. Qed.

Lemma valid_fexp64 : Valid_exp fexp64.
Proof. apply (fexp_correct 53 1024 Hprec53). Qed.
#[global] Existing Instance valid_fexp64.

Lemma fofZ_spec z : (Z.abs z <= 2 ^ 53)%Z -> fval (fofZ z) = IZR z /\ fisfin (fofZ z) = true.
Proof.
  intros Hz. unfold fofZ.
  pose proof (binary_normalize_correct 53 1024 Hprec53 Hemax1024 mode_NE z 0 false) as H.
  cbv zeta in H.
  assert (Hx : F2R (Float radix2 z 0) = IZR z).
  { unfold F2R; simpl. ring. }
  assert (Hg : generic_format radix2 fexp64 (IZR z)).
  { rewrite <- Hx. apply (generic_format_FLT radix2 (-1074) 53).
    destruct (Z.eq_dec (Z.abs z) (2 ^ 53)) as [E|E].
    - destruct (Z.abs_eq_or_opp z) as [E'|E'].
      + exists (Float radix2 (2^52) 1); simpl; [|lia|lia].
        unfold F2R; simpl. replace z with (2^53)%Z by lia. simpl. lra.
      + exists (Float radix2 (-2^52) 1); simpl; [|lia|lia].
        unfold F2R; simpl. replace z with (-2^53)%Z by lia. simpl. lra.
    - exists (Float radix2 z 0); [reflexivity|simpl in *; lia|simpl; lia]. }
  change (F2R {| Fnum := z; Fexp := 0 |}) with (F2R (Float radix2 z 0)) in H.
  rewrite Hx in H.
  rewrite round_generic in H; auto with typeclass_instances.
  rewrite Rlt_bool_true in H.
  - destruct H as (H1 & H2 & _). split; [rewrite fval_finite by exact H2; exact H1|exact H2].
  - rewrite <- abs_IZR. apply Rle_lt_trans with (IZR (2 ^ 53)).
    + apply IZR_le; auto.
    + replace (IZR (2 ^ 53)) with (bpow radix2 53) by reflexivity.
      apply bpow_lt; lia.
Qed.

Lemma fofZ_val z : (Z.abs z <= 2 ^ 53)%Z -> fval (fofZ z) = IZR z.
Proof. intros H; apply fofZ_spec; auto. Qed.
Lemma fofZ_fin z : (Z.abs z <= 2 ^ 53)%Z -> fisfin (fofZ z) = true.
Proof. intros H; apply fofZ_spec; auto. Qed.
Lemma fofZ_nan z : (Z.abs z <= 2 ^ 53)%Z -> fisnan (fofZ z) = false.
Proof. intros H; apply finite_not_nan, fofZ_fin; auto. Qed.

(** -- finite results are rounded results -- *)
Lemma sf_overflow_not_finite (z : f64) s :
  B2SF z = binary_overflow 53 1024 mode_NE s -> fisfin z = false.
Proof. intros H. destruct z; simpl in H; try discriminate; reflexivity. Qed.

Lemma fadd_fin_args x y : fisfin (fadd x y) = true -> fisfin x = true /\ fisfin y = true.
Proof.
  destruct x as [s|s| |s m e H], y as [s'|s'| |s' m' e' H']; simpl; try discriminate; auto;
   try (destruct (Bool.eqb s s'); discriminate).
Qed.
Lemma fadd_val x y : fisfin (fadd x y) = true -> fval (fadd x y) = rnd64 (fval x + fval y).
Proof.
  intros F. destruct (fadd_fin_args x y F) as [Fx Fy].
  pose proof (Bplus_correct 53 1024 Hprec53 Hemax1024 mode_NE x y Fx Fy) as H.
  destruct (Rlt_bool_spec (Rabs (round radix2 fexp64 (round_mode mode_NE) (B2R x + B2R y))) (bpow radix2 1024)).
  - destruct H as (H1 & _). rewrite !fval_finite by auto. exact H1.
  - destruct H as (H1 & _). change (B2SF (fadd x y) = binary_overflow 53 1024 mode_NE (Bsign x)) in H1.
    apply sf_overflow_not_finite in H1. rewrite H1 in F. discriminate.
Qed.
Lemma fsub_fin_args x y : fisfin (fsub x y) = true -> fisfin x = true /\ fisfin y = true.
Proof.
  destruct x as [s|s| |s m e H], y as [s'|s'| |s' m' e' H']; simpl; try discriminate; auto;
   try (destruct (Bool.eqb s (negb s')); discriminate).
Qed.
Lemma fsub_val x y : fisfin (fsub x y) = true -> fval (fsub x y) = rnd64 (fval x - fval y).
Proof.
  intros F. destruct (fsub_fin_args x y F) as [Fx Fy].
  pose proof (Bminus_correct 53 1024 Hprec53 Hemax1024 mode_NE x y Fx Fy) as H.
  destruct (Rlt_bool_spec (Rabs (round radix2 fexp64 (round_mode mode_NE) (B2R x - B2R y))) (bpow radix2 1024)).
  - destruct H as (H1 & _). rewrite !fval_finite by auto. exact H1.
  - destruct H as (H1 & _). change (B2SF (fsub x y) = binary_overflow 53 1024 mode_NE (Bsign x)) in H1.
    apply sf_overflow_not_finite in H1. rewrite H1 in F. discriminate.
Qed.

Lemma fval_format x : fisfin x = true -> generic_format radix2 fexp64 (fval x).
Proof. intros H. rewrite fval_finite by auto. apply (generic_format_B2R 53 1024). Qed.
Lemma rnd64_fval x : fisfin x = true -> rnd64 (fval x) = fval x.
Proof. intros H. apply round_generic; auto with typeclass_instances. apply fval_format; auto. Qed.
Lemma rnd64_le a b : a <= b -> rnd64 a <= rnd64 b.
Proof. apply round_le; auto with typeclass_instances. Qed.

Lemma format_double a : generic_format radix2 fexp64 a -> generic_format radix2 fexp64 (2 * a).
Proof.
  intros H. apply (generic_format_FLT radix2 (-1074) 53).
  apply (FLT_format_generic radix2 (-1074) 53) in H. destruct H as [f Hf H1 H2].
  exists (Float radix2 (Fnum f) (Fexp f + 1)); simpl; auto; [|lia].
  rewrite Hf. unfold F2R; simpl Fnum; simpl Fexp. rewrite bpow_plus. simpl (bpow radix2 1). lra.
Qed.

Lemma fhalf_spec x : fisfin x = true ->
  fisfin (fdiv x ftwo) = true /\ fval (fdiv x ftwo) = rnd64 (fval x / 2).
Proof.
  intros F.
  destruct (fofZ_spec 2 ltac:(simpl; lia)) as [V2 F2].
  fold ftwo in *. assert (B2 : B2R ftwo = 2) by (rewrite <- fval_finite; auto).
  pose proof (Bdiv_correct 53 1024 Hprec53 Hemax1024 mode_NE x ftwo ltac:(rewrite B2; lra)) as H.
  rewrite B2 in H. rewrite Rlt_bool_true in H.
  - destruct H as (H1 & H2 & _). fold (fdiv x ftwo) in *. split; [unfold fisfin in *; congruence|].
    rewrite !fval_finite; auto. unfold fisfin in *; congruence.
  - apply Rle_lt_trans with (Rabs (fval x)); [|apply fval_bound; auto].
    rewrite <- (fval_finite x F).
    apply abs_round_le_generic; auto with typeclass_instances.
    + apply generic_format_abs, fval_format; auto.
    + unfold Rdiv. rewrite Rabs_mult. rewrite (Rabs_pos_eq (/ 2)) by lra. pose proof (Rabs_pos (fval x)). lra.
Qed.

(** (s + e) / 2 lies between s and e unless the sum overflows. *)
Lemma mid_between s e : fisfin (fadd s e) = true -> fval s <= fval e ->
  fisfin (fdiv (fadd s e) ftwo) = true /\
  fval s <= fval (fdiv (fadd s e) ftwo) <= fval e.
Proof.
  intros F Hle. destruct (fadd_fin_args s e F) as [Fs Fe].
  destruct (fhalf_spec _ F) as [F2 V2]. split; auto. rewrite V2.
  rewrite (fadd_val s e F).
  pose proof (fval_format s Fs) as Gs. pose proof (fval_format e Fe) as Ge.
  assert (H1 : 2 * fval s <= rnd64 (fval s + fval e)).
  { rewrite <- (round_generic radix2 fexp64 ZnearestE (2 * fval s)) by (apply format_double; auto).
    apply rnd64_le. lra. }
  assert (H2 : rnd64 (fval s + fval e) <= 2 * fval e).
  { rewrite <- (round_generic radix2 fexp64 ZnearestE (2 * fval e)) by (apply format_double; auto).
    apply rnd64_le. lra. }
  split.
  - rewrite <- (rnd64_fval s Fs) at 1. apply rnd64_le. lra.
  - rewrite <- (rnd64_fval e Fe) at 2. apply rnd64_le. lra.
Qed.

Lemma fin_of_bound x : fisnan x = false -> Rabs (fval x) < bpow radix2 1024 -> fisfin x = true.
Proof.
  assert (P : 0 <= bpow radix2 1024) by apply bpow_ge_0.
  destruct x as [s|[]| |s m e H]; unfold fval; auto; try discriminate; intros _ H'; exfalso;
    [rewrite Rabs_Ropp in H'|]; rewrite Rabs_pos_eq in H' by exact P; lra.
Qed.

(** No overflow when both summands are at most 2^1022 in magnitude. *)
Lemma fadd_no_overflow x y : fisnan x = false -> fisnan y = false ->
  Rabs (fval x) <= bpow radix2 1022 -> Rabs (fval y) <= bpow radix2 1022 -> fisfin (fadd x y) = true.
Proof.
  intros Nx Ny Bx By.
  assert (L : bpow radix2 1022 < bpow radix2 1024) by (apply bpow_lt; lia).
  assert (Fx : fisfin x = true) by (apply fin_of_bound; [auto|lra]).
  assert (Fy : fisfin y = true) by (apply fin_of_bound; [auto|lra]).
  pose proof (Bplus_correct 53 1024 Hprec53 Hemax1024 mode_NE x y Fx Fy) as H.
  rewrite Rlt_bool_true in H; [exact (proj1 (proj2 H))|].
  apply Rle_lt_trans with (bpow radix2 1023); [|apply bpow_lt; lia].
  apply abs_round_le_generic; auto with typeclass_instances.
  - apply generic_format_bpow. unfold SpecFloat.fexp, SpecFloat.emin. lia.
  - rewrite !fval_finite in * by auto.
    replace (bpow radix2 1023) with (2 * bpow radix2 1022).
    + eapply Rle_trans; [apply Rabs_triang|]. lra.
    + change 1023%Z with (1 + 1022)%Z. rewrite bpow_plus. reflexivity.
Qed.
