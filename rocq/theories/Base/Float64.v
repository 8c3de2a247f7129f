(** IEEE-754 binary64 ("double"), with infinities, signed zeros and NaN, from
    Flocq's [BinarySingleNaN]; round to nearest, ties to even -- the arithmetic
    the C++ code uses for [Coordinate]/[double]
    (include/hrm/datastructure/DataType.h:13-34).
    Simplification: one NaN value (payloads and NaN signs are not observable in
    this code base); excess precision / fused operations are not modelled. *)
From Coq Require Import ZArith Reals List Lia Lra Bool.
From Flocq Require Import Core.Core IEEE754.BinarySingleNaN.
Import ListNotations.

Definition f64 : Type := binary_float 53 1024.

Definition Hprec53 : FLX.Prec_gt_0 53 := eq_refl.
Definition Hemax1024 : Prec_lt_emax 53 1024 := eq_refl.
#[global] Existing Instance Hprec53.
#[global] Existing Instance Hemax1024.

Definition fadd (x y : f64) : f64 := Bplus mode_NE x y.
Definition fsub (x y : f64) : f64 := Bminus mode_NE x y.
Definition fmul (x y : f64) : f64 := Bmult mode_NE x y.
Definition fdiv (x y : f64) : f64 := Bdiv mode_NE x y.
Definition fsqrt (x : f64) : f64 := Bsqrt mode_NE x.
Definition fabs (x : f64) : f64 := Babs x.
Definition fneg (x : f64) : f64 := Bopp x.

(** C++ relational operators: every comparison with NaN is false. *)
Definition fltb (x y : f64) : bool := Bltb x y.
Definition fleb (x y : f64) : bool := Bleb x y.
Definition feqb (x y : f64) : bool := Beqb x y.

Definition fisnan (x : f64) : bool := is_nan x.
Definition fisfin (x : f64) : bool := is_finite x.

Definition fnan : f64 := B754_nan.
Definition finf : f64 := B754_infinity false.
Definition fzero : f64 := B754_zero false.

(** Integers ([static_cast<double>(n)]) and decimal literals [m / 10^k]
    (correctly rounded when m and 10^k are below 2^53, which is all the code
    uses). *)
Definition fofZ (z : Z) : f64 := binary_normalize 53 1024 Hprec53 Hemax1024 mode_NE z 0 false.
Definition fofnat (n : nat) : f64 := fofZ (Z.of_nat n).
Definition fdec (m : Z) (k : Z) : f64 := fdiv (fofZ m) (fofZ (10 ^ k)).

Definition fone : f64 := fofZ 1.
Definition ftwo : f64 := fofZ 2.
(** std::numeric_limits<double>::max() *)
Definition fdblmax : f64 := Bmax_float.

(** PI, HALF_PI, EPSILON: include/hrm/datastructure/DataType.h:24-32. *)
Definition cPI : f64 := fdec 31415926 7.
Definition cHALF_PI : f64 := fdiv cPI ftwo.
Definition cEPS : f64 := fdec 1 6.

(** std::fmin / std::fmax: a NaN argument is ignored. *)
Definition ffmin (x y : f64) : f64 :=
  if fisnan x then y else if fisnan y then x else if fltb y x then y else x.
Definition ffmax (x y : f64) : f64 :=
  if fisnan x then y else if fisnan y then x else if fltb x y then y else x.
(** std::max(a,b) = (a < b) ? b : a *)
Definition fstdmax (a b : f64) : f64 := if fltb a b then b else a.
(** std::min(a,b) = (b < a) ? b : a *)
Definition fstdmin (a b : f64) : f64 := if fltb b a then b else a.

(** Decidable (Leibniz) equality of doubles, for executable checks. *)
Definition SFeq (x y : SpecFloat.spec_float) : bool :=
  match x, y with
  | SpecFloat.S754_zero a, SpecFloat.S754_zero b => Bool.eqb a b
  | SpecFloat.S754_infinity a, SpecFloat.S754_infinity b => Bool.eqb a b
  | SpecFloat.S754_nan, SpecFloat.S754_nan => true
  | SpecFloat.S754_finite a m e, SpecFloat.S754_finite b m' e' =>
      Bool.eqb a b && Pos.eqb m m' && Z.eqb e e'
  | _, _ => false
  end.
Definition fsame (x y : f64) : bool := SFeq (B2SF x) (B2SF y).

Lemma SFeq_eq x y : SFeq x y = true <-> x = y.
Proof.
  split.
  - destruct x, y; simpl; try discriminate; try reflexivity;
      rewrite ?andb_true_iff, ?Bool.eqb_true_iff, ?Pos.eqb_eq, ?Z.eqb_eq; intuition congruence.
  - intros <-. destruct x; simpl; rewrite ?Bool.eqb_reflx, ?Pos.eqb_refl, ?Z.eqb_refl; reflexivity.
Qed.
Lemma fsame_eq x y : fsame x y = true <-> x = y.
Proof.
  unfold fsame; rewrite SFeq_eq; split; [apply B2SF_inj|congruence].
Qed.

(** -- the value of a non-NaN double, as a real number; +-infinity is sent to
    +-2^1024, which lies beyond every finite double, so that [fval] is an order
    embedding of the non-NaN doubles into R. -- *)
Definition fval (x : f64) : R :=
  match x with
  | B754_infinity false => bpow radix2 1024
  | B754_infinity true => - bpow radix2 1024
  | _ => B2R x
  end.

Lemma fval_finite x : fisfin x = true -> fval x = B2R x.
Proof. destruct x; simpl; try discriminate; auto. Qed.

Lemma fval_bound x : fisfin x = true -> (Rabs (fval x) < bpow radix2 1024)%R.
Proof. intros H; rewrite fval_finite by exact H. apply abs_B2R_lt_emax. Qed.

Lemma finite_not_nan x : fisfin x = true -> fisnan x = false.
Proof. destruct x; simpl; congruence. Qed.

Lemma fval_range x : fisnan x = false ->
  (- bpow radix2 1024 <= fval x <= bpow radix2 1024)%R.
Proof.
  intros Hn. assert (Hp : (0 < bpow radix2 1024)%R) by apply bpow_gt_0.
  destruct (fisfin x) eqn:F.
  - pose proof (fval_bound x F) as H. apply Rabs_def2 in H. lra.
  - destruct x as [s|[]| |s m e He]; try discriminate; unfold fval; lra.
Qed.

Lemma fcompare_val x y : fisnan x = false -> fisnan y = false ->
  Bcompare x y = Some (Rcompare (fval x) (fval y)).
Proof.
  intros Hx Hy.
  destruct (is_finite x) eqn:Fx; destruct (is_finite y) eqn:Fy.
  - rewrite !fval_finite by assumption. apply Bcompare_correct; assumption.
  - pose proof (fval_bound x Fx) as Bx. apply Rabs_def2 in Bx.
    destruct y as [|[]| |]; try discriminate; unfold fval at 2;
      destruct x as [|[]| |[]]; try discriminate; unfold Bcompare; simpl SpecFloat.SFcompare;
        f_equal; symmetry; first [apply Rcompare_Lt; lra | apply Rcompare_Gt; lra].
  - pose proof (fval_bound y Fy) as By. apply Rabs_def2 in By.
    destruct x as [|[]| |]; try discriminate; unfold fval at 1;
      destruct y as [|[]| |[]]; try discriminate; unfold Bcompare; simpl SpecFloat.SFcompare;
        f_equal; symmetry; first [apply Rcompare_Lt; lra | apply Rcompare_Gt; lra].
  - assert (Hp : (0 < bpow radix2 1024)%R) by apply bpow_gt_0.
    destruct x as [|[]| |], y as [|[]| |]; try discriminate; unfold Bcompare; simpl;
      f_equal; symmetry; first [apply Rcompare_Eq; lra | apply Rcompare_Lt; lra | apply Rcompare_Gt; lra].
Qed.

Lemma fltb_val x y : fisnan x = false -> fisnan y = false ->
  (fltb x y = true <-> (fval x < fval y)%R).
Proof.
  intros Hx Hy. pose proof (fcompare_val x y Hx Hy) as H.
  unfold fltb, Bltb, SpecFloat.SFltb. unfold Bcompare in H. rewrite H.
  destruct (Rcompare_spec (fval x) (fval y)); split; intros; try discriminate; try lra; auto.
Qed.

Lemma fleb_val x y : fisnan x = false -> fisnan y = false ->
  (fleb x y = true <-> (fval x <= fval y)%R).
Proof.
  intros Hx Hy. pose proof (fcompare_val x y Hx Hy) as H.
  unfold fleb, Bleb, SpecFloat.SFleb. unfold Bcompare in H. rewrite H.
  destruct (Rcompare_spec (fval x) (fval y)); split; intros; try discriminate; try lra; auto.
Qed.

Lemma fltb_val_false x y : fisnan x = false -> fisnan y = false ->
  (fltb x y = false <-> (fval y <= fval x)%R).
Proof.
  intros Hx Hy. pose proof (fltb_val x y Hx Hy) as H.
  destruct (fltb x y); split; intros; try discriminate; auto.
  - destruct H as [H _]; specialize (H eq_refl); lra.
  - destruct (Rle_or_lt (fval y) (fval x)); auto. apply H in H1; discriminate.
Qed.

Lemma fleb_val_false x y : fisnan x = false -> fisnan y = false ->
  (fleb x y = false <-> (fval y < fval x)%R).
Proof.
  intros Hx Hy. pose proof (fleb_val x y Hx Hy) as H.
  destruct (fleb x y); split; intros; try discriminate; auto.
  - destruct H as [H _]; specialize (H eq_refl); lra.
  - destruct (Rle_or_lt (fval x) (fval y)); auto. apply H in H1; discriminate.
Qed.

Lemma fltb_nan_l x y : fisnan x = true -> fltb x y = false.
Proof. destruct x; try discriminate. destruct y; reflexivity. Qed.
Lemma fltb_nan_r x y : fisnan y = true -> fltb x y = false.
Proof. destruct y; try discriminate. destruct x as [|[]| |[]]; reflexivity. Qed.
Lemma fleb_nan_l x y : fisnan x = true -> fleb x y = false.
Proof. destruct x; try discriminate. destruct y; reflexivity. Qed.
Lemma fleb_nan_r x y : fisnan y = true -> fleb x y = false.
Proof. destruct y; try discriminate. destruct x as [|[]| |[]]; reflexivity. Qed.

Lemma fstdmax_nan a b : fisnan a = false -> fisnan b = false -> fisnan (fstdmax a b) = false.
Proof. intros; unfold fstdmax; destruct (fltb a b); auto. Qed.
Lemma fstdmax_val a b : fisnan a = false -> fisnan b = false ->
  fval (fstdmax a b) = Rmax (fval a) (fval b).
Proof.
  intros Ha Hb. unfold fstdmax. destruct (fltb a b) eqn:E.
  - apply fltb_val in E; auto. symmetry; apply Rmax_right; lra.
  - apply fltb_val_false in E; auto. symmetry; apply Rmax_left; lra.
Qed.
Lemma ffmin_val a b : fisnan a = false -> fisnan b = false ->
  fval (ffmin a b) = Rmin (fval a) (fval b).
Proof.
  intros Ha Hb. unfold ffmin. rewrite Ha, Hb. destruct (fltb b a) eqn:E.
  - apply fltb_val in E; auto. symmetry; apply Rmin_right; lra.
  - apply fltb_val_false in E; auto. symmetry; apply Rmin_left; lra.
Qed.
Lemma ffmax_val a b : fisnan a = false -> fisnan b = false ->
  fval (ffmax a b) = Rmax (fval a) (fval b).
Proof.
  intros Ha Hb. unfold ffmax. rewrite Ha, Hb. destruct (fltb a b) eqn:E.
  - apply fltb_val in E; auto. symmetry; apply Rmax_right; lra.
  - apply fltb_val_false in E; auto. symmetry; apply Rmax_left; lra.
Qed.
Lemma ffmin_nan a b : fisnan (ffmin a b) = fisnan a && fisnan b.
Proof. unfold ffmin. destruct (fisnan a) eqn:A; simpl; auto. destruct (fisnan b) eqn:B; simpl; auto.
  destruct (fltb b a); auto. Qed.
Lemma ffmax_nan a b : fisnan (ffmax a b) = fisnan a && fisnan b.
Proof. unfold ffmax. destruct (fisnan a) eqn:A; simpl; auto. destruct (fisnan b) eqn:B; simpl; auto.
  destruct (fltb a b); auto. Qed.

Lemma fdblmax_fin : fisfin fdblmax = true.
Proof. reflexivity. Qed.
Lemma fval_le_dblmax x : fisfin x = true -> (Rabs (fval x) <= fval fdblmax)%R.
Proof.
  intros H. rewrite !fval_finite by auto.
  pose proof (abs_B2R_le_emax_minus_prec 53 1024 Hprec53 x) as Hx.
  replace (B2R fdblmax) with (bpow radix2 1024 - bpow radix2 (1024 - 53))%R; auto.
  unfold fdblmax, Bmax_float. rewrite B2R_SF2B. unfold SF2R. unfold F2R; simpl Fexp; simpl Fnum.
  change (1024 - 53)%Z with 971%Z. change 1024%Z with (53 + 971)%Z. rewrite bpow_plus.
  replace (bpow radix2 53 * bpow radix2 971 - bpow radix2 971)%R with ((bpow radix2 53 - 1) * bpow radix2 971)%R by ring.
  f_equal. rewrite <- (IZR_Zpower radix2 53) by lia. rewrite <- minus_IZR. reflexivity.
Qed.
