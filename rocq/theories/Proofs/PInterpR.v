(** Interpolation in exact arithmetic and in binary64. *)
From Coq Require Import List Bool Arith Lia ZArith Reals Lra.
From Flocq Require Import Core.Core IEEE754.BinarySingleNaN.
From Verif.Base Require Import Outcome Float64 FloatFacts.
From Verif.Model Require Import MScalar MInterp.
From Verif.Proofs Require Import PTables PGraph PHRM2D PInterp.
Import ListNotations.
Local Open Scope outcome_scope.
Local Open Scope R_scope.

Fixpoint lin (t : R) (a b : list R) : list R :=
  match a, b with x :: a, y :: b => (x + t * (y - x)) :: lin t a b | _, _ => [] end.
Lemma blend_XR t a b : (length a <= length b)%nat -> blend XR (Some t) (map Some a) (map Some b) = Ok (map Some (lin t a b)).
Proof.
  revert b. induction a as [|x a IH]; intros [|y b] L; cbn [length] in L; try lia; [reflexivity..|].
  cbn [map blend lin]. rewrite IH by lia. cbn [obind]. f_equal. f_equal. cbn. f_equal. ring.
Qed.
Lemma lin_len t a b : (length a <= length b)%nat -> length (lin t a b) = length a.
Proof. revert b. induction a as [|x a IH]; intros [|y b] L; cbn [length lin] in *; try lia. f_equal. apply IH. lia. Qed.
Lemma lin_nth t a b j x y : nth_error a j = Some x -> nth_error b j = Some y -> nth_error (lin t a b) j = Some (x + t * (y - x)).
Proof.
  revert b j. induction a as [|u a IH]; intros [|w b] [|j] Hx Hy; try discriminate Hx; try discriminate Hy; cbn in *; [congruence|auto].
Qed.
Lemma lin_0 a b : (length a <= length b)%nat -> lin 0 a b = a.
Proof. revert b. induction a as [|x a IH]; intros [|y b] L; cbn [length lin] in *; try lia; [reflexivity..|]. f_equal; [ring|apply IH; lia]. Qed.
Lemma lin_1 a b : (length a <= length b)%nat -> lin 1 a b = firstn (length a) b.
Proof. revert b. induction a as [|x a IH]; intros [|y b] L; cbn [length lin firstn] in *; try lia; [reflexivity..|]. f_equal; [ring|apply IH; lia]. Qed.

Lemma param_XR n i : (1 <= n)%nat -> param XR n i = Some (INR i / INR n).
Proof.
  intros H. unfold param, step_size, sone, sofnat. cbn [sofZ sdiv smul XR]. unfold xdiv.
  destruct (Req_EM_T (IZR (Z.of_nat n)) 0) as [E|E].
  - apply (eq_IZR _ 0) in E. lia.
  - cbn [xlift2]. f_equal. rewrite <- !INR_IZR_INZ in *. field. exact E.
Qed.
Lemma omap_map {A B} (f : A -> outcome B) g l : (forall a, In a l -> f a = Ok (g a)) -> omap f l = Ok (map g l).
Proof.
  induction l as [|a l IH]; intros H; cbn [omap map]; [reflexivity|]. rewrite H by (left; auto). rewrite IH by (intros; apply H; right; auto). reflexivity.
Qed.
Lemma rn_XR a b n : (1 <= n)%nat -> (length a <= length b)%nat ->
  interpolate_rn XR (map Some a) (map Some b) n = Ok (map (fun i => map Some (lin (INR i / INR n) a b)) (seq 0 (n + 1))).
Proof.
  intros Hn L. unfold interpolate_rn. apply omap_map. intros i _. rewrite param_XR by auto. apply blend_XR. exact L.
Qed.

(** -- slerp -- *)
Lemma quad_eq (a b c d a' b' c' d' : R) : a = a' -> b = b' -> c = c' -> d = d' -> (a, b, c, d) = (a', b', c', d').
Proof. intros; subst; reflexivity. Qed.
Lemma qdot_comb s p r q : qdot (qcomb s p r q) (qcomb s p r q) = s * s * qdot p p + r * r * qdot q q + 2 * (s * r) * qdot p q.
Proof. destruct p as [[[a b] c] d], q as [[[e f] g] h]. cbn. ring. Qed.
Lemma qdot_comb1 s p r q : qdot p (qcomb s p r q) = s * qdot p p + r * qdot p q.
Proof. destruct p as [[[a b] c] d], q as [[[e f] g] h]. cbn. ring. Qed.

Lemma slerp_one_lt : 0 < slerp_one < 1.
Proof. unfold slerp_one. change (2 ^ 52)%Z with 4503599627370496%Z. lra. Qed.

Definition sgn_d (d : R) (x : R) : R := if Rlt_dec d 0 then - x else x.
Lemma sgn_d_sq d x : sgn_d d x * sgn_d d x = x * x.
Proof. unfold sgn_d. destruct (Rlt_dec d 0); ring. Qed.
Lemma sgn_d_dot d x : sgn_d d x * d = x * Rabs d.
Proof. unfold sgn_d. destruct (Rlt_dec d 0); [rewrite Rabs_left by auto|rewrite Rabs_right by lra]; ring. Qed.

Lemma slerp_unit p q t : qdot p p = 1 -> qdot q q = 1 -> Rabs (qdot p q) < slerp_one ->
  qdot (slerp_R p t q) (slerp_R p t q) = 1 /\ qdot p (slerp_R p t q) = cos (t * acos (Rabs (qdot p q))).
Proof.
  intros Hp Hq Hd. pose proof slerp_one_lt as [S0 S1]. pose proof (Rabs_pos (qdot p q)) as D0.
  unfold slerp_R. destruct (Rle_dec slerp_one (Rabs (qdot p q))) as [C|C]; [lra|].
  set (th := acos (Rabs (qdot p q))). assert (Hc : cos th = Rabs (qdot p q)) by (apply cos_acos; lra).
  assert (Sth : sin th <> 0). { intros Z. pose proof (sin2_cos2 th) as Q. unfold Rsqr in Q. rewrite Z, Hc in Q. nra. }
  fold (sgn_d (qdot p q) (sin (t * th) / sin th)). rewrite qdot_comb, qdot_comb1, Hp, Hq.
  pose proof (sgn_d_sq (qdot p q) (sin (t * th) / sin th)) as Q1. pose proof (sgn_d_dot (qdot p q) (sin (t * th) / sin th)) as Q2.
  rewrite <- Hc in Q2. set (G := sgn_d (qdot p q) (sin (t * th) / sin th)) in *.
  assert (E : th = (1 - t) * th + t * th) by ring.
  set (A := (1 - t) * th) in *. set (B := t * th) in *.
  assert (Cth : cos th = cos A * cos B - sin A * sin B) by (rewrite E; apply cos_plus).
  assert (Sn : sin th = sin A * cos B + cos A * sin B) by (rewrite E; apply sin_plus).
  pose proof (sin2_cos2 A) as PA. pose proof (sin2_cos2 B) as PB. unfold Rsqr in PA, PB.
  split.
  - replace (sin A / sin th * (sin A / sin th) * 1 + G * G * 1 + 2 * (sin A / sin th * G) * qdot p q)
      with (sin A / sin th * (sin A / sin th) + G * G + 2 * (sin A / sin th) * (G * qdot p q)) by ring.
    rewrite Q1, Q2. apply (Rmult_eq_reg_r (sin th * sin th)); [|nra].
    replace ((sin A / sin th * (sin A / sin th) + sin B / sin th * (sin B / sin th) + 2 * (sin A / sin th) * (sin B / sin th * cos th)) * (sin th * sin th))
      with (sin A * sin A + sin B * sin B + 2 * sin A * sin B * cos th) by (field; auto).
    rewrite Cth, Sn.
    replace (1 * ((sin A * cos B + cos A * sin B) * (sin A * cos B + cos A * sin B))) with
      (sin A * sin A * (cos B * cos B) + (cos A * cos A) * (sin B * sin B) + 2 * (sin A * cos B * cos A * sin B)) by ring.
    replace (cos A * cos A) with (1 - sin A * sin A) by lra. replace (cos B * cos B) with (1 - sin B * sin B) by lra. ring.
  - replace (sin A / sin th * 1 + G * qdot p q) with (sin A / sin th + G * qdot p q) by ring. rewrite Q2.
    apply (Rmult_eq_reg_r (sin th)); [|auto].
    replace ((sin A / sin th + sin B / sin th * cos th) * sin th) with (sin A + sin B * cos th) by (field; auto).
    rewrite Cth, Sn. replace (sin A) with (sin A * 1) at 1 by ring. rewrite <- PB. ring.
Qed.

Lemma slerp_norm p q t : qdot p p = 1 -> qdot q q = 1 -> 0 <= t <= 1 -> Rabs (qdot p q) <= 1 ->
  1 - / IZR (2 ^ 53) <= qdot (slerp_R p t q) (slerp_R p t q) <= 1.
Proof.
  intros Hp Hq Ht Hd1. assert (P53 : 0 < / IZR (2 ^ 53)) by (change (2 ^ 53)%Z with 9007199254740992%Z; lra).
  destruct (Rlt_or_le (Rabs (qdot p q)) slerp_one) as [L|L].
  - destruct (slerp_unit p q t Hp Hq L) as [-> _]. lra.
  - unfold slerp_R. destruct (Rle_dec slerp_one (Rabs (qdot p q))) as [C|C]; [|lra].
    fold (sgn_d (qdot p q) t). rewrite qdot_comb, Hp, Hq.
    replace ((1 - t) * (1 - t) * 1 + sgn_d (qdot p q) t * sgn_d (qdot p q) t * 1 + 2 * ((1 - t) * sgn_d (qdot p q) t) * qdot p q)
      with ((1 - t) * (1 - t) + sgn_d (qdot p q) t * sgn_d (qdot p q) t + 2 * (1 - t) * (sgn_d (qdot p q) t * qdot p q)) by ring.
    rewrite sgn_d_sq, sgn_d_dot. unfold slerp_one in C. change (2 ^ 52)%Z with 4503599627370496%Z in C. change (2 ^ 53)%Z with 9007199254740992%Z.
    assert (T : 0 <= t * (1 - t) <= / 4).
    { split; [apply Rmult_le_pos; lra|]. pose proof (Rle_0_sqr (t - / 2)) as Q. unfold Rsqr in Q. lra. } set (D := Rabs (qdot p q)) in *. clearbody D.
    replace ((1 - t) * (1 - t) + t * t + 2 * (1 - t) * (t * D)) with (1 - 2 * ((t * (1 - t)) * (1 - D))) by ring.
    set (W := t * (1 - t)) in *. assert (U : 0 <= W * (1 - D)) by (apply Rmult_le_pos; lra).
    assert (V : W * (1 - D) <= / 4 * / 4503599627370496) by (apply Rmult_le_compat; lra). split; lra.
Qed.

Lemma slerp_0 p q : Rabs (qdot p q) <= 1 -> slerp_R p 0 q = p.
Proof.
  intros Hd. unfold slerp_R. destruct (Rle_dec slerp_one (Rabs (qdot p q))) as [C|C].
  - destruct p as [[[a b] c] d], q as [[[e f] g] h]. cbn [qcomb]. destruct (Rlt_dec _ 0); apply quad_eq; ring.
  - pose proof slerp_one_lt. pose proof (Rabs_pos (qdot p q)).
    assert (Sth : sin (acos (Rabs (qdot p q))) <> 0).
    { intros Z. pose proof (sin2_cos2 (acos (Rabs (qdot p q)))) as Q. unfold Rsqr in Q. rewrite Z, cos_acos in Q by lra. nra. }
    set (th := acos (Rabs (qdot p q))) in *.
    replace ((1 - 0) * th) with th by ring. replace (0 * th) with 0 by ring. rewrite sin_0.
    replace (sin th / sin th) with 1 by (field; auto). replace (0 / sin th) with 0 by (field; auto).
    destruct p as [[[a b] c] d], q as [[[e f] g] h]. cbn [qcomb]. destruct (Rlt_dec _ 0); apply quad_eq; ring.
Qed.
Definition qscale (s : R) (q : rquat) : rquat := let '(e, f, g, h) := q in (s * e, s * f, s * g, s * h).
Lemma slerp_1 p q : Rabs (qdot p q) <= 1 -> slerp_R p 1 q = qscale (if Rlt_dec (qdot p q) 0 then -1 else 1) q.
Proof.
  intros Hd. unfold slerp_R. destruct (Rle_dec slerp_one (Rabs (qdot p q))) as [C|C].
  - destruct p as [[[a b] c] d], q as [[[e f] g] h]. cbn [qcomb qscale]. destruct (Rlt_dec _ 0); apply quad_eq; ring.
  - pose proof slerp_one_lt. pose proof (Rabs_pos (qdot p q)).
    assert (Sth : sin (acos (Rabs (qdot p q))) <> 0).
    { intros Z. pose proof (sin2_cos2 (acos (Rabs (qdot p q)))) as Q. unfold Rsqr in Q. rewrite Z, cos_acos in Q by lra. nra. }
    set (th := acos (Rabs (qdot p q))) in *.
    replace ((1 - 1) * th) with 0 by ring. replace (1 * th) with th by ring. rewrite sin_0.
    replace (sin th / sin th) with 1 by (field; auto). replace (0 / sin th) with 0 by (field; auto).
    destruct p as [[[a b] c] d], q as [[[e f] g] h]. cbn [qcomb qscale]. destruct (Rlt_dec _ 0); apply quad_eq; ring.
Qed.
Lemma cauchy4 p q : qdot p p = 1 -> qdot q q = 1 -> Rabs (qdot p q) <= 1.
Proof.
  destruct p as [[[a b] c] d], q as [[[e f] g] h]. cbn. intros P Q. apply Rabs_le.
  pose proof (Rle_0_sqr (a - e)). pose proof (Rle_0_sqr (b - f)). pose proof (Rle_0_sqr (c - g)). pose proof (Rle_0_sqr (d - h)).
  pose proof (Rle_0_sqr (a + e)). pose proof (Rle_0_sqr (b + f)). pose proof (Rle_0_sqr (c + g)). pose proof (Rle_0_sqr (d + h)).
  unfold Rsqr in *. lra.
Qed.

(** -- binary64 -- *)
Lemma fmul_nan_l x y : fisnan x = true -> fisnan (fmul x y) = true.
Proof. destruct x; try discriminate. destruct y; reflexivity. Qed.
Lemma fadd_nan_l x y : fisnan x = true -> fisnan (fadd x y) = true.
Proof. destruct x; try discriminate. destruct y; reflexivity. Qed.
Lemma fsub_nan_r x y : fisnan y = true -> fisnan (fsub x y) = true.
Proof. destruct y; try discriminate. destruct x as [| | |]; reflexivity. Qed.

Lemma blend_nan t a b r : fisnan t = true -> blend F64 t a b = Ok r -> Forall (fun x => fisnan x = true) r.
Proof.
  intros N. revert b r. induction a as [|x a IH]; intros [|y b] r H; cbn [blend] in H; try (injection H as <-; constructor); [discriminate H|].
  ob H r' H'. injection H as <-. constructor; [|eapply IH; exact H'].
  exact (fadd_nan_l _ (fmul t y) (fmul_nan_l _ x (fsub_nan_r (fofZ 1) _ N))).
Qed.
Lemma param_0_nan : fisnan (param F64 0 0) = true.
Proof. vm_compute. reflexivity. Qed.
Lemma rn_nan a b : (length a <= length b)%nat -> exists v, interpolate_rn F64 a b 0 = Ok [v] /\ length v = length a /\ Forall (fun x => fisnan x = true) v.
Proof.
  intros L. destruct (blend_total F64 (param F64 0 0) a b L) as (v & Hv & Lv). exists v. split; [|split; [exact Lv|]].
  - unfold interpolate_rn. cbn [Nat.add seq omap]. rewrite Hv. reflexivity.
  - exact (blend_nan _ _ _ _ param_0_nan Hv).
Qed.

(** n >= 1: the first vector has the value of the start. *)
Lemma fdiv1_fin n : (1 <= n)%nat -> (Z.of_nat n <= 2 ^ 53)%Z -> fisfin (fdiv (fofZ 1) (fofZ (Z.of_nat n))) = true.
Proof.
  intros H1 H2. destruct (fofZ_spec (Z.of_nat n)) as [V F]; [lia|]. destruct (fofZ_spec 1) as [V1 F1]; [lia|].
  rewrite fval_finite in V by exact F. rewrite fval_finite in V1 by exact F1.
  assert (N0 : IZR (Z.of_nat n) <> 0) by (apply IZR_neq; lia).
  pose proof (Bdiv_correct 53 1024 _ _ mode_NE (fofZ 1) (fofZ (Z.of_nat n))) as C. rewrite V, V1 in C. specialize (C N0).
  rewrite Rlt_bool_true in C. { destruct C as (_ & C & _). unfold fisfin, fdiv. rewrite C. exact F1. }
  assert (B1 : Rabs (1 / IZR (Z.of_nat n)) <= 1).
  { assert (1 <= IZR (Z.of_nat n)) by (apply IZR_le; lia). rewrite Rabs_right by (apply Rle_ge; apply Rmult_le_pos; [lra|left; apply Rinv_0_lt_compat; lra]).
    apply Rmult_le_reg_r with (IZR (Z.of_nat n)); [lra|]. field_simplify; lra. }
  apply Rle_lt_trans with 1; [|change 1 with (bpow radix2 0); apply bpow_lt; lia].
  apply abs_round_le_generic; [exact valid_fexp64|apply valid_rnd_round_mode| |exact B1].
  change 1 with (bpow radix2 0). apply generic_format_bpow. vm_compute. discriminate.
Qed.
Lemma fmul_zero_l x : fisfin x = true -> exists sg, fmul (B754_zero false) x = B754_zero sg.
Proof. destruct x as [sg| | |sg m e H]; try discriminate; intros _; eexists; reflexivity. Qed.
Lemma param_first n : (1 <= n)%nat -> (Z.of_nat n <= 2 ^ 53)%Z -> exists sg, param F64 n 0 = B754_zero sg.
Proof. intros H1 H2. exact (fmul_zero_l _ (fdiv1_fin n H1 H2)). Qed.
Lemma fsub_one_zero sg : fsub (fofZ 1) (B754_zero sg) = fofZ 1.
Proof. apply fsame_eq. destruct sg; vm_compute; reflexivity. Qed.
Lemma fmul_one_l x : fisfin x = true -> fmul (fofZ 1) x = x.
Proof.
  intros F. destruct (fofZ_spec 1) as [V1 F1]; [lia|]. rewrite fval_finite in V1 by exact F1.
  pose proof (Bmult_correct 53 1024 _ _ mode_NE (fofZ 1) x) as C. rewrite V1, Rmult_1_l in C.
  rewrite round_generic in C; [|apply valid_rnd_N|apply generic_format_B2R].
  rewrite Rlt_bool_true in C by apply abs_B2R_lt_emax. destruct C as (Cv & Cf & Cs).
  assert (S1 : Bsign (fofZ 1) = false) by (vm_compute; reflexivity).
  apply B2R_Bsign_inj; [change (is_finite (fmul (fofZ 1) x)) with (is_finite (Bmult mode_NE (fofZ 1) x)); rewrite Cf; apply andb_true_iff; split; [exact F1|exact F]|exact F|exact Cv|].
  unfold fmul. rewrite Cs; [rewrite S1; destruct (Bsign x); reflexivity|].
  destruct (Bmult mode_NE (fofZ 1) x) eqn:K; auto. exfalso. unfold fisfin in F, F1. rewrite F, F1 in Cf. discriminate Cf.
Qed.
Lemma fadd_zero_r x sg : fisfin x = true -> fisfin (fadd x (B754_zero sg)) = true /\ fval (fadd x (B754_zero sg)) = fval x.
Proof.
  destruct x as [s'| | |s' m e H]; try discriminate; intros _; [|split; reflexivity].
  destruct s', sg; split; reflexivity.
Qed.
Lemma blend_first n x y : (1 <= n)%nat -> (Z.of_nat n <= 2 ^ 53)%Z -> fisfin x = true -> fisfin y = true ->
  fisfin (fadd (fmul (fsub (fofZ 1) (param F64 n 0)) x) (fmul (param F64 n 0) y)) = true /\
  fval (fadd (fmul (fsub (fofZ 1) (param F64 n 0)) x) (fmul (param F64 n 0) y)) = fval x.
Proof.
  intros H1 H2 Fx Fy. destruct (param_first n H1 H2) as (sg & ->). rewrite fsub_one_zero, (fmul_one_l x Fx).
  assert (Z : exists s', fmul (B754_zero sg) y = B754_zero s').
  { destruct y as [?| | |? ? ? ?]; try discriminate Fy; eexists; reflexivity. }
  destruct Z as (s' & ->). apply fadd_zero_r. exact Fx.
Qed.
