(** Circles and spheres: the spectrum is explicit, so the decision can be computed. *)
From Coq Require Import List Reals Lra Lia Permutation Bool Psatz.
From Verif.Model Require Import MSeparation.
From Verif.Spec Require Import SSeparation.
From Verif.Proofs Require Import PSeparation.
Import ListNotations.
Local Open Scope R_scope.

Lemma filter_perm {A} (f : A -> bool) (l l' : list A) : Permutation l l' -> Permutation (filter f l) (filter f l').
Proof.
  induction 1; cbn [filter]; auto.
  - destruct (f x); auto.
  - destruct (f x), (f y); auto. apply perm_swap.
  - etransitivity; eauto.
Qed.

Lemma cmul_assoc a b c : cmul a (cmul b c) = cmul (cmul a b) c.
Proof. unfold cmul. cbn [fst snd]. f_equal; ring. Qed.
Lemma cmul_comm a b : cmul a b = cmul b a.
Proof. unfold cmul. f_equal; ring. Qed.
Lemma factors_perm l l' x : Permutation l l' -> factors l x = factors l' x.
Proof.
  induction 1; cbn [factors fold_right] in *; auto.
  - fold (factors l x). fold (factors l' x). congruence.
  - rewrite !cmul_assoc. f_equal. apply cmul_comm.
  - congruence.
Qed.
Lemma cmul_zero a b : cmul a b = (0, 0) -> a = (0, 0) \/ b = (0, 0).
Proof.
  destruct a as [a1 a2], b as [b1 b2]. unfold cmul. cbn [fst snd]. intros H.
  assert (H1 := f_equal fst H). assert (H2 := f_equal snd H). cbn [fst snd] in H1, H2.
  assert (E : (a1 * a1 + a2 * a2) * (b1 * b1 + b2 * b2) = 0).
  { transitivity ((a1 * b1 - a2 * b2) * (a1 * b1 - a2 * b2) + (a1 * b2 + a2 * b1) * (a1 * b2 + a2 * b1)); [ring|rewrite H1, H2; ring]. }
  apply Rmult_integral in E. destruct E as [E|E]; [left|right]; f_equal; nra.
Qed.
Lemma factors_zero rs x : factors rs x = (0, 0) -> In (x, 0) rs.
Proof.
  induction rs as [|r rs IH]; intros H; cbn [factors fold_right] in H.
  - apply (f_equal fst) in H. cbn in H. lra.
  - fold (factors rs x) in H. destruct (cmul_zero _ _ H) as [E|E].
    + left. destruct r as [r1 r2]. cbn [fst snd] in E. assert (E1 := f_equal fst E). assert (E2 := f_equal snd E). cbn [fst snd] in E1, E2. f_equal; lra.
    + right. auto.
Qed.
Lemma cmul_real_inj c a b : c <> 0 -> cmul (c, 0) a = cmul (c, 0) b -> a = b.
Proof.
  intros N H. destruct a as [a1 a2], b as [b1 b2]. unfold cmul in H. cbn [fst snd] in H.
  assert (H1 := f_equal fst H). assert (H2 := f_equal snd H). cbn [fst snd] in H1, H2.
  f_equal; apply (Rmult_eq_reg_l c); auto; lra.
Qed.
Lemma factors_real l rs x : factors ((l, 0) :: rs) x = cmul (x - l, 0) (factors rs x).
Proof. cbn [factors fold_right]. fold (factors rs x). cbn [fst snd]. rewrite Ropp_0. reflexivity. Qed.

(** Two distinct listed roots come first in some order. *)
Lemma two_first (rs : list cplx) (l0 l1 : R) : l0 <> l1 -> In (l0, 0) rs -> In (l1, 0) rs -> exists rest, Permutation rs ((l0, 0) :: (l1, 0) :: rest).
Proof.
  intros N I0 I1. destruct (in_split _ _ I0) as (a & b & ->).
  assert (I : In (l1, 0) (a ++ b)). { apply in_or_app. apply in_app_or in I1. destruct I1 as [?|[E|?]]; auto. exfalso. apply N. exact (f_equal fst E). }
  destruct (in_split _ _ I) as (c & d & E). exists (c ++ d).
  transitivity ((l0, 0) :: a ++ b). symmetry. apply Permutation_middle. apply perm_skip. rewrite E. symmetry. apply Permutation_middle.
Qed.

Lemma roots_of_quadratic u v w : exists x0 : R, u < x0 /\ v < x0 /\ w < x0.
Proof. exists (Rmax u (Rmax v w) + 1). pose proof (Rmax_l u (Rmax v w)). pose proof (Rmax_r u (Rmax v w)). pose proof (Rmax_l v w). pose proof (Rmax_r v w). lra. Qed.

Lemma three_roots (rs : list cplx) (k l0 l1 : R) : length rs = 3%nat -> l0 <> l1 -> (forall x, factors rs x = ((x - l0) * (x - l1) * (x - k), 0)) ->
  Permutation rs [(l0, 0); (l1, 0); (k, 0)].
Proof.
  intros L N F. destruct (two_first rs l0 l1 N) as (rest & P).
  { apply factors_zero. rewrite F. f_equal. ring. } { apply factors_zero. rewrite F. f_equal. ring. }
  pose proof (Permutation_length P) as L'. rewrite L in L'. cbn [length] in L'.
  destruct rest as [|r [|? ?]]; try (cbn in L'; lia). rewrite P. do 2 apply perm_skip.
  destruct (roots_of_quadratic l0 l1 k) as (x0 & X0 & X1 & X2).
  specialize (F x0). rewrite (factors_perm _ _ _ P), !factors_real, cmul_assoc in F.
  replace (cmul (x0 - l0, 0) (x0 - l1, 0)) with ((x0 - l0) * (x0 - l1), 0) in F by (unfold cmul; cbn [fst snd]; f_equal; ring).
  replace ((x0 - l0) * (x0 - l1) * (x0 - k), 0) with (cmul ((x0 - l0) * (x0 - l1), 0) (x0 - k, 0)) in F by (unfold cmul; cbn [fst snd]; f_equal; ring).
  apply cmul_real_inj in F; [|apply Rmult_integral_contrapositive; split; lra].
  cbn [factors fold_right] in F. unfold cmul in F. cbn [fst snd] in F. destruct r as [r1 r2]. cbn [fst snd] in F.
  assert (E1 := f_equal fst F). assert (E2 := f_equal snd F). cbn [fst snd] in E1, E2.
  replace (r1, r2) with (k, 0); auto. f_equal; lra.
Qed.

Lemma four_roots (rs : list cplx) (k l0 l1 : R) : length rs = 4%nat -> l0 <> l1 -> k <> l0 -> k <> l1 ->
  (forall x, factors rs x = ((x - l0) * (x - l1) * ((x - k) * (x - k)), 0)) ->
  Permutation rs [(l0, 0); (l1, 0); (k, 0); (k, 0)].
Proof.
  intros L N K0 K1 F. destruct (two_first rs l0 l1 N) as (rest & P).
  { apply factors_zero. rewrite F. f_equal. ring. } { apply factors_zero. rewrite F. f_equal. ring. }
  pose proof (Permutation_length P) as L'. rewrite L in L'. cbn [length] in L'.
  rewrite P. do 2 apply perm_skip.
  assert (G : forall x, x <> l0 -> x <> l1 -> factors rest x = ((x - k) * (x - k), 0)).
  { intros x X0 X1. specialize (F x). rewrite (factors_perm _ _ _ P), !factors_real, cmul_assoc in F.
    replace (cmul (x - l0, 0) (x - l1, 0)) with ((x - l0) * (x - l1), 0) in F by (unfold cmul; cbn [fst snd]; f_equal; ring).
    replace ((x - l0) * (x - l1) * ((x - k) * (x - k)), 0) with (cmul ((x - l0) * (x - l1), 0) ((x - k) * (x - k), 0)) in F by (unfold cmul; cbn [fst snd]; f_equal; ring).
    apply cmul_real_inj in F; [exact F|apply Rmult_integral_contrapositive; split; lra]. }
  assert (I : In (k, 0) rest). { apply factors_zero. rewrite G by auto. f_equal; ring. }
  destruct (in_split _ _ I) as (a & b & ->). rewrite <- Permutation_middle. apply perm_skip.
  assert (P2 : Permutation (a ++ (k, 0) :: b) ((k, 0) :: a ++ b)) by (symmetry; apply Permutation_middle).
  pose proof (Permutation_length P2) as L2. cbn [length] in L2.
  assert (L3 : (2 = S (length (a ++ b)))%nat) by (rewrite <- L2; apply eq_add_S, eq_add_S; exact L'). clear L'. destruct (a ++ b) as [|r [|? ?]]; try (cbn [length] in L3; lia).
  destruct (roots_of_quadratic l0 l1 k) as (x0 & X0 & X1 & X2).
  specialize (G x0 ltac:(lra) ltac:(lra)). rewrite (factors_perm _ _ _ P2), factors_real in G.
  replace ((x0 - k) * (x0 - k), 0) with (cmul (x0 - k, 0) (x0 - k, 0)) in G by (unfold cmul; cbn [fst snd]; f_equal; ring).
  apply cmul_real_inj in G; [|lra].
  cbn [factors fold_right] in G. unfold cmul in G. cbn [fst snd] in G. destruct r as [r1 r2]. cbn [fst snd] in G.
  assert (E1 := f_equal fst G). assert (E2 := f_equal snd G). cbn [fst snd] in E1, E2.
  replace (r1, r2) with (k, 0); auto. f_equal; lra.
Qed.

Lemma negative_yes l : l < 0 -> negative_root (l, 0) = true.
Proof. intros H. unfold negative_root. cbn [fst snd]. rewrite Rabs_R0. destruct (Rlt_dec 0 _); [|lra]. destruct (Rlt_dec l 0); [auto|lra]. Qed.
Lemma negative_no l : 0 <= l -> negative_root (l, 0) = false.
Proof. intros H. unfold negative_root. cbn [fst snd]. destruct (Rlt_dec _ _); auto. destruct (Rlt_dec l 0); [lra|auto]. Qed.
Lemma cabs_real a : cabs (a, 0 - 0) = Rabs a.
Proof. unfold cabs. cbn [fst snd]. replace (a * a + (0 - 0) * (0 - 0)) with (Rsqr a) by (unfold Rsqr; ring). apply sqrt_Rsqr_abs. Qed.

Lemma decide_two rs l0 l1 pos : l0 < 0 -> l1 < 0 -> Forall (fun k => 0 <= k) pos ->
  Permutation rs ((l0, 0) :: (l1, 0) :: map (fun k => (k, 0)) pos) ->
  (decide rs = true <-> 1 / 1000000 < Rabs (l0 - l1)).
Proof.
  intros H0 H1 HP P. apply (filter_perm negative_root) in P. cbn [filter] in P.
  rewrite (negative_yes l0), (negative_yes l1) in P by auto.
  assert (Z : filter negative_root (map (fun k => (k, 0)) pos) = []).
  { clear P. induction HP; cbn [map filter]; auto. rewrite negative_no by auto. exact IHHP. }
  rewrite Z in P. symmetry in P. apply Permutation_length_2_inv in P. unfold decide.
  assert (Q : forall a b, ((if Rlt_dec (1 / 1000000) (cabs (fst (a, 0) - fst (b, 0), snd (a, 0) - snd (b, 0))) then true else false) = true <-> 1 / 1000000 < Rabs (a - b))).
  { intros a b. cbn [fst snd]. rewrite cabs_real. destruct (Rlt_dec _ _); split; auto; try (intros E; discriminate E). }
  destruct P as [-> | ->].
  - apply Q.
  - rewrite Q, (Rabs_minus_sym l1 l0). reflexivity.
Qed.

(** -- Circles -- *)
Definition circle_gap (r1 r2 d2 : R) (l : R) : R := l * l + (d2 / (r2 * r2) - 1 - (r1 * r1) / (r2 * r2)) * l + (r1 * r1) / (r2 * r2).

Lemma circle_poly r1 r2 x1 y1 t1 x2 y2 t2 l : 0 < r1 -> 0 < r2 ->
  det3 (pencil l ident (companion (coeffs3 (diag3 (Ell r1 r1 x1 y1 t1)) (pull3 (Ell r1 r1 x1 y1 t1) (Ell r2 r2 x2 y2 t2))))) =
  (l - r1 * r1 / (r2 * r2)) * circle_gap r1 r2 ((x1 - x2) * (x1 - x2) + (y1 - y2) * (y1 - y2)) l.
Proof.
  intros H1 H2. set (ea := Ell r1 r1 x1 y1 t1). set (eb := Ell r2 r2 x2 y2 t2).
  assert (Q1 : 0 < / (r1 * r1)) by (apply Rinv_0_lt_compat; nra).
  assert (C0 : - diag3 ea 0%nat 0%nat * diag3 ea 1%nat 1%nat * diag3 ea 2%nat 2%nat = / (r1 * r1) * / (r1 * r1)) by (cbn [diag3 ea e_a e_b]; ring).
  assert (C1 : / (r1 * r1) * / (r1 * r1) <> 0) by (apply Rgt_not_eq, Rmult_lt_0_compat; auto).
  apply (Rmult_eq_reg_l (/ (r1 * r1) * / (r1 * r1))); [|exact C1].
  pose proof (poly3 (diag3 ea) (pull3 ea eb) l eq_refl (diag3_off ea)) as P.
  transitivity (poly (coeffs3 (diag3 ea) (pull3 ea eb)) l).
  { unfold coeffs3 at 1 2. rewrite <- companion3 by (rewrite C0; exact C1). rewrite C0. reflexivity. }
  rewrite P. clear P C0.
  set (q := / (r2 * r2)). set (p := / (r1 * r1)) in *.
  pose proof (sin2_cos2 t1) as S1. pose proof (sin2_cos2 t2) as S2. unfold Rsqr in S1, S2.
  assert (B00 : pull3 ea eb 0%nat 0%nat = q /\ pull3 ea eb 0%nat 1%nat = 0 /\ pull3 ea eb 1%nat 1%nat = q /\
    pull3 ea eb 0%nat 2%nat = q * (cos t1 * (x1 - x2) + sin t1 * (y1 - y2)) /\
    pull3 ea eb 1%nat 2%nat = q * (- sin t1 * (x1 - x2) + cos t1 * (y1 - y2)) /\
    pull3 ea eb 2%nat 2%nat = q * ((x1 - x2) * (x1 - x2) + (y1 - y2) * (y1 - y2)) - 1).
  { assert (E1 : sin t1 * sin t1 = 1 - cos t1 * cos t1) by lra. assert (E2 : sin t2 * sin t2 = 1 - cos t2 * cos t2) by lra. clear S1 S2.
    unfold pull3, mul3, tr, diag3, trans3, trans3_inv. cbn [ea eb e_a e_b e_x e_y e_th]. fold q.
    generalize dependent (sin t1). generalize dependent (sin t2). generalize (cos t1) (cos t2). intros c1 c2 s2 E2 s1 E1.
    repeat split; ring [E1 E2]. }
  destruct B00 as (B00 & B01 & B11 & B02 & B12 & B22).
  unfold det3, det2, pencil. rewrite (pull3_sym ea eb 1%nat 0%nat), (pull3_sym ea eb 2%nat 0%nat), (pull3_sym ea eb 2%nat 1%nat).
  rewrite B00, B01, B11, B02, B12, B22. cbn [diag3 ea e_a e_b]. fold p. unfold circle_gap.
  set (dx := x1 - x2). set (dy := y1 - y2).
  assert (E1 : sin t1 * sin t1 = 1 - cos t1 * cos t1) by lra.
  transitivity ((l * p - q) * (p * (l * l) + (p * q * (dx * dx + dy * dy) - p - q) * l + q)).
  - clear - E1. generalize dependent (sin t1). generalize (cos t1). intros c1 s1 E1. ring [E1].
  - unfold p, q. field. split; lra.
Qed.

(** -- Spheres -- *)
Lemma sphere_poly r1 r2 ea eb l : proper_ellipsoid ea -> proper_ellipsoid eb ->
  d_a ea = r1 -> d_b ea = r1 -> d_c ea = r1 -> d_a eb = r2 -> d_b eb = r2 -> d_c eb = r2 ->
  det4 (pencil l ident (companion (coeffs4 (diag4 ea) (pull4 ea eb)))) =
  (l - r1 * r1 / (r2 * r2)) * (l - r1 * r1 / (r2 * r2)) *
    circle_gap r1 r2 ((d_x ea - d_x eb) * (d_x ea - d_x eb) + (d_y ea - d_y eb) * (d_y ea - d_y eb) + (d_z ea - d_z eb) * (d_z ea - d_z eb)) l.
Proof.
  intros PA PB A1 A2 A3 B1 B2 B3.
  pose proof PA as (H1 & _ & _ & U1). pose proof PB as (H2 & _ & _ & U2). rewrite A1 in H1. rewrite B1 in H2.
  assert (Q1 : 0 < / (r1 * r1)) by (apply Rinv_0_lt_compat; nra).
  assert (C0 : - diag4 ea 0%nat 0%nat * diag4 ea 1%nat 1%nat * diag4 ea 2%nat 2%nat = - (/ (r1 * r1) * / (r1 * r1) * / (r1 * r1))) by (cbn [diag4]; rewrite A1, A2, A3; ring).
  assert (C1 : - (/ (r1 * r1) * / (r1 * r1) * / (r1 * r1)) <> 0) by (apply Ropp_neq_0_compat, Rgt_not_eq; repeat apply Rmult_lt_0_compat; auto).
  apply (Rmult_eq_reg_l (- (/ (r1 * r1) * / (r1 * r1) * / (r1 * r1)))); [|exact C1].
  pose proof (poly4 (diag4 ea) (pull4 ea eb) l eq_refl (diag4_off ea)) as P.
  transitivity (poly (coeffs4 (diag4 ea) (pull4 ea eb)) l).
  { unfold coeffs4 at 1 2. cbv zeta. rewrite <- companion4 by (rewrite C0; exact C1). rewrite C0. reflexivity. }
  rewrite P. clear P C0.
  set (q := / (r2 * r2)). set (p := / (r1 * r1)) in *.
  (* the quadratic form of b at body coordinates of ea *)
  set (dx := d_x ea - d_x eb). set (dy := d_y ea - d_y eb). set (dz := d_z ea - d_z eb).
  set (t := fun i => rot_of ea 0%nat i * dx + rot_of ea 1%nat i * dy + rot_of ea 2%nat i * dz).
  assert (CO : forall i j, (i < 3)%nat -> (j < 3)%nat ->
    rot_of ea 0%nat i * rot_of ea 0%nat j + rot_of ea 1%nat i * rot_of ea 1%nat j + rot_of ea 2%nat i * rot_of ea 2%nat j = ident i j).
  { intros i j Hi Hj. unfold rot_of. assert (E : d_qw ea * d_qw ea = 1 - d_qx ea * d_qx ea - d_qy ea * d_qy ea - d_qz ea * d_qz ea) by lra.
    destruct i as [|[|[|i]]]; [| | |lia]; (destruct j as [|[|[|j]]]; [| | |lia]); unfold rotq, ident; cbn [Nat.eqb]; ring [E]. }
  assert (RO : forall i j, (i < 3)%nat -> (j < 3)%nat ->
    rot_of ea i 0%nat * rot_of ea j 0%nat + rot_of ea i 1%nat * rot_of ea j 1%nat + rot_of ea i 2%nat * rot_of ea j 2%nat = ident i j).
  { intros i j. apply (rot_orth _ _ _ _ U1). }
  assert (RB : forall i j, (i < 3)%nat -> (j < 3)%nat ->
    rot_of eb i 0%nat * rot_of eb j 0%nat + rot_of eb i 1%nat * rot_of eb j 1%nat + rot_of eb i 2%nat * rot_of eb j 2%nat = ident i j).
  { intros i j. apply (rot_orth _ _ _ _ U2). }
  (* columns of m: m = Rb' Ra | Rb' (ta - tb) *)
  assert (M : forall i j, (i < 4)%nat -> (j < 4)%nat -> pull4 ea eb i j =
    match i, j with
    | 3, 3 => (q * (dx * dx + dy * dy + dz * dz) - 1)%R | 3, _ => (q * t j)%R | _, 3 => (q * t i)%R
    | _, _ => (q * ident i j)%R end%nat).
  { intros i j Hi Hj.
    (* world vectors of the columns *)
    set (col := fun c k => match c with 3 => (match k with 0 => dx | 1 => dy | _ => dz end)%nat | _ => rot_of ea k c end%nat).
    set (m := mul4 (trans4_inv eb) (trans4 ea)).
    assert (MC : forall k c, (k < 3)%nat -> (c < 4)%nat -> m k c = rot_of eb 0%nat k * col c 0%nat + rot_of eb 1%nat k * col c 1%nat + rot_of eb 2%nat k * col c 2%nat).
    { intros k c Hk Hc. unfold m, mul4, col, trans4_inv, trans4, pos_of, dx, dy, dz.
      destruct k as [|[|[|k]]]; [| | |lia]; (destruct c as [|[|[|[|c]]]]; [| | | |lia]); ring. }
    assert (M3 : forall c, (c < 4)%nat -> m 3%nat c = match c with 3 => (1)%R | _ => (0)%R end%nat).
    { intros c Hc. unfold m. pose proof (pull4_last ea eb) as (L0 & L1 & L2 & L3). destruct c as [|[|[|[|c]]]]; [| | | |lia]; auto. }
    assert (B : pull4 ea eb i j = q * (m 0%nat i * m 0%nat j + m 1%nat i * m 1%nat j + m 2%nat i * m 2%nat j) - m 3%nat i * m 3%nat j).
    { unfold pull4. fold m. clearbody m. unfold mul4, tr, diag4. rewrite B1, B2, B3. fold q. ring. }
    assert (B' : m 0%nat i * m 0%nat j + m 1%nat i * m 1%nat j + m 2%nat i * m 2%nat j = col i 0%nat * col j 0%nat + col i 1%nat * col j 1%nat + col i 2%nat * col j 2%nat).
    { rewrite !MC by lia. clear - RB. set (R := rot_of eb) in *. clearbody R.
      pose proof (RB 0%nat 0%nat ltac:(lia) ltac:(lia)) as O00. pose proof (RB 0%nat 1%nat ltac:(lia) ltac:(lia)) as O01.
      pose proof (RB 0%nat 2%nat ltac:(lia) ltac:(lia)) as O02. pose proof (RB 1%nat 1%nat ltac:(lia) ltac:(lia)) as O11.
      pose proof (RB 1%nat 2%nat ltac:(lia) ltac:(lia)) as O12. pose proof (RB 2%nat 2%nat ltac:(lia) ltac:(lia)) as O22.
      unfold ident in *. cbn [Nat.eqb] in *. generalize (col i 0%nat) (col i 1%nat) (col i 2%nat) (col j 0%nat) (col j 1%nat) (col j 2%nat).
      intros a0 a1 a2 b0 b1 b2.
      transitivity ((R 0%nat 0%nat * R 0%nat 0%nat + R 0%nat 1%nat * R 0%nat 1%nat + R 0%nat 2%nat * R 0%nat 2%nat) * (a0 * b0) +
        (R 1%nat 0%nat * R 1%nat 0%nat + R 1%nat 1%nat * R 1%nat 1%nat + R 1%nat 2%nat * R 1%nat 2%nat) * (a1 * b1) +
        (R 2%nat 0%nat * R 2%nat 0%nat + R 2%nat 1%nat * R 2%nat 1%nat + R 2%nat 2%nat * R 2%nat 2%nat) * (a2 * b2) +
        (R 0%nat 0%nat * R 1%nat 0%nat + R 0%nat 1%nat * R 1%nat 1%nat + R 0%nat 2%nat * R 1%nat 2%nat) * (a0 * b1 + a1 * b0) +
        (R 0%nat 0%nat * R 2%nat 0%nat + R 0%nat 1%nat * R 2%nat 1%nat + R 0%nat 2%nat * R 2%nat 2%nat) * (a0 * b2 + a2 * b0) +
        (R 1%nat 0%nat * R 2%nat 0%nat + R 1%nat 1%nat * R 2%nat 1%nat + R 1%nat 2%nat * R 2%nat 2%nat) * (a1 * b2 + a2 * b1)); [ring|].
      rewrite O00, O01, O02, O11, O12, O22. ring. }
    rewrite B, B', !M3 by lia. clear B B' M3 MC.
    destruct i as [|[|[|[|i]]]]; [| | | |lia]; (destruct j as [|[|[|[|j]]]]; [| | | |lia]); unfold col; cbv iota;
      try (rewrite CO by lia); unfold t; ring. }
  unfold det4, det3, det2, minor, pencil. cbn [Nat.ltb Nat.leb].
  rewrite !M by lia. cbn [diag4]. rewrite A1, A2, A3. fold p. unfold ident. cbn [Nat.eqb].
  assert (TT : t 0%nat * t 0%nat = dx * dx + dy * dy + dz * dz - t 1%nat * t 1%nat - t 2%nat * t 2%nat).
  { pose proof (RO 0%nat 0%nat ltac:(lia) ltac:(lia)) as O00. pose proof (RO 0%nat 1%nat ltac:(lia) ltac:(lia)) as O01.
    pose proof (RO 0%nat 2%nat ltac:(lia) ltac:(lia)) as O02. pose proof (RO 1%nat 1%nat ltac:(lia) ltac:(lia)) as O11.
    pose proof (RO 1%nat 2%nat ltac:(lia) ltac:(lia)) as O12. pose proof (RO 2%nat 2%nat ltac:(lia) ltac:(lia)) as O22.
    unfold ident in *. cbn [Nat.eqb] in *. unfold t. set (R := rot_of ea) in *. clearbody R.
    match goal with |- ?x * ?x = _ - ?y * ?y - ?z * ?z => cut (x * x + y * y + z * z = dx * dx + dy * dy + dz * dz); [lra|] end.
    transitivity ((R 0%nat 0%nat * R 0%nat 0%nat + R 0%nat 1%nat * R 0%nat 1%nat + R 0%nat 2%nat * R 0%nat 2%nat) * (dx * dx) +
        (R 1%nat 0%nat * R 1%nat 0%nat + R 1%nat 1%nat * R 1%nat 1%nat + R 1%nat 2%nat * R 1%nat 2%nat) * (dy * dy) +
        (R 2%nat 0%nat * R 2%nat 0%nat + R 2%nat 1%nat * R 2%nat 1%nat + R 2%nat 2%nat * R 2%nat 2%nat) * (dz * dz) +
        (R 0%nat 0%nat * R 1%nat 0%nat + R 0%nat 1%nat * R 1%nat 1%nat + R 0%nat 2%nat * R 1%nat 2%nat) * (2 * (dx * dy)) +
        (R 0%nat 0%nat * R 2%nat 0%nat + R 0%nat 1%nat * R 2%nat 1%nat + R 0%nat 2%nat * R 2%nat 2%nat) * (2 * (dx * dz)) +
        (R 1%nat 0%nat * R 2%nat 0%nat + R 1%nat 1%nat * R 2%nat 1%nat + R 1%nat 2%nat * R 2%nat 2%nat) * (2 * (dy * dz))); [ring|].
    rewrite O00, O01, O02, O11, O12, O22. ring. }
  unfold circle_gap.
  transitivity (- ((l * p - q) * (l * p - q)) * (p * (l * l) + (p * q * (dx * dx + dy * dy + dz * dz) - p - q) * l + q)).
  - clear M CO RO RB. generalize dependent (t 0%nat). intros t0 TT. ring [TT].
  - unfold p, q. field. split; lra.
Qed.

Lemma quad_roots r1 r2 d2 : 0 < r1 -> 0 < r2 -> (r1 + r2) * (r1 + r2) < d2 ->
  exists l0 l1, l0 < 0 /\ l1 < 0 /\ l0 <> l1 /\ (forall x, circle_gap r1 r2 d2 x = (x - l0) * (x - l1)) /\
    (1 / 1000000 < Rabs (l0 - l1) <->
     1 / 1000000000000 * (r2 * r2 * (r2 * r2)) < (d2 - (r1 + r2) * (r1 + r2)) * (d2 - (r1 - r2) * (r1 - r2))).
Proof.
  intros H1 H2 HD. set (B := d2 / (r2 * r2) - 1 - (r1 * r1) / (r2 * r2)). set (C := (r1 * r1) / (r2 * r2)).
  assert (R2 : 0 < r2 * r2) by nra. assert (R4 : 0 < r2 * r2 * (r2 * r2)) by nra.
  assert (QD : B * B - 4 * C = (d2 - (r1 + r2) * (r1 + r2)) * (d2 - (r1 - r2) * (r1 - r2)) / (r2 * r2 * (r2 * r2))) by (unfold B, C; field; lra).
  set (P := (d2 - (r1 + r2) * (r1 + r2)) * (d2 - (r1 - r2) * (r1 - r2))) in *.
  assert (PP : 0 < P) by (apply Rmult_lt_0_compat; nra).
  assert (DP : 0 < B * B - 4 * C) by (rewrite QD; apply Rdiv_lt_0_compat; auto).
  assert (CP : 0 < C) by (apply Rdiv_lt_0_compat; nra).
  assert (BP : 0 < B). { unfold B. replace (d2 / (r2 * r2) - 1 - r1 * r1 / (r2 * r2)) with ((d2 - r1 * r1 - r2 * r2) / (r2 * r2)) by (field; lra). apply Rdiv_lt_0_compat; nra. }
  set (S := sqrt (B * B - 4 * C)). assert (S0 : 0 < S) by (apply sqrt_lt_R0; auto).
  assert (SS : S * S = B * B - 4 * C) by (apply sqrt_sqrt; lra).
  assert (SB : S < B) by nra.
  exists ((- B + S) / 2), ((- B - S) / 2). split; [lra|]. split; [lra|]. split; [lra|]. split.
  - intros x. unfold circle_gap. fold B C. nra.
  - replace ((- B + S) / 2 - (- B - S) / 2) with S by lra. rewrite Rabs_right by lra.
    assert (E : P = S * S * (r2 * r2 * (r2 * r2))) by (rewrite SS, QD; field; lra). rewrite E.
    split; intros Q.
    + apply Rmult_lt_compat_r; [auto|]. nra.
    + apply Rmult_lt_reg_r in Q; [|auto]. nra.
Qed.

Lemma circles_apart r1 r2 x1 y1 t1 x2 y2 t2 rs : 0 < r1 -> 0 < r2 ->
  let d2 := (x1 - x2) * (x1 - x2) + (y1 - y2) * (y1 - y2) in (r1 + r2) * (r1 + r2) < d2 ->
  spectrum3 (companion (coeffs3 (diag3 (Ell r1 r1 x1 y1 t1)) (pull3 (Ell r1 r1 x1 y1 t1) (Ell r2 r2 x2 y2 t2)))) rs ->
  (decide rs = true <-> 1 / 1000000000000 * (r2 * r2 * (r2 * r2)) < (d2 - (r1 + r2) * (r1 + r2)) * (d2 - (r1 - r2) * (r1 - r2))).
Proof.
  intros H1 H2 d2 HD [L SP]. destruct (quad_roots r1 r2 d2 H1 H2 HD) as (l0 & l1 & N0 & N1 & NE & F & Q).
  rewrite <- Q. assert (K : 0 <= r1 * r1 / (r2 * r2)) by (apply Rlt_le, Rdiv_lt_0_compat; nra).
  apply (decide_two rs l0 l1 [r1 * r1 / (r2 * r2)]); auto.
  apply three_roots; auto. intros x. rewrite SP, circle_poly by auto. fold d2. rewrite F. f_equal. ring.
Qed.
Lemma spheres_apart r1 r2 ea eb rs : proper_ellipsoid ea -> proper_ellipsoid eb ->
  d_a ea = r1 -> d_b ea = r1 -> d_c ea = r1 -> d_a eb = r2 -> d_b eb = r2 -> d_c eb = r2 ->
  let d2 := (d_x ea - d_x eb) * (d_x ea - d_x eb) + (d_y ea - d_y eb) * (d_y ea - d_y eb) + (d_z ea - d_z eb) * (d_z ea - d_z eb) in
  (r1 + r2) * (r1 + r2) < d2 ->
  spectrum4 (companion (coeffs4 (diag4 ea) (pull4 ea eb))) rs ->
  (decide rs = true <-> 1 / 1000000000000 * (r2 * r2 * (r2 * r2)) < (d2 - (r1 + r2) * (r1 + r2)) * (d2 - (r1 - r2) * (r1 - r2))).
Proof.
  intros PA PB A1 A2 A3 B1 B2 B3 d2 HD [L SP].
  pose proof PA as (H1 & _). pose proof PB as (H2 & _). rewrite A1 in H1. rewrite B1 in H2.
  destruct (quad_roots r1 r2 d2 H1 H2 HD) as (l0 & l1 & N0 & N1 & NE & F & Q).
  rewrite <- Q. assert (K : 0 < r1 * r1 / (r2 * r2)) by (apply Rdiv_lt_0_compat; nra).
  apply (decide_two rs l0 l1 [r1 * r1 / (r2 * r2); r1 * r1 / (r2 * r2)]); auto.
  { repeat constructor; lra. }
  apply four_roots; auto; try lra. intros x. rewrite SP, (sphere_poly r1 r2) by auto. fold d2. rewrite F. f_equal. ring.
Qed.

(** The other way round: an explicit spectrum. *)
Lemma spectrum_circles r1 r2 x1 y1 t1 x2 y2 t2 z0 z1 : 0 < r1 -> 0 < r2 ->
  (forall x, cmul (x - fst z0, - snd z0) (x - fst z1, - snd z1) = (circle_gap r1 r2 ((x1 - x2) * (x1 - x2) + (y1 - y2) * (y1 - y2)) x, 0)) ->
  spectrum3 (companion (coeffs3 (diag3 (Ell r1 r1 x1 y1 t1)) (pull3 (Ell r1 r1 x1 y1 t1) (Ell r2 r2 x2 y2 t2)))) [z0; z1; (r1 * r1 / (r2 * r2), 0)].
Proof.
  intros H1 H2 F. split; [reflexivity|]. intros x. cbn [factors fold_right]. rewrite cmul_assoc, F, circle_poly by auto.
  generalize (circle_gap r1 r2 ((x1 - x2) * (x1 - x2) + (y1 - y2) * (y1 - y2)) x). intros g. unfold cmul. cbn [fst snd]. f_equal; ring.
Qed.

(** Unit circles overlapping in a sliver. *)
Definition slip : R := 1 / 2500000.
Definition near_a : ellipse := Ell 1 1 0 0 0.
Definition near_b : ellipse := Ell 1 1 (2 / (1 + slip * slip)) (2 * slip / (1 + slip * slip)) 0.
Definition near_roots : list cplx :=
  [ (- ((1 - slip * slip) / (1 + slip * slip)), 2 * slip / (1 + slip * slip));
    (- ((1 - slip * slip) / (1 + slip * slip)), - (2 * slip / (1 + slip * slip))); (1 * 1 / (1 * 1), 0) ].
Lemma near_spectrum : spectrum3 (companion (coeffs3 (diag3 near_a) (pull3 near_a near_b))) near_roots.
Proof.
  apply spectrum_circles; try lra. intros x. unfold circle_gap, cmul. cbn [fst snd].
  assert (1 + slip * slip <> 0) by nra. f_equal; field; auto.
Qed.
Lemma near_decide : decide near_roots = true.
Proof.
  assert (P : 0 < 2 * slip / (1 + slip * slip) < 1 / 1000000 /\ 1 / 2000000 < 2 * slip / (1 + slip * slip)).
  { unfold slip. split; [split|]; lra. }
  assert (Q : 0 < (1 - slip * slip) / (1 + slip * slip)) by (unfold slip; lra).
  unfold decide, near_roots. set (h := (1 - slip * slip) / (1 + slip * slip)) in *. set (w := 2 * slip / (1 + slip * slip)) in *. clearbody h w.
  assert (N0 : negative_root (- h, w) = true).
  { unfold negative_root. cbn [fst snd]. rewrite Rabs_right by lra. destruct (Rlt_dec w _); [|lra]. destruct (Rlt_dec (- h) 0); [auto|lra]. }
  assert (N1 : negative_root (- h, - w) = true).
  { unfold negative_root. cbn [fst snd]. rewrite Rabs_Ropp, Rabs_right by lra. destruct (Rlt_dec w _); [|lra]. destruct (Rlt_dec (- h) 0); [auto|lra]. }
  cbn [filter]. rewrite N0, N1, negative_no by lra. cbn [fst snd].
  replace (cabs (- h - - h, w - - w)) with (2 * w).
  - destruct (Rlt_dec _ _); [auto|lra].
  - unfold cabs. cbn [fst snd]. replace ((- h - - h) * (- h - - h) + (w - - w) * (w - - w)) with (Rsqr (2 * w)) by (unfold Rsqr; ring). symmetry. apply sqrt_Rsqr. lra.
Qed.
Lemma near_meet : in_ellipse near_a (1 / (1 + slip * slip)) (slip / (1 + slip * slip)) /\ in_ellipse near_b (1 / (1 + slip * slip)) (slip / (1 + slip * slip)).
Proof.
  unfold in_ellipse, near_a, near_b. cbn [e_a e_b e_x e_y e_th]. rewrite cos_0, sin_0.
  assert (D : 0 < 1 + slip * slip) by nra.
  assert (E : (1 / (1 + slip * slip)) * (1 / (1 + slip * slip)) + (slip / (1 + slip * slip)) * (slip / (1 + slip * slip)) <= 1).
  { replace ((1 / (1 + slip * slip)) * (1 / (1 + slip * slip)) + (slip / (1 + slip * slip)) * (slip / (1 + slip * slip))) with (/ (1 + slip * slip)) by (field; lra).
    rewrite <- Rinv_1. apply Rinv_le_contravar; nra. }
  split.
  - match goal with |- ?t <= 1 => replace t with ((1 / (1 + slip * slip)) * (1 / (1 + slip * slip)) + (slip / (1 + slip * slip)) * (slip / (1 + slip * slip))) by (field; lra) end. exact E.
  - match goal with |- ?t <= 1 => replace t with ((1 / (1 + slip * slip)) * (1 / (1 + slip * slip)) + (slip / (1 + slip * slip)) * (slip / (1 + slip * slip))) by (field; lra) end. exact E.
Qed.

(** Unit circles with a gap of about 1e-14. *)
Definition far_s : R := 1 + 1 / 10000000.
Definition far_b : ellipse := Ell 1 1 (far_s + / far_s) 0 0.
Lemma far_disjoint px py : in_ellipse near_a px py -> in_ellipse far_b px py -> False.
Proof.
  unfold in_ellipse, near_a, far_b. cbn [e_a e_b e_x e_y e_th]. rewrite cos_0, sin_0. intros A B.
  set (d := far_s + / far_s) in *.
  assert (D : 2 < d). { unfold d, far_s. assert (E : / (1 + 1 / 10000000) = 10000000 / 10000001) by (field). rewrite E. lra. }
  assert (A' : px * px + py * py <= 1) by (match type of A with ?t <= 1 => replace t with (px * px + py * py) in A by field end; exact A).
  assert (B' : (px - d) * (px - d) + py * py <= 1) by (match type of B with ?t <= 1 => replace t with ((px - d) * (px - d) + py * py) in B by field end; exact B).
  assert (px <= 1) by nra. assert (d - px <= 1) by nra. lra.
Qed.
Lemma far_decide rs : spectrum3 (companion (coeffs3 (diag3 near_a) (pull3 near_a far_b))) rs -> decide rs = false.
Proof.
  intros SP. unfold near_a, far_b in SP.
  assert (E : / far_s = 10000000 / 10000001) by (unfold far_s; field).
  apply circles_apart in SP; try lra.
  - destruct (decide rs); auto. exfalso. destruct SP as [SP _]. specialize (SP eq_refl). revert SP. rewrite E. unfold far_s. intros SP. lra.
  - rewrite E. unfold far_s. lra.
Qed.
