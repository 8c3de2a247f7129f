(** There is only one smallest enclosing ellipse (ellipsoid). *)
From Coq Require Import List Reals ZArith Arith Bool Lia Lra Psatz.
From Verif.Base Require Import Outcome.
From Verif.Model Require Import MGeom MMultiBody MTightFit.
From Verif.Spec Require Import SGeom SRigid.
From Verif.Proofs Require Import PGeom PGeom2 PGeom3 PRot PTight2 PTight3 PMin.
Import ListNotations.
Local Open Scope R_scope.

(** -- plane -- *)
Definition mid2 (F G : m2) : m2 :=
  M2 ((m00 F + m00 G) / 2) ((m01 F + m01 G) / 2) ((m10 F + m10 G) / 2) ((m11 F + m11 G) / 2).
Lemma form_midm2 F G x : form2 (mid2 F G) x = (form2 F x + form2 G x) / 2.
Proof. unfold form2, dotr2, app2, mid2. cbn [m00 m01 m10 m11 x2 y2]. field. Qed.
Lemma mid_pd2 F G : sympd2 F -> sympd2 G -> sympd2 (mid2 F G).
Proof.
  intros [SF PF] [SG PG]. split.
  - destruct F as [a b c d], G as [a' b' c' d']. injection SF as E _. injection SG as E' _. subst c c'. reflexivity.
  - intros x N. change (0 < form2 (mid2 F G) x). rewrite form_midm2. pose proof (PF x N) as P. pose proof (PG x N) as Q. unfold form2. lra.
Qed.
Lemma pd_entries2 F : sympd2 F -> 0 < m00 F /\ 0 < m11 F /\ m10 F = m01 F /\ 0 < determinant2 F.
Proof.
  intros [S P]. destruct F as [a b c d]. injection S as E _. subst c. cbn [m00 m01 m10 m11].
  assert (A : 0 < a). { assert (N : V2 1 0 <> V2 0 0) by (intros E; injection E; lra). pose proof (P _ N) as H. unfold dotr2, app2 in H. cbn in H. lra. }
  assert (D : 0 < d). { assert (N : V2 0 1 <> V2 0 0) by (intros E; injection E; lra). pose proof (P _ N) as H. unfold dotr2, app2 in H. cbn in H. lra. }
  split; [exact A|]. split; [exact D|]. split; [reflexivity|].
  assert (N : V2 b (- a) <> V2 0 0) by (intros E; injection E; lra). pose proof (P _ N) as H. unfold dotr2, app2, determinant2 in *. cbn [m00 m01 m10 m11 x2 y2] in *.
  replace (b * (a * b + b * - a) + - a * (b * b + d * - a)) with (a * (a * d - b * b)) in H by ring.
  apply Rmult_lt_reg_l with a; [exact A|]. lra.
Qed.
(** A positive form and a positive semidefinite one have a positive mixed determinant. *)
Lemma mixed2 p q r x y z : 0 < p -> 0 < r -> 0 < p * r - q * q -> 0 <= x -> 0 <= z -> y * y <= x * z -> p * z + r * x - 2 * q * y <= 0 -> x = 0 /\ y = 0 /\ z = 0.
Proof.
  intros P R_ D X Z Y L.
  assert (K : (p * z - r * x) * (p * z - r * x) + 4 * (p * r * (x * z) - q * q * (y * y)) <= 0).
  { assert (S : 0 <= p * z + r * x) by nra. assert (S2 : p * z + r * x <= 2 * q * y) by lra.
    assert (SQ : (p * z + r * x) * (p * z + r * x) <= (2 * q * y) * (2 * q * y)) by (apply Rmult_le_compat; lra). nra. }
  assert (QY : q * q * (y * y) <= q * q * (x * z)) by (apply Rmult_le_compat_l; [nra|exact Y]).
  assert (XZ : 0 <= x * z) by (apply Rmult_le_pos; assumption).
  assert (XZ0 : x * z = 0).
  { pose proof (Rle_0_sqr (p * z - r * x)) as Q. unfold Rsqr in Q. assert (U : (p * r - q * q) * (x * z) <= 0) by lra.
    assert (V : 0 <= (p * r - q * q) * (x * z)) by (apply Rmult_le_pos; lra). assert (W : (p * r - q * q) * (x * z) = 0) by lra.
    apply Rmult_integral in W. destruct W as [W|W]; [lra|exact W]. }
  assert (Y0 : y = 0). { rewrite XZ0 in Y. pose proof (Rle_0_sqr y) as Q. unfold Rsqr in Q. assert (W : y * y = 0) by lra. apply Rmult_integral in W. tauto. }
  subst y. assert (PZ : 0 <= p * z) by (apply Rmult_le_pos; lra). assert (RX : 0 <= r * x) by (apply Rmult_le_pos; lra).
  assert (E1' : r * x = 0) by lra. assert (E2' : p * z = 0) by lra. apply Rmult_integral in E1'. apply Rmult_integral in E2'.
  split; [destruct E1' as [W|W]; [lra|exact W]|]. split; [reflexivity|]. destruct E2' as [W|W]; [lra|exact W].
Qed.
Lemma det_unique2 F C : sympd2 F -> sympd2 C -> determinant2 C <= determinant2 F -> determinant2 F <= determinant2 C ->
  determinant2 (mid2 F C) <= determinant2 C -> F = C.
Proof.
  intros PF PC L U M. destruct (pd_entries2 F PF) as (A & B & E & D). destruct (pd_entries2 C PC) as (A' & B' & E' & D').
  destruct F as [a b c d], C as [a' b' c' d']. unfold determinant2, mid2 in *. cbn [m00 m01 m10 m11] in *. subst c c'.
  set (x := a - a') in *. set (y := b - b') in *. set (z := d - d') in *.
  assert (EX : a = a' + x) by (unfold x; ring). assert (EY : b = b' + y) by (unfold y; ring). assert (EZ : d = d' + z) by (unfold z; ring).
  clearbody x y z. subst a b d.
  assert (Q : y * y <= x * z).
  { assert (H : (a' + x + a') / 2 * ((d' + z + d') / 2) - (b' + y + b') / 2 * ((b' + y + b') / 2) = (a' * d' - b' * b') + (a' * z + x * d' - 2 * b' * y) / 2 + (x * z - y * y) / 4) by field. nra. }
  assert (X0 : x = 0 /\ y = 0 /\ z = 0).
  { assert (XZ : 0 <= x * z) by nra. destruct (Rle_dec 0 x) as [GX|GX]; [destruct (Rle_dec 0 z) as [GZ|GZ]|].
    - apply (mixed2 a' b' d'); try assumption. nra.
    - assert (X0 : x = 0) by nra. assert (Y0 : y = 0) by nra. subst x y. exfalso. nra.
    - destruct (Rle_dec z 0) as [GZ|GZ]; [|exfalso; nra].
      destruct (mixed2 (a' + x) (b' + y) (d' + z) (- x) (- y) (- z)) as (U1 & U2 & U3); try assumption; try lra; nra. }
  destruct X0 as (-> & -> & ->). f_equal; ring.
Qed.
Definition shrink2 (F : m2) (k : R) : m2 := M2 (m00 F * k) (m01 F * k) (m10 F * k) (m11 F * k).
Lemma form_shrink2 F k x : form2 (shrink2 F k) x = k * form2 F x.
Proof. unfold form2, dotr2, app2, shrink2. cbn [m00 m01 m10 m11 x2 y2]. ring. Qed.
Lemma shrink_pd2 F k : 0 < k -> sympd2 F -> sympd2 (shrink2 F k).
Proof.
  intros K [SF PF]. split.
  - destruct F as [a b c d]. injection SF as E _. subst c. reflexivity.
  - intros x N. change (0 < form2 (shrink2 F k) x). rewrite form_shrink2. apply Rmult_lt_0_compat; [exact K|exact (PF x N)].
Qed.
Lemma encl_slack2 a b t e0 e1 s c : 0 < a -> 0 < b -> 0 < e0 -> 0 < e1 -> encloses2 (ellipse_at e0 e1 s c) (ellipse0 (a, b) t) ->
  let F := conj2 (rot2 s) (/ (e0 * e0)) (/ (e1 * e1)) in
  forall p, in2 (ellipse0 (a, b) t) p -> form2 F p <= 1 - form2 F c.
Proof.
  intros A B E0 E1 EN F p Hp. pose proof (in2_at _ _ _ _ _ (EN p Hp)) as H1. pose proof (in2_at _ _ _ _ _ (EN (neg2 p) (in2_neg a b t p A B Hp))) as H2.
  apply in_form2 in H1; [|exact E0|exact E1]. apply in_form2 in H2; [|exact E0|exact E1]. fold F in H1, H2.
  pose proof (form_mid2 F p c) as M. lra.
Qed.
(** What [mvce2_matrix] leaves open: an ellipse enclosing both that is no larger has the same
    matrix and the same centre. *)
Lemma smallest_unique2 (a0 a1 b0 b1 thA thB : R) (C : m2) e0 e1 s ctr : 0 < a0 -> 0 < a1 -> 0 < b0 -> 0 < b1 -> 0 < e0 -> 0 < e1 ->
  sympd2 C -> (forall p, in2 (ellipse0 (a0, a1) thA) p -> form2 C p <= 1) -> (forall p, in2 (ellipse0 (b0, b1) thB) p -> form2 C p <= 1) ->
  (forall F, sympd2 F -> (forall p, in2 (ellipse0 (a0, a1) thA) p -> form2 F p <= 1) -> (forall p, in2 (ellipse0 (b0, b1) thB) p -> form2 F p <= 1) ->
     determinant2 F <= determinant2 C) ->
  encloses2 (ellipse_at e0 e1 s ctr) (ellipse0 (a0, a1) thA) -> encloses2 (ellipse_at e0 e1 s ctr) (ellipse0 (b0, b1) thB) ->
  determinant2 C <= determinant2 (conj2 (rot2 s) (/ (e0 * e0)) (/ (e1 * e1))) ->
  ctr = V2 0 0 /\ conj2 (rot2 s) (/ (e0 * e0)) (/ (e1 * e1)) = C.
Proof.
  intros A0 A1 B0 B1 E0 E1 PC CA CB LE XA XB GE.
  set (F := conj2 (rot2 s) (/ (e0 * e0)) (/ (e1 * e1))) in *.
  assert (PF : sympd2 F) by (apply conj2_pd; [apply rot2_rotation| |]; apply Rinv_0_lt_compat; nra).
  pose proof (encl_slack2 _ _ _ _ _ _ _ A0 A1 E0 E1 XA) as SA. pose proof (encl_slack2 _ _ _ _ _ _ _ B0 B1 E0 E1 XB) as SB. fold F in SA, SB. cbv zeta in SA, SB.
  pose proof (pd_ge2 F ctr PF) as G. set (k := form2 F ctr) in *.
  assert (FA : forall p, in2 (ellipse0 (a0, a1) thA) p -> form2 F p <= 1) by (intros p Hp; pose proof (SA p Hp); lra).
  assert (FB : forall p, in2 (ellipse0 (b0, b1) thB) p -> form2 F p <= 1) by (intros p Hp; pose proof (SB p Hp); lra).
  pose proof (LE F PF FA FB) as GL.
  assert (K1 : 0 < 1 - k).
  { set (p := app2 (rot2 thA) (V2 a0 0)).
    assert (TP : app2 (tr2 (rot2 thA)) p = V2 a0 0) by (unfold p; rewrite <- app_mul2; destruct (rot2_rotation thA) as [[_ O2] _]; rewrite O2, app_id2; reflexivity).
    assert (IP : in2 (ellipse0 (a0, a1) thA) p). { apply in_form2; [exact A0|exact A1|]. rewrite form_conj2, TP. cbn [x2 y2]. right. field. lra. }
    assert (NP : p <> V2 0 0). { intros Z. rewrite Z in TP. pose proof (f_equal x2 TP) as W. unfold app2 in W. cbn in W. lra. }
    pose proof (proj2 PF p NP) as P. pose proof (SA p IP) as Q. unfold form2 in Q. unfold form2 in *. lra. }
  assert (K0 : k = 0).
  { set (j := / (1 - k)). assert (J : 0 < j) by (apply Rinv_0_lt_compat; exact K1). assert (JK : j * (1 - k) = 1) by (unfold j; field; lra).
    pose proof (LE (shrink2 F j) (shrink_pd2 F j J PF)) as H.
    assert (HA : forall p, in2 (ellipse0 (a0, a1) thA) p -> form2 (shrink2 F j) p <= 1).
    { intros p Hp. rewrite form_shrink2, <- JK. apply Rmult_le_compat_l; [lra|exact (SA p Hp)]. }
    assert (HB : forall p, in2 (ellipse0 (b0, b1) thB) p -> form2 (shrink2 F j) p <= 1).
    { intros p Hp. rewrite form_shrink2, <- JK. apply Rmult_le_compat_l; [lra|exact (SB p Hp)]. }
    specialize (H HA HB). replace (determinant2 (shrink2 F j)) with (j * j * determinant2 F) in H by (unfold determinant2, shrink2; cbn [m00 m01 m10 m11]; ring).
    destruct (pd_entries2 F PF) as (_ & _ & _ & DF). destruct (Rle_lt_or_eq_dec 0 k G) as [KP|KE]; [exfalso|symmetry; exact KE].
    assert (J1 : 1 < j). { apply Rmult_lt_reg_r with (1 - k); [exact K1|]. rewrite JK. lra. }
    assert (JJ : 1 < j * j) by nra. nra. }
  split.
  - destruct (v2_dec ctr) as [E|N]; [exact E|]. exfalso. pose proof (proj2 PF ctr N) as P. unfold k, form2 in K0. lra.
  - apply det_unique2; [exact PF|exact PC|exact GE|exact GL|]. apply LE; [apply mid_pd2; assumption| |].
    + intros p Hp. rewrite form_midm2. pose proof (FA p Hp). pose proof (CA p Hp). lra.
    + intros p Hp. rewrite form_midm2. pose proof (FB p Hp). pose proof (CB p Hp). lra.
Qed.
Lemma mvce2_unique svd a0 a1 b0 b1 thA thB c t e0 e1 s ctr : svd2_ok svd -> upper_svd2 svd -> 0 < a0 -> 0 < a1 -> 0 < b0 -> 0 < b1 -> 0 < e0 -> 0 < e1 ->
  mvce2 svd (a0, a1) (b0, b1) thA thB = Some (c, t) ->
  encloses2 (ellipse_at e0 e1 s ctr) (ellipse0 (a0, a1) thA) -> encloses2 (ellipse_at e0 e1 s ctr) (ellipse0 (b0, b1) thB) ->
  e0 * e1 <= fst c * snd c -> forall p, in2 (ellipse_at e0 e1 s ctr) p <-> in2 (ellipse0 c t) p.
Proof.
  intros OK UP A0 A1 B0 B1 E0 E1 H XA XB L p.
  destruct (mvce2_matrix svd OK (a0, a1) (b0, b1) thA thB (conj A0 A1) (conj B0 B1)) as (C & W & z0 & z1 & PC & EW & SW & Z0 & Z1 & EC & ER & CA & CB & _ & LE).
  rewrite ER in H. injection H as <- <-. cbn [fst snd] in L. pose proof SW as (OW & _).
  assert (DZ : determinant2 C = z0 * z1) by (rewrite EC; apply conj_det; exact OW). rewrite <- DZ in LE.
  assert (S0 : 0 < sqrt z0) by (apply sqrt_lt_R0; exact Z0). assert (S1 : 0 < sqrt z1) by (apply sqrt_lt_R0; exact Z1).
  assert (Q0 : sqrt z0 * sqrt z0 = z0) by (apply sqrt_sqrt; lra). assert (Q1 : sqrt z1 * sqrt z1 = z1) by (apply sqrt_sqrt; lra).
  assert (P0 : 0 < / sqrt z0) by (apply Rinv_0_lt_compat; exact S0). assert (P1 : 0 < / sqrt z1) by (apply Rinv_0_lt_compat; exact S1).
  assert (GE : determinant2 C <= determinant2 (conj2 (rot2 s) (/ (e0 * e0)) (/ (e1 * e1)))).
  { rewrite DZ, conj_det by apply rot2_rotation. rewrite <- Rinv_mult. replace (z0 * z1) with (/ ((/ sqrt z0 * / sqrt z1) * (/ sqrt z0 * / sqrt z1))).
    - apply Rinv_le_contravar; [apply Rmult_lt_0_compat; nra|]. replace (e0 * e0 * (e1 * e1)) with (e0 * e1 * (e0 * e1)) by ring. apply Rmult_le_compat; nra.
    - rewrite <- Q0 at 3. rewrite <- Q1 at 3. field. lra. }
  destruct (smallest_unique2 a0 a1 b0 b1 thA thB C e0 e1 s ctr A0 A1 B0 B1 E0 E1 PC CA CB LE XA XB GE) as [-> EF].
  destruct (acos_upper W OW) as [_ [CT ST]]. pose proof (UP C PC) as P. rewrite EW in P. cbn [fst] in P.
  rewrite Rabs_right in ST by lra. rewrite (orth_conj_angle W z0 z1 _ OW CT ST) in EC.
  change (ellipse_at e0 e1 s (V2 0 0)) with (ellipse0 (e0, e1) s). rewrite (in_form2 e0 e1 s p E0 E1), (in_form2 (/ sqrt z0) (/ sqrt z1) _ p P0 P1), EF, EC.
  assert (I0 : / (/ sqrt z0 * / sqrt z0) = z0) by (rewrite <- Rinv_mult, Rinv_inv; exact Q0).
  assert (I1 : / (/ sqrt z1 * / sqrt z1) = z1) by (rewrite <- Rinv_mult, Rinv_inv; exact Q1).
  rewrite I0, I1. reflexivity.
Qed.
(** -- space -- *)
Lemma unit_eigs s0 s1 s2 : 0 < s0 -> 0 < s1 -> 0 < s2 -> 1 <= s0 * s1 * s2 -> (1 + s0) / 2 * ((1 + s1) / 2) * ((1 + s2) / 2) <= 1 -> s0 = 1 /\ s1 = 1 /\ s2 = 1.
Proof.
  assert (ONE : forall s0 s1 s2, 0 < s0 -> 0 < s1 -> 0 < s2 -> 1 <= s0 * s1 * s2 -> (1 + s0) / 2 * ((1 + s1) / 2) * ((1 + s2) / 2) <= 1 -> s0 = 1).
  { clear. intros a b c A B C_ P Q.
    set (u := (1 + a) / 2) in *. set (v := (1 + b) / 2) in *. set (w := (1 + c) / 2) in *.
    assert (U : 0 < u) by (unfold u; lra). assert (V : 0 < v) by (unfold v; lra). assert (W : 0 < w) by (unfold w; lra).
    assert (UA : u * u = a + (1 - a) / 2 * ((1 - a) / 2)) by (unfold u; field).
    assert (VB : b <= v * v) by (replace (v * v) with (b + (1 - b) / 2 * ((1 - b) / 2)) by (unfold v; field); pose proof (Rle_0_sqr ((1 - b) / 2)) as S; unfold Rsqr in S; lra).
    assert (WC : c <= w * w) by (replace (w * w) with (c + (1 - c) / 2 * ((1 - c) / 2)) by (unfold w; field); pose proof (Rle_0_sqr ((1 - c) / 2)) as S; unfold Rsqr in S; lra).
    assert (T : u * v * w * (u * v * w) <= 1). { assert (Z : 0 <= u * v * w) by (apply Rmult_le_pos; [apply Rmult_le_pos|]; lra). replace 1 with (1 * 1) by ring. apply Rmult_le_compat; assumption. }
    assert (BC : b * c <= v * v * (w * w)) by (apply Rmult_le_compat; lra).
    assert (K : u * u * (b * c) <= 1). { apply Rle_trans with (u * u * (v * v * (w * w))); [apply Rmult_le_compat_l; [nra|exact BC]|]. replace (u * u * (v * v * (w * w))) with (u * v * w * (u * v * w)) by ring. exact T. }
    rewrite UA in K. assert (BC0 : 0 < b * c) by (apply Rmult_lt_0_compat; assumption).
    set (d := (1 - a) / 2) in *. assert (DD : d * d * (b * c) <= 0) by (replace (d * d * (b * c)) with ((a + d * d) * (b * c) - a * b * c) by ring; lra).
    assert (D0 : d * d = 0). { pose proof (Rle_0_sqr d) as S. unfold Rsqr in S. destruct (Rle_lt_or_eq_dec 0 (d * d) S) as [L|E]; [|symmetry; exact E]. exfalso. pose proof (Rmult_lt_0_compat _ _ L BC0). lra. }
    assert (D1 : d = 0) by (apply Rmult_integral in D0; tauto). unfold d in D1. lra. }
  intros P0 P1 P2 P Q. split; [exact (ONE s0 s1 s2 P0 P1 P2 P Q)|]. split.
  - apply (ONE s1 s2 s0 P1 P2 P0); [replace (s1 * s2 * s0) with (s0 * s1 * s2) by ring; exact P|].
    replace ((1 + s1) / 2 * ((1 + s2) / 2) * ((1 + s0) / 2)) with ((1 + s0) / 2 * ((1 + s1) / 2) * ((1 + s2) / 2)) by ring. exact Q.
  - apply (ONE s2 s0 s1 P2 P0 P1); [replace (s2 * s0 * s1) with (s0 * s1 * s2) by ring; exact P|].
    replace ((1 + s2) / 2 * ((1 + s0) / 2) * ((1 + s1) / 2)) with ((1 + s0) / 2 * ((1 + s1) / 2) * ((1 + s2) / 2)) by ring. exact Q.
Qed.
Lemma conj_id3 U : orthogonal3 U -> conj3 U 1 1 1 = id3.
Proof.
  intros [O1 _]. unfold conj3. rewrite <- scal_comm, mul3_assoc, O1, mul3_1. unfold id3, diag3. reflexivity.
Qed.
Lemma form_id3 x : form3 id3 x = dot3 x x.
Proof. unfold form3. rewrite app_id. reflexivity. Qed.
Definition shrink3 (F : m3) (k : R) : m3 := mul3 F (diag3 k k k).
Lemma app_diag k x : app3 (diag3 k k k) x = scale3 k x.
Proof. unfold app3, diag3, dot3, scale3. cbn [x3 y3 z3 r0 r1 r2]. f_equal; ring. Qed.
Lemma form_shrink3 F k x : form3 (shrink3 F k) x = k * form3 F x.
Proof. unfold form3, shrink3. rewrite app_mul3, app_diag. unfold app3, dot3, scale3. cbn [x3 y3 z3]. ring. Qed.
Lemma shrink_pd3 F k : 0 < k -> sympd3 F -> sympd3 (shrink3 F k).
Proof.
  intros K [SF PF]. split.
  - unfold shrink3. rewrite tr_mul3, tr_diag, SF. apply scal_comm.
  - intros x N. change (0 < form3 (shrink3 F k) x). rewrite form_shrink3. apply Rmult_lt_0_compat; [exact K|exact (PF x N)].
Qed.
Lemma det_shrink3 F k : determinant3 (shrink3 F k) = k * k * k * determinant3 F.
Proof. unfold shrink3. rewrite det_mul. unfold determinant3, diag3. cbn [x3 y3 z3 r0 r1 r2]. ring. Qed.
(** Two positive forms with no common enclosure of larger determinant are the same. *)
Lemma det_unique3 svd W z0 z1 z2 F (P Q : v3 -> Prop) : svd3_ok svd -> orthogonal3 W -> 0 < z0 -> 0 < z1 -> 0 < z2 ->
  sympd3 F -> z0 * z1 * z2 <= determinant3 F ->
  (forall p, P p -> form3 F p <= 1) -> (forall p, P p -> form3 (conj3 W z0 z1 z2) p <= 1) ->
  (forall p, Q p -> form3 F p <= 1) -> (forall p, Q p -> form3 (conj3 W z0 z1 z2) p <= 1) ->
  (forall G, sympd3 G -> (forall p, P p -> form3 G p <= 1) -> (forall p, Q p -> form3 G p <= 1) -> determinant3 G <= z0 * z1 * z2) ->
  F = conj3 W z0 z1 z2.
Proof.
  intros OK OW Z0 Z1 Z2 PF GE FP CP FQ CQ LE.
  assert (S0 : 0 < sqrt z0) by (apply sqrt_lt_R0; exact Z0). assert (S1 : 0 < sqrt z1) by (apply sqrt_lt_R0; exact Z1). assert (S2 : 0 < sqrt z2) by (apply sqrt_lt_R0; exact Z2).
  assert (Q0 : sqrt z0 * sqrt z0 = z0) by (apply sqrt_sqrt; lra). assert (Q1 : sqrt z1 * sqrt z1 = z1) by (apply sqrt_sqrt; lra). assert (Q2 : sqrt z2 * sqrt z2 = z2) by (apply sqrt_sqrt; lra).
  set (T := conj3 W (sqrt z0) (sqrt z1) (sqrt z2)).
  assert (ST : tr3 T = T) by apply conj3_sym.
  assert (TT : mul3 T T = conj3 W z0 z1 z2) by (unfold T; rewrite conj3_mul by exact OW; rewrite Q0, Q1, Q2; reflexivity).
  assert (DT : determinant3 T * determinant3 T = z0 * z1 * z2) by (rewrite <- det_mul, TT; apply det_conj3; exact OW).
  assert (Z : 0 < z0 * z1 * z2) by (apply Rmult_lt_0_compat; [apply Rmult_lt_0_compat|]; assumption).
  assert (NT : determinant3 T <> 0) by (intros E; rewrite E in DT; lra).
  destruct (inv3_eq T ST NT) as (Ti & _ & I1 & I2 & STi).
  assert (NZ : forall M N, mul3 N M = id3 -> forall x, x <> o3 -> app3 M x <> o3).
  { intros M N E x Nx Y. apply Nx. rewrite <- (app_id x), <- E, app_mul3, Y. apply app_0. }
  set (G := mul3 (mul3 Ti F) Ti).
  assert (PG : sympd3 G) by (apply sandwich_pd3; [exact STi|exact PF|exact (NZ Ti T I2)]).
  pose proof (OK G PG) as SV. destruct (svd G) as [U [[g0 g1] g2]].
  destruct (svd3_sym G U g0 g1 g2 PG SV) as (EG & G0 & G1 & G2). pose proof SV as (OU & _).
  assert (FG : F = mul3 (mul3 T G) T).
  { unfold G. rewrite !mul3_assoc, I1, mul3_1, <- mul3_assoc, I2, mul1_3. reflexivity. }
  assert (DG : determinant3 F = z0 * z1 * z2 * (g0 * g1 * g2)).
  { rewrite FG, !det_mul, EG, det_conj3 by exact OU. rewrite <- DT. ring. }
  set (H := mul3 (mul3 T (conj3 U ((1 + g0) / 2) ((1 + g1) / 2) ((1 + g2) / 2))) T).
  assert (PH : sympd3 H) by (apply sandwich_pd3; [exact ST|apply conj3_pd; [exact OU| | |]; lra|exact (NZ T Ti I1)]).
  assert (FH : forall p, form3 H p = (form3 (conj3 W z0 z1 z2) p + form3 F p) / 2).
  { intros p. unfold H. rewrite form_sandwich3 by exact ST.
    assert (E1' : form3 (conj3 W z0 z1 z2) p = dot3 (app3 T p) (app3 T p)).
    { rewrite <- TT. unfold form3. rewrite app_mul3. rewrite dot_tr, ST. reflexivity. }
    rewrite E1'. rewrite FG. rewrite form_sandwich3 by exact ST. rewrite EG, !form_conj3, <- (orth_norm3 U (app3 T p) OU).
    unfold wsum. set (y := app3 (tr3 U) (app3 T p)). unfold dot3. field. }
  assert (DH : determinant3 H <= z0 * z1 * z2).
  { apply LE; [exact PH| |]; intros p Hp; rewrite FH.
    - pose proof (FP p Hp). pose proof (CP p Hp). lra.
    - pose proof (FQ p Hp). pose proof (CQ p Hp). lra. }
  assert (DHE : determinant3 H = z0 * z1 * z2 * ((1 + g0) / 2 * ((1 + g1) / 2) * ((1 + g2) / 2))).
  { unfold H. rewrite !det_mul, det_conj3 by exact OU. rewrite <- DT. ring. }
  destruct (unit_eigs g0 g1 g2 G0 G1 G2) as (-> & -> & ->).
  - apply Rmult_le_reg_l with (z0 * z1 * z2); [exact Z|]. rewrite <- DG. lra.
  - apply Rmult_le_reg_l with (z0 * z1 * z2); [exact Z|]. rewrite <- DHE. lra.
  - rewrite FG, EG, (conj_id3 U OU), mul3_1. exact TT.
Qed.
Lemma encl_slack3 a b c q e0 e1 e2 s ctr : 0 < a -> 0 < b -> 0 < c -> unit_quat q -> 0 < e0 -> 0 < e1 -> 0 < e2 -> unit_quat s ->
  encloses3 (ellipsoid_at e0 e1 e2 s ctr) (ellipsoid0 (a, b, c) q) ->
  let F := conj3 (rotm s) (/ (e0 * e0)) (/ (e1 * e1)) (/ (e2 * e2)) in
  forall p, in3 (ellipsoid0 (a, b, c) q) p -> form3 F p <= 1 - form3 F ctr.
Proof.
  intros A B C U E0 E1 E2 V EN F p Hp. pose proof (in3_at _ _ _ _ _ _ (EN p Hp)) as H1. pose proof (in3_at _ _ _ _ _ _ (EN (neg3 p) (in3_neg a b c q p A B C U Hp))) as H2.
  apply in_form3 in H1; try assumption. apply in_form3 in H2; try assumption. fold F in H1, H2.
  pose proof (form_mid3 F p ctr) as M. lra.
Qed.
Lemma smallest_unique3 svd a0 a1 a2 b0 b1 b2 qA qB W z0 z1 z2 e0 e1 e2 s ctr : svd3_ok svd -> orthogonal3 W -> 0 < z0 -> 0 < z1 -> 0 < z2 ->
  0 < a0 -> 0 < a1 -> 0 < a2 -> 0 < b0 -> 0 < b1 -> 0 < b2 -> unit_quat qA -> unit_quat qB -> 0 < e0 -> 0 < e1 -> 0 < e2 -> unit_quat s ->
  (forall p, in3 (ellipsoid0 (a0, a1, a2) qA) p -> form3 (conj3 W z0 z1 z2) p <= 1) -> (forall p, in3 (ellipsoid0 (b0, b1, b2) qB) p -> form3 (conj3 W z0 z1 z2) p <= 1) ->
  (forall F, sympd3 F -> (forall p, in3 (ellipsoid0 (a0, a1, a2) qA) p -> form3 F p <= 1) -> (forall p, in3 (ellipsoid0 (b0, b1, b2) qB) p -> form3 F p <= 1) ->
     determinant3 F <= z0 * z1 * z2) ->
  encloses3 (ellipsoid_at e0 e1 e2 s ctr) (ellipsoid0 (a0, a1, a2) qA) -> encloses3 (ellipsoid_at e0 e1 e2 s ctr) (ellipsoid0 (b0, b1, b2) qB) ->
  z0 * z1 * z2 <= / (e0 * e0) * / (e1 * e1) * / (e2 * e2) ->
  ctr = o3 /\ conj3 (rotm s) (/ (e0 * e0)) (/ (e1 * e1)) (/ (e2 * e2)) = conj3 W z0 z1 z2.
Proof.
  intros OK OW Z0 Z1 Z2 A0 A1 A2 B0 B1 B2 UA UB E0 E1 E2 US CA CB LE XA XB GE.
  pose proof (ell_pd3 e0 e1 e2 s E0 E1 E2 US) as PF. 
  pose proof (encl_slack3 _ _ _ _ _ _ _ _ _ A0 A1 A2 UA E0 E1 E2 US XA) as SA. pose proof (encl_slack3 _ _ _ _ _ _ _ _ _ B0 B1 B2 UB E0 E1 E2 US XB) as SB. cbv zeta in SA, SB.
  assert (OS : orthogonal3 (rotm s)) by (apply rotm_rotation; exact US).
  assert (DF : determinant3 (conj3 (rotm s) (/ (e0 * e0)) (/ (e1 * e1)) (/ (e2 * e2))) = / (e0 * e0) * / (e1 * e1) * / (e2 * e2)) by (apply det_conj3; exact OS).
  set (F := conj3 (rotm s) (/ (e0 * e0)) (/ (e1 * e1)) (/ (e2 * e2))) in *. rewrite <- DF in GE.
  pose proof (pd_ge3 F ctr PF) as G. set (k := form3 F ctr) in *.
  assert (FA : forall p, in3 (ellipsoid0 (a0, a1, a2) qA) p -> form3 F p <= 1) by (intros p Hp; pose proof (SA p Hp); lra).
  assert (FB : forall p, in3 (ellipsoid0 (b0, b1, b2) qB) p -> form3 F p <= 1) by (intros p Hp; pose proof (SB p Hp); lra).
  assert (Z : 0 < z0 * z1 * z2) by (apply Rmult_lt_0_compat; [apply Rmult_lt_0_compat|]; assumption).
  assert (K1 : 0 < 1 - k).
  { assert (OA : orthogonal3 (rotm qA)) by (apply rotm_rotation; exact UA).
    set (p := app3 (rotm qA) (V3r a0 0 0)).
    assert (TP : app3 (tr3 (rotm qA)) p = V3r a0 0 0) by (unfold p; rewrite <- app_mul3; destruct OA as [_ O2]; rewrite O2, app_id; reflexivity).
    assert (IP : in3 (ellipsoid0 (a0, a1, a2) qA) p). { apply in_form3; [exact A0|exact A1|exact A2|exact UA|]. rewrite form_conj3, TP. unfold wsum. cbn [x3 y3 z3]. right. field. lra. }
    assert (NP : p <> o3). { intros Y. rewrite Y, app_0 in TP. pose proof (f_equal x3 TP) as V. unfold o3 in V. cbn [x3] in V. lra. }
    pose proof (proj2 PF p NP) as P. pose proof (SA p IP) as Q. unfold form3 in Q. lra. }
  assert (K0 : k = 0).
  { set (j := / (1 - k)). assert (J : 0 < j) by (apply Rinv_0_lt_compat; exact K1). assert (JK : j * (1 - k) = 1) by (unfold j; field; lra).
    assert (H : determinant3 (shrink3 F j) <= z0 * z1 * z2).
    { apply LE; [apply shrink_pd3; assumption| |]; intros p Hp; rewrite form_shrink3, <- JK; apply Rmult_le_compat_l; [lra|exact (SA p Hp)|lra|exact (SB p Hp)]. }
    rewrite det_shrink3 in H. destruct (Rle_lt_or_eq_dec 0 k G) as [KP|KE]; [exfalso|symmetry; exact KE].
    assert (J1 : 1 < j). { apply Rmult_lt_reg_r with (1 - k); [exact K1|]. rewrite JK. lra. }
    assert (JJ : 1 < j * j * j) by nra. set (d := determinant3 F) in *. assert (D0 : 0 < d) by lra.
    assert (M : 1 * d < j * j * j * d) by (apply Rmult_lt_compat_r; assumption). lra. }
  split.
  - destruct (v3_dec ctr) as [E|N]; [exact E|]. exfalso. pose proof (proj2 PF ctr N) as P. unfold k, form3 in K0. lra.
  - exact (det_unique3 svd W z0 z1 z2 F _ _ OK OW Z0 Z1 Z2 PF GE FA CA FB CB LE).
Qed.
Lemma mvce3_unique svd a0 a1 a2 b0 b1 b2 qA qB c qc e0 e1 e2 s ctr : svd3_ok svd -> proper_svd3 svd -> 0 < a0 -> 0 < a1 -> 0 < a2 -> 0 < b0 -> 0 < b1 -> 0 < b2 ->
  unit_quat qA -> unit_quat qB -> 0 < e0 -> 0 < e1 -> 0 < e2 -> unit_quat s ->
  mvce3 svd (a0, a1, a2) (b0, b1, b2) qA qB = Some (c, qc) ->
  encloses3 (ellipsoid_at e0 e1 e2 s ctr) (ellipsoid0 (a0, a1, a2) qA) -> encloses3 (ellipsoid_at e0 e1 e2 s ctr) (ellipsoid0 (b0, b1, b2) qB) ->
  e0 * e1 * e2 <= fst (fst c) * snd (fst c) * snd c ->
  forall p, in3 (ellipsoid_at e0 e1 e2 s ctr) p <-> in3 (ellipsoid0 c qc) p.
Proof.
  intros OK PR A0 A1 A2 B0 B1 B2 UA UB E0 E1 E2 US H XA XB L p.
  destruct (mvce3_matrix svd OK (a0, a1, a2) (b0, b1, b2) qA qB (conj A0 (conj A1 A2)) (conj B0 (conj B1 B2)) UA UB) as (C & W & z0 & z1 & z2 & PC & EW & SW & Z0 & Z1 & Z2 & EC & ER & CA & CB & _ & LE).
  rewrite ER in H. pose proof SW as (OW & _). pose proof (PR C PC) as D. rewrite EW in D. cbn [fst] in D.
  destruct (quat_of_rot W (conj OW D)) as (w & K1 & K2 & K3). rewrite K1 in H. cbn [obnd] in H. injection H as <- <-. cbn [fst snd] in L.
  rewrite EC in CA, CB.
  assert (S0 : 0 < sqrt z0) by (apply sqrt_lt_R0; exact Z0). assert (S1 : 0 < sqrt z1) by (apply sqrt_lt_R0; exact Z1). assert (S2 : 0 < sqrt z2) by (apply sqrt_lt_R0; exact Z2).
  assert (Q0 : sqrt z0 * sqrt z0 = z0) by (apply sqrt_sqrt; lra). assert (Q1 : sqrt z1 * sqrt z1 = z1) by (apply sqrt_sqrt; lra). assert (Q2 : sqrt z2 * sqrt z2 = z2) by (apply sqrt_sqrt; lra).
  assert (P0 : 0 < / sqrt z0) by (apply Rinv_0_lt_compat; exact S0). assert (P1 : 0 < / sqrt z1) by (apply Rinv_0_lt_compat; exact S1). assert (P2 : 0 < / sqrt z2) by (apply Rinv_0_lt_compat; exact S2).
  assert (I0 : / (/ sqrt z0 * / sqrt z0) = z0) by (rewrite <- Rinv_mult, Rinv_inv; exact Q0).
  assert (I1 : / (/ sqrt z1 * / sqrt z1) = z1) by (rewrite <- Rinv_mult, Rinv_inv; exact Q1).
  assert (I2 : / (/ sqrt z2 * / sqrt z2) = z2) by (rewrite <- Rinv_mult, Rinv_inv; exact Q2).
  assert (E012 : 0 < e0 * e1 * e2) by (apply Rmult_lt_0_compat; [apply Rmult_lt_0_compat|]; assumption).
  assert (GE : z0 * z1 * z2 <= / (e0 * e0) * / (e1 * e1) * / (e2 * e2)).
  { set (X := / sqrt z0 * / sqrt z1 * / sqrt z2) in *.
    assert (X0 : 0 < X) by (apply Rmult_lt_0_compat; [apply Rmult_lt_0_compat|]; assumption).
    assert (EZ : z0 * z1 * z2 = / (X * X)).
    { unfold X. rewrite !Rinv_mult, !Rinv_inv. rewrite <- Q0 at 1. rewrite <- Q1 at 1. rewrite <- Q2 at 1. ring. }
    rewrite EZ, <- !Rinv_mult. apply Rinv_le_contravar; [apply Rmult_lt_0_compat; [apply Rmult_lt_0_compat|]; apply Rmult_lt_0_compat; assumption|].
    replace (e0 * e0 * (e1 * e1) * (e2 * e2)) with (e0 * e1 * e2 * (e0 * e1 * e2)) by ring. apply Rmult_le_compat; lra. }
  destruct (smallest_unique3 svd a0 a1 a2 b0 b1 b2 qA qB W z0 z1 z2 e0 e1 e2 s ctr OK OW Z0 Z1 Z2 A0 A1 A2 B0 B1 B2 UA UB E0 E1 E2 US CA CB LE XA XB GE) as [-> EF].
  change (ellipsoid_at e0 e1 e2 s o3) with (ellipsoid0 (e0, e1, e2) s).
  rewrite (in_form3 e0 e1 e2 s p E0 E1 E2 US), (in_form3 (/ sqrt z0) (/ sqrt z1) (/ sqrt z2) w p P0 P1 P2 K2), EF, K3, I0, I1, I2. reflexivity.
Qed.
