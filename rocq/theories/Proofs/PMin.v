(** The enclosing ellipse (ellipsoid) is the smallest one, wherever the others are centred. *)
From Coq Require Import List Reals ZArith Arith Bool Lia Lra Psatz.
From Verif.Base Require Import Outcome.
From Verif.Model Require Import MGeom MMultiBody MTightFit.
From Verif.Spec Require Import SGeom SRigid.
From Verif.Proofs Require Import PGeom PGeom2 PGeom3 PRot PTight2 PTight3.
Import ListNotations.
Local Open Scope R_scope.

Lemma root_least z k : 0 < z -> 0 < k -> / (k * k) <= z -> / sqrt z <= k.
Proof.
  intros Z K L. assert (S : 0 < sqrt z) by (apply sqrt_lt_R0; exact Z). assert (KK : 0 < k * k) by nra.
  assert (P : sqrt (/ (k * k)) <= sqrt z) by (apply sqrt_le_1_alt; exact L).
  rewrite sqrt_inv, sqrt_square in P by lra. rewrite <- (Rinv_inv k). apply Rinv_le_contravar; [apply Rinv_0_lt_compat; exact K|exact P].
Qed.
(** -- plane -- *)
Definition neg2 (p : v2) : v2 := V2 (- x2 p) (- y2 p).
Definition dif2 (p c : v2) : v2 := V2 (x2 p - x2 c) (y2 p - y2 c).
Lemma in2_at a b t c p : in2 (ellipse_at a b t c) p -> in2 (ellipse0 (a, b) t) (dif2 p c).
Proof.
  unfold in2, level2, along, across, ellipse0, ellipse_at, dif2. cbn [ba bb be bc bt fst snd x2 y2]. rewrite !Rminus_0_r. intros H. exact H.
Qed.
Lemma form_neg2 F p : form2 F (neg2 p) = form2 F p.
Proof. unfold form2, dotr2, app2, neg2. cbn [x2 y2]. ring. Qed.
Lemma in2_neg a b t p : 0 < a -> 0 < b -> in2 (ellipse0 (a, b) t) p -> in2 (ellipse0 (a, b) t) (neg2 p).
Proof. intros A B H. apply in_form2; [exact A|exact B|]. rewrite form_neg2. apply in_form2 in H; assumption. Qed.
Lemma form_mid2 F p c : form2 F (dif2 p c) + form2 F (dif2 (neg2 p) c) = 2 * form2 F p + 2 * form2 F c.
Proof. unfold form2, dotr2, app2, neg2, dif2. cbn [x2 y2]. ring. Qed.
Lemma pd_ge2 F x : sympd2 F -> 0 <= form2 F x.
Proof.
  intros PF. destruct (Req_EM_T (x2 x) 0) as [X|X]; [destruct (Req_EM_T (y2 x) 0) as [Y|Y]|].
  - unfold form2, dotr2, app2. cbn [x2 y2]. rewrite X, Y. lra.
  - left. apply PF. intros E. rewrite E in Y. apply Y. reflexivity.
  - left. apply PF. intros E. rewrite E in X. apply X. reflexivity.
Qed.
Lemma centre_away2 a b t e0 e1 s c : 0 < a -> 0 < b -> 0 < e0 -> 0 < e1 -> encloses2 (ellipse_at e0 e1 s c) (ellipse0 (a, b) t) ->
  forall p, in2 (ellipse0 (a, b) t) p -> form2 (conj2 (rot2 s) (/ (e0 * e0)) (/ (e1 * e1))) p <= 1.
Proof.
  intros A B E0 E1 EN p Hp. pose proof (in2_at _ _ _ _ _ (EN p Hp)) as H1. pose proof (in2_at _ _ _ _ _ (EN (neg2 p) (in2_neg a b t p A B Hp))) as H2.
  apply in_form2 in H1; [|exact E0|exact E1]. apply in_form2 in H2; [|exact E0|exact E1].
  set (F := conj2 (rot2 s) (/ (e0 * e0)) (/ (e1 * e1))) in *.
  assert (PF : sympd2 F) by (apply conj2_pd; [apply rot2_rotation| |]; apply Rinv_0_lt_compat; nra).
  pose proof (form_mid2 F p c) as M. pose proof (pd_ge2 F c PF) as G. lra.
Qed.
Lemma mvce2_least svd a0 a1 b0 b1 thA thB c t e0 e1 s ctr : svd2_ok svd -> 0 < a0 -> 0 < a1 -> 0 < b0 -> 0 < b1 -> 0 < e0 -> 0 < e1 ->
  mvce2 svd (a0, a1) (b0, b1) thA thB = Some (c, t) ->
  encloses2 (ellipse_at e0 e1 s ctr) (ellipse0 (a0, a1) thA) -> encloses2 (ellipse_at e0 e1 s ctr) (ellipse0 (b0, b1) thB) ->
  fst c * snd c <= e0 * e1.
Proof.
  intros OK A0 A1 B0 B1 E0 E1 H XA XB.
  destruct (mvce2_matrix svd OK (a0, a1) (b0, b1) thA thB (conj A0 A1) (conj B0 B1)) as (C & W & z0 & z1 & PC & EW & SW & Z0 & Z1 & EC & ER & _ & _ & _ & LE).
  rewrite ER in H. injection H as <- _. cbn [fst snd].
  set (F := conj2 (rot2 s) (/ (e0 * e0)) (/ (e1 * e1))).
  assert (PF : sympd2 F) by (apply conj2_pd; [apply rot2_rotation| |]; apply Rinv_0_lt_compat; nra).
  pose proof (LE F PF (centre_away2 _ _ _ _ _ _ _ A0 A1 E0 E1 XA) (centre_away2 _ _ _ _ _ _ _ B0 B1 E0 E1 XB)) as D.
  unfold F in D. rewrite conj_det in D by apply rot2_rotation. rewrite <- Rinv_mult, <- sqrt_mult by lra.
  apply root_least; [nra|nra|]. replace (e0 * e1 * (e0 * e1)) with (e0 * e0 * (e1 * e1)) by ring. rewrite Rinv_mult. exact D.
Qed.
(** -- space -- *)
Definition neg3 (p : v3) : v3 := scale3 (-1) p.
Lemma in3_at a b c q ctr p : in3 (ellipsoid_at a b c q ctr) p -> in3 (ellipsoid0 (a, b, c) q) (sub3 p ctr).
Proof.
  intros (l & E & L). exists l. split; [|exact L]. rewrite E. unfold placed, ellipsoid0, ellipsoid_at, sub3, add3. cbn [sctr sq fst snd x3 y3 z3]. f_equal; ring.
Qed.
Lemma form_mid3 F p c : form3 F (sub3 p c) + form3 F (sub3 (neg3 p) c) = 2 * form3 F p + 2 * form3 F c.
Proof. unfold form3, neg3, scale3, sub3, dot3, app3, dot3. cbn [x3 y3 z3]. ring. Qed.
Lemma pd_ge3 F x : sympd3 F -> 0 <= form3 F x.
Proof.
  intros PF. destruct (v3_dec x) as [->|N]; [rewrite form_bil; unfold bil3; rewrite app_0; unfold dot3; cbn; lra|left; exact (proj2 PF x N)].
Qed.
Lemma in3_neg a b c q p : 0 < a -> 0 < b -> 0 < c -> unit_quat q -> in3 (ellipsoid0 (a, b, c) q) p -> in3 (ellipsoid0 (a, b, c) q) (neg3 p).
Proof.
  intros A B C U H. apply in_form3; [exact A|exact B|exact C|exact U|]. unfold neg3. rewrite form_scale3. apply in_form3 in H; try assumption. lra.
Qed.
Lemma ell_pd3 e0 e1 e2 s : 0 < e0 -> 0 < e1 -> 0 < e2 -> unit_quat s -> sympd3 (conj3 (rotm s) (/ (e0 * e0)) (/ (e1 * e1)) (/ (e2 * e2))).
Proof. intros. apply conj3_pd; [apply rotm_rotation; assumption| | |]; apply Rinv_0_lt_compat; apply Rmult_lt_0_compat; assumption. Qed.
Lemma centre_away3 a b c q e0 e1 e2 s ctr : 0 < a -> 0 < b -> 0 < c -> unit_quat q -> 0 < e0 -> 0 < e1 -> 0 < e2 -> unit_quat s ->
  encloses3 (ellipsoid_at e0 e1 e2 s ctr) (ellipsoid0 (a, b, c) q) ->
  forall p, in3 (ellipsoid0 (a, b, c) q) p -> form3 (conj3 (rotm s) (/ (e0 * e0)) (/ (e1 * e1)) (/ (e2 * e2))) p <= 1.
Proof.
  intros A B C U E0 E1 E2 V EN p Hp. pose proof (in3_at _ _ _ _ _ _ (EN p Hp)) as H1. pose proof (in3_at _ _ _ _ _ _ (EN (neg3 p) (in3_neg a b c q p A B C U Hp))) as H2.
  apply in_form3 in H1; try assumption. apply in_form3 in H2; try assumption.
  pose proof (ell_pd3 e0 e1 e2 s E0 E1 E2 V) as PF. set (F := conj3 (rotm s) (/ (e0 * e0)) (/ (e1 * e1)) (/ (e2 * e2))) in *.
  pose proof (form_mid3 F p ctr) as M. pose proof (pd_ge3 F ctr PF) as G. lra.
Qed.
Lemma mvce3_least svd a0 a1 a2 b0 b1 b2 qA qB c qc e0 e1 e2 s ctr : svd3_ok svd -> 0 < a0 -> 0 < a1 -> 0 < a2 -> 0 < b0 -> 0 < b1 -> 0 < b2 ->
  unit_quat qA -> unit_quat qB -> 0 < e0 -> 0 < e1 -> 0 < e2 -> unit_quat s ->
  mvce3 svd (a0, a1, a2) (b0, b1, b2) qA qB = Some (c, qc) ->
  encloses3 (ellipsoid_at e0 e1 e2 s ctr) (ellipsoid0 (a0, a1, a2) qA) -> encloses3 (ellipsoid_at e0 e1 e2 s ctr) (ellipsoid0 (b0, b1, b2) qB) ->
  fst (fst c) * snd (fst c) * snd c <= e0 * e1 * e2.
Proof.
  intros OK A0 A1 A2 B0 B1 B2 UA UB E0 E1 E2 US H XA XB.
  destruct (mvce3_matrix svd OK (a0, a1, a2) (b0, b1, b2) qA qB (conj A0 (conj A1 A2)) (conj B0 (conj B1 B2)) UA UB) as (C & W & z0 & z1 & z2 & PC & EW & SW & Z0 & Z1 & Z2 & EC & ER & _ & _ & _ & LE).
  rewrite ER in H. destruct (quat_of W) as [w|]; [|discriminate H]. cbn [obnd] in H. injection H as <- _. cbn [fst snd].
  set (F := conj3 (rotm s) (/ (e0 * e0)) (/ (e1 * e1)) (/ (e2 * e2))).
  assert (PF : sympd3 F) by (apply ell_pd3; assumption).
  pose proof (LE F PF (centre_away3 _ _ _ _ _ _ _ _ _ A0 A1 A2 UA E0 E1 E2 US XA) (centre_away3 _ _ _ _ _ _ _ _ _ B0 B1 B2 UB E0 E1 E2 US XB)) as D.
  assert (OS : orthogonal3 (rotm s)) by (apply rotm_rotation; exact US).
  unfold F in D. rewrite det_conj3 in D by exact OS.
  assert (Z01 : 0 < z0 * z1) by (apply Rmult_lt_0_compat; assumption). assert (E01 : 0 < e0 * e1) by (apply Rmult_lt_0_compat; assumption).
  rewrite <- !Rinv_mult, <- !sqrt_mult by lra.
  apply root_least; [apply Rmult_lt_0_compat; assumption|apply Rmult_lt_0_compat; assumption|].
  replace (e0 * e1 * e2 * (e0 * e1 * e2)) with (e0 * e0 * (e1 * e1) * (e2 * e2)) by ring. rewrite !Rinv_mult in *. exact D.
Qed.
