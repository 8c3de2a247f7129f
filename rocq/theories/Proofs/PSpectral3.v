(** A decomposition of symmetric 3x3 matrices, as a function. *)
From Coq Require Import List Reals ZArith Arith Bool Lia Lra Psatz.
From Verif.Base Require Import Outcome.
From Verif.Model Require Import MGeom MMultiBody MTightFit.
From Verif.Spec Require Import SGeom SRigid.
From Verif.Proofs Require Import PGeom PGeom2 PGeom3 PRot PTight2 PTight2X PTight3.
Import ListNotations.
Local Open Scope R_scope.

(** ---- a root of a cubic ---- *)
Definition cubic (t m d x : R) : R := x * x * x - t * (x * x) + m * x - d.
Lemma cubic_cont t m d : continuity (cubic t m d).
Proof. unfold cubic. reg. Qed.
Definition cbound (t m d : R) : R := 1 + Rabs t + Rabs m + Rabs d.
Lemma cubic_signs t m d : - cbound t m d < cbound t m d /\ cubic t m d (- cbound t m d) < 0 /\ 0 < cubic t m d (cbound t m d).
Proof.
  unfold cubic. set (M := cbound t m d).
  pose proof (Rabs_pos t) as T0. pose proof (Rabs_pos m) as M0. pose proof (Rabs_pos d) as D0.
  assert (ME : M = 1 + Rabs t + Rabs m + Rabs d) by reflexivity. assert (M1 : 1 <= M) by lra. clearbody M.
  assert (M2 : 1 <= M * M) by nra. assert (M12 : M <= M * M) by nra.
  assert (Bt : - (Rabs t * (M * M)) <= t * (M * M) <= Rabs t * (M * M)).
  { pose proof (Rle_abs t). pose proof (Rle_abs (- t)). rewrite Rabs_Ropp in *. split; nra. }
  assert (Bm : - (Rabs m * (M * M)) <= m * M <= Rabs m * (M * M)).
  { pose proof (Rle_abs m). pose proof (Rle_abs (- m)). rewrite Rabs_Ropp in *. split; nra. }
  assert (Bd : - (Rabs d * (M * M)) <= d <= Rabs d * (M * M)).
  { pose proof (Rle_abs d). pose proof (Rle_abs (- d)). rewrite Rabs_Ropp in *. split; nra. }
  assert (C : M * (M * M) = M * M + Rabs t * (M * M) + Rabs m * (M * M) + Rabs d * (M * M)) by (rewrite ME at 1; ring).
  split; [lra|]. split; nra.
Qed.
Definition root (t m d : R) : R := proj1_sig (IVT (cubic t m d) _ _ (cubic_cont t m d) (proj1 (cubic_signs t m d)) (proj1 (proj2 (cubic_signs t m d))) (proj2 (proj2 (cubic_signs t m d)))).
Lemma root_spec t m d : cubic t m d (root t m d) = 0.
Proof. unfold root. destruct (IVT _ _ _ _ _ _ _) as [z H]. exact (proj2 H). Qed.

(** ---- a kernel vector ---- *)
Definition isz (v : v3) : bool := if Req_EM_T (x3 v) 0 then (if Req_EM_T (y3 v) 0 then (if Req_EM_T (z3 v) 0 then true else false) else false) else false.
Lemma isz_t v : isz v = true -> v = o3.
Proof.
  unfold isz. destruct (Req_EM_T (x3 v) 0); [|discriminate]. destruct (Req_EM_T (y3 v) 0); [|discriminate]. destruct (Req_EM_T (z3 v) 0); [|discriminate].
  intros _. apply v3_eq; assumption.
Qed.
Lemma isz_f v : isz v = false -> v <> o3.
Proof.
  unfold isz. intros H ->. cbn in H. destruct (Req_EM_T 0 0) as [_|N]; [discriminate H|apply N; reflexivity].
Qed.
Definition perp (w : v3) : v3 :=
  if Req_EM_T (x3 w) 0 then (if Req_EM_T (y3 w) 0 then V3r 1 0 0 else V3r (- y3 w) (x3 w) 0) else V3r (- y3 w) (x3 w) 0.
Lemma perp_spec w : dot3 w (perp w) = 0 /\ perp w <> o3.
Proof.
  unfold perp, dot3. destruct (Req_EM_T (x3 w) 0) as [E|N].
  - destruct (Req_EM_T (y3 w) 0) as [E2|N2]; cbn.
    + split; [rewrite E; ring|]. intros H. injection H. lra.
    + split; [ring|]. intros H. injection H. lra.
  - split; [cbn; ring|]. intros H. injection H. lra.
Qed.
Definition kern (B : m3) : v3 :=
  if isz (cross3 (r0 B) (r1 B)) then
    if isz (cross3 (r1 B) (r2 B)) then
      if isz (cross3 (r2 B) (r0 B)) then
        perp (if isz (r0 B) then (if isz (r1 B) then r2 B else r1 B) else r0 B)
      else cross3 (r2 B) (r0 B)
    else cross3 (r1 B) (r2 B)
  else cross3 (r0 B) (r1 B).
Lemma lagrange u w p : cross3 u w = o3 -> w <> o3 -> dot3 w p = 0 -> dot3 u p = 0.
Proof.
  intros C N P. pose proof (dot_pos w N) as W.
  assert (E : dot3 (cross3 u w) (cross3 p w) = dot3 u p * dot3 w w - dot3 u w * dot3 w p) by (unfold dot3, cross3; cbn; ring).
  rewrite C, P in E. replace (dot3 o3 (cross3 p w)) with 0 in E by (unfold dot3, o3; cbn; ring). nra.
Qed.
Lemma cross_anti u v : cross3 u v = o3 -> cross3 v u = o3.
Proof. intros E. injection E as E1 E2 E3. apply v3_eq; cbn; lra. Qed.
Lemma cross_o u : cross3 o3 u = o3.
Proof. apply v3_eq; cbn; ring. Qed.
Lemma kern_spec B : determinant3 B = 0 -> app3 B (kern B) = o3 /\ kern B <> o3.
Proof.
  intros D. assert (DE : dot3 (r0 B) (cross3 (r1 B) (r2 B)) = 0) by (rewrite <- D; unfold determinant3, cross3, dot3; cbn; ring).
  assert (CY : forall u v x, dot3 u (cross3 v x) = dot3 v (cross3 x u)) by (intros; unfold dot3, cross3; cbn; ring).
  assert (C0 : forall u v, dot3 u (cross3 u v) = 0) by (intros; unfold dot3, cross3; cbn; ring).
  assert (C1 : forall u v, dot3 v (cross3 u v) = 0) by (intros; unfold dot3, cross3; cbn; ring).
  unfold kern. destruct (isz (cross3 (r0 B) (r1 B))) eqn:K1.
  2:{ split; [|exact (isz_f _ K1)]. unfold app3. rewrite C0, C1, CY, DE. reflexivity. }
  destruct (isz (cross3 (r1 B) (r2 B))) eqn:K2.
  2:{ split; [|exact (isz_f _ K2)]. unfold app3. rewrite C0, C1, DE. reflexivity. }
  destruct (isz (cross3 (r2 B) (r0 B))) eqn:K3.
  2:{ split; [|exact (isz_f _ K3)]. unfold app3. rewrite C0, C1, <- CY, DE. reflexivity. }
  apply isz_t in K1, K2, K3.
  set (w := if isz (r0 B) then (if isz (r1 B) then r2 B else r1 B) else r0 B).
  destruct (perp_spec w) as [P1 P2]. split; [|exact P2].
  assert (Z : forall u, u = o3 -> dot3 u (perp w) = 0) by (intros u ->; unfold dot3, o3; cbn; ring).
  destruct (isz (r0 B)) eqn:I0; [apply isz_t in I0; destruct (isz (r1 B)) eqn:I1; [apply isz_t in I1|apply isz_f in I1]|apply isz_f in I0]; unfold w in *; clear w; unfold app3.
  - rewrite (Z _ I0), (Z _ I1), P1. reflexivity.
  - rewrite (Z _ I0), P1, (lagrange (r2 B) (r1 B)); [reflexivity|apply cross_anti; exact K2|exact I1|exact P1].
  - rewrite P1, (lagrange (r1 B) (r0 B)), (lagrange (r2 B) (r0 B)); [reflexivity|exact K3|exact I0|exact P1|apply cross_anti; exact K1|exact I0|exact P1].
Qed.

(** ---- frames ---- *)
Definition cols (u v w : v3) : m3 := tr3 (M3 u v w).
Definition frame (u v w : v3) : Prop := dot3 u u = 1 /\ dot3 v v = 1 /\ dot3 w w = 1 /\ dot3 u v = 0 /\ dot3 u w = 0 /\ dot3 v w = 0.
Lemma right_inverse T : determinant3 T <> 0 -> exists X, mul3 T X = id3.
Proof.
  intros D. assert (DE : det3 T = determinant3 T) by (unfold det3, determinant3, cross3, dot3; cbn; ring).
  set (w := 1 / determinant3 T).
  assert (H : w * det3 T = 1) by (unfold w; rewrite DE; field; exact D). clearbody w.
  set (K := M3 (scale3 w (cross3 (r1 T) (r2 T))) (scale3 w (cross3 (r2 T) (r0 T))) (scale3 w (cross3 (r0 T) (r1 T)))).
  exists (tr3 K).
  assert (CY : forall u v x, dot3 u (cross3 v x) = dot3 v (cross3 x u)) by (intros; unfold dot3, cross3; cbn; ring).
  assert (C0 : forall u v, dot3 u (cross3 u v) = 0) by (intros; unfold dot3, cross3; cbn; ring).
  assert (C1 : forall u v, dot3 v (cross3 u v) = 0) by (intros; unfold dot3, cross3; cbn; ring).
  unfold mul3. rewrite tr_tr. unfold K, app3. cbn [r0 r1 r2].
  assert (G : forall c u, dot3 (scale3 w c) u = w * dot3 u c) by (intros; unfold dot3, scale3; cbn; ring). rewrite !G.
  assert (D0 : dot3 (r0 T) (cross3 (r1 T) (r2 T)) = det3 T) by reflexivity.
  assert (D1 : dot3 (r1 T) (cross3 (r2 T) (r0 T)) = det3 T) by (rewrite <- CY; reflexivity).
  assert (D2 : dot3 (r2 T) (cross3 (r0 T) (r1 T)) = det3 T) by (rewrite CY; reflexivity).
  rewrite D0, D1, D2, H, !C0, !C1, !Rmult_0_r. reflexivity.
Qed.
Lemma frame_tr u v w : frame u v w -> mul3 (tr3 (cols u v w)) (cols u v w) = id3.
Proof.
  intros (A & B & C & D & E & F). unfold cols. rewrite tr_tr. unfold mul3. rewrite tr_tr. unfold app3. cbn [r0 r1 r2].
  rewrite A, B, C, (dot_comm v u), (dot_comm w u), (dot_comm w v), D, E, F. reflexivity.
Qed.
Lemma frame_orth u v w : frame u v w -> orthogonal3 (cols u v w).
Proof.
  intros F. pose proof (frame_tr u v w F) as E. split; [|exact E].
  assert (D : determinant3 (cols u v w) <> 0).
  { intros Z. pose proof (f_equal determinant3 E) as H. rewrite det_mul, Z in H. unfold determinant3 in H at 2. cbn in H. lra. }
  destruct (right_inverse _ D) as [X EX].
  assert (XE : X = tr3 (cols u v w)) by (rewrite <- (mul1_3 X), <- E, mul3_assoc, EX, mul3_1; reflexivity).
  rewrite <- XE. exact EX.
Qed.
Lemma cols_app u v w y : app3 (cols u v w) y = add3 (scale3 (x3 y) u) (add3 (scale3 (y3 y) v) (scale3 (z3 y) w)).
Proof. apply v3_eq; unfold cols, tr3, app3, dot3, add3, scale3; cbn; ring. Qed.
Lemma eigen_frame A u v w a b c : frame u v w -> app3 A u = scale3 a u -> app3 A v = scale3 b v -> app3 A w = scale3 c w ->
  A = conj3 (cols u v w) a b c.
Proof.
  intros F Au Av Aw. destruct (frame_orth u v w F) as [O1 _]. apply m3_ext. intros x.
  unfold conj3. rewrite !app_mul3. set (y := app3 (tr3 (cols u v w)) x).
  assert (X : x = app3 (cols u v w) y) by (unfold y; rewrite <- app_mul3, O1, app_id; reflexivity).
  rewrite X at 1. rewrite !cols_app, !app_add, !app_scale, Au, Av, Aw. clearbody y. v3r.
Qed.
Lemma frame_decomp u v w x : frame u v w -> x = add3 (scale3 (dot3 u x) u) (add3 (scale3 (dot3 v x) v) (scale3 (dot3 w x) w)).
Proof.
  intros F. destruct (frame_orth u v w F) as [O1 _].
  rewrite <- (app_id x) at 1. rewrite <- O1, app_mul3, cols_app. unfold cols. rewrite tr_tr. reflexivity.
Qed.
Definition nrm (v : v3) : v3 := scale3 (/ norm3 v) v.
Lemma nrm_spec v : v <> o3 -> dot3 (nrm v) (nrm v) = 1.
Proof.
  intros N. pose proof (norm_pos v N) as P. unfold nrm. rewrite dot_scale, dot_comm, dot_scale, <- norm_sq. field. lra.
Qed.

(** ---- the decomposition ---- *)
Definition sub_diag (A : m3) (l : R) : m3 :=
  M3 (V3r (x3 (r0 A) - l) (y3 (r0 A)) (z3 (r0 A))) (V3r (x3 (r1 A)) (y3 (r1 A) - l) (z3 (r1 A))) (V3r (x3 (r2 A)) (y3 (r2 A)) (z3 (r2 A) - l)).
Definition tr_ (A : m3) : R := x3 (r0 A) + y3 (r1 A) + z3 (r2 A).
Definition mi_ (A : m3) : R :=
  x3 (r0 A) * y3 (r1 A) - y3 (r0 A) * x3 (r1 A) + (x3 (r0 A) * z3 (r2 A) - z3 (r0 A) * x3 (r2 A)) + (y3 (r1 A) * z3 (r2 A) - z3 (r1 A) * y3 (r2 A)).
Lemma char_poly A l : determinant3 (sub_diag A l) = - cubic (tr_ A) (mi_ A) (determinant3 A) l.
Proof. destruct A as [[a b c] [d e f] [g h i]]. unfold determinant3, sub_diag, cubic, tr_, mi_. cbn. ring. Qed.
Definition eval0 (A : m3) : R := root (tr_ A) (mi_ A) (determinant3 A).
Definition evec0 (A : m3) : v3 := nrm (kern (sub_diag A (eval0 A))).
Lemma evec0_spec A : dot3 (evec0 A) (evec0 A) = 1 /\ app3 A (evec0 A) = scale3 (eval0 A) (evec0 A).
Proof.
  assert (D : determinant3 (sub_diag A (eval0 A)) = 0) by (rewrite char_poly; unfold eval0; rewrite root_spec; ring).
  destruct (kern_spec _ D) as [K N]. unfold evec0. split; [apply nrm_spec; exact N|].
  unfold nrm. rewrite app_scale.
  assert (E : app3 A (kern (sub_diag A (eval0 A))) = scale3 (eval0 A) (kern (sub_diag A (eval0 A)))).
  { set (k := kern (sub_diag A (eval0 A))) in *. set (l := eval0 A) in *. clearbody k l.
    unfold app3, sub_diag, dot3 in K. cbn in K. injection K as K1 K2 K3. apply v3_eq; unfold app3, scale3, dot3; cbn; lra. }
  rewrite E. v3r.
Qed.
Record eigs : Type := Eigs { eu : v3; ev : v3; ew : v3; la : R; lb : R; lc : R }.
Definition eigen (A : m3) : eigs :=
  let u := evec0 A in let l := eval0 A in
  let f := nrm (perp u) in let g := cross3 u f in
  let '((c, s), (l0, l1)) := eig2 (dot3 f (app3 A f)) (dot3 f (app3 A g)) (dot3 g (app3 A g)) in
  let v := add3 (scale3 c f) (scale3 s g) in let w := add3 (scale3 (- s) f) (scale3 c g) in
  if Rle_dec l0 l then Eigs u v w l l0 l1
  else if Rle_dec l1 l then Eigs v u w l0 l l1 else Eigs v w u l0 l1 l.
Definition eigen_ok (A : m3) (e : eigs) : Prop :=
  frame (eu e) (ev e) (ew e) /\ app3 A (eu e) = scale3 (la e) (eu e) /\ app3 A (ev e) = scale3 (lb e) (ev e) /\
  app3 A (ew e) = scale3 (lc e) (ew e) /\ lb e <= la e /\ lc e <= lb e.
Lemma eigen_spec A : tr3 A = A -> eigen_ok A (eigen A).
Proof.
  intros S. unfold eigen. destruct (evec0_spec A) as [U EU]. set (u := evec0 A) in *. set (l := eval0 A) in *. clearbody u l.
  destruct (perp_spec u) as [P1 P2]. set (f := nrm (perp u)). cbv zeta.
  assert (Ff : dot3 f f = 1) by (apply nrm_spec; exact P2).
  assert (Uf : dot3 u f = 0) by (unfold f, nrm; rewrite dot_scale, P1; ring). clearbody f.
  set (g := cross3 u f).
  assert (Ug : dot3 u g = 0) by (unfold g, dot3, cross3; cbn; ring).
  assert (Fg : dot3 f g = 0) by (unfold g, dot3, cross3; cbn; ring).
  assert (Gg : dot3 g g = 1).
  { unfold g. replace (dot3 (cross3 u f) (cross3 u f)) with (dot3 u u * dot3 f f - dot3 u f * dot3 u f) by (unfold dot3, cross3; cbn; ring). rewrite U, Ff, Uf. ring. }
  assert (FR : frame u f g) by (repeat split; assumption). clearbody g.
  assert (SY : forall x y, dot3 x (app3 A y) = dot3 (app3 A x) y) by (intros x y; rewrite dot_tr, S; reflexivity).
  pose proof (eig2_spec (dot3 f (app3 A f)) (dot3 f (app3 A g)) (dot3 g (app3 A g))) as EG.
  destruct (eig2 (dot3 f (app3 A f)) (dot3 f (app3 A g)) (dot3 g (app3 A g))) as [[c s] [l0 l1]].
  destruct EG as (CS & L & E1 & E2 & E3).
  assert (NU : forall x, dot3 u x = 0 -> dot3 u (app3 A x) = 0).
  { intros x H. rewrite SY, EU, dot_comm, dot_scale, dot_comm, H. ring. }
  assert (Af : app3 A f = add3 (scale3 (l0 * (c * c) + l1 * (s * s)) f) (scale3 ((l0 - l1) * (c * s)) g)).
  { rewrite (frame_decomp u f g (app3 A f) FR) at 1. rewrite (NU f Uf), E1. rewrite (SY g f), (dot_comm (app3 A g) f), E2. v3r. }
  assert (Ag : app3 A g = add3 (scale3 ((l0 - l1) * (c * s)) f) (scale3 (l0 * (s * s) + l1 * (c * c)) g)).
  { rewrite (frame_decomp u f g (app3 A g) FR) at 1. rewrite (NU g Ug), E2, E3. v3r. }
  clear E1 E2 E3.
  set (v := add3 (scale3 c f) (scale3 s g)). set (w := add3 (scale3 (- s) f) (scale3 c g)).
  assert (DD : forall a b a' b', dot3 (add3 (scale3 a f) (scale3 b g)) (add3 (scale3 a' f) (scale3 b' g)) = a * a' * dot3 f f + (a * b' + b * a') * dot3 f g + b * b' * dot3 g g).
  { intros. unfold dot3, add3, scale3. cbn. ring. }
  assert (Vv : dot3 v v = 1) by (unfold v; rewrite DD, Ff, Fg, Gg; lra).
  assert (Ww : dot3 w w = 1) by (unfold w; rewrite DD, Ff, Fg, Gg; lra).
  assert (Vw : dot3 v w = 0) by (unfold v, w; rewrite DD, Ff, Fg, Gg; ring).
  assert (Uv : dot3 u v = 0) by (unfold v; rewrite dot_add, !dot_scale, Uf, Ug; ring).
  assert (Uw : dot3 u w = 0) by (unfold w; rewrite dot_add, !dot_scale, Uf, Ug; ring).
  assert (Av : app3 A v = scale3 l0 v).
  { unfold v. rewrite app_add, !app_scale, Af, Ag.
    assert (K1 : c * (l0 * (c * c) + l1 * (s * s)) + s * ((l0 - l1) * (c * s)) = l0 * c) by (replace (l0 * c) with (l0 * c * (c * c + s * s)) by (rewrite CS; ring); ring).
    assert (K2 : c * ((l0 - l1) * (c * s)) + s * (l0 * (s * s) + l1 * (c * c)) = l0 * s) by (replace (l0 * s) with (l0 * s * (c * c + s * s)) by (rewrite CS; ring); ring).
    apply v3_eq; unfold add3, scale3; cbn.
    - replace (l0 * (c * x3 f + s * x3 g)) with (l0 * c * x3 f + l0 * s * x3 g) by ring. rewrite <- K1, <- K2. ring.
    - replace (l0 * (c * y3 f + s * y3 g)) with (l0 * c * y3 f + l0 * s * y3 g) by ring. rewrite <- K1, <- K2. ring.
    - replace (l0 * (c * z3 f + s * z3 g)) with (l0 * c * z3 f + l0 * s * z3 g) by ring. rewrite <- K1, <- K2. ring. }
  assert (Aw : app3 A w = scale3 l1 w).
  { unfold w. rewrite app_add, !app_scale, Af, Ag.
    assert (K1 : - s * (l0 * (c * c) + l1 * (s * s)) + c * ((l0 - l1) * (c * s)) = l1 * - s) by (replace (l1 * - s) with (l1 * - s * (c * c + s * s)) by (rewrite CS; ring); ring).
    assert (K2 : - s * ((l0 - l1) * (c * s)) + c * (l0 * (s * s) + l1 * (c * c)) = l1 * c) by (replace (l1 * c) with (l1 * c * (c * c + s * s)) by (rewrite CS; ring); ring).
    apply v3_eq; unfold add3, scale3; cbn.
    - replace (l1 * (- s * x3 f + c * x3 g)) with (l1 * - s * x3 f + l1 * c * x3 g) by ring. rewrite <- K1, <- K2. ring.
    - replace (l1 * (- s * y3 f + c * y3 g)) with (l1 * - s * y3 f + l1 * c * y3 g) by ring. rewrite <- K1, <- K2. ring.
    - replace (l1 * (- s * z3 f + c * z3 g)) with (l1 * - s * z3 f + l1 * c * z3 g) by ring. rewrite <- K1, <- K2. ring. }
  clearbody v w.
  destruct (Rle_dec l0 l) as [G1|G1]; [|destruct (Rle_dec l1 l) as [G2|G2]]; unfold eigen_ok, frame; cbn [eu ev ew la lb lc]; rewrite ?(dot_comm v u), ?(dot_comm w u); repeat split; try assumption; lra.
Qed.
(** The decomposition with determinant 1 or -1. *)
Definition eigen_svd (sg : R) (A : m3) : m3 * (R * R * R) :=
  let e := eigen A in let k := sg * determinant3 (cols (eu e) (ev e) (ew e)) in
  (cols (eu e) (ev e) (scale3 k (ew e)), (la e, lb e, lc e)).
Lemma orth_det M : orthogonal3 M -> determinant3 M * determinant3 M = 1.
Proof.
  intros [O _]. pose proof (f_equal determinant3 O) as H. rewrite det_mul in H.
  assert (T : determinant3 (tr3 M) = determinant3 M) by (unfold determinant3; cbn; ring). rewrite T in H. rewrite H. unfold determinant3. cbn. ring.
Qed.
Lemma det_scale u v w k : determinant3 (cols u v (scale3 k w)) = k * determinant3 (cols u v w).
Proof. unfold determinant3, cols. cbn. ring. Qed.
Lemma eigen_svd_ok sg : sg * sg = 1 -> svd3_ok (eigen_svd sg) /\ forall A, tr3 A = A -> determinant3 (fst (eigen_svd sg A)) = sg.
Proof.
  intros SG.
  assert (G : forall A, tr3 A = A -> frame (eu (eigen A)) (ev (eigen A)) (scale3 (sg * determinant3 (cols (eu (eigen A)) (ev (eigen A)) (ew (eigen A)))) (ew (eigen A))) /\
     determinant3 (fst (eigen_svd sg A)) = sg).
  { intros A SA. destruct (eigen_spec A SA) as (F & _). pose proof (orth_det _ (frame_orth _ _ _ F)) as D.
    unfold eigen_svd. cbn [fst]. rewrite det_scale. set (k := determinant3 _) in *. clearbody k. destruct F as (F1 & F2 & F3 & F4 & F5 & F6).
    split.
    - unfold frame. rewrite !dot_scale, (dot_comm (scale3 _ _)), !dot_scale, F3, F5, F6. repeat split; try assumption; try ring.
      replace (sg * k * (sg * k * 1)) with (sg * sg * (k * k)) by ring. rewrite SG, D. ring.
    - replace (sg * k * k) with (sg * (k * k)) by ring. rewrite D. ring. }
  split; [|intros A SA; exact (proj2 (G A SA))].
  intros A [SA PA]. destruct (G A SA) as [F _]. destruct (eigen_spec A SA) as (_ & E1 & E2 & E3 & L1 & L2).
  unfold eigen_svd. set (k := sg * determinant3 _) in *. clearbody k. set (e := eigen A) in *. clearbody e.
  pose proof (frame_orth _ _ _ F) as O. split; [exact O|].
  assert (E3' : app3 A (scale3 k (ew e)) = scale3 (lc e) (scale3 k (ew e))) by (rewrite app_scale, E3; v3r).
  split; [exists (cols (eu e) (ev e) (scale3 k (ew e))); split; [exact O|exact (eigen_frame A _ _ _ _ _ _ F E1 E2 E3')]|].
  split; [exact L1|]. split; [exact L2|].
  destruct F as (_ & _ & F3 & _). assert (N : scale3 k (ew e) <> o3). { intros Z. rewrite Z in F3. unfold dot3, o3 in F3. cbn in F3. lra. }
  pose proof (PA _ N) as P. rewrite E3', dot_scale, F3 in P. lra.
Qed.
