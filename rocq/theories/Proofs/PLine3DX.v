(** Proofs for C17: exactly which lines the range filter rejects. *)
From Coq Require Import List Bool Reals Lra Lia ZArith Arith.
From Verif.Base Require Import Outcome.
From Verif.Model Require Import MScalar MLine2D MLine3D.
From Verif.Spec Require Import SLine3D SLine3DX.
From Verif.Proofs Require Import PLine2D PLine3D.
Import ListNotations.
Local Open Scope R_scope.

Lemma max_coeff_in l : forall x m, max_coeff XR (Some x) (map Some l) = Some m -> In m (x :: l).
Proof.
  induction l as [|y l IH]; intros x m H.
  - cbn in H. injection H as <-. left. reflexivity.
  - unfold max_coeff in H. cbn [map fold_left XR sltb xcmp car] in H. destruct (Rltb x y).
    + right. exact (IH y m H).
    + destruct (IH x m H) as [E|I]; [left; exact E|right; right; exact I].
Qed.
Lemma min_coeff_in l : forall x m, min_coeff XR (Some x) (map Some l) = Some m -> In m (x :: l).
Proof.
  induction l as [|y l IH]; intros x m H.
  - cbn in H. injection H as <-. left. reflexivity.
  - unfold min_coeff in H. cbn [map fold_left XR sltb xcmp car] in H. destruct (Rltb y x).
    + right. exact (IH y m H).
    + destruct (IH x m H) as [E|I]; [left; exact E|right; right; exact I].
Qed.
Lemma out_of_row_iff v x xs : exists b, out_of_row XR (Some v) (map Some (x :: xs)) = Ok b /\
  (b = true <-> (forall y, In y (x :: xs) -> y < v) \/ (forall y, In y (x :: xs) -> v < y)).
Proof.
  cbn [map out_of_row]. destruct (max_coeff_XR xs x) as (M & EM & HM). destruct (min_coeff_XR xs x) as (m & Em & Hm).
  pose proof (max_coeff_in xs x M EM) as IM. pose proof (min_coeff_in xs x m Em) as Im. rewrite EM, Em.
  eexists. split; [reflexivity|]. cbn [XR sltb xcmp car]. rewrite orb_true_iff, !Rltb_true. split.
  - intros [H|H]; [left|right]; intros y Hy; [pose proof (HM y Hy)|pose proof (Hm y Hy)]; lra.
  - intros [H|H]; [left; exact (H M IM)|right; exact (H m Im)].
Qed.
Lemma axis_reject_iff (f : vec3 XR -> car XR) (g : rvec -> R) dd oo vs fs :
  (forall p, f (lift3 p) = Some (g p)) -> vs <> [] ->
  exists b, axis_reject XR (Some dd) (Some oo) (map f (mverts (lift_mesh vs fs))) = Ok b /\
   (b = true <-> Rabs dd < / 10 ^ 6 /\ ((forall p, In p vs -> g p < oo) \/ (forall p, In p vs -> oo < g p))).
Proof.
  intros H Hne. destruct vs as [|v0 vs0]; [contradiction Hne; reflexivity|]. unfold axis_reject.
  rewrite sabs_lift. unfold sdec. cbn [XR sdiv sofZ xdiv car].
  destruct (Req_EM_T (IZR (10 ^ 6)) 0) as [E|_]; [simpl in E; lra|]. rewrite ltb_lift.
  replace (/ 10 ^ 6) with (1 / IZR (10 ^ 6)) by (simpl; field).
  destruct (Rltb (Rabs dd) (1 / IZR (10 ^ 6))) eqn:E.
  2: { exists false. split; [reflexivity|]. split; [intros X; discriminate X|]. intros (X & _). apply Rltb_true in X. rewrite X in E. discriminate E. }
  apply Rltb_true in E. unfold lift_mesh; cbn [mverts]. rewrite (map_coord f g) by auto.
  destruct (out_of_row_iff oo (g v0) (map g vs0)) as (b & E1 & Hb). exists b. split; [exact E1|]. rewrite Hb.
  change (g v0 :: map g vs0) with (map g (v0 :: vs0)). split.
  - intros X. split; [exact E|]. destruct X as [X|X]; [left|right]; intros p Hp; apply X; apply in_map; exact Hp.
  - intros (_ & X). destruct X as [X|X]; [left|right]; intros y Hy; apply in_map_iff in Hy; destruct Hy as (p & <- & Hp); exact (X p Hp).
Qed.

Lemma line_mesh_exact o d vs fs : vs <> [] -> Forall (face_ok (length vs)) fs ->
  exists r, line_mesh XR (lift_line o d) (lift_mesh vs fs) = Ok r /\
    (range_rejects o d vs -> r = []) /\
    (~ range_rejects o d vs -> exists ps, pick (good_face vs o d) fs ps /\ r = map lift3 (firstn 2 ps)).
Proof.
  intros Hne F. unfold line_mesh.
  destruct (axis_reject_iff vx rx (rx d) (rx o) vs fs ltac:(reflexivity) Hne) as (b1 & E1 & H1).
  destruct (axis_reject_iff vy ry (ry d) (ry o) vs fs ltac:(reflexivity) Hne) as (b2 & E2 & H2).
  destruct (axis_reject_iff vz rz (rz d) (rz o) vs fs ltac:(reflexivity) Hne) as (b3 & E3 & H3).
  change (axis_reject XR (vx (ldir (lift_line o d))) (vx (lorg (lift_line o d))) (map vx (mverts (lift_mesh vs fs))) = Ok b1) in E1.
  change (axis_reject XR (vy (ldir (lift_line o d))) (vy (lorg (lift_line o d))) (map vy (mverts (lift_mesh vs fs))) = Ok b2) in E2.
  change (axis_reject XR (vz (ldir (lift_line o d))) (vz (lorg (lift_line o d))) (map vz (mverts (lift_mesh vs fs))) = Ok b3) in E3.
  change (b1 = true <-> Rabs (rx d) < / 10 ^ 6 /\ one_sided rx o vs) in H1. change (b2 = true <-> Rabs (ry d) < / 10 ^ 6 /\ one_sided ry o vs) in H2.
  change (b3 = true <-> Rabs (rz d) < / 10 ^ 6 /\ one_sided rz o vs) in H3.
  rewrite E1. cbn [obind]. destruct b1; [exists []; split; [reflexivity|]; split; [reflexivity|intros N; contradiction N; left; apply H1; reflexivity]|].
  rewrite E2. cbn [obind]. destruct b2; [exists []; split; [reflexivity|]; split; [reflexivity|intros N; contradiction N; right; left; apply H2; reflexivity]|].
  rewrite E3. cbn [obind]. destruct b3; [exists []; split; [reflexivity|]; split; [reflexivity|intros N; contradiction N; right; right; apply H3; reflexivity]|].
  destruct (scan_spec vs fs (face_hit XR (lift_line o d)) (good_face vs o d)) with (fs := fs) (pts := @nil (vec3 XR)) as (ps & Hp & Es); auto.
  { intros f a b c Hc q. rewrite face_hit_XR. split.
    - intros (p & -> & Hh). exists p. split; auto. exists (a, b, c). auto.
    - intros (p & -> & abc & Hc' & Hh). rewrite (corners_fun _ _ _ _ Hc' Hc) in Hh. eauto. }
  eexists. split; [exact Es|]. split.
  - intros [X|[X|X]]; [apply H1 in X; discriminate X|apply H2 in X; discriminate X|apply H3 in X; discriminate X].
  - intros _. exists ps. split; [exact Hp|]. cbn [app]. rewrite firstn_map. reflexivity.
Qed.

(** A point of the line has the origin's coordinate where the direction has none, and a point of a triangle
    lies between its corners. *)
Lemma between x y z s t : 0 <= s -> 0 <= t -> s + t <= 1 -> forall v, v = x + (s * (y - x) + t * (z - x)) ->
  ~ ((x < v /\ y < v /\ z < v) \/ (v < x /\ v < y /\ v < z)).
Proof.
  intros S T ST v E H. set (k := 1 - s - t). assert (K : 0 <= k) by (unfold k; lra).
  assert (Z : k * (v - x) + s * (v - y) + t * (v - z) = 0) by (unfold k; rewrite E; ring).
  assert (P : forall a, 0 < a -> forall q, 0 <= q -> 0 <= q * a) by (intros a A q Q; apply Rmult_le_pos; lra).
  assert (M : forall a q, 0 < a -> q * a = 0 -> q = 0) by (intros a q A Q; apply Rmult_integral in Q; destruct Q as [Q|Q]; [exact Q|lra]).
  destruct H as [(A & B & C)|(A & B & C)].
  - pose proof (P (v - x) ltac:(lra) k K) as X. pose proof (P (v - y) ltac:(lra) s S) as Y. pose proof (P (v - z) ltac:(lra) t T) as W.
    assert (k = 0) by (apply (M (v - x)); lra). assert (s = 0) by (apply (M (v - y)); lra). assert (t = 0) by (apply (M (v - z)); lra). unfold k in *. lra.
  - assert (Z' : k * (x - v) + s * (y - v) + t * (z - v) = 0) by (replace (k * (x - v) + s * (y - v) + t * (z - v)) with (- (k * (v - x) + s * (v - y) + t * (v - z))) by ring; rewrite Z; ring).
    pose proof (P (x - v) ltac:(lra) k K) as X. pose proof (P (y - v) ltac:(lra) s S) as Y. pose proof (P (z - v) ltac:(lra) t T) as W.
    assert (k = 0) by (apply (M (x - v)); lra). assert (s = 0) by (apply (M (y - v)); lra). assert (t = 0) by (apply (M (z - v)); lra). unfold k in *. lra.
Qed.
Lemma coordinate (g : rvec -> R) o d vs f p : (forall a b, g (radd a b) = g a + g b) -> (forall k a, g (rscale k a) = k * g a) -> (forall a b, g (rsub a b) = g a - g b) ->
  g d = 0 -> one_sided g o vs -> forall abc, face_corners vs f abc -> triangle_hit 0 o d abc p -> False.
Proof.
  intros GA GS GB G0 O [[a b] c] FC (_ & (k & Ek) & (s & t & Et & S1 & S2 & _ & S3)). destruct f as [[i j] l]. destruct FC as (Ia & Ib & Ic).
  apply nth_error_In in Ia. apply nth_error_In in Ib. apply nth_error_In in Ic.
  assert (E1 : g p = g o) by (rewrite Ek, GA, GS, G0; lra).
  assert (E2 : g p = g a + (s * (g b - g a) + t * (g c - g a))) by (rewrite Et, !GA, !GS, !GB; reflexivity).
  rewrite E1 in E2. apply (between (g a) (g b) (g c) s t ltac:(lra) ltac:(lra) ltac:(lra) (g o) E2).
  destruct O as [O|O]; [left|right]; repeat split; apply O; assumption.
Qed.
Lemma straight_loses_nothing o d vs fs : vs <> [] -> Forall (face_ok (length vs)) fs ->
  (forall g, In g [rx; ry; rz] -> g d = 0 \/ / 10 ^ 6 <= Rabs (g d)) ->
  exists r ps, line_mesh XR (lift_line o d) (lift_mesh vs fs) = Ok r /\ r = map lift3 (firstn 2 ps) /\
    exists hit, pick hit fs ps /\ (forall f p, In f fs -> hit f p -> good_face vs o d f p) /\
      (forall f p abc, In f fs -> face_corners vs f abc -> triangle_hit 0 o d abc p -> hit f p).
Proof.
  intros Hne F G. destruct (line_mesh_exact o d vs fs Hne F) as (r & E & HR & HN).
  destruct (Classical_Prop.classic (range_rejects o d vs)) as [X|X].
  - exists r, []. split; [exact E|]. split; [exact (HR X)|]. exists (fun _ _ => False). split; [clear; induction fs; [constructor|]; apply pick_miss; auto|]. split; [tauto|].
    intros f p abc _ FC TH. destruct X as [(L & O)|[(L & O)|(L & O)]].
    + destruct (G rx (or_introl eq_refl)) as [Z|Z]; [|lra]. exact (coordinate rx o d vs f p ltac:(reflexivity) ltac:(reflexivity) ltac:(reflexivity) Z O abc FC TH).
    + destruct (G ry (or_intror (or_introl eq_refl))) as [Z|Z]; [|lra]. exact (coordinate ry o d vs f p ltac:(reflexivity) ltac:(reflexivity) ltac:(reflexivity) Z O abc FC TH).
    + destruct (G rz (or_intror (or_intror (or_introl eq_refl)))) as [Z|Z]; [|lra]. exact (coordinate rz o d vs f p ltac:(reflexivity) ltac:(reflexivity) ltac:(reflexivity) Z O abc FC TH).
  - destruct (HN X) as (ps & P & R). exists r, ps. split; [exact E|]. split; [exact R|]. exists (good_face vs o d). split; [exact P|]. split; [auto|].
    intros f p [[a b] c] _ FC (C & L & (s & t & Es & B)). exists (a, b, c). split; [exact FC|]. split; [exact C|]. split; [exact L|]. exists s, t. pose proof tol_pos. split; [exact Es|lra].
Qed.
