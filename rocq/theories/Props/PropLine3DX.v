(** C17: exactly when the general line-mesh test drops hits. *)
From Coq Require Import List Bool Reals Lra Lia ZArith Arith.
From Verif.Base Require Import Outcome.
From Verif.Model Require Import MScalar MLine2D MLine3D.
From Verif.Spec Require Import SLine3D SLine3DX.
From Verif.Proofs Require Import PLine2D PLine3D PLine3DX.
Import ListNotations.
Local Open Scope R_scope.

(** The result is empty exactly as the coordinate ranges say, and otherwise the first two hits in face
    order. *)
Theorem C17_line_exactly : forall (o d : rvec) (vs : list rvec) (fs : list (nat * nat * nat)),
  vs <> [] -> Forall (face_ok (length vs)) fs ->
  exists r, line_mesh XR (lift_line o d) (lift_mesh vs fs) = Ok r /\
    (range_rejects o d vs -> r = []) /\
    (~ range_rejects o d vs -> exists ps, pick (good_face vs o d) fs ps /\ r = map lift3 (firstn 2 ps)).
Proof. exact line_mesh_exact. Qed.
Print Assumptions C17_line_exactly.

(** If every coordinate of the direction is zero or at least 1e-6, the ranges never lose an exact hit. *)
Theorem C17_steep_line_loses_nothing : forall (o d : rvec) (vs : list rvec) (fs : list (nat * nat * nat)),
  vs <> [] -> Forall (face_ok (length vs)) fs -> (forall g, In g [rx; ry; rz] -> g d = 0 \/ / 10 ^ 6 <= Rabs (g d)) ->
  exists r ps, line_mesh XR (lift_line o d) (lift_mesh vs fs) = Ok r /\ r = map lift3 (firstn 2 ps) /\
    exists hit, pick hit fs ps /\ (forall f p, In f fs -> hit f p -> good_face vs o d f p) /\
      (forall f p abc, In f fs -> face_corners vs f abc -> triangle_hit 0 o d abc p -> hit f p).
Proof. exact straight_loses_nothing. Qed.
Print Assumptions C17_steep_line_loses_nothing.

(** Non-vacuity: lines that the ranges reject and do not reject, and directions of the second theorem. *)
Lemma millionth : / 10 ^ 6 < 1.
Proof. apply (Rmult_lt_reg_l (10 ^ 6)); [simpl; lra|]. rewrite Rinv_r by (simpl; lra). simpl; lra. Qed.
Example C17_ranges_example : let vs := [RV 0 0 0; RV 1 0 0; RV 0 1 0] in
  vs <> [] /\ Forall (face_ok (length vs)) [(0, 1, 2)%nat] /\ range_rejects (RV 2 0 0) (RV 0 0 1) vs /\ ~ range_rejects (RV (1 / 4) (1 / 4) 5) (RV 0 0 1) vs /\
  (forall g, In g [rx; ry; rz] -> g (RV 0 0 1) = 0 \/ / 10 ^ 6 <= Rabs (g (RV 0 0 1))).
Proof.
  cbv zeta. split; [discriminate|]. split; [constructor; [simpl; lia|constructor]|]. split; [|split].
  - left. cbn [rx]. rewrite Rabs_R0. split; [apply Rinv_0_lt_compat, pow_lt; lra|]. left. intros p [<-|[<-|[<-|[]]]]; cbn [rx]; lra.
  - intros [(_ & [O|O])|[(_ & [O|O])|(L & _)]]; cbn [rx ry rz] in *.
    + specialize (O (RV 1 0 0) (or_intror (or_introl eq_refl))). cbn in O. lra.
    + specialize (O (RV 0 0 0) (or_introl eq_refl)). cbn in O. lra.
    + specialize (O (RV 0 1 0) (or_intror (or_intror (or_introl eq_refl)))). cbn in O. lra.
    + specialize (O (RV 0 0 0) (or_introl eq_refl)). cbn in O. lra.
    + rewrite Rabs_R1 in L. assert (/ 10 ^ 6 < 1) by exact millionth. lra.
  - intros g [<-|[<-|[<-|[]]]]; cbn [rx ry rz]; [left; reflexivity|left; reflexivity|right]. rewrite Rabs_R1. left. exact millionth.
Qed.
