(** The orientations that getTFE3D goes through. *)
From Coq Require Import List Reals ZArith Arith Bool Lia Lra Psatz.
From Verif.Base Require Import Outcome.
From Verif.Model Require Import MScalar MInterp.
From Verif.Model Require Import MGeom MMultiBody MTightFit.
From Verif.Spec Require Import SGeom SRigid.
From Verif.Proofs Require Import PInterpR.
From Verif.Proofs Require Import PGeom PGeom2 PGeom3 PRot PTight2 PTight3.
Import ListNotations.
Local Open Scope R_scope.

Lemma steps_nth qA qB n i : (1 <= n)%nat -> (i <= n)%nat -> nth_error (slerp_steps qA qB n) i = Some (Some (between qA qB (INR i / INR n))).
Proof.
  intros N L. unfold slerp_steps, interpolate_slerp. rewrite map_map, nth_error_map.
  assert (E : nth_error (seq 0 (n + 1)) i = Some i). { rewrite (nth_error_nth' _ 0%nat) by (rewrite seq_length; lia). now rewrite seq_nth by lia. }
  rewrite E. cbn [option_map]. f_equal.
  assert (PE : param XR n i = Some (INR i / INR n)).
  { unfold param, step_size, sofnat, sone. cbn [smul sdiv sofZ XR]. unfold xdiv. rewrite <- !INR_IZR_INZ.
    assert (INR n <> 0) by (apply not_0_INR; lia). destruct (Req_EM_T (INR n) 0) as [Z|_]; [contradiction|]. cbn. f_equal. field. exact H. }
  rewrite PE. unfold between, slerp_XR, to_xr, rq. destruct (slerp_R _ _ _) as [[[w x] y] z]. reflexivity.
Qed.
Lemma unit_dot q : unit_quat q <-> qdot (rq q) (rq q) = 1.
Proof. unfold unit_quat, qdot, rq. split; intros H; exact H. Qed.
Lemma unit_dot_r r : qdot r r = 1 -> unit_quat (qr r).
Proof. destruct r as [[[w x] y] z]. unfold unit_quat, qdot, qr. cbn. intros H. exact H. Qed.
Lemma same_quat p q : unit_quat p -> unit_quat q -> Rabs (qdot (rq p) (rq q)) = 1 -> forall t, unit_quat (between p q t).
Proof.
  intros UP UQ D t. unfold between, slerp_R. rewrite D. unfold slerp_one. change (2 ^ 52)%Z with 4503599627370496%Z.
  destruct (Rle_dec (1 - / 4503599627370496) 1) as [_|N]; [|exfalso; apply N; lra].
  destruct p as [a b c d], q as [e f g h]. unfold unit_quat in *. cbn [qw qx qy qz rq qdot] in *.
  set (D0 := a * e + b * f + c * g + d * h) in *.
  destruct (Rlt_dec D0 0) as [L|L].
  - rewrite Rabs_left in D by exact L. cbn.
    assert (Z : (a + e) * (a + e) + (b + f) * (b + f) + (c + g) * (c + g) + (d + h) * (d + h) = 0) by (unfold D0 in D; lra).
    assert (X : a + e = 0 /\ b + f = 0 /\ c + g = 0 /\ d + h = 0).
    { pose proof (Rle_0_sqr (a + e)). pose proof (Rle_0_sqr (b + f)). pose proof (Rle_0_sqr (c + g)). pose proof (Rle_0_sqr (d + h)). unfold Rsqr in *. repeat split; apply Rsqr_0_uniq; unfold Rsqr; lra. }
    destruct X as (X1 & X2 & X3 & X4). replace e with (- a) by lra. replace f with (- b) by lra. replace g with (- c) by lra. replace h with (- d) by lra.
    clear - UP. transitivity (a * a + b * b + c * c + d * d); [ring|exact UP].
  - rewrite Rabs_right in D by lra. cbn.
    assert (Z : (a - e) * (a - e) + (b - f) * (b - f) + (c - g) * (c - g) + (d - h) * (d - h) = 0) by (unfold D0 in D; lra).
    assert (X : a - e = 0 /\ b - f = 0 /\ c - g = 0 /\ d - h = 0).
    { pose proof (Rle_0_sqr (a - e)). pose proof (Rle_0_sqr (b - f)). pose proof (Rle_0_sqr (c - g)). pose proof (Rle_0_sqr (d - h)). unfold Rsqr in *. repeat split; apply Rsqr_0_uniq; unfold Rsqr; lra. }
    destruct X as (X1 & X2 & X3 & X4). replace e with a by lra. replace f with b by lra. replace g with c by lra. replace h with d by lra.
    clear - UP. transitivity (a * a + b * b + c * c + d * d); [ring|exact UP].
Qed.
Lemma between_unit p q t : unit_quat p -> unit_quat q -> Rabs (qdot (rq p) (rq q)) < 1 - / IZR (2 ^ 52) \/ Rabs (qdot (rq p) (rq q)) = 1 ->
  unit_quat (between p q t).
Proof.
  intros UP UQ [L|E]; [|exact (same_quat p q UP UQ E t)].
  apply unit_dot_r. apply (proj1 (slerp_unit (rq p) (rq q) t (proj1 (unit_dot p) UP) (proj1 (unit_dot q) UQ) L)).
Qed.
Lemma between_0 p q : unit_quat p -> unit_quat q -> between p q 0 = p.
Proof.
  intros UP UQ. unfold between. rewrite slerp_0 by (apply cauchy4; assumption). destruct p. reflexivity.
Qed.
Lemma between_1 p q : unit_quat p -> unit_quat q -> rotm (between p q 1) = rotm q.
Proof.
  intros UP UQ. unfold between. rewrite slerp_1 by (apply cauchy4; assumption). destruct q as [e f g h]. unfold rq, qscale, qr, rotm. cbn [qw qx qy qz].
  destruct (Rlt_dec _ 0); f_equal; f_equal; ring.
Qed.
Lemma same_rotm a p q : unit_quat p -> unit_quat q -> rotm p = rotm q -> encloses3 (ellipsoid0 a p) (ellipsoid0 a q).
Proof.
  intros UP UQ E x [l [H1 H2]]. exists l. destruct a as [[a b] c]. unfold ellipsoid0 in *. cbn [fst snd] in *. split; [|rewrite shape_ell in *; exact H2].
  rewrite H1. unfold placed. cbn [sctr SGeom.sq ellipsoid_at]. rewrite !turn_rotm by assumption. rewrite E. reflexivity.
Qed.
Lemma tfe3_slerp svd a qA qB n : svd3_ok svd -> proper_svd3 svd -> pos_axes3 a -> unit_quat qA -> unit_quat qB ->
  Rabs (qdot (rq qA) (rq qB)) < 1 - / IZR (2 ^ 52) \/ Rabs (qdot (rq qA) (rq qB)) = 1 ->
  exists c q, tfe3 svd a qA qB (slerp_steps qA qB n) n = Ok (Some (c, q)) /\ pos_axes3 c /\ unit_quat q /\
    encloses3 (ellipsoid0 c q) (ellipsoid0 a qA) /\ encloses3 (ellipsoid0 c q) (ellipsoid0 a qB) /\
    forall i, (1 <= n)%nat -> (i <= n)%nat -> encloses3 (ellipsoid0 c q) (ellipsoid0 a (between qA qB (INR i / INR n))).
Proof.
  intros OK PR PA UA UB D.
  destruct (tfe3_encloses svd OK a qA qB (slerp_steps qA qB n) n PR PA UA UB) as (c & q & E & P & U & X1 & X2 & X3).
  { intros i L. eexists. split; [apply steps_nth; lia|apply between_unit; assumption]. }
  exists c, q. split; [exact E|]. split; [exact P|]. split; [exact U|]. split; [exact X1|]. split; [exact X2|].
  intros i N L. assert (NZ : INR n <> 0) by (apply not_0_INR; lia).
  destruct (Nat.eq_dec i 0) as [->|N0]; [|destruct (Nat.eq_dec i n) as [->|N1]].
  - replace (INR 0 / INR n) with 0 by (cbn; field; exact NZ). rewrite between_0 by assumption. exact X1.
  - replace (INR n / INR n) with 1 by (field; exact NZ).
    intros p H. apply X2. revert p H. apply same_rotm; [exact UB|apply between_unit; assumption|]. symmetry. apply between_1; assumption.
  - apply (X3 i); [lia|]. apply steps_nth; lia.
Qed.
