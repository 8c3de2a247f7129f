(** A straight motion that starts outside a convex boundary and enters it crosses an edge. *)
From Coq Require Import List Reals ZArith Arith Bool Lia Lra Psatz.
From Verif.Base Require Import Outcome.
From Verif.Model Require Import MScalar MLine2D MGeom.
From Verif.Spec Require Import SLine2D SGeom SCover.
From Verif.Proofs Require Import PLine2D PCover.
Import ListNotations.
Local Open Scope R_scope.

Section Exit.
Variable g : rpoint -> R.
Definition exits (e : rpoint * rpoint) : Prop := 0 < g (fst e) /\ g (snd e) < 0.
Lemma exit_after l : forall v, (forall w, In w l -> g w <> 0) -> 0 < g v -> (exists w, In w l /\ g w < 0) ->
  exists a b, In (a, b) (steps v l) /\ 0 < g a /\ g b < 0.
Proof.
  induction l as [|u l IH]; intros v NZ V (w & I & W); [destruct I|].
  destruct (Rlt_dec 0 (g u)) as [U|U].
  - destruct I as [-> |I]; [lra|]. destruct (IH u (fun x X => NZ x (or_intror X)) U (ex_intro _ w (conj I W))) as (a & b & J & Q).
    exists a, b. split; [right; exact J|exact Q].
  - exists v, u. split; [left; reflexivity|]. pose proof (NZ u (or_introl eq_refl)). lra.
Qed.
Lemma exit_before l : forall v, (forall w, In w (v :: l) -> g w <> 0) -> g (last (v :: l) v) < 0 -> (exists w, In w (v :: l) /\ 0 < g w) ->
  exists a b, In (a, b) (steps v l) /\ 0 < g a /\ g b < 0.
Proof.
  induction l as [|u l IH]; intros v NZ L (w & I & W).
  - cbn in L. destruct I as [-> |[]]. lra.
  - assert (LL : last (u :: l) u = last (v :: u :: l) v).
    { clear. cbn [last]. destruct l as [|z l]; [reflexivity|]. revert z. induction l as [|y l IHl]; intros z; [reflexivity|]. exact (IHl y). }
    destruct (Rlt_dec 0 (g v)) as [V|V].
    + apply exit_after; [intros x X; apply NZ; right; exact X|exact V|]. exists (last (u :: l) u). split.
      * apply (nth_error_In _ (length (u :: l) - 1)). apply last_nth. discriminate.
      * rewrite LL. exact L.
    + destruct I as [-> |I]; [lra|].
      destruct (IH u (fun x X => NZ x (or_intror X)) (eq_ind_r (fun z => g z < 0) L LL) (ex_intro _ w (conj I W))) as (a & b & J & Q).
      exists a, b. split; [right; exact J|exact Q].
Qed.
Lemma exit_edge P : (forall w, In w P -> g w <> 0) -> (exists u, In u P /\ 0 < g u) -> (exists w, In w P /\ g w < 0) ->
  exists a b, is_edge P a b /\ 0 < g a /\ g b < 0.
Proof.
  intros NZ U W. destruct P as [|v t]; [destruct U as (u & [] & _)|].
  assert (K : exists a b, In (a, b) (steps v (t ++ [v])) /\ 0 < g a /\ g b < 0).
  { assert (N1 : forall w, In w (t ++ [v]) -> g w <> 0) by (intros w I; apply NZ; apply in_app_iff in I; destruct I as [I|[-> |[]]]; [right; exact I|left; reflexivity]).
    destruct (Rlt_dec 0 (g v)) as [V|V].
    - apply exit_after; [exact N1|exact V|]. destruct W as (w & [-> |I] & W); [lra|]. exists w. split; [apply in_app_iff; left; exact I|exact W].
    - pose proof (NZ v (or_introl eq_refl)) as NV. apply exit_before.
      + intros w [-> |I]; [exact NV|apply N1, I].
      + change (v :: t ++ [v]) with ((v :: t) ++ [v]). rewrite last_last. lra.
      + destruct U as (u & I & U). exists u. split; [|exact U]. destruct I as [-> |I]; [left; reflexivity|right; apply in_app_iff; left; exact I]. }
  destruct K as (a & b & I & Q). exists a, b. split; [|exact Q]. apply redges_is_edge. rewrite redges_steps. exact I.
Qed.
End Exit.

Lemma not_all_pos (g : rpoint -> R) (P : list rpoint) : ~ (forall v, In v P -> 0 < g v) -> exists v, In v P /\ g v <= 0.
Proof.
  induction P as [|v P IH]; intros N; [exfalso; apply N; intros v []|].
  destruct (Rlt_dec 0 (g v)) as [V|V].
  - destruct IH as (w & I & W); [intros A; apply N; intros w [<- |I]; [exact V|apply A, I]|]. exists w. split; [right; exact I|exact W].
  - exists v. split; [left; reflexivity|lra].
Qed.

(** A ray from an inner point crosses an edge in front. *)
Lemma ray_crosses P p d : P <> [] -> strictly_inside P p -> fst d * fst d + snd d * snd d <> 0 ->
  (forall v, In v P -> side p d v <> 0) ->
  exists a b w tau, is_edge P a b /\ 0 < w < 1 /\ 0 < tau /\ side p d a < 0 < side p d b /\
    SLine2D.along a b w (fst p + tau * fst d, snd p + tau * snd d).
Proof.
  intros NE IN D0 NV. pose proof (dd_pos d D0) as DD.
  destruct (not_all_pos (fun v => 1 * side p d v) P) as (u & Iu & U).
  { apply (both_sides p d D0 P 1 ltac:(lra) NE IN). }
  destruct (not_all_pos (fun v => -1 * side p d v) P) as (v & Iv & V).
  { apply (both_sides p d D0 P (-1) ltac:(lra) NE IN). }
  destruct (exit_edge (fun v => - side p d v) P) as (a & b & E & A & B).
  { intros w I Z. cbn beta in Z. apply (NV w I). lra. }
  { exists u. pose proof (NV u Iu). split; [exact Iu|lra]. }
  { exists v. pose proof (NV v Iv). split; [exact Iv|lra]. }
  pose proof (IN a b E) as T. pose proof (turn_side p d a b) as TS.
  assert (K : 0 < fore p d a * side p d b - side p d a * fore p d b) by (rewrite <- TS; apply Rmult_lt_0_compat; assumption).
  assert (F1 : forall z, fst z - fst p = (fst d * fore p d z - snd d * side p d z) / (fst d * fst d + snd d * snd d)).
  { intros z. unfold fore, side. field. lra. }
  assert (F2 : forall z, snd z - snd p = (snd d * fore p d z + fst d * side p d z) / (fst d * fst d + snd d * snd d)).
  { intros z. unfold fore, side. field. lra. }
  pose proof (F1 a) as A1'. pose proof (F1 b) as B1'. pose proof (F2 a) as A2'. pose proof (F2 b) as B2'.
  exists a, b.
  set (sa := side p d a) in *. set (sb := side p d b) in *. set (fa := fore p d a) in *. set (fb := fore p d b) in *. set (dd := fst d * fst d + snd d * snd d) in *.
  clearbody sa sb fa fb. assert (AB : 0 < sb - sa) by lra.
  exists (sb / (sb - sa)), ((fa * sb - sa * fb) / (sb - sa) / dd).
  split; [exact E|]. split; [|split; [|split; [lra|]]].
  - split; [apply Rdiv_lt_0_compat; lra|]. apply Rmult_lt_reg_r with (sb - sa); [exact AB|]. unfold Rdiv. rewrite Rmult_assoc, Rinv_l by lra. lra.
  - apply Rdiv_lt_0_compat; [apply Rdiv_lt_0_compat; assumption|exact DD].
  - unfold SLine2D.along. cbn [fst snd]. replace (fst a) with (fst p + (fst a - fst p)) by ring. replace (fst b) with (fst p + (fst b - fst p)) by ring.
    replace (snd a) with (snd p + (snd a - snd p)) by ring. replace (snd b) with (snd p + (snd b - snd p)) by ring.
    rewrite A1', A2', B1', B2'. split; field; lra.
Qed.
Lemma turn_mix a b u v w : turn_of a b (w * fst u + (1 - w) * fst v, w * snd u + (1 - w) * snd v) = w * turn_of a b u + (1 - w) * turn_of a b v.
Proof. unfold turn_of. cbn [fst snd]. ring. Qed.
Lemma entering P p q1 q2 : P <> [] -> convex_ccw P -> strictly_outside P q1 -> strictly_inside P p -> in_open_segment q1 q2 p ->
  (forall v, In v P -> off_line q1 q2 v) ->
  exists a b, is_edge P a b /\ transversal q1 q2 a b /\ exists x, in_open_segment q1 q2 x /\ in_open_segment a b x.
Proof.
  intros NE CV (ea & eb & EE & OUT) IN (lam & LAM & [PX PY]) NV.
  pose (d := (fst q1 - fst p, snd q1 - snd p)).
  assert (SD : forall v, turn_of q1 q2 v * (1 - lam) = - side p d v).
  { intros v. unfold turn_of, side, d. cbn [fst snd]. rewrite PX, PY. ring. }
  assert (NS : forall v, In v P -> side p d v <> 0).
  { intros v I Z. apply (NV v I). specialize (SD v). rewrite Z in SD. assert (X : turn_of q1 q2 v * (1 - lam) = 0) by lra. apply Rmult_integral in X. destruct X; [assumption|lra]. }
  assert (D0 : fst d * fst d + snd d * snd d <> 0).
  { intros Z. pose proof (Rle_0_sqr (fst d)). pose proof (Rle_0_sqr (snd d)). unfold Rsqr in *. assert (Z1 : fst d = 0) by nra. assert (Z2 : snd d = 0) by nra.
    destruct P as [|v P]; [congruence|]. apply (NS v (or_introl eq_refl)). unfold side. rewrite Z1, Z2. ring. }
  destruct (ray_crosses P p d NE IN D0 NS) as (a & b & w & tau & E & W & TAU & SAB & AX & AY). cbn [fst snd] in AX, AY.
  assert (T1 : tau < 1).
  { destruct (Rlt_dec tau 1) as [L|L]; [exact L|exfalso].
    pose proof (IN ea eb EE) as TP. destruct (is_edge_in P a b E) as [Ia Ib]. pose proof (CV ea eb a EE Ia) as TA. pose proof (CV ea eb b EE Ib) as TB.
    assert (TZ : 0 <= turn_of ea eb (fst p + tau * fst d, snd p + tau * snd d)).
    { rewrite AX, AY, turn_mix. apply Rplus_le_le_0_compat; apply Rmult_le_pos; lra. }
    assert (EQ : turn_of ea eb (fst p + tau * fst d, snd p + tau * snd d) = tau * turn_of ea eb q1 + (1 - tau) * turn_of ea eb p).
    { unfold turn_of, d. cbn [fst snd]. ring. }
    rewrite EQ in TZ. assert (tau * turn_of ea eb q1 < 0) by (assert (0 < tau * - turn_of ea eb q1) by (apply Rmult_lt_0_compat; lra); lra).
    assert (0 <= (tau - 1) * turn_of ea eb p) by (apply Rmult_le_pos; lra). lra. }
  exists a, b. split; [exact E|]. split.
  - unfold transversal. assert (Q : ((fst q2 - fst q1) * (snd a - snd b) - (fst a - fst b) * (snd q2 - snd q1)) = turn_of q1 q2 a - turn_of q1 q2 b) by (unfold turn_of; ring).
    rewrite Q. intros Z. pose proof (SD a) as Sa. pose proof (SD b) as Sb. replace (turn_of q1 q2 a) with (turn_of q1 q2 b) in Sa by lra. lra.
  - exists (fst p + tau * fst d, snd p + tau * snd d). split.
    + exists (lam + tau * (1 - lam)). split.
      * assert (0 < tau * (1 - lam)) by (apply Rmult_lt_0_compat; lra). assert (0 < (1 - tau) * (1 - lam)) by (apply Rmult_lt_0_compat; lra). lra.
      * unfold SLine2D.along, d. cbn [fst snd]. rewrite PX, PY. split; ring.
    + exists w. split; [exact W|]. split; assumption.
Qed.
