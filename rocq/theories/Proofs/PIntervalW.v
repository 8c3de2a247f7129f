(** Witnesses and assembled statements for the interval properties. *)
From Coq Require Import List Bool Sorted Permutation Reals Lra Lia ZArith.
From Verif.Base Require Import Outcome Float64 FloatFacts.
From Verif.Model Require Import MInterval.
From Verif.Spec Require Import SInterval.
From Verif.Proofs Require Import PInterval.
Import ListNotations.
Local Open Scope R_scope.

Definition iz (a b : Z) : itv := Itv (fofZ a) (fofZ b).

Lemma iz_wf a b : (Z.abs a <= 1000000)%Z -> (Z.abs b <= 1000000)%Z -> (a <= b)%Z -> itv_wf (iz a b).
Proof.
  intros Ha Hb H. split; [split|]; simpl.
  - apply fofZ_nan; lia.
  - apply fofZ_nan; lia.
  - rewrite !fofZ_val by lia. apply IZR_le; auto.
Qed.

Lemma iz_num a b : (Z.abs a <= 1000000)%Z -> (Z.abs b <= 1000000)%Z -> itv_num (iz a b).
Proof. intros Ha Hb; split; simpl; apply fofZ_nan; lia. Qed.
Ltac iz_list := repeat (apply Forall_cons; [first [apply iz_wf; lia|apply iz_num; lia]|]); apply Forall_nil.

Lemma unions_perm srt1 srt2 l1 l2 : conforming srt1 -> conforming srt2 ->
  Forall itv_wf l1 -> Forall itv_wf l2 ->
  (forall x, covers l1 x <-> covers l2 x) ->
  exists r1 r2, unions srt1 l1 = Ok r1 /\ unions srt2 l2 = Ok r2 /\ same_values r1 r2.
Proof.
  intros C1 C2 W1 W2 H.
  destruct (unions_spec srt1 C1 l1 W1) as (r1 & E1 & V1 & S1 & F1 & _).
  destruct (unions_spec srt2 C2 l2 W2) as (r2 & E2 & V2 & S2 & F2 & _).
  exists r1, r2. split; [auto|]. split; [auto|]. apply canonical; auto.
  intros x. rewrite V1, V2. auto.
Qed.

Lemma sort_two srt a b : conforming srt -> itv_num a -> itv_num b ->
  fval (istart a) < fval (istart b) -> sort_by srt istart [a; b] = Ok [a; b].
Proof.
  intros C [A1 A2] [B1 B2] H.
  destruct (sort_by_spec srt C istart [a; b]) as (l & -> & P & S).
  { repeat constructor; auto. }
  f_equal. apply (sorted_perm_unique istart).
  - symmetry; auto.
  - eapply (FOP_distinct_perm istart); [exact P|]. constructor; [|constructor; constructor].
    constructor; [lra|constructor].
  - auto.
  - repeat constructor; lra.
Qed.

Lemma complements_overlap_bad : exists o inner, itv_wf o /\ Forall itv_wf inner /\ inner <> [] /\
  forall srt, conforming srt ->
  exists r x i, complements srt [o] inner = Ok r /\ covers r x /\ In i inner /\ insideI i x.
Proof.
  exists (iz (-20) 20), [iz 0 10; iz 2 3].
  assert (W1 : itv_wf (iz 0 10)) by (apply iz_wf; lia).
  assert (W2 : itv_wf (iz 2 3)) by (apply iz_wf; lia).
  assert (Wo : itv_wf (iz (-20) 20)) by (apply iz_wf; lia).
  split; [auto|]. split; [auto|]. split; [discriminate|].
  intros srt C. unfold complements. rewrite sort_two; auto; try apply W1; try apply W2.
  2:{ cbn [iz istart]. rewrite !fofZ_val by lia. lra. }
  cbn [obind gaps].
  destruct (clip_all_spec srt C (iz (-20) 20)
    [Itv (fneg fdblmax) (istart (iz 0 10)); Itv (iend (iz 0 10)) (istart (iz 2 3)); Itv (iend (iz 2 3)) fdblmax])
    as (r & -> & _ & Hc & _).
  - apply Wo.
  - repeat constructor; cbn [istart iend iz]; try (apply fofZ_nan; lia); reflexivity.
  - exists r, 5, (iz 0 10). split; [auto|]. split; [|split; [simpl; auto|]].
    + apply Hc. split.
      * unfold inI, iz; cbn [istart iend]. rewrite !fofZ_val by lia. lra.
      * exists (Itv (iend (iz 2 3)) fdblmax). split; [simpl; auto|].
        unfold inI, iz; cbn [istart iend]. rewrite !fofZ_val by lia. split; [lra|].
        pose proof (fval_le_dblmax (fofZ 5)) as M. rewrite fofZ_val in M by lia.
        rewrite Rabs_pos_eq in M by lra. apply M. apply fofZ_fin; lia.
    + unfold insideI, iz; cbn [istart iend]. rewrite !fofZ_val by lia. lra.
Qed.

(** dropping outer intervals changes the covered set *)
Lemma complements_drops_outer : exists o1 o2 inner x, itv_wf o1 /\ itv_wf o2 /\
  Forall itv_wf inner /\ inner <> [] /\
  covers [o1; o2] x /\ (forall i, In i inner -> ~ inI i x) /\
  forall srt, conforming srt ->
  exists r, complements srt [o1; o2] inner = Ok r /\ ~ covers r x.
Proof.
  exists (iz 0 1), (iz 5 6), [iz 10 11], 5.
  assert (W1 : itv_wf (iz 0 1)) by (apply iz_wf; lia).
  assert (W2 : itv_wf (iz 5 6)) by (apply iz_wf; lia).
  assert (W3 : itv_wf (iz 10 11)) by (apply iz_wf; lia).
  repeat (split; [solve [auto|discriminate]|]).
  split. { exists (iz 5 6). split; [simpl; auto|]. unfold inI, iz; cbn [istart iend]. rewrite !fofZ_val by lia. lra. }
  split. { intros i [<-|[]]. unfold inI, iz; cbn [istart iend]. rewrite !fofZ_val by lia. lra. }
  intros srt C.
  destruct (complements_complete srt C (iz 0 1) [iz 5 6] [iz 10 11]) as (r & E & _ & Hs & _).
  - apply W1.
  - discriminate.
  - constructor; [apply W3|constructor].
  - exists r. split; [auto|]. intros Hc. apply Hs in Hc. unfold inI, iz in Hc; cbn [istart iend] in Hc.
    rewrite !fofZ_val in Hc by lia. lra.
Qed.
