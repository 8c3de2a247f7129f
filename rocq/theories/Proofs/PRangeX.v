(** Concrete spatial scenes for C98: the hypotheses hold in the demonstration scenes. *)
From Coq Require Import List Bool Arith Reals Lra Lia ZArith.
From Flocq Require Import Core.Core.
From Verif.Base Require Import Outcome Float64 FloatFacts.
From Verif.Model Require Import MScalar MInterval MLine2D MLine3D MInterp MGraph MSearch MHRM2D MHRM3D.
From Verif.Spec Require Import SInterval SGraph SPlanner3D SClear SHline SRange.
From Verif.Proofs Require Import PInterval PSampling PHRM2DW PHlineX PHRM3DW PClear3 PClearX.
From Verif.Props Require Import PropPlanner3D.
Import ListNotations.
Local Open Scope R_scope.
Local Opaque fval fofZ.

Lemma small_53 h : small h = true -> fisnan h = false /\ Rabs (fval h) <= bpow radix2 53.
Proof.
  unfold small. intros H. apply andb_prop in H. destruct H as [N H]. apply andb_prop in H. destruct H as [F L].
  split; [destruct (fisnan h); [discriminate N|reflexivity]|]. destruct (fabs_val h F) as [Fa Va]. destruct (fofZ_spec (2 ^ 53) ltac:(lia)) as [Vb Fb].
  apply fleb_val in L; [|apply finite_not_nan; auto|apply finite_not_nan; auto]. rewrite Va, Vb in L. exact L.
Qed.
Lemma bounded3_b_ok B gx gy : moderate3_b B gx gy = true -> forall x y, In x gx -> In y gy -> bounded_arena3 B x y (bpow radix2 53).
Proof.
  unfold moderate3_b. intros H x y Hx Hy m hits h Im Q Ih. pose proof (proj1 (forallb_forall _ _) H x Hx) as H1. cbv beta in H1.
  pose proof (proj1 (forallb_forall _ _) H1 y Hy) as H2. cbv beta in H2. pose proof (proj1 (forallb_forall _ _) H2 m Im) as H3. cbv beta in H3.
  apply zhit_heights in Q. rewrite Q in H3. apply small_53. exact (proj1 (forallb_forall _ _) H3 h Ih).
Qed.
Lemma arena_53 obs : forall x y, In x (grid 2 (fofZ (-10)) (fofZ 10)) -> In y (grid 2 (fofZ (-10)) (fofZ 10)) -> bounded_arena3 (BMesh [world] obs) x y (bpow radix2 53).
Proof.
  intros x y Hx Hy m hits h Im. cbn [marena] in Im.
  assert (H : forall x y, In x (grid 2 (fofZ (-10)) (fofZ 10)) -> In y (grid 2 (fofZ (-10)) (fofZ 10)) -> bounded_arena3 (BMesh [world] []) x y (bpow radix2 53))
    by (apply bounded3_b_ok; vm_compute; reflexivity).
  exact (H x y Hx Hy m hits h Im).
Qed.
Lemma plain_Z z : (Z.abs z <= 2 ^ 53)%Z -> plain_number (fofZ z).
Proof.
  intros H. split; [apply fofZ_fin; exact H|]. rewrite fofZ_val by exact H. rewrite <- abs_IZR.
  apply Rle_trans with (bpow radix2 53); [change (bpow radix2 53) with (IZR (2 ^ 53)); apply IZR_le; exact H|apply bpow_le; lia].
Qed.
Lemma demo_workspace3 prob dof rigid samples obs br un st gl :
  plain_workspace3 (demo3 prob dof rigid samples obs br un st gl) (BMesh [world] obs) 2 2 (fofZ (-10)) (fofZ 10) (fofZ (-10)) (fofZ 10) (fofZ (-10)) (fofZ 10) 10 (bpow radix2 53).
Proof.
  assert (A : forall z, Z.abs z = 10%Z -> Rabs (fval (fofZ z)) = 10) by (intros z Hz; rewrite fofZ_val by lia; rewrite <- abs_IZR, Hz; reflexivity).
  assert (T : 10 <= bpow radix2 53) by (apply Rle_trans with (bpow radix2 4); [cbn; lra|apply bpow_le; lia]).
  assert (V : fval (fofZ (-10)) <= fval (fofZ 10)) by (rewrite !fofZ_val by lia; lra).
  split; [reflexivity|]. split; [lia|]. split; [lia|]. split; [lia|]. split; [lia|].
  split; [apply limit_10; reflexivity|]. split; [apply limit_10; reflexivity|]. split; [apply limit_10; reflexivity|]. split; [apply limit_10; reflexivity|].
  split; [exact V|]. split; [exact V|]. rewrite !A by reflexivity.
  split; [lra|]. split; [lra|]. split; [lra|]. split; [lra|].
  split; [apply finite_not_nan; apply fofZ_fin; lia|]. split; [apply finite_not_nan; apply fofZ_fin; lia|]. split; [exact T|]. split; [exact T|].
  apply arena_53.
Qed.
Lemma quat_of_plain c : Forall plain_number c -> (7 <= length c)%nat -> Forall plain_number (quat_list (quat_of c)).
Proof.
  intros H L. assert (N : forall i, (i < 7)%nat -> plain_number (nth i c fzero)) by (intros i Hi; exact (proj1 (Forall_forall _ _) H _ (nth_In c fzero (Nat.lt_le_trans i 7 _ Hi L)))).
  unfold quat_of, quat_list. repeat (apply Forall_cons; [apply N; lia|]). apply Forall_nil.
Qed.
Lemma q4_plain a b c d : (Z.abs a <= 2 ^ 53)%Z -> (Z.abs b <= 2 ^ 53)%Z -> (Z.abs c <= 2 ^ 53)%Z -> (Z.abs d <= 2 ^ 53)%Z -> Forall plain_number (quat_list (zq a b c d)).
Proof. intros A B C D. unfold zq, quat_list. repeat (apply Forall_cons; [apply plain_Z; assumption|]). apply Forall_nil. Qed.
Lemma demo_samples dof rigid samples obs br un st gl (s : state3 (demo3 false dof rigid samples obs br un st gl)) :
  (forall q, In q (q_quats s) -> Forall plain_number (quat_list q)) -> plain_samples _ s.
Proof.
  intros H. unfold plain_samples. cbn [m_prob demo3]. intros r q Hq. change (Forall plain_number (quat_list (quat_of ([fofZ 0; fofZ 0; fofZ 0] ++ quat_list q)))).
  apply quat_of_plain.
  - apply Forall_app. split; [|exact (H q Hq)]. repeat (apply Forall_cons; [apply plain_Z; lia|]). apply Forall_nil.
  - rewrite app_length. destruct q as [[[? ?] ?] ?]. cbn [length quat_list]. lia.
Qed.
Lemma D1_samples s0 s r : construct3 D1 [] 2 2 2 1 1 = Ok s0 -> plan3 D1 (fun _ => qa) [] s0 = Ok (s, r) -> plain_samples D1 s.
Proof.
  intros C P. destruct (C53_slices_recorded D1 s0 s (fun _ => qa) [] r eq_refl (reach3_new D1 _ _ _ _ _ _ _ C) P) as [Q _].
  apply demo_samples. intros q Hq. assert (Q2 : q_quats s = [qa; qb]) by exact Q.
  assert (H2 : In q [qa; qb]) by (rewrite <- Q2; exact Hq). destruct H2 as [<-|[<-|[]]]; apply q4_plain; lia.
Qed.
Lemma D2_samples s0 s r : construct3 D2 [] 1 2 2 1 1 = Ok s0 -> plan3 D2 (fun _ => qa) [] s0 = Ok (s, r) -> plain_samples D2 s.
Proof.
  intros C P. destruct (C53_slices_recorded D2 s0 s (fun _ => qa) [] r eq_refl (reach3_new D2 _ _ _ _ _ _ _ C) P) as [Q _].
  apply demo_samples. intros q Hq. assert (Q2 : q_quats s = [qa]) by exact Q.
  assert (H2 : In q [qa]) by (rewrite <- Q2; exact Hq). destruct H2 as [<-|[]]; apply q4_plain; lia.
Qed.
Lemma turned_plain E v c : turned_like E v c -> Forall plain_number v -> Forall plain_number c.
Proof.
  intros (L & Z0 & S0) Hv. apply Forall_forall. intros x Hx. apply In_nth_error in Hx. destruct Hx as [i Hi].
  assert (Li : (i < length c)%nat) by (apply nth_error_Some; rewrite Hi; discriminate). rewrite L in Li.
  destruct (Nat.ltb_spec i 3) as [Q|Q].
  - rewrite (Z0 i Q) in Hi. injection Hi as <-. apply plain_Z. lia.
  - rewrite (S0 i (conj Q Li)) in Hi. exact (proj1 (Forall_forall _ _) Hv _ (nth_error_In _ _ Hi)).
Qed.
Lemma zpose3_plain x y z a b c d : (Z.abs x <= 2 ^ 53)%Z -> (Z.abs y <= 2 ^ 53)%Z -> (Z.abs z <= 2 ^ 53)%Z ->
  (Z.abs a <= 2 ^ 53)%Z -> (Z.abs b <= 2 ^ 53)%Z -> (Z.abs c <= 2 ^ 53)%Z -> (Z.abs d <= 2 ^ 53)%Z -> Forall plain_number (zpose3 x y z (a, b, c, d) ++ [fofZ 0]).
Proof.
  intros. apply Forall_app. split; [|apply Forall_cons; [apply plain_Z; lia|apply Forall_nil]].
  unfold zpose3. repeat (apply Forall_cons; [apply plain_Z; assumption|]). apply Forall_nil.
Qed.
Lemma P1_samples s0 s r : construct3 P1 [] 0 2 2 1 1 = Ok s0 -> plan_prob P1 (dr qa) [dr qa; dr qb] s0 = Ok (s, r) -> plain_samples P1 s.
Proof.
  intros C P. pose proof (reach3_new P1 _ _ _ _ _ _ _ C) as R0.
  destruct (C53_sampling_order P1 s0 s (dr qa) [dr qa; dr qb] r eq_refl R0 P) as (l & Q & _ & S).
  assert (Q0 : q_confs s0 = []) by (unfold construct3 in C; injection C as <-; reflexivity). rewrite Q0, app_nil_l in Q.
  assert (K : forall c, In c (q_confs s) -> Forall plain_number c /\ (7 <= length c)%nat).
  { intros c Hc. rewrite Q in Hc. apply In_nth_error in Hc. destruct Hc as [k Hk]. destruct (S k c Hk) as (dk & Hd & Hs).
    destruct k as [|[|[|k]]].
    - split; [apply (turned_plain P1 _ _ Hs); apply zpose3_plain; lia|]. destruct Hs as (L & _). rewrite L. cbn. lia.
    - split; [apply (turned_plain P1 _ _ Hs); apply zpose3_plain; lia|]. destruct Hs as (L & _). rewrite L. cbn. lia.
    - injection Hd as <-. cbn [sampled_as] in Hs. rewrite Hs. split.
      + apply Forall_app. split; [repeat (apply Forall_cons; [apply plain_Z; lia|]); apply Forall_nil|]. apply Forall_app. split; [apply q4_plain; lia|].
        apply Forall_forall. intros x Hx. apply in_map_iff in Hx. destruct Hx as (j & <- & _). apply plain_Z. lia.
      + rewrite !app_length. change (length (quat_list (d_quat (dr qb)))) with 4%nat. cbn [length]. lia.
    - destruct k; discriminate Hd. }
  unfold plain_samples. cbn [m_prob P1 prob_env demo3]. intros rr c Hc. destruct (K c Hc) as [K1 K2]. split; [exact (quat_of_plain c K1 K2)|].
  apply Forall_forall. intros x Hx. apply (proj1 (Forall_forall _ _) K1). rewrite <- (firstn_skipn 7 c). apply in_or_app. right. exact Hx.
Qed.
