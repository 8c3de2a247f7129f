(** Witnesses for the free-space properties. *)
From Coq Require Import List Bool Arith Reals Lra Lia ZArith Permutation.
From Flocq Require Import Core.Core.
From Verif.Base Require Import Outcome Float64 FloatFacts.
From Verif.Model Require Import MInterval MFreeSpace.
From Verif.Spec Require Import SInterval SFreeSpace.
From Verif.Proofs Require Import PInterval PIntervalW PFreeSpace PEnhance PTables PFreeAll.
Import ListNotations.
Local Open Scope R_scope.
Local Opaque fval fdblmax fofZ.

Definition pz (a b : Z) : f64 * f64 := (fofZ a, fofZ b).

Lemma pz_num a b : (Z.abs a <= 1000000)%Z -> (Z.abs b <= 1000000)%Z -> numeric (pz a b).
Proof. intros; split; simpl; apply fofZ_nan; lia. Qed.

Lemma small_moderate z : (Z.abs z <= 1000000)%Z -> Rabs (fval (fofZ z)) <= bpow radix2 1022.
Proof.
  intros H. rewrite fofZ_val by lia. rewrite <- abs_IZR.
  apply Rle_trans with (IZR (2 ^ 20)); [apply IZR_le; lia|].
  replace (IZR (2 ^ 20)) with (bpow radix2 20) by reflexivity. apply bpow_le. lia.
Qed.
Lemma pz_moderate l : (forall p, In p l -> exists a b, p = pz a b /\ (Z.abs a <= 1000000)%Z /\ (Z.abs b <= 1000000)%Z) ->
  arena_moderate l.
Proof.
  intros H p Hp _. destruct (H p Hp) as (a & b & -> & Ha & Hb). split; apply small_moderate; auto.
Qed.

(** One line, one arena [-10,10], obstacles [0,1],[1,2],[3,4] and one NaN pair. *)
Definition demo_A : list (f64 * f64) := [pz (-10) 10].
Definition demo_O : list (f64 * f64) := [pz 1 2; (fnan, fnan); pz 3 4; pz 0 1].
Definition demo_t : tables :=
  Tables [map fst demo_A] [map snd demo_A] [map fst demo_O] [map snd demo_O].
Lemma demo_holds : line_holds demo_t 0 demo_A demo_O /\ arena_moderate demo_A /\ obstacle_ordered demo_O.
Proof.
  split; [repeat split|]. split.
  - apply pz_moderate. intros p [<-|[]]. exists (-10)%Z, 10%Z. repeat split; lia.
  - intros p Hp [N1 N2]. destruct Hp as [<-|[<-|[<-|[<-|[]]]]]; cbn [fst snd pz] in *; try discriminate;
      rewrite !fofZ_val by lia; lra.
Qed.

(** A free segment that leaves the arena: arena chord [-1,1], bounds [-10,10]. *)
Lemma arena_ignored srt : conforming srt -> exists t r,
  compute_intersection (fofZ (-10)) (fofZ 10) (fun _ => [Ok [fofZ (-1); fofZ 1]]) (fun _ => []) [fzero]
    (setup 1 (fofZ (-10)) (fofZ 10) 1 0 tables0) = Ok t /\
  sweep_line srt t 0 = Ok r /\ covers r 5.
Proof.
  intros C.
  destruct (compute_intersection_spec 1 1 0 (fofZ (-10)) (fofZ 10) (fun _ => [[fofZ (-1); fofZ 1]]) (fun _ => [])
     [fzero] (setup 1 (fofZ (-10)) (fofZ 10) 1 0 tables0)) as (t & E & Sh & H).
  { apply setup_shape. } { simpl; lia. }
  { intros c _. split; [reflexivity|]. split; [reflexivity|]. split; [|constructor].
    constructor; [discriminate|constructor]. }
  exists t. cbn [map] in *. specialize (H 0%nat fzero eq_refl). destruct H as (H1 & H2 & H3 & H4).
  cbn [map arena_pair fst snd] in *.
  assert (Nn : forall z, (Z.abs z <= 10)%Z -> fisnan (fofZ z) = false) by (intros; apply fofZ_nan; lia).
  destruct (sweep_line_spec srt C t 0 _ _ _ _ H1 H2 H3 H4) as (r & Er & _ & _ & _ & Cv); auto.
  { intros p []. }
  exists r. split; [exact E|]. split; [exact Er|]. apply Cv.
  - assert (5 = fval (fofZ 5)) by (rewrite fofZ_val by lia; reflexivity). rewrite H.
    pose proof (fval_le_dblmax (fofZ 5) (fofZ_fin 5 ltac:(lia))) as B. apply Rabs_le_inv in B.
    unfold in_double_range. lra.
  - cbn [combine]. split; [|split].
    + eexists. split; [left; reflexivity|]. split; cbn [fst snd].
      * rewrite !ffmin_nan, !Nn by lia. reflexivity.
      * rewrite !ffmax_nan, !Nn by lia. reflexivity.
    + intros p [<-|[]] _. cbn [fst snd].
      rewrite !ffmin_val, !ffmax_val, !fofZ_val by (rewrite ?ffmin_nan, ?ffmax_nan, ?Nn by lia; auto; lia).
      unfold Rmin, Rmax. repeat destruct Rle_dec; lra.
    + intros (d & Hd0 & Hd). destruct (Hd 5) as (p & [] & _). rewrite Rminus_diag_eq, Rabs_R0; auto.
Qed.
