(** Witnesses for the planar intersection properties. *)
From Coq Require Import List Bool Reals Lra Lia ZArith Arith FunctionalExtensionality.
From Flocq Require Import Core.Core.
From Verif.Base Require Import Outcome Float64 FloatFacts.
From Verif.Model Require Import MScalar MLine2D MInterval MFreeSpace.
From Verif.Spec Require Import SLine2D SInterval SFreeSpace.
From Verif.Proofs Require Import PInterval PFreeSpace PTables PFreeAll PLine2D.
Import ListNotations.
Local Open Scope R_scope.

(** The diamond |x| + |y| <= 1 as a binary64 polygon. *)
Definition diamond : list (f64 * f64) :=
  [(fofZ 0, fofZ 1); (fofZ (-1), fofZ 0); (fofZ 0, fofZ (-1)); (fofZ 1, fofZ 0)].

Definition hits_of (P : list (f64 * f64)) (c : f64) : list f64 :=
  match hline_polygon F64 c P with Ok l => l | _ => [] end.

Lemma hline_nonempty (P : list (f64 * f64)) c : P <> [] -> hline_polygon F64 c P = Ok (hits_of P c).
Proof.
  intros H. unfold hits_of, hline_polygon. destruct P as [|p P]; [congruence|]. cbn [map].
  match goal with |- context [if ?b then _ else _] => destruct b end; reflexivity.
Qed.

Lemma diamond_hits : length (hits_of diamond fzero) = 4%nat.
Proof. vm_compute. reflexivity. Qed.
Lemma diamond_pair : fsame (fst (obstacle_pair (hits_of diamond fzero))) (fofZ (-1)) &&
  fsame (snd (obstacle_pair (hits_of diamond fzero))) (fofZ (-1)) = true.
Proof. vm_compute. reflexivity. Qed.
Lemma diamond_last : match hits_of diamond fzero with [_; _; c; d] => fsame c (fofZ 1) && fsame d (fofZ 1) | _ => false end = true.
Proof. vm_compute. reflexivity. Qed.

Local Opaque fval fdblmax fofZ.

Lemma vertex_collapse srt : conforming srt -> exists t r,
  compute_intersection (fofZ (-10)) (fofZ 10) (fun _ => [Ok []]) (fun c => [hline_polygon F64 c diamond]) [fzero]
    (setup 1 (fofZ (-10)) (fofZ 10) 1 1 tables0) = Ok t /\
  sweep_line srt t 0 = Ok r /\ covers r 0.
Proof.
  intros C.
  destruct (compute_intersection_spec 1 1 1 (fofZ (-10)) (fofZ 10) (fun _ => [[]]) (fun c => [hits_of diamond c])
     [fzero] (setup 1 (fofZ (-10)) (fofZ 10) 1 1 tables0)) as (t & E & Sh & H).
  { apply setup_shape. } { simpl; lia. }
  { intros c [<-|[]]. split; [reflexivity|]. split; [reflexivity|].
    split; constructor; try constructor; [discriminate|rewrite diamond_hits; discriminate]. }
  exists t. cbn [map] in E.
  replace (fun c => [hline_polygon F64 c diamond]) with (fun c => [Ok (hits_of diamond c)])
    by (apply functional_extensionality; intros c; rewrite hline_nonempty by discriminate; reflexivity).
  specialize (H 0%nat fzero eq_refl). destruct H as (H1 & H2 & H3 & H4). cbn [map arena_pair fst snd] in *.
  pose proof diamond_pair as Hd. apply andb_true_iff in Hd. rewrite !fsame_eq in Hd. destruct Hd as [D1 D2].
  rewrite D1 in H3. rewrite D2 in H4.
  destruct (sweep_line_spec srt C t 0 _ _ _ _ H1 H2 H3 H4) as (r & Er & _ & _ & _ & Cv); auto.
  { intros p [<-|[]] _. cbn [fst snd]. lra. }
  exists r. split; [exact E|]. split; [exact Er|]. apply Cv.
  - pose proof (fval_le_dblmax (fofZ 0) (fofZ_fin 0 ltac:(lia))) as B. rewrite fofZ_val in B by lia.
    apply Rabs_le_inv in B. unfold in_double_range. lra.
  - cbn [combine]. split; [|split].
    + eexists. split; [left; reflexivity|]. split; cbn [fst snd]; apply fofZ_nan; lia.
    + intros p [<-|[]] _. cbn [fst snd]. rewrite !fofZ_val by lia. lra.
    + intros (d & Hd0 & Hd). destruct (Hd 0) as (p & [<-|[]] & _ & Hp).
      * rewrite Rminus_diag_eq, Rabs_R0; auto.
      * cbn [fst snd] in Hp. rewrite !fofZ_val in Hp by lia. lra.
Qed.

(** Cramer's rule meets the contract of the 2x2 solver. *)
Definition cramer (a11 a12 a21 a22 b1 b2 : car XR) : car XR * car XR :=
  match a11, a12, a21, a22, b1, b2 with
  | Some a11, Some a12, Some a21, Some a22, Some b1, Some b2 =>
      if Req_EM_T (a11 * a22 - a12 * a21) 0 then (Some 0, Some 0)
      else (Some ((b1 * a22 - a12 * b2) / (a11 * a22 - a12 * a21)),
            Some ((a11 * b2 - b1 * a21) / (a11 * a22 - a12 * a21)))
  | _, _, _, _, _, _ => (None, None)
  end.
Lemma cramer_exact : solve_exact cramer.
Proof.
  intros a11 a12 a21 a22 b1 b2. unfold cramer. split; intros H.
  - destruct (Req_EM_T _ 0); [contradiction|]. do 2 eexists. split; [reflexivity|]. split; field; auto.
  - destruct (Req_EM_T _ 0); [|contradiction]. left. reflexivity.
Qed.

(** The square [0,2]^2. *)
Definition square : list rpoint := [(0,0); (2,0); (2,2); (0,2)].
Lemma square_edges a b : is_edge square a b ->
  (a, b) = ((0,0),(2,0)) \/ (a, b) = ((2,0),(2,2)) \/ (a, b) = ((2,2),(0,2)) \/ (a, b) = ((0,2),(0,0)).
Proof. intros H. apply redges_is_edge in H. cbn in H.
  destruct H as [H|[H|[H|[H|[]]]]]; rewrite <- H; auto. Qed.

Lemma square_diagonal solve : solve_exact solve ->
  seg_polygon XR solve [Some (-1); Some (-1)] [Some 3; Some 3] (lift_poly square) = Ok false.
Proof.
  intros HS. destruct (seg_polygon_XR solve HS (-1,-1) (3,3) [] [] square) as (b & E & Hb).
  cbn [fst snd] in E. rewrite E. f_equal. destruct b; auto. exfalso.
  destruct Hb as [Hb _]. destruct (Hb eq_refl) as (a & c & He & _ & (x, y) & (s & Hs & X1 & Y1) & (t & Ht & X2 & Y2)).
  apply square_edges in He. cbn [fst snd] in *.
  destruct He as [[= -> ->]|[[= -> ->]|[[= -> ->]|[= -> ->]]]]; cbn [fst snd] in *; lra.
Qed.
Lemma square_inside solve : solve_exact solve ->
  seg_polygon XR solve [Some (1/2); Some 1] [Some (3/2); Some 1] (lift_poly square) = Ok false.
Proof.
  intros HS. destruct (seg_polygon_XR solve HS (1/2,1) (3/2,1) [] [] square) as (b & E & Hb).
  cbn [fst snd] in E. rewrite E. f_equal. destruct b; auto. exfalso.
  destruct Hb as [Hb _]. destruct (Hb eq_refl) as (a & c & He & _ & (x, y) & (s & Hs & X1 & Y1) & (t & Ht & X2 & Y2)).
  apply square_edges in He. cbn [fst snd] in *.
  destruct He as [[= -> ->]|[[= -> ->]|[[= -> ->]|[= -> ->]]]]; cbn [fst snd] in *; lra.
Qed.
Lemma square_crossed solve : solve_exact solve ->
  seg_polygon XR solve [Some 1; Some (-1)] [Some 1; Some 1] (lift_poly square) = Ok true.
Proof.
  intros HS. destruct (seg_polygon_XR solve HS (1,-1) (1,1) [] [] square) as (b & E & Hb).
  cbn [fst snd] in E. rewrite E. f_equal. apply Hb. exists (0,0), (2,0). split.
  - left. exists 0%nat. auto.
  - split; [unfold transversal; simpl; lra|]. exists (1, 0). split; exists (1/2); unfold along; simpl; lra.
Qed.
