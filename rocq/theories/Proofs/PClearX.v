(** Concrete planar scenes for the clearance properties. *)
From Coq Require Import List Bool Arith Reals Lra Lia ZArith.
From Flocq Require Import Core.Core.
From Verif.Base Require Import Outcome Float64 FloatFacts.
From Verif.Model Require Import MScalar MInterval MFreeSpace MLine2D MLine3D MInterp MGraph MSearch MHRM2D MHRM3D.
From Verif.Spec Require Import SInterval SFreeSpace SGraph SPlanner2D SClear.
From Verif.Proofs Require Import PInterval PFreeSpace PSearch PHRM2D PPlan2D PPlan2DY PHRM2DW PClear3 PHRM3DW.
Import ListNotations.
Local Open Scope R_scope.

(** ---- the demonstration scene ---- *)
Definition small (h : f64) : bool := negb (fisnan h) && (fisfin h && fleb (fabs h) (fofZ (2 ^ 53))).
Lemma small_ok h : small h = true -> fisnan h = false /\ Rabs (fval h) <= bpow radix2 1022.
Proof.
  unfold small. intros H. apply andb_prop in H. destruct H as [N H]. apply andb_prop in H. destruct H as [F L].
  split; [destruct (fisnan h); [discriminate N|reflexivity]|]. destruct (fabs_val h F) as [Fa Va]. destruct (fofZ_spec (2 ^ 53) ltac:(lia)) as [Vb Fb].
  apply fleb_val in L; [|apply finite_not_nan; auto|apply finite_not_nan; auto]. rewrite Va, Vb in L.
  eapply Rle_trans; [exact L|]. change (IZR (2 ^ 53)) with (bpow radix2 53). apply bpow_le. lia.
Qed.
Lemma moderate_10 z : Z.abs z = 10%Z -> fisnan (fofZ z) = false /\ Rabs (fval (fofZ z)) <= bpow radix2 1022.
Proof.
  intros Hz. destruct (fofZ_spec z ltac:(lia)) as [V F]. split; [apply finite_not_nan; exact F|]. rewrite V, <- abs_IZR, Hz.
  apply Rle_trans with (bpow radix2 10); [simpl; lra|]. apply bpow_le. lia.
Qed.
Definition moderate_b (B : bound) (ys : list f64) : bool :=
  forallb (fun y => forallb (fun P => match hline_polygon F64 y P with Ok hits => forallb small hits | _ => true end) (barena B)) ys.
Lemma moderate_b_ok B ys : moderate_b B ys = true -> forall y, In y ys -> moderate_arena2 B y.
Proof.
  unfold moderate_b. intros H y Hy P hits h IP Q Ih. pose proof (proj1 (forallb_forall _ _) H y Hy) as H1. cbv beta in H1.
  pose proof (proj1 (forallb_forall _ _) H1 P IP) as H2. cbv beta in H2. rewrite Q in H2. apply small_ok. exact (proj1 (forallb_forall _ _) H2 h Ih).
Qed.
Lemma E1_moderate : forall y, In y (sweep_heights 4 (fofZ (-10)) (fofZ 10)) -> moderate_arena2 (e_mink E1 origin) y.
Proof. apply moderate_b_ok. vm_compute. reflexivity. Qed.

(** Start inside the box. *)
Definition E8 : env := demo_env 3 [box (-3) 3 (-4) 4] [[box (-3) 3 (-4) 4]] (zpose 0 (-3) 0) (zpose 0 10 0).
(** Limits [-100,100]^2, arena boundary [-200,200]^2, a wall 2 thick across the arena (also
    the boundary used between slices), a disc robot. *)
Definition E9 : env :=
  {| robot_t := f64 * f64 * f64; e_move := fun _ x y h => (x, y, h); e_angle := snd;
     e_centers := fun r => (fst r, []);
     e_mink := fun _ => Bound [box (-200) 200 (-200) 200] [box (-300) 300 1 3];
     e_tfe := fun _ _ _ => Ok [[box (-300) 300 1 3]]; e_sort := isort; e_solve := cramer;
     e_astar := demo_astar;
     e_limits := map fofZ [-100; 100; -100; 100]%Z; e_numSlice := 3; e_numPoint := 5; e_numNeighbor := 10;
     e_radius := cHALF_PI; e_start := zpose 0 (-100) 0; e_goal := zpose 0 100 0 |}.
(** A wall between the start and the sweep line above it. *)
Definition E10 : env := demo_env 3 [box (-30) 30 (-5) (-4)] [[box (-30) 30 (-5) (-4)]] (zpose 0 (-6) 0) (zpose 0 10 0).
Lemma E8_view : view E8 (run E8 origin 4 1 []) = Ok (30, 78, 3, true, [11; 13; 15; 17], Some 6)%nat.
Proof. vm_compute. reflexivity. Qed.
Lemma E9_view : view E9 (run E9 origin 4 1 []) = Ok (12, 18, 3, true, [4; 1; 10; 7], Some 6)%nat.
Proof. vm_compute. reflexivity. Qed.
Lemma E10_view : view E10 (run E10 origin 4 1 []) = Ok (12, 18, 3, true, [5; 6; 7], Some 5)%nat.
Proof. vm_compute. reflexivity. Qed.
Lemma solved_run E r ny nO a b c l k : view E (run E r ny nO []) = Ok (a, b, c, true, l, Some k) ->
  exists s0 s path, construct E r r 1 ny 1 nO = Ok s0 /\ plan E (connect_multi E) [] s0 = Ok (s, Some (path, path)) /\
    s_path (p_sol s) = l /\ length path = k.
Proof.
  intros H. destruct (view_inv _ _ _ _ _ _ _ _ H) as (s & q & R & _ & _ & _ & _ & Pa & L).
  apply demo_construct in R. destruct R as (s0 & H0 & R). pose proof (plan_result _ _ _ _ _ _ R) as [[Q ->]|(_ & path & -> & _)]; [discriminate L|].
  cbn [option_map fst] in L. injection L as L. exists s0, s, path. auto.
Qed.
(** Strictly between the crossings, decided. *)
Definition inside_b (P : poly64) (x y : f64) : bool :=
  match hline_polygon F64 y P with
  | Ok (h0 :: h1 :: _) => negb (fisnan h0) && negb (fisnan h1) && negb (fisnan x) && fltb (ffmin h0 h1) x && fltb x (ffmax h0 h1)
  | _ => false end.
Lemma inside_b_ok P x y : inside_b P x y = true -> exists h0 h1, crosses2 P y h0 h1 /\ Rmin (fval h0) (fval h1) < fval x < Rmax (fval h0) (fval h1).
Proof.
  unfold inside_b. destruct (hline_polygon F64 y P) as [[|h0 [|h1 rest]]| |] eqn:Q; intros H; try discriminate H.
  apply andb_prop in H. destruct H as [H H5]. apply andb_prop in H. destruct H as [H H4]. apply andb_prop in H. destruct H as [H H3].
  apply andb_prop in H. destruct H as [H1 H2]. apply negb_true_iff in H1, H2, H3.
  exists h0, h1. split; [exists rest; auto|].
  apply fltb_val in H4; [|rewrite ffmin_nan, H1, H2; reflexivity|exact H3]. apply fltb_val in H5; [|exact H3|rewrite ffmax_nan, H1, H2; reflexivity].
  rewrite ffmin_val in H4 by assumption. rewrite ffmax_val in H5 by assumption. split; assumption.
Qed.
Lemma E8_inside : inside_b (box (-3) 3 (-4) 4) (fofZ 0) (fofZ (-3)) = true.
Proof. vm_compute. reflexivity. Qed.
(** Real coordinates of a box. *)
Lemma box_val x0 x1 y0 y1 : (Z.abs x0 <= 1000 -> Z.abs x1 <= 1000 -> Z.abs y0 <= 1000 -> Z.abs y1 <= 1000 ->
  map (fun p => (fval (fst p), fval (snd p))) (box x0 x1 y0 y1) = [(IZR x0, IZR y0); (IZR x1, IZR y0); (IZR x1, IZR y1); (IZR x0, IZR y1)])%Z.
Proof.
  intros A0 A1' A2 A3. assert (V : forall z, (Z.abs z <= 1000)%Z -> fval (fofZ z) = IZR z) by (intros z Hz; apply fofZ_spec; lia).
  unfold box, zp. cbn [map fst snd]. rewrite !V by assumption. reflexivity.
Qed.
Lemma crossing (y : R -> R) a b c : continuity y -> y 0 < c -> c < y 1 -> a < c < b -> exists t, 0 <= t <= 1 /\ a < y t < b.
Proof.
  intros Cy H0 H1 Hc. destruct (IVT (fun t => y t - c) 0 1) as (t & Ht & Hz); [|lra|lra|lra|].
  - apply continuity_minus; [exact Cy|]. apply continuity_const. intros u v. reflexivity.
  - exists t. cbv beta in Hz. split; [exact Ht|lra].
Qed.

Definition first_len (E : env) (o : outcome (state E * option (list pose * list pose))) : nat :=
  match o with Ok (s, _) => match gvert (p_graph s) with v :: _ => length v | [] => 0 end | _ => 0 end.
Lemma E8_len : first_len E8 (run E8 origin 4 1 []) = 3%nat.
Proof. vm_compute. reflexivity. Qed.
Lemma run_first E r ny nO s0 s path n : first_len E (run E r ny nO []) = n -> n <> 0%nat -> construct E r r 1 ny 1 nO = Ok s0 ->
  plan E (connect_multi E) [] s0 = Ok (s, Some (path, path)) -> length (e_start E) = n -> hd_error path = Some (e_start E).
Proof.
  unfold run. intros L N C P Ls. rewrite C in L. cbn [obind] in L. rewrite P in L. unfold first_len in L.
  apply plan_result in P. destruct P as [[_ Q]|(_ & p & Q & Sp)]; [discriminate Q|]. injection Q as -> _.
  apply solution_path_spec in Sp. destruct Sp as (v0 & ms & V & -> & _).
  destruct (gvert (p_graph s)) as [|v vs]; [discriminate V|]. cbn [nth_error] in V. injection V as ->. rewrite L, <- Ls. cbn [hd_error]. f_equal.
  unfold resize_pose. rewrite resize_same; auto.
Qed.
Lemma E8_first s0 s path : construct E8 origin origin 1 4 1 1 = Ok s0 -> plan E8 (connect_multi E8) [] s0 = Ok (s, Some (path, path)) ->
  hd_error path = Some (zpose 0 (-3) 0).
Proof. intros C P. exact (run_first E8 origin 4 1 s0 s path 3 E8_len ltac:(discriminate) C P eq_refl). Qed.

(** ---- space ---- *)
Definition moderate3_b (B : bmesh) (gx gy : list f64) : bool :=
  forallb (fun x => forallb (fun y => forallb (fun m => match zhit x y m with Ok hits => forallb small hits | _ => true end) (marena B)) gy) gx.
Lemma moderate3_b_ok B gx gy : moderate3_b B gx gy = true -> forall x y, In x gx -> In y gy -> moderate_arena3 B x y.
Proof.
  unfold moderate3_b. intros H x y Hx Hy m hits h Im Q Ih. pose proof (proj1 (forallb_forall _ _) H x Hx) as H1. cbv beta in H1.
  pose proof (proj1 (forallb_forall _ _) H1 y Hy) as H2. cbv beta in H2. pose proof (proj1 (forallb_forall _ _) H2 m Im) as H3. cbv beta in H3.
  apply zhit_heights in Q. rewrite Q in H3. apply small_ok. exact (proj1 (forallb_forall _ _) H3 h Ih).
Qed.
Definition D_bound : bmesh := BMesh [world] [post].
Lemma D1_moderate : forall x y, In x (grid 2 (fofZ (-10)) (fofZ 10)) -> In y (grid 2 (fofZ (-10)) (fofZ 10)) -> moderate_arena3 D_bound x y.
Proof. apply moderate3_b_ok. vm_compute. reflexivity. Qed.
