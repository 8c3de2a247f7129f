(** A concrete planar scene: witnesses for the planner properties. *)
From Coq Require Import List Bool Arith Lia ZArith Reals.
From Flocq Require Import IEEE754.BinarySingleNaN.
From Verif.Base Require Import Outcome Float64 FloatFacts.
From Verif.Model Require Import MScalar MDistance MInterval MFreeSpace MLine2D MGraph MSearch MHRM2D MAStar.
From Verif.Spec Require Import SFreeSpace SGraph SSearch SPlanner2D.
From Verif.Proofs Require Import PTables PPlan2DY PPlan2DZ.
Import ListNotations.

Definition zp (l : list (Z * Z)) : poly64 := map (fun p => (fofZ (fst p), fofZ (snd p))) l.
Definition box (x0 x1 y0 y1 : Z) : poly64 := zp [(x0, y0); (x1, y0); (x1, y1); (x0, y1)]%Z.
Definition cramer (a b c d e f : f64) : f64 * f64 :=
  let det := fsub (fmul a d) (fmul b c) in
  (fdiv (fsub (fmul e d) (fmul b f)) det, fdiv (fsub (fmul a f) (fmul e c)) det).

Definition demo_astar (g : graph) (s t : nat) : option (list nat) :=
  match boost_astar first_top 100 g s t with Some r => r | None => None end.
(** Limits [-10,10]^2, arena boundary [-20,20]^2, obstacles [obs], bridge boundaries
    [br], a disc robot (one body, its centre at the pose). *)
Definition demo_env (nslice : nat) (obs : list poly64) (br : list (list poly64)) (start goal : pose) : env :=
  {| robot_t := f64 * f64 * f64; e_move := fun _ x y h => (x, y, h); e_angle := snd;
     e_centers := fun r => (fst r, []);
     e_mink := fun _ => Bound [box (-20) 20 (-20) 20] obs;
     e_tfe := fun _ _ _ => Ok br; e_sort := isort; e_solve := cramer;
     e_astar := demo_astar;
     e_limits := map fofZ [-10; 10; -10; 10]%Z; e_numSlice := nslice; e_numPoint := 5; e_numNeighbor := 10;
     e_radius := cHALF_PI; e_start := start; e_goal := goal |}.
Definition zpose (x y h : Z) : pose := map fofZ [x; y; h].
Definition origin : f64 * f64 * f64 := (fofZ 0, fofZ 0, fofZ 0).

(** A box in the middle, free motion between slices. *)
Definition E1 : env := demo_env 3 [box (-3) 3 (-4) 4] [[]] (zpose 0 (-10) 0) (zpose 0 10 0).
Definition run (E : env) (r : robot_t E) (ny : nat) (nO : nat) (rounds : list (nat -> bool)) :=
  obind (construct E r r 1 ny 1 nO) (plan E (connect_multi E) rounds).
Definition view (E : env) (o : outcome (state E * option (list pose * list pose))) : outcome (nat * nat * nat * bool * list nat * option nat) :=
  obind o (fun p => let s := fst p in
   Ok (length (gvert (p_graph s)), length (gedge (p_graph s)), length (p_vidx s), s_solved (p_sol s), s_path (p_sol s),
       option_map (fun r => length (fst r)) (snd p))).
(** No obstacles, every motion between slices blocked, start and goal heading 3. *)
Definition E2 : env := demo_env 3 [] [[box (-20) 20 (-20) 20]] (zpose 0 (-10) 3) (zpose 0 10 3).
(** A wall across the arena; motion between slices is free. *)
Definition E3 : env := demo_env 3 [box (-30) 30 (-1) 1] [[]] (zpose 0 (-10) 0) (zpose 0 10 0).
(** Two slices. *)
Definition E4 : env := demo_env 2 [box (-3) 3 (-4) 4] [[]] (zpose 0 (-10) 0) (zpose 0 10 0).
(** The wall, motion between slices blocked. *)
Definition E5 : env := demo_env 3 [box (-30) 30 (-1) 1] [[box (-20) 20 (-20) 20]] (zpose 0 (-10) 0) (zpose 0 10 0).
(** One slice. *)
Definition E6 : env := demo_env 1 [box (-3) 3 (-4) 4] [[]] (zpose 0 (-10) 0) (zpose 0 10 0).

(** A robot whose boundary depends on its heading: wide for headings below -1. *)
Definition E7 : env :=
  {| robot_t := f64 * f64 * f64; e_move := fun _ x y h => (x, y, h); e_angle := snd; e_centers := fun r => (fst r, []);
     e_mink := fun r => Bound [box (-20) 20 (-20) 20] [if fltb (snd r) (fofZ (-1)) then box (-9) 9 (-4) 4 else box (-3) 3 (-4) 4];
     e_tfe := fun _ _ _ => Ok [[]]; e_sort := isort; e_solve := cramer;
     e_astar := demo_astar; e_limits := map fofZ [-10; 10; -10; 10]%Z; e_numSlice := 3; e_numPoint := 5; e_numNeighbor := 10;
     e_radius := cHALF_PI; e_start := zpose 0 (-10) 0; e_goal := zpose 0 10 0 |}.
Definition kc (E : env) (r : robot_t E) (ny : nat) (nO : nat) (rounds : list (nat -> bool)) :=
  obind (construct E r r 1 ny 1 nO) (plan E (kc_connect E [] (fun _ => fone)) rounds).

Lemma view_inv E o a b c d l m : view E o = Ok (a, b, c, d, l, m) -> exists s r, o = Ok (s, r) /\
  length (gvert (p_graph s)) = a /\ length (gedge (p_graph s)) = b /\ length (p_vidx s) = c /\
  s_solved (p_sol s) = d /\ s_path (p_sol s) = l /\ option_map (fun r => length (fst r)) r = m.
Proof.
  unfold view. destruct o as [[s r]| |]; cbn [obind fst snd]; intros H; [|discriminate H..]. injection H as <- <- <- <- <- <-. exists s, r. auto 10.
Qed.
Lemma E1_view : view E1 (run E1 origin 4 1 []) = Ok (30, 78, 3, true, [11; 13; 15; 17], Some 6).
Proof. vm_compute. reflexivity. Qed.
Lemma E3_view : view E3 (run E3 origin 4 1 []) = Ok (12, 18, 3, true, [4; 8; 9; 6; 7], Some 7).
Proof. vm_compute. reflexivity. Qed.
Lemma E5_view : view E5 (run E5 origin 4 1 []) = Ok (12, 6, 3, false, [], None).
Proof. vm_compute. reflexivity. Qed.
Lemma E6_view : view E6 (run E6 origin 4 1 []) = Ok (10, 16, 1, false, [], None).
Proof. vm_compute. reflexivity. Qed.
Lemma E7_view : view E7 (run E7 origin 4 1 []) = Ok (30, 78, 3, true, [11; 13; 15; 17], Some 6).
Proof. vm_compute. reflexivity. Qed.
Lemma E1_kc : view E1 (kc E1 origin 4 1 []) = Ok (30, 48, 3, true, [11; 13; 15; 17], Some 6).
Proof. vm_compute. reflexivity. Qed.
Lemma E3_kc : view E3 (kc E3 origin 4 1 []) = Ok (12, 6, 3, false, [], None).
Proof. vm_compute. reflexivity. Qed.
Lemma view_UB E o : view E o = UB -> o = UB.
Proof. destruct o as [[s r]|e|]; intros H; [discriminate H|discriminate H|reflexivity]. Qed.
Lemma view_throw E o e : view E o = Throw e -> o = Throw e.
Proof. destruct o as [[s r]|e'|]; intros H; [discriminate H| |discriminate H]. injection H as ->. reflexivity. Qed.
Lemma E2_UB : run E2 origin 2 0 [] = UB.
Proof. apply view_UB. vm_compute. reflexivity. Qed.
Lemma E4_throw : run E4 origin 4 1 [] = Throw OutOfRange.
Proof. apply view_throw. vm_compute. reflexivity. Qed.
Lemma E5_refine : run E5 origin 4 1 [fun _ => false] = Throw OutOfRange.
Proof. apply view_throw. vm_compute. reflexivity. Qed.

(** The constructed planner. *)
Lemma demo_construct E r ny nO rounds x : run E r ny nO rounds = Ok x ->
  exists s, construct E r r 1 ny 1 nO = Ok s /\ plan E (connect_multi E) rounds s = Ok x.
Proof. unfold run. destruct (construct E r r 1 ny 1 nO) as [s| |]; cbn [obind]; intros H; [eauto|discriminate H..]. Qed.
Lemma demo_reachable E r ny nO rounds s o : run E r ny nO rounds = Ok (s, o) -> reachable E s.
Proof. intros H. apply demo_construct in H. destruct H as (s0 & H0 & H). eapply reach_plan; [eapply reach_new; eauto|eauto]. Qed.

(** Boolean forms of [tame] and [astar_is_boost]. *)
Definition tame_b (g : graph) : bool :=
  (Z.leb (Z.of_nat (length (gvert g))) (2 ^ 53) &&
   forallb (fun v => Z.leb (Z.of_nat (length v)) (2 ^ 53) && forallb (fun x => fisfin x && fleb (fabs x) (fofZ (2 ^ 53))) v) (gvert g))%bool.
Lemma fabs_val x : fisfin x = true -> fisfin (fabs x) = true /\ fval (fabs x) = Rabs (fval x).
Proof.
  intros F. assert (F' : fisfin (fabs x) = true) by (unfold fisfin, fabs; rewrite is_finite_Babs; exact F). split; [auto|].
  rewrite !fval_finite by auto. apply B2R_Babs.
Qed.
Lemma tame_b_ok g : tame_b g = true -> tame g.
Proof.
  unfold tame_b, tame. intros H. apply andb_prop in H. destruct H as [H1 H2]. split; [apply Z.leb_le; exact H1|].
  intros v Hv. rewrite forallb_forall in H2. specialize (H2 v Hv). apply andb_prop in H2. destruct H2 as [H2 H3]. split; [apply Z.leb_le; exact H2|].
  intros x Hx. rewrite forallb_forall in H3. specialize (H3 x Hx). apply andb_prop in H3. destruct H3 as [F L]. split; [exact F|].
  destruct (fabs_val x F) as [Fa Va]. destruct (fofZ_spec (2 ^ 53) ltac:(lia)) as [Vb Fb].
  apply fleb_val in L; [|apply finite_not_nan; auto|apply finite_not_nan; auto]. rewrite Va, Vb in L.
  eapply Rle_trans; [exact L|]. apply IZR_le. lia.
Qed.
Definition boost_b (g : graph) : bool :=
  forallb (fun s => forallb (fun t => match boost_astar first_top 100 g s t with Some _ => true | None => false end)
                      (seq 0 (length (gvert g)))) (seq 0 (length (gvert g))).
Lemma boost_b_ok g : boost_b g = true -> astar_is_boost g demo_astar.
Proof.
  unfold boost_b. intros H s t Hs Ht. exists first_top, 100. split; [apply first_top_ok|].
  pose proof (proj1 (forallb_forall _ _) H s ltac:(apply in_seq; lia)) as H1. cbv beta in H1.
  pose proof (proj1 (forallb_forall _ _) H1 t ltac:(apply in_seq; lia)) as H2. cbv beta in H2. clear H H1. rename H2 into H.
  unfold demo_astar. destruct (boost_astar first_top 100 g s t); [reflexivity|discriminate H].
Qed.
Definition ok_search (E : env) (o : outcome (state E)) : bool :=
  match o with Ok s => (tame_b (p_graph s) && boost_b (p_graph s))%bool | _ => false end.
Lemma E3_ok : ok_search E3 (obind (run E3 origin 4 1 []) (fun p => Ok (fst p))) = true.
Proof. vm_compute. reflexivity. Qed.
Lemma E5_ok : ok_search E5 (obind (run E5 origin 4 1 []) (fun p => Ok (fst p))) = true.
Proof. vm_compute. reflexivity. Qed.
Lemma E2_ok : ok_search E2 (obind (construct E2 origin origin 1 2 1 0) (build_roadmap E2 (connect_multi E2))) = true.
Proof. vm_compute. reflexivity. Qed.
Lemma E3_run : exists s0 s path, construct E3 origin origin 1 4 1 1 = Ok s0 /\
  plan E3 (connect_multi E3) [] s0 = Ok (s, Some (path, path)) /\ length path = 7 /\ s_path (p_sol s) = [4; 8; 9; 6; 7] /\
  length (gvert (p_graph s)) = 12 /\ length (gedge (p_graph s)) = 18 /\ length (p_vidx s) = 3 /\
  tame (p_graph s) /\ astar_is_boost (p_graph s) (e_astar E3).
Proof.
  destruct (view_inv _ _ _ _ _ _ _ _ E3_view) as (s & r & H & V & Ed & X & Sv & Pa & L).
  pose proof E3_ok as K. rewrite H in K. cbn [obind fst ok_search] in K. apply andb_prop in K. destruct K as [K1 K2].
  apply demo_construct in H. destruct H as (s0 & H0 & H). pose proof (plan_result _ _ _ _ _ _ H) as [[Q ->]|(_ & path & -> & _)]; [discriminate L|].
  cbn [option_map fst] in L. injection L as L. exists s0, s, path. split; [exact H0|]. split; [exact H|].
  split; [exact L|]. split; [exact Pa|]. split; [exact V|]. split; [exact Ed|]. split; [exact X|].
  split; [apply tame_b_ok; exact K1|]. change (e_astar E3) with demo_astar. apply boost_b_ok; exact K2.
Qed.
Lemma E5_run : exists s0 s, construct E5 origin origin 1 4 1 1 = Ok s0 /\
  plan E5 (connect_multi E5) [] s0 = Ok (s, None) /\ tame (p_graph s) /\ astar_is_boost (p_graph s) (e_astar E5) /\
  length (gvert (p_graph s)) = 12.
Proof.
  destruct (view_inv _ _ _ _ _ _ _ _ E5_view) as (s & r & H & V & Ed & X & Sv & Pa & L).
  pose proof E5_ok as K. rewrite H in K. cbn [obind fst ok_search] in K. apply andb_prop in K. destruct K as [K1 K2].
  apply demo_construct in H. destruct H as (s0 & H0 & H). pose proof (plan_result _ _ _ _ _ _ H) as [[Q ->]|(_ & path & -> & _)]; [|discriminate L].
  exists s0, s. split; [exact H0|]. split; [exact H|]. split; [apply tame_b_ok; exact K1|]. split; [|exact V]. change (e_astar E5) with demo_astar. exact (boost_b_ok _ K2).
Qed.
Lemma E1_run : exists s0 s path, construct E1 origin origin 1 4 1 1 = Ok s0 /\
  plan E1 (connect_multi E1) [] s0 = Ok (s, Some (path, path)) /\ reachable E1 s /\ length path = 6 /\ s_path (p_sol s) = [11; 13; 15; 17] /\
  length (gvert (p_graph s)) = 30 /\ length (gedge (p_graph s)) = 78 /\ length (p_vidx s) = 3.
Proof.
  destruct (view_inv _ _ _ _ _ _ _ _ E1_view) as (s & r & H & V & Ed & X & Sv & Pa & L).
  pose proof (demo_reachable _ _ _ _ _ _ _ H) as Re.
  apply demo_construct in H. destruct H as (s0 & H0 & H). pose proof (plan_result _ _ _ _ _ _ H) as [[Q ->]|(_ & path & -> & _)]; [discriminate L|].
  cbn [option_map fst] in L. injection L as L. exists s0, s, path. auto 12.
Qed.

(** A "polytope" that contains every point (constant barycentric coordinates). *)
Definition whole : list (list f64) := [repeat fzero 12 ++ repeat (fdiv fone ftwo) 4].
Definition kc_whole (E : env) (r : robot_t E) (ny nO : nat) :=
  obind (construct E r r 1 ny 1 nO) (plan E (kc_connect E whole (fun _ => fone)) []).
Lemma E3_kc_whole : view E3 (kc_whole E3 origin 4 1) = Ok (24, 30, 3, true, [4; 16; 8; 19; 7], Some 7).
Proof. vm_compute. reflexivity. Qed.
