(** A concrete spatial scene: witnesses for the spatial planner properties. *)
From Coq Require Import List Bool Arith Lia ZArith Reals.
From Flocq Require Import IEEE754.BinarySingleNaN.
From Verif.Base Require Import Outcome Float64 FloatFacts.
From Verif.Model Require Import MScalar MDistance MInterval MFreeSpace MLine3D MInterp MGraph MSearch MHRM3D MAStar.
From Verif.Spec Require Import SFreeSpace SGraph SSearch SPlanner2D SPlanner3D.
From Verif.Proofs Require Import PTables PHRM2DW PPlan2DZ PPlan3D PPlan3DX.
Import ListNotations.

(** Axis-parallel box as a mesh of 12 triangles. *)
Definition zv (x y z : Z) : vec3 F64 := V3 (S := F64) (fofZ x) (fofZ y) (fofZ z).
Definition cuboid (x0 x1 y0 y1 z0 z1 : Z) : mesh64 :=
  Mesh (S := F64) [zv x0 y0 z0; zv x1 y0 z0; zv x1 y1 z0; zv x0 y1 z0; zv x0 y0 z1; zv x1 y0 z1; zv x1 y1 z1; zv x0 y1 z1]
    [(0, 1, 2); (0, 2, 3); (4, 5, 6); (4, 6, 7); (0, 1, 5); (0, 5, 4); (1, 2, 6); (1, 6, 5); (2, 3, 7); (2, 7, 6); (3, 0, 4); (3, 4, 7)].
Definition zpose3 (x y z : Z) (q : Z * Z * Z * Z) : pose :=
  let '(a, b, c, d) := q in map fofZ [x; y; z; a; b; c; d].
Definition zq (a b c d : Z) : qt := (fofZ a, fofZ b, fofZ c, fofZ d).
(** Sum of the coordinate differences instead of the angle. *)
Definition demo_qdist (p q : qt) : f64 :=
  let '(a, b, c, d) := p in let '(e, f, g, h) := q in
  fadd (fadd (fabs (fsub a e)) (fabs (fsub b f))) (fadd (fabs (fsub c g)) (fabs (fsub d h))).
Definition demo_slerp (p : qt) (t : f64) (q : qt) : qt := if fltb t (fdiv fone ftwo) then p else q.
Definition quat_of (v : pose) : qt := (nth 3 v fzero, nth 4 v fzero, nth 5 v fzero, nth 6 v fzero).
(** A point robot; limits [-10,10]^3, arena boundary [-20,20]^3. *)
Definition demo3 (prob : bool) (dof : nat) (rigid : bool) (samples : list qt) (obs : list mesh64) (br : list (list mesh64))
    (uninit : graph -> pose -> outcome qt) (start goal : pose) : env3 :=
  {| robot3 := pose; m_move := fun _ v => v; m_quat := quat_of;
     m_centers := fun v => ((nth 0 v fzero, nth 1 v fzero, nth 2 v fzero), []);
     m_mink := fun _ => Ok (BMesh [cuboid (-20) 20 (-20) 20 (-20) 20] obs);
     m_tfe_q := fun _ _ _ => Ok br; m_tfe_v := fun _ _ _ => Ok br;
     m_qdist := demo_qdist; m_slerp := demo_slerp; m_sort := isort; m_astar := demo_astar; m_uninit := uninit;
     m_prob := prob; m_dof := dof; m_rigid := rigid; m_samples := samples; m_limits := map fofZ [-10; 10; -10; 10; -10; 10]%Z;
     m_numPoint := 2; m_numNeighbor := 10; m_radius := cHALF_PI; m_start := start; m_goal := goal |}.
Definition qa : qt := zq 1 0 0 0.
Definition qb : qt := zq 0 1 0 0.
Definition read_first : graph -> pose -> outcome qt := fun _ _ => Ok qa.
Definition read_ub : graph -> pose -> outcome qt := fun _ _ => UB.


(** A box across one of the four vertical sweep lines of a 2 x 2 grid; a wall across all. *)
Definition post : mesh64 := cuboid (-30) (-5) (-31) (-5) (-1) 1.
Definition wall : mesh64 := cuboid (-30) 30 (-31) 29 (-1) 1.
Definition world : mesh64 := cuboid (-20) 20 (-20) 20 (-20) 20.
(** HRM3D with two orientations. *)
Definition hrm (rigid : bool) (obs : mesh64) (br : list (list mesh64)) (uninit : graph -> pose -> outcome qt) (qs : Z * Z * Z * Z) : env3 :=
  demo3 false 0 rigid [qa; qb] [obs] br uninit (zpose3 (-10) (-10) (-10) qs) (zpose3 (-10) (-10) 10 (0, 1, 0, 0)%Z).
Definition D1 : env3 := hrm true post [[]] read_first (1, 0, 0, 0)%Z.
(** One orientation, a wall between start and goal. *)
Definition D2 : env3 := demo3 false 0 true [qa] [wall] [[world]] read_first (zpose3 (-10) (-10) (-10) (1, 0, 0, 0)%Z) (zpose3 (-10) (-10) 10 (1, 0, 0, 0)%Z).
Definition D3 : env3 := hrm true post [[]] read_ub (1, 0, 0, 0)%Z.
Definition D4 : env3 := hrm true post [[]] read_ub (0, 1, 0, 0)%Z.
Definition D5 : env3 := hrm false post [[]] read_first (1, 0, 0, 0)%Z.
Definition run3 (E : env3) (r : robot3 E) (nS nx ny : nat) (rounds : list (nat -> bool)) :=
  obind (construct3 E r nS nx ny 1 1) (plan3 E (fun _ => qa) rounds).
Definition view3 (E : env3) (o : outcome (state3 E * option (list pose * list pose))) : outcome (nat * nat * nat * bool * list nat * option nat) :=
  obind o (fun p => let s := fst p in
   Ok (length (gvert (q_graph s)), length (gedge (q_graph s)), length (q_vidx s), s_solved (q_sol s), s_path (q_sol s),
       option_map (fun r => length (fst r)) (snd p))).
(** ProbHRM3D with one joint: start and goal have eight numbers. *)
Definition runp (E : env3) (r : robot3 E) (nx ny : nat) (d : draw) (ds : list draw) :=
  obind (construct3 E r 0 nx ny 1 1) (plan_prob E d ds).
Definition dr (q : qt) : draw := Draw q (fun _ => fofZ 0) (fun _ => false).
(** An uninitialised quaternion that is far from every sample while the roadmap has one slice. *)
Definition read_far : graph -> pose -> outcome qt := fun g _ => if Nat.leb (length (gvert g)) 7 then Ok (zq 9 9 9 9) else Ok qa.
Definition prob_env (dof : nat) (rigid : bool) (uninit : graph -> pose -> outcome qt) : env3 :=
  demo3 true dof rigid [] [post] [[]] uninit
    (zpose3 (-10) (-10) (-10) (1, 0, 0, 0)%Z ++ [fofZ 0]) (zpose3 (-10) (-10) 10 (0, 1, 0, 0)%Z ++ [fofZ 0]).
Definition P1 : env3 := prob_env 1 false read_far.
Definition P2 : env3 := prob_env 1 false read_ub.
Definition P3 : env3 := prob_env 1 true read_far.
(** The uninitialised quaternion is near the samples for the first slice only. *)
Definition read_once : graph -> pose -> outcome qt := fun g _ => if Nat.leb (length (gvert g)) 7 then Ok qa else Ok (zq 9 9 9 9).
Definition P4 : env3 := demo3 true 1 false [] [post] [[]] read_once
    (zpose3 (-10) (-10) (-10) (1, 0, 0, 0)%Z ++ [fofZ 0]) (zpose3 10 10 10 (1, 0, 0, 0)%Z ++ [fofZ 0]).

Lemma view3_inv E o a b c d l m : view3 E o = Ok (a, b, c, d, l, m) -> exists s r, o = Ok (s, r) /\
  length (gvert (q_graph s)) = a /\ length (gedge (q_graph s)) = b /\ length (q_vidx s) = c /\
  s_solved (q_sol s) = d /\ s_path (q_sol s) = l /\ option_map (fun r => length (fst r)) r = m.
Proof.
  unfold view3. destruct o as [[s r]| |]; cbn [obind fst snd]; intros H; [|discriminate H..]. injection H as <- <- <- <- <- <-. exists s, r. auto 10.
Qed.
Lemma view3_UB E o : view3 E o = UB -> o = UB.
Proof. destruct o as [[s r]|e|]; intros H; [discriminate H|discriminate H|reflexivity]. Qed.
Lemma view3_throw E o e : view3 E o = Throw e -> o = Throw e.
Proof. destruct o as [[s r]|e'|]; intros H; [discriminate H| |discriminate H]. injection H as ->. reflexivity. Qed.

Definition ok_search3 (E : env3) (o : outcome (state3 E)) : bool :=
  match o with Ok s => (tame_b (q_graph s) && boost_b (q_graph s))%bool | _ => false end.
Definition view_ok (E : env3) (o : outcome (state3 E * option (list pose * list pose))) :=
  (view3 E o, ok_search3 E (obind o (fun p => Ok (fst p)))).
Lemma view_ok_split E o v b : view_ok E o = (v, b) -> view3 E o = v /\ ok_search3 E (obind o (fun p => Ok (fst p))) = b.
Proof. unfold view_ok. intros H. split; [exact (f_equal fst H)|exact (f_equal snd H)]. Qed.
Lemma D1_both : view_ok D1 (run3 D1 [] 2 2 2 []) = (Ok (14, 38, 2, true, [0; 7; 10; 8], Some 6), true).
Proof. vm_compute. reflexivity. Qed.
Lemma D1_view : view3 D1 (run3 D1 [] 2 2 2 []) = Ok (14, 38, 2, true, [0; 7; 10; 8], Some 6).
Proof. exact (proj1 (view_ok_split _ _ _ _ D1_both)). Qed.
Lemma D1_ok : ok_search3 D1 (obind (run3 D1 [] 2 2 2 []) (fun p => Ok (fst p))) = true.
Proof. exact (proj2 (view_ok_split _ _ _ _ D1_both)). Qed.
Lemma D2_both : view_ok D2 (run3 D2 [] 1 2 2 []) = (Ok (10, 13, 1, false, [], None), true).
Proof. vm_compute. reflexivity. Qed.
Lemma D2_view : view3 D2 (run3 D2 [] 1 2 2 []) = Ok (10, 13, 1, false, [], None).
Proof. exact (proj1 (view_ok_split _ _ _ _ D2_both)). Qed.
Lemma D2_ok : ok_search3 D2 (obind (run3 D2 [] 1 2 2 []) (fun p => Ok (fst p))) = true.
Proof. exact (proj2 (view_ok_split _ _ _ _ D2_both)). Qed.
Lemma D4_view : view3 D4 (run3 D4 [] 2 2 2 []) = Ok (14, 38, 2, true, [7; 10; 8], Some 5).
Proof. vm_compute. reflexivity. Qed.
Lemma P1_both : view_ok P1 (runp P1 [] 2 2 (dr qa) [dr qa; dr qb]) = (Ok (14, 31, 2, true, [0; 7; 10; 8], Some 6), true).
Proof. vm_compute. reflexivity. Qed.
Lemma P1_view : view3 P1 (runp P1 [] 2 2 (dr qa) [dr qa; dr qb]) = Ok (14, 31, 2, true, [0; 7; 10; 8], Some 6).
Proof. exact (proj1 (view_ok_split _ _ _ _ P1_both)). Qed.
Lemma P1_ok : ok_search3 P1 (obind (runp P1 [] 2 2 (dr qa) [dr qa; dr qb]) (fun p => Ok (fst p))) = true.
Proof. exact (proj2 (view_ok_split _ _ _ _ P1_both)). Qed.
Lemma P1_view1 : view3 P1 (runp P1 [] 2 2 (dr qa) []) = Ok (7, 12, 1, false, [], None).
Proof. vm_compute. reflexivity. Qed.
Lemma P4_view : view3 P4 (runp P4 [] 2 2 (dr qa) []) = Ok (7, 12, 1, true, [0; 3; 6], Some 5).
Proof. vm_compute. reflexivity. Qed.
Lemma P4_view2 : view3 P4 (obind (runp P4 [] 2 2 (dr qa) []) (fun x => plan_prob P4 (dr qa) [dr qa] (fst x))) = Ok (14, 24, 2, true, [0; 3; 6], Some 5).
Proof. vm_compute. reflexivity. Qed.
Lemma D2_refine : run3 D2 [] 1 2 2 [fun _ => false] = Throw OutOfRange.
Proof. apply view3_throw. vm_compute. reflexivity. Qed.
Lemma D3_UB : run3 D3 [] 2 2 2 [] = UB.
Proof. apply view3_UB. vm_compute. reflexivity. Qed.
Lemma D5_throw : run3 D5 [] 2 2 2 [] = Throw OutOfRange.
Proof. apply view3_throw. vm_compute. reflexivity. Qed.
Lemma P2_UB : runp P2 [] 2 2 (dr qa) [dr qa; dr qb] = UB.
Proof. apply view3_UB. vm_compute. reflexivity. Qed.
Lemma P3_UB : runp P3 [] 2 2 (dr qa) [dr qa; dr qb] = UB.
Proof. apply view3_UB. vm_compute. reflexivity. Qed.

Lemma run3_construct E r nS nx ny rounds x : run3 E r nS nx ny rounds = Ok x ->
  exists s, construct3 E r nS nx ny 1 1 = Ok s /\ plan3 E (fun _ => qa) rounds s = Ok x.
Proof. unfold run3. destruct (construct3 E r nS nx ny 1 1) as [s| |]; cbn [obind]; intros H; [eauto|discriminate H..]. Qed.
Lemma runp_construct E r nx ny d ds x : runp E r nx ny d ds = Ok x ->
  exists s, construct3 E r 0 nx ny 1 1 = Ok s /\ plan_prob E d ds s = Ok x.
Proof. unfold runp. destruct (construct3 E r 0 nx ny 1 1) as [s| |]; cbn [obind]; intros H; [eauto|discriminate H..]. Qed.
Lemma run3_reachable E r nS nx ny rounds s o : m_prob E = false -> run3 E r nS nx ny rounds = Ok (s, o) -> reachable3 E s.
Proof. intros P H. apply run3_construct in H. destruct H as (s0 & H0 & H). eapply reach3_plan; [exact P|eapply reach3_new; exact H0|exact H]. Qed.
Lemma runp_reachable E r nx ny d ds s o : m_prob E = true -> runp E r nx ny d ds = Ok (s, o) -> reachable3 E s.
Proof. intros P H. apply runp_construct in H. destruct H as (s0 & H0 & H). eapply reach3_prob; [exact P|eapply reach3_new; exact H0|exact H]. Qed.

(** The scenes as facts. *)
Lemma D1_run : exists s0 s path, construct3 D1 [] 2 2 2 1 1 = Ok s0 /\ plan3 D1 (fun _ => qa) [] s0 = Ok (s, Some (path, path)) /\
  reachable3 D1 s0 /\ reachable3 D1 s /\ length path = 6 /\ s_path (q_sol s) = [0; 7; 10; 8] /\
  length (gvert (q_graph s)) = 14 /\ length (gedge (q_graph s)) = 38 /\ length (q_vidx s) = 2 /\
  tame (q_graph s) /\ astar_is_boost (q_graph s) (m_astar D1).
Proof.
  destruct (view3_inv _ _ _ _ _ _ _ _ D1_view) as (s & r & H & V & Ed & X & Sv & Pa & L).
  pose proof D1_ok as K. rewrite H in K. cbn [obind fst ok_search3] in K. apply andb_prop in K. destruct K as [K1 K2].
  pose proof (run3_reachable D1 _ _ _ _ _ _ _ eq_refl H) as Re.
  apply run3_construct in H. destruct H as (s0 & H0 & H).
  pose proof (plan3_result _ _ _ _ _ _ H) as [[Q ->]|(_ & path & -> & _)]; [discriminate L|].
  cbn [option_map fst] in L. injection L as L. exists s0, s, path. split; [exact H0|]. split; [exact H|].
  split; [eapply reach3_new; exact H0|]. split; [exact Re|]. split; [exact L|]. split; [exact Pa|]. split; [exact V|]. split; [exact Ed|]. split; [exact X|].
  split; [apply tame_b_ok; exact K1|]. change (m_astar D1) with demo_astar. apply boost_b_ok; exact K2.
Qed.
Lemma D2_run : exists s0 s, construct3 D2 [] 1 2 2 1 1 = Ok s0 /\ plan3 D2 (fun _ => qa) [] s0 = Ok (s, None) /\
  reachable3 D2 s /\ length (gvert (q_graph s)) = 10 /\ tame (q_graph s) /\ astar_is_boost (q_graph s) (m_astar D2).
Proof.
  destruct (view3_inv _ _ _ _ _ _ _ _ D2_view) as (s & r & H & V & Ed & X & Sv & Pa & L).
  pose proof D2_ok as K. rewrite H in K. cbn [obind fst ok_search3] in K. apply andb_prop in K. destruct K as [K1 K2].
  pose proof (run3_reachable D2 _ _ _ _ _ _ _ eq_refl H) as Re.
  apply run3_construct in H. destruct H as (s0 & H0 & H).
  pose proof (plan3_result _ _ _ _ _ _ H) as [[Q ->]|(_ & path & -> & _)]; [|discriminate L].
  exists s0, s. split; [exact H0|]. split; [exact H|]. split; [exact Re|]. split; [exact V|].
  split; [apply tame_b_ok; exact K1|]. change (m_astar D2) with demo_astar. apply boost_b_ok; exact K2.
Qed.
Lemma P1_run : exists s0 s path ip, construct3 P1 [] 0 2 2 1 1 = Ok s0 /\ plan_prob P1 (dr qa) [dr qa; dr qb] s0 = Ok (s, Some (path, ip)) /\
  reachable3 P1 s0 /\ reachable3 P1 s /\ length path = 6 /\ s_path (q_sol s) = [0; 7; 10; 8] /\
  length (gvert (q_graph s)) = 14 /\ length (gedge (q_graph s)) = 31 /\ length (q_vidx s) = 2 /\
  tame (q_graph s) /\ astar_is_boost (q_graph s) (m_astar P1).
Proof.
  destruct (view3_inv _ _ _ _ _ _ _ _ P1_view) as (s & r & H & V & Ed & X & Sv & Pa & L).
  pose proof P1_ok as K. rewrite H in K. cbn [obind fst ok_search3] in K. apply andb_prop in K. destruct K as [K1 K2].
  pose proof (runp_reachable P1 _ _ _ _ _ _ _ eq_refl H) as Re.
  apply runp_construct in H. destruct H as (s0 & H0 & H).
  pose proof (plan_prob_result _ _ _ _ _ _ H) as [[Q ->]|(_ & path & ip & -> & _)]; [discriminate L|].
  cbn [option_map fst] in L. injection L as L. exists s0, s, path, ip. split; [exact H0|]. split; [exact H|].
  split; [eapply reach3_new; exact H0|]. split; [exact Re|]. split; [exact L|]. split; [exact Pa|]. split; [exact V|]. split; [exact Ed|]. split; [exact X|].
  split; [apply tame_b_ok; exact K1|]. change (m_astar P1) with demo_astar. apply boost_b_ok; exact K2.
Qed.

(** A robot whose boundary depends on its orientation. *)
Definition D7 : env3 :=
  {| robot3 := pose; m_move := fun _ v => v; m_quat := quat_of;
     m_centers := fun v => ((nth 0 v fzero, nth 1 v fzero, nth 2 v fzero), []);
     m_mink := fun r => Ok (BMesh [world] [if fltb (nth 3 r fzero) (fdiv fone ftwo) then post else wall]);
     m_tfe_q := fun _ _ _ => Ok [[]]; m_tfe_v := fun _ _ _ => Ok [[]];
     m_qdist := demo_qdist; m_slerp := demo_slerp; m_sort := isort; m_astar := demo_astar; m_uninit := read_first;
     m_prob := false; m_dof := 0; m_rigid := true; m_samples := [qa; qb]; m_limits := map fofZ [-10; 10; -10; 10; -10; 10]%Z;
     m_numPoint := 2; m_numNeighbor := 10; m_radius := cHALF_PI;
     m_start := zpose3 (-10) (-10) (-10) (1, 0, 0, 0)%Z; m_goal := zpose3 (-10) (-10) 10 (0, 1, 0, 0)%Z |}.
Lemma D7_view : view3 D7 (run3 D7 [] 2 2 2 []) = Ok (14, 38, 2, true, [0; 7; 10; 8], Some 6).
Proof. vm_compute. reflexivity. Qed.
