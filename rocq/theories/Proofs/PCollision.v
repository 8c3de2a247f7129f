(** The state validity check and the ablation planner's motion check. *)
From Coq Require Import List Reals Arith Bool Lia Lra Psatz.
From Verif.Base Require Import Outcome.
From Verif.Model Require Import MGeom MMultiBody MCollision.
From Verif.Model Require MSeparation.
From Verif.Spec Require Import SGeom SRigid SCollision.
From Verif.Spec Require SSeparation.
From Verif.Proofs Require Import PGeom PGeom2 PGeom3 PRot PMulti PTight2.
From Verif.Proofs Require PSeparation.
Import ListNotations.
Local Open Scope R_scope.

Lemma all_of_spec {A} (h : A -> outcome bool) (P : A -> Prop) l : (forall a, In a l -> exists b, h a = Ok b /\ (b = true <-> P a)) ->
  exists b, all_of h l = Ok b /\ (b = true <-> forall a, In a l -> P a).
Proof.
  induction l as [|a l IH]; intros H.
  - exists true. split; [reflexivity|]. split; [intros _ a []|reflexivity].
  - destruct (H a (or_introl eq_refl)) as [b [E X]]. cbn [all_of]. rewrite E. cbn [obind]. destruct b.
    + destruct IH as [b [E' Y]]; [intros a' I; apply H; right; exact I|]. exists b. split; [exact E'|]. rewrite Y. split.
      * intros Q a' [<-|I]; [apply X; reflexivity|apply Q; exact I].
      * intros Q a' I. apply Q. right. exact I.
    + exists false. split; [reflexivity|]. split; [discriminate|]. intros Q. apply X. apply Q. left. reflexivity.
Qed.
Lemma all_of_true {A} (h : A -> outcome bool) l : all_of h l = Ok true -> forall a, In a l -> h a = Ok true.
Proof.
  induction l as [|a l IH]; intros H a' I; [destruct I|]. cbn [all_of] in H.
  destruct (h a) as [b| |] eqn:E; cbn [obind] in H; try discriminate H. destruct b; [|discriminate H].
  destruct I as [<-|I]; [exact E|exact (IH H a' I)].
Qed.

(** ---- the plane ---- *)
Lemma near_one_1 : near_one 1 = true.
Proof. unfold near_one. destruct (Rlt_dec _ _) as [|N]; [reflexivity|]. exfalso. apply N. rewrite Rminus_diag_eq by reflexivity. rewrite Rabs_R0. lra. Qed.
Lemma frame2 (a b c d ct st ex ey : R) : a * a + c * c = 1 -> a * b + c * d = 0 -> b * b + d * d = 1 -> a * d - b * c = 1 ->
  (a * ct + b * st) * (a * ex + b * ey) + (c * ct + d * st) * (c * ex + d * ey) = ct * ex + st * ey /\
  - (c * ct + d * st) * (a * ex + b * ey) + (a * ct + b * st) * (c * ex + d * ey) = - st * ex + ct * ey.
Proof.
  intros e1 e2 e3 e4. split.
  - replace (_ + _) with ((a * a + c * c) * (ct * ex) + (a * b + c * d) * (ct * ey + st * ex) + (b * b + d * d) * (st * ey)) by ring. rewrite e1, e2, e3. ring.
  - replace (_ + _) with ((a * d - b * c) * (- st * ex + ct * ey)) by ring. rewrite e4. ring.
Qed.
Lemma rigid2_eqs g : rigid2 g -> let '(M2 a b c d) := fst g in
  a * a + c * c = 1 /\ a * b + c * d = 0 /\ b * b + d * d = 1 /\ a * d - b * c = 1.
Proof.
  destruct g as [[a b c d] t]. intros [[_ G] D]. cbn [fst]. unfold tr2, mul2, id2 in G. cbn in G. injection G as e1 e2 e3 e4.
  unfold determinant2 in D. cbn in D. repeat split; assumption.
Qed.
Lemma move_in2 s l0 g q : rigid2 g -> same_shape2 s l0 -> stands2 s (mul2 (fst g) (turning (se_angle l0))) (move2 g (given_pos2 l0)) ->
  in2 (body_of2 s) (move2 g q) <-> in2 (body_of2 l0) q.
Proof.
  intros G (A1 & A2 & _) [P [C D]]. pose proof (rigid2_eqs g G) as E. destruct g as [[a b c d] [u v]]. cbn [fst] in *.
  destruct E as (e1 & e2 & e3 & e4). unfold in2, level2, along, across, body_of2. cbn [ba bb be bc bt x2 y2].
  rewrite A1, A2, P, C, D. unfold move2, given_pos2, turning, mul2, app2, add2. cbn [fst snd m00 m01 m10 m11 x2 y2 nth].
  set (px := nth 0 (se_pos l0) 0). set (py := nth 1 (se_pos l0) 0). set (ct := cos (se_angle l0)). set (st := sin (se_angle l0)).
  destruct (frame2 a b c d ct st (x2 q - px) (y2 q - py) e1 e2 e3 e4) as [X Y].
  replace (a * x2 q + b * y2 q + u - (a * px + b * py + u)) with (a * (x2 q - px) + b * (y2 q - py)) by ring.
  replace (c * x2 q + d * y2 q + v - (c * px + d * py + v)) with (c * (x2 q - px) + d * (y2 q - py)) by ring.
  rewrite X, Y. reflexivity.
Qed.
Lemma move_base2 s base g q : rigid2 g -> same_shape2 s base -> stands2 s (fst g) (snd g) ->
  in2 (body_of2 s) (move2 g q) <->
  in2 (Body2 (nth 0 (se_axes base) 0) (nth 1 (se_axes base) 0) (se_eps base) (V2 0 0) 0) q.
Proof.
  intros G (A1 & A2 & _) [P [C D]]. pose proof (rigid2_eqs g G) as E. destruct g as [[a b c d] [u v]]. cbn [fst snd] in *.
  destruct E as (e1 & e2 & e3 & e4). unfold in2, level2, along, across, body_of2. cbn [ba bb be bc bt x2 y2].
  rewrite A1, A2, P, C, D, cos_0, sin_0. unfold move2, app2, add2. cbn [fst snd m00 m01 m10 m11 x2 y2 nth].
  destruct (frame2 a b c d 1 0 (x2 q - 0) (y2 q - 0) e1 e2 e3 e4) as [X Y].
  replace (a * x2 q + b * y2 q + u - u) with (a * (x2 q - 0) + b * (y2 q - 0)) by ring.
  replace (c * x2 q + d * y2 q + v - v) with (c * (x2 q - 0) + d * (y2 q - 0)) by ring.
  replace (a * 1 + b * 0) with a in X, Y by ring. replace (c * 1 + d * 0) with c in X, Y by ring.
  rewrite X, Y. reflexivity.
Qed.
Lemma in_ell2 s p : se_eps s = 1 -> in2 (body_of2 s) p <-> SSeparation.in_ellipse (ell_of s) (x2 p) (y2 p).
Proof.
  intros E. unfold in2, level2, SSeparation.in_ellipse, along, across, body_of2, ell_of. cbn [ba bb be bc bt x2 y2].
  cbv zeta. cbn [MSeparation.e_a MSeparation.e_b MSeparation.e_x MSeparation.e_y MSeparation.e_th]. rewrite E, !div_sq2. reflexivity.
Qed.
Lemma separated_pair eig s o : robot_ellipse s -> robot_ellipse o -> clean_roots eig s o -> ellipse_separated eig s o = Ok true ->
  forall p, in2 (body_of2 s) p -> in2 (body_of2 o) p -> False.
Proof.
  intros (Es & a & b & x & y & A1 & A2 & A3 & A4) (Eo & a' & b' & x' & y' & B1 & B2 & B3 & B4) [SP RE] H p I J.
  apply (in_ell2 s p Es) in I. apply (in_ell2 o p Eo) in J. unfold ellipse_separated, as_ellipse in H.
  rewrite A1, A4, B1, B4 in H. cbn [at_ nth_error obind] in H. injection H as D.
  unfold MSeparation.is_ellipse_separated, MSeparation.roots_polynomial in D. rewrite PSeparation.decide_pad in D.
  unfold ell_of in *. rewrite A1, A4 in *. rewrite B1, B4 in *. cbn [nth] in *.
  refine (PSeparation.sound3 _ _ _ (x2 p) (y2 p) _ _ SP _ D I J); [split; assumption|split; assumption|].
  intros [re im] K N. apply PSeparation.negative_true in N. cbn [fst snd] in *. destruct N as [N1 N2]. exact (RE re im K N1 N2).
Qed.
Lemma same_robot2 s l0 t p q : robot_ellipse l0 -> same_shape2 s l0 -> stands2 s t (V2 p q) -> robot_ellipse s.
Proof.
  intros (E & a & b & x & y & A & B & C & _) (S1 & S2 & _) [P _]. split; [congruence|]. exists a, b, p, q. repeat split; try assumption; congruence.
Qed.
Lemma forall2_in_l {A B} (P : A -> B -> Prop) l m a : Forall2 P l m -> In a l -> exists b, In b m /\ P a b.
Proof. induction 1 as [|x y l m H _ IH]; intros I; [destruct I|]. destruct I as [<-|I]; [exists y; split; [left; reflexivity|exact H]|]. destruct (IH I) as [b [J K]]. exists b. split; [right; exact J|exact K]. Qed.
Lemma in_seq_at {A} (l : list A) a : In a l -> exists i, In i (seq 0 (length l)) /\ nth_error l i = Some a.
Proof. intros I. apply In_nth_error in I. destruct I as [i E]. exists i. split; [|exact E]. apply in_seq. split; [lia|]. apply nth_error_Some. rewrite E. discriminate. Qed.

Lemma valid2_pairs eig collide objs obs r : Forall (fun o => se_eps o = 1) obs -> is_separated2 eig collide objs obs r = Ok true ->
  forall s o, In s (bodies2 r) -> In o obs -> ellipse_separated eig s o = Ok true.
Proof.
  intros F H s o Is Io. destruct (in_seq_at obs o Io) as [i [Ii Ei]]. pose proof (all_of_true _ _ H i Ii) as K. cbn beta in K.
  unfold at_ at 1 in K. rewrite Ei in K. cbn [obind] in K. rewrite Forall_forall in F. rewrite (F o Io), near_one_1 in K.
  destruct (ellipse_separated eig (mb2_base r) o) as [b| |] eqn:E; cbn [obind] in K; try discriminate K.
  destruct b; [|discriminate K]. destruct Is as [<-|Is]; [exact E|].
  destruct (in_seq_at _ s Is) as [j [Ij Ej]]. pose proof (all_of_true _ _ K j Ij) as M. cbn beta in M.
  unfold at_ at 1 in M. rewrite Ej in M. exact M.
Qed.

Lemma planar_valid_sound eig collide objs base cs m obs x y th : calls2 (new_mb2 base) cs = Ok m ->
  Forall robot_ellipse (base :: added2 cs) -> Forall robot_ellipse obs ->
  (forall s o, In s (bodies2 (robot_tf2 m (turning th, V2 x y))) -> In o obs -> clean_roots eig s o) ->
  state_valid2 eig collide objs obs m x y th = Ok true -> robot_clear2 base (added2 cs) obs x y th.
Proof.
  intros H F FO CL V. set (g := (turning th, V2 x y)) in *. assert (G : rigid2 g) by apply rot2_rotation.
  pose proof (built_calls2 base cs [] (new_mb2 base) m (built_new2 base) H) as B. cbn [app] in B.
  destruct (built_stands2 base (added2 cs) m g B G) as [S1 S2]. destruct (built_tf2 _ _ _ g B) as [SB _].
  change (state_valid2 eig collide objs obs m x y th) with (is_separated2 eig collide objs obs (robot_tf2 m g)) in V.
  assert (P := valid2_pairs eig collide objs obs _ (Forall_impl _ (fun o Ro => proj1 Ro) FO) V).
  inversion F as [|b0 l' FB FL]; subst b0 l'. rewrite Forall_forall in FO, FL.
  intros o p Io (b & l & -> & Il & [->|[l0 [I0 ->]]]) J.
  - refine (separated_pair eig (mb2_base (robot_tf2 m g)) o _ (FO o Io) (CL _ _ (or_introl eq_refl) Io) (P _ _ (or_introl eq_refl) Io) _ _ J).
    + exact (same_robot2 _ base _ _ _ FB SB S1).
    + exact (proj2 (move_base2 _ base g l G SB S1) Il).
  - destruct (forall2_in_l _ _ _ _ S2 I0) as [lt [It [SS ST]]].
    assert (Ib : In (fst lt) (bodies2 (robot_tf2 m g))) by (right; apply in_map; exact It).
    refine (separated_pair eig (fst lt) o _ (FO o Io) (CL _ _ Ib Io) (P _ _ Ib Io) _ _ J).
    + destruct (move2 g (given_pos2 l0)) as [u v] eqn:Q. exact (same_robot2 _ l0 _ _ _ (FL l0 I0) SS ST).
    + exact (proj2 (move_in2 _ l0 g l G SS ST) Il).
Qed.

Lemma setups2_ok cgal m obs n : Forall robot_ellipse (bodies2 m) -> Forall robot_ellipse obs -> exists objs, setups2 cgal m obs n = Ok objs.
Proof.
  intros F G. induction n as [|n [o E]]; [eexists; reflexivity|]. cbn [setups2]. rewrite E. cbn [obind]. unfold collision_objects2.
  assert (X : forall l, Forall robot_ellipse l -> exists r, omap (obj_from_se cgal) l = Ok r).
  { induction l as [|s l IH]; intros FF; [exists []; reflexivity|]. inversion FF as [|u v (E1 & a & b & x & y & A & _) FF']; subst.
    destruct (IH FF') as [r R]. cbn [omap]. unfold obj_from_se at 1. rewrite A, E1, near_one_1. cbn [at_ nth_error obind]. rewrite R. eexists. reflexivity. }
  destruct (X _ F) as [r1 R1]. destruct (X _ G) as [r2 R2]. unfold bodies2 in R1. rewrite R1, R2. cbn [obind]. eexists. reflexivity.
Qed.
Lemma no_obstacles2 eig collide objs m x y th : state_valid2 eig collide objs [] m x y th = Ok true.
Proof. reflexivity. Qed.

(** ---- space ---- *)
Lemma shape_ell a b c ctr q l : shape3 (Body3 a b c 1 1 ctr q) l = x3 l / a * (x3 l / a) + y3 l / b * (y3 l / b) + z3 l / c * (z3 l / c).
Proof.
  unfold shape3. cbn [sa sb sc s1 s2]. rewrite !div_sq2. replace (1 / 1) with 1 by field. rewrite ppow_1, Rabs_pos_eq; [reflexivity|].
  pose proof (Rle_0_sqr (x3 l / a)). pose proof (Rle_0_sqr (y3 l / b)). unfold Rsqr in *. lra.
Qed.
Lemma geom_ell a b c q ctr p : unit_quat q -> in_geom (rotm q, ctr) (GEllipsoid a b c) p <-> in3 (Body3 a b c 1 1 ctr q) p.
Proof.
  intros U. unfold in_geom, in3. split; intros [l [E H]]; exists l; rewrite shape_ell in *; (split; [|exact H]); rewrite E;
    unfold placed, move3; cbn [sctr SGeom.sq fst snd]; rewrite (turn_rotm q l U); unfold add3; f_equal; ring.
Qed.
Lemma move_in3 s l0 g q : rigid3 g -> unit_quat (sq_quat l0) -> same_shape3 s l0 ->
  stands3 s (mul3 (fst g) (rotm (sq_quat l0))) (move3 g (given_pos3 l0)) ->
  in3 (body_of3 s) (move3 g q) <-> in3 (body_of3 l0) q.
Proof.
  intros G U (A1 & A2 & _) [P [UQ T]]. 
  assert (K : forall l, placed (body_of3 s) l = move3 g (placed (body_of3 l0) l)).
  { intros l. unfold placed, body_of3. cbn [sctr SGeom.sq]. rewrite P. cbn [nth]. rewrite T, (turn_rotm _ l U), app_mul3.
    unfold move3, given_pos3. destruct (app3 (rotm (sq_quat l0)) l) as [u v w]. destruct g as [[[a b c] [d e h] [i j k]] [t1 t2 t3]].
    unfold app3, add3, dot3. cbn. f_equal; ring. }
  assert (SH : forall l, shape3 (body_of3 s) l = shape3 (body_of3 l0) l).
  { intros l. unfold shape3, body_of3. cbn [sa sb sc s1 s2]. rewrite A1, A2. reflexivity. }
  assert (INJ : forall u v, move3 g u = move3 g v -> u = v).
  { intros u v E. destruct G as [[_ G2] _]. unfold move3 in E.
    assert (E2 : app3 (fst g) u = app3 (fst g) v).
    { destruct (app3 (fst g) u) as [a b c], (app3 (fst g) v) as [a' b' c'], (snd g) as [t1 t2 t3]. unfold add3 in E. cbn in E. injection E as e1 e2 e3. f_equal; lra. }
    apply (f_equal (app3 (tr3 (fst g)))) in E2. rewrite <- !app_mul3, G2 in E2. unfold app3, dot3, id3 in E2. cbn in E2.
    destruct u as [a b c], v as [a' b' c']. cbn in E2. injection E2 as e1 e2 e3. f_equal; lra. }
  unfold in3. split; intros [l [E H]]; exists l; (split; [|first [rewrite <- SH; exact H|rewrite SH; exact H]]).
  - apply INJ. rewrite E. apply K.
  - rewrite K, E. reflexivity.
Qed.
Lemma rotm_id : rotm (Q 1 0 0 0) = id3.
Proof. unfold rotm, id3. cbn. f_equal; f_equal; ring. Qed.
Lemma unit_id : unit_quat (Q 1 0 0 0).
Proof. unfold unit_quat. cbn. ring. Qed.
Lemma move_base3 s base g q : rigid3 g -> same_shape3 s base -> stands3 s (fst g) (snd g) ->
  in3 (body_of3 s) (move3 g q) <->
  in3 (Body3 (nth 0 (sq_axes base) 0) (nth 1 (sq_axes base) 0) (nth 2 (sq_axes base) 0) (nth 0 (sq_eps base) 0) (nth 1 (sq_eps base) 0)
         (V3r 0 0 0) (Q 1 0 0 0)) q.
Proof.
  intros G SS ST. apply (move_in3 s (sq_set_quat (sq_set_pos base [0; 0; 0]) (Q 1 0 0 0)) g q G unit_id SS).
  cbn [sq_quat sq_set_quat]. rewrite rotm_id, mul3_1. destruct ST as [P T]. split; [|exact T]. rewrite P.
  destruct g as [[[a b c] [d e h] [i j k]] [t1 t2 t3]]. unfold move3, given_pos3, app3, add3, dot3. cbn. f_equal; [ring|]. f_equal; [ring|]. f_equal. ring.
Qed.
(** The geometry of an ellipsoid. *)
Definition ell_geom (s : squad) : geom := GEllipsoid (nth 0 (sq_axes s) 0) (nth 1 (sq_axes s) 0) (nth 2 (sq_axes s) 0).
Lemma obj_ell s : robot_ellipsoid s -> obj_ellipsoid s = Ok (ell_geom s).
Proof. intros (_ & _ & a & b & c & x & y & z & A & _). unfold obj_ellipsoid, ell_geom. rewrite A. reflexivity. Qed.
Lemma is_ell s : robot_ellipsoid s -> is_ellipsoid s = Ok true.
Proof. intros (E & _). unfold is_ellipsoid. rewrite E. cbn [at_ nth_error obind]. rewrite near_one_1. reflexivity. Qed.
Lemma omap_map {A B} (h : A -> outcome B) (k : A -> B) l : (forall a, In a l -> h a = Ok (k a)) -> omap h l = Ok (map k l).
Proof. intros H. induction l as [|a l IH]; [reflexivity|]. cbn [omap map]. rewrite (H a (or_introl eq_refl)). cbn [obind]. rewrite IH; [reflexivity|]. intros a' I. apply H. right. exact I. Qed.
Lemma geom_shape s l0 : same_shape3 s l0 -> ell_geom s = ell_geom l0.
Proof. intros (A & _). unfold ell_geom. rewrite A. reflexivity. Qed.
Lemma obj_shape s l0 : same_shape3 s l0 -> robot_ellipsoid l0 -> obj_ellipsoid s = Ok (ell_geom s).
Proof. intros (A & _) (_ & _ & a & b & c & x & y & z & A' & _). unfold obj_ellipsoid, ell_geom. rewrite A, A'. reflexivity. Qed.
Lemma built_shapes base ls m s : built3 base ls m -> In s (bodies3 m) -> exists l0, In l0 (base :: ls) /\ same_shape3 s l0.
Proof.
  intros [B L] [<-|I]; [exists base; split; [left; reflexivity|exact B]|]. apply in_map_iff in I. destruct I as [lt [<- I]].
  induction L as [|l0 lt' ls' lts H _ IH]; [destruct I|]. destruct I as [<-|I]; [exists l0; split; [right; left; reflexivity|exact (proj1 H)]|].
  destruct (IH I) as [l1 [[<-|I1] S]]; [exists base; split; [left; reflexivity|exact S]|exists l1; split; [right; right; exact I1|exact S]].
Qed.
Lemma built_geoms base ls m : built3 base ls m -> map ell_geom (bodies3 m) = map ell_geom (base :: ls).
Proof.
  intros [B L]. unfold bodies3. cbn [map]. f_equal; [exact (geom_shape _ _ B)|].
  induction L as [|l0 lt ls' lts H _ IH]; [reflexivity|]. cbn [map]. f_equal; [exact (geom_shape _ _ (proj1 H))|exact IH].
Qed.
Lemma setups3_ok cgal base ls m obs n : built3 base ls m -> Forall robot_ellipsoid (base :: ls) -> Forall robot_ellipsoid obs ->
  exists gr go, setups3 cgal m obs (S n) = Ok (map ell_geom (base :: ls) ++ gr, map ell_geom obs ++ go).
Proof.
  intros B F G. rewrite Forall_forall in F, G.
  assert (K : forall objs, collision_objects3 cgal m obs objs = Ok (fst objs ++ map ell_geom (base :: ls), snd objs ++ map ell_geom obs)).
  { intros objs. unfold collision_objects3. change (mb3_base m :: map fst (mb3_links m)) with (bodies3 m).
    rewrite (omap_map obj_ellipsoid ell_geom) by (intros a I; destruct (built_shapes _ _ _ _ B I) as [l0 [I0 S]]; exact (obj_shape a l0 S (F l0 I0))). cbn [obind].
    rewrite (omap_map _ ell_geom); [cbn [obind]; rewrite (built_geoms _ _ _ B); reflexivity|]. intros a I. rewrite (is_ell a (G a I)). cbn [obind]. apply obj_ell, G, I. }
  induction n as [|n (gr & go & E)].
  - exists [], []. cbn [setups3 obind]. rewrite K, !app_nil_r. reflexivity.
  - cbn [setups3] in *. rewrite E. cbn [obind]. rewrite K. cbn [fst snd]. rewrite <- !app_assoc. eexists; eexists; reflexivity.
Qed.
Lemma collision_pair collide s g o h : exact_fcl collide -> robot_ellipsoid s -> robot_ellipsoid o -> g = ell_geom s -> h = ell_geom o ->
  exists b, is_collision3 collide s g o h = Ok b /\ (b = true <-> exists p, in3 (body_of3 s) p /\ in3 (body_of3 o) p).
Proof.
  intros X (E1 & U1 & a & b & c & x & y & z & A & _ & _ & _ & P) (E2 & U2 & a' & b' & c' & x' & y' & z' & A' & _ & _ & _ & P') -> ->.
  unfold is_collision3. rewrite P, P'. cbn [at_ nth_error obind]. eexists. split; [reflexivity|]. rewrite (X _ _ _ _).
  unfold ell_geom, body_of3. rewrite E1, E2, A, A', P, P'. cbn [nth].
  split; intros [p [I J]]; exists p; (split; [apply (geom_ell _ _ _ _ _ p U1); exact I|apply (geom_ell _ _ _ _ _ p U2); exact J]).
Qed.
Lemma nth_app_map {A B} (k : A -> B) l r i a : nth_error l i = Some a -> nth_error (map k l ++ r) i = Some (k a).
Proof. intros E. rewrite nth_error_app1; [rewrite nth_error_map, E; reflexivity|]. rewrite map_length. apply nth_error_Some. rewrite E. discriminate. Qed.
Lemma separated3_iff collide gr go obs r : exact_fcl collide -> Forall robot_ellipsoid (bodies3 r) -> Forall robot_ellipsoid obs ->
  exists b, is_separated3 collide (map ell_geom (bodies3 r) ++ gr, map ell_geom obs ++ go) obs r = Ok b /\
    (b = true <-> forall s o p, In s (bodies3 r) -> In o obs -> in3 (body_of3 s) p -> ~ in3 (body_of3 o) p).
Proof.
  intros X F G. rewrite Forall_forall in F, G. unfold is_separated3. cbn [fst snd]. set (links := map fst (mb3_links r)).
  assert (FL : forall l, In l links -> robot_ellipsoid l) by (intros l I; apply F; right; exact I).
  assert (FB : robot_ellipsoid (mb3_base r)) by (apply F; left; reflexivity).
  match goal with |- context [all_of ?h ?l] => destruct (all_of_spec h (fun i => forall o, nth_error obs i = Some o ->
    forall s p, In s (bodies3 r) -> in3 (body_of3 s) p -> ~ in3 (body_of3 o) p) l) as [b [E H]] end.
  - intros i Ii. apply in_seq in Ii. destruct (nth_error obs i) as [o|] eqn:Eo; [|apply nth_error_None in Eo; lia].
    assert (Io : In o obs) by (eapply nth_error_In; exact Eo).
    unfold at_ at 1. cbn [bodies3 map app nth_error obind]. unfold at_ at 1. rewrite Eo. cbn [obind].
    unfold at_ at 1. rewrite (nth_app_map ell_geom obs go i o Eo). cbn [obind].
    destruct (collision_pair collide (mb3_base r) (ell_geom (mb3_base r)) o (ell_geom o) X FB (G o Io) eq_refl eq_refl) as [c [Ec Hc]].
    rewrite Ec. cbn [obind]. destruct c.
    + exists false. split; [reflexivity|]. split; [discriminate|]. intros K. exfalso.
      destruct (proj1 Hc eq_refl) as [p [I J]]. exact (K o eq_refl (mb3_base r) p (or_introl eq_refl) I J).
    + match goal with |- context [all_of ?h ?l] => destruct (all_of_spec h (fun j => forall l0, nth_error links j = Some l0 ->
        forall p, in3 (body_of3 l0) p -> ~ in3 (body_of3 o) p) l) as [b [E H]] end.
      * intros j Ij. apply in_seq in Ij. destruct (nth_error links j) as [l|] eqn:El; [|apply nth_error_None in El; lia].
        assert (Il : In l links) by (eapply nth_error_In; exact El).
        unfold at_ at 1. rewrite El. cbn [obind]. unfold at_ at 1. replace (j + 1)%nat with (S j) by lia. cbn [nth_error].
        change (map fst (mb3_links r)) with links. rewrite (nth_app_map ell_geom links gr j l El). cbn [obind]. unfold at_ at 1. rewrite Eo. cbn [obind]. unfold at_ at 1.
        rewrite (nth_app_map ell_geom obs go i o Eo). cbn [obind].
        destruct (collision_pair collide l (ell_geom l) o (ell_geom o) X (FL l Il) (G o Io) eq_refl eq_refl) as [c [Ec' Hc']].
        rewrite Ec'. cbn [obind]. exists (negb c). split; [reflexivity|]. split.
        -- intros N l0 E0 p I J. injection E0 as <-. destruct c; [discriminate N|]. discriminate (proj2 Hc' (ex_intro _ p (conj I J))).
        -- intros K. destruct c; [|reflexivity]. exfalso. destruct (proj1 Hc' eq_refl) as [p [I J]]. exact (K l eq_refl p I J).
      * exists b. split; [exact E|]. rewrite H. split.
        -- intros K o' E0 s p [<-|Is] I J.
           ++ injection E0 as <-. discriminate (proj2 Hc (ex_intro _ p (conj I J))).
           ++ injection E0 as <-. destruct (in_seq_at links s Is) as [j [Ij Ej]]. exact (K j Ij s Ej p I J).
        -- intros K j Ij l0 E0 p. apply (K o eq_refl l0 p). right. eapply nth_error_In; exact E0.
  - exists b. split; [exact E|]. rewrite H. split.
    + intros K s o p Is Io. destruct (in_seq_at obs o Io) as [i [Ii Ei]]. exact (K i Ii o Ei s p Is).
    + intros K i Ii o Eo s p Is. apply (K s o p Is). eapply nth_error_In; exact Eo.
Qed.

Lemma same_robot3 s l0 M p : robot_ellipsoid l0 -> same_shape3 s l0 -> stands3 s M p -> robot_ellipsoid s.
Proof.
  intros (E & _ & a & b & c & x & y & z & A & P1 & P2 & P3 & _) (S1 & S2 & _) [P [U _]]. split; [congruence|]. split; [exact U|].
  exists a, b, c, (x3 p), (y3 p), (z3 p). repeat split; try assumption; congruence.
Qed.
Lemma valid_pose3 collide base ls m obs g kdl gr go : exact_fcl collide -> built3 base ls m ->
  Forall robot_ellipsoid (base :: ls) -> Forall robot_ellipsoid obs -> rigid3 g -> (forall k h, kdl k = Some h -> rigid3 h) ->
  exists r b, robot_tf3_kdl m g kdl = Some r /\ built3 base ls r /\
    is_separated3 collide (map ell_geom (base :: ls) ++ gr, map ell_geom obs ++ go) obs r = Ok b /\
    (b = true <-> robot_clear3 base ls obs g kdl).
Proof.
  intros X B F G RG RK. inversion F as [|b0 l' FB FL]; subst b0 l'. rewrite Forall_forall in FL.
  assert (U : Forall (fun l => unit_quat (sq_quat l)) ls) by (apply Forall_forall; intros l I; exact (proj1 (proj2 (FL l I)))).
  destruct (built_stands3 base ls m g kdl B RG RK U) as (r & E & B' & S1 & S2). exists r.
  assert (FR : Forall robot_ellipsoid (bodies3 r)).
  { constructor; [exact (same_robot3 _ _ _ _ FB (proj1 B') S1)|]. apply Forall_forall. intros s I. apply in_map_iff in I. destruct I as [lt [<- I]].
    apply In_nth_error in I. destruct I as [k Ek]. destruct (nth_error ls k) as [l0|] eqn:El.
    - destruct (S2 k l0 El) as (lt' & E' & SS & ST). rewrite Ek in E'. injection E' as <-.
      exact (same_robot3 _ _ _ _ (FL l0 (nth_error_In _ _ El)) SS ST).
    - exfalso. apply nth_error_None in El. rewrite (f2_length _ _ _ (proj2 B')) in El. assert (k < length (mb3_links r))%nat by (apply nth_error_Some; rewrite Ek; discriminate). lia. }
  destruct (separated3_iff collide gr go obs r X FR G) as [b [Eb Hb]]. rewrite (built_geoms _ _ _ B') in Eb.
  exists b. split; [exact E|]. split; [exact B'|]. split; [exact Eb|]. rewrite Hb. clear Hb Eb.
  set (gk := fun k => match kdl k with Some h => comp3 g h | None => g end) in *.
  assert (RGK : forall k, rigid3 (gk k)). { intros k. unfold gk. destruct (kdl k) eqn:Ek; [apply rigid_comp3; [exact RG|exact (RK _ _ Ek)]|exact RG]. }
  assert (MV : forall k l, move3 g (match kdl k with Some h => move3 h l | None => l end) = move3 (gk k) l).
  { intros k l. unfold gk. destruct (kdl k) as [h|]; [symmetry; apply move_comp3|reflexivity]. }
  split.
  - intros K o p Io [[l [-> Il]]|(k & l0 & l & Ek & Il & ->)] J.
    + refine (K (mb3_base r) o _ (or_introl eq_refl) Io _ J). exact (proj2 (move_base3 _ base g l RG (proj1 B') S1) Il).
    + rewrite MV in J. destruct (S2 k l0 Ek) as (lt & E' & SS & ST).
      assert (Il0 : robot_ellipsoid l0) by (apply FL; eapply nth_error_In; exact Ek).
      refine (K (fst lt) o _ _ Io _ J); [right; apply in_map; eapply nth_error_In; exact E'|].
      exact (proj2 (move_in3 _ l0 (gk k) l (RGK k) (proj1 (proj2 Il0)) SS ST) Il).
  - assert (BACK : forall h p, rigid3 h -> exists q, p = move3 h q).
    { intros h p RH. exists (app3 (tr3 (fst h)) (sub3 p (snd h))). unfold move3. rewrite <- app_mul3, (proj1 (proj1 RH)), app_id. unfold add3, sub3. destruct p as [a1 a2 a3], (snd h) as [h1 h2 h3]. cbn. f_equal; ring. }
    intros K s o p Is Io I J. destruct Is as [<-|Is].
    + destruct (BACK g p RG) as [q ->]. refine (K o _ Io (or_introl (ex_intro _ q (conj eq_refl _))) J). exact (proj1 (move_base3 _ base g q RG (proj1 B') S1) I).
    + apply in_map_iff in Is. destruct Is as [lt [<- Is]]. apply In_nth_error in Is. destruct Is as [k Ek].
      destruct (nth_error ls k) as [l0|] eqn:El.
      * destruct (S2 k l0 El) as (lt' & E' & SS & ST). rewrite Ek in E'. injection E' as <-.
        destruct (BACK (gk k) p (RGK k)) as [q ->]. refine (K o _ Io (or_intror _) J).
        exists k, l0, q. split; [exact El|]. split; [|symmetry; apply MV].
        exact (proj1 (move_in3 _ l0 (gk k) q (RGK k) (proj1 (proj2 (FL l0 (nth_error_In _ _ El)))) SS ST) I).
      * exfalso. apply nth_error_None in El. rewrite (f2_length _ _ _ (proj2 B')) in El. assert (k < length (mb3_links r))%nat by (apply nth_error_Some; rewrite Ek; discriminate). lia.
Qed.
Lemma spatial_valid_exact collide cgal n base cs m obs p q kdl : exact_fcl collide -> calls3 (new_mb3 base) cs = Ok (Some m) ->
  Forall robot_ellipsoid (base :: added3 cs) -> Forall robot_ellipsoid obs -> unit_quat q -> (forall k h, kdl k = Some h -> rigid3 h) ->
  exists objs b, setups3 cgal m obs (S n) = Ok objs /\ state_valid3 collide objs obs m p q kdl = Ok b /\
    (b = true <-> robot_clear3 base (added3 cs) obs (rotm q, p) kdl).
Proof.
  intros X H F G U RK. pose proof (built_calls3 base cs [] (new_mb3 base) m (built_new3 base) H) as B. cbn [app] in B.
  destruct (setups3_ok cgal base _ m obs n B F G) as (gr & go & ES).
  destruct (valid_pose3 collide base _ m obs (rotm q, p) kdl gr go X B F G (rotm_rotation q U) RK) as (r & b & E & _ & Eb & Hb).
  eexists; exists b. split; [exact ES|]. split; [|exact Hb]. unfold state_valid3. rewrite E. exact Eb.
Qed.
Lemma ablation_exact collide cgal n base cs m obs steps : exact_fcl collide -> calls3 (new_mb3 base) cs = Ok (Some m) ->
  Forall robot_ellipsoid (base :: added3 cs) -> Forall robot_ellipsoid obs ->
  (forall p q kdl, In (p, q, kdl) steps -> unit_quat q /\ forall k h, kdl k = Some h -> rigid3 h) ->
  exists objs b, setups3 cgal m obs (S n) = Ok objs /\ ablation_free collide objs obs m steps = Ok b /\
    (b = true <-> forall p q kdl, In (p, q, kdl) steps -> robot_clear3 base (added3 cs) obs (rotm q, p) kdl).
Proof.
  intros X H F G ST. pose proof (built_calls3 base cs [] (new_mb3 base) m (built_new3 base) H) as B. cbn [app] in B.
  destruct (setups3_ok cgal base _ m obs n B F G) as (gr & go & ES). clear H. eexists.
  assert (K : exists b, ablation_free collide (map ell_geom (base :: added3 cs) ++ gr, map ell_geom obs ++ go) obs m steps = Ok b /\
    (b = true <-> forall p q kdl, In (p, q, kdl) steps -> robot_clear3 base (added3 cs) obs (rotm q, p) kdl)).
  { clear ES. revert m B. induction steps as [|[[p q] kdl] steps IH]; intros m B.
    - exists true. split; [reflexivity|]. split; [intros _ p q kdl []|reflexivity].
    - destruct (ST p q kdl (or_introl eq_refl)) as [U RK].
      destruct (valid_pose3 collide base _ m obs (rotm q, p) kdl gr go X B F G (rotm_rotation q U) RK) as (r & b & E & B' & Eb & Hb).
      cbn [ablation_free]. rewrite E, Eb. cbn [obind]. destruct b.
      + destruct (IH (fun p' q' kdl' I => ST p' q' kdl' (or_intror I)) r B') as [b [E2 H2]]. exists b. split; [exact E2|]. rewrite H2. split.
        * intros K p' q' kdl' [E3|I]; [injection E3 as <- <- <-; apply Hb; reflexivity|exact (K p' q' kdl' I)].
        * intros K p' q' kdl' I. exact (K p' q' kdl' (or_intror I)).
      + exists false. split; [reflexivity|]. split; [discriminate|]. intros K. apply Hb. exact (K p q kdl (or_introl eq_refl)). }
  destruct K as [b [E Hb]]. exists b. split; [exact ES|]. split; [exact E|exact Hb].
Qed.
