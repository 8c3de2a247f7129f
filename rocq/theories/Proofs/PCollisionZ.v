(** C80: the planar validity check is exact up to the root tolerance. *)
From Coq Require Import List Reals Arith Bool Lia Lra.
From Verif.Base Require Import Outcome.
From Verif.Model Require Import MGeom MMultiBody MCollision.
From Verif.Model Require MSeparation.
From Verif.Spec Require Import SGeom SRigid SCollision.
From Verif.Spec Require SSeparation.
From Verif.Proofs Require Import PGeom PGeom2 PGeom3 PRot PMulti PTight2 PCollision.
From Verif.Proofs Require PSeparation PSeparationD.
Import ListNotations.
Local Open Scope R_scope.
Local Open Scope outcome_scope.

Lemma proper_ell s : robot_ellipse s -> SSeparation.proper_ellipse (ell_of s) /\ as_ellipse s = Ok (ell_of s).
Proof.
  intros (Es & a & b & x & y & A1 & A2 & A3 & A4). unfold ell_of, as_ellipse. rewrite A1, A4. cbn [at_ nth_error obind nth]. split; [split; assumption|reflexivity].
Qed.
(** One pair. *)
Lemma pair_exact eig s o : robot_ellipse s -> robot_ellipse o -> clean_roots eig s o ->
  exists b, ellipse_separated eig s o = Ok b /\
    (b = true <-> (forall p, in2 (body_of2 s) p -> in2 (body_of2 o) p -> False) /\ roots_apart s o).
Proof.
  intros Rs Ro CR. destruct (proper_ell s Rs) as [Ps As]. destruct (proper_ell o Ro) as [Po Ao]. pose proof CR as [SP RE].
  exists (MSeparation.is_ellipse_separated eig (ell_of s) (ell_of o)).
  assert (E : ellipse_separated eig s o = Ok (MSeparation.is_ellipse_separated eig (ell_of s) (ell_of o))) by (unfold ellipse_separated; rewrite As, Ao; reflexivity).
  split; [exact E|].
  assert (D : (forall p, in2 (body_of2 s) p -> in2 (body_of2 o) p -> False) -> PSeparationD.disjoint2 (ell_of s) (ell_of o)).
  { intros N px py [I J]. apply (N (V2 px py)); apply in_ell2; try exact (proj1 Rs); try exact (proj1 Ro); assumption. }
  split.
  - intros T. assert (N : forall p, in2 (body_of2 s) p -> in2 (body_of2 o) p -> False).
    { apply (separated_pair eig s o Rs Ro CR). rewrite E, T. reflexivity. }
    split; [exact N|]. destruct (PSeparationD.planar_complete _ _ Ps Po (D N)) as (k0 & k1 & K0 & K1 & KR & KE).
    pose proof (proj1 (KE eig SP) T) as GAP. intros l0 l1 char L0 L1 Z0 Z1.
    apply KR in Z0; [|lra]. apply KR in Z1; [|lra]. destruct Z0 as [-> | ->], Z1 as [-> | ->]; lra.
  - intros [N AP]. destruct (PSeparationD.planar_complete _ _ Ps Po (D N)) as (k0 & k1 & K0 & K1 & KR & KE).
    apply (KE eig SP). apply AP; [lra|lra| |]; apply KR; try lra; auto.
Qed.

Lemma is_separated2_exact eig collide objs obs r : Forall robot_ellipse (bodies2 r) -> Forall robot_ellipse obs ->
  (forall s o, In s (bodies2 r) -> In o obs -> clean_roots eig s o) ->
  exists b, is_separated2 eig collide objs obs r = Ok b /\
    (b = true <-> forall s o, In s (bodies2 r) -> In o obs -> (forall p, in2 (body_of2 s) p -> in2 (body_of2 o) p -> False) /\ roots_apart s o).
Proof.
  intros FR FO CL. rewrite Forall_forall in FR, FO.
  set (ok := fun s o => (forall p, in2 (body_of2 s) p -> in2 (body_of2 o) p -> False) /\ roots_apart s o).
  unfold is_separated2. cbv zeta.
  match goal with |- exists b, all_of ?h ?l = Ok b /\ _ => destruct (all_of_spec h (fun i => forall o, nth_error obs i = Some o -> forall s, In s (bodies2 r) -> ok s o) l) as [b [E X]] end.
  - intros i Ii. apply in_seq in Ii. destruct (nth_error obs i) as [o|] eqn:Eo; [|apply nth_error_None in Eo; lia].
    assert (Io : In o obs) by (apply nth_error_In in Eo; exact Eo). unfold at_ at 1. rewrite Eo. cbn [obind]. rewrite (proj1 (FO o Io)), near_one_1.
    destruct (pair_exact eig (mb2_base r) o (FR _ (or_introl eq_refl)) (FO o Io) (CL _ _ (or_introl eq_refl) Io)) as [b0 [E0 X0]]. rewrite E0. cbn [obind].
    destruct b0.
    + match goal with |- exists b, all_of ?h ?l = Ok b /\ _ => destruct (all_of_spec h (fun j => forall s, nth_error (map fst (mb2_links r)) j = Some s -> ok s o) l) as [b1 [E1 X1]] end.
      * intros j Ij. apply in_seq in Ij. destruct (nth_error (map fst (mb2_links r)) j) as [s|] eqn:Es; [|apply nth_error_None in Es; lia].
        assert (Is : In s (bodies2 r)) by (right; apply nth_error_In in Es; exact Es). unfold at_ at 1. rewrite Es. cbn [obind].
        destruct (pair_exact eig s o (FR _ Is) (FO o Io) (CL _ _ Is Io)) as [b2 [E2 X2]]. exists b2. split; [exact E2|]. rewrite X2. split.
        { intros Q s' H. assert (S : s' = s) by (apply (f_equal (fun o => match o with Some v => v | None => s end)) in H; symmetry; exact H). rewrite S. exact Q. }
        { intros Q. exact (Q s eq_refl). }
      * exists b1. split; [exact E1|]. rewrite X1. split.
        { intros Q o' H. assert (S : o' = o) by (apply (f_equal (fun q => match q with Some v => v | None => o end)) in H; symmetry; exact H). rewrite S.
          intros s [<-|Is]; [apply X0; reflexivity|]. destruct (in_seq_at _ s Is) as [j [Ij Ej]]. exact (Q j Ij s Ej). }
        { intros Q j Ij s Es. apply (Q o eq_refl). right. apply nth_error_In in Es. exact Es. }
    + exists false. split; [reflexivity|]. split; [discriminate|]. intros Q. apply X0. exact (Q o eq_refl _ (or_introl eq_refl)).
  - exists b. split; [exact E|]. rewrite X. split.
    + intros Q s o Is Io. destruct (in_seq_at _ o Io) as [i [Ii Ei]]. exact (Q i Ii o Ei s Is).
    + intros Q i Ii o Eo s Is. apply Q; [exact Is|]. apply nth_error_In in Eo. exact Eo.
Qed.

Lemma turn_back th x y p : exists l, p = move2 (turning th, V2 x y) l.
Proof.
  pose proof (sin2_cos2 th) as S. unfold Rsqr in S. set (c := cos th) in *. set (s := sin th) in *.
  exists (V2 (c * (x2 p - x) + s * (y2 p - y)) (- s * (x2 p - x) + c * (y2 p - y))).
  destruct p as [u v]. unfold move2, turning, app2, add2. cbn [fst snd m00 m01 m10 m11 x2 y2]. fold c s. f_equal.
  - transitivity ((s * s + c * c) * (u - x) + x); [rewrite S; ring|ring].
  - transitivity ((s * s + c * c) * (v - y) + y); [rewrite S; ring|ring].
Qed.
Lemma forall2_in_r {A B} (P : A -> B -> Prop) l m b : Forall2 P l m -> In b m -> exists a, In a l /\ P a b.
Proof. induction 1 as [|x y l m H _ IH]; intros I; [destruct I|]. destruct I as [<-|I]; [exists x; split; [left; reflexivity|exact H]|]. destruct (IH I) as [a [J K]]. exists a. split; [right; exact J|exact K]. Qed.

Lemma planar_valid_exact eig collide objs base cs m obs x y th : calls2 (new_mb2 base) cs = Ok m ->
  Forall robot_ellipse (base :: added2 cs) -> Forall robot_ellipse obs ->
  (forall s o, In s (bodies2 (robot_tf2 m (turning th, V2 x y))) -> In o obs -> clean_roots eig s o) ->
  exists b, state_valid2 eig collide objs obs m x y th = Ok b /\
    (b = true <-> robot_clear2 base (added2 cs) obs x y th /\
       forall s o, In s (bodies2 (robot_tf2 m (turning th, V2 x y))) -> In o obs -> roots_apart s o).
Proof.
  intros H F FO CL. pose proof (planar_valid_sound eig collide objs base cs m obs x y th H F FO CL) as SND.
  set (g := (turning th, V2 x y)) in *. assert (G : rigid2 g) by apply rot2_rotation.
  pose proof (built_calls2 base cs [] (new_mb2 base) m (built_new2 base) H) as B. cbn [app] in B.
  destruct (built_stands2 base (added2 cs) m g B G) as [S1 S2]. destruct (built_tf2 _ _ _ g B) as [SB _].
  change (state_valid2 eig collide objs obs m x y th) with (is_separated2 eig collide objs obs (robot_tf2 m g)) in SND |- *.
  inversion F as [|b0 l' FB FL]; subst b0 l'. rewrite Forall_forall in FL.
  assert (FR : Forall robot_ellipse (bodies2 (robot_tf2 m g))).
  { apply Forall_forall. intros s [<-|Is]; [exact (same_robot2 _ base _ _ _ FB SB S1)|].
    apply in_map_iff in Is. destruct Is as [lt [<- It]]. destruct (forall2_in_r _ _ _ _ S2 It) as [l0 [I0 [SS ST]]].
    destruct (move2 g (given_pos2 l0)) as [u v] eqn:Q. exact (same_robot2 _ l0 _ _ _ (FL l0 I0) SS ST). }
  destruct (is_separated2_exact eig collide objs obs (robot_tf2 m g) FR FO CL) as [b [E X]]. exists b. split; [exact E|]. split.
  - intros T. split; [apply SND; rewrite E, T; reflexivity|]. intros s o Is Io. apply (proj1 X T s o Is Io).
  - intros [CLR AP]. apply X. intros s o Is Io. split; [|exact (AP s o Is Io)]. intros p I J.
    destruct (turn_back th x y p) as [l ->]. fold g in I, J.
    refine (CLR o (move2 g l) Io _ J). destruct Is as [<-|Is].
    + exists (Body2 (nth 0 (se_axes base) 0) (nth 1 (se_axes base) 0) (se_eps base) (V2 0 0) 0), l. split; [reflexivity|]. split; [|left; reflexivity].
      exact (proj1 (move_base2 _ base g l G SB S1) I).
    + apply in_map_iff in Is. destruct Is as [lt [<- It]]. destruct (forall2_in_r _ _ _ _ S2 It) as [l0 [I0 [SS ST]]].
      exists (body_of2 l0), l. split; [reflexivity|]. split; [exact (proj1 (move_in2 _ l0 g l G SS ST) I)|]. right. exists l0. split; [exact I0|reflexivity].
Qed.

(** ---- exponents and the tolerance ---- *)
Lemma not_near_one e : 1 / 1000000 <= Rabs (e - 1) -> near_one e = false.
Proof. intros H. unfold near_one. destruct (Rlt_dec _ _) as [L|L]; [exfalso; lra|reflexivity]. Qed.
Lemma is_near_one e : Rabs (e - 1) < 1 / 1000000 -> near_one e = true.
Proof. intros H. unfold near_one. destruct (Rlt_dec _ _) as [L|L]; [reflexivity|exfalso; lra]. Qed.
Lemma not_ellipsoid a b c e1 e2 px py pz q num : (1 / 1000000 <= Rabs (e1 - 1) \/ 1 / 1000000 <= Rabs (e2 - 1)) -> is_ellipsoid (SQ [a; b; c] [e1; e2] [px; py; pz] q num) = Ok false.
Proof.
  intros H. unfold is_ellipsoid. cbn [sq_eps at_ nth_error obind]. destruct (near_one e1) eqn:N; [|reflexivity]. destruct H as [H|H]; apply not_near_one in H; congruence.
Qed.
Lemma all_of_ext {A} (h k : A -> outcome bool) l : (forall a, In a l -> h a = k a) -> all_of h l = all_of k l.
Proof.
  induction l as [|a l IH]; intros H; [reflexivity|]. cbn [all_of]. rewrite (H a (or_introl eq_refl)). destruct (k a) as [b| |]; [|reflexivity|reflexivity].
  cbn [obind]. destruct b; [|reflexivity]. apply IH. intros a' I. apply H. right. exact I.
Qed.
Lemma omap_map {A B C} (h : B -> outcome C) (k : A -> B) l : omap h (map k l) = omap (fun a => h (k a)) l.
Proof. induction l as [|a l IH]; [reflexivity|]. cbn [map omap]. rewrite IH. reflexivity. Qed.
Lemma omap_same {A B} (h k : A -> outcome B) l : Forall (fun a => h a = k a) l -> omap h l = omap k l.
Proof. induction 1 as [|a l E _ IH]; [reflexivity|]. cbn [omap]. rewrite E, IH. reflexivity. Qed.

Lemma near_ellipses eig collide cgal m obs n : Forall (fun o => Rabs (se_eps o - 1) < 1 / 1000000) obs ->
  let obs1 := map (fun o => SE (se_axes o) 1 (se_pos o) (se_angle o) (se_num o)) obs in
  setups2 cgal m obs n = setups2 cgal m obs1 n /\
  forall objs x y th, state_valid2 eig collide objs obs m x y th = state_valid2 eig collide objs obs1 m x y th.
Proof.
  intros F obs1. split.
  - induction n as [|n IH]; [reflexivity|]. cbn [setups2]. rewrite IH. destruct (setups2 cgal m obs1 n) as [o| |]; [|reflexivity|reflexivity]. cbn [obind].
    unfold collision_objects2. unfold obs1. rewrite omap_map.
    rewrite (omap_same (obj_from_se cgal) (fun o => obj_from_se cgal (SE (se_axes o) 1 (se_pos o) (se_angle o) (se_num o))) obs); [reflexivity|].
    revert F. apply Forall_impl. intros a H. unfold obj_from_se. cbn [se_axes se_eps]. rewrite (is_near_one _ H), near_one_1. reflexivity.
  - intros objs x y th. unfold state_valid2, is_separated2. cbv zeta. 
    replace (length obs1) with (length obs) by (unfold obs1; symmetry; apply map_length). apply all_of_ext. intros i _.
    assert (AT : at_ obs1 i = do o <- at_ obs i; Ok (SE (se_axes o) 1 (se_pos o) (se_angle o) (se_num o))).
    { unfold at_, obs1. rewrite nth_error_map. destruct (nth_error obs i); reflexivity. }
    rewrite AT. destruct (nth_error obs i) as [o|] eqn:E.
    2:{ assert (AO : at_ obs i = Throw OutOfRange) by (unfold at_; rewrite E; reflexivity). rewrite AO. reflexivity. }
    assert (AO : at_ obs i = Ok o) by (unfold at_; rewrite E; reflexivity). rewrite AO. cbn [obind].
    rewrite Forall_forall in F. apply nth_error_In in E. rewrite (is_near_one _ (F o E)). cbn [se_eps]. rewrite near_one_1. reflexivity.
Qed.
Lemma near_ellipsoids collide cgal m obs n :
  Forall (fun o => exists e1 e2, sq_eps o = [e1; e2] /\ Rabs (e1 - 1) < 1 / 1000000 /\ Rabs (e2 - 1) < 1 / 1000000) obs ->
  let obs1 := map (fun o => SQ (sq_axes o) [1; 1] (sq_pos o) (sq_quat o) (sq_num o)) obs in
  setups3 cgal m obs n = setups3 cgal m obs1 n /\
  forall objs p q kdl, state_valid3 collide objs obs m p q kdl = state_valid3 collide objs obs1 m p q kdl.
Proof.
  intros F obs1. split.
  - induction n as [|n IH]; [reflexivity|]. cbn [setups3]. rewrite IH. destruct (setups3 cgal m obs1 n) as [o| |]; [|reflexivity|reflexivity]. cbn [obind].
    unfold collision_objects3. unfold obs1. rewrite omap_map.
    rewrite (omap_same (fun s => do e <- is_ellipsoid s; if e then obj_ellipsoid s else obj_from_sq cgal s)
      (fun o => do e <- is_ellipsoid (SQ (sq_axes o) [1; 1] (sq_pos o) (sq_quat o) (sq_num o)); if e then obj_ellipsoid (SQ (sq_axes o) [1; 1] (sq_pos o) (sq_quat o) (sq_num o)) else obj_from_sq cgal (SQ (sq_axes o) [1; 1] (sq_pos o) (sq_quat o) (sq_num o))) obs); [reflexivity|].
    revert F. apply Forall_impl. intros a (e1 & e2 & E & H1 & H2). unfold is_ellipsoid, obj_ellipsoid. cbn [sq_axes sq_eps]. rewrite E. cbn [at_ nth_error obind].
    rewrite (is_near_one _ H1), (is_near_one _ H2), near_one_1. cbn [obind]. reflexivity.
  - intros objs p q kdl. unfold state_valid3. destruct (robot_tf3_kdl m (rotm q, p) kdl) as [r|]; [|reflexivity].
    unfold is_separated3. cbv zeta. 
    replace (length obs1) with (length obs) by (unfold obs1; symmetry; apply map_length). apply all_of_ext. intros i _.
    assert (AT : at_ obs1 i = do o <- at_ obs i; Ok (SQ (sq_axes o) [1; 1] (sq_pos o) (sq_quat o) (sq_num o))).
    { unfold at_, obs1. rewrite nth_error_map. destruct (nth_error obs i); reflexivity. }
    destruct (at_ (fst objs) 0) as [g0| |]; [|reflexivity|reflexivity]. cbn [obind]. rewrite AT. destruct (at_ obs i) as [o| |]; [|reflexivity|reflexivity]. cbn [obind].
    destruct (at_ (snd objs) i) as [h| |]; [|reflexivity|reflexivity]. cbn [obind]. unfold is_collision3 at 1 3. cbn [sq_pos sq_quat].
    unfold is_collision3. cbn [sq_pos sq_quat]. reflexivity.
Qed.
