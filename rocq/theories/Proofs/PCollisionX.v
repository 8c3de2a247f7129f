(** Where the collision geometries differ from the bodies. *)
From Coq Require Import List Reals Arith Bool Lia Lra Psatz.
From Verif.Base Require Import Outcome.
From Verif.Model Require Import MGeom MMultiBody MCollision.
From Verif.Spec Require Import SGeom SRigid SCollision.
From Verif.Proofs Require Import PGeom PGeom2 PGeom3 PRot PMulti PInscribed PShape PCollision.
Import ListNotations.
Local Open Scope R_scope.

(** ---- a mesh has no inside ---- *)
(** Boxes around a point. *)
Definition box (c : v3) (r : R) (p : v3) : Prop := Rabs (x3 p - x3 c) <= r /\ Rabs (y3 p - y3 c) <= r /\ Rabs (z3 p - z3 c) <= r.
Lemma abs_le x r : Rabs x <= r <-> - r <= x <= r.
Proof. split; intros H; [unfold Rabs in H; destruct (Rcase_abs x); lra|apply Rabs_le; exact H]. Qed.
Lemma box_sub c r c' r' p : box c (r - r') c' -> box c' r' p -> box c r p.
Proof. unfold box. rewrite !abs_le. lra. Qed.
(** A smaller box misses a plane. *)
Lemma avoid_plane n d c r : n <> V3r 0 0 0 -> 0 < r -> exists c' r', 0 < r' /\ box c (r - r') c' /\ forall p, box c' r' p -> dot3 n p <> d.
Proof.
  intros N Hr. destruct n as [nx ny nz], c as [cx cy cz]. unfold box, dot3. cbn [x3 y3 z3].
  set (S := Rabs nx + Rabs ny + Rabs nz).
  assert (SP : 0 < S). { unfold S. destruct (Req_dec nx 0) as [->|?]; [|pose proof (Rabs_pos_lt nx); pose proof (Rabs_pos ny); pose proof (Rabs_pos nz); lra].
    destruct (Req_dec ny 0) as [->|?]; [|pose proof (Rabs_pos_lt ny); pose proof (Rabs_pos 0); pose proof (Rabs_pos nz); lra].
    destruct (Req_dec nz 0) as [->|?]; [exfalso; apply N; reflexivity|pose proof (Rabs_pos_lt nz); pose proof (Rabs_pos 0); lra]. }
  assert (K : exists c' : v3, box (V3r cx cy cz) (r / 2) c' /\ S * (r / 8) < Rabs (nx * x3 c' + ny * y3 c' + nz * z3 c' - d)).
  { set (v := nx * cx + ny * cy + nz * cz - d).
    assert (SG : forall x, exists s, Rabs s <= 1 /\ x * s = Rabs x).
    { intros x. unfold Rabs at 2. destruct (Rcase_abs x); [exists (-1)|exists 1]; (split; [apply abs_le; lra|ring]). }
    destruct (SG nx) as [sx [X1 X2]], (SG ny) as [sy [Y1 Y2]], (SG nz) as [sz [Z1 Z2]]. apply abs_le in X1, Y1, Z1.
    destruct (Rle_dec 0 v) as [V|V].
    - exists (V3r (cx + r / 2 * sx) (cy + r / 2 * sy) (cz + r / 2 * sz)). unfold box. cbn [x3 y3 z3]. split; [rewrite !abs_le; clear - X1 Y1 Z1 Hr; repeat split; nra|].
      replace (_ - d) with (v + r / 2 * (nx * sx + ny * sy + nz * sz)) by (unfold v; ring). rewrite X2, Y2, Z2. fold S. assert (0 < S * r) by (apply Rmult_lt_0_compat; assumption). rewrite Rabs_pos_eq; lra.
    - exists (V3r (cx - r / 2 * sx) (cy - r / 2 * sy) (cz - r / 2 * sz)). unfold box. cbn [x3 y3 z3]. split; [rewrite !abs_le; clear - X1 Y1 Z1 Hr; repeat split; nra|].
      replace (_ - d) with (- (- v + r / 2 * (nx * sx + ny * sy + nz * sz))) by (unfold v; ring). rewrite Rabs_Ropp, X2, Y2, Z2. fold S. assert (0 < S * r) by (apply Rmult_lt_0_compat; assumption). rewrite Rabs_pos_eq; lra. }
  destruct K as [[x y z] [B L]]. unfold box in B. cbn [x3 y3 z3] in *. exists (V3r x y z), (r / 8). split; [lra|]. split; [clear - B Hr; cbn [x3 y3 z3]; rewrite !abs_le in *; lra|].
  intros [px py pz] (P1 & P2 & P3) E. cbn [x3 y3 z3] in *.
  replace (nx * x + ny * y + nz * z - d) with (- (nx * (px - x) + ny * (py - y) + nz * (pz - z))) in L by (rewrite <- E; ring).
  rewrite Rabs_Ropp in L.
  assert (Rabs (nx * (px - x) + ny * (py - y) + nz * (pz - z)) <= S * (r / 8)); [|lra].
  eapply Rle_trans; [apply Rabs_triang|]. eapply Rle_trans; [apply Rplus_le_compat_r, Rabs_triang|]. rewrite !Rabs_mult. unfold S.
  pose proof (Rabs_pos nx). pose proof (Rabs_pos ny). pose proof (Rabs_pos nz). nra.
Qed.
(** Three points are on a plane. *)
Lemma three_plane u v w : exists n, n <> V3r 0 0 0 /\ dot3 n u = dot3 n v /\ dot3 n u = dot3 n w.
Proof.
  assert (K : forall a b c a' b' c', exists x y z, (x <> 0 \/ y <> 0 \/ z <> 0) /\ x * a + y * b + z * c = 0 /\ x * a' + y * b' + z * c' = 0).
  { intros a b c a' b' c'.
    destruct (Req_dec (b * c' - c * b') 0) as [X|X]; [|exists (b * c' - c * b'), (c * a' - a * c'), (a * b' - b * a'); split; [left; exact X|split; ring]].
    destruct (Req_dec (c * a' - a * c') 0) as [Y|Y]; [|exists (b * c' - c * b'), (c * a' - a * c'), (a * b' - b * a'); split; [right; left; exact Y|split; ring]].
    destruct (Req_dec (a * b' - b * a') 0) as [Z|Z]; [|exists (b * c' - c * b'), (c * a' - a * c'), (a * b' - b * a'); split; [right; right; exact Z|split; ring]].
    destruct (Req_dec a 0) as [A|A]; [|exists b, (- a), 0; split; [right; left; lra|split; lra]].
    destruct (Req_dec b 0) as [B|B]; [|exists b, (- a), 0; split; [left; lra|split; lra]].
    destruct (Req_dec c 0) as [C|C]; [|exists c, 0, (- a); split; [left; lra|split; lra]].
    subst. destruct (Req_dec a' 0) as [A'|A']; [|exists b', (- a'), 0; split; [right; left; lra|split; lra]].
    destruct (Req_dec b' 0) as [B'|B']; [|exists b', (- a'), 0; split; [left; lra|split; lra]].
    exists 1, 0, 0. subst. split; [left; lra|split; lra]. }
  destruct u as [a b c], v as [a1 b1 c1], w as [a2 b2 c2].
  destruct (K (a1 - a) (b1 - b) (c1 - c) (a2 - a) (b2 - b) (c2 - c)) as (x & y & z & N & E1 & E2).
  exists (V3r x y z). unfold dot3. cbn. split; [intros E; injection E as -> -> ->; lra|]. lra.
Qed.
Lemma triangle_plane n d wu wv ww u v w : dot3 n u = d -> dot3 n v = d -> dot3 n w = d -> wu + wv + ww = 1 -> dot3 n (in_triangle wu wv ww u v w) = d.
Proof.
  intros A B C W. replace d with ((wu + wv + ww) * d) by (rewrite W; ring). unfold dot3, in_triangle in *. cbn.
  replace ((wu + wv + ww) * d) with (wu * d + wv * d + ww * d) by ring. rewrite <- A at 1. rewrite <- B at 1. rewrite <- C. ring.
Qed.
Lemma move_triangle t wu wv ww u v w : wu + wv + ww = 1 ->
  move3 t (in_triangle wu wv ww u v w) = in_triangle wu wv ww (move3 t u) (move3 t v) (move3 t w).
Proof.
  intros W. destruct t as [[[a b c] [d e h] [i j k]] [t1 t2 t3]]. unfold move3, in_triangle, app3, add3, dot3. cbn.
  assert (E : ww = 1 - wu - wv) by lra. rewrite E. f_equal; ring.
Qed.
(** A box inside any box misses a whole mesh. *)
Lemma avoid_mesh t vs fs c r : 0 < r -> exists c' r', 0 < r' /\ (forall p, box c' r' p -> box c r p) /\ forall p, box c' r' p -> ~ in_geom t (GMesh vs fs) p.
Proof.
  intros Hr. induction fs as [|[[i j] k] fs (c' & r' & R & S & M)].
  - exists c, r. split; [exact Hr|]. split; [tauto|]. intros p _ (i & j & k & u & v & w & wu & wv & ww & [] & _).
  - assert (Z : forall p, box c' r' p -> in_geom t (GMesh vs ((i, j, k) :: fs)) p ->
       exists u v w wu wv ww, nth_error vs i = Some u /\ nth_error vs j = Some v /\ nth_error vs k = Some w /\ wu + wv + ww = 1 /\
         p = move3 t (in_triangle wu wv ww u v w)).
    { intros p B (i' & j' & k' & u & v & w & wu & wv & ww & [I|I] & E1 & E2 & E3 & P1 & P2 & P3 & W & E).
      - injection I as <- <- <-. exists u, v, w, wu, wv, ww. auto.
      - exfalso. apply (M p B). exists i', j', k', u, v, w, wu, wv, ww. auto 10. }
    destruct (nth_error vs i) as [u|] eqn:Ei; [destruct (nth_error vs j) as [v|] eqn:Ej; [destruct (nth_error vs k) as [w|] eqn:Ek|]|].
    2,3,4: exists c', r'; split; [exact R|]; split; [exact S|]; intros p B G; destruct (Z p B G) as (u0 & v0 & w0 & wu & wv & ww & A1 & A2 & A3 & _); discriminate.
    destruct (three_plane (move3 t u) (move3 t v) (move3 t w)) as (n & N & N1 & N2).
    destruct (avoid_plane n (dot3 n (move3 t u)) c' r' N R) as (c2 & r2 & R2 & B2 & A2). exists c2, r2. split; [exact R2|]. split.
    + intros p B. apply S. exact (box_sub _ _ _ _ _ B2 B).
    + intros p B G. destruct (Z p (box_sub _ _ _ _ _ B2 B) G) as (u0 & v0 & w0 & wu & wv & ww & E1 & E2 & E3 & W & E).
      injection E1 as <-. injection E2 as <-. injection E3 as <-. apply (A2 p B). rewrite E, (move_triangle t wu wv ww u v w W).
      apply triangle_plane; auto.
Qed.
(** A box around the centre of a body is inside it. *)
Lemma inner_box b : proper3 b -> exists r, 0 < r /\ forall p, box (sctr b) r p -> inside3 b p.
Proof.
  intros (A & B & C & E1 & E2 & U). set (T := ppow 2 (s2 b / s1 b) + 2). assert (TP : 0 < T) by (unfold T; pose proof (ppow_ge 2 (s2 b / s1 b)); lra).
  set (k := ppow (/ T) (s1 b / 2)). assert (KP : 0 < k) by (apply ppow_pos; apply Rgt_not_eq; apply Rinv_0_lt_compat; exact TP).
  assert (KE : ppow k (2 / s1 b) = / T) by (unfold k; rewrite ppow_ppow; replace (s1 b / 2 * (2 / s1 b)) with 1 by (field; lra); rewrite ppow_1, Rabs_pos_eq; [reflexivity|left; apply Rinv_0_lt_compat; exact TP]).
  set (mn := Rmin (sa b) (Rmin (sb b) (sc b))). assert (MP : 0 < mn) by (unfold mn; repeat apply Rmin_glb_lt; assumption).
  assert (M1 : mn <= sa b) by apply Rmin_l. assert (M2 : mn <= sb b) by (eapply Rle_trans; [apply Rmin_r|apply Rmin_l]). assert (M3 : mn <= sc b) by (eapply Rle_trans; [apply Rmin_r|apply Rmin_r]).
  exists (k * mn / 2). split; [apply Rmult_lt_0_compat; [apply Rmult_lt_0_compat; assumption|lra]|].
  intros p Bx. set (l := app3 (tr3 (rotm (SGeom.sq b))) (sub3 p (sctr b))). exists l. split.
  - unfold placed. rewrite (turn_rotm _ l U). unfold l. rewrite (tr_rot _ _ U). unfold add3, sub3. destruct p, (sctr b). cbn. f_equal; ring.
  - assert (NL : dot3 l l = dot3 (sub3 p (sctr b)) (sub3 p (sctr b))).
    { rewrite <- (rot_dot (SGeom.sq b) l l U). unfold l. rewrite (tr_rot _ _ U). reflexivity. }
    assert (LE : dot3 l l <= (k * mn) * (k * mn)).
    { rewrite NL. destruct p as [px py pz], (sctr b) as [cx cy cz]. unfold box in Bx. unfold dot3, sub3. cbn in *. rewrite !abs_le in Bx. destruct Bx as (X & Y & Z). set (h := k * mn) in *. 
      assert ((px - cx) * (px - cx) <= h / 2 * (h / 2)) by nra. assert ((py - cy) * (py - cy) <= h / 2 * (h / 2)) by nra. assert ((pz - cz) * (pz - cz) <= h / 2 * (h / 2)) by nra. nra. }
    assert (HP : 0 < k * mn) by (apply Rmult_lt_0_compat; assumption).
    assert (CO : forall x ax, x * x <= dot3 l l -> mn <= ax -> Rabs (x / ax) <= k).
    { intros x ax Hx Ha. assert (Rabs x <= k * mn). { apply abs_le. split; nra. }
      unfold Rdiv. rewrite Rabs_mult, (Rabs_pos_eq (/ ax)) by (left; apply Rinv_0_lt_compat; lra).
      apply (Rmult_le_reg_r ax); [lra|]. rewrite Rmult_assoc, Rinv_l by lra. pose proof (Rabs_pos x). nra. }
    assert (SQ3 : x3 l * x3 l <= dot3 l l /\ y3 l * y3 l <= dot3 l l /\ z3 l * z3 l <= dot3 l l).
    { unfold dot3. pose proof (Rle_0_sqr (x3 l)). pose proof (Rle_0_sqr (y3 l)). pose proof (Rle_0_sqr (z3 l)). unfold Rsqr in *. lra. }
    destruct SQ3 as (Q1 & Q2 & Q3). pose proof (CO _ _ Q1 M1) as H1. pose proof (CO _ _ Q2 M2) as H2. pose proof (CO _ _ Q3 M3) as H3.
    assert (PW : forall x q, 0 < q -> Rabs x <= k -> ppow x q <= ppow k q).
    { intros x q Hq Hx. rewrite <- (ppow_abs x). apply ppow_le; [exact Hq|]. split; [apply Rabs_pos|exact Hx]. }
    assert (D2 : 0 < 2 / s2 b) by (apply Rdiv_lt_0_compat; lra). assert (D1 : 0 < 2 / s1 b) by (apply Rdiv_lt_0_compat; lra).
    assert (D3 : 0 < s2 b / s1 b) by (apply Rdiv_lt_0_compat; lra).
    unfold shape3. 
    assert (S12 : ppow (ppow (x3 l / sa b) (2 / s2 b) + ppow (y3 l / sb b) (2 / s2 b)) (s2 b / s1 b) <= ppow 2 (s2 b / s1 b) * / T).
    { rewrite <- KE. replace (ppow k (2 / s1 b)) with (ppow (ppow k (2 / s2 b)) (s2 b / s1 b)) by (rewrite ppow_ppow; f_equal; field; lra).
      rewrite <- ppow_mult. apply ppow_le; [exact D3|]. pose proof (PW _ _ D2 H1). pose proof (PW _ _ D2 H2).
      pose proof (ppow_ge (x3 l / sa b) (2 / s2 b)). pose proof (ppow_ge (y3 l / sb b) (2 / s2 b)). lra. }
    pose proof (PW _ _ D1 H3) as S3. rewrite KE in S3.
    assert (FIN : ppow 2 (s2 b / s1 b) * / T + / T < 1). { apply (Rmult_lt_reg_r T); [exact TP|]. rewrite Rmult_plus_distr_r, Rmult_assoc, Rinv_l by lra. unfold T. lra. }
    lra.
Qed.
(** A robot of one body, one obstacle. *)
Lemma valid_one3 collide g0 h s base p q : unit_quat q -> (3 <= length (sq_pos s))%nat ->
  state_valid3 collide ([g0], [h]) [s] (new_mb3 base) p q (fun _ => None) = Ok (negb (collide g0 (rotm q, p) h (rotm (sq_quat s), given_pos3 s))).
Proof.
  intros U L. destruct (pose3_stands base (rotm q, p) (rotm_rotation q U)) as (b & E & _ & [P T]). cbn [fst snd] in *.
  unfold state_valid3, robot_tf3_kdl, new_mb3. cbn [mb3_base mb3_links]. rewrite E. cbn [obnd pose_links]. unfold is_separated3. cbn [length seq all_of map mb3_links mb3_base fst snd].
  unfold at_ at 1 2 3. cbn [nth_error obind]. unfold is_collision3. rewrite P. cbn [at_ nth_error obind].
  unfold given_pos3. destruct (sq_pos s) as [|x [|y [|z r]]]; try (cbn in L; lia). cbn [at_ nth_error nth obind]. rewrite (turns_rotm _ _ T).
  replace (V3r (x3 p) (y3 p) (z3 p)) with p by (destruct p; reflexivity).
  destruct (collide g0 (rotm q, p) h (rotm (sq_quat s), V3r x y z)); reflexivity.
Qed.
Lemma numbers_some l : numbers (map Some l) = Ok l.
Proof. unfold numbers. induction l as [|a l IH]; [reflexivity|]. cbn [map omap obind]. rewrite IH. reflexivity. Qed.
Lemma mesh_sq cgal s a b c e1 e2 : sq_axes s = [a; b; c] -> sq_eps s = [e1; e2] -> 0 < e1 -> 0 < e2 ->
  mesh_from_sq cgal s = Ok (get_mesh cgal (map (sample3 a b c e1 e2 (Q 1 0 0 0) (V3r 0 0 0)) (params3 (sq_num s)))).
Proof.
  intros A E H1 H2. unfold mesh_from_sq. rewrite A, E, origin3_eq by assumption. cbn [obind].
  rewrite <- (map_map (sample3 a b c e1 e2 (Q 1 0 0 0) (V3r 0 0 0)) Some), numbers_some. reflexivity.
Qed.
Lemma mesh_is_mesh cgal pts : exists vs fs, get_mesh cgal pts = GMesh vs fs.
Proof. unfold get_mesh. destruct (cgal (rev pts)) as [vs cells]. eexists; eexists; reflexivity. Qed.
Definition ball_robot (r : R) : squad := SQ [r; r; r] [1; 1] [0; 0; 0] (Q 1 0 0 0) 10.
Lemma in_ball r t p : 0 < r -> in_geom t (GEllipsoid r r r) p -> rotation3 (fst t) -> box (snd t) r p.
Proof.
  intros Hr [l [-> H]] [[G _] _].
  assert (N : dot3 l l <= r * r).
  { unfold dot3. replace (x3 l / r * (x3 l / r) + y3 l / r * (y3 l / r) + z3 l / r * (z3 l / r)) with ((x3 l * x3 l + y3 l * y3 l + z3 l * z3 l) * / (r * r)) in H by (field; lra).
    apply (Rmult_le_reg_r (/ (r * r))); [apply Rinv_0_lt_compat; nra|]. rewrite Rinv_r by nra. exact H. }
  assert (N2 : dot3 (app3 (fst t) l) (app3 (fst t) l) <= r * r \/ True) by (right; exact I). clear N2.
  destruct t as [M ctr]. cbn [fst snd] in *.
  assert (RW : forall row, dot3 row row = 1 -> Rabs (dot3 row l) <= r).
  { intros row E. assert (C : dot3 row l * dot3 row l <= dot3 row row * dot3 l l).
    { destruct row as [a b c], l as [u v w]. unfold dot3. cbn. pose proof (Rle_0_sqr (a * v - b * u)). pose proof (Rle_0_sqr (a * w - c * u)). pose proof (Rle_0_sqr (b * w - c * v)). unfold Rsqr in *. nra. }
    rewrite E in C. apply abs_le. split; nra. }
  destruct M as [[a b c] [d e h] [i j k]]. unfold mul3, tr3, id3, app3, dot3 in G. cbn in G. injection G as g1 _ _ _ g5 _ _ _ g9.
  unfold box, move3, add3, app3. cbn [fst snd x3 y3 z3 r0 r1 r2].
  assert (EQ : forall u v, u + v - v = u) by (intros; ring). rewrite !EQ.
  repeat split; apply RW; unfold dot3; cbn; assumption.
Qed.
Lemma inside_undetected collide cgal a b c e1 e2 px py pz q num : exact_fcl collide ->
  let s := SQ [a; b; c] [e1; e2] [px; py; pz] q num in proper3 (body_of3 s) -> is_ellipsoid s = Ok false ->
  exists r p objs, 0 < r /\ setups3 cgal (new_mb3 (ball_robot r)) [s] 1 = Ok objs /\
    state_valid3 collide objs [s] (new_mb3 (ball_robot r)) p (Q 1 0 0 0) (fun _ => None) = Ok true /\
    (exists x, robot_points3 (ball_robot r) [] (rotm (Q 1 0 0 0), p) (fun _ => None) x) /\
    forall x, robot_points3 (ball_robot r) [] (rotm (Q 1 0 0 0), p) (fun _ => None) x -> inside3 (body_of3 s) x.
Proof.
  intros X s PR NE. pose proof PR as (PA & PB & PC & PE1 & PE2 & PU). cbn [sa sb sc s1 s2 SGeom.sq body_of3 s sq_axes sq_eps sq_quat nth] in PA, PB, PC, PE1, PE2, PU.
  destruct (inner_box (body_of3 s) PR) as (R0 & R0P & IN).
  destruct (mesh_is_mesh cgal (map (sample3 a b c e1 e2 (Q 1 0 0 0) (V3r 0 0 0)) (params3 num))) as (vs & fs & ME).
  destruct (avoid_mesh (rotm q, V3r px py pz) vs fs (sctr (body_of3 s)) R0 R0P) as (p & r & RP & SUB & MISS).
  exists r, p, ([GEllipsoid r r r], [GMesh vs fs]).
  assert (BX : forall x, in_geom (rotm (Q 1 0 0 0), p) (GEllipsoid r r r) x -> box p r x).
  { intros x G. exact (in_ball r (rotm (Q 1 0 0 0), p) x RP G (rotm_rotation _ unit_id)). }
  assert (RPT : forall x, robot_points3 (ball_robot r) [] (rotm (Q 1 0 0 0), p) (fun _ => None) x -> box p r x).
  { intros x [[l [-> [l' [-> H]]]]|(k & l0 & l & E & _)]; [|destruct k; discriminate E]. apply BX. exists (placed (Body3 r r r 1 1 (V3r 0 0 0) (Q 1 0 0 0)) l').
    split; [reflexivity|]. change (nth 0 (sq_axes (ball_robot r)) 0) with r in *. change (nth 1 (sq_axes (ball_robot r)) 0) with r in *. change (nth 2 (sq_axes (ball_robot r)) 0) with r in *.
    change (nth 0 (sq_eps (ball_robot r)) 0) with 1 in H. change (nth 1 (sq_eps (ball_robot r)) 0) with 1 in H. rewrite shape_ell in H.
    unfold placed. cbn [sctr SGeom.sq]. rewrite (turn_rotm _ _ unit_id), rotm_id, app_id. unfold add3. cbn [x3 y3 z3]. rewrite !Rplus_0_l. exact H. }
  split; [exact RP|]. split.
  { cbn [setups3 obind]. unfold collision_objects3. cbn [new_mb3 mb3_base mb3_links map omap]. unfold ball_robot at 1, obj_ellipsoid at 1. cbn [sq_axes at_ nth_error obind].
    rewrite NE. cbn [obind]. unfold obj_from_sq. rewrite NE. cbn [obind]. rewrite (mesh_sq cgal s a b c e1 e2 eq_refl eq_refl PE1 PE2). cbn [obind sq_num s]. rewrite ME. reflexivity. }
  split.
  { rewrite valid_one3 by (exact unit_id || (cbn; lia)). f_equal. destruct (collide _ _ _ _) eqn:E; [|reflexivity]. exfalso.
    apply X in E. destruct E as [x [G1 G2]]. exact (MISS x (BX x G1) G2). }
  split.
  { exists (move3 (rotm (Q 1 0 0 0), p) (V3r 0 0 0)). left. exists (V3r 0 0 0). split; [reflexivity|]. exists (V3r 0 0 0). split.
    - unfold placed. cbn [sctr SGeom.sq]. rewrite (turn_rotm _ _ unit_id), rotm_id, app_id. unfold add3. cbn. f_equal; ring.
    - change (nth 0 (sq_eps (ball_robot r)) 0) with 1. change (nth 1 (sq_eps (ball_robot r)) 0) with 1. rewrite shape_ell. cbn [x3 y3 z3]. unfold Rdiv. rewrite !Rmult_0_l. lra. }
  intros x H. apply IN, SUB, RPT, H.
Qed.
(** ---- the plane ---- *)
Lemma rotm_z t : rotm (about_z t) = M3 (V3r (cos t) (- sin t) 0) (V3r (sin t) (cos t) 0) (V3r 0 0 1).
Proof.
  assert (C : cos t = 1 - 2 * sin (t / 2) * sin (t / 2)) by (replace t with (2 * (t / 2)) at 1 by field; apply cos_2a_sin).
  assert (S : sin t = 2 * sin (t / 2) * cos (t / 2)) by (replace t with (2 * (t / 2)) at 1 by field; apply sin_2a).
  rewrite C, S. unfold rotm, about_z. cbn [qw qx qy qz]. f_equal; f_equal; ring.
Qed.
Definition disc (r : R) : sellipse := SE [r; r] 1 [0; 0] 0 50.
Lemma valid_one2 eig collide g0 h o base x y th : near_one (se_eps o) = false -> (2 <= length (se_pos o))%nat ->
  exists t, cos t = cos th /\ sin t = sin th /\
  state_valid2 eig collide ([g0], [h]) [o] (new_mb2 base) x y th =
    Ok (negb (collide g0 (rotm (about_z t), V3r x y (1 / 10)) h (rotm (about_z (se_angle o)), V3r (x2 (given_pos2 o)) (y2 (given_pos2 o)) (1 / 10)))).
Proof.
  intros NE L. destruct (pose2_stands base (rot2 th, V2 x y) (rot2_rotation th)) as [P [C S]]. cbn [fst snd x2 y2] in P.
  exists (se_angle (pose2 base (rot2 th, V2 x y))). split; [exact C|]. split; [exact S|].
  unfold state_valid2, robot_tf2, new_mb2. cbn [mb2_base mb2_links map]. set (b := pose2 base (rot2 th, V2 x y)) in *. clearbody b.
  unfold is_separated2. cbn [length seq all_of map mb2_links mb2_base fst snd].
  unfold at_ at 1. cbn [nth_error obind]. rewrite NE. unfold at_ at 1 2. cbn [nth_error obind]. unfold is_collision2. rewrite P. cbn [at_ nth_error obind].
  unfold given_pos2. destruct (se_pos o) as [|u [|v r]]; try (cbn in L; lia). cbn [at_ nth_error nth obind x2 y2].
  destruct (collide _ _ _ _); reflexivity.
Qed.
Lemma disc_setup cgal r a b e px py th num : 0 < e -> near_one e = false ->
  setups2 cgal (new_mb2 (disc r)) [SE [a; b] e [px; py] th num] 1 =
  Ok ([GEllipsoid r r (1 / 10)], [get_mesh cgal (map (sample3 a b (1 / 10) e (1 / 10) (Q 1 0 0 0) (V3r 0 0 0)) (params3 10))]).
Proof.
  intros E NE. cbn [setups2 obind]. unfold collision_objects2. cbn [new_mb2 mb2_base mb2_links map omap]. unfold disc, obj_from_se. cbn [se_axes se_eps at_ nth_error obind].
  rewrite near_one_1, NE. cbn [obind].
  rewrite (mesh_sq cgal (SQ [a; b; 1 / 10] [e; 1 / 10] [0; 0; 0] (Q 1 0 0 0) 10) a b (1 / 10) e (1 / 10) eq_refl eq_refl E ltac:(lra)). reflexivity.
Qed.
(** Points of the disc's geometry. *)
Lemma in_disc r t x y p : 0 < r -> in_geom (rotm (about_z t), V3r x y (1 / 10)) (GEllipsoid r r (1 / 10)) p ->
  (x3 p - x) * (x3 p - x) + (y3 p - y) * (y3 p - y) <= r * r.
Proof.
  intros Hr [l [-> H]]. rewrite rotm_z. unfold move3, app3, add3, dot3. cbn [fst snd x3 y3 z3 r0 r1 r2]. pose proof (sin2_cos2 t) as SC. unfold Rsqr in SC.
  set (u := x3 l) in *. set (v := y3 l) in *. set (c := cos t) in *. set (d := sin t) in *.
  replace (_ + _) with ((d * d + c * c) * (u * u + v * v)) by ring. rewrite SC.
  assert (K : (u * u + v * v) * / (r * r) <= 1).
  { replace ((u * u + v * v) * / (r * r)) with (u / r * (u / r) + v / r * (v / r)) by (field; lra). pose proof (Rle_0_sqr (z3 l / (1 / 10))). unfold Rsqr in *. lra. }
  apply (Rmult_le_reg_r (/ (r * r))); [apply Rinv_0_lt_compat; nra|]. rewrite Rinv_r by nra. lra.
Qed.
Lemma disc_points r x y th p : 0 < r -> robot_points2 (disc r) [] x y th p -> (x2 p - x) * (x2 p - x) + (y2 p - y) * (y2 p - y) <= r * r.
Proof.
  intros Hr (b & l & -> & H & [-> | (l0 & [] & _)]). unfold in2, level2, along, across in H. cbn [disc se_axes se_eps nth ba bb be bc bt x2 y2] in H.
  rewrite cos_0, sin_0, !div_sq2 in H. unfold move2, turning, app2, add2. cbn [fst snd m00 m01 m10 m11 x2 y2].
  pose proof (sin2_cos2 th) as SC. unfold Rsqr in SC. set (u := x2 l) in *. set (v := y2 l) in *. set (c := cos th) in *. set (d := sin th) in *.
  replace (_ + _) with ((d * d + c * c) * (u * u + v * v)) by ring. rewrite SC.
  assert (K : (u * u + v * v) * / (r * r) <= 1).
  { replace ((u * u + v * v) * / (r * r)) with ((1 * (u - 0) + 0 * (v - 0)) / r * ((1 * (u - 0) + 0 * (v - 0)) / r) + (- 0 * (u - 0) + 1 * (v - 0)) / r * ((- 0 * (u - 0) + 1 * (v - 0)) / r)) by (field; lra). exact H. }
  apply (Rmult_le_reg_r (/ (r * r))); [apply Rinv_0_lt_compat; nra|]. rewrite Rinv_r by nra. lra.
Qed.
Lemma disc_centre r x y th : 0 < r -> robot_points2 (disc r) [] x y th (V2 x y).
Proof.
  intros Hr. exists (Body2 r r 1 (V2 0 0) 0), (V2 0 0). split; [unfold move2, app2, add2; cbn; f_equal; ring|]. split; [|left; reflexivity].
  unfold in2, level2, along, across. cbn [ba bb be bc bt x2 y2]. rewrite cos_0, sin_0, !div_sq2.
  replace ((1 * (0 - 0) + 0 * (0 - 0)) / r) with 0 by (field; lra). replace ((- 0 * (0 - 0) + 1 * (0 - 0)) / r) with 0 by (field; lra). lra.
Qed.
(** The largest of finitely many numbers below 1. *)
Lemma uniform_bound {A} (g : A -> R) l : (forall x, In x l -> g x < 1) -> exists k, 0 <= k < 1 /\ forall x, In x l -> g x <= k.
Proof.
  induction l as [|a l IH]; intros H; [exists 0; split; [lra|intros x []]|].
  destruct IH as (k & K & B); [intros x I; apply H; right; exact I|]. pose proof (H a (or_introl eq_refl)).
  exists (Rmax k (g a)). split; [split; [eapply Rle_trans; [apply K|apply Rmax_l]|apply Rmax_lub_lt; [apply K|assumption]]|].
  intros x [<-|I]; [apply Rmax_r|eapply Rle_trans; [apply B, I|apply Rmax_l]].
Qed.
Lemma etas10 eta : In eta (etas 10) -> exists i, (i < 10)%nat /\ eta = (INR i - 9 / 2) * ((cPI + 2 / 1000000) / 9).
Proof.
  unfold etas, linspaced. cbn [Nat.eqb]. intros I. apply in_map_iff in I. destruct I as [i [<- I]]. apply in_seq in I. exists i. split; [lia|].
  unfold cHALF_PI, cEPSILON. replace (INR 10) with 10 by (cbn; lra). field.
Qed.
Lemma cos_lt_1 eta : In eta (etas 10) -> Rabs (cos eta) < 1.
Proof.
  intros I. destruct (etas10 eta I) as (i & Li & ->). set (h := (cPI + 2 / 1000000) / 9). assert (HP : 0 < h < 4 / 10) by (unfold h, cPI; lra).
  set (t := (INR i - 9 / 2) * h). pose proof PI2_3_2 as P3.
  assert (N : sin t <> 0).
  { assert (IR : INR i <= 9) by (assert (i <= 9)%nat as Li9 by lia; apply le_INR in Li9; replace (INR 9) with 9 in Li9 by (cbn; lra); exact Li9). pose proof (pos_INR i) as I0.
    destruct (le_lt_dec i 4) as [S4|S4].
    - apply le_INR in S4. replace (INR 4) with 4 in S4 by (cbn; lra). assert (0 < - t < PI) by (unfold t; split; nra).
      pose proof (sin_gt_0 (- t)) as G. rewrite sin_neg in G. lra.
    - assert (5 <= i)%nat as S5 by lia. apply le_INR in S5. replace (INR 5) with 5 in S5 by (cbn; lra). assert (0 < t < PI) by (unfold t; split; nra).
      pose proof (sin_gt_0 t). lra. }
  pose proof (sin2_cos2 t) as SC. unfold Rsqr in SC. assert (0 < sin t * sin t) by nra.
  apply Rabs_def1; nra.
Qed.
Lemma tip_undetected eig collide cgal a b e px py th num : exact_fcl collide -> own_points cgal -> 0 < a -> 0 < b -> 0 < e -> near_one e = false ->
  let o := SE [a; b] e [px; py] th num in
  exists r x y objs, 0 < r /\ setups2 cgal (new_mb2 (disc r)) [o] 1 = Ok objs /\
    state_valid2 eig collide objs [o] (new_mb2 (disc r)) x y 0 = Ok true /\
    exists p, robot_points2 (disc r) [] x y 0 p /\ inside2 (body_of2 o) p.
Proof.
  intros X OW PA PB PE NE o.
  destruct (uniform_bound (fun eta => ppow (cos eta) e) (etas 10)) as (k & K & KB).
  { intros eta I. rewrite <- ppow_abs, <- (ppow_one e). apply ppow_lt; [exact PE|]. split; [apply Rabs_pos|exact (cos_lt_1 eta I)]. }
  set (r := (1 - k) * a / 4). assert (RP : 0 < r) by (unfold r; apply Rdiv_lt_0_compat; [apply Rmult_lt_0_compat; lra|lra]).
  set (s := (1 + k) / 2 * a). set (x := px + s * cos th). set (y := py + s * sin th).
  set (pts := map (sample3 a b (1 / 10) e (1 / 10) (Q 1 0 0 0) (V3r 0 0 0)) (params3 10)).
  exists r, x, y, ([GEllipsoid r r (1 / 10)], [get_mesh cgal pts]).
  split; [exact RP|]. split; [exact (disc_setup cgal r a b e px py th num PE NE)|]. split.
  - destruct (valid_one2 eig collide (GEllipsoid r r (1 / 10)) (get_mesh cgal pts) o (disc r) x y 0 NE ltac:(cbn; lia)) as (t & _ & _ & ->).
    f_equal. destruct (collide _ _ _ _) eqn:E; [|reflexivity]. exfalso. apply X in E. destruct E as [p [G1 G2]].
    pose proof (in_disc r t x y p RP G1) as D. cbn [o se_angle given_pos2 se_pos nth x2 y2] in G2.
    assert (VB : forall i u, nth_error (fst (cgal (rev pts))) i = Some u -> x3 u <= k * a).
    { intros i u E. apply nth_error_In in E. apply OW, in_rev in E. unfold pts in E. apply in_map_iff in E. destruct E as [[eta om] [<- I]].
      unfold params3 in I. apply in_flat_map in I. destruct I as [eta' [Ie Io]]. apply in_map_iff in Io. destruct Io as [om' [Eo _]]. injection Eo as <- <-.
      unfold sample3. rewrite rotm_id, app_id. unfold canon3, add3. cbn [x3 fst snd].
      pose proof (KB eta' Ie) as Q1. pose proof (ppow_ge (cos eta') e) as Q2.
      set (w := spow (cos eta') e * spow (cos om') (1 / 10)).
      assert (W : w <= k). { eapply Rle_trans; [apply Rle_abs|]. unfold w. rewrite Rabs_mult, !abs_spow.
        assert (ppow (cos om') (1 / 10) <= 1). { assert (T10 : 0 < 1 / 10) by lra. set (q10 := 1 / 10) in *. clearbody q10. rewrite <- (ppow_one q10), <- ppow_abs. apply ppow_le; [exact T10|]. split; [apply Rabs_pos|]. apply abs_le. pose proof (COS_bound om'). lra. }
        pose proof (ppow_ge (cos om') (1 / 10)). nra. }
      nra. }
    unfold get_mesh in G2. destruct (cgal (rev pts)) as [vs cells] eqn:CE. cbn [fst] in VB.
    destruct G2 as (i & j & l & u & v & w & wu & wv & ww & _ & E1 & E2 & E3 & W1 & W2 & W3 & WS & PE2).
    pose proof (VB _ _ E1) as B1'. pose proof (VB _ _ E2) as B2'. pose proof (VB _ _ E3) as B3'.
    rewrite rotm_z in PE2. unfold move3, app3, add3, dot3, in_triangle in PE2. cbn [fst snd x3 y3 z3 r0 r1 r2] in PE2.
    set (ax := wu * x3 u + wv * x3 v + ww * x3 w) in *. set (ay := wu * y3 u + wv * y3 v + ww * y3 w) in *.
    assert (AX : ax <= k * a). { unfold ax. replace (k * a) with (wu * (k * a) + wv * (k * a) + ww * (k * a)) by (rewrite <- !Rmult_plus_distr_r, WS; ring). nra. }
    rewrite PE2 in D. cbn [x3 y3] in D. unfold x, y in D. pose proof (sin2_cos2 th) as SC. unfold Rsqr in SC.
    clearbody ax ay. set (c := cos th) in *. set (d := sin th) in *.
    assert (D2 : (ax - s) * (ax - s) <= r * r).
    { assert (Q : (ax - s) * (ax - s) + ay * ay <= r * r); [|pose proof (Rle_0_sqr ay); unfold Rsqr in *; lra].
      replace ((ax - s) * (ax - s) + ay * ay) with ((d * d + c * c) * ((ax - s) * (ax - s) + ay * ay)) by (rewrite SC; ring).
      eapply Rle_trans; [right|exact D]. ring. }
    assert (s - ax > r) by (unfold s, r; nra). nra.
  - exists (V2 x y). split; [apply disc_centre; exact RP|]. unfold inside2, level2, along, across, body_of2, o, x, y. cbn [se_axes se_eps se_pos se_angle nth ba bb be bc bt x2 y2].
    pose proof (sin2_cos2 th) as SC. unfold Rsqr in SC. set (c := cos th) in *. set (d := sin th) in *.
    replace ((c * (px + s * c - px) + d * (py + s * d - py)) / a) with ((1 + k) / 2).
    2:{ transitivity ((d * d + c * c) * ((1 + k) / 2)); [rewrite SC; ring|unfold s; field; lra]. }
    replace ((- d * (px + s * c - px) + c * (py + s * d - py)) / b) with 0 by (field; lra).
    rewrite ppow_0, Rplus_0_r. assert (T : ppow ((1 + k) / 2) (2 / e) < ppow 1 (2 / e)) by (apply ppow_lt; [apply Rdiv_lt_0_compat; lra|lra]). rewrite ppow_one in T. exact T.
Qed.
Lemma sin_low x : 0 <= x <= 3 / 2 -> x - x * x * x / 6 <= sin x.
Proof.
  intros H. pose proof PI2_3_2 as P. destruct (sin_bound x 0 ltac:(lra) ltac:(lra)) as [S _].
  unfold sin_approx, sin_term in S. cbn [sum_f_R0 Nat.mul Nat.add pow fact] in S. cbn [INR Nat.mul Nat.add] in S. cbn in S. lra.
Qed.
Lemma cos_low x : 0 <= x <= 3 / 2 -> 1 - x * x / 2 <= cos x.
Proof.
  intros H. pose proof PI2_3_2 as P. destruct (cos_bound x 0 ltac:(lra) ltac:(lra)) as [S _].
  unfold cos_approx, cos_term in S. cbn [sum_f_R0 Nat.mul Nat.add pow fact] in S. cbn [INR Nat.mul Nat.add] in S. cbn in S. lra.
Qed.
Lemma ppow_small x p : 0 < p <= 1 -> 0 <= x <= 1 -> x <= ppow x p.
Proof.
  intros P H. destruct (Req_dec x 0) as [->|N]; [rewrite ppow_0; lra|]. rewrite ppow_ne by exact N. rewrite Rabs_pos_eq by lra.
  rewrite <- (Rpower_1 x) at 1 by lra. unfold Rpower. assert (ln x <= 0) by (rewrite <- ln_1; destruct (Req_dec x 1) as [->|?]; [lra|left; apply ln_increasing; lra]).
  destruct (Req_dec (1 * ln x) (p * ln x)) as [->|?]; [lra|]. left. apply exp_increasing. nra.
Qed.
Lemma param_in i j n : (i < n)%nat -> (j < n)%nat -> (2 <= n)%nat ->
  In (- cHALF_PI - cEPSILON + INR i * ((cHALF_PI + cEPSILON - (- cHALF_PI - cEPSILON)) / (INR n - 1)), - cPI - cEPSILON + INR j * ((cPI + cEPSILON - (- cPI - cEPSILON)) / (INR n - 1))) (params3 n).
Proof.
  intros I J N. unfold params3, etas, omegas, linspaced. destruct (Nat.eqb_spec n 1); [lia|]. apply in_flat_map. eexists. split.
  - apply in_map_iff. exists i. split; [reflexivity|]. apply in_seq. lia.
  - apply in_map_iff. eexists. split; [reflexivity|]. apply in_map_iff. exists j. split; [reflexivity|]. apply in_seq. lia.
Qed.
(** Every given point belongs to the mesh. *)
Lemma mesh_vertex cgal t pts p : covers_points cgal -> In p pts -> in_geom t (get_mesh cgal pts) (move3 t p).
Proof.
  intros C I. destruct (C (rev pts) p ltac:(apply -> in_rev; exact I)) as (a & b & c & d & i & Ic & Ii & E & AL).
  unfold get_mesh. destruct (cgal (rev pts)) as [vs cells]. cbn [fst snd] in *.
  destruct (AL a ltac:(cbn; tauto)) as [qa Ea]. destruct (AL b ltac:(cbn; tauto)) as [qb Eb]. destruct (AL c ltac:(cbn; tauto)) as [qc Ec]. destruct (AL d ltac:(cbn; tauto)) as [qd Ed].
  assert (F : forall x y z, In (x, y, z) [(a, b, c); (a, c, d); (b, c, d); (a, b, d)] -> In (x, y, z) (flat_map (fun abcd : nat * nat * nat * nat => let '(a, b, c, d) := abcd in [(a, b, c); (a, c, d); (b, c, d); (a, b, d)]) cells)).
  { intros x y z H. apply in_flat_map. exists (a, b, c, d). split; [exact Ic|exact H]. }
  cbn [in_geom]. destruct Ii as [<-|[<-|[<-|[<-|[]]]]].
  - exists a, b, c, qa, qb, qc, 1, 0, 0. repeat split; try assumption; try lra. { apply F; cbn; tauto. } rewrite Ea in E. injection E as <-. f_equal. unfold in_triangle. destruct qa; cbn; f_equal; ring.
  - exists a, b, c, qa, qb, qc, 0, 1, 0. repeat split; try assumption; try lra. { apply F; cbn; tauto. } rewrite Eb in E. injection E as <-. f_equal. unfold in_triangle. destruct qb; cbn; f_equal; ring.
  - exists a, b, c, qa, qb, qc, 0, 0, 1. repeat split; try assumption; try lra. { apply F; cbn; tauto. } rewrite Ec in E. injection E as <-. f_equal. unfold in_triangle. destruct qc; cbn; f_equal; ring.
  - exists a, b, d, qa, qb, qd, 0, 0, 1. repeat split; try assumption; try lra. { apply F; cbn; tauto. } rewrite Ed in E. injection E as <-. f_equal. unfold in_triangle. destruct qd; cbn; f_equal; ring.
Qed.
(** A point at level above 1 has a disc around it at levels above 1. *)
Lemma outside_disc b q : proper2 b -> along b q <> 0 -> across b q <> 0 -> 1 < level2 b q ->
  exists r, 0 < r /\ forall p, (x2 p - x2 q) * (x2 p - x2 q) + (y2 p - y2 q) * (y2 p - y2 q) <= r * r -> 1 < level2 b p.
Proof.
  intros (PA & PB & PE) NU NV G. set (L := level2 b q) in *. set (k := (1 + L) / (2 * L)). assert (K : 0 < k < 1).
  { unfold k. split; [apply Rdiv_lt_0_compat; lra|]. apply (Rmult_lt_reg_r (2 * L)); [lra|]. unfold Rdiv. rewrite Rmult_assoc, Rinv_l by lra. lra. }
  set (m := ppow k (be b / 2)). assert (M : 0 < m < 1).
  { unfold m. split; [apply ppow_pos; lra|]. rewrite <- (ppow_one (be b / 2)). apply ppow_lt; lra. }
  assert (MQ : ppow m (2 / be b) = k) by (unfold m; rewrite ppow_ppow; replace (be b / 2 * (2 / be b)) with 1 by (field; lra); rewrite ppow_1, Rabs_pos_eq; lra).
  pose proof (Rabs_pos_lt _ NU) as AU. pose proof (Rabs_pos_lt _ NV) as AV.
  exists ((1 - m) * Rmin (Rabs (along b q)) (Rabs (across b q))).
  assert (MN : 0 < Rmin (Rabs (along b q)) (Rabs (across b q))) by (apply Rmin_glb_lt; assumption).
  split; [apply Rmult_lt_0_compat; lra|]. intros p D. pose proof (Rmin_l (Rabs (along b q)) (Rabs (across b q))) as M1. pose proof (Rmin_r (Rabs (along b q)) (Rabs (across b q))) as M2.
  set (mn := Rmin (Rabs (along b q)) (Rabs (across b q))) in *. clearbody mn.
  assert (SUM : (along b p - along b q) * (along b p - along b q) + (across b p - across b q) * (across b p - across b q) <= (1 - m) * mn * ((1 - m) * mn)).
  { eapply Rle_trans; [right|exact D]. unfold along, across. pose proof (sin2_cos2 (bt b)) as SC. unfold Rsqr in SC. set (c := cos (bt b)) in *. set (d := sin (bt b)) in *.
    replace ((x2 p - x2 q) * (x2 p - x2 q) + (y2 p - y2 q) * (y2 p - y2 q)) with ((d * d + c * c) * ((x2 p - x2 q) * (x2 p - x2 q) + (y2 p - y2 q) * (y2 p - y2 q))) by (rewrite SC; ring). ring. }
  assert (NB : forall u v, (u - v) * (u - v) <= (1 - m) * mn * ((1 - m) * mn) -> mn <= Rabs v -> m * Rabs v <= Rabs u).
  { intros u v H1 H2. assert (H3 : Rabs (u - v) <= (1 - m) * mn). { apply abs_le. set (z := (1 - m) * mn) in *. assert (0 < z) by (unfold z; apply Rmult_lt_0_compat; lra). split; nra. }
    assert (H4 : Rabs v <= Rabs u + Rabs (u - v)). { replace v with (u + - (u - v)) at 1 by ring. eapply Rle_trans; [apply Rabs_triang|]. rewrite Rabs_Ropp. lra. } nra. }
  assert (UB1 : m * Rabs (along b q) <= Rabs (along b p)). { apply NB; [|exact M1]. pose proof (Rle_0_sqr (across b p - across b q)). unfold Rsqr in *. lra. }
  assert (VB1 : m * Rabs (across b q) <= Rabs (across b p)). { apply NB; [|exact M2]. pose proof (Rle_0_sqr (along b p - along b q)). unfold Rsqr in *. lra. }
  assert (GE : k * L <= level2 b p).
  { unfold L, level2. rewrite Rmult_plus_distr_l, <- MQ, <- !ppow_mult. assert (Q : 0 < 2 / be b) by (apply Rdiv_lt_0_compat; lra).
    apply Rplus_le_compat; rewrite <- ppow_abs, <- (ppow_abs (_ / _)); (apply ppow_le; [exact Q|]); (split; [apply Rabs_pos|]); unfold Rdiv; rewrite !Rabs_mult, (Rabs_pos_eq m) by lra;
      rewrite <- Rmult_assoc; (apply Rmult_le_compat_r; [apply Rabs_pos|assumption]). }
  assert (k * L = (1 + L) / 2) by (unfold k; field; lra). lra.
Qed.
Lemma false_collision eig collide cgal a b e px py th num : exact_fcl collide -> covers_points cgal -> 0 < a -> 0 < b -> 1 / 5 <= e -> near_one e = false ->
  let o := SE [a; b] e [px; py] th num in
  exists r x y objs, 0 < r /\ setups2 cgal (new_mb2 (disc r)) [o] 1 = Ok objs /\
    state_valid2 eig collide objs [o] (new_mb2 (disc r)) x y 0 = Ok false /\ robot_clear2 (disc r) [] [o] x y 0.
Proof.
  intros X CV PA PB PE NE o. assert (PE' : 0 < e) by lra.
  pose proof (param_in 4 3 10 ltac:(lia) ltac:(lia) ltac:(lia)) as IP.
  set (et := (cPI + 2 / 1000000) / 18). set (om := (cPI + 1 / 1000000) / 3).
  match type of IP with In (?u, ?v) _ => replace u with (- et) in IP by (unfold et, cHALF_PI, cEPSILON; replace (INR 10) with 10 by (cbn; lra); replace (INR 4) with 4 by (cbn; lra); field);
    replace v with (- om) in IP by (unfold om, cEPSILON; replace (INR 10) with 10 by (cbn; lra); replace (INR 3) with 3 by (cbn; lra); field) end.
  assert (ET : 0 < et < 1746 / 10000) by (unfold et, cPI; lra). assert (OM : 104719 / 100000 < om < 10472 / 10000) by (unfold om, cPI; lra).
  assert (CE : 984 / 1000 < cos et) by (pose proof (cos_low et ltac:(lra)); nra).
  assert (CO : 45 / 100 < cos om) by (pose proof (cos_low om ltac:(lra)); nra).
  assert (SO : 85 / 100 < sin om).
  { pose proof (sin_low om ltac:(lra)). assert (om * om < 1097 / 1000) by nra. nra. }
  clearbody et om. pose proof (COS_bound et) as BE. pose proof (COS_bound om) as BO. pose proof (SIN_bound om) as BS.
  set (pts := map (sample3 a b (1 / 10) e (1 / 10) (Q 1 0 0 0) (V3r 0 0 0)) (params3 10)).
  assert (T10 : 0 < 1 / 10) by lra.
  set (u := ppow (cos et) e * ppow (cos om) (1 / 10)). set (v := - (ppow (cos et) e * ppow (sin om) (1 / 10))). set (w := - ppow (sin et) e).
  assert (UP : 0 < u) by (apply Rmult_lt_0_compat; apply ppow_pos; lra).
  assert (VP : v < 0) by (unfold v; assert (0 < ppow (cos et) e * ppow (sin om) (1 / 10)) by (apply Rmult_lt_0_compat; apply ppow_pos; lra); lra).
  assert (VX : In (V3r (a * u) (b * v) (1 / 10 * w)) pts).
  { unfold pts. apply in_map_iff. exists (- et, - om). split; [|exact IP]. unfold sample3. rewrite rotm_id, app_id. unfold canon3, add3. cbn [x3 y3 z3 fst snd].
    rewrite !cos_neg, !sin_neg. assert (SE0 : 0 < sin et) by (pose proof PI2_3_2; apply sin_gt_0; lra).
    assert (S1 : forall z p, 0 < z -> spow z p = ppow z p) by (intros z p Z; unfold spow, sgn; destruct (Rlt_dec z 0), (Rlt_dec 0 z); lra).
    assert (S2 : forall z p, 0 < z -> spow (- z) p = - ppow z p) by (intros z p Z; unfold spow, sgn; rewrite <- (ppow_abs (- z)), Rabs_Ropp, ppow_abs; destruct (Rlt_dec (- z) 0), (Rlt_dec 0 (- z)); lra).
    rewrite !S1, !S2 by lra. unfold u, v, w. f_equal; ring. }
  set (ob := body_of2 o). set (x := px + cos th * (a * u) - sin th * (b * v)). set (y := py + sin th * (a * u) + cos th * (b * v)).
  pose proof (sin2_cos2 th) as SC. unfold Rsqr in SC.
  assert (AL : along ob (V2 x y) = a * u). { unfold along, ob, body_of2, o, x, y. cbn [se_axes se_eps se_pos se_angle nth ba bb be bc bt x2 y2]. transitivity ((sin th * sin th + cos th * cos th) * (a * u)); [ring|rewrite SC; ring]. }
  assert (AC : across ob (V2 x y) = b * v). { unfold across, ob, body_of2, o, x, y. cbn [se_axes se_eps se_pos se_angle nth ba bb be bc bt x2 y2]. transitivity ((sin th * sin th + cos th * cos th) * (b * v)); [ring|rewrite SC; ring]. }
  assert (LV : 1 < level2 ob (V2 x y)).
  { unfold level2. rewrite AL, AC. unfold ob, body_of2, o. cbn [se_axes se_eps nth ba bb be]. replace (a * u / a) with u by (field; lra). replace (b * v / b) with v by (field; lra).
    rewrite <- (ppow_abs v). unfold v at 1. rewrite Rabs_Ropp, ppow_abs. unfold u. rewrite !ppow_mult, !ppow_ppow. replace (e * (2 / e)) with 2 by (field; lra). rewrite ppow_2.
    set (p10 := 1 / 10 * (2 / e)). assert (P10 : 0 < p10 <= 1).
    { unfold p10. split; [apply Rmult_lt_0_compat; [lra|apply Rdiv_lt_0_compat; lra]|]. apply (Rmult_le_reg_r e); [lra|]. replace (1 / 10 * (2 / e) * e) with (1 / 5) by (field; lra). lra. }
    pose proof (ppow_small (cos om) p10 P10 ltac:(lra)). pose proof (ppow_small (sin om) p10 P10 ltac:(lra)). nra. }
  destruct (outside_disc ob (V2 x y)) as (r & RP & OUT); [repeat split; assumption|rewrite AL; nra|rewrite AC; nra|exact LV|].
  exists r, x, y, ([GEllipsoid r r (1 / 10)], [get_mesh cgal pts]).
  split; [exact RP|]. split; [exact (disc_setup cgal r a b e px py th num PE' NE)|]. split.
  - destruct (valid_one2 eig collide (GEllipsoid r r (1 / 10)) (get_mesh cgal pts) o (disc r) x y 0 NE ltac:(cbn; lia)) as (t & _ & _ & ->).
    f_equal. enough (E : collide (GEllipsoid r r (1 / 10)) (rotm (about_z t), V3r x y (1 / 10)) (get_mesh cgal pts)
       (rotm (about_z (se_angle o)), V3r (x2 (given_pos2 o)) (y2 (given_pos2 o)) (1 / 10)) = true) by (rewrite E; reflexivity).
    apply X. eexists. split; [|exact (mesh_vertex cgal _ pts _ CV VX)]. cbn [in_geom]. exists (V3r 0 0 (1 / 10 * w)). split.
    + cbn [o se_angle given_pos2 se_pos nth x2 y2]. rewrite !rotm_z. unfold move3, app3, add3, dot3, x, y. cbn [fst snd x3 y3 z3 r0 r1 r2]. f_equal; ring.
    + cbn [x3 y3 z3]. replace (0 / r * (0 / r) + 0 / r * (0 / r) + 1 / 10 * w / (1 / 10) * (1 / 10 * w / (1 / 10))) with (w * w) by (field; lra).
      assert (W1 : ppow (sin et) e <= 1). { assert (ppow (Rabs (sin et)) e <= ppow 1 e) as W by (apply ppow_le; [exact PE'|]; split; [apply Rabs_pos|]; apply abs_le; pose proof (SIN_bound et); lra). rewrite ppow_one, ppow_abs in W. exact W. }
      pose proof (ppow_ge (sin et) e). unfold w. nra.
  - intros o' p [<-|[]] RPt IN. pose proof (OUT p (disc_points r x y 0 p RP RPt)) as O. unfold in2 in IN. fold ob in IN. lra.
Qed.
(** ---- bodies with other exponents ---- *)
Definition ball_at (r : R) (p : v3) : squad := SQ [r; r; r] [1; 1] [x3 p; y3 p; z3 p] (Q 1 0 0 0) 10.
Lemma corner_undetected collide cgal a b c e1 e2 num : exact_fcl collide -> 0 < a -> 0 < b -> 0 < c -> 0 < e1 -> 0 < e2 < 1 ->
  let base := SQ [a; b; c] [e1; e2] [0; 0; 0] (Q 1 0 0 0) num in
  exists r p objs, 0 < r /\ setups3 cgal (new_mb3 base) [ball_at r p] 1 = Ok objs /\
    state_valid3 collide objs [ball_at r p] (new_mb3 base) (V3r 0 0 0) (Q 1 0 0 0) (fun _ => None) = Ok true /\
    exists x, robot_points3 base [] (id3, V3r 0 0 0) (fun _ => None) x /\ inside3 (body_of3 (ball_at r p)) x.
Proof.
  intros X PA PB PC P1 P2 base. set (k1 := ppow (1 / 2) (1 / 2)). set (k2 := ppow (1 / 2) (e2 / 2)).
  assert (K1 : 0 < k1) by (apply ppow_pos; lra). assert (KK : k1 * k1 = 1 / 2).
  { unfold k1. rewrite <- ppow_plus. replace (1 / 2 + 1 / 2) with 1 by field. rewrite ppow_1, Rabs_pos_eq; lra. }
  assert (K12 : k1 < k2).
  { unfold k1, k2. rewrite !ppow_ne by lra. rewrite Rabs_pos_eq by lra. unfold Rpower. apply exp_increasing.
    assert (ln (1 / 2) < 0) by (rewrite <- ln_1; apply ln_increasing; lra). nra. }
  set (r := (k2 - k1) / 2 * Rmin a b). assert (MN : 0 < Rmin a b) by (apply Rmin_glb_lt; assumption). pose proof (Rmin_l a b) as M1. pose proof (Rmin_r a b) as M2.
  assert (RP : 0 < r) by (unfold r; apply Rmult_lt_0_compat; lra). set (p := V3r (k2 * a) (k2 * b) 0).
  exists r, p, ([GEllipsoid a b c], [GEllipsoid r r r]). split; [exact RP|]. split.
  { cbn [setups3 obind]. unfold collision_objects3. cbn [new_mb3 mb3_base mb3_links map omap]. unfold base at 1, obj_ellipsoid at 1. cbn [sq_axes at_ nth_error obind].
    unfold is_ellipsoid, ball_at at 1 2. cbn [sq_eps at_ nth_error obind]. rewrite near_one_1. cbn [obind]. reflexivity. }
  split.
  - rewrite valid_one3 by (exact unit_id || (cbn; lia)). f_equal. destruct (collide _ _ _ _) eqn:E; [|reflexivity]. exfalso.
    apply X in E. destruct E as [x [[l [-> H]] G2]]. pose proof (in_ball r _ _ RP G2 (rotm_rotation _ unit_id)) as [B1' [B2' _]].
    cbn [snd ball_at given_pos3 sq_pos nth x3 y3 z3 p] in B1', B2'. unfold move3 in B1', B2'. cbn [fst snd] in B1', B2'. rewrite rotm_id, app_id in B1', B2'. unfold add3 in B1', B2'. cbn [x3 y3] in B1', B2'.
    apply abs_le in B1', B2'.
    assert (U : k1 <= x3 l / a). { apply (Rmult_le_reg_r a); [exact PA|]. replace (x3 l / a * a) with (x3 l) by (field; lra). unfold r in B1'. nra. }
    assert (V : k1 < y3 l / b). { apply (Rmult_lt_reg_r b); [exact PB|]. replace (y3 l / b * b) with (y3 l) by (field; lra). unfold r in B2'. nra. }
    pose proof (Rle_0_sqr (z3 l / c)) as Z. unfold Rsqr in Z. nra.
  - exists p. split.
    + left. exists p. split; [unfold move3; cbn [fst snd]; rewrite app_id; unfold add3, p; cbn; f_equal; ring|]. exists p. cbn [base sq_axes sq_eps nth]. split.
      * unfold placed. cbn [sctr SGeom.sq]. rewrite (turn_rotm _ _ unit_id), rotm_id, app_id. unfold add3, p. cbn. f_equal; ring.
      * unfold shape3, p. cbn [sa sb sc s1 s2 x3 y3 z3]. replace (k2 * a / a) with k2 by (field; lra). replace (k2 * b / b) with k2 by (field; lra). replace (0 / c) with 0 by (field; lra).
        rewrite ppow_0. unfold k2. rewrite ppow_ppow. replace (e2 / 2 * (2 / e2)) with 1 by (field; lra). rewrite ppow_1, (Rabs_pos_eq (1 / 2)) by lra. replace (1 / 2 + 1 / 2) with 1 by field. rewrite ppow_one. lra.
    + exists (V3r 0 0 0). split.
      * unfold placed, body_of3, ball_at, p. cbn [sctr SGeom.sq sq_pos sq_quat nth]. rewrite (turn_rotm _ _ unit_id), rotm_id, app_id. unfold add3. cbn. f_equal; ring.
      * unfold body_of3, ball_at. cbn [sq_axes sq_eps nth]. rewrite shape_ell. cbn [x3 y3 z3]. unfold Rdiv. rewrite !Rmult_0_l. lra.
Qed.
(** ---- further facts for the statements ---- *)
Lemma setups2_any cgal base cs m obs n : calls2 (new_mb2 base) cs = Ok m -> Forall robot_ellipse (base :: added2 cs) -> Forall robot_ellipse obs ->
  exists objs, setups2 cgal m obs n = Ok objs.
Proof.
  intros H F G. pose proof (built_calls2 base cs [] (new_mb2 base) m (built_new2 base) H) as [B L]. cbn [app] in *.
  assert (S : forall s l0, same_shape2 s l0 -> robot_ellipse l0 -> exists a b, se_axes s = [a; b] /\ se_eps s = 1).
  { intros s l0 (S1 & S2 & _) (E & a & b & x & y & A & _). exists a, b. split; congruence. }
  assert (K : forall l, (forall s, In s l -> exists a b, se_axes s = [a; b] /\ se_eps s = 1) -> exists r, omap (obj_from_se cgal) l = Ok r).
  { induction l as [|s l IH]; intros FF; [exists []; reflexivity|]. destruct (FF s (or_introl eq_refl)) as (a & b & A & E1).
    destruct IH as [r R]; [intros s' I; apply FF; right; exact I|]. cbn [omap]. unfold obj_from_se at 1. rewrite A, E1, near_one_1. cbn [at_ nth_error obind]. rewrite R. eexists. reflexivity. }
  rewrite Forall_forall in F, G.
  assert (LK : forall s, In s (map fst (mb2_links m)) -> exists a b, se_axes s = [a; b] /\ se_eps s = 1).
  { intros s I. apply in_map_iff in I. destruct I as [lt [<- I]]. assert (FL : Forall (fun l0 => robot_ellipse l0) (added2 cs)) by (apply Forall_forall; intros l0 J; apply F; right; exact J).
    clear - L I FL S. induction L as [|l0 lt' ls lts HH _ IH]; [destruct I|]. inversion FL; subst. destruct I as [->|I]; [destruct HH as [HH _]; exact (S _ l0 HH ltac:(assumption))|apply IH; assumption]. }
  destruct (K (mb2_base m :: map fst (mb2_links m))) as [r1 R1].
  { intros s [<-|I]; [exact (S _ base B (F base (or_introl eq_refl)))|exact (LK s I)]. }
  destruct (K obs) as [r2 R2]; [intros s I; exact (S s s ltac:(repeat split) (G s I))|].
  induction n as [|n [o E]]; [eexists; reflexivity|]. cbn [setups2]. rewrite E. cbn [obind]. unfold collision_objects2. rewrite R1, R2. cbn [obind]. eexists. reflexivity.
Qed.
Lemma no_obstacles3 collide objs base cs m p q kdl : calls3 (new_mb3 base) cs = Ok (Some m) -> Forall (fun l => unit_quat (sq_quat l)) (added3 cs) -> unit_quat q -> (forall k h, kdl k = Some h -> rigid3 h) ->
  state_valid3 collide objs [] m p q kdl = Ok true.
Proof.
  intros H UL U RK. pose proof (built_calls3 base cs [] (new_mb3 base) m (built_new3 base) H) as B. cbn [app] in B.
  destruct (built_stands3 base _ m (rotm q, p) kdl B (rotm_rotation q U) RK UL) as (r & E & _). unfold state_valid3. rewrite E. reflexivity.
Qed.
Lemma ball_point r p x : 0 < r -> in3 (body_of3 (ball_at r p)) x <-> dot3 (sub3 x p) (sub3 x p) <= r * r.
Proof.
  intros Hr. unfold in3, body_of3, ball_at. cbn [sq_axes sq_eps sq_pos sq_quat nth].
  assert (Q : forall l, shape3 (Body3 r r r 1 1 (V3r (x3 p) (y3 p) (z3 p)) (Q 1 0 0 0)) l <= 1 <-> dot3 l l <= r * r).
  { intros l. rewrite shape_ell. unfold dot3. replace (x3 l / r * (x3 l / r) + y3 l / r * (y3 l / r) + z3 l / r * (z3 l / r)) with ((x3 l * x3 l + y3 l * y3 l + z3 l * z3 l) * / (r * r)) by (field; lra).
    assert (0 < r * r) by nra. split; intros H0.
    - apply (Rmult_le_reg_r (/ (r * r))); [apply Rinv_0_lt_compat; lra|]. rewrite Rinv_r by lra. exact H0.
    - apply (Rmult_le_reg_r (r * r)); [lra|]. rewrite Rmult_assoc, Rinv_l by lra. lra. }
  split.
  - intros [l [-> H]]. apply Q in H. unfold placed. cbn [sctr SGeom.sq]. rewrite (turn_rotm _ _ unit_id), rotm_id, app_id. eapply Rle_trans; [right|exact H].
    unfold dot3, sub3, add3. cbn [x3 y3 z3]. ring.
  - intros H. exists (sub3 x p). split; [|apply Q; exact H]. unfold placed. cbn [sctr SGeom.sq]. rewrite (turn_rotm _ _ unit_id), rotm_id, app_id. unfold add3, sub3. destruct x, p. cbn. f_equal; ring.
Qed.
Lemma ball_robot_points r x : 0 < r -> robot_points3 (ball_robot r) [] (id3, V3r 0 0 0) (fun _ => None) x <-> dot3 x x <= r * r.
Proof.
  intros Hr. assert (B : forall l, in3 (Body3 (nth 0 (sq_axes (ball_robot r)) 0) (nth 1 (sq_axes (ball_robot r)) 0) (nth 2 (sq_axes (ball_robot r)) 0) (nth 0 (sq_eps (ball_robot r)) 0) (nth 1 (sq_eps (ball_robot r)) 0)
            (V3r 0 0 0) (Q 1 0 0 0)) l <-> dot3 l l <= r * r).
  { intros l. etransitivity; [exact (ball_point r (V3r 0 0 0) l Hr)|]. unfold dot3, sub3. cbn [x3 y3 z3]. rewrite !Rminus_0_r. reflexivity. }
  assert (M : forall l, move3 (id3, V3r 0 0 0) l = l) by (intros [u v w]; unfold move3; cbn [fst snd]; rewrite app_id; unfold add3; cbn; f_equal; ring).
  split.
  - intros [[l [-> H]]|(k & l0 & l & E & _)]; [|destruct k; discriminate E]. rewrite M. apply B. exact H.
  - intros H. left. exists x. split; [symmetry; apply M|apply B; exact H].
Qed.
Lemma balls_example : Forall robot_ellipsoid [ball_robot 1] /\ robot_clear3 (ball_robot 1) [] [ball_at 1 (V3r 3 0 0)] (id3, V3r 0 0 0) (fun _ => None) /\
  ~ robot_clear3 (ball_robot 1) [] [ball_at 1 (V3r 1 0 0)] (id3, V3r 0 0 0) (fun _ => None).
Proof.
  split; [|split].
  - constructor; [|constructor]. split; [reflexivity|]. split; [exact unit_id|]. exists 1, 1, 1, 0, 0, 0. repeat split; lra.
  - intros o p [<-|[]] H J. apply ball_robot_points in H; [|lra]. apply ball_point in J; [|lra]. unfold dot3, sub3 in *. cbn [x3 y3 z3] in *.
    pose proof (Rle_0_sqr (y3 p)). pose proof (Rle_0_sqr (z3 p)). unfold Rsqr in *. assert (x3 p * x3 p <= 1) by lra. assert ((x3 p - 3) * (x3 p - 3) <= 1) by nra. nra.
  - intros C. apply (C (ball_at 1 (V3r 1 0 0)) (V3r 1 0 0) (or_introl eq_refl)).
    + apply ball_robot_points; [lra|]. unfold dot3. cbn. lra.
    + apply ball_point; [lra|]. unfold dot3, sub3. cbn. lra.
Qed.
