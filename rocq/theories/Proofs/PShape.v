(** Which boundary points are sampled; centres between returned centres. *)
From Coq Require Import List Reals ZArith Arith Bool Lia Lra.
From Verif.Base Require Import Outcome.
From Verif.Model Require Import MGeom.
From Verif.Spec Require Import SGeom SRigid.
From Verif.Proofs Require Import PGeom PGeom2 PGeom3 PGeomX PInscribed.
Import ListNotations.
Local Open Scope R_scope.

Lemma spow_spw x p : spow x p = spw x p.
Proof.
  unfold spow, spw, sgn. destruct (Rlt_dec x 0); [ring|]. destruct (Rlt_dec 0 x); [ring|]. assert (x = 0) as -> by lra. rewrite ppow_0. ring.
Qed.
Lemma nth_seq num i : (i < num)%nat -> nth_error (seq 0 num) i = Some i.
Proof. intros L. rewrite (nth_error_nth' _ 0%nat) by (rewrite seq_length; lia). now rewrite seq_nth by lia. Qed.
Lemma planar_samples a b e px py t num : 0 < e -> (2 <= num)%nat ->
  let s := SE [a; b] e [px; py] t num in
  exists pts, origin2 s = Ok pts /\ length pts = num /\
    forall i, (i < num)%nat -> exists p, nth_error pts i = Some (Some p) /\
      let th := 2 * INR i * (31415926 / 10000000) / (INR num - 1) in
      along (body_of2 s) p = a * spw (cos th) e /\ across (body_of2 s) p = b * spw (sin th) e.
Proof.
  intros E N s. unfold s. rewrite origin2_eq by assumption. eexists. split; [reflexivity|]. split; [now rewrite map_length, seq_length|].
  intros i L. rewrite nth_error_map, nth_seq by exact L. eexists. split; [reflexivity|]. cbv zeta. unfold body_of2, sample2. cbn [nth se_axes se_pos se_eps se_angle].
  rewrite along_sample, across_sample. unfold canon2. cbn [x2 y2]. rewrite !spow_spw. split; reflexivity.
Qed.
Lemma nth_flat {A B C} (f : A -> B -> C) l m i j a b : nth_error l i = Some a -> nth_error m j = Some b ->
  nth_error (flat_map (fun x => map (f x) m) l) (i * length m + j) = Some (f a b).
Proof.
  revert i. induction l as [|x l IH]; intros [|i] Ha Hb; cbn [nth_error] in Ha; try discriminate Ha; cbn [flat_map].
  - injection Ha as ->. rewrite nth_error_app1; [|rewrite map_length; apply nth_error_Some; cbn; rewrite Hb; discriminate].
    cbn [Nat.mul Nat.add]. now rewrite nth_error_map, Hb.
  - rewrite nth_error_app2 by (rewrite map_length; cbn; lia). rewrite map_length.
    replace (S i * length m + j - length m)%nat with (i * length m + j)%nat by (cbn; lia). apply IH; assumption.
Qed.
Lemma nth_linspaced n h i : (2 <= n)%nat -> (i < n)%nat -> nth_error (linspaced n (- h) h) i = Some (evenly n h i).
Proof.
  intros N L. unfold linspaced. destruct (Nat.eqb_spec n 1); [lia|]. rewrite nth_error_map, nth_seq by exact L. cbn [option_map]. unfold evenly. do 2 f_equal. f_equal. f_equal. ring.
Qed.
Lemma spatial_samples a b c e1 e2 px py pz q num : 0 < e1 -> 0 < e2 -> unit_quat q -> (2 <= num)%nat ->
  let s := SQ [a; b; c] [e1; e2] [px; py; pz] q num in
  exists pts, origin3 s = Ok pts /\ length pts = (num * num)%nat /\
    forall i j, (i < num)%nat -> (j < num)%nat ->
      let et := evenly num (31415926 / 10000000 / 2 + 1 / 1000000) i in
      let om := evenly num (31415926 / 10000000 + 1 / 1000000) j in
      nth_error pts (i * num + j) = Some (Some (placed (body_of3 s)
        (V3r (a * (spw (cos et) e1 * spw (cos om) e2)) (b * (spw (cos et) e1 * spw (sin om) e2)) (c * spw (sin et) e1)))).
Proof.
  intros E1 E2 U N s. unfold s. rewrite origin3_eq by assumption. eexists. split; [reflexivity|]. split; [now rewrite map_length, params3_len|].
  intros i j Li Lj. cbv zeta. set (et := evenly num (31415926 / 10000000 / 2 + 1 / 1000000) i). set (om := evenly num (31415926 / 10000000 + 1 / 1000000) j). rewrite nth_error_map.
  assert (P : nth_error (params3 num) (i * num + j) = Some (et, om)).
  { unfold params3. pose proof (linspaced_len num (- cPI - cEPSILON) (cPI + cEPSILON)) as LL. fold (omegas num) in LL. rewrite <- LL at 2.
    apply nth_flat.
    - unfold etas, et. replace (- cHALF_PI - cEPSILON) with (- (cHALF_PI + cEPSILON)) by ring. apply nth_linspaced; assumption.
    - unfold omegas, om. replace (- cPI - cEPSILON) with (- (cPI + cEPSILON)) by ring. apply nth_linspaced; assumption. }
  rewrite P. cbn [option_map]. do 2 f_equal. unfold placed, sample3, body_of3. cbn [sctr SGeom.sq nth sq_pos sq_quat]. rewrite turn_rotm by exact U. rewrite add_comm3. f_equal. f_equal.
  unfold canon3. cbn [fst snd]. rewrite !spow_spw. f_equal. ring.
Qed.
Lemma pi_hi : PI < cPI + 1 / 1000000.
Proof.
  unfold cPI. pose proof (PI_2_3_7_ineq 4) as [_ H].
  unfold tg_alt, PI_2_3_7_tg, Ratan_seq in H. cbn -[pow INR] in H.
  repeat (rewrite S_INR in H). cbn [INR pow Nat.mul Nat.add] in H.
  set (x := PI) in *. clearbody x. lra.
Qed.
Lemma evenly_0 n h : evenly n h 0 = - h.
Proof. unfold evenly. cbn [INR]. ring. Qed.
Lemma evenly_last n h : (2 <= n)%nat -> evenly n h (n - 1) = h.
Proof.
  intros N. unfold evenly. rewrite minus_INR by lia. cbn [INR].
  assert (2 <= INR n) by (change 2 with (INR 2); apply le_INR; exact N). field. lra.
Qed.
Lemma ranges_overlap num : (2 <= num)%nat ->
  evenly num (31415926 / 10000000 / 2 + 1 / 1000000) 0 < - (PI / 2) /\ PI / 2 < evenly num (31415926 / 10000000 / 2 + 1 / 1000000) (num - 1) /\
  evenly num (31415926 / 10000000 + 1 / 1000000) 0 < - PI /\ PI < evenly num (31415926 / 10000000 + 1 / 1000000) (num - 1).
Proof. intros N. rewrite !evenly_0, !evenly_last by exact N. pose proof pi_hi as H. unfold cPI in H. repeat split; lra. Qed.

(** ---- all planar samples differ ---- *)
Lemma ppow_inj x y p : 0 < p -> ppow x p = ppow y p -> Rabs x = Rabs y.
Proof.
  intros P H. rewrite <- (ppow_abs x), <- (ppow_abs y) in H. pose proof (Rabs_pos x). pose proof (Rabs_pos y).
  destruct (Rtotal_order (Rabs x) (Rabs y)) as [L|[E|L]]; [|exact E|]; exfalso.
  - pose proof (ppow_lt (Rabs x) (Rabs y) p P ltac:(lra)). lra.
  - pose proof (ppow_lt (Rabs y) (Rabs x) p P ltac:(lra)). lra.
Qed.
Lemma spow_inj x y p : 0 < p -> spow x p = spow y p -> x = y.
Proof.
  intros P H. assert (A : Rabs x = Rabs y) by (apply (ppow_inj x y p P); rewrite <- !abs_spow, H; reflexivity).
  destruct (Req_EM_T x 0) as [->|X].
  - rewrite Rabs_R0 in A. destruct (Req_EM_T y 0) as [->|Y]; [reflexivity|]. pose proof (Rabs_pos_lt y Y). lra.
  - assert (Y : y <> 0) by (intros ->; rewrite Rabs_R0 in A; pose proof (Rabs_pos_lt x X); lra).
    pose proof (ppow_pos x p X). pose proof (ppow_pos y p Y). rewrite !spow_spw in H. unfold spw in H. unfold Rabs in A.
    destruct (Rlt_dec x 0), (Rlt_dec y 0), (Rcase_abs x), (Rcase_abs y); lra.
Qed.
Lemma turn_differs u v : 0 < v - u < 2 * PI -> cos u = cos v -> sin u = sin v -> False.
Proof.
  intros H C S. assert (K : cos (v - u) = 1) by (rewrite cos_minus, C, S; apply cs1).
  replace (v - u) with (2 * ((v - u) / 2)) in K by field. rewrite cos_2a_sin in K.
  pose proof (sin_gt_0 ((v - u) / 2) ltac:(lra) ltac:(lra)). nra.
Qed.
Lemma sample_inj a b e c t th th' : 0 < a -> 0 < b -> 0 < e -> sample2 a b e c t th = sample2 a b e c t th' -> cos th = cos th' /\ sin th = sin th'.
Proof.
  intros A B E H. split.
  - pose proof (f_equal (along (Body2 a b e c t)) H) as X. unfold sample2 in X. rewrite !along_sample in X. cbn [canon2 x2] in X.
    apply (spow_inj _ _ e E), (Rmult_eq_reg_l a); [exact X|lra].
  - pose proof (f_equal (across (Body2 a b e c t)) H) as X. unfold sample2 in X. rewrite !across_sample in X. cbn [canon2 y2] in X.
    apply (spow_inj _ _ e E), (Rmult_eq_reg_l b); [exact X|lra].
Qed.
Lemma theta_gap num i j : (2 <= num)%nat -> (i < j < num)%nat -> 0 < theta num j - theta num i < 2 * PI.
Proof.
  intros N [L1 L2]. pose proof pi_lo as P. assert (C : 0 < cPI) by (unfold cPI; lra).
  assert (NN : 1 <= INR num - 1) by (assert (2 <= INR num) by (change 2 with (INR 2); apply le_INR; exact N); lra).
  assert (D : theta num j - theta num i = 2 * cPI * ((INR j - INR i) / (INR num - 1))) by (unfold theta; field; lra).
  rewrite D. assert (J : 0 < INR j - INR i <= INR num - 1).
  { split; [apply lt_INR in L1; lra|]. assert (INR j <= INR num - 1) by (replace (INR num - 1) with (INR (num - 1)) by (rewrite minus_INR by lia; reflexivity); apply le_INR; lia). pose proof (pos_INR i). lra. }
  assert (0 < (INR j - INR i) / (INR num - 1) <= 1).
  { split; [apply Rdiv_lt_0_compat; lra|]. apply (Rmult_le_reg_r (INR num - 1)); [lra|]. unfold Rdiv. rewrite Rmult_assoc, Rinv_l by lra. lra. }
  split; [apply Rmult_lt_0_compat; lra|]. nra.
Qed.
Lemma planar_samples_differ a b e px py t num : 0 < a -> 0 < b -> 0 < e -> (2 <= num)%nat ->
  exists surf, origin2 (SE [a; b] e [px; py] t num) = Ok surf /\ length surf = num /\
    forall i j, (i < num)%nat -> (j < num)%nat -> i <> j -> nth_error surf i <> nth_error surf j.
Proof.
  intros A B E N. rewrite origin2_eq by assumption. eexists. split; [reflexivity|]. split; [now rewrite map_length, seq_length|].
  intros i j Li Lj NE. rewrite !nth_error_map, !nth_seq by assumption. cbn [option_map]. intros H. apply (f_equal (fun o => match o with Some (Some v) => v | _ => V2 0 0 end)) in H.
  cbv beta iota in H. destruct (sample_inj a b e _ t _ _ A B E H) as [C S].
  destruct (Nat.lt_ge_cases i j) as [L|L].
  - exact (turn_differs _ _ (theta_gap num i j N (conj L Lj)) C S).
  - exact (turn_differs _ _ (theta_gap num j i N ltac:(lia)) (eq_sym C) (eq_sym S)).
Qed.
Lemma on_in2 b p : on2 b p -> in2 b p.
Proof. unfold on2, in2. lra. Qed.
Lemma on_in3 b p : on3 b p -> in3 b p.
Proof. intros [l [P L]]. exists l. split; [exact P|lra]. Qed.
Lemma planar_edges_collide a e px py t num A B e2 pos2 t2 num2 : 0 < a -> 0 < e < 2 -> 0 < A -> 0 < B -> (2 <= num)%nat ->
  let O := SE [a; a] e [px; py] t num in
  exists pts surf, mink2 O (SE [A; B] e2 pos2 t2 num2) 1 = Ok pts /\ origin2 O = Ok surf /\
    forall i j p1 p2 w, nth_error pts i = Some (Some p1) -> nth_error pts j = Some (Some p2) -> nth_error surf i <> nth_error surf j -> 0 < w < 1 ->
      overlap2 (body_of2 O) (ellipse_at A B t2 (on_way2 w p1 p2)).
Proof.
  intros HA E A0 B0 N O. unfold O. rewrite mink2_eq by assumption. rewrite origin2_eq by (assumption || lra).
  do 2 eexists. split; [reflexivity|]. split; [reflexivity|]. intros i j p1 p2 w. rewrite !nth_error_map.
  destruct (nth_error (seq 0 num) i) as [i'|]; cbn [option_map]; intros H1; [|discriminate H1].
  destruct (nth_error (seq 0 num) j) as [j'|]; cbn [option_map]; intros H2; [|discriminate H2].
  injection H1 as <-. injection H2 as <-. intros NE W.
  destruct (circle_contact a e (V2 px py) t A B t2 (theta num i') HA E A0 B0) as [(X1 & Y1 & _) _].
  destruct (circle_contact a e (V2 px py) t A B t2 (theta num j') HA E A0 B0) as [(X2 & Y2 & _) _].
  change (body_of2 (SE [a; a] e [px; py] t num)) with (Body2 a a e (V2 px py) t).
  match goal with |- overlap2 _ (ellipse_at _ _ _ (on_way2 w ?u ?v)) => change (on_way2 w u v) with (mix2 (1 - w) w u v) end.
  refine (between_contacts2 _ A B t2 _ _ _ _ _ _ _ A0 B0 X1 X2 (on_in2 _ _ Y1) (on_in2 _ _ Y2) _ _ _ _).
  - unfold convex2, proper2. cbn. lra.
  - intros Q. apply NE. rewrite Q. reflexivity.
  - lra.
  - lra.
  - ring.
Qed.
Lemma spatial_triangles_collide a b c e1 e2 px py pz q num A B C pos2 q2 num2 :
  let O := SQ [a; b; c] [e1; e2] [px; py; pz] q num in
  convex3 (body_of3 O) -> 0 < A -> 0 < B -> 0 < C -> unit_quat q2 ->
  exists pts surf, mink3 O (SQ [A; B; C] [1; 1] pos2 q2 num2) 1 = Ok pts /\ origin3 O = Ok surf /\
    forall i j k p1 p2 p3 w1 w2 w3, nth_error pts i = Some (Some p1) -> nth_error pts j = Some (Some p2) -> nth_error pts k = Some (Some p3) ->
      nth_error surf i <> nth_error surf j -> 0 < w1 -> 0 < w2 -> 0 <= w3 -> w1 + w2 + w3 = 1 ->
      overlap3 (body_of3 O) (ellipsoid_at A B C q2 (in_triangle w1 w2 w3 p1 p2 p3)).
Proof.
  intros O CV HA HB HC U. pose proof CV as [(_ & _ & _ & E1 & E2 & _) _]. cbn in E1, E2. unfold O. rewrite mink3_eq by assumption. rewrite origin3_eq by assumption.
  do 2 eexists. split; [reflexivity|]. split; [reflexivity|]. intros i j k p1 p2 p3 w1 w2 w3. rewrite !nth_error_map.
  destruct (nth_error (params3 num) i) as [i'|]; cbn [option_map]; intros H1; [|discriminate H1].
  destruct (nth_error (params3 num) j) as [j'|]; cbn [option_map]; intros H2; [|discriminate H2].
  destruct (nth_error (params3 num) k) as [k'|]; cbn [option_map]; intros H3; [|discriminate H3].
  injection H1 as <-. injection H2 as <-. injection H3 as <-. intros NE W1 W2 W3 S.
  destruct (quadric_contact a b c e1 e2 (V3r px py pz) q A B C q2 i' CV HA HB HC U) as [(X1 & Y1 & _) _].
  destruct (quadric_contact a b c e1 e2 (V3r px py pz) q A B C q2 j' CV HA HB HC U) as [(X2 & Y2 & _) _].
  destruct (quadric_contact a b c e1 e2 (V3r px py pz) q A B C q2 k' CV HA HB HC U) as [(X3 & Y3 & _) _].
  match goal with |- overlap3 _ (ellipsoid_at _ _ _ _ (in_triangle _ _ _ ?u ?v ?w)) => replace (in_triangle w1 w2 w3 u v w) with (mix3 w1 w2 w3 u v w) by (unfold mix3, in_triangle, add3, scale3; cbn [x3 y3 z3]; f_equal; ring) end.
  refine (between_contacts _ A B C q2 _ _ _ _ _ _ _ _ _ CV HA HB HC U X1 X2 X3 (on_in3 _ _ Y1) (on_in3 _ _ Y2) (on_in3 _ _ Y3) _ W1 W2 W3 S).
  intros Q. apply NE. rewrite Q. reflexivity.
Qed.
