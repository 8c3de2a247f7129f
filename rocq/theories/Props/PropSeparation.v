(** C44, C45: the algebraic separation test of ellipses and ellipsoids
    (src/util/EllipsoidSeparation.cpp). *)
From Coq Require Import List Bool Arith Lia Reals Lra.
From Verif.Model Require Import MSeparation.
From Verif.Spec Require Import SSeparation.
From Verif.Proofs Require Import PSeparation PSeparationC PSeparationM PSeparationD.
Import ListNotations.
Local Open Scope R_scope.

(** C44: the coefficient formulas are, for every quadric matrix b, those of the
    characteristic polynomial det(lambda A - b), up to the sign in the plane. *)
Theorem C44_coefficients_are_the_characteristic_polynomial : forall (e : ellipse) (d : ellipsoid) (b : mat) (l : R),
  poly (coeffs3 (diag3 e) b) l = - det3 (pencil l (diag3 e) b) /\
  poly (coeffs4 (diag4 d) b) l = det4 (pencil l (diag4 d) b).
Proof.
  intros e d b l. split.
  - apply poly3; [reflexivity|apply diag3_off].
  - apply poly4; [reflexivity|apply diag4_off].
Qed.
Print Assumptions C44_coefficients_are_the_characteristic_polynomial.

(** "Separated" is never reported for two ellipses with a common point, provided the
    roots counted as negative are real numbers, not complex ones with a tiny
    imaginary part. *)
Theorem C44_separated_ellipses_are_disjoint : forall (eig : mat -> nat -> list cplx) (ea eb : ellipse),
  proper_ellipse ea -> proper_ellipse eb ->
  let m := companion (coeffs3 (diag3 ea) (pull3 ea eb)) in
  spectrum3 m (eig m 3%nat) ->
  (forall re im, In (re, im) (eig m 3%nat) -> Rabs im < 1 / 1000000 -> re < 0 -> im = 0) ->
  is_ellipse_separated eig ea eb = true ->
  forall px py, ~ (in_ellipse ea px py /\ in_ellipse eb px py).
Proof.
  intros eig ea eb PA PB m SP RE D px py [IA IB]. unfold is_ellipse_separated, roots_polynomial in D. rewrite decide_pad in D.
  refine (sound3 ea eb (eig m 3%nat) px py PA PB SP _ D IA IB).
  intros [re im] I N. apply negative_true in N. cbn [fst snd] in *. destruct N as [N1 N2]. exact (RE re im I N1 N2).
Qed.
Print Assumptions C44_separated_ellipses_are_disjoint.
Theorem C44_separated_ellipsoids_are_disjoint : forall (eig : mat -> nat -> list cplx) (ea eb : ellipsoid),
  proper_ellipsoid ea -> proper_ellipsoid eb ->
  let m := companion (coeffs4 (diag4 ea) (pull4 ea eb)) in
  spectrum4 m (eig m 4%nat) ->
  (forall re im, In (re, im) (eig m 4%nat) -> Rabs im < 1 / 1000000 -> re < 0 -> im = 0) ->
  is_ellipsoid_separated eig ea eb = true ->
  forall px py pz, ~ (in_ellipsoid ea px py pz /\ in_ellipsoid eb px py pz).
Proof.
  intros eig ea eb PA PB m SP RE D px py pz [IA IB]. unfold is_ellipsoid_separated, roots_polynomial in D. rewrite decide_pad in D.
  refine (sound4 ea eb (eig m 4%nat) px py pz PA PB SP _ D IA IB).
  intros [re im] I N. apply negative_true in N. cbn [fst snd] in *. destruct N as [N1 N2]. exact (RE re im I N1 N2).
Qed.
Print Assumptions C44_separated_ellipsoids_are_disjoint.

(** For disjoint circles and spheres the test says "separated" exactly when the gap
    is not tiny: the two root distances are compared with 1e-6. *)
Theorem C44_disjoint_circles_and_spheres : forall (eig : mat -> nat -> list cplx) (r1 r2 : R),
  0 < r1 -> 0 < r2 ->
  (forall x1 y1 t1 x2 y2 t2,
     let ea := Ell r1 r1 x1 y1 t1 in let eb := Ell r2 r2 x2 y2 t2 in
     let d2 := (x1 - x2) * (x1 - x2) + (y1 - y2) * (y1 - y2) in
     (r1 + r2) * (r1 + r2) < d2 ->
     (let m := companion (coeffs3 (diag3 ea) (pull3 ea eb)) in spectrum3 m (eig m 3%nat)) ->
     (is_ellipse_separated eig ea eb = true <->
      1 / 1000000000000 * (r2 * r2 * (r2 * r2)) < (d2 - (r1 + r2) * (r1 + r2)) * (d2 - (r1 - r2) * (r1 - r2)))) /\
  (forall ea eb, proper_ellipsoid ea -> proper_ellipsoid eb ->
     d_a ea = r1 -> d_b ea = r1 -> d_c ea = r1 -> d_a eb = r2 -> d_b eb = r2 -> d_c eb = r2 ->
     let d2 := (d_x ea - d_x eb) * (d_x ea - d_x eb) + (d_y ea - d_y eb) * (d_y ea - d_y eb) + (d_z ea - d_z eb) * (d_z ea - d_z eb) in
     (r1 + r2) * (r1 + r2) < d2 ->
     (let m := companion (coeffs4 (diag4 ea) (pull4 ea eb)) in spectrum4 m (eig m 4%nat)) ->
     (is_ellipsoid_separated eig ea eb = true <->
      1 / 1000000000000 * (r2 * r2 * (r2 * r2)) < (d2 - (r1 + r2) * (r1 + r2)) * (d2 - (r1 - r2) * (r1 - r2)))).
Proof.
  intros eig r1 r2 H1 H2. split.
  - intros x1 y1 t1 x2 y2 t2 ea eb d2 HD SP. unfold is_ellipse_separated, roots_polynomial. rewrite decide_pad.
    exact (circles_apart r1 r2 x1 y1 t1 x2 y2 t2 _ H1 H2 HD SP).
  - intros ea eb PA PB A1 A2 A3 B1 B2 B3 d2 HD SP. unfold is_ellipsoid_separated, roots_polynomial. rewrite decide_pad.
    exact (spheres_apart r1 r2 ea eb _ PA PB A1 A2 A3 B1 B2 B3 HD SP).
Qed.
Print Assumptions C44_disjoint_circles_and_spheres.

(** The converse, for all ellipses and ellipsoids: two of them have no common point exactly
    when the characteristic polynomial has two different negative roots. *)
Theorem C44_disjoint_ellipses_iff_two_negative_roots : forall (ea eb : ellipse), proper_ellipse ea -> proper_ellipse eb ->
  ((forall px py, ~ (in_ellipse ea px py /\ in_ellipse eb px py)) <->
   exists l0 l1, l0 < l1 /\ l1 < 0 /\ det3 (pencil l0 (diag3 ea) (pull3 ea eb)) = 0 /\ det3 (pencil l1 (diag3 ea) (pull3 ea eb)) = 0).
Proof. exact planar_iff. Qed.
Print Assumptions C44_disjoint_ellipses_iff_two_negative_roots.
Theorem C44_disjoint_ellipsoids_iff_two_negative_roots : forall (ea eb : ellipsoid), proper_ellipsoid ea -> proper_ellipsoid eb ->
  ((forall px py pz, ~ (in_ellipsoid ea px py pz /\ in_ellipsoid eb px py pz)) <->
   exists l0 l1, l0 < l1 /\ l1 < 0 /\ det4 (pencil l0 (diag4 ea) (pull4 ea eb)) = 0 /\ det4 (pencil l1 (diag4 ea) (pull4 ea eb)) = 0).
Proof. exact spatial_iff. Qed.
Print Assumptions C44_disjoint_ellipsoids_iff_two_negative_roots.

(** So every disjoint pair is reported separated by every exact root finder, except when the
    two negative roots, which are the only ones, are within 1e-6 of each other. *)
Theorem C44_disjoint_ellipses_reported : forall (ea eb : ellipse), proper_ellipse ea -> proper_ellipse eb ->
  (forall px py, ~ (in_ellipse ea px py /\ in_ellipse eb px py)) ->
  exists l0 l1, l0 < l1 /\ l1 < 0 /\
    (forall l, l < 0 -> det3 (pencil l (diag3 ea) (pull3 ea eb)) = 0 <-> (l = l0 \/ l = l1)) /\
    forall eig, (let m := companion (coeffs3 (diag3 ea) (pull3 ea eb)) in spectrum3 m (eig m 3%nat)) ->
      (is_ellipse_separated eig ea eb = true <-> 1 / 1000000 < l1 - l0).
Proof. exact planar_complete. Qed.
Print Assumptions C44_disjoint_ellipses_reported.
Theorem C44_disjoint_ellipsoids_reported : forall (ea eb : ellipsoid), proper_ellipsoid ea -> proper_ellipsoid eb ->
  (forall px py pz, ~ (in_ellipsoid ea px py pz /\ in_ellipsoid eb px py pz)) ->
  exists l0 l1, l0 < l1 /\ l1 < 0 /\
    (forall l, l < 0 -> det4 (pencil l (diag4 ea) (pull4 ea eb)) = 0 <-> (l = l0 \/ l = l1)) /\
    forall eig, (let m := companion (coeffs4 (diag4 ea) (pull4 ea eb)) in spectrum4 m (eig m 4%nat)) ->
      (is_ellipsoid_separated eig ea eb = true <-> 1 / 1000000 < l1 - l0).
Proof. exact spatial_complete. Qed.
Print Assumptions C44_disjoint_ellipsoids_reported.
(** Non-vacuity: a flat ellipse and a turned one beside it; two ellipsoids one above the other. *)
Example C44_hyp_disjoint_ellipses : let ea := Ell 3 1 0 0 0 in let eb := Ell 2 1 0 4 (PI / 2) in
  proper_ellipse ea /\ proper_ellipse eb /\ forall px py, ~ (in_ellipse ea px py /\ in_ellipse eb px py).
Proof.
  cbv zeta. split; [split; cbn; lra|]. split; [split; cbn; lra|]. intros px py [IA IB]. unfold in_ellipse in IA, IB.
  cbn [e_a e_b e_x e_y e_th] in IA, IB. rewrite cos_0, sin_0 in IA. rewrite cos_PI2, sin_PI2 in IB.
  assert (Y : py <= 1).
  { apply Rnot_lt_le. intros L. pose proof (Rle_0_sqr ((1 * (px - 0) + 0 * (py - 0)) / 3)) as Q. unfold Rsqr in Q.
    replace ((- (0) * (px - 0) + 1 * (py - 0)) / 1) with py in IA by field. assert (1 < py * py) by nra. lra. }
  pose proof (Rle_0_sqr ((- (1) * (px - 0) + 0 * (py - 4)) / 1)) as Q. unfold Rsqr in Q.
  replace ((0 * (px - 0) + 1 * (py - 4)) / 2) with ((py - 4) / 2) in IB by field.
  assert (Z : (py - 4) / 2 <= - (3 / 2)) by lra. assert (1 < (py - 4) / 2 * ((py - 4) / 2)) by nra. lra.
Qed.
Example C44_hyp_disjoint_ellipsoids : let ea := Eld 3 2 1 0 0 0 1 0 0 0 in let eb := Eld 1 1 2 0 0 4 1 0 0 0 in
  proper_ellipsoid ea /\ proper_ellipsoid eb /\ forall px py pz, ~ (in_ellipsoid ea px py pz /\ in_ellipsoid eb px py pz).
Proof.
  cbv zeta. split; [repeat split; cbn; lra|]. split; [repeat split; cbn; lra|]. intros px py pz [IA IB]. unfold in_ellipsoid, body, rot_of, rotq in IA, IB.
  cbn [d_a d_b d_c d_x d_y d_z d_qw d_qx d_qy d_qz] in IA, IB.
  match type of IA with ?a * ?a + ?b * ?b + ?c * ?c <= 1 => pose proof (Rle_0_sqr a) as Q1; pose proof (Rle_0_sqr b) as Q2; unfold Rsqr in Q1, Q2; assert (H : c * c <= 1) by lra end.
  match type of IB with ?a * ?a + ?b * ?b + ?c * ?c <= 1 => pose proof (Rle_0_sqr a) as Q3; pose proof (Rle_0_sqr b) as Q4; unfold Rsqr in Q3, Q4; assert (K : c * c <= 1) by lra end.
  clear IA IB Q1 Q2 Q3 Q4.
  match type of H with ?c * ?c <= 1 => replace c with pz in H by field end.
  match type of K with ?c * ?c <= 1 => replace c with ((pz - 4) / 2) in K by field end.
  assert (pz <= 1) by nra. assert (- (1) <= (pz - 4) / 2) by nra. lra.
Qed.

(** Non-vacuity: unit circles at distance 3 (roots -6.85, -0.146 and 1). *)
Example C44_example_far_circles : forall eig,
  (let m := companion (coeffs3 (diag3 (Ell 1 1 0 0 0)) (pull3 (Ell 1 1 0 0 0) (Ell 1 1 3 0 0))) in spectrum3 m (eig m 3%nat)) ->
  is_ellipse_separated eig (Ell 1 1 0 0 0) (Ell 1 1 3 0 0) = true.
Proof.
  intros eig SP. destruct (C44_disjoint_circles_and_spheres eig 1 1 ltac:(lra) ltac:(lra)) as [C _].
  apply (C 0 0 0 3 0 0); [lra|exact SP|lra].
Qed.
Example C44_example_spectrum_exists :
  let s := sqrt 5 in let m := companion (coeffs3 (diag3 (Ell 1 1 0 0 0)) (pull3 (Ell 1 1 0 0 0) (Ell 1 1 3 0 0))) in
  spectrum3 m [((- 7 + 3 * s) / 2, 0); ((- 7 - 3 * s) / 2, 0); (1 * 1 / (1 * 1), 0)].
Proof.
  cbv zeta. apply spectrum_circles; try lra. intros x. unfold cmul, circle_gap. cbn [fst snd].
  assert (S : sqrt 5 * sqrt 5 = 5) by (apply sqrt_sqrt; lra). f_equal; field [S].
Qed.

(** Without the proviso on real roots the claim is false: the unit circles centred at
    (0, 0) and at a distance of about 2 - 1.6e-13 overlap, their characteristic roots
    are -1 -/+ 8e-7 i and 1, and the test reports them separated. *)
Theorem C44_separated_but_overlapping_refuted : exists (ea eb : ellipse) (roots : list cplx) (px py : R),
  proper_ellipse ea /\ proper_ellipse eb /\
  spectrum3 (companion (coeffs3 (diag3 ea) (pull3 ea eb))) roots /\
  is_ellipse_separated (fun _ _ => roots) ea eb = true /\
  in_ellipse ea px py /\ in_ellipse eb px py.
Proof.
  exists near_a, near_b, near_roots, (1 / (1 + slip * slip)), (slip / (1 + slip * slip)).
  split; [split; cbn; lra|]. split; [split; cbn; lra|]. split; [exact near_spectrum|].
  split; [unfold is_ellipse_separated, roots_polynomial; rewrite decide_pad; exact near_decide|]. exact near_meet.
Qed.
Print Assumptions C44_separated_but_overlapping_refuted.

(** And disjoint ellipses need not be reported separated: a gap of 1e-14 between unit
    circles is missed by every exact root finder. *)
Theorem C44_disjoint_always_reported_refuted : exists (ea eb : ellipse), proper_ellipse ea /\ proper_ellipse eb /\
  (forall px py, ~ (in_ellipse ea px py /\ in_ellipse eb px py)) /\
  forall eig, (let m := companion (coeffs3 (diag3 ea) (pull3 ea eb)) in spectrum3 m (eig m 3%nat)) ->
    is_ellipse_separated eig ea eb = false.
Proof.
  exists near_a, far_b. split; [split; cbn; lra|]. split; [split; cbn; lra|]. split.
  - intros px py [A B]. exact (far_disjoint px py A B).
  - intros eig SP. unfold is_ellipse_separated, roots_polynomial. rewrite decide_pad. exact (far_decide _ SP).
Qed.
Print Assumptions C44_disjoint_always_reported_refuted.

(** C45: a polynomial of degree n yields n zeros followed by what the eigenvalue
    solver returns for a matrix whose characteristic polynomial is the given
    polynomial divided by its leading coefficient. *)
Theorem C45_roots_are_padded_with_zeros : forall (eig : mat -> nat -> list cplx) (cs : list R),
  let n := (length cs - 1)%nat in
  (forall k, (k < n)%nat -> nth_error (roots_polynomial eig cs) k = Some (0, 0)) /\
  skipn n (roots_polynomial eig cs) = eig (companion cs) n /\
  (length (eig (companion cs) n) = n -> length (roots_polynomial eig cs) = (2 * n)%nat) /\
  decide (roots_polynomial eig cs) = decide (eig (companion cs) n).
Proof.
  intros eig cs n. unfold roots_polynomial. fold n. split; [|split; [|split]].
  - intros k Hk. rewrite nth_error_app1 by (rewrite repeat_length; exact Hk). apply nth_error_repeat. exact Hk.
  - rewrite skipn_app, repeat_length, Nat.sub_diag, skipn_all2 by (rewrite repeat_length; lia). reflexivity.
  - intros L. rewrite app_length, repeat_length. unfold cplx in L. rewrite L. lia.
  - apply decide_pad.
Qed.
Print Assumptions C45_roots_are_padded_with_zeros.
Theorem C45_companion_matrix : forall c0 c1 c2 c3 c4 x, c0 <> 0 ->
  c0 * det3 (pencil x ident (companion [c0; c1; c2; c3])) = poly [c0; c1; c2; c3] x /\
  c0 * det4 (pencil x ident (companion [c0; c1; c2; c3; c4])) = poly [c0; c1; c2; c3; c4] x.
Proof. intros c0 c1 c2 c3 c4 x H. split; [apply companion3|apply companion4]; exact H. Qed.
Print Assumptions C45_companion_matrix.
(** Every polynomial read by the separation tests has zero among the returned
    "roots" although zero is not a root. *)
Theorem C45_zero_is_not_a_root_refuted : exists eig cs, poly cs 0 <> 0 /\ In (0, 0) (roots_polynomial eig cs) /\
  (forall x, factors (eig (companion cs) 3%nat) x = (poly cs x, 0)).
Proof.
  exists (fun _ _ => [(1, 0); (1, 0); (1, 0)]), [1; -3; 3; -1]. split; [unfold poly; cbn; lra|]. split; [left; reflexivity|].
  intros x. cbn. unfold cmul, poly. cbn. f_equal; ring.
Qed.
Print Assumptions C45_zero_is_not_a_root_refuted.
