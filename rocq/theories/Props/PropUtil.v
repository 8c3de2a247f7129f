(** C34, C37-C39, C47, C48: point-in-polyhedron test, interpolation, distance, mesh
    indices, CSV reader (src/geometry/PointInPoly.cpp, src/util/InterpolateSE3.cpp,
    src/util/DistanceMetric.cpp, src/geometry/MeshGenerator.cpp,
    src/util/Parse2dCsvFile.cpp). *)
From Coq Require Import List Bool Arith Lia ZArith Reals Lra Permutation Ascii.
From Verif.Base Require Import Outcome Float64 FloatFacts.
From Verif.Model Require Import MScalar MDistance MPointInPoly MMesh MCsv MInterp.
From Verif.Spec Require Import SUtil.
From Verif.Proofs Require Import PGraph PHRM2D PInterp PInterpR PUtil.
Import ListNotations.

(** C34: in exact arithmetic the test is true iff for one of the stored matrices all
    four barycentric coordinates are in [0, 1]. *)
Theorem C34_true_iff_coordinates_in_unit_interval : forall (ms : list (list R)) (x y z : R),
  Forall (fun m => length m = 16) ms ->
  exists b, is_pt_in_poly XR (map (map Some) ms) [Some x; Some y; Some z] = Ok b /\
    (b = true <-> exists m, In m ms /\ forall r, r < 4 -> (0 <= bary m (x, y, z) r <= 1)%R).
Proof. intros ms x y z H. exact (any_simplex_XR ms x y z H). Qed.
Print Assumptions C34_true_iff_coordinates_in_unit_interval.

(** If the stored matrices are the inverses of the simplices' vertex matrices, the
    test decides membership in the union of the simplices. *)
Theorem C34_is_membership_in_simplices : forall (ss : list (list R * (nat -> pt3))) (x y z : R),
  Forall (fun s => length (fst s) = 16 /\ is_inverse_of_vertices (fst s) (snd s)) ss ->
  exists b, is_pt_in_poly XR (map (map Some) (map fst ss)) [Some x; Some y; Some z] = Ok b /\
    (b = true <-> exists s, In s ss /\ in_hull (snd s) (x, y, z)).
Proof.
  intros ss x y z H.
  assert (L : Forall (fun m => length m = 16) (map fst ss)).
  { apply Forall_forall. intros m Hm. apply in_map_iff in Hm. destruct Hm as (s & <- & Hs). rewrite Forall_forall in H. apply (H s Hs). }
  destruct (any_simplex_XR (map fst ss) x y z L) as (b & E & Q). exists b. split; [exact E|]. rewrite Q. rewrite Forall_forall in H.
  split.
  - intros (m & Hm & A). apply in_map_iff in Hm. destruct Hm as (s & <- & Hs). exists s. split; [exact Hs|].
    apply (all01_hull (fst s)); [apply (H s Hs)|exact A].
  - intros (s & Hs & A). exists (fst s). split; [apply in_map; exact Hs|]. apply (all01_hull _ (snd s)); [apply (H s Hs)|exact A].
Qed.
Print Assumptions C34_is_membership_in_simplices.

(** A point with fewer than three coordinates is read out of bounds; without
    simplices every point is outside. *)
Theorem C34_short_point_is_undefined : forall S ms (pt : list (car S)), length pt < 3 -> is_pt_in_poly S ms pt = UB.
Proof. intros S ms pt H. destruct pt as [|x [|y [|z pt]]]; try reflexivity. cbn in H. lia. Qed.
Print Assumptions C34_short_point_is_undefined.

Definition tet_inv : list R := [1; 0; 0; -1; 0; 1; 0; -1; 0; 0; 1; -1; 0; 0; 0; 1]%R.
Definition tet (k : nat) : pt3 := match k with 0 => (1, 0, 0)%R | 1 => (0, 1, 0)%R | 2 => (0, 0, 1)%R | _ => (0, 0, 0)%R end.
Example C34_hyps_hold : length tet_inv = 16 /\ is_inverse_of_vertices tet_inv tet /\ in_hull tet (/ 4, / 4, / 4)%R /\ ~ in_hull tet (1, 1, 0)%R.
Proof.
  split; [reflexivity|]. split; [split; intros r c Hr Hc; destruct r as [|[|[|[|r]]]]; try lia; destruct c as [|[|[|[|c]]]]; try lia; unfold sum4, entry, kron; cbn; ring|].
  split.
  - exists (fun _ => / 4)%R. unfold sum4. split; [intros; lra|]. split; [lra|]. intros [|[|[|r]]] Hr; try lia; cbn; lra.
  - intros (w & W0 & W1 & W). pose proof (W 0 ltac:(lia)) as A. pose proof (W 1 ltac:(lia)) as B. pose proof (W0 2 ltac:(lia)). pose proof (W0 3 ltac:(lia)).
    unfold sum4 in *. cbn in A, B. lra.
Qed.

(** C37: exact arithmetic, n >= 1 steps. *)
Theorem C37_straight_equally_spaced : forall (a b : list R) n, 1 <= n -> length a = length b ->
  exists vs, interpolate_rn XR (map Some a) (map Some b) n = Ok (map (map Some) vs) /\
    length vs = n + 1 /\ nth_error vs 0 = Some a /\ nth_error vs n = Some b /\
    forall i v, nth_error vs i = Some v -> length v = length a /\
      forall j x y, nth_error a j = Some x -> nth_error b j = Some y ->
        nth_error v j = Some (x + INR i / INR n * (y - x))%R.
Proof.
  intros a b n Hn L. exists (map (fun i => lin (INR i / INR n) a b) (seq 0 (n + 1))).
  assert (N : forall i, i <= n -> nth_error (map (fun i => lin (INR i / INR n) a b) (seq 0 (n + 1))) i = Some (lin (INR i / INR n) a b)).
  { intros i Hi. rewrite nth_error_map, (nth_error_nth' _ 0) by (rewrite seq_length; lia). rewrite seq_nth by lia. reflexivity. }
  assert (P : INR n <> 0%R) by (apply not_0_INR; lia).
  split; [rewrite map_map; apply rn_XR; lia|]. split; [rewrite map_length, seq_length; reflexivity|].
  split; [rewrite N by lia; f_equal; replace (INR 0 / INR n)%R with 0%R by (cbn; field; auto); apply lin_0; lia|].
  split; [rewrite N by lia; f_equal; replace (INR n / INR n)%R with 1%R by (field; auto); rewrite lin_1 by lia; rewrite L; apply firstn_all|].
  intros i v Hv. assert (Hi : i < n + 1) by (apply nth_error_lt in Hv; rewrite map_length, seq_length in Hv; exact Hv).
  rewrite N in Hv by lia. injection Hv as <-. split; [apply lin_len; lia|]. intros j x y. apply lin_nth.
Qed.
Print Assumptions C37_straight_equally_spaced.

(** In every arithmetic, the call reads out of bounds iff the end vector is shorter. *)
Theorem C37_undefined_iff_end_shorter : forall S (a b : list (car S)) n,
  interpolate_rn S a b n = UB <-> length b < length a.
Proof.
  intros S a b n. split; [|apply rn_UB]. intros H. destruct (Nat.lt_ge_cases (length b) (length a)) as [L|L]; [exact L|].
  destruct (rn_ok S a b n L) as (r & E & _). rewrite E in H. discriminate H.
Qed.
Print Assumptions C37_undefined_iff_end_shorter.

(** n = 0 in binary64: one vector, NaN in every coordinate. *)
Theorem C37_zero_steps_is_nan : forall a b : list f64, length a <= length b ->
  exists v, interpolate_rn F64 a b 0 = Ok [v] /\ length v = length a /\ Forall (fun x => fisnan x = true) v.
Proof. exact rn_nan. Qed.
Print Assumptions C37_zero_steps_is_nan.

(** In binary64 the first vector still has the value of the start ... *)
Theorem C37_first_is_start_binary64 : forall (a b : list f64) n r,
  1 <= n -> (Z.of_nat n <= 2 ^ 53)%Z -> length a <= length b ->
  Forall (fun x => fisfin x = true) a -> Forall (fun x => fisfin x = true) b ->
  interpolate_rn F64 a b n = Ok r ->
  exists v, nth_error r 0 = Some v /\ Forall2 (fun x u => fisfin u = true /\ fval u = fval x) a v.
Proof.
  intros a b n r H1 H2 L Fa Fb H. destruct (rn_ok F64 a b n L) as (r' & E & Lr & N). rewrite E in H. injection H as ->.
  destruct (nth_error r 0) as [v|] eqn:K; [|apply nth_error_None in K; lia]. exists v. split; [reflexivity|].
  destruct (N 0 v K) as [Lv Nv]. clear E N K Lr r.
  revert b v L Lv Nv Fb. induction Fa as [|x a Fx _ IH]; intros b v L Lv Nv Fb.
  - destruct v; [constructor|discriminate Lv].
  - destruct b as [|y b]; [cbn in L; lia|]. destruct v as [|u v]; [discriminate Lv|]. inversion Fb as [|? ? Fy Fb']; subst.
    assert (U : Some u = Some (fadd (fmul (fsub (fofZ 1) (param F64 n 0)) x) (fmul (param F64 n 0) y))) by exact (Nv 0 x y eq_refl eq_refl).
    constructor.
    + assert (U' : u = fadd (fmul (fsub (fofZ 1) (param F64 n 0)) x) (fmul (param F64 n 0) y)) by congruence. rewrite U'.
      exact (blend_first n x y H1 H2 Fx Fy).
    + apply (IH b v); [exact (le_S_n _ _ L)|exact (eq_add_S _ _ Lv)| |exact Fb']. intros j x' y' Hx Hy. exact (Nv (Datatypes.S j) x' y' Hx Hy).
Qed.
Print Assumptions C37_first_is_start_binary64.

(** ... but the last one need not be the end: 49 steps from 0 to 1 stop short of 1. *)
Definition last_coordinate (n : nat) : bool :=
  match interpolate_rn F64 [fofZ 0] [fofZ 1] n with
  | Ok r => match nth_error r n with Some [x] => fltb x (fofZ 1) | _ => false end
  | _ => false
  end.
Theorem C37_last_is_end_binary64_refuted :
  ~ (forall (a b : list f64) n r v, 1 <= n -> length a = length b ->
      Forall (fun x => fisfin x = true) a -> Forall (fun x => fisfin x = true) b ->
      interpolate_rn F64 a b n = Ok r -> nth_error r n = Some v -> Forall2 (fun y u => fval u = fval y) b v).
Proof.
  intros H. assert (K : last_coordinate 49 = true) by (vm_compute; reflexivity). unfold last_coordinate in K.
  destruct (interpolate_rn F64 [fofZ 0] [fofZ 1] 49) as [r| |] eqn:E; [|discriminate K|discriminate K].
  destruct (nth_error r 49) as [v|] eqn:V; [|discriminate K]. destruct v as [|x [|? ?]]; [discriminate K| |discriminate K].
  assert (F : forall z, (Z.abs z <= 1)%Z -> Forall (fun x => fisfin x = true) [fofZ z]) by (intros z Hz; constructor; [apply fofZ_fin; lia|constructor]).
  specialize (H [fofZ 0] [fofZ 1] 49 r [x] ltac:(lia) eq_refl (F 0%Z ltac:(lia)) (F 1%Z ltac:(lia)) E V).
  inversion H as [|? ? ? ? Q _]; subst. apply fltb_val in K; [exact (Rlt_not_eq _ _ K Q)| |apply fofZ_nan; lia].
  destruct (fisnan x) eqn:Nx; [|reflexivity]. rewrite fltb_nan_l in K by exact Nx. discriminate K.
Qed.
Print Assumptions C37_last_is_end_binary64_refuted.

Example C37_hyps_hold : exists vs, interpolate_rn XR (map Some [1; 2]%R) (map Some [3; 8]%R) 2 = Ok (map (map Some) vs) /\
  nth_error vs 1 = Some [1 + INR 1 / INR 2 * (3 - 1); 2 + INR 1 / INR 2 * (8 - 2)]%R.
Proof.
  destruct (C37_straight_equally_spaced [1; 2]%R [3; 8]%R 2 ltac:(lia) eq_refl) as (vs & E & L & _ & _ & H). exists vs. split; [exact E|].
  destruct (nth_error vs 1) as [v|] eqn:K; [|apply nth_error_None in K; lia]. destruct (H 1 v K) as [Lv Hv].
  destruct v as [|u [|w [|? ?]]]; try discriminate Lv. pose proof (Hv 0 1%R 3%R eq_refl eq_refl) as A. pose proof (Hv 1 2%R 8%R eq_refl eq_refl) as B.
  cbn [nth_error] in A, B. injection A as ->. injection B as ->. reflexivity.
Qed.

(** C38, for every arithmetic and every spherical interpolation: number of poses,
    dimension, linear translation and joint parts, interpolated quaternion. *)
Theorem C38_shape : forall S (slerp : quat S -> car S -> quat S -> quat S) (a b : list (car S)) n,
  7 <= length a -> length a = length b -> 1 <= n ->
  exists r, interpolate_compound S slerp a b n = Ok r /\ length r = n + 1 /\
  forall i v, nth_error r i = Some v -> length v = length a /\
    let t := param S n i in
    (forall j x y, j < 3 \/ 7 <= j -> nth_error a j = Some x -> nth_error b j = Some y ->
       nth_error v j = Some (sadd S (smul S (ssub S (sone S) t) x) (smul S t y))) /\
    (forall aw ax ay az bw bx by_ bz,
       firstn 4 (skipn 3 a) = [aw; ax; ay; az] -> firstn 4 (skipn 3 b) = [bw; bx; by_; bz] ->
       exists qw qx qy qz, slerp (aw, ax, ay, az) t (bw, bx, by_, bz) = (qw, qx, qy, qz) /\
         firstn 4 (skipn 3 v) = [qw; qx; qy; qz]).
Proof.
  intros S slerp a b n La L Hn. destruct (compound_ok S slerp a b n La ltac:(lia)) as (r & E & H & _). exists r. split; [exact E|].
  destruct (H Hn) as [Lr Hr]. split; [exact Lr|]. intros i v Hv. destruct (Hr i v Hv) as (Lv & p & tl & Ep & Lp & Se & Tl).
  split; [exact Lv|]. cbv zeta. destruct Se as (qa & qb & q & x & y & z & Qa & Qb & Eq & Vp & N3). subst v. split.
  - intros j u w Hj Hu Hw. destruct Hj as [Hj|Hj].
    + rewrite nth_error_app1 by lia. apply (N3 j u w Hj Hu Hw).
    + rewrite nth_error_app2 by lia. rewrite Lp. apply Tl; replace (7 + (j - 7)) with j by lia; assumption.
  - intros aw ax ay az bw bx by_ bz Ha Hb.
    do 7 (destruct a as [|? a]; [cbn in La; lia|]). do 7 (destruct b as [|? b]; [cbn in L; lia|]).
    cbn [skipn firstn] in Ha, Hb. injection Ha as -> -> -> ->. injection Hb as -> -> -> ->.
    cbn in Qa, Qb. injection Qa as <-. injection Qb as <-. rewrite <- Eq. destruct q as [[[qw qx] qy] qz]. exists qw, qx, qy, qz.
    split; [reflexivity|]. subst p. reflexivity.
Qed.
Print Assumptions C38_shape.

(** Fewer than seven coordinates: undefined behaviour. *)
Theorem C38_short_pose_is_undefined : forall S slerp (a b : list (car S)) n,
  length a < 7 -> interpolate_compound S slerp a b n = UB.
Proof. exact compound_UB. Qed.
Print Assumptions C38_short_pose_is_undefined.

(** n = 0: not the two end poses, but one pose (dimension 7) or three poses. *)
Theorem C38_zero_steps_count : forall S slerp (a b : list (car S)),
  7 <= length a -> length a = length b ->
  exists r, interpolate_compound S slerp a b 0 = Ok r /\ length r = (if Nat.eqb (length a) 7 then 1 else 3) /\ r <> [a; b].
Proof.
  intros S slerp a b La L. destruct (compound_ok S slerp a b 0 La ltac:(lia)) as (r & E & _ & H). exists r. split; [exact E|].
  specialize (H eq_refl). split; [exact H|]. intros ->. destruct (Nat.eqb (length a) 7); discriminate H.
Qed.
Print Assumptions C38_zero_steps_count.

(** Eigen's slerp in exact arithmetic, between unit quaternions: endpoints (the second
    one up to the sign, i.e. the same rotation), uniform angle, and norm. *)
Theorem C38_slerp_facts : forall p q t, qdot p p = 1%R -> qdot q q = 1%R -> (0 <= t <= 1)%R ->
  slerp_R p 0 q = p /\
  slerp_R p 1 q = qscale (if Rlt_dec (qdot p q) 0 then -1 else 1)%R q /\
  (1 - / IZR (2 ^ 53) <= qdot (slerp_R p t q) (slerp_R p t q) <= 1)%R /\
  ((Rabs (qdot p q) < 1 - / IZR (2 ^ 52))%R ->
     qdot (slerp_R p t q) (slerp_R p t q) = 1%R /\
     qdot p (slerp_R p t q) = cos (t * acos (Rabs (qdot p q)))).
Proof.
  intros p q t Hp Hq Ht. pose proof (cauchy4 p q Hp Hq) as C.
  split; [apply slerp_0; exact C|]. split; [apply slerp_1; exact C|]. split; [apply slerp_norm; auto|]. intros H. apply slerp_unit; auto.
Qed.
Print Assumptions C38_slerp_facts.
Example C38_hyps_hold : qdot (1, 0, 0, 0)%R (1, 0, 0, 0)%R = 1%R /\ qdot (3 / 5, 4 / 5, 0, 0)%R (3 / 5, 4 / 5, 0, 0)%R = 1%R /\
  (Rabs (qdot (1, 0, 0, 0) (3 / 5, 4 / 5, 0, 0)) < 1 - / IZR (2 ^ 52))%R.
Proof.
  split; [cbn; ring|]. split; [cbn; field|]. change (2 ^ 52)%Z with 4503599627370496%Z. unfold qdot.
  rewrite Rabs_right by lra. lra.
Qed.

(** C39: the Euclidean metric in exact arithmetic. *)
Theorem C39_is_a_metric : forall a b c : list R, length a = length b -> length b = length c ->
  exists dab dba dbc dac,
    vec_euclid XR (map Some a) (map Some b) = Ok (Some dab) /\
    vec_euclid XR (map Some b) (map Some a) = Ok (Some dba) /\
    vec_euclid XR (map Some b) (map Some c) = Ok (Some dbc) /\
    vec_euclid XR (map Some a) (map Some c) = Ok (Some dac) /\
    (dab * dab = sq_dist a b)%R /\ (0 <= dab)%R /\ dab = dba /\ (dab = 0%R <-> a = b) /\ (dac <= dab + dbc)%R.
Proof.
  intros a b c L1 L2. exists (sqrt (sq_dist a b)), (sqrt (sq_dist b a)), (sqrt (sq_dist b c)), (sqrt (sq_dist a c)).
  split; [apply vec_euclid_XR; lia|]. split; [apply vec_euclid_XR; lia|]. split; [apply vec_euclid_XR; lia|]. split; [apply vec_euclid_XR; lia|].
  pose proof (sq_dist_pos a b) as P. split; [apply sqrt_sqrt; exact P|]. split; [apply sqrt_pos|]. split; [rewrite sq_dist_sym; reflexivity|].
  split; [|apply triangle; auto]. rewrite <- (sq_dist_0 a b L1). split; [intros H; apply sqrt_eq_0; auto|intros ->; apply sqrt_0].
Qed.
Print Assumptions C39_is_a_metric.

(** Out of bounds iff the second vector is shorter, in every arithmetic; never an exception. *)
Theorem C39_undefined_iff_second_shorter : forall S (v w : list (car S)),
  (vec_euclid S v w = UB <-> length w < length v) /\ forall e, vec_euclid S v w <> Throw e.
Proof.
  intros S v w. unfold vec_euclid. destruct (Nat.lt_ge_cases (length w) (length v)) as [L|L].
  - rewrite vdiff_UB by exact L. split; [tauto|]. intros e H. discriminate H.
  - destruct (vdiff_ok S v w L) as (d & ->). cbn [obind]. split; [|intros e H; discriminate H]. split; [intros H; discriminate H|lia].
Qed.
Print Assumptions C39_undefined_iff_second_shorter.

(** In binary64 the distance is symmetric bit for bit, including NaN and infinities. *)
Theorem C39_symmetric_binary64 : forall a b : list f64, length a = length b -> vec_euclid F64 a b = vec_euclid F64 b a.
Proof. exact vec_euclid_sym64. Qed.
Print Assumptions C39_symmetric_binary64.
Example C39_hyps_hold : vec_euclid XR (map Some [1; 2]%R) (map Some [4; 6]%R) = Ok (Some 5%R).
Proof.
  rewrite vec_euclid_XR by (cbn; lia). cbn [sq_dist].
  replace ((1 - 4) * (1 - 4) + ((2 - 6) * (2 - 6) + 0))%R with (5 * 5)%R by ring. rewrite sqrt_square by lra. reflexivity.
Qed.

(** C47: triangles of the surface mesh. *)
Theorem C47_each_cell_exactly_two_triangles : forall n, 1 <= n ->
  exists fs, mesh_faces n = Ok fs /\ length fs = 2 * ((n - 1) * (n - 1)) /\
    Permutation fs (flat_map (cell_triangles n) (list_prod (seq 0 (n - 1)) (seq 0 (n - 1)))) /\
    forall a b c, In (a, b, c) fs -> a < n * n /\ b < n * n /\ c < n * n.
Proof.
  intros n Hn. destruct (mesh_faces n) as [fs| |] eqn:E.
  - exists fs. split; [reflexivity|]. split; [apply mesh_len; exact E|]. pose proof (mesh_perm n fs E) as P. split; [exact P|].
    intros a b c H. apply (Permutation_in _ P) in H. apply in_flat_map in H. destruct H as ([i j] & Hij & H).
    apply in_prod_iff in Hij. destruct Hij as [Hi Hj]. apply in_seq in Hi, Hj. unfold cell_triangles, grid in H.
    assert (Q : i * n + n + j + 1 < n * n) by nia.
    destruct H as [H|[H|[]]]; injection H as <- <- <-; nia.
  - unfold mesh_faces in E. destruct (Nat.eqb n 0); discriminate E.
  - unfold mesh_faces in E. destruct (Nat.eqb_spec n 0); [lia|discriminate E].
Qed.
Print Assumptions C47_each_cell_exactly_two_triangles.

Theorem C47_zero_is_undefined : mesh_faces 0 = UB.
Proof. reflexivity. Qed.
Print Assumptions C47_zero_is_undefined.

(** The two triangles of a cell run through their common diagonal in the same
    direction: the mesh is not consistently oriented. *)
Theorem C47_consistent_orientation_refuted : forall n fs, 2 <= n -> mesh_faces n = Ok fs ->
  exists t1 t2 u v, In t1 fs /\ In t2 fs /\ t1 <> t2 /\ u <> v /\ directed_edge t1 u v /\ directed_edge t2 u v.
Proof.
  intros n fs Hn E. pose proof (mesh_perm n fs E) as P.
  assert (I : forall t, In t (cell_triangles n (0, 0)) -> In t fs).
  { intros t Ht. apply (Permutation_in _ (Permutation_sym P)). apply in_flat_map. exists (0, 0). split; [|exact Ht].
    apply in_prod_iff. split; apply in_seq; lia. }
  exists (grid n 0 0, grid n (0 + 1) 0, grid n (0 + 1) (0 + 1)), (grid n 0 0, grid n 0 (0 + 1), grid n (0 + 1) (0 + 1)), (grid n (0 + 1) (0 + 1)), (grid n 0 0).
  split; [apply I; left; reflexivity|]. split; [apply I; right; left; reflexivity|]. unfold grid, directed_edge.
  split; [intros H; injection H; lia|]. split; [lia|]. split; right; right; auto.
Qed.
Print Assumptions C47_consistent_orientation_refuted.
Example C47_hyps_hold : mesh_faces 3 = Ok [(0,3,4);(1,4,5);(3,6,7);(4,7,8);(0,1,4);(1,2,5);(3,4,7);(4,5,8)].
Proof. reflexivity. Qed.

(** C48: one record per data line, in order; each record has the values of the fields
    that can be parsed, in order.  [stof [] = Invalid]: std::stof("") throws
    std::invalid_argument. *)
Theorem C48_one_record_per_data_line : forall stof text, stof [] = Invalid ->
  (forall l f, In l (data_lines text) -> In f (line_fields l) -> stof f <> Range) ->
  parse_csv stof (Some text) = Ok (map (fun l =>
    flat_map (fun f => match stof f with Value x => [x] | _ => [] end) (line_fields l)) (data_lines text)).
Proof.
  intros stof text H0 H. unfold parse_csv. rewrite getlines_nil. change newline with (ascii_of_nat 10).
  rewrite (parse_lines_ok stof H0); [reflexivity|]. intros l f Hl Hc. apply H. unfold data_lines. apply filter_In. split; [exact Hl|]. rewrite Hc. reflexivity.
Qed.
Print Assumptions C48_one_record_per_data_line.

(** A field outside the float range aborts the whole call. *)
Theorem C48_out_of_range_escapes : forall stof text l f, stof [] = Invalid ->
  In l (data_lines text) -> In f (line_fields l) -> stof f = Range -> parse_csv stof (Some text) = Throw OutOfRange.
Proof.
  intros stof text l f H0 Hl Hf R. unfold parse_csv. rewrite getlines_nil. change newline with (ascii_of_nat 10).
  apply (parse_lines_range stof H0). unfold data_lines in Hl. apply filter_In in Hl. destruct Hl as [Hl Hc]. exists l, f.
  split; [exact Hl|]. split; [destruct (starts_with_hash l); [discriminate Hc|reflexivity]|auto].
Qed.
Print Assumptions C48_out_of_range_escapes.

Theorem C48_missing_file_throws : forall stof, parse_csv stof None = Throw InvalidArgument.
Proof. reflexivity. Qed.
Print Assumptions C48_missing_file_throws.

(** A dropped field shifts the later columns: the second value of the record of
    "1,x,1" is the third field. *)
Definition demo_stof (f : list ascii) : stof_result :=
  match f with [c] => if Ascii.eqb c (ascii_of_nat 49) then Value (fofZ 1) else Invalid | _ => Invalid end.
Definition demo_text : list ascii := map ascii_of_nat [49; 44; 120; 44; 49; 10; 35; 49; 10; 10; 49].
Theorem C48_columns_keep_their_position_refuted :
  ~ (forall stof text r l rec j x, stof [] = Invalid -> parse_csv stof (Some text) = Ok r ->
      data_lines text = [l] -> r = [rec] -> nth_error rec j = Some x ->
      exists f, nth_error (line_fields l) j = Some f /\ stof f = Value x).
Proof.
  intros H. set (t := map ascii_of_nat [49; 44; 120; 44; 49]).
  assert (D : data_lines t = [t]) by (vm_compute; reflexivity).
  assert (L : line_fields t = [[ascii_of_nat 49]; [ascii_of_nat 120]; [ascii_of_nat 49]]) by (vm_compute; reflexivity).
  assert (P : parse_csv demo_stof (Some t) = Ok [[fofZ 1; fofZ 1]]).
  { rewrite C48_one_record_per_data_line; [rewrite D; cbn [map]; rewrite L; reflexivity|reflexivity|].
    intros l f _ _. unfold demo_stof. destruct f as [|c [|? ?]]; try discriminate. destruct (Ascii.eqb c (ascii_of_nat 49)); discriminate. }
  destruct (H demo_stof t _ t _ 1 (fofZ 1) eq_refl P D eq_refl eq_refl) as (f & Hf & V). rewrite L in Hf. injection Hf as <-. discriminate V.
Qed.
Print Assumptions C48_columns_keep_their_position_refuted.
Example C48_hyps_hold : data_lines demo_text = [map ascii_of_nat [49; 44; 120; 44; 49]; []; [ascii_of_nat 49]] /\ demo_stof [] = Invalid.
Proof. split; [vm_compute; reflexivity|reflexivity]. Qed.
