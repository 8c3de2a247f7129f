(** Scene files, conversion of resource files, planning parameters. *)
From Coq Require Import List Reals ZArith Arith Bool Ascii String Lia Lra Psatz.
From Verif.Base Require Import Outcome Float64.
From Verif.Model Require Import MGeom MMultiBody MCsv MSettings.
From Verif.Spec Require Import SGeom SRigid SUtil SCollision SSettings.
From Verif.Proofs Require Import PGeom PRot PMulti PCollision.
Import ListNotations.
Local Open Scope R_scope.

(** ---- loading ---- *)
Lemma omap_ok_f2 {A B} (h : A -> outcome B) l r : omap h l = Ok r <-> Forall2 (fun a b => h a = Ok b) l r.
Proof.
  revert r. induction l as [|a l IH]; intros r; cbn [omap].
  - split; [intros H; injection H as <-; constructor|intros H; inversion H; reflexivity].
  - split.
    + intros H. destruct (h a) as [b| |] eqn:E; cbn [obind] in H; try discriminate H. destruct (omap h l) as [r'| |]; cbn [obind] in H; try discriminate H.
      injection H as <-. constructor; [exact E|apply IH; reflexivity].
    + intros H. inversion H as [|? b ? r' E F]; subst. rewrite E. cbn [obind]. rewrite (proj2 (IH r') F). reflexivity.
Qed.
Lemma omap_ub {A B} (h : A -> outcome B) l a : (forall x e, h x <> Throw e) -> In a l -> h a = UB -> omap h l = UB.
Proof.
  intros N I E. induction l as [|x l IH]; [destruct I|]. cbn [omap]. destruct (h x) as [b| |] eqn:Q; cbn [obind].
  - destruct I as [->|I]; [rewrite E in Q; discriminate Q|]. rewrite (IH I). reflexivity.
  - destruct (N x e Q).
  - reflexivity.
Qed.
Lemma row2_iff {A} num (c : list A) s : shape_row2 num c = Ok s <-> row_is2 num c s.
Proof.
  unfold shape_row2. split.
  - intros H. destruct c as [|a [|b [|e [|x [|y [|t r]]]]]]; cbn [idx nth_error obind] in H; try discriminate H.
    injection H as <-. exists a, b, e, x, y, t, r. split; reflexivity.
  - intros (a & b & e & x & y & t & r & -> & ->). reflexivity.
Qed.
Lemma row2_short {A} num (c : list A) : (List.length c < 6)%nat <-> shape_row2 num c = UB.
Proof.
  unfold shape_row2. destruct c as [|a [|b [|e [|x [|y [|t r]]]]]]; cbn [idx nth_error obind List.length]; split; intros H; try reflexivity; try lia. discriminate H.
Qed.
Lemma row2_no_throw {A} num (c : list A) e : shape_row2 num c <> Throw e.
Proof. unfold shape_row2. destruct c as [|a [|b [|ee [|x [|y [|t r]]]]]]; cbn [idx nth_error obind]; discriminate. Qed.
Lemma row3_iff {A} num (c : list A) s : shape_row3 num c = Ok s <-> row_is3 num c s.
Proof.
  unfold shape_row3. split.
  - intros H. destruct c as [|a [|b [|d [|e1 [|e2 [|x [|y [|z [|w [|i [|j [|k r]]]]]]]]]]]]; cbn [idx nth_error obind] in H; try discriminate H.
    injection H as <-. exists a, b, d, e1, e2, x, y, z, w, i, j, k, r. split; reflexivity.
  - intros (a & b & d & e1 & e2 & x & y & z & w & i & j & k & r & -> & ->). reflexivity.
Qed.
Lemma row3_short {A} num (c : list A) : (List.length c < 12)%nat <-> shape_row3 num c = UB.
Proof.
  unfold shape_row3. destruct c as [|a [|b [|d [|e1 [|e2 [|x [|y [|z [|w [|i [|j [|k r]]]]]]]]]]]]; cbn [idx nth_error obind List.length]; split; intros H; try reflexivity; try lia. discriminate H.
Qed.
Lemma row3_no_throw {A} num (c : list A) e : shape_row3 num c <> Throw e.
Proof. unfold shape_row3. destruct c as [|a [|b [|d [|e1 [|e2 [|x [|y [|z [|w [|i [|j [|k r]]]]]]]]]]]]; cbn [idx nth_error obind]; discriminate. Qed.
Lemma f2_iff {A B} (P Q : A -> B -> Prop) l r : (forall a b, P a b <-> Q a b) -> Forall2 P l r <-> Forall2 Q l r.
Proof. intros E. split; induction 1; constructor; try assumption; apply E; assumption. Qed.
Lemma load2_iff {A} num (rows : list (list A)) old r : load2 num rows old = Ok r <-> Forall2 (row_is2 num) rows r.
Proof. unfold load2. rewrite omap_ok_f2. apply f2_iff. intros a b. apply row2_iff. Qed.
Lemma load3_iff {A} num (rows : list (list A)) old r : load3 num rows old = Ok r <-> Forall2 (row_is3 num) rows r.
Proof. unfold load3. rewrite omap_ok_f2. apply f2_iff. intros a b. apply row3_iff. Qed.
Lemma load2_short {A} num (rows : list (list A)) old c : In c rows -> (List.length c < 6)%nat -> load2 num rows old = UB.
Proof. intros I L. apply (omap_ub _ rows c); [apply row2_no_throw|exact I|apply row2_short; exact L]. Qed.
Lemma load3_short {A} num (rows : list (list A)) old c : In c rows -> (List.length c < 12)%nat -> load3 num rows old = UB.
Proof. intros I L. apply (omap_ub _ rows c); [apply row3_no_throw|exact I|apply row3_short; exact L]. Qed.

(** ---- conversion ---- *)
Lemma normalize_dir w : w <> V3r 0 0 0 -> direction w (normalize w).
Proof.
  intros N. assert (P : 0 < dot3 w w).
  { unfold dot3. destruct w as [a b c]. cbn [x3 y3 z3]. pose proof (Rle_0_sqr a). pose proof (Rle_0_sqr b). pose proof (Rle_0_sqr c). unfold Rsqr in *.
    destruct (Rlt_dec 0 (a * a + b * b + c * c)) as [L|L]; [exact L|]. exfalso. apply N. assert (a * a = 0 /\ b * b = 0 /\ c * c = 0) as (Z1 & Z2 & Z3) by lra.
    assert (a = 0) by nra. assert (b = 0) by nra. assert (c = 0) by nra. subst. reflexivity. }
  unfold normalize. destruct (Rlt_dec 0 (dot3 w w)) as [_|L]; [|lra]. set (z := dot3 w w) in *. pose proof (sqrt_lt_R0 z P) as S. pose proof (sqrt_sqrt z ltac:(lra)) as SS.
  split.
  - assert (Z : x3 w * x3 w + y3 w * y3 w + z3 w * z3 w = z) by reflexivity. clearbody z. unfold dot3. cbn [x3 y3 z3]. set (k := sqrt z) in *. clearbody k.
    assert (E : x3 w / k * (x3 w / k) + y3 w / k * (y3 w / k) + z3 w / k * (z3 w / k) = (x3 w * x3 w + y3 w * y3 w + z3 w * z3 w) / (k * k)) by (field; lra).
    rewrite E, Z, SS. field. lra.
  - exists (sqrt z). split; [exact S|]. clearbody z. assert (K : forall c, c = sqrt z * (c / sqrt z)) by (intros c; field; lra). unfold scale3. cbn [x3 y3 z3]. rewrite <- !K. destruct w. reflexivity.
Qed.
Lemma angle_axis_unit t u : dot3 u u = 1 -> unit_quat (angle_axis t u).
Proof.
  unfold dot3, unit_quat, angle_axis. cbn [qw qx qy qz]. intros U. pose proof (sin2_cos2 (t / 2)) as SC. unfold Rsqr in SC.
  set (s := sin (t / 2)) in *. set (c := cos (t / 2)) in *. transitivity (c * c + s * s * (x3 u * x3 u + y3 u * y3 u + z3 u * z3 u)); [ring|]. rewrite U. lra.
Qed.
Lemma angle_axis_turned t u v : dot3 u u = 1 -> app3 (rotm (angle_axis t u)) v = turned u t v.
Proof.
  intros U. unfold dot3 in U. assert (C : cos t = 1 - 2 * sin (t / 2) * sin (t / 2)) by (replace t with (2 * (t / 2)) at 1 by field; apply cos_2a_sin).
  assert (S : sin t = 2 * sin (t / 2) * cos (t / 2)) by (replace t with (2 * (t / 2)) at 1 by field; apply sin_2a).
  unfold turned. rewrite C, S. unfold rotm, angle_axis, app3, add3, scale3, cross, dot3. cbn [qw qx qy qz x3 y3 z3 r0 r1 r2].
  set (s := sin (t / 2)). set (c := cos (t / 2)). destruct u as [a b d]. destruct v as [x y z]. cbn [x3 y3 z3] in *.
  assert (Z : d * d = 1 - a * a - b * b) by lra. f_equal; ring [Z].
Qed.
Lemma zero_axis_identity t : rotm (angle_axis t (normalize (V3r 0 0 0))) = id3.
Proof.
  assert (E : normalize (V3r 0 0 0) = V3r 0 0 0) by (unfold normalize, dot3; cbn [x3 y3 z3]; destruct (Rlt_dec 0 _) as [L|_]; [exfalso; lra|reflexivity]).
  rewrite E. unfold rotm, angle_axis, id3. cbn [qw qx qy qz x3 y3 z3]. f_equal; f_equal; ring.
Qed.
Lemma len12 {A} (o : list A) : List.length o = 12%nat -> exists a b d e1 e2 x y z u v w t, o = [a; b; d; e1; e2; x; y; z; u; v; w; t].
Proof. intros L. destruct o as [|a [|b [|d [|e1 [|e2 [|x [|y [|z [|u [|v [|w [|t [|k r]]]]]]]]]]]]]; try discriminate L. repeat eexists. Qed.
Lemma convert12 a b d e1 e2 x y z u v w t : convert_row [a; b; d; e1; e2; x; y; z; u; v; w; t] =
  let q := angle_axis t (normalize (V3r u v w)) in Ok [a; b; d; e1; e2; x; y; z; qw q; qx q; qy q; qz q].
Proof. reflexivity. Qed.
Lemma convert_other o : List.length o <> 12%nat -> o <> [] -> convert_row o = Ok o.
Proof. intros L N. unfold convert_row. destruct (Nat.eqb_spec (List.length o) 12); [contradiction|]. destruct o; [contradiction|reflexivity]. Qed.
Lemma convert_row_ok o : o <> [] -> exists o', convert_row o = Ok o'.
Proof.
  intros N. destruct (Nat.eq_dec (List.length o) 12) as [L|L]; [|exists o; apply convert_other; assumption].
  destruct (len12 o L) as (a & b & d & e1 & e2 & x & y & z & u & v & w & t & ->). rewrite convert12. eexists. reflexivity.
Qed.
Lemma convert_blank rows : In [] rows -> convert_model rows = Throw OutOfRange.
Proof.
  intros I. unfold convert_model. induction rows as [|o rows IH]; [destruct I|]. cbn [omap].
  destruct o as [|h o]; [reflexivity|]. destruct (convert_row_ok (h :: o)) as [o' E]; [discriminate|]. rewrite E. cbn [obind].
  destruct I as [I|I]; [discriminate I|]. rewrite (IH I). reflexivity.
Qed.

(** ---- digits ---- *)
Lemma near_prod a b a' b' e : 0 <= e <= 1 / 100000 -> -1 <= a <= 1 -> -1 <= b <= 1 -> - e <= a' - a <= e -> - e <= b' - b <= e ->
  - (21 / 1000000) <= a' * b' - a * b <= 21 / 1000000.
Proof. intros E A B P Q. replace (a' * b' - a * b) with (a * (b' - b) + b * (a' - a) + (a' - a) * (b' - b)) by ring. set (p := a' - a) in *. set (r := b' - b) in *. clearbody p r. split; nra. Qed.
Lemma unit_bounds q : unit_quat q -> (-1 <= qw q <= 1) /\ (-1 <= qx q <= 1) /\ (-1 <= qy q <= 1) /\ (-1 <= qz q <= 1).
Proof.
  unfold unit_quat. intros U. destruct q as [w x y z]. cbn [qw qx qy qz] in *. pose proof (Rle_0_sqr w). pose proof (Rle_0_sqr x). pose proof (Rle_0_sqr y). pose proof (Rle_0_sqr z). unfold Rsqr in *.
  repeat split; nra.
Qed.
Lemma six_near rt x : six_digits rt -> -1 <= x <= 1 -> - (1 / 100000) <= rt x - x <= 1 / 100000.
Proof.
  intros S B. specialize (S x). assert (Rabs x <= 1) by (unfold Rabs; destruct (Rcase_abs x); lra). unfold Rabs in S at 1. destruct (Rcase_abs (rt x - x)); lra.
Qed.
Lemma abs3 a b c d m : - m <= a <= m -> - m <= b <= m -> - m <= c <= m -> forall p q r, - d <= p <= d -> - d <= q <= d -> - d <= r <= d -> Rabs (p * a + q * b + r * c) <= 3 * d * m.
Proof.
  intros A B C p q r P Q0 R. assert (K : forall u v, - m <= u <= m -> - d <= v <= d -> Rabs (v * u) <= d * m).
  { intros u v U V. rewrite Rabs_mult. apply Rmult_le_compat; try apply Rabs_pos; unfold Rabs; [destruct (Rcase_abs v)|destruct (Rcase_abs u)]; lra. }
  pose proof (K a p A P) as k1. pose proof (K b q B Q0) as k2. pose proof (K c r C R) as k3.
  pose proof (Rabs_triang (p * a + q * b) (r * c)). pose proof (Rabs_triang (p * a) (q * b)). lra.
Qed.
Lemma rounded_turn rt q v m : six_digits rt -> unit_quat q -> Rabs (x3 v) <= m -> Rabs (y3 v) <= m -> Rabs (z3 v) <= m ->
  let d := sub3 (app3 (rotm (Q (rt (qw q)) (rt (qx q)) (rt (qy q)) (rt (qz q)))) v) (app3 (rotm q) v) in
  Rabs (x3 d) <= 3 / 10000 * m /\ Rabs (y3 d) <= 3 / 10000 * m /\ Rabs (z3 d) <= 3 / 10000 * m.
Proof.
  intros S U X Y Z. assert (BD : forall x, Rabs x <= m -> - m <= x <= m) by (intros x H; unfold Rabs in H; destruct (Rcase_abs x); lra).
  apply BD in X. apply BD in Y. apply BD in Z. destruct (unit_bounds q U) as (Bw & Bx & By & Bz).
  pose proof (six_near rt _ S Bw) as Nw. pose proof (six_near rt _ S Bx) as Nx. pose proof (six_near rt _ S By) as Ny. pose proof (six_near rt _ S Bz) as Nz.
  set (w := qw q) in *. set (x := qx q) in *. set (y := qy q) in *. set (z := qz q) in *.
  generalize dependent (rt w). generalize dependent (rt x). generalize dependent (rt y). generalize dependent (rt z). intros z' Nz y' Ny x' Nx w' Nw.
  assert (EP : 0 <= 1 / 100000 <= 1 / 100000) by lra.
  pose proof (near_prod x x x' x' _ EP Bx Bx Nx Nx) as Pxx. pose proof (near_prod y y y' y' _ EP By By Ny Ny) as Pyy. pose proof (near_prod z z z' z' _ EP Bz Bz Nz Nz) as Pzz.
  pose proof (near_prod x y x' y' _ EP Bx By Nx Ny) as Pxy. pose proof (near_prod x z x' z' _ EP Bx Bz Nx Nz) as Pxz. pose proof (near_prod y z y' z' _ EP By Bz Ny Nz) as Pyz.
  pose proof (near_prod x w x' w' _ EP Bx Bw Nx Nw) as Pxw. pose proof (near_prod y w y' w' _ EP By Bw Ny Nw) as Pyw. pose proof (near_prod z w z' w' _ EP Bz Bw Nz Nw) as Pzw.
  cbv zeta. unfold sub3, app3, dot3, rotm. cbn [x3 y3 z3 r0 r1 r2 qw qx qy qz]. fold w x y z.
  assert (T : forall p q0 r e, e = p * x3 v + q0 * y3 v + r * z3 v -> - (1 / 10000) <= p <= 1 / 10000 -> - (1 / 10000) <= q0 <= 1 / 10000 -> - (1 / 10000) <= r <= 1 / 10000 -> Rabs e <= 3 / 10000 * m).
  { intros p q0 r e -> P Q0 R. pose proof (abs3 (x3 v) (y3 v) (z3 v) (1 / 10000) m X Y Z p q0 r P Q0 R). lra. }
  split; [|split].
  - refine (T (- 2 * (y' * y' - y * y) - 2 * (z' * z' - z * z)) (2 * (x' * y' - x * y) - 2 * (z' * w' - z * w)) (2 * (x' * z' - x * z) + 2 * (y' * w' - y * w)) _ _ _ _ _); [ring|lra|lra|lra].
  - refine (T (2 * (x' * y' - x * y) + 2 * (z' * w' - z * w)) (- 2 * (x' * x' - x * x) - 2 * (z' * z' - z * z)) (2 * (y' * z' - y * z) - 2 * (x' * w' - x * w)) _ _ _ _ _); [ring|lra|lra|lra].
  - refine (T (2 * (x' * z' - x * z) - 2 * (y' * w' - y * w)) (2 * (y' * z' - y * z) + 2 * (x' * w' - x * w)) (- 2 * (x' * x' - x * x) - 2 * (y' * y' - y * y)) _ _ _ _ _); [ring|lra|lra|lra].
Qed.

(** ---- start and goal ---- *)
Lemma omap_at {A} (c : list A) n : (n <= List.length c)%nat -> omap (at_ c) (seq 0 n) = Ok (firstn n c).
Proof.
  intros L. assert (G : forall k i, (i + k <= List.length c)%nat -> omap (at_ c) (seq i k) = Ok (firstn k (skipn i c))).
  { induction k as [|k IH]; intros i H; [reflexivity|]. cbn [seq omap]. destruct (nth_error c i) as [a|] eqn:E; [|apply nth_error_None in E; lia].
    unfold at_ at 1. rewrite E. cbn [obind]. rewrite IH by lia. cbn [obind]. f_equal.
    assert (D : skipn i c = a :: skipn (S i) c). { clear - E. revert c E. induction i as [|i IH]; intros c E; destruct c as [|h c]; cbn [nth_error] in E; try discriminate E; [injection E as ->; reflexivity|]. exact (IH c E). }
    rewrite D. reflexivity. }
  rewrite G by lia. reflexivity.
Qed.
Lemma omap_at_short {A} (c : list A) n : (List.length c < n)%nat -> omap (at_ c) (seq 0 n) = Throw OutOfRange.
Proof.
  intros L. assert (G : forall k i, (i <= List.length c)%nat -> (List.length c < i + k)%nat -> omap (at_ c) (seq i k) = Throw OutOfRange).
  { induction k as [|k IH]; intros i H0 H.
    - lia.
    - cbn [seq omap]. unfold at_ at 1. destruct (nth_error c i) as [a|] eqn:E; [|reflexivity]. assert (i < List.length c)%nat by (apply nth_error_Some; rewrite E; discriminate). cbn [obind]. rewrite IH by lia. reflexivity. }
  apply G; lia.
Qed.
Lemma dof_ge s : (6 <= num_dof s)%nat.
Proof. unfold num_dof. destruct (String.eqb s "snake"); [lia|]. destruct (String.eqb s "tree"); lia. Qed.
Lemma goal_ok ty x y z u v w t js : (num_dof ty <= 6 + List.length js)%nat ->
  convert_goal3 ty ([x; y; z; u; v; w; t] ++ js) =
    let q := angle_axis t (normalize (V3r u v w)) in Ok ([x; y; z; qw q; qx q; qy q; qz q] ++ firstn (num_dof ty - 6) js).
Proof.
  intros L. pose proof (dof_ge ty) as D. unfold convert_goal3. cbn [app at_ nth_error obind]. cbv zeta. set (q := angle_axis t (normalize (V3r u v w))). clearbody q.
  unfold set_at. cbn [upd obind]. change (x :: y :: z :: qw q :: qx q :: qy q :: qz q :: js) with ([x; y; z; qw q; qx q; qy q; qz q] ++ js).
  rewrite omap_at by (rewrite app_length; cbn [List.length]; lia). rewrite firstn_app. cbn [List.length].
  replace (S (num_dof ty) - 7)%nat with (num_dof ty - 6)%nat by lia. rewrite (firstn_all2 [x; y; z; qw q; qx q; qy q; qz q]) by (cbn [List.length]; lia). reflexivity.
Qed.
Lemma goal_short ty c : (List.length c < S (num_dof ty))%nat -> convert_goal3 ty c = Throw OutOfRange.
Proof.
  intros L. destruct c as [|x [|y [|z [|u [|v [|w [|t js]]]]]]]; try reflexivity. unfold convert_goal3. cbn [at_ nth_error obind]. cbv zeta. set (q := angle_axis t (normalize (V3r u v w))). clearbody q.
  unfold set_at. cbn [upd obind]. apply omap_at_short. cbn [List.length] in *. lia.
Qed.

(** ---- start and goal ---- *)
Lemma omap_map_single {A B} (h : A -> outcome B) cs : (do rs <- omap (fun c => do r <- h c; Ok [r]) cs; Ok (List.concat rs))%outcome = omap h cs.
Proof.
  induction cs as [|c cs IH]; [reflexivity|]. cbn [omap]. destruct (h c) as [r| |]; cbn [obind]; try reflexivity.
  destruct (omap (fun c0 => do r0 <- h c0; Ok [r0])%outcome cs) as [rs| |]; cbn [obind] in *; rewrite <- IH; try reflexivity.
Qed.
Lemma angle_axis_orientation w t : orientation_of w t (angle_axis t (normalize w)).
Proof.
  split.
  - intros N. pose proof (normalize_dir w N) as D. pose proof (angle_axis_unit t _ (proj1 D)) as U. split; [exact U|]. exists (normalize w). split; [exact D|].
    intros v. rewrite (PGeom3.turn_rotm _ v U). exact (angle_axis_turned t _ v (proj1 D)).
  - intros -> v. rewrite zero_axis_identity. unfold app3, id3, dot3. destruct v as [p q r]. cbn [r0 r1 r2 x3 y3 z3]. f_equal; ring.
Qed.
Lemma dof_joints ty : (num_dof ty = 6 + joints_of ty)%nat.
Proof. unfold num_dof, joints_of. destruct (String.eqb ty "snake"); [reflexivity|destruct (String.eqb ty "tree"); reflexivity]. Qed.
Lemma goal3_spec ty c r : convert_goal3 ty c = Ok r -> goal_is3 (joints_of ty) c r.
Proof.
  intros H. destruct (Nat.lt_ge_cases (List.length c) (S (num_dof ty))) as [L|L]; [rewrite (goal_short ty c L) in H; discriminate H|]. rewrite dof_joints in L.
  destruct c as [|x [|y [|z [|u [|v [|w [|t js]]]]]]]; cbn [List.length] in L; try lia.
  change (x :: y :: z :: u :: v :: w :: t :: js) with ([x; y; z; u; v; w; t] ++ js) in *. rewrite goal_ok in H by (rewrite dof_joints; lia). cbv zeta in H.
  exists x, y, z, (V3r u v w), t, (angle_axis t (normalize (V3r u v w))), js. split; [reflexivity|]. split; [lia|]. split; [apply angle_axis_orientation|].
  rewrite dof_joints in H. replace (6 + joints_of ty - 6)%nat with (joints_of ty) in H by lia. injection H as <-. reflexivity.
Qed.
Lemma goals3_spec ty cs rs : convert_goals ty "3D" cs = Ok rs -> Forall2 (goal_is3 (joints_of ty)) cs rs.
Proof.
  intros H. unfold convert_goals in H. change (String.eqb "3D" "2D") with false in H. change (String.eqb "3D" "3D") with true in H. cbn iota in H. rewrite omap_map_single in H.
  apply omap_ok_f2 in H. induction H; constructor; [apply goal3_spec; assumption|assumption].
Qed.
Lemma goals3_ok ty cs : Forall (fun c => 7 + joints_of ty <= List.length c)%nat cs -> exists rs, convert_goals ty "3D" cs = Ok rs.
Proof.
  intros F. unfold convert_goals. change (String.eqb "3D" "2D") with false. change (String.eqb "3D" "3D") with true. cbn iota. rewrite omap_map_single.
  induction F as [|c cs L F [rs IH]]; [eexists; reflexivity|]. cbn [omap]. rewrite IH.
  destruct c as [|x [|y [|z [|u [|v [|w [|t js]]]]]]]; cbn [List.length] in L; try lia.
  change (x :: y :: z :: u :: v :: w :: t :: js) with ([x; y; z; u; v; w; t] ++ js). rewrite goal_ok by (rewrite dof_joints; lia). eexists. reflexivity.
Qed.
Lemma goals3_short ty cs c : In c cs -> (List.length c < 7 + joints_of ty)%nat -> convert_goals ty "3D" cs = Throw OutOfRange.
Proof.
  intros I L. unfold convert_goals. change (String.eqb "3D" "2D") with false. change (String.eqb "3D" "3D") with true. cbn iota. rewrite omap_map_single.
  assert (K : forall d, convert_goal3 ty d = Throw OutOfRange \/ exists r, convert_goal3 ty d = Ok r).
  { intros d. destruct (Nat.lt_ge_cases (List.length d) (S (num_dof ty))) as [M|M]; [left; apply goal_short; exact M|right]. rewrite dof_joints in M.
    destruct d as [|x [|y [|z [|u [|v [|w [|t js]]]]]]]; cbn [List.length] in M; try lia.
    change (x :: y :: z :: u :: v :: w :: t :: js) with ([x; y; z; u; v; w; t] ++ js). rewrite goal_ok by (rewrite dof_joints; lia). eexists. reflexivity. }
  induction cs as [|d cs IH]; [destruct I|]. cbn [omap]. destruct (K d) as [E|[r E]]; rewrite E; cbn [obind]; [reflexivity|].
  destruct I as [->|I]; [rewrite (goal_short ty c) in E by (rewrite dof_joints; lia); discriminate E|]. rewrite (IH I). reflexivity.
Qed.
Lemma goals2_iff ty cs rs : convert_goals ty "2D" cs = Ok rs <-> Forall2 goal_is2 cs rs.
Proof.
  unfold convert_goals. change (String.eqb "2D" "2D") with true. cbn iota.
  assert (E : omap (fun c : list R => (do x <- at_ c 0; do y <- at_ c 1; do t <- at_ c 2; Ok [[x; y; t]])%outcome) cs =
              omap (fun c => (do r <- (do x <- at_ c 0; do y <- at_ c 1; do t <- at_ c 2; Ok [x; y; t]); Ok [r])%outcome) cs).
  { clear rs. induction cs as [|c cs IH]; [reflexivity|]. cbn [omap]. rewrite IH. f_equal. destruct c as [|x [|y [|t r]]]; reflexivity. }
  rewrite E, omap_map_single, omap_ok_f2. apply f2_iff. intros c r. split.
  - intros H. destruct c as [|x [|y [|t l]]]; cbn [at_ nth_error obind] in H; try discriminate H. injection H as <-. exists x, y, t, l. split; reflexivity.
  - intros (x & y & t & l & -> & ->). reflexivity.
Qed.
