(** Distance, point in polyhedron, mesh, CSV. *)
From Coq Require Import List Bool Arith Lia ZArith Reals Lra Permutation Ascii.
From Flocq Require Import Core.Core IEEE754.BinarySingleNaN.
From Verif.Base Require Import Outcome Float64 FloatFacts.
From Verif.Model Require Import MScalar MDistance MPointInPoly MMesh MCsv.
From Verif.Spec Require Import SUtil.
From Verif.Proofs Require Import PTables PGraph PHRM2D.
Import ListNotations.
Local Open Scope outcome_scope.

(** -- mesh -- *)
Lemma perm_two {A B} (f g : A -> B) l : Permutation (map f l ++ map g l) (flat_map (fun x => [f x; g x]) l).
Proof.
  induction l as [|a l IH]; cbn [map flat_map app]; [constructor|]. constructor.
  rewrite <- Permutation_middle. constructor. exact IH.
Qed.
Lemma flat_map_flat_map {A B C} (f : A -> list B) (g : B -> list C) l : flat_map g (flat_map f l) = flat_map (fun a => flat_map g (f a)) l.
Proof. induction l as [|a l IH]; cbn [flat_map]; [reflexivity|]. rewrite flat_map_app, IH. reflexivity. Qed.
Lemma flat_map_map {A B C} (f : A -> B) (g : B -> list C) l : flat_map g (map f l) = flat_map (fun a => g (f a)) l.
Proof. induction l as [|a l IH]; cbn; [reflexivity|]. rewrite IH. reflexivity. Qed.
Lemma mesh_perm n fs : mesh_faces n = Ok fs ->
  Permutation fs (flat_map (cell_triangles n) (list_prod (seq 0 (n - 1)) (seq 0 (n - 1)))).
Proof.
  unfold mesh_faces. destruct (Nat.eqb n 0); intros H; [discriminate H|]. apply (f_equal (fun o => match o with Ok x => x | _ => [] end)) in H. subst fs.
  rewrite perm_two. unfold mesh_q. rewrite flat_map_flat_map.
  assert (G : forall l1 l2, Permutation (flat_map (fun a => flat_map (fun x => [(x, x + n, x + n + 1); (x, x + 1, x + n + 1)]) (map (fun j => a * n + j) l2)) l1)
    (flat_map (cell_triangles n) (list_prod l1 l2))).
  { intros l1 l2. induction l1 as [|a l1 IH]; cbn [flat_map list_prod]; [constructor|]. rewrite flat_map_app. apply Permutation_app; [|exact IH].
    rewrite !flat_map_map. assert (Q : forall j, [(a * n + j, a * n + j + n, a * n + j + n + 1); (a * n + j, a * n + j + 1, a * n + j + n + 1)] = cell_triangles n (a, j)).
    { intros j. unfold cell_triangles, grid. replace (a * n + j + n + 1) with ((a + 1) * n + (j + 1)) by lia.
      replace (a * n + j + n) with ((a + 1) * n + j) by lia. replace (a * n + j + 1) with (a * n + (j + 1)) by lia. reflexivity. }
    erewrite flat_map_ext; [reflexivity|]. exact Q. }
  apply G.
Qed.
Lemma mesh_q_len n : length (mesh_q n) = (n - 1) * (n - 1).
Proof.
  unfold mesh_q. assert (G : forall l, length (flat_map (fun i => map (fun j => i * n + j) (seq 0 (n - 1))) l) = length l * (n - 1)).
  { induction l as [|a l IH]; cbn [flat_map length]; [reflexivity|]. rewrite app_length, IH, map_length, seq_length. lia. }
  rewrite G, seq_length. reflexivity.
Qed.
Lemma mesh_len n fs : mesh_faces n = Ok fs -> length fs = 2 * ((n - 1) * (n - 1)).
Proof.
  unfold mesh_faces. destruct (Nat.eqb n 0); intros H; [discriminate H|]. apply (f_equal (fun o => match o with Ok x => x | _ => [] end)) in H. subst fs.
  rewrite app_length, !map_length, mesh_q_len. lia.
Qed.

(** -- CSV -- *)
Lemma split_nonnil sep t : split sep t <> [].
Proof. destruct t as [|c t]; cbn; [discriminate|]. destruct (Ascii.eqb c sep); [discriminate|]. destruct (split sep t); discriminate. Qed.
Definition prep (cur : list ascii) (ps : list (list ascii)) := match ps with p :: r => (cur ++ p) :: r | [] => [] end.
Lemma getlines_split sep t : forall cur, getlines sep cur t = drop_last_empty (prep cur (split sep t)).
Proof.
  induction t as [|c t IH]; intros cur; cbn [getlines split].
  - cbn. rewrite app_nil_r. destruct cur; reflexivity.
  - pose proof (split_nonnil sep t) as N. destruct (Ascii.eqb c sep).
    + rewrite IH. destruct (split sep t) as [|p r] eqn:K; [congruence|]. cbn [prep]. rewrite app_nil_r. cbn [app].
      destruct cur; reflexivity.
    + rewrite IH. destruct (split sep t) as [|p r]; [congruence|]. cbn [prep]. rewrite <- app_assoc. reflexivity.
Qed.
Lemma getlines_nil sep t : getlines sep [] t = drop_last_empty (split sep t).
Proof. rewrite getlines_split. destruct (split sep t) eqn:K; [exfalso; eapply split_nonnil; eauto|reflexivity]. Qed.

Section C.
Variable stof : list ascii -> stof_result.
Hypothesis stof_empty : stof [] = Invalid.
Definition values (fs : list (list ascii)) : list f64 :=
  flat_map (fun f => match stof f with Value x => [x] | _ => [] end) fs.
Lemma parse_fields_ok fs : (forall f, In f fs -> stof f <> Range) -> forall rec, parse_fields stof fs rec = Ok (rec ++ values fs).
Proof.
  induction fs as [|f fs IH]; intros H rec; cbn [parse_fields values flat_map]; [rewrite app_nil_r; reflexivity|].
  pose proof (H f (or_introl eq_refl)) as Hf. destruct (stof f); [| |congruence]; rewrite IH by (intros; apply H; right; auto); [rewrite <- app_assoc|]; reflexivity.
Qed.
Lemma parse_fields_range fs : (exists f, In f fs /\ stof f = Range) -> forall rec, parse_fields stof fs rec = Throw OutOfRange.
Proof.
  induction fs as [|f fs IH]; intros (g & Hg & R) rec; [destruct Hg|]. cbn [parse_fields]. destruct Hg as [->|Hg]; [rewrite R; reflexivity|].
  destruct (stof f); try (apply IH; eauto); reflexivity.
Qed.
Lemma values_drop fs : values (drop_last_empty fs) = values fs.
Proof.
  induction fs as [|f fs IH]; [reflexivity|]. destruct f as [|c f]; cbn [drop_last_empty].
  - destruct fs as [|g fs]; [cbn; rewrite stof_empty; reflexivity|]. unfold values in *. cbn [flat_map]. cbn [flat_map] in IH. rewrite <- IH. reflexivity.
  - unfold values in *. cbn [flat_map]. rewrite IH. reflexivity.
Qed.
Lemma in_drop fs f : In f (drop_last_empty fs) -> In f fs.
Proof.
  induction fs as [|g fs IH]; [auto|]. destruct g as [|c g]; cbn [drop_last_empty].
  - destruct fs as [|g fs]; [intros []|]. intros [<-|H]; [left; auto|right; auto].
  - intros [<-|H]; [left; auto|right; auto].
Qed.
Lemma in_drop_inv fs f : In f fs -> f <> [] -> In f (drop_last_empty fs).
Proof.
  induction fs as [|g fs IH]; [auto|]. intros [<-|H] N.
  - destruct g as [|c g]; [congruence|]. left. reflexivity.
  - destruct g as [|c g]; cbn [drop_last_empty]; [|right; auto]. destruct fs as [|g fs]; [destruct H|right; auto].
Qed.
Lemma line_ok l : (forall f, In f (line_fields l) -> stof f <> Range) -> parse_fields stof (getlines comma [] l) [] = Ok (values (line_fields l)).
Proof.
  intros H. rewrite getlines_nil. rewrite parse_fields_ok; [cbn [app]; rewrite values_drop; reflexivity|].
  intros f Hf. apply H. apply in_drop. exact Hf.
Qed.
Lemma line_range l : (exists f, In f (line_fields l) /\ stof f = Range) -> parse_fields stof (getlines comma [] l) [] = Throw OutOfRange.
Proof.
  intros (f & Hf & R). apply parse_fields_range. exists f. split; [|exact R]. rewrite getlines_nil. apply in_drop_inv; [exact Hf|].
  intros ->. rewrite stof_empty in R. discriminate R.
Qed.
Lemma parse_lines_ok ls : (forall l f, In l ls -> starts_with_hash l = false -> In f (line_fields l) -> stof f <> Range) ->
  forall d, parse_lines stof ls d = Ok (d ++ map (fun l => values (line_fields l)) (filter (fun l => negb (starts_with_hash l)) ls)).
Proof.
  induction ls as [|l ls IH]; intros H d; cbn [parse_lines filter map]; [rewrite app_nil_r; reflexivity|].
  change (is_comment l) with (starts_with_hash l). destruct (starts_with_hash l) eqn:K; cbn [negb].
  - apply IH. intros; eapply H; eauto; right; auto.
  - rewrite line_ok by (intros; eapply H; eauto; left; auto). cbn [obind]. rewrite IH by (intros; eapply H; eauto; right; auto).
    rewrite <- app_assoc. reflexivity.
Qed.
Definition field_dec f : {stof f = Range} + {stof f <> Range}.
Proof. destruct (stof f); [right|right|left]; congruence. Defined.
Lemma parse_lines_range ls : (exists l f, In l ls /\ starts_with_hash l = false /\ In f (line_fields l) /\ stof f = Range) ->
  forall d, parse_lines stof ls d = Throw OutOfRange.
Proof.
  induction ls as [|l ls IH]; intros (l' & f & Hl & Hc & Hf & R) d; [destruct Hl|]. cbn [parse_lines].
  change (is_comment l) with (starts_with_hash l). destruct Hl as [->|Hl].
  - rewrite Hc, line_range by eauto. reflexivity.
  - destruct (starts_with_hash l); [apply IH; eauto 10|].
    destruct (Exists_dec (fun f => stof f = Range) (line_fields l) field_dec) as [X|X].
    + rewrite line_range; [reflexivity|]. apply Exists_exists in X. exact X.
    + rewrite line_ok; [cbn [obind]; apply IH; eauto 10|]. intros g Hg Rg. apply X, Exists_exists. eauto.
Qed.
End C.

(** -- distance -- *)
Lemma vdiff_ok S v w : length v <= length w -> exists d, vdiff S v w = Ok d.
Proof.
  revert w. induction v as [|x v IH]; intros [|y w] L; cbn [length vdiff] in *; try lia; [eauto..|].
  destruct (IH w ltac:(lia)) as (d & ->). cbn [obind]. eauto.
Qed.
Lemma vdiff_UB S v w : length w < length v -> vdiff S v w = UB.
Proof.
  revert w. induction v as [|x v IH]; intros [|y w] L; cbn [length vdiff] in *; try lia; [reflexivity|]. rewrite IH by lia. reflexivity.
Qed.
Local Open Scope R_scope.
Lemma vec_euclid_XR a b : (length a <= length b)%nat -> vec_euclid XR (map Some a) (map Some b) = Ok (Some (sqrt (sq_dist a b))).
Proof.
  intros L. unfold vec_euclid.
  assert (G : forall a b, (length a <= length b)%nat -> exists d, vdiff XR (map Some a) (map Some b) = Ok (map Some d) /\
    forall acc, fold_left (fun acc x => sadd XR acc (smul XR x x)) (map Some d) (Some acc) = Some (acc + sq_dist a b)).
  { clear. induction a as [|x a IH]; intros [|y b] L; cbn [length] in L; try lia.
    - exists []. split; [reflexivity|]. intros acc. cbn. f_equal. lra.
    - exists []. split; [reflexivity|]. intros acc. cbn. f_equal. lra.
    - destruct (IH b ltac:(lia)) as (d & E & F). exists (x - y :: d). cbn [map vdiff]. rewrite E. split; [reflexivity|].
      intros acc. cbn [map fold_left]. etransitivity; [apply F|]. cbn [sq_dist]. f_equal. ring. }
  destruct (G a b L) as (d & -> & F). cbn [obind]. unfold sumsq. change (sofZ XR 0) with (Some 0). rewrite F. cbn [ssqrt XR xsqrt].
  assert (P : forall a b, 0 <= sq_dist a b). { clear. induction a as [|x a IH]; intros [|y b]; cbn; try lra. pose proof (Rle_0_sqr (x - y)) as Q. unfold Rsqr in Q. pose proof (IH b). lra. }
  destruct (Rlt_dec (0 + sq_dist a b) 0) as [H|H]; [pose proof (P a b); lra|]. do 3 f_equal. ring.
Qed.
Lemma sq_dist_pos a b : 0 <= sq_dist a b.
Proof. revert b. induction a as [|x a IH]; intros [|y b]; cbn; try lra. pose proof (Rle_0_sqr (x - y)) as Q. unfold Rsqr in Q. pose proof (IH b). lra. Qed.
Lemma sq_dist_sym a b : sq_dist a b = sq_dist b a.
Proof. revert b. induction a as [|x a IH]; intros [|y b]; cbn; try lra. rewrite IH. ring. Qed.
Lemma sq_dist_0 a b : length a = length b -> (sq_dist a b = 0 <-> a = b).
Proof.
  intros L. split; [|intros <-; clear; induction a as [|x a IH]; cbn; [reflexivity|rewrite IH; ring]].
  revert b L. induction a as [|x a IH]; intros [|y b] L; cbn [length] in L; try lia; [reflexivity|]. cbn [sq_dist]. intros H.
  pose proof (Rle_0_sqr (x - y)) as Q. pose proof (sq_dist_pos a b) as P. assert (Z : Rsqr (x - y) = 0) by (unfold Rsqr in *; lra).
  apply Rsqr_0_uniq in Z. f_equal; [lra|]. apply IH; [lia|]. unfold Rsqr in Q. nra.
Qed.
Lemma sqrt_triangle1 p q A B : 0 <= A -> 0 <= B -> sqrt ((p + q) * (p + q) + (sqrt A + sqrt B) * (sqrt A + sqrt B)) <= sqrt (p * p + A) + sqrt (q * q + B).
Proof.
  intros HA HB. pose proof (sqrt_pos A) as a0. pose proof (sqrt_pos B) as b0. pose proof (sqrt_sqrt A HA) as a2. pose proof (sqrt_sqrt B HB) as b2.
  set (a := sqrt A) in *. set (b := sqrt B) in *. clearbody a b. subst A B.
  assert (PU : 0 <= p * p + a * a) by nra. assert (PV : 0 <= q * q + b * b) by nra.
  pose proof (sqrt_pos (p * p + a * a)) as u0. pose proof (sqrt_pos (q * q + b * b)) as v0.
  pose proof (sqrt_sqrt _ PU) as u2. pose proof (sqrt_sqrt _ PV) as v2.
  set (u := sqrt (p * p + a * a)) in *. set (v := sqrt (q * q + b * b)) in *.
  rewrite <- (sqrt_square (u + v)) by lra. apply sqrt_le_1_alt.
  assert (C : p * q + a * b <= u * v).
  { apply Rsqr_incr_0_var; [|nra]. unfold Rsqr. replace (u * v * (u * v)) with ((u * u) * (v * v)) by ring. rewrite u2, v2.
    pose proof (Rle_0_sqr (p * b - a * q)) as Z. unfold Rsqr in Z. nra. }
  nra.
Qed.
Lemma triangle a b c : length a = length b -> length b = length c -> sqrt (sq_dist a c) <= sqrt (sq_dist a b) + sqrt (sq_dist b c).
Proof.
  revert b c. induction a as [|x a IH]; intros [|y b] [|z c] L1 L2; cbn [length] in *; try lia.
  - cbn. rewrite sqrt_0. lra.
  - cbn [sq_dist]. eapply Rle_trans; [|apply (sqrt_triangle1 (x - y) (y - z)); apply sq_dist_pos].
    apply sqrt_le_1_alt. replace (x - y + (y - z)) with (x - z) by ring.
    pose proof (IH b c ltac:(lia) ltac:(lia)) as T. pose proof (sqrt_pos (sq_dist a c)) as P0. pose proof (sqrt_sqrt _ (sq_dist_pos a c)) as P1. nra.
Qed.

(** Bit-exact symmetry. *)
Lemma fmul_abs z : fmul z z = fmul (Babs z) (Babs z).
Proof.
  destruct z as [s|s| |s m e H]; try (destruct s; reflexivity); [reflexivity|].
  apply B2SF_inj. unfold fmul, Babs, Bmult. rewrite !B2SF_SF2B. destruct s; reflexivity.
Qed.
Lemma fsub_abs x y : Babs (fsub x y) = Babs (fsub y x).
Proof.
  destruct (is_finite x) eqn:Fx; destruct (is_finite y) eqn:Fy.
  - pose proof (Bminus_correct 53 1024 _ _ mode_NE x y Fx Fy) as C1. pose proof (Bminus_correct 53 1024 _ _ mode_NE y x Fy Fx) as C2.
    assert (E : round radix2 (SpecFloat.fexp 53 1024) (round_mode mode_NE) (B2R y - B2R x) = - round radix2 (SpecFloat.fexp 53 1024) (round_mode mode_NE) (B2R x - B2R y)).
    { replace (B2R y - B2R x) with (- (B2R x - B2R y)) by ring. apply round_NE_opp. }
    rewrite E, Rabs_Ropp in C2.
    destruct (Rlt_bool (Rabs (round radix2 (SpecFloat.fexp 53 1024) (round_mode mode_NE) (B2R x - B2R y))) (bpow radix2 1024)).
    + destruct C1 as (V1 & F1 & _). destruct C2 as (V2 & F2 & _). apply B2R_Bsign_inj; rewrite ?is_finite_Babs, ?B2R_Babs; auto.
      * unfold fsub. rewrite V1, V2, Rabs_Ropp. reflexivity.
      * assert (N : forall z : f64, is_finite z = true -> Bsign (Babs z) = false) by (intros [?|?| |? ? ? ?] Z; try discriminate Z; reflexivity).
        rewrite (N (fsub x y)), (N (fsub y x)); [reflexivity|exact F2|exact F1].
    + destruct C1 as (V1 & _). destruct C2 as (V2 & _). unfold fsub.
      assert (G : forall z s, B2SF (z : f64) = binary_overflow 53 1024 mode_NE s -> Babs z = B754_infinity false).
      { intros z s Hz. destruct z; cbn in Hz; try discriminate Hz. reflexivity. }
      rewrite (G _ _ V1), (G _ _ V2). reflexivity.
  - destruct x as [?|?| |?]; try discriminate Fx; destruct y as [?|[]| |?]; try discriminate Fy; reflexivity.
  - destruct x as [?|[]| |?]; try discriminate Fx; destruct y as [?|[]| |?]; try discriminate Fy; reflexivity.
  - destruct x as [?|[]| |?]; try discriminate Fx; destruct y as [?|[]| |?]; try discriminate Fy; reflexivity.
Qed.
Lemma vec_euclid_sym64 a b : length a = length b -> vec_euclid F64 a b = vec_euclid F64 b a.
Proof.
  intros L. unfold vec_euclid, sumsq.
  assert (G : forall a b : list f64, length a = length b -> forall acc, exists d d', vdiff F64 a b = Ok d /\ vdiff F64 b a = Ok d' /\
    fold_left (fun acc x => fadd acc (fmul x x)) d acc = fold_left (fun acc x => fadd acc (fmul x x)) d' acc).
  { clear. induction a as [|x a IH]; intros [|y b] L acc; cbn [length] in L; try lia; [exists [], []; auto|].
    destruct (IH b ltac:(lia) (fadd acc (fmul (fsub x y) (fsub x y)))) as (d & d' & E1 & E2 & F).
    exists (fsub x y :: d), (fsub y x :: d'). cbn [vdiff]. rewrite E1, E2. split; [reflexivity|]. split; [reflexivity|].
    cbn [fold_left]. rewrite F. rewrite (fmul_abs (fsub y x)), <- fsub_abs, <- fmul_abs. reflexivity. }
  destruct (G a b L (fofZ 0)) as (d & d' & -> & -> & F). cbn [obind]. do 2 f_equal. exact F.
Qed.

(** -- point in polyhedron -- *)
Lemma row_dot_XR m r x y z : length m = 16%nat -> (r < 4)%nat ->
  row_dot XR (map Some m) r (Some x) (Some y) (Some z) = Ok (Some (bary m (x, y, z) r)).
Proof.
  intros L Hr. do 16 (destruct m as [|? m]; [discriminate L|]). destruct m; [|discriminate L].
  destruct r as [|[|[|[|r]]]]; try lia; cbn [row_dot]; unfold row_dot, idx, bary, sum4, entry, vcoord; cbn; do 2 f_equal; ring.
Qed.
Definition all01 m p : Prop := forall r, (r < 4)%nat -> 0 <= bary m p r <= 1.
Lemma in_simplex_XR m x y z : length m = 16%nat -> exists b, in_simplex XR (map Some m) (Some x) (Some y) (Some z) = Ok b /\ (b = true <-> all01 m (x, y, z)).
Proof.
  intros L. unfold in_simplex. rewrite !row_dot_XR by (auto; lia). cbn [obind]. eexists. split; [reflexivity|].
  cbn [forallb sleb sofZ XR xcmp]. unfold Rleb, all01.
  split.
  - intros H. rewrite !andb_true_iff in H. destruct H as ((A1 & A2) & (B1 & B2) & (C1 & C2) & (D1 & D2) & _).
    intros r Hr. destruct r as [|[|[|[|r]]]]; try lia;
      repeat match goal with H : (if Rle_dec ?a ?b then true else false) = true |- _ => destruct (Rle_dec a b); [clear H|discriminate H] end; lra.
  - intros H. pose proof (H 0%nat ltac:(lia)). pose proof (H 1%nat ltac:(lia)). pose proof (H 2%nat ltac:(lia)). pose proof (H 3%nat ltac:(lia)).
    rewrite !andb_true_iff. repeat split; auto; destruct (Rle_dec _ _); auto; lra.
Qed.
Lemma any_simplex_XR ms x y z : Forall (fun m => length m = 16%nat) ms ->
  exists b, any_simplex XR (map (map Some) ms) (Some x) (Some y) (Some z) = Ok b /\ (b = true <-> exists m, In m ms /\ all01 m (x, y, z)).
Proof.
  induction 1 as [|m ms Hm _ (b & E & IH)]; cbn [map any_simplex].
  - exists false. split; [reflexivity|]. split; [intros H; discriminate H|intros (m & [] & _)].
  - destruct (in_simplex_XR m x y z Hm) as (b1 & -> & H1). cbn [obind]. destruct b1.
    + exists true. split; [reflexivity|]. split; [|auto]. intros _. exists m. split; [left; auto|]. apply H1. reflexivity.
    + exists b. split; [exact E|]. rewrite IH. split; [intros (m' & I & A); exists m'; split; [right; auto|auto]|].
      intros (m' & [<-|I] & A); [apply H1 in A; discriminate A|eauto].
Qed.
Lemma kron_eq r c : kron r c = if Nat.eqb r c then 1 else 0. Proof. reflexivity. Qed.
Lemma all01_hull m vs p : is_inverse_of_vertices m vs -> (all01 m p <-> in_hull vs p).
Proof.
  intros [I1 I2]. split.
  - intros A. exists (bary m p). split; [intros k Hk; apply A; auto|]. split.
    + pose proof (fun c => I2 3%nat c ltac:(lia)) as J. pose proof (J 0%nat ltac:(lia)) as J0. pose proof (J 1%nat ltac:(lia)) as J1. pose proof (J 2%nat ltac:(lia)) as J2. pose proof (J 3%nat ltac:(lia)) as J3.
      cbn [vcoord] in *. unfold bary, sum4, kron in *. cbn [Nat.eqb] in *.
      transitivity ((1 * entry m 0 0 + 1 * entry m 1 0 + 1 * entry m 2 0 + 1 * entry m 3 0) * vcoord p 0 + (1 * entry m 0 1 + 1 * entry m 1 1 + 1 * entry m 2 1 + 1 * entry m 3 1) * vcoord p 1 +
        (1 * entry m 0 2 + 1 * entry m 1 2 + 1 * entry m 2 2 + 1 * entry m 3 2) * vcoord p 2 + (1 * entry m 0 3 + 1 * entry m 1 3 + 1 * entry m 2 3 + 1 * entry m 3 3) * vcoord p 3); [ring|].
      rewrite J0, J1, J2, J3. cbn [vcoord]. ring.
    + intros r Hr. pose proof (fun c => I2 r c ltac:(lia)) as J. pose proof (J 0%nat ltac:(lia)) as J0. pose proof (J 1%nat ltac:(lia)) as J1. pose proof (J 2%nat ltac:(lia)) as J2. pose proof (J 3%nat ltac:(lia)) as J3.
      unfold bary, sum4 in *. set (V k := vcoord (vs k) r) in *. fold (V 0%nat) (V 1%nat) (V 2%nat) (V 3%nat) in *.
      symmetry. transitivity ((V 0%nat * entry m 0 0 + V 1%nat * entry m 1 0 + V 2%nat * entry m 2 0 + V 3%nat * entry m 3 0) * vcoord p 0 + (V 0%nat * entry m 0 1 + V 1%nat * entry m 1 1 + V 2%nat * entry m 2 1 + V 3%nat * entry m 3 1) * vcoord p 1 +
        (V 0%nat * entry m 0 2 + V 1%nat * entry m 1 2 + V 2%nat * entry m 2 2 + V 3%nat * entry m 3 2) * vcoord p 2 + (V 0%nat * entry m 0 3 + V 1%nat * entry m 1 3 + V 2%nat * entry m 2 3 + V 3%nat * entry m 3 3) * vcoord p 3); [unfold V; ring|].
      unfold V in *. rewrite J0, J1, J2, J3. unfold kron. destruct r as [|[|[|r]]]; try lia; cbn [Nat.eqb]; ring.
  - intros (w & W0 & W1 & Wp) r Hr. unfold all01.
    assert (E : bary m p r = w r).
    { pose proof (I1 r 0%nat Hr ltac:(lia)) as J0. pose proof (I1 r 1%nat Hr ltac:(lia)) as J1. pose proof (I1 r 2%nat Hr ltac:(lia)) as J2. pose proof (I1 r 3%nat Hr ltac:(lia)) as J3.
      unfold bary, sum4 in *. rewrite (Wp 0%nat), (Wp 1%nat), (Wp 2%nat) by lia. replace (vcoord p 3) with (w 0%nat * 1 + w 1%nat * 1 + w 2%nat * 1 + w 3%nat * 1) by (cbn [vcoord]; lra).
      unfold sum4. change 1 with (vcoord (vs 0%nat) 3) at 1. change 1 with (vcoord (vs 1%nat) 3) at 1. change 1 with (vcoord (vs 2%nat) 3) at 1. change 1 with (vcoord (vs 3%nat) 3) at 1.
      transitivity (w 0%nat * kron r 0 + w 1%nat * kron r 1 + w 2%nat * kron r 2 + w 3%nat * kron r 3); [rewrite <- J0, <- J1, <- J2, <- J3; ring|].
      unfold kron. destruct r as [|[|[|[|r]]]]; try lia; cbn [Nat.eqb]; ring. }
    rewrite E. unfold sum4 in W1. pose proof (W0 0%nat ltac:(lia)). pose proof (W0 1%nat ltac:(lia)). pose proof (W0 2%nat ltac:(lia)). pose proof (W0 3%nat ltac:(lia)).
    destruct r as [|[|[|[|r]]]]; try lia; lra.
Qed.
