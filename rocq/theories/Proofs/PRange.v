(** Proofs: the coordinates of planar roadmaps stay next to the workspace. *)
From Coq Require Import List Reals ZArith Arith Bool Lia Lra.
From Flocq Require Import Core.Core.
From Verif.Base Require Import Outcome Float64 FloatFacts.
From Verif.Model Require Import MScalar MInterval MFreeSpace MLine2D MGraph MSearch MHRM2D.
From Verif.Spec Require Import SInterval SFreeSpace SLine2D SPlanner2D SCover SGraph SSearch SClear SHline.
From Verif.Proofs Require Import PInterval PPlan2D PPlan2DX PPlan2DY PSampling PFreeSpace PLine2D PHline PHlineX PClear.
Import ListNotations.
Local Open Scope R_scope.
Local Opaque fval fofZ.

Lemma rnd_up x : 0 <= x -> rnd64 x <= x * (1 + bpow radix2 (-53)) + bpow radix2 (-1075).
Proof.
  intros H. destruct (rnd_err x) as (e & n & He & Hn & ->). apply Rabs_le_inv in He, Hn.
  assert (x * e <= x * bpow radix2 (-53)) by (apply Rmult_le_compat_l; lra). lra.
Qed.

(** The last sweep line is at most a rounding above the upper limit. *)
Lemma sweep_range k l2 l3 L : (2 <= k)%nat -> (Z.of_nat k <= 2 ^ 53)%Z -> limit_ok l2 -> limit_ok l3 -> fval l2 <= fval l3 ->
  Rabs (fval l2) <= L -> Rabs (fval l3) <= L ->
  forall y, In y (sweep_heights k l2 l3) -> fisfin y = true /\
    fval l2 <= fval y <= fval l3 + (bpow radix2 (-49) * L + bpow radix2 (-1020)).
Proof.
  intros H1 H2 [F2 B2] [F3 B3] Le L2 L3 y Hy. destruct (sweep_spec k l2 l3 H1 H2 F2 F3 B2 B3 Le) as (d & Ed & D0 & Hs).
  apply In_nth_error in Hy. destruct Hy as (i & Hi). destruct (Hs i y Hi) as [Fy Vy]. split; [exact Fy|].
  assert (Ik : (i < k)%nat).
  { assert (X : nth_error (sweep_heights k l2 l3) i <> None) by (rewrite Hi; discriminate). apply nth_error_Some in X.
    unfold sweep_heights in X. rewrite map_length, seq_length in X. exact X. }
  assert (Kn : INR k <= bpow radix2 53).
  { rewrite INR_IZR_INZ. change (bpow radix2 53) with (IZR (2 ^ 53)). apply IZR_le. exact H2. }
  assert (Kn1 : 1 <= INR k - 1) by (apply le_INR in H1; cbn [INR] in H1; lra).
  assert (Ii : 0 <= INR i <= INR k - 1).
  { split; [apply pos_INR|]. assert (S i <= k)%nat as X by lia. apply le_INR in X. rewrite S_INR in X. lra. }
  assert (Id0 : 0 <= INR i * d) by (apply Rmult_le_pos; [lra|exact D0]).
  assert (Rd0 : 0 <= rnd64 (INR i * d)).
  { rewrite <- PHline.rnd64_0. apply round_le; [apply FLT_exp_valid; reflexivity|apply valid_rnd_N|exact Id0]. }
  clear B2 B3 Hs Hi. rewrite Vy. split.
  { rewrite <- (rnd64_fval l2 F2) at 1. apply round_le; [apply FLT_exp_valid; reflexivity|apply valid_rnd_N|lra]. }
  apply Rabs_le_inv in L2, L3. set (u := bpow radix2 (-53)). set (n := bpow radix2 (-1075)).
  assert (U0 : 0 < u <= / 1000) by (split; [apply bpow_gt_0|exact uu_small]).
  assert (N0 : 0 < n) by apply bpow_gt_0.
  set (w := fval l3 - fval l2). assert (W0 : 0 <= w <= 2 * L) by (unfold w; lra).
  pose proof (rnd_up w (proj1 W0)) as R1. fold u n w in R1, Ed. set (w1 := rnd64 w) in *.
  assert (W1 : 0 <= w1).
  { unfold w1. rewrite <- PHline.rnd64_0. apply round_le; [apply FLT_exp_valid; reflexivity|apply valid_rnd_N|lra]. }
  assert (Q0 : 0 <= w1 / (INR k - 1)) by (apply Rmult_le_pos; [exact W1|left; apply Rinv_0_lt_compat; lra]).
  pose proof (rnd_up _ Q0) as R2. fold u n in R2. rewrite <- Ed in R2.
  assert (R3 : INR i * d <= w1 * (1 + u) + n * bpow radix2 53).
  { apply Rle_trans with ((INR k - 1) * d); [apply Rmult_le_compat_r; lra|].
    apply Rle_trans with ((INR k - 1) * (w1 / (INR k - 1) * (1 + u) + n)); [apply Rmult_le_compat_l; lra|].
    replace ((INR k - 1) * (w1 / (INR k - 1) * (1 + u) + n)) with (w1 * (1 + u) + n * (INR k - 1)) by (field; lra).
    apply Rplus_le_compat_l. apply Rmult_le_compat_l; lra. }
  pose proof (rnd_up _ Id0) as R4. fold u n in R4. set (z := rnd64 (INR i * d)) in *.
  destruct (rnd_err (fval l2 + z)) as (e & m & He & Hm & ->). fold u in He. fold n in Hm. apply Rabs_le_inv in He, Hm.
  assert (LL : 0 <= L) by lra.
  assert (HN : n * bpow radix2 53 = bpow radix2 (-1022)) by (unfold n; rewrite <- bpow_plus; reflexivity). rewrite HN in R3.
  set (t := bpow radix2 (-1022)) in *. assert (T0 : 0 < t) by apply bpow_gt_0.
  assert (NT : n <= t / 1000).
  { rewrite <- HN. assert (1000 <= bpow radix2 53) by (change (bpow radix2 53) with (IZR (2 ^ 53)); apply IZR_le; lia). nra. }
  assert (HT : bpow radix2 (-1020) = 4 * t) by (unfold t; change (-1020)%Z with (2 + -1022)%Z; rewrite bpow_plus; reflexivity).
  assert (HU : bpow radix2 (-49) = 16 * u) by (unfold u; change (-49)%Z with (4 + -53)%Z; rewrite bpow_plus; reflexivity).
  rewrite HT, HU.
  assert (V1 : w1 <= w + 2 * L * u + n) by nra.
  assert (UL : 0 <= u * L) by (apply Rmult_le_pos; lra).
  assert (UUL : u * (u * L) <= u * L / 1000) by nra.
  assert (UN : 0 <= u * n <= n / 1000) by nra.
  assert (UT : 0 <= u * t <= t / 1000) by nra.
  assert (V2 : w1 * (1 + u) <= w + (401 / 100) * (u * L) + 2 * n).
  { assert (w1 * u <= (w + 2 * L * u + n) * u) by (apply Rmult_le_compat_r; lra).
    assert (w * u <= 2 * L * u) by (apply Rmult_le_compat_r; lra). lra. }
  assert (V3 : INR i * d <= w + (401 / 100) * (u * L) + 2 * n + t) by lra.
  assert (V4 : z <= w + (602 / 100) * (u * L) + 3 * n + 2 * t).
  { assert (INR i * d * u <= (w + (401 / 100) * (u * L) + 2 * n + t) * u) by (apply Rmult_le_compat_r; lra).
    assert (w * u <= 2 * L * u) by (apply Rmult_le_compat_r; lra). lra. }
  assert (Zb : Rabs (fval l2 + z) <= 4 * L + 3 * n + 2 * t) by (apply Rabs_le; nra).
  assert (V5 : (fval l2 + z) * e <= (4 * L + 3 * n + 2 * t) * u).
  { apply Rle_trans with (Rabs ((fval l2 + z) * e)); [apply Rle_abs|]. rewrite Rabs_mult.
    apply Rmult_le_compat; [apply Rabs_pos|apply Rabs_pos|exact Zb|apply Rabs_le; lra]. }
  assert (V6 : fval l2 + z <= fval l3 + (602 / 100) * (u * L) + 3 * n + 2 * t) by (unfold w in V4; lra).
  replace ((fval l2 + z) * (1 + e)) with (fval l2 + z + (fval l2 + z) * e) by ring. lra.
Qed.

(** A crossing with a polygon is next to the polygon. *)
Lemma crossing_reach (ty : f64) (P : list (f64 * f64)) (M : R) hits h : moderate ty -> moderate_poly P -> reach P M ->
  hline_polygon F64 ty P = Ok hits -> In h hits -> fisfin h = true /\ Rabs (fval h) <= M + hit_error M.
Proof.
  intros Mt MP Rc H Hh. assert (Ne : P <> []) by (intros ->; discriminate H).
  destruct (hits_geometric ty P M Ne Mt MP Rc) as (hits' & H' & _ & G & _).
  assert (hits' = hits) as -> by (apply ok_eq_; rewrite <- H'; exact H).
  destruct (G h Hh) as (F & x & a & b & E & _ & (t & T & Ex & _) & B). split; [exact F|].
  apply is_edge_in in E. destruct E as [Ea Eb]. cbn [fst] in Ex.
  assert (Q : forall p : rpoint, In p (real_poly P) -> Rabs (fst p) <= M).
  { intros p Hp. unfold real_poly in Hp. apply in_map_iff in Hp. destruct Hp as (q & <- & Hq). exact (Rc q Hq). }
  apply Q in Ea, Eb. apply Rabs_le_inv in Ea, Eb.
  assert (X : Rabs x <= M) by (rewrite Ex; apply Rabs_le; nra).
  pose proof (Rabs_triang (fval h - x) x) as Tr. replace (fval h - x + x) with (fval h) in Tr by ring. lra.
Qed.

Lemma arena_pair_reach low upp hits (M : R) x : fisnan low = false -> fisnan upp = false -> Rabs (fval low) <= M -> Rabs (fval upp) <= M ->
  (forall h, In h hits -> fisnan h = false /\ Rabs (fval h) <= M) ->
  fval (fst (arena_pair low upp hits)) <= x <= fval (snd (arena_pair low upp hits)) -> Rabs x <= M.
Proof.
  intros Nl Nu Bl Bu H. apply Rabs_le_inv in Bl, Bu. destruct hits as [|h0 [|h1 rest]]; cbn [arena_pair fst snd]; intros X; try (apply Rabs_le; lra).
  destruct (H h0 (or_introl eq_refl)) as [N0 B0]. destruct (H h1 (or_intror (or_introl eq_refl))) as [N1 B1].
  assert (M0 : fisnan (ffmin h0 h1) = false) by (rewrite ffmin_nan, N0, N1; reflexivity).
  assert (M1 : fisnan (ffmax h0 h1) = false) by (rewrite ffmax_nan, N0, N1; reflexivity).
  rewrite !ffmin_val, !ffmax_val in X by assumption. apply Rabs_le_inv in B0, B1. apply Rabs_le.
  revert X. unfold Rmin, Rmax. repeat destruct (Rle_dec _ _); lra.
Qed.

Lemma hit_error_up M N : M <= N -> hit_error M <= hit_error N.
Proof. Local Transparent hit_error. unfold hit_error. pose proof (bpow_gt_0 radix2 (-49)). nra. Qed.

Lemma planar_range (E : env) robot fsr nx ny s0 s l0 l1 l2 l3 M L :
  conforming (e_sort E) -> e_limits E = [l0; l1; l2; l3] -> (2 <= ny)%nat -> (Z.of_nat ny <= 2 ^ 53)%Z ->
  limit_ok l0 -> limit_ok l1 -> limit_ok l2 -> limit_ok l3 -> fval l2 <= fval l3 ->
  let B := e_mink E fsr in
  (forall P, In P (barena B) -> moderate_poly P /\ reach P M) ->
  Rabs (fval l0) <= M -> Rabs (fval l1) <= M -> Rabs (fval l2) <= L -> Rabs (fval l3) <= L ->
  construct E robot fsr nx ny (length (barena B)) (length (bobstacle B)) = Ok s0 -> planned E s0 s ->
  forall v, In v (gvert (p_graph s)) -> exists x y h, v = [x; y; h] /\ fisnan x = false /\ fisfin y = true /\
    Rabs (fval x) <= M + hit_error M /\ fval l2 <= fval y <= fval l3 + (bpow radix2 (-49) * L + bpow radix2 (-1020)).
Proof.
  intros Hs Lm N1 N2 [F0 B0] [F1 B1] K2 K3 L23 B MP M0 M1 L2 L3 C Pl v Hv.
  pose proof (sweep_range ny l2 l3 L N1 N2 K2 K3 L23 L2 L3) as SR. destruct K2 as [F2 B2]. destruct K3 as [F3 B3].
  pose proof (sweep_moderate ny l2 l3 N1 N2 F2 F3 B2 B3 L23) as MY.
  assert (Up : forall r, r <= bpow radix2 898 -> r <= bpow radix2 1022).
  { intros r Hr. apply Rle_trans with (bpow radix2 898); [exact Hr|apply bpow_le; lia]. }
  assert (Q0 : nth_error (e_limits E) 0 = Some l0) by (rewrite Lm; reflexivity). assert (Q1 : nth_error (e_limits E) 1 = Some l1) by (rewrite Lm; reflexivity).
  assert (Q2 : nth_error (e_limits E) 2 = Some l2) by (rewrite Lm; reflexivity). assert (Q3 : nth_error (e_limits E) 3 = Some l3) by (rewrite Lm; reflexivity).
  assert (HM : forall c, In c (sweep_heights ny l2 l3) -> arena_moderate (map (arena_pair l0 l1) (map (fun a => hits_of_o (hline_polygon F64 c a)) (barena B)))).
  { intros c Hc. apply moderate_pair; try (exact (finite_not_nan _ F0)); try (exact (finite_not_nan _ F1)); try (apply Up; assumption).
    intros l h Il Ih. apply in_map_iff in Il. destruct Il as (p & <- & Ip).
    destruct (hline_polygon F64 c p) as [hits| |] eqn:Q; cbn [hits_of_o] in Ih; try destruct Ih; exact (crossing_bound c p hits h (MY c Hc) (proj1 (MP p Ip)) Q Ih). }
  destruct (planned_cinv E fsr ny l0 l1 l2 l3 Hs Q0 Q1 Q2 Q3 HM s0 s) as [_ (_ & _ & _ & _ & VC)].
  - exact (reach_new E _ _ _ _ _ _ _ C).
  - exact (construct_cinv E fsr ny l0 l1 l2 l3 robot nx s0 C).
  - exact Pl.
  - rewrite Forall_forall in VC. destruct (VC v Hv) as (x & y & h & -> & Hy & (Nx & ((p & Ip & Np) & AR & _))). exists x, y, h.
    split; [reflexivity|]. split; [exact Nx|]. destruct (SR y Hy) as [Fy By]. split; [exact Fy|]. split; [|exact By].
    pose proof (AR p Ip Np) as X. apply in_map_iff in Ip. destruct Ip as (hs & <- & Ih). apply in_map_iff in Ih. destruct Ih as (P & <- & IP).
    assert (HE : 0 <= hit_error M).
    { unfold hit_error. pose proof (bpow_gt_0 radix2 (-49)). pose proof (bpow_gt_0 radix2 (-1073)).
      assert (0 <= M) by (pose proof (Rabs_pos (fval l0)); lra). assert (0 <= bpow radix2 (-49) * M) by (apply Rmult_le_pos; lra). lra. }
    refine (arena_pair_reach l0 l1 _ (M + hit_error M) (fval x) (finite_not_nan _ F0) (finite_not_nan _ F1) _ _ _ X); [lra|lra|].
    intros h0 I0. destruct (hline_polygon F64 y P) as [hits| |] eqn:Q; cbn [hits_of_o] in I0; try destruct I0.
    all: destruct (crossing_reach y P M hits h0 (MY y Hy) (proj1 (MP P IP)) (proj2 (MP P IP)) Q I0) as [Fh Bh]; split; [exact (finite_not_nan _ Fh)|exact Bh].
Qed.

Lemma reachable_planned E s0 s : reachable E s0 -> planned E s0 s -> reachable E s.
Proof.
  intros R H. induction H as [|s rounds s' r _ IH H|s rnd rounds s' r _ IH H]; [exact R| |].
  - exact (reach_plan E s rounds s' r IH H).
  - exact (reach_plan_kc E s rnd rounds s' r IH H).
Qed.

Lemma p300 : IZR (2 ^ 300) = bpow radix2 300.
Proof. symmetry. apply bpow_R. lia. Qed.
Lemma pose_bounds (x y h l2 l3 : f64) (M L : R) : M <= bpow radix2 299 -> L <= bpow radix2 299 ->
  fisnan x = false -> fisfin y = true -> Rabs (fval x) <= M + hit_error M ->
  fval l2 <= fval y <= fval l3 + (bpow radix2 (-49) * L + bpow radix2 (-1020)) -> Rabs (fval l2) <= L -> Rabs (fval l3) <= L ->
  fisfin h = true -> Rabs (fval h) <= 4 ->
  forall z, In z [x; y; h] -> fisfin z = true /\ Rabs (fval z) <= IZR (2 ^ 300).
Proof.
  intros HM HL Nx Fy Bx By L2 L3 Fh Bh z Hz. rewrite p300.
  assert (P : bpow radix2 300 = 2 * bpow radix2 299) by (change 300%Z with (1 + 299)%Z; rewrite bpow_plus; reflexivity).
  assert (P49 : 0 < bpow radix2 (-49) <= / 4).
  { split; [apply bpow_gt_0|]. replace (/ 4) with (bpow radix2 (-2)) by (cbn; lra). apply bpow_le. lia. }
  assert (P1 : 4 <= bpow radix2 299) by (change 4 with (bpow radix2 2); apply bpow_le; lia).
  assert (P2 : 0 < bpow radix2 (-1073) <= 1) by (split; [apply bpow_gt_0|change 1 with (bpow radix2 0); apply bpow_le; lia]).
  assert (P3 : 0 < bpow radix2 (-1020) <= 1) by (split; [apply bpow_gt_0|change 1 with (bpow radix2 0); apply bpow_le; lia]).
  unfold hit_error in Bx. pose proof (Rabs_pos (fval l2)) as PL.
  apply Rabs_le_inv in L2, L3.
  assert (X : Rabs (fval x) <= bpow radix2 300).
  { assert (bpow radix2 (-49) * M <= / 4 * bpow radix2 299).
    { destruct (Rle_dec 0 M) as [m|m]; [apply Rmult_le_compat; lra|]. assert (bpow radix2 (-49) * M <= 0) by nra. lra. }
    lra. }
  destruct Hz as [<-|[<-|[<-|[]]]].
  - split; [|exact X]. apply fin_of_bound; [exact Nx|]. apply Rle_lt_trans with (1 := X). apply bpow_lt. lia.
  - split; [exact Fy|]. assert (0 <= bpow radix2 (-49) * L <= / 4 * bpow radix2 299).
    { split; [apply Rmult_le_pos; lra|apply Rmult_le_compat; lra]. }
    apply Rabs_le. lra.
  - split; [exact Fh|]. lra.
Qed.
From Verif.Proofs Require Import PHRM2DW.
Lemma demo_workspace n obs br a b : plain_workspace (demo_env n obs br a b) (e_mink (demo_env n obs br a b) origin) 4 (fofZ (-10)) (fofZ 10) (fofZ (-10)) (fofZ 10) 20 10.
Proof.
  pose proof (limit_10 (-10) eq_refl) as La. pose proof (limit_10 10 eq_refl) as Lb.
  assert (V1 : fval (fofZ (-10)) = -10) by (apply fofZ_val; lia). assert (V2 : fval (fofZ 10) = 10) by (apply fofZ_val; lia).
  split; [reflexivity|]. split; [lia|]. split; [lia|]. split; [exact La|]. split; [exact Lb|]. split; [exact La|]. split; [exact Lb|].
  rewrite V1, V2. split; [lra|]. split; [apply Rabs_le; lra|]. split; [apply Rabs_le; lra|]. split; [apply Rabs_le; lra|]. split; [apply Rabs_le; lra|].
  intros P H. cbn [barena e_mink demo_env In] in H. destruct H as [<- |[]]. split.
  - apply zp_moderate. intros p Hp. destruct Hp as [<- |[<- |[<- |[<- |[]]]]]; cbn [fst snd]; lia.
  - intros v Hv. unfold box, zp in Hv. cbn [map fst snd] in Hv.
    destruct Hv as [<- |[<- |[<- |[<- |[]]]]]; cbn [fst]; rewrite fofZ_val by lia; apply Rabs_le; lra.
Qed.
Lemma headings_plain (E : env) : (2 <= e_numSlice E)%nat -> (Z.of_nat (e_numSlice E) <= 2 ^ 53)%Z ->
  (forall r h, e_angle E (e_move E r (fofZ 0) (fofZ 0) h) = h) -> plain_headings E.
Proof.
  intros N1 N2 A r k Hk. rewrite A. destruct (heading_spec E k N1 N2 Hk) as [F _]. split; [exact F|].
  pose proof (heading_error E k N1 N2 Hk) as Er. destruct c2pi_facts as (_ & _ & H6 & Hp & H2).
  generalize dependent (fval (heading E k)). intros v Er. set (P := fval cPI) in *. rewrite H2 in H6.
  assert (Kn1 : 1 <= INR (e_numSlice E) - 1) by (apply le_INR in N1; cbn [INR] in N1; lra).
  assert (Ik : 0 <= INR k <= INR (e_numSlice E) - 1).
  { split; [apply pos_INR|]. assert (S k <= e_numSlice E)%nat as X by lia. apply le_INR in X. rewrite S_INR in X. lra. }
  set (m := INR (e_numSlice E) - 1) in *. set (x := INR k) in *.
  assert (Q : 0 <= 2 * P * x / m <= 2 * P).
  { replace (2 * P * x / m) with (2 * P * (x / m)) by (field; lra).
    assert (0 <= x / m) by (apply Rmult_le_pos; [lra|left; apply Rinv_0_lt_compat; lra]).
    assert (x / m <= 1) by (apply (Rmult_le_reg_r m); [lra|]; unfold Rdiv; rewrite Rmult_assoc, Rinv_l by lra; lra).
    split; [apply Rmult_le_pos; lra|]. nra. }
  assert (bpow radix2 (-48) <= / 8) by (replace (/ 8) with (bpow radix2 (-3)) by (cbn; lra); apply bpow_le; lia).
  apply Rabs_le_inv in Er. apply Rabs_le. lra.
Qed.
