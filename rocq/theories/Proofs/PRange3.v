(** Proofs: the coordinates of spatial roadmaps stay next to the workspace. *)
From Coq Require Import List Reals ZArith Arith Bool Lia Lra.
From Flocq Require Import Core.Core.
From Verif.Base Require Import Outcome Float64 FloatFacts.
From Verif.Model Require Import MScalar MInterval MFreeSpace MLine3D MInterp MGraph MSearch MHRM2D MHRM3D.
From Verif.Spec Require Import SInterval SFreeSpace SGraph SSearch SPlanner2D SPlanner3D SClear SHline SRange.
From Verif.Proofs Require Import PInterval PFreeSpace PPlan2D PPlan3D PPlan3DX PPlan3DZ PSampling PClear PClear3 PRange.
Import ListNotations.
Local Open Scope R_scope.
Local Opaque fval fofZ.

Lemma spatial_range (E : env3) robot B nS nx ny s0 s l0 l1 l2 l3 l4 l5 M Z : conforming (m_sort E) ->
  plain_workspace3 E B nx ny l0 l1 l2 l3 l4 l5 M Z -> Z <= bpow radix2 1022 -> m_mink E robot = Ok B ->
  construct3 E robot nS nx ny (length (marena B)) (length (mobstacle B)) = Ok s0 -> planned3 E s0 s ->
  forall k v, nth_error (gvert (q_graph s)) k = Some v -> exists x y z tail, v = [x; y; z] ++ tail /\
    In x (grid nx l0 l1) /\ In y (grid ny l2 l3) /\ fisnan z = false /\ Rabs (fval z) <= Z.
Proof.
  intros Hs (Lm & _ & _ & _ & _ & _ & _ & _ & _ & _ & _ & _ & _ & _ & _ & N4 & N5 & B4 & B5 & MO) HZ HB C P.
  assert (HM : forall x c, In x (grid nx l0 l1) -> In c (grid ny l2 l3) -> arena_moderate (map (arena_pair l4 l5) (map (fun a => hits_of_o (zhit x c a)) (marena B)))).
  { intros x c Hx Hc. apply moderate_pair; try assumption; try lra. intros l h Il Ih. apply in_map_iff in Il. destruct Il as (p & <- & Ip).
    destruct (zhit x c p) as [hits| |] eqn:Q; cbn [hits_of_o] in Ih; try destruct Ih.
    apply zhit_heights in Q. destruct (MO x c Hx Hc p hits h Ip Q Ih) as [K1 K2]. split; [exact K1|lra]. }
  destruct (planned3_cinv E robot B nx ny l0 l1 l2 l3 l4 l5 HB Hs) with (s0 := s0) (s := s) as [_ (_ & _ & _ & _ & _ & VC)];
    try (rewrite Lm; reflexivity); try exact HM; try exact P.
  - exact (reach3_new E _ _ _ _ _ _ _ C).
  - exact (construct3_cinv E robot B nx ny l0 l1 l2 l3 l4 l5 nS s0 C).
  - intros k. induction k as [k IH] using lt_wf_ind. intros v Hv.
    destruct (VC k v Hv) as [(x & y & z & tail & -> & Hx & Hy & (Nz & ((p & Ip & Np) & AR & _)))|(i & j & v1 & v2 & Li & Lj & H1 & H2 & (Q & _))].
    + exists x, y, z, tail. split; [reflexivity|]. split; [exact Hx|]. split; [exact Hy|]. split; [exact Nz|].
      pose proof (AR p Ip Np) as X. apply in_map_iff in Ip. destruct Ip as (hs & <- & Ih). apply in_map_iff in Ih. destruct Ih as (m & <- & Im).
      refine (arena_pair_reach l4 l5 _ Z (fval z) N4 N5 B4 B5 _ X).
      intros h0 I0. destruct (zhit x y m) as [hits| |] eqn:Qh; cbn [hits_of_o] in I0; try destruct I0.
      apply zhit_heights in Qh. exact (MO x y Hx Hy m hits h0 Im Qh I0).
    + destruct Q as (x1 & y1 & z1 & t1 & x2 & y2 & z2 & t2 & -> & -> & Ev).
      destruct (IH i Li _ H1) as (a1 & b1 & d1 & e1 & Q1 & Ia1 & Ib1 & Nd1 & Bd1). destruct (IH j Lj _ H2) as (a2 & b2 & d2 & e2 & Q2 & Ia2 & Ib2 & Nd2 & Bd2).
      cbn [app] in Q1, Q2. injection Q1 as -> -> -> ->. injection Q2 as -> -> -> ->.
      destruct Ev as [-> | ->]; [exists a1, b1, d2, e1|exists a2, b2, d1, e2]; auto.
Qed.

Lemma reachable3_planned E s0 s : reachable3 E s0 -> planned3 E s0 s -> reachable3 E s.
Proof.
  intros R H. induction H as [|s rq rounds s' r Hp _ IH H|s d ds s' r Hp _ IH H|s bd s' segs _ IH H]; [exact R| | |].
  - exact (reach3_plan E s rq rounds s' r Hp IH H).
  - exact (reach3_prob E s d ds s' r Hp IH H).
  - exact (reach3_seg E s bd s' segs IH H).
Qed.
Lemma ranges_find n l m : ranges n l m -> forall a, (n <= a < m)%nat -> exists k v, nth_error l k = Some v /\ (vstart v <= a < vslice v)%nat.
Proof.
  intros R. induction R as [n|n v l m Hv Le R IH]; intros a Ha; [lia|].
  destruct (Nat.lt_ge_cases a (vslice v)) as [L|L]; [exists 0%nat, v; split; [reflexivity|lia]|].
  destruct (IH a ltac:(lia)) as (k & w & Hk & Hw). exists (S k), w. auto.
Qed.
Lemma grid_range k l2 l3 L : (2 <= k)%nat -> (Z.of_nat k <= 2 ^ 53)%Z -> limit_ok l2 -> limit_ok l3 -> fval l2 <= fval l3 ->
  Rabs (fval l2) <= L -> Rabs (fval l3) <= L ->
  forall y, In y (grid k l2 l3) -> fisfin y = true /\ fval l2 <= fval y <= fval l3 + grid_error L.
Proof. intros H1 H2 K2 K3 L23 L2 L3 y Hy. rewrite grid_sweep in Hy by exact H2. exact (sweep_range k l2 l3 L H1 H2 K2 K3 L23 L2 L3 y Hy). Qed.
Lemma grid_plain (y l2 l3 : f64) L : L <= bpow radix2 299 -> fisfin y = true -> fval l2 <= fval y <= fval l3 + grid_error L ->
  Rabs (fval l2) <= L -> Rabs (fval l3) <= L -> plain_number y.
Proof.
  intros HL F B L2 L3. split; [exact F|].
  assert (P : bpow radix2 300 = 2 * bpow radix2 299) by (change 300%Z with (1 + 299)%Z; rewrite bpow_plus; reflexivity).
  assert (P49 : 0 < bpow radix2 (-49) <= / 4).
  { split; [apply bpow_gt_0|]. replace (/ 4) with (bpow radix2 (-2)) by (cbn; lra). apply bpow_le. lia. }
  assert (P1 : 4 <= bpow radix2 299) by (change 4 with (bpow radix2 2); apply bpow_le; lia).
  assert (P3 : 0 < bpow radix2 (-1020) <= 1) by (split; [apply bpow_gt_0|change 1 with (bpow radix2 0); apply bpow_le; lia]).
  unfold grid_error in B. pose proof (Rabs_pos (fval l2)) as PL. apply Rabs_le_inv in L2, L3.
  assert (0 <= bpow radix2 (-49) * L <= / 4 * bpow radix2 299).
  { split; [apply Rmult_le_pos; lra|apply Rmult_le_compat; lra]. }
  apply Rabs_le. lra.
Qed.
Lemma tame_plain g : (Z.of_nat (length (gvert g)) <= 2 ^ 53)%Z ->
  (forall v, In v (gvert g) -> (Z.of_nat (length v) <= 2 ^ 53)%Z /\ Forall plain_number v) -> tame g.
Proof.
  intros L H. split; [exact L|]. intros v Hv. destruct (H v Hv) as [H1 H2]. split; [exact H1|]. intros x Hx. rewrite Forall_forall in H2.
  destruct (H2 x Hx) as [F B]. split; [exact F|]. rewrite p300. exact B.
Qed.
