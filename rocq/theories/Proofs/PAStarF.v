(** A* on a roadmap in binary64. *)
From Coq Require Import List Bool Arith Lia ZArith Reals Lra.
From Flocq Require Import Core.Core IEEE754.BinarySingleNaN.
From Verif.Base Require Import Outcome Float64 FloatFacts.
From Verif.Model Require Import MScalar MDistance MGraph MSearch MAStar.
From Verif.Spec Require Import SGraph SSearch.
From Verif.Proofs Require Import PGraph PSampling PAStar.
Import ListNotations.
Local Open Scope R_scope.
Local Opaque fval fdblmax fofZ.

(** Values up to k * 2^e. *)
Definition lvl (e : Z) (k : nat) (x : f64) : Prop := fisfin x = true /\ 0 <= fval x <= INR k * bpow radix2 e.
Lemma lvl_format e k : (0 <= e)%Z -> (Z.of_nat k <= 2 ^ 53)%Z -> generic_format radix2 fexp64 (INR k * bpow radix2 e).
Proof.
  intros He Hk. destruct (Z.eq_dec (Z.of_nat k) (2 ^ 53)) as [Q|Q].
  - rewrite INR_IZR_INZ, Q. change (IZR (2 ^ 53)) with (bpow radix2 53). rewrite <- bpow_plus. apply bpow_format. lia.
  - apply (generic_format_FLT radix2 (-1074) 53). exists (Float radix2 (Z.of_nat k) e); cbn [Fnum Fexp].
    + unfold F2R. cbn [Fnum Fexp]. rewrite <- INR_IZR_INZ. reflexivity.
    + change (Zpower radix2 53) with (2 ^ 53)%Z. lia.
    + lia.
Qed.
Lemma lvl_top e k : (0 <= e)%Z -> (e <= 960)%Z -> (Z.of_nat k <= 2 ^ 53)%Z -> INR k * bpow radix2 e <= bpow radix2 1014.
Proof.
  intros H0 He Hk. apply Rle_trans with (bpow radix2 53 * bpow radix2 960).
  - apply Rmult_le_compat; [apply pos_INR|apply bpow_ge_0| |apply bpow_le; auto].
    rewrite INR_IZR_INZ. change (bpow radix2 53) with (IZR (2 ^ 53)). apply IZR_le. auto.
  - rewrite <- bpow_plus. apply bpow_le. lia.
Qed.
Lemma lvl_add e k x w : (0 <= e <= 960)%Z -> (Z.of_nat (S k) <= 2 ^ 53)%Z -> lvl e k x -> lvl e 1 w ->
  lvl e (S k) (fadd x w) /\ fval (fadd x w) = rnd64 (fval x + fval w).
Proof.
  intros He Hk [Fx [X0 X1]] [Fw [W0 W1]]. cbn [INR] in W1.
  assert (B : 0 <= fval x + fval w <= INR (S k) * bpow radix2 e) by (rewrite S_INR; lra).
  pose proof (lvl_top e (S k) ltac:(lia) ltac:(lia) Hk) as T.
  assert (F : fisfin (fadd x w) = true).
  { apply fadd_fin; auto. rewrite Rabs_pos_eq by lra. apply Rle_trans with (bpow radix2 1014); [lra|apply bpow_le; lia]. }
  pose proof (fadd_val x w F) as V. split; [|auto]. split; [auto|]. rewrite V.
  apply rnd_between; [apply generic_format_0| |auto]. apply lvl_format; lia.
Qed.

(** ---- Euclidean weights are bounded ---- *)
Definition coord (x : f64) : Prop := fisfin x = true /\ Rabs (fval x) <= bpow radix2 300.
Lemma sq_lvl a b : coord a -> coord b -> lvl 602 1 (fmul (fsub a b) (fsub a b)).
Proof.
  intros [Fa Ba] [Fb Bb]. apply Rabs_le_inv in Ba, Bb.
  assert (D : bpow radix2 301 = 2 * bpow radix2 300) by (change 301%Z with (1 + 300)%Z; rewrite bpow_plus; reflexivity).
  assert (F : fisfin (fsub a b) = true).
  { apply fsub_fin; auto. assert (bpow radix2 301 <= bpow radix2 1023) by (apply bpow_le; lia). apply Rabs_le. lra. }
  pose proof (fsub_val a b F) as V.
  assert (B : - bpow radix2 301 <= fval (fsub a b) <= bpow radix2 301).
  { rewrite V. apply rnd_between; [apply generic_format_opp|apply bpow_format; lia|lra]. apply bpow_format. lia. }
  assert (Sq : 0 <= fval (fsub a b) * fval (fsub a b) <= bpow radix2 602).
  { split; [nra|]. change 602%Z with (301 + 301)%Z. rewrite bpow_plus. pose proof (bpow_gt_0 radix2 301). nra. }
  destruct (fmul_val _ _ F F) as [Fm Vm].
  { rewrite Rabs_pos_eq by tauto. apply Rle_trans with (bpow radix2 602); [tauto|apply bpow_le; lia]. }
  split; [auto|]. cbn [INR]. rewrite Rmult_1_l, Vm. apply rnd_between; [apply generic_format_0|apply bpow_format; lia|auto].
Qed.
Lemma vdiff_sq v1 v2 ds : vdiff F64 v1 v2 = Ok ds -> (forall x, In x v1 -> coord x) -> (forall x, In x v2 -> coord x) ->
  length ds = length v1 /\ forall d, In d ds -> lvl 602 1 (fmul d d).
Proof.
  revert v2 ds; induction v1 as [|a v1 IH]; intros [|b v2] ds H H1 H2; cbn [vdiff] in H.
  - injection H as <-. split; [auto|]. intros d [].
  - injection H as <-. split; [auto|]. intros d [].
  - discriminate H.
  - apply obind_Ok in H. destruct H as (t & Ht & H). injection H as <-.
    destruct (IH v2 t Ht) as [L A]; [intros; apply H1; right; auto|intros; apply H2; right; auto|]. split; [cbn [length]; auto|].
    intros d [<-|Hd]; [|auto]. apply (sq_lvl a b); [apply H1; left; auto|apply H2; left; auto].
Qed.
Lemma sumsq_lvl ds k acc : (Z.of_nat (k + length ds) <= 2 ^ 53)%Z -> (forall d, In d ds -> lvl 602 1 (fmul d d)) -> lvl 602 k acc ->
  lvl 602 (k + length ds) (fold_left (fun acc d => fadd acc (fmul d d)) ds acc).
Proof.
  revert k acc; induction ds as [|d ds IH]; intros k acc L H A; cbn [fold_left length] in *; [rewrite Nat.add_0_r; auto|].
  replace (k + S (length ds))%nat with (S k + length ds)%nat in * by lia. apply IH; [lia|intros; apply H; right; auto|].
  apply lvl_add; auto; [lia|lia|]. apply H; left; auto.
Qed.
Lemma fsqrt_val x : fisfin x = true -> 0 <= fval x -> fisfin (fsqrt x) = true /\ fval (fsqrt x) = rnd64 (sqrt (fval x)).
Proof.
  intros F H. destruct (Bsqrt_correct 53 1024 Hprec53 Hemax1024 mode_NE x) as (A & B & _). fold (fsqrt x) in *.
  assert (Fs : fisfin (fsqrt x) = true).
  { unfold fisfin in *. rewrite B. rewrite (fval_finite x F) in H. destruct x as [s|s| |[] m e Hm]; try discriminate F; auto.
    exfalso. cbn [B2R SpecFloat.cond_Zopp] in H. assert (F2R (Float radix2 (- Z.pos m) e) < 0) by (apply F2R_lt_0; reflexivity).
    unfold SpecFloat.cond_Zopp in H. lra. }
  split; [auto|]. rewrite (fval_finite _ Fs), (fval_finite _ F). exact A.
Qed.
Lemma euclid_lvl v1 v2 w : vec_euclid F64 v1 v2 = Ok w -> (Z.of_nat (length v1) <= 2 ^ 53)%Z ->
  (forall x, In x v1 -> coord x) -> (forall x, In x v2 -> coord x) -> lvl 900 1 w.
Proof.
  unfold vec_euclid. intros H L H1 H2. apply obind_Ok in H. destruct H as (ds & Hd & H). injection H as <-.
  destruct (vdiff_sq _ _ _ Hd H1 H2) as [Ld A]. 
  assert (S : lvl 602 (0 + length ds) (sumsq F64 ds)).
  { unfold sumsq. apply (sumsq_lvl ds 0 (fofZ 0)); [change (@length (car F64) ds) with (@length f64 ds) in *; rewrite Ld; auto|auto|].
    split; [apply fofZ_fin; lia|]. rewrite fofZ_val by lia. cbn [INR]. lra. }
  destruct S as [F [S0 S1]]. destruct (fsqrt_val _ F S0) as [Fs Vs]. split; [exact Fs|].
  change (ssqrt F64) with fsqrt. rewrite Vs. cbn [INR]. rewrite Rmult_1_l.
  apply rnd_between; [apply generic_format_0|apply bpow_format; lia|]. split; [apply sqrt_pos|].
  apply Rle_trans with (sqrt (bpow radix2 1014)).
  - apply sqrt_le_1_alt. eapply Rle_trans; [exact S1|]. apply lvl_top; [lia|lia|]. cbn [Nat.add]. change (@length f64 ds = length v1) in Ld. change (Z.of_nat (@length f64 ds) <= 2 ^ 53)%Z. rewrite Ld. exact L.
  - change 1014%Z with (507 + 507)%Z. rewrite bpow_plus, sqrt_square by apply bpow_ge_0. apply bpow_le. lia.
Qed.

(** ---- closed_plus on levels ---- *)
Lemma dblmax_big : bpow radix2 1023 <= fval fdblmax /\ fisfin fdblmax = true.
Proof.
  assert (F : fisfin fdblmax = true) by (vm_compute; reflexivity). split; [|auto].
  rewrite fval_finite by auto.
  assert (Q : B2R fdblmax = F2R (Float radix2 (2 ^ 53 - 1) 971)) by reflexivity.
  rewrite Q. unfold F2R. cbn [Fnum Fexp]. change 1023%Z with (52 + 971)%Z. rewrite bpow_plus. apply Rmult_le_compat_r; [apply bpow_ge_0|].
  change (bpow radix2 52) with (IZR (2 ^ 52)). apply IZR_le. lia.
Qed.

Lemma plus_val e k x w : (0 <= e <= 960)%Z -> (Z.of_nat (S k) <= 2 ^ 53)%Z -> lvl e k x -> lvl e 1 w ->
  closed_plus x w = fadd x w.
Proof.
  intros He Hk X Wt. destruct dblmax_big as [M Fm].
  assert (N : forall j y, (Z.of_nat j <= 2 ^ 53)%Z -> lvl e j y -> feqb y fdblmax = false).
  { intros j y Hj [Fy [Y0 Y1]]. destruct (feqb y fdblmax) eqn:Q; [|auto]. exfalso.
    assert (Qv : fval y = fval fdblmax).
    { rewrite (fval_finite y Fy), (fval_finite _ Fm). unfold feqb in Q. rewrite (Beqb_correct 53 1024 y fdblmax Fy Fm) in Q.
      destruct (Req_bool_spec (B2R y) (B2R fdblmax)); [auto|discriminate Q]. }
    pose proof (lvl_top e j ltac:(lia) ltac:(lia) Hj). assert (bpow radix2 1014 < bpow radix2 1023) by (apply bpow_lt; lia). lra. }
  unfold closed_plus. rewrite (N k x) by (auto; lia). rewrite (N 1%nat w) by (auto; lia). reflexivity.
Qed.

(** ---- rank ---- *)
Definition frank (x : f64) : nat :=
  match x with B754_finite false m e _ => (Pos.to_nat m * Z.to_nat (2 ^ (e + 1074)))%nat | _ => 0%nat end.
Lemma frank_val x : fisfin x = true -> 0 <= fval x -> INR (frank x) = fval x * bpow radix2 1074.
Proof.
  intros F H. destruct x as [s|s| |[] m e Hm]; try discriminate F.
  - rewrite fval_finite by auto. cbn. lra.
  - exfalso. rewrite fval_finite in H by auto. change (0 <= F2R (Float radix2 (- Z.pos m) e)) in H. assert (F2R (Float radix2 (- Z.pos m) e) < 0) by (apply F2R_lt_0; reflexivity). lra.
  - rewrite fval_finite by auto. change (INR (frank (B754_finite false m e Hm)) = F2R (Float radix2 (Z.pos m) e) * bpow radix2 1074). unfold frank.
    assert (He : (-1074 <= e)%Z).
    { pose proof Hm as Hm'. unfold SpecFloat.bounded in Hm'. apply andb_prop in Hm'. destruct Hm' as [Hc _]. unfold SpecFloat.canonical_mantissa in Hc.
      apply Zeq_bool_eq in Hc. unfold SpecFloat.fexp, SpecFloat.emin in Hc. lia. }
    rewrite mult_INR. rewrite INR_IZR_INZ, positive_nat_Z. rewrite INR_IZR_INZ, Z2Nat.id by (apply Z.pow_nonneg; lia).
    rewrite <- (bpow_R (e + 1074)) by lia. unfold F2R. cbn [Fnum Fexp]. rewrite bpow_plus. ring.
Qed.
Lemma frank_lt x y : fisfin x = true -> fisfin y = true -> 0 <= fval x -> fval x < fval y -> (frank x < frank y)%nat.
Proof.
  intros Fx Fy X H. apply INR_lt. rewrite !frank_val by (auto; lra). apply Rmult_lt_compat_r; [apply bpow_gt_0|auto].
Qed.

(** ---- the roadmap graph ---- *)
Section G.
Variable g : graph.
Notation nv := (length (gvert g)).
Notation OUT := (out_edges (combine (gedge g) (gweight g))).
Hypothesis wf : well_formed g.
Hypothesis tm : tame g.

Lemma out_In u v w : In (v, w) (OUT u) -> (In ((u, v), w) (combine (gedge g) (gweight g)) \/ In ((v, u), w) (combine (gedge g) (gweight g))).
Proof.
  unfold out_edges. intros H. apply in_flat_map in H. destruct H as ([[a b] w'] & Hin & H). apply in_app_or in H.
  destruct H as [H|H].
  - destruct (Nat.eqb_spec a u) as [->|]; [|destruct H]. destruct H as [H|[]]. injection H as -> ->. auto.
  - destruct (Nat.eqb_spec b u) as [->|]; [|destruct H]. destruct H as [H|[]]. injection H as -> ->. auto.
Qed.
Lemma In_out u v w : In ((u, v), w) (combine (gedge g) (gweight g)) -> In (v, w) (OUT u) /\ In (u, w) (OUT v).
Proof.
  intros H. unfold out_edges. split; apply in_flat_map; exists ((u, v), w); split; auto; rewrite Nat.eqb_refl; apply in_or_app; [left|right]; left; auto.
Qed.
Lemma out_sym u v w : In (v, w) (OUT u) -> In (u, w) (OUT v).
Proof. intros H. apply out_In in H. destruct H as [H|H]; apply In_out in H; tauto. Qed.
Lemma combine_nth_In {A B} (l : list A) (r : list B) a b : In (a, b) (combine l r) -> exists k, nth_error l k = Some a /\ nth_error r k = Some b.
Proof.
  revert r; induction l as [|x l IH]; intros [|y r] H; cbn [combine] in H; try destruct H.
  - injection H as -> ->. exists 0%nat. auto.
  - destruct (IH r H) as (k & A1 & A2). exists (S k). auto.
Qed.
Lemma nth_combine {A B} (l : list A) (r : list B) k a b : nth_error l k = Some a -> nth_error r k = Some b -> In (a, b) (combine l r).
Proof.
  revert r k; induction l as [|x l IH]; intros [|y r] [|k] H1 H2; cbn [nth_error] in *; try discriminate.
  - injection H1 as ->. injection H2 as ->. left. auto.
  - right. eauto.
Qed.
Lemma coord_of v x : In v (gvert g) -> In x v -> coord x.
Proof.
  intros Hv Hx. destruct tm as [_ T]. destruct (T v Hv) as [_ T']. destruct (T' x Hx) as [A B]. split; auto.
Qed.
Lemma edge_facts a b w : In ((a, b), w) (combine (gedge g) (gweight g)) -> (a < nv)%nat /\ (b < nv)%nat /\ lvl 900 1 w.
Proof.
  intros H. apply combine_nth_In in H. destruct H as (k & H1 & H2). destruct wf as [_ Wf].
  destruct (Wf k a b H1) as (v1 & v2 & w' & A & B & C & D). rewrite H2 in C. injection C as <-.
  split; [apply nth_error_lt in A; auto|]. split; [apply nth_error_lt in B; auto|].
  pose proof (nth_error_In _ _ A) as I1. pose proof (nth_error_In _ _ B) as I2.
  eapply euclid_lvl; [exact D| | |].
  - destruct (proj2 tm v1 I1) as [Ll _]; exact Ll.
  - intros x Hx. exact (coord_of v1 x I1 Hx).
  - intros x Hx. exact (coord_of v2 x I2 Hx).
Qed.
Lemma out_facts u v w : In (v, w) (OUT u) -> lvl 900 1 w /\ (v < nv)%nat.
Proof. intros H. apply out_In in H. destruct H as [H|H]; apply edge_facts in H; tauto. Qed.
Lemma out_adj u v w : In (v, w) (OUT u) -> adj g u v.
Proof.
  intros H. apply out_In in H. destruct H as [H|H]; apply in_combine_l in H; [left|right]; auto.
Qed.
Lemma adj_out u v : adj g u v -> exists w, In (v, w) (OUT u).
Proof.
  assert (X : forall a b, In (a, b) (gedge g) -> exists w, In ((a, b), w) (combine (gedge g) (gweight g))).
  { intros a b H. apply In_nth_error in H. destruct H as (k & Hk). destruct wf as [_ Wf].
    destruct (Wf k a b Hk) as (_ & _ & w & _ & _ & C & _). exists w. eapply nth_combine; eauto. }
  intros [H|H]; apply X in H; destruct H as (w & H); exists w; apply In_out in H; tauto.
Qed.
Lemma linked_connected a b : linked f64 OUT a b <-> connected g a b.
Proof.
  split.
  - induction 1 as [a|a b c w H _ (l & IH)]; [exists [a]; constructor|]. exists (a :: l). econstructor; eauto. eapply out_adj; eauto.
  - intros (l & H). induction H as [|a c l Ha _ IH]; [constructor|]. apply adj_out in Ha. destruct Ha as (w & Ha). econstructor; eauto.
Qed.

Notation good := (lvl 900).
Lemma L_plus k x w : (k < nv)%nat -> good k x -> good 1 w -> good (S k) (closed_plus x w).
Proof. intros Hk X Wt. destruct tm as [T _]. rewrite (plus_val 900 k) by (auto; lia). apply lvl_add; auto; lia. Qed.
Lemma L_S k x : good k x -> good (S k) x.
Proof. intros [F H]. split; [auto|]. rewrite S_INR. pose proof (bpow_ge_0 radix2 900). lra. Qed.
Lemma L_lt (k : nat) x y : (k <= nv)%nat -> good k x -> good k y -> (fltb x y = true <-> fval x < fval y).
Proof. intros _ [Fx _] [Fy _]. apply fltb_val; apply finite_not_nan; auto. Qed.
Lemma L_inf k x : (k <= nv)%nat -> good k x -> fltb x fdblmax = true.
Proof.
  intros Hk [F [_ H]]. destruct dblmax_big as [M Fm]. apply fltb_val; [apply finite_not_nan; auto|apply finite_not_nan; auto|].
  destruct tm as [T _]. pose proof (lvl_top 900 k ltac:(lia) ltac:(lia) ltac:(lia)).
  assert (bpow radix2 1014 < bpow radix2 1023) by (apply bpow_lt; lia). lra.
Qed.
Lemma L_infl k x w : (k < nv)%nat -> good k x -> good 1 w -> fval x <= fval (closed_plus x w).
Proof.
  intros Hk X Wt. destruct tm as [T _]. rewrite (plus_val 900 k) by (auto; lia). destruct (lvl_add 900 k x w) as [_ ->]; auto; [lia|lia|].
  destruct X as [F _]. rewrite <- (rnd64_fval x F) at 1. apply rnd64_le. destruct Wt as [_ [W0 _]]. lra.
Qed.
Lemma L_mono k x y w : (k < nv)%nat -> good k x -> good k y -> good 1 w -> fval x <= fval y -> fval (closed_plus x w) <= fval (closed_plus y w).
Proof.
  intros Hk X Y Wt H. destruct tm as [T _]. rewrite !(plus_val 900 k) by (auto; lia).
  destruct (lvl_add 900 k x w) as [_ ->]; auto; [lia|lia|]. destruct (lvl_add 900 k y w) as [_ ->]; auto; [lia|lia|]. apply rnd64_le. lra.
Qed.
Lemma L_down (k k' : nat) x y : good k y -> good k' x -> fval x <= fval y -> good k x.
Proof. intros [_ [_ H]] [F [H' _]] L. split; [auto|]. lra. Qed.
Lemma L_0 : good 0 fzero /\ fval fzero = 0.
Proof. assert (fval fzero = 0) by reflexivity. split; [|auto]. split; [reflexivity|]. rewrite H. cbn [INR]. lra. Qed.
Lemma L_rank (k : nat) x y : (k <= nv)%nat -> good k x -> good k y -> fltb x y = true -> (frank x < frank y)%nat.
Proof. intros Hk X Y H. apply (L_lt k) in H; auto. destruct X as [Fx [X0 _]], Y as [Fy _]. apply frank_lt; auto. Qed.
Lemma L_rank_inf k x : (k <= nv)%nat -> good k x -> (frank x < frank fdblmax)%nat.
Proof.
  intros Hk X. pose proof (L_inf k x Hk X) as H. destruct dblmax_big as [M Fm]. destruct X as [Fx [X0 _]].
  apply fltb_val in H; [|apply finite_not_nan; auto|apply finite_not_nan; auto]. apply frank_lt; auto.
Qed.

Variable top : (nat -> f64) -> list nat -> nat.
Hypothesis top_in : forall c q, q <> [] -> In (top c q) q.
Variables s t : nat.
Hypothesis Hs : (s < nv)%nat.

Lemma boost_terminates : exists fuel r, boost_astar top fuel g s t = Some r.
Proof.
  destruct L_0 as [G0 V0].
  destruct (loop_terminates f64 fltb closed_plus fdblmax fzero OUT (heuristic g t) top nv s t top_in fval good (good 1)
     G0 V0 L_S L_plus L_lt L_inf L_infl L_mono L_down (fun k x H => proj1 (proj2 H)) out_facts out_sym Hs frank L_rank L_rank_inf) as (fuel & r & H).
  exists fuel. unfold boost_astar. rewrite H. destruct r as [st|]; eauto.
Qed.
Lemma boost_complete fuel : boost_astar top fuel g s t = Some None -> ~ connected g s t.
Proof.
  unfold boost_astar. intros H. rewrite <- linked_connected.
  destruct (astar_loop _ _ _ _ _ _ _ _ _) as [[st|]|] eqn:L; try discriminate H.
  eapply loop_none; [exact fzero|exact 0%nat|exact top_in|apply init_cinv|exact L].
Qed.
Lemma boost_sound fuel p : boost_astar top fuel g s t = Some (Some p) ->
  length p = nv /\ exists l, pred_chain g p s t l /\ (length l <= nv)%nat.
Proof.
  unfold boost_astar. intros H.
  destruct (astar_loop _ _ _ _ _ _ _ _ _) as [[st|]|] eqn:L; try discriminate H. injection H as <-.
  split; [rewrite map_length, seq_length; auto|].
  destruct L_0 as [G0 V0].
  destruct (loop_some f64 fltb closed_plus fdblmax fzero OUT (heuristic g t) top nv s t top_in fval good (good 1)
     V0 L_S L_plus L_lt L_inf L_infl L_mono L_down (fun k x H => proj1 (proj2 H)) out_facts out_sym Hs frank L_rank L_rank_inf fuel
     (astar_init f64 fdblmax fzero (heuristic g t) s) st) as (I & C & N); auto.
  { apply init_ainv; auto using L_S. }
  { apply init_cinv. }
  assert (Nt : nw (a_col st t) = true) by exact N.
  destruct (v_chain _ _ _ _ _ _ _ _ _ _ _ _ I t Nt) as (l & Cl).
  exists l. destruct (chain_bound f64 closed_plus fdblmax fzero OUT nv s fval good Hs st t l I N Cl) as [B A].
  split; [|auto]. clear B. revert A Nt. clear N L C. induction Cl as [|x l Hx H IH]; intros A Nt; [constructor|].
  destruct (v_pred _ _ _ _ _ _ _ _ _ _ _ _ I x Nt Hx) as (w & Np & Hin & _).
  destruct (A x (or_introl eq_refl)) as [_ Lx].
  econstructor; [auto| | |].
  - rewrite nth_error_map. rewrite (nth_error_nth' _ 0%nat) by (rewrite seq_length; auto). rewrite seq_nth by auto. cbn [option_map Nat.add]. reflexivity.
  - destruct (out_adj _ _ _ Hin) as [Q|Q]; [right|left]; auto.
  - apply IH; [intros y Hy; apply A; right; exact Hy|exact Np].
Qed.
End G.
