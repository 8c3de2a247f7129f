(** Planning parameters: limits and line counts. *)
From Coq Require Import List Reals ZArith Arith Bool Lia Lra Psatz.
From Verif.Base Require Import Outcome.
From Verif.Model Require Import MGeom MMultiBody MSettings.
From Verif.Spec Require Import SGeom SRigid SSettings.
From Verif.Proofs Require Import PGeom PRot PGeom3 PSettings.
Import ListNotations.
Local Open Scope R_scope.

Lemma abs_le x m : Rabs x <= m <-> - m <= x <= m.
Proof. split; intros H; unfold Rabs in *; destruct (Rcase_abs x); lra. Qed.

(** ---- what the functions return ---- *)
Lemma params2_inv base ar rest obs p p' r b A0 A1 X Y : se_axes base = r :: b -> se_axes ar = [A0; A1] -> se_pos ar = [X; Y] ->
  define_params2 base (ar :: rest) obs p = Ok p' ->
  r_limits p' = [X - (A0 - 3 / 2 * r); X + (A0 - 3 / 2 * r); Y - (A1 - 3 / 2 * r); Y + (A1 - 3 / 2 * r)] /\
  r_numSlice p' = r_numSlice p /\ r_numLineX p' = r_numLineX p /\
  (r_numLineY p <> 0%Z -> r_numLineY p' = r_numLineY p) /\
  (r_numLineY p = 0%Z -> exists m, min_size (map se_axes obs) = Ok m /\ int_quot (A1 - 3 / 2 * r) m = Ok (r_numLineY p')).
Proof.
  intros E1 E2 E3 H. unfold define_params2 in H. cbn [at_ nth_error obind] in H. rewrite E1, E2, E3 in H. cbn [at_ nth_error obind] in H. cbv zeta in H.
  destruct (Z.eqb_spec (r_numLineY p) 0) as [Z|Z].
  - destruct (min_size (map se_axes obs)) as [m| |] eqn:M; cbn [obind] in H; try discriminate H.
    destruct (int_quot (A1 - 3 / 2 * r) m) as [n| |] eqn:Q; cbn [obind] in H; try discriminate H.
    injection H as <-. cbn [r_limits r_numSlice r_numLineX r_numLineY]. repeat split; [intros N; destruct (N Z)|]. intros _. exists m. split; [reflexivity|exact Q].
  - injection H as <-. cbn [r_limits r_numSlice r_numLineX r_numLineY]. repeat split. intros Z0. destruct (Z Z0).
Qed.
Lemma params3_inv base nq ar rest obs p p' r b A0 A1 A2 X Y Z : sq_axes base = r :: b -> sq_axes ar = [A0; A1; A2] -> sq_pos ar = [X; Y; Z] ->
  define_params3 base nq (ar :: rest) obs p = Ok p' ->
  r_limits p' = [X - (A0 - 6 / 5 * r); X + (A0 - 6 / 5 * r); Y - (A1 - 6 / 5 * r); Y + (A1 - 6 / 5 * r); Z - (A2 - 6 / 5 * r); Z + (A2 - 6 / 5 * r)] /\
  r_numSlice p' = Z.of_nat nq /\
  (r_numLineX p <> 0%Z /\ r_numLineY p <> 0%Z -> r_numLineX p' = r_numLineX p /\ r_numLineY p' = r_numLineY p) /\
  (r_numLineX p = 0%Z \/ r_numLineY p = 0%Z -> exists m, min_size (map sq_axes obs) = Ok m /\
     floor_quot (A0 - 6 / 5 * r) m = Ok (r_numLineX p') /\ floor_quot (A1 - 6 / 5 * r) m = Ok (r_numLineY p')).
Proof.
  intros E1 E2 E3 H. unfold define_params3 in H. cbn [at_ nth_error obind] in H. rewrite E1, E2, E3 in H. cbn [at_ nth_error obind] in H. cbv zeta in H.
  destruct (Z.eqb_spec (r_numLineX p) 0) as [Zx|Zx]; [|destruct (Z.eqb_spec (r_numLineY p) 0) as [Zy|Zy]]; cbn [orb] in H.
  - destruct (min_size (map sq_axes obs)) as [m| |] eqn:M; cbn [obind] in H; try discriminate H.
    destruct (floor_quot (A0 - 6 / 5 * r) m) as [n| |] eqn:Q1; cbn [obind] in H; try discriminate H.
    destruct (floor_quot (A1 - 6 / 5 * r) m) as [n'| |] eqn:Q2; cbn [obind] in H; try discriminate H.
    injection H as <-. cbn [r_limits r_numSlice r_numLineX r_numLineY]. repeat split; try (destruct H; contradiction). intros _. exists m. repeat split; assumption.
  - destruct (min_size (map sq_axes obs)) as [m| |] eqn:M; cbn [obind] in H; try discriminate H.
    destruct (floor_quot (A0 - 6 / 5 * r) m) as [n| |] eqn:Q1; cbn [obind] in H; try discriminate H.
    destruct (floor_quot (A1 - 6 / 5 * r) m) as [n'| |] eqn:Q2; cbn [obind] in H; try discriminate H.
    injection H as <-. cbn [r_limits r_numSlice r_numLineX r_numLineY]. repeat split; try (destruct H; contradiction). intros _. exists m. repeat split; assumption.
  - injection H as <-. cbn [r_limits r_numSlice r_numLineX r_numLineY]. repeat split. intros [Z0|Z0]; contradiction.
Qed.

(** ---- limits ---- *)
Lemma within2_iff base ar rest obs p p' r b A0 A1 X Y x y : se_axes base = r :: b -> se_axes ar = [A0; A1] -> se_pos ar = [X; Y] ->
  define_params2 base (ar :: rest) obs p = Ok p' ->
  (within2 p' x y <-> Rabs (x - X) <= A0 - 3 / 2 * r /\ Rabs (y - Y) <= A1 - 3 / 2 * r).
Proof.
  intros E1 E2 E3 H. destruct (params2_inv _ _ _ _ _ _ _ _ _ _ _ _ E1 E2 E3 H) as (L & _). unfold within2. rewrite L, !abs_le. split.
  - intros (a & c & d & e & Q & I & J). injection Q as <- <- <- <-. lra.
  - intros (I & J). do 4 eexists. split; [reflexivity|]. lra.
Qed.
Lemma within3_iff base nq ar rest obs p p' r b A0 A1 A2 X Y Z v : sq_axes base = r :: b -> sq_axes ar = [A0; A1; A2] -> sq_pos ar = [X; Y; Z] ->
  define_params3 base nq (ar :: rest) obs p = Ok p' ->
  (within3 p' v <-> Rabs (x3 v - X) <= A0 - 6 / 5 * r /\ Rabs (y3 v - Y) <= A1 - 6 / 5 * r /\ Rabs (z3 v - Z) <= A2 - 6 / 5 * r).
Proof.
  intros E1 E2 E3 H. destruct (params3_inv _ _ _ _ _ _ _ _ _ _ _ _ _ _ _ E1 E2 E3 H) as (L & _). unfold within3. rewrite L, !abs_le. split.
  - intros (a & c & d & e & f0 & g & Q & I & J & K). injection Q as <- <- <- <- <- <-. lra.
  - intros (I & J & K). do 6 eexists. split; [reflexivity|]. lra.
Qed.

Lemma sq_le u m : 0 <= m -> u * u <= m * m -> - m <= u <= m.
Proof. intros P H. split; nra. Qed.
Lemma frac_le u a m : 0 < a -> a <= m -> u * u <= m * m * (u / a * (u / a)).
Proof.
  intros P L. assert (E : u * u = a * a * (u / a * (u / a))) by (field; lra). rewrite E at 1. apply Rmult_le_compat_r; [|nra]. pose proof (Rle_0_sqr (u / a)) as S. unfold Rsqr in S. exact S.
Qed.
Lemma part_sum k u v w U V W : 0 <= k -> u <= k * U -> v <= k * V -> w <= k * W -> U + V + W <= 1 -> u + v + w <= k.
Proof. intros. nra. Qed.
(** An ellipse is inside the circle of its larger semi-axis. *)
Lemma ellipse_round a b t c m p : 0 < a -> 0 < b -> a <= m -> b <= m -> in2 (ellipse_at a b t c) p ->
  Rabs (x2 p - x2 c) <= m /\ Rabs (y2 p - y2 c) <= m.
Proof.
  intros Pa Pb La Lb H. unfold in2, level2, ellipse_at in H. cbn [ba bb be] in H. replace (2 / 1) with 2 in H by field. rewrite !ppow_2 in H.
  unfold along, across in H. cbn [bc bt] in H. pose proof (sin2_cos2 t) as SC. unfold Rsqr in SC.
  set (s := sin t) in *. set (k := cos t) in *. set (dx := x2 p - x2 c) in *. set (dy := y2 p - y2 c) in *.
  set (u := k * dx + s * dy) in *. set (v := - s * dx + k * dy) in *.
  assert (N : dx * dx + dy * dy = u * u + v * v) by (unfold u, v; transitivity ((s * s + k * k) * (dx * dx + dy * dy)); [rewrite SC; ring|ring]).
  pose proof (frac_le u a m Pa La) as F1. pose proof (frac_le v b m Pb Lb) as F2.
  assert (B : dx * dx + dy * dy <= m * m).
  { rewrite N. pose proof (part_sum (m * m) _ _ 0 _ _ 0 (Rle_0_sqr m) F1 F2 (Req_le 0 _ (eq_sym (Rmult_0_r _)))) as G. rewrite !Rplus_0_r in G. exact (G H). } rewrite !abs_le.
  pose proof (Rle_0_sqr dx) as S1. pose proof (Rle_0_sqr dy) as S2. unfold Rsqr in *. split; apply sq_le; lra.
Qed.
(** The end point of the second semi-axis when it is turned to the first coordinate. *)
Lemma tip_up a b c : 0 < a -> 0 < b -> in2 (ellipse_at a b (PI / 2) c) (V2 (x2 c + b) (y2 c)).
Proof.
  intros Pa Pb. unfold in2, level2, ellipse_at. cbn [ba bb be]. replace (2 / 1) with 2 by field. rewrite !ppow_2. unfold along, across. cbn [bc bt x2 y2].
  rewrite cos_PI2, sin_PI2. right. field. lra.
Qed.
Lemma base2_iff base ar rest obs p p' a b A0 A1 X Y : se_axes base = [a; b] -> 0 < a -> 0 < b -> se_axes ar = [A0; A1] -> se_pos ar = [X; Y] ->
  define_params2 base (ar :: rest) obs p = Ok p' -> 3 / 2 * a <= A0 -> 3 / 2 * a <= A1 ->
  ((forall x y t q, within2 p' x y -> in2 (ellipse_at a b t (V2 x y)) q -> in_box2 ar q) <-> b <= 3 / 2 * a).
Proof.
  intros E1 Pa Pb E2 E3 H L1 L2. pose proof (fun x y => within2_iff _ _ _ _ _ _ _ _ _ _ _ _ x y E1 E2 E3 H) as W. unfold in_box2. rewrite E2, E3. cbn [nth]. split.
  - intros K. assert (W0 : within2 p' (X + (A0 - 3 / 2 * a)) Y) by (apply W; rewrite !abs_le; lra).
    specialize (K (X + (A0 - 3 / 2 * a)) Y (PI / 2) _ W0 (tip_up a b _ Pa Pb)).
    cbn [x2 y2] in K. rewrite !abs_le in K. lra.
  - intros B x y t q Wq I. apply W in Wq. destruct Wq as [W1 W2]. destruct (ellipse_round a b t (V2 x y) (3 / 2 * a) q Pa Pb ltac:(lra) B I) as [D1 D2].
    cbn [x2 y2] in D1, D2. rewrite !abs_le in *. lra.
Qed.

(** ---- spatial ---- *)
Lemma turn_norm q v : unit_quat q -> dot3 (turn q v) (turn q v) = dot3 v v.
Proof.
  intros U. rewrite (turn_rotm q v U). unfold unit_quat in U. unfold dot3, app3, rotm, dot3. destruct q as [w x y z]. destruct v as [a b c]. cbn [qw qx qy qz x3 y3 z3 r0 r1 r2] in *.
  assert (Z : w * w = 1 - x * x - y * y - z * z) by lra. ring [Z].
Qed.
Lemma ellipsoid_round a b c q ctr m p : 0 < a -> 0 < b -> 0 < c -> a <= m -> b <= m -> c <= m -> unit_quat q -> in3 (ellipsoid_at a b c q ctr) p ->
  Rabs (x3 p - x3 ctr) <= m /\ Rabs (y3 p - y3 ctr) <= m /\ Rabs (z3 p - z3 ctr) <= m.
Proof.
  intros Pa Pb Pc La Lb Lc U (l & -> & H). unfold placed, ellipsoid_at. cbn [sctr SGeom.sq].
  assert (K : x3 l / a * (x3 l / a) + y3 l / b * (y3 l / b) + z3 l / c * (z3 l / c) <= 1).
  { unfold shape3, ellipsoid_at in H. cbn [sa sb sc s1 s2] in H. replace (2 / 1) with 2 in H by field. replace (1 / 1) with 1 in H by field. rewrite !ppow_2 in H.
    match type of H with ppow ?w 1 + _ <= 1 => assert (P1 : ppow w 1 = w) end.
    { assert (G : forall w, 0 <= w -> ppow w 1 = w).
      { intros w Pw. unfold ppow. destruct (Req_EM_T w 0) as [->|N]; [reflexivity|]. rewrite (Rabs_pos_eq w Pw). apply Rpower_1. lra. }
      apply G. pose proof (Rle_0_sqr (x3 l / a)) as S1. pose proof (Rle_0_sqr (y3 l / b)) as S2. unfold Rsqr in *. lra. }
    rewrite P1 in H. lra. }
  pose proof (frac_le (x3 l) a m Pa La) as F1. pose proof (frac_le (y3 l) b m Pb Lb) as F2. pose proof (frac_le (z3 l) c m Pc Lc) as F3.
  pose proof (turn_norm q l U) as N. unfold dot3 in N. set (d := turn q l) in *. clearbody d. unfold add3. cbn [x3 y3 z3].
  assert (B : x3 d * x3 d + y3 d * y3 d + z3 d * z3 d <= m * m).
  { rewrite N. exact (part_sum (m * m) _ _ _ _ _ _ (Rle_0_sqr m) F1 F2 F3 K). }
  replace (x3 ctr + x3 d - x3 ctr) with (x3 d) by ring. replace (y3 ctr + y3 d - y3 ctr) with (y3 d) by ring. replace (z3 ctr + z3 d - z3 ctr) with (z3 d) by ring.
  rewrite !abs_le. pose proof (Rle_0_sqr (x3 d)) as S1. pose proof (Rle_0_sqr (y3 d)) as S2. pose proof (Rle_0_sqr (z3 d)) as S3. unfold Rsqr in *. repeat split; try (apply sq_le; lra).
  all: apply (sq_le _ m); lra.
Qed.
(** ---- smallest semi-axis ---- *)
Lemma smaller_spec l m : let r := smaller m l in (r = m \/ In r l) /\ r <= m /\ forall a, In a l -> r <= a.
Proof.
  cbv zeta. unfold smaller. revert m. induction l as [|h l IH]; intros m; cbn [fold_left].
  - split; [left; reflexivity|]. split; [lra|]. intros a [].
  - destruct (Rlt_dec h m) as [L|L].
    + destruct (IH h) as (A & B & C). split; [destruct A as [A|A]; [right; left; symmetry; exact A|right; right; exact A]|]. split; [lra|].
      intros a [<-|I]; [exact B|exact (C a I)].
    + destruct (IH m) as (A & B & C). split; [destruct A as [A|A]; [left; exact A|right; right; exact A]|]. split; [exact B|].
      intros a [<-|I]; [lra|exact (C a I)].
Qed.
Lemma fold_spec obs m : let r := fold_left smaller obs m in (r = m \/ exists o, In o obs /\ In r o) /\ r <= m /\ forall o a, In o obs -> In a o -> r <= a.
Proof.
  cbv zeta. revert m. induction obs as [|o obs IH]; intros m; cbn [fold_left].
  - split; [left; reflexivity|]. split; [lra|]. intros o a [].
  - destruct (smaller_spec o m) as (A & B & C). destruct (IH (smaller m o)) as (A' & B' & C'). split.
    + destruct A' as [A'|(o' & I & J)]; [rewrite A'; destruct A as [A|A]; [left; exact A|right; exists o; split; [left; reflexivity|exact A]]|right; exists o'; split; [right; exact I|exact J]].
    + split; [lra|]. intros o' a [<-|I] J; [specialize (C a J); lra|exact (C' o' a I J)].
Qed.
Lemma min_size_spec obs m : min_size obs = Ok m -> smallest obs m.
Proof.
  unfold min_size. intros H. destruct obs as [|[|a o] obs]; cbn [at_ nth_error obind] in H; try discriminate H. injection H as <-.
  destruct (fold_spec ((a :: o) :: obs) a) as (A & B & C). split; [|exact C]. destruct A as [A|A]; [|exact A].
  change (exists o0, In o0 ((a :: o) :: obs) /\ In (fold_left smaller ((a :: o) :: obs) a) o0). rewrite A. exists (a :: o). split; [left; reflexivity|left; reflexivity].
Qed.
Lemma min_size_ok o a obs : exists m, min_size ((a :: o) :: obs) = Ok m.
Proof. eexists. reflexivity. Qed.
Lemma smallest_unique obs m m' : smallest obs m -> smallest obs m' -> m = m'.
Proof. intros ((o & I & J) & K) ((o' & I' & J') & K'). pose proof (K o' m' I' J'). pose proof (K' o m I J). lra. Qed.

(** ---- quotients ---- *)
Lemma ok_inj_ {A} (a b : A) : Ok a = Ok b -> a = b.
Proof. intros H. injection H. auto. Qed.
Lemma int_part x : IZR (Int_part x) <= x < IZR (Int_part x) + 1.
Proof. destruct (base_Int_part x). lra. Qed.
Lemma int_part_nonneg x : 0 <= x -> (0 <= Int_part x)%Z.
Proof. intros H. pose proof (int_part x) as [_ L]. apply Z.lt_succ_r. apply lt_IZR. rewrite succ_IZR. lra. Qed.
Lemma div_bounds x m n : 0 < m -> IZR n <= x / m < IZR n + 1 -> IZR n * m <= x < (IZR n + 1) * m.
Proof. intros P [L U]. assert (E : x = x / m * m) by (field; lra). split; [rewrite E|rewrite E at 1]; [apply Rmult_le_compat_r; lra|apply Rmult_lt_compat_r; lra]. Qed.
Lemma int_quot_pos x m n : 0 < m -> 0 <= x -> int_quot x m = Ok n -> IZR n * m <= x < (IZR n + 1) * m /\ (0 <= n < 2 ^ 31)%Z.
Proof.
  intros P X H. unfold int_quot in H. destruct (Req_EM_T m 0) as [E|_]; [lra|]. assert (Q : 0 <= x / m) by (apply Rle_mult_inv_pos; assumption).
  unfold trunc in H. destruct (Rle_dec 0 (x / m)) as [_|N]; [|contradiction]. pose proof (int_part_nonneg _ Q) as P0.
  destruct (Z.leb (- 2 ^ 31) (Int_part (x / m)) && Z.ltb (Int_part (x / m)) (2 ^ 31))%bool eqn:B; [|discriminate H]. apply andb_prop in B. destruct B as [_ B]. apply Z.ltb_lt in B.
  injection H as H. rewrite Z.mod_small in H by lia. subst n. split; [apply div_bounds; [exact P|apply int_part]|lia].
Qed.
Lemma int_quot_neg x m n : 0 < m -> x <= - m -> int_quot x m = Ok n -> (2 ^ 64 - 2 ^ 31 <= n < 2 ^ 64)%Z.
Proof.
  intros P X H. unfold int_quot in H. destruct (Req_EM_T m 0) as [E|_]; [lra|].
  assert (Q : x / m <= -1). { apply (Rmult_le_reg_r m); [exact P|]. replace (x / m * m) with x by (field; lra). lra. }
  unfold trunc in H. destruct (Rle_dec 0 (x / m)) as [N|_]; [lra|].
  assert (T : (1 <= Int_part (- (x / m)))%Z). { pose proof (int_part (- (x / m))) as [_ L]. apply Z.lt_succ_r. apply lt_IZR. rewrite succ_IZR. lra. }
  destruct (Z.leb (- 2 ^ 31) (- Int_part (- (x / m))) && Z.ltb (- Int_part (- (x / m))) (2 ^ 31))%bool eqn:B; [|discriminate H]. apply andb_prop in B. destruct B as [B _]. apply Z.leb_le in B.
  apply ok_inj_ in H. set (k := Int_part (- (x / m))) in *. clearbody k.
  assert (E : (- k mod 2 ^ 64 = 2 ^ 64 - k)%Z). { symmetry. apply (Z.mod_unique (- k) (2 ^ 64) (-1) (2 ^ 64 - k)); lia. }
  rewrite E in H. lia.
Qed.
Lemma int_quot_small x m : 0 < m -> - m < x < m -> int_quot x m = Ok 0%Z.
Proof.
  intros P X. unfold int_quot. destruct (Req_EM_T m 0) as [E|_]; [lra|].
  assert (Q : -1 < x / m < 1). { split; apply (Rmult_lt_reg_r m); try exact P; replace (x / m * m) with x by (field; lra); lra. }
  assert (T : trunc (x / m) = 0%Z).
  { assert (G : forall y, 0 <= y < 1 -> Int_part y = 0%Z).
    { intros y [Y0 Y1]. pose proof (int_part_nonneg y Y0). pose proof (int_part y) as [L _]. assert (Int_part y < 1)%Z by (apply lt_IZR; lra). lia. }
    unfold trunc. destruct (Rle_dec 0 (x / m)) as [N|N]; [apply G; lra|]. rewrite G by lra. reflexivity. }
  rewrite T. reflexivity.
Qed.
Lemma floor_quot_pos x m n : 0 < m -> floor_quot x m = Ok n -> 0 <= x /\ IZR n * m <= x < (IZR n + 1) * m /\ (0 <= n < 2 ^ 64)%Z.
Proof.
  intros P H. unfold floor_quot in H. destruct (Req_EM_T m 0) as [E|_]; [lra|].
  destruct (Z.leb 0 (Int_part (x / m)) && Z.ltb (Int_part (x / m)) (2 ^ 64))%bool eqn:B; [|discriminate H]. apply andb_prop in B. destruct B as [B1 B2]. apply Z.leb_le in B1. apply Z.ltb_lt in B2.
  injection H as <-. pose proof (div_bounds x m _ P (int_part (x / m))) as D. split; [|split; [exact D|lia]]. apply IZR_le in B1. nra.
Qed.
Lemma floor_quot_neg x m : 0 < m -> x < 0 -> floor_quot x m = UB.
Proof.
  intros P X. unfold floor_quot. destruct (Req_EM_T m 0) as [E|_]; [reflexivity|].
  assert (Q : x / m < 0). { apply (Rmult_lt_reg_r m); [exact P|]. replace (x / m * m) with x by (field; lra). lra. }
  assert (T : (Int_part (x / m) < 0)%Z). { pose proof (int_part (x / m)) as [L _]. apply lt_IZR. lra. }
  apply Z.leb_gt in T. rewrite T. reflexivity.
Qed.
(** ---- spacing ---- *)
Lemma wide_gap c h m n i : 0 < m -> (2 <= n)%Z -> IZR n * m <= h ->
  sweep_at (c - h) (c + h) n (i + 1) - sweep_at (c - h) (c + h) n i > 2 * m.
Proof.
  intros P N H. unfold sweep_at. rewrite plus_IZR. apply IZR_le in N. set (k := IZR n) in *. clearbody k.
  replace (c - h + (IZR i + 1) * ((c + h - (c - h)) / (k - 1)) - (c - h + IZR i * ((c + h - (c - h)) / (k - 1)))) with (2 * h / (k - 1)) by (field; lra).
  apply Rlt_gt. apply (Rmult_lt_reg_r (k - 1)); [lra|]. replace (2 * h / (k - 1) * (k - 1)) with (2 * h) by (field; lra). nra.
Qed.
Lemma gap_bound c h m n i : 0 < m -> (2 <= n)%Z -> h < (IZR n + 1) * m ->
  sweep_at (c - h) (c + h) n (i + 1) - sweep_at (c - h) (c + h) n i < 2 * (m + 2 * m / (IZR n - 1)).
Proof.
  intros P N H. unfold sweep_at. rewrite plus_IZR. apply IZR_le in N. set (k := IZR n) in *. clearbody k.
  replace (c - h + (IZR i + 1) * ((c + h - (c - h)) / (k - 1)) - (c - h + IZR i * ((c + h - (c - h)) / (k - 1)))) with (2 * h / (k - 1)) by (field; lra).
  apply (Rmult_lt_reg_r (k - 1)); [lra|]. replace (2 * h / (k - 1) * (k - 1)) with (2 * h) by (field; lra).
  replace (2 * (m + 2 * m / (k - 1)) * (k - 1)) with (2 * ((k + 1) * m)) by (field; lra). lra.
Qed.
(** A band as high as the gap contains a line. *)
Lemma band_hit lo d n y g : 0 < d -> (1 <= n)%Z -> lo <= y - g -> y - g <= lo + IZR (n - 1) * d -> d <= 2 * g ->
  exists i, (0 <= i < n)%Z /\ y - g <= lo + IZR i * d <= y + g.
Proof.
  intros P N L U D. set (x := (y - g - lo) / d). assert (X : x * d = y - g - lo) by (unfold x; field; lra).
  assert (X0 : 0 <= x) by (unfold x; apply Rle_mult_inv_pos; lra).
  destruct (archimed x) as [A1' A2'].
  destruct (Req_dec x (IZR (up x - 1))) as [E|E].
  - exists (up x - 1)%Z. rewrite minus_IZR in *. rewrite <- E. split; [|split; nra].
    split; [apply le_IZR; rewrite minus_IZR, <- E; exact X0|]. apply lt_IZR. rewrite minus_IZR, <- E. assert (x <= IZR n - 1) by nra. lra.
  - exists (up x). rewrite minus_IZR in E. assert (IZR (up x) - 1 < x) by lra.
    assert (Z0 : (up x < n)%Z). { assert (T : IZR (up x) - 1 < IZR n - 1) by (rewrite minus_IZR in U; nra). apply lt_IZR. lra. }
    split; [split; [apply le_IZR; lra|exact Z0]|]. split; nra.
Qed.

Lemma band_swept c h m n y g : 0 < m -> (2 <= n)%Z -> IZR n * m <= h < (IZR n + 1) * m -> m + 2 * m / (IZR n - 1) <= g -> c - h <= y - g <= c + h ->
  exists i, (0 <= i < n)%Z /\ y - g <= sweep_at (c - h) (c + h) n i <= y + g.
Proof.
  intros P N [H1 H2] G [B1' B2']. pose proof (gap_bound c h m n 0 P N H2) as D. pose proof (wide_gap c h m n 0 P N H1) as D'. unfold sweep_at in *. change (IZR (0 + 1)) with 1 in *.
  pose proof (IZR_le _ _ N) as N'. set (d := (c + h - (c - h)) / (IZR n - 1)) in *.
  assert (E : (IZR n - 1) * d = 2 * h) by (unfold d; field; lra).
  apply (band_hit (c - h) d n y g); [lra|lia|exact B1'| |lra]. rewrite minus_IZR, E. lra.
Qed.
