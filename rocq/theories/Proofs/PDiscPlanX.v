(** A scene with one round obstacle whose boundary is given to nine decimals. *)
From Coq Require Import List Reals ZArith Arith Bool Lia Lra Psatz.
From Flocq Require Import Core.Core.
From Flocq.Prop Require Import Relative.
From Verif.Base Require Import Outcome Float64 FloatFacts.
From Verif.Model Require Import MScalar MInterval MLine2D MGeom MGraph MSearch MHRM2D.
From Verif.Spec Require Import SLine2D SGeom SRigid SPlanner2D SCover SClear SHline.
From Verif.Proofs Require Import PSampling PLine2D PGeom PGeom2 PGeomX PShape PCover PCoverX PHRM2DW PPlan2DY PHline PHlineX PDiscPlan.
Import ListNotations.
Local Open Scope R_scope.

Lemma pi_nine : 3.14159265354 < PI < 3.14159265364.
Proof.
  pose proof (PI_2_3_7_ineq 5) as [H K].
  unfold tg_alt, PI_2_3_7_tg, Ratan_seq in H, K. cbn -[pow INR] in H, K.
  repeat (rewrite S_INR in H). repeat (rewrite S_INR in K). cbn [INR pow Nat.mul Nat.add] in H, K. lra.
Qed.
Definition nano (k : Z) : f64 := fdiv (fofZ k) (fofZ 1000000000).
Definition disc5 : poly64 := [(fofZ 5, fofZ 0); (nano 134, fofZ 5); (fofZ (-5), nano 268); (nano (-402), fofZ (-5)); (fofZ 5, nano (-536))].
Definition E12 : env := demo_env 3 [disc5] [[]] (zpose 0 (-10) 0) (zpose 0 10 0).
Definition way_y (E : env) (o : outcome (state E * option (list pose * list pose))) (n k : nat) (y : f64) : bool :=
  match o with
  | Ok (_, Some (path, _)) => Nat.eqb (length path) n && match nth_error path k with Some [_; b; _] => feqb b y | _ => false end
  | _ => false end.
Lemma E12_way : way_y E12 (run E12 origin 6 1 []) 8 3 (fofZ (-2)) = true.
Proof. vm_compute. reflexivity. Qed.
Lemma way_y_ok E r ny nO n k y : fisfin y = true -> way_y E (run E r ny nO []) n k y = true ->
  exists s0 s path a b h, construct E r r 1 ny 1 nO = Ok s0 /\ plan E (connect_multi E) [] s0 = Ok (s, Some (path, path)) /\
    length path = n /\ nth_error path k = Some [a; b; h] /\ fval b = fval y.
Proof.
  intros Fy H. unfold way_y in H. destruct (run E r ny nO []) as [[s [[path ip]|]]| |] eqn:R; [|discriminate H..].
  apply andb_prop in H. destruct H as [L H]. apply Nat.eqb_eq in L.
  destruct (nth_error path k) as [[|a [|b [|h [|]]]]|] eqn:Q; try discriminate H.
  apply demo_construct in R. destruct R as (s0 & C & P).
  pose proof (plan_result _ _ _ _ _ _ P) as [[_ W]|(_ & p & W & _)]; [discriminate W|]. injection W as W1 W2. subst ip p.
  exists s0, s, path, a, b, h. split; [exact C|]. split; [exact P|]. split; [exact L|]. split; [exact Q|].
  apply feqb_val_true; assumption.
Qed.
Lemma close_accurate eps A P o : (3 <= d_n o)%nat -> 0 < d_r o -> 0 < A ->
  Forall2 (close_pt eps) (real_poly P) (disc_poly (V2 (d_x o) (d_y o)) (d_r o + A) (d_t o) (d_n o)) -> accurate_boundary eps A P o.
Proof.
  intros N Hr HA F.
  destruct (mink_discs (d_r o) (d_x o) (d_y o) (d_t o) (d_n o) A 1 [0; 0] 0 (d_n o) N Hr HA) as (bd & E & SP).
  exists bd. split; [exact E|]. clear E. revert F SP. unfold sampled_polygon, lift_poly. generalize (disc_poly (V2 (d_x o) (d_y o)) (d_r o + A) (d_t o) (d_n o)).
  revert bd. induction P as [|p P IH]; intros bd D F SP.
  - inversion F; subst. destruct bd; [constructor|discriminate SP].
  - cbn [real_poly map] in F. inversion F as [|? d ? D' [C1' C2] F']; subst. destruct bd as [|q bd]; [discriminate SP|]. cbn [map] in SP.
    injection SP as S1 S2. constructor; [|exact (IH bd D' F' S2)]. destruct q as [v|]; [|discriminate S1].
    exists v. split; [reflexivity|]. destruct d as [d1 d2]. injection S1 as S1 S3. unfold real_pt in *. cbn [fst snd] in *. subst. split; assumption.
Qed.
Lemma nano_val k : (Z.abs k <= 1000)%Z -> fisfin (nano k) = true /\ Rabs (fval (nano k) - IZR k / 1000000000) <= 1 / 100000000000000.
Proof.
  intros H. unfold nano. assert (V : forall z, (Z.abs z <= 1000000000)%Z -> fval (fofZ z) = IZR z) by (intros z Hz; apply fofZ_val; lia).
  assert (K : Rabs (IZR k / 1000000000) <= 1 / 1000000).
  { unfold Rdiv at 1. rewrite Rabs_mult, (Rabs_pos_eq (/ 1000000000)) by lra. rewrite <- abs_IZR. apply IZR_le in H. lra. }
  destruct (fdiv_val (fofZ k) (fofZ 1000000000)) as [Fd Vd]; [apply fofZ_fin; lia|apply fofZ_fin; lia|rewrite V by lia; lra| |].
  { rewrite !V by lia. apply Rle_trans with (1 := K). apply Rle_trans with (bpow radix2 0); [cbn; lra|apply bpow_le; lia]. }
  split; [exact Fd|]. rewrite Vd, !V by lia. destruct (rnd_any (IZR k / 1000000000)) as (e & n & He & Hn & ->).
  pose proof (mabs _ _ _ _ He K) as M1. 
  replace (IZR k / 1000000000 * (1 + e) + n - IZR k / 1000000000) with (e * (IZR k / 1000000000) + n) by ring.
  apply Rle_trans with (1 := Rabs_triang _ _). 
  assert (U : uu <= 1 / 1000000000) by (apply Rle_trans with (bpow radix2 (-52)); [first [apply Rle_refl|apply bpow_le; lia]|cbn; lra]).
  assert (T : eta <= 1 / 1000000000000000) by (apply Rle_trans with (bpow radix2 (-60)); [apply bpow_le; lia|cbn; lra]). lra.
Qed.
Lemma sin_tiny x : 0 <= x <= 1 / 1000000 -> x - 1 / 1000000000000000 <= sin x <= x.
Proof.
  intros H. pose proof (pre_sin_bound x 0 ltac:(lra) ltac:(lra)) as [L U].
  cbn [Nat.mul Nat.add] in L, U. unfold sin_approx, sum_f_R0, sin_term in L, U. cbn [Nat.mul Nat.add pow fact INR] in L, U.
  assert (x * x <= 1 / 1000000000000) by nra. assert (0 <= x * x) by nra. assert (x * (x * x) <= 1 / 1000000000000000000) by nra. cbn in L, U. 
  assert (0 <= x * (x * x)) by (apply Rmult_le_pos; lra). 
  split; [lra|]. destruct (Req_dec x 0) as [-> |Nz]; [rewrite sin_0; lra|]. left. apply sin_lt_x. lra.
Qed.
Lemma cos_tiny x : 0 <= x <= 1 / 1000000 -> 1 - 1 / 1000000000000 <= cos x <= 1.
Proof.
  intros H. pose proof (sin_tiny (x / 2) ltac:(lra)) as [L U]. pose proof (COS_bound x) as [_ C]. split; [|exact C].
  replace x with (2 * (x / 2)) at 1 by field. rewrite cos_2a_sin. assert (0 <= sin (x / 2) \/ sin (x/2) < 0) as [K|K] by lra; [|assert (0 <= sin (x / 2)) by (apply sin_ge_0; pose proof PI_4; pose proof PI2_1; lra); lra].
  assert (sin (x / 2) * sin (x / 2) <= 1 / 2000000 * (1 / 2000000)) by (apply Rmult_le_compat; lra). lra.
Qed.
Definition round5 : disc := Disc 4 0 0 0 5.
Lemma th5 i : theta 5 i = INR i * (PI / 2) - INR i * ((PI - cPI) / 2).
Proof. rewrite theta_step by lia. unfold hstep. cbn [INR]. field. Qed.
Lemma disc5_near : Forall2 (close_pt (1 / 1000000000)) (real_poly disc5) (disc_poly (V2 0 0) 5 0 5).
Proof.
  pose proof pi_nine as [P1 P2]. assert (D : 1 / 100000000 * 5.354 <= PI - cPI <= 1 / 100000000 * 5.364) by (unfold cPI; lra).
  assert (T : forall i, theta 5 i = INR i * (PI / 2) - INR i * ((PI - cPI) / 2)) by exact th5.
  revert T. set (d := (PI - cPI) / 2). assert (Dd : 1 / 100000000 * 2.677 <= d <= 1 / 100000000 * 2.682) by (unfold d; lra). clearbody d.
  assert (V : forall z, (Z.abs z <= 1000)%Z -> fval (fofZ z) = IZR z) by (intros z Hz; apply fofZ_val; lia).
  intros T.
  assert (S1' : d - 1 / 1000000000000000 <= sin d <= d) by (apply sin_tiny; lra). assert (K1 : 1 - 1 / 1000000000000 <= cos d <= 1) by (apply cos_tiny; lra).
  assert (S2' : 2 * d - 1 / 1000000000000000 <= sin (2 * d) <= 2 * d) by (apply sin_tiny; lra). assert (K2 : 1 - 1 / 1000000000000 <= cos (2 * d) <= 1) by (apply cos_tiny; lra).
  assert (S3' : 3 * d - 1 / 1000000000000000 <= sin (3 * d) <= 3 * d) by (apply sin_tiny; lra). assert (K3 : 1 - 1 / 1000000000000 <= cos (3 * d) <= 1) by (apply cos_tiny; lra).
  assert (S4' : 4 * d - 1 / 1000000000000000 <= sin (4 * d) <= 4 * d) by (apply sin_tiny; lra). assert (K4 : 1 - 1 / 1000000000000 <= cos (4 * d) <= 1) by (apply cos_tiny; lra).
  destruct (nano_val 134 ltac:(lia)) as [_ N1]. destruct (nano_val 268 ltac:(lia)) as [_ N2]. destruct (nano_val (-402) ltac:(lia)) as [_ N3]. destruct (nano_val (-536) ltac:(lia)) as [_ N4].
  apply Rabs_le_inv in N1, N2, N3, N4.
  unfold disc_poly. cbn [seq map real_poly disc5]. unfold vert, circ, real_pt, close_pt. rewrite !T. cbn [fst snd x2 y2 INR]. rewrite !V by lia.
  replace (0 + (0 * (PI / 2) - 0 * d)) with 0 by ring.
  replace (0 + (1 * (PI / 2) - 1 * d)) with (PI / 2 - d) by ring.
  replace (0 + ((1 + 1) * (PI / 2) - (1 + 1) * d)) with (PI - 2 * d) by field.
  replace (0 + ((1 + 1 + 1) * (PI / 2) - (1 + 1 + 1) * d)) with (3 * (PI / 2) - 3 * d) by field.
  replace (0 + ((1 + 1 + 1 + 1) * (PI / 2) - (1 + 1 + 1 + 1) * d)) with (2 * PI - 4 * d) by field.
  rewrite ?cos_0, ?sin_0, ?cos_minus, ?sin_minus, ?cos_PI2, ?sin_PI2, ?cos_PI, ?sin_PI, ?cos_3PI2, ?sin_3PI2, ?cos_2PI, ?sin_2PI.
  generalize dependent (fval (nano 134)). generalize dependent (fval (nano 268)). generalize dependent (fval (nano (-402))). generalize dependent (fval (nano (-536))).
  intros n1 N1 n2 N2 n3 N3 n4 N4.
  repeat (apply Forall2_cons); [..|apply Forall2_nil]; cbn [fst snd]; split; apply Rabs_le; lra.
Qed.
Lemma disc5_accurate : accurate_boundary (1 / 1000000000) 1 disc5 round5.
Proof.
  apply close_accurate; cbn [d_n d_r d_x d_y d_t round5]; [lia|lra|lra|]. replace (4 + 1) with 5 by ring. exact disc5_near.
Qed.
Lemma disc5_coords p : In p disc5 -> (fisfin (fst p) = true /\ Rabs (fval (fst p)) <= 5) /\ (fisfin (snd p) = true /\ Rabs (fval (snd p)) <= 5) /\ fval (snd p) <> -2.
Proof.
  assert (V : forall z, (Z.abs z <= 1000)%Z -> fval (fofZ z) = IZR z) by (intros z Hz; apply fofZ_val; lia).
  assert (Fi : forall z, (Z.abs z <= 1000)%Z -> fisfin (fofZ z) = true) by (intros z Hz; apply fofZ_fin; lia).
  destruct (nano_val 134 ltac:(lia)) as [M1 N1]. destruct (nano_val 268 ltac:(lia)) as [M2 N2]. destruct (nano_val (-402) ltac:(lia)) as [M3 N3]. destruct (nano_val (-536) ltac:(lia)) as [M4 N4].
  apply Rabs_le_inv in N1, N2, N3, N4.
  revert N1 N2 N3 N4 M1 M2 M3 M4. unfold disc5.
  generalize (nano 134) (nano 268) (nano (-402)) (nano (-536)). intros n1 n2 n3 n4 N1 N2 N3 N4 M1 M2 M3 M4.
  assert (G : forall a b : f64, fisfin a = true -> fisfin b = true -> -5 <= fval a <= 5 -> -5 <= fval b <= 5 -> fval b <> -2 ->
    (fisfin a = true /\ Rabs (fval a) <= 5) /\ (fisfin b = true /\ Rabs (fval b) <= 5) /\ fval b <> -2).
  { intros a b Fa Fb Ba Bb Nb. split; [split; [exact Fa|apply Rabs_le; exact Ba]|]. split; [split; [exact Fb|apply Rabs_le; exact Bb]|exact Nb]. }
  intros [<- |[<- |[<- |[<- |[<- |[]]]]]]; cbn [fst snd]; apply G; try (apply Fi; lia); try assumption; rewrite ?V by lia;
  try generalize dependent (fval n1); try generalize dependent (fval n2); try generalize dependent (fval n3); try generalize dependent (fval n4); intros; lra.
Qed.
Lemma E12_polygons : forall P, In P (barena (e_mink E12 origin)) \/ In P (bobstacle (e_mink E12 origin)) -> moderate_poly P.
Proof.
  assert (K : 5 <= bpow radix2 1021) by (apply Rle_trans with (bpow radix2 3); [cbn; lra|apply bpow_le; lia]).
  intros P [H|H]; cbn [barena bobstacle e_mink E12 demo_env In] in H; destruct H as [<- |[]].
  - unfold box; apply zp_moderate; intros p Hp; destruct Hp as [<- |[<- |[<- |[<- |[]]]]]; cbn [fst snd]; lia.
  - intros p Hp. destruct (disc5_coords p Hp) as ((F1 & B1') & (F2 & B2') & _). split; (split; [assumption|]); [exact (Rle_trans _ _ _ B1' K)|exact (Rle_trans _ _ _ B2' K)].
Qed.
Lemma disc5_reach : reach disc5 5.
Proof. intros p Hp. destruct (disc5_coords p Hp) as ((_ & B1') & _). exact B1'. Qed.
Lemma disc5_between : between_vertices disc5 (-2).
Proof. intros p Hp. destruct (disc5_coords p Hp) as (_ & _ & B1'). exact B1'. Qed.
(** The bound of the claim in this scene: more than 3. *)
Lemma disc5_bound : 3 < (d_r round5 + 1) * cos (31415926 / 10000000 / (INR (d_n round5) - 1)) - 350000000 * (1 / 1000000000) - hit_error 5.
Proof.
  cbn [d_r d_n round5 INR].
  assert (C : cos (PI / 4) <= cos (31415926 / 10000000 / (1 + 1 + 1 + 1 + 1 - 1))).
  { pose proof pi_lo as PL. unfold cPI in PL. apply cos_decr_1; lra. }
  rewrite cos_PI4 in C.
  assert (Q : 7 / 10 <= 1 / sqrt 2).
  { assert (S0 : 0 < sqrt 2) by (apply sqrt_lt_R0; lra). assert (S2 : sqrt 2 * sqrt 2 = 2) by (apply sqrt_sqrt; lra).
    assert (S1 : sqrt 2 <= 10 / 7) by nra. apply Rmult_le_reg_r with (sqrt 2); [exact S0|]. unfold Rdiv at 2. rewrite Rmult_assoc, Rinv_l by lra. lra. }
  assert (HE : hit_error 5 <= 1 / 10).
  { unfold hit_error. assert (bpow radix2 (-49) <= bpow radix2 (-7)) by (apply bpow_le; lia). assert (bpow radix2 (-1073) <= bpow radix2 (-7)) by (apply bpow_le; lia).
    assert (bpow radix2 (-7) = / 128) by (cbn; lra). lra. }
  generalize dependent (cos (31415926 / 10000000 / (1 + 1 + 1 + 1 + 1 - 1))). intros; lra.
Qed.
Lemma E12_run : exists s0 s path x y h, construct E12 origin origin 1 6 1 1 = Ok s0 /\ plan E12 (connect_multi E12) [] s0 = Ok (s, Some (path, path)) /\
  length path = 8%nat /\ nth_error path 3 = Some [x; y; h] /\ fval y = -2.
Proof.
  destruct (way_y_ok E12 origin 6 1 8 3 (fofZ (-2)) (fofZ_fin (-2) ltac:(lia)) E12_way) as (s0 & s & path & a & b & h & C & P & L & Q & V).
  exists s0, s, path, a, b, h. split; [exact C|]. split; [exact P|]. split; [exact L|]. split; [exact Q|]. rewrite V. apply fofZ_val. lia.
Qed.
