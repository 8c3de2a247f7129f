(** What the computed crossings mean geometrically, and the clearance of the roadmap that follows. *)
From Coq Require Import List Reals ZArith Arith Bool Lia Lra.
From Flocq Require Import Core.Core.
From Verif.Base Require Import Outcome Float64 FloatFacts.
From Verif.Model Require Import MScalar MLine2D MGraph MSearch MHRM2D.
From Verif.Model Require Import MInterval MFreeSpace.
From Verif.Spec Require Import SInterval SFreeSpace SGraph SSearch SLine2D SPlanner2D SCover SClear SHline.
From Verif.Proofs Require Import PLine2D PSampling PInterval PSearch PHRM2D PPlan2D PPlan2DY PHRM2DW PClear PClearX PCover PHline.
Import ListNotations.
Local Open Scope R_scope.
Local Opaque fval fofZ fsub fadd fmul fdiv fleb fltb hit_error.

Lemma real_poly_ne P : P <> [] -> real_poly P <> [].
Proof. intros H Q. apply H. destruct P; [reflexivity|discriminate Q]. Qed.
Lemma ok_eq_ {A} (x y : A) : Ok x = Ok y -> x = y.
Proof. intros H. injection H. auto. Qed.
Lemma some_map_in (l : list R) x : In (Some x) (map Some l) -> In x l.
Proof. intros H. apply in_map_iff in H. destruct H as (y & Q & H). injection Q as ->. exact H. Qed.
Lemma f2_in_l {A B} (Q : A -> B -> Prop) l m : Forall2 Q l m -> forall a, In a l -> exists b, In b m /\ Q a b.
Proof.
  induction 1 as [|x y l m H F IH]; intros a Ha; [destruct Ha|]. destruct Ha as [<-|Ha]; [exists y; split; [left; reflexivity|exact H]|].
  destruct (IH a Ha) as (b & Hb & Hq). exists b. split; [right; exact Hb|exact Hq].
Qed.
Lemma f2_in_r {A B} (Q : A -> B -> Prop) l m : Forall2 Q l m -> forall b, In b m -> exists a, In a l /\ Q a b.
Proof.
  induction 1 as [|x y l m H F IH]; intros b Hb; [destruct Hb|]. destruct Hb as [<-|Hb]; [exists x; split; [left; reflexivity|exact H]|].
  destruct (IH b Hb) as (a & Ha & Hq). exists a. split; [right; exact Ha|exact Hq].
Qed.

Lemma f2len {A B} (Q : A -> B -> Prop) l m : Forall2 Q l m -> length l = length m.
Proof. induction 1; cbn; auto. Qed.
(** C92 *)
Lemma hits_geometric (ty : f64) (P : list (f64 * f64)) (M : R) : P <> [] -> moderate ty -> moderate_poly P -> reach P M ->
  exists hits, hline_polygon F64 ty P = Ok hits /\ (length hits <= length P)%nat /\
    (forall h, In h hits -> fisfin h = true /\ exists x a b, is_edge (real_poly P) a b /\ snd a <> snd b /\ on_segment a b (x, fval ty) /\ Rabs (fval h - x) <= hit_error M) /\
    (forall x a b, is_edge (real_poly P) a b -> snd a <> snd b -> on_segment a b (x, fval ty) -> exists h, In h hits /\ Rabs (fval h - x) <= hit_error M).
Proof.
  intros Ne Mt MP Rc. destruct (hline_polygon_near ty P M Ne Mt MP Rc) as (hits & xs & H & HX & F2).
  destruct (hline_polygon_XR (fval ty) (real_poly P) (real_poly_ne P Ne)) as (r & Hr & Hi & Hl).
  assert (r = map Some xs) as -> by (apply ok_eq_; rewrite <- Hr; exact HX).
  exists hits. split; [exact H|]. split; [|split].
  - refine (Nat.le_trans _ _ _ (Nat.eq_le_incl _ _ (f2len _ _ _ F2)) _). rewrite map_length in Hl. unfold real_poly in Hl. rewrite map_length in Hl. exact Hl.
  - intros h Hh. destruct (f2_in_l _ _ _ F2 h Hh) as (x & Hx & F & B). split; [exact F|].
    destruct (proj1 (Hi (Some x)) (in_map Some _ _ Hx)) as (x' & a & b & Q & E & N & S). injection Q as <-.
    exists x, a, b. split; [exact E|]. split; [exact N|]. split; [exact S|exact B].
  - intros x a b E N S. assert (Hx : In (Some x) (map Some xs)) by (apply Hi; exists x, a, b; auto).
    apply some_map_in in Hx. destruct (f2_in_r _ _ _ F2 x Hx) as (h & Hh & _ & B). exists h. split; [exact Hh|exact B].
Qed.

Lemma deep_blocked (x y : f64) (P : list (f64 * f64)) (M : R) : P <> [] -> moderate y -> moderate_poly P -> reach P M ->
  (forall v, In v P -> fval (snd v) <> fval y) ->
  strictly_inside (real_poly P) (fval x - hit_error M, fval y) -> strictly_inside (real_poly P) (fval x + hit_error M, fval y) ->
  exists h0 h1, crosses2 P y h0 h1 /\ Rmin (fval h0) (fval h1) < fval x < Rmax (fval h0) (fval h1).
Proof.
  intros Ne My MP Rc V I1 I2. destruct (hline_polygon_near y P M Ne My MP Rc) as (hits & xs & H & HX & F2).
  assert (V' : forall z (v : rpoint), In v (real_poly P) -> snd v <> snd ((z, fval y) : rpoint)).
  { intros z v Hv. unfold real_poly in Hv. apply in_map_iff in Hv. destruct Hv as (q & <- & Hq). exact (V q Hq). }
  destruct (covered (real_poly P) (fval x - hit_error M, fval y) (real_poly_ne P Ne) I1 (V' _)) as (a0 & a1 & r1 & H1 & B1).
  destruct (covered (real_poly P) (fval x + hit_error M, fval y) (real_poly_ne P Ne) I2 (V' _)) as (b0 & b1 & r2 & H2 & B2).
  cbn [fst snd] in *.
  pose proof (ok_eq_ _ _ (eq_trans (eq_sym HX) H1)) as Q1. pose proof (ok_eq_ _ _ (eq_trans (eq_sym HX) H2)) as Q2.
  destruct xs as [|x0 [|x1 xs]]; [discriminate Q1|discriminate Q1|].
  cbn [map] in Q1, Q2. injection Q1 as E1 E2 _. injection Q2 as E3 E4 _. subst a0 a1 b0 b1.
  inversion F2 as [|h0 ? hs ? [G0 K0] F2']; subst. inversion F2' as [|h1 ? rest ? [G1 K1] F2'']; subst.
  exists h0, h1. split.
  - exists rest. split; [exact H|]. split; apply finite_not_nan; assumption.
  - apply Rabs_le_inv in K0, K1. revert K0 K1 B1 B2. unfold strictly_between.
    generalize (fval h0) (fval h1) (fval x) (hit_error M). intros u v w d K0 K1 B1 B2.
    assert (d0 : 0 <= d) by lra.
    destruct B1 as [B1|B1], B2 as [B2|B2].
    + rewrite Rmin_left, Rmax_right by lra. lra.
    + lra.
    + lra.
    + rewrite Rmin_right, Rmax_left by lra. lra.
Qed.

(** ---- the sweep heights are moderate ---- *)
Lemma sweep_moderate k l2 l3 : (2 <= k)%nat -> (Z.of_nat k <= 2 ^ 53)%Z -> fisfin l2 = true -> fisfin l3 = true ->
  Rabs (fval l2) <= bpow radix2 898 -> Rabs (fval l3) <= bpow radix2 898 -> fval l2 <= fval l3 ->
  forall y, In y (sweep_heights k l2 l3) -> moderate y.
Proof.
  intros H1 H2 F2 F3 B2 B3 L y Hy. destruct (sweep_spec k l2 l3 H1 H2 F2 F3 B2 B3 L) as (d & Ed & D0 & Hs).
  apply In_nth_error in Hy. destruct Hy as (i & Hi). destruct (Hs i y Hi) as [Fy Vy]. split; [exact Fy|].
  assert (Ik : (i < k)%nat).
  { assert (X : nth_error (sweep_heights k l2 l3) i <> None) by (rewrite Hi; discriminate). apply nth_error_Some in X.
    unfold sweep_heights in X. rewrite map_length, seq_length in X. exact X. }
  assert (Kn : INR k <= bpow radix2 53).
  { rewrite INR_IZR_INZ. change (bpow radix2 53) with (IZR (2 ^ 53)). apply IZR_le. exact H2. }
  assert (P9 : bpow radix2 899 = 2 * bpow radix2 898) by (change 899%Z with (1 + 898)%Z; rewrite bpow_plus; reflexivity).
  apply Rabs_le_inv in B2. apply Rabs_le_inv in B3.
  assert (W : 0 <= rnd64 (fval l3 - fval l2) <= bpow radix2 899).
  { apply rnd_between; [apply generic_format_0|apply bpow_format; lia|lra]. }
  assert (Kn1 : 1 <= INR k - 1) by (apply le_INR in H1; cbn [INR] in H1; lra).
  assert (Db : d <= bpow radix2 899).
  { rewrite Ed. apply rnd_between with (lo := 0); [apply generic_format_0|apply bpow_format; lia|].
    split; [apply Rmult_le_pos; [lra|left; apply Rinv_0_lt_compat; lra]|].
    apply Rle_trans with (rnd64 (fval l3 - fval l2) * / 1); [|rewrite Rinv_1; lra]. apply Rmult_le_compat_l; [lra|]. apply Rinv_le_contravar; lra. }
  assert (Id : 0 <= INR i * d <= bpow radix2 952).
  { split; [apply Rmult_le_pos; [apply pos_INR|exact D0]|]. change 952%Z with (53 + 899)%Z. rewrite bpow_plus.
    apply Rmult_le_compat; [apply pos_INR|exact D0| |exact Db]. apply Rle_trans with (INR k); [apply le_INR; lia|exact Kn]. }
  assert (Rd : 0 <= rnd64 (INR i * d) <= bpow radix2 952) by (apply rnd_between; [apply generic_format_0|apply bpow_format; lia|exact Id]).
  assert (P10 : bpow radix2 898 <= bpow radix2 952) by (apply bpow_le; lia).
  assert (P11 : bpow radix2 953 = 2 * bpow radix2 952) by (change 953%Z with (1 + 952)%Z; rewrite bpow_plus; reflexivity).
  rewrite Vy. apply Rabs_le.
  assert (Q : - bpow radix2 953 <= rnd64 (fval l2 + rnd64 (INR i * d)) <= bpow radix2 953).
  { apply rnd_between; [apply generic_format_opp; apply bpow_format; lia|apply bpow_format; lia|lra]. }
  assert (P12 : bpow radix2 953 <= bpow radix2 1021) by (apply bpow_le; lia). lra.
Qed.

Lemma crossing_bound (ty : f64) (P : list (f64 * f64)) hits h : moderate ty -> moderate_poly P ->
  hline_polygon F64 ty P = Ok hits -> In h hits -> fisnan h = false /\ Rabs (fval h) <= bpow radix2 1022.
Proof.
  intros Mt MP H Hh. assert (Ne : P <> []) by (intros ->; discriminate H).
  assert (Rc : reach P (bpow radix2 1021)) by (intros p Hp; exact (proj2 (proj1 (MP p Hp)))).
  destruct (hits_geometric ty P _ Ne Mt MP Rc) as (hits' & H' & _ & G & _).
  assert (hits' = hits) as -> by (apply ok_eq_; rewrite <- H'; exact H).
  destruct (G h Hh) as (F & x & a & b & E & _ & (t & T & Ex & _) & B). split; [exact (finite_not_nan _ F)|].
  apply is_edge_in in E. destruct E as [Ea Eb]. cbn [fst] in Ex.
  assert (Q : forall p : rpoint, In p (real_poly P) -> Rabs (fst p) <= bpow radix2 1021).
  { intros p Hp. unfold real_poly in Hp. apply in_map_iff in Hp. destruct Hp as (q & <- & Hq). exact (Rc q Hq). }
  apply Q in Ea, Eb. apply Rabs_le_inv in Ea, Eb.
  assert (X : Rabs x <= bpow radix2 1021) by (rewrite Ex; apply Rabs_le; nra).
  assert (HE : hit_error (bpow radix2 1021) <= bpow radix2 1021).
  { Local Transparent hit_error. unfold hit_error. rewrite <- bpow_plus.
    assert (bpow radix2 (-49 + 1021) <= bpow radix2 1020) by (apply bpow_le; lia).
    assert (bpow radix2 (-1073) <= bpow radix2 1020) by (apply bpow_le; lia).
    assert (bpow radix2 1021 = 2 * bpow radix2 1020) as -> by (change 1021%Z with (1 + 1020)%Z; rewrite bpow_plus; reflexivity). lra. }
  assert (P2 : bpow radix2 1022 = 2 * bpow radix2 1021) by (change 1022%Z with (1 + 1021)%Z; rewrite bpow_plus; reflexivity).
  pose proof (Rabs_triang (fval h - x) x) as Tr. replace (fval h - x + x) with (fval h) in Tr by ring. lra.
Qed.

(** C93 *)
Lemma planar_deep (E : env) robot fsr nx ny s0 s l0 l1 l2 l3 :
  conforming (e_sort E) -> e_limits E = [l0; l1; l2; l3] -> (2 <= ny)%nat -> (Z.of_nat ny <= 2 ^ 53)%Z ->
  limit_ok l0 -> limit_ok l1 -> limit_ok l2 -> limit_ok l3 -> fval l2 <= fval l3 ->
  let B := e_mink E fsr in
  (forall P, In P (barena B) \/ In P (bobstacle B) -> moderate_poly P) ->
  construct E robot fsr nx ny (length (barena B)) (length (bobstacle B)) = Ok s0 -> planned E s0 s ->
  forall v, In v (gvert (p_graph s)) -> exists x y h, v = [x; y; h] /\ In y (sweep_heights ny l2 l3) /\
    forall P M, In P (bobstacle B) -> P <> [] -> reach P M -> between_vertices P (fval y) -> ~ deep_inside P M (fval x) (fval y).
Proof.
  intros Hs Lm N1 N2 [F0 B0] [F1 B1] [F2 B2] [F3 B3] L23 B MP C Pl v Hv.
  pose proof (sweep_moderate ny l2 l3 N1 N2 F2 F3 B2 B3 L23) as MY.
  assert (Up : forall r, r <= bpow radix2 898 -> r <= bpow radix2 1022).
  { intros r Hr. apply Rle_trans with (bpow radix2 898); [exact Hr|apply bpow_le; lia]. }
  assert (MO : forall y, In y (sweep_heights ny l2 l3) -> moderate_arena2 B y).
  { intros y Hy P hits h IP Hh Ih. exact (crossing_bound y P hits h (MY y Hy) (MP P (or_introl IP)) Hh Ih). }
  destruct (planar_clear E robot fsr nx ny s0 s l0 l1 l2 l3 Hs Lm (finite_not_nan _ F0) (finite_not_nan _ F1) (Up _ B0) (Up _ B1) MO C Pl v Hv)
    as (x & y & h & -> & Iy & Nx & Cl & _).
  exists x, y, h. split; [reflexivity|]. split; [exact Iy|]. intros P M IP Ne Rc BV [D1 D2].
  destruct (deep_blocked x y P M Ne (MY y Iy) (MP P (or_intror IP)) Rc BV D1 D2) as (h0 & h1 & K & Bt).
  exact (Cl P h0 h1 IP K Bt).
Qed.

(** The sweep line through two vertices of an obstacle: the solved path goes through its middle. *)
Definition diamond : poly64 := zp [(0, -4); (20, 0); (0, 4); (-20, 0)]%Z.
Definition E11 : env := demo_env 3 [diamond] [[diamond]] (zpose 0 (-10) 0) (zpose 0 10 0).
Definition way_b (E : env) (o : outcome (state E * option (list pose * list pose))) (n k : nat) (x y : f64) : bool :=
  match o with
  | Ok (_, Some (path, _)) => Nat.eqb (length path) n && match nth_error path k with Some [a; b; _] => feqb a x && feqb b y | _ => false end
  | _ => false end.
Lemma E11_way : way_b E11 (run E11 origin 5 1 []) 7 3 (fofZ 0) (fofZ 0) = true.
Proof. vm_compute. reflexivity. Qed.
Lemma feqb_val_true x y : fisfin y = true -> feqb x y = true -> fval x = fval y.
Proof.
  intros Fy H. assert (Ny := finite_not_nan _ Fy).
  assert (Nx : fisnan x = false) by (destruct x as [|[]| |]; [reflexivity|reflexivity|reflexivity|destruct y; discriminate H|reflexivity]).
  pose proof (fcompare_val x y Nx Ny) as Q. unfold feqb, BinarySingleNaN.Beqb, SpecFloat.SFeqb in H. unfold BinarySingleNaN.Bcompare in Q. rewrite Q in H.
  destruct (Rcompare_spec (fval x) (fval y)); [discriminate H|assumption|discriminate H].
Qed.
Lemma way_b_ok E r ny nO n k x y : fisfin x = true -> fisfin y = true -> way_b E (run E r ny nO []) n k x y = true ->
  exists s0 s path a b h, construct E r r 1 ny 1 nO = Ok s0 /\ plan E (connect_multi E) [] s0 = Ok (s, Some (path, path)) /\
    length path = n /\ nth_error path k = Some [a; b; h] /\ fval a = fval x /\ fval b = fval y.
Proof.
  intros Fx Fy H. unfold way_b in H. destruct (run E r ny nO []) as [[s [[path ip]|]]| |] eqn:R; [|discriminate H..].
  apply andb_prop in H. destruct H as [L H]. apply Nat.eqb_eq in L.
  destruct (nth_error path k) as [[|a [|b [|h [|]]]]|] eqn:Q; try discriminate H. apply andb_prop in H. destruct H as [Ea Eb].
  apply demo_construct in R. destruct R as (s0 & C & P).
  pose proof (plan_result _ _ _ _ _ _ P) as [[_ W]|(_ & p & W & _)]; [discriminate W|]. injection W as W1 W2. subst ip p.
  exists s0, s, path, a, b, h. split; [exact C|]. split; [exact P|]. split; [exact L|]. split; [exact Q|].
  split; apply feqb_val_true; assumption.
Qed.
Lemma diamond_val : real_poly diamond = [(0, -4); (20, 0); (0, 4); (-20, 0)].
Proof.
  assert (V : forall z, (Z.abs z <= 1000)%Z -> fval (fofZ z) = IZR z) by (intros z Hz; apply fofZ_spec; lia).
  unfold diamond, zp, real_poly, real_pt. cbn [map fst snd]. rewrite !V by lia. reflexivity.
Qed.
Lemma diamond_inside x : -15 <= x <= 15 -> strictly_inside (real_poly diamond) (x, 0).
Proof.
  intros H a b E. rewrite diamond_val in E. apply redges_is_edge in E. cbn in E.
  destruct E as [E|[E|[E|[E|[]]]]]; injection E as <- <-; unfold turn_of; cbn [fst snd]; lra.
Qed.
Lemma vertex_line : exists (E : env) r s0 s path P x y h,
  construct E r r 1 5 (length (barena (e_mink E r))) (length (bobstacle (e_mink E r))) = Ok s0 /\
  plan E (connect_multi E) [] s0 = Ok (s, Some (path, path)) /\ length path = 7%nat /\
  (forall r', bobstacle (e_mink E r') = [P]) /\ nth_error path 3 = Some [x; y; h] /\
  forall d, Rabs d <= 15 -> strictly_inside (real_poly P) (fval x + d, fval y).
Proof.
  destruct (way_b_ok E11 origin 5 1 7 3 (fofZ 0) (fofZ 0) (fofZ_fin 0 ltac:(lia)) (fofZ_fin 0 ltac:(lia)) E11_way)
    as (s0 & s & path & a & b & h & C & P & L & Q & Va & Vb).
  exists E11, origin, s0, s, path, diamond, a, b, h. split; [exact C|]. split; [exact P|]. split; [exact L|]. split; [reflexivity|]. split; [exact Q|].
  intros d Hd. rewrite Va, Vb, fofZ_val by lia. apply diamond_inside. apply Rabs_le_inv in Hd. lra.
Qed.

(** The hypotheses in the demonstration scene. *)
Lemma zp_moderate l : (forall p, In p l -> Z.abs (fst p) <= 1000 /\ Z.abs (snd p) <= 1000)%Z -> moderate_poly (zp l).
Proof.
  intros H p Hp. unfold zp in Hp. apply in_map_iff in Hp. destruct Hp as (q & <- & Hq). destruct (H q Hq) as [H1 H2]. cbn [fst snd].
  assert (K : 1000 <= bpow radix2 1021) by (apply Rle_trans with (bpow radix2 10); [cbn; lra|apply bpow_le; lia]).
  assert (G : forall z, (Z.abs z <= 1000)%Z -> moderate (fofZ z)).
  { intros z Hz. split; [apply fofZ_fin; lia|]. rewrite fofZ_val by lia. rewrite <- abs_IZR. apply IZR_le in Hz. lra. }
  split; apply G; assumption.
Qed.
Lemma limit_10 z : Z.abs z = 10%Z -> limit_ok (fofZ z).
Proof.
  intros H. split; [apply fofZ_fin; lia|]. rewrite fofZ_val by lia. rewrite <- abs_IZR, H.
  apply Rle_trans with (bpow radix2 4); [cbn; lra|apply bpow_le; lia].
Qed.
Lemma box3_deep : deep_inside (box (-3) 3 (-4) 4) 3 0 0 /\ between_vertices (box (-3) 3 (-4) 4) 0 /\ reach (box (-3) 3 (-4) 4) 3.
Proof.
  assert (V : forall z, (Z.abs z <= 1000)%Z -> fval (fofZ z) = IZR z) by (intros z Hz; apply fofZ_spec; lia).
  assert (HE : 0 <= hit_error 3 <= 1).
  { unfold hit_error. pose proof (bpow_gt_0 radix2 (-49)). pose proof (bpow_gt_0 radix2 (-1073)).
    assert (bpow radix2 (-49) <= bpow radix2 (-3)) by (apply bpow_le; lia). assert (bpow radix2 (-1073) <= bpow radix2 (-3)) by (apply bpow_le; lia).
    assert (bpow radix2 (-3) = / 8) by (cbn; lra). lra. }
  assert (I : forall x, -1 <= x <= 1 -> strictly_inside (real_poly (box (-3) 3 (-4) 4)) (x, 0)).
  { intros x Hx a b E. unfold real_poly, real_pt in E. rewrite box_val in E by lia. apply redges_is_edge in E. cbn in E.
    destruct E as [E|[E|[E|[E|[]]]]]; injection E as <- <-; unfold turn_of; cbn [fst snd]; lra. }
  split; [split; apply I; lra|]. split.
  - intros v Hv. unfold box, zp in Hv. cbn [map fst snd] in Hv.
    destruct Hv as [<- |[<- |[<- |[<- |[]]]]]; cbn [snd]; rewrite V by lia; lra.
  - intros v Hv. unfold box, zp in Hv. cbn [map fst snd] in Hv.
    destruct Hv as [<- |[<- |[<- |[<- |[]]]]]; cbn [fst]; rewrite V by lia; apply Rabs_le; lra.
Qed.
Lemma E1_polygons : forall P, In P (barena (e_mink E1 origin)) \/ In P (bobstacle (e_mink E1 origin)) -> moderate_poly P.
Proof.
  intros P [H|H]; cbn [barena bobstacle e_mink E1 demo_env In] in H; destruct H as [<- |[]]; unfold box; apply zp_moderate; intros p Hp;
    destruct Hp as [<- |[<- |[<- |[<- |[]]]]]; cbn [fst snd]; lia.
Qed.
