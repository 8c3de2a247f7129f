(** Scenes and degenerate settings for the collision tests. *)
From Coq Require Import List Bool Arith Lia ZArith Reals Lra.
From Verif.Base Require Import Outcome Float64 FloatFacts.
From Verif.Model Require Import MScalar MDistance MInterval MFreeSpace MLine2D MLine3D MInterp MGraph MSearch MHRM2D MHRM3D MAStar.
From Verif.Spec Require Import SLine2D SLine3D SMotion.
From Verif.Proofs Require Import PGraph PHRM2D PLine2D PLine3D PTables PMotion PMotionR PHRM2DW PHRM3DW.
Import ListNotations.

(** ---- settings under which the planar motion test says nothing ---- *)
Lemma no_points_free (E : env) r br v1 v2 : e_numPoint E = 0 -> multi_slice_free E r br v1 v2 = Ok true.
Proof. intros H. apply multi_slice_free_iff. rewrite H. intros i Hi. lia. Qed.

Lemma hline_nan ty b : fisnan ty = true -> b <> [] -> hline_polygon F64 ty b = Ok [].
Proof.
  intros N Hb. unfold hline_polygon. destruct b as [|[x y] b]; [contradiction|]. cbn [map snd].
  cbn [F64 sltb]. rewrite (fltb_nan_r _ ty N), (fltb_nan_l ty _ N). cbn [orb].
  f_equal. enough (G : forall es, flat_map (hline_edge F64 ty) es = []) by apply G. intros es. induction es as [|[[x1 y1] [x2 y2]] es IH]; [reflexivity|].
  cbn [flat_map]. unfold hline_edge. cbn [F64 sleb]. rewrite (fleb_nan_r _ ty N). cbn [andb app]. exact IH.
Qed.
Lemma fmul_nan_l x y : fisnan x = true -> fisnan (fmul x y) = true.
Proof. destruct x; try (intros H; discriminate H). destruct y; reflexivity. Qed.
Lemma fmul_nan_r x y : fisnan y = true -> fisnan (fmul x y) = true.
Proof. destruct y; try (intros H; discriminate H). destruct x; reflexivity. Qed.
Lemma fadd_nan_r x y : fisnan y = true -> fisnan (fadd x y) = true.
Proof. destruct y; try (intros H; discriminate H). destruct x; reflexivity. Qed.

(** With one point the only pose tested consists of NaNs. *)
Lemma one_point_parameter : fisnan (fmul (fofnat 0) (fdiv fone (fsub (fofnat 1) fone))) = true.
Proof. vm_compute. reflexivity. Qed.
Lemma blended_nan t v1 v2 : fisnan t = true -> length v1 <= length v2 ->
  exists v, blended t v1 v2 v /\ Forall (fun x => fisnan x = true) v.
Proof.
  intros N. revert v2. induction v1 as [|a v1 IH]; intros v2 L.
  - exists []. split; [|constructor]. split; [reflexivity|]. split; [cbn; lia|]. intros [|j] a b H; discriminate H.
  - destruct v2 as [|b v2]; [cbn in L; lia|]. destruct (IH v2) as (v & (L1 & L2 & B) & F); [cbn in L; lia|].
    exists (fadd (fmul (fsub fone t) a) (fmul t b) :: v). split.
    + split; [cbn; lia|]. split; [cbn; lia|]. intros [|j] a' b' Ha Hb; cbn [nth_error] in *.
      * injection Ha as <-. injection Hb as <-. reflexivity.
      * apply B; auto.
    + constructor; [apply fadd_nan_r, fmul_nan_l; auto|exact F].
Qed.
Lemma one_point_free (E : env) r br v1 v2 : e_numPoint E = 1 -> 3 <= length v1 <= length v2 ->
  (forall x y a c, fisnan x = true -> fisnan y = true -> fisnan a = true ->
     In c (fst (e_centers E (e_move E r x y a)) :: snd (e_centers E (e_move E r x y a))) -> fisnan (snd c) = true) ->
  (forall x y a, length (snd (e_centers E (e_move E r x y a))) < length br) ->
  (forall bs b, In bs br -> In b bs -> b <> []) ->
  multi_slice_free E r br v1 v2 = Ok true.
Proof.
  intros N L C K B. apply multi_slice_free_iff. rewrite N. intros i Hi. assert (i = 0) as -> by lia.
  destruct (blended_nan _ v1 v2 one_point_parameter (proj2 L)) as (v & Bl & F).
  assert (Lv : 3 <= length v) by (destruct Bl as (L1 & _); unfold pose in *; lia).
  destruct v as [|x [|y [|a v]]]; cbn [length] in Lv; try lia.
  inversion_clear F as [|? ? Fx F1]. inversion_clear F1 as [|? ? Fy F2]. inversion_clear F2 as [|? ? Fa _].
  exists (x :: y :: a :: v), (e_move E r x y a). split; [exact Bl|]. split; [exists x, y, a; auto|].
  intros k c Hc. specialize (K x y a).
  assert (Hk : k < length br).
  { assert (k < length (fst (e_centers E (e_move E r x y a)) :: snd (e_centers E (e_move E r x y a)))) by (apply nth_error_Some; rewrite Hc; discriminate). cbn [length] in *. lia. }
  destruct (nth_error br k) as [bs|] eqn:Q; [|apply nth_error_None in Q; lia].
  exists bs. split; [auto|]. intros b Hb. exists []. split; [|left; auto].
  apply hline_nan; [eapply C; [exact Fx|exact Fy|exact Fa|eapply nth_error_In; exact Hc]|eapply B; [eapply nth_error_In; exact Q|exact Hb]].
Qed.

(** ---- binary64 scenes ---- *)
Definition few (n : nat) : env :=
  {| robot_t := f64 * f64 * f64; e_move := fun _ x y h => (x, y, h); e_angle := snd; e_centers := fun r => (fst r, []);
     e_mink := fun _ => Bound [box (-20) 20 (-20) 20] []; e_tfe := fun _ _ _ => Ok [[box (-5) 5 (-5) 5]]; e_sort := isort; e_solve := cramer;
     e_astar := demo_astar; e_limits := map fofZ [-10; 10; -10; 10]%Z; e_numSlice := 3; e_numPoint := n; e_numNeighbor := 10;
     e_radius := cHALF_PI; e_start := zpose 0 (-10) 0; e_goal := zpose 0 10 0 |}.
Definition is_ok (b : bool) (o : outcome bool) : bool := match o with Ok c => Bool.eqb b c | _ => false end.
Lemma is_ok_eq b o : is_ok b o = true -> o = Ok b.
Proof. destruct o as [c|e|]; cbn [is_ok]; intros H; [apply Bool.eqb_prop in H as ->; reflexivity|discriminate H..]. Qed.
Lemma few_scene : (is_ok true (multi_slice_free (few 1) origin [[box (-5) 5 (-5) 5]] (zpose 0 0 0) (zpose 1 0 0)) &&
  is_ok true (multi_slice_free (few 0) origin [[box (-5) 5 (-5) 5]] (zpose 0 0 0) (zpose 1 0 0)) &&
  is_ok false (multi_slice_free (few 2) origin [[box (-5) 5 (-5) 5]] (zpose 0 0 0) (zpose 1 0 0)) &&
  is_ok true (multi_slice_free (few 2) origin [[box (-5) 5 (-5) 5]] (zpose (-9) 0 0) (zpose 9 0 0)))%bool = true.
Proof. vm_compute. reflexivity. Qed.

(** A segment inside a box; a triangle alone; four parallel plates. *)
Definition plate_at (z : Z) : list (vec3 F64) := [zv (-9) (-9) z; zv 9 (-9) z; zv 0 9 z].
Definition one_plate : mesh64 := Mesh (S := F64) (plate_at 1) [(0, 1, 2)].
Definition four_plates : mesh64 := Mesh (S := F64) (plate_at 10 ++ plate_at 11 ++ plate_at 1 ++ plate_at 2) [(0, 1, 2); (3, 4, 5); (6, 7, 8); (9, 10, 11)].
Lemma inside_scene : (is_ok true (straight_free F64 [wall] (zv 0 1 0) (zv 3 1 0)) &&
  is_ok false (point_clear3 F64 (zv 0 1 0) [wall]) && is_ok false (point_clear3 F64 (zv 3 1 0) [wall]) &&
  is_ok false (straight_free F64 [wall] (zv 0 1 0) (zv 0 1 9)) && is_ok true (straight_free F64 [wall] (zv 0 1 3) (zv 0 1 9)))%bool = true.
Proof. vm_compute. reflexivity. Qed.
(** A point of the box above an edge shared by two faces. *)
Lemma edge_scene : is_ok true (point_clear3 F64 (zv 3 2 0) [wall]) = true.
Proof. vm_compute. reflexivity. Qed.
Lemma plate_scene : (match straight_free F64 [one_plate] (zv 0 0 0) (zv 0 0 3) with UB => true | _ => false end &&
  match straight_free F64 [one_plate] (zv 0 0 5) (zv 0 0 8) with UB => true | _ => false end)%bool = true.
Proof. vm_compute. reflexivity. Qed.
Lemma plates_scene : (is_ok true (straight_free F64 [four_plates] (zv 0 0 0) (zv 0 0 3)) && is_ok true (point_clear3 F64 (V3 (S := F64) fzero fzero (fdiv (fofZ 3) ftwo)) [four_plates]))%bool = true.
Proof. vm_compute. reflexivity. Qed.

(** ---- an exact scene: a slab of two triangles ---- *)
Local Open Scope R_scope.
Definition slab : rmesh :=
  ([RV (-5) (-5) 1; RV 5 (-5) 1; RV 0 5 1; RV (-5) (-5) 2; RV 5 (-5) 2; RV 0 5 2], [(0, 1, 2)%nat; (3, 4, 5)%nat]).
Lemma slab_ok : mesh_ok slab.
Proof. split; [discriminate|]. repeat constructor; cbn; lia. Qed.
Definition below : rvec := RV 0 0 0.
Definition short_of : rvec := RV 0 0 (1 / 2).
Lemma sqrt_sq x : 0 <= x -> sqrt (x * x) = x. Proof. apply sqrt_square. Qed.
Lemma slab_direction h : 0 < h -> direction below (RV 0 0 h) = RV 0 0 1.
Proof.
  intros H. unfold direction, rnorm, rdot, rsub, rscale, below; cbn [rx ry rz].
  replace ((0 - 0) * (0 - 0) + (0 - 0) * (0 - 0) + (h - 0) * (h - 0)) with (h * h) by ring. rewrite sqrt_square by lra.
  f_equal; field; lra.
Qed.
Lemma tol_small : 0 < tol < 1.
Proof. unfold tol. split; [apply Rinv_0_lt_compat, pow_lt; lra|]. rewrite <- Rinv_1. apply Rinv_lt_contravar; [|apply Rlt_pow_R1; [lra|lia]]. rewrite Rmult_1_l. apply pow_lt; lra. Qed.
Lemma slab_hit (o : rvec) z : rx o = 0 -> ry o = 0 ->
  triangle_hit 0 o (RV 0 0 1) (RV (-5) (-5) z, RV 5 (-5) z, RV 0 5 z) (RV 0 0 z).
Proof.
  intros Hx Hy. destruct o as [ox oy oz]. cbn [rx ry] in Hx, Hy. subst. split; [|split].
  - unfold crosses_plane, rnorm, rcross, rdot, rsub; cbn [rx ry rz].
    match goal with |- sqrt ?e > 0 /\ Rabs ?d > _ => replace e with (100 * 100) by ring; replace d with 100 by ring end.
    rewrite sqrt_square by lra. rewrite Rabs_right by lra. pose proof tol_small. split; lra.
  - exists (z - oz). unfold radd, rscale; cbn [rx ry rz]. f_equal; ring.
  - exists (1 / 4), (1 / 2). split; [unfold radd, rscale, rsub; cbn [rx ry rz]; f_equal; field|]. lra.
Qed.
Lemma slab_faces o f p : rx o = 0 -> ry o = 0 -> In f (snd slab) -> good_face (fst slab) o (RV 0 0 1) f p -> p = RV 0 0 1 \/ p = RV 0 0 2.
Proof.
  intros Hx Hy Hf (abc & Hc & Ht). destruct abc as [[a b] c]. destruct Hf as [<-|[<-|[]]]; cbn in Hc; destruct Hc as (Ha & Hb & Hc);
    injection Ha as <-; injection Hb as <-; injection Hc as <-; [left|right]; eapply hit_unique; try exact Ht; apply slab_hit; auto.
Qed.
Lemma slab_good o : rx o = 0 -> ry o = 0 -> good_face (fst slab) o (RV 0 0 1) (0, 1, 2)%nat (RV 0 0 1) /\ good_face (fst slab) o (RV 0 0 1) (3, 4, 5)%nat (RV 0 0 2).
Proof.
  intros Hx Hy. pose proof tol_small. split; eexists (_, _, _); (split; [cbn; repeat split; reflexivity|]);
  (eapply triangle_hit_weaken; [|apply slab_hit; auto]; lra).
Qed.
Lemma slab_pick o ps : rx o = 0 -> ry o = 0 -> pick (good_face (fst slab) o (RV 0 0 1)) (snd slab) ps -> length ps = 2%nat.
Proof.
  intros Hx Hy H. destruct (slab_good o Hx Hy) as [G1 G2]. unfold slab in H; cbn [snd] in H.
  inversion H as [|? ? ? ? _ H1|? ? ? N _]; subst; [|exfalso; exact (N _ G1)].
  inversion H1 as [|? ? ? ? _ H2|? ? ? N _]; subst; [|exfalso; exact (N _ G2)]. inversion H2; subst; reflexivity.
Qed.
Lemma slab_free : straight_free XR (map lift_rmesh [slab]) (lift3 below) (lift3 short_of) = Ok true.
Proof.
  assert (Ne : below <> short_of) by (intros H; apply (f_equal rz) in H; unfold below, short_of in H; cbn in H; lra).
  assert (D : direction below short_of = RV 0 0 1) by (apply slab_direction; lra).
  destruct (straight_defined [slab] below short_of Ne) as (b & Hb).
  - constructor; [exact slab_ok|constructor].
  - intros m ps [<-|[]] H. rewrite D in H. apply slab_pick in H; [|reflexivity..]. lia.
  - destruct b; [exact Hb|]. apply straight_false in Hb; [|exact Ne|constructor; [exact slab_ok|constructor]].
    destruct Hb as (m & f & p & [<-|[]] & Hf & G & (k & Hk & Hp)). rewrite D in G. apply slab_faces in G; [|reflexivity..|exact Hf].
    exfalso. unfold below, short_of, radd, rscale, rsub in Hp; cbn [rx ry rz] in Hp. destruct G as [-> | ->]; apply (f_equal rz) in Hp; cbn [rz] in Hp; lra.
Qed.
Lemma slab_blocked : straight_free XR (map lift_rmesh [slab]) (lift3 below) (lift3 (RV 0 0 3)) = Ok false.
Proof.
  assert (Ne : below <> RV 0 0 3) by (intros H; apply (f_equal rz) in H; unfold below in H; cbn in H; lra).
  assert (D : direction below (RV 0 0 3) = RV 0 0 1) by (apply slab_direction; lra).
  destruct (straight_defined [slab] below (RV 0 0 3) Ne) as (b & Hb).
  - constructor; [exact slab_ok|constructor].
  - intros m ps [<-|[]] H. rewrite D in H. apply slab_pick in H; [|reflexivity..]. lia.
  - destruct b; [|exact Hb]. exfalso.
    eapply (straight_true [slab] below (RV 0 0 3) Ne ltac:(constructor; [exact slab_ok|constructor]) Hb slab (0, 1, 2)%nat (RV (-5) (-5) 1, RV 5 (-5) 1, RV 0 5 1) (RV 0 0 1)).
    + left; reflexivity.
    + rewrite D. intros ps H. apply slab_pick in H; [|reflexivity..]. lia.
    + rewrite D. left; reflexivity.
    + rewrite D. left; reflexivity.
    + rewrite D. right. cbn [rz]. rewrite Rabs_R1. lra.
    + left; reflexivity.
    + cbn. auto.
    + rewrite D. apply slab_hit; reflexivity.
    + exists (/ 3). split; [lra|]. unfold below, radd, rscale, rsub; cbn [rx ry rz]. f_equal; field.
Qed.
Lemma slab_point : point_clear3 XR (lift3 below) (map lift_rmesh [slab]) = Ok true.
Proof.
  destruct (vertical_line_mesh_XR below (fst slab) (snd slab) (proj1 slab_ok) (proj2 slab_ok)) as (r & Hr & Cs).
  assert (Q : exists ps, r = map lift3 (firstn 2 ps) /\ (ps = [] \/ ps = [RV 0 0 1; RV 0 0 2])).
  { destruct Cs as [[-> _]|(ps & Pk & ->)]; [exists []; auto|]. exists ps. split; [reflexivity|right].
    set (good := fun (f : nat * nat * nat) p => _) in Pk.
    assert (W : forall f p, In f (snd slab) -> good f p -> p = RV 0 0 1 \/ p = RV 0 0 2).
    { intros f p Hf (abc & Hc & _ & Ht). eapply (slab_faces below); [reflexivity|reflexivity|exact Hf|exists abc; auto]. }
    assert (B : bbox_ok below (RV (-5) (-5) 1, RV 5 (-5) 1, RV 0 5 1) /\ bbox_ok below (RV (-5) (-5) 2, RV 5 (-5) 2, RV 0 5 2)).
    { unfold bbox_ok, below; cbn [rx ry]. unfold Rmin, Rmax. repeat destruct Rle_dec; lra. }
    assert (G1 : good (0, 1, 2)%nat (RV 0 0 1)).
    { eexists (_, _, _). split; [cbn; repeat split; reflexivity|]. split; [apply B|]. eapply triangle_hit_weaken; [|apply slab_hit; reflexivity]. pose proof tol_small; lra. }
    assert (G2 : good (3, 4, 5)%nat (RV 0 0 2)).
    { eexists (_, _, _). split; [cbn; repeat split; reflexivity|]. split; [apply B|]. eapply triangle_hit_weaken; [|apply slab_hit; reflexivity]. pose proof tol_small; lra. }
    assert (U : forall f p p', good f p -> good f p' -> p = p').
    { intros f p p' (abc & Hc & _ & Ht) (abc' & Hc' & _ & Ht'). destruct f as [[i j] k]. destruct abc as [[a b] c]. destruct abc' as [[a' b'] c'].
      cbn in Hc, Hc'. destruct Hc as (A1 & A2 & A3), Hc' as (B1 & B2 & B3). rewrite A1 in B1. rewrite A2 in B2. rewrite A3 in B3.
      injection B1 as <-. injection B2 as <-. injection B3 as <-. eapply hit_unique; eassumption. }
    unfold slab in Pk; cbn [snd] in Pk. inversion Pk as [|? ? ? ? K1 H1|? ? ? N _]; subst; [|exfalso; exact (N _ G1)].
    inversion H1 as [|? ? ? ? K2 H2|? ? ? N _]; subst; [|exfalso; exact (N _ G2)]. inversion H2; subst.
    rewrite (U _ _ _ K1 G1), (U _ _ _ K2 G2). reflexivity. }
  destruct Q as (ps & -> & [-> | ->]); cbn [map firstn] in Hr; cbn [map point_clear3]; rewrite up_line; unfold lift_rmesh, up; rewrite Hr; cbn [obind]; [reflexivity|].
  cbn [idx nth_error obind lift3 vz rx ry rz below]. rewrite sfmin_some, sfmax_some. cbn [XR sltb xcmp].
  replace (Rltb (Rmin 1 2) 0) with false; [reflexivity|]. symmetry. apply Rltb_false. apply Rmin_glb; lra.
Qed.
