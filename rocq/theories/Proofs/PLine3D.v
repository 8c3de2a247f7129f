From Coq Require Import List Bool Reals Lra Lia ZArith Arith.
From Verif.Base Require Import Outcome Float64 FloatFacts.
From Verif.Model Require Import MScalar MLine2D MLine3D.
From Verif.Spec Require Import SLine3D.
From Verif.Proofs Require Import PLine2D.
Import ListNotations.
Local Open Scope R_scope.

Lemma rv_eq a b : rx a = rx b -> ry a = ry b -> rz a = rz b -> a = b.
Proof. destruct a, b; simpl; intros; subst; auto. Qed.
Lemma lift3_inj a b : lift3 a = lift3 b -> a = b.
Proof. destruct a, b; unfold lift3; simpl. congruence. Qed.

Lemma vsub_lift a b : vsub XR (lift3 a) (lift3 b) = lift3 (rsub a b).
Proof. reflexivity. Qed.
Lemma vadd_lift a b : vadd XR (lift3 a) (lift3 b) = lift3 (radd a b).
Proof. reflexivity. Qed.
Lemma vscale_lift k a : vscale XR (Some k) (lift3 a) = lift3 (rscale k a).
Proof. reflexivity. Qed.
Lemma dot_lift a b : dot XR (lift3 a) (lift3 b) = Some (rdot a b).
Proof. unfold dot, rdot; simpl. f_equal. ring. Qed.
Lemma cross_lift a b : cross XR (lift3 a) (lift3 b) = lift3 (rcross a b).
Proof. reflexivity. Qed.
Lemma tol12_lift : tol12 XR = Some tol.
Proof.
  unfold tol12, sdec, tol. cbn [XR sdiv sofZ xdiv car].
  replace (IZR (10 ^ 12)) with (10 ^ 12) by (simpl; lra).
  destruct (Req_EM_T (10 ^ 12) 0); [lra|]. f_equal. field.
Qed.
Lemma sneg_lift a : sneg XR (Some a) = Some (- a).
Proof. unfold sneg; simpl. f_equal. ring. Qed.
Lemma tol_pos : 0 < tol.
Proof. unfold tol. apply Rinv_0_lt_compat. apply pow_lt. lra. Qed.
Lemma tol_lt1 : tol < 1.
Proof. unfold tol. rewrite <- Rinv_1. apply Rinv_lt_contravar; simpl; lra. Qed.

Lemma rdot_self_nonneg a : 0 <= rdot a a.
Proof. unfold rdot. nra. Qed.

(** normalised normal *)
Lemma normalize_lift n : 0 < rdot n n -> normalize XR (lift3 n) = lift3 (rscale (/ sqrt (rdot n n)) n).
Proof.
  intros H. unfold normalize. rewrite dot_lift. cbn [XR sltb sofZ xcmp car ssqrt xsqrt].
  destruct (Rltb 0 (rdot n n)) eqn:E; [|apply Rltb_false in E; lra].
  destruct (Rlt_dec (rdot n n) 0); [lra|].
  assert (0 < sqrt (rdot n n)) by (apply sqrt_lt_R0; auto).
  unfold vdiv, lift3; cbn [XR sdiv xdiv vx vy vz car].
  destruct (Req_EM_T (sqrt (rdot n n)) 0); [lra|]. unfold rscale; simpl.
  f_equal; f_equal; field; auto.
Qed.

Lemma zero_normal n : rdot n n = 0 -> n = RV 0 0 0.
Proof.
  unfold rdot. intros H. destruct n as [x y z]; simpl in *.
  assert (x = 0) by nra. assert (y = 0) by nra. assert (z = 0) by nra. subst; auto.
Qed.

Lemma sabs_lift a : sabs XR (Some a) = Some (Rabs a).
Proof. reflexivity. Qed.

Lemma ltb_lift a b : sltb XR (Some a) (Some b) = Rltb a b.
Proof. reflexivity. Qed.

Lemma vnorm_lift n : vnorm XR (lift3 n) = Some (rnorm n).
Proof.
  unfold vnorm. rewrite dot_lift. cbn [XR ssqrt xsqrt]. pose proof (rdot_self_nonneg n).
  destruct (Rlt_dec (rdot n n) 0); [lra|reflexivity].
Qed.

Lemma gram u v : rdot u v * rdot u v - rdot u u * rdot v v = - rdot (rcross u v) (rcross u v).
Proof. unfold rdot, rcross; simpl. ring. Qed.

Lemma plane_decomp u v w : let N := rcross u v in
  rscale (rdot N N) w =
  radd (radd (rscale (rdot v v * rdot u w - rdot u v * rdot v w) u)
             (rscale (rdot u u * rdot v w - rdot u v * rdot u w) v))
       (rscale (rdot N w) N).
Proof. intros N. unfold N. apply rv_eq; unfold rdot, rcross, rscale, radd; simpl; ring. Qed.

Lemma line_triangle_XR o d t0 u v q :
  line_triangle XR (lift_line o d) (lift3 t0) (lift3 u) (lift3 v) = Some q <->
  exists p, q = lift3 p /\ crosses_plane d u v /\ on_line o d p /\ in_triangle tol t0 u v p.
Proof.
  unfold line_triangle, lift_line; cbn [lorg ldir]. rewrite cross_lift, vsub_lift.
  set (N := rcross u v). pose proof (rdot_self_nonneg N) as HN. pose proof tol_pos as Htol.
  unfold crosses_plane. fold N.
  destruct (Req_dec (rdot N N) 0) as [Z|Z].
  - (* degenerate triangle *)
    assert (EN : normalize XR (lift3 N) = lift3 N).
    { unfold normalize. rewrite dot_lift, Z. cbn [XR sltb sofZ xcmp car].
      destruct (Rltb 0 0) eqn:E; [apply Rltb_true in E; lra|reflexivity]. }
    rewrite EN. pose proof (zero_normal N Z) as EZ. rewrite EZ. rewrite dot_lift, tol12_lift.
    unfold rdot at 1; cbn [rx ry rz]. rewrite sabs_lift, ltb_lift.
    replace (Rltb tol (Rabs (0 * rx d + 0 * ry d + 0 * rz d))) with false.
    2:{ symmetry. apply Rltb_false. replace (0 * rx d + 0 * ry d + 0 * rz d) with 0 by ring. rewrite Rabs_R0. lra. }
    cbn [andb negb]. split; [discriminate|].
    intros (p & _ & [H _] & _). unfold rnorm, rdot in H; simpl in H.
    replace (0 * 0 + 0 * 0 + 0 * 0) with 0 in H by ring. rewrite sqrt_0 in H. lra.
  - assert (HNp : 0 < rdot N N) by lra. set (r := sqrt (rdot N N)).
    assert (Hr : 0 < r) by (apply sqrt_lt_R0; auto).
    rewrite normalize_lift by auto. fold r. rewrite !dot_lift, tol12_lift, !sneg_lift, sabs_lift, vnorm_lift, !ltb_lift.
    assert (Eb : rdot (rscale (/ r) N) d = rdot N d / r) by (unfold rdot, rscale; simpl; field; lra).
    assert (Ea : rdot (rscale (/ r) N) (rsub o t0) = rdot N (rsub o t0) / r) by (unfold rdot, rscale; simpl; field; lra).
    assert (En : rnorm (rscale (/ r) N) = 1).
    { unfold rnorm. replace (rdot (rscale (/ r) N) (rscale (/ r) N)) with 1; [apply sqrt_1|].
      replace (rdot (rscale (/ r) N) (rscale (/ r) N)) with (rdot N N / (r * r)) by (unfold rdot, rscale; simpl; field; lra).
      unfold r. rewrite sqrt_sqrt by lra. field. lra. }
    rewrite Eb, Ea, En.
    replace (Rltb tol 1) with true by (symmetry; apply Rltb_true; apply tol_lt1).
    rewrite andb_true_r.
    assert (Hcp : Rltb tol (Rabs (rdot N d / r)) = true <-> Rabs (rdot N d) > tol * r).
    { rewrite Rltb_true. unfold Rdiv. rewrite Rabs_mult, (Rabs_pos_eq (/ r)) by (left; apply Rinv_0_lt_compat; auto).
      split; intros H.
      - apply Rmult_lt_compat_r with (r := r) in H; auto. rewrite Rmult_assoc, Rinv_l, Rmult_1_r in H by lra. lra.
      - apply Rmult_lt_reg_r with r; auto. rewrite Rmult_assoc, Rinv_l, Rmult_1_r by lra. lra. }
    unfold rnorm. fold r.
    destruct (Rltb tol (Rabs (rdot N d / r))) eqn:EB; cbn [negb].
    2:{ split; [discriminate|]. intros (p & _ & [_ H] & _). apply Hcp in H. discriminate. }
    assert (Hcp' : Rabs (rdot N d) > tol * r) by (apply Hcp; auto).
    assert (Hnd : rdot N d <> 0).
    { intros H. rewrite H, Rabs_R0 in Hcp'. assert (0 < tol * r) by (apply Rmult_lt_0_compat; auto). lra. }
    clear Hcp EB.
    replace (sdiv XR (Some (- (rdot N (rsub o t0) / r))) (Some (rdot N d / r)))
      with (Some (- rdot N (rsub o t0) / rdot N d)).
    2:{ cbn [XR sdiv xdiv]. destruct (Req_EM_T (rdot N d / r) 0) as [E|_].
        - exfalso. apply Hnd. apply Rmult_eq_reg_r with (/ r); [|apply Rinv_neq_0_compat; lra]. unfold Rdiv in E. lra.
        - f_equal. field. split; lra. }
    set (k := - rdot N (rsub o t0) / rdot N d).
    rewrite vscale_lift, vadd_lift, vsub_lift. set (p := radd o (rscale k d)). rewrite !dot_lift.
    set (w := rsub p t0).
    assert (HNw : rdot N w = 0).
    { unfold w, p. replace (rdot N (rsub (radd o (rscale k d)) t0)) with (rdot N (rsub o t0) + k * rdot N d)
        by (unfold rdot, rsub, radd, rscale; simpl; ring). unfold k. field. auto. }
    cbn [XR smul ssub xlift2 car].
    pose proof (gram u v) as G. fold N in G. rewrite G.
    set (s := (rdot v v * rdot u w - rdot u v * rdot v w) / rdot N N).
    set (t := (rdot u u * rdot v w - rdot u v * rdot u w) / rdot N N).
    replace (sdiv XR (Some (rdot u v * rdot v w - rdot v v * rdot u w)) (Some (- rdot N N))) with (Some s).
    2:{ cbn [XR sdiv xdiv]. destruct (Req_EM_T (- rdot N N) 0); [lra|]. unfold s. f_equal. field. lra. }
    replace (sdiv XR (Some (rdot u v * rdot u w - rdot u u * rdot v w)) (Some (- rdot N N))) with (Some t).
    2:{ cbn [XR sdiv xdiv]. destruct (Req_EM_T (- rdot N N) 0); [lra|]. unfold t. f_equal. field. lra. }
    cbn [XR sadd sofZ xlift2 car sltb xcmp].
    assert (Hdec : p = radd t0 (radd (rscale s u) (rscale t v))).
    { pose proof (plane_decomp u v w) as PD. cbv zeta in PD. fold N in PD. rewrite HNw in PD.
      assert (Ew : w = rsub p t0) by reflexivity. unfold s, t. clearbody w. clear s t.
      set (A := rdot v v * rdot u w - rdot u v * rdot v w) in *.
      set (B := rdot u u * rdot v w - rdot u v * rdot u w) in *. clearbody A B.
      assert (Hc : forall a x y t1 n, rdot N N * a = A * x + B * y + 0 * n -> forall p1, a = p1 - t1 ->
                p1 = t1 + (A / rdot N N * x + B / rdot N N * y)).
      { intros a x y t1 n H p1 ->. apply Rmult_eq_reg_l with (rdot N N); auto.
        replace (rdot N N * p1) with (rdot N N * (p1 - t1) + rdot N N * t1) by ring. rewrite H. field. auto. }
      pose proof (f_equal rx PD) as P1. pose proof (f_equal ry PD) as P2. pose proof (f_equal rz PD) as P3.
      pose proof (f_equal rx Ew) as W1. pose proof (f_equal ry Ew) as W2. pose proof (f_equal rz Ew) as W3.
      apply rv_eq; [exact (Hc _ _ _ _ _ P1 _ W1)|exact (Hc _ _ _ _ _ P2 _ W2)|exact (Hc _ _ _ _ _ P3 _ W3)]. }
    assert (Huniq : forall p', on_line o d p' -> in_triangle tol t0 u v p' ->
              p' = p /\ - tol <= s /\ - tol <= t /\ s <= 1 + tol /\ s + t <= 1 + tol).
    { intros p' (k' & ->) (s' & t' & Hp' & B).
      assert (Hk : k' = k).
      { assert (Hz : rdot N (rsub (radd o (rscale k' d)) t0) = 0).
        { rewrite Hp'. unfold N. unfold rdot, rcross, rsub, radd, rscale; simpl. ring. }
        replace (rdot N (rsub (radd o (rscale k' d)) t0)) with (rdot N (rsub o t0) + k' * rdot N d) in Hz
          by (unfold rdot, rsub, radd, rscale; simpl; ring).
        unfold k. apply Rmult_eq_reg_r with (rdot N d); auto.
        replace (- rdot N (rsub o t0) / rdot N d * rdot N d) with (- rdot N (rsub o t0)) by (field; auto). lra. }
      subst k'. fold p in Hp'. split; [reflexivity|].
      assert (Ew : w = radd (rscale s' u) (rscale t' v)).
      { unfold w. rewrite Hp'. apply rv_eq; unfold rsub, radd, rscale; simpl; ring. }
      assert (Es : s = s').
      { unfold s. rewrite Ew. apply Rmult_eq_reg_r with (rdot N N); auto.
        unfold Rdiv. rewrite Rmult_assoc, Rinv_l, Rmult_1_r by auto.
        replace (rdot N N) with (rdot u u * rdot v v - rdot u v * rdot u v) by lra.
        unfold rdot, radd, rscale; simpl. ring. }
      assert (Et : t = t').
      { unfold t. rewrite Ew. apply Rmult_eq_reg_r with (rdot N N); auto.
        unfold Rdiv. rewrite Rmult_assoc, Rinv_l, Rmult_1_r by auto.
        replace (rdot N N) with (rdot u u * rdot v v - rdot u v * rdot u v) by lra.
        unfold rdot, radd, rscale; simpl. ring. }
      rewrite Es, Et. lra. }
    destruct (Rltb s (- tol) || Rltb (1 + tol) s) eqn:B1.
    + split; [discriminate|]. intros (p' & _ & _ & Hl & Hi). destruct (Huniq p' Hl Hi) as (_ & B).
      rewrite orb_true_iff, !Rltb_true in B1. lra.
    + apply orb_false_iff in B1. rewrite !Rltb_false in B1.
      destruct (Rltb t (- tol) || Rltb (1 + tol) (s + t)) eqn:B2; cbn [negb].
      * split; [discriminate|]. intros (p' & _ & _ & Hl & Hi). destruct (Huniq p' Hl Hi) as (_ & B).
        rewrite orb_true_iff, !Rltb_true in B2. lra.
      * apply orb_false_iff in B2. rewrite !Rltb_false in B2. split.
        -- intros [= <-]. exists p. split; [reflexivity|]. split; [split; auto|]. split; [exists k; reflexivity|].
           exists s, t. split; [exact Hdec|lra].
        -- intros (p' & -> & _ & Hl & Hi). destruct (Huniq p' Hl Hi) as (-> & _). reflexivity.
Qed.

(** faces *)
Lemma face_hit_XR o d a b c q :
  face_hit XR (lift_line o d) (lift3 a, lift3 b, lift3 c) = Some q <->
  exists p, q = lift3 p /\ triangle_hit tol o d (a, b, c) p.
Proof. unfold face_hit. rewrite !vsub_lift. apply line_triangle_XR. Qed.

Lemma face_pts_XR vs f : face_ok (length vs) f ->
  exists a b c, face_corners vs f (a, b, c) /\
    forall fs, face_pts XR (lift_mesh vs fs) f = Ok (lift3 a, lift3 b, lift3 c).
Proof.
  destruct f as [[i j] k]. intros (Hi & Hj & Hk).
  destruct (nth_error vs i) as [a|] eqn:Ea; [|apply nth_error_None in Ea; lia].
  destruct (nth_error vs j) as [b|] eqn:Eb; [|apply nth_error_None in Eb; lia].
  destruct (nth_error vs k) as [c|] eqn:Ec; [|apply nth_error_None in Ec; lia].
  exists a, b, c. split; [unfold face_corners; auto|]. intros fs. unfold face_pts, lift_mesh; cbn [mverts].
  unfold idx. rewrite !nth_error_map, Ea, Eb, Ec. reflexivity.
Qed.

Lemma corners_fun vs f abc abc' : face_corners vs f abc -> face_corners vs f abc' -> abc = abc'.
Proof. destruct f as [[i j] k], abc as [[a b] c], abc' as [[a' b'] c']. unfold face_corners. intros (?&?&?) (?&?&?). congruence. Qed.

(** The scan returns the first two hits. *)
Section Scan.
Variables (vs : list rvec) (fs0 : list (nat * nat * nat)).
Variable test : vec3 XR * vec3 XR * vec3 XR -> option (vec3 XR).
Variable good : nat * nat * nat -> rvec -> Prop.
Hypothesis test_ok : forall f a b c, face_corners vs f (a, b, c) ->
  forall q, test (lift3 a, lift3 b, lift3 c) = Some q <-> exists p, q = lift3 p /\ good f p.

Lemma scan_spec fs : forall pts, Forall (face_ok (length vs)) fs -> (length pts < 2)%nat ->
  exists ps, pick good fs ps /\
    scan XR test (lift_mesh vs fs0) fs pts = Ok (firstn 2 (pts ++ map lift3 ps)).
Proof.
  induction fs as [|f fs IH]; intros pts F L.
  - exists []. split; [constructor|]. cbn [scan map]. rewrite app_nil_r. rewrite firstn_all2 by lia. reflexivity.
  - inversion F as [|? ? Hf F']; subst. destruct (face_pts_XR vs f Hf) as (a & b & c & Hc & Ep).
    cbn [scan]. rewrite Ep. cbn [obind]. pose proof (test_ok f a b c Hc) as T.
    destruct (test (lift3 a, lift3 b, lift3 c)) as [q|] eqn:Et.
    + destruct (proj1 (T q) eq_refl) as (p & -> & Hg).
      destruct (Nat.eqb_spec (length (pts ++ [lift3 p])) 2) as [E|E].
      * (* the rest is ignored: still provide its picks *)
        assert (X : exists ps', pick good fs ps').
        { destruct (IH [] F' ltac:(simpl; lia)) as (ps' & Hp & _). eauto. }
        destruct X as (ps' & Hp'). exists (p :: ps'). split; [constructor; auto|].
        f_equal. cbn [map]. rewrite app_length in E. simpl in E.
        replace (pts ++ lift3 p :: map lift3 ps') with ((pts ++ [lift3 p]) ++ map lift3 ps') by (rewrite <- app_assoc; reflexivity).
        rewrite firstn_app, app_length. simpl length. replace (2 - (length pts + 1))%nat with 0%nat by lia.
        rewrite firstn_O, app_nil_r. rewrite firstn_all2; auto. rewrite app_length; simpl; lia.
      * destruct (IH (pts ++ [lift3 p]) F') as (ps & Hp & Es); [rewrite app_length in *; simpl in *; lia|].
        exists (p :: ps). split; [constructor; auto|]. rewrite Es. cbn [map]. rewrite <- app_assoc. reflexivity.
    + destruct (Nat.eqb_spec (length pts) 2) as [E|E]; [lia|].
      destruct (IH pts F' L) as (ps & Hp & Es). exists ps. split; [|exact Es].
      apply pick_miss; auto. intros p Hg. assert (X : None = Some (lift3 p)) by (apply T; eauto). discriminate.
Qed.
End Scan.

Lemma out_of_face_XR o d a b c :
  out_of_face XR (lift_line o d) (lift3 a, lift3 b, lift3 c) = false <-> bbox_ok o (a, b, c).
Proof.
  unfold out_of_face, lift_line, lift3, fmin3, fmax3; cbn [lorg vx vy vz].
  rewrite !sfmin_XR, !sfmax_XR. cbn [XR sltb xcmp car]. rewrite !orb_false_iff, !Rltb_false.
  unfold bbox_ok. tauto.
Qed.

Lemma out_of_row_XR v x xs : exists b, out_of_row XR (Some v) (map Some (x :: xs)) = Ok b /\
  (b = true -> (forall y, In y (x :: xs) -> y < v) \/ (forall y, In y (x :: xs) -> v < y)).
Proof.
  cbn [map out_of_row]. destruct (max_coeff_XR xs x) as (M & -> & HM). destruct (min_coeff_XR xs x) as (m & -> & Hm).
  eexists. split; [reflexivity|]. cbn [XR sltb xcmp car]. rewrite orb_true_iff, !Rltb_true.
  intros [H|H]; [left|right]; intros y Hy; [pose proof (HM y Hy)|pose proof (Hm y Hy)]; lra.
Qed.

Lemma map_coord (f : vec3 XR -> car XR) (g : rvec -> R) vs : (forall p, f (lift3 p) = Some (g p)) ->
  map f (map lift3 vs) = map Some (map g vs).
Proof. intros H. rewrite !map_map. apply map_ext. auto. Qed.

Lemma vertical_line_mesh_XR o vs fs : vs <> [] -> Forall (face_ok (length vs)) fs ->
  exists r, vertical_line_mesh XR (lift_line o (RV 0 0 1)) (lift_mesh vs fs) = Ok r /\
   ((r = [] /\ ((forall p, In p vs -> rx p < rx o) \/ (forall p, In p vs -> rx o < rx p) \/
                (forall p, In p vs -> ry p < ry o) \/ (forall p, In p vs -> ry o < ry p))) \/
    exists ps, pick (fun f p => exists abc, face_corners vs f abc /\ bbox_ok o abc /\ triangle_hit tol o (RV 0 0 1) abc p) fs ps /\
      r = map lift3 (firstn 2 ps)).
Proof.
  intros Hne F. destruct vs as [|v0 vs0]; [congruence|]. set (vs := v0 :: vs0) in *.
  unfold vertical_line_mesh. 
  assert (Ex : map vx (mverts (lift_mesh vs fs)) = map Some (map rx vs)) by (apply map_coord; reflexivity).
  assert (Ey : map vy (mverts (lift_mesh vs fs)) = map Some (map ry vs)) by (apply map_coord; reflexivity).
  destruct (out_of_row_XR (rx o) (rx v0) (map rx vs0)) as (b1 & E1 & H1).
  change (out_of_row XR (vx (lorg (lift_line o (RV 0 0 1)))) (map Some (map rx vs)) = Ok b1) in E1.
  rewrite Ex, E1. cbn [obind].
  destruct b1.
  { exists []. split; [reflexivity|]. left. split; [reflexivity|].
    destruct (H1 eq_refl) as [H|H]; [left|right; left]; intros p Hp; apply H;
      destruct Hp as [<-|Hp]; [left; auto|right; apply in_map; auto|left; auto|right; apply in_map; auto]. }
  destruct (out_of_row_XR (ry o) (ry v0) (map ry vs0)) as (b2 & E2 & H2).
  change (out_of_row XR (vy (lorg (lift_line o (RV 0 0 1)))) (map Some (map ry vs)) = Ok b2) in E2.
  rewrite Ey, E2. cbn [obind].
  destruct b2.
  { exists []. split; [reflexivity|]. left. split; [reflexivity|].
    destruct (H2 eq_refl) as [H|H]; [right; right; left|right; right; right]; intros p Hp; apply H;
      destruct Hp as [<-|Hp]; [left; auto|right; apply in_map; auto|left; auto|right; apply in_map; auto]. }
  destruct (scan_spec vs fs (fun abc => if out_of_face XR (lift_line o (RV 0 0 1)) abc then None else face_hit XR (lift_line o (RV 0 0 1)) abc)
     (fun f p => exists abc, face_corners vs f abc /\ bbox_ok o abc /\ triangle_hit tol o (RV 0 0 1) abc p)) with (fs := fs) (pts := @nil (vec3 XR))
     as (ps & Hp & Es); auto.
  { intros f a b c Hc q. destruct (out_of_face XR (lift_line o (RV 0 0 1)) (lift3 a, lift3 b, lift3 c)) eqn:Eo.
    - split; [discriminate|]. intros (p & _ & abc & Hc' & Hb & _). rewrite (corners_fun _ _ _ _ Hc' Hc) in Hb.
      apply (out_of_face_XR o (RV 0 0 1)) in Hb. congruence.
    - apply out_of_face_XR in Eo. rewrite face_hit_XR. split.
      + intros (p & -> & Hh). exists p. split; auto. exists (a, b, c). auto.
      + intros (p & -> & abc & Hc' & _ & Hh). rewrite (corners_fun _ _ _ _ Hc' Hc) in Hh. eauto. }
  eexists. split; [exact Es|]. right. exists ps. split; [exact Hp|]. cbn [app]. rewrite firstn_map. reflexivity.
Qed.

(** All vertices strictly on one side of the line in a coordinate. *)
Lemma axis_reject_XR (f : vec3 XR -> car XR) (g : rvec -> R) dd oo vs fs :
  (forall p, f (lift3 p) = Some (g p)) -> vs <> [] ->
  exists b, axis_reject XR (Some dd) (Some oo) (map f (mverts (lift_mesh vs fs))) = Ok b /\
   (b = true -> Rabs dd < / 10 ^ 6 /\ ((forall p, In p vs -> g p < oo) \/ (forall p, In p vs -> oo < g p))).
Proof.
  intros H Hne. destruct vs as [|v0 vs0]; [congruence|]. unfold axis_reject.
  rewrite sabs_lift. unfold sdec. cbn [XR sdiv sofZ xdiv car].
  destruct (Req_EM_T (IZR (10 ^ 6)) 0) as [E|_]; [simpl in E; lra|]. rewrite ltb_lift.
  destruct (Rltb (Rabs dd) (1 / IZR (10 ^ 6))) eqn:E; [|exists false; split; [reflexivity|discriminate]].
  apply Rltb_true in E.
  unfold lift_mesh; cbn [mverts]. rewrite (map_coord f g) by auto.
  destruct (out_of_row_XR oo (g v0) (map g vs0)) as (b & E1 & Hb).
  exists b. split; [exact E1|]. intros ->. split.
  - replace (/ 10 ^ 6) with (1 / IZR (10 ^ 6)) by (simpl; field). exact E.
  - destruct (Hb eq_refl) as [X|X]; [left|right]; intros p Hp; apply X;
      (destruct Hp as [<-|Hp]; [left; auto|right; apply in_map; auto]).
Qed.

Lemma line_mesh_XR o d vs fs : vs <> [] -> Forall (face_ok (length vs)) fs ->
  exists r, line_mesh XR (lift_line o d) (lift_mesh vs fs) = Ok r /\
   ((r = [] /\ ((Rabs (rx d) < / 10 ^ 6 /\ one_sided rx o vs) \/ (Rabs (ry d) < / 10 ^ 6 /\ one_sided ry o vs) \/
                (Rabs (rz d) < / 10 ^ 6 /\ one_sided rz o vs))) \/
    exists ps, pick (good_face vs o d) fs ps /\ r = map lift3 (firstn 2 ps)).
Proof.
  intros Hne F. unfold line_mesh.
  destruct (axis_reject_XR vx rx (rx d) (rx o) vs fs ltac:(reflexivity) Hne) as (b1 & E1 & H1).
  destruct (axis_reject_XR vy ry (ry d) (ry o) vs fs ltac:(reflexivity) Hne) as (b2 & E2 & H2).
  destruct (axis_reject_XR vz rz (rz d) (rz o) vs fs ltac:(reflexivity) Hne) as (b3 & E3 & H3).
  change (axis_reject XR (vx (ldir (lift_line o d))) (vx (lorg (lift_line o d))) (map vx (mverts (lift_mesh vs fs))) = Ok b1) in E1.
  change (axis_reject XR (vy (ldir (lift_line o d))) (vy (lorg (lift_line o d))) (map vy (mverts (lift_mesh vs fs))) = Ok b2) in E2.
  change (axis_reject XR (vz (ldir (lift_line o d))) (vz (lorg (lift_line o d))) (map vz (mverts (lift_mesh vs fs))) = Ok b3) in E3.
  rewrite E1. cbn [obind]. destruct b1; [exists []; split; auto|].
  rewrite E2. cbn [obind]. destruct b2; [exists []; split; auto 6|].
  rewrite E3. cbn [obind]. destruct b3; [exists []; split; auto 7|].
  destruct (scan_spec vs fs (face_hit XR (lift_line o d)) (good_face vs o d)) with (fs := fs) (pts := @nil (vec3 XR))
     as (ps & Hp & Es); auto.
  { intros f a b c Hc q. rewrite face_hit_XR. split.
    - intros (p & -> & Hh). exists p. split; auto. exists (a, b, c). auto.
    - intros (p & -> & abc & Hc' & Hh). rewrite (corners_fun _ _ _ _ Hc' Hc) in Hh. eauto. }
  eexists. split; [exact Es|]. right. exists ps. split; [exact Hp|]. cbn [app]. rewrite firstn_map. reflexivity.
Qed.

(** An exact hit (no tolerance) of a vertical line passes the bounding boxes. *)
Lemma exact_hit_bbox o abc p : triangle_hit 0 o (RV 0 0 1) abc p -> bbox_ok o abc.
Proof.
  destruct abc as [[a b] c]. intros (_ & (k & ->) & (s & t & E & B)).
  pose proof (f_equal rx E) as Ex. pose proof (f_equal ry E) as Ey.
  unfold radd, rscale, rsub in Ex, Ey; cbn [rx ry rz] in Ex, Ey.
  assert (C : forall x y z, Rmin x (Rmin y z) <= x + (s * (y - x) + t * (z - x)) <= Rmax x (Rmax y z)).
  { intros x y z.
    assert (M : forall m, m <= x -> m <= y -> m <= z -> m <= x + (s * (y - x) + t * (z - x))).
    { intros m Hx Hy Hz. replace (x + (s * (y - x) + t * (z - x))) with ((1 - s - t) * x + s * y + t * z) by ring.
      assert (0 <= (1 - s - t) * (x - m)) by (apply Rmult_le_pos; lra).
      assert (0 <= s * (y - m)) by (apply Rmult_le_pos; lra).
      assert (0 <= t * (z - m)) by (apply Rmult_le_pos; lra). lra. }
    assert (M' : forall m, x <= m -> y <= m -> z <= m -> x + (s * (y - x) + t * (z - x)) <= m).
    { intros m Hx Hy Hz. replace (x + (s * (y - x) + t * (z - x))) with ((1 - s - t) * x + s * y + t * z) by ring.
      assert (0 <= (1 - s - t) * (m - x)) by (apply Rmult_le_pos; lra).
      assert (0 <= s * (m - y)) by (apply Rmult_le_pos; lra).
      assert (0 <= t * (m - z)) by (apply Rmult_le_pos; lra). lra. }
    pose proof (Rmin_l x (Rmin y z)). pose proof (Rmin_r x (Rmin y z)). pose proof (Rmin_l y z). pose proof (Rmin_r y z).
    pose proof (Rmax_l x (Rmax y z)). pose proof (Rmax_r x (Rmax y z)). pose proof (Rmax_l y z). pose proof (Rmax_r y z).
    split; [apply M|apply M']; lra. }
  split.
  - replace (rx o) with (rx a + (s * (rx b - rx a) + t * (rx c - rx a))) by lra. apply C.
  - replace (ry o) with (ry a + (s * (ry b - ry a) + t * (ry c - ry a))) by lra. apply C.
Qed.

Lemma bbox_not_one_sided o vs f abc : face_corners vs f abc -> bbox_ok o abc -> 
  ~ one_sided rx o vs /\ ~ one_sided ry o vs.
Proof.
  destruct f as [[i j] k], abc as [[a b] c]. intros (Ha & Hb & Hc) [Bx By].
  apply nth_error_In in Ha, Hb, Hc. unfold Rmin, Rmax in *.
  split; intros [H|H]; pose proof (H a Ha); pose proof (H b Hb); pose proof (H c Hc);
    repeat match goal with _ : context [Rle_dec ?x ?y] |- _ => destruct (Rle_dec x y) end; lra.
Qed.

Lemma pick_in {F P} (good : F -> P -> Prop) fs ps : pick good fs ps ->
  forall f p, In f fs -> good f p -> exists p', good f p' /\ In p' ps.
Proof.
  induction 1; intros f0 p0 Hin Hg; simpl in *; [tauto| |].
  - destruct Hin as [<-|Hin]; [eauto|]. destruct (IHpick f0 p0 Hin Hg) as (p' & ? & ?). eauto.
  - destruct Hin as [<-|Hin]; [exfalso; eapply H; eauto|]. eauto.
Qed.
Lemma pick_sound {F P} (good : F -> P -> Prop) fs ps : pick good fs ps ->
  forall p, In p ps -> exists f, In f fs /\ good f p.
Proof.
  induction 1; intros p0 Hin; simpl in *; [tauto| |].
  - destruct Hin as [<-|Hin]; [eauto|]. destruct (IHpick p0 Hin) as (f' & ? & ?). eauto.
  - destruct (IHpick p0 Hin) as (f' & ? & ?). eauto.
Qed.

Lemma nth_error_lt {A} (l : list A) n x : nth_error l n = Some x -> (n < length l)%nat.
Proof. intros H. apply nth_error_Some. congruence. Qed.

Lemma scan_len S test (m : mesh S) fs : forall pts r, (length pts < 2)%nat -> scan S test m fs pts = Ok r -> (length r <= 2)%nat.
Proof.
  induction fs as [|f fs IH]; intros pts r L; cbn [scan].
  - intros [= <-]. lia.
  - intros E. apply obind_Ok in E. destruct E as (abc & _ & E). cbv zeta in E.
    destruct (Nat.eqb_spec (length (match test abc with Some p => pts ++ [p] | None => pts end)) 2) as [E2|E2].
    + injection E as <-. lia.
    + refine (IH _ _ _ E). destruct (test abc); [rewrite app_length in *; simpl in *|]; lia.
Qed.

Lemma mesh_at_most_two S (l : line3 S) (m : mesh S) r :
  (line_mesh S l m = Ok r \/ vertical_line_mesh S l m = Ok r) -> (length r <= 2)%nat.
Proof.
  intros [E|E]; unfold line_mesh, vertical_line_mesh in E;
  repeat (apply obind_Ok in E; destruct E as ([] & _ & E); [injection E as <-; simpl; lia|]);
  eapply scan_len in E; simpl; auto.
Qed.

Lemma bad_face_UB o d vs f fs : vs <> [] -> ~ face_ok (length vs) f ->
  line_mesh XR (lift_line o d) (lift_mesh vs (f :: fs)) = Ok [] \/
  line_mesh XR (lift_line o d) (lift_mesh vs (f :: fs)) = UB.
Proof.
  intros Hne Hf. unfold line_mesh.
  destruct (axis_reject_XR vx rx (rx d) (rx o) vs (f :: fs) ltac:(reflexivity) Hne) as (b1 & E1 & H1).
  destruct (axis_reject_XR vy ry (ry d) (ry o) vs (f :: fs) ltac:(reflexivity) Hne) as (b2 & E2 & H2).
  destruct (axis_reject_XR vz rz (rz d) (rz o) vs (f :: fs) ltac:(reflexivity) Hne) as (b3 & E3 & H3).
  change (axis_reject XR (vx (ldir (lift_line o d))) (vx (lorg (lift_line o d))) (map vx (mverts (lift_mesh vs (f :: fs)))) = Ok b1) in E1.
  change (axis_reject XR (vy (ldir (lift_line o d))) (vy (lorg (lift_line o d))) (map vy (mverts (lift_mesh vs (f :: fs)))) = Ok b2) in E2.
  change (axis_reject XR (vz (ldir (lift_line o d))) (vz (lorg (lift_line o d))) (map vz (mverts (lift_mesh vs (f :: fs)))) = Ok b3) in E3.
  rewrite E1. cbn [obind]. destruct b1; [auto|]. rewrite E2. cbn [obind]. destruct b2; [auto|].
  rewrite E3. cbn [obind]. destruct b3; [auto|]. right. unfold lift_mesh at 2; cbn [mfaces scan].
  replace (face_pts XR (lift_mesh vs (f :: fs)) f) with (@UB (vec3 XR * vec3 XR * vec3 XR)); [reflexivity|].
  destruct f as [[i j] k]. unfold face_pts, face_ok, idx in *; cbn [lift_mesh mverts]. rewrite !nth_error_map.
  destruct (nth_error vs i) eqn:Ei; [|reflexivity]. apply nth_error_lt in Ei.
  destruct (nth_error vs j) eqn:Ej; [|reflexivity]. apply nth_error_lt in Ej.
  destruct (nth_error vs k) eqn:Ek; [|reflexivity]. apply nth_error_lt in Ek. exfalso. apply Hf. auto.
Qed.
