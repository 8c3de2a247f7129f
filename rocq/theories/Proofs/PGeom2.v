(** The planar boundary samples and Minkowski samples. *)
From Coq Require Import List Reals ZArith Arith Bool Lia Lra Psatz.
From Verif.Base Require Import Outcome.
From Verif.Model Require Import MGeom.
From Verif.Spec Require Import SGeom.
From Verif.Proofs Require Import PGeom.
Import ListNotations.
Local Open Scope outcome_scope.
Local Open Scope R_scope.

(** ---- samples ---- *)
Definition theta (num i : nat) : R := 2 * INR i * cPI / (INR num - 1).
Lemma se_theta_eq num i : (2 <= num)%nat -> se_theta num i = Some (theta num i).
Proof.
  intros H. unfold se_theta, odiv, theta. apply le_INR in H. cbn in H.
  destruct (Req_EM_T (INR num - 1) 0); [lra|reflexivity].
Qed.
Lemma se_theta_1 i : se_theta 1 i = None.
Proof. unfold se_theta, odiv. cbn. destruct (Req_EM_T (1 - 1) 0); [reflexivity|lra]. Qed.
Definition canon2 (a b e th : R) : v2 := V2 (a * spow (cos th) e) (b * spow (sin th) e).
Definition sample2 (a b e : R) (p : v2) (t th : R) : v2 := add2 (app2 (rot2 t) (canon2 a b e th)) p.
Lemma omap_map_ok {A B} (f : A -> outcome B) (g : A -> B) l : (forall a, In a l -> f a = Ok (g a)) -> omap f l = Ok (map g l).
Proof.
  induction l as [|a l IH]; intros H; [reflexivity|]. cbn [omap map]. rewrite (H a (or_introl eq_refl)). cbn [obind].
  rewrite IH; [reflexivity|]. intros x Hx. apply H. right. exact Hx.
Qed.
Lemma origin2_eq a b e px py t num : (2 <= num)%nat -> 0 < e ->
  origin2 (SE [a; b] e [px; py] t num) = Ok (map (fun i => Some (sample2 a b e (V2 px py) t (theta num i))) (seq 0 num)).
Proof.
  intros N E. unfold origin2. cbn [se_num se_axes se_pos se_eps se_angle]. apply omap_map_ok. intros i _.
  cbn [at_ nth_error obind]. rewrite se_theta_eq by assumption. cbn [obnd]. rewrite !expfun_some by assumption. reflexivity.
Qed.
Lemma along_sample a b e c t l : along (Body2 a b e c t) (add2 (app2 (rot2 t) l) c) = x2 l.
Proof. unfold along. cbn. transitivity (x2 l * (cos t * cos t + sin t * sin t)); [ring|rewrite cs1; ring]. Qed.
Lemma across_sample a b e c t l : across (Body2 a b e c t) (add2 (app2 (rot2 t) l) c) = y2 l.
Proof. unfold across. cbn. transitivity (y2 l * (cos t * cos t + sin t * sin t)); [ring|rewrite cs1; ring]. Qed.
Lemma sample_on a b e c t th : 0 < a -> 0 < b -> 0 < e -> on2 (Body2 a b e c t) (sample2 a b e c t th).
Proof.
  intros A B E. unfold on2, level2, sample2. rewrite along_sample, across_sample. cbn.
  replace (a * spow (cos th) e / a) with (spow (cos th) e) by (field; lra).
  replace (b * spow (sin th) e / b) with (spow (sin th) e) by (field; lra).
  rewrite !ppow_spow. replace (e * (2 / e)) with 2 by (field; lra). rewrite !ppow_2. apply cs1.
Qed.

(** ---- the ellipse touching a point with a given normal ---- *)
Definition un (t : R) (n : v2) : R := x2 n * cos t + y2 n * sin t.
Definition vn (t : R) (n : v2) : R := - x2 n * sin t + y2 n * cos t.
Definition dn (A B t : R) (n : v2) : R := sqrt (A * A * (un t n * un t n) + B * B * (vn t n * vn t n)).
Definition off2 (A B t : R) (n : v2) : v2 :=
  V2 ((A * A * un t n * cos t - B * B * vn t n * sin t) / dn A B t n)
     ((A * A * un t n * sin t + B * B * vn t n * cos t) / dn A B t n).
Lemma un_vn t n : un t n * un t n + vn t n * vn t n = x2 n * x2 n + y2 n * y2 n.
Proof. unfold un, vn. pose proof (cs1 t) as H. replace (x2 n * x2 n + y2 n * y2 n) with ((x2 n * x2 n + y2 n * y2 n) * (cos t * cos t + sin t * sin t)) by (rewrite H; ring). ring. Qed.
Lemma quad_pos A B t n : 0 < A -> 0 < B -> x2 n <> 0 \/ y2 n <> 0 ->
  0 < A * A * (un t n * un t n) + B * B * (vn t n * vn t n).
Proof.
  intros HA HB N. pose proof (un_vn t n) as U. assert (0 < x2 n * x2 n + y2 n * y2 n) by (destruct N; nra).
  assert (0 < A * A) by nra. assert (0 < B * B) by nra.
  assert (0 <= un t n * un t n) by nra. assert (0 <= vn t n * vn t n) by nra.
  destruct (Req_dec (un t n * un t n) 0) as [Z|Z]; [|nra]. assert (0 < vn t n * vn t n) by lra. nra.
Qed.
Lemma dn_pos A B t n : 0 < A -> 0 < B -> x2 n <> 0 \/ y2 n <> 0 -> 0 < dn A B t n.
Proof. intros. apply sqrt_lt_R0, quad_pos; assumption. Qed.
Lemma dn_sq A B t n : 0 < A -> 0 < B -> x2 n <> 0 \/ y2 n <> 0 ->
  dn A B t n * dn A B t n = A * A * (un t n * un t n) + B * B * (vn t n * vn t n).
Proof. intros. apply sqrt_sqrt. left. apply quad_pos; assumption. Qed.
Lemma div_sq2 x y : ppow (x / y) (2 / 1) = x / y * (x / y).
Proof. replace (2 / 1) with 2 by field. apply ppow_2. Qed.
Lemma touch_on A B t n y k : 0 < A -> 0 < B -> x2 n <> 0 \/ y2 n <> 0 -> k * k = 1 ->
  on2 (ellipse_at A B t (add2 y (scale2 k (off2 A B t n)))) y.
Proof.
  intros HA HB N K. pose proof (dn_pos A B t n HA HB N) as D. pose proof (dn_sq A B t n HA HB N) as DS. pose proof (cs1 t) as CS.
  unfold on2, level2. cbn [ba bb be ellipse_at]. rewrite !div_sq2. unfold along, across, ellipse_at. cbn [bt bc x2 y2 add2 scale2 off2].
  set (d := dn A B t n) in *. set (u := un t n) in *. set (w := vn t n) in *.
  replace (cos t * (x2 y - (x2 y + k * ((A * A * u * cos t - B * B * w * sin t) / d))) + sin t * (y2 y - (y2 y + k * ((A * A * u * sin t + B * B * w * cos t) / d))))
    with (- k * (A * A * u * (cos t * cos t + sin t * sin t) / d)) by (field; lra).
  replace (- sin t * (x2 y - (x2 y + k * ((A * A * u * cos t - B * B * w * sin t) / d))) + cos t * (y2 y - (y2 y + k * ((A * A * u * sin t + B * B * w * cos t) / d))))
    with (- k * (B * B * w * (cos t * cos t + sin t * sin t) / d)) by (field; lra).
  rewrite CS.
  replace (- k * (A * A * u * 1 / d) / A * (- k * (A * A * u * 1 / d) / A) + - k * (B * B * w * 1 / d) / B * (- k * (B * B * w * 1 / d) / B))
    with ((k * k) * (A * A * (u * u) + B * B * (w * w)) / (d * d)) by (field; lra).
  rewrite K, DS. field. rewrite <- DS. nra.
Qed.
Lemma dot_local t n c p : dotp2 n (sub2 p c) =
  un t n * (cos t * (x2 p - x2 c) + sin t * (y2 p - y2 c)) + vn t n * (- sin t * (x2 p - x2 c) + cos t * (y2 p - y2 c)).
Proof.
  unfold dotp2, un, vn. cbn. pose proof (cs1 t) as H.
  replace (x2 n * (x2 p - x2 c) + y2 n * (y2 p - y2 c)) with ((x2 n * (x2 p - x2 c) + y2 n * (y2 p - y2 c)) * (cos t * cos t + sin t * sin t)) by (rewrite H; ring).
  ring.
Qed.
Lemma cauchy a b X Y d q : 0 < d -> d * d = a * a + b * b -> X * X + Y * Y <= q * q -> 0 <= q -> - (d * q) <= a * X + b * Y.
Proof.
  intros D DS Q P. assert (H : (a * X + b * Y) * (a * X + b * Y) <= (d * q) * (d * q)).
  { replace ((d * q) * (d * q)) with ((d * d) * (q * q)) by ring. rewrite DS.
    assert ((a * X + b * Y) * (a * X + b * Y) + (a * Y - b * X) * (a * Y - b * X) = (a * a + b * b) * (X * X + Y * Y)) by ring.
    pose proof (Rle_0_sqr (a * Y - b * X)) as S0. pose proof (Rle_0_sqr a) as S1. pose proof (Rle_0_sqr b) as S2. unfold Rsqr in *.
    assert ((a * a + b * b) * (X * X + Y * Y) <= (a * a + b * b) * (q * q)) by (apply Rmult_le_compat_l; lra). lra. }
  assert (0 <= d * q) by (apply Rmult_le_pos; lra). nra.
Qed.
Lemma sqrt_lt1 x : 0 <= x < 1 -> 0 <= sqrt x < 1 /\ sqrt x * sqrt x = x.
Proof.
  intros [P L]. split; [split; [apply sqrt_pos|]|apply sqrt_sqrt; assumption]. rewrite <- sqrt_1. apply sqrt_lt_1; lra.
Qed.
Lemma touch_side A B t n y k p : 0 < A -> 0 < B -> x2 n <> 0 \/ y2 n <> 0 -> k * k = 1 ->
  (in2 (ellipse_at A B t (add2 y (scale2 k (off2 A B t n)))) p -> 0 <= k * dotp2 n (sub2 p y)) /\
  (inside2 (ellipse_at A B t (add2 y (scale2 k (off2 A B t n)))) p -> 0 < k * dotp2 n (sub2 p y)).
Proof.
  intros HA HB N K. pose proof (dn_pos A B t n HA HB N) as D. pose proof (dn_sq A B t n HA HB N) as DS. pose proof (cs1 t) as CS.
  set (c := add2 y (scale2 k (off2 A B t n))).
  assert (E : dotp2 n (sub2 p y) = dotp2 n (sub2 p c) + k * dn A B t n).
  { unfold c, dotp2. cbn. set (d := dn A B t n) in *. assert (H : d = (A * A * (un t n * un t n) + B * B * (vn t n * vn t n)) / d) by (rewrite <- DS; field; lra).
    assert (H2 : x2 n * ((A * A * un t n * cos t - B * B * vn t n * sin t) / d) + y2 n * ((A * A * un t n * sin t + B * B * vn t n * cos t) / d) = d).
    { rewrite H at 3. unfold un, vn. field. lra. }
    rewrite <- H2 at 3. ring. }
  assert (F : dotp2 n (sub2 p c) = A * un t n * (along (ellipse_at A B t c) p / A) + B * vn t n * (across (ellipse_at A B t c) p / B)).
  { rewrite (dot_local t). unfold along, across, ellipse_at. cbn [bt bc]. field. lra. }
  set (X := along (ellipse_at A B t c) p / A) in *. set (Y := across (ellipse_at A B t c) p / B) in *.
  assert (Dq : dn A B t n * dn A B t n = (k * (A * un t n)) * (k * (A * un t n)) + (k * (B * vn t n)) * (k * (B * vn t n))).
  { rewrite DS. replace (k * (A * un t n) * (k * (A * un t n))) with ((k * k) * (A * un t n * (A * un t n))) by ring.
    replace (k * (B * vn t n) * (k * (B * vn t n))) with ((k * k) * (B * vn t n * (B * vn t n))) by ring. rewrite K. ring. }
  assert (G : k * dotp2 n (sub2 p y) = (k * (A * un t n)) * X + (k * (B * vn t n)) * Y + dn A B t n).
  { rewrite E, F. replace (k * (A * un t n * X + B * vn t n * Y + k * dn A B t n)) with (k * (A * un t n) * X + k * (B * vn t n) * Y + (k * k) * dn A B t n) by ring. rewrite K. ring. }
  assert (L : level2 (ellipse_at A B t c) p = X * X + Y * Y).
  { unfold level2. cbn [ba bb be ellipse_at]. rewrite !div_sq2. reflexivity. }
  unfold in2, inside2. fold c. rewrite L, G. split; intros H.
  - pose proof (cauchy _ _ X Y (dn A B t n) 1 D Dq ltac:(lra) ltac:(lra)). lra.
  - destruct (sqrt_lt1 (X * X + Y * Y) ltac:(split; [nra|assumption])) as [[P Q] S].
    pose proof (cauchy _ _ X Y (dn A B t n) (sqrt (X * X + Y * Y)) D Dq ltac:(rewrite S; lra) P). nra.
Qed.

(** ---- the model's offset ---- *)
Lemma app_mul2 A B v : app2 (mul2 A B) v = app2 A (app2 B v).
Proof. destruct A, B, v. unfold app2, mul2. cbn. f_equal; ring. Qed.
Lemma tinv_app t u w n : app2 (mul2 (mul2 (rot2 t) (diag2 u w)) (tr2 (rot2 t))) n =
  V2 (u * un t n * cos t - w * vn t n * sin t) (u * un t n * sin t + w * vn t n * cos t).
Proof. destruct n. unfold app2, mul2, rot2, diag2, tr2, un, vn. cbn. f_equal; ring. Qed.
Lemma un_back t p q : un t (V2 (p * cos t - q * sin t) (p * sin t + q * cos t)) = p.
Proof. unfold un. cbn. pose proof (cs1 t). replace ((p * cos t - q * sin t) * cos t + (p * sin t + q * cos t) * sin t) with (p * (cos t * cos t + sin t * sin t)) by ring. rewrite H. ring. Qed.
Lemma vn_back t p q : vn t (V2 (p * cos t - q * sin t) (p * sin t + q * cos t)) = q.
Proof. unfold vn. cbn. pose proof (cs1 t). replace (- (p * cos t - q * sin t) * sin t + (p * sin t + q * cos t) * cos t) with (q * (cos t * cos t + sin t * sin t)) by ring. rewrite H. ring. Qed.
Lemma rot_nonzero t g : x2 g <> 0 \/ y2 g <> 0 -> x2 (app2 (rot2 t) g) <> 0 \/ y2 (app2 (rot2 t) g) <> 0.
Proof.
  intros H. destruct (Req_dec (x2 (app2 (rot2 t) g)) 0) as [A|A]; [right|left; exact A]. intros B.
  cbn in A, B. pose proof (cs1 t) as C.
  assert (x2 g = 0). { replace (x2 g) with (x2 g * (cos t * cos t + sin t * sin t)) by (rewrite C; ring).
    replace (x2 g * (cos t * cos t + sin t * sin t)) with (cos t * (cos t * x2 g + - sin t * y2 g) + sin t * (sin t * x2 g + cos t * y2 g)) by ring. rewrite A, B. ring. }
  assert (y2 g = 0). { replace (y2 g) with (y2 g * (cos t * cos t + sin t * sin t)) by (rewrite C; ring).
    replace (y2 g * (cos t * cos t + sin t * sin t)) with (- sin t * (cos t * x2 g + - sin t * y2 g) + cos t * (sin t * x2 g + cos t * y2 g)) by ring. rewrite A, B. ring. }
  destruct H; contradiction.
Qed.
Lemma offset2_eq k r A B t T t1 g : 0 < r -> 0 < A -> 0 < B -> x2 g <> 0 \/ y2 g <> 0 -> tinv2 r A B t = Some T ->
  offset2 k r T t1 g = Some (scale2 k (off2 A B t (app2 (rot2 t1) g))).
Proof.
  intros Hr HA HB G HT. unfold tinv2, odiv in HT. destruct (Req_EM_T r 0); [lra|]. cbn [obnd] in HT.
  assert (T = mul2 (mul2 (rot2 t) (diag2 (A / r) (B / r))) (tr2 (rot2 t))) as -> by congruence. clear HT.
  set (n1 := app2 (rot2 t1) g). assert (N : x2 n1 <> 0 \/ y2 n1 <> 0) by (apply rot_nonzero; exact G).
  pose proof (dn_pos A B t n1 HA HB N) as D. pose proof (dn_sq A B t n1 HA HB N) as DS.
  unfold offset2. set (TT := mul2 (mul2 (rot2 t) (diag2 (A / r) (B / r))) (tr2 (rot2 t))).
  rewrite !app_mul2. fold n1.
  assert (E1 : app2 TT n1 = V2 (A / r * un t n1 * cos t - B / r * vn t n1 * sin t) (A / r * un t n1 * sin t + B / r * vn t n1 * cos t)) by apply tinv_app.
  assert (E2 : app2 TT (app2 TT n1) = V2 (A / r * (A / r * un t n1) * cos t - B / r * (B / r * vn t n1) * sin t) (A / r * (A / r * un t n1) * sin t + B / r * (B / r * vn t n1) * cos t)).
  { unfold TT at 1. rewrite tinv_app, E1, un_back, vn_back. reflexivity. }
  rewrite E2, E1. cbn [x2 y2].
  assert (E3 : norm2 (V2 (A / r * un t n1 * cos t - B / r * vn t n1 * sin t) (A / r * un t n1 * sin t + B / r * vn t n1 * cos t)) = dn A B t n1 / r).
  { unfold norm2. cbn [x2 y2]. pose proof (cs1 t) as CS.
    replace ((A / r * un t n1 * cos t - B / r * vn t n1 * sin t) * (A / r * un t n1 * cos t - B / r * vn t n1 * sin t) + (A / r * un t n1 * sin t + B / r * vn t n1 * cos t) * (A / r * un t n1 * sin t + B / r * vn t n1 * cos t))
      with ((A * A * (un t n1 * un t n1) + B * B * (vn t n1 * vn t n1)) * (cos t * cos t + sin t * sin t) / (r * r)) by (field; lra).
    rewrite CS, <- DS. replace (dn A B t n1 * dn A B t n1 * 1 / (r * r)) with ((dn A B t n1 / r) * (dn A B t n1 / r)) by (field; lra).
    apply sqrt_square. left. apply Rdiv_lt_0_compat; assumption. }
  rewrite E3. unfold odiv. destruct (Req_EM_T (dn A B t n1 / r) 0) as [Z|_]; [pose proof (Rdiv_lt_0_compat _ _ D Hr); lra|].
  cbn [obnd]. unfold scale2, off2. cbn [x2 y2]. do 2 f_equal; field; lra.
Qed.

(** ---- getMinkSum2D ---- *)
Definition gcanon2 (e th : R) : v2 := V2 (2 / e * spow (cos th) (2 - e)) (2 / e * spow (sin th) (2 - e)).
Lemma grad2_eq a b e px py t num i : (2 <= num)%nat -> 0 < e < 2 ->
  grad2 (SE [a; b] e [px; py] t num) i = Some (gcanon2 e (theta num i)).
Proof.
  intros N E. unfold grad2. cbn [se_num se_eps]. rewrite se_theta_eq by assumption. cbn [obnd].
  unfold odiv. destruct (Req_EM_T e 0); [lra|]. cbn [obnd]. rewrite !expfun_some by lra. reflexivity.
Qed.
Lemma gcanon_ne e th : 0 < e -> x2 (gcanon2 e th) <> 0 \/ y2 (gcanon2 e th) <> 0.
Proof.
  intros E. cbn. assert (0 < 2 / e) by (apply Rdiv_lt_0_compat; lra). pose proof (cs1 th) as C.
  destruct (Req_dec (cos th) 0) as [Z|Z].
  - right. assert (sin th <> 0) by (intros Z2; rewrite Z, Z2 in C; lra). pose proof (spow_ne (sin th) (2 - e) H0).
    apply Rmult_integral_contrapositive. split; lra.
  - left. pose proof (spow_ne (cos th) (2 - e) Z). apply Rmult_integral_contrapositive. split; lra.
Qed.
Definition msample2 (a b e : R) (p : v2) (t A B t2 k th : R) : v2 :=
  add2 (sample2 a b e p t th) (scale2 k (off2 A B t2 (app2 (rot2 t) (gcanon2 e th)))).
Lemma combine_map {A B} (g : A -> B) l : combine l (map g l) = map (fun x => (x, g x)) l.
Proof. induction l as [|x l IH]; [reflexivity|]. cbn. f_equal. exact IH. Qed.
Lemma mink2_eq a b e px py t num A B e2 pos2 t2 num2 k : (2 <= num)%nat -> 0 < e < 2 -> 0 < a -> 0 < b -> 0 < A -> 0 < B ->
  mink2 (SE [a; b] e [px; py] t num) (SE [A; B] e2 pos2 t2 num2) k =
  Ok (map (fun i => Some (msample2 a b e (V2 px py) t A B t2 (IZR k) (theta num i))) (seq 0 num)).
Proof.
  intros N E Ha Hb HA HB. unfold mink2. cbn [se_axes at_ nth_error obind]. rewrite origin2_eq by (lra || assumption). cbn [obind se_num].
  f_equal. rewrite combine_map, map_map. apply map_ext. intros i. cbn [fst snd obnd se_angle].
  assert (Hr : 0 < Rmin a b) by (apply Rmin_glb_lt; assumption).
  destruct (tinv2 (Rmin a b) A B t2) as [T|] eqn:HT.
  2:{ unfold tinv2, odiv in HT. destruct (Req_EM_T (Rmin a b) 0); [lra|discriminate HT]. }
  cbn [obnd]. rewrite grad2_eq by assumption. cbn [obnd].
  rewrite (offset2_eq (IZR k) (Rmin a b) A B t2 T t (gcanon2 e (theta num i)) Hr HA HB (gcanon_ne e _ (proj1 E)) HT). reflexivity.
Qed.

(** ---- the supporting line of the obstacle ---- *)
(** The true outward normal at the sample. *)
Definition ncanon2 (a b e th : R) : v2 := V2 (spow (cos th) (2 - e) / a) (spow (sin th) (2 - e) / b).
Lemma obstacle_side a b e c t th p : 0 < a -> 0 < b -> 0 < e < 2 -> in2 (Body2 a b e c t) p ->
  dotp2 (app2 (rot2 t) (ncanon2 a b e th)) (sub2 p (sample2 a b e c t th)) <= 0.
Proof.
  intros A B E H. unfold in2, level2 in H. cbn [ba bb be] in H.
  assert (E1 : dotp2 (app2 (rot2 t) (ncanon2 a b e th)) (sub2 p (sample2 a b e c t th)) =
    spow (cos th) (2 - e) * (along (Body2 a b e c t) p / a) + spow (sin th) (2 - e) * (across (Body2 a b e c t) p / b) -
    (spow (cos th) (2 - e) * spow (cos th) e + spow (sin th) (2 - e) * spow (sin th) e)).
  { unfold dotp2, sample2, along, across, ncanon2, canon2. cbn [app2 rot2 sub2 add2 x2 y2 m00 m01 m10 m11 bt bc].
    pose proof (cs1 t) as CS.
    set (u := spow (cos th) (2 - e)). set (v := spow (sin th) (2 - e)). set (cu := spow (cos th) e). set (sv := spow (sin th) e).
    replace (u * cu + v * sv) with ((u * cu + v * sv) * (cos t * cos t + sin t * sin t)) by (rewrite CS; ring).
    field. lra. }
  rewrite E1, !spow_compl, cs1.
  pose proof (support2 (cos th) (sin th) e (along (Body2 a b e c t) p / a) (across (Body2 a b e c t) p / b) E (cs1 th)) as S.
  assert (e / 2 * (ppow (along (Body2 a b e c t) p / a) (2 / e) + ppow (across (Body2 a b e c t) p / b) (2 / e)) <= e / 2 * 1) by (apply Rmult_le_compat_l; lra).
  lra.
Qed.
(** For equal semi-axes the code's normal is the true one up to a positive factor. *)
Lemma gcanon_circle a e th : 0 < a -> 0 < e -> gcanon2 e th = scale2 (2 * a / e) (ncanon2 a a e th).
Proof. intros A E. unfold gcanon2, ncanon2, scale2. cbn. f_equal; field; lra. Qed.
Lemma app_scale2 M k v : app2 M (scale2 k v) = scale2 k (app2 M v).
Proof. destruct M, v. unfold app2, scale2. cbn. f_equal; ring. Qed.
Lemma dot_scale2 k u v : dotp2 (scale2 k u) v = k * dotp2 u v.
Proof. unfold dotp2, scale2. cbn. ring. Qed.
Lemma circle_contact a e c t A B t2 th : 0 < a -> 0 < e < 2 -> 0 < A -> 0 < B ->
  let y := sample2 a a e c t th in
  contact2 (Body2 a a e c t) (ellipse_at A B t2 (msample2 a a e c t A B t2 1 th)) y /\
  ~ overlap2 (Body2 a a e c t) (ellipse_at A B t2 (msample2 a a e c t A B t2 1 th)) /\
  inner_contact2 (Body2 a a e c t) (ellipse_at A B t2 (msample2 a a e c t A B t2 (-1) th)) y.
Proof.
  intros HA E A0 B0 y. set (n := app2 (rot2 t) (gcanon2 e th)).
  assert (N : x2 n <> 0 \/ y2 n <> 0) by (apply rot_nonzero, gcanon_ne; lra).
  assert (OB : forall p, in2 (Body2 a a e c t) p -> dotp2 n (sub2 p y) <= 0).
  { intros p Hp. unfold n. rewrite (gcanon_circle a) by lra. rewrite app_scale2, dot_scale2.
    pose proof (obstacle_side a a e c t th p HA HA E Hp) as H.
    assert (0 < 2 * a / e) by (apply Rdiv_lt_0_compat; lra). unfold y. nra. }
  pose proof (sample_on a a e c t th HA HA (proj1 E)) as ON.
  split; [|split].
  - split; [exact ON|]. split; [apply (touch_on A B t2 n y 1); try assumption; ring|].
    exists n. split; [exact N|]. split; [exact OB|]. intros p Hp.
    destruct (touch_side A B t2 n y 1 p A0 B0 N ltac:(ring)) as [S _]. specialize (S Hp). lra.
  - intros [p [P1 P2]]. assert (P1' : in2 (Body2 a a e c t) p) by (unfold in2; unfold inside2 in P1; lra).
    pose proof (OB p P1') as O. destruct (touch_side A B t2 n y 1 p A0 B0 N ltac:(ring)) as [_ S]. specialize (S P2). lra.
  - split; [exact ON|]. split; [apply (touch_on A B t2 n y (-1)); try assumption; ring|].
    exists n. split; [exact N|]. split; [exact OB|]. intros p Hp.
    destruct (touch_side A B t2 n y (-1) p A0 B0 N ltac:(ring)) as [S _]. specialize (S Hp). lra.
Qed.
