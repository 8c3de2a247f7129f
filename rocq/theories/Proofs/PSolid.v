(** The first two hits of a line with the surface of a convex solid are where it enters and leaves. *)
From Coq Require Import List Bool Reals Lra Lia ZArith Arith Psatz.
From Verif.Base Require Import Outcome Float64 FloatFacts.
From Verif.Model Require Import MScalar MLine2D MLine3D MHRM3D.
From Verif.Spec Require Import SLine2D SLine3D SMotion SSolid.
From Verif.Proofs Require Import PLine2D PLine3D PMotion PMotionR.
Import ListNotations.
Local Open Scope R_scope.

(** -- systems of linear inequalities in one variable -- *)
Definition sat (t : R) (c : R * R) : Prop := fst c + t * snd c <= 0.
Lemma sat_between t0 t1 t c : sat t0 c -> sat t1 c -> t0 <= t <= t1 -> sat t c.
Proof.
  unfold sat. destruct c as [a b]. cbn [fst snd]. intros H0 H1 T. destruct (Rle_dec 0 b) as [B|B].
  - assert (t * b <= t1 * b) by (apply Rmult_le_compat_r; lra). lra.
  - assert (t * b <= t0 * b) by nra. lra.
Qed.
Lemma upper_end L : forall t, Forall (sat t) L ->
  (forall t', t <= t' -> Forall (sat t') L) \/
  exists t1 c, t <= t1 /\ Forall (sat t1) L /\ In c L /\ fst c + t1 * snd c = 0 /\ 0 < snd c.
Proof.
  induction L as [|[a b] L IH]; intros t H; [left; intros; constructor|].
  inversion H as [|? ? Hc HL]; subst. unfold sat in Hc. cbn [fst snd] in Hc.
  destruct (Rlt_dec 0 b) as [B|B].
  - set (u := - a / b). assert (U : a + u * b = 0) by (unfold u; field; lra). assert (TU : t <= u) by (apply Rmult_le_reg_r with b; lra).
    destruct (IH t HL) as [N|(t1 & c & T1 & S1 & I1 & Z1 & P1)].
    + right. exists u, (a, b). split; [exact TU|]. split; [constructor; [unfold sat; cbn [fst snd]; lra|exact (N u TU)]|]. split; [left; reflexivity|]. cbn [fst snd]. split; [exact U|exact B].
    + destruct (Rle_dec t1 u) as [LE|GT].
      * right. exists t1, c. split; [exact T1|]. split; [constructor; [|exact S1]|]; [|split; [right; exact I1|split; [exact Z1|exact P1]]].
        unfold sat. cbn [fst snd]. assert (t1 * b <= u * b) by (apply Rmult_le_compat_r; lra). lra.
      * right. exists u, (a, b). split; [exact TU|]. split; [constructor; [unfold sat; cbn [fst snd]; lra|]|]; [|split; [left; reflexivity|cbn [fst snd]; split; [exact U|exact B]]].
        apply Forall_forall. intros x Hx. rewrite Forall_forall in HL, S1. apply (sat_between t t1); [exact (HL x Hx)|exact (S1 x Hx)|lra].
  - destruct (IH t HL) as [N|(t1 & c & T1 & S1 & I1 & Z1 & P1)].
    + left. intros t' T'. constructor; [|exact (N t' T')]. unfold sat. cbn [fst snd]. assert (t' * b <= t * b) by nra. lra.
    + right. exists t1, c. split; [exact T1|]. split; [constructor; [|exact S1]|split; [right; exact I1|split; [exact Z1|exact P1]]].
      unfold sat. cbn [fst snd]. assert (t1 * b <= t * b) by nra. lra.
Qed.
Definition flip (c : R * R) : R * R := (fst c, - snd c).
Lemma sat_flip t c : sat t (flip c) <-> sat (- t) c.
Proof. unfold sat, flip. cbn [fst snd]. split; intros H; lra. Qed.
Lemma lower_end L t : Forall (sat t) L ->
  (forall t', t' <= t -> Forall (sat t') L) \/
  exists t0 c, t0 <= t /\ Forall (sat t0) L /\ In c L /\ fst c + t0 * snd c = 0 /\ snd c < 0.
Proof.
  intros H. assert (F : forall u, Forall (sat u) (map flip L) <-> Forall (sat (- u)) L).
  { intros u. rewrite Forall_map. split; intros X; apply Forall_forall; intros x Hx; rewrite Forall_forall in X; apply sat_flip; exact (X x Hx). }
  assert (H' : Forall (sat (- t)) (map flip L)) by (apply F; rewrite Ropp_involutive; exact H).
  destruct (upper_end (map flip L) (- t) H') as [N|(t1 & c & T1 & S1 & I1 & Z1 & P1)].
  - left. intros t' T'. pose proof (N (- t') ltac:(lra)) as X. apply F in X. rewrite Ropp_involutive in X. exact X.
  - right. apply in_map_iff in I1. destruct I1 as (c0 & <- & I0). exists (- t1), c0. unfold flip in Z1, P1. cbn [fst snd] in Z1, P1.
    split; [lra|]. split; [apply F; exact S1|]. split; [exact I0|]. split; lra.
Qed.
(** Room below a point at which only increasing constraints are tight. *)
Lemma room_below L : forall t, Forall (sat t) L -> (forall c, In c L -> fst c + t * snd c = 0 -> 0 < snd c) -> exists t', t' < t /\ Forall (sat t') L.
Proof.
  induction L as [|[a b] L IH]; intros t H T; [exists (t - 1); split; [lra|constructor]|].
  inversion H as [|? ? Hc HL]; subst. unfold sat in Hc. cbn [fst snd] in Hc.
  destruct (IH t HL (fun c Ic => T c (or_intror Ic))) as (t1 & L1 & S1).
  assert (X : exists t2, t1 <= t2 < t /\ sat t2 (a, b)).
  { unfold sat. cbn [fst snd]. destruct (Rle_dec 0 b) as [B|B].
    - exists t1. split; [lra|]. assert (t1 * b <= t * b) by (apply Rmult_le_compat_r; lra). lra.
    - assert (N : a + t * b < 0). { destruct (Rle_lt_or_eq_dec _ _ Hc) as [G|G]; [exact G|]. exfalso. pose proof (T (a, b) (or_introl eq_refl) G) as P. cbn [snd] in P. lra. }
      set (u := - a / b). assert (U : a + u * b = 0) by (unfold u; field; lra). assert (UT : u < t) by nra.
      exists (Rmax t1 u). split; [split; [apply Rmax_l|apply Rmax_lub_lt; assumption]|]. assert (u <= Rmax t1 u) by apply Rmax_r. nra. }
  destruct X as (t2 & [L2 L2'] & S2). exists t2. split; [exact L2'|]. constructor; [exact S2|].
  apply Forall_forall. intros x Hx. rewrite Forall_forall in HL, S1. apply (sat_between t1 t); [exact (S1 x Hx)|exact (HL x Hx)|lra].
Qed.
(** -- sides -- *)
Definition slope (abc : rvec * rvec * rvec) (d : rvec) : R := let '(a, b, c) := abc in rdot (rcross (rsub b a) (rsub c a)) d.
Lemma side_line abc o d t : side abc (line_at o d t) = side abc o + t * slope abc d.
Proof. destruct abc as [[a b] c]. unfold side, slope, line_at, rdot, radd, rscale, rsub. cbn [rx ry rz]. ring. Qed.
Lemma side_mix abc a b c s t : side abc (radd a (radd (rscale s (rsub b a)) (rscale t (rsub c a)))) = (1 - s - t) * side abc a + s * side abc b + t * side abc c.
Proof. destruct abc as [[x y] z]. unfold side. set (n := rcross _ _). unfold rdot, radd, rscale, rsub. cbn [rx ry rz]. ring. Qed.
Lemma side_corners a b c : side (a, b, c) a = 0 /\ side (a, b, c) b = 0 /\ side (a, b, c) c = 0.
Proof. unfold side, rcross, rdot, rsub. cbn [rx ry rz]. repeat split; ring. Qed.
Lemma corners_in vs f a b c : face_corners vs f (a, b, c) -> In a vs /\ In b vs /\ In c vs.
Proof. destruct f as [[i j] k]. intros (H1 & H2 & H3). split; [|split]; eapply nth_error_In; eassumption. Qed.
Lemma face_interior_closed abc p : in_face_interior abc p -> in_face abc p.
Proof. destruct abc as [[a b] c]. intros (s & t & E & S & T & ST). exists s, t. split; [exact E|]. lra. Qed.
Lemma face_side abc p : in_face abc p -> side abc p = 0.
Proof.
  destruct abc as [[a b] c]. intros (s & t & -> & _). rewrite side_mix. destruct (side_corners a b c) as (-> & -> & ->). ring.
Qed.

Section Surface.
Variables (vs : list rvec) (fs : list (nat * nat * nat)).
Hypothesis CS : convex_surface vs fs.

(** In terms of an orientation. *)
Definition orients (s : R) (abc : rvec * rvec * rvec) : Prop := (s = 1 \/ s = -1) /\ forall w, In w vs -> s * side abc w <= 0.
Lemma oriented f abc : In f fs -> face_corners vs f abc -> exists s, orients s abc.
Proof.
  intros I C. destruct (cs_convex _ _ CS f abc I C) as [H|H].
  - exists 1. split; [left; reflexivity|]. intros w W. pose proof (H w W). lra.
  - exists (-1). split; [right; reflexivity|]. intros w W. pose proof (H w W). lra.
Qed.
Lemma behind_oriented f abc s p : In f fs -> face_corners vs f abc -> orients s abc -> behind vs abc p <-> s * side abc p <= 0.
Proof.
  intros I C (S & O). destruct (cs_thick _ _ CS f abc I C) as (w & W & NZ). split.
  - intros [H1 H2]. destruct S as [-> | ->].
    + assert (side abc p <= 0) by (apply H1; intros v V; pose proof (O v V); lra). lra.
    + assert (0 <= side abc p) by (apply H2; intros v V; pose proof (O v V); lra). lra.
  - intros L. pose proof (O w W) as OW. destruct S as [-> | ->]; split; intros H.
    + lra.
    + exfalso. pose proof (H w W). apply NZ. lra.
    + exfalso. pose proof (H w W). apply NZ. lra.
    + lra.
Qed.
Lemma face_exists f : In f fs -> exists a b c, face_corners vs f (a, b, c).
Proof.
  intros I. pose proof (cs_faces _ _ CS) as F. rewrite Forall_forall in F. destruct (face_pts_XR vs f (F f I)) as (a & b & c & C & _). exists a, b, c. exact C.
Qed.
(** A point of a face is in the solid. *)
Lemma face_solid f abc p : In f fs -> face_corners vs f abc -> in_face abc p -> solid vs fs p.
Proof.
  destruct abc as [[a b] c]. intros I C (s & t & -> & S & T & _ & ST) g abc' Ig Cg.
  destruct (oriented g abc' Ig Cg) as (sg & OR). apply (behind_oriented g abc' sg _ Ig Cg OR). rewrite side_mix.
  destruct (corners_in _ _ _ _ _ C) as (Ia & Ib & Ic). destruct OR as [_ O]. pose proof (O a Ia) as A_. pose proof (O b Ib) as B_. pose proof (O c Ic) as C_.
  replace (sg * ((1 - s - t) * side abc' a + s * side abc' b + t * side abc' c)) with ((1 - s - t) * (sg * side abc' a) + s * (sg * side abc' b) + t * (sg * side abc' c)) by ring.
  assert ((1 - s - t) * (sg * side abc' a) <= 0) by nra. assert (s * (sg * side abc' b) <= 0) by nra. assert (t * (sg * side abc' c) <= 0) by nra. lra.
Qed.
(** Two planes tight at an inner point of a face are the same plane. *)
Lemma same_plane f a b c g abc' p sf sg : In f fs -> face_corners vs f (a, b, c) -> orients sf (a, b, c) -> In g fs -> face_corners vs g abc' -> orients sg abc' ->
  in_face_interior (a, b, c) p -> side abc' p = 0 -> exists l, 0 < l /\ forall d, sg * slope abc' d = l * (sf * slope (a, b, c) d).
Proof.
  intros If Cf Of Ig Cg Og (s & t & -> & S & T & ST) Z. rewrite side_mix in Z.
  destruct (corners_in _ _ _ _ _ Cf) as (Ia & Ib & Ic). destruct Of as [Sf Of]. destruct Og as [Sg Og].
  pose proof (Og a Ia) as A_. pose proof (Og b Ib) as B_. pose proof (Og c Ic) as C_.
  assert (Z' : (1 - s - t) * (sg * side abc' a) + s * (sg * side abc' b) + t * (sg * side abc' c) = 0).
  { transitivity (sg * ((1 - s - t) * side abc' a + s * side abc' b + t * side abc' c)); [ring|rewrite Z; ring]. }
  assert (NA : (1 - s - t) * (sg * side abc' a) <= 0) by nra. assert (NB : s * (sg * side abc' b) <= 0) by nra. assert (NC : t * (sg * side abc' c) <= 0) by nra.
  assert (SN : sg <> 0) by (destruct Sg as [-> | ->]; lra).
  assert (ZA : side abc' a = 0). { assert (E : (1 - s - t) * (sg * side abc' a) = 0) by lra. apply Rmult_integral in E. destruct E as [E|E]; [lra|]. apply Rmult_integral in E. destruct E as [E|E]; [contradiction|exact E]. }
  assert (ZB : side abc' b = 0). { assert (E : s * (sg * side abc' b) = 0) by lra. apply Rmult_integral in E. destruct E as [E|E]; [lra|]. apply Rmult_integral in E. destruct E as [E|E]; [contradiction|exact E]. }
  assert (ZC : side abc' c = 0). { assert (E : t * (sg * side abc' c) = 0) by lra. apply Rmult_integral in E. destruct E as [E|E]; [lra|]. apply Rmult_integral in E. destruct E as [E|E]; [contradiction|exact E]. }
  destruct (cs_thick _ _ CS f (a, b, c) If Cf) as (w & W & NW). destruct (cs_thick _ _ CS g abc' Ig Cg) as (w' & W' & NW').
  destruct abc' as [[a' b'] c']. 
  set (n := rcross (rsub b a) (rsub c a)). set (n' := rcross (rsub b' a') (rsub c' a')).
  assert (U : rdot n' (rsub b a) = 0). { transitivity (side (a', b', c') b - side (a', b', c') a); [|rewrite ZA, ZB; ring]. unfold side. fold n'. unfold rdot, rsub. cbn [rx ry rz]. ring. }
  assert (V : rdot n' (rsub c a) = 0). { transitivity (side (a', b', c') c - side (a', b', c') a); [|rewrite ZA, ZC; ring]. unfold side. fold n'. unfold rdot, rsub. cbn [rx ry rz]. ring. }
  assert (NN : 0 < rdot n n).
  { destruct (Rle_lt_or_eq_dec 0 (rdot n n) (rdot_self_nonneg n)) as [G|G]; [exact G|]. exfalso. apply NW. unfold side. fold n. rewrite (zero_normal n (eq_sym G)). unfold rdot. cbn [rx ry rz]. ring. }
  assert (PAR : forall x, rdot n n * rdot n' x = rdot n n' * rdot n x).
  { intros x. pose proof (plane_decomp (rsub b a) (rsub c a) x) as D. cbv zeta in D. fold n in D.
    pose proof (f_equal (rdot n') D) as E.
    assert (L1 : rdot n' (rscale (rdot n n) x) = rdot n n * rdot n' x) by (unfold rdot, rscale; cbn [rx ry rz]; ring).
    rewrite L1 in E. rewrite E. set (k1 := rdot (rsub c a) (rsub c a) * _ - _). set (k2 := rdot (rsub b a) (rsub b a) * _ - _).
    transitivity (k1 * rdot n' (rsub b a) + k2 * rdot n' (rsub c a) + rdot n x * rdot n' n); [unfold rdot at 1, radd, rscale; cbn [rx ry rz]; unfold rdot; ring|].
    rewrite U, V. replace (rdot n' n) with (rdot n n') by (unfold rdot; ring). ring. }
  set (k := rdot n n' / rdot n n).
  assert (PK : forall x, rdot n' x = k * rdot n x). { intros x. unfold k. apply Rmult_eq_reg_l with (rdot n n); [|lra]. rewrite PAR. field. lra. }
  assert (SD : forall x, side (a', b', c') x = k * side (a, b, c) x).
  { intros x. transitivity (rdot n' (rsub x a) + side (a', b', c') a).
    - unfold side. fold n'. unfold rdot, rsub. cbn [rx ry rz]. ring.
    - rewrite ZA, PK. unfold side. fold n. ring. }
  assert (KN : k <> 0) by (intros E; apply NW'; rewrite SD, E; ring).
  assert (SS : sf * sf = 1) by (destruct Sf as [-> | ->]; ring).
  exists (sg * k * sf). split.
  - pose proof (Of w W) as Fw. pose proof (Og w W) as Gw. rewrite SD in Gw.
    assert (FN : sf * side (a, b, c) w < 0). { destruct (Rle_lt_or_eq_dec _ _ Fw) as [G|G]; [exact G|]. exfalso. apply Rmult_integral in G. destruct G as [G|G]; [destruct Sf as [-> | ->]; lra|contradiction]. }
    assert (Q : (sg * k * sf) * (sf * side (a, b, c) w) <= 0). { replace (sg * k * sf * (sf * side (a, b, c) w)) with (sf * sf * (sg * (k * side (a, b, c) w))) by ring. rewrite SS. lra. }
    assert (N : sg * k * sf <> 0). { intros E. apply Rmult_integral in E. destruct E as [E|E]; [apply Rmult_integral in E; tauto|]. destruct Sf as [-> | ->]; lra. }
    destruct (Rle_dec (sg * k * sf) 0) as [G|G]; [|lra]. exfalso. assert (sg * k * sf < 0) by lra. nra.
  - intros d. unfold slope. fold n n'. rewrite PK. replace (sg * k * sf * (sf * rdot n d)) with (sf * sf * (sg * (k * rdot n d))) by ring. rewrite SS. ring.
Qed.

(** -- a line in general position -- *)
Variables (o d : rvec).
Hypothesis GP : in_general_position vs fs o d.

(** The solid on the line as a system of inequalities. *)
Definition row_of (L : list (R * R)) (f : nat * nat * nat) : Prop :=
  exists s abc, face_corners vs f abc /\ orients s abc /\ In (s * side abc o, s * slope abc d) L.
Lemma system gs : (forall f, In f gs -> In f fs) -> exists L,
  (forall f, In f gs -> row_of L f) /\
  (forall c, In c L -> exists f s abc, In f gs /\ face_corners vs f abc /\ orients s abc /\ c = (s * side abc o, s * slope abc d)).
Proof.
  induction gs as [|f gs IH]; intros SUB.
  - exists []. split; [intros f []|intros c []].
  - destruct (IH (fun g G => SUB g (or_intror G))) as (L & R1 & R2). destruct (face_exists f (SUB f (or_introl eq_refl))) as (a & b & c & C).
    destruct (oriented f (a, b, c) (SUB f (or_introl eq_refl)) C) as (s & OR).
    exists ((s * side (a, b, c) o, s * slope (a, b, c) d) :: L). split.
    + intros g [<-|G].
      * exists s, (a, b, c). split; [exact C|]. split; [exact OR|]. left. reflexivity.
      * destruct (R1 g G) as (s' & abc' & C' & O' & I'). exists s', abc'. split; [exact C'|]. split; [exact O'|]. right. exact I'.
    + intros r [<-|G].
      * exists f, s, (a, b, c). split; [left; reflexivity|]. split; [exact C|]. split; [exact OR|reflexivity].
      * destruct (R2 r G) as (g & s' & abc' & Ig & C' & O' & E'). exists g, s', abc'. split; [right; exact Ig|]. split; [exact C'|]. split; [exact O'|exact E'].
Qed.
Lemma sat_side s abc t : sat t (s * side abc o, s * slope abc d) <-> s * side abc (line_at o d t) <= 0.
Proof. unfold sat. cbn [fst snd]. rewrite side_line. split; intros H; lra. Qed.
Lemma tight_side s abc t : s = 1 \/ s = -1 -> s * side abc o + t * (s * slope abc d) = 0 <-> side abc (line_at o d t) = 0.
Proof. intros S. rewrite side_line. destruct S as [-> | ->]; split; intros H; lra. Qed.
Lemma solid_system L t : (forall f, In f fs -> row_of L f) ->
  (forall c, In c L -> exists f s abc, In f fs /\ face_corners vs f abc /\ orients s abc /\ c = (s * side abc o, s * slope abc d)) ->
  solid vs fs (line_at o d t) <-> Forall (sat t) L.
Proof.
  intros R1 R2. split.
  - intros H. apply Forall_forall. intros c Ic. destruct (R2 c Ic) as (f & s & abc & If & C & OR & ->). apply sat_side. apply (behind_oriented f abc s _ If C OR). exact (H f abc If C).
  - intros H f abc If C. destruct (R1 f If) as (s & abc' & C' & OR & Ic). rewrite (corners_fun _ _ _ _ C C'). apply (behind_oriented f abc' s _ If C' OR). apply sat_side. rewrite Forall_forall in H. exact (H _ Ic).
Qed.
Lemma in_face_tol a b c p : in_face (a, b, c) p -> in_triangle tol a (rsub b a) (rsub c a) p.
Proof. intros (s & t & E & B). pose proof tol_pos. exists s, t. split; [exact E|]. lra. Qed.
(** At a point of the line on a face of the solid: inner point of a face crossed there. *)
Lemma boundary_point t f abc : solid vs fs (line_at o d t) -> In f fs -> face_corners vs f abc -> side abc (line_at o d t) = 0 ->
  exists g a b c, In g fs /\ face_corners vs g (a, b, c) /\ crosses_plane d (rsub b a) (rsub c a) /\ in_face_interior (a, b, c) (line_at o d t).
Proof.
  intros H If C Z. destruct (cs_closed _ _ CS _ f abc H If C Z) as (g & [[a b] c] & Ig & Cg & IN).
  destruct (GP g a b c (line_at o d t) Ig Cg) as [X Y]; [exists t; reflexivity|exact (in_face_tol _ _ _ _ IN)|]. exists g, a, b, c. split; [exact Ig|]. split; [exact Cg|]. split; [exact X|exact Y].
Qed.
Lemma crosses_slope a b c : crosses_plane d (rsub b a) (rsub c a) -> slope (a, b, c) d <> 0.
Proof. intros [N X] E. unfold slope in E. rewrite E, Rabs_R0 in X. pose proof tol_pos. nra. Qed.
Lemma sat_interior t0 t1 t c : sat t0 c -> sat t1 c -> t0 < t < t1 -> snd c <> 0 -> fst c + t * snd c < 0.
Proof.
  unfold sat. destruct c as [a b]. cbn [fst snd]. intros H0 H1 T N. destruct (Rle_dec 0 b) as [B|B].
  - assert (t * b < t1 * b) by (apply Rmult_lt_compat_r; lra). lra.
  - assert (t * b < t0 * b) by nra. lra.
Qed.
Lemma crosses_nonzero a b c : crosses_plane d (rsub b a) (rsub c a) -> d <> RV 0 0 0.
Proof. intros X E. apply (crosses_slope a b c X). rewrite E. unfold slope, rdot. cbn [rx ry rz]. ring. Qed.
Lemma far_out t M : d <> RV 0 0 0 -> exists k, 0 < k /\ forall t', k <= Rabs (t' - t) ->
  M < Rabs (rx (line_at o d t')) \/ M < Rabs (ry (line_at o d t')) \/ M < Rabs (rz (line_at o d t')).
Proof.
  intros N. assert (ONE : forall g0 g1 : R, g1 <> 0 -> exists k, 0 < k /\ forall t', k <= Rabs (t' - t) -> M < Rabs (g0 + t' * g1)).
  { intros g0 g1 G. assert (GA : 0 < Rabs g1) by (apply Rabs_pos_lt; exact G). exists ((Rabs M + 1 + Rabs (g0 + t * g1)) / Rabs g1). split.
    - apply Rdiv_lt_0_compat; [|exact GA]. pose proof (Rabs_pos M). pose proof (Rabs_pos (g0 + t * g1)). lra.
    - intros t' K. apply (Rmult_le_compat_r (Rabs g1)) in K; [|lra]. unfold Rdiv in K. rewrite Rmult_assoc, Rinv_l, Rmult_1_r in K by lra.
      rewrite <- Rabs_mult in K. pose proof (Rabs_triang (g0 + t' * g1) (- (g0 + t * g1))) as TR. rewrite Rabs_Ropp in TR.
      replace (g0 + t' * g1 + - (g0 + t * g1)) with ((t' - t) * g1) in TR by ring. pose proof (Rle_abs M). lra. }
  destruct (Req_EM_T (rx d) 0) as [X|X]; [destruct (Req_EM_T (ry d) 0) as [Y|Y]; [destruct (Req_EM_T (rz d) 0) as [Z|Z]|]|].
  - exfalso. apply N. destruct d as [dx dy dz]. cbn [rx ry rz] in X, Y, Z. subst. reflexivity.
  - destruct (ONE (rz o) (rz d) Z) as (k & K & H). exists k. split; [exact K|]. intros t' T. right. right. exact (H t' T).
  - destruct (ONE (ry o) (ry d) Y) as (k & K & H). exists k. split; [exact K|]. intros t' T. right. left. exact (H t' T).
  - destruct (ONE (rx o) (rx d) X) as (k & K & H). exists k. split; [exact K|]. intros t' T. left. exact (H t' T).
Qed.
(** What the solid leaves of the line. *)
Lemma chord : d <> RV 0 0 0 -> (forall t, ~ solid vs fs (line_at o d t)) \/
  exists t0 t1, t0 < t1 /\ (forall t, solid vs fs (line_at o d t) <-> t0 <= t <= t1) /\
    (forall t, inside vs fs (line_at o d t) <-> t0 < t < t1) /\
    (exists g a b c, In g fs /\ face_corners vs g (a, b, c) /\ crosses_plane d (rsub b a) (rsub c a) /\ in_face_interior (a, b, c) (line_at o d t0)) /\
    (exists g a b c, In g fs /\ face_corners vs g (a, b, c) /\ crosses_plane d (rsub b a) (rsub c a) /\ in_face_interior (a, b, c) (line_at o d t1)).
Proof.
  intros DN. destruct (system fs (fun f F => F)) as (L & R1 & R2).
  assert (SY : forall t, solid vs fs (line_at o d t) <-> Forall (sat t) L) by (intros t; apply solid_system; assumption).
  destruct (cs_bounded _ _ CS) as (M & BD).
  assert (NO : forall t, Forall (sat t) L -> exists t', t' < t /\ ~ Forall (sat t') L).
  { intros t H. destruct (far_out t M DN) as (k & K & FO). exists (t - k). split; [lra|]. intros F. apply SY in F. destruct (BD _ F) as (X & Y & Z).
    destruct (FO (t - k)) as [Q|[Q|Q]]; [replace (t - k - t) with (- k) by ring; rewrite Rabs_Ropp; apply Rle_abs|lra|lra|lra]. }
  assert (NO' : forall t, Forall (sat t) L -> exists t', t < t' /\ ~ Forall (sat t') L).
  { intros t H. destruct (far_out t M DN) as (k & K & FO). exists (t + k). split; [lra|]. intros F. apply SY in F. destruct (BD _ F) as (X & Y & Z).
    destruct (FO (t + k)) as [Q|[Q|Q]]; [replace (t + k - t) with k by ring; apply Rle_abs|lra|lra|lra]. }
  assert (DEC : (exists t, Forall (sat t) L) \/ forall t, ~ Forall (sat t) L).
  { destruct (Classical_Prop.classic (exists t, Forall (sat t) L)) as [H|H]; [left; exact H|right; intros t F; apply H; exists t; exact F]. }
  destruct DEC as [[t HT]|NONE]; [right|left; intros t H; apply SY in H; exact (NONE t H)].
  destruct (upper_end L t HT) as [UN|(t1 & u1 & T1 & S1 & I1 & Z1 & P1)]; [exfalso; destruct (NO' t HT) as (t' & T' & N); apply N, UN; lra|].
  destruct (lower_end L t HT) as [UN|(t0 & u0 & T0 & S0 & I0 & Z0 & P0)]; [exfalso; destruct (NO t HT) as (t' & T' & N); apply N, UN; lra|].
  assert (EQ : forall x, Forall (sat x) L <-> t0 <= x <= t1).
  { intros x. rewrite Forall_forall. rewrite Forall_forall in S0, S1. split.
    - intros H. pose proof (H u0 I0) as H0. pose proof (H u1 I1) as H1. unfold sat in H0, H1. split; [apply Rnot_lt_le; intros C; assert (t0 * snd u0 < x * snd u0) by nra; lra|apply Rnot_lt_le; intros C; assert (t1 * snd u1 < x * snd u1) by nra; lra].
    - intros X c Ic. exact (sat_between t0 t1 x c (S0 c Ic) (S1 c Ic) X). }
  assert (BP : forall x u, In u L -> fst u + x * snd u = 0 -> Forall (sat x) L -> exists g a b c s, In g fs /\ face_corners vs g (a, b, c) /\ orients s (a, b, c) /\
     crosses_plane d (rsub b a) (rsub c a) /\ in_face_interior (a, b, c) (line_at o d x) /\ s * slope (a, b, c) d <> 0 /\
     forall v, In v L -> fst v + x * snd v = 0 -> exists l, 0 < l /\ snd v = l * (s * slope (a, b, c) d)).
  { intros x u Iu Zu Fx. destruct (R2 u Iu) as (f & s & abc & If & C & OR & ->). cbn [fst snd] in Zu. apply (tight_side s abc x (proj1 OR)) in Zu.
    destruct (boundary_point x f abc (proj2 (SY x) Fx) If C Zu) as (g & a & b & c & Ig & Cg & XC & IN). destruct (oriented g (a, b, c) Ig Cg) as (sg & OG).
    exists g, a, b, c, sg. split; [exact Ig|]. split; [exact Cg|]. split; [exact OG|]. split; [exact XC|]. split; [exact IN|]. split.
    - intros E. apply Rmult_integral in E. destruct E as [E|E]; [destruct OG as [[-> | ->] _]; lra|exact (crosses_slope a b c XC E)].
    - intros v Iv Zv. destruct (R2 v Iv) as (h & sh & abh & Ih & Ch & Oh & ->). cbn [fst snd] in Zv |- *. apply (tight_side sh abh x (proj1 Oh)) in Zv.
      destruct (same_plane g a b c h abh _ sg sh Ig Cg OG Ih Ch Oh IN Zv) as (l & Pl & El). exists l. split; [exact Pl|]. apply El. }
  destruct (BP t1 u1 I1 Z1 S1) as (g1 & a1 & b1 & d1 & s1' & Ig1 & Cg1 & Og1 & X1 & IN1 & NZ1 & TI1).
  destruct (BP t0 u0 I0 Z0 S0) as (g0 & a0 & b0 & d0 & s0' & Ig0 & Cg0 & Og0 & X0 & IN0 & NZ0 & TI0).
  assert (POS1 : forall v, In v L -> fst v + t1 * snd v = 0 -> 0 < snd v).
  { destruct (TI1 u1 I1 Z1) as (l1 & Pl1 & El1). intros v Iv Zv. destruct (TI1 v Iv Zv) as (l & Pl & El). rewrite El. rewrite El1 in P1. assert (0 < s1' * slope (a1, b1, d1) d) by nra. nra. }
  assert (LT : t0 < t1). { destruct (room_below L t1 S1 POS1) as (t' & L' & F'). apply EQ in F'. lra. }
  exists t0, t1. split; [exact LT|]. split; [intros x; rewrite SY; apply EQ|]. split; [|split].
  - intros x. split.
    + intros [HS HN]. apply SY, EQ in HS. destruct HS as [[G0|G0] [G1|G1]]; try lra; exfalso.
      * subst x. exact (HN g1 (a1, b1, d1) Ig1 Cg1 (face_side _ _ (face_interior_closed _ _ IN1))).
      * subst x. exact (HN g0 (a0, b0, d0) Ig0 Cg0 (face_side _ _ (face_interior_closed _ _ IN0))).
    + intros X. split; [apply SY, EQ; lra|]. intros f abc If C E.
      destruct (R1 f If) as (s & abc' & C' & OR & Ic). rewrite (corners_fun _ _ _ _ C C') in E.
      apply (tight_side s abc' x (proj1 OR)) in E. rewrite Forall_forall in S0, S1.
      assert (N : snd (s * side abc' o, s * slope abc' d) <> 0).
      { cbn [snd]. intros Z. rewrite Z in E. assert (E0 : fst (s * side abc' o, s * slope abc' d) + t1 * snd (s * side abc' o, s * slope abc' d) = 0) by (cbn [fst snd]; rewrite Z; lra).
        pose proof (POS1 _ Ic E0) as P. cbn [snd] in P. lra. }
      pose proof (sat_interior t0 t1 x _ (S0 _ Ic) (S1 _ Ic) X N) as Q. cbn [fst snd] in Q. lra.
  - exists g0, a0, b0, d0. split; [exact Ig0|]. split; [exact Cg0|]. split; [exact X0|exact IN0].
  - exists g1, a1, b1, d1. split; [exact Ig1|]. split; [exact Cg1|]. split; [exact X1|exact IN1].
Qed.
End Surface.
(** -- the hits -- *)
Lemma pick_apart {P} (good : nat * nat * nat -> P -> Prop) fs ps : pick good fs ps ->
  ForallOrdPairs (fun f g => forall p, good f p -> ~ good g p) fs -> NoDup ps.
Proof.
  intros H. induction H as [|f p fs ps G K IH|f fs ps N K IH]; intros O.
  - constructor.
  - inversion O as [|? ? FA O']; subst. constructor; [|exact (IH O')]. intros I. destruct (pick_sound _ _ _ K p I) as (g & Ig & Gg).
    rewrite Forall_forall in FA. exact (FA g Ig p G Gg).
  - inversion O as [|? ? FA O']; subst. exact (IH O').
Qed.
Lemma ForallOrdPairs_in {A} (Q : A -> A -> Prop) (Q' : A -> A -> Prop) l : (forall x y, In x l -> In y l -> Q x y -> Q' x y) -> ForallOrdPairs Q l -> ForallOrdPairs Q' l.
Proof.
  intros H O. revert H. induction O as [|a l FA O IH]; intros H; [constructor|]. constructor.
  - rewrite Forall_forall in FA |- *. intros y Y. apply H; [left; reflexivity|right; exact Y|exact (FA y Y)].
  - apply IH. intros x y X Y. apply H; right; assumption.
Qed.
Lemma two_of {A} (a b : A) l : a <> b -> NoDup l -> In a l -> In b l -> (forall x, In x l -> x = a \/ x = b) -> l = [a; b] \/ l = [b; a].
Proof.
  intros N ND Ia Ib H. destruct l as [|x [|y [|z l]]].
  - destruct Ia.
  - destruct Ia as [E|[]]; destruct Ib as [E'|[]]. exfalso. apply N. rewrite <- E, <- E'. reflexivity.
  - inversion ND as [|? ? NI ND']; subst. destruct (H x (or_introl eq_refl)) as [-> | ->]; destruct (H y (or_intror (or_introl eq_refl))) as [-> | ->].
    + exfalso. apply NI. left. reflexivity.
    + left. reflexivity.
    + right. reflexivity.
    + exfalso. apply NI. left. reflexivity.
  - exfalso. inversion ND as [|? ? NI ND']; subst. inversion ND' as [|? ? NI' ND'']; subst.
    pose proof (H x (or_introl eq_refl)) as X. pose proof (H y (or_intror (or_introl eq_refl))) as Y. pose proof (H z (or_intror (or_intror (or_introl eq_refl)))) as Z.
    assert (XY : x <> y) by (intros E; apply NI; left; symmetry; exact E).
    assert (XZ : x <> z) by (intros E; apply NI; right; left; symmetry; exact E).
    assert (YZ : y <> z) by (intros E; apply NI'; left; symmetry; exact E).
    destruct X as [-> | ->]; destruct Y as [-> | ->]; destruct Z as [-> | ->]; tauto.
Qed.
Definition good_interior (vs : list rvec) (o d : rvec) (f : nat * nat * nat) (p : rvec) : Prop :=
  exists a b c, face_corners vs f (a, b, c) /\ on_line o d p /\ in_face_interior (a, b, c) p.
Lemma line_at_inj o d t t' : d <> RV 0 0 0 -> line_at o d t = line_at o d t' -> t = t'.
Proof.
  intros N E. destruct (Req_EM_T t t') as [T|T]; [exact T|]. exfalso. apply N.
  pose proof (f_equal rx E) as X. pose proof (f_equal ry E) as Y. pose proof (f_equal rz E) as Z. unfold line_at, radd, rscale in X, Y, Z. cbn [rx ry rz] in X, Y, Z.
  assert (K : forall k, t * k = t' * k -> k = 0). { intros k K. assert (Q : (t - t') * k = 0) by lra. apply Rmult_integral in Q. destruct Q; lra. }
  destruct d as [dx dy dz]. cbn [rx ry rz] in X, Y, Z. rewrite (K dx), (K dy), (K dz) by lra. reflexivity.
Qed.
Lemma surface_hits vs fs o d hit ps : convex_surface vs fs -> in_general_position vs fs o d -> d <> RV 0 0 0 ->
  pick hit fs ps -> (forall f p, In f fs -> hit f p -> good_face vs o d f p) ->
  (forall f p abc, In f fs -> face_corners vs f abc -> triangle_hit 0 o d abc p -> hit f p) ->
  (ps = [] /\ forall t, ~ solid vs fs (line_at o d t)) \/
  exists t0 t1, t0 < t1 /\ (ps = [line_at o d t0; line_at o d t1] \/ ps = [line_at o d t1; line_at o d t0]) /\
    (forall t, solid vs fs (line_at o d t) <-> t0 <= t <= t1) /\ (forall t, inside vs fs (line_at o d t) <-> t0 < t < t1).
Proof.
  intros CS GP DN PK HG HE.
  assert (GI : forall f p, In f fs -> hit f p -> good_interior vs o d f p).
  { intros f p If H. destruct (HG f p If H) as ([[a b] c] & C & (X & L & T)). exists a, b, c. split; [exact C|]. split; [exact L|]. exact (proj2 (GP f a b c p If C L T)). }
  assert (ON : forall p, In p ps -> exists f a b c t, In f fs /\ face_corners vs f (a, b, c) /\ p = line_at o d t /\ in_face_interior (a, b, c) (line_at o d t)).
  { intros p I. destruct (pick_sound _ _ _ PK p I) as (f & If & H). destruct (GI f p If H) as (a & b & c & C & (t & E) & IN). unfold line_at. exists f, a, b, c, t. rewrite <- E. split; [exact If|]. split; [exact C|]. split; [reflexivity|exact IN]. }
  destruct (chord vs fs CS o d GP DN) as [NONE|(t0 & t1 & LT & SO & INS & F0 & F1)].
  - left. split; [|exact NONE]. destruct ps as [|p ps]; [reflexivity|]. exfalso. destruct (ON p (or_introl eq_refl)) as (f & a & b & c & t & If & C & _ & IN).
    exact (NONE t (face_solid vs fs CS f (a, b, c) _ If C (face_interior_closed _ _ IN))).
  - right. exists t0, t1. split; [exact LT|]. split; [|split; [exact SO|exact INS]].
    assert (IN : forall t, (exists g a b c, In g fs /\ face_corners vs g (a, b, c) /\ crosses_plane d (rsub b a) (rsub c a) /\ in_face_interior (a, b, c) (line_at o d t)) -> In (line_at o d t) ps).
    { intros t (g & a & b & c & Ig & C & X & IN). 
      assert (HT : triangle_hit 0 o d (a, b, c) (line_at o d t)) by (split; [exact X|split; [exists t; reflexivity|exact (face_interior_closed _ _ IN)]]).
      destruct (pick_in _ _ _ PK g _ Ig (HE g _ _ Ig C HT)) as (p' & H' & I').
      destruct (HG g p' Ig H') as (abc' & C' & T'). rewrite (corners_fun _ _ _ _ C' C) in T'. rewrite (hit_unique _ _ _ _ _ _ _ HT T'). exact I'. }
    apply two_of.
    + intros E. apply (line_at_inj o d t0 t1 DN) in E. lra.
    + apply (pick_apart _ _ _ PK). apply ForallOrdPairs_in with (2 := cs_disjoint _ _ CS). intros f g If Ig D p Hf Hg.
      destruct (GI f p If Hf) as (a & b & c & C & _ & I1). destruct (GI g p Ig Hg) as (a' & b' & c' & C' & _ & I2). exact (D _ _ p C C' I1 I2).
    + apply IN. exact F0.
    + apply IN. exact F1.
    + intros p I. destruct (ON p I) as (f & a & b & c & t & If & C & -> & II). pose proof (face_interior_closed _ _ II) as CL.
      pose proof (proj1 (SO t) (face_solid vs fs CS f _ _ If C CL)) as B.
      assert (NI : ~ t0 < t < t1). { intros B'. apply INS in B'. exact (proj2 B' f _ If C (face_side _ _ CL)). }
      destruct (Req_EM_T t t0) as [-> |N0]; [left; reflexivity|]. destruct (Req_EM_T t t1) as [-> |N1]; [right; reflexivity|]. exfalso. apply NI. lra.
Qed.
Lemma surface_nonempty vs fs : convex_surface vs fs -> vs <> [].
Proof.
  intros CS E. subst vs. destruct fs as [|f fs].
  - destruct (cs_bounded _ _ CS) as (M & B). destruct (B (RV (Rabs M + 1) 0 0)) as (X & _); [intros f abc []|]. cbn [rx] in X. pose proof (Rle_abs M). rewrite Rabs_right in X; [lra|]. pose proof (Rabs_pos M). lra.
  - pose proof (cs_faces _ _ CS) as F. inversion F as [|? ? H _]; subst. destruct f as [[i j] k]. destruct H as (H & _). cbn in H. lia.
Qed.
Lemma vertical_hits vs fs o : convex_surface vs fs -> in_general_position vs fs o up ->
  (vertical_line_mesh XR (lift_line o up) (lift_mesh vs fs) = Ok [] /\ forall t, ~ solid vs fs (line_at o up t)) \/
  exists t0 t1, t0 < t1 /\
    (vertical_line_mesh XR (lift_line o up) (lift_mesh vs fs) = Ok [lift3 (line_at o up t0); lift3 (line_at o up t1)] \/
     vertical_line_mesh XR (lift_line o up) (lift_mesh vs fs) = Ok [lift3 (line_at o up t1); lift3 (line_at o up t0)]) /\
    (forall t, solid vs fs (line_at o up t) <-> t0 <= t <= t1) /\ (forall t, inside vs fs (line_at o up t) <-> t0 < t < t1).
Proof.
  intros CS GP. pose proof (surface_nonempty _ _ CS) as NE. pose proof (cs_faces _ _ CS) as FO.
  assert (UN : up <> RV 0 0 0) by (intros E; apply (f_equal rz) in E; unfold up in E; cbn [rz] in E; lra).
  destruct (vertical_line_mesh_XR o vs fs NE FO) as (r & E & Cs). change (RV 0 0 1) with up in *.
  assert (PKR : exists ps hit, r = map lift3 (firstn 2 ps) /\ pick hit fs ps /\ (forall f p, In f fs -> hit f p -> good_face vs o up f p) /\
    (forall f p abc, In f fs -> face_corners vs f abc -> triangle_hit 0 o up abc p -> hit f p)).
  { destruct Cs as [[-> H]|(ps & Hp & ->)].
    - exists [], (fun _ _ => False). split; [reflexivity|]. split; [clear; induction fs; [constructor|apply pick_miss; auto]|]. split; [tauto|].
      intros f p abc _ Hc Ht. destruct (bbox_not_one_sided o vs f abc Hc (exact_hit_bbox _ _ _ Ht)) as [N1 N2]. unfold one_sided in *. tauto.
    - eexists ps, _. split; [reflexivity|]. split; [exact Hp|]. split.
      + intros f p _ (abc & Hc & _ & Ht). exists abc. split; assumption.
      + intros f p abc _ Hc Ht. exists abc. split; [exact Hc|]. split; [eapply exact_hit_bbox; exact Ht|]. apply (triangle_hit_weaken 0 tol); [pose proof tol_pos; lra|exact Ht]. }
  destruct PKR as (ps & hit & -> & PK & HG & HE).
  destruct (surface_hits vs fs o up hit ps CS GP UN PK HG HE) as [[-> N]|(t0 & t1 & LT & [-> | ->] & S1 & S2)].
  - left. split; [exact E|exact N].
  - right. exists t0, t1. split; [exact LT|]. split; [left; exact E|split; assumption].
  - right. exists t0, t1. split; [exact LT|]. split; [right; exact E|split; assumption].
Qed.
(** Lines in any direction. *)
Lemma tiny_zero x : not_tiny x -> Rabs x < / 10 ^ 6 -> x = 0.
Proof. intros [Z|L] H; [exact Z|lra]. Qed.
Lemma in_face_between (g : rvec -> R) vs o f a b c p : (g = rx \/ g = ry \/ g = rz) -> face_corners vs f (a, b, c) -> in_face (a, b, c) p -> g p = g o -> ~ one_sided g o vs.
Proof.
  intros G C (s & t & E & S & T & _ & ST) P O. destruct (corners_in _ _ _ _ _ C) as (Ia & Ib & Ic).
  assert (EG : g p = (1 - s - t) * g a + s * g b + t * g c) by (rewrite E; destruct G as [-> |[-> | ->]]; unfold radd, rscale, rsub; cbn [rx ry rz]; ring).
  rewrite P in EG. destruct O as [O|O]; pose proof (O a Ia); pose proof (O b Ib); pose proof (O c Ic); set (w := 1 - s - t) in *.
  - assert (W : 0 <= w) by (unfold w; lra). assert (W1 : w + s + t = 1) by (unfold w; lra).
    assert (X : 0 < w * (g o - g a) + s * (g o - g b) + t * (g o - g c)).
    { destruct (Rle_lt_or_eq_dec 0 w W) as [W'|W'].
      - assert (0 < w * (g o - g a)) by (apply Rmult_lt_0_compat; lra). assert (0 <= s * (g o - g b)) by (apply Rmult_le_pos; lra). assert (0 <= t * (g o - g c)) by (apply Rmult_le_pos; lra). lra.
      - rewrite <- W'. destruct (Rle_lt_or_eq_dec 0 s ltac:(lra)) as [S'|S'].
        + assert (0 < s * (g o - g b)) by (apply Rmult_lt_0_compat; lra). assert (0 <= t * (g o - g c)) by (apply Rmult_le_pos; lra). lra.
        + assert (T' : t = 1) by lra. rewrite <- S', T'. lra. }
    replace (w * (g o - g a) + s * (g o - g b) + t * (g o - g c)) with ((w + s + t) * g o - (w * g a + s * g b + t * g c)) in X by ring. rewrite W1 in X. lra.
  - assert (W : 0 <= w) by (unfold w; lra). assert (W1 : w + s + t = 1) by (unfold w; lra).
    assert (X : 0 < w * (g a - g o) + s * (g b - g o) + t * (g c - g o)).
    { destruct (Rle_lt_or_eq_dec 0 w W) as [W'|W'].
      - assert (0 < w * (g a - g o)) by (apply Rmult_lt_0_compat; lra). assert (0 <= s * (g b - g o)) by (apply Rmult_le_pos; lra). assert (0 <= t * (g c - g o)) by (apply Rmult_le_pos; lra). lra.
      - rewrite <- W'. destruct (Rle_lt_or_eq_dec 0 s ltac:(lra)) as [S'|S'].
        + assert (0 < s * (g b - g o)) by (apply Rmult_lt_0_compat; lra). assert (0 <= t * (g c - g o)) by (apply Rmult_le_pos; lra). lra.
        + assert (T' : t = 1) by lra. rewrite <- S', T'. lra. }
    replace (w * (g a - g o) + s * (g b - g o) + t * (g c - g o)) with ((w * g a + s * g b + t * g c) - (w + s + t) * g o) in X by ring. rewrite W1 in X. lra.
Qed.
Lemma line_hits vs fs o d : convex_surface vs fs -> in_general_position vs fs o d -> d <> RV 0 0 0 -> all_not_tiny d ->
  (line_mesh XR (lift_line o d) (lift_mesh vs fs) = Ok [] /\ forall t, ~ solid vs fs (line_at o d t)) \/
  exists t0 t1, t0 < t1 /\
    (line_mesh XR (lift_line o d) (lift_mesh vs fs) = Ok [lift3 (line_at o d t0); lift3 (line_at o d t1)] \/
     line_mesh XR (lift_line o d) (lift_mesh vs fs) = Ok [lift3 (line_at o d t1); lift3 (line_at o d t0)]) /\
    (forall t, solid vs fs (line_at o d t) <-> t0 <= t <= t1) /\ (forall t, inside vs fs (line_at o d t) <-> t0 < t < t1).
Proof.
  intros CS GP DN (TX & TY & TZ). pose proof (surface_nonempty _ _ CS) as NE. pose proof (cs_faces _ _ CS) as FO.
  destruct (line_mesh_XR o d vs fs NE FO) as (r & E & [[-> H]|(ps & PK & ->)]).
  - left. split; [exact E|]. destruct (chord vs fs CS o d GP DN) as [NONE|(t0 & t1 & _ & _ & _ & (g & a & b & c & Ig & C & _ & IN) & _)]; [exact NONE|exfalso].
    pose proof (face_interior_closed _ _ IN) as CL.
    destruct H as [[Z O]|[[Z O]|[Z O]]].
    + apply (in_face_between rx vs o g a b c _ (or_introl eq_refl) C CL) in O; [exact O|]. unfold line_at, radd, rscale. cbn [rx]. rewrite (tiny_zero _ TX Z). ring.
    + apply (in_face_between ry vs o g a b c _ (or_intror (or_introl eq_refl)) C CL) in O; [exact O|]. unfold line_at, radd, rscale. cbn [ry]. rewrite (tiny_zero _ TY Z). ring.
    + apply (in_face_between rz vs o g a b c _ (or_intror (or_intror eq_refl)) C CL) in O; [exact O|]. unfold line_at, radd, rscale. cbn [rz]. rewrite (tiny_zero _ TZ Z). ring.
  - destruct (surface_hits vs fs o d (good_face vs o d) ps CS GP DN PK (fun f p _ G => G)) as [[-> N]|(t0 & t1 & LT & [-> | ->] & S1 & S2)].
    + intros f p abc _ Hc Ht. exists abc. split; [exact Hc|]. apply (triangle_hit_weaken 0 tol); [pose proof tol_pos; lra|exact Ht].
    + left. split; [exact E|exact N].
    + right. exists t0, t1. split; [exact LT|]. split; [left; exact E|split; assumption].
    + right. exists t0, t1. split; [exact LT|]. split; [right; exact E|split; assumption].
Qed.
(** -- the point test: clear means not in the interior of any solid -- *)
Lemma point_exact ms p : Forall (generic_up p) ms -> exists b, point_clear3 XR (lift3 p) (map lift_rmesh ms) = Ok b /\
  (b = true <-> forall m, In m ms -> ~ inside (fst m) (snd m) p).
Proof.
  induction ms as [|m ms IH]; intros F; cbn [map point_clear3].
  - exists true. split; [reflexivity|]. split; [intros _ m []|reflexivity].
  - inversion F as [|? ? [CS GP] F']; subst. destruct (IH F') as (b & E & B). rewrite up_line. unfold lift_rmesh at 1.
    assert (P0 : line_at p up 0 = p) by (apply rv_eq; unfold line_at, radd, rscale, up; cbn [rx ry rz]; ring).
    destruct (vertical_hits (fst m) (snd m) p CS GP) as [[-> N]|(t0 & t1 & LT & HH & S1 & S2)]; cbn [obind].
    + exists b. split; [exact E|]. rewrite B. split; intros H m' I'; [destruct I' as [<-|I']; [|exact (H m' I')]|exact (H m' (or_intror I'))].
      intros [SO _]. apply (N 0). rewrite P0. exact SO.
    + assert (Z : forall t, rz (line_at p up t) = rz p + t) by (intros t; unfold line_at, radd, rscale, up; cbn [rz]; ring).
      assert (INS : inside (fst m) (snd m) p <-> t0 < 0 < t1) by (rewrite <- S2, P0; reflexivity).
      assert (W : forall u v : rvec, (u = line_at p up t0 /\ v = line_at p up t1) \/ (u = line_at p up t1 /\ v = line_at p up t0) ->
        (Rltb (Rmin (rz u) (rz v)) (rz p) && Rltb (rz p) (Rmax (rz u) (rz v)))%bool = true <-> inside (fst m) (snd m) p).
      { intros u v UV. rewrite andb_true_iff, !Rltb_true, INS. destruct UV as [[-> ->]|[-> ->]]; rewrite !Z.
        - rewrite Rmin_left, Rmax_right by lra. split; intros; lra.
        - rewrite Rmin_right, Rmax_left by lra. split; intros; lra. }
      assert (G : forall u v : rvec, (u = line_at p up t0 /\ v = line_at p up t1) \/ (u = line_at p up t1 /\ v = line_at p up t0) ->
        exists b', (if (Rltb (Rmin (rz u) (rz v)) (rz p) && Rltb (rz p) (Rmax (rz u) (rz v)))%bool then Ok false else point_clear3 XR (lift3 p) (map lift_rmesh ms)) = Ok b' /\
          (b' = true <-> forall m', In m' (m :: ms) -> ~ inside (fst m') (snd m') p)).
      { intros u v UV. pose proof (W u v UV) as X. destruct (Rltb (Rmin (rz u) (rz v)) (rz p) && Rltb (rz p) (Rmax (rz u) (rz v)))%bool.
        - exists false. split; [reflexivity|]. split; [discriminate|]. intros H. exfalso. exact (H m (or_introl eq_refl) (proj1 X eq_refl)).
        - exists b. split; [exact E|]. rewrite B. split; intros H m' I'; [destruct I' as [<-|I']; [|exact (H m' I')]|exact (H m' (or_intror I'))].
          intros I. apply X in I. discriminate I. }
      destruct HH as [-> | ->]; cbn [obind idx nth_error].
      * destruct (G (line_at p up t0) (line_at p up t1) (or_introl (conj eq_refl eq_refl))) as (b' & G1 & G2). exists b'. split; [|exact G2].
        change (@vz XR (lift3 (line_at p up t0))) with (Some (rz (line_at p up t0))). change (@vz XR (lift3 (line_at p up t1))) with (Some (rz (line_at p up t1))). change (@vz XR (lift3 p)) with (Some (rz p)).
        rewrite sfmin_some, sfmax_some, !ltb_lift. exact G1.
      * destruct (G (line_at p up t1) (line_at p up t0) (or_intror (conj eq_refl eq_refl))) as (b' & G1 & G2). exists b'. split; [|exact G2].
        change (@vz XR (lift3 (line_at p up t0))) with (Some (rz (line_at p up t0))). change (@vz XR (lift3 (line_at p up t1))) with (Some (rz (line_at p up t1))). change (@vz XR (lift3 p)) with (Some (rz p)).
        rewrite sfmin_some, sfmax_some, !ltb_lift. exact G1.
Qed.
(** -- the straight motion test: free means that the segment stays out of the solids -- *)
Lemma direction_unit t1 t2 : t1 <> t2 -> let n := rnorm (rsub t2 t1) in 0 < n /\ forall k, radd t1 (rscale k (rsub t2 t1)) = line_at t1 (direction t1 t2) (k * n).
Proof.
  intros Ne n. assert (P : 0 < n) by (apply sqrt_lt_R0; apply dot_pos_ne; exact Ne). split; [exact P|]. intros k. unfold line_at, direction. fold n.
  apply rv_eq; unfold radd, rscale; cbn [rx ry rz]; field; lra.
Qed.
Lemma within_line t1 t2 t : t1 <> t2 -> within XR (lift3 (line_at t1 (direction t1 t2) t)) (lift3 t1) (lift3 t2) = true <-> 0 < t < rnorm (rsub t2 t1).
Proof.
  intros Ne. destruct (direction_unit t1 t2 Ne) as [P D]. rewrite within_XR by (auto; exists t; reflexivity). set (n := rnorm (rsub t2 t1)) in *.
  assert (DN : direction t1 t2 <> RV 0 0 0).
  { intros E. apply Ne. pose proof (D 1) as X. rewrite E in X. destruct t1 as [x y z], t2 as [x' y' z']. unfold line_at, radd, rscale, rsub in X. cbn [rx ry rz] in X. injection X as X Y Z. f_equal; lra. }
  split.
  - intros (k & K & E). rewrite D in E. apply (line_at_inj _ _ _ _ DN) in E. subst t. nra.
  - intros T. exists (t / n). split; [split; [apply Rdiv_lt_0_compat; lra|apply Rmult_lt_reg_r with n; [exact P|]; unfold Rdiv; rewrite Rmult_assoc, Rinv_l by lra; lra]|]. rewrite D. f_equal. field. lra.
Qed.
Lemma straight_exact ms t1 t2 : t1 <> t2 -> all_not_tiny (direction t1 t2) -> Forall (generic_line t1 t2) ms ->
  (forall m, In m ms -> ~ solid (fst m) (snd m) t1 /\ ~ solid (fst m) (snd m) t2) ->
  exists b, straight_free XR (map lift_rmesh ms) (lift3 t1) (lift3 t2) = Ok b /\
    (b = true <-> forall m k, In m ms -> 0 <= k <= 1 -> ~ solid (fst m) (snd m) (radd t1 (rscale k (rsub t2 t1)))).
Proof.
  intros Ne NT F OUT. unfold straight_free. rewrite line_of by exact Ne. destruct (direction_unit t1 t2 Ne) as [P D]. set (n := rnorm (rsub t2 t1)) in *.
  assert (DN : direction t1 t2 <> RV 0 0 0).
  { intros E. apply Ne. pose proof (D 1) as X. rewrite E in X. destruct t1 as [x y z], t2 as [x' y' z']. unfold line_at, radd, rscale, rsub in X. cbn [rx ry rz] in X. injection X as X Y Z. f_equal; lra. }
  assert (G : exists c, any_mesh_crossing XR (lift_line t1 (direction t1 t2)) (lift3 t1) (lift3 t2) (map lift_rmesh ms) = Ok c /\
    (c = false <-> forall m k, In m ms -> 0 <= k <= 1 -> ~ solid (fst m) (snd m) (radd t1 (rscale k (rsub t2 t1))))).
  { induction ms as [|m ms IH]; cbn [map any_mesh_crossing].
    - exists false. split; [reflexivity|]. split; [intros _ m k []|reflexivity].
    - inversion F as [|? ? [CS GP] F']; subst. destruct (IH F' (fun m' I' => OUT m' (or_intror I'))) as (c & E & C). unfold lift_rmesh at 1.
      destruct (OUT m (or_introl eq_refl)) as [O1 O2].
      destruct (line_hits (fst m) (snd m) t1 (direction t1 t2) CS GP DN NT) as [[-> N]|(u0 & u1 & LT & HH & S1 & _)]; cbn [obind].
      + exists c. split; [exact E|]. rewrite C. split; intros H m' k I' K; [destruct I' as [<-|I']; [|exact (H m' k I' K)]|exact (H m' k (or_intror I') K)]. rewrite D. apply N.
      + assert (A0 : ~ u0 <= 0 <= u1). { intros B. apply S1 in B. replace (line_at t1 (direction t1 t2) 0) with t1 in B by (apply rv_eq; unfold line_at, radd, rscale; cbn [rx ry rz]; ring). exact (O1 B). }
        assert (A1' : ~ u0 <= n <= u1). { intros B. apply S1 in B. replace (line_at t1 (direction t1 t2) n) with t2 in B; [exact (O2 B)|]. transitivity (radd t1 (rscale 1 (rsub t2 t1))); [apply rv_eq; unfold radd, rscale, rsub; cbn [rx ry rz]; ring|]. rewrite D. f_equal. ring. }
        assert (W : (within XR (lift3 (line_at t1 (direction t1 t2) u0)) (lift3 t1) (lift3 t2) || within XR (lift3 (line_at t1 (direction t1 t2) u1)) (lift3 t1) (lift3 t2))%bool = true <->
           exists k, 0 <= k <= 1 /\ solid (fst m) (snd m) (radd t1 (rscale k (rsub t2 t1)))).
        { rewrite orb_true_iff, !within_line by exact Ne. fold n. split.
          - intros B. assert (Q : exists t, 0 < t < n /\ u0 <= t <= u1) by (destruct B; [exists u0|exists u1]; lra). destruct Q as (t & Q1 & Q2). exists (t / n). split.
            + split; [left; apply Rdiv_lt_0_compat; lra|apply Rmult_le_reg_r with n; [exact P|]; unfold Rdiv; rewrite Rmult_assoc, Rinv_l by lra; lra].
            + rewrite D. apply S1. replace (t / n * n) with t by (field; lra). exact Q2.
          - intros (k & K & B). rewrite D in B. apply S1 in B. assert (KN : 0 <= k * n <= n) by nra. lra. }
        set (w0 := within XR (lift3 (line_at t1 (direction t1 t2) u0)) (lift3 t1) (lift3 t2)) in *. set (w1 := within XR (lift3 (line_at t1 (direction t1 t2) u1)) (lift3 t1) (lift3 t2)) in *.
        assert (R_ : exists c', (if (w0 || w1)%bool then Ok true else any_mesh_crossing XR (lift_line t1 (direction t1 t2)) (lift3 t1) (lift3 t2) (map lift_rmesh ms)) = Ok c' /\
          (c' = false <-> forall m' k, In m' (m :: ms) -> 0 <= k <= 1 -> ~ solid (fst m') (snd m') (radd t1 (rscale k (rsub t2 t1))))).
        { destruct (w0 || w1)%bool.
          - exists true. split; [reflexivity|]. split; [discriminate|]. intros H. exfalso. destruct (proj1 W eq_refl) as (k & K & B). exact (H m k (or_introl eq_refl) K B).
          - exists c. split; [exact E|]. rewrite C. split; intros H m' k I' K; [destruct I' as [<-|I']; [|exact (H m' k I' K)]|exact (H m' k (or_intror I') K)].
            intros B. assert (X : false = true) by (apply W; exists k; split; assumption). discriminate X. }
        destruct R_ as (c' & R1 & R2). exists c'. split; [|exact R2].
        destruct HH as [-> | ->]; cbn [obind idx nth_error]; fold w0 w1; [exact R1|]. rewrite orb_comm. exact R1. }
  destruct G as (c & -> & C). cbn [obind]. exists (negb c). split; [reflexivity|]. rewrite <- C. destruct c; split; intros H; try reflexivity; discriminate H.
Qed.
