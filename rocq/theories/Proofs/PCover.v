(** A point strictly to the left of every edge of a closed polygon is covered by the first two
    crossings of the horizontal line through it. *)
From Coq Require Import List Reals ZArith Arith Bool Lia Lra Psatz.
From Verif.Base Require Import Outcome.
From Verif.Model Require Import MScalar MLine2D MGeom.
From Verif.Spec Require Import SLine2D SGeom SCover.
From Verif.Proofs Require Import PLine2D.
Import ListNotations.
Local Open Scope R_scope.

(** consecutive pairs of a path *)
Fixpoint steps (v : rpoint) (l : list rpoint) : list (rpoint * rpoint) :=
  match l with [] => [] | w :: l' => (v, w) :: steps w l' end.
Lemma combine_steps t : forall h z, combine (h :: t) (t ++ [z]) = steps h (t ++ [z]).
Proof.
  induction t as [|w t IH]; intros h z; [reflexivity|]. cbn [app steps combine]. f_equal. apply (IH w z).
Qed.
Lemma redges_steps h t : redges (h :: t) = steps h (t ++ [h]).
Proof. unfold redges. apply combine_steps. Qed.

(** a least element *)
Lemma argmin {A} (c : A -> R) (l : list A) : l <> [] -> exists m, In m l /\ forall x, In x l -> c m <= c x.
Proof.
  induction l as [|a l IH]; intros N; [congruence|]. destruct l as [|b l].
  - exists a. split; [left; reflexivity|]. intros x [<- |[]]. lra.
  - destruct IH as (m & I & M); [discriminate|]. destruct (Rle_dec (c a) (c m)) as [L|L].
    + exists a. split; [left; reflexivity|]. intros x [<- |X]; [lra|]. specialize (M x X). lra.
    + exists m. split; [right; exact I|]. intros x [<- |X]; [lra|]. apply M, X.
Qed.
(** every vertex starts an edge *)
Lemma edge_from P a : In a P -> exists b, is_edge P a b.
Proof.
  intros I. apply In_nth_error in I. destruct I as [i I].
  destruct (nth_error P (S i)) as [b|] eqn:E; [exists b; left; exists i; auto|].
  destruct P as [|b l]; [destruct i; discriminate I|]. exists b. right. exists l. split; [reflexivity|].
  apply nth_error_None in E. assert (L : (i < length (b :: l))%nat) by (apply nth_error_Some; congruence).
  pose proof (last_nth (b :: l) b ltac:(discriminate)) as LN. replace (length (b :: l) - 1)%nat with i in LN by lia. congruence.
Qed.

(** ---- lines through p in direction d ---- *)
Section Dir.
Variables (p d : rpoint).
Hypothesis D0 : fst d * fst d + snd d * snd d <> 0.
Definition side (v : rpoint) : R := fst d * (snd v - snd p) - snd d * (fst v - fst p).
Definition fore (v : rpoint) : R := fst d * (fst v - fst p) + snd d * (snd v - snd p).
Lemma turn_side a b : turn_of a b p * (fst d * fst d + snd d * snd d) = fore a * side b - side a * fore b.
Proof. unfold turn_of, side, fore. ring. Qed.
Lemma dd_pos : 0 < fst d * fst d + snd d * snd d.
Proof. pose proof (Rle_0_sqr (fst d)). pose proof (Rle_0_sqr (snd d)). unfold Rsqr in *. lra. Qed.
Lemma both_sides P s : s * s = 1 -> P <> [] -> strictly_inside P p -> ~ (forall v, In v P -> 0 < s * side v).
Proof.
  intros S2 NE IN ALL. destruct (argmin (fun v => s * (fore v / (s * side v))) P NE) as (m & I & M).
  destruct (edge_from P m I) as [b E]. destruct (is_edge_in P m b E) as [_ Ib]. specialize (M b Ib). cbn beta in M.
  pose proof (IN m b E) as T. pose proof (turn_side m b) as TS. pose proof dd_pos as DP.
  assert (K : 0 < fore m * side b - side m * fore b) by (rewrite <- TS; apply Rmult_lt_0_compat; assumption).
  pose proof (ALL m I) as A. pose proof (ALL b Ib) as B.
  set (fm := fore m) in *. set (fb := fore b) in *. set (sm := side m) in *. set (sb := side b) in *. clearbody fm fb sm sb.
  assert (X : s * (fm / (s * sm)) - s * (fb / (s * sb)) = s * (fm * sb - sm * fb) * s / ((s * sm) * (s * sb))).
  { field. split; [|split]; intros Z; rewrite ?Z in *; lra. }
  assert (Y : 0 < (fm * sb - sm * fb) / ((s * sm) * (s * sb))) by (apply Rdiv_lt_0_compat; [exact K|apply Rmult_lt_0_compat; assumption]).
  assert (Z : s * (fm * sb - sm * fb) * s / ((s * sm) * (s * sb)) = (fm * sb - sm * fb) / ((s * sm) * (s * sb))).
  { replace (s * (fm * sb - sm * fb) * s) with (s * s * (fm * sb - sm * fb)) by ring. rewrite S2, Rmult_1_l. reflexivity. }
  lra.
Qed.
End Dir.

(** ---- one edge ---- *)
Definition lift_edge (e : rpoint * rpoint) := (lift_pt (fst e), lift_pt (snd e)).
Lemma single {A} (l : list A) x : (length l <= 1)%nat -> In x l -> l = [x].
Proof. destruct l as [|a [|b l]]; cbn; intros L I; [destruct I|destruct I as [-> |[]]; reflexivity|lia]. Qed.
Lemma edge_same y (a b : rpoint) s : s * s = 1 -> 0 < s * (snd a - y) -> 0 < s * (snd b - y) -> hline_edge XR (Some y) (lift_edge (a, b)) = [].
Proof.
  intros S2 A B. destruct (hline_edge XR (Some y) (lift_edge (a, b))) as [|h t] eqn:E; [reflexivity|exfalso].
  assert (I : In h (hline_edge XR (Some y) (lift_edge (a, b)))) by (rewrite E; left; reflexivity).
  apply hline_edge_XR in I. destruct I as (x & _ & _ & w & W & _ & Y). cbn [fst snd] in Y.
  assert (Z : w * (s * (snd a - y)) + (1 - w) * (s * (snd b - y)) = 0) by (rewrite Y; ring).
  destruct (Req_dec w 0) as [-> |NW]; [lra|]. pose proof (Rmult_lt_0_compat w _ ltac:(lra) A). pose proof (Rmult_le_pos (1 - w) (s * (snd b - y)) ltac:(lra) ltac:(lra)). lra.
Qed.
Lemma edge_cross (p a b : rpoint) s : s * s = 1 -> 0 < s * (snd a - snd p) -> 0 < - s * (snd b - snd p) -> 0 < turn_of a b p ->
  exists x, hline_edge XR (Some (snd p)) (lift_edge (a, b)) = [Some x] /\ 0 < s * (fst p - x).
Proof.
  intros S2 A B T. set (u := snd a - snd p) in *. set (v := snd b - snd p) in *.
  assert (NE : u - v <> 0) by (intros Z; replace v with u in B by lra; lra).
  pose (w := - v / (u - v)). assert (SQ : forall t, s * (s * t) = t) by (intros t; rewrite <- Rmult_assoc, S2; ring).
  assert (UV : 0 < s * (u - v)) by lra.
  assert (W : 0 < w < 1).
  { assert (Ew : w = (- s * v) / (s * (u - v))) by (unfold w; field; split; [exact NE|intros Z; rewrite Z in S2; lra]).
    rewrite Ew. split; [apply Rdiv_lt_0_compat; assumption|]. apply Rmult_lt_reg_r with (s * (u - v)); [exact UV|]. unfold Rdiv. rewrite Rmult_assoc, Rinv_l by lra. lra. }
  pose (x := w * fst a + (1 - w) * fst b). exists x. split.
  - apply single; [apply hline_edge_len|]. apply hline_edge_XR. exists x. split; [reflexivity|]. split; [intros Z; cbn [fst snd] in Z; apply NE; unfold u, v; rewrite Z; ring|].
    exists w. split; [lra|]. split; [reflexivity|]. cbn [fst snd]. unfold w, u, v. field. intros Z; apply NE; unfold u, v; lra.
  - assert (Ex : turn_of a b p = (u - v) * (fst p - x)).
    { unfold turn_of, x, w. unfold u, v in *. field. intros Z; apply NE; lra. }
    rewrite Ex in T. assert (K : 0 < (s * (u - v)) * (s * (fst p - x))).
    { replace (s * (u - v) * (s * (fst p - x))) with (s * s * ((u - v) * (fst p - x))) by ring. rewrite S2. lra. }
    apply Rmult_lt_reg_l with (s * (u - v)); [exact UV|]. rewrite Rmult_0_r. exact K.
Qed.

(** ---- the first crossing of a path ---- *)
Definition path_hits (y : R) (v : rpoint) (l : list rpoint) : list (option R) :=
  flat_map (fun e => hline_edge XR (Some y) (lift_edge e)) (steps v l).
Lemma path_hits_cons y v u l : path_hits y v (u :: l) = hline_edge XR (Some y) (lift_edge (v, u)) ++ path_hits y u l.
Proof. reflexivity. Qed.
Lemma first_hit p s l : s * s = 1 -> forall v,
  0 < s * (snd v - snd p) -> (forall w, In w l -> snd w <> snd p) -> (forall a b, In (a, b) (steps v l) -> 0 < turn_of a b p) ->
  (forall w, In w l -> 0 < s * (snd w - snd p)) \/
  exists x w l', path_hits (snd p) v l = Some x :: path_hits (snd p) w l' /\ 0 < s * (fst p - x) /\
    0 < - s * (snd w - snd p) /\ (forall z, In z l' -> snd z <> snd p) /\
    (forall a b, In (a, b) (steps w l') -> 0 < turn_of a b p) /\ last (w :: l') w = last (v :: l) v.
Proof.
  intros S2. induction l as [|u l IH]; intros v V NV T; [left; intros w []|].
  assert (LL : forall (w : rpoint) (m : list rpoint) d d', last (w :: m) d = last (w :: m) d').
  { intros w m d d'. revert w. induction m as [|z m IHm]; intros w; [reflexivity|]. cbn [last] in *. exact (IHm z). }
  pose proof (T v u (or_introl eq_refl)) as T1.
  assert (T2 : forall a b, In (a, b) (steps u l) -> 0 < turn_of a b p) by (intros a b I; apply T; right; exact I).
  assert (N2 : forall w, In w l -> snd w <> snd p) by (intros w I; apply NV; right; exact I).
  destruct (Rlt_dec 0 (s * (snd u - snd p))) as [U|U].
  - destruct (IH u U N2 T2) as [AL|(x & w & l' & E & X & W & N' & T' & La)].
    + left. intros w [<- |I]; [exact U|apply AL, I].
    + right. exists x, w, l'. split; [|split; [exact X|split; [exact W|split; [exact N'|split; [exact T'|]]]]].
      * rewrite path_hits_cons, (edge_same (snd p) v u s S2 V U). exact E.
      * rewrite La. cbn [last]. destruct l as [|z l]; [reflexivity|]. apply (LL z l).
  - right. assert (U' : 0 < - s * (snd u - snd p)).
    { pose proof (NV u (or_introl eq_refl)) as NU. assert (s * (snd u - snd p) <> 0); [|lra].
      intros Z. assert (K : s * (s * (snd u - snd p)) = 0) by (rewrite Z; ring). rewrite <- Rmult_assoc, S2 in K. lra. }
    destruct (edge_cross p v u s S2 V U' T1) as (x & E & X). exists x, u, l. split; [|split; [exact X|split; [exact U'|split; [exact N2|split; [exact T2|]]]]].
    + rewrite path_hits_cons, E. reflexivity.
    + cbn [last]. destruct l as [|z l]; [reflexivity|]. apply (LL z l).
Qed.
Lemma hline_hits y P h r : hline_polygon XR (Some y) (lift_poly P) = Ok (h :: r) ->
  h :: r = flat_map (fun e => hline_edge XR (Some y) (lift_edge e)) (redges P).
Proof.
  intros H. unfold hline_polygon in H. destruct (map snd (lift_poly P)) as [|z zs]; [discriminate H|].
  destruct (sltb XR (max_coeff XR z zs) (Some y) || sltb XR (Some y) (min_coeff XR z zs)).
  - discriminate H.
  - assert (Q : forall A (a b : A), Ok a = Ok b -> a = b) by (intros A a b E; injection E; auto). apply Q in H. rewrite <- H.
    rewrite edges_lift. fold (redges P). rewrite flat_map_concat_map, map_map, <- flat_map_concat_map. reflexivity.
Qed.
Lemma covered P p : P <> [] -> strictly_inside P p -> (forall v, In v P -> snd v <> snd p) ->
  exists h0 h1 rest, hline_polygon XR (Some (snd p)) (lift_poly P) = Ok (Some h0 :: Some h1 :: rest) /\ strictly_between h0 h1 (fst p).
Proof.
  intros NE IN NV. destruct P as [|v t]; [congruence|].
  assert (S : exists s, s * s = 1 /\ 0 < s * (snd v - snd p)).
  { destruct (Rlt_dec (snd p) (snd v)); [exists 1; lra|exists (-1)]. pose proof (NV v (or_introl eq_refl)). lra. }
  destruct S as (s & S2 & SV).
  assert (E : forall a b, In (a, b) (steps v (t ++ [v])) -> 0 < turn_of a b p).
  { intros a b I. apply IN. apply redges_is_edge. rewrite redges_steps. exact I. }
  assert (N1 : forall w, In w (t ++ [v]) -> snd w <> snd p).
  { intros w I. apply in_app_iff in I. destruct I as [I|[<- |[]]]; apply NV; [right; exact I|left; reflexivity]. }
  destruct (first_hit p s (t ++ [v]) S2 v SV N1 E) as [AL|(x & w & l' & Eh & X & W & N' & T' & La)].
  { exfalso. refine (both_sides p (1, 0) _ (v :: t) s S2 NE IN _); [cbn; lra|]. intros z Z. unfold side. cbn [fst snd].
    replace (1 * (snd z - snd p) - 0 * (fst z - fst p)) with (snd z - snd p) by ring. destruct Z as [<- |Z]; [exact SV|]. apply AL, in_app_iff. left. exact Z. }
  assert (S2' : - s * - s = 1) by lra.
  destruct (first_hit p (- s) l' S2' w W N' T') as [AL|(x' & w' & l'' & Eh' & X' & _)].
  { exfalso. assert (Lv : last (v :: t ++ [v]) v = v) by (change (v :: t ++ [v]) with ((v :: t) ++ [v]); apply last_last). pose proof (eq_trans La Lv) as La'.
    assert (Iv : In v (w :: l')) by (rewrite <- La' at 1; apply (nth_error_In _ (length (w :: l') - 1)); apply last_nth; discriminate).
    destruct Iv as [-> |Iv]; [lra|]. specialize (AL v Iv). lra. }
  destruct (hline_polygon_XR (snd p) (v :: t) NE) as (r & Er & Hr & _).
  assert (Eall : flat_map (fun e => hline_edge XR (Some (snd p)) (lift_edge e)) (redges (v :: t)) = Some x :: Some x' :: path_hits (snd p) w' l'').
  { rewrite redges_steps. fold (path_hits (snd p) v (t ++ [v])). rewrite Eh, Eh'. reflexivity. }
  destruct r as [|h r].
  - exfalso. assert (I : In (Some x) (flat_map (fun e => hline_edge XR (Some (snd p)) (lift_edge e)) (redges (v :: t)))) by (rewrite Eall; left; reflexivity).
    apply in_flat_map in I. destruct I as ([a b] & Ie & I). apply (hline_edge_XR (snd p) a b) in I. destruct I as (x0 & E0 & Nab & O).
    apply (proj2 (Hr (Some x))). exists x0, a, b. split; [exact E0|]. split; [apply redges_is_edge; exact Ie|]. split; [exact Nab|exact O].
  - pose proof (hline_hits _ _ _ _ Er) as Q. rewrite Eall in Q. exists x, x', (path_hits (snd p) w' l''). rewrite <- Q. split; [exact Er|].
    unfold strictly_between. destruct (Rlt_dec 0 s) as [P0|P0].
    + left. split; apply Rmult_lt_reg_l with s; lra.
    + right. assert (s <> 0) by (intros Z; rewrite Z in S2; lra). split; apply Rmult_lt_reg_l with (- s); lra.
Qed.
