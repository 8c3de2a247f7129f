(** Proofs for C104: the orientation of a prepared body. *)
From Coq Require Import List Bool ZArith Arith Lia Reals Lra.
From Verif.Base Require Import Outcome Float64 FloatFacts.
From Verif.Model Require Import MGeom MMultiBody MCsv MStore MSettings MPrepare.
From Verif.Spec Require Import SGeom SRigid SUtil SStore SSettings SPrepare.
From Verif.Proofs Require Import PGeom PRot PGeom3 PSettings.
Import ListNotations.
Local Open Scope R_scope.

Lemma near_turn w' x' y' z' q v m : unit_quat q -> - (1 / 100000) <= w' - qw q <= 1 / 100000 -> - (1 / 100000) <= x' - qx q <= 1 / 100000 ->
  - (1 / 100000) <= y' - qy q <= 1 / 100000 -> - (1 / 100000) <= z' - qz q <= 1 / 100000 -> Rabs (x3 v) <= m -> Rabs (y3 v) <= m -> Rabs (z3 v) <= m ->
  let d := sub3 (app3 (rotm (Q w' x' y' z')) v) (app3 (rotm q) v) in
  Rabs (x3 d) <= 3 / 10000 * m /\ Rabs (y3 d) <= 3 / 10000 * m /\ Rabs (z3 d) <= 3 / 10000 * m.
Proof.
  intros U Nw Nx Ny Nz X Y Z. assert (BD : forall x, Rabs x <= m -> - m <= x <= m) by (intros x H; unfold Rabs in H; destruct (Rcase_abs x); lra).
  apply BD in X. apply BD in Y. apply BD in Z. destruct (unit_bounds q U) as (Bw & Bx & By & Bz).
  set (w := qw q) in *. set (x := qx q) in *. set (y := qy q) in *. set (z := qz q) in *.
  assert (EP : 0 <= 1 / 100000 <= 1 / 100000) by lra.
  pose proof (near_prod x x x' x' _ EP Bx Bx Nx Nx) as Pxx. pose proof (near_prod y y y' y' _ EP By By Ny Ny) as Pyy. pose proof (near_prod z z z' z' _ EP Bz Bz Nz Nz) as Pzz.
  pose proof (near_prod x y x' y' _ EP Bx By Nx Ny) as Pxy. pose proof (near_prod x z x' z' _ EP Bx Bz Nx Nz) as Pxz. pose proof (near_prod y z y' z' _ EP By Bz Ny Nz) as Pyz.
  pose proof (near_prod x w x' w' _ EP Bx Bw Nx Nw) as Pxw. pose proof (near_prod y w y' w' _ EP By Bw Ny Nw) as Pyw. pose proof (near_prod z w z' w' _ EP Bz Bw Nz Nw) as Pzw.
  cbv zeta. unfold sub3, app3, dot3, rotm. cbn [x3 y3 z3 r0 r1 r2 qw qx qy qz]. fold w x y z.
  assert (T : forall p q0 r e, e = p * x3 v + q0 * y3 v + r * z3 v -> - (1 / 10000) <= p <= 1 / 10000 -> - (1 / 10000) <= q0 <= 1 / 10000 -> - (1 / 10000) <= r <= 1 / 10000 -> Rabs e <= 3 / 10000 * m).
  { intros p q0 r e -> P Q0 R. pose proof (abs3 (x3 v) (y3 v) (z3 v) (1 / 10000) m X Y Z p q0 r P Q0 R). lra. }
  split; [|split].
  - refine (T (- 2 * (y' * y' - y * y) - 2 * (z' * z' - z * z)) (2 * (x' * y' - x * y) - 2 * (z' * w' - z * w)) (2 * (x' * z' - x * z) + 2 * (y' * w' - y * w)) _ _ _ _ _); [ring|lra|lra|lra].
  - refine (T (2 * (x' * y' - x * y) + 2 * (z' * w' - z * w)) (- 2 * (x' * x' - x * x) - 2 * (z' * z' - z * z)) (2 * (y' * z' - y * z) - 2 * (x' * w' - x * w)) _ _ _ _ _); [ring|lra|lra|lra].
  - refine (T (2 * (x' * z' - x * z) - 2 * (y' * w' - y * w)) (2 * (y' * z' - y * z) + 2 * (x' * w' - x * w)) (- 2 * (x' * x' - x * x) - 2 * (y' * y' - y * y)) _ _ _ _ _); [ring|lra|lra|lra].
Qed.
(** Two steps: a millionth in the conversion, 5.1 millionths in the file. *)
Lemma two_steps (a b k : R) : -1 <= k <= 1 -> Rabs (a - k) <= 1 / 1000000 -> Rabs (b - a) <= 51 / 10000000 * Rabs a -> - (1 / 100000) <= b - k <= 1 / 100000.
Proof.
  intros K A B. assert (A' : - (1 / 1000000) <= a - k <= 1 / 1000000) by (unfold Rabs in A; destruct (Rcase_abs (a - k)); lra).
  assert (M : Rabs a <= 11 / 10) by (unfold Rabs; destruct (Rcase_abs a); lra).
  unfold Rabs in B at 1. destruct (Rcase_abs (b - a)); lra.
Qed.
Lemma prepared_pose turnq num a b d e1 e2 x y z u v w t s : V3r (fval u) (fval v) (fval w) <> V3r 0 0 0 -> accurate turnq u v w t ->
  shape_near3 turnq num [a; b; d; e1; e2; x; y; z; u; v; w; t] s ->
  exists a' b' d' e1' e2' x' y' z' dir, g_axes s = [a'; b'; d'] /\ g_eps s = [e1'; e2'] /\ g_pos s = [x'; y'; z'] /\ g_num s = num /\
    Forall2 near [a; b; d; e1; e2; x; y; z] [a'; b'; d'; e1'; e2'; x'; y'; z'] /\ direction (V3r (fval u) (fval v) (fval w)) dir /\
    forall p m, Rabs (x3 p) <= m -> Rabs (y3 p) <= m -> Rabs (z3 p) <= m ->
      let e := sub3 (turned_by s p) (turned dir (fval t) p) in
      Rabs (x3 e) <= 3 / 10000 * m /\ Rabs (y3 e) <= 3 / 10000 * m /\ Rabs (z3 e) <= 3 / 10000 * m.
Proof.
  intros NZ (qa & qb & qc & qd & q & T & OR & Ea & Eb & Ec & Ed) (r & bb & BT & N & RI).
  destruct (proj1 OR NZ) as (U & dir & D & TU).
  destruct BT as [(a0 & b0 & d0 & f1 & f2 & x0 & y0 & z0 & u0 & v0 & w0 & t0 & q0 & q1 & q2 & q3 & E & T' & ->)|(_ & L & _)]; [|exfalso; apply L; reflexivity].
  injection E as <- <- <- <- <- <- <- <- <- <- <- <-. rewrite T in T'. injection T' as <- <- <- <-. cbn [firstn] in N.
  destruct RI as (a' & b' & d' & e1' & e2' & x' & y' & z' & w' & i' & j' & k' & rest & -> & ->).
  assert (N' : Forall2 near [a; b; d; e1; e2; x; y; z] [a'; b'; d'; e1'; e2'; x'; y'; z'] /\ near qa w' /\ near qb i' /\ near qc j' /\ near qd k').
  { repeat match goal with H : Forall2 _ (_ :: _) (_ :: _ ++ _) |- _ => idtac | H : Forall2 near (_ :: _) _ |- _ => inversion H; subst; clear H end.
    split; [repeat (apply Forall2_cons; [assumption|]); apply Forall2_nil|]. split; [assumption|]. split; [assumption|]. split; assumption. }
  destruct N' as (N8 & Na & Nb & Nc & Nd).
  exists a', b', d', e1', e2', x', y', z', dir. repeat (split; [first [reflexivity|exact N8|exact D]|]). intros p m X Y Z. cbv zeta. rewrite <- TU. rewrite (turn_rotm _ p U).
  unfold turned_by. cbn [g_quat]. destruct (unit_bounds q U) as (Bw & Bx & By & Bz).
  apply near_turn; try assumption; [exact (two_steps _ _ _ Bw Ea (proj2 Na))|exact (two_steps _ _ _ Bx Eb (proj2 Nb))|exact (two_steps _ _ _ By Ec (proj2 Nc))|exact (two_steps _ _ _ Bz Ed (proj2 Nd))].
Qed.
