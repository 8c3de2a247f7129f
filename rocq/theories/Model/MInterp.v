(** Model of src/util/InterpolateSE3.cpp. *)
From Coq Require Import List ZArith Bool Reals Arith.
From Verif.Base Require Import Outcome Float64.
From Verif.Model Require Import MScalar.
Import ListNotations.
Local Open Scope outcome_scope.

Section Interp.
Variable S : scalar.
Notation T := (car S).
(** Quaternions in the order (w, x, y, z) of Eigen::Quaterniond's constructor. *)
Definition quat : Type := (T * T * T * T)%type.
(** Eigen::Quaterniond::slerp(t, other). *)
Variable slerp : quat -> T -> quat -> quat.

Definition sone : T := sofZ S 1.
Definition sofnat (n : nat) : T := sofZ S (Z.of_nat n).
(** [1.0 / static_cast<double>(numStep)], InterpolateSE3.cpp:95 and 109. *)
Definition step_size (n : nat) : T := sdiv S sone (sofnat n).

(** One vector, lines 113-116; [vEnd[j]] is unchecked.  The expression is
    [(1.0 - i * dt) * vStart[j] + i * dt * vEnd[j]]. *)
Fixpoint blend (t : T) (a b : list T) : outcome (list T) :=
  match a, b with
  | [], _ => Ok []
  | _ :: _, [] => UB
  | x :: r1, y :: r2 =>
      do r <- blend t r1 r2;
      Ok (sadd S (smul S (ssub S sone t) x) (smul S t y) :: r)
  end.
Definition param (n i : nat) : T := smul S (sofnat i) (step_size n).

(** interpolateRn, InterpolateSE3.cpp:104-122. *)
Definition interpolate_rn (a b : list T) (n : nat) : outcome (list (list T)) :=
  omap (fun i => blend (param n i) a b) (seq 0 (n + 1)).

(** interpolateSlerp, InterpolateSE3.cpp:89-102. *)
Definition interpolate_slerp (qa qb : quat) (n : nat) : list quat :=
  map (fun i => slerp qa (param n i) qb) (seq 0 (n + 1)).

Definition get_quat (v : list T) : outcome quat :=
  do w <- idx v 3; do x <- idx v 4; do y <- idx v 5; do z <- idx v 6; Ok (w, x, y, z).
Definition get_trans (v : list T) : outcome (list T) :=
  do x <- idx v 0; do y <- idx v 1; do z <- idx v 2; Ok [x; y; z].

(** interpolateSE3, InterpolateSE3.cpp:5-29. *)
Definition interpolate_se3 (a b : list T) (n : nat) : outcome (list (list T)) :=
  do qa <- get_quat a;
  do qb <- get_quat b;
  do ta <- get_trans a;
  do tb <- get_trans b;
  do ts <- interpolate_rn ta tb n;
  let qs := interpolate_slerp qa qb n in
  omap (fun i =>
    do t <- idx ts i; do x <- idx t 0; do y <- idx t 1; do z <- idx t 2;
    do q <- idx qs i;
    let '(qw, qx, qy, qz) := q in
    Ok [x; y; z; qw; qx; qy; qz]) (seq 0 (n + 1)).

(** [std::vector(v.begin(), v.begin() + 7)] and [(v.begin() + 7, v.end())]: undefined
    for a vector shorter than 7. *)
Definition split7 (v : list T) : outcome (list T * list T) :=
  if Nat.ltb (length v) 7 then UB else Ok (firstn 7 v, skipn 7 v).

(** interpolateCompoundSE3Rn, InterpolateSE3.cpp:31-65. *)
Definition interpolate_compound (a b : list T) (n : nat) : outcome (list (list T)) :=
  let init := if Nat.eqb n 0 then [a; b] else [] in
  if Nat.eqb (length a) 7 then interpolate_se3 a b n else
  do pa <- split7 a;
  do pb <- split7 b;
  do se3 <- interpolate_se3 (fst pa) (fst pb) n;
  do rn <- interpolate_rn (snd pa) (snd pb) n;
  do steps <- omap (fun i => do u <- at_ se3 i; do w <- at_ rn i; Ok (u ++ w)) (seq 0 (n + 1));
  Ok (init ++ steps).
End Interp.

(** Eigen::Quaterniond::slerp in exact real arithmetic (Eigen/src/Geometry/Quaternion.h):
    [one = 1 - epsilon], [d = dot], linear blending when [|d| >= one]. *)
Definition rquat : Type := (R * R * R * R)%type.
Definition qdot (p q : rquat) : R :=
  let '(a, b, c, d) := p in let '(e, f, g, h) := q in (a * e + b * f + c * g + d * h)%R.
Definition qcomb (s : R) (p : rquat) (r : R) (q : rquat) : rquat :=
  let '(a, b, c, d) := p in let '(e, f, g, h) := q in
  ((s * a + r * e), (s * b + r * f), (s * c + r * g), (s * d + r * h))%R.
Definition slerp_one : R := (1 - / IZR (2 ^ 52))%R.
Definition slerp_R (p : rquat) (t : R) (q : rquat) : rquat :=
  let d := qdot p q in
  let '(s0, s1) :=
    if Rle_dec slerp_one (Rabs d) then ((1 - t)%R, t)
    else let th := acos (Rabs d) in ((sin ((1 - t) * th) / sin th)%R, (sin (t * th) / sin th)%R) in
  qcomb s0 p (if Rlt_dec d 0 then (- s1)%R else s1) q.
Definition slerp_XR (p : quat XR) (t : car XR) (q : quat XR) : quat XR :=
  match p, t, q with
  | (Some a, Some b, Some c, Some d), Some t, (Some e, Some f, Some g, Some h) =>
      let '(w, x, y, z) := slerp_R (a, b, c, d) t (e, f, g, h) in (Some w, Some x, Some y, Some z)
  | _, _, _ => (None, None, None, None)
  end.
