(** Model of src/util/DistanceMetric.cpp. *)
From Coq Require Import List ZArith Bool.
From Verif.Base Require Import Outcome Float64.
From Verif.Model Require Import MScalar.
Import ListNotations.
Local Open Scope outcome_scope.

Section Distance.
Variable S : scalar.
Notation T := (car S).

(** The loop of vectorEuclidean, DistanceMetric.cpp:7-10: it runs over the first
    vector and reads the second one unchecked. *)
Fixpoint vdiff (v1 v2 : list T) : outcome (list T) :=
  match v1, v2 with
  | [], _ => Ok []
  | _ :: _, [] => UB
  | a :: r1, b :: r2 => do t <- vdiff r1 r2; Ok (ssub S a b :: t)
  end.

(** std::inner_product(diff, diff, 0.0): left to right, acc = acc + d * d. *)
Definition sumsq (ds : list T) : T :=
  fold_left (fun acc d => sadd S acc (smul S d d)) ds (sofZ S 0).

(** vectorEuclidean, DistanceMetric.cpp:5-13. *)
Definition vec_euclid (v1 v2 : list T) : outcome T :=
  do ds <- vdiff v1 v2; Ok (ssqrt S (sumsq ds)).

End Distance.
