(** Specification vocabulary: workspaces of moderate size for the spatial planners. *)
From Coq Require Import List Reals ZArith.
From Flocq Require Import Core.Core.
From Verif.Base Require Import Outcome Float64.
From Verif.Model Require Import MScalar MGraph MHRM3D.
From Verif.Spec Require Import SClear SHline.
Import ListNotations.
Local Open Scope R_scope.
(** Horizontal limits of magnitude at most [M], heights (limits and crossings of the arena's meshes
    with the sweep lines) at most [Z], from 2 to 2^53 sweep planes and lines. *)
Definition plain_workspace3 (E : env3) (B : bmesh) (nx ny : nat) (l0 l1 l2 l3 l4 l5 : f64) (M Z : R) : Prop :=
  m_limits E = [l0; l1; l2; l3; l4; l5] /\ (2 <= nx)%nat /\ (Z.of_nat nx <= 2 ^ 53)%Z /\ (2 <= ny)%nat /\ (Z.of_nat ny <= 2 ^ 53)%Z /\
  limit_ok l0 /\ limit_ok l1 /\ limit_ok l2 /\ limit_ok l3 /\ fval l0 <= fval l1 /\ fval l2 <= fval l3 /\
  Rabs (fval l0) <= M /\ Rabs (fval l1) <= M /\ Rabs (fval l2) <= M /\ Rabs (fval l3) <= M /\
  fisnan l4 = false /\ fisnan l5 = false /\ Rabs (fval l4) <= Z /\ Rabs (fval l5) <= Z /\
  (forall x y, In x (grid nx l0 l1) -> In y (grid ny l2 l3) -> bounded_arena3 B x y Z).
(** The error of a sweep position: a few roundings of the largest limit. *)
Definition grid_error (M : R) : R := bpow radix2 (-49) * M + bpow radix2 (-1020).
