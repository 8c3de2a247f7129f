(** Model of getMeshFromParamSurface, src/geometry/MeshGenerator.cpp:105-131. *)
From Coq Require Import List Arith.
From Verif.Base Require Import Outcome.
Import ListNotations.

(** The array [q], lines 110-118: row [i] holds i*n, ..., (i+1)*n - 2.
    Simplification: the entries are doubles in the code (LinSpaced with unit step,
    exact below 2^53). *)
Definition mesh_q (n : nat) : list nat :=
  flat_map (fun i => map (fun j => i * n + j) (seq 0 (n - 1))) (seq 0 (n - 1)).

(** Lines 120-129: the upper block of faces, then the lower block.  n = 0: [n - 1]
    wraps around and the first segment is outside the array. *)
Definition mesh_faces (n : nat) : outcome (list (nat * nat * nat)) :=
  if Nat.eqb n 0 then UB else
  Ok (map (fun q => (q, q + n, q + n + 1)) (mesh_q n) ++ map (fun q => (q, q + 1, q + n + 1)) (mesh_q n)).
