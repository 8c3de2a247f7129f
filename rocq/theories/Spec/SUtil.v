(** Specifications for the utility functions: C34, C37-C39, C47, C48. *)
From Coq Require Import List Reals Ascii Bool Arith.
Import ListNotations.

(** -- C39: the Euclidean distance of two real vectors. -- *)
Fixpoint sq_dist (a b : list R) : R :=
  match a, b with
  | x :: a', y :: b' => ((x - y) * (x - y) + sq_dist a' b')%R
  | _, _ => 0%R
  end.

(** -- C34: simplices. -- *)
Definition pt3 : Type := (R * R * R)%type.
(** The 4x4 matrix stored column by column in a list of 16 numbers. *)
Definition entry (m : list R) (r c : nat) : R := nth (4 * c + r) m 0%R.
Definition sum4 (f : nat -> R) : R := (f 0%nat + f 1%nat + f 2%nat + f 3%nat)%R.
Definition kron (r c : nat) : R := if Nat.eqb r c then 1%R else 0%R.
(** Column [k] of the vertex matrix is the vertex with a fourth coordinate 1. *)
Definition vcoord (v : pt3) (r : nat) : R :=
  match r with 0 => fst (fst v) | 1 => snd (fst v) | 2 => snd v | _ => 1%R end.
Definition is_inverse_of_vertices (m : list R) (vs : nat -> pt3) : Prop :=
  (forall r c, r < 4 -> c < 4 -> sum4 (fun k => (entry m r k * vcoord (vs c) k)%R) = kron r c) /\
  (forall r c, r < 4 -> c < 4 -> sum4 (fun k => (vcoord (vs k) r * entry m k c)%R) = kron r c).
(** Convex hull of four points. *)
Definition in_hull (vs : nat -> pt3) (p : pt3) : Prop :=
  exists w : nat -> R, (forall k, k < 4 -> (0 <= w k)%R) /\ sum4 w = 1%R /\
    forall r, r < 3 -> vcoord p r = sum4 (fun k => (w k * vcoord (vs k) r)%R).
(** Barycentric coordinate [r] of a point with respect to a stored matrix. *)
Definition bary (m : list R) (p : pt3) (r : nat) : R := sum4 (fun k => (entry m r k * vcoord p k)%R).

(** -- C47: the two triangles of the grid cell in row [i] and column [j] of an
    n x n vertex grid whose vertex (i, j) has index i*n + j. -- *)
Definition grid (n i j : nat) : nat := i * n + j.
Definition cell_triangles (n : nat) (c : nat * nat) : list (nat * nat * nat) :=
  let '(i, j) := c in
  [ (grid n i j, grid n (i + 1) j, grid n (i + 1) (j + 1));
    (grid n i j, grid n i (j + 1), grid n (i + 1) (j + 1)) ].
Definition directed_edge (t : nat * nat * nat) (u v : nat) : Prop :=
  let '(a, b, c) := t in (u = a /\ v = b) \/ (u = b /\ v = c) \/ (u = c /\ v = a).

(** -- C48: pieces of a text separated by a character: k separators give k + 1 pieces. -- *)
Fixpoint split (sep : ascii) (text : list ascii) : list (list ascii) :=
  match text with
  | [] => [[]]
  | c :: rest =>
      if Ascii.eqb c sep then [] :: split sep rest
      else match split sep rest with
           | piece :: more => (c :: piece) :: more
           | [] => [[c]]
           end
  end.
(** The lines of a text: what follows the last line break is a line unless empty. *)
Fixpoint drop_last_empty (ls : list (list ascii)) : list (list ascii) :=
  match ls with
  | [] => []
  | [ [] ] => []
  | l :: rest => l :: drop_last_empty rest
  end.
Definition text_lines (text : list ascii) : list (list ascii) := drop_last_empty (split (ascii_of_nat 10) text).
Definition starts_with_hash (l : list ascii) : bool :=
  match l with c :: _ => Ascii.eqb c (ascii_of_nat 35) | [] => false end.
Definition data_lines (text : list ascii) : list (list ascii) :=
  filter (fun l => negb (starts_with_hash l)) (text_lines text).
Definition line_fields (l : list ascii) : list (list ascii) := split (ascii_of_nat 44) l.
