(** Specification vocabulary for planar line / polygon intersection, over the
    real plane. *)
From Coq Require Import List Reals.
From Verif.Model Require Import MScalar MLine2D.
Import ListNotations.
Local Open Scope R_scope.

Definition rpoint : Type := (R * R)%type.
(** A polygon with real vertices, and its image in the exact-arithmetic scalars. *)
Definition lift_pt (p : rpoint) : car XR * car XR := (Some (fst p), Some (snd p)).
Definition lift_poly (P : list rpoint) : list (car XR * car XR) := map lift_pt P.

(** The edges of the closed polygon with vertex list [P]: consecutive vertices,
    and the last one with the first one. *)
Definition is_edge (P : list rpoint) (a b : rpoint) : Prop :=
  (exists i, nth_error P i = Some a /\ nth_error P (S i) = Some b) \/
  (exists l, P = b :: l /\ last P b = a).

(** [x] is the point of the closed segment ab with parameter t. *)
Definition along (a b : rpoint) (t : R) (x : rpoint) : Prop :=
  fst x = t * fst a + (1 - t) * fst b /\ snd x = t * snd a + (1 - t) * snd b.
Definition on_segment (a b x : rpoint) : Prop := exists t, 0 <= t <= 1 /\ along a b t x.
Definition in_open_segment (a b x : rpoint) : Prop := exists t, 0 < t < 1 /\ along a b t x.

(** Not parallel (in particular none of the two segments is a single point). *)
Definition transversal (a b c d : rpoint) : Prop :=
  (fst b - fst a) * (snd c - snd d) - (fst c - fst d) * (snd b - snd a) <> 0.

(** What is assumed of [A.colPivHouseholderQr().solve(b)] in exact arithmetic for
    a 2x2 matrix: the solution when A is invertible; when A is singular, Eigen
    sets the components of the solution beyond the rank to zero, so some
    component is zero. *)
Definition solve_exact (solve : car XR -> car XR -> car XR -> car XR -> car XR -> car XR -> car XR * car XR) : Prop :=
  forall a11 a12 a21 a22 b1 b2 : R,
    (a11 * a22 - a12 * a21 <> 0 ->
      exists s t, solve (Some a11) (Some a12) (Some a21) (Some a22) (Some b1) (Some b2) = (Some s, Some t) /\
        a11 * s + a12 * t = b1 /\ a21 * s + a22 * t = b2) /\
    (a11 * a22 - a12 * a21 = 0 ->
      let r := solve (Some a11) (Some a12) (Some a21) (Some a22) (Some b1) (Some b2) in
      fst r = Some 0 \/ snd r = Some 0).
