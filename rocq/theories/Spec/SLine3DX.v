(** Specification for C17: the lines rejected by the coordinate ranges of the mesh. *)
From Coq Require Import List Reals.
From Verif.Spec Require Import SLine3D.
Local Open Scope R_scope.
(** In some coordinate the direction is below 1e-6 and all vertices lie strictly on one side of the
    line's origin. *)
Definition range_rejects (o d : rvec) (vs : list rvec) : Prop :=
  (Rabs (rx d) < / 10 ^ 6 /\ one_sided rx o vs) \/ (Rabs (ry d) < / 10 ^ 6 /\ one_sided ry o vs) \/ (Rabs (rz d) < / 10 ^ 6 /\ one_sided rz o vs).
