(** Specification vocabulary for interval operations: the set of real points an
    interval list covers.  Independent of the algorithms in [Model]. *)
From Coq Require Import List Reals.
From Verif.Base Require Import Outcome Float64.
From Verif.Model Require Import MInterval.
Import ListNotations.
Local Open Scope R_scope.

(** No NaN endpoint. *)
Definition itv_num (i : itv) : Prop := fisnan (istart i) = false /\ fisnan (iend i) = false.
(** ... and start <= end. *)
Definition itv_wf (i : itv) : Prop := itv_num i /\ fval (istart i) <= fval (iend i).

(** [x] is a point of the closed interval / strictly inside it. *)
Definition inI (i : itv) (x : R) : Prop := fval (istart i) <= x <= fval (iend i).
Definition insideI (i : itv) (x : R) : Prop := fval (istart i) < x < fval (iend i).
Definition covers (l : list itv) (x : R) : Prop := exists i, In i l /\ inI i x.

(** Two intervals do not overlap: one lies to the left of the other and starts
    strictly before it (they may touch). *)
Definition left_of (a b : itv) : Prop :=
  fval (istart a) < fval (istart b) /\ fval (iend a) <= fval (istart b).
Definition apart (a b : itv) : Prop := left_of a b \/ left_of b a.
Definition pairwise_apart (l : list itv) : Prop := ForallOrdPairs apart l.

(** Separated by a real gap, in increasing order (normal form of a union). *)
Fixpoint separated (l : list itv) : Prop :=
  match l with
  | a :: ((b :: _) as t) => fval (iend a) < fval (istart b) /\ separated t
  | _ => True
  end.
(** In increasing order, possibly touching. *)
Fixpoint increasing (l : list itv) : Prop :=
  match l with
  | a :: ((b :: _) as t) => fval (iend a) <= fval (istart b) /\ increasing t
  | _ => True
  end.

(** Points representable as finite doubles' range. *)
Definition in_double_range (x : R) : Prop := - fval fdblmax <= x <= fval fdblmax.

(** Equal up to the sign of zero. *)
Definition same_values (l1 l2 : list itv) : Prop :=
  Forall2 (fun a b => fval (istart a) = fval (istart b) /\ fval (iend a) = fval (iend b)) l1 l2.
