(** Model of [hrm::Interval] (src/datastructure/Interval.cpp,
    include/hrm/datastructure/Interval.h). *)
From Coq Require Import List Bool Sorted Permutation.
From Verif.Base Require Import Outcome Float64.
Import ListNotations.
Local Open Scope outcome_scope.

(** class Interval: Interval.h:20-66 (start_, end_). *)
Record itv : Type := Itv { istart : f64; iend : f64 }.

(** std::sort.  The standard leaves the order of equivalent elements open, so a
    sort is an arbitrary function, polymorphic in the element type; [conforming]
    says what the standard guarantees. *)
Definition sort_fn : Type := forall A : Type, (A -> A -> bool) -> list A -> list A.

(** [lt] is a strict weak ordering on the elements of [l]
    (C++ named requirement "Compare"). *)
Definition swo_on {A} (lt : A -> A -> bool) (l : list A) : Prop :=
  (forall x, In x l -> lt x x = false) /\
  (forall x y z, In x l -> In y l -> In z l ->
     lt x y = true -> lt y z = true -> lt x z = true) /\
  (forall x y z, In x l -> In y l -> In z l ->
     lt x y = false -> lt y x = false -> lt y z = false -> lt z y = false ->
     lt x z = false /\ lt z x = false).

Definition conforming (srt : sort_fn) : Prop :=
  forall A (lt : A -> A -> bool) (l : list A), swo_on lt l ->
    Permutation l (srt A lt l) /\
    StronglySorted (fun a b => lt b a = false) (srt A lt l).

(** [sort(v.begin(), v.end(), [](a,b){return key(a) < key(b);})] on double keys.
    If a NaN key is present together with two keys that are strictly ordered, the
    comparator is not a strict weak ordering: undefined behaviour. *)
Definition nan_mixed (keys : list f64) : bool :=
  existsb fisnan keys && existsb (fun a => existsb (fun b => fltb a b) keys) keys.

Definition sort_by {A} (srt : sort_fn) (key : A -> f64) (l : list A) : outcome (list A) :=
  if nan_mixed (map key l) then UB
  else Ok (srt A (fun a b => fltb (key a) (key b)) l).

Section Interval.
Variable srt : sort_fn.

(** Interval::unions, Interval.cpp:10-32.  [unions_loop cur l] is the loop of
    lines 22-29 with [res.back() = cur]; earlier elements of [res] are never
    touched again, so they are emitted in front.  The loop runs over *all*
    elements, including the first one that was pushed before the loop. *)
Fixpoint unions_loop (cur : itv) (l : list itv) : list itv :=
  match l with
  | [] => [cur]
  | el :: t =>
      if fltb (iend cur) (istart el)
      then cur :: unions_loop el t
      else unions_loop (Itv (istart cur) (fstdmax (iend cur) (iend el))) t
  end.

Definition unions (ins : list itv) : outcome (list itv) :=
  match ins with
  | [] => Ok []
  | _ =>
      do insCopy <- sort_by srt istart ins;
      do first <- at_ insCopy 0;
      Ok (unions_loop first insCopy)
  end.

(** Interval::intersects, Interval.cpp:34-58. *)
Definition intersects (ins : list itv) : outcome (list itv) :=
  match ins with
  | [] => Ok []
  | _ =>
      do c1 <- sort_by srt istart ins;
      do b <- back_ c1;
      do c2 <- sort_by srt iend c1;
      do f <- front_ c2;
      let buff := Itv (istart b) (iend f) in
      if fltb (iend buff) (istart buff) then Ok [] else Ok [buff]
  end.

(** Interval::complements, Interval.cpp:60-100.  [gaps] is the loop of lines
    80-83 followed by the last emplace_back of line 84. *)
Fixpoint gaps (cur : itv) (rest : list itv) : list itv :=
  match rest with
  | [] => [Itv (iend cur) fdblmax]
  | n :: t => Itv (iend cur) (istart n) :: gaps n t
  end.

Fixpoint clip_all (o : itv) (comp : list itv) : outcome (list itv) :=
  match comp with
  | [] => Ok []
  | c :: t =>
      do isec <- intersects [c; o];
      do rest <- clip_all o t;
      match isec with
      | [] => Ok rest
      | i :: _ => Ok (i :: rest)
      end
  end.

Definition complements (outer inner : list itv) : outcome (list itv) :=
  match outer with
  | [] => Ok []
  | o :: _ =>
      match inner with
      | [] => Ok outer
      | _ =>
          do innerCopy <- sort_by srt istart inner;
          match innerCopy with
          | [] => Throw OutOfRange               (* innerCopy.at(0) *)
          | i0 :: rest =>
              clip_all o (Itv (fneg fdblmax) (istart i0) :: gaps i0 rest)
          end
      end
  end.

End Interval.

(** A conforming sort (stable insertion sort), used to run the model. *)
Fixpoint insert {A} (lt : A -> A -> bool) (x : A) (l : list A) : list A :=
  match l with
  | [] => [x]
  | y :: t => if lt x y then x :: l else y :: insert lt x t
  end.
Definition isort : sort_fn := fun A lt l => fold_left (fun acc x => insert lt x acc) l [].
