(** Specification for C106: parameters after several scenes. *)
From Coq Require Import List Reals ZArith.
From Verif.Base Require Import Outcome.
From Verif.Model Require Import MGeom MMultiBody MSettings MParams.
Import ListNotations.
Local Open Scope R_scope.
(** The limits of a scene: the first arena's box less one and a half times (in space 1.2 times) the base's first
    semi-axis. *)
Definition limits_of2 (c : scene2) (l : list R) : Prop := exists ar rest r b A0 A1 as' X Y ps, c_arena c = ar :: rest /\ se_axes (c_base c) = r :: b /\
  se_axes ar = A0 :: A1 :: as' /\ se_pos ar = X :: Y :: ps /\ l = [X - (A0 - 3 / 2 * r); X + (A0 - 3 / 2 * r); Y - (A1 - 3 / 2 * r); Y + (A1 - 3 / 2 * r)].
Definition limits_of3 (c : scene3) (l : list R) : Prop := exists ar rest r b A0 A1 A2 as' X Y Z ps, d_arena c = ar :: rest /\ sq_axes (d_base c) = r :: b /\
  sq_axes ar = A0 :: A1 :: A2 :: as' /\ sq_pos ar = X :: Y :: Z :: ps /\
  l = [X - (A0 - 6 / 5 * r); X + (A0 - 6 / 5 * r); Y - (A1 - 6 / 5 * r); Y + (A1 - 6 / 5 * r); Z - (A2 - 6 / 5 * r); Z + (A2 - 6 / 5 * r)].
