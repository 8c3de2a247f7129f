(** Model of defineParameters, ParsePlanningSettings.cpp:108-160, as a procedure on a PlannerParameter that
    an exception leaves as it then is; same arithmetic as MSettings.define_params2 and define_params3. *)
From Coq Require Import List Reals ZArith Arith Bool.
From Verif.Base Require Import Outcome.
From Verif.Model Require Import MGeom MMultiBody MSettings.
Import ListNotations.
Local Open Scope R_scope.
Local Open Scope outcome_scope.

(** Lines 111-121: the limits, assigned once all reads have succeeded. *)
Definition limits2 (base : sellipse) (arena : list sellipse) : outcome (list R * R) :=
  do ar <- at_ arena 0;
  do a0 <- at_ (se_axes ar) 0; do r <- at_ (se_axes base) 0; do a1 <- at_ (se_axes ar) 1;
  let b0 := a0 - 3 / 2 * r in let b1 := a1 - 3 / 2 * r in
  do x <- at_ (se_pos ar) 0; do y <- at_ (se_pos ar) 1;
  Ok ([x - b0; x + b0; y - b1; y + b1], b1).
(** Lines 108-129. *)
Definition set_params2 (base : sellipse) (arena obs : list sellipse) (p : params) : params * outcome unit :=
  match limits2 base arena with
  | Ok (lim, b1) =>
      let p1 := Params lim (r_numSlice p) (r_numLineX p) (r_numLineY p) in
      if Z.eqb (r_numLineY p1) 0 then
        match (do m <- min_size (map se_axes obs); int_quot b1 m) with
        | Ok n => (Params lim (r_numSlice p) (r_numLineX p) n, Ok tt)
        | Throw e => (p1, Throw e)
        | UB => (p1, UB)
        end
      else (p1, Ok tt)
  | Throw e => (p, Throw e)
  | UB => (p, UB)
  end.

(** Lines 134-149. *)
Definition limits3 (base : squad) (arena : list squad) : outcome (list R * (R * R)) :=
  do ar <- at_ arena 0;
  do a0 <- at_ (sq_axes ar) 0; do r <- at_ (sq_axes base) 0; do a1 <- at_ (sq_axes ar) 1; do a2 <- at_ (sq_axes ar) 2;
  let b0 := a0 - 6 / 5 * r in let b1 := a1 - 6 / 5 * r in let b2 := a2 - 6 / 5 * r in
  do x <- at_ (sq_pos ar) 0; do y <- at_ (sq_pos ar) 1; do z <- at_ (sq_pos ar) 2;
  Ok ([x - b0; x + b0; y - b1; y + b1; z - b2; z + b2], (b0, b1)).
(** Lines 131-160: numLineX is assigned before numLineY is computed, which cannot throw. *)
Definition set_params3 (base : squad) (nq : nat) (arena obs : list squad) (p : params) : params * outcome unit :=
  match limits3 base arena with
  | Ok (lim, (b0, b1)) =>
      let p1 := Params lim (Z.of_nat nq) (r_numLineX p) (r_numLineY p) in
      if (Z.eqb (r_numLineX p1) 0 || Z.eqb (r_numLineY p1) 0)%bool then
        match (do m <- min_size (map sq_axes obs); do nx <- floor_quot b0 m; do ny <- floor_quot b1 m; Ok (nx, ny)) with
        | Ok (nx, ny) => (Params lim (Z.of_nat nq) nx ny, Ok tt)
        | Throw e => (p1, Throw e)
        | UB => (p1, UB)
        end
      else (p1, Ok tt)
  | Throw e => (p, Throw e)
  | UB => (p, UB)
  end.

(** Calls with the same parameters and one scene after the other, exceptions caught. *)
Record scene2 : Type := Scene2 { c_base : sellipse; c_arena : list sellipse; c_obs : list sellipse }.
Fixpoint params_history (cs : list scene2) (p : params) : outcome params :=
  match cs with
  | [] => Ok p
  | c :: rest => match set_params2 (c_base c) (c_arena c) (c_obs c) p with (_, UB) => UB | (p', _) => params_history rest p' end
  end.
Record scene3 : Type := Scene3 { d_base : squad; d_samples : nat; d_arena : list squad; d_obs : list squad }.
Fixpoint params_history3 (cs : list scene3) (p : params) : outcome params :=
  match cs with
  | [] => Ok p
  | c :: rest => match set_params3 (d_base c) (d_samples c) (d_arena c) (d_obs c) p with (_, UB) => UB | (p', _) => params_history3 rest p' end
  end.
