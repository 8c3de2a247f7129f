(** Model of the OMPL interface: setup and plan (OMPLInterface-inl.h:40-97, 173-185), the read-out
    of the solution (OMPL2D.cpp:16-72, OMPL3D.cpp:18-71) and the conversion of start and goal
    (OMPL2D.cpp:74-88, 155-166; OMPL3D.cpp:73-89, 160-174; OMPL3DArticulated.cpp:16, 22-55, 82-104).

    OMPL itself is not modelled: what it answers during one call of plan is a [reply], any value of
    which is allowed.  The collision objects and the validity check are in MCollision.  The choice
    of OMPL planner and sampler (lines 99-165) is left out: it only influences the replies. *)
From Coq Require Import List Bool Arith.
From Verif.Base Require Import Outcome Float64.
Import ListNotations.
Local Open Scope outcome_scope.

(** A configuration as a std::vector<Coordinate>. *)
Definition config : Type := list f64.
(** OMPL2D, OMPL3D, and OMPL3DArticulated with the number of joints of its URDF. *)
Inductive kind : Type := Planar | Spatial | Articulated (joints : nat).
Definition dims (k : kind) : nat := match k with Planar => 2 | _ => 3 end.

(** The og::SimpleSetup object: the bounds of its state space, whether a state validity checker was
    installed (without one OMPL takes every state as valid), and the start and goal of its problem
    definition. *)
Record simple_setup : Type := SS { ss_low : list f64; ss_high : list f64; ss_checked : bool; ss_ends : option (config * config) }.
(** The planner object, OMPLInterface.h:125-196 (the robot, the shapes and the collision objects
    are in MCollision). *)
Record ompl : Type := OMPL {
  o_ss : option simple_setup;        (** ss_ *)
  o_solved : bool;                   (** isSolved_ *)
  o_time : f64;                      (** totalTime_ *)
  o_checks : nat;                    (** numCollisionChecks_ *)
  o_valid : nat;                     (** numValidStates_ *)
  o_space : f64;                     (** validSpace_ *)
  o_numv : nat;                      (** numGraphVertex_ *)
  o_nume : nat;                      (** numGraphEdges_ *)
  o_len : nat;                       (** lengthPath_ *)
  o_verts : list config;             (** vertex_ *)
  o_edges : list (nat * nat);        (** edge_ *)
  o_path : list config;              (** path_ *)
  o_interp : list config             (** path_interp_ *)
}.

(** What OMPL answers during one call of plan. *)
Record reply : Type := Reply {
  r_status : option bool;            (** solve: None if it throws ompl::Exception, else the status as a bool
                                         (true also for an approximate solution) *)
  r_time : f64;                      (** getLastPlanComputationTime *)
  r_found : nat;                     (** number of states of the solution path before simplification *)
  r_simple : option (list config);   (** the states after simplifySolution; None if it throws ompl::Exception *)
  r_interp : list config;            (** the states after interpolate *)
  r_verts : list config;             (** the vertices of the planner data *)
  r_out : list (list nat);           (** the targets of the edges leaving each vertex *)
  r_nume : nat; r_checks : nat; r_motions : nat; r_space : f64
}.

(** ---- setup ---- *)
Definition idx_all (l : list f64) (n : nat) : outcome (list f64) := omap (fun i => idx l i) (seq 0 n).
(** RealVectorStateSpace::setBounds throws unless every lower bound is less than the upper one:
    [if (low[i] >= high[i]) throw]. *)
Fixpoint bounds_bad (lo hi : list f64) : bool :=
  match lo, hi with l :: lo', h :: hi' => fleb h l || bounds_bad lo' hi' | _, _ => false end.
(** setStateSpace; lowBound_ and highBound_ are references, so [lo], [hi] are the contents of the
    caller's vectors at the time of the call. *)
Definition set_state_space (k : kind) (lo hi : list f64) : outcome simple_setup :=
  do l <- idx_all lo (dims k); do h <- idx_all hi (dims k);
  if bounds_bad l h then Throw OtherException else Ok (SS l h false None).
(** The constructors, OMPL2D.cpp:7-12, OMPL3D.cpp:7-14, OMPL3DArticulated.cpp:5-17. *)
Definition new_ompl (k : kind) (lo hi : list f64) : outcome ompl :=
  let o := OMPL None false fzero 0 0 fzero 0 0 0 [] [] [] [] in
  match k with
  | Articulated _ => do s <- set_state_space k lo hi; Ok (OMPL (Some s) false fzero 0 0 fzero 0 0 0 [] [] [] [])
  | _ => Ok o
  end.
Definition with_ss (o : ompl) (s : simple_setup) : ompl :=
  OMPL (Some s) (o_solved o) (o_time o) (o_checks o) (o_valid o) (o_space o) (o_numv o) (o_nume o) (o_len o) (o_verts o) (o_edges o) (o_path o) (o_interp o).
(** setup, lines 40-58. *)
Definition setup (k : kind) (lo hi : list f64) (o : ompl) : ompl * outcome unit :=
  match set_state_space k lo hi with
  | Ok s => (with_ss o (SS (ss_low s) (ss_high s) true None), Ok tt)
  | Throw e => (o, Throw e)
  | UB => (o, UB)
  end.

(** ---- start and goal ---- *)
(** RealVectorStateSpace::enforceBounds, one coordinate. *)
Definition clamp (lo hi x : f64) : f64 := if fltb hi x then hi else if fltb x lo then lo else x.
Fixpoint clamp_all (lo hi xs : list f64) : list f64 :=
  match lo, hi, xs with l :: lo', h :: hi', x :: xs' => clamp l h x :: clamp_all lo' hi' xs' | _, _, _ => [] end.
Section Plan.
(** SO2StateSpace::enforceBounds (yaw into its period) and SO3StateSpace::enforceBounds (normalised
    quaternion), applied as often as the code does. *)
Variable wrap_yaw : f64 -> f64.
Variable wrap_quat : list f64 -> list f64.

(** setStateFromVector followed by enforceBounds on the same values (lines 176-177; clamping twice
    is the same as once for the bounds setBounds accepts). *)
Definition state_from (k : kind) (s : simple_setup) (v : config) : outcome config :=
  match k with
  | Planar => do c <- omap (fun i => at_ v i) (seq 0 3);
              Ok (clamp_all (ss_low s) (ss_high s) (firstn 2 c) ++ map wrap_yaw (skipn 2 c))
  | Spatial => do c <- omap (fun i => at_ v i) (seq 0 7);
               Ok (clamp_all (ss_low s) (ss_high s) (firstn 3 c) ++ wrap_quat (skipn 3 c))
  | Articulated n =>
      do c <- omap (fun i => at_ v i) (seq 0 7);
      do j <- omap (fun i => at_ v (i + 7)) (seq 0 n);
      Ok (clamp_all (ss_low s) (ss_high s) (firstn 3 c) ++ wrap_quat (skipn 3 c) ++ map (clamp (fneg cHALF_PI) cHALF_PI) j)
  end.

(** ---- the read-out ---- *)
(** OMPL2D::getSolution, OMPL2D.cpp:16-72.  pd.getVertex of a missing vertex gives a null state,
    which is dereferenced. *)
Definition get_solution2 (o : ompl) (r : reply) : ompl * outcome unit :=
  match (if o_solved o then option_map (fun p => (length p, o_path o ++ r_interp r)) (r_simple r) else Some (o_len o, o_path o)) with
  | None => (o, Throw OtherException)
  | Some (len, path) =>
      let k := o_valid o in
      match omap (fun i => match nth_error (r_verts r) i with Some v => Ok v | None => UB end) (seq 0 k) with
      | Ok vs =>
          (OMPL (o_ss o) (o_solved o) (r_time r) (r_checks r) (r_motions r) (r_space r) (length (r_verts r)) (r_nume r) len vs
             (flat_map (fun i => map (pair i) (nth i (r_out r) [])) (seq 0 k)) path (o_interp o), Ok tt)
      | Throw e => (o, Throw e)
      | UB => (o, UB)
      end
  end.
(** OMPL3D::getSolution, OMPL3D.cpp:18-71. *)
Definition get_solution3 (o : ompl) (r : reply) : ompl * outcome unit :=
  let '(path, interp) :=
    if o_solved o then match r_simple r with Some p => (o_path o ++ p, o_interp o ++ r_interp r) | None => (o_path o, o_interp o) end
    else (o_path o, o_interp o) in
  let n := length (r_verts r) in
  match omap (fun i => match nth_error (r_verts r) i with Some v => Ok v | None => UB end) (seq 0 n) with
  | Ok vs =>
      (OMPL (o_ss o) (o_solved o) (o_time o) (r_checks r) (r_motions r) (r_space r) n (r_nume r) (o_len o) vs
         (flat_map (fun i => map (pair i) (nth i (r_out r) [])) (seq 0 n)) path interp, Ok tt)
  | Throw e => (o, Throw e)
  | UB => (o, UB)
  end.

(** ---- plan, lines 60-97 ---- *)
Definition plan (k : kind) (o0 : ompl) (start goal : config) (maxT : f64) (r : reply) : ompl * outcome bool :=
  let o := OMPL (o_ss o0) false (o_time o0) (o_checks o0) (o_valid o0) (o_space o0) (o_numv o0) (o_nume o0) (o_len o0) (o_verts o0) (o_edges o0) (o_path o0) (o_interp o0) in
  match o_ss o with
  | None => (o, Ok false)
  | Some s =>
      match (do a <- state_from k s start; do b <- state_from k s goal; Ok (a, b)) with
      | Throw e => (o, Throw e)
      | UB => (o, UB)
      | Ok ends =>
          let o1 := with_ss o (SS (ss_low s) (ss_high s) (ss_checked s) (Some ends)) in
          let o2 :=
            match r_status r with
            | None => o1
            | Some st =>
                let good := st && fltb (r_time r) maxT in
                OMPL (o_ss o1) good (r_time r) (o_checks o1) (o_valid o1) (o_space o1) (o_numv o1) (o_nume o1)
                  (if good then r_found r else o_len o1) (o_verts o1) (o_edges o1) (o_path o1) (o_interp o1)
            end in
          match (match k with Planar => get_solution2 o2 r | _ => get_solution3 o2 r end) with
          | (o3, Ok _) => (o3, Ok true)
          | (o3, Throw e) => (o3, Throw e)
          | (o3, UB) => (o3, UB)
          end
      end
  end.

(** A history of calls; the user may go on after an exception. *)
Inductive call : Type :=
| Setup (lo hi : list f64)
| Plan (start goal : config) (maxT : f64) (r : reply).
(** None: undefined behaviour. *)
Definition do_call (k : kind) (o : ompl) (c : call) : option ompl :=
  match c with
  | Setup lo hi => match setup k lo hi o with (_, UB) => None | (o', _) => Some o' end
  | Plan s g t r => match plan k o s g t r with (_, UB) => None | (o', _) => Some o' end
  end.
Fixpoint run (k : kind) (o : ompl) (cs : list call) : option ompl :=
  match cs with [] => Some o | c :: rest => match do_call k o c with Some o' => run k o' rest | None => None end end.
End Plan.
