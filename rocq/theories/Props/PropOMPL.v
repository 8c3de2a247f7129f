(** C77-C79, C83: the interface to OMPL's planners. *)
From Coq Require Import List Bool Arith Lia Reals.
From Verif.Base Require Import Outcome Float64 FloatFacts.
From Verif.Model Require Import MOMPL.
From Verif.Spec Require Import SOMPL.
From Verif.Proofs Require Import POMPL POMPLX.
Import ListNotations.
Local Opaque fval fofZ.

(** A concrete object: unit bounds, a set-up call, two solved calls with a path of two states and
    five valid motions. *)
Definition z3 : config := [fzero; fzero; fzero].
Definition z7 : config := [fzero; fzero; fzero; fone; fzero; fzero; fzero].
Definition lows : list f64 := [fzero; fzero; fzero].
Definition highs : list f64 := [fone; fone; fone].
Definition out3 : config := [ftwo; fneg fone; fzero].
Definition reply_with (p vs : list config) : reply := Reply (Some true) fzero 2 (Some p) p vs [[1%nat]] 1 5 5 fone.
Lemma good_unit k : good_bounds k lows highs.
Proof.
  assert (B : fleb fone fzero = false) by (vm_compute; reflexivity).
  intros i H. exists fzero, fone. assert (i < 3)%nat by (destruct k; cbn in H; lia). destruct i as [|[|[|i]]]; [..|lia]; (split; [reflexivity|split; [reflexivity|exact B]]).
Qed.
Lemma in_time : fltb fzero fone = true.
Proof. vm_compute. reflexivity. Qed.
Definition same {A} (x : A) : A := x.
Definition first (k : kind) : ompl := match new_ompl k lows highs with Ok o => o | _ => OMPL None false fzero 0 0 fzero 0 0 0 [] [] [] [] end.
Definition two_plans (z : config) (p vs ws : list config) : list call :=
  [Setup lows highs; Plan z z fone (reply_with p vs); Plan z z fone (reply_with p ws)].
(** The run is not undefined, and its results as numbers. *)
Definition summary (o : option ompl) : option (bool * nat * nat * nat * nat * nat * nat) :=
  option_map (fun o => (o_solved o, length (o_path o), length (o_interp o), o_len o, length (o_verts o), length (o_edges o), o_numv o)) o.
Example C77_example_planar : summary (run same same Planar (first Planar) (two_plans z3 [z3; z3] [z3; z3] [z3; z3; z3; z3; z3; z3])) = Some (true, 4%nat, 0%nat, 2%nat, 5%nat, 1%nat, 6%nat).
Proof. vm_compute. reflexivity. Qed.
Example C77_example_spatial : summary (run same same Spatial (first Spatial) (two_plans z7 [z7; z7] [z7; z7] [z7; z7; z7])) = Some (true, 4%nat, 4%nat, 2%nat, 3%nat, 1%nat, 3%nat).
Proof. vm_compute. reflexivity. Qed.
Example C77_example_ready : is_ready Planar [Setup lows highs] /\ ~ is_ready Planar [] /\ is_ready (Articulated 2) [].
Proof.
  split; [right; exists lows, highs; split; [left; reflexivity|apply good_unit]|]. split; [intros [[]|(a & b & [] & _)]|left; exact I].
Qed.

(** ---- C77: what plan returns ---- *)
Theorem C77_plan_result wy wq k lo hi o0 cs o s g t r o' b :
  new_ompl k lo hi = Ok o0 -> run wy wq k o0 cs = Some o -> plan wy wq k o s g t r = (o', Ok b) ->
  (b = true <-> is_ready k cs) /\ (o_solved o' = true <-> b = true /\ reported t r).
Proof. intros N. exact (plan_result wy wq k lo hi o0 N cs o s g t r o' b). Qed.
Print Assumptions C77_plan_result.

(** Configurations that are too short, and only those, are refused with out_of_range; the object
    then says unsolved and keeps its results. *)
Theorem C77_short_vectors wy wq k lo hi o0 cs o s g t r :
  new_ompl k lo hi = Ok o0 -> run wy wq k o0 cs = Some o -> is_ready k cs ->
  ((length s < entries k)%nat \/ (length g < entries k)%nat <-> exists o', plan wy wq k o s g t r = (o', Throw OutOfRange)) /\
  (forall o', plan wy wq k o s g t r = (o', Throw OutOfRange) -> o_solved o' = false /\ o_path o' = o_path o /\ o_verts o' = o_verts o).
Proof. intros N. exact (short_vectors wy wq k lo hi o0 N cs o s g t r). Qed.
Print Assumptions C77_short_vectors.

(** "plan returns true only if a path was found" fails for every object and query. *)
Theorem C77_true_means_solved_refuted wy wq k lo hi o0 cs o s g t :
  new_ompl k lo hi = Ok o0 -> run wy wq k o0 cs = Some o -> is_ready k cs -> long_enough k s g ->
  exists r o', plan wy wq k o s g t r = (o', Ok true) /\ o_solved o' = false.
Proof. intros N. exact (true_unsolved wy wq k lo hi o0 N cs o s g t). Qed.
Print Assumptions C77_true_means_solved_refuted.

(** ---- C78: the stored paths ---- *)
Theorem C78_paths_accumulate wy wq k lo hi o0 cs o :
  new_ompl k lo hi = Ok o0 -> run wy wq k o0 cs = Some o ->
  exists l, contributions k cs l /\ (forall l', contributions k cs l' -> l' = l) /\
    o_path o = flat_map (path_of k) l /\ o_interp o = flat_map (interp_of k) l.
Proof. intros N. exact (paths_accumulate wy wq k lo hi o0 N cs o). Qed.
Print Assumptions C78_paths_accumulate.

(** The planar interpolated path is never filled. *)
Theorem C78_planar_interpolated_empty wy wq lo hi o0 cs o :
  new_ompl Planar lo hi = Ok o0 -> run wy wq Planar o0 cs = Some o -> o_interp o = [].
Proof.
  intros N R. destruct (paths_accumulate wy wq Planar lo hi o0 N cs o R) as (l & _ & _ & _ & E). rewrite E. clear. induction l as [|r l IH]; [reflexivity|exact IH].
Qed.
Print Assumptions C78_planar_interpolated_empty.

(** The reported length: of the simplified path in the plane, of the path before simplification in
    space, and of an earlier path if the call was not solved. *)
Theorem C78_path_length wy wq k lo hi o0 cs o s g t r o' b :
  new_ompl k lo hi = Ok o0 -> run wy wq k o0 cs = Some o -> plan wy wq k o s g t r = (o', Ok b) ->
  o_len o' = (if o_solved o' then (match k with Planar => length (states_of r) | _ => r_found r end) else o_len o).
Proof. intros N. exact (path_length wy wq k lo hi o0 N cs o s g t r o' b). Qed.
Print Assumptions C78_path_length.

(** "the stored path is the one of the last call" fails whenever two calls were solved. *)
Theorem C78_latest_path_refuted wy wq k lo hi o0 s g t r r' o :
  new_ompl k lo hi = Ok o0 -> good_bounds k lo hi -> long_enough k s g -> reported t r -> reported t r' ->
  r_simple r <> None -> r_simple r' <> None -> path_of k r <> [] ->
  run wy wq k o0 [Setup lo hi; Plan s g t r; Plan s g t r'] = Some o -> o_path o <> path_of k r'.
Proof. intros N. exact (two_calls wy wq k lo hi o0 N s g t r r' o). Qed.
Print Assumptions C78_latest_path_refuted.

(** ---- C79: the roadmap read back ---- *)
Theorem C79_planar_readout wy wq lo hi o0 cs o n s g t r :
  new_ompl Planar lo hi = Ok o0 -> run wy wq Planar o0 cs = Some o -> motions Planar cs n -> is_ready Planar cs -> long_enough Planar s g ->
  (reported t r -> r_simple r <> None) ->
  ((length (r_verts r) < n)%nat -> exists o', plan wy wq Planar o s g t r = (o', UB)) /\
  ((n <= length (r_verts r))%nat -> exists o', plan wy wq Planar o s g t r = (o', Ok true) /\ o_verts o' = firstn n (r_verts r) /\
     o_numv o' = length (r_verts r) /\ o_nume o' = r_nume r /\
     forall i j, In (i, j) (o_edges o') <-> (i < n)%nat /\ data_edge r i j).
Proof. intros N. exact (planar_readout wy wq Planar lo hi o0 N cs o n s g t r eq_refl). Qed.
Print Assumptions C79_planar_readout.

(** "the vertices read back after the first call are those of the roadmap": none is. *)
Theorem C79_first_readout_refuted wy wq lo hi o0 o s g t r :
  new_ompl Planar lo hi = Ok o0 -> good_bounds Planar lo hi -> run wy wq Planar o0 [Setup lo hi] = Some o -> long_enough Planar s g ->
  (reported t r -> r_simple r <> None) ->
  exists o', plan wy wq Planar o s g t r = (o', Ok true) /\ o_verts o' = [] /\ o_edges o' = [] /\ o_numv o' = length (r_verts r).
Proof.
  intros N G R L S. assert (M : motions Planar ([] ++ [Setup lo hi]) 0) by (constructor; constructor).
  destruct (planar_readout wy wq Planar lo hi o0 N [Setup lo hi] o 0 s g t r eq_refl R M) as [_ H]; [right; exists lo, hi; split; [left; reflexivity|exact G]|exact L|exact S|].
  destruct (H ltac:(lia)) as (o' & E & A & B & _ & D). exists o'. split; [exact E|]. split; [exact A|]. split; [|exact B].
  destruct (o_edges o') as [|[i j] l]; [reflexivity|]. destruct (proj1 (D i j) (or_introl eq_refl)) as [H0 _]. lia.
Qed.
Print Assumptions C79_first_readout_refuted.
(** The second call reads five of the six vertices, or is undefined. *)
Example C79_example_ub : run same same Planar (first Planar) (two_plans z3 [z3; z3] [z3; z3] [z3; z3; z3; z3]) = None.
Proof. vm_compute. reflexivity. Qed.
Theorem C79_spatial_readout wy wq k lo hi o0 cs o s g t r :
  k <> Planar -> new_ompl k lo hi = Ok o0 -> run wy wq k o0 cs = Some o -> is_ready k cs -> long_enough k s g ->
  exists o', plan wy wq k o s g t r = (o', Ok true) /\ o_verts o' = r_verts r /\ o_numv o' = length (r_verts r) /\ o_nume o' = r_nume r /\
     forall i j, In (i, j) (o_edges o') <-> (i < length (r_verts r))%nat /\ data_edge r i j.
Proof. intros K N. exact (spatial_readout wy wq k lo hi o0 N cs o s g t r K). Qed.
Print Assumptions C79_spatial_readout.

(** ---- C83: the query OMPL is given ---- *)
Theorem C83_query_pulled wy wq k lo hi o0 cs o s g t r o' b :
  new_ompl k lo hi = Ok o0 -> run wy wq k o0 cs = Some o -> plan wy wq k o s g t r = (o', Ok b) -> b = true ->
  exists lows highs ss a e, bounds_of k lo hi cs lows highs /\ o_ss o' = Some ss /\ ss_ends ss = Some (a, e) /\
    (forall i, (i < dims k)%nat -> exists l h x y ax ey, nth_error lows i = Some l /\ nth_error highs i = Some h /\ nth_error s i = Some x /\ nth_error g i = Some y /\
       nth_error a i = Some ax /\ nth_error e i = Some ey /\ pulled l h x ax /\ pulled l h y ey).
Proof. intros N. exact (ends_pulled wy wq k lo hi o0 N cs o s g t r o' b). Qed.
Print Assumptions C83_query_pulled.

(** Joint values beyond the quarter turn are pulled back as well. *)
Theorem C83_joints_pulled wy wq n s v c j x :
  state_from wy wq (Articulated n) s v = Ok c -> (j < n)%nat -> nth_error v (7 + j) = Some x ->
  exists y, nth_error c (length c - n + j) = Some y /\ pulled (fneg cHALF_PI) cHALF_PI x y.
Proof.
  intros E J X. destruct (joints_clamped wy wq n s v c j x E J X) as (hd & _ & L & H). exists (clamp (fneg cHALF_PI) cHALF_PI x). split.
  - rewrite L. replace (length hd + n - n)%nat with (length hd) by lia. exact H.
  - apply clamp_pulled. vm_compute. reflexivity.
Qed.
Print Assumptions C83_joints_pulled.

(** "plan answers for the given start" : a start outside the bounds is replaced without a message. *)
Definition given_start (o : option ompl) (z : config) : option (list bool) :=
  match o with Some o => match o_ss o with Some ss => match ss_ends ss with Some (a, _) => Some (map (fun xy => fsame (fst xy) (snd xy)) (combine a z)) | None => None end | None => None end | None => None end.
Theorem C83_given_start_refuted :
  exists o o', run same same Planar (first Planar) [Setup lows highs] = Some o /\ plan same same Planar o out3 z3 fone (reply_with [z3; z3] [z3]) = (o', Ok true) /\
    o_solved o' = true /\ given_start (Some o') out3 = Some [false; false; true] /\ given_start (Some o') [fone; fzero; fzero] = Some [true; true; true].
Proof.
  destruct (run same same Planar (first Planar) [Setup lows highs]) as [o|] eqn:E; [|apply (f_equal summary) in E; vm_compute in E; discriminate E].
  exists o. assert (N : new_ompl Planar lows highs = Ok (first Planar)) by reflexivity.
  assert (L : long_enough Planar out3 z3) by (split; cbn; lia).
  destruct (C79_first_readout_refuted same same lows highs (first Planar) o out3 z3 fone (reply_with [z3; z3] [z3]) N (good_unit Planar) E L ltac:(intros _; discriminate)) as (o' & P & _).
  exists o'. split; [reflexivity|]. split; [exact P|]. split; [apply (proj2 (C77_plan_result same same Planar lows highs (first Planar) _ o out3 z3 fone _ o' true N E P)); split; [reflexivity|split; [reflexivity|exact in_time]]|].
  assert (RUN : run same same Planar (first Planar) [Setup lows highs; Plan out3 z3 fone (reply_with [z3; z3] [z3])] = Some o').
  { change [Setup lows highs; Plan out3 z3 fone (reply_with [z3; z3] [z3])] with ([Setup lows highs] ++ [Plan out3 z3 fone (reply_with [z3; z3] [z3])]). rewrite run_snoc, E. cbn [do_call]. rewrite P. reflexivity. }
  rewrite <- RUN. split; vm_compute; reflexivity.
Qed.
Print Assumptions C83_given_start_refuted.

(** An articulated object plans before setup, and no state is checked. *)
Theorem C83_unchecked_before_setup wy wq k lo hi o0 cs o :
  new_ompl k lo hi = Ok o0 -> run wy wq k o0 cs = Some o -> articulated k -> ~ set_up k cs ->
  (exists ss, o_ss o = Some ss /\ ss_checked ss = false) /\ forall s g t r, long_enough k s g -> exists o', plan wy wq k o s g t r = (o', Ok true).
Proof. intros N. exact (unchecked wy wq k lo hi o0 N cs o). Qed.
Print Assumptions C83_unchecked_before_setup.
Theorem C83_checked_after_setup wy wq k lo hi o0 cs o :
  new_ompl k lo hi = Ok o0 -> run wy wq k o0 cs = Some o -> set_up k cs -> exists ss, o_ss o = Some ss /\ ss_checked ss = true.
Proof. intros N. exact (checked wy wq k lo hi o0 N cs o). Qed.
Print Assumptions C83_checked_after_setup.
Example C83_example_articulated : exists o, new_ompl (Articulated 2) lows highs = Ok o /\ ~ set_up (Articulated 2) [].
Proof.
  destruct (new_ompl (Articulated 2) lows highs) as [o| |] eqn:E.
  - exists o. split; [reflexivity|]. intros (a & b & [] & _).
  - assert (X : (match new_ompl (Articulated 2) lows highs with Ok _ => true | _ => false end) = true) by (vm_compute; reflexivity). rewrite E in X. discriminate X.
  - assert (X : (match new_ompl (Articulated 2) lows highs with Ok _ => true | _ => false end) = true) by (vm_compute; reflexivity). rewrite E in X. discriminate X.
Qed.
