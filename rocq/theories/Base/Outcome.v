(** Outcomes of C++ code, and the two ways the code reads a [std::vector].

    [Ok a]    : the call returns [a].
    [Throw e] : a C++ exception leaves the call ([std::out_of_range] from
                [.at()], [std::invalid_argument] from the CSV reader ...).
    [UB]      : undefined behaviour ([operator[]] out of range, reading an
                indeterminate value, a size_t underflow used as a bound ...).
    The model never gives [UB] a convenient value: a theorem concluding [Ok _]
    therefore also says that no undefined behaviour happened. *)
From Coq Require Import List Arith Lia.
Import ListNotations.

Inductive exn : Type :=
| OutOfRange
| InvalidArgument
| OtherException.

Inductive outcome (A : Type) : Type :=
| Ok (a : A)
| Throw (e : exn)
| UB.
Arguments Ok {A} a.
Arguments Throw {A} e.
Arguments UB {A}.

Definition obind {A B} (m : outcome A) (f : A -> outcome B) : outcome B :=
  match m with
  | Ok a => f a
  | Throw e => Throw e
  | UB => UB
  end.

Declare Scope outcome_scope.
Delimit Scope outcome_scope with outcome.
Notation "'do' x <- m ; k" := (obind m (fun x => k))
  (at level 200, x pattern, m at level 100, k at level 200, right associativity)
  : outcome_scope.

(** [v.at(i)] (bounds-checked) and [v[i]] (unchecked). *)
Definition at_ {A} (l : list A) (i : nat) : outcome A :=
  match nth_error l i with Some a => Ok a | None => Throw OutOfRange end.
Definition idx {A} (l : list A) (i : nat) : outcome A :=
  match nth_error l i with Some a => Ok a | None => UB end.

(** [v.back()] / [v.front()] : undefined on an empty vector. *)
Definition front_ {A} (l : list A) : outcome A := idx l 0.
Definition back_ {A} (l : list A) : outcome A := idx l (length l - 1).

(** [v.at(i) = a], [v[i] = a]. *)
Fixpoint upd {A} (l : list A) (i : nat) (a : A) : option (list A) :=
  match l, i with
  | [], _ => None
  | _ :: t, 0 => Some (a :: t)
  | x :: t, S i => match upd t i a with Some t' => Some (x :: t') | None => None end
  end.
Definition set_at {A} (l : list A) (i : nat) (a : A) : outcome (list A) :=
  match upd l i a with Some l' => Ok l' | None => Throw OutOfRange end.
Definition set_idx {A} (l : list A) (i : nat) (a : A) : outcome (list A) :=
  match upd l i a with Some l' => Ok l' | None => UB end.

(** [for (x : l) body], threading a state, stopping at the first abnormal
    outcome. *)
Fixpoint ofold {A S} (f : S -> A -> outcome S) (l : list A) (s : S) : outcome S :=
  match l with
  | [] => Ok s
  | a :: t => obind (f s a) (fun s' => ofold f t s')
  end.

Fixpoint omap {A B} (f : A -> outcome B) (l : list A) : outcome (list B) :=
  match l with
  | [] => Ok []
  | a :: t => obind (f a) (fun b => obind (omap f t) (fun bs => Ok (b :: bs)))
  end.

(** -- basic facts -- *)

Lemma obind_Ok {A B} (m : outcome A) (f : A -> outcome B) b :
  obind m f = Ok b -> exists a, m = Ok a /\ f a = Ok b.
Proof. destruct m as [a| |]; simpl; intros H; try discriminate; eauto. Qed.

Lemma at_Ok {A} (l : list A) i a : at_ l i = Ok a <-> nth_error l i = Some a.
Proof. unfold at_; destruct (nth_error l i); split; congruence. Qed.

Lemma idx_Ok {A} (l : list A) i a : idx l i = Ok a <-> nth_error l i = Some a.
Proof. unfold idx; destruct (nth_error l i); split; congruence. Qed.

Lemma at_throw {A} (l : list A) i : length l <= i -> at_ l i = Throw OutOfRange.
Proof. intros H; unfold at_; apply nth_error_None in H; rewrite H; reflexivity. Qed.

Lemma idx_UB {A} (l : list A) i : length l <= i -> idx l i = UB.
Proof. intros H; unfold idx; apply nth_error_None in H; rewrite H; reflexivity. Qed.

Lemma idx_lt {A} (l : list A) i : i < length l -> exists a, idx l i = Ok a.
Proof.
  intros H; unfold idx. destruct (nth_error l i) eqn:E; eauto.
  apply nth_error_None in E; lia.
Qed.

Lemma at_lt {A} (l : list A) i : i < length l -> exists a, at_ l i = Ok a.
Proof.
  intros H; unfold at_. destruct (nth_error l i) eqn:E; eauto.
  apply nth_error_None in E; lia.
Qed.

Lemma upd_length {A} (l : list A) i a l' : upd l i a = Some l' -> length l' = length l.
Proof.
  revert i l'; induction l as [|x t IH]; intros [|i] l'; simpl; try discriminate.
  - intros [= <-]; reflexivity.
  - destruct (upd t i a) as [t'|] eqn:E; try discriminate. intros [= <-]; simpl.
    f_equal; eauto.
Qed.

Lemma upd_nth_error {A} (l : list A) i a l' : upd l i a = Some l' ->
  forall j, nth_error l' j = if Nat.eqb j i then Some a else nth_error l j.
Proof.
  revert i l'; induction l as [|x t IH]; intros [|i] l'; simpl; try discriminate.
  - intros [= <-] [|j]; reflexivity.
  - destruct (upd t i a) as [t'|] eqn:E; [|discriminate].
    intros [= <-] [|j]; simpl; [reflexivity|]. exact (IH i t' E j).
Qed.

Lemma upd_Some {A} (l : list A) i a : i < length l -> exists l', upd l i a = Some l'.
Proof.
  revert i; induction l as [|x t IH]; intros [|i]; simpl; intros H; try lia; eauto.
  destruct (IH i ltac:(lia)) as [t' ->]; eauto.
Qed.

Lemma upd_None {A} (l : list A) i a : length l <= i -> upd l i a = None.
Proof.
  revert i; induction l as [|x t IH]; intros [|i]; simpl; intros H; try lia; auto.
  rewrite IH by lia; reflexivity.
Qed.

Lemma ofold_app {A S} (f : S -> A -> outcome S) l1 l2 s :
  ofold f (l1 ++ l2) s = obind (ofold f l1 s) (ofold f l2).
Proof.
  revert s; induction l1 as [|a t IH]; intros s; simpl; auto.
  destruct (f s a); simpl; auto.
Qed.

Lemma omap_Ok {A B} (f : A -> outcome B) l bs :
  omap f l = Ok bs -> Forall2 (fun a b => f a = Ok b) l bs.
Proof.
  revert bs; induction l as [|a t IH]; simpl; intros bs H.
  - injection H as <-; constructor.
  - destruct (f a) as [b| |] eqn:E; simpl in H; try discriminate.
    destruct (omap f t) as [bs'| |] eqn:E'; simpl in H; try discriminate.
    injection H as <-; constructor; auto.
Qed.

Lemma omap_intro {A B} (f : A -> outcome B) l bs :
  Forall2 (fun a b => f a = Ok b) l bs -> omap f l = Ok bs.
Proof. induction 1 as [|a b l bs H _ IH]; simpl; [reflexivity|]. rewrite H; simpl; rewrite IH; reflexivity. Qed.
