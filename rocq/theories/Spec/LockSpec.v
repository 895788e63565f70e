(** What calls running at the same time on one list may do. *)
From Coq Require Import Sorting.Permutation.
From Verif.Lib Require Import Prelude ListAux.
From Verif.Model Require Import Element Elements Segment List Locks.
Open Scope nat_scope.

(** a state that the calls can get into *)
Definition reaches (l : lst) (xs : list call) (c : conf) : Prop := exists s, moves (start l xs) s = Some c.

Definition can_move (c : conf) : Prop := exists t g p c', move c t g p = Some c'.
(** some call has not returned and no call ever gets any further *)
Definition deadlock (c : conf) : Prop := ~ finished c /\ forall t g p, move c t g p = None.

(** some call is about to carry out an operation that does not return *)
Definition broken (c : conf) : Prop :=
  exists t th o r, nth_error (c_threads c) t = Some th /\ t_prog th = Work o :: r /\
                   forall l', step (c_cur c) o <> Done l'.

(** the operation of a call *)
Definition op_of (x : call) : list op :=
  match x with
  | CModify _ o _ | CPopulate o => [o]
  | CRelease => [OReload]
  | _ => []
  end.
(** the operations carried out so far, in order; those of thread [t] *)
Definition done_ops (c : conf) : list op := map snd (c_log c).
Definition ops_by (t : nat) (c : conf) : list op :=
  map snd (filter (fun e => fst e =? t) (c_log c)).

(** calls that take segment locks one at a time or under the update lock *)
Definition plain_call (x : call) : Prop :=
  match x with CRead _ _ | CModify _ _ _ | CPopulate _ | CRelease | CLocked _ _ => True | _ => False end.
(** calls that only read, on segments that are in memory *)
Definition read_call (x : call) : Prop :=
  match x with
  | CRead cold _ | CAround cold _ _ _ _ | CScore cold _ _ | CStats cold _ => cold = false
  | _ => False
  end.
Definition holding (k : lock) (w : bool) (t : nat) (c : conf) : Prop :=
  exists th, nth_error (c_threads c) t = Some th /\ In (k, w) (t_held th).

(** carried out in any order, the operations return *)
Definition never_fails (l : lst) (ops : list op) : Prop :=
  forall log o rest cur, Permutation (log ++ o :: rest) ops -> run l log = Done cur -> exists l', step cur o = Done l'.
(** nobody uses the segments of the list *)
Definition unused (c : conf) : Prop := forall t w, ~ holding LSegs w t c.
