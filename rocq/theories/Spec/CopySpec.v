(** A copy of a list that other calls use meanwhile. *)
From Verif.Lib Require Import Prelude ListAux.
From Verif.Model Require Import Element Elements Segment List Locks.
From Verif.Spec Require Import LockSpec.
Open Scope nat_scope.

(** what [th] read is what [ks] hold in [l'] *)
Definition reads_as (th : thread) (ks : list (bool * nat)) (l' : lst) : Prop :=
  map (fun e : nat * (bool * nat) * option seg => (snd (fst e), snd e)) (t_got th) = map (fun k : bool * nat => (k, nth_error (ss_segs (if fst k then l_index l' else l_scores l')) (snd k))) ks.
(** [l'] is the list after the first [n] of the operations that were carried out *)
Definition moment (l : lst) (c : conf) (n : nat) (l' : lst) : Prop := n <= length (done_ops c) /\ run l (firstn n (done_ops c)) = Done l'.
(** the call changes some elements and lets others read meanwhile *)
Definition changes_elements (x : call) : Prop := match x with CModify _ o _ => shared o = true | _ => False end.
