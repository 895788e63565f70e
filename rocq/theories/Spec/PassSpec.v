(** What a split pass whose writes fail leaves. *)
From Verif.Lib Require Import Prelude.
From Verif.Model Require Import Element Elements Segment List Fails PassFail.
From Verif.Spec Require Import HistorySpec.
Open Scope N_scope.

(** the write that ended a loop *)
Definition ended_by (fa fb : nat -> fate) (w : wstop) : fate :=
  match w with WAll => Kept | WMerge i | WSplit i false _ _ => fa i | WSplit i true _ _ => fb i end.
(** do readers miss the elements that the step was about to move: a merge hides them unless the write was done after all and the
    segment it replaced is not cached; a split hides them if what the old segment shows is no longer all of it *)
Definition misses (h : bool) (f : fate) (w : wstop) : bool :=
  match w, f with
  | WMerge _, Refused => true
  | WMerge _, Unsure => h
  | WSplit _ false _ _, Unsure => negb h
  | WSplit _ true _ _, Refused => true
  | _, _ => false
  end.
(** segments that readers wait for, and segments whose read fails *)
Definition locked_at (w : wstop) : list nat := match w with WSplit _ _ lk _ => lk | _ => [] end.
Definition missing_at (w : wstop) : list nat := match w with WSplit _ _ _ ms => ms | _ => [] end.
(** the elements that a call is given, as it stores them *)
Definition given (o : op) : list element :=
  match o with
  | OUpdate clk _ _ _ e => map (stamp clk) e
  | OInsert _ _ e | OPopulate _ _ _ _ _ _ e => e
  | _ => []
  end.
Definition all_kept (f : pass_fates) : Prop :=
  (forall i, p_sa f i = Kept /\ p_sb f i = Kept /\ p_upd f i = Kept /\ p_xa f i = Kept /\ p_xb f i = Kept) /\ p_ms f = Kept /\ p_mx f = Kept.
