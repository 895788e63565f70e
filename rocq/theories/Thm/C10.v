(** C10: windows from the bottom. *)
From Coq Require Import Strings.String.
From Verif.Lib Require Import Prelude ListAux.
From Verif.Model Require Import Element Elements Segment List.
From Verif.Spec Require Import RankSpec QuerySpec HistorySpec AnswerSpec.
From Verif.Proof Require Import ListThm ResultP DropP ProgressP.
From Verif.Thm Require Import Sample.
Open Scope N_scope.

Theorem C10_rank_bottom : forall merge split l m r offset n,
  reachable merge split l m -> ranking_of (sin m) r ->
  get_rank_bottom l offset n =
    if Nat.ltb offset (length r) then Some (firstn n (skipn (length r - 1 - offset) r)) else None.
Proof. intros. apply a_bottom. eapply reach_answers; eauto. Qed.
Print Assumptions C10_rank_bottom.

Example C10_ex : reachable 2 4 l1 m1 /\ option_map (map e_id) (get_rank_bottom l1 5 3) = Some [6; 7; 8] /\
  get_rank_bottom l1 12 1 = None.
Proof. split; [exact l1_reach|vm_compute; auto]. Qed.
