(** C09: windows from the top. *)
From Coq Require Import Strings.String.
From Verif.Lib Require Import Prelude ListAux.
From Verif.Model Require Import Element Elements Segment List.
From Verif.Spec Require Import RankSpec QuerySpec HistorySpec AnswerSpec.
From Verif.Proof Require Import ListThm ResultP DropP ProgressP.
From Verif.Thm Require Import Sample.
Open Scope N_scope.

Theorem C09_rank_top : forall merge split l m r offset n,
  reachable merge split l m -> ranking_of (sin m) r ->
  get_rank_top l offset n = if Nat.ltb offset (length r) then Some (firstn n (skipn offset r)) else None.
Proof. intros. apply a_top. eapply reach_answers; eauto. Qed.
Print Assumptions C09_rank_top.

Example C09_ex : reachable 2 4 l1 m1 /\ option_map (map e_id) (get_rank_top l1 1 8) = Some [3; 11; 12; 5; 4; 6; 7; 8] /\
  get_rank_top l1 12 1 = None.
Proof. split; [exact l1_reach|vm_compute; auto]. Qed.
