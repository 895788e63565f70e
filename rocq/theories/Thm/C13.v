(** C13: length. *)
From Coq Require Import Strings.String.
From Verif.Lib Require Import Prelude ListAux.
From Verif.Model Require Import Element Elements Segment List.
From Verif.Spec Require Import RankSpec QuerySpec HistorySpec AnswerSpec.
From Verif.Proof Require Import ListThm ResultP DropP ProgressP.
From Verif.Thm Require Import Sample.
Open Scope N_scope.

Theorem C13_len : forall merge split l m r, reachable merge split l m -> ranking_of (sin m) r ->
  len l = length r /\ length (indexed_in l) = length r /\ count (ss_segs (l_index l)) = length r.
Proof. exact c13_len. Qed.
Print Assumptions C13_len.

Example C13_ex : reachable 2 4 l2 m2 /\ len l2 = 8%nat /\ length (indexed_in l2) = 8%nat.
Proof. split; [exact l2_reach|vm_compute; auto]. Qed.
