(** C20: delete. *)
From Coq Require Import Strings.String.
From Verif.Lib Require Import Prelude ListAux.
From Verif.Model Require Import Element Elements Segment List.
From Verif.Spec Require Import RankSpec QuerySpec HistorySpec AnswerSpec.
From Verif.Proof Require Import ListThm ResultP DropP ProgressP.
From Verif.Thm Require Import Sample.
Open Scope N_scope.

Theorem C20_delete : forall merge split l m r now sc1 sc2 ids, reachable merge split l m -> ranking_of (sin m) r ->
  Forall (fun v => v <= max_u64) ids -> tick now ->
  let l' := delete_elements now sc1 sc2 ids l in
  let r' := filter (fun e => negb (existsb (N.eqb (e_id e)) ids)) r in
  reachable merge split l' (sdel m ids) /\ stored_in l' = r' /\ answers l' r' /\
  verify l' = true /\ verify_elements l' = true.
Proof. exact c20_delete. Qed.
Print Assumptions C20_delete.

Example C20_ex : reachable 2 4 l1 m1 /\
  map e_id (stored_in l1) = [2; 3; 11; 12; 5; 4; 6; 7; 8; 9; 10; 1] /\
  map e_id (stored_in (delete_elements 300 [1%nat] [] [5; 77; 5; 1] l1)) = [2; 3; 11; 12; 4; 6; 7; 8; 9; 10].
Proof. split; [exact l1_reach|]. split; vm_compute; reflexivity. Qed.
