(** C14: split and merge passes are invisible. *)
From Coq Require Import Strings.String.
From Verif.Lib Require Import Prelude ListAux.
From Verif.Model Require Import Element Elements Segment List.
From Verif.Spec Require Import RankSpec QuerySpec HistorySpec AnswerSpec.
From Verif.Proof Require Import ListThm ResultP DropP ProgressP.
From Verif.Thm Require Import Sample.
Open Scope N_scope.

Theorem C14_split_invisible : forall merge split l m mg now, reachable merge split l m -> tick now ->
  (exists l', split_pass mg now l = Done l' /\ stored_in l' = stored_in l /\ reachable merge split l' m /\
     forall r, ranking_of (sin m) r -> answers l r /\ answers l' r) \/
  (split_pass mg now l = Exhausted /\
   (2 ^ 32 < ss_next (l_scores l) + N.of_nat (length (ss_segs (l_scores l))) \/
    2 ^ 32 < ss_next (l_index l) + N.of_nat (length (ss_segs (l_index l))))).
Proof. exact c14_split. Qed.
Print Assumptions C14_split_invisible.

(** This pass really splits two score segments and an index segment. *)
Example C14_ex : reachable 2 4 l1 m1 /\ split_pass true 400 l1 = Done l3 /\
  map (fun s => map e_id (sg_elems s)) (ss_segs (l_scores l1)) = [[2; 3]; [11; 12; 5; 4; 6; 7]; [8; 9; 10; 1]] /\
  map (fun s => map e_id (sg_elems s)) (ss_segs (l_scores l3)) = [[2; 3]; [11; 12; 5]; [4; 6; 7]; [8; 9]; [10; 1]] /\
  map (fun s => map e_id (sg_elems s)) (ss_segs (l_index l3)) = [[12; 11; 10]; [9; 8]; [7; 6; 5]; [4; 3; 2]; [1]].
Proof. split; [exact l1_reach|]. vms. Qed.
(** and this one merges *)
Definition l5 : lst := Eval vm_compute in delete_elements 300 [] [] [3; 11; 12; 5; 4; 6; 7; 8; 9; 10] l1.
Example C14_ex_merge : exists l6, split_pass true 500 l5 = Done l6 /\
  map (fun s => map e_id (sg_elems s)) (ss_segs (l_scores l5)) = [[2]; []; [1]] /\
  map (fun s => map e_id (sg_elems s)) (ss_segs (l_scores l6)) = [[2]; [1]] /\
  map (fun s => map e_id (sg_elems s)) (ss_segs (l_index l6)) = [[]; [2]; [1]].
Proof. eexists. vms. Qed.
