(** C16: reachable lists verify. *)
From Coq Require Import Strings.String.
From Verif.Lib Require Import Prelude ListAux.
From Verif.Model Require Import Element Elements Segment List.
From Verif.Spec Require Import RankSpec QuerySpec HistorySpec AnswerSpec.
From Verif.Proof Require Import ListThm ResultP DropP ProgressP.
From Verif.Thm Require Import Sample.
Open Scope N_scope.

Theorem C16_verify : forall merge split l m, reachable merge split l m -> verify l = true /\ verify_elements l = true.
Proof. exact c16_verify. Qed.
Print Assumptions C16_verify.

Example C16_ex : reachable 2 4 l3 m1 /\ (verify l3, verify_elements l3) = (true, true).
Proof. split; [exact l3_reach|vm_compute; reflexivity]. Qed.
(** Verification does fail, e.g. with two elements swapped. *)
Example C16_ex_bad :
  verify_elements (set_both l1 (set_segs (l_scores l1) (map (set_elems (@rev _)) (ss_segs (l_scores l1)))) (l_index l1)) = false.
Proof. vm_compute. reflexivity. Qed.
