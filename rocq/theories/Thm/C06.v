(** C06: list contents are a last-writer-wins map. *)
From Coq Require Import Strings.String.
From Verif.Lib Require Import Prelude ListAux.
From Verif.Model Require Import Element Elements Segment List.
From Verif.Spec Require Import RankSpec QuerySpec HistorySpec AnswerSpec.
From Verif.Proof Require Import ListThm ResultP DropP ProgressP.
From Verif.Thm Require Import Sample.
Open Scope N_scope.

(** One call on any reachable list: it succeeds and the list is the ranking of the
    updated map.  Only a split pass can fail, and only when the 32 bit segment
    numbers run out. *)
Theorem C06_step : forall merge split l m o, reachable merge split l m -> op_ok merge split m o ->
  (exists l', step l o = Done l' /\ reachable merge split l' (spec_step m o) /\
              ranking_of (sin (spec_step m o)) (stored_in l')) \/
  (step l o = Exhausted /\ (exists mg now, o = OSplit mg now) /\
   (2 ^ 32 < ss_next (l_scores l) + N.of_nat (length (ss_segs (l_scores l))) \/
    2 ^ 32 < ss_next (l_index l) + N.of_nat (length (ss_segs (l_index l))))).
Proof. exact c06_step. Qed.
Print Assumptions C06_step.

(** Any history. *)
Theorem C06_history : forall merge split l m ops, reachable merge split l m -> ops_ok merge split m ops ->
  (exists l', run l ops = Done l' /\ reachable merge split l' (spec_run m ops) /\
              ranking_of (sin (spec_run m ops)) (stored_in l')) \/ run l ops = Exhausted.
Proof. exact c06_run. Qed.
Print Assumptions C06_history.

(** A reachable list holds exactly the map it stands for, in ranking order. *)
Theorem C06_contents : forall merge split l m, reachable merge split l m -> ranking_of (sin m) (stored_in l).
Proof. exact reach_ranking. Qed.
Print Assumptions C06_contents.

Example C06_ex : reachable 2 4 l2 m2 /\ map e_id (stored_in l2) = [2; 3; 11; 12; 5; 4; 6; 7] /\
  m2 1 = None /\ m2 5 = Some (mkE 50 5 [] 1 150) /\ m2 11 = Some (mkE 60 11 [] 0 200) /\
  ops_ok 2 4 m0 [up1; del2].
Proof.
  split; [exact l2_reach|]. do 4 (split; [vm_compute; reflexivity|]).
  split; [exact up1_ok|]. split; [exact del2_ok|exact I].
Qed.
