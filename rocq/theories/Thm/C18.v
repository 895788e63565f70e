(** C18: reindex. *)
From Coq Require Import Strings.String.
From Verif.Lib Require Import Prelude ListAux.
From Verif.Model Require Import Element Elements Segment List.
From Verif.Spec Require Import RankSpec QuerySpec HistorySpec AnswerSpec.
From Verif.Proof Require Import ListThm ResultP DropP ProgressP.
From Verif.Thm Require Import Sample.
Open Scope N_scope.

(** [l1] is [l] with an arbitrary index. *)
Theorem C18_reindex : forall merge split l m ni now sc l1, reachable merge split l m ->
  l_scores l1 = l_scores l -> l_merge l1 = merge -> l_split l1 = split ->
  op_ok merge split m (OReindex ni now sc) ->
  exists l', reindex_list ni now sc l1 = Done l' /\ reachable merge split l' m /\ l_scores l' = l_scores l1 /\
    verify l' = true /\ verify_elements l' = true /\ forall r, ranking_of (sin m) r -> answers l' r.
Proof. exact c18_reindex. Qed.
Print Assumptions C18_reindex.

(** Rebuilding an index that lost everything. *)
Definition lost : lst := mkL 2 4 "S" "I" (l_scores l1) (empty_segs "I" 1 true false).
Example C18_ex : verify_elements lost = false /\ get_elements [] [] lost [5] 0 = [] /\
  exists l', reindex_list "J" 500 [] lost = Done l' /\ verify l' = true /\ verify_elements l' = true /\
    map (fun re => e_id (re_elem re)) (get_elements [] [] l' [5] 0) = [5].
Proof. split; [vm_compute; reflexivity|]. split; [vm_compute; reflexivity|]. eexists. vms. Qed.
Example C18_ex_ok : op_ok 2 4 m1 (OReindex "J" 500 []).
Proof.
  repeat split; try discriminate; try lia; try reflexivity. intros r Hr.
  rewrite <- (reach_stored _ _ _ _ _ l1_reach Hr). vm_compute. reflexivity.
Qed.
