(** C08: neighbours. *)
From Coq Require Import Strings.String.
From Verif.Lib Require Import Prelude ListAux.
From Verif.Model Require Import Element Elements Segment List.
From Verif.Spec Require Import RankSpec QuerySpec HistorySpec AnswerSpec.
From Verif.Proof Require Import ListThm ResultP DropP ProgressP.
From Verif.Thm Require Import Sample.
Open Scope N_scope.

Theorem C08_neighbours : forall merge split l m r sc1 sc2 ids radius,
  reachable merge split l m -> ranking_of (sin m) r -> Forall (fun v => v <= max_u64) ids ->
  Forall (fun re => exists i, nth_error r i = Some (re_elem re) /\
            re_below re = firstn radius (skipn (S i) r) /\ re_above re = firstn radius (rev (firstn i r)))
         (get_elements sc1 sc2 l ids radius).
Proof. exact c08_neighbours. Qed.
Print Assumptions C08_neighbours.

(** rankedelement.go:20-21 says Above "ends with element just above current". *)
Theorem C08_above_order_refuted : exists merge split l m r re i,
  reachable merge split l m /\ ranking_of (sin m) r /\ In re (get_elements [] [] l [7] 3) /\
  nth_error r i = Some (re_elem re) /\ (3 <= i)%nat /\ re_above re <> skipn (i - 3) (firstn i r).
Proof.
  exists 2%nat, 4%nat, l1, m1, (stored_in l1), (hd (mkRE (mkE 0 0 [] 0 0) 0 0 [] [] None) (get_elements [] [] l1 [7] 3)), 7%nat.
  split; [exact l1_reach|]. split; [exact (reach_ranking _ _ _ _ l1_reach)|].
  split; [vm_compute; left; reflexivity|]. split; [vm_compute; reflexivity|]. split; [lia|].
  vm_compute. discriminate.
Qed.
Print Assumptions C08_above_order_refuted.

(** Across segment boundaries: 8 is first of its segment, 2 the top of the list. *)
Example C08_ex : reachable 2 4 l1 m1 /\
  map (fun re => (e_id (re_elem re), map e_id (re_above re), map e_id (re_below re))) (get_elements [] [] l1 [8; 2] 3)
  = [(2, [], [3; 11; 12]); (8, [7; 6; 4], [9; 10; 1])].
Proof. split; [exact l1_reach|vm_compute; reflexivity]. Qed.
