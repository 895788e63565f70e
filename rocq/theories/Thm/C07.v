(** C07: element lookup. *)
From Coq Require Import Strings.String.
From Verif.Lib Require Import Prelude ListAux.
From Verif.Model Require Import Element Elements Segment List.
From Verif.Spec Require Import RankSpec QuerySpec HistorySpec AnswerSpec.
From Verif.Proof Require Import ListThm ResultP DropP ProgressP.
From Verif.Thm Require Import Sample.
Open Scope N_scope.

Theorem C07_lookup : forall merge split l m r sc1 sc2 ids radius,
  reachable merge split l m -> ranking_of (sin m) r -> Forall (fun v => v <= max_u64) ids ->
  let res := get_elements sc1 sc2 l ids radius in
  NoDup (map (fun re => e_id (re_elem re)) res) /\
  (forall x, In x (map re_elem res) <-> sin m x /\ In (e_id x) ids) /\
  Forall (fun re => true_rank r re /\ re_before re = None) res.
Proof. exact c07_lookup. Qed.
Print Assumptions C07_lookup.

(** "The returned elements are sorted by rank" (list.go:1210, 1224) does not hold:
    results arrive in the order in which segment readers finish. *)
Theorem C07_sorted_by_rank_refuted : exists merge split l m sc1 sc2 ids,
  reachable merge split l m /\ Forall (fun v => v <= max_u64) ids /\
  ~ ranked (map re_elem (get_elements sc1 sc2 l ids 0)).
Proof.
  exists 2%nat, 4%nat, l1, m1, [], [1%nat], [2; 8]. split; [exact l1_reach|]. split.
  - repeat constructor; discriminate.
  - apply not_ranked. vm_compute. reflexivity.
Qed.
Print Assumptions C07_sorted_by_rank_refuted.

(** Missing (99) and repeated (5) IDs. *)
Example C07_ex : reachable 2 4 l1 m1 /\
  map (fun re => (e_id (re_elem re), re_top re, re_bottom re)) (get_elements [] [] l1 [5; 99; 5; 1; 2] 0)
  = [(2, 0%Z, 11%Z); (5, 4%Z, 7%Z); (1, 11%Z, 0%Z)].
Proof. split; [exact l1_reach|vm_compute; reflexivity]. Qed.
