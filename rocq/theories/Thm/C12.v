(** C12: percentile queries. *)
From Coq Require Import Strings.String.
From Verif.Lib Require Import Prelude ListAux.
From Verif.Model Require Import Element Elements Segment List.
From Verif.Spec Require Import RankSpec QuerySpec HistorySpec AnswerSpec.
From Verif.Proof Require Import ListThm ResultP DropP ProgressP.
From Verif.Thm Require Import Sample.
Open Scope N_scope.

(** p = m/2^k; every float64 below 1 is at most 1 - 2^-53. *)
Theorem C12_percentile : forall merge split l m r p k radius,
  reachable merge split l m -> ranking_of (sin m) r -> r <> [] -> p * 2 ^ 53 <= (2 ^ 53 - 1) * 2 ^ k ->
  exists i re, get_percentile l p k radius = Done (Some re) /\ pct_pos (N.of_nat (length r)) p k i /\
    re_top re = Z.of_N i /\ true_rank r re /\ true_neighbours r radius re.
Proof. intros * HR Hr Hn Hp. exact (a_pct l r (reach_answers _ _ _ _ _ HR Hr) p k radius Hn Hp). Qed.
Print Assumptions C12_percentile.

(** p = 1: the last element, or a panic when the last segment is empty. *)
Theorem C12_percentile_one : forall merge split l m r k radius,
  reachable merge split l m -> ranking_of (sin m) r -> N.of_nat (length r) < 2 ^ 64 ->
  let low := last (ss_segs (l_scores l)) max_segment in
  (sg_elems low = [] -> get_percentile l (2 ^ k) k radius = Panic) /\
  (sg_elems low <> [] -> exists re, get_percentile l (2 ^ k) k radius = Done (Some re) /\
     re_bottom re = 0%Z /\ true_rank r re /\ true_neighbours r radius re).
Proof. exact c12_one. Qed.
Print Assumptions C12_percentile_one.

Theorem C12_empty_panics : forall merge split l m k p radius,
  reachable merge split l m -> (forall x, ~ sin m x) -> get_percentile l p k radius = Panic.
Proof. exact c12_empty. Qed.
Print Assumptions C12_empty_panics.

(** The panic at p = 1 occurs on a non-empty list. *)
Theorem C12_one_refuted : exists merge split l m,
  reachable merge split l m /\ stored_in l <> [] /\ get_percentile l 1 0 0 = Panic.
Proof.
  exists 2%nat, 4%nat, l2, m2. split; [exact l2_reach|]. split; [vm_compute; discriminate|vm_compute; reflexivity].
Qed.
Print Assumptions C12_one_refuted.

(** 3/4 of 12 elements is position 9. *)
Example C12_ex : reachable 2 4 l1 m1 /\ 3 * 2 ^ 53 <= (2 ^ 53 - 1) * 2 ^ 2 /\
  get_percentile l1 3 2 1 =
    Done (Some (mkRE (mkE 20 9 [] 0 100) 9 2 [mkE 30 8 [] 0 100] [mkE 5 10 [] 0 100] None)).
Proof. split; [exact l1_reach|]. split; [vm_compute; discriminate|vm_compute; reflexivity]. Qed.
Example C12_ex_one : exists re, get_percentile l1 1 0 0 = Done (Some re) /\ e_id (re_elem re) = 1.
Proof. eexists. split; vm_compute; reflexivity. Qed.
