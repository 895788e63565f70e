(** C05: splitting slices. *)
From Verif.Lib Require Import Prelude ListAux ListLemmas SortLemmas Perm.
From Verif.Model Require Import Element Elements.
From Verif.Spec Require Import RankSpec.
From Verif.Proof Require Import ElementP ElementsP ElementsThm.
Open Scope N_scope.

Theorem C05_split_size : forall l k, (0 < k)%nat -> exists parts, split_size l k = Some parts /\
  concat parts = l /\
  (l <> [] -> Forall (fun p => p <> []) parts) /\
  (forall a b p q, parts = a ++ p :: q :: b -> forall x y,
      nth_error p (length p - 1) = Some x -> nth_error q 0 = Some y ->
      e_score x <> e_score y \/ e_tie x <> e_tie y).
Proof. exact c05_split. Qed.
Print Assumptions C05_split_size.

Theorem C05_halves : forall l, (2 <= length l)%nat -> exists parts,
  split_size l ((length l + 1) / 2) = Some parts /\ (1 <= length parts <= 2)%nat.
Proof. exact c05_halves. Qed.
Print Assumptions C05_halves.

(** No part is longer than the requested size plus the longest tied run less one. *)
Theorem C05_part_sizes : forall l k r parts, (0 < k)%nat -> (1 <= r)%nat -> tied_run_le l r ->
  split_size l k = Some parts -> Forall (fun p => length p <= k + r - 1)%nat parts.
Proof. exact split_size_sizes. Qed.
Print Assumptions C05_part_sizes.

(** Size 0 on a non-empty slice is the division by zero panic. *)
Theorem C05_zero_panics : forall e l, split_size (e :: l) 0 = None.
Proof. reflexivity. Qed.
Print Assumptions C05_zero_panics.

Example C05_ex : split_size [mkE 9 1 [] 0 1; mkE 5 2 [] 0 1; mkE 5 3 [] 0 1; mkE 5 4 [] 0 1; mkE 2 5 [] 0 1] 2
  = Some [[mkE 9 1 [] 0 1; mkE 5 2 [] 0 1; mkE 5 3 [] 0 1; mkE 5 4 [] 0 1]; [mkE 2 5 [] 0 1]].
Proof. vm_compute. reflexivity. Qed.
