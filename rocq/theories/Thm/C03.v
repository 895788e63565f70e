(** C03: sorting. *)
From Verif.Lib Require Import Prelude ListAux ListLemmas SortLemmas Perm.
From Verif.Model Require Import Element Elements.
From Verif.Spec Require Import RankSpec.
From Verif.Proof Require Import ElementP ElementsP ElementsThm.
Open Scope N_scope.

(** Whenever Sort returns (any recursion depth, any order of equal elements) the
    result is right. *)
Theorem C03_sort_correct : forall sch fuel l out ch, sort_go sch fuel l = Some (out, ch) ->
  weakly_ranked out /\ Permutation out l /\ (ch = true <-> ~ weakly_ranked l) /\
  (distinct_ids l -> ranked out).
Proof. exact c03_correct. Qed.
Print Assumptions C03_sort_correct.

(** It returns for small inputs and for inputs whose tied runs are at most 22500
    long; recursion depth 2 is enough. *)
Theorem C03_sort_terminates : forall sch l,
  (length l < N.to_nat 25000)%nat \/ tied_run_le l (N.to_nat 22500) ->
  exists o, sort_go sch 2 l = Some o.
Proof. exact c03_terminates. Qed.
Print Assumptions C03_sort_terminates.

(** It never returns for a large unsorted input that is one tied group. *)
Theorem C03_sort_diverges : forall sch s t l,
  (N.to_nat 25000 <= length l)%nat -> Forall (fun e => e_score e = s /\ e_tie e = t) l ->
  ~ weakly_ranked l -> forall fuel, sort_go sch fuel l = None.
Proof. exact c03_diverges. Qed.
Print Assumptions C03_sort_diverges.

(** Such inputs exist, even with distinct IDs. *)
Theorem C03_sort_termination_refuted : exists l s t,
  (N.to_nat 25000 <= length l)%nat /\ Forall (fun e => e_score e = s /\ e_tie e = t) l /\
  distinct_ids l /\ ~ weakly_ranked l.
Proof. exact c03_diverging_exists. Qed.
Print Assumptions C03_sort_termination_refuted.

(** The parallel path with small constants: 6 elements, threshold 4, chunk 2. *)
Example C03_ex_parallel : sort_full (fun _ => []) 4 2 2
   [mkE 1 1 [] 0 1; mkE 5 2 [] 0 1; mkE 5 3 [] 0 1; mkE 9 4 [] 0 1; mkE 2 5 [] 0 1; mkE 7 6 [] 0 1]
  = Some ([mkE 9 4 [] 0 1; mkE 7 6 [] 0 1; mkE 5 2 [] 0 1; mkE 5 3 [] 0 1; mkE 2 5 [] 0 1; mkE 1 1 [] 0 1], true).
Proof. vm_compute. reflexivity. Qed.
Example C03_ex_runs : tied_run_le [mkE 1 1 [] 0 1; mkE 5 2 [] 0 1; mkE 4 3 [] 0 1] (N.to_nat 22500).
Proof. intros a n H _. cbn in H. lia. Qed.
