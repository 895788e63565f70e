(** C22: creating, populating and cloning. *)
From Coq Require Import Strings.String.
From Verif.Lib Require Import Prelude ListAux.
From Verif.Model Require Import Element Elements Segment List.
From Verif.Spec Require Import RankSpec QuerySpec HistorySpec AnswerSpec.
From Verif.Proof Require Import ListThm ResultP DropP ProgressP.
From Verif.Thm Require Import Sample.
Open Scope N_scope.

Theorem C22_new : forall merge split ns ni now sc sch want e, (merge < split)%nat -> build_sizes merge split want (length e) ->
  ns <> ""%string -> ni <> ""%string -> tick now -> distinct_ids e -> Forall elem_ok e -> N.of_nat (length e) < max_u32 ->
  exists l, new_list merge split ns ni now sc sch want e = Done l /\ verify l = true /\ verify_elements l = true /\
    ranked (stored_in l) /\ answers l (stored_in l) /\ Permutation (stored_in l) (map (restamp now) e).
Proof. exact c22_new. Qed.
Print Assumptions C22_new.

Theorem C22_populate : forall merge split l m ns ni now sc sch want e, reachable merge split l m ->
  op_ok merge split m (OPopulate ns ni now sc sch want e) ->
  exists l', populate ns ni now sc sch want e l = Done l' /\ verify l' = true /\ verify_elements l' = true /\
    ranked (stored_in l') /\ answers l' (stored_in l') /\ Permutation (stored_in l') e.
Proof. exact c22_populate. Qed.
Print Assumptions C22_populate.

Theorem C22_clone : forall merge0 split0 org m merge split ns ni now, reachable merge0 split0 org m ->
  (merge < split)%nat -> (2 <= merge + split)%nat -> ns <> ""%string -> ni <> ""%string -> tick now ->
  sized m (fun n => N.of_nat n < max_u32) ->
  exists l, clone_elements merge split ns ni now org = Done l /\ reachable merge split l m /\
    verify l = true /\ verify_elements l = true /\ stored_in l = stored_in org.
Proof. exact c22_clone. Qed.
Print Assumptions C22_clone.

(** Sizes 0 and 1, which list creation accepts. *)
Theorem C22_sizes_0_1_panic : forall merge split ns ni now sc sch want e, (merge + split <= 1)%nat -> e <> [] ->
  (length e <= N.to_nat 100000)%nat ->
  new_list merge split ns ni now sc sch want e = Panic /\
  forall l, l_merge l = merge -> l_split l = split -> populate ns ni now sc sch want e l = Panic.
Proof. exact c22_panics. Qed.
Print Assumptions C22_sizes_0_1_panic.

Example C22_ex : sizes_ok 0 1 = true /\ stored_in l0 =
  [mkE 90 1 [] 0 100; mkE 80 2 [] 7 100; mkE 80 3 [] 3 100; mkE 50 4 [] 0 100; mkE 50 5 [] 0 100; mkE 50 6 [] 0 100;
   mkE 50 7 [] 0 100; mkE 30 8 [] 0 100; mkE 20 9 [] 0 100; mkE 5 10 [] 0 100].
Proof. split; reflexivity. Qed.
Example C22_ex_clone : exists c, clone_elements 1 3 "C" "D" 500 l1 = Done c /\ stored_in c = stored_in l1 /\
  verify_elements c = true.
Proof. eexists. vms. Qed.
Example C22_ex_populate : exists l, populate "P" "Q" 600 [] (fun _ => []) 0
    [mkE 1 1 [] 0 5; mkE 2 2 [] 0 5; mkE 2 3 [] 0 5; mkE 7 4 [] 0 5] l1 = Done l /\
  map e_id (stored_in l) = [4; 2; 3; 1].
Proof. eexists. vms. Qed.
