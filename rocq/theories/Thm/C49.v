(** C49: elements that are silently dropped. *)
From Coq Require Import Strings.String.
From Verif.Lib Require Import Prelude ListAux.
From Verif.Model Require Import Element Elements Segment List.
From Verif.Spec Require Import RankSpec QuerySpec HistorySpec AnswerSpec.
From Verif.Proof Require Import ListThm ResultP DropP ProgressP.
From Verif.Thm Require Import Sample.
Open Scope N_scope.

Theorem C49_dropped : forall merge split l m e, reachable merge split l m ->
  e_score e = 0 -> e_tie e = 0 -> e_upd e = max_u32 ->
  (forall clk clki now sc, stored_in (update_elements clk clki now sc [e] l) = stored_in l) /\
  ((4 <= split)%nat -> forall now sch, exists l', insert now sch [e] l = Done l' /\ stored_in l' = stored_in l).
Proof. exact c49_dropped. Qed.
Print Assumptions C49_dropped.

(** Below the maximal time nothing is dropped. *)
Theorem C49_others_stored : forall merge split l m clk clki now sc e, reachable merge split l m ->
  op_ok merge split m (OUpdate clk clki now sc e) ->
  forall x, In x e -> In (stamp clk x) (stored_in (update_elements clk clki now sc e l)).
Proof. exact c49_stored. Qed.
Print Assumptions C49_others_stored.

Example C49_ex : stored_in (update_elements (fun _ => 200) (fun _ => 201) 202 [] [mkE 0 99 [] 0 max_u32] l1) = stored_in l1 /\
  In (mkE 0 99 [] 0 (max_u32 - 1)) (stored_in (update_elements (fun _ => 200) (fun _ => 201) 202 [] [mkE 0 99 [] 0 (max_u32 - 1)] l1)).
Proof. split; [vm_compute; reflexivity|]. vm_compute. tauto. Qed.
