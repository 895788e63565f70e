(** C21: insert. *)
From Coq Require Import Strings.String.
From Verif.Lib Require Import Prelude ListAux.
From Verif.Model Require Import Element Elements Segment List.
From Verif.Spec Require Import RankSpec QuerySpec HistorySpec AnswerSpec.
From Verif.Proof Require Import ListThm ResultP DropP ProgressP.
From Verif.Thm Require Import Sample.
Open Scope N_scope.

Theorem C21_insert : forall merge split l m now sch e, reachable merge split l m ->
  distinct_ids e -> Forall stored e -> (forall x, In x e -> m (e_id x) = None) -> tick now -> (4 <= split)%nat ->
  exists l', insert now sch e l = Done l' /\ reachable merge split l' (sputs m e) /\
    verify l' = true /\ verify_elements l' = true /\
    forall x, In x (stored_in l') <-> In x (stored_in l) \/ In x e.
Proof. exact c21_insert. Qed.
Print Assumptions C21_insert.

(** With a split size below 4 the call never returns. *)
Theorem C21_small_split_diverges : forall merge split l m now sch e, reachable merge split l m ->
  (split < 4)%nat -> e <> [] -> insert now sch e l = Diverge.
Proof. exact c21_diverges. Qed.
Print Assumptions C21_small_split_diverges.

(** Seven elements into a list whose chunk size is 4. *)
Definition fresh : elements := map (fun i => mkE (10 * i) (20 + i) [] 0 50) [1; 2; 3; 4; 5; 6; 7].
Example C21_ex : want_limit l1 = 4%nat /\ exists l', insert 300 (fun _ => []) fresh l1 = Done l' /\
  map e_id (stored_in l') = [2; 3; 27; 26; 11; 12; 5; 25; 4; 6; 7; 24; 23; 8; 22; 9; 21; 10; 1] /\ verify_elements l' = true.
Proof. split; [vm_compute; reflexivity|]. eexists. vms. Qed.
Example C21_ex_hyp : distinct_ids fresh /\ Forall stored fresh /\ forall x, In x fresh -> m1 (e_id x) = None.
Proof.
  split; [apply distinct_by; vm_compute; reflexivity|]. split; [apply (forall_by stb); [exact stb_stored|vm_compute; reflexivity]|].
  intros x Hx. repeat (destruct Hx as [<-|Hx]; [vm_compute; reflexivity|]). destruct Hx.
Qed.
