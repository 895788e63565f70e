(** C37: the delayed-write store with any number of savers and failing saves. *)
From Coq Require Import Strings.String Strings.Ascii Strings.Byte.
From Verif.Lib Require Import Prelude ListAux.
From Verif.Model Require Import KV MaxSize Lazy.
From Verif.Spec Require Import LazySpec.
From Verif.Proof Require Import KVP MaxSizeP MaxSizeRun LazyP LazyOne LazyAny.
From Verif.Thm Require Import C36.
Open Scope nat_scope.

(** A Get answered from the queue returns the latest write. *)
Theorem C37_pending_read : forall nsav may_fail K s tr c t1 k v t2, plain_sets K ->
  lexec nsav may_fail K s tr c -> tr = t1 ++ LHit k v :: t2 -> v = after s t1 k.
Proof. exact c37_hit. Qed.
Print Assumptions C37_pending_read.

(** The store holds only what was there before or was written to that key. *)
Theorem C37_store_values : forall nsav may_fail K s tr c k, plain_sets K -> lexec nsav may_fail K s tr c ->
  l_kv c k = s k \/ In (LSet k (l_kv c k)) tr.
Proof. exact c37_store. Qed.
Print Assumptions C37_store_values.
Theorem C37_store_read : forall nsav may_fail K s tr c t1 i k v t2, plain_sets K -> lexec nsav may_fail K s tr c ->
  tr = t1 ++ LAns i k (Some v) :: t2 -> v = s k \/ In (LSet k v) t1.
Proof. exact c37_ans. Qed.
Print Assumptions C37_store_read.

Ltac keys := unfold K36, C36.ka, C36.kb; repeat (apply Forall_cons || apply Forall_nil); cbn; auto; try discriminate.

(** Two savers: the older of two writes can reach the store last. *)
Definition run37a : list lchoice :=
  [CSet ka (Some [x01]); CFront; CSend 0; CSet ka (Some [x02]); CFront; CSend 1; CWrite 1 Good; CWrite 0 Good; CDone 0; CDone 1].
Theorem C37_two_savers_refuted : exists K s tr c k, plain_sets K /\ lexec 2 false K s tr c /\ l_q c = [] /\ K k /\
  after s tr k = Some [x02] /\ l_kv c k = Some [x01].
Proof.
  exists K36, kv_empty, [LSet ka (Some [x01]); LSet ka (Some [x02])], (snd (lrun kv_empty 2 run37a)), ka.
  split; [exact K36_ok|]. split; [|split; [vm_compute; reflexivity|split; [unfold K36; auto|split; vm_compute; reflexivity]]].
  apply (lrun_ok kv_empty 2 false K36 run37a). keys.
Qed.
Print Assumptions C37_two_savers_refuted.

(** A save that fails loses the acknowledged write, also for reads. *)
Definition run37b : list lchoice :=
  [CSet ka (Some [x01]); CFront; CSend 0; CWrite 0 FailBefore; CDone 0; CGet ka; CAns 0].
Theorem C37_failed_save_refuted : exists K s tr c, plain_sets K /\ lexec 1 true K s tr c /\
  tr = [LSet ka (Some [x01]); LAsk 0 ka; LAns 0 ka (Some None)] /\ l_q c = [].
Proof.
  exists K36, kv_empty, [LSet ka (Some [x01]); LAsk 0 ka; LAns 0 ka (Some None)], (snd (lrun kv_empty 1 run37b)).
  split; [exact K36_ok|]. split; [|split; [reflexivity|vm_compute; reflexivity]].
  apply (lrun_ok kv_empty 1 true K36 run37b). keys.
Qed.
Print Assumptions C37_failed_save_refuted.

(** Two keys with the same joined name: a write of one ends up under the other. *)
Definition k1 : skey := ("a/b", "c")%string.
Definition k2 : skey := ("a", "b/c")%string.
Definition run37c : list lchoice :=
  [CSet k1 (Some [x01]); CSet k2 (Some [x02]); CFront; CSend 0; CWrite 0 Good; CDone 0; CGet k1; CAns 0; CGet k2; CAns 1].
Theorem C37_joined_names_refuted : exists tr c, lexec 1 false (fun k => k = k1 \/ k = k2) kv_empty tr c /\
  tr = [LSet k1 (Some [x01]); LSet k2 (Some [x02]); LAsk 0 k1; LAns 0 k1 (Some (Some [x02])); LAsk 1 k2; LAns 1 k2 (Some None)] /\ l_q c = [].
Proof.
  eexists. exists (snd (lrun kv_empty 1 run37c)). split; [apply (lrun_ok kv_empty 1 false _ run37c)|split; [vm_compute; reflexivity|vm_compute; reflexivity]].
  repeat (apply Forall_cons || apply Forall_nil); cbn; auto; discriminate.
Qed.
Print Assumptions C37_joined_names_refuted.

(** That is the worst: with any keys, any number of savers and any failures, what a Get finds in
    the queue or in the store was there before, or the key was written and the value was written
    to a key of the same joined name. *)
Theorem C37_any_keys_hit : forall nsav may_fail K s tr c t1 k v t2, lexec nsav may_fail K s tr c -> tr = t1 ++ LHit k v :: t2 ->
  (exists v', In (LSet k v') t1) /\ exists k', same_name k' k /\ In (LSet k' v) t1.
Proof. exact c37_named_hit. Qed.
Print Assumptions C37_any_keys_hit.
Theorem C37_any_keys_store : forall nsav may_fail K s tr c k, lexec nsav may_fail K s tr c ->
  l_kv c k = s k \/ ((exists v', In (LSet k v') tr) /\ exists k', same_name k' k /\ In (LSet k' (l_kv c k)) tr).
Proof. exact c37_named_store. Qed.
Print Assumptions C37_any_keys_store.
(** the key k2 of the same name as the pending k1 is looked up in the store *)
Example C37_any_keys_ex : same_name k1 k2 /\ exists c, lexec 1 false (fun k => k = k1 \/ k = k2) kv_empty
  [LSet k1 (Some [x01]); LAsk 0 k2; LHit k1 (Some [x01]); LAns 0 k2 (Some None)] c.
Proof.
  split; [reflexivity|]. exists (snd (lrun kv_empty 1 [CSet k1 (Some [x01]); CGet k2; CGet k1; CAns 0])).
  apply (lrun_ok kv_empty 1 false (fun k => k = k1 \/ k = k2) [CSet k1 (Some [x01]); CGet k2; CGet k1; CAns 0]).
  repeat (apply Forall_cons || apply Forall_nil); cbn; auto; discriminate.
Qed.

(** Three savers, one failing. *)
Definition run37d : list lchoice :=
  [CSet ka (Some [x01]); CFront; CSend 2; CSet kb (Some [x05]); CSet ka (Some [x02]); CFront; CSend 0; CWrite 0 FailAfter; CGet ka; CGet kb;
   CWrite 2 Good; CDone 0; CGet ka; CFront; CSend 1; CSet ka None; CGet ka; CDone 2; CGet ka; CGet kb].
Example C37_ex : exists c, lexec 3 true K36 kv_empty
  [LSet ka (Some [x01]); LSet kb (Some [x05]); LSet ka (Some [x02]); LHit ka (Some [x02]); LHit kb (Some [x05]);
   LHit ka (Some [x02]); LSet ka None; LHit ka None; LHit ka None; LAsk 0 kb] c /\ length (l_q c) = 2.
Proof.
  pose proof (lrun_ok kv_empty 3 true K36 run37d) as H. eexists. split.
  - vm_compute in H. apply H. keys.
  - vm_compute. reflexivity.
Qed.
