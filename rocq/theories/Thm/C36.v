(** C36: the delayed-write store with one saver. *)
From Coq Require Import Strings.String Strings.Ascii Strings.Byte.
From Verif.Lib Require Import Prelude ListAux.
From Verif.Model Require Import KV MaxSize Lazy.
From Verif.Spec Require Import LazySpec.
From Verif.Proof Require Import KVP MaxSizeP MaxSizeRun LazyP LazyOne.
Open Scope nat_scope.

(** A Get answered from the queue returns the latest write. *)
Theorem C36_pending_read : forall K s tr c t1 k v t2, plain_sets K -> lexec 1 false K s tr c ->
  tr = t1 ++ LHit k v :: t2 -> v = after s t1 k.
Proof. intros K s tr c t1 k v t2. exact (c37_hit 1 false K s tr c t1 k v t2). Qed.
Print Assumptions C36_pending_read.

(** A Get answered from the store returns what was the latest write at some time
    during the call. *)
Theorem C36_store_read : forall K s tr c t1 i k r t2, plain_sets K -> lexec 1 false K s tr c ->
  tr = t1 ++ LAns i k r :: t2 -> exists v, r = Some v /\ had s t1 i k v /\ NoDup (asks t1).
Proof. exact c36_ans. Qed.
Print Assumptions C36_store_read.

(** With nothing queued, the store holds the latest write of every key. *)
Theorem C36_drained : forall K s tr c, plain_sets K -> lexec 1 false K s tr c -> l_q c = [] ->
  forall k, K k -> l_kv c k = after s tr k.
Proof. exact c36_drained. Qed.
Print Assumptions C36_drained.

Definition ka : skey := ("s", "a/b")%string.
Definition kb : skey := ("s", "b")%string.
Definition K36 (k : skey) : Prop := k = ka \/ k = kb.
Lemma K36_ok : plain_sets K36.
Proof. intros k [->| ->]; cbn; intros [C|C]; try discriminate; exact C. Qed.
Definition base36 : kv := kv_put kv_empty kb (Some [x09]).
(** [ka] is overwritten before, during and after its save; a Get of [kb] spans a Set. *)
Definition run36 : list lchoice :=
  [CSet ka (Some [x01]); CSet ka (Some [x02]); CGet kb; CFront; CSet ka (Some [x03]); CGet ka; CSet kb None; CAns 0;
   CSend 0; CFront; CWrite 0 Good; CGet ka; CDone 0; CGet ka; CSend 0; CWrite 0 Good; CDone 0; CGet ka; CAns 1; CGet kb;
   CFront; CSend 0; CWrite 0 Good; CDone 0].
Example C36_ex : exists c, lexec 1 false K36 base36
   [LSet ka (Some [x01]); LSet ka (Some [x02]); LAsk 0 kb; LSet ka (Some [x03]); LHit ka (Some [x03]); LSet kb None;
    LAns 0 kb (Some (Some [x09])); LHit ka (Some [x03]); LHit ka (Some [x03]); LAsk 1 ka; LAns 1 ka (Some (Some [x03])); LHit kb None] c /\
  l_q c = [] /\ l_kv c ka = Some [x03] /\ l_kv c kb = None.
Proof.
  pose proof (lrun_ok base36 1 false K36 run36) as H. eexists. split; [|split; [|split]].
  - vm_compute in H. apply H. unfold K36, ka, kb. repeat (apply Forall_cons || apply Forall_nil); cbn; auto; discriminate.
  - vm_compute. reflexivity.
  - vm_compute. reflexivity.
  - vm_compute. reflexivity.
Qed.
