(** C35: the size-limiting store under crashes and clashing keys. *)
From Coq Require Import Strings.String Strings.Byte.
From Verif.Lib Require Import Prelude ListAux.
From Verif.Model Require Import KV MaxSize.
From Verif.Spec Require Import MaxSizeSpec.
From Verif.Proof Require Import KVP MaxSizeP MaxSizeRun.
From Verif.Thm Require Import C34.
Open Scope N_scope.

(** The first write of a key, cut short by a crash: the next read finds all of it or
    nothing. *)
Theorem C35_first_write_crash : forall maxsize K todo tr0 l tr1 k b r fl tr2 c,
  (1024 <= maxsize)%nat -> no_clash K -> only_keys K todo ->
  mexec maxsize K (start kv_empty todo) (tr0 ++ Crash l :: tr1 ++ Fin (MGet k) r fl :: tr2) c ->
  untouched k tr0 -> In (MSet k b) l -> untouched k tr1 ->
  r = RFound b \/ r = RNotFound \/ (r = RErr /\ fl = true).
Proof. exact c35_fresh. Qed.
Print Assumptions C35_first_write_crash.

(** The same after a Set that returned an error. *)
Theorem C35_first_write_failed : forall maxsize K todo tr0 tr1 k b r fl tr2 c,
  (1024 <= maxsize)%nat -> no_clash K -> only_keys K todo ->
  mexec maxsize K (start kv_empty todo) (tr0 ++ Fin (MSet k b) RErr true :: tr1 ++ Fin (MGet k) r fl :: tr2) c ->
  untouched k tr0 -> untouched k tr1 ->
  r = RFound b \/ r = RNotFound \/ (r = RErr /\ fl = true).
Proof. exact c35_failed. Qed.
Print Assumptions C35_first_write_failed.

(** An overwrite is not atomic: after a crash the read succeeds and finds a mixture. *)
Definition v1 : bytes := fill 1500 x01.
Definition v2 : bytes := fill 1500 x02.
Definition mix : bytes := fill 1023 x02 ++ fill 477 x01.
Fixpoint solo_run (n : nat) : list choice := match n with O => [] | S n => Go 0 Good :: solo_run n end.
Definition run35 : list choice := solo_run 6 ++ solo_run 3 ++ [Boom [[MGet ka]]] ++ solo_run 6.
Theorem C35_overwrite_refuted : exists tr c l,
  mexec 1024 K34 (start kv_empty [[MSet ka v1; MSet ka v2]]) tr c /\
  tr = [Fin (MSet ka v1) ROk false; Crash l; Fin (MGet ka) (RFound mix) false] /\ l = [MSet ka v2] /\ mix <> v1 /\ mix <> v2.
Proof.
  destruct (sched_ok 1024 K34 run35 (start kv_empty [[MSet ka v1; MSet ka v2]])) as (c & E).
  { apply Forall_forall. intros x Hx. vm_compute in Hx. repeat (destruct Hx as [<-|Hx]; [exact I || (unfold only_keys, K34; repeat (apply Forall_cons || apply Forall_nil); cbn [op_key]; auto)|]). destruct Hx. }
  eexists. exists c, [MSet ka v2]. split; [exact E|]. split; [vm_compute; reflexivity|]. split; [reflexivity|].
  split; intros C; apply (f_equal (fun l => (hd x00 l, last l x00))) in C; vm_compute in C; discriminate.
Qed.
Print Assumptions C35_overwrite_refuted.

(** Keys clash if one is the other followed by "+0": without any failure or crash a
    Set of the second changes what a Get of the first returns. *)
Definition ka0 : skey := ("s", "a+0")%string.
Theorem C35_clash_refuted : exists tr c b,
  mexec 1024 (fun k => k = ka \/ k = ka0) (start kv_empty [[MSet ka v1; MSet ka0 v2; MGet ka]]) tr c /\
  tr = [Fin (MSet ka v1) ROk false; Fin (MSet ka0 v2) ROk false; Fin (MGet ka) (RFound b) false] /\ b <> v1.
Proof.
  destruct (sched_ok 1024 (fun k => k = ka \/ k = ka0) (solo_run 20) (start kv_empty [[MSet ka v1; MSet ka0 v2; MGet ka]])) as (c & E).
  { unfold keys_ok. repeat constructor. }
  eexists. exists c. eexists. split; [exact E|]. split; [vm_compute; reflexivity|].
  intros C. apply (f_equal (@length byte)) in C. vm_compute in C. discriminate.
Qed.
Print Assumptions C35_clash_refuted.

(** Delete reports success if its read fails; the value stays. *)
Theorem C35_delete_refuted : exists tr c,
  mexec 1024 K34 (start kv_empty [[MSet ka (fill 5 x01); MDel ka; MGet ka]]) tr c /\
  tr = [Fin (MSet ka (fill 5 x01)) ROk false; Fin (MDel ka) ROk true; Fin (MGet ka) (RFound (fill 5 x01)) false].
Proof.
  destruct (sched_ok 1024 K34 (solo_run 5 ++ [Go 0 Good; Go 0 Good; Go 0 FailBefore; Go 0 Good] ++ solo_run 5) (start kv_empty [[MSet ka (fill 5 x01); MDel ka; MGet ka]])) as (c & E).
  { unfold keys_ok. repeat constructor. }
  eexists. exists c. split; [exact E|]. vm_compute. reflexivity.
Qed.
Print Assumptions C35_delete_refuted.

(** A crash between the two parts of a first write: nothing is found. *)
Example C35_ex : exists c, mexec 1024 K34 (start kv_empty [[MSet ka v1]; [MSet kb v2]])
  ([] ++ Crash [MSet ka v1] :: [] ++ [Fin (MGet ka) RNotFound false]) c /\ only_keys K34 [[MSet ka v1]; [MSet kb v2]].
Proof.
  destruct (sched_ok 1024 K34 (solo_run 3 ++ [Boom [[MGet ka]]] ++ solo_run 6) (start kv_empty [[MSet ka v1]; [MSet kb v2]])) as (c & E).
  { apply Forall_forall. intros x Hx. vm_compute in Hx. repeat (destruct Hx as [<-|Hx]; [exact I || (unfold only_keys, K34; repeat (apply Forall_cons || apply Forall_nil); cbn [op_key]; auto)|]). destruct Hx. }
  exists c. split.
  - vm_compute in E. exact E.
  - unfold only_keys, K34. repeat (apply Forall_cons || apply Forall_nil); cbn [op_key]; auto.
Qed.
