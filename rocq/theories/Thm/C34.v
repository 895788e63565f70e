(** C34: the size-limiting store behaves like a plain store. *)
From Coq Require Import Strings.String Strings.Byte.
From Verif.Lib Require Import Prelude ListAux.
From Verif.Model Require Import KV MaxSize.
From Verif.Spec Require Import MaxSizeSpec.
From Verif.Proof Require Import KVP MaxSizeP MaxSizeRun MaxSizeTidy.
Open Scope N_scope.

(** For every interleaving of any number of threads, every failure of base
    operations and every crash: the results are those of a map in which a write that
    was cut short leaves its key in doubt; no stored part exceeds the limit. *)
Theorem C34_refines_map : forall maxsize K todo tr c, (1024 <= maxsize)%nat -> no_clash K -> only_keys K todo ->
  mexec maxsize K (start kv_empty todo) tr c ->
  (exists m, replay maxsize nothing tr m) /\
  forall k b, K k -> forall i, c_kv c (part_key k i) = Some b -> (length b <= maxsize)%nat.
Proof. exact c34_refines. Qed.
Print Assumptions C34_refines_map.

(** Up to the first failure or crash, the results are those of a plain map. *)
Theorem C34_plain_map : forall maxsize K todo tr c, (1024 <= maxsize)%nat -> no_clash K -> only_keys K todo ->
  mexec maxsize K (start kv_empty todo) tr c -> plain maxsize (fun _ => None) tr.
Proof. exact c34_plain. Qed.
Print Assumptions C34_plain_map.

(** A value that is too big is refused before anything is read or written. *)
Theorem C34_too_big : forall maxsize k b, too_big maxsize b -> (1 <= maxsize)%nat ->
  op_prog maxsize (MSet k b) = Ret RTooBig.
Proof. exact c34_refuses. Qed.
Print Assumptions C34_too_big.

(** Without failing calls on the key and without crashes, a key that no call is
    working on has exactly the parts its value needs: none are left behind by shorter
    values or by Delete.  The names of the keys must be told apart by [map_key]. *)
Theorem C34_no_leak : forall maxsize K todo tr c k, (1024 <= maxsize)%nat -> no_clash K -> only_keys K todo ->
  mexec maxsize K (start kv_empty todo) tr c -> K k -> (forall k', K k' -> map_key k' = map_key k -> k' = k) ->
  calm k tr -> ~ In k (map op_key (running c)) ->
  match value_after k None tr with
  | None => stored (c_kv c) k 0
  | Some b => exists n, parts_needed maxsize b n /\ stored (c_kv c) k n
  end.
Proof. exact c34_no_leak. Qed.
Print Assumptions C34_no_leak.

(** With failures and crashes too, nothing is written but parts of the keys used. *)
Theorem C34_only_parts : forall maxsize K todo tr c x, (1024 <= maxsize)%nat -> no_clash K -> only_keys K todo ->
  mexec maxsize K (start kv_empty todo) tr c -> (forall k i, K k -> x <> part_key k i) -> c_kv c x = None.
Proof. exact c34_only_parts. Qed.
Print Assumptions C34_only_parts.

(** Two threads on the keys "a" and "b"; values of one, two and three parts. *)
Definition fill (n : nat) (x : byte) : bytes := repeat x n.
Definition ka : skey := ("s", "a")%string.
Definition kb : skey := ("s", "b")%string.
Definition K34 (k : skey) : Prop := k = ka \/ k = kb.
Lemma K34_ok : no_clash K34.
Proof. apply (same_len_no_clash _ 1). intros k [->| ->]; reflexivity. Qed.
Definition todo34 : list (list mop) :=
  [[MSet ka (fill 2500 x01); MGet ka; MSet ka (fill 1021 x02); MGet ka; MDel ka];
   [MGet ka; MSet kb (fill 1022 x03); MGet kb; MDel kb; MGet kb]].
Fixpoint ping (n : nat) : list choice := match n with O => [] | S n => Go 0 Good :: Go 1 Good :: ping n end.
Lemma todo34_ok : only_keys K34 todo34.
Proof. unfold only_keys, todo34, K34. repeat (apply Forall_cons || apply Forall_nil); cbn [op_key]; auto. Qed.
Definition short (e : event) : nat * string * nat :=
  match e with
  | Fin (MGet k) (RFound b) _ => (0%nat, snd k, length b)
  | Fin (MGet k) RNotFound _ => (1%nat, snd k, 0%nat)
  | Fin (MSet k b) ROk _ => (2%nat, snd k, length b)
  | Fin (MDel k) ROk _ => (3%nat, snd k, 0%nat)
  | _ => (4%nat, ""%string, 0%nat)
  end.
Example C34_ex : exists c, mexec 1024 K34 (start kv_empty todo34) (sched 1024 (start kv_empty todo34) (ping 40)) c /\
  map short (sched 1024 (start kv_empty todo34) (ping 40)) =
   [(2, "a", 2500); (0, "a", 2500); (0, "a", 2500); (2, "b", 1022); (0, "b", 1022); (2, "a", 1021); (0, "a", 1021); (3, "b", 0); (1, "b", 0); (3, "a", 0)]%string%nat.
Proof.
  destruct (sched_ok 1024 K34 (ping 40) (start kv_empty todo34)) as (c & E).
  { unfold keys_ok. repeat constructor. }
  exists c. split; [exact E|]. vm_compute. reflexivity.
Qed.
(** the limit, with parts of 1024 bytes: just below 64 MB *)
Example C34_limit : forall b, (N.of_nat (length b) = 65534 * 1024 - 2 -> too_big 1024 b) /\
  (N.of_nat (length b) = 65534 * 1024 - 3 -> ~ too_big 1024 b).
Proof. intros b. unfold too_big. split; intros ->; [reflexivity|discriminate]. Qed.

(** three parts, then two *)
Definition todo_tidy : list (list mop) := [[MSet ka (fill 2500 x01); MSet ka (fill 1022 x02)]; [MSet kb (fill 7 x03)]].
Definition has (c : config) (k : skey) (i : nat) : bool := match c_kv c (part_key k i) with Some _ => true | None => false end.
Example C34_no_leak_ex : exists tr c, mexec 1024 K34 (start kv_empty todo_tidy) tr c /\ calm ka tr /\ running c = [] /\
  value_after ka None tr = Some (fill 1022 x02) /\ map (has c ka) [0; 1; 2; 3]%nat = [true; true; false; false] /\
  In (Fin (MSet ka (fill 2500 x01)) ROk false) tr /\ K34 ka /\ (forall k', K34 k' -> map_key k' = map_key ka -> k' = ka).
Proof.
  exists (sched 1024 (start kv_empty todo_tidy) (ping 40)), (sched_end 1024 (start kv_empty todo_tidy) (ping 40)).
  split; [apply sched_end_ok; unfold keys_ok; repeat constructor|].
  assert (E : sched 1024 (start kv_empty todo_tidy) (ping 40) =
    [Fin (MSet kb (fill 7 x03)) ROk false; Fin (MSet ka (fill 2500 x01)) ROk false; Fin (MSet ka (fill 1022 x02)) ROk false]) by (vm_compute; reflexivity).
  rewrite E. split; [repeat constructor|]. split; [vm_compute; reflexivity|]. split; [vm_compute; reflexivity|].
  split; [vm_compute; reflexivity|]. split; [cbn [In]; auto|]. split; [left; reflexivity|].
  intros k' [->| ->]; [reflexivity|]. cbn. discriminate.
Qed.

(** After a restart the number of parts is not known until the key is read: a Set of a
    shorter value leaves the other parts behind, and a Delete does not find them. *)
Definition todo_leak : list (list mop) := [[MSet ka (fill 2500 x01)]].
Definition run_leak : list choice :=
  repeat (Go 0 Good) 20 ++ [Boom [[MSet ka (fill 5 x02); MDel ka; MGet ka]]] ++ repeat (Go 0 Good) 30.
Theorem C34_leak_refuted : exists tr c,
  mexec 1024 K34 (start kv_empty todo_leak) tr c /\ running c = [] /\
  tr = [Fin (MSet ka (fill 2500 x01)) ROk false; Crash []; Fin (MSet ka (fill 5 x02)) ROk false;
        Fin (MDel ka) ROk false; Fin (MGet ka) RNotFound false] /\
  value_after ka None tr = None /\ c_kv c (part_key ka 1) <> None /\ c_kv c (part_key ka 2) <> None.
Proof.
  exists (sched 1024 (start kv_empty todo_leak) run_leak), (sched_end 1024 (start kv_empty todo_leak) run_leak).
  split; [apply sched_end_ok|].
  { apply Forall_forall. intros x Hx. vm_compute in Hx. repeat (destruct Hx as [<-|Hx]; [exact I || (unfold only_keys, K34; repeat (apply Forall_cons || apply Forall_nil); cbn [op_key]; auto)|]). destruct Hx. }
  split; [vm_compute; reflexivity|]. split; [vm_compute; reflexivity|]. split; [vm_compute; reflexivity|].
  split; vm_compute; discriminate.
Qed.
Print Assumptions C34_leak_refuted.
