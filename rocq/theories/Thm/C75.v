(** C75: what a server is put together from. *)
From Coq Require Import Strings.String Strings.Byte.
From Verif.Lib Require Import Prelude ListAux.
From Verif.Model Require Import KV MaxSize Wiring.
From Verif.Spec Require Import WiringSpec.
From Verif.Proof Require Import WiringP.
Open Scope Z_scope.

(** the server gets its stores if and only if the configuration has all that is needed *)
Theorem C75_starts : forall c opens, (exists w, wire_up c opens = inl w) <-> startable c opens.
Proof. exact c75_starts. Qed.
Print Assumptions C75_starts.

(** the store has the base that was named; there is a backup if and only if one was named and a number of saves was given;
    it is kept under the backup's set, in the base of the main store or in its own *)
Theorem C75_stores : forall c opens w, wire_up c opens = inl w ->
  (exists b, usable c (opens []) (c_storage c) b /\ on (w_store w) Main b) /\
  match w_backup w with
  | None => ~ wants_backup c
  | Some (s, set) => wants_backup c /\ set = c_backup_set c /\ set <> ""%string /\
      if string_dec (c_backup c) "Master" then exists b, on (w_store w) Main b /\ on s Main b
      else exists b b2, on (w_store w) Main b /\ usable c (opens [b]) (c_backup c) b2 /\ on s Back b2
  end.
Proof. exact c75_stores. Qed.
Print Assumptions C75_stores.

(** the layers; backups are never kept waiting *)
Theorem C75_layers : forall c opens w, wire_up c opens = inl w ->
  stack_ok c (w_store w) /\ forall s set, w_backup w = Some (s, set) -> tried_ok c s.
Proof. exact c75_layers. Qed.
Print Assumptions C75_layers.

(** at shutdown every open file is closed, once; before that the waiting values are written; the main store is last *)
Theorem C75_close : forall c opens w, wire_up c opens = inl w ->
  NoDup (w_close w) /\ (forall x, In (CloseBase x) (w_close w) <-> keeps_open w x) /\
  (In CloseLazy (w_close w) <-> c_lazy c = true) /\ (c_lazy c = true -> exists l, w_close w = CloseLazy :: l) /\
  (forall l1 l2, w_close w = l1 ++ CloseBase Main :: l2 -> l2 = []).
Proof. exact c75_close. Qed.
Print Assumptions C75_close.

(** store and backup both of Bolt, or both of Badger: there is one path only in the configuration, so it never starts *)
Theorem C75_twice : forall c opens, exclusive opens -> wants_backup c ->
  c_storage c = c_backup c -> c_storage c = "BoltDB"%string \/ c_storage c = "Badger"%string -> forall w, wire_up c opens <> inl w.
Proof. exact c75_twice. Qed.
Print Assumptions C75_twice.

(** which values can be stored, for every kind of store *)
Theorem C75_aerospike : forall c opens w lib h k v,
  wire_up c opens = inl w -> c_storage c = "Aerospike"%string -> c_lazy c = false ->
  let r := stack_set lib h (w_store w) k v in let n := block_of c - 1024 in
  (fst r = ROk <-> if n <=? MB then Z.of_nat (length v) + 3 <= 65534 * n else Z.of_nat (length v) < MB) /\
  (fst r = ROk -> cut k v (snd r)) /\ (fst r <> ROk -> fst r = RTooBig /\ snd r = []).
Proof. exact c75_aero. Qed.
Print Assumptions C75_aerospike.
Theorem C75_memory : forall c opens w lib h k v,
  wire_up c opens = inl w -> c_storage c = "Memory"%string -> c_lazy c = false ->
  let r := stack_set lib h (w_store w) k v in
  (fst r = ROk <-> Z.of_nat (length v) <= MB /\ (2 <= String.length (snd k))%nat) /\
  (fst r = ROk -> snd r = [(k, v)]) /\ (fst r <> ROk -> snd r = []).
Proof. exact c75_memory. Qed.
Print Assumptions C75_memory.
Theorem C75_file : forall c opens w lib h k v b,
  wire_up c opens = inl w -> on (w_store w) Main b -> file_of b <> None -> c_lazy c = false ->
  stack_set lib h (w_store w) k v = if lib b v then (ROk, [(k, v)]) else (RErr, []).
Proof. exact c75_file. Qed.
Print Assumptions C75_file.
(** with waiting values, everything is accepted, and written if the stores below would *)
Theorem C75_lazy : forall c opens w lib h k v, wire_up c opens = inl w -> c_lazy c = true ->
  fst (stack_set lib h (w_store w) k v) = ROk /\
  exists s, w_store w = Lazy s /\ snd (stack_set lib h (w_store w) k v) = snd (stack_set lib h s k v).
Proof. exact c75_lazy. Qed.
Print Assumptions C75_lazy.

(** ** Configurations *)
Open Scope string_scope.
Definition conf (store backup : string) (lazy retry : bool) (block : Z) : settings :=
  mkSet "rankdb" store "backups" backup 10 100 "LRU" 50 block "/data/badger" false "/data/bolt" false false
        lazy 60000000000 1000 900 4 1000000000 retry None.
Definition all_open (l : list base) (b : base) : bool :=
  forallb (fun b' => match file_of b, file_of b' with Some p, Some q => negb (String.eqb p q) | _, _ => true end) l.
Example C75_exclusive_ex : exclusive all_open.
Proof.
  intros l b b' H F E. destruct (all_open l b) eqn:Q; [|reflexivity]. unfold all_open in Q. rewrite forallb_forall in Q.
  specialize (Q b' H). rewrite <- E in Q. destruct (file_of b); [|congruence]. rewrite String.eqb_refl in Q. discriminate.
Qed.
Example C75_two_ex : wire_up (conf "BoltDB" "Badger" true true 0) all_open =
  inl (mkWired (Lazy (Retry 1000000000 (Base Main (Bolt "/data/bolt" false false))))
               (Some (Retry 1000000000 (Base Back (Badger "/data/badger" false false)), "backups"))
               [CloseLazy; CloseBase Back; CloseBase Main]).
Proof. reflexivity. Qed.
Example C75_master_ex : wire_up (conf "Aerospike" "Master" true false 131072) all_open =
  inl (mkWired (Lazy (MaxSize 130048 (Base Main Aero))) (Some (MaxSize 130048 (Base Main Aero), "backups")) [CloseLazy]).
Proof. reflexivity. Qed.
Example C75_errors_ex :
  wire_up (conf "Redis" "" false false 0) all_open = inr EUnknown /\
  wire_up (conf "Aerospike" "" false false 2047) all_open = inr EBlock /\
  wire_up (conf "BoltDB" "BoltDB" false false 0) all_open = inr EOpen /\
  wire_up (conf "Memory" "Mem" false false 0) all_open = inr EUnknown.
Proof. repeat split; reflexivity. Qed.
Example C75_parts_ex :
  let v := repeat "a"%byte 2500 in
  let r := stack_set (fun _ _ => true) (fun _ => 0%nat) (MaxSize 1024 (Base Main Aero)) ("s", "key") v in
  fst r = ROk /\ map (fun w => (snd (fst w), length (snd w))) (snd r) = [("key", 1024%nat); ("key+0", 1024%nat); ("key+1", 453%nat)].
Proof. vm_compute. split; reflexivity. Qed.

(** ** Where it is not what was asked for *)
(** Badger writes are made durable if and only if NoSync is set *)
Theorem C75_badger_sync : forall c opens w p sync trunc, wire_up c opens = inl w -> on (w_store w) Main (Badger p sync trunc) ->
  sync = c_badger_nosync c /\ trunc = c_badger_nosync c.
Proof. exact c75_badger. Qed.
Print Assumptions C75_badger_sync.
Theorem C75_sync_refuted : exists c w p trunc,
  c_badger_nosync c = false /\ wire_up c all_open = inl w /\ on (w_store w) Main (Badger p false trunc).
Proof. exists (conf "Badger" "" false false 0). eexists _, _, _. split; [reflexivity|]. split; [reflexivity|]. constructor. Qed.
Print Assumptions C75_sync_refuted.
(** a value is accepted and will never be written *)
Theorem C75_accepted_refuted : exists c w lib h k v, wire_up c all_open = inl w /\ stack_set lib h (w_store w) k v = (ROk, []).
Proof.
  exists (conf "Memory" "" true false 0), (mkWired (Lazy (Base Main Memory)) None [CloseLazy]), (fun _ _ => true), (fun _ => 0%nat), ("s", "key"), (repeat x00 (Z.to_nat 1048577)).
  split; [reflexivity|]. cbn [w_store stack_set takes snd]. rewrite repeat_length, Z2Nat.id by lia. reflexivity.
Qed.
Print Assumptions C75_accepted_refuted.
(** a larger block makes the values that can be stored smaller: 1 MB is stored with the default and refused with 2 MB blocks *)
Theorem C75_block_refuted : exists v w w2, Z.of_nat (length v) = MB /\
  wire_up (conf "Aerospike" "" false false 0) all_open = inl w /\ wire_up (conf "Aerospike" "" false false 2097152) all_open = inl w2 /\
  forall lib h k, fst (stack_set lib h (w_store w) k v) = ROk /\ stack_set lib h (w_store w2) k v = (RTooBig, []).
Proof.
  exists (repeat x00 (Z.to_nat 1048576)).
  destruct (wire_up (conf "Aerospike" "" false false 0) all_open) as [w|] eqn:E1; [|discriminate].
  destruct (wire_up (conf "Aerospike" "" false false 2097152) all_open) as [w2|] eqn:E2; [|discriminate].
  exists w, w2. assert (L : Z.of_nat (length (repeat x00 (Z.to_nat 1048576))) = MB) by (rewrite repeat_length, Z2Nat.id by lia; reflexivity).
  split; [exact L|]. split; [reflexivity|]. split; [reflexivity|]. intros lib h k. generalize dependent (repeat x00 (Z.to_nat 1048576)). intros v L.
  pose proof (c75_aero _ _ _ lib h k v E1 eq_refl eq_refl) as H1. pose proof (c75_aero _ _ _ lib h k v E2 eq_refl eq_refl) as H2.
  cbv zeta in *. rewrite L in *. split; [apply H1; cbn; unfold MB; lia|]. destruct H2 as (H2 & _ & H3).
  rewrite (surjective_pairing (stack_set lib h (w_store w2) k v)). destruct H3 as (-> & ->); [|reflexivity].
  intros Q. apply H2 in Q. cbn in Q. discriminate.
Qed.
Print Assumptions C75_block_refuted.
(** values that may wait, with nothing more said about it: the server does not start, although there are defaults *)
Theorem C75_lazy_default_refuted : exists c, c_lazy c = true /\ c_limit c = 0 /\ c_flush c = 0 /\
  (forall opens w, wire_up c opens <> inl w) /\
  exists w, wire_up (mkSet (c_master c) (c_storage c) (c_backup_set c) (c_backup c) (c_backup_every c) (c_entries c) (c_cache c) (c_updates c)
    (c_block c) (c_badger_path c) (c_badger_nosync c) (c_bolt_path c) (c_bolt_nosync c) (c_bolt_nogrow c) false 0 0 0 0 0
    (c_retry c) (c_op_timeout c)) all_open = inl w.
Proof.
  exists (mkSet "rankdb" "Memory" "" "" 0 0 "" 0 0 "" false "" false false true 0 0 0 0 0 false None).
  repeat (split; [reflexivity|]). split; [|eexists; reflexivity].
  intros opens w H. assert (S : exists w, wire_up (mkSet "rankdb" "Memory" "" "" 0 0 "" 0 0 "" false "" false false true 0 0 0 0 0 false None) opens = inl w) by eauto.
  apply c75_starts in S as (_ & L & _). destruct (L eq_refl) as ((F & _) & _). cbn in F. lia.
Qed.
Print Assumptions C75_lazy_default_refuted.
