(** What a configuration asks for. *)
From Coq Require Import Strings.String Strings.Byte.
From Verif.Lib Require Import Prelude ListAux.
From Verif.Model Require Import KV MaxSize Wiring.
Open Scope Z_scope.

Definition MB : Z := 1048576.
(** the file, if any, that a store keeps open *)
Definition file_of (b : base) : option string :=
  match b with Badger p _ _ | Bolt p _ _ => Some p | _ => None end.
(** no file is opened a second time *)
Definition exclusive (opens : list base -> base -> bool) : Prop :=
  forall l b b', In b' l -> file_of b <> None -> file_of b = file_of b' -> opens l b = false.
(** the block size asked for, 1 MB if none is *)
Definition block_of (c : settings) : Z := if c_block c =? 0 then MB else c_block c.
(** the store with that name, and that it can be used *)
Definition usable (c : settings) (opens : base -> bool) (name : string) (b : base) : Prop :=
  (name = "Memory"%string /\ b = Memory) \/
  (name = "Aerospike"%string /\ b = Aero /\ opens Aero = true /\ 2048 <= block_of c) \/
  (name = "BoltDB"%string /\ b = Bolt (c_bolt_path c) (c_bolt_nosync c) (c_bolt_nogrow c) /\ opens b = true) \/
  (name = "Badger"%string /\ b = Badger (c_badger_path c) (c_badger_nosync c) (c_badger_nosync c) /\ opens b = true).
Definition wants_backup (c : settings) : Prop := c_backup c <> ""%string /\ 0 < c_backup_every c.
Definition good_lazy (c : settings) : Prop :=
  0 < c_flush c <= c_limit c /\ 0 < c_savers c /\ 0 < c_maxtime c /\ 0 < c_save_timeout c.
Definition good_cache (c : settings) : Prop :=
  0 < c_entries c -> c_cache c = ""%string \/ c_cache c = "ARC"%string \/ c_cache c = "LRU"%string \/ c_cache c = "LRU2Q"%string.
(** everything that is needed for the server to start *)
Definition startable (c : settings) (opens : list base -> base -> bool) : Prop :=
  (exists b, usable c (opens []) (c_storage c) b /\
    (wants_backup c -> c_backup_set c <> ""%string /\
      (c_backup c <> "Master"%string -> exists b2, usable c (opens [b]) (c_backup c) b2))) /\
  (c_lazy c = true -> good_lazy c) /\ good_cache c /\ c_master c <> ""%string.

(** the base of a stack, and which of the two it is *)
Inductive on : stack -> who -> base -> Prop :=
| on_base w b : on (Base w b) w b
| on_max n s w b : on s w b -> on (MaxSize n s) w b
| on_retry t s w b : on s w b -> on (Retry t s) w b
| on_lazy s w b : on s w b -> on (Lazy s) w b.
(** a file is open in [w]: of the store or of the backup *)
Definition keeps_open (w : wired) (x : who) : Prop :=
  exists b s, (s = w_store w \/ exists set, w_backup w = Some (s, set)) /\ on s x b /\ file_of b <> None.
(** a stack as it should be: parts are cut only for Aerospike, all parts of a value are tried again together,
    waiting values are kept above all that *)
Definition core_ok (c : settings) (s : stack) : Prop :=
  exists w b, (b <> Aero /\ s = Base w b) \/ (b = Aero /\ s = MaxSize (block_of c - 1024) (Base w Aero)).
Definition tried_ok (c : settings) (s : stack) : Prop :=
  if c_retry c then exists t s', s = Retry t s' /\ core_ok c s' /\ t = match c_op_timeout c with Some t => t | None => 1000000000 end
  else core_ok c s.
Definition stack_ok (c : settings) (s : stack) : Prop :=
  if c_lazy c then exists s', s = Lazy s' /\ tried_ok c s' else tried_ok c s.

(** [ws]: the value [v] in parts, with up to three bytes in front, under the key and keys made of it *)
Definition cut (k : skey) (v : bytes) (ws : list (skey * bytes)) : Prop :=
  map fst ws = map (part_key k) (seq 0 (length ws)) /\ exists hd, (length hd <= 3)%nat /\ concat (map snd ws) = hd ++ v.
