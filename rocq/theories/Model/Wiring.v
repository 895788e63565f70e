(** Model of what a server is put together from: /repo/api/rankdb.go:115-332 (StartServer, newBlobstore, wrapRetry), and of
    a Set that goes through the stores on top of each other.  Loading of the lists (256-261) is in Model/Manager.v, the
    stages of a shutdown in Model/Drain.v; logging, New Relic and AWS are left out. *)
From Coq Require Import Strings.String Strings.Byte.
From Verif.Lib Require Import Prelude ListAux.
From Verif.Model Require Import KV MaxSize.
Open Scope Z_scope.

(** api/rankdb.go:47-112, what is used here; times in ns *)
Record settings := mkSet {
  c_master : string; c_storage : string; c_backup_set : string; c_backup : string; c_backup_every : Z;
  c_entries : Z; c_cache : string; c_updates : Z;
  c_block : Z;                                     (* Aerospike.WriteBlockSize *)
  c_badger_path : string; c_badger_nosync : bool;
  c_bolt_path : string; c_bolt_nosync : bool; c_bolt_nogrow : bool;
  c_lazy : bool; c_maxtime : Z; c_limit : Z; c_flush : Z; c_savers : Z; c_save_timeout : Z;
  c_retry : bool; c_op_timeout : option Z }.

(** which of the two stores *)
Inductive who := Main | Back.
Inductive base :=
| Badger (path : string) (sync truncate : bool)
| Bolt (path : string) (nosync nogrow : bool)
| Memory
| Aero.
Inductive stack :=
| Base (w : who) (b : base)
| MaxSize (n : Z) (s : stack)
| Retry (timeout : Z) (s : stack)
| Lazy (s : stack).
Inductive closer := CloseBase (w : who) | CloseLazy.
Inductive werr := EUnknown | EOpen | EBlock | ENoBackupSet | ELazy | ECache | ENoSet.

(** api/rankdb.go:278-318; [opens b]: the database can be opened.  blobstore/maxsize.go:35-45: the size must be at least 1024 *)
Definition new_blobstore (c : settings) (w : who) (opens : base -> bool) (s : string) : stack * list closer + werr :=
  if (s =? "Badger")%string then
    let b := Badger (c_badger_path c) (c_badger_nosync c) (c_badger_nosync c) in
    if opens b then inl (Base w b, [CloseBase w]) else inr EOpen
  else if (s =? "BoltDB")%string then
    let b := Bolt (c_bolt_path c) (c_bolt_nosync c) (c_bolt_nogrow c) in
    if opens b then inl (Base w b, [CloseBase w]) else inr EOpen
  else if (s =? "Memory")%string then inl (Base w Memory, [])
  else if (s =? "Aerospike")%string then
    if opens Aero then
      let block := if c_block c =? 0 then 1048576 else c_block c in
      if block - 1024 <? 1024 then inr EBlock else inl (MaxSize (block - 1024) (Base w Aero), [])
    else inr EOpen
  else inr EUnknown.
(** api/rankdb.go:321-332, blobstore/retry.go:39-49: one second if not given *)
Definition wrap_retry (c : settings) (s : stack) : stack :=
  if c_retry c then Retry (match c_op_timeout c with Some t => t | None => 1000000000 end) s else s.
(** blobstore/lazysaver.go:106-155 behind 175-189 *)
Definition lazy_ok (c : settings) : bool :=
  (0 <=? c_limit c) && (0 <? c_flush c) && (c_flush c <=? c_limit c) && (0 <? c_savers c) && (0 <? c_maxtime c) && (0 <? c_save_timeout c).
(** api/rankdb.go:233-251 *)
Definition cache_ok (c : settings) : bool :=
  if 0 <? c_entries c then existsb (String.eqb (c_cache c)) [""; "ARC"; "LRU"; "LRU2Q"]%string else true.

Record wired := mkWired { w_store : stack; w_backup : option (stack * string); w_close : list closer (* in the order of the calls *) }.
(** api/rankdb.go:165-273; [opens l b]: [b] can be opened while those of [l] are open *)
Definition bases (s : stack) : list base :=
  (fix go s := match s with Base _ b => [b] | MaxSize _ s | Retry _ s | Lazy s => go s end) s.
Definition wire_up (c : settings) (opens : list base -> base -> bool) : wired + werr :=
  match new_blobstore c Main (opens []) (c_storage c) with
  | inr e => inr e
  | inl (s, cl) =>
    let store := wrap_retry c s in
    let backup :=
      if negb (c_backup c =? "")%string && (0 <? c_backup_every c) then
        if (c_backup_set c =? "")%string then inr ENoBackupSet
        else if negb (c_backup c =? "Master")%string then
          match new_blobstore c Back (opens (bases s)) (c_backup c) with
          | inr e => inr e
          | inl (s2, cl2) => inl (Some (wrap_retry c s2, c_backup_set c), cl ++ cl2)
          end
        else inl (Some (store, c_backup_set c), cl)
      else inl (None, cl) in
    match backup with
    | inr e => inr e
    | inl (b, cl) =>
      if c_lazy c && negb (lazy_ok c) then inr ELazy
      else if negb (cache_ok c) then inr ECache
      else if (c_master c =? "")%string then inr ENoSet (* manager.go:29-37 *)
      else let '(store, cl) := if c_lazy c then (Lazy store, cl ++ [CloseLazy]) else (store, cl) in
           inl (mkWired store b (rev cl)) (* 265-272: deferred calls *)
    end
  end.

(** ** A Set through the stores, nothing failing.  memstore.go:63-80, aerostore.go:100-113: what the bases take; [lib]: what
    the libraries behind the others take *)
Definition takes (lib : base -> bytes -> bool) (b : base) (k : skey) (v : bytes) : mres :=
  match b with
  | Memory => if 1048576 <? Z.of_nat (length v) then RTooBig else if (String.length (snd k) <? 2)%nat then RErr else ROk
  | Aero => if 1048576 <? Z.of_nat (length v) then RTooBig else ROk
  | _ => if lib b v then ROk else RErr
  end.
(** a program of the size limiting store with its writes going to [put]; [h]: the map of parts; the writes that were done *)
Fixpoint run_put (put : skey -> bytes -> mres * list (skey * bytes)) (h : string -> nat) (p : prog mres) : mres * list (skey * bytes) :=
  match p with
  | Ret a => (a, [])
  | SGet _ c => run_put put h (c (Some None))
  | SPut k v c =>
    match put k v with
    | (ROk, l) => let '(r, l2) := run_put put h (c true) in (r, l ++ l2)
    | (e, l) => (e, l)                          (* maxsize.go:142-144: its error is returned *)
    end
  | SDel _ c => run_put put h (c true)
  | HGet x c => run_put put h (c (h x))
  | HPut _ _ c => run_put put h c
  end.
(** the answer to the caller, and what is written to the base, at once or (Lazy) later.  retry.go:144-161: nothing is
    tried again after success; lazysaver.go:602-618: accepted whatever it is *)
Fixpoint stack_set (lib : base -> bytes -> bool) (h : string -> nat) (s : stack) (k : skey) (v : bytes) : mres * list (skey * bytes) :=
  match s with
  | Base _ b => match takes lib b k v with ROk => (ROk, [(k, v)]) | e => (e, []) end
  | MaxSize n s => run_put (stack_set lib h s) h (ms_set (Z.to_nat n) k v)
  | Retry _ s => stack_set lib h s k v
  | Lazy s => (ROk, snd (stack_set lib h s k v))
  end.
