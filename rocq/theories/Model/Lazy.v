(** Model of /repo/blobstore/lazysaver.go as a transition system.  Every locked section
    is one step; background steps may happen at any time, so the timer, flush limit and
    token conditions are over-approximated.  Buffer pools are in Model/LazyBuf.v, Shutdown in
    Model/LazyStop.v; statistics and logging are not modelled. *)
From Coq Require Import Strings.String Strings.Byte.
From Verif.Lib Require Import Prelude ListAux.
From Verif.Model Require Import KV MaxSize.

(** lazysaver.go:638-640 [lazyKey] *)
Definition lazy_key (k : skey) : string := (fst k ++ "/" ++ snd k)%string.

(** lazysaver.go:69-76 [updateItemRequest]; [i_id] stands for the list element pointer,
    [i_b] = None for a delete *)
Record item := mkI { i_id : nat; i_key : skey; i_b : option bytes; i_saving : bool }.

(** [l_hand]: the element the request handler is about to send on [savech];
    [l_sav]: per saver goroutine what it received, and whether the store call is done;
    [l_ask]: calls of get that found nothing pending and will read the store *)
Record lcfg := mkL {
  l_kv : kv; l_q : list item; l_idx : string -> option nat; l_next : nat;
  l_hand : option nat; l_sav : list (option (item * bool)); l_ask : list (nat * skey); l_nask : nat
}.

(** what can be seen: a Set (or Delete, None) taking effect; a Get answered from the
    queue; a Get going to the store; its answer (None: the store failed) *)
Inductive levent :=
| LSet (k : skey) (v : option bytes)
| LHit (k : skey) (v : option bytes)
| LAsk (n : nat) (k : skey)
| LAns (n : nat) (k : skey) (r : option (option bytes)).

Definition find_item (id : nat) (q : list item) : option item := find (fun e => Nat.eqb (i_id e) id) q.
Definition put_b (id : nat) (v : option bytes) (q : list item) : list item :=
  map (fun e => if Nat.eqb (i_id e) id then mkI (i_id e) (i_key e) v (i_saving e) else e) q.
Definition mark (id : nat) (q : list item) : list item :=
  map (fun e => if Nat.eqb (i_id e) id then mkI (i_id e) (i_key e) (i_b e) true else e) q.
Definition drop (id : nat) (q : list item) : list item := filter (fun e => negb (Nat.eqb (i_id e) id)) q.

(** what the index holds for a key: lazysaver.go:199, 241, 271 *)
Definition pending (c : lcfg) (k : skey) : option item :=
  match l_idx c (lazy_key k) with Some id => find_item id (l_q c) | None => None end.

(** lazysaver.go:236-264 [set] and 266-296 [delete], with [add] (311-326) *)
Definition do_set (c : lcfg) (k : skey) (v : option bytes) : lcfg :=
  let add := mkL (l_kv c) (l_q c ++ [mkI (l_next c) k v false])
                 (set_at (l_idx c) (lazy_key k) (Some (l_next c))) (S (l_next c))
                 (l_hand c) (l_sav c) (l_ask c) (l_nask c) in
  match pending c k with
  | Some e => if i_saving e then add
              else mkL (l_kv c) (put_b (i_id e) v (l_q c)) (l_idx c) (l_next c)
                       (l_hand c) (l_sav c) (l_ask c) (l_nask c)
  | None => add
  end.

Inductive lstep (may_fail : bool) (K : skey -> Prop) : lcfg -> option levent -> lcfg -> Prop :=
| Lz_set c k v : K k -> lstep may_fail K c (Some (LSet k v)) (do_set c k v)
(** lazysaver.go:196-217 *)
| Lz_hit c k e : K k -> pending c k = Some e -> i_key e = k -> lstep may_fail K c (Some (LHit k (i_b e))) c
| Lz_ask c k : K k -> (forall e, pending c k = Some e -> i_key e <> k) ->
    lstep may_fail K c (Some (LAsk (l_nask c) k))
      (mkL (l_kv c) (l_q c) (l_idx c) (l_next c) (l_hand c) (l_sav c) ((l_nask c, k) :: l_ask c) (S (l_nask c)))
(** lazysaver.go:223-233 *)
| Lz_ans c n k f : In (n, k) (l_ask c) -> (works f = false -> may_fail = true) ->
    lstep may_fail K c (Some (LAns n k (if works f then Some (l_kv c k) else None)))
      (mkL (l_kv c) (l_q c) (l_idx c) (l_next c) (l_hand c) (l_sav c)
           (filter (fun x => negb (Nat.eqb (fst x) n)) (l_ask c)) (l_nask c))
(** lazysaver.go:329-347 [saveFront] *)
| Lz_front c e : l_hand c = None -> find (fun e => negb (i_saving e)) (l_q c) = Some e ->
    lstep may_fail K c None
      (mkL (l_kv c) (mark (i_id e) (l_q c)) (l_idx c) (l_next c) (Some (i_id e)) (l_sav c) (l_ask c) (l_nask c))
(** the send on [savech] meets a saver: 348, 465-466 *)
| Lz_send c id e j : l_hand c = Some id -> find_item id (l_q c) = Some e ->
    nth_error (l_sav c) j = Some None ->
    lstep may_fail K c None
      (mkL (l_kv c) (l_q c) (l_idx c) (l_next c) None (upd_nth j (fun _ => Some (e, false)) (l_sav c)) (l_ask c) (l_nask c))
(** lazysaver.go:468-503: the store call; its error is only logged *)
| Lz_write c j e f : nth_error (l_sav c) j = Some (Some (e, false)) -> (works f = false -> may_fail = true) ->
    lstep may_fail K c None
      (mkL (if takes f then kv_put (l_kv c) (i_key e) (i_b e) else l_kv c) (l_q c) (l_idx c) (l_next c)
           (l_hand c) (upd_nth j (fun _ => Some (e, true)) (l_sav c)) (l_ask c) (l_nask c))
(** lazysaver.go:506-516 *)
| Lz_done c j e : nth_error (l_sav c) j = Some (Some (e, true)) ->
    lstep may_fail K c None
      (mkL (l_kv c) (drop (i_id e) (l_q c))
           (if match l_idx c (lazy_key (i_key e)) with Some id => Nat.eqb id (i_id e) | None => false end
            then set_at (l_idx c) (lazy_key (i_key e)) None else l_idx c)
           (l_next c) (l_hand c) (upd_nth j (fun _ => None) (l_sav c)) (l_ask c) (l_nask c)).

(** a new wrapper over store [s] with [nsav] savers: lazysaver.go:172-308 *)
Definition lstart (s : kv) (nsav : nat) : lcfg :=
  mkL s [] (fun _ => None) 0 None (repeat None nsav) [] 0.

Inductive lexec (nsav : nat) (may_fail : bool) (K : skey -> Prop) (s : kv) : list levent -> lcfg -> Prop :=
| Lx_nil : lexec nsav may_fail K s [] (lstart s nsav)
| Lx_step tr c e c' : lexec nsav may_fail K s tr c -> lstep may_fail K c e c' ->
    lexec nsav may_fail K s (tr ++ match e with Some x => [x] | None => [] end) c'.
