(** Model of /repo/blobstore/badgerstore/badger.go.  The database below is a map from
    joined names to blobs; a committed transaction takes effect at once and survives a
    crash, what is not committed does not.  A call is one step per locked section or
    database transaction; Set and Close hold the mutex throughout and are one step. *)
From Coq Require Import Strings.String Strings.Ascii Strings.Byte.
From Verif.Lib Require Import Prelude ListAux.
From Verif.Model Require Import KV MaxSize.
Open Scope nat_scope.

(** badger.go:17 *)
Definition queue_size : nat := 100.
(** badger.go:51-57 [key], [keyString] *)
Definition bname (k : skey) : string := (fst k ++ "/" ++ snd k)%string.

Definition bdb := string -> option bytes.
Definition db_put (d : bdb) (n : string) (v : option bytes) : bdb := fun m => if string_dec n m then v else d m.
(** the Go map [queue]: names are distinct *)
Definition bqueue := list (string * bytes).
Definition q_get (q : bqueue) (n : string) : option bytes :=
  match find (fun p => if string_dec (fst p) n then true else false) q with Some p => Some (snd p) | None => None end.
Definition q_del (q : bqueue) (n : string) : bqueue := filter (fun p => if string_dec (fst p) n then false else true) q.
Definition q_put (q : bqueue) (n : string) (v : bytes) : bqueue := (n, v) :: q_del q n.

(** outcome of txn.Set for one entry: accepted; transaction too big, and then whether the
    commit and the second Set work; another error *)
Inductive tset := TOk | TBig (commit again : bool) | TErr.
(** how one flush goes: order of the map, outcomes of txn.Set (accepted if none is left),
    outcome of the last Commit *)
Record fscript := mkF { f_ord : list nat; f_sets : list tset; f_commit : bool }.
Definition commit (d : bdb) (txn : list (string * bytes)) : bdb := fold_left (fun d p => db_put d (fst p) (Some (snd p))) txn d.

(** badger.go:87-107 [flush]: database, queue, and whether the error is nil *)
Fixpoint flush_loop (last : bool) (todo : list (string * bytes)) (sets : list tset) (txn : list (string * bytes)) (d : bdb) (q : bqueue)
  : bdb * bqueue * bool :=
  match todo with
  | [] => if last then (commit d txn, q, true) else (d, q, false)
  | (n, v) :: todo =>
    match hd TOk sets with
    | TOk => flush_loop last todo (tl sets) (txn ++ [(n, v)]) d (q_del q n)
    | TBig c again =>
        let d := if c then commit d txn else d in
        if again then flush_loop last todo (tl sets) [(n, v)] d (q_del q n) else (d, q, false)
    | TErr => (d, q, false)
    end
  end.
Definition flush (f : fscript) (d : bdb) (q : bqueue) : bdb * bqueue * bool :=
  flush_loop (f_commit f) (permute (f_ord f) q) (f_sets f) [] d q.

(** [b_ask]: Gets that found nothing in the queue; [b_rem]: Deletes that have dropped the
    queue entry *)
Record bcfg := mkB { b_db : bdb; b_q : bqueue; b_ask : list (nat * skey); b_rem : list (nat * skey); b_next : nat }.
(** what can be seen *)
Inductive bevent :=
| BSet (k : skey) (v : bytes) (ok : bool)
| BHit (k : skey) (v : bytes)                  (* a Get answered from the queue *)
| BAsk (n : nat) (k : skey)                    (* a Get going to the database *)
| BAns (n : nat) (k : skey) (r : option (option bytes))  (* its answer; None: an error *)
| BDel (n : nat) (k : skey)                    (* a Delete dropping the queue entry *)
| BDeld (n : nat) (k : skey) (ok : bool)       (* the Delete returning *)
| BClose (ok : bool)                           (* Close returning, and the store opened again *)
| BCrash (o : option (skey * bytes)).           (* the process dies, maybe in a Set, and the store is opened again *)
Inductive bchoice :=
| B_set (k : skey) (v : bytes) (f : fscript) | B_get (k : skey) | B_ans (n : nat) (ok : bool)
| B_del (k : skey) | B_rem (n : nat) (f : fate) | B_close (f : fscript) (ok : bool)
(* the process dies, in the middle of a Set or flush if one is given: what was committed stays *)
| B_crash (o : option (skey * bytes)) (f : option fscript).

Definition at_n (l : list (nat * skey)) (n : nat) : option skey :=
  match find (fun p => Nat.eqb (fst p) n) l with Some p => Some (snd p) | None => None end.
Definition drop_n (l : list (nat * skey)) (n : nat) := filter (fun p => negb (Nat.eqb (fst p) n)) l.

(** badger.go:40-49 [Close]: whether the error is nil, given those of the flush and of the
    database; the error of the flush itself is never returned *)
Definition close_ok (flushed closed : bool) : bool := if flushed then true else closed.

Definition bfire (c : bcfg) (x : bchoice) : option (bevent * bcfg) :=
  match x with
  | B_set k v f => (* badger.go:109-120 *)
      let q := q_put (b_q c) (bname k) v in
      let '(d, q, ok) := if queue_size <=? length q then flush f (b_db c) q else (b_db c, q, true) in
      Some (BSet k v ok, mkB d q (b_ask c) (b_rem c) (b_next c))
  | B_get k => (* badger.go:59-69 *)
      match q_get (b_q c) (bname k) with
      | Some v => Some (BHit k v, c)
      | None => Some (BAsk (b_next c) k, mkB (b_db c) (b_q c) ((b_next c, k) :: b_ask c) (b_rem c) (S (b_next c)))
      end
  | B_ans n ok => (* badger.go:70-84 *)
      match at_n (b_ask c) n with
      | Some k => Some (BAns n k (if ok then Some (b_db c (bname k)) else None),
                        mkB (b_db c) (b_q c) (drop_n (b_ask c) n) (b_rem c) (b_next c))
      | None => None
      end
  | B_del k => (* badger.go:122-125 *)
      Some (BDel (b_next c) k, mkB (b_db c) (q_del (b_q c) (bname k)) (b_ask c) ((b_next c, k) :: b_rem c) (S (b_next c)))
  | B_rem n f => (* badger.go:126-132 *)
      match at_n (b_rem c) n with
      | Some k => Some (BDeld n k (works f),
                        mkB (if takes f then db_put (b_db c) (bname k) None else b_db c) (b_q c) (b_ask c) (drop_n (b_rem c) n) (b_next c))
      | None => None
      end
  | B_close f ok => (* badger.go:40-49, 20-30 *)
      let '(d, q, fl) := flush f (b_db c) (b_q c) in
      Some (BClose (close_ok fl ok), mkB d [] [] [] (b_next c))
  | B_crash o f =>
      let q := match o with Some (k, v) => q_put (b_q c) (bname k) v | None => b_q c end in
      let d := match f with Some f => fst (fst (flush f (b_db c) q)) | None => b_db c end in
      Some (BCrash o, mkB d [] [] [] (b_next c))
  end.

(** no database operation fails and no transaction is too big *)
Definition fine_flush (f : fscript) : Prop := f_commit f = true /\ Forall (fun x => x = TOk \/ x = TBig true true) (f_sets f).
Definition fine (x : bchoice) : Prop :=
  match x with
  | B_set _ _ f => fine_flush f
  | B_ans _ ok => ok = true
  | B_rem _ f => works f = true
  | B_close f ok => fine_flush f /\ ok = true
  | _ => True
  end.
Definition names_in (K : skey -> Prop) (x : bchoice) : Prop :=
  match x with B_set k _ _ | B_get k | B_del k | B_crash (Some (k, _)) _ => K k | _ => True end.
Definition no_crash (x : bchoice) : Prop := match x with B_crash _ _ => False | _ => True end.

(** badger.go:20-30 [New] on a database holding [d] *)
Definition bstart (d : bdb) : bcfg := mkB d [] [] [] 0.
Inductive bexec (ok : bchoice -> Prop) (d : bdb) : list bevent -> bcfg -> Prop :=
| Bx_nil : bexec ok d [] (bstart d)
| Bx_step tr c x e c' : bexec ok d tr c -> ok x -> bfire c x = Some (e, c') -> bexec ok d (tr ++ [e]) c'.
