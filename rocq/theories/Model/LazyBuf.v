(** Model of the buffers of /repo/blobstore/lazysaver.go: the machine of Model/Lazy.v with the values in recycled memory.
    A slice is the number of its backing array; [b_mem] is what the slice shows.  Steps are the locked sections, the copy of
    a Set's argument before it takes the lock, and what a caller does with the slice a Get gave it.  The pools are shared
    by all users of the package, so somebody else may take and give buffers too.  Shutdown and statistics are left out, as in
    Model/Lazy.v; the store does not keep the slice of a Set after it has returned (memstore.go:73-74 and badger.go:111-112 copy
    it, Bolt's transaction is over by then). *)
From Coq Require Import Strings.String Strings.Byte.
From Verif.Lib Require Import Prelude ListAux.
From Verif.Model Require Import KV MaxSize Lazy.

(** lazysaver.go:660-668 [getDataBufferChunk]: the pool; bits.Len32 is [N.size] *)
Definition get_pool (size : N) : nat :=
  if size <=? 2 ^ 10 then 0%nat else if 2 ^ 20 <=? size then 10%nat else N.to_nat (N.size (size - 1) - 10).
(** lazysaver.go:643-655: what New makes *)
Definition new_cap (i : nat) : N := 2 ^ (10 + N.of_nat i).
(** lazysaver.go:672-685 [putDataBufferChunk], with the conversion to uint32 *)
Definition put_pool (cap : N) : nat :=
  if 2 ^ 20 <=? cap then 10%nat else if 2 ^ 10 <=? cap then N.to_nat (N.size ((cap - 1) mod 2 ^ 32) - 10) else 0%nat.

(** lazysaver.go:69-76 *)
Record bitem := mkB { bi_id : nat; bi_key : skey; bi_b : option nat; bi_saving : bool }.
(** [b_calls]: calls of set that have copied their argument and wait for the lock; [b_out]: slices given to callers;
    [b_env]: slices of other users *)
Record bcfg := mkBC {
  b_mem : nat -> bytes; b_cap : nat -> N; b_pool : nat -> list nat; b_fresh : nat;
  b_calls : list (skey * bytes * nat); b_out : list nat; b_env : list nat;
  b_kv : kv; b_q : list bitem; b_idx : string -> option nat; b_next : nat;
  b_hand : option nat; b_sav : list (option (bitem * bool)); b_ask : list (nat * skey); b_nask : nat }.

Definition bfind (id : nat) (q : list bitem) : option bitem := find (fun e => Nat.eqb (bi_id e) id) q.
Definition bput (id : nat) (v : option nat) (q : list bitem) : list bitem :=
  map (fun e => if Nat.eqb (bi_id e) id then mkB (bi_id e) (bi_key e) v (bi_saving e) else e) q.
Definition bmark (id : nat) (q : list bitem) : list bitem :=
  map (fun e => if Nat.eqb (bi_id e) id then mkB (bi_id e) (bi_key e) (bi_b e) true else e) q.
Definition bdrop (id : nat) (q : list bitem) : list bitem := filter (fun e => negb (Nat.eqb (bi_id e) id)) q.
Definition bpending (c : bcfg) (k : skey) : option bitem :=
  match b_idx c (lazy_key k) with Some id => bfind id (b_q c) | None => None end.
Definition at_nat {A} (f : nat -> A) (n : nat) (v : A) : nat -> A := fun m => if Nat.eqb n m then v else f m.
Fixpoint del_nth {A} (n : nat) (l : list A) : list A :=
  match l with [] => [] | x :: r => match n with O => r | S n => x :: del_nth n r end end.

(** sync.Pool: Get gives any of the pool's slices or a new one *)
Inductive pick := PNew | POld (n : nat).
(** the memory part of a state *)
Definition memory : Type := (nat -> bytes) * (nat -> N) * (nat -> list nat) * nat.
Definition mem_of (c : bcfg) : memory := (b_mem c, b_cap c, b_pool c, b_fresh c).
Definition with_mem (c : bcfg) (m : memory) : bcfg :=
  let '(mm, cp, po, fr) := m in
  mkBC mm cp po fr (b_calls c) (b_out c) (b_env c) (b_kv c) (b_q c) (b_idx c) (b_next c) (b_hand c) (b_sav c) (b_ask c) (b_nask c).
Definition get_chunk (m : memory) (size : N) (p : pick) : option (nat * memory) :=
  let '(mm, cp, po, fr) := m in let i := get_pool size in
  match p with
  | PNew => Some (fr, (at_nat mm fr [], at_nat cp fr (new_cap i), po, S fr))
  | POld n => match nth_error (po i) n with
              | Some a => Some (a, (at_nat mm a [], cp, at_nat po i (del_nth n (po i)), fr))
              | None => None
              end
  end.
(** the built-in append to an empty slice: in place if there is room, else a new array with a capacity [g] of at least the
    length, and the old one is garbage *)
Definition append_to (a : nat) (v : bytes) (g : N) (m : memory) : nat * memory :=
  let '(mm, cp, po, fr) := m in
  if N.of_nat (length v) <=? cp a then (a, (at_nat mm a v, cp, po, fr))
  else (fr, (at_nat mm fr v, at_nat cp fr (N.max g (N.of_nat (length v))), po, S fr)).
(** lazysaver.go:212, 239 *)
Definition copy_of (m : memory) (v : bytes) (p : pick) (g : N) : option (nat * memory) :=
  match get_chunk m (N.of_nat (length v)) p with Some (a, m) => Some (append_to a v g m) | None => None end.
(** lazysaver.go:672-685; a nil slice is not put *)
Definition put_chunk (a : option nat) (m : memory) : memory :=
  match a with
  | None => m
  | Some a => let '(mm, cp, po, fr) := m in
      if cp a =? 0 then m else let i := put_pool (cp a) in (mm, cp, at_nat po i (a :: po i), fr)
  end.

Inductive bchoice :=
| BCopy (k : skey) (v : bytes) (p : pick) (g : N)
| BSet (n : nat)
| BDel (k : skey)
| BGet (k : skey) (p : pick) (g : N)
| BAns (n : nat) (f : fate)
| BFront
| BSend (j : nat)
| BWrite (j : nat) (f : fate)
| BDone (j : nat)
| BScribble (n : nat) (v : bytes)
| BGone (i n : nat)
| BEnvGet (v : bytes) (p : pick) (g : N)
| BEnvPut (n : nat).

(** lazysaver.go:240-264, 270-294 behind the copy; [a]: the new slice, or nil for a delete *)
Definition bset (c : bcfg) (k : skey) (a : option nat) : bcfg :=
  let add := mkBC (b_mem c) (b_cap c) (b_pool c) (b_fresh c) (b_calls c) (b_out c) (b_env c) (b_kv c)
                  (b_q c ++ [mkB (b_next c) k a false]) (set_at (b_idx c) (lazy_key k) (Some (b_next c))) (S (b_next c))
                  (b_hand c) (b_sav c) (b_ask c) (b_nask c) in
  match bpending c k with
  | Some e =>
    if bi_saving e then add
    else let c := with_mem c (put_chunk (bi_b e) (mem_of c)) in
         mkBC (b_mem c) (b_cap c) (b_pool c) (b_fresh c) (b_calls c) (b_out c) (b_env c) (b_kv c)
              (bput (bi_id e) a (b_q c)) (b_idx c) (b_next c) (b_hand c) (b_sav c) (b_ask c) (b_nask c)
  | None => add
  end.
Definition with_calls (c : bcfg) l : bcfg :=
  mkBC (b_mem c) (b_cap c) (b_pool c) (b_fresh c) l (b_out c) (b_env c) (b_kv c) (b_q c) (b_idx c) (b_next c)
       (b_hand c) (b_sav c) (b_ask c) (b_nask c).
Definition with_out (c : bcfg) l : bcfg :=
  mkBC (b_mem c) (b_cap c) (b_pool c) (b_fresh c) (b_calls c) l (b_env c) (b_kv c) (b_q c) (b_idx c) (b_next c)
       (b_hand c) (b_sav c) (b_ask c) (b_nask c).
Definition with_env (c : bcfg) l : bcfg :=
  mkBC (b_mem c) (b_cap c) (b_pool c) (b_fresh c) (b_calls c) (b_out c) l (b_kv c) (b_q c) (b_idx c) (b_next c)
       (b_hand c) (b_sav c) (b_ask c) (b_nask c).
Definition with_save (c : bcfg) s q ix h sv : bcfg :=
  mkBC (b_mem c) (b_cap c) (b_pool c) (b_fresh c) (b_calls c) (b_out c) (b_env c) s q ix (b_next c)
       h sv (b_ask c) (b_nask c).
Definition with_ask (c : bcfg) l n : bcfg :=
  mkBC (b_mem c) (b_cap c) (b_pool c) (b_fresh c) (b_calls c) (b_out c) (b_env c) (b_kv c) (b_q c) (b_idx c) (b_next c)
       (b_hand c) (b_sav c) l n.

(** a choice that is not possible does nothing *)
Definition bstep (c : bcfg) (x : bchoice) : bcfg * option levent :=
  match x with
  | BCopy k v p g => (* lazysaver.go:239 *)
    match copy_of (mem_of c) v p g with
    | Some (a, m) => (with_calls (with_mem c m) ((k, v, a) :: b_calls c), None)
    | None => (c, None)
    end
  | BSet n => (* 240-264 *)
    match nth_error (b_calls c) n with
    | Some (k, v, a) => (bset (with_calls c (del_nth n (b_calls c))) k (Some a), Some (LSet k (Some v)))
    | None => (c, None)
    end
  | BDel k => (bset c k None, Some (LSet k None)) (* 266-294 *)
  | BGet k p g => (* 196-221, then 223-233 *)
    match bpending c k with
    | Some e =>
      if skey_dec (bi_key e) k then
        match bi_b e with
        | None => (c, Some (LHit k None))
        | Some b => match copy_of (mem_of c) (b_mem c b) p g with
                    | Some (a, m) => let c := with_mem c m in (with_out c (a :: b_out c), Some (LHit k (Some (b_mem c a))))
                    | None => (c, None)
                    end
        end
      else (with_ask c ((b_nask c, k) :: b_ask c) (S (b_nask c)), Some (LAsk (b_nask c) k))
    | None => (with_ask c ((b_nask c, k) :: b_ask c) (S (b_nask c)), Some (LAsk (b_nask c) k))
    end
  | BAns n f => (* 223-233 *)
    match find (fun y => Nat.eqb (fst y) n) (b_ask c) with
    | Some (_, k) => (with_ask c (filter (fun y => negb (Nat.eqb (fst y) n)) (b_ask c)) (b_nask c),
                      Some (LAns n k (if works f then Some (b_kv c k) else None)))
    | None => (c, None)
    end
  | BFront => (* 329-347 *)
    match b_hand c, find (fun e => negb (bi_saving e)) (b_q c) with
    | None, Some e => (with_save c (b_kv c) (bmark (bi_id e) (b_q c)) (b_idx c) (Some (bi_id e)) (b_sav c), None)
    | _, _ => (c, None)
    end
  | BSend j => (* 348, 465-466 *)
    match b_hand c, nth_error (b_sav c) j with
    | Some id, Some None =>
      match bfind id (b_q c) with
      | Some e => (with_save c (b_kv c) (b_q c) (b_idx c) None (upd_nth j (fun _ => Some (e, false)) (b_sav c)), None)
      | None => (c, None)
      end
    | _, _ => (c, None)
    end
  | BWrite j f => (* 468-503 *)
    match nth_error (b_sav c) j with
    | Some (Some (e, false)) =>
      (with_save c (if takes f then kv_put (b_kv c) (bi_key e) (option_map (b_mem c) (bi_b e)) else b_kv c)
                 (b_q c) (b_idx c) (b_hand c) (upd_nth j (fun _ => Some (e, true)) (b_sav c)), None)
    | _ => (c, None)
    end
  | BDone j => (* 506-516 *)
    match nth_error (b_sav c) j with
    | Some (Some (e, true)) =>
      let c := with_save c (b_kv c) (bdrop (bi_id e) (b_q c))
                 (if match b_idx c (lazy_key (bi_key e)) with Some id => Nat.eqb id (bi_id e) | None => false end
                  then set_at (b_idx c) (lazy_key (bi_key e)) None else b_idx c)
                 (b_hand c) (upd_nth j (fun _ => None) (b_sav c)) in
      (with_mem c (put_chunk (bi_b e) (mem_of c)), None)
    | _ => (c, None)
    end
  | BScribble n v => (* a caller writes to the slice it was given *)
    match nth_error (b_out c) n with
    | Some a => (with_mem c (at_nat (b_mem c) a v, b_cap c, b_pool c, b_fresh c), None)
    | None => (c, None)
    end
  | BGone i n => (with_mem c (b_mem c, b_cap c, at_nat (b_pool c) i (del_nth n (b_pool c i)), b_fresh c), None) (* sync.Pool drops it *)
  | BEnvGet v p g =>
    match copy_of (mem_of c) v p g with Some (a, m) => (with_env (with_mem c m) (a :: b_env c), None) | None => (c, None) end
  | BEnvPut n =>
    match nth_error (b_env c) n with
    | Some a => let c := with_env c (del_nth n (b_env c)) in (with_mem c (put_chunk (Some a) (mem_of c)), None)
    | None => (c, None)
    end
  end.
(** a new one, with pools that nobody has used *)
Definition bstart (s : kv) (nsav : nat) : bcfg :=
  mkBC (fun _ => []) (fun _ => 0) (fun _ => []) 0 [] [] [] s [] (fun _ => None) 0 None (repeat None nsav) [] 0.
Fixpoint brun (c : bcfg) (l : list bchoice) : list levent * bcfg :=
  match l with
  | [] => ([], c)
  | x :: r => let '(c1, e) := bstep c x in let '(tr, c2) := brun c1 r in
              (match e with Some e => e :: tr | None => tr end, c2)
  end.
