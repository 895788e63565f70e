(** Model of the stores at the bottom: /repo/blobstore/memstore/memstore.go, /repo/blobstore/boltstore/boltstore.go and
    of /repo/blobstore/teststorage.go.
    Strings are lists of bytes.  Calls are atomic: memstore holds its mutex, bbolt runs transactions. *)
From Coq Require Import Strings.String Strings.Ascii.
From Verif.Lib Require Import Prelude ListAux.
From Verif.Lib Require Export Bytes.
From Verif.Model Require Import Keys Access.
Open Scope N_scope.

Inductive scall :=
| PGet (set key : bytes) | PSet (set key val : bytes) | PDel (set key : bytes)
| PUsage (set : bytes) | PDir (set : bytes) | PCreate (set key val : bytes).
Inductive sans :=
| AVal (v : bytes) | ANotFound | AOk | ATooBig | AShort | AExists | ARefused
| AUse (blobs size : nat) | ADir (lines : list bytes)
| APanic    (* the call panics *)
| AHang.    (* the call waits for ever *)

Definition slash : ascii := "/".
(** memstore.go:37-39 *)
Definition to_key (set key : bytes) : bytes := set ++ slash :: key.
(** strings.Split(k, "/") *)
Fixpoint split_slash (s : bytes) : list bytes :=
  match s with
  | [] => [[]]
  | c :: r =>
    if Ascii.eqb c slash then [] :: split_slash r
    else match split_slash r with [] => [[c]] | p :: ps => (c :: p) :: ps end
  end.
(** memstore.go:41-47; None: it panics *)
Definition split_key (k : bytes) : option (bytes * bytes) :=
  match split_slash k with [s; key] => Some (s, key) | _ => None end.

(** Go maps: an association list stands for the map in some order *)
Fixpoint get_b (k : bytes) (l : list (bytes * bytes)) : option bytes :=
  match l with [] => None | (a, v) :: r => if beq a k then Some v else get_b k r end.
Definition del_b (k : bytes) (l : list (bytes * bytes)) : list (bytes * bytes) := filter (fun e => negb (beq (fst e) k)) l.
Definition incr (k : bytes) (f : bytes -> nat) : bytes -> nat := fun a => if beq a k then S (f a) else f a.

(** memstore.go:28-35; [m_held]: blobsMu is locked for ever *)
Record mem := mkMem { m_blobs : list (bytes * bytes); m_reads : bytes -> nat; m_writes : bytes -> nat; m_deletes : bytes -> nat; m_held : bool }.
(** memstore.go:19-26 *)
Definition mem_new : mem := mkMem [] (fun _ => O) (fun _ => O) (fun _ => O) false.
(** blobstore.go:92 *)
Definition max_blob : N := 1048576.
(** memstore.go:111 *)
Definition dir_line (m : mem) (key k v : bytes) : bytes :=
  key ++ lit ": " ++ decimal (N.of_nat (length v)) ++ lit " bytes [r:" ++ decimal (N.of_nat (m_reads m k)) ++
  lit ", w:" ++ decimal (N.of_nat (m_writes m k)) ++ lit ", d:" ++ decimal (N.of_nat (m_deletes m k)) ++ lit "]".
(** memstore.go:108-113; None: splitKey panics *)
Fixpoint dir_lines (m : mem) (set : bytes) (l : list (bytes * bytes)) : option (list bytes) :=
  match l with
  | [] => Some []
  | (k, v) :: r =>
    match split_key k, dir_lines m set r with
    | Some (s, key), Some ls => Some (if beq set s then dir_line m key k v :: ls else ls)
    | _, _ => None
    end
  end.
(** sort.Strings: bytewise *)
Fixpoint bytes_lt (a b : bytes) : bool :=
  match a, b with
  | _, [] => false
  | [], _ :: _ => true
  | c :: a, d :: b => (N_of_ascii c <? N_of_ascii d) || (Ascii.eqb c d && bytes_lt a b)
  end.
Definition starts (p s : bytes) : bool := match drop_prefix p s with Some _ => true | None => false end.

(** memstore.go:49-117 *)
Definition mem_step (m : mem) (c : scall) : mem * sans :=
  match c with
  | PGet s k =>
    if m_held m then (m, AHang) else
    (mkMem (m_blobs m) (incr (to_key s k) (m_reads m)) (m_writes m) (m_deletes m) false,
     match get_b (to_key s k) (m_blobs m) with Some v => AVal v | None => ANotFound end)
  | PSet s k v =>
    if max_blob <? N.of_nat (length v) then (m, ATooBig)
    else if Nat.ltb (length k) 2 then (m, AShort)
    else if m_held m then (m, AHang)
    else (mkMem ((to_key s k, v) :: del_b (to_key s k) (m_blobs m)) (m_reads m) (incr (to_key s k) (m_writes m)) (m_deletes m) false, AOk)
  | PDel s k =>
    if m_held m then (m, AHang) else
    (mkMem (del_b (to_key s k) (m_blobs m)) (m_reads m) (m_writes m) (incr (to_key s k) (m_deletes m)) false, AOk)
  | PUsage s =>
    if m_held m then (m, AHang) else
    let l := filter (fun e => starts (to_key s []) (fst e)) (m_blobs m) in
    (m, AUse (length l) (list_sum (map (fun e => length (snd e)) l)))
  | PDir s =>
    if m_held m then (m, AHang) else
    match dir_lines m s (m_blobs m) with
    | Some ls => (m, ADir (sort_by bytes_lt ls))
    | None => (mkMem (m_blobs m) (m_reads m) (m_writes m) (m_deletes m) true, APanic)
    end
  | PCreate _ _ _ => (m, ARefused) (* MemBlobStore has no Create *)
  end.
Fixpoint run_store {A} (step : A -> scall -> A * sans) (m : A) (cs : list scall) : A * list sans :=
  match cs with
  | [] => (m, [])
  | c :: r => let '(m', a) := step m c in let '(m2, as_) := run_store step m' r in (m2, a :: as_)
  end.

(** boltstore.go: buckets by set.  [refuses]: bbolt does not take the bucket name, key or value *)
Definition bolt := bytes -> option (bytes -> option bytes).
Definition bolt_new : bolt := fun _ => None.
Definition bucket_put (b : bytes -> option bytes) (k : bytes) (v : option bytes) : bytes -> option bytes := fun k' => if beq k k' then v else b k'.
Definition put_bucket (d : bolt) (s : bytes) (b : bytes -> option bytes) : bolt := fun s' => if beq s s' then Some b else d s'.
(** CreateBucketIfNotExists *)
Definition bucket (d : bolt) (s : bytes) : bytes -> option bytes := match d s with Some b => b | None => fun _ => None end.
(** boltstore.go:43-95 *)
Definition bolt_step (refuses : bytes -> bytes -> bytes -> bool) (d : bolt) (c : scall) : bolt * sans :=
  match c with
  | PGet s k => (d, match d s with None => ANotFound | Some b => match b k with Some v => AVal v | None => ANotFound end end)
  | PSet s k v => if refuses s k v then (d, ARefused) else (put_bucket d s (bucket_put (bucket d s) k (Some v)), AOk)
  | PCreate s k v =>
    match bucket d s k with
    | Some _ => (d, AExists) (* the error rolls the transaction back *)
    | None => if refuses s k v then (d, ARefused) else (put_bucket d s (bucket_put (bucket d s) k (Some v)), AOk)
    end
  | PDel s k => match d s with None => (d, AOk) | Some b => (put_bucket d s (bucket_put b k None), AOk) end
  | PUsage _ | PDir _ => (d, ARefused) (* not in this store *)
  end.

(** teststorage.go:61-95: a check added to a test store, as the error it returns at its n-th call (from 0), and how often it was called *)
Record check := mkCheck { k_fails : nat -> bytes -> bytes -> bool; k_calls : nat }.
(** the newest check is first; true: the call goes on to the store below *)
Fixpoint ask (l : list check) (s k : bytes) : list check * bool :=
  match l with
  | [] => ([], true)
  | c :: r =>
    let c' := mkCheck (k_fails c) (S (k_calls c)) in
    if k_fails c (k_calls c) s k then (c' :: r, false)
    else let '(r', ok) := ask r s k in (c' :: r', ok)
  end.
(** teststorage.go:108-121 *)
Definition fail_after_n (n : nat) : check := mkCheck (fun now _ _ => Nat.eqb now n) 0.
(** teststorage.go:125-137; [rng]: the numbers of the generator *)
Definition fail_pct (n : N) (rng : nat -> N) : check := mkCheck (fun i _ _ => rng i mod 100 <? n) 0.
(** teststorage.go:98-104 *)
Definition always_fail : check := mkCheck (fun _ _ _ => true) 0.
Fixpoint ask_all (l : list check) (cs : list (bytes * bytes)) : list bool :=
  match cs with [] => [] | (s, k) :: r => let '(l', ok) := ask l s k in ok :: ask_all l' r end.
