(** Model of /repo/blobstore/maxsize.go.  Each call is a program of base-store
    operations; any number of threads run such programs, holding the per-key mutex.
    Base operations may fail, with or without having taken effect. *)
From Coq Require Import Strings.String Strings.Byte.
From Verif.Lib Require Import Prelude ListAux.
From Verif.Model Require Import KV.
Open Scope N_scope.

(** maxsize.go:51-57 *)
Definition map_key (k : skey) : string := (fst k ++ "/\" ++ snd k)%string.
Definition ext_key (k : skey) (n : N) : skey := (fst k, snd k ++ "+" ++ itoa n)%string.
(** the key of part [i]: maxsize.go:132-135, 176-179 *)
Definition part_key (k : skey) (i : nat) : skey :=
  match i with O => k | S j => ext_key k (N.of_nat j) end.

(** programs over the base store and the [parts] map (0 = no entry); a base read
    returns None on error *)
Inductive prog (A : Type) :=
| Ret (a : A)
| SGet (k : skey) (c : option (option bytes) -> prog A)
| SPut (k : skey) (v : bytes) (c : bool -> prog A)
| SDel (k : skey) (c : bool -> prog A)
| HGet (h : string) (c : nat -> prog A)
| HPut (h : string) (n : nat) (c : prog A).
Arguments Ret {A}. Arguments SGet {A}. Arguments SPut {A}. Arguments SDel {A}. Arguments HGet {A}. Arguments HPut {A}.

Inductive mres := RFound (b : bytes) | RNotFound | RCorrupt | RTooBig | ROk | RErr.

(** maxsize.go:92-99 *)
Fixpoint get_parts (k : skey) (cnt i : nat) (b : bytes) : prog mres :=
  match cnt with
  | O => Ret (RFound b)
  | S c => SGet (ext_key k (N.of_nat i)) (fun r =>
      match r with
      | Some (Some b2) => get_parts k c (S i) (b ++ b2)
      | Some None => Ret RNotFound
      | None => Ret RErr
      end)
  end.
(** maxsize.go:73-101 [Get] *)
Definition ms_get (k : skey) : prog mres :=
  SGet k (fun r =>
    match r with
    | Some (Some b) =>
      match uvarint b with
      | None => Ret RCorrupt
      | Some (n, size) =>
        let b := skipn size b in
        if n =? 0 then HPut (map_key k) 0 (Ret (RFound b))
        else HPut (map_key k) (S (N.to_nat n)) (get_parts k (N.to_nat n) 0 b)
      end
    | Some None => Ret RNotFound
    | None => Ret RErr
    end).

(** maxsize.go:118-124; errors are logged only *)
Fixpoint del_extra {A} (k : skey) (cnt i : nat) (c : prog A) : prog A :=
  match cnt with
  | O => c
  | S n => SDel (ext_key k (N.of_nat (i - 1))) (fun _ => del_extra k n (S i) c)
  end.
(** maxsize.go:131-147 *)
Fixpoint put_parts (maxsize : nat) (k : skey) (cnt i : nat) (b2 : bytes) (c : prog mres) : prog mres :=
  match cnt with
  | O => c
  | S n => let l := Nat.min maxsize (length b2) in
           SPut (part_key k i) (firstn l b2) (fun ok =>
             if ok then put_parts maxsize k n (S i) (skipn l b2) c else Ret RErr)
  end.
(** maxsize.go:103-158 [Set] *)
Definition total_parts (maxsize : nat) (b : bytes) : nat := (length b + 3 + maxsize - 1) / maxsize.
Definition ms_set (maxsize : nat) (k : skey) (b : bytes) : prog mres :=
  let total := total_parts maxsize b in
  if 65535 <=? N.of_nat total then Ret RTooBig
  else HGet (map_key k) (fun prev =>
    del_extra k (prev - total) total
      (put_parts maxsize k total 0 (put_uvarint 10 (N.of_nat (total - 1)) ++ b)
         (HPut (map_key k) (if Nat.eqb total 1 then O else total) (Ret ROk)))).

(** maxsize.go:176-185 *)
Fixpoint del_parts (k : skey) (cnt i : nat) (c : prog mres) : prog mres :=
  match cnt with
  | O => c
  | S n => SDel (part_key k i) (fun ok => if ok then del_parts k n (S i) c else Ret RErr)
  end.
(** n++ on uint64, then the loop bound int(n) *)
Definition loop_bound (n : N) : nat :=
  let m := (n + 1) mod 2 ^ 64 in if m <? 2 ^ 63 then N.to_nat m else O.
(** maxsize.go:160-190 [Delete]; any error of the read counts as "not there" *)
Definition ms_del (k : skey) : prog mres :=
  HGet (map_key k) (fun n =>
    let fin := HPut (map_key k) 0 (Ret ROk) in
    match n with
    | O => SGet k (fun r =>
        match r with
        | Some (Some b) =>
          del_parts k (loop_bound (match uvarint b with Some (n, _) => n | None => 0 end)) 0 fin
        | _ => Ret ROk
        end)
    | _ => del_parts k n 0 fin
    end).

Inductive mop := MGet (k : skey) | MSet (k : skey) (b : bytes) | MDel (k : skey).
Definition op_key (o : mop) : skey := match o with MGet k | MSet k _ | MDel k => k end.
Definition op_prog (maxsize : nat) (o : mop) : prog mres :=
  match o with MGet k => ms_get k | MSet k b => ms_set maxsize k b | MDel k => ms_del k end.

(** Threads.  A running call remembers whether one of its base operations failed. *)
Record thread := mkT { t_todo : list mop; t_cur : option (mop * prog mres * bool) }.
Record config := mkC {
  c_kv : kv; c_parts : string -> nat; c_locked : string -> bool; c_thr : list thread
}.
Definition set_thr (c : config) (i : nat) (t : thread) : list thread := upd_nth i (fun _ => t) (c_thr c).
Definition running (c : config) : list mop :=
  flat_map (fun t => match t_cur t with Some (o, _, _) => [o] | None => [] end) (c_thr c).
Definition set_at {A} (f : string -> A) (h : string) (v : A) : string -> A :=
  fun h' => if string_dec h h' then v else f h'.

(** how a base operation ends: works; fails without effect; fails after taking effect *)
Inductive fate := Good | FailBefore | FailAfter.
Definition works (f : fate) : bool := match f with Good => true | _ => false end.
Definition takes (f : fate) : bool := match f with FailBefore => false | _ => true end.

(** what can be seen: a finished call, and whether one of its base operations
    failed; or a crash, and which calls were running *)
Inductive event := Fin (o : mop) (r : mres) (failed : bool) | Crash (l : list mop).

(** a new wrapper over a store, with threads about to do [todo] *)
Definition start (s : kv) (todo : list (list mop)) : config :=
  mkC s (fun _ => O) (fun _ => false) (map (fun l => mkT l None) todo).
Definition only_keys (K : skey -> Prop) (todo : list (list mop)) : Prop :=
  Forall (Forall (fun o => K (op_key o))) todo.

(** maxsize.go:59-70 [runningOp]: start needs the mutex of the key, finishing releases it.
    After a crash a new wrapper is made over the same store, for calls on keys in [K]. *)
Inductive mstep (maxsize : nat) (K : skey -> Prop) : config -> option event -> config -> Prop :=
| St_start c i o todo :
    nth_error (c_thr c) i = Some (mkT (o :: todo) None) -> c_locked c (map_key (op_key o)) = false ->
    mstep maxsize K c None
      (mkC (c_kv c) (c_parts c) (set_at (c_locked c) (map_key (op_key o)) true)
           (set_thr c i (mkT todo (Some (o, op_prog maxsize o, false)))))
| St_end c i o todo r fl :
    nth_error (c_thr c) i = Some (mkT todo (Some (o, Ret r, fl))) ->
    mstep maxsize K c (Some (Fin o r fl))
      (mkC (c_kv c) (c_parts c) (set_at (c_locked c) (map_key (op_key o)) false)
           (set_thr c i (mkT todo None)))
| St_get c i o todo k p fl f :
    nth_error (c_thr c) i = Some (mkT todo (Some (o, SGet k p, fl))) ->
    mstep maxsize K c None
      (mkC (c_kv c) (c_parts c) (c_locked c)
           (set_thr c i (mkT todo (Some (o, p (if works f then Some (c_kv c k) else None), fl || negb (works f))))))
| St_put c i o todo k v p fl f :
    nth_error (c_thr c) i = Some (mkT todo (Some (o, SPut k v p, fl))) ->
    mstep maxsize K c None
      (mkC (if takes f then kv_put (c_kv c) k (Some v) else c_kv c) (c_parts c) (c_locked c)
           (set_thr c i (mkT todo (Some (o, p (works f), fl || negb (works f))))))
| St_del c i o todo k p fl f :
    nth_error (c_thr c) i = Some (mkT todo (Some (o, SDel k p, fl))) ->
    mstep maxsize K c None
      (mkC (if takes f then kv_put (c_kv c) k None else c_kv c) (c_parts c) (c_locked c)
           (set_thr c i (mkT todo (Some (o, p (works f), fl || negb (works f))))))
| St_hget c i o todo h p fl :
    nth_error (c_thr c) i = Some (mkT todo (Some (o, HGet h p, fl))) ->
    mstep maxsize K c None
      (mkC (c_kv c) (c_parts c) (c_locked c) (set_thr c i (mkT todo (Some (o, p (c_parts c h), fl)))))
| St_hput c i o todo h n p fl :
    nth_error (c_thr c) i = Some (mkT todo (Some (o, HPut h n p, fl))) ->
    mstep maxsize K c None
      (mkC (c_kv c) (set_at (c_parts c) h n) (c_locked c) (set_thr c i (mkT todo (Some (o, p, fl)))))
| St_crash c todo :
    only_keys K todo ->
    mstep maxsize K c (Some (Crash (running c))) (start (c_kv c) todo).

(** executions with what was seen, in order *)
Inductive mexec (maxsize : nat) (K : skey -> Prop) : config -> list event -> config -> Prop :=
| Ex_nil c : mexec maxsize K c [] c
| Ex_step c e c1 tr c2 : mstep maxsize K c e c1 -> mexec maxsize K c1 tr c2 ->
    mexec maxsize K c (match e with Some x => x :: tr | None => tr end) c2.

(** One call without interference and without failures, for examples: number of
    base and map operations allowed, store, parts map; the result if it finished. *)
Fixpoint solo {A} (fuel : nat) (p : prog A) (s : kv) (h : string -> nat) : option A * kv * (string -> nat) :=
  match fuel with
  | O => (None, s, h)
  | S f =>
    match p with
    | Ret a => (Some a, s, h)
    | SGet k c => solo f (c (Some (s k))) s h
    | SPut k v c => solo f (c true) (kv_put s k (Some v)) h
    | SDel k c => solo f (c true) (kv_put s k None) h
    | HGet x c => solo f (c (h x)) s h
    | HPut x n c => solo f c s (set_at h x n)
    end
  end.
