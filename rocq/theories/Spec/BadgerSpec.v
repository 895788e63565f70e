(** The Badger store seen as a map. *)
From Coq Require Import Strings.String Strings.Byte.
From Verif.Lib Require Import Prelude.
From Verif.Model Require Import KV MaxSize Badger.
Open Scope nat_scope.

(** the map the database stands for *)
Definition held (d : bdb) : kv := fun k => d (fst k ++ "/" ++ snd k)%string.
(** value of [k] after the calls of [tr] on top of [s]; a Delete counts when it returns *)
Definition latest (s : kv) (tr : list bevent) : kv :=
  fold_left (fun m e => match e with BSet k v _ => kv_put m k (Some v) | BDeld _ k _ => kv_put m k None | _ => m end) tr s.

Definition away (n : nat) (l : list (nat * skey)) := filter (fun p => negb (Nat.eqb (fst p) n)) l.
(** the Deletes and the database reads running after [tr] *)
Definition dels (tr : list bevent) : list (nat * skey) :=
  fold_left (fun l e => match e with BDel n k => (n, k) :: l | BDeld n _ _ => away n l | BClose _ | BCrash _ => [] | _ => l end) tr [].
Definition gets (tr : list bevent) : list (nat * skey) :=
  fold_left (fun l e => match e with BAsk n k => (n, k) :: l | BAns n _ _ => away n l | BClose _ | BCrash _ => [] | _ => l end) tr [].

(** no call on a key overlaps a Delete of the same key, and Close waits for Deletes *)
Definition clear_for (a : list bevent) (e : bevent) : Prop :=
  match e with
  | BSet k _ _ | BHit k _ | BAsk _ k => ~ In k (map snd (dels a))
  | BDel _ k => ~ In k (map snd (dels a)) /\ ~ In k (map snd (gets a))
  | BClose _ => dels a = []
  | _ => True
  end.
Definition apart (tr : list bevent) : Prop := forall a e b, tr = a ++ e :: b -> clear_for a e.

(** between database read [n] of [k] starting and the end of [tr], [k] had value [v] *)
Definition current (s : kv) (tr : list bevent) (n : nat) (k : skey) (v : option bytes) : Prop :=
  exists t1 t2 t3, tr = t1 ++ BAsk n k :: t2 ++ t3 /\ v = latest s (t1 ++ BAsk n k :: t2) k.

(** a Get of [k] in state [c], alone and without failure, returns [r] *)
Definition reads (c : bcfg) (k : skey) (r : option bytes) : Prop :=
  (exists v c', bfire c (B_get k) = Some (BHit k v, c') /\ r = Some v) \/
  (exists n c1 c2, bfire c (B_get k) = Some (BAsk n k, c1) /\ bfire c1 (B_ans n true) = Some (BAns n k (Some r), c2)).

(** the event reports success *)
Definition fine_event (e : bevent) : Prop :=
  match e with BSet _ _ ok | BDeld _ _ ok | BClose ok => ok = true | BAns _ _ r => r <> None | BCrash _ => False | _ => True end.

(** [v] was handed to a Set of a key with the same joined name *)
Definition handed (tr : list bevent) (k : skey) (v : bytes) : Prop :=
  exists k', (fst k ++ "/" ++ snd k = fst k' ++ "/" ++ snd k')%string /\
    ((exists ok, In (BSet k' v ok) tr) \/ In (BCrash (Some (k', v))) tr).
