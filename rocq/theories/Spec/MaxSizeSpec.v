(** What the size-limiting store must do: a plain map, where a failed write or a
    crash leaves the value of that key in doubt. *)
From Coq Require Import Strings.String Strings.Byte.
From Verif.Lib Require Import Prelude.
From Verif.Model Require Import KV MaxSize.
Open Scope N_scope.

Inductive aval :=
| Fresh                      (* never written *)
| Known (v : option bytes)   (* what Get finds *)
| Torn (b : bytes)           (* first write was cut short: nothing or all of [b] *)
| Unknown.
Definition amap := skey -> aval.
Definition aput (m : amap) (k : skey) (v : aval) : amap := fun k' => if skey_dec k k' then v else m k'.
Definition nothing : amap := fun _ => Fresh.

Definition may_find (a : aval) (b : bytes) : Prop := a = Known (Some b) \/ a = Torn b \/ a = Unknown.
Definition may_miss (a : aval) : Prop := forall b, a <> Known (Some b).
(** what is left of [a] by a call cut short *)
Definition torn (o : mop) (a : aval) : aval :=
  match o, a with
  | MGet _, _ => a
  | MSet _ b, Fresh => Torn b
  | MDel _, Fresh => Fresh
  | _, _ => Unknown
  end.

(** 65535 parts or more are needed, counting three bytes for the part counter *)
Definition too_big (maxsize : nat) (b : bytes) : Prop :=
  65534 * N.of_nat maxsize < N.of_nat (length b) + 3.

(** a call on a key with value [a] may return [r] and leave [a'] *)
Definition may_return (maxsize : nat) (o : mop) (a : aval) (r : mres) (failed : bool) (a' : aval) : Prop :=
  match o, r with
  | MGet _, RFound b => may_find a b /\ a' = Known (Some b)
  | MGet _, RNotFound => may_miss a /\ a' = match a with Fresh => Fresh | _ => Known None end
  | MGet _, RErr => failed = true /\ a' = a
  | MSet _ b, RTooBig => too_big maxsize b /\ a' = a
  | MSet _ b, ROk => ~ too_big maxsize b /\ a' = Known (Some b)
  | MSet _ b, RErr => ~ too_big maxsize b /\ failed = true /\ a' = torn o a
  | MDel _, ROk => a' = match a with Fresh => Fresh | _ => if failed then a else Known None end
  | MDel _, RErr => failed = true /\ a' = torn o a
  | _, _ => False
  end.

Inductive replay (maxsize : nat) : amap -> list event -> amap -> Prop :=
| Rp_nil m : replay maxsize m [] m
| Rp_fin m o r fl v tr m' :
    may_return maxsize o (m (op_key o)) r fl v -> replay maxsize (aput m (op_key o) v) tr m' ->
    replay maxsize m (Fin o r fl :: tr) m'
| Rp_crash m l tr m' : NoDup (map op_key l) ->
    replay maxsize (fold_left (fun m o => aput m (op_key o) (torn o (m (op_key o)))) l m) tr m' ->
    replay maxsize m (Crash l :: tr) m'.

(** no key is another one followed by "+" and a number *)
Definition no_clash (K : skey -> Prop) : Prop :=
  forall k1 k2 n, K k1 -> K k2 -> fst k1 = fst k2 -> snd k1 <> (snd k2 ++ "+" ++ itoa n)%string.

(** what calls return from a plain map, up to the first failure or crash *)
Fixpoint plain (maxsize : nat) (m : skey -> option bytes) (tr : list event) : Prop :=
  match tr with
  | [] => True
  | Crash _ :: _ => True
  | Fin _ _ true :: _ => True
  | Fin (MGet k) r false :: t => r = match m k with Some b => RFound b | None => RNotFound end /\ plain maxsize m t
  | Fin (MSet k b) r false :: t =>
      (too_big maxsize b /\ r = RTooBig /\ plain maxsize m t) \/
      (~ too_big maxsize b /\ r = ROk /\ plain maxsize (fun k' => if skey_dec k k' then Some b else m k') t)
  | Fin (MDel k) r false :: t => r = ROk /\ plain maxsize (fun k' => if skey_dec k k' then None else m k') t
  end.

(** nothing is seen about key [k] *)
Definition untouched (k : skey) (tr : list event) : Prop :=
  Forall (fun e => match e with Fin o _ _ => op_key o <> k | Crash l => ~ In k (map op_key l) end) tr.

(** the value of key [k] after what was seen *)
Fixpoint value_after (k : skey) (v : option bytes) (tr : list event) : option bytes :=
  match tr with
  | [] => v
  | Fin (MSet k' b) ROk _ :: t => value_after k (if skey_dec k' k then Some b else v) t
  | Fin (MDel k') ROk _ :: t => value_after k (if skey_dec k' k then None else v) t
  | _ :: t => value_after k v t
  end.
(** no crash, and no call on [k] had a failing base operation *)
Definition calm (k : skey) (tr : list event) : Prop :=
  Forall (fun e => match e with Fin o _ failed => op_key o = k -> failed = false | Crash _ => False end) tr.
(** the least number of parts for a value and a counter of three bytes *)
Definition parts_needed (maxsize : nat) (b : bytes) (n : nat) : Prop :=
  (length b + 3 <= n * maxsize)%nat /\ forall n', (length b + 3 <= n' * maxsize)%nat -> (n <= n')%nat.
(** the stored parts of [k] are numbered 0 to n-1 *)
Definition stored (s : kv) (k : skey) (n : nat) : Prop := forall i, s (part_key k i) <> None <-> (i < n)%nat.
