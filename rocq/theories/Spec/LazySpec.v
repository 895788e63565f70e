(** The delayed-write store seen as a map. *)
From Coq Require Import Strings.String Strings.Ascii Strings.Byte.
From Verif.Lib Require Import Prelude.
From Verif.Model Require Import KV Lazy.

(** value of [k] after the writes in [tr] on top of [s] *)
Definition after (s : kv) (tr : list levent) : kv :=
  fold_left (fun m e => match e with LSet k v => kv_put m k v | _ => m end) tr s.

(** no set name contains a slash *)
Definition plain_sets (K : skey -> Prop) : Prop :=
  forall k, K k -> ~ In "/"%char (list_ascii_of_string (fst k)).

(** between call [n] of Get going to the store and the end of [tr], [k] had value [v]
    at some time *)
Definition had (s : kv) (tr : list levent) (n : nat) (k : skey) (v : option bytes) : Prop :=
  exists t1 t2 t3, tr = t1 ++ LAsk n k :: t2 ++ t3 /\ v = after s (t1 ++ LAsk n k :: t2) k.
(** the numbers of the Get calls that went to the store *)
Definition asks (tr : list levent) : list nat :=
  flat_map (fun e => match e with LAsk n _ => [n] | _ => [] end) tr.

(** two keys that read the same when set and name are joined by a slash *)
Definition same_name (k k' : skey) : Prop := (fst k ++ "/" ++ snd k)%string = (fst k' ++ "/" ++ snd k')%string.
