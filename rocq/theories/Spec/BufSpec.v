(** Who owns a buffer. *)
From Coq Require Import Strings.String Strings.Byte.
From Verif.Lib Require Import Prelude ListAux.
From Verif.Model Require Import KV MaxSize Lazy LazyBuf.

(** the slices of the waiting values *)
Definition bufs (q : list bitem) : list nat := flat_map (fun e => match bi_b e with Some a => [a] | None => [] end) q.
Definition used (c : bcfg) : list nat := map snd (b_calls c) ++ b_out c ++ b_env c ++ bufs (b_q c).
Definition pooled (po : nat -> list nat) : list nat := flat_map po (seq 0 11).
(** the waiting values, and those being saved, as they read now *)
Definition reads (mm : nat -> bytes) (e : bitem) : item := mkI (bi_id e) (bi_key e) (option_map mm (bi_b e)) (bi_saving e).
Definition as_values (c : bcfg) : lcfg :=
  mkL (b_kv c) (map (reads (b_mem c)) (b_q c)) (b_idx c) (b_next c) (b_hand c)
      (map (option_map (fun x => (reads (b_mem c) (fst x), snd x))) (b_sav c)) (b_ask c) (b_nask c).
(** keys are those of [K]; the store fails only if it may *)
Definition bchoice_ok (may_fail : bool) (K : skey -> Prop) (x : bchoice) : Prop :=
  match x with
  | BCopy k _ _ _ | BDel k | BGet k _ _ => K k
  | BAns _ f | BWrite _ f => works f = false -> may_fail = true
  | _ => True
  end.
(** the capacities that belong in a pool *)
Definition fits (i : nat) (cap : N) : Prop :=
  (i <= 10)%nat /\ if (i =? 10)%nat then 2 ^ 20 <= cap else cap = 2 ^ (10 + N.of_nat i).
(** parts of a memory *)
Definition m_mem (m : memory) : nat -> bytes := let '(mm, _, _, _) := m in mm.
Definition m_cap (m : memory) : nat -> N := let '(_, cp, _, _) := m in cp.
Definition m_pool (m : memory) : nat -> list nat := let '(_, _, po, _) := m in po.
