(** C76: the recycled buffers of the delayed-write store. *)
From Coq Require Import Strings.String Strings.Ascii Strings.Byte.
From Verif.Lib Require Import Prelude ListAux.
From Verif.Model Require Import KV MaxSize Lazy LazyBuf.
From Verif.Spec Require Import LazySpec BufSpec.
From Verif.Proof Require Import LazyP LazyOne BufP BufInv.
Open Scope N_scope.

(** whatever buffers the pools give, every run is one of the machine that has values instead of memory *)
Theorem C76_values : forall mf K s nsav l tr c, Forall (bchoice_ok mf K) l -> brun (bstart s nsav) l = (tr, c) ->
  lexec nsav mf K s tr (as_values c).
Proof. exact c76_values. Qed.
Print Assumptions C76_values.
(** so a Get answered from the queue gives the latest write, with any number of savers *)
Theorem C76_read : forall mf K s nsav l tr c t1 k v t2, plain_sets K -> Forall (bchoice_ok mf K) l ->
  brun (bstart s nsav) l = (tr, c) -> tr = t1 ++ LHit k v :: t2 -> v = after s t1 k.
Proof. intros mf K s nsav l tr c t1 k v t2 P F E. exact (c37_hit nsav mf K s tr _ t1 k v t2 P (c76_values mf K s nsav l tr c F E)). Qed.
Print Assumptions C76_read.
(** and with one saver and nothing waiting the store holds the latest write of every key *)
Theorem C76_drained : forall K s l tr c, plain_sets K -> Forall (bchoice_ok false K) l -> brun (bstart s 1) l = (tr, c) ->
  b_q c = [] -> forall k, K k -> b_kv c k = after s tr k.
Proof.
  intros K s l tr c P F E Q. pose proof (c36_drained K s tr _ P (c76_values false K s 1 l tr c F E)) as H.
  apply H. cbn. rewrite Q. reflexivity.
Qed.
Print Assumptions C76_drained.

(** a buffer has one owner: a pool, a Set under way, a caller of Get, a waiting value or somebody else; no pool has it twice *)
Theorem C76_owners : forall s nsav l tr c, brun (bstart s nsav) l = (tr, c) -> NoDup (pooled (b_pool c) ++ used c).
Proof. exact c76_owners. Qed.
Print Assumptions C76_owners.
(** what a Get returned is changed by its caller only *)
Theorem C76_out : forall s nsav l tr c x a, brun (bstart s nsav) l = (tr, c) -> In a (b_out c) ->
  (forall n v, x = BScribble n v -> nth_error (b_out c) n <> Some a) ->
  b_mem (fst (bstep c x)) a = b_mem c a /\ In a (b_out (fst (bstep c x))).
Proof. exact c76_out. Qed.
Print Assumptions C76_out.
(** a buffer holds the bytes it was asked for, up to 1 MB, and less than twice as many, up to half of that *)
Theorem C76_capacity : forall s nsav l tr c size p a m, brun (bstart s nsav) l = (tr, c) ->
  get_chunk (mem_of c) size p = Some (a, m) ->
  1024 <= m_cap m a /\ (size <= 2 ^ 20 -> size <= m_cap m a) /\ (1024 < size <= 2 ^ 19 -> m_cap m a < 2 * size).
Proof. exact c76_capacity. Qed.
Print Assumptions C76_capacity.

(** the first buffer is given back when its value is replaced, taken for another key, filled, saved and given back again; the
    caller of a Get writes to its slice *)
Definition ka : skey := ("s", "a")%string.
Definition kb : skey := ("s", "b")%string.
Definition run76 : list bchoice :=
  [BCopy ka [x01] PNew 0; BSet 0; BCopy ka [x02; x03] PNew 0; BSet 0; BCopy kb [x04] (POld 0) 0; BGet ka PNew 0; BScribble 0 [xff]; BSet 0;
   BGet ka PNew 0; BFront; BCopy ka [x05] PNew 0; BSend 0; BSet 0; BGet ka PNew 0; BWrite 0 Good; BDone 0; BGet kb (POld 0) 0; BScribble 0 [xfe; xfd];
   BFront; BSend 0; BWrite 0 Good; BDone 0; BDel ka; BGet ka PNew 0; BFront; BSend 0; BWrite 0 Good; BDone 0].
Definition K76 (k : skey) : Prop := k = ka \/ k = kb.
Example C76_ok_ex : plain_sets K76 /\ Forall (bchoice_ok false K76) run76.
Proof.
  split.
  - intros k [->| ->]; cbn; intros [C|C]; try discriminate; exact C.
  - unfold K76, run76. repeat (apply Forall_cons || apply Forall_nil); cbn; auto; discriminate.
Qed.
Example C76_ex : let '(tr, c) := brun (bstart kv_empty 1) run76 in
  tr = [LSet ka (Some [x01]); LSet ka (Some [x02; x03]); LHit ka (Some [x02; x03]); LSet kb (Some [x04]); LHit ka (Some [x02; x03]);
        LSet ka (Some [x05]); LHit ka (Some [x05]); LHit kb (Some [x04]); LSet ka None; LHit ka None] /\
  b_q c = [] /\ b_kv c ka = None /\ b_kv c kb = Some [x04] /\
  b_pool c 0%nat = [4%nat; 0%nat] /\ map (b_mem c) (b_out c) = [[xfe; xfd]; [x05]; [x02; x03]; [xff]].
Proof. vm_compute. repeat split; reflexivity. Qed.

(** "a buffer that can at least hold size bytes": not above 1 MB *)
Theorem C76_hold_refuted : exists s size a m, get_chunk (mem_of (bstart s 1)) size PNew = Some (a, m) /\ m_cap m a < size.
Proof. exists kv_empty, 1048577. eexists _, _. split; [reflexivity|]. vm_compute. reflexivity. Qed.
Print Assumptions C76_hold_refuted.
(** a buffer for 600000 bytes can have any capacity above 1 MB, as the last pool takes all larger ones *)
Theorem C76_large_refuted : forall cap, 2 ^ 20 < cap -> exists l tr c a m, brun (bstart kv_empty 1) l = (tr, c) /\
  get_chunk (mem_of c) 600000 (POld 0) = Some (a, m) /\ m_cap m a = cap.
Proof. exact c76_large. Qed.
Print Assumptions C76_large_refuted.
