(** What shutting down the delayed-write store means. *)
From Coq Require Import Strings.String Strings.Byte.
From Verif.Lib Require Import Prelude ListAux.
From Verif.Model Require Import KV MaxSize Lazy LazyStop.
Open Scope nat_scope.

(** no Set or Delete is between its check of the flag and its locked section *)
Definition no_late (c : vcfg) : Prop := forall i k v, nth_error (v_calls c) i <> Some (CNew k v).
(** all calls have returned *)
Definition calls_done (c : vcfg) : Prop := forall i x, nth_error (v_calls c) i = Some x -> x = CEnd.
(** Shutdown and all calls have returned *)
Definition finished (c : vcfg) : Prop := v_stop c = SRet /\ calls_done c.
(** calls that have queued their item and not returned *)
Definition blocked (c : vcfg) : nat :=
  length (filter (fun x => match x with CSig | CTok => true | _ => false end) (v_calls c)).
(** savers whose store call is over *)
Definition savers_done (c : vcfg) : nat :=
  length (filter (fun x => match x with Some (_, b) => b | None => false end) (l_sav (v_l c))).

(** the steps that are work of the calls, the handler, the savers and Shutdown *)
Definition is_work (x : vchoice) : bool := match x with V_call _ _ | V_get _ | V_ans _ _ => false | _ => true end.
(** steps of the calls already running, the handler and the savers; not the timer *)
Definition is_own (x : vchoice) : bool := match x with V_adv _ | V_hand _ | V_item | V_sav _ _ => true | _ => false end.

(** further steps: [n] of them are work *)
Inductive goes (p : vpar) (mf : bool) (K : skey -> Prop) : vcfg -> nat -> list levent -> vcfg -> Prop :=
| Go_nil c : goes p mf K c 0 [] c
| Go_step c n tr c1 x e c2 : goes p mf K c n tr c1 -> may mf K x -> vfire p c1 x = Some (e, c2) ->
    goes p mf K c (if is_work x then S n else n) (tr ++ match e with Some y => [y] | None => [] end) c2.
(** own steps only *)
Inductive helps (p : vpar) : vcfg -> vcfg -> Prop :=
| Hp_nil c : helps p c c
| Hp_step c x e c1 c2 : is_own x = true -> may false (fun _ => True) x -> vfire p c x = Some (e, c1) -> helps p c1 c2 -> helps p c c2.

(** Shutdown sets its flag in state [c0], reached with the writes of [tr], when no call is
    between check and locked section; then [n] steps of work lead to [c] *)
Definition shut (p : vpar) (mf : bool) (K : skey -> Prop) (s : kv) (c0 : vcfg) (n : nat) (tr : list levent) (c : vcfg) : Prop :=
  exists t1 c1 e t2, vexec p mf K s t1 c1 /\ v_stop c1 = SNone /\ no_late c1 /\ vfire p c1 V_stop_ = Some (e, c0) /\
    goes p mf K c0 n t2 c /\ tr = t1 ++ t2.
