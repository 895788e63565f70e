(** Model of the goroutines of /repo/blobstore/lazysaver.go: the calls of Set and Delete,
    the request handler, the savers and Shutdown, with the channels that connect them.
    It runs on top of the data of Model/Lazy.v.  Every locked section, channel operation
    and store call is one step.  The timer may fire whenever the handler waits.
    Statistics, logging, buffer pools and a second Shutdown call are not modelled. *)
From Coq Require Import Strings.String Strings.Byte.
From Verif.Lib Require Import Prelude ListAux.
From Verif.Model Require Import KV MaxSize Lazy.
Open Scope nat_scope.

(** lazysaver.go:80-88 [maxItems], [flushItems], [savers] *)
Record vpar := mkVP { p_max : nat; p_flush : nat; p_sav : nat }.
(** the checks of the options, lazysaver.go:107-122, 137-144; the defaults (90-97) pass them *)
Definition par_ok (p : vpar) : Prop := 1 <= p_flush p /\ p_flush p <= p_max p /\ 1 <= p_sav p.

(** a call of Set or Delete: past the check of the flag (602-616, 621-635); its item is
    queued and unlocked (313-315); it waits for a token (262, 294); it has returned *)
Inductive cpc := CNew (k : skey) (v : option bytes) | CSig | CTok | CEnd.

(** the request handler: at the top of its loop (362); about to call saveFront; about to
    send the element saveFront marked, [n] being what saveFront will return (348-349); about
    to read the queue length after a signal (428); before the test of the inner loop (437);
    waiting (418); returned, [savech] closed (355-356).
    The flag of [HSave] and [HSend] says that the call is the one of the inner loop (438). *)
Inductive hpc := HTop | HSave (inner : bool) | HSend (inner : bool) (n : nat) | HLen | HLoop (n : nat) | HSel | HExit.

(** what a saver has done besides Model/Lazy.v: nothing, returned its token (506),
    left its loop (465) *)
Inductive sph := SvRun | SvRet | SvGone.

(** Shutdown (522-558): not called; flag set (530); channel closed and [n] tokens taken
    (532-537); waits for the handler (539); waits for the savers (541); returned *)
Inductive spc := SNone | SClose | STake (n : nat) | SWait1 | SWait2 | SRet.

(** [v_tok]: what is in the channel [tokens]; [v_sig]: [itemAdded] is full *)
Record vcfg := mkV {
  v_l : lcfg; v_calls : list cpc; v_tok : nat; v_sig : bool; v_h : hpc; v_sv : list sph; v_stop : spc
}.

(** who moves next *)
Inductive vchoice :=
| V_call (k : skey) (v : option bytes)   (* a new call passes the check of the flag *)
| V_adv (i : nat)                        (* call [i] *)
| V_get (k : skey) | V_ans (n : nat) (f : fate)
| V_hand (j : nat)                       (* the handler; a send goes to saver [j] *)
| V_timer | V_item | V_closed            (* the three cases of the handler's select *)
| V_sav (j : nat) (f : fate)             (* saver [j]; [f] is the outcome of a store call *)
| V_stop_.                               (* Shutdown *)

Definition down (c : vcfg) : bool := match v_stop c with SNone => false | _ => true end.
Definition closed (c : vcfg) : bool := match v_stop c with SNone | SClose => false | _ => true end.

(** does the call queue a new item: lazysaver.go:241-255, 271-287 *)
Definition adds (c : lcfg) (k : skey) : bool :=
  match pending c k with Some e => i_saving e | None => true end.
(** lazysaver.go:331-347 *)
Definition unsaved (c : lcfg) : option item := find (fun e => negb (i_saving e)) (l_q c).
Definition l_front (c : lcfg) (e : item) : lcfg :=
  mkL (l_kv c) (mark (i_id e) (l_q c)) (l_idx c) (l_next c) (Some (i_id e)) (l_sav c) (l_ask c) (l_nask c).
(** lazysaver.go:348, 465-466 *)
Definition l_send (c : lcfg) (e : item) (j : nat) : lcfg :=
  mkL (l_kv c) (l_q c) (l_idx c) (l_next c) None (upd_nth j (fun _ => Some (e, false)) (l_sav c)) (l_ask c) (l_nask c).
(** lazysaver.go:468-503 *)
Definition l_write (c : lcfg) (e : item) (j : nat) (f : fate) : lcfg :=
  mkL (if takes f then kv_put (l_kv c) (i_key e) (i_b e) else l_kv c) (l_q c) (l_idx c) (l_next c)
      (l_hand c) (upd_nth j (fun _ => Some (e, true)) (l_sav c)) (l_ask c) (l_nask c).
(** lazysaver.go:507-516 *)
Definition l_done (c : lcfg) (e : item) (j : nat) : lcfg :=
  mkL (l_kv c) (drop (i_id e) (l_q c))
      (if match l_idx c (lazy_key (i_key e)) with Some id => Nat.eqb id (i_id e) | None => false end
       then set_at (l_idx c) (lazy_key (i_key e)) None else l_idx c)
      (l_next c) (l_hand c) (upd_nth j (fun _ => None) (l_sav c)) (l_ask c) (l_nask c).
(** lazysaver.go:196-222, 223-233 *)
Definition l_get (c : lcfg) (k : skey) : levent * lcfg :=
  let ask := (LAsk (l_nask c) k, mkL (l_kv c) (l_q c) (l_idx c) (l_next c) (l_hand c) (l_sav c) ((l_nask c, k) :: l_ask c) (S (l_nask c))) in
  match pending c k with
  | Some e => if skey_dec (i_key e) k then (LHit k (i_b e), c) else ask
  | None => ask
  end.
Definition l_ans (c : lcfg) (n : nat) (f : fate) : option (levent * lcfg) :=
  match find (fun x => Nat.eqb (fst x) n) (l_ask c) with
  | Some (n', k) => Some (LAns n' k (if works f then Some (l_kv c k) else None),
      mkL (l_kv c) (l_q c) (l_idx c) (l_next c) (l_hand c) (l_sav c) (filter (fun x => negb (Nat.eqb (fst x) n')) (l_ask c)) (l_nask c))
  | None => None
  end.

Definition set_l (c : vcfg) l := mkV l (v_calls c) (v_tok c) (v_sig c) (v_h c) (v_sv c) (v_stop c).
Definition set_h (c : vcfg) h := mkV (v_l c) (v_calls c) (v_tok c) (v_sig c) h (v_sv c) (v_stop c).
Definition set_lh (c : vcfg) l h := mkV l (v_calls c) (v_tok c) (v_sig c) h (v_sv c) (v_stop c).
Definition set_stop (c : vcfg) s := mkV (v_l c) (v_calls c) (v_tok c) (v_sig c) (v_h c) (v_sv c) s.
Definition pc_at (c : vcfg) i x := upd_nth i (fun _ => x) (v_calls c).

(** a call: lazysaver.go:236-263 [set], 266-296 [delete], 311-326 [add] *)
Definition fire_call (c : vcfg) (i : nat) : option (option levent * vcfg) :=
  match nth_error (v_calls c) i with
  | Some (CNew k v) =>
      Some (Some (LSet k v), mkV (do_set (v_l c) k v) (pc_at c i (if adds (v_l c) k then CSig else CEnd))
                                 (v_tok c) (v_sig c) (v_h c) (v_sv c) (v_stop c))
  | Some CSig => Some (None, mkV (v_l c) (pc_at c i CTok) (v_tok c) true (v_h c) (v_sv c) (v_stop c))
  | Some CTok => match v_tok c with
                 | S t => Some (None, mkV (v_l c) (pc_at c i CEnd) t (v_sig c) (v_h c) (v_sv c) (v_stop c))
                 | O => None
                 end
  | _ => None
  end.

(** after saveFront returned [n]: back to the top (385, 393, 426), or to the loop test (437-439) *)
Definition resume (inner : bool) (n : nat) : hpc := if inner then HLoop n else HTop.

(** the handler outside its select: lazysaver.go:362-416 and 428-447; saveFront 329-350 *)
Definition fire_hand (p : vpar) (c : vcfg) (j : nat) : option vcfg :=
  let l := v_l c in
  match v_h c with
  | HTop => Some (set_h c
      (if down c then match unsaved l with None => HExit | Some _ => HSave false end
       else if p_flush p <? length (l_q l) then HSave false else HSel))
  | HSave b => Some match unsaved l with
                    | None => set_h c (resume b 0)
                    | Some e => set_lh c (l_front l e) (HSend b (length (l_q l)))
                    end
  | HSend b n => match l_hand l with
                 | Some id => match find_item id (l_q l), nth_error (l_sav l) j, nth_error (v_sv c) j with
                              | Some e, Some None, Some SvRun => Some (set_lh c (l_send l e j) (resume b n))
                              | _, _, _ => None
                              end
                 | None => None
                 end
  | HLen => Some (set_h c (HLoop (length (l_q l))))
  | HLoop n => Some (set_h c (if p_flush p <? n then HSave true else HTop))
  | HSel | HExit => None
  end.

(** a saver: lazysaver.go:465-517 *)
Definition fire_sav (p : vpar) (c : vcfg) (j : nat) (f : fate) : option vcfg :=
  let l := v_l c in
  let ph x := upd_nth j (fun _ => x) (v_sv c) in
  match nth_error (l_sav l) j, nth_error (v_sv c) j with
  | Some (Some (e, false)), Some SvRun => Some (set_l c (l_write l e j f))
  | Some (Some (e, true)), Some SvRun =>
      if v_tok c <? p_max p then Some (mkV l (v_calls c) (S (v_tok c)) (v_sig c) (v_h c) (ph SvRet) (v_stop c)) else None
  | Some (Some (e, true)), Some SvRet =>
      Some (mkV (l_done l e j) (v_calls c) (v_tok c) (v_sig c) (v_h c) (ph SvRun) (v_stop c))
  | Some None, Some SvRun =>
      match v_h c with
      | HExit => Some (mkV l (v_calls c) (v_tok c) (v_sig c) (v_h c) (ph SvGone) (v_stop c))
      | _ => None
      end
  | _, _ => None
  end.

Definition is_gone (x : sph) : bool := match x with SvGone => true | _ => false end.

(** Shutdown: lazysaver.go:522-558 *)
Definition fire_stop (p : vpar) (c : vcfg) : option vcfg :=
  match v_stop c with
  | SNone => Some (set_stop c SClose)
  | SClose => Some (set_stop c (STake 0))
  | STake n =>
      if n <? p_max p
      then match v_tok c with
           | S t => Some (mkV (v_l c) (v_calls c) t (v_sig c) (v_h c) (v_sv c) (STake (S n)))
           | O => None
           end
      else Some (set_stop c SWait1)
  | SWait1 => match v_h c with HExit => Some (set_stop c SWait2) | _ => None end
  | SWait2 => if forallb is_gone (v_sv c) then Some (set_stop c SRet) else None
  | SRet => None
  end.

Definition quietly (o : option vcfg) : option (option levent * vcfg) := option_map (fun c => (None, c)) o.
Definition vfire (p : vpar) (c : vcfg) (x : vchoice) : option (option levent * vcfg) :=
  match x with
  | V_call k v => if down c then None
                  else Some (None, mkV (v_l c) (v_calls c ++ [CNew k v]) (v_tok c) (v_sig c) (v_h c) (v_sv c) (v_stop c))
  | V_adv i => fire_call c i
  | V_get k => let '(e, l) := l_get (v_l c) k in Some (Some e, set_l c l)
  | V_ans n f => match l_ans (v_l c) n f with Some (e, l) => Some (Some e, set_l c l) | None => None end
  | V_hand j => quietly (fire_hand p c j)
  | V_timer => match v_h c with HSel => Some (None, set_h c (HSave false)) | _ => None end
  | V_item => match v_h c with
              | HSel => if v_sig c then Some (None, mkV (v_l c) (v_calls c) (v_tok c) false HLen (v_sv c) (v_stop c)) else None
              | _ => None
              end
  | V_closed => match v_h c with
                | HSel => if closed c then Some (None, set_h c HTop) else None
                | _ => None
                end
  | V_sav j f => quietly (fire_sav p c j f)
  | V_stop_ => quietly (fire_stop p c)
  end.

(** lazysaver.go:174-309: all tokens in the channel, handler and savers started *)
Definition vstart (p : vpar) (s : kv) : vcfg :=
  mkV (lstart s (p_sav p)) [] (p_max p) false HTop (repeat SvRun (p_sav p)) SNone.

(** which keys calls may name, and whether store calls may fail *)
Definition may (mf : bool) (K : skey -> Prop) (x : vchoice) : Prop :=
  match x with
  | V_call k _ | V_get k => K k
  | V_ans _ f | V_sav _ f => works f = false -> mf = true
  | _ => True
  end.

Inductive vexec (p : vpar) (mf : bool) (K : skey -> Prop) (s : kv) : list levent -> vcfg -> Prop :=
| Vx_nil : vexec p mf K s [] (vstart p s)
| Vx_step tr c x e c' : vexec p mf K s tr c -> may mf K x -> vfire p c x = Some (e, c') ->
    vexec p mf K s (tr ++ match e with Some y => [y] | None => [] end) c'.
