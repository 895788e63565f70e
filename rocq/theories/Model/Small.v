(** Models of the retrying store, the token bucket and the error collector. *)
From Verif.Lib Require Import Prelude ListAux.
Open Scope nat_scope.

(** ** /repo/blobstore/retry.go *)
(** One attempt: what the wrapped store returned (error numbers stand for Go error
    values), whether the caller's context was done when [opErr] looked, whether the
    back-off said stop, and whether the context was done while waiting. *)
Record attempt (A : Type) := mkAtt { at_res : A + nat; at_done : bool; at_stop : bool; at_cut : bool }.
Arguments mkAtt {A}. Arguments at_res {A}. Arguments at_done {A}. Arguments at_stop {A}. Arguments at_cut {A}.

(** retry.go:185-195 [opErr]: (error, permanent) *)
Definition op_err (perm : list nat) (done : bool) (e : nat) : nat * bool :=
  if existsb (Nat.eqb e) perm then (e, true) else (e, done).
(** github.com/cenkalti/backoff [Retry] with [WithContext] (not in /repo; from its
    documentation): run the operation until success, a permanent error, stop or a done
    context.  None: still retrying after all of [atts].  Also the attempts not used. *)
Fixpoint retry {A} (perm : list nat) (atts : list (attempt A)) : option ((A + nat) * list (attempt A)) :=
  match atts with
  | [] => None
  | a :: rest =>
    match at_res a with
    | inl x => Some (inl x, rest)
    | inr e =>
      let '(e, p) := op_err perm (at_done a) e in
      if p then Some (inr e, rest)
      else if at_stop a || at_cut a then Some (inr e, rest) else retry perm rest
    end
  end.
(** retry.go:122-141 [Get]: the return statement reads [res] and calls Retry, which
    assigns [res]; [late] says whether the read comes after the call, which the Go
    specification leaves open.  Result: bytes (None = nil) and error. *)
Definition rs_get {A} (late : bool) (perm : list nat) (atts : list (attempt A)) : option (option A * option nat) :=
  match retry perm atts with
  | None => None
  | Some (inl b, _) => Some (if late then Some b else None, None)
  | Some (inr e, _) => Some (None, Some e)
  end.

(** Option values: maps are references.  A heap of error sets; number 0 is the map of
    [defaultRetryStoreOptions] (39-49). *)
Definition heap := list (list nat).
(** retry.go:75-92 [PermanentErr] on a store whose map is [own] (None = nil error) *)
Definition permanent_err (errs : list (option nat)) (h : heap) (own : nat) : heap * nat :=
  match errs with
  | [] => (h, own)
  | _ => let perm := nth own h [] in
         (upd_nth own (fun m => m ++ flat_map (fun e => match e with Some e => [e] | None => [] end) errs) h ++ [perm], length h)
  end.
(** retry.go:106-119 [NewRetryStore] with the given PermanentErr options *)
Definition new_retry (opts : list (list (option nat))) (h : heap) : heap * nat :=
  fold_left (fun '(h, own) errs => permanent_err errs h own) opts (h, 0).

(** ** /repo/bucket.go *)
(** a buffered channel: tokens in it, capacity; goroutines and how many tokens each holds *)
Record bucket := mkB { b_cap : nat; b_chan : nat; b_held : list nat }.
(** bucket.go:13-19 [NewBucket]: [n] sends into an empty channel of capacity [n] *)
Fixpoint fill (sends cap chan : nat) : option nat :=
  match sends with
  | O => Some chan
  | S k => if chan <? cap then fill k cap (S chan) else None
  end.
Definition new_bucket (n workers : nat) : option bucket :=
  option_map (fun c => mkB n c (repeat 0 workers)) (fill n n 0).
(** a receive needs a token in the channel, a send needs room: 29-37 *)
Inductive bstep : bucket -> bucket -> Prop :=
| B_get b g h : nth_error (b_held b) g = Some h -> 0 < b_chan b ->
    bstep b (mkB (b_cap b) (b_chan b - 1) (upd_nth g S (b_held b)))
| B_release b g h : nth_error (b_held b) g = Some (S h) -> b_chan b < b_cap b ->
    bstep b (mkB (b_cap b) (S (b_chan b)) (upd_nth g (fun n => n - 1) (b_held b))).
Inductive breach (n workers : nat) : bucket -> Prop :=
| Br_new b : new_bucket n workers = Some b -> breach n workers b
| Br_step b b' : breach n workers b -> bstep b b' -> breach n workers b'.

(** ** /repo/tools.go:73-108 [waitErr] *)
(** A worker: errors it will still send on the unbuffered channel, and whether it has
    called Done. *)
Record worker := mkW { w_errs : list nat; w_done : bool }.
Inductive outcome := ONil | OErrs (n first : nat) | OCtx.
Inductive coll := Collecting (errs : list nat) | Flushing | Returned (o : outcome).
Record wcfg := mkWC { wc_w : list worker; wc_closed : bool; wc_ctx : bool; wc_col : coll }.
Definition all_done (ws : list worker) : bool := forallb w_done ws.
Inductive wstep : wcfg -> wcfg -> Prop :=
| W_done c i : nth_error (wc_w c) i = Some (mkW [] false) ->
    wstep c (mkWC (upd_nth i (fun _ => mkW [] true) (wc_w c)) (wc_closed c) (wc_ctx c) (wc_col c))
| W_close c : all_done (wc_w c) = true -> wc_closed c = false ->
    wstep c (mkWC (wc_w c) true (wc_ctx c) (wc_col c))
| W_cancel c : wc_ctx c = false -> wstep c (mkWC (wc_w c) (wc_closed c) true (wc_col c))
| W_recv c i e es got : nth_error (wc_w c) i = Some (mkW (e :: es) false) -> wc_col c = Collecting got ->
    wstep c (mkWC (upd_nth i (fun _ => mkW es false) (wc_w c)) (wc_closed c) (wc_ctx c) (Collecting (got ++ [e])))
| W_flush c i e es : nth_error (wc_w c) i = Some (mkW (e :: es) false) -> wc_col c = Flushing ->
    wstep c (mkWC (upd_nth i (fun _ => mkW es false) (wc_w c)) (wc_closed c) (wc_ctx c) Flushing)
| W_seectx c got : wc_ctx c = true -> wc_col c = Collecting got ->
    wstep c (mkWC (wc_w c) (wc_closed c) (wc_ctx c) Flushing)
| W_end c got : wc_closed c = true -> wc_col c = Collecting got ->
    wstep c (mkWC (wc_w c) (wc_closed c) (wc_ctx c)
               (Returned (match got with [] => ONil | e :: _ => OErrs (length got) e end)))
| W_endctx c : wc_closed c = true -> wc_col c = Flushing ->
    wstep c (mkWC (wc_w c) (wc_closed c) (wc_ctx c) (Returned OCtx)).
Definition wstart (errs : list (list nat)) (ctx : bool) : wcfg :=
  mkWC (map (fun es => mkW es false) errs) false ctx (Collecting []).
Inductive wexec : wcfg -> nat -> wcfg -> Prop :=
| We_nil c : wexec c 0 c
| We_step c c1 n c2 : wstep c c1 -> wexec c1 n c2 -> wexec c (S n) c2.
