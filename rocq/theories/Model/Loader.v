(** Model of how concurrent calls get the elements of one segment: /repo/segments.go:185-259
    (elementFullIdx), segment.go:45-50, 171-222 (loadElements), segments.go:270-298
    (replaceSegment), with the cache and the store.  One call loads, others wait for it and get
    its result through the closure Gimme.

    Simplified: the elements of the segment are one number, 0 for none.  The RWMutex grants
    whatever is compatible with who holds it; that a waiting writer holds up new readers is left
    out.  A replacement that fails changes nothing; what it can leave in a cached slice is in
    C70.  The cache may forget at any time. *)
From Verif.Lib Require Import Prelude ListAux.
Open Scope nat_scope.

(** [XErr]: an error; [XPanic]: a panic of the store or the decoder (makeslice with a bad N,
    segment.go:214), which somebody further up recovers (api/services.go:52) *)
Inductive xres := XVal (v : nat) | XErr | XPanic.
Definition nothing : nat := 0.
(** readOnly of elementFullIdx *)
Inductive xkind := XRead | XWrite.
Inductive xpc :=
| TWant                    (* before the lock of the segment, segments.go:202-235 *)
| THave                    (* before cache.Get, 239 *)
| TMiss                    (* before LoadingMu, segment.go:175 *)
| TWait (n : nat)          (* waits for load [n], segment.go:181 *)
| TGet (n : nat)           (* is load [n], before store.Get has returned, 206 *)
| TShut (n : nat) (r : xres) (* has its result, before the deferred function, 197-204 *)
| TCache (v : nat)         (* before cache.Add, segments.go:256 *)
| TUse (v : nat)           (* elementFullIdx has returned *)
| TSaved (v : nat)         (* replaceSegment: stored, before cache.Add, 293 *)
| TDone (r : xres).
(** [x_loading]: loader.Loading, the number of the load that runs; [x_loads]: the variables that
    the closures Gimme of all loads share with them, when they are set *)
Record xcfg := mkX { x_store : nat; x_cache : option nat; x_loading : option nat; x_loads : list (option xres); x_thr : list (xkind * xpc) }.
Inductive xchoice :=
| X_come (k : xkind)
| X_evict
| X_go (i : nat)           (* next step of call [i]; without a replacement *)
| X_fail (i : nat)         (* store.Get, or the Set of a replacement, fails *)
| X_panic (i : nat)        (* store.Get or the decoder panics *)
| X_replace (i : nat) (v : nat).  (* the call replaces the elements *)

(** a call that panicked does not unlock: elementFullIdx has no defer *)
Definition x_holds (p : xpc) : bool := match p with TWant => false | TDone XPanic => true | TDone _ => false | _ => true end.
Definition x_free (k : xkind) (l : list (xkind * xpc)) : bool :=
  forallb (fun t : xkind * xpc => negb (x_holds (snd t)) || match k, fst t with XRead, XRead => true | _, _ => false end) l.
Definition x_at (c : xcfg) (i : nat) (k : xkind) (p : xpc) : list (xkind * xpc) := upd_nth i (fun _ => (k, p)) (x_thr c).
Definition x_move (c : xcfg) (i : nat) (k : xkind) (p : xpc) : option xcfg := Some (mkX (x_store c) (x_cache c) (x_loading c) (x_loads c) (x_at c i k p)).

(** [cached]: the list has a cache *)
Definition xstep (cached : bool) (c : xcfg) (x : xchoice) : option xcfg :=
  match x with
  | X_come k => Some (mkX (x_store c) (x_cache c) (x_loading c) (x_loads c) (x_thr c ++ [(k, TWant)]))
  | X_evict => Some (mkX (x_store c) None (x_loading c) (x_loads c) (x_thr c))
  | X_go i =>
    match nth_error (x_thr c) i with
    | Some (k, TWant) => if x_free k (x_thr c) then x_move c i k THave else None
    | Some (k, THave) => match x_cache c with Some v => x_move c i k (TUse v) | None => x_move c i k TMiss end
    | Some (k, TMiss) =>
      match x_loading c with
      | Some n => x_move c i k (TWait n)
      | None => let n := length (x_loads c) in Some (mkX (x_store c) (x_cache c) (Some n) (x_loads c ++ [None]) (x_at c i k (TGet n)))
      end
    | Some (k, TWait n) => (* segment.go:181-182, 186-194 *)
      match nth_error (x_loads c) n with
      | Some (Some (XVal v)) => x_move c i k (TCache v)
      | Some (Some XErr) => x_move c i k (TDone XErr)
      | Some (Some XPanic) => x_move c i k (TCache nothing)  (* err is nil, forReader is nil *)
      | _ => None
      end
    | Some (k, TGet n) => x_move c i k (TShut n (XVal (x_store c)))
    | Some (k, TShut n r) =>
      Some (mkX (x_store c) (x_cache c) None (upd_nth n (fun _ => Some r) (x_loads c)) (x_at c i k (match r with XVal v => TCache v | r => TDone r end)))
    | Some (k, TCache v) => Some (mkX (x_store c) (if cached then Some v else None) (x_loading c) (x_loads c) (x_at c i k (TUse v)))
    | Some (k, TUse v) => x_move c i k (TDone (XVal v))
    | Some (k, TSaved v) => Some (mkX (x_store c) (if cached then Some v else None) (x_loading c) (x_loads c) (x_at c i k (TDone (XVal v))))
    | _ => None
    end
  | X_fail i =>
    match nth_error (x_thr c) i with
    | Some (k, TGet n) => x_move c i k (TShut n XErr)
    | Some (XWrite, TUse v) => x_move c i XWrite (TDone XErr)
    | _ => None
    end
  | X_panic i => match nth_error (x_thr c) i with Some (k, TGet n) => x_move c i k (TShut n XPanic) | _ => None end
  | X_replace i v =>
    match nth_error (x_thr c) i with
    | Some (XWrite, TUse _) => Some (mkX v (x_cache c) (x_loading c) (x_loads c) (x_at c i XWrite (TSaved v)))
    | _ => None
    end
  end.
Definition xstart (v : nat) : xcfg := mkX v None None [] [].
Inductive xexec (ok : xchoice -> Prop) (cached : bool) (v : nat) : xcfg -> Prop :=
| Xx_nil : xexec ok cached v (xstart v)
| Xx_step c x c' : xexec ok cached v c -> ok x -> xstep cached c x = Some c' -> xexec ok cached v c'.
