(** Model of ReleaseSegments with its timeout (/repo/list.go:1055-1118) among calls on the same
    list: the three locks of the list and the copy of the segments that it has in memory.
    Calls that use segments: list.go:305-407 (loadSegments) and 414-453 (newSegments without a
    transfer, as after a failed load in Repair, 1797-1808).

    Simplified: a call works on its segments in one step.  Several unlocks that follow each other,
    and a read lock and the unlock of loadingLock after it, are one step.  segmentsLock is a Go
    RWMutex: one writer at a time announces itself, after that no reader gets in, and it has the
    lock when the readers have left; that waiting readers go before the next writer is left out.
    The minute may be over at any time. *)
From Verif.Lib Require Import Prelude ListAux.
Open Scope nat_scope.

(** list.go:307-320: [VRead upd]: segsReadOnly, with segsLockUpdates if [upd]; [VWrite]: segsWritable; [VReset]: newSegments *)
Inductive vkind := VRead (upd : bool) | VWrite | VReset.
Definition v_upd (k : vkind) : bool := match k with VRead b => b | _ => true end.
(** where a call is: list.go:321-406, 450-452 *)
Inductive vpc :=
| UStart              (* before updateLock, 321 *)
| ULoad               (* before loadingLock, 323 *)
| URead               (* before segmentsLock.RLock, 328 *)
| UGot                (* has loadingLock and the read lock: 345-355 *)
| UUp                 (* segments are not in memory: after RUnlock, before Lock, 357-358 *)
| UUpP                (* has announced itself as a writer *)
| UUpW                (* has the write lock: loads, 366-393 *)
| UWin (g : nat)      (* after Unlock, before RLock, 396-397 *)
| UUse (g : nat)      (* works on copy [g] with the read lock *)
| UWr                 (* before segmentsLock.Lock, 337 or 452 *)
| UWrP
| UWrW                (* has the write lock *)
| UUseW (g : nat)     (* works on copy [g] with the write lock *)
| UEnd.
(** The goroutine of ReleaseSegments: list.go:1079-1102 *)
Inductive gpc :=
| GLoad               (* before loadingLock, 1080 *)
| GFlag1              (* before the first withMutexCancelled, 1081 *)
| GSegs               (* before segmentsLock.Lock, 1085 *)
| GPend               (* has announced itself *)
| GFlag2              (* has the write lock, before the second withMutexCancelled, 1086 *)
| GEnd.
(** Its caller: list.go:1103-1117 *)
Inductive mpc := MWait | MOut | MRet.
Record rel := mkRel { r_g : gpc; r_m : mpc; r_gotl : bool; r_gots : bool; r_canc : bool; r_done : bool }.
Inductive wstate := WFree | WPend | WHeld.
(** [v_mem]: l.scores and l.index; [v_next]: number of the next copy; [v_fault]: a lock was
    unlocked that was not locked, which ends the process *)
Record vcfg := mkV { v_mem : option nat; v_next : nat; v_load : bool; v_lockupd : bool; v_read : nat; v_w : wstate; v_fault : bool; v_users : list (vkind * vpc); v_rels : list rel }.
Inductive vact := AGo | AFail | AReplace | ADrop.
Inductive vchoice :=
| V_call (k : vkind) | V_release
| V_u (i : nat) (a : vact)   (* next step of call [i]; AFail: the load fails; AReplace, ADrop: it sets or clears l.scores *)
| V_g (j : nat)              (* goroutine of release [j] *)
| V_time (j : nat)           (* the minute is over *)
| V_m (j : nat).             (* its caller *)

(** unlocking and locking loadingLock, updateLock and segmentsLock: list.go:39-51, as used in 321-406 and 1080-1114 *)
Definition un_load (c : vcfg) : vcfg := mkV (v_mem c) (v_next c) false (v_lockupd c) (v_read c) (v_w c) (v_fault c || negb (v_load c)) (v_users c) (v_rels c).
Definition un_upd (c : vcfg) : vcfg := mkV (v_mem c) (v_next c) (v_load c) false (v_read c) (v_w c) (v_fault c || negb (v_lockupd c)) (v_users c) (v_rels c).
Definition un_read (c : vcfg) : vcfg := mkV (v_mem c) (v_next c) (v_load c) (v_lockupd c) (v_read c - 1) (v_w c) (v_fault c || (v_read c =? 0)) (v_users c) (v_rels c).
Definition un_write (c : vcfg) : vcfg := mkV (v_mem c) (v_next c) (v_load c) (v_lockupd c) (v_read c) WFree (v_fault c || match v_w c with WHeld => false | _ => true end) (v_users c) (v_rels c).
Definition lk_load (c : vcfg) : option vcfg := if v_load c then None else Some (mkV (v_mem c) (v_next c) true (v_lockupd c) (v_read c) (v_w c) (v_fault c) (v_users c) (v_rels c)).
Definition lk_upd (c : vcfg) : option vcfg := if v_lockupd c then None else Some (mkV (v_mem c) (v_next c) (v_load c) true (v_read c) (v_w c) (v_fault c) (v_users c) (v_rels c)).
Definition lk_read (c : vcfg) : option vcfg := match v_w c with WFree => Some (mkV (v_mem c) (v_next c) (v_load c) (v_lockupd c) (S (v_read c)) (v_w c) (v_fault c) (v_users c) (v_rels c)) | _ => None end.
Definition lk_pend (c : vcfg) : option vcfg := match v_w c with WFree => Some (mkV (v_mem c) (v_next c) (v_load c) (v_lockupd c) (v_read c) WPend (v_fault c) (v_users c) (v_rels c)) | _ => None end.
Definition lk_write (c : vcfg) : option vcfg := if v_read c =? 0 then Some (mkV (v_mem c) (v_next c) (v_load c) (v_lockupd c) (v_read c) WHeld (v_fault c) (v_users c) (v_rels c)) else None.
Definition set_mem (m : option nat) (c : vcfg) : vcfg := mkV m (v_next c) (v_load c) (v_lockupd c) (v_read c) (v_w c) (v_fault c) (v_users c) (v_rels c).
(** a new copy: list.go:368-393 (updateSegments), 433-441 *)
Definition new_mem (c : vcfg) : vcfg := mkV (Some (v_next c)) (S (v_next c)) (v_load c) (v_lockupd c) (v_read c) (v_w c) (v_fault c) (v_users c) (v_rels c).
Definition u_at (i : nat) (k : vkind) (p : vpc) (c : vcfg) : vcfg := mkV (v_mem c) (v_next c) (v_load c) (v_lockupd c) (v_read c) (v_w c) (v_fault c) (upd_nth i (fun _ => (k, p)) (v_users c)) (v_rels c).
Definition r_at (j : nat) (r : rel) (c : vcfg) : vcfg := mkV (v_mem c) (v_next c) (v_load c) (v_lockupd c) (v_read c) (v_w c) (v_fault c) (v_users c) (upd_nth j (fun _ => r) (v_rels c)).
Definition un_updif (b : bool) (c : vcfg) : vcfg := if b then un_upd c else c.

(** a step of a call: list.go:305-407, 414-453 *)
Definition ustep (c : vcfg) (i : nat) (k : vkind) (p : vpc) (a : vact) : option vcfg :=
  match a, p with
  | AGo, UStart =>
    let next := match k with VReset => UWr | _ => ULoad end in
    if v_upd k then option_map (u_at i k next) (lk_upd c) else Some (u_at i k next c)
  | AGo, ULoad => option_map (u_at i k (match k with VRead _ => URead | _ => UWr end)) (lk_load c)
  | AGo, URead => option_map (u_at i k UGot) (lk_read c)
  | AGo, UGot => match v_mem c with Some g => Some (u_at i k (UUse g) (un_load c)) | None => Some (u_at i k UUp (un_read c)) end
  | AGo, UUp => option_map (u_at i k UUpP) (lk_pend c)
  | AGo, UUpP => option_map (u_at i k UUpW) (lk_write c)
  | AGo, UUpW => Some (u_at i k (UWin (v_next c)) (un_write (new_mem c)))
  | AFail, UUpW => Some (u_at i k UEnd (un_load (un_updif (v_upd k) (un_write c))))
  | AGo, UWin g => option_map (fun c => u_at i k (UUse g) (un_load c)) (lk_read c)
  | AGo, UUse g => Some (u_at i k UEnd (un_updif (v_upd k) (un_read c)))
  | AGo, UWr => option_map (u_at i k UWrP) (lk_pend c)
  | AGo, UWrP => option_map (u_at i k UWrW) (lk_write c)
  | AGo, UWrW =>
    match k with
    | VReset => Some (u_at i k (UUseW (v_next c)) (new_mem c))
    | _ => match v_mem c with Some g => Some (u_at i k (UUseW g) (un_load c)) | None => Some (u_at i k (UUseW (v_next c)) (un_load (new_mem c))) end
    end
  | AFail, UWrW =>
    match k, v_mem c with
    | VWrite, None => Some (u_at i k UEnd (un_load (un_upd (un_write c))))
    | _, _ => None
    end
  | AGo, UUseW g => Some (u_at i k UEnd (un_upd (un_write c)))
  | AReplace, UUseW g => Some (u_at i k (UUseW (v_next c)) (new_mem c))
  | ADrop, UUseW g => Some (u_at i k UEnd (un_upd (un_write (set_mem None c))))
  | _, _ => None
  end.
(** a step of the goroutine of a release: list.go:1079-1102 *)
Definition gstep (c : vcfg) (j : nat) (r : rel) : option vcfg :=
  match r_g r with
  | GLoad => option_map (r_at j (mkRel GFlag1 (r_m r) (r_gotl r) (r_gots r) (r_canc r) (r_done r))) (lk_load c)
  | GFlag1 =>
    if r_canc r then Some (r_at j (mkRel GEnd (r_m r) (r_gotl r) (r_gots r) (r_canc r) (r_done r)) (un_load c))
    else Some (r_at j (mkRel GSegs (r_m r) true (r_gots r) (r_canc r) (r_done r)) c)
  | GSegs => option_map (r_at j (mkRel GPend (r_m r) (r_gotl r) (r_gots r) (r_canc r) (r_done r))) (lk_pend c)
  | GPend => option_map (r_at j (mkRel GFlag2 (r_m r) (r_gotl r) (r_gots r) (r_canc r) (r_done r))) (lk_write c)
  | GFlag2 =>
    if r_canc r then Some (r_at j (mkRel GEnd (r_m r) (r_gotl r) (r_gots r) (r_canc r) (r_done r)) (un_write c))
    else Some (r_at j (mkRel GEnd (r_m r) false false (r_canc r) true) (un_load (un_write (set_mem None c))))
  | GEnd => None
  end.
(** a step of its caller: list.go:1103-1117 *)
Definition mstep (c : vcfg) (j : nat) (r : rel) : option vcfg :=
  match r_m r with
  | MWait => if r_done r then Some (r_at j (mkRel (r_g r) MRet (r_gotl r) (r_gots r) (r_canc r) (r_done r)) c) else None
  | MOut =>
    if r_canc r then Some (r_at j (mkRel (r_g r) MRet (r_gotl r) (r_gots r) (r_canc r) (r_done r)) c)
    else
      let c1 := if r_gots r then un_write c else c in
      let c2 := if r_gotl r then un_load c1 else c1 in
      Some (r_at j (mkRel (r_g r) MRet (r_gotl r) (r_gots r) true (r_done r)) c2)
  | MRet => None
  end.
Definition vstep (c : vcfg) (x : vchoice) : option vcfg :=
  match x with
  | V_call k => Some (mkV (v_mem c) (v_next c) (v_load c) (v_lockupd c) (v_read c) (v_w c) (v_fault c) (v_users c ++ [(k, UStart)]) (v_rels c))
  | V_release => Some (mkV (v_mem c) (v_next c) (v_load c) (v_lockupd c) (v_read c) (v_w c) (v_fault c) (v_users c) (v_rels c ++ [mkRel GLoad MWait false false false false]))
  | V_u i a => match nth_error (v_users c) i with Some (k, p) => ustep c i k p a | None => None end
  | V_g j => match nth_error (v_rels c) j with Some r => gstep c j r | None => None end
  | V_time j =>
    match nth_error (v_rels c) j with
    | Some r => match r_m r with MWait => Some (r_at j (mkRel (r_g r) MOut (r_gotl r) (r_gots r) (r_canc r) (r_done r)) c) | _ => None end
    | None => None
    end
  | V_m j => match nth_error (v_rels c) j with Some r => mstep c j r | None => None end
  end.
(** at the start nothing is in memory, as after a load of the lists, lists.go:146-200 *)
Definition vstart : vcfg := mkV None 0 false false 0 WFree false [] [].
Inductive vexec (ok : vchoice -> Prop) : vcfg -> Prop :=
| Vx_nil : vexec ok vstart
| Vx_step c x c' : vexec ok c -> ok x -> vstep c x = Some c' -> vexec ok c'.
