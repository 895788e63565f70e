(** Model of a backup job, /repo/backup/job.go:124-282: the goroutine that writes the lists to
    the destination, its status, and what happens around it.  A step of the goroutine is the
    work between two points where its status can be seen.  The contents of the lists may change
    between the steps; a list is looked up and encoded (under its update lock) in one step.
    Bytes given to the writer lie in the msgp buffer or the compressor until they reach the
    destination; the destination may fail at any time, and the compressor writes nothing
    after it failed.  Bytes are those before compression.  Left out: times, sizes, the map of running jobs,
    the error of zstd.NewWriter (192-195; without options it has none). *)
From Coq Require Import Strings.Byte Strings.String.
From Verif.Lib Require Import Prelude ListAux.
From Verif.Model Require Import Element Elements Segment List Msgp Codec Storage Backup.
Open Scope nat_scope.

(** job.go:82-104, 132-143: what is set during the job.  [t_errs]: the keys of the map Errors *)
Record status := mkSt { t_done : bool; t_errs : list string; t_ndone : nat; t_success : list string; t_cancelled : bool }.
(** job.go:132-143 *)
Definition st_new : status := mkSt false [] 0 [] false.
Definition st_err (t : status) (k : string) : status :=
  mkSt (t_done t) (if in_dec string_dec k (t_errs t) then t_errs t else k :: t_errs t) (t_ndone t) (t_success t) (t_cancelled t).
(** job.go:231-235 *)
Definition st_ok (t : status) (id : string) : status := mkSt (t_done t) (t_errs t) (S (t_ndone t)) (t_success t ++ [id]) (t_cancelled t).
Definition st_cancel (t : status) : status := mkSt (t_done t) (t_errs t) (t_ndone t) (t_success t) true.
Definition st_end (t : status) : status := mkSt true (t_errs t) (t_ndone t) (t_success t) (t_cancelled t).

(** before Save (184); at the top of the loop (204); past the check of the context (213); the
    record of a list given to the writer, its error not yet looked at (221); the end mark given
    to the writer (237); the deferred Closes (189-198); the deferred function (162-181); over *)
Inductive jpc := JSave | JTop (rest : list string) | JFind (id : string) (rest : list string) | JWrote (id : string) (rest : list string)
| JLast | JClose | JWait | JOver.

(** [j_out]: what reached the destination; [j_pend]: given to the writer and not there yet;
    [j_bad]: the destination failed; [j_cut]: the context is cancelled; [j_hook]: Start has
    not returned, its hook is registered for shutdown (147) *)
Record jcfg := mkJ { j_pc : jpc; j_st : status; j_db : db; j_out : wire; j_pend : wire; j_bad : bool; j_cut : bool; j_hook : bool }.

Inductive jchoice :=
| J_go (ok : bool) (n : nat)   (* the goroutine; outcome of the call it makes; bytes already past the buffer *)
| J_flow (n : nat)             (* bytes reach the destination *)
| J_break                      (* the destination fails *)
| J_result (failed : bool)     (* a value on ErrCh *)
| J_lists (m : db)             (* the lists of the server change *)
| J_cancel                     (* ID.Cancel, 48-57 *)
| J_ret                        (* Start returns *)
| J_shutdown.                  (* shutdown begins *)
(** a list is read *)
Inductive jevent := JRead (id : string) (d : bdesc) (l : lst).

Definition go (c : jcfg) pc st := mkJ pc st (j_db c) (j_out c) (j_pend c) (j_bad c) (j_cut c) (j_hook c).
(** give bytes to the writer *)
Definition give (c : jcfg) (b : wire) : jcfg :=
  mkJ (j_pc c) (j_st c) (j_db c) (j_out c) (if j_bad c then j_pend c else j_pend c ++ b) (j_bad c) (j_cut c) (j_hook c).

(** [ids]: the sorted lists of the request; [ch]: the request has an ErrCh *)
Definition jfire (ids : list string) (ch : bool) (c : jcfg) (x : jchoice) : option (option jevent * jcfg) :=
  match x with
  | J_go ok n =>
    match j_pc c with
    | JSave => Some (None, if ok then go c (JTop ids) (j_st c) else go c JWait (st_err (j_st c) "saver"))  (* 183-188 *)
    | JTop [] => Some (None, give (go c JLast (j_st c)) (w_bool false))                                   (* 237 *)
    | JTop (id :: rest) =>
        if j_cut c
        then (* 205-210; the deferred msg.Close (198) drops what is still in the msgp buffer *)
             Some (None, mkJ JClose (st_cancel (j_st c)) (j_db c) (j_out c) (firstn n (j_pend c)) (j_bad c) (j_cut c) (j_hook c))
        else Some (None, go c (JFind id rest) (j_st c))
    | JFind id rest => (* 213-220, 252-282 *)
        match j_db c id with
        | None => Some (None, go c (JTop rest) (st_err (j_st c) id))
        | Some (d, l) => if ok then Some (Some (JRead id d l), give (go c (JWrote id rest) (j_st c)) (record_bytes d l))
                         else Some (None, go c (JTop rest) (st_err (j_st c) id))
        end
    | JWrote id rest => (* 221-235 *)
        if ok then Some (None, go c (JTop rest) (st_ok (j_st c) id))
        else if j_bad c then Some (None, go c (JTop rest) (st_err (j_st c) id)) else None
    | JLast => (* 238-243: the error of Flush is not looked at *)
        if ok then Some (None, go c JClose (j_st c))
        else if j_bad c then Some (None, go c JClose (st_err (j_st c) "finalizing")) else None
    | JClose => (* 189, 196: zw.Close writes what the compressor has, its error is not looked at *)
        match j_pend c, j_bad c with
        | [], _ | _, true => Some (None, go c JWait (j_st c))
        | _, _ => None
        end
    | JWait => if ch then None else Some (None, mkJ JOver (st_end (j_st c)) (j_db c) (j_out c) (j_pend c) (j_bad c) true (j_hook c))
    | JOver => None
    end
  | J_result failed => (* 163-180 *)
    match j_pc c, ch with
    | JWait, true => Some (None, mkJ JOver (st_end (if failed then st_err (j_st c) "delayed_error" else j_st c)) (j_db c) (j_out c) (j_pend c) (j_bad c) true (j_hook c))
    | _, _ => None
    end
  | J_flow n => if j_bad c then None
                else Some (None, mkJ (j_pc c) (j_st c) (j_db c) (j_out c ++ firstn n (j_pend c)) (skipn n (j_pend c)) (j_bad c) (j_cut c) (j_hook c))
  | J_break => Some (None, mkJ (j_pc c) (j_st c) (j_db c) (j_out c) [] true (j_cut c) (j_hook c))
  | J_lists m => Some (None, mkJ (j_pc c) (j_st c) m (j_out c) (j_pend c) (j_bad c) (j_cut c) (j_hook c))
  | J_cancel => Some (None, mkJ (j_pc c) (j_st c) (j_db c) (j_out c) (j_pend c) (j_bad c) true (j_hook c))
  | J_ret => Some (None, mkJ (j_pc c) (j_st c) (j_db c) (j_out c) (j_pend c) (j_bad c) (j_cut c) false)
  | J_shutdown => Some (None, mkJ (j_pc c) (j_st c) (j_db c) (j_out c) (j_pend c) (j_bad c) (j_cut c || j_hook c) (j_hook c))
  end.

Definition jstart (m : db) : jcfg := mkJ JSave st_new m [] [] false false true.
Definition jev (e : option jevent) : list jevent := match e with Some y => [y] | None => [] end.
Inductive jexec (ok : jchoice -> Prop) (ids : list string) (ch : bool) (m : db) : list jevent -> jcfg -> Prop :=
| Jx_nil : jexec ok ids ch m [] (jstart m)
| Jx_step tr c x e c' : jexec ok ids ch m tr c -> ok x -> jfire ids ch c x = Some (e, c') -> jexec ok ids ch m (tr ++ jev e) c'.
