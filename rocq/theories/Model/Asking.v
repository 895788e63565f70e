(** Model of requests for the status of a backup job while it runs: /repo/backup/job.go:32-44,
    api/backup.go:41-52, api/morph/backup.go:30-47, on top of the job of Model/Job.v.  Status
    copies the struct under the lock of the job, but the map Errors (and Custom, which nobody
    writes) is shared: the answer is encoded from it without the lock, while the job writes to
    it.  Go's runtime ends the process when it notices a write to a map during an iteration; it
    need not notice.  The slice Success is shared too, but the job only writes behind its length
    (job.go:140,232; its capacity is that of the request). *)
From Coq Require Import Strings.Byte Strings.String.
From Verif.Lib Require Import Prelude ListAux.
From Verif.Model Require Import Element Elements Segment List Msgp Codec Storage Backup Job.
Open Scope nat_scope.

(** a request: arrived; has its copy (job.go:39-41); goes through Errors (encoding of
    morph/backup.go:38); has been answered.  [t]: the copy; its Errors count only in an answer *)
Inductive rpc := QCame | QCopy (t : status) | QIter (t : status) (from : list string) | QAnswered (t : status).
Record wcfg := mkW { w_job : jcfg; w_req : list rpc; w_dead : bool }.
Inductive wchoice :=
| W_job (x : jchoice) (noticed : bool)     (* the runtime notices a write during an iteration *)
| W_come
| W_copy (i : nat)
| W_iter (i : nat)
| W_answer (i : nat) (errs : list string). (* the keys the iteration met *)

(** whether a step writes to Errors: job.go:186, 217, 225, 240, 167 *)
Definition writes (ch : bool) (c : jcfg) (x : jchoice) : bool :=
  match x with
  | J_go ok _ =>
    match j_pc c with
    | JSave | JWrote _ _ | JLast => negb ok
    | JFind id _ => match j_db c id with None => true | Some _ => negb ok end
    | _ => false
    end
  | J_result failed => failed
  | _ => false
  end.
Definition iterates (q : rpc) : bool := match q with QIter _ _ => true | _ => false end.
Definition subset (a b : list string) : bool := forallb (fun k => if in_dec string_dec k b then true else false) a.
Definition answer (t : status) (errs : list string) : status := mkSt (t_done t) errs (t_ndone t) (t_success t) (t_cancelled t).

Definition wfire (ids : list string) (ch : bool) (c : wcfg) (x : wchoice) : option (option jevent * wcfg) :=
  if w_dead c then None else
  match x with
  | W_job y noticed =>
    match jfire ids ch (w_job c) y with
    | Some (e, j) =>
      if noticed then if writes ch (w_job c) y && existsb iterates (w_req c) then Some (e, mkW j (w_req c) true) else None
      else Some (e, mkW j (w_req c) false)
    | None => None
    end
  | W_come => Some (None, mkW (w_job c) (w_req c ++ [QCame]) false)
  | W_copy i => match nth_error (w_req c) i with
                | Some QCame => Some (None, mkW (w_job c) (upd_nth i (fun _ => QCopy (j_st (w_job c))) (w_req c)) false)
                | _ => None
                end
  | W_iter i => match nth_error (w_req c) i with
                | Some (QCopy t) => Some (None, mkW (w_job c) (upd_nth i (fun _ => QIter t (t_errs (j_st (w_job c)))) (w_req c)) false)
                | _ => None
                end
  | W_answer i errs => (* an iteration meets every key there from its beginning, and some of the later ones *)
                match nth_error (w_req c) i with
                | Some (QIter t from) =>
                  if subset from errs && subset errs (t_errs (j_st (w_job c))) then
                    Some (None, mkW (w_job c) (upd_nth i (fun _ => QAnswered (answer t errs)) (w_req c)) false)
                  else None
                | _ => None
                end
  end.
Definition wstart (m : db) : wcfg := mkW (jstart m) [] false.
Inductive wexec (ok : wchoice -> Prop) (ids : list string) (ch : bool) (m : db) : list jevent -> wcfg -> Prop :=
| Wx_nil : wexec ok ids ch m [] (wstart m)
| Wx_step tr c x e c' : wexec ok ids ch m tr c -> ok x -> wfire ids ch c x = Some (e, c') -> wexec ok ids ch m (tr ++ jev e) c'.
