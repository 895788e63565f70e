(** Model of backups to files: backup/file/file.go:13-27 (os.Create, os.Open), chosen by
    api/multilist.go:357-361, on top of the job of Model/Job.v; any number of jobs, on any paths.
    os.Create (an outside library) makes the file empty or makes it; a write goes to the
    position of its own handle, whatever others have done to the file, and a hole before it
    reads as zeros; a write of nothing changes nothing.  The compressor is a parameter [z]: what
    the file gets for the bytes that have reached the destination.  Bytes of a block that is not
    yet whole are left out.  Nothing but these jobs changes the files, and two paths are two
    files (no links, one way of writing a path). *)
From Coq Require Import Strings.Byte Strings.String.
From Verif.Lib Require Import Prelude ListAux.
From Verif.Model Require Import Element Elements Segment List Msgp Codec Storage Backup Job.
Open Scope nat_scope.

Definition disk := string -> option wire.
(** a write of [b] at position [o] of a file *)
Definition write_at (o : nat) (b f : wire) : wire :=
  match b with
  | [] => f
  | _ => firstn o (f ++ repeat Byte.x00 (o - length f)) ++ b ++ skipn (o + length b) f
  end.
Definition set_file (k : disk) (p : string) (v : option wire) : disk := fun q => if String.eqb q p then v else k q.

(** a job: its path and lists, the lists of the server when it began, what it has read *)
Record fjob := mkFJ { fj_path : string; fj_ids : list string; fj_m : db; fj_tr : list jevent; fj_c : jcfg }.
Record fcfg := mkF { f_jobs : list fjob; f_disk : disk }.
Inductive fchoice :=
| F_new (p : string) (ids : list string) (m : db)   (* job.go:124-158 *)
| F_job (i : nat) (x : jchoice).

(** job.go:184, file.go:21-23: os.Create succeeds *)
Definition creates (c : jcfg) (x : jchoice) : bool := match j_pc c, x with JSave, J_go true _ => true | _, _ => false end.
(** job.go:190-191: the bytes that the step from [c] to [c'] brings to the handle *)
Definition f_write (z : wire -> wire) (c c' : jcfg) (f : wire) : wire :=
  write_at (length (z (j_out c))) (skipn (length (z (j_out c))) (z (j_out c'))) f.
Definition f_step (z : wire -> wire) (k : disk) (p : string) (c : jcfg) (x : jchoice) (c' : jcfg) : disk :=
  if creates c x then set_file k p (Some [])
  else match k p with Some f => set_file k p (Some (f_write z c c' f)) | None => k end.
Fixpoint set_job (i : nat) (y : fjob) (l : list fjob) : list fjob :=
  match l, i with
  | [], _ => []
  | _ :: l, O => y :: l
  | a :: l, S i => a :: set_job i y l
  end.
Definition ffire (z : wire -> wire) (s : fcfg) (x : fchoice) : option fcfg :=
  match x with
  | F_new p ids m => Some (mkF (f_jobs s ++ [mkFJ p ids m [] (jstart m)]) (f_disk s))
  | F_job i y =>
    match nth_error (f_jobs s) i with
    | Some a =>
      match jfire (fj_ids a) false (fj_c a) y with   (* api/multilist.go:361,406: no ErrCh *)
      | Some (e, c') => Some (mkF (set_job i (mkFJ (fj_path a) (fj_ids a) (fj_m a) (fj_tr a ++ jev e) c') (f_jobs s))
                                  (f_step z (f_disk s) (fj_path a) (fj_c a) y c'))
      | None => None
      end
    | None => None
    end
  end.
Fixpoint fplay (z : wire -> wire) (s : fcfg) (l : list fchoice) : option fcfg :=
  match l with
  | [] => Some s
  | x :: l => match ffire z s x with Some s => fplay z s l | None => None end
  end.
(** before the first job; [k]: the files there are *)
Definition fstart (k : disk) : fcfg := mkF [] k.
(** a restore with src_file: api/multilist.go:447-456, restore.go:43-56; [unz] is what the
    decompressor delivers before it ends or fails.  No file is an error (api/multilist.go:450-454). *)
Definition restore_file (unz : wire -> wire) (fr : nat -> given) (pre suf : string) (replace : bool) (m : db) (f : option wire) : jres * db :=
  match f with Some b => restore_all fr pre suf replace m (unz b) | None => (JErr, m) end.
