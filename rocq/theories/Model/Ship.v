(** Model of the way of a backup to its destination: /repo/api/multilist.go:336-465 (choice of
    the destination and of the source), backup/s3/s3.go:35-59, backup/reader/reader.go:19-33,
    backup/server/rankdb.go:47-93, on top of the job of Model/Job.v.  All three destinations are
    an io.Pipe: the job writes, another goroutine reads and passes on.  io.Pipe, net/http and the
    S3 uploader are outside libraries; of them is assumed: bytes arrive in order; the far end
    is told that it has all only if it has and the job has closed the pipe; a request or an
    upload whose context is cancelled may be given up at any moment until it has ended.
    Bytes are those before compression. *)
From Coq Require Import Strings.Byte Strings.String.
From Verif.Lib Require Import Prelude ListAux.
From Verif.Model Require Import Element Elements Segment List Msgp Codec Storage Backup Job.
Open Scope nat_scope.

(** api/multilist.go:376-389, 362-375, 390-400 *)
Inductive carrier := ByS3 | ByDownload | ByServer.
(** api/multilist.go:388, 364, 406: only S3 has a channel for the outcome *)
Definition has_ch (k : carrier) : bool := match k with ByS3 => true | _ => false end.

(** [s_open]: the pipe is there; [s_far]: what the far end has; [s_end]: the far end was told
    that it has all (upload done, end of the response, end of the request body); [s_dead]: the
    transfer was given up, the read side of the pipe is closed with an error *)
Record scfg := mkS { s_job : jcfg; s_open : bool; s_far : wire; s_end : bool; s_dead : bool }.
Inductive schoice :=
| S_job (x : jchoice)
| S_send (n : nat)     (* bytes reach the far end *)
| S_eof                (* the far end is told that it has all *)
| S_fail               (* the network or the far end fails, or the client of a download goes away *)
| S_ctx.               (* the context is cancelled and the transfer given up *)

(** whether the job's surroundings allow its step *)
Definition allowed (k : carrier) (c : scfg) (x : jchoice) : bool :=
  match x with
  | J_go false _ => match j_pc (s_job c), k with
                    | JSave, ByS3 | JSave, ByDownload => false   (* backup/s3/s3.go:58, backup/reader/reader.go:32: no error *)
                    | _, _ => true                               (* backup/server/rankdb.go:48-51 *)
                    end
  | J_flow _ => s_open c && negb (s_dead c)
  | J_break => s_dead c            (* backup/s3/s3.go:51, api/multilist.go:372, backup/server/rankdb.go:80,86,90 *)
  | J_result failed => if failed then s_dead c else s_end c      (* backup/s3/s3.go:49-55 *)
  | _ => true
  end.
(** the pipe is closed by the deferred dst.Close (job.go:189) *)
Definition closed (c : jcfg) : bool := match j_pc c with JWait | JOver => true | _ => false end.
(** job.go:184-188 *)
Definition opens (c : jcfg) (x : jchoice) : bool := match j_pc c, x with JSave, J_go true _ => true | _, _ => false end.

Definition sfire (k : carrier) (ids : list string) (c : scfg) (x : schoice) : option (option jevent * scfg) :=
  match x with
  | S_job y => if allowed k c y then
      match jfire ids (has_ch k) (s_job c) y with
      | Some (e, j) => Some (e, mkS j (s_open c || opens (s_job c) y) (s_far c) (s_end c) (s_dead c))
      | None => None
      end else None
  | S_send n => if s_end c || s_dead c then None
      else Some (None, mkS (s_job c) (s_open c) (s_far c ++ firstn n (skipn (length (s_far c)) (j_out (s_job c)))) false false)
  | S_eof => if s_end c || s_dead c || negb (s_open c) || negb (closed (s_job c)) || negb (length (s_far c) =? length (j_out (s_job c))) then None
      else Some (None, mkS (s_job c) (s_open c) (s_far c) true false)
  | S_fail => if s_end c || negb (s_open c) then None else Some (None, mkS (s_job c) (s_open c) (s_far c) false true)
  | S_ctx => (* the context of the job: backup/s3/s3.go:49, backup/server/rankdb.go:52,77; the response of a download has none of it *)
      if s_end c || negb (s_open c) || negb (j_cut (s_job c)) then None
      else match k with ByDownload => None | _ => Some (None, mkS (s_job c) (s_open c) (s_far c) false true) end
  end.
Definition sstart (m : db) : scfg := mkS (jstart m) false [] false false.
Inductive sexec (ok : schoice -> Prop) (k : carrier) (ids : list string) (m : db) : list jevent -> scfg -> Prop :=
| Sx_nil : sexec ok k ids m [] (sstart m)
| Sx_step tr c x e c' : sexec ok k ids m tr c -> ok x -> sfire k ids c x = Some (e, c') -> sexec ok k ids m (tr ++ jev e) c'.

(** the destination in a request (ctx.Payload.Destination, api/multilist.go:356-399); nil when left out *)
Record dest := mkD { de_type : string; de_path : option string; de_prefix : option string; de_suffix : option string }.
Inductive target := ToFile (path : string) | ToClient | ToS3 (bucket key : string) | ToServer (host : string) (prefix suffix : option string).
(** api/multilist.go:358, 380, 391 *)
Definition path_of (d : dest) : option string := match de_path d with Some p => if String.eqb p "" then None else Some p | None => None end.
(** api/multilist.go:356-403.  [aws]: there is an AWS session; [url]: url.Parse, host and path; [up]:
    the health check of the server at a host succeeds (backup/server/rankdb.go:22-34) *)
Definition backup_dst (aws : bool) (url : string -> option (string * string)) (up : string -> bool) (d : dest) : option target :=
  if String.eqb (de_type d) "file" then match path_of d with Some p => Some (ToFile p) | None => None end
  else if String.eqb (de_type d) "download" then Some ToClient
  else if String.eqb (de_type d) "s3" then
    if aws then match path_of d with
                | Some p => match url p with Some (h, k) => Some (ToS3 h k) | None => None end
                | None => None
                end
    else None
  else if String.eqb (de_type d) "server" then
    match path_of d with Some p => if up p then Some (ToServer p (de_prefix d) (de_suffix d)) else None | None => None end
  else None.

Inductive source := FromBody | FromFile (path : string) | FromURL (url : string) | FromS3 (bucket key : string).
(** api/multilist.go:418-456.  [opens]: os.Open succeeds *)
Definition restore_src (aws : bool) (url : string -> option (string * string)) (opens : string -> bool) (src file : string) : option source :=
  let first := if String.eqb src "" then Some FromBody
               else if prefix "s3://" src then
                 if aws then match url src with Some (h, k) => Some (FromS3 h k) | None => None end else None
               else Some (FromURL src) in
  match first with
  | None => None
  | Some s => if String.eqb file "" then Some s else if opens file then Some (FromFile file) else None
  end.
