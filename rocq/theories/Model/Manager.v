(** Model of the master list file (/repo/lists.go:69-226) and of its use at start-up and while
    running (/repo/manager.go:45-99,161-200, /repo/api/rankdb.go:256-274).
    zstd and flate are parameters: [enc] compresses, [zdec] and [fdec] give the bytes a
    decompressor delivers from a blob before it ends or fails.  Lists are compared by what is
    stored of them; locks, logging and the background verification of lists with LoadIndex are
    left out. *)
From Coq Require Import Strings.Byte Strings.String.
From Verif.Lib Require Import Prelude.
From Verif.Model Require Import Element Msgp Codec.
Open Scope N_scope.

(** list.go:238, lists.go:81-85 *)
Definition list_version : N := 1.
Definition comp_base : N := 7.
Definition comp_none : N := comp_base.
Definition comp_zstd : N := 23.

(** lists.go:88-143 Save; [enum]: the order in which Range visits the lists *)
Definition save (enc : wire -> wire) (enum : list wlist) : wire :=
  Nb comp_zstd :: enc (w_version list_version ++ flat_map w_list enum ++ w_bool true).

Inductive lerr := EMissing   (* blobstore.ErrBlobNotFound *)
  | ERead                    (* another storage error *)
  | EEmpty                   (* rankdb.ErrNotFound: empty blob *)
  | EReader                  (* "nil reader" *)
  | EVersion                 (* ErrVersionMismatch *)
  | EDecode.                 (* error of the msgp reader *)

(** lists.go:268-274 Add *)
Definition put_list (m : list wlist) (l : wlist) : list wlist :=
  l :: filter (fun x => negb (String.eqb (wl_id l) (wl_id x))) m.

(** lists.go:185-214.  The loop stops at a bool, or when NextType fails: here, at the end of
    the input.  [fuel] exceeds the length of the input. *)
Definition is_bool (c : byte) : bool := (bN c =? 0xc2) || (bN c =? 0xc3).
Fixpoint load_stream (fuel : nat) (m : list wlist) (b : wire) : option lerr * list wlist :=
  match fuel with
  | O => (Some EDecode, m)
  | S fuel =>
    match b with
    | [] => (Some EDecode, m)
    | c :: _ =>
      if is_bool c then (None, m)
      else match r_list b with
           | None => (Some EDecode, m)
           | Some (l, r) => load_stream fuel (put_list m l) r
           end
    end
  end.

(** lists.go:151-178: the reader to use.  With flate the first byte is part of the data. *)
Definition open_file (zdec fdec : wire -> wire) (c : byte) (b : wire) : option wire :=
  if N.land (bN c) comp_base =? comp_base then
    if bN c =? comp_none then Some b
    else if bN c =? comp_zstd then Some (zdec b)
    else None
  else Some (fdec (c :: b)).

(** lists.go:146-226 Load: the error, and the lists afterwards *)
Definition load (zdec fdec : wire -> wire) (old : list wlist) (b : wire) : option lerr * list wlist :=
  match b with
  | [] => (Some EEmpty, old)
  | c :: b =>
    match open_file zdec fdec c b with
    | None => (Some EReader, old)
    | Some s =>
      let '(v, s) := r_version s in
      if v =? list_version then load_stream (S (length s)) [] s else (Some EVersion, old)
    end
  end.

(** the answer of a Get *)
Inductive got := Got (b : wire) | Missing | Failed.

(** manager.go:161-183 LoadLists; [backup]: None if no backup store is configured *)
Definition load_lists (zdec fdec : wire -> wire) (old : list wlist) (primary : got) (backup : option got) : option lerr * list wlist :=
  let '(err, m, done) :=
    match primary with
    | Missing => (Some EMissing, old, false)
    | Failed => (Some ERead, old, false)
    | Got b =>
      let '(err, m) := load zdec fdec old b in
      (err, m, match err, backup with None, _ => true | _, None => true | _, _ => false end)
    end in
  if done : bool then (err, m)
  else match backup with
       | None => (err, m)
       | Some Missing => (Some EMissing, m)
       | Some Failed => (Some ERead, m)
       | Some (Got b) => load zdec fdec m b
       end.

(** api/rankdb.go:256-261,273 with cmd/rankdb/main.go:45-47: the lists the server starts with,
    or the error with which it exits *)
Inductive started := Running (m : list wlist) | Exit (e : lerr).
Definition start_server (zdec fdec : wire -> wire) (primary : got) (backup : option got) : started :=
  match load_lists zdec fdec [] primary backup with
  | (None, m) => Running m
  | (Some EMissing, _) => Running []      (* NewLists *)
  | (Some e, _) => Exit e
  end.

(** ** saving while running *)
(** One blob: what a Get answers.  The primary store and the backup store hold one each. *)
Record files := Files { f_primary : got; f_backup : got }.

(** what a Set can do to the blob it writes: succeed; fail, leaving the old or the new content;
    fail and leave something unreadable *)
Inductive outcome := Stored | FailOld | FailNew | FailBroken.
Definition set_blob (o : outcome) (old : got) (b : wire) : got :=
  match o with Stored => Got b | FailOld => old | FailNew => Got b | FailBroken => Failed end.

(** manager.go:186-200 SaveLists: the backup first, its error is only logged.  The result is
    the list of states of the two blobs before, between and after the writes: a crash leaves one
    of them, and a crash during a write is a write that failed, being the last. *)
Definition save_states (enc : wire -> wire) (enum : list wlist) (backup : bool) (o1 o2 : outcome) (f : files) : list files :=
  let b := save enc enum in
  let f1 := Files (f_primary f) (set_blob o1 (f_backup f) b) in
  let last f := Files (set_blob o2 (f_primary f) b) (f_backup f) in
  if backup then [f; f1; last f1] else [f; last f].

(** manager.go:64-98, the interval saver: the counter decides whether a tick also saves the
    backup *)
Definition tick_backup (configured : bool) (every : Z) (last : Z) : bool :=
  configured && (0 <? every)%Z && (every <=? last)%Z.
Definition tick_last (backup : bool) (last : Z) : Z := ((if backup then 0 else last) + 1)%Z.
