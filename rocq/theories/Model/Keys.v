(** Model of name generation and storage keys: /repo/tools.go, segment.go, segments.go,
    manager.go.  Strings are lists of bytes. *)
From Coq Require Import Strings.String Strings.Ascii.
From Coq Require Import Decimal DecimalN.
From Verif.Lib Require Import Prelude Bytes.
Open Scope N_scope.

(** tools.go:53-62: the character for m = int(r) % variants *)
Definition char_of (r : N) : ascii :=
  let m := r mod 62 in
  ascii_of_N (if m <? 10 then 48 + m else if m <? 36 then 65 + m - 10 else 97 + m - 10 - 26).

(** tools.go:46-50: byte(t % variants), then t /= variants (both truncate towards zero) *)
Fixpoint time_bytes (n : nat) (t : Z) : list N :=
  match n with
  | O => []
  | S n => Z.to_N (Z.rem t 62 mod 256) :: time_bytes n (Z.quot t 62)
  end.

(** tools.go:19,38: UnixNano in steps of 100 microseconds *)
Definition ticks (nanos : Z) : Z := Z.quot nanos 100000.

(** tools.go:29-65 RandString; rnd = the bytes crypto/rand delivered, nanos = the clock *)
Definition rand_string (rnd : list N) (nanos : Z) : bytes :=
  map char_of (rnd ++ time_bytes 8 (ticks nanos)).

(** %d / %v of an unsigned integer *)
Fixpoint digits (d : uint) : bytes :=
  match d with
  | Nil => []
  | D0 d => "0"%char :: digits d | D1 d => "1"%char :: digits d
  | D2 d => "2"%char :: digits d | D3 d => "3"%char :: digits d
  | D4 d => "4"%char :: digits d | D5 d => "5"%char :: digits d
  | D6 d => "6"%char :: digits d | D7 d => "7"%char :: digits d
  | D8 d => "8"%char :: digits d | D9 d => "9"%char :: digits d
  end.
Definition decimal (n : N) : bytes := digits (N.to_uint n).
(** %06d *)
Definition decimal6 (n : N) : bytes := repeat "0"%char (6 - length (decimal n)) ++ decimal n.

(** segment.go:97-99 StorageKey *)
Definition segment_key (parent : bytes) (id : N) : bytes := parent ++ "-"%char :: decimal6 id.
(** segment.go:102-104 cacheID *)
Definition cache_key (parent : bytes) (id : N) : bytes := decimal id ++ "["%char :: parent ++ ["]"%char].

(** what is stored under one set of a store *)
Inductive record :=
| RSegment (parent : bytes) (id : N)   (** segment.go:206,226,248 *)
| RSegments (id : bytes)               (** segments.go:851,856,901 *)
| RLists                               (** manager.go:41,164,199 *)
| RBackup.                             (** manager.go:42,178,194 *)
Definition record_key (r : record) : bytes :=
  match r with
  | RSegment p i => segment_key p i
  | RSegments p => p
  | RLists => lit "lists"
  | RBackup => lit "lists-backup"
  end.
