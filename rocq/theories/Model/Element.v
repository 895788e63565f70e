(** Model of /repo/element.go. *)
From Coq Require Import Strings.Byte.
From Verif.Lib Require Import Prelude.
Open Scope N_scope.

(** math.MaxUint64, math.MaxUint32 *)
Definition max_u64 : N := 18446744073709551615.
Definition max_u32 : N := 4294967295.

(** element.go:19-25 [type Element struct].  uint64/uint32 fields are [N];
    ranges are stated by [elem_ok] where they matter. *)
Record element := mkE {
  e_score : N;            (* Score uint64 *)
  e_id : N;               (* ID ElementID (uint64) *)
  e_payload : list byte;  (* Payload []byte *)
  e_tie : N;              (* TieBreaker uint32 *)
  e_upd : N               (* Updated uint32 *)
}.

(** Field widths of element.go:19-25. *)
Definition elem_ok (e : element) : Prop :=
  e_score e <= max_u64 /\ e_id e <= max_u64 /\ e_tie e <= max_u32 /\ e_upd e <= max_u32.

(** element.go:34-45 [Element.Above] *)
Definition above (e b : element) : bool :=
  if negb (e_score e =? e_score b) then e_score b <? e_score e
  else if negb (e_tie e =? e_tie b) then e_tie b <? e_tie e
  else if negb (e_upd e =? e_upd b) then e_upd e <? e_upd b
  else e_id e <? e_id b.

(** element.go:48-59 [aboveP], the same comparison through pointers.
    Written out again because the code duplicates it. *)
Definition aboveP (e b : element) : bool :=
  if negb (e_score e =? e_score b) then e_score b <? e_score e
  else if negb (e_tie e =? e_tie b) then e_tie b <? e_tie e
  else if negb (e_upd e =? e_upd b) then e_upd e <? e_upd b
  else e_id e <? e_id b.

(** element.go:76-78 [Element.AsIndex]; SegmentID is uint32, stored as tie. *)
Definition as_index (e : element) (sid : N) : element :=
  mkE (e_id e) (e_id e) [] sid (e_upd e).

(** element.go:81-89 [Element.PrevMax] *)
Definition prev_max (score tie : N) : N * N :=
  if (score =? 0) && (tie =? 0) then (0, 0)
  else if tie =? 0 then (score - 1, max_u32)
  else (score, tie - 1).

(** element.go:92-100 [Element.AboveThis] *)
Definition above_this (score tie : N) : N * N :=
  if (score =? max_u64) && (tie =? max_u32) then (max_u64, max_u32)
  else if tie =? max_u32 then (score + 1, 0)
  else (score, tie + 1).
