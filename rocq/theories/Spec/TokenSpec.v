(** What scopes are for, and what a client may do with the tokens it holds. *)
From Coq Require Import Strings.String Strings.Ascii.
From Verif.Lib Require Import Prelude Bytes.
From Verif.Model Require Import Keys Tokens.
Open Scope Z_scope.

(** README.md, Security: reading needs any scope, changes of elements the one for them, everything else manage *)
Definition suffices (s : scope) (d : dbcall) : Prop :=
  match d with
  | DGet => True
  | DInsert | DUpdate => s = SUpdate \/ s = SManage
  | DDelete => s = SDelete \/ s = SManage
  | _ => s = SManage
  end.
(** the scope as it is written in a token (api/design/api.go:211-215) *)
Definition written_as (s : scope) : bytes :=
  match s with SRead => lit "api:read" | SUpdate => lit "api:update" | SDelete => lit "api:delete" | SManage => lit "api:manage" end.
(** [now] in nanoseconds: the second that [now] is in is not behind the one of the token *)
Definition alive (now : Z) (t : tok) : Prop := now < 1000000000 * (tk_exp t + 1).
Definition manages (grants : bytes -> bytes -> bool) (t : tok) : Prop := grants (tk_scopes t) (lit "api:manage") = true.
(** printable ASCII without commas *)
Definition plain (id : list ascii) : Prop := forall c, In c id -> (33 <= N_of_ascii c <= 126 /\ N_of_ascii c <> 44)%N.
Fixpoint commas (ids : list (list ascii)) : list ascii :=
  match ids with [] => [] | [x] => x | x :: r => x ++ ","%char :: commas r end.
