(** Model of who may call what: the scopes that /repo/api/app/controllers.go asks for, the start of the JWT
    parts (/repo/api/services.go:32-72, /repo/api/jwt.go:27-58, 147-169) and the endpoint that makes tokens
    (/repo/api/jwt.go:171-205, /repo/api/app/contexts.go:932-971).  The check of a token is goa's: that it lets a
    request through exactly if the token was signed with a known key, has not expired and its scopes hold the one
    that is asked for is assumed; [grants]: the scopes claim holds a scope. *)
From Coq Require Import Strings.String Strings.Ascii.
From Verif.Lib Require Import Prelude ListAux.
From Verif.Lib Require Export Bytes.
From Verif.Model Require Import Keys Access.
Open Scope Z_scope.

(** controllers.go:43-903, the routes *)
Inductive endpoint :=
| BackupDelete | BackupStatus
| ElemCreate | ElemDelete | ElemDeleteMulti | ElemGet | ElemGetAround | ElemGetMulti | ElemPut | ElemPutMulti
| Health | Root | JwtMake
| ListClone | ListCreate | ListDelete | ListGet | ListPercentile | ListRange | ListGetAll | ListReindex | ListRepair | ListVerify
| MultiBackup | MultiCreate | MultiDelete | MultiGet | MultiPut | MultiReindex | MultiRestore | MultiVerify
| Docs.
Inductive scope := SRead | SUpdate | SDelete | SManage.
(** security.go:36-41 *)
Definition scope_name (s : scope) : bytes :=
  match s with SRead => lit "api:read" | SUpdate => lit "api:update" | SDelete => lit "api:delete" | SManage => lit "api:manage" end.
(** controllers.go, the calls of handleSecurity; 879-903: the documentation has none *)
Definition need (e : endpoint) : option scope :=
  match e with
  | BackupDelete => Some SManage        (* 59 *)
  | BackupStatus => Some SManage        (* 75 *)
  | ElemCreate => Some SUpdate          (* 116 *)
  | ElemDelete => Some SDelete          (* 132 *)
  | ElemDeleteMulti => Some SDelete     (* 148 *)
  | ElemGet => Some SRead               (* 164 *)
  | ElemGetAround => Some SRead         (* 186 *)
  | ElemGetMulti => Some SRead          (* 208 *)
  | ElemPut => Some SUpdate             (* 230 *)
  | ElemPutMulti => Some SUpdate        (* 252 *)
  | Health => Some SManage              (* 356 *)
  | Root => Some SManage                (* 372 *)
  | JwtMake => Some SManage             (* 400 *)
  | ListClone => Some SManage           (* 443 *)
  | ListCreate => Some SManage          (* 465 *)
  | ListDelete => Some SManage          (* 481 *)
  | ListGet => Some SRead               (* 497 *)
  | ListPercentile => Some SRead        (* 513 *)
  | ListRange => Some SRead             (* 529 *)
  | ListGetAll => Some SManage          (* 545 *)
  | ListReindex => Some SManage         (* 561 *)
  | ListRepair => Some SManage          (* 577 *)
  | ListVerify => Some SManage          (* 593 *)
  | MultiBackup => Some SManage         (* 666 *)
  | MultiCreate => Some SUpdate         (* 688 *)
  | MultiDelete => Some SDelete         (* 704 *)
  | MultiGet => Some SRead              (* 720 *)
  | MultiPut => Some SUpdate            (* 742 *)
  | MultiReindex => Some SManage        (* 764 *)
  | MultiRestore => Some SManage        (* 780 *)
  | MultiVerify => Some SManage         (* 802 *)
  | Docs => None
  end.

(** what the handlers call on lists and the database *)
Inductive dbcall :=
| DGet         (* Len, GetElements, GetRank..., GetPercentile, Stats, SortedIDs..., MatchAll, Verify... *)
| DInsert | DUpdate | DDelete
| DNewList | DDropList | DReindex | DRepair | DBackup | DRestore.
Definition db_calls (e : endpoint) : list dbcall :=
  match e with
  | BackupDelete | BackupStatus => []                         (* api/backup.go:27-51: the table of jobs *)
  | ElemCreate | MultiCreate => [DGet; DInsert]               (* api/elements.go:50-65, api/multilist.go:71-86 *)
  | ElemDelete | ElemDeleteMulti | MultiDelete => [DDelete]   (* api/elements.go:104, 137, api/multilist.go:134 *)
  | ElemGet | ElemGetAround | ElemGetMulti | MultiGet => [DGet]  (* api/elements.go:165, 246, 198, api/multilist.go:177 *)
  | ElemPut | ElemPutMulti | MultiPut => [DUpdate]            (* api/elements.go:307, 345, api/multilist.go:218 *)
  | Health | Root | JwtMake | Docs => []
  | ListClone => [DGet; DNewList]                             (* api/lists.go:324-359 *)
  | ListCreate => [DGet; DNewList; DDropList]                 (* api/lists.go:35-79 *)
  | ListDelete => [DDropList]                                 (* api/lists.go:84-98 *)
  | ListGet | ListPercentile | ListRange | ListGetAll => [DGet]  (* api/lists.go:101-226 *)
  | ListReindex | MultiReindex => [DReindex; DGet]            (* api/lists.go:242-247, api/multilist.go:321 *)
  | ListRepair => [DRepair; DGet]                             (* api/lists.go:264 *)
  | ListVerify | MultiVerify => [DGet; DRepair]               (* api/lists.go:295-303, api/multilist.go:262-284 *)
  | MultiBackup => [DBackup]                                  (* api/multilist.go:336-405 *)
  | MultiRestore => [DRestore]                                (* api/multilist.go:410-465 *)
  end.

(** ** The server.  services.go:32-72, jwt.go:27-58, 147-169 *)
Record server := mkServer { jwt_on : bool; jwt_make : bool; private_key : bool }.
(** [creation]: the variable enableJWTCreation, false unless tests set it (jwt.go:30); [path]: config.JwtKeyPath;
    [public]: number of keys that could be read there; [private]: jwt.key there could be read.  None: the program exits *)
Definition start (creation : bool) (path : bytes) (public : nat) (private : bool) : option server :=
  let on := negb (beq path []) in
  if on && Nat.eqb public 0 then None
  else if negb creation then Some (mkServer on creation false)
  else if private then Some (mkServer on creation true)
  else None.

(** ** Tokens.  jwt.go:178-196; times: [tk_exp] in seconds, [now] in nanoseconds since 1970 *)
Record tok := mkTok { tk_scopes : bytes; tk_lists : option bytes; tk_elems : option bytes; tk_exp : Z }.
(** int64 arithmetic *)
Definition wrap64 (z : Z) : Z := (z + 2 ^ 63) mod 2 ^ 64 - 2 ^ 63.
(** jwt.go:178: time.Now().Add(time.Minute * time.Duration(ctx.Expire)).Unix() *)
Definition expiry (now minutes : Z) : Z := (now + wrap64 (60000000000 * minutes)) / 1000000000.
(** the parameters of the request: None = missing; an expire that is no integer is [Some None] *)
Record params := mkParams { p_scope : option bytes; p_lists : option bytes; p_elems : option bytes; p_expire : option (option Z) }.
(** contexts.go:939-951; None: Bad Request *)
Definition expire_of (p : params) : option Z :=
  match p_expire p with
  | None => Some 1440
  | Some None => None
  | Some (Some m) => if m <? 1 then None else Some m
  end.
(** contexts.go:964-969 *)
Definition scope_of (p : params) : bytes := match p_scope p with None => lit "api:read" | Some s => s end.
(** jwt.go:171-205 behind contexts.go:932-971 *)
Definition make (srv : server) (now : Z) (p : params) : option tok :=
  match expire_of p with
  | None => None
  | Some m =>
    if negb (private_key srv) || negb (jwt_make srv) then None
    else Some (mkTok (scope_of p) (p_lists p) (p_elems p) (expiry now m))
  end.
(** what jwt.go:84-140 find in the context *)
Definition claim_of (o : option bytes) : claim := match o with Some v => CText v | None => CNone end.
Definition ctx_of (t : tok) : token := Claims (claim_of (tk_lists t)) (claim_of (tk_elems t)).

(** ** A client: it keeps the tokens it is given and sends one of them, or none, with each request *)
Record act := mkAct { a_time : Z; a_to : endpoint; a_with : option nat; a_params : params }.
(** security.go:47-58, jwt.go:40-58; None: refused; else the token in the context *)
Definition lets_in (grants : bytes -> bytes -> bool) (srv : server) (now : Z) (e : endpoint) (t : option tok) : option token :=
  match need e with
  | None => Some NoToken
  | Some s =>
    if negb (jwt_on srv) then Some NoToken
    else match t with
         | None => None
         | Some t => if (now / 1000000000 <=? tk_exp t) && grants (tk_scopes t) (scope_name s) then Some (ctx_of t) else None
         end
  end.
(** the tokens held afterwards, and the handler that was run with the token it saw *)
Definition send grants (srv : server) (held : list tok) (a : act) : list tok * option (endpoint * token) :=
  match lets_in grants srv (a_time a) (a_to a) (match a_with a with Some i => nth_error held i | None => None end) with
  | None => (held, None)
  | Some c =>
    (match a_to a with
     | JwtMake => match make srv (a_time a) (a_params a) with Some t => held ++ [t] | None => held end
     | _ => held
     end, Some (a_to a, c))
  end.
Fixpoint client grants (srv : server) (held : list tok) (l : list act) : list tok * list (act * endpoint * token) :=
  match l with
  | [] => (held, [])
  | a :: r =>
    let '(h, o) := send grants srv held a in
    let '(h', rs) := client grants srv h r in
    (h', match o with Some (e, c) => (a, e, c) :: rs | None => rs end)
  end.
