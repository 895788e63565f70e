(** Model of the access checks in /repo/api/jwt.go and of where the handlers call them.
    Strings are lists of bytes. *)
From Coq Require Import Strings.String Strings.Ascii.
From Verif.Lib Require Import Prelude ListAux.
From Verif.Lib Require Export Bytes.
Open Scope N_scope.

Definition comma : ascii := ",".

(** strings.Split(s, ",") *)
Fixpoint split_comma (s : bytes) : list bytes :=
  match s with
  | [] => [[]]
  | c :: r =>
    if Ascii.eqb c comma then [] :: split_comma r
    else match split_comma r with [] => [[c]] | p :: ps => (c :: p) :: ps end
  end.

(** unicode.IsSpace: the UTF-8 encodings of U+0009-000D, 0020, 0085, 00A0, 1680,
    2000-200A, 2028, 2029, 202F, 205F, 3000 *)
Definition blanks : list bytes :=
  map (map ascii_of_nat)
  [[9]; [10]; [11]; [12]; [13]; [32]; [194; 133]; [194; 160]; [225; 154; 128];
   [226; 128; 128]; [226; 128; 129]; [226; 128; 130]; [226; 128; 131]; [226; 128; 132]; [226; 128; 133];
   [226; 128; 134]; [226; 128; 135]; [226; 128; 136]; [226; 128; 137]; [226; 128; 138];
   [226; 128; 168]; [226; 128; 169]; [226; 128; 175]; [226; 129; 159]; [227; 128; 128]]%nat.
Fixpoint drop_prefix (p s : bytes) : option bytes :=
  match p, s with
  | [], _ => Some s
  | _, [] => None
  | c :: p, d :: s => if Ascii.eqb c d then drop_prefix p s else None
  end.
Fixpoint first_drop (ps : list bytes) (s : bytes) : option bytes :=
  match ps with
  | [] => None
  | p :: ps => match drop_prefix p s with Some r => Some r | None => first_drop ps s end
  end.
Fixpoint trim_left (ps : list bytes) (fuel : nat) (s : bytes) : bytes :=
  match fuel with
  | O => s
  | S f => match first_drop ps s with Some r => trim_left ps f r | None => s end
  end.
(** strings.TrimSpace; the last rune is a blank exactly if the bytes end with its encoding
    (continuation bytes never start a rune) *)
Definition trim (s : bytes) : bytes :=
  let s := trim_left blanks (length s) s in
  rev (trim_left (map (@rev ascii) blanks) (length s) (rev s)).

(** strconv.ParseUint(s, 10, 64): the loop with its two overflow tests; None = error *)
Fixpoint parse_loop (n : N) (s : bytes) : option N :=
  match s with
  | [] => Some n
  | c :: r =>
    let d := N_of_ascii c in
    if (48 <=? d) && (d <=? 57) then
      if 1844674407370955162 <=? n then None
      else let n1 := (n * 10 + (d - 48)) mod 2 ^ 64 in
           if n1 <? (n * 10) mod 2 ^ 64 then None else parse_loop n1 r
    else None
  end.
Definition parse_uint (s : bytes) : option N := match s with [] => None | _ => parse_loop 0 s end.

(** A claim that is missing or not a string is ignored by the type assertion. *)
Inductive claim := CText (s : bytes) | CNone.
(** no token in the context; claims of another shape; MapClaims *)
Inductive token := NoToken | BadClaims | Claims (only_lists only_elements : claim).

(** jwt.go:84-110 [HasAccessToList]; true = nil error *)
Definition has_list (t : token) (ids : list bytes) : bool :=
  match t with
  | NoToken => true
  | BadClaims => false
  | Claims (CText v) _ => forallb (fun id => existsb (fun p => beq (trim p) id) (split_comma v)) ids
  | Claims CNone _ => true
  end.
(** jwt.go:114-140 [HasAccessToElement] *)
Definition has_elem (t : token) (ids : list N) : bool :=
  match t with
  | NoToken => true
  | BadClaims => false
  | Claims _ (CText v) =>
    forallb (fun id => existsb (fun p => match parse_uint (trim p) with Some v => v =? id | None => false end) (split_comma v)) ids
  | Claims _ CNone => true
  end.

(** ** The handlers.  [lid], [eids]: what the request names; [matched]: lists added by
    metadata or set matching.  Lookups that end in "not found" are not represented. *)
Inductive request :=
| R_elements (lid : bytes) (eids : list N)      (* elements.go: Create 38-48, Delete 88-102, DeleteMulti 121-135,
                                                   Get 151-164, GetMulti 183-197, GetAround 226-245, Put 288-304, PutMulti 331-344 *)
| R_multi (lids matched : list bytes) (eids : list N)  (* multilist.go: Create 53-67, Delete 108-130, Get 151-173, Put 199-213 *)
| R_list_read (lid : bytes)                     (* lists.go: Get 105-108, GetPercentile 124-127, GetRange 162-165 *)
| R_list_manage (lid : bytes)                   (* lists.go: Create 28-79, Delete 82-98, Reindex 229-249, Repair 252-272, Verify 283-313 *)
| R_clone (src dst : bytes)                     (* lists.go: 316-361 Clone *)
| R_multi_manage (lids matched : list bytes).   (* multilist.go: Verify 235-294, Reindex 297-330, Backup 333-405 *)
(** lists and elements handed to the database, or None when the handler answers Unauthorized first *)
Definition handle (t : token) (r : request) : option (list bytes * list N) :=
  match r with
  | R_elements lid eids => if has_list t [lid] && has_elem t eids then Some ([lid], eids) else None
  | R_multi lids matched eids => if has_list t (lids ++ matched) && has_elem t eids then Some (lids ++ matched, eids) else None
  | R_list_read lid => if has_list t [lid] then Some ([lid], []) else None
  | R_list_manage lid => Some ([lid], [])
  | R_clone src dst => Some ([src; dst], [])
  | R_multi_manage lids matched => Some (lids ++ matched, [])
  end.
