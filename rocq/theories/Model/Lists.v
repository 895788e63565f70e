(** Model of the collection of lists, /repo/lists.go.
    A Lists value is a sync.Map from IDs to lists.  Range visits every key once, in an order
    the map chooses: functions that use it take the visiting order [enum] as an argument.
    Values of the wrong type (lists.go:43,60,251,291) cannot be stored and are left out. *)
From Coq Require Import Strings.String Strings.Ascii.
From Verif.Lib Require Import Prelude ListAux Bytes.
Open Scope nat_scope.

(** Go's < on strings: bytewise, a proper prefix is smaller *)
Fixpoint blt (a b : bytes) : bool :=
  match a, b with
  | _, [] => false
  | [], _ :: _ => true
  | x :: a, y :: b =>
    if (N_of_ascii x <? N_of_ascii y)%N then true
    else if (N_of_ascii y <? N_of_ascii x)%N then false else blt a b
  end.

(** list.go:27-60 List, the fields that lists.go looks at.  [info] stands for the rest. *)
Record lst := Lst { lid : bytes; lset : bytes; lmeta : option (list (bytes * bytes)); info : N }.

Definition has_id (id : bytes) (l : lst) : bool := beq id (lid l).

(** lists.go:38-48 ByID *)
Definition by_id (m : list lst) (id : bytes) : option lst := find (has_id id) m.
(** lists.go:53-67 ByIDs *)
Definition by_ids (m : list lst) (ids : list bytes) : list (option lst) := map (by_id m) ids.
(** lists.go:229-237 Exists *)
Definition exist (m : list lst) (ids : list bytes) : list bytes :=
  fold_left (fun r id => match by_id m id with Some _ => r ++ [id] | None => r end) ids [].
(** lists.go:268-274 Add (the cache and manager pointers are left out) *)
Definition add1 (m : list lst) (l : lst) : list lst :=
  l :: filter (fun x => negb (has_id (lid l) x)) m.
Definition add (m : list lst) (ls : list lst) : list lst := fold_left add1 ls m.
(** lists.go:319-321 Delete *)
Definition delete (m : list lst) (id : bytes) : list lst := filter (fun x => negb (has_id id x)) m.
(** lists.go:395-406 All *)
Definition all_ids (enum : list lst) : list bytes := map lid enum.
(** lists.go:475-485 ListToListID; None = nil *)
Definition to_ids (ls : list (option lst)) : list bytes :=
  map (fun o => match o with Some l => lid l | None => lit "<nil>" end) ls.

(** m[k] of a map[string]string: the zero value "" if k is missing *)
Definition meta_at (m : list (bytes * bytes)) (k : bytes) : bytes :=
  match find (fun p => beq k (fst p)) m with Some p => snd p | None => [] end.

(** lists.go:280-315 MatchAll *)
Definition match_one (q : list (bytes * bytes)) (sets : list bytes) (l : lst) : bool :=
  if existsb (beq (lset l)) sets then true
  else match lmeta l with
       | None => false
       | Some m => match q with
                   | [] => false
                   | _ => forallb (fun p => beq (meta_at m (fst p)) (snd p)) q
                   end
       end.
Definition match_all (enum : list lst) (q : list (bytes * bytes)) (sets : list bytes) : list bytes :=
  match q, sets with
  | [], [] => []
  | _, _ => map lid (filter (match_one q sets) enum)
  end.

(** lists.go:325-327 PageInfo *)
Record page := Page { before : nat; after : nat }.

(** s[i] = x *)
Definition set_nth (i : nat) (x : bytes) (s : list bytes) : list bytes := upd_nth i (fun _ => x) s.

(** state of the Range callbacks: s, lastElement or firstElement, page *)
Record scan := Scan { ss : list bytes; edge : bytes; pg : page }.

(** lists.go:348-375, callback of SortedIDsAfter *)
Definition after_step (from : bytes) (n : nat) (st : scan) (id : bytes) : scan :=
  let 'Scan s last (Page b a) := st in
  if blt from id then
    if length s =? n then
      if blt last id then Scan s last (Page b (S a))
      else
        let s := sort_by blt s in
        let last := nth (n - 2) s [] in
        let s := set_nth (n - 1) id s in
        Scan s (if blt last id then id else last) (Page b (S a))
    else Scan (s ++ [id]) (if blt last id then id else last) (Page b a)
  else Scan s last (Page (S b) a).

(** lists.go:383-391: at most n of the IDs that are still there *)
Definition collect (m : list lst) (n : nat) (s : list bytes) : list lst :=
  firstn n (flat_map (fun id => match by_id m id with Some l => [l] | None => [] end) s).

(** lists.go:333-392 SortedIDsAfter; [m] is the map when the lists are fetched *)
Definition sorted_after (enum m : list lst) (from : bytes) (n : Z) : list lst * page :=
  if (n <=? 0)%Z then ([], Page 0 0)
  else
    let k := if (n =? 1)%Z then 2 else Z.to_nat n in
    let st := fold_left (after_step from k) (map lid enum) (Scan [] [] (Page 0 0)) in
    let s := sort_by blt (ss st) in
    let p := pg st in
    let '(s, p) := if (n =? 1)%Z && (1 <? length s) then (firstn 1 s, Page (before p) (S (after p))) else (s, p) in
    (collect m k s, p).

(** lists.go:427-453, callback of SortedIDsBefore *)
Definition before_step (to : bytes) (n : nat) (st : scan) (id : bytes) : scan :=
  let 'Scan s first (Page b a) := st in
  if blt id to then
    if length s =? n then
      if blt id first then Scan s first (Page (S b) a)
      else
        let s := sort_by blt s in
        let first := nth 1 s [] in
        let s := set_nth 0 id s in
        Scan s (if blt id first then id else first) (Page (S b) a)
    else Scan (s ++ [id]) (if blt id first then id else first) (Page b a)
  else Scan s first (Page b (S a)).

(** lists.go:412-470 SortedIDsBefore *)
Definition sorted_before (enum m : list lst) (to : bytes) (n : Z) : list lst * page :=
  if (n <=? 0)%Z then ([], Page 0 0)
  else
    let k := if (n =? 1)%Z then 2 else Z.to_nat n in
    let st := fold_left (before_step to k) (map lid enum) (Scan [] [] (Page 0 0)) in
    let s := sort_by blt (ss st) in
    let p := pg st in
    let '(s, p) := if (n =? 1)%Z && (1 <? length s) then (firstn 1 s, Page (before p) (S (after p))) else (s, p) in
    (collect m k s, p).
