(** Model of requests that make, replace, restore and delete lists, and of calls on lists, all at
    the same time: /repo/lists.go:24-52,264-331 (a sync.Map of list objects), manager.go:202-210,
    list.go:146-197 (NewList), 1120-1166 (DeleteAll), api/lists.go:28-98 (Create, Delete),
    backup/restore.go:83-103 (one list of a restore).

    Each access to the map is one step, and so is each call on a list object, which locks it (C50):
    an object is the history of what it was made with and of the calls on it.  A list whose data
    was deleted stays an object; calls that come to it panic, which is caught
    (api/services.go:51).  Clone (api/lists.go:315-361) is a query of the original, for which see
    C79, and then a create that does not replace.  The list file is in C62, passes over deleted
    lists in C63. *)
From Coq Require Import Strings.String.
From Verif.Lib Require Import Prelude ListAux.
Open Scope nat_scope.

(** [o_data]: the segments are stored, list.go:1161-1164; [o_added]: the object has been given to
    Lists.Add (lists.go:268-274), which happens once *)
Record obj := mkO { o_id : string; o_hist : list nat; o_data : bool; o_added : bool }.
Inductive request :=
| RCreate (id : string) (replace : bool) (x : nat)    (** api/lists.go:28-81; [x]: what to make it with *)
| RRestore (id : string) (replace : bool) (x : nat)   (** backup/restore.go:83-103 *)
| RDelete (id : string)                               (** api/lists.go:84-98 *)
| RCall (id : string) (x : nat).                      (** api/elements.go, api/multilist.go: ByID, then a call on the object *)
(** [AGot o h]: the call found list number [o] with history [h]; [AFailed]: an error or a panic *)
Inductive ans := AOk | AConflict | ASkipped | ANotFound | AFailed | AGot (o : nat) (h : list nat).
Inductive place :=
| PStart
| PFound (o : nat)            (* a call has its object *)
| PMake (old : option nat)    (* Create: api/lists.go:36-41 done *)
| PDrop (old new : nat)       (* Create: the new list is made (58-67), the old one not yet deleted (68-73) *)
| PAdd (new : nat)            (* before Lists.Add, api/lists.go:76, restore.go:103 *)
| PAgain                      (* Restore: before DeleteList, restore.go:90 *)
| PGone (o : nat)             (* DeleteList: found, manager.go:204-207 *)
| PErase (o : nat)            (* DeleteList: out of the map, manager.go:208-209 *)
| PRemake                     (* Restore: before RestoreList, restore.go:97 *)
| PEnd (a : ans).
Record dcfg := mkD { d_objs : list obj; d_map : string -> option nat; d_reqs : list (request * place) }.
Definition dstart : dcfg := mkD [] (fun _ => None) [].
(** sync.Map Store and Delete *)
Definition set_map (m : string -> option nat) (id : string) (v : option nat) : string -> option nat :=
  fun k => if string_dec k id then v else m k.

(** what a step writes: a request comes, a request is answered *)
Inductive label := Came (i : nat) | Answered (i : nat).
(** [ok]: the store does not fail (NewList, RestoreList, the loading in DeleteAll) *)
Inductive dchoice := D_come (r : request) | D_go (i : nat) (ok : bool).

Definition at_place (c : dcfg) (i : nat) (r : request) (p : place) : list (request * place) := upd_nth i (fun _ => (r, p)) (d_reqs c).
Definition goes_to (c : dcfg) (i : nat) (r : request) (p : place) : option (list label * dcfg) :=
  Some (match p with PEnd _ => [Answered i] | _ => [] end, mkD (d_objs c) (d_map c) (at_place c i r p)).
(** list.go:1145-1164 *)
Definition erase (ok : bool) (o : nat) (l : list obj) : list obj :=
  if ok then upd_nth o (fun b => mkO (o_id b) (o_hist b) false (o_added b)) l else l.
(** NewList, RestoreList: a new object *)
Definition makes (c : dcfg) (i : nat) (r : request) (p : place) (id : string) (x : nat) : option (list label * dcfg) :=
  Some ([], mkD (d_objs c ++ [mkO id [x] true false]) (d_map c) (at_place c i r p)).
(** lists.go:268-274 *)
Definition adds (c : dcfg) (i : nat) (r : request) (id : string) (new : nat) : option (list label * dcfg) :=
  Some ([Answered i], mkD (upd_nth new (fun b => mkO (o_id b) (o_hist b) (o_data b) true) (d_objs c)) (set_map (d_map c) id (Some new)) (at_place c i r (PEnd AOk))).
(** manager.go:203-210 *)
Definition deletes (c : dcfg) (i : nat) (r : request) (id : string) (o : nat) : option (list label * dcfg) :=
  Some ([], mkD (d_objs c) (set_map (d_map c) id None) (at_place c i r (PErase o))).
Definition erases (c : dcfg) (i : nat) (r : request) (ok : bool) (o : nat) (p : place) : option (list label * dcfg) :=
  Some (match p with PEnd _ => [Answered i] | _ => [] end, mkD (erase ok o (d_objs c)) (d_map c) (at_place c i r p)).

Definition dstep (c : dcfg) (x : dchoice) : option (list label * dcfg) :=
  match x with
  | D_come r => Some ([Came (length (d_reqs c))], mkD (d_objs c) (d_map c) (d_reqs c ++ [(r, PStart)]))
  | D_go i ok =>
    match nth_error (d_reqs c) i with
    | Some (RCreate id rep x as r, p) =>
      match p with
      | PStart => match d_map c id with
                  | Some o => goes_to c i r (if rep then PMake (Some o) else PEnd AConflict)
                  | None => goes_to c i r (PMake None)
                  end
      | PMake old => if ok then makes c i r (match old with Some o => PDrop o (length (d_objs c)) | None => PAdd (length (d_objs c)) end) id x
                     else goes_to c i r (PEnd AFailed)
      | PDrop old new => erases c i r ok old (PAdd new)
      | PAdd new => adds c i r id new
      | _ => None
      end
    | Some (RRestore id rep x as r, p) =>
      match p with
      | PStart => match d_map c id with
                  | Some o => goes_to c i r (if rep then PAgain else PEnd ASkipped)
                  | None => goes_to c i r PRemake
                  end
      | PAgain => match d_map c id with Some o => goes_to c i r (PGone o) | None => goes_to c i r PRemake end
      | PGone o => deletes c i r id o
      | PErase o => erases c i r ok o PRemake
      | PRemake => if ok then makes c i r (PAdd (length (d_objs c))) id x else goes_to c i r (PEnd AFailed)
      | PAdd new => adds c i r id new
      | _ => None
      end
    | Some (RDelete id as r, p) =>
      match p with
      | PStart => match d_map c id with Some o => goes_to c i r (PGone o) | None => goes_to c i r (PEnd AOk) end
      | PGone o => deletes c i r id o
      | PErase o => erases c i r ok o (PEnd AOk)
      | _ => None
      end
    | Some (RCall id x as r, p) =>
      match p with
      | PStart => match d_map c id with Some o => goes_to c i r (PFound o) | None => goes_to c i r (PEnd ANotFound) end
      | PFound o =>
        match nth_error (d_objs c) o with
        | Some b =>
          if o_data b && ok then
            Some ([Answered i], mkD (upd_nth o (fun b => mkO (o_id b) (o_hist b ++ [x]) (o_data b) (o_added b)) (d_objs c)) (d_map c)
                                    (at_place c i r (PEnd (AGot o (o_hist b)))))
          else goes_to c i r (PEnd AFailed)
        | None => None
        end
      | _ => None
      end
    | None => None
    end
  end.
Inductive dexec (ok : dcfg -> dchoice -> Prop) : list label -> dcfg -> Prop :=
| Dx_nil : dexec ok [] dstart
| Dx_step tr c x ls c' : dexec ok tr c -> ok c x -> dstep c x = Some (ls, c') -> dexec ok (tr ++ ls) c'.
