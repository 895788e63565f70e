(** Model of background splitting: the calls that ask for it (/repo/list.go:2016-2064 checkSplit
    and requestSplit, 577-670 verify), the queue between them and the splitter (manager.go:24,35),
    and the splitter (manager.go:133-160).
    A call on a list holds the list's update lock from beginning to end and asks before it
    releases it, and so does the splitter (C50): here each is one step.  Lists are the objects
    that callers and the queue point to: a deleted list stays an object without segments
    (list.go:1134-1166), also when a new list with its ID is made.  Calls that found a list before
    it was deleted and come to it afterwards panic; that panic is caught
    (api/services.go:51, api/multilist.go:488-494) and not modelled.  Storage does not fail. *)
From Coq Require Import Strings.String.
From Verif.Lib Require Import Prelude ListAux.
From Verif.Model Require Import Element Elements Segment List.
Open Scope nat_scope.

(** list.go:2030-2046.  verify has the same test, 624-642 and 648-665; that it also looks at the first
    score segment makes no difference, as it starts with the merge size (625). *)
Fixpoint should_split (merge split : nat) (first : bool) (prev : nat) (l : list seg) : bool :=
  match l with
  | [] => false
  | s :: r => (split <? sg_n s) || (negb first && (sg_n s + prev <? merge)) || should_split merge split false (sg_n s) r
  end.
Definition wants (l : lst) : bool :=
  should_split (l_merge l) (l_split l) true (l_merge l) (ss_segs (l_scores l)) ||
  should_split (l_merge l) (l_split l) true (l_merge l) (ss_segs (l_index l)).

(** manager.go:35 *)
Definition room : nat := 1000.
(** [b_objs]: None is a deleted list; [b_up]: the process runs *)
Record bg := mkB { b_objs : list (option lst); b_queue : list nat; b_up : bool }.
(** list.go:2058-2063: sending does not wait *)
Definition request (i : nat) (q : list nat) : list nat := if length q <? room then q ++ [i] else q.
Definition check (i : nat) (l : lst) (q : list nat) : list nat := if wants l then request i q else q.

(** calls that look at the sizes when they are done: list.go:1495 UpdateElements, 1541
    DeleteElements, 1559 Insert; Populate and Repair through verify (973, 234) *)
Definition asks (o : op) : bool :=
  match o with OUpdate _ _ _ _ _ | OInsert _ _ _ | ODelete _ _ _ _ | ORepair _ _ _ _ _ _ _ _ | OPopulate _ _ _ _ _ _ _ => true | _ => false end.

Inductive bevent :=
| BNew (merge split : nat) (ns ni : string) (now : N) (sc : list nat) (sch : nat -> list nat) (want : nat) (e : elements)
    (** list.go:146-197; it has no manager yet, so it asks nothing (2054-2057); lists.go:268-274 *)
| BClone (i merge split : nat) (ns ni : string) (now : N)     (** list.go:490-555 *)
| BCall (i : nat) (o : op)
| BVerify (i : nat)                                           (** list.go:560-574, of a list in order *)
| BDelete (i : nat)                                           (** manager.go:203-210, list.go:1120-1166 *)
| BSplit (now : N).                                           (** manager.go:141-152 *)

Definition obj (s : bg) (i : nat) : option lst := match nth_error (b_objs s) i with Some o => o | None => None end.
Definition put (i : nat) (o : option lst) (l : list (option lst)) : list (option lst) := upd_nth i (fun _ => o) l.

(** None: the call does not happen or does not return (see [outcome]) *)
Definition bnext (s : bg) (e : bevent) : option bg :=
  let '(mkB os q up) := s in
  if negb up then None else
  match e with
  | BNew merge split ns ni now sc sch want e =>
    match new_list merge split ns ni now sc sch want e with Done l => Some (mkB (os ++ [Some l]) q true) | _ => None end
  | BClone i merge split ns ni now =>
    match obj s i with
    | Some org => match clone_elements merge split ns ni now org with Done l => Some (mkB (os ++ [Some l]) q true) | _ => None end
    | None => None
    end
  | BCall i o =>
    match obj s i with
    | Some l => match step l o with
                | Done l' => Some (mkB (put i (Some l') os) (if asks o then check i l' q else q) true)
                | _ => None
                end
    | None => None
    end
  | BVerify i => match obj s i with Some l => Some (mkB os (check i l q) true) | None => None end
  | BDelete i => match obj s i with Some _ => Some (mkB (put i None os) q true) | None => None end
  | BSplit now =>
    match q with
    | [] => None
    | i :: r =>
      match obj s i with
      | Some l => match split_pass true now l with Done l' => Some (mkB (put i (Some l') os) r true) | _ => None end
      | None => Some (mkB os r false)  (* list.go:2096-2105: the segments are nil; nobody recovers the panic *)
      end
    end
  end.
