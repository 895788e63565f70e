(** Paging forward over lists that come and go. *)
From Coq Require Import Strings.Ascii.
From Verif.Lib Require Import Prelude Bytes.
From Verif.Model Require Import Lists.
From Verif.Spec Require Import ListsSpec.
Open Scope nat_scope.

(** What one request finds: the lists that the map enumerates while the page is chosen, and the lists when they are fetched.
    sync.Map.Range gives a list that is there all the time, and none twice. *)
Record seen := mkSeen { chosen_from : list lst; fetched_from : list lst }.
(** A client that asks for pages of [n], each time from the last ID it got, until a page says that nothing follows ([true])
    or has nothing to go on from ([false]). *)
Inductive tour (n : Z) : list seen -> bytes -> list lst -> bool -> Prop :=
| tour_done v from r p : sorted_after (chosen_from v) (fetched_from v) from n = (r, p) -> after p = 0 -> tour n [v] from r true
| tour_empty v from p : sorted_after (chosen_from v) (fetched_from v) from n = ([], p) -> after p <> 0 -> tour n [v] from [] false
| tour_next v vs from r l p R e : sorted_after (chosen_from v) (fetched_from v) from n = (r ++ [l], p) -> after p <> 0 ->
    tour n vs (lid l) R e -> tour n (v :: vs) from ((r ++ [l]) ++ R) e.
(** each ID is there once *)
Definition proper_seen (v : seen) : Prop := distinct (chosen_from v) /\ distinct (fetched_from v).
Definition there (id : bytes) (ls : list lst) : Prop := exists l, In l ls /\ lid l = id.
Definition all_along (id : bytes) (vs : list seen) : Prop := Forall (fun v => there id (chosen_from v) /\ there id (fetched_from v)) vs.
