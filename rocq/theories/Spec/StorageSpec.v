(** Stores and caches shared by several lists: what callers must respect, and which maps the
    lists stand for.  Nothing here looks at stored bytes. *)
From Coq Require Import Strings.String.
From Verif.Lib Require Import Prelude ListAux Bytes.
From Verif.Model Require Import Element Elements Segment List Keys Storage.
From Verif.Spec Require Import RankSpec QuerySpec HistorySpec AnswerSpec KeySpec CodecSpec.
Open Scope N_scope.

(** collection names: letters and digits, as RandString gives them (C47) *)
Definition plain (s : string) : Prop := s <> ""%string /\ Forall letter_or_digit (lit s) /\ short_str s.
(** nothing cached under the name *)
Definition unused (c : cache) (name : string) : Prop := forall id, c (cache_key (lit name) id) = None.
Definition names (l : lst) : list string := [l_scores_id l; l_index_id l].
Definition taken (w : world) : list string := flat_map (fun d => names (d_l d)) (w_ls w).
(** a name that no list has, and that never had a cache entry which is still there: a new random name *)
Definition fresh (w : world) (s : string) : Prop := plain s /\ ~ In s (taken w) /\ unused (w_c w) s.

(** payloads and numbers of elements that msgp can represent *)
Definition map_fits (m : smap) : Prop :=
  (forall x, sin m x -> short (e_payload x)) /\ sized m (fun n => N.of_nat n < 2 ^ 32).

(** one list: sizes and contents *)
Definition entry := (nat * nat * smap)%type.

(** what the caller must respect *)
Definition act_ok (w : world) (ms : list entry) (a : act) : Prop :=
  match a with
  | ANew merge split ns ni now sc sch want e _ =>
    (merge < split)%nat /\ build_sizes merge split want (length e) /\ tick now /\
    distinct_ids e /\ Forall elem_ok e /\ N.of_nat (length e) < max_u32 /\
    fresh w ns /\ fresh w ni /\ ns <> ni
  | AClone i merge split ns ni now =>
    (merge < split)%nat /\ (2 <= merge + split)%nat /\ tick now /\
    (forall g s m, nth_error ms i = Some (g, s, m) -> sized m (fun n => N.of_nat n < max_u32)) /\
    fresh w ns /\ fresh w ni /\ ns <> ni
  | AOp i o _ =>
    (forall g s m, nth_error ms i = Some (g, s, m) -> op_ok g s m o) /\
    match o with
    | OReindex ni _ _ => fresh w ni
    | ORepair ns ni _ _ _ _ _ _ | OPopulate ns ni _ _ _ _ _ => fresh w ns /\ fresh w ni /\ ns <> ni
    | _ => True
    end
  | _ => True
  end.

Definition act_spec (ms : list entry) (a : act) : list entry :=
  match a with
  | ANew merge split _ _ now _ _ _ e _ => ms ++ [(merge, split, sputs sempty (map (restamp now) e))]
  | AClone i merge split _ _ _ => ms ++ match nth_error ms i with Some (_, _, m) => [(merge, split, m)] | None => [] end
  | AOp i o _ => upd_nth i (fun x => let '(g, s, m) := x in (g, s, spec_step m o)) ms
  | ARemove i _ => del_nth i ms
  | AEvict _ | AFill _ _ _ => ms
  end.

(** the names an action works on *)
Definition own (w : world) (a : act) : list string :=
  let of i := match nth_error (w_ls w) i with Some d => names (d_l d) | None => [] end in
  match a with
  | ANew _ _ ns ni _ _ _ _ _ _ | AClone _ _ _ ns ni _ => [ns; ni]
  | AOp i o _ => of i ++ match o with
                         | OReindex ni _ _ => [ni]
                         | ORepair ns ni _ _ _ _ _ _ | OPopulate ns ni _ _ _ _ _ => [ns; ni]
                         | _ => []
                         end
  | ARemove i _ => of i
  | AEvict _ | AFill _ _ _ => []
  end.
(** the key holds data of the collection: its segment list or one of its segments *)
Definition key_in (n : string) (k : bytes) : Prop := k = lit n \/ exists id, k = segment_key (lit n) id.
(** the position after the action of the list at [j], if the action is not a call on that list *)
Definition stays (a : act) (j : nat) : option nat :=
  match a with
  | AOp i _ _ => if Nat.eqb i j then None else Some j
  | ARemove i _ => if Nat.ltb j i then Some j else if Nat.eqb j i then None else Some (j - 1)%nat
  | _ => Some j
  end.

(** Executions: any number of lists over one store and cache, whatever else is in the store at
    the start; whole calls on the lists in any order, evictions and cache fills between them, and
    restarts, with or without a cache.  A restart knows the current names of the lists, as when
    the descriptors were saved (C32, C33) after the last Reindex, Repair or Populate; restarts
    with older descriptors are in C62. *)
Inductive runs : bool -> world -> list entry -> Prop :=
| W_start cfg st c : runs cfg (mkW st c []) []
| W_act cfg w ms a w' : runs cfg w ms -> act_ok w ms a -> act_on cfg w a = Some w' ->
    Forall (fun x => map_fits (snd x)) (act_spec ms a) ->
    runs cfg w' (act_spec ms a)
| W_restart cfg w ms cfg' w' : runs cfg w ms -> restart cfg' w = Some w' -> runs cfg' w' ms.

(** ** Stops of the process *)
(** From the store alone, with the sizes [g], [s] and the names of [d], the list loads, and every
    Repair of it succeeds with a list as good as any other, that has every element of [must] and
    none outside [may].  The sizes are those that let a list of as many elements be built. *)
Definition recovers (g s : nat) (st : store) (d : lst) (must may : element -> Prop) : Prop :=
  exists l, load st g s (l_scores_id d) (l_index_id d) = Some l /\
  forall ns ni now scd sca sc sch want, ns <> ""%string -> ni <> ""%string -> tick now ->
  let n := length (stored_in (salvage st l)) in
  N.of_nat n < max_u32 -> build_sizes g s want n ->
  exists l' m', repair_stored st ns ni now scd sca sc sch want l = Done l' /\ reachable g s l' m' /\
    (forall x, must x -> sin m' x) /\ (forall x, sin m' x -> may x).

(** calls that change segments where they are *)
Definition in_place (o : op) : Prop :=
  match o with OUpdate _ _ _ _ _ | OInsert _ _ _ | ODelete _ _ _ _ => True | _ => False end.
