(** Model of calls on a list while writes and deletes of the store fail: which errors end a call
    and are reported, and which are only logged.  The writes are those of Model/Storage.v; here
    they are put into groups.  The writes of a group are all tried (they run in goroutines, or
    over a Go map); a group whose errors are reported ends the call if one of its writes failed.
    Reads succeed, contexts are not cancelled. *)
From Coq Require Import Strings.String.
From Verif.Lib Require Import Prelude ListAux Bytes.
From Verif.Model Require Import Element Elements Segment List Msgp Codec Keys Storage.
Open Scope N_scope.

(** What becomes of a write: done; refused with an error; done, but answered with an error (a
    timeout of the store). *)
Inductive fate := Kept | Refused | Unsure.
Definition reaches (f : fate) : bool := match f with Refused => false | _ => true end.
Definition is_ok (f : fate) : bool := match f with Kept => true | _ => false end.

(** a group of writes; [true]: errors end the call and are returned, [false]: they are logged *)
Definition group := (list ev * bool)%type.

(** the writes of one group from number [n] on: those that reach the store, and whether none
    returned an error *)
Fixpoint tries (fs : nat -> fate) (n : nat) (es : list ev) : list ev * bool :=
  match es with
  | [] => ([], true)
  | e :: r => let '(w, ok) := tries fs (S n) r in
              ((if reaches (fs n) then e :: w else w), is_ok (fs n) && ok)
  end.
(** the call: the writes that reach the store, and whether the call returns no error *)
Fixpoint call (fs : nat -> fate) (n : nat) (gs : list group) : list ev * bool :=
  match gs with
  | [] => ([], true)
  | (es, reported) :: r =>
    let '(w, ok) := tries fs n es in
    if reported && negb ok then (w, false)
    else let '(w', ok') := call fs (n + length es) r in (w ++ w', ok')
  end.

(** writes one after the other.  Deletes of a segment or a collection are only logged:
    list.go:2143-2146, 2238-2241, 763-767, 1150-1161, segments.go:893-896 *)
Definition each (es : list ev) : list group :=
  map (fun e => ([e], match e with EPut _ _ | EMeta _ => true | EDel _ _ | EMetaDel _ => false end)) es.
(** list.go:470-486 saveSegments *)
Definition save_groups (l : lst) : list group := each (save_evs l).
(** segments.go:883-902 Delete; its error is logged by the callers *)
Definition delete_groups (c : bool) (ord : list nat) (s : segs) : list group :=
  [(permute ord (map (EDel c) (ss_segs s)), false); ([EMetaDel (ss_id s)], false)].

(** list.go:1465-1477: errors of replaceSegment are logged; 1497 saveSegments *)
Definition update_groups (ord : nat -> list nat) (hs hi : bool) clk clki now sc elems (l : lst) : list group :=
  let '(_, (ts, ti)) := update_core clk clki sc elems l in
  let l' := update_elements clk clki now sc elems l in
  [(puts hi (ss_segs (l_index l')) (permute (ord 0%nat) (nodup Nat.eq_dec ti)), false);
   (puts hs (ss_segs (l_scores l')) (permute (ord 1%nat) (nodup Nat.eq_dec ts)), false)] ++ save_groups l'.

(** list.go:1501-1543: score writes through segments.go:375-379 (reported), index writes through
    segments.go:446 (the result of replaceSegment is dropped) *)
Definition delete_elements_groups (ord : nat -> list nat) (hs hi : bool) now sc1 sc2 ids (l : lst) : list group :=
  let e := get_index_elements sc1 l ids in
  let s := reindex (l_scores l) in
  let '(s', deleted) := delete_elements_idx now sc2 (l_scores l) e in
  let l' := delete_elements now sc1 sc2 ids l in
  [(puts hs (ss_segs s') (permute (ord 0%nat) (touched_idx (ss_idx s) (ss_segs s) e)), true);
   (match deleted with
    | [] => []
    | _ => puts hi (ss_segs (l_index l')) (permute (ord 1%nat) (touched_from 0 (ss_segs (l_index l)) deleted))
    end, false)] ++ save_groups l'.

(** list.go:1597-1617, segments.go:536-542 *)
Definition insert_one_groups (ord : nat -> list nat) (hs hi : bool) now sc (l : lst) (e : elements) : list group :=
  let '(_, ix) := segs_insert now sc (l_scores l) (sort_elems e) in
  let l' := insert_one now sc l e in
  [(puts hs (ss_segs (l_scores l')) (permute (ord 0%nat) (touched_from 0 (ss_segs (l_scores l)) (sort_elems (sort_elems e)))), true);
   (puts hi (ss_segs (l_index l')) (permute (ord 1%nat) (touched_from 0 (ss_segs (l_index l)) (sort_elems (sort_elems ix)))), true)].
(** list.go:1580-1596: an error in a chunk ends the call *)
Fixpoint insert_loop_groups (fuel limit : nat) (ord : nat -> nat -> list nat) (hs hi : bool) (now : N) (sch : nat -> list nat) (e : elements) (l : lst) : list group :=
  if Nat.ltb limit (length e) then
    match fuel with
    | O => []
    | S f =>
      insert_one_groups (ord (length e)) hs hi now (sch (length e)) l (firstn limit e) ++
      insert_loop_groups f limit ord hs hi now sch (skipn limit e) (insert_one now (sch (length e)) l (firstn limit e))
    end
  else insert_one_groups (ord (length e)) hs hi now (sch (length e)) l e.
Definition insert_groups ord hs hi now sch e (l : lst) : list group :=
  insert_loop_groups (length e) (want_limit l) ord hs hi now sch e l.

(** list.go:2069-2288: the segments one after the other; segments.go:1128-1180
    updateIndexElements in goroutines *)
Definition split_groups (ord : nat -> list nat) (hs hi : bool) (merge : bool) (now : N) (l : lst) : list group :=
  let s := l_scores l in
  let x := l_index l in
  each (split_loop_evs (length (ss_segs s)) hs false merge (l_merge l) (l_split l) now 0 (ss_segs s) (ss_next s)) ++
  match split_loop_segs (length (ss_segs s)) false merge (l_merge l) (l_split l) now 0 (ss_segs s) (ss_next s) [] false with
  | Done (_, _, us, upd) =>
    let xs := update_index_elements now us (ss_segs x) in
    (puts hi xs (permute (ord 0%nat) (updated_idx us (ss_segs x))), true) ::
    each (split_loop_evs (length xs) hi true true (l_merge l) (l_split l) now 0 xs (ss_next x)) ++
    match split_loop_segs (length xs) true true (l_merge l) (l_split l) now 0 xs (ss_next x) [] upd, split_pass merge now l with
    | Done (_, _, _, true), Done l' => save_groups l'
    | _, _ => []
    end
  | _ => []
  end.

(** list.go:733-781 *)
Definition reindex_groups (ord : nat -> list nat) (hi : bool) (l l' : lst) : list group :=
  each (put_all false (ss_segs (l_index l'))) ++ each [EMeta (l_index l')] ++
  delete_groups hi (ord 0%nat) (l_index l) ++ save_groups l'.

(** list.go:1134-1166 deleteAll: always nil *)
Definition delete_all_groups (ord : nat -> list nat) (hs hi : bool) (l : lst) : list group :=
  delete_groups hs (ord 0%nat) (l_scores l) ++ delete_groups hi (ord 1%nat) (l_index l).
(** list.go:209-235 initEmptyList, 903-974 *)
Definition built_groups (ord : nat -> nat -> list nat) (cfg : bool) ns ni now sc sch want (e : elements) (l l' : lst) : list group :=
  match e with
  | [] => each (put_all false (ss_segs (l_scores l'))) ++ each (put_all false (ss_segs (l_index l')))
  | _ =>
    let defer := Nat.ltb insert_limit (length e) && negb (is_sorted_elems e) in
    let e' := if defer then permute sc e else e in
    let now_part := if defer then firstn insert_limit e' else e' in
    let deferred := if defer then skipn insert_limit e' else [] in
    let size := if defer then Nat.max want (l_merge l / 4) else ((l_merge l + l_split l) / 2)%nat in
    match split_size (sort_elems now_part) size with
    | None => []
    | Some parts =>
      let '(scores, ids) := new_segments_elements ns now parts false in
      match split_size (sort_elems ids) size with
      | None => []
      | Some iparts =>
        let '(index, _) := new_segments_elements ni now iparts true in
        let l1 := mkL (l_merge l) (l_split l) ns ni scores index in
        each (put_all false (ss_segs scores)) ++ each (put_all false (ss_segs index)) ++
        match deferred with [] => [] | _ => insert_groups ord cfg cfg now sch deferred l1 end
      end
    end
  end ++ save_groups l'.

(** the groups of an operation that turns [l] into [l'] *)
Definition op_groups (ord : nat -> nat -> list nat) (cfg hs hi : bool) (l : lst) (o : op) (l' : lst) : list group :=
  match o with
  | OUpdate clk clki now sc e => update_groups (ord 0%nat) hs hi clk clki now sc e l
  | OInsert now sch e => insert_groups ord hs hi now sch e l ++ save_groups l'
  | ODelete now sc1 sc2 ids => delete_elements_groups (ord 0%nat) hs hi now sc1 sc2 ids l
  | OSplit merge now => split_groups (ord 0%nat) hs hi merge now l
  | OReindex ni now sc => reindex_groups (ord 0%nat) hi l l'
  | ORepair ns ni now scd sca sc sch want =>
    delete_all_groups (ord 0%nat) hs hi l ++
    built_groups ord cfg ns ni now sc sch want (repair_elements (fun _ => true) scd sca (ss_segs (l_scores l))) l l'
  | OPopulate ns ni now sc sch want e => delete_all_groups (ord 0%nat) hs hi l ++ built_groups ord cfg ns ni now sc sch want e l l'
  | OReload => []
  end.

(** the store after the call, and whether it returned no error *)
Definition op_fails (fs : nat -> fate) ord cfg hs hi (l : lst) (o : op) (l' : lst) (st : store) : store * bool :=
  let '(w, ok) := call fs 0 (op_groups ord cfg hs hi l o l') in (evs_store w st, ok).
(** list.go:749-772: the list in memory after Reindex, which may have failed.  The new index
    replaces the old one (770) once it is written and saved. *)
Definition reindex_left (fs : nat -> fate) (l l' : lst) : lst :=
  if snd (call fs 0 (each (put_all false (ss_segs (l_index l'))) ++ each [EMeta (l_index l')])) then l' else l.
