(** Model of what a list keeps in its blob store and in the segment cache, and of every write
    its operations issue: segment.go:97-104,172-249, segments.go:190-298,837-902,
    list.go:209-235,307-402,456-487,733-781,886-974,1131-1166.
    The set is fixed: one set of one store.  Writes and reads succeed; a stop of the process
    between two writes is a prefix of the event list. *)
From Coq Require Import Strings.Byte Strings.String.
From Verif.Lib Require Import Prelude ListAux Bytes.
From Verif.Model Require Import Element Elements Segment List Msgp Codec Keys.
Open Scope N_scope.

(** ** stored forms *)
(** segment.go:31-40 without the elements.  N and Updated are never negative. *)
Definition to_wseg (s : seg) : wseg :=
  WSeg (sg_id s) (sg_min s) (sg_max s) (sg_mintie s) (sg_maxtie s) (Z.of_nat (sg_n s)) (Z.of_N (sg_upd s)) (sg_parent s).
Definition of_wseg (w : wseg) (e : elements) : seg :=
  mkSeg (w_id w) (w_min w) (w_max w) (w_mintie w) (w_maxtie w) (Z.to_nat (w_n w)) (Z.to_N (w_upd w)) (w_parent w) e.
(** NextID is a uint32; 2^32 here is the wrapped 0 there (Model/List.v ids_ok) *)
Definition to_wsegs (s : segs) : wsegs :=
  WSegs (ss_id s) (map to_wseg (ss_segs s)) (ss_next s mod 2 ^ 32) (ss_index s).
Definition next_of (n : N) : N := if n =? 0 then 2 ^ 32 else n.
(** segment.go:20, segments.go:24 *)
Definition elements_version : N := 1.
Definition segments_version : N := 2.
(** segment.go:230-249 saveElements *)
Definition blob (s : seg) : wire := w_version elements_version ++ w_elements (sg_elems s).
(** segments.go:837-852 Save *)
Definition meta_blob (s : segs) : wire := w_version segments_version ++ w_segments (to_wsegs s).

Definition key_of (s : seg) : bytes := segment_key (lit (sg_parent s)) (sg_id s).
Definition ckey_of (s : seg) : bytes := cache_key (lit (sg_parent s)) (sg_id s).

Definition store := bytes -> option wire.
Definition cache := bytes -> option elements.
Definition put {A} (f : bytes -> option A) (k : bytes) (v : option A) : bytes -> option A :=
  fun k' => if beq k' k then v else f k'.

(** ** events: writes to the store, with what they do to the cache *)
Inductive ev :=
| EPut (c : bool) (s : seg)      (** segments.go:270-298 replaceSegment; c: the collection has a cache *)
| EDel (c : bool) (s : seg)      (** segment.go:225-227 deleteElements; c: segments.go:888-890 cache.Remove *)
| EMeta (s : segs)               (** segments.go:837-852 Save *)
| EMetaDel (name : string).      (** segments.go:901 *)
Definition ev_store (e : ev) (st : store) : store :=
  match e with
  | EPut _ s => put st (key_of s) (Some (blob s))
  | EDel _ s => put st (key_of s) None
  | EMeta s => put st (lit (ss_id s)) (Some (meta_blob s))
  | EMetaDel n => put st (lit n) None
  end.
Definition ev_cache (e : ev) (c : cache) : cache :=
  match e with
  | EPut true s => put c (ckey_of s) (Some (sg_elems s))
  | EDel true s => put c (ckey_of s) None
  | _ => c
  end.
Definition evs_store (es : list ev) (st : store) : store := fold_left (fun st e => ev_store e st) es st.
Definition evs_cache (es : list ev) (c : cache) : cache := fold_left (fun c e => ev_cache e c) es c.

(** ** reading *)
(** segment.go:172-222 loadElements *)
Definition read_blob (b : wire) : option elements :=
  let '(v, b) := r_version b in
  if v =? elements_version then match r_elements b with Some (e, _) => Some e | None => None end else None.
Definition read_stored (st : store) (s : seg) : option elements :=
  match st (key_of s) with Some b => read_blob b | None => None end.
(** segments.go:193-260 elementFullIdx; h: the collection has a cache *)
Definition read_elems (h : bool) (c : cache) (st : store) (s : seg) : option elements :=
  match (if h then c (ckey_of s) else None) with Some e => Some e | None => read_stored st s end.
(** the segments in memory with the elements their readers get *)
Definition fetch_seg (h : bool) (c : cache) (st : store) (s : seg) : option seg :=
  match read_elems h c st s with Some e => Some (set_elems (fun _ => e) s) | None => None end.
Fixpoint all_some {A} (l : list (option A)) : option (list A) :=
  match l with
  | [] => Some []
  | Some x :: r => match all_some r with Some r => Some (x :: r) | None => None end
  | None :: _ => None
  end.
Definition fetch_segs (h : bool) (c : cache) (st : store) (s : segs) : option segs :=
  match all_some (map (fetch_seg h c st) (ss_segs s)) with Some l => Some (set_segs s l) | None => None end.
Definition fetch (hs hi : bool) (c : cache) (st : store) (l : lst) : option lst :=
  match fetch_segs hs c st (l_scores l), fetch_segs hi c st (l_index l) with
  | Some s, Some i => Some (mkL (l_merge l) (l_split l) (l_scores_id l) (l_index_id l) s i)
  | _, _ => None
  end.

(** segments.go:855-880 Load: no elements, no idx map *)
Definition load_segs (st : store) (name : string) : option segs :=
  match st (lit name) with
  | None => None
  | Some b =>
    let '(v, b) := r_version b in
    if v =? segments_version then
      match r_segments b with
      | Some (w, _) => Some (mkSegs (ws_id w) (map (fun x => of_wseg x []) (ws_segs w)) (next_of (ws_next w)) (ws_index w) [])
      | None => None
      end
    else None
  end.
(** list.go:307-402 loadSegments with nothing in memory; an index that does not load is rebuilt
    there, here that is None *)
Definition load (st : store) (merge split : nat) (scores index : string) : option lst :=
  match load_segs st scores, load_segs st index with
  | Some s, Some i => Some (mkL merge split scores index s i)
  | _, _ => None
  end.

(** ** the writes of each operation.  [ord k] is the order of the k-th group of writes that run
    in goroutines or over a Go map; [hs], [hi]: the collection has a cache *)
Definition puts (c : bool) (l : list seg) (is : list nat) : list ev :=
  flat_map (fun i => match nth_error l i with Some s => [EPut c s] | None => [] end) is.
Definition put_all (c : bool) (l : list seg) : list ev := map (EPut c) l.
(** list.go:458-487 saveSegments *)
Definition save_evs (l : lst) : list ev := [EMeta (l_scores l); EMeta (l_index l)].
(** segments.go:883-902 Delete *)
Definition delete_evs (c : bool) (ord : list nat) (s : segs) : list ev :=
  permute ord (map (EDel c) (ss_segs s)) ++ [EMetaDel (ss_id s)].

(** list.go:1465-1477, 1497 *)
Definition update_evs (ord : nat -> list nat) (hs hi : bool) clk clki now sc elems (l : lst) : list ev :=
  let '(_, (ts, ti)) := update_core clk clki sc elems l in
  let l' := update_elements clk clki now sc elems l in
  puts hi (ss_segs (l_index l')) (permute (ord 0%nat) (nodup Nat.eq_dec ti)) ++
  puts hs (ss_segs (l_scores l')) (permute (ord 1%nat) (nodup Nat.eq_dec ts)) ++ save_evs l'.

(** segments.go:395-466, 471-571: the segments that receive elements *)
Fixpoint touched_from (i : nat) (l : list seg) (ins : elements) : list nat :=
  match l with
  | [] => []
  | s :: r =>
    let '(a, b) := filter_idx s ins in
    if Nat.eqb a b then touched_from (S i) r ins else i :: touched_from (S i) r (skipn b ins)
  end.
(** segments.go:330-381 *)
Definition touched_idx (m : list (N * nat)) (l : list seg) (ids : elements) : list nat :=
  filter (fun i => negb (Nat.eqb (length (ids_for m i ids)) 0)) (seq 0 (length l)).
(** list.go:1501-1543 *)
Definition delete_elements_evs (ord : nat -> list nat) (hs hi : bool) now sc1 sc2 ids (l : lst) : list ev :=
  let e := get_index_elements sc1 l ids in
  let s := reindex (l_scores l) in
  let '(s', deleted) := delete_elements_idx now sc2 (l_scores l) e in
  let l' := delete_elements now sc1 sc2 ids l in
  puts hs (ss_segs s') (permute (ord 0%nat) (touched_idx (ss_idx s) (ss_segs s) e)) ++
  match deleted with
  | [] => []
  | _ => puts hi (ss_segs (l_index l')) (permute (ord 1%nat) (touched_from 0 (ss_segs (l_index l)) deleted))
  end ++ save_evs l'.

(** list.go:1591-1617 *)
Definition insert_one_evs (ord : nat -> list nat) (hs hi : bool) now sc (l : lst) (e : elements) : list ev :=
  let '(_, ix) := segs_insert now sc (l_scores l) (sort_elems e) in
  let l' := insert_one now sc l e in
  puts hs (ss_segs (l_scores l')) (permute (ord 0%nat) (touched_from 0 (ss_segs (l_scores l)) (sort_elems (sort_elems e)))) ++
  puts hi (ss_segs (l_index l')) (permute (ord 1%nat) (touched_from 0 (ss_segs (l_index l)) (sort_elems (sort_elems ix)))).
(** list.go:1580-1596; the orders of each chunk are given by its position *)
Fixpoint insert_loop_evs (fuel limit : nat) (ord : nat -> nat -> list nat) (hs hi : bool) (now : N) (sch : nat -> list nat) (e : elements) (l : lst) : list ev :=
  if Nat.ltb limit (length e) then
    match fuel with
    | O => []
    | S f =>
      insert_one_evs (ord (length e)) hs hi now (sch (length e)) l (firstn limit e) ++
      insert_loop_evs f limit ord hs hi now sch (skipn limit e) (insert_one now (sch (length e)) l (firstn limit e))
    end
  else insert_one_evs (ord (length e)) hs hi now (sch (length e)) l e.
Definition insert_evs ord hs hi now sch e (l : lst) : list ev :=
  insert_loop_evs (length e) (want_limit l) ord hs hi now sch e l.

(** list.go:2105-2182, 2204-2279: the recursion of split_loop_segs.  A merge writes the merged
    segment and deletes the other; a score split writes the first half first, an index split the
    second half first. *)
Fixpoint split_loop_evs (fuel : nat) (c isidx merge : bool) (ms sz : nat) (now : N) (i : nat) (l : list seg) (next : N) : list ev :=
  match nth_error l i with
  | None => []
  | Some s =>
    match fuel with
    | O => []
    | S f =>
      if Nat.ltb (sg_n s) sz then
        match (if merge then i else O), nth_error l (i - 1) with
        | S j, Some p =>
          if Nat.ltb ms (sg_n s + sg_n p) then split_loop_evs f c isidx merge ms sz now (S i) l next
          else
            let '(m, _) := merge_segs now p s in
            EPut c m :: EDel false s ::
            split_loop_evs f c isidx merge ms sz now (S (S i)) (del_nth i (upd_nth (i - 1) (fun _ => m) l)) next
        | _, _ => split_loop_evs f c isidx merge ms sz now (S i) l next
        end
      else
        match split_seg isidx next now s with
        | None => split_loop_evs f c isidx merge ms sz now (if isidx then S (S i) else S i) (upd_nth i set_n l) next
        | Some (s1, s2, _) =>
          (if isidx then [EPut c (touch now s2); EPut c (touch now s1)] else [EPut c (touch now s1); EPut c (touch now s2)]) ++
          split_loop_evs f c isidx merge ms sz now (S (S i))
            (ins_nth (S i) (touch now s2) (upd_nth i (fun _ => touch now s1) l)) (next + 1)
        end
    end
  end.
(** segments.go:1128-1180: the index segments with updates *)
Definition updated_idx (us : list upd_entry) (l : list seg) : list nat :=
  let us := sort_by (fun a b => fst b <? fst a) us in
  map fst (filter (fun g : nat * list upd_entry => negb (Nat.eqb (length (snd g)) 0)) (cut_groups us (split_scores l (map fst us)))).
(** list.go:2069-2288 *)
Definition split_evs (ord : nat -> list nat) (hs hi : bool) (merge : bool) (now : N) (l : lst) : list ev :=
  let s := l_scores l in
  let x := l_index l in
  split_loop_evs (length (ss_segs s)) hs false merge (l_merge l) (l_split l) now 0 (ss_segs s) (ss_next s) ++
  match split_loop_segs (length (ss_segs s)) false merge (l_merge l) (l_split l) now 0 (ss_segs s) (ss_next s) [] false with
  | Done (_, _, us, upd) =>
    let xs := update_index_elements now us (ss_segs x) in
    puts hi xs (permute (ord 0%nat) (updated_idx us (ss_segs x))) ++
    split_loop_evs (length xs) hi true true (l_merge l) (l_split l) now 0 xs (ss_next x) ++
    match split_loop_segs (length xs) true true (l_merge l) (l_split l) now 0 xs (ss_next x) [] upd, split_pass merge now l with
    | Done (_, _, _, true), Done l' => save_evs l'
    | _, _ => []
    end
  | _ => []
  end.

(** list.go:733-781; NewSegmentsElements has no cache (segments.go:70-128).  AlignIndex comes
    after the segments are written but changes only what EMeta stores. *)
Definition reindex_evs (ord : nat -> list nat) (hi : bool) (l l' : lst) : list ev :=
  put_all false (ss_segs (l_index l')) ++ [EMeta (l_index l')] ++ delete_evs hi (ord 0%nat) (l_index l) ++ save_evs l'.

(** list.go:1134-1166 deleteAll *)
Definition delete_all_evs (ord : nat -> list nat) (hs hi : bool) (l : lst) : list ev :=
  delete_evs hs (ord 0%nat) (l_scores l) ++ delete_evs hi (ord 1%nat) (l_index l).
(** list.go:209-235 initEmptyList and list.go:903-974: the new segments.  [cfg]: the list has a
    cache, which the collections get after they are built (list.go:946,958) *)
Definition built_evs (ord : nat -> nat -> list nat) (cfg : bool) ns ni now sc sch want (e : elements) (l l' : lst) : list ev :=
  match e with
  | [] => put_all false (ss_segs (l_scores l')) ++ put_all false (ss_segs (l_index l'))
  | _ =>
    let defer := Nat.ltb insert_limit (length e) && negb (is_sorted_elems e) in
    let e' := if defer then permute sc e else e in
    let now_part := if defer then firstn insert_limit e' else e' in
    let deferred := if defer then skipn insert_limit e' else [] in
    let size := if defer then Nat.max want (l_merge l / 4) else ((l_merge l + l_split l) / 2)%nat in
    match split_size (sort_elems now_part) size with
    | None => []
    | Some parts =>
      let '(scores, ids) := new_segments_elements ns now parts false in
      match split_size (sort_elems ids) size with
      | None => []
      | Some iparts =>
        let '(index, _) := new_segments_elements ni now iparts true in
        let l1 := mkL (l_merge l) (l_split l) ns ni scores index in
        put_all false (ss_segs scores) ++ put_all false (ss_segs index) ++
        match deferred with [] => [] | _ => insert_evs ord cfg cfg now sch deferred l1 end
      end
    end
  end ++ save_evs l'.

(** list.go:490-555 cloneElements, the new list's writes *)
Definition clone_evs (l' : lst) : list ev :=
  put_all false (ss_segs (l_scores l')) ++ put_all false (ss_segs (l_index l')) ++ save_evs l'.

(** all writes of an operation that turns [l] into [l'] *)
Definition op_evs (ord : nat -> nat -> list nat) (cfg hs hi : bool) (l : lst) (o : op) (l' : lst) : list ev :=
  match o with
  | OUpdate clk clki now sc e => update_evs (ord 0%nat) hs hi clk clki now sc e l
  | OInsert now sch e => insert_evs ord hs hi now sch e l ++ save_evs l'
  | ODelete now sc1 sc2 ids => delete_elements_evs (ord 0%nat) hs hi now sc1 sc2 ids l
  | OSplit merge now => split_evs (ord 0%nat) hs hi merge now l
  | OReindex ni now sc => reindex_evs (ord 0%nat) hi l l'
  | ORepair ns ni now scd sca sc sch want =>
    delete_all_evs (ord 0%nat) hs hi l ++
    built_evs ord cfg ns ni now sc sch want (repair_elements (fun _ => true) scd sca (ss_segs (l_scores l))) l l'
  | OPopulate ns ni now sc sch want e => delete_all_evs (ord 0%nat) hs hi l ++ built_evs ord cfg ns ni now sc sch want e l l'
  | OReload => []
  end.
(** whether the collections have a cache afterwards *)
Definition built_flag (cfg : bool) (e : elements) : bool := match e with [] => false | _ => cfg end.
Definition op_flags (cfg hs hi : bool) (l : lst) (o : op) : bool * bool :=
  match o with
  | OReindex _ _ _ => (hs, false)
  | ORepair _ _ _ scd sca _ _ _ =>
    let b := built_flag cfg (repair_elements (fun _ => true) scd sca (ss_segs (l_scores l))) in (b, b)
  | OPopulate _ _ _ _ _ _ e => (built_flag cfg e, built_flag cfg e)
  | _ => (hs, hi)
  end.

(** ** a store and a cache with lists.  In memory a list has its segments without elements (those
    of [d_l] are not used) and each collection has a cache or not. *)
Record loaded := mkLd { d_l : lst; d_hs : bool; d_hi : bool }.
Definition view (st : store) (c : cache) (d : loaded) : option lst := fetch (d_hs d) (d_hi d) c st (d_l d).
Record world := mkW { w_st : store; w_c : cache; w_ls : list loaded }.

(** list.go:307-402: the segments of the list are loaded again; loaded collections get the cache *)
Definition reopen (cfg : bool) (st : store) (d : loaded) : option loaded :=
  match load st (l_merge (d_l d)) (l_split (d_l d)) (l_scores_id (d_l d)) (l_index_id (d_l d)) with
  | Some l => Some (mkLd l cfg cfg)
  | None => None
  end.

(** a new process: nothing in memory, an empty cache, every list loaded again when it is used *)
Definition restart (cfg : bool) (w : world) : option world :=
  match all_some (map (reopen cfg (w_st w)) (w_ls w)) with
  | Some ls => Some (mkW (w_st w) (fun _ => None) ls)
  | None => None
  end.

Inductive act :=
| ANew (merge split : nat) (ns ni : string) (now : N) (sc : list nat) (sch : nat -> list nat) (want : nat) (e : elements) (ord : nat -> nat -> list nat)
| AClone (i : nat) (merge split : nat) (ns ni : string) (now : N)
| AOp (i : nat) (o : op) (ord : nat -> nat -> list nat)
| ARemove (i : nat) (ord : nat -> list nat)       (** list.go:1120-1166 DeleteAll *)
| AEvict (keep : bytes -> bool)                   (** the cache drops entries *)
| AFill (i : nat) (isidx : bool) (j : nat).       (** segments.go:240-257: a reader puts what it loaded into the cache *)

Definition run_op (ord : nat -> nat -> list nat) (cfg : bool) (st : store) (c : cache) (d : loaded) (o : op) : option (store * cache * loaded) :=
  match o with
  | OReload => match reopen cfg st d with Some d' => Some (st, c, d') | None => None end
  | _ =>
    match view st c d with
    | None => None
    | Some l =>
      match step l o with
      | Done l' =>
        let es := op_evs ord cfg (d_hs d) (d_hi d) l o l' in
        let '(hs, hi) := op_flags cfg (d_hs d) (d_hi d) l o in
        Some (evs_store es st, evs_cache es c, mkLd l' hs hi)
      | _ => None
      end
    end
  end.

Definition act_on (cfg : bool) (w : world) (a : act) : option world :=
  let st := w_st w in
  let c := w_c w in
  match a with
  | ANew merge split ns ni now sc sch want e ord =>
    match new_list merge split ns ni now sc sch want e with
    | Done l' =>
      let es := built_evs ord cfg ns ni now sc sch want (update_time now e) (init_empty merge split ns ni now) l' in
      Some (mkW (evs_store es st) (evs_cache es c) (w_ls w ++ [mkLd l' (built_flag cfg e) (built_flag cfg e)]))
    | _ => None
    end
  | AClone i merge split ns ni now =>
    match nth_error (w_ls w) i with
    | Some d =>
      match view st c d with
      | Some org =>
        match clone_elements merge split ns ni now org with
        | Done l' => let es := clone_evs l' in
                     Some (mkW (evs_store es st) (evs_cache es c) (w_ls w ++ [mkLd l' false false]))
        | _ => None
        end
      | None => None
      end
    | None => None
    end
  | AOp i o ord =>
    match nth_error (w_ls w) i with
    | Some d =>
      match run_op ord cfg st c d o with
      | Some (st', c', d') => Some (mkW st' c' (upd_nth i (fun _ => d') (w_ls w)))
      | None => None
      end
    | None => None
    end
  | ARemove i ord =>
    match nth_error (w_ls w) i with
    | Some d => let es := delete_all_evs ord (d_hs d) (d_hi d) (d_l d) in
                Some (mkW (evs_store es st) (evs_cache es c) (del_nth i (w_ls w)))
    | None => None
    end
  | AEvict keep => Some (mkW st (fun k => if keep k then c k else None) (w_ls w))
  | AFill i isidx j =>
    match nth_error (w_ls w) i with
    | Some d =>
      match nth_error (ss_segs (if isidx then l_index (d_l d) else l_scores (d_l d))) j with
      | Some s =>
        if (if isidx then d_hi d else d_hs d) then
          match read_elems true c st s with
          | Some e => Some (mkW st (put c (ckey_of s) (Some e)) (w_ls w))
          | None => None
          end
        else Some w
      | None => None
      end
    | None => None
    end
  end.

(** ** after a stop in the middle of a call.  Only the store is left; the list is loaded from it
    and repaired: list.go:1789-1844.  Segments that cannot be read are skipped (1820-1826). *)
Definition salvage_seg (st : store) (s : seg) : seg :=
  set_elems (fun _ => match read_stored st s with Some e => e | None => [] end) s.
Definition salvage (st : store) (l : lst) : lst :=
  mkL (l_merge l) (l_split l) (l_scores_id l) (l_index_id l) (set_segs (l_scores l) (map (salvage_seg st) (ss_segs (l_scores l)))) (l_index l).
Definition salvaged (st : store) (l : lst) (i : nat) : bool :=
  match nth_error (ss_segs (l_scores l)) i with
  | Some s => match read_stored st s with Some _ => true | None => false end
  | None => false
  end.
Definition repair_stored (st : store) ns ni now scd sca sc sch want (l : lst) : outcome lst :=
  repair ns ni now (salvaged st l) scd sca sc sch want (salvage st l).
