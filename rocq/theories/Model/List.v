(** Model of the list operations in /repo/list.go on loaded segments (no storage
    errors; Model/Storage.v has the storage view).  Sizes are naturals: negative
    merge/split sizes are not modelled.  The manager's split queue is not part
    of the list state: a split pass is an operation of its own, which may happen
    between any two other operations. *)
From Coq Require Import Strings.String.
From Verif.Lib Require Import Prelude ListAux.
From Verif.Model Require Import Element Elements Segment.
Open Scope N_scope.

(** list.go:36-61 [type List]: sizes, names of the collections, loaded segments.
    ID, Set, Metadata, LoadIndex: see Model/Lists.v and Model/Storage.v. *)
Record lst := mkL {
  l_merge : nat; l_split : nat;
  l_scores_id : string; l_index_id : string;
  l_scores : segs; l_index : segs
}.

(** list.go:94-103 [MergeSplitSize]; default sizes list.go:60-75 satisfy it *)
Definition sizes_ok (merge split : nat) : bool := Nat.ltb merge split.

Definition set_both (l : lst) (s i : segs) : lst :=
  mkL (l_merge l) (l_split l) (ss_id s) (ss_id i) s i.

(** SegmentID is uint32; NextID wraps in Go after 2^32-1 allocations.  The model
    counts without wrapping and stops ([Exhausted]) instead of wrapping. *)
Definition ids_ok (l : lst) : bool :=
  (ss_next (l_scores l) <=? 4294967296) && (ss_next (l_index l) <=? 4294967296).
Definition guard_ids (l : lst) : outcome lst := if ids_ok l then Done l else Exhausted.

(** list.go:209-235 [initEmptyList], with NewSegments (segments.go:52-62) and
    newLockedSegment (segments.go:302-317).  Names are the two RandString results.
    NewSegments(1, true) gives the scores an idx map, the index gets none. *)
Definition empty_segs (name : string) (now : N) (isidx withmap : bool) : segs :=
  mkSegs name [mkSeg 1 0 max_u64 0 max_u32 0 now name []] 2 isidx (if withmap then [(1, 0%nat)] else []).
Definition init_empty (merge split : nat) (ns ni : string) (now : N) : lst :=
  mkL merge split ns ni (empty_segs ns now false true) (empty_segs ni now true false).

(** list.go:977-990 [Len] *)
Definition len (l : lst) : nat := count (ss_segs (l_scores l)).

(** list.go:1170-1207 [getIndexElements] *)
Definition get_index_elements (sc : list nat) (l : lst) (ids : list N) : elements :=
  filter (fun e => mem_id (e_score e) ids)
         (get_first_with_score sc (ss_segs (l_index l)) (nodup N.eq_dec ids)).

(** list.go:1212-1240 [GetElements]/[getElements] *)
Definition get_elements (sc1 sc2 : list nat) (l : lst) (ids : list N) (radius : nat) : list ranked_element :=
  find_elements sc2 (l_scores l) (get_index_elements sc1 l ids) radius.

(** list.go:1633-1660 [GetRankTop]; None = ErrOffsetOutOfBounds *)
Definition get_rank_top (l : lst) (offset n : nat) : option elements :=
  match seg_idx_top (ss_segs (l_scores l)) offset with
  | None => None
  | Some (i, eoff) => Some (get_elements_offset (ss_segs (l_scores l)) i eoff n)
  end.

(** list.go:1666-1692 [GetRankBottom] *)
Definition get_rank_bottom (l : lst) (offset n : nat) : option elements :=
  match seg_idx_bottom (ss_segs (l_scores l)) offset with
  | None => None
  | Some (i, eoff) => Some (get_elements_offset (ss_segs (l_scores l)) i eoff n)
  end.

(** list.go:1697-1721 [GetRankScoreDesc] *)
Definition get_rank_score_desc (l : lst) (score : N) (n : nat) : option (list ranked_element) :=
  let ss := ss_segs (l_scores l) in
  match seg_idx_score ss score with
  | None => None
  | Some (i, ab) =>
    match get_elements_from_score ss score i n with
    | None => None
    | Some e => Some (map (fun r => re_offset ab (calc_bottom (count ss) r)) e)
    end
  end.

(** list.go:1752-1770, [GetPercentile] after wantOff has been computed *)
Fixpoint pct_find (i : nat) (prev : option nat) (offs : list nat) (want : nat) : option (nat * nat) :=
  match offs with
  | [] => None
  | o :: r => if Nat.ltb want o
              then match prev with None => None | Some p => Some ((i - 1)%nat, p) end
              else pct_find (S i) (Some o) r want
  end.
Definition pct_at (l : lst) (want radius : nat) : outcome (option ranked_element) :=
  let ss := ss_segs (l_scores l) in
  let offs := top_offsets ss in
  let total := count ss in
  let fin := fun (si so : nat) =>
    match get_element_index ss si (want - so) so radius with
    | Done (Some e) => Done (Some (calc_bottom total e))
    | x => x
    end in
  match pct_find 0 None offs want with
  | Some (si, so) => fin si so
  | None => match offs with
            | [] => Panic
            | _ => fin (length offs - 1)%nat (last offs 0%nat)
            end
  end.

(** big.Float with 64 bit mantissa, round to nearest even: the value x * 2^-k as
    a natural mantissa/exponent pair, then Int64 truncation.  [p] = m * 2^-k is
    the float64 percentile after clamping to [0,1]. *)
Definition round64 (x : N) : N * N :=
  let b := N.size x in
  if b <=? 64 then (x, 0)
  else let sh := b - 64 in
       let q := x / 2 ^ sh in
       let r := x mod 2 ^ sh in
       let half := 2 ^ (sh - 1) in
       let q' := if (half <? r) || ((r =? half) && N.odd q) then q + 1 else q in
       (q', sh).
Definition want_off (total m k : N) : N :=
  let '(q, sh) := round64 (total * m) in (q * 2 ^ sh) / 2 ^ k.
(** list.go:1730-1771 [GetPercentile] for percentile m/2^k in [0,1] *)
Definition get_percentile (l : lst) (m k : N) (radius : nat) : outcome (option ranked_element) :=
  pct_at l (N.to_nat (want_off (N.of_nat (len l)) m k)) radius.

(** list.go:1246-1497 [UpdateElements], in steps.  [clk]/[clki] are the clock
    readings when an element is stored in scores/index (Elements.Add/Update set
    Updated only if it is 0); [now] is the clock for the segment times. *)

(** list.go:1327-1380: groups of the index lookup; existing index entries *)
Definition index_groups (index : list seg) (ids : list N) : list (nat * list N) :=
  filter (fun g => negb (Nat.eqb (length (snd g)) 0)) (split_scores index ids).
Definition existing_idx (index : list seg) (groups : list (nat * list N)) : list (N * element) :=
  flat_map (fun g =>
    match nth_error index (fst g) with
    | None => []
    | Some s =>
      let found := first_with_score (sg_elems s) (snd g) in
      flat_map (fun id => match find_elem found id with Some e => [(id, e)] | None => [] end) (snd g)
    end) groups.
Definition elements_idx (groups : list (nat * list N)) : list (N * nat) :=
  flat_map (fun g => map (fun id => (id, fst g)) (snd g)) groups.

Definition res_or {A} (d : A) (r : res (A * option rank)) : A :=
  match r with Ok (a, _) => a | NotFound => d end.
Definition is_ok {A} (r : res A) : bool := match r with Ok _ => true | NotFound => false end.

(** list.go:1404-1462, one element going to score segment [sidx].  If the index
    segment were missing from segmentsIdx the code would dereference nil; under
    the list invariant it never is. *)
Definition update_step (clk clki : N -> N) (idxm : list (N * nat)) (exi : list (N * element))
    (eidx : list (N * nat)) (sidx : nat) (w : list seg * list seg) (e : element) : list seg * list seg :=
  let '(ss, is) := w in
  match nth_error ss sidx with
  | None => w
  | Some dst =>
    let id := e_id e in
    let idx := as_index e (sg_id dst) in
    let ii := idx_get eidx id in
    let add_score := upd_nth sidx (set_elems (fun l => res_or l (add_elem (clk id) e l))) in
    match assoc id exi with
    | None =>
      (add_score ss, upd_nth ii (set_elems (fun l => res_or l (add_elem (clki id) idx l))) is)
    | Some ex =>
      if e_tie ex =? sg_id dst then
        (upd_nth sidx (set_elems (fun l => res_or l (update_elem (clk id) e l))) ss, is)
      else
        let ss' := add_score ss in
        match nth_error is ii with
        | None => (ss', is)
        | Some iseg =>
          if is_ok (update_elem (clki id) idx (sg_elems iseg)) then
            (upd_nth (idx_get idxm (e_tie ex))
               (set_elems (fun l => match delete_elem id l with Ok l' => l' | NotFound => l end)) ss',
             upd_nth ii (set_elems (fun l => res_or l (update_elem (clki id) idx l))) is)
          else (ss', is)
        end
    end
  end.

(** list.go:1398-1463: map iteration over the destination segments, in the order
    given by the schedule *)
Definition update_loop clk clki idxm exi eidx (groups : list (nat * elements)) (w : list seg * list seg) :=
  fold_left (fun w g => fold_left (update_step clk clki idxm exi eidx (fst g)) (snd g) w) groups w.

(** list.go:1465-1477: replaceSegment on every locked segment *)
Definition touch_at (now : N) (is : list nat) (l : list seg) : list seg :=
  mapi (fun i s => if existsb (Nat.eqb i) is then touch now s else s) l.

(** list.go:1246-1477: the segments after an update, and which score/index
    segments were written *)
Definition update_core (clk clki : N -> N) (sc : list nat) (elems : elements) (l : lst)
  : (list seg * list seg) * (list nat * list nat) :=
  let elems := sort_elems elems in
  let ids := sort_ids_desc (map e_id elems) in
  let scores := reindex (l_scores l) in
  let index := l_index l in
  let groups := index_groups (ss_segs index) ids in
  let exi := existing_idx (ss_segs index) groups in
  let dst := permute sc (split_elements_idx (ss_segs scores) elems) in
  (update_loop clk clki (ss_idx scores) exi (elements_idx groups) dst (ss_segs scores, ss_segs index),
   (map (fun p => idx_get (ss_idx scores) (e_tie (snd p))) exi ++ map fst dst, map fst groups)).

Definition update_elements (clk clki : N -> N) (now : N) (sc : list nat) (elems : elements) (l : lst) : lst :=
  let '((ss, is), (ts, ti)) := update_core clk clki sc elems l in
  set_both l (set_segs (reindex (l_scores l)) (touch_at now ts ss))
             (set_segs (l_index l) (touch_at now ti is)).

(** list.go:1365-1379: rank of the old element, segment relative; collected while
    the index groups are processed, before any element is changed *)
Definition old_ranks (l : lst) (elems : elements) : list (N * ranked_element) :=
  let ids := sort_ids_desc (map e_id (sort_elems elems)) in
  let scores := reindex (l_scores l) in
  flat_map (fun p : N * element =>
      match find_ranked (ss_segs scores) (idx_get (ss_idx scores) (e_tie (snd p))) (fst p) 0 0 with
      | Some r => [(fst p, r)]
      | None => []
      end) (existing_idx (ss_segs (l_index l)) (index_groups (ss_segs (l_index l)) ids)).

(** list.go:1480-1493: the returned elements when results are requested *)
Definition update_results (sc1 sc2 : list nat) (before after : lst) (elems : elements) (radius : nat)
  : list ranked_element :=
  let old := old_ranks before elems in
  map (fun r => match assoc (e_id (re_elem r)) old with
                | Some b => mkRE (re_elem r) (re_top r) (re_bottom r) (re_above r) (re_below r) (Some b)
                | None => r
                end)
      (get_elements sc1 sc2 after (sort_ids_desc (map e_id (sort_elems elems))) radius).

(** list.go:1501-1543 [DeleteElements] *)
Definition delete_elements (now : N) (sc1 sc2 : list nat) (ids : list N) (l : lst) : lst :=
  let e := get_index_elements sc1 l ids in
  let '(s', deleted) := delete_elements_idx now sc2 (l_scores l) e in
  match deleted with
  | [] => set_both l s' (l_index l)
  | _ => set_both l s' (set_segs (l_index l) (delete_sorted now (ss_segs (l_index l)) deleted))
  end.

(** list.go:1591-1617, one chunk of [insert] *)
Definition insert_one (now : N) (sc : list nat) (l : lst) (e : elements) : lst :=
  let '(s', ix) := segs_insert now sc (l_scores l) (sort_elems e) in
  let '(i', _) := segs_insert now [] (l_index l) (sort_elems ix) in
  set_both l s' i'.

Definition insert_limit : nat := N.to_nat 100000.
(** list.go:1575-1579 *)
Definition want_limit (l : lst) : nat :=
  Nat.min (l_split l / 4 * length (ss_segs (l_index l))) insert_limit.

(** list.go:1580-1596: chunks of [limit]; the recursive call handles exactly one
    chunk.  Out of fuel = the loop does not terminate. *)
Fixpoint insert_loop (fuel limit : nat) (now : N) (sch : nat -> list nat) (e : elements) (l : lst) : outcome lst :=
  if Nat.ltb limit (length e) then
    match fuel with
    | O => Diverge
    | S f => insert_loop f limit now sch (skipn limit e) (insert_one now (sch (length e)) l (firstn limit e))
    end
  else Done (insert_one now (sch (length e)) l e).
(** list.go:1548-1618 [Insert]/[insert]; fuel [length e] suffices when the limit
    is positive, and no fuel does when it is 0 *)
Definition insert (now : N) (sch : nat -> list nat) (e : elements) (l : lst) : outcome lst :=
  insert_loop (length e) (want_limit l) now sch e l.

(** list.go:886-974 [populate] after deleteAll.  [ns], [ni]: the two RandString
    names; [sc]: result of the shuffle; [want]: int(float64(wantSize)/factor),
    used only when elements are deferred. *)
Definition populate (ns ni : string) (now : N) (sc : list nat) (sch : nat -> list nat) (want : nat)
    (e : elements) (l : lst) : outcome lst :=
  match e with
  | [] => Done (init_empty (l_merge l) (l_split l) ns ni now)
  | _ =>
    let defer := Nat.ltb insert_limit (length e) && negb (is_sorted_elems e) in
    let e' := if defer then permute sc e else e in
    let now_part := if defer then firstn insert_limit e' else e' in
    let deferred := if defer then skipn insert_limit e' else [] in
    let size := if defer then Nat.max want (l_merge l / 4) else ((l_merge l + l_split l) / 2)%nat in
    match split_size (sort_elems now_part) size with
    | None => Panic
    | Some parts =>
      let '(scores, ids) := new_segments_elements ns now parts false in
      match split_size (sort_elems ids) size with
      | None => Panic
      | Some iparts =>
        let '(index, _) := new_segments_elements ni now iparts true in
        let l' := mkL (l_merge l) (l_split l) ns ni scores index in
        match deferred with
        | [] => guard_ids l'
        | _ => match insert now sch deferred l' with
               | Done l'' => guard_ids l''
               | x => x
               end
        end
      end
    end
  end.

(** list.go:146-197 [NewList] without clone: empty, or populated with the
    current time on every element (elements.go UpdateTime) *)
Definition new_list (merge split : nat) (ns ni : string) (now : N) sc sch want (e : elements) : outcome lst :=
  match e with
  | [] => Done (init_empty merge split ns ni now)
  | _ => populate ns ni now sc sch want (update_time now e) (init_empty merge split ns ni now)
  end.

(** list.go:508-533: the score segments of a clone *)
Fixpoint clone_segs (name : string) (now id : N) (l : list seg) : list seg :=
  match l with
  | [] => []
  | s :: r => mkSeg id (sg_min s) (sg_max s) (sg_mintie s) (sg_maxtie s) (length (sg_elems s)) now name (sg_elems s)
              :: clone_segs name now (id + 1) r
  end.
(** list.go:490-555 [cloneElements]: the new list; the original is only read *)
Definition clone_elements (merge split : nat) (ns ni : string) (now : N) (org : lst) : outcome lst :=
  let l := clone_segs ns now 1 (ss_segs (l_scores org)) in
  let scores := mkSegs ns l (1 + N.of_nat (length l)) false (build_idx l) in
  let ids := sort_elems (flat_map (fun s => element_ids (sg_elems s) (sg_id s)) l) in
  match split_size ids ((merge + split) / 2) with
  | None => Panic
  | Some parts => let '(index, _) := new_segments_elements ni now parts true in
                  guard_ids (mkL merge split ns ni scores index)
  end.

(** list.go:733-781 [reindex]; [ni]: the new name *)
Definition reindex_list (ni : string) (now : N) (sc : list nat) (l : lst) : outcome lst :=
  match split_size (element_index_all sc (ss_segs (l_scores l))) ((l_merge l + l_split l) / 2) with
  | None => Panic
  | Some parts => let '(index, _) := new_segments_elements ni now parts true in
                  guard_ids (set_both l (l_scores l) index)
  end.

(** list.go:1789-1844 [Repair] with the segment metadata loadable.  [rd i] tells
    whether the elements of segment i can be loaded; [scd]: order left by the
    unstable sort inside each Deduplicate. *)
Definition repair_elements (rd : nat -> bool) (scd : nat -> list nat) (sca : list nat) (l : list seg) : elements :=
  fst (deduplicate sca (concat (mapi (fun i s => if rd i then fst (deduplicate (scd i) (sg_elems s)) else []) l))).
Definition repair (ns ni : string) (now : N) rd scd sca sc sch want (l : lst) : outcome lst :=
  populate ns ni now sc sch want (repair_elements rd scd sca (ss_segs (l_scores l))) l.

(** segments.go:1355: the side effect of a failed splitIdx *)
Definition set_n (s : seg) : seg :=
  mkSeg (sg_id s) (sg_min s) (sg_max s) (sg_mintie s) (sg_maxtie s)
        (length (sg_elems s)) (sg_upd s) (sg_parent s) (sg_elems s).

(** list.go:2105-2182 (scores: [isidx] = false) and 2204-2279 (index: [isidx] =
    true, merging always allowed).  State: position, segments, NextID, collected
    index updates, updated flag.  The index loop skips the segment after one it
    could not split and counts it as updated. *)
Fixpoint split_loop_segs (fuel : nat) (isidx merge : bool) (ms sz : nat) (now : N)
    (i : nat) (l : list seg) (next : N) (us : list upd_entry) (updated : bool)
  : outcome (list seg * N * list upd_entry * bool) :=
  match nth_error l i with
  | None => Done (l, next, us, updated)
  | Some s =>
    match fuel with
    | O => Diverge
    | S f =>
      if Nat.ltb (sg_n s) sz then
        match (if merge then i else O), nth_error l (i - 1) with
        | S j, Some p =>
          if Nat.ltb ms (sg_n s + sg_n p) then
            split_loop_segs f isidx merge ms sz now (S i) l next us updated
          else
            let '(m, ch) := merge_segs now p s in
            split_loop_segs f isidx merge ms sz now (S (S i))
              (del_nth i (upd_nth (i - 1) (fun _ => m) l)) next (us ++ ch) true
        | _, _ => split_loop_segs f isidx merge ms sz now (S i) l next us updated
        end
      else
        match split_seg isidx next now s with
        | None =>
          if isidx then split_loop_segs f isidx merge ms sz now (S (S i)) (upd_nth i set_n l) next us true
          else split_loop_segs f isidx merge ms sz now (S i) (upd_nth i set_n l) next us updated
        | Some (s1, s2, ch) =>
          split_loop_segs f isidx merge ms sz now (S (S i))
            (ins_nth (S i) (touch now s2) (upd_nth i (fun _ => touch now s1) l)) (next + 1) (us ++ ch) true
        end
    end
  end.

(** list.go:2069-2288 [split].  Verify in the middle only logs. *)
Definition split_pass (merge : bool) (now : N) (l : lst) : outcome lst :=
  let s := l_scores l in
  let x := l_index l in
  match split_loop_segs (length (ss_segs s)) false merge (l_merge l) (l_split l) now 0 (ss_segs s) (ss_next s) [] false with
  | Done (ss, nx, us, upd) =>
    let s' := mkSegs (ss_id s) ss nx (ss_index s) (if upd then [] else ss_idx s) in
    let xs := update_index_elements now us (ss_segs x) in
    match split_loop_segs (length xs) true true (l_merge l) (l_split l) now 0 xs (ss_next x) [] upd with
    | Done (is, nxi, _, updi) =>
      guard_ids (set_both l s' (mkSegs (ss_id x) is nxi (ss_index x) (if updi then [] else ss_idx x)))
    | Panic => Panic | Diverge => Diverge | Exhausted => Exhausted
    end
  | Panic => Panic | Diverge => Diverge | Exhausted => Exhausted
  end.

(** list.go:577-670 [verify]; true = no error (requesting a split is not an error) *)
Definition verify (l : lst) : bool :=
  negb (String.eqb (l_scores_id l) "") && negb (String.eqb (l_index_id l) "") &&
  String.eqb (ss_id (l_scores l)) (l_scores_id l) && String.eqb (ss_id (l_index l)) (l_index_id l) &&
  negb (ss_index (l_scores l)) && ss_index (l_index l) &&
  Nat.leb (l_merge l) (l_split l) &&
  verify_segs (l_scores l) &&
  forallb (fun s => String.eqb (sg_parent s) (l_scores_id l)) (ss_segs (l_scores l)) &&
  verify_segs (l_index l) &&
  forallb (fun s => String.eqb (sg_parent s) (l_index_id l)) (ss_segs (l_index l)).

(** list.go:688-719 [verifyElements]; true = no error *)
Definition verify_elements (l : lst) : bool :=
  match verify_elements_segs (l_scores l), verify_elements_segs (l_index l) with
  | Some ids, Some idxids =>
    forallb (fun p : N * N => match assoc (fst p) idxids with Some t => t =? snd p | None => false end) ids &&
    forallb (fun p : N * N => mem_id (fst p) (map fst ids)) idxids
  | _, _ => false
  end.

(** Memory dropped (Prune, eviction, restart) and the list loaded again from storage:
    segments.go:855-880 Load leaves the idx map nil.  Model/Storage.v has the bytes. *)
Definition reload (l : lst) : lst :=
  mkL (l_merge l) (l_split l) (l_scores_id l) (l_index_id l) (clear_idx (l_scores l)) (clear_idx (l_index l)).

(** list.go:1920-2006 [RestoreList] on the list read from the backup: the segments get the name
    [ns] and pass through replaceSegment, a new index is built.  Model/Backup.v has the bytes. *)
Definition set_parent (name : string) (s : seg) : seg :=
  mkSeg (sg_id s) (sg_min s) (sg_max s) (sg_mintie s) (sg_maxtie s) (sg_n s) (sg_upd s) name (sg_elems s).
Definition restored (ns ni : string) (now : N) (sc : list nat) (l : lst) : outcome lst :=
  let ss := map (fun s => touch now (set_parent ns s)) (ss_segs (l_scores l)) in
  let scores := mkSegs ns ss (ss_next (l_scores l)) (ss_index (l_scores l)) [] in
  reindex_list ni now sc (mkL (l_merge l) (l_split l) ns (l_index_id l) scores (l_index l)).

(** Operations of a history *)
Inductive op :=
| OUpdate (clk clki : N -> N) (now : N) (sc : list nat) (e : elements)
| OInsert (now : N) (sch : nat -> list nat) (e : elements)
| ODelete (now : N) (sc1 sc2 : list nat) (ids : list N)
| OSplit (merge : bool) (now : N)
| OReindex (ni : string) (now : N) (sc : list nat)
| ORepair (ns ni : string) (now : N) (scd : nat -> list nat) (sca sc : list nat) (sch : nat -> list nat) (want : nat)
| OPopulate (ns ni : string) (now : N) (sc : list nat) (sch : nat -> list nat) (want : nat) (e : elements)
| OReload.

Definition step (l : lst) (o : op) : outcome lst :=
  match o with
  | OUpdate clk clki now sc e => Done (update_elements clk clki now sc e l)
  | OInsert now sch e => insert now sch e l
  | ODelete now sc1 sc2 ids => Done (delete_elements now sc1 sc2 ids l)
  | OSplit merge now => split_pass merge now l
  | OReindex ni now sc => reindex_list ni now sc l
  | ORepair ns ni now scd sca sc sch want => repair ns ni now (fun _ => true) scd sca sc sch want l
  | OPopulate ns ni now sc sch want e => populate ns ni now sc sch want e l
  | OReload => Done (reload l)
  end.

Fixpoint run (l : lst) (ops : list op) : outcome lst :=
  match ops with
  | [] => Done l
  | o :: r => match step l o with Done l' => run l' r | x => x end
  end.
