(** Model of /repo/segment.go and /repo/segments.go, with the elements of a
    segment attached to it (the view that elementFullIdx gives: cache and store
    coherent, no storage errors).  The storage view is in Model/Storage.v.
    Locks are not represented here, see Model/Locks.v. *)
From Coq Require Import Strings.String.
From Verif.Lib Require Import Prelude ListAux.
From Verif.Model Require Import Element Elements.
Open Scope N_scope.

(** segment.go:31-40 [type Segment], with the loaded elements.  N is an int
    (only ever a length); Updated int64 is a non-negative unix time. *)
Record seg := mkSeg {
  sg_id : N; sg_min : N; sg_max : N; sg_mintie : N; sg_maxtie : N;
  sg_n : nat; sg_upd : N; sg_parent : string;
  sg_elems : elements
}.

(** segments.go:37-48 [type Segments]; [ss_idx] is the idx map, nil and empty
    both being [].  NextID is unbounded here, see [ids_ok] in Model/List.v. *)
Record segs := mkSegs {
  ss_id : string; ss_segs : list seg; ss_next : N; ss_index : bool;
  ss_idx : list (N * nat)
}.

Definition set_segs (s : segs) (l : list seg) : segs :=
  mkSegs (ss_id s) l (ss_next s) (ss_index s) (ss_idx s).
Definition clear_idx (s : segs) : segs :=
  mkSegs (ss_id s) (ss_segs s) (ss_next s) (ss_index s) [].

(** An element slice edit that leaves the counters alone (ls.elements = ...). *)
Definition set_elems (f : elements -> elements) (s : seg) : seg :=
  mkSeg (sg_id s) (sg_min s) (sg_max s) (sg_mintie s) (sg_maxtie s)
        (sg_n s) (sg_upd s) (sg_parent s) (f (sg_elems s)).

(** segment.go:166-169 [elementsUpdated], as called by replaceSegment
    (segments.go:270-298): counter and time follow the elements. *)
Definition touch (now : N) (s : seg) : seg :=
  mkSeg (sg_id s) (sg_min s) (sg_max s) (sg_mintie s) (sg_maxtie s)
        (length (sg_elems s)) now (sg_parent s) (sg_elems s).

(** segment.go:53-55 [MaxSegment] *)
Definition max_segment : seg :=
  mkSeg 0 0 max_u64 0 max_u32 0 9223372036854775807 ""%string [].

(** segment.go:108-131 [FilterIdx] *)
Definition filter_idx (s : seg) (e : elements) : nat * nat :=
  let startE := mkE (sg_max s) 0 [] (sg_maxtie s) 0 in
  let endE := mkE (sg_min s) 0 [] (sg_mintie s) max_u32 in
  match find_idx (fun x => negb (aboveP x startE)) e with
  | None => (0, 0)%nat
  | Some st =>
    match find_idx (fun x => negb (aboveP x endE)) (skipn st e) with
    | None => (st, length e)
    | Some k => (st, (k + st)%nat)
    end
  end.

(** segments.go:132-141 [Elements] *)
Definition count (l : list seg) : nat := fold_left (fun n s => (n + sg_n s)%nat) l 0%nat.

(** segments.go:147-162 [AlignIndex], walking the list with the previous
    (already written) segment.  prev.Min - 1 wraps at 0 in Go. *)
Fixpoint align_from (prev : seg) (l : list seg) : list seg :=
  match l with
  | [] => [prev]
  | s :: r =>
    let prev' := mkSeg (sg_id prev) (sg_min prev) (sg_max prev) 0 (sg_maxtie prev)
                       (sg_n prev) (sg_upd prev) (sg_parent prev) (sg_elems prev) in
    let mx := if sg_min prev =? 0 then max_u64 else sg_min prev - 1 in
    let s' := mkSeg (sg_id s) (sg_min s) mx (sg_mintie s) max_u32
                    (sg_n s) (sg_upd s) (sg_parent s) (sg_elems s) in
    prev' :: align_from s' r
  end.
Definition align_index (l : list seg) : list seg :=
  match l with [] => [] | s :: r => align_from s r end.

(** segments.go:86-113, the loop of [NewSegmentsElements].  [mx] is next.Max,
    next.MaxTie; [id] the next free ID; empty slices are skipped.  Returns the
    segments, the next free ID and the appended index elements. *)
Fixpoint nse_loop (name : string) (now : N) (mx : N * N) (id : N) (parts : list elements)
  : list seg * N * elements :=
  match parts with
  | [] => ([], id, [])
  | p :: rest =>
    match p with
    | [] => nse_loop name now mx id rest
    | _ =>
      let '(mn, _, mnt, _) := min_max p in
      let '(mn', mnt') := match rest with [] => (0, 0) | _ => (mn, mnt) end in
      let s := mkSeg id mn' (fst mx) mnt' (snd mx) (length p) now name p in
      let la := last p (mkE 0 0 [] 0 0) in
      let '(r, id', ix) := nse_loop name now (prev_max (e_score la) (e_tie la)) (id + 1) rest in
      (s :: r, id', element_ids p id ++ ix)
    end
  end.

(** segments.go:70-128 [NewSegmentsElements]; [isidx] is (idx == nil).
    The full-range segment of lines 116-122 is MaxSegment with the given ID. *)
Definition new_segments_elements (name : string) (now : N) (parts : list elements) (isidx : bool)
  : segs * elements :=
  let '(l, id, ix) := nse_loop name now (max_u64, max_u32) 1 parts in
  let '(l, id) := match l with
                  | [] => ([mkSeg id 0 max_u64 0 max_u32 0 now name []], id + 1)
                  | _ => (l, id)
                  end in
  (mkSegs name (if isidx then align_index l else l) id isidx [], ix).

(** segments.go:583-596 [reindex] *)
Definition build_idx (l : list seg) : list (N * nat) := mapi (fun i s => (sg_id s, i)) l.
Definition reindex (s : segs) : segs :=
  if Nat.eqb (length (ss_idx s)) (length (ss_segs s)) then s
  else mkSegs (ss_id s) (ss_segs s) (ss_next s) (ss_index s) (build_idx (ss_segs s)).

(** Map lookup with Go's zero default (segments.go:1305, list.go:1371). *)
Fixpoint assoc {B} (k : N) (m : list (N * B)) : option B :=
  match m with
  | [] => None
  | (k', v) :: r => if k' =? k then Some v else assoc k r
  end.
Definition idx_get (m : list (N * nat)) (k : N) : nat :=
  match assoc k m with Some i => i | None => 0%nat end.

(** segments.go:601-613 [segIdxTop] *)
Fixpoint seg_idx_top_from (i n : nat) (l : list seg) (off : nat) : option (nat * nat) :=
  match l with
  | [] => None
  | s :: r => if Nat.ltb off (n + sg_n s) then Some (i, (off - n)%nat)
              else seg_idx_top_from (S i) (n + sg_n s) r off
  end.
Definition seg_idx_top (l : list seg) (off : nat) := seg_idx_top_from 0 0 l off.

(** segments.go:618-630 [segIdxBottom]: same walk over the reversed slice *)
Fixpoint seg_idx_bottom_from (n : nat) (l : list seg) (off : nat) : option (nat * nat) :=
  match l with
  | [] => None
  | s :: r => if Nat.ltb off (n + sg_n s)
              then Some (length r, (sg_n s - (off - n) - 1)%nat)
              else seg_idx_bottom_from (n + sg_n s) r off
  end.
Definition seg_idx_bottom (l : list seg) (off : nat) := seg_idx_bottom_from 0 (rev l) off.

(** segments.go:635-648 [segIdxScore]: (segIdx, above), total *)
Fixpoint seg_idx_score_from (i n : nat) (l : list seg) (score : N) : option (nat * nat) :=
  match l with
  | [] => None
  | s :: r => if (sg_min s <=? score) && (score <=? sg_max s) then Some (i, n)
              else seg_idx_score_from (S i) (n + sg_n s) r score
  end.
Definition seg_idx_score (l : list seg) (score : N) := seg_idx_score_from 0 0 l score.

(** segments.go:652-663 [topOffsets] *)
Fixpoint top_offsets_from (n : nat) (l : list seg) : list nat :=
  match l with [] => [] | s :: r => n :: top_offsets_from (n + sg_n s) r end.
Definition top_offsets (l : list seg) : list nat := top_offsets_from 0 l.

(** segments.go:1090-1124 [getElementsOffset]: one iteration per segment, so
    structural recursion over the remaining segments. *)
Fixpoint elems_offset (l : list seg) (first n : nat) : elements :=
  match n with
  | O => []
  | _ =>
    match l with
    | [] => []
    | s :: r =>
      if Nat.leb (length (sg_elems s)) first then elems_offset r (first - length (sg_elems s)) n
      else let toAdd := skipn first (sg_elems s) in
           if Nat.ltb n (length toAdd) then firstn n toAdd
           else toAdd ++ elems_offset r 0 (n - length toAdd)
    end
  end.
Definition get_elements_offset (l : list seg) (segIdx first n : nat) : elements :=
  elems_offset (skipn segIdx l) first n.

(** rankedelement.go:13-30 [RankedElement]; FromTop/FromBottom are ints and may
    be negative in intermediate values, hence Z. *)
Inductive ranked_element := mkRE {
  re_elem : element; re_top : Z; re_bottom : Z;
  re_above : elements; re_below : elements;
  re_before : option ranked_element
}.

(** rankedelement.go:41-43 [CalculateFromBottom] *)
Definition calc_bottom (total : nat) (r : ranked_element) : ranked_element :=
  mkRE (re_elem r) (re_top r) (Z.of_nat total - re_top r - 1) (re_above r) (re_below r) (re_before r).

(** rankedelement.go:75-81 [Offset] *)
Definition re_offset (off : nat) (r : ranked_element) : ranked_element :=
  mkRE (re_elem r) (re_top r + Z.of_nat off) (re_bottom r - Z.of_nat off)
       (re_above r) (re_below r) (re_before r).

(** elements.go:110-118 [Ranked] *)
Definition to_ranked (topOff total : nat) (l : elements) : list ranked_element :=
  mapi (fun i e => calc_bottom total (mkRE e (Z.of_nat (topOff + i)) 0 [] [] None)) l.

(** segments.go:1061-1085 [getElementsFromScore]; the caller has checked segIdx *)
Definition get_elements_from_score (l : list seg) (score : N) (segIdx n : nat) : option (list ranked_element) :=
  match nth_error l segIdx with
  | None => None
  | Some s =>
    match find_idx (fun e => e_score e <=? score) (sg_elems s) with
    | Some i => Some (to_ranked i (sg_n s) (get_elements_offset l segIdx i n))
    | None => Some (to_ranked (sg_n s) (sg_n s) (get_elements_offset l (S segIdx) 0 n))
    end
  end.

(** segments.go:1007-1028: the elements below, walking to later segments.
    [cur] are the elements still below in the current segment, [rest] the later
    segments. *)
Fixpoint walk_below (n : nat) (cur : elements) (rest : list seg) {struct n} : elements :=
  match n with
  | O => []
  | S n' =>
    (fix next (cur : elements) (rest : list seg) {struct rest} : elements :=
       match cur with
       | x :: cur' => x :: walk_below n' cur' rest
       | [] => match rest with [] => [] | s :: r => next (sg_elems s) r end
       end) cur rest
  end.

(** segments.go:1031-1052: the elements above; [cur] reversed (nearest first),
    [rest] the earlier segments, nearest first. *)
Fixpoint walk_above (n : nat) (cur : elements) (rest : list seg) {struct n} : elements :=
  match n with
  | O => []
  | S n' =>
    (fix next (cur : elements) (rest : list seg) {struct rest} : elements :=
       match cur with
       | x :: cur' => x :: walk_above n' cur' rest
       | [] => match rest with [] => [] | s :: r => next (rev (sg_elems s)) r end
       end) cur rest
  end.

(** segments.go:987-1055 [findRanked]; None = ErrNotFound.  Radius is an int,
    negative behaves as 0. *)
Definition find_ranked (l : list seg) (segIdx : nat) (id : N) (offset radius : nat) : option ranked_element :=
  match nth_error l segIdx with
  | None => None
  | Some s =>
    match find_idx_id (sg_elems s) id with
    | None => None
    | Some k =>
      match nth_error (sg_elems s) k with
      | None => None
      | Some e =>
        Some (mkRE e (Z.of_nat (offset + k)) 0
                (walk_above radius (rev (firstn k (sg_elems s))) (rev (firstn segIdx l)))
                (walk_below radius (skipn (S k) (sg_elems s)) (skipn (S segIdx) l))
                None)
      end
    end
  end.

(** Outcome of an operation.  [Panic]: the Go code panics.  [Diverge]: it never
    returns.  [Exhausted]: more than 2^32-1 segment IDs would be allocated, which
    wraps in Go and is outside the model. *)
Inductive outcome (A : Type) := Done (a : A) | Panic | Diverge | Exhausted.
Arguments Done {A}. Arguments Panic {A}. Arguments Diverge {A}. Arguments Exhausted {A}.

(** segments.go:968-983 [getElementIndex]; elements[-1] on an empty segment panics *)
Definition get_element_index (l : list seg) (segIdx eoff offset radius : nat) : outcome (option ranked_element) :=
  match nth_error l segIdx with
  | None => Panic
  | Some s =>
    let eoff := if Nat.leb (length (sg_elems s)) eoff then (length (sg_elems s) - 1)%nat else eoff in
    match nth_error (sg_elems s) eoff with
    | None => Panic
    | Some e => Done (find_ranked l segIdx (e_id e) offset radius)
    end
  end.

(** segments.go:1234-1278 [splitScores] over the remaining segments from index
    i; [scores] sorted descending. *)
Fixpoint take_ge (mn : N) (l : list N) : list N * list N :=
  match l with
  | [] => ([], [])
  | v :: r => if v <? mn then ([], l) else let '(a, b) := take_ge mn r in (v :: a, b)
  end.
Fixpoint split_scores_from (i : nat) (l : list seg) (scores : list N) : list (nat * list N) :=
  match l with
  | [] => []
  | s :: r =>
    match scores with
    | [] => []
    | top :: _ =>
      if sg_min s <=? top
      then let '(a, b) := take_ge (sg_min s) scores in (i, a) :: split_scores_from (S i) r b
      else split_scores_from (S i) r scores
    end
  end.
Definition split_scores (l : list seg) (scores : list N) : list (nat * list N) :=
  split_scores_from 0 l (sort_ids_desc scores).

(** segments.go:1282-1294 [splitElementsIdx] *)
Fixpoint split_elements_from (i : nat) (l : list seg) (e : elements) : list (nat * elements) :=
  match l with
  | [] => []
  | s :: r =>
    let '(a, b) := filter_idx s e in
    if Nat.eqb a b then split_elements_from (S i) r e
    else (i, slice e a b) :: split_elements_from (S i) r e
  end.
Definition split_elements_idx (l : list seg) (e : elements) := split_elements_from 0 l e.

(** segments.go:1185-1223 [getFirstWithScore]; [sc] = order in which the
    goroutines' results arrive. *)
Definition get_first_with_score (sc : list nat) (l : list seg) (scores : list N) : elements :=
  concat (permute sc (map (fun p => match nth_error l (fst p) with
                                    | Some s => first_with_score (sg_elems s) (snd p)
                                    | None => []
                                    end) (split_scores l scores))).

(** segments.go:1298-1309 [splitElementsID], as (segment index, ids) with the
    segments in index order; ids keep their order. *)
Definition ids_for (m : list (N * nat)) (i : nat) (ids : elements) : list N :=
  map e_id (filter (fun e => Nat.eqb (idx_get m (e_tie e)) i) ids).

(** segments.go:918-964 [FindElements]; [sc] = result order of the goroutines.
    Not-found IDs are skipped. *)
Definition find_elements (sc : list nat) (s : segs) (ids : elements) (radius : nat) : list ranked_element :=
  let s := reindex s in
  let l := ss_segs s in
  let offs := top_offsets l in
  let total := count l in
  let groups := filter (fun g => negb (Nat.eqb (length (snd g)) 0))
                  (mapi (fun i _ => (i, ids_for (ss_idx s) i ids)) l) in
  concat (permute sc (map (fun g : nat * list N =>
    flat_map (fun id => match find_ranked l (fst g) id (nth (fst g) offs 0%nat) radius with
                        | Some r => [calc_bottom total r]
                        | None => []
                        end) (snd g)) groups)).

(** segments.go:322-390 [DeleteElementsIdx] with withIdx = true.  Every touched
    segment is filtered and re-saved; result: new segments and the merged index
    elements of what was deleted.  Both branches of Merge agree here (C04). *)
Definition mem_id (id : N) (ids : list N) : bool := existsb (N.eqb id) ids.
Definition delete_elements_idx (now : N) (sc : list nat) (s : segs) (ids : elements) : segs * elements :=
  let s := reindex s in
  let l := ss_segs s in
  let touched i := ids_for (ss_idx s) i ids in
  let l' := mapi (fun i x => match touched i with
                             | [] => x
                             | d => touch now (set_elems (filter (fun e => negb (mem_id (e_id e) d))) x)
                             end) l in
  let dels := mapi (fun i x => match touched i with
                               | [] => None
                               | d => Some (sort_elems (map (fun e => as_index e (sg_id x))
                                                 (filter (fun e => mem_id (e_id e) d) (sg_elems x))))
                               end) l in
  let groups := flat_map (fun o => match o with Some g => [g] | None => [] end) dels in
  (set_segs s l', fold_left (fun acc g => merge_copy acc g) (permute sc groups) []).

(** segments.go:395-466 [DeleteElements] with withIdx = false *)
Fixpoint delete_sorted (now : N) (l : list seg) (ins : elements) : list seg :=
  match l with
  | [] => []
  | s :: r =>
    let '(a, b) := filter_idx s ins in
    if Nat.eqb a b then s :: delete_sorted now r ins
    else let d := map e_id (slice ins a b) in
         touch now (set_elems (filter (fun e => negb (mem_id (e_id e) d))) s)
           :: delete_sorted now r (skipn b ins)
  end.

(** segments.go:471-571 [Insert] on sorted input: new segments and, per touched
    segment, its index elements *)
Fixpoint insert_sorted (now : N) (l : list seg) (ins : elements) : list seg * list elements :=
  match l with
  | [] => ([], [])
  | s :: r =>
    let '(a, b) := filter_idx s ins in
    if Nat.eqb a b then let '(r', ix) := insert_sorted now r ins in (s :: r', ix)
    else let e := slice ins a b in
         let '(r', ix) := insert_sorted now r (skipn b ins) in
         (touch now (set_elems (fun old => merge_copy old e) s) :: r', element_ids e (sg_id s) :: ix)
  end.
(** segments.go:471-571; [sc] = arrival order of the index elements, sorted at
    line 568 *)
Definition segs_insert (now : N) (sc : list nat) (s : segs) (ins : elements) : segs * elements :=
  let '(l', ix) := insert_sorted now (ss_segs s) (sort_elems ins) in
  (set_segs s l', sort_elems (concat (permute sc ix))).

(** segments.go:803-834 [ElementIndexAll] *)
Definition element_index_all (sc : list nat) (l : list seg) : elements :=
  sort_elems (concat (permute sc (map (fun s => element_ids (sg_elems s) (sg_id s)) l))).

(** segments.go:1312-1315 *)
Definition upd_entry := (N * N)%type.  (* element ID, new segment *)

(** segments.go:1154-1167: apply updates to one index segment *)
Definition apply_upd (now : N) (u : upd_entry) (e : elements) : elements :=
  match find_score_idx e (fst u) with
  | None => e
  | Some k => upd_nth k (fun x => mkE (e_score x) (e_id x) (e_payload x) (snd u) now) e
  end.

(** segments.go:1319-1348 [splitIndexUpdates]: updates sorted by ID descending,
    cut at the same places as splitScores cuts their IDs.  [k] entries per
    group. *)
Fixpoint cut_groups (us : list upd_entry) (groups : list (nat * list N)) : list (nat * list upd_entry) :=
  match groups with
  | [] => []
  | (i, g) :: r => (i, firstn (length g) us) :: cut_groups (skipn (length g) us) r
  end.

(** segments.go:1128-1180 [updateIndexElements].  Groups address different
    segments, so their order does not matter.  The clock is read once. *)
Definition update_index_elements (now : N) (us : list upd_entry) (l : list seg) : list seg :=
  match us with
  | [] => l
  | _ =>
    let us := sort_by (fun a b => fst b <? fst a) us in
    fold_left (fun l g => match snd g with
                          | [] => l
                          | in_ => upd_nth (fst g) (fun s =>
                              touch now (set_elems (fun e => fold_left (fun e u => apply_upd now u e) in_ e) s)) l
                          end)
              (cut_groups us (split_scores l (map fst us))) l
  end.

(** segments.go:1354-1405 [splitIdx] on segment [s1]; None = cannot split.
    Result: both halves (not yet touched), changed entries.  [id] is NextID. *)
Definition split_seg (isidx : bool) (id now : N) (s1 : seg) : option (seg * seg * list upd_entry) :=
  match split_size (sg_elems s1) ((length (sg_elems s1) + 1) / 2) with
  | Some [p; q] =>
    match q with
    | [] => None (* not reached: parts are non-empty; Go would panic on s2.elements[0] *)
    | e :: _ =>
      let '(_, mx, _, mxt) := min_max q in
      let '(ne_tie, mxt') := if isidx then (max_u32, max_u32) else (e_tie e, mxt) in
      let '(mn1, mnt1) := above_this (e_score e) ne_tie in
      let s2 := mkSeg id (sg_min s1) mx (sg_mintie s1) mxt' (length q) now (sg_parent s1) q in
      let s1' := mkSeg (sg_id s1) mn1 (sg_max s1) mnt1 (sg_maxtie s1) (length p) (sg_upd s1) (sg_parent s1) p in
      Some (s1', s2, map (fun x => (e_id x, id)) q)
    end
  | _ => None
  end.

(** segments.go:1411-1446 [mergeWithNext]: merged segment, changed entries *)
Definition merge_segs (now : N) (cur next : seg) : seg * list upd_entry :=
  (touch now (mkSeg (sg_id cur) (sg_min next) (sg_max cur) (sg_mintie next) (sg_maxtie cur)
                    (sg_n cur) (sg_upd cur) (sg_parent cur) (sg_elems cur ++ sg_elems next)),
   map (fun x => (e_id x, sg_id cur)) (sg_elems next)).

(** segments.go:666-726 [Verify]; true = no error.  [prev] = previous segment *)
Fixpoint verify_from (isidx : bool) (prev : option seg) (seen : list N) (l : list seg) : bool :=
  match l with
  | [] => true
  | v :: r =>
    negb (sg_upd v =? 0) &&
    negb (mem_id (sg_id v) seen) &&
    match prev with
    | None => (sg_max v =? max_u64) && (sg_maxtie v =? max_u32)
    | Some p =>
      let '(ws, wt) := prev_max (sg_min p) (sg_mintie p) in
      (sg_max v =? ws) && (sg_maxtie v =? wt) &&
      (if isidx then (sg_mintie v =? 0) && (sg_maxtie v =? max_u32) else true)
    end &&
    match r with
    | [] => (sg_min v =? 0) && (sg_mintie v =? 0)
    | _ => true
    end &&
    verify_from isidx (Some v) (sg_id v :: seen) r
  end.
Definition verify_segs (s : segs) : bool :=
  match ss_segs s with [] => false | l => verify_from (ss_index s) None [] l end.

(** segments.go:742-792, the per-segment checks of [VerifyElements] except
    duplicates *)
Definition verify_elems_seg (s : seg) : bool :=
  is_sorted_elems (sg_elems s) &&
  Nat.eqb (sg_n s) (length (sg_elems s)) &&
  (let '(a, b) := filter_idx s (sg_elems s) in Nat.eqb a 0 && Nat.eqb b (length (sg_elems s))) &&
  forallb (fun e => negb (e_upd e =? 0)) (sg_elems s).

(** segments.go:731-800 [VerifyElements]: None = error, otherwise the map from
    element ID to segment ID.  The goroutines' order only decides which error is
    reported. *)
Fixpoint no_dup_ids (l : list N) : bool :=
  match l with [] => true | x :: r => negb (mem_id x r) && no_dup_ids r end.
Definition id_map (s : segs) : list (N * N) :=
  flat_map (fun g => map (fun e => (e_id e, if ss_index s then e_tie e else sg_id g)) (sg_elems g)) (ss_segs s).
Definition verify_elements_segs (s : segs) : option (list (N * N)) :=
  if forallb verify_elems_seg (ss_segs s) && no_dup_ids (map fst (id_map s))
  then Some (id_map s) else None.
