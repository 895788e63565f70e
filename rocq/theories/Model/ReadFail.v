(** Model of calls on a list during which reads of element blobs fail: the read error of
    elementFullIdx (segments.go:186-258) in every function that calls it.  The list is the one in memory;
    a read that the cache answers does not fail.  An oracle tells for every read whether it
    succeeds: [rd i] for score segment i, [rdi i] for index segment i, others are named where they
    are used.  Concurrent readers are waited for before the error is returned (tools.go:73-108), so their
    order does not matter.  Writes succeed here, see Model/Fails.v for those. *)
From Coq Require Import Strings.String.
From Verif.Lib Require Import Prelude ListAux.
From Verif.Model Require Import Element Elements Segment List.
Open Scope N_scope.

(** what a call returns: an answer, or the error of a read *)
Inductive reply (A : Type) := Answer (a : A) | Unread.
Arguments Answer {A}. Arguments Unread {A}.
Definition on_reply {A B} (f : A -> reply B) (x : reply A) : reply B :=
  match x with Answer a => f a | Unread => Unread end.

(** ** Queries *)

(** segments.go:1090-1124 [getElementsOffset]; [i]: position of the first of the segments [l] *)
Fixpoint elems_offset_r (rd : nat -> bool) (i : nat) (l : list seg) (first n : nat) : reply elements :=
  match n with
  | O => Answer []
  | _ =>
    match l with
    | [] => Answer []
    | s :: r =>
      if rd i then
        if Nat.leb (length (sg_elems s)) first then elems_offset_r rd (S i) r (first - length (sg_elems s)) n
        else let toAdd := skipn first (sg_elems s) in
             if Nat.ltb n (length toAdd) then Answer (firstn n toAdd)
             else on_reply (fun x => Answer (toAdd ++ x)) (elems_offset_r rd (S i) r 0 (n - length toAdd))
      else Unread
    end
  end.
Definition get_elements_offset_r (rd : nat -> bool) (l : list seg) (segIdx first n : nat) : reply elements :=
  elems_offset_r rd segIdx (skipn segIdx l) first n.

(** list.go:1633-1660 [GetRankTop], 1666-1692 [GetRankBottom]; an offset out of bounds is found without
    a read *)
Definition get_rank_top_r (rd : nat -> bool) (l : lst) (offset n : nat) : reply (option elements) :=
  match seg_idx_top (ss_segs (l_scores l)) offset with
  | None => Answer None
  | Some (i, eoff) => on_reply (fun x => Answer (Some x)) (get_elements_offset_r rd (ss_segs (l_scores l)) i eoff n)
  end.
Definition get_rank_bottom_r (rd : nat -> bool) (l : lst) (offset n : nat) : reply (option elements) :=
  match seg_idx_bottom (ss_segs (l_scores l)) offset with
  | None => Answer None
  | Some (i, eoff) => on_reply (fun x => Answer (Some x)) (get_elements_offset_r rd (ss_segs (l_scores l)) i eoff n)
  end.

(** segments.go:1061-1085 [getElementsFromScore]; the segment is read, and read again ([rd]) by
    getElementsOffset.  list.go:1697-1721 [GetRankScoreDesc] *)
Definition get_elements_from_score_r (rd0 rd : nat -> bool) (l : list seg) (score : N) (segIdx n : nat)
  : reply (option (list ranked_element)) :=
  match nth_error l segIdx with
  | None => Answer None
  | Some s =>
    if rd0 segIdx then
      match find_idx (fun e => e_score e <=? score) (sg_elems s) with
      | Some i => on_reply (fun x => Answer (Some (to_ranked i (sg_n s) x))) (get_elements_offset_r rd l segIdx i n)
      | None => on_reply (fun x => Answer (Some (to_ranked (sg_n s) (sg_n s) x))) (get_elements_offset_r rd l (S segIdx) 0 n)
      end
    else Unread
  end.
Definition get_rank_score_desc_r (rd0 rd : nat -> bool) (l : lst) (score : N) (n : nat) : reply (option (list ranked_element)) :=
  let ss := ss_segs (l_scores l) in
  match seg_idx_score ss score with
  | None => Answer None
  | Some (i, ab) =>
    on_reply (fun o => Answer (match o with
                               | None => None
                               | Some e => Some (map (fun r => re_offset ab (calc_bottom (count ss) r)) e)
                               end))
             (get_elements_from_score_r rd0 rd ss score i n)
  end.

(** segments.go:1007-1028: an unreadable segment is logged and ends the walk.  [nb]: reads of the
    neighbouring segments; [i]: position of the first of [rest]. *)
Fixpoint walk_below_r (nb : nat -> bool) (n : nat) (cur : elements) (i : nat) (rest : list seg) {struct n} : elements :=
  match n with
  | O => []
  | S n' =>
    (fix next (cur : elements) (i : nat) (rest : list seg) {struct rest} : elements :=
       match cur with
       | x :: cur' => x :: walk_below_r nb n' cur' i rest
       | [] => match rest with [] => [] | s :: r => if nb i then next (sg_elems s) (S i) r else [] end
       end) cur i rest
  end.
(** segments.go:1031-1052; [rest]: the earlier segments, nearest first, so the first of them is at
    position [length r] *)
Fixpoint walk_above_r (nb : nat -> bool) (n : nat) (cur : elements) (rest : list seg) {struct n} : elements :=
  match n with
  | O => []
  | S n' =>
    (fix next (cur : elements) (rest : list seg) {struct rest} : elements :=
       match cur with
       | x :: cur' => x :: walk_above_r nb n' cur' rest
       | [] => match rest with [] => [] | s :: r => if nb (length r) then next (rev (sg_elems s)) r else [] end
       end) cur rest
  end.

(** segments.go:987-1055 [findRanked]; the segment itself was read by the caller *)
Definition find_ranked_r (nb : nat -> bool) (l : list seg) (segIdx : nat) (id : N) (offset radius : nat) : option ranked_element :=
  match nth_error l segIdx with
  | None => None
  | Some s =>
    match find_idx_id (sg_elems s) id with
    | None => None
    | Some k =>
      match nth_error (sg_elems s) k with
      | None => None
      | Some e =>
        Some (mkRE e (Z.of_nat (offset + k)) 0
                (walk_above_r nb radius (rev (firstn k (sg_elems s))) (rev (firstn segIdx l)))
                (walk_below_r nb radius (skipn (S k) (sg_elems s)) (S segIdx) (skipn (S segIdx) l))
                None)
      end
    end
  end.

(** segments.go:968-983 [getElementIndex] *)
Definition get_element_index_r (rd nb : nat -> bool) (l : list seg) (segIdx eoff offset radius : nat)
  : outcome (reply (option ranked_element)) :=
  match nth_error l segIdx with
  | None => Panic
  | Some s =>
    if rd segIdx then
      let eoff := if Nat.leb (length (sg_elems s)) eoff then (length (sg_elems s) - 1)%nat else eoff in
      match nth_error (sg_elems s) eoff with
      | None => Panic
      | Some e => Done (Answer (find_ranked_r nb l segIdx (e_id e) offset radius))
      end
    else Done Unread
  end.
(** list.go:1730-1771 [GetPercentile] *)
Definition pct_at_r (rd nb : nat -> bool) (l : lst) (want radius : nat) : outcome (reply (option ranked_element)) :=
  let ss := ss_segs (l_scores l) in
  let offs := top_offsets ss in
  let total := count ss in
  let fin := fun (si so : nat) =>
    match get_element_index_r rd nb ss si (want - so) so radius with
    | Done (Answer (Some e)) => Done (Answer (Some (calc_bottom total e)))
    | x => x
    end in
  match pct_find 0 None offs want with
  | Some (si, so) => fin si so
  | None => match offs with
            | [] => Panic
            | _ => fin (length offs - 1)%nat (last offs 0%nat)
            end
  end.
Definition get_percentile_r (rd nb : nat -> bool) (l : lst) (m k : N) (radius : nat) : outcome (reply (option ranked_element)) :=
  pct_at_r rd nb l (N.to_nat (want_off (N.of_nat (len l)) m k)) radius.

(** segments.go:1185-1223 [getFirstWithScore] *)
Definition get_first_with_score_r (rd : nat -> bool) (sc : list nat) (l : list seg) (scores : list N) : reply elements :=
  if forallb (fun p => rd (fst p)) (split_scores l scores) then Answer (get_first_with_score sc l scores) else Unread.
(** list.go:1170-1207 [getIndexElements] *)
Definition get_index_elements_r (rdi : nat -> bool) (sc : list nat) (l : lst) (ids : list N) : reply elements :=
  on_reply (fun e => Answer (filter (fun e => mem_id (e_score e) ids) e))
           (get_first_with_score_r rdi sc (ss_segs (l_index l)) (nodup N.eq_dec ids)).
(** segments.go:918-964 [FindElements]; [nb id]: the reads for the neighbours of [id] *)
Definition find_elements_r (rd : nat -> bool) (nb : N -> nat -> bool) (sc : list nat) (s : segs) (ids : elements) (radius : nat)
  : reply (list ranked_element) :=
  let s := reindex s in
  let l := ss_segs s in
  let offs := top_offsets l in
  let total := count l in
  let groups := filter (fun g => negb (Nat.eqb (length (snd g)) 0))
                  (mapi (fun i _ => (i, ids_for (ss_idx s) i ids)) l) in
  if forallb (fun g : nat * list N => rd (fst g)) groups then
    Answer (concat (permute sc (map (fun g : nat * list N =>
      flat_map (fun id => match find_ranked_r (nb id) l (fst g) id (nth (fst g) offs 0%nat) radius with
                          | Some r => [calc_bottom total r]
                          | None => []
                          end) (snd g)) groups)))
  else Unread.
(** list.go:1212-1240 [GetElements]/[getElements] *)
Definition get_elements_r (rdi rd : nat -> bool) (nb : N -> nat -> bool) (sc1 sc2 : list nat) (l : lst) (ids : list N) (radius : nat)
  : reply (list ranked_element) :=
  on_reply (fun e => find_elements_r rd nb sc2 (l_scores l) e radius) (get_index_elements_r rdi sc1 l ids).

(** ** UpdateElements *)

(** list.go:1289-1321 [segmentScoresLoad]; [ld]: the keys of segmentScores, the score segments loaded so
    far; [ok]: whether a read succeeds.  A failed read is logged and forgotten. *)
Definition seg_load (ok : bool) (i : nat) (ld : list nat) : option (list nat) :=
  if existsb (Nat.eqb i) ld then Some ld else if ok then Some (i :: ld) else None.
(** list.go:1406-1461, one element going to the loaded score segment [sidx], see update_step in
    Model/List.v; [rdo id]: the read of the segment that the element [id] is to be removed from *)
Definition update_step_r (rdo : N -> bool) (clk clki : N -> N) (idxm : list (N * nat)) (exi : list (N * element))
    (eidx : list (N * nat)) (sidx : nat) (w : (list seg * list seg) * list nat) (e : element) : (list seg * list seg) * list nat :=
  let '((ss, is), ld) := w in
  match nth_error ss sidx with
  | None => w
  | Some dst =>
    let id := e_id e in
    let idx := as_index e (sg_id dst) in
    let ii := idx_get eidx id in
    let add_score := upd_nth sidx (set_elems (fun l => res_or l (add_elem (clk id) e l))) in
    match assoc id exi with
    | None =>
      ((add_score ss, upd_nth ii (set_elems (fun l => res_or l (add_elem (clki id) idx l))) is), ld)
    | Some ex =>
      if e_tie ex =? sg_id dst then
        ((upd_nth sidx (set_elems (fun l => res_or l (update_elem (clk id) e l))) ss, is), ld)
      else
        let ss' := add_score ss in
        match nth_error is ii with
        | None => ((ss', is), ld)
        | Some iseg =>
          if is_ok (update_elem (clki id) idx (sg_elems iseg)) then
            let is' := upd_nth ii (set_elems (fun l => res_or l (update_elem (clki id) idx l))) is in
            let old := idx_get idxm (e_tie ex) in
            match seg_load (rdo id) old ld with
            | Some ld' => ((upd_nth old (set_elems (fun l => match delete_elem id l with Ok l' => l' | NotFound => l end)) ss', is'), ld')
            | None => ((ss', is'), ld)
            end
          else ((ss', is), ld)
        end
    end
  end.
(** list.go:1398-1404; [rdd i]: the read of destination segment i, which is tried once *)
Definition update_group_r (rdd : nat -> bool) (rdo : N -> bool) clk clki idxm exi eidx
    (w : (list seg * list seg) * list nat) (g : nat * elements) : (list seg * list seg) * list nat :=
  match seg_load (rdd (fst g)) (fst g) (snd w) with
  | None => w
  | Some ld => fold_left (update_step_r rdo clk clki idxm exi eidx (fst g)) (snd g) (fst w, ld)
  end.
Definition update_loop_r rdd rdo clk clki idxm exi eidx (groups : list (nat * elements)) (w : (list seg * list seg) * list nat) :=
  fold_left (update_group_r rdd rdo clk clki idxm exi eidx) groups w.

(** list.go:1246-1497 [UpdateElements]: the list after the call, and whether it returned without an
    error.  [rdi]: reads of index segments; [rdp id]: what segmentScoresLoad gave for the segment that
    holds the old version of [id] (1369-1376), concurrent calls for one segment share reads; [rdd],
    [rdo] as above.  Loaded segments are written, others are not (1464-1476). *)
Definition update_elements_r (rdi : nat -> bool) (rdp : N -> bool) (rdd : nat -> bool) (rdo : N -> bool)
    (clk clki : N -> N) (now : N) (sc : list nat) (elems : elements) (l : lst) : lst * bool :=
  let elems := sort_elems elems in
  let ids := sort_ids_desc (map e_id elems) in
  let scores := reindex (l_scores l) in
  let index := l_index l in
  let groups := index_groups (ss_segs index) ids in
  if forallb (fun g => rdi (fst g)) groups then
    let exi := existing_idx (ss_segs index) groups in
    let dst := permute sc (split_elements_idx (ss_segs scores) elems) in
    let ld := map (fun p => idx_get (ss_idx scores) (e_tie (snd p))) (filter (fun p => rdp (fst p)) exi) in
    let '((ss, is), ld') := update_loop_r rdd rdo clk clki (ss_idx scores) exi (elements_idx groups) dst
                              ((ss_segs scores, ss_segs index), ld) in
    (set_both l (set_segs scores (touch_at now ld' ss)) (set_segs index (touch_at now (map fst groups) is)), true)
  else (set_both l scores index, false).
(** list.go:1480-1493: results were asked for.  [rdp] as above (1377-1387: the rank of an old version that was
    not loaded is not recorded), the others are the reads of getElements.  An error is returned although the
    update was made. *)
Definition update_results_r (rdp : N -> bool) (rdi rd : nat -> bool) (nb : N -> nat -> bool) (sc1 sc2 : list nat)
    (before after : lst) (elems : elements) (radius : nat) : reply (list ranked_element) :=
  let old := filter (fun p => rdp (fst p)) (old_ranks before elems) in
  on_reply (fun res => Answer (map (fun r => match assoc (e_id (re_elem r)) old with
                                             | Some b => mkRE (re_elem r) (re_top r) (re_bottom r) (re_above r) (re_below r) (Some b)
                                             | None => r
                                             end) res))
           (get_elements_r rdi rd nb sc1 sc2 after (sort_ids_desc (map e_id (sort_elems elems))) radius).

(** ** DeleteElements *)

(** segments.go:322-390 [DeleteElementsIdx] with withIdx = true; [rd i]: the read of segment i.  Segments that can be read
    are filtered and saved also if the read of another fails; then an error is returned. *)
Definition delete_elements_idx_r (rd : nat -> bool) (now : N) (sc : list nat) (s : segs) (ids : elements) : segs * elements * bool :=
  let touched i := match ids_for (ss_idx (reindex s)) i ids with [] => false | _ => true end in
  let '(s', deleted) := delete_elements_idx now sc s ids in
  let l := ss_segs (reindex s) in
  (set_segs s' (mapi (fun i x => if rd i then nth i (ss_segs s') x else x) l), deleted,
   forallb (fun i => negb (touched i) || rd i) (seq 0 (length l))).
(** segments.go:395-466 [DeleteElements] with withIdx = false; [i]: position of the first of the segments [l] *)
Fixpoint delete_sorted_r (rd : nat -> bool) (i : nat) (now : N) (l : list seg) (ins : elements) : list seg * bool :=
  match l with
  | [] => ([], true)
  | s :: r =>
    let '(a, b) := filter_idx s ins in
    if Nat.eqb a b then let '(r', ok) := delete_sorted_r rd (S i) now r ins in (s :: r', ok)
    else let d := map e_id (slice ins a b) in
         let '(r', ok) := delete_sorted_r rd (S i) now r (skipn b ins) in
         if rd i then (touch now (set_elems (filter (fun e => negb (mem_id (e_id e) d))) s) :: r', ok)
         else (s :: r', false)
  end.
(** list.go:1501-1543 [DeleteElements]: the list after the call, and whether it returned without an error.
    [rdi]: reads of index segments for the lookup; [rds]: reads of score segments; [rdx]: reads of index
    segments for the removal *)
Definition delete_elements_r (rdi rds rdx : nat -> bool) (now : N) (sc1 sc2 : list nat) (ids : list N) (l : lst) : lst * bool :=
  match get_index_elements_r rdi sc1 l ids with
  | Unread => (l, false)
  | Answer e =>
    let '(s', deleted, ok) := delete_elements_idx_r rds now sc2 (l_scores l) e in
    if ok then
      match deleted with
      | [] => (set_both l s' (l_index l), true)
      | _ => let '(i', ok') := delete_sorted_r rdx 0 now (ss_segs (l_index l)) deleted in
             (set_both l s' (set_segs (l_index l) i'), ok')
      end
    else (set_both l s' (l_index l), false)
  end.

(** ** Insert *)

(** segments.go:471-571 [Insert] on sorted input, [i] as above *)
Fixpoint insert_sorted_r (rd : nat -> bool) (i : nat) (now : N) (l : list seg) (ins : elements) : list seg * list elements * bool :=
  match l with
  | [] => ([], [], true)
  | s :: r =>
    let '(a, b) := filter_idx s ins in
    if Nat.eqb a b then let '(r', ix, ok) := insert_sorted_r rd (S i) now r ins in (s :: r', ix, ok)
    else let e := slice ins a b in
         let '(r', ix, ok) := insert_sorted_r rd (S i) now r (skipn b ins) in
         if rd i then (touch now (set_elems (fun old => merge_copy old e) s) :: r', element_ids e (sg_id s) :: ix, ok)
         else (s :: r', ix, false)
  end.
(** list.go:1591-1617, one chunk of [insert]; [rds], [rdx]: reads of score and of index segments *)
Definition insert_one_r (rds rdx : nat -> bool) (now : N) (sc : list nat) (l : lst) (e : elements) : lst * bool :=
  let '(ss, ix, ok) := insert_sorted_r rds 0 now (ss_segs (l_scores l)) (sort_elems (sort_elems e)) in
  let s' := set_segs (l_scores l) ss in
  if ok then
    let '(is, _, ok') := insert_sorted_r rdx 0 now (ss_segs (l_index l)) (sort_elems (sort_elems (sort_elems (concat (permute sc ix))))) in
    (set_both l s' (set_segs (l_index l) is), ok')
  else (set_both l s' (l_index l), false).
(** list.go:1548-1618 [Insert]/[insert]: chunks as in Model/List.v, an error ends the loop.  [rds n], [rdx n]: the reads of the
    chunk that starts [n] elements before the end *)
Fixpoint insert_loop_r (fuel limit : nat) (rds rdx : nat -> nat -> bool) (now : N) (sch : nat -> list nat) (e : elements) (l : lst)
  : outcome (lst * bool) :=
  if Nat.ltb limit (length e) then
    match fuel with
    | O => Diverge
    | S f => let '(l', ok) := insert_one_r (rds (length e)) (rdx (length e)) now (sch (length e)) l (firstn limit e) in
             if ok then insert_loop_r f limit rds rdx now sch (skipn limit e) l' else Done (l', false)
    end
  else Done (insert_one_r (rds (length e)) (rdx (length e)) now (sch (length e)) l e).
Definition insert_r (rds rdx : nat -> nat -> bool) (now : N) (sch : nat -> list nat) (e : elements) (l : lst) : outcome (lst * bool) :=
  insert_loop_r (length e) (want_limit l) rds rdx now sch e l.

(** ** The split pass *)

(** list.go:2105-2182 and 2204-2279, as Model/List.v [split_loop_segs]; [rd i]: the reads made for position i succeed
    (of segment i, and for a merge of the one before).  They come before any change for that position; a failure
    ends the pass.  Last result: no failure. *)
Fixpoint split_loop_r (rd : nat -> bool) (fuel : nat) (isidx merge : bool) (ms sz : nat) (now : N)
    (i : nat) (l : list seg) (next : N) (us : list upd_entry) (updated : bool)
  : outcome (list seg * N * list upd_entry * bool * bool) :=
  match nth_error l i with
  | None => Done (l, next, us, updated, true)
  | Some s =>
    match fuel with
    | O => Diverge
    | S f =>
      if Nat.ltb (sg_n s) sz then
        match (if merge then i else O), nth_error l (i - 1) with
        | S j, Some p =>
          if Nat.ltb ms (sg_n s + sg_n p) then
            split_loop_r rd f isidx merge ms sz now (S i) l next us updated
          else if rd i then
            let '(m, ch) := merge_segs now p s in
            split_loop_r rd f isidx merge ms sz now (S (S i))
              (del_nth i (upd_nth (i - 1) (fun _ => m) l)) next (us ++ ch) true
          else Done (l, next, us, updated, false)
        | _, _ => split_loop_r rd f isidx merge ms sz now (S i) l next us updated
        end
      else if rd i then
        match split_seg isidx next now s with
        | None =>
          if isidx then split_loop_r rd f isidx merge ms sz now (S (S i)) (upd_nth i set_n l) next us true
          else split_loop_r rd f isidx merge ms sz now (S i) (upd_nth i set_n l) next us updated
        | Some (s1, s2, ch) =>
          split_loop_r rd f isidx merge ms sz now (S (S i))
            (ins_nth (S i) (touch now s2) (upd_nth i (fun _ => touch now s1) l)) (next + 1) (us ++ ch) true
        end
      else Done (l, next, us, updated, false)
    end
  end.

(** segments.go:1128-1180 [updateIndexElements]: segments that can be read are changed and saved also if the read of
    another fails; then an error is returned. *)
Definition update_index_r (rd : nat -> bool) (now : N) (us : list upd_entry) (l : list seg) : list seg * bool :=
  match us with
  | [] => (l, true)
  | _ =>
    let us := sort_by (fun a b => fst b <? fst a) us in
    let groups := cut_groups us (split_scores l (map fst us)) in
    (fold_left (fun l g => match snd g with
                           | [] => l
                           | in_ => if rd (fst g) then upd_nth (fst g) (fun s =>
                               touch now (set_elems (fun e => fold_left (fun e u => apply_upd now u e) in_ e) s)) l
                             else l
                           end) groups l,
     forallb (fun g : nat * list upd_entry => match snd g with [] => true | _ => rd (fst g) end) groups)
  end.

(** list.go:2069-2288 [split]: where the pass ended; it returned an error unless it is [Full].  [rds], [rdi]: reads of
    the loops over scores and index; [rdx]: reads of updateIndexElements.  splitIdx and mergeWithNext drop the idx
    map of what they change (segments.go:1389, 1444); where the pass ends early the model may drop a map of the
    index that the code keeps: it is rebuilt the same. *)
Inductive split_end := Full | ScoresCut | UpdateCut | IndexCut.
Definition split_r (rds rdx rdi : nat -> bool) (merge : bool) (now : N) (l : lst) : outcome (lst * split_end) :=
  let s := l_scores l in
  let x := l_index l in
  let guarded l e := match guard_ids l with Done l' => Done (l', e) | Panic => Panic | Diverge => Diverge | Exhausted => Exhausted end in
  match split_loop_r rds (length (ss_segs s)) false merge (l_merge l) (l_split l) now 0 (ss_segs s) (ss_next s) [] false with
  | Done (ss, nx, us, upd, ok) =>
    let s' := mkSegs (ss_id s) ss nx (ss_index s) (if upd then [] else ss_idx s) in
    if ok then
      let '(xs, ok2) := update_index_r rdx now us (ss_segs x) in
      if ok2 then
        match split_loop_r rdi (length xs) true true (l_merge l) (l_split l) now 0 xs (ss_next x) [] upd with
        | Done (is, nxi, _, updi, ok3) =>
          guarded (set_both l s' (mkSegs (ss_id x) is nxi (ss_index x) (if updi then [] else ss_idx x))) (if ok3 then Full else IndexCut)
        | Panic => Panic | Diverge => Diverge | Exhausted => Exhausted
        end
      else guarded (set_both l s' (set_segs x xs)) UpdateCut
    else guarded (set_both l s' x) ScoresCut
  | Panic => Panic | Diverge => Diverge | Exhausted => Exhausted
  end.

(** list.go:733-781 [reindex]; [rd i]: the read of score segment i (segments.go:803-835 [ElementIndexAll]) *)
Definition reindex_r (rd : nat -> bool) (ni : string) (now : N) (sc : list nat) (l : lst) : outcome (lst * bool) :=
  if forallb rd (seq 0 (length (ss_segs (l_scores l)))) then
    match reindex_list ni now sc l with Done l' => Done (l', true) | Panic => Panic | Diverge => Diverge | Exhausted => Exhausted end
  else Done (l, false).
