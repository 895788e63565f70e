(** Model of the split pass while writes of segments fail: list.go:2069-2288 with replaceSegment
    (segments.go:270-298), splitIdx (1354-1405), mergeWithNext (1411-1446) and updateIndexElements (1128-1180).
    The list that results has, for every segment, the elements that readers get.  Reads succeed and contexts
    are not cancelled.  The locks are those of Model/Unlock.v. *)
From Coq Require Import Strings.String.
From Verif.Lib Require Import Prelude ListAux.
From Verif.Model Require Import Element Elements Segment List Fails.
Open Scope N_scope.

(** what readers get of a segment whose elements the pass has copied to a new slice before it saved them
    (segments.go:287-294: the cache keeps the old slice if the write fails); [h]: the collection has a cache *)
Definition left_in (h : bool) (f : fate) (old new : elements) : elements :=
  if is_ok f then new else if h then old else if reaches f then new else old.

(** where a loop over segments ended: nowhere, in a merge, or in the first or second write of a split; with the positions that
    stay locked for ever (list.go:2156-2163 and 2259-2266 return without the unlock of the other half) and
    those that are in the list but not in the store *)
Inductive wstop := WAll | WMerge (i : nat) | WSplit (i : nat) (second : bool) (locked missing : list nat).

(** segments.go:1436-1437 takes the second segment out of the list, 284 puts in the first with its new N; then the write fails *)
Definition merge_cut (h : bool) (f : fate) (now : N) (i : nat) (p s : seg) (l : list seg) : list seg :=
  del_nth i (upd_nth (i - 1) (fun _ => set_elems (left_in h f (sg_elems p)) (fst (merge_segs now p s))) l).

(** list.go:2147-2163 (scores: the old segment is written first) and 2252-2266 (index: the new one is); both are in the list
    before (segments.go:1381-1390).  No elements are shown of segments that are locked or missing.
    [fa]: the first write of the split fails *)
Definition split_cut (h isidx fa : bool) (f : fate) (now : N) (i : nat) (s s1 s2 : seg) (l : list seg) : list seg * wstop :=
  let none := set_elems (fun _ => []) in
  let '(x1, x2, locked, missing) :=
    match isidx, fa with
    | false, true  => (set_elems (left_in h f (sg_elems s)) (touch now s1), none s2, [S i], [])
    | false, false => (touch now s1, if reaches f then touch now s2 else none (touch now s2), [], if reaches f then [] else [S i])
    | true, true   => (none s1, if reaches f then touch now s2 else none (touch now s2), [i], if reaches f then [] else [S i])
    | true, false  => (set_elems (left_in h f (sg_elems s)) (touch now s1), touch now s2, [], [])
    end in
  (ins_nth (S i) x2 (upd_nth i (fun _ => x1) l), WSplit i (negb fa) locked missing).

(** list.go:2105-2182 and 2204-2279, as Model/List.v [split_loop_segs]; [fa i], [fb i]: the first and second write made
    for position i.  A failing delete of the merged segment (2131-2134) is only logged. *)
Fixpoint split_loop_w (h : bool) (fa fb : nat -> fate) (fuel : nat) (isidx merge : bool) (ms sz : nat) (now : N)
    (i : nat) (l : list seg) (next : N) (us : list upd_entry) (updated : bool)
  : outcome (list seg * N * list upd_entry * bool * wstop) :=
  match nth_error l i with
  | None => Done (l, next, us, updated, WAll)
  | Some s =>
    match fuel with
    | O => Diverge
    | S f =>
      if Nat.ltb (sg_n s) sz then
        match (if merge then i else O), nth_error l (i - 1) with
        | S j, Some p =>
          if Nat.ltb ms (sg_n s + sg_n p) then
            split_loop_w h fa fb f isidx merge ms sz now (S i) l next us updated
          else if is_ok (fa i) then
            let '(m, ch) := merge_segs now p s in
            split_loop_w h fa fb f isidx merge ms sz now (S (S i))
              (del_nth i (upd_nth (i - 1) (fun _ => m) l)) next (us ++ ch) true
          else Done (merge_cut h (fa i) now i p s l, next, us, updated, WMerge i)
        | _, _ => split_loop_w h fa fb f isidx merge ms sz now (S i) l next us updated
        end
      else
        match split_seg isidx next now s with
        | None =>
          if isidx then split_loop_w h fa fb f isidx merge ms sz now (S (S i)) (upd_nth i set_n l) next us true
          else split_loop_w h fa fb f isidx merge ms sz now (S i) (upd_nth i set_n l) next us updated
        | Some (s1, s2, ch) =>
          if is_ok (fa i) then
            if is_ok (fb i) then
              split_loop_w h fa fb f isidx merge ms sz now (S (S i))
                (ins_nth (S i) (touch now s2) (upd_nth i (fun _ => touch now s1) l)) (next + 1) (us ++ ch) true
            else let '(l', w) := split_cut h isidx false (fb i) now i s s1 s2 l in Done (l', next + 1, us, updated, w)
          else let '(l', w) := split_cut h isidx true (fa i) now i s s1 s2 l in Done (l', next + 1, us, updated, w)
        end
    end
  end.

(** segments.go:1128-1180 [updateIndexElements]: the elements are changed in the slice that the cache has; every segment is
    written, then an error is returned if a write failed.  [fs i]: the write of index segment i *)
Definition update_index_w (h : bool) (fs : nat -> fate) (now : N) (us : list upd_entry) (l : list seg) : list seg * bool :=
  match us with
  | [] => (l, true)
  | _ =>
    let us := sort_by (fun a b => fst b <? fst a) us in
    let groups := cut_groups us (split_scores l (map fst us)) in
    (fold_left (fun l g => match snd g with
                           | [] => l
                           | in_ => upd_nth (fst g) (fun s =>
                               touch now (set_elems (fun e => if h || reaches (fs (fst g)) then fold_left (fun e u => apply_upd now u e) in_ e else e) s)) l
                           end) groups l,
     forallb (fun g : nat * list upd_entry => match snd g with [] => true | _ => is_ok (fs (fst g)) end) groups)
  end.

(** the writes of a pass: of score segments (first and second at a position), of the index update, of index segments,
    of the metadata of scores and index *)
Record pass_fates := mkPF { p_sa : nat -> fate; p_sb : nat -> fate; p_upd : nat -> fate;
                            p_xa : nat -> fate; p_xb : nat -> fate; p_ms : fate; p_mx : fate }.
Inductive pass_end := PAll | PScores (w : wstop) | PUpdate | PIndex (w : wstop) | PMeta.

(** list.go:2069-2288 [split]: where it ended; it returned an error unless it is [PAll].  The idx maps are dropped by
    splitIdx and mergeWithNext (segments.go:1389, 1444).  The metadata is only saved if the pass changed something
    (2280-2287). *)
Definition split_w (hs hx : bool) (f : pass_fates) (merge : bool) (now : N) (l : lst) : outcome (lst * pass_end) :=
  let s := l_scores l in
  let x := l_index l in
  let guarded l e := match guard_ids l with Done l' => Done (l', e) | Panic => Panic | Diverge => Diverge | Exhausted => Exhausted end in
  match split_loop_w hs (p_sa f) (p_sb f) (length (ss_segs s)) false merge (l_merge l) (l_split l) now 0 (ss_segs s) (ss_next s) [] false with
  | Done (ss, nx, us, upd, WAll) =>
    let s' := mkSegs (ss_id s) ss nx (ss_index s) (if upd then [] else ss_idx s) in
    let '(xs, ok) := update_index_w hx (p_upd f) now us (ss_segs x) in
    if ok then
      match split_loop_w hx (p_xa f) (p_xb f) (length xs) true true (l_merge l) (l_split l) now 0 xs (ss_next x) [] upd with
      | Done (is, nxi, _, updi, w) =>
        guarded (set_both l s' (mkSegs (ss_id x) is nxi (ss_index x) (match w with WAll => if updi then [] else ss_idx x | _ => [] end)))
          (match w with WAll => if updi && negb (is_ok (p_ms f) && is_ok (p_mx f)) then PMeta else PAll | _ => PIndex w end)
      | Panic => Panic | Diverge => Diverge | Exhausted => Exhausted
      end
    else guarded (set_both l s' (set_segs x xs)) PUpdate
  | Done (ss, nx, _, _, w) => guarded (set_both l (mkSegs (ss_id s) ss nx (ss_index s) []) x) (PScores w)
  | Panic => Panic | Diverge => Diverge | Exhausted => Exhausted
  end.
