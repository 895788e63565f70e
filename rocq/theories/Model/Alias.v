(** Model of element slices as Go has them: an array of cells of which the first [len] are the slice.  The
    cache keeps a slice in the same array (segments.go:235-257), so calls that change a segment
    in place change what the cache holds before the segment is saved (270-300).  Here are the
    in-place edits of elements.go and segments.go on cells, and updates, inserts and deletes of a list during which
    writes of segments fail, with what readers get afterwards.
    Reads succeed and contexts are not cancelled. *)
From Coq Require Import Strings.String.
From Verif.Lib Require Import Prelude ListAux.
From Verif.Model Require Import Element Elements Segment List Storage Fails.
Open Scope N_scope.

(** ** slices *)
(** [sl_cells]: the array, [sl_len]: length of the slice that the call works with; [sl_left]: the array of the slice in the cache, if
    append has moved the call's slice to another one *)
Record sl := mkSl { sl_cells : elements; sl_len : nat; sl_left : option elements }.
Definition cur (s : sl) : elements := firstn (sl_len s) (sl_cells s).
(** what a slice of length [n] in the first array shows *)
Definition seen (n : nat) (s : sl) : elements := firstn n (match sl_left s with Some a => a | None => sl_cells s end).
Definition set_cells (c : elements) (s : sl) : sl := mkSl c (sl_len s) (sl_left s).
(** a slice that was just got from the cache; [room]: the cells after it *)
Definition sl_of (room : elements) (e : elements) : sl := mkSl (e ++ room) (length e) None.

Definition zero : element := mkE 0 0 [] 0 0.
Definition set_cell (i : nat) (x : element) (c : elements) : elements := firstn i c ++ x :: skipn (S i) c.
(** Go copy(c[d:], c[s:n]), which works for overlapping parts *)
Definition copy_to (d s n : nat) (c : elements) : elements :=
  let k := Nat.min (n - s) (length c - d) in firstn d c ++ firstn k (skipn s c) ++ skipn (d + k) c.
(** Go append of one element; [g]: cells that a new array gets beyond those needed *)
Definition append1 (g : nat) (x : element) (s : sl) : sl :=
  if Nat.ltb (sl_len s) (length (sl_cells s)) then mkSl (set_cell (sl_len s) x (sl_cells s)) (S (sl_len s)) (sl_left s)
  else mkSl (cur s ++ x :: repeat zero g) (S (sl_len s)) (Some (match sl_left s with Some a => a | None => sl_cells s end)).

(** elements.go:207-222: the loop of [Insert] from position [i] *)
Fixpoint insert_at (fuel : nat) (g : nat) (x : element) (i : nat) (s : sl) : sl :=
  match fuel with
  | O => s
  | S f =>
    if Nat.ltb i (sl_len s) then
      match nth_error (sl_cells s) i with
      | Some le =>
        if above le x then insert_at f g x (S i) s
        else let s1 := append1 g zero s in
             set_cells (set_cell i x (copy_to (S i) i (sl_len s1 - 1) (sl_cells s1))) s1
      | None => s
      end
    else append1 g x s
  end.
Definition sl_insert (g : nat) (x : element) (s : sl) : sl := insert_at (S (sl_len s)) g x 0 s.
(** elements.go:375-385 [Delete]: append(lst[:i], lst[i+1:]...) *)
Definition sl_delete (id : N) (s : sl) : res sl :=
  match find_idx_id (cur s) id with
  | Some i => Ok (mkSl (copy_to i (S i) (sl_len s) (sl_cells s)) (sl_len s - 1) (sl_left s))
  | None => NotFound
  end.
(** elements.go:362-371 [Update], 335-345 [Add] *)
Definition sl_update (g : nat) (now : N) (e : element) (s : sl) : res sl :=
  let e := with_time now e in
  match sl_delete (e_id e) s with Ok s' => Ok (sl_insert g e s') | NotFound => NotFound end.
Definition sl_add (g : nat) (now : N) (e : element) (s : sl) : res sl :=
  let e := with_time now e in
  match find_idx_id (cur s) (e_id e) with Some _ => sl_update g now e s | None => Ok (sl_insert g e s) end.

(** segments.go:349-367, 430-445: elements that stay are written to the front; [r] read position, [w] write position *)
Fixpoint compact (n : nat) (p : element -> bool) (r w : nat) (c : elements) : elements * nat :=
  match n with
  | O => (c, w)
  | S n' =>
    match nth_error c r with
    | Some e => if p e then compact n' p (S r) (S w) (set_cell w e c) else compact n' p (S r) w c
    | None => (c, w)
    end
  end.
Definition sl_filter (p : element -> bool) (s : sl) : sl :=
  let '(c, w) := compact (sl_len s) p 0 0 (sl_cells s) in mkSl c w (sl_left s).

(** elements.go:263-284: the branch of [Merge] in place, from position [i] *)
Fixpoint merge_at (fuel : nat) (i : nat) (next : element) (ins : elements) (s : sl) : sl :=
  match fuel with
  | O => s
  | S f =>
    if Nat.ltb i (sl_len s) then
      match nth_error (sl_cells s) i with
      | Some x =>
        if aboveP x next then merge_at f (S i) next ins s
        else
          let s1 := append1 0 zero s in
          let s2 := set_cells (set_cell i next (copy_to (S i) i (sl_len s1 - 1) (sl_cells s1))) s1 in
          match ins with [] => s2 | n' :: r => merge_at f i n' r s2 end
      | None => s
      end
    else fold_left (fun s x => append1 0 x s) (next :: ins) s
  end.
(** elements.go:229-285 [Merge] with sliced = false *)
Definition sl_merge (ins : elements) (s : sl) : sl :=
  match ins with
  | [] => s
  | n :: r =>
    let total := (length ins + sl_len s)%nat in
    if Nat.ltb 1000 total || Nat.ltb 10 (length ins) || Nat.ltb (length (sl_cells s)) total then
      mkSl (merge_copy (cur s) ins) total (Some (match sl_left s with Some a => a | None => sl_cells s end))
    else merge_at (S (sl_len s + 2 * length ins)) 0 n r s
  end.

(** ** a group of segments is saved: segments.go:270-300 [replaceSegment] *)
(** what readers get afterwards; [h]: the collection has a cache (and the entry stays in it) *)
Definition shows (h : bool) (f : fate) (old : elements) (x : sl) : elements :=
  if is_ok f then cur x else if h then seen (length old) x else if reaches f then cur x else old.
(** the segment in memory: N and Updated are set (284) before it is saved *)
Definition saved (now : N) (s : seg) (x : sl) (e : elements) : seg :=
  mkSeg (sg_id s) (sg_min s) (sg_max s) (sg_mintie s) (sg_maxtie s) (sl_len x) now (sg_parent s) e.
Definition save_at (h : bool) (fs : nat -> fate) (now : N) (ts : list nat) (xs : list sl) (l : list seg) : list seg :=
  mapi (fun i s => match nth_error xs i with
                   | Some x => if existsb (Nat.eqb i) ts then saved now s x (shows h (fs i) (sg_elems s) x) else s
                   | None => s
                   end) l.
(** the writes that reach the store *)
Definition save_writes (h : bool) (fs : nat -> fate) (now : N) (ts : list nat) (xs : list sl) (l : list seg) : list ev :=
  flat_map (fun i => match nth_error xs i, nth_error l i with
                     | Some x, Some s => if reaches (fs i) then [EPut h (saved now s x (cur x))] else []
                     | _, _ => []
                     end) ts.
Definition save_ok (fs : nat -> fate) (ts : list nat) : bool := forallb (fun i => is_ok (fs i)) ts.

(** what happens to the writes of a call: those of score and index segments by position, those of the metadata *)
Record fates := mkF { f_scores : nat -> fate; f_index : nat -> fate; f_smeta : fate; f_imeta : fate }.
(** spare cells of the slices, and growth *)
Record rooms := mkR { r_scores : nat -> elements; r_index : nat -> elements; r_grow : nat }.

(** list.go:457-487 [saveSegments] *)
Definition save_metas (f : fates) (l : lst) : list ev * bool :=
  let a := if reaches (f_smeta f) then [EMeta (l_scores l)] else [] in
  if is_ok (f_smeta f) then (a ++ (if reaches (f_imeta f) then [EMeta (l_index l)] else []), is_ok (f_imeta f)) else (a, false).

(** ** calls: the list with what readers get, the writes that reach the store, whether no error is returned *)
(** list.go:1404-1462 on slices, as [update_step] of Model/List.v; [ids]: the IDs of the score segments *)
Definition res_sl (d : sl) (r : res sl) : sl := match r with Ok x => x | NotFound => d end.
Definition update_step_sl (g : nat) (clk clki : N -> N) (idxm : list (N * nat)) (exi : list (N * element)) (eidx : list (N * nat))
    (ids : list N) (sidx : nat) (w : list sl * list sl) (e : element) : list sl * list sl :=
  let '(ss, is) := w in
  match nth_error ids sidx with
  | None => w
  | Some dst =>
    let id := e_id e in
    let idx := as_index e dst in
    let ii := idx_get eidx id in
    let add_score := upd_nth sidx (fun x => res_sl x (sl_add g (clk id) e x)) in
    match assoc id exi with
    | None => (add_score ss, upd_nth ii (fun x => res_sl x (sl_add g (clki id) idx x)) is)
    | Some ex =>
      if e_tie ex =? dst then (upd_nth sidx (fun x => res_sl x (sl_update g (clk id) e x)) ss, is)
      else
        let ss' := add_score ss in
        match nth_error is ii with
        | None => (ss', is)
        | Some x =>
          match sl_update g (clki id) idx x with
          | Ok x' => (upd_nth (idx_get idxm (e_tie ex)) (fun x => res_sl x (sl_delete id x)) ss', upd_nth ii (fun _ => x') is)
          | NotFound => (ss', is)
          end
        end
    end
  end.
Definition update_loop_sl g clk clki idxm exi eidx ids (groups : list (nat * elements)) (w : list sl * list sl) :=
  fold_left (fun w p => fold_left (update_step_sl g clk clki idxm exi eidx ids (fst p)) (snd p) w) groups w.
Definition sls_of (room : nat -> elements) (l : list seg) : list sl := mapi (fun i s => sl_of (room i) (sg_elems s)) l.
(** list.go:1246-1497 [UpdateElements]: errors of replaceSegment are logged *)
Definition update_live (hs hi : bool) (f : fates) (r : rooms) clk clki now sc (elems : elements) (l : lst) : lst * list ev * bool :=
  let elems := sort_elems elems in
  let ids := sort_ids_desc (map e_id elems) in
  let scores := reindex (l_scores l) in
  let index := l_index l in
  let groups := index_groups (ss_segs index) ids in
  let exi := existing_idx (ss_segs index) groups in
  let dst := permute sc (split_elements_idx (ss_segs scores) elems) in
  let '(xs, ys) := update_loop_sl (r_grow r) clk clki (ss_idx scores) exi (elements_idx groups) (map sg_id (ss_segs scores)) dst
                     (sls_of (r_scores r) (ss_segs scores), sls_of (r_index r) (ss_segs index)) in
  let ts := nodup Nat.eq_dec (map (fun p => idx_get (ss_idx scores) (e_tie (snd p))) exi ++ map fst dst) in
  let ti := nodup Nat.eq_dec (map fst groups) in
  let l' := set_both l (set_segs scores (save_at hs (f_scores f) now ts xs (ss_segs scores)))
                       (set_segs index (save_at hi (f_index f) now ti ys (ss_segs index))) in
  let '(m, ok) := save_metas f l' in
  (l', save_writes hi (f_index f) now ti ys (ss_segs index) ++ save_writes hs (f_scores f) now ts xs (ss_segs scores) ++ m, ok).

(** segments.go:322-390 [DeleteElementsIdx]; 395-466 [DeleteElements] *)
Definition delete_idx_sl (room : nat -> elements) (s : segs) (ids : elements) : list sl :=
  mapi (fun i x => match ids_for (ss_idx s) i ids with
                   | [] => sl_of (room i) (sg_elems x)
                   | d => sl_filter (fun e => negb (mem_id (e_id e) d)) (sl_of (room i) (sg_elems x))
                   end) (ss_segs s).
Fixpoint delete_sorted_sl (room : nat -> elements) (i : nat) (l : list seg) (ins : elements) : list sl :=
  match l with
  | [] => []
  | s :: r =>
    let '(a, b) := filter_idx s ins in
    if Nat.eqb a b then sl_of (room i) (sg_elems s) :: delete_sorted_sl room (S i) r ins
    else let d := map e_id (slice ins a b) in
         sl_filter (fun e => negb (mem_id (e_id e) d)) (sl_of (room i) (sg_elems s)) :: delete_sorted_sl room (S i) r (skipn b ins)
  end.
(** list.go:1501-1543 [DeleteElements]: errors of score segments are returned (segments.go:369-372), those of index segments dropped
    (446) *)
Definition delete_live (hs hi : bool) (f : fates) (r : rooms) now sc1 sc2 (ids : list N) (l : lst) : lst * list ev * bool :=
  let e := get_index_elements sc1 l ids in
  let s := reindex (l_scores l) in
  let ts := touched_idx (ss_idx s) (ss_segs s) e in
  let xs := delete_idx_sl (r_scores r) s e in
  let deleted := snd (delete_elements_idx now sc2 (l_scores l) e) in
  let s' := set_segs s (save_at hs (f_scores f) now ts xs (ss_segs s)) in
  let w := save_writes hs (f_scores f) now ts xs (ss_segs s) in
  if save_ok (f_scores f) ts then
    let index := l_index l in
    let ti := match deleted with [] => [] | _ => touched_from 0 (ss_segs index) deleted end in
    let ys := delete_sorted_sl (r_index r) 0 (ss_segs index) deleted in
    let l' := set_both l s' (set_segs index (save_at hi (f_index f) now ti ys (ss_segs index))) in
    let '(m, ok) := save_metas f l' in
    (l', w ++ save_writes hi (f_index f) now ti ys (ss_segs index) ++ m, ok)
  else (set_both l s' (l_index l), w, false).

(** segments.go:471-571 [Insert] *)
Fixpoint insert_sl (room : nat -> elements) (i : nat) (l : list seg) (ins : elements) : list sl :=
  match l with
  | [] => []
  | s :: r =>
    let '(a, b) := filter_idx s ins in
    if Nat.eqb a b then sl_of (room i) (sg_elems s) :: insert_sl room (S i) r ins
    else sl_merge (slice ins a b) (sl_of (room i) (sg_elems s)) :: insert_sl room (S i) r (skipn b ins)
  end.
(** list.go:1591-1617: one chunk *)
Definition insert_one_live (hs hi : bool) (f : fates) (r : rooms) now sc (l : lst) (e : elements) : lst * list ev * bool :=
  let e' := sort_elems (sort_elems e) in
  let scores := l_scores l in
  let ts := touched_from 0 (ss_segs scores) e' in
  let xs := insert_sl (r_scores r) 0 (ss_segs scores) e' in
  let s' := set_segs scores (save_at hs (f_scores f) now ts xs (ss_segs scores)) in
  let w := save_writes hs (f_scores f) now ts xs (ss_segs scores) in
  if save_ok (f_scores f) ts then
    let ix := sort_elems (sort_elems (snd (segs_insert now sc scores (sort_elems e)))) in
    let index := l_index l in
    let ti := touched_from 0 (ss_segs index) ix in
    let ys := insert_sl (r_index r) 0 (ss_segs index) ix in
    (set_both l s' (set_segs index (save_at hi (f_index f) now ti ys (ss_segs index))),
     w ++ save_writes hi (f_index f) now ti ys (ss_segs index), save_ok (f_index f) ti)
  else (set_both l s' (l_index l), w, false).
(** list.go:1580-1596; failures and spare cells of each chunk are given by what is left to insert *)
Fixpoint insert_loop_live (fuel limit : nat) hs hi (f : nat -> fates) (r : nat -> rooms) now (sch : nat -> list nat) (e : elements) (l : lst)
  : lst * list ev * bool :=
  if Nat.ltb limit (length e) then
    match fuel with
    | O => (l, [], false)
    | S fu =>
      let '(l1, w, ok) := insert_one_live hs hi (f (length e)) (r (length e)) now (sch (length e)) l (firstn limit e) in
      if ok then let '(l2, w2, ok2) := insert_loop_live fu limit hs hi f r now sch (skipn limit e) l1 in (l2, w ++ w2, ok2)
      else (l1, w, false)
    end
  else insert_one_live hs hi (f (length e)) (r (length e)) now (sch (length e)) l e.
(** list.go:1548-1618 [Insert] *)
Definition insert_live hs hi f (fm : fates) r now sch (e : elements) (l : lst) : lst * list ev * bool :=
  let '(l', w, ok) := insert_loop_live (length e) (want_limit l) hs hi f r now sch e l in
  if ok then let '(m, ok') := save_metas fm l' in (l', w ++ m, ok') else (l', w, false).
