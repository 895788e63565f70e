(** Model of /repo/elements.go.  A Go slice of elements is a list; where the
    code edits in place the model returns the new list. *)
From Verif.Lib Require Import Prelude ListAux.
From Verif.Model Require Import Element.
Open Scope N_scope.

Definition elements := list element.

(** Errors returned by slice operations: elements.go uses only ErrNotFound. *)
Inductive res (A : Type) := Ok (a : A) | NotFound.
Arguments Ok {A}. Arguments NotFound {A}.

(** elements.go:485-490 [Sorter] applied by sort.Slice.  sort.Slice is not
    stable; for elements that are pairwise comparable (distinct IDs) the result
    is unique, see Thm/C01.  Modelled by a stable sort; callers for which
    the tie order matters (Deduplicate) take an explicit schedule. *)
Definition sort_elems (l : elements) : elements := sort_by aboveP l.

(** elements.go:485-490 with sort.SliceIsSorted *)
Definition is_sorted_elems (l : elements) : bool := is_sorted_by aboveP l.

(** elements.go:493-497 [IDSorter] *)
Definition id_lt (a b : element) : bool := e_id a <? e_id b.

(** elements.go:77-100, the scan of [Deduplicate] over the ID-sorted slice.
    State: [done] = lst[0..i-2] reversed, [prev] = lst[i-1], [rest] = lst[i..].
    Deleting index i keeps prev; deleting index i-1 makes e the new prev and
    re-tests at i, which compares e with the element that follows it. *)
Fixpoint dedup_scan (dn : elements) (prev : element) (rest : elements) : elements * bool :=
  match rest with
  | [] => (rev (prev :: dn), false)
  | e :: r =>
    if negb (e_id prev =? e_id e) then dedup_scan (prev :: dn) e r
    else
      let del_prev :=
        if e_upd prev =? e_upd e then e_score e <? e_score prev
        else e_upd prev <? e_upd e in
      let '(out, _) := dedup_scan dn (if del_prev then e else prev) r in
      (out, true)
  end.

(** elements.go:73-105 [Deduplicate].  [sc] is the tie order that the unstable
    sort.Slice by ID leaves: the input is first permuted arbitrarily, then
    sorted stably by ID, which covers every outcome of an unstable sort. *)
Definition deduplicate (sc : list nat) (l : elements) : elements * bool :=
  match sort_by id_lt (permute sc l) with
  | [] => ([], false)
  | x :: r => let '(out, ch) := dedup_scan [] x r in (sort_elems out, ch)
  end.

(** elements.go:33-38 [NewElements] *)
Definition new_elements (sc : list nat) (l : elements) : elements := fst (deduplicate sc l).

(** elements.go:288-294 [ids] as a duplicate-free list of keys *)
Definition ids_set (l : elements) : list N := nodup N.eq_dec (map e_id l).

(** elements.go:60-67 [HasDuplicates]: true = error returned *)
Definition has_duplicates (l : elements) : bool :=
  negb (Nat.eqb (length (ids_set l)) (length l)).

(** elements.go:173-181 [Find] *)
Definition find_elem (l : elements) (id : N) : option element :=
  find (fun e => e_id e =? id) l.

(** elements.go:184-191 [FindIdx] *)
Definition find_idx_id (l : elements) (id : N) : option nat :=
  find_idx (fun e => e_id e =? id) l.

(** elements.go:194-201 [FindScoreIdx] *)
Definition find_score_idx (l : elements) (score : N) : option nat :=
  find_idx (fun e => e_score e =? score) l.

(** elements.go:205-223 [Insert]; result: new slice and index of the item *)
Fixpoint insert_elem (e : element) (l : elements) : elements * nat :=
  match l with
  | [] => ([e], 0%nat)
  | x :: r => if above x e then let '(r', i) := insert_elem e r in (x :: r', S i)
              else (e :: x :: r, 0%nat)
  end.

(** elements.go:239-261, the copying branch of [Merge] *)
Fixpoint merge_copy (l : elements) : elements -> elements :=
  fix go (ins : elements) : elements :=
    match l, ins with
    | [], _ => ins
    | _, [] => l
    | a :: l', b :: ins' =>
      if aboveP a b then a :: merge_copy l' ins else b :: go ins'
    end.

(** elements.go:264-284, the in-place branch of [Merge] (non-empty [ins]):
    [l] = lst[i..], the part before i is already output.  Inserting *next at i
    without advancing i makes the next comparison hit the element just inserted:
    lst[i] is now *next, and the test is lst[i].aboveP(next'). *)
Fixpoint merge_inplace (fuel : nat) (l : elements) (next : element) (ins : elements) : option elements :=
  match fuel with
  | O => None
  | S f =>
    match l with
    | [] => Some (next :: ins)
    | x :: l' =>
      if aboveP x next then option_map (cons x) (merge_inplace f l' next ins)
      else match ins with
           | [] => Some (next :: l)
           | n' :: ins' => merge_inplace f (next :: l) n' ins'
           end
    end
  end.

(** elements.go:229-285 [Merge]; [copying] is the outcome of the size/capacity
    test on line 236. *)
Definition merge_elems (copying : bool) (l ins : elements) : option elements :=
  match ins with
  | [] => Some l
  | n :: ins' =>
    if copying then Some (merge_copy l ins)
    else merge_inplace (S (length l + 2 * length ins)) l n ins'
  end.

(** elements.go:301-318 [MergeDeduplicate] *)
Definition merge_deduplicate (l ins : elements) : elements :=
  match ins with
  | [] => l
  | _ => sort_elems (ins ++ filter (fun e => negb (existsb (N.eqb (e_id e)) (map e_id ins))) l)
  end.

(** elements.go:322-331 [MinMax]: (min, max, minTie, maxTie) *)
Definition min_max (l : elements) : N * N * N * N :=
  match l with
  | [] => (0, max_u64, 0, max_u32)
  | f :: _ => let la := last l f in (e_score la, e_score f, e_tie la, e_tie f)
  end.

(** elements.go:336-338 / 363-365: default update time *)
Definition with_time (now : N) (e : element) : element :=
  if e_upd e =? 0 then mkE (e_score e) (e_id e) (e_payload e) (e_tie e) now else e.

(** rankedelement.go:31-36 [Rank], without the unset Element field *)
Definition rank := (nat * nat)%type.

(** elements.go:349-357 [idxRank]; the panics on a bad index are [None] *)
Definition idx_rank (l : elements) (idx : nat) : option rank :=
  if Nat.leb (length l) idx then None else Some (idx, (length l - idx - 1)%nat).

(** elements.go:375-385 [Delete] *)
Fixpoint delete_elem (id : N) (l : elements) : res elements :=
  match l with
  | [] => NotFound
  | e :: r => if e_id e =? id then Ok r
              else match delete_elem id r with Ok r' => Ok (e :: r') | NotFound => NotFound end
  end.

(** elements.go:362-371 [Update] *)
Definition update_elem (now : N) (e : element) (l : elements) : res (elements * option rank) :=
  let e := with_time now e in
  match delete_elem (e_id e) l with
  | NotFound => NotFound
  | Ok l' => let '(l'', i) := insert_elem e l' in Ok (l'', idx_rank l'' i)
  end.

(** elements.go:335-345 [Add] *)
Definition add_elem (now : N) (e : element) (l : elements) : res (elements * option rank) :=
  let e := with_time now e in
  match find_idx_id l (e_id e) with
  | Some _ => update_elem now e l
  | None => let '(l', i) := insert_elem e l in Ok (l', idx_rank l' i)
  end.

(** elements.go:406: same score and tie breaker *)
Definition same_key (a b : element) : bool :=
  (e_score a =? e_score b) && (e_tie a =? e_tie b).

(** elements.go:404-411: how many elements the cut is moved right.  [p] is
    l[end-1], the list is l[end:]. *)
Fixpoint tie_ext (p : element) (l : elements) : nat :=
  match l with
  | [] => 0
  | x :: r => if same_key p x then S (tie_ext x r) else 0
  end.

(** elements.go:400-411: end of the slice that starts at [start];
    guard [end > 0 && end < len(l)] *)
Definition split_end (l : elements) (start elems : nat) : nat :=
  let e := if Nat.ltb (length l) (start + elems) then length l else (start + elems)%nat in
  match e with
  | O => O
  | S p => match nth_error l p with
           | Some x => (e + tie_ext x (skipn e l))%nat
           | None => e
           end
  end.

(** elements.go:397-417, the loop; [n] iterations left *)
Fixpoint split_loop (n : nat) (l : elements) (start elems : nat) : list elements :=
  match n with
  | O => []
  | S n' =>
    let e := split_end l start elems in
    if Nat.eqb start e then []
    else slice l start e :: split_loop n' l e elems
  end.

(** elements.go:388-419 [SplitSize].  [None] is the division by zero panic on
    line 393 (inEach = 0 with a non-empty slice).  Negative sizes are not
    modelled. *)
Definition split_size (l : elements) (in_each : nat) : option (list elements) :=
  if Nat.leb (length l) in_each then Some [l]
  else match in_each with
       | O => None
       | _ => let n := ((length l + in_each - 1) / in_each)%nat in
              let elems := ((length l + n - 1) / n)%nat in
              Some (split_loop n l 0 elems)
       end.

(** elements.go:139-161, one round of pairwise merging *)
Fixpoint merge_round (ps : list elements) : list elements :=
  match ps with
  | a :: b :: r => (match b with [] => a | _ => merge_copy a b end) :: merge_round r
  | _ => ps
  end.

(** elements.go:139-161, the loop; [None] = out of fuel *)
Fixpoint merge_rounds (fuel : nat) (ps : list elements) : option elements :=
  match fuel with
  | O => None
  | S f => match ps with
           | [] => None
           | [a] => Some a
           | _ => merge_rounds f (merge_round ps)
           end
  end.

Fixpoint map_opt {A B} (f : A -> option B) (l : list A) : option (list B) :=
  match l with
  | [] => Some []
  | x :: r => match f x, map_opt f r with Some y, Some r' => Some (y :: r') | _, _ => None end
  end.

(** elements.go:122-169 [Sort], with the constants 25000 and 2500 as arguments
    [thr] and [chunk].  [sch] gives the order in which sort.Slice leaves
    elements that compare equal (it may depend on the slice).  [fuel] bounds
    the recursion depth; [None] = deeper recursion (or a panic).  The parts are
    sorted independently, so their goroutines' order does not matter.  The
    sanityChecks branch (off, rankdb.go:12) is omitted. *)
Fixpoint sort_full (sch : elements -> list nat) (thr chunk fuel : nat) (l : elements)
  : option (elements * bool) :=
  match fuel with
  | O => None
  | S f =>
    if is_sorted_elems l then Some (l, false)
    else if Nat.ltb (length l) thr then Some (sort_by aboveP (permute (sch l) l), true)
    else match split_size l chunk with
         | None => None
         | Some parts =>
           match map_opt (fun p => option_map fst (sort_full sch thr chunk f p)) parts with
           | None => None
           | Some ps => option_map (fun r => (r, true)) (merge_rounds (S (length ps)) ps)
           end
         end
  end.

(** elements.go:127 and 132 *)
Definition sort_thr : nat := N.to_nat 25000.
Definition sort_chunk : nat := N.to_nat 2500.
Definition sort_go sch fuel l := sort_full sch sort_thr sort_chunk fuel l.

(** elements.go:422-429 [UpdateTime] *)
Definition update_time (t : N) (l : elements) : elements :=
  map (fun e => mkE (e_score e) (e_id e) (e_payload e) (e_tie e) t) l.

(** elements.go:435-452 [FirstElementsWithScore] *)
Fixpoint first_with_score (l : elements) (scores : list N) : elements :=
  match scores, l with
  | [], _ => []
  | _, [] => []
  | top :: sc', e :: r =>
    if e_score e <=? top then e :: first_with_score r sc'
    else first_with_score r scores
  end.

(** elements.go:472-479 [ElementIDs] *)
Definition element_ids (l : elements) (sid : N) : elements :=
  sort_elems (map (fun e => as_index e sid) l).

(** elements.go:527-548 [ElementIDs.Deduplicate]/[Sort]: descending *)
Definition sort_ids_desc (l : list N) : list N := sort_by (fun a b => b <? a) l.
Definition dedup_ids (l : list N) : list N := sort_ids_desc (nodup N.eq_dec l).

(** elements.go:551-561 [NotIn] (map iteration order not represented) *)
Definition not_in (e b : list N) : list N :=
  filter (fun x => negb (existsb (N.eqb x) b)) (nodup N.eq_dec e).

(** elements.go:564-573 [Overlap] *)
Definition overlap (e b : list N) : list N := filter (fun x => existsb (N.eqb x) e) b.
