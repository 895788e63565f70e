(** Model of what calls on a list do to its locks when reads and writes of the store fail: which
    locks a call still holds when it is over.  One call runs alone; its goroutines run one after the other when they are
    waited for.  Data is left open: [pick] chooses which segments a call works on and which way a
    branch on data goes, [works] whether an access to the store succeeds, so every path of the code is a path
    here.  Simplified: LoadingMu (segment.go:173-206) is held only around assignments and left out; so are local mutexes,
    the wait in loadElements for another loader, and the out of range error of replaceSegment (segments.go:281-283),
    which no caller can cause; the timeout of ReleaseSegments; cloneElements (two lists). *)
From Coq Require Import List Bool Arith.
Import ListNotations.
Open Scope nat_scope.

(** list.go:20-52: the RWMutex of List, updateLock, loadingLock, segmentsLock; segments.go:37 SegmentsLock of collection [c];
    segment.go:36 elementLoader.Mu, [i] stands for the loader *)
Inductive lk := KList | KUpdate | KLoading | KSegs | KStats (c : nat) | KSeg (i : nat).
Definition lk_eqb (a b : lk) : bool :=
  match a, b with
  | KList, KList | KUpdate, KUpdate | KLoading, KLoading | KSegs, KSegs => true
  | KStats x, KStats y | KSeg x, KSeg y => x =? y
  | _, _ => false
  end.

(** accesses to the store (and to the writer of a backup), by where they are made *)
Inductive reindexer := ByReindex | ByRead | ByWrite. (* Reindex; loadSegments for readers or for writers *)
Inductive site :=
| GetScores | GetIndex             (* metadata, segments.go:851-882 *)
| GetElems                         (* segment.go:208 *)
| SetElems                         (* replaceSegment, where nothing else is told *)
| SetFirst | SetSecond             (* the two halves of a segment that is split, in the order they are written *)
| SetPopIndex                      (* index segments written by populate *)
| SetMeta                          (* metadata *)
| SetReindexed (who : reindexer)   (* metadata, at the end of reindex *)
| DelAny
| PutHead | PutScores | PutElems.  (* writer of a backup: list and versions, metadata of the scores, segments *)

(** list.go:285-303: the unlock field of [segments]: release segmentsLock (read or write), and updateLock if [upd], then replace the
    field if [rm]; or, after removeUnlock, only log *)
Inductive clo := CRel (ro upd rm : bool) | CLog.
(** list.go:282-291 [segments]; [g_obj] is its address, for the field unlock *)
Record segs := mkG { g_scores : option nat; g_index : option nat; g_ro : bool; g_upd : bool; g_obj : nat }.

Record st := mkSt {
  held : list (lk * bool);          (* true: write locked *)
  works : nat -> site -> bool;      (* does the n-th access succeed *)
  picks : nat -> nat;
  acc : list (site * bool);         (* accesses made, newest first *)
  npick : nat;
  next : nat;                       (* fresh name *)
  coll : nat -> list nat;           (* Segments.Segments: the loaders *)
  unl : nat -> clo;
  l_sc : option nat; l_ix : option nat;   (* List.scores, List.index *)
  scset : bool; ixset : bool              (* List.Scores, List.Index are set *)
}.

(** [Raise]: a Go panic, deferred functions run; [Dead]: fatal error, unlock of unlocked mutex; [Stuck]: waits for a lock that
    nobody will release *)
Inductive res (A : Type) := Ret (a : A) | Raise | Dead | Stuck.
Arguments Ret {A}. Arguments Raise {A}. Arguments Dead {A}. Arguments Stuck {A}.
Definition M (A : Type) := st -> res A * st.
Definition ret {A} (a : A) : M A := fun s => (Ret a, s).
Definition raise {A} : M A := fun s => (Raise, s).
Definition bind {A B} (m : M A) (f : A -> M B) : M B := fun s =>
  match m s with
  | (Ret a, s') => f a s'
  | (Raise, s') => (Raise, s') | (Dead, s') => (Dead, s') | (Stuck, s') => (Stuck, s')
  end.
(** defer *)
Definition deferred {A} (d : M unit) (m : M A) : M A := fun s =>
  match m s with
  | (Ret a, s') => bind d (fun _ => ret a) s'
  | (Raise, s') => bind d (fun _ => raise) s'
  | x => x
  end.
Notation "x <- m ;; k" := (bind m (fun x => k)) (at level 61, m at next level, right associativity).
Notation "m ;; k" := (bind m (fun _ => k)) (at level 61, right associativity).

Definition upd {A} (f : nat -> A) (i : nat) (v : A) : nat -> A := fun j => if j =? i then v else f j.
Definition set_held s h := mkSt h (works s) (picks s) (acc s) (npick s) (next s) (coll s) (unl s) (l_sc s) (l_ix s) (scset s) (ixset s).
Definition set_coll_of s c v := mkSt (held s) (works s) (picks s) (acc s) (npick s) (next s) (upd (coll s) c v) (unl s) (l_sc s) (l_ix s) (scset s) (ixset s).
Definition set_unl_of s o v := mkSt (held s) (works s) (picks s) (acc s) (npick s) (next s) (coll s) (upd (unl s) o v) (l_sc s) (l_ix s) (scset s) (ixset s).
Definition set_list s sc ix b1 b2 := mkSt (held s) (works s) (picks s) (acc s) (npick s) (next s) (coll s) (unl s) sc ix b1 b2.

(** sync.RWMutex; a read lock that the call already holds is granted again (no writer waits, see C42 for those) *)
Definition avail (k : lk) (w : bool) (h : list (lk * bool)) : bool :=
  forallb (fun x => negb (lk_eqb (fst x) k && (w || snd x))) h.
Definition lock (k : lk) (w : bool) : M unit := fun s =>
  if avail k w (held s) then (Ret tt, set_held s ((k, w) :: held s)) else (Stuck, s).
Fixpoint drop (k : lk) (w : bool) (h : list (lk * bool)) : option (list (lk * bool)) :=
  match h with
  | [] => None
  | x :: r => if lk_eqb (fst x) k && Bool.eqb (snd x) w then Some r
              else match drop k w r with Some r' => Some (x :: r') | None => None end
  end.
Definition unlock (k : lk) (w : bool) : M unit := fun s =>
  match drop k w (held s) with Some h => (Ret tt, set_held s h) | None => (Dead, s) end.
Definition touch (k : lk) (w : bool) : M unit := lock k w;; unlock k w.

Definition io (x : site) : M bool := fun s =>
  let ok := works s (length (acc s)) x in
  (Ret ok, mkSt (held s) (works s) (picks s) ((x, ok) :: acc s) (npick s) (next s) (coll s) (unl s) (l_sc s) (l_ix s) (scset s) (ixset s)).
Definition pick : M nat := fun s =>
  (Ret (picks s (npick s)), mkSt (held s) (works s) (picks s) (acc s) (S (npick s)) (next s) (coll s) (unl s) (l_sc s) (l_ix s) (scset s) (ixset s)).
Definition pickb : M bool := n <- pick;; ret (negb (n =? 0)).
Definition fresh : M nat := fun s =>
  (Ret (next s), mkSt (held s) (works s) (picks s) (acc s) (npick s) (S (next s)) (coll s) (unl s) (l_sc s) (l_ix s) (scset s) (ixset s)).
Definition get {A} (f : st -> A) : M A := fun s => (Ret (f s), s).
Definition put (f : st -> st) : M unit := fun s => (Ret tt, f s).
(** a nil pointer is used *)
Definition need {A} (o : option A) : M A := match o with Some a => ret a | None => raise end.

(** some of the given, in order; one of them *)
Fixpoint some_of (l : list nat) : M (list nat) :=
  match l with [] => ret [] | i :: r => b <- pickb;; r' <- some_of r;; ret (if b : bool then i :: r' else r') end.
Definition one_of (l : list nat) : M (option nat) := n <- pick;; ret (nth_error l (n mod (length l))).
(** one after the other until one says false; result: none did *)
Fixpoint each {A} (l : list A) (f : A -> M bool) : M bool :=
  match l with [] => ret true | a :: r => ok <- f a;; if ok : bool then each r f else ret false end.
(** goroutines and tools.go:73-108 [waitErr]: all run; the result tells whether none failed and the context is not cancelled *)
Fixpoint all_of {A} (l : list A) (f : A -> M bool) : M bool :=
  match l with [] => c <- pickb;; ret (negb c) | a :: r => ok <- f a;; ok' <- all_of r f;; ret (ok && ok') end.
Fixpoint times (n : nat) (f : M bool) : M bool :=
  match n with O => ret true | S n' => ok <- f;; if ok : bool then times n' f else ret false end.

(** ** segments.go, segment.go *)

(** segments.go:186-258 [elementFullIdx]; false: the error of a read, nothing is locked then *)
Definition elem_full (i : nat) (ro : bool) : M bool :=
  lock (KSeg i) (negb ro);;
  hit <- pickb;;
  if hit : bool then ret true else
  ok <- io GetElems;;
  if ok : bool then ret true else unlock (KSeg i) (negb ro);; ret false.
(** a segment is read, used and unlocked by defer *)
Definition reading (i : nat) (m : M bool) : M bool :=
  ok <- elem_full i true;; if ok : bool then deferred (unlock (KSeg i) false) m else ret false.
(** segments.go:270-300 [replaceSegment] *)
Definition replace_seg (c i : nat) (x : site) : M bool :=
  deferred (unlock (KSeg i) true) (touch (KStats c) true;; io x).
(** segments.go:304-320 [newLockedSegment] with Append (166-180); segment.go:71-90 [NewSegmentElements] and Append *)
Definition new_seg (c : nat) : M nat :=
  i <- fresh;; lock (KSeg i) true;; touch (KStats c) true;;
  put (fun s => set_coll_of s c (coll s c ++ [i]));; ret i.
(** segments.go:70-126 [NewSegmentsElements] *)
Definition new_segments_elements (x : site) : M (option nat) :=
  c <- fresh;; put (fun s => set_coll_of s c []);;
  n <- pick;;
  ok <- times (S n) (i <- new_seg c;; replace_seg c i x);;
  ret (if ok : bool then Some c else None).
(** segments.go:50-62 [NewSegments] *)
Definition new_coll : M nat := c <- fresh;; put (fun s => set_coll_of s c []);; ret c.
(** segments.go:851-882 [Load] *)
Fixpoint fresh_n (n : nat) : M (list nat) :=
  match n with O => ret [] | S n' => i <- fresh;; r <- fresh_n n';; ret (i :: r) end.
Definition load_coll (x : site) : M (option nat) :=
  ok <- io x;;
  if ok : bool then n <- pick;; c <- fresh;; l <- fresh_n (S n);; put (fun s => set_coll_of s c l);; ret (Some c) else ret None.
(** segments.go:837-848 [Save] *)
Definition save_coll (c : nat) (x : site) : M bool := touch (KStats c) false;; io x.
(** segments.go:885-906 [Delete] *)
Definition delete_coll (c : nat) : M bool :=
  l <- get (fun s => coll s c);; all_of l (fun _ => io DelAny);; put (fun s => set_coll_of s c []);; io DelAny.
(** segments.go:583-596 [reindex] (the idx map) *)
Definition reindex_map (c : nat) : M unit :=
  touch (KStats c) false;; b <- pickb;; if b : bool then touch (KStats c) true else ret tt.
(** segments.go:1298-1310 [splitElementsID] *)
Definition split_by_id (c : nat) : M (list nat) :=
  reindex_map c;; touch (KStats c) false;; l <- get (fun s => coll s c);; some_of l.
(** segments.go:1234-1278 [splitScores] *)
Definition split_by_score (c : nat) : M (list nat) :=
  l <- get (fun s => coll s c);; each l (fun _ => touch (KStats c) false;; pickb);; some_of l.
(** segments.go:1185-1223 [getFirstWithScore] *)
Definition get_first (c : nat) : M bool := l <- split_by_score c;; all_of l (fun i => reading i (ret true)).
(** segments.go:987-1055 [findRanked]: the neighbours of one side *)
Fixpoint neighbours (l : list nat) : M bool :=
  match l with [] => ret true | i :: r => go <- pickb;; if go : bool then reading i (neighbours r) else ret true end.
Definition find_ranked (c : nat) : M bool :=
  n <- pick;; l <- get (fun s => coll s c);;
  neighbours (skipn n l);; neighbours (rev (firstn n l));; ret true.
(** segments.go:918-964 [FindElements] *)
Definition find_elements (c : nat) : M bool :=
  some <- pickb;; if some : bool then
    l <- split_by_id c;; touch (KStats c) false;;
    all_of l (fun i => reading i (n <- pick;; times n (find_ranked c)))
  else ret true.
(** segments.go:1090-1124 [getElementsOffset] *)
Definition get_elements_offset (c : nat) : M bool :=
  n <- pick;; l <- get (fun s => coll s c);; each (skipn n l) (fun i => reading i (ret true)).
(** segments.go:1061-1085 [getElementsFromScore] *)
Definition get_elements_from_score (c : nat) : M bool :=
  l <- get (fun s => coll s c);; o <- one_of l;;
  match o with None => raise | Some i => reading i (get_elements_offset c) end.
(** segments.go:968-983 [getElementIndex]: without elements it panics *)
Definition get_element_index (c : nat) : M bool :=
  l <- get (fun s => coll s c);; o <- one_of l;;
  match o with
  | None => raise
  | Some i => reading i (none <- pickb;; if none : bool then raise else find_ranked c)
  end.
(** a segment is read, changed and saved: segments.go:339-376 and 485-540 in goroutines *)
Definition rewrite (c i : nat) : M bool :=
  ok <- elem_full i false;; if ok : bool then replace_seg c i SetElems else ret false.
(** segments.go:322-390 [DeleteElementsIdx] *)
Definition delete_idx (c : nat) : M bool := l <- split_by_id c;; all_of l (rewrite c).
(** segments.go:395-466 [DeleteElements] (errors of replaceSegment are dropped) and 471-571 [Insert] *)
Definition delete_sorted (c : nat) : M bool :=
  l <- deferred (unlock (KStats c) false) (lock (KStats c) false;; l <- get (fun s => coll s c);; some_of l);;
  all_of l (fun i => ok <- elem_full i false;; if ok : bool then replace_seg c i SetElems;; ret true else ret false).
Definition insert_sorted (c : nat) : M bool :=
  l <- deferred (unlock (KStats c) false) (lock (KStats c) false;; l <- get (fun s => coll s c);; some_of l);;
  all_of l (rewrite c).
(** segments.go:1128-1180 [updateIndexElements] *)
Definition update_index (c : nat) : M bool := l <- split_by_score c;; all_of l (rewrite c).
(** segments.go:804-835 [ElementIndexAll], 737-801 [VerifyElements] *)
Definition read_all (c : nat) : M bool :=
  touch (KStats c) false;; l <- get (fun s => coll s c);; all_of l (fun i => reading i pickb).
(** segments.go:665-731 [Verify] *)
Definition verify_coll (c : nat) : M bool :=
  l <- get (fun s => coll s c);; each l (fun _ => touch (KStats c) false;; touch (KStats c) false;; pickb).

(** ** list.go *)

(** the function in the field unlock of [g]; calling it.  list.go:329-345, 359-364, 398-404 and 431-435 *)
Definition unlock_of (g : segs) : M clo := get (fun s => unl s (g_obj g)).
Definition call_unlock (g : segs) (c : clo) : M unit :=
  match c with
  | CLog => ret tt
  | CRel ro u rm =>
    unlock KSegs (negb ro);; (if u : bool then unlock KUpdate true else ret tt);;
    if rm : bool then put (fun s => set_unl_of s (g_obj g) CLog) else ret tt
  end.
Definition unlock_segs (g : segs) : M unit := c <- unlock_of g;; call_unlock g c.
(** defer segs.unlock(): the field is read when the defer statement runs *)
Definition defer_unlock {A} (g : segs) (m : M A) : M A := c <- unlock_of g;; deferred (call_unlock g c) m.

(** list.go:239-257 [updateSegments] *)
Definition update_segments (g : segs) : M unit :=
  if g_ro g then ret tt
  else put (fun s => set_list s (g_scores g) (g_index g) (match g_scores g with Some _ => true | None => false end)
                              (match g_index g with Some _ => true | None => false end)).
(** list.go:457-487 [saveSegments] *)
Definition save_segments (x : site) (g : segs) : M bool :=
  update_segments g;; touch KList false;;
  ok <- match g_scores g with Some c => save_coll c x | None => ret true end;;
  if ok : bool then match g_index g with Some c => save_coll c x | None => ret true end else ret false.
(** list.go:733-781 [reindex]; it changes [segs.index] *)
Definition reindex (who : reindexer) (g : segs) : M (bool * segs) :=
  if g_ro g then ret (false, g) else if negb (g_upd g) then ret (false, g) else
  touch KList false;;
  c <- need (g_scores g);;
  ok <- read_all c;;
  if ok : bool then
    o <- new_segments_elements SetElems;;
    match o with
    | None => ret (false, g)
    | Some x =>
      ok <- save_coll x SetMeta;;
      if ok : bool then
        old <- need (g_index g);; delete_coll old;;
        let g' := mkG (g_scores g) (Some x) (g_ro g) (g_upd g) (g_obj g) in
        ok <- save_segments (SetReindexed who) g';;
        if ok : bool then ret (true, g') else unlock_segs g';; ret (false, g')
      else ret (false, g)
    end
  else ret (false, g).

(** list.go:305-407 [loadSegments]; [ro]: segsReadOnly, [u]: segsLockUpdates *)
Definition load_segments (ro u : bool) : M (option segs) :=
  (if u : bool then lock KUpdate true else ret tt);;
  lock KLoading true;;
  deferred (unlock KLoading true)
   (o <- fresh;;
    lock KSegs (negb ro);;
    put (fun s => set_unl_of s o (CRel ro u true));;
    sc <- get l_sc;; ix <- get l_ix;;
    match sc, ix with
    | Some _, Some _ => ret (Some (mkG sc ix ro u o))
    | _, _ =>
      (if ro then unlock KSegs false;; lock KSegs true;; put (fun s => set_unl_of s o (CRel false u false)) else ret tt);;
      b1 <- get scset;; b2 <- get ixset;;
      sc' <- match sc with
             | None => if b1 : bool then r <- load_coll GetScores;; ret (match r with Some c => Some (Some c) | None => None end)
                       else ret (Some None)
             | Some c => ret (Some (Some c))
             end;;
      match sc' with
      | None => unlock_segs (mkG None None false u o);; ret None
      | Some sc' =>
        r <- match ix with
             | None =>
               if b2 : bool then
                 r <- load_coll GetIndex;;
                 match r with
                 | Some c => ret (true, mkG sc' (Some c) false u o)
                 | None => stub <- new_coll;; reindex (if ro then ByRead else ByWrite) (mkG sc' (Some stub) false u o)
                 end
               else ret (true, mkG sc' None false u o)
             | Some c => ret (true, mkG sc' (Some c) false u o)
             end;;
        let '(ok, g) := r in
        if ok : bool then
          update_segments g;;
          (if ro then unlock KSegs true;; lock KSegs false;; put (fun s => set_unl_of s o (CRel true u true)) else ret tt);;
          ret (Some g)
        else unlock_segs g;; ret None
      end
    end).
(** segs, err := l.loadSegments(...); if err != nil { return err }; defer segs.unlock() *)
Definition with_segs (ro u : bool) (m : segs -> M bool) : M bool :=
  o <- load_segments ro u;; match o with None => ret false | Some g => defer_unlock g (m g) end.

(** list.go:414-453 [newSegments]; [xfer] is nil or holds the locks of a writer *)
Definition new_segments (with_idx : bool) (xfer : option segs) : M segs :=
  x <- match xfer with
       | Some g => if g_upd g then ret (Some g) else unlock_segs g;; ret None
       | None => ret None
       end;;
  sc <- new_coll;;
  ix <- (if with_idx : bool then c <- new_coll;; ret (Some c) else ret None);;
  o <- fresh;; put (fun s => set_unl_of s o (CRel false true true));;
  match x with
  | Some g => if g_ro g then unlock KSegs false;; lock KSegs true else ret tt
  | None => lock KUpdate true;; lock KSegs true
  end;;
  ret (mkG (Some sc) ix false true o).
(** list.go:576-665 [verify] *)
Definition verify (g : segs) : M bool :=
  touch KList false;;
  ok <- deferred (unlock KList false) (lock KList false;; c <- need (g_scores g);; x <- need (g_index g);; pickb);;
  if ok : bool then
    c <- need (g_scores g);; ok <- verify_coll c;;
    if ok : bool then
      l <- get (fun s => coll s c);; ok <- each l (fun _ => touch (KStats c) false;; pickb);;
      if ok : bool then
        x <- need (g_index g);; ok <- verify_coll x;;
        if ok : bool then l <- get (fun s => coll s x);; each l (fun _ => touch (KStats x) false;; pickb) else ret false
      else ret false
    else ret false
  else ret false.
(** list.go:688-716 [verifyElements] *)
Definition verify_elements (g : segs) : M bool :=
  touch KList false;; c <- need (g_scores g);; ok <- read_all c;;
  if ok : bool then x <- need (g_index g);; ok <- read_all x;; if ok : bool then pickb else ret false else ret false.
(** list.go:207-235 [initEmptyList] *)
Definition init_empty (xfer : option segs) : M (segs * bool) :=
  g <- new_segments true xfer;;
  c <- need (g_scores g);; i <- new_seg c;; ok <- replace_seg c i SetElems;;
  if ok : bool then
    x <- need (g_index g);; i <- new_seg x;; ok <- replace_seg x i SetElems;;
    if ok : bool then
      ok <- save_segments SetMeta g;;
      if ok : bool then ok <- verify g;; ret (g, ok) else ret (g, false)
    else ret (g, false)
  else ret (g, false).
(** list.go:1135-1165 [deleteAll] *)
Definition delete_all (g : segs) : M bool :=
  if g_ro g || negb (g_upd g) then ret false else
  deferred (unlock KList true)
   (lock KList true;;
    match g_scores g with Some c => delete_coll c | None => ret true end;;
    match g_index g with Some c => delete_coll c | None => ret true end;;
    put (fun s => set_list s None None false false);; ret true).
(** list.go:1565-1618 [insert]: the chunks *)
Definition insert_all (g : segs) : M bool :=
  if negb (g_upd g) then ret false else
  n <- pick;;
  times (S n) (c <- need (g_scores g);; ok <- insert_sorted c;;
               if ok : bool then x <- need (g_index g);; insert_sorted x else ret false).
(** list.go:885-974 [populate] *)
Definition populate (segs0 : option segs) : M (option segs * bool) :=
  touch KList false;;
  b1 <- get scset;; b2 <- get ixset;;
  ok <- match segs0 with Some g => if b1 || b2 then delete_all g else ret true | None => ret true end;;
  if ok : bool then
    none <- pickb;;
    if none : bool then r <- init_empty segs0;; ret (Some (fst r), snd r)
    else
      lock KList true;;
      g <- new_segments false segs0;;
      o <- new_segments_elements SetElems;;
      match o with
      | None => unlock KList true;; ret (Some g, false)
      | Some c =>
        let g1 := mkG (Some c) (g_index g) (g_ro g) (g_upd g) (g_obj g) in
        o <- new_segments_elements SetPopIndex;;
        match o with
        | None => unlock_segs g1;; ret (Some g1, false)
        | Some x =>
          let g2 := mkG (Some c) (Some x) (g_ro g) (g_upd g) (g_obj g) in
          unlock KList true;;
          more <- pickb;;
          ok <- (if more : bool then update_segments g2;; insert_all g2 else ret true);;
          if ok : bool then
            update_segments g2;; ok <- save_segments SetMeta g2;;
            if ok : bool then ok <- verify g2;; ret (Some g2, ok) else ret (Some g2, false)
          else ret (Some g2, false)
        end
      end
  else ret (segs0, false).

(** list.go:870-881 [Populate] *)
Definition do_populate : M bool :=
  o <- load_segments false true;;
  r <- populate o;;
  match fst r with Some g => unlock_segs g | None => ret tt end;; ret (snd r).
(** list.go:977-996 [Len] *)
Definition do_len : M bool := with_segs true false (fun g => c <- need (g_scores g);; touch (KStats c) false;; ret true).
(** list.go:1643-1692 [GetRankTop], [GetRankBottom] *)
Definition do_top : M bool := with_segs true false (fun g =>
  touch KList false;; c <- need (g_scores g);; touch (KStats c) false;;
  out <- pickb;; if out : bool then ret false else get_elements_offset c).
(** list.go:1011-1053 [Stats]; Some tt: stats were returned *)
Definition do_stats (elements : bool) : M bool := with_segs true false (fun g =>
  c <- need (g_scores g);; touch (KStats c) false;; x <- need (g_index g);;
  if elements : bool then do_top;; do_top;; ret true else ret true).
(** list.go:1697-1721 [GetRankScoreDesc], 1730-1771 [GetPercentile] *)
Definition do_score : M bool := with_segs true false (fun g =>
  touch KList false;; c <- need (g_scores g);; touch (KStats c) false;;
  out <- pickb;; if out : bool then ret false else get_elements_from_score c).
Definition do_percentile : M bool := with_segs true false (fun g =>
  touch KList false;; c <- need (g_scores g);; touch (KStats c) false;; get_element_index c).
(** list.go:1170-1207 [getIndexElements], 1227-1240 [getElements], 1212-1220 [GetElements] *)
Definition get_index_elements (g : segs) : M bool := touch KList false;; x <- need (g_index g);; get_first x.
Definition get_elements (g : segs) : M bool :=
  touch KList false;; ok <- get_index_elements g;;
  if ok : bool then c <- need (g_scores g);; find_elements c else ret false.
Definition do_get : M bool := with_segs true false get_elements.
(** list.go:2015-2051 [checkSplit] *)
Definition check_split (g : segs) : M unit :=
  match g_scores g, g_index g with
  | Some c, Some x => touch KList false;; touch (KStats c) false;; b <- pickb;; if b : bool then ret tt else touch (KStats x) false
  | _, _ => ret tt
  end.

(** list.go:1289-1321 [segmentScoresLoad]; [ld]: the keys of segmentScores *)
Definition scores_load (i : nat) (ld : list nat) : M (list nat) :=
  if existsb (Nat.eqb i) ld then ret ld
  else ok <- elem_full i false;; ret (if ok : bool then i :: ld else ld).
Fixpoint scores_loads (n : nat) (c : nat) (ld : list nat) : M (list nat) :=
  match n with
  | O => ret ld
  | S n' => touch (KStats c) false;; l <- get (fun s => coll s c);; o <- one_of l;;
            ld' <- match o with Some i => scores_load i ld | None => ret ld end;; scores_loads n' c ld'
  end.
(** list.go:1334-1390: the index segments, with the old score segments of what they list; [ix]: the keys of segmentsIdx *)
Fixpoint index_loads (l : list nat) (c : nat) (ix ld : list nat) : M (list nat * list nat * bool) :=
  match l with
  | [] => ret (ix, ld, true)
  | i :: r =>
    ok <- elem_full i false;;
    if ok : bool then n <- pick;; ld' <- scores_loads n c ld;; index_loads r c (i :: ix) ld'
    else p <- index_loads r c ix ld;; let '(a, b, _) := p in ret (a, b, false)
  end.
(** list.go:1323-1331 [unlockAll], 1464-1476 *)
Fixpoint unlock_all (l : list nat) : M unit := match l with [] => ret tt | i :: r => unlock (KSeg i) true;; unlock_all r end.
Fixpoint replace_all (c : nat) (l : list nat) : M unit := match l with [] => ret tt | i :: r => replace_seg c i SetElems;; replace_all c r end.
(** list.go:1246-1497 [UpdateElements]; the loop 1397-1461 as any sequence of calls of segmentScoresLoad *)
Definition do_update (results : bool) : M bool := with_segs true true (fun g =>
  touch KList false;; c <- need (g_scores g);; reindex_map c;;
  x <- need (g_index g);; l <- split_by_score x;;
  p <- index_loads l c [] [];;
  let '(ix, ld, ok) := p in
  cancelled <- pickb;;
  if ok && negb cancelled then
    n <- pick;; ld' <- scores_loads n c ld;;
    replace_all x ix;; replace_all c ld';;
    ok <- (if results : bool then get_elements g else ret true);;
    if ok : bool then check_split g;; save_segments SetMeta g else ret false
  else unlock_all ix;; unlock_all ld;; ret false).
(** list.go:1501-1543 [DeleteElements], 1548-1560 [Insert] *)
Definition do_delete : M bool := with_segs true true (fun g =>
  touch KList false;;
  ok <- get_index_elements g;;
  if ok : bool then
    c <- need (g_scores g);; ok <- delete_idx c;;
    if ok : bool then
      none <- pickb;;
      ok <- (if none : bool then ret true else x <- need (g_index g);; delete_sorted x);;
      if ok : bool then check_split g;; save_segments SetMeta g else ret false
    else ret false
  else ret false).
Definition do_insert : M bool := with_segs true true (fun g =>
  ok <- insert_all g;; if ok : bool then check_split g;; save_segments SetMeta g else ret false).
(** list.go:567-574 [Verify], 672-684 [VerifyElements], 723-730 [Reindex], 1121-1131 [DeleteAll] *)
Definition do_verify : M bool := with_segs true false verify.
Definition do_verify_elements : M bool := touch KList false;; with_segs true true verify_elements.
Definition do_reindex : M bool := with_segs false true (fun g => r <- reindex ByReindex g;; ret (fst r)).
Definition do_delete_all : M bool := r <- with_segs false true delete_all;; ret true.
(** list.go:1055-1118 [ReleaseSegments] *)
Definition do_release : M bool :=
  touch KList false;; lock KLoading true;; lock KSegs true;;
  put (fun s => set_list s None None (scset s) (ixset s));; unlock KSegs true;; unlock KLoading true;; ret true.
(** list.go:1789-1845 [Repair]; clearIfErr and the kind of the error are data *)
Definition do_repair : M bool :=
  stats <- do_stats false;;
  touch KList false;;
  o <- load_segments false true;;
  match o with
  | None =>
    b <- pickb;; sc <- get l_sc;;
    if b && match sc with None => true | Some _ => false end then
      r <- init_empty None;; unlock_segs (fst r);; ret (snd r)
    else ret false
  | Some g =>
    (* the deferred function unlocks what [segs] is when Repair ends *)
    fun s =>
    match (lock KList true;; c <- need (g_scores g);; lock (KStats c) true;;
           (if stats : bool then ret tt else raise);;
           l <- get (fun s => coll s c);; all_of l (fun i => reading i (ret true));;
           unlock KList true;; unlock (KStats c) true;; populate (Some g)) s with
    | (Ret (o, ok), s') => bind (match o with Some g' => unlock_segs g' | None => ret tt end) (fun _ => ret ok) s'
    | (Raise, s') => bind (unlock_segs g) (fun _ => raise) s'
    | (Dead, s') => (Dead, s') | (Stuck, s') => (Stuck, s')
    end
  end.
(** list.go:1851-1917 [Backup] *)
Definition do_backup : M bool := with_segs true true (fun g =>
  ok <- io PutHead;;
  if ok : bool then
    lock KList false;; ok <- io PutHead;; unlock KList false;;
    if ok : bool then
      ok <- io PutHead;;
      if ok : bool then
        c <- need (g_scores g);; lock (KStats c) false;; ok <- io PutScores;;
        if ok : bool then
          l <- get (fun s => coll s c);; unlock (KStats c) false;;
          ok <- io PutHead;;
          if ok : bool then each l (fun i => reading i (ok <- io PutElems;; if ok : bool then io PutElems else ret false)) else ret false
        else ret false
      else ret false
    else ret false
  else ret false).

(** list.go:2105-2182 (scores) and 2204-2279 (index): position [i]; [pick] tells: leave, merge with the one before, split, cannot be
    split.  In the index the new half is written first. *)
Definition merge_at (c i : nat) : M bool :=
  l <- get (fun s => coll s c);;
  match i, nth_error l i, nth_error l (i - 1) with
  | S _, Some a, Some p =>
    ok <- elem_full a false;;
    if ok : bool then
      deferred (unlock (KSeg a) true)
       (ok <- elem_full p false;;
        if ok : bool then
          touch (KStats c) true;; put (fun s => set_coll_of s c (firstn i (coll s c) ++ skipn (S i) (coll s c)));;
          ok <- replace_seg c p SetElems;;
          if ok : bool then io DelAny;; ret true else ret false
        else ret false)
    else ret false
  | _, _, _ => ret true
  end.
Definition split_at (c i : nat) (isidx : bool) : M bool :=
  l <- get (fun s => coll s c);;
  match nth_error l i with
  | Some a =>
    ok <- elem_full a false;;
    if ok : bool then
      can <- pickb;;
      if can : bool then
        b <- fresh;; lock (KSeg b) true;; touch (KStats c) true;;
        put (fun s => set_coll_of s c (firstn (S i) (coll s c) ++ b :: skipn (S i) (coll s c)));;
        ok <- replace_seg c (if isidx then b else a) SetFirst;;
        if ok : bool then replace_seg c (if isidx then a else b) SetSecond else ret false
      else unlock (KSeg a) true;; ret true
    else ret false
  | None => ret true
  end.
Fixpoint split_loop (fuel : nat) (c i : nat) (isidx : bool) : M bool :=
  match fuel with
  | O => ret true
  | S f =>
    what <- pick;;
    ok <- match what with O => ret true | 1 => merge_at c i | _ => split_at c i isidx end;;
    skip <- pickb;;
    if ok : bool then split_loop f c (if skip : bool then S (S i) else S i) isidx else ret false
  end.
(** list.go:2069-2288 [split]; the collections get shorter or longer while the loop runs, any number of rounds is taken *)
Definition do_split : M bool := with_segs false true (fun g =>
  touch KList false;;
  c <- need (g_scores g);; x <- need (g_index g);;
  n <- pick;; ok <- split_loop n c 0 false;;
  if ok : bool then
    ok <- update_index x;;
    if ok : bool then
      verify_coll c;; verify_coll x;;
      n <- pick;; ok <- split_loop n x 0 true;;
      if ok : bool then
        upd <- pickb;; if upd : bool then save_segments SetMeta g else ret true
      else ret false
    else ret false
  else ret false).

Inductive call :=
| Populate | Len | Stats (elements : bool) | RankTop | RankScore | Percentile | Get | Update (results : bool) | Delete | Insert
| Verify | VerifyElements | Reindex | DeleteAll | Release | Repair | Backup | Split.
Definition run (c : call) : M bool :=
  match c with
  | Populate => do_populate | Len => do_len | Stats b => do_stats b | RankTop => do_top | RankScore => do_score
  | Percentile => do_percentile | Get => do_get | Update b => do_update b | Delete => do_delete | Insert => do_insert
  | Verify => do_verify | VerifyElements => do_verify_elements | Reindex => do_reindex | DeleteAll => do_delete_all
  | Release => do_release | Repair => do_repair | Backup => do_backup | Split => do_split
  end.
