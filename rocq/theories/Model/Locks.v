(** Model of the locks of one list and of calls running at the same time on it:
    list.go:305-453 (loadSegments, newSegments), segments.go:183-300
    (elementFullIdx, replaceSegment), and the order in which the calls of list.go
    take and release the locks.

    A call is one thread that takes its locks one after the other; the goroutines
    that a call starts for several segments are taken in sequence, in any order.
    The two SegmentsLocks (scores, index) are one lock here: they are leaf locks.
    A segment and its entry in the Segments slice are one cell.  Errors of the
    store, context cancellation and the one minute timeout of ReleaseSegments
    are not modelled. *)
From Coq Require Import Strings.String Strings.Byte.
From Verif.Lib Require Import Prelude ListAux.
From Verif.Model Require Import Element Elements Segment List.
Open Scope nat_scope.

(** list.go:39-51 segmentsLock, updateLock (a mutex), loadingLock (a mutex); segment.go elementLoader.Mu
    of segment [i] of the index ([true]) or of the scores ([false]); segments.go:37
    SegmentsLock *)
Inductive lock := LUpdate | LLoading | LSegs | LSeg (index : bool) (i : nat) | LStats.
Definition lock_eq_dec (a b : lock) : {a = b} + {a <> b}.
Proof. decide equality; [apply Nat.eq_dec|apply Bool.bool_dec]. Defined.
Definition lock_eqb (a b : lock) : bool := if lock_eq_dec a b then true else false.
Definition mem_lock (k : lock) (l : list lock) : bool := existsb (lock_eqb k) l.

(** One step of a call.  [Acq k true] is Lock, [Acq k false] is RLock, [Rel] the
    matching unlock.  [Get] reads a segment.  [Work o] is the effect of operation
    [o]: it becomes a sequence of [Acq]/[Rel] of segment locks, [Dirty k] (the
    memory behind [k] is being changed in place, list.go:1404-1462) and [Put k]
    (replaceSegment: [k] has its final content). *)
Inductive act :=
| Acq (k : lock) (w : bool)
| Rel (k : lock)
| Get (index : bool) (i : nat)
| Work (o : op)
| Dirty (k : lock)
| Put (k : lock).

(** ** Memory *)
Definition side (b : bool) (l : lst) : segs := if b then l_index l else l_scores l.
Definition set_side (b : bool) (s : list seg) (l : lst) : lst :=
  if b then mkL (l_merge l) (l_split l) (l_scores_id l) (l_index_id l) (l_scores l) (set_segs (l_index l) s)
  else mkL (l_merge l) (l_split l) (l_scores_id l) (l_index_id l) (set_segs (l_scores l) s) (l_index l).
Definition seg_of (b : bool) (i : nat) (l : lst) : option seg := nth_error (ss_segs (side b l)) i.

(** copy the memory that lock [k] guards from [src] to [dst]: one segment; the
    fields of the two collections; everything *)
Definition put (k : lock) (src dst : lst) : lst :=
  match k with
  | LSeg b i =>
    match seg_of b i src with
    | Some s => set_side b (upd_nth i (fun _ => s) (ss_segs (side b dst))) dst
    | None => dst
    end
  | LStats => mkL (l_merge src) (l_split src) (l_scores_id src) (l_index_id src)
                (set_segs (l_scores src) (ss_segs (l_scores dst)))
                (set_segs (l_index src) (ss_segs (l_index dst)))
  | LSegs => src
  | LUpdate | LLoading => dst
  end.
Definition put_all (ks : list lock) (src dst : lst) : lst := fold_left (fun a k => put k src a) ks dst.

Definition lst_eq_dec (a b : lst) : {a = b} + {a <> b}.
Proof.
  assert (De : forall x y : element, {x = y} + {x <> y}).
  { decide equality; try apply N.eq_dec. apply list_eq_dec, byte_eq_dec. }
  assert (Ds : forall x y : seg, {x = y} + {x <> y}).
  { decide equality; try apply N.eq_dec; try apply string_dec; try apply Nat.eq_dec. apply list_eq_dec, De. }
  assert (Dc : forall x y : segs, {x = y} + {x <> y}).
  { decide equality; try apply N.eq_dec; try apply string_dec; try apply Bool.bool_dec.
    - apply list_eq_dec. decide equality; [apply Nat.eq_dec|apply N.eq_dec].
    - apply list_eq_dec, Ds. }
  decide equality; try apply string_dec; apply Nat.eq_dec.
Defined.

(** ** Threads *)
Record thread := mkT {
  t_prog : list act;            (* what is left to do *)
  t_held : list (lock * bool);  (* locks held, with mode *)
  t_ann : bool;                 (* waiting in Lock, new readers are held back *)
  t_new : lst;                  (* content that the call is writing *)
  t_got : list (nat * (bool * nat) * option seg)  (* segments read, with the length of the log then *)
}.
Record conf := mkC {
  c_cur : lst;
  c_threads : list thread;
  c_log : list (nat * op)       (* operations in the order of their [Work], with the thread *)
}.

Definition holds (k : lock) (w : bool) (th : thread) : nat :=
  length (filter (fun h => lock_eqb k (fst h) && Bool.eqb w (snd h)) (t_held th)).
Definition waits_for (th : thread) : option lock :=
  match t_prog th with Acq k _ :: _ => Some k | _ => None end.
Definition pending (k : lock) (th : thread) : nat :=
  match t_prog th with Acq k' true :: _ => if t_ann th && lock_eqb k k' then 1 else 0 | _ => 0 end.
Definition total (f : thread -> nat) (ths : list thread) : nat := list_sum (map f ths).
Definition writers k ths := total (holds k true) ths.
Definition readers k ths := total (holds k false) ths.
Definition queued k ths := total (pending k) ths.

Fixpoint drop_held (k : lock) (h : list (lock * bool)) : option (list (lock * bool)) :=
  match h with
  | [] => None
  | x :: r => if lock_eqb k (fst x) then Some r
              else match drop_held k r with Some r' => Some (x :: r') | None => None end
  end.

(** ** What [Work] may become *)
Definition is_cell (k : lock) : bool := match k with LSeg _ _ | LStats => true | _ => false end.
Definition nilb {A} (l : list A) : bool := match l with [] => true | _ => false end.
Definition drop_lock (k : lock) (l : list lock) : list lock := filter (fun x => negb (lock_eqb k x)) l.

(** every cell is write locked while it is changed, is not unlocked before it has
    its final content, is not locked twice, and SegmentsLock is a leaf:
    list.go:1344-1477 (all locks are taken, then released one by one) and
    segments.go:340-390, 405-454, 485-548 (lock, change, unlock) *)
Fixpoint plan_ok (hs dirty : list lock) (p : list act) : bool :=
  match p with
  | [] => nilb hs && nilb dirty
  | Acq k true :: r => is_cell k && negb (mem_lock k hs) && negb (mem_lock LStats hs) && plan_ok (k :: hs) dirty r
  | Dirty k :: r => mem_lock k hs && plan_ok hs (k :: dirty) r
  | Put k :: r => mem_lock k hs && plan_ok hs (drop_lock k dirty) r
  | Rel k :: r => mem_lock k hs && negb (mem_lock k dirty) && plan_ok (drop_lock k hs) dirty r
  | _ => false
  end.
Definition puts (p : list act) : list lock := flat_map (fun a => match a with Put k => [k] | _ => [] end) p.

(** operations done under the read lock of the segments: list.go:1252, 1504, 1550 *)
Definition shared (o : op) : bool :=
  match o with OUpdate _ _ _ _ _ | OInsert _ _ _ | ODelete _ _ _ _ => true | _ => false end.

(** a plan writes everything that the operation changes *)
Definition plan_for (o : op) (cur new : lst) (p : list act) : bool :=
  if shared o then plan_ok [] [] p && (if lst_eq_dec (put_all (puts p) new cur) new then true else false)
  else match p with [Dirty LSegs; Put LSegs] => true | _ => false end.

(** ** Steps.  [garbage] is what an unfinished change leaves in memory, [plan] how
    the operation goes about its work. *)
Definition set_thread (c : conf) (t : nat) (th : thread) : conf :=
  mkC (c_cur c) (upd_nth t (fun _ => th) (c_threads c)) (c_log c).

Definition move (c : conf) (t : nat) (garbage : lst) (plan : list act) : option conf :=
  match nth_error (c_threads c) t with
  | None => None
  | Some th =>
    match t_prog th with
    | [] => None
    | Acq k true :: r =>
      if t_ann th then
        (* sync.RWMutex.Lock: wait for the readers to leave *)
        if (writers k (c_threads c) =? 0) && (readers k (c_threads c) =? 0) then
          Some (set_thread c t (mkT r ((k, true) :: t_held th) false (t_new th) (t_got th)))
        else None
      else
        (* first the lock among writers, then new readers are held back *)
        if (writers k (c_threads c) =? 0) && (queued k (c_threads c) =? 0) then
          Some (set_thread c t (mkT (t_prog th) (t_held th) true (t_new th) (t_got th)))
        else None
    | Acq k false :: r =>
      (* sync.RWMutex.RLock: waits for a writer that holds the lock or waits for it *)
      if (writers k (c_threads c) =? 0) && (queued k (c_threads c) =? 0) then
        Some (set_thread c t (mkT r ((k, false) :: t_held th) false (t_new th) (t_got th)))
      else None
    | Rel k :: r =>
      match drop_held k (t_held th) with
      | Some h => Some (set_thread c t (mkT r h false (t_new th) (t_got th)))
      | None => None
      end
    | Get b i :: r =>
      Some (set_thread c t (mkT r (t_held th) false (t_new th)
              (t_got th ++ [(length (c_log c), (b, i), seg_of b i (c_cur c))])))
    | Work o :: r =>
      (* an operation that does not return keeps its locks *)
      match step (c_cur c) o with
      | Done new =>
        if plan_for o (c_cur c) new plan then
          Some (mkC (c_cur c) (upd_nth t (fun _ => mkT (plan ++ r) (t_held th) false new (t_got th)) (c_threads c))
                    (c_log c ++ [(t, o)]))
        else None
      | _ => None
      end
    | Dirty k :: r =>
      Some (mkC (put k garbage (c_cur c))
                (upd_nth t (fun _ => mkT r (t_held th) false (t_new th) (t_got th)) (c_threads c)) (c_log c))
    | Put k :: r =>
      Some (mkC (put k (t_new th) (c_cur c))
                (upd_nth t (fun _ => mkT r (t_held th) false (t_new th) (t_got th)) (c_threads c)) (c_log c))
    end
  end.

Fixpoint moves (c : conf) (s : list (nat * (lst * list act))) : option conf :=
  match s with
  | [] => Some c
  | (t, (g, p)) :: r => match move c t g p with Some c' => moves c' r | None => None end
  end.

(** ** The calls *)
(** list.go:305-402 [loadSegments].  [cold]: the segments are not in memory
    (list.go:349-400; the loading itself does not change the list). *)
Definition load (cold : bool) (updates writable : bool) : list act :=
  (if updates then [Acq LUpdate true] else []) ++
  [Acq LLoading true; Acq LSegs writable] ++
  (if cold then
     (if writable then [] else [Rel LSegs; Acq LSegs true; Rel LSegs; Acq LSegs false])
   else []) ++
  [Rel LLoading].
(** list.go:318-337, [segments.unlock] *)
Definition unload (updates : bool) : list act :=
  [Rel LSegs] ++ (if updates then [Rel LUpdate] else []).

(** segments.go:1087-1125 [getElementsOffset] and the lookups of segments.go:745,
    815, 935 without radius: one segment at a time *)
Definition read_seg (k : bool * nat) : list act :=
  [Acq (LSeg (fst k) (snd k)) false; Get (fst k) (snd k); Rel (LSeg (fst k) (snd k))].
(** segments.go:599-661 [segIdxTop], [segIdxBottom], [segIdxScore], [topOffsets] *)
Definition read_stats : list act := [Acq LStats false; Rel LStats].
Definition hold_seg (k : bool * nat) : list act := [Acq (LSeg (fst k) (snd k)) false; Get (fst k) (snd k)].
Definition free_seg (k : bool * nat) : list act := [Rel (LSeg (fst k) (snd k))].
(** segments.go:987-1055 [findRanked] with a radius: below, then above, while the
    segment of the element stays locked *)
Definition read_around (i : nat) (below above : list nat) : list act :=
  hold_seg (false, i) ++
  flat_map (fun j => hold_seg (false, j)) below ++ flat_map (fun j => free_seg (false, j)) (rev below) ++
  flat_map (fun j => hold_seg (false, j)) above ++ flat_map (fun j => free_seg (false, j)) (rev above) ++
  free_seg (false, i).
(** segments.go:1061-1085 [getElementsFromScore]: the window is read while the
    first segment stays locked *)
Definition read_score (i : nat) (window : list nat) : list act :=
  hold_seg (false, i) ++ flat_map (fun j => read_seg (false, j)) window ++ free_seg (false, i).

Inductive call :=
| CRead (cold : bool) (ks : list (bool * nat))   (* windows, lookups without radius; 490-519, the reads of cloneElements *)
| CAround (cold : bool) (ks : list (bool * nat)) (i : nat) (below above : list nat)  (* lookup with radius *)
| CScore (cold : bool) (i : nat) (window : list nat)  (* GetRankScoreDesc, list.go:1697-1721 *)
| CStats (cold : bool) (kss : list (list (bool * nat)))  (* list.go:1011-1053 [Stats]; with elements it calls
                                                      GetRankTop and GetRankBottom under its own lock *)
| CModify (cold : bool) (o : op) (ks : list (bool * nat))  (* with the segments read for the results *)
| CPopulate (o : op)                             (* list.go:409-453 [newSegments] *)
| CRelease                                       (* list.go:1057-1115 [ReleaseSegments] *)
| CLocked (cold : bool) (ks : list (bool * nat)).  (* list.go:1850-1913 [Backup], 673-684 [VerifyElements]: reads under the update lock *)

(** list.go:1633-1692 [GetRankTop], [GetRankBottom] on segments that are in memory *)
Definition read_window (ks : list (bool * nat)) : list act :=
  load false false false ++ read_stats ++ flat_map read_seg ks ++ unload false.
Definition prog_of (x : call) : list act :=
  match x with
  | CRead cold ks => load cold false false ++ read_stats ++ flat_map read_seg ks ++ unload false
  | CAround cold ks i below above =>
    load cold false false ++ flat_map read_seg ks ++ read_stats ++ read_around i below above ++ unload false
  | CScore cold i window => load cold false false ++ read_stats ++ read_score i window ++ unload false
  | CStats cold kss =>
    load cold false false ++ read_stats ++ flat_map read_window kss ++ unload false
  | CModify cold o ks =>
    load cold true (negb (shared o)) ++ [Work o] ++ flat_map read_seg ks ++ unload true
  | CPopulate o => [Acq LUpdate true; Acq LSegs true; Work o; Rel LUpdate; Rel LSegs]
  | CRelease => [Acq LLoading true; Acq LSegs true; Work OReload; Rel LSegs; Rel LLoading]
  | CLocked cold ks => load cold true false ++ read_stats ++ flat_map read_seg ks ++ unload true
  end.

(** a populate goes with an operation that needs the whole list *)
Definition call_ok (x : call) : bool :=
  match x with CPopulate o => negb (shared o) | _ => true end.

Definition start (l : lst) (xs : list call) : conf :=
  mkC l (map (fun x => mkT (prog_of x) [] false l []) xs) [].
Definition finished (c : conf) : Prop := Forall (fun th => t_prog th = []) (c_threads c).
