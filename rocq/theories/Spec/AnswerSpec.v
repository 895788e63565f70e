(** What it means for a list to answer every query according to a ranking [r]. *)
From Coq Require Import Strings.String.
From Verif.Lib Require Import Prelude ListAux.
From Verif.Model Require Import Element Elements Segment List.
From Verif.Spec Require Import RankSpec QuerySpec.
Open Scope N_scope.

(** the elements stored in the score segments *)
Definition stored_in (l : lst) : list element := concat (map sg_elems (ss_segs (l_scores l))).
(** the entries stored in the index segments *)
Definition indexed_in (l : lst) : list element := concat (map sg_elems (ss_segs (l_index l))).

(** [res] has every requested element of [r] once, with its true rank and neighbours *)
Definition exact_lookup (r : list element) (ids : list N) (radius : nat) (res : list ranked_element) : Prop :=
  NoDup (map (fun re => e_id (re_elem re)) res) /\
  (forall x, In x (map re_elem res) <-> In x r /\ In (e_id x) ids) /\
  Forall (fun re => true_rank r re /\ true_neighbours r radius re /\ re_before re = None) res.

(** position of percentile m/2^k in a list of [total]: the product is rounded to 64
    significant bits, so it is exact below 2^64 and otherwise off by 2^-64 relative *)
Definition pct_pos (total m k i : N) : Prop :=
  let x := total * m in
  (x - x / 2 ^ 64) / 2 ^ k <= i <= (x + x / 2 ^ 64) / 2 ^ k /\ (x < 2 ^ 64 -> i = x / 2 ^ k).

Record answers (l : lst) (r : list element) : Prop := {
  a_len : len l = length r;
  a_top : forall off n, get_rank_top l off n =
            if Nat.ltb off (length r) then Some (firstn n (skipn off r)) else None;
  a_bottom : forall off n, get_rank_bottom l off n =
            if Nat.ltb off (length r) then Some (firstn n (skipn (length r - 1 - off) r)) else None;
  a_score : forall score n, score <= max_u64 ->
            exists res, get_rank_score_desc l score n = Some res /\
              map re_elem res = firstn n (filter (fun e => e_score e <=? score) r) /\
              Forall (fun re => true_rank r re /\ re_above re = [] /\ re_below re = []) res;
  a_get : forall sc1 sc2 ids radius, Forall (fun v => v <= max_u64) ids ->
            exact_lookup r ids radius (get_elements sc1 sc2 l ids radius);
  (* every float64 below 1 is at most 1 - 2^-53 *)
  a_pct : forall m k radius, r <> [] -> m * 2 ^ 53 <= (2 ^ 53 - 1) * 2 ^ k ->
            exists i re, get_percentile l m k radius = Done (Some re) /\ pct_pos (N.of_nat (length r)) m k i /\
              re_top re = Z.of_N i /\ true_rank r re /\ true_neighbours r radius re
}.

(** [s] is responsible for this score and tie breaker *)
Definition covers (s : seg) (score tie : N) : Prop :=
  (sg_min s < score \/ (sg_min s = score /\ sg_mintie s <= tie)) /\
  (score < sg_max s \/ (score = sg_max s /\ tie <= sg_maxtie s)).
(** exactly one of the segments is responsible for each score and tie breaker *)
Definition covered_once (l : list seg) : Prop :=
  forall score tie, score <= max_u64 -> tie <= max_u32 ->
  exists i s, nth_error l i = Some s /\ covers s score tie /\
  forall j t, nth_error l j = Some t -> covers t score tie -> j = i.

(** elements in a segment that can be loaded *)
Definition loadable (rd : nat -> bool) (l : list seg) (x : element) : Prop :=
  exists i s, nth_error l i = Some s /\ rd i = true /\ In x (sg_elems s).

(** ** What Verify does not look at *)
(** widths of Go's integer types, and update times before 2^32-1 *)
Definition seg_typed (s : seg) : Prop :=
  sg_mintie s <= max_u32 /\ sg_maxtie s <= max_u32 /\ sg_min s <= max_u64 /\ sg_max s <= max_u64 /\
  sg_id s <= max_u32 /\ Forall (fun x => elem_ok x /\ e_upd x < max_u32) (sg_elems s).
(** bounds the right way round *)
Definition seg_ordered (s : seg) : Prop :=
  sg_min s < sg_max s \/ (sg_min s = sg_max s /\ sg_mintie s <= sg_maxtie s).
(** only the last segment reaches down to (0,0) *)
Definition only_last_zero (l : list seg) : Prop :=
  forall a s t b, l = a ++ s :: t :: b -> 0 < sg_min s \/ 0 < sg_mintie s.
(** index entries are filed under their own ID *)
Definition filed (l : lst) : Prop := Forall (fun q => e_score q = e_id q /\ e_payload q = []) (indexed_in l).
(** the in-memory segment map is absent (as after loading) or right *)
Definition map_ok (l : lst) : Prop :=
  ss_idx (l_scores l) = [] \/ ss_idx (l_scores l) = build_idx (ss_segs (l_scores l)).

(** ** Splitting *)
Definition same_place (x y : element) : Prop := e_score x = e_score y /\ e_tie x = e_tie y.
(** there is a change of score or tie breaker at or after the middle *)
Definition can_split (e : list element) : Prop :=
  exists a x y b, e = a ++ x :: y :: b /\ ((length e + 1) / 2 <= S (length a))%nat /\ ~ same_place x y.
(** [parts] is what one pass makes of the elements of a segment *)
Definition cut_spec (sz : nat) (e : list element) (parts : list (list element)) : Prop :=
  ((length e < sz)%nat \/ ~ can_split e) /\ parts = [e] \/
  ((sz <= length e)%nat /\ can_split e /\
   exists a x y b, parts = [a ++ [x]; y :: b] /\ e = a ++ x :: y :: b /\ ~ same_place x y /\
     ((length e + 1) / 2 <= S (length a))%nat /\
     (* the first such place *)
     forall a' x' y' b', e = a' ++ x' :: y' :: b' -> ((length e + 1) / 2 <= S (length a'))%nat ->
       ~ same_place x' y' -> (length a <= length a')%nat).
Definition settled (sz : nat) (e : list element) : Prop := (length e < sz)%nat \/ ~ can_split e.

Fixpoint split_passes (nows : list N) (l : lst) : outcome lst :=
  match nows with
  | [] => Done l
  | now :: r => match split_pass false now l with Done l' => split_passes r l' | x => x end
  end.

(** passes as the splitter makes them, which merge as well *)
Fixpoint splitter_passes (nows : list N) (l : lst) : outcome lst :=
  match nows with
  | [] => Done l
  | now :: r => match split_pass true now l with Done l' => splitter_passes r l' | x => x end
  end.
(** nothing is left to merge: a segment below the split size and the one before it are together
    above the merge size *)
Definition unmergeable (merge split : nat) (ls : list (list element)) : Prop :=
  forall a p e b, ls = a ++ p :: e :: b -> (length e < split)%nat -> (merge < length p + length e)%nat.
(** the elements of the score segments and the entries of the index segments of a list *)
Definition score_parts (l : lst) : list (list element) := map sg_elems (ss_segs (l_scores l)).
Definition index_parts (l : lst) : list (list element) := map sg_elems (ss_segs (l_index l)).
