(** What calls promise while reads of the store fail. *)
From Coq Require Import Strings.String.
From Verif.Lib Require Import Prelude ListAux.
From Verif.Model Require Import Element Elements Segment List ReadFail.
From Verif.Spec Require Import RankSpec QuerySpec AnswerSpec.
Open Scope N_scope.

(** neighbours, nearest first, but possibly fewer than asked for *)
Definition some_neighbours (r : list element) (radius : nat) (re : ranked_element) : Prop :=
  forall i, re_top re = Z.of_nat i ->
    exists a b, (a <= radius)%nat /\ (b <= radius)%nat /\
      re_below re = firstn b (skipn (S i) r) /\ re_above re = firstn a (rev (firstn i r)).
(** every requested element of [r] once, with its true rank *)
Definition rank_lookup (r : list element) (ids : list N) (radius : nat) (res : list ranked_element) : Prop :=
  NoDup (map (fun re => e_id (re_elem re)) res) /\
  (forall x, In x (map re_elem res) <-> In x r /\ In (e_id x) ids) /\
  Forall (fun re => true_rank r re /\ some_neighbours r radius re /\ re_before re = None) res.

(** whichever reads fail, what is answered is right *)
Record answers_or_fails (l : lst) (r : list element) : Prop := {
  f_top : forall rd off n, get_rank_top_r rd l off n = Unread \/
            get_rank_top_r rd l off n = Answer (if Nat.ltb off (length r) then Some (firstn n (skipn off r)) else None);
  f_bottom : forall rd off n, get_rank_bottom_r rd l off n = Unread \/
            get_rank_bottom_r rd l off n =
              Answer (if Nat.ltb off (length r) then Some (firstn n (skipn (length r - 1 - off) r)) else None);
  f_score : forall rd0 rd score n, score <= max_u64 ->
            get_rank_score_desc_r rd0 rd l score n = Unread \/
            exists res, get_rank_score_desc_r rd0 rd l score n = Answer (Some res) /\
              map re_elem res = firstn n (filter (fun e => e_score e <=? score) r) /\
              Forall (fun re => true_rank r re /\ re_above re = [] /\ re_below re = []) res;
  f_get : forall rdi rd nb sc1 sc2 ids radius, Forall (fun v => v <= max_u64) ids ->
            get_elements_r rdi rd nb sc1 sc2 l ids radius = Unread \/
            exists res, get_elements_r rdi rd nb sc1 sc2 l ids radius = Answer res /\ rank_lookup r ids radius res;
  f_pct : forall rd nb m k radius, r <> [] -> m * 2 ^ 53 <= (2 ^ 53 - 1) * 2 ^ k ->
            get_percentile_r rd nb l m k radius = Done Unread \/
            exists i re, get_percentile_r rd nb l m k radius = Done (Answer (Some re)) /\
              pct_pos (N.of_nat (length r)) m k i /\ re_top re = Z.of_N i /\ true_rank r re /\ some_neighbours r radius re
}.

(** [s] holds one of the elements [w], or is empty *)
Definition wanted (w : list element) (s : seg) : Prop := sg_elems s = [] \/ exists x, In x w /\ In x (sg_elems s).
(** the window that a query for [n] elements from position [i] of [r] asks for *)
Definition window (r : list element) (i n : nat) : list element := firstn n (skipn i r).
(** [s] is responsible for the ID [id], as an index segment *)
Definition files (s : seg) (id : N) : Prop := sg_min s <= id <= sg_max s.
(** [s] holds one of the elements [w] *)
Definition holds_one (w : element -> Prop) (s : seg) : Prop := exists x, w x /\ In x (sg_elems s).
(** [rd] fails for some segment of [l] that satisfies [p] *)
Definition unreadable (rd : nat -> bool) (p : seg -> Prop) (l : list seg) : Prop :=
  exists i s, nth_error l i = Some s /\ p s /\ rd i = false.

(** calls fail because of segments they need, and only of those: queries for a window read no other
    segments than those with elements of the window and empty ones *)
Record fails_exactly (l : lst) (r : list element) : Prop := {
  x_top : forall rd off n,
    (unreadable rd (holds_one (fun x => In x (window r off n))) (ss_segs (l_scores l)) -> get_rank_top_r rd l off n = Unread) /\
    (get_rank_top_r rd l off n = Unread -> unreadable rd (wanted (window r off n)) (ss_segs (l_scores l)));
  x_bottom : forall rd off n, (off < length r)%nat ->
    (unreadable rd (holds_one (fun x => In x (window r (length r - 1 - off) n))) (ss_segs (l_scores l)) -> get_rank_bottom_r rd l off n = Unread) /\
    (get_rank_bottom_r rd l off n = Unread -> unreadable rd (wanted (window r (length r - 1 - off) n)) (ss_segs (l_scores l)));
  x_bottom_out : forall rd off n, (length r <= off)%nat -> get_rank_bottom_r rd l off n = Answer None;
  x_score : forall rd0 rd score n, score <= max_u64 ->
    let w := firstn n (filter (fun e => e_score e <=? score) r) in
    (unreadable rd0 (fun s => covers s score max_u32) (ss_segs (l_scores l)) \/ unreadable rd (holds_one (fun x => In x w)) (ss_segs (l_scores l)) ->
     get_rank_score_desc_r rd0 rd l score n = Unread) /\
    (get_rank_score_desc_r rd0 rd l score n = Unread ->
     unreadable rd0 (fun s => covers s score max_u32) (ss_segs (l_scores l)) \/ unreadable rd (wanted w) (ss_segs (l_scores l)));
  x_get : forall rdi rd nb sc1 sc2 ids radius, Forall (fun v => v <= max_u64) ids ->
    (get_elements_r rdi rd nb sc1 sc2 l ids radius = Unread <->
     unreadable rdi (fun s => exists id, In id ids /\ files s id) (ss_segs (l_index l)) \/
     unreadable rd (holds_one (fun x => In (e_id x) ids)) (ss_segs (l_scores l)));
  x_pct : forall rd nb m k radius re, get_percentile l m k radius = Done (Some re) ->
    (get_percentile_r rd nb l m k radius = Done Unread <-> unreadable rd (holds_one (eq (re_elem re))) (ss_segs (l_scores l)))
}.

(** the segment of [l] that is responsible for [x] can be read *)
Definition readable (rd : nat -> bool) (l : list seg) (x : element) : Prop :=
  forall i s, nth_error l i = Some s -> covers s (e_score x) (e_tie x) -> rd i = true.

(** ranking queries are right for the ranking [r], lookups find exactly the elements [found] of it *)
Record ranks_all_finds (found : element -> Prop) (l : lst) (r : list element) : Prop := {
  w_len : len l = length r;
  w_top : forall off n, get_rank_top l off n =
            if Nat.ltb off (length r) then Some (firstn n (skipn off r)) else None;
  w_bottom : forall off n, get_rank_bottom l off n =
            if Nat.ltb off (length r) then Some (firstn n (skipn (length r - 1 - off) r)) else None;
  w_score : forall score n, score <= max_u64 ->
            exists res, get_rank_score_desc l score n = Some res /\
              map re_elem res = firstn n (filter (fun e => e_score e <=? score) r) /\
              Forall (fun re => true_rank r re /\ re_above re = [] /\ re_below re = []) res;
  w_get : forall sc1 sc2 ids radius, Forall (fun v => v <= max_u64) ids ->
            let res := get_elements sc1 sc2 l ids radius in
            NoDup (map (fun re => e_id (re_elem re)) res) /\
            (forall x, In x (map re_elem res) <-> In x r /\ In (e_id x) ids /\ found x) /\
            Forall (fun re => true_rank r re /\ true_neighbours r radius re /\ re_before re = None) res;
  w_pct : forall m k radius, r <> [] -> m * 2 ^ 53 <= (2 ^ 53 - 1) * 2 ^ k ->
            exists i re, get_percentile l m k radius = Done (Some re) /\ pct_pos (N.of_nat (length r)) m k i /\
              re_top re = Z.of_N i /\ true_rank r re /\ true_neighbours r radius re
}.

(** the index segment of the ID can be read *)
Definition id_readable (rd : nat -> bool) (is : list seg) (id : N) : Prop :=
  forall i s, nth_error is i = Some s -> files s id -> rd i = true.

(** calls of DeleteElements with the reads that fail: lookup in the index, scores, removal from the index *)
Record del_call : Type := mkDel {
  d_rdi : nat -> bool; d_rds : nat -> bool; d_rdx : nat -> bool;
  d_now : N; d_sc1 : list nat; d_sc2 : list nat; d_ids : list N
}.
Definition run_deletes (calls : list del_call) (l : lst) : lst :=
  fold_left (fun l c => fst (delete_elements_r (d_rdi c) (d_rds c) (d_rdx c) (d_now c) (d_sc1 c) (d_sc2 c) (d_ids c) l)) calls l.
(** [x] is named, no read for the lookup fails, and the segment of [x] can be read *)
Definition takes (c : del_call) (l : lst) (x : element) : Prop :=
  In (e_id x) (d_ids c) /\ ~ unreadable (d_rdi c) (fun s => exists id, In id (d_ids c) /\ files s id) (ss_segs (l_index l)) /\
  readable (d_rds c) (ss_segs (l_scores l)) x.

(** Reindex brings the index in line with the scores *)
Definition heals (l : lst) : Prop :=
  forall ni now sc, ni <> ""%string -> 0 < now < max_u32 -> (2 <= l_merge l + l_split l)%nat -> N.of_nat (length (stored_in l)) < max_u32 ->
  exists l2, step l (OReindex ni now sc) = Done l2 /\ stored_in l2 = stored_in l /\ answers l2 (stored_in l) /\
    verify l2 = true /\ verify_elements l2 = true.

(** [x] is in the segment it was in, or its old segment is gone and it is in the first one *)
Definition stays_led (l l' : lst) (x : element) : Prop :=
  exists s t, In s (ss_segs (l_scores l)) /\ In x (sg_elems s) /\ In t (ss_segs (l_scores l')) /\ In x (sg_elems t) /\
    (sg_id t = sg_id s \/ (~ In (sg_id s) (map sg_id (ss_segs (l_scores l'))) /\ nth_error (ss_segs (l_scores l')) 0 = Some t)).

(** split passes and Reindex calls after each other, with the reads that fail; [sound]: no pass broke off since the
    start or the last successful Reindex, or it did so after the index was in line *)
Inductive upkeep :=
| USplit (rds rdx rdi : nat -> bool) (merge : bool) (now : N)
| UReindex (rd : nat -> bool) (ni : string) (now : N) (sc : list nat).
Definition upkeep_ok (u : upkeep) : Prop :=
  match u with USplit _ _ _ _ now => 0 < now < max_u32 | UReindex _ ni now _ => ni <> ""%string /\ 0 < now < max_u32 end.
Fixpoint run_upkeep (us : list upkeep) (sound : bool) (l : lst) : outcome (lst * bool) :=
  match us with
  | [] => Done (l, sound)
  | USplit rds rdx rdi merge now :: r =>
    match split_r rds rdx rdi merge now l with
    | Done (l', e) => run_upkeep r (match e with Full | IndexCut => sound | _ => false end) l'
    | Panic => Panic | Diverge => Diverge | Exhausted => Exhausted
    end
  | UReindex rd ni now sc :: r =>
    match reindex_r rd ni now sc l with
    | Done (l', ok) => run_upkeep r (sound || ok) l'
    | Panic => Panic | Diverge => Diverge | Exhausted => Exhausted
    end
  end.
