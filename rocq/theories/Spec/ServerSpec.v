(** What the requests mean: a server is a map from list IDs to maps from element IDs to elements.
    Nothing here looks at segments or calls the list operations. *)
From Coq Require Import Strings.String Strings.Ascii Strings.Byte.
From Verif.Lib Require Import Prelude Bytes.
From Verif.Model Require Import Element Elements Segment Access Api Server.
From Verif.Model Require Lists.
From Verif.Spec Require Import RankSpec QuerySpec HistorySpec AnswerSpec AccessSpec ListsSpec ShownSpec.
Open Scope N_scope.

(** a list: its description and its elements by ID *)
Record slist := SL { s_set : bytes; s_meta : meta; s_load : bool; s_merge : nat; s_split : nat; s_map : smap }.
Definition sdb := bytes -> option slist.
Definition sdb_empty : sdb := fun _ => None.
Definition put_list (s : sdb) (id : bytes) (v : option slist) : sdb := fun k => if beq id k then v else s k.
Definition with_map (sl : slist) (m : smap) : slist := SL (s_set sl) (s_meta sl) (s_load sl) (s_merge sl) (s_split sl) m.
(** apply [f] to the content of the lists in [ids] *)
Definition change_lists (s : sdb) (ids : list bytes) (f : smap -> smap) : sdb :=
  fun k => if existsb (beq k) ids then option_map (fun sl => with_map sl (f (s_map sl))) (s k) else s k.

(** what the token grants *)
Definition may_list (t : token) (id : bytes) : Prop :=
  match t with
  | NoToken => True
  | BadClaims => False
  | Claims (CText v) _ => names_list v id
  | Claims CNone _ => True
  end.
Definition may_elem (t : token) (id : N) : Prop :=
  match t with
  | NoToken => True
  | BadClaims => False
  | Claims _ (CText v) => names_element v id
  | Claims _ CNone => True
  end.
(** a request without IDs is still refused when the claims cannot be read *)
Definition may_lists (t : token) (P : bytes -> Prop) : Prop := t <> BadClaims /\ forall id, P id -> may_list t id.
Definition may_elems (t : token) (P : N -> Prop) : Prop := t <> BadClaims /\ forall id, P id -> may_elem t id.

(** the element a client sent, with the time of arrival *)
Definition sent (now : N) (a : apielem) : element :=
  mkE (in_score a) (in_id a) (in_payload a) (match in_tie a with Some t => t | None => 0 end) now.
(** [b] has one element for each ID in the request, the one with the lowest score *)
Definition batch_of (now : N) (es : list (option apielem)) (b : list element) : Prop :=
  distinct_ids b /\
  (forall x, In x b -> exists a, In (Some a) es /\ x = sent now a /\
     forall a', In (Some a') es -> in_id a' = in_id a -> in_score a <= in_score a') /\
  (forall a, In (Some a) es -> In (in_id a) (map e_id b)).

(** [path] is a decimal number below 2^64 *)
Definition denotes (path : bytes) (v : N) : Prop := decimal path v /\ v < 2 ^ 64.

(** the answer shows [x] with its true rank in [r], the nearest neighbours first, and what was
    there before.  (The ranks printed for the neighbours above: C44; the rank printed for the
    previous element: C43.) *)
Definition shows_one (r : list element) (radius : nat) (x : element) (before : option element) (a : resp) : Prop :=
  exists c ab be prev i, a = A_elem c ab be prev /\ sh_elem c = x /\ shown_at r i c /\
    map sh_elem be = firstn radius (skipn (S i) r) /\ Forall (truly_shown r) be /\
    map sh_elem ab = firstn radius (rev (firstn i r)) /\ option_map sh_elem prev = before.
(** every element of [r] with one of the IDs, once, with its true rank *)
Definition shows_all (r : list element) (ids : list N) (l : list shown) : Prop :=
  NoDup (map (fun x => e_id (sh_elem x)) l) /\ Forall (truly_shown r) l /\
  forall x, In x (map sh_elem l) <-> In x r /\ In (e_id x) ids.
(** the same in rank order *)
Definition shows_ranked (r : list element) (ids : list N) (l : list shown) : Prop :=
  shows_all r ids l /\ ranked (map sh_elem l).

(** the answer describes the list; [r] is its ranking *)
Definition describes (id : bytes) (sl : slist) (r : list element) (ends : bool) (a : resp) : Prop :=
  exists top bottom, a = A_list id (s_set sl) (s_meta sl) (s_merge sl) (s_split sl) (s_load sl) (length r) top bottom /\
    (if ends then match top, bottom with
                  | Some x, Some y => shown_at r 0 x /\ shown_at r (length r - 1) y
                  | None, None => r = []
                  | _, _ => False
                  end
     else top = None /\ bottom = None).

(** ** Lists chosen by a cross-list request *)
Definition described (id : bytes) (sl : slist) : Lists.lst := Lists.Lst id (s_set sl) (s_meta sl) 0.
Definition named (q : sel) (id : bytes) : Prop := id <> [] /\ exists p, In p (q_lists q) /\ trimmed p id.
Definition matching (s : sdb) (q : sel) (id : bytes) : Prop :=
  exists sl, s id = Some sl /\ selected (q_meta q) (q_sets q) (described id sl).
(** Get, Delete: named, or matching by metadata, or in one of the sets *)
Definition chosen_read (s : sdb) (q : sel) (id : bytes) : Prop := named q id \/ matching s q id.
(** Create, Put: without metadata the sets are ignored *)
Definition chosen_write (s : sdb) (q : sel) (id : bytes) : Prop := named q id \/ (q_meta q <> [] /\ matching s q id).
(** Verify, Reindex, Backup: also everything when neither names nor metadata are given *)
Definition chosen_manage (s : sdb) (q : sel) (id : bytes) : Prop :=
  (q_lists q = [] /\ q_meta q = [] /\ s id <> None) \/
  (~ (q_lists q = [] /\ q_meta q = []) /\ chosen_write s q id).

(** one entry for every list in [ids]; only the errors if asked for *)
Definition reports (ids : list bytes) (errors_only : bool) (P : bytes -> mres -> Prop) (a : resp) : Prop :=
  exists l, a = A_multi l /\ NoDup (map fst l) /\ (forall id r, In (id, r) l -> In id ids /\ P id r) /\
    forall id, In id ids -> In id (map fst l) \/ (errors_only = true /\ exists x, P id (M_ok x)).
Definition lists_of (P : bytes -> Prop) (ids : list bytes) : Prop := NoDup ids /\ forall id, In id ids <-> P id.

Section Meaning.
  Variables (now seg : N) (t : token) (s s' : sdb) (a : resp).
  Definition refuse (r : resp) : Prop := s' = s /\ a = r.
  (** refused with [r] if [c], otherwise [rest] *)
  Definition unless (c : Prop) (r : resp) (rest : Prop) : Prop := (c /\ refuse r) \/ (~ c /\ rest).
  Definition at_list (id : bytes) (rest : slist -> Prop) : Prop :=
    (s id = None /\ refuse Missing) \/ exists sl, s id = Some sl /\ rest sl.
  Definition for_list (id : bytes) (rest : slist -> Prop) : Prop := unless (~ may_list t id) Unauthorized (at_list id rest).
  Definition sets_map (id : bytes) (sl : slist) (m : smap) : Prop := s' = put_list s id (Some (with_map sl m)).
  Definition with_ranking (m : smap) (P : list element -> Prop) : Prop := exists r, ranking_of (sin m) r /\ P r.
  Definition new_list_at (id : bytes) (sl : slist) : Prop :=
    s' = put_list s id (Some sl) /\ with_ranking (s_map sl) (fun r => describes id sl r true a).

  Definition meaning (q : request) : Prop :=
    match q with
    | Q_create_list id set m merge split load replace pop =>
      unless (s id <> None /\ replace = false) Conflict (
      unless (set = [] \/ (split <= merge)%nat) Bad (
        exists b, batch_of seg pop b /\ new_list_at id (SL set m load merge split (sputs sempty b))))
    | Q_delete_list id => s' = put_list s id None /\ a = Done_empty
    | Q_clone src id set m merge split load pop =>
      at_list src (fun org =>
      unless (s id <> None) Conflict (
      unless (pop = true) Bad (
      unless (set = [] \/ (split <= merge)%nat) Failed (
        new_list_at id (SL set m load merge split (s_map org))))))
    | Q_get_list id ends =>
      for_list id (fun sl => s' = s /\ with_ranking (s_map sl) (fun r => describes id sl r ends a))
    | Q_pct id p k radius =>
      for_list id (fun sl => s' = s /\ with_ranking (s_map sl) (fun r =>
        (r = [] /\ a = Crashed) \/
        (r <> [] /\ p < 2 ^ k /\ exists i x, pct_pos (N.of_nat (length r)) p k i /\ nth_error r (N.to_nat i) = Some x /\ shows_one r radius x None a) \/
        (r <> [] /\ p = 2 ^ k /\ (a = Crashed \/ exists x, nth_error r (length r - 1) = Some x /\ shows_one r radius x None a))))
    | Q_range id ft fb n =>
      unless (~ may_list t id) Unauthorized (
      match ft, fb with
      | None, None | Some _, Some _ => refuse Bad
      | Some o, None => at_list id (fun sl => s' = s /\ with_ranking (s_map sl) (fun r =>
          ((length r <= o \/ n = 0)%nat /\ a = Missing) \/
          ((o < length r)%nat /\ exists l, a = A_range l /\ map sh_elem l = firstn n (skipn o r) /\ Forall (truly_shown r) l)))
      | None, Some o => at_list id (fun sl => s' = s /\ with_ranking (s_map sl) (fun r =>
          ((length r <= o \/ n = 0)%nat /\ a = Missing) \/
          ((o < length r)%nat /\ exists l, a = A_range l /\ map sh_elem l = firstn n (skipn (length r - 1 - o) r) /\ Forall (truly_shown r) l)))
      end)
    | Q_reindex id => at_list id (fun sl => new_list_at id sl)
    | Q_repair id => at_list id (fun sl => sets_map id sl (s_map sl) /\ a = A_verified true)
    | Q_verify id _ => at_list id (fun sl => s' = s /\ a = A_verified true)
    | Q_create id e radius =>
      for_list id (fun sl =>
      unless (~ may_elem t (in_id e)) Unauthorized (
      unless (s_map sl (in_id e) <> None) Conflict (
        let m' := sputs (s_map sl) [sent now e] in
        sets_map id sl m' /\ with_ranking m' (fun r => shows_one r radius (sent now e) None a))))
    | Q_delete id eid =>
      for_list id (fun sl =>
      (~ (exists v, denotes eid v) /\ refuse Bad) \/
      exists v, denotes eid v /\ unless (~ may_elem t v) Unauthorized (sets_map id sl (sdel (s_map sl) [v]) /\ a = Done_empty))
    | Q_delete_multi id eids =>
      for_list id (fun sl =>
      (~ (exists vs, Forall2 denotes eids vs) /\ refuse Bad) \/
      exists vs, Forall2 denotes eids vs /\
        unless (~ may_elems t (fun v => In v vs)) Unauthorized (sets_map id sl (sdel (s_map sl) vs) /\ a = Done_empty))
    | Q_get id eid radius =>
      for_list id (fun sl =>
      (~ (exists v, denotes eid v) /\ refuse Bad) \/
      exists v, denotes eid v /\ unless (~ may_elem t v) Unauthorized (
        (s_map sl v = None /\ refuse Missing) \/
        exists x, s_map sl v = Some x /\ s' = s /\ with_ranking (s_map sl) (fun r => shows_one r radius x None a)))
    | Q_get_multi id ids =>
      for_list id (fun sl =>
      (ids = [] /\ refuse (A_elems [] [])) \/
      (ids <> [] /\ unless (~ may_elems t (fun v => In v ids)) Unauthorized (
        s' = s /\ exists found missing, a = A_elems found missing /\
          with_ranking (s_map sl) (fun r => shows_ranked r ids found) /\
          StronglySorted N.lt missing /\ forall v, In v missing <-> In v ids /\ s_map sl v = None)))
    | Q_around id eid ids radius =>
      for_list id (fun sl =>
      (~ (exists v, denotes eid v) /\ refuse Bad) \/
      exists v, denotes eid v /\ unless (~ may_elems t (fun x => x = v \/ In x ids)) Unauthorized (
        (s_map sl v = None /\ refuse Missing) \/
        exists x, s_map sl v = Some x /\ s' = s /\ with_ranking (s_map sl) (fun r =>
          exists chosen i c ab be, a = A_around (c, ab, be, i, (length chosen - 1 - i)%nat) /\
            ranked chosen /\ (forall y, In y chosen <-> In y r /\ (e_id y = v \/ In (e_id y) ids)) /\
            nth_error chosen i = Some x /\ sh_elem c = x /\ Forall (truly_shown r) (c :: ab ++ be) /\
            map sh_elem be = firstn radius (skipn (S i) chosen) /\
            map sh_elem ab = rev (firstn radius (rev (firstn i chosen))))))
    | Q_put id eid e radius =>
      for_list id (fun sl =>
      unless (~ denotes eid (in_id e)) Bad (
      unless (~ may_elem t (in_id e)) Unauthorized (
        let m' := sputs (s_map sl) [sent now e] in
        sets_map id sl m' /\ with_ranking m' (fun r => shows_one r radius (sent now e) (s_map sl (in_id e)) a))))
    | Q_put_multi id es results =>
      for_list id (fun sl =>
      unless (~ may_elems t (fun v => exists e, In (Some e) es /\ in_id e = v)) Unauthorized (
        exists b, batch_of now es b /\
        let m' := sputs (s_map sl) b in
        sets_map id sl m' /\ exists found, a = A_elems found [] /\
          with_ranking m' (fun r => if results then shows_ranked r (map e_id b) found else found = [])))
    | Q_m_create q es results eo =>
      exists ids, lists_of (chosen_write s q) ids /\
      unless (~ may_lists t (fun id => In id ids)) Unauthorized (
      unless (~ may_elems t (fun v => exists e, In (Some e) es /\ in_id e = v)) Unauthorized (
        exists b, batch_of now es b /\
        let free := fun m : smap => forallb (fun x => match m (e_id x) with None => true | Some _ => false end) b in
        s' = change_lists s ids (fun m => if free m then sputs m b else m) /\
        reports ids eo (fun id r => match s id with
          | None => r = M_missing
          | Some sl => if free (s_map sl) then
                         exists l, r = M_ok l /\
                         if results then with_ranking (sputs (s_map sl) b) (fun k => shows_all k (map e_id b) l) else l = []
                       else r = M_conflict end) a))
    | Q_m_put q es results eo =>
      exists ids, lists_of (chosen_write s q) ids /\
      unless (~ may_lists t (fun id => In id ids)) Unauthorized (
      unless (~ may_elems t (fun v => exists e, In (Some e) es /\ in_id e = v)) Unauthorized (
        exists b, batch_of now es b /\
        s' = change_lists s ids (fun m => sputs m b) /\
        reports ids eo (fun id r => match s id with
          | None => r = M_missing
          | Some sl => exists l, r = M_ok l /\
                       if results then with_ranking (sputs (s_map sl) b) (fun k => shows_all k (map e_id b) l) else l = []
          end) a))
    | Q_m_delete q eid eo =>
      exists ids, lists_of (chosen_read s q) ids /\
      unless (~ may_lists t (fun id => In id ids)) Unauthorized (
      (~ (exists v, denotes eid v) /\ refuse Bad) \/
      exists v, denotes eid v /\ unless (~ may_elem t v) Unauthorized (
        s' = change_lists s ids (fun m => sdel m [v]) /\
        reports ids eo (fun id r => r = match s id with None => M_missing | Some _ => M_ok [] end) a))
    | Q_m_get q eid =>
      exists ids, lists_of (chosen_read s q) ids /\
      unless (~ may_lists t (fun id => In id ids)) Unauthorized (
      (~ (exists v, denotes eid v) /\ refuse Bad) \/
      exists v, denotes eid v /\ unless (~ may_elem t v) Unauthorized (
        s' = s /\ reports ids false (fun id r => match s id with
          | None => r = M_missing
          | Some sl => exists l, r = M_ok l /\ with_ranking (s_map sl) (fun k => shows_all k [v] l)
          end) a))
    | Q_m_verify q _ _ eo =>
      exists ids, lists_of (chosen_manage s q) ids /\ s' = s /\
        reports ids eo (fun id r => r = match s id with None => M_missing | Some _ => M_ok [] end) a
    | Q_m_reindex q eo =>
      exists ids, lists_of (chosen_manage s q) ids /\ s' = s /\
        reports ids eo (fun id r => r = match s id with None => M_missing | Some _ => M_ok [] end) a
    end.
End Meaning.

(** ** Well-formed requests *)
(** field widths of api/app Element; goa checks tie_breaker <= MaxUint32 (design/elements.go) *)
Definition elem_sent (a : apielem) : Prop :=
  in_id a < 2 ^ 64 /\ in_score a < 2 ^ 64 /\ match in_tie a with Some t => t < 2 ^ 32 | None => True end.
(** goa's limits for list sizes (design/lists.go:273-286), keys of a JSON object *)
Definition sizes_sent (merge split : nat) : Prop := (10 <= merge /\ 10 <= split)%nat.
Definition meta_sent (m : meta) : Prop := match m with Some l => NoDup (map fst l) | None => True end.
Definition elems_sent (es : list (option apielem)) : Prop := forall a, In (Some a) es -> elem_sent a.
Definition request_ok (q : request) : Prop :=
  match q with
  | Q_create_list _ _ m merge split _ _ pop => sizes_sent merge split /\ meta_sent m /\ elems_sent pop
  | Q_clone _ _ _ m merge split _ _ => sizes_sent merge split /\ meta_sent m
  | Q_pct _ p k _ => p = 2 ^ k \/ p * 2 ^ 53 <= (2 ^ 53 - 1) * 2 ^ k
  | Q_create _ e _ | Q_put _ _ e _ => elem_sent e
  | Q_get_multi _ ids | Q_around _ _ ids _ => Forall (fun v => v < 2 ^ 64) ids
  | Q_put_multi _ es _ | Q_m_create _ es _ _ | Q_m_put _ es _ _ => elems_sent es
  | _ => True
  end.
(** clocks between 1970 and 2106, generated names not empty *)
Definition env_ok (v : env) : Prop :=
  tick (v_now v) /\ tick (v_seg v) /\ v_ns v <> ""%string /\ v_ni v <> ""%string.
Definition event_ok (ev : event) : Prop :=
  match ev with
  | E_request v w _ q => env_ok v /\ (forall id, env_ok (w id)) /\ request_ok q
  | E_split _ _ now => tick now
  | E_reload _ => True
  end.
(** number of elements a request carries *)
Definition carried (ev : event) : nat :=
  match ev with
  | E_request _ _ _ q =>
    match q with
    | Q_create_list _ _ _ _ _ _ _ es | Q_put_multi _ es _ | Q_m_create _ es _ _ | Q_m_put _ es _ _ => length es
    | Q_create _ _ _ | Q_put _ _ _ _ => 1
    | _ => 0
    end
  | _ => 0
  end%nat.

Definition all_carried (evs : list event) : nat := list_sum (map carried evs).
(** the only thing that may run out: the 32 bit segment numbers a split pass draws (C06) *)
Definition is_split (ev : event) : Prop := match ev with E_split _ _ _ => True | _ => False end.

(** histories: background work changes nothing *)
Inductive history : sdb -> list event -> list (option resp) -> sdb -> Prop :=
| H_end s : history s [] [] s
| H_request s v w t q a s1 evs rs s2 :
    meaning (v_now v) (v_seg v) t s s1 a q -> history s1 evs rs s2 ->
    history s (E_request v w t q :: evs) (Some a :: rs) s2
| H_background s ev evs rs s2 :
    match ev with E_request _ _ _ _ => False | _ => True end -> history s evs rs s2 ->
    history s (ev :: evs) (None :: rs) s2.
