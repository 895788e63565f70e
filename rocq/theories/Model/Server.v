(** Model of the request handlers in /repo/api/elements.go, api/lists.go, api/multilist.go and
    of api/morph, on top of the list operations of Model/List.v.  Requests arrive one after the
    other (overlapping calls on one list: Model/Locks.v; the goroutines of one cross-list
    request: Model/Fanout.v).  Parsing of HTTP and JSON, the checks generated by goa, storage
    errors, cancellation and the shutdown check (UpdateRequest) are not modelled. *)
From Coq Require Import Strings.String Strings.Ascii Strings.Byte.
From Verif.Lib Require Import Prelude ListAux Bytes.
From Verif.Model Require Import Element Elements Segment List Access Api.
From Verif.Model Require Lists.
Open Scope N_scope.

Definition meta := option (list (bytes * bytes)).
(** list.go:30-60 List without its ID *)
Record entry := Entry { n_set : bytes; n_meta : meta; n_load : bool; n_list : lst }.
(** db.Lists (lists.go): a map from IDs to lists *)
Definition db := list (bytes * entry).
Definition dget (d : db) (id : bytes) : option entry :=
  match find (fun p => beq id (fst p)) d with Some p => Some (snd p) | None => None end.
Definition ddel (d : db) (id : bytes) : db := filter (fun p => negb (beq id (fst p))) d.
Definition dput (d : db) (id : bytes) (e : entry) : db := (id, e) :: ddel d id.
Definition with_list (e : entry) (l : lst) : entry := Entry (n_set e) (n_meta e) (n_load e) l.

(** What is not determined by the request: clock readings of the handler and of the list
    operation, generated names, orders left by goroutines, maps and unstable sorting. *)
Record env := Env {
  v_now : N; v_seg : N; v_ns : string; v_ni : string;
  v_sc : list nat; v_sc1 : list nat; v_sc2 : list nat;
  v_scd : list nat; v_scds : nat -> list nat; v_sch : nat -> list nat; v_want : nat
}.

(** api/app Element *)
Record apielem := AE { in_id : N; in_score : N; in_tie : option N; in_payload : list byte }.
(** api/morph/elements.go:193-213 [ApiElements.Elements]; None = nil pointer *)
Definition to_elem (a : apielem) : element :=
  mkE (in_score a) (in_id a) (in_payload a) (match in_tie a with Some t => t | None => 0 end) 0.
Definition to_elements (l : list (option apielem)) : elements :=
  flat_map (fun o => match o with Some a => [to_elem a] | None => [] end) l.

(** api/morph/elements.go:229-239 [NewApiElementIDsString]; None = error *)
Fixpoint parse_ids (l : list bytes) : option (list N) :=
  match l with
  | [] => Some []
  | s :: r => match parse_uint s, parse_ids r with Some v, Some vs => Some (v :: vs) | _, _ => None end
  end.

(** list-id.go:19-40 [ListIDs.Deduplicate]: sort, then drop equal neighbours *)
Fixpoint drop_equal (l : list bytes) : list bytes :=
  match l with
  | a :: ((b :: _) as r) => if beq a b then drop_equal r else a :: drop_equal r
  | _ => l
  end.
Definition dedup_lids (l : list bytes) : list bytes := drop_equal (sort_by Lists.blt l).
(** api/morph/lists.go:74-84 [APIListIDs.IDs] *)
Definition api_ids (l : list bytes) : list bytes :=
  dedup_lids (filter (fun s => negb (beq s [])) (map trim l)).

(** lists, match_metadata and all_in_sets of a cross-list request *)
Record sel := Sel { q_lists : list bytes; q_meta : list (bytes * bytes); q_sets : list bytes }.
(** the lists in the order in which the map enumerates them *)
Definition enum (sc : list nat) (d : db) : list Lists.lst :=
  map (fun p => Lists.Lst (fst p) (n_set (snd p)) (n_meta (snd p)) 0) (permute sc d).
(** api/multilist.go:53-57 (Create), 199-203 (Put): sets are looked at only next to metadata *)
Definition select_write (sc : list nat) (d : db) (q : sel) : list bytes :=
  let ids := api_ids (q_lists q) in
  dedup_lids (match q_meta q with [] => ids | _ => ids ++ Lists.match_all (enum sc d) (q_meta q) (q_sets q) end).
(** api/multilist.go:108-118 (Delete), 152-161 (Get) *)
Definition select_read (sc : list nat) (d : db) (q : sel) : list bytes :=
  dedup_lids (api_ids (q_lists q) ++ Lists.match_all (enum sc d) (q_meta q) (q_sets q)).
(** api/multilist.go:243-251 (Verify), 309-317 (Reindex), 344-352 (Backup) *)
Definition select_manage (sc : list nat) (d : db) (q : sel) : list bytes :=
  match q_lists q, q_meta q with
  | [], [] => Lists.all_ids (enum sc d)
  | _, _ => select_write sc d q
  end.

Inductive request :=
| Q_create_list (id set : bytes) (m : meta) (merge split : nat) (load replace : bool) (populate : list (option apielem))
| Q_delete_list (id : bytes)
| Q_clone (src id set : bytes) (m : meta) (merge split : nat) (load : bool) (populate : bool)
| Q_get_list (id : bytes) (top_bottom : bool)
| Q_pct (id : bytes) (m k : N) (range : nat)
| Q_range (id : bytes) (from_top from_bottom : option nat) (limit : nat)
| Q_reindex (id : bytes)
| Q_repair (id : bytes)
| Q_verify (id : bytes) (repair : bool)
| Q_create (id : bytes) (e : apielem) (range : nat)
| Q_delete (id eid : bytes)
| Q_delete_multi (id : bytes) (eids : list bytes)
| Q_get (id eid : bytes) (range : nat)
| Q_get_multi (id : bytes) (eids : list N)
| Q_around (id eid : bytes) (eids : list N) (range : nat)
| Q_put (id eid : bytes) (e : apielem) (range : nat)
| Q_put_multi (id : bytes) (es : list (option apielem)) (results : bool)
| Q_m_create (q : sel) (es : list (option apielem)) (results errors_only : bool)
| Q_m_put (q : sel) (es : list (option apielem)) (results errors_only : bool)
| Q_m_delete (q : sel) (eid : bytes) (errors_only : bool)
| Q_m_get (q : sel) (eid : bytes)
| Q_m_verify (q : sel) (repair elements errors_only : bool)
| Q_m_reindex (q : sel) (errors_only : bool).

(** one entry of Success or Errors in a cross-list answer *)
Inductive mres := M_ok (l : list shown) | M_missing | M_conflict | M_invalid.
Inductive resp :=
| Unauthorized | Missing | Bad | Conflict | Failed | Done_empty | Crashed
| A_list (id set : bytes) (m : meta) (merge split : nat) (load : bool) (n : nat) (top bottom : option shown)
| A_elem (c : shown) (above below : list shown) (prev : option shown)
| A_elems (found : list shown) (missing : list N)
| A_around (a : around)
| A_range (l : list shown)
| A_verified (ok : bool)
| A_multi (l : list (bytes * mres)).

(** list.go:1011-1053 [Stats] and api/morph/lists.go:34-66 [List.Full], without segment and cache counts *)
Definition list_info (id : bytes) (e : entry) (elems : bool) : resp :=
  let l := n_list e in
  let n := len l in
  let top := match get_rank_top l 0 1 with Some (x :: _) => Some (mkSh x 0 (Z.of_nat n - 1)) | _ => None end in
  let bot := match get_rank_bottom l 0 1 with Some (x :: _) => Some (mkSh x (Z.of_nat n - 1) 0) | _ => None end in
  A_list id (n_set e) (n_meta e) (l_merge l) (l_split l) (n_load e) n
         (if elems then top else None) (if elems then bot else None).

(** api/morph/elements.go:48-72 [Full], 102-131 [FullUpdate] *)
Definition show_full (re : ranked_element) : resp :=
  let '(ab, be) := full re in A_elem (show re) ab be (option_map show (re_before re)).

(** a list operation that needs the model to go on *)
Definition bind {A B} (o : outcome A) (f : A -> outcome B) : outcome B :=
  match o with Done x => f x | Panic => Panic | Diverge => Diverge | Exhausted => Exhausted end.
Definition keep (d : db) (r : resp) : outcome (db * resp) := Done (d, r).
(** the list ID check and lookup that start the element handlers, e.g. api/elements.go:38-46 *)
Definition on_list (d : db) (t : token) (id : bytes) (f : entry -> outcome (db * resp)) : outcome (db * resp) :=
  if negb (has_list t [id]) then keep d Unauthorized
  else match dget d id with None => keep d Missing | Some e => f e end.
(** handlers without access check, e.g. api/lists.go:229-243 *)
Definition on_any_list (d : db) (id : bytes) (f : entry -> outcome (db * resp)) : outcome (db * resp) :=
  match dget d id with None => keep d Missing | Some e => f e end.

(** list.go:146-197 [NewList] as called by Create and Clone: the errors of the options *)
Definition bad_options (set : bytes) (merge split : nat) : bool := negb (sizes_ok merge split) || beq set [].

(** the batch of PutMulti (api/elements.go:338-340), Put (api/multilist.go:208-210), list Create
    (api/lists.go:49-51): UpdateTime, then Deduplicate *)
Definition put_batch (v : env) (es : list (option apielem)) : elements :=
  fst (deduplicate (v_scd v) (update_time (v_now v) (to_elements es))).
(** the batch of Create (api/multilist.go:62-64): the other way round *)
Definition create_batch (v : env) (es : list (option apielem)) : elements :=
  update_time (v_now v) (fst (deduplicate (v_scd v) (to_elements es))).

Definition do_update (v : env) (e : elements) (l : lst) : lst :=
  update_elements (fun _ => v_seg v) (fun _ => v_seg v) (v_seg v) (v_sc v) e l.
Definition do_delete (v : env) (ids : list N) (l : lst) : lst :=
  delete_elements (v_seg v) (v_sc1 v) (v_sc2 v) ids l.
Definition do_get (v : env) (l : lst) (ids : list N) (radius : nat) : list ranked_element :=
  get_elements (v_sc1 v) (v_sc2 v) l ids radius.
Definition do_repair (v : env) (l : lst) : outcome lst :=
  repair (v_ns v) (v_ni v) (v_seg v) (fun _ => true) (v_scds v) (v_scd v) (v_sc v) (v_sch v) (v_want v) l.

(** api/multilist.go:468-521 [onEveryList], one list after the other *)
Definition one_list (d : db) (id : bytes) (f : entry -> outcome (lst * mres)) : outcome (db * mres) :=
  match dget d id with
  | None => Done (d, M_missing)
  | Some e => bind (f e) (fun p => Done (dput d id (with_list e (fst p)), snd p))
  end.
Fixpoint every_list (f : bytes -> entry -> outcome (lst * mres)) (d : db) (ids : list bytes)
  : outcome (db * list (bytes * mres)) :=
  match ids with
  | [] => Done (d, [])
  | id :: r =>
    bind (one_list d id (f id)) (fun p =>
    bind (every_list f (fst p) r) (fun q => Done (fst q, (id, snd p) :: snd q)))
  end.
(** errors_only: Success is dropped *)
Definition is_error (r : mres) : bool := match r with M_ok _ => false | _ => true end.
Definition report (errors_only : bool) (l : list (bytes * mres)) : resp :=
  A_multi (if errors_only then filter (fun p => is_error (snd p)) l else l).

(** api/multilist.go:70-92: what Create does on each list *)
Definition m_create (v : env) (es : elements) (results : bool) (e : entry) : outcome (lst * mres) :=
  let l := n_list e in
  match do_get v l (map e_id es) 0 with
  | _ :: _ => Done (l, M_conflict)
  | [] => bind (insert (v_seg v) (v_sch v) es l) (fun l' =>
          Done (l', M_ok (if results then map show (do_get v l' (map e_id es) 0) else [])))
  end.
(** api/multilist.go:217-224 *)
Definition m_put (v : env) (es : elements) (results : bool) (e : entry) : outcome (lst * mres) :=
  let l := n_list e in
  let l' := do_update v es l in
  Done (l', M_ok (if results then map show (update_results (v_sc1 v) (v_sc2 v) l l' es 0) else [])).
(** api/multilist.go:133-139 *)
Definition m_delete (v : env) (ids : list N) (e : entry) : outcome (lst * mres) :=
  Done (do_delete v ids (n_list e), M_ok []).
(** api/multilist.go:176-183 *)
Definition m_get (v : env) (ids : list N) (e : entry) : outcome (lst * mres) :=
  Done (n_list e, M_ok (map show (do_get v (n_list e) ids 0))).
(** api/multilist.go:262-289 *)
Definition m_check (check : lst -> bool) (v : env) (rep : bool) (l : lst) (k : lst -> outcome (lst * mres)) : outcome (lst * mres) :=
  if check l then k l
  else if rep then bind (do_repair v l) (fun l' => if check l' then k l' else Done (l', M_invalid))
  else Done (l, M_invalid).
Definition m_verify (v : env) (rep elems : bool) (e : entry) : outcome (lst * mres) :=
  m_check verify v rep (n_list e) (fun l =>
    if elems then m_check verify_elements v rep l (fun l => Done (l, M_ok [])) else Done (l, M_ok [])).
(** api/multilist.go:320-326 *)
Definition m_reindex (v : env) (e : entry) : outcome (lst * mres) :=
  bind (reindex_list (v_ni v) (v_seg v) (v_sc v) (n_list e)) (fun l => Done (l, M_ok [])).

(** [v]: choices of the handler itself, [w]: of its work on each list of a cross-list request *)
Definition handle (d : db) (v : env) (w : bytes -> env) (t : token) (q : request) : outcome (db * resp) :=
  match q with
  (* api/lists.go:28-80 *)
  | Q_create_list id set m merge split load replace pop =>
    match dget d id, replace with
    | Some _, false => keep d Conflict
    | _, _ =>
      if bad_options set merge split then keep d Bad
      else bind (new_list merge split (v_ns v) (v_ni v) (v_seg v) (v_sc v) (v_sch v) (v_want v) (put_batch v pop)) (fun l =>
           let e := Entry set m load l in Done (dput d id e, list_info id e true))
    end
  (* api/lists.go:84-98, manager.go:203-210 *)
  | Q_delete_list id => Done (ddel d id, Done_empty)
  (* api/lists.go:315-361 *)
  | Q_clone src id set m merge split load pop =>
    on_any_list d src (fun org =>
      match dget d id with
      | Some _ => keep d Conflict
      | None =>
        if pop then keep d Bad
        else if bad_options set merge split then keep d Failed
        else bind (clone_elements merge split (v_ns v) (v_ni v) (v_seg v) (n_list org)) (fun l =>
             let e := Entry set m load l in Done (dput d id e, list_info id e true))
      end)
  (* api/lists.go:101-117 *)
  | Q_get_list id tb => on_list d t id (fun e => keep d (list_info id e tb))
  (* api/lists.go:120-155, from_top/100 = m/2^k; a panic is answered by goa's Recover (services.go:52) *)
  | Q_pct id m k range => on_list d t id (fun e =>
      match get_percentile (n_list e) m k range with
      | Done (Some re) => keep d (show_full re)
      | Done None => keep d Missing
      | _ => keep d Crashed
      end)
  (* api/lists.go:158-205 *)
  | Q_range id ft fb n =>
    if negb (has_list t [id]) then keep d Unauthorized
    else match ft, fb with
         | None, None | Some _, Some _ => keep d Bad
         | Some o, None => on_any_list d id (fun e =>
             keep d (match range_top (n_list e) o n with Some l => A_range l | None => Missing end))
         | None, Some o => on_any_list d id (fun e =>
             keep d (match range_bottom (n_list e) o n with Some l => A_range l | None => Missing end))
         end
  (* api/lists.go:229-249 *)
  | Q_reindex id => on_any_list d id (fun e =>
      bind (reindex_list (v_ni v) (v_seg v) (v_sc v) (n_list e)) (fun l =>
      let e := with_list e l in Done (dput d id e, list_info id e true)))
  (* api/lists.go:251-271 *)
  | Q_repair id => on_any_list d id (fun e =>
      bind (do_repair v (n_list e)) (fun l => Done (dput d id (with_list e l), A_verified true)))
  (* api/lists.go:282-312 *)
  | Q_verify id rep => on_any_list d id (fun e =>
      if verify (n_list e) && verify_elements (n_list e) then keep d (A_verified true)
      else if rep then bind (do_repair v (n_list e)) (fun l => Done (dput d id (with_list e l), A_verified true))
      else keep d (A_verified false))
  (* api/elements.go:30-76 *)
  | Q_create id a range => on_list d t id (fun e =>
      if negb (has_elem t [in_id a]) then keep d Unauthorized
      else match do_get v (n_list e) [in_id a] range with
           | _ :: _ => keep d Conflict
           | [] => bind (insert (v_seg v) (v_sch v) (update_time (v_now v) (to_elements [Some a])) (n_list e)) (fun l =>
                   Done (dput d id (with_list e l),
                         match do_get v l [in_id a] range with [re] => show_full re | _ => Missing end))
           end)
  (* api/elements.go:79-110 *)
  | Q_delete id eid => on_list d t id (fun e =>
      match parse_ids [eid] with
      | None => keep d Bad
      | Some ids => if negb (has_elem t ids) then keep d Unauthorized
                    else Done (dput d id (with_list e (do_delete v ids (n_list e))), Done_empty)
      end)
  (* api/elements.go:113-143 *)
  | Q_delete_multi id eids => on_list d t id (fun e =>
      match parse_ids eids with
      | None => keep d Bad
      | Some ids => if negb (has_elem t ids) then keep d Unauthorized
                    else Done (dput d id (with_list e (do_delete v ids (n_list e))), Done_empty)
      end)
  (* api/elements.go:146-175 *)
  | Q_get id eid range => on_list d t id (fun e =>
      match parse_ids [eid] with
      | None => keep d Bad
      | Some ids => if negb (has_elem t ids) then keep d Unauthorized
                    else match do_get v (n_list e) ids range with [] => keep d Missing | re :: _ => keep d (show_full re) end
      end)
  (* api/elements.go:178-217 *)
  | Q_get_multi id ids => on_list d t id (fun e =>
      match dedup_ids ids with
      | [] => keep d (A_elems [] [])
      | _ => if negb (has_elem t (dedup_ids ids)) then keep d Unauthorized
             else let '(f, nf) := get_multi (v_sc1 v) (v_sc2 v) (n_list e) ids in keep d (A_elems f nf)
      end)
  (* api/elements.go:221-276 *)
  | Q_around id eid ids range => on_list d t id (fun e =>
      match parse_uint eid with
      | None => keep d Bad
      | Some x => if negb (has_elem t (dedup_ids (ids ++ [x]))) then keep d Unauthorized
                  else match get_around (v_sc1 v) (v_sc2 v) (n_list e) x ids range with
                       | None => keep d Missing
                       | Some a => keep d (A_around a)
                       end
      end)
  (* api/elements.go:279-319 *)
  | Q_put id eid a range => on_list d t id (fun e =>
      match parse_uint eid with
      | None => keep d Bad
      | Some x =>
        if negb (x =? in_id a) then keep d Bad
        else if negb (has_elem t [x]) then keep d Unauthorized
        else let es := update_time (v_now v) (to_elements [Some a]) in
             let l' := do_update v es (n_list e) in
             Done (dput d id (with_list e l'),
                   match update_results (v_sc1 v) (v_sc2 v) (n_list e) l' es range with
                   | [] => Missing
                   | re :: _ => show_full re
                   end)
      end)
  (* api/elements.go:322-357 *)
  | Q_put_multi id es results => on_list d t id (fun e =>
      let es := put_batch v es in
      if negb (has_elem t (map e_id es)) then keep d Unauthorized
      else let l' := do_update v es (n_list e) in
           Done (dput d id (with_list e l'),
                 A_elems (if results then map show (sort_ranked (update_results (v_sc1 v) (v_sc2 v) (n_list e) l' es 0)) else []) []))
  (* api/multilist.go:44-97 *)
  | Q_m_create q es results eo =>
    let ids := select_write (v_sc v) d q in
    if negb (has_list t ids) then keep d Unauthorized
    else let es := create_batch v es in
         if negb (has_elem t (map e_id es)) then keep d Unauthorized
         else bind (every_list (fun id => m_create (w id) es results) d ids) (fun p => Done (fst p, report eo (snd p)))
  (* api/multilist.go:190-231 *)
  | Q_m_put q es results eo =>
    let ids := select_write (v_sc v) d q in
    if negb (has_list t ids) then keep d Unauthorized
    else let es := put_batch v es in
         if negb (has_elem t (map e_id es)) then keep d Unauthorized
         else bind (every_list (fun id => m_put (w id) es results) d ids) (fun p => Done (fst p, report eo (snd p)))
  (* api/multilist.go:100-145 *)
  | Q_m_delete q eid eo =>
    let ids := select_read (v_sc v) d q in
    if negb (has_list t ids) then keep d Unauthorized
    else match parse_ids [eid] with
         | None => keep d Bad
         | Some es => if negb (has_elem t es) then keep d Unauthorized
                      else bind (every_list (fun id => m_delete (w id) es) d ids) (fun p => Done (fst p, report eo (snd p)))
         end
  (* api/multilist.go:148-187 *)
  | Q_m_get q eid =>
    let ids := select_read (v_sc v) d q in
    if negb (has_list t ids) then keep d Unauthorized
    else match parse_ids [eid] with
         | None => keep d Bad
         | Some es => if negb (has_elem t es) then keep d Unauthorized
                      else bind (every_list (fun id => m_get (w id) es) d ids) (fun p => Done (fst p, report false (snd p)))
         end
  (* api/multilist.go:234-297 *)
  | Q_m_verify q rep elems eo =>
    bind (every_list (fun id => m_verify (w id) rep elems) d (select_manage (v_sc v) d q)) (fun p => Done (fst p, report eo (snd p)))
  (* api/multilist.go:300-333 *)
  | Q_m_reindex q eo =>
    bind (every_list (fun id => m_reindex (w id)) d (select_manage (v_sc v) d q)) (fun p => Done (fst p, report eo (snd p)))
  end.

(** What happens to a server: requests, background split passes, lists dropped from memory and
    loaded again (Model/Manager.v, Model/Storage.v) *)
Inductive event :=
| E_request (v : env) (w : bytes -> env) (t : token) (q : request)
| E_split (id : bytes) (merge : bool) (now : N)
| E_reload (id : bytes).
Definition apply_list (d : db) (id : bytes) (f : lst -> outcome lst) : outcome (db * option resp) :=
  match dget d id with
  | None => Done (d, None)
  | Some e => bind (f (n_list e)) (fun l => Done (dput d id (with_list e l), None))
  end.
Definition sstep (d : db) (ev : event) : outcome (db * option resp) :=
  match ev with
  | E_request v w t q => bind (handle d v w t q) (fun p => Done (fst p, Some (snd p)))
  | E_split id merge now => apply_list d id (split_pass merge now)
  | E_reload id => apply_list d id (fun l => Done (reload l))
  end.
Fixpoint srun (d : db) (evs : list event) : outcome (db * list (option resp)) :=
  match evs with
  | [] => Done (d, [])
  | ev :: r => bind (sstep d ev) (fun p => bind (srun (fst p) r) (fun q => Done (fst q, snd p :: snd q)))
  end.
