(** Model of what a running server knows of its lists and what the list file knows: the map of
    lists (/repo/lists.go), lists in memory and not (list.go:307-402 loadSegments, 1057-1117
    ReleaseSegments, lists.go:241-265 Prune), the saver (lists.go:88-143, manager.go:64-98,186-200)
    and a stop of the process followed by a start (lists.go:146-226).
    The bytes of the file, its backup and start-up errors are in Model/Manager.v (C32, C33): here
    the file is the list of descriptors that was saved.  Calls on lists are whole (Model/Storage.v);
    the saver runs between them list by list, and within the calls that leave a list without
    names for a while.  Sets, metadata and LoadIndex are left out. *)
From Coq Require Import Strings.String Strings.Ascii.
From Verif.Lib Require Import Prelude ListAux Bytes.
From Verif.Model Require Import Element Elements Segment List Keys Storage.
Open Scope N_scope.

(** list.go:27-60: what is stored of a list *)
Record desc := mkD { ds_id : string; ds_merge : nat; ds_split : nat; ds_scores : string; ds_index : string }.

(** [y_open]: lists whose segments are in memory; [y_cold]: lists of which only the descriptor is;
    [y_save]: a running save: the lists that were there when it began and still are, and the
    descriptors it has encoded *)
Record sys := mkY { y_st : store; y_c : cache; y_open : list (string * loaded); y_cold : list desc; y_file : list desc;
  y_save : option (list string * list desc) }.
Definition lists_of (s : sys) : world := mkW (y_st s) (y_c s) (map snd (y_open s)).
Definition desc_of (p : string * loaded) : desc :=
  let l := d_l (snd p) in mkD (fst p) (l_merge l) (l_split l) (l_scores_id l) (l_index_id l).
Definition descs (s : sys) : list desc := map desc_of (y_open s) ++ y_cold s.
Definition ids (s : sys) : list string := map ds_id (descs s).

(** list.go:307-402 loadSegments of a list that is not in memory, up to the rebuilding of the
    index.  [Nil]: the names are empty, nothing is loaded and no error is returned: the caller
    goes on with nil segments. *)
Inductive opened := Ready (d : loaded) | NoIndex (s : segs) | Failed | Nil.
Definition unset (s : string) : bool := String.eqb s "".
Definition open_list (cfg : bool) (st : store) (x : desc) : opened :=
  if unset (ds_scores x) then Nil
  else match load_segs st (ds_scores x) with
       | None => Failed                                             (* 370-375 *)
       | Some s =>
         if unset (ds_index x) then Nil
         else match load_segs st (ds_index x) with
              | Some i => Ready (mkLd (mkL (ds_merge x) (ds_split x) (ds_scores x) (ds_index x) s i) cfg cfg)
              | None => NoIndex s
              end
       end.
(** list.go:379-391, 733-781: the index is built anew from the scores, under the name [ni].
    The empty index that stands for the missing one has the name [n0] (segments.go:52-62). *)
Definition rebuild (cfg : bool) (st : store) (c : cache) (x : desc) (s : segs) (n0 ni : string) (now : N) (sc : list nat) : option (store * cache * loaded) :=
  match fetch_segs cfg c st s with
  | None => None
  | Some s =>
    let l := mkL (ds_merge x) (ds_split x) (ds_scores x) (ds_index x) s (mkSegs n0 [] 1 true []) in
    match reindex_list ni now sc l with
    | Done l' => let es := reindex_evs (fun _ => []) false l l' in
                 Some (evs_store es st, evs_cache es c, mkLd l' cfg false)
    | _ => None
    end
  end.

Definition drop_cold (id : string) (l : list desc) : list desc := filter (fun x => negb (String.eqb (ds_id x) id)) l.
Definition find_desc (id : string) (l : list desc) : option desc := find (fun x => String.eqb (ds_id x) id) l.

Inductive event :=
| ECall (nid : string) (a : act) (seen : bool)  (** a call on lists in memory; [nid]: the ID of a new list;
                                                    [seen]: the saver visits the list in the middle of the call *)
| EOpen (id : string) (lock : bool) (n0 ni : string) (now : N) (sc : list nat) (** loadSegments; [lock]: with segsLockUpdates *)
| ERelease (i : nat)                             (** list.go:1057-1117 *)
| EDrop (id : string)                            (** list.go:1120-1131, manager.go:203-210: delete a list that does not load *)
| EClear (id ns ni : string) (now : N)           (** list.go:1797-1806: Repair of a list that does not load makes it empty *)
| EBegin | EVisit (id : string) | EEnd | EFail   (** the saver; [EFail]: the write fails and leaves the old file *)
| EStop.

(** the list that a call works on, if the call empties its names before it gives new ones or none:
    list.go:1150-1166 deleteAll in Repair and Populate (886-900) and DeleteAll *)
Definition blanks (a : act) : option nat :=
  match a with
  | AOp i (ORepair _ _ _ _ _ _ _ _) _ | AOp i (OPopulate _ _ _ _ _ _ _) _ | ARemove i _ => Some i
  | _ => None
  end.
Definition has (id : string) (l : list string) : bool := existsb (String.eqb id) l.
(** lists.go:121-132: Range visits no ID twice *)
Definition visit (x : desc) (sv : option (list string * list desc)) : option (list string * list desc) :=
  match sv with
  | Some (todo, buf) => if has (ds_id x) (map ds_id buf) then sv else Some (todo, buf ++ [x])
  | None => None
  end.
Definition forget (id : string) (sv : option (list string * list desc)) : option (list string * list desc) :=
  match sv with Some (todo, buf) => Some (filter (fun i => negb (String.eqb i id)) todo, buf) | None => None end.

(** what the saver has after a call *)
Definition save_after (s : sys) (a : act) (seen : bool) : option (list string * list desc) :=
  match blanks a with
  | Some i =>
    match nth_error (y_open s) i with
    | Some (id, d) =>
      let sv := if seen then visit (mkD id (l_merge (d_l d)) (l_split (d_l d)) "" "") (y_save s) else y_save s in
      match a with ARemove _ _ => forget id sv | _ => sv end
    | None => y_save s
    end
  | None => y_save s
  end.
(** the IDs of the lists in memory after a call *)
Definition ids_after (s : sys) (nid : string) (a : act) : list string :=
  let l := map fst (y_open s) in
  match a with
  | ANew _ _ _ _ _ _ _ _ _ _ | AClone _ _ _ _ _ _ => l ++ [nid]
  | ARemove i _ => del_nth i l
  | _ => l
  end.

(** list.go:209-235 initEmptyList, as NewList without elements calls it (list.go:184-188) *)
Definition empty_list (x : desc) (ns ni : string) (now : N) : act :=
  ANew (ds_merge x) (ds_split x) ns ni now [] (fun _ => []) 0 [] (fun _ _ => []).

Definition next (cfg : bool) (s : sys) (e : event) : option sys :=
  let '(mkY st c op cold file sv) := s in
  match e with
  | ECall nid a seen =>
    match act_on cfg (lists_of s) a with
    | Some w => Some (mkY (w_st w) (w_c w) (combine (ids_after s nid a) (w_ls w)) cold file (save_after s a seen))
    | None => None
    end
  | EOpen id lock n0 ni now sc =>
    match find_desc id cold with
    | Some x =>
      match open_list cfg st x with
      | Ready d => Some (mkY st c (op ++ [(id, d)]) (drop_cold id cold) file sv)
      | NoIndex ss =>
        if lock then match rebuild cfg st c x ss n0 ni now sc with
                     | Some (st, c, d) => Some (mkY st c (op ++ [(id, d)]) (drop_cold id cold) file sv)
                     | None => None
                     end
        else Some s                                                 (* 738-740: an error *)
      | Failed | Nil => Some s
      end
    | None => None
    end
  | ERelease i =>
    match nth_error op i with
    | Some p => Some (mkY st c (del_nth i op) (cold ++ [desc_of p]) file sv)
    | None => None
    end
  | EDrop id =>
    match find_desc id cold with
    | Some x => match open_list cfg st x with
                | Failed | Nil => Some (mkY st c op (drop_cold id cold) file (forget id sv))
                | _ => None
                end
    | None => None
    end
  | EClear id ns ni now =>
    match find_desc id cold with
    | Some x =>
      match open_list cfg st x, act_on cfg (lists_of s) (empty_list x ns ni now) with
      | Failed, Some w => Some (mkY (w_st w) (w_c w) (combine (map fst op ++ [id]) (w_ls w)) (drop_cold id cold) file sv)
      | _, _ => None
      end
    | None => None
    end
  | EBegin => match sv with None => Some (mkY st c op cold file (Some (ids s, []))) | Some _ => None end
  | EVisit id =>
    match find_desc id (descs s) with
    | Some x => Some (mkY st c op cold file (visit x sv))
    | None => None
    end
  | EEnd =>
    match sv with
    | Some (todo, buf) => if forallb (fun id => has id (map ds_id buf)) todo then Some (mkY st c op cold buf None) else None
    | None => None
    end
  | EFail => match sv with Some _ => Some (mkY st c op cold file None) | None => None end
  | EStop => Some (mkY st (fun _ => None) [] file file None)
  end.
