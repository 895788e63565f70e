(** Model of backups: list.go:1847-2006 Backup and RestoreList, and of the backup stream,
    backup/job.go:201-282 and backup/restore.go:41-108.
    Simplified: compression and the storage behind the stream are left out (the stream is the
    bytes given to the compressor); the reads and writes of a restore succeed; a count of segments
    too large for memory is an error here, in the code a panic; negative sizes in a damaged backup
    count as 0. *)
From Coq Require Import Strings.Byte Strings.String.
From Verif.Lib Require Import Prelude ListAux.
From Verif.Model Require Import Element Elements Segment List Msgp Codec Storage.
Open Scope N_scope.

(** list.go:30-44: what a list has besides sizes and segments *)
Record bdesc := mkBD { bd_id : string; bd_set : string; bd_meta : option (list (string * string)); bd_load : bool }.
Definition desc_wlist (d : bdesc) (l : lst) : wlist :=
  WList (bd_id d) (bd_set d) (bd_meta d) (Z.of_nat (l_split l)) (Z.of_nat (l_merge l)) (bd_load d) (l_scores_id l) (l_index_id l).

(** list.go:1847, segment.go:43, backup/job.go:250 *)
Definition backup_version : N := 1.
Definition segment_version : N := 2.
Definition backup_list_version : N := 1.

(** list.go:1894-1913 *)
Definition w_full (s : seg) : wire := w_segment (to_wseg s) ++ w_elements (sg_elems s).
(** list.go:1850-1915 Backup *)
Definition backup (d : bdesc) (l : lst) : wire :=
  w_version backup_version ++ w_list (desc_wlist d l) ++
  w_version segments_version ++ w_segments (to_wsegs (l_scores l)) ++
  w_version segment_version ++ w_int (Z.of_nat (length (ss_segs (l_scores l)))) ++ flat_map w_full (ss_segs (l_scores l)).

Definition r_ver (v : N) : reader unit := fun b => let '(x, r) := r_version b in if x =? v then Some (tt, r) else None.
(** list.go:1964-1990: make with a negative capacity panics *)
Fixpoint r_full (n : nat) : reader (outcome (list seg)) :=
  match n with
  | O => ret (Done [])
  | S n =>
    w <- r_segment ;;
    if (w_n w <? 0)%Z then ret Panic
    else e <- r_elements ;; o <- r_full n ;;
         ret (match o with Done l => Done (of_wseg w e :: l) | x => x end)
  end.
(** list.go:1920-2006 RestoreList.  [newid]: the new ID with the new name of the segments;
    [ni]: the name of the new index *)
Definition restore_list (newid : option (string * string)) (ni : string) (now : N) (sc : list nat) : reader (outcome (bdesc * lst)) :=
  _ <- r_ver backup_version ;; w <- r_list ;;
  _ <- r_ver segments_version ;; ws <- r_segments ;;
  _ <- r_ver segment_version ;; n <- r_int ;;
  if (n <? 0)%Z then ret Panic
  else o <- r_full (Z.to_nat n) ;;
    ret (match o with
    | Done ss =>
      let ns := match newid with Some (_, s) => s | None => ws_id ws end in
      let d := mkBD (match newid with Some (i, _) => i | None => wl_id w end) (wl_set w) (wl_meta w) (wl_load w) in
      let scores := mkSegs ns (map (fun s => touch now (set_parent ns s)) ss) (next_of (ws_next ws)) (ws_index ws) [] in
      let sid := match newid with Some (_, s) => s | None => wl_scores w end in
      match reindex_list ni now sc (mkL (Z.to_nat (wl_merge w)) (Z.to_nat (wl_split w)) sid ni scores (mkSegs ni [] 1 true [])) with
      | Done l => Done (d, l)
      | Panic => Panic | Diverge => Diverge | Exhausted => Exhausted
      end
    | Panic => Panic | Diverge => Diverge | Exhausted => Exhausted
    end).

(** ** the stream *)
(** the lists of a server by ID *)
Definition db := string -> option (bdesc * lst).
Definition db_put (m : db) (k : string) (v : option (bdesc * lst)) : db := fun k' => if String.eqb k' k then v else m k'.
(** backup/job.go:252-282 backupList *)
Definition record_bytes (d : bdesc) (l : lst) : wire :=
  w_bool true ++ w_version backup_list_version ++ w_str (bd_id d) ++ w_bin (backup d l).
(** backup/job.go:204-237: IDs without a list are skipped *)
Definition records (m : db) (ids : list string) : wire :=
  flat_map (fun id => match m id with Some (d, l) => record_bytes d l | None => [] end) ids.
Definition job_bytes (m : db) (ids : list string) : wire := records m ids ++ w_bool false.

(** what each list of a restore is given: segment name, index name, time, order of a sort *)
Definition given := (string * string * N * list nat)%type.
(** the result of Restore: restored and skipped, an error, a panic.  res.Failed is a nil map
    (restore.go:42), so recording a failure (line 99) panics. *)
Inductive jres := JDone (restored skipped : nat) | JErr | JPanic.
Definition r_record : reader (string * wire) :=
  _ <- r_ver backup_list_version ;; id <- r_str ;; p <- r_bin ;; ret (id, p).
(** backup/restore.go:57-105.  Fuel: one more than the bytes is enough, every round reads some *)
Fixpoint restore_loop (fuel : nat) (fr : nat -> given) (pre suf : string) (replace : bool) (r s : nat) (m : db) (b : wire) : jres * db :=
  match fuel with
  | O => (JErr, m)
  | S f =>
    match r_bool b with
    | None => (JErr, m)
    | Some (false, _) => (JDone r s, m)
    | Some (true, b) =>
      match r_record b with
      | None => (JErr, m)
      | Some ((id, p), b) =>
        let dst := (pre ++ id ++ suf)%string in
        match m dst, replace with
        | Some _, false => restore_loop f fr pre suf replace r (S s) m b
        | _, _ =>
          let m := db_put m dst None in
          let '(ns, ni, now, sc) := fr (r + s)%nat in
          match restore_list (Some (dst, ns)) ni now sc p with
          | None => (JPanic, m)
          | Some (Done x, _) => restore_loop f fr pre suf replace (S r) s (db_put m dst (Some x)) b
          | Some (_, _) => (JPanic, m)
          end
        end
      end
    end
  end.
Definition restore_all fr pre suf replace m b := restore_loop (S (length b)) fr pre suf replace 0 0 m b.
