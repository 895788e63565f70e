(** What a backup must bring back. *)
From Coq Require Import Strings.Byte Strings.String.
From Verif.Lib Require Import Prelude.
From Verif.Model Require Import Element Elements Segment List Codec Storage Backup.
From Verif.Spec Require Import RankSpec QuerySpec HistorySpec AnswerSpec CodecSpec StorageSpec.
Open Scope N_scope.

(** a list with contents [m] whose descriptor, names and sizes fit the format, and that can be
    indexed *)
Definition sound (g s : nat) (d : bdesc) (l : lst) (m : smap) : Prop :=
  reachable g s l m /\ map_fits m /\ short_str (bd_id d) /\ short_str (bd_set d) /\ meta_fits (meta_of (bd_meta d)) /\
  int64 (Z.of_nat g) /\ int64 (Z.of_nat s) /\ short_str (l_scores_id l) /\ short_str (l_index_id l) /\
  (2 <= g + s)%nat /\ sized m (fun n => N.of_nat n < max_u32).

(** [d'], [l'] are [d], [l] under the ID [id]: same set, metadata, load flag, sizes and contents *)
Definition same_list (id : string) (d : bdesc) (l : lst) (d' : bdesc) (l' : lst) : Prop :=
  bd_id d' = id /\ bd_set d' = bd_set d /\ meta_of (bd_meta d') = meta_of (bd_meta d) /\ bd_load d' = bd_load d /\
  forall g s m, reachable g s l m -> reachable g s l' m.

(** what the environment gives to a restore *)
Definition given_ok (f : given) : Prop :=
  let '(ns, ni, now, _) := f in ns <> ""%string /\ ni <> ""%string /\ tick now.

(** a server whose lists can all be backed up *)
Definition sound_db (m : db) : Prop :=
  forall id d l, m id = Some (d, l) -> bd_id d = id /\ short (backup d l) /\ exists g s x, sound g s d l x.
(** [m'] is [m] after the lists [ids] of [src] have been restored as [pre ++ id ++ suf] *)
Definition brought_back (src : db) (ids : list string) (pre suf : string) (replace : bool) (m m' : db) : Prop :=
  let dst id := (pre ++ id ++ suf)%string in
  (forall id d l, In id ids -> src id = Some (d, l) -> replace = true \/ m (dst id) = None ->
     exists d' l', m' (dst id) = Some (d', l') /\ same_list (dst id) d l d' l') /\
  (forall k, (forall id, In id ids -> src id <> None -> k <> dst id) \/ (replace = false /\ m k <> None) -> m' k = m k).
Definition found (m : db) (ids : list string) : nat :=
  length (filter (fun id => match m id with Some _ => true | None => false end) ids).
