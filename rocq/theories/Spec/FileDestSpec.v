(** What a path must hold that backups are written to. *)
From Coq Require Import Strings.Byte Strings.String.
From Verif.Lib Require Import Prelude ListAux.
From Verif.Model Require Import List Msgp Codec Backup Job FileDest.
From Verif.Spec Require Import BackupSpec JobSpec.
Open Scope nat_scope.

(** the compressor only adds to what it has written, and gives something for something *)
Definition adds (z : wire -> wire) : Prop := z [] = [] /\ (forall a b, exists c, z (a ++ b) = z a ++ c) /\ (forall a, z a = [] -> a = []).
(** the decompressor gives back what was compressed, also of a first part *)
Definition gives_back (z unz : wire -> wire) : Prop := forall a, unz (z a) = a.
(** what begins with a zero is not a compressed stream *)
Definition no_zero (unz : wire -> wire) : Prop := forall b, unz (Byte.x00 :: b) = [].

Definition job_at (s : fcfg) (i : nat) (a : fjob) : Prop := nth_error (f_jobs s) i = Some a.
(** a step that opens or writes to the file at [p] by another job than [i] *)
Definition touches (p : string) (i : nat) (s : fcfg) (x : fchoice) : Prop :=
  exists j a y, x = F_job j y /\ j <> i /\ job_at s j a /\ fj_path a = p /\ (creates (fj_c a) y = true \/ exists n, y = J_flow n).
(** a step by which another job than [i] opens the file at [p] *)
Definition reopens (p : string) (i : nat) (s : fcfg) (x : fchoice) : Prop :=
  exists j a y, x = F_job j y /\ j <> i /\ job_at s j a /\ fj_path a = p /\ creates (fj_c a) y = true.
(** steps all of which are [ok] *)
Inductive fgoes (z : wire -> wire) (ok : fcfg -> fchoice -> Prop) : fcfg -> fcfg -> Prop :=
| Fg_nil s : fgoes z ok s s
| Fg_step s s1 x s2 : fgoes z ok s s1 -> ok s1 x -> ffire z s1 x = Some s2 -> fgoes z ok s s2.
Definition any_step (s : fcfg) (x : fchoice) : Prop := True.
(** the lists of the server can always be backed up; a request names no list twice *)
Definition sound_step (s : fcfg) (x : fchoice) : Prop :=
  match x with F_new _ ids m => NoDup ids /\ sound_db m | F_job _ y => sound_lists y end.

(** restoring the file brings back exactly [ids] as they are in [m] *)
Definition file_restores (unz : wire -> wire) (fr : nat -> given) (f : option wire) (m : db) (ids : list string) : Prop :=
  forall pre suf rep m0, exists r s m', restore_file unz fr pre suf rep m0 f = (JDone r s, m') /\ brought_back m ids pre suf rep m0 m' /\ r + s = length ids.
(** restoring the file reports an error after a first part of [ids] *)
Definition file_stops (unz : wire -> wire) (fr : nat -> given) (f : option wire) (m : db) (ids : list string) : Prop :=
  forall pre suf rep m0, exists some rest m', ids = some ++ rest /\ restore_file unz fr pre suf rep m0 f = (JErr, m') /\ brought_back m some pre suf rep m0 m'.
(** restoring the file reports an error and brings back nothing *)
Definition file_useless (unz : wire -> wire) (fr : nat -> given) (f : option wire) : Prop :=
  forall pre suf rep m0, restore_file unz fr pre suf rep m0 f = (JErr, m0).
