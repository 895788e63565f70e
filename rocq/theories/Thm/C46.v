(** C46: what Backup writes, RestoreList reads back. *)
From Coq Require Import Strings.String Strings.Ascii Strings.Byte.
From Verif.Lib Require Import Prelude ListAux Bytes.
From Verif.Model Require Import Element Elements Segment List Msgp Codec Keys Storage Backup.
From Verif.Spec Require Import RankSpec QuerySpec HistorySpec AnswerSpec CodecSpec StorageSpec BackupSpec.
From Verif.Proof Require Import ListThm HistoryP BackupP.
From Verif.Thm Require Import Sample SampleStore.
Open Scope N_scope.

(** With the old ID or a new one, and whatever follows in the stream: the list with the same
    settings and the same contents in the same order, and what follows is left unread. *)
Theorem C46_restore : forall g s d l m newid ni now sc rest, sound g s d l m -> (forall i ns, newid = Some (i, ns) -> ns <> ""%string) ->
  ni <> ""%string -> tick now ->
  exists d' l', restore_list newid ni now sc (backup d l ++ rest) = Some (Done (d', l'), rest) /\
    same_list (match newid with Some (i, _) => i | None => bd_id d end) d l d' l' /\ reachable g s l' m /\
    l_scores_id l' = (match newid with Some (_, ns) => ns | None => l_scores_id l end) /\ l_index_id l' = ni /\ stored_in l' = stored_in l.
Proof. exact c46_list. Qed.
Print Assumptions C46_restore.

(** A backup of a list that is cut short is never taken for a list. *)
Theorem C46_truncated : forall g s d l m newid ni now sc b c, sound g s d l m -> backup d l = b ++ c -> c <> [] ->
  restore_list newid ni now sc b = None.
Proof. exact c46_truncated. Qed.
Print Assumptions C46_truncated.

(** A backup job restored on another server, or on the same: every list of the job is there
    under its prefixed and suffixed ID, except those that existed and were not to be replaced;
    every other list is as it was. *)
Theorem C46_job : forall src ids fr pre suf replace m rest, sound_db src -> (forall n, given_ok (fr n)) ->
  exists r s m', restore_all fr pre suf replace m (job_bytes src ids ++ rest) = (JDone r s, m') /\
    brought_back src ids pre suf replace m m' /\ (r + s = found src ids)%nat /\ (replace = true -> s = 0%nat).
Proof. exact c46_job. Qed.
Print Assumptions C46_job.

(** A job stream that ends early (cancelled, cut short) is reported as an error; the lists of a
    first part of the job are there, and every other list is as it was. *)
Theorem C46_cut : forall src ids fr pre suf replace m b c, sound_db src -> (forall n, given_ok (fr n)) -> job_bytes src ids = b ++ c -> c <> [] ->
  exists ids1 ids2 m', ids = ids1 ++ ids2 /\ restore_all fr pre suf replace m b = (JErr, m') /\ brought_back src ids1 pre suf replace m m'.
Proof. exact c46_cut. Qed.
Print Assumptions C46_cut.

(** ** A backup of two lists *)
Definition dA : bdesc := mkBD "players" "eu" (Some [("game", "chess"); ("mode", "")])%string true.
Definition dB : bdesc := mkBD "teams" "eu" None false.
Definition src0 : db := fun k => if String.eqb k "players" then Some (dA, l1) else if String.eqb k "teams" then Some (dB, lB) else None.
Ltac short_tac := vm_compute; reflexivity.
Lemma sized1 : sized m1 (fun n => N.of_nat n < max_u32).
Proof. intros r Hr. rewrite (ranking_unique _ _ _ Hr (reach_ranking _ _ _ _ l1_reach)). vm_compute. reflexivity. Qed.
Lemma sizedB : sized mB (fun n => N.of_nat n < max_u32).
Proof. intros r Hr. rewrite (ranking_unique _ _ _ Hr (reach_ranking _ _ _ _ lB_reach)). vm_compute. reflexivity. Qed.
Lemma soundA : sound 2 4 dA l1 m1.
Proof.
  split; [exact l1_reach|]. split; [exact fit1|]. split; [short_tac|]. split; [short_tac|].
  split; [split; [short_tac|split]|].
  - cbn [meta_of bd_meta dA map fst]. constructor; [intros [H|[]]; discriminate|]. constructor; [intros []|constructor].
  - repeat (apply Forall_cons || apply Forall_nil); split; short_tac.
  - split; [split; [discriminate|reflexivity]|]. split; [split; [discriminate|reflexivity]|]. split; [short_tac|]. split; [short_tac|]. split; [lia|exact sized1].
Qed.
Lemma soundB : sound 2 4 dB lB mB.
Proof.
  split; [exact lB_reach|]. split; [exact fitB|]. split; [short_tac|]. split; [short_tac|].
  split; [split; [short_tac|split; [constructor|constructor]]|].
  split; [split; [discriminate|reflexivity]|]. split; [split; [discriminate|reflexivity]|]. split; [short_tac|]. split; [short_tac|]. split; [lia|exact sizedB].
Qed.
Lemma src0_sound : sound_db src0.
Proof.
  intros id d l E. unfold src0 in E. destruct (String.eqb id "players") eqn:E1; [|destruct (String.eqb id "teams") eqn:E2; [|discriminate]].
  - injection E as <- <-. apply String.eqb_eq in E1. subst id. split; [reflexivity|]. split; [short_tac|]. exists 2%nat, 4%nat, m1. exact soundA.
  - injection E as <- <-. apply String.eqb_eq in E2. subst id. split; [reflexivity|]. split; [short_tac|]. exists 2%nat, 4%nat, mB. exact soundB.
Qed.
Definition fr0 (n : nat) : given := ("A" ++ String (ascii_of_nat (48 + n)) "", "B" ++ String (ascii_of_nat (48 + n)) "", 700, [])%string.
Lemma fr0_ok n : given_ok (fr0 n).
Proof. split; [discriminate|]. split; [discriminate|]. split; reflexivity. Qed.

(** the list with a new ID: 12 elements in 3 segments, 269 bytes *)
Example C46_restore_run :
  match restore_list (Some ("copy", "Z"))%string "W" 700 [] (backup dA l1 ++ [x00; x01]) with
  | Some (Done (d, l), rest) => Some (bd_id d, bd_set d, bd_meta d, bd_load d, map e_id (stored_in l), l_scores_id l, l_index_id l, rest)
  | _ => None
  end = Some ("copy", "eu", Some [("game", "chess"); ("mode", "")], true, [2; 3; 11; 12; 5; 4; 6; 7; 8; 9; 10; 1], "Z", "W", [x00; x01])%string.
Proof. vm_compute. reflexivity. Qed.
Example C46_restore_holds : exists d' l', restore_list None "W" 700 [] (backup dA l1 ++ []) = Some (Done (d', l'), []) /\ reachable 2 4 l' m1.
Proof.
  destruct (C46_restore 2 4 dA l1 m1 None "W" 700 [] [] soundA) as (d' & l' & E & _ & H & _); [discriminate|discriminate|split; reflexivity|]. exists d', l'. auto.
Qed.
(** no proper prefix is read *)
Example C46_truncated_run : length (backup dA l1) = 269%nat /\
  forallb (fun k => match restore_list None "W" 700 [] (firstn k (backup dA l1)) with None => true | Some _ => false end) (seq 0 269) = true.
Proof. split; vm_compute; reflexivity. Qed.
(** the job asks for a list that does not exist; "x-teams" exists on the target and is kept *)
Definition m_old : db := fun k => if String.eqb k "x-teams" then Some (dA, l2) else None.
Definition show (m : db) (k : string) := match m k with Some (d, l) => Some (bd_id d, map e_id (stored_in l)) | None => None end.
Definition job0 := job_bytes src0 ["players"; "nobody"; "teams"]%string.
Example C46_job_run : (let '(r, m) := restore_all fr0 "x-" "" false m_old job0 in (r, map (show m) ["x-players"; "x-teams"; "x-nobody"; "players"]%string)) =
  (JDone 1 1, [Some ("x-players", [2; 3; 11; 12; 5; 4; 6; 7; 8; 9; 10; 1]); Some ("players", map e_id (stored_in l2)); None; None])%string.
Proof. vm_compute. reflexivity. Qed.
Example C46_job_replace : (let '(r, m) := restore_all fr0 "x-" "" true m_old job0 in (r, map (show m) ["x-players"; "x-teams"; "x-nobody"; "players"]%string)) =
  (JDone 2 0, [Some ("x-players", [2; 3; 11; 12; 5; 4; 6; 7; 8; 9; 10; 1]); Some ("x-teams", [1; 4; 9]); None; None])%string.
Proof. vm_compute. reflexivity. Qed.
Example C46_job_holds : exists r s m', restore_all fr0 "x-" "" false m_old (job0 ++ []) = (JDone r s, m') /\
  brought_back src0 ["players"; "nobody"; "teams"]%string "x-" "" false m_old m' /\ (r + s = 2)%nat.
Proof. destruct (C46_job src0 ["players"; "nobody"; "teams"]%string fr0 "x-" "" false m_old [] src0_sound fr0_ok) as (r & s & m' & E & H & N & _). exists r, s, m'. auto. Qed.
(** cut after 300 of its bytes, inside the second list *)
Example C46_cut_run : (let '(r, m) := restore_all fr0 "" "" false (fun _ => None) (firstn 300 job0) in (r, map (show m) ["players"; "teams"]%string)) =
  (JErr, [Some ("players", [2; 3; 11; 12; 5; 4; 6; 7; 8; 9; 10; 1]); None])%string.
Proof. vm_compute. reflexivity. Qed.

(** A damaged list inside an intact stream is not reported as failed: the restore panics
    (assignment to the nil map res.Failed), and the list it was to replace is gone. *)
Theorem C46_failed_refuted : exists src ids fr m b k, sound_db src /\ (forall n, given_ok (fr n)) /\
  b = w_bool true ++ w_version backup_list_version ++ w_str k ++ w_bin [] ++ job_bytes src ids /\ m k <> None /\
  restore_all fr "" "" true m b = (JPanic, db_put m k None).
Proof.
  exists src0, ["players"%string], fr0, src0, (w_bool true ++ w_version backup_list_version ++ w_str "teams" ++ w_bin [] ++ job_bytes src0 ["players"%string]), "teams"%string.
  split; [exact src0_sound|]. split; [exact fr0_ok|]. split; [reflexivity|]. split; [discriminate|]. vm_compute. reflexivity.
Qed.
Print Assumptions C46_failed_refuted.
