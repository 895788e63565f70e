(** C77: the way of a backup to S3, to the client of a download, and to another server. *)
From Coq Require Import Strings.String Strings.Ascii Strings.Byte.
From Verif.Lib Require Import Prelude ListAux Bytes.
From Verif.Model Require Import Element Elements Segment List Msgp Codec Keys Storage Backup Job Ship.
From Verif.Spec Require Import RankSpec QuerySpec HistorySpec AnswerSpec CodecSpec StorageSpec BackupSpec JobSpec ShipSpec.
From Verif.Proof Require Import BackupP JobP ShipP.
From Verif.Thm Require Import Sample SampleStore C46 C60.
Open Scope nat_scope.

(** Whatever fails, the far end has a first part of the stream of the lists read: restoring it
    brings back these lists as they were read, or reports an error after a first part of them. *)
Theorem C77_far : forall k ids m tr c, sexec any_way k ids m tr c -> exists b, full_stream tr = s_far c ++ b.
Proof. exact (c77_far any_way). Qed.
Print Assumptions C77_far.
Theorem C77_restore : forall k ids m tr c fr, NoDup ids -> sound_db m -> (forall n, given_ok (fr n)) -> sexec sound_way k ids m tr c ->
  restores fr (s_far c) (as_read tr) (read_ids tr) \/ stops fr (s_far c) (as_read tr) (read_ids tr).
Proof. exact c77_restore. Qed.
Print Assumptions C77_restore.

(** A far end that was told that it has all: Success is what was read, and restoring brings it
    back; except when the job was cancelled, then restoring reports an error. *)
Theorem C77_end : forall k ids m tr c fr, NoDup ids -> sound_db m -> (forall n, given_ok (fr n)) -> sexec sound_way k ids m tr c -> s_end c = true ->
  t_success (j_st (s_job c)) = read_ids tr /\
  if t_cancelled (j_st (s_job c)) then stops fr (s_far c) (as_read tr) (t_success (j_st (s_job c)))
  else restores fr (s_far c) (as_read tr) (t_success (j_st (s_job c))).
Proof. exact c77_end. Qed.
Print Assumptions C77_end.

(** A backup to S3 whose status is Done, has no errors and is not Cancelled is complete. *)
Theorem C77_s3 : forall ids m tr c fr, NoDup ids -> sound_db m -> (forall n, given_ok (fr n)) -> sexec sound_way ByS3 ids m tr c ->
  over (s_job c) -> t_errs (j_st (s_job c)) = [] -> t_cancelled (j_st (s_job c)) = false ->
  t_success (j_st (s_job c)) = ids /\ restores fr (s_far c) (as_read tr) ids.
Proof. exact c77_s3_all. Qed.
Print Assumptions C77_s3.

(** A job never gets stuck: from every state it can become Done without any further failure,
    and unless the transfer has failed or has never begun the far end then has all. *)
Theorem C77_ends : forall k ids m tr c, sexec any_way k ids m tr c -> exists t c', sgoes k ids c t c' /\ over (s_job c') /\
  (s_dead c = false -> s_open c' = true -> s_end c' = true).
Proof. exact c77_ends. Qed.
Print Assumptions C77_ends.

(** ** Runs *)
Definition s (x : jchoice) : schoice := S_job x.
Definition sg : schoice := S_job g.
Definition sees (x : list jevent * scfg) :=
  let '(tr, c) := x in let t := j_st (s_job c) in
  (read_ids tr, t_done t, t_errs t, t_success t, t_cancelled t, s_end c, s_dead c, fst (restore_all fr0 "" "" false (fun _ => None) (s_far c)),
   map (show (snd (restore_all fr0 "" "" false (fun _ => None) (s_far c)))) ids0).
Definition to_close : list schoice := [sg; sg; sg; sg; sg; sg; s (J_flow 100); S_send 50; sg; sg; sg; s (J_flow 1000); sg].
(** to S3: the upload ends, then the job *)
Example C77_s3_run : option_map sees (splay ByS3 ids0 (sstart src0) (to_close ++ [S_send 1000; S_eof; s (J_result false)])) =
  Some (["players"; "teams"], true, [], ["players"; "teams"], false, true, false, JDone 2 0, [pl; te])%string.
Proof. vm_compute. reflexivity. Qed.
(** to S3: the upload fails in its last part; the job reports it *)
Example C77_s3_fails : option_map sees (splay ByS3 ids0 (sstart src0) (to_close ++ [S_send 300; S_fail; s (J_result true)])) =
  Some (["players"; "teams"], true, ["delayed_error"], ["players"; "teams"], false, false, true, JErr, [pl; None])%string.
Proof. vm_compute. reflexivity. Qed.
Example C77_download_run : option_map sees (splay ByDownload ids0 (sstart src0) (to_close ++ [S_send 1000; S_eof; sg])) =
  Some (["players"; "teams"], true, [], ["players"; "teams"], false, true, false, JDone 2 0, [pl; te])%string.
Proof. vm_compute. reflexivity. Qed.
(** to another server: the body ends before the job does *)
Example C77_server_run : option_map sees (splay ByServer ids0 (sstart src0) (to_close ++ [S_send 1000; S_eof; sg])) =
  Some (["players"; "teams"], true, [], ["players"; "teams"], false, true, false, JDone 2 0, [pl; te])%string.
Proof. vm_compute. reflexivity. Qed.
(** the client of a download goes away; the job notices and ends *)
Example C77_away_run : option_map sees (splay ByDownload ids0 (sstart src0) [sg; sg; sg; sg; sg; s (J_flow 100); S_send 50; S_fail; s J_break; sg; s (J_go false 0); sg; s (J_go false 0); sg; sg]) =
  Some (["players"; "teams"], true, ["finalizing"; "teams"], ["players"], false, false, true, JErr, [None; None])%string.
Proof. vm_compute. reflexivity. Qed.

Lemma src0_way x : sound_way x \/ (forall m, x <> S_job (J_lists m)) -> sound_way x.
Proof. intros [H|H]; [exact H|]. destruct x as [y| | | |]; try exact Logic.I. destruct y; try exact Logic.I. exfalso. exact (H m eq_refl). Qed.
Ltac sw := repeat (apply Forall_cons || apply Forall_nil); first [exact Logic.I | apply src0_way; right; discriminate | idtac].
Example C77_s3_holds : exists tr c, sexec sound_way ByS3 ids0 src0 tr c /\ over (s_job c) /\ t_success (j_st (s_job c)) = ids0 /\ restores fr0 (s_far c) (as_read tr) ids0.
Proof.
  destruct (splay_see _ _ _ _ _ _ C77_s3_run) as (tr & c & Ep & Es). exists tr, c.
  assert (X : sexec sound_way ByS3 ids0 src0 tr c) by (eapply splay_exec with (tr0 := []); [|constructor|exact Ep]; sw).
  unfold sees in Es. injection Es as E1 E2 E3 E4 E5 E6 E7 E8 E9 E10.
  split; [exact X|]. split; [exact E2|]. apply (C77_s3 ids0 src0 tr c fr0); auto.
  - repeat constructor; cbn; intuition discriminate.
  - exact src0_sound.
  - exact fr0_ok.
Qed.

(** ** What the status of the job and the end of a response do not tell *)

(** To another server: the end of the job cancels the context of the request that carries the
    last bytes.  With a working network and server and nobody cancelling, the status can be Done
    with every list in Success and no errors, and the other server has nothing. *)
Theorem C77_server_refuted : exists ids m tr c fr, NoDup ids /\ ids <> [] /\ sound_db m /\ (forall n, given_ok (fr n)) /\
  sexec calm ByServer ids m tr c /\ over (s_job c) /\ t_errs (j_st (s_job c)) = [] /\ t_cancelled (j_st (s_job c)) = false /\
  t_success (j_st (s_job c)) = ids /\ s_dead c = true /\ forall pre suf rep m0, restore_all fr pre suf rep m0 (s_far c) = (JErr, m0).
Proof.
  assert (R : option_map (fun x => (sees x, s_far (snd x))) (splay ByServer ids0 (sstart src0) [sg; sg; sg; sg; sg; sg; sg; sg; sg; s (J_flow 1000); sg; sg; S_ctx]) =
    Some ((["players"; "teams"], true, [], ["players"; "teams"], false, false, true, JErr, [None; None])%string, [])) by (vm_compute; reflexivity).
  destruct (splay_see _ _ _ _ _ _ R) as (tr & c & Ep & Es). unfold sees in Es. cbn [snd] in Es. injection Es as E1 E2 E3 E4 E5 E6 E7 E8 E9 E10 E11.
  exists ids0, src0, tr, c, fr0.
  split; [repeat constructor; cbn; intuition discriminate|]. split; [discriminate|]. split; [exact src0_sound|]. split; [exact fr0_ok|].
  split; [eapply splay_exec with (tr0 := []); [|constructor|exact Ep]; repeat constructor|].
  split; [exact E2|]. split; [exact E3|]. split; [exact E5|]. split; [exact E4|]. split; [exact E7|]. intros pre suf rep m0. rewrite E11. reflexivity.
Qed.
Print Assumptions C77_server_refuted.

(** A download: the response can end as it should, with nothing failing, and hold only a part
    of the backup, because the job was cancelled. *)
Theorem C77_download_refuted : exists ids m tr c fr m', NoDup ids /\ sound_db m /\ (forall n, given_ok (fr n)) /\
  sexec no_fault ByDownload ids m tr c /\ over (s_job c) /\ s_end c = true /\ t_errs (j_st (s_job c)) = [] /\
  restore_all fr "" "" false (fun _ => None) (s_far c) = (JErr, m') /\ forall id, In id ids -> m' id = None.
Proof.
  assert (R : option_map sees (splay ByDownload ids0 (sstart src0) [sg; sg; sg; sg; s J_cancel; sg; sg; sg; S_eof]) =
    Some (["players"], true, [], ["players"], true, true, false, JErr, [None; None])%string) by (vm_compute; reflexivity).
  destruct (splay_see _ _ _ _ _ _ R) as (tr & c & Ep & Es). unfold sees in Es. injection Es as E1 E2 E3 E4 E5 E6 E7 E8 E9 E10.
  exists ids0, src0, tr, c, fr0, (snd (restore_all fr0 "" "" false (fun _ => None) (s_far c))).
  split; [repeat constructor; cbn; intuition discriminate|]. split; [exact src0_sound|]. split; [exact fr0_ok|].
  split; [eapply splay_exec with (tr0 := []); [|constructor|exact Ep]; repeat constructor|].
  split; [exact E2|]. split; [exact E6|]. split; [exact E3|]. split; [rewrite <- E8; apply surjective_pairing|].
  intros id [<-|[<-|[]]]; apply show_none; assumption.
Qed.
Print Assumptions C77_download_refuted.

(** ** Places *)

(** What a backup was written to is what a restore from the same path reads. *)
Theorem C77_back : forall aws url up d t op, backup_dst aws url up d = Some t ->
  match t with
  | ToFile p => de_path d = Some p /\ (op p = true -> restore_src aws url op "" p = Some (FromFile p))
  | ToS3 b k => exists p, de_path d = Some p /\ (prefix "s3://" p = true -> restore_src aws url op p "" = Some (FromS3 b k))
  | ToServer h pre suf => de_path d = Some h /\ up h = true /\ de_prefix d = pre /\ de_suffix d = suf
  | ToClient => de_type d = "download"%string
  end.
Proof. exact c77_back. Qed.
Print Assumptions C77_back.
(** The body of a restore request is read exactly when neither src nor src_file is given; with
    both, src_file is read and src is not. *)
Theorem C77_src : forall aws url op src file x, restore_src aws url op src file = Some x ->
  (x = FromBody <-> src = ""%string /\ file = ""%string) /\ (file <> ""%string <-> x = FromFile file) /\
  (file = ""%string -> forall u, x = FromURL u <-> src = u /\ src <> ""%string /\ prefix "s3://" src = false).
Proof. exact c77_src. Qed.
Print Assumptions C77_src.
(** url.Parse on such paths *)
Definition url0 (p : string) : option (string * string) :=
  if prefix "s3://" p then Some ("bucket", "/x.bin")%string else Some (""%string, p).
Example C77_back_ex :
  (backup_dst true url0 (fun _ => true) (mkD "s3" (Some "s3://bucket/x.bin") None None), restore_src true url0 (fun _ => true) "s3://bucket/x.bin" "",
   backup_dst true url0 (fun _ => true) (mkD "file" (Some "/b") None None), restore_src false url0 (fun _ => true) "http://h/x" "/b",
   backup_dst true url0 (fun _ => true) (mkD "file" (Some "") None None), backup_dst false url0 (fun _ => true) (mkD "s3" (Some "s3://bucket/x.bin") None None),
   backup_dst true url0 (fun _ => true) (mkD "ftp" (Some "x") None None), restore_src false url0 (fun _ => true) "s3://bucket/x.bin" "/b")%string =
  (Some (ToS3 "bucket" "/x.bin"), Some (FromS3 "bucket" "/x.bin"), Some (ToFile "/b"), Some (FromFile "/b"), None, None, None, None)%string.
Proof. vm_compute. reflexivity. Qed.
(** A path without s3:// is taken for a backup to S3, and a restore from it goes to HTTP. *)
Theorem C77_url_refuted : exists p b k, backup_dst true url0 (fun _ => true) (mkD "s3" (Some p) None None) = Some (ToS3 b k) /\
  forall op, restore_src true url0 op p "" = Some (FromURL p).
Proof. exists "bucket/x.bin"%string, ""%string, "bucket/x.bin"%string. split; [vm_compute; reflexivity|]. intros op. vm_compute. reflexivity. Qed.
Print Assumptions C77_url_refuted.
