(** C60: a backup job: what it writes, what its status says, how it ends. *)
From Coq Require Import Strings.String Strings.Ascii Strings.Byte.
From Verif.Lib Require Import Prelude ListAux Bytes.
From Verif.Model Require Import Element Elements Segment List Msgp Codec Keys Storage Backup Job.
From Verif.Spec Require Import RankSpec QuerySpec HistorySpec AnswerSpec CodecSpec StorageSpec BackupSpec JobSpec.
From Verif.Proof Require Import BackupP JobP.
From Verif.Thm Require Import Sample SampleStore C46.
Open Scope nat_scope.

(** Whatever fails and whenever it is cancelled, the destination has received a first part of
    the stream of the lists read. *)
Theorem C60_stream : forall ids ch m tr c, jexec any_choice ids ch m tr c -> exists b, full_stream tr = j_out c ++ b.
Proof. exact c60_stream. Qed.
Print Assumptions C60_stream.

(** Restoring what the destination received either succeeds, and then every list of Success is
    back as it was when it was read; or it reports an error, with a first part of the lists
    read.  It never brings back anything else. *)
Theorem C60_restore : forall ids ch m tr c fr pre suf rep m0, NoDup ids -> sound_db m -> (forall n, given_ok (fr n)) -> jexec sound_lists ids ch m tr c ->
  incl (t_success (j_st c)) (read_ids tr) /\ (forall id, In id (read_ids tr) -> as_read tr id <> None) /\
  ((exists r s m', restore_all fr pre suf rep m0 (j_out c) = (JDone r s, m') /\ brought_back (as_read tr) (read_ids tr) pre suf rep m0 m') \/
   (exists some rest m', read_ids tr = some ++ rest /\ restore_all fr pre suf rep m0 (j_out c) = (JErr, m') /\ brought_back (as_read tr) some pre suf rep m0 m')).
Proof. exact c60_restore. Qed.
Print Assumptions C60_restore.

(** A job that is Done, was not cancelled, and whose destination opened and did not fail:
    restoring succeeds and brings back exactly the lists of Success. *)
Theorem C60_complete : forall ids ch m tr c fr pre suf rep m0, NoDup ids -> sound_db m -> (forall n, given_ok (fr n)) -> jexec sound_lists ids ch m tr c ->
  over c -> t_cancelled (j_st c) = false -> opened c -> j_bad c = false ->
  t_success (j_st c) = read_ids tr /\
  exists r s m', restore_all fr pre suf rep m0 (j_out c) = (JDone r s, m') /\ brought_back (as_read tr) (t_success (j_st c)) pre suf rep m0 m' /\
    r + s = length (t_success (j_st c)) /\ (rep = true -> s = 0).
Proof. exact c60_complete. Qed.
Print Assumptions C60_complete.

(** ListsDone counts Success; Success has only lists of the request; a job that is Done, was
    not cancelled and opened its destination has every list of the request in Success or in
    Errors, and without Errors Success is the request. *)
Theorem C60_status : forall ids ch m tr c, jexec any_choice ids ch m tr c ->
  t_ndone (j_st c) = length (t_success (j_st c)) /\ incl (t_success (j_st c)) ids /\
  (over c -> t_cancelled (j_st c) = false -> opened c ->
   (forall id, In id ids -> In id (t_success (j_st c)) \/ In id (t_errs (j_st c))) /\ (t_errs (j_st c) = [] -> t_success (j_st c) = ids)).
Proof. exact c60_status. Qed.
Print Assumptions C60_status.

(** What the status has reported and the destination has received stays; once Done, neither
    changes any more. *)
Theorem C60_grows : forall ids ch m tr c n tr' c', jexec any_choice ids ch m tr c -> jgoes ids ch c n tr' c' ->
  (exists more, t_success (j_st c') = t_success (j_st c) ++ more) /\ incl (t_errs (j_st c)) (t_errs (j_st c')) /\ (exists b, j_out c' = j_out c ++ b) /\
  (over c -> j_st c' = j_st c /\ j_out c' = j_out c).
Proof. exact c60_grows. Qed.
Print Assumptions C60_grows.

(** Until it is Done the job can take a step, if need be after the destination took some bytes
    or ErrCh delivered; and it takes at most three steps per list and six more. *)
Theorem C60_moves : forall ids ch m tr c, jexec any_choice ids ch m tr c -> ~ over c ->
  exists c1, (c1 = c \/ exists n, jfire ids ch c (J_flow n) = Some (None, c1)) /\ exists x e c2, is_job x = true /\ jfire ids ch c1 x = Some (e, c2).
Proof. exact c60_moves. Qed.
Print Assumptions C60_moves.
Theorem C60_ends : forall ids ch m n tr c, jgoes ids ch (jstart m) n tr c -> n <= 3 * length ids + 6.
Proof. exact c60_ends. Qed.
Print Assumptions C60_ends.

(** After it is cancelled, or after shutdown begins before Start has returned, at most one more
    list is read. *)
Theorem C60_cancel : forall ids ch c x e c1 n tr c', jfire ids ch c x = Some (e, c1) -> x = J_cancel \/ (x = J_shutdown /\ j_hook c = true) ->
  jgoes ids ch c1 n tr c' -> length tr <= 1.
Proof. exact c60_cancel. Qed.
Print Assumptions C60_cancel.

(** ** Runs *)
Definition ids0 : list string := ["players"; "teams"]%string.
Definition ids1 : list string := ["nobody"; "players"; "teams"]%string.
Definition g : jchoice := J_go true 0.
Definition seen (x : list jevent * jcfg) :=
  let '(tr, c) := x in let t := j_st c in
  (read_ids tr, t_done t, t_errs t, t_success t, t_cancelled t, j_bad c, fst (restore_all fr0 "" "" false (fun _ => None) (j_out c)),
   map (show (snd (restore_all fr0 "" "" false (fun _ => None) (j_out c)))) ids0).
Definition pl : option (string * list N) := Some ("players"%string, [2; 3; 11; 12; 5; 4; 6; 7; 8; 9; 10; 1]%N).
Definition te : option (string * list N) := Some ("teams"%string, [1; 4; 9]%N).
Definition run_ok : list jchoice := [g; g; g; g; g; g; J_flow 100; g; g; g; g; g; J_flow 1000; g; g].
(** a missing list is an error, the others are written; all is well *)
Example C60_run : option_map seen (jplay ids1 false (jstart src0) run_ok) =
  Some (["players"; "teams"], true, ["nobody"], ["players"; "teams"], false, false, JDone 2 0, [pl; te])%string.
Proof. vm_compute. reflexivity. Qed.
Lemma src0_free x : sound_lists x \/ (forall m, x <> J_lists m) -> sound_lists x.
Proof. intros [H|H]; [exact H|]. destruct x; try exact Logic.I. exfalso. exact (H m eq_refl). Qed.
Ltac sl := repeat (apply Forall_cons || apply Forall_nil); first [exact Logic.I | apply src0_free; right; discriminate].
Example C60_complete_holds : exists tr c, jexec sound_lists ids1 false src0 tr c /\ over c /\ t_success (j_st c) = ["players"; "teams"]%string /\
  exists r s m', restore_all fr0 "" "" false (fun _ => None) (j_out c) = (JDone r s, m') /\ brought_back (as_read tr) ["players"; "teams"]%string "" "" false (fun _ => None) m' /\ r + s = 2.
Proof.
  destruct (jplay_see _ _ _ _ _ _ C60_run) as (tr & c & Ep & Es). exists tr, c.
  assert (X : jexec sound_lists ids1 false src0 tr c) by (apply (jplay_exec sound_lists ids1 false src0 run_ok) with (tr0 := []) (c := jstart src0); [sl|constructor|exact Ep]).
  unfold seen in Es. injection Es as E1 E2 E3 E4 E5 E6 E7 E8 E9.
  destruct (C60_complete ids1 false src0 tr c fr0 "" "" false (fun _ => None)) as (A & r & s & m' & B & C & D & _); auto.
  - repeat constructor; cbn; intuition discriminate.
  - exact src0_sound.
  - exact fr0_ok.
  - unfold opened. rewrite E3. intros [H|[]]. discriminate.
  - rewrite E4 in *. split; [exact X|]. split; [exact E2|]. split; [reflexivity|]. exists r, s, m'. auto.
Qed.
(** cancelled while the last list is being written: the job is complete and not Cancelled *)
Example C60_late_cancel : option_map seen (jplay ids0 false (jstart src0) [g; g; g; g; g; J_cancel; g; g; g; g; J_flow 1000; g; g]) =
  Some (["players"; "teams"], true, [], ["players"; "teams"], false, false, JDone 2 0, [pl; te])%string.
Proof. vm_compute. reflexivity. Qed.
(** the destination fails inside the second list and the writer notices *)
Example C60_fail_run : option_map seen (jplay ids0 false (jstart src0) [g; g; g; g; g; g; J_flow 300; J_break; J_go false 0; g; J_go false 0; g; g]) =
  Some (["players"; "teams"], true, ["finalizing"; "teams"], ["players"], false, true, JErr, [pl; None])%string.
Proof. vm_compute. reflexivity. Qed.
(** the destination does not open *)
Example C60_saver_run : option_map seen (jplay ids0 false (jstart src0) [J_go false 0; g]) = Some ([], true, ["saver"], [], false, false, JErr, [None; None])%string.
Proof. vm_compute. reflexivity. Qed.
(** a delayed error *)
Example C60_delayed_run : option_map seen (jplay ids0 true (jstart src0) [g; g; g; g; g; g; g; g; g; J_flow 1000; g; J_result true]) =
  Some (["players"; "teams"], true, ["delayed_error"], ["players"; "teams"], false, false, JDone 2 0, [pl; te])%string.
Proof. vm_compute. reflexivity. Qed.
(** a list changes while the job runs: the list is as it was when it was read *)
Definition src1 : db := fun k => if String.eqb k "teams" then Some (mkBD "teams" "us" None false, l1) else None.
Example C60_change_run : option_map seen (jplay ids0 false (jstart src0) [g; g; g; g; J_lists src1; g; g; g; g; g; J_flow 1000; g; g]) =
  Some (["players"; "teams"], true, [], ["players"; "teams"], false, false, JDone 2 0, [pl; Some ("teams", [2; 3; 11; 12; 5; 4; 6; 7; 8; 9; 10; 1]%N)])%string.
Proof. vm_compute. reflexivity. Qed.

(** ** What the status does not tell *)
Lemma show_none m k : show m k = None -> m k = None.
Proof. unfold show. destruct (m k) as [[d l]|]; [discriminate|reflexivity]. Qed.

(** The errors of Flush and of the Closes are dropped: a job can be Done with every list in
    Success and no error, and nothing has arrived. *)
Theorem C60_silent_refuted : exists ids m tr c fr m', NoDup ids /\ ids <> [] /\ sound_db m /\ (forall n, given_ok (fr n)) /\
  jexec sound_lists ids false m tr c /\ over c /\ t_cancelled (j_st c) = false /\ t_errs (j_st c) = [] /\ t_success (j_st c) = ids /\
  restore_all fr "" "" false (fun _ => None) (j_out c) = (JErr, m') /\ forall id, In id ids -> m' id = None.
Proof.
  assert (R : option_map seen (jplay ids0 false (jstart src0) [g; g; g; g; g; g; g; g; g; J_break; g; g]) =
    Some (["players"; "teams"], true, [], ["players"; "teams"], false, true, JErr, [None; None])%string) by (vm_compute; reflexivity).
  destruct (jplay_see _ _ _ _ _ _ R) as (tr & c & Ep & Es). unfold seen in Es. injection Es as E1 E2 E3 E4 E5 E6 E7 E8 E9.
  exists ids0, src0, tr, c, fr0, (snd (restore_all fr0 "" "" false (fun _ => None) (j_out c))).
  split; [repeat constructor; cbn; intuition discriminate|]. split; [discriminate|]. split; [exact src0_sound|]. split; [exact fr0_ok|].
  split; [eapply jplay_exec with (tr0 := []); [|constructor|exact Ep]; sl|]. split; [exact E2|]. split; [exact E5|]. split; [exact E3|]. split; [exact E4|].
  split; [rewrite <- E7; apply surjective_pairing|].
  intros id [<-|[<-|[]]]; apply show_none; assumption.
Qed.
Print Assumptions C60_silent_refuted.

(** A cancelled job drops what lies in its write buffer: a list of Success may be missing
    though the destination never failed. *)
Theorem C60_cancelled_refuted : exists ids m tr c fr m' id, NoDup ids /\ sound_db m /\ (forall n, given_ok (fr n)) /\
  jexec sound_lists ids false m tr c /\ over c /\ t_cancelled (j_st c) = true /\ j_bad c = false /\ t_errs (j_st c) = [] /\ In id (t_success (j_st c)) /\
  restore_all fr "" "" false (fun _ => None) (j_out c) = (JErr, m') /\ m' id = None.
Proof.
  assert (R : option_map seen (jplay ids0 false (jstart src0) [g; g; g; g; J_cancel; J_go true 0; J_flow 1000; g; g]) =
    Some (["players"], true, [], ["players"], true, false, JErr, [None; None])%string) by (vm_compute; reflexivity).
  destruct (jplay_see _ _ _ _ _ _ R) as (tr & c & Ep & Es). unfold seen in Es. injection Es as E1 E2 E3 E4 E5 E6 E7 E8 E9.
  exists ids0, src0, tr, c, fr0, (snd (restore_all fr0 "" "" false (fun _ => None) (j_out c))), "players"%string.
  split; [repeat constructor; cbn; intuition discriminate|]. split; [exact src0_sound|]. split; [exact fr0_ok|].
  split; [eapply jplay_exec with (tr0 := []); [|constructor|exact Ep]; sl|]. split; [exact E2|]. split; [exact E5|]. split; [exact E6|]. split; [exact E3|].
  split; [rewrite E4; left; reflexivity|]. split; [rewrite <- E7; apply surjective_pairing|].
  apply show_none. exact E8.
Qed.
Print Assumptions C60_cancelled_refuted.

(** Shutdown does not stop a job once Start has returned: its hook is gone, and the job goes on
    to read every list. *)
Theorem C60_shutdown_refuted : exists ids m c0 c1 n tr c2, sound_db m /\ jfire ids false (jstart m) J_ret = Some (None, c0) /\ jfire ids false c0 J_shutdown = Some (None, c1) /\
  jgoes ids false c1 n tr c2 /\ over c2 /\ t_cancelled (j_st c2) = false /\ length tr = 2.
Proof.
  assert (R : option_map (fun x => (t_done (j_st (snd x)), t_cancelled (j_st (snd x)), length (fst x)))
    (jplay ids0 false (mkJ JSave st_new src0 [] [] false false false) [g; g; g; g; g; g; g; g; g; J_flow 1000; g; g]) = Some (true, false, 2)) by (vm_compute; reflexivity).
  destruct (jplay_see _ _ _ _ _ _ R) as (tr & c & Ep & Es). cbn [fst snd] in Es. injection Es as E1 E2 E3.
  destruct (jplay_goes ids0 false _ _ 0 [] _ _ _ (Jg_nil _ _ _) Ep) as (n & G). cbn [app] in G.
  exists ids0, src0, (mkJ JSave st_new src0 [] [] false false false), (mkJ JSave st_new src0 [] [] false false false), n, tr, c.
  split; [exact src0_sound|]. split; [reflexivity|]. split; [reflexivity|]. split; [exact G|]. auto.
Qed.
Print Assumptions C60_shutdown_refuted.
