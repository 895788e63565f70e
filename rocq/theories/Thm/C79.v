(** C79: copying a list (clone, backup) while other calls run on it. *)
From Coq Require Import Strings.String.
From Verif.Lib Require Import Prelude ListAux.
From Verif.Model Require Import Element Elements Segment List Locks Copy.
From Verif.Spec Require Import RankSpec QuerySpec HistorySpec AnswerSpec LockSpec CopySpec.
From Verif.Proof Require Import CopyP.
From Verif.Thm Require Import Sample SampleLocks.
Open Scope nat_scope.

(** Backup and VerifyElements see one moment of the list, whatever runs meanwhile: all segments
    read are those of the list after some first part of the operations. *)
Theorem C79_backup : forall l xs c t cold ks th, Forall (fun x => call_ok x = true) xs -> reaches l xs c -> nth_error xs t = Some (CLocked cold ks) ->
  nth_error (c_threads c) t = Some th -> t_prog th = [] -> exists n l', moment l c n l' /\ reads_as th ks l'.
Proof. exact c79_locked. Qed.
Print Assumptions C79_backup.
Theorem C79_all : forall th l', reads_as th (score_keys l') l' -> copied th = ss_segs (l_scores l').
Proof. exact copied_all. Qed.
Print Assumptions C79_all.
(** A clone is exact if no call changes elements meanwhile; split passes, reindexing, populating,
    releasing and queries do no harm. *)
Theorem C79_clone : forall merge0 split0 l m xs c t cold ks th, reachable merge0 split0 l m -> Forall (fun x => call_ok x = true) xs ->
  Forall (fun x => ~ changes_elements x) xs -> reaches l xs c -> ops_ok merge0 split0 m (done_ops c) ->
  nth_error xs t = Some (CRead cold ks) -> nth_error (c_threads c) t = Some th -> t_prog th = [] ->
  exists n l', moment l c n l' /\ reachable merge0 split0 l' (spec_run m (firstn n (done_ops c))) /\ reads_as th ks l' /\
    (ks = score_keys l' -> forall merge split ns ni now, merge < split -> 2 <= merge + split -> ns <> ""%string -> ni <> ""%string -> tick now ->
       sized (spec_run m (firstn n (done_ops c))) (fun n => (N.of_nat n < max_u32)%N) ->
       exists l2, clone_read merge split ns ni now (copied th) = Done l2 /\ verify l2 = true /\ verify_elements l2 = true /\ stored_in l2 = stored_in l').
Proof. exact c79_exact. Qed.
Print Assumptions C79_clone.

(** ** A clone of a list that is updated meanwhile *)
Definition th_of (t : nat) (c : conf) : thread := match nth_error (c_threads c) t with Some th => th | None => mkT [] [] false l0 [] end.
Lemma th_of_at t c : t < length (c_threads c) -> nth_error (c_threads c) t = Some (th_of t c).
Proof. intros H. unfold th_of. destruct (nth_error (c_threads c) t) eqn:E; [reflexivity|]. apply nth_error_None in E. lia. Qed.
Definition ids_of (l : lst) : list N := map e_id (stored_in l).

(** The clone can have an element twice: it fails VerifyElements, though Verify finds nothing. *)
Theorem C79_twice_refuted : exists merge split l m o c l2 id, reachable merge split l m /\ op_ok merge split m o /\
  reaches l [CRead false (score_keys l); CModify false o []] c /\ finished c /\ score_keys (c_cur c) = score_keys l /\
  clone_read 2 4 "C" "D" 500 (copied (th_of 0 c)) = Done l2 /\ count_occ N.eq_dec (ids_of l2) id = 2 /\
  count_occ N.eq_dec (ids_of l) id = 1 /\ count_occ N.eq_dec (ids_of (c_cur c)) id = 1 /\ verify l2 = true /\ verify_elements l2 = false.
Proof.
  exists 2, 4, l0, m0, up1, (after torn_calls torn_sched), (done (clone_read 2 4 "C" "D" 500 (copied (th_of 0 (after torn_calls torn_sched))))), 1%N.
  split; [exact l0_reach|]. split; [exact up1_ok|]. split; [apply after_reaches; vm_compute; reflexivity|]. split; [apply done_all_iff; vm_compute; reflexivity|].
  repeat split; vm_compute; reflexivity.
Qed.
Print Assumptions C79_twice_refuted.

(** an update that moves 10 from the bottom to the top *)
Definition up9 : op := OUpdate (fun _ => 200%N) (fun _ => 201%N) 202 [] [mkE 95 10 [] 0 0].
Lemma up9_ok : op_ok 2 4 m0 up9.
Proof.
  split; [|split; [|split; [|split]]].
  - apply distinct_by. vm_compute. reflexivity.
  - apply (forall_by srb); [exact srb_storable|vm_compute; reflexivity].
  - intros _. split; reflexivity.
  - intros _. split; reflexivity.
  - split; reflexivity.
Qed.
Definition cells9 : list lock := [LSeg true 0; LSeg false 2; LSeg false 0].
Definition up9_plan : list act := map (fun k => Acq k true) cells9 ++ map Dirty cells9 ++
  flat_map (fun k => [Acq LStats true; Put k; Put LStats; Rel LStats; Rel k]) cells9.
Definition lost_calls : list call := [CRead false [(false, 0); (false, 1); (false, 2)]; CModify false up9 []].
Definition lost_sched := go 0 9 ++ go 1 6 ++ [(1, (l0, up9_plan))] ++ go 1 29 ++ go 0 7.
(** Or lack an element that was in the list all the time, and then nothing shows it. *)
Theorem C79_lost_refuted : exists merge split l m o c l2 id, reachable merge split l m /\ op_ok merge split m o /\
  reaches l [CRead false (score_keys l); CModify false o []] c /\ finished c /\ score_keys (c_cur c) = score_keys l /\
  clone_read 2 4 "C" "D" 500 (copied (th_of 0 c)) = Done l2 /\ ~ In id (ids_of l2) /\
  (forall n l', moment l c n l' -> In id (ids_of l')) /\ verify l2 = true /\ verify_elements l2 = true.
Proof.
  exists 2, 4, l0, m0, up9, (after lost_calls lost_sched), (done (clone_read 2 4 "C" "D" 500 (copied (th_of 0 (after lost_calls lost_sched))))), 10%N.
  split; [exact l0_reach|]. split; [exact up9_ok|]. split; [apply after_reaches; vm_compute; reflexivity|]. split; [apply done_all_iff; vm_compute; reflexivity|].
  split; [vm_compute; reflexivity|]. split; [vm_compute; reflexivity|]. split.
  - apply (count_occ_not_In N.eq_dec). vm_compute. reflexivity.
  - split; [|split; vm_compute; reflexivity]. assert (D : done_ops (after lost_calls lost_sched) = [up9]) by (vm_compute; reflexivity).
    unfold moment. rewrite D. intros n l' (Hn & H). apply (count_occ_In N.eq_dec).
    destruct n as [|[|n]]; [| |cbn in Hn; lia]; cbn [firstn run] in H.
    + injection H as <-. vm_compute. lia.
    + assert (E : match step l0 up9 with Done l => ids_of l = ids_of (done (step l0 up9)) | _ => False end) by (vm_compute; reflexivity).
      assert (F : count_occ N.eq_dec (ids_of (done (step l0 up9))) 10%N = 1) by (vm_compute; reflexivity).
      destruct (step l0 up9) as [l| | |]; [|destruct E|destruct E|destruct E]. injection H as <-. rewrite E, F. lia.
Qed.
Print Assumptions C79_lost_refuted.

(** ** Runs *)
(** the same order of steps with the update lock: the backup has to wait until the update is done *)
Definition safe_calls : list call := [CLocked false [(false, 0); (false, 1); (false, 2)]; CModify false up9 []].
Example C79_waits : ok_run safe_calls (go 0 11 ++ go 1 2) = false.
Proof. vm_compute. reflexivity. Qed.
Definition safe_sched := go 0 19 ++ go 1 6 ++ [(1, (l0, up9_plan))] ++ go 1 29.
Example C79_ex : reaches l0 safe_calls (after safe_calls safe_sched) /\ finished (after safe_calls safe_sched) /\
  map (fun s => map e_id (sg_elems s)) (copied (th_of 0 (after safe_calls safe_sched))) = [[1; 2; 3]; [4; 5; 6; 7]; [8; 9; 10]]%N /\ done_ops (after safe_calls safe_sched) = [up9].
Proof.
  split; [apply after_reaches; vm_compute; reflexivity|]. split; [apply done_all_iff; vm_compute; reflexivity|].
  split; vm_compute; reflexivity.
Qed.
(** a clone beside a split pass *)
Definition quiet_calls : list call := [CRead false [(false, 0); (false, 1); (false, 2)]; CModify false (OSplit true 400) []].
Example C79_quiet : Forall (fun x => ~ changes_elements x) quiet_calls.
Proof. repeat constructor; cbn; intros C; [exact C|discriminate C]. Qed.
