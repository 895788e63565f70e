(** C33: start-up falls back to the backup list file exactly when needed. *)
From Coq Require Import Strings.Byte Strings.String.
From Verif.Lib Require Import Prelude.
From Verif.Model Require Import Msgp Codec Manager.
From Verif.Spec Require Import CodecSpec ManagerSpec.
From Verif.Proof Require Import ManagerP.
From Verif.Thm Require Import C32.
Open Scope N_scope.

(** LoadLists succeeds with the lists of the primary file if that can be read, otherwise with
    those of the backup if there is one that can be read, and not otherwise *)
Theorem C33_load : forall zdec fdec old p bk m,
  load_lists zdec fdec old p bk = (None, m) <->
  readable zdec fdec p m \/ ((forall m', ~ readable zdec fdec p m') /\ exists g, bk = Some g /\ readable zdec fdec g m).
Proof. exact load_lists_spec. Qed.
Print Assumptions C33_load.

(** the server runs with lists that were read, or with none: then the last file it asked for
    does not exist *)
Theorem C33_start : forall zdec fdec p bk m, start_server zdec fdec p bk = Running m ->
  readable zdec fdec p m \/ (exists g, bk = Some g /\ readable zdec fdec g m) \/
  (m = [] /\ ((bk = None /\ p = Missing) \/ (bk = Some Missing /\ forall m', ~ readable zdec fdec p m'))).
Proof. exact start_spec. Qed.
Print Assumptions C33_start.

(** a file written by a save can be read *)
Theorem C33_intact : forall enc zdec fdec g, compressor enc zdec -> intact enc g ->
  exists ls m, file_of enc ls g /\ readable zdec fdec g m /\ same_lists ls m.
Proof. exact intact_readable. Qed.
Print Assumptions C33_intact.

(** one save, stopped at any point, of whose two writes at most one spoils its file: one of the
    two files is still good *)
Theorem C33_crash : forall enc ls b o1 o2 f f', collection ls ->
  intact enc (f_primary f) -> intact enc (f_backup f) -> o1 <> FailBroken \/ o2 <> FailBroken ->
  In f' (save_states enc ls b o1 o2 f) -> intact enc (f_primary f') \/ intact enc (f_backup f').
Proof. exact one_save. Qed.
Print Assumptions C33_crash.

(** if no write ever spoils its file, then after any number of saves, failed or not, each
    stopped at any point, the primary file is good *)
Theorem C33_atomic : forall enc f f', saves enc (fun o => o <> FailBroken) f f' ->
  intact enc (f_primary f) -> intact enc (f_primary f').
Proof. exact atomic_saves. Qed.
Print Assumptions C33_atomic.

(** the interval saver makes a backup at ticks N+1, 2N+1, ... ([n] ticks have passed before) *)
Theorem C33_interval : forall every n, (0 < every)%Z ->
  tick_backup true every (counter every n) = true <-> (0 < n)%nat /\ (Z.of_nat n mod every = 0)%Z.
Proof. exact backup_ticks. Qed.
Print Assumptions C33_interval.

(** without any store failing for good, the server can start without lists while the primary
    file is good: one failed read before the first backup is enough.  The next save then
    replaces the good file by an empty one. *)
Theorem C33_start_refuted : exists ls f', collection ls /\ ls <> [] /\
  start_server (fun x => x) (fun x => x) Failed (Some Missing) = Running [] /\
  In f' (save_states (fun x => x) [] false Stored Stored (Files (Got (save (fun x => x) ls)) Missing)) /\
  start_server (fun x => x) (fun x => x) (f_primary f') (Some (f_backup f')) = Running [].
Proof.
  exists [la; lb]. eexists. split; [exact two_lists|]. split; [discriminate|]. split; [reflexivity|]. split; [right; left; reflexivity|]. vm_compute. reflexivity.
Qed.
Print Assumptions C33_start_refuted.

(** two stops, each in a write that spoils its file, leave nothing to start from: the first save
    after a start does not write a backup *)
Theorem C33_two_crashes_refuted : exists ls f0 f1 f2, collection ls /\
  intact (fun x => x) (f_primary f0) /\ intact (fun x => x) (f_backup f0) /\
  In f1 (save_states (fun x => x) ls true FailBroken Stored f0) /\
  start_server (fun x => x) (fun x => x) (f_primary f1) (Some (f_backup f1)) <> Exit ERead /\
  In f2 (save_states (fun x => x) ls false Stored FailBroken f1) /\
  start_server (fun x => x) (fun x => x) (f_primary f2) (Some (f_backup f2)) = Exit ERead.
Proof.
  exists [la; lb], (Files (Got (save (fun x => x) [la; lb])) (Got (save (fun x => x) [la; lb]))).
  exists (Files (Got (save (fun x => x) [la; lb])) Failed), (Files Failed Failed).
  assert (I : intact (fun x => x) (Got (save (fun x => x) [la; lb]))) by (exists [la; lb]; split; [exact two_lists|reflexivity]).
  split; [exact two_lists|]. split; [exact I|]. split; [exact I|]. split; [right; left; reflexivity|].
  split; [vm_compute; discriminate|]. split; [right; left; reflexivity|]. reflexivity.
Qed.
Print Assumptions C33_two_crashes_refuted.

(** cases *)
Example from_backup : load_lists (fun x => x) (fun x => x) [] Failed (Some (Got (save (fun x => x) [la]))) = (None, [la]).
Proof. vm_compute. reflexivity. Qed.
Example corrupt_primary : load_lists (fun x => x) (fun x => x) [] (Got (firstn 25 (save (fun x => x) [la; lb]))) (Some (Got (save (fun x => x) [lb]))) = (None, [with_map lb]).
Proof. vm_compute. reflexivity. Qed.
Example corrupt_no_backup : fst (load_lists (fun x => x) (fun x => x) [] (Got (firstn 25 (save (fun x => x) [la; lb]))) None) = Some EDecode.
Proof. vm_compute. reflexivity. Qed.
Example ticks3 : map (fun n => tick_backup true 3 (counter 3 n)) (seq 0 8) = [false; false; false; true; false; false; true; false].
Proof. reflexivity. Qed.
