(** C42: calls on one list that wait for each other. *)
From Coq Require Import Strings.String Sorting.Permutation.
From Verif.Lib Require Import Prelude ListAux.
From Verif.Model Require Import Element Elements Segment List Locks.
From Verif.Spec Require Import RankSpec QuerySpec HistorySpec LockSpec.
From Verif.Proof Require Import LocksThm.
From Verif.Thm Require Import Sample SampleLocks.
Open Scope nat_scope.

(** Any number of windows, lookups without radius, modifications, populates and
    releases, under any schedule: until all have returned some call can go on, unless
    an operation itself does not return. *)
Theorem C42_progress : forall l xs c, Forall plain_call xs -> Forall (fun x => call_ok x = true) xs ->
  reaches l xs c -> finished c \/ can_move c \/ broken c.
Proof. exact c42_progress. Qed.
Print Assumptions C42_progress.

(** If the operations return in whatever order they are carried out, all calls can
    finish from every state they get into. *)
Theorem C42_completes : forall l xs c, Forall plain_call xs -> Forall (fun x => call_ok x = true) xs ->
  never_fails l (flat_map op_of xs) -> reaches l xs c -> exists s c', moves c s = Some c' /\ finished c'.
Proof. exact c42_completes. Qed.
Print Assumptions C42_completes.

(** Calls that only read never wait for each other for ever, with or without radius. *)
Theorem C42_readers : forall l xs c, Forall read_call xs -> reaches l xs c -> finished c \/ can_move c.
Proof. exact c42_readers. Qed.
Print Assumptions C42_readers.

(** A lookup with radius and an update can block each other for ever: the lookup
    holds the segment of the element and wants its neighbour, the update holds the
    neighbour and waits for the segment. *)
Theorem C42_radius_refuted : exists merge split l m ks i above o c,
  reachable merge split l m /\ op_ok merge split m o /\
  reaches l [CAround false ks i [] above; CModify false o []] c /\ deadlock c.
Proof.
  exists 2, 4, l0, m0, [(true, 1)], 1, [0], up1, (after around_calls around_sched).
  split; [exact l0_reach|]. split; [exact up1_ok|]. split; [apply after_reaches; vm_compute; reflexivity|].
  apply stuck_deadlock. vm_compute. reflexivity.
Qed.
Print Assumptions C42_radius_refuted.

(** So can a query by score and an update: the query takes the read lock of its
    segment a second time while the update waits for it. *)
Theorem C42_score_refuted : exists merge split l m i window o c,
  reachable merge split l m /\ op_ok merge split m o /\
  reaches l [CScore false i window; CModify false o []] c /\ deadlock c.
Proof.
  exists 2, 4, l0, m0, 1, [1; 2], up1, (after score_calls score_sched).
  split; [exact l0_reach|]. split; [exact up1_ok|]. split; [apply after_reaches; vm_compute; reflexivity|].
  apply stuck_deadlock. vm_compute. reflexivity.
Qed.
Print Assumptions C42_score_refuted.

(** So can Stats with elements and a split pass: Stats loads the segments a second
    time while it holds them, and the split waits for them with the loading lock. *)
Theorem C42_stats_refuted : exists merge split l m kss o c,
  reachable merge split l m /\ op_ok merge split m o /\
  reaches l [CStats false kss; CModify false o []] c /\ deadlock c.
Proof.
  exists 2, 4, l0, m0, [[(false, 0)]; [(false, 2)]], (OSplit true 400), (after stats_calls stats_sched).
  split; [exact l0_reach|]. split; [exact split_ok|]. split; [apply after_reaches; vm_compute; reflexivity|].
  apply stuck_deadlock. vm_compute. reflexivity.
Qed.
Print Assumptions C42_stats_refuted.

(** Two updates, a release and a window in the middle of the first update. *)
Definition mixed : list call :=
  [CModify false up1 [(false, 0)]; CModify false del2 []; CRelease; CRead true [(false, 0); (true, 2)]].
Example C42_ex : Forall plain_call mixed /\ Forall (fun x => call_ok x = true) mixed /\
  never_fails l0 (flat_map op_of mixed) /\
  reaches l0 mixed (after mixed (go 3 12 ++ go 0 6 ++ [(0, (l0, up1_plan))] ++ go 0 3 ++ go 3 1)) /\
  ~ finished (after mixed (go 3 12 ++ go 0 6 ++ [(0, (l0, up1_plan))] ++ go 0 3 ++ go 3 1)).
Proof.
  split; [repeat constructor|]. split; [repeat constructor|]. split; [|split].
  - intros log o rest cur HP _. assert (Hin : In o (flat_map op_of mixed)).
    { eapply Permutation_in; [exact HP|]. apply in_or_app. right. left. reflexivity. }
    destruct Hin as [<-|[<-|[<-|[]]]]; eexists; reflexivity.
  - apply after_reaches. vm_compute. reflexivity.
  - apply not_done. vm_compute. reflexivity.
Qed.
(** Lookups with radius that walk in opposite directions. *)
Definition walkers : list call :=
  [CAround false [] 1 [2] [0]; CAround false [] 0 [1; 2] []; CScore false 1 [1; 2]; CStats false [[(false, 0)]; [(false, 2)]]].
Example C42_ex_readers : Forall read_call walkers /\ reaches l0 walkers (after walkers (go 0 10 ++ go 1 9 ++ go 2 7 ++ go 3 9)).
Proof. split; [repeat constructor|]. apply after_reaches. vm_compute. reflexivity. Qed.
