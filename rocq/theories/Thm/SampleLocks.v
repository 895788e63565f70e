(** Schedules used by the examples about concurrent calls. *)
From Coq Require Import Strings.String Sorting.Permutation.
From Verif.Lib Require Import Prelude ListAux.
From Verif.Model Require Import Element Elements Segment List Locks.
From Verif.Spec Require Import RankSpec QuerySpec HistorySpec LockSpec.
From Verif.Thm Require Import Sample.
Open Scope nat_scope.

(** [n] steps of call [t]; unfinished changes look like parts of [l2] *)
Definition go (t n : nat) : list (nat * (lst * list act)) := repeat (t, (l2, [])) n.
(** list.go:1344-1477: take the locks of the index segments and of the score
    segments that hold the old elements, then of the destinations, change, save and unlock *)
Definition up1_cells : list lock :=
  [LSeg true 3; LSeg false 0; LSeg true 1; LSeg false 1; LSeg true 0; LSeg false 2].
Definition up1_plan : list act :=
  map (fun k => Acq k true) up1_cells ++ map Dirty up1_cells ++
  flat_map (fun k => [Acq LStats true; Put k; Put LStats; Rel LStats; Rel k]) up1_cells.
Example up1_plan_ok : plan_for up1 l0 l1 up1_plan = true.
Proof. vm_compute. reflexivity. Qed.

Definition after (xs : list call) (s : list (nat * (lst * list act))) : conf :=
  match moves (start l0 xs) s with Some c => c | None => start l0 xs end.
Definition ok_run (xs : list call) (s : list (nat * (lst * list act))) : bool :=
  match moves (start l0 xs) s with Some _ => true | None => false end.
Lemma after_reaches xs s : ok_run xs s = true -> reaches l0 xs (after xs s).
Proof. unfold ok_run, after. intros H. exists s. destruct (moves (start l0 xs) s); [reflexivity|discriminate]. Qed.

(** an update and a lookup of element 5 with its neighbours above *)
Definition around_calls : list call := [CAround false [(true, 1)] 1 [] [0]; CModify false up1 []].
Definition around_sched := go 0 11 ++ go 1 6 ++ [(1, (l0, up1_plan))] ++ go 1 7.
(** an update and a query by score that starts in the segment of element 5 *)
Definition score_calls : list call := [CScore false 1 [1; 2]; CModify false up1 []].
Definition score_sched := go 0 8 ++ go 1 6 ++ [(1, (l0, up1_plan))] ++ go 1 7.
(** a split pass and Stats with the top and bottom elements *)
Definition stats_calls : list call := [CStats false [[(false, 0)]; [(false, 2)]]; CModify false (OSplit true 400) []].
Definition stats_sched := go 0 6 ++ go 1 5.
(** an update in the middle of a window over all segments *)
Definition torn_calls : list call := [CRead false [(false, 0); (false, 1); (false, 2)]; CModify false up1 []].
Definition torn_sched := go 0 9 ++ go 1 6 ++ [(1, (l0, up1_plan))] ++ go 1 56 ++ go 0 7.
Lemma split_ok : op_ok 2 4 m0 (OSplit true 400).
Proof. split; reflexivity. Qed.

(** no call can go on: every call has returned or waits for a lock it does not get *)
Definition waiting (c : conf) (t : nat) : bool :=
  match nth_error (c_threads c) t with
  | None => true
  | Some th =>
    match t_prog th with
    | [] => true
    | Acq k true :: _ => negb ((writers k (c_threads c) =? 0) && ((if t_ann th then readers k else queued k) (c_threads c) =? 0))
    | Acq k false :: _ => negb ((writers k (c_threads c) =? 0) && (queued k (c_threads c) =? 0))
    | _ => false
    end
  end.
Definition done_all (c : conf) : bool := forallb (fun th => match t_prog th with [] => true | _ => false end) (c_threads c).
Definition stuck (c : conf) : bool := negb (done_all c) && forallb (waiting c) (seq 0 (length (c_threads c))).
Lemma done_all_iff c : done_all c = true <-> finished c.
Proof.
  unfold done_all, finished. rewrite forallb_forall, Forall_forall. split; intros H th Hi; specialize (H th Hi); destruct (t_prog th); auto; discriminate.
Qed.
Lemma stuck_deadlock c : stuck c = true -> deadlock c.
Proof.
  unfold stuck. intros H. apply andb_true_iff in H as (A & B). split.
  - intros F. apply done_all_iff in F. rewrite F in A. discriminate.
  - intros t g p. unfold move. destruct (nth_error (c_threads c) t) as [th|] eqn:Et; [|reflexivity].
    rewrite forallb_forall in B. specialize (B t). rewrite in_seq in B.
    assert (t < length (c_threads c)) by (apply nth_error_Some; congruence). specialize (B ltac:(lia)).
    unfold waiting in B. rewrite Et in B. destruct (t_prog th) as [|[k [|]| | | | |] r]; try discriminate B; [reflexivity| |].
    + destruct (t_ann th); apply negb_true_iff in B; rewrite B; reflexivity.
    + apply negb_true_iff in B. rewrite B. reflexivity.
Qed.
Lemma not_done c : done_all c = false -> ~ finished c.
Proof. intros H F. apply done_all_iff in F. congruence. Qed.
