(** C50: calls on one list take effect one after the other. *)
From Coq Require Import Strings.String Sorting.Permutation.
From Verif.Lib Require Import Prelude ListAux.
From Verif.Model Require Import Element Elements Segment List Locks.
From Verif.Spec Require Import RankSpec QuerySpec HistorySpec LockSpec.
From Verif.Proof Require Import LocksThm.
From Verif.Thm Require Import Sample SampleLocks.
Open Scope nat_scope.

(** When all calls have returned, the list is the result of carrying out every
    modifying call exactly once, one after the other. *)
Theorem C50_serial : forall l xs c, Forall (fun x => call_ok x = true) xs -> reaches l xs c -> finished c ->
  run l (done_ops c) = Done (c_cur c) /\ (forall t x, nth_error xs t = Some x -> ops_by t c = op_of x) /\
  (forall e, In e (c_log c) -> fst e < length xs).
Proof. exact c50_serial. Qed.
Print Assumptions C50_serial.

(** The same at every moment at which nobody uses the segments. *)
Theorem C50_unused : forall l xs c, Forall (fun x => call_ok x = true) xs -> reaches l xs c -> unused c ->
  run l (done_ops c) = Done (c_cur c).
Proof. exact c50_unused. Qed.
Print Assumptions C50_unused.

(** The order agrees with real time: what a call does that starts when [t] has
    returned comes after what [t] did. *)
Theorem C50_order : forall l xs c s c' t u x tht thu, reaches l xs c -> moves c s = Some c' ->
  nth_error (c_threads c) t = Some tht -> t_prog tht = [] ->
  nth_error xs u = Some x -> nth_error (c_threads c) u = Some thu -> t_prog thu = prog_of x ->
  exists more, c_log c' = c_log c ++ more /\ ~ In t (map fst more) /\ ~ In u (map fst (c_log c)).
Proof. exact c50_order. Qed.
Print Assumptions C50_order.

(** So a list is a reachable list again, and stands for the map that the modifying
    calls make of the old one. *)
Theorem C50_history : forall merge split l m xs c, reachable merge split l m ->
  Forall (fun x => call_ok x = true) xs -> reaches l xs c -> unused c -> ops_ok merge split m (done_ops c) ->
  reachable merge split (c_cur c) (spec_run m (done_ops c)).
Proof. exact c50_history. Qed.
Print Assumptions C50_history.

(** A segment that a call reads is the segment after all operations begun before the
    read, or after all but the last of them: never one in the middle of a change. *)
Theorem C50_reads : forall l xs c t th n b i v, Forall (fun x => call_ok x = true) xs -> reaches l xs c ->
  nth_error (c_threads c) t = Some th -> In (n, (b, i), v) (t_got th) ->
  n <= length (done_ops c) /\ exists l', v = seg_of b i l' /\
    (run l (firstn n (done_ops c)) = Done l' \/ run l (firstn (n - 1) (done_ops c)) = Done l').
Proof. exact c50_reads. Qed.
Print Assumptions C50_reads.

(** Who holds a lock for writing holds it alone; who reads a segment holds it and the
    segments.  So no segment is read during a split, a reindex or a populate. *)
Theorem C50_exclusive : forall l xs c k t u w, Forall (fun x => call_ok x = true) xs -> reaches l xs c ->
  holding k true t c -> holding k w u c -> u = t.
Proof. exact c50_mutex. Qed.
Print Assumptions C50_exclusive.
Theorem C50_get : forall l xs c t th b i r, Forall (fun x => call_ok x = true) xs -> reaches l xs c ->
  nth_error (c_threads c) t = Some th -> t_prog th = Get b i :: r ->
  (exists w, holding LSegs w t c) /\ (exists w, holding (LSeg b i) w t c).
Proof. exact c50_get. Qed.
Print Assumptions C50_get.

(** But a window over several segments is not one moment of the list: it can show an
    element twice although the list never holds it twice. *)
Definition got_ids (i : nat) (th : thread) : list N :=
  flat_map (fun e => match e with (_, (false, j), Some s) => if j =? i then map e_id (sg_elems s) else [] | _ => [] end) (t_got th).
Definition all_ids (l : lst) : list N := flat_map (fun s => map e_id (sg_elems s)) (ss_segs (l_scores l)).
Theorem C50_window_refuted : exists merge split l m ks o c th i j id,
  reachable merge split l m /\ op_ok merge split m o /\
  reaches l [CRead false ks; CModify false o []] c /\ finished c /\
  nth_error (c_threads c) 0 = Some th /\ i <> j /\ In id (got_ids i th) /\ In id (got_ids j th) /\
  (forall n l', run l (firstn n (done_ops c)) = Done l' -> NoDup (all_ids l')).
Proof.
  exists 2, 4, l0, m0, [(false, 0); (false, 1); (false, 2)], up1, (after torn_calls torn_sched).
  assert (E : match nth_error (c_threads (after torn_calls torn_sched)) 0 with
    | Some th => (existsb (N.eqb 1) (got_ids 0 th) && existsb (N.eqb 1) (got_ids 2 th))%bool | None => false end = true)
    by (vm_compute; reflexivity).
  destruct (nth_error (c_threads (after torn_calls torn_sched)) 0) as [th|]; [|discriminate E].
  apply andb_true_iff in E as (E1 & E2). apply existsb_exists in E1 as (x & H1 & X1), E2 as (y & H2 & X2).
  apply N.eqb_eq in X1, X2. subst x y.
  exists th, 0, 2, 1%N. split; [exact l0_reach|]. split; [exact up1_ok|].
  split; [apply after_reaches; vm_compute; reflexivity|]. split; [apply done_all_iff; vm_compute; reflexivity|].
  split; [reflexivity|]. split; [discriminate|]. split; [exact H1|]. split; [exact H2|].
  assert (D : done_ops (after torn_calls torn_sched) = [up1]) by (vm_compute; reflexivity). rewrite D.
  intros [|n] l' H; cbn [firstn run] in H.
  - injection H as <-. apply (NoDup_nodup N.eq_dec (all_ids l0)).
  - rewrite firstn_nil in H. assert (L : match step l0 up1 with Done l => run l [] = Done l1 | _ => False end) by (vm_compute; reflexivity).
    destruct (step l0 up1) as [l| | |]; try discriminate H. rewrite L in H. injection H as <-. apply (NoDup_nodup N.eq_dec (all_ids l1)).
Qed.
Print Assumptions C50_window_refuted.

(** An update between two reads of a window, and a second window during the update. *)
Example C50_ex : reaches l0 torn_calls (after torn_calls torn_sched) /\ finished (after torn_calls torn_sched) /\
  done_ops (after torn_calls torn_sched) = [up1] /\ c_cur (after torn_calls torn_sched) = l1.
Proof.
  split; [apply after_reaches; vm_compute; reflexivity|]. split; [apply done_all_iff; vm_compute; reflexivity|].
  split; vm_compute; reflexivity.
Qed.
(** In the middle of the update the list is neither the old one nor the new one. *)
Definition mid := after torn_calls (go 1 6 ++ [(1, (l0, up1_plan))] ++ go 1 23).
Example C50_ex_mid : reaches l0 torn_calls mid /\ c_cur mid <> l0 /\ c_cur mid <> l1 /\ holding (LSeg false 1) true 1 mid.
Proof.
  split; [apply after_reaches; vm_compute; reflexivity|]. split; [|split].
  - intros C. assert (X : (if lst_eq_dec (c_cur mid) l0 then true else false) = false) by (vm_compute; reflexivity).
    rewrite C in X. destruct (lst_eq_dec l0 l0); [discriminate|congruence].
  - intros C. assert (X : (if lst_eq_dec (c_cur mid) l1 then true else false) = false) by (vm_compute; reflexivity).
    rewrite C in X. destruct (lst_eq_dec l1 l1); [discriminate|congruence].
  - unfold holding. assert (E : match nth_error (c_threads mid) 1 with
      | Some th => existsb (fun h => lock_eqb (LSeg false 1) (fst h) && snd h) (t_held th) | None => false end = true) by (vm_compute; reflexivity).
    destruct (nth_error (c_threads mid) 1) as [th|]; [|discriminate]. exists th. split; [reflexivity|].
    apply existsb_exists in E as ((k & w) & Hin & E). apply andb_true_iff in E as (E & Ew). cbn in E, Ew.
    unfold lock_eqb in E. destruct (lock_eq_dec (LSeg false 1) k) as [<-|]; [|discriminate]. subst w. exact Hin.
Qed.
