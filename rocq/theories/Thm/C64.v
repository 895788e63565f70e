(** C64: limit on updates and orderly shutdown. *)
From Verif.Lib Require Import Prelude ListAux.
From Verif.Model Require Import Drain.
From Verif.Spec Require Import DrainSpec.
From Verif.Proof Require Import DrainP.
Open Scope nat_scope.

(** With a limit, the update requests whose handler is at work and the tokens left are always as
    many as the limit: no token is lost, none is made, and no more handlers are at work. *)
Theorem C64_limit : forall max tr s, dexec max tr s -> 0 < max -> updates s + d_free s = max.
Proof. exact c64_limit. Qed.
Print Assumptions C64_limit.

(** A request that arrives once the shutdown was begun does nothing, and can only be told that the
    server restarts. *)
Theorem C64_refused : forall s tr s' i r, d_stage s <> S_up -> dgoes s tr s' -> length (d_reqs s) <= i -> nth_error (d_reqs s') i = Some r ->
  (r_pc r = P_new \/ r_pc r = P_end A_shut) /\ r_going r = [] /\ r_done r = [].
Proof. exact c64_refused. Qed.
Print Assumptions C64_refused.

(** Success is told of what took effect, no more and no less, when nothing of the request is worked
    on any more. *)
Theorem C64_truth : forall max tr s i r ts, dexec max tr s -> nth_error (d_reqs s) i = Some r -> r_pc r = P_end (A_ok ts) ->
  (forall t, In t ts <-> In (i, t) (d_eff s) \/ In (i, t) (d_gone s)) /\ r_going r = [].
Proof. exact c64_truth. Qed.
Print Assumptions C64_truth.
(** What took effect was asked for by a request that was not refused. *)
Theorem C64_owned : forall max tr s i t, dexec max tr s -> In (i, t) (d_eff s) \/ In (i, t) (d_gone s) ->
  exists r, nth_error (d_reqs s) i = Some r /\ In t (r_tasks r) /\ r_pc r <> P_end A_shut /\ r_pc r <> P_end A_cancelled.
Proof. exact c64_owned. Qed.
Print Assumptions C64_owned.

(** If no stage runs out of time, then no handler is at work from the beginning of the last save on ... *)
Theorem C64_quiet : forall max tr s i r b, dexec max tr s -> in_time tr -> d_stage s = S_save b \/ d_stage s = S_close \/ d_stage s = S_closed ->
  nth_error (d_reqs s) i = Some r -> r_pc r = P_new \/ exists a, r_pc r = P_end a.
Proof. exact c64_quiet. Qed.
Print Assumptions C64_quiet.
(** ... and everything that any client was told is done is in what the last save found. *)
Theorem C64_kept : forall max tr s i r ts t, dexec max tr s -> in_time tr -> d_stage s = S_closed ->
  nth_error (d_reqs s) i = Some r -> r_pc r = P_end (A_ok ts) -> In t ts -> In (i, t) (d_saved s).
Proof. exact c64_kept. Qed.
Print Assumptions C64_kept.

(** Once the shutdown was begun, and while no new request comes, the server makes only so many
    steps, and when it can make no more the store is closed and every request has its answer:
    no request and no stage waits for another for ever. *)
Theorem C64_drains : forall s, d_stage s <> S_up ->
  (exists n, forall tr s', dgoes s tr s' -> Forall own tr -> length tr <= n) /\
  forall tr s', dgoes s tr s' -> Forall own tr -> (forall e s'', own e -> dnext s' e <> Some s'') -> d_stage s' = S_closed /\ Forall ended (d_reqs s').
Proof. exact c64_drains. Qed.
Print Assumptions C64_drains.

(** ** What does not hold *)
(** The limit is one on handlers, not on work: when the client of a request on several lists goes
    away, its handler returns while its goroutines go on, and another update is let in. *)
Definition two_busy : list devent :=
  [E_arrive true true [1; 2]; E_lock 0; E_token 0; E_begin 0; E_cancel 0; E_abandon 0;
   E_arrive true false [3]; E_lock 1; E_token 1; E_begin 1].
Theorem C64_limit_refuted : exists max tr s, dexec max tr s /\ in_time tr /\ 0 < max /\ max < length (filter busy (d_reqs s)).
Proof.
  exists 1, (rev two_busy). eexists. split; [apply drun_exec; vm_compute; reflexivity|].
  split; [intros C; vm_compute in C; intuition discriminate|]. split; vm_compute; lia.
Qed.
Print Assumptions C64_limit_refuted.

(** For the same reason effects can come after the last save, and after the store was closed. *)
Definition late : list devent :=
  [E_arrive true true [1; 2; 3]; E_lock 0; E_token 0; E_begin 0; E_begin 0; E_cancel 0; E_abandon 0; E_shutdown; E_told; E_locks; E_stopped;
   E_save; E_effect 0 1 false; E_saved; E_close; E_effect 0 2 false].
Theorem C64_late_refuted : exists max tr s i t u, dexec max tr s /\ in_time tr /\ d_stage s = S_closed /\
  In (i, t) (d_eff s) /\ ~ In (i, t) (d_saved s) /\ In (i, u) (d_gone s).
Proof.
  exists 4, (rev late). eexists. exists 0, 1, 2. split; [apply drun_exec; vm_compute; reflexivity|].
  split; [intros C; vm_compute in C; intuition discriminate|]. cbn. intuition.
Qed.
Print Assumptions C64_late_refuted.

(** And when a stage runs out of time, what a client was told is done may have come after that. *)
Definition too_slow : list devent :=
  [E_arrive true false [1]; E_lock 0; E_token 0; E_begin 0; E_shutdown; E_told; E_timeout; E_stopped; E_save; E_saved; E_close;
   E_effect 0 1 false; E_answer 0].
Theorem C64_timeout_refuted : exists max tr s i r ts t, dexec max tr s /\ d_stage s = S_closed /\
  nth_error (d_reqs s) i = Some r /\ r_pc r = P_end (A_ok ts) /\ In t ts /\ ~ In (i, t) (d_saved s) /\ In (i, t) (d_gone s).
Proof.
  exists 4, (rev too_slow). eexists. exists 0. eexists. exists [1], 1. split; [apply drun_exec; vm_compute; reflexivity|].
  split; [reflexivity|]. split; [reflexivity|]. split; [reflexivity|]. cbn. intuition.
Qed.
Print Assumptions C64_timeout_refuted.

(** ** Cases *)
(** one update at work, one waiting for the only token, when the shutdown is begun; a third comes then *)
Definition busy_end : list devent :=
  [E_arrive true false [1]; E_lock 0; E_token 0; E_begin 0; E_arrive true true [1; 2]; E_lock 1; E_shutdown; E_arrive true false [7]].
Definition at_end : dst := Eval vm_compute in match drun (dinit 1) busy_end with Some s => s | None => dinit 1 end.
Example C64_ex_limit : dexec 1 (rev busy_end) at_end /\ updates at_end = 1 /\ d_free at_end = 0 /\ d_stage at_end = S_pre /\
  dnext at_end (E_token 1) = None.
Proof. split; [apply drun_exec; vm_compute; reflexivity|]. repeat split. Qed.
(** the first is answered, the second and the third are refused, and the first one's effect is kept *)
Definition the_end : list devent :=
  [E_lock 2; E_told; E_refused 1; E_effect 0 1 true; E_answer 0; E_locks; E_pass; E_passed; E_stopped; E_save; E_saved; E_close].
Definition at_rest : dst := Eval vm_compute in match drun at_end the_end with Some s => s | None => at_end end.
Example C64_ex_kept : dexec 1 (rev (busy_end ++ the_end)) at_rest /\ in_time (rev (busy_end ++ the_end)) /\ d_stage at_rest = S_closed /\
  map r_pc (d_reqs at_rest) = [P_end (A_ok [1]); P_end A_shut; P_end A_shut] /\ d_saved at_rest = [(0, 1)] /\ updates at_rest + d_free at_rest = 1.
Proof.
  split; [apply drun_exec; vm_compute; reflexivity|]. split; [intros C; vm_compute in C; intuition discriminate|]. repeat split.
Qed.
Example C64_ex_drains : d_stage at_end <> S_up /\ dgoes at_end (rev the_end) at_rest /\ Forall own (rev the_end) /\ Forall ended (d_reqs at_rest) /\
  forall e s'', own e -> dnext at_rest e <> Some s''.
Proof.
  split; [discriminate|]. split; [rewrite <- (app_nil_r (rev the_end)); apply (drun_goes the_end at_end [] at_end); [constructor|vm_compute; reflexivity]|].
  split; [repeat constructor|]. split; [repeat constructor; eexists; reflexivity|].
  intros e s'' Oe. destruct e as [u m ts|i|i|i|i|i|i|i t a|i t|i|i| | | | | | | | | |]; try contradiction; try discriminate;
    destruct i as [|[|[|i]]]; try discriminate; cbn; try rewrite nth_error_nil; destruct i; discriminate.
Qed.
(** the third one's case of C64_refused *)
Definition begun : dst := Eval vm_compute in match drun (dinit 1) (firstn 7 busy_end) with Some s => s | None => dinit 1 end.
Example C64_ex_refused : exists s' r, d_stage begun = S_pre /\ length (d_reqs begun) = 2 /\ dgoes begun [E_lock 2; E_arrive true false [7]] s' /\
  nth_error (d_reqs s') 2 = Some r /\ r_pc r = P_end A_shut.
Proof.
  eexists. eexists. split; [reflexivity|]. split; [reflexivity|].
  split; [apply (drun_goes [E_arrive true false [7]; E_lock 2] begun [] begun); [constructor|vm_compute; reflexivity]|]. split; reflexivity.
Qed.
(** a request on three lists of which one fails: only the two are told *)
Definition part : list devent :=
  [E_arrive true true [1; 2; 3]; E_lock 0; E_token 0; E_begin 0; E_begin 0; E_effect 0 1 false; E_begin 0; E_fail 0 2; E_effect 0 3 true; E_answer 0].
Example C64_ex_truth : exists s r, dexec 0 (rev part) s /\ nth_error (d_reqs s) 0 = Some r /\ r_pc r = P_end (A_ok [3; 1]) /\
  d_eff s = [(0, 3); (0, 1)] /\ d_queue s = 1.
Proof. eexists. eexists. split; [apply drun_exec; vm_compute; reflexivity|]. repeat split. Qed.
