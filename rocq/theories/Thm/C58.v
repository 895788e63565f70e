(** C58: shutting down the delayed-write store. *)
From Coq Require Import Strings.String Strings.Ascii Strings.Byte.
From Verif.Lib Require Import Prelude ListAux.
From Verif.Model Require Import KV MaxSize Lazy LazyStop.
From Verif.Spec Require Import LazySpec LazyStopSpec.
From Verif.Proof Require Import LazyP LazyOne LazyStopP LazyStopRun.
Open Scope nat_scope.

(** Shutdown ends: the number of steps of all goroutines after the flag is set is bounded. *)
Theorem C58_ends : forall p mf K s c0, exists N, forall n tr c, shut p mf K s c0 n tr c -> n <= N.
Proof. intros p mf K s c0. exists (mu p c0). intros n tr c. exact (c58_ends p mf K s c0 n tr c). Qed.
Print Assumptions C58_ends.

(** Until Shutdown and all running calls have returned, some goroutine can move,
    without the timer and without a store call failing. *)
Theorem C58_moves : forall p mf K s c0 n tr c, par_ok p -> shut p mf K s c0 n tr c -> ~ finished c ->
  exists x e c', is_work x = true /\ x <> V_timer /\ may false K x /\ vfire p c x = Some (e, c').
Proof. exact c58_moves. Qed.
Print Assumptions C58_moves.

(** When Shutdown has returned, nothing is queued. *)
Theorem C58_nothing_left : forall p mf K s c0 n tr c, shut p mf K s c0 n tr c -> v_stop c = SRet -> l_q (v_l c) = [].
Proof. exact c58_nothing_left. Qed.
Print Assumptions C58_nothing_left.

(** With one saver and a store that does not fail, it then holds every latest write. *)
Theorem C58_stored : forall m f K s c0 n tr c, plain_sets K -> shut (mkVP m f 1) false K s c0 n tr c -> v_stop c = SRet ->
  forall k, K k -> l_kv (v_l c) k = after s tr k.
Proof. exact c58_stored. Qed.
Print Assumptions C58_stored.

(** Once Shutdown has returned, the store is not written again. *)
Theorem C58_still : forall p mf K s tr c n tr2 c', vexec p mf K s tr c -> v_stop c = SRet -> goes p mf K c n tr2 c' ->
  l_kv (v_l c') = l_kv (v_l c).
Proof. exact c58_still. Qed.
Print Assumptions C58_still.

(** Before Shutdown, a Set waiting for room is never stuck: the goroutines can finish it
    without the timer, new calls or failures. *)
Theorem C58_not_stuck : forall p mf K s tr c i, par_ok p -> vexec p mf K s tr c -> v_stop c = SNone ->
  nth_error (v_calls c) i = Some CTok -> exists c', helps p c c' /\ nth_error (v_calls c') i = Some CEnd.
Proof. exact c58_not_stuck. Qed.
Print Assumptions C58_not_stuck.

(** At all times the items not yet written number at most the limit plus the calls that
    have not returned. *)
Theorem C58_backlog : forall p mf K s tr c, vexec p mf K s tr c ->
  length (l_q (v_l c)) <= p_max p + blocked c + savers_done c.
Proof. exact c58_backlog. Qed.
Print Assumptions C58_backlog.

(** An item queued after the handler has returned is never written, and Shutdown and the
    calls never all return. *)
Theorem C58_late : forall p mf K s tr c n tr2 c', vexec p mf K s tr c -> v_h c = HExit ->
  (exists e, In e (l_q (v_l c)) /\ i_saving e = false) -> goes p mf K c n tr2 c' ->
  ~ finished c' /\ exists e, In e (l_q (v_l c')) /\ i_saving e = false.
Proof. exact c58_late. Qed.
Print Assumptions C58_late.

Definition ka : skey := ("s", "a")%string.
Definition kb : skey := ("s", "b")%string.
Definition kc : skey := ("s", "c")%string.
Definition KK (k : skey) : Prop := k = ka \/ k = kb \/ k = kc.
Lemma KK_ok : plain_sets KK.
Proof. intros k [->|[->| ->]]; cbn; intros [C|C]; try discriminate; exact C. Qed.
Definition p21 : vpar := mkVP 2 1 1.
Lemma p21_ok : par_ok p21. Proof. unfold par_ok; cbn; lia. Qed.
Ltac all_may := repeat (apply Forall_cons || apply Forall_nil); cbn; unfold KK; auto; discriminate.

(** three writes with room for two: the third Set waits while the first item is saved *)
Definition before58 : list vchoice :=
  [V_call ka (Some [x01]); V_adv 0; V_adv 0; V_adv 0; V_call kb (Some [x02]); V_adv 1; V_hand 0; V_adv 1; V_adv 1;
   V_call kc (Some [x03]); V_adv 2; V_adv 2].
Definition c58_full : vcfg := match play p21 (vstart p21 kv_empty) before58 with Some (_, _, c) => c | None => vstart p21 kv_empty end.
Definition tr58 : list levent := [LSet ka (Some [x01]); LSet kb (Some [x02]); LSet kc (Some [x03])].
Lemma full58 : vexec p21 false KK kv_empty tr58 c58_full.
Proof.
  apply (play_exec p21 false KK kv_empty before58 9 tr58 c58_full); [all_may|vm_compute; reflexivity].
Qed.
Example C58_waiting_ex : exists c, vexec p21 false KK kv_empty tr58 c /\ v_stop c = SNone /\ nth_error (v_calls c) 2 = Some CTok /\
  v_tok c = 0 /\ length (l_q (v_l c)) = 3 /\ blocked c = 1.
Proof. exists c58_full. split; [exact full58|]. repeat split; vm_compute; reflexivity. Qed.

(** Shutdown from there, up to its return *)
Definition during58 : list vchoice :=
  [V_stop_; V_hand 0; V_hand 0; V_sav 0 Good; V_sav 0 Good; V_adv 2; V_sav 0 Good; V_hand 0; V_hand 0; V_hand 0; V_sav 0 Good; V_sav 0 Good;
   V_stop_; V_sav 0 Good; V_hand 0; V_hand 0; V_hand 0; V_sav 0 Good; V_sav 0 Good; V_stop_; V_sav 0 Good; V_hand 0; V_stop_; V_stop_; V_sav 0 Good; V_stop_].
Definition flag58 : vcfg := set_stop c58_full SClose.
Definition end58 : vcfg := match play p21 flag58 during58 with Some (_, _, c) => c | None => flag58 end.
Example C58_shut_ex : exists c0 c, shut p21 false KK kv_empty c0 26 tr58 c /\ finished c /\
  l_kv (v_l c) ka = Some [x01] /\ l_kv (v_l c) kb = Some [x02] /\ l_kv (v_l c) kc = Some [x03].
Proof.
  exists flag58, end58. split; [|split].
  - exists tr58, c58_full, None, []. split; [exact full58|]. split; [reflexivity|]. split; [|split; [reflexivity|split; [|reflexivity]]].
    + intros [|[|[|i]]] k v C; vm_compute in C; try discriminate. destruct i; discriminate.
    + apply (play_goes p21 false KK during58); [all_may|]. vm_compute. reflexivity.
  - split; [reflexivity|]. intros [|[|[|i]]] x C; vm_compute in C; try (injection C as <-; reflexivity). destruct i; discriminate.
  - repeat split; vm_compute; reflexivity.
Qed.

(** A Set that has passed the check of the flag queues its item after the handler returned:
    it is told that all went well, the write never reaches the store, and Shutdown never
    returns. *)
Definition late58 : list vchoice := [V_call ka (Some [x01]); V_stop_; V_hand 0; V_adv 0; V_adv 0; V_adv 0].
Theorem C58_lost_refuted : exists p K s tr c i k v, par_ok p /\ vexec p false K s tr c /\ tr = [LSet k (Some v)] /\
  nth_error (v_calls c) i = Some CEnd /\
  forall n tr2 c', goes p false K c n tr2 c' -> l_kv (v_l c') k = None /\ v_stop c' <> SRet.
Proof.
  exists (mkVP 1 1 1), KK, kv_empty, [LSet ka (Some [x01])].
  destruct (play (mkVP 1 1 1) (vstart (mkVP 1 1 1) kv_empty) late58) as [((n & tr) & c)|] eqn:E; [|vm_compute in E; discriminate].
  assert (X : vexec (mkVP 1 1 1) false KK kv_empty tr c) by (apply (play_exec _ _ _ _ late58 n); [all_may|exact E]).
  vm_compute in E. injection E as <- <- <-.
  eexists _, 0, ka, [x01]. split; [unfold par_ok; cbn; lia|]. split; [exact X|]. split; [reflexivity|]. split; [reflexivity|].
  intros n2 tr2 c' G. split.
  - rewrite (fun D => dead_goes _ _ _ _ _ _ _ D G); [reflexivity|]. split; [reflexivity|].
    intros [|[|j]] x H; cbn in H; [injection H as <-; reflexivity|discriminate|discriminate].
  - intros C. assert (NF : ~ finished c') by (eapply (c58_late _ _ _ _ _ _ _ _ _ X eq_refl); [eexists; split; [left; reflexivity|reflexivity]|exact G]). apply NF. split; [exact C|].
    eapply ended_goes; [| |exact G]; [discriminate|]. intros [|[|i]] x H; cbn in H; [injection H as <-; reflexivity|discriminate|discriminate].
Qed.
Print Assumptions C58_lost_refuted.

(** The same, but Shutdown takes the last token first: it returns, and the Set never does. *)
Definition late58b : list vchoice :=
  [V_call ka (Some [x01]); V_stop_; V_hand 0; V_adv 0; V_adv 0; V_stop_; V_stop_; V_stop_; V_sav 0 Good; V_stop_; V_stop_].
Theorem C58_hangs_refuted : exists p K s tr c i, par_ok p /\ vexec p false K s tr c /\ v_stop c = SRet /\
  nth_error (v_calls c) i = Some CTok /\
  forall n tr2 c', goes p false K c n tr2 c' -> ~ calls_done c'.
Proof.
  exists (mkVP 1 1 1), KK, kv_empty.
  destruct (play (mkVP 1 1 1) (vstart (mkVP 1 1 1) kv_empty) late58b) as [((n & tr) & c)|] eqn:E; [|vm_compute in E; discriminate].
  assert (X : vexec (mkVP 1 1 1) false KK kv_empty tr c) by (apply (play_exec _ _ _ _ late58b n); [all_may|exact E]).
  vm_compute in E. injection E as <- <- <-.
  eexists _, _, 0. split; [unfold par_ok; cbn; lia|]. split; [exact X|]. split; [reflexivity|]. split; [reflexivity|].
  intros n2 tr2 c' G C.
  assert (NF : ~ finished c') by (eapply (c58_late _ _ _ _ _ _ _ _ _ X eq_refl); [eexists; split; [left; reflexivity|reflexivity]|exact G]). apply NF. split; [|exact C].
  exact (ret_goes _ _ _ _ _ _ _ _ _ (all_exec _ _ _ _ _ _ X) eq_refl G).
Qed.
Print Assumptions C58_hangs_refuted.
