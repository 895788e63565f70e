(** C83: nothing is left behind in the store. *)
From Coq Require Import Strings.String Strings.Ascii.
From Verif.Lib Require Import Prelude ListAux Bytes.
From Verif.Model Require Import Element Elements Segment List Keys Storage Fails.
From Verif.Spec Require Import RankSpec QuerySpec HistorySpec AnswerSpec KeySpec StorageSpec TidySpec.
From Verif.Proof Require Import KeysP StoreP StoreFinal TidyP3.
From Verif.Thm Require Import Sample SampleStore C25 C26 C27 C28 C61.
Open Scope N_scope.

(** Any number of lists are made, cloned, changed, split, merged, reindexed, repaired, replaced and
    removed, with restarts anywhere between the calls: a key that has something and had nothing at
    the start belongs to a list that still exists. *)
Theorem C83_tidy : forall st0 cfg w ms, runs_from st0 cfg w ms -> tidy st0 w.
Proof. exact c83_tidy. Qed.
Print Assumptions C83_tidy.

(** From an empty store: the keys that have something are exactly those of the lists. *)
Theorem C83_exact : forall cfg w ms, runs_from nothing cfg w ms ->
  forall k, w_st w k <> None <-> exists d, In d (w_ls w) /\ owned (d_l d) k.
Proof. exact c83_exact. Qed.
Print Assumptions C83_exact.

(** No key belongs to two lists. *)
Theorem C83_one : forall cfg w ms, runs cfg w ms -> forall i j d d' k, nth_error (w_ls w) i = Some d -> nth_error (w_ls w) j = Some d' ->
  owned (d_l d) k -> owned (d_l d') k -> i = j.
Proof. exact c83_one. Qed.
Print Assumptions C83_one.

(** When the last list is removed nothing is left of any. *)
Theorem C83_empty : forall st0 cfg w ms, runs_from st0 cfg w ms -> w_ls w = [] -> forall k, st0 k = None -> w_st w k = None.
Proof. exact c83_empty. Qed.
Print Assumptions C83_empty.

(** ** What the claim needs *)
Lemma from1 : runs_from (w_st w0) true w1 [(2%nat, 4%nat, m0)].
Proof.
  apply (F_act (w_st w0) true w0 [] new1 w1 (F_start _ _ _) new1_ok); [apply go_eq; vm_compute; reflexivity|]. constructor; [exact fit0|constructor].
Qed.
Lemma from2 : runs_from (w_st w0) true w2 [(2%nat, 4%nat, m0); (2%nat, 4%nat, mB)].
Proof.
  apply (F_act (w_st w0) true w1 _ new2 w2 from1 new2_ok); [apply go_eq; vm_compute; reflexivity|].
  constructor; [exact fit0|]. constructor; [exact fitB|constructor].
Qed.
Lemma from3 : runs_from (w_st w0) true w3 ms3.
Proof. apply (F_act (w_st w0) true w2 _ upd w3 from2 upd_ok); [apply go_eq; vm_compute; reflexivity|exact fits3]. Qed.
Lemma fromM : runs_from (w_st w0) true wM [(2%nat, 4%nat, mM); (2%nat, 4%nat, mB)].
Proof.
  apply (F_act (w_st w0) true w2 [(2%nat, 4%nat, m0); (2%nat, 4%nat, mB)] (AOp 0 delM no_ord) wM from2).
  - split; [|exact Logic.I]. intros g s m E. injection E as <- <- <-. exact delM_ok.
  - apply go_eq; vm_compute; reflexivity.
  - constructor; [apply (step_fits delM delM_ok); vm_compute; reflexivity|]. constructor; [exact fitB|constructor].
Qed.
Definition splitM : op := split0 true.
Definition lM' : lst := Eval vm_compute in done (step lM splitM).
Definition stM : store := fst (op_fails (but 1 Refused) no_ord true (d_hs dM) (d_hi dM) lM splitM lM' (w_st wM)).

(** The store does not delete a segment that was merged into another.  The pass returns no error;
    the segment stays, it is of no list, and removing the list later does not remove it. *)
Theorem C83_delete_refuted : exists st0 cfg w ms i o ord d l l' fs st' k, runs_from st0 cfg w ms /\
  nth_error (w_ls w) i = Some d /\ act_ok w ms (AOp i o ord) /\
  Storage.view (w_st w) (w_c w) d = Some l /\ step l o = Done l' /\
  op_fails fs ord cfg (d_hs d) (d_hi d) l o l' (w_st w) = (st', true) /\
  st0 k = None /\ ~ owned l' k /\ (forall d0, In d0 (w_ls w) -> owned (d_l d0) k -> d0 = d) /\
  st' k <> None /\ forall ord' hs hi, evs_store (delete_all_evs ord' hs hi l') st' k <> None.
Proof.
  assert (Ed : nth_error (w_ls wM) 0 = Some dM) by (vm_compute; reflexivity).
  assert (Hk : owned (d_l dM) (segment_key (lit "S") 2)).
  { destruct (nth_error (ss_segs (l_scores (d_l dM))) 1) as [s|] eqn:Es; [|vm_compute in Es; discriminate].
    right. right. left. exists s. split; [eapply nth_error_In; exact Es|]. vm_compute in Es. injection Es as <-. vm_compute. reflexivity. }
  exists (w_st w0), true, wM, [(2%nat, 4%nat, mM); (2%nat, 4%nat, mB)], 0%nat, splitM, no_ord, dM, lM, lM', (but 1 Refused), stM, (segment_key (lit "S") 2).
  split; [exact fromM|]. split; [exact Ed|].
  split; [split; [|exact Logic.I]; intros g s m _; split; reflexivity|].
  split; [vm_compute; reflexivity|]. split; [vm_compute; reflexivity|].
  split; [apply set_pair; vm_compute; reflexivity|].
  split; [vm_compute; reflexivity|].
  split; [intros [H|[H|[(s & Hs & H)|(s & Hs & H)]]]; [vm_compute in H; discriminate|vm_compute in H; discriminate| |];
    vm_compute in Hs; repeat (destruct Hs as [<-|Hs]; [vm_compute in H; discriminate|]); destruct Hs|].
  split.
  - intros x Hx HO. apply In_nth_error in Hx as (j & Ej).
    assert (E : 0%nat = j) by (eapply (C83_one true wM _ (from_runs _ _ _ _ fromM)); [exact Ed|exact Ej|exact Hk|exact HO]). subst j. congruence.
  - split; [vm_compute; discriminate|]. intros ord' hs hi. rewrite delete_all_left; [vm_compute; discriminate| |vm_compute; discriminate|vm_compute; discriminate].
    intros s Hs. vm_compute in Hs. repeat (destruct Hs as [<-|Hs]; [vm_compute; discriminate|]). destruct Hs.
Qed.
Print Assumptions C83_delete_refuted.

Definition stS : store := evs_store (firstn 2 (evs1 (split0 false))) (w_st w3).
Definition lS : lst := Eval vm_compute in match load stS 2 4 "S" "I" with Some l => l | None => l0 end.
(** The process stops in the middle of the pass: the second half of a segment is stored, the list
    of segments is not.  The list that loads does not have it, and its removal leaves it. *)
Theorem C83_stop_refuted : exists st0 cfg w ms i o ord d g s m l l' j lb k, runs_from st0 cfg w ms /\
  nth_error (w_ls w) i = Some d /\ nth_error ms i = Some (g, s, m) /\ act_ok w ms (AOp i o ord) /\
  Storage.view (w_st w) (w_c w) d = Some l /\ step l o = Done l' /\
  let st' := evs_store (firstn j (op_evs ord cfg (d_hs d) (d_hi d) l o l')) (w_st w) in
  load st' g s (l_scores_id (d_l d)) (l_index_id (d_l d)) = Some lb /\
  st0 k = None /\ w_st w k = None /\ ~ owned lb k /\
  st' k <> None /\ forall ord' hs hi, evs_store (delete_all_evs ord' hs hi lb) st' k <> None.
Proof.
  exists (w_st w0), true, w3, ms3, 0%nat, (split0 false), no_ord, d1, 2%nat, 4%nat, m1, l1, (done (step l1 (split0 false))), 2%nat, lS, (segment_key (lit "S") 4).
  split; [exact from3|]. split; [vm_compute; reflexivity|]. split; [reflexivity|].
  split; [split; [|exact Logic.I]; intros g s m _; split; reflexivity|].
  split; [vm_compute; reflexivity|]. split; [vm_compute; reflexivity|]. cbn zeta.
  split; [vm_compute; reflexivity|]. split; [vm_compute; reflexivity|]. split; [vm_compute; reflexivity|].
  split; [intros [H|[H|[(s & Hs & H)|(s & Hs & H)]]]; [vm_compute in H; discriminate|vm_compute in H; discriminate| |];
    vm_compute in Hs; repeat (destruct Hs as [<-|Hs]; [vm_compute in H; discriminate|]); destruct Hs|].
  split; [vm_compute; discriminate|]. intros ord' hs hi. rewrite delete_all_left; [vm_compute; discriminate| |vm_compute; discriminate|vm_compute; discriminate].
  intros s Hs. vm_compute in Hs. repeat (destruct Hs as [<-|Hs]; [vm_compute; discriminate|]). destruct Hs.
Qed.
Print Assumptions C83_stop_refuted.

(** ** Runs of the theorems *)
Lemma from4e : runs_from (w_st w0) true w4e ms3.
Proof.
  apply (F_act (w_st w0) true w4 ms3 (AEvict (fun _ => false)) w4e); [|exact Logic.I|reflexivity|exact fits3].
  apply (F_act (w_st w0) true w3 ms3 (AFill 1 false 0) w4 from3 Logic.I); [apply go_eq; vm_compute; reflexivity|exact fits3].
Qed.
Lemma from5 : runs_from (w_st w0) true w5 ms3.
Proof. apply (F_act (w_st w0) true w4e ms3 rep w5 from4e rep_ok); [apply go_eq; vm_compute; reflexivity|exact fits3]. Qed.
Lemma from6 : runs_from (w_st w0) true w6 [(2%nat, 4%nat, mB)].
Proof.
  apply (F_act (w_st w0) true w5 ms3 (ARemove 0 (fun _ => [])) w6 from5 Logic.I); [apply go_eq; vm_compute; reflexivity|]. constructor; [exact fitB|constructor].
Qed.
Definition w7 := go true w6 (ARemove 0 (fun _ => [])).
Lemma from7 : runs_from (w_st w0) true w7 [].
Proof. apply (F_act (w_st w0) true w6 [(2%nat, 4%nat, mB)] (ARemove 0 (fun _ => [])) w7 from6 Logic.I); [apply go_eq; vm_compute; reflexivity|constructor]. Qed.
(** two lists were made, updated, repaired under new names and removed: only the foreign key is left *)
Example C83_run : forall k, w_st w7 k <> None -> k = foreign.
Proof.
  intros k Hk. destruct (C83_tidy _ _ _ _ from7 k Hk) as [H|(d & Hd & _)]; [|vm_compute in Hd; destruct Hd].
  destruct (list_eq_dec ascii_dec k foreign) as [E|E]; [exact E|]. exfalso. apply H. cbn [w0 w_st]. rewrite put_other by exact E. reflexivity.
Qed.
Definition on (w : world) (ks : list (string * N)) : list bool :=
  map (fun x => match w_st w (segment_key (lit (fst x)) (snd x)) with Some _ => true | None => false end) ks.
(** the segments of the first list and of its successor, and of the second list, on the way *)
Example C83_way : map (fun w => on w [("S", 1); ("S", 3); ("S", 4); ("S2", 1); ("S2", 4); ("T", 1)]%string) [w0; w1; w2; w3; w5; w6; w7] =
  [[false; false; false; false; false; false]; [true; true; false; false; false; false]; [true; true; false; false; false; true];
   [true; true; false; false; false; true]; [false; false; false; true; true; true]; [false; false; false; false; false; true];
   [false; false; false; false; false; false]].
Proof. vm_compute. reflexivity. Qed.
(** the merge of C26 without failures: the merged segment is gone *)
Example C83_merged : on (go true wM (AOp 0 splitM no_ord)) [("S", 1); ("S", 2); ("S", 3)]%string = [true; false; true].
Proof. vm_compute. reflexivity. Qed.
(** from an empty store *)
Definition n1 := go true (mkW nothing (fun _ => None) []) new1.
Example C83_exact_holds : forall k, w_st n1 k <> None <-> exists d, In d (w_ls n1) /\ owned (d_l d) k.
Proof.
  apply (C83_exact true n1 [(2%nat, 4%nat, m0)]).
  apply (F_act nothing true (mkW nothing (fun _ => None) []) [] new1 n1 (F_start _ _ _)); [|apply go_eq; vm_compute; reflexivity|constructor; [exact fit0|constructor]].
  exact new1_ok.
Qed.
