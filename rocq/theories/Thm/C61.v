(** C61: calls during which writes of the store fail. *)
From Coq Require Import Strings.String Strings.Ascii.
From Verif.Lib Require Import Prelude ListAux ListLemmas Bytes.
From Verif.Model Require Import Element Elements Segment List Keys Storage Fails.
From Verif.Spec Require Import RankSpec QuerySpec HistorySpec AnswerSpec StorageSpec FailsSpec.
From Verif.Proof Require Import ListThm HistoryP CrashP FailsP.
From Verif.Thm Require Import Sample SampleStore C25 C26.
Open Scope N_scope.

(** Insert, Split, Reindex, Repair and Populate that return no error have stored the whole
    result, whichever writes failed: it is read with the cache and after a restart. *)
Theorem C61_done : forall cfg w ms i o ord d g s m l l' fs st' cfg',
  runs cfg w ms -> nth_error (w_ls w) i = Some d -> nth_error ms i = Some (g, s, m) ->
  act_ok w ms (AOp i o ord) -> Storage.view (w_st w) (w_c w) d = Some l -> step l o = Done l' -> map_fits (spec_step m o) -> sure o ->
  op_fails fs ord cfg (d_hs d) (d_hi d) l o l' (w_st w) = (st', true) ->
  let c' := evs_cache (op_evs ord cfg (d_hs d) (d_hi d) l o l') (w_c w) in
  let f := op_flags cfg (d_hs d) (d_hi d) l o in
  reachable g s l' (spec_step m o) /\ Storage.view st' c' (mkLd l' (fst f) (snd f)) = Some l' /\
  exists d2, reopen cfg' st' (mkLd l' (fst f) (snd f)) = Some d2 /\ Storage.view st' (fun _ => None) d2 = Some (reload l').
Proof. exact c61_done. Qed.
Print Assumptions C61_done.

(** After an update, an insert or a delete, whatever failed and whatever it returned, a restart and
    Repair give a list with every element that the call was not to change and none that is
    neither old nor new. *)
Theorem C61_recovers : forall cfg w ms i o ord d g s m l l' fs st' ok,
  runs cfg w ms -> nth_error (w_ls w) i = Some d -> nth_error ms i = Some (g, s, m) ->
  act_ok w ms (AOp i o ord) -> in_place o -> Storage.view (w_st w) (w_c w) d = Some l -> step l o = Done l' -> map_fits (spec_step m o) ->
  op_fails fs ord cfg (d_hs d) (d_hi d) l o l' (w_st w) = (st', ok) ->
  recovers g s st' (d_l d) (fun x => sin m x /\ sin (spec_step m o) x) (fun x => sin m x \/ sin (spec_step m o) x).
Proof. exact c61_recovers. Qed.
Print Assumptions C61_recovers.

(** A delete that returns no error has removed the elements: Repair does not bring them back. *)
Theorem C61_deleted : forall cfg w ms i now sc1 sc2 ids ord d g s m l l' fs st', let o := ODelete now sc1 sc2 ids in
  runs cfg w ms -> nth_error (w_ls w) i = Some d -> nth_error ms i = Some (g, s, m) ->
  act_ok w ms (AOp i o ord) -> Storage.view (w_st w) (w_c w) d = Some l -> step l o = Done l' -> map_fits (spec_step m o) ->
  op_fails fs ord cfg (d_hs d) (d_hi d) l o l' (w_st w) = (st', true) ->
  recovers g s st' (d_l d) (fun x => sin m x /\ ~ In (e_id x) ids) (fun x => sin m x /\ ~ In (e_id x) ids).
Proof. exact c61_deleted. Qed.
Print Assumptions C61_deleted.

(** The pass that splits and merges: as for a stop (C26), also when deletes fail on the way. *)
Theorem C61_split : forall cfg w ms i merge now ord d g s m l l' fs st' ok, let o := OSplit merge now in
  runs cfg w ms -> nth_error (w_ls w) i = Some d -> nth_error ms i = Some (g, s, m) ->
  act_ok w ms (AOp i o ord) -> Storage.view (w_st w) (w_c w) d = Some l -> step l o = Done l' ->
  op_fails fs ord cfg (d_hs d) (d_hi d) l o l' (w_st w) = (st', ok) ->
  merge = false \/ Forall (fun t => (length (sg_elems t) < s)%nat) (ss_segs (l_scores l)) ->
  recovers g s st' (d_l d)
    (fun x => sin m x /\ forall t, In t (ss_segs (l_scores l)) -> In x (sg_elems t) -> (length (sg_elems t) < s)%nat) (sin m).
Proof. exact c61_split. Qed.
Print Assumptions C61_split.

(** Reindex, whatever fails: the list it leaves in memory reopens with the same elements and a
    sound index. *)
Theorem C61_reindex : forall cfg w ms i ni now sc ord d g s m l l' fs st' ok cfg', let o := OReindex ni now sc in
  runs cfg w ms -> nth_error (w_ls w) i = Some d -> nth_error ms i = Some (g, s, m) ->
  act_ok w ms (AOp i o ord) -> Storage.view (w_st w) (w_c w) d = Some l -> step l o = Done l' ->
  op_fails fs ord cfg (d_hs d) (d_hi d) l o l' (w_st w) = (st', ok) ->
  exists d2 l2, reopen cfg' st' (mkLd (reindex_left fs l l') (d_hs d) (d_hi d)) = Some d2 /\ Storage.view st' (fun _ => None) d2 = Some l2 /\
    reachable g s l2 m /\ (ok = true -> reindex_left fs l l' = l').
Proof. exact c61_reindex. Qed.
Print Assumptions C61_reindex.

(** Whatever fails, the other lists are read after a restart as they were. *)
Theorem C61_others : forall cfg w ms i j o ord d d' l l' fs st' ok cfg', runs cfg w ms ->
  nth_error (w_ls w) i = Some d -> nth_error (w_ls w) j = Some d' -> i <> j ->
  act_ok w ms (AOp i o ord) -> o <> OReload -> Storage.view (w_st w) (w_c w) d = Some l -> step l o = Done l' ->
  op_fails fs ord cfg (d_hs d) (d_hi d) l o l' (w_st w) = (st', ok) ->
  exists d2 l1 l2, reopen cfg' st' d' = Some d2 /\ Storage.view (w_st w) (w_c w) d' = Some l1 /\ Storage.view st' (fun _ => None) d2 = Some l2 /\
    stored_in l2 = stored_in l1 /\ indexed_in l2 = indexed_in l1.
Proof. exact c61_others. Qed.
Print Assumptions C61_others.

(** If nothing fails the call returns no error and stores what Model/Storage.v says. *)
Theorem C61_clean : forall fs ord cfg hs hi l o l' st, (forall n, fs n = Kept) ->
  op_fails fs ord cfg hs hi l o l' st = (evs_store (op_evs ord cfg hs hi l o l') st, true).
Proof. exact c61_clean. Qed.
Print Assumptions C61_clean.

(** If every write reaches the store, but some are answered with an error, as after a timeout, then
    a call that returns no error, an update too, has stored the whole result. *)
Theorem C61_unsure : forall fs ord cfg hs hi l o l' st st', (forall n, fs n <> Refused) ->
  op_fails fs ord cfg hs hi l o l' st = (st', true) -> st' = evs_store (op_evs ord cfg hs hi l o l') st.
Proof. exact c61_unsure. Qed.
Print Assumptions C61_unsure.

(** ** What is lost *)
(** all writes succeed but number [k] *)
Definition but (k : nat) (f : fate) : nat -> fate := fun n => if Nat.eqb n k then f else Kept.
Definition failed (k : nat) (o : op) : store * bool := op_fails (but k Refused) no_ord true (d_hs d0) (d_hi d0) l0 o (done (step l0 o)) s0.
Definition ids_after (st : store) : list N := map e_id (stored_in (repaired 2 4 "S" "I" st)).
Definition ms2 : list entry := [(2%nat, 4%nat, m0); (2%nat, 4%nat, mB)].
Lemma set_pair (p : store * bool) b : snd p = b -> p = (fst p, b).
Proof. intros <-. apply surjective_pairing. Qed.
Lemma ld0 : nth_error (w_ls w2) 0 = Some d0.
Proof. vm_compute. reflexivity. Qed.

(** An update returns no error although an element is lost, the old and the new one: the segment
    it moves to was not written, and that error is only logged. *)
Theorem C61_update_refuted : exists cfg w ms i o ord d g s m l l' fs st' y, runs cfg w ms /\
  nth_error (w_ls w) i = Some d /\ nth_error ms i = Some (g, s, m) /\ act_ok w ms (AOp i o ord) /\
  Storage.view (w_st w) (w_c w) d = Some l /\ step l o = Done l' /\ in_place o /\
  op_fails fs ord cfg (d_hs d) (d_hi d) l o l' (w_st w) = (st', true) /\
  sin m y /\ spec_step m o (e_id y) <> None /\
  exists lb l2, load st' g s (l_scores_id (d_l d)) (l_index_id (d_l d)) = Some lb /\
    repair_stored st' "S3" "I3" 600 (fun _ => []) [] [] (fun _ => []) 0 lb = Done l2 /\
    forall x, In x (stored_in l2) -> e_id x <> e_id y.
Proof.
  destruct (load (fst (failed 5 up1)) 2 4 "S" "I") as [lb|] eqn:Eb; [|vm_compute in Eb; discriminate].
  exists true, w2, ms2, 0%nat, up1, no_ord, d0, 2%nat, 4%nat, m0, l0, l1, (but 5 Refused), (fst (failed 5 up1)), (mkE 90 1 [] 0 100).
  split; [exact runs2|]. split; [exact ld0|]. split; [reflexivity|]. split; [exact upd_ok|].
  split; [vm_compute; reflexivity|]. split; [vm_compute; reflexivity|]. split; [exact I|].
  split. { apply set_pair. vm_compute. reflexivity. }
  split; [vm_compute; reflexivity|].
  split; [vm_compute; discriminate|]. exists lb, (repaired 2 4 "S" "I" (fst (failed 5 up1))). split; [exact Eb|].
  vm_compute in Eb. injection Eb as <-. split; [vm_compute; reflexivity|].
  intros x Hx. vm_compute in Hx. repeat (destruct Hx as [<-|Hx]; [discriminate|]). destruct Hx.
Qed.
Print Assumptions C61_update_refuted.

(** A delete returns no error although the index still has the entry; after a restart an update
    that brings the element back returns no error and stores nothing. *)
Definition back : op := OUpdate (fun _ => 400) (fun _ => 401) 402 [] [mkE 90 1 [] 0 0].
Definition reopened (st : store) : lst :=
  match reopen true st d0 with
  | Some d => match Storage.view st (fun _ => None) d with Some l => l | None => l3 end
  | None => l3
  end.
Theorem C61_delete_refuted : exists cfg w ms i o ord d g s m l l' fs st' d2 l2 o2 l3 y, runs cfg w ms /\
  nth_error (w_ls w) i = Some d /\ nth_error ms i = Some (g, s, m) /\ act_ok w ms (AOp i o ord) /\
  Storage.view (w_st w) (w_c w) d = Some l /\ step l o = Done l' /\ o = del0 /\
  op_fails fs ord cfg (d_hs d) (d_hi d) l o l' (w_st w) = (st', true) /\
  reopen true st' d = Some d2 /\ Storage.view st' (fun _ => None) d2 = Some l2 /\
  o2 = OUpdate (fun _ => 400) (fun _ => 401) 402 [] [y] /\ op_ok g s (spec_step m o) o2 /\ step l2 o2 = Done l3 /\
  forall x, In x (stored_in l3) -> e_id x <> e_id y.
Proof.
  destruct (reopen true (fst (failed 5 del0)) d0) as [d2|] eqn:Eb; [|vm_compute in Eb; discriminate].
  exists true, w2, ms2, 0%nat, del0, no_ord, d0, 2%nat, 4%nat, m0, l0, (done (step l0 del0)), (but 5 Refused), (fst (failed 5 del0)), d2,
    (reopened (fst (failed 5 del0))), back, (done (step (reopened (fst (failed 5 del0))) back)), (mkE 90 1 [] 0 0).
  split; [exact runs2|]. split; [exact ld0|]. split; [reflexivity|].
  split. { split; [|exact I]. intros g s m E. injection E as <- <- <-. exact del0_ok. }
  split; [vm_compute; reflexivity|]. split; [vm_compute; reflexivity|]. split; [reflexivity|].
  split. { apply set_pair. vm_compute. reflexivity. }
  split; [exact Eb|]. split. { vm_compute in Eb. injection Eb as <-. vm_compute. reflexivity. }
  split; [reflexivity|]. split.
  { split; [|split; [|split; [|split]]].
    - apply distinct_by. vm_compute. reflexivity.
    - apply (forall_by srb); [exact srb_storable|vm_compute; reflexivity].
    - intros _. split; reflexivity.
    - intros _. split; reflexivity.
    - split; reflexivity. }
  split; [vm_compute; reflexivity|].
  intros x Hx. vm_compute in Hx. repeat (destruct Hx as [<-|Hx]; [discriminate|]). destruct Hx.
Qed.
Print Assumptions C61_delete_refuted.

(** A pass that splits reports an error, and elements are lost. *)
Definition failed1 (k : nat) (o : op) : store * bool := op_fails (but k Refused) no_ord true (d_hs d1) (d_hi d1) l1 o (done (step l1 o)) (w_st w3).
Theorem C61_split_refuted : exists cfg w ms i o ord d g s m l l' fs st' y, runs cfg w ms /\
  nth_error (w_ls w) i = Some d /\ nth_error ms i = Some (g, s, m) /\ act_ok w ms (AOp i o ord) /\
  Storage.view (w_st w) (w_c w) d = Some l /\ step l o = Done l' /\ o = OSplit false 300 /\
  op_fails fs ord cfg (d_hs d) (d_hi d) l o l' (w_st w) = (st', false) /\ sin m y /\
  exists lb l2, load st' g s (l_scores_id (d_l d)) (l_index_id (d_l d)) = Some lb /\
    repair_stored st' "S3" "I3" 600 (fun _ => []) [] [] (fun _ => []) 0 lb = Done l2 /\
    forall x, In x (stored_in l2) -> e_id x <> e_id y.
Proof.
  destruct (load (fst (failed1 1 (split0 false))) 2 4 "S" "I") as [lb|] eqn:Eb; [|vm_compute in Eb; discriminate].
  exists true, w3, ms3, 0%nat, (split0 false), no_ord, d1, 2%nat, 4%nat, m1, l1, (done (step l1 (split0 false))), (but 1 Refused), (fst (failed1 1 (split0 false))), (mkE 50 6 [] 0 100).
  split; [exact runs3|]. split; [vm_compute; reflexivity|]. split; [reflexivity|].
  split; [split; [|exact I]; intros g s m _; split; reflexivity|].
  split; [vm_compute; reflexivity|]. split; [vm_compute; reflexivity|]. split; [reflexivity|].
  split. { apply set_pair. vm_compute. reflexivity. }
  split; [vm_compute; reflexivity|].
  exists lb, (repaired 2 4 "S" "I" (fst (failed1 1 (split0 false)))). split; [exact Eb|].
  vm_compute in Eb. injection Eb as <-. split; [vm_compute; reflexivity|].
  intros x Hx. vm_compute in Hx. repeat (destruct Hx as [<-|Hx]; [discriminate|]). destruct Hx.
Qed.
Print Assumptions C61_split_refuted.

(** Repair of a sound list, one write of which is refused: it reports an error and nothing of
    the list is left, neither under the old nor under the new names. *)
Definition d4 : loaded := match w_ls w4e with d :: _ => d | [] => d0 end.
Definition l4 : lst := Eval vm_compute in match Storage.view (w_st w4e) (w_c w4e) d4 with Some l => l | None => l0 end.
Definition failed4 (k : nat) (o : op) : store * bool := op_fails (but k Refused) no_ord true (d_hs d4) (d_hi d4) l4 o (done (step l4 o)) (w_st w4e).
Theorem C61_repair_refuted : exists cfg w ms i o ord d g s m l l' fs st', runs cfg w ms /\
  nth_error (w_ls w) i = Some d /\ nth_error ms i = Some (g, s, m) /\ act_ok w ms (AOp i o ord) /\
  Storage.view (w_st w) (w_c w) d = Some l /\ step l o = Done l' /\ o = rep5 /\
  op_fails fs ord cfg (d_hs d) (d_hi d) l o l' (w_st w) = (st', false) /\ (exists n, forall k, k <> n -> fs k = Kept) /\
  (exists x, sin m x) /\
  load st' g s (l_scores_id (d_l d)) (l_index_id (d_l d)) = None /\ load st' g s (l_scores_id l') (l_index_id l') = None.
Proof.
  exists true, w4e, ms3, 0%nat, rep5, no_ord, d4, 2%nat, 4%nat, m1, l4, (done (step l4 rep5)), (but 9 Refused), (fst (failed4 9 rep5)).
  split; [exact runs4e|]. split; [vm_compute; reflexivity|]. split; [reflexivity|]. split; [exact rep_ok|].
  split; [vm_compute; reflexivity|]. split; [vm_compute; reflexivity|]. split; [reflexivity|].
  split. { apply set_pair. vm_compute. reflexivity. }
  split. { exists 9%nat. intros k Hk. unfold but. destruct (Nat.eqb_spec k 9); [contradiction|reflexivity]. }
  split; [exists (mkE 80 2 [] 7 100); vm_compute; reflexivity|]. split; vm_compute; reflexivity.
Qed.
Print Assumptions C61_repair_refuted.

(** ** Runs of the theorems: one write refused, what is returned, and the elements after Repair *)
Example C61_update_run : map (fun k => (snd (failed k up1), ids_after (fst (failed k up1)))) [0; 3; 4; 5; 6; 9]%nat =
  [(true, [2; 3; 11; 12; 5; 4; 6; 7; 8; 9; 10; 1]); (true, [2; 3; 11; 12; 5; 4; 6; 7; 8; 9; 10; 1]);
   (true, [2; 3; 4; 5; 6; 7; 8; 9; 10; 1]); (true, [2; 3; 11; 12; 5; 4; 6; 7; 8; 9; 10]);
   (false, [2; 3; 11; 12; 5; 4; 6; 7; 8; 9; 10; 1]); (true, [2; 3; 11; 12; 5; 4; 6; 7; 8; 9; 10; 1])].
Proof. vm_compute. reflexivity. Qed.
Example C61_delete_run : map (fun k => (snd (failed k del0), ids_after (fst (failed k del0)))) [0; 2; 3; 5; 7]%nat =
  [(false, [1; 2; 3; 5; 6; 7; 8; 10]); (false, [2; 3; 5; 6; 7; 8; 9; 10]);
   (true, [2; 3; 5; 6; 7; 8; 10]); (true, [2; 3; 5; 6; 7; 8; 10]); (false, [2; 3; 5; 6; 7; 8; 10])].
Proof. vm_compute. reflexivity. Qed.
Definition ri : op := OReindex "I7" 700 [].
Example C61_reindex_run : map (fun k => (snd (failed4 k ri), l_index_id (reindex_left (but k Refused) l4 (done (step l4 ri))))) [0; 4; 5; 9; 10; 12]%nat =
  [(false, "I"); (false, "I"); (true, "I7"); (true, "I7"); (false, "I7"); (true, "I7")]%string.
Proof. vm_compute. reflexivity. Qed.
(** the deletes of a Repair fail (the first nine events), its writes do not *)
Definition no_deletes : nat -> fate := fun n => if Nat.ltb n 9 then Refused else Kept.
Definition repair_kept : store := fst (op_fails no_deletes no_ord true (d_hs d4) (d_hi d4) l4 rep5 (done (step l4 rep5)) (w_st w4e)).
Example C61_done_holds : exists d2, reopen false repair_kept (mkLd (done (step l4 rep5)) true true) = Some d2 /\
  Storage.view repair_kept (fun _ => None) d2 = Some (reload (done (step l4 rep5))).
Proof.
  apply (C61_done true w4e ms3 0 rep5 no_ord d4 2 4 m1 l4 (done (step l4 rep5)) no_deletes repair_kept false).
  - exact runs4e.
  - vm_compute. reflexivity.
  - reflexivity.
  - exact rep_ok.
  - vm_compute. reflexivity.
  - vm_compute. reflexivity.
  - exact fit1.
  - exact I.
  - apply set_pair. vm_compute. reflexivity.
Qed.
Example C61_recovers_holds : forall fs, recovers 2 4 (fst (op_fails fs no_ord true (d_hs d0) (d_hi d0) l0 up1 l1 s0)) (d_l d0)
  (fun x => sin m0 x /\ sin m1 x) (fun x => sin m0 x \/ sin m1 x).
Proof.
  intros fs. apply (C61_recovers true w2 ms2 0 up1 no_ord d0 2 4 m0 l0 l1 fs _ (snd (op_fails fs no_ord true (d_hs d0) (d_hi d0) l0 up1 l1 s0))).
  - exact runs2.
  - exact ld0.
  - reflexivity.
  - exact upd_ok.
  - exact I.
  - exact view0.
  - vm_compute. reflexivity.
  - exact fit1.
  - apply surjective_pairing.
Qed.
Example C61_deleted_holds : recovers 2 4 (fst (failed 5 del0)) (d_l d0)
  (fun x => sin m0 x /\ ~ In (e_id x) [1; 4; 9; 77]) (fun x => sin m0 x /\ ~ In (e_id x) [1; 4; 9; 77]).
Proof.
  apply (C61_deleted true w2 ms2 0 300 [] [] [1; 4; 9; 77] no_ord d0 2 4 m0 l0 (done (step l0 del0)) (but 5 Refused)).
  - exact runs2.
  - exact ld0.
  - reflexivity.
  - split; [|exact I]. intros g s m E. injection E as <- <- <-. exact del0_ok.
  - exact view0.
  - vm_compute. reflexivity.
  - apply (step_fits del0 del0_ok); vm_compute; reflexivity.
  - apply set_pair. vm_compute. reflexivity.
Qed.
(** a merge whose delete fails, with a list of segments that was not written *)
Definition two_bad : nat -> fate := fun n => if Nat.eqb n 1 then Refused else if Nat.eqb n 5 then Unsure else Kept.
Definition mergedM : store * bool := op_fails two_bad no_ord true (d_hs dM) (d_hi dM) lM (split0 true) (done (step lM (split0 true))) (w_st wM).
Example C61_split_holds : snd mergedM = false /\
  recovers 2 4 (fst mergedM) (d_l dM) (fun x => sin mM x /\ forall t, In t (ss_segs (l_scores lM)) -> In x (sg_elems t) -> (length (sg_elems t) < 4)%nat) (sin mM).
Proof.
  split; [vm_compute; reflexivity|].
  apply (C61_split true wM [(2%nat, 4%nat, mM); (2%nat, 4%nat, mB)] 0 true 300 no_ord dM 2 4 mM lM (done (step lM (split0 true))) two_bad _ (snd mergedM)).
  - exact runsM.
  - vm_compute. reflexivity.
  - reflexivity.
  - split; [|exact I]. intros g s m _. split; reflexivity.
  - vm_compute. reflexivity.
  - vm_compute. reflexivity.
  - apply surjective_pairing.
  - right. repeat (apply Forall_cons || apply Forall_nil); vm_compute; lia.
Qed.
Example C61_split_run : map e_id (stored_in (repaired 2 4 "S" "I" (fst mergedM))) = [3; 7; 8; 9; 10].
Proof. vm_compute. reflexivity. Qed.
Lemma ri_ok : act_ok w4e ms3 (AOp 0 ri no_ord).
Proof.
  split.
  - intros g s m E. injection E as <- <- <-. split; [discriminate|]. split; [split; reflexivity|]. split; [lia|].
    intros r Hr. rewrite (ranking_unique _ _ _ Hr (reach_ranking _ _ _ _ l1_reach)). reflexivity.
  - split; [plain_name|split; [vm_compute; intuition discriminate|intros id; reflexivity]].
Qed.
Example C61_reindex_holds : forall fs, exists d2 l2, reopen true (fst (op_fails fs no_ord true (d_hs d4) (d_hi d4) l4 ri (done (step l4 ri)) (w_st w4e)))
    (mkLd (reindex_left fs l4 (done (step l4 ri))) (d_hs d4) (d_hi d4)) = Some d2 /\
  Storage.view (fst (op_fails fs no_ord true (d_hs d4) (d_hi d4) l4 ri (done (step l4 ri)) (w_st w4e))) (fun _ => None) d2 = Some l2 /\ reachable 2 4 l2 m1.
Proof.
  intros fs.
  destruct (C61_reindex true w4e ms3 0 "I7" 700 [] no_ord d4 2 4 m1 l4 (done (step l4 ri)) fs _ _ true runs4e ltac:(vm_compute; reflexivity) eq_refl ri_ok
    ltac:(vm_compute; reflexivity) ltac:(vm_compute; reflexivity) (surjective_pairing _)) as (d2 & l2 & H1 & H2 & H3 & _).
  exists d2, l2. auto.
Qed.
(** the second list while an update of the first fails *)
Definition dB : loaded := match w_ls w2 with _ :: d :: _ => d | _ => d0 end.
Example C61_others_holds : forall fs, exists d2 l1 l2, reopen true (fst (op_fails fs no_ord true (d_hs d0) (d_hi d0) l0 up1 Sample.l1 s0)) dB = Some d2 /\
  Storage.view (w_st w2) (w_c w2) dB = Some l1 /\
  Storage.view (fst (op_fails fs no_ord true (d_hs d0) (d_hi d0) l0 up1 Sample.l1 s0)) (fun _ => None) d2 = Some l2 /\
  stored_in l2 = stored_in l1 /\ indexed_in l2 = indexed_in l1.
Proof.
  intros fs. apply (C61_others true w2 ms2 0 1 up1 no_ord d0 dB l0 l1 fs _ (snd (op_fails fs no_ord true (d_hs d0) (d_hi d0) l0 up1 l1 s0)) true).
  - exact runs2.
  - exact ld0.
  - vm_compute. reflexivity.
  - discriminate.
  - exact upd_ok.
  - discriminate.
  - exact view0.
  - vm_compute. reflexivity.
  - apply surjective_pairing.
Qed.
(** writes 5 and 9 of the same update answered with an error, but done *)
Example C61_unsure_run : map (fun k => let r := op_fails (but k Unsure) no_ord true (d_hs d0) (d_hi d0) l0 up1 l1 s0 in (snd r, ids_after (fst r))) [5; 9]%nat =
  [(true, [2; 3; 11; 12; 5; 4; 6; 7; 8; 9; 10; 1]); (true, [2; 3; 11; 12; 5; 4; 6; 7; 8; 9; 10; 1])] /\ forall n, but 5 Unsure n <> Refused.
Proof. split; [vm_compute; reflexivity|]. intros n. unfold but. destruct (Nat.eqb n 5); discriminate. Qed.
