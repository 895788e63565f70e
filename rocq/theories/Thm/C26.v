(** C26: a stop in the middle of the pass that splits and merges segments. *)
From Coq Require Import Strings.String Strings.Ascii.
From Verif.Lib Require Import Prelude ListAux ListLemmas Bytes.
From Verif.Model Require Import Element Elements Segment List Keys Storage.
From Verif.Spec Require Import RankSpec QuerySpec HistorySpec AnswerSpec StorageSpec.
From Verif.Proof Require Import ListThm HistoryP CrashP CrashSplitP.
From Verif.Thm Require Import Sample SampleStore C25.
Open Scope N_scope.

(** The pass stops after any number of its writes.  If it only merges, or merges nothing, the list
    loads and Repair gives a list like any other, with no element that was not there and with
    every element whose segment was shorter than SplitSize, unchanged. *)
Theorem C26_stop : forall cfg w ms i merge now ord d g s m l l' k, let o := OSplit merge now in
  runs cfg w ms -> nth_error (w_ls w) i = Some d -> nth_error ms i = Some (g, s, m) ->
  act_ok w ms (AOp i o ord) -> Storage.view (w_st w) (w_c w) d = Some l -> step l o = Done l' ->
  merge = false \/ Forall (fun t => (length (sg_elems t) < s)%nat) (ss_segs (l_scores l)) ->
  recovers g s (evs_store (firstn k (op_evs ord cfg (d_hs d) (d_hi d) l o l')) (w_st w)) (d_l d)
    (fun x => sin m x /\ forall t, In t (ss_segs (l_scores l)) -> In x (sg_elems t) -> (length (sg_elems t) < s)%nat) (sin m).
Proof. exact c26_recovers. Qed.
Print Assumptions C26_stop.

(** A pass with no score segment to split loses nothing. *)
Theorem C26_merge : forall cfg w ms i merge now ord d g s m l l' k, let o := OSplit merge now in
  runs cfg w ms -> nth_error (w_ls w) i = Some d -> nth_error ms i = Some (g, s, m) ->
  act_ok w ms (AOp i o ord) -> Storage.view (w_st w) (w_c w) d = Some l -> step l o = Done l' ->
  Forall (fun t => (length (sg_elems t) < s)%nat) (ss_segs (l_scores l)) ->
  recovers g s (evs_store (firstn k (op_evs ord cfg (d_hs d) (d_hi d) l o l')) (w_st w)) (d_l d) (sin m) (sin m).
Proof. exact c26_merge. Qed.
Print Assumptions C26_merge.

(** ** What is lost *)
Definition split0 (merge : bool) : op := OSplit merge 300.
Definition d1 : loaded := match w_ls w3 with d :: _ => d | [] => mkLd l0 true true end.
Definition evs1 (o : op) : list ev := op_evs no_ord true (d_hs d1) (d_hi d1) l1 o (done (step l1 o)).
Definition repaired (g s : nat) (ns ni : string) (st : store) : lst :=
  match load st g s ns ni with
  | Some l => done (repair_stored st "S3" "I3" 600 (fun _ => []) [] [] (fun _ => []) 0 l)
  | None => l3
  end.

(** Elements of a segment that is split are lost by a stop after the write of its first half. *)
Theorem C26_split_refuted : exists cfg w ms i o ord d g s m l l' k y, runs cfg w ms /\
  nth_error (w_ls w) i = Some d /\ nth_error ms i = Some (g, s, m) /\ act_ok w ms (AOp i o ord) /\
  Storage.view (w_st w) (w_c w) d = Some l /\ step l o = Done l' /\ o = OSplit false 300 /\ sin m y /\
  let st := evs_store (firstn k (op_evs ord cfg (d_hs d) (d_hi d) l o l')) (w_st w) in
  exists lb l2, load st g s (l_scores_id (d_l d)) (l_index_id (d_l d)) = Some lb /\
    repair_stored st "S3" "I3" 600 (fun _ => []) [] [] (fun _ => []) 0 lb = Done l2 /\
    forall x, In x (stored_in l2) -> e_id x <> e_id y.
Proof.
  destruct (nth_error (w_ls w3) 0) as [d|] eqn:Ed; [|vm_compute in Ed; discriminate].
  assert (d = d1) as -> by (vm_compute in Ed; injection Ed as <-; vm_compute; reflexivity).
  destruct (load (evs_store (firstn 1 (evs1 (split0 false))) (w_st w3)) 2 4 "S" "I") as [lb|] eqn:Eb; [|vm_compute in Eb; discriminate].
  exists true, w3, ms3, 0%nat, (split0 false), no_ord, d1, 2%nat, 4%nat, m1, l1, (done (step l1 (split0 false))), 1%nat, (mkE 50 6 [] 0 100).
  split; [exact runs3|]. split; [exact Ed|]. split; [reflexivity|].
  split; [split; [|exact I]; intros g s m _; split; reflexivity|].
  split; [vm_compute; reflexivity|]. split; [vm_compute; reflexivity|]. split; [reflexivity|]. split; [vm_compute; reflexivity|].
  exists lb, (repaired 2 4 "S" "I" (evs_store (firstn 1 (evs1 (split0 false))) (w_st w3))). split; [exact Eb|].
  vm_compute in Eb. injection Eb as <-. split; [vm_compute; reflexivity|].
  intros x Hx. vm_compute in Hx. repeat (destruct Hx as [<-|Hx]; [discriminate|]). destruct Hx.
Qed.
Print Assumptions C26_split_refuted.

(** a list of two segments of four elements, two of which then move from the second to the first *)
Definition batchP : elements := map (fun i => mkE (N.of_nat (100 - i)) (N.of_nat i) [] 0 0) (seq 1 8).
Definition newP : act := ANew 5 6 "P" "R" 100 [] (fun _ => []) 0 batchP no_ord.
Definition wP := go true w0 newP.
Definition mP : smap := sputs sempty (map (restamp 100) batchP).
Definition lP : lst := Eval vm_compute in done (new_list 5 6 "P" "R" 100 [] (fun _ => []) 0 batchP).
Definition eP2 : elements := [mkE 200 7 [] 0 0; mkE 201 8 [] 0 0].
Definition upP : op := OUpdate (fun _ => 200) (fun _ => 201) 202 [] eP2.
Definition lP2 : lst := Eval vm_compute in done (step lP upP).
Definition mP2 : smap := spec_step mP upP.
Definition wP2 := go true wP (AOp 0 upP no_ord).
Definition dP2 : loaded := match w_ls wP2 with d :: _ => d | [] => mkLd l0 true true end.
Definition evsP (o : op) : list ev := op_evs no_ord true (d_hs dP2) (d_hi dP2) lP2 o (done (step lP2 o)).
Lemma lP_reach : reachable 5 6 lP mP.
Proof.
  assert (E : new_list 5 6 "P" "R" 100 [] (fun _ => []) 0 batchP = Done lP) by (vm_compute; reflexivity).
  refine (R_new 5 6 "P" "R" 100 [] (fun _ => []) 0 batchP lP _ _ _ _ _ _ _ _ E).
  - lia.
  - split; [lia|]. change (length batchP) with 8%nat. lia.
  - discriminate.
  - discriminate.
  - split; reflexivity.
  - apply distinct_by. vm_compute. reflexivity.
  - apply (forall_by okb); [exact okb_ok|vm_compute; reflexivity].
  - vm_compute. reflexivity.
Qed.
Lemma upP_ok : op_ok 5 6 mP upP.
Proof.
  split; [|split; [|split; [|split]]].
  - apply distinct_by. vm_compute. reflexivity.
  - apply (forall_by srb); [exact srb_storable|vm_compute; reflexivity].
  - intros _. split; reflexivity.
  - intros _. split; reflexivity.
  - split; reflexivity.
Qed.
Lemma lP2_reach : reachable 5 6 lP2 mP2.
Proof. apply (R_step 5 6 lP mP upP lP2 lP_reach upP_ok). vm_compute. reflexivity. Qed.
Lemma newP_ok : act_ok w0 [] newP.
Proof.
  split; [lia|]. split; [split; [lia|]; change (length batchP) with 8%nat; lia|]. split; [split; reflexivity|].
  split; [apply distinct_by; vm_compute; reflexivity|]. split; [apply (forall_by okb); [exact okb_ok|vm_compute; reflexivity]|].
  split; [vm_compute; reflexivity|].
  split; [split; [plain_name|split; [intros []|intros id; reflexivity]]|].
  split; [split; [plain_name|split; [intros []|intros id; reflexivity]]|]. discriminate.
Qed.
Lemma runsP : runs true wP [(5%nat, 6%nat, mP)].
Proof.
  apply (W_act true w0 [] newP wP (W_start _ _ _) newP_ok); [apply go_eq; vm_compute; reflexivity|].
  constructor; [apply (fits_by _ _ _ _ lP_reach); vm_compute; reflexivity|constructor].
Qed.
Lemma runsP2 : runs true wP2 [(5%nat, 6%nat, mP2)].
Proof.
  apply (W_act true wP [(5%nat, 6%nat, mP)] (AOp 0 upP no_ord) wP2 runsP).
  - split; [|exact I]. intros g s m E. injection E as <- <- <-. exact upP_ok.
  - apply go_eq; vm_compute; reflexivity.
  - constructor; [apply (fits_by _ _ _ _ lP2_reach); vm_compute; reflexivity|constructor].
Qed.

(** When the pass both splits and merges, even an element of a short segment can be lost: the
    segment is merged into the new half and removed before the list of segments is written. *)
Theorem C26_short_refuted : exists cfg w ms i o ord d g s m l l' k y t, runs cfg w ms /\
  nth_error (w_ls w) i = Some d /\ nth_error ms i = Some (g, s, m) /\ act_ok w ms (AOp i o ord) /\
  Storage.view (w_st w) (w_c w) d = Some l /\ step l o = Done l' /\ o = OSplit true 300 /\ sin m y /\
  In t (ss_segs (l_scores l)) /\ In y (sg_elems t) /\ (length (sg_elems t) < s)%nat /\
  let st := evs_store (firstn k (op_evs ord cfg (d_hs d) (d_hi d) l o l')) (w_st w) in
  exists lb l2, load st g s (l_scores_id (d_l d)) (l_index_id (d_l d)) = Some lb /\
    repair_stored st "S3" "I3" 600 (fun _ => []) [] [] (fun _ => []) 0 lb = Done l2 /\
    forall x, In x (stored_in l2) -> e_id x <> e_id y.
Proof.
  destruct (nth_error (w_ls wP2) 0) as [d|] eqn:Ed; [|vm_compute in Ed; discriminate].
  assert (d = dP2) as -> by (vm_compute in Ed; injection Ed as <-; vm_compute; reflexivity).
  destruct (load (evs_store (firstn 4 (evsP (split0 true))) (w_st wP2)) 5 6 "P" "R") as [lb|] eqn:Eb; [|vm_compute in Eb; discriminate].
  destruct (nth_error (ss_segs (l_scores lP2)) 1) as [t|] eqn:Et; [|vm_compute in Et; discriminate].
  exists true, wP2, [(5%nat, 6%nat, mP2)], 0%nat, (split0 true), no_ord, dP2, 5%nat, 6%nat, mP2, lP2, (done (step lP2 (split0 true))), 4%nat, (mkE 95 5 [] 0 100), t.
  split; [exact runsP2|]. split; [exact Ed|]. split; [reflexivity|].
  split; [split; [|exact I]; intros g s m _; split; reflexivity|].
  split; [vm_compute; reflexivity|]. split; [vm_compute; reflexivity|]. split; [reflexivity|]. split; [vm_compute; reflexivity|].
  split; [eapply nth_error_In; exact Et|]. vm_compute in Et. injection Et as <-.
  split; [left; reflexivity|]. split; [cbn [sg_elems length]; lia|].
  exists lb, (repaired 5 6 "P" "R" (evs_store (firstn 4 (evsP (split0 true))) (w_st wP2))). split; [exact Eb|].
  vm_compute in Eb. injection Eb as <-. split; [vm_compute; reflexivity|].
  intros x Hx. vm_compute in Hx. repeat (destruct Hx as [<-|Hx]; [discriminate|]). destruct Hx.
Qed.
Print Assumptions C26_short_refuted.

(** ** Runs of the theorems *)
(** segments [2 3] [11 12 5 4 6 7] [8 9 10 1], SplitSize 4: the second and third are split *)
Example C26_stop_run : map (fun k => map e_id (stored_in (repaired 2 4 "S" "I" (evs_store (firstn k (evs1 (split0 false))) (w_st w3))))) [0; 1; 2; 3; 10; 11; 12]%nat =
  [[2; 3; 11; 12; 5; 4; 6; 7; 8; 9; 10; 1]; [2; 3; 11; 12; 5; 8; 9; 10; 1]; [2; 3; 11; 12; 5; 8; 9; 10; 1]; [2; 3; 11; 12; 5; 8; 9];
   [2; 3; 11; 12; 5; 8; 9]; [2; 3; 11; 12; 5; 4; 6; 7; 8; 9; 10; 1]; [2; 3; 11; 12; 5; 4; 6; 7; 8; 9; 10; 1]].
Proof. vm_compute. reflexivity. Qed.
Example C26_stop_holds : forall k, recovers 2 4 (evs_store (firstn k (evs1 (split0 false))) (w_st w3)) (d_l d1)
  (fun x => sin m1 x /\ forall t, In t (ss_segs (l_scores l1)) -> In x (sg_elems t) -> (length (sg_elems t) < 4)%nat) (sin m1).
Proof.
  intros k. apply (C26_stop true w3 ms3 0 false 300 no_ord d1 2 4 m1 l1 (done (step l1 (split0 false)))).
  - exact runs3.
  - vm_compute. reflexivity.
  - reflexivity.
  - split; [|exact I]. intros g s m _. split; reflexivity.
  - vm_compute. reflexivity.
  - vm_compute. reflexivity.
  - left. reflexivity.
Qed.
(** after deletes the segments are [3] [7] [8 9 10], and the second is merged into the first *)
Definition delM : op := ODelete 250 [] [] [1; 2; 4; 5; 6].
Definition lM : lst := Eval vm_compute in done (step l0 delM).
Definition mM : smap := spec_step m0 delM.
Definition wM := go true w2 (AOp 0 delM no_ord).
Definition dM : loaded := match w_ls wM with d :: _ => d | [] => d0 end.
Definition evsM (o : op) : list ev := op_evs no_ord true (d_hs dM) (d_hi dM) lM o (done (step lM o)).
Lemma delM_ok : op_ok 2 4 m0 delM.
Proof. split; [|split; reflexivity]. repeat (apply Forall_cons; [vm_compute; discriminate|]). apply Forall_nil. Qed.
Lemma runsM : runs true wM [(2%nat, 4%nat, mM); (2%nat, 4%nat, mB)].
Proof.
  apply (W_act true w2 [(2%nat, 4%nat, m0); (2%nat, 4%nat, mB)] (AOp 0 delM no_ord) wM runs2).
  - split; [|exact I]. intros g s m E. injection E as <- <- <-. exact delM_ok.
  - apply go_eq; vm_compute; reflexivity.
  - constructor; [apply (step_fits delM delM_ok); vm_compute; reflexivity|]. constructor; [exact fitB|constructor].
Qed.
Example C26_merge_holds : forall k, recovers 2 4 (evs_store (firstn k (evsM (split0 true))) (w_st wM)) (d_l dM) (sin mM) (sin mM).
Proof.
  intros k. apply (C26_merge true wM [(2%nat, 4%nat, mM); (2%nat, 4%nat, mB)] 0 true 300 no_ord dM 2 4 mM lM (done (step lM (split0 true)))).
  - exact runsM.
  - vm_compute. reflexivity.
  - reflexivity.
  - split; [|exact I]. intros g s m _. split; reflexivity.
  - vm_compute. reflexivity.
  - vm_compute. reflexivity.
  - repeat (apply Forall_cons || apply Forall_nil); vm_compute; lia.
Qed.
Example C26_merge_run : map (fun t => map e_id (sg_elems t)) (ss_segs (l_scores lM)) = [[3]; [7]; [8; 9; 10]] /\
  length (evsM (split0 true)) = 7%nat /\
  map (fun k => map e_id (stored_in (repaired 2 4 "S" "I" (evs_store (firstn k (evsM (split0 true))) (w_st wM))))) (seq 0 8) =
  repeat [3; 7; 8; 9; 10] 8.
Proof. repeat split; vm_compute; reflexivity. Qed.
