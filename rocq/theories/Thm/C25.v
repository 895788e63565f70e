(** C25: a stop in the middle of an update, an insert or a delete. *)
From Coq Require Import Strings.String Strings.Ascii.
From Verif.Lib Require Import Prelude ListAux ListLemmas Bytes.
From Verif.Model Require Import Element Elements Segment List Keys Storage.
From Verif.Spec Require Import RankSpec QuerySpec HistorySpec AnswerSpec StorageSpec.
From Verif.Proof Require Import ListThm HistoryP CrashP.
From Verif.Thm Require Import Sample SampleStore.
Open Scope N_scope.

(** [es]: the writes of the call that reached the store before the stop, any of them, in any
    order.  The list loads, and Repair gives a list like any other, in which every element outside
    the batch is as it was and every other element is the old or the new one of the batch. *)
Theorem C25_update : forall cfg w ms i clk clki now sc e ord d g s m l l' es, let o := OUpdate clk clki now sc e in
  runs cfg w ms -> nth_error (w_ls w) i = Some d -> nth_error ms i = Some (g, s, m) ->
  act_ok w ms (AOp i o ord) -> Storage.view (w_st w) (w_c w) d = Some l -> step l o = Done l' -> map_fits (spec_step m o) ->
  incl es (op_evs ord cfg (d_hs d) (d_hi d) l o l') ->
  recovers g s (evs_store es (w_st w)) (d_l d)
    (fun x => sin m x /\ ~ In (e_id x) (map e_id e)) (fun x => sin m x \/ In x (map (stamp clk) e)).
Proof. exact c25_update. Qed.
Print Assumptions C25_update.

(** A stopped insert loses nothing, and adds only elements of its batch. *)
Theorem C25_insert : forall cfg w ms i now sch e ord d g s m l l' es, let o := OInsert now sch e in
  runs cfg w ms -> nth_error (w_ls w) i = Some d -> nth_error ms i = Some (g, s, m) ->
  act_ok w ms (AOp i o ord) -> Storage.view (w_st w) (w_c w) d = Some l -> step l o = Done l' -> map_fits (spec_step m o) ->
  incl es (op_evs ord cfg (d_hs d) (d_hi d) l o l') ->
  recovers g s (evs_store es (w_st w)) (d_l d) (sin m) (fun x => sin m x \/ In x e).
Proof. exact c25_insert. Qed.
Print Assumptions C25_insert.

(** A stopped delete removes no element that was not asked for. *)
Theorem C25_delete : forall cfg w ms i now sc1 sc2 ids ord d g s m l l' es, let o := ODelete now sc1 sc2 ids in
  runs cfg w ms -> nth_error (w_ls w) i = Some d -> nth_error ms i = Some (g, s, m) ->
  act_ok w ms (AOp i o ord) -> Storage.view (w_st w) (w_c w) d = Some l -> step l o = Done l' -> map_fits (spec_step m o) ->
  incl es (op_evs ord cfg (d_hs d) (d_hi d) l o l') ->
  recovers g s (evs_store es (w_st w)) (d_l d) (fun x => sin m x /\ ~ In (e_id x) ids) (sin m).
Proof. exact c25_delete. Qed.
Print Assumptions C25_delete.

(** Whatever call is stopped, the other lists are read after a restart as they were. *)
Theorem C25_others : forall cfg w ms i j o ord d d' l l' es cfg', runs cfg w ms ->
  nth_error (w_ls w) i = Some d -> nth_error (w_ls w) j = Some d' -> i <> j ->
  act_ok w ms (AOp i o ord) -> o <> OReload -> Storage.view (w_st w) (w_c w) d = Some l -> step l o = Done l' ->
  incl es (op_evs ord cfg (d_hs d) (d_hi d) l o l') ->
  exists d2 l1 l2, reopen cfg' (evs_store es (w_st w)) d' = Some d2 /\
    Storage.view (w_st w) (w_c w) d' = Some l1 /\ Storage.view (evs_store es (w_st w)) (fun _ => None) d2 = Some l2 /\
    stored_in l2 = stored_in l1 /\ indexed_in l2 = indexed_in l1.
Proof. exact c25_others. Qed.
Print Assumptions C25_others.

Definition s0 : store := w_st w2.
Definition d0 : loaded := match w_ls w2 with d :: _ => d | [] => mkLd l0 true true end.
Definition evs0 (o : op) : list ev := op_evs no_ord true (d_hs d0) (d_hi d0) l0 o (done (step l0 o)).
(** what Repair makes of the store after the first [k] writes *)
Definition after_stop (o : op) (k : nat) : lst :=
  let st := evs_store (firstn k (evs0 o)) s0 in
  match load st 2 4 "S" "I" with
  | Some l => done (repair_stored st "S3" "I3" 600 (fun _ => []) [] [] (fun _ => []) 0 l)
  | None => l3
  end.

(** An element that moves to another segment is lost if the process stops after the segment it
    leaves has been written and before the one it moves to: it is neither old nor new. *)
Theorem C25_moved_refuted : exists cfg w ms i o ord d g s m l l' k y, runs cfg w ms /\
  nth_error (w_ls w) i = Some d /\ nth_error ms i = Some (g, s, m) /\ act_ok w ms (AOp i o ord) /\
  Storage.view (w_st w) (w_c w) d = Some l /\ step l o = Done l' /\ in_place o /\
  sin m y /\ spec_step m o (e_id y) <> None /\
  let st := evs_store (firstn k (op_evs ord cfg (d_hs d) (d_hi d) l o l')) (w_st w) in
  exists lb l2, load st g s (l_scores_id (d_l d)) (l_index_id (d_l d)) = Some lb /\
    repair_stored st "S3" "I3" 600 (fun _ => []) [] [] (fun _ => []) 0 lb = Done l2 /\
    forall x, In x (stored_in l2) -> e_id x <> e_id y.
Proof.
  destruct (nth_error (w_ls w2) 0) as [d|] eqn:Ed; [|vm_compute in Ed; discriminate].
  assert (d = d0) as -> by (vm_compute in Ed; injection Ed as <-; vm_compute; reflexivity).
  destruct (load (evs_store (firstn 4 (evs0 up1)) s0) 2 4 "S" "I") as [lb|] eqn:Eb; [|vm_compute in Eb; discriminate].
  exists true, w2, [(2%nat, 4%nat, m0); (2%nat, 4%nat, mB)], 0%nat, up1, no_ord, d0, 2%nat, 4%nat, m0, l0, l1, 4%nat, (mkE 90 1 [] 0 100).
  split; [exact runs2|]. split; [exact Ed|]. split; [reflexivity|]. split; [exact upd_ok|].
  split; [vm_compute; reflexivity|]. split; [vm_compute; reflexivity|]. split; [exact I|]. split; [vm_compute; reflexivity|].
  split; [vm_compute; discriminate|]. exists lb, (after_stop up1 4). split; [exact Eb|].
  vm_compute in Eb. injection Eb as <-. split; [vm_compute; reflexivity|].
  intros x Hx. vm_compute in Hx. repeat (destruct Hx as [<-|Hx]; [discriminate|]). destruct Hx.
Qed.
Print Assumptions C25_moved_refuted.

(** the update of the first list of [w2]: 8 writes; every prefix *)
Example C25_update_run : map (fun k => map e_id (stored_in (after_stop up1 k))) [0; 3; 4; 5; 6; 8]%nat =
  [[1; 2; 3; 4; 5; 6; 7; 8; 9; 10]; [1; 2; 3; 4; 5; 6; 7; 8; 9; 10]; [2; 3; 4; 5; 6; 7; 8; 9; 10];
   [2; 3; 11; 12; 5; 4; 6; 7; 8; 9; 10]; [2; 3; 11; 12; 5; 4; 6; 7; 8; 9; 10; 1]; [2; 3; 11; 12; 5; 4; 6; 7; 8; 9; 10; 1]].
Proof. vm_compute. reflexivity. Qed.
Lemma view0 : Storage.view (w_st w2) (w_c w2) d0 = Some l0.
Proof. vm_compute. reflexivity. Qed.
Example C25_update_holds : forall k, recovers 2 4 (evs_store (firstn k (evs0 up1)) s0) (d_l d0)
  (fun x => sin m0 x /\ ~ In (e_id x) [1; 5; 11; 12]) (fun x => sin m0 x \/ In x (map (stamp (fun _ => 200)) batch1)).
Proof.
  intros k. apply (C25_update true w2 [(2%nat, 4%nat, m0); (2%nat, 4%nat, mB)] 0 (fun _ => 200) (fun _ => 201) 202 [] batch1 no_ord d0 2 4 m0 l0 l1).
  - exact runs2.
  - vm_compute. reflexivity.
  - reflexivity.
  - exact upd_ok.
  - exact view0.
  - vm_compute. reflexivity.
  - exact fit1.
  - intros x Hx. eapply In_firstn; exact Hx.
Qed.
(** a delete over all three segments, stopped after one write *)
Definition del0 : op := ODelete 300 [] [] [1; 4; 9; 77].
Example C25_delete_run : map (fun k => map e_id (stored_in (after_stop del0 k))) [0; 1; 2; 3]%nat =
  [[1; 2; 3; 4; 5; 6; 7; 8; 9; 10]; [2; 3; 4; 5; 6; 7; 8; 9; 10]; [2; 3; 5; 6; 7; 8; 9; 10]; [2; 3; 5; 6; 7; 8; 10]].
Proof. vm_compute. reflexivity. Qed.
Definition ins0 : op := OInsert 300 (fun _ => []) [mkE 95 21 [] 0 300; mkE 45 22 [] 0 300; mkE 5 23 [] 0 300].
Example C25_insert_run : map (fun k => map e_id (stored_in (after_stop ins0 k))) [0; 1; 2]%nat =
  [[1; 2; 3; 4; 5; 6; 7; 8; 9; 10]; [21; 1; 2; 3; 4; 5; 6; 7; 8; 9; 10]; [21; 1; 2; 3; 4; 5; 6; 7; 22; 8; 9; 10; 23]].
Proof. vm_compute. reflexivity. Qed.
Lemma ins0_ok : op_ok 2 4 m0 ins0.
Proof.
  split; [apply distinct_by; vm_compute; reflexivity|]. split; [apply (forall_by stb); [exact stb_stored|vm_compute; reflexivity]|].
  split; [|split; [split; reflexivity|lia]]. intros x Hx. repeat (destruct Hx as [<-|Hx]; [vm_compute; reflexivity|]). destruct Hx.
Qed.
Lemma del0_ok : op_ok 2 4 m0 del0.
Proof. split; [|split; reflexivity]. repeat (apply Forall_cons; [vm_compute; discriminate|]). apply Forall_nil. Qed.
Lemma step_fits o : op_ok 2 4 m0 o -> step l0 o = Done (done (step l0 o)) -> short_by (done (step l0 o)) = true -> map_fits (spec_step m0 o).
Proof. intros H E S. apply (fits_by 2 4 (done (step l0 o))); [|exact S]. apply (R_step 2 4 l0 m0 o); [exact l0_reach|exact H|exact E]. Qed.
Example C25_insert_holds : forall k, recovers 2 4 (evs_store (firstn k (evs0 ins0)) s0) (d_l d0)
  (sin m0) (fun x => sin m0 x \/ In x [mkE 95 21 [] 0 300; mkE 45 22 [] 0 300; mkE 5 23 [] 0 300]).
Proof.
  intros k. apply (C25_insert true w2 [(2%nat, 4%nat, m0); (2%nat, 4%nat, mB)] 0 300 (fun _ => []) _ no_ord d0 2 4 m0 l0 (done (step l0 ins0))).
  - exact runs2.
  - vm_compute. reflexivity.
  - reflexivity.
  - split; [|exact I]. intros g s m E. injection E as <- <- <-. exact ins0_ok.
  - exact view0.
  - vm_compute. reflexivity.
  - apply (step_fits ins0 ins0_ok); vm_compute; reflexivity.
  - intros x Hx. eapply In_firstn; exact Hx.
Qed.
Example C25_delete_holds : forall k, recovers 2 4 (evs_store (firstn k (evs0 del0)) s0) (d_l d0)
  (fun x => sin m0 x /\ ~ In (e_id x) [1; 4; 9; 77]) (sin m0).
Proof.
  intros k. apply (C25_delete true w2 [(2%nat, 4%nat, m0); (2%nat, 4%nat, mB)] 0 300 [] [] [1; 4; 9; 77] no_ord d0 2 4 m0 l0 (done (step l0 del0))).
  - exact runs2.
  - vm_compute. reflexivity.
  - reflexivity.
  - split; [|exact I]. intros g s m E. injection E as <- <- <-. exact del0_ok.
  - exact view0.
  - vm_compute. reflexivity.
  - apply (step_fits del0 del0_ok); vm_compute; reflexivity.
  - intros x Hx. eapply In_firstn; exact Hx.
Qed.
