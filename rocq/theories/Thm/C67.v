(** C67: deletes and inserts while reads of the store fail. *)
From Coq Require Import Strings.String.
From Verif.Lib Require Import Prelude ListAux.
From Verif.Model Require Import Element Elements Segment List ReadFail.
From Verif.Spec Require Import RankSpec QuerySpec HistorySpec AnswerSpec ReadFailSpec.
From Verif.Proof Require Import ListThm UpdateReadThm DelInsThm.
From Verif.Thm Require Import Sample.
Open Scope N_scope.

(** a delete succeeds exactly if it can read the segments it needs, and is then complete *)
Theorem C67_delete : forall merge split l m rdi rds rdx now sc1 sc2 ids,
  reachable merge split l m -> op_ok merge split m (ODelete now sc1 sc2 ids) ->
  let '(l', ok) := delete_elements_r rdi rds rdx now sc1 sc2 ids l in
  (ok = true -> step l (ODelete now sc1 sc2 ids) = Done l') /\
  (ok = false <->
     unreadable rdi (fun s => exists id, In id ids /\ files s id) (ss_segs (l_index l)) \/
     unreadable rds (holds_one (fun x => In (e_id x) ids)) (ss_segs (l_scores l)) \/
     unreadable rdx (fun s => exists x, sin m x /\ In (e_id x) ids /\ files s (e_id x)) (ss_segs (l_index l))).
Proof. exact c67_delete. Qed.
Print Assumptions C67_delete.

(** any number of deletes, retries included, whichever reads fail: exactly the elements that no call took are stored, and
    every query is answered from them *)
Theorem C67_deletes : forall merge split l m calls, reachable merge split l m ->
  Forall (fun c => Forall (fun v => v <= max_u64) (d_ids c) /\ tick (d_now c)) calls ->
  let l' := run_deletes calls l in
  ranking_of (fun x => sin m x /\ forall c, In c calls -> ~ takes c l x) (stored_in l') /\ answers l' (stored_in l').
Proof. exact c67_deletes. Qed.
Print Assumptions C67_deletes.

(** an insert is complete, or it is cut short in one of its chunks [c]: the chunks before are stored, of [c] what goes to
    segments that can be read; of [c] lookups find those whose index segment can be read, if the scores are complete *)
Theorem C67_insert : forall merge split l m rds rdx now sch e,
  reachable merge split l m -> op_ok merge split m (OInsert now sch e) ->
  exists l' ok, insert_r rds rdx now sch e l = Done (l', ok) /\
  (ok = true -> step l (OInsert now sch e) = Done l') /\
  (ok = false -> exists a c b, e = a ++ c ++ b /\
     let ss := ss_segs (l_scores l) in
     let is := ss_segs (l_index l) in
     let rs := rds (length (c ++ b)) in
     let rx := rdx (length (c ++ b)) in
     ~ (forall x, In x c -> readable rs ss x /\ id_readable rx is (e_id x)) /\
     ranking_of (fun x => sin m x \/ In x a \/ (In x c /\ readable rs ss x)) (stored_in l') /\
     ranks_all_finds (fun x => sin m x \/ In x a \/ (In x c /\ (forall y, In y c -> readable rs ss y) /\ id_readable rx is (e_id x)))
       l' (stored_in l')).
Proof. exact c67_insert. Qed.
Print Assumptions C67_insert.

(** Reindex repairs what a failed call left *)
Theorem C67_heals_delete : forall merge split l m calls, reachable merge split l m ->
  Forall (fun c => Forall (fun v => v <= max_u64) (d_ids c) /\ tick (d_now c)) calls -> heals (run_deletes calls l).
Proof. exact c67_heals_delete. Qed.
Print Assumptions C67_heals_delete.
Theorem C67_heals_insert : forall merge split l m rds rdx now sch e l' ok,
  reachable merge split l m -> op_ok merge split m (OInsert now sch e) ->
  insert_r rds rdx now sch e l = Done (l', ok) -> heals l'.
Proof. exact c67_heals_insert. Qed.
Print Assumptions C67_heals_insert.

(** segment 1 of the index cannot be read when the entry of 5 is to be removed *)
Definition d67 : lst := Eval vm_compute in fst (delete_elements_r rall rall rno1 200 [] [] [5] l0).
Definition up67 : op := OUpdate (fun _ => 210) (fun _ => 211) 212 [] [mkE 50 5 [] 0 0].
Definition u67 : lst := Eval vm_compute in match step d67 up67 with Done x => x | _ => d67 end.
(** after a failed delete an update that puts the element back is lost, though it succeeds *)
Theorem C67_lost_refuted : exists merge split l m rdx now ids l1 o l2,
  reachable merge split l m /\ op_ok merge split m (ODelete now [] [] ids) /\ op_ok merge split m o /\
  delete_elements_r rall rall rdx now [] [] ids l = (l1, false) /\
  (forall x, sin m x -> In (e_id x) ids -> ~ In x (stored_in l1)) /\
  (exists clk clki now2 e, o = OUpdate clk clki now2 [] [e] /\ In (e_id e) ids /\ step l1 o = Done l2 /\ ~ In (e_id e) (map e_id (stored_in l2))).
Proof.
  exists 2%nat, 4%nat, l0, m0, rno1, 200, [5], d67, up67, u67. split; [exact l0_reach|]. split.
  { split; [repeat constructor; vm_compute; discriminate|split; vm_compute; reflexivity]. }
  split.
  { split; [apply distinct_by; vm_compute; reflexivity|]. split; [apply (forall_by srb); [exact srb_storable|vm_compute; reflexivity]|].
    split; [intros _; split; reflexivity|]. split; [intros _; split; reflexivity|]. split; reflexivity. }
  split; [vm_compute; reflexivity|]. split.
  { intros x _ [E|[]] Hin. apply (in_map e_id) in Hin. rewrite <- E in Hin.
    assert (Hm : map e_id (stored_in d67) = [1; 2; 3; 4; 6; 7; 8; 9; 10]) by (vm_compute; reflexivity). rewrite Hm in Hin.
    repeat (destruct Hin as [C|Hin]; [discriminate C|]). destruct Hin. }
  eexists _, _, _, _. split; [reflexivity|]. split; [left; reflexivity|]. split; [vm_compute; reflexivity|].
  assert (Hm : map e_id (stored_in u67) = [1; 2; 3; 4; 6; 7; 8; 9; 10]) by (vm_compute; reflexivity). rewrite Hm. cbn [e_id].
  intros Hin. repeat (destruct Hin as [C|Hin]; [discriminate C|]). destruct Hin.
Qed.
Print Assumptions C67_lost_refuted.

(** index segment 0 cannot be read: the new element is in the ranking but is not found by its ID, and an update of it then
    stores it twice *)
Definition rno0 (i : nat) : bool := match i with O => false | _ => true end.
Definition ins67 : elements := [mkE 55 77 [] 0 3].
Definition i67 : lst := Eval vm_compute in match insert_r (fun _ => rall) (fun _ => rno0) 200 (fun _ => []) ins67 l0 with Done x => fst x | _ => l0 end.
Definition up67b : op := OUpdate (fun _ => 210) (fun _ => 211) 212 [] [mkE 40 77 [] 0 0].
Definition i67b : lst := Eval vm_compute in match step i67 up67b with Done x => x | _ => i67 end.
Theorem C67_unfound_refuted : exists merge split l m rdx now e l1 x o l2 y,
  reachable merge split l m /\ op_ok merge split m (OInsert now (fun _ => []) e) /\
  insert_r (fun _ => rall) rdx now (fun _ => []) e l = Done (l1, false) /\
  In x e /\ In x (stored_in l1) /\ get_elements [] [] l1 [e_id x] 0 = [] /\
  op_ok merge split m o /\ step l1 o = Done l2 /\ In x (stored_in l2) /\ In y (stored_in l2) /\ e_id x = e_id y /\ x <> y.
Proof.
  exists 2%nat, 4%nat, l0, m0, (fun _ => rno0), 200, ins67, i67, (mkE 55 77 [] 0 3), up67b, i67b, (mkE 40 77 [] 0 210).
  split; [exact l0_reach|]. split.
  { split; [apply distinct_by; vm_compute; reflexivity|]. split; [apply (forall_by stb); [exact stb_stored|vm_compute; reflexivity]|].
    split; [|split; [split; reflexivity|lia]]. intros x [<-|[]]. vm_compute. reflexivity. }
  split; [vm_compute; reflexivity|]. split; [left; reflexivity|]. split.
  { apply (nth_error_In _ 3). vm_compute. reflexivity. }
  split; [vm_compute; reflexivity|]. split.
  { split; [apply distinct_by; vm_compute; reflexivity|]. split; [apply (forall_by srb); [exact srb_storable|vm_compute; reflexivity]|].
    split; [intros _; split; reflexivity|]. split; [intros _; split; reflexivity|]. split; reflexivity. }
  split; [vm_compute; reflexivity|]. split; [apply (nth_error_In _ 3); vm_compute; reflexivity|].
  split; [apply (nth_error_In _ 8); vm_compute; reflexivity|]. split; [reflexivity|]. intros C; discriminate C.
Qed.
Print Assumptions C67_unfound_refuted.

(** three deletes of 1, 5, 9: score segment 1 unreadable, then index segment 1, then nothing *)
Definition calls67 : list del_call := [mkDel rall rno1 rall 200 [] [] [1; 5; 9]; mkDel rno1 rall rall 201 [] [] [1; 5; 9]; mkDel rall rall rall 202 [] [] [1; 5; 9]].
Example C67_ex_deletes : reachable 2 4 l0 m0 /\ Forall (fun c => Forall (fun v => v <= max_u64) (d_ids c) /\ tick (d_now c)) calls67 /\
  map e_id (stored_in (run_deletes (firstn 1 calls67) l0)) = [2; 3; 4; 5; 6; 7; 8; 10] /\
  map e_id (stored_in (run_deletes (firstn 2 calls67) l0)) = [2; 3; 4; 5; 6; 7; 8; 10] /\
  map e_id (stored_in (run_deletes calls67 l0)) = [2; 3; 4; 6; 7; 8; 10] /\
  map e_id (indexed_in (run_deletes calls67 l0)) = [10; 9; 8; 7; 6; 4; 3; 2; 1].
Proof.
  split; [exact l0_reach|]. split; [repeat constructor; vm_compute; discriminate|]. repeat split; vm_compute; reflexivity.
Qed.
(** six elements in chunks of four and two; the last chunk goes to score segments 1 and 2, of which 1 cannot be read *)
Definition six67 : elements := [mkE 95 21 [] 0 3; mkE 60 22 [] 0 3; mkE 3 23 [] 0 3; mkE 2 24 [] 0 3; mkE 61 25 [] 0 3; mkE 1 26 [] 0 3].
Example C67_ex_insert : op_ok 2 4 m0 (OInsert 200 (fun _ => []) six67) /\ exists l',
  insert_r (fun n => if Nat.eqb n 2 then rno1 else rall) (fun _ => rall) 200 (fun _ => []) six67 l0 = Done (l', false) /\
  map e_id (stored_in l') = [21; 1; 2; 3; 22; 4; 5; 6; 7; 8; 9; 10; 23; 24; 26] /\
  map (fun re => e_id (re_elem re)) (get_elements [] [] l' [21; 23; 26] 0) = [21; 23] /\
  (2 <= l_merge l' + l_split l')%nat /\ N.of_nat (length (stored_in l')) < max_u32.
Proof.
  split.
  { split; [apply distinct_by; vm_compute; reflexivity|]. split; [apply (forall_by stb); [exact stb_stored|vm_compute; reflexivity]|].
    split; [|split; [split; reflexivity|lia]]. intros x H. repeat (destruct H as [<-|H]; [vm_compute; reflexivity|]). destruct H. }
  eexists. split; [vm_compute; reflexivity|]. split; [vm_compute; reflexivity|]. split; [vm_compute; reflexivity|].
  split; [cbn; lia|vm_compute; reflexivity].
Qed.
