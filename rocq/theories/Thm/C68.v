(** C68: split passes and Reindex while reads of the store fail. *)
From Coq Require Import Strings.String.
From Verif.Lib Require Import Prelude ListAux.
From Verif.Model Require Import Element Elements Segment List ReadFail.
From Verif.Spec Require Import RankSpec QuerySpec HistorySpec AnswerSpec ReadFailSpec.
From Verif.Proof Require Import ListThm UpdateReadThm SplitReadP.
From Verif.Thm Require Import Sample.
Open Scope N_scope.

(** a pass that fails stores the same elements; who moved to another segment may no longer be found by ID, unless the
    pass came as far as the index *)
Theorem C68_split : forall merge split l m rds rdx rdi mg now,
  reachable merge split l m -> tick now ->
  (exists l' e, split_r rds rdx rdi mg now l = Done (l', e) /\
    (e = Full -> step l (OSplit mg now) = Done l') /\
    ((forall i, rds i = true) -> (forall i, rdx i = true) -> (forall i, rdi i = true) -> e = Full) /\
    stored_in l' = stored_in l /\ heals l' /\
    ranks_all_finds (fun x => match e with
                              | ScoresCut => stays_led l l' x
                              | UpdateCut => stays_led l l' x \/ id_readable rdx (ss_segs (l_index l)) (e_id x)
                              | Full | IndexCut => True
                              end) l' (stored_in l')) \/
  (split_r rds rdx rdi mg now l = Exhausted /\
   (2 ^ 32 < ss_next (l_scores l) + N.of_nat (length (ss_segs (l_scores l))) \/
    2 ^ 32 < ss_next (l_index l) + N.of_nat (length (ss_segs (l_index l))))).
Proof. exact c68_split. Qed.
Print Assumptions C68_split.

(** any sequence of passes and Reindex calls, whichever reads fail *)
Theorem C68_upkeep : forall merge split l m calls l' sound,
  reachable merge split l m -> (2 <= merge + split)%nat -> Forall upkeep_ok calls ->
  run_upkeep calls true l = Done (l', sound) ->
  stored_in l' = stored_in l /\ (exists found, ranks_all_finds found l' (stored_in l')) /\ heals l' /\
  (sound = true -> answers l' (stored_in l') /\ verify l' = true /\ verify_elements l' = true).
Proof. exact c68_upkeep. Qed.
Print Assumptions C68_upkeep.

(** the read of the segment after the one split fails: 6 is not found by its ID, also not after a pass that succeeds,
    and an update of it then stores it twice *)
Definition rto2 (i : nat) : bool := Nat.leb i 2.
Definition s68 : lst := Eval vm_compute in match split_r rto2 rall rall true 400 l1 with Done x => fst x | _ => l1 end.
Definition s68b : lst := Eval vm_compute in done (step s68 (OSplit true 401)).
Definition up68 : op := OUpdate (fun _ => 410) (fun _ => 411) 412 [] [mkE 40 6 [] 0 0].
Definition s68c : lst := Eval vm_compute in done (step s68b up68).
Theorem C68_unfound_refuted : exists merge split l m rds now l1 x l2 o l3 y,
  reachable merge split l m /\ tick now /\ split_r rds rall rall true now l = Done (l1, ScoresCut) /\
  sin m x /\ In x (stored_in l1) /\ get_elements [] [] l1 [e_id x] 0 = [] /\
  step l1 (OSplit true (now + 1)) = Done l2 /\ In x (stored_in l2) /\ get_elements [] [] l2 [e_id x] 0 = [] /\
  op_ok merge split m o /\ step l2 o = Done l3 /\ In x (stored_in l3) /\ In y (stored_in l3) /\ e_id x = e_id y /\ x <> y.
Proof.
  exists 2%nat, 4%nat, l1, m1, rto2, 400, s68, (mkE 50 6 [] 0 100), s68b, up68, s68c, (mkE 40 6 [] 0 410).
  split; [exact l1_reach|]. split; [split; reflexivity|]. split; [vm_compute; reflexivity|].
  split; [vm_compute; reflexivity|]. split; [apply (nth_error_In _ 6); vm_compute; reflexivity|].
  split; [vm_compute; reflexivity|]. split; [vm_compute; reflexivity|].
  split; [apply (nth_error_In _ 6); vm_compute; reflexivity|]. split; [vm_compute; reflexivity|]. split.
  { split; [apply distinct_by; vm_compute; reflexivity|]. split; [apply (forall_by srb); [exact srb_storable|vm_compute; reflexivity]|].
    split; [intros _; split; reflexivity|]. split; [intros _; split; reflexivity|]. split; reflexivity. }
  split; [vm_compute; reflexivity|]. split; [apply (nth_error_In _ 6); vm_compute; reflexivity|].
  split; [apply (nth_error_In _ 8); vm_compute; reflexivity|]. split; [reflexivity|]. intros C; discriminate C.
Qed.
Print Assumptions C68_unfound_refuted.

(** index segment 1 cannot be read when the index is to be brought in line: of the moved 4, 6, 7, 10 and 1 those it files,
    6 and 7, are not found *)
Example C68_ex_update : reachable 2 4 l1 m1 /\ exists l', split_r rall rno1 rall true 400 l1 = Done (l', UpdateCut) /\
  map (fun s => map e_id (sg_elems s)) (ss_segs (l_scores l1)) = [[2; 3]; [11; 12; 5; 4; 6; 7]; [8; 9; 10; 1]] /\
  map (fun s => map e_id (sg_elems s)) (ss_segs (l_scores l')) = [[2; 3]; [11; 12; 5]; [4; 6; 7]; [8; 9]; [10; 1]] /\
  map (fun re => e_id (re_elem re)) (get_elements [] [] l' [1; 4; 6; 7; 10; 12] 0) = [12; 4; 10; 1].
Proof.
  split; [exact l1_reach|]. eexists. split; [vm_compute; reflexivity|]. repeat split; vm_compute; reflexivity.
Qed.
(** a pass that fails, a Reindex that fails, a pass that succeeds, a Reindex that succeeds *)
Definition calls68 : list upkeep :=
  [USplit rto2 rall rall true 400; UReindex rno1 "i2" 401 []; USplit rall rall rall true 402; UReindex rall "i3" 403 []].
Example C68_ex_upkeep : reachable 2 4 l1 m1 /\ Forall upkeep_ok calls68 /\
  (exists l3, run_upkeep (firstn 3 calls68) true l1 = Done (l3, false) /\
     map (fun re => e_id (re_elem re)) (get_elements [] [] l3 [1; 4; 6; 7; 10; 12] 0) = [12; 10; 1]) /\
  (exists l4, run_upkeep calls68 true l1 = Done (l4, true) /\
     map (fun re => e_id (re_elem re)) (get_elements [] [] l4 [1; 4; 6; 7; 10; 12] 0) = [12; 7; 6; 4; 10; 1]).
Proof.
  split; [exact l1_reach|]. split; [repeat (constructor; [first [split; reflexivity | split; [intros C; discriminate C|split; reflexivity]]|]); constructor|].
  split; eexists; (split; [vm_compute; reflexivity|vm_compute; reflexivity]).
Qed.
