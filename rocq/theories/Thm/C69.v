(** C69: the locks that calls on a list still hold when they are over, whichever accesses to the store fail. *)
From Coq Require Import List Bool Arith Lia Permutation.
From Verif.Model Require Import Unlock.
From Verif.Spec Require Import UnlockSpec.
From Verif.Proof Require Import UnlockP7 UnlockP8.
Import ListNotations.
Open Scope nat_scope.

(** what each call leaves, told from the accesses that failed *)
Theorem C69_leaves : forall c s, settled s -> leaves c s (fst (run c s)) (snd (run c s)).
Proof. exact run_leaves. Qed.
Print Assumptions C69_leaves.

(** any sequence of calls in which none of the costly accesses fails: no lock is lost, nothing blocks, the process lives *)
Theorem C69_calls : forall l s, settled s -> calm l s -> ends (fst (run_calls l s)) /\ settled (snd (run_calls l s)).
Proof. exact calls_run. Qed.
Print Assumptions C69_calls.

(** when Populate or Repair has lost the lock of the list, no other call succeeds again *)
Theorem C69_shut : forall c s, shut s -> unaware c = false -> fst (run c s) <> Ret true.
Proof. exact run_shut. Qed.
Print Assumptions C69_shut.
(** Len and Stats, which do not need it, do, once the metadata can be read *)
Theorem C69_open : forall s, held s = [(KList, true)] -> l_sc s = None -> l_ix s = None -> scset s = true -> ixset s = true ->
  (forall n, works s n GetScores = true /\ works s n GetIndex = true) ->
  fst (run Len s) = Ret true /\ fst (run (Stats false) s) = Ret true.
Proof. exact run_aware. Qed.
Print Assumptions C69_open.

(** ** cases *)
Definition site_eqb (a b : site) : bool :=
  match a, b with
  | GetScores, GetScores | GetIndex, GetIndex | GetElems, GetElems | SetElems, SetElems | SetFirst, SetFirst | SetSecond, SetSecond
  | SetPopIndex, SetPopIndex | SetMeta, SetMeta | DelAny, DelAny | PutHead, PutHead | PutScores, PutScores | PutElems, PutElems => true
  | SetReindexed ByReindex, SetReindexed ByReindex | SetReindexed ByRead, SetReindexed ByRead
  | SetReindexed ByWrite, SetReindexed ByWrite => true
  | _, _ => false
  end.
(** a list with two segments in each collection; the accesses [bad] fail; [p] are the picks, then [d]; [mem]: metadata is in memory *)
Definition two (bad : list site) (p : list nat) (d : nat) (mem : bool) : st :=
  mkSt [] (fun _ x => negb (existsb (site_eqb x) bad)) (fun n => nth n p d) [] 0 6
       (fun c => match c with 0 => [2; 3] | 1 => [4; 5] | _ => [] end) (fun _ => CLog)
       (if mem then Some 0 else None) (if mem then Some 1 else None) true true.
Lemma two_settled bad p d mem : settled (two bad p d mem).
Proof.
  split; cbn.
  - reflexivity.
  - intros [|[|c]]; repeat constructor; cbn; intuition discriminate.
  - intros [|[|c]] i; cbn; intuition lia.
  - intros [|[|c]] [|[|c']] i; cbn; intuition lia.
  - destruct mem; auto. lia.
Qed.
Definition after (c : call) (s : st) : st := snd (run c s).

(** the index segments of Populate cannot be written *)
Theorem C69_populate_refuted : exists s, settled s /\ fst (run Populate s) = Ret false /\ ~ settled (after Populate s) /\
  fst (run Get (after Populate s)) = Stuck.
Proof.
  exists (two [SetPopIndex] [] 0 true). split; [apply two_settled|]. split; [vm_compute; reflexivity|]. split; [|vm_compute; reflexivity].
  intros [F _ _ _ _]. revert F. vm_compute. discriminate.
Qed.
Print Assumptions C69_populate_refuted.
(** the first half of a segment that is split cannot be written; a query that comes to the other half waits for ever *)
Theorem C69_split_refuted : exists s, settled s /\ fst (run Split s) = Ret false /\ ~ settled (after Split s) /\
  fst (run RankTop (after Split s)) = Stuck.
Proof.
  exists (two [SetFirst] [2; 2; 0; 1] 0 true). split; [apply two_settled|]. split; [vm_compute; reflexivity|]. split; [|vm_compute; reflexivity].
  intros [F _ _ _ _]. revert F. vm_compute. discriminate.
Qed.
Print Assumptions C69_split_refuted.
(** the client that reads a backup goes away; the next Insert waits for ever and holds the lock of all updates *)
Theorem C69_backup_refuted : exists s, settled s /\ fst (run Backup s) = Ret false /\ ~ settled (after Backup s) /\
  fst (run Insert (after Backup s)) = Stuck /\ fst (run Delete (after Insert (after Backup s))) = Stuck /\
  fst (run RankTop (after Backup s)) = Ret true.
Proof.
  exists (two [PutScores] [0; 1] 0 true). split; [apply two_settled|]. split; [vm_compute; reflexivity|]. split.
  - intros [F _ _ _ _]. revert F. vm_compute. discriminate.
  - repeat split; vm_compute; reflexivity.
Qed.
Print Assumptions C69_backup_refuted.
(** metadata cannot be written: Reindex, and UpdateElements when the index has to be made again, end the process *)
Theorem C69_dies_refuted : exists s s', settled s /\ settled s' /\ fst (run Reindex s) = Dead /\ fst (run (Update false) s') = Dead.
Proof.
  exists (two [SetReindexed ByReindex] [0; 1; 0; 1] 0 true), (two [GetIndex; SetReindexed ByRead] [0; 0; 1] 0 false).
  split; [apply two_settled|]. split; [apply two_settled|]. split; vm_compute; reflexivity.
Qed.
Print Assumptions C69_dies_refuted.
(** the metadata of the index cannot be read: Repair panics and the list stays locked *)
Theorem C69_repair_refuted : exists s, settled s /\ fst (run Repair s) = Raise /\ shut (after Repair s) /\ fst (run Get (after Repair s)) = Stuck.
Proof.
  exists (two [GetIndex] [0; 0; 0; 1] 0 false). split; [apply two_settled|]. split; [vm_compute; reflexivity|]. split; [|vm_compute; reflexivity].
  vm_compute. auto.
Qed.
Print Assumptions C69_repair_refuted.

(** the hypotheses are met: segments that cannot be read, segments that cannot be written *)
Definition calls69 : list call := [Get; Update true; Insert; Delete; Split; Verify; Reindex; Backup; RankTop; Repair; Get; Populate; Stats true].
Definition d69 : st := two [GetElems] [0; 1; 2; 0; 1; 2] 1 true.
Definition w69 : st := two [SetElems] [0; 1; 2; 0; 1; 2] 1 true.
Example C69_example_calm : calm calls69 d69 /\ calm calls69 w69.
Proof.
  split; vm_compute; intuition congruence.
Qed.
Example C69_example_failures :
  existsb (fun x => match x with (GetElems, false) => true | _ => false end) (acc (snd (run_calls calls69 d69))) = true /\
  existsb (fun x => match x with (SetElems, false) => true | _ => false end) (acc (snd (run_calls calls69 w69))) = true /\
  held (snd (run_calls calls69 d69)) = [] /\ held (snd (run_calls calls69 w69)) = [].
Proof. vm_compute. repeat split. Qed.
Example C69_example_shut : shut (after Populate (two [SetPopIndex] [] 0 true)).
Proof. vm_compute. auto. Qed.
(** Populate could not read the metadata and could not write the index; then the store works again *)
Example C69_example_open : let s := two [GetScores; SetPopIndex] [] 0 false in
  let s' := mkSt (held (after Populate s)) (fun _ _ => true) (picks s) (acc (after Populate s)) 0 (next (after Populate s)) (coll (after Populate s))
                 (unl (after Populate s)) (l_sc (after Populate s)) (l_ix (after Populate s)) (scset (after Populate s)) (ixset (after Populate s)) in
  held s' = [(KList, true)] /\ l_sc s' = None /\ l_ix s' = None /\ scset s' = true /\ ixset s' = true /\ fst (run Len s') = Ret true.
Proof. vm_compute. repeat split. Qed.
