(** C17: what verification guarantees. *)
From Coq Require Import Strings.String.
From Verif.Lib Require Import Prelude ListAux.
From Verif.Model Require Import Element Elements Segment List.
From Verif.Spec Require Import RankSpec QuerySpec HistorySpec AnswerSpec.
From Verif.Proof Require Import ListThm ResultP DropP ProgressP.
From Verif.Thm Require Import Sample.
Open Scope N_scope.

(** A list that verifies is right, provided the things Verify does not look at are:
    bounds the right way round, only the last segment reaching (0,0), index entries
    filed under their ID, no stale in-memory segment map. *)
Theorem C17_sound : forall l, Forall seg_typed (ss_segs (l_scores l)) -> Forall seg_typed (ss_segs (l_index l)) ->
  Forall seg_ordered (ss_segs (l_scores l)) -> Forall seg_ordered (ss_segs (l_index l)) ->
  only_last_zero (ss_segs (l_scores l)) -> only_last_zero (ss_segs (l_index l)) ->
  filed l -> map_ok l ->
  verify l = true -> verify_elements l = true ->
  ranked (stored_in l) /\ distinct_ids (stored_in l) /\ answers l (stored_in l) /\
  (forall id t, (exists q, In q (indexed_in l) /\ e_id q = id /\ e_tie q = t) <->
                (exists s x, In s (ss_segs (l_scores l)) /\ In x (sg_elems s) /\ e_id x = id /\ sg_id s = t)).
Proof. exact c17_sound. Qed.
Print Assumptions C17_sound.

(** Corrupted lists that pass both checks. *)
Definition mks (id mn mnt mx mxt : N) (name : string) (e : elements) : seg := mkSeg id mn mx mnt mxt (length e) 1 name e.
Definition mkl (ss is : list seg) : lst :=
  mkL 2 4 "S" "I" (mkSegs "S" ss 9 false []) (mkSegs "I" is 9 true []).
Definition idx1 (e : elements) : list seg := [mks 1 0 0 max_u64 max_u32 "I" e].

(** 1. inverted bounds: an empty segment whose minimum is above its maximum *)
Definition bad_bounds : lst := mkl
  [mks 1 50 0 max_u64 max_u32 "S" [mkE 60 1 [] 0 1]; mks 2 70 0 49 max_u32 "S" []; mks 3 0 0 69 max_u32 "S" [mkE 65 2 [] 0 1]]
  (idx1 [mkE 2 2 [] 3 1; mkE 1 1 [] 1 1]).
Theorem C17_bounds_refuted : exists l, Forall seg_typed (ss_segs (l_scores l)) /\ Forall seg_typed (ss_segs (l_index l)) /\
  only_last_zero (ss_segs (l_scores l)) /\ filed l /\ map_ok l /\
  verify l = true /\ verify_elements l = true /\ ~ ranked (stored_in l).
Proof.
  exists bad_bounds. split; [repeat constructor; vm_compute; discriminate|]. split; [repeat constructor; vm_compute; discriminate|].
  split; [apply only_last_zero_by; reflexivity|].
  split; [repeat constructor|]. split; [left; reflexivity|].
  split; [vm_compute; reflexivity|]. split; [vm_compute; reflexivity|].
  apply not_ranked. vm_compute. reflexivity.
Qed.
Print Assumptions C17_bounds_refuted.

(** 2. two segments that both consist of score 0, tie breaker 0 *)
Definition bad_zero : lst := mkl
  [mks 1 0 0 max_u64 max_u32 "S" [mkE 0 1 [] 0 5]; mks 2 0 0 0 0 "S" [mkE 0 2 [] 0 3]]
  (idx1 [mkE 2 2 [] 2 1; mkE 1 1 [] 1 1]).
Theorem C17_zero_refuted : exists l, Forall seg_typed (ss_segs (l_scores l)) /\ Forall seg_typed (ss_segs (l_index l)) /\
  Forall seg_ordered (ss_segs (l_scores l)) /\ filed l /\ map_ok l /\
  verify l = true /\ verify_elements l = true /\ ~ ranked (stored_in l).
Proof.
  exists bad_zero. split; [repeat constructor; vm_compute; discriminate|]. split; [repeat constructor; vm_compute; discriminate|].
  split. { constructor; [left; reflexivity|]. constructor; [right; split; vm_compute; [reflexivity|discriminate]|constructor]. }
  split; [repeat constructor|]. split; [left; reflexivity|].
  split; [vm_compute; reflexivity|]. split; [vm_compute; reflexivity|].
  apply not_ranked. vm_compute. reflexivity.
Qed.
Print Assumptions C17_zero_refuted.

(** 3. an index entry stored under the wrong score: the element cannot be looked up *)
Definition bad_filed : lst := mkl
  [mks 1 0 0 max_u64 max_u32 "S" [mkE 60 7 [] 0 1]] (idx1 [mkE 3 7 [] 1 1]).
Theorem C17_filed_refuted : exists l x, Forall seg_typed (ss_segs (l_scores l)) /\ Forall seg_typed (ss_segs (l_index l)) /\
  Forall seg_ordered (ss_segs (l_scores l)) /\ Forall seg_ordered (ss_segs (l_index l)) /\ map_ok l /\
  verify l = true /\ verify_elements l = true /\ In x (stored_in l) /\ get_elements [] [] l [e_id x] 0 = [].
Proof.
  exists bad_filed, (mkE 60 7 [] 0 1). split; [repeat constructor; vm_compute; discriminate|]. split; [repeat constructor; vm_compute; discriminate|].
  split; [repeat constructor|]. split; [repeat constructor|]. split; [left; reflexivity|].
  repeat split; vm_compute; auto.
Qed.
Print Assumptions C17_filed_refuted.

(** The hypotheses of C17_sound hold of a list with three score segments. *)
Example C17_ex : Forall seg_typed (ss_segs (l_scores l0)) /\ Forall seg_ordered (ss_segs (l_scores l0)) /\
  only_last_zero (ss_segs (l_scores l0)) /\ filed l0 /\ map_ok l0 /\ verify l0 = true /\ verify_elements l0 = true.
Proof.
  split. { repeat constructor; vm_compute; try discriminate; reflexivity. }
  split. { repeat constructor; vm_compute; reflexivity. }
  split; [apply only_last_zero_by; reflexivity|].
  split; [repeat constructor|]. split; [vm_compute; auto|]. split; vm_compute; reflexivity.
Qed.
