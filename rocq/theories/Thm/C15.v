(** C15: split progress. *)
From Coq Require Import Strings.String.
From Verif.Lib Require Import Prelude ListAux.
From Verif.Model Require Import Element Elements Segment List.
From Verif.Spec Require Import RankSpec QuerySpec HistorySpec AnswerSpec.
From Verif.Proof Require Import ListThm ResultP DropP ProgressP SettleP.
From Verif.Thm Require Import Sample.
Open Scope N_scope.

(** What one pass without merging does to every score segment: a segment at or above
    the split size with a change of score or tie breaker at or after its middle is
    cut in two at the first such change; nothing else changes. *)
Theorem C15_pass : forall merge split l m now l', reachable merge split l m -> split_pass false now l = Done l' ->
  exists parts, Forall2 (cut_spec split) (map sg_elems (ss_segs (l_scores l))) parts /\
                map sg_elems (ss_segs (l_scores l')) = concat parts.
Proof. exact c15_pass. Qed.
Print Assumptions C15_pass.

(** As many passes as there are elements leave no segment that can be split. *)
Theorem C15_converges : forall merge split l m nows l', reachable merge split l m -> Forall tick nows ->
  (length (stored_in l) <= length nows)%nat -> split_passes nows l = Done l' ->
  Forall (settled split) (map sg_elems (ss_segs (l_scores l'))) /\ stored_in l' = stored_in l.
Proof. exact c15_converges. Qed.
Print Assumptions C15_converges.

(** Not every oversized segment with two different scores is split: the change may
    be in the first half. *)
Definition stuck : lst := Eval vm_compute in done (new_list 2 4 "S" "I" 100 [] (fun _ => []) 0
  [mkE 9 1 [] 0 0; mkE 5 2 [] 0 0; mkE 5 3 [] 0 0; mkE 5 4 [] 0 0; mkE 5 5 [] 0 0]).
Theorem C15_two_groups_refuted : exists merge split l m s x y,
  reachable merge split l m /\ In s (ss_segs (l_scores l)) /\ (split <= length (sg_elems s))%nat /\
  In x (sg_elems s) /\ In y (sg_elems s) /\ e_score x <> e_score y /\
  forall now l', split_pass false now l = Done l' ->
    map sg_elems (ss_segs (l_scores l')) = map sg_elems (ss_segs (l_scores l)).
Proof.
  exists 2%nat, 4%nat, stuck, (sputs sempty (map (restamp 100)
    [mkE 9 1 [] 0 0; mkE 5 2 [] 0 0; mkE 5 3 [] 0 0; mkE 5 4 [] 0 0; mkE 5 5 [] 0 0])),
    (hd max_segment (ss_segs (l_scores stuck))), (mkE 9 1 [] 0 100), (mkE 5 2 [] 0 100).
  split.
  { eapply R_new with (ns := "S"%string) (ni := "I"%string) (sc := []) (sch := fun _ => []) (want := 0%nat).
    - lia.
    - split; [lia|]. cbn [length]. lia.
    - discriminate.
    - discriminate.
    - split; reflexivity.
    - apply distinct_by. vm_compute. reflexivity.
    - apply (forall_by okb); [exact okb_ok|vm_compute; reflexivity].
    - vm_compute. reflexivity.
    - vm_compute. reflexivity. }
  split; [vm_compute; auto|]. split; [vm_compute; lia|]. split; [vm_compute; auto|]. split; [vm_compute; auto|].
  split; [discriminate|]. intros now l' E. vm_compute in E. injection E as <-. reflexivity.
Qed.
Print Assumptions C15_two_groups_refuted.

Example C15_ex : reachable 2 4 l1 m1 /\ Forall tick [401; 402; 403; 404; 405; 406; 407; 408; 409; 410; 411; 412] /\
  length (stored_in l1) = 12%nat /\
  exists l', split_passes [401; 402; 403; 404; 405; 406; 407; 408; 409; 410; 411; 412] l1 = Done l' /\
    map (fun s => map e_id (sg_elems s)) (ss_segs (l_scores l')) = [[2; 3]; [11; 12; 5]; [4; 6; 7]; [8; 9]; [10; 1]].
Proof.
  split; [exact l1_reach|]. split; [repeat constructor|]. split; [reflexivity|].
  eexists. split; vm_compute; reflexivity.
Qed.

(** The passes of the splitter, which merge as well, come to rest after a number of passes
    bounded by the elements and segments: then no score segment can be cut, every index segment
    is below the split size, nothing can be merged, and the elements are the same. *)
Theorem C15_rests : forall merge split l m nows l', reachable merge split l m -> Forall tick nows ->
  (4 * length (stored_in l) + length (ss_segs (l_scores l)) + length (ss_segs (l_index l)) <= length nows)%nat ->
  splitter_passes nows l = Done l' ->
  Forall (settled split) (score_parts l') /\ unmergeable merge split (score_parts l') /\
  Forall (fun e => (length e < split)%nat) (index_parts l') /\ unmergeable merge split (index_parts l') /\
  stored_in l' = stored_in l.
Proof. exact c15_rests. Qed.
Print Assumptions C15_rests.

Example C15_rests_ex : reachable 2 4 l1 m1 /\ Forall tick (repeat 401 64) /\
  (4 * length (stored_in l1) + length (ss_segs (l_scores l1)) + length (ss_segs (l_index l1)) <= length (repeat 401 64))%nat /\
  exists l', splitter_passes (repeat 401 64) l1 = Done l' /\ map (@length element) (score_parts l') <> map (@length element) (score_parts l1).
Proof.
  split; [exact l1_reach|]. split; [apply Forall_forall; intros x Hx; apply repeat_spec in Hx; subst x; split; reflexivity|].
  split; [vm_compute; lia|]. eexists. split; [vm_compute; reflexivity|]. intros C. vm_compute in C. discriminate C.
Qed.
(** and here they merge, more than one pass does (C14_ex_merge) *)
Definition del5 : op := ODelete 300 [] [] [3; 11; 12; 5; 4; 6; 7; 8; 9; 10].
Definition l5 : lst := Eval vm_compute in done (step l1 del5).
Example C15_rests_ex_merge : reachable 2 4 l5 (spec_step m1 del5) /\
  map (@length element) (score_parts l5) = [1; 0; 1]%nat /\ map (@length element) (index_parts l5) = [0; 0; 1; 1]%nat /\
  (4 * length (stored_in l5) + length (ss_segs (l_scores l5)) + length (ss_segs (l_index l5)) = length (repeat 401 15))%nat /\
  exists l', splitter_passes (repeat 401 15) l5 = Done l' /\
    map (map e_id) (score_parts l') = [[2; 1]] /\ map (map e_id) (index_parts l') = [[2; 1]].
Proof.
  split.
  { apply (R_step 2 4 l1 m1 del5 l5 l1_reach); [|vm_compute; reflexivity].
    split; [|split; reflexivity]. apply (forall_by (fun v => v <=? max_u64)); [intros x; apply N.leb_le|vm_compute; reflexivity]. }
  split; [reflexivity|]. split; [reflexivity|]. split; [reflexivity|]. eexists. split; [vm_compute; reflexivity|]. split; reflexivity.
Qed.
