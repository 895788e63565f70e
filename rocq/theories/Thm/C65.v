(** C65: queries while reads of the store fail. *)
From Coq Require Import Strings.String.
From Verif.Lib Require Import Prelude ListAux.
From Verif.Model Require Import Element Elements Segment List ReadFail.
From Verif.Spec Require Import RankSpec QuerySpec HistorySpec AnswerSpec ReadFailSpec.
From Verif.Proof Require Import ListThm ReadFailP ReadFailThm.
From Verif.Thm Require Import Sample.
Open Scope N_scope.

(** whichever reads fail, a query fails or its answer is right; lookups may have fewer neighbours *)
Theorem C65_right : forall merge split l m r, reachable merge split l m -> ranking_of (sin m) r -> answers_or_fails l r.
Proof. exact c65_right. Qed.
Print Assumptions C65_right.

(** queries fail exactly because of segments that they need *)
Theorem C65_when : forall merge split l m r, reachable merge split l m -> ranking_of (sin m) r -> fails_exactly l r.
Proof. exact c65_when. Qed.
Print Assumptions C65_when.

(** lookups for whose neighbours no read fails have them all *)
Theorem C65_complete : forall merge split l m r rdi rd nb sc1 sc2 ids radius res,
  reachable merge split l m -> ranking_of (sin m) r -> Forall (fun v => v <= max_u64) ids -> (forall id i, nb id i = true) ->
  get_elements_r rdi rd nb sc1 sc2 l ids radius = Answer res -> exact_lookup r ids radius res.
Proof. exact c65_complete. Qed.
Print Assumptions C65_complete.

(** a failed read of a neighbouring segment is not told: the answer has too few neighbours *)
Theorem C65_silent_refuted : exists merge split l m r rdi rd nb ids radius res,
  reachable merge split l m /\ ranking_of (sin m) r /\ Forall (fun v => v <= max_u64) ids /\
  get_elements_r rdi rd nb [] [] l ids radius = Answer res /\ rank_lookup r ids radius res /\ ~ exact_lookup r ids radius res.
Proof. exact c65_silent. Qed.
Print Assumptions C65_silent_refuted.

(** segment 1 of [[1;2;3];[4;5;6;7];[8;9;10]] cannot be read *)
Definition no1 (i : nat) : bool := negb (Nat.eqb i 1).
Definition anyrd (i : nat) : bool := true.
Example C65_ex_top : reachable 2 4 l0 m0 /\
  get_rank_top_r no1 l0 0 3 = Answer (Some (firstn 3 (stored_in l0))) /\ get_rank_top_r no1 l0 0 4 = Unread /\
  get_rank_top_r no1 l0 7 9 = Answer (Some (skipn 7 (stored_in l0))) /\ get_rank_top_r no1 l0 10 1 = Answer None /\
  unreadable no1 (holds_one (fun x => In x (window (stored_in l0) 0 4))) (ss_segs (l_scores l0)) /\
  get_rank_bottom_r no1 l0 2 5 = Answer (Some (skipn 7 (stored_in l0))) /\ get_rank_bottom_r no1 l0 3 1 = Unread.
Proof.
  split; [exact l0_reach|]. do 4 (split; [vm_compute; reflexivity|]). split; [|vm_compute; auto].
  eexists 1%nat, _. split; [reflexivity|]. split; [|reflexivity]. exists (mkE 50 4 [] 0 100). split; vm_compute; auto 6.
Qed.
Example C65_ex_score : get_rank_score_desc_r no1 anyrd l0 50 1 = Unread /\ get_rank_score_desc_r anyrd no1 l0 50 1 = Unread /\
  (exists res, get_rank_score_desc_r no1 no1 l0 30 2 = Answer (Some res) /\ map (fun re => e_id (re_elem re)) res = [8; 9]).
Proof. split; [vm_compute; reflexivity|]. split; [vm_compute; reflexivity|]. eexists. split; vm_compute; reflexivity. Qed.
Example C65_ex_get :
  get_elements_r anyrd no1 (fun _ => anyrd) [] [] l0 [3; 5] 2 = Unread /\ get_elements_r no1 anyrd (fun _ => anyrd) [] [] l0 [5] 2 = Unread /\
  (exists res, get_elements_r anyrd no1 (fun _ => anyrd) [] [] l0 [3; 77; 9] 2 = Answer res /\
    map (fun re => (e_id (re_elem re), map e_id (re_above re), map e_id (re_below re))) res = [(3, [2; 1], [4; 5]); (9, [8; 7], [10])]) /\
  (exists res, get_elements_r anyrd no1 (fun _ => no1) [] [] l0 [3; 77; 9] 2 = Answer res /\
    map (fun re => (e_id (re_elem re), map e_id (re_above re), map e_id (re_below re))) res = [(3, [2; 1], []); (9, [8], [10])]).
Proof. split; [vm_compute; reflexivity|]. split; [vm_compute; reflexivity|]. split; eexists; split; vm_compute; reflexivity. Qed.
Example C65_ex_pct : get_percentile_r no1 anyrd l0 1 1 1 = Done Unread /\
  (exists re, get_percentile_r no1 no1 l0 7 3 3 = Done (Answer (Some re)) /\ e_id (re_elem re) = 9 /\ re_top re = 8%Z /\ map e_id (re_above re) = [8]).
Proof. split; [vm_compute; reflexivity|]. eexists. split; [vm_compute; reflexivity|]. vm_compute; auto. Qed.
