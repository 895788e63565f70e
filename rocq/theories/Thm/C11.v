(** C11: score queries. *)
From Coq Require Import Strings.String.
From Verif.Lib Require Import Prelude ListAux.
From Verif.Model Require Import Element Elements Segment List.
From Verif.Spec Require Import RankSpec QuerySpec HistorySpec AnswerSpec.
From Verif.Proof Require Import ListThm ResultP DropP ProgressP.
From Verif.Thm Require Import Sample.
Open Scope N_scope.

Theorem C11_rank_score : forall merge split l m r score n,
  reachable merge split l m -> ranking_of (sin m) r -> score <= max_u64 ->
  exists res, get_rank_score_desc l score n = Some res /\
    map re_elem res = firstn n (filter (fun e => e_score e <=? score) r) /\
    Forall (fun re => true_rank r re /\ re_above re = [] /\ re_below re = []) res.
Proof. intros * HR Hr Hs. exact (a_score l r (reach_answers _ _ _ _ _ HR Hr) score n Hs). Qed.
Print Assumptions C11_rank_score.

(** Starts in the middle of a segment, crosses into the next; and a score below all. *)
Example C11_ex : reachable 2 4 l1 m1 /\
  option_map (map (fun re => (e_id (re_elem re), re_top re, re_bottom re))) (get_rank_score_desc l1 52 5)
    = Some [(5, 4%Z, 7%Z); (4, 5%Z, 6%Z); (6, 6%Z, 5%Z); (7, 7%Z, 4%Z); (8, 8%Z, 3%Z)] /\
  get_rank_score_desc l1 2 5 = Some [].
Proof. split; [exact l1_reach|vm_compute; auto]. Qed.
