(** Lists satisfying the invariant answer every query according to their ranking. *)
From Coq Require Import Strings.String.
From Verif.Lib Require Import Prelude ListAux ListLemmas SortLemmas Perm.
From Verif.Model Require Import Element Elements Segment List.
From Verif.Spec Require Import RankSpec QuerySpec AnswerSpec.
From Verif.Proof Require Import ElementP ElementsP SegP InvDef QueryP LookupP PctP HistoryP.
Open Scope N_scope.

Lemma ranked_at_rank r radius i x : nth_error r i = Some x -> true_rank r (ranked_at r radius i x).
Proof. intros H. exists i. cbn. repeat split; auto. lia. Qed.
Lemma ranked_at_nb r radius i x : true_neighbours r radius (ranked_at r radius i x).
Proof. intros j E. cbn [ranked_at re_top] in E. assert (j = i) by lia. subst j. split; reflexivity. Qed.

Lemma contents_ranking_q P l : Qok P l -> ranking_of P (contents l).
Proof.
  intros H. destruct (q_core _ _ H) as (Q & HC). split.
  - eapply score_ok_ranked, (c_s _ _ _ _ HC).
  - intros e. apply score_ok_In, (c_s _ _ _ _ HC).
Qed.

Lemma size_le64 x : x < 2 ^ 64 -> N.size x <= 64.
Proof.
  intros H. destruct (N.eq_dec x 0) as [->|Hx]; [cbn; lia|]. rewrite N.size_log2 by exact Hx.
  assert (N.log2 x < 64) by (apply N.log2_lt_pow2; lia). lia.
Qed.

Lemma qok_answers P l r : Qok P l -> ranking_of P r -> answers l r.
Proof.
  intros HQ Hr. pose proof (contents_ranking_q _ _ HQ) as Hc.
  rewrite (ranking_unique _ _ _ Hr Hc) in *. clear r Hr.
  destruct (q_core _ _ HQ) as (Q & HC). pose proof (c_s _ _ _ _ HC) as HS. pose proof (q_cnt _ _ HQ) as Hcnt.
  split.
  - unfold len, contents. apply count_elems. exact Hcnt.
  - intros off n. apply rank_top_spec. exact Hcnt.
  - intros off n. apply rank_bottom_spec. exact Hcnt.
  - intros score n Hs. apply (rank_score_spec P); assumption.
  - intros sc1 sc2 ids radius Hids. destruct (get_elements_spec P l sc1 sc2 ids radius HQ Hids) as (A & B). cbn zeta in *.
    split; [exact A|]. split.
    + intros x. rewrite in_map_iff. split.
      * intros (re & <- & Hre). apply B in Hre as (i & y & Hn & Hi & ->). cbn [ranked_at re_elem].
        split; [eapply nth_error_In; eauto|exact Hi].
      * intros (Hx & Hi). apply In_nth_error in Hx as (i & Hn). exists (ranked_at (contents l) radius i x).
        split; [reflexivity|]. apply B. eauto.
    + apply Forall_forall. intros re Hre. apply B in Hre as (i & y & Hn & Hi & ->).
      split; [apply ranked_at_rank; exact Hn|]. split; [apply ranked_at_nb|reflexivity].
  - intros m k radius Hne Hm. destruct (pct_at_spec P l (N.to_nat (want_off (N.of_nat (length (contents l))) m k)) radius HQ) as (A & _).
    assert (Hpos : 0 < N.of_nat (length (contents l))) by (destruct (contents l); [congruence|cbn [length]; lia]).
    pose proof (want_off_lt _ _ _ Hpos Hm) as Hlt.
    destruct A as (x & Hn & E); [lia|].
    exists (want_off (N.of_nat (length (contents l))) m k), (ranked_at (contents l) radius (N.to_nat (want_off (N.of_nat (length (contents l))) m k)) x).
    split; [|split; [|split; [|split]]].
    + unfold get_percentile. unfold len. rewrite count_elems by exact Hcnt. exact E.
    + split; [apply want_off_close|]. intros Hx. apply want_off_exact, size_le64, Hx.
    + cbn [ranked_at re_top]. lia.
    + apply ranked_at_rank. exact Hn.
    + apply ranked_at_nb.
Qed.

Lemma inv_answers P l r : Inv P l -> ranking_of P r -> answers l r.
Proof. intros H. apply qok_answers, Inv_Qok, H. Qed.
