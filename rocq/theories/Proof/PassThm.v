(** A split pass whose writes fail, on lists reachable by any history. *)
From Verif.Lib Require Import Prelude ListAux ListLemmas.
From Verif.Model Require Import Element Elements Segment List Fails PassFail.
From Verif.Spec Require Import RankSpec QuerySpec HistorySpec AnswerSpec ReadFailSpec PassSpec.
From Verif.Proof Require Import InvDef HistoryP ListThm SkewP LookupP PassFailP NewP.
Open Scope N_scope.

Lemma c71_pass merge split l m hs hx f mg now : reachable merge split l m -> tick now ->
  (split_w hs hx f mg now l = Exhausted /\
   (2 ^ 32 < ss_next (l_scores l) + N.of_nat (length (ss_segs (l_scores l))) \/
    2 ^ 32 < ss_next (l_index l) + N.of_nat (length (ss_segs (l_index l))))) \/
  exists l' e, split_w hs hx f mg now l = Done (l', e) /\ (all_kept f -> e = PAll) /\
    match e with
    | PAll => step l (OSplit mg now) = Done l'
    | PMeta => step l (OSplit mg now) = Done l' /\ (p_ms f <> Kept \/ p_mx f <> Kept)
    | PUpdate => stored_in l' = stored_in l /\ heals l' /\ exists i, p_upd f i <> Kept
    | PIndex w => stored_in l' = stored_in l /\ heals l' /\ ended_by (p_xa f) (p_xb f) w <> Kept
    | PScores w => l_index l' = l_index l /\ ended_by (p_sa f) (p_sb f) w <> Kept /\ len l' = len l /\
        exists u v x, stored_in l = u ++ v ++ x /\
          stored_in l' = u ++ (if misses hs (ended_by (p_sa f) (p_sb f) w) w then [] else v) ++ x /\
          forall k, In k (locked_at w) \/ In k (missing_at w) ->
            exists s, nth_error (ss_segs (l_scores l')) k = Some s /\ sg_n s = length v /\ sg_elems s = []
    end.
Proof.
  intros HR Hn. pose proof (reach_Inv _ _ _ _ HR) as HI. destruct (inv_skew _ _ HI) as (Q & _ & HK).
  destruct (split_w_ok _ _ l hs hx f mg now HI HK Hn) as [H|(l' & e & E & A & _ & _ & B)]; [left; exact H|].
  right. exists l', e. split; [exact E|]. split; [exact A|]. exact B.
Qed.

Lemma c71_gone merge split l m hs hx f mg now l' i : reachable merge split l m -> tick now ->
  split_w hs hx f mg now l = Done (l', PScores (WMerge i)) -> misses hs (p_sa f i) (WMerge i) = true ->
  exists hidden, (forall x, In x (stored_in l) <-> In x (stored_in l') \/ In x hidden) /\
    len l' = len l /\ length (stored_in l) = (length (stored_in l') + length hidden)%nat /\
    forall ops l2 x, In x hidden -> (forall o, In o ops -> ~ In x (given o)) -> run l' ops = Done l2 -> ~ In x (stored_in l2).
Proof.
  intros HR Hn E Hm. destruct (c71_pass _ _ _ _ hs hx f mg now HR Hn) as [(C & _)|(l1 & e & E1 & _ & B)]; [congruence|].
  rewrite E1 in E. injection E as -> ->. cbn beta iota in B. destruct B as (_ & _ & HL & u & v & x & Ec & El & _). cbn [ended_by] in El. rewrite Hm in El. cbn [app] in El.
  exists v. split; [|split; [exact HL|split]].
  - intros y. rewrite Ec, El, !in_app_iff. tauto.
  - rewrite Ec, El, !app_length. lia.
  - intros ops l2 y Hy Hg Hr C. destruct (c71_nothing_new _ _ _ _ Hr C) as [C'|(o & Ho & Hx)]; [|exact (Hg o Ho Hx)].
    rewrite El in C'. pose proof (reach_ranking _ _ _ _ HR) as HRk. 
    assert (ND : NoDup (stored_in l)) by (apply ranked_NoDup, HRk).
    rewrite Ec in ND. clear - ND Hy C'. apply NoDup_app_iff in ND as (_ & ND & D1). apply NoDup_app_iff in ND as (_ & _ & D2).
    apply in_app_iff in C' as [C'|C']; [exact (D1 _ C' (in_or_app _ _ _ (or_introl Hy)))|exact (D2 _ Hy C')].
Qed.
