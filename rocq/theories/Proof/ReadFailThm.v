(** C65 for reachable lists. *)
From Coq Require Import Strings.String.
From Verif.Lib Require Import Prelude ListAux.
From Verif.Model Require Import Element Elements Segment List ReadFail.
From Verif.Spec Require Import RankSpec QuerySpec HistorySpec AnswerSpec ReadFailSpec.
From Verif.Proof Require Import InvDef AnswerP HistoryP ListThm ReadFailP.
From Verif.Thm Require Import Sample.
Open Scope N_scope.

Lemma c65_right merge split l m r : reachable merge split l m -> ranking_of (sin m) r -> answers_or_fails l r.
Proof. intros H Hr. apply (qok_answers_or_fails (sin m)); [eapply Inv_Qok, reach_Inv; eauto|exact Hr]. Qed.
Lemma c65_when merge split l m r : reachable merge split l m -> ranking_of (sin m) r -> fails_exactly l r.
Proof. intros H Hr. apply (qok_fails_exactly (sin m)); [eapply Inv_Qok, reach_Inv; eauto|exact Hr]. Qed.
Lemma c65_complete merge split l m r rdi rd nb sc1 sc2 ids radius res :
  reachable merge split l m -> ranking_of (sin m) r -> Forall (fun v => v <= max_u64) ids -> (forall id i, nb id i = true) ->
  get_elements_r rdi rd nb sc1 sc2 l ids radius = Answer res -> exact_lookup r ids radius res.
Proof.
  intros H Hr Hids Hnb E. rewrite (get_elements_r_all _ _ _ _ _ _ _ _ _ Hnb E). apply (a_get _ _ (reach_answers _ _ _ _ _ H Hr)). exact Hids.
Qed.

Lemma c65_silent : exists merge split l m r rdi rd nb ids radius res,
  reachable merge split l m /\ ranking_of (sin m) r /\ Forall (fun v => v <= max_u64) ids /\
  get_elements_r rdi rd nb [] [] l ids radius = Answer res /\ rank_lookup r ids radius res /\ ~ exact_lookup r ids radius res.
Proof.
  assert (Hids : Forall (fun v => v <= max_u64) [3]) by (constructor; [discriminate|constructor]).
  pose proof (reach_ranking _ _ _ _ l0_reach) as Hr.
  destruct (f_get _ _ (c65_right _ _ _ _ _ l0_reach Hr) (fun _ => true) (fun _ => true) (fun _ i => negb (Nat.eqb i 1)) [] [] [3] 2 Hids) as [E|(res & E & HL)];
    [vm_compute in E; discriminate E|].
  exists 2%nat, 4%nat, l0, m0, (stored_in l0), (fun _ => true), (fun _ => true), (fun _ i => negb (Nat.eqb i 1)), [3], 2%nat, res.
  split; [exact l0_reach|]. split; [exact Hr|]. split; [exact Hids|]. split; [exact E|]. split; [exact HL|].
  intros (_ & _ & HF). vm_compute in E. injection E as <-. inversion HF as [|? ? (_ & Hn & _) _]; subst.
  destruct (Hn 2%nat eq_refl) as (Hb & _). vm_compute in Hb. discriminate Hb.
Qed.
