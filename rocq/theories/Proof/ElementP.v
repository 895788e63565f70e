(** Lemmas about the ranking order. *)
From Verif.Lib Require Import Prelude ListAux SortLemmas Perm.
From Verif.Model Require Import Element Elements.
From Verif.Spec Require Import RankSpec.
Open Scope N_scope.

Lemma above_spec a b : above a b = true <-> Above a b.
Proof.
  unfold above, Above.
  destruct (N.eqb_spec (e_score a) (e_score b)); cbn [negb]; [|lia].
  destruct (N.eqb_spec (e_tie a) (e_tie b)); cbn [negb]; [|lia].
  destruct (N.eqb_spec (e_upd a) (e_upd b)); cbn [negb]; lia.
Qed.

Lemma above_false a b : above a b = false <-> ~ Above a b.
Proof. rewrite <- above_spec. destruct (above a b); split; congruence. Qed.

Lemma aboveP_above a b : aboveP a b = above a b.
Proof. reflexivity. Qed.

Lemma Above_irrefl a : ~ Above a a.
Proof. unfold Above; lia. Qed.
Lemma Above_trans a b c : Above a b -> Above b c -> Above a c.
Proof. unfold Above; lia. Qed.
Lemma Above_asym a b : Above a b -> ~ Above b a.
Proof. unfold Above; lia. Qed.
Lemma Above_asym' a b : Above a b -> Above b a -> False.
Proof. unfold Above; lia. Qed.
Lemma notAbove_trans a b c : ~ Above b a -> ~ Above c b -> ~ Above c a.
Proof. unfold Above; lia. Qed.
Lemma Above_total a b : e_id a <> e_id b -> Above a b \/ Above b a.
Proof. unfold Above; lia. Qed.
Lemma Above_dec a b : {Above a b} + {~ Above a b}.
Proof. destruct (above a b) eqn:E; [left; apply above_spec|right; apply above_false]; exact E. Qed.

Lemma above_asym_b x y : above x y = true -> above y x = false.
Proof. rewrite above_spec, above_false. apply Above_asym. Qed.
Lemma above_letrans_b x y z : above y x = false -> above z y = false -> above z x = false.
Proof. rewrite !above_false. apply notAbove_trans. Qed.

Lemma ltp_above : forall a b, ltp above a b <-> Above a b.
Proof. intros; apply above_spec. Qed.

Lemma ranked_unique l1 l2 : ranked l1 -> ranked l2 -> (forall x, In x l1 <-> In x l2) -> l1 = l2.
Proof. apply sorted_unique; [apply Above_irrefl|apply Above_asym']. Qed.

Lemma ranked_weakly l : ranked l -> weakly_ranked l.
Proof. apply StronglySorted_impl_In. intros; apply Above_asym; assumption. Qed.

Lemma weakly_ranked_distinct l : distinct_ids l -> weakly_ranked l -> ranked l.
Proof.
  unfold distinct_ids, weakly_ranked, ranked.
  intros Hd H; induction H as [|x r _ IH Hx]; constructor; cbn in Hd; inv Hd; auto.
  rewrite Forall_forall in *. intros z Hz.
  destruct (Above_total x z) as [|C]; auto.
  - intros E. apply H1. rewrite E. apply in_map; exact Hz.
  - exfalso. eapply Hx; eauto.
Qed.

Lemma weakly_ranked_lep l : weakly_ranked l <-> StronglySorted (lep above) l.
Proof.
  unfold weakly_ranked, lep; split; apply StronglySorted_impl_In; intros x y _ _; apply above_false.
Qed.

Lemma sort_elems_perm l : Permutation (sort_elems l) l.
Proof. apply sort_by_perm. Qed.
Lemma sort_elems_In x l : In x (sort_elems l) <-> In x l.
Proof. apply sort_by_In. Qed.
Lemma sort_elems_weak l : weakly_ranked (sort_elems l).
Proof.
  apply weakly_ranked_lep. apply sort_by_sorted; [apply above_asym_b|].
  intros x y z; apply above_letrans_b.
Qed.
Lemma distinct_ids_perm l1 l2 : Permutation l1 l2 -> distinct_ids l1 -> distinct_ids l2.
Proof. intros HP. unfold distinct_ids. apply Permutation_NoDup, Permutation_map, HP. Qed.
Lemma sort_elems_ranked l : distinct_ids l -> ranked (sort_elems l).
Proof.
  intros Hd. apply weakly_ranked_distinct; [|apply sort_elems_weak].
  eapply distinct_ids_perm; [|exact Hd]. symmetry; apply sort_elems_perm.
Qed.
Lemma is_sorted_elems_spec l : is_sorted_elems l = true <-> weakly_ranked l.
Proof.
  rewrite weakly_ranked_lep. apply is_sorted_by_spec. intros x y z; apply above_letrans_b.
Qed.
