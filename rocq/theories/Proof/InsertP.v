(** Insert of new IDs preserves the invariant; when it returns. *)
From Coq Require Import Strings.String.
From Verif.Lib Require Import Prelude ListAux ListLemmas SortLemmas Perm.
From Verif.Model Require Import Element Elements Segment List.
From Verif.Spec Require Import RankSpec QuerySpec.
From Verif.Proof Require Import ElementP ElementsP ElementsThm SegP InvDef QueryP LookupP ChangeP UpdateP UpdateInv DeleteP.
Open Scope N_scope.

Lemma merge_copy_In x a b : In x (merge_copy a b) <-> In x a \/ In x b.
Proof.
  rewrite <- in_app_iff. pose proof (merge_copy_perm a b) as Hp.
  split; apply Permutation_in; [exact Hp|symmetry; exact Hp].
Qed.

Lemma distinct_ids_app a b : distinct_ids a -> distinct_ids b ->
  (forall x y, In x a -> In y b -> e_id x <> e_id y) -> distinct_ids (a ++ b).
Proof.
  unfold distinct_ids. intros Ha Hb H. rewrite map_app. apply NoDup_app_intro; auto.
  intros v Hv C. apply in_map_iff in Hv as (x & <- & Hx). apply in_map_iff in C as (y & E & Hy). apply (H x y); auto.
Qed.

Lemma merge_copy_ranked a b : ranked a -> ranked b -> distinct_ids a -> distinct_ids b ->
  (forall x y, In x a -> In y b -> e_id x <> e_id y) -> ranked (merge_copy a b).
Proof.
  intros Ha Hb Da Db H. apply weakly_ranked_distinct.
  - eapply distinct_ids_perm; [symmetry; apply merge_copy_perm|]. apply distinct_ids_app; auto.
  - apply merge_copy_weak; apply ranked_weakly; assumption.
Qed.

Lemma changed_ins P now l ins : score_ok P l -> weakly_ranked ins -> distinct_ids ins ->
  (forall x y, In x ins -> P y -> e_id x <> e_id y) ->
  changed (fun x => In x ins) (fun id => In id (map e_id ins)) l (map (ins_in now ins) l).
Proof.
  intros HS Hw Hd Hn i s s' Hi Hi'. rewrite nth_error_map, Hi in Hi'. cbn in Hi'.
  assert (E : s' = ins_in now ins s) by congruence. subst s'.
  assert (Ee : sg_elems (ins_in now ins s) = merge_copy (sg_elems s) (filter (inr s) ins)).
  { unfold ins_in. destruct (filter (inr s) ins); [|reflexivity]. rewrite merge_copy_nil_r. reflexivity. }
  rewrite Ee. destruct (score_ok_seg_ranked _ _ _ _ HS Hi) as (Hr & Hds).
  assert (Hne : forall x y, In x (sg_elems s) -> In y ins -> e_id x <> e_id y).
  { intros x y Hx Hy C. apply (Hn y x Hy); [|congruence].
    apply (score_ok_seg _ _ s x HS (nth_error_In _ _ Hi) Hx). }
  split.
  - apply merge_copy_ranked; auto.
    + apply weakly_ranked_distinct; [apply distinct_ids_filter; exact Hd|apply weak_filter; exact Hw].
    + apply distinct_ids_filter. exact Hd.
    + intros x y Hx Hy. apply filter_In in Hy. apply Hne; tauto.
  - intros x. rewrite merge_copy_In, filter_In, inr_spec. split; [|tauto].
    intros [Hx|H]; [|tauto]. right. split; [exact Hx|]. intros C. apply in_map_iff in C as (y & Ey & Hy).
    apply (Hne x y); auto.
Qed.

Lemma insert_one_inv P l now sc e : Inv P l -> distinct_ids e -> Forall good e ->
  (forall x y, In x e -> P y -> e_id x <> e_id y) -> 0 < now < max_u32 ->
  Inv (fun x => In x e \/ P x) (insert_one now sc l e) /\
  length (ss_segs (l_index (insert_one now sc l e))) = length (ss_segs (l_index l)) /\
  l_split (insert_one now sc l e) = l_split l.
Proof.
  intros HInv Hd Hg Hn Hnow. destruct (i_core _ _ HInv) as (Q & HC).
  pose proof (c_s _ _ _ _ HC) as HS. pose proof (c_i _ _ _ _ HC) as HI.
  unfold insert_one, segs_insert.
  set (ins := sort_elems (sort_elems e)).
  assert (Hin : forall x, In x ins <-> In x e) by (intros; unfold ins; rewrite !sort_elems_In; tauto).
  assert (Hp : Permutation ins e) by (unfold ins; rewrite !sort_elems_perm; reflexivity).
  assert (Hdi : distinct_ids ins) by (eapply distinct_ids_perm; [symmetry; exact Hp|exact Hd]).
  assert (Hwi : weakly_ranked ins) by apply sort_elems_weak.
  assert (Hgi : Forall good ins).
  { rewrite Forall_forall in *. intros x Hx. apply Hg, Hin, Hx. }
  assert (Hgi' : Forall good_in ins) by (eapply Forall_impl; [|exact Hgi]; intros; apply good_good_in; auto).
  rewrite (insert_sorted_map now _ topk ins (so_tile _ _ HS) Hwi Hgi').
  2:{ intros x Hx. rewrite Forall_forall in Hgi. apply key_le_top, good_ok, Hgi, Hx. }
  set (ss := ss_segs (l_scores l)) in *. set (is := ss_segs (l_index l)) in *.
  set (ix := flat_map (fun s => match filter (inr s) ins with [] => [] | f => [element_ids f (sg_id s)] end) ss).
  set (B := fun q => exists s x, In s ss /\ In x ins /\ in_range s x /\ q = as_index x (sg_id s)).
  set (ii := sort_elems (sort_elems (sort_elems (concat (permute sc ix))))).
  assert (Hcp : Permutation ii (concat ix)).
  { unfold ii. rewrite !sort_elems_perm. apply Permutation_concat, permute_perm. }
  assert (HBin : forall q, In q ii <-> B q).
  { intros q. split.
    - intros Hq. apply (Permutation_in _ Hcp) in Hq. apply in_concat in Hq as (v & Hv & Hq).
      unfold ix in Hv. apply in_flat_map in Hv as (s & Hs & Hv).
      assert (Ev : v = element_ids (filter (inr s) ins) (sg_id s)).
      { destruct (filter (inr s) ins); [contradiction|]. destruct Hv as [<-|[]]. reflexivity. }
      subst v. unfold element_ids in Hq. apply sort_elems_In, in_map_iff in Hq as (x & <- & Hx).
      apply filter_In in Hx as (Hx & Hr). apply inr_spec in Hr. exists s, x. auto.
    - intros (s & x & Hs & Hx & Hr & ->). apply (Permutation_in _ (Permutation_sym Hcp)). apply in_concat.
      exists (element_ids (filter (inr s) ins) (sg_id s)).
      assert (Hf : In x (filter (inr s) ins)) by (apply filter_In; split; [exact Hx|apply inr_spec; exact Hr]).
      split.
      + unfold ix. apply in_flat_map. exists s. split; [exact Hs|].
        destruct (filter (inr s) ins); [contradiction|]. left; reflexivity.
      + unfold element_ids. apply sort_elems_In, in_map_iff. eauto. }
  assert (Hcid := c_id _ _ _ _ HC). rewrite Forall_forall in Hcid.
  assert (HBg : forall q, B q -> good q).
  { intros q (s & x & Hs & Hx & _ & ->). apply as_index_good; [|apply Hcid; exact Hs].
    rewrite Forall_forall in Hgi. auto. }
  assert (HBd : forall q, B q -> In (e_id q) (map e_id ins)).
  { intros q (s & x & Hs & Hx & _ & ->). cbn. apply in_map. exact Hx. }
  assert (Hinj : forall x y, In x ins -> In y ins -> e_id x = e_id y -> x = y).
  { clear - Hdi. unfold distinct_ids in Hdi. induction ins as [|z r IH]; intros a b Ha Hb E; [contradiction|].
    cbn in Hdi. apply NoDup_cons_iff in Hdi as (Hz & Hr). destruct Ha as [->|Ha], Hb as [->|Hb]; auto.
    - exfalso. apply Hz. rewrite E. apply in_map. exact Hb.
    - exfalso. apply Hz. rewrite <- E. apply in_map. exact Ha. }
  assert (HBu : uniq B).
  { intros q r (s & x & Hs & Hx & Rx & ->) (t & y & Ht & Hy & Ry & ->) E. cbn in E.
    assert (x = y) by (apply Hinj; auto). subst y.
    apply In_nth_error in Hs as (i & Hs). apply In_nth_error in Ht as (j & Ht).
    assert (i = j) by (eapply (seg_unique P ss); eauto). subst j. assert (s = t) by congruence. subst t. reflexivity. }
  assert (Hdii : distinct_ids ii).
  { eapply distinct_ids_perm; [symmetry; exact Hcp|]. unfold ix.
    assert (E : concat ix = flat_map (fun s => element_ids (filter (inr s) ins) (sg_id s)) ss).
    { unfold ix. generalize ss as L. induction L as [|s r IH]; [reflexivity|]. cbn [flat_map]. rewrite concat_app, IH. f_equal.
      destruct (filter (inr s) ins); [reflexivity|]. cbn [concat]. rewrite app_nil_r. reflexivity. }
    fold ix. rewrite E.
    assert (Hgen : forall L k, tile_from k L -> (forall s, In s L -> In s ss) ->
      distinct_ids (flat_map (fun s => element_ids (filter (inr s) ins) (sg_id s)) L)).
    { intros L k HT. pose proof (tile_from_unique L k) as Hu.
      assert (Hu' : forall i j s t x, nth_error L i = Some s -> nth_error L j = Some t -> in_range s x -> in_range t x -> i = j)
        by (intros; eapply Hu; eauto). clear Hu HT.
      induction L as [|s r IH]; intros Hsub; [constructor|]. cbn [flat_map]. apply distinct_ids_app.
      - unfold element_ids. eapply distinct_ids_perm; [symmetry; apply sort_elems_perm|].
        unfold distinct_ids. rewrite map_map. cbn. apply distinct_ids_filter. exact Hdi.
      - apply IH; [|intros; apply Hsub; right; assumption].
        intros i j u v x Hi Hj Hu Hv. assert (S i = S j) by (eapply Hu' with (s := u) (t := v); eauto). lia.
      - intros q q' Hq Hq' Eq. unfold element_ids in Hq. apply sort_elems_In, in_map_iff in Hq as (x & <- & Hx).
        apply in_flat_map in Hq' as (t & Ht & Hq'). unfold element_ids in Hq'. apply sort_elems_In, in_map_iff in Hq' as (y & <- & Hy).
        cbn in Eq. apply filter_In in Hx as (Hx & Rx). apply filter_In in Hy as (Hy & Ry).
        assert (x = y) by (apply Hinj; auto). subst y. apply inr_spec in Rx, Ry.
        apply In_nth_error in Ht as (j & Ht). assert (0%nat = S j) by (eapply Hu' with (s := s) (t := t); eauto). discriminate. }
    apply (Hgen ss topk); [apply HS|auto]. }
  assert (Hwii : weakly_ranked ii) by apply sort_elems_weak.
  assert (Hgii : Forall good ii) by (apply Forall_forall; intros q Hq; apply HBg, HBin, Hq).
  change (sort_elems (sort_elems (sort_elems (concat (permute sc ix))))) with ii.
  rewrite (insert_sorted_map now is topk ii (so_tile _ _ HI) Hwii).
  2:{ eapply Forall_impl; [|exact Hgii]. intros; apply good_good_in; auto. }
  2:{ intros x Hx. rewrite Forall_forall in Hgii. apply key_le_top, good_ok, Hgii, Hx. }
  assert (HFs : map frame (map (ins_in now ins) ss) = map frame ss) by (rewrite map_map; apply map_ext, ins_in_frame).
  assert (HFi : map frame (map (ins_in now ii) is) = map frame is) by (rewrite map_map; apply map_ext, ins_in_frame).
  assert (HD : forall id, In id (map e_id ii) <-> In id (map e_id ins)).
  { intros id. split.
    - intros H. apply in_map_iff in H as (q & <- & Hq). apply HBd, HBin, Hq.
    - intros H. apply in_map_iff in H as (x & <- & Hx).
      assert (Ho : elem_ok x) by (rewrite Forall_forall in Hgi; apply good_ok; auto).
      destruct (tile_from_locate ss topk (key x) (so_tile _ _ HS) (key_le_top x Ho)) as (i & s & Hi & Hr).
      change (e_id x) with (e_id (as_index x (sg_id s))). apply in_map, HBin.
      exists s, x. split; [eapply nth_error_In; eauto|]. auto. }
  assert (Hcs : changed (fun x => In x ins) (fun id => In id (map e_id ins)) ss (map (ins_in now ins) ss)).
  { apply changed_ins with P; auto. intros x y Hx Hy. apply Hn; [apply Hin; exact Hx|exact Hy]. }
  assert (Hci : changed B (fun id => In id (map e_id ins)) is (map (ins_in now ii) is)).
  { assert (Hc : changed (fun x => In x ii) (fun id => In id (map e_id ii)) is (map (ins_in now ii) is)).
    { apply changed_ins with Q; auto. intros q q' Hq Hq' E.
      apply HBin in Hq. apply HBd in Hq. apply in_map_iff in Hq as (x & Ex & Hx).
      destruct (proj1 (c_link _ _ _ _ HC (e_id q') (e_tie q'))) as (s & y & Hs & Hy & Ey & _); [eauto|].
      apply (Hn x y); [apply Hin; exact Hx| |congruence]. apply (score_ok_seg _ _ s y HS Hs Hy). }
    intros i s s' Hi Hi'. destruct (Hc i s s' Hi Hi') as (A1 & A2). split; [exact A1|].
    intros x. rewrite A2, HBin, HD. tauto. }
  assert (HC' : core (apply_change P (fun x => In x ins) (fun id => In id (map e_id ins)))
                     (apply_change Q B (fun id => In id (map e_id ins))) (map (ins_in now ins) ss) (map (ins_in now ii) is)).
  { apply core_change with (ss := ss) (is := is); auto.
    - intros x Hx. rewrite Forall_forall in Hgi. split; [auto|apply in_map; exact Hx].
    - intros q (s & x & _ & _ & _ & ->). split; reflexivity.
    - intros id t. split.
      + intros (q & (s & x & Hs & Hx & Rx & ->) & E1 & E2). exists s, x. auto.
      + intros (s & x & Hs & Hx & Rx & E1 & E2). exists (as_index x (sg_id s)). split; [exists s, x; auto|]. auto. }
  assert (HTs : forall u L, stepped now L (map (ins_in now u) L)).
  { intros u L. apply stepped_map. intros s. unfold ins_in. destruct (filter (inr s) u); [auto|]. right. eauto. }
  unfold set_segs. cbn [ss_id].
  rewrite set_both_eta; [|cbn; apply HInv|cbn; apply HInv].
  cbn [l_index l_split ss_segs]. split; [|split; [apply map_length|reflexivity]].
  split; cbn [l_scores l_index l_scores_id l_index_id l_merge l_split ss_id ss_segs ss_index ss_idx ss_next];
    try apply HInv.
  - exists (apply_change Q B (fun id => In id (map e_id ins))). eapply core_ext; [|exact HC'].
    intros x. unfold apply_change. rewrite Hin. split; [tauto|]. intros [H|H]; [auto|]. right. split; [exact H|].
    intros C. apply in_map_iff in C as (y & Ey & Hy). apply (Hn y x); [apply Hin; exact Hy|exact H|exact Ey].
  - apply meta_step with now; [apply HInv|exact Hnow|assumption|apply HTs|apply (m_idx _ (i_ms _ _ HInv))].
  - apply meta_step with now; [apply HInv|exact Hnow|assumption|apply HTs|apply (m_idx _ (i_mi _ _ HInv))].
Qed.

Lemma insert_loop_inv now sch limit : (0 < limit)%nat -> 0 < now < max_u32 -> forall fuel e P l, (length e <= fuel)%nat ->
  Inv P l -> distinct_ids e -> Forall good e -> (forall x y, In x e -> P y -> e_id x <> e_id y) ->
  exists l', insert_loop fuel limit now sch e l = Done l' /\ Inv (fun x => In x e \/ P x) l'.
Proof.
  intros Hlim Hnow. induction fuel as [|f IH]; intros e P l Hlen HInv Hd Hg Hn.
  - destruct e as [|x e]; [|cbn in Hlen; lia]. cbn [insert_loop length].
    destruct (Nat.ltb_spec limit 0); [lia|]. eexists. split; [reflexivity|]. apply insert_one_inv; auto.
  - cbn [insert_loop]. destruct (Nat.ltb_spec limit (length e)) as [Hlt|Hge].
    + rewrite <- (firstn_skipn limit e) in Hd, Hg. 
      assert (Hd' := Hd). unfold distinct_ids in Hd'. rewrite map_app in Hd'. apply NoDup_app_iff in Hd' as (Hd1 & Hd2 & Hd3).
      apply Forall_app in Hg as (Hg1 & Hg2).
      destruct (insert_one_inv P l now (sch (length e)) (firstn limit e) HInv Hd1 Hg1) as (HInv' & _ & _).
      { intros x y Hx. apply Hn. eapply In_firstn; eauto. }
      { exact Hnow. }
      edestruct (IH (skipn limit e)) as (l' & E & HI').
      * rewrite skipn_length. lia.
      * exact HInv'.
      * exact Hd2.
      * exact Hg2.
      * intros x y Hx [Hy|Hy] E.
        -- apply (Hd3 (e_id y)); [apply in_map; exact Hy|rewrite <- E; apply in_map; exact Hx].
        -- apply (Hn x y); auto. eapply In_skipn; eauto.
      * exists l'. split; [exact E|]. eapply Inv_ext; [|exact HI'].
        intros x.
        assert (E2 : In x e <-> In x (firstn limit e) \/ In x (skipn limit e)) by (rewrite <- in_app_iff, firstn_skipn; tauto).
        rewrite E2. tauto.
    + eexists. split; [reflexivity|]. apply insert_one_inv; auto.
Qed.

Lemma insert_loop_diverges now sch e : e <> [] -> forall fuel l, insert_loop fuel 0 now sch e l = Diverge.
Proof.
  intros He. induction fuel as [|f IH]; intros l; destruct e as [|x e]; try congruence; cbn; [reflexivity|]. apply IH.
Qed.

Lemma insert_limit_pos : (0 < insert_limit)%nat.
Proof. unfold insert_limit. lia. Qed.

Lemma want_limit_pos P l : Inv P l -> (4 <= l_split l)%nat <-> (0 < want_limit l)%nat.
Proof.
  intros HI. destruct (i_core _ _ HI) as (Q & HC). pose proof (tile_nonempty _ (so_tile _ _ (c_i _ _ _ _ HC))) as Hne.
  unfold want_limit. pose proof insert_limit_pos as Hp.
  assert (Hl : (0 < length (ss_segs (l_index l)))%nat) by (destruct (ss_segs (l_index l)); [congruence|cbn; lia]).
  revert Hp Hl. generalize insert_limit (length (ss_segs (l_index l))) (l_split l). intros a b c Ha Hb.
  assert (E : (0 < Nat.min (c / 4 * b) a <-> 0 < c / 4)%nat).
  { split; intros H.
    - destruct (c / 4)%nat; [cbn in H; lia|lia].
    - assert (0 < c / 4 * b)%nat by (apply Nat.mul_pos_pos; assumption). lia. }
  rewrite E. split; intros H.
  - apply Nat.div_str_pos. lia.
  - destruct (Nat.lt_ge_cases c 4) as [L|L]; [|exact L]. rewrite Nat.div_small in H by exact L. lia.
Qed.

Lemma insert_inv P l now sch e : Inv P l -> distinct_ids e -> Forall good e ->
  (forall x y, In x e -> P y -> e_id x <> e_id y) -> 0 < now < max_u32 -> (4 <= l_split l)%nat ->
  exists l', insert now sch e l = Done l' /\ Inv (fun x => In x e \/ P x) l'.
Proof.
  intros HI Hd Hg Hn Hnow Hs. unfold insert. apply insert_loop_inv; auto. apply (want_limit_pos _ _ HI). exact Hs.
Qed.

Lemma insert_diverges P l now sch e : Inv P l -> (l_split l < 4)%nat -> e <> [] -> insert now sch e l = Diverge.
Proof.
  intros HI Hs He. unfold insert. replace (want_limit l) with 0%nat; [apply insert_loop_diverges; exact He|].
  pose proof (want_limit_pos _ _ HI). lia.
Qed.
