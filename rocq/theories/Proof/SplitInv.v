(** The split pass preserves the invariant. *)
From Coq Require Import Strings.String.
From Verif.Lib Require Import Prelude ListAux ListLemmas SortLemmas Perm.
From Verif.Model Require Import Element Elements Segment List.
From Verif.Spec Require Import RankSpec QuerySpec.
From Verif.Proof Require Import ElementP ElementsP ElementsThm SegP InvDef QueryP LookupP ChangeP UpdateP UpdateInv DeleteP BuildP SplitP IdxUpdP.
Open Scope N_scope.

Lemma moved_init l : moved l 0 l [].
Proof.
  split.
  - intros s x Hs Hx. right. split; [auto|]. eauto.
  - constructor.
  - contradiction.
Qed.

(** [us] says exactly where moved elements are *)
Lemma moved_us l0 k l us id t : moved l0 k l us -> distinct_ids (elems_of l) ->
  In (id, t) us -> exists s x, In s l /\ In x (sg_elems s) /\ e_id x = id /\ sg_id s = t.
Proof.
  intros [A B C] HD H.
  destruct (C id) as (s & x & Hs & Hx & E); [apply in_map_iff; exists (id, t); auto|].
  apply In_firstn in Hs. exists s, x. split; [exact Hs|]. split; [exact Hx|]. split; [exact E|].
  destruct (A s x Hs Hx) as [H2|(H2 & _)].
  - rewrite E in H2. apply (assoc_in _ _ _ B) in H. apply (assoc_in _ _ _ B) in H2. congruence.
  - exfalso. apply H2. rewrite E. apply in_map_iff. exists (id, t). auto.
Qed.

Lemma linked_moved now P Q ss0 ss is us k : core P Q ss0 is -> score_ok P ss -> elems_of ss = elems_of ss0 ->
  moved ss0 k ss us -> linked (fun q' => exists q, Q q /\ q' = upd1 now us q) ss.
Proof.
  intros HC HS EE HM id t.
  pose proof (score_ok_distinct _ _ HS) as HD. pose proof (c_link _ _ _ _ HC) as HL.
  assert (HF : forall q, Q q -> e_score q = e_id q) by (intros q Hq; apply (c_form _ _ _ _ HC q Hq)).
  assert (Hsame : forall s s' x y, In s ss0 -> In s' ss0 -> In x (sg_elems s) -> In y (sg_elems s') -> e_id x = e_id y -> s = s').
  { intros s s' x y Hs Hs' Hx Hy E.
    destruct (score_ok_seg _ _ _ _ (c_s _ _ _ _ HC) Hs Hx) as (Px & Rx).
    destruct (score_ok_seg _ _ _ _ (c_s _ _ _ _ HC) Hs' Hy) as (Py & Ry).
    assert (x = y) by (apply (so_uniq _ _ (c_s _ _ _ _ HC)); auto). subst y.
    apply In_nth_error in Hs as (i & Hi). apply In_nth_error in Hs' as (j & Hj).
    assert (i = j) by (eapply tile_from_unique; [apply (so_tile _ _ (c_s _ _ _ _ HC))|exact Hi|exact Hj|exact Rx|exact Ry]).
    congruence. }
  split.
  - intros (q' & (q & Qq & ->) & Eid & Et). rewrite upd1_id in Eid.
    unfold upd1 in Et. rewrite (HF q Qq) in Et. destruct (assoc (e_id q) us) as [t'|] eqn:Ea.
    + cbn in Et. subst t'. apply assoc_Some in Ea. rewrite Eid in Ea. eapply moved_us; eauto.
    + destruct (proj1 (HL id t)) as (s0 & x & Hs0 & Hx & Ex & Es0); [exists q; auto|].
      assert (Hin : In x (elems_of ss)) by (rewrite EE; apply elems_of_In; eauto).
      apply elems_of_In in Hin as (s & Hs & Hxs). exists s, x. split; [exact Hs|]. split; [exact Hxs|]. split; [exact Ex|].
      destruct (j_at _ _ _ _ HM s x Hs Hxs) as [H|(_ & s1 & Hs1 & Hx1 & E1)].
      * exfalso. rewrite Ex, <- Eid in H. eapply assoc_None; [exact Ea|exact H].
      * rewrite <- E1. rewrite <- Es0. f_equal. eapply Hsame; eauto.
  - intros (s & x & Hs & Hx & Ex & Es).
    destruct (j_at _ _ _ _ HM s x Hs Hx) as [H|(H & s1 & Hs1 & Hx1 & E1)].
    + assert (Hin : In x (elems_of ss0)) by (rewrite <- EE; apply elems_of_In; eauto).
      apply elems_of_In in Hin as (s0 & Hs0 & Hx0).
      destruct (proj2 (HL id (sg_id s0))) as (q & Qq & Eq & _); [exists s0, x; auto|].
      exists (upd1 now us q). split; [eauto|]. rewrite upd1_id. split; [exact Eq|].
      unfold upd1. rewrite (HF q Qq), Eq, <- Ex, (assoc_in _ (sg_id s) us (j_nd _ _ _ _ HM) H). exact Es.
    + destruct (proj2 (HL id (sg_id s1))) as (q & Qq & Eq & Etq); [exists s1, x; auto|].
      exists (upd1 now us q). split; [eauto|]. rewrite upd1_id. split; [exact Eq|].
      unfold upd1. rewrite (HF q Qq), Eq, <- Ex, assoc_not_in by exact H. congruence.
Qed.

Lemma meta_sok isidx P s : meta s -> score_ok P (ss_segs s) ->
  (isidx = true -> aligned (ss_segs s) /\ forall x, P x -> idx_elem x) ->
  sok isidx (ss_id s) P (ss_segs s) (ss_next s).
Proof. intros HM HS HA. split; auto; apply HM. Qed.

Lemma meta_next_pos P s : meta s -> score_ok P (ss_segs s) -> 0 < ss_next s.
Proof.
  intros HM HS. pose proof (tile_nonempty _ (so_tile _ _ HS)) as Hne. pose proof (m_id _ HM) as HI.
  destruct (ss_segs s) as [|g r]; [congruence|]. inversion HI; subst. lia.
Qed.

Lemma split_inv P merge now l : Inv P l -> 0 < now < max_u32 ->
  (split_pass merge now l = Exhausted /\
   (4294967296 < ss_next (l_scores l) + N.of_nat (length (ss_segs (l_scores l))) \/
    4294967296 < ss_next (l_index l) + N.of_nat (length (ss_segs (l_index l))))) \/
  exists l', split_pass merge now l = Done l' /\ Inv P l' /\ contents l' = contents l /\
             l_merge l' = l_merge l /\ l_split l' = l_split l.
Proof.
  intros HI Hnow. destruct (i_core _ _ HI) as (Q & HC).
  pose proof (i_ms _ _ HI) as HMs. pose proof (i_mi _ _ HI) as HMi.
  pose proof (c_s _ _ _ _ HC) as HS. pose proof (c_i _ _ _ _ HC) as HQ.
  pose proof (meta_next_pos _ _ HMs HS) as Hps. pose proof (meta_next_pos _ _ HMi HQ) as Hpi.
  unfold split_pass. set (s := l_scores l) in *. set (x := l_index l) in *.
  destruct (split_loop_done false merge (l_merge l) (l_split l) now (length (ss_segs s)) 0 (ss_segs s) (ss_next s) [] false)
    as (ss & nx & us & upd & E1 & B1); [lia|]. rewrite E1.
  assert (K0 : sok false (ss_id s) P (ss_segs s) (ss_next s)) by (apply meta_sok; auto; discriminate).
  destruct (split_loop_ok _ _ _ _ _ _ _ (ss_segs s) Hnow _ _ _ _ _ _ _ _ _ _ Hps K0 (moved_init _) E1)
    as (K1 & (k & M1) & EE1 & U1).
  assert (Hids : forall id, In id (map fst us) -> id <= max_u64).
  { intros id Hid. apply in_map_iff in Hid as ((i & t) & <- & H).
    destruct (moved_us _ _ _ _ _ _ M1 (score_ok_distinct _ _ (k_s _ _ _ _ _ K1)) H) as (g & y & Hg & Hy & <- & _).
    destruct (score_ok_seg _ _ _ _ (k_s _ _ _ _ _ K1) Hg Hy) as (Py & _). pose proof (good_ok _ (so_good _ _ HS y Py)) as Ho.
    unfold elem_ok in Ho. cbn. tauto. }
  destruct (update_index_spec now us (ss_segs x) Q HQ (c_al _ _ _ _ HC) (c_form _ _ _ _ HC) (j_nd _ _ _ _ M1) Hids) as (F1 & F2 & F3).
  set (xs := update_index_elements now us (ss_segs x)) in *.
  assert (Lx : length xs = length (ss_segs x)) by (rewrite <- (map_length frame xs), F1, map_length; reflexivity).
  destruct (split_loop_done true true (l_merge l) (l_split l) now (length xs) 0 xs (ss_next x) [] upd)
    as (is & nxi & us2 & updi & E2 & B2); [lia|]. rewrite E2. unfold guard_ids, ids_ok.
  cbn [set_both l_scores l_index ss_next].
  destruct ((nx <=? 4294967296) && (nxi <=? 4294967296)) eqn:EG.
  2: { left. split; [reflexivity|]. lia. }
  right. eexists. split; [reflexivity|]. apply andb_true_iff in EG as (EG1 & EG2).
  assert (Hus : forall id t, In (id, t) us -> id <= max_u64 /\ t <= max_u32).
  { intros id t H. split; [apply Hids; apply in_map_iff; exists (id, t); auto|].
    destruct (moved_us _ _ _ _ _ _ M1 (score_ok_distinct _ _ (k_s _ _ _ _ _ K1)) H) as (g & y & Hg & Hy & _ & <-).
    pose proof (k_id _ _ _ _ _ K1) as Hk. rewrite Forall_forall in Hk. specialize (Hk g Hg). unfold max_u32. lia. }
  pose proof (update_index_ok now us (ss_segs x) Q HQ (c_al _ _ _ _ HC) (c_form _ _ _ _ HC) (j_nd _ _ _ _ M1) Hus Hnow) as HQ'.
  set (Q' := fun q' => exists q, Q q /\ q' = upd1 now us q) in *. fold xs in HQ'.
  assert (HF' : forall q, Q' q -> idx_elem q).
  { intros q (q0 & H0 & ->). unfold idx_elem. rewrite upd1_score, upd1_id, upd1_payload. apply (c_form _ _ _ _ HC q0 H0). }
  assert (HA' : aligned xs).
  { unfold aligned. apply Forall_forall. intros g Hg. apply In_nth_error in Hg as (j & Hj).
    destruct (frames_nth _ _ _ _ F1 Hj) as (g0 & Hg0 & Fg). destruct (frame_eq _ _ Fg) as (_ & _ & _ & _ & _ & -> & ->).
    pose proof (c_al _ _ _ _ HC) as HA. unfold aligned in HA. rewrite Forall_forall in HA. apply HA. eapply nth_error_In; eauto. }
  assert (HM' : meta (mkSegs (ss_id x) xs (ss_next x) (ss_index x) (ss_idx x))).
  { apply meta_step with now; auto. apply HMi. }
  assert (K2 : sok true (ss_id x) Q' xs (ss_next x)) by (apply (meta_sok true Q' _ HM'); auto).
  destruct (split_loop_ok _ _ _ _ _ _ _ xs Hnow _ _ _ _ _ _ _ _ _ _ Hpi K2 (moved_init _) E2)
    as (K3 & _ & EE3 & U3).
  split; [|cbn; unfold contents; cbn; auto].
  split; cbn [set_both l_scores l_index ss_id ss_segs ss_next ss_index ss_idx l_scores_id l_index_id l_merge l_split]; try apply HI; try reflexivity.
  - exists Q'. split.
    + apply K1.
    + apply K3.
    + apply (k_al _ _ _ _ _ K3 eq_refl).
    + exact HF'.
    + apply K1.
    + eapply Forall_impl; [|apply (k_id _ _ _ _ _ K1)]. cbn. unfold max_u32. intros; lia.
    + eapply linked_moved; [exact HC|apply K1|exact EE1|exact M1].
  - split; cbn [ss_id ss_segs ss_next ss_index ss_idx]; try apply K1; try apply HMs.
    + destruct upd; [auto|]. destruct (U1 eq_refl) as (_ & -> & _). apply HMs.
    + lia.
  - split; cbn [ss_id ss_segs ss_next ss_index ss_idx]; try apply K3; try apply HMi.
    + destruct updi; [auto|]. destruct (U3 eq_refl) as (-> & -> & _). destruct (U1 eq_refl) as (_ & _ & Eus).
      assert (Exs : xs = ss_segs x) by (unfold xs; rewrite Eus; reflexivity). rewrite Exs. apply HMi.
    + lia.
Qed.
