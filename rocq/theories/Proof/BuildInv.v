(** initEmptyList, populate, NewList, clone, reindex and Repair establish the
    invariant. *)
From Coq Require Import Strings.String.
From Verif.Lib Require Import Prelude ListAux ListLemmas SortLemmas Perm.
From Verif.Model Require Import Element Elements Segment List.
From Verif.Spec Require Import RankSpec QuerySpec.
From Verif.Proof Require Import ElementP ElementsP ElementsThm SegP InvDef QueryP LookupP ChangeP UpdateP UpdateInv DeleteP InsertP BuildP.
Open Scope N_scope.

Lemma init_inv m s ns ni now : (m < s)%nat -> 0 < now < max_u32 -> ns <> ""%string -> ni <> ""%string ->
  Inv (fun _ => False) (init_empty m s ns ni now).
Proof.
  intros Hms Hnow Hns Hni.
  assert (HS : forall name, score_ok (fun _ => False) [mkSeg 1 0 max_u64 0 max_u32 0 now name []]).
  { intros name. split; [apply tile_one| |contradiction|intros x y []].
    constructor; [|constructor]. split; [constructor|]. cbn. tauto. }
  split; cbn [l_scores l_index l_scores_id l_index_id l_merge l_split init_empty empty_segs ss_id ss_segs ss_index]; auto.
  - exists (fun _ => False). split; auto.
    + constructor; [cbn; auto|constructor].
    + contradiction.
    + constructor; [cbn; tauto|constructor].
    + constructor; [cbn; unfold max_u32; lia|constructor].
    + intros id t. split; [intros (q & [] & _)|intros (g & x & [<-|[]] & [] & _)].
  - split; cbn; auto; try lia.
    + constructor; [|constructor]. unfold seg_meta. cbn. auto.
    + constructor; [cbn; tauto|constructor].
    + constructor; [cbn; lia|constructor].
  - split; cbn; auto; try lia.
    + constructor; [|constructor]. unfold seg_meta. cbn. auto.
    + constructor; [cbn; tauto|constructor].
    + constructor; [cbn; lia|constructor].
Qed.

(** sizes for which no division by zero or endless loop is possible *)
Definition size_safe (merge split want n : nat) : Prop :=
  (2 <= merge + split)%nat /\ ((insert_limit < n)%nat -> (4 <= split)%nat /\ (4 <= merge \/ 0 < want)%nat).

Lemma distinct_split (e : elements) n : distinct_ids e -> distinct_ids (firstn n e) /\ distinct_ids (skipn n e) /\
  forall x y, In x (skipn n e) -> In y (firstn n e) -> e_id x <> e_id y.
Proof.
  intros Hd. unfold distinct_ids in *. rewrite <- (firstn_skipn n e), map_app in Hd.
  apply NoDup_app_iff in Hd as (A & B & C). split; [exact A|]. split; [exact B|].
  intros x y Hx Hy E. apply (C (e_id y)); [apply in_map; exact Hy|]. rewrite <- E. apply in_map. exact Hx.
Qed.

(** the eager part of populate *)
Lemma populate_now merge split ns ni now size e : (merge < split)%nat -> (0 < size)%nat ->
  distinct_ids e -> Forall good e -> 0 < now < max_u32 -> ns <> ""%string -> ni <> ""%string ->
  N.of_nat (length e) < max_u32 ->
  exists parts scores ids iparts index x,
    split_size (sort_elems e) size = Some parts /\ new_segments_elements ns now parts false = (scores, ids) /\
    split_size (sort_elems ids) size = Some iparts /\ new_segments_elements ni now iparts true = (index, x) /\
    Inv (fun x => In x e) (mkL merge split ns ni scores index).
Proof.
  intros Hms Hsz Hd Hg Hnow Hns Hni Hlen.
  set (e' := sort_elems e).
  assert (Hp : Permutation e' e) by apply sort_elems_perm.
  assert (Hd' : distinct_ids e') by (eapply distinct_ids_perm; [symmetry; exact Hp|exact Hd]).
  assert (Hr : ranked e') by (apply weakly_ranked_distinct; [exact Hd'|apply sort_elems_weak]).
  assert (Hg' : Forall good e') by (eapply Permutation_Forall; [symmetry; exact Hp|exact Hg]).
  assert (Hok : Forall elem_ok e') by (eapply Forall_impl; [|exact Hg']; apply good_ok).
  destruct (nse_scores ns now e' size Hr Hok Hsz) as (parts & scores & ids & E1 & E2 & HB & HI & HX & HN).
  assert (HS : score_ok (fun x => In x e) (ss_segs scores)).
  { pose proof (built_score_ok _ _ _ _ HB Hr Hg' Hd') as [A1 A2 A3 A4].
    assert (Hin : forall x, In x e' <-> In x e) by (intros; apply sort_elems_In).
    split; auto.
    - unfold holds in *. eapply Forall_impl; [|exact A2]. intros g (B1 & B2). split; [exact B1|]. intros x. rewrite B2, Hin. tauto.
    - intros x Hx. apply A3, Hin, Hx.
    - intros x y Hx Hy. apply A4; apply Hin; assumption. }
  assert (Hlen' : length e' = length e) by (apply Permutation_length; exact Hp).
  rewrite Hlen' in HN.
  assert (HNx : ss_next scores <= 4294967296) by (unfold max_u32 in *; lia).
  assert (Hid : Forall (fun s => sg_id s <= max_u32) (ss_segs scores)).
  { eapply Forall_impl; [|apply (b_id _ _ _ _ HB)]. cbn beta. unfold max_u32. lia. }
  destruct (index_build _ (ss_segs scores) ni now size ids HS (b_nd _ _ _ _ HB) Hid) as (iparts & index & x & E3 & E4 & HBi & HIi & HC & HNi).
  { rewrite HX. reflexivity. }
  { exact Hsz. }
  assert (HNi' : ss_next index <= 4294967296).
  { rewrite (b_elems _ _ _ _ HB), Hlen' in HNi. unfold max_u32 in *. lia. }
  exists parts, scores, ids, iparts, index, x. repeat (split; [assumption|]).
  split; cbn [l_scores l_index l_scores_id l_index_id l_merge l_split]; auto.
  - eexists. exact HC.
  - eapply built_meta; eauto.
  - eapply built_meta; eauto.
  - apply HB.
  - apply HBi.
Qed.

Lemma guard_ids_inv P l : Inv P l -> guard_ids l = Done l.
Proof.
  intros H. unfold guard_ids, ids_ok. pose proof (m_next _ (i_ms _ _ H)). pose proof (m_next _ (i_mi _ _ H)).
  destruct (N.leb_spec (ss_next (l_scores l)) 4294967296); [|lia].
  destruct (N.leb_spec (ss_next (l_index l)) 4294967296); [|lia]. reflexivity.
Qed.

Lemma insert_loop_sizes now sch limit : forall fuel e l l', insert_loop fuel limit now sch e l = Done l' ->
  l_merge l' = l_merge l /\ l_split l' = l_split l.
Proof.
  assert (H1 : forall sc l e, l_merge (insert_one now sc l e) = l_merge l /\ l_split (insert_one now sc l e) = l_split l).
  { intros sc l e. unfold insert_one. destruct (segs_insert now sc (l_scores l) (sort_elems e)) as (s' & ix).
    destruct (segs_insert now [] (l_index l) (sort_elems ix)) as (i' & ?). split; reflexivity. }
  induction fuel as [|f IH]; intros e l l' E; cbn [insert_loop] in E.
  - destruct (Nat.ltb limit (length e)); [discriminate|]. injection E as <-. apply H1.
  - destruct (Nat.ltb limit (length e)); [|injection E as <-; apply H1].
    apply IH in E as (-> & ->). apply H1.
Qed.
Lemma insert_sizes now sch e l l' : insert now sch e l = Done l' -> l_merge l' = l_merge l /\ l_split l' = l_split l.
Proof. apply insert_loop_sizes. Qed.

Lemma populate_inv ns ni now sc sch want e l : (l_merge l < l_split l)%nat ->
  size_safe (l_merge l) (l_split l) want (length e) ->
  distinct_ids e -> Forall good e -> 0 < now < max_u32 -> ns <> ""%string -> ni <> ""%string ->
  N.of_nat (length e) < max_u32 ->
  exists l', populate ns ni now sc sch want e l = Done l' /\ Inv (fun x => In x e) l' /\
    l_merge l' = l_merge l /\ l_split l' = l_split l.
Proof.
  intros Hms (Hsz1 & Hsz2) Hd Hg Hnow Hns Hni Hlen. unfold populate.
  destruct e as [|e0 er] eqn:Ee.
  - eexists. split; [reflexivity|]. split; [|split; reflexivity]. eapply Inv_ext; [|apply init_inv; assumption]. cbn. tauto.
  - rewrite <- Ee in *. clear Ee e0 er.
    destruct (Nat.ltb insert_limit (length e) && negb (is_sorted_elems e)) eqn:Edef.
    + apply andb_true_iff in Edef as (Edef & _). apply Nat.ltb_lt in Edef. destruct (Hsz2 Edef) as (Hs4 & Hw).
      set (e' := permute sc e). set (size := Nat.max want (l_merge l / 4)).
      assert (Hp : Permutation e' e) by apply permute_perm.
      assert (Hd' : distinct_ids e') by (eapply distinct_ids_perm; [symmetry; exact Hp|exact Hd]).
      assert (Hg' : Forall good e') by (eapply Permutation_Forall; [symmetry; exact Hp|exact Hg]).
      destruct (distinct_split e' insert_limit Hd') as (D1 & D2 & D3).
      rewrite <- (firstn_skipn insert_limit e') in Hg'. apply Forall_app in Hg' as (G1 & G2).
      assert (Hszp : (0 < size)%nat).
      { unfold size. destruct Hw as [Hw|Hw]; [|lia]. assert (0 < l_merge l / 4)%nat by (apply Nat.div_str_pos; lia). lia. }
      assert (Hl1 : N.of_nat (length (firstn insert_limit e')) < max_u32).
      { pose proof (Permutation_length Hp) as HL. rewrite firstn_length. rewrite HL. lia. }
      destruct (populate_now (l_merge l) (l_split l) ns ni now size _ Hms Hszp D1 G1 Hnow Hns Hni Hl1)
        as (parts & scores & ids & iparts & index & x & E1 & E2 & E3 & E4 & HI).
      rewrite E1, E2, E3, E4.
      destruct (skipn insert_limit e') as [|d0 dr] eqn:Esk.
      { exfalso. assert (length (skipn insert_limit e') = 0%nat) by (rewrite Esk; reflexivity).
        rewrite skipn_length, (Permutation_length Hp) in H. lia. }
      rewrite <- Esk in *.
      destruct (insert_inv _ _ now sch (skipn insert_limit e') HI D2 G2) as (l' & Ei & HI').
      { intros y z Hy Hz. apply D3; assumption. }
      { exact Hnow. }
      { exact Hs4. }
      rewrite Ei, (guard_ids_inv _ _ HI'). apply insert_sizes in Ei as (Z1 & Z2).
      exists l'. split; [reflexivity|]. split; [|split; [exact Z1|exact Z2]].
      eapply Inv_ext; [|exact HI']. intros y. cbn beta.
      assert (Hy : In y e <-> In y (firstn insert_limit e') \/ In y (skipn insert_limit e')).
      { rewrite <- in_app_iff, firstn_skipn. unfold e'. symmetry. apply permute_In. }
      rewrite Hy. tauto.
    + set (size := ((l_merge l + l_split l) / 2)%nat).
      assert (Hszp : (0 < size)%nat) by (unfold size; apply Nat.div_str_pos; lia).
      destruct (populate_now (l_merge l) (l_split l) ns ni now size _ Hms Hszp Hd Hg Hnow Hns Hni Hlen)
        as (parts & scores & ids & iparts & index & x & E1 & E2 & E3 & E4 & HI).
      rewrite E1, E2, E3, E4, (guard_ids_inv _ _ HI). eexists. split; [reflexivity|]. split; [exact HI|split; reflexivity].
Qed.

Lemma update_time_good now e : Forall elem_ok e -> 0 < now < max_u32 -> Forall good (update_time now e).
Proof.
  intros H Hn. unfold update_time. apply Forall_forall. intros x Hx. apply in_map_iff in Hx as (y & <- & Hy).
  rewrite Forall_forall in H. specialize (H y Hy). unfold good, elem_ok in *. cbn. lia.
Qed.
Lemma update_time_ids now e : map e_id (update_time now e) = map e_id e.
Proof. unfold update_time. rewrite map_map. reflexivity. Qed.

Lemma new_list_inv m s ns ni now sc sch want e : (m < s)%nat -> size_safe m s want (length e) ->
  distinct_ids e -> Forall elem_ok e -> 0 < now < max_u32 -> ns <> ""%string -> ni <> ""%string ->
  N.of_nat (length e) < max_u32 ->
  exists l', new_list m s ns ni now sc sch want e = Done l' /\ Inv (fun x => In x (update_time now e)) l' /\
    l_merge l' = m /\ l_split l' = s.
Proof.
  intros Hms Hsz Hd Hg Hnow Hns Hni Hlen. unfold new_list. destruct e as [|e0 er] eqn:Ee.
  - eexists. split; [reflexivity|]. split; [|split; reflexivity]. eapply Inv_ext; [|apply init_inv; lia || assumption]. cbn. tauto.
  - rewrite <- Ee in *. assert (HL : length (update_time now e) = length e) by (unfold update_time; apply map_length).
    assert (Hd' : distinct_ids (update_time now e)) by (unfold distinct_ids; rewrite update_time_ids; exact Hd).
    rewrite <- HL in Hlen, Hsz.
    apply (populate_inv ns ni now sc sch want (update_time now e) (init_empty m s ns ni now)); cbn [l_merge l_split init_empty]; auto; try lia.
    apply update_time_good; assumption.
Qed.

(** ** reindex *)
Lemma reindex_inv P l ni now sc : Inv P l -> (2 <= l_merge l + l_split l)%nat -> 0 < now < max_u32 -> ni <> ""%string ->
  N.of_nat (length (contents l)) < max_u32 ->
  exists l', reindex_list ni now sc l = Done l' /\ Inv P l' /\ contents l' = contents l /\
    l_merge l' = l_merge l /\ l_split l' = l_split l.
Proof.
  intros HInv Hsz Hnow Hni Hlen. destruct (i_core _ _ HInv) as (Q & HC). unfold reindex_list.
  assert (Hszp : (0 < (l_merge l + l_split l) / 2)%nat) by (apply Nat.div_str_pos; lia).
  destruct (index_build P (ss_segs (l_scores l)) ni now ((l_merge l + l_split l) / 2)%nat
     (concat (permute sc (map (fun s => element_ids (sg_elems s) (sg_id s)) (ss_segs (l_scores l))))) (c_s _ _ _ _ HC) (c_nd _ _ _ _ HC) (c_id _ _ _ _ HC))
    as (parts & s & ix & E1 & E2 & HB & HI & HC' & HN).
  { rewrite flat_map_concat_map. apply Permutation_concat, permute_perm. }
  { exact Hszp. }
  unfold element_index_all. rewrite E1, E2.
  assert (HNx : ss_next s <= 4294967296) by (unfold max_u32, contents in *; lia).
  assert (HI' : Inv P (set_both l (l_scores l) s)).
  { split; cbn [set_both l_scores l_index l_scores_id l_index_id l_merge l_split]; try apply HInv; auto.
    - eexists. exact HC'.
    - eapply built_meta; eauto. }
  rewrite (guard_ids_inv _ _ HI'). eexists. split; [reflexivity|]. split; [exact HI'|]. repeat split.
Qed.

(** ** clone *)
Lemma clone_segs_spec name now : forall l id, let l' := clone_segs name now id l in
  map (fun s => (kmin s, kmax s, sg_mintie s, sg_maxtie s, sg_min s, sg_max s, sg_elems s)) l' =
  map (fun s => (kmin s, kmax s, sg_mintie s, sg_maxtie s, sg_min s, sg_max s, sg_elems s)) l /\
  NoDup (map sg_id l') /\ Forall (fun s => id <= sg_id s < id + N.of_nat (length l)) l' /\
  Forall (fun s => sg_n s = length (sg_elems s) /\ sg_upd s = now /\ sg_parent s = name) l'.
Proof.
  induction l as [|s r IH]; intros id; cbn zeta; [cbn; repeat split; constructor|].
  specialize (IH (id + 1)). cbn zeta in IH. destruct IH as (A & B & C & D). cbn [clone_segs map].
  split; [f_equal; exact A|]. split.
  - cbn [sg_id]. constructor; [|exact B]. intros H. apply in_map_iff in H as (t & Et & Ht). rewrite Forall_forall in C. specialize (C t Ht). lia.
  - split.
    + constructor; [cbn [sg_id length]; lia|]. eapply Forall_impl; [|exact C]. cbn beta. cbn [length]. lia.
    + constructor; [cbn; auto|exact D].
Qed.

Lemma NoDup_N_length l n : NoDup l -> Forall (fun x => x < n) l -> N.of_nat (length l) <= n.
Proof.
  intros Hn Hb. assert (length l <= length (map N.of_nat (seq 0 (N.to_nat n))))%nat.
  { apply NoDup_incl_length; [exact Hn|]. intros x Hx. rewrite Forall_forall in Hb. apply in_map_iff.
    exists (N.to_nat x). split; [lia|]. apply in_seq. specialize (Hb x Hx). lia. }
  rewrite map_length, seq_length in H. lia.
Qed.
Lemma NoDup_pos_length l n : NoDup l -> Forall (fun x => 0 < x < n) l -> (0 < n) -> N.of_nat (length l) + 1 <= n.
Proof.
  intros Hn Hb Hp. assert (N.of_nat (length (0 :: l)) <= n); [|cbn [length] in *; lia].
  apply NoDup_N_length.
  - constructor; [|exact Hn]. intros C. rewrite Forall_forall in Hb. apply Hb in C. lia.
  - constructor; [exact Hp|]. eapply Forall_impl; [|exact Hb]. cbn beta. lia.
Qed.

Lemma clone_inv P org m s ns ni now : Inv P org -> (m < s)%nat -> (2 <= m + s)%nat -> 0 < now < max_u32 ->
  ns <> ""%string -> ni <> ""%string -> N.of_nat (length (contents org)) < max_u32 ->
  exists l', clone_elements m s ns ni now org = Done l' /\ Inv P l' /\ contents l' = contents org /\
    l_merge l' = m /\ l_split l' = s.
Proof.
  intros HInv Hms Hsz Hnow Hns Hni Hlen. destruct (i_core _ _ HInv) as (Q & HC). pose proof (c_s _ _ _ _ HC) as HS.
  unfold clone_elements.
  destruct (clone_segs_spec ns now (ss_segs (l_scores org)) 1) as (A & B & C & D). cbn zeta in *.
  set (l := clone_segs ns now 1 (ss_segs (l_scores org))) in *.
  assert (HL : length l = length (ss_segs (l_scores org))).
  { apply (f_equal (@length _)) in A. rewrite !map_length in A. exact A. }
  assert (Hsame : forall i t, nth_error l i = Some t -> exists t0, nth_error (ss_segs (l_scores org)) i = Some t0 /\
     kmin t = kmin t0 /\ kmax t = kmax t0 /\ sg_elems t = sg_elems t0).
  { intros i t Hi. apply (f_equal (fun x => nth_error x i)) in A. rewrite !nth_error_map, Hi in A.
    destruct (nth_error (ss_segs (l_scores org)) i) as [t0|]; [|discriminate]. exists t0. cbn in A. injection A as ? ? ? ? ? ? ?. auto. }
  assert (Hel : elems_of l = contents org).
  { unfold contents. rewrite !elems_of_map. f_equal.
    apply (f_equal (map (fun p : N * N * N * N * N * N * elements => snd p))) in A. rewrite !map_map in A. exact A. }
  assert (HT : tile l).
  { pose proof (so_tile _ _ HS) as HT0. unfold tile in *. clear - A HT0. revert A HT0. generalize topk. generalize l as L.
    induction (ss_segs (l_scores org)) as [|s0 r0 IH]; intros L k A HT0; [contradiction|].
    destruct L as [|t r]; [discriminate|]. cbn [map] in A. injection A as E1 E2 E3 E4 E5 E6 E7 Er.
    cbn [tile_from] in HT0 |- *. rewrite E1, E2. unfold widths in *. rewrite E3, E4, E5, E6.
    destruct HT0 as (T1 & T2 & T3 & T4). split; [exact T1|]. split; [exact T2|]. split; [exact T3|].
    destruct r0 as [|s1 r0], r as [|t1 r]; try discriminate; [exact T4|]. destruct T4 as (T4 & T5). split; [exact T4|].
    apply IH; assumption. }
  assert (HS' : score_ok P l).
  { split; try apply HS; [exact HT|]. apply Forall_forall. intros t Ht. apply In_nth_error in Ht as (i & Hi).
    destruct (Hsame i t Hi) as (t0 & H0 & E1 & E2 & E3).
    pose proof (holds_nth _ _ _ _ (so_holds _ _ HS) H0) as (R1 & R2). unfold seg_holds, in_range. rewrite E3, E1, E2. split; [exact R1|exact R2]. }
  assert (HN1 : N.of_nat (length l) + 1 <= 4294967296).
  { rewrite HL, <- (map_length sg_id). etransitivity; [|apply (m_next _ (i_ms _ _ HInv))].
    apply NoDup_pos_length; [apply (i_ms _ _ HInv)| |].
    - rewrite Forall_forall. intros v Hv. apply in_map_iff in Hv as (g & <- & Hg).
      pose proof (m_id _ (i_ms _ _ HInv)) as Hm. rewrite Forall_forall in Hm. auto.
    - pose proof (m_id _ (i_ms _ _ HInv)) as Hm. pose proof (tile_nonempty _ (so_tile _ _ HS)) as Hne.
      destruct (ss_segs (l_scores org)) as [|g r]; [congruence|]. inversion Hm as [|? ? Hg _]; subst. lia. }
  assert (Hid : Forall (fun s => sg_id s <= max_u32) l).
  { eapply Forall_impl; [|exact C]. cbn beta. rewrite <- HL. unfold max_u32. lia. }
  assert (Hszp : (0 < (m + s) / 2)%nat) by (apply Nat.div_str_pos; lia).
  destruct (index_build P l ni now ((m + s) / 2)%nat (flat_map (fun s => element_ids (sg_elems s) (sg_id s)) l) HS' B Hid (Permutation_refl _) Hszp)
    as (parts & x & ix & E1 & E2 & HB & HI & HC' & HN).
  rewrite E1, E2.
  assert (HNx : ss_next x <= 4294967296) by (rewrite Hel in HN; unfold max_u32, contents in *; lia).
  assert (HI' : Inv P (mkL m s ns ni (mkSegs ns l (1 + N.of_nat (length l)) false (build_idx l)) x)).
  { split; cbn [l_scores l_index l_scores_id l_index_id l_merge l_split ss_segs ss_index ss_id]; auto.
    - eexists. exact HC'.
    - split; cbn [ss_segs ss_id ss_next ss_idx]; auto; [|rewrite HL; eapply Forall_impl; [|exact C]; cbn beta; lia|lia].
      eapply Forall_impl; [|exact D]. intros g (D1 & D2 & D3). unfold seg_meta. rewrite D2. auto.
    - eapply built_meta; eauto.
    - apply HB. }
  rewrite (guard_ids_inv _ _ HI'). eexists. split; [reflexivity|]. split; [exact HI'|]. split; [exact Hel|]. split; reflexivity.
Qed.

(** ** dropping memory; restoring a backup *)
Lemma clear_meta s : meta s -> meta (clear_idx s).
Proof. intros [A B C D E F]. split; auto. Qed.
Lemma reload_inv P l : Inv P l -> Inv P (reload l).
Proof.
  intros [A B C D E F G H]. split; cbn [reload l_scores l_index l_scores_id l_index_id l_merge l_split clear_idx ss_segs ss_index ss_id]; auto.
  - apply (clear_meta _ B).
  - apply (clear_meta _ C).
Qed.

Definition renamed (ns : string) (now : N) (s : seg) : seg := touch now (set_parent ns s).
Lemma renamed_tile ns now : forall l k, tile_from k l -> tile_from k (map (renamed ns now) l).
Proof.
  induction l as [|s r IH]; intros k H; [exact H|]. cbn [map]. cbn [tile_from] in H |- *.
  destruct H as (A & B & C & D). split; [exact A|]. split; [exact B|]. split; [exact C|].
  destruct r as [|t r]; [exact D|]. destruct D as (D & E). split; [exact D|]. apply (IH _ E).
Qed.
Lemma renamed_core P Q ns now ss is : core P Q ss is -> core P Q (map (renamed ns now) ss) is.
Proof.
  intros [[T H G U] Ci A F N I L]. split; auto.
  - split; auto.
    + apply renamed_tile, T.
    + unfold holds in *. rewrite Forall_forall in *. intros s Hs. apply in_map_iff in Hs as (t & <- & Ht). apply (H t Ht).
  - rewrite map_map. exact N.
  - rewrite Forall_forall in *. intros s Hs. apply in_map_iff in Hs as (t & <- & Ht). apply (I t Ht).
  - intros id t. rewrite (L id t). split.
    + intros (s & x & Hs & Hx). exists (renamed ns now s), x. split; [apply in_map, Hs|exact Hx].
    + intros (s & x & Hs & Hx). apply in_map_iff in Hs as (u & <- & Hu). exists u, x. split; [exact Hu|exact Hx].
Qed.
Lemma restored_inv P l ns ni now sc : Inv P l -> (2 <= l_merge l + l_split l)%nat -> 0 < now < max_u32 -> ns <> ""%string -> ni <> ""%string ->
  N.of_nat (length (contents l)) < max_u32 ->
  exists l', restored ns ni now sc l = Done l' /\ Inv P l' /\ contents l' = contents l /\
    l_merge l' = l_merge l /\ l_split l' = l_split l.
Proof.
  intros HInv Hsz Hnow Hns Hni Hlen. unfold restored.
  set (l1 := mkL (l_merge l) (l_split l) ns (l_index_id l) _ (l_index l)).
  assert (HC : contents l1 = contents l).
  { unfold contents, l1. cbn [l_scores ss_segs]. rewrite !elems_of_map, map_map. reflexivity. }
  assert (HI1 : Inv P l1).
  { destruct HInv as [(Q & A) B C D E F G H]. split; auto; unfold l1; cbn [l_scores l_index ss_segs ss_index ss_id].
    - exists Q. apply (renamed_core _ _ ns now _ _ A).
    - destruct B as [B1 B2 B3 B4 B5 B6]. split; cbn [ss_segs ss_id ss_next ss_idx]; auto.
      + rewrite Forall_forall. intros s Hs. apply in_map_iff in Hs as (t & <- & Ht). split; [reflexivity|]. split; [exact Hnow|reflexivity].
      + rewrite map_map. exact B2.
      + rewrite Forall_forall in *. intros s Hs. apply in_map_iff in Hs as (t & <- & Ht). apply (B3 t Ht). }
  rewrite <- HC in Hlen. destruct (reindex_inv P l1 ni now sc HI1 Hsz Hnow Hni Hlen) as (l' & E & HI & HC' & HM & HS).
  exists l'. split; [exact E|]. split; [exact HI|]. split; [congruence|]. split; [exact HM|exact HS].
Qed.
