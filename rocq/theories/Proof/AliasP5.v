(** Lemmas on Model/Alias.v: whole calls. *)
From Coq Require Import Strings.String.
From Verif.Lib Require Import Prelude ListAux ListLemmas Perm.
From Verif.Model Require Import Element Elements Segment List Storage Fails Alias.
From Verif.Spec Require Import RankSpec QuerySpec HistorySpec AnswerSpec AliasSpec.
From Verif.Proof Require Import ElementP ElementsP SegP InvDef ChangeP UpdateP UpdateInv DeleteP InsertP HistoryP StoreOps AliasP AliasP2 AliasP3 AliasP4.
Open Scope nat_scope.

Lemma bare_hull l l' : map bare l' = map bare l -> map hull l' = map hull l.
Proof.
  intros H. transitivity (map hull (map bare l')); [rewrite map_map; reflexivity|]. rewrite H, map_map. reflexivity.
Qed.
Lemma touch_hull now ts l : map hull (touch_at now ts l) = map hull l.
Proof. apply mapi_same. intros i x. destruct (existsb _ ts); reflexivity. Qed.
Lemma F2_ext {A A' B} (R : A -> B -> Prop) (R' : A' -> B -> Prop) l l' k : length l' = length l ->
  (forall i a a' b, nth_error l i = Some a -> nth_error l' i = Some a' -> R a b -> R' a' b) -> Forall2 R l k -> Forall2 R' l' k.
Proof.
  intros L H F. revert l' L H. induction F as [|a b l k Hab F IH]; intros [|a' l'] L H; cbn in L; try discriminate; constructor.
  - apply (H 0 a a' b); auto.
  - apply IH; [lia|]. intros i x x' y. apply (H (S i)).
Qed.
Lemma touch_on now ts l xs : Forall2 on l xs -> Forall2 on (touch_at now ts l) xs.
Proof.
  apply F2_ext; [apply mapi_from_length|]. intros i a a' b Ha Ha' [H1 H2]. rewrite touch_at_nth, Ha in Ha'. cbn in Ha'.
  split; [exact H1|]. inv Ha'. destruct (existsb _ ts); exact H2.
Qed.
Lemma touched_makes now ts ts' xs old ss : Forall2 on ss xs -> map bare ss = map bare old -> (forall i, In i ts' <-> In i ts) ->
  (forall i, ~ In i ts -> nth_error (touch_at now ts ss) i = nth_error old i) -> makes now ts' xs old (touch_at now ts ss).
Proof.
  intros H1 H2 H3 H4. split.
  - apply touch_on, H1.
  - rewrite touch_hull. apply bare_hull, H2.
  - intros i n Hi. rewrite touch_at_nth. apply H3, mem_nat in Hi. rewrite Hi. destruct (nth_error ss i); [|discriminate]. cbn. intros E. inv E. split; reflexivity.
  - intros i Hi. apply H4. intros C. apply Hi, H3, C.
Qed.
Definition batch_of (clk : N -> N) (elems : elements) (x : element) : Prop := exists e, In e elems /\ x = stamp clk e.
Definition entry_of (elems : elements) (x : element) : Prop := exists e, In e elems /\ e_score x = e_id e.
Lemma update_live_eq P l hs hi f r clk clki now sc elems : Inv P l -> batch_ok elems -> clock_ok clk -> clock_ok clki -> (0 < now < max_u32)%N ->
  let full := update_elements clk clki now sc elems l in
  let '(_, (ts, ti)) := update_core clk clki sc elems l in
  exists xs ys,
    makes now (nodup Nat.eq_dec ts) xs (ss_segs (l_scores l)) (ss_segs (l_scores full)) /\
    makes now (nodup Nat.eq_dec ti) ys (ss_segs (l_index l)) (ss_segs (l_index full)) /\
    Forall2 (holdsP (batch_of clk elems)) (ss_segs (l_scores l)) xs /\ Forall2 (holdsP (entry_of elems)) (ss_segs (l_index l)) ys /\
    let l' := set_both l (set_segs (reindex (l_scores l)) (save_at hs (f_scores f) now (nodup Nat.eq_dec ts) xs (ss_segs (l_scores l))))
                         (set_segs (l_index l) (save_at hi (f_index f) now (nodup Nat.eq_dec ti) ys (ss_segs (l_index l)))) in
    update_live hs hi f r clk clki now sc elems l =
      (l', save_writes hi (f_index f) now (nodup Nat.eq_dec ti) ys (ss_segs (l_index l)) ++
           save_writes hs (f_scores f) now (nodup Nat.eq_dec ts) xs (ss_segs (l_scores l)) ++ fst (save_metas f l'), snd (save_metas f l')).
Proof.
  intros HI HB Hc Hci Hnow. cbv zeta.
  pose proof (update_full P l clk clki now sc elems HI HB Hc Hci Hnow) as (_ & K1 & K2). cbv zeta in K1, K2.
  unfold update_elements in *. unfold update_core in *. cbv zeta in *. rewrite !reindex_segs in *.
  set (el := sort_elems elems) in *. set (ids := sort_ids_desc (map e_id el)) in *.
  set (groups := index_groups (ss_segs (l_index l)) ids) in *.
  set (exi := existing_idx (ss_segs (l_index l)) groups) in *.
  set (m := ss_idx (reindex (l_scores l))) in *.
  set (dst := permute sc (split_elements_idx (ss_segs (l_scores l)) el)) in *.
  pose proof (loop_sim (r_grow r) clk clki m exi (elements_idx groups) (map sg_id (ss_segs (l_scores l))) dst
    (ss_segs (l_scores l), ss_segs (l_index l)) (sls_of (r_scores r) (ss_segs (l_scores l)), sls_of (r_index r) (ss_segs (l_index l)))) as HS.
  destruct (loop_bare clk clki m exi (elements_idx groups) dst (ss_segs (l_scores l), ss_segs (l_index l))) as [B1 B2].
  assert (HH : both_hold (batch_of clk elems) (entry_of elems) (ss_segs (l_scores l)) (ss_segs (l_index l))
    (update_loop_sl (r_grow r) clk clki m exi (elements_idx groups) (map sg_id (ss_segs (l_scores l))) dst
       (sls_of (r_scores r) (ss_segs (l_scores l)), sls_of (r_index r) (ss_segs (l_index l))))).
  { apply loop_holds.
    - intros p e Hp He. assert (Hin : In e elems).
      { destruct (i_core _ _ HI) as (Q & HC). destruct HB as [Hd Hg].
        destruct (pairs_dst (ss_segs (l_scores l)) el sc) as (Hps & _).
        - apply sort_elems_weak.
        - rewrite Forall_forall in *. intros x Hx. apply Hg. exact (proj1 (sort_elems_In _ _) Hx).
        - apply (so_tile _ _ (c_s _ _ _ _ HC)).
        - apply (proj1 (sort_elems_In e elems)). apply (Hps (fst p) e). unfold pairs. apply in_flat_map. exists p. split; [exact Hp|].
          apply in_map_iff. exists e. split; [reflexivity|exact He]. }
      split; [exists e; split; [exact Hin|reflexivity]|]. intros d. exists e. split; [exact Hin|]. unfold with_time, as_index. cbn. destruct (N.eqb _ _); reflexivity.
    - split; cbn [fst snd]; apply F2_mapi; intros; apply holds_of. }
  unfold update_live. cbv zeta. rewrite !reindex_segs. fold el. fold ids. fold groups. fold exi. fold m. fold dst.
  destruct (update_loop clk clki m exi (elements_idx groups) dst (ss_segs (l_scores l), ss_segs (l_index l))) as [ss is] eqn:Ew.
  destruct (update_loop_sl _ _ _ _ _ _ _ _ _) as [xs ys] eqn:Ex. exists xs, ys. cbn [fst snd] in *.
  destruct HS as (S1 & S2 & _). { split; [apply sls_on|split; [apply sls_on|reflexivity]]. }
  cbn [fst snd set_both l_scores l_index set_segs ss_segs] in *.
  split; [|split; [|split; [exact (proj1 HH)|split; [exact (proj2 HH)|]]]].
  - apply touched_makes; [exact S1|exact B1|intros; apply nodup_In|apply K1].
  - apply touched_makes; [exact S2|exact B2|intros; apply nodup_In|apply K2].
  - destruct (save_metas _ _) as [a b] eqn:Em. cbn [fst snd]. reflexivity.
Qed.

Lemma F2_nth_at {A B} (R : A -> B -> Prop) l k i a b : Forall2 R l k -> nth_error l i = Some a -> nth_error k i = Some b -> R a b.
Proof. intros F Ha Hb. pose proof (F2_nth _ _ _ i F) as H. rewrite Ha, Hb in H. exact H. Qed.
Lemma op_batch e : distinct_ids e -> Forall storable e -> batch_ok e.
Proof. intros H1 H2. split; assumption. Qed.

Lemma c70_update merge split l m hs hi f r clk clki now sc e :
  reachable merge split l m -> op_ok merge split m (OUpdate clk clki now sc e) ->
  let full := update_elements clk clki now sc e l in
  let l' := fst (fst (update_live hs hi f r clk clki now sc e l)) in
  mixed hs (f_scores f) (part_update (fun x => exists y, In y e /\ x = stamp clk y)) (ss_segs (l_scores l)) (ss_segs (l_scores full)) (ss_segs (l_scores l')) /\
  mixed hi (f_index f) (part_update (fun x => exists y, In y e /\ e_score x = e_id y)) (ss_segs (l_index l)) (ss_segs (l_index full)) (ss_segs (l_index l')).
Proof.
  intros HR (Hd & Hs & Hc & Hci & Hn). cbv zeta. pose proof (reach_Inv _ _ _ _ HR) as HI.
  pose proof (update_live_eq (sin m) l hs hi f r clk clki now sc e HI (op_batch _ Hd Hs) Hc Hci Hn) as H. cbv zeta in H.
  destruct (update_core clk clki sc e l) as (w & (ts & ti)). destruct H as (xs & ys & M1 & M2 & H1 & H2 & E).
  cbv zeta in E. rewrite E. cbn [fst set_both l_scores l_index set_segs ss_segs]. split; apply save_mixed; auto using part_update_same.
  - intros i o n x Ho _ Hx _. apply holdsP_part. eapply F2_nth_at; eauto.
  - intros i o n x Ho _ Hx _. apply holdsP_part. eapply F2_nth_at; eauto.
Qed.
Lemma save_ok_in fs ts : save_ok fs ts = true -> forall i, In i ts -> fs i = Kept.
Proof. unfold save_ok. rewrite forallb_forall. intros H i Hi. apply H in Hi. destruct (fs i); try discriminate. reflexivity. Qed.
Lemma deleted_none now l : delete_sorted now l [] = l.
Proof. induction l as [|s l IH]; cbn; [reflexivity|]. f_equal. exact IH. Qed.
Lemma touched_none l : forall i, touched_from i l [] = [].
Proof. induction l as [|s l IH]; intros i; cbn; [reflexivity|apply IH]. Qed.
Lemma delete_full_eq now sc1 sc2 ids l : let d := delete_elements_idx now sc2 (l_scores l) (get_index_elements sc1 l ids) in
  ss_segs (l_scores (delete_elements now sc1 sc2 ids l)) = ss_segs (fst d) /\
  ss_segs (l_index (delete_elements now sc1 sc2 ids l)) = delete_sorted now (ss_segs (l_index l)) (snd d).
Proof.
  cbv zeta. unfold delete_elements. destruct (delete_elements_idx _ _ _ _) as [s' [|d0 dr]]; cbn [set_both l_scores l_index set_segs ss_segs fst snd]; [|split; reflexivity].
  split; [reflexivity|]. rewrite deleted_none. reflexivity.
Qed.
Lemma c70_delete hs hi f r now sc1 sc2 ids l :
  let full := delete_elements now sc1 sc2 ids l in
  let '(l', _, ok) := delete_live hs hi f r now sc1 sc2 ids l in
  mixed hs (f_scores f) part_delete (ss_segs (l_scores l)) (ss_segs (l_scores full)) (ss_segs (l_scores l')) /\
  (ok = true -> ss_segs (l_scores l') = ss_segs (l_scores full)) /\
  (ok = false /\ l_index l' = l_index l \/
   mixed hi (f_index f) part_delete (ss_segs (l_index l)) (ss_segs (l_index full)) (ss_segs (l_index l'))).
Proof.
  cbv zeta. destruct (delete_full_eq now sc1 sc2 ids l) as [-> ->]. cbv zeta. unfold delete_live. cbv zeta.
  set (e := get_index_elements sc1 l ids).
  pose proof (delete_idx_makes now sc2 (r_scores r) (l_scores l) e) as M. cbv zeta in M. 
  pose proof (delete_idx_part now sc2 (r_scores r) (l_scores l) e) as Pt. cbv zeta in Pt.
  rewrite !reindex_segs in *.
  set (ts := touched_idx (ss_idx (reindex (l_scores l))) (ss_segs (l_scores l)) e) in *.
  set (deleted := snd (delete_elements_idx now sc2 (l_scores l) e)).
  assert (A : mixed hs (f_scores f) part_delete (ss_segs (l_scores l)) (ss_segs (fst (delete_elements_idx now sc2 (l_scores l) e)))
    (save_at hs (f_scores f) now ts (delete_idx_sl (r_scores r) (reindex (l_scores l)) e) (ss_segs (l_scores l)))).
  { apply save_mixed; [exact M| |apply part_delete_same]. intros i o n x Ho Hn Hx _. eapply Pt; eauto. }
  destruct (save_ok (f_scores f) ts) eqn:Eo.
  - destruct (save_metas _ _) as [mm ok]. cbn [set_both l_scores l_index set_segs ss_segs]. split; [exact A|]. split.
    + intros _. apply save_clean; [exact M|apply save_ok_in, Eo].
    + right. replace (match deleted with [] => [] | _ :: _ => touched_from 0 (ss_segs (l_index l)) deleted end) with (touched_from 0 (ss_segs (l_index l)) deleted)
        by (destruct deleted; [apply touched_none|reflexivity]).
      apply save_mixed; [apply delete_sorted_makes| |apply part_delete_same]. intros i o n x Ho Hn Hx _. eapply delete_sorted_part; eauto.
  - cbn [set_both l_scores l_index set_segs ss_segs]. split; [exact A|]. split; [discriminate|]. left. split; reflexivity.
Qed.

(** one chunk of an insert *)
Lemma insert_ids now : forall l ins, distinct_ids ins ->
  NoDup (map e_id (concat (snd (insert_sorted now l ins)))) /\ forall x, In x (concat (snd (insert_sorted now l ins))) -> In (e_id x) (map e_id ins).
Proof.
  induction l as [|s l IH]; intros ins Hd; cbn [insert_sorted]; [split; [constructor|intros x []]|].
  destruct (filter_idx s ins) as [a b] eqn:Ef. destruct (Nat.eqb a b).
  - specialize (IH ins Hd). destruct (insert_sorted now l ins). exact IH.
  - assert (Hsk : distinct_ids (skipn b ins)).
    { unfold distinct_ids in *. rewrite <- (firstn_skipn b ins), map_app in Hd. apply NoDup_app_iff in Hd. tauto. }
    specialize (IH (skipn b ins) Hsk). destruct (insert_sorted now l (skipn b ins)) as [r' ix]. cbn [snd concat] in *. destruct IH as [IH1 IH2].
    assert (Eid : forall e sid, Permutation (map e_id (element_ids e sid)) (map e_id e)).
    { intros e sid. unfold element_ids. rewrite (Permutation_map e_id (sort_elems_perm _)), map_map. reflexivity. }
    assert (Hab : forall z, In z (slice ins a b) -> In z (firstn b ins)).
    { intros z Hz. unfold slice in Hz. destruct (Nat.le_gt_cases a b).
      - rewrite firstn_skipn_comm in Hz. apply In_skipn in Hz. replace (a + (b - a)) with b in Hz by lia. exact Hz.
      - replace (b - a) with 0 in Hz by lia. destruct Hz. }
    split.
    + rewrite map_app. apply NoDup_app_iff. split.
      { eapply Permutation_NoDup; [symmetry; apply Eid|]. unfold slice. rewrite <- firstn_map, <- skipn_map.
        assert (Hn : NoDup (map e_id ins)) by exact Hd. rewrite <- (firstn_skipn a (map e_id ins)) in Hn. apply NoDup_app_iff in Hn as (_ & Hn & _).
        rewrite <- (firstn_skipn (b - a) (skipn a (map e_id ins))) in Hn. apply NoDup_app_iff in Hn. tauto. }
      split; [exact IH1|]. intros v Hv Hw. apply (Permutation_in _ (Eid _ _)) in Hv. apply in_map_iff in Hw as (y & <- & Hy). apply IH2 in Hy.
      apply in_map_iff in Hv as (z & Ez & Hz). apply Hab in Hz.
      assert (Hn : NoDup (map e_id ins)) by exact Hd. rewrite <- (firstn_skipn b ins), map_app in Hn. apply NoDup_app_iff in Hn as (_ & _ & Hn).
      apply (Hn (e_id y)); [rewrite <- Ez; apply in_map, Hz|exact Hy].
    + intros x Hx. apply in_app_or in Hx as [Hx|Hx].
      * apply (in_map e_id) in Hx. apply (Permutation_in _ (Eid _ _)) in Hx. apply in_map_iff in Hx as (z & Ez & Hz). rewrite <- Ez. apply in_map.
        unfold slice in Hz. apply In_firstn in Hz. apply In_skipn in Hz. exact Hz.
      * apply IH2 in Hx. apply in_map_iff in Hx as (z & Ez & Hz). rewrite <- Ez. apply in_map. apply In_skipn in Hz. exact Hz.
Qed.
Lemma ix_distinct now sc s ins : distinct_ids ins -> distinct_ids (snd (segs_insert now sc s ins)).
Proof.
  intros Hd. unfold segs_insert. destruct (insert_sorted now (ss_segs s) (sort_elems ins)) as [l' ix] eqn:E. cbn [snd].
  eapply distinct_ids_perm; [apply Permutation_sym, sort_elems_perm|].
  destruct (insert_ids now (ss_segs s) (sort_elems ins)) as [H _]; [eapply distinct_ids_perm; [apply Permutation_sym, sort_elems_perm|exact Hd]|].
  rewrite E in H. cbn [snd] in H. unfold distinct_ids. eapply Permutation_NoDup; [|exact H]. apply Permutation_map.
  assert (Pc : forall A (a b : list (list A)), Permutation a b -> Permutation (concat a) (concat b)).
  { intros A a b Hp. induction Hp; cbn; auto using Permutation_app_head; [rewrite !app_assoc; apply Permutation_app_tail, Permutation_app_comm|etransitivity; eassumption]. }
  apply Pc, Permutation_sym, permute_perm.
Qed.
Lemma twice_ranked e : distinct_ids e -> ranked (sort_elems (sort_elems e)).
Proof. intros H. apply sort_elems_ranked. eapply distinct_ids_perm; [apply Permutation_sym, sort_elems_perm|exact H]. Qed.
Lemma insert_full_eq now sc l e : let ix := snd (segs_insert now sc (l_scores l) (sort_elems e)) in
  ss_segs (l_scores (insert_one now sc l e)) = fst (insert_sorted now (ss_segs (l_scores l)) (sort_elems (sort_elems e))) /\
  ss_segs (l_index (insert_one now sc l e)) = fst (insert_sorted now (ss_segs (l_index l)) (sort_elems (sort_elems ix))).
Proof.
  cbv zeta. unfold insert_one, segs_insert. destruct (insert_sorted now (ss_segs (l_scores l)) _) as [a b]. cbn [snd].
  destruct (insert_sorted now (ss_segs (l_index l)) _) as [c d]. cbn. split; reflexivity.
Qed.
Definition chunk_mixed (hs hi : bool) (f : fates) (r : rooms) (l full l' : lst) (ok : bool) : Prop :=
  mixed hs (f_scores f) (part_insert (r_scores r)) (ss_segs (l_scores l)) (ss_segs (l_scores full)) (ss_segs (l_scores l')) /\
  (ok = true -> ss_segs (l_scores l') = ss_segs (l_scores full) /\ ss_segs (l_index l') = ss_segs (l_index full)) /\
  (ok = false /\ l_index l' = l_index l \/
   mixed hi (f_index f) (part_insert (r_index r)) (ss_segs (l_index l)) (ss_segs (l_index full)) (ss_segs (l_index l'))).
Lemma insert_one_mixed hs hi f r now sc l e : distinct_ids e ->
  let '(l', _, ok) := insert_one_live hs hi f r now sc l e in chunk_mixed hs hi f r l (insert_one now sc l e) l' ok.
Proof.
  intros Hd. unfold chunk_mixed. destruct (insert_full_eq now sc l e) as [E1 E2]. cbv zeta in E2. unfold insert_one_live. cbv zeta. rewrite E1, E2. clear E1 E2.
  set (e' := sort_elems (sort_elems e)). set (ix := snd (segs_insert now sc (l_scores l) (sort_elems e))).
  set (ix' := sort_elems (sort_elems ix)).
  assert (R1 : ranked e') by (apply twice_ranked, Hd).
  assert (R2 : ranked ix').
  { apply twice_ranked. apply ix_distinct. eapply distinct_ids_perm; [apply Permutation_sym, sort_elems_perm|exact Hd]. }
  pose proof (insert_sorted_makes now (r_scores r) (ss_segs (l_scores l)) e' R1) as M1.
  pose proof (insert_sorted_makes now (r_index r) (ss_segs (l_index l)) ix' R2) as M2.
  assert (A : mixed hs (f_scores f) (part_insert (r_scores r)) (ss_segs (l_scores l)) (fst (insert_sorted now (ss_segs (l_scores l)) e'))
    (save_at hs (f_scores f) now (touched_from 0 (ss_segs (l_scores l)) e') (insert_sl (r_scores r) 0 (ss_segs (l_scores l)) e') (ss_segs (l_scores l)))).
  { apply save_mixed; [exact M1| |apply part_insert_same]. intros i o n x Ho Hn Hx _. exact (insert_sorted_part now (r_scores r) _ 0 e' i o n x R1 Ho Hn Hx). }
  destruct (save_ok (f_scores f) _) eqn:Eo; cbn [set_both l_scores l_index set_segs ss_segs].
  - split; [exact A|]. split.
    + intros Ei. split; (apply save_clean; [assumption|apply save_ok_in; assumption]).
    + right. apply save_mixed; [exact M2| |apply part_insert_same]. intros i o n x Ho Hn Hx _. exact (insert_sorted_part now (r_index r) _ 0 ix' i o n x R2 Ho Hn Hx).
  - split; [exact A|]. split; [discriminate|]. left. split; reflexivity.
Qed.
