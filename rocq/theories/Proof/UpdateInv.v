(** UpdateElements as a whole. *)
From Coq Require Import Strings.String.
From Verif.Lib Require Import Prelude ListAux ListLemmas SortLemmas Perm.
From Verif.Model Require Import Element Elements Segment List.
From Verif.Spec Require Import RankSpec QuerySpec.
From Verif.Proof Require Import ElementP ElementsP ElementsThm SegP InvDef QueryP LookupP ChangeP UpdateP.
Open Scope N_scope.

(** ** index groups *)
Lemma find_elem_spec l id : match find_elem l id with
  | Some e => In e l /\ e_id e = id
  | None => forall e, In e l -> e_id e <> id
  end.
Proof.
  unfold find_elem. destruct (find (fun e => e_id e =? id) l) as [e|] eqn:E.
  - apply find_some in E. rewrite N.eqb_eq in E. exact E.
  - intros e He. apply (find_none _ _ E) in He. apply N.eqb_neq. exact He.
Qed.

Lemma index_groups_spec P Q ss is ids : core P Q ss is -> NoDup ids -> Forall (fun v => v <= max_u64) ids ->
  let g := index_groups is ids in
  forall id, In id ids ->
    exi_ok Q (existing_idx is g) id /\
    In (idx_get (elements_idx g) id) (map fst g) /\
    exists iseg, nth_error is (idx_get (elements_idx g) id) = Some iseg /\ owns iseg id.
Proof.
  intros HC Hnd Hb g id Hid. pose proof (c_i _ _ _ _ HC) as HI.
  destruct (split_scores_spec is ids (so_tile _ _ HI) (c_al _ _ _ _ HC) Hb) as (Hcat & Hsort & Hg). cbn zeta in *.
  assert (Eg : g = split_scores is ids).
  { unfold g, index_groups. apply filter_all. intros p Hp. rewrite Forall_forall in Hg.
    destruct (Hg p Hp) as (H & _). destruct (snd p); [congruence|reflexivity]. }
  rewrite <- Eg in *. clearbody g. rewrite Forall_forall in Hg.
  assert (Hgrp : exists p, In p g /\ In id (snd p)).
  { assert (H : In id (concat (map snd g))) by (rewrite Hcat, sort_ids_desc_In; exact Hid).
    apply in_concat in H as (v & Hv & H). apply in_map_iff in Hv as (p & <- & Hp). eauto. }
  destruct Hgrp as (p & Hp & Hpid).
  assert (Hsd : StronglySorted (fun x y => y < x) (concat (map snd g))).
  { rewrite Hcat. apply sort_ids_desc_NoDup. exact Hnd. }
  split; [|].
  - unfold exi_ok. destruct (assoc id (existing_idx is g)) as [ex|] eqn:E.
    + apply assoc_Some in E. unfold existing_idx in E. apply in_flat_map in E as (p' & Hp' & E).
      destruct (nth_error is (fst p')) as [s|] eqn:Es; [|contradiction].
      apply in_flat_map in E as (id' & Hid' & E).
      pose proof (find_elem_spec (first_with_score (sg_elems s) (snd p')) id') as F.
      destruct (find_elem (first_with_score (sg_elems s) (snd p')) id') as [e|]; [|contradiction].
      destruct E as [E|[]]. injection E as -> ->. destruct F as (F & Fid). split; [|exact Fid].
      apply first_with_score_sub in F. eapply (score_ok_seg _ _ s ex HI); eauto using nth_error_In.
    + intros q Hq Eq. pose proof (assoc_None _ _ E) as N0.
      destruct (Hg p Hp) as (_ & s & Hs & Ho). rewrite Forall_forall in Ho.
      assert (Hin : In q (first_with_score (sg_elems s) (snd p))).
      { destruct (c_form _ _ _ _ HC q Hq) as (Esq & _). apply first_with_score_complete.
        - eapply idx_seg_scores; eauto using nth_error_In.
        - apply in_split in Hp as (g1 & g2 & Eg2). rewrite Eg2, map_app, concat_app in Hsd. cbn in Hsd.
          apply StronglySorted_app in Hsd as (_ & Hsd & _). apply StronglySorted_app in Hsd as (Hsd & _). exact Hsd.
        - eapply In_idx_seg; eauto. rewrite Eq. auto.
        - rewrite Esq, Eq. exact Hpid. }
      pose proof (find_elem_spec (first_with_score (sg_elems s) (snd p)) id) as F.
      destruct (find_elem (first_with_score (sg_elems s) (snd p)) id) as [e|] eqn:Ef.
      * apply (N0 e). unfold existing_idx. apply in_flat_map. exists p. split; [exact Hp|].
        rewrite Hs. apply in_flat_map. exists id. split; [exact Hpid|]. rewrite Ef. left; reflexivity.
      * apply (F q Hin). exact Eq.
  - unfold idx_get. destruct (assoc id (elements_idx g)) as [i|] eqn:E.
    + apply assoc_Some in E. unfold elements_idx in E. apply in_flat_map in E as (p' & Hp' & E).
      apply in_map_iff in E as (id' & E & Hid'). injection E as -> <-.
      split; [apply in_map; exact Hp'|].
      destruct (Hg p' Hp') as (_ & s & Hs & Ho). exists s. split; [exact Hs|].
      rewrite Forall_forall in Ho. auto.
    + exfalso. apply (assoc_None _ _ E (fst p)). unfold elements_idx. apply in_flat_map. exists p.
      split; [exact Hp|]. apply in_map_iff. exists id. auto.
Qed.

(** ** segments not addressed stay as they are *)
Lemma update_untouched clk clki idxm exi eidx i : forall ps w,
  (forall p, In p ps -> fst p <> i) -> (forall p, In p exi -> idx_get idxm (e_tie (snd p)) <> i) ->
  nth_error (fst (fold_left (fun w p => update_step clk clki idxm exi eidx (fst p) w (snd p)) ps w)) i = nth_error (fst w) i.
Proof.
  induction ps as [|p ps IH]; intros w Hp Hx; [reflexivity|]. cbn [fold_left].
  rewrite IH by (intros; auto; apply Hp; right; assumption). destruct w as [ss is]. cbn [fst].
  specialize (Hp p (or_introl eq_refl)). unfold update_step.
  destruct (nth_error ss (fst p)) as [dst|]; [|reflexivity]. cbn zeta.
  destruct (assoc (e_id (snd p)) exi) as [ex|] eqn:E.
  - apply assoc_Some in E. specialize (Hx _ E). cbn [snd] in Hx.
    destruct (e_tie ex =? sg_id dst).
    + cbn [fst]. rewrite upd_nth_nth. destruct (Nat.eqb_spec (fst p) i); [contradiction|reflexivity].
    + destruct (nth_error is (idx_get eidx (e_id (snd p)))) as [iseg|].
      * destruct (is_ok _); cbn [fst]; rewrite !upd_nth_nth.
        -- destruct (Nat.eqb_spec (idx_get idxm (e_tie ex)) i); [contradiction|].
           destruct (Nat.eqb_spec (fst p) i); [contradiction|reflexivity].
        -- destruct (Nat.eqb_spec (fst p) i); [contradiction|reflexivity].
      * cbn [fst]. rewrite upd_nth_nth. destruct (Nat.eqb_spec (fst p) i); [contradiction|reflexivity].
  - cbn [fst]. rewrite upd_nth_nth. destruct (Nat.eqb_spec (fst p) i); [contradiction|reflexivity].
Qed.

Lemma update_untouched_idx clk clki idxm exi eidx i : forall ps w,
  (forall p, In p ps -> idx_get eidx (e_id (snd p)) <> i) ->
  nth_error (snd (fold_left (fun w p => update_step clk clki idxm exi eidx (fst p) w (snd p)) ps w)) i = nth_error (snd w) i.
Proof.
  induction ps as [|p ps IH]; intros w Hp; [reflexivity|]. cbn [fold_left].
  rewrite IH by (intros; auto; apply Hp; right; assumption). destruct w as [ss is]. cbn [snd].
  specialize (Hp p (or_introl eq_refl)). unfold update_step.
  destruct (nth_error ss (fst p)) as [dst|]; [|reflexivity]. cbn zeta.
  destruct (assoc (e_id (snd p)) exi) as [ex|] eqn:E.
  - destruct (e_tie ex =? sg_id dst); [reflexivity|].
    destruct (nth_error is (idx_get eidx (e_id (snd p)))) as [iseg|]; [|reflexivity].
    destruct (is_ok _); cbn [snd]; rewrite ?upd_nth_nth; [|reflexivity].
    destruct (Nat.eqb_spec (idx_get eidx (e_id (snd p))) i); [contradiction|reflexivity].
  - cbn [snd]. rewrite upd_nth_nth. destruct (Nat.eqb_spec (idx_get eidx (e_id (snd p))) i); [contradiction|reflexivity].
Qed.

(** ** core depends on ranges, IDs and elements only *)
Definition view (s : seg) := (frame s, sg_elems s).
Lemma views_frames l l' : map view l' = map view l -> map frame l' = map frame l.
Proof.
  intros H. transitivity (map fst (map view l')); [rewrite map_map; reflexivity|]. rewrite H, map_map. reflexivity.
Qed.
Lemma views_nth l l' i s : map view l' = map view l -> nth_error l' i = Some s ->
  exists s0, nth_error l i = Some s0 /\ frame s = frame s0 /\ sg_elems s = sg_elems s0.
Proof.
  intros H Hn. assert (E : nth_error (map view l') i = Some (view s)) by (rewrite nth_error_map, Hn; reflexivity).
  rewrite H, nth_error_map in E. destruct (nth_error l i) as [s0|]; [|discriminate].
  exists s0. cbn [option_map] in E. assert (E' : view s0 = view s) by congruence.
  split; [reflexivity|]. apply (f_equal fst) in E' as E1. apply (f_equal snd) in E' as E2. auto.
Qed.
Lemma score_ok_views P l l' : map view l' = map view l -> score_ok P l -> score_ok P l'.
Proof.
  intros H HS. split; try apply HS.
  - eapply tile_frames; [apply views_frames; exact H|apply HS].
  - apply Forall_forall. intros s Hs. apply In_nth_error in Hs as (i & Hi).
    destruct (views_nth _ _ _ _ H Hi) as (s0 & H0 & Ef & Ee).
    pose proof (holds_nth _ _ _ _ (so_holds _ _ HS) H0) as (A & B). unfold seg_holds. rewrite Ee. split; [exact A|].
    intros x. rewrite B. destruct (frame_eq _ _ Ef) as (_ & _ & _ & _ & E & _). rewrite E. tauto.
Qed.
Lemma core_views P Q ss is ss' is' : map view ss' = map view ss -> map view is' = map view is ->
  core P Q ss is -> core P Q ss' is'.
Proof.
  intros H1 H2 HC. split.
  - eapply score_ok_views; [exact H1|apply HC].
  - eapply score_ok_views; [exact H2|apply HC].
  - pose proof (c_al _ _ _ _ HC) as Hal. unfold aligned in *. rewrite Forall_forall in *.
    intros s Hs. apply In_nth_error in Hs as (i & Hi).
    destruct (views_nth _ _ _ _ H2 Hi) as (s0 & Hs0 & E & _).
    destruct (frame_eq _ _ E) as (_ & _ & _ & _ & _ & E1 & E2). rewrite E1, E2. apply Hal. eapply nth_error_In; eauto.
  - apply HC.
  - rewrite (map_id_frames _ _ (views_frames _ _ H1)). apply HC.
  - pose proof (c_id _ _ _ _ HC) as Hid. rewrite Forall_forall in *.
    intros s Hs. apply In_nth_error in Hs as (i & Hi).
    destruct (views_nth _ _ _ _ H1 Hi) as (s0 & Hs0 & E & _).
    destruct (frame_eq _ _ E) as (-> & _). apply Hid. eapply nth_error_In; eauto.
  - intros id t. rewrite (c_link _ _ _ _ HC id t). split.
    + intros (s & x & Hs & Hx & Ex & Es). apply In_nth_error in Hs as (i & Hi).
      destruct (views_nth _ _ _ _ (eq_sym H1) Hi) as (s' & Hs' & E & Ee).
      exists s', x. split; [eapply nth_error_In; eauto|]. rewrite <- Ee. destruct (frame_eq _ _ E) as (E1 & _).
      repeat split; auto. congruence.
    + intros (s & x & Hs & Hx & Ex & Es). apply In_nth_error in Hs as (i & Hi).
      destruct (views_nth _ _ _ _ H1 Hi) as (s' & Hs' & E & Ee).
      exists s', x. split; [eapply nth_error_In; eauto|]. rewrite <- Ee. destruct (frame_eq _ _ E) as (E1 & _).
      repeat split; auto. congruence.
Qed.

Lemma touch_at_view now is l : map view (touch_at now is l) = map view l.
Proof.
  unfold touch_at, mapi. rewrite mapi_from_map. 
  transitivity (mapi_from 0 (fun _ s => view s) l); [|apply mapi_from_id].
  generalize 0%nat. induction l as [|s r IH]; intros k; [reflexivity|]. cbn [mapi_from].
  rewrite IH. f_equal. destruct (existsb (Nat.eqb k) is); reflexivity.
Qed.
Lemma touch_at_nth now is l i : nth_error (touch_at now is l) i =
  option_map (fun s => if existsb (Nat.eqb i) is then touch now s else s) (nth_error l i).
Proof. unfold touch_at. rewrite mapi_nth. reflexivity. Qed.
Lemma existsb_nat i l : existsb (Nat.eqb i) l = true <-> In i l.
Proof.
  rewrite existsb_exists. split.
  - intros (j & Hj & E). apply Nat.eqb_eq in E. subst. exact Hj.
  - intros H. exists i. split; [exact H|apply Nat.eqb_refl].
Qed.

(** metadata after an operation that touches the changed segments *)
Lemma meta_touch s idx l' ts now : meta s -> 0 < now < max_u32 ->
  map bare l' = map bare (ss_segs s) ->
  (forall i, ~ In i ts -> nth_error l' i = nth_error (ss_segs s) i) ->
  (idx = [] \/ idx = build_idx (ss_segs s)) ->
  meta (mkSegs (ss_id s) (touch_at now ts l') (ss_next s) (ss_index s) idx).
Proof.
  intros HM Hnow HB HU Hidx.
  assert (HV : map frame (touch_at now ts l') = map frame (ss_segs s)).
  { rewrite (views_frames _ _ (touch_at_view now ts l')). apply frames_bare. exact HB. }
  split; cbn [ss_id ss_segs ss_next ss_idx].
  - apply Forall_forall. intros x Hx. apply In_nth_error in Hx as (i & Hi). rewrite touch_at_nth in Hi.
    destruct (nth_error l' i) as [y|] eqn:Ey; [|discriminate]. cbn in Hi. injection Hi as <-.
    pose proof (m_segs _ HM) as Hm. rewrite Forall_forall in Hm.
    destruct (existsb (Nat.eqb i) ts) eqn:Ei.
    + unfold seg_meta, touch. cbn. split; [reflexivity|]. split; [exact Hnow|].
      destruct (bare_nth _ _ _ _ (eq_sym HB) Ey) as (s0 & Hs0 & E0).
      apply (f_equal sg_parent) in E0. cbn in E0. rewrite <- E0. apply Hm. eapply nth_error_In; eauto.
    + rewrite HU in Ey; [apply Hm; eapply nth_error_In; eauto|].
      intros C. rewrite <- existsb_nat in C. congruence.
  - rewrite (map_id_frames _ _ HV). apply HM.
  - pose proof (m_id _ HM) as Hm. rewrite Forall_forall in *. intros x Hx. apply In_nth_error in Hx as (i & Hi).
    destruct (frames_nth _ _ _ _ HV Hi) as (s0 & Hs0 & E). destruct (frame_eq _ _ E) as (-> & _).
    apply Hm. eapply nth_error_In; eauto.
  - destruct Hidx as [->| ->]; [auto|]. right. unfold build_idx, mapi.
    assert (E : forall (a b : list seg) k, map frame a = map frame b ->
      mapi_from k (fun i s => (sg_id s, i)) b = mapi_from k (fun i s => (sg_id s, i)) a).
    { induction a as [|x a IH]; intros [|y b] k E; try discriminate; [reflexivity|]. cbn [map] in E. cbn [mapi_from].
      assert (E1 : frame x = frame y) by congruence. destruct (frame_eq _ _ E1) as (-> & _). f_equal. apply IH. congruence. }
    apply E. exact HV.
  - apply HM.
  - apply HM.
Qed.

(** ** destination groups *)
Lemma pairs_dst ss elems sc : weakly_ranked elems -> Forall good_in elems -> tile ss ->
  let ps := pairs (permute sc (split_elements_idx ss elems)) in
  (forall i e, In (i, e) ps <-> In e elems /\ exists s, nth_error ss i = Some s /\ in_range s e) /\
  (NoDup elems -> NoDup (map snd ps)).
Proof.
  intros Hr Hg HT ps.
  assert (Hiff : forall i e, In (i, e) ps <-> In e elems /\ exists s, nth_error ss i = Some s /\ in_range s e).
  { intros i e. unfold ps, pairs. rewrite in_flat_map. split.
    - intros ((j & f) & Hj & He). cbn [fst snd] in He. apply in_map_iff in He as (x & Ex & Hx). injection Ex as -> ->.
      apply permute_In in Hj. apply split_elements_In in Hj as (_ & s & Hs & ->);
        [|assumption|assumption|eapply tile_from_widths; eauto|eapply tile_from_le; eauto].
      apply filter_In in Hx as (Hx & Hin). split; [exact Hx|]. exists s. split; [exact Hs|]. apply inr_spec. exact Hin.
    - intros (He & s & Hs & Hin). exists (i, filter (inr s) elems).
      assert (Hef : In e (filter (inr s) elems)) by (apply filter_In; split; [exact He|apply inr_spec; exact Hin]).
      split.
      + apply permute_In. apply split_elements_In; try assumption; [eapply tile_from_widths; eauto|eapply tile_from_le; eauto|].
        split; [intros C; rewrite C in Hef; contradiction|]. exists s. auto.
      + cbn [fst snd]. apply in_map. exact Hef. }
  split; [exact Hiff|]. intros Hnd.
  assert (Hp : Permutation ps (pairs (split_elements_idx ss elems))).
  { unfold ps, pairs. rewrite !flat_map_concat_map. apply Permutation_concat, Permutation_map, permute_perm. }
  eapply Permutation_NoDup; [apply Permutation_map; symmetry; exact Hp|].
  unfold split_elements_idx. rewrite split_elements_from_spec; [|assumption|assumption|eapply tile_from_widths; eauto|eapply tile_from_le; eauto].
  unfold pairs. 
  assert (E : forall L : list (nat * seg),
     flat_map (fun g : nat * list element => map (pair (fst g)) (snd g))
      (flat_map (fun p => match filter (inr (snd p)) elems with [] => [] | f => [(fst p, f)] end) L) =
     flat_map (fun p => map (pair (fst p)) (filter (inr (snd p)) elems)) L).
  { induction L as [|p L IH]; [reflexivity|]. cbn [flat_map]. rewrite flat_map_app, IH. f_equal.
    destruct (filter (inr (snd p)) elems); cbn; rewrite ?app_nil_r; reflexivity. }
  rewrite E. clear E.
  assert (E2 : forall L, map snd (flat_map (fun p : nat * seg => map (pair (fst p)) (filter (inr (snd p)) elems)) L) =
     flat_map (fun p => filter (inr (snd p)) elems) L).
  { induction L as [|p L IH]; [reflexivity|]. cbn [flat_map]. rewrite map_app, IH, map_map. cbn [snd]. rewrite map_id. reflexivity. }
  rewrite E2. clear E2 ps Hiff Hp.
  (* segments are disjoint *)
  assert (Hgen : forall l k, tile_from k l -> forall i, NoDup (flat_map (fun p : nat * seg => filter (inr (snd p)) elems) (mapi_from i (fun j s => (j, s)) l))).
  { intros l k Hl. pose proof (tile_from_unique l k) as Hu.
    assert (Hd : forall i j s t x, nth_error l i = Some s -> nth_error l j = Some t -> inr s x = true -> inr t x = true -> i = j).
    { intros i j s t x Hi Hj Hs Ht. apply inr_spec in Hs, Ht. eapply Hu; eauto. }
    clear Hu Hl. induction l as [|s l IH]; intros i; [constructor|]. cbn [mapi_from flat_map snd].
    apply NoDup_app_intro; [apply NoDup_filter; exact Hnd|apply IH; intros a b u v x Ha Hb Hu Hv; assert (S a = S b) by (eapply Hd with (s := u) (t := v); eauto); lia|].
    intros x Hx C. apply in_flat_map in C as ((j & t) & Hj & Hxt). apply mapi_from_In in Hj as (j' & t' & Hj & Et).
    injection Et as -> ->. cbn [snd] in Hxt. apply filter_In in Hx as (_ & Hx). apply filter_In in Hxt as (_ & Hxt).
    assert (0%nat = S j') by (eapply Hd with (s := s) (t := t'); eauto). discriminate. }
  apply (Hgen ss topk HT).
Qed.

Definition batch_ok (elems : elements) : Prop := distinct_ids elems /\ Forall good_in elems.
Definition clock_ok (clk : N -> N) : Prop := forall id, 0 < clk id < max_u32.

Lemma distinct_NoDup l : distinct_ids l -> NoDup l.
Proof. apply NoDup_map_inv. Qed.

Lemma set_both_eta l s i : ss_id s = l_scores_id l -> ss_id i = l_index_id l ->
  set_both l s i = mkL (l_merge l) (l_split l) (l_scores_id l) (l_index_id l) s i.
Proof. unfold set_both. intros -> ->. reflexivity. Qed.

(** segments at positions outside [ts] are as before *)
Definition kept (ts : list nat) (old new : list seg) : Prop :=
  map frame new = map frame old /\ forall i, ~ In i ts -> nth_error new i = nth_error old i.
Lemma kept_touch now ts l l' : map bare l' = map bare l -> (forall i, ~ In i ts -> nth_error l' i = nth_error l i) ->
  kept ts l (touch_at now ts l').
Proof.
  intros HB HU. split.
  - rewrite (views_frames _ _ (touch_at_view now ts l')). apply frames_bare. exact HB.
  - intros i Hi. rewrite touch_at_nth. assert (existsb (Nat.eqb i) ts = false) as ->.
    { destruct (existsb (Nat.eqb i) ts) eqn:C; [|reflexivity]. apply existsb_nat in C. contradiction. }
    rewrite (HU i Hi). destruct (nth_error l i); reflexivity.
Qed.

Lemma update_full P l clk clki now sc elems : Inv P l -> batch_ok elems -> clock_ok clk -> clock_ok clki -> 0 < now < max_u32 ->
  let l' := update_elements clk clki now sc elems l in
  let t := snd (update_core clk clki sc elems l) in
  Inv (fun x => (exists e, In e elems /\ x = new_of clk e) \/ (P x /\ ~ In (e_id x) (map e_id elems))) l' /\
  kept (fst t) (ss_segs (l_scores l)) (ss_segs (l_scores l')) /\
  kept (snd t) (ss_segs (l_index l)) (ss_segs (l_index l')).
Proof.
  intros HInv (Hd & Hg) Hclk Hclki Hnow. destruct (i_core _ _ HInv) as (Q & HC).
  pose proof (c_s _ _ _ _ HC) as HS. pose proof (c_i _ _ _ _ HC) as HI.
  destruct (reindex_idx _ (tile_nonempty _ (so_tile _ _ HS)) (m_idx _ (i_ms _ _ HInv))) as (Ei & Es & En & Ex & Eb).
  unfold update_elements, update_core. cbn zeta. rewrite Es, Ei.
  set (el := sort_elems elems). set (ids := sort_ids_desc (map e_id el)).
  assert (Hperm : Permutation el elems) by apply sort_elems_perm.
  assert (Hdel : distinct_ids el) by (eapply distinct_ids_perm; [symmetry; exact Hperm|exact Hd]).
  assert (Hgel : Forall good_in el).
  { rewrite Forall_forall in *. intros x Hx. apply Hg. eapply Permutation_in; eauto. }
  assert (Hrel : weakly_ranked el) by apply sort_elems_weak.
  assert (Hids : forall id, In id ids <-> In id (map e_id el)) by (intros; apply sort_ids_desc_In).
  assert (Hidnd : NoDup ids).
  { eapply Permutation_NoDup; [symmetry; apply sort_ids_desc_perm|exact Hdel]. }
  assert (Hidb : Forall (fun v => v <= max_u64) ids).
  { apply Forall_forall. intros v Hv. apply Hids, in_map_iff in Hv as (x & <- & Hx).
    rewrite Forall_forall in Hgel. apply Hgel in Hx. unfold good_in, elem_ok in Hx. tauto. }
  pose proof (index_groups_spec _ _ _ _ ids HC Hidnd Hidb) as Hgrp. cbn zeta in Hgrp.
  set (groups := index_groups (ss_segs (l_index l)) ids) in *.
  set (exi := existing_idx (ss_segs (l_index l)) groups) in *.
  set (ss := ss_segs (l_scores l)) in *. set (is := ss_segs (l_index l)) in *.
  destruct (pairs_dst ss el sc Hrel Hgel (so_tile _ _ HS)) as (Hps & Hpnd).
  specialize (Hpnd (distinct_NoDup _ Hdel)).
  set (dst := permute sc (split_elements_idx ss el)) in *.
  rewrite update_loop_pairs. set (ps := pairs dst) in *.
  assert (Hpe : forall p, In p ps -> In (snd p) el) by (intros (i & e) Hp; apply Hps in Hp; tauto).
  assert (Hnp : NoDup (map (fun p => e_id (snd p)) ps)).
  { rewrite <- map_map. 
    assert (Hsub : forall x, In x (map snd ps) -> In x el).
    { intros x Hx. apply in_map_iff in Hx as (p & <- & Hp). auto. }
    revert Hpnd Hsub. generalize (map snd ps). intros L HL Hsub.
    induction HL as [|x r Hx HL IH]; cbn; constructor.
    - intros C. apply in_map_iff in C as (y & E & Hy). apply Hx.
      assert (x = y); [|subst; exact Hy].
      assert (Hinj : forall a b, In a el -> In b el -> e_id a = e_id b -> a = b).
      { clear - Hdel. unfold distinct_ids in Hdel. induction el as [|z r IH]; intros a b Ha Hb E; [contradiction|].
        cbn in Hdel. apply NoDup_cons_iff in Hdel as (Hz & Hr). destruct Ha as [->|Ha], Hb as [->|Hb]; auto.
        - exfalso. apply Hz. rewrite E. apply in_map. exact Hb.
        - exfalso. apply Hz. rewrite <- E. apply in_map. exact Ha. }
      apply Hinj; auto; apply Hsub; cbn; auto.
    - apply IH. intros y Hy. apply Hsub. right; exact Hy. }
  pose proof (update_loop_core clk clki (build_idx ss) exi (elements_idx groups) ps P Q ss is HC
    (fun i s => idx_get_build ss i s (c_nd _ _ _ _ HC)) Hnp) as HL.
  set (w := fold_left (fun w p => update_step clk clki (build_idx ss) exi (elements_idx groups) (fst p) w (snd p)) ps (ss, is)) in *.
  destruct HL as (B1 & B2 & Q' & HC').
  { intros (i & e) Hp. cbn [fst snd]. pose proof (Hps i e) as Hpie. apply Hpie in Hp as (He & s & Hs & Hin).
    destruct (Hgrp (e_id e)) as (G1 & G2 & G3); [apply Hids, in_map; exact He|].
    split; [rewrite Forall_forall in Hgel; auto|]. split; [apply Hclk|]. split; [apply Hclki|].
    split; [exact G1|]. split; [exists s; auto|exact G3]. }
  destruct w as [ss' is'] eqn:Ew. cbn [fst snd] in *.
  unfold set_segs. rewrite En, Ex, Eb, Ei.
  rewrite set_both_eta; [|cbn; apply HInv|cbn; apply HInv].
  cbn [snd fst l_scores l_index ss_segs].
  assert (U1 : forall i, ~ In i (map (fun p => idx_get (build_idx ss) (e_tie (snd p))) exi ++ map fst dst) -> nth_error ss' i = nth_error ss i).
  { intros i Hi.
    pose proof (update_untouched clk clki (build_idx ss) exi (elements_idx groups) i ps (ss, is)) as HU.
    fold w in HU. rewrite Ew in HU. apply HU.
    + intros p Hp C. apply Hi. apply in_or_app. right. rewrite <- C. unfold ps, pairs in Hp.
      apply in_flat_map in Hp as (g & Hg' & Hp). apply in_map_iff in Hp as (e & <- & _). cbn [fst]. apply in_map. exact Hg'.
    + intros p Hp C. apply Hi. apply in_or_app. left. rewrite <- C.
      apply (in_map (fun p => idx_get (build_idx ss) (e_tie (snd p)))). exact Hp. }
  assert (U2 : forall i, ~ In i (map fst groups) -> nth_error is' i = nth_error is i).
  { intros i Hi.
    pose proof (update_untouched_idx clk clki (build_idx ss) exi (elements_idx groups) i ps (ss, is)) as HU.
    fold w in HU. rewrite Ew in HU. apply HU.
    intros p Hp C. apply Hi. rewrite <- C. apply Hgrp. apply Hids, in_map. auto. }
  split; [|split; apply kept_touch; assumption].
  split; cbn [l_scores l_index l_scores_id l_index_id l_merge l_split ss_id ss_segs ss_index ss_idx ss_next];
    try apply HInv.
  - exists Q'. eapply core_views; [apply touch_at_view|apply touch_at_view|].
    eapply core_ext; [|exact HC']. intros x. split.
    + intros [(p & Hp & ->)|(Hx & Hn)].
      * left. exists (snd p). split; [|reflexivity]. apply (Permutation_in _ Hperm). auto.
      * right. split; [exact Hx|]. intros C. apply Hn. apply in_map_iff in C as (e & Ee & He).
        apply (Permutation_in _ (Permutation_sym Hperm)) in He.
        assert (Hge : elem_ok e) by (rewrite Forall_forall in Hgel; apply Hgel in He; unfold good_in in He; tauto).
        destruct (tile_from_locate ss topk (key e) (so_tile _ _ HS) (key_le_top e Hge)) as (i & s & Hi & Hki).
        rewrite <- Ee. apply (in_map (fun p => e_id (snd p)) ps (i, e)). apply Hps. split; [exact He|].
        exists s. split; [exact Hi|exact Hki].
    + intros [(e & He & ->)|(Hx & Hn)].
      * left. apply (Permutation_in _ (Permutation_sym Hperm)) in He.
        assert (Hge : elem_ok e) by (rewrite Forall_forall in Hgel; apply Hgel in He; unfold good_in in He; tauto).
        destruct (tile_from_locate ss topk (key e) (so_tile _ _ HS) (key_le_top e Hge)) as (i & s & Hi & Hki).
        exists (i, e). split; [|reflexivity]. apply Hps. split; [exact He|]. exists s. split; [exact Hi|exact Hki].
      * right. split; [exact Hx|]. intros C. apply Hn. apply in_map_iff in C as (p & Ep & Hp).
        rewrite <- Ep. apply in_map. apply (Permutation_in _ Hperm). auto.
  - apply meta_touch; [apply HInv|exact Hnow|exact B1|exact U1|right; reflexivity].
  - apply meta_touch; [apply HInv|exact Hnow|exact B2|exact U2|apply (m_idx _ (i_mi _ _ HInv))].
Qed.

Lemma update_inv P l clk clki now sc elems : Inv P l -> batch_ok elems -> clock_ok clk -> clock_ok clki -> 0 < now < max_u32 ->
  Inv (fun x => (exists e, In e elems /\ x = new_of clk e) \/ (P x /\ ~ In (e_id x) (map e_id elems)))
      (update_elements clk clki now sc elems l).
Proof. intros. apply (update_full P l clk clki now sc elems); assumption. Qed.
