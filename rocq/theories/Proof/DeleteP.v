(** DeleteElements preserves the invariant and removes exactly the given IDs;
    the segment walks of Segments.DeleteElements and Segments.Insert. *)
From Coq Require Import Strings.String.
From Verif.Lib Require Import Prelude ListAux ListLemmas SortLemmas Perm.
From Verif.Model Require Import Element Elements Segment List.
From Verif.Spec Require Import RankSpec QuerySpec.
From Verif.Proof Require Import ElementP ElementsP ElementsThm SegP InvDef QueryP LookupP ChangeP UpdateP UpdateInv.
Open Scope N_scope.

(** ** metadata of an operation that touches what it changes *)
Definition stepped (now : N) (l l' : list seg) : Prop :=
  forall i s s', nth_error l i = Some s -> nth_error l' i = Some s' ->
    s' = s \/ (sg_n s' = length (sg_elems s') /\ sg_upd s' = now /\ sg_parent s' = sg_parent s).

Lemma build_idx_frames : forall (a b : list seg) k, map frame a = map frame b ->
  mapi_from k (fun i s => (sg_id s, i)) b = mapi_from k (fun i s => (sg_id s, i)) a.
Proof.
  induction a as [|x a IH]; intros [|y b] k E; try discriminate; [reflexivity|]. cbn [map] in E. cbn [mapi_from].
  assert (E1 : frame x = frame y) by congruence. destruct (frame_eq _ _ E1) as (-> & _). f_equal. apply IH. congruence.
Qed.

Lemma meta_step s l' now idx : meta s -> 0 < now < max_u32 ->
  map frame l' = map frame (ss_segs s) -> stepped now (ss_segs s) l' ->
  (idx = [] \/ idx = build_idx (ss_segs s)) ->
  meta (mkSegs (ss_id s) l' (ss_next s) (ss_index s) idx).
Proof.
  intros HM Hnow HV HT Hidx. split; cbn [ss_id ss_segs ss_next ss_idx].
  - apply Forall_forall. intros x Hx. apply In_nth_error in Hx as (i & Hi).
    destruct (frames_nth _ _ _ _ HV Hi) as (s0 & Hs0 & _).
    pose proof (m_segs _ HM) as Hm. rewrite Forall_forall in Hm. specialize (Hm s0 (nth_error_In _ _ Hs0)).
    destruct (HT i s0 x Hs0 Hi) as [->|(A & B & C)]; [exact Hm|].
    unfold seg_meta in *. rewrite A, B, C. tauto.
  - rewrite (map_id_frames _ _ HV). apply HM.
  - pose proof (m_id _ HM) as Hm. rewrite Forall_forall in *. intros x Hx. apply In_nth_error in Hx as (i & Hi).
    destruct (frames_nth _ _ _ _ HV Hi) as (s0 & Hs0 & E). destruct (frame_eq _ _ E) as (-> & _).
    apply Hm. eapply nth_error_In; eauto.
  - destruct Hidx as [->| ->]; [auto|]. right. apply build_idx_frames. exact HV.
  - apply HM.
  - apply HM.
Qed.

Lemma mapi_same {A B} (g : A -> B) (f : nat -> A -> A) : (forall i x, g (f i x) = g x) -> forall l, map g (mapi f l) = map g l.
Proof.
  intros H l. unfold mapi. generalize 0%nat. induction l as [|x r IH]; intros k; [reflexivity|]. cbn [mapi_from map].
  rewrite H, IH. reflexivity.
Qed.

(** ** the sorted walks *)
Lemma filter_below s (e : elements) t : kmax t < kmin s ->
  filter (inr t) (filter (fun x => key x <? kmin s) e) = filter (inr t) e.
Proof.
  intros H. induction e as [|x e IH]; [reflexivity|]. cbn [filter].
  destruct (N.ltb_spec (key x) (kmin s)); cbn [filter]; [rewrite IH; reflexivity|].
  rewrite IH. destruct (inr t x) eqn:E; [|reflexivity]. apply inr_spec in E. unfold in_range in E. lia.
Qed.

Lemma walk_next s e a b k : widths s -> kmin s <= kmax s -> kmax s = k -> weakly_ranked e -> Forall good_in e ->
  (forall x, In x e -> key x <= k) -> filter_idx s e = (a, b) ->
  slice e a b = filter (inr s) e /\
  (a = b -> filter (inr s) e = [] /\ forall x, In x e -> key x < kmin s) /\
  (a <> b -> filter (inr s) e <> []) /\
  skipn b e = filter (fun x => key x <? kmin s) e.
Proof.
  intros Hw Hm Hk Hr Hg Hle E. destruct (filter_idx_spec _ _ _ _ Hw Hm Hr Hg E) as (Hab & Hsl & Hz & _).
  rewrite Hk in Hz. specialize (Hz Hle) as (Ha & Hb). split; [exact Hsl|].
  assert (HI : a = b <-> filter (inr s) e = []) by (rewrite <- Hsl; symmetry; apply slice_nil_iff; lia).
  split.
  - intros Eab. apply HI in Eab. split; [exact Eab|]. intros x Hx. specialize (Hle x Hx).
    destruct (inr s x) eqn:Ei.
    + exfalso. assert (H : In x (filter (inr s) e)) by (apply filter_In; auto). rewrite Eab in H. contradiction.
    + unfold inr in Ei. lia.
  - split; [tauto|exact Hb].
Qed.

Lemma weak_filter p (e : elements) : weakly_ranked e -> weakly_ranked (filter p e).
Proof. apply StronglySorted_filter. Qed.
Lemma Forall_filter {A} (R : A -> Prop) p l : Forall R l -> Forall R (filter p l).
Proof. rewrite !Forall_forall. intros H x Hx. apply filter_In in Hx. apply H. tauto. Qed.

Definition del_in (now : N) (ins : elements) (s : seg) : seg :=
  match filter (inr s) ins with
  | [] => s
  | f => touch now (set_elems (filter (fun e => negb (mem_id (e_id e) (map e_id f)))) s)
  end.
Lemma delete_sorted_map now : forall l k ins, tile_from k l -> weakly_ranked ins -> Forall good_in ins ->
  (forall x, In x ins -> key x <= k) ->
  delete_sorted now l ins = map (del_in now ins) l.
Proof.
  induction l as [|s r IH]; intros k ins HT Hr Hg Hle; [reflexivity|].
  destruct HT as (Hk & Hm & Hw & HT). cbn [delete_sorted map].
  destruct (filter_idx s ins) as [a b] eqn:E.
  destruct (walk_next _ _ _ _ _ Hw Hm Hk Hr Hg Hle E) as (Hsl & Heq & Hne & Hsk).
  assert (Hs : (if Nat.eqb a b then s else touch now (set_elems (filter (fun e => negb (mem_id (e_id e) (map e_id (slice ins a b))))) s)) = del_in now ins s).
  { unfold del_in. rewrite Hsl. destruct (Nat.eqb_spec a b) as [->|Hab].
    - destruct (Heq eq_refl) as (-> & _). reflexivity.
    - specialize (Hne Hab). destruct (filter (inr s) ins); [congruence|reflexivity]. }
  destruct r as [|t r].
  { destruct (Nat.eqb a b); cbn [delete_sorted map]; rewrite <- Hs; reflexivity. }
  destruct HT as (Hpos & HT).
  destruct (Nat.eqb_spec a b) as [->|Hab].
  - rewrite <- Hs. f_equal. apply (IH (kmin s - 1)); auto. intros x Hx. apply Heq in Hx; lia.
  - rewrite <- Hs. f_equal. rewrite Hsk, (IH (kmin s - 1)); auto using weak_filter, Forall_filter.
    + apply map_ext_in. intros u Hu. unfold del_in. rewrite filter_below; [reflexivity|].
      pose proof (tile_from_kmax _ _ _ HT Hu). lia.
    + intros x Hx. apply filter_In in Hx. lia.
Qed.

Definition ins_in (now : N) (ins : elements) (s : seg) : seg :=
  match filter (inr s) ins with
  | [] => s
  | f => touch now (set_elems (fun old => merge_copy old f) s)
  end.
Lemma insert_sorted_map now : forall l k ins, tile_from k l -> weakly_ranked ins -> Forall good_in ins ->
  (forall x, In x ins -> key x <= k) ->
  insert_sorted now l ins =
  (map (ins_in now ins) l,
   flat_map (fun s => match filter (inr s) ins with [] => [] | f => [element_ids f (sg_id s)] end) l).
Proof.
  induction l as [|s r IH]; intros k ins HT Hr Hg Hle; [reflexivity|].
  destruct HT as (Hk & Hm & Hw & HT). cbn [insert_sorted map flat_map].
  destruct (filter_idx s ins) as [a b] eqn:E.
  destruct (walk_next _ _ _ _ _ Hw Hm Hk Hr Hg Hle E) as (Hsl & Heq & Hne & Hsk).
  assert (Hrest : insert_sorted now r (if Nat.eqb a b then ins else skipn b ins) =
    (map (ins_in now ins) r,
     flat_map (fun s => match filter (inr s) ins with [] => [] | f => [element_ids f (sg_id s)] end) r)).
  { destruct r as [|t r]; [reflexivity|]. destruct HT as (Hpos & HT).
    destruct (Nat.eqb_spec a b) as [->|Hab].
    - apply (IH (kmin s - 1)); auto. intros x Hx. apply Heq in Hx; lia.
    - rewrite Hsk, (IH (kmin s - 1)); auto using weak_filter, Forall_filter.
      + f_equal.
        * apply map_ext_in. intros u Hu. unfold ins_in. rewrite filter_below; [reflexivity|].
          pose proof (tile_from_kmax _ _ _ HT Hu). lia.
        * rewrite !flat_map_concat_map. f_equal. apply map_ext_in. intros u Hu. rewrite filter_below; [reflexivity|].
          pose proof (tile_from_kmax _ _ _ HT Hu). lia.
      + intros x Hx. apply filter_In in Hx. lia. }
  destruct (Nat.eqb_spec a b) as [->|Hab].
  - rewrite Hrest. unfold ins_in at 2. destruct (Heq eq_refl) as (-> & _). reflexivity.
  - rewrite Hrest. unfold ins_in at 2. rewrite Hsl. specialize (Hne Hab).
    destruct (filter (inr s) ins); [congruence|reflexivity].
Qed.

Lemma ins_in_frame now ins s : frame (ins_in now ins s) = frame s.
Proof. unfold ins_in. destruct (filter (inr s) ins); reflexivity. Qed.
Lemma del_in_frame now ins s : frame (del_in now ins s) = frame s.
Proof. unfold del_in. destruct (filter (inr s) ins); reflexivity. Qed.
Lemma stepped_map now f l : (forall s, f s = s \/ exists s0, f s = touch now s0 /\ sg_parent s0 = sg_parent s) -> stepped now l (map f l).
Proof.
  intros H i s s' Hi Hi'. rewrite nth_error_map, Hi in Hi'. cbn in Hi'. assert (E : s' = f s) by congruence. subst s'.
  destruct (H s) as [->|(s0 & -> & E)]; [auto|]. right. auto.
Qed.

(** ** DeleteElementsIdx *)
Lemma fold_merge_In x : forall gs acc, In x (fold_left (fun a g => merge_copy a g) gs acc) <-> In x acc \/ exists g, In g gs /\ In x g.
Proof.
  induction gs as [|g gs IH]; intros acc; cbn [fold_left].
  - split; [auto|intros [H|(g & [] & _)]; exact H].
  - rewrite IH. assert (E : In x (merge_copy acc g) <-> In x acc \/ In x g).
    { pose proof (merge_copy_perm acc g) as Hp. rewrite <- in_app_iff. split; apply Permutation_in; [exact Hp|symmetry; exact Hp]. }
    rewrite E. split.
    + intros [[H|H]|(g' & H1 & H2)]; [auto|right; exists g; cbn; auto|right; exists g'; cbn; auto].
    + intros [H|(g' & [<-|H1] & H2)]; [auto|auto|right; eauto].
Qed.
Lemma fold_merge_weak : forall gs acc, weakly_ranked acc -> Forall weakly_ranked gs ->
  weakly_ranked (fold_left (fun a g => merge_copy a g) gs acc).
Proof.
  induction gs as [|g gs IH]; intros acc Ha Hg; [exact Ha|]. inversion Hg as [|? ? A B]; subst. cbn [fold_left].
  apply IH; [|exact B]. apply merge_copy_weak; assumption.
Qed.

Lemma ids_for_In m i ids id : In id (ids_for m i ids) <-> exists q, In q ids /\ e_id q = id /\ idx_get m (e_tie q) = i.
Proof.
  unfold ids_for. rewrite in_map_iff. split.
  - intros (q & E & H). apply filter_In in H as (H & H2). apply Nat.eqb_eq in H2. eauto.
  - intros (q & H & E & E2). exists q. split; [exact E|]. apply filter_In. split; [exact H|]. apply Nat.eqb_eq. exact E2.
Qed.

Lemma as_index_good x sid : good x -> sid <= max_u32 -> good (as_index x sid).
Proof. unfold good, elem_ok, as_index. cbn. lia. Qed.

Lemma delete_inv P l now sc1 sc2 ids : Inv P l -> Forall (fun v => v <= max_u64) ids -> 0 < now < max_u32 ->
  Inv (fun x => P x /\ ~ In (e_id x) ids) (delete_elements now sc1 sc2 ids l).
Proof.
  intros HInv Hb Hnow. destruct (i_core _ _ HInv) as (Q & HC).
  pose proof (c_s _ _ _ _ HC) as HS. pose proof (c_i _ _ _ _ HC) as HI.
  destruct (reindex_idx _ (tile_nonempty _ (so_tile _ _ HS)) (m_idx _ (i_ms _ _ HInv))) as (Ei & Es & En & Ex & Eb).
  destruct (index_elements_spec _ _ _ sc1 _ HC Hb) as (Hd & Hiff).
  unfold delete_elements, delete_elements_idx. cbn zeta. rewrite Es, Ei.
  set (e := get_index_elements sc1 l ids) in *.
  set (ss := ss_segs (l_scores l)) in *. set (is := ss_segs (l_index l)) in *.
  set (tch := fun i => ids_for (build_idx ss) i e).
  (* what is addressed in a segment *)
  assert (Htch : forall i s x, nth_error ss i = Some s -> In x (sg_elems s) -> In (e_id x) (tch i) <-> In (e_id x) ids).
  { intros i s x Hi Hx. unfold tch. rewrite ids_for_In. split.
    - intros (q & Hq & <- & _). apply Hiff in Hq. tauto.
    - intros Hin. destruct (proj2 (c_link _ _ _ _ HC (e_id x) (sg_id s))) as (q & Hq & Eq & Et).
      { exists s, x. split; [eapply nth_error_In; eauto|auto]. }
      exists q. split; [apply Hiff; rewrite Eq; auto|]. split; [exact Eq|]. rewrite Et.
      apply idx_get_build; [apply HC|exact Hi]. }
  set (f := fun i s => match tch i with
                       | [] => s
                       | d => touch now (set_elems (filter (fun x => negb (mem_id (e_id x) d))) s) end).
  assert (Hfe : forall i s, sg_elems (f i s) = filter (fun x => negb (mem_id (e_id x) (tch i))) (sg_elems s)).
  { intros i s. unfold f. destruct (tch i) as [|d0 d] eqn:E; [|reflexivity]. symmetry. apply filter_all. reflexivity. }
  assert (Hff : forall i s, frame (f i s) = frame s) by (intros; unfold f; destruct (tch i); reflexivity).
  assert (HFs : map frame (mapi f ss) = map frame ss).
  { apply mapi_same. exact Hff. }
  assert (HTs : stepped now ss (mapi f ss)).
  { intros i s s' Hi Hi'. rewrite mapi_nth, Hi in Hi'. cbn in Hi'. assert (E : s' = f i s) by congruence. subst s'.
    unfold f. destruct (tch i); [auto|]. right. cbn. auto. }
  assert (Hcs : changed (fun _ => False) (fun id => In id ids) ss (mapi f ss)).
  { intros i s s' Hi Hi'. rewrite mapi_nth, Hi in Hi'. cbn in Hi'. assert (E : s' = f i s) by congruence. subst s'.
    rewrite Hfe. split; [apply StronglySorted_filter; exact (proj1 (score_ok_seg_ranked P ss i s HS Hi))|].
    intros x. rewrite filter_In. split.
    - intros (Hx & Hn). right. split; [exact Hx|]. intros C. apply (Htch i s x Hi Hx) in C. apply mem_id_spec in C.
      rewrite C in Hn. discriminate.
    - intros [(F & _)|(Hx & Hn)]; [contradiction|]. split; [exact Hx|].
      destruct (mem_id (e_id x) (tch i)) eqn:E; [|reflexivity]. exfalso. apply Hn. apply (Htch i s x Hi Hx).
      apply mem_id_spec. exact E. }
  set (g := fun (i : nat) (s : seg) => match tch i with
                       | [] => None
                       | d => Some (sort_elems (map (fun x => as_index x (sg_id s)) (filter (fun x => mem_id (e_id x) d) (sg_elems s)))) end).
  set (groups := flat_map (fun o : option elements => match o with Some v => [v] | None => [] end) (mapi g ss)).
  set (deleted := fold_left (fun acc v => merge_copy acc v) (permute sc2 groups) []).
  assert (Hdel : forall y, In y deleted <-> exists i s x, nth_error ss i = Some s /\ In x (sg_elems s) /\ In (e_id x) ids /\ y = as_index x (sg_id s)).
  { intros y. unfold deleted. rewrite fold_merge_In. unfold groups. split.
    - intros [[]|(v & Hv & Hy)]. apply permute_In in Hv. apply in_flat_map in Hv as (o & Ho & Hv).
      destruct o as [v'|]; [|contradiction]. destruct Hv as [->|[]]. apply mapi_In in Ho as (i & s & Hi & Eg).
      assert (Eg' : v = sort_elems (map (fun x => as_index x (sg_id s)) (filter (fun x => mem_id (e_id x) (tch i)) (sg_elems s)))).
      { unfold g in Eg. destruct (tch i); [discriminate|]. congruence. }
      subst v. apply sort_elems_In, in_map_iff in Hy as (x & <- & Hx). apply filter_In in Hx as (Hx & Hm).
      exists i, s, x. repeat split; auto. apply (Htch i s x Hi Hx). apply mem_id_spec. exact Hm.
    - intros (i & s & x & Hi & Hx & Hin & ->). right.
      apply (Htch i s x Hi Hx) in Hin.
      exists (sort_elems (map (fun x => as_index x (sg_id s)) (filter (fun x => mem_id (e_id x) (tch i)) (sg_elems s)))). split.
      + apply permute_In, in_flat_map. exists (g i s). split; [apply mapi_In; eauto|]. unfold g.
        destruct (tch i); [contradiction|]. left; reflexivity.
      + apply sort_elems_In, in_map_iff. exists x. split; [reflexivity|]. apply filter_In. split; [exact Hx|].
        apply mem_id_spec. exact Hin. }
  assert (Hdg : Forall good_in deleted).
  { apply Forall_forall. intros y Hy. apply Hdel in Hy as (i & s & x & Hi & Hx & _ & ->). apply good_good_in, as_index_good.
    - apply (so_good _ _ HS). eapply (score_ok_seg _ _ s x HS); eauto using nth_error_In.
    - pose proof (c_id _ _ _ _ HC) as Hc. rewrite Forall_forall in Hc. apply Hc. eapply nth_error_In; eauto. }
  assert (Hdw : weakly_ranked deleted).
  { apply fold_merge_weak; [constructor|]. apply Forall_forall. intros v Hv. apply permute_In in Hv.
    apply in_flat_map in Hv as (o & Ho & Hv). destruct o as [v'|]; [|contradiction]. destruct Hv as [->|[]].
    apply mapi_In in Ho as (i & s & Hi & Eg). unfold g in Eg. destruct (tch i); [discriminate|].
    assert (E : v = sort_elems (map (fun x => as_index x (sg_id s)) (filter (fun x => mem_id (e_id x) (n :: l0)) (sg_elems s)))) by congruence.
    subst v. apply sort_elems_weak. }
  pose proof (delete_sorted_map now is topk deleted (so_tile _ _ HI) Hdw Hdg) as Hds.
  assert (Hds' : delete_sorted now is deleted = map (del_in now deleted) is).
  { apply Hds. intros x Hx. rewrite Forall_forall in Hdg. apply key_le_top. apply Hdg in Hx. unfold good_in in Hx. tauto. }
  assert (HFi : map frame (map (del_in now deleted) is) = map frame is).
  { rewrite map_map. apply map_ext. apply del_in_frame. }
  assert (HTi : stepped now is (map (del_in now deleted) is)).
  { apply stepped_map. intros s. unfold del_in. destruct (filter (inr s) deleted); [auto|]. right. eauto. }
  assert (Hci : changed (fun _ => False) (fun id => In id ids) is (map (del_in now deleted) is)).
  { intros i s s' Hi Hi'. rewrite nth_error_map, Hi in Hi'. cbn in Hi'.
    assert (E : s' = del_in now deleted s) by congruence. subst s'.
    assert (Ee : sg_elems (del_in now deleted s) = filter (fun q => negb (mem_id (e_id q) (map e_id (filter (inr s) deleted)))) (sg_elems s)).
    { unfold del_in. destruct (filter (inr s) deleted); [|reflexivity]. symmetry. apply filter_all. reflexivity. }
    rewrite Ee. split; [apply StronglySorted_filter; exact (proj1 (score_ok_seg_ranked Q is i s HI Hi))|].
    assert (Hm : forall q, In q (sg_elems s) -> mem_id (e_id q) (map e_id (filter (inr s) deleted)) = true <-> In (e_id q) ids).
    { intros q Hq. rewrite mem_id_spec. split.
      - intros H. apply in_map_iff in H as (y & Ey & Hy). apply filter_In in Hy as (Hy & _).
        apply Hdel in Hy as (j & t & x & _ & _ & Hx & ->). cbn in Ey. rewrite <- Ey. exact Hx.
      - intros H. destruct (score_ok_seg _ _ s q HI (nth_error_In _ _ Hi) Hq) as (Qq & Rq).
        destruct (proj1 (c_link _ _ _ _ HC (e_id q) (e_tie q))) as (t & x & Ht & Hx & Ex' & Et); [eauto|].
        apply In_nth_error in Ht as (j & Hj).
        rewrite <- Ex'. change (e_id x) with (e_id (as_index x (sg_id t))). apply in_map. apply filter_In. split.
        + apply Hdel. exists j, t, x. rewrite Ex'. auto.
        + apply inr_spec. eapply in_range_key; [| |exact Rq]; cbn; [|exact Et].
          destruct (c_form _ _ _ _ HC q Qq) as (-> & _). exact Ex'. }
    intros x. rewrite filter_In. split.
    - intros (Hx & Hn). right. split; [exact Hx|]. intros C. apply (Hm x Hx) in C. rewrite C in Hn. discriminate.
    - intros [(F & _)|(Hx & Hn)]; [contradiction|]. split; [exact Hx|].
      destruct (mem_id (e_id x) (map e_id (filter (inr s) deleted))) eqn:E; [|reflexivity]. exfalso. apply Hn, (Hm x Hx), E. }
  assert (HC' : exists Q', core (fun x => P x /\ ~ In (e_id x) ids) Q' (mapi f ss) (map (del_in now deleted) is)).
  { exists (apply_change Q (fun _ => False) (fun id => In id ids)).
    eapply core_ext; [|eapply (core_change P Q ss is _ _ (fun _ => False) (fun _ => False) (fun id => In id ids) HC HFs HFi Hcs Hci)];
      try (intros; contradiction).
    - intros x. unfold apply_change. tauto.
    - intros x y [].
    - intros x y [].
    - intros id t. split; [intros (q & [] & _)|intros (s & x & _ & [] & _)]. }
  assert (Eres : (match deleted with
    | [] => set_both l (set_segs (reindex (l_scores l)) (mapi f ss)) (l_index l)
    | _ => set_both l (set_segs (reindex (l_scores l)) (mapi f ss)) (set_segs (l_index l) (delete_sorted now is deleted)) end)
    = set_both l (set_segs (reindex (l_scores l)) (mapi f ss)) (set_segs (l_index l) (map (del_in now deleted) is))).
  { destruct deleted as [|d0 dr] eqn:Ed; [|rewrite <- Hds'; reflexivity]. f_equal.
    assert (E : map (del_in now []) is = is) by (rewrite <- (map_id is) at 2; apply map_ext; reflexivity).
    rewrite E. unfold is, set_segs. destruct (l_index l); reflexivity. }
  unfold deleted in Eres. unfold groups, g in Eres. unfold f in Eres at 1 2 3.
  refine (eq_ind_r (fun r => Inv _ r) _ Eres). clear Eres.
  unfold set_segs. rewrite En, Ex, Eb, Ei.
  rewrite set_both_eta; [|cbn; apply HInv|cbn; apply HInv].
  split; cbn [l_scores l_index l_scores_id l_index_id l_merge l_split ss_id ss_segs ss_index ss_idx ss_next];
    try apply HInv.
  - exact HC'.
  - apply meta_step with now; auto. apply HInv.
  - apply meta_step with now; auto; [apply HInv|apply (m_idx _ (i_mi _ _ HInv))].
Qed.
