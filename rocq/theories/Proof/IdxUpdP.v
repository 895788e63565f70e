(** updateIndexElements points index entries at new segments. *)
From Coq Require Import Strings.String.
From Verif.Lib Require Import Prelude ListAux ListLemmas SortLemmas Perm.
From Verif.Model Require Import Element Elements Segment List.
From Verif.Spec Require Import RankSpec QuerySpec.
From Verif.Proof Require Import ElementP ElementsP ElementsThm SegP InvDef QueryP LookupP ChangeP UpdateP UpdateInv DeleteP BuildP SplitP.
Open Scope N_scope.

Definition upd1 (now : N) (us : list upd_entry) (x : element) : element :=
  match assoc (e_score x) us with
  | Some t => mkE (e_score x) (e_id x) (e_payload x) t now
  | None => x
  end.

Lemma upd1_score now us x : e_score (upd1 now us x) = e_score x.
Proof. unfold upd1. destruct (assoc _ _); reflexivity. Qed.
Lemma upd1_id now us x : e_id (upd1 now us x) = e_id x.
Proof. unfold upd1. destruct (assoc _ _); reflexivity. Qed.
Lemma upd1_payload now us x : e_payload (upd1 now us x) = e_payload x.
Proof. unfold upd1. destruct (assoc _ _); reflexivity. Qed.

Definition strict (e : elements) : Prop := StronglySorted (fun x y => e_score y < e_score x) e.

Lemma strict_upd now us e : strict e -> strict (map (upd1 now us) e).
Proof.
  unfold strict. induction 1 as [|x r Hr IH Hf]; cbn; constructor; [exact IH|].
  rewrite Forall_forall in *. intros y Hy. apply in_map_iff in Hy as (z & <- & Hz). rewrite !upd1_score. auto.
Qed.

Lemma assoc_app {B} k (a b : list (N * B)) :
  assoc k (a ++ b) = match assoc k a with Some v => Some v | None => assoc k b end.
Proof. induction a as [|(k' & v) r IH]; cbn; [reflexivity|]. destruct (k' =? k); auto. Qed.
Lemma assoc_not_in {B} k (a : list (N * B)) : ~ In k (map fst a) -> assoc k a = None.
Proof.
  induction a as [|(k' & v) r IH]; cbn; [reflexivity|]. intros H. destruct (N.eqb_spec k' k) as [->|]; [exfalso; auto|].
  apply IH. tauto.
Qed.
Lemma assoc_in {B} k v (a : list (N * B)) : NoDup (map fst a) -> In (k, v) a -> assoc k a = Some v.
Proof.
  induction a as [|(k' & v') r IH]; cbn; [contradiction|]. intros Hn [E|H].
  - injection E as -> ->. rewrite N.eqb_refl. reflexivity.
  - apply NoDup_cons_iff in Hn as (A & B1). destruct (N.eqb_spec k' k) as [->|]; [|auto].
    exfalso. apply A. apply in_map_iff. exists (k, v). auto.
Qed.
Lemma assoc_iff {B} k v (a : list (N * B)) : NoDup (map fst a) -> assoc k a = Some v <-> In (k, v) a.
Proof. intros H. split; [apply assoc_Some|apply assoc_in; exact H]. Qed.
Lemma assoc_ext {B} k (a b : list (N * B)) : NoDup (map fst a) -> NoDup (map fst b) ->
  (forall v, In (k, v) a <-> In (k, v) b) -> assoc k a = assoc k b.
Proof.
  intros Ha Hb H. destruct (assoc k a) as [v|] eqn:E.
  - symmetry. apply assoc_in; [exact Hb|]. apply H. apply assoc_Some. exact E.
  - destruct (assoc k b) as [v|] eqn:E2; [|reflexivity]. exfalso. eapply assoc_None; [exact E|]. apply H. apply assoc_Some. exact E2.
Qed.

Lemma apply_upd_cons now u x r :
  apply_upd now u (x :: r) =
  if e_score x =? fst u then mkE (e_score x) (e_id x) (e_payload x) (snd u) now :: r
  else x :: apply_upd now u r.
Proof.
  unfold apply_upd, find_score_idx. cbn [find_idx]. destruct (e_score x =? fst u); [reflexivity|].
  destruct (find_idx _ r); reflexivity.
Qed.
Lemma apply_upd_map now u e : strict e -> apply_upd now u e = map (upd1 now [u]) e.
Proof.
  unfold strict. induction 1 as [|x r Hr IH Hf]; [reflexivity|]. rewrite apply_upd_cons. cbn [map].
  destruct u as (k & t). cbn [fst snd] in *. unfold upd1 at 1. cbn [assoc]. rewrite (N.eqb_sym k).
  destruct (N.eqb_spec (e_score x) k) as [E|Hne].
  - f_equal. rewrite <- (map_id r) at 1. apply map_ext_in. intros y Hy. rewrite Forall_forall in Hf. specialize (Hf y Hy).
    unfold upd1. cbn [assoc]. destruct (N.eqb_spec k (e_score y)); [lia|reflexivity].
  - rewrite IH. reflexivity.
Qed.
Lemma upd1_app now a b x : (In (e_score x) (map fst a) -> ~ In (e_score x) (map fst b)) ->
  upd1 now b (upd1 now a x) = upd1 now (a ++ b) x.
Proof.
  intros H. unfold upd1 at 1. rewrite upd1_score. unfold upd1. rewrite assoc_app.
  destruct (assoc (e_score x) a) as [v|] eqn:E.
  - rewrite (assoc_not_in _ b); [reflexivity|]. apply H. apply assoc_Some in E. apply in_map_iff. exists (e_score x, v). auto.
  - reflexivity.
Qed.
Lemma apply_fold now : forall us e, strict e -> NoDup (map fst us) ->
  fold_left (fun e u => apply_upd now u e) us e = map (upd1 now us) e.
Proof.
  induction us as [|u us IH]; intros e He Hn; cbn [fold_left].
  - rewrite <- (map_id e) at 1. reflexivity.
  - rewrite apply_upd_map by exact He. cbn [map] in Hn. apply NoDup_cons_iff in Hn as (Hu & Hn).
    rewrite IH; [|apply strict_upd; exact He|exact Hn]. rewrite map_map. apply map_ext. intros x.
    rewrite upd1_app; [reflexivity|]. cbn. intros [<-|[]]. exact Hu.
Qed.

(** ** groups *)
Lemma cut_groups_spec : forall groups us, concat (map snd groups) = map fst us ->
  concat (map snd (cut_groups us groups)) = us /\
  Forall (fun c => exists g, In g groups /\ fst g = fst c /\ snd g = map fst (snd c)) (cut_groups us groups).
Proof.
  induction groups as [|(i & g) r IH]; intros us E; cbn [cut_groups map concat snd] in *.
  - split; [|constructor]. destruct us; [reflexivity|discriminate].
  - assert (E1 : map fst (firstn (length g) us) = g).
    { rewrite <- firstn_map, <- E. replace (length g) with (length g + 0)%nat by lia. rewrite firstn_app_2. cbn. apply app_nil_r. }
    assert (E2 : concat (map snd r) = map fst (skipn (length g) us)).
    { rewrite <- skipn_map, <- E. rewrite skipn_app, Nat.sub_diag, skipn_all. reflexivity. }
    destruct (IH _ E2) as (A & B). split; [change (firstn (length g) us ++ concat (map snd (cut_groups (skipn (length g) us) r)) = us); rewrite A; apply firstn_skipn|]. constructor.
    + exists (i, g). cbn. auto.
    + eapply Forall_impl; [|exact B]. intros c (g' & H1 & H2 & H3). exists g'. cbn. auto.
Qed.

Definition upd_group (now : N) (l : list seg) (g : nat * list upd_entry) : list seg :=
  match snd g with
  | [] => l
  | in_ => upd_nth (fst g) (fun s =>
             touch now (set_elems (fun e => fold_left (fun e u => apply_upd now u e) in_ e) s)) l
  end.
Definition upd_groups (now : N) (gs : list (nat * list upd_entry)) (l : list seg) : list seg :=
  fold_left (upd_group now) gs l.
Definition at_seg (j : nat) (gs : list (nat * list upd_entry)) : list upd_entry :=
  concat (map snd (filter (fun g => Nat.eqb (fst g) j) gs)).

Lemma at_seg_In j gs u : In u (at_seg j gs) <-> exists g, In g gs /\ fst g = j /\ In u (snd g).
Proof.
  unfold at_seg. rewrite in_concat. split.
  - intros (x & Hx & Hu). apply in_map_iff in Hx as (g & <- & Hg). apply filter_In in Hg as (Hg & E).
    apply Nat.eqb_eq in E. eauto.
  - intros (g & Hg & E & Hu). exists (snd g). split; [|exact Hu]. apply in_map. apply filter_In. split; [exact Hg|].
    apply Nat.eqb_eq. exact E.
Qed.
Lemma NoDup_at_seg j gs : NoDup (map fst (concat (map snd gs))) -> NoDup (map fst (at_seg j gs)).
Proof.
  unfold at_seg, upd_entry in *. induction gs as [|g r IH]; [auto|]. cbn [map concat filter]. rewrite map_app. intros H.
  apply NoDup_app_iff in H as (A & B & C). destruct (Nat.eqb (fst g) j); [|auto]. cbn [map concat]. rewrite map_app.
  apply NoDup_app_intro; [exact A|auto|]. intros x H1 H2. apply (C x H1).
  apply in_map_iff in H2 as (u & <- & Hu). apply in_map. change (In u (at_seg j r)) in Hu. apply at_seg_In in Hu as (g' & G1 & _ & G3).
  apply in_concat. exists (snd g'). split; [apply in_map; exact G1|exact G3].
Qed.

Lemma upd_groups_spec now : forall gs l j s,
  NoDup (map fst (concat (map snd gs))) -> Forall (fun s => strict (sg_elems s)) l -> nth_error l j = Some s ->
  exists s', nth_error (upd_groups now gs l) j = Some s' /\ frame s' = frame s /\
    sg_elems s' = map (upd1 now (at_seg j gs)) (sg_elems s) /\
    (s' = s \/ (sg_n s' = length (sg_elems s') /\ sg_upd s' = now /\ sg_parent s' = sg_parent s)).
Proof.
  unfold at_seg, upd_entry in *. induction gs as [|g gs IH]; intros l j s Hn Hst Hj; cbn [upd_groups fold_left].
  - exists s. split; [exact Hj|]. split; [reflexivity|]. split; [|auto]. rewrite <- (map_id (sg_elems s)) at 1. reflexivity.
  - cbn [map concat] in Hn. rewrite map_app in Hn. apply NoDup_app_iff in Hn as (N1 & N2 & N3).
    assert (Hl1 : exists l1, upd_group now l g = l1 /\ Forall (fun s => strict (sg_elems s)) l1 /\
              exists s1, nth_error l1 j = Some s1 /\ frame s1 = frame s /\
                 sg_elems s1 = map (upd1 now (if Nat.eqb (fst g) j then snd g else [])) (sg_elems s) /\
                 (s1 = s \/ (sg_n s1 = length (sg_elems s1) /\ sg_upd s1 = now /\ sg_parent s1 = sg_parent s))).
    { eexists. split; [reflexivity|].
      set (f := fun s => touch now (set_elems (fun e => fold_left (fun e u => apply_upd now u e) (snd g) e) s)).
      assert (Hf : forall t, In t l -> sg_elems (f t) = map (upd1 now (snd g)) (sg_elems t)).
      { intros t Ht. unfold f. cbn. apply apply_fold; [|exact N1]. rewrite Forall_forall in Hst. auto. }
      assert (Eid : map (upd1 now []) (sg_elems s) = sg_elems s) by (rewrite <- (map_id (sg_elems s)) at 2; reflexivity).
      assert (Eu : upd_group now l g = match snd g with [] => l | _ => upd_nth (fst g) f l end).
      { unfold f, upd_group. destruct g as (gi & [|gu gr]); reflexivity. }
      rewrite Eu. clear Eu.
      destruct (snd g) as [|u0 ur] eqn:Eg.
      - split; [exact Hst|]. exists s. split; [exact Hj|]. split; [reflexivity|]. split; [|auto].
        destruct (Nat.eqb (fst g) j); auto.
      - split.
        + apply Forall_forall. intros t Ht. apply In_nth_error in Ht as (k & Hk). rewrite upd_nth_nth in Hk.
          rewrite Forall_forall in Hst.
          destruct (Nat.eqb_spec (fst g) k) as [Ek|]; [|apply Hst; eapply nth_error_In; eauto].
          destruct (nth_error l k) as [t0|] eqn:E0; [|discriminate]. cbn in Hk. assert (Et : t = f t0) by congruence.
          subst t. rewrite (Hf t0) by (eapply nth_error_In; eauto). apply strict_upd. apply Hst. eapply nth_error_In; eauto.
        + rewrite upd_nth_nth. destruct (Nat.eqb_spec (fst g) j) as [Ej|Hne].
          * rewrite Hj. cbn [option_map]. exists (f s). split; [reflexivity|]. split; [reflexivity|].
            split; [apply Hf; eapply nth_error_In; eauto|]. right. unfold f. cbn. auto.
          * exists s. split; [exact Hj|]. split; [reflexivity|]. split; [auto|auto]. }
    destruct Hl1 as (l1 & -> & Hst1 & s1 & Hs1 & F1 & E1 & T1).
    destruct (IH l1 j s1 N2 Hst1 Hs1) as (s' & Hs' & F' & E' & T').
    exists s'. split; [exact Hs'|]. split; [congruence|]. split.
    + rewrite E', E1, map_map. apply map_ext. intros x. unfold at_seg. cbn [filter].
      destruct (Nat.eqb (fst g) j) eqn:Ej; cbn [map concat].
      * apply upd1_app. intros A B. apply (N3 _ A). apply in_map_iff in B as (u & Eu & Hu). rewrite <- Eu. apply in_map.
        apply at_seg_In in Hu as (g' & G1 & _ & G3). apply in_concat. exists (snd g'). split; [apply in_map; exact G1|exact G3].
      * reflexivity.
    + destruct T' as [->|(A & B & C)]; [exact T1|]. right. split; [exact A|]. split; [exact B|].
      destruct T1 as [->|(_ & _ & D)]; [exact C|congruence].
Qed.

Lemma upd_groups_length now : forall gs l, length (upd_groups now gs l) = length l.
Proof.
  induction gs as [|g gs IH]; intros l; cbn [upd_groups fold_left]; [reflexivity|].
  change (length (upd_groups now gs (upd_group now l g)) = length l).
  rewrite IH. unfold upd_group. destruct (snd g); [reflexivity|]. apply upd_nth_length.
Qed.

Lemma frames_ext l l' : length l' = length l ->
  (forall j s, nth_error l j = Some s -> exists s', nth_error l' j = Some s' /\ frame s' = frame s) -> map frame l' = map frame l.
Proof.
  revert l'. induction l as [|s r IH]; intros [|s' r'] HL H; try discriminate; [reflexivity|]. cbn [map].
  destruct (H 0%nat s eq_refl) as (t & Et & Ft). cbn in Et. assert (s' = t) by congruence. subst t. rewrite Ft. f_equal.
  apply IH; [cbn in HL; lia|]. intros j u Hu. apply (H (S j) u). exact Hu.
Qed.

(** ** updateIndexElements as a whole *)
Lemma update_index_spec now us is Q :
  score_ok Q is -> aligned is -> (forall q, Q q -> idx_elem q) ->
  NoDup (map fst us) -> (forall id, In id (map fst us) -> id <= max_u64) ->
  let xs := update_index_elements now us is in
  map frame xs = map frame is /\ stepped now is xs /\
  forall j s s', nth_error is j = Some s -> nth_error xs j = Some s' ->
    sg_elems s' = map (upd1 now us) (sg_elems s).
Proof.
  intros HS HA HF Hn Hb xs. unfold xs, update_index_elements. destruct us as [|u0 ur] eqn:Eus.
  { split; [reflexivity|]. split; [intros i s s' A B; left; congruence|].
    intros j s s' A B. replace s' with s by congruence. rewrite <- (map_id (sg_elems s)) at 1. reflexivity. }
  rewrite <- Eus in *. clear Eus u0 ur xs.
  set (vs := sort_by (fun a b : upd_entry => fst b <? fst a) us).
  assert (Hvp : Permutation vs us) by apply sort_by_perm.
  assert (Hvn : NoDup (map fst vs)) by (eapply Permutation_NoDup; [symmetry; apply Permutation_map; exact Hvp|exact Hn]).
  assert (Hvs : StronglySorted (fun x y => y < x) (map fst vs)).
  { assert (H : StronglySorted (fun a b : upd_entry => fst b <= fst a) vs).
    { eapply StronglySorted_impl_In; [|apply (sort_by_sorted (fun a b : upd_entry => fst b <? fst a))].
      - unfold lep. intros x y _ _ H. lia.
      - intros; lia.
      - intros; lia. }
    clear - H Hvn. induction H as [|x r Hr IH Hf]; cbn in *; constructor.
    - apply IH. apply NoDup_cons_iff in Hvn. tauto.
    - apply NoDup_cons_iff in Hvn as (Hx & _). rewrite Forall_forall in *. intros k Hk.
      assert (k <> fst x) by (intros ->; auto). apply in_map_iff in Hk as (y & <- & Hy). specialize (Hf y Hy). cbn in Hf. lia. }
  assert (Hb' : Forall (fun v => v <= max_u64) (map fst vs)).
  { apply Forall_forall. intros v Hv. apply Hb. eapply Permutation_in; [apply Permutation_map; exact Hvp|exact Hv]. }
  destruct (split_scores_spec is (map fst vs) (so_tile _ _ HS) HA Hb') as (G1 & _ & G3).
  assert (Esort : sort_ids_desc (map fst vs) = map fst vs).
  { apply (sorted_unique (fun x y => y < x)); [intros; lia|intros; lia|apply sort_ids_desc_NoDup; exact Hvn|exact Hvs|].
    intros x. apply sort_ids_desc_In. }
  rewrite Esort in G1. destruct (cut_groups_spec _ _ G1) as (C1 & C2).
  set (gs := cut_groups vs (split_scores is (map fst vs))) in *.
  change (map frame (upd_groups now gs is) = map frame is /\ stepped now is (upd_groups now gs is) /\
    forall j s s', nth_error is j = Some s -> nth_error (upd_groups now gs is) j = Some s' ->
      sg_elems s' = map (upd1 now us) (sg_elems s)).
  assert (Hst : Forall (fun s => strict (sg_elems s)) is).
  { apply Forall_forall. intros s Hs. unfold strict.
    pose proof (score_ok_ranked _ _ HS) as HR. pose proof (score_ok_distinct _ _ HS) as HD.
    assert (HP : forall x, In x (sg_elems s) -> Q x) by (intros x Hx; eapply score_ok_seg; eauto).
    apply in_split in Hs as (a & b & E). rewrite E, elems_of_app, elems_of_cons in HR, HD.
    apply StronglySorted_app in HR as (_ & HR & _). apply StronglySorted_app in HR as (HR & _).
    apply distinct_ids_app_r, distinct_ids_app_l in HD.
    clear - HR HD HP HF. unfold distinct_ids in HD. induction HR as [|x r Hr IH Hf]; constructor.
    - inversion HD; subst. apply IH; auto. intros y Hy. apply HP. right; exact Hy.
    - rewrite Forall_forall in *. intros y Hy. specialize (Hf y Hy). inversion HD as [|? ? A B]; subst.
      assert (e_id y <> e_id x) by (intros C; apply A; rewrite <- C; apply in_map; exact Hy).
      destruct (HF x) as (Fx & _); [apply HP; left; reflexivity|].
      destruct (HF y) as (Fy & _); [apply HP; right; exact Hy|]. unfold Above in Hf. lia. }
  assert (Hgn : NoDup (map fst (concat (map snd gs)))) by (rewrite C1; exact Hvn).
  assert (Hall : forall j s, nth_error is j = Some s -> exists s', nth_error (upd_groups now gs is) j = Some s' /\ frame s' = frame s /\
    sg_elems s' = map (upd1 now (at_seg j gs)) (sg_elems s) /\
    (s' = s \/ (sg_n s' = length (sg_elems s') /\ sg_upd s' = now /\ sg_parent s' = sg_parent s))).
  { intros j s Hj. apply upd_groups_spec; auto. }
  split; [|split].
  - apply frames_ext; [apply upd_groups_length|]. intros j s Hj. destruct (Hall j s Hj) as (s' & A & B & _). eauto.
  - intros j s s' Hj Hj'. destruct (Hall j s Hj) as (t & A & _ & _ & D). assert (t = s') by congruence. subst t. exact D.
  - intros j s s' Hj Hj'. destruct (Hall j s Hj) as (t & A & _ & D & _). assert (t = s') by congruence. subst t.
    rewrite D. apply map_ext_in. intros x Hx. unfold upd1.
    replace (assoc (e_score x) (at_seg j gs)) with (assoc (e_score x) us); [reflexivity|].
    apply assoc_ext; [exact Hn|apply NoDup_at_seg; exact Hgn|]. intros v.
    rewrite at_seg_In. split.
    + intros Hv. assert (Hv' : In (e_score x, v) (concat (map snd gs))) by (rewrite C1; eapply Permutation_in; [symmetry; exact Hvp|exact Hv]).
      apply in_concat in Hv' as (w & Hw & Hv'). apply in_map_iff in Hw as (g & <- & Hg). exists g.
      split; [exact Hg|]. split; [|exact Hv']. rewrite Forall_forall in C2, G3. destruct (C2 g Hg) as (g0 & Hg0 & F0 & S0).
      destruct (G3 g0 Hg0) as (_ & t & Ht & Ho). rewrite S0 in Ho. rewrite Forall_forall in Ho.
      specialize (Ho (e_score x) (in_map fst _ _ Hv')). rewrite F0 in Ht.
      destruct (score_ok_seg _ _ _ _ HS (nth_error_In _ _ Hj) Hx) as (Qx & Rx).
      pose proof (tile_from_widths _ _ (so_tile _ _ HS)) as Hw. rewrite Forall_forall in Hw.
      assert (Rt : in_range t x).
      { apply aligned_in_range; [eapply aligned_one; [exact HA|eapply nth_error_In; eauto]|apply Hw; eapply nth_error_In; eauto| |exact Ho].
        apply good_ok, (so_good _ _ HS). exact Qx. }
      eapply tile_from_unique; [apply (so_tile _ _ HS)|exact Ht|exact Hj|exact Rt|exact Rx].
    + intros (g & Hg & _ & Hv). eapply Permutation_in; [exact Hvp|]. rewrite <- C1. apply in_concat. exists (snd g).
      split; [apply in_map; exact Hg|exact Hv].
Qed.

(** segments whose entries were pointed at other segments *)
Lemma relabel_ok now us is xs Q :
  score_ok Q is -> aligned is -> (forall q, Q q -> idx_elem q) ->
  (forall id t, In (id, t) us -> id <= max_u64 /\ t <= max_u32) -> 0 < now < max_u32 ->
  map frame xs = map frame is ->
  (forall j s s', nth_error is j = Some s -> nth_error xs j = Some s' -> sg_elems s' = map (upd1 now us) (sg_elems s)) ->
  score_ok (fun q' => exists q, Q q /\ q' = upd1 now us q) xs.
Proof.
  intros HS HA HF Hb Hnow E1 E3.
  assert (Hkey : forall q s, Q q -> in_range s q -> In s is -> in_range s (upd1 now us q)).
  { intros q s Qq Rq Hs. pose proof (tile_from_widths _ _ (so_tile _ _ HS)) as Hw. rewrite Forall_forall in Hw.
    unfold upd1. destruct (assoc (e_score q) us) as [t|] eqn:Et; [|exact Rq].
    apply aligned_in_range; [eapply aligned_one; eauto|auto| |].
    - pose proof (good_ok _ (so_good _ _ HS q Qq)) as Ho. apply assoc_Some in Et. destruct (Hb _ _ Et).
      unfold elem_ok in *. cbn. unfold max_u32 in *. lia.
    - cbn. apply aligned_in_range in Rq; [exact Rq|eapply aligned_one; eauto|auto|]. apply good_ok, (so_good _ _ HS). exact Qq. }
  split.
  - eapply tile_frames; [exact E1|apply HS].
  - apply Forall_forall. intros s' Hs'. apply In_nth_error in Hs' as (j & Hj).
    destruct (frames_nth _ _ _ _ E1 Hj) as (s & Hs & Fs). destruct (frame_eq _ _ Fs) as (_ & _ & _ & _ & Rs & _).
    pose proof (holds_nth _ _ _ _ (so_holds _ _ HS) Hs) as (Hr & Hx).
    split.
    + rewrite (E3 j s s' Hs Hj).
      assert (Hst : strict (sg_elems s)).
      { unfold strict. pose proof (score_ok_distinct _ _ HS) as HD. pose proof (nth_error_In _ _ Hs) as Hin.
        apply in_split in Hin as (a & b & E). rewrite E, elems_of_app, elems_of_cons in HD.
        apply distinct_ids_app_r, distinct_ids_app_l in HD.
        assert (HQ : forall x, In x (sg_elems s) -> Q x) by (intros x Hxx; apply Hx; exact Hxx).
        clear - Hr HD HQ HF. unfold distinct_ids in HD. induction Hr as [|x r Hr IH Hf]; constructor.
        - inversion HD; subst. apply IH; auto. intros y Hy. apply HQ. right; exact Hy.
        - rewrite Forall_forall in *. intros y Hy. specialize (Hf y Hy). inversion HD as [|? ? A B]; subst.
          assert (e_id y <> e_id x) by (intros C; apply A; rewrite <- C; apply in_map; exact Hy).
          destruct (HF x) as (Fx & _); [apply HQ; left; reflexivity|].
          destruct (HF y) as (Fy & _); [apply HQ; right; exact Hy|]. unfold Above in Hf. lia. }
      apply (strict_upd now us) in Hst. unfold strict in Hst. eapply StronglySorted_impl_In; [|exact Hst].
      intros x y _ _ H. cbn beta in H. unfold Above. lia.
    + intros q'. rewrite (E3 j s s' Hs Hj), in_map_iff, Rs. split.
      * intros (q & <- & Hq). apply Hx in Hq as (Qq & Rq). split; [eauto|]. apply Hkey; auto. eapply nth_error_In; eauto.
      * intros ((q & Qq & ->) & Rq). exists q. split; [reflexivity|]. apply Hx. split; [exact Qq|].
        destruct (tile_from_locate _ _ (key q) (so_tile _ _ HS)) as (k & t & Hk & Rt);
          [apply key_le_top, good_ok, (so_good _ _ HS); exact Qq|].
        assert (k = j); [|subst k; replace s with t by congruence; exact Rt].
        eapply tile_from_unique; [apply (so_tile _ _ HS)|exact Hk|exact Hs| |exact Rq].
        apply Hkey; auto. eapply nth_error_In; eauto.
  - intros q' (q & Qq & ->). pose proof (so_good _ _ HS q Qq) as Hg. unfold upd1.
    destruct (assoc (e_score q) us) as [t|] eqn:Et; [|exact Hg]. apply assoc_Some in Et. destruct (Hb _ _ Et).
    unfold good, elem_ok in *. cbn. unfold max_u32 in *. lia.
  - intros x y (q & Qq & ->) (q2 & Q2 & ->). rewrite !upd1_id. intros E. f_equal. apply (so_uniq _ _ HS); auto.
Qed.

Lemma update_index_ok now us is Q :
  score_ok Q is -> aligned is -> (forall q, Q q -> idx_elem q) ->
  NoDup (map fst us) -> (forall id t, In (id, t) us -> id <= max_u64 /\ t <= max_u32) ->
  0 < now < max_u32 ->
  score_ok (fun q' => exists q, Q q /\ q' = upd1 now us q) (update_index_elements now us is).
Proof.
  intros HS HA HF Hn Hb Hnow.
  destruct (update_index_spec now us is Q HS HA HF Hn) as (E1 & _ & E3).
  { intros id Hid. apply in_map_iff in Hid as ((i & t) & <- & H). apply (Hb i t H). }
  apply (relabel_ok now us is); auto.
Qed.
