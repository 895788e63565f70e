(** Verify and VerifyElements: complete on valid lists, sound on proper ranges. *)
From Coq Require Import Strings.String.
From Verif.Lib Require Import Prelude ListAux ListLemmas SortLemmas Perm.
From Verif.Model Require Import Element Elements Segment List.
From Verif.Spec Require Import RankSpec QuerySpec.
From Verif.Proof Require Import ElementP ElementsP ElementsThm SegP InvDef QueryP LookupP ChangeP UpdateP UpdateInv DeleteP BuildP SplitP IdxUpdP.
Open Scope N_scope.

Lemma kk_inj a b c d : b <= max_u32 -> d <= max_u32 -> kk a b = kk c d -> a = c /\ b = d.
Proof. unfold kk, max_u32. lia. Qed.

Lemma no_dup_ids_spec l : no_dup_ids l = true <-> NoDup l.
Proof.
  induction l as [|x r IH]; cbn; [split; [constructor|reflexivity]|].
  rewrite andb_true_iff, negb_true_iff, IH, NoDup_cons_iff, <- mem_id_spec.
  destruct (mem_id x r); split; intros (A & B); split; auto; congruence.
Qed.

(** ** completeness *)
Lemma verify_from_complete isidx : forall l k prev seen,
  tile_from k l -> (isidx = true -> aligned l) -> NoDup (map sg_id l) ->
  (forall i, In i seen -> ~ In i (map sg_id l)) -> Forall (fun s => 0 < sg_upd s) l ->
  match prev with
  | None => k = topk
  | Some p => widths p /\ 0 < kmin p /\ k = kmin p - 1
  end ->
  verify_from isidx prev seen l = true.
Proof.
  induction l as [|v r IH]; intros k prev seen HT HA HN HS HU HP; [reflexivity|].
  cbn [tile_from] in HT. destruct HT as (Hk & Hle & Hw & Hr). cbn [verify_from].
  inversion HU as [|? ? Hu HU']; subst. cbn [map] in HN. apply NoDup_cons_iff in HN as (Hn1 & Hn2).
  apply andb_true_iff. split; [apply andb_true_iff; split; [apply andb_true_iff; split; [apply andb_true_iff; split|]|]|].
  - destruct (N.eqb_spec (sg_upd v) 0); [lia|reflexivity].
  - apply negb_true_iff. destruct (mem_id (sg_id v) seen) eqn:E; [|reflexivity]. apply mem_id_spec in E.
    exfalso. apply (HS _ E). left; reflexivity.
  - destruct Hw as (W1 & W2 & W3 & W4). destruct prev as [p|].
    + destruct HP as ((P1 & P2 & P3 & P4) & Hpos & HP).
      destruct (prev_max_kk (sg_min p) (sg_mintie p) P1 Hpos) as (Q1 & Q2 & Q3).
      destruct (prev_max (sg_min p) (sg_mintie p)) as (ws & wt). cbn [fst snd] in *.
      assert (HE : kk (sg_max v) (sg_maxtie v) = kk ws wt) by (rewrite Q1; exact HP).
      apply kk_inj in HE as (Ea & Eb); auto. rewrite <- Ea, <- Eb, !N.eqb_refl. cbn [andb].
      destruct isidx; [|reflexivity]. specialize (HA eq_refl). inversion HA as [|? ? (A1 & A2) _]; subst.
      rewrite A1, A2. reflexivity.
    + unfold topk in HP. apply kk_inj in HP as (Ea & Eb); [rewrite Ea, Eb; reflexivity|exact W2|unfold max_u32; lia].
  - destruct r as [|t r']; [|reflexivity]. unfold kmin, kk in Hr. assert (sg_min v = 0 /\ sg_mintie v = 0) as (-> & ->) by lia. reflexivity.
  - destruct r as [|t r']; [reflexivity|]. destruct Hr as (Hpos & Hr). eapply IH; [exact Hr| |exact Hn2| |exact HU'|auto].
    + intros H. specialize (HA H). inversion HA; auto.
    + intros i [<-|Hi]; [exact Hn1|]. intros C. apply (HS i Hi). right; exact C.
Qed.

Lemma verify_elems_seg_complete s : ranked (sg_elems s) -> Forall good (sg_elems s) -> widths s -> kmin s <= kmax s ->
  (forall x, In x (sg_elems s) -> in_range s x) -> sg_n s = length (sg_elems s) -> verify_elems_seg s = true.
Proof.
  intros Hr Hg Hw Hle Hin Hn. unfold verify_elems_seg.
  assert (Hwr : weakly_ranked (sg_elems s)) by (apply ranked_weakly; exact Hr).
  rewrite (proj2 (is_sorted_elems_spec _) Hwr), Hn, Nat.eqb_refl. cbn [andb].
  destruct (filter_idx s (sg_elems s)) as (a & b) eqn:E.
  assert (Hgi : Forall good_in (sg_elems s)) by (eapply Forall_impl; [|exact Hg]; apply good_good_in).
  destruct (filter_idx_spec s (sg_elems s) a b Hw Hle Hwr Hgi E) as (Hab & Hsl & Hz & _).
  destruct Hz as (Ha & Hsk); [intros x Hx; apply Hin in Hx; unfold in_range in Hx; lia|]. subst a.
  assert (Hb : skipn b (sg_elems s) = []).
  { rewrite Hsk. apply filter_none. intros x Hx. apply Hin in Hx. unfold in_range in Hx. lia. }
  assert (b = length (sg_elems s)).
  { pose proof (skipn_length b (sg_elems s)) as H. rewrite Hb in H. cbn in H. lia. }
  subst b. rewrite !Nat.eqb_refl. cbn [andb Nat.eqb]. apply forallb_forall. intros x Hx. rewrite Forall_forall in Hg. destruct (Hg x Hx) as (_ & ?).
  destruct (N.eqb_spec (e_upd x) 0); [lia|reflexivity].
Qed.

Lemma id_map_In s id t : In (id, t) (id_map s) <->
  exists g x, In g (ss_segs s) /\ In x (sg_elems g) /\ e_id x = id /\ t = (if ss_index s then e_tie x else sg_id g).
Proof.
  unfold id_map. rewrite in_flat_map. split.
  - intros (g & Hg & H). apply in_map_iff in H as (x & E & Hx). injection E as <- <-. exists g, x. auto.
  - intros (g & x & Hg & Hx & <- & ->). exists g. split; [exact Hg|]. apply in_map_iff. exists x. auto.
Qed.
Lemma id_map_fst s : map fst (id_map s) = map e_id (elems_of (ss_segs s)).
Proof.
  unfold id_map, elems_of. induction (ss_segs s) as [|g r IH]; [reflexivity|]. cbn [flat_map map concat].
  rewrite !map_app, IH, map_map. reflexivity.
Qed.

Lemma verify_complete P l : Inv P l -> verify l = true /\ verify_elements l = true.
Proof.
  intros HI. destruct (i_core _ _ HI) as (Q & HC). destruct HI as [_ HMs HMi Hfs Hfi Hns Hni Hsz].
  pose proof (c_s _ _ _ _ HC) as HS. pose proof (c_i _ _ _ _ HC) as HQ.
  assert (Hv : forall R s, meta s -> score_ok R (ss_segs s) -> (ss_index s = true -> aligned (ss_segs s)) -> verify_segs s = true).
  { intros R s HM HR HA. unfold verify_segs. pose proof (tile_nonempty _ (so_tile _ _ HR)).
    destruct (ss_segs s) as [|g r] eqn:E; [congruence|]. rewrite <- E in *.
    apply verify_from_complete with topk; auto; [apply HR|apply HM|].
    eapply Forall_impl; [|apply (m_segs _ HM)]. unfold seg_meta. tauto. }
  assert (Hp : forall s, meta s -> forallb (fun g => String.eqb (sg_parent g) (ss_id s)) (ss_segs s) = true).
  { intros s HM. apply forallb_forall. intros g Hg. pose proof (m_segs _ HM) as H. rewrite Forall_forall in H.
    destruct (H g Hg) as (_ & _ & ->). apply String.eqb_refl. }
  assert (Hne : forall s, meta s -> negb (String.eqb (ss_id s) "") = true).
  { intros s HM. apply negb_true_iff. apply String.eqb_neq. apply HM. }
  split.
  - unfold verify. rewrite <- Hns, <- Hni, !Hne, !String.eqb_refl, Hfs, Hfi, !Hp by assumption.
    rewrite (Hv P _ HMs HS) by (rewrite Hfs; discriminate). rewrite (Hv Q _ HMi HQ) by (intros _; apply (c_al _ _ _ _ HC)).
    destruct (Nat.leb_spec (l_merge l) (l_split l)); [reflexivity|lia].
  - assert (He : forall R s, meta s -> score_ok R (ss_segs s) -> verify_elements_segs s = Some (id_map s)).
    { intros R s HM HR. unfold verify_elements_segs.
      replace (forallb verify_elems_seg (ss_segs s)) with true.
      - replace (no_dup_ids (map fst (id_map s))) with true; [reflexivity|]. symmetry. apply no_dup_ids_spec.
        rewrite id_map_fst. apply (score_ok_distinct R). exact HR.
      - symmetry. apply forallb_forall. intros g Hg.
        pose proof (tile_from_widths _ _ (so_tile _ _ HR)) as Hw. pose proof (tile_from_le _ _ (so_tile _ _ HR)) as Hle.
        pose proof (meta_cnt _ HM) as Hc. unfold cnt_ok in Hc. rewrite Forall_forall in Hw, Hle, Hc.
        pose proof (so_holds _ _ HR) as Hh. unfold holds in Hh. rewrite Forall_forall in Hh. destruct (Hh g Hg) as (Hrg & Hxg).
        apply verify_elems_seg_complete; auto.
        + apply Forall_forall. intros x Hx. apply (so_good _ _ HR). apply Hxg. exact Hx.
        + intros x Hx. apply Hxg. exact Hx. }
    unfold verify_elements. rewrite (He P _ HMs HS), (He Q _ HMi HQ). apply andb_true_iff. split.
    + apply forallb_forall. intros (id & t) H. cbn [fst snd]. apply id_map_In in H as (g & x & Hg & Hx & Eid & Et).
      rewrite Hfs in Et. destruct (proj2 (c_link _ _ _ _ HC id t)) as (q & Hq & Eq & Etq); [exists g, x; auto|].
      assert (Hin : In (id, t) (id_map (l_index l))).
      { apply id_map_In. rewrite <- (score_ok_In Q _ q HQ) in Hq. apply elems_of_In in Hq as (gi & Hgi & Hqi).
        exists gi, q. rewrite Hfi. auto. }
      rewrite (assoc_in id t); [apply N.eqb_refl| |exact Hin]. rewrite id_map_fst. apply (score_ok_distinct Q). exact HQ.
    + apply forallb_forall. intros (id & t) H. cbn [fst snd]. apply id_map_In in H as (g & q & Hg & Hq & Eid & Et).
      rewrite Hfi in Et. apply mem_id_spec.
      destruct (proj1 (c_link _ _ _ _ HC id t)) as (s & x & Hs & Hx & Ex & Es).
      { exists q. split; [|auto]. eapply score_ok_seg; eauto. }
      apply in_map_iff. exists (id, t). split; [reflexivity|]. apply id_map_In. exists s, x. rewrite Hfs. auto.
Qed.

(** ** soundness *)
(** Bounds that Go's integer types guarantee, plus update time before 2^32-1 *)
Definition typed (l : list seg) : Prop :=
  Forall (fun s => widths s /\ sg_id s <= max_u32 /\
                   Forall (fun x => elem_ok x /\ e_upd x < max_u32) (sg_elems s)) l.
(** What Verify does not check: every range has its bounds the right way round and
    only the last one reaches down to (0,0). *)
Definition proper (l : list seg) : Prop :=
  Forall (fun s => kmin s <= kmax s) l /\ forall a s t b, l = a ++ s :: t :: b -> 0 < kmin s.

Lemma proper_tail s l : proper (s :: l) -> proper l.
Proof.
  intros (A & B). inversion A; subst. split; [assumption|]. intros a u t b E. apply (B (s :: a) u t b). rewrite E. reflexivity.
Qed.

Lemma verify_from_sound isidx : forall l k prev seen,
  Forall widths l -> proper l -> l <> [] -> verify_from isidx prev seen l = true ->
  match prev with
  | None => k = topk
  | Some p => widths p /\ 0 < kmin p /\ k = kmin p - 1
  end ->
  tile_from k l /\ NoDup (map sg_id l) /\ (forall i, In i seen -> ~ In i (map sg_id l)) /\
  Forall (fun s => 0 < sg_upd s) l /\
  (isidx = true -> match prev with None => True | Some p => sg_mintie p = 0 end /\ aligned l).
Proof.
  induction l as [|v r IH]; intros k prev seen HW HPr Hne HV HP; [congruence|].
  cbn [verify_from] in HV. rewrite !andb_true_iff in HV. destruct HV as ((((H1 & H2) & H3) & H4) & H5).
  inversion HW as [|? ? Hw HW']; subst. pose proof Hw as (W1 & W2 & W3 & W4).
  assert (Hle : kmin v <= kmax v) by (destruct HPr as (A & _); inversion A; auto).
  assert (Hk : kmax v = k).
  { destruct prev as [p|].
    - destruct HP as ((P1 & P2 & P3 & P4) & Hpos & ->).
      destruct (prev_max_kk (sg_min p) (sg_mintie p) P1 Hpos) as (Q1 & Q2 & Q3).
      destruct (prev_max (sg_min p) (sg_mintie p)) as (ws & wt). cbn [fst snd] in *.
      unfold kmax. fold (kmin p) in Q1. rewrite <- Q1. f_equal; [|]; lia.
    - subst k. unfold kmax, topk. f_equal; lia. }
  assert (Hseen : ~ In (sg_id v) seen).
  { intros C. apply mem_id_spec in C. rewrite C in H2. discriminate. }
  assert (Hup : 0 < sg_upd v) by lia.
  assert (Hal : isidx = true -> match prev with None => sg_maxtie v = max_u32 | Some p => sg_mintie p = 0 /\ sg_mintie v = 0 /\ sg_maxtie v = max_u32 end).
  { intros ->. destruct prev as [p|]; [|lia].
    unfold prev_max in H3. destruct HP as ((P1 & _) & Hpos & _). unfold kmin, kk in Hpos.
    destruct ((sg_min p =? 0) && (sg_mintie p =? 0)) eqn:E1; [lia|].
    destruct (sg_mintie p =? 0) eqn:E2; unfold max_u32 in *; lia. }
  destruct r as [|t r'].
  - split; [cbn; unfold kmin, kk; split; [exact Hk|]; split; [exact Hle|]; split; [exact Hw|lia]|].
    split; [repeat constructor; auto|]. split; [intros i Hi [C|[]]; subst; auto|]. split; [auto|].
    intros Hi. specialize (Hal Hi). destruct prev as [p|].
    + split; [tauto|]. constructor; [tauto|constructor].
    + split; [exact I|]. constructor; [lia|constructor].
  - assert (Hpos : 0 < kmin v) by (destruct HPr as (_ & B); apply (B [] v t r' eq_refl)).
    destruct (IH (kmin v - 1) (Some v) (sg_id v :: seen) HW' (proper_tail _ _ HPr) ltac:(discriminate) H5) as (A & B & C & D & E);
      [auto|].
    split; [cbn [tile_from]; split; [exact Hk|]; split; [exact Hle|]; split; [exact Hw|]; split; [exact Hpos|exact A]|].
    split; [cbn [map] in *; constructor; [apply (C (sg_id v)); left; reflexivity|exact B]|].
    split; [intros i Hi [Ci|Ci]; [subst; auto|apply (C i (or_intror Hi) Ci)]|].
    split; [constructor; assumption|]. intros Hi. specialize (Hal Hi). destruct (E Hi) as (E1 & E2).
    destruct prev as [p|].
    + split; [tauto|]. constructor; [tauto|exact E2].
    + split; [exact I|]. constructor; [auto|exact E2].
Qed.

Lemma verify_elems_sound s : widths s -> kmin s <= kmax s -> Forall (fun x => elem_ok x /\ e_upd x < max_u32) (sg_elems s) ->
  verify_elems_seg s = true ->
  weakly_ranked (sg_elems s) /\ sg_n s = length (sg_elems s) /\ (forall x, In x (sg_elems s) -> in_range s x) /\
  Forall (fun x => 0 < e_upd x) (sg_elems s).
Proof.
  intros Hw Hle Hg H. unfold verify_elems_seg in H. rewrite !andb_true_iff in H. destruct H as (((H1 & H2) & H3) & H4).
  apply is_sorted_elems_spec in H1. apply Nat.eqb_eq in H2.
  split; [exact H1|]. split; [exact H2|]. split.
  - destruct (filter_idx s (sg_elems s)) as (a & b) eqn:E.
    destruct (filter_idx_spec s (sg_elems s) a b Hw Hle H1) as (Hab & Hsl & _); [exact Hg|exact E|].
    apply andb_true_iff in H3 as (H3 & H3'). apply Nat.eqb_eq in H3, H3'. subst a b.
    intros x Hx. assert (Hx2 : In x (slice (sg_elems s) 0 (length (sg_elems s)))).
    { unfold slice. cbn [skipn]. rewrite Nat.sub_0_r, firstn_all. exact Hx. }
    rewrite Hsl in Hx2. apply filter_In in Hx2 as (_ & Hx2). apply inr_spec. exact Hx2.
  - rewrite forallb_forall in H4. apply Forall_forall. intros x Hx. specialize (H4 x Hx). lia.
Qed.

Lemma verify_elements_sound s R : typed (ss_segs s) -> proper (ss_segs s) -> verify_segs s = true ->
  verify_elements_segs s = Some R ->
  score_ok (fun x => In x (elems_of (ss_segs s))) (ss_segs s) /\ R = id_map s /\ cnt_ok (ss_segs s) /\
  NoDup (map sg_id (ss_segs s)) /\ (ss_index s = true -> aligned (ss_segs s)).
Proof.
  intros HT HP HV HE. unfold verify_segs in HV. assert (Hne : ss_segs s <> []) by (intros C; rewrite C in HV; discriminate).
  assert (HV' : verify_from (ss_index s) None [] (ss_segs s) = true) by (destruct (ss_segs s); [discriminate|exact HV]).
  assert (HW : Forall widths (ss_segs s)) by (eapply Forall_impl; [|exact HT]; cbn; tauto).
  destruct (verify_from_sound _ _ topk None [] HW HP Hne HV' eq_refl) as (A & B & _ & _ & E).
  unfold verify_elements_segs in HE.
  destruct (forallb verify_elems_seg (ss_segs s)) eqn:E1; [|discriminate].
  destruct (no_dup_ids (map fst (id_map s))) eqn:E2; [|discriminate]. cbn [andb] in HE. injection HE as <-.
  apply no_dup_ids_spec in E2. rewrite id_map_fst in E2. rewrite forallb_forall in E1.
  assert (Hs : forall g, In g (ss_segs s) -> weakly_ranked (sg_elems g) /\ sg_n g = length (sg_elems g) /\
     (forall x, In x (sg_elems g) -> in_range g x) /\ Forall (fun x => 0 < e_upd x) (sg_elems g)).
  { intros g Hg. unfold typed in HT. rewrite Forall_forall in HT. destruct (HT g Hg) as (T1 & _ & T3).
    apply verify_elems_sound; auto. destruct HP as (P1 & _). rewrite Forall_forall in P1. auto. }
  assert (Hd : forall g, In g (ss_segs s) -> distinct_ids (sg_elems g)).
  { intros g Hg. apply in_split in Hg as (a & b & Eg). rewrite Eg, elems_of_app, elems_of_cons in E2.
    apply (distinct_ids_app_r (elems_of a)) in E2. apply distinct_ids_app_l in E2. exact E2. }
  split; [|split; [reflexivity|split; [|split; [exact B|intros Hi; apply (E Hi)]]]].
  - split; [exact A| | |].
    + eapply holds_intro; [exact A| |].
      * intros g Hg. apply weakly_ranked_distinct; [apply Hd; exact Hg|apply Hs; exact Hg].
      * intros g x Hg Hx. apply (Hs g Hg). exact Hx.
    + intros x Hx. apply elems_of_In in Hx as (g & Hg & Hx). destruct (Hs g Hg) as (_ & _ & _ & U).
      unfold typed in HT. rewrite Forall_forall in HT, U. destruct (HT g Hg) as (_ & _ & T3). rewrite Forall_forall in T3.
      destruct (T3 x Hx). specialize (U x Hx). split; auto.
    + intros x y Hx Hy Exy. revert Hx Hy Exy. clear - E2. induction (elems_of (ss_segs s)) as [|z r IH]; [contradiction|].
      cbn in E2. apply NoDup_cons_iff in E2 as (N1 & N2). intros [->|Hx] [->|Hy] Exy; auto.
      * exfalso. apply N1. rewrite Exy. apply in_map. exact Hy.
      * exfalso. apply N1. rewrite <- Exy. apply in_map. exact Hx.
  - apply Forall_forall. intros g Hg. apply (Hs g Hg).
Qed.

Lemma verify_sound l : typed (ss_segs (l_scores l)) -> typed (ss_segs (l_index l)) ->
  proper (ss_segs (l_scores l)) -> proper (ss_segs (l_index l)) ->
  (forall q, In q (elems_of (ss_segs (l_index l))) -> idx_elem q) ->
  verify l = true -> verify_elements l = true ->
  core (fun x => In x (contents l)) (fun q => In q (elems_of (ss_segs (l_index l)))) (ss_segs (l_scores l)) (ss_segs (l_index l)) /\
  cnt_ok (ss_segs (l_scores l)) /\ cnt_ok (ss_segs (l_index l)).
Proof.
  intros T1 T2 P1 P2 HF HV HE. unfold verify in HV. rewrite !andb_true_iff in HV.
  destruct HV as ((((((((((_ & _) & _) & _) & V1) & V2) & _) & V3) & _) & V4) & _).
  apply negb_true_iff in V1. unfold verify_elements in HE.
  destruct (verify_elements_segs (l_scores l)) as [R1|] eqn:E1; [|discriminate].
  destruct (verify_elements_segs (l_index l)) as [R2|] eqn:E2; [|discriminate].
  destruct (verify_elements_sound _ _ T1 P1 V3 E1) as (S1 & -> & C1 & N1 & _).
  destruct (verify_elements_sound _ _ T2 P2 V4 E2) as (S2 & -> & C2 & N2 & A2).
  split; [|auto]. apply andb_true_iff in HE as (HE1 & HE2). rewrite forallb_forall in HE1, HE2.
  split; auto.
  - eapply Forall_impl; [|exact T1]. cbn. tauto.
  - intros id t. split.
    + intros (q & Hq & Eid & Et). apply elems_of_In in Hq as (g & Hg & Hq).
      assert (Hin : In (id, t) (id_map (l_index l))) by (apply id_map_In; exists g, q; rewrite V2; auto).
      specialize (HE2 _ Hin). cbn [fst] in HE2. apply mem_id_spec in HE2. apply in_map_iff in HE2 as ((id' & t') & Ei & Hi).
      cbn in Ei. subst id'. specialize (HE1 _ Hi). cbn [fst snd] in HE1.
      rewrite (assoc_in id t) in HE1; [|rewrite id_map_fst; apply (score_ok_distinct _ _ S2)|exact Hin].
      apply N.eqb_eq in HE1. subst t'. apply id_map_In in Hi as (s & x & Hs & Hx & Ex & Es). rewrite V1 in Es. exists s, x. auto.
    + intros (s & x & Hs & Hx & Ex & Es).
      assert (Hin : In (id, t) (id_map (l_scores l))) by (apply id_map_In; exists s, x; rewrite V1; auto).
      specialize (HE1 _ Hin). cbn [fst snd] in HE1. destruct (assoc id (id_map (l_index l))) as [t'|] eqn:Ea; [|discriminate].
      apply N.eqb_eq in HE1. subst t'. apply assoc_Some, id_map_In in Ea as (g & q & Hg & Hq & Eq & Et). rewrite V2 in Et.
      exists q. split; [apply elems_of_In; eauto|auto].
Qed.
