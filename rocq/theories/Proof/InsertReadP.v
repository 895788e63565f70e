(** Insert while reads fail. *)
From Coq Require Import Strings.String.
From Verif.Lib Require Import Prelude ListAux ListLemmas SortLemmas Perm.
From Verif.Model Require Import Element Elements Segment List ReadFail.
From Verif.Spec Require Import RankSpec QuerySpec HistorySpec AnswerSpec ReadFailSpec.
From Verif.Proof Require Import ElementP ElementsP ElementsThm SegP InvDef QueryP LookupP ChangeP UpdateP UpdateInv DeleteP InsertP
  HistoryP AnswerP ListThm ReadFailP UpdateReadP UpdateReadThm SkewP DeleteReadP.
Open Scope N_scope.

Lemma insert_sorted_r_eq rd now : forall l k ins i, tile_from k l -> weakly_ranked ins -> Forall good_in ins ->
  (forall x, In x ins -> key x <= k) ->
  let '(l', ix, ok) := insert_sorted_r rd i now l ins in
  l' = mapi_from i (fun j s => if rd j then ins_in now ins s else s) l /\
  ok = forallb (fun b : bool => b) (mapi_from i (fun j s => match filter (inr s) ins with [] => true | _ => rd j end) l) /\
  (ok = true -> insert_sorted now l ins = (l', ix)).
Proof.
  induction l as [|s r IH]; intros k ins i HT Hr Hg Hle; [cbn; auto|].
  destruct HT as (Hk & Hm & Hw & HT). cbn [insert_sorted_r insert_sorted mapi_from forallb].
  destruct (filter_idx s ins) as [a b] eqn:E.
  destruct (walk_next _ _ _ _ _ Hw Hm Hk Hr Hg Hle E) as (Hsl & Heq & Hne & Hsk).
  assert (Hrest : let '(l', ix, ok) := insert_sorted_r rd (S i) now r (if Nat.eqb a b then ins else skipn b ins) in
    l' = mapi_from (S i) (fun j s => if rd j then ins_in now ins s else s) r /\
    ok = forallb (fun b : bool => b) (mapi_from (S i) (fun j s => match filter (inr s) ins with [] => true | _ => rd j end) r) /\
    (ok = true -> insert_sorted now r (if Nat.eqb a b then ins else skipn b ins) = (l', ix))).
  { destruct r as [|t r]; [cbn; auto|]. destruct HT as (Hpos & HT).
    destruct (Nat.eqb_spec a b) as [->|Hab].
    - apply (IH (kmin s - 1)); auto. intros x Hx. apply Heq in Hx; lia.
    - rewrite Hsk. specialize (IH (kmin s - 1) (filter (fun x => key x <? kmin s) ins) (S i) HT (weak_filter _ _ Hr) (Forall_filter _ _ _ Hg)).
      destruct (insert_sorted_r rd (S i) now (t :: r) (filter (fun x => key x <? kmin s) ins)) as ((l' & ix) & ok).
      destruct IH as (A & B & C); [intros x Hx; apply filter_In in Hx; lia|].
      assert (Hsame : forall L j, (forall u, In u L -> In u (t :: r)) ->
        mapi_from j (fun j s0 => if rd j then ins_in now (filter (fun x => key x <? kmin s) ins) s0 else s0) L =
        mapi_from j (fun j s0 => if rd j then ins_in now ins s0 else s0) L /\
        mapi_from j (fun j s0 => match filter (inr s0) (filter (fun x => key x <? kmin s) ins) with [] => true | _ => rd j end) L =
        mapi_from j (fun j s0 => match filter (inr s0) ins with [] => true | _ => rd j end) L).
      { induction L as [|u L IHL]; intros j HL; [split; reflexivity|]. cbn [mapi_from].
        destruct (IHL (S j)) as (-> & ->); [intros; apply HL; right; assumption|].
        unfold ins_in. rewrite filter_below; [split; reflexivity|].
        pose proof (tile_from_kmax _ _ _ HT (HL u (or_introl eq_refl))). lia. }
      destruct (Hsame (t :: r) (S i) (fun u H => H)) as (Ea & Eb). rewrite Ea in A. rewrite Eb in B. auto. }
  destruct (Nat.eqb_spec a b) as [->|Hab].
  - destruct (insert_sorted_r rd (S i) now r ins) as ((r' & ix) & ok). destruct Hrest as (A & B & C). destruct (Heq eq_refl) as (E0 & _).
    assert (Ed : ins_in now ins s = s) by (unfold ins_in; rewrite E0; reflexivity). rewrite Ed, E0, A, B in *.
    split; [destruct (rd i); reflexivity|]. split; [reflexivity|]. intros H. rewrite (C H). reflexivity.
  - destruct (insert_sorted_r rd (S i) now r (skipn b ins)) as ((r' & ix) & ok). destruct Hrest as (A & B & C). rewrite Hsl. specialize (Hne Hab).
    assert (Ed : touch now (set_elems (fun old => merge_copy old (filter (inr s) ins)) s) = ins_in now ins s).
    { unfold ins_in. destruct (filter (inr s) ins); [congruence|reflexivity]. }
    rewrite Ed. destruct (rd i) eqn:Er.
    + rewrite A. split; [reflexivity|]. split; [rewrite B; destruct (filter (inr s) ins); reflexivity|]. intros H. rewrite (C H), <- A. reflexivity.
    + rewrite A. split; [reflexivity|]. split; [|discriminate]. destruct (filter (inr s) ins); [congruence|reflexivity].
Qed.

Lemma insert_parts P Q l now sc e : core P Q (ss_segs (l_scores l)) (ss_segs (l_index l)) -> distinct_ids e -> Forall good e ->
  (forall x y, In x e -> P y -> e_id x <> e_id y) ->
  let ss := ss_segs (l_scores l) in
  let is := ss_segs (l_index l) in
  let ins := sort_elems (sort_elems e) in
  let ii := sort_elems (sort_elems (sort_elems (concat (permute sc (snd (insert_sorted now ss ins)))))) in
  let B := fun q => exists s x, In s ss /\ In x ins /\ in_range s x /\ q = as_index x (sg_id s) in
  weakly_ranked ins /\ Forall good ins /\ (forall x, In x ins <-> In x e) /\ distinct_ids ins /\
  weakly_ranked ii /\ Forall good ii /\ (forall q, In q ii <-> B q) /\ uniq B /\ (forall q, B q -> In (e_id q) (map e_id ins)) /\
  changed (fun x => In x ins) (fun id => In id (map e_id ins)) ss (map (ins_in now ins) ss) /\
  changed B (fun id => In id (map e_id ins)) is (map (ins_in now ii) is).
Proof.
  intros HC Hd Hg Hn. cbn zeta.
  pose proof (c_s _ _ _ _ HC) as HS. pose proof (c_i _ _ _ _ HC) as HI.
  set (ins := sort_elems (sort_elems e)).
  assert (Hin : forall x, In x ins <-> In x e) by (intros; unfold ins; rewrite !sort_elems_In; tauto).
  assert (Hp : Permutation ins e) by (unfold ins; rewrite !sort_elems_perm; reflexivity).
  assert (Hdi : distinct_ids ins) by (eapply distinct_ids_perm; [symmetry; exact Hp|exact Hd]).
  assert (Hwi : weakly_ranked ins) by apply sort_elems_weak.
  assert (Hgi : Forall good ins).
  { rewrite Forall_forall in *. intros x Hx. apply Hg, Hin, Hx. }
  assert (Hgi' : Forall good_in ins) by (eapply Forall_impl; [|exact Hgi]; intros; apply good_good_in; auto).
  set (ss := ss_segs (l_scores l)) in *. set (is := ss_segs (l_index l)) in *.
  fold ins.
  rewrite (insert_sorted_map now ss topk ins (so_tile _ _ HS) Hwi Hgi').
  2:{ intros x Hx. rewrite Forall_forall in Hgi. apply key_le_top, good_ok, Hgi, Hx. }
  cbn [snd].
  set (ix := flat_map (fun s => match filter (inr s) ins with [] => [] | f => [element_ids f (sg_id s)] end) ss).
  set (B := fun q => exists s x, In s ss /\ In x ins /\ in_range s x /\ q = as_index x (sg_id s)).
  set (ii := sort_elems (sort_elems (sort_elems (concat (permute sc ix))))).
  assert (Hcp : Permutation ii (concat ix)).
  { unfold ii. rewrite !sort_elems_perm. apply Permutation_concat, permute_perm. }
  assert (HBin : forall q, In q ii <-> B q).
  { intros q. split.
    - intros Hq. apply (Permutation_in _ Hcp) in Hq. apply in_concat in Hq as (v & Hv & Hq).
      unfold ix in Hv. apply in_flat_map in Hv as (s & Hs & Hv).
      assert (Ev : v = element_ids (filter (inr s) ins) (sg_id s)).
      { destruct (filter (inr s) ins); [contradiction|]. destruct Hv as [<-|[]]. reflexivity. }
      subst v. unfold element_ids in Hq. apply sort_elems_In, in_map_iff in Hq as (x & <- & Hx).
      apply filter_In in Hx as (Hx & Hr). apply inr_spec in Hr. exists s, x. auto.
    - intros (s & x & Hs & Hx & Hr & ->). apply (Permutation_in _ (Permutation_sym Hcp)). apply in_concat.
      exists (element_ids (filter (inr s) ins) (sg_id s)).
      assert (Hf : In x (filter (inr s) ins)) by (apply filter_In; split; [exact Hx|apply inr_spec; exact Hr]).
      split.
      + unfold ix. apply in_flat_map. exists s. split; [exact Hs|].
        destruct (filter (inr s) ins); [contradiction|]. left; reflexivity.
      + unfold element_ids. apply sort_elems_In, in_map_iff. eauto. }
  assert (Hcid := c_id _ _ _ _ HC). rewrite Forall_forall in Hcid.
  assert (HBg : forall q, B q -> good q).
  { intros q (s & x & Hs & Hx & _ & ->). apply as_index_good; [|apply Hcid; exact Hs].
    rewrite Forall_forall in Hgi. auto. }
  assert (HBd : forall q, B q -> In (e_id q) (map e_id ins)).
  { intros q (s & x & Hs & Hx & _ & ->). cbn. apply in_map. exact Hx. }
  assert (Hinj : forall x y, In x ins -> In y ins -> e_id x = e_id y -> x = y).
  { clear - Hdi. unfold distinct_ids in Hdi. induction ins as [|z r IH]; intros a b Ha Hb E; [contradiction|].
    cbn in Hdi. apply NoDup_cons_iff in Hdi as (Hz & Hr). destruct Ha as [->|Ha], Hb as [->|Hb]; auto.
    - exfalso. apply Hz. rewrite E. apply in_map. exact Hb.
    - exfalso. apply Hz. rewrite <- E. apply in_map. exact Ha. }
  assert (HBu : uniq B).
  { intros q r (s & x & Hs & Hx & Rx & ->) (t & y & Ht & Hy & Ry & ->) E. cbn in E.
    assert (x = y) by (apply Hinj; auto). subst y.
    apply In_nth_error in Hs as (i & Hs). apply In_nth_error in Ht as (j & Ht).
    assert (i = j) by (eapply (seg_unique P ss); eauto). subst j. assert (s = t) by congruence. subst t. reflexivity. }
  assert (Hdii : distinct_ids ii).
  { eapply distinct_ids_perm; [symmetry; exact Hcp|]. unfold ix.
    assert (E : concat ix = flat_map (fun s => element_ids (filter (inr s) ins) (sg_id s)) ss).
    { unfold ix. generalize ss as L. induction L as [|s r IH]; [reflexivity|]. cbn [flat_map]. rewrite concat_app, IH. f_equal.
      destruct (filter (inr s) ins); [reflexivity|]. cbn [concat]. rewrite app_nil_r. reflexivity. }
    fold ix. rewrite E.
    assert (Hgen : forall L k, tile_from k L -> (forall s, In s L -> In s ss) ->
      distinct_ids (flat_map (fun s => element_ids (filter (inr s) ins) (sg_id s)) L)).
    { intros L k HT. pose proof (tile_from_unique L k) as Hu.
      assert (Hu' : forall i j s t x, nth_error L i = Some s -> nth_error L j = Some t -> in_range s x -> in_range t x -> i = j)
        by (intros; eapply Hu; eauto). clear Hu HT.
      induction L as [|s r IH]; intros Hsub; [constructor|]. cbn [flat_map]. apply distinct_ids_app.
      - unfold element_ids. eapply distinct_ids_perm; [symmetry; apply sort_elems_perm|].
        unfold distinct_ids. rewrite map_map. cbn. apply distinct_ids_filter. exact Hdi.
      - apply IH; [|intros; apply Hsub; right; assumption].
        intros i j u v x Hi Hj Hu Hv. assert (S i = S j) by (eapply Hu' with (s := u) (t := v); eauto). lia.
      - intros q q' Hq Hq' Eq. unfold element_ids in Hq. apply sort_elems_In, in_map_iff in Hq as (x & <- & Hx).
        apply in_flat_map in Hq' as (t & Ht & Hq'). unfold element_ids in Hq'. apply sort_elems_In, in_map_iff in Hq' as (y & <- & Hy).
        cbn in Eq. apply filter_In in Hx as (Hx & Rx). apply filter_In in Hy as (Hy & Ry).
        assert (x = y) by (apply Hinj; auto). subst y. apply inr_spec in Rx, Ry.
        apply In_nth_error in Ht as (j & Ht). assert (0%nat = S j) by (eapply Hu' with (s := s) (t := t); eauto). discriminate. }
    apply (Hgen ss topk); [apply HS|auto]. }
  assert (Hwii : weakly_ranked ii) by apply sort_elems_weak.
  assert (Hgii : Forall good ii) by (apply Forall_forall; intros q Hq; apply HBg, HBin, Hq).
  assert (HFs : map frame (map (ins_in now ins) ss) = map frame ss) by (rewrite map_map; apply map_ext, ins_in_frame).
  assert (HFi : map frame (map (ins_in now ii) is) = map frame is) by (rewrite map_map; apply map_ext, ins_in_frame).
  assert (HD : forall id, In id (map e_id ii) <-> In id (map e_id ins)).
  { intros id. split.
    - intros H. apply in_map_iff in H as (q & <- & Hq). apply HBd, HBin, Hq.
    - intros H. apply in_map_iff in H as (x & <- & Hx).
      assert (Ho : elem_ok x) by (rewrite Forall_forall in Hgi; apply good_ok; auto).
      destruct (tile_from_locate ss topk (key x) (so_tile _ _ HS) (key_le_top x Ho)) as (i & s & Hi & Hr).
      change (e_id x) with (e_id (as_index x (sg_id s))). apply in_map, HBin.
      exists s, x. split; [eapply nth_error_In; eauto|]. auto. }
  assert (Hcs : changed (fun x => In x ins) (fun id => In id (map e_id ins)) ss (map (ins_in now ins) ss)).
  { apply changed_ins with P; auto. intros x y Hx Hy. apply Hn; [apply Hin; exact Hx|exact Hy]. }
  assert (Hci : changed B (fun id => In id (map e_id ins)) is (map (ins_in now ii) is)).
  { assert (Hc : changed (fun x => In x ii) (fun id => In id (map e_id ii)) is (map (ins_in now ii) is)).
    { apply changed_ins with Q; auto. intros q q' Hq Hq' E.
      apply HBin in Hq. apply HBd in Hq. apply in_map_iff in Hq as (x & Ex & Hx).
      destruct (proj1 (c_link _ _ _ _ HC (e_id q') (e_tie q'))) as (s & y & Hs & Hy & Ey & _); [eauto|].
      apply (Hn x y); [apply Hin; exact Hx| |congruence]. apply (score_ok_seg _ _ s y HS Hs Hy). }
    intros i s s' Hi Hi'. destruct (Hc i s s' Hi Hi') as (A1 & A2). split; [exact A1|].
    intros x. rewrite A2, HBin, HD. tauto. }
  auto 20.
Qed.

Lemma all_touched rd l ins :
  forallb (fun b : bool => b) (mapi_from 0 (fun j s => match filter (inr s) ins with [] => true | _ => rd j end) l) = true <->
  forall i s y, nth_error l i = Some s -> In y ins -> in_range s y -> rd i = true.
Proof.
  change (mapi_from 0 ?f l) with (mapi f l). rewrite forallb_forall. split.
  - intros H i s y Hi Hy Ry. assert (Hin : In y (filter (inr s) ins)) by (apply filter_In; split; [exact Hy|apply inr_spec; exact Ry]).
    specialize (H (match filter (inr s) ins with [] => true | _ => rd i end)). rewrite <- H; [destruct (filter (inr s) ins); [contradiction|reflexivity]|].
    apply mapi_In. eauto.
  - intros H b Hb. apply mapi_In in Hb as (i & s & Hi & ->). destruct (filter (inr s) ins) as [|y r] eqn:E; [reflexivity|].
    assert (Hy : In y (filter (inr s) ins)) by (rewrite E; left; reflexivity). apply filter_In in Hy as (Hy & Ry). apply (H i s y Hi Hy). apply inr_spec, Ry.
Qed.
Lemma to_read_all P rd l x : score_ok P l -> elem_ok x -> to_read rd l x <-> forall i s, nth_error l i = Some s -> in_range s x -> rd i = true.
Proof.
  intros HS Hx. split.
  - intros (j & t & Ht & Rt & Hr) i s Hs Rs. rewrite (seg_unique _ _ i j s t x HS Hs Ht Rs Rt). exact Hr.
  - intros H. destruct (tile_from_locate l topk (key x) (so_tile _ _ HS) (key_le_top x Hx)) as (i & s & Hi & Hr). exists i, s. split; [exact Hi|].
    split; [exact Hr|]. exact (H i s Hi Hr).
Qed.

Lemma to_read_id Q rd is q : icore Q is -> good_in q -> e_score q = e_id q -> to_read rd is q <-> id_readable rd is (e_id q).
Proof.
  intros HC Hq Hf. rewrite (to_read_all Q rd is q (ic_i _ _ HC) (proj1 Hq)). unfold id_readable.
  pose proof (tile_from_widths _ _ (so_tile _ _ (ic_i _ _ HC))) as Hws. rewrite Forall_forall in Hws.
  assert (Hiff : forall i s, nth_error is i = Some s -> in_range s q <-> files s (e_id q)).
  { intros i s Hs. apply index_files; auto; [eapply aligned_one; [apply HC|]|apply Hws]; eapply nth_error_In; eauto. }
  split; intros H i s Hs X; apply (H i s Hs); apply (Hiff i s Hs); exact X.
Qed.

Lemma core_leads P Q ss is x : core P Q ss is -> P x -> leads Q ss x.
Proof.
  intros HC Px. pose proof (c_s _ _ _ _ HC) as HS. apply (score_ok_In _ _ _ HS) in Px.
  apply elems_of_In in Px as (s & Hs & Hx). destruct (proj2 (c_link _ _ _ _ HC (e_id x) (sg_id s))) as (q & Hq & Eq & Et); [exists s, x; auto|].
  apply In_nth_error in Hs as (i & Hi). exists q, s. split; [exact Hq|]. split; [exact Eq|]. split; [|exact Hx].
  rewrite Et, (idx_get_build ss i s); [exact Hi|apply HC|exact Hi].
Qed.

Lemma mix_same rd l l1 : length l1 = length l -> (forall i s s', nth_error l i = Some s -> nth_error l1 i = Some s' -> rd i = false -> s' = s) -> mix rd l l1 = l1.
Proof.
  intros HL H. apply nth_ext_error. intros i. destruct (nth_error l i) as [s|] eqn:Es.
  - assert (Hi : (i < length l1)%nat) by (rewrite HL; apply nth_error_Some; congruence).
    destruct (nth_error l1 i) as [s'|] eqn:Es'; [|apply nth_error_None in Es'; lia].
    rewrite (mix_nth rd l l1 i s s' HL Es Es'). destruct (rd i) eqn:Er; [reflexivity|]. rewrite (H i s s' Es Es' Er). reflexivity.
  - assert (nth_error l1 i = None) as -> by (apply nth_error_None; rewrite HL; apply nth_error_None; exact Es).
    apply nth_error_None. rewrite mix_length. apply nth_error_None. exact Es.
Qed.

Lemma insert_one_r_skew P l rds rdx now sc e : Inv P l -> distinct_ids e -> Forall good e ->
  (forall x y, In x e -> P y -> e_id x <> e_id y) -> 0 < now < max_u32 ->
  let '(l', ok) := insert_one_r rds rdx now sc l e in
  let ss := ss_segs (l_scores l) in
  let is := ss_segs (l_index l) in
  map frame (ss_segs (l_scores l')) = map frame ss /\ map frame (ss_segs (l_index l')) = map frame is /\
  (ok = true -> l' = insert_one now sc l e) /\
  (ok = true <-> forall x, In x e -> to_read rds ss x /\ id_readable rdx is (e_id x)) /\
  exists Q', skew (fun x => P x \/ (In x e /\ to_read rds ss x)) Q' l' /\
    forall x, P x \/ (In x e /\ to_read rds ss x) ->
      leads Q' (ss_segs (l_scores l')) x <-> P x \/ (In x e /\ (forall y, In y e -> to_read rds ss y) /\ id_readable rdx is (e_id x)).
Proof.
  intros HInv Hd Hg Hn Hnow. destruct (inv_skew P l HInv) as (Q & HC & HK).
  destruct HK as [HS HIc HMs HMi]. pose proof (ic_i _ _ HIc) as HI.
  destruct (insert_parts P Q l now sc e HC Hd Hg Hn) as (Hwi & Hgi & Hin & Hdi & Hwii & Hgii & HBin & HBu & HBd & Hcs & Hci). cbn zeta in *.
  unfold insert_one_r, insert_one, segs_insert.
  set (ss := ss_segs (l_scores l)) in *. set (is := ss_segs (l_index l)) in *. set (ins := sort_elems (sort_elems e)) in *.
  assert (Hgi' : Forall good_in ins) by (eapply Forall_impl; [|exact Hgi]; intros; apply good_good_in; auto).
  assert (Hki : forall x, In x ins -> key x <= topk) by (intros x Hx; rewrite Forall_forall in Hgi; apply key_le_top, good_ok, Hgi, Hx).
  pose proof (insert_sorted_r_eq rds now ss topk ins 0 (so_tile _ _ HS) Hwi Hgi' Hki) as HR.
  destruct (insert_sorted_r rds 0 now ss ins) as ((ms & ix) & okb). destruct HR as (Ems & Eok & Hix).
  fold (mapi (fun j s => if rds j then ins_in now ins s else s) ss) in Ems. rewrite <- (mix_map rds (ins_in now ins) ss) in Ems. subst ms.
  assert (HFs : map frame (map (ins_in now ins) ss) = map frame ss) by (rewrite map_map; apply map_ext, ins_in_frame).
  pose proof (mix_frame rds ss _ HFs) as HFm.
  assert (HTs : forall u L, stepped now L (map (ins_in now u) L)).
  { intros u L. apply stepped_map. intros s. unfold ins_in. destruct (filter (inr s) u); [auto|]. right. eauto. }
  assert (Hokb : okb = true <-> forall x, In x e -> to_read rds ss x).
  { rewrite Eok, all_touched. split.
    - intros H x Hx. apply (to_read_all P); [exact HS|rewrite Forall_forall in Hg; apply good_ok; auto|]. intros i s Hi Ri. apply (H i s x Hi); [apply Hin; exact Hx|exact Ri].
    - intros H i s y Hi Hy Ry. apply Hin in Hy. specialize (H y Hy). rewrite (to_read_all P) in H; [eauto|exact HS|rewrite Forall_forall in Hg; apply good_ok; auto]. }
  clear Eok. set (P' := fun x => P x \/ (In x e /\ to_read rds ss x)).
  assert (Hcm : changed (fun x => In x ins /\ to_read rds ss x)
     (fun id => (exists x, (In x ins /\ to_read rds ss x) /\ e_id x = id) \/ (In id (map e_id ins) /\ exists x, P x /\ e_id x = id /\ to_read rds ss x)) ss (mix rds ss (map (ins_in now ins) ss))).
  { apply (changed_mix P); auto; [intros x Hx; apply in_map; exact Hx|]. intros y x Hy Px. apply Hn; [apply Hin; exact Hy|exact Px]. }
  assert (Hinj : forall x y, In x e -> In y e -> e_id x = e_id y -> x = y).
  { intros x y Hx Hy E. assert (Hq := HBu). eapply (distinct_ids_In e); eauto. }
  assert (HS' : score_ok P' (mix rds ss (map (ins_in now ins) ss))).
  { eapply score_ok_ext; [|apply (score_ok_change P _ _ ss _ HS HFm Hcm)].
    - intros x. unfold apply_change, P'. rewrite Hin. split; [tauto|]. intros [Px|Hx]; [|left; exact Hx]. right. split; [exact Px|].
      intros [(y & (Hy & _) & Ey)|(Hy & _)].
      + apply (Hn y x); [apply Hin; exact Hy|exact Px|exact Ey].
      + apply in_map_iff in Hy as (y & Ey & Hy). apply (Hn y x); [apply Hin; exact Hy|exact Px|exact Ey].
    - intros x (Hx & Hr). rewrite Forall_forall in Hgi. split; [auto|]. left. exists x. auto.
    - intros x y (Hx & _) (Hy & _) E. apply Hinj; auto; apply Hin; assumption. }
  assert (Hms : meta (set_segs (l_scores l) (mix rds ss (map (ins_in now ins) ss)))).
  { apply meta_step with now; auto; [apply mix_stepped; auto|apply (m_idx _ HMs)]. }
  assert (Hkeep : forall i s s' x, nth_error ss i = Some s -> nth_error (mix rds ss (map (ins_in now ins) ss)) i = Some s' -> P x -> In x (sg_elems s) -> In x (sg_elems s')).
  { intros i s s' x Hs Hs' Px Ix. destruct (score_ok_seg _ _ s x HS (nth_error_In _ _ Hs) Ix) as (_ & Rx).
    pose proof (holds_nth _ _ _ _ (so_holds _ _ HS') Hs') as (_ & Hh). apply Hh. split; [left; exact Px|].
    destruct (frames_nth _ _ _ _ HFm Hs') as (s0 & Hs0 & E). destruct (frame_eq _ _ E) as (_ & _ & _ & _ & Er & _). apply Er.
    assert (s0 = s) by congruence. subst s0. exact Rx. }
  assert (HQP : forall q x, Q q -> In x e -> e_id q <> e_id x).
  { intros q x Hq Hx E. destruct (proj1 (c_link _ _ _ _ HC (e_id q) (e_tie q))) as (s & y & Hs & Hy & Ey & _); [eauto|].
    apply (Hn x y Hx); [apply (score_ok_seg _ _ s y HS Hs Hy)|congruence]. }
  assert (Hsame : okb = true -> mix rds ss (map (ins_in now ins) ss) = map (ins_in now ins) ss).
  { intros Ho. apply mix_same; [apply map_length|]. intros i s s' Hs Hs' Er. rewrite nth_error_map, Hs in Hs'. cbn in Hs'. injection Hs' as <-.
    unfold ins_in. destruct (filter (inr s) ins) as [|y r] eqn:E; [reflexivity|]. exfalso.
    assert (Hy : In y (filter (inr s) ins)) by (rewrite E; left; reflexivity). apply filter_In in Hy as (Hy & Ry). apply Hin in Hy.
    pose proof (proj1 Hokb Ho y Hy) as Ht. rewrite (to_read_all P) in Ht; [|exact HS|rewrite Forall_forall in Hg; apply good_ok; auto].
    rewrite (Ht i s Hs) in Er; [discriminate|apply inr_spec; exact Ry]. }
  destruct okb.
  - specialize (Hix eq_refl). specialize (Hsame eq_refl). pose proof (proj1 Hokb eq_refl) as Hall. rewrite Hix in *. cbn [snd] in *.
    set (ii := sort_elems (sort_elems (sort_elems (concat (permute sc ix))))) in *.
    set (B := fun q => exists s x, In s ss /\ In x ins /\ in_range s x /\ q = as_index x (sg_id s)) in *.
    assert (Hgii' : Forall good_in ii) by (eapply Forall_impl; [|exact Hgii]; intros; apply good_good_in; auto).
    assert (Hkii : forall x, In x ii -> key x <= topk) by (intros x Hx; rewrite Forall_forall in Hgii; apply key_le_top, good_ok, Hgii, Hx).
    pose proof (insert_sorted_r_eq rdx now is topk ii 0 (so_tile _ _ HI) Hwii Hgii' Hkii) as HR.
    destruct (insert_sorted_r rdx 0 now is ii) as ((ims & iix) & oki). destruct HR as (Ems & Eok & Hiix).
    fold (mapi (fun j s => if rdx j then ins_in now ii s else s) is) in Ems. rewrite <- (mix_map rdx (ins_in now ii) is) in Ems.
    assert (HFi : map frame (map (ins_in now ii) is) = map frame is) by (rewrite map_map; apply map_ext, ins_in_frame).
    pose proof (mix_frame rdx is _ HFi) as HFim.
    assert (HBform : forall q, B q -> idx_elem q) by (intros q (s & x & _ & _ & _ & ->); split; reflexivity).
    assert (HBid : forall q, B q -> exists x, In x e /\ e_id q = e_id x /\ good q).
    { intros q Hq. assert (Hq' := Hq). destruct Hq as (s & x & _ & Hx & _ & ->). exists x. split; [apply Hin; exact Hx|]. split; [reflexivity|].
      rewrite Forall_forall in Hgii. apply Hgii, HBin, Hq'. }
    assert (HBg : forall q, B q -> good q) by (intros q Hq; destruct (HBid q Hq) as (_ & _ & _ & G); exact G).
    assert (Hcim : changed (fun q => B q /\ to_read rdx is q)
       (fun id => (exists q, (B q /\ to_read rdx is q) /\ e_id q = id) \/ (In id (map e_id ins) /\ exists q, Q q /\ e_id q = id /\ to_read rdx is q)) is (mix rdx is (map (ins_in now ii) is))).
    { apply (changed_mix Q); auto. intros q q' Hq Qq' E. destruct (HBid q Hq) as (x & Hx & Ex & _). apply (HQP q' x Qq' Hx). congruence. }
    assert (HI' : score_ok (fun q => Q q \/ (B q /\ to_read rdx is q)) (mix rdx is (map (ins_in now ii) is))).
    { eapply score_ok_ext; [|apply (score_ok_change Q _ _ is _ HI HFim Hcim)].
      - intros q. unfold apply_change. split; [tauto|]. intros [Qq|Hq]; [|left; exact Hq]. right. split; [exact Qq|].
        intros [(q' & (Hq' & _) & Eq')|(Hq' & _)].
        + destruct (HBid q' Hq') as (x & Hx & Ex & _). apply (HQP q x Qq Hx). congruence.
        + apply in_map_iff in Hq' as (x & Ex & Hx). apply (HQP q x Qq); [apply Hin; exact Hx|congruence].
      - intros q (Hq & Hr). split; [apply HBg; exact Hq|]. left. exists q. auto.
      - intros q q' (Hq & _) (Hq' & _) E. apply HBu; auto. }
    assert (Hrid : forall q, B q -> to_read rdx is q <-> id_readable rdx is (e_id q)).
    { intros q Hq. apply (to_read_id Q); [exact HIc| |apply HBform; exact Hq]. destruct (HBid q Hq) as (_ & _ & _ & G). apply good_good_in. exact G. }
    assert (HBof : forall x, In x e -> exists q i s, B q /\ e_id q = e_id x /\ nth_error ss i = Some s /\ in_range s x /\ e_tie q = sg_id s).
    { intros x Hx. assert (Ho : elem_ok x) by (rewrite Forall_forall in Hg; apply good_ok; auto).
      destruct (tile_from_locate ss topk (key x) (so_tile _ _ HS) (key_le_top x Ho)) as (i & s & Hi & Hr).
      exists (as_index x (sg_id s)), i, s. split; [|auto]. exists s, x. split; [eapply nth_error_In; eauto|]. split; [apply Hin; exact Hx|auto]. }
    assert (Hoki : oki = true <-> forall x, In x e -> id_readable rdx is (e_id x)).
    { rewrite Eok, all_touched. split.
      - intros H x Hx. destruct (HBof x Hx) as (q & _ & _ & Hq & Eq & _). rewrite <- Eq. apply (Hrid q Hq).
        apply (to_read_all Q); [exact HI|apply good_ok, HBg; exact Hq|]. intros i s Hi Ri. apply (H i s q Hi); [apply HBin; exact Hq|exact Ri].
      - intros H i s q Hi Hq Ry. apply HBin in Hq. destruct (HBid q Hq) as (x & Hx & Ex & G). specialize (H x Hx). rewrite <- Ex in H. apply (Hrid q Hq) in H.
        rewrite (to_read_all Q) in H; [eauto|exact HI|apply good_ok; exact G]. }
    clear Eok. cbn zeta. cbn [set_both l_scores l_index set_segs ss_segs]. subst ims.
    split; [exact HFm|]. split; [exact HFim|]. split; [|split].
    + intros Ho. change (sort_elems (sort_elems (sort_elems (concat (permute sc ix))))) with ii. specialize (Hiix Ho).
      fold is. rewrite Hiix, Hsame. reflexivity.
    + rewrite Hoki. split; [intros H x Hx; split; auto|intros H x Hx; apply H; exact Hx].
    + exists (fun q => Q q \/ (B q /\ to_read rdx is q)). split.
      * split; cbn [l_scores l_index set_segs ss_segs set_both]; [exact HS'| |exact Hms|].
        -- split; [exact HI'| |].
           ++ pose proof (ic_al _ _ HIc) as Hal. unfold aligned in *. rewrite Forall_forall in *. intros s' Hs'. apply In_nth_error in Hs' as (i & Hi).
              destruct (frames_nth _ _ _ _ HFim Hi) as (s & Hs & E). destruct (frame_eq _ _ E) as (_ & _ & _ & _ & _ & -> & ->).
              apply Hal. eapply nth_error_In; eauto.
           ++ intros q [Qq|(Hq & _)]; [apply (ic_form _ _ HIc q Qq)|auto].
        -- apply meta_step with now; auto; [apply mix_stepped; auto|apply (m_idx _ HMi)].
      * intros x Hx. split.
        -- intros (q & t & [Qq|(Bq & Rq)] & Eq & _); [|].
           ++ left. destruct Hx as [Px|(Hx & _)]; [exact Px|]. exfalso. apply (HQP q x Qq Hx Eq).
           ++ destruct Hx as [Px|(Hx & _)]; [left; exact Px|]. right. split; [exact Hx|]. split; [exact Hall|]. rewrite <- Eq. apply (Hrid q Bq). exact Rq.
        -- intros [Px|(Hxe & _ & Hid)].
           ++ apply leads_kept with (Q := Q) (l := ss); [exact HFm|eapply core_leads; eauto|intros i s s' A C; apply (Hkeep i s s' x A C Px)|intros q Qq _; left; exact Qq].
           ++ destruct (HBof x Hxe) as (q & i & s & Hq & Eq & Hi & Ri & Et). destruct (frames_sym_nth _ _ _ _ HFm Hi) as (s' & Hs' & E).
              exists q, s'. split; [right; split; [exact Hq|]; apply (Hrid q Hq); rewrite Eq; exact Hid|]. split; [exact Eq|].
              assert (Eb : build_idx (mix rds ss (map (ins_in now ins) ss)) = build_idx ss) by (symmetry; exact (build_idx_frames _ _ 0 HFm)).
              rewrite Eb, Et, (idx_get_build ss i s); [|apply HC|exact Hi]. split; [exact Hs'|].
              pose proof (holds_nth _ _ _ _ (so_holds _ _ HS') Hs') as (_ & Hh). apply Hh. split; [right; auto|].
              destruct (frame_eq _ _ E) as (_ & _ & _ & _ & Er & _). apply Er. exact Ri.
  - cbn zeta. cbn [set_both l_scores l_index set_segs ss_segs]. split; [exact HFm|]. split; [reflexivity|]. split; [discriminate|].
    assert (Hno : ~ forall x, In x e -> to_read rds ss x) by (intros H; apply Hokb in H; discriminate).
    split; [split; [discriminate|intros H; exfalso; apply Hno; intros x Hx; apply (H x Hx)]|].
    exists Q. split; [split; cbn [l_scores l_index set_segs ss_segs set_both]; assumption|]. intros x Hx. split.
    + intros (q & t & Qq & Eq & _). left. destruct Hx as [Px|(Hx & _)]; [exact Px|]. exfalso. apply (HQP q x Qq Hx Eq).
    + intros [Px|(_ & H & _)]; [|contradiction].
      apply leads_kept with (Q := Q) (l := ss); [exact HFm|eapply core_leads; eauto|intros i s s' A C; apply (Hkeep i s s' x A C Px)|auto].
Qed.
