(** Lists whose index does not fit their scores: what queries answer. *)
From Coq Require Import Strings.String.
From Verif.Lib Require Import Prelude ListAux ListLemmas SortLemmas Perm.
From Verif.Model Require Import Element Elements Segment List ReadFail.
From Verif.Spec Require Import RankSpec QuerySpec AnswerSpec ReadFailSpec.
From Verif.Proof Require Import ElementP ElementsP ElementsThm SegP InvDef QueryP LookupP ChangeP UpdateP UpdateInv DeleteP AnswerP.
Open Scope N_scope.

(** scores hold [P], the index holds [Q]; nothing links the two *)
Record skew (P Q : element -> Prop) (l : lst) : Prop := {
  k_s : score_ok P (ss_segs (l_scores l));
  k_i : icore Q (ss_segs (l_index l));
  k_ms : meta (l_scores l);
  k_mi : meta (l_index l)
}.
(** the index entry of [x] leads to the segment that holds [x] *)
Definition leads (Q : element -> Prop) (ss : list seg) (x : element) : Prop :=
  exists q s, Q q /\ e_id q = e_id x /\ nth_error ss (idx_get (build_idx ss) (e_tie q)) = Some s /\ In x (sg_elems s).

Lemma idx_get_lt l t : l <> [] -> (idx_get (build_idx l) t < length l)%nat.
Proof.
  intros Hne. unfold idx_get, build_idx, mapi.
  assert (H : forall k, match assoc t (mapi_from k (fun i s => (sg_id s, i)) l) with Some i => (k <= i < k + length l)%nat | None => True end).
  { induction l as [|s r IH]; intros k; [exact Logic.I|]. cbn [mapi_from assoc]. destruct (sg_id s =? t); [cbn; lia|].
    destruct r as [|s' r]; [exact Logic.I|]. specialize (IH ltac:(discriminate) (S k)).
    destruct (assoc t (mapi_from (S k) (fun i s => (sg_id s, i)) (s' :: r))); [cbn [length] in *; lia|exact Logic.I]. }
  specialize (H 0%nat). destruct (assoc t (mapi_from 0 (fun i s => (sg_id s, i)) l)); [lia|]. destruct l; [congruence|cbn; lia].
Qed.

Lemma find_elements_skew P s sc qs radius : score_ok P (ss_segs s) -> cnt_ok (ss_segs s) ->
  ss_idx s = [] \/ ss_idx s = build_idx (ss_segs s) -> distinct_ids qs ->
  let l := ss_segs s in
  let res := find_elements sc s qs radius in
  NoDup (map (fun re => e_id (re_elem re)) res) /\
  forall re, In re res <-> exists q t i x, In q qs /\ nth_error l (idx_get (build_idx l) (e_tie q)) = Some t /\ In x (sg_elems t) /\
    e_id q = e_id x /\ nth_error (elems_of l) i = Some x /\ re = ranked_at (elems_of l) radius i x.
Proof.
  intros HS Hcnt HM Hdq. cbn zeta.
  destruct (reindex_idx s (tile_nonempty _ (so_tile _ _ HS)) HM) as (Ei & Es & _).
  pose proof (score_ok_distinct _ _ HS) as Hd. pose proof (tile_nonempty _ (so_tile _ _ HS)) as Hne.
  unfold find_elements. rewrite Es, Ei. set (l := ss_segs s) in *. cbn zeta.
  set (F := fun i (q : element) => match find_ranked l i (e_id q) (nth i (top_offsets l) 0%nat) radius with
                       | Some r => [calc_bottom (count l) r] | None => [] end).
  set (p := fun q => idx_get (build_idx l) (e_tie q)).
  assert (Hperm : Permutation (concat (permute sc (map (fun g : nat * list N =>
      flat_map (fun id => match find_ranked l (fst g) id (nth (fst g) (top_offsets l) 0%nat) radius with
                          | Some r => [calc_bottom (count l) r] | None => [] end) (snd g))
      (filter (fun g => negb (Nat.eqb (length (snd g)) 0)) (mapi (fun i _ => (i, ids_for (build_idx l) i qs)) l)))))
      (concat (map (fun i => flat_map (F i) (filter (fun q => Nat.eqb (p q) i) qs)) (seq 0 (length l))))).
  { etransitivity; [apply Permutation_concat, permute_perm|]. rewrite concat_filter_nonempty.
    2:{ intros h _ Hg. destruct (snd h); [reflexivity|discriminate]. }
    unfold mapi. rewrite mapi_seq with (g := fun i => (i, ids_for (build_idx l) i qs)) by reflexivity.
    rewrite map_map. cbn [fst snd]. erewrite map_ext; [reflexivity|]. intros i. unfold ids_for. rewrite flat_map_map. reflexivity. }
  assert (Hp : Permutation (concat (map (fun i => flat_map (F i) (filter (fun q => Nat.eqb (p q) i) qs)) (seq 0 (length l)))) (flat_map (fun q => F (p q) q) qs)).
  { apply (group_perm p F (length l)). intros q _. apply idx_get_lt. exact Hne. }
  pose proof (Permutation_trans Hperm Hp) as HP. clear Hperm Hp.
  (* one entry *)
  assert (HF : forall q, (exists t i x, nth_error l (p q) = Some t /\ In x (sg_elems t) /\ e_id q = e_id x /\ nth_error (elems_of l) i = Some x /\
                                        F (p q) q = [ranked_at (elems_of l) radius i x]) \/
                         (F (p q) q = [] /\ forall t, nth_error l (p q) = Some t -> ~ In (e_id q) (map e_id (sg_elems t)))).
  { intros q. assert (Hlt : (p q < length l)%nat) by (apply idx_get_lt; exact Hne).
    destruct (nth_error l (p q)) as [t|] eqn:Et; [|apply nth_error_None in Et; lia].
    destruct (in_dec N.eq_dec (e_id q) (map e_id (sg_elems t))) as [Hin|Hn].
    - left. apply in_map_iff in Hin as (x & Ex & Hx). apply In_nth_error in Hx as (k & Hk).
      apply nth_error_split in Et as Hsp. destruct Hsp as (a & b & El & Ea).
      assert (Hd' := Hd). rewrite El in Hd'. destruct (find_ranked_spec a t b k x radius Hd' Hk) as (Hn & r & Hr & Hcb). rewrite <- El in Hn, Hr, Hcb.
      exists t, (length (elems_of a) + k)%nat, x. split; [reflexivity|]. split; [eapply nth_error_In; eauto|]. split; [congruence|].
      split; [exact Hn|]. unfold F. rewrite <- Ea, <- Ex. unfold top_offsets. rewrite top_offsets_nth by (rewrite ?Ea; assumption).
      replace (firstn (length a) l) with a.
      2:{ rewrite El, firstn_app, Nat.sub_diag, firstn_all, firstn_O, app_nil_r. reflexivity. }
      cbn [Nat.add]. rewrite Hr, count_elems, Hcb by exact Hcnt. reflexivity.
    - right. split; [|intros t' E; injection E as <-; exact Hn]. unfold F, find_ranked. rewrite Et.
      apply find_idx_id_none in Hn. rewrite Hn. reflexivity. }
  split.
  - eapply Permutation_NoDup; [symmetry; apply Permutation_map, HP|]. clear HP. revert Hdq. unfold distinct_ids.
    induction qs as [|q qs IH]; intros Hdq; [constructor|]. cbn [map] in Hdq. apply NoDup_cons_iff in Hdq as (Hq & Hdq).
    cbn [flat_map]. rewrite map_app. apply NoDup_app_intro; [| |].
    + destruct (HF q) as [(t & i & x & _ & _ & _ & _ & ->)|(-> & _)]; repeat constructor. intros [].
    + apply IH. exact Hdq.
    + intros v Hv Hc. apply Hq. apply in_map_iff in Hc as (re & <- & Hre). apply in_flat_map in Hre as (q' & Hq' & Hre).
      assert (E1 : e_id (re_elem re) = e_id q).
      { destruct (HF q) as [(t & i & x & _ & _ & Ex & _ & E)|(E & _)]; rewrite E in Hv; [|contradiction].
        destruct Hv as [Hv|[]]. cbn in Hv. congruence. }
      assert (E2 : e_id (re_elem re) = e_id q').
      { destruct (HF q') as [(t & i & x & _ & _ & Ex & _ & E)|(E & _)]; rewrite E in Hre; [|contradiction].
        destruct Hre as [<-|[]]. cbn. congruence. }
      rewrite <- E1, E2. apply in_map. exact Hq'.
  - intros re. assert (HI : In re (flat_map (fun q => F (p q) q) qs) <-> exists q, In q qs /\ In re (F (p q) q)) by apply in_flat_map.
    split.
    + intros Hre. apply (Permutation_in _ HP) in Hre. apply HI in Hre as (q & Hq & Hre).
      destruct (HF q) as [(t & i & x & H1 & H2 & H3 & H4 & E)|(E & _)]; rewrite E in Hre; [|contradiction].
      destruct Hre as [<-|[]]. exists q, t, i, x. auto 8.
    + intros (q & t & i & x & Hq & Ht & Hx & Ex & Hn & ->). apply (Permutation_in _ (Permutation_sym HP)). apply HI. exists q. split; [exact Hq|].
      destruct (HF q) as [(t' & j & y & H1 & H2 & H3 & H4 & E)|(E & Hno)].
      * rewrite E. assert (i = j).
        { unfold distinct_ids in Hd. rewrite NoDup_nth_error in Hd. apply Hd.
          - rewrite map_length. apply nth_error_Some. congruence.
          - rewrite !nth_error_map, Hn, H4. cbn. congruence. }
        subst j. assert (x = y) by congruence. subst y. left. reflexivity.
      * exfalso. apply (Hno t Ht). rewrite Ex. apply in_map. exact Hx.
Qed.

(** an index that would fit *)
Lemma some_index P ss : score_ok P ss -> NoDup (map sg_id ss) -> Forall (fun s => sg_id s <= max_u32) ss -> exists Q is, core P Q ss is.
Proof.
  intros HS Hnd Hid. set (Q := fun q => exists s x, In s ss /\ In x (sg_elems s) /\ q = as_index x (sg_id s)).
  set (qs := flat_map (fun s => map (fun x => as_index x (sg_id s)) (sg_elems s)) ss).
  assert (Hqs : forall q, In q qs <-> Q q).
  { intros q. unfold qs. rewrite in_flat_map. split.
    - intros (s & Hs & Hq). apply in_map_iff in Hq as (x & <- & Hx). exists s, x. auto.
    - intros (s & x & Hs & Hx & ->). exists s. split; [exact Hs|]. apply in_map_iff. eauto. }
  assert (Hqi : map e_id qs = map e_id (elems_of ss)).
  { unfold qs, elems_of. clear. induction ss as [|s r IH]; [reflexivity|]. cbn [flat_map map concat]. rewrite !map_app, IH. f_equal.
    rewrite map_map. reflexivity. }
  assert (Hdq : distinct_ids qs) by (unfold distinct_ids; rewrite Hqi; exact (score_ok_distinct _ _ HS)).
  rewrite Forall_forall in Hid.
  assert (HQg : forall q, Q q -> good q).
  { intros q (s & x & Hs & Hx & ->). apply as_index_good; [|auto]. apply (so_good _ _ HS). apply (score_ok_seg _ _ s x HS Hs Hx). }
  exists Q, [set_elems (fun _ => sort_elems qs) max_segment].
  assert (HR : forall q, good q -> in_range (set_elems (fun _ => sort_elems qs) max_segment) q).
  { intros q (Hq & _). unfold in_range, kmin, kmax. cbn [set_elems max_segment sg_min sg_max sg_mintie sg_maxtie].
    apply key_le_top in Hq. split; [apply N.le_0_l|exact Hq]. }
  split; try assumption.
  - split.
    + cbn [tile tile_from]. split; [reflexivity|]. split; [vm_compute; discriminate|]. split; [repeat split; vm_compute; discriminate|reflexivity].
    + constructor; [|constructor]. split.
      * cbn. apply weakly_ranked_distinct; [|apply sort_elems_weak]. eapply distinct_ids_perm; [symmetry; apply sort_elems_perm|exact Hdq].
      * intros q. cbn [sg_elems set_elems]. rewrite sort_elems_In, Hqs. split; [intros H; split; [exact H|apply HR, HQg, H]|tauto].
    + exact HQg.
    + intros q q' (s & x & Hs & Hx & ->) (s' & y & Hs' & Hy & ->) E. cbn in E.
      destruct (score_ok_seg _ _ s x HS Hs Hx) as (Px & Rx). destruct (score_ok_seg _ _ s' y HS Hs' Hy) as (Py & Ry).
      assert (x = y) by (apply (so_uniq _ _ HS); auto). subst y.
      apply In_nth_error in Hs as (i & Hi). apply In_nth_error in Hs' as (j & Hj).
      assert (i = j) by exact (seg_unique _ _ i j s s' x HS Hi Hj Rx Ry). subst j. congruence.
  - constructor; [split; reflexivity|constructor].
  - intros q (s & x & _ & _ & ->). split; reflexivity.
  - rewrite Forall_forall. exact Hid.
  - intros id t. split.
    + intros (q & (s & x & Hs & Hx & ->) & E1 & E2). exists s, x. auto.
    + intros (s & x & Hs & Hx & E1 & E2). exists (as_index x (sg_id s)). split; [exists s, x; auto|auto].
Qed.

Lemma skew_answers P Q l : skew P Q l -> ranks_all_finds (leads Q (ss_segs (l_scores l))) l (contents l).
Proof.
  intros [HS HI HMs HMi].
  assert (Hid : Forall (fun s => sg_id s <= max_u32) (ss_segs (l_scores l))).
  { pose proof (m_id _ HMs) as H. pose proof (m_next _ HMs) as Hn. rewrite Forall_forall in *. intros s Hs. specialize (H s Hs). unfold max_u32. lia. }
  destruct (some_index _ _ HS (m_nd _ HMs) Hid) as (Q' & is & HC).
  set (l2 := mkL (l_merge l) (l_split l) (l_scores_id l) (l_index_id l) (l_scores l) (mkSegs "" is 0 true [])).
  assert (HQ : Qok P l2) by (split; [exists Q'; exact HC|apply meta_cnt, HMs|apply HMs]).
  pose proof (qok_answers _ _ _ HQ (contents_ranking_q _ _ HQ)) as HA.
  split.
  - exact (a_len _ _ HA).
  - exact (a_top _ _ HA).
  - exact (a_bottom _ _ HA).
  - exact (a_score _ _ HA).
  - intros sc1 sc2 ids radius Hb. cbn zeta.
    destruct (index_elements_i Q l sc1 ids HI Hb) as (Hd & Hiff). unfold get_elements.
    destruct (find_elements_skew P (l_scores l) sc2 _ radius HS (meta_cnt _ HMs) (m_idx _ HMs) Hd) as (A & B).
    fold (contents l) in B. split; [exact A|]. split.
    + intros x. rewrite in_map_iff. split.
      * intros (re & <- & Hre). apply B in Hre as (q & t & i & y & Hq & Ht & Hy & Ey & Hn & ->). cbn [ranked_at re_elem].
        apply Hiff in Hq as (Hq & Hid'). split; [eapply nth_error_In; eauto|]. split; [rewrite <- Ey; exact Hid'|]. exists q, t. auto.
      * intros (Hx & Hi & q & s & Hq & Eq & Hs & Hxs). apply In_nth_error in Hx as (i & Hn). exists (ranked_at (contents l) radius i x).
        split; [reflexivity|]. apply B. exists q, s, i, x. split; [apply Hiff; rewrite Eq; auto|]. auto.
    + apply Forall_forall. intros re Hre. apply B in Hre as (q & t & i & y & _ & _ & _ & _ & Hn & ->).
      split; [apply ranked_at_rank; exact Hn|]. split; [apply ranked_at_nb|reflexivity].
  - exact (a_pct _ _ HA).
Qed.

Lemma finds_iff (f g : element -> Prop) l r : (forall x, In x r -> f x <-> g x) -> ranks_all_finds f l r -> ranks_all_finds g l r.
Proof.
  intros H [A B C D E F]. split; auto. intros sc1 sc2 ids radius Hb. destruct (E sc1 sc2 ids radius Hb) as (E1 & E2 & E3).
  split; [exact E1|]. split; [|exact E3]. intros x. rewrite E2. split; intros (X & Y & Z); (split; [exact X|]; split; [exact Y|apply (H x X), Z]).
Qed.
Lemma finds_answers (f : element -> Prop) l r : (forall x, In x r -> f x) -> ranks_all_finds f l r -> answers l r.
Proof.
  intros H [A B C D E F]. split; auto. intros sc1 sc2 ids radius Hb. destruct (E sc1 sc2 ids radius Hb) as (E1 & E2 & E3).
  split; [exact E1|]. split; [|exact E3]. intros x. rewrite E2. split; [tauto|]. intros (X & Y). auto.
Qed.

Lemma inv_skew P l : Inv P l -> exists Q, core P Q (ss_segs (l_scores l)) (ss_segs (l_index l)) /\ skew P Q l.
Proof. intros [(Q & HC) M1 M2 _ _ _ _ _]. exists Q. split; [exact HC|]. split; try assumption; [apply HC|eapply core_icore; eauto]. Qed.
