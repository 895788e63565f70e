(** Queries return windows of the ranking. *)
From Coq Require Import Strings.String.
From Verif.Lib Require Import Prelude ListAux ListLemmas SortLemmas Perm.
From Verif.Model Require Import Element Elements Segment List.
From Verif.Spec Require Import RankSpec QuerySpec.
From Verif.Proof Require Import ElementP ElementsP SegP InvDef.
Open Scope N_scope.

(** ** counters *)
Lemma fold_count_acc l : forall a, fold_left (fun n s => (n + sg_n s)%nat) l a = (a + count l)%nat.
Proof.
  unfold count. induction l as [|s r IH]; intros a; cbn; [lia|]. rewrite IH, (IH (sg_n s)). lia.
Qed.
Lemma count_cons s l : count (s :: l) = (sg_n s + count l)%nat.
Proof. unfold count at 1. cbn. rewrite fold_count_acc. lia. Qed.
Lemma count_nil : count [] = 0%nat. Proof. reflexivity. Qed.
Lemma count_app a b : count (a ++ b) = (count a + count b)%nat.
Proof. induction a as [|s a IH]; cbn [app]; rewrite ?count_cons, ?count_nil; lia. Qed.
Lemma count_elems l : cnt_ok l -> count l = length (elems_of l).
Proof.
  induction 1 as [|s r Hs _ IH]; [reflexivity|]. rewrite count_cons, elems_of_cons, app_length. lia.
Qed.

(** ** windows *)
Lemma skipn_app_ge {A} (a b : list A) n : (length a <= n)%nat -> skipn n (a ++ b) = skipn (n - length a) b.
Proof. intros H. rewrite skipn_app, skipn_all2 by lia. reflexivity. Qed.
Lemma skipn_app_lt {A} (a b : list A) n : (n <= length a)%nat -> skipn n (a ++ b) = skipn n a ++ b.
Proof. intros H. rewrite skipn_app. replace (n - length a)%nat with 0%nat by lia. reflexivity. Qed.

Lemma elems_offset_spec : forall l first n, elems_offset l first n = firstn n (skipn first (elems_of l)).
Proof.
  induction l as [|s r IH]; intros first n; destruct n as [|n]; try reflexivity.
  { cbn. destruct first; reflexivity. }
  cbn [elems_offset]. rewrite elems_of_cons.
  destruct (Nat.leb_spec (length (sg_elems s)) first) as [L|L].
  - rewrite IH, skipn_app_ge by lia. reflexivity.
  - rewrite skipn_app_lt by lia.
    destruct (Nat.ltb_spec (S n) (length (skipn first (sg_elems s)))) as [L2|L2].
    + rewrite firstn_app. replace (S n - length (skipn first (sg_elems s)))%nat with 0%nat by lia.
      cbn [firstn]. rewrite app_nil_r. reflexivity.
    + rewrite firstn_app, firstn_all2 by lia. f_equal. rewrite IH. reflexivity.
Qed.

Lemma seg_idx_top_from_spec : forall l i n off, cnt_ok l -> (n <= off)%nat ->
  match seg_idx_top_from i n l off with
  | None => (n + count l <= off)%nat
  | Some (j, eo) => (i <= j)%nat /\ (off < n + count l)%nat /\
      exists a s b, l = a ++ s :: b /\ length a = (j - i)%nat /\ (eo < length (sg_elems s))%nat /\
      eo = (off - n - length (elems_of a))%nat /\ (length (elems_of a) + n <= off)%nat
  end.
Proof.
  induction l as [|s r IH]; intros i n off Hc Hn; cbn [seg_idx_top_from]; [rewrite count_nil; lia|].
  inversion Hc as [|? ? Hs Hr]; subst. rewrite count_cons.
  destruct (Nat.ltb_spec off (n + sg_n s)) as [L|L].
  - split; [lia|]. split; [lia|]. exists [], s, r. cbn. repeat split; try lia. 
  - specialize (IH (S i) (n + sg_n s)%nat off Hr ltac:(lia)).
    destruct (seg_idx_top_from (S i) (n + sg_n s) r off) as [[j eo]|]; [|lia].
    destruct IH as (Hij & Hoff & a & t & b & -> & Hla & Heo & He & Hle).
    split; [lia|]. split; [lia|]. exists (s :: a), t, b. rewrite elems_of_cons, app_length. cbn [app length].
    repeat split; try lia.
Qed.

Lemma window_at l a s b eo n : l = a ++ s :: b ->
  get_elements_offset l (length a) eo n = firstn n (skipn (length (elems_of a) + eo) (elems_of l)).
Proof.
  intros ->. unfold get_elements_offset. rewrite elems_offset_spec.
  rewrite skipn_app, skipn_all, Nat.sub_diag. cbn [skipn app].
  rewrite elems_of_app. rewrite skipn_app_ge by lia. f_equal. f_equal. lia.
Qed.

Lemma rank_top_spec l off n : cnt_ok (ss_segs (l_scores l)) ->
  get_rank_top l off n =
  if Nat.ltb off (length (contents l)) then Some (firstn n (skipn off (contents l))) else None.
Proof.
  intros Hc. unfold get_rank_top, seg_idx_top, contents.
  pose proof (seg_idx_top_from_spec (ss_segs (l_scores l)) 0 0 off Hc ltac:(lia)) as H.
  destruct (seg_idx_top_from 0 0 (ss_segs (l_scores l)) off) as [[j eo]|].
  - destruct H as (_ & Hoff & a & s & b & El & Hla & Heo & He & Hle).
    rewrite Nat.sub_0_r in Hla. rewrite count_elems in Hoff by exact Hc.
    destruct (Nat.ltb_spec off (length (elems_of (ss_segs (l_scores l))))); [|lia].
    f_equal. rewrite <- Hla. rewrite (window_at _ a s b) by exact El. f_equal. f_equal. lia.
  - rewrite count_elems in H by exact Hc.
    destruct (Nat.ltb_spec off (length (elems_of (ss_segs (l_scores l))))); [lia|reflexivity].
Qed.

Lemma elems_of_rev_length l : length (elems_of (rev l)) = length (elems_of l).
Proof.
  induction l as [|s l IH]; [reflexivity|]. cbn [rev]. rewrite elems_of_app, !elems_of_cons, !app_length. 
  change (elems_of []) with (@nil element). cbn [length]. lia.
Qed.

Lemma seg_idx_bottom_from_spec : forall l n off, cnt_ok l -> (n <= off)%nat ->
  match seg_idx_bottom_from n l off with
  | None => (n + count l <= off)%nat
  | Some (j, eo) => (off < n + count l)%nat /\
      exists a s b, l = a ++ s :: b /\ length b = j /\ (eo < length (sg_elems s))%nat /\
      (eo + 1 + off = length (sg_elems s) + n + length (elems_of a))%nat
  end.
Proof.
  induction l as [|s r IH]; intros n off Hc Hn; cbn [seg_idx_bottom_from]; [rewrite count_nil; lia|].
  inversion Hc as [|? ? Hs Hr]; subst. rewrite count_cons.
  destruct (Nat.ltb_spec off (n + sg_n s)) as [L|L].
  - split; [lia|]. exists [], s, r. cbn. repeat split; try lia.
  - specialize (IH (n + sg_n s)%nat off Hr ltac:(lia)).
    destruct (seg_idx_bottom_from (n + sg_n s) r off) as [[j eo]|]; [|lia].
    destruct IH as (Hoff & a & t & b & -> & Hla & Heo & He).
    split; [lia|]. exists (s :: a), t, b. rewrite elems_of_cons, app_length. cbn [app].
    repeat split; try lia.
Qed.

Lemma rank_bottom_spec l off n : cnt_ok (ss_segs (l_scores l)) ->
  get_rank_bottom l off n =
  if Nat.ltb off (length (contents l))
  then Some (firstn n (skipn (length (contents l) - 1 - off) (contents l))) else None.
Proof.
  intros Hc. unfold get_rank_bottom, seg_idx_bottom, contents.
  set (L := ss_segs (l_scores l)) in *.
  assert (Hc' : cnt_ok (rev L)) by (apply Forall_rev; exact Hc).
  pose proof (seg_idx_bottom_from_spec (rev L) 0 off Hc' ltac:(lia)) as H.
  rewrite (count_elems (rev L)), elems_of_rev_length in H by exact Hc'.
  destruct (seg_idx_bottom_from 0 (rev L) off) as [[j eo]|].
  - destruct H as (Hoff & a & s & b & El & Hla & Heo & He).
    destruct (Nat.ltb_spec off (length (elems_of L))); [|lia].
    assert (EL : L = rev b ++ s :: rev a).
    { rewrite <- (rev_involutive L), El, rev_app_distr. cbn. rewrite <- app_assoc. reflexivity. }
    f_equal. rewrite <- Hla, <- (rev_length b). rewrite (window_at _ (rev b) s (rev a)) by exact EL.
    f_equal. f_equal. rewrite EL, elems_of_app, elems_of_cons, !app_length, !elems_of_rev_length. lia.
  - destruct (Nat.ltb_spec off (length (elems_of L))); [lia|reflexivity].
Qed.

(** ** ranked elements *)
Lemma calc_bottom_elem t r : re_elem (calc_bottom t r) = re_elem r. Proof. reflexivity. Qed.

Lemma to_ranked_nth off tot l i re : nth_error (to_ranked off tot l) i = Some re ->
  exists e, nth_error l i = Some e /\ re_elem re = e /\ re_top re = Z.of_nat (off + i) /\
            re_above re = [] /\ re_below re = [] /\ re_before re = None.
Proof.
  unfold to_ranked. rewrite mapi_nth. destruct (nth_error l i) as [e|]; cbn; intros H; inv H.
  exists e. cbn. repeat split; auto.
Qed.
Lemma mapi_from_map {A B C} (f : nat -> A -> B) (g : B -> C) : forall l k,
  map g (mapi_from k f l) = mapi_from k (fun i x => g (f i x)) l.
Proof. induction l; cbn; intros; f_equal; auto. Qed.
Lemma mapi_from_id {A B} (g : A -> B) : forall l k, mapi_from k (fun _ x => g x) l = map g l.
Proof. induction l; cbn; intros; f_equal; auto. Qed.
Lemma to_ranked_elems off tot l : map re_elem (to_ranked off tot l) = l.
Proof. unfold to_ranked, mapi. rewrite mapi_from_map. cbn. rewrite mapi_from_id. apply map_id. Qed.

(** ** score range query *)
Lemma seg_idx_score_from_spec score : forall l k i n, tile_from k l -> kk score max_u32 <= k \/ sg_max (hd max_segment l) = max_u64 /\ score <= max_u64 ->
  exists j a s b, seg_idx_score_from i n l score = Some (j, (n + count a)%nat) /\
    l = a ++ s :: b /\ j = (i + length a)%nat /\
    sg_min s <= score /\ Forall (fun t => score < sg_min t) a.
Proof.
  induction l as [|s r IH]; intros k i n HT Hk; [contradiction|].
  cbn in HT. destruct HT as (HK & Hle & Hw & Hr). cbn [seg_idx_score_from].
  assert (Hmax : score <= sg_max s).
  { destruct Hk as [Hk|(Hk & Hs)]; [|cbn in Hk; lia]. unfold kmax, kk, widths, max_u32 in *. lia. }
  destruct (N.leb_spec (sg_min s) score) as [L|L].
  - destruct (N.leb_spec score (sg_max s)); [|lia]. cbn.
    exists i, [], s, r. rewrite count_nil, Nat.add_0_r. cbn. split; [reflexivity|]. repeat split; auto; lia.
  - cbn [andb]. destruct r as [|s' r'].
    + unfold kmin, kk in Hr. lia.
    + destruct Hr as (Hpos & Hr).
      destruct (IH _ (S i) (n + sg_n s)%nat Hr) as (j & a & t & b & E & El & Ej & Hm & HF).
      { left. unfold kmin, kk, max_u32, widths in *. lia. }
      exists j, (s :: a), t, b. rewrite E, count_cons. split; [f_equal; f_equal; lia|].
      split; [cbn; congruence|]. cbn [length]. split; [lia|]. split; [exact Hm|]. constructor; auto.
Qed.

Lemma seg_idx_score_spec score l : tile l -> score <= max_u64 ->
  exists a s b, seg_idx_score l score = Some (length a, count a) /\
    l = a ++ s :: b /\ sg_min s <= score /\ Forall (fun t => score < sg_min t) a.
Proof.
  intros HT Hs. destruct (seg_idx_score_from_spec score l topk 0 0 HT) as (j & a & s & b & E & El & Ej & Hm & HF).
  - destruct l as [|s r]; [contradiction|]. right. cbn. split; [|exact Hs].
    cbn in HT. destruct HT as (HK & _ & Hw & _). unfold kmax, topk, kk, widths, max_u32, max_u64 in *. lia.
  - exists a, s, b. cbn in Ej. subst j. auto.
Qed.

Lemma ranked_scores l : ranked l -> StronglySorted (fun a b => e_score b <= e_score a) l.
Proof. apply StronglySorted_impl_In. unfold Above. intros; lia. Qed.

(** the elements at or below a score are a suffix of a ranking *)
Lemma score_suffix score l : ranked l ->
  let k := length (filter (fun e => score <? e_score e) l) in
  filter (fun e => e_score e <=? score) l = skipn k l /\ (k <= length l)%nat.
Proof.
  intros H. apply ranked_scores in H. induction H as [|x r Hr IH HF]; [cbn; auto|]. cbn [filter].
  destruct IH as (IH & IHl).
  destruct (N.ltb_spec score (e_score x)) as [L|L]; destruct (N.leb_spec (e_score x) score) as [L2|L2]; try lia.
  - cbn. split; [exact IH|lia].
  - assert (E1 : filter (fun e => score <? e_score e) r = []).
    { apply filter_none. intros y Hy. rewrite Forall_forall in HF. specialize (HF y Hy). lia. }
    rewrite E1. cbn. split; [|lia]. f_equal. apply filter_all. intros y Hy.
    rewrite Forall_forall in HF. specialize (HF y Hy). lia.
Qed.

Lemma rank_score_spec P l score n : score_ok P (ss_segs (l_scores l)) -> cnt_ok (ss_segs (l_scores l)) ->
  score <= max_u64 ->
  exists res, get_rank_score_desc l score n = Some res /\
    map re_elem res = firstn n (filter (fun e => e_score e <=? score) (contents l)) /\
    Forall (fun re => true_rank (contents l) re /\ re_above re = [] /\ re_below re = []) res.
Proof.
  intros HS Hc Hsc. unfold get_rank_score_desc, contents.
  set (L := ss_segs (l_scores l)) in *. cbn zeta.
  destruct (seg_idx_score_spec score L (so_tile _ _ HS) Hsc) as (a & s & b & E & EL & Hm & HF).
  rewrite E. unfold get_elements_from_score.
  assert (Hn : nth_error L (length a) = Some s).
  { rewrite EL, nth_error_app2, Nat.sub_diag by lia. reflexivity. }
  rewrite Hn.
  assert (Hcs : sg_n s = length (sg_elems s)).
  { unfold cnt_ok in Hc. rewrite Forall_forall in Hc. apply Hc. eapply nth_error_In; eauto. }
  assert (Hca : count a = length (elems_of a)).
  { apply count_elems. rewrite EL in Hc. apply Forall_app in Hc. tauto. }
  pose proof (score_ok_ranked _ _ HS) as HR.
  destruct (score_suffix score _ HR) as (Hsuf & Hkl). cbn zeta in Hsuf, Hkl.
  set (k := length (filter (fun e => score <? e_score e) (elems_of L))) in *.
  (* all of a is above the score *)
  assert (HA : filter (fun e => score <? e_score e) (elems_of a) = elems_of a).
  { apply filter_all. intros x Hx. apply elems_of_In in Hx as (t & Ht & Hx).
    destruct (score_ok_seg _ _ t x HS) as (Px & Rx); [rewrite EL; apply in_or_app; auto|exact Hx|].
    rewrite Forall_forall in HF. specialize (HF t Ht).
    pose proof (tile_from_widths _ _ (so_tile _ _ HS)) as Hw. rewrite Forall_forall in Hw.
    specialize (Hw t ltac:(rewrite EL; apply in_or_app; auto)).
    pose proof (good_ok _ (so_good _ _ HS _ Px)) as Hok.
    unfold in_range, kmin, key, kk, widths, elem_ok, max_u32 in *. lia. }
  assert (HLe : elems_of L = elems_of a ++ sg_elems s ++ elems_of b).
  { rewrite EL, elems_of_app, elems_of_cons. reflexivity. }
  (* elements after s are at or below the score *)
  assert (HB : filter (fun e => score <? e_score e) (elems_of b) = []).
  { apply filter_none. intros x Hx. apply elems_of_In in Hx as (t & Ht & Hx).
    destruct (score_ok_seg _ _ t x HS) as (Px & Rx); [rewrite EL; apply in_or_app; right; right; auto|exact Hx|].
    apply In_nth_error in Ht as (j & Hj).
    assert (Hj' : nth_error L (length a + S j) = Some t).
    { rewrite EL, nth_error_app2 by lia. replace (length a + S j - length a)%nat with (S j) by lia. exact Hj. }
    pose proof (tile_from_order _ _ _ _ _ _ (so_tile _ _ HS) Hn Hj' ltac:(lia)).
    pose proof (tile_from_widths _ _ (so_tile _ _ HS)) as Hw. rewrite Forall_forall in Hw.
    specialize (Hw s (nth_error_In _ _ Hn)).
    pose proof (good_ok _ (so_good _ _ HS _ Px)) as Hok.
    unfold in_range, kmin, kmax, key, kk, widths, elem_ok, max_u32 in *. lia. }
  assert (Hk : k = (length (elems_of a) + length (filter (fun e => (score <? e_score e)%N) (sg_elems s)))%nat).
  { unfold k. rewrite HLe, !filter_app, HA, HB, !app_length. cbn. lia. }
  assert (HRs : ranked (sg_elems s)).
  { rewrite HLe in HR. apply StronglySorted_app in HR as (_ & HR & _). apply StronglySorted_app in HR. tauto. }
  destruct (score_suffix score _ HRs) as (Hsufs & Hkls). cbn zeta in Hsufs, Hkls.
  set (ks := length (filter (fun e => score <? e_score e) (sg_elems s))) in *.
  (* the index found in the segment is ks, or the segment is exhausted *)
  assert (Hgoal : exists off, (off + count a = k)%nat /\ exists tot, 
    match find_idx (fun e => e_score e <=? score) (sg_elems s) with
    | Some i => Some (to_ranked i (sg_n s) (get_elements_offset L (length a) i n))
    | None => Some (to_ranked (sg_n s) (sg_n s) (get_elements_offset L (S (length a)) 0 n))
    end = Some (to_ranked off tot (firstn n (skipn k (elems_of L))))).
  { destruct (find_idx (fun e => e_score e <=? score) (sg_elems s)) as [i|] eqn:Ef.
    - assert (Hi : i = ks).
      { apply find_idx_some in Ef as (p & x & q & Es & <- & Hx & Hp).
        unfold ks. rewrite Es, filter_app. cbn [filter].
        destruct (N.ltb_spec score (e_score x)); [lia|].
        rewrite filter_all, filter_none, app_nil_r; [reflexivity| |].
        - intros y Hy. rewrite Es in HRs. apply ranked_scores in HRs. apply StronglySorted_app in HRs as (_ & HRs & _).
          apply StronglySorted_inv in HRs as (_ & HRs). rewrite Forall_forall in HRs. specialize (HRs y Hy). lia.
        - intros y Hy. rewrite Forall_forall in Hp. specialize (Hp y Hy). lia. }
      subst i. exists ks. split; [lia|]. exists (sg_n s). do 2 f_equal.
      rewrite (window_at _ a s b) by exact EL. do 2 f_equal. lia.
    - rewrite find_idx_none in Ef.
      assert (Hks : ks = length (sg_elems s)).
      { unfold ks. rewrite filter_all; [reflexivity|]. intros x Hx. specialize (Ef x Hx). cbn beta in Ef. lia. }
      exists (sg_n s). split; [lia|]. exists (sg_n s). do 2 f_equal.
      unfold get_elements_offset. rewrite elems_offset_spec.
      f_equal. rewrite skipn_O, HLe. rewrite app_assoc, skipn_app_ge by (rewrite app_length; lia).
      replace (k - length (elems_of a ++ sg_elems s))%nat with 0%nat by (rewrite app_length; lia). rewrite skipn_O.
      rewrite EL. replace (S (length a)) with (length (a ++ [s])) by (rewrite app_length; cbn; lia).
      replace (a ++ s :: b) with ((a ++ [s]) ++ b) by (rewrite <- app_assoc; reflexivity).
      rewrite skipn_app, skipn_all, Nat.sub_diag. reflexivity. }
  destruct Hgoal as (off & Hoff & tot & ->).
  eexists. split; [reflexivity|]. split.
  - rewrite map_map. cbn [re_offset calc_bottom re_elem].
    rewrite <- (map_map (fun x => x) re_elem), map_id, to_ranked_elems, Hsuf. reflexivity.
  - apply Forall_forall. intros re Hre. apply in_map_iff in Hre as (r0 & <- & Hr0).
    apply In_nth_error in Hr0 as (i & Hi). apply to_ranked_nth in Hi as (e & He & Ee & Et & Ea & Eb & _).
    cbn. rewrite Ea, Eb. split; [|auto]. exists (k + i)%nat. cbn. rewrite Et, Ee.
    assert (Hni : nth_error (elems_of L) (k + i) = Some e).
    { rewrite <- nth_error_skipn. rewrite <- He. symmetry. apply nth_error_firstn.
      apply nth_error_Some_lt || idtac. 
      assert (nth_error (firstn n (skipn k (elems_of L))) i <> None) by congruence.
      apply nth_error_Some in H. rewrite firstn_length in H. lia. }
    rewrite (count_elems L) by exact Hc. split; [exact Hni|]. lia.
Qed.
