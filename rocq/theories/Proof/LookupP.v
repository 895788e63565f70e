(** Lookups by ID: the index gives the segment, findRanked the rank. *)
From Coq Require Import Strings.String.
From Verif.Lib Require Import Prelude ListAux ListLemmas SortLemmas Perm.
From Verif.Model Require Import Element Elements Segment List.
From Verif.Spec Require Import RankSpec QuerySpec.
From Verif.Proof Require Import ElementP ElementsP SegP InvDef QueryP.
Open Scope N_scope.

(** ** neighbours *)
Lemma walk_below_spec : forall n cur rest, walk_below n cur rest = firstn n (cur ++ elems_of rest).
Proof.
  induction n as [|n IH]; intros cur rest; [reflexivity|].
  revert cur. induction rest as [|s r IHr]; intros cur.
  - destruct cur as [|x cur]; [reflexivity|]. cbn [app firstn]. rewrite <- IH. reflexivity.
  - destruct cur as [|x cur].
    + rewrite elems_of_cons. cbn [app]. rewrite <- IHr. reflexivity.
    + cbn [app firstn]. rewrite <- IH. reflexivity.
Qed.

Lemma walk_above_spec : forall n cur rest,
  walk_above n cur rest = firstn n (cur ++ concat (map (fun s => rev (sg_elems s)) rest)).
Proof.
  induction n as [|n IH]; intros cur rest; [reflexivity|].
  revert cur. induction rest as [|s r IHr]; intros cur.
  - destruct cur as [|x cur]; [reflexivity|]. cbn [app firstn]. rewrite <- IH. reflexivity.
  - destruct cur as [|x cur].
    + cbn [map concat app]. rewrite <- IHr. reflexivity.
    + cbn [app firstn]. rewrite <- IH. reflexivity.
Qed.

Lemma rev_elems a : concat (map (fun s => rev (sg_elems s)) (rev a)) = rev (elems_of a).
Proof.
  induction a as [|s a IH]; [reflexivity|]. cbn [rev]. rewrite map_app, concat_app, IH, elems_of_cons, rev_app_distr.
  cbn. rewrite app_nil_r. reflexivity.
Qed.

(** the full answer for the element at position [i] of ranking [r] *)
Definition ranked_at (r : elements) (radius i : nat) (x : element) : ranked_element :=
  mkRE x (Z.of_nat i) (Z.of_nat (length r) - Z.of_nat i - 1)
       (firstn radius (rev (firstn i r))) (firstn radius (skipn (S i) r)) None.

Lemma find_idx_id_distinct l k x : distinct_ids l -> nth_error l k = Some x -> find_idx_id l (e_id x) = Some k.
Proof.
  intros Hd Hk. apply nth_error_split in Hk as (a & b & -> & <-).
  unfold find_idx_id. apply find_idx_app_first; [|lia].
  apply Forall_forall. intros y Hy. unfold distinct_ids in Hd. rewrite map_app in Hd. cbn in Hd.
  apply NoDup_remove_2 in Hd. destruct (N.eqb_spec (e_id y) (e_id x)) as [E|]; [|reflexivity].
  exfalso. apply Hd. apply in_or_app. left. rewrite <- E. apply in_map. exact Hy.
Qed.

Lemma distinct_ids_app_r a b : distinct_ids (a ++ b) -> distinct_ids b.
Proof. unfold distinct_ids. rewrite map_app. intros H. apply NoDup_app_iff in H. tauto. Qed.
Lemma distinct_ids_app_l a b : distinct_ids (a ++ b) -> distinct_ids a.
Proof. unfold distinct_ids. rewrite map_app. intros H. apply NoDup_app_iff in H. tauto. Qed.

Lemma find_ranked_spec a s b k x radius : distinct_ids (elems_of (a ++ s :: b)) ->
  nth_error (sg_elems s) k = Some x ->
  let l := a ++ s :: b in
  let i := (length (elems_of a) + k)%nat in
  nth_error (elems_of l) i = Some x /\
  (exists r, find_ranked l (length a) (e_id x) (length (elems_of a)) radius = Some r /\
    calc_bottom (length (elems_of l)) r = ranked_at (elems_of l) radius i x).
Proof.
  intros Hd Hk l i.
  assert (Hds : distinct_ids (sg_elems s)).
  { rewrite elems_of_app, elems_of_cons in Hd. apply distinct_ids_app_r, distinct_ids_app_l in Hd. exact Hd. }
  assert (Hel : elems_of l = elems_of a ++ sg_elems s ++ elems_of b).
  { unfold l. rewrite elems_of_app, elems_of_cons. reflexivity. }
  assert (Hkl : (k < length (sg_elems s))%nat) by (apply nth_error_Some; congruence).
  split.
  { rewrite Hel. unfold i. rewrite nth_error_app2 by lia.
    replace (length (elems_of a) + k - length (elems_of a))%nat with k by lia.
    rewrite nth_error_app1 by lia. exact Hk. }
  unfold find_ranked, l. rewrite nth_error_app2, Nat.sub_diag by lia. cbn [nth_error].
  rewrite (find_idx_id_distinct _ _ _ Hds Hk), Hk. eexists. split; [reflexivity|].
  unfold calc_bottom, ranked_at. cbn [re_elem re_top re_bottom re_above re_below re_before].
  rewrite walk_above_spec, walk_below_spec. fold l. f_equal.
  - replace (firstn (length a) l) with a.
    2:{ unfold l. rewrite firstn_app, Nat.sub_diag, firstn_all. cbn. rewrite app_nil_r. reflexivity. }
    rewrite rev_elems, <- rev_app_distr. f_equal. f_equal. rewrite Hel. unfold i.
    rewrite firstn_app, (firstn_all2 (elems_of a)) by lia. f_equal.
    replace (length (elems_of a) + k - length (elems_of a))%nat with k by lia.
    rewrite firstn_app. replace (k - length (sg_elems s))%nat with 0%nat by lia.
    rewrite firstn_O, app_nil_r. reflexivity.
  - f_equal. rewrite Hel. unfold i. rewrite skipn_app_ge by lia.
    replace (S (length (elems_of a) + k) - length (elems_of a))%nat with (S k) by lia.
    rewrite skipn_app_lt by lia. f_equal.
    replace (skipn (S (length a)) l) with b; [reflexivity|].
    unfold l. rewrite skipn_app_ge by lia. replace (S (length a) - length a)%nat with 1%nat by lia. reflexivity.
Qed.

(** ** segment index map *)
Lemma idx_get_from : forall l k i s, NoDup (map sg_id l) -> nth_error l i = Some s ->
  idx_get (mapi_from k (fun i s => (sg_id s, i)) l) (sg_id s) = (k + i)%nat.
Proof.
  unfold idx_get. induction l as [|y r IH]; intros k i s Hn Hi; [destruct i; discriminate|].
  cbn [mapi_from assoc map] in *. apply NoDup_cons_iff in Hn as (Hy & Hn).
  destruct i as [|i]; cbn in Hi.
  - inv Hi. rewrite N.eqb_refl. lia.
  - destruct (N.eqb_spec (sg_id y) (sg_id s)) as [E|E].
    + exfalso. apply Hy. rewrite E. apply in_map. eapply nth_error_In; eauto.
    + rewrite (IH (S k) i s Hn Hi). lia.
Qed.
Lemma idx_get_build l i s : NoDup (map sg_id l) -> nth_error l i = Some s -> idx_get (build_idx l) (sg_id s) = i.
Proof. intros Hn Hi. unfold build_idx, mapi. rewrite (idx_get_from l 0 i s Hn Hi). reflexivity. Qed.

Lemma build_idx_length l : length (build_idx l) = length l.
Proof. apply mapi_from_length. Qed.

Lemma reindex_idx s : ss_segs s <> [] -> (ss_idx s = [] \/ ss_idx s = build_idx (ss_segs s)) ->
  ss_idx (reindex s) = build_idx (ss_segs s) /\ ss_segs (reindex s) = ss_segs s /\
  ss_id (reindex s) = ss_id s /\ ss_next (reindex s) = ss_next s /\ ss_index (reindex s) = ss_index s.
Proof.
  intros Hne H. unfold reindex. destruct (Nat.eqb_spec (length (ss_idx s)) (length (ss_segs s))) as [E|E].
  - destruct H as [H|H].
    + exfalso. rewrite H in E. destruct (ss_segs s); [congruence|discriminate].
    + auto.
  - cbn. auto.
Qed.

Lemma tile_nonempty l : tile l -> l <> [].
Proof. destruct l; [contradiction|discriminate]. Qed.

Lemma top_offsets_nth : forall l n i, cnt_ok l -> (i < length l)%nat ->
  nth i (top_offsets_from n l) 0%nat = (n + length (elems_of (firstn i l)))%nat.
Proof.
  induction l as [|s r IH]; intros n i Hc Hi; [cbn in Hi; lia|].
  inversion Hc as [|? ? Hs Hr]; subst. destruct i as [|i]; cbn [top_offsets_from nth firstn].
  - cbn. lia.
  - cbn in Hi. rewrite IH by (auto; lia). rewrite elems_of_cons, app_length. lia.
Qed.

(** ** grouping *)
Lemma concat_map_app_perm {A B} (a b : A -> list B) : forall L,
  Permutation (concat (map (fun i => a i ++ b i) L)) (concat (map a L) ++ concat (map b L)).
Proof.
  induction L as [|x L IH]; cbn; [constructor|].
  rewrite IH, <- !app_assoc. apply Permutation_app_head. rewrite !app_assoc.
  apply Permutation_app_tail, Permutation_app_comm.
Qed.

Lemma concat_pick {B} (g : nat -> list B) k : forall n s, (s <= k < s + n)%nat ->
  concat (map (fun i => if Nat.eqb k i then g i else []) (seq s n)) = g k.
Proof.
  induction n as [|n IH]; intros s H; [lia|]. cbn [seq map concat].
  destruct (Nat.eqb_spec k s) as [->|Hne].
  - rewrite <- (app_nil_r (g s)) at 2. f_equal.
    clear IH. assert (E : forall m s', (s < s')%nat -> concat (map (fun i => if Nat.eqb s i then g i else []) (seq s' m)) = []).
    { induction m as [|m IHm]; intros s' Hs; [reflexivity|]. cbn [seq map concat].
      destruct (Nat.eqb_spec s s'); [lia|]. cbn. apply IHm. lia. }
    apply E. lia.
  - cbn. apply IH. lia.
Qed.

Lemma group_perm {A B} (f : A -> nat) (h : nat -> A -> list B) n : forall qs,
  (forall q, In q qs -> (f q < n)%nat) ->
  Permutation (concat (map (fun i => flat_map (h i) (filter (fun q => Nat.eqb (f q) i) qs)) (seq 0 n)))
              (flat_map (fun q => h (f q) q) qs).
Proof.
  induction qs as [|q qs IH]; intros H.
  - cbn. assert (E : concat (map (fun _ : nat => @nil B) (seq 0 n)) = []).
    { induction (seq 0 n); [reflexivity|exact IHl]. }
    rewrite E. constructor.
  - cbn [flat_map]. rewrite <- IH by (intros; apply H; right; assumption).
    rewrite <- (concat_pick (fun i => h i q) (f q) n 0) by (specialize (H q (or_introl eq_refl)); lia).
    rewrite <- concat_map_app_perm. erewrite map_ext; [reflexivity|].
    intros i. cbn [filter]. destruct (Nat.eqb (f q) i); reflexivity.
Qed.

Lemma concat_filter_nonempty {A B} (g : A -> list B) (p : A -> bool) L :
  (forall x, In x L -> p x = false -> g x = []) -> concat (map g (filter p L)) = concat (map g L).
Proof.
  induction L as [|x L IH]; intros H; [reflexivity|]. cbn.
  destruct (p x) eqn:E; cbn; rewrite IH; auto; try (intros; apply H; cbn; auto).
  rewrite (H x) by (cbn; auto). reflexivity.
Qed.

Lemma Permutation_concat {A} (l l' : list (list A)) : Permutation l l' -> Permutation (concat l) (concat l').
Proof.
  induction 1; cbn; auto.
  - apply Permutation_app_head. assumption.
  - rewrite !app_assoc. apply Permutation_app_tail, Permutation_app_comm.
  - etransitivity; eauto.
Qed.

Lemma flat_map_map {A B C} (f : B -> list C) (g : A -> B) l : flat_map f (map g l) = flat_map (fun x => f (g x)) l.
Proof. induction l; cbn; congruence. Qed.
Lemma flat_map_single {A B} (f : A -> list B) (g : A -> B) l :
  (forall x, In x l -> f x = [g x]) -> flat_map f l = map g l.
Proof. induction l; cbn; intros H; [reflexivity|]. rewrite H by auto. cbn. f_equal. auto. Qed.

Lemma mapi_seq {A B} (f : nat -> A -> B) (g : nat -> B) : forall l k,
  (forall i x, f i x = g i) -> mapi_from k f l = map g (seq k (length l)).
Proof. induction l as [|x l IH]; intros k H; [reflexivity|]. cbn. f_equal; auto. Qed.

(** where an indexed element is stored *)
Lemma linked_at P Q ss is q : core P Q ss is -> Q q ->
  exists a s b k x, ss = a ++ s :: b /\ nth_error (sg_elems s) k = Some x /\
    e_id x = e_id q /\ sg_id s = e_tie q /\ P x.
Proof.
  intros HC Hq. destruct (proj1 (c_link _ _ _ _ HC (e_id q) (e_tie q))) as (s & x & Hs & Hx & Ei & Es).
  { exists q. auto. }
  destruct (score_ok_seg _ _ s x (c_s _ _ _ _ HC) Hs Hx) as (Px & _).
  apply in_split in Hs as (a & b & ->). apply In_nth_error in Hx as (k & Hk).
  exists a, s, b, k, x. auto.
Qed.

Lemma indexed P Q ss is x : core P Q ss is -> P x -> exists q, Q q /\ e_id q = e_id x.
Proof.
  intros HC Hx. rewrite <- (score_ok_In _ _ x (c_s _ _ _ _ HC)) in Hx.
  apply elems_of_In in Hx as (s & Hs & Hx).
  destruct (proj2 (c_link _ _ _ _ HC (e_id x) (sg_id s))) as (q & Hq & E & _); [exists s, x; auto|].
  exists q. auto.
Qed.

Lemma find_elements_spec P Q s is sc qs radius : core P Q (ss_segs s) is -> cnt_ok (ss_segs s) ->
  ss_idx s = [] \/ ss_idx s = build_idx (ss_segs s) -> (forall q, In q qs -> Q q) ->
  exists f : element -> ranked_element,
    Permutation (find_elements sc s qs radius) (map f qs) /\
    forall q, In q qs -> exists i x, nth_error (elems_of (ss_segs s)) i = Some x /\ e_id x = e_id q /\
                         f q = ranked_at (elems_of (ss_segs s)) radius i x.
Proof.
  intros HC Hcnt HM HQ.
  pose proof (c_s _ _ _ _ HC) as HS.
  destruct (reindex_idx s (tile_nonempty _ (so_tile _ _ HS)) HM) as (Ei & Es & _).
  pose proof (c_nd _ _ _ _ HC) as Hnd.
  pose proof (score_ok_distinct _ _ HS) as Hd.
  unfold find_elements. rewrite Es, Ei. set (l := ss_segs s) in *. cbn zeta.
  set (F := fun i (q : element) => match find_ranked l i (e_id q) (nth i (top_offsets l) 0%nat) radius with
                       | Some r => [calc_bottom (count l) r] | None => [] end).
  assert (HF : forall q, In q qs -> exists i x, (idx_get (build_idx l) (e_tie q) < length l)%nat /\
      nth_error (elems_of l) i = Some x /\ e_id x = e_id q /\
      F (idx_get (build_idx l) (e_tie q)) q = [ranked_at (elems_of l) radius i x]).
  { intros q Hq. destruct (linked_at _ _ _ _ q HC (HQ q Hq)) as (a & t & b & k & x & El & Hk & Eix & Et & Px).
    assert (Hnt : nth_error l (length a) = Some t) by (rewrite El, nth_error_app2, Nat.sub_diag by lia; reflexivity).
    rewrite <- Et, (idx_get_build _ _ _ Hnd Hnt).
    assert (Hlt : (length a < length l)%nat) by (apply nth_error_Some; congruence).
    rewrite El in Hd. destruct (find_ranked_spec a t b k x radius Hd Hk) as (Hn & r & Hr & Hcb).
    rewrite <- El in Hn, Hr, Hcb. exists (length (elems_of a) + k)%nat, x.
    split; [exact Hlt|]. split; [exact Hn|]. split; [exact Eix|].
    unfold F. rewrite <- Eix. unfold top_offsets. rewrite top_offsets_nth by assumption.
    replace (firstn (length a) l) with a.
    2:{ rewrite El, firstn_app, Nat.sub_diag, firstn_all, firstn_O, app_nil_r. reflexivity. }
    cbn [Nat.add]. rewrite Hr, count_elems, Hcb by exact Hcnt. reflexivity. }
  exists (fun q => hd (mkRE q 0 0 [] [] None) (F (idx_get (build_idx l) (e_tie q)) q)). split.
  - etransitivity; [apply Permutation_concat, permute_perm|].
    rewrite concat_filter_nonempty.
    2:{ intros g _ Hg. destruct (snd g); [reflexivity|discriminate]. }
    unfold mapi. rewrite mapi_seq with (g := fun i => (i, ids_for (build_idx l) i qs)) by reflexivity.
    rewrite map_map. cbn [fst snd].
    erewrite map_ext.
    2:{ intros i. unfold ids_for. rewrite flat_map_map. fold (F i). reflexivity. }
    etransitivity; [apply (group_perm (fun q => idx_get (build_idx l) (e_tie q)) F (length l))|].
    + intros q Hq. destruct (HF q Hq) as (i & x & H & _). exact H.
    + erewrite flat_map_single; [reflexivity|]. intros q Hq.
      destruct (HF q Hq) as (i & x & _ & _ & _ & ->). reflexivity.
  - intros q Hq. destruct (HF q Hq) as (i & x & _ & Hn & E & EF). exists i, x. rewrite EF. auto.
Qed.

(** ** index lookups *)
Lemma aligned_in_range s q : aligned [s] -> widths s -> elem_ok q -> in_range s q <-> owns s (e_score q).
Proof.
  intros HA Hw Ho. inversion HA as [|? ? (A & B) _]; subst. unfold in_range, kmin, kmax, key, kk, owns, elem_ok, max_u32 in *.
  rewrite A, B. lia.
Qed.
Lemma aligned_one l s : aligned l -> In s l -> aligned [s].
Proof. unfold aligned. rewrite Forall_forall. intros H Hs. constructor; [auto|constructor]. Qed.

(** an index by itself *)
Record icore (Q : element -> Prop) (is : list seg) : Prop := {
  ic_i : score_ok Q is;
  ic_al : aligned is;
  ic_form : forall q, Q q -> idx_elem q
}.
Lemma core_icore P Q ss is : core P Q ss is -> icore Q is.
Proof. intros HC. split; apply HC. Qed.

Lemma idx_seg_scores_i Q is s : icore Q is -> In s is ->
  StronglySorted (fun a b => e_score b < e_score a) (sg_elems s).
Proof.
  intros HC Hs. pose proof (ic_i _ _ HC) as HI.
  pose proof (score_ok_ranked _ _ HI) as HR. pose proof (score_ok_distinct _ _ HI) as HD.
  apply in_split in Hs as (a & b & E).
  rewrite E, elems_of_app, elems_of_cons in HR, HD.
  apply StronglySorted_app in HR as (_ & HR & _). apply StronglySorted_app in HR as (HR & _ & _).
  apply distinct_ids_app_r, distinct_ids_app_l in HD.
  assert (HQ : forall q, In q (sg_elems s) -> idx_elem q).
  { intros q Hq. apply (ic_form _ _ HC). eapply (score_ok_seg _ _ s q HI); [rewrite E; apply in_or_app; right; left; reflexivity|exact Hq]. }
  clear -HR HD HQ. induction HR as [|x r HR IH HF]; constructor.
  - apply IH; [|intros; apply HQ; right; assumption]. unfold distinct_ids in *. cbn in HD.
    apply NoDup_cons_iff in HD. tauto.
  - unfold distinct_ids in HD. cbn in HD. apply NoDup_cons_iff in HD as (Hx & _).
    rewrite Forall_forall in *. intros y Hy. specialize (HF y Hy).
    destruct (HQ x (or_introl eq_refl)) as (Ex & _). destruct (HQ y (or_intror Hy)) as (Ey & _).
    assert (e_id x <> e_id y) by (intros C; apply Hx; rewrite C; apply in_map; exact Hy).
    unfold Above in HF. lia.
Qed.

Lemma idx_seg_scores P Q ss is s : core P Q ss is -> In s is ->
  StronglySorted (fun a b => e_score b < e_score a) (sg_elems s).
Proof. intros HC. apply (idx_seg_scores_i Q). eapply core_icore; eauto. Qed.

Lemma ranked_NoDup l : ranked l -> NoDup l.
Proof. apply StronglySorted_NoDup. intros x. apply Above_irrefl. Qed.

Lemma NoDup_elems_segs l i j s t x : NoDup (elems_of l) -> nth_error l i = Some s -> nth_error l j = Some t ->
  In x (sg_elems s) -> In x (sg_elems t) -> i = j.
Proof.
  revert i j. induction l as [|y r IH]; intros i j Hn Hi Hj Hs Ht; [destruct i; discriminate|].
  rewrite elems_of_cons in Hn. apply NoDup_app_iff in Hn as (Ha & Hb & Hab).
  destruct i as [|i], j as [|j]; cbn in Hi, Hj.
  - reflexivity.
  - inv Hi. exfalso. apply (Hab x Hs). apply elems_of_In. exists t. split; [eapply nth_error_In; eauto|exact Ht].
  - inv Hj. exfalso. apply (Hab x Ht). apply elems_of_In. exists s. split; [eapply nth_error_In; eauto|exact Hs].
  - f_equal. eapply IH; eauto.
Qed.

Lemma concat_groups_NoDup (l : list seg) (f : nat * list N -> elements) : NoDup (elems_of l) -> forall g,
  StronglySorted lt (map fst g) ->
  (forall p, In p g -> NoDup (f p) /\ exists s, nth_error l (fst p) = Some s /\ incl (f p) (sg_elems s)) ->
  NoDup (concat (map f g)).
Proof.
  intros Hn. induction g as [|p g IH]; intros Hs Hf; [constructor|]. cbn.
  cbn in Hs. apply StronglySorted_inv in Hs as (Hs & HF).
  destruct (Hf p (or_introl eq_refl)) as (Hnp & s & Hp & Hi).
  apply NoDup_app_intro; [exact Hnp|apply IH; auto; intros; apply Hf; right; assumption|].
  intros x Hx Hc. apply in_concat in Hc as (e & He & Hxe). apply in_map_iff in He as (p' & <- & Hp').
  destruct (Hf p' (or_intror Hp')) as (_ & t & Ht & Hi').
  pose proof (NoDup_elems_segs l _ _ _ _ x Hn Hp Ht (Hi x Hx) (Hi' x Hxe)).
  rewrite Forall_forall in HF. specialize (HF (fst p') (in_map fst _ _ Hp')). lia.
Qed.

Lemma get_first_with_score_i Q is sc ids : icore Q is -> Forall (fun v => v <= max_u64) ids -> NoDup ids ->
  NoDup (get_first_with_score sc is ids) /\
  (forall q, In q (get_first_with_score sc is ids) -> Q q) /\
  (forall q, Q q -> In (e_id q) ids -> In q (get_first_with_score sc is ids)).
Proof.
  intros HC Hb Hnd. pose proof (ic_i _ _ HC) as HI.
  destruct (split_scores_spec is ids (so_tile _ _ HI) (ic_al _ _ HC) Hb) as (Hcat & Hsort & Hg). cbn zeta in *.
  unfold get_first_with_score. set (g := split_scores is ids) in *.
  set (f := fun p : nat * list N => match nth_error is (fst p) with
            | Some s => first_with_score (sg_elems s) (snd p) | None => [] end).
  rewrite Forall_forall in Hg.
  assert (Hin : forall q, In q (concat (permute sc (map f g))) <-> exists p, In p g /\ In q (f p)).
  { intros q. rewrite in_concat. split.
    - intros (e & He & Hq). rewrite permute_In in He. apply in_map_iff in He as (p & <- & Hp). eauto.
    - intros (p & Hp & Hq). exists (f p). split; [|exact Hq]. rewrite permute_In. apply in_map. exact Hp. }
  assert (Hsd : StronglySorted (fun x y => y < x) (concat (map snd g))).
  { rewrite Hcat. apply sort_ids_desc_NoDup. exact Hnd. }
  split; [|split].
  - eapply Permutation_NoDup; [symmetry; apply Permutation_concat, permute_perm|].
    apply (concat_groups_NoDup is f).
    + apply ranked_NoDup. eapply score_ok_ranked; eauto.
    + exact Hsort.
    + intros p Hp. destruct (Hg p Hp) as (_ & s & Hs & _). unfold f. rewrite Hs. split.
      * apply first_with_score_NoDup.
        assert (Hr : NoDup (elems_of is)) by (apply ranked_NoDup; eapply score_ok_ranked; eauto).
        apply nth_error_In, in_split in Hs as (a & b & E). rewrite E, elems_of_app, elems_of_cons in Hr.
        apply NoDup_app_iff in Hr as (_ & Hr & _). apply NoDup_app_iff in Hr as (Hr & _). exact Hr.
      * exists s. split; [reflexivity|]. intros x Hx. eapply first_with_score_sub; eauto.
  - intros q Hq. apply Hin in Hq as (p & Hp & Hq). destruct (Hg p Hp) as (_ & s & Hs & _).
    unfold f in Hq. rewrite Hs in Hq. apply first_with_score_sub in Hq.
    eapply (score_ok_seg _ _ s q HI); eauto using nth_error_In.
  - intros q Hq Hid. apply Hin.
    assert (Hid' : In (e_id q) (concat (map snd g))) by (rewrite Hcat, sort_ids_desc_In; exact Hid).
    apply in_concat in Hid' as (v & Hv & Hqv). apply in_map_iff in Hv as (p & <- & Hp).
    exists p. split; [exact Hp|]. destruct (Hg p Hp) as (_ & s & Hs & Ho). unfold f. rewrite Hs.
    rewrite Forall_forall in Ho. specialize (Ho _ Hqv).
    destruct (ic_form _ _ HC q Hq) as (Esq & _).
    apply first_with_score_complete.
    + eapply idx_seg_scores_i; eauto using nth_error_In.
    + apply in_split in Hp as (g1 & g2 & Eg). rewrite Eg, map_app, concat_app in Hsd. cbn in Hsd.
      apply StronglySorted_app in Hsd as (_ & Hsd & _). apply StronglySorted_app in Hsd as (Hsd & _). exact Hsd.
    + pose proof (holds_nth _ _ _ _ (so_holds _ _ HI) Hs) as (_ & Hh). apply Hh. split; [exact Hq|].
      apply aligned_in_range.
      * eapply aligned_one; [apply (ic_al _ _ HC)|eauto using nth_error_In].
      * pose proof (tile_from_widths _ _ (so_tile _ _ HI)) as Hw. rewrite Forall_forall in Hw. eauto using nth_error_In.
      * apply good_ok. apply (so_good _ _ HI). exact Hq.
      * rewrite Esq. exact Ho.
    + rewrite Esq. exact Hqv.
Qed.

Lemma get_first_with_score_spec P Q ss is sc ids : core P Q ss is -> Forall (fun v => v <= max_u64) ids -> NoDup ids ->
  NoDup (get_first_with_score sc is ids) /\
  (forall q, In q (get_first_with_score sc is ids) -> Q q) /\
  (forall q, Q q -> In (e_id q) ids -> In q (get_first_with_score sc is ids)).
Proof. intros HC. apply get_first_with_score_i. eapply core_icore; eauto. Qed.

Lemma mem_id_spec x l : mem_id x l = true <-> In x l.
Proof.
  unfold mem_id. rewrite existsb_exists. split.
  - intros (y & Hy & E). apply N.eqb_eq in E. subst. exact Hy.
  - intros H. exists x. split; [exact H|apply N.eqb_refl].
Qed.
Lemma mem_id_false x l : mem_id x l = false <-> ~ In x l.
Proof. rewrite <- mem_id_spec. destruct (mem_id x l); intuition congruence. Qed.

Lemma index_elements_i Q l sc ids : icore Q (ss_segs (l_index l)) ->
  Forall (fun v => v <= max_u64) ids ->
  distinct_ids (get_index_elements sc l ids) /\
  forall q, In q (get_index_elements sc l ids) <-> Q q /\ In (e_id q) ids.
Proof.
  intros HC Hb.
  assert (Hb' : Forall (fun v => v <= max_u64) (nodup N.eq_dec ids)).
  { rewrite Forall_forall in *. intros v Hv. apply nodup_In in Hv. auto. }
  destruct (get_first_with_score_i _ _ sc _ HC Hb' (NoDup_nodup N.eq_dec ids)) as (Hn & Hs & Hc).
  unfold get_index_elements.
  assert (Hiff : forall q, In q (filter (fun e => mem_id (e_score e) ids)
         (get_first_with_score sc (ss_segs (l_index l)) (nodup N.eq_dec ids))) <-> Q q /\ In (e_id q) ids).
  { intros q. rewrite filter_In, mem_id_spec. split.
    - intros (Hq & Hi). specialize (Hs q Hq). destruct (ic_form _ _ HC q Hs) as (E & _). rewrite <- E. auto.
    - intros (Hq & Hi). destruct (ic_form _ _ HC q Hq) as (E & _). rewrite E. split; [|exact Hi].
      apply Hc; [exact Hq|]. apply nodup_In. exact Hi. }
  split; [|exact Hiff].
  assert (Hn' : NoDup (filter (fun e => mem_id (e_score e) ids)
         (get_first_with_score sc (ss_segs (l_index l)) (nodup N.eq_dec ids)))) by (apply NoDup_filter; exact Hn).
  revert Hn' Hiff. generalize (filter (fun e => mem_id (e_score e) ids)
         (get_first_with_score sc (ss_segs (l_index l)) (nodup N.eq_dec ids))). intros L Hn' Hiff.
  assert (HL : forall q, In q L -> Q q) by (intros q Hq; apply Hiff; exact Hq). clear Hiff.
  unfold distinct_ids. induction Hn' as [|x r Hx Hn' IH]; cbn; constructor.
  - intros C. apply in_map_iff in C as (y & E & Hy). apply Hx.
    assert (x = y) by (apply (so_uniq _ _ (ic_i _ _ HC)); [apply HL; left; reflexivity|apply HL; right; exact Hy|congruence]).
    subst y. exact Hy.
  - apply IH. intros q Hq. apply HL. right; exact Hq.
Qed.

Lemma index_elements_spec P Q l sc ids : core P Q (ss_segs (l_scores l)) (ss_segs (l_index l)) ->
  Forall (fun v => v <= max_u64) ids ->
  distinct_ids (get_index_elements sc l ids) /\
  forall q, In q (get_index_elements sc l ids) <-> Q q /\ In (e_id q) ids.
Proof. intros HC. apply index_elements_i. eapply core_icore; eauto. Qed.

(** ** GetElements *)
Lemma get_elements_spec P l sc1 sc2 ids radius : Qok P l -> Forall (fun v => v <= max_u64) ids ->
  let res := get_elements sc1 sc2 l ids radius in
  NoDup (map (fun re => e_id (re_elem re)) res) /\
  (forall re, In re res <-> exists i x, nth_error (contents l) i = Some x /\ In (e_id x) ids /\
                            re = ranked_at (contents l) radius i x).
Proof.
  intros HI Hb res. destruct (q_core _ _ HI) as (Q & HC).
  destruct (index_elements_spec _ _ _ sc1 _ HC Hb) as (Hd & Hiff).
  destruct (find_elements_spec _ _ _ _ sc2 (get_index_elements sc1 l ids) radius HC (q_cnt _ _ HI) (q_idx _ _ HI)) as (f & Hp & Hf).
  { intros q Hq. apply Hiff in Hq. tauto. }
  fold (contents l) in Hf. unfold get_elements in res. fold res in Hp.
  assert (Hcd : distinct_ids (contents l)) by (eapply score_ok_distinct, (c_s _ _ _ _ HC)).
  split.
  - eapply Permutation_NoDup; [symmetry; apply Permutation_map, Hp|].
    rewrite map_map. erewrite map_ext_in; [exact Hd|].
    intros q Hq. destruct (Hf q Hq) as (i & x & _ & E & ->). cbn. exact E.
  - intros re. split.
    + intros Hre. apply (Permutation_in _ Hp) in Hre. apply in_map_iff in Hre as (q & <- & Hq).
      destruct (Hf q Hq) as (i & x & Hn & E & Ef). exists i, x. split; [exact Hn|]. split; [|exact Ef].
      rewrite E. apply Hiff. exact Hq.
    + intros (i & x & Hn & Hi & ->).
      assert (Px : P x) by (eapply score_ok_In; [apply (c_s _ _ _ _ HC)|eapply nth_error_In; eauto]).
      destruct (indexed _ _ _ _ x HC Px) as (q & Hq & Eq).
      assert (Hqin : In q (get_index_elements sc1 l ids)) by (apply Hiff; rewrite Eq; auto).
      destruct (Hf q Hqin) as (j & y & Hny & Ey & Ef).
      assert (i = j).
      { unfold distinct_ids in Hcd. rewrite NoDup_nth_error in Hcd. apply Hcd.
        - rewrite map_length. apply nth_error_Some. congruence.
        - rewrite !nth_error_map, Hn, Hny. cbn. congruence. }
      subst j. assert (x = y) by congruence. subst y. rewrite <- Ef.
      apply (Permutation_in _ (Permutation_sym Hp)). apply in_map. exact Hqin.
Qed.
