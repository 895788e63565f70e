(** Ranges, tiling, FilterIdx, splitScores and FirstElementsWithScore. *)
From Coq Require Import Strings.String.
From Verif.Lib Require Import Prelude ListAux ListLemmas SortLemmas Perm.
From Verif.Model Require Import Element Elements Segment.
From Verif.Spec Require Import RankSpec.
From Verif.Proof Require Import ElementP ElementsP.
Open Scope N_scope.

(** (score, tie) as one number, for field widths 64 and 32 *)
Definition kk (s t : N) : N := s * 4294967296 + t.
Definition key (e : element) : N := kk (e_score e) (e_tie e).
Definition kmin (s : seg) : N := kk (sg_min s) (sg_mintie s).
Definition kmax (s : seg) : N := kk (sg_max s) (sg_maxtie s).
Definition topk : N := kk max_u64 max_u32.
Definition in_range (s : seg) (e : element) : Prop := kmin s <= key e <= kmax s.
Definition inr (s : seg) (e : element) : bool := (kmin s <=? key e) && (key e <=? kmax s).

Lemma inr_spec s e : inr s e = true <-> in_range s e.
Proof. unfold inr, in_range. lia. Qed.

Definition widths (s : seg) : Prop :=
  sg_mintie s <= max_u32 /\ sg_maxtie s <= max_u32 /\ sg_min s <= max_u64 /\ sg_max s <= max_u64.

Fixpoint tile_from (k : N) (l : list seg) : Prop :=
  match l with
  | [] => False
  | s :: r => kmax s = k /\ kmin s <= kmax s /\ widths s /\
              match r with
              | [] => kmin s = 0
              | _ => 0 < kmin s /\ tile_from (kmin s - 1) r
              end
  end.
Definition tile (l : list seg) : Prop := tile_from topk l.

(** element fields as the code can store them *)
Definition good (e : element) : Prop := elem_ok e /\ 0 < e_upd e < max_u32.
(** incoming elements may have update time 0 (set on storing) *)
Definition good_in (e : element) : Prop := elem_ok e /\ e_upd e < max_u32.

Lemma good_good_in e : good e -> good_in e.
Proof. unfold good, good_in. tauto || intuition. Qed.

Lemma key_le_top e : elem_ok e -> key e <= topk.
Proof. unfold elem_ok, key, topk, kk, max_u64, max_u32. lia. Qed.

Lemma key_lt_Above a b : elem_ok a -> elem_ok b -> key b < key a -> Above a b.
Proof. unfold elem_ok, key, kk, Above, max_u32. lia. Qed.
Lemma Above_key_le a b : elem_ok a -> elem_ok b -> Above a b -> key b <= key a.
Proof. unfold elem_ok, key, kk, Above, max_u32. lia. Qed.
Lemma notAbove_key_le a b : elem_ok a -> elem_ok b -> ~ Above b a -> key b <= key a.
Proof. unfold elem_ok, key, kk, Above, max_u32. lia. Qed.

(** ** Tiling *)

Lemma tile_from_kmax k l s : tile_from k l -> In s l -> kmax s <= k.
Proof.
  revert k; induction l as [|x r IH]; cbn; intros k H Hin; [contradiction|].
  destruct H as (Hk & Hle & _ & Hr). destruct Hin as [->|Hin]; [lia|].
  destruct r as [|y r]; [contradiction|]. destruct Hr as (Hpos & Hr).
  specialize (IH _ Hr Hin). lia.
Qed.

Lemma tile_from_widths k l : tile_from k l -> Forall widths l.
Proof.
  revert k; induction l as [|x r IH]; cbn; intros k H; [contradiction|].
  destruct H as (_ & _ & Hw & Hr). constructor; [exact Hw|].
  destruct r; [constructor|]. destruct Hr as (_ & Hr). eauto.
Qed.

Lemma tile_from_le k l : tile_from k l -> Forall (fun s => kmin s <= kmax s) l.
Proof.
  revert k; induction l as [|x r IH]; cbn; intros k H; [contradiction|].
  destruct H as (_ & Hle & _ & Hr). constructor; [exact Hle|].
  destruct r; [constructor|]. destruct Hr as (_ & Hr). eauto.
Qed.

Lemma tile_from_order : forall l k i j s t, tile_from k l ->
  nth_error l i = Some s -> nth_error l j = Some t -> (i < j)%nat -> kmax t < kmin s.
Proof.
  induction l as [|x r IH]; intros k i j s t H Hi Hj Hij; [destruct i; discriminate|].
  cbn in H. destruct H as (_ & _ & _ & Hr).
  destruct j as [|j]; [lia|]. destruct r as [|y r]; [destruct j; discriminate|].
  destruct Hr as (Hpos & Hr). cbn in Hj. destruct i as [|i]; cbn in Hi.
  - inv Hi. pose proof (tile_from_kmax _ _ _ Hr (nth_error_In _ _ Hj)). lia.
  - eapply (IH _ i j); eauto; lia.
Qed.

Lemma tile_from_locate : forall l k v, tile_from k l -> v <= k ->
  exists i s, nth_error l i = Some s /\ kmin s <= v <= kmax s.
Proof.
  induction l as [|x r IH]; intros k v H Hv; [contradiction|].
  cbn in H. destruct H as (Hk & Hle & _ & Hr).
  destruct (N.le_gt_cases (kmin x) v) as [Hge|Hlt].
  - exists 0%nat, x. cbn. split; [reflexivity|lia].
  - destruct r as [|y r]; [lia|]. destruct Hr as (Hpos & Hr).
    destruct (IH _ v Hr ltac:(lia)) as (i & s & Hi & Hs). exists (S i), s. auto.
Qed.

Lemma tile_from_unique l k i j s t v : tile_from k l ->
  nth_error l i = Some s -> nth_error l j = Some t ->
  kmin s <= v <= kmax s -> kmin t <= v <= kmax t -> i = j.
Proof.
  intros H Hi Hj Hs Ht.
  destruct (Nat.lt_trichotomy i j) as [L|[E|L]]; [|exact E|]; exfalso.
  - pose proof (tile_from_order _ _ _ _ _ _ H Hi Hj L). lia.
  - pose proof (tile_from_order _ _ _ _ _ _ H Hj Hi L). lia.
Qed.

(** ** Contents *)

Definition seg_holds (P : element -> Prop) (s : seg) : Prop :=
  ranked (sg_elems s) /\ forall x, In x (sg_elems s) <-> P x /\ in_range s x.
Definition holds (P : element -> Prop) (l : list seg) : Prop := Forall (seg_holds P) l.
Definition elems_of (l : list seg) : elements := concat (map sg_elems l).

Lemma elems_of_In l x : In x (elems_of l) <-> exists s, In s l /\ In x (sg_elems s).
Proof.
  unfold elems_of. rewrite in_concat. split.
  - intros (e & He & Hx). apply in_map_iff in He as (s & <- & Hs). eauto.
  - intros (s & Hs & Hx). exists (sg_elems s). split; [apply in_map; exact Hs|exact Hx].
Qed.

Lemma elems_of_app a b : elems_of (a ++ b) = elems_of a ++ elems_of b.
Proof. unfold elems_of. rewrite map_app, concat_app. reflexivity. Qed.
Lemma elems_of_cons s l : elems_of (s :: l) = sg_elems s ++ elems_of l.
Proof. reflexivity. Qed.

Lemma holds_nth P l i s : holds P l -> nth_error l i = Some s -> seg_holds P s.
Proof. intros H Hi. apply nth_error_In in Hi. unfold holds in H. rewrite Forall_forall in H. auto. Qed.

Lemma holds_elems_In P l x : tile l -> holds P l -> (forall x, P x -> elem_ok x) ->
  In x (elems_of l) <-> P x.
Proof.
  intros HT HH HP. rewrite elems_of_In. split.
  - intros (s & Hs & Hx). unfold holds in HH. rewrite Forall_forall in HH.
    apply (HH s Hs) in Hx. tauto.
  - intros Hx. destruct (tile_from_locate _ _ (key x) HT (key_le_top _ (HP _ Hx))) as (i & s & Hi & Hr).
    exists s. split; [eapply nth_error_In; eauto|].
    apply (holds_nth _ _ _ _ HH Hi). split; [exact Hx|exact Hr].
Qed.

Lemma holds_ranked P : forall l k, tile_from k l -> holds P l -> (forall x, P x -> elem_ok x) ->
  ranked (elems_of l).
Proof.
  induction l as [|s r IH]; intros k HT HH HP; [constructor|].
  rewrite elems_of_cons. apply StronglySorted_app.
  inversion HH as [|? ? Hs HHr]; subst.
  cbn in HT. destruct HT as (Hk & Hle & _ & Hr).
  assert (Hrr : ranked (elems_of r)).
  { destruct r; [constructor|]. destruct Hr as (_ & Hr). eapply IH; eauto. }
  split; [apply Hs|]. split; [exact Hrr|].
  intros x y Hx Hy. apply elems_of_In in Hy as (t & Ht & Hy).
  assert (Hyt : P y /\ in_range t y).
  { rewrite Forall_forall in HHr. apply (HHr t Ht). exact Hy. }
  apply Hs in Hx. destruct Hx as (Px & Rx). destruct Hyt as (Py & Ry).
  destruct r as [|t' r']; [contradiction|]. destruct Hr as (Hpos & Hr).
  pose proof (tile_from_kmax _ _ _ Hr Ht). unfold in_range in *.
  apply key_lt_Above; auto. lia.
Qed.

(** ** FilterIdx *)

Lemma find_idx_filter_prefix {A} (p : A -> bool) l i : find_idx p l = Some i ->
  (i < length l)%nat /\ Forall (fun y => p y = false) (firstn i l) /\
  exists x, nth_error l i = Some x /\ p x = true.
Proof.
  intros H. apply find_idx_some in H as (a & x & b & -> & <- & Hx & Ha).
  rewrite app_length. cbn [length]. split; [lia|].
  rewrite firstn_app, firstn_all, Nat.sub_diag. cbn [firstn]. rewrite app_nil_r.
  split; [exact Ha|]. exists x. rewrite nth_error_app2, Nat.sub_diag by lia. auto.
Qed.

Lemma start_spec s x : widths s -> elem_ok x ->
  aboveP x (mkE (sg_max s) 0 [] (sg_maxtie s) 0) = true <-> kmax s < key x.
Proof.
  intros (_ & Hw & _) Hx. rewrite aboveP_above, above_spec.
  unfold Above, kmax, key, kk, elem_ok, max_u32 in *. cbn. lia.
Qed.
Lemma end_spec s x : widths s -> elem_ok x -> e_upd x < max_u32 ->
  aboveP x (mkE (sg_min s) 0 [] (sg_mintie s) max_u32) = true <-> kmin s <= key x.
Proof.
  intros (Hw & _ & _) Hx Hu. rewrite aboveP_above, above_spec.
  unfold Above, kmin, key, kk, elem_ok, max_u32 in *. cbn. lia.
Qed.

(** in a weakly ranked list keys do not increase *)
Lemma weak_keys l : weakly_ranked l -> Forall elem_ok l ->
  StronglySorted (fun a b => key b <= key a) l.
Proof.
  intros H Hok. rewrite Forall_forall in Hok. eapply StronglySorted_impl_In; [|exact H].
  cbn. intros x y Hx Hy Hn. apply notAbove_key_le; auto.
Qed.

Lemma filter_split_mono {A} (p : A -> bool) a b :
  (forall x, In x a -> p x = true) -> (forall x, In x b -> p x = false) -> filter p (a ++ b) = a.
Proof. intros Ha Hb. rewrite filter_app, filter_all, filter_none; auto. apply app_nil_r. Qed.

Lemma filter_idx_spec s e a b : widths s -> kmin s <= kmax s ->
  weakly_ranked e -> Forall good_in e ->
  filter_idx s e = (a, b) ->
  (a <= b <= length e)%nat /\ slice e a b = filter (inr s) e /\
  ((forall x, In x e -> key x <= kmax s) -> a = 0%nat /\ skipn b e = filter (fun x => key x <? kmin s) e) /\
  (forall x, In x (firstn a e) -> kmax s < key x).
Proof.
  intros Hw Hmm Hr Hg H.
  assert (Hok : Forall elem_ok e) by (eapply Forall_impl; [|exact Hg]; unfold good_in; tauto).
  pose proof (weak_keys _ Hr Hok) as HK.
  assert (Hst : forall x, In x e -> negb (aboveP x (mkE (sg_max s) 0 [] (sg_maxtie s) 0)) = (key x <=? kmax s)).
  { intros x Hx. rewrite Forall_forall in Hok. pose proof (start_spec s x Hw (Hok x Hx)).
    destruct (aboveP x _); cbn; destruct (N.leb_spec (key x) (kmax s)); try reflexivity; exfalso; [|intuition lia].
    assert (kmax s < key x) by tauto. lia. }
  assert (Hen : forall x, In x e -> negb (aboveP x (mkE (sg_min s) 0 [] (sg_mintie s) max_u32)) = (key x <? kmin s)).
  { intros x Hx. rewrite Forall_forall in Hg. destruct (Hg x Hx) as (Ho & Hu).
    pose proof (end_spec s x Hw Ho Hu).
    destruct (aboveP x _); cbn; destruct (N.ltb_spec (key x) (kmin s)); try reflexivity; exfalso; [|intuition lia].
    assert (kmin s <= key x) by tauto. lia. }
  unfold filter_idx in H.
  destruct (find_idx _ e) as [st|] eqn:E1.
  2:{ inv H. rewrite find_idx_none in E1.
      assert (Hall : forall x, In x e -> kmax s < key x).
      { intros x Hx. specialize (E1 x Hx). cbn beta in E1. rewrite Hst in E1 by exact Hx. lia. }
      split; [lia|]. split.
      - unfold slice. cbn. symmetry. apply filter_none. intros x Hx. specialize (Hall x Hx). unfold inr. lia.
      - split; [|cbn; contradiction]. intros Hle. split; [reflexivity|]. cbn [skipn].
        destruct e as [|x e]; [reflexivity|]. specialize (Hall x (or_introl eq_refl)).
        specialize (Hle x (or_introl eq_refl)). lia. }
  apply find_idx_filter_prefix in E1 as (Hlen & Hpre & x0 & Hx0 & Hp0).
  assert (Hpre' : forall x, In x (firstn st e) -> kmax s < key x).
  { intros x Hx. rewrite Forall_forall in Hpre. specialize (Hpre x Hx). cbn beta in Hpre.
    rewrite Hst in Hpre by (eapply In_firstn; eauto). lia. }
  rewrite Hst in Hp0 by (eapply nth_error_In; eauto).
  (* everything from st on is at or below kmax *)
  assert (Hpost : forall x, In x (skipn st e) -> key x <= kmax s).
  { intros x Hx. rewrite (skipn_cons_nth _ _ _ Hx0) in Hx.
    pose proof (StronglySorted_skipn _ st _ HK) as HK'. rewrite (skipn_cons_nth _ _ _ Hx0) in HK'.
    destruct Hx as [<-|Hx]; [lia|]. apply StronglySorted_inv in HK' as (_ & HF).
    rewrite Forall_forall in HF. specialize (HF x Hx). lia. }
  assert (Hin_sk : forall x, In x (skipn st e) -> In x e).
  { intros x Hx. rewrite <- (firstn_skipn st e). apply in_or_app; auto. }
  assert (Hin_fs : forall x, In x (firstn st e) -> In x e).
  { intros x Hx. rewrite <- (firstn_skipn st e). apply in_or_app; auto. }
  assert (Hfilt : filter (inr s) e = filter (fun x => kmin s <=? key x) (skipn st e)).
  { rewrite <- (firstn_skipn st e) at 1. rewrite filter_app, filter_none.
    - cbn. apply filter_ext_in. intros x Hx. specialize (Hpost x Hx). unfold inr. lia.
    - intros x Hx. specialize (Hpre' x Hx). unfold inr. lia. }
  assert (Hz : (forall x, In x e -> key x <= kmax s) -> st = 0%nat).
  { intros Hle. destruct st as [|st]; [reflexivity|]. exfalso.
    destruct e as [|y e]; [cbn in Hlen; lia|]. specialize (Hpre' y (or_introl eq_refl)).
    specialize (Hle y (or_introl eq_refl)). lia. }
  destruct (find_idx _ (skipn st e)) as [k|] eqn:E2.
  - inversion H; subst a b; clear H.
    apply find_idx_filter_prefix in E2 as (Hlen2 & Hpre2 & y0 & Hy0 & Hq0).
    rewrite skipn_length in Hlen2.
    assert (A1 : forall x, In x (firstn k (skipn st e)) -> (kmin s <=? key x) = true).
    { intros x Hx. rewrite Forall_forall in Hpre2. specialize (Hpre2 x Hx). cbn beta in Hpre2.
      assert (In x (skipn st e)) by (rewrite <- (firstn_skipn k (skipn st e)); apply in_or_app; auto).
      rewrite Hen in Hpre2 by auto. lia. }
    assert (A2 : forall x, In x (skipn k (skipn st e)) -> (kmin s <=? key x) = false).
    { intros x Hx. rewrite Hen in Hq0 by (apply Hin_sk; eapply nth_error_In; eauto).
      pose proof (StronglySorted_skipn _ k _ (StronglySorted_skipn _ st _ HK)) as HK'.
      rewrite (skipn_cons_nth _ _ _ Hy0) in Hx, HK'. destruct Hx as [<-|Hx]; [lia|].
      apply StronglySorted_inv in HK' as (_ & HF). rewrite Forall_forall in HF. specialize (HF x Hx). lia. }
    split; [lia|]. split.
    + unfold slice. replace (k + st - st)%nat with k by lia. rewrite Hfilt.
      rewrite <- (firstn_skipn k (skipn st e)) at 2. symmetry. apply filter_split_mono; auto.
    + split; [|exact Hpre']. intros Hle. specialize (Hz Hle). subst st. split; [reflexivity|].
      rewrite Nat.add_0_r. cbn [skipn] in *. rewrite <- (firstn_skipn k e) at 2.
      rewrite filter_app, filter_none, filter_all; [reflexivity| |].
      * intros x Hx. specialize (A2 x Hx). lia.
      * intros x Hx. specialize (A1 x Hx). lia.
  - inversion H; subst a b; clear H. rewrite find_idx_none in E2.
    assert (A1 : forall x, In x (skipn st e) -> (kmin s <=? key x) = true).
    { intros x Hx. specialize (E2 x Hx). cbn beta in E2. rewrite Hen in E2 by auto. lia. }
    split; [lia|]. split.
    + unfold slice. rewrite firstn_all2 by (rewrite skipn_length; lia).
      rewrite Hfilt. symmetry. apply filter_all. exact A1.
    + split; [|exact Hpre']. intros Hle. specialize (Hz Hle). subst st. split; [reflexivity|].
      rewrite skipn_all. symmetry. apply filter_none. intros x Hx. specialize (A1 x Hx). lia.
Qed.

Lemma slice_nil_iff {A} (l : list A) a b : (a <= b <= length l)%nat -> slice l a b = [] <-> a = b.
Proof.
  intros H. split; intros E.
  - assert (L : length (slice l a b) = 0%nat) by (rewrite E; reflexivity). rewrite slice_length in L; lia.
  - subst. unfold slice. rewrite Nat.sub_diag. reflexivity.
Qed.

(** splitElementsIdx: one entry per segment with matching elements *)
Lemma split_elements_from_spec e : weakly_ranked e -> Forall good_in e -> forall l i,
  Forall widths l -> Forall (fun s => kmin s <= kmax s) l ->
  split_elements_from i l e =
  flat_map (fun p => match filter (inr (snd p)) e with [] => [] | f => [(fst p, f)] end)
           (mapi_from i (fun j s => (j, s)) l).
Proof.
  intros Hr Hg; induction l as [|s r IH]; intros i Hw Hm; [reflexivity|].
  inversion Hw as [|? ? Hws Hwr]; subst. inversion Hm as [|? ? Hms Hmr]; subst.
  cbn [split_elements_from mapi_from flat_map fst snd].
  destruct (filter_idx s e) as [a b] eqn:E.
  destruct (filter_idx_spec _ _ _ _ Hws Hms Hr Hg E) as (Hab & Hsl & _).
  rewrite <- Hsl, <- (IH (S i)) by assumption.
  destruct (Nat.eqb_spec a b) as [->|Hne].
  - rewrite (proj2 (slice_nil_iff e b b ltac:(lia)) eq_refl). reflexivity.
  - destruct (slice e a b) eqn:Es; [apply slice_nil_iff in Es; lia|]. reflexivity.
Qed.

Lemma mapi_from_length {A B} (f : nat -> A -> B) : forall l k, length (mapi_from k f l) = length l.
Proof. induction l; cbn; intros; auto. Qed.
Lemma mapi_from_nth {A B} (f : nat -> A -> B) : forall l k i,
  nth_error (mapi_from k f l) i = option_map (f (k + i)%nat) (nth_error l i).
Proof.
  induction l as [|x r IH]; intros k i; destruct i; cbn; try reflexivity.
  - rewrite Nat.add_0_r. reflexivity.
  - rewrite IH. f_equal. f_equal. lia.
Qed.
Lemma mapi_nth {A B} (f : nat -> A -> B) l i :
  nth_error (mapi f l) i = option_map (f i) (nth_error l i).
Proof. unfold mapi. rewrite mapi_from_nth. reflexivity. Qed.
Lemma mapi_from_In {A B} (f : nat -> A -> B) l k y :
  In y (mapi_from k f l) <-> exists i x, nth_error l i = Some x /\ y = f (k + i)%nat x.
Proof.
  split.
  - intros H. apply In_nth_error in H as (i & Hi). rewrite mapi_from_nth in Hi.
    destruct (nth_error l i) as [x|] eqn:E; inv Hi. eauto.
  - intros (i & x & Hi & ->). apply nth_error_In with i. rewrite mapi_from_nth, Hi. reflexivity.
Qed.
Lemma mapi_In {A B} (f : nat -> A -> B) l y :
  In y (mapi f l) <-> exists i x, nth_error l i = Some x /\ y = f i x.
Proof. unfold mapi. rewrite mapi_from_In. reflexivity. Qed.

Lemma split_elements_In e l i f : weakly_ranked e -> Forall good_in e ->
  Forall widths l -> Forall (fun s => kmin s <= kmax s) l ->
  In (i, f) (split_elements_idx l e) <->
  f <> [] /\ exists s, nth_error l i = Some s /\ f = filter (inr s) e.
Proof.
  intros Hr Hg Hw Hm. unfold split_elements_idx. rewrite split_elements_from_spec by assumption.
  rewrite in_flat_map. split.
  - intros ((j & s) & Hj & Hf). apply mapi_from_In in Hj as (j' & x & Hj & E). inversion E; subst; clear E.
    cbn [fst snd] in Hf. destruct (filter (inr x) e) eqn:Ef; [contradiction|].
    destruct Hf as [Hf|[]]. inversion Hf; subst. split; [discriminate|]. exists x. auto.
  - intros (Hf & s & Hs & ->). exists (i, s). split.
    + apply mapi_from_In. exists i, s. auto.
    + cbn [fst snd]. destruct (filter (inr s) e); [congruence|]. left; reflexivity.
Qed.

(** ** Index ranges and splitScores *)

Definition aligned (l : list seg) : Prop := Forall (fun s => sg_mintie s = 0 /\ sg_maxtie s = max_u32) l.

(** the index segment responsible for an ID *)
Definition owns (s : seg) (v : N) : Prop := sg_min s <= v <= sg_max s.

Lemma take_ge_spec mn : forall l a b, take_ge mn l = (a, b) ->
  StronglySorted (fun x y => y <= x) l ->
  l = a ++ b /\ Forall (fun v => mn <= v) a /\ Forall (fun v => v < mn) b.
Proof.
  induction l as [|v r IH]; cbn; intros a b H Hs; [inv H; auto|].
  apply StronglySorted_inv in Hs as (Hs & HF).
  destruct (N.ltb_spec v mn) as [L|L].
  - inv H. split; [reflexivity|]. split; [constructor|]. constructor; [lia|].
    eapply Forall_impl; [|exact HF]. cbn. lia.
  - destruct (take_ge mn r) as [a' b'] eqn:E. inv H.
    destruct (IH _ _ eq_refl Hs) as (-> & Ha & Hb). split; [reflexivity|]. split; [constructor; [lia|exact Ha]|exact Hb].
Qed.

Lemma sort_ids_desc_In x l : In x (sort_ids_desc l) <-> In x l.
Proof. apply sort_by_In. Qed.
Lemma sort_ids_desc_perm l : Permutation (sort_ids_desc l) l.
Proof. apply sort_by_perm. Qed.
Lemma sort_ids_desc_sorted l : StronglySorted (fun x y => y <= x) (sort_ids_desc l).
Proof.
  eapply StronglySorted_impl_In; [|apply (sort_by_sorted (fun a b => b <? a))].
  - unfold lep. intros x y _ _ H. lia.
  - intros; lia.
  - intros; lia.
Qed.
Lemma sort_ids_desc_NoDup l : NoDup l -> StronglySorted (fun x y => y < x) (sort_ids_desc l).
Proof.
  intros Hn. assert (Hn' : NoDup (sort_ids_desc l)).
  { eapply Permutation_NoDup; [symmetry; apply sort_ids_desc_perm|exact Hn]. }
  pose proof (sort_ids_desc_sorted l) as Hs. clear Hn. induction Hs as [|x r Hs IH HF]; constructor.
  - apply IH. apply NoDup_cons_iff in Hn'. tauto.
  - apply NoDup_cons_iff in Hn' as (Hx & _). rewrite Forall_forall in *. intros y Hy.
    specialize (HF y Hy). assert (x <> y) by (intros ->; auto). lia.
Qed.

(** [split_scores_from] partitions the scores; every group goes to its owner. *)
Lemma split_scores_from_spec : forall l i k scores,
  tile_from k l -> aligned l -> StronglySorted (fun x y => y <= x) scores ->
  Forall (fun v => kk v max_u32 <= k) scores ->
  let g := split_scores_from i l scores in
  concat (map snd g) = scores /\
  StronglySorted lt (map fst g) /\ Forall (fun p => (i <= fst p)%nat) g /\
  Forall (fun p => snd p <> [] /\ exists s, nth_error l (fst p - i) = Some s /\
             Forall (owns s) (snd p)) g.
Proof.
  induction l as [|s r IH]; intros i k scores HT HA HS HB; [contradiction|].
  cbn [split_scores_from]. destruct scores as [|top sc].
  { cbn. repeat split; constructor. }
  cbn in HT. destruct HT as (Hk & Hle & Hw & Hr).
  inversion HA as [|? ? (Hmt & Hxt) HAr]; subst.
  assert (Hmax : Forall (fun v => v <= sg_max s) (top :: sc)).
  { eapply Forall_impl; [|exact HB]. cbn. unfold kmax, kk, max_u32 in *. intros v Hv. rewrite Hxt in Hv. lia. }
  destruct (N.leb_spec (sg_min s) top) as [Hge|Hlt].
  - destruct (take_ge (sg_min s) (top :: sc)) as [a b] eqn:E.
    assert (Ha : a <> []).
    { cbn in E. destruct (N.ltb_spec top (sg_min s)); [lia|]. destruct (take_ge (sg_min s) sc). inv E. discriminate. }
    destruct (take_ge_spec _ _ _ _ E HS) as (Eab & HFa & HFb).
    rewrite Eab in *. apply Forall_app in Hmax as (Hma & Hmb). apply Forall_app in HB as (_ & HBb).
    apply StronglySorted_app in HS as (_ & HSb & _).
    assert (Hown : Forall (owns s) a).
    { rewrite Forall_forall in *. intros v Hv. unfold owns. auto. }
    destruct r as [|s' r'].
    + assert (b = []).
      { destruct b as [|v b]; [reflexivity|]. inv HFb. unfold kmin, kk in Hr. rewrite Hmt in Hr. lia. }
      subst b. cbn. rewrite !app_nil_r.
      split; [reflexivity|]. split; [repeat constructor|]. split; [repeat constructor|].
      constructor; [|constructor]. cbn. rewrite Nat.sub_diag. cbn. split; [exact Ha|]. exists s. auto.
    + destruct Hr as (Hpos & Hr).
      assert (HBb' : Forall (fun v => kk v max_u32 <= kmin s - 1) b).
      { eapply Forall_impl; [|exact HFb]. cbn. unfold kmin, kk, max_u32 in *. rewrite Hmt. intros v Hv. lia. }
      destruct (IH (S i) _ b Hr HAr HSb HBb') as (Hc & Hs & Hi & Hg).
      cbn [map snd fst concat]. rewrite Hc. split; [reflexivity|]. split.
      * constructor; [exact Hs|]. rewrite Forall_forall in *. intros x Hx.
        apply in_map_iff in Hx as (p & <- & Hp). specialize (Hi p Hp). lia.
      * split; [constructor; [cbn; lia|]; eapply Forall_impl; [|exact Hi]; cbn; lia|].
        constructor.
        -- cbn. rewrite Nat.sub_diag. cbn. split; [exact Ha|]. exists s. auto.
        -- rewrite Forall_forall in *. intros p Hp. destruct (Hg p Hp) as (Hn & t & Ht & Ho).
           split; [exact Hn|]. exists t. specialize (Hi p Hp). split; [|exact Ho].
           replace (fst p - i)%nat with (S (fst p - S i)) by lia. exact Ht.
  - destruct r as [|s' r'].
    + exfalso. unfold kmin, kk in Hr. lia.
    + destruct Hr as (Hpos & Hr).
      assert (HBb' : Forall (fun v => kk v max_u32 <= kmin s - 1) (top :: sc)).
      { apply StronglySorted_inv in HS as (_ & HF). constructor.
        - unfold kmin, kk, max_u32 in *. lia.
        - rewrite Forall_forall in *. intros v Hv. specialize (HF v Hv). unfold kmin, kk, max_u32 in *. lia. }
      destruct (IH (S i) _ _ Hr HAr HS HBb') as (Hc & Hs & Hi & Hg).
      split; [exact Hc|]. split; [exact Hs|]. split; [eapply Forall_impl; [|exact Hi]; cbn; lia|].
      rewrite Forall_forall in *. intros p Hp. destruct (Hg p Hp) as (Hn & t & Ht & Ho).
      split; [exact Hn|]. exists t. specialize (Hi p Hp). split; [|exact Ho].
      replace (fst p - i)%nat with (S (fst p - S i)) by lia. exact Ht.
Qed.

Lemma split_scores_spec l scores :
  tile l -> aligned l -> Forall (fun v => v <= max_u64) scores ->
  let g := split_scores l scores in
  concat (map snd g) = sort_ids_desc scores /\
  StronglySorted lt (map fst g) /\
  Forall (fun p => snd p <> [] /\ exists s, nth_error l (fst p) = Some s /\ Forall (owns s) (snd p)) g.
Proof.
  intros HT HA HB. unfold split_scores.
  destruct (split_scores_from_spec l 0 topk (sort_ids_desc scores) HT HA (sort_ids_desc_sorted _)) as (A & B & _ & D).
  - rewrite Forall_forall in *. intros v Hv. rewrite sort_ids_desc_In in Hv. specialize (HB v Hv).
    unfold topk, kk, max_u64, max_u32 in *. lia.
  - split; [exact A|]. split; [exact B|]. rewrite Forall_forall in *. intros p Hp.
    specialize (D p Hp). rewrite Nat.sub_0_r in D. exact D.
Qed.

(** ** FirstElementsWithScore: contains every element with a requested score *)
Lemma first_with_score_sub : forall l scores x, In x (first_with_score l scores) -> In x l.
Proof.
  induction l as [|e r IH]; intros scores x H; destruct scores as [|t sc]; cbn in H; try contradiction.
  destruct (e_score e <=? t); [destruct H as [H|H]; [left; exact H|right; eauto]|right; eauto].
Qed.

Lemma first_with_score_complete : forall l scores x,
  StronglySorted (fun a b => e_score b < e_score a) l ->
  StronglySorted (fun x y => y < x) scores ->
  In x l -> In (e_score x) scores -> In x (first_with_score l scores).
Proof.
  induction l as [|e r IH]; intros scores x Hl Hs Hx Hin; [contradiction|].
  destruct scores as [|t sc]; [contradiction|]. cbn.
  apply StronglySorted_inv in Hl as (Hl & HF). apply StronglySorted_inv in Hs as Hs'. destruct Hs' as (Hs' & HFs).
  rewrite Forall_forall in HF, HFs.
  destruct Hx as [<-|Hx].
  - destruct (N.leb_spec (e_score e) t); [left; reflexivity|]. exfalso.
    destruct Hin as [Et|Hin]; [lia|]. specialize (HFs _ Hin). lia.
  - destruct (N.leb_spec (e_score e) t).
    + right. destruct Hin as [Et|Hin].
      * specialize (HF x Hx). lia.
      * apply IH; auto.
    + apply IH; auto.
Qed.

Lemma first_with_score_NoDup : forall l scores, NoDup l -> NoDup (first_with_score l scores).
Proof.
  induction l as [|e r IH]; intros scores H; destruct scores as [|t sc]; cbn; try constructor.
  apply NoDup_cons_iff in H as (Hn & Hr).
  destruct (e_score e <=? t); [constructor|]; auto.
  intros C. apply first_with_score_sub in C. contradiction.
Qed.
