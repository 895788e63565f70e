(** Building segments from elements: NewSegmentsElements, AlignIndex, populate,
    clone and reindex. *)
From Coq Require Import Strings.String.
From Verif.Lib Require Import Prelude ListAux ListLemmas SortLemmas Perm.
From Verif.Model Require Import Element Elements Segment List.
From Verif.Spec Require Import RankSpec QuerySpec.
From Verif.Proof Require Import ElementP ElementsP ElementsThm SegP InvDef QueryP LookupP ChangeP UpdateP UpdateInv DeleteP InsertP.
Open Scope N_scope.

Lemma holds_intro k l : tile_from k l -> (forall s, In s l -> ranked (sg_elems s)) ->
  (forall s x, In s l -> In x (sg_elems s) -> in_range s x) ->
  holds (fun x => In x (elems_of l)) l.
Proof.
  intros HT Hr Hin. apply Forall_forall. intros s Hs. split; [auto|]. intros x. split.
  - intros Hx. split; [apply elems_of_In; eauto|auto].
  - intros (Hx & Rx). apply elems_of_In in Hx as (t & Ht & Hx). pose proof (Hin t x Ht Hx) as Rt.
    apply In_nth_error in Hs as (i & Hs). apply In_nth_error in Ht as (j & Ht).
    assert (i = j) by (eapply tile_from_unique; eauto). subst j. congruence.
Qed.

(** ** parts *)
Definition dflt : element := mkE 0 0 [] 0 0.
Fixpoint chain (parts : list elements) : Prop :=
  match parts with
  | [] => True
  | p :: rest => p <> [] /\ (forall y, In y (concat rest) -> key y < key (last p dflt)) /\ chain rest
  end.

Lemma last_In {A} (l : list A) d : l <> [] -> In (last l d) l.
Proof.
  intros H. destruct (exists_last H) as (a & x & ->). rewrite last_last. apply in_or_app. right; left; reflexivity.
Qed.
Lemma last_indep {A} (l : list A) d d' : l <> [] -> last l d = last l d'.
Proof. intros H. destruct (exists_last H) as (a & x & ->). rewrite !last_last. reflexivity. Qed.
Lemma last_nth {A} (l : list A) d : l <> [] -> nth_error l (length l - 1) = Some (last l d).
Proof.
  intros H. destruct (exists_last H) as (a & x & ->). rewrite last_last, app_length. cbn.
  replace (length a + 1 - 1)%nat with (length a) by lia. rewrite nth_error_app2, Nat.sub_diag by lia. reflexivity.
Qed.
Lemma last_below l d x : ranked l -> Forall elem_ok l -> In x l -> key (last l d) <= key x.
Proof.
  intros Hr Hok Hx. assert (Hne : l <> []) by (intros ->; contradiction).
  destruct (exists_last Hne) as (a & z & ->). rewrite last_last. apply in_app_or in Hx as [Hx|[<-|[]]]; [|lia].
  rewrite Forall_forall in Hok.
  apply StronglySorted_app in Hr as (_ & _ & H). apply Above_key_le; try (apply Hok; apply in_or_app; cbn; auto).
  apply H; cbn; auto.
Qed.

Lemma split_chain l k : ranked l -> Forall elem_ok l -> l <> [] -> (0 < k)%nat ->
  exists parts, split_size l k = Some parts /\ concat parts = l /\ chain parts /\ parts <> [].
Proof.
  intros Hr Hok Hne Hk. destruct (c05_split l k Hk) as (parts & E & Hc & Hn & Hcut). specialize (Hn Hne).
  exists parts. split; [exact E|]. split; [exact Hc|].
  assert (HP : parts <> []) by (intros ->; cbn in Hc; congruence). split; [|exact HP].
  assert (Hgen : forall b a, parts = a ++ b -> chain b).
  { induction b as [|p rest IH]; intros a Ea; [exact I|]. cbn [chain].
    assert (Hp : p <> []) by (rewrite Forall_forall in Hn; apply Hn; rewrite Ea; apply in_or_app; cbn; auto).
    split; [exact Hp|]. split; [|apply (IH (a ++ [p])); rewrite <- app_assoc; exact Ea].
    intros y Hy. destruct rest as [|q rest]; [contradiction|].
    assert (Hq : q <> []) by (rewrite Forall_forall in Hn; apply Hn; rewrite Ea; apply in_or_app; cbn; auto).
    destruct q as [|y0 q]; [congruence|].
    assert (Hl : l = concat a ++ p ++ (y0 :: q) ++ concat rest) by (rewrite <- Hc, Ea, concat_app; reflexivity).
    rewrite Hl in Hr, Hok. apply Forall_app in Hok as (_ & Hok). apply Forall_app in Hok as (Hop & Hok).
    apply StronglySorted_app in Hr as (_ & Hr & _). apply StronglySorted_app in Hr as (_ & Hr & Hx).
    specialize (Hcut a rest p (y0 :: q) Ea _ y0 (last_nth p dflt Hp) eq_refl).
    rewrite Forall_forall in Hop, Hok. pose proof (Hop _ (last_In p dflt Hp)) as Ho1.
    assert (Ho2 : elem_ok y0) by (apply Hok; left; reflexivity).
    assert (K0 : key y0 < key (last p dflt)).
    { assert (A : Above (last p dflt) y0) by (apply Hx; [apply last_In; exact Hp|left; reflexivity]).
      apply Above_key_le in A; auto. unfold key, kk, elem_ok, max_u32 in *. lia. }
    cbn [concat] in Hy. cbn [app] in Hr, Hok, Hy. destruct Hy as [<-|Hy]; [exact K0|].
    apply StronglySorted_inv in Hr as (_ & HF). rewrite Forall_forall in HF. specialize (HF y Hy).
    apply Above_key_le in HF; auto; [|apply Hok; right; exact Hy]. lia. }
  apply (Hgen parts []). reflexivity.
Qed.

(** ** NewSegmentsElements *)
Fixpoint sepm (l : list seg) : Prop :=
  match l with
  | [] => True
  | s :: r => match r with
              | [] => sg_min s = 0 /\ sg_mintie s = 0
              | _ => (exists x, In x (sg_elems s) /\ e_score x = sg_min s) /\
                     (forall x, In x (sg_elems s) -> sg_min s <= e_score x)
              end /\ sepm r
  end.

Lemma prev_max_kk s t : t <= max_u32 -> 0 < kk s t ->
  kk (fst (prev_max s t)) (snd (prev_max s t)) = kk s t - 1 /\ snd (prev_max s t) <= max_u32 /\ fst (prev_max s t) <= s.
Proof.
  unfold prev_max, kk, max_u32. intros Ht Hp.
  destruct ((s =? 0) && (t =? 0)) eqn:E1; [lia|]. destruct (t =? 0) eqn:E2; cbn; lia.
Qed.

Lemma key_score_le x y : elem_ok x -> elem_ok y -> key y <= key x -> e_score y <= e_score x.
Proof. unfold elem_ok, key, kk, max_u32. lia. Qed.

Lemma nse_spec name now : forall parts mx id l id' ix,
  chain parts -> parts <> [] -> ranked (concat parts) -> Forall elem_ok (concat parts) ->
  fst mx <= max_u64 -> snd mx <= max_u32 -> (forall x, In x (concat parts) -> key x <= kk (fst mx) (snd mx)) ->
  0 < id ->
  nse_loop name now mx id parts = (l, id', ix) ->
  tile_from (kk (fst mx) (snd mx)) l /\ map sg_elems l = parts /\
  NoDup (map sg_id l) /\ Forall (fun s => id <= sg_id s < id') l /\ id' = id + N.of_nat (length parts) /\
  Forall (fun s => sg_n s = length (sg_elems s) /\ sg_upd s = now /\ sg_parent s = name /\
                   forall x, In x (sg_elems s) -> in_range s x) l /\
  ix = flat_map (fun s => element_ids (sg_elems s) (sg_id s)) l /\ sepm l.
Proof.
  induction parts as [|p rest IH]; intros mx id l id' ix Hch Hne Hr Hok Hm1 Hm2 Hle Hid E; [congruence|].
  cbn [chain] in Hch. destruct Hch as (Hp & Hlt & Hch). cbn [nse_loop] in E.
  destruct p as [|f p0] eqn:Ep; [congruence|]. rewrite <- Ep in *.
  assert (Emm : min_max p = (e_score (last p dflt), e_score f, e_tie (last p dflt), e_tie f)).
  { unfold min_max. rewrite Ep at 1. cbn zeta. rewrite (last_indep p f dflt Hp). reflexivity. }
  rewrite Emm in E. change (mkE 0 0 [] 0 0) with dflt in E.
  set (la := last p dflt) in *.
  cbn [concat] in Hr, Hok, Hle. apply StronglySorted_app in Hr as (Hrp & Hrr & Hpr).
  apply Forall_app in Hok as (Hop & Hor).
  assert (Hla : In la p) by (apply last_In; exact Hp).
  assert (Hlok : elem_ok la) by (rewrite Forall_forall in Hop; auto).
  assert (Hlb : forall x, In x p -> key la <= key x) by (intros; apply last_below; auto).
  destruct rest as [|q rest].
  - cbn [nse_loop] in E. injection E as <- <- <-.
    split; [|split; [reflexivity|split; [repeat constructor; cbn; tauto|split; [|split; [cbn; lia|split; [|split; [cbn; rewrite !app_nil_r; reflexivity|cbn; auto]]]]]]].
    + cbn. unfold kmax, kmin, widths. cbn. unfold max_u32, kk in *. repeat split; try lia.
    + repeat constructor; cbn; lia.
    + repeat constructor; cbn. 
      * unfold kmin, kk. cbn. lia.
      * unfold kmax. cbn. apply Hle. apply in_or_app; auto.
  - destruct (nse_loop name now (prev_max (e_score la) (e_tie la)) (id + 1) (q :: rest)) as ((l0, id0), ix0) eqn:E0.
    injection E as <- <- <-.
    assert (Hq : exists y, In y (concat (q :: rest))).
    { cbn [chain] in Hch. destruct Hch as (Hq & _). destruct q as [|y q]; [congruence|]. exists y. left; reflexivity. }
    destruct Hq as (y0 & Hy0). pose proof (Hlt y0 Hy0) as Hpos.
    change (kk (e_score la) (e_tie la)) with (key la).
    destruct (prev_max_kk (e_score la) (e_tie la)) as (K1 & K2 & K3);
      [unfold elem_ok in Hlok; tauto|change (kk (e_score la) (e_tie la)) with (key la); lia|].
    change (kk (e_score la) (e_tie la)) with (key la) in K1.
    destruct (IH (prev_max (e_score la) (e_tie la)) (id + 1) l0 id0 ix0 Hch ltac:(discriminate) Hrr Hor ltac:(unfold elem_ok in Hlok; lia) K2
        ltac:(intros x Hx; rewrite K1; apply Hlt in Hx; lia) ltac:(lia) E0)
      as (HT & Hmap & Hnd & Hids & Hid' & Hmeta & Hix & Hsep).
    rewrite K1 in HT.
    assert (Hl0 : l0 <> []) by (intros ->; cbn in Hmap; discriminate).
    split.
    { cbn [tile_from]. unfold kmax, kmin, widths. cbn [sg_max sg_maxtie sg_min sg_mintie].
      change (kk (e_score la) (e_tie la)) with (key la). split; [reflexivity|].
      split; [apply Hle; apply in_or_app; auto|]. split; [unfold elem_ok in Hlok; tauto|].
      destruct l0; [congruence|]. split; [lia|exact HT]. }
    split; [cbn [map sg_elems]; rewrite Hmap; reflexivity|].
    split.
    { cbn [map sg_id]. constructor; [|exact Hnd]. intros C. apply in_map_iff in C as (s & Es & Hs).
      rewrite Forall_forall in Hids. specialize (Hids s Hs). lia. }
    split.
    { constructor; [cbn; lia|]. eapply Forall_impl; [|exact Hids]. cbn beta. lia. }
    split; [cbn [length] in *; lia|]. split.
    { constructor; [|exact Hmeta]. cbn. repeat split; [|].
      - unfold kmin. cbn. apply Hlb. exact H.
      - unfold kmax. cbn. apply Hle. apply in_or_app; auto. }
    split; [cbn [flat_map sg_elems sg_id]; rewrite Hix; reflexivity|].
    cbn [sepm]. split; [|exact Hsep]. destruct l0; [congruence|]. cbn [sg_elems sg_min]. split; [exists la; auto|].
    intros x Hx. rewrite Forall_forall in Hop. apply key_score_le; auto.
Qed.

(** ** AlignIndex *)
Definition same_rest (s t : seg) : Prop :=
  sg_id s = sg_id t /\ sg_n s = sg_n t /\ sg_upd s = sg_upd t /\ sg_parent s = sg_parent t /\ sg_elems s = sg_elems t.

Lemma align_from_spec : forall r prev K,
  sepm (prev :: r) -> kmax prev = K -> sg_maxtie prev = max_u32 -> sg_max prev <= max_u64 -> sg_min prev <= sg_max prev ->
  Forall elem_ok (elems_of (prev :: r)) ->
  (forall x y a b, elems_of (prev :: r) = a ++ x :: b -> In y b -> e_score y < e_score x) ->
  (forall x, In x (sg_elems prev) -> e_score x <= sg_max prev) ->
  Forall (fun s => sg_elems s <> []) (prev :: r) ->
  tile_from K (align_from prev r) /\ aligned (align_from prev r) /\
  Forall2 same_rest (align_from prev r) (prev :: r) /\
  Forall (fun s => forall x, In x (sg_elems s) -> in_range s x) (align_from prev r).
Proof.
  induction r as [|s r IH]; intros prev K Hsep HK Hmt Hmx Hmm Hok Hsc Hmax Hne.
  - cbn [sepm] in Hsep. destruct Hsep as ((A & B) & _). cbn [align_from].
    split; [|split; [|split]].
    + cbn. unfold kmin, widths in *. rewrite A, B, Hmt. unfold kk, max_u32. repeat split; auto; lia.
    + constructor; [auto|constructor].
    + repeat constructor.
    + constructor; [|constructor]. intros x Hx. unfold in_range, kmin. rewrite A, B. split; [unfold kk; lia|].
      unfold kmax, key. rewrite Hmt. specialize (Hmax x Hx). rewrite Forall_forall in Hok.
      assert (Ho : elem_ok x) by (apply Hok; rewrite elems_of_cons; apply in_or_app; auto).
      unfold elem_ok in Ho. unfold kk. lia.
  - cbn [sepm] in Hsep. destruct Hsep as (((x0 & Hx0 & Ex0) & Hge) & Hsep).
    set (prev' := mkSeg (sg_id prev) (sg_min prev) (sg_max prev) 0 (sg_maxtie prev) (sg_n prev) (sg_upd prev) (sg_parent prev) (sg_elems prev)).
    assert (Hy0 : exists y, In y (sg_elems s)).
    { inversion Hne as [|? ? _ Hne2]; subst. inversion Hne2 as [|? ? Hs _]; subst.
      destruct (sg_elems s) as [|y ?]; [congruence|]. exists y; left; reflexivity. }
    assert (Hlt : forall y, In y (elems_of (s :: r)) -> e_score y < sg_min prev).
    { intros y Hy. apply in_split in Hx0 as (a & b & Ea). rewrite <- Ex0. apply (Hsc x0 y a (b ++ elems_of (s :: r))).
      - rewrite elems_of_cons, Ea, <- app_assoc. reflexivity.
      - apply in_or_app. right. exact Hy. }
    destruct Hy0 as (y0 & Hy0).
    assert (Hpos : 0 < sg_min prev).
    { assert (e_score y0 < sg_min prev) by (apply Hlt; rewrite elems_of_cons; apply in_or_app; auto). lia. }
    cbn [align_from]. fold prev'. destruct (N.eqb_spec (sg_min prev) 0) as [|_]; [lia|].
    set (s' := mkSeg (sg_id s) (sg_min s) (sg_min prev - 1) (sg_mintie s) max_u32 (sg_n s) (sg_upd s) (sg_parent s) (sg_elems s)).
    assert (Hokp := Hok). rewrite elems_of_cons in Hokp. apply Forall_app in Hokp as (Hokp & Hokr).
    destruct (IH s' (kk (sg_min prev - 1) max_u32)) as (HT & Hal & Hsr & Hrg).
    + cbn [sepm] in Hsep |- *. exact Hsep.
    + reflexivity.
    + reflexivity.
    + cbn. lia.
    + cbn. cbn [sepm] in Hsep. destruct Hsep as (Hs & _). destruct r as [|t r]; [destruct Hs as (-> & _); lia|].
      destruct Hs as ((x1 & Hx1 & Ex1) & _). rewrite <- Ex1.
      assert (e_score x1 < sg_min prev) by (apply Hlt; rewrite elems_of_cons; apply in_or_app; auto). lia.
    + exact Hokr.
    + intros x y a b E Hy. apply (Hsc x y (sg_elems prev ++ a) b); [|exact Hy]. rewrite elems_of_cons, <- app_assoc. f_equal. exact E.
    + intros x Hx. cbn. assert (e_score x < sg_min prev) by (apply Hlt; rewrite elems_of_cons; apply in_or_app; auto). lia.
    + inversion Hne as [|? ? _ Hne2]; subst. inversion Hne2 as [|? ? H1 H2]; subst. constructor; [exact H1|exact H2].
    + split; [|split; [|split]].
      * assert (Hcons : align_from s' r <> []) by (destruct r; cbn; discriminate).
        cbn [tile_from]. unfold kmax, kmin, widths. cbn [sg_max sg_maxtie sg_min sg_mintie prev'].
        split; [exact HK|]. split; [unfold kk; rewrite Hmt; lia|]. split; [rewrite Hmt; unfold max_u32; lia|].
        destruct (align_from s' r) as [|z zs] eqn:Ez; [congruence|]. split; [unfold kk; lia|].
        replace (kk (sg_min prev) 0 - 1) with (kk (sg_min prev - 1) max_u32) by (unfold kk, max_u32; lia). exact HT.
      * constructor; [cbn; auto|exact Hal].
      * constructor; [repeat split|]. inversion Hsr as [|? ? ? ? HA HB]; subst. constructor; [|exact HB].
        exact HA.
      * constructor; [|exact Hrg]. intros x Hx. cbn in Hx. unfold in_range, kmin, kmax, key. cbn.
        rewrite Hmt. specialize (Hmax x Hx). specialize (Hge x Hx). rewrite Forall_forall in Hokp. pose proof (Hokp x Hx) as Ho.
        unfold elem_ok in Ho. unfold kk, max_u32 in *. lia.
Qed.

(** ** the collection built from sorted elements *)
Record built (name : string) (now : N) (e : elements) (s : segs) : Prop := {
  b_tile : tile (ss_segs s);
  b_elems : elems_of (ss_segs s) = e;
  b_rng : forall g x, In g (ss_segs s) -> In x (sg_elems g) -> in_range g x;
  b_meta : Forall (fun g => sg_n g = length (sg_elems g) /\ sg_upd g = now /\ sg_parent g = name) (ss_segs s);
  b_nd : NoDup (map sg_id (ss_segs s));
  b_id : Forall (fun g => 0 < sg_id g < ss_next s) (ss_segs s);
  b_next : ss_next s <= 2 + N.of_nat (length e);
  b_name : ss_id s = name;
  b_idx : ss_idx s = []
}.

Lemma chain_length parts : chain parts -> (length parts <= length (concat parts))%nat.
Proof.
  induction parts as [|p r IH]; cbn; [lia|]. intros (Hp & _ & H). rewrite app_length. apply IH in H.
  destruct p; [congruence|]. cbn. lia.
Qed.

Lemma elems_of_map l : elems_of l = concat (map sg_elems l).
Proof. induction l as [|s r IH]; [reflexivity|]. rewrite elems_of_cons, IH. reflexivity. Qed.

Lemma tile_one id name now : tile [mkSeg id 0 max_u64 0 max_u32 0 now name []].
Proof. unfold tile. cbn. unfold widths, kmin, kmax, topk, kk, max_u64, max_u32. cbn. repeat split; lia. Qed.

Lemma built_one name now b : built name now [] (mkSegs name [mkSeg 1 0 max_u64 0 max_u32 0 now name []] 2 b []).
Proof.
  split; cbn [ss_segs ss_next ss_id ss_idx].
  - apply tile_one.
  - reflexivity.
  - intros g x [<-|[]] [].
  - constructor; [cbn; auto|constructor].
  - constructor; [cbn; tauto|constructor].
  - constructor; [cbn; lia|constructor].
  - cbn. lia.
  - reflexivity.
  - reflexivity.
Qed.

Lemma nse_scores name now e k : ranked e -> Forall elem_ok e -> (0 < k)%nat ->
  exists parts s ix, split_size e k = Some parts /\ new_segments_elements name now parts false = (s, ix) /\
    built name now e s /\ ss_index s = false /\
    ix = flat_map (fun g => element_ids (sg_elems g) (sg_id g)) (ss_segs s) /\
    ss_next s <= 1 + N.max 1 (N.of_nat (length e)).
Proof.
  intros Hr Hok Hk. destruct e as [|e0 er] eqn:Ee.
  - exists [[]]. cbn. eexists _, _. split; [reflexivity|]. split; [reflexivity|].
    split; [|split; [reflexivity|split; [reflexivity|cbn; lia]]].
    apply built_one.
  - rewrite <- Ee in *. assert (Hne : e <> []) by (rewrite Ee; discriminate).
    destruct (split_chain e k Hr Hok Hne Hk) as (parts & Es & Hc & Hch & Hpn).
    destruct (nse_loop name now (max_u64, max_u32) 1 parts) as ((l, id'), ix) eqn:E.
    rewrite <- Hc in Hr, Hok.
    destruct (nse_spec name now parts (max_u64, max_u32) 1 l id' ix Hch Hpn Hr Hok) as (HT & Hmap & Hnd & Hids & Hid' & Hmeta & Hix & _);
      [cbn; lia|cbn; lia| |lia|exact E|].
    { intros x Hx. rewrite Forall_forall in Hok. apply key_le_top. auto. }
    assert (Hl : l <> []) by (intros ->; destruct parts; cbn in Hmap; congruence).
    exists parts. unfold new_segments_elements. rewrite E. destruct l as [|s0 l]; [congruence|].
    eexists _, _. split; [exact Es|]. split; [reflexivity|].
    assert (HL : N.of_nat (length parts) <= N.of_nat (length e)) by (pose proof (chain_length _ Hch) as H; rewrite Hc in H; lia).
    split; [|split; [reflexivity|split; [exact Hix|]]].
    + split; cbn [ss_segs ss_next ss_id ss_idx]; auto.
      * rewrite elems_of_map, Hmap. exact Hc.
      * intros g x Hg Hx. rewrite Forall_forall in Hmeta. apply (Hmeta g Hg). exact Hx.
      * eapply Forall_impl; [|exact Hmeta]. cbn beta. tauto.
      * eapply Forall_impl; [|exact Hids]. cbn beta. lia.
      * lia.
    + cbn [ss_next]. lia.
Qed.

Lemma nse_index name now e k : ranked e -> Forall elem_ok e -> NoDup (map e_score e) -> (0 < k)%nat ->
  exists parts s ix, split_size e k = Some parts /\ new_segments_elements name now parts true = (s, ix) /\
    built name now e s /\ ss_index s = true /\ aligned (ss_segs s) /\
    ss_next s <= 1 + N.max 1 (N.of_nat (length e)).
Proof.
  intros Hr Hok Hsc Hk. destruct e as [|e0 er] eqn:Ee.
  - exists [[]]. cbn. eexists _, _. split; [reflexivity|]. split; [reflexivity|].
    split; [|split; [reflexivity|split; [repeat constructor|cbn; lia]]].
    apply built_one.
  - rewrite <- Ee in *. assert (Hne : e <> []) by (rewrite Ee; discriminate).
    destruct (split_chain e k Hr Hok Hne Hk) as (parts & Es & Hc & Hch & Hpn).
    destruct (nse_loop name now (max_u64, max_u32) 1 parts) as ((l, id'), ix) eqn:E.
    assert (Hr' := Hr). assert (Hok' := Hok). rewrite <- Hc in Hr', Hok'.
    destruct (nse_spec name now parts (max_u64, max_u32) 1 l id' ix Hch Hpn Hr' Hok') as (HT & Hmap & Hnd & Hids & Hid' & Hmeta & Hix & Hsep);
      [cbn; lia|cbn; lia| |lia|exact E|].
    { intros x Hx. rewrite Forall_forall in Hok'. apply key_le_top. auto. }
    assert (Hel : elems_of l = e) by (rewrite elems_of_map, Hmap; exact Hc).
    destruct l as [|s0 l]; [destruct parts; cbn in Hmap; congruence|].
    assert (Hdesc : forall x y a b, elems_of (s0 :: l) = a ++ x :: b -> In y b -> e_score y < e_score x).
    { intros x y a b E1 Hy. rewrite Hel in E1. rewrite E1 in Hr, Hsc.
      rewrite map_app in Hsc. cbn [map] in Hsc. apply NoDup_app_iff in Hsc as (_ & Hsc & _). apply NoDup_cons_iff in Hsc as (Hx & _).
      apply StronglySorted_app in Hr as (_ & Hr & _). apply StronglySorted_inv in Hr as (_ & HF).
      rewrite Forall_forall in HF. specialize (HF y Hy).
      assert (e_score y <> e_score x) by (intros C; apply Hx; rewrite <- C; apply in_map; exact Hy).
      unfold Above in HF. lia. }
    assert (Hnes : Forall (fun s => sg_elems s <> []) (s0 :: l)).
    { apply Forall_forall. intros s Hs. assert (Hin : In (sg_elems s) parts) by (rewrite <- Hmap; apply in_map; exact Hs).
      clear - Hch Hin. induction parts as [|p r IH]; [contradiction|]. cbn [chain] in Hch. destruct Hch as (A & _ & B).
      destruct Hin as [<-|Hin]; auto. }
    cbn [fst snd] in HT. pose proof HT as HT'. cbn [tile_from] in HT'. destruct HT' as (Hk0 & Hkk & Hw0 & _).
    assert (Hms : sg_max s0 = max_u64 /\ sg_maxtie s0 = max_u32).
    { revert Hk0 Hw0. unfold kmax, kk, widths, max_u64, max_u32. clear. lia. }
    destruct Hms as (Hms & Hmst).
    destruct (align_from_spec l s0 (kk max_u64 max_u32) Hsep Hk0 Hmst) as (AT & AL & AS & AR).
    { rewrite Hms. lia. }
    { rewrite Hms. unfold widths in Hw0. tauto. }
    { rewrite Hel. exact Hok. }
    { exact Hdesc. }
    { intros x Hx. rewrite Hms. rewrite Forall_forall in Hok. assert (Ho : In x e) by (rewrite <- Hel, elems_of_cons; apply in_or_app; auto).
      apply Hok in Ho. unfold elem_ok in Ho. tauto. }
    { exact Hnes. }
    exists parts. unfold new_segments_elements. rewrite E.
    eexists _, _. split; [exact Es|]. split; [reflexivity|].
    assert (HL : N.of_nat (length parts) <= N.of_nat (length e)) by (pose proof (chain_length _ Hch) as H; rewrite Hc in H; lia).
    change (align_index (s0 :: l)) with (align_from s0 l).
    assert (ASmap : forall {B} (g : seg -> B), (forall a b, same_rest a b -> g a = g b) -> map g (align_from s0 l) = map g (s0 :: l)).
    { intros B g Hg. clear - AS Hg. induction AS as [|a b la lb Hab HF IH]; [reflexivity|]. cbn [map]. f_equal; auto. }
    assert (ASin : forall g, In g (align_from s0 l) -> exists g0, In g0 (s0 :: l) /\ same_rest g g0).
    { clear - AS. induction AS as [|a b la lb Hab HF IH]; [intros g []|]. intros g [<-|Hg]; [exists b; cbn; auto|].
      destruct (IH g Hg) as (g0 & H1 & H2). exists g0. cbn; auto. }
    split; [|split; [reflexivity|split; [exact AL|]]].
    + split; cbn [ss_segs ss_next ss_id ss_idx]; auto.
      * rewrite <- Hel, !elems_of_map. f_equal. apply ASmap. intros a b H. apply H.
      * intros g x Hg Hx. rewrite Forall_forall in AR. apply (AR g Hg x Hx).
      * apply Forall_forall. intros g Hg. destruct (ASin g Hg) as (g0 & H0 & (R1 & R2 & R3 & R4 & R5)).
        rewrite Forall_forall in Hmeta. destruct (Hmeta g0 H0) as (M1 & M2 & M3 & _). rewrite R2, R3, R4, R5. auto.
      * rewrite (ASmap _ sg_id); [exact Hnd|]. intros a b H. apply H.
      * apply Forall_forall. intros g Hg. destruct (ASin g Hg) as (g0 & H0 & (R1 & _)).
        rewrite Forall_forall in Hids. specialize (Hids g0 H0). rewrite R1. lia.
      * lia.
    + cbn [ss_next]. lia.
Qed.

Lemma built_meta name now e s : built name now e s -> 0 < now < max_u32 -> name <> ""%string -> ss_next s <= 4294967296 -> meta s.
Proof.
  intros H Hn Hname Hnx. split; try apply H; auto.
  - eapply Forall_impl; [|apply (b_meta _ _ _ _ H)]. intros g (A & B & C). unfold seg_meta. rewrite (b_name _ _ _ _ H), B. auto.
  - left. apply H.
  - rewrite (b_name _ _ _ _ H). exact Hname.
Qed.

Lemma built_score_ok name now e s : built name now e s -> ranked e -> Forall good e -> distinct_ids e ->
  score_ok (fun x => In x e) (ss_segs s).
Proof.
  intros H Hr Hg Hd. split.
  - apply H.
  - rewrite <- (b_elems _ _ _ _ H). eapply holds_intro; [apply H| |apply (b_rng _ _ _ _ H)].
    intros g Hgs. rewrite <- (b_elems _ _ _ _ H) in Hr. clear - Hr Hgs.
    apply in_split in Hgs as (a & b & E). rewrite E, elems_of_app, elems_of_cons in Hr.
    apply StronglySorted_app in Hr as (_ & Hr & _). apply StronglySorted_app in Hr as (Hr & _). exact Hr.
  - rewrite Forall_forall in Hg. exact Hg.
  - intros x y Hx Hy E. clear - Hd Hx Hy E. unfold distinct_ids in Hd. induction e as [|z r IH]; [contradiction|].
    cbn in Hd. apply NoDup_cons_iff in Hd as (Hz & Hr). destruct Hx as [->|Hx], Hy as [->|Hy]; auto.
    + exfalso. apply Hz. rewrite E. apply in_map. exact Hy.
    + exfalso. apply Hz. rewrite <- E. apply in_map. exact Hx.
Qed.

Definition idx_set (ss : list seg) (q : element) : Prop :=
  exists s x, In s ss /\ In x (sg_elems s) /\ q = as_index x (sg_id s).

Lemma In_idx_flat ss q : In q (flat_map (fun s => element_ids (sg_elems s) (sg_id s)) ss) <-> idx_set ss q.
Proof.
  rewrite in_flat_map. split.
  - intros (s & Hs & Hq). unfold element_ids in Hq. apply sort_elems_In, in_map_iff in Hq as (x & <- & Hx). exists s, x. auto.
  - intros (s & x & Hs & Hx & ->). exists s. split; [exact Hs|]. unfold element_ids. apply sort_elems_In, in_map_iff. eauto.
Qed.
Lemma idx_flat_ids ss : Permutation (map e_id (flat_map (fun s => element_ids (sg_elems s) (sg_id s)) ss)) (map e_id (elems_of ss)).
Proof.
  induction ss as [|s r IH]; [reflexivity|]. cbn [flat_map]. rewrite elems_of_cons, !map_app. apply Permutation_app; [|exact IH].
  unfold element_ids. etransitivity; [apply Permutation_map, sort_elems_perm|]. rewrite map_map. reflexivity.
Qed.
Lemma idx_flat_scores ss : map e_score (flat_map (fun s => element_ids (sg_elems s) (sg_id s)) ss) =
  map e_id (flat_map (fun s => element_ids (sg_elems s) (sg_id s)) ss).
Proof.
  apply map_ext_in. intros q Hq. apply In_idx_flat in Hq as (s & x & _ & _ & ->). reflexivity.
Qed.

(** the index of a list of score segments *)
Lemma index_build P ss ni now k ie : score_ok P ss -> NoDup (map sg_id ss) -> Forall (fun s => sg_id s <= max_u32) ss ->
  Permutation ie (flat_map (fun s => element_ids (sg_elems s) (sg_id s)) ss) -> (0 < k)%nat ->
  exists parts s ix, split_size (sort_elems ie) k = Some parts /\ new_segments_elements ni now parts true = (s, ix) /\
    built ni now (sort_elems ie) s /\ ss_index s = true /\ core P (fun q => idx_set ss q) ss (ss_segs s) /\
    ss_next s <= 1 + N.max 1 (N.of_nat (length (elems_of ss))).
Proof.
  intros HS Hnd Hid Hp Hk. set (e := sort_elems ie).
  assert (Hpe : Permutation e (flat_map (fun s => element_ids (sg_elems s) (sg_id s)) ss)).
  { unfold e. rewrite sort_elems_perm. exact Hp. }
  assert (Hin : forall q, In q e <-> idx_set ss q).
  { intros q. rewrite <- In_idx_flat. split; apply Permutation_in; [exact Hpe|symmetry; exact Hpe]. }
  assert (Hd : distinct_ids e).
  { unfold distinct_ids. eapply Permutation_NoDup; [|eapply (score_ok_distinct P ss HS)].
    rewrite <- idx_flat_ids. apply Permutation_map. symmetry. exact Hpe. }
  assert (Hr : ranked e) by (apply weakly_ranked_distinct; [exact Hd|apply sort_elems_weak]).
  rewrite Forall_forall in Hid.
  assert (Hg : Forall good e).
  { apply Forall_forall. intros q Hq. apply Hin in Hq as (s & x & Hs & Hx & ->). apply as_index_good; [|auto].
    apply (so_good _ _ HS). apply (score_ok_seg _ _ s x HS Hs Hx). }
  assert (Hok : Forall elem_ok e) by (eapply Forall_impl; [|exact Hg]; apply good_ok).
  assert (Hsc : NoDup (map e_score e)).
  { eapply Permutation_NoDup; [|exact Hd].
    assert (E : map e_score e = map e_id e); [|rewrite E; reflexivity].
    apply map_ext_in. intros q Hq. apply Hin in Hq as (s & x & _ & _ & ->). reflexivity. }
  destruct (nse_index ni now e k Hr Hok Hsc Hk) as (parts & s & ix & E1 & E2 & HB & HI & HA & HN).
  exists parts, s, ix. split; [exact E1|]. split; [exact E2|]. split; [exact HB|]. split; [exact HI|].
  assert (HL : length e = length (elems_of ss)).
  { rewrite (Permutation_length Hpe). rewrite <- (map_length e_id), (Permutation_length (idx_flat_ids ss)), map_length. reflexivity. }
  split; [|rewrite <- HL; exact HN].
  split; auto.
  - pose proof (built_score_ok _ _ _ _ HB Hr Hg Hd) as HSi. destruct HSi as [A1 A2 A3 A4]. split; auto.
    + unfold holds in *. eapply Forall_impl; [|exact A2]. intros g (B1 & B2). split; [exact B1|]. intros x. rewrite B2, Hin. tauto.
    + intros x Hx. apply A3, Hin, Hx.
    + intros x y Hx Hy. apply A4; apply Hin; assumption.
  - intros q (s0 & x & _ & _ & ->). split; reflexivity.
  - apply Forall_forall. exact Hid.
  - intros id t. split.
    + intros (q & (s0 & x & Hs & Hx & ->) & E3 & E4). exists s0, x. auto.
    + intros (s0 & x & Hs & Hx & E3 & E4). exists (as_index x (sg_id s0)). split; [exists s0, x; auto|auto].
Qed.
