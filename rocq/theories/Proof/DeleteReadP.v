(** DeleteElements while reads fail. *)
From Coq Require Import Strings.String.
From Verif.Lib Require Import Prelude ListAux ListLemmas SortLemmas Perm.
From Verif.Model Require Import Element Elements Segment List ReadFail.
From Verif.Spec Require Import RankSpec QuerySpec HistorySpec AnswerSpec ReadFailSpec.
From Verif.Proof Require Import ElementP ElementsP ElementsThm SegP InvDef QueryP LookupP ChangeP UpdateP UpdateInv DeleteP
  AnswerP ReadFailP UpdateReadP SkewP.
Open Scope N_scope.

(** segments that can be read are new, the others old *)
Definition mix (rd : nat -> bool) (old new : list seg) : list seg := mapi (fun i x => if rd i then nth i new x else x) old.

Lemma mix_nth rd old new i s s' : length new = length old -> nth_error old i = Some s -> nth_error new i = Some s' ->
  nth_error (mix rd old new) i = Some (if rd i then s' else s).
Proof.
  intros _ Hs Hs'. unfold mix. rewrite mapi_nth, Hs. cbn. destruct (rd i); [|reflexivity]. f_equal. apply nth_error_nth. exact Hs'.
Qed.
Lemma mix_length rd old new : length (mix rd old new) = length old.
Proof. apply mapi_from_length. Qed.
Lemma frames_length l l' : map frame l' = map frame l -> length l' = length l.
Proof. intros H. rewrite <- (map_length frame l'), H. apply map_length. Qed.
Lemma mix_frame rd old new : map frame new = map frame old -> map frame (mix rd old new) = map frame old.
Proof.
  intros H. pose proof (frames_length _ _ H) as HL. apply nth_ext_error. intros i. rewrite !nth_error_map.
  destruct (nth_error old i) as [s|] eqn:Es.
  - destruct (frames_sym_nth _ _ _ _ H Es) as (s' & Es' & E). rewrite (mix_nth rd old new i s s' HL Es Es'). cbn. destruct (rd i); congruence.
  - assert (nth_error (mix rd old new) i = None) as ->; [|reflexivity]. apply nth_error_None. rewrite mix_length. apply nth_error_None. exact Es.
Qed.
Lemma mix_stepped rd now old new : map frame new = map frame old -> stepped now old new -> stepped now old (mix rd old new).
Proof.
  intros H HT i s s' Hs Hs'. destruct (frames_sym_nth _ _ _ _ H Hs) as (s2 & Es' & _).
  rewrite (mix_nth rd old new i s s2 (frames_length _ _ H) Hs Es') in Hs'. injection Hs' as <-. destruct (rd i); [exact (HT i s s2 Hs Es')|auto].
Qed.

(** [x] goes to a segment that can be read *)
Definition to_read (rd : nat -> bool) (l : list seg) (x : element) : Prop := exists i s, nth_error l i = Some s /\ in_range s x /\ rd i = true.

Lemma changed_mix P A D rd l l1 : score_ok P l -> map frame l1 = map frame l -> changed A D l l1 ->
  (forall x, A x -> D (e_id x)) -> (forall y x, A y -> P x -> e_id y <> e_id x) ->
  changed (fun x => A x /\ to_read rd l x)
          (fun id => (exists x, (A x /\ to_read rd l x) /\ e_id x = id) \/ (D id /\ exists x, P x /\ e_id x = id /\ to_read rd l x)) l (mix rd l l1).
Proof.
  intros HS HF HC HAD HAP i s s' Hs Hs'. destruct (frames_sym_nth _ _ _ _ HF Hs) as (s1 & Hs1 & _).
  rewrite (mix_nth rd l l1 i s s1 (frames_length _ _ HF) Hs Hs1) in Hs'. injection Hs' as <-.
  destruct (HC i s s1 Hs Hs1) as (Hr & Hx).
  assert (Hseg : forall x, In x (sg_elems s) -> P x /\ in_range s x) by (intros x; apply (score_ok_seg _ _ s x HS (nth_error_In _ _ Hs))).
  assert (Hrd : forall x, in_range s x -> to_read rd l x <-> rd i = true).
  { intros x Rx. split; [|intros H; exists i, s; auto]. intros (j & t & Ht & Rt & H). rewrite (seg_unique _ _ i j s t x HS Hs Ht Rx Rt). exact H. }
  destruct (rd i) eqn:Er.
  - split; [exact Hr|]. intros x. rewrite Hx. split.
    + intros [(Ax & Rx)|(Ix & Nx)]; [left; split; [split; [exact Ax|apply Hrd; auto]|exact Rx]|]. right. split; [exact Ix|].
      intros [(y & (Ay & _) & Ey)|(Dx & _)]; [|auto]. apply Nx. rewrite <- Ey. auto.
    + intros [((Ax & _) & Rx)|(Ix & Nx)]; [auto|]. right. split; [exact Ix|]. intros Dx. apply Nx. right. split; [exact Dx|].
      destruct (Hseg x Ix) as (Px & Rx). exists x. split; [exact Px|]. split; [reflexivity|]. apply Hrd; auto.
  - split; [exact (proj1 (score_ok_seg_ranked _ _ _ _ HS Hs))|]. intros x. split.
    + intros Ix. right. split; [exact Ix|]. destruct (Hseg x Ix) as (Px & Rx). intros [(y & (Ay & _) & Ey)|(_ & y & Py & Ey & Ty)].
      * exact (HAP y x Ay Px Ey).
      * assert (y = x) by (apply (so_uniq _ _ HS); auto). subst y. apply (Hrd x Rx) in Ty. discriminate.
    + intros [((Ax & Tx) & Rx)|(Ix & _)]; [|exact Ix]. apply (Hrd x Rx) in Tx. discriminate.
Qed.

Lemma delete_sorted_r_eq rd now : forall l k ins i, tile_from k l -> weakly_ranked ins -> Forall good_in ins ->
  (forall x, In x ins -> key x <= k) ->
  delete_sorted_r rd i now l ins =
  (mapi_from i (fun j s => if rd j then del_in now ins s else s) l,
   forallb (fun b : bool => b) (mapi_from i (fun j s => match filter (inr s) ins with [] => true | _ => rd j end) l)).
Proof.
  induction l as [|s r IH]; intros k ins i HT Hr Hg Hle; [reflexivity|].
  destruct HT as (Hk & Hm & Hw & HT). cbn [delete_sorted_r mapi_from forallb].
  destruct (filter_idx s ins) as [a b] eqn:E.
  destruct (walk_next _ _ _ _ _ Hw Hm Hk Hr Hg Hle E) as (Hsl & Heq & Hne & Hsk).
  assert (Hrest : delete_sorted_r rd (S i) now r (if Nat.eqb a b then ins else skipn b ins) =
    (mapi_from (S i) (fun j s => if rd j then del_in now ins s else s) r,
     forallb (fun b : bool => b) (mapi_from (S i) (fun j s => match filter (inr s) ins with [] => true | _ => rd j end) r))).
  { destruct r as [|t r]; [reflexivity|]. destruct HT as (Hpos & HT).
    destruct (Nat.eqb_spec a b) as [->|Hab].
    - apply (IH (kmin s - 1)); auto. intros x Hx. apply Heq in Hx; lia.
    - rewrite Hsk, (IH (kmin s - 1)); auto using weak_filter, Forall_filter.
      + assert (Hsame : forall L j, (forall u, In u L -> In u (t :: r)) ->
          mapi_from j (fun j s0 => if rd j then del_in now (filter (fun x => key x <? kmin s) ins) s0 else s0) L =
          mapi_from j (fun j s0 => if rd j then del_in now ins s0 else s0) L /\
          mapi_from j (fun j s0 => match filter (inr s0) (filter (fun x => key x <? kmin s) ins) with [] => true | _ => rd j end) L =
          mapi_from j (fun j s0 => match filter (inr s0) ins with [] => true | _ => rd j end) L).
        { induction L as [|u L IHL]; intros j HL; [split; reflexivity|]. cbn [mapi_from].
          destruct (IHL (S j)) as (-> & ->); [intros; apply HL; right; assumption|].
          unfold del_in. rewrite filter_below; [split; reflexivity|].
          pose proof (tile_from_kmax _ _ _ HT (HL u (or_introl eq_refl))). lia. }
        destruct (Hsame (t :: r) (S i) (fun u H => H)) as (-> & ->). reflexivity.
      + intros x Hx. apply filter_In in Hx. lia. }
  destruct (Nat.eqb_spec a b) as [->|Hab].
  - rewrite Hrest. destruct (Heq eq_refl) as (E0 & _). assert (Ed : del_in now ins s = s) by (unfold del_in; rewrite E0; reflexivity).
    rewrite Ed, E0. destruct (rd i); reflexivity.
  - rewrite Hrest, Hsl. specialize (Hne Hab).
    assert (Ed : touch now (set_elems (filter (fun e => negb (mem_id (e_id e) (map e_id (filter (inr s) ins))))) s) = del_in now ins s).
    { unfold del_in. destruct (filter (inr s) ins); [congruence|reflexivity]. }
    rewrite Ed. destruct (filter (inr s) ins); [congruence|]. destruct (rd i); reflexivity.
Qed.

Lemma index_unread Q l rdi sc ids : icore Q (ss_segs (l_index l)) -> Forall (fun v => v <= max_u64) ids ->
  (get_index_elements_r rdi sc l ids = Unread /\ unreadable rdi (fun s => exists id, In id ids /\ files s id) (ss_segs (l_index l))) \/
  (get_index_elements_r rdi sc l ids = Answer (get_index_elements sc l ids) /\
   ~ unreadable rdi (fun s => exists id, In id ids /\ files s id) (ss_segs (l_index l))).
Proof.
  intros HC Hb. pose proof (ic_i _ _ HC) as HI.
  assert (Hb' : Forall (fun v => v <= max_u64) (nodup N.eq_dec ids)).
  { rewrite Forall_forall in *. intros v Hv. apply nodup_In in Hv. auto. }
  destruct (split_scores_spec (ss_segs (l_index l)) (nodup N.eq_dec ids) (so_tile _ _ HI) (ic_al _ _ HC) Hb') as (G1 & _ & G3). cbn zeta in *.
  unfold get_index_elements_r, get_first_with_score_r, get_index_elements. set (g := split_scores (ss_segs (l_index l)) (nodup N.eq_dec ids)) in *.
  destruct (forallb (fun p => rdi (fst p)) g) eqn:Eg; [right|left]; (split; [reflexivity|]).
  - intros (i & s & Hi & (id & Hid & Ho) & Hr).
    apply (nodup_In N.eq_dec), sort_ids_desc_In in Hid. rewrite <- G1 in Hid. apply in_concat in Hid as (ids' & Hids & Hin).
    apply in_map_iff in Hids as (p & <- & Hp). rewrite Forall_forall in G3. destruct (G3 p Hp) as (_ & t & Ht & Hot).
    rewrite Forall_forall in Hot. specialize (Hot id Hin).
    assert (fst p = i).
    { pose proof (ic_al _ _ HC) as HA. pose proof (tile_from_widths _ _ (so_tile _ _ HI)) as Hw. rewrite Forall_forall in Hw.
      pose proof (aligned_one _ s HA (nth_error_In _ _ Hi)) as As. pose proof (aligned_one _ t HA (nth_error_In _ _ Ht)) as At.
      pose proof (Hw s (nth_error_In _ _ Hi)) as Ws. pose proof (Hw t (nth_error_In _ _ Ht)) as Wt.
      destruct (Nat.lt_trichotomy (fst p) i) as [Lt|[Eq|Gt]]; [exfalso|exact Eq|exfalso].
      - pose proof (tile_from_order _ _ _ _ _ _ (so_tile _ _ HI) Ht Hi Lt) as O.
        unfold aligned, owns, files, kmin, kmax, kk, widths, max_u32 in *. inversion As; inversion At; subst. lia.
      - pose proof (tile_from_order _ _ _ _ _ _ (so_tile _ _ HI) Hi Ht Gt) as O.
        unfold aligned, owns, files, kmin, kmax, kk, widths, max_u32 in *. inversion As; inversion At; subst. lia. }
    pose proof (read_group _ _ _ Eg Hp) as Hrt. congruence.
  - apply unread_group in Eg as (p & Hp & Hr). rewrite Forall_forall in G3. destruct (G3 p Hp) as (Hne & s & Hs & Ho).
    exists (fst p), s. split; [exact Hs|]. split; [|exact Hr]. destruct (snd p) as [|id rest] eqn:E; [congruence|].
    exists id. split; [|inversion Ho; assumption]. apply (nodup_In N.eq_dec), sort_ids_desc_In. rewrite <- G1.
    apply in_concat. exists (snd p). split; [apply in_map, Hp|]. rewrite E. left; reflexivity.
Qed.

(** ** lists whose index may hold too many entries *)
Definition led (P Q : element -> Prop) (l : lst) : Prop := skew P Q l /\ forall x, P x -> leads Q (ss_segs (l_scores l)) x.

Lemma leads_at P Q l i s x : score_ok P l -> NoDup (elems_of l) -> nth_error l i = Some s -> In x (sg_elems s) -> leads Q l x ->
  exists q, Q q /\ e_id q = e_id x /\ idx_get (build_idx l) (e_tie q) = i.
Proof.
  intros HS HN Hi Hx (q & t & Hq & Eq & Ht & Hxt). exists q. split; [exact Hq|]. split; [exact Eq|].
  exact (NoDup_elems_segs l _ _ _ _ x HN Ht Hi Hxt Hx).
Qed.

Lemma leads_kept (Q Q' : element -> Prop) l l' x : map frame l' = map frame l -> leads Q l x ->
  (forall i s s', nth_error l i = Some s -> nth_error l' i = Some s' -> In x (sg_elems s) -> In x (sg_elems s')) ->
  (forall q, Q q -> e_id q = e_id x -> Q' q) -> leads Q' l' x.
Proof.
  intros HF (q & t & Hq & Eq & Ht & Hx) Hk HQ. destruct (frames_sym_nth _ _ _ _ HF Ht) as (t' & Ht' & _).
  exists q, t'. split; [auto|]. split; [exact Eq|]. assert (E : build_idx l' = build_idx l) by (symmetry; exact (build_idx_frames l' l 0 HF)).
  rewrite E.  split; [exact Ht'|]. eapply Hk; eauto.
Qed.

Lemma score_ok_nodup P l : score_ok P l -> NoDup (elems_of l).
Proof. intros HS. apply ranked_NoDup. eapply score_ok_ranked; eauto. Qed.

Lemma meta_ids s : meta s -> Forall (fun x => sg_id x <= max_u32) (ss_segs s).
Proof.
  intros HM. pose proof (m_id _ HM) as H. pose proof (m_next _ HM) as Hn. rewrite Forall_forall in *. intros x Hx. specialize (H x Hx). unfold max_u32. lia.
Qed.

Definition touched_by (l : list seg) (e : elements) (i : nat) : bool := match ids_for (build_idx l) i e with [] => false | _ => true end.

(** what DeleteElementsIdx does when the index leads to every element *)
Lemma delete_parts P Q l now sc1 sc2 ids : led P Q l -> Forall (fun v => v <= max_u64) ids ->
  let e := get_index_elements sc1 l ids in
  let ss := ss_segs (l_scores l) in
  exists ss' deleted, delete_elements_idx now sc2 (l_scores l) e = (set_segs (reindex (l_scores l)) ss', deleted) /\
    map frame ss' = map frame ss /\ stepped now ss ss' /\
    changed (fun _ => False) (fun id => In id ids) ss ss' /\
    (forall i s, nth_error ss i = Some s -> touched_by ss e i = false -> nth_error ss' i = Some s) /\
    (forall i s x, nth_error ss i = Some s -> In x (sg_elems s) -> In (e_id x) ids -> touched_by ss e i = true) /\
    weakly_ranked deleted /\ Forall good_in deleted /\
    (forall y, In y deleted <-> exists i s x, nth_error ss i = Some s /\ In x (sg_elems s) /\ In (e_id x) ids /\ y = as_index x (sg_id s)).
Proof.
  intros ([HS HI HMs HMi] & HL) Hb.
  destruct (reindex_idx _ (tile_nonempty _ (so_tile _ _ HS)) (m_idx _ HMs)) as (Ei & Es & En & Ex & Eb).
  destruct (index_elements_i _ _ sc1 _ HI Hb) as (Hd & Hiff). cbn zeta.
  unfold delete_elements_idx. cbn zeta. rewrite Es, Ei.
  set (e := get_index_elements sc1 l ids) in *. set (ss := ss_segs (l_scores l)) in *.
  set (tch := fun i => ids_for (build_idx ss) i e).
  assert (Htch : forall i s x, nth_error ss i = Some s -> In x (sg_elems s) -> In (e_id x) (tch i) <-> In (e_id x) ids).
  { intros i s x Hi Hx. unfold tch. rewrite ids_for_In. split.
    - intros (q & Hq & <- & _). apply Hiff in Hq. tauto.
    - intros Hin. destruct (score_ok_seg _ _ s x HS (nth_error_In _ _ Hi) Hx) as (Px & _).
      destruct (leads_at P Q ss i s x HS (score_ok_nodup _ _ HS) Hi Hx (HL x Px)) as (q & Hq & Eq & Et).
      exists q. split; [apply Hiff; rewrite Eq; auto|]. split; [exact Eq|exact Et]. }
  set (f := fun i s => match tch i with
                       | [] => s
                       | d => touch now (set_elems (filter (fun x => negb (mem_id (e_id x) d))) s) end).
  assert (Hfe : forall i s, sg_elems (f i s) = filter (fun x => negb (mem_id (e_id x) (tch i))) (sg_elems s)).
  { intros i s. unfold f. destruct (tch i) as [|d0 d] eqn:E; [|reflexivity]. symmetry. apply filter_all. reflexivity. }
  assert (Hff : forall i s, frame (f i s) = frame s) by (intros; unfold f; destruct (tch i); reflexivity).
  set (g := fun (i : nat) (s : seg) => match tch i with
                       | [] => None
                       | d => Some (sort_elems (map (fun x => as_index x (sg_id s)) (filter (fun x => mem_id (e_id x) d) (sg_elems s)))) end).
  set (groups := flat_map (fun o : option elements => match o with Some v => [v] | None => [] end) (mapi g ss)).
  set (deleted := fold_left (fun acc v => merge_copy acc v) (permute sc2 groups) []).
  assert (Hdel : forall y, In y deleted <-> exists i s x, nth_error ss i = Some s /\ In x (sg_elems s) /\ In (e_id x) ids /\ y = as_index x (sg_id s)).
  { intros y. unfold deleted. rewrite fold_merge_In. unfold groups. split.
    - intros [[]|(v & Hv & Hy)]. apply permute_In in Hv. apply in_flat_map in Hv as (o & Ho & Hv).
      destruct o as [v'|]; [|contradiction]. destruct Hv as [->|[]]. apply mapi_In in Ho as (i & s & Hi & Eg).
      assert (Eg' : v = sort_elems (map (fun x => as_index x (sg_id s)) (filter (fun x => mem_id (e_id x) (tch i)) (sg_elems s)))).
      { unfold g in Eg. destruct (tch i); [discriminate|]. congruence. }
      subst v. apply sort_elems_In, in_map_iff in Hy as (x & <- & Hx). apply filter_In in Hx as (Hx & Hm).
      exists i, s, x. repeat split; auto. apply (Htch i s x Hi Hx). apply mem_id_spec. exact Hm.
    - intros (i & s & x & Hi & Hx & Hin & ->). right.
      apply (Htch i s x Hi Hx) in Hin.
      exists (sort_elems (map (fun x => as_index x (sg_id s)) (filter (fun x => mem_id (e_id x) (tch i)) (sg_elems s)))). split.
      + apply permute_In, in_flat_map. exists (g i s). split; [apply mapi_In; eauto|]. unfold g.
        destruct (tch i); [contradiction|]. left; reflexivity.
      + apply sort_elems_In, in_map_iff. exists x. split; [reflexivity|]. apply filter_In. split; [exact Hx|].
        apply mem_id_spec. exact Hin. }
  exists (mapi f ss), deleted. split; [reflexivity|]. split; [apply mapi_same; exact Hff|]. split; [|split; [|split; [|split; [|split; [|split; [|exact Hdel]]]]]].
  - intros i s s' Hi Hi'. rewrite mapi_nth, Hi in Hi'. cbn in Hi'. assert (E : s' = f i s) by congruence. subst s'.
    unfold f. destruct (tch i); [auto|]. right. cbn. auto.
  - intros i s s' Hi Hi'. rewrite mapi_nth, Hi in Hi'. cbn in Hi'. assert (E : s' = f i s) by congruence. subst s'.
    rewrite Hfe. split; [apply StronglySorted_filter; exact (proj1 (score_ok_seg_ranked P ss i s HS Hi))|].
    intros x. rewrite filter_In. split.
    + intros (Hx & Hn). right. split; [exact Hx|]. intros C. apply (Htch i s x Hi Hx) in C. apply mem_id_spec in C.
      rewrite C in Hn. discriminate.
    + intros [(F & _)|(Hx & Hn)]; [contradiction|]. split; [exact Hx|].
      destruct (mem_id (e_id x) (tch i)) eqn:E; [|reflexivity]. exfalso. apply Hn. apply (Htch i s x Hi Hx).
      apply mem_id_spec. exact E.
  - intros i s Hi Ht. rewrite mapi_nth, Hi. cbn. f_equal. unfold f, touched_by, tch in *. destruct (ids_for (build_idx ss) i e); [reflexivity|discriminate].
  - intros i s x Hi Hx Hin. apply (Htch i s x Hi Hx) in Hin. unfold touched_by, tch in *. destruct (ids_for (build_idx ss) i e); [contradiction|reflexivity].
  - apply fold_merge_weak; [constructor|]. apply Forall_forall. intros v Hv. apply permute_In in Hv.
    apply in_flat_map in Hv as (o & Ho & Hv). destruct o as [v'|]; [|contradiction]. destruct Hv as [->|[]].
    apply mapi_In in Ho as (i & s & Hi & Eg). unfold g in Eg. destruct (tch i); [discriminate|].
    injection Eg as ->. apply sort_elems_weak.
  - apply Forall_forall. intros y Hy. apply Hdel in Hy as (i & s & x & Hi & Hx & _ & ->). apply good_good_in, as_index_good.
    + apply (so_good _ _ HS). eapply (score_ok_seg _ _ s x HS); eauto using nth_error_In.
    + pose proof (meta_ids _ HMs) as Hc. rewrite Forall_forall in Hc. apply Hc. eapply nth_error_In; eauto.
Qed.

(** what the removal from the index does *)
Lemma delete_index Q is now deleted : icore Q is -> weakly_ranked deleted -> Forall good_in deleted ->
  (forall y, In y deleted -> e_score y = e_id y) ->
  changed (fun _ => False) (fun id => In id (map e_id deleted)) is (map (del_in now deleted) is).
Proof.
  intros HC Hw Hg Hf. pose proof (ic_i _ _ HC) as HI. intros i s s' Hi Hi'. rewrite nth_error_map, Hi in Hi'. cbn in Hi'.
  assert (E : s' = del_in now deleted s) by congruence. subst s'.
  assert (Ee : sg_elems (del_in now deleted s) = filter (fun q => negb (mem_id (e_id q) (map e_id (filter (inr s) deleted)))) (sg_elems s)).
  { unfold del_in. destruct (filter (inr s) deleted); [|reflexivity]. symmetry. apply filter_all. reflexivity. }
  rewrite Ee. split; [apply StronglySorted_filter; exact (proj1 (score_ok_seg_ranked Q is i s HI Hi))|].
  assert (Hm : forall q, In q (sg_elems s) -> mem_id (e_id q) (map e_id (filter (inr s) deleted)) = true <-> In (e_id q) (map e_id deleted)).
  { intros q Hq. rewrite mem_id_spec. split.
    - intros H. apply in_map_iff in H as (y & Ey & Hy). apply filter_In in Hy as (Hy & _). rewrite <- Ey. apply in_map. exact Hy.
    - intros H. apply in_map_iff in H as (y & Ey & Hy). destruct (score_ok_seg _ _ s q HI (nth_error_In _ _ Hi) Hq) as (Qq & Rq).
      rewrite <- Ey. apply in_map, filter_In. split; [exact Hy|]. apply inr_spec.
      pose proof (aligned_one _ s (ic_al _ _ HC) (nth_error_In _ _ Hi)) as As.
      pose proof (tile_from_widths _ _ (so_tile _ _ HI)) as Hws. rewrite Forall_forall in Hws. specialize (Hws s (nth_error_In _ _ Hi)).
      destruct (ic_form _ _ HC q Qq) as (Fq & _). specialize (Hf y Hy). rewrite Forall_forall in Hg. specialize (Hg y Hy).
      pose proof (so_good _ _ HI q Qq) as Gq.
      unfold aligned, in_range, good_in, good, elem_ok, key, kmin, kmax, kk, widths, max_u32, max_u64 in *. inversion As; subst. lia. }
  intros x. rewrite filter_In. split.
  - intros (Hx & Hn). right. split; [exact Hx|]. intros C. apply (Hm x Hx) in C. rewrite C in Hn. discriminate.
  - intros [(F & _)|(Hx & Hn)]; [contradiction|]. split; [exact Hx|].
    destruct (mem_id (e_id x) (map e_id (filter (inr s) deleted))) eqn:E; [|reflexivity]. exfalso. apply Hn, (Hm x Hx), E.
Qed.

Definition no_unread_id (rdi : nat -> bool) (l : lst) (ids : list N) : Prop :=
  ~ unreadable rdi (fun s => exists id, In id ids /\ files s id) (ss_segs (l_index l)).
(** elements that a delete removes from the scores *)
Definition removed (rdi rds : nat -> bool) (l : lst) (ids : list N) (x : element) : Prop :=
  In (e_id x) ids /\ no_unread_id rdi l ids /\ to_read rds (ss_segs (l_scores l)) x.

Lemma mapi_id {A} (l : list A) : mapi (fun _ s => s) l = l.
Proof. unfold mapi. generalize 0%nat. induction l as [|x r IH]; intros k; [reflexivity|]. cbn. rewrite IH. reflexivity. Qed.

Lemma mix_map rd f l : mix rd l (map f l) = mapi (fun i s => if rd i then f s else s) l.
Proof.
  apply nth_ext_error. intros i. destruct (nth_error l i) as [s|] eqn:E.
  - rewrite (mix_nth rd l (map f l) i s (f s)); [|apply map_length|exact E|exact (map_nth_error f i l E)]. rewrite mapi_nth, E. reflexivity.
  - unfold mix. rewrite !mapi_nth, E. reflexivity.
Qed.

Lemma set_segs_same s : set_segs s (ss_segs s) = s.
Proof. destruct s; reflexivity. Qed.

Lemma score_ok_ext P P' l : (forall x, P x <-> P' x) -> score_ok P l -> score_ok P' l.
Proof.
  intros HE [A B C D]. split; [exact A| | |].
  - eapply Forall_impl; [|exact B]. intros s (H1 & H2). split; [exact H1|]. intros x. rewrite H2, HE. tauto.
  - intros x Hx. apply C, HE, Hx.
  - intros x y Hx Hy. apply D; apply HE; assumption.
Qed.

Lemma delete_index_led P Q l now deleted rdx : skew P Q l -> weakly_ranked deleted -> Forall good_in deleted ->
  (forall y, In y deleted -> e_score y = e_id y) -> 0 < now < max_u32 ->
  let is := ss_segs (l_index l) in
  let '(is', ok) := delete_sorted_r rdx 0 now is deleted in
  is' = mix rdx is (map (del_in now deleted) is) /\
  map frame is' = map frame is /\ stepped now is is' /\
  icore (fun q => Q q /\ ~ (In (e_id q) (map e_id deleted) /\ to_read rdx is q)) is' /\
  (ok = true -> is' = delete_sorted now is deleted) /\
  (ok = false <-> exists i s y, nth_error is i = Some s /\ In y deleted /\ in_range s y /\ rdx i = false).
Proof.
  intros [HS HC HMs HMi] Hw Hg Hf Hnow. cbn zeta. pose proof (ic_i _ _ HC) as HI. set (is := ss_segs (l_index l)) in *.
  assert (Hk : forall x, In x deleted -> key x <= topk).
  { intros x Hx. rewrite Forall_forall in Hg. apply key_le_top. apply Hg in Hx. unfold good_in in Hx. tauto. }
  rewrite (delete_sorted_r_eq rdx now is topk deleted 0 (so_tile _ _ HI) Hw Hg Hk). fold (mapi (fun j s => if rdx j then del_in now deleted s else s) is).
  rewrite <- (mix_map rdx (del_in now deleted) is).
  assert (HF : map frame (map (del_in now deleted) is) = map frame is) by (rewrite map_map; apply map_ext; apply del_in_frame).
  assert (HT : stepped now is (map (del_in now deleted) is)).
  { apply stepped_map. intros s. unfold del_in. destruct (filter (inr s) deleted); [auto|]. right. eauto. }
  split; [reflexivity|]. split; [apply mix_frame; exact HF|]. split; [apply mix_stepped; assumption|].
  assert (Hok : forallb (fun b : bool => b) (mapi_from 0 (fun j s => match filter (inr s) deleted with [] => true | _ => rdx j end) is) = false <->
                exists i s y, nth_error is i = Some s /\ In y deleted /\ in_range s y /\ rdx i = false).
  { change (mapi_from 0 ?f is) with (mapi f is). split.
    - intros H. apply not_true_iff_false in H. destruct (existsb negb (mapi (fun j s => match filter (inr s) deleted with [] => true | _ => rdx j end) is)) eqn:Ex.
      + apply existsb_exists in Ex as (b & Hb & Nb). apply mapi_In in Hb as (i & s & Hi & Eb).
        destruct (filter (inr s) deleted) as [|y r] eqn:Ef; [subst b; discriminate|].
        assert (Hy : In y (filter (inr s) deleted)) by (rewrite Ef; left; reflexivity). apply filter_In in Hy as (Hy & Ry).
        exists i, s, y. split; [exact Hi|]. split; [exact Hy|]. split; [apply inr_spec; exact Ry|]. subst b. destruct (rdx i); [discriminate|reflexivity].
      + exfalso. apply H, forallb_forall. intros b Hb. destruct b; [reflexivity|]. exfalso. apply not_true_iff_false in Ex. apply Ex.
        apply existsb_exists. exists false. auto.
    - intros (i & s & y & Hi & Hy & Ry & Er). apply not_true_iff_false. intros H. rewrite forallb_forall in H.
      specialize (H false). assert (false = true); [|discriminate]. apply H. apply mapi_In. exists i, s. split; [exact Hi|].
      assert (Hin : In y (filter (inr s) deleted)) by (apply filter_In; split; [exact Hy|apply inr_spec; exact Ry]).
      destruct (filter (inr s) deleted); [contradiction|]. symmetry. exact Er. }
  split; [|split; [|exact Hok]].
  - pose proof (changed_mix Q (fun _ => False) _ rdx is _ HI HF (delete_index Q is now deleted HC Hw Hg Hf)) as HCh.
    assert (HCh' := HCh ltac:(intros ? []) ltac:(intros ? ? [])). clear HCh.
    pose proof (score_ok_change Q _ _ is _ HI (mix_frame rdx _ _ HF) HCh') as HS'.
    split.
    + eapply score_ok_ext; [|apply HS']; [|intros x ([] & _)|intros x y ([] & _)].
      intros q. unfold apply_change. split.
      * intros [([] & _)|(Hq & Hn)]. split; [exact Hq|]. intros (A & B). apply Hn. right. split; [exact A|]. exists q. auto.
      * intros (Hq & Hn). right. split; [exact Hq|]. intros [(x & ([] & _) & _)|(A & x & Qx & Ex & Tx)]. apply Hn.
        assert (x = q) by (apply (so_uniq _ _ HI); auto). subst x. auto.
    + pose proof (ic_al _ _ HC) as Hal. unfold aligned in *. rewrite Forall_forall in *. intros s' Hs'. apply In_nth_error in Hs' as (i & Hi).
      destruct (frames_nth _ _ _ _ (mix_frame rdx _ _ HF) Hi) as (s & Hs & E). destruct (frame_eq _ _ E) as (_ & _ & _ & _ & _ & -> & ->).
      apply Hal. eapply nth_error_In; eauto.
    + intros q (Hq & _). apply (ic_form _ _ HC q Hq).
  - intros Ht. rewrite (delete_sorted_map now is topk deleted (so_tile _ _ HI) Hw Hg Hk). apply nth_ext_error. intros i. rewrite nth_error_map.
    destruct (nth_error is i) as [s|] eqn:E; [|unfold mix; rewrite mapi_nth, E; reflexivity].
    rewrite (mix_nth rdx is (map (del_in now deleted) is) i s (del_in now deleted s)); [|apply map_length|exact E|exact (map_nth_error _ _ _ E)].
    cbn. f_equal. destruct (rdx i) eqn:Er; [reflexivity|]. unfold del_in. destruct (filter (inr s) deleted) as [|y r] eqn:Ef; [reflexivity|].
    exfalso. rewrite (proj2 Hok) in Ht; [discriminate|]. assert (Hy : In y (filter (inr s) deleted)) by (rewrite Ef; left; reflexivity).
    apply filter_In in Hy as (Hy & Ry). exists i, s, y. split; [exact E|]. split; [exact Hy|]. split; [apply inr_spec; exact Ry|exact Er].
Qed.

Lemma led_ext P P' Q l : (forall x, P x <-> P' x) -> led P Q l -> led P' Q l.
Proof.
  intros HE ([A B C D] & HL). split; [split; auto; eapply score_ok_ext; eauto|]. intros x Hx. apply HL, HE, Hx.
Qed.

Lemma index_files s y : aligned [s] -> widths s -> good_in y -> e_score y = e_id y -> in_range s y <-> files s (e_id y).
Proof.
  intros HA Hw Hg Hf. rewrite (aligned_in_range s y HA Hw (proj1 Hg)), Hf. reflexivity.
Qed.

Lemma frames_to_read rd l l' x : map frame l' = map frame l -> to_read rd l' x <-> to_read rd l x.
Proof.
  intros HF. split; intros (i & s & Hs & Rs & Hr).
  - destruct (frames_nth _ _ _ _ HF Hs) as (t & Ht & E). destruct (frame_eq _ _ E) as (_ & _ & _ & _ & Er & _). exists i, t. rewrite <- Er. auto.
  - destruct (frames_sym_nth _ _ _ _ HF Hs) as (t & Ht & E). destruct (frame_eq _ _ E) as (_ & _ & _ & _ & Er & _). exists i, t. rewrite Er. auto.
Qed.

Lemma delete_r_led P Q l rdi rds rdx now sc1 sc2 ids : led P Q l -> Forall (fun v => v <= max_u64) ids -> 0 < now < max_u32 ->
  let '(l', ok) := delete_elements_r rdi rds rdx now sc1 sc2 ids l in
  let ss := ss_segs (l_scores l) in
  let is := ss_segs (l_index l) in
  map frame (ss_segs (l_scores l')) = map frame ss /\ map frame (ss_segs (l_index l')) = map frame is /\
  (exists Q', led (fun x => P x /\ ~ removed rdi rds l ids x) Q' l') /\
  (ok = true -> l' = delete_elements now sc1 sc2 ids l) /\
  (ok = true -> forall x, P x -> In (e_id x) ids -> removed rdi rds l ids x) /\
  (ok = false <-> ~ no_unread_id rdi l ids \/
     (exists i, (i < length ss)%nat /\ touched_by ss (get_index_elements sc1 l ids) i = true /\ rds i = false) \/
     (exists i s x, nth_error is i = Some s /\ P x /\ In (e_id x) ids /\ files s (e_id x) /\ rdx i = false)).
Proof.
  intros HL Hb Hnow. pose proof (proj1 HL) as HK. destruct HK as [HS HI HMs HMi]. pose proof HL as (_ & Hlead).
  unfold delete_elements_r.
  destruct (index_unread Q l rdi sc1 ids HI Hb) as [(-> & Hu)|(-> & Hu)].
  { cbn zeta. split; [reflexivity|]. split; [reflexivity|]. split.
    { exists Q. eapply led_ext; [|exact HL]. intros x. split; [|tauto]. intros Hx. split; [exact Hx|]. intros (_ & H & _). exact (H Hu). }
    split; [discriminate|]. split; [discriminate|]. split; [|reflexivity]. intros _. left. intros H. exact (H Hu). }
  destruct (delete_parts P Q l now sc1 sc2 ids HL Hb) as (ss' & deleted & Edel & HF & HT & HCh & Hunt & Htch & Hdw & Hdg & Hdel). cbn zeta in *.
  destruct (reindex_idx _ (tile_nonempty _ (so_tile _ _ HS)) (m_idx _ HMs)) as (Ei & Es & En & Ex & Eb).
  unfold delete_elements_idx_r, delete_elements. rewrite Edel. cbn zeta. rewrite Es, Ei.
  set (e := get_index_elements sc1 l ids) in *. set (ss := ss_segs (l_scores l)) in *. set (is := ss_segs (l_index l)) in *.
  set (okb := forallb _ (seq 0 (length ss))).
  assert (Hokb : okb = true <-> forall i, (i < length ss)%nat -> touched_by ss e i = true -> rds i = true).
  { unfold okb. rewrite forallb_forall. unfold touched_by. split.
    - intros H i Hi Ht. specialize (H i ltac:(apply in_seq; lia)). destruct (ids_for (build_idx ss) i e); [discriminate|exact H].
    - intros H i Hi. apply in_seq in Hi. specialize (H i ltac:(lia)). destruct (ids_for (build_idx ss) i e); [reflexivity|apply H; reflexivity]. }
  clearbody okb. set (sc' := set_segs (set_segs (reindex (l_scores l)) ss') (mapi _ ss)).
  assert (Esc : sc' = set_segs (reindex (l_scores l)) (mix rds ss ss')) by reflexivity. clearbody sc'.
  assert (HFm : map frame (mix rds ss ss') = map frame ss) by (apply mix_frame; exact HF).
  pose proof (changed_mix P _ _ rds ss ss' HS HF HCh ltac:(intros ? []) ltac:(intros ? ? [])) as HChm.
  set (P' := fun x => P x /\ ~ removed rdi rds l ids x).
  assert (HS' : score_ok P' (mix rds ss ss')).
  { eapply score_ok_ext; [|apply (score_ok_change P _ _ ss _ HS HFm HChm)]; [|intros x ([] & _)|intros x y ([] & _)].
    intros x. unfold apply_change, P'. split.
    - intros [([] & _)|(Px & Hn)]. split; [exact Px|]. intros (A & _ & B). apply Hn. right. split; [exact A|]. exists x. auto.
    - intros (Px & Hn). right. split; [exact Px|]. intros [(y & ([] & _) & _)|(A & y & Py & Ey & Ty)]. apply Hn.
      assert (y = x) by (apply (so_uniq _ _ HS); auto). subst y. split; [exact A|]. split; [exact Hu|exact Ty]. }
  assert (Hmeta : meta sc').
  { rewrite Esc. unfold set_segs. rewrite En, Ex, Eb, Ei. apply meta_step with now; auto. apply mix_stepped; assumption. }
  assert (Hpos : forall x, P x -> In (e_id x) ids -> okb = true -> removed rdi rds l ids x).
  { intros x Px Hin Hok. split; [exact Hin|]. split; [exact Hu|].
    destruct (Hlead x Px) as (q & t & _ & _ & Ht & Hx). destruct (score_ok_seg _ _ t x HS (nth_error_In _ _ Ht) Hx) as (_ & Rx).
    eexists _, t. split; [exact Ht|]. split; [exact Rx|]. apply (proj1 Hokb Hok).
    - apply nth_error_Some. fold ss in Ht. rewrite Ht. discriminate.
    - eapply Htch; eauto. }
  assert (Hbuild : forall Q' is', icore Q' is' -> map frame is' = map frame is -> stepped now is is' ->
    (forall x q, P' x -> Q q -> e_id q = e_id x -> Q' q) -> led P' Q' (set_both l sc' (set_segs (l_index l) is'))).
  { intros Q' is' HI' HFi HTi HQ. unfold led, set_both. cbn [l_scores l_index]. rewrite Esc. split.
    - split; cbn [l_scores l_index set_segs ss_segs]; [exact HS'|exact HI'|rewrite <- Esc; exact Hmeta|].
      apply meta_step with now; auto. apply (m_idx _ HMi).
    - intros x Hx. cbn [set_segs ss_segs]. apply leads_kept with (Q := Q) (l := ss); [exact HFm|apply Hlead; apply Hx| |].
      + intros i s s' Hs Hs' Ix. destruct (score_ok_seg _ _ s x HS (nth_error_In _ _ Hs) Ix) as (_ & Rx).
        pose proof (holds_nth _ _ _ _ (so_holds _ _ HS') Hs') as (_ & Hh). apply Hh. split; [exact Hx|].
        destruct (frames_nth _ _ _ _ HFm Hs') as (s0 & Hs0 & E). destruct (frame_eq _ _ E) as (_ & _ & _ & _ & Er & _). apply Er.
        assert (s0 = s) by congruence. subst s0. exact Rx.
      + intros q Hq Eq. eapply HQ; eauto. }
  assert (Hsame : okb = true -> sc' = set_segs (reindex (l_scores l)) ss').
  { intros Hok. rewrite Esc. f_equal. apply nth_ext_error. intros i. destruct (nth_error ss i) as [s|] eqn:Ess.
    - destruct (frames_sym_nth _ _ _ _ HF Ess) as (s' & Es' & _). rewrite (mix_nth rds ss ss' i s s' (frames_length _ _ HF) Ess Es').
      destruct (rds i) eqn:Er; [symmetry; exact Es'|]. destruct (touched_by ss e i) eqn:Et.
      + rewrite (proj1 Hokb Hok i) in Er; [discriminate| |exact Et]. apply nth_error_Some. congruence.
      + rewrite (Hunt i s Ess Et). reflexivity.
    - assert (nth_error ss' i = None) as -> by (apply nth_error_None; rewrite (frames_length _ _ HF); apply nth_error_None; exact Ess).
      apply nth_error_None. rewrite mix_length. apply nth_error_None. exact Ess. }
  assert (Hdf : forall y, In y deleted -> e_score y = e_id y) by (intros y Hy; apply Hdel in Hy as (i & s & x & _ & _ & _ & ->); reflexivity).
  assert (Hdin : forall v, In v (map e_id deleted) <-> exists x, P x /\ In (e_id x) ids /\ e_id x = v).
  { intros v. rewrite in_map_iff. split.
    - intros (y & <- & Hy). apply Hdel in Hy as (i & s & x & Hi & Hx & Hin & ->). exists x. split; [|auto].
      apply (score_ok_seg _ _ s x HS (nth_error_In _ _ Hi) Hx).
    - intros (x & Px & Hin & <-). destruct (Hlead x Px) as (q & t & _ & _ & Ht & Hx). exists (as_index x (sg_id t)). split; [reflexivity|].
      apply Hdel. eexists _, t, x. split; [exact Ht|]. auto. }
  assert (Hrf : stepped now is is) by (intros i s s' A B; left; congruence).
  assert (Hbad : okb = false -> exists i, (i < length ss)%nat /\ touched_by ss e i = true /\ rds i = false).
  { intros Ho. destruct (existsb (fun i => touched_by ss e i && negb (rds i)) (seq 0 (length ss))) eqn:Exb.
    - apply existsb_exists in Exb as (i & Hi & Hc). apply in_seq in Hi. apply andb_prop in Hc as (Hc1 & Hc2). exists i.
      split; [lia|]. split; [exact Hc1|]. destruct (rds i); [discriminate|reflexivity].
    - exfalso. apply not_true_iff_false in Ho. apply Ho, Hokb. intros i Hi Ht. destruct (rds i) eqn:Er; [reflexivity|].
      apply not_true_iff_false in Exb. exfalso. apply Exb, existsb_exists. exists i. split; [apply in_seq; lia|]. rewrite Ht, Er. reflexivity. }
  assert (Hgood : okb = true -> ~ exists i, (i < length ss)%nat /\ touched_by ss e i = true /\ rds i = false).
  { intros Ho (i & Hi & Ht & Hr). rewrite (proj1 Hokb Ho i Hi Ht) in Hr. discriminate. }
  destruct okb.
  - specialize (Hsame eq_refl). specialize (Hgood eq_refl). destruct deleted as [|d0 dr] eqn:Ed.
    + cbn zeta. rewrite <- (set_segs_same (l_index l)). cbn [set_both l_scores l_index set_segs ss_segs].
      split; [rewrite Esc; exact HFm|]. split; [reflexivity|]. split.
      { exists Q. apply (Hbuild Q is); auto. }
      split; [intros _; rewrite Hsame; rewrite set_segs_same; reflexivity|]. split; [auto|]. split; [discriminate|].
      intros [H|[H|(i & s & x & _ & Px & Hin & _)]]; [contradiction|contradiction|]. exfalso.
      assert (In (e_id x) (map e_id (@nil element))) as []. apply Hdin. eauto.
    + clear Ed deleted. cbv beta iota zeta. fold is. set (deleted := d0 :: dr) in *. clearbody deleted.
      pose proof (delete_index_led P Q l now deleted rdx (proj1 HL) Hdw Hdg Hdf Hnow) as HD. cbn zeta in HD. fold is in HD.
      destruct (delete_sorted_r rdx 0 now is deleted) as (is', ok'). destruct HD as (Eis & HFi & HTi & HIi & Hok & Hno).
      cbn zeta. cbn [set_both l_scores l_index set_segs ss_segs].
      split; [rewrite Esc; exact HFm|]. split; [exact HFi|]. split.
      { eexists. apply (Hbuild _ is' HIi HFi HTi). intros x q (Px & Hn) Hq Eq. split; [exact Hq|]. intros (A & _).
        apply Hdin in A as (x' & Px' & Hin & Ex'). apply Hn. assert (x' = x) by (apply (so_uniq _ _ HS); auto; congruence). subst x'. auto. }
      split; [intros Ho; rewrite Hsame, (Hok Ho); reflexivity|]. split; [auto|]. rewrite Hno.
      pose proof (tile_from_widths _ _ (so_tile _ _ (ic_i _ _ HI))) as Hws. rewrite Forall_forall in Hws, Hdg. split.
      * intros (i & s & y & Hi & Hy & Ry & Hr). right. right. apply Hdel in Hy as Hy'. destruct Hy' as (j & t & x & Hj & Hx & Hin & Ey).
        exists i, s, x. split; [exact Hi|]. split; [apply (score_ok_seg _ _ t x HS (nth_error_In _ _ Hj) Hx)|]. split; [exact Hin|].
        split; [|exact Hr]. replace (e_id x) with (e_id y) by (subst y; reflexivity).
        apply (index_files s y); auto. eapply aligned_one; [apply (ic_al _ _ HI)|]. eapply nth_error_In; eauto. apply (Hws s). eapply nth_error_In; eauto.
      * intros [H|[H|(i & s & x & Hi & Px & Hin & Hf & Hr)]]; [contradiction|contradiction|].
        assert (Hv : In (e_id x) (map e_id deleted)) by (apply Hdin; eauto). apply in_map_iff in Hv as (y & Ey & Hy).
        exists i, s, y. split; [exact Hi|]. split; [exact Hy|]. split; [|exact Hr]. rewrite <- Ey in Hf.
        apply (index_files s y); auto. eapply aligned_one; [apply (ic_al _ _ HI)|]. eapply nth_error_In; eauto. apply (Hws s). eapply nth_error_In; eauto.
  - cbn zeta. rewrite <- (set_segs_same (l_index l)). cbn [set_both l_scores l_index set_segs ss_segs].
    split; [rewrite Esc; exact HFm|]. split; [reflexivity|]. split.
    { exists Q. apply (Hbuild Q is); auto. }
    split; [discriminate|]. split; [discriminate|]. split; [|reflexivity]. intros _. right. left. apply Hbad. reflexivity.
Qed.
