(** UpdateElements while reads fail, in terms of the list and the map it stands for. *)
From Coq Require Import Strings.String.
From Verif.Lib Require Import Prelude ListAux ListLemmas SortLemmas Perm.
From Verif.Model Require Import Element Elements Segment List ReadFail.
From Verif.Spec Require Import RankSpec QuerySpec HistorySpec AnswerSpec ReadFailSpec.
From Verif.Proof Require Import ElementP ElementsP ElementsThm SegP InvDef QueryP LookupP ChangeP UpdateP UpdateInv
  DeleteP HistoryP AnswerP ResultP ReadFailP UpdateReadP ListThm.
From Verif.Thm Require Import Sample.
Open Scope N_scope.

Lemma covers_range s x : widths s -> elem_ok x -> covers s (e_score x) (e_tie x) <-> in_range s x.
Proof. unfold covers, widths, elem_ok, in_range, key, kmin, kmax, kk, max_u32. lia. Qed.
Lemma at_pos_unique P l i j x : score_ok P l -> at_pos l i x -> at_pos l j x -> i = j.
Proof. intros HS (s & Hs & Rs) (t & Ht & Rt). eapply seg_unique; eauto. Qed.
Lemma readable_pos P l rd i x : score_ok P l -> elem_ok x -> at_pos l i x -> readable rd l x <-> rd i = true.
Proof.
  intros HS Hx (s & Hs & Rs). pose proof (tile_from_widths _ _ (so_tile _ _ HS)) as Hw. rewrite Forall_forall in Hw. split.
  - intros H. apply (H i s Hs). apply covers_range; auto. eapply Hw, nth_error_In; eauto.
  - intros H j t Ht Hc. apply covers_range in Hc; [|eapply Hw, nth_error_In; eauto|exact Hx].
    rewrite (seg_unique _ _ j i t s x HS Ht Hs Hc Rs). exact H.
Qed.

Lemma distinct_ids_In (l : elements) x y : distinct_ids l -> In x l -> In y l -> e_id x = e_id y -> x = y.
Proof.
  intros Hd Hx Hy E. pose proof (sputs_in l sempty x Hd Hx) as A. pose proof (sputs_in l sempty y Hd Hy) as B. congruence.
Qed.
Lemma reindexed_inv P l : Inv P l -> Inv P (set_both l (reindex (l_scores l)) (l_index l)).
Proof.
  intros H. pose proof H as [(Q & HC) M1 M2 F1 F2 N1 N2 Hsz].
  destruct (reindex_idx _ (tile_nonempty _ (so_tile _ _ (c_s _ _ _ _ HC))) (m_idx _ M1)) as (Ei & Es & En & Ex & Eb).
  rewrite set_both_eta; [|rewrite En; exact N1|exact N2].
  split; cbn [l_scores l_index l_scores_id l_index_id l_merge l_split]; auto; try congruence.
  - exists Q. rewrite Es. exact HC.
  - destruct M1 as [A B C D E F]. destruct (reindex (l_scores l)) as [a b c d e]. cbn in *. subst. split; cbn; auto.
Qed.

Lemma c66_update merge split l m rdi rdp rdd rdo clk clki now sc elems :
  reachable merge split l m -> op_ok merge split m (OUpdate clk clki now sc elems) ->
  let '(l', ok) := update_elements_r rdi rdp rdd rdo clk clki now sc elems l in
  let ss := ss_segs (l_scores l) in
  (ok = false <-> unreadable rdi (fun s => exists id, In id (map e_id elems) /\ files s id) (ss_segs (l_index l))) /\
  (ok = false -> forall r, ranking_of (sin m) r -> stored_in l' = r /\ answers l' r) /\
  (ok = true -> exists applied skipped dup,
     Permutation elems (applied ++ skipped) /\
     ranked (stored_in l') /\
     (forall x, In x (stored_in l') <-> sin (sputs m (map (stamp clk) applied)) x \/ In x dup) /\
     (forall e, In e skipped -> ~ readable rdd ss e) /\
     (forall x, In x dup -> sin m x /\ In (e_id x) (map e_id applied) /\ rdp (e_id x) = false /\ rdo (e_id x) = false) /\
     (distinct_ids (stored_in l') -> dup = [] /\ answers l' (stored_in l'))).
Proof.
  intros HR (Hd & Hg & Hc & Hci & Hnow). pose proof (reach_Inv _ _ _ _ HR) as HI.
  assert (HB : batch_ok elems) by (split; [exact Hd|exact Hg]).
  destruct (i_core _ _ HI) as (Q & HC).
  assert (Hidb : Forall (fun v => v <= max_u64) (map e_id elems)).
  { apply Forall_forall. intros v Hv. apply in_map_iff in Hv as (x & <- & Hx). rewrite Forall_forall in Hg. apply Hg in Hx. apply Hx. }
  set (ids := sort_ids_desc (map e_id (sort_elems elems))).
  assert (Hids : forall v, In v ids <-> In v (map e_id elems)).
  { intros v. unfold ids. rewrite sort_ids_desc_In. split; apply Permutation_in, Permutation_map; [apply sort_elems_perm|symmetry; apply sort_elems_perm]. }
  assert (Hidb' : Forall (fun v => v <= max_u64) ids).
  { rewrite Forall_forall in *. intros v Hv. apply Hidb, Hids, Hv. }
  assert (HU : unreadable rdi (fun s => exists id, In id (map e_id elems) /\ files s id) (ss_segs (l_index l)) <->
               forallb (fun g => rdi (fst g)) (index_groups (ss_segs (l_index l)) ids) = false).
  { rewrite (groups_unread _ _ _ _ _ _ HC Hidb'). split; intros (i & s & Hi & (id & Hid & Hf) & Hr); exists i, s;
      (split; [exact Hi|]; split; [|exact Hr]; exists id; split; [apply Hids; exact Hid|exact Hf]). }
  destruct (forallb (fun g => rdi (fst g)) (index_groups (ss_segs (l_index l)) ids)) eqn:EF.
  - assert (Hno : ~ unreadable rdi (fun s => exists id, In id (map e_id elems) /\ files s id) (ss_segs (l_index l))).
    { intros C. apply HU in C. discriminate. }
    destruct (update_r_full _ _ rdi rdp rdd rdo clk clki now sc elems HI HB Hc Hci Hnow Hno)
      as (l' & dn & late & dup & E & HP & Hat & Hrk & Hin & Hinv & Hlate & Hdup & _).
    rewrite E. cbn zeta. split; [split; [discriminate|intros C; contradiction]|]. split; [discriminate|]. intros _.
    exists (map snd dn), (map snd late), (map snd dup).
    assert (Hdn : distinct_ids (map snd dn)).
    { unfold distinct_ids in *. rewrite map_app in HP. eapply Permutation_NoDup in Hd; [|apply Permutation_map; exact HP].
      rewrite map_app in Hd. apply NoDup_app_iff in Hd. tauto. }
    assert (Eids : map e_id (map (stamp clk) (map snd dn)) = map sid dn).
    { rewrite stamp_ids, map_map. reflexivity. }
    assert (Hsin : forall x, sin (sputs m (map (stamp clk) (map snd dn))) x <->
       (exists p, In p dn /\ x = new_of clk (snd p)) \/ (sin m x /\ ~ In (e_id x) (map sid dn))).
    { intros x. rewrite sin_sputs by (unfold distinct_ids; rewrite stamp_ids; exact Hdn). rewrite Eids, map_map, in_map_iff.
      split; (intros [(p & A & B)|H]; [left; exists p; split; [try exact B; symmetry; exact B|try exact A; symmetry; exact A]|right; exact H]). }
    split; [rewrite <- map_app; exact HP|]. rewrite stored_contents. split; [exact Hrk|]. split; [|split; [|split]].
    + intros x. rewrite Hsin. apply Hin.
    + intros e He C. apply in_map_iff in He as (p & <- & Hp).
      assert (A : at_pos (ss_segs (l_scores l)) (fst p) (snd p)) by (apply Hat, in_or_app; auto).
      apply (readable_pos _ _ _ _ _ (c_s _ _ _ _ HC)) with (2 := A) in C.
      * rewrite (Hlate p Hp) in C. discriminate.
      * rewrite Forall_forall in Hg. apply (Hg (snd p)). eapply Permutation_in; [symmetry; exact HP|].
        rewrite map_app. apply in_or_app. right. apply in_map. exact Hp.
    + intros x Hx. apply in_map_iff in Hx as ((i & y) & <- & Hy). cbn [snd].
      destruct (Hdup i y Hy) as (A & _ & B & C & p & Hp & Ep & _). split; [exact A|]. split; [|auto].
      rewrite map_map. apply in_map_iff. exists p. split; [symmetry; exact Ep|exact Hp].
    + intros HD. assert (Ed : dup = []).
      { destruct dup as [|(i & y) r]; [reflexivity|]. exfalso.
        destruct (Hdup i y (or_introl eq_refl)) as (A & Ay & B & C & p & Hp & Ep & Hne).
        assert (H1 : In y (contents l')) by (apply Hin; right; left; reflexivity).
        assert (H2 : In (new_of clk (snd p)) (contents l')) by (apply Hin; left; left; exists p; auto).
        assert (Ey : y = new_of clk (snd p)).
        { apply (distinct_ids_In _ _ _ HD H1 H2). rewrite Ep. unfold sid. rewrite <- stamp_new_of. symmetry. apply with_time_id. }
        apply Hne. apply (at_pos_unique _ _ _ _ y (c_s _ _ _ _ HC) Ay).
        assert (Ap : at_pos (ss_segs (l_scores l)) (fst p) (snd p)) by (apply Hat, in_or_app; auto).
        destruct Ap as (s & Hs & Rs). exists s. split; [exact Hs|]. rewrite Ey.
        eapply in_range_key; [| |exact Rs]; unfold new_of, with_time; destruct (e_upd (snd p) =? 0); reflexivity. }
      split; [rewrite Ed; reflexivity|]. apply (inv_answers _ _ _ (Hinv Ed)).
      split; [exact Hrk|]. intros x. rewrite Hin, Ed. cbn [map In]. tauto.
  - unfold update_elements_r. cbn zeta. fold ids. rewrite EF. split; [split; [intros _; apply HU; reflexivity|reflexivity]|].
    split; [|discriminate]. intros _ r Hr. pose proof (reindexed_inv _ _ HI) as HI'. rewrite stored_contents.
    split; [apply (ranking_unique _ _ _ (contents_ranking _ _ HI') Hr)|apply (inv_answers _ _ _ HI' Hr)].
Qed.

Lemma stored_ok merge split l m x : reachable merge split l m -> sin m x -> elem_ok x.
Proof.
  intros HR Hx. destruct (i_core _ _ (reach_Inv _ _ _ _ HR)) as (Q & HC). apply (so_good _ _ (c_s _ _ _ _ HC) x Hx).
Qed.

(** every read of a score segment fares the same *)
Lemma c66_exact merge split l m rdi rdp rdd rdo rd clk clki now sc elems :
  reachable merge split l m -> op_ok merge split m (OUpdate clk clki now sc elems) ->
  let ss := ss_segs (l_scores l) in
  ~ unreadable rdi (fun s => exists id, In id (map e_id elems) /\ files s id) (ss_segs (l_index l)) ->
  (forall i, rdd i = rd i) ->
  (forall i s x, nth_error ss i = Some s -> In x (sg_elems s) -> rdp (e_id x) = rd i /\ rdo (e_id x) = rd i) ->
  exists l', update_elements_r rdi rdp rdd rdo clk clki now sc elems l = (l', true) /\ ranked (stored_in l') /\
    forall x, In x (stored_in l') <->
      (exists e, In e elems /\ x = stamp clk e /\ readable rd ss e) \/
      (sin m x /\ forall e, In e elems -> e_id e = e_id x -> ~ (readable rd ss e /\ readable rd ss x)).
Proof.
  intros HR (Hd & Hg & Hc & Hci & Hnow) ss Hno Hrdd Hst. pose proof (reach_Inv _ _ _ _ HR) as HI.
  assert (HB : batch_ok elems) by (split; [exact Hd|exact Hg]).
  destruct (i_core _ _ HI) as (Q & HC). pose proof (c_s _ _ _ _ HC) as HS. fold ss in HS.
  destruct (update_r_full _ _ rdi rdp rdd rdo clk clki now sc elems HI HB Hc Hci Hnow Hno)
      as (l' & dn & late & dup & E & HP & Hat & Hrk & Hin & Hinv & Hlate & Hdup & Hex). fold ss in Hat, Hdup, Hex.
  exists l'. split; [exact E|]. rewrite stored_contents. split; [exact Hrk|].
  assert (Hwhere : forall x, sin m x -> exists i s, nth_error ss i = Some s /\ In x (sg_elems s) /\ in_range s x).
  { intros x Hx. rewrite <- (score_ok_In _ _ x HS) in Hx. apply elems_of_In in Hx as (s & Hs & Hx).
    destruct (score_ok_seg _ _ s x HS Hs Hx) as (_ & Rs). apply In_nth_error in Hs as (i & Hi). exists i, s. auto. }
  destruct (Hex rd Hrdd) as (Hdr & Hold).
  { intros i x Px Hap. destruct (Hwhere x Px) as (j & s & Hj & Hx & Rj).
    assert (i = j) by (apply (at_pos_unique _ _ _ _ x HS Hap); exists s; auto). subst j. exact (Hst i s x Hj Hx). }
  assert (Hel : forall p, In p (dn ++ late) -> In (snd p) elems).
  { intros p Hp. eapply Permutation_in; [symmetry; exact HP|]. apply in_map. exact Hp. }
  assert (Hgo : forall e, In e elems -> elem_ok e) by (intros e He; rewrite Forall_forall in Hg; apply (Hg e He)).
  assert (Hrp : forall p, In p (dn ++ late) -> readable rd ss (snd p) <-> In p dn).
  { intros p Hp. rewrite (readable_pos _ _ rd _ _ HS (Hgo _ (Hel p Hp)) (Hat p Hp)). split.
    - intros Hr. apply in_app_or in Hp as [Hp|Hp]; [exact Hp|]. apply Hlate in Hp. rewrite Hrdd in Hp. congruence.
    - apply Hdr. }
  assert (Hdn' : forall e, In e elems -> readable rd ss e -> exists p, In p dn /\ snd p = e).
  { intros e He Hr. eapply Permutation_in in He; [|exact HP]. apply in_map_iff in He as (p & <- & Hp). exists p. split; [|reflexivity].
    apply (Hrp p Hp). exact Hr. }
  assert (Hdd : NoDup (map sid (dn ++ late))).
  { unfold distinct_ids in Hd. eapply Permutation_NoDup in Hd; [|apply Permutation_map; exact HP]. rewrite map_map in Hd. exact Hd. }
  intros x. rewrite Hin. split.
  - intros [[(p & Hp & ->)|(Px & Hn)]|Hx].
    + left. exists (snd p). assert (In p (dn ++ late)) by (apply in_or_app; auto).
      split; [auto|]. split; [reflexivity|]. apply Hrp; auto.
    + right. split; [exact Px|]. intros e He Ee (Hr & _). destruct (Hdn' e He Hr) as (p & Hp & Ep).
      apply Hn. rewrite <- Ee, <- Ep. change (e_id (snd p)) with (sid p). apply in_map. exact Hp.
    + right. apply in_map_iff in Hx as ((i & y) & Ey & Hy). cbn [snd] in Ey. subst y.
      destruct (Hdup i x Hy) as (Px & Ax & R1 & _). split; [exact Px|]. intros e He Ee (_ & Hr).
      apply (readable_pos _ _ _ _ _ HS (stored_ok _ _ _ _ _ HR Px) Ax) in Hr.
      destruct (Hwhere x Px) as (j & s & Hj & Hx & Rj).
      assert (i = j) by (apply (at_pos_unique _ _ _ _ x HS Ax); exists s; auto). subst j.
      destruct (Hst i s x Hj Hx) as (C & _). congruence.
  - intros [(e & He & -> & Hr)|(Px & Hn)].
    + left. left. destruct (Hdn' e He Hr) as (p & Hp & <-). exists p. auto.
    + destruct (in_dec N.eq_dec (e_id x) (map sid dn)) as [Hi|Hi]; [|left; right; auto].
      apply in_map_iff in Hi as (p & Ep & Hp). assert (Hp' : In p (dn ++ late)) by (apply in_or_app; auto).
      destruct (Hwhere x Px) as (j & s & Hj & Hx & Rj). assert (Ax : at_pos ss j x) by (exists s; auto).
      destruct (rd j) eqn:Er.
      * exfalso. apply (Hn (snd p) (Hel p Hp') Ep). split; [apply Hrp; auto|].
        apply (readable_pos _ _ _ _ _ HS (stored_ok _ _ _ _ _ HR Px) Ax). exact Er.
      * right. apply (Hold p x j Hp Px (eq_sym Ep) Ax Er).
Qed.

Lemma assoc_filter {A} (p : N -> bool) id : forall l : list (N * A),
  assoc id (filter (fun q => p (fst q)) l) = if p id then assoc id l else None.
Proof.
  induction l as [|(k & v) q IH]; cbn [filter assoc]; [destruct (p id); reflexivity|].
  cbn [fst]. destruct (p k) eqn:Ek; cbn [assoc].
  - destruct (N.eqb_spec k id) as [->|]; [rewrite Ek; reflexivity|exact IH].
  - rewrite IH. destruct (N.eqb_spec k id) as [->|]; [rewrite Ek; reflexivity|reflexivity].
Qed.

Lemma c66_results merge split l m rdi rdp rdd rdo clk clki now sc elems l' rdi2 rd2 nb sc1 sc2 radius :
  reachable merge split l m -> op_ok merge split m (OUpdate clk clki now sc elems) ->
  update_elements_r rdi rdp rdd rdo clk clki now sc elems l = (l', true) -> distinct_ids (stored_in l') ->
  let out := update_results_r rdp rdi2 rd2 nb sc1 sc2 l l' elems radius in
  out = Unread \/ exists res, out = Answer res /\
    NoDup (map (fun re => e_id (re_elem re)) res) /\
    (forall x, In x (map re_elem res) <-> In x (stored_in l') /\ In (e_id x) (map e_id elems)) /\
    Forall (fun re => true_rank (stored_in l') re /\ some_neighbours (stored_in l') radius re /\
      (re_before re = None -> m (e_id (re_elem re)) = None \/ rdp (e_id (re_elem re)) = false) /\
      forall b, re_before re = Some b -> m (e_id (re_elem re)) = Some (re_elem b) /\ rdp (e_id (re_elem re)) = true) res.
Proof.
  intros HR Hok E HD out. pose proof (reach_Inv _ _ _ _ HR) as HI. pose proof Hok as (Hd & Hg & Hc & Hci & Hnow).
  assert (HB : batch_ok elems) by (split; [exact Hd|exact Hg]).
  pose proof (c66_update merge split l m rdi rdp rdd rdo clk clki now sc elems HR Hok) as H. rewrite E in H. cbn zeta in H.
  destruct H as (Hun & _ & _).
  assert (Hno : ~ unreadable rdi (fun s => exists id, In id (map e_id elems) /\ files s id) (ss_segs (l_index l))).
  { intros C. apply Hun in C. discriminate. }
  destruct (update_r_full _ _ rdi rdp rdd rdo clk clki now sc elems HI HB Hc Hci Hnow Hno)
      as (l2 & dn & late & dup & E2 & HP & Hat & Hrk & Hin & Hinv & Hlate & Hdup & _).
  assert (l2 = l') by congruence. subst l2.
  assert (Ed : dup = []).
  { destruct (i_core _ _ HI) as (Q & HC). destruct dup as [|(i & y) r]; [reflexivity|]. exfalso. rewrite stored_contents in HD.
    destruct (Hdup i y (or_introl eq_refl)) as (A & Ay & B & C & p & Hp & Ep & Hne).
    assert (H1 : In y (contents l')) by (apply Hin; right; left; reflexivity).
    assert (H2 : In (new_of clk (snd p)) (contents l')) by (apply Hin; left; left; exists p; auto).
    assert (Ey : y = new_of clk (snd p)).
    { apply (distinct_ids_In _ _ _ HD H1 H2). rewrite Ep. unfold sid. rewrite <- stamp_new_of. symmetry. apply with_time_id. }
    apply Hne. apply (at_pos_unique _ _ _ _ y (c_s _ _ _ _ HC) Ay).
    assert (Ap : at_pos (ss_segs (l_scores l)) (fst p) (snd p)) by (apply Hat, in_or_app; auto).
    destruct Ap as (s & Hs & Rs). exists s. split; [exact Hs|]. rewrite Ey.
    eapply in_range_key; [| |exact Rs]; unfold new_of, with_time; destruct (e_upd (snd p) =? 0); reflexivity. }
  specialize (Hinv Ed).
  set (ids := sort_ids_desc (map e_id (sort_elems elems))) in *.
  assert (Hok' : Forall elem_ok elems) by (eapply Forall_impl; [|exact Hg]; intros x (H & _); exact H).
  assert (Hids : forall v, In v ids <-> In v (map e_id elems)).
  { intros v. unfold ids. rewrite sort_ids_desc_In. split; apply Permutation_in, Permutation_map; [apply sort_elems_perm|symmetry; apply sort_elems_perm]. }
  assert (Hb : Forall (fun v => v <= max_u64) ids).
  { apply Forall_forall. intros v Hv. apply Hids in Hv. apply in_map_iff in Hv as (x & <- & Hx).
    rewrite Forall_forall in Hok'. apply (Hok' x Hx). }
  pose proof (contents_ranking _ _ Hinv) as Hr'. rewrite <- stored_contents in Hr'.
  unfold out, update_results_r. fold ids. cbn zeta.
  destruct (f_get _ _ (qok_answers_or_fails _ _ _ (Inv_Qok _ _ Hinv) Hr') rdi2 rd2 nb sc1 sc2 ids radius Hb) as [-> |(res & -> & A & B & C)]; [left; reflexivity|].
  right. cbn [on_reply]. eexists. split; [reflexivity|].
  set (old := filter (fun p => rdp (fst p)) (old_ranks l elems)).
  set (F := fun r : ranked_element => match assoc (e_id (re_elem r)) old with
                | Some b => mkRE (re_elem r) (re_top r) (re_bottom r) (re_above r) (re_below r) (Some b)
                | None => r end).
  assert (HF : forall r, re_elem (F r) = re_elem r /\ re_top (F r) = re_top r /\ re_bottom (F r) = re_bottom r /\
                re_above (F r) = re_above r /\ re_below (F r) = re_below r).
  { intros r. unfold F. destruct (assoc _ _); cbn; auto 6. }
  assert (Hfil : forall id, assoc id old = if rdp id then assoc id (old_ranks l elems) else None).
  { intros id. apply assoc_filter. }
  split; [|split].
  - rewrite map_map. erewrite map_ext; [exact A|]. intros r. fold (F r). rewrite (proj1 (HF r)). reflexivity.
  - intros x. rewrite map_map. erewrite (map_ext _ re_elem); [|intros r; fold (F r); apply (proj1 (HF r))]. rewrite B, Hids. reflexivity.
  - apply Forall_forall. intros re Hre. apply in_map_iff in Hre as (re0 & <- & Hre0). fold (F re0).
    rewrite Forall_forall in C. destruct (C re0 Hre0) as (C1 & C2 & C3). destruct (HF re0) as (F1 & F2 & F3 & F4 & F5).
    assert (Hin0 : In (e_id (re_elem re0)) (map e_id elems)) by (apply Hids, (B (re_elem re0)), in_map, Hre0).
    pose proof (old_ranks_spec _ _ _ HI Hd Hok' _ Hin0) as HO.
    split; [|split; [|split]].
    + destruct C1 as (i & H1 & H2 & H3). exists i. rewrite F1, F2, F3. auto.
    + intros i. rewrite F2, F4, F5. apply C2.
    + rewrite F1. unfold F. rewrite Hfil. destruct (rdp (e_id (re_elem re0))); [|auto].
      destruct (assoc (e_id (re_elem re0)) (old_ranks l elems)) as [b|]; [discriminate|]. intros _. left.
      destruct (m (e_id (re_elem re0))) as [o|] eqn:Em; [|reflexivity]. exfalso.
      assert (Eo : e_id o = e_id (re_elem re0)) by exact (reach_key _ _ _ _ HR _ _ Em).
      apply (HO o); [unfold sin; rewrite Eo; exact Em|exact Eo].
    + rewrite F1. unfold F. rewrite Hfil. intros b. destruct (rdp (e_id (re_elem re0))); [|rewrite C3; discriminate].
      destruct (assoc (e_id (re_elem re0)) (old_ranks l elems)) as [b'|]; [|rewrite C3; discriminate].
      cbn [re_before]. intros Eb. injection Eb as <-. destruct HO as (i & a & s & c & Pb & Eid & _).
      split; [|reflexivity]. unfold sin in Pb. rewrite Eid in Pb. exact Pb.
Qed.

(** segment 1 of [[1;2;3];[4;5;6;7];[8;9;10]] cannot be read *)
Definition rno1 (i : nat) : bool := negb (Nat.eqb i 1).
Definition rall (i : nat) : bool := true.
Definition rnone (i : nat) : bool := false.
(** the IDs of segment 1 *)
Definition rno1_of (id : N) : bool := negb (mem_id id [4; 5; 6; 7]).
Definition ub (e : element) : op := OUpdate (fun _ => 200) (fun _ => 201) 202 [] [e].
Definition ur (rdp : N -> bool) (rdd : nat -> bool) (rdo : N -> bool) (e : element) (l : lst) : lst * bool :=
  update_elements_r rall rdp rdd rdo (fun _ => 200) (fun _ => 201) 202 [] [e] l.
Lemma ub_ok e : srb e = true -> op_ok 2 4 m0 (ub e).
Proof.
  intros H. split; [repeat constructor; intros []|]. split; [constructor; [apply srb_storable, H|constructor]|].
  split; [intros _; split; reflexivity|]. split; [intros _; split; reflexivity|]. split; reflexivity.
Qed.
Definition e_mid : element := mkE 50 77 [] 0 0.
Definition e_up5 : element := mkE 95 5 [] 0 0.
Definition l_twice : lst := Eval vm_compute in fst (ur rno1_of rno1 rno1_of e_up5 l0).

Definition l_skip : lst := Eval vm_compute in fst (ur rno1_of rno1 rno1_of e_mid l0).

Lemma c66_skipped : exists merge split l m rdi rdp rdd rdo clk clki now sc elems l',
  reachable merge split l m /\ op_ok merge split m (OUpdate clk clki now sc elems) /\ elems <> [] /\
  update_elements_r rdi rdp rdd rdo clk clki now sc elems l = (l', true) /\ stored_in l' = stored_in l /\
  (forall e, In e elems -> ~ In (e_id e) (map e_id (stored_in l'))).
Proof.
  exists 2%nat, 4%nat, l0, m0, rall, rno1_of, rno1, rno1_of, (fun _ => 200), (fun _ => 201), 202, [], [e_mid], l_skip.
  split; [exact l0_reach|]. split; [exact (ub_ok e_mid eq_refl)|]. split; [discriminate|]. split; [vm_compute; reflexivity|].
  split; [vm_compute; reflexivity|].
  intros e [<-|[]] C. vm_compute in C. repeat (destruct C as [C|C]; [discriminate C|]). exact C.
Qed.
Lemma c66_twice : exists merge split l m rdi rdp rdd rdo clk clki now sc elems l' x y,
  reachable merge split l m /\ op_ok merge split m (OUpdate clk clki now sc elems) /\
  update_elements_r rdi rdp rdd rdo clk clki now sc elems l = (l', true) /\
  In x (stored_in l') /\ In y (stored_in l') /\ e_id x = e_id y /\ e_score x <> e_score y /\
  map re_elem (get_elements [] [] l' [e_id x] 0) = [x].
Proof.
  exists 2%nat, 4%nat, l0, m0, rall, rno1_of, rno1, rno1_of, (fun _ => 200), (fun _ => 201), 202, [], [e_up5], l_twice,
    (mkE 95 5 [] 0 200), (mkE 50 5 [] 0 100).
  split; [exact l0_reach|]. split; [exact (ub_ok e_up5 eq_refl)|]. split; [vm_compute; reflexivity|].
  split; [vm_compute; auto|]. split; [vm_compute; auto 8|]. split; [reflexivity|]. split; [discriminate|]. vm_compute; reflexivity.
Qed.
Lemma c66_failed_but_done : exists merge split l m rdi rdp rdd rdo clk clki now sc elems l' rdi2 rd2 nb,
  reachable merge split l m /\ op_ok merge split m (OUpdate clk clki now sc elems) /\
  update_elements_r rdi rdp rdd rdo clk clki now sc elems l = (l', true) /\
  (forall e, In e elems -> ~ In (stamp clk e) (stored_in l) /\ In (stamp clk e) (stored_in l')) /\ elems <> [] /\
  update_results_r rdp rdi2 rd2 nb [] [] l l' elems 0 = Unread.
Proof.
  exists 2%nat, 4%nat, l0, m0, rall, (fun _ => true), rall, (fun _ => true), (fun _ => 200), (fun _ => 201), 202, [], [e_up5],
    (fst (ur (fun _ => true) rall (fun _ => true) e_up5 l0)), rnone, rnone, (fun _ => rnone).
  split; [exact l0_reach|]. split; [exact (ub_ok e_up5 eq_refl)|]. split; [vm_compute; reflexivity|]. split; [|split; [discriminate|vm_compute; reflexivity]].
  intros e [<-|[]]. split; [|vm_compute; auto]. intros C. vm_compute in C. repeat (destruct C as [C|C]; [discriminate C|]). exact C.
Qed.
