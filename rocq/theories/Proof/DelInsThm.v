(** Deletes and inserts while reads fail: final forms. *)
From Coq Require Import Strings.String.
From Verif.Lib Require Import Prelude ListAux ListLemmas SortLemmas Perm.
From Verif.Model Require Import Element Elements Segment List ReadFail.
From Verif.Spec Require Import RankSpec QuerySpec HistorySpec AnswerSpec ReadFailSpec.
From Verif.Proof Require Import ElementP ElementsP ElementsThm SegP InvDef QueryP LookupP ChangeP UpdateP UpdateInv DeleteP InsertP
  BuildP BuildInv VerifyP HistoryP AnswerP ListThm ReadFailP UpdateReadP UpdateReadThm SkewP DeleteReadP InsertReadP.
Open Scope N_scope.

Lemma readable_to_read P rd l x : score_ok P l -> elem_ok x -> readable rd l x <-> to_read rd l x.
Proof.
  intros HS Hx. rewrite (to_read_all P rd l x HS Hx). pose proof (tile_from_widths _ _ (so_tile _ _ HS)) as Hw. rewrite Forall_forall in Hw.
  split; intros H i s Hs Hc; apply (H i s Hs); apply (covers_range s x); auto; apply Hw; eapply nth_error_In; eauto.
Qed.
Lemma frames_files rd (p : seg -> Prop) l l' : map frame l' = map frame l -> (forall s t, frame s = frame t -> p s <-> p t) ->
  unreadable rd p l' <-> unreadable rd p l.
Proof.
  intros HF Hp. split; intros (i & s & Hs & H & Hr).
  - destruct (frames_nth _ _ _ _ HF Hs) as (t & Ht & E). exists i, t. rewrite <- (Hp s t E). auto.
  - destruct (frames_sym_nth _ _ _ _ HF Hs) as (t & Ht & E). exists i, t. rewrite (Hp t s E). auto.
Qed.
Lemma files_frame s t id : frame s = frame t -> files s id <-> files t id.
Proof. unfold frame, files. intros H. injection H as A B C D E. rewrite B, D. tauto. Qed.
Lemma skew_ranking P Q l : skew P Q l -> ranking_of P (contents l).
Proof. intros [HS _ _ _]. split; [eapply score_ok_ranked; eauto|]. intros e. apply score_ok_In. exact HS. Qed.
Lemma inv_led P l : Inv P l -> exists Q, core P Q (ss_segs (l_scores l)) (ss_segs (l_index l)) /\ led P Q l.
Proof. intros HI. destruct (inv_skew P l HI) as (Q & HC & HK). exists Q. split; [exact HC|]. split; [exact HK|]. intros x Px. eapply core_leads; eauto. Qed.
Lemma led_answers P Q l : led P Q l -> answers l (stored_in l).
Proof.
  intros (HK & HL). rewrite stored_contents. eapply finds_answers; [|apply (skew_answers P Q l HK)].
  intros x Hx. apply HL. apply (skew_ranking P Q l HK). exact Hx.
Qed.

(** ** deletes *)
Definition taken (c : del_call) (l : lst) (x : element) : Prop := removed (d_rdi c) (d_rds c) l (d_ids c) x.
Lemma takes_taken P c l x : score_ok P (ss_segs (l_scores l)) -> elem_ok x -> takes c l x <-> taken c l x.
Proof. intros HS Hx. unfold takes, taken, removed, no_unread_id. rewrite (readable_to_read P _ _ _ HS Hx). tauto. Qed.
Lemma taken_frames c l l' x : map frame (ss_segs (l_scores l')) = map frame (ss_segs (l_scores l)) ->
  map frame (ss_segs (l_index l')) = map frame (ss_segs (l_index l)) -> taken c l' x <-> taken c l x.
Proof.
  intros H1 H2. unfold taken, removed, no_unread_id. rewrite (frames_to_read _ _ _ _ H1).
  rewrite (frames_files (d_rdi c) _ _ _ H2); [tauto|]. intros s t E. split; intros (id & A & B); exists id; (split; [exact A|]); apply (files_frame s t id E); exact B.
Qed.

Lemma deletes_led calls : Forall (fun c => Forall (fun v => v <= max_u64) (d_ids c) /\ tick (d_now c)) calls -> forall P Q l, led P Q l ->
  exists Q', led (fun x => P x /\ forall c, In c calls -> ~ taken c l x) Q' (run_deletes calls l).
Proof.
  induction calls as [|c calls IH]; intros Hc P Q l HL.
  - exists Q. eapply led_ext; [|exact HL]. intros x. split; [intros H; split; [exact H|intros ? []]|tauto].
  - inversion Hc as [|? ? (Hb & Hn) Hc']; subst. unfold run_deletes. cbn [fold_left].
    pose proof (delete_r_led P Q l (d_rdi c) (d_rds c) (d_rdx c) (d_now c) (d_sc1 c) (d_sc2 c) (d_ids c) HL Hb Hn) as HD.
    destruct (delete_elements_r (d_rdi c) (d_rds c) (d_rdx c) (d_now c) (d_sc1 c) (d_sc2 c) (d_ids c) l) as (l1 & ok). cbn [fst].
    destruct HD as (F1 & F2 & (Q1 & HL1) & _). destruct (IH Hc' _ _ _ HL1) as (Q2 & HL2). exists Q2. eapply led_ext; [|exact HL2].
    intros x. split.
    + intros ((Px & Hn1) & Hr). split; [exact Px|]. intros c' [<-|Hin]; [exact Hn1|]. intros C. apply (Hr c' Hin), (taken_frames c' l l1 x F1 F2), C.
    + intros (Px & Hr). split; [split; [exact Px|apply (Hr c); left; reflexivity]|]. intros c' Hin C. apply (Hr c'); [right; exact Hin|].
      apply (taken_frames c' l l1 x F1 F2), C.
Qed.

Lemma c67_deletes merge split l m calls : reachable merge split l m ->
  Forall (fun c => Forall (fun v => v <= max_u64) (d_ids c) /\ tick (d_now c)) calls ->
  let l' := run_deletes calls l in
  ranking_of (fun x => sin m x /\ forall c, In c calls -> ~ takes c l x) (stored_in l') /\ answers l' (stored_in l').
Proof.
  intros HR Hc. cbn zeta. pose proof (reach_Inv _ _ _ _ HR) as HI. destruct (inv_led _ _ HI) as (Q & HC & HL).
  destruct (deletes_led calls Hc _ _ _ HL) as (Q' & HL'). split; [|eapply led_answers; exact HL'].
  destruct (skew_ranking _ _ _ (proj1 HL')) as (A & B). rewrite stored_contents. split; [exact A|]. intros x. rewrite B.
  assert (HT : sin m x -> forall c, takes c l x <-> taken c l x).
  { intros Hx c. apply (takes_taken (sin m)); [apply HC|]. apply good_ok, (so_good _ _ (c_s _ _ _ _ HC)), Hx. }
  split; intros (Px & Hr); (split; [exact Px|]); intros c Hin C; apply (Hr c Hin), (HT Px c), C.
Qed.

Lemma c67_delete merge split l m rdi rds rdx now sc1 sc2 ids : reachable merge split l m -> op_ok merge split m (ODelete now sc1 sc2 ids) ->
  let '(l', ok) := delete_elements_r rdi rds rdx now sc1 sc2 ids l in
  (ok = true -> step l (ODelete now sc1 sc2 ids) = Done l') /\
  (ok = false <->
     unreadable rdi (fun s => exists id, In id ids /\ files s id) (ss_segs (l_index l)) \/
     unreadable rds (holds_one (fun x => In (e_id x) ids)) (ss_segs (l_scores l)) \/
     unreadable rdx (fun s => exists x, sin m x /\ In (e_id x) ids /\ files s (e_id x)) (ss_segs (l_index l))).
Proof.
  intros HR (Hb & Hn). pose proof (reach_Inv _ _ _ _ HR) as HI. destruct (inv_led _ _ HI) as (Q & HC & HL).
  pose proof (c_s _ _ _ _ HC) as HS.
  pose proof (delete_r_led _ Q l rdi rds rdx now sc1 sc2 ids HL Hb Hn) as HD. destruct (delete_elements_r rdi rds rdx now sc1 sc2 ids l) as (l' & ok).
  destruct HD as (_ & _ & _ & HT & _ & HF). cbn [step]. split; [intros Ho; rewrite (HT Ho); reflexivity|]. rewrite HF. clear HF HT.
  destruct (index_elements_spec _ _ _ sc1 _ HC Hb) as (Hd & Hiff).
  assert (H1 : ~ no_unread_id rdi l ids <-> unreadable rdi (fun s => exists id, In id ids /\ files s id) (ss_segs (l_index l))).
  { unfold no_unread_id. split; [|intros A C; exact (C A)]. intros C.
    destruct (index_unread Q l rdi sc1 ids (core_icore _ _ _ _ HC) Hb) as [(_ & A)|(_ & A)]; [exact A|contradiction]. }
  assert (H2 : (exists i, (i < length (ss_segs (l_scores l)))%nat /\ touched_by (ss_segs (l_scores l)) (get_index_elements sc1 l ids) i = true /\ rds i = false) <->
               unreadable rds (holds_one (fun x => In (e_id x) ids)) (ss_segs (l_scores l))).
  { split.
    - intros (i & Hi & Ht & Hr). unfold touched_by in Ht.
      destruct (ids_for (build_idx (ss_segs (l_scores l))) i (get_index_elements sc1 l ids)) as [|v r] eqn:E; [discriminate|].
      assert (Hv : In v (ids_for (build_idx (ss_segs (l_scores l))) i (get_index_elements sc1 l ids))) by (rewrite E; left; reflexivity).
      apply ids_for_In in Hv as (q & Hq & Eq & Ep). apply Hiff in Hq as (Qq & Hin).
      destruct (proj1 (c_link _ _ _ _ HC (e_id q) (e_tie q))) as (s & x & Hs & Hx & Ex & Et); [eauto|].
      apply In_nth_error in Hs as (j & Hj). rewrite <- Et, (idx_get_build _ j s) in Ep; [|apply HC|exact Hj]. subst j.
      exists i, s. split; [exact Hj|]. split; [|exact Hr]. exists x. split; [rewrite Ex; exact Hin|exact Hx].
    - intros (i & s & Hs & (x & Hin & Hx) & Hr). exists i. split; [apply nth_error_Some; congruence|]. split; [|exact Hr].
      destruct (proj2 (c_link _ _ _ _ HC (e_id x) (sg_id s))) as (q & Hq & Eq & Et); [exists s, x; split; [eapply nth_error_In; eauto|auto]|].
      assert (Hv : In (e_id q) (ids_for (build_idx (ss_segs (l_scores l))) i (get_index_elements sc1 l ids))).
      { apply ids_for_In. exists q. split; [apply Hiff; rewrite Eq; auto|]. split; [reflexivity|]. rewrite Et. apply idx_get_build; [apply HC|exact Hs]. }
      unfold touched_by. destruct (ids_for (build_idx (ss_segs (l_scores l))) i (get_index_elements sc1 l ids)); [contradiction|reflexivity]. }
  rewrite H1, H2. split; (intros [H|[H|H]]; [left; exact H|right; left; exact H|right; right]).
  - destruct H as (i & s & x & Hi & Px & Hin & Hf & Hr). exists i, s. split; [exact Hi|]. split; [|exact Hr]. exists x. auto.
  - destruct H as (i & s & Hi & (x & Px & Hin & Hf) & Hr). exists i, s, x. auto 6.
Qed.

(** ** inserts *)
Definition chunk_ok (rds rdx : nat -> bool) (l : lst) (c : elements) : Prop :=
  forall x, In x c -> to_read rds (ss_segs (l_scores l)) x /\ id_readable rdx (ss_segs (l_index l)) (e_id x).
Lemma id_readable_frames rd l l' id : map frame l' = map frame l -> id_readable rd l' id <-> id_readable rd l id.
Proof.
  intros HF. split; intros H i s Hs Hf.
  - destruct (frames_sym_nth _ _ _ _ HF Hs) as (t & Ht & E). apply (H i t Ht). apply (files_frame t s id E). exact Hf.
  - destruct (frames_nth _ _ _ _ HF Hs) as (t & Ht & E). apply (H i t Ht). apply (files_frame s t id E). exact Hf.
Qed.

Definition cut_short (rds rdx : nat -> nat -> bool) (P : element -> Prop) (e : elements) (l l' : lst) : Prop :=
  exists a c b, e = a ++ c ++ b /\
    let rs := rds (length (c ++ b)) in
    let rx := rdx (length (c ++ b)) in
    ~ chunk_ok rs rx l c /\
    exists Q', skew (fun x => P x \/ In x a \/ (In x c /\ to_read rs (ss_segs (l_scores l)) x)) Q' l' /\
      forall x, P x \/ In x a \/ (In x c /\ to_read rs (ss_segs (l_scores l)) x) ->
        leads Q' (ss_segs (l_scores l')) x <->
        P x \/ In x a \/ (In x c /\ (forall y, In y c -> to_read rs (ss_segs (l_scores l)) y) /\ id_readable rx (ss_segs (l_index l)) (e_id x)).

Lemma skew_ext P P' Q l : (forall x, P x <-> P' x) -> skew P Q l -> skew P' Q l.
Proof. intros HE [A B C D]. split; auto. eapply score_ok_ext; eauto. Qed.

Lemma insert_loop_r_skew now sch limit rds rdx : (0 < limit)%nat -> 0 < now < max_u32 -> forall fuel e P l, (length e <= fuel)%nat ->
  Inv P l -> distinct_ids e -> Forall good e -> (forall x y, In x e -> P y -> e_id x <> e_id y) ->
  exists l' ok, insert_loop_r fuel limit rds rdx now sch e l = Done (l', ok) /\
    (ok = true -> insert_loop fuel limit now sch e l = Done l') /\ (ok = false -> cut_short rds rdx P e l l').
Proof.
  intros Hlim Hnow. induction fuel as [|f IH]; intros e P l Hlen HInv Hd Hg Hn.
  - destruct e as [|x e]; [|cbn in Hlen; lia]. cbn [insert_loop_r insert_loop length].
    destruct (Nat.ltb_spec limit 0); [lia|].
    pose proof (insert_one_r_skew P l (rds 0%nat) (rdx 0%nat) now (sch 0%nat) [] HInv Hd Hg Hn Hnow) as HO.
    destruct (insert_one_r (rds 0%nat) (rdx 0%nat) now (sch 0%nat) l []) as (l' & ok). destruct HO as (_ & _ & A & B & _).
    exists l', ok. split; [reflexivity|]. split; [intros Ho; rewrite (A Ho); reflexivity|]. intros ->. exfalso.
    assert (false = true) by (apply B; intros x []). discriminate.
  - cbn [insert_loop_r insert_loop]. destruct (Nat.ltb_spec limit (length e)) as [Hlt|Hge].
    + rewrite <- (firstn_skipn limit e) in Hd, Hg.
      assert (Hd' := Hd). unfold distinct_ids in Hd'. rewrite map_app in Hd'. apply NoDup_app_iff in Hd' as (Hd1 & Hd2 & Hd3).
      apply Forall_app in Hg as (Hg1 & Hg2).
      assert (Hn1 : forall x y, In x (firstn limit e) -> P y -> e_id x <> e_id y) by (intros x y Hx; apply Hn; eapply In_firstn; eauto).
      pose proof (insert_one_r_skew P l (rds (length e)) (rdx (length e)) now (sch (length e)) (firstn limit e) HInv Hd1 Hg1 Hn1 Hnow) as HO.
      destruct (insert_one_inv P l now (sch (length e)) (firstn limit e) HInv Hd1 Hg1 Hn1 Hnow) as (HInv' & _ & _).
      destruct (insert_one_r (rds (length e)) (rdx (length e)) now (sch (length e)) l (firstn limit e)) as (l1 & ok1).
      destruct HO as (F1 & F2 & A & B & Q' & HK & HLd). destruct ok1.
      * specialize (A eq_refl). subst l1.
        edestruct (IH (skipn limit e)) as (l' & ok & E & E1 & E2); [|exact HInv'|exact Hd2|exact Hg2| |].
        { rewrite skipn_length. lia. }
        { intros x y Hx [Hy|Hy] E.
          - apply (Hd3 (e_id y)); [apply in_map; exact Hy|rewrite <- E; apply in_map; exact Hx].
          - apply (Hn x y); auto. eapply In_skipn; eauto. }
        exists l', ok. split; [exact E|]. split; [exact E1|]. intros Ho. destruct (E2 Ho) as (a & c & b & Ee & Hc & Q2 & HK2 & HL2).
        exists (firstn limit e ++ a), c, b. split; [rewrite <- app_assoc, <- Ee, firstn_skipn; reflexivity|]. cbn zeta in *.
        split; [|exists Q2; split].
        -- intros C. apply Hc. intros x Hx. destruct (C x Hx) as (C1 & C2). split; [apply (frames_to_read _ _ _ _ F1); exact C1|].
           apply (id_readable_frames _ _ _ _ F2). exact C2.
        -- eapply skew_ext; [|exact HK2]. intros x. cbn beta. rewrite in_app_iff, (frames_to_read _ _ _ _ F1). tauto.
        -- intros x Hx. rewrite HL2.
           ++ rewrite in_app_iff, (id_readable_frames _ _ _ _ F2).
              assert (Hq : (forall y, In y c -> to_read (rds (length (c ++ b))) (ss_segs (l_scores (insert_one now (sch (length e)) l (firstn limit e)))) y) <->
                           (forall y, In y c -> to_read (rds (length (c ++ b))) (ss_segs (l_scores l)) y)).
              { split; intros H y Hy; apply (frames_to_read _ _ _ _ F1), H, Hy. }
              rewrite Hq. tauto.
           ++ rewrite in_app_iff in Hx. rewrite (frames_to_read _ _ _ _ F1). tauto.
      * exists l1, false. split; [reflexivity|]. split; [discriminate|]. intros _. exists [], (firstn limit e), (skipn limit e).
        split; [rewrite firstn_skipn; reflexivity|]. rewrite firstn_skipn. cbn zeta.
        split; [intros C; apply B in C; discriminate|]. exists Q'. split.
        -- eapply skew_ext; [|exact HK]. intros x. cbn [In]. tauto.
        -- intros x Hx. rewrite HLd; [cbn [In]; tauto|]. cbn [In] in Hx. tauto.
    + pose proof (insert_one_r_skew P l (rds (length e)) (rdx (length e)) now (sch (length e)) e HInv Hd Hg Hn Hnow) as HO.
      destruct (insert_one_r (rds (length e)) (rdx (length e)) now (sch (length e)) l e) as (l1 & ok1).
      destruct HO as (F1 & F2 & A & B & Q' & HK & HLd). exists l1, ok1. split; [reflexivity|]. split; [intros Ho; rewrite (A Ho); reflexivity|].
      intros ->. exists [], e, []. split; [rewrite app_nil_r; reflexivity|]. rewrite app_nil_r. cbn zeta.
      split; [intros C; apply B in C; discriminate|]. exists Q'. split.
      * eapply skew_ext; [|exact HK]. intros x. cbn [In]. tauto.
      * intros x Hx. rewrite HLd; [cbn [In]; tauto|]. cbn [In] in Hx. tauto.
Qed.

Lemma c67_insert merge split l m rds rdx now sch e : reachable merge split l m -> op_ok merge split m (OInsert now sch e) ->
  exists l' ok, insert_r rds rdx now sch e l = Done (l', ok) /\
  (ok = true -> step l (OInsert now sch e) = Done l') /\
  (ok = false -> exists a c b, e = a ++ c ++ b /\
     let ss := ss_segs (l_scores l) in
     let is := ss_segs (l_index l) in
     let rs := rds (length (c ++ b)) in
     let rx := rdx (length (c ++ b)) in
     ~ (forall x, In x c -> readable rs ss x /\ id_readable rx is (e_id x)) /\
     ranking_of (fun x => sin m x \/ In x a \/ (In x c /\ readable rs ss x)) (stored_in l') /\
     ranks_all_finds (fun x => sin m x \/ In x a \/ (In x c /\ (forall y, In y c -> readable rs ss y) /\ id_readable rx is (e_id x)))
       l' (stored_in l')).
Proof.
  intros HR (Hd & Hg & Hnew & Hnow & Hs4). destruct (reach_inv _ _ _ _ HR) as (HI & _ & HS4). destruct (i_core _ _ HI) as (Q & HC).
  pose proof (c_s _ _ _ _ HC) as HS.
  assert (Hn : forall x y, In x e -> sin m y -> e_id x <> e_id y).
  { intros x y Hx Hy E. specialize (Hnew x Hx). unfold sin in Hy. rewrite <- E in Hy. congruence. }
  assert (Hlim : (0 < want_limit l)%nat) by (apply (want_limit_pos _ _ HI); rewrite HS4; exact Hs4).
  destruct (insert_loop_r_skew now sch (want_limit l) rds rdx Hlim Hnow (length e) e (sin m) l (Nat.le_refl _) HI Hd Hg Hn) as (l' & ok & E & E1 & E2).
  exists l', ok. split; [exact E|]. split; [exact E1|]. intros Ho. destruct (E2 Ho) as (a & c & b & Ee & Hc & Q' & HK & HL). cbn zeta in *.
  exists a, c, b. split; [exact Ee|].
  assert (Hgo : forall x, In x c -> elem_ok x).
  { intros x Hx. rewrite Forall_forall in Hg. apply (Hg x). rewrite Ee. apply in_or_app. right. apply in_or_app. auto. }
  assert (Hrr : forall rd x, In x c -> readable rd (ss_segs (l_scores l)) x <-> to_read rd (ss_segs (l_scores l)) x).
  { intros rd x Hx. apply (readable_to_read (sin m)); auto. }
  destruct (skew_ranking _ _ _ HK) as (A & B). rewrite stored_contents. split; [|split].
  - intros C. apply Hc. intros x Hx. destruct (C x Hx) as (C1 & C2). split; [apply (Hrr _ x Hx); exact C1|exact C2].
  - split; [exact A|]. intros x. rewrite B. split; (intros [H|[H|(H1 & H2)]]; [auto|auto|]; right; right; split; [exact H1|apply (Hrr _ x H1); exact H2]).
  - eapply finds_iff; [|apply (skew_answers _ _ _ HK)]. intros x Hx. apply B in Hx. rewrite (HL x Hx).
    assert (Hall : (forall y, In y c -> to_read (rds (length (c ++ b))) (ss_segs (l_scores l)) y) <-> (forall y, In y c -> readable (rds (length (c ++ b))) (ss_segs (l_scores l)) y)).
    { split; intros H y Hy; apply (Hrr _ y Hy), H, Hy. }
    rewrite Hall. tauto.
Qed.

(** ** Reindex afterwards *)
Lemma skew_heals P Q l : skew P Q l -> ss_index (l_scores l) = false -> (l_merge l < l_split l)%nat -> heals l.
Proof.
  intros [HS HI HMs HMi] Hfs Hms ni now sc Hni Hnow Hsz Hlen. cbn [step]. unfold reindex_list.
  assert (Hszp : (0 < (l_merge l + l_split l) / 2)%nat) by (apply Nat.div_str_pos; lia).
  destruct (index_build P (ss_segs (l_scores l)) ni now ((l_merge l + l_split l) / 2)%nat
     (concat (permute sc (map (fun s => element_ids (sg_elems s) (sg_id s)) (ss_segs (l_scores l))))) HS (m_nd _ HMs) (meta_ids _ HMs))
    as (parts & s & ix & E1 & E2 & HB & HI2 & HC' & HN).
  { rewrite flat_map_concat_map. apply Permutation_concat, permute_perm. }
  { exact Hszp. }
  unfold element_index_all. rewrite E1, E2.
  assert (HNx : ss_next s <= 4294967296) by (rewrite stored_contents in Hlen; unfold max_u32, contents in *; lia).
  assert (HI' : Inv P (set_both l (l_scores l) s)).
  { split; cbn [set_both l_scores l_index l_scores_id l_index_id l_merge l_split]; auto.
    - eexists. exact HC'.
    - eapply built_meta; eauto. }
  rewrite (guard_ids_inv _ _ HI'). eexists. split; [reflexivity|]. split; [reflexivity|]. split; [|apply (verify_complete _ _ HI')].
  apply (inv_answers _ _ _ HI'). exact (contents_ranking _ _ HI').
Qed.
Lemma reindex_flag s : ss_index (reindex s) = ss_index s.
Proof. unfold reindex. destruct (_ =? _)%nat; reflexivity. Qed.
Lemma delete_r_shape rdi rds rdx now sc1 sc2 ids l : let l' := fst (delete_elements_r rdi rds rdx now sc1 sc2 ids l) in
  ss_index (l_scores l') = ss_index (l_scores l) /\ l_merge l' = l_merge l /\ l_split l' = l_split l.
Proof.
  unfold delete_elements_r. destruct (get_index_elements_r rdi sc1 l ids) as [e|]; [|cbn; auto].
  unfold delete_elements_idx_r, delete_elements_idx. cbn zeta.
  match goal with |- context [if ?b then _ else _] => destruct b end; [|cbn [fst set_both set_segs l_scores l_merge l_split ss_index]; rewrite ?reindex_flag; auto].
  match goal with |- context [match ?d with [] => _ | _ => _ end] => destruct d end;
    [|destruct (delete_sorted_r _ _ _ _ _)]; cbn [fst set_both set_segs l_scores l_merge l_split ss_index]; rewrite ?reindex_flag; auto.
Qed.
Lemma deletes_shape calls : forall l, let l' := run_deletes calls l in
  ss_index (l_scores l') = ss_index (l_scores l) /\ l_merge l' = l_merge l /\ l_split l' = l_split l.
Proof.
  induction calls as [|c calls IH]; intros l; [cbn; auto|]. unfold run_deletes. cbn [fold_left].
  destruct (delete_r_shape (d_rdi c) (d_rds c) (d_rdx c) (d_now c) (d_sc1 c) (d_sc2 c) (d_ids c) l) as (A & B & C). cbn zeta in *.
  destruct (IH (fst (delete_elements_r (d_rdi c) (d_rds c) (d_rdx c) (d_now c) (d_sc1 c) (d_sc2 c) (d_ids c) l))) as (A' & B' & C'). cbn zeta in *.
  unfold run_deletes in *. split; [congruence|]. split; congruence.
Qed.
Lemma insert_one_r_shape rds rdx now sc l e : let l' := fst (insert_one_r rds rdx now sc l e) in
  ss_index (l_scores l') = ss_index (l_scores l) /\ l_merge l' = l_merge l /\ l_split l' = l_split l.
Proof.
  unfold insert_one_r. destruct (insert_sorted_r rds 0 now _ _) as ((ss & ix) & ok). destruct ok; [|cbn; auto].
  destruct (insert_sorted_r rdx 0 now _ _) as ((is & x) & ok'). cbn. auto.
Qed.
Lemma insert_loop_r_shape now sch limit rds rdx : forall fuel e l l' ok, insert_loop_r fuel limit rds rdx now sch e l = Done (l', ok) ->
  ss_index (l_scores l') = ss_index (l_scores l) /\ l_merge l' = l_merge l /\ l_split l' = l_split l.
Proof.
  induction fuel as [|f IH]; intros e l l' ok E; cbn [insert_loop_r] in E.
  - destruct (Nat.ltb limit (length e)); [discriminate|]. injection E as E. pose proof (insert_one_r_shape (rds (length e)) (rdx (length e)) now (sch (length e)) l e) as H.
    rewrite E in H. exact H.
  - destruct (Nat.ltb limit (length e)).
    + pose proof (insert_one_r_shape (rds (length e)) (rdx (length e)) now (sch (length e)) l (firstn limit e)) as H.
      destruct (insert_one_r (rds (length e)) (rdx (length e)) now (sch (length e)) l (firstn limit e)) as (l1 & [|]).
      * apply IH in E. cbn [fst] in H. cbn zeta in H. destruct E as (A & B & C), H as (A' & B' & C'). split; [congruence|]. split; congruence.
      * injection E as <- <-. exact H.
    + injection E as E. pose proof (insert_one_r_shape (rds (length e)) (rdx (length e)) now (sch (length e)) l e) as H.
      rewrite E in H. exact H.
Qed.

Lemma c67_heals_delete merge split l m calls : reachable merge split l m ->
  Forall (fun c => Forall (fun v => v <= max_u64) (d_ids c) /\ tick (d_now c)) calls -> heals (run_deletes calls l).
Proof.
  intros HR Hc. pose proof (reach_Inv _ _ _ _ HR) as HI. destruct (inv_led _ _ HI) as (Q & HC & HL).
  destruct (deletes_led calls Hc _ _ _ HL) as (Q' & HL'). destruct (deletes_shape calls l) as (A & B & C). cbn zeta in *.
  eapply skew_heals; [exact (proj1 HL')|rewrite A; apply HI|rewrite B, C; apply HI].
Qed.
Lemma c67_heals_insert merge split l m rds rdx now sch e l' ok : reachable merge split l m -> op_ok merge split m (OInsert now sch e) ->
  insert_r rds rdx now sch e l = Done (l', ok) -> heals l'.
Proof.
  intros HR Hop E. pose proof Hop as (Hd & Hg & Hnew & Hnow & Hs4). destruct (reach_inv _ _ _ _ HR) as (HI & _ & HS4).
  assert (Hn : forall x y, In x e -> sin m y -> e_id x <> e_id y).
  { intros x y Hx Hy Eq. specialize (Hnew x Hx). unfold sin in Hy. rewrite <- Eq in Hy. congruence. }
  assert (Hlim : (0 < want_limit l)%nat) by (apply (want_limit_pos _ _ HI); rewrite HS4; exact Hs4).
  destruct (insert_loop_r_skew now sch (want_limit l) rds rdx Hlim Hnow (length e) e (sin m) l (Nat.le_refl _) HI Hd Hg Hn) as (l1 & ok1 & E0 & E1 & E2).
  unfold insert_r in E. destruct (insert_loop_r_shape _ _ _ _ _ _ _ _ _ _ E) as (A & B & C). rewrite E in E0. injection E0 as <- <-.
  assert (HK : exists P' Q', skew P' Q' l').
  { destruct ok.
    - destruct (insert_loop_inv now sch (want_limit l) Hlim Hnow (length e) e (sin m) l (Nat.le_refl _) HI Hd Hg Hn) as (l2 & F & HI2).
      rewrite (E1 eq_refl) in F. injection F as <-. destruct (inv_skew _ _ HI2) as (Q' & _ & HK). eauto.
    - destruct (E2 eq_refl) as (a & c & b & _ & _ & Q' & HK & _). eauto. }
  destruct HK as (P' & Q' & HK). eapply skew_heals; [exact HK|rewrite A; apply HI|rewrite B, C; apply HI].
Qed.
