(** The property theorems about lists, in their final form. *)
From Coq Require Import Strings.String.
From Verif.Lib Require Import Prelude ListAux ListLemmas SortLemmas Perm.
From Verif.Model Require Import Element Elements Segment List.
From Verif.Spec Require Import RankSpec QuerySpec AnswerSpec HistorySpec.
From Verif.Proof Require Import ElementP ElementsP ElementsThm SegP InvDef QueryP LookupP PctP ChangeP UpdateP UpdateInv
  DeleteP InsertP BuildP BuildInv RepairP SplitP IdxUpdP SplitInv VerifyP HistoryP AnswerP.
Open Scope N_scope.

Lemma stored_contents l : stored_in l = contents l.
Proof. reflexivity. Qed.

Lemma reach_answers merge split l m r : reachable merge split l m -> ranking_of (sin m) r -> answers l r.
Proof. intros H. apply inv_answers. eapply reach_Inv; eauto. Qed.
Lemma reach_stored merge split l m r : reachable merge split l m -> ranking_of (sin m) r -> stored_in l = r.
Proof. intros H Hr. eapply ranking_unique; [|exact Hr]. apply contents_ranking. eapply reach_Inv; eauto. Qed.
Lemma reach_ranking merge split l m : reachable merge split l m -> ranking_of (sin m) (stored_in l).
Proof. intros H. apply contents_ranking. eapply reach_Inv; eauto. Qed.

(** C06 *)
Lemma c06_step merge split l m o : reachable merge split l m -> op_ok merge split m o ->
  (exists l', step l o = Done l' /\ reachable merge split l' (spec_step m o) /\
              ranking_of (sin (spec_step m o)) (stored_in l')) \/
  (step l o = Exhausted /\ (exists mg now, o = OSplit mg now) /\
   (2 ^ 32 < ss_next (l_scores l) + N.of_nat (length (ss_segs (l_scores l))) \/
    2 ^ 32 < ss_next (l_index l) + N.of_nat (length (ss_segs (l_index l))))).
Proof.
  intros HR Hok. pose proof (reach_inv _ _ _ _ HR) as HA.
  assert (Hd : forall l', step l o = Done l' -> reachable merge split l' (spec_step m o) /\
              ranking_of (sin (spec_step m o)) (stored_in l')).
  { intros l' E. assert (H : reachable merge split l' (spec_step m o)) by (eapply R_step; eauto).
    split; [exact H|eapply reach_ranking; eauto]. }
  destruct (step_ok _ _ _ _ _ HA Hok) as [E|(l' & E & _)]; [right|left; eauto].
  split; [exact E|].
  destruct o as [clk clki now sc e|now sch e|now sc1 sc2 ids|mg now|ni now sc|ns ni now scd sca sc sch want|ns ni now sc sch want e|];
    try discriminate.
  - exfalso. destruct (step_ok _ _ _ _ _ HA Hok) as [_|(l' & E' & _)]; [|congruence].
    destruct HA as (HI & HM & HS). destruct Hok as (Hd1 & Hg & Hn & Hnow & H4). rewrite <- HS in H4.
    destruct (insert_inv (sin m) l now sch e HI Hd1 Hg) as (l' & E' & _); auto.
    { intros x y Hx Hy C. specialize (Hn x Hx). unfold sin in Hy. rewrite <- C in Hy. congruence. }
    cbn [step] in E. congruence.
  - split; [eauto|]. cbn [step] in E. destruct HA as (HI & _).
    destruct (split_inv (sin m) mg now l HI Hok) as [(_ & H)|(l' & E' & _)]; [exact H|congruence].
  - exfalso. destruct HA as (HI & HM & HS). destruct Hok as (Hni & Hnow & Hsz & Hlen). rewrite <- HM, <- HS in Hsz.
    destruct (reindex_inv (sin m) l ni now sc HI Hsz Hnow Hni) as (l' & E' & _).
    { apply Hlen. apply (contents_ranking _ _ HI). }
    cbn [step] in E. congruence.
  - exfalso. destruct HA as (HI & HM & HS). destruct Hok as (Hns & Hni & Hnow & Hlen).
    destruct (Hlen (contents l) (contents_ranking _ _ HI)) as (H1 & H2). unfold contents in *. rewrite <- HM, <- HS in H2.
    destruct (repair_inv ns ni now (fun _ => true) scd sca sc sch want l (i_sz _ _ HI) H2) as (l' & E' & _); auto.
    { intros x (i & s & Hi & _ & Hx). destruct (i_core _ _ HI) as (Q & HC).
      apply (so_good _ _ (c_s _ _ _ _ HC)). eapply score_ok_seg; [apply HC|eapply nth_error_In; eauto|exact Hx]. }
    cbn [step] in E. congruence.
  - exfalso. destruct HA as (HI & HM & HS). destruct Hok as (Hns & Hni & Hnow & Hd1 & Hg & Hlen & Hsz). rewrite <- HM, <- HS in Hsz.
    destruct (populate_inv ns ni now sc sch want e l (i_sz _ _ HI) Hsz Hd1 Hg Hnow Hns Hni Hlen) as (l' & E' & _).
    cbn [step] in E. congruence.
Qed.

Lemma c06_run merge split l m ops : reachable merge split l m -> ops_ok merge split m ops ->
  (exists l', run l ops = Done l' /\ reachable merge split l' (spec_run m ops) /\
              ranking_of (sin (spec_run m ops)) (stored_in l')) \/ run l ops = Exhausted.
Proof.
  revert l m. induction ops as [|o r IH]; intros l m HR Hok; cbn [run spec_run].
  - left. exists l. split; [reflexivity|]. split; [exact HR|eapply reach_ranking; eauto].
  - destruct Hok as (H1 & H2). destruct (c06_step _ _ _ _ _ HR H1) as [(l' & -> & HR' & _)|(-> & _)]; [|auto].
    apply IH; assumption.
Qed.

(** C07, C08 *)
Lemma c07_lookup merge split l m r sc1 sc2 ids radius : reachable merge split l m -> ranking_of (sin m) r ->
  Forall (fun v => v <= max_u64) ids ->
  let res := get_elements sc1 sc2 l ids radius in
  NoDup (map (fun re => e_id (re_elem re)) res) /\
  (forall x, In x (map re_elem res) <-> sin m x /\ In (e_id x) ids) /\
  Forall (fun re => true_rank r re /\ re_before re = None) res.
Proof.
  intros HR Hr Hb res. destruct (a_get _ _ (reach_answers _ _ _ _ _ HR Hr) sc1 sc2 ids radius Hb) as (A & B & C).
  fold res in A, B, C. split; [exact A|]. split.
  - intros x. rewrite B. destruct Hr as (_ & Hr). rewrite Hr. tauto.
  - eapply Forall_impl; [|exact C]. intros re H; split; apply H.
Qed.
Lemma c08_neighbours merge split l m r sc1 sc2 ids radius : reachable merge split l m -> ranking_of (sin m) r ->
  Forall (fun v => v <= max_u64) ids ->
  Forall (fun re => exists i, nth_error r i = Some (re_elem re) /\
            re_below re = firstn radius (skipn (S i) r) /\ re_above re = firstn radius (rev (firstn i r)))
         (get_elements sc1 sc2 l ids radius).
Proof.
  intros HR Hr Hb. destruct (a_get _ _ (reach_answers _ _ _ _ _ HR Hr) sc1 sc2 ids radius Hb) as (_ & _ & C).
  eapply Forall_impl; [|exact C]. intros re ((i & H1 & H2 & _) & H3 & _). exists i. split; [exact H1|]. apply H3. exact H2.
Qed.

(** C12 *)
Lemma c12_one merge split l m r k radius : reachable merge split l m -> ranking_of (sin m) r ->
  N.of_nat (length r) < 2 ^ 64 ->
  let low := last (ss_segs (l_scores l)) max_segment in
  (sg_elems low = [] -> get_percentile l (2 ^ k) k radius = Panic) /\
  (sg_elems low <> [] -> exists re, get_percentile l (2 ^ k) k radius = Done (Some re) /\
     re_bottom re = 0%Z /\ true_rank r re /\ true_neighbours r radius re).
Proof.
  intros HR Hr Hlen low. pose proof (reach_Inv _ _ _ _ HR) as HI. pose proof (Inv_Qok _ _ HI) as HQ.
  pose proof (reach_stored _ _ _ _ _ HR Hr) as Es. rewrite stored_contents in Es.
  pose proof (a_len _ _ (reach_answers _ _ _ _ _ HR Hr)) as El.
  unfold get_percentile. rewrite El.
  destruct (want_off_one (N.of_nat (length r)) k) as [E|E]; [|lia]. rewrite E, Nat2N.id.
  destruct (pct_at_spec _ l (length r) radius HQ) as (_ & A & B). rewrite Es in *.
  assert (Hl : last_seg_empty l = match sg_elems low with [] => true | _ => false end) by reflexivity.
  destruct (sg_elems low) as [|y ys].
  - split; [|congruence]. intros _. apply A; [lia|exact Hl].
  - split; [discriminate|]. intros _. destruct B as (x & Hx & Ex); [lia|exact Hl|].
    eexists. split; [exact Ex|]. split; [|split; [apply ranked_at_rank; exact Hx|apply ranked_at_nb]].
    cbn [ranked_at re_bottom]. assert ((length r - 1 < length r)%nat) by (apply nth_error_Some; congruence). lia.
Qed.
Lemma c12_empty merge split l m k p radius : reachable merge split l m -> (forall x, ~ sin m x) ->
  get_percentile l p k radius = Panic.
Proof.
  intros HR Hm. assert (Hr : ranking_of (sin m) []).
  { split; [constructor|]. intros e. split; [contradiction|intros H; exfalso; exact (Hm e H)]. }
  pose proof (reach_Inv _ _ _ _ HR) as HI. pose proof (Inv_Qok _ _ HI) as HQ.
  pose proof (reach_stored _ _ _ _ _ HR Hr) as Es. rewrite stored_contents in Es.
  unfold get_percentile. destruct (pct_at_spec _ l (N.to_nat (want_off (N.of_nat (len l)) p k)) radius HQ) as (_ & A & _).
  apply A; rewrite ?Es; [cbn; lia|].
  unfold last_seg_empty. destruct (i_core _ _ HI) as (Q & HC).
  destruct (exists_last (tile_nonempty _ (so_tile _ _ (c_s _ _ _ _ HC)))) as (a & t & EL). rewrite EL, last_last.
  unfold contents in Es. rewrite EL, elems_of_app, elems_of_cons in Es. apply app_eq_nil in Es as (_ & Es).
  apply app_eq_nil in Es as (-> & _). reflexivity.
Qed.

(** C13 *)
Lemma perm_count_index P l : Inv P l -> count (ss_segs (l_index l)) = length (contents l).
Proof.
  intros HI. destruct (i_core _ _ HI) as (Q & HC). rewrite count_elems by (apply meta_cnt, HI).
  pose proof (c_s _ _ _ _ HC) as HS. pose proof (c_i _ _ _ _ HC) as HX.
  rewrite <- (map_length e_id), <- (map_length e_id (contents l)). apply Permutation_length.
  apply NoDup_Permutation; [apply (score_ok_distinct _ _ HX)|apply (score_ok_distinct _ _ HS)|].
  intros v. rewrite !in_map_iff. split.
  - intros (q & <- & Hq). apply (score_ok_In _ _ q HX) in Hq.
    destruct (proj1 (c_link _ _ _ _ HC (e_id q) (e_tie q))) as (s & x & Hs & Hx & E & _); [exists q; auto|].
    exists x. split; [exact E|]. apply elems_of_In. eauto.
  - intros (x & <- & Hx). apply (score_ok_In _ _ x HS) in Hx. destruct (indexed _ _ _ _ x HC Hx) as (q & Hq & E).
    exists q. split; [exact E|]. apply (score_ok_In _ _ q HX). exact Hq.
Qed.
Lemma c13_len merge split l m r : reachable merge split l m -> ranking_of (sin m) r ->
  len l = length r /\ length (indexed_in l) = length r /\ count (ss_segs (l_index l)) = length r.
Proof.
  intros HR Hr. split; [apply (a_len _ _ (reach_answers _ _ _ _ _ HR Hr))|].
  pose proof (reach_Inv _ _ _ _ HR) as HI. rewrite <- (reach_stored _ _ _ _ _ HR Hr).
  pose proof (perm_count_index _ _ HI) as E. split; [|exact E]. rewrite <- stored_contents in E. rewrite <- E.
  rewrite count_elems by (apply meta_cnt, HI). reflexivity.
Qed.

(** C14 *)
Lemma c14_split merge split l m mg now : reachable merge split l m -> tick now ->
  (exists l', split_pass mg now l = Done l' /\ stored_in l' = stored_in l /\ reachable merge split l' m /\
     forall r, ranking_of (sin m) r -> answers l r /\ answers l' r) \/
  (split_pass mg now l = Exhausted /\
   (2 ^ 32 < ss_next (l_scores l) + N.of_nat (length (ss_segs (l_scores l))) \/
    2 ^ 32 < ss_next (l_index l) + N.of_nat (length (ss_segs (l_index l))))).
Proof.
  intros HR Hnow. destruct (c06_step _ _ _ _ (OSplit mg now) HR Hnow) as [(l' & E & HR' & Hr)|(E & _ & H)]; [left|right; auto].
  cbn [step spec_step] in *. exists l'. split; [exact E|]. split.
  - eapply ranking_unique; [exact Hr|eapply reach_ranking; eauto].
  - split; [exact HR'|]. intros r H. split; eapply reach_answers; eauto.
Qed.

(** C16 *)
Lemma c16_verify merge split l m : reachable merge split l m -> verify l = true /\ verify_elements l = true.
Proof. intros H. eapply verify_complete, reach_Inv, H. Qed.

(** C17 *)
Lemma c17_sound l : Forall seg_typed (ss_segs (l_scores l)) -> Forall seg_typed (ss_segs (l_index l)) ->
  Forall seg_ordered (ss_segs (l_scores l)) -> Forall seg_ordered (ss_segs (l_index l)) ->
  only_last_zero (ss_segs (l_scores l)) -> only_last_zero (ss_segs (l_index l)) ->
  filed l -> map_ok l ->
  verify l = true -> verify_elements l = true ->
  ranked (stored_in l) /\ distinct_ids (stored_in l) /\ answers l (stored_in l) /\
  (forall id t, (exists q, In q (indexed_in l) /\ e_id q = id /\ e_tie q = t) <->
                (exists s x, In s (ss_segs (l_scores l)) /\ In x (sg_elems s) /\ e_id x = id /\ sg_id s = t)).
Proof.
  intros T1 T2 O1 O2 Z1 Z2 HF HM HV HE.
  assert (HT : forall L, Forall seg_typed L -> typed L).
  { intros L. apply Forall_impl. unfold seg_typed, widths. tauto. }
  assert (HP : forall L, Forall seg_typed L -> Forall seg_ordered L -> only_last_zero L -> proper L).
  { intros L HT0 HO HZ. split.
    - rewrite Forall_forall in *. intros s Hs. specialize (HT0 s Hs). specialize (HO s Hs).
      unfold seg_typed, seg_ordered, kmin, kmax, kk, max_u32 in *. lia.
    - intros a s t b E. specialize (HZ a s t b E). unfold kmin, kk. lia. }
  destruct (verify_sound l (HT _ T1) (HT _ T2) (HP _ T1 O1 Z1) (HP _ T2 O2 Z2)) as (HC & C1 & C2); auto.
  { unfold filed in HF. rewrite Forall_forall in HF. exact HF. }
  assert (HQ : Qok (fun x => In x (contents l)) l) by (split; [eexists; exact HC|exact C1|exact HM]).
  pose proof (contents_ranking_q _ _ HQ) as Hr.
  split; [apply Hr|]. split; [apply (score_ok_distinct _ _ (c_s _ _ _ _ HC))|]. split; [eapply qok_answers; eauto|].
  apply (c_link _ _ _ _ HC).
Qed.

(** C18 *)
Lemma c18_reindex merge split l m ni now sc l1 : reachable merge split l m ->
  l_scores l1 = l_scores l -> l_merge l1 = merge -> l_split l1 = split ->
  op_ok merge split m (OReindex ni now sc) ->
  exists l', reindex_list ni now sc l1 = Done l' /\ reachable merge split l' m /\ l_scores l' = l_scores l1 /\
    verify l' = true /\ verify_elements l' = true /\ forall r, ranking_of (sin m) r -> answers l' r.
Proof.
  intros HR E1 E2 E3 Hok. destruct (c06_step _ _ _ _ _ HR Hok) as [(l' & E & HR' & _)|(_ & (mg & n & C) & _)]; [|discriminate].
  cbn [step spec_step] in *. exists l'. destruct (reach_inv _ _ _ _ HR) as (HI & HM & HS).
  assert (EE : reindex_list ni now sc l1 = reindex_list ni now sc l).
  { unfold reindex_list. rewrite E1, E2, E3, HM, HS. destruct (split_size _ _) as [p|]; [|reflexivity].
    destruct (new_segments_elements ni now p true) as (ix & u). unfold set_both. rewrite E2, E3, HM, HS. reflexivity. }
  split; [congruence|]. split; [exact HR'|]. split.
  - rewrite E1. clear - E. unfold reindex_list in E. destruct (split_size _ _) as [p|]; [|discriminate].
    destruct (new_segments_elements ni now p true) as (ix & u). unfold guard_ids in E. destruct (ids_ok _); [|discriminate].
    injection E as <-. reflexivity.
  - destruct (c16_verify _ _ _ _ HR') as (V1 & V2). split; [exact V1|]. split; [exact V2|]. intros r Hr. eapply reach_answers; eauto.
Qed.

(** C19 *)
Lemma c19_repair l rd ns ni now scd sca sc sch want : (l_merge l < l_split l)%nat ->
  build_sizes (l_merge l) (l_split l) want (length (stored_in l)) ->
  (forall x, loadable rd (ss_segs (l_scores l)) x -> stored x) ->
  tick now -> ns <> ""%string -> ni <> ""%string -> N.of_nat (length (stored_in l)) < max_u32 ->
  exists l', repair ns ni now rd scd sca sc sch want l = Done l' /\
    verify l' = true /\ verify_elements l' = true /\
    let r := stored_in l' in
    ranked r /\ distinct_ids r /\ answers l' r /\
    (forall x, In x r -> loadable rd (ss_segs (l_scores l)) x) /\
    (forall x, loadable rd (ss_segs (l_scores l)) x -> exists y, In y r /\ e_id y = e_id x /\ e_upd x <= e_upd y).
Proof.
  intros Hms Hsz Hg Hnow Hns Hni Hlen.
  destruct (repair_inv ns ni now rd scd sca sc sch want l Hms Hsz Hg Hnow Hns Hni Hlen) as (l' & E & HI & _ & _).
  exists l'. split; [exact E|]. destruct (verify_complete _ _ HI) as (V1 & V2). split; [exact V1|]. split; [exact V2|].
  pose proof (contents_ranking _ _ HI) as Hr. cbn zeta. rewrite stored_contents.
  destruct (repair_elements_spec rd scd sca (ss_segs (l_scores l))) as (A & B & C).
  split; [apply Hr|]. split.
  { destruct (i_core _ _ HI) as (Q & HC). apply (score_ok_distinct _ _ (c_s _ _ _ _ HC)). }
  split; [eapply inv_answers; eauto|]. destruct Hr as (_ & Hr). split.
  - intros x Hx. apply B, Hr, Hx.
  - intros x Hx. destruct (C x Hx) as (y & Hy & Ey & Hb). exists y. split; [apply Hr, Hy|]. split; [exact Ey|].
    unfold better in Hb. lia.
Qed.
(** with everything loadable nothing changes on a list without duplicates *)
Lemma c19_noop merge split l m ns ni now scd sca sc sch want : reachable merge split l m ->
  op_ok merge split m (ORepair ns ni now scd sca sc sch want) ->
  exists l', repair ns ni now (fun _ => true) scd sca sc sch want l = Done l' /\ stored_in l' = stored_in l.
Proof.
  intros HR Hok. destruct (c06_step _ _ _ _ _ HR Hok) as [(l' & E & HR' & Hr)|(_ & (mg & n & C) & _)]; [|discriminate].
  exists l'. split; [exact E|]. eapply ranking_unique; [exact Hr|eapply reach_ranking; eauto].
Qed.

(** C20 *)
Lemma filter_ranked p l : ranked l -> ranked (filter p l).
Proof.
  intros H. induction H as [|x r Hr IH HF]; [constructor|]. cbn [filter]. destruct (p x); [|exact IH].
  constructor; [exact IH|]. rewrite Forall_forall in *. intros y Hy. apply filter_In in Hy. apply HF. tauto.
Qed.
Lemma c20_delete merge split l m r now sc1 sc2 ids : reachable merge split l m -> ranking_of (sin m) r ->
  Forall (fun v => v <= max_u64) ids -> tick now ->
  let l' := delete_elements now sc1 sc2 ids l in
  let r' := filter (fun e => negb (existsb (N.eqb (e_id e)) ids)) r in
  reachable merge split l' (sdel m ids) /\ stored_in l' = r' /\ answers l' r' /\
  verify l' = true /\ verify_elements l' = true.
Proof.
  intros HR Hr Hb Hnow l' r'. assert (Hok : op_ok merge split m (ODelete now sc1 sc2 ids)) by (split; assumption).
  assert (HR' : reachable merge split l' (sdel m ids)) by (apply (R_step _ _ _ _ _ _ HR Hok); reflexivity).
  assert (Hr' : ranking_of (sin (sdel m ids)) r').
  { split; [apply filter_ranked, Hr|]. intros e. unfold r'. rewrite filter_In, sin_sdel, (proj2 Hr e).
    rewrite negb_true_iff. destruct (existsb (N.eqb (e_id e)) ids) eqn:E.
    - apply existsb_exists in E as (k & Hk & Ek). apply N.eqb_eq in Ek. subst k. intuition discriminate.
    - assert (~ In (e_id e) ids); [|tauto]. intros C.
      assert (existsb (N.eqb (e_id e)) ids = true) by (apply existsb_exists; exists (e_id e); rewrite N.eqb_refl; auto). congruence. }
  split; [exact HR'|]. split; [eapply reach_stored; eauto|]. split; [eapply reach_answers; eauto|].
  eapply c16_verify; eauto.
Qed.

(** C21 *)
Lemma c21_insert merge split l m now sch e : reachable merge split l m ->
  distinct_ids e -> Forall stored e -> (forall x, In x e -> m (e_id x) = None) -> tick now -> (4 <= split)%nat ->
  exists l', insert now sch e l = Done l' /\ reachable merge split l' (sputs m e) /\
    verify l' = true /\ verify_elements l' = true /\
    forall x, In x (stored_in l') <-> In x (stored_in l) \/ In x e.
Proof.
  intros HR Hd Hg Hn Hnow H4. assert (Hok : op_ok merge split m (OInsert now sch e)) by (cbn; auto).
  destruct (c06_step _ _ _ _ _ HR Hok) as [(l' & E & HR' & Hr)|(_ & (mg & n & C) & _)]; [|discriminate].
  exists l'. split; [exact E|]. split; [exact HR'|]. destruct (c16_verify _ _ _ _ HR') as (V1 & V2).
  split; [exact V1|]. split; [exact V2|]. intros x. destruct Hr as (_ & Hr). rewrite Hr. cbn [spec_step].
  rewrite sin_sputs by exact Hd. destruct (reach_ranking _ _ _ _ HR) as (_ & Hs). rewrite Hs. split; [tauto|].
  intros [H|H]; [|auto]. right. split; [exact H|]. intros C. apply in_map_iff in C as (y & Ey & Hy).
  specialize (Hn y Hy). unfold sin in H. rewrite Ey in Hn. congruence.
Qed.
Lemma c21_diverges merge split l m now sch e : reachable merge split l m -> (split < 4)%nat -> e <> [] ->
  insert now sch e l = Diverge.
Proof.
  intros HR Hs He. destruct (reach_inv _ _ _ _ HR) as (HI & HM & HS). eapply insert_diverges; eauto. lia.
Qed.

(** C22 *)
Lemma c22_new merge split ns ni now sc sch want e : (merge < split)%nat -> build_sizes merge split want (length e) ->
  ns <> ""%string -> ni <> ""%string -> tick now -> distinct_ids e -> Forall elem_ok e -> N.of_nat (length e) < max_u32 ->
  exists l, new_list merge split ns ni now sc sch want e = Done l /\ verify l = true /\ verify_elements l = true /\
    ranked (stored_in l) /\ answers l (stored_in l) /\ Permutation (stored_in l) (map (restamp now) e).
Proof.
  intros Hms Hsz Hns Hni Hnow Hd Hok Hlen.
  destruct (new_list_inv merge split ns ni now sc sch want e Hms Hsz Hd Hok Hnow Hns Hni Hlen) as (l & E & _).
  exists l. split; [exact E|].
  assert (HR : reachable merge split l (sputs sempty (map (restamp now) e))) by (apply (R_new merge split ns ni now sc sch want e l); assumption).
  destruct (c16_verify _ _ _ _ HR) as (V1 & V2). split; [exact V1|]. split; [exact V2|].
  pose proof (reach_ranking _ _ _ _ HR) as Hr. split; [apply Hr|]. split; [eapply reach_answers; eauto|].
  assert (Hd' : distinct_ids (map (restamp now) e)) by (unfold distinct_ids; rewrite restamp_eq, update_time_ids; exact Hd).
  apply NoDup_Permutation; [apply ranked_NoDup, Hr|eapply NoDup_map_inv, Hd'|].
  intros x. rewrite (proj2 Hr x), sin_sputs by exact Hd'. rewrite sin_sempty. tauto.
Qed.
Lemma c22_populate merge split l m ns ni now sc sch want e : reachable merge split l m ->
  op_ok merge split m (OPopulate ns ni now sc sch want e) ->
  exists l', populate ns ni now sc sch want e l = Done l' /\ verify l' = true /\ verify_elements l' = true /\
    ranked (stored_in l') /\ answers l' (stored_in l') /\ Permutation (stored_in l') e.
Proof.
  intros HR Hok. destruct (c06_step _ _ _ _ _ HR Hok) as [(l' & E & HR' & Hr)|(_ & (mg & n & C) & _)]; [|discriminate].
  exists l'. split; [exact E|]. destruct (c16_verify _ _ _ _ HR') as (V1 & V2). split; [exact V1|]. split; [exact V2|].
  split; [apply Hr|]. split; [eapply reach_answers; eauto|].
  destruct Hok as (_ & _ & _ & Hd & _).
  apply NoDup_Permutation; [apply ranked_NoDup, Hr|eapply NoDup_map_inv, Hd|].
  intros x. rewrite (proj2 Hr x). cbn [spec_step]. rewrite sin_sputs by exact Hd. rewrite sin_sempty. tauto.
Qed.
Lemma c22_clone merge0 split0 org m merge split ns ni now : reachable merge0 split0 org m ->
  (merge < split)%nat -> (2 <= merge + split)%nat -> ns <> ""%string -> ni <> ""%string -> tick now ->
  sized m (fun n => N.of_nat n < max_u32) ->
  exists l, clone_elements merge split ns ni now org = Done l /\ reachable merge split l m /\
    verify l = true /\ verify_elements l = true /\ stored_in l = stored_in org.
Proof.
  intros HR Hms Hsz Hns Hni Hnow Hlen. pose proof (reach_Inv _ _ _ _ HR) as HI.
  destruct (clone_inv (sin m) org merge split ns ni now HI Hms Hsz Hnow Hns Hni) as (l & E & _ & Ec & _).
  { apply Hlen, contents_ranking, HI. }
  assert (HR' : reachable merge split l m) by (apply (R_clone merge0 split0 org m merge split ns ni now l); assumption).
  exists l. split; [exact E|]. split; [exact HR'|]. destruct (c16_verify _ _ _ _ HR') as (V1 & V2). auto.
Qed.
Lemma sort_nonempty e : e <> [] -> sort_elems e <> [].
Proof. intros H C. pose proof (Permutation_length (sort_elems_perm e)) as L. rewrite C in L. destruct e; [congruence|discriminate]. Qed.
Lemma c22_panics merge split ns ni now sc sch want e : (merge + split <= 1)%nat -> e <> [] ->
  (length e <= N.to_nat 100000)%nat ->
  new_list merge split ns ni now sc sch want e = Panic /\
  forall l, l_merge l = merge -> l_split l = split -> populate ns ni now sc sch want e l = Panic.
Proof.
  intros Hms He Hlen.
  assert (HP : forall l, l_merge l = merge -> l_split l = split -> forall e, e <> [] -> (length e <= N.to_nat 100000)%nat ->
             populate ns ni now sc sch want e l = Panic).
  { clear e He Hlen. intros l E1 E2 e He Hlen. unfold populate. destruct e as [|x r]; [congruence|]. set (e := x :: r) in *.
    assert (Hl : Nat.ltb insert_limit (length e) = false) by (apply Nat.ltb_ge; exact Hlen). rewrite Hl. cbn [andb].
    rewrite E1, E2. replace ((merge + split) / 2)%nat with 0%nat by (destruct (merge + split)%nat as [|[|?]]; [reflexivity|reflexivity|lia]).
    pose proof (sort_nonempty e He) as Hs. unfold split_size. destruct (sort_elems e); [congruence|]. reflexivity. }
  split; [|intros l E1 E2; apply HP; auto].
  unfold new_list. destruct e as [|x r]; [congruence|]. apply HP; try reflexivity.
  - cbn. discriminate.
  - unfold update_time. rewrite map_length. exact Hlen.
Qed.

(** C48 *)
Lemma covers_key s score tie : widths s -> tie <= max_u32 -> covers s score tie <-> kmin s <= kk score tie <= kmax s.
Proof. unfold covers, widths, kmin, kmax, kk, max_u32, max_u64. lia. Qed.
Lemma tile_covered l : tile l -> covered_once l.
Proof.
  intros HT score tie Hs Ht. pose proof (tile_from_widths _ _ HT) as Hw. rewrite Forall_forall in Hw.
  destruct (tile_from_locate l topk (kk score tie) HT) as (i & s & Hi & Hk).
  { unfold topk, kk, max_u64, max_u32 in *. lia. }
  exists i, s. split; [exact Hi|]. split; [apply covers_key; eauto using nth_error_In|].
  intros j t Hj Hc. eapply (tile_from_unique l topk j i t s (kk score tie)); eauto.
  apply covers_key; eauto using nth_error_In.
Qed.
Lemma c48_tile merge split l m : reachable merge split l m ->
  covered_once (ss_segs (l_scores l)) /\ covered_once (ss_segs (l_index l)) /\
  (forall s x, In s (ss_segs (l_scores l)) -> In x (sg_elems s) -> covers s (e_score x) (e_tie x)) /\
  (forall s q, In s (ss_segs (l_index l)) -> In q (sg_elems s) -> covers s (e_score q) (e_tie q) /\ e_score q = e_id q).
Proof.
  intros HR. pose proof (reach_Inv _ _ _ _ HR) as HI. destruct (i_core _ _ HI) as (Q & HC).
  pose proof (c_s _ _ _ _ HC) as HS. pose proof (c_i _ _ _ _ HC) as HX.
  split; [apply tile_covered, HS|]. split; [apply tile_covered, HX|].
  assert (HH : forall P L s x, score_ok P L -> In s L -> In x (sg_elems s) -> covers s (e_score x) (e_tie x)).
  { intros P L s x H Hs Hx. destruct (score_ok_seg _ _ _ _ H Hs Hx) as (Px & Hr).
    pose proof (tile_from_widths _ _ (so_tile _ _ H)) as Hw. rewrite Forall_forall in Hw.
    destruct (so_good _ _ H x Px) as (Ho & _). apply covers_key; auto. unfold elem_ok in Ho. tauto. }
  split; [intros s x; apply HH with (P := sin m); exact HS|].
  intros s q Hs Hq. split; [eapply HH; eauto|]. destruct (score_ok_seg _ _ _ _ HX Hs Hq) as (HQ & _).
  apply (c_form _ _ _ _ HC q HQ).
Qed.
