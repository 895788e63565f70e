(** What UpdateElements reports when results are requested. *)
From Coq Require Import Strings.String.
From Verif.Lib Require Import Prelude ListAux ListLemmas SortLemmas Perm.
From Verif.Model Require Import Element Elements Segment List.
From Verif.Spec Require Import RankSpec QuerySpec AnswerSpec HistorySpec.
From Verif.Proof Require Import ElementP ElementsP SegP InvDef QueryP LookupP ChangeP UpdateP UpdateInv HistoryP AnswerP.
Open Scope N_scope.

Lemma assoc_flat {B C} (f : N * B -> option C) id : forall m,
  (forall p, In p m -> fst p = id -> f p <> None) ->
  assoc id (flat_map (fun p => match f p with Some r => [(fst p, r)] | None => [] end) m) =
  match assoc id m with Some b => f (id, b) | None => None end.
Proof.
  induction m as [|(k, b) m IH]; intros H; [reflexivity|]. cbn [flat_map assoc fst].
  destruct (N.eqb_spec k id) as [->|Hn].
  - destruct (f (id, b)) as [c|] eqn:E; [cbn; rewrite N.eqb_refl; reflexivity|].
    exfalso. apply (H (id, b)); cbn; auto.
  - destruct (f (k, b)) as [c|] eqn:E; cbn [app].
    + cbn [assoc]. destruct (N.eqb_spec k id); [contradiction|]. apply IH. intros p Hp. apply H. right; exact Hp.
    + apply IH. intros p Hp. apply H. right; exact Hp.
Qed.

Lemma existing_In P Q ss is g p : core P Q ss is -> In p (existing_idx is g) -> Q (snd p) /\ e_id (snd p) = fst p.
Proof.
  intros HC H. unfold existing_idx in H. apply in_flat_map in H as ((i & gi) & _ & H). cbn [fst snd] in H.
  destruct (nth_error is i) as [s|] eqn:Hi; [|contradiction].
  apply in_flat_map in H as (id & _ & H).
  pose proof (find_elem_spec (first_with_score (sg_elems s) gi) id) as HF.
  destruct (find_elem (first_with_score (sg_elems s) gi) id) as [e|]; [|contradiction].
  destruct H as [<-|[]]. cbn [fst snd]. destruct HF as (He & Eid). split; [|exact Eid].
  apply first_with_score_sub in He. eapply (score_ok_seg _ _ s e (c_i _ _ _ _ HC)); eauto using nth_error_In.
Qed.

Lemma idx_map_ok P Q ss is : core P Q ss is -> forall q, Q q ->
  exists a s b k x, ss = a ++ s :: b /\ nth_error (sg_elems s) k = Some x /\ e_id x = e_id q /\ P x /\
    idx_get (build_idx ss) (e_tie q) = length a.
Proof.
  intros HC q Hq. destruct (linked_at _ _ _ _ q HC Hq) as (a & s & b & k & x & E & Hk & Ex & Et & Px).
  exists a, s, b, k, x. repeat split; auto. rewrite <- Et. apply idx_get_build; [apply HC|].
  rewrite E, nth_error_app2, Nat.sub_diag by lia. reflexivity.
Qed.

Lemma find_ranked_elem ss a s b k x : distinct_ids (elems_of ss) -> ss = a ++ s :: b -> nth_error (sg_elems s) k = Some x ->
  exists r, find_ranked ss (length a) (e_id x) 0 0 = Some r /\ re_elem r = x /\ re_top r = Z.of_nat k /\ re_bottom r = 0%Z /\
            re_above r = [] /\ re_below r = [].
Proof.
  intros Hd E Hk. assert (Hds : distinct_ids (sg_elems s)).
  { rewrite E, elems_of_app, elems_of_cons in Hd. apply distinct_ids_app_r, distinct_ids_app_l in Hd. exact Hd. }
  unfold find_ranked. rewrite E, nth_error_app2, Nat.sub_diag by lia. cbn [nth_error].
  rewrite (find_idx_id_distinct _ _ _ Hds Hk), Hk. eexists. split; [reflexivity|]. cbn. repeat split; reflexivity.
Qed.

(** the old ranks: the old element with its position inside its segment *)
Lemma old_ranks_spec P l elems : Inv P l -> distinct_ids elems -> Forall elem_ok elems ->
  forall id, In id (map e_id elems) ->
  match assoc id (old_ranks l elems) with
  | None => forall x, P x -> e_id x <> id
  | Some b => exists i a s c, P (re_elem b) /\ e_id (re_elem b) = id /\
      ss_segs (l_scores l) = a ++ s :: c /\ nth_error (sg_elems s) i = Some (re_elem b) /\
      re_top b = Z.of_nat i /\ re_bottom b = 0%Z /\ re_above b = [] /\ re_below b = []
  end.
Proof.
  intros HInv Hd Hok id Hid. destruct (i_core _ _ HInv) as (Q & HC).
  pose proof (c_s _ _ _ _ HC) as HS.
  destruct (reindex_idx _ (tile_nonempty _ (so_tile _ _ HS)) (m_idx _ (i_ms _ _ HInv))) as (Ei & Es & _).
  unfold old_ranks. cbn zeta. rewrite Es, Ei. set (ss := ss_segs (l_scores l)) in *. set (is := ss_segs (l_index l)) in *.
  set (el := sort_elems elems). set (ids := sort_ids_desc (map e_id el)).
  assert (Hperm : Permutation el elems) by apply sort_elems_perm.
  assert (Hids : forall v, In v ids <-> In v (map e_id elems)).
  { intros v. unfold ids. rewrite sort_ids_desc_In. split; apply Permutation_in, Permutation_map; [exact Hperm|symmetry; exact Hperm]. }
  assert (Hnd : NoDup ids).
  { unfold ids. eapply Permutation_NoDup; [symmetry; apply sort_ids_desc_perm|].
    eapply Permutation_NoDup; [apply Permutation_map; symmetry; exact Hperm|]. exact Hd. }
  assert (Hb : Forall (fun v => v <= max_u64) ids).
  { apply Forall_forall. intros v Hv. apply Hids in Hv. apply in_map_iff in Hv as (x & <- & Hx).
    rewrite Forall_forall in Hok. apply (Hok x Hx). }
  destruct (index_groups_spec _ _ _ _ ids HC Hnd Hb id (proj2 (Hids id) Hid)) as (Hexi & _). cbn zeta in *.
  set (g := index_groups is ids) in *. set (exi := existing_idx is g) in *.
  pose proof (score_ok_distinct _ _ HS) as Hcd.
  set (F := fun p : N * element => find_ranked ss (idx_get (build_idx ss) (e_tie (snd p))) (fst p) 0 0).
  assert (HF : forall q, Q q -> exists r a s c i, F (e_id q, q) = Some r /\ P (re_elem r) /\ e_id (re_elem r) = e_id q /\
     ss = a ++ s :: c /\ nth_error (sg_elems s) i = Some (re_elem r) /\ re_top r = Z.of_nat i /\ re_bottom r = 0%Z /\ re_above r = [] /\ re_below r = []).
  { intros q Hq. destruct (idx_map_ok _ _ _ _ HC q Hq) as (a & s & b & k & x & E & Hk & Ex & Px & Eg).
    destruct (find_ranked_elem ss a s b k x Hcd E Hk) as (r & Hr & Er & Et & Eb & Ea & El).
    exists r, a, s, b, k. unfold F. cbn [fst snd]. rewrite Eg, <- Ex, Er. repeat split; auto. }
  pose proof (assoc_flat F id exi) as HA.
  change (flat_map (fun p : N * element => match F p with Some r => [(fst p, r)] | None => [] end) exi) with
    (flat_map (fun p : N * element => match find_ranked ss (idx_get (build_idx ss) (e_tie (snd p))) (fst p) 0 0 with
      | Some r => [(fst p, r)] | None => [] end) exi) in HA.
  rewrite HA.
  2:{ intros p Hp Ep. destruct (existing_In _ _ _ _ _ _ HC Hp) as (Hq & Eq).
      destruct (HF _ Hq) as (r & _ & _ & _ & _ & E & _). destruct p as (k & q). cbn [fst snd] in *. rewrite Eq in E. congruence. }
  unfold exi_ok in Hexi. destruct (assoc id exi) as [ex|].
  - destruct Hexi as (Hq & Eq). destruct (HF ex Hq) as (r & a & s & c & i & E & H1 & H2 & H3). rewrite Eq in E, H2. rewrite E.
    exists i, a, s, c. tauto.
  - intros x Px C. destruct (indexed _ _ _ _ x HC Px) as (q & Hq & Eq). apply (Hexi q Hq). congruence.
Qed.

Lemma update_results_spec merge split l m clk clki now sc elems sc1 sc2 radius r' :
  reachable merge split l m -> op_ok merge split m (OUpdate clk clki now sc elems) ->
  let m' := spec_step m (OUpdate clk clki now sc elems) in
  ranking_of (sin m') r' ->
  let res := update_results sc1 sc2 l (update_elements clk clki now sc elems l) elems radius in
  NoDup (map (fun re => e_id (re_elem re)) res) /\
  (forall x, In x (map re_elem res) <-> In x (map (stamp clk) elems)) /\
  Forall (fun re => true_rank r' re /\ true_neighbours r' radius re /\
     match m (e_id (re_elem re)) with
     | None => re_before re = None
     | Some old => exists b i a s c, re_before re = Some b /\ re_elem b = old /\
         ss_segs (l_scores l) = a ++ s :: c /\ nth_error (sg_elems s) i = Some old /\
         re_top b = Z.of_nat i /\ re_bottom b = 0%Z /\ re_above b = [] /\ re_below b = []
     end) res.
Proof.
  intros HR Hok m' Hr' res. pose proof (reach_inv _ _ _ _ HR) as HA.
  destruct (step_ok _ _ _ _ _ HA Hok) as [C|(l' & E & HA')]; [discriminate|]. cbn [step] in E. injection E as E.
  destruct HA as (HI & _). destruct HA' as (HI' & _). fold m' in HI'.
  destruct Hok as (Hd & Hs & _). 
  assert (Hok' : Forall elem_ok elems) by (eapply Forall_impl; [|exact Hs]; intros x (H & _); exact H).
  set (ids := sort_ids_desc (map e_id (sort_elems elems))).
  assert (Hids : forall v, In v ids <-> In v (map e_id elems)).
  { intros v. unfold ids. rewrite sort_ids_desc_In. split; apply Permutation_in, Permutation_map; [apply sort_elems_perm|symmetry; apply sort_elems_perm]. }
  assert (Hb : Forall (fun v => v <= max_u64) ids).
  { apply Forall_forall. intros v Hv. apply Hids in Hv. apply in_map_iff in Hv as (x & <- & Hx).
    rewrite Forall_forall in Hok'. apply (Hok' x Hx). }
  destruct (a_get _ _ (inv_answers _ _ _ HI' Hr') sc1 sc2 ids radius Hb) as (A & B & C).
  unfold res, update_results. fold ids. rewrite E. clear E. set (g := get_elements sc1 sc2 l' ids radius) in *.
  set (F := fun r : ranked_element => match assoc (e_id (re_elem r)) (old_ranks l elems) with
                | Some b => mkRE (re_elem r) (re_top r) (re_bottom r) (re_above r) (re_below r) (Some b)
                | None => r end).
  assert (HF : forall r, re_elem (F r) = re_elem r /\ re_top (F r) = re_top r /\ re_bottom (F r) = re_bottom r /\
                re_above (F r) = re_above r /\ re_below (F r) = re_below r).
  { intros r. unfold F. destruct (assoc _ _); cbn; auto 6. }
  split; [|split].
  - rewrite map_map. erewrite map_ext; [exact A|]. intros r. rewrite (proj1 (HF r)). reflexivity.
  - intros x. rewrite map_map. erewrite (map_ext (fun r => re_elem (F r))); [|intros r; apply (proj1 (HF r))].
    rewrite B. destruct Hr' as (_ & Hr'). rewrite Hr', Hids. unfold m'. cbn [spec_step].
    rewrite sin_sputs by (unfold distinct_ids; rewrite stamp_ids; exact Hd). rewrite stamp_ids. split; [|intros H].
    + intros ([H|(_ & H)] & H'); [exact H|contradiction].
    + split; [left; exact H|]. rewrite <- (stamp_ids clk). apply in_map. exact H.
  - apply Forall_forall. intros re Hre. apply in_map_iff in Hre as (re0 & <- & Hre0).
    rewrite Forall_forall in C. destruct (C re0 Hre0) as (C1 & C2 & C3). destruct (HF re0) as (F1 & F2 & F3 & F4 & F5).
    split; [|split].
    + destruct C1 as (i & H1 & H2 & H3). exists i. fold (F re0). rewrite F1, F2, F3. auto.
    + intros i. fold (F re0). rewrite F2, F4, F5. apply C2.
    + assert (Hin : In (e_id (re_elem re0)) (map e_id elems)).
      { apply Hids. apply (B (re_elem re0)). apply in_map. exact Hre0. }
      pose proof (old_ranks_spec _ _ _ HI Hd Hok' _ Hin) as HO. fold (F re0). rewrite F1. unfold F.
      destruct (assoc (e_id (re_elem re0)) (old_ranks l elems)) as [b|].
      * destruct HO as (i & a & s & c & Pb & Eb & H). unfold sin in Pb. rewrite Eb in Pb. rewrite Pb.
        exists b, i, a, s, c. cbn [re_before]. split; [reflexivity|]. tauto.
      * destruct (m (e_id (re_elem re0))) as [old|] eqn:Em; [|exact C3].
        exfalso. destruct (i_core _ _ HI) as (Q & HC).
        (* a stored element carries its own ID *)
        assert (e_id old = e_id (re_elem re0)) as Eo.
        { exact (reach_key _ _ _ _ HR _ _ Em). }
        apply (HO old); [unfold sin; rewrite Eo; exact Em|exact Eo].
Qed.
