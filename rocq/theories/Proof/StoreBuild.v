(** Lists built under new names: reindex, populate, NewList, clone. *)
From Coq Require Import Strings.String Strings.Ascii.
From Verif.Lib Require Import Prelude ListAux ListLemmas Perm Bytes.
From Verif.Model Require Import Element Elements Segment List Keys Storage.
From Verif.Spec Require Import RankSpec QuerySpec HistorySpec KeySpec CodecSpec StorageSpec.
From Verif.Proof Require Import ElementP ElementsP SegP InvDef KeysP ChangeP UpdateP UpdateInv DeleteP InsertP BuildP BuildInv RepairP SplitP IdxUpdP SplitInv HistoryP StoreP StoreOps.
Open Scope N_scope.

Lemma unused_evs es c n : (forall e, In e es -> ev_name e <> n) -> unused c n -> unused (evs_cache es c) n.
Proof. intros H Hu. apply (clean_frame false n es c H); [intros _; exact Hu|reflexivity]. Qed.
Lemma put_all_names b l n : Forall (fun s => sg_parent s = n) l -> forall e, In e (put_all b l) -> ev_name e = n.
Proof. intros H e He. unfold put_all in He. apply in_map_iff in He as (s & <- & Hs). rewrite Forall_forall in H. apply H, Hs. Qed.
Lemma delete_names b o s : Forall (fun g => sg_parent g = ss_id s) (ss_segs s) -> forall e, In e (delete_evs b o s) -> ev_name e = ss_id s.
Proof.
  intros H e He. unfold delete_evs in He. apply in_app_iff in He as [He|[<-|[]]]; [|reflexivity].
  apply permute_In in He. apply in_map_iff in He as (g & <- & Hg). rewrite Forall_forall in H. apply H, Hg.
Qed.
Lemma nse_name ns now parts b : ss_id (fst (new_segments_elements ns now parts b)) = ns.
Proof.
  unfold new_segments_elements. destruct (nse_loop ns now (max_u64, max_u32) 1 parts) as ((l & id) & ix).
  destruct (match l with [] => _ | _ => _ end). reflexivity.
Qed.

(** a freshly written list, over whatever the store has *)
Lemma fresh_both st c S I ns ni : plain ns -> plain ni -> ns <> ni -> unused c ns -> unused c ni ->
  Forall (fun s => sg_parent s = ns) S -> NoDup (map sg_id S) ->
  Forall (fun s => sg_parent s = ni) I -> NoDup (map sg_id I) ->
  let es := put_all false S ++ put_all false I in
  two false false (evs_store es st) (evs_cache es c) ns ni S I /\ within es [ns; ni].
Proof.
  intros Hps Hpi Hne Hus Hui PS NS PI NI. cbn zeta.
  pose proof (put_all_names false S ns PS) as W1. pose proof (put_all_names false I ni PI) as W2.
  rewrite evs_store_app, evs_cache_app. split; [split|].
  - apply coll_frame.
    + apply names_plain with ni; assumption.
    + intros e He. rewrite (W2 e He). congruence.
    + apply coll_put_all; assumption.
  - apply coll_put_all; auto. apply unused_evs; [|exact Hui]. intros e He. rewrite (W1 e He). exact Hne.
  - apply within_app; eapply within_one; eauto; cbn; auto.
Qed.

Lemma meta_nd_par s n : meta s -> ss_id s = n -> Forall (fun g => sg_parent g = n) (ss_segs s) /\ NoDup (map sg_id (ss_segs s)).
Proof. intros H E. split; [apply meta_par; assumption|apply H]. Qed.

Lemma both_raise cfg st c l : both false false st c l -> both cfg cfg st c l.
Proof. intros (A & B). split; apply coll_raise; assumption. Qed.

Lemma reindex_rep cfg hs hi st c P l l' ord ni now sc : Inv P l -> rep cfg hs hi st c l -> Inv P l' ->
  reindex_list ni now sc l = Done l' -> plain ni -> ~ In ni (names l) -> unused c ni ->
  let es := reindex_evs ord hi l l' in
  rep cfg hs false (evs_store es st) (evs_cache es c) l' /\ within es (names l ++ names l') /\ names l' = [l_scores_id l; ni].
Proof.
  intros HI [(B1 & B2) _ _ HN HC] HI' E Hpn Hfr Hun. cbn zeta. pose proof HN as [M1 M2 M3 M4 M5].
  assert (EL : l_scores l' = l_scores l /\ ss_id (l_index l') = ni).
  { unfold reindex_list in E. destruct (split_size _ _) as [parts|]; [|discriminate].
    pose proof (nse_name ni now parts true) as Hn. destruct (new_segments_elements ni now parts true) as (index & x).
    unfold guard_ids in E. destruct (ids_ok _); [|discriminate]. injection E as <-. cbn in *. auto. }
  destruct EL as (EL1 & EL2).
  pose proof (i_ns _ _ HI') as NS'. pose proof (i_ni _ _ HI') as NI'. rewrite EL1, M1 in NS'. rewrite EL2 in NI'.
  destruct (meta_nd_par _ _ (i_mi _ _ HI') EL2) as (PI & NI).
  assert (Hne : l_scores_id l <> ni) by (intros C; apply Hfr; rewrite <- C; cbn; auto).
  assert (Hne2 : l_index_id l <> ni) by (intros C; apply Hfr; rewrite <- C; cbn; auto).
  pose proof (put_all_names false _ _ PI) as W1.
  assert (W2 : forall e, In e (delete_evs hi (ord 0%nat) (l_index l)) -> ev_name e = l_index_id l).
  { intros e He. rewrite <- M2. eapply delete_names; [|exact He]. apply meta_par; [reflexivity|apply HI]. }
  assert (HN' : named l').
  { split; rewrite ?EL1, ?EL2, <- ?NS', <- ?NI'; auto. }
  unfold reindex_evs. split; [|split].
  - rewrite !evs_store_app, !evs_cache_app. apply rep_save; [|exact HN'|intros X; split; [apply HC, X|reflexivity]].
    unfold both. rewrite EL1, M1, EL2. rewrite M1 in B1. split; (apply coll_frame; [apply names_plain with (l_index_id l); assumption|intros e He; rewrite (W2 e He); congruence|]);
      (apply coll_meta; [constructor; [cbn; rewrite EL2; exact Hpn|constructor]|repeat constructor|]).
    + apply coll_frame; [apply names_plain with ni; assumption|intros e He; rewrite (W1 e He); congruence|exact B1].
    + apply coll_put_all; assumption.
  - apply within_app; [eapply within_one; [exact W1|cbn; rewrite <- NI'; auto]|]. apply within_app.
    + intros e [<-|[]]. cbn. rewrite EL2, <- NI'. auto.
    + apply within_app; [eapply within_one; [exact W2|cbn; auto]|].
      eapply within_incl; [|apply save_within, HN']. intros n Hn. apply in_or_app. auto.
  - unfold names. rewrite <- NS', <- NI'. reflexivity.
Qed.

Lemma built_rep cfg st c ns ni now sc sch want e l l' ord : (l_merge l < l_split l)%nat ->
  size_safe (l_merge l) (l_split l) want (length e) ->
  distinct_ids e -> Forall good e -> 0 < now < max_u32 -> plain ns -> plain ni -> ns <> ni ->
  N.of_nat (length e) < max_u32 -> unused c ns -> unused c ni ->
  populate ns ni now sc sch want e l = Done l' ->
  let es := built_evs ord cfg ns ni now sc sch want e l l' in
  rep cfg (built_flag cfg e) (built_flag cfg e) (evs_store es st) (evs_cache es c) l' /\ within es [ns; ni] /\ names l' = [ns; ni].
Proof.
  intros Hms (Hsz1 & Hsz2) Hd Hg Hnow Hps Hpi Hne Hlen Hus Hui E. cbn zeta.
  assert (Hns : ns <> ""%string) by apply Hps. assert (Hni : ni <> ""%string) by apply Hpi.
  unfold populate in E. unfold built_evs, built_flag.
  (* writing a list that satisfies the invariant under the two names *)
  assert (Hw : forall P l1, Inv P l1 -> l_scores_id l1 = ns -> l_index_id l1 = ni ->
    let es := put_all false (ss_segs (l_scores l1)) ++ put_all false (ss_segs (l_index l1)) in
    both false false (evs_store es st) (evs_cache es c) l1 /\ within es [ns; ni] /\ named l1 /\ names l1 = [ns; ni]).
  { intros P l1 HI1 E1 E2. cbn zeta. pose proof (i_ns _ _ HI1) as X1. pose proof (i_ni _ _ HI1) as X2. rewrite E1 in X1. rewrite E2 in X2.
    destruct (meta_nd_par _ _ (i_ms _ _ HI1) X1) as (PS & NS). destruct (meta_nd_par _ _ (i_mi _ _ HI1) X2) as (PI & NI).
    destruct (fresh_both st c _ _ ns ni Hps Hpi Hne Hus Hui PS NS PI NI) as (A & B). cbn zeta in *.
    split; [unfold both; rewrite X1, X2; exact A|]. split; [exact B|]. split; [|unfold names; rewrite E1, E2; reflexivity].
    split; rewrite ?E1, ?E2; auto. }
  destruct e as [|e0 er] eqn:Ee.
  { injection E as <-.
    destruct (Hw (fun _ => False) (init_empty (l_merge l) (l_split l) ns ni now)) as (A & B & C & D); [apply init_inv; assumption|reflexivity|reflexivity|]. cbn zeta in *.
    rewrite evs_store_app, evs_cache_app. split; [apply rep_save; auto|]. split; [|exact D].
    apply within_app; [exact B|]. rewrite <- D. apply save_within, C. }
  rewrite <- Ee in *. clear Ee e0 er.
  destruct (Nat.ltb insert_limit (length e) && negb (is_sorted_elems e)) eqn:Edef.
  - apply andb_true_iff in Edef as (Edef & _). apply Nat.ltb_lt in Edef. destruct (Hsz2 Edef) as (Hs4 & Hwn).
    set (e' := permute sc e) in *. set (size := Nat.max want (l_merge l / 4)) in *.
    assert (Hp : Permutation e' e) by apply permute_perm.
    assert (Hd' : distinct_ids e') by (eapply distinct_ids_perm; [symmetry; exact Hp|exact Hd]).
    assert (Hg' : Forall good e') by (eapply Permutation_Forall; [symmetry; exact Hp|exact Hg]).
    destruct (distinct_split e' insert_limit Hd') as (D1 & D2 & D3).
    rewrite <- (firstn_skipn insert_limit e') in Hg'. apply Forall_app in Hg' as (G1 & G2).
    assert (Hszp : (0 < size)%nat).
    { unfold size. destruct Hwn as [Hw1|Hw1]; [|lia]. assert (0 < l_merge l / 4)%nat by (apply Nat.div_str_pos; lia). lia. }
    assert (Hl1 : N.of_nat (length (firstn insert_limit e')) < max_u32).
    { pose proof (Permutation_length Hp) as HL. rewrite firstn_length. rewrite HL. lia. }
    destruct (populate_now (l_merge l) (l_split l) ns ni now size _ Hms Hszp D1 G1 Hnow Hns Hni Hl1)
      as (parts & scores & ids & iparts & index & x & E1 & E2 & E3 & E4 & HI).
    rewrite E1, E2, E3, E4 in *.
    destruct (skipn insert_limit e') as [|d0 dr] eqn:Esk.
    { exfalso. assert (length (skipn insert_limit e') = 0%nat) by (rewrite Esk; reflexivity).
      rewrite skipn_length, (Permutation_length Hp) in H. lia. }
    rewrite <- Esk in *. set (l1 := mkL (l_merge l) (l_split l) ns ni scores index) in *.
    destruct (insert now sch (skipn insert_limit e') l1) as [l2| | |] eqn:Ei; try discriminate.
    unfold guard_ids in E. destruct (ids_ok l2); [|discriminate]. injection E as <-.
    destruct (Hw _ l1 HI eq_refl eq_refl) as (A & B & C & D). cbn zeta in *.
    destruct (insert_loop_both cfg cfg now sch (want_limit l1) ord _ _ _ _ _ _ (both_raise cfg _ _ _ A) C Ei) as (B' & N' & W' & Q'). cbn zeta in *.
    cbn [l1 l_scores l_index] in A, B, B'. rewrite (app_assoc (put_all false (ss_segs scores))).
    rewrite !(evs_store_app (_ ++ _)), !(evs_cache_app (_ ++ _)).
    split; [apply rep_save; auto|]. split; [|congruence].
    apply within_app; [apply within_app; [exact B|]|].
    + rewrite D in W'. exact W'.
    + rewrite D in Q'. rewrite <- Q'. apply save_within, N'.
  - set (size := ((l_merge l + l_split l) / 2)%nat) in *.
    assert (Hszp : (0 < size)%nat) by (unfold size; apply Nat.div_str_pos; lia).
    destruct (populate_now (l_merge l) (l_split l) ns ni now size _ Hms Hszp Hd Hg Hnow Hns Hni Hlen)
      as (parts & scores & ids & iparts & index & x & E1 & E2 & E3 & E4 & HI).
    rewrite E1, E2, E3, E4 in *.
    set (l1 := mkL (l_merge l) (l_split l) ns ni scores index) in *.
    unfold guard_ids in E. destruct (ids_ok l1); [|discriminate]. injection E as <-.
    destruct (Hw _ l1 HI eq_refl eq_refl) as (A & B & C & D). cbn zeta in *.
    rewrite app_nil_r. cbn [l1 l_scores l_index] in A, B.
    rewrite !(evs_store_app (_ ++ _)), !(evs_cache_app (_ ++ _)).
    split; [apply rep_save; auto; apply both_raise, A|]. split; [|exact D].
    apply within_app; [exact B|]. rewrite <- D. apply save_within, C.
Qed.

Lemma delete_all_within b1 b2 o l : named l -> Forall (fun g => sg_parent g = ss_id (l_scores l)) (ss_segs (l_scores l)) ->
  Forall (fun g => sg_parent g = ss_id (l_index l)) (ss_segs (l_index l)) -> within (delete_all_evs o b1 b2 l) (names l).
Proof.
  intros [M1 M2 _ _ _] P1 P2. unfold delete_all_evs. apply within_app.
  - eapply within_one; [apply delete_names, P1|]. rewrite M1. cbn. auto.
  - eapply within_one; [apply delete_names, P2|]. rewrite M2. cbn. auto.
Qed.

Lemma clone_rep cfg st c P l' merge split ns ni now org : Inv P l' -> clone_elements merge split ns ni now org = Done l' ->
  plain ns -> plain ni -> ns <> ni -> unused c ns -> unused c ni ->
  let es := clone_evs l' in
  rep cfg false false (evs_store es st) (evs_cache es c) l' /\ within es [ns; ni] /\ names l' = [ns; ni].
Proof.
  intros HI E Hps Hpi Hne Hus Hui. cbn zeta.
  assert (EN : l_scores_id l' = ns /\ l_index_id l' = ni).
  { unfold clone_elements in E. destruct (split_size _ _) as [parts|]; [|discriminate].
    destruct (new_segments_elements ni now parts true). unfold guard_ids in E. destruct (ids_ok _); [|discriminate].
    injection E as <-. cbn. auto. }
  destruct EN as (E1 & E2). pose proof (i_ns _ _ HI) as X1. pose proof (i_ni _ _ HI) as X2. rewrite E1 in X1. rewrite E2 in X2.
  destruct (meta_nd_par _ _ (i_ms _ _ HI) X1) as (PS & NS). destruct (meta_nd_par _ _ (i_mi _ _ HI) X2) as (PI & NI).
  destruct (fresh_both st c _ _ ns ni Hps Hpi Hne Hus Hui PS NS PI NI) as (A & B). cbn zeta in *.
  assert (HN : named l') by (split; rewrite ?E1, ?E2; auto).
  assert (D : names l' = [ns; ni]) by (unfold names; rewrite E1, E2; reflexivity).
  unfold clone_evs. rewrite app_assoc. rewrite (evs_store_app (_ ++ _)), (evs_cache_app (_ ++ _)).
  split; [apply rep_save; auto; unfold both; rewrite X1, X2; exact A|]. split; [|exact D].
  apply within_app; [exact B|]. rewrite <- D. apply save_within, HN.
Qed.
