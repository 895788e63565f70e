(** Which keys a call on a list leaves in the store. *)
From Coq Require Import Strings.String Strings.Ascii.
From Verif.Lib Require Import Prelude ListAux ListLemmas Perm Bytes.
From Verif.Model Require Import Element Elements Segment List Keys Storage.
From Verif.Spec Require Import RankSpec QuerySpec HistorySpec KeySpec CodecSpec StorageSpec TidySpec.
From Verif.Proof Require Import ElementP ElementsP SegP InvDef KeysP ChangeP UpdateP UpdateInv DeleteP InsertP BuildP BuildInv RepairP SplitP IdxUpdP SplitInv HistoryP StoreP StoreOps StoreBuild StoreWorld TidyP.
Open Scope N_scope.

Definition pars (l : lst) : Prop := Forall (fun g => sg_parent g = l_scores_id l) (ss_segs (l_scores l)) /\ Forall (fun g => sg_parent g = l_index_id l) (ss_segs (l_index l)).
Lemma rep_pars2 cfg hs hi st c l : rep cfg hs hi st c l -> pars l.
Proof. intros H. destruct (rep_pars _ _ _ _ _ _ H) as (A & B). destruct (r_named _ _ _ _ _ _ H) as [N1 N2 _ _ _]. rewrite N1 in A. rewrite N2 in B. split; assumption. Qed.

(** ** calls that write segments where they are *)
Lemma update_puts cfg hs hi st c P l ord clk clki now sc elems : Inv P l -> rep cfg hs hi st c l ->
  batch_ok elems -> clock_ok clk -> clock_ok clki -> 0 < now < max_u32 ->
  let l' := update_elements clk clki now sc elems l in
  puts_of (update_evs ord hs hi clk clki now sc elems l) l' /\ same_ids l l'.
Proof.
  intros HI HR Hb Hc Hci Hnow. cbn zeta.
  destruct (update_full P l clk clki now sc elems HI Hb Hc Hci Hnow) as (_ & K1 & K2). cbn zeta in *.
  destruct (update_rep cfg hs hi st c P l ord clk clki now sc elems HI HR Hb Hc Hci Hnow) as (HR' & _ & Hnm). cbn zeta in *.
  destruct (rep_pars2 _ _ _ _ _ _ HR') as (P1 & P2). unfold update_evs.
  destruct (update_core clk clki sc elems l) as ((ss & is) & (ts & ti)). split.
  - apply puts_of_app; [apply puts_of_index, P2|]. apply puts_of_app; [apply puts_of_scores, P1|apply puts_of_save].
  - split; [exact Hnm|]. split; [eapply kept_ids, K1|eapply kept_ids, K2].
Qed.

Lemma delete_puts cfg hs hi st c l ord now sc1 sc2 ids : rep cfg hs hi st c l ->
  let l' := delete_elements now sc1 sc2 ids l in
  puts_of (delete_elements_evs ord hs hi now sc1 sc2 ids l) l' /\ same_ids l l'.
Proof.
  intros HR. cbn zeta. destruct (delete_rep cfg hs hi st c l ord now sc1 sc2 ids HR) as (HR' & _ & Hnm). cbn zeta in *.
  destruct (rep_pars2 _ _ _ _ _ _ HR') as (P1 & P2).
  assert (HS : same_ids l (delete_elements now sc1 sc2 ids l) /\
    ss_segs (fst (delete_elements_idx now sc2 (l_scores l) (get_index_elements sc1 l ids))) = ss_segs (l_scores (delete_elements now sc1 sc2 ids l))).
  { unfold same_ids. rewrite Hnm. unfold delete_elements. destruct (delete_idx_kept now sc2 (l_scores l) (get_index_elements sc1 l ids)) as (K1 & _ & _).
    destruct (delete_elements_idx now sc2 (l_scores l) (get_index_elements sc1 l ids)) as (s' & deleted). cbn [fst] in *.
    rewrite reindex_segs in K1. destruct deleted as [|d0 dr]; (split; [split; [reflexivity|split]|]); cbn [set_both l_scores l_index set_segs ss_segs]; try reflexivity;
      try (eapply kept_ids, K1).
    destruct (delete_sorted_kept now (ss_segs (l_index l)) (d0 :: dr)) as (K2 & _). eapply kept_ids, K2. }
  destruct HS as (HS & Es). split; [|exact HS]. unfold delete_elements_evs.
  destruct (delete_elements_idx now sc2 (l_scores l) (get_index_elements sc1 l ids)) as (s' & deleted). cbn [fst] in *. rewrite Es.
  apply puts_of_app; [apply puts_of_scores, P1|]. apply puts_of_app; [|apply puts_of_save].
  destruct deleted; [apply puts_of_nil|apply puts_of_index, P2].
Qed.

Lemma insert_one_puts hs hi l ord now sc e : named l -> pars l ->
  let l' := insert_one now sc l e in
  puts_of (insert_one_evs ord hs hi now sc l e) l' /\ same_ids l l' /\ named l' /\ pars l'.
Proof.
  intros HN (R1 & R2). cbn zeta. unfold insert_one_evs, insert_one, segs_insert.
  destruct (insert_sorted_kept now (ss_segs (l_scores l)) (sort_elems (sort_elems e))) as (K1 & P1).
  destruct (insert_sorted now (ss_segs (l_scores l)) (sort_elems (sort_elems e))) as (s' & ixs). cbn [fst] in *.
  set (ix := sort_elems (concat (permute sc ixs))).
  destruct (insert_sorted_kept now (ss_segs (l_index l)) (sort_elems (sort_elems ix))) as (K2 & P2).
  destruct (insert_sorted now (ss_segs (l_index l)) (sort_elems (sort_elems ix))) as (i' & x). cbn [fst] in *.
  pose proof (parents_Forall _ _ _ P1 R1) as Q1. pose proof (parents_Forall _ _ _ P2 R2) as Q2.
  set (l' := set_both l (set_segs (l_scores l) s') (set_segs (l_index l) i')).
  assert (HN' : named l') by (apply set_both_named; auto).
  assert (En : names l' = names l) by (apply set_both_names; auto). pose proof HN as [M1 M2 _ _ _].
  assert (E1 : l_scores_id l' = l_scores_id l) by exact M1. assert (E2 : l_index_id l' = l_index_id l) by exact M2.
  assert (HP : pars l') by (split; [rewrite E1; exact Q1|rewrite E2; exact Q2]).
  split; [|split; [|split; [exact HN'|exact HP]]].
  - apply puts_of_app; [apply puts_of_scores, HP|apply puts_of_index, HP].
  - split; [exact En|]. split; [apply (kept_ids _ _ _ K1)|apply (kept_ids _ _ _ K2)].
Qed.
Lemma insert_loop_puts hs hi now sch limit ord : forall fuel e l l', named l -> pars l ->
  insert_loop fuel limit now sch e l = Done l' ->
  puts_of (insert_loop_evs fuel limit ord hs hi now sch e l) l' /\ same_ids l l'.
Proof.
  induction fuel as [|f IH]; intros e l l' HN HP E; cbn [insert_loop insert_loop_evs] in *.
  - destruct (Nat.ltb limit (length e)); [discriminate|]. injection E as <-. destruct (insert_one_puts hs hi l (ord (length e)) now (sch (length e)) e HN HP) as (A & B & _). auto.
  - destruct (Nat.ltb limit (length e)); [|injection E as <-; destruct (insert_one_puts hs hi l (ord (length e)) now (sch (length e)) e HN HP) as (A & B & _); auto].
    destruct (insert_one_puts hs hi l (ord (length e)) now (sch (length e)) (firstn limit e) HN HP) as (A & B & C & D). cbn zeta in *.
    destruct (IH _ _ _ C D E) as (A2 & B2). split; [|eapply same_trans; eauto].
    apply puts_of_app; [|exact A2]. intros h s H. specialize (A h s H). destruct B2 as (X & Y & Z). unfold names in X. injection X as X1 X2. rewrite X1, X2, Y, Z. exact A.
Qed.

(** ** split *)
Lemma split_cov F cfg hs hi st c P l l' ord merge now : Inv P l -> 0 < now < max_u32 -> rep cfg hs hi st c l ->
  split_pass merge now l = Done l' -> cov2 F st l -> cov2 F (evs_store (split_evs ord hs hi merge now l) st) l'.
Proof.
  intros HI Hnow HR E (B1 & B2). pose proof (rep_pars2 _ _ _ _ _ _ HR) as (_ & Pi). destruct HR as [_ _ _ HN _].
  unfold split_evs. pose proof E as E0. unfold split_pass in E.
  pose proof HN as [M1 M2 M3 M4 M5].
  destruct (i_core _ _ HI) as (Q & HCo).
  destruct (split_loop_segs (length (ss_segs (l_scores l))) false merge (l_merge l) (l_split l) now 0 (ss_segs (l_scores l)) (ss_next (l_scores l)) [] false)
    as [(((ss & nx) & us) & upd)| | |] eqn:E1; try discriminate.
  set (xs := update_index_elements now us (ss_segs (l_index l))) in *.
  destruct (split_loop_segs (length xs) true true (l_merge l) (l_split l) now 0 xs (ss_next (l_index l)) [] upd)
    as [(((is & nxi) & us2) & updi)| | |] eqn:E2; try discriminate.
  unfold guard_ids, ids_ok in E. cbn [set_both l_scores l_index ss_next] in E.
  destruct ((nx <=? 4294967296) && (nxi <=? 4294967296)) eqn:EG; [|discriminate]. apply andb_true_iff in EG as (EG1 & EG2).
  injection E as E.
  assert (Hps : 0 < ss_next (l_scores l)) by (eapply meta_next_pos; [apply HI|apply HCo]).
  assert (Hpi : 0 < ss_next (l_index l)) by (eapply meta_next_pos; [apply HI|apply HCo]).
  assert (K0 : sok false (l_scores_id l) P (ss_segs (l_scores l)) (ss_next (l_scores l))).
  { rewrite <- M1. apply meta_sok; [apply HI|apply HCo|discriminate]. }
  destruct (split_mid P merge now l HI Hnow _ _ _ _ E1) as (Q' & K2); [lia|]. fold xs in K2. rewrite M2 in K2.
  (* the names of the two loops' writes *)
  assert (NL : forall h b nm PP l0 nx0 us0 up0 r n1 u1 p1 fuel i, sok b nm PP l0 nx0 -> 0 < nx0 -> plain nm ->
    forall mg, split_loop_segs fuel b mg (l_merge l) (l_split l) now i l0 nx0 us0 up0 = Done (r, n1, u1, p1) ->
    forall e, In e (split_loop_evs fuel h b mg (l_merge l) (l_split l) now i l0 nx0) -> ev_name e = nm).
  { intros h b nm PP l0 nx0 us0 up0 r n1 u1 p1 fuel i HK Hx Hpl mg EE.
    assert (Hpa : Forall (fun t => sg_parent t = nm) l0) by (eapply Forall_impl; [|apply (k_meta _ _ _ _ _ HK)]; unfold seg_meta; tauto).
    (* a store that holds the segments: split_loop_coll gives the names *)
    assert (HC0 : coll false (evs_store (Storage.put_all false l0) (fun _ => None)) (evs_cache (Storage.put_all false l0) (fun _ => None)) nm l0).
    { apply coll_put_all; auto; [intros id; reflexivity|apply HK]. }
    destruct h.
    - destruct (split_loop_coll true _ _ _ _ _ _ _ Hnow Hpl _ _ _ _ _ _ _ _ _ _ _ _ Hx HK EE (coll_raise true _ _ _ _ HC0)) as (_ & W & _). exact W.
    - destruct (split_loop_coll false _ _ _ _ _ _ _ Hnow Hpl _ _ _ _ _ _ _ _ _ _ _ _ Hx HK EE HC0) as (_ & W & _). exact W. }
  pose proof (NL hs _ _ _ _ _ _ _ _ _ _ _ _ _ K0 Hps M3 _ E1) as W1.
  pose proof (NL hi _ _ _ _ _ _ _ _ _ _ _ _ _ K2 Hpi M4 _ E2) as W3. clear NL.
  destruct (update_index_kept now us (ss_segs (l_index l))) as (K & Pa). fold xs in K, Pa.
  assert (Px : Forall (fun g => sg_parent g = l_index_id l) xs) by (eapply parents_Forall; [exact Pa|exact Pi]).
  set (es1 := split_loop_evs (length (ss_segs (l_scores l))) hs false merge (l_merge l) (l_split l) now 0 (ss_segs (l_scores l)) (ss_next (l_scores l))) in *.
  set (es2 := puts hi xs (permute (ord 0%nat) (updated_idx us (ss_segs (l_index l))))) in *.
  set (es3 := split_loop_evs (length xs) hi true true (l_merge l) (l_split l) now 0 xs (ss_next (l_index l))) in *.
  assert (W2 : forall e, In e es2 -> ev_name e = l_index_id l) by (apply puts_names, Px).
  assert (Y1 : plain_evs es1) by (apply names_plain with (l_scores_id l); assumption).
  assert (Y2 : plain_evs es2) by (apply names_plain with (l_index_id l); assumption).
  assert (Y3 : plain_evs es3) by (apply names_plain with (l_index_id l); assumption).
  pose proof (split_loop_cov F hs _ _ _ _ _ _ _ Hnow M3 _ _ _ _ _ _ _ _ _ _ st Hps K0 E1 B1) as C1. fold es1 in C1.
  assert (D1 : cov F (evs_store es1 st) (l_index_id l) (ss_segs (l_index l))) by (apply cov_frame; [exact Y1|intros e He; rewrite (W1 e He); exact M5|exact B2]).
  assert (D2 : cov F (evs_store es2 (evs_store es1 st)) (l_index_id l) xs).
  { apply cov_evs with (ss_segs (l_index l)); [exact Y2|exact D1| |].
    - intros h s H _. apply puts_In in H as (i & s0 & _ & Hn & X). injection X as _ ->. apply nth_error_In in Hn. apply in_map, Hn.
    - intros id Hid. left. rewrite (kept_ids _ _ _ K). exact Hid. }
  pose proof (split_loop_cov F hi _ _ _ _ _ _ _ Hnow M4 _ _ _ _ _ _ _ _ _ _ _ Hpi K2 E2 D2) as D3. fold es3 in D3.
  assert (C3 : cov F (evs_store es3 (evs_store es2 (evs_store es1 st))) (l_scores_id l) ss).
  { apply cov_frame; [exact Y3|intros e He; rewrite (W3 e He); congruence|].
    apply cov_frame; [exact Y2|intros e He; rewrite (W2 e He); congruence|exact C1]. }
  assert (HN' : named l') by (rewrite <- E; apply set_both_named; auto).
  assert (Hnm : names l' = names l) by (rewrite <- E; apply set_both_names; auto).
  assert (HB' : cov2 F (evs_store es3 (evs_store es2 (evs_store es1 st))) l').
  { unfold cov2. unfold names in Hnm. injection Hnm as -> ->. rewrite <- E. cbn [set_both l_scores l_index ss_id ss_segs]. split; assumption. }
  rewrite !evs_store_app. assert (Hsave : cov2 F (evs_store (save_evs l') (evs_store es3 (evs_store es2 (evs_store es1 st)))) l').
  { apply cov2_same with l'; auto; [|apply puts_of_save|apply same_refl]. destruct HN' as [X1 X2 X3 X4 _].
    constructor; [cbn; rewrite X1; exact X3|]. constructor; [cbn; rewrite X2; exact X4|constructor]. }
  destruct updi; [rewrite E0|]; assumption.
Qed.

(** ** new lists, and lists that are deleted *)
Lemma inv_pars P l : Inv P l -> pars l.
Proof. intros HI. split; apply meta_par; apply HI. Qed.

Lemma built_puts ns ni now sc sch want e l l' ord cfg : (l_merge l < l_split l)%nat ->
  size_safe (l_merge l) (l_split l) want (length e) ->
  distinct_ids e -> Forall good e -> 0 < now < max_u32 -> plain ns -> plain ni -> ns <> ni ->
  N.of_nat (length e) < max_u32 ->
  populate ns ni now sc sch want e l = Done l' ->
  puts_of (built_evs ord cfg ns ni now sc sch want e l l') l'.
Proof.
  intros Hms (Hsz1 & Hsz2) Hd Hg Hnow Hps Hpi Hne Hlen E.
  assert (Hns : ns <> ""%string) by apply Hps. assert (Hni : ni <> ""%string) by apply Hpi.
  unfold populate in E. unfold built_evs.
  apply puts_of_app; [|apply puts_of_save].
  assert (Hw : forall P l1, Inv P l1 -> puts_of (Storage.put_all false (ss_segs (l_scores l1)) ++ Storage.put_all false (ss_segs (l_index l1))) l1).
  { intros P l1 HI1. destruct (inv_pars _ _ HI1) as (A & B). apply puts_of_app; [apply puts_of_all_s, A|apply puts_of_all_i, B]. }
  destruct e as [|e0 er] eqn:Ee.
  { injection E as <-. apply (Hw (fun _ => False)), init_inv; assumption. }
  rewrite <- Ee in *. clear Ee e0 er.
  destruct (Nat.ltb insert_limit (length e) && negb (is_sorted_elems e)) eqn:Edef.
  - apply andb_true_iff in Edef as (Edef & _). apply Nat.ltb_lt in Edef. destruct (Hsz2 Edef) as (Hs4 & Hwn).
    set (e' := permute sc e) in *. set (size := Nat.max want (l_merge l / 4)) in *.
    assert (Hp : Permutation e' e) by apply permute_perm.
    assert (Hd' : distinct_ids e') by (eapply distinct_ids_perm; [symmetry; exact Hp|exact Hd]).
    assert (Hg' : Forall good e') by (eapply Permutation_Forall; [symmetry; exact Hp|exact Hg]).
    destruct (distinct_split e' insert_limit Hd') as (D1 & D2 & D3).
    rewrite <- (firstn_skipn insert_limit e') in Hg'. apply Forall_app in Hg' as (G1 & G2).
    assert (Hszp : (0 < size)%nat).
    { unfold size. destruct Hwn as [Hw1|Hw1]; [|lia]. assert (0 < l_merge l / 4)%nat by (apply Nat.div_str_pos; lia). lia. }
    assert (Hl1 : N.of_nat (length (firstn insert_limit e')) < max_u32).
    { pose proof (Permutation_length Hp) as HL. rewrite firstn_length. rewrite HL. lia. }
    destruct (populate_now (l_merge l) (l_split l) ns ni now size _ Hms Hszp D1 G1 Hnow Hns Hni Hl1)
      as (parts & scores & ids & iparts & index & x & E1 & E2 & E3 & E4 & HI).
    rewrite E1, E2, E3, E4 in *.
    destruct (skipn insert_limit e') as [|d0 dr] eqn:Esk.
    { exfalso. assert (length (skipn insert_limit e') = 0%nat) by (rewrite Esk; reflexivity).
      rewrite skipn_length, (Permutation_length Hp) in H. lia. }
    rewrite <- Esk in *. set (l1 := mkL (l_merge l) (l_split l) ns ni scores index) in *.
    destruct (insert now sch (skipn insert_limit e') l1) as [l2| | |] eqn:Ei; try discriminate.
    unfold guard_ids in E. destruct (ids_ok l2); [|discriminate]. injection E as <-.
    assert (HN1 : named l1) by (split; cbn [l1 l_scores l_index l_scores_id l_index_id]; auto; apply HI).
    destruct (insert_loop_puts cfg cfg now sch (want_limit l1) ord _ _ _ _ HN1 (inv_pars _ _ HI) Ei) as (A & B).
    rewrite app_assoc. apply puts_of_app; [|exact A].
    intros h s H. specialize (Hw _ l1 HI h s H). destruct B as (X & Y & Z). unfold names in X. injection X as X1 X2. rewrite X1, X2, Y, Z. exact Hw.
  - set (size := ((l_merge l + l_split l) / 2)%nat) in *.
    assert (Hszp : (0 < size)%nat) by (unfold size; apply Nat.div_str_pos; lia).
    destruct (populate_now (l_merge l) (l_split l) ns ni now size _ Hms Hszp Hd Hg Hnow Hns Hni Hlen)
      as (parts & scores & ids & iparts & index & x & E1 & E2 & E3 & E4 & HI).
    rewrite E1, E2, E3, E4 in *.
    set (l1 := mkL (l_merge l) (l_split l) ns ni scores index) in *.
    unfold guard_ids in E. destruct (ids_ok l1); [|discriminate]. injection E as <-.
    rewrite app_nil_r. apply (Hw _ l1 HI).
Qed.

(** every segment of [l] is deleted and none written *)
Lemma bare_dels F es st n l : plain_evs es -> cov F st n l -> (forall h s, In (EPut h s) es -> sg_parent s <> n) ->
  (forall s, In s l -> exists h, In (EDel h s) es) -> Forall (fun s => sg_parent s = n) l -> bare_of F (evs_store es st) n.
Proof.
  intros Hp Hc Hput Hdel Hpar. apply bare_cov. apply cov_evs with l; [exact Hp|exact Hc| |].
  - intros h s H Hs. exfalso. eapply Hput; eauto.
  - intros id Hid. right. apply in_map_iff in Hid as (s & <- & Hs). destruct (Hdel s Hs) as (h & Hin). exists h, s. rewrite Forall_forall in Hpar. auto.
Qed.
Lemma delete_evs_dels h o s g : In g (ss_segs s) -> In (EDel h g) (delete_evs h o s).
Proof. intros H. unfold delete_evs. apply in_or_app. left. apply permute_In, in_map, H. Qed.
Lemma delete_evs_no_put h o s h' g : ~ In (EPut h' g) (delete_evs h o s).
Proof.
  unfold delete_evs. intros H. apply in_app_iff in H as [H|[H|[]]]; [|discriminate]. apply permute_In in H. apply in_map_iff in H as (x & X & _). discriminate.
Qed.

Lemma op_cov F cfg hs hi st c g s m l o l' ord : at_map g s l m -> op_ok g s m o -> step l o = Done l' -> o <> OReload ->
  rep cfg hs hi st c l ->
  Forall (fun n => plain n /\ ~ In n (names l) /\ unused c n) (new_names o) -> NoDup (new_names o) ->
  cov2 F st l -> Forall (bare_of F st) (new_names o) ->
  let st' := evs_store (op_evs ord cfg hs hi l o l') st in
  cov2 F st' l' /\ forall n, In n (names l) -> ~ In n (names l') -> bare_of F st' n.
Proof.
  intros HA Hok E Hr HR Hnew Hnd HC Hb. cbn zeta. pose proof HA as (HI & HM & HS).
  destruct (op_rep cfg hs hi st c g s m l o l' ord HA Hok E Hr HR Hnew Hnd) as (HR' & W & _ & Hsame). cbn zeta in *.
  pose proof (r_named _ _ _ _ _ _ HR) as HN. pose proof (r_named _ _ _ _ _ _ HR') as HN'. pose proof (rep_pars2 _ _ _ _ _ _ HR) as (P1 & P2).
  assert (Hp : plain_evs (op_evs ord cfg hs hi l o l')).
  { eapply within_plain; [exact W|]. apply Forall_app. split; apply names_plain2; assumption. }
  assert (HI' : Inv (sin (spec_step m o)) l').
  { destruct (step_ok g s l m o HA Hok) as [C|(l2 & E2 & H & _)]; congruence. }
  assert (Same : new_names o = [] -> puts_of (op_evs ord cfg hs hi l o l') l' /\ same_ids l l' ->
    cov2 F (evs_store (op_evs ord cfg hs hi l o l') st) l' /\ forall n, In n (names l) -> ~ In n (names l') -> bare_of F (evs_store (op_evs ord cfg hs hi l o l') st) n).
  { intros X (A & B). split; [apply cov2_same with l; assumption|]. rewrite (Hsame X). intros n C D. contradiction. }
  assert (Bld : forall ns ni now sc sch want e, Forall (fun n => plain n /\ ~ In n (names l) /\ unused c n) [ns; ni] -> NoDup [ns; ni] ->
    Forall (bare_of F st) [ns; ni] -> plain_evs (delete_all_evs (ord 0%nat) hs hi l ++ built_evs ord cfg ns ni now sc sch want e l l') ->
    build_sizes (l_merge l) (l_split l) want (length e) -> distinct_ids e -> Forall good e -> tick now -> N.of_nat (length e) < max_u32 ->
    populate ns ni now sc sch want e l = Done l' ->
    let es := delete_all_evs (ord 0%nat) hs hi l ++ built_evs ord cfg ns ni now sc sch want e l l' in
    cov2 F (evs_store es st) l' /\ forall n, In n (names l) -> ~ In n (names l') -> bare_of F (evs_store es st) n).
  { intros ns ni now sc sch want e Hw Hd Hbb Hpp Hsz He Hg Hnow Hlen Ep. cbn zeta.
    assert (Hne : ns <> ni) by (intros C; subst; apply NoDup_cons_iff in Hd as (Hd & _); apply Hd; left; reflexivity).
    pose proof Hw as Hw'. apply Forall_cons_iff in Hw' as ((Q1 & F1 & U1) & Hw'). apply Forall_cons_iff in Hw' as ((Q2 & F2 & U2) & _).
    assert (Hput : puts_of (built_evs ord cfg ns ni now sc sch want e l l') l').
    { apply built_puts; auto. apply HI. }
    destruct (rep_pars _ _ _ _ _ _ HR) as (X1 & X2).
    pose proof (delete_all_within hs hi (ord 0%nat) l HN X1 X2) as Wd.
    destruct (built_rep cfg (evs_store (delete_all_evs (ord 0%nat) hs hi l) st) (evs_cache (delete_all_evs (ord 0%nat) hs hi l) c) ns ni now sc sch want e l l' ord) as (_ & Wb & Nb);
      auto; try (eapply within_unused; eauto); [apply HI|]. cbn zeta in *.
    pose proof Nb as Nb'. unfold names in Nb'. injection Nb' as N1 N2.
    assert (Hput2 : puts_of (delete_all_evs (ord 0%nat) hs hi l ++ built_evs ord cfg ns ni now sc sch want e l l') l').
    { apply puts_of_app; [|exact Hput]. intros h x Hin. exfalso. unfold delete_all_evs in Hin. apply in_app_iff in Hin as [Hin|Hin]; eapply delete_evs_no_put; eauto. }
    apply Forall_cons_iff in Hbb as (Y1 & Hbb). apply Forall_cons_iff in Hbb as (Y2 & _).
    split; [apply cov2_new; rewrite ?N1, ?N2; auto|].
    intros n Hin Hout.
    assert (Hnp : forall h x, In (EPut h x) (delete_all_evs (ord 0%nat) hs hi l ++ built_evs ord cfg ns ni now sc sch want e l l') -> sg_parent x <> n).
    { intros h x Hx C. apply Hout. destruct (Hput2 h x Hx) as [(Z & _)|(Z & _)]; rewrite <- C, Z; cbn; auto. }
    destruct HC as (C1 & C2). destruct Hin as [<-|[<-|[]]].
    - apply bare_dels with (ss_segs (l_scores l)); auto. intros x Hx. exists hs. apply in_or_app. left. unfold delete_all_evs. apply in_or_app. left. apply delete_evs_dels, Hx.
    - apply bare_dels with (ss_segs (l_index l)); auto. intros x Hx. exists hi. apply in_or_app. left. unfold delete_all_evs. apply in_or_app. right. apply delete_evs_dels, Hx. }
  destruct o as [clk clki now sc e|now sch e|now sc1 sc2 ids|mg now|ni now sc|ns ni now scd sca sc sch want|ns ni now sc sch want e|];
    cbn [op_ok step op_evs new_names] in *.
  - apply Same; [reflexivity|]. injection E as <-. destruct Hok as (Hd & Hg & Hc & Hci & Hnow). eapply (update_puts cfg hs hi st c (sin m)); eauto. split; assumption.
  - apply Same; [reflexivity|]. unfold insert in E. destruct (insert_loop_puts hs hi now sch (want_limit l) ord _ _ _ _ HN (rep_pars2 _ _ _ _ _ _ HR) E) as (A & B).
    split; [|exact B]. apply puts_of_app; [exact A|apply puts_of_save].
  - apply Same; [reflexivity|]. injection E as <-. eapply delete_puts; eauto.
  - split; [eapply split_cov; eauto|]. rewrite (Hsame eq_refl). intros n C D. contradiction.
  - apply Forall_cons_iff in Hnew as ((Q1 & F1 & U1) & _). apply Forall_cons_iff in Hb as (B1 & _).
    destruct (reindex_rep cfg hs hi st c (sin m) l l' (ord 0%nat) ni now sc HI HR HI' E Q1 F1 U1) as (_ & _ & Nm). cbn zeta in *.
    assert (EL : l_scores l' = l_scores l).
    { unfold reindex_list in E. destruct (split_size _ _) as [parts|]; [|discriminate].
      destruct (new_segments_elements ni now parts true) as (index & x).
      unfold guard_ids in E. destruct (ids_ok _); [|discriminate]. injection E as <-. reflexivity. }
    pose proof Nm as Nm'. unfold names in Nm'. injection Nm' as N1 N2. destruct (inv_pars _ _ HI') as (_ & PI').
    assert (Hput : forall h x, In (EPut h x) (reindex_evs (ord 0%nat) hi l l') -> sg_parent x = ni /\ In (sg_id x) (map sg_id (ss_segs (l_index l')))).
    { intros h x Hin. unfold reindex_evs in Hin. apply in_app_iff in Hin as [Hin|Hin].
      - apply in_map_iff in Hin as (y & Y & Hy). injection Y as _ ->. split; [|apply in_map, Hy]. rewrite <- N2. rewrite Forall_forall in PI'. apply PI', Hy.
      - exfalso. apply in_app_iff in Hin as [[Hin|[]]|Hin]; [discriminate|]. apply in_app_iff in Hin as [Hin|Hin]; [eapply delete_evs_no_put; eauto|].
        destruct Hin as [Hin|[Hin|[]]]; discriminate. }
    destruct HC as (C1 & C2). split; [split|].
    + rewrite N1, EL. apply cov_evs with (ss_segs (l_scores l)); auto. intros h x Hx Hs. exfalso. destruct (Hput h x Hx) as (A & _). apply F1. rewrite <- A, Hs. cbn. auto.
    + rewrite N2. apply cov_evs with []; [exact Hp|apply bare_cov, B1| |intros id []]. intros h x Hx _. apply (Hput h x Hx).
    + intros n Hin Hout. rewrite Nm in Hout. destruct Hin as [<-|[<-|[]]]; [exfalso; apply Hout; left; reflexivity|].
      apply bare_dels with (ss_segs (l_index l)); auto.
      * intros h x Hx C. destruct (Hput h x Hx) as (A & _). apply Hout. right. left. congruence.
      * intros x Hx. exists hi. unfold reindex_evs. apply in_or_app. right. apply in_or_app. right. apply in_or_app. left. apply delete_evs_dels, Hx.
  - destruct Hok as (_ & _ & Hnow & Hlen).
    destruct (Hlen (contents l) (contents_ranking _ _ HI)) as (H1 & H2). unfold contents in *. rewrite <- HM, <- HS in H2.
    destruct (repair_elements_spec (fun _ => true) scd sca (ss_segs (l_scores l))) as (D1 & D2 & _).
    pose proof (repair_length (fun _ => true) scd sca (ss_segs (l_scores l))) as HL.
    apply Bld; auto; [| |lia].
    + destruct H2 as (H2 & H3). split; [exact H2|]. intros C. apply H3. eapply Nat.lt_le_trans; [exact C|exact HL].
    + apply Forall_forall. intros x Hx. apply D2 in Hx as (i & t & Hi & _ & Hx). destruct (i_core _ _ HI) as (Q & HCc).
      apply (so_good _ _ (c_s _ _ _ _ HCc)). eapply score_ok_seg; [apply HCc|eapply nth_error_In; eauto|exact Hx].
  - destruct Hok as (_ & _ & Hnow & Hd & Hg & Hlen & Hsz). rewrite <- HM, <- HS in Hsz. apply Bld; auto.
  - contradiction.
Qed.

Lemma clone_puts P l' : Inv P l' -> puts_of (clone_evs l') l'.
Proof.
  intros HI. destruct (inv_pars _ _ HI) as (A & B). unfold clone_evs. apply puts_of_app; [apply puts_of_all_s, A|].
  apply puts_of_app; [apply puts_of_all_i, B|apply puts_of_save].
Qed.
Lemma delete_all_bare F hs hi ord l st : named l -> pars l -> cov2 F st l ->
  forall n, In n (names l) -> bare_of F (evs_store (delete_all_evs ord hs hi l) st) n.
Proof.
  intros HN (P1 & P2) (C1 & C2) n Hn. pose proof HN as [N1 N2 N3 N4 N5].
  assert (Hp : plain_evs (delete_all_evs ord hs hi l)).
  { eapply within_plain; [apply delete_all_within; [exact HN|rewrite N1; exact P1|rewrite N2; exact P2]|]. apply names_plain2, HN. }
  assert (Hnp : forall h x, In (EPut h x) (delete_all_evs ord hs hi l) -> sg_parent x <> n).
  { intros h x Hx. exfalso. unfold delete_all_evs in Hx. apply in_app_iff in Hx as [Hx|Hx]; eapply delete_evs_no_put; eauto. }
  destruct Hn as [<-|[<-|[]]].
  - apply bare_dels with (ss_segs (l_scores l)); auto. intros x Hx. exists hs. unfold delete_all_evs. apply in_or_app. left. apply delete_evs_dels, Hx.
  - apply bare_dels with (ss_segs (l_index l)); auto. intros x Hx. exists hi. unfold delete_all_evs. apply in_or_app. right. apply delete_evs_dels, Hx.
Qed.
