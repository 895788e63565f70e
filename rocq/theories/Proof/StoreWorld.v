(** Lists over one store and cache: what is read back, and that every call keeps it so. *)
From Coq Require Import Strings.String Strings.Ascii.
From Verif.Lib Require Import Prelude ListAux ListLemmas Perm Bytes.
From Verif.Model Require Import Element Elements Segment List Msgp Codec Keys Storage.
From Verif.Spec Require Import RankSpec QuerySpec HistorySpec KeySpec CodecSpec StorageSpec.
From Verif.Proof Require Import ElementP ElementsP SegP InvDef KeysP MsgpP CodecP ChangeP UpdateP UpdateInv DeleteP InsertP BuildP BuildInv RepairP SplitP IdxUpdP SplitInv HistoryP QueryP ListThm StoreP StoreOps StoreBuild.
Open Scope N_scope.

(** ** reading back *)
Definition bare_seg (s : seg) : seg := set_elems (fun _ => []) s.
Definition bare_segs (s : segs) : segs := set_segs s (map bare_seg (ss_segs s)).
Definition bare (l : lst) : lst := mkL (l_merge l) (l_split l) (l_scores_id l) (l_index_id l) (bare_segs (l_scores l)) (bare_segs (l_index l)).

Lemma bare_fields s t : bare_seg s = bare_seg t -> sg_id s = sg_id t /\ sg_parent s = sg_parent t /\ forall e, set_elems (fun _ => e) s = set_elems (fun _ => e) t.
Proof. unfold bare_seg, set_elems. intros E. injection E as -> -> -> -> -> -> -> ->. auto. Qed.
Lemma bare_segs_fields s t : bare_segs s = bare_segs t ->
  ss_id s = ss_id t /\ ss_next s = ss_next t /\ ss_index s = ss_index t /\ ss_idx s = ss_idx t /\ map bare_seg (ss_segs s) = map bare_seg (ss_segs t).
Proof. unfold bare_segs, set_segs. intros E. injection E as E1 E2 E3 E4 E5. auto. Qed.

Lemma read_blob_blob s : elements_fit (sg_elems s) -> read_blob (blob s) = Some (sg_elems s).
Proof.
  intros H. unfold read_blob, blob. rewrite version_reads by reflexivity. rewrite N.eqb_refl.
  pose proof (elements_reads _ H []) as E. rewrite app_nil_r in E. rewrite E. reflexivity.
Qed.
Lemma fetch_held h st c t s : held st c s -> elements_fit (sg_elems s) -> bare_seg t = bare_seg s -> fetch_seg h c st t = Some s.
Proof.
  intros (A & B) Hf E. destruct (bare_fields _ _ E) as (E1 & E2 & E3).
  assert (Ek : key_of t = key_of s) by (unfold key_of; rewrite E1, E2; reflexivity).
  assert (Ec : ckey_of t = ckey_of s) by (unfold ckey_of; rewrite E1, E2; reflexivity).
  unfold fetch_seg, read_elems, read_stored. rewrite Ek, Ec, A, (read_blob_blob s Hf).
  assert (R : match (if h then c (ckey_of s) else None) with Some e => Some e | None => Some (sg_elems s) end = Some (sg_elems s)).
  { destruct h; [|reflexivity]. destruct B as [-> | ->]; reflexivity. }
  rewrite R, E3. unfold set_elems. destruct s; reflexivity.
Qed.
Lemma fetch_all h st c : forall l t, Forall (held st c) l -> Forall (fun s => elements_fit (sg_elems s)) l -> map bare_seg t = map bare_seg l ->
  all_some (map (fetch_seg h c st) t) = Some l.
Proof.
  induction l as [|s r IH]; intros [|x t] A B E; cbn [map] in E; try discriminate; [reflexivity|].
  injection E as E1 E2 E3 E4 E5 E6 E7 E8 Er. apply Forall_cons_iff in A as (A1 & A2). apply Forall_cons_iff in B as (B1 & B2).
  cbn [map all_some]. rewrite (fetch_held h st c x s A1 B1).
  - rewrite (IH t A2 B2 Er). reflexivity.
  - unfold bare_seg, set_elems. rewrite E1, E2, E3, E4, E5, E6, E7, E8. reflexivity.
Qed.
Definition fits (l : lst) : Prop :=
  Forall (fun s => elements_fit (sg_elems s)) (ss_segs (l_scores l)) /\ Forall (fun s => elements_fit (sg_elems s)) (ss_segs (l_index l)) /\
  segments_fit (to_wsegs (l_scores l)) /\ segments_fit (to_wsegs (l_index l)) /\
  0 < ss_next (l_scores l) <= 2 ^ 32 /\ 0 < ss_next (l_index l) <= 2 ^ 32.

Lemma fetch_segs_coll h st c n t s : coll h st c n (ss_segs s) -> Forall (fun s => elements_fit (sg_elems s)) (ss_segs s) ->
  bare_segs t = bare_segs s -> forall h', fetch_segs h' c st t = Some s.
Proof.
  intros HC HF E h'. destruct (bare_segs_fields _ _ E) as (E1 & E2 & E3 & E4 & E5). unfold fetch_segs.
  rewrite (fetch_all h' st c _ _ (co_held _ _ _ _ _ HC) HF E5). unfold set_segs. rewrite E1, E2, E3, E4. destruct s; reflexivity.
Qed.
Lemma fetch_both hs hi st c l t : both hs hi st c l -> fits l -> bare t = bare l -> forall h1 h2, fetch h1 h2 c st t = Some l.
Proof.
  intros (A & B) (F1 & F2 & _) E h1 h2. unfold bare in E. injection E as E1 E2 E3 E4 E5 E6 E7 E8 E9 E10 E11 E12 E13 E14.
  unfold fetch. rewrite (fetch_segs_coll _ _ _ _ (l_scores t) _ A F1).
  2: { unfold bare_segs, set_segs. congruence. }
  rewrite (fetch_segs_coll _ _ _ _ (l_index t) _ B F2).
  2: { unfold bare_segs, set_segs. congruence. }
  rewrite E1, E2, E3, E4. destruct l; reflexivity.
Qed.

Lemma of_to_wseg s : of_wseg (to_wseg s) [] = bare_seg s.
Proof. unfold of_wseg, to_wseg, bare_seg, set_elems. cbn. rewrite Nat2Z.id, N2Z.id. reflexivity. Qed.
Lemma load_segs_meta st n s : st (lit n) = Some (meta_blob s) -> segments_fit (to_wsegs s) -> 0 < ss_next s <= 2 ^ 32 ->
  load_segs st n = Some (bare_segs (clear_idx s)).
Proof.
  intros A HF Hn. unfold load_segs. rewrite A. unfold meta_blob. rewrite version_reads by reflexivity. rewrite N.eqb_refl.
  pose proof (segments_reads _ HF []) as E. rewrite app_nil_r in E. rewrite E. unfold bare_segs, clear_idx, set_segs. cbn [ss_id ss_segs ss_next ss_index ss_idx to_wsegs ws_id ws_segs ws_next ws_index].
  rewrite map_map. f_equal. f_equal.
  - apply map_ext. intros x. apply of_to_wseg.
  - unfold next_of. destruct (N.eq_dec (ss_next s) (2 ^ 32)) as [->|Hne]; [reflexivity|].
    rewrite N.mod_small by lia. destruct (N.eqb_spec (ss_next s) 0); [lia|reflexivity].
Qed.
Lemma load_rep cfg hs hi st c l : rep cfg hs hi st c l -> fits l ->
  load st (l_merge l) (l_split l) (l_scores_id l) (l_index_id l) = Some (bare (reload l)).
Proof.
  intros [_ A B _ _] (_ & _ & F1 & F2 & N1 & N2). unfold load.
  rewrite (load_segs_meta _ _ _ A F1 N1), (load_segs_meta _ _ _ B F2 N2). reflexivity.
Qed.

(** ** widths *)
Lemma sum_le_elems s : forall l, In s l -> (length (sg_elems s) <= length (elems_of l))%nat.
Proof.
  intros l H. apply in_split in H as (a & b & ->). rewrite elems_of_app, elems_of_cons, !app_length. lia.
Qed.
Lemma elems_fit_all Q l : score_ok Q l -> (forall x, Q x -> short (e_payload x)) -> N.of_nat (length (elems_of l)) < 2 ^ 32 ->
  Forall (fun s => elements_fit (sg_elems s)) l.
Proof.
  intros HS HP HL. apply Forall_forall. intros s Hs. pose proof (sum_le_elems s l Hs) as Hle. split.
  - unfold short. lia.
  - apply Forall_forall. intros x Hx. destruct (score_ok_seg _ _ _ _ HS Hs Hx) as (Qx & _).
    pose proof (so_good _ _ HS x Qx) as (G1 & G2). unfold elem_ok in G1. unfold element_fits.
    specialize (HP x Qx). unfold max_u32, max_u64 in *. repeat split; try exact HP; lia.
Qed.
Lemma segs_fit_meta Q s : meta s -> score_ok Q (ss_segs s) -> short_str (ss_id s) -> N.of_nat (length (elems_of (ss_segs s))) < 2 ^ 32 ->
  segments_fit (to_wsegs s) /\ 0 < ss_next s <= 2 ^ 32.
Proof.
  intros HM HS Hn HL. pose proof (meta_next_pos _ _ HM HS) as Hp. pose proof (m_next _ HM) as Hx. split; [|lia].
  split; [exact Hn|]. split; [|split].
  - unfold short. cbn [to_wsegs ws_segs]. rewrite map_length, <- (map_length sg_id).
    assert (H : N.of_nat (length (map sg_id (ss_segs s))) + 1 <= ss_next s); [|lia].
    apply NoDup_pos_length; [apply HM| |exact Hp]. apply Forall_forall. intros v Hv. apply in_map_iff in Hv as (g & <- & Hg).
    pose proof (m_id _ HM) as Hm. rewrite Forall_forall in Hm. auto.
  - cbn [to_wsegs ws_segs]. apply Forall_forall. intros w Hw. apply in_map_iff in Hw as (g & <- & Hg).
    pose proof (m_id _ HM) as Hm. rewrite Forall_forall in Hm. specialize (Hm g Hg).
    pose proof (m_segs _ HM) as Hmm. rewrite Forall_forall in Hmm. destruct (Hmm g Hg) as (C1 & C2 & C3).
    pose proof (tile_from_widths _ _ (so_tile _ _ HS)) as Hw. rewrite Forall_forall in Hw. specialize (Hw g Hg). unfold widths in Hw.
    pose proof (sum_le_elems g _ Hg) as Hle. unfold segment_fits, to_wseg, int64. cbn [w_id w_min w_max w_mintie w_maxtie w_n w_upd w_parent].
    rewrite C1, C3. unfold max_u32, max_u64 in *. repeat split; try exact Hn; lia.
  - cbn [to_wsegs ws_next]. apply N.mod_lt. lia.
Qed.
Lemma inv_fits m l : Inv (sin m) l -> named l -> map_fits m -> fits l.
Proof.
  intros HI [M1 M2 M3 M4 M5] (H1 & H2). destruct (i_core _ _ HI) as (Q & HC).
  assert (HL : N.of_nat (length (elems_of (ss_segs (l_scores l)))) < 2 ^ 32) by (apply H2, (contents_ranking _ _ HI)).
  assert (HLi : N.of_nat (length (elems_of (ss_segs (l_index l)))) < 2 ^ 32).
  { pose proof (perm_count_index _ _ HI) as Hc. unfold contents in Hc.
    rewrite (count_elems _ (meta_cnt _ (i_mi _ _ HI))) in Hc. rewrite Hc. exact HL. }
  assert (Hps : short_str (ss_id (l_scores l))) by (rewrite M1; apply M3).
  assert (Hpi : short_str (ss_id (l_index l))) by (rewrite M2; apply M4).
  destruct (segs_fit_meta _ _ (i_ms _ _ HI) (c_s _ _ _ _ HC) Hps HL) as (F1 & N1).
  destruct (segs_fit_meta _ _ (i_mi _ _ HI) (c_i _ _ _ _ HC) Hpi HLi) as (F2 & N2).
  split; [|split; [|auto]].
  - eapply elems_fit_all; [apply HC|exact H1|exact HL].
  - eapply elems_fit_all; [apply HC| |exact HLi]. intros q Hq. destruct (c_form _ _ _ _ HC q Hq) as (_ & ->). unfold short. cbn. lia.
Qed.

(** ** one call *)
Definition new_names (o : op) : list string :=
  match o with
  | OReindex ni _ _ => [ni]
  | ORepair ns ni _ _ _ _ _ _ | OPopulate ns ni _ _ _ _ _ => [ns; ni]
  | _ => []
  end.
Lemma rep_pars cfg hs hi st c l : rep cfg hs hi st c l ->
  Forall (fun g => sg_parent g = ss_id (l_scores l)) (ss_segs (l_scores l)) /\ Forall (fun g => sg_parent g = ss_id (l_index l)) (ss_segs (l_index l)).
Proof. intros [(A & B) _ _ _ _]. split; [apply A|apply B]. Qed.
Lemma within_unused es ns c n : within es ns -> ~ In n ns -> unused c n -> unused (evs_cache es c) n.
Proof. intros W Hn. apply unused_evs. intros e He C. apply Hn. rewrite <- C. apply W, He. Qed.

Lemma rebuild_rep cfg st c ns ni now sc sch want e l l' ord o1 hs hi : rep cfg hs hi st c l ->
  (l_merge l < l_split l)%nat -> size_safe (l_merge l) (l_split l) want (length e) ->
  distinct_ids e -> Forall good e -> 0 < now < max_u32 -> N.of_nat (length e) < max_u32 ->
  Forall (fun n => plain n /\ ~ In n (names l) /\ unused c n) [ns; ni] -> ns <> ni ->
  populate ns ni now sc sch want e l = Done l' ->
  let es := delete_all_evs o1 hs hi l ++ built_evs ord cfg ns ni now sc sch want e l l' in
  rep cfg (built_flag cfg e) (built_flag cfg e) (evs_store es st) (evs_cache es c) l' /\ within es (names l ++ names l') /\ names l' = [ns; ni].
Proof.
  intros HR Hms Hsz Hd Hg Hnow Hlen Hnew Hne E. cbn zeta.
  apply Forall_cons_iff in Hnew as ((P1 & F1 & U1) & Hnew). apply Forall_cons_iff in Hnew as ((P2 & F2 & U2) & _).
  destruct (rep_pars _ _ _ _ _ _ HR) as (Q1 & Q2).
  pose proof (delete_all_within hs hi o1 l (r_named _ _ _ _ _ _ HR) Q1 Q2) as W.
  destruct (built_rep cfg (evs_store (delete_all_evs o1 hs hi l) st) (evs_cache (delete_all_evs o1 hs hi l) c) ns ni now sc sch want e l l' ord) as (A & B & C);
    auto; try (eapply within_unused; eauto).
  cbn zeta in *. rewrite evs_store_app, evs_cache_app. split; [exact A|]. split; [|exact C].
  apply within_app; [eapply within_incl; [|exact W]|eapply within_incl; [|exact B]]; intros n Hn; apply in_or_app; [auto|rewrite C; auto].
Qed.

Lemma op_rep cfg hs hi st c g s m l o l' ord : at_map g s l m -> op_ok g s m o -> step l o = Done l' -> o <> OReload ->
  rep cfg hs hi st c l ->
  Forall (fun n => plain n /\ ~ In n (names l) /\ unused c n) (new_names o) -> NoDup (new_names o) ->
  let es := op_evs ord cfg hs hi l o l' in
  let f := op_flags cfg hs hi l o in
  rep cfg (fst f) (snd f) (evs_store es st) (evs_cache es c) l' /\ within es (names l ++ names l') /\
  (forall n, In n (names l') -> In n (names l) \/ In n (new_names o)) /\ (new_names o = [] -> names l' = names l).
Proof.
  intros HA Hok E Hr HR Hnew Hnd. cbn zeta. pose proof HA as (HI & HM & HS).
  assert (HI' : Inv (sin (spec_step m o)) l').
  { destruct (step_ok g s l m o HA Hok) as [C|(l2 & E2 & H & _)]; congruence. }
  assert (Same : forall es, rep cfg hs hi (evs_store es st) (evs_cache es c) l' /\ within es (names l) /\ names l' = names l ->
    rep cfg hs hi (evs_store es st) (evs_cache es c) l' /\ within es (names l ++ names l') /\ (forall n, In n (names l') -> In n (names l) \/ In n (new_names o)) /\ (new_names o = [] -> names l' = names l)).
  { intros es (A & B & C). split; [exact A|]. split; [|split; [intros n Hn; left; rewrite <- C; exact Hn|intros _; exact C]].
    eapply within_incl; [|exact B]. intros n Hn. apply in_or_app. auto. }
  assert (New : forall es h1 h2, rep cfg h1 h2 (evs_store es st) (evs_cache es c) l' /\ within es (names l ++ names l') /\ names l' = new_names o ->
    rep cfg h1 h2 (evs_store es st) (evs_cache es c) l' /\ within es (names l ++ names l') /\ (forall n, In n (names l') -> In n (names l) \/ In n (new_names o)) /\ (new_names o = [] -> names l' = names l)).
  { intros es h1 h2 (A & B & C). split; [exact A|]. split; [exact B|]. split; [intros n Hn; right; rewrite <- C; exact Hn|].
    intros X. rewrite X in C. discriminate. }
  destruct o as [clk clki now sc e|now sch e|now sc1 sc2 ids|mg now|ni now sc|ns ni now scd sca sc sch want|ns ni now sc sch want e|];
    cbn [op_ok step op_evs op_flags fst snd] in *.
  - apply Same. injection E as <-. destruct Hok as (Hd & Hg & Hc & Hci & Hnow). apply (update_rep _ _ _ _ _ (sin m)); auto. split; assumption.
  - apply Same. apply insert_rep; assumption.
  - apply Same. injection E as <-. apply delete_rep; assumption.
  - apply Same. apply (split_rep _ _ _ _ _ (sin m)); assumption.
  - cbn [new_names] in Hnew. apply Forall_cons_iff in Hnew as ((P1 & F1 & U1) & _).
    destruct (reindex_rep cfg hs hi st c (sin m) l l' (ord 0%nat) ni now sc HI HR HI' E P1 F1 U1) as (A & B & C).
    split; [exact A|]. split; [exact B|]. rewrite C. cbn. intuition discriminate.
  - destruct Hok as (_ & _ & Hnow & Hlen).
    destruct (Hlen (contents l) (contents_ranking _ _ HI)) as (H1 & H2). unfold contents in *. rewrite <- HM, <- HS in H2.
    destruct (repair_elements_spec (fun _ => true) scd sca (ss_segs (l_scores l))) as (D1 & D2 & _).
    pose proof (repair_length (fun _ => true) scd sca (ss_segs (l_scores l))) as HL.
    apply New. cbn [new_names] in *.
    apply rebuild_rep; auto; [apply HI| | |lia|].
    + destruct H2 as (H2 & H3). split; [exact H2|]. intros C. apply H3. eapply Nat.lt_le_trans; [exact C|exact HL].
    + apply Forall_forall. intros x Hx. apply D2 in Hx as (i & t & Hi & _ & Hx). destruct (i_core _ _ HI) as (Q & HC).
      apply (so_good _ _ (c_s _ _ _ _ HC)). eapply score_ok_seg; [apply HC|eapply nth_error_In; eauto|exact Hx].
    + intros C. subst. apply NoDup_cons_iff in Hnd as (Hnd & _). apply Hnd. left. reflexivity.
  - destruct Hok as (_ & _ & Hnow & Hd & Hg & Hlen & Hsz). rewrite <- HM, <- HS in Hsz. apply New. cbn [new_names] in *.
    apply rebuild_rep; auto; [apply HI|].
    intros C. subst. apply NoDup_cons_iff in Hnd as (Hnd & _). apply Hnd. left. reflexivity.
  - contradiction.
Qed.

(** the names after a call, and that the collections whose names are given up are gone *)
Definition renamed (o : op) (ns : list string) : list string :=
  match o with
  | OReindex ni _ _ => match ns with s :: _ => [s; ni] | [] => [] end
  | ORepair ns ni _ _ _ _ _ _ | OPopulate ns ni _ _ _ _ _ => [ns; ni]
  | _ => ns
  end.
Lemma meta_gone n a b st : plain n -> (forall e, In e b -> ~ meta_touches n e) -> evs_store (a ++ [EMetaDel n] ++ b) st (lit n) = None.
Proof.
  intros Hp Hb. rewrite !evs_store_app. rewrite evs_store_meta by assumption. cbn. apply put_same.
Qed.
Lemma delete_all_gone o hs hi l es ns n st : named l -> Forall (fun g => sg_parent g = ss_id (l_scores l)) (ss_segs (l_scores l)) ->
  Forall (fun g => sg_parent g = ss_id (l_index l)) (ss_segs (l_index l)) -> within es ns -> ~ In n ns -> In n (names l) ->
  evs_store (delete_all_evs o hs hi l ++ es) st (lit n) = None.
Proof.
  intros [M1 M2 M3 M4 M5] P1 P2 W Hn Hin. unfold delete_all_evs, delete_evs at 1 2. rewrite M1, M2. rewrite M2 in P2.
  assert (We : forall e, In e es -> ~ meta_touches n e) by (intros e He C; apply Hn; rewrite <- (meta_touches_name _ _ C); apply W, He).
  destruct Hin as [<-|[<-|[]]].
  - rewrite <- !app_assoc. rewrite !(app_assoc (permute (o 1%nat) _)). apply meta_gone; [exact M3|].
    intros e He. apply in_app_iff in He as [He|He]; [|apply We, He]. intros C. apply meta_touches_name in C.
    apply in_app_iff in He as [He|[<-|[]]]; [|cbn in C; congruence]. apply permute_In in He. apply in_map_iff in He as (g & <- & Hg). cbn in C.
    rewrite Forall_forall in P2. rewrite (P2 g Hg) in C. congruence.
  - rewrite <- app_assoc. rewrite <- !app_assoc. rewrite (app_assoc _ [EMetaDel (l_scores_id l)]). rewrite (app_assoc (_ ++ _)). apply meta_gone; assumption.
Qed.
Lemma op_names cfg hs hi st c g s m l o l' ord : at_map g s l m -> op_ok g s m o -> step l o = Done l' -> o <> OReload ->
  rep cfg hs hi st c l ->
  Forall (fun n => plain n /\ ~ In n (names l) /\ unused c n) (new_names o) -> NoDup (new_names o) ->
  names l' = renamed o (names l) /\
  forall n, In n (names l) -> ~ In n (names l') -> evs_store (op_evs ord cfg hs hi l o l') st (lit n) = None.
Proof.
  intros HA Hok E Hr HR Hnew Hnd. destruct (op_rep cfg hs hi st c g s m l o l' ord HA Hok E Hr HR Hnew Hnd) as (_ & _ & _ & Hsame).
  pose proof HA as (HI & HM & HS). pose proof (r_named _ _ _ _ _ _ HR) as HN. pose proof HN as [N1 N2 N3 N4 N5].
  assert (HI' : Inv (sin (spec_step m o)) l').
  { destruct (step_ok g s l m o HA Hok) as [C|(l2 & E2 & H & _)]; congruence. }
  assert (Same : new_names o = [] -> renamed o (names l) = names l -> names l' = renamed o (names l) /\
    forall n, In n (names l) -> ~ In n (names l') -> evs_store (op_evs ord cfg hs hi l o l') st (lit n) = None).
  { intros X Y. specialize (Hsame X). rewrite Y, Hsame. split; [reflexivity|]. intros n A B. contradiction. }
  destruct (rep_pars _ _ _ _ _ _ HR) as (Q1 & Q2).
  assert (Bld : forall ns ni now sc sch want e, Forall (fun n => plain n /\ ~ In n (names l) /\ unused c n) [ns; ni] -> NoDup [ns; ni] ->
    build_sizes (l_merge l) (l_split l) want (length e) -> distinct_ids e -> Forall good e -> tick now -> N.of_nat (length e) < max_u32 ->
    populate ns ni now sc sch want e l = Done l' -> names l' = [ns; ni] /\
    forall n, In n (names l) -> ~ In n (names l') -> evs_store (delete_all_evs (ord 0%nat) hs hi l ++ built_evs ord cfg ns ni now sc sch want e l l') st (lit n) = None).
  { intros ns ni now sc sch want e Hw Hd Hsz He Hg Hnow Hlen Ep.
    assert (Hne : ns <> ni) by (intros C; subst; apply NoDup_cons_iff in Hd as (Hd & _); apply Hd; left; reflexivity).
    pose proof Hw as Hw'. apply Forall_cons_iff in Hw' as ((P1 & F1 & U1) & Hw'). apply Forall_cons_iff in Hw' as ((P2 & F2 & U2) & _).
    pose proof (delete_all_within hs hi (ord 0%nat) l HN Q1 Q2) as W.
    destruct (built_rep cfg (evs_store (delete_all_evs (ord 0%nat) hs hi l) st) (evs_cache (delete_all_evs (ord 0%nat) hs hi l) c) ns ni now sc sch want e l l' ord) as (A & B & C);
      auto; try (eapply within_unused; eauto); [apply HI|].
    split; [exact C|]. intros n Hin Hout. rewrite C in Hout. eapply delete_all_gone; eauto. }
  destruct o as [clk clki now sc e|now sch e|now sc1 sc2 ids|mg now|ni now sc|ns ni now scd sca sc sch want|ns ni now sc sch want e|];
    cbn [op_ok step op_evs renamed] in *; try (apply Same; reflexivity).
  - cbn [new_names] in Hnew. apply Forall_cons_iff in Hnew as ((P1 & F1 & U1) & _).
    destruct (reindex_rep cfg hs hi st c (sin m) l l' (ord 0%nat) ni now sc HI HR HI' E P1 F1 U1) as (A & B & C).
    split; [exact C|]. intros n Hin Hout. rewrite C in Hout. pose proof (r_named _ _ _ _ _ _ A) as [N1' N2' _ _ _].
    destruct Hin as [<-|[<-|[]]]; [exfalso; apply Hout; left; reflexivity|].
    unfold reindex_evs, delete_evs. rewrite N2. rewrite <- (app_assoc (permute _ _)). rewrite (app_assoc [EMeta _]), (app_assoc (Storage.put_all _ _)).
    apply meta_gone; [exact N4|]. intros e [<-|[<-|[]]] T; apply meta_touches_name in T; cbn [ev_name] in T; unfold names in C; injection C as C1 C2.
    + rewrite N1', C1 in T. auto.
    + rewrite N2', C2 in T. apply F1. rewrite T. right. left. reflexivity.
  - destruct Hok as (_ & _ & Hnow & Hlen).
    destruct (Hlen (contents l) (contents_ranking _ _ HI)) as (H1 & H2). unfold contents in *. rewrite <- HM, <- HS in H2.
    destruct (repair_elements_spec (fun _ => true) scd sca (ss_segs (l_scores l))) as (D1 & D2 & _).
    pose proof (repair_length (fun _ => true) scd sca (ss_segs (l_scores l))) as HL.
    apply Bld; auto; [| |lia].
    + destruct H2 as (H2 & H3). split; [exact H2|]. intros C. apply H3. eapply Nat.lt_le_trans; [exact C|exact HL].
    + apply Forall_forall. intros x Hx. apply D2 in Hx as (i & t & Hi & _ & Hx). destruct (i_core _ _ HI) as (Q & HC).
      apply (so_good _ _ (c_s _ _ _ _ HC)). eapply score_ok_seg; [apply HC|eapply nth_error_In; eauto|exact Hx].
  - destruct Hok as (_ & _ & Hnow & Hd & Hg & Hlen & Hsz). rewrite <- HM, <- HS in Hsz. apply Bld; auto.
Qed.

(** what other collections' events leave *)
Lemma rep_frame cfg hs hi st c l es ns : rep cfg hs hi st c l -> within es ns -> Forall plain ns -> (forall n, In n ns -> ~ In n (names l)) ->
  rep cfg hs hi (evs_store es st) (evs_cache es c) l.
Proof.
  intros [(A & B) M1 M2 HN HC] W Hp Hd. pose proof HN as [N1 N2 N3 N4 N5].
  assert (Pl : plain_evs es). { apply Forall_forall. intros e He. rewrite Forall_forall in Hp. apply Hp, W, He. }
  assert (Ds : forall e, In e es -> ev_name e <> l_scores_id l).
  { intros e He C. apply (Hd _ (W e He)). rewrite C. left. reflexivity. }
  assert (Di : forall e, In e es -> ev_name e <> l_index_id l).
  { intros e He C. apply (Hd _ (W e He)). rewrite C. right. left. reflexivity. }
  split; auto.
  - split; apply coll_frame; auto; rewrite ?N1, ?N2; assumption.
  - rewrite evs_store_meta; auto. intros e He C. apply (Ds e He). apply meta_touches_name, C.
  - rewrite evs_store_meta; auto. intros e He C. apply (Di e He). apply meta_touches_name, C.
Qed.
Lemma rep_evict cfg hs hi st c l (keep : bytes -> bool) : rep cfg hs hi st c l -> rep cfg hs hi st (fun k => if keep k then c k else None) l.
Proof.
  assert (HC : forall h n l, coll h st c n l -> coll h st (fun k : bytes => if keep k then c k else None) n l).
  { intros h n l0 [A B C D]. split; auto.
    - eapply Forall_impl; [|exact A]. intros s (X & Y). split; [exact X|]. destruct (keep (ckey_of s)); auto.
    - intros E id. specialize (B E id). cbn beta. destruct (keep _); auto. }
  intros [(A & B) M1 M2 HN HF]. split; auto. split; apply HC; assumption.
Qed.
Lemma rep_reload cfg hs hi st c l : rep cfg hs hi st c l -> rep cfg cfg cfg st c (reload l).
Proof.
  intros [(A & B) M1 M2 [N1 N2 N3 N4 N5] HF].
  assert (HC : forall h n l, (cfg = false -> h = false) -> coll h st c n l -> coll cfg st c n l).
  { intros h n l0 Hh [X Y Z W]. split; auto. intros E. apply Y, Hh, E. }
  split; auto.
  - split; [eapply HC; [|exact A]|eapply HC; [|exact B]]; intros E; apply HF, E.
  - split; assumption.
Qed.

(** ** many lists *)
Lemma bare_bare l : bare (bare l) = bare l.
Proof.
  unfold bare, bare_segs, set_segs. cbn. rewrite !map_map. f_equal; f_equal; apply map_ext; intros x; reflexivity.
Qed.
Lemma bare_eq_fields t l : bare t = bare l -> l_merge t = l_merge l /\ l_split t = l_split l /\ names t = names l /\
  bare_segs (l_scores t) = bare_segs (l_scores l) /\ bare_segs (l_index t) = bare_segs (l_index l).
Proof.
  unfold bare, names. intros E. injection E as E1 E2 E3 E4 E5 E6 E7 E8 E9 E10 E11 E12 E13 E14.
  unfold bare_segs, set_segs. repeat split; congruence.
Qed.
Lemma bare_pars n : forall t l, map bare_seg t = map bare_seg l -> Forall (fun g => sg_parent g = n) l -> Forall (fun g => sg_parent g = n) t.
Proof.
  induction t as [|x t IH]; intros [|y l] E H; cbn [map] in E; try discriminate; constructor; apply Forall_cons_iff in H as (H1 & H2).
  - unfold bare_seg, set_elems in E. congruence.
  - apply IH with l; [congruence|exact H2].
Qed.
Lemma bare_in x : forall t l, map bare_seg t = map bare_seg l -> In x t -> exists y, In y l /\ bare_seg x = bare_seg y.
Proof.
  intros t l E H. assert (Hx : In (bare_seg x) (map bare_seg l)) by (rewrite <- E; apply in_map, H).
  apply in_map_iff in Hx as (y & Ey & Hy). eauto.
Qed.

(** a list together with what it stands for *)
Definition known := (lst * entry)%type.
Definition ok_at (cfg : bool) (st : store) (c : cache) (d : loaded) (y : known) : Prop :=
  let '(l, x) := y in
  reachable (fst (fst x)) (snd (fst x)) l (snd x) /\ bare (d_l d) = bare l /\ rep cfg (d_hs d) (d_hi d) st c l.
Definition fit_entry (x : entry) : Prop := map_fits (snd x).
Definition winv (cfg : bool) (w : world) (ys : list known) : Prop :=
  Forall2 (ok_at cfg (w_st w) (w_c w)) (w_ls w) ys /\ NoDup (taken w) /\ Forall fit_entry (map snd ys).
Definition nm (ds : list loaded) : list string := flat_map (fun d => names (d_l d)) ds.

Lemma ok_view cfg st c d x l : fit_entry x -> reachable (fst (fst x)) (snd (fst x)) l (snd x) -> bare (d_l d) = bare l ->
  rep cfg (d_hs d) (d_hi d) st c l -> Storage.view st c d = Some l.
Proof.
  intros HF HR HB Hr. unfold Storage.view. eapply fetch_both; [apply Hr| |exact HB].
  eapply inv_fits; [eapply reach_Inv, HR|apply Hr|exact HF].
Qed.
Lemma ok_reopen cfg st c d x l : fit_entry x -> reachable (fst (fst x)) (snd (fst x)) l (snd x) -> bare (d_l d) = bare l ->
  rep cfg (d_hs d) (d_hi d) st c l -> reopen cfg st d = Some (mkLd (bare (reload l)) cfg cfg).
Proof.
  intros HF HR HB Hr. unfold reopen. destruct (bare_eq_fields _ _ HB) as (E1 & E2 & E3 & _). unfold names in E3. injection E3 as E3 E4.
  rewrite E1, E2, E3, E4, (load_rep _ _ _ _ _ _ Hr); [reflexivity|].
  eapply inv_fits; [eapply reach_Inv, HR|apply Hr|exact HF].
Qed.

Lemma ok_frame cfg st c es ns d x : ok_at cfg st c d x -> within es ns -> Forall plain ns -> (forall n, In n ns -> ~ In n (names (d_l d))) ->
  ok_at cfg (evs_store es st) (evs_cache es c) d x.
Proof.
  destruct x as (l & x). intros (A & B & C) W Hp Hd. split; [exact A|]. split; [exact B|]. eapply rep_frame; eauto.
  destruct (bare_eq_fields _ _ B) as (_ & _ & E & _). rewrite <- E. exact Hd.
Qed.
Lemma ok_frames cfg st c es ns : forall a ms, Forall2 (ok_at cfg st c) a ms -> within es ns -> Forall plain ns -> (forall n, In n ns -> ~ In n (nm a)) ->
  Forall2 (ok_at cfg (evs_store es st) (evs_cache es c)) a ms.
Proof.
  induction 1 as [|d x a ms H _ IH]; intros W Hp Hd; constructor.
  - eapply ok_frame; eauto. intros n Hn C. apply (Hd n Hn). apply in_or_app. auto.
  - apply IH; auto. intros n Hn C. apply (Hd n Hn). apply in_or_app. auto.
Qed.
Lemma nm_app a b : nm (a ++ b) = nm a ++ nm b.
Proof. apply flat_map_app. Qed.

Lemma change_ok cfg st c a ds b ma mb ds' mds' es ns :
  Forall2 (ok_at cfg st c) a ma -> Forall2 (ok_at cfg st c) b mb -> NoDup (nm (a ++ ds ++ b)) ->
  within es ns -> Forall plain ns -> (forall n, In n ns -> In n (nm ds) \/ ~ In n (nm (a ++ ds ++ b))) ->
  Forall2 (ok_at cfg (evs_store es st) (evs_cache es c)) ds' mds' ->
  (forall n, In n (nm ds') -> In n (nm ds) \/ ~ In n (nm (a ++ ds ++ b))) -> NoDup (nm ds') ->
  Forall2 (ok_at cfg (evs_store es st) (evs_cache es c)) (a ++ ds' ++ b) (ma ++ mds' ++ mb) /\ NoDup (nm (a ++ ds' ++ b)).
Proof.
  intros Ha Hb Hnd W Hp Hns Hds Hn' Hnd'. rewrite !nm_app in *.
  apply NoDup_app_iff in Hnd as (D1 & D2 & D3). apply NoDup_app_iff in D2 as (D4 & D5 & D6).
  assert (Disj : forall n, In n (nm ds) \/ ~ In n (nm a ++ nm ds ++ nm b) -> ~ In n (nm a) /\ ~ In n (nm b)).
  { intros n [H|H].
    - split; [intros C; apply (D3 n C), in_or_app; auto|apply D6, H].
    - rewrite !in_app_iff in H. tauto. }
  split.
  - apply Forall2_app; [|apply Forall2_app; [exact Hds|]]; (eapply ok_frames; [eassumption|exact W|exact Hp|]); intros n Hn; apply Disj, Hns, Hn.
  - apply NoDup_app_iff. split; [exact D1|]. split.
    + apply NoDup_app_iff. split; [exact Hnd'|]. split; [exact D5|]. intros n Hn. apply Disj, Hn', Hn.
    + intros n Hn C. apply in_app_iff in C as [C|C].
      * apply (proj1 (Disj n (Hn' n C))), Hn.
      * apply (D3 n Hn), in_or_app. auto.
Qed.
Lemma names_nodup l : named l -> NoDup (names l).
Proof. intros [_ _ _ _ H]. unfold names. repeat constructor; cbn; intuition. Qed.
Lemma names_plain2 l : named l -> Forall plain (names l).
Proof. intros [_ _ A B _]. unfold names. auto. Qed.
