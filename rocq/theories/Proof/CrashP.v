(** Stops in the middle of calls that leave the ranges of the segments alone. *)
From Coq Require Import Strings.String Strings.Ascii.
From Verif.Lib Require Import Prelude ListAux ListLemmas Perm Bytes.
From Verif.Model Require Import Element Elements Segment List Msgp Codec Keys Storage.
From Verif.Spec Require Import RankSpec QuerySpec HistorySpec AnswerSpec KeySpec CodecSpec StorageSpec.
From Verif.Proof Require Import ElementP ElementsP SegP InvDef KeysP MsgpP CodecP ChangeP UpdateP UpdateInv DeleteP InsertP BuildP BuildInv RepairP SplitP HistoryP QueryP ListThm StoreP StoreOps StoreBuild StoreWorld StoreThm StoreFinal.
Open Scope N_scope.

Record alike (l v : lst) : Prop := {
  al_s : map frame (ss_segs (l_scores v)) = map frame (ss_segs (l_scores l));
  al_i : map frame (ss_segs (l_index v)) = map frame (ss_segs (l_index l));
  al_names : names v = names l;
  al_named : named v
}.
Record variant (P P' : element -> Prop) (l v : lst) : Prop := {
  va_alike : alike l v;
  va_inv : exists R, Inv R v /\ (forall x, P x -> P' x -> R x) /\ (forall x, R x -> P x \/ P' x);
  va_fits : fits v
}.
Definition ev_from (V : lst -> Prop) (e : ev) : Prop :=
  match e with
  | EPut _ s => exists v, V v /\ (In s (ss_segs (l_scores v)) \/ In s (ss_segs (l_index v)))
  | EMeta s => exists v, V v /\ (s = l_scores v \/ s = l_index v)
  | _ => False
  end.
Record kept_store (V : lst -> Prop) (l : lst) (st : store) : Prop := {
  ks_s : forall i, (i < length (ss_segs (l_scores l)))%nat ->
         exists v t, V v /\ nth_error (ss_segs (l_scores v)) i = Some t /\ st (key_of t) = Some (blob t);
  ks_ms : exists v, V v /\ st (lit (l_scores_id l)) = Some (meta_blob (l_scores v));
  ks_mi : exists v, V v /\ st (lit (l_index_id l)) = Some (meta_blob (l_index v))
}.

Lemma frames_ids a b : map frame a = map frame b -> map sg_id a = map sg_id b.
Proof. apply map_id_frames. Qed.
Lemma frames_len a b : map frame a = map frame b -> length a = length b.
Proof. intros H. apply (f_equal (@length _)) in H. rewrite !map_length in H. exact H. Qed.
Lemma frames_nth a b i t s : map frame a = map frame b -> nth_error a i = Some t -> nth_error b i = Some s -> frame t = frame s.
Proof.
  intros H Ht Hs. apply (f_equal (fun z => nth_error z i)) in H.
  rewrite (map_nth_error _ _ _ Ht), (map_nth_error _ _ _ Hs) in H. congruence.
Qed.
Lemma alike_names l v : alike l v -> l_scores_id v = l_scores_id l /\ l_index_id v = l_index_id l.
Proof. intros [_ _ H _]. unfold names in H. injection H as -> ->. auto. Qed.
Lemma variant_pars P P' l v : variant P P' l v ->
  (forall t, In t (ss_segs (l_scores v)) -> sg_parent t = l_scores_id l) /\ (forall t, In t (ss_segs (l_index v)) -> sg_parent t = l_index_id l).
Proof.
  intros [A (R & HI & _) _]. destruct (alike_names _ _ A) as (E1 & E2).
  pose proof (meta_par _ _ (i_ns _ _ HI) (i_ms _ _ HI)) as H1. pose proof (meta_par _ _ (i_ni _ _ HI) (i_mi _ _ HI)) as H2.
  rewrite Forall_forall in *. rewrite <- E1, <- E2. auto.
Qed.

Lemma ev_keeps P P' l e st : named l -> NoDup (map sg_id (ss_segs (l_scores l))) -> ev_from (variant P P' l) e ->
  kept_store (variant P P' l) l st -> kept_store (variant P P' l) l (ev_store e st).
Proof.
  intros [N1 N2 N3 N4 N5] Hnd He [K1 (v1 & V1 & M1) (v2 & V2 & M2)].
  assert (Nk : forall n i, st (segment_key (lit n) i) = st (segment_key (lit n) i)) by reflexivity.
  destruct e as [b s|b s|s|n]; cbn [ev_from] in He; try contradiction; destruct He as (v & Hv & Hs); pose proof (variant_pars _ _ _ _ Hv) as (Q1 & Q2); cbn [ev_store].
  - assert (Hmeta : forall n, plain n -> put st (key_of s) (Some (blob s)) (lit n) = st (lit n)).
    { intros n Hp. apply put_other. intros C. unfold key_of in C. apply (plain_not_key _ _ _ Hp C). }
    split; [|exists v1; rewrite Hmeta; auto|exists v2; rewrite Hmeta; auto].
    intros i Hi. destruct (K1 i Hi) as (v0 & t0 & V0 & T0 & S0). pose proof (variant_pars _ _ _ _ V0) as (Q0 & _).
    destruct Hs as [Hs|Hs].
    + destruct (In_nth_error _ _ Hs) as (j & Hj). destruct (Nat.eq_dec i j) as [->|Hne].
      * exists v, s. split; [exact Hv|]. split; [exact Hj|]. apply put_same.
      * exists v0, t0. split; [exact V0|]. split; [exact T0|]. rewrite put_other; [exact S0|].
        unfold key_of. intros C. apply c24_segment in C as (_ & C). apply Hne.
        pose proof (frames_ids _ _ (al_s _ _ (va_alike _ _ _ _ V0))) as F0. pose proof (frames_ids _ _ (al_s _ _ (va_alike _ _ _ _ Hv))) as Fv.
        assert (X : nth_error (map sg_id (ss_segs (l_scores l))) i = Some (sg_id t0)) by (rewrite <- F0; apply map_nth_error, T0).
        assert (Y : nth_error (map sg_id (ss_segs (l_scores l))) j = Some (sg_id s)) by (rewrite <- Fv; apply map_nth_error, Hj).
        eapply NoDup_nth_error; [exact Hnd| |congruence]. apply nth_error_Some. congruence.
    + exists v0, t0. split; [exact V0|]. split; [exact T0|]. rewrite put_other; [exact S0|].
      unfold key_of. intros C. apply c24_segment in C as (C & _). apply lit_inj in C.
      rewrite (Q0 t0 (nth_error_In _ _ T0)), (Q2 s Hs) in C. contradiction.
  - destruct (alike_names _ _ (va_alike _ _ _ _ Hv)) as (E1 & E2). destruct (al_named _ _ (va_alike _ _ _ _ Hv)) as [W1 W2 W3 W4 W5].
    assert (Hid : ss_id s = l_scores_id l \/ ss_id s = l_index_id l) by (destruct Hs as [->| ->]; [left|right]; congruence).
    assert (Hp : plain (ss_id s)) by (destruct Hid as [->| ->]; assumption).
    split.
    + intros i Hi. destruct (K1 i Hi) as (v0 & t0 & V0 & T0 & S0). exists v0, t0. split; [exact V0|]. split; [exact T0|].
      rewrite put_other; [exact S0|]. unfold key_of. intros C. symmetry in C. apply (plain_not_key _ _ _ Hp C).
    + destruct Hs as [->| ->].
      * exists v. split; [exact Hv|]. rewrite W1, E1. apply put_same.
      * exists v1. split; [exact V1|]. rewrite put_other; [exact M1|]. rewrite W2, E2. intros C. apply lit_inj in C. contradiction.
    + destruct Hs as [->| ->].
      * exists v2. split; [exact V2|]. rewrite put_other; [exact M2|]. rewrite W1, E1. intros C. apply lit_inj in C. congruence.
      * exists v. split; [exact Hv|]. rewrite W2, E2. apply put_same.
Qed.
Lemma evs_keep P P' l : named l -> NoDup (map sg_id (ss_segs (l_scores l))) -> forall es st, Forall (ev_from (variant P P' l)) es ->
  kept_store (variant P P' l) l st -> kept_store (variant P P' l) l (evs_store es st).
Proof.
  intros Hn Hd. induction es as [|e es IH]; intros st HE HK; [exact HK|]. apply Forall_cons_iff in HE as (H1 & H2).
  rewrite evs_store_cons. apply IH; [exact H2|]. apply ev_keeps; assumption.
Qed.
Lemma rep_kept P P' cfg hs hi st c l : rep cfg hs hi st c l -> variant P P' l l -> kept_store (variant P P' l) l st.
Proof.
  intros [(A & _) M1 M2 _ _] HV. split; [|exists l; auto|exists l; auto].
  intros i Hi. destruct (nth_error (ss_segs (l_scores l)) i) as [t|] eqn:E; [|apply nth_error_None in E; lia].
  exists l, t. split; [exact HV|]. split; [exact E|]. pose proof (co_held _ _ _ _ _ A) as H. rewrite Forall_forall in H.
  apply (H t (nth_error_In _ _ E)).
Qed.

Lemma salvage_recovers g s st l m lb (must may : element -> Prop) : reachable g s l m ->
  load st g s (l_scores_id l) (l_index_id l) = Some lb ->
  let ok x := loadable (salvaged st lb) (ss_segs (l_scores (salvage st lb))) x in
  (forall x, ok x -> stored x /\ may x) -> (forall x, must x -> ok x) ->
  (forall x y, must x -> ok y -> e_id y = e_id x -> y = x) -> recovers g s st l must may.
Proof.
  intros HR HL ok H1 H2 H3. exists lb. split; [exact HL|].
  assert (Hgs : l_merge lb = g /\ l_split lb = s).
  { unfold load in HL. destruct (load_segs st (l_scores_id l)); [|discriminate]. destruct (load_segs st (l_index_id l)); [|discriminate].
    injection HL as <-. auto. }
  destruct Hgs as (Eg & Es). destruct (reach_inv _ _ _ _ HR) as (HI & Mg & Ms).
  assert (Hms : (l_merge lb < l_split lb)%nat) by (rewrite Eg, Es, <- Mg, <- Ms; apply HI).
  intros ns ni now scd sca sc sch want Hns Hni Hnow n Hn Hsz.
  assert (El : length (elems_of (ss_segs (l_scores (salvage st lb)))) = n) by reflexivity.
  assert (Hg : forall x, readable (salvaged st lb) (ss_segs (l_scores (salvage st lb))) x -> good x) by (intros x Hx; apply (H1 x Hx)).
  destruct (repair_inv ns ni now (salvaged st lb) scd sca sc sch want (salvage st lb)) as (l' & E & _); auto.
  { rewrite El. cbn [salvage l_merge l_split]. rewrite Eg, Es. exact Hsz. }
  set (e := repair_elements (salvaged st lb) scd sca (ss_segs (l_scores (salvage st lb)))) in *.
  destruct (repair_elements_spec (salvaged st lb) scd sca (ss_segs (l_scores (salvage st lb)))) as (D1 & D2 & D3). fold e in D1, D2, D3.
  pose proof (repair_length (salvaged st lb) scd sca (ss_segs (l_scores (salvage st lb)))) as DL. fold e in DL. rewrite El in DL.
  assert (Hin : forall x, sin (sputs sempty e) x <-> In x e).
  { intros x. rewrite sin_sputs by exact D1. split; [intros [H|(H & _)]; [exact H|discriminate]|auto]. }
  exists l', (sputs sempty e). split; [exact E|]. split; [|split].
  - apply (R_step g s l m (OPopulate ns ni now sc sch want e)); auto.
    + cbn [op_ok]. repeat (split; [assumption|]). split; [|split; [lia|]].
      * apply Forall_forall. intros x Hx. apply (H1 x (D2 x Hx)).
      * destruct Hsz as (Z1 & Z2). split; [exact Z1|]. intros C. apply Z2. eapply Nat.lt_le_trans; [exact C|exact DL].
    + cbn [step]. rewrite <- E. unfold repair_stored, repair. fold e. unfold populate. cbn [salvage l_merge l_split]. rewrite Eg, Es, Mg, Ms. reflexivity.
  - intros x Hx. apply Hin. destruct (D3 x (H2 x Hx)) as (y & Hy & Ey & _). rewrite <- (H3 x y Hx (D2 y Hy) Ey). exact Hy.
  - intros x Hx. apply Hin in Hx. apply (H1 x (D2 x Hx)).
Qed.

Lemma kept_recovers g s m P' l st : let P := sin m in reachable g s l m -> variant P P' l l -> kept_store (variant P P' l) l st ->
  recovers g s st l (fun x => P x /\ P' x) (fun x => P x \/ P' x).
Proof.
  intros P HR HV [K1 (v1 & V1 & M1) (v2 & V2 & M2)]. pose proof (reach_Inv _ _ _ _ HR : Inv P l) as HI.
  destruct (va_fits _ _ _ _ V1) as (_ & _ & F1 & _ & X1 & _). destruct (va_fits _ _ _ _ V2) as (_ & _ & _ & F2 & _ & X2).
  set (lb := mkL g s (l_scores_id l) (l_index_id l) (bare_segs (clear_idx (l_scores v1))) (bare_segs (clear_idx (l_index v2)))).
  assert (HL : load st g s (l_scores_id l) (l_index_id l) = Some lb).
  { unfold load. rewrite (load_segs_meta _ _ _ M1 F1 X1), (load_segs_meta _ _ _ M2 F2 X2). reflexivity. }
  (* every segment is read from some variant *)
  assert (Rd : forall i g, nth_error (ss_segs (l_scores lb)) i = Some g -> exists v t, variant P P' l v /\ nth_error (ss_segs (l_scores v)) i = Some t /\
             read_stored st g = Some (sg_elems t)).
  { intros i u Hg. unfold lb in Hg. cbn [l_scores bare_segs set_segs ss_segs clear_idx] in Hg.
    rewrite nth_error_map in Hg. destruct (nth_error (ss_segs (l_scores v1)) i) as [g1|] eqn:E1; [|discriminate]. cbn [option_map] in Hg. injection Hg as <-.
    assert (Hi : (i < length (ss_segs (l_scores l)))%nat).
    { rewrite <- (frames_len _ _ (al_s _ _ (va_alike _ _ _ _ V1))). apply nth_error_Some. congruence. }
    destruct (K1 i Hi) as (v & t & Hv & Ht & St). exists v, t. split; [exact Hv|]. split; [exact Ht|].
    assert (Ek : key_of (bare_seg g1) = key_of t).
    { unfold key_of. cbn [bare_seg set_elems sg_parent sg_id].
      rewrite (proj1 (variant_pars _ _ _ _ V1) g1 (nth_error_In _ _ E1)), (proj1 (variant_pars _ _ _ _ Hv) t (nth_error_In _ _ Ht)).
      f_equal. assert (X : nth_error (map sg_id (ss_segs (l_scores l))) i = Some (sg_id g1)).
      { rewrite <- (frames_ids _ _ (al_s _ _ (va_alike _ _ _ _ V1))). apply map_nth_error, E1. }
      assert (Y : nth_error (map sg_id (ss_segs (l_scores l))) i = Some (sg_id t)).
      { rewrite <- (frames_ids _ _ (al_s _ _ (va_alike _ _ _ _ Hv))). apply map_nth_error, Ht. }
      congruence. }
    unfold read_stored. rewrite Ek, St. apply read_blob_blob. destruct (va_fits _ _ _ _ Hv) as (FS & _). rewrite Forall_forall in FS.
    apply FS. eapply nth_error_In, Ht. }
  assert (LB : length (ss_segs (l_scores lb)) = length (ss_segs (l_scores l))).
  { unfold lb. cbn [l_scores bare_segs set_segs ss_segs clear_idx]. rewrite map_length. apply frames_len, (al_s _ _ (va_alike _ _ _ _ V1)). }
  assert (Load : forall x, loadable (salvaged st lb) (ss_segs (l_scores (salvage st lb))) x ->
            exists v t, variant P P' l v /\ In t (ss_segs (l_scores v)) /\ In x (sg_elems t)).
  { intros x (i & u & Hg & _ & Hx). unfold salvage in Hg. cbn [l_scores set_segs ss_segs] in Hg. rewrite nth_error_map in Hg.
    destruct (nth_error (ss_segs (l_scores lb)) i) as [g0|] eqn:E0; [|discriminate]. cbn [option_map] in Hg. injection Hg as <-.
    destruct (Rd i g0 E0) as (v & t & Hv & Ht & Hr). unfold salvage_seg in Hx. rewrite Hr in Hx. cbn [set_elems sg_elems] in Hx.
    exists v, t. split; [exact Hv|]. split; [eapply nth_error_In, Ht|exact Hx]. }
  assert (Hin : forall x v t, variant P P' l v -> In t (ss_segs (l_scores v)) -> In x (sg_elems t) ->
            exists R Q, Inv R v /\ core R Q (ss_segs (l_scores v)) (ss_segs (l_index v)) /\ R x /\ (forall z, P z -> P' z -> R z) /\ (forall z, R z -> P z \/ P' z)).
  { intros x v t [_ (R & HRi & H1 & H2) _] Ht Hx. destruct (i_core _ _ HRi) as (Q & HC). exists R, Q. split; [exact HRi|]. split; [exact HC|].
    split; [|auto]. apply (score_ok_seg _ _ _ _ (c_s _ _ _ _ HC) Ht Hx). }
  apply (salvage_recovers g s st l m lb); auto.
  - intros x Hx. destruct (Load x Hx) as (v & t & Hv & Ht & Hxt). destruct (Hin x v t Hv Ht Hxt) as (R & Q & _ & HC & HRx & _ & HB2).
    split; [apply (so_good _ _ (c_s _ _ _ _ HC) x HRx)|apply HB2, HRx].
  - intros x (Px & Px'). destruct (i_core _ _ HI) as (Q & HC). pose proof (proj2 (score_ok_In _ _ x (c_s _ _ _ _ HC)) Px) as Hx.
    apply elems_of_In in Hx as (t0 & Ht0 & Hx0). destruct (In_nth_error _ _ Ht0) as (i & Hi).
    assert (Hil : (i < length (ss_segs (l_scores l)))%nat) by (apply nth_error_Some; congruence).
    destruct (nth_error (ss_segs (l_scores lb)) i) as [g0|] eqn:Eg; [|apply nth_error_None in Eg; lia].
    destruct (Rd i g0 Eg) as (v & t & Hv & Ht & Hr). exists i, (salvage_seg st g0). split; [|split].
    + unfold salvage. cbn [l_scores set_segs ss_segs]. apply map_nth_error, Eg.
    + unfold salvaged. rewrite Eg, Hr. reflexivity.
    + unfold salvage_seg. rewrite Hr. cbn [set_elems sg_elems].
      destruct Hv as [Al (R & HR1 & HB1 & HB2) _]. destruct (i_core _ _ HR1) as (Qv & HCv).
      pose proof (so_holds _ _ (c_s _ _ _ _ HCv)) as HH. unfold holds in HH. rewrite Forall_forall in HH.
      apply (HH t (nth_error_In _ _ Ht)). split; [apply HB1; assumption|].
      pose proof (frames_nth _ _ _ _ _ (al_s _ _ Al) Ht Hi) as Hf. destruct (frame_eq _ _ Hf) as (_ & _ & _ & _ & Hrng & _). apply Hrng.
      apply (score_ok_seg _ _ _ _ (c_s _ _ _ _ HC) Ht0 Hx0).
  - intros x y (Px & Px') Hy Ey. destruct (Load y Hy) as (v & t & Hv & Ht & Hyt).
    destruct (Hin y v t Hv Ht Hyt) as (R & Q & HR1 & HC & HRy & HB1 & HB2).
    apply (so_uniq _ _ (c_s _ _ _ _ HC) y x HRy (HB1 x Px Px') Ey).
Qed.

(** ** the calls *)
Lemma inv_fits_gen (P : element -> Prop) l : Inv P l -> named l -> (forall x, P x -> short (e_payload x)) ->
  N.of_nat (length (elems_of (ss_segs (l_scores l)))) < 2 ^ 32 -> fits l.
Proof.
  intros HI [M1 M2 M3 M4 M5] H1 HL. destruct (i_core _ _ HI) as (Q & HC).
  assert (HLi : N.of_nat (length (elems_of (ss_segs (l_index l)))) < 2 ^ 32).
  { pose proof (perm_count_index _ _ HI) as Hc. unfold contents in Hc.
    rewrite (count_elems _ (meta_cnt _ (i_mi _ _ HI))) in Hc. rewrite Hc. exact HL. }
  assert (Hps : short_str (ss_id (l_scores l))) by (rewrite M1; apply M3).
  assert (Hpi : short_str (ss_id (l_index l))) by (rewrite M2; apply M4).
  destruct (segs_fit_meta _ _ (i_ms _ _ HI) (c_s _ _ _ _ HC) Hps HL) as (F1 & N1).
  destruct (segs_fit_meta _ _ (i_mi _ _ HI) (c_i _ _ _ _ HC) Hpi HLi) as (F2 & N2).
  split; [|split; [|auto]].
  - eapply elems_fit_all; [apply HC|exact H1|exact HL].
  - eapply elems_fit_all; [apply HC| |exact HLi]. intros q Hq. destruct (c_form _ _ _ _ HC q Hq) as (_ & ->). unfold short. cbn. lia.
Qed.

Lemma alike_refl l : named l -> alike l l.
Proof. intros H. split; auto. Qed.
Lemma alike_trans a b c : alike a b -> alike b c -> alike a c.
Proof. intros [A1 A2 A3 A4] [B1 B2 B3 B4]. split; auto; congruence. Qed.
Lemma puts_from (V : lst -> Prop) v c ss is : V v -> ss = ss_segs (l_scores v) \/ ss = ss_segs (l_index v) -> Forall (ev_from V) (puts c ss is).
Proof.
  intros HV Hs. apply Forall_forall. intros e He. unfold puts in He. apply in_flat_map in He as (i & _ & He).
  destruct (nth_error ss i) as [t|] eqn:E; [|destruct He]. destruct He as [<-|[]]. cbn [ev_from]. exists v. split; [exact HV|].
  apply nth_error_In in E. destruct Hs as [->| ->]; auto.
Qed.
Lemma save_from (V : lst -> Prop) v : V v -> Forall (ev_from V) (save_evs v).
Proof. intros HV. repeat constructor; exists v; auto. Qed.

Lemma update_alike P l clk clki now sc elems : Inv P l -> named l -> batch_ok elems -> clock_ok clk -> clock_ok clki -> 0 < now < max_u32 ->
  alike l (update_elements clk clki now sc elems l).
Proof.
  intros HI HN Hb Hc Hci Hnow. destruct (update_full P l clk clki now sc elems HI Hb Hc Hci Hnow) as (_ & (K1 & _) & (K2 & _)).
  cbn zeta in *. split; [exact K1|exact K2| |].
  - unfold update_elements. destruct (update_core clk clki sc elems l) as ((ss & is) & (ts & ti)). apply set_both_names; [exact HN|cbn [set_segs ss_id]; apply reindex_id|reflexivity].
  - unfold update_elements. destruct (update_core clk clki sc elems l) as ((ss & is) & (ts & ti)). apply set_both_named; [exact HN|cbn [set_segs ss_id]; apply reindex_id|reflexivity].
Qed.
Lemma delete_alike l now sc1 sc2 ids : named l -> alike l (delete_elements now sc1 sc2 ids l).
Proof.
  intros HN. unfold delete_elements. set (e := get_index_elements sc1 l ids).
  destruct (delete_idx_kept now sc2 (l_scores l) e) as ((K1 & _) & _ & N1).
  destruct (delete_elements_idx now sc2 (l_scores l) e) as (s' & deleted) eqn:Ed. cbn [fst] in *. rewrite reindex_segs in K1.
  destruct deleted as [|d0 dr].
  - split; [exact K1|reflexivity|apply set_both_names; auto|apply set_both_named; auto].
  - destruct (delete_sorted_kept now (ss_segs (l_index l)) (d0 :: dr)) as ((K2 & _) & _).
    split; [exact K1|exact K2|apply set_both_names; auto|apply set_both_named; auto].
Qed.
Lemma insert_one_alike l now sc e : named l -> alike l (insert_one now sc l e).
Proof.
  intros HN. unfold insert_one, segs_insert.
  destruct (insert_sorted_kept now (ss_segs (l_scores l)) (sort_elems (sort_elems e))) as ((K1 & _) & _).
  destruct (insert_sorted now (ss_segs (l_scores l)) (sort_elems (sort_elems e))) as (s' & ixs). cbn [fst] in *.
  set (ix := sort_elems (concat (permute sc ixs))).
  destruct (insert_sorted_kept now (ss_segs (l_index l)) (sort_elems (sort_elems ix))) as ((K2 & _) & _).
  destruct (insert_sorted now (ss_segs (l_index l)) (sort_elems (sort_elems ix))) as (i' & x). cbn [fst] in *.
  split; [exact K1|exact K2|apply set_both_names; auto|apply set_both_named; auto].
Qed.

Lemma insert_one_from (V : lst -> Prop) ord hs hi now sc l e : V (insert_one now sc l e) -> Forall (ev_from V) (insert_one_evs ord hs hi now sc l e).
Proof.
  intros HV. unfold insert_one_evs. destruct (segs_insert now sc (l_scores l) (sort_elems e)) as (s' & ix).
  apply Forall_app. split; (eapply puts_from; [exact HV|auto]).
Qed.
Lemma insert_loop_from (P P' : element -> Prop) l hs hi now sch limit ord : 0 < now < max_u32 ->
  (forall v R, alike l v -> Inv R v -> (forall x, P x -> R x) -> (forall x, R x -> P' x) -> variant P P' l v) ->
  forall fuel e R l1, alike l l1 -> Inv R l1 -> distinct_ids e -> Forall good e -> (forall x y, In x e -> R y -> e_id x <> e_id y) ->
  (forall x, P x -> R x) -> (forall x, In x e \/ R x -> P' x) ->
  Forall (ev_from (variant P P' l)) (insert_loop_evs fuel limit ord hs hi now sch e l1).
Proof.
  intros Hnow HV. 
  assert (One : forall ord sc e R l1, alike l l1 -> Inv R l1 -> distinct_ids e -> Forall good e -> (forall x y, In x e -> R y -> e_id x <> e_id y) ->
    (forall x, P x -> R x) -> (forall x, In x e \/ R x -> P' x) ->
    Forall (ev_from (variant P P' l)) (insert_one_evs ord hs hi now sc l1 e)).
  { intros o sc e R l1 HA HI Hd Hg Hn H1 H2. apply insert_one_from. destruct (insert_one_inv R l1 now sc e HI Hd Hg Hn Hnow) as (HI' & _).
    eapply HV; [eapply alike_trans; [exact HA|apply insert_one_alike, HA]|exact HI'| |exact H2]. cbn. auto. }
  induction fuel as [|f IH]; intros e R l1 HA HI Hd Hg Hn H1 H2; cbn [insert_loop_evs]; (destruct (Nat.ltb limit (length e)); [|eapply One; eauto]).
  - constructor.
  - pose proof Hd as Hd0. pose proof Hg as Hg0. rewrite <- (firstn_skipn limit e) in Hd, Hg.
    unfold distinct_ids in Hd. rewrite map_app in Hd. apply NoDup_app_iff in Hd as (D1 & D2 & D3). apply Forall_app in Hg as (G1 & G2).
    assert (Hf : forall x, In x (firstn limit e) -> In x e) by (intros x Hx; eapply In_firstn; eauto).
    assert (Hs : forall x, In x (skipn limit e) -> In x e) by (intros x Hx; rewrite <- (firstn_skipn limit e); apply in_or_app; auto).
    assert (Hn1 : forall x y, In x (firstn limit e) -> R y -> e_id x <> e_id y) by (intros x y Hx; apply Hn, Hf, Hx).
    apply Forall_app. split.
    + eapply One; eauto. intros x [Hx|Hx]; apply H2; auto.
    + destruct (insert_one_inv R l1 now (sch (length e)) (firstn limit e) HI D1 G1 Hn1 Hnow) as (HI' & _).
      eapply IH; [eapply alike_trans; [exact HA|apply insert_one_alike, HA]|exact HI'|exact D2|exact G2| |cbn; auto|].
      * intros x y Hx [Hy|Hy]; [|apply Hn; auto]. intros C. apply (D3 (e_id y)); [apply in_map, Hy|rewrite <- C; apply in_map, Hx].
      * cbn. intros x [Hx|[Hx|Hx]]; apply H2; auto.
Qed.

Lemma inv_same (P R : element -> Prop) l x : Inv P l -> Inv R l -> P x -> R x.
Proof.
  intros HP HR Hx. destruct (i_core _ _ HP) as (Q & HC). destruct (i_core _ _ HR) as (Q2 & HC2).
  apply (score_ok_In _ _ x (c_s _ _ _ _ HC2)), (score_ok_In _ _ x (c_s _ _ _ _ HC)), Hx.
Qed.
Lemma op_from cfg hs hi st c g s l m o l' ord : reachable g s l m -> op_ok g s m o -> step l o = Done l' -> in_place o ->
  rep cfg hs hi st c l -> map_fits m -> map_fits (spec_step m o) ->
  variant (sin m) (sin (spec_step m o)) l l /\
  Forall (ev_from (variant (sin m) (sin (spec_step m o)) l)) (op_evs ord cfg hs hi l o l').
Proof.
  intros HR Hok E Hp Hrep F1 F2. set (P := sin m). set (P' := sin (spec_step m o)).
  pose proof (reach_inv _ _ _ _ HR) as HA. pose proof HA as (HI & _ & Hsp).
  assert (HI' : Inv P' l') by (destruct (step_ok g s l m o HA Hok) as [C|(l2 & E2 & H & _)]; [congruence|rewrite E in E2; injection E2 as <-; exact H]).
  pose proof (r_named _ _ _ _ _ _ Hrep) as HN.
  assert (V0 : variant P P' l l).
  { split; [apply alike_refl, HN|exists P; auto|eapply inv_fits; eauto]. }
  assert (Vl : alike l l' -> variant P P' l l').
  { intros A. split; [exact A|exists P'; auto|eapply inv_fits; [exact HI'|apply A|exact F2]]. }
  split; [exact V0|].
  destruct o as [clk clki now sc e|now sch e|now sc1 sc2 ids|mg now|ni now sc|ns ni now scd sca sc sch want|ns ni now sc sch want e|]; cbn [in_place] in Hp; try contradiction; cbn [op_ok step op_evs] in *.
  - injection E as <-. destruct Hok as (Hd & Hg & Hc & Hci & Hnow).
    assert (V1 : variant P P' l (update_elements clk clki now sc e l)).
    { apply Vl. eapply update_alike; eauto. split; assumption. }
    unfold update_evs. destruct (update_core clk clki sc e l) as ((ss & is) & (ts & ti)).
    apply Forall_app. split; [eapply puts_from; [exact V1|auto]|]. apply Forall_app. split; [eapply puts_from; [exact V1|auto]|apply save_from, V1].
  - destruct Hok as (Hd & Hg & Hne & Hnow & Hs4).
    assert (Hdis : forall x y, In x e -> P y -> e_id x <> e_id y).
    { intros x y Hx Hy C. specialize (Hne x Hx). unfold P, sin in Hy. rewrite C in Hne. congruence. }
    rewrite <- Hsp in Hs4. destruct (insert_inv P l now sch e HI Hd Hg Hdis Hnow Hs4) as (l2 & E2 & HI2). rewrite E in E2. injection E2 as <-.
    assert (HPP : forall x, In x e \/ P x <-> P' x) by (intros x; split; intros Hx; [eapply (inv_same _ P' l' x HI2); eauto|eapply (inv_same P' _ l' x HI' HI2); eauto]).
    assert (Hal : forall fuel limit e0 l1 l2, alike l l1 -> insert_loop fuel limit now sch e0 l1 = Done l2 -> alike l l2).
    { induction fuel as [|f IH]; intros limit e0 l1 l2 A X; cbn [insert_loop] in X; (destruct (Nat.ltb limit (length e0)); [|injection X as <-; eapply alike_trans; [exact A|apply insert_one_alike, A]]).
      - discriminate.
      - eapply IH; [|exact X]. eapply alike_trans; [exact A|apply insert_one_alike, A]. }
    apply Forall_app. split; [|apply save_from, Vl; eapply Hal; [apply alike_refl, HN|exact E]].
    eapply insert_loop_from with (R := P); eauto using alike_refl; [|intros x Hx; apply HPP; exact Hx].
    intros v R A HIv H1 H2. split; [exact A| |].
    + exists R. split; [exact HIv|]. split; [auto|]. intros x Hx. right. apply H2, Hx.
    + apply (inv_fits_gen R); [exact HIv|apply A| |].
      * intros x Hx. apply (proj1 F2), H2, Hx.
      * eapply N.le_lt_trans; [|apply (proj2 F2), (contents_ranking _ _ HI')].
        match goal with |- N.of_nat ?a <= N.of_nat ?b => cut (a <= b)%nat; [lia|] end.
        destruct (contents_ranking _ _ HIv) as (_ & Cv). destruct (contents_ranking _ _ HI') as (_ & C').
        destruct (i_core _ _ HIv) as (Qv & HCv). pose proof (score_ok_distinct _ _ (c_s _ _ _ _ HCv)) as Dv.
        apply NoDup_incl_length; [eapply NoDup_map_inv, Dv|]. intros x Hx. apply C', H2, Cv, Hx.
  - injection E as <-.
    assert (V1 : variant P P' l (delete_elements now sc1 sc2 ids l)) by (apply Vl, delete_alike, HN).
    unfold delete_elements_evs. set (e := get_index_elements sc1 l ids).
    assert (Es : fst (delete_elements_idx now sc2 (l_scores l) e) = l_scores (delete_elements now sc1 sc2 ids l)).
    { unfold delete_elements. fold e. destruct (delete_elements_idx now sc2 (l_scores l) e) as (s' & [|d0 dr]); reflexivity. }
    destruct (delete_elements_idx now sc2 (l_scores l) e) as (s' & deleted). cbn [fst] in Es.
    apply Forall_app. split; [eapply puts_from; [exact V1|left; rewrite Es; reflexivity]|].
    apply Forall_app. split; [|apply save_from, V1].
    destruct deleted as [|d0 dr]; [constructor|eapply puts_from; [exact V1|auto]].
Qed.

(** whatever writes of the call reached the store *)
Lemma c25_recovers cfg w ms i o ord d g s m l l' es : runs cfg w ms -> nth_error (w_ls w) i = Some d -> nth_error ms i = Some (g, s, m) ->
  act_ok w ms (AOp i o ord) -> in_place o -> Storage.view (w_st w) (w_c w) d = Some l -> step l o = Done l' -> map_fits (spec_step m o) ->
  incl es (op_evs ord cfg (d_hs d) (d_hi d) l o l') ->
  recovers g s (evs_store es (w_st w)) (d_l d) (fun x => sin m x /\ sin (spec_step m o) x) (fun x => sin m x \/ sin (spec_step m o) x).
Proof.
  intros HR Ei Em Hok Hp Hv E HF Hes. destruct (runs_winv _ _ _ HR) as (ys & <- & (A & B & C)).
  destruct (Forall2_nth _ _ _ A i d Ei) as ((l0 & x) & Ey & (H1 & H2 & H3)).
  rewrite (map_nth_error snd _ _ Ey) in Em. injection Em as Ex. cbn [snd] in Ex. subst x. cbn [fst snd] in *.
  assert (Hf : map_fits m). { rewrite Forall_forall in C. apply (C (g, s, m)). apply nth_error_In in Ey. apply (in_map snd) in Ey. exact Ey. }
  rewrite (ok_view _ _ _ _ (g, s, m) l0 Hf H1 H2 H3) in Hv. injection Hv as <-.
  destruct Hok as (Hok & _). specialize (Hok g s m (map_nth_error snd _ _ Ey)).
  destruct (op_from cfg (d_hs d) (d_hi d) (w_st w) (w_c w) g s l0 m o l' ord H1 Hok E Hp H3 Hf HF) as (V0 & HE).
  destruct (bare_eq_fields _ _ H2) as (_ & _ & E3 & _). unfold names in E3. injection E3 as E3 E4. unfold recovers. rewrite E3, E4.
  apply kept_recovers; [exact H1|exact V0|]. apply evs_keep.
  - apply H3.
  - apply (co_nd _ _ _ _ _ (proj1 (r_both _ _ _ _ _ _ H3))).
  - rewrite Forall_forall in *. intros e He. apply HE, Hes, He.
  - eapply rep_kept; eauto.
Qed.

Lemma recovers_weaken g s st d (m1 m2 y1 y2 : element -> Prop) : (forall x, m2 x -> m1 x) -> (forall x, y1 x -> y2 x) ->
  recovers g s st d m1 y1 -> recovers g s st d m2 y2.
Proof.
  intros H1 H2 (l & HL & H). exists l. split; [exact HL|]. intros ns ni now scd sca sc sch want A B C n D E.
  destruct (H ns ni now scd sca sc sch want A B C D E) as (l' & m' & R1 & R2 & R3 & R4). exists l', m'. split; [exact R1|]. split; [exact R2|]. split; intros x Hx; [apply R3, H1, Hx|apply H2, R4, Hx].
Qed.

(** the other lists: no key of theirs is written *)
Lemma taken_other w i j d d' n : NoDup (taken w) -> nth_error (w_ls w) i = Some d -> nth_error (w_ls w) j = Some d' -> i <> j ->
  In n (names (d_l d)) -> ~ In n (names (d_l d')).
Proof.
  unfold taken. generalize (w_ls w). intros ls. revert i j. induction ls as [|a ls IH]; intros i j Hnd Ei Ej Hne Hn Hn'; [destruct i; discriminate|].
  cbn [flat_map] in Hnd. apply NoDup_app_iff in Hnd as (D1 & D2 & D3).
  destruct i as [|i], j as [|j]; [lia| | |]; cbn in Ei, Ej.
  - injection Ei as <-. apply (D3 n Hn). apply in_flat_map. exists d'. split; [eapply nth_error_In, Ej|exact Hn'].
  - injection Ej as <-. apply (D3 n Hn'). apply in_flat_map. exists d. split; [eapply nth_error_In, Ei|exact Hn].
  - apply (IH i j D2 Ei Ej); auto.
Qed.
Lemma new_names_ok w ms i o ord : act_ok w ms (AOp i o ord) -> Forall (fresh w) (new_names o) /\ NoDup (new_names o).
Proof.
  intros (_ & H). destruct o; cbn [new_names]; try (split; constructor; fail).
  - split; [constructor; [exact H|constructor]|constructor; [intros []|constructor]].
  - destruct H as (H1 & H2 & H3). split; [constructor; [exact H1|constructor; [exact H2|constructor]]|].
    constructor; [intros [C|[]]; congruence|constructor; [intros []|constructor]].
  - destruct H as (H1 & H2 & H3). split; [constructor; [exact H1|constructor; [exact H2|constructor]]|].
    constructor; [intros [C|[]]; congruence|constructor; [intros []|constructor]].
Qed.

Lemma c25_others cfg w ms i j o ord d d' l l' es cfg' : runs cfg w ms -> nth_error (w_ls w) i = Some d -> nth_error (w_ls w) j = Some d' -> i <> j ->
  act_ok w ms (AOp i o ord) -> o <> OReload -> Storage.view (w_st w) (w_c w) d = Some l -> step l o = Done l' ->
  incl es (op_evs ord cfg (d_hs d) (d_hi d) l o l') ->
  exists d2 l1 l2, reopen cfg' (evs_store es (w_st w)) d' = Some d2 /\
    Storage.view (w_st w) (w_c w) d' = Some l1 /\ Storage.view (evs_store es (w_st w)) (fun _ => None) d2 = Some l2 /\
    stored_in l2 = stored_in l1 /\ indexed_in l2 = indexed_in l1.
Proof.
  intros HR Ei Ej Hij Hok Ho Hv E Hes. destruct (runs_winv _ _ _ HR) as (ys & <- & (A & B & C)).
  destruct (Forall2_nth _ _ _ A i d Ei) as ((l0 & ((g & s) & m)) & Ey & (H1 & H2 & H3)).
  destruct (Forall2_nth _ _ _ A j d' Ej) as ((l1 & x) & Ey' & (H1' & H2' & H3')). cbn [fst snd] in *.
  assert (Hf : fit_entry (g, s, m)). { rewrite Forall_forall in C. apply C. apply nth_error_In in Ey. apply (in_map snd) in Ey. exact Ey. }
  assert (Hf' : fit_entry x). { rewrite Forall_forall in C. apply C. apply nth_error_In in Ey'. apply (in_map snd) in Ey'. exact Ey'. }
  rewrite (ok_view _ _ _ _ (g, s, m) l0 Hf H1 H2 H3) in Hv. injection Hv as <-.
  destruct (bare_eq_fields _ _ H2) as (_ & _ & E3 & _). destruct (bare_eq_fields _ _ H2') as (F1 & F2 & F3 & _).
  destruct (new_names_ok _ _ _ _ _ Hok) as (Hnew & Hnd).
  assert (Hnew' : Forall (fun n => plain n /\ ~ In n (names l0) /\ unused (w_c w) n) (new_names o)).
  { eapply Forall_impl; [|exact Hnew]. intros n (X & Y & Z). split; [exact X|]. split; [|exact Z]. intros K. apply Y. rewrite <- E3 in K.
    apply in_flat_map. exists d. split; [eapply nth_error_In, Ei|exact K]. }
  pose proof (proj1 Hok g s m (map_nth_error snd _ _ Ey)) as Hop.
  destruct (op_rep cfg (d_hs d) (d_hi d) (w_st w) (w_c w) g s m l0 o l' ord (reach_inv _ _ _ _ H1) Hop E Ho H3 Hnew' Hnd) as (_ & W & N1 & _).
  set (ns := names l0 ++ new_names o).
  assert (W2 : within es ns).
  { intros e He. specialize (W e (Hes e He)). apply in_or_app. apply in_app_iff in W as [W|W]; [auto|]. apply N1, W. }
  assert (Hp : Forall plain ns).
  { apply Forall_app. split; [destruct (r_named _ _ _ _ _ _ H3) as [? ? ? ? ?]; unfold names; constructor; [assumption|constructor; [assumption|constructor]]|].
    eapply Forall_impl; [|exact Hnew]. intros n Hn. apply Hn. }
  assert (Hd : forall n, In n ns -> ~ In n (names l1)).
  { intros n Hn. rewrite <- F3. apply in_app_iff in Hn as [Hn|Hn].
    - rewrite <- E3 in Hn. eapply taken_other; [exact B|exact Ei|exact Ej|exact Hij|exact Hn].
    - rewrite Forall_forall in Hnew. destruct (Hnew n Hn) as (_ & Y & _). intros K. apply Y. apply in_flat_map. exists d'.
      split; [eapply nth_error_In, Ej|exact K]. }
  pose proof (rep_frame _ _ _ _ _ _ _ _ H3' W2 Hp Hd) as HRf.
  assert (Hfl : fits l1) by (eapply inv_fits; [eapply reach_Inv, H1'|apply H3'|exact Hf']).
  exists (mkLd (bare (reload l1)) cfg' cfg'), l1, (reload l1).
  unfold names in F3. injection F3 as F3 F4.
  split; [unfold reopen; rewrite F1, F2, F3, F4, (load_rep _ _ _ _ _ _ HRf Hfl); reflexivity|].
  split; [eapply ok_view; eauto|]. split; [|split; reflexivity].
  unfold Storage.view. eapply fetch_both; [apply (rep_restart _ cfg' _ _ _ _ _ HRf)| |apply bare_bare].
  exact Hfl.
Qed.

(** the three calls *)
Lemma c25_update cfg w ms i clk clki now sc e ord d g s m l l' es : let o := OUpdate clk clki now sc e in
  runs cfg w ms -> nth_error (w_ls w) i = Some d -> nth_error ms i = Some (g, s, m) ->
  act_ok w ms (AOp i o ord) -> Storage.view (w_st w) (w_c w) d = Some l -> step l o = Done l' -> map_fits (spec_step m o) ->
  incl es (op_evs ord cfg (d_hs d) (d_hi d) l o l') ->
  recovers g s (evs_store es (w_st w)) (d_l d) (fun x => sin m x /\ ~ In (e_id x) (map e_id e)) (fun x => sin m x \/ In x (map (stamp clk) e)).
Proof.
  intros o HR Ei Em Hok Hv E HF Hes. pose proof (proj1 Hok g s m Em) as Hop. cbn [op_ok o] in Hop.
  assert (Hd : distinct_ids (map (stamp clk) e)).
  { unfold distinct_ids. rewrite map_map. rewrite (map_ext _ e_id); [apply Hop|]. intros x. unfold stamp. destruct (e_upd x =? 0); reflexivity. }
  eapply recovers_weaken; [| |eapply (c25_recovers cfg w ms i o ord d g s m l l' es); eauto; exact I].
  - cbn beta. intros x (Hx & Hn). split; [exact Hx|]. cbn [spec_step o]. apply sin_sputs; [exact Hd|]. right. split; [exact Hx|].
    rewrite map_map. rewrite (map_ext _ e_id); [exact Hn|]. intros y. unfold stamp. destruct (e_upd y =? 0); reflexivity.
  - cbn beta. intros x [Hx|Hx]; [auto|]. cbn [spec_step o] in Hx. apply sin_sputs in Hx; [|exact Hd]. tauto.
Qed.
Lemma c25_insert cfg w ms i now sch e ord d g s m l l' es : let o := OInsert now sch e in
  runs cfg w ms -> nth_error (w_ls w) i = Some d -> nth_error ms i = Some (g, s, m) ->
  act_ok w ms (AOp i o ord) -> Storage.view (w_st w) (w_c w) d = Some l -> step l o = Done l' -> map_fits (spec_step m o) ->
  incl es (op_evs ord cfg (d_hs d) (d_hi d) l o l') ->
  recovers g s (evs_store es (w_st w)) (d_l d) (sin m) (fun x => sin m x \/ In x e).
Proof.
  intros o HR Ei Em Hok Hv E HF Hes. pose proof (proj1 Hok g s m Em) as Hop. cbn [op_ok o] in Hop.
  eapply recovers_weaken; [| |eapply (c25_recovers cfg w ms i o ord d g s m l l' es); eauto; exact I].
  - cbn beta. intros x Hx. split; [exact Hx|]. cbn [spec_step o]. apply sin_sputs; [apply Hop|]. right. split; [exact Hx|].
    intros K. apply in_map_iff in K as (y & Ey & Hy). destruct Hop as (_ & _ & Hn & _). specialize (Hn y Hy). unfold sin in Hx. congruence.
  - cbn beta. intros x [Hx|Hx]; [auto|]. cbn [spec_step o] in Hx. apply sin_sputs in Hx; [|apply Hop]. tauto.
Qed.
Lemma c25_delete cfg w ms i now sc1 sc2 ids ord d g s m l l' es : let o := ODelete now sc1 sc2 ids in
  runs cfg w ms -> nth_error (w_ls w) i = Some d -> nth_error ms i = Some (g, s, m) ->
  act_ok w ms (AOp i o ord) -> Storage.view (w_st w) (w_c w) d = Some l -> step l o = Done l' -> map_fits (spec_step m o) ->
  incl es (op_evs ord cfg (d_hs d) (d_hi d) l o l') ->
  recovers g s (evs_store es (w_st w)) (d_l d) (fun x => sin m x /\ ~ In (e_id x) ids) (sin m).
Proof.
  intros o HR Ei Em Hok Hv E HF Hes.
  eapply recovers_weaken; [| |eapply (c25_recovers cfg w ms i o ord d g s m l l' es); eauto; exact I].
  - cbn beta. intros x (Hx & Hn). split; [exact Hx|]. cbn [spec_step o]. apply sin_sdel. auto.
  - cbn beta. intros x [Hx|Hx]; [auto|]. cbn [spec_step o] in Hx. apply sin_sdel in Hx. tauto.
Qed.
