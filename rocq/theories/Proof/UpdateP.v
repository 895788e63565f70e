(** UpdateElements preserves the invariant and changes exactly the batch. *)
From Coq Require Import Strings.String.
From Verif.Lib Require Import Prelude ListAux ListLemmas SortLemmas Perm.
From Verif.Model Require Import Element Elements Segment List.
From Verif.Spec Require Import RankSpec QuerySpec.
From Verif.Proof Require Import ElementP ElementsP ElementsThm SegP InvDef QueryP LookupP ChangeP.
Open Scope N_scope.

Definition bare (s : seg) : seg := set_elems (fun _ => []) s.
Lemma bare_set_elems f s : bare (set_elems f s) = bare s. Proof. reflexivity. Qed.
Lemma frames_bare l l' : map bare l' = map bare l -> map frame l' = map frame l.
Proof.
  intros H. transitivity (map frame (map bare l')); [rewrite map_map; reflexivity|].
  rewrite H, map_map. reflexivity.
Qed.

Lemma assoc_Some {B} k (m : list (N * B)) v : assoc k m = Some v -> In (k, v) m.
Proof.
  induction m as [|(k' & v') r IH]; cbn; [discriminate|].
  destruct (N.eqb_spec k' k) as [->|]; intros H; [inv H; auto|auto].
Qed.
Lemma assoc_None {B} k (m : list (N * B)) : assoc k m = None -> forall v, ~ In (k, v) m.
Proof.
  induction m as [|(k' & v') r IH]; cbn; [auto|].
  destruct (N.eqb_spec k' k) as [->|Hne]; intros H v; [discriminate|].
  intros [E|E]; [inv E; congruence|]. eapply IH; eauto.
Qed.

(** ** one changed segment *)
Lemma changed_at P l k s0 y id f : e_id y = id -> score_ok P l -> nth_error l k = Some s0 -> in_range s0 y ->
  ranked (f (sg_elems s0)) ->
  (forall x, In x (f (sg_elems s0)) <-> x = y \/ (In x (sg_elems s0) /\ e_id x <> id)) ->
  (forall i s x, i <> k -> nth_error l i = Some s -> In x (sg_elems s) -> e_id x <> id) ->
  changed (fun x => x = y) (fun i => i = id) l (upd_nth k (set_elems f) l).
Proof.
  intros <- HS Hk Hr Hrk Hf Ho i s s' Hi Hi'. rewrite upd_nth_nth in Hi'.
  destruct (Nat.eqb_spec k i) as [<-|Hne].
  - rewrite Hi in Hk. inv Hk. rewrite Hi in Hi'. cbn in Hi'. inv Hi'. rewrite set_elems_elems.
    split; [exact Hrk|]. intros x. rewrite Hf. split; [intros [->|H]; auto|intros [(-> & _)|H]; auto].
  - rewrite Hi in Hi'. inv Hi'. split; [eapply score_ok_seg_ranked; eauto|].
    intros x. split.
    + intros Hx. right. split; [exact Hx|]. eapply Ho; [|eauto|exact Hx]. congruence.
    + intros [(-> & Hx)|(Hx & _)]; [|exact Hx]. exfalso. apply Hne.
      eapply seg_unique; eauto.
Qed.

Lemma changed_two P l k s0 y id f j d : e_id y = id -> score_ok P l -> nth_error l k = Some s0 -> in_range s0 y ->
  ranked (f (sg_elems s0)) ->
  (forall x, In x (f (sg_elems s0)) <-> x = y \/ (In x (sg_elems s0) /\ e_id x <> id)) ->
  k <> j ->
  (forall s, nth_error l j = Some s -> ranked (d (sg_elems s)) /\
     forall x, In x (d (sg_elems s)) <-> In x (sg_elems s) /\ e_id x <> id) ->
  (forall i s x, i <> k -> i <> j -> nth_error l i = Some s -> In x (sg_elems s) -> e_id x <> id) ->
  changed (fun x => x = y) (fun i => i = id) l (upd_nth j (set_elems d) (upd_nth k (set_elems f) l)).
Proof.
  intros <- HS Hk Hr Hrk Hf Hkj Hd Ho i s s' Hi Hi'. rewrite !upd_nth_nth in Hi'.
  destruct (Nat.eqb_spec j i) as [<-|Hnj].
  - destruct (Nat.eqb_spec k j) as [|_]; [contradiction|]. rewrite Hi in Hi'. cbn in Hi'. inv Hi'.
    destruct (Hd s Hi) as (A & B). rewrite set_elems_elems. split; [exact A|].
    intros x. rewrite B. split; [intros H; right; exact H|intros [(-> & Hx)|H]; [|exact H]].
    exfalso. apply Hkj. eapply seg_unique; eauto.
  - destruct (Nat.eqb_spec k i) as [<-|Hne].
    + rewrite Hi in Hk. inv Hk. rewrite Hi in Hi'. cbn in Hi'. inv Hi'. rewrite set_elems_elems.
      split; [exact Hrk|]. intros x. rewrite Hf. split; [intros [->|H]; auto|intros [(-> & _)|H]; auto].
    + rewrite Hi in Hi'. inv Hi'. split; [eapply score_ok_seg_ranked; eauto|].
      intros x. split.
      * intros Hx. right. split; [exact Hx|]. apply (Ho i s' x); auto.
      * intros [(-> & Hx)|(Hx & _)]; [|exact Hx]. exfalso. apply Hne. eapply seg_unique; eauto.
Qed.

(** where the only element with an indexed ID sits *)
Lemma only_in P Q ss is q : core P Q ss is -> Q q ->
  exists j s x, nth_error ss j = Some s /\ sg_id s = e_tie q /\ In x (sg_elems s) /\ e_id x = e_id q /\
    forall i s' x', nth_error ss i = Some s' -> In x' (sg_elems s') -> e_id x' = e_id q -> i = j.
Proof.
  intros HC Hq. destruct (proj1 (c_link _ _ _ _ HC (e_id q) (e_tie q))) as (s & x & Hs & Hx & Ei & Es); [eauto|].
  apply In_nth_error in Hs as (j & Hj). exists j, s, x. repeat split; auto.
  intros i s' x' Hi Hx' Ex'. pose proof (c_s _ _ _ _ HC) as HS.
  assert (x' = x).
  { apply (so_uniq _ _ HS); [| |congruence].
    - eapply (score_ok_seg _ _ s' x' HS); eauto using nth_error_In.
    - eapply (score_ok_seg _ _ s x HS); eauto using nth_error_In. }
  subst x'. eapply NoDup_elems_segs; eauto. apply ranked_NoDup. eapply score_ok_ranked; eauto.
Qed.

Lemma not_indexed P Q ss is id : core P Q ss is -> (forall q, Q q -> e_id q <> id) -> forall x, P x -> e_id x <> id.
Proof. intros HC H x Hx E. destruct (indexed _ _ _ _ x HC Hx) as (q & Hq & Eq). apply (H q Hq). congruence. Qed.

Lemma in_range_key s x y : e_score x = e_score y -> e_tie x = e_tie y -> in_range s x <-> in_range s y.
Proof. unfold in_range, key. intros -> ->. tauto. Qed.
Lemma with_time_key now e : e_score (with_time now e) = e_score e /\ e_tie (with_time now e) = e_tie e /\
  e_payload (with_time now e) = e_payload e.
Proof. unfold with_time. destruct (e_upd e =? 0); auto. Qed.
Lemma with_time_good now e : good_in e -> 0 < now < max_u32 -> good (with_time now e).
Proof.
  unfold good_in, good, with_time, elem_ok. intros ((A & B & C & D) & E) Hn.
  destruct (N.eqb_spec (e_upd e) 0); cbn; lia.
Qed.

Lemma In_idx_seg P Q ss is i s q : core P Q ss is -> nth_error is i = Some s -> Q q -> owns s (e_id q) -> In q (sg_elems s).
Proof.
  intros HC Hi Hq Ho. pose proof (c_i _ _ _ _ HC) as HI.
  apply (holds_nth _ _ _ _ (so_holds _ _ HI) Hi). split; [exact Hq|].
  apply aligned_in_range.
  - eapply aligned_one; [apply HC|eauto using nth_error_In].
  - pose proof (tile_from_widths _ _ (so_tile _ _ HI)) as Hw. rewrite Forall_forall in Hw. eauto using nth_error_In.
  - apply good_ok, (so_good _ _ HI), Hq.
  - destruct (c_form _ _ _ _ HC q Hq) as (-> & _). exact Ho.
Qed.

Definition exi_ok (Q : element -> Prop) (exi : list (N * element)) (id : N) : Prop :=
  match assoc id exi with
  | Some ex => Q ex /\ e_id ex = id
  | None => forall q, Q q -> e_id q <> id
  end.

Lemma update_step_core clk clki idxm exi eidx sidx e P Q ss is dst iseg :
  core P Q ss is ->
  (forall i s, nth_error ss i = Some s -> idx_get idxm (sg_id s) = i) ->
  nth_error ss sidx = Some dst -> in_range dst e -> good_in e ->
  0 < clk (e_id e) < max_u32 -> 0 < clki (e_id e) < max_u32 ->
  nth_error is (idx_get eidx (e_id e)) = Some iseg -> owns iseg (e_id e) ->
  exi_ok Q exi (e_id e) ->
  let w := update_step clk clki idxm exi eidx sidx (ss, is) e in
  map bare (fst w) = map bare ss /\ map bare (snd w) = map bare is /\
  exists Q', (forall q, e_id q <> e_id e -> Q' q <-> Q q) /\
    core (apply_change P (fun x => x = with_time (clk (e_id e)) e) (fun i => i = e_id e)) Q' (fst w) (snd w).
Proof.
  intros HC Hidx Hdst Hr Hg Hck Hcki Hiseg Hown Hexi. set (id := e_id e) in *.
  set (ii := idx_get eidx id) in *.
  pose proof (c_s _ _ _ _ HC) as HS. pose proof (c_i _ _ _ _ HC) as HI.
  set (e1 := with_time (clk id) e).
  destruct (with_time_key (clk id) e) as (Ke1 & Ke2 & _).
  assert (Hid1 : e_id e1 = id) by apply with_time_id.
  assert (Hr1 : in_range dst e1) by (eapply in_range_key; [exact Ke1|exact Ke2|exact Hr]).
  assert (Hg1 : good e1) by (apply with_time_good; assumption).
  destruct (score_ok_seg_ranked _ _ _ _ HS Hdst) as (Hrd & Hdd).
  destruct (score_ok_seg_ranked _ _ _ _ HI Hiseg) as (Hri & Hdi).
  pose proof (c_id _ _ _ _ HC) as Hcid. rewrite Forall_forall in Hcid.
  assert (Hdid : sg_id dst <= max_u32) by (apply Hcid; eapply nth_error_In; eauto).
  set (idx := as_index e (sg_id dst)).
  set (q1 := with_time (clki id) idx).
  assert (Hgi : good_in idx).
  { destruct Hg as ((A & B & C & D) & E). unfold good_in, elem_ok, idx, as_index. cbn. lia. }
  assert (Hgq1 : good q1) by (apply with_time_good; assumption).
  assert (Hqid : e_id q1 = id) by (unfold q1; rewrite with_time_id; reflexivity).
  destruct (with_time_key (clki id) idx) as (Kq1 & Kq2 & Kq3).
  assert (Hfq1 : idx_elem q1) by (split; [rewrite Hqid; exact Kq1|exact Kq3]).
  assert (Hrq1 : in_range iseg q1).
  { apply aligned_in_range.
    - eapply aligned_one; [apply HC|eauto using nth_error_In].
    - pose proof (tile_from_widths _ _ (so_tile _ _ HI)) as Hw. rewrite Forall_forall in Hw. eauto using nth_error_In.
    - apply good_ok, Hgq1.
    - destruct Hfq1 as (-> & _). rewrite Hqid. exact Hown. }
  assert (HAok : forall x, x = e1 -> good x /\ e_id x = id) by (intros x ->; auto).
  assert (HuA : forall y : element, uniq (fun x => x = y)) by (intros y a b -> -> _; reflexivity).
  assert (Hlk : forall q, e_id q = id -> e_tie q = sg_id dst ->
    forall i t, (exists q', q' = q /\ e_id q' = i /\ e_tie q' = t) <->
      (exists s x, In s ss /\ x = e1 /\ in_range s x /\ e_id x = i /\ sg_id s = t)).
  { intros q Eq1 Eq2 i t. split.
    - intros (q' & -> & <- & <-). exists dst, e1. split; [eapply nth_error_In; eauto|]. split; [reflexivity|]. split; [exact Hr1|]. split; congruence.
    - intros (s & x & Hs & -> & Hx & <- & <-). exists q. split; [reflexivity|]. split; [congruence|].
      apply In_nth_error in Hs as (j & Hj). assert (j = sidx) by exact (seg_unique P ss j sidx s dst e1 HS Hj Hdst Hx Hr1). subst j. congruence. }
  (* the add to the destination *)
  destruct (c04_add (clk id) e (sg_elems dst) ltac:(lia) Hrd Hdd) as (ld & id_ & Hadd & Hrad & _ & Hinad).
  fold e1 id in Hinad.
  set (fadd := fun l => res_or l (add_elem (clk id) e l)).
  assert (Hfadd : fadd (sg_elems dst) = ld) by (unfold fadd; rewrite Hadd; reflexivity).
  unfold update_step. rewrite Hdst. fold id ii. cbn zeta. fold idx. fold fadd.
  unfold exi_ok in Hexi. destruct (assoc id exi) as [ex|] eqn:Eex.
  - destruct Hexi as (Qex & Eexid).
    destruct (only_in _ _ _ _ ex HC Qex) as (j & sj & xj & Hj & Esj & Hxj & Eidj & Honly).
    rewrite Eexid in Honly, Eidj.
    destruct (N.eqb_spec (e_tie ex) (sg_id dst)) as [Et|Et].
    + (* same segment *)
      assert (j = sidx).
      { rewrite <- (Hidx j sj Hj), <- (Hidx sidx dst Hdst). congruence. }
      subst j. rewrite Hdst in Hj. injection Hj as <-.
      destruct (proj2 (c04_update (clk id) e (sg_elems dst) Hrd Hdd)) as (lu & iu & Hupd & Hru & _ & Hinu).
      { fold id. rewrite <- Eidj. apply in_map. exact Hxj. }
      fold e1 id in Hinu. cbn [fst snd].
      split; [apply upd_nth_map; intros; apply bare_set_elems|]. split; [reflexivity|].
      exists (apply_change Q (fun q => q = ex) (fun i => i = id)). split.
      { intros q Hq. unfold apply_change. split; [intros [->|(H & _)]; [congruence|exact H]|intros H; right; auto]. }
      apply core_change with (ss := ss) (is := is); auto.
      * apply upd_nth_map. reflexivity.
      * eapply changed_at; try eassumption.
        -- cbv beta. unfold res_or. rewrite Hupd. exact Hru.
        -- cbv beta. unfold res_or. rewrite Hupd. exact Hinu.
        -- intros i s x Hi Hs Hx Ex. apply Hi. eapply Honly; eauto.
      * intros i s s' Hs Hs'. rewrite Hs in Hs'. injection Hs' as <-. split; [eapply score_ok_seg_ranked; [exact HI|eauto]|].
        intros q. pose proof (holds_nth _ _ _ _ (so_holds _ _ HI) Hs) as (_ & Hh). split.
        -- intros Hq. destruct (N.eq_dec (e_id q) id) as [E|E]; [|auto]. left.
           apply Hh in Hq as (Qq & Rq). assert (q = ex) by (apply (so_uniq _ _ HI); auto; congruence). subst q. auto.
        -- intros [(-> & Rq)|(Hq & _)]; [apply Hh; auto|exact Hq].
      * intros q ->. split; [apply (so_good _ _ HI); exact Qex|exact Eexid].
      * intros q ->. apply (c_form _ _ _ _ HC). exact Qex.
    + (* moves to another segment *)
      rewrite Hiseg.
      assert (Hexin : In ex (sg_elems iseg)) by (eapply In_idx_seg; eauto; rewrite Eexid; exact Hown).
      destruct (proj2 (c04_update (clki id) idx (sg_elems iseg) Hri Hdi)) as (lu & iu & Hupd & Hru & _ & Hinu).
      { change (e_id idx) with id. rewrite <- Eexid. apply in_map. exact Hexin. }
      fold q1 in Hinu. change (e_id idx) with id in Hinu. rewrite Hupd. cbn [is_ok fst snd].
      assert (Hjs : sidx <> j).
      { intros <-. rewrite Hdst in Hj. injection Hj as <-. congruence. }
      rewrite <- Esj, (Hidx j sj Hj).
      split; [rewrite !upd_nth_map by (intros; apply bare_set_elems); reflexivity|].
      split; [apply upd_nth_map; intros; apply bare_set_elems|].
      exists (apply_change Q (fun q => q = q1) (fun i => i = id)). split.
      { intros q Hq. unfold apply_change. split; [intros [->|(H & _)]; [congruence|exact H]|intros H; right; auto]. }
      apply core_change with (ss := ss) (is := is); auto.
      * rewrite !upd_nth_map by reflexivity. reflexivity.
      * apply upd_nth_map. reflexivity.
      * eapply changed_two; try eassumption.
        -- rewrite Hfadd. exact Hrad.
        -- rewrite Hfadd. exact Hinad.
        -- intros s Hs. rewrite Hj in Hs. injection Hs as <-.
           destruct (score_ok_seg_ranked _ _ _ _ HS Hj) as (Hrj & Hdj).
           destruct (proj2 (c04_delete id (sg_elems sj) Hdj)) as (l' & Hdel & El' & Hrl).
           { rewrite <- Eidj. apply in_map. exact Hxj. }
           cbv beta. rewrite Hdel. split; [auto|]. intros x. rewrite El', filter_In. intuition lia.
        -- intros i s x _ Hi Hs Hx Ex. apply Hi. eapply Honly; eauto.
      * eapply changed_at; try eassumption.
        -- cbv beta. unfold res_or. rewrite Hupd. exact Hru.
        -- cbv beta. unfold res_or. rewrite Hupd. exact Hinu.
        -- intros i s x Hi Hs Hx Ex. apply Hi.
           destruct (score_ok_seg _ _ s x HI (nth_error_In _ _ Hs) Hx) as (Qx & Rx).
           assert (x = ex) by (apply (so_uniq _ _ HI); auto; congruence). subst x.
           eapply NoDup_elems_segs; eauto. apply ranked_NoDup. eapply score_ok_ranked; eauto.
      * intros q ->. auto.
      * intros q ->. exact Hfq1.
  - (* new element *)
    pose proof (not_indexed _ _ _ _ id HC Hexi) as HP.
    destruct (c04_add (clki id) idx (sg_elems iseg) ltac:(lia) Hri Hdi) as (la & ia & Hai & Hra & _ & Hina).
    fold q1 in Hina. change (e_id idx) with id in Hina. cbn [fst snd].
    split; [apply upd_nth_map; intros; apply bare_set_elems|].
    split; [apply upd_nth_map; intros; apply bare_set_elems|].
    exists (apply_change Q (fun q => q = q1) (fun i => i = id)). split.
    { intros q Hq. unfold apply_change. split; [intros [->|(H & _)]; [congruence|exact H]|intros H; right; auto]. }
    apply core_change with (ss := ss) (is := is); auto.
    + apply upd_nth_map. reflexivity.
    + apply upd_nth_map. reflexivity.
    + eapply changed_at; try eassumption.
      * rewrite Hfadd. exact Hrad.
      * rewrite Hfadd. exact Hinad.
      * intros i s x _ Hs Hx. apply HP. eapply (score_ok_seg _ _ s x HS); eauto using nth_error_In.
    + eapply changed_at; try eassumption.
      * cbv beta. unfold res_or. rewrite Hai. exact Hra.
      * cbv beta. unfold res_or. rewrite Hai. exact Hina.
      * intros i s x _ Hs Hx. apply Hexi. eapply (score_ok_seg _ _ s x HI); eauto using nth_error_In.
    + intros q ->. auto.
    + intros q ->. exact Hfq1.
Qed.

(** ** the loop, flattened *)
Definition pairs (groups : list (nat * elements)) : list (nat * element) :=
  flat_map (fun g => map (pair (fst g)) (snd g)) groups.

Lemma update_loop_pairs clk clki idxm exi eidx groups : forall w,
  update_loop clk clki idxm exi eidx groups w =
  fold_left (fun w p => update_step clk clki idxm exi eidx (fst p) w (snd p)) (pairs groups) w.
Proof.
  unfold update_loop, pairs. induction groups as [|g r IH]; intros w; [reflexivity|].
  cbn [fold_left flat_map]. rewrite fold_left_app, IH. f_equal.
  clear IH. destruct g as [k es]. cbn [fst snd]. revert w.
  induction es as [|x es IHe]; intros w; [reflexivity|]. cbn [map fold_left fst snd]. apply IHe.
Qed.

Definition new_of (clk : N -> N) (e : element) : element := with_time (clk (e_id e)) e.

Lemma bare_nth l l' i s : map bare l' = map bare l -> nth_error l i = Some s ->
  exists s', nth_error l' i = Some s' /\ bare s' = bare s.
Proof.
  intros H Hn. assert (E : nth_error (map bare l) i = Some (bare s)) by (rewrite nth_error_map, Hn; reflexivity).
  rewrite <- H, nth_error_map in E. destruct (nth_error l' i) as [s'|]; [|discriminate].
  exists s'. split; [reflexivity|]. cbn [option_map] in E. congruence.
Qed.
Lemma bare_frame s s' : bare s' = bare s -> frame s' = frame s.
Proof. intros H. change (frame (bare s') = frame (bare s)). rewrite H. reflexivity. Qed.

Lemma update_loop_core clk clki idxm exi eidx : forall ps P Q ss is,
  core P Q ss is ->
  (forall i s, nth_error ss i = Some s -> idx_get idxm (sg_id s) = i) ->
  NoDup (map (fun p => e_id (snd p)) ps) ->
  (forall p, In p ps -> good_in (snd p) /\ 0 < clk (e_id (snd p)) < max_u32 /\ 0 < clki (e_id (snd p)) < max_u32 /\
     exi_ok Q exi (e_id (snd p)) /\
     (exists dst, nth_error ss (fst p) = Some dst /\ in_range dst (snd p)) /\
     (exists iseg, nth_error is (idx_get eidx (e_id (snd p))) = Some iseg /\ owns iseg (e_id (snd p)))) ->
  let w := fold_left (fun w p => update_step clk clki idxm exi eidx (fst p) w (snd p)) ps (ss, is) in
  map bare (fst w) = map bare ss /\ map bare (snd w) = map bare is /\
  exists Q', core (fun x => (exists p, In p ps /\ x = new_of clk (snd p)) \/
                            (P x /\ ~ In (e_id x) (map (fun p => e_id (snd p)) ps))) Q' (fst w) (snd w).
Proof.
  induction ps as [|p ps IH]; intros P Q ss is HC Hidx Hnd Hps w.
  { cbn in w. subst w. cbn [fst snd]. repeat split. exists Q. eapply core_ext; [|exact HC].
    intros x. cbn. split; [auto|]. intros [(p & [] & _)|(H & _)]. exact H. }
  cbn [fold_left] in w. cbn [map] in Hnd. apply NoDup_cons_iff in Hnd as (Hni & Hnd).
  destruct (Hps p (or_introl eq_refl)) as (Hg & Hck & Hcki & Hex & (dst & Hd & Hrd) & (iseg & Hi & Ho)).
  destruct (update_step_core clk clki idxm exi eidx (fst p) (snd p) P Q ss is dst iseg HC Hidx Hd Hrd Hg Hck Hcki Hi Ho Hex)
    as (B1 & B2 & Q1 & HQ1 & HC1).
  destruct (update_step clk clki idxm exi eidx (fst p) (ss, is) (snd p)) as [ss1 is1] eqn:Es. cbn [fst snd] in *.
  edestruct (IH _ _ ss1 is1 HC1) as (B3 & B4 & Q' & HC').
  - intros i s Hs. destruct (bare_nth _ _ _ _ (eq_sym B1) Hs) as (s0 & Hs0 & E).
    rewrite <- (Hidx i s0 Hs0). f_equal. apply bare_frame, frame_eq in E as (E & _). congruence.
  - exact Hnd.
  - intros p' Hp'. destruct (Hps p' (or_intror Hp')) as (Hg' & Hck' & Hcki' & Hex' & (dst' & Hd' & Hrd') & (iseg' & Hi' & Ho')).
    assert (Hne : e_id (snd p') <> e_id (snd p)).
    { intros E. apply Hni. rewrite <- E. apply (in_map (fun p => e_id (snd p))). exact Hp'. }
    repeat split; try apply Hg'; try apply Hck'; try apply Hcki'.
    + unfold exi_ok in *. destruct (assoc (e_id (snd p')) exi) as [ex|].
      * destruct Hex' as (Qx & Ex). split; [apply HQ1; [congruence|exact Qx]|exact Ex].
      * intros q Hq E. apply (Hex' q); [|exact E]. apply HQ1; [congruence|exact Hq].
    + destruct (bare_nth _ _ _ _ B1 Hd') as (s' & Hs' & E). exists s'. split; [exact Hs'|].
      apply bare_frame, frame_eq in E as (_ & _ & _ & _ & E & _). apply E. exact Hrd'.
    + destruct (bare_nth _ _ _ _ B2 Hi') as (s' & Hs' & E). exists s'. split; [exact Hs'|].
      unfold owns in *. apply (f_equal (fun s => (sg_min s, sg_max s))) in E. cbn in E. injection E as -> ->. exact Ho'.
  - subst w. rewrite B3, B4. split; [exact B1|]. split; [exact B2|]. exists Q'.
    eapply core_ext; [|exact HC']. intros x. unfold apply_change. cbn [map In]. split.
    + intros [(p' & Hp' & ->)|([->|(Hx & Hn1)] & Hn)].
      * left. exists p'. auto.
      * left. exists p. auto.
      * right. split; [exact Hx|]. intros [E|E]; [congruence|auto].
    + intros [(p' & [<-|Hp'] & ->)|(Hx & Hn)].
      * right. split; [left; reflexivity|]. unfold new_of. rewrite with_time_id. exact Hni.
      * left. exists p'. auto.
      * right. split; [right; split; [exact Hx|intros E; apply Hn; left; congruence]|]. intros C. apply Hn. right; exact C.
Qed.
