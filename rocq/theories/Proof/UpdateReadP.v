(** UpdateElements while reads fail. *)
From Coq Require Import Strings.String.
From Verif.Lib Require Import Prelude ListAux ListLemmas SortLemmas Perm.
From Verif.Model Require Import Element Elements Segment List ReadFail.
From Verif.Spec Require Import RankSpec QuerySpec AnswerSpec ReadFailSpec.
From Verif.Proof Require Import ElementP ElementsP ElementsThm SegP InvDef QueryP LookupP ChangeP UpdateP UpdateInv HistoryP ReadFailP.
Open Scope N_scope.

Lemma seg_load_in ok i ld ld' : seg_load ok i ld = Some ld' -> In i ld' /\ incl ld ld' /\
  (forall j, In j ld' -> In j ld \/ (j = i /\ ok = true)).
Proof.
  unfold seg_load. destruct (existsb (Nat.eqb i) ld) eqn:E.
  - intros H. injection H as <-. apply existsb_nat in E. split; [exact E|]. split; [apply incl_refl|auto].
  - destruct ok; [|discriminate]. intros H. injection H as <-. split; [left; reflexivity|]. split; [apply incl_tl, incl_refl|].
    intros j [<-|Hj]; auto.
Qed.
Lemma seg_load_none ok i ld : seg_load ok i ld = None -> ok = false /\ ~ In i ld.
Proof.
  unfold seg_load. destruct (existsb (Nat.eqb i) ld) eqn:E; [discriminate|]. destruct ok; [discriminate|]. intros _. split; [reflexivity|].
  intros C. apply existsb_nat in C. congruence.
Qed.
Lemma seg_load_have ok i ld : In i ld -> seg_load ok i ld = Some ld.
Proof. intros H. unfold seg_load. apply existsb_nat in H. rewrite H. reflexivity. Qed.

(** ** the loop, one element after the other *)
Definition gstep (rdd : nat -> bool) (rdo : N -> bool) clk clki idxm exi eidx (w : (list seg * list seg) * list nat) (p : nat * element) :
    (list seg * list seg) * list nat :=
  match seg_load (rdd (fst p)) (fst p) (snd w) with
  | None => w
  | Some ld => update_step_r rdo clk clki idxm exi eidx (fst p) (fst w, ld) (snd p)
  end.
Lemma step_r_loaded rdo clk clki idxm exi eidx k w e : incl (snd w) (snd (update_step_r rdo clk clki idxm exi eidx k w e)).
Proof.
  destruct w as [[ss is] ld]. unfold update_step_r. destruct (nth_error ss k) as [dst|]; [|apply incl_refl]. cbn zeta.
  destruct (assoc (e_id e) exi) as [ex|]; [|apply incl_refl]. destruct (e_tie ex =? sg_id dst); [apply incl_refl|].
  destruct (nth_error is (idx_get eidx (e_id e))) as [iseg|]; [|apply incl_refl].
  destruct (is_ok _); [|apply incl_refl].
  destruct (seg_load (rdo (e_id e)) (idx_get idxm (e_tie ex)) ld) as [ld'|] eqn:E; [|apply incl_refl].
  apply seg_load_in in E. cbn [snd]. tauto.
Qed.
Lemma loop_pairs rdd rdo clk clki idxm exi eidx groups : (forall g, In g groups -> snd g <> []) -> forall w,
  update_loop_r rdd rdo clk clki idxm exi eidx groups w = fold_left (gstep rdd rdo clk clki idxm exi eidx) (pairs groups) w.
Proof.
  unfold update_loop_r, pairs. induction groups as [|g r IH]; intros Hne w; [reflexivity|].
  cbn [fold_left flat_map]. rewrite fold_left_app, IH by (intros; apply Hne; right; assumption). f_equal. clear IH.
  assert (Hg : snd g <> []) by (apply Hne; left; reflexivity). clear Hne r. destruct g as [k es]. cbn [fst snd] in *.
  unfold update_group_r. cbn [fst snd]. destruct es as [|e es]; [congruence|]. clear Hg. cbn [map fold_left]. unfold gstep at 2. cbn [fst snd].
  destruct (seg_load (rdd k) k (snd w)) as [ld|] eqn:El.
  - apply seg_load_in in El as (Hk & _).
    assert (Hk' : In k (snd (update_step_r rdo clk clki idxm exi eidx k (fst w, ld) e))) by (eapply step_r_loaded; exact Hk).
    clear Hk. revert Hk'. generalize (update_step_r rdo clk clki idxm exi eidx k (fst w, ld) e). clear.
    induction es as [|e es IH]; intros w Hk; [reflexivity|]. cbn [map fold_left]. unfold gstep at 2. cbn [fst snd].
    rewrite (seg_load_have _ _ _ Hk). rewrite <- surjective_pairing. apply IH. eapply step_r_loaded; exact Hk.
  - induction es as [|e' es IH]; [reflexivity|]. cbn [map fold_left]. unfold gstep at 2. cbn [fst snd]. rewrite El. exact IH.
Qed.

(** ** segments with leftovers *)
Definition rel (D : list (nat * element)) (ss ssr : list seg) : Prop :=
  map bare ssr = map bare ss /\
  forall i s, nth_error ss i = Some s -> exists sr, nth_error ssr i = Some sr /\
    ranked (sg_elems sr) /\ distinct_ids (sg_elems sr) /\ forall x, In x (sg_elems sr) <-> In x (sg_elems s) \/ In (i, x) D.
Lemma distinct_after l l' y id : distinct_ids l -> ranked l' -> e_id y = id ->
  (forall x, In x l' <-> x = y \/ (In x l /\ e_id x <> id)) -> distinct_ids l'.
Proof.
  intros Hd Hr <- H. eapply ranked_elems_distinct with (P := fun x => x = y \/ (In x l /\ e_id x <> e_id y)); [exact Hr| |intros x; apply H].
  assert (Hinj : forall a b, In a l -> In b l -> e_id a = e_id b -> a = b).
  { clear - Hd. unfold distinct_ids in Hd. induction l as [|z r IH]; intros a b Ha Hb E; [contradiction|].
    cbn in Hd. apply NoDup_cons_iff in Hd as (Hz & Hr). destruct Ha as [->|Ha], Hb as [->|Hb]; auto.
    - exfalso. apply Hz. rewrite E. apply in_map. exact Hb.
    - exfalso. apply Hz. rewrite <- E. apply in_map. exact Ha. }
  intros a b [->|(Ha & Na)] [->|(Hb & Nb)] E; auto; congruence.
Qed.
Lemma rel_upd D ss ssr k s sr f y id : rel D ss ssr -> e_id y = id -> nth_error ss k = Some s -> nth_error ssr k = Some sr ->
  (forall i x, In (i, x) D -> e_id x <> id) ->
  ranked (f (sg_elems sr)) ->
  (forall x, In x (f (sg_elems s)) <-> x = y \/ (In x (sg_elems s) /\ e_id x <> id)) ->
  (forall x, In x (f (sg_elems sr)) <-> x = y \/ (In x (sg_elems sr) /\ e_id x <> id)) ->
  rel D (upd_nth k (set_elems f) ss) (upd_nth k (set_elems f) ssr).
Proof.
  intros (HB & HR) Hy Hs Hsr HD Hrk H1 H2. split.
  { rewrite !upd_nth_map by (intros; apply bare_set_elems). exact HB. }
  intros i t Hi. rewrite upd_nth_nth in Hi. destruct (Nat.eqb_spec k i) as [<-|Hne].
  - rewrite Hs in Hi. cbn in Hi. injection Hi as <-. exists (set_elems f sr). rewrite upd_nth_nth, Nat.eqb_refl, Hsr.
    split; [reflexivity|]. rewrite !set_elems_elems. split; [exact Hrk|].
    destruct (HR k s Hs) as (sr' & E & Hr0 & Hd0 & Hin). rewrite Hsr in E. injection E as <-.
    split; [eapply distinct_after; [exact Hd0|exact Hrk|exact Hy|exact H2]|].
    intros x. rewrite H2, H1, Hin. specialize (HD k x). intuition.
  - destruct (HR i t Hi) as (sr' & E & H). exists sr'. rewrite upd_nth_nth. destruct (Nat.eqb_spec k i); [contradiction|]. auto.
Qed.
Lemma rel_del D ss ssr j s sr id : rel D ss ssr -> nth_error ss j = Some s -> nth_error ssr j = Some sr -> distinct_ids (sg_elems s) ->
  (exists x, In x (sg_elems s) /\ e_id x = id) ->
  (forall i x, In (i, x) D -> e_id x <> id) ->
  let f := fun l => match delete_elem id l with Ok l' => l' | NotFound => l end in
  rel D (upd_nth j (set_elems f) ss) (upd_nth j (set_elems f) ssr).
Proof.
  intros (HB & HR) Hs Hsr Hds (x0 & Hx0 & Ex0) HD f. split.
  { rewrite !upd_nth_map by (intros; apply bare_set_elems). exact HB. }
  assert (Hf : forall l, distinct_ids l -> In x0 l -> f l = filter (fun x => negb (e_id x =? id)) l /\ (ranked l -> ranked (f l))).
  { intros l Hd Hx. destruct (proj2 (c04_delete id l Hd)) as (l' & E & E' & Hr'); [rewrite <- Ex0; apply in_map; exact Hx|].
    unfold f. rewrite E. auto. }
  intros i t Hi. rewrite upd_nth_nth in Hi. destruct (Nat.eqb_spec j i) as [<-|Hne].
  - rewrite Hs in Hi. cbn in Hi. injection Hi as <-. exists (set_elems f sr). rewrite upd_nth_nth, Nat.eqb_refl, Hsr.
    split; [reflexivity|]. rewrite !set_elems_elems.
    destruct (HR j s Hs) as (sr' & E & Hr0 & Hd0 & Hin). rewrite Hsr in E. injection E as <-.
    assert (Hx0r : In x0 (sg_elems sr)) by (apply Hin; auto).
    destruct (Hf _ Hd0 Hx0r) as (E1 & R1). destruct (Hf _ Hds Hx0) as (E2 & _).
    split; [auto|]. split.
    { rewrite E1. unfold distinct_ids. clear - Hd0. unfold distinct_ids in Hd0. induction (sg_elems sr) as [|z r IH]; cbn; [constructor|].
      cbn in Hd0. apply NoDup_cons_iff in Hd0 as (Hz & Hr). destruct (negb (e_id z =? id)); cbn; [|auto]. constructor; [|auto].
      intros C. apply Hz. apply in_map_iff in C as (y & E & Hy). apply filter_In in Hy as (Hy & _). rewrite <- E. apply in_map. exact Hy. }
    intros x. rewrite E1, E2, !filter_In, Hin. specialize (HD j x). rewrite negb_true_iff, N.eqb_neq. intuition.
  - destruct (HR i t Hi) as (sr' & E & H). exists sr'. rewrite upd_nth_nth. destruct (Nat.eqb_spec j i); [contradiction|]. auto.
Qed.

Lemma step_rel rdo clk clki idxm exi eidx k e P Q ss is ssr ld dst iseg D :
  core P Q ss is -> rel D ss ssr -> (forall i x, In (i, x) D -> e_id x <> e_id e) ->
  (forall i s, nth_error ss i = Some s -> idx_get idxm (sg_id s) = i) ->
  nth_error ss k = Some dst -> 0 < clk (e_id e) < max_u32 -> 0 < clki (e_id e) < max_u32 ->
  nth_error is (idx_get eidx (e_id e)) = Some iseg -> owns iseg (e_id e) ->
  exi_ok Q exi (e_id e) -> In k ld ->
  exists ssr' is' ld' ss' D',
    update_step_r rdo clk clki idxm exi eidx k ((ssr, is), ld) e = ((ssr', is'), ld') /\
    update_step clk clki idxm exi eidx k (ss, is) e = (ss', is') /\ rel D' ss' ssr' /\ incl ld ld' /\
    (forall i, ~ In i ld' -> nth_error ssr' i = nth_error ssr i) /\
    (forall i, In i ld' -> In i ld \/ (rdo (e_id e) = true /\ exists s x, nth_error ss i = Some s /\ In x (sg_elems s) /\ e_id x = e_id e)) /\
    ((D' = D /\ forall i s x, nth_error ss i = Some s -> In x (sg_elems s) -> e_id x = e_id e -> In i ld') \/
     (exists j s x, D' = (j, x) :: D /\ nth_error ss j = Some s /\ In x (sg_elems s) /\ e_id x = e_id e /\ j <> k /\ rdo (e_id e) = false /\ ~ In j ld)).
Proof.
  intros HC HR HD Hidx Hdst Hck Hcki Hiseg Hown Hexi Hk. set (id := e_id e) in *. set (ii := idx_get eidx id) in *.
  pose proof (c_s _ _ _ _ HC) as HS. pose proof (c_i _ _ _ _ HC) as HI.
  destruct (score_ok_seg_ranked _ _ _ _ HS Hdst) as (Hrd & Hdd).
  destruct (score_ok_seg_ranked _ _ _ _ HI Hiseg) as (Hri & Hdi).
  destruct (proj2 HR k dst Hdst) as (dr & Hdr & Hrdr & Hddr & Hin).
  assert (Hids : sg_id dr = sg_id dst).
  { destruct (bare_nth _ _ _ _ (proj1 HR) Hdst) as (s' & Hs' & E). rewrite Hdr in Hs'. injection Hs' as <-. apply (f_equal sg_id) in E. exact E. }
  destruct (c04_add (clk id) e (sg_elems dst) ltac:(lia) Hrd Hdd) as (l1 & i1 & Ha1 & Hr1 & _ & Hi1).
  destruct (c04_add (clk id) e (sg_elems dr) ltac:(lia) Hrdr Hddr) as (l2 & i2 & Ha2 & Hr2 & _ & Hi2).
  fold id in Hi1, Hi2.
  set (fadd := fun l => res_or l (add_elem (clk id) e l)).
  assert (Hf1 : fadd (sg_elems dst) = l1) by (unfold fadd; rewrite Ha1; reflexivity).
  assert (Hf2 : fadd (sg_elems dr) = l2) by (unfold fadd; rewrite Ha2; reflexivity).
  assert (Hadd : rel D (upd_nth k (set_elems fadd) ss) (upd_nth k (set_elems fadd) ssr)).
  { eapply rel_upd with (y := with_time (clk id) e) (id := id); eauto; try apply with_time_id; rewrite ?Hf1, ?Hf2; auto. }
  assert (Hun : forall f i, ~ In i ld -> nth_error (upd_nth k f ssr) i = nth_error ssr i).
  { intros f i Hi. rewrite upd_nth_nth. destruct (Nat.eqb_spec k i); [subst; contradiction|reflexivity]. }
  unfold update_step_r, update_step. rewrite Hdst, Hdr. fold id ii. cbn zeta. rewrite Hids. fold fadd.
  unfold exi_ok in Hexi. destruct (assoc id exi) as [ex|] eqn:Eex.
  - destruct Hexi as (Qex & Eexid).
    destruct (only_in _ _ _ _ ex HC Qex) as (j & sj & xj & Hj & Esj & Hxj & Eidj & Honly).
    rewrite Eexid in Honly, Eidj.
    destruct (N.eqb_spec (e_tie ex) (sg_id dst)) as [Et|Et].
    + assert (j = k) by (rewrite <- (Hidx j sj Hj), <- (Hidx k dst Hdst); congruence). subst j.
      rewrite Hdst in Hj. injection Hj as <-.
      destruct (proj2 (c04_update (clk id) e (sg_elems dst) Hrd Hdd)) as (u1 & j1 & Hu1 & Hru1 & _ & Hiu1).
      { fold id. rewrite <- Eidj. apply in_map. exact Hxj. }
      destruct (proj2 (c04_update (clk id) e (sg_elems dr) Hrdr Hddr)) as (u2 & j2 & Hu2 & Hru2 & _ & Hiu2).
      { fold id. rewrite <- Eidj. apply in_map. apply Hin. left. exact Hxj. }
      fold id in Hiu1, Hiu2.
      do 5 eexists. split; [reflexivity|]. split; [reflexivity|]. split.
      { eapply rel_upd with (y := with_time (clk id) e) (id := id); eauto; try apply with_time_id; cbv beta; unfold res_or; rewrite ?Hu1, ?Hu2; auto. }
      split; [apply incl_refl|]. split; [apply Hun|]. split; [auto|]. left. split; [reflexivity|].
      intros i s x Hi Hx Ex. rewrite (Honly i s x Hi Hx Ex). exact Hk.
    + rewrite Hiseg.
      assert (Hexin : In ex (sg_elems iseg)) by (eapply In_idx_seg; eauto; rewrite Eexid; exact Hown).
      destruct (proj2 (c04_update (clki id) (as_index e (sg_id dst)) (sg_elems iseg) Hri Hdi)) as (lu & iu & Hupd & _).
      { change (e_id (as_index e (sg_id dst))) with id. rewrite <- Eexid. apply in_map. exact Hexin. }
      rewrite Hupd. cbn [is_ok].
      assert (Hjk : j <> k) by (intros ->; rewrite Hdst in Hj; injection Hj as <-; congruence).
      rewrite <- Esj, (Hidx j sj Hj).
      destruct (score_ok_seg_ranked _ _ _ _ HS Hj) as (Hrj & Hdj).
      assert (Hj' : nth_error (upd_nth k (set_elems fadd) ss) j = Some sj).
      { rewrite upd_nth_nth. destruct (Nat.eqb_spec k j); [congruence|exact Hj]. }
      destruct (proj2 Hadd j sj Hj') as (sjr & Hsjr & Hrr & Hdr' & Hinj).
      destruct (seg_load (rdo id) j ld) as [ld'|] eqn:El.
      * apply seg_load_in in El as (Hjl & Hinc & Hnew).
        do 5 eexists. split; [reflexivity|]. split; [reflexivity|]. split; [eapply rel_del; eauto|].
        split; [exact Hinc|]. split.
        { intros i Hi. rewrite upd_nth_nth. destruct (Nat.eqb_spec j i) as [<-|]; [contradiction|]. apply Hun. intros C. apply Hi, Hinc, C. }
        split.
        { intros i Hi. destruct (Hnew i Hi) as [C|(-> & C)]; [auto|]. right. split; [exact C|]. exists sj, xj. auto. }
        left. split; [reflexivity|]. intros i s x Hi Hx Ex. rewrite (Honly i s x Hi Hx Ex). exact Hjl.
      * apply seg_load_none in El as (Hro & Hnj).
        do 5 eexists. split; [reflexivity|]. split; [reflexivity|]. split; [|split; [apply incl_refl|split; [apply Hun|split; [auto|]]]].
        2:{ right. exists j, sj, xj. split; [reflexivity|]. auto 10. }
        destruct (proj2 (c04_delete id (sg_elems sj) Hdj)) as (l' & Hdel & El' & Hrl).
        { rewrite <- Eidj. apply in_map. exact Hxj. }
        destruct Hadd as (HaB & HaR). split.
        { rewrite (upd_nth_map _ j) by (intros; apply bare_set_elems). exact HaB. }
        intros i s Hi. rewrite upd_nth_nth in Hi. destruct (Nat.eqb_spec j i) as [<-|Hne].
        -- rewrite Hj' in Hi. cbn in Hi. injection Hi as <-. exists sjr. split; [exact Hsjr|]. split; [exact Hrr|]. split; [exact Hdr'|].
           intros x. rewrite set_elems_elems, Hdel, El', filter_In, Hinj, negb_true_iff, N.eqb_neq. cbn [In].
           assert (Hux : In x (sg_elems sj) -> e_id x = id -> x = xj).
           { intros Hx Ex. apply (so_uniq _ _ HS); [| |congruence];
               [eapply (score_ok_seg _ _ sj x HS)|eapply (score_ok_seg _ _ sj xj HS)]; eauto using nth_error_In. }
           destruct (N.eq_dec (e_id x) id) as [E|E].
           ++ split; [intros [H|H]; auto; right; left; f_equal; symmetry; auto|intros [(H & _)|[H|H]]; auto; left; congruence].
           ++ split; [intros [H|H]; auto|intros [(H & _)|[H|H]]; auto; left; congruence].
        -- destruct (HaR i s Hi) as (sr & H1 & H2 & H3 & H4). exists sr. split; [exact H1|]. split; [exact H2|]. split; [exact H3|].
           intros x. rewrite H4. cbn [In]. split; [intros [H|H]; auto|intros [H|[H|H]]; auto; congruence].
  - do 5 eexists. split; [reflexivity|]. split; [reflexivity|]. split; [exact Hadd|]. split; [apply incl_refl|]. split; [apply Hun|].
    split; [auto|]. left. split; [reflexivity|]. intros i s x Hi Hx Ex. exfalso.
    eapply (not_indexed _ _ _ _ id HC Hexi x); [|exact Ex]. eapply (score_ok_seg _ _ s x HS); eauto using nth_error_In.
Qed.

Definition sid (p : nat * element) : N := e_id (snd p).
(** where an element is, by position *)
Definition at_pos (ss : list seg) (i : nat) (x : element) : Prop := exists s, nth_error ss i = Some s /\ in_range s x.
Lemma at_pos_bare ss ss' i x : map bare ss' = map bare ss -> at_pos ss i x -> at_pos ss' i x.
Proof.
  intros HB (s & Hs & Hr). destruct (bare_nth _ _ _ _ HB Hs) as (s' & Hs' & E). exists s'. split; [exact Hs'|].
  apply bare_frame, frame_eq in E as (_ & _ & _ & _ & E & _). apply E. exact Hr.
Qed.
Lemma loop_rel rdd rdo clk clki idxm exi eidx : forall ps P Q ss is ssr ld D,
  core P Q ss is -> rel D ss ssr ->
  (forall i x, In (i, x) D -> ~ In (e_id x) (map sid ps)) ->
  (forall i s, nth_error ss i = Some s -> idx_get idxm (sg_id s) = i) ->
  NoDup (map sid ps) ->
  (forall p, In p ps -> good_in (snd p) /\ 0 < clk (e_id (snd p)) < max_u32 /\ 0 < clki (e_id (snd p)) < max_u32 /\
     exi_ok Q exi (e_id (snd p)) /\ at_pos ss (fst p) (snd p) /\
     (exists iseg, nth_error is (idx_get eidx (e_id (snd p))) = Some iseg /\ owns iseg (e_id (snd p)))) ->
  exists done late dup ss' is' ssr' ld' Q',
    fold_left (gstep rdd rdo clk clki idxm exi eidx) ps ((ssr, is), ld) = ((ssr', is'), ld') /\
    Permutation ps (done ++ late) /\
    core (fun x => (exists p, In p done /\ x = new_of clk (snd p)) \/ (P x /\ ~ In (e_id x) (map sid done))) Q' ss' is' /\
    rel (dup ++ D) ss' ssr' /\ map bare ss' = map bare ss /\ map bare is' = map bare is /\ incl ld ld' /\
    (forall p, In p late -> rdd (fst p) = false /\ ~ In (fst p) ld) /\
    (forall p, In p done -> In (fst p) ld') /\
    (forall i x, In (i, x) dup -> P x /\ at_pos ss i x /\ rdo (e_id x) = false /\ ~ In i ld /\
       exists p, In p done /\ e_id x = sid p /\ i <> fst p) /\
    (forall p x i, In p done -> P x -> e_id x = sid p -> at_pos ss i x -> In i ld' \/ In (i, x) dup) /\
    (forall i, In i ld' -> In i ld \/ rdd i = true \/ exists x, P x /\ at_pos ss i x /\ rdo (e_id x) = true /\ In (e_id x) (map sid done)) /\
    (forall i, ~ In i ld' -> nth_error ssr' i = nth_error ssr i) /\
    (forall i, (forall p, In p ps -> idx_get eidx (e_id (snd p)) <> i) -> nth_error is' i = nth_error is i).
Proof.
  induction ps as [|p ps IH]; intros P Q ss is ssr ld D HC HR HD Hidx Hnd Hps.
  { exists [], [], [], ss, is, ssr, ld, Q. cbn [fold_left app]. split; [reflexivity|]. split; [constructor|]. split.
    { eapply core_ext; [|exact HC]. intros x. cbn. split; [auto|]. intros [(p & [] & _)|(H & _)]. exact H. }
    split; [exact HR|]. split; [reflexivity|]. split; [reflexivity|]. split; [apply incl_refl|].
    repeat split; auto; contradiction. }
  cbn [fold_left map] in *. apply NoDup_cons_iff in Hnd as (Hni & Hnd). unfold gstep at 2. cbn [fst snd].
  destruct (Hps p (or_introl eq_refl)) as (Hg & Hck & Hcki & Hex & (dst & Hd & Hrd) & (iseg & Hi & Ho)).
  destruct (seg_load (rdd (fst p)) (fst p) ld) as [ld1|] eqn:El.
  - apply seg_load_in in El as (Hk & Hinc1 & Hnew1).
    destruct (step_rel rdo clk clki idxm exi eidx (fst p) (snd p) P Q ss is ssr ld1 dst iseg D HC HR) as
      (ssr1 & is1 & ld2 & ss1 & D1 & E1 & E2 & HR1 & Hinc2 & Hun & Hnew2 & Hcase); auto.
    { intros i x HDi E. apply (HD i x HDi). left. unfold sid. auto. }
    pose proof (update_step_core clk clki idxm exi eidx (fst p) (snd p) P Q ss is dst iseg HC Hidx Hd Hrd Hg Hck Hcki Hi Ho Hex) as HU.
    cbn zeta in HU. rewrite E2 in HU. cbn [fst snd] in HU. destruct HU as (B1 & B2 & Q1 & HQ1 & HC1).
    rewrite E1.
    assert (HP1 : forall x, P x -> e_id x <> sid p -> apply_change P (fun x => x = with_time (clk (e_id (snd p))) (snd p)) (fun i => i = e_id (snd p)) x)
      by (intros x Hx Hn; right; split; [exact Hx|exact Hn]).
    edestruct (IH _ Q1 ss1 is1 ssr1 ld2 D1 HC1 HR1) as
      (done & late & dup & ss' & is' & ssr' & ld' & Q' & F & Hperm & HC' & HR' & B3 & B4 & Hinc3 & Hlate & Hdone & Hdup & Hmv & Hnew3 & Hun3 & Hui3).
    { intros i x HDi C. destruct Hcase as [(-> & _)|(j & s & y & -> & _ & _ & Ey & _)].
      - apply (HD i x HDi). right. exact C.
      - destruct HDi as [E|HDi]; [injection E as <- <-; rewrite Ey in C; contradiction|]. apply (HD i x HDi). right. exact C. }
    { intros i s Hs. destruct (bare_nth _ _ _ _ (eq_sym B1) Hs) as (s0 & Hs0 & E).
      rewrite <- (Hidx i s0 Hs0). f_equal. apply bare_frame, frame_eq in E as (E & _). congruence. }
    { exact Hnd. }
    { intros p' Hp'. destruct (Hps p' (or_intror Hp')) as (Hg' & Hck' & Hcki' & Hex' & Hd' & (iseg' & Hi' & Ho')).
      assert (Hne : e_id (snd p') <> e_id (snd p)).
      { intros E. apply Hni. unfold sid at 1. rewrite <- E. apply (in_map sid). exact Hp'. }
      split; [exact Hg'|]. split; [exact Hck'|]. split; [exact Hcki'|]. split; [|split].
      + unfold exi_ok in *. destruct (assoc (e_id (snd p')) exi) as [ex|].
        * destruct Hex' as (Qx & Ex). split; [apply HQ1; [congruence|exact Qx]|exact Ex].
        * intros q Hq E. apply (Hex' q); [|exact E]. apply HQ1; [congruence|exact Hq].
      + eapply at_pos_bare; eauto.
      + destruct (bare_nth _ _ _ _ B2 Hi') as (s' & Hs' & E). exists s'. split; [exact Hs'|].
        unfold owns in *. apply (f_equal (fun s => (sg_min s, sg_max s))) in E. cbn in E. injection E as -> ->. exact Ho'. }
    assert (Hsub : forall q, In q done -> In q ps).
    { intros q Hq. eapply Permutation_in; [symmetry; exact Hperm|]. apply in_or_app; auto. }
    assert (Hpd : forall x, In (e_id x) (map sid done) -> e_id x <> sid p).
    { intros x Hx E. apply Hni. rewrite <- E. apply in_map_iff in Hx as (q & <- & Hq). apply in_map. auto. }
    assert (HD1 : exists dup0, D1 = dup0 ++ D /\
       ((dup0 = [] /\ forall i s x, nth_error ss i = Some s -> In x (sg_elems s) -> e_id x = e_id (snd p) -> In i ld2) \/
        (exists j s x, dup0 = [(j, x)] /\ nth_error ss j = Some s /\ In x (sg_elems s) /\ e_id x = e_id (snd p) /\ j <> fst p /\ rdo (e_id (snd p)) = false /\ ~ In j ld1))).
    { destruct Hcase as [(-> & H)|(j & s & x & -> & H)]; [exists []; auto|]. exists [(j, x)]. split; [reflexivity|]. right. exists j, s, x. auto. }
    clear Hcase. destruct HD1 as (dup0 & -> & Hcase).
    pose proof (c_s _ _ _ _ HC) as HS.
    assert (Hhold : forall i s x, nth_error ss i = Some s -> (In x (sg_elems s) <-> P x /\ in_range s x)).
    { intros i s x Hs. apply (holds_nth _ _ _ _ (so_holds _ _ HS) Hs). }
    exists (p :: done), late, (dup ++ dup0), ss', is', ssr', ld', Q'.
    split; [exact F|]. split; [cbn; constructor; exact Hperm|]. split.
    { eapply core_ext; [|exact HC']. intros x. unfold apply_change. cbn [map In]. split.
      + intros [(p' & Hp' & ->)|([->|(Hx & Hn1)] & Hn)].
        * left. exists p'. auto.
        * left. exists p. auto.
        * right. split; [exact Hx|]. intros [E|E]; [unfold sid in E; congruence|auto].
      + intros [(p' & [<-|Hp'] & ->)|(Hx & Hn)].
        * right. split; [left; reflexivity|]. unfold new_of. rewrite with_time_id. intros C.
          apply in_map_iff in C as (q & Eq & Hq). apply Hni. unfold sid at 1. rewrite <- Eq. apply in_map. auto.
        * left. exists p'. auto.
        * right. split; [right; split; [exact Hx|intros E; apply Hn; left; unfold sid; congruence]|]. intros C. apply Hn. right; exact C. }
    split; [rewrite <- app_assoc; exact HR'|]. split; [congruence|]. split; [congruence|].
    assert (Hincl : incl ld ld') by (eapply incl_tran; [exact Hinc1|eapply incl_tran; eauto]).
    assert (Hincl1 : incl ld1 ld') by (eapply incl_tran; eauto).
    split; [exact Hincl|]. split.
    { intros q Hq. destruct (Hlate q Hq) as (A & B). split; [exact A|]. intros C. apply B, Hinc2, Hinc1, C. }
    split.
    { intros q [<-|Hq]; auto. }
    split.
    { intros i x Hx. apply in_app_or in Hx as [Hx|Hx].
      - destruct (Hdup i x Hx) as (A & B & C & D0 & (q & Hq & Eq & Nq)).
        assert (Hxp : e_id x <> sid p) by (apply Hpd; rewrite Eq; apply in_map; exact Hq).
        destruct A as [->|(A & _)]; [exfalso; apply Hxp; unfold sid; apply with_time_id|].
        split; [exact A|]. split; [eapply at_pos_bare; [symmetry; exact B1|exact B]|]. split; [exact C|].
        split; [intros E; apply D0, Hinc2, Hinc1, E|]. exists q. split; [right; exact Hq|]. auto.
      - destruct Hcase as [(-> & _)|(j & s & y & -> & Hj & Hy & Ey & Hjk & Hro & Hnl)]; [contradiction|].
        destruct Hx as [E|[]]. injection E as <- <-. apply (Hhold j s y Hj) in Hy as (Py & Ry).
        split; [exact Py|]. split; [exists s; auto|]. split; [rewrite Ey; exact Hro|]. split; [intros E; apply Hnl, Hinc1, E|].
        exists p. split; [left; reflexivity|]. auto. }
    split.
    { intros q x i Hq Px Ex Hx. destruct Hq as [<-|Hq].
      - destruct Hx as (s & Hs & Rs). assert (Hin : In x (sg_elems s)) by (apply (Hhold i s x Hs); auto).
        destruct Hcase as [(-> & H)|(j & s0 & y & -> & Hj & Hy & Ey & _)].
        + left. apply Hinc3. eapply H; eauto.
        + right. apply in_or_app. right. left.
          assert (x = y) by (apply (so_uniq _ _ HS); [exact Px|apply (Hhold j s0 y Hj) in Hy; tauto|unfold sid in Ex; congruence]). subst y.
          f_equal. eapply seg_unique; eauto. apply (Hhold j s0 x Hj) in Hy. tauto.
      - destruct (Hmv q x i Hq) as [H|H]; auto.
        + apply HP1; [exact Px|]. apply Hpd. rewrite Ex. apply in_map. exact Hq.
        + eapply at_pos_bare; eauto.
        + right. apply in_or_app; auto. }
    split.
    { intros i Hi'. destruct (Hnew3 i Hi') as [H|[H|(x & Px & Hx & Hr & Hm)]]; auto.
      - destruct (Hnew2 i H) as [H1|(Hr & s & x & Hs & Hx & Ex)].
        + destruct (Hnew1 i H1) as [H2|(-> & H2)]; auto.
        + right; right. apply (Hhold i s x Hs) in Hx as (Px & Rx). exists x. split; [exact Px|]. split; [exists s; auto|].
          split; [congruence|]. left. unfold sid. auto.
      - right; right. destruct Px as [->|(Px & Nx)].
        + exfalso. rewrite with_time_id in Hm. apply (Hpd (snd p)); [exact Hm|reflexivity].
        + exists x. split; [exact Px|]. split; [eapply at_pos_bare; [symmetry; exact B1|exact Hx]|]. split; [exact Hr|]. right. exact Hm. }
    split.
    { intros i Hi'. rewrite (Hun3 i Hi'). apply Hun. intros C. apply Hi', Hinc3, C. }
    intros i Hi'. rewrite Hui3 by (intros q Hq; apply Hi'; right; exact Hq).
    pose proof (update_untouched_idx clk clki idxm exi eidx i [p] (ss, is)) as HU. cbn [fold_left fst snd] in HU. rewrite E2 in HU. apply HU.
    intros q [<-|[]]. apply Hi'. left; reflexivity.
  - apply seg_load_none in El as (Hrp & Hnl).
    edestruct (IH P Q ss is ssr ld D HC HR) as
      (done & late & dup & ss' & is' & ssr' & ld' & Q' & F & Hperm & HC' & HR' & B3 & B4 & Hinc3 & Hlate & Hrest).
    { intros i x HDi C. apply (HD i x HDi). right. exact C. }
    { exact Hidx. }
    { exact Hnd. }
    { intros q Hq. apply Hps. right; exact Hq. }
    destruct Hrest as (R1 & R2 & R3 & R4 & R5 & R6).
    exists done, (p :: late), dup, ss', is', ssr', ld', Q'. split; [exact F|].
    split; [apply Permutation_cons_app; exact Hperm|]. split; [exact HC'|]. split; [exact HR'|]. split; [exact B3|]. split; [exact B4|].
    split; [exact Hinc3|]. split; [intros q [<-|Hq]; auto|]. split; [exact R1|]. split; [exact R2|]. split; [exact R3|]. split; [exact R4|].
    split; [exact R5|]. intros i Hi'. apply R6. intros q Hq. apply Hi'. right; exact Hq.
Qed.

(** ** index segments *)
Lemma groups_unread P Q ss is rdi ids : core P Q ss is -> Forall (fun v => v <= max_u64) ids ->
  forallb (fun g => rdi (fst g)) (index_groups is ids) = false <-> unreadable rdi (fun s => exists id, In id ids /\ files s id) is.
Proof.
  intros HC Hb. pose proof (c_i _ _ _ _ HC) as HI.
  destruct (split_scores_spec is ids (so_tile _ _ HI) (c_al _ _ _ _ HC) Hb) as (G1 & _ & G3). cbn zeta in *.
  assert (Eg : index_groups is ids = split_scores is ids).
  { unfold index_groups. apply filter_all. intros p Hp. rewrite Forall_forall in G3.
    destruct (G3 p Hp) as (H & _). destruct (snd p); [congruence|reflexivity]. }
  rewrite Eg. set (g := split_scores is ids) in *. split.
  - intros H. apply unread_group in H as (p & Hp & Hr). rewrite Forall_forall in G3. destruct (G3 p Hp) as (Hne & s & Hs & Ho).
    exists (fst p), s. split; [exact Hs|]. split; [|exact Hr]. destruct (snd p) as [|id rest] eqn:E; [congruence|].
    exists id. split; [|inversion Ho; assumption]. apply sort_ids_desc_In. rewrite <- G1.
    apply in_concat. exists (snd p). split; [apply in_map, Hp|]. rewrite E. left; reflexivity.
  - intros (i & s & Hi & (id & Hid & Ho) & Hr). apply not_true_is_false. intros C.
    apply sort_ids_desc_In in Hid. rewrite <- G1 in Hid. apply in_concat in Hid as (ids' & Hids & Hin).
    apply in_map_iff in Hids as (p & <- & Hp). rewrite Forall_forall in G3. destruct (G3 p Hp) as (_ & t & Ht & Hot).
    rewrite Forall_forall in Hot. specialize (Hot id Hin).
    assert (fst p = i).
    { pose proof (c_al _ _ _ _ HC) as HA. pose proof (tile_from_widths _ _ (so_tile _ _ HI)) as Hw. rewrite Forall_forall in Hw.
      pose proof (aligned_one _ s HA (nth_error_In _ _ Hi)) as As. pose proof (aligned_one _ t HA (nth_error_In _ _ Ht)) as At.
      pose proof (Hw s (nth_error_In _ _ Hi)) as Ws. pose proof (Hw t (nth_error_In _ _ Ht)) as Wt.
      destruct (Nat.lt_trichotomy (fst p) i) as [Lt|[Eq|Gt]]; [exfalso|exact Eq|exfalso].
      - pose proof (tile_from_order _ _ _ _ _ _ (so_tile _ _ HI) Ht Hi Lt) as O.
        unfold aligned, owns, files, kmin, kmax, kk, widths, max_u32 in *. inversion As; inversion At; subst. lia.
      - pose proof (tile_from_order _ _ _ _ _ _ (so_tile _ _ HI) Hi Ht Gt) as O.
        unfold aligned, owns, files, kmin, kmax, kk, widths, max_u32 in *. inversion As; inversion At; subst. lia. }
    pose proof (read_group _ _ _ C Hp) as Hrt. congruence.
Qed.
Lemma exi_In P Q ss is ids id ex : core P Q ss is -> Forall (fun v => v <= max_u64) ids ->
  In (id, ex) (existing_idx is (index_groups is ids)) -> Q ex /\ e_id ex = id /\ In id ids.
Proof.
  intros HC Hb H. pose proof (c_i _ _ _ _ HC) as HI.
  destruct (split_scores_spec is ids (so_tile _ _ HI) (c_al _ _ _ _ HC) Hb) as (G1 & _ & _). cbn zeta in *.
  unfold existing_idx in H. apply in_flat_map in H as (p & Hp & H).
  destruct (nth_error is (fst p)) as [s|] eqn:Es; [|contradiction].
  apply in_flat_map in H as (id' & Hid' & H).
  pose proof (find_elem_spec (first_with_score (sg_elems s) (snd p)) id') as F.
  destruct (find_elem (first_with_score (sg_elems s) (snd p)) id') as [e|]; [|contradiction].
  destruct H as [E|[]]. injection E as -> ->. destruct F as (F & Fid).
  split; [|split; [exact Fid|]].
  - apply first_with_score_sub in F. eapply (score_ok_seg _ _ s ex HI); eauto using nth_error_In.
  - unfold index_groups in Hp. apply filter_In in Hp as (Hp & _). apply sort_ids_desc_In. rewrite <- G1. apply in_concat.
    exists (snd p). split; [apply in_map; exact Hp|exact Hid'].
Qed.

Lemma nth_ext_error {A} : forall (l l' : list A), (forall i, nth_error l i = nth_error l' i) -> l = l'.
Proof.
  induction l as [|x l IH]; intros [|y l'] H; [reflexivity|specialize (H 0%nat); discriminate|specialize (H 0%nat); discriminate|].
  pose proof (H 0%nat) as H0. cbn in H0. injection H0 as ->. f_equal. apply IH. intros i. exact (H (S i)).
Qed.
Lemma rel_nil ss ssr : (forall s, In s ss -> ranked (sg_elems s)) -> rel [] ss ssr -> ssr = ss.
Proof.
  intros Hrk (HB & HR). assert (Hlen : length ssr = length ss) by (rewrite <- (map_length bare ssr), HB; apply map_length).
  apply nth_ext_error. intros i. destruct (nth_error ss i) as [s|] eqn:E.
  - destruct (HR i s E) as (sr & Esr & Hr & _ & Hin). rewrite Esr. f_equal.
    assert (Eb : bare sr = bare s).
    { destruct (bare_nth _ _ _ _ HB E) as (s' & Hs' & Eb). congruence. }
    assert (Ee : sg_elems sr = sg_elems s).
    { apply (ranking_unique (fun x => In x (sg_elems s))); split; [exact Hr| |eapply Hrk, nth_error_In; eauto|reflexivity]. intros x. rewrite Hin. cbn. tauto. }
    destruct sr, s. unfold bare, set_elems in Eb. cbn in Eb, Ee. congruence.
  - apply nth_error_None in E. apply nth_error_None. lia.
Qed.

(** ** the call *)
Lemma update_r_full P l rdi rdp rdd rdo clk clki now sc elems :
  Inv P l -> batch_ok elems -> clock_ok clk -> clock_ok clki -> 0 < now < max_u32 ->
  ~ unreadable rdi (fun s => exists id, In id (map e_id elems) /\ files s id) (ss_segs (l_index l)) ->
  exists l' (done late dup : list (nat * element)),
    update_elements_r rdi rdp rdd rdo clk clki now sc elems l = (l', true) /\
    let ss := ss_segs (l_scores l) in
    let P' := fun x => (exists p, In p done /\ x = new_of clk (snd p)) \/ (P x /\ ~ In (e_id x) (map sid done)) in
    Permutation elems (map snd (done ++ late)) /\
    (forall p, In p (done ++ late) -> at_pos ss (fst p) (snd p)) /\
    ranked (contents l') /\ (forall x, In x (contents l') <-> P' x \/ In x (map snd dup)) /\
    (dup = [] -> Inv P' l') /\
    (forall p, In p late -> rdd (fst p) = false) /\
    (forall i x, In (i, x) dup -> P x /\ at_pos ss i x /\ rdp (e_id x) = false /\ rdo (e_id x) = false /\
       exists p, In p done /\ e_id x = sid p /\ i <> fst p) /\
    (forall rd, (forall i, rdd i = rd i) -> (forall i x, P x -> at_pos ss i x -> rdp (e_id x) = rd i /\ rdo (e_id x) = rd i) ->
       (forall p, In p done -> rd (fst p) = true) /\
       (forall p x i, In p done -> P x -> e_id x = sid p -> at_pos ss i x -> rd i = false -> In x (map snd dup))).
Proof.
  intros HInv (Hd & Hg) Hclk Hclki Hnow Hidx. destruct (i_core _ _ HInv) as (Q & HC).
  pose proof (c_s _ _ _ _ HC) as HS. pose proof (c_i _ _ _ _ HC) as HI.
  destruct (reindex_idx _ (tile_nonempty _ (so_tile _ _ HS)) (m_idx _ (i_ms _ _ HInv))) as (Ei & Es & En & Ex & Eb).
  unfold update_elements_r. cbn zeta. rewrite Es, Ei.
  set (el := sort_elems elems). set (ids := sort_ids_desc (map e_id el)).
  assert (Hperm : Permutation el elems) by apply sort_elems_perm.
  assert (Hdel : distinct_ids el) by (eapply distinct_ids_perm; [symmetry; exact Hperm|exact Hd]).
  assert (Hgel : Forall good_in el).
  { rewrite Forall_forall in *. intros x Hx. apply Hg. eapply Permutation_in; eauto. }
  assert (Hrel : weakly_ranked el) by apply sort_elems_weak.
  assert (Hids : forall id, In id ids <-> In id (map e_id el)) by (intros; apply sort_ids_desc_In).
  assert (Hids' : forall id, In id ids <-> In id (map e_id elems)).
  { intros id. rewrite Hids. split; apply Permutation_in; apply Permutation_map; [|symmetry]; exact Hperm. }
  assert (Hidnd : NoDup ids).
  { eapply Permutation_NoDup; [symmetry; apply sort_ids_desc_perm|exact Hdel]. }
  assert (Hidb : Forall (fun v => v <= max_u64) ids).
  { apply Forall_forall. intros v Hv. apply Hids, in_map_iff in Hv as (x & <- & Hx).
    rewrite Forall_forall in Hgel. apply Hgel in Hx. unfold good_in, elem_ok in Hx. tauto. }
  pose proof (index_groups_spec _ _ _ _ ids HC Hidnd Hidb) as Hgrp. cbn zeta in Hgrp.
  pose proof (fun id ex => exi_In _ _ _ _ ids id ex HC Hidb) as HexIn.
  assert (Hread : forallb (fun g => rdi (fst g)) (index_groups (ss_segs (l_index l)) ids) = true).
  { apply not_false_is_true. intros C. apply (groups_unread _ _ _ _ _ _ HC Hidb) in C. apply Hidx.
    destruct C as (i & s & Hi & (id & Hid & Hf) & Hr). exists i, s. split; [exact Hi|]. split; [|exact Hr]. exists id. split; [apply Hids'; exact Hid|exact Hf]. }
  rewrite Hread.
  set (groups := index_groups (ss_segs (l_index l)) ids) in *.
  set (exi := existing_idx (ss_segs (l_index l)) groups) in *.
  set (ss := ss_segs (l_scores l)) in *. set (is := ss_segs (l_index l)) in *.
  destruct (pairs_dst ss el sc Hrel Hgel (so_tile _ _ HS)) as (Hps & Hpnd).
  specialize (Hpnd (distinct_NoDup _ Hdel)).
  set (dst := permute sc (split_elements_idx ss el)) in *.
  set (lo := map (fun p => idx_get (build_idx ss) (e_tie (snd p))) (filter (fun p => rdp (fst p)) exi)).
  assert (Hne : forall g, In g dst -> snd g <> []).
  { intros (j & f) Hj. apply permute_In in Hj. apply split_elements_In in Hj as (H & _);
      [exact H|assumption|assumption|eapply tile_from_widths; apply HS|eapply tile_from_le; apply HS]. }
  rewrite loop_pairs by exact Hne. set (ps := pairs dst) in *.
  assert (Hpe : forall p, In p ps -> In (snd p) el) by (intros (i & e) Hp; apply Hps in Hp; tauto).
  assert (Hpel : Permutation (map snd ps) el).
  { apply NoDup_Permutation; [exact Hpnd|apply distinct_NoDup; exact Hdel|]. intros x. split.
    - intros Hx. apply in_map_iff in Hx as (p & <- & Hp). auto.
    - intros Hx. assert (Hge : elem_ok x) by (rewrite Forall_forall in Hgel; apply Hgel in Hx; unfold good_in in Hx; tauto).
      destruct (tile_from_locate ss topk (key x) (so_tile _ _ HS) (key_le_top x Hge)) as (i & s & Hi & Hki).
      apply (in_map snd ps (i, x)). apply Hps. split; [exact Hx|]. exists s. auto. }
  assert (Hnp : NoDup (map sid ps)).
  { unfold sid. rewrite <- map_map. eapply Permutation_NoDup; [apply Permutation_map; symmetry; exact Hpel|exact Hdel]. }
  assert (Hbi : forall i s, nth_error ss i = Some s -> idx_get (build_idx ss) (sg_id s) = i)
    by (intros i s; apply idx_get_build, (c_nd _ _ _ _ HC)).
  assert (Hlo : forall i, In i lo <-> exists x, P x /\ at_pos ss i x /\ In (e_id x) ids /\ rdp (e_id x) = true).
  { intros i. unfold lo. rewrite in_map_iff. split.
    - intros ((id & ex) & <- & H). apply filter_In in H as (H & Hr). cbn [fst snd] in *.
      apply HexIn in H as (Qex & Eid & Hid).
      destruct (only_in _ _ _ _ ex HC Qex) as (j & sj & xj & Hj & Esj & Hxj & Eidj & _).
      exists xj. destruct (score_ok_seg _ _ sj xj HS (nth_error_In _ _ Hj) Hxj) as (Px & Rx).
      split; [exact Px|]. split; [|rewrite Eidj, Eid; auto]. exists sj. rewrite <- Esj, (Hbi j sj Hj). auto.
    - intros (x & Px & (s & Hs & Rs) & Hid & Hr).
      destruct (Hgrp (e_id x) Hid) as (G1 & _). unfold exi_ok in G1. destruct (assoc (e_id x) exi) as [ex|] eqn:Ea.
      + destruct G1 as (Qex & Eid). apply assoc_Some in Ea. exists (e_id x, ex). cbn [fst snd]. split; [|apply filter_In; auto].
        destruct (only_in _ _ _ _ ex HC Qex) as (j & sj & xj & Hj & Esj & _ & _ & Honly).
        rewrite <- Esj, (Hbi j sj Hj). symmetry. eapply (Honly i s x); [exact Hs| |symmetry; exact Eid].
        apply (holds_nth _ _ _ _ (so_holds _ _ HS) Hs). auto.
      + exfalso. apply (not_indexed _ _ _ _ (e_id x) HC G1 x Px). reflexivity. }
  destruct (loop_rel rdd rdo clk clki (build_idx ss) exi (elements_idx groups) ps P Q ss is ss lo [] HC) as
    (done & late & dup & ss' & is' & ssr' & ld' & Q' & F & Hpm & HC' & HR' & B1 & B2 & Hinc & Hlate & Hdone & Hdup & Hmv & Hnew & Hun & Hui); auto.
  { split; [reflexivity|]. intros i s Hs. exists s. split; [exact Hs|]. destruct (score_ok_seg_ranked _ _ _ _ HS Hs) as (A & B).
    split; [exact A|]. split; [exact B|]. intros x. cbn. tauto. }
  { intros (i & e) Hp. cbn [fst snd]. pose proof (Hps i e) as Hpie. apply Hpie in Hp as (He & s & Hs & Hin).
    destruct (Hgrp (e_id e)) as (G1 & G2 & G3); [apply Hids, in_map; exact He|].
    split; [rewrite Forall_forall in Hgel; auto|]. split; [apply Hclk|]. split; [apply Hclki|].
    split; [exact G1|]. split; [exists s; auto|exact G3]. }
  rewrite F. rewrite app_nil_r in HR'.
  unfold set_segs. rewrite En, Ex, Eb, Ei.
  rewrite set_both_eta; [|cbn; apply HInv|cbn; apply HInv].
  eexists. exists done, late, dup. split; [reflexivity|]. cbn zeta.
  assert (Hpmel : Permutation elems (map snd (done ++ late))).
  { transitivity el; [symmetry; exact Hperm|]. transitivity (map snd ps); [symmetry; exact Hpel|]. apply Permutation_map. exact Hpm. }
  assert (Hpos : forall p, In p (done ++ late) -> at_pos ss (fst p) (snd p)).
  { intros (i & e) Hp. apply (Permutation_in _ (Permutation_sym Hpm)) in Hp. apply Hps in Hp as (_ & s & Hs & Hr). exists s. auto. }
  assert (U2 : forall i, ~ In i (map fst groups) -> nth_error is' i = nth_error is i).
  { intros i Hi. apply Hui. intros p Hp C. apply Hi. rewrite <- C. apply Hgrp. apply Hids, in_map. auto. }
  set (P' := fun x => (exists p, In p done /\ x = new_of clk (snd p)) \/ (P x /\ ~ In (e_id x) (map sid done))) in *.
  pose proof (c_s _ _ _ _ HC') as HS'.
  assert (BR : map bare ssr' = map bare ss) by (rewrite (proj1 HR'); exact B1).
  assert (Hel : forall t, elems_of (touch_at now t ssr') = elems_of ssr').
  { intros t. unfold elems_of. f_equal. transitivity (map snd (map view (touch_at now t ssr'))); [rewrite map_map; reflexivity|].
    rewrite touch_at_view, map_map. reflexivity. }
  assert (Hhold : holds (fun x => P' x \/ In x (map snd dup)) ssr').
  { apply Forall_forall. intros s Hs. apply In_nth_error in Hs as (i & Hi).
    destruct (bare_nth _ _ _ _ (eq_sym (proj1 HR')) Hi) as (s0 & Hs0 & E0).
    destruct (proj2 HR' i s0 Hs0) as (sr & Hsr & Hrk & _ & Hin). rewrite Hi in Hsr. injection Hsr as <-.
    assert (Hrg : forall x, in_range s x <-> in_range s0 x).
    { intros x. apply bare_frame, frame_eq in E0 as (_ & _ & _ & _ & E & _). symmetry. apply E. }
    split; [exact Hrk|]. intros x. rewrite Hin, Hrg.
    pose proof (holds_nth _ _ _ _ (so_holds _ _ HS') Hs0) as (_ & Hh). rewrite Hh. split.
    - intros [(A & B)|A]; [auto|]. split; [right; apply (in_map snd dup (i, x)); exact A|].
      destruct (Hdup i x A) as (_ & Hp & _). apply (at_pos_bare _ ss') in Hp as (s1 & H1 & H2); [|exact B1]. congruence.
    - intros ([A|A] & B); [auto|]. right. apply in_map_iff in A as ((j & y) & Ey & A). cbn [snd] in Ey. subst y.
      destruct (Hdup j x A) as (_ & Hp & _). apply (at_pos_bare _ ss') in Hp as (s1 & H1 & H2); [|exact B1].
      assert (i = j) by (eapply seg_unique; eauto). subst j. exact A. }
  assert (Htile : tile ssr').
  { eapply tile_frames; [|apply HS']. apply frames_bare. exact (proj1 HR'). }
  assert (Hok : forall x, P' x \/ In x (map snd dup) -> elem_ok x).
  { intros x [A|A]; [apply good_ok, (so_good _ _ HS'); exact A|]. apply in_map_iff in A as ((j & y) & <- & A).
    apply good_ok, (so_good _ _ HS). apply (Hdup j y A). }
  split; [exact Hpmel|]. split; [exact Hpos|].
  unfold contents. cbn [l_scores l_index ss_segs]. rewrite Hel.
  split; [eapply holds_ranked; [exact Htile|exact Hhold|exact Hok]|].
  split; [intros x; exact (holds_elems_In _ _ x Htile Hhold Hok)|].
  split.
  { intros ->. assert (ssr' = ss').
    { apply rel_nil; [|exact HR']. intros s Hs. apply In_nth_error in Hs as (i & Hs). eapply score_ok_seg_ranked; [exact HS'|exact Hs]. }
    subst ssr'.
    split; cbn [l_scores l_index l_scores_id l_index_id l_merge l_split ss_id ss_segs ss_index ss_idx ss_next];
      try apply HInv.
    - exists Q'. eapply core_views; [apply touch_at_view|apply touch_at_view|exact HC'].
    - apply meta_touch; [apply HInv|exact Hnow|exact B1|exact Hun|right; reflexivity].
    - apply meta_touch; [apply HInv|exact Hnow|exact B2|exact U2|apply (m_idx _ (i_mi _ _ HInv))]. }
  split; [intros p Hp; apply Hlate; exact Hp|].
  assert (Hdi : forall p, In p done -> In (sid p) ids).
  { intros p Hp. apply Hids. unfold sid. apply in_map. apply Hpe. eapply Permutation_in; [symmetry; exact Hpm|]. apply in_or_app; auto. }
  split.
  { intros i x Hx. destruct (Hdup i x Hx) as (A & B & C & D0 & p & Hp & Ep & Np). split; [exact A|]. split; [exact B|]. split.
    - apply not_true_is_false. intros R. apply D0, Hlo. exists x. split; [exact A|]. split; [exact B|]. split; [rewrite Ep; auto|exact R].
    - split; [exact C|]. exists p. auto. }
  intros rd Hrd Hrpo.
  assert (Hld : forall i, In i ld' -> rd i = true).
  { intros i Hi. destruct (Hnew i Hi) as [H|[H|(x & Px & Hx & Hr & _)]].
    - apply Hlo in H as (x & Px & Hx & _ & Hr). destruct (Hrpo i x Px Hx). congruence.
    - rewrite <- Hrd. exact H.
    - destruct (Hrpo i x Px Hx). congruence. }
  split; [intros p Hp; apply Hld, Hdone, Hp|].
  intros p x i Hp Px Ep Hx Hri. destruct (Hmv p x i Hp Px Ep Hx) as [H|H]; [apply Hld in H; congruence|].
  apply (in_map snd dup (i, x)). exact H.
Qed.
