(** Executions of many lists over one store and cache: every list reads back as the list of its
    own history, also after a reload. *)
From Coq Require Import Strings.String Strings.Ascii.
From Verif.Lib Require Import Prelude ListAux ListLemmas Perm Bytes.
From Verif.Model Require Import Element Elements Segment List Msgp Codec Keys Storage.
From Verif.Spec Require Import RankSpec QuerySpec HistorySpec KeySpec CodecSpec StorageSpec.
From Verif.Proof Require Import ElementP ElementsP SegP InvDef KeysP MsgpP CodecP ChangeP UpdateP BuildP BuildInv SplitP HistoryP StoreP StoreOps StoreBuild StoreWorld.
Open Scope N_scope.

Lemma held_read h st c t s : held st c s -> elements_fit (sg_elems s) -> bare_seg t = bare_seg s ->
  read_elems h c st t = Some (sg_elems s) /\ ckey_of t = ckey_of s.
Proof.
  intros (A & B) Hf E. destruct (bare_fields _ _ E) as (E1 & E2 & E3).
  assert (Ek : key_of t = key_of s) by (unfold key_of; rewrite E1, E2; reflexivity).
  assert (Ec : ckey_of t = ckey_of s) by (unfold ckey_of; rewrite E1, E2; reflexivity).
  split; [|exact Ec]. unfold read_elems, read_stored. rewrite Ek, Ec, A, (read_blob_blob s Hf).
  destruct h; [|reflexivity]. destruct B as [-> | ->]; reflexivity.
Qed.
Lemma coll_fill_own st c n l s : In s l -> coll true st c n l -> coll true st (put c (ckey_of s) (Some (sg_elems s))) n l.
Proof.
  intros Hs [A B C D]. split; auto; [|intros E; discriminate].
  rewrite Forall_forall in *. intros t Ht. destruct (A t Ht) as (X & Y). split; [exact X|]. unfold put.
  destruct (beq (ckey_of t) (ckey_of s)) eqn:E; [|exact Y]. right. apply beq_true in E. unfold ckey_of in E.
  apply c24_cache in E as (_ & E). rewrite (NoDup_id_eq l t s D Ht Hs E). reflexivity.
Qed.
Lemma coll_fill_other h st c n l s v : sg_parent s <> n -> coll h st c n l -> coll h st (put c (ckey_of s) v) n l.
Proof.
  intros Hn [A B C D]. split; auto.
  - rewrite Forall_forall in *. intros t Ht. destruct (A t Ht) as (X & Y). split; [exact X|].
    rewrite put_other; [exact Y|]. unfold ckey_of. intros E. apply c24_cache in E as (E & _). apply lit_inj in E.
    apply Hn. rewrite <- E. apply C, Ht.
  - intros E id. rewrite put_other; [apply B, E|]. unfold ckey_of. intros F. apply c24_cache in F as (F & _). apply lit_inj in F. congruence.
Qed.
Lemma fill_other_ok cfg st c d x s v : ~ In (sg_parent s) (names (d_l d)) -> ok_at cfg st c d x -> ok_at cfg st (put c (ckey_of s) v) d x.
Proof.
  destruct x as (l & x). intros Hn (A & B & [(C1 & C2) M1 M2 HN HC]). split; [exact A|]. split; [exact B|].
  destruct (bare_eq_fields _ _ B) as (_ & _ & E & _). rewrite E in Hn. pose proof HN as [N1 N2 _ _ _].
  split; auto. split; apply coll_fill_other; auto; rewrite ?N1, ?N2; intros F; apply Hn; rewrite F; cbn; auto.
Qed.
Lemma fill_others_ok cfg st c s v : forall a ms, ~ In (sg_parent s) (nm a) -> Forall2 (ok_at cfg st c) a ms -> Forall2 (ok_at cfg st (put c (ckey_of s) v)) a ms.
Proof.
  intros a ms Hn H. induction H as [|d x a ms H _ IH]; constructor.
  - apply fill_other_ok; [|exact H]. intros C. apply Hn, in_or_app. auto.
  - apply IH. intros C. apply Hn, in_or_app. auto.
Qed.

Lemma Forall2_at {A B} (R : A -> B -> Prop) l m i d : Forall2 R l m -> nth_error l i = Some d ->
  exists a b ma x mb, l = a ++ d :: b /\ m = ma ++ x :: mb /\ length a = i /\ length ma = i /\ Forall2 R a ma /\ R d x /\ Forall2 R b mb.
Proof.
  intros H. revert i. induction H as [|y z l m Hyz H IH]; intros [|i] E; try discriminate; cbn in E.
  - injection E as ->. exists [], l, [], z, m. repeat (split; [reflexivity || assumption || constructor|]). assumption.
  - destruct (IH i E) as (a & b & ma & x & mb & -> & -> & L1 & L2 & H1 & H2 & H3).
    exists (y :: a), b, (z :: ma), x, mb. cbn. repeat split; auto.
Qed.
Lemma Forall2_weaken {A B} (R R' : A -> B -> Prop) l m : (forall x y, R x y -> R' x y) -> Forall2 R l m -> Forall2 R' l m.
Proof. intros H. induction 1; constructor; auto. Qed.
Lemma nth_mid {A} (a b : list A) x : nth_error (a ++ x :: b) (length a) = Some x.
Proof. rewrite nth_error_app2 by lia. rewrite Nat.sub_diag. reflexivity. Qed.

Lemma winv_start cfg st c : winv cfg (mkW st c []) [].
Proof. split; [constructor|]. split; constructor. Qed.

Definition rel (a : act) (ys ys' : list known) : Prop :=
  match a with
  | ANew _ _ _ _ _ _ _ _ _ _ | AClone _ _ _ _ _ _ => exists y, ys' = ys ++ [y]
  | AOp i _ _ => exists y, ys' = upd_nth i (fun _ => y) ys
  | ARemove i _ => ys' = del_nth i ys
  | AEvict _ | AFill _ _ _ => ys' = ys
  end.
(** the cache has nothing new for a segment *)
Definition quiet (c c' : cache) (n : string) (id : N) : Prop := c' (cache_key (lit n) id) = c (cache_key (lit n) id) \/ c' (cache_key (lit n) id) = None.
Lemma within_quiet es ns c n id : within es ns -> ~ In n ns -> quiet c (evs_cache es c) n id.
Proof. intros W Hn. left. apply evs_cache_seg. intros e He C. apply Hn. rewrite <- (touches_name _ _ _ C). apply W, He. Qed.
(** the lists after an action *)
Definition moves (a : act) (w w' : world) : Prop :=
  match a with
  | ANew _ _ ns ni _ _ _ _ _ _ | AClone _ _ _ ns ni _ => exists d, w_ls w' = w_ls w ++ [d] /\ names (d_l d) = [ns; ni]
  | AOp i o _ => exists d d', nth_error (w_ls w) i = Some d /\ w_ls w' = upd_nth i (fun _ => d') (w_ls w) /\ names (d_l d') = renamed o (names (d_l d))
  | ARemove i _ => w_ls w' = del_nth i (w_ls w)
  | AEvict _ | AFill _ _ _ => w_ls w' = w_ls w
  end.
Definition after cfg w ys a w' : Prop :=
  exists ys' es, winv cfg w' ys' /\ map snd ys' = act_spec (map snd ys) a /\ rel a ys ys' /\ w_st w' = evs_store es (w_st w) /\ within es (own w a) /\
    match a with AOp i o _ => new_names o = [] -> map (fun d => names (d_l d)) (w_ls w') = map (fun d => names (d_l d)) (w_ls w) | _ => True end /\
    (forall n id, ~ In n (own w a) -> ~ In n (taken w) -> quiet (w_c w) (w_c w') n id) /\
    (forall n, In n (taken w) -> ~ In n (taken w') -> w_st w' (lit n) = None) /\ moves a w w'.

Lemma new_evs_ok cfg w ys es l' hs hi x ns ni : winv cfg w ys -> fresh w ns -> fresh w ni -> ns <> ni ->
  ok_at cfg (evs_store es (w_st w)) (evs_cache es (w_c w)) (mkLd l' hs hi) (l', x) -> within es [ns; ni] -> names l' = [ns; ni] -> fit_entry x ->
  winv cfg (mkW (evs_store es (w_st w)) (evs_cache es (w_c w)) (w_ls w ++ [mkLd l' hs hi])) (ys ++ [(l', x)]).
Proof.
  intros (A & B & C) (P1 & F1 & U1) (P2 & F2 & U2) Hne HO W Hn HF.
  assert (Hfr : forall n, In n [ns; ni] -> ~ In n (taken w)) by (intros n [<-|[<-|[]]]; assumption).
  assert (Hpl : Forall plain [ns; ni]) by auto.
  assert (Hnm : nm [mkLd l' hs hi] = [ns; ni]) by (unfold nm; cbn [flat_map d_l]; rewrite app_nil_r; exact Hn).
  destruct (change_ok cfg (w_st w) (w_c w) (w_ls w) [] [] ys [] [mkLd l' hs hi] [(l', x)] es [ns; ni]) as (X & Y); auto.
  - cbn [app]. rewrite app_nil_r. exact B.
  - intros n Hin. right. cbn [app]. rewrite app_nil_r. apply Hfr, Hin.
  - rewrite Hnm. intros n Hin. right. cbn [app]. rewrite app_nil_r. apply Hfr, Hin.
  - rewrite Hnm. repeat constructor; cbn; intuition.
  - rewrite !app_nil_r in *. split; [exact X|]. split; [exact Y|]. rewrite map_app. apply Forall_app. split; [exact C|]. constructor; [exact HF|constructor].
Qed.

Lemma fit_at ma (y : known) mb : Forall fit_entry (map snd (ma ++ y :: mb)) -> fit_entry (snd y).
Proof. rewrite map_app. cbn [map]. intros H. apply Forall_app in H as (_ & H). apply Forall_cons_iff in H. tauto. Qed.
Lemma map_snd_nth ys i (y : known) : nth_error ys i = Some y -> nth_error (map snd ys) i = Some (snd y).
Proof. apply map_nth_error. Qed.

Lemma upd_ok cfg w w' ys a : winv cfg w ys -> act_ok w (map snd ys) a -> act_on cfg w a = Some w' ->
  Forall fit_entry (act_spec (map snd ys) a) -> after cfg w ys a w'.
Proof.
  intros HW Hok E HF'. pose proof HW as (HA & HN & HF). destruct a as [merge split ns ni now sc sch want e ord|i merge split ns ni now|i o ord|i ord|keep|i isidx j]; cbn [act_on act_spec act_ok] in *.
  - destruct Hok as (Hms & Hsz & Hnow & Hd & Hel & Hlen & Fs & Fi & Hne).
    destruct (new_list merge split ns ni now sc sch want e) as [l'| | |] eqn:EN; try discriminate. injection E as <-.
    pose proof Fs as (Ps & _ & Us). pose proof Fi as (Pi & _ & Ui).
    assert (EP : populate ns ni now sc sch want (update_time now e) (init_empty merge split ns ni now) = Done l').
    { unfold new_list in EN. destruct e; [injection EN as <-; reflexivity|exact EN]. }
    assert (EL : length (update_time now e) = length e) by (unfold update_time; apply map_length).
    destruct (built_rep cfg (w_st w) (w_c w) ns ni now sc sch want (update_time now e) (init_empty merge split ns ni now) l' ord) as (R & W & Nl); auto.
    { rewrite EL. apply Hsz. }
    { unfold distinct_ids. rewrite update_time_ids. exact Hd. }
    { apply update_time_good; assumption. }
    { rewrite EL. exact Hlen. }
    cbn zeta in *. assert (EB : built_flag cfg (update_time now e) = built_flag cfg e) by (destruct e; reflexivity). rewrite EB in R.
    eexists. eexists. split; [apply (new_evs_ok cfg w ys _ l' _ _ (merge, split, sputs sempty (map (restamp now) e)) ns ni); eauto|
      split; [cbn [act_spec]; rewrite map_app; reflexivity|split; [cbn [rel]; eexists; reflexivity|split; [reflexivity|split; [exact W|split; [exact I|split; [intros n id Hn _; exact (within_quiet _ _ _ _ _ W Hn)|split; [intros n A B; exfalso; apply B; unfold taken in *; cbn [w_ls]; rewrite flat_map_app; apply in_or_app; left; exact A|cbn [moves w_ls]; eexists; split; [reflexivity|exact Nl]]]]]]]]].
    + split; [|split; [reflexivity|exact R]]. cbn [fst snd].
      eapply R_new with (now := now); eauto; [apply Ps|apply Pi].
    + apply Forall_app in HF' as (_ & HF'). apply Forall_cons_iff in HF' as (HF' & _). exact HF'.
  - destruct Hok as (Hms & Hsz & Hnow & Hlen & Fs & Fi & Hne).
    destruct (nth_error (w_ls w) i) as [d|] eqn:Ei; [|discriminate].
    destruct (Forall2_at _ _ _ _ _ HA Ei) as (a & b & ma & (l & ((g & s) & m)) & mb & La & Lm & E1 & E2 & Ha & (HR & HB & Hr) & Hb).
    cbn [fst snd] in *. assert (Em : nth_error (map snd ys) i = Some (g, s, m)) by (apply (map_snd_nth ys i (l, (g, s, m))); rewrite Lm, <- E2; apply nth_mid).
    rewrite Em in *. assert (Hfit : fit_entry (g, s, m)) by (rewrite Lm in HF; apply (fit_at _ _ _ HF)).
    rewrite (ok_view _ _ _ _ (g, s, m) _ Hfit HR HB Hr) in E.
    destruct (clone_elements merge split ns ni now l) as [l'| | |] eqn:EN; try discriminate. injection E as <-.
    pose proof Fs as (Ps & _ & Us). pose proof Fi as (Pi & _ & Ui).
    assert (HR' : reachable merge split l' m).
    { eapply R_clone with (now := now); eauto; [apply Ps|apply Pi]. }
    destruct (clone_rep cfg (w_st w) (w_c w) (sin m) l' merge split ns ni now l (reach_Inv _ _ _ _ HR') EN Ps Pi Hne Us Ui) as (R & W & Nl).
    eexists. eexists. split; [apply (new_evs_ok cfg w ys _ l' _ _ (merge, split, m) ns ni); eauto|
      split; [cbn [act_spec]; rewrite map_app, Em; reflexivity|split; [cbn [rel]; eexists; reflexivity|split; [reflexivity|split; [exact W|split; [exact I|split; [intros n id Hn _; exact (within_quiet _ _ _ _ _ W Hn)|split; [intros n A B; exfalso; apply B; unfold taken in *; cbn [w_ls]; rewrite flat_map_app; apply in_or_app; left; exact A|cbn [moves w_ls]; eexists; split; [reflexivity|exact Nl]]]]]]]]].
    split; [exact HR'|]. split; [reflexivity|exact R].
  - destruct Hok as (Hop & Hnew).
    destruct (nth_error (w_ls w) i) as [d|] eqn:Ei; [|discriminate].
    destruct (Forall2_at _ _ _ _ _ HA Ei) as (a & b & ma & (l & ((g & s) & m)) & mb & La & Lm & E1 & E2 & Ha & (HR & HB & Hr) & Hb).
    cbn [fst snd] in *. assert (Em : nth_error (map snd ys) i = Some (g, s, m)) by (apply (map_snd_nth ys i (l, (g, s, m))); rewrite Lm, <- E2; apply nth_mid).
    specialize (Hop _ _ _ Em). assert (Hfit : fit_entry (g, s, m)) by (rewrite Lm in HF; apply (fit_at _ _ _ HF)).
    assert (E2' : length (map snd ma) = i) by (rewrite map_length; exact E2).
    match type of HF' with Forall _ ?X => assert (Esp : X = map snd ma ++ [(g, s, spec_step m o)] ++ map snd mb) by
      (rewrite Lm, map_app, <- E2'; cbn [map]; rewrite upd_nth_mid; reflexivity) end.
    assert (Edl : forall d', upd_nth i (fun _ => d') (w_ls w) = a ++ [d'] ++ b) by (intros d'; rewrite La, <- E1, upd_nth_mid; reflexivity).
    unfold after. cbn [act_spec own]. rewrite Ei. rewrite Esp in HF' |- *. destruct (run_op ord cfg (w_st w) (w_c w) d o) as [((st' & c') & d')|] eqn:Er; [|discriminate].
    injection E as <-. rewrite Edl. destruct (bare_eq_fields _ _ HB) as (_ & _ & En & _).
    assert (Hnm1 : nm [d] = names l) by (unfold nm; cbn [flat_map]; rewrite app_nil_r; exact En).
    unfold taken in HN. change (flat_map _ (w_ls w)) with (nm (w_ls w)) in HN. 
    assert (Htk : taken w = nm (a ++ [d] ++ b)) by (unfold taken; rewrite La; reflexivity).
    destruct (match o with OReload => true | _ => false end) eqn:Eo.
    { destruct o; try discriminate. cbn [run_op] in Er. rewrite (ok_reopen _ _ _ _ (g, s, m) _ Hfit HR HB Hr) in Er. injection Er as <- <- <-.
      assert (Hok' : ok_at cfg (w_st w) (w_c w) (mkLd (bare (reload l)) cfg cfg) (reload l, (g, s, m))).
      { split; [|split; [apply bare_bare|eapply rep_reload, Hr]].
        eapply (R_step g s l m OReload); [exact HR|exact I|reflexivity]. }
      destruct (change_ok cfg (w_st w) (w_c w) a [d] b ma mb [mkLd (bare (reload l)) cfg cfg] [(reload l, (g, s, m))] [] []) as (X & Y); auto.
      - rewrite <- Htk. unfold taken. exact HN.
      - intros e [].
      - intros n Hn. left. rewrite Hnm1. exact Hn.
      - unfold nm. cbn [flat_map]. rewrite app_nil_r. apply (names_nodup _ (r_named _ _ _ _ _ _ Hr)).
      - exists (ma ++ [(reload l, (g, s, m))] ++ mb), []. split.
        + split; [exact X|]. split; [exact Y|]. rewrite !map_app. exact HF'.
        + split; [rewrite !map_app; reflexivity|]. split; [|split; [reflexivity|split; [intros e []|split; [|split; [intros n id _ _; left; reflexivity|split]]]]]; swap 1 2.
          { intros _. cbn [w_ls]. rewrite La, !map_app. cbn [map d_l]. repeat f_equal. rewrite En. reflexivity. }
          2: { intros n P1 P2. exfalso. apply P2. rewrite Htk in P1. unfold taken. cbn [w_ls]. change (In n (nm (a ++ [mkLd (bare (reload l)) cfg cfg] ++ b))).
               rewrite !nm_app in *. replace (nm [mkLd (bare (reload l)) cfg cfg]) with (nm [d]) by exact Hnm1. exact P1. }
          2: { cbn [moves w_ls]. exists d, (mkLd (bare (reload l)) cfg cfg). split; [exact Ei|]. split; [symmetry; apply Edl|]. rewrite En. reflexivity. }
          cbn [rel]. eexists. rewrite Lm, <- E2, upd_nth_mid. reflexivity. }
    assert (Er' : exists l', step l o = Done l' /\ st' = evs_store (op_evs ord cfg (d_hs d) (d_hi d) l o l') (w_st w) /\
       c' = evs_cache (op_evs ord cfg (d_hs d) (d_hi d) l o l') (w_c w) /\
       d' = mkLd l' (fst (op_flags cfg (d_hs d) (d_hi d) l o)) (snd (op_flags cfg (d_hs d) (d_hi d) l o))).
    { unfold run_op in Er. rewrite (ok_view _ _ _ _ (g, s, m) _ Hfit HR HB Hr) in Er.
      destruct (step l o) as [l'| | |] eqn:Es; try (destruct o; discriminate). exists l'. split; [reflexivity|].
      destruct o; try discriminate; destruct (op_flags _ _ _ _ _) as (f1 & f2); injection Er as <- <- <-; auto. }
    destruct Er' as (l' & Es & -> & -> & ->).
    assert (Hnw : Forall (fresh w) (new_names o) /\ NoDup (new_names o)).
    { destruct o; cbn [new_names]; try (split; constructor; fail).
      - split; [auto|]. repeat constructor. intros [].
      - destruct Hnew as (X & Y & Z). split; [auto|]. repeat constructor; cbn; intuition.
      - destruct Hnew as (X & Y & Z). split; [auto|]. repeat constructor; cbn; intuition. }
    destruct Hnw as (Hnw & Hnd).
    assert (Hnw' : Forall (fun n => plain n /\ ~ In n (names l) /\ unused (w_c w) n) (new_names o)).
    { eapply Forall_impl; [|exact Hnw]. intros n (X & Y & Z). split; [exact X|]. split; [|exact Z].
      intros C. apply Y. rewrite Htk, !nm_app, !in_app_iff. right. left. rewrite Hnm1. exact C. }
    assert (Hor : o <> OReload) by (intros ->; discriminate).
    destruct (op_rep cfg (d_hs d) (d_hi d) (w_st w) (w_c w) g s m l o l' ord (reach_inv _ _ _ _ HR) Hop Es Hor Hr Hnw' Hnd) as (R & W & Hin & Hsame).
    destruct (op_names cfg (d_hs d) (d_hi d) (w_st w) (w_c w) g s m l o l' ord (reach_inv _ _ _ _ HR) Hop Es Hor Hr Hnw' Hnd) as (Hren & Hgone).
    cbn zeta in *. set (es := op_evs ord cfg (d_hs d) (d_hi d) l o l') in *. set (f := op_flags cfg (d_hs d) (d_hi d) l o) in *.
    assert (Hin' : forall n, In n (names l') -> In n (nm [d]) \/ ~ In n (nm (a ++ [d] ++ b))).
    { intros n Hn. rewrite Hnm1, <- Htk. destruct (Hin n Hn) as [X|X]; [auto|]. right. rewrite Forall_forall in Hnw. apply (Hnw n X). }
    destruct (change_ok cfg (w_st w) (w_c w) a [d] b ma mb [mkLd l' (fst f) (snd f)] [(l', (g, s, spec_step m o))] es (names l ++ names l')) as (X & Y); auto.
    + rewrite <- Htk. unfold taken. exact HN.
    + apply Forall_app. split; [apply names_plain2, Hr|apply names_plain2, R].
    + intros n Hn. apply in_app_iff in Hn as [Hn|Hn]; [left; rewrite Hnm1; exact Hn|apply Hin', Hn].
    + constructor; [|constructor]. split; [|split; [reflexivity|exact R]]. cbn [fst snd]. eapply R_step; eauto.
    + unfold nm. cbn [flat_map d_l]. rewrite app_nil_r. apply (names_nodup _ (r_named _ _ _ _ _ _ R)).
    + exists (ma ++ [(l', (g, s, spec_step m o))] ++ mb), es. split.
      * split; [exact X|]. split; [exact Y|]. rewrite !map_app. exact HF'.
      * split; [rewrite !map_app; reflexivity|]. split; [|split; [reflexivity|split; [|split]]].
        -- cbn [rel]. eexists. rewrite Lm, <- E2, upd_nth_mid. reflexivity.
        -- eapply within_incl; [|exact W]. intros n Hn. change (In n (names (d_l d) ++ new_names o)). rewrite En.
           apply in_app_iff in Hn as [Hn|Hn]; apply in_or_app; [left; exact Hn|apply Hin, Hn].
        -- intros Hnn. specialize (Hsame Hnn). cbn [w_ls]. rewrite La, !map_app. cbn [map d_l]. rewrite En, Hsame. reflexivity.
        -- split; [|split].
           ++ intros n id Hn _. apply (within_quiet _ (names l ++ names l')); [exact W|]. intros C. apply Hn. change (In n (names (d_l d) ++ new_names o)). rewrite En.
              apply in_app_iff in C as [C|C]; apply in_or_app; [left; exact C|apply Hin, C].
           ++ intros n P1 P2. cbn [w_st]. rewrite Htk in P1. unfold taken in P2. cbn [w_ls] in P2. change (~ In n (nm (a ++ [mkLd l' (fst f) (snd f)] ++ b))) in P2.
              rewrite !nm_app, !in_app_iff in *. rewrite Hnm1 in P1. assert (En' : nm [mkLd l' (fst f) (snd f)] = names l') by (unfold nm; cbn [flat_map d_l]; apply app_nil_r).
              rewrite En' in P2. apply Hgone; tauto.
           ++ cbn [moves w_ls]. exists d, (mkLd l' (fst f) (snd f)). split; [exact Ei|]. split; [symmetry; apply Edl|]. rewrite En. exact Hren.
  - destruct (nth_error (w_ls w) i) as [d|] eqn:Ei; [|discriminate]. injection E as <-.
    destruct (Forall2_at _ _ _ _ _ HA Ei) as (a & b & ma & (l & x) & mb & La & Lm & E1 & E2 & Ha & (HR & HB & Hr) & Hb).
    destruct (bare_eq_fields _ _ HB) as (_ & _ & En & B1 & B2).
    assert (W : within (delete_all_evs ord (d_hs d) (d_hi d) (d_l d)) (names l)).
    { destruct (rep_pars _ _ _ _ _ _ Hr) as (P1 & P2). apply bare_segs_fields in B1 as (I1 & _ & _ & _ & S1). apply bare_segs_fields in B2 as (I2 & _ & _ & _ & S2).
      rewrite <- En. apply delete_all_within.
      - pose proof (r_named _ _ _ _ _ _ Hr) as [N1 N2 N3 N4 N5]. unfold names in En. injection En as En1 En2.
        split; rewrite ?I1, ?I2, ?En1, ?En2; assumption.
      - rewrite I1. eapply bare_pars; [exact S1|exact P1].
      - rewrite I2. eapply bare_pars; [exact S2|exact P2]. }
    assert (Hnm1 : nm [d] = names l) by (unfold nm; cbn [flat_map]; rewrite app_nil_r; exact En).
    destruct (change_ok cfg (w_st w) (w_c w) a [d] b ma mb [] [] (delete_all_evs ord (d_hs d) (d_hi d) (d_l d)) (names l) Ha Hb) as (X & Y); [|exact W| | |constructor| |constructor|].
    + unfold taken in HN. rewrite La in HN. exact HN.
    + apply names_plain2, Hr.
    + intros n Hn. left. rewrite Hnm1. exact Hn.
    + intros n [].
    + cbn [app] in X, Y. exists (ma ++ mb), (delete_all_evs ord (d_hs d) (d_hi d) (d_l d)).
      assert (Esp : map snd (ma ++ mb) = del_nth i (map snd ys)).
      { assert (E2' : length (map snd ma) = i) by (rewrite map_length; exact E2). rewrite Lm, !map_app, <- E2'. cbn [map]. rewrite del_nth_mid. reflexivity. }
      assert (Edl : del_nth i (w_ls w) = a ++ b) by (rewrite La, <- E1, del_nth_mid; reflexivity).
      assert (Edl0 : moves (ARemove i ord) w (mkW (evs_store (delete_all_evs ord (d_hs d) (d_hi d) (d_l d)) (w_st w)) (evs_cache (delete_all_evs ord (d_hs d) (d_hi d) (d_l d)) (w_c w)) (del_nth i (w_ls w)))) by reflexivity.
      split; [|split; [exact Esp|split; [|split; [reflexivity|split; [|split; [exact I|split; [intros n id Hn _; apply (within_quiet _ (names l)); [exact W|]; cbn [own] in Hn; rewrite Ei, En in Hn; exact Hn|split; [|exact Edl0]]]]]]]].
      * unfold winv, taken. cbn [w_st w_c w_ls]. rewrite Edl, Esp. split; [exact X|]. split; [exact Y|exact HF'].
      * cbn [rel]. rewrite Lm, <- E2, del_nth_mid. reflexivity.
      * cbn [own]. rewrite Ei, En. exact W.
      * intros n P1 P2. cbn [w_st]. unfold taken in P1, P2. cbn [w_ls] in P2. rewrite La in P1. rewrite Edl in P2. change (In n (nm (a ++ [d] ++ b))) in P1.
        change (~ In n (nm (a ++ b))) in P2. rewrite !nm_app, !in_app_iff in *. rewrite Hnm1 in P1.
        destruct (rep_pars _ _ _ _ _ _ Hr) as (Q1 & Q2). apply bare_segs_fields in B1 as (I1 & _ & _ & _ & S1). apply bare_segs_fields in B2 as (I2 & _ & _ & _ & S2).
        rewrite <- (app_nil_r (delete_all_evs _ _ _ _)). apply delete_all_gone with (ns := []).
        -- pose proof (r_named _ _ _ _ _ _ Hr) as [N1 N2 N3 N4 N5]. unfold names in En. injection En as En1 En2. split; rewrite ?I1, ?I2, ?En1, ?En2; assumption.
        -- rewrite I1. eapply bare_pars; [exact S1|exact Q1].
        -- rewrite I2. eapply bare_pars; [exact S2|exact Q2].
        -- intros e [].
        -- intros [].
        -- rewrite En. tauto.
  - injection E as <-. exists ys, []. split; [|split; [reflexivity|split; [reflexivity|split; [reflexivity|split; [intros e []|split; [exact I|split; [|split; [intros n A B; contradiction|reflexivity]]]]]]]];
      [|intros n id _ _; cbn [w_c]; unfold quiet; destruct (keep _); auto].
    split; [|split; [exact HN|exact HF]]. cbn [w_st w_c w_ls]. eapply Forall2_weaken; [|exact HA].
    intros d (l & x) (A & B & C). split; [exact A|]. split; [exact B|]. apply rep_evict, C.
  - destruct (nth_error (w_ls w) i) as [d|] eqn:Ei; [|discriminate].
    destruct (Forall2_at _ _ _ _ _ HA Ei) as (a & b & ma & (l & x) & mb & La & Lm & E1 & E2 & Ha & (HR & HB & Hr) & Hb).
    destruct (nth_error (ss_segs (if isidx then l_index (d_l d) else l_scores (d_l d))) j) as [t|] eqn:Et; [|discriminate].
    destruct (if isidx then d_hi d else d_hs d) eqn:Eh; [|injection E as <-; exists ys, []; split; [exact HW|split; [reflexivity|split; [reflexivity|split; [reflexivity|split; [intros e []|split; [exact I|split; [intros n id _ _; left; reflexivity|split; [intros n A B; contradiction|reflexivity]]]]]]]]].
    assert (Hfit : fit_entry x) by (rewrite Lm in HF; apply (fit_at _ _ _ HF)).
    destruct (inv_fits _ _ (reach_Inv _ _ _ _ HR) (r_named _ _ _ _ _ _ Hr) Hfit) as (FS & FI & _).
    destruct (bare_eq_fields _ _ HB) as (_ & _ & En & B1 & B2). apply bare_segs_fields in B1 as (_ & _ & _ & _ & S1). apply bare_segs_fields in B2 as (_ & _ & _ & _ & S2).
    pose proof Hr as [(C1 & C2) M1 M2 HNm HC]. pose proof HNm as [N1 N2 N3 N4 N5].
    assert (Hs : exists s, In s (ss_segs (if isidx then l_index l else l_scores l)) /\ bare_seg t = bare_seg s /\
        held (w_st w) (w_c w) s /\ elements_fit (sg_elems s) /\ sg_parent s = if isidx then l_index_id l else l_scores_id l).
    { apply nth_error_In in Et. destruct isidx.
      - destruct (bare_in _ _ _ S2 Et) as (s & Hs & Es). exists s. split; [exact Hs|]. split; [exact Es|].
        pose proof (co_held _ _ _ _ _ C2) as H1. pose proof (co_par _ _ _ _ _ C2) as H2. rewrite Forall_forall in *. rewrite <- N2. auto.
      - destruct (bare_in _ _ _ S1 Et) as (s & Hs & Es). exists s. split; [exact Hs|]. split; [exact Es|].
        pose proof (co_held _ _ _ _ _ C1) as H1. pose proof (co_par _ _ _ _ _ C1) as H2. rewrite Forall_forall in *. rewrite <- N1. auto. }
    destruct Hs as (s & Hs & Es & Hh & Hfs & Hps). destruct (held_read true _ _ _ _ Hh Hfs Es) as (Rd & Ck).
    rewrite Rd, Ck in E. injection E as <-. 
    assert (Hown : ok_at cfg (w_st w) (put (w_c w) (ckey_of s) (Some (sg_elems s))) d (l, x)).
    { split; [exact HR|]. split; [exact HB|]. split; auto. destruct isidx; split.
      - apply coll_fill_other; [|exact C1]. rewrite Hps, N1. auto.
      - rewrite Eh in *. apply coll_fill_own; assumption.
      - rewrite Eh in *. apply coll_fill_own; assumption.
      - apply coll_fill_other; [|exact C2]. rewrite Hps, N2. auto. }
    assert (Hin : In (sg_parent s) (names (d_l d))) by (rewrite En, Hps; destruct isidx; cbn; auto).
    exists ys, []. split; [|split; [reflexivity|split; [reflexivity|split; [reflexivity|split; [intros e []|split; [exact I|split; [|split; [intros n A B; contradiction|reflexivity]]]]]]]]; swap 1 2.
    { intros n id _ Hn. left. cbn [w_c]. rewrite put_other; [reflexivity|]. unfold ckey_of. intros X. apply c24_cache in X as (X & _). apply lit_inj in X.
      apply Hn. unfold taken. rewrite La. change (In n (nm (a ++ [d] ++ b))). rewrite !nm_app, !in_app_iff. right. left. rewrite X. unfold nm. cbn [flat_map]. rewrite app_nil_r. exact Hin. }
    split; [|split; [exact HN|exact HF]]. cbn [w_st w_c w_ls]. unfold taken in HN. rewrite La, Lm.
    rewrite La in HN. change (NoDup (nm (a ++ [d] ++ b))) in HN. rewrite !nm_app in HN.
    apply NoDup_app_iff in HN as (D1 & D2 & D3). apply NoDup_app_iff in D2 as (D4 & D5 & D6).
    assert (Hin1 : In (sg_parent s) (nm [d])) by (unfold nm; cbn [flat_map]; rewrite app_nil_r; exact Hin).
    apply Forall2_app; [|constructor]; auto.
    + apply fill_others_ok; [|exact Ha]. intros C. apply (D3 _ C). apply in_or_app. auto.
    + apply fill_others_ok; [|exact Hb]. apply D6, Hin1.
Qed.

(** a restart *)
Lemma rep_restart cfg cfg' hs hi st c l : rep cfg hs hi st c l -> rep cfg' cfg' cfg' st (fun _ => None) (reload l).
Proof.
  intros [(A & B) M1 M2 [N1 N2 N3 N4 N5] HF].
  assert (HC : forall h n l, coll h st c n l -> coll cfg' st (fun _ => None) n l).
  { intros h n l0 [X Y Z W]. split; auto; [|intros _ id; reflexivity]. eapply Forall_impl; [|exact X]. intros s (S1 & _). split; [exact S1|auto]. }
  split; auto.
  - split; [eapply HC, A|eapply HC, B].
  - split; assumption.
Qed.
Definition reloaded (y : known) : known := (reload (fst y), snd y).
Lemma reloaded_ok cfg cfg' st c d y : fit_entry (snd y) -> ok_at cfg st c d y -> exists d', reopen cfg' st d = Some d' /\ ok_at cfg' st (fun _ => None) d' (reloaded y) /\
  names (d_l d') = names (d_l d).
Proof.
  destruct y as (l & ((g & s) & m)). intros Hf (HR & HB & Hr). unfold reopen. destruct (bare_eq_fields _ _ HB) as (E1 & E2 & E3 & _).
  pose proof E3 as E3'. unfold names in E3. injection E3 as E3 E4.
  rewrite E1, E2, E3, E4, (load_rep _ _ _ _ _ _ Hr); [|eapply inv_fits; [eapply reach_Inv, HR|apply Hr|exact Hf]].
  eexists. split; [reflexivity|]. split; [|cbn [d_l]; rewrite E3'; reflexivity].
  split; [|split; [apply bare_bare|eapply rep_restart, Hr]]. cbn [fst snd].
  eapply (R_step g s l m OReload); [exact HR|exact I|reflexivity].
Qed.
Lemma restart_all cfg cfg' st c : forall ls ys, Forall2 (ok_at cfg st c) ls ys -> Forall fit_entry (map snd ys) ->
  exists ls', all_some (map (reopen cfg' st) ls) = Some ls' /\ Forall2 (ok_at cfg' st (fun _ => None)) ls' (map reloaded ys) /\ nm ls' = nm ls.
Proof.
  induction 1 as [|d y ls ys H _ IH]; intros HF; cbn [map] in *.
  - exists []. repeat split. constructor.
  - apply Forall_cons_iff in HF as (F1 & F2). destruct (IH F2) as (ls' & A & B & C).
    destruct (reloaded_ok _ cfg' _ _ _ _ F1 H) as (d' & X & Y & Z). exists (d' :: ls'). cbn [all_some]. rewrite X, A.
    split; [reflexivity|]. split; [constructor; assumption|]. unfold nm in *. cbn [flat_map]. rewrite Z, C. reflexivity.
Qed.
Lemma winv_restart cfg cfg' w ys : winv cfg w ys -> exists w', restart cfg' w = Some w' /\ winv cfg' w' (map reloaded ys).
Proof.
  intros (A & B & C). destruct (restart_all cfg cfg' _ _ _ _ A C) as (ls' & X & Y & Z). unfold restart. rewrite X. eexists. split; [reflexivity|].
  split; [exact Y|]. split; [unfold taken in *; cbn [w_ls]; change (NoDup (nm ls')); rewrite Z; exact B|].
  rewrite map_map. exact C.
Qed.

Lemma runs_winv cfg w ms : runs cfg w ms -> exists ys, map snd ys = ms /\ winv cfg w ys.
Proof.
  induction 1 as [cfg st c|cfg w ms a w' HR (ys & <- & IH) Hok E HF|cfg w ms cfg' w' HR (ys & <- & IH) E].
  - exists []. split; [reflexivity|apply winv_start].
  - destruct (upd_ok _ _ _ _ _ IH Hok E HF) as (ys' & es & A & B & _). exists ys'. auto.
  - destruct (winv_restart _ cfg' _ _ IH) as (w2 & E2 & H). assert (w2 = w') by congruence. subst w2.
    exists (map reloaded ys). split; [|exact H]. rewrite map_map. reflexivity.
Qed.
