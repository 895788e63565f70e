(** Stops in the middle of a pass that splits and merges segments. *)
From Coq Require Import Strings.String Strings.Ascii.
From Verif.Lib Require Import Prelude ListAux ListLemmas Perm Bytes.
From Verif.Model Require Import Element Elements Segment List Msgp Codec Keys Storage.
From Verif.Spec Require Import RankSpec QuerySpec HistorySpec AnswerSpec KeySpec CodecSpec StorageSpec.
From Verif.Proof Require Import ElementP ElementsP SegP InvDef KeysP MsgpP CodecP ChangeP UpdateP UpdateInv DeleteP InsertP BuildP BuildInv RepairP SplitP IdxUpdP SplitInv HistoryP QueryP ListThm StoreP StoreOps StoreBuild StoreWorld StoreThm StoreFinal LeftOutP CrashP.
Open Scope N_scope.

(** what is read under the key of a segment *)
Definition rdk (st : store) (name : string) (id : N) : option elements :=
  match st (segment_key (lit name) id) with Some b => read_blob b | None => None end.
Definition cover (name : string) (O : list N) (P D : element -> Prop) (st : store) : Prop :=
  (forall id e y, In id O -> rdk st name id = Some e -> In y e -> P y) /\
  (forall y, P y -> ~ D y -> exists id e, In id O /\ rdk st name id = Some e /\ In y e).
Record walk (name : string) (O : list N) (old : list seg) (P D : element -> Prop) (merge : bool) (sz i : nat) (cur : list seg) (st : store) : Prop := {
  wk_held : forall t, In t cur -> st (segment_key (lit name) (sg_id t)) = Some (blob t);
  wk_gone : forall id, In id O -> In id (map sg_id cur) \/ (forall e y, rdk st name id = Some e -> In y e -> P y);
  wk_has : forall y, P y -> ~ D y -> exists t, In t cur /\ In (sg_id t) O /\ In y (sg_elems t);
  wk_old : merge = false -> forall j t, (i <= j)%nat -> nth_error cur j = Some t -> In t old;
  wk_small : merge = true -> Forall (fun t => (sg_n t < sz)%nat /\ In (sg_id t) O) cur
}.
Definition big (sz : nat) (old : list seg) (y : element) : Prop := exists t, In t old /\ (sz <= sg_n t)%nat /\ In y (sg_elems t).
Definition fit_elems (P : element -> Prop) (l : list seg) : Prop :=
  (forall x, P x -> short (e_payload x)) /\ N.of_nat (length (elems_of l)) < 2 ^ 32.
Lemma fit_blob isidx name P l next t : sok isidx name P l next -> fit_elems P l -> In t l -> read_blob (blob t) = Some (sg_elems t).
Proof.
  intros HK (H1 & H2) Ht. apply read_blob_blob. pose proof (elems_fit_all _ _ (k_s _ _ _ _ _ HK) H1 H2) as H. rewrite Forall_forall in H. apply H, Ht.
Qed.

Lemma walk_cover isidx name O old P D merge sz i cur next st : sok isidx name P cur next -> fit_elems P cur -> walk name O old P D merge sz i cur st ->
  cover name O P D st.
Proof.
  intros HK HF [W1 W2 W3 _ _]. split.
  - intros id e y Hid He Hy. unfold rdk in He. destruct (W2 id Hid) as [H|H]; [|apply (H e y); assumption].
    apply in_map_iff in H as (t & <- & Ht). rewrite (W1 t Ht), (fit_blob _ _ _ _ _ _ HK HF Ht) in He. injection He as <-.
    apply (score_ok_seg _ _ _ _ (k_s _ _ _ _ _ HK) Ht Hy).
  - intros y Hy Hn. destruct (W3 y Hy Hn) as (t & Ht & Hid & Hyt). exists (sg_id t), (sg_elems t). split; [exact Hid|]. split; [|exact Hyt].
    unfold rdk. rewrite (W1 t Ht). apply (fit_blob _ _ _ _ _ _ HK HF Ht).
Qed.

(** one more write: everything read under its key before is still read there *)
Lemma cover_put name O (P D : element -> Prop) st u : sg_parent u = name -> read_blob (blob u) = Some (sg_elems u) -> (forall y, In y (sg_elems u) -> P y) ->
  (forall y e, P y -> ~ D y -> rdk st name (sg_id u) = Some e -> In y e -> In y (sg_elems u)) ->
  cover name O P D st -> cover name O P D (put st (key_of u) (Some (blob u))).
Proof.
  intros Hp Hb Hu Hk (C1 & C2).
  assert (Hsame : rdk (put st (key_of u) (Some (blob u))) name (sg_id u) = Some (sg_elems u)).
  { unfold rdk, key_of. rewrite Hp, put_same. exact Hb. }
  assert (Hoth : forall id, id <> sg_id u -> rdk (put st (key_of u) (Some (blob u))) name id = rdk st name id).
  { intros id Hne. unfold rdk. rewrite put_other; [reflexivity|]. unfold key_of. intros C. apply c24_segment in C as (_ & C). congruence. }
  split.
  - intros id e y Hid He Hy. destruct (N.eq_dec id (sg_id u)) as [->|Hne].
    + rewrite Hsame in He. injection He as <-. apply Hu, Hy.
    + rewrite Hoth in He by exact Hne. eapply C1; eauto.
  - intros y Hy Hn. destruct (C2 y Hy Hn) as (id & e & Hid & He & Hye). destruct (N.eq_dec id (sg_id u)) as [->|Hne].
    + exists (sg_id u), (sg_elems u). split; [exact Hid|]. split; [exact Hsame|]. eapply Hk; eauto.
    + exists id, e. rewrite Hoth by exact Hne. auto.
Qed.

Lemma walk_skip name O old P D merge sz i j cur st : (i <= j)%nat -> walk name O old P D merge sz i cur st -> walk name O old P D merge sz j cur st.
Proof. intros Hij [W1 W2 W3 W4 W5]. split; auto. intros Hm k t Hk. apply W4; [exact Hm|lia]. Qed.

Lemma split_loop_cover h name O old P merge ms sz now : (ms < sz)%nat -> 0 < now < max_u32 ->
  let D := big sz old in
  forall fuel i l next k st, 0 < next -> (forall id, In id O -> id < next) -> sok false name P l next -> fit_elems P l ->
  walk name O old P D merge sz i l st ->
  forall w, dropped deletes (firstn k (split_loop_evs fuel h false merge ms sz now i l next)) w -> cover name O P D (evs_store w st).
Proof.
  intros Hms Hnow D. induction fuel as [|f IH]; intros i l next k st Hnx HO HK HF HW w; cbn [split_loop_evs].
  { destruct (nth_error l i); rewrite firstn_nil; intros Hw; inversion Hw; subst; eapply walk_cover; eauto. }
  destruct (nth_error l i) as [s|] eqn:Hs; [|rewrite firstn_nil; intros Hw; inversion Hw; subst; eapply walk_cover; eauto].
  assert (Hskip : dropped deletes (firstn k (split_loop_evs f h false merge ms sz now (S i) l next)) w -> cover name O P D (evs_store w st)).
  { apply IH; auto. eapply walk_skip; [|exact HW]. lia. }
  assert (C0 : cover name O P D st) by (eapply walk_cover; eauto).
  destruct (Nat.ltb_spec (sg_n s) sz) as [Hsm|Hbig].
  - destruct (if merge then i else 0%nat) as [|j] eqn:Ej; [exact Hskip|].
    assert (Hm : merge = true /\ i = S j) by (destruct merge; [auto|discriminate]). destruct Hm as (-> & ->).
    destruct (nth_error l (S j - 1)) as [p|] eqn:Hp; [|exact Hskip].
    destruct (Nat.ltb_spec ms (sg_n s + sg_n p)) as [|Hle]; [exact Hskip|]. clear Hskip.
    replace (S j - 1)%nat with j in * by lia.
    apply nth_split_eq in Hp as (a & b & El & La).
    destruct b as [|s' b].
    { rewrite El in Hs. rewrite nth_error_app2 in Hs by lia. replace (S j - length a)%nat with 1%nat in Hs by lia. discriminate. }
    assert (s' = s).
    { rewrite El in Hs. rewrite nth_error_app2 in Hs by lia. replace (S j - length a)%nat with 1%nat in Hs by lia. cbn in Hs. congruence. }
    subst s'. destruct (merge_segs now p s) as (m & ch) eqn:Em.
    assert (Em1 : m = fst (merge_segs now p s)) by (rewrite Em; reflexivity).
    assert (El' : del_nth (S j) (upd_nth j (fun _ => m) l) = a ++ m :: b).
    { rewrite El. rewrite <- La at 2. rewrite upd_nth_mid.
      replace (S j) with (length (a ++ [m])) by (rewrite app_length; cbn; lia).
      replace (a ++ m :: s :: b) with ((a ++ [m]) ++ s :: b) by (rewrite <- app_assoc; reflexivity).
      rewrite del_nth_mid, <- app_assoc. reflexivity. }
    rewrite El'. rewrite El in HK, HF, HW. pose proof (k_nd _ _ _ _ _ HK) as Hnd.
    destruct (sok_merge _ _ _ _ _ _ _ _ now Hnow HK) as (HK2 & HE2). rewrite <- Em1 in HK2, HE2.
    assert (HF2 : fit_elems P (a ++ m :: b)) by (destruct HF as (F1 & F2); split; [exact F1|rewrite HE2; exact F2]).
    assert (Hmi : sg_id m = sg_id p /\ sg_parent m = sg_parent p /\ sg_elems m = sg_elems p ++ sg_elems s) by (rewrite Em1; cbn; auto).
    destruct Hmi as (Hi & Hpa & Hel).
    assert (Par : forall t, In t (a ++ p :: s :: b) -> sg_parent t = name).
    { intros t Ht. pose proof (k_meta _ _ _ _ _ HK) as HM. rewrite Forall_forall in HM. apply HM, Ht. }
    assert (Ip : In p (a ++ p :: s :: b)) by (apply in_or_app; cbn; auto).
    assert (Is : In s (a ++ p :: s :: b)) by (apply in_or_app; cbn; auto).
    assert (Im : In m (a ++ m :: b)) by (apply in_or_app; cbn; auto).
    pose proof (Par p Ip) as Pp. pose proof (Par s Is) as Ps.
    assert (Hps : sg_id p <> sg_id s).
    { rewrite map_app in Hnd. cbn [map] in Hnd. apply NoDup_app_iff in Hnd as (_ & Hnd & _). apply NoDup_cons_iff in Hnd as (Hnd & _). cbn in Hnd. intuition congruence. }
    assert (C1 : cover name O P D (ev_store (EPut h m) st)).
    { cbn [ev_store]. apply cover_put; [congruence|eapply fit_blob; eauto| | |exact C0].
      - intros y Hy. apply (score_ok_seg _ _ _ _ (k_s _ _ _ _ _ HK2) Im Hy).
      - intros y e _ _ He Hy. rewrite Hi in He. unfold rdk in He. rewrite (wk_held _ _ _ _ _ _ _ _ _ _ HW p Ip), (fit_blob _ _ _ _ _ _ HK HF Ip) in He.
        injection He as <-. rewrite Hel. apply in_or_app. auto. }
    assert (Hrs : rdk st name (sg_id s) = Some (sg_elems s)).
    { unfold rdk. rewrite (wk_held _ _ _ _ _ _ _ _ _ _ HW s Is). apply (fit_blob _ _ _ _ _ _ HK HF Is). }
    assert (Hse : forall y, In y (sg_elems s) -> P y) by (intros y Hy; apply (score_ok_seg _ _ _ _ (k_s _ _ _ _ _ HK) Is Hy)).
    cut (forall st2, (forall id, id <> sg_id p -> id <> sg_id s -> st2 (segment_key (lit name) id) = st (segment_key (lit name) id)) ->
           st2 (segment_key (lit name) (sg_id p)) = Some (blob m) -> (forall e y, rdk st2 name (sg_id s) = Some e -> In y e -> P y) ->
           walk name O old P D true sz (S (S (S j))) (a ++ m :: b) st2).
    { intros Next Hw. destruct k as [|k]; [apply dropped_nil in Hw as ->; exact C0|]. cbn [firstn] in Hw.
      apply dropped_must in Hw as (w1 & -> & Hw1); [|exact (fun x => x)].
      destruct k as [|k]; [apply dropped_nil in Hw1 as ->; exact C1|]. cbn [firstn] in Hw1. rewrite evs_store_cons.
      assert (Hp1 : ev_store (EPut h m) st (segment_key (lit name) (sg_id p)) = Some (blob m)).
      { cbn [ev_store]. unfold key_of. rewrite Hi, Hpa, Pp. apply put_same. }
      assert (Ho1 : forall id, id <> sg_id p -> ev_store (EPut h m) st (segment_key (lit name) id) = st (segment_key (lit name) id)).
      { intros id H1. cbn [ev_store]. unfold key_of. rewrite put_other; [reflexivity|]. intros C; apply c24_segment in C as (_ & C); congruence. }
      apply dropped_cons in Hw1 as [(w2 & -> & Hw2)|(_ & Hw2)].
      - rewrite evs_store_cons. eapply IH; eauto. apply Next.
        + intros id H1 H2. cbn [ev_store]. rewrite put_other; [apply Ho1, H1|]. unfold key_of. intros C. apply c24_segment in C as (_ & C). congruence.
        + cbn [ev_store]. rewrite put_other; [exact Hp1|]. unfold key_of. intros C. apply c24_segment in C as (_ & C). congruence.
        + intros e y He. unfold rdk in He. cbn [ev_store] in He. unfold key_of in He. rewrite Ps, put_same in He. discriminate.
      - eapply IH; eauto. apply Next; auto. intros e y He Hy. unfold rdk in He. rewrite Ho1 in He by congruence.
        unfold rdk in Hrs. rewrite Hrs in He. injection He as <-. apply Hse, Hy. }
    clear C0 C1. intros st2 Hst Hsm1 Hsd.
    assert (Hids : forall t, In t (a ++ b) -> In t (a ++ p :: s :: b) /\ sg_id t <> sg_id p /\ sg_id t <> sg_id s).
    { intros t Ht. rewrite map_app in Hnd. cbn [map] in Hnd. apply NoDup_app_iff in Hnd as (N1 & N2 & N3).
      apply NoDup_cons_iff in N2 as (N4 & N2). apply NoDup_cons_iff in N2 as (N5 & N2). cbn in N4.
      apply in_app_iff in Ht. rewrite in_app_iff. cbn [In]. destruct Ht as [Ht|Ht].
      - split; [auto|]. pose proof (N3 _ (in_map sg_id _ _ Ht)) as N6. cbn in N6. intuition congruence.
      - split; [auto|]. pose proof (in_map sg_id _ _ Ht) as N6. split; intros C; rewrite C in N6; intuition. }
    destruct HW as [W1 W2 W3 W4 W5]. split.
    + intros t Ht. apply in_mid in Ht as [->|Ht]; [rewrite Hi; exact Hsm1|]. destruct (Hids t Ht) as (T1 & T2 & T3). rewrite Hst by assumption. apply W1, T1.
    + intros id Hid. destruct (N.eq_dec id (sg_id s)) as [->|Hns]; [right; exact Hsd|]. destruct (N.eq_dec id (sg_id p)) as [->|Hnp].
      * left. rewrite map_app. cbn [map]. rewrite Hi. apply in_or_app. cbn. auto.
      * destruct (W2 id Hid) as [H|H]; [left|right; intros e y; unfold rdk; rewrite Hst by assumption; apply H]. rewrite map_app in *. cbn [map] in *.
        apply in_app_iff in H. apply in_or_app. cbn in *. intuition congruence.
    + intros y Hy Hn. destruct (W3 y Hy Hn) as (t & Ht & Hid & Hyt).
      assert (Hpo : In (sg_id p) O) by (specialize (W5 eq_refl); rewrite Forall_forall in W5; apply (W5 p Ip)).
      destruct (in_app_or _ _ _ Ht) as [Ha|[<-|[<-|Hb]]].
      * exists t. split; [apply in_or_app; auto|auto].
      * exists m. split; [exact Im|]. rewrite Hi, Hel. split; [exact Hpo|apply in_or_app; auto].
      * exists m. split; [exact Im|]. rewrite Hi, Hel. split; [exact Hpo|apply in_or_app; auto].
      * exists t. split; [apply in_or_app; cbn; auto|auto].
    + discriminate.
    + intros _. specialize (W5 eq_refl). rewrite Forall_forall in *. intros t Ht. apply in_mid in Ht as [->|Ht].
      * split; [|rewrite Hi; apply (W5 p Ip)].
        pose proof (k_meta _ _ _ _ _ HK2) as HM. rewrite Forall_forall in HM. destruct (HM m Im) as (-> & _). rewrite Hel, app_length.
        pose proof (k_meta _ _ _ _ _ HK) as HM'. rewrite Forall_forall in HM'. destruct (HM' p Ip) as (<- & _). destruct (HM' s Is) as (<- & _). lia.
      * apply W5, (Hids t Ht).
  - assert (Hself : upd_nth i set_n l = l).
    { eapply upd_nth_self; [exact Hs|]. eapply set_n_same. pose proof (k_meta _ _ _ _ _ HK) as HM. rewrite Forall_forall in HM.
      apply HM. eapply nth_error_In; eauto. }
    rewrite Hself. pose proof Hs as Hs0. apply nth_split_eq in Hs as (a & b & El & La).
    destruct (split_seg false next now s) as [((s1 & s2) & ch)|] eqn:Es; [|exact Hskip]. clear Hskip.
    assert (Is : In s l) by (eapply nth_error_In; eauto).
    assert (Hmf : merge = false).
    { destruct merge; [|reflexivity]. exfalso. pose proof (wk_small _ _ _ _ _ _ _ _ _ _ HW eq_refl) as H. rewrite Forall_forall in H. specialize (H s Is). lia. }
    assert (Hdb : forall y, In y (sg_elems s) -> D y).
    { intros y Hy. exists s. split; [|auto]. apply (wk_old _ _ _ _ _ _ _ _ _ _ HW Hmf i); auto. }
    rewrite El in HK. destruct (sok_split _ _ _ _ _ _ _ _ _ _ _ Hnow Hnx HK Es) as (HK2 & HE2 & Hel & _ & I1 & I2).
    assert (El' : ins_nth (S i) (touch now s2) (upd_nth i (fun _ => touch now s1) l) = a ++ touch now s1 :: touch now s2 :: b).
    { rewrite El, <- La, upd_nth_mid.
      replace (S (length a)) with (length (a ++ [touch now s1])) by (rewrite app_length; cbn; lia).
      replace (a ++ touch now s1 :: b) with ((a ++ [touch now s1]) ++ b) by (rewrite <- app_assoc; reflexivity).
      rewrite ins_nth_mid, <- app_assoc. reflexivity. }
    rewrite El'. set (t1 := touch now s1) in *. set (t2 := touch now s2) in *.
    assert (J1 : sg_id t1 = sg_id s) by exact I1. assert (J2 : sg_id t2 = next) by exact I2.
    assert (HF2 : fit_elems P (a ++ t1 :: t2 :: b)) by (destruct HF as (F1 & F2); split; [exact F1|rewrite HE2, <- El; exact F2]).
    assert (K1 : In t1 (a ++ t1 :: t2 :: b)) by (apply in_or_app; cbn; auto).
    assert (K2 : In t2 (a ++ t1 :: t2 :: b)) by (apply in_or_app; cbn; auto).
    assert (Par : sg_parent t1 = name /\ sg_parent t2 = name).
    { pose proof (k_meta _ _ _ _ _ HK2) as HM. rewrite Forall_forall in HM. split; apply HM; assumption. }
    assert (HKl : sok false name P l next) by (rewrite El; exact HK).
    assert (Hnx0 : ~ In next (map sg_id (a ++ s :: b))).
    { intros C. apply in_map_iff in C as (t & Et & Ht). pose proof (k_id _ _ _ _ _ HK) as Hk. rewrite Forall_forall in Hk. specialize (Hk t Ht). lia. }
    assert (C1 : cover name O P D (ev_store (EPut h t1) st)).
    { cbn [ev_store]. apply cover_put; [apply Par|exact (fit_blob _ _ _ _ _ _ HK2 HF2 K1)| | |exact C0].
      - intros y Hy. apply (score_ok_seg _ _ _ _ (k_s _ _ _ _ _ HK2) K1 Hy).
      - intros y e _ Hn He Hy. exfalso. apply Hn, Hdb. rewrite J1 in He. unfold rdk in He.
        rewrite (wk_held _ _ _ _ _ _ _ _ _ _ HW s Is), (fit_blob _ _ _ _ _ _ HKl HF Is) in He. congruence. }
    cbn [app]. intros Hw. destruct k as [|[|k]]; cbn [firstn] in Hw.
    { apply dropped_nil in Hw as ->. exact C0. }
    { apply dropped_must in Hw as (w1 & -> & Hw1); [|exact (fun x => x)]. apply dropped_nil in Hw1 as ->. exact C1. }
    apply dropped_must in Hw as (w1 & -> & Hw); [|exact (fun x => x)].
    apply dropped_must in Hw as (w2 & -> & Hw); [|exact (fun x => x)]. rewrite !evs_store_cons.
    clear C0 C1. revert w2 Hw. apply IH; auto; [lia|intros id Hid; specialize (HO id Hid); lia|].
    assert (Hst : forall id, id <> sg_id s -> id <> next -> ev_store (EPut h t2) (ev_store (EPut h t1) st) (segment_key (lit name) id) = st (segment_key (lit name) id)).
    { intros id H1 H2. cbn [ev_store]. unfold key_of. rewrite !put_other; [reflexivity| |]; intros C; apply c24_segment in C as (_ & C); congruence. }
    assert (Hsn : sg_id s <> next).
    { intros C. apply Hnx0. rewrite <- C. apply in_map. apply in_or_app. cbn. auto. }
    assert (S1 : ev_store (EPut h t2) (ev_store (EPut h t1) st) (segment_key (lit name) (sg_id s)) = Some (blob t1)).
    { cbn [ev_store]. unfold key_of. rewrite put_other by (intros C; apply c24_segment in C as (_ & C); congruence).
      rewrite J1, (proj1 Par). apply put_same. }
    assert (S2 : ev_store (EPut h t2) (ev_store (EPut h t1) st) (segment_key (lit name) next) = Some (blob t2)).
    { cbn [ev_store]. unfold key_of. rewrite J2, (proj2 Par). apply put_same. }
    pose proof (k_nd _ _ _ _ _ HK) as Hnd.
    assert (Hids : forall t, In t (a ++ b) -> In t l /\ sg_id t <> sg_id s /\ sg_id t <> next).
    { intros t Ht. assert (Hin : In t (a ++ s :: b)) by (apply in_mid; auto). split; [rewrite El; exact Hin|]. split.
      - rewrite map_app in Hnd. cbn [map] in Hnd. apply NoDup_remove_2 in Hnd. rewrite <- map_app in Hnd. intros C. apply Hnd. rewrite <- C. apply in_map, Ht.
      - intros C. apply Hnx0. rewrite <- C. apply in_map, Hin. }
    destruct HW as [W1 W2 W3 W4 W5]. split.
    + intros t Ht. apply in_mid in Ht as [->|Ht]; [rewrite J1; exact S1|]. apply in_mid in Ht as [->|Ht]; [rewrite J2; exact S2|].
      destruct (Hids t Ht) as (T1 & T2 & T3). rewrite Hst by assumption. apply W1, T1.
    + intros id Hid. specialize (HO id Hid). destruct (N.eq_dec id (sg_id s)) as [->|Hns].
      * left. rewrite map_app. cbn [map]. rewrite J1. apply in_or_app. cbn. auto.
      * destruct (W2 id Hid) as [H|H]; [left|right; intros e y; unfold rdk; rewrite Hst by (auto; lia); apply H]. rewrite El, map_app in H. rewrite map_app. cbn [map] in *.
        apply in_app_iff in H. apply in_or_app. cbn in *. intuition congruence.
    + intros y Hy Hn. destruct (W3 y Hy Hn) as (t & Ht & Hid & Hyt). rewrite El in Ht. exists t. apply in_mid in Ht as [->|Ht].
      * exfalso. apply Hn, Hdb, Hyt.
      * split; [|auto]. apply in_mid. right. apply in_mid. right. exact Ht.
    + intros _ j t Hj Ht. rewrite nth_error_app2 in Ht by lia. destruct (j - length a)%nat as [|[|q]] eqn:Eq; [lia|lia|]. cbn in Ht.
      apply (W4 Hmf (length a + S q)%nat t); [lia|]. rewrite El, nth_error_app2 by lia. replace (length a + S q - length a)%nat with (S q) by lia. exact Ht.
    + intros C. congruence.
Qed.

Lemma cover_recovers g s m l st ss xx D : reachable g s l m ->
  st (lit (l_scores_id l)) = Some (meta_blob ss) -> segments_fit (to_wsegs ss) -> 0 < ss_next ss <= 2 ^ 32 ->
  st (lit (l_index_id l)) = Some (meta_blob xx) -> segments_fit (to_wsegs xx) -> 0 < ss_next xx <= 2 ^ 32 ->
  (forall t, In t (ss_segs ss) -> sg_parent t = l_scores_id l) ->
  cover (l_scores_id l) (map sg_id (ss_segs ss)) (sin m) D st ->
  recovers g s st l (fun x => sin m x /\ ~ D x) (sin m).
Proof.
  intros HR M1 F1 X1 M2 F2 X2 Hpar (C1 & C2).
  set (lb := mkL g s (l_scores_id l) (l_index_id l) (bare_segs (clear_idx ss)) (bare_segs (clear_idx xx))).
  assert (HL : load st g s (l_scores_id l) (l_index_id l) = Some lb).
  { unfold load. rewrite (load_segs_meta _ _ _ M1 F1 X1), (load_segs_meta _ _ _ M2 F2 X2). reflexivity. }
  assert (Rd : forall t, In t (ss_segs ss) -> read_stored st (bare_seg t) = rdk st (l_scores_id l) (sg_id t)).
  { intros t Ht. unfold read_stored, rdk, key_of. cbn [bare_seg set_elems sg_parent sg_id]. rewrite (Hpar t Ht). reflexivity. }
  assert (Nth : forall i u, nth_error (ss_segs (l_scores lb)) i = Some u -> exists t, nth_error (ss_segs ss) i = Some t /\ u = bare_seg t).
  { intros i u Hu. unfold lb in Hu. cbn [l_scores bare_segs set_segs ss_segs clear_idx] in Hu. rewrite nth_error_map in Hu.
    destruct (nth_error (ss_segs ss) i) as [t|]; [|discriminate]. cbn in Hu. injection Hu as <-. eauto. }
  assert (Load : forall x, loadable (salvaged st lb) (ss_segs (l_scores (salvage st lb))) x -> sin m x).
  { intros x (i & u & Hu & _ & Hx). unfold salvage in Hu. cbn [l_scores set_segs ss_segs] in Hu. rewrite nth_error_map in Hu.
    destruct (nth_error (ss_segs (l_scores lb)) i) as [u0|] eqn:E0; [|discriminate]. cbn [option_map] in Hu. injection Hu as <-.
    destruct (Nth i u0 E0) as (t & Ht & ->). apply nth_error_In in Ht. unfold salvage_seg in Hx. cbn [set_elems sg_elems] in Hx.
    rewrite (Rd t Ht) in Hx. destruct (rdk st (l_scores_id l) (sg_id t)) as [e|] eqn:Ee; [|destruct Hx].
    eapply C1; [apply in_map, Ht|exact Ee|exact Hx]. }
  pose proof (reach_Inv _ _ _ _ HR) as HI. destruct (i_core _ _ HI) as (Q & HC).
  apply (salvage_recovers g s st l m lb); auto.
  - intros x Hx. pose proof (Load x Hx) as Sx. split; [apply (so_good _ _ (c_s _ _ _ _ HC) x Sx)|exact Sx].
  - intros x (Hx & Hn). destruct (C2 x Hx Hn) as (id & e & Hid & He & Hxe). apply in_map_iff in Hid as (t & <- & Ht).
    destruct (In_nth_error _ _ Ht) as (i & Hi).
    assert (Eu : nth_error (ss_segs (l_scores lb)) i = Some (bare_seg t)).
    { unfold lb. cbn [l_scores bare_segs set_segs ss_segs clear_idx]. apply map_nth_error, Hi. }
    exists i, (salvage_seg st (bare_seg t)). split; [|split].
    + unfold salvage. cbn [l_scores set_segs ss_segs]. apply map_nth_error, Eu.
    + unfold salvaged. rewrite Eu, (Rd t Ht), He. reflexivity.
    + unfold salvage_seg. rewrite (Rd t Ht), He. exact Hxe.
  - intros x y (Hx & _) Hy Ey. apply (so_uniq _ _ (c_s _ _ _ _ HC) y x (Load y Hy) Hx Ey).
Qed.

Definition seg_ev (e : ev) : Prop := match e with EPut _ _ | EDel _ _ => True | _ => False end.
Lemma seg_ev_meta n : plain n -> forall es st, Forall seg_ev es -> evs_store es st (lit n) = st (lit n).
Proof.
  intros Hn. induction es as [|e es IH]; intros st H; [reflexivity|]. apply Forall_cons_iff in H as (H1 & H2). rewrite evs_store_cons, IH by exact H2.
  destruct e as [b s|b s|s|k]; try contradiction; cbn [ev_store]; apply put_other; intros C; unfold key_of in C; eapply plain_not_key; eauto.
Qed.
Lemma other_ev_rdk n id : forall es st, (forall e, In e es -> ev_name e <> n) -> plain_evs es -> rdk (evs_store es st) n id = rdk st n id.
Proof.
  induction es as [|e es IH]; intros st H Hp; [reflexivity|]. apply Forall_cons_iff in Hp as (P1 & P2).
  rewrite evs_store_cons, IH; [|intros x Hx; apply H; right; exact Hx|exact P2]. specialize (H e (or_introl eq_refl)).
  unfold rdk. replace (ev_store e st (segment_key (lit n) id)) with (st (segment_key (lit n) id)); [reflexivity|].
  destruct e as [b s|b s|s|k]; cbn [ev_store ev_name] in *; rewrite put_other; try reflexivity; intros C.
  - unfold key_of in C. apply c24_segment in C as (C & _). apply lit_inj in C. congruence.
  - unfold key_of in C. apply c24_segment in C as (C & _). apply lit_inj in C. congruence.
  - symmetry in C. eapply plain_not_key; eauto.
  - symmetry in C. eapply plain_not_key; eauto.
Qed.
Lemma cover_ext name O P D st st' : (forall id, rdk st' name id = rdk st name id) -> cover name O P D st -> cover name O P D st'.
Proof. intros H (A & B). split; [intros id e y; rewrite H; apply A|]. intros y Hy Hn. destruct (B y Hy Hn) as (id & e & X). exists id, e. rewrite H. exact X. Qed.
Lemma split_loop_segev c isidx merge ms sz now : forall fuel i l next, Forall seg_ev (split_loop_evs fuel c isidx merge ms sz now i l next).
Proof.
  induction fuel as [|f IH]; intros i l next; cbn [split_loop_evs]; (destruct (nth_error l i) as [s|]; [|constructor]); [constructor|].
  destruct (Nat.ltb (sg_n s) sz).
  - destruct (if merge then i else 0%nat) as [|j]; [apply IH|]. destruct (nth_error l (i - 1)) as [p|]; [|apply IH].
    destruct (Nat.ltb ms (sg_n s + sg_n p)); [apply IH|]. destruct (merge_segs now p s) as (m & ch). constructor; [exact I|]. constructor; [exact I|apply IH].
  - destruct (split_seg isidx next now s) as [((s1 & s2) & ch)|]; [|apply IH]. apply Forall_app. split; [|apply IH].
    destruct isidx; repeat constructor.
Qed.
Lemma puts_segev c l is : Forall seg_ev (puts c l is).
Proof.
  apply Forall_forall. intros e He. unfold puts in He. apply in_flat_map in He as (i & _ & He). destruct (nth_error l i); [|destruct He]. destruct He as [<-|[]]. exact I.
Qed.
Lemma Forall_firstn {A} (Q : A -> Prop) n l : Forall Q l -> Forall Q (firstn n l).
Proof. intros H. rewrite Forall_forall in *. intros x Hx. apply H. eapply In_firstn; eauto. Qed.

(** the writes of a pass: score segments, index segments, the two lists of segments *)
Definition split_part1 (hs merge : bool) (now : N) (l : lst) : list ev :=
  split_loop_evs (length (ss_segs (l_scores l))) hs false merge (l_merge l) (l_split l) now 0 (ss_segs (l_scores l)) (ss_next (l_scores l)).
Definition split_part2 (ord : nat -> list nat) (hi merge : bool) (now : N) (l : lst) : list ev :=
  match split_loop_segs (length (ss_segs (l_scores l))) false merge (l_merge l) (l_split l) now 0 (ss_segs (l_scores l)) (ss_next (l_scores l)) [] false with
  | Done (_, _, us, upd) =>
    let xs := update_index_elements now us (ss_segs (l_index l)) in
    puts hi xs (permute (ord 0%nat) (updated_idx us (ss_segs (l_index l)))) ++
    split_loop_evs (length xs) hi true true (l_merge l) (l_split l) now 0 xs (ss_next (l_index l))
  | _ => []
  end.
Definition split_part3 (merge : bool) (now : N) (l : lst) : list ev :=
  match split_loop_segs (length (ss_segs (l_scores l))) false merge (l_merge l) (l_split l) now 0 (ss_segs (l_scores l)) (ss_next (l_scores l)) [] false with
  | Done (_, _, us, upd) =>
    let xs := update_index_elements now us (ss_segs (l_index l)) in
    match split_loop_segs (length xs) true true (l_merge l) (l_split l) now 0 xs (ss_next (l_index l)) [] upd, split_pass merge now l with
    | Done (_, _, _, true), Done l' => save_evs l'
    | _, _ => []
    end
  | _ => []
  end.
Lemma split_parts ord hs hi merge now l : split_evs ord hs hi merge now l = split_part1 hs merge now l ++ split_part2 ord hi merge now l ++ split_part3 merge now l.
Proof.
  unfold split_evs, split_part1, split_part2, split_part3. f_equal.
  destruct (split_loop_segs _ false merge _ _ _ _ _ _ _ _) as [(((ss & nx) & us) & upd)| | |]; try reflexivity. cbn zeta. rewrite <- app_assoc. reflexivity.
Qed.

Lemma split_left_out cfg w ms i merge now ord d g s m l l' : let o := OSplit merge now in
  runs cfg w ms -> nth_error (w_ls w) i = Some d -> nth_error ms i = Some (g, s, m) ->
  act_ok w ms (AOp i o ord) -> Storage.view (w_st w) (w_c w) d = Some l -> step l o = Done l' ->
  merge = false \/ Forall (fun t => (length (sg_elems t) < s)%nat) (ss_segs (l_scores l)) ->
  let p1 := split_part1 (d_hs d) merge now l in let p2 := split_part2 (ord 0%nat) (d_hi d) merge now l in let p3 := split_part3 merge now l in
  forall es,
  (exists n, dropped deletes (firstn n p1) es) \/ (exists w1 t q, es = w1 ++ t ++ firstn q p3 /\ dropped deletes p1 w1 /\ incl t p2) ->
  recovers g s (evs_store es (w_st w)) (d_l d)
    (fun x => sin m x /\ forall t, In t (ss_segs (l_scores l)) -> In x (sg_elems t) -> (length (sg_elems t) < s)%nat) (sin m).
Proof.
  intros o HR Ei Em Hok Hv E Hno p1 p2 p3 es Hes.
  pose proof (eq_refl : p1 = split_part1 (d_hs d) merge now l) as Ep1. pose proof (eq_refl : p2 = split_part2 (ord 0%nat) (d_hi d) merge now l) as Ep2.
  pose proof (eq_refl : p3 = split_part3 merge now l) as Ep3. clearbody p1 p2 p3.
  destruct (runs_winv _ _ _ HR) as (ys & <- & (A & B & C)).
  destruct (Forall2_nth _ _ _ A i d Ei) as ((l0 & x) & Ey & (H1 & H2 & H3)).
  rewrite (map_nth_error snd _ _ Ey) in Em. injection Em as Ex. cbn [snd] in Ex. subst x. cbn [fst snd] in *.
  assert (Hf : map_fits m). { rewrite Forall_forall in C. apply (C (g, s, m)). apply nth_error_In in Ey. apply (in_map snd) in Ey. exact Ey. }
  rewrite (ok_view _ _ _ _ (g, s, m) l0 Hf H1 H2 H3) in Hv. injection Hv as <-.
  destruct Hok as (Hok & _). specialize (Hok g s m (map_nth_error snd _ _ Ey)). cbn [op_ok o] in Hok.
  destruct (bare_eq_fields _ _ H2) as (_ & _ & E3 & _). unfold names in E3. injection E3 as E3 E4. unfold recovers. rewrite E3, E4.
  change (recovers g s (evs_store es (w_st w)) l0
    (fun x => sin m x /\ forall t, In t (ss_segs (l_scores l0)) -> In x (sg_elems t) -> (length (sg_elems t) < s)%nat) (sin m)).
  clear A B C Ei Ey E3 E4 H2. cbn [o step] in *. clear o.
  set (hs := d_hs d) in *. set (hi := d_hi d) in *. set (st := w_st w) in *. set (c := w_c w) in *. rename l0 into l. rename H1 into HRe. rename Hok into Hnow.
  pose proof (reach_inv _ _ _ _ HRe) as (HI & Eg & Es).
  destruct (split_rep cfg hs hi st c (sin m) l l' (ord 0%nat) merge now HI Hnow H3 E) as (Hrep' & _ & Hnm).
  assert (HI' : Inv (sin m) l').
  { destruct (step_ok g s l m (OSplit merge now) (reach_inv _ _ _ _ HRe) Hnow) as [X|(l2 & E2 & H & _)]; cbn [step spec_step] in *; [congruence|]. congruence. }
  pose proof (inv_fits _ _ HI (r_named _ _ _ _ _ _ H3) Hf) as (_ & _ & F1 & F2 & X1 & X2).
  pose proof (inv_fits _ _ HI' (r_named _ _ _ _ _ _ Hrep') Hf) as (F0' & _ & F1' & F2' & X1' & X2').
  pose proof (r_named _ _ _ _ _ _ H3) as [M1 M2 M3 M4 M5].
  pose proof (r_both _ _ _ _ _ _ H3) as (B1 & B2). rewrite M1 in B1. rewrite M2 in B2.
  destruct (i_core _ _ HI) as (Q & HCo).
  (* the parts of the pass *)
  rewrite split_parts, <- Ep1, <- Ep2, <- Ep3 in Hrep'. unfold split_part1 in Ep1. unfold split_part2 in Ep2. unfold split_part3 in Ep3. pose proof E as E0. unfold split_pass in E.
  destruct (split_loop_segs (length (ss_segs (l_scores l))) false merge (l_merge l) (l_split l) now 0 (ss_segs (l_scores l)) (ss_next (l_scores l)) [] false)
    as [(((ss & nx) & us) & upd)| | |] eqn:E1; try discriminate.
  set (xs := update_index_elements now us (ss_segs (l_index l))) in *.
  destruct (split_loop_segs (length xs) true true (l_merge l) (l_split l) now 0 xs (ss_next (l_index l)) [] upd)
    as [(((is & nxi) & us2) & updi)| | |] eqn:E2; try discriminate.
  rewrite E0 in Ep3. clear E.
  assert (Hps : 0 < ss_next (l_scores l)) by (eapply meta_next_pos; [apply HI|apply HCo]).
  assert (Hpi : 0 < ss_next (l_index l)) by (eapply meta_next_pos; [apply HI|apply HCo]).
  assert (K0 : sok false (l_scores_id l) (sin m) (ss_segs (l_scores l)) (ss_next (l_scores l))).
  { rewrite <- M1. apply meta_sok; [apply HI|apply HCo|discriminate]. }
  assert (Hnx32 : nx <= 4294967296).
  { unfold split_pass in E0. rewrite E1 in E0. fold xs in E0. rewrite E2 in E0. unfold guard_ids, ids_ok in E0. cbn [set_both l_scores l_index ss_next] in E0.
    destruct ((nx <=? 4294967296) && (nxi <=? 4294967296)) eqn:EG; [|discriminate]. apply andb_true_iff in EG as (EG1 & _). lia. }
  destruct (split_mid (sin m) merge now l HI Hnow _ _ _ _ E1 Hnx32) as (Q' & K2). fold xs in K2. rewrite M2 in K2.
  destruct (split_loop_coll hs _ _ _ _ _ _ _ Hnow M3 _ _ _ _ _ _ _ _ _ _ st c Hps K0 E1 B1) as (C1 & W1 & _). cbn zeta in *.
  rewrite <- Ep1 in C1, W1. rename p1 into es1.
  destruct (update_index_kept now us (ss_segs (l_index l))) as (K & Pa). fold xs in K, Pa.
  assert (Px : Forall (fun g => sg_parent g = l_index_id l) xs) by (eapply parents_Forall; [exact Pa|apply B2]).
  assert (D1 : coll hi (evs_store es1 st) (evs_cache es1 c) (l_index_id l) (ss_segs (l_index l))).
  { apply coll_frame; [apply names_plain with (l_scores_id l); assumption| |exact B2]. intros e He. rewrite (W1 e He). exact M5. }
  set (es2 := puts hi xs (permute (ord 0%nat 0%nat) (updated_idx us (ss_segs (l_index l))))) in *.
  destruct (two_index hs hi (evs_store es1 st) (evs_cache es1 c) (l_scores_id l) (l_index_id l) ss (ss_segs (l_index l)) xs _ M4 M5 (conj C1 D1)
     (kept_perm (ord 0%nat 0%nat) _ _ _ K) Px) as (_ & D2). fold es2 in D2.
  assert (W2 : forall e, In e es2 -> ev_name e = l_index_id l) by (apply puts_names, Px).
  destruct (split_loop_coll hi _ _ _ _ _ _ _ Hnow M4 _ _ _ _ _ _ _ _ _ _ _ _ Hpi K2 E2 D2) as (_ & W3 & _). cbn zeta in *.
  set (es3 := split_loop_evs (length xs) hi true true (l_merge l) (l_split l) now 0 xs (ss_next (l_index l))) in *.
  rename p2 into tl. rename p3 into sv.
  assert (Wt : forall e, In e tl -> ev_name e = l_index_id l) by (intros e He; rewrite Ep2 in He; apply in_app_iff in He as [He|He]; auto).
  assert (St : Forall seg_ev es1 /\ Forall seg_ev tl).
  { rewrite Ep1, Ep2. split; [apply split_loop_segev|]. apply Forall_app. split; [apply puts_segev|apply split_loop_segev]. }
  destruct St as (St1 & St2).
  set (D := fun y => exists t, In t (ss_segs (l_scores l)) /\ (s <= sg_n t)%nat /\ In y (sg_elems t)).
  assert (Hcnt : forall t, In t (ss_segs (l_scores l)) -> sg_n t = length (sg_elems t)).
  { intros t Ht. pose proof (k_meta _ _ _ _ _ K0) as HM. rewrite Forall_forall in HM. apply (HM t Ht). }
  apply (recovers_weaken g s _ l (fun x => sin m x /\ ~ D x) _ (sin m) (sin m)); [|auto|].
  { intros x (Hx & Hn). split; [exact Hx|]. intros (t & Ht & Hg & Hxt). specialize (Hn t Ht Hxt). rewrite (Hcnt t Ht) in Hg. lia. }
  (* the score segments *)
  set (O := map sg_id (ss_segs (l_scores l))).
  assert (Cov : forall n w1, dropped deletes (firstn n es1) w1 -> cover (l_scores_id l) O (sin m) D (evs_store w1 st)).
  { intros n w1 Hw1. rewrite Ep1, Es in Hw1. revert w1 Hw1.
    apply (split_loop_cover hs (l_scores_id l) O (ss_segs (l_scores l)) (sin m) merge (l_merge l) s now); auto.
    - rewrite <- Es. apply HI.
    - intros id Hid. apply in_map_iff in Hid as (t & <- & Ht). pose proof (k_id _ _ _ _ _ K0) as Hk. rewrite Forall_forall in Hk. apply Hk, Ht.
    - split; [apply Hf|]. apply (proj2 Hf), (contents_ranking _ _ HI).
    - split.
      + intros t Ht. pose proof (co_held _ _ _ _ _ B1) as Hh. rewrite Forall_forall in Hh. destruct (Hh t Ht) as (Hh1 & _). unfold key_of in Hh1.
        pose proof (co_par _ _ _ _ _ B1) as Hp. rewrite Forall_forall in Hp. rewrite (Hp t Ht) in Hh1. exact Hh1.
      + intros id Hid. left. exact Hid.
      + intros y Hy _. pose proof (proj2 (score_ok_In _ _ y (c_s _ _ _ _ HCo)) Hy) as Hin. apply elems_of_In in Hin as (t & Ht & Hyt).
        exists t. split; [exact Ht|]. split; [apply in_map, Ht|exact Hyt].
      + intros _ j t _ Ht. eapply nth_error_In, Ht.
      + intros Hm. destruct Hno as [Hno|Hno]; [congruence|]. rewrite Forall_forall in *. intros t Ht. split; [rewrite (Hcnt t Ht); apply Hno, Ht|apply in_map, Ht]. }
  assert (Old : forall es, Forall seg_ev es -> cover (l_scores_id l) O (sin m) D (evs_store es st) ->
    recovers g s (evs_store es st) l (fun x => sin m x /\ ~ D x) (sin m)).
  { intros es0 Hse Hc. apply (cover_recovers g s m l _ (l_scores l) (l_index l)); auto.
    - rewrite seg_ev_meta by assumption. apply (r_ms _ _ _ _ _ _ H3).
    - rewrite seg_ev_meta by assumption. apply (r_mi _ _ _ _ _ _ H3).
    - intros t Ht. pose proof (co_par _ _ _ _ _ B1) as Hp. rewrite Forall_forall in Hp. apply Hp, Ht. }
  assert (Pl : plain_evs tl) by (apply names_plain with (l_index_id l); assumption).
  assert (Sub : forall a b, incl a b -> Forall seg_ev b -> Forall seg_ev a) by (intros a b Hi Hb; rewrite Forall_forall in *; intros e He; apply Hb, Hi, He).
  destruct Hes as [(n & Hn)|(w1 & t & q & -> & Hw1 & Ht)].
  { apply Old; [|eapply Cov, Hn]. eapply Sub; [eapply dropped_incl, Hn|apply Forall_firstn, St1]. }
  assert (Sw1 : Forall seg_ev w1) by (eapply Sub; [eapply dropped_incl, Hw1|exact St1]).
  assert (Swt : Forall seg_ev t) by (eapply Sub; [exact Ht|exact St2]).
  assert (Plt : plain_evs t) by (unfold plain_evs in *; rewrite Forall_forall in *; intros e He; apply Pl, Ht, He).
  assert (Wtt : forall e, In e t -> ev_name e <> l_scores_id l) by (intros e He; rewrite (Wt e (Ht e He)); congruence).
  assert (Mid : recovers g s (evs_store (w1 ++ t) st) l (fun x => sin m x /\ ~ D x) (sin m)).
  { apply Old.
    - apply Forall_app. split; assumption.
    - rewrite evs_store_app. eapply cover_ext; [|eapply (Cov (length es1)); rewrite firstn_all; exact Hw1]. intros id. apply other_ev_rdk; assumption. }
  rewrite Ep3 in *. clear Ep3. destruct updi; [|rewrite firstn_nil, app_nil_r; exact Mid].
  destruct q as [|q]; [cbn [firstn]; rewrite app_nil_r; exact Mid|].
  (* the segment lists *)
  unfold names in Hnm. injection Hnm as N1 N2.
  pose proof (r_both _ _ _ _ _ _ Hrep') as (B1' & _). pose proof (r_named _ _ _ _ _ _ Hrep') as [M1' M2' _ _ _].
  set (full := evs_store (es1 ++ tl ++ save_evs l') st) in *.
  set (metas := firstn (S q) (save_evs l')).
  assert (MetaR : forall es st0 id, Forall (fun e => match e with EMeta _ => True | _ => False end) es -> plain_evs es -> rdk (evs_store es st0) (l_scores_id l) id = rdk st0 (l_scores_id l) id).
  { clear. induction es as [|e es IH]; intros st0 id H P; [reflexivity|]. apply Forall_cons_iff in H as (H & H'). apply Forall_cons_iff in P as (P & P'). rewrite evs_store_cons, IH by assumption.
    destruct e; try contradiction. unfold rdk. cbn [ev_store]. rewrite put_other; [reflexivity|]. intros X. symmetry in X. eapply plain_not_key; eauto. }
  assert (Psv : plain_evs (save_evs l') /\ Forall (fun e => match e with EMeta _ => True | _ => False end) (save_evs l')).
  { split; [|repeat constructor]. unfold plain_evs, save_evs. apply Forall_cons; [|apply Forall_cons; [|apply Forall_nil]]; cbn [ev_name]; rewrite ?M1', ?M2', ?N1, ?N2; assumption. }
  assert (CovN : cover (l_scores_id l) (map sg_id (ss_segs (l_scores l'))) (sin m) D (evs_store (w1 ++ t ++ metas) st)).
  { rewrite M1', N1 in B1'.
    assert (Hh : forall u, In u (ss_segs (l_scores l')) -> rdk (evs_store (w1 ++ t ++ metas) st) (l_scores_id l) (sg_id u) = Some (sg_elems u)).
    { intros u Hu. pose proof (co_held _ _ _ _ _ B1') as Hh. rewrite Forall_forall in Hh. destruct (Hh u Hu) as (Hh1 & _). unfold key_of in Hh1.
      pose proof (co_par _ _ _ _ _ B1') as Hp. rewrite Forall_forall in Hp. rewrite (Hp u Hu) in Hh1.
      assert (Hr : rdk full (l_scores_id l) (sg_id u) = Some (sg_elems u)).
      { unfold rdk. rewrite Hh1. apply read_blob_blob. rewrite Forall_forall in F0'. apply F0', Hu. }
      revert Hr. unfold full. rewrite !evs_store_app.
      rewrite (MetaR (save_evs l')) by apply Psv. rewrite (MetaR metas) by (unfold metas; apply Forall_firstn, Psv).
      rewrite (other_ev_rdk _ _ tl) by (try exact Pl; intros e0 He0; rewrite (Wt e0 He0); congruence). rewrite (other_ev_rdk _ _ t) by assumption.
      unfold rdk. destruct (evs_store es1 st (segment_key (lit (l_scores_id l)) (sg_id u))) as [bl|] eqn:Eb; [|discriminate].
      rewrite (dropped_le _ _ Hw1 st st (fun _ _ X => X) _ _ Eb). auto. }
    destruct (i_core _ _ HI') as (Qn & HCn). split.
    - intros id e y Hid He Hy. apply in_map_iff in Hid as (u & <- & Hu). rewrite (Hh u Hu) in He. injection He as <-.
      apply (score_ok_seg _ _ _ _ (c_s _ _ _ _ HCn) Hu Hy).
    - intros y Hy _. pose proof (proj2 (score_ok_In _ _ y (c_s _ _ _ _ HCn)) Hy) as Hin. apply elems_of_In in Hin as (u & Hu & Hyt).
      exists (sg_id u), (sg_elems u). split; [apply in_map, Hu|]. split; [apply Hh, Hu|exact Hyt]. }
  assert (ParN : forall u, In u (ss_segs (l_scores l')) -> sg_parent u = l_scores_id l).
  { intros u Hu. pose proof (co_par _ _ _ _ _ B1') as Hp. rewrite Forall_forall in Hp. rewrite (Hp u Hu), M1', N1. reflexivity. }
  assert (Is : forall st0, evs_store t (evs_store w1 st0) (lit (l_index_id l)) = st0 (lit (l_index_id l))) by (intros st0; rewrite !seg_ev_meta by assumption; reflexivity).
  destruct q as [|q].
  - (* scores only *)
    apply (cover_recovers g s m l _ (l_scores l') (l_index l)); auto; unfold metas; cbn [firstn save_evs]; rewrite !evs_store_app; cbn [evs_store fold_left ev_store];
      rewrite M1', N1; [apply put_same|]. rewrite put_other by (intros X; apply lit_inj in X; congruence).
    fold (evs_store w1 st). fold (evs_store t (evs_store w1 st)). rewrite Is. apply (r_mi _ _ _ _ _ _ H3).
  - apply (cover_recovers g s m l _ (l_scores l') (l_index l')); auto; unfold metas; rewrite firstn_all2 by (cbn; lia); unfold save_evs; rewrite !evs_store_app; cbn [evs_store fold_left ev_store];
      rewrite M1', M2', N1, N2; [|apply put_same]. rewrite put_other by (intros X; apply lit_inj in X; congruence). apply put_same.
Qed.

Lemma c26_recovers cfg w ms i merge now ord d g s m l l' k : let o := OSplit merge now in
  runs cfg w ms -> nth_error (w_ls w) i = Some d -> nth_error ms i = Some (g, s, m) ->
  act_ok w ms (AOp i o ord) -> Storage.view (w_st w) (w_c w) d = Some l -> step l o = Done l' ->
  merge = false \/ Forall (fun t => (length (sg_elems t) < s)%nat) (ss_segs (l_scores l)) ->
  recovers g s (evs_store (firstn k (op_evs ord cfg (d_hs d) (d_hi d) l o l')) (w_st w)) (d_l d)
    (fun x => sin m x /\ forall t, In t (ss_segs (l_scores l)) -> In x (sg_elems t) -> (length (sg_elems t) < s)%nat) (sin m).
Proof.
  intros o HR Ei Em Hok Hv E Hno. apply (split_left_out cfg w ms i merge now ord d g s m l l' HR Ei Em Hok Hv E Hno).
  cbn [o op_evs]. rewrite split_parts. set (p1 := split_part1 _ _ _ _). set (p2 := split_part2 _ _ _ _ _). set (p3 := split_part3 _ _ _).
  rewrite firstn_app. destruct (le_lt_dec k (length p1)) as [Hk|Hk].
  - left. exists k. replace (k - length p1)%nat with 0%nat by lia. cbn [firstn]. rewrite app_nil_r. apply dropped_refl.
  - right. exists p1, (firstn (k - length p1) p2), (k - length p1 - length p2)%nat. rewrite (firstn_all2 p1) by lia. rewrite firstn_app.
    split; [reflexivity|]. split; [apply dropped_refl|]. intros e He. eapply In_firstn; eauto.
Qed.

Lemma c26_merge cfg w ms i merge now ord d g s m l l' k : let o := OSplit merge now in
  runs cfg w ms -> nth_error (w_ls w) i = Some d -> nth_error ms i = Some (g, s, m) ->
  act_ok w ms (AOp i o ord) -> Storage.view (w_st w) (w_c w) d = Some l -> step l o = Done l' ->
  Forall (fun t => (length (sg_elems t) < s)%nat) (ss_segs (l_scores l)) ->
  recovers g s (evs_store (firstn k (op_evs ord cfg (d_hs d) (d_hi d) l o l')) (w_st w)) (d_l d) (sin m) (sin m).
Proof.
  intros o HR Ei Em Hok Hv E Hno.
  eapply recovers_weaken; [| |eapply c26_recovers; eauto]; [|auto].
  intros x Hx. split; [exact Hx|]. intros t Ht _. rewrite Forall_forall in Hno. apply Hno, Ht.
Qed.
