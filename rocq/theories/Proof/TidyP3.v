(** The store of any history of calls has nothing but what belongs to a list. *)
From Coq Require Import Strings.String Strings.Ascii.
From Verif.Lib Require Import Prelude ListAux ListLemmas Perm Bytes.
From Verif.Model Require Import Element Elements Segment List Msgp Codec Keys Storage.
From Verif.Spec Require Import RankSpec QuerySpec HistorySpec AnswerSpec KeySpec CodecSpec StorageSpec TidySpec.
From Verif.Proof Require Import ElementP ElementsP SegP InvDef KeysP MsgpP CodecP ChangeP UpdateP BuildP SplitP HistoryP BuildInv ListThm StoreP StoreOps StoreBuild StoreWorld StoreThm StoreFinal TidyP TidyP2.
Open Scope N_scope.

Definition has (l : lst) (n : string) (id : N) : Prop :=
  (n = l_scores_id l /\ In id (map sg_id (ss_segs (l_scores l)))) \/ (n = l_index_id l /\ In id (map sg_id (ss_segs (l_index l)))).
Definition tidyF (F : bytes -> Prop) (w : world) : Prop :=
  forall k, w_st w k <> None -> F k \/ exists d, In d (w_ls w) /\ owned (d_l d) k.

Lemma owned_seg l n id : Forall plain (names l) -> owned l (segment_key (lit n) id) -> has l n id.
Proof.
  intros Hp. apply Forall_cons_iff in Hp as (P1 & Hp). apply Forall_cons_iff in Hp as (P2 & _).
  intros [E|[E|[(s & Hs & E)|(s & Hs & E)]]].
  - exfalso. eapply plain_not_key; [exact P1|symmetry; exact E].
  - exfalso. eapply plain_not_key; [exact P2|symmetry; exact E].
  - apply c24_segment in E as (E1 & E2). apply lit_inj in E1. left. split; [exact E1|]. rewrite E2. apply in_map, Hs.
  - apply c24_segment in E as (E1 & E2). apply lit_inj in E1. right. split; [exact E1|]. rewrite E2. apply in_map, Hs.
Qed.
Lemma has_owned l n id : has l n id -> owned l (segment_key (lit n) id).
Proof.
  intros [(-> & H)|(-> & H)]; apply in_map_iff in H as (s & <- & Hs); right; right; [left|right]; eauto.
Qed.
Lemma has_name l n id : has l n id -> In n (names l).
Proof. intros [(-> & _)|(-> & _)]; cbn; auto. Qed.
Lemma owned_meta l n : plain n -> owned l (lit n) -> In n (names l).
Proof.
  intros Hp [E|[E|[(s & Hs & E)|(s & Hs & E)]]].
  - apply lit_inj in E. left. auto.
  - apply lit_inj in E. right. left. auto.
  - exfalso. eapply plain_not_key; [exact Hp|exact E].
  - exfalso. eapply plain_not_key; [exact Hp|exact E].
Qed.
Lemma meta_owned l n : In n (names l) -> owned l (lit n).
Proof. intros [<-|[<-|[]]]; [left|right; left]; reflexivity. Qed.
Lemma taken_in w d n : In d (w_ls w) -> In n (names (d_l d)) -> In n (taken w).
Proof. intros A B. unfold taken. apply in_flat_map. eauto. Qed.
Lemma uniq_name n : forall ls i j (d d' : loaded), NoDup (nm ls) -> nth_error ls i = Some d -> nth_error ls j = Some d' ->
  In n (names (d_l d)) -> In n (names (d_l d')) -> i = j.
Proof.
  induction ls as [|x ls IH]; intros [|i] [|j] d d' Hn Ei Ej Hd Hd'; try discriminate; auto; cbn [nth_error] in *.
  - exfalso. injection Ei as ->. change (nm (d :: ls)) with (names (d_l d) ++ nm ls) in Hn. apply NoDup_app_iff in Hn as (_ & _ & Hn).
    apply (Hn n Hd). unfold nm. apply in_flat_map. exists d'. split; [eapply nth_error_In; eauto|exact Hd'].
  - exfalso. injection Ej as ->. change (nm (d' :: ls)) with (names (d_l d') ++ nm ls) in Hn. apply NoDup_app_iff in Hn as (_ & _ & Hn).
    apply (Hn n Hd'). unfold nm. apply in_flat_map. exists d. split; [eapply nth_error_In; eauto|exact Hd].
  - f_equal. change (nm (x :: ls)) with (names (d_l x) ++ nm ls) in Hn. apply NoDup_app_iff in Hn as (_ & Hn & _). eapply IH; eauto.
Qed.
Lemma winv_plain cfg w ys : winv cfg w ys -> Forall plain (taken w).
Proof.
  intros (A & _ & _). unfold taken. induction A as [|d (l & x) ls ys' (_ & H2 & H3) _ IH]; [constructor|]. cbn [flat_map]. apply Forall_app. split; [|exact IH].
  destruct (bare_eq_fields _ _ H2) as (_ & _ & -> & _). apply names_plain2, H3.
Qed.
Lemma names_plain_in cfg w ys d : winv cfg w ys -> In d (w_ls w) -> Forall plain (names (d_l d)).
Proof. intros HW Hd. pose proof (winv_plain _ _ _ HW) as H. rewrite Forall_forall in *. intros n Hn. apply H. eapply taken_in; eauto. Qed.

Lemma tidy_cov F cfg w ys i d : winv cfg w ys -> tidyF F w -> nth_error (w_ls w) i = Some d -> cov2 F (w_st w) (d_l d).
Proof.
  intros HW HT Ei. pose proof HW as (_ & HN & _).
  assert (G : forall n id, In n (names (d_l d)) -> w_st w (segment_key (lit n) id) <> None -> F (segment_key (lit n) id) \/ has (d_l d) n id).
  { intros n id Hn Hid. destruct (HT _ Hid) as [A|(d0 & Hd0 & HO)]; [left; exact A|right].
    pose proof (owned_seg _ _ _ (names_plain_in _ _ _ _ HW Hd0) HO) as H0. apply In_nth_error in Hd0 as (j & Ej).
    assert (i = j) by (eapply uniq_name; eauto; eapply has_name; eauto). subst j. assert (d0 = d) by congruence. subst d0. exact H0. }
  assert (Hne : l_scores_id (d_l d) <> l_index_id (d_l d)).
  { destruct HW as (HA & _). destruct (Forall2_nth _ _ _ HA i d Ei) as ((l & x) & _ & (_ & HB & Hr)).
    destruct (bare_eq_fields _ _ HB) as (_ & _ & En & _). unfold names in En. injection En as -> ->. apply Hr. }
  split; intros id Hid.
  - destruct (G (l_scores_id (d_l d)) id (or_introl eq_refl) Hid) as [A|[(_ & A)|(A & _)]]; auto. contradiction.
  - destruct (G (l_index_id (d_l d)) id (or_intror (or_introl eq_refl)) Hid) as [A|[(A & _)|(_ & A)]]; auto. symmetry in A. contradiction.
Qed.
Lemma tidy_bare F cfg w ys n : winv cfg w ys -> tidyF F w -> ~ In n (taken w) -> bare_of F (w_st w) n.
Proof.
  intros HW HT Hn id Hid. destruct (HT _ Hid) as [A|(d & Hd & HO)]; [exact A|]. exfalso. apply Hn.
  eapply taken_in; [exact Hd|]. eapply has_name. eapply owned_seg; [eapply names_plain_in; eauto|exact HO].
Qed.
Lemma bare_ids t l : bare t = bare l -> same_ids l t.
Proof.
  intros H. destruct (bare_eq_fields _ _ H) as (_ & _ & En & B1 & B2). apply bare_segs_fields in B1 as (_ & _ & _ & _ & S1). apply bare_segs_fields in B2 as (_ & _ & _ & _ & S2).
  assert (G : forall a b, map bare_seg a = map bare_seg b -> map sg_id a = map sg_id b).
  { intros a b E. assert (X : map sg_id (map bare_seg a) = map sg_id (map bare_seg b)) by (rewrite E; reflexivity). rewrite !map_map in X. exact X. }
  split; [exact En|]. split; apply G; assumption.
Qed.
Lemma cov2_ids F st l l' : same_ids l l' -> cov2 F st l -> cov2 F st l'.
Proof. intros (A & B & C) (D & E). unfold names in A. injection A as A1 A2. split; rewrite ?A1, ?A2; eapply cov_ids; eauto. Qed.
Lemma cov2_has F st l n id : cov2 F st l -> In n (names l) -> st (segment_key (lit n) id) <> None -> F (segment_key (lit n) id) \/ has l n id.
Proof.
  intros (A & B) [<-|[<-|[]]] H; [destruct (A id H)|destruct (B id H)]; auto; right; [left|right]; auto.
Qed.

(** the keys of the collections that the action works on *)
Lemma act_own F cfg w w' ys a : winv cfg w ys -> act_ok w (map snd ys) a -> act_on cfg w a = Some w' -> tidyF F w ->
  forall n id, In n (own w a) -> w_st w' (segment_key (lit n) id) <> None -> F (segment_key (lit n) id) \/ exists d, In d (w_ls w') /\ has (d_l d) n id.
Proof.
  intros HW Hok E HT n id Hn Hid. pose proof HW as (HA & HN & HF).
  destruct a as [merge split ns ni now sc sch want e ord|i merge split ns ni now|i o ord|i ord|keep|i isidx j]; cbn [act_on act_ok own] in *.
  - destruct Hok as (Hms & Hsz & Hnow & Hd & Hel & Hlen & Fs & Fi & Hne).
    destruct (new_list merge split ns ni now sc sch want e) as [l'| | |] eqn:EN; try discriminate. injection E as <-. cbn [w_st w_ls] in *.
    pose proof Fs as (Ps & Ts & Us). pose proof Fi as (Pi & Ti & Ui).
    assert (EP : populate ns ni now sc sch want (update_time now e) (init_empty merge split ns ni now) = Done l').
    { unfold new_list in EN. destruct e; [injection EN as <-; reflexivity|exact EN]. }
    assert (EL : length (update_time now e) = length e) by (unfold update_time; apply map_length).
    assert (G1 : size_safe merge split want (length (update_time now e))) by (rewrite EL; apply Hsz).
    assert (G2 : distinct_ids (update_time now e)) by (unfold distinct_ids; rewrite update_time_ids; exact Hd).
    assert (G3 : Forall good (update_time now e)) by (apply update_time_good; assumption).
    assert (G4 : N.of_nat (length (update_time now e)) < max_u32) by (rewrite EL; exact Hlen).
    destruct (built_rep cfg (w_st w) (w_c w) ns ni now sc sch want (update_time now e) (init_empty merge split ns ni now) l' ord) as (R & W & Nl); auto.
    cbn zeta in *. pose proof Nl as Nl'. unfold names in Nl'. injection Nl' as N1 N2.
    assert (C2 : cov2 F (evs_store (built_evs ord cfg ns ni now sc sch want (update_time now e) (init_empty merge split ns ni now) l') (w_st w)) l').
    { apply cov2_new; rewrite ?N1, ?N2; auto; try (eapply tidy_bare; eauto).
      - eapply within_plain; [exact W|auto].
      - apply built_puts; auto. }
    destruct (cov2_has F _ l' n id C2) as [A|A]; [rewrite Nl; exact Hn|exact Hid|left; exact A|right].
    eexists. split; [apply in_or_app; right; left; reflexivity|exact A].
  - destruct Hok as (Hms & Hsz & Hnow & Hlen & Fs & Fi & Hne).
    destruct (nth_error (w_ls w) i) as [d|] eqn:Ei; [|discriminate].
    destruct (Forall2_nth _ _ _ HA i d Ei) as ((l & ((g & s) & m)) & Ey & (HR & HB & Hr)).
    cbn [fst snd] in *. assert (Em : nth_error (map snd ys) i = Some (g, s, m)) by (apply (map_snd_nth ys i (l, (g, s, m))); exact Ey).
    assert (Hfit : fit_entry (g, s, m)) by (rewrite Forall_forall in HF; apply HF; eapply nth_error_In; eauto).
    rewrite (ok_view _ _ _ _ (g, s, m) _ Hfit HR HB Hr) in E.
    destruct (clone_elements merge split ns ni now l) as [l'| | |] eqn:EN; try discriminate. injection E as <-. cbn [w_st w_ls] in *.
    pose proof Fs as (Ps & Ts & Us). pose proof Fi as (Pi & Ti & Ui).
    assert (HR' : reachable merge split l' m).
    { eapply R_clone with (now := now); eauto; [apply Ps|apply Pi]. }
    destruct (clone_rep cfg (w_st w) (w_c w) (sin m) l' merge split ns ni now l (reach_Inv _ _ _ _ HR') EN Ps Pi Hne Us Ui) as (R & W & Nl).
    cbn zeta in *. pose proof Nl as Nl'. unfold names in Nl'. injection Nl' as N1 N2.
    assert (C2 : cov2 F (evs_store (clone_evs l') (w_st w)) l').
    { apply cov2_new; rewrite ?N1, ?N2; auto; try (eapply tidy_bare; eauto).
      - eapply within_plain; [exact W|auto].
      - eapply clone_puts, reach_Inv; eauto. }
    destruct (cov2_has F _ l' n id C2) as [A|A]; [rewrite Nl; exact Hn|exact Hid|left; exact A|right].
    eexists. split; [apply in_or_app; right; left; reflexivity|exact A].
  - destruct Hok as (Hop & Hnew).
    destruct (nth_error (w_ls w) i) as [d|] eqn:Ei; [|discriminate].
    destruct (Forall2_nth _ _ _ HA i d Ei) as ((l & ((g & s) & m)) & Ey & (HR & HB & Hr)).
    cbn [fst snd] in *. assert (Em : nth_error (map snd ys) i = Some (g, s, m)) by (apply (map_snd_nth ys i (l, (g, s, m))); exact Ey).
    specialize (Hop _ _ _ Em). assert (Hfit : fit_entry (g, s, m)) by (rewrite Forall_forall in HF; apply HF; eapply nth_error_In; eauto).
    pose proof (tidy_cov F cfg w ys i d HW HT Ei) as HC. pose proof (bare_ids _ _ HB) as HS.
    pose proof HS as (En & _ & _).
    assert (HCl : cov2 F (w_st w) l). { apply cov2_ids with (d_l d); [|exact HC]. destruct HS as (A & B & C). split; [auto|split; auto]. }
    destruct (run_op ord cfg (w_st w) (w_c w) d o) as [((st' & c') & d')|] eqn:Er; [|discriminate].
    injection E as <-. cbn [w_st w_ls] in *.
    assert (Hin : In d' (upd_nth i (fun _ => d') (w_ls w))).
    { apply nth_error_In with i. rewrite upd_nth_nth, Nat.eqb_refl, Ei. reflexivity. }
    destruct (match o with OReload => true | _ => false end) eqn:Eo.
    { destruct o; try discriminate. cbn [run_op] in Er. rewrite (ok_reopen _ _ _ _ (g, s, m) _ Hfit HR HB Hr) in Er. injection Er as <- <- <-.
      assert (HC' : cov2 F (w_st w) (bare (reload l))).
      { apply cov2_ids with l; [|exact HCl]. eapply same_trans; [|apply bare_ids, bare_bare]. repeat split. }
      destruct (cov2_has F _ _ n id HC') as [A|A]; [|exact Hid|left; exact A|right; eexists; split; [exact Hin|exact A]].
      rewrite app_nil_r in Hn. rewrite En in Hn. exact Hn. }
    assert (Er' : exists l', step l o = Done l' /\ st' = evs_store (op_evs ord cfg (d_hs d) (d_hi d) l o l') (w_st w) /\ d_l d' = l').
    { unfold run_op in Er. rewrite (ok_view _ _ _ _ (g, s, m) _ Hfit HR HB Hr) in Er.
      destruct (step l o) as [l'| | |] eqn:Es; try (destruct o; discriminate). exists l'. split; [reflexivity|].
      destruct o; try discriminate; destruct (op_flags _ _ _ _ _) as (f1 & f2); injection Er as <- <- <-; auto. }
    destruct Er' as (l' & Es & -> & El').
    assert (Hnw : Forall (fresh w) (new_names o) /\ NoDup (new_names o)).
    { destruct o; cbn [new_names]; try (split; constructor; fail).
      - split; [auto|]. repeat constructor. intros [].
      - destruct Hnew as (X & Y & Z). split; [auto|]. repeat constructor; cbn; intuition.
      - destruct Hnew as (X & Y & Z). split; [auto|]. repeat constructor; cbn; intuition. }
    destruct Hnw as (Hnw & Hnd).
    assert (Hnw' : Forall (fun n => plain n /\ ~ In n (names l) /\ unused (w_c w) n) (new_names o)).
    { eapply Forall_impl; [|exact Hnw]. intros x (X & Y & Z). split; [exact X|]. split; [|exact Z].
      intros C. apply Y. rewrite <- En in C. eapply taken_in; [eapply nth_error_In; eauto|exact C]. }
    assert (Hnb : Forall (bare_of F (w_st w)) (new_names o)).
    { eapply Forall_impl; [|exact Hnw]. intros x (X & Y & Z). eapply tidy_bare; eauto. }
    assert (Hor : o <> OReload) by (intros ->; discriminate).
    destruct (op_cov F cfg (d_hs d) (d_hi d) (w_st w) (w_c w) g s m l o l' ord (reach_inv _ _ _ _ HR) Hop Es Hor Hr Hnw' Hnd HCl Hnb) as (C2 & Hgone).
    destruct (op_names cfg (d_hs d) (d_hi d) (w_st w) (w_c w) g s m l o l' ord (reach_inv _ _ _ _ HR) Hop Es Hor Hr Hnw' Hnd) as (Hren & _).
    destruct (in_dec string_dec n (names l')) as [Hi|Hi].
    + destruct (cov2_has F _ l' n id C2 Hi Hid) as [A|A]; [left; exact A|right]. exists d'. rewrite El'. auto.
    + left. apply Hgone; [|exact Hi|exact Hid].
      apply in_app_iff in Hn as [Hn|Hn]; [rewrite En in Hn; exact Hn|]. exfalso. apply Hi. rewrite Hren.
      unfold names. destruct o; cbn [renamed] in *; try contradiction; cbn in *; intuition.
  - destruct (nth_error (w_ls w) i) as [d|] eqn:Ei; [|discriminate]. injection E as <-. cbn [w_st w_ls] in *.
    destruct (Forall2_nth _ _ _ HA i d Ei) as ((l & x) & Ey & (HR & HB & Hr)).
    pose proof (tidy_cov F cfg w ys i d HW HT Ei) as HC.
    destruct (bare_eq_fields _ _ HB) as (_ & _ & En & B1 & B2).
    destruct (rep_pars2 _ _ _ _ _ _ Hr) as (P1 & P2). apply bare_segs_fields in B1 as (I1 & _ & _ & _ & S1). apply bare_segs_fields in B2 as (I2 & _ & _ & _ & S2).
    left. eapply delete_all_bare; [| |exact HC|exact Hn|exact Hid].
    + pose proof (r_named _ _ _ _ _ _ Hr) as [N1 N2 N3 N4 N5]. unfold names in En. injection En as En1 En2.
      split; rewrite ?I1, ?I2, ?En1, ?En2; assumption.
    + unfold names in En. injection En as En1 En2. split; rewrite ?En1, ?En2; eapply bare_pars; eauto.
  - contradiction.
  - contradiction.
Qed.

Lemma evs_key k : forall es st, evs_store es st k <> None -> st k <> None \/ exists e, In e es /\
  ((exists s, k = segment_key (lit (ev_name e)) (sg_id s)) \/ k = lit (ev_name e)).
Proof.
  induction es as [|e es IH]; intros st H; [left; exact H|]. rewrite evs_store_cons in H. destruct (IH _ H) as [A|(x & A & B)]; [|right; exists x; split; [right; exact A|exact B]].
  destruct (list_eq_dec ascii_dec k (match e with EPut _ s | EDel _ s => key_of s | EMeta s => lit (ss_id s) | EMetaDel n => lit n end)) as [->|Hk].
  - right. exists e. split; [left; reflexivity|]. destruct e; cbn [ev_name]; auto; left; eexists; reflexivity.
  - left. destruct e; cbn [ev_store] in A; rewrite put_other in A by exact Hk; exact A.
Qed.
Lemma own_stays a j d w n : nth_error (w_ls w) j = Some d -> In n (names (d_l d)) -> ~ In n (own w a) -> exists j', stays a j = Some j'.
Proof.
  intros Ej Hn Ho. destruct a as [merge split ns ni now sc sch want e ord|i merge split ns ni now|i o ord|i ord|keep|i isidx jj]; cbn [stays own] in *; eauto.
  - destruct (Nat.eqb_spec i j) as [->|]; [|eauto]. exfalso. apply Ho. rewrite Ej. apply in_or_app. auto.
  - destruct (Nat.ltb j i); [eauto|]. destruct (Nat.eqb_spec j i) as [->|]; [|eauto]. exfalso. apply Ho. rewrite Ej. exact Hn.
Qed.
Lemma own_plain cfg w ys a : winv cfg w ys -> act_ok w (map snd ys) a -> Forall plain (own w a).
Proof.
  intros HW Hok.
  assert (Hd : forall i, Forall plain (match nth_error (w_ls w) i with Some d => names (d_l d) | None => [] end)).
  { intros i. destruct (nth_error (w_ls w) i) as [d|] eqn:E; [|constructor]. eapply names_plain_in; [exact HW|eapply nth_error_In; eauto]. }
  destruct a as [merge split ns ni now sc sch want e ord|i merge split ns ni now|i o ord|i ord|keep|i isidx j]; cbn [own act_ok] in *; auto.
  - destruct Hok as (_ & _ & _ & _ & _ & _ & (A & _) & (B & _) & _). auto.
  - destruct Hok as (_ & _ & _ & _ & (A & _) & (B & _) & _). auto.
  - apply Forall_app. split; [apply Hd|]. destruct Hok as (_ & Hok). destruct o; auto.
    + constructor; [apply Hok|constructor].
    + destruct Hok as (A & B & _). constructor; [apply A|]. constructor; [apply B|constructor].
    + destruct Hok as (A & B & _). constructor; [apply A|]. constructor; [apply B|constructor].
Qed.
Lemma own_taken w w' a n : moves a w w' -> In n (own w a) -> In n (taken w) \/ In n (taken w').
Proof.
  intros HM Hn. destruct a as [merge split ns ni now sc sch want e ord|i merge split ns ni now|i o ord|i ord|keep|i isidx j]; cbn [own moves] in *.
  - destruct HM as (d & E & En). right. apply taken_in with d; [rewrite E; apply in_or_app; right; left; reflexivity|]. rewrite En. exact Hn.
  - destruct HM as (d & E & En). right. apply taken_in with d; [rewrite E; apply in_or_app; right; left; reflexivity|]. rewrite En. exact Hn.
  - destruct HM as (d & d' & E1 & E2 & E3). rewrite E1 in Hn. apply in_app_iff in Hn as [Hn|Hn]; [left; apply taken_in with d; [eapply nth_error_In; eauto|exact Hn]|].
    right. apply taken_in with d'; [rewrite E2; apply nth_error_In with i; rewrite upd_nth_nth, Nat.eqb_refl, E1; reflexivity|]. rewrite E3.
    unfold names. destruct o; cbn [renamed] in *; try contradiction; cbn in *; intuition.
  - left. destruct (nth_error (w_ls w) i) as [d|] eqn:E; [|contradiction]. apply taken_in with d; [eapply nth_error_In; eauto|exact Hn].
  - contradiction.
  - contradiction.
Qed.

Lemma tidy_step F cfg w w' ys a : winv cfg w ys -> act_ok w (map snd ys) a -> act_on cfg w a = Some w' ->
  Forall fit_entry (act_spec (map snd ys) a) -> tidyF F w -> tidyF F w'.
Proof.
  intros HW Hok E HF HT k Hk. destruct (upd_ok _ _ _ _ _ HW Hok E HF) as (ys' & es & HW' & _ & _ & Est & W & _ & _ & Hmeta & Hmv).
  pose proof (own_plain _ _ _ _ HW Hok) as Hop. pose proof (winv_plain _ _ _ HW) as Htp. pose proof (within_plain _ _ W Hop) as Hpe.
  assert (Form : F k \/ (exists n, plain n /\ k = lit n) \/ exists n id, k = segment_key (lit n) id).
  { rewrite Est in Hk. destruct (evs_key _ _ _ Hk) as [A|(e & He & [(s & ->)|X])].
    - destruct (HT k A) as [B|(d & Hd & HO)]; [auto|right]. pose proof (names_plain_in _ _ _ _ HW Hd) as Hp.
      apply Forall_cons_iff in Hp as (Q1 & Hp). apply Forall_cons_iff in Hp as (Q2 & _).
      destruct HO as [->|[->|[(s & _ & ->)|(s & _ & ->)]]]; eauto.
    - right. right. eauto.
    - right. left. exists (ev_name e). split; [|exact X]. rewrite Forall_forall in Hop. apply Hop, W, He. }
  destruct Form as [A|[(n & Hp & ->)|(n & id & ->)]]; [left; exact A| |].
  - destruct (in_dec string_dec n (taken w')) as [Hi|Hi].
    { right. unfold taken in Hi. apply in_flat_map in Hi as (d & Hd & Hn). exists d. split; [exact Hd|apply meta_owned, Hn]. }
    destruct (in_dec string_dec n (taken w)) as [Hj|Hj]; [exfalso; apply Hk, Hmeta; assumption|].
    assert (Ho : ~ In n (own w a)) by (intros C; destruct (own_taken _ _ _ _ Hmv C); contradiction).
    rewrite Est, evs_store_meta in Hk; [|exact Hp|intros e He C; apply Ho; rewrite <- (meta_touches_name _ _ C); apply W, He].
    destruct (HT _ Hk) as [A|(d & Hd & HO)]; [left; exact A|]. exfalso. apply Hj. eapply taken_in; [exact Hd|]. eapply owned_meta; eauto.
  - destruct (in_dec string_dec n (own w a)) as [Hi|Hi].
    { destruct (act_own F cfg w w' ys a HW Hok E HT n id Hi Hk) as [A|(d & Hd & H)]; [auto|right; exists d; split; [exact Hd|apply has_owned, H]]. }
    rewrite Est, evs_store_seg in Hk; [|exact Hpe|intros e He C; apply Hi; rewrite <- (touches_name _ _ _ C); apply W, He].
    destruct (HT _ Hk) as [A|(d & Hd & HO)]; [left; exact A|right]. exists d. split; [|exact HO].
    pose proof (owned_seg _ _ _ (names_plain_in _ _ _ _ HW Hd) HO) as H0. apply In_nth_error in Hd as (j & Ej).
    destruct (own_stays a j d w n Ej (has_name _ _ _ H0) Hi) as (j' & Es).
    apply nth_error_In with j'. eapply stays_keeps; [exact Es|exact (act_lists _ _ _ _ E)|exact Ej].
Qed.

Lemma owned_ids l l' k : same_ids l l' -> owned l k -> owned l' k.
Proof.
  intros (A & B & C). unfold names in A. injection A as A1 A2. unfold owned. rewrite A1, A2.
  intros [E|[E|[(s & Hs & E)|(s & Hs & E)]]]; auto.
  - right. right. left. apply (in_map sg_id) in Hs. rewrite <- B in Hs. apply in_map_iff in Hs as (t & Et & Ht). exists t. rewrite Et. auto.
  - right. right. right. apply (in_map sg_id) in Hs. rewrite <- C in Hs. apply in_map_iff in Hs as (t & Et & Ht). exists t. rewrite Et. auto.
Qed.
Lemma Forall2_nth_r {A B} (R : A -> B -> Prop) l m : Forall2 R l m -> forall i y, nth_error m i = Some y -> exists d, nth_error l i = Some d /\ R d y.
Proof.
  induction 1 as [|x y l m H _ IH]; intros [|i] d E; try discriminate; cbn in *.
  - injection E as <-. eauto.
  - apply IH, E.
Qed.
Lemma same_sym a b : same_ids a b -> same_ids b a.
Proof. intros (A & B & C). split; [|split]; auto. Qed.
Lemma tidy_restart F cfg cfg' w w' ys : winv cfg w ys -> restart cfg' w = Some w' -> winv cfg' w' (map reloaded ys) -> tidyF F w -> tidyF F w'.
Proof.
  intros (HA & _) E (HA' & _) HT k Hk.
  assert (Est : w_st w' = w_st w) by (unfold restart in E; destruct (all_some _); [injection E as <-; reflexivity|discriminate]).
  rewrite Est in Hk. destruct (HT k Hk) as [A|(d & Hd & HO)]; [auto|right]. apply In_nth_error in Hd as (i & Ei).
  destruct (Forall2_nth _ _ _ HA i d Ei) as ((l & x) & Ey & (_ & HB & _)).
  assert (Ey' : nth_error (map reloaded ys) i = Some (reload l, x)) by (rewrite (map_nth_error reloaded _ _ Ey); reflexivity).
  destruct (Forall2_nth_r _ _ _ HA' i _ Ey') as (d' & Ed' & (_ & HB' & _)).
  exists d'. split; [eapply nth_error_In; eauto|]. eapply owned_ids; [|exact HO].
  eapply same_trans; [apply same_sym, bare_ids, HB|]. eapply same_trans; [|apply bare_ids, HB']. repeat split.
Qed.

(** ** histories *)
Lemma from_runs st0 cfg w ms : runs_from st0 cfg w ms -> runs cfg w ms.
Proof. induction 1; [constructor|eapply W_act; eauto|eapply W_restart; eauto]. Qed.
Lemma from_tidy st0 cfg w ms : runs_from st0 cfg w ms -> exists ys, map snd ys = ms /\ winv cfg w ys /\ tidyF (fun k => st0 k <> None) w.
Proof.
  induction 1 as [cfg c|cfg w ms a w' HR (ys & <- & IH & HT) Hok E HF|cfg w ms cfg' w' HR (ys & <- & IH & HT) E].
  - exists []. split; [reflexivity|]. split; [apply winv_start|]. intros k Hk. left. exact Hk.
  - destruct (upd_ok _ _ _ _ _ IH Hok E HF) as (ys' & es & A & B & _). exists ys'. split; [exact B|]. split; [exact A|]. exact (tidy_step _ _ _ _ _ _ IH Hok E HF HT).
  - destruct (winv_restart _ cfg' _ _ IH) as (w2 & E2 & H). assert (w2 = w') by congruence. subst w2.
    exists (map reloaded ys). split; [rewrite map_map; reflexivity|]. split; [exact H|]. exact (tidy_restart _ _ _ _ _ _ IH E H HT).
Qed.

Lemma c83_tidy st0 cfg w ms : runs_from st0 cfg w ms -> tidy st0 w.
Proof. intros H. destruct (from_tidy _ _ _ _ H) as (ys & _ & _ & HT). exact HT. Qed.
Lemma owned_present cfg w ys d k : winv cfg w ys -> In d (w_ls w) -> owned (d_l d) k -> w_st w k <> None.
Proof.
  intros (HA & _) Hd HO. apply In_nth_error in Hd as (i & Ei). destruct (Forall2_nth _ _ _ HA i d Ei) as ((l & x) & _ & (_ & HB & Hr)).
  apply (owned_ids _ l) in HO; [|apply same_sym, bare_ids, HB]. destruct (rep_pars2 _ _ _ _ _ _ Hr) as (P1 & P2). destruct Hr as [(B1 & B2) M1 M2 _ _].
  pose proof (co_held _ _ _ _ _ B1) as H1. pose proof (co_held _ _ _ _ _ B2) as H2. rewrite Forall_forall in *.
  destruct HO as [->|[->|[(s & Hs & ->)|(s & Hs & ->)]]]; [congruence|congruence| |].
  - destruct (H1 s Hs) as (X & _). unfold key_of in X. rewrite (P1 s Hs) in X. congruence.
  - destruct (H2 s Hs) as (X & _). unfold key_of in X. rewrite (P2 s Hs) in X. congruence.
Qed.
Lemma c83_exact cfg w ms : runs_from nothing cfg w ms -> forall k, w_st w k <> None <-> exists d, In d (w_ls w) /\ owned (d_l d) k.
Proof.
  intros H k. destruct (from_tidy _ _ _ _ H) as (ys & _ & HW & HT). split.
  - intros Hk. destruct (HT k Hk) as [A|A]; [exfalso; apply A; reflexivity|exact A].
  - intros (d & Hd & HO). eapply owned_present; eauto.
Qed.
Lemma c83_empty st0 cfg w ms : runs_from st0 cfg w ms -> w_ls w = [] -> forall k, st0 k = None -> w_st w k = None.
Proof.
  intros H E k Hk. destruct (w_st w k) eqn:Ek; [|reflexivity]. exfalso. destruct (c83_tidy _ _ _ _ H k) as [A|(d & Hd & _)]; [congruence|auto|].
  rewrite E in Hd. destruct Hd.
Qed.
(** only one list has a key *)
Lemma c83_one cfg w ms : runs cfg w ms -> forall i j d d' k, nth_error (w_ls w) i = Some d -> nth_error (w_ls w) j = Some d' ->
  owned (d_l d) k -> owned (d_l d') k -> i = j.
Proof.
  intros HR i j d d' k Ei Ej H H'. destruct (runs_winv _ _ _ HR) as (ys & _ & HW). pose proof HW as (_ & HN & _).
  pose proof (names_plain_in _ _ _ _ HW (nth_error_In _ _ Ei)) as Hp. pose proof (names_plain_in _ _ _ _ HW (nth_error_In _ _ Ej)) as Hp'.
  assert (Form : (exists n, plain n /\ k = lit n) \/ exists n id, k = segment_key (lit n) id).
  { apply Forall_cons_iff in Hp as (Q1 & Hp). apply Forall_cons_iff in Hp as (Q2 & _).
    destruct H as [->|[->|[(s & _ & ->)|(s & _ & ->)]]]; eauto. }
  destruct Form as [(n & Hn & ->)|(n & id & ->)].
  - apply (uniq_name n (w_ls w) i j d d'); [exact HN|exact Ei|exact Ej|eapply owned_meta; eauto|eapply owned_meta; eauto].
  - apply (uniq_name n (w_ls w) i j d d'); [exact HN|exact Ei|exact Ej|eapply has_name, owned_seg; eauto|eapply has_name, owned_seg; eauto].
Qed.

(** deleting a list leaves every key that is not the list's *)
Lemma delete_all_left l ord hs hi st k :
  (forall s, In s (ss_segs (l_scores l) ++ ss_segs (l_index l)) -> key_of s <> k) -> lit (ss_id (l_scores l)) <> k -> lit (ss_id (l_index l)) <> k ->
  evs_store (delete_all_evs ord hs hi l) st k = st k.
Proof.
  intros H H1 H2.
  assert (G : forall es st, (forall e, In e es -> match e with EPut _ s | EDel _ s => key_of s | EMeta s => lit (ss_id s) | EMetaDel n => lit n end <> k) ->
    evs_store es st k = st k).
  { induction es as [|e es IH]; intros st1 He; [reflexivity|]. rewrite evs_store_cons, IH by (intros x Hx; apply He; right; exact Hx).
    specialize (He e (or_introl eq_refl)). destruct e; cbn [ev_store]; apply put_other; congruence. }
  apply G. intros e He. unfold delete_all_evs in He. apply in_app_iff in He as [He|He]; unfold delete_evs in He; apply in_app_iff in He as [He|[<-|[]]]; auto;
    apply permute_In in He; apply in_map_iff in He as (s & <- & Hs); apply H, in_or_app; auto.
Qed.
