(** Proofs for Spec/UnlockSpec.v: the calls that give back all they lock, whatever fails. *)
From Coq Require Import List Bool Arith Lia Permutation.
From Verif.Model Require Import Unlock.
From Verif.Spec Require Import UnlockSpec.
From Verif.Proof Require Import UnlockP UnlockP2 UnlockP3.
Import ListNotations.
Open Scope nat_scope.

(** ** with the segments loaded *)
Lemma wp_with ro u m s (Q : res bool -> st -> Prop) : INV s -> held s = [] -> ro = true \/ u = true ->
  (forall g s1, G None (lks ro u) s s1 -> loaded g ro u s1 -> (scset s = true -> g_scores g <> None) ->
     wp (m g) s1 (fun r s2 =>
       (endp true r /\ exists h2, INV s2 /\ Permutation (held s2) (lks ro u ++ h2) /\ forall s3, U (g_obj g) h2 s2 s3 -> Q r s3)
       \/ (endp true r /\ ~ In (KSegs, negb ro) (held s2) /\ Q Dead s2))) ->
  (forall s', J None [] s s' -> scset s = true -> l_sc s = None -> unread s s' -> (u = false -> fl s s') -> Q (Ret false) s') ->
  (ro = true -> u = true -> forall s', fr (Some (SetReindexed ByRead)) s s' -> Q Dead s') ->
  wp (with_segs ro u m) s Q.
Proof.
  intros I P RU H1 H2 H3. apply wp_bind.
  eapply (wp_load []); [auto | rewrite P; auto | reflexivity | reflexivity | reflexivity | reflexivity | auto | auto | | |].
  - intros g s1 X LD LO SC _. rewrite app_nil_r in X. cbn [cont]. apply wp_bind, wp_get. cbn [cont]. rewrite (ld_unl _ _ _ _ LD).
    apply wp_deferred. eapply wp_mono; [apply H1; auto|].
    intros r s2 [(E & h2 & I2 & P2 & F) | (E & NI & F)].
    + destruct E as [[_ ->] | [a ->]].
      * eapply wp_call_unlock; [auto | exact P2 | reflexivity |]. intros s3 X3 _ _. cbn. unfold wp; cbn. auto.
      * eapply wp_call_unlock; [auto | exact P2 | reflexivity |]. intros s3 X3 _ _. cbn. apply wp_ret. auto.
    + assert (W : forall Q' : res unit -> st -> Prop, Q' Dead s2 -> wp (call_unlock g (CRel ro u true)) s2 Q').
      { intros Q' HQ. cbn [call_unlock]. apply wp_bind. eapply wp_unlock_dead; [reflexivity | exact NI|]. exact HQ. }
      destruct E as [[_ ->] | [a ->]]; apply W; exact F.
  - intros s1 X SC LN UR FL. cbn [cont]. apply wp_ret. apply H2; auto.
  - intros R' U' s1 F. cbn [cont]. auto.
Qed.
(** how a call ends that leaves no lock, or kills the process when it reindexes *)
Definition fine (u : bool) (s : st) (r : res bool) (s' : st) : Prop :=
  (ends r /\ J None [] s s') \/ (u = true /\ r = Dead /\ fr (Some (SetReindexed ByRead)) s s').
Lemma endp_ends {A} p (r : res A) : endp p r -> ends r.
Proof. intros [[_ ->] | [a ->]]; [left; auto | right; eauto]. Qed.
Lemma wp_with_keep ro u m s : INV s -> held s = [] -> ro = true \/ u = true ->
  (forall g s1, loaded g ro u s1 -> INV s1 -> keep true (lks ro u) s1 (m g)) -> wp (with_segs ro u m) s (fine u s).
Proof.
  intros I P RU H. apply wp_with; auto.
  - intros g s1 X LD SC. eapply wp_mono; [apply H; [auto | apply X | apply X | apply X]|]. intros r s2 (E & Y).
    left. split; auto. exists []. rewrite app_nil_r. split; [apply Y|]. split; [apply Y|]. intros s3 [].
    left. split; [eapply endp_ends; eauto|]. eapply J_trans; [apply G_J; eauto|]. eapply J_trans; [apply G_J, K_G; eauto | auto].
  - intros s1 X _ _ _ _. left. split; auto. right; eauto.
  - intros _ E s' F. right; auto.
Qed.
(** the same inside another call that has loaded the segments *)
Lemma keep_with_in ro h m s : l_sc s <> None -> plain h -> avail KLoading true h = true -> avail KSegs (negb ro) h = true -> ro = true ->
  (forall g s1, K None (lks ro false ++ h) s s1 -> loaded g ro false s1 -> keep true (lks ro false ++ h) s1 (m g)) ->
  keep true h s (with_segs ro false m).
Proof.
  intros LS N AL AS R H I P. apply wp_bind.
  eapply (wp_load h); [auto | auto | auto | discriminate | auto | auto | contradiction | auto | | | discriminate].
  - intros g s1 _ LD LO _ KK. destruct (KK LS) as [X _]. cbn [cont]. apply wp_bind, wp_get. cbn [cont]. rewrite (ld_unl _ _ _ _ LD).
    apply wp_deferred. eapply wp_mono; [apply H; [auto | auto | apply X | apply X]|].
    intros r s2 (E & Y). assert (Z := K_trans _ _ _ _ _ _ X Y). destruct E as [[_ ->] | [a ->]].
    + eapply wp_call_unlock; [apply Y | apply Y | reflexivity |]. intros s3 X3 _ _. cbn. unfold wp; cbn. split; [left; auto|]. eapply U_K; eauto.
    + eapply wp_call_unlock; [apply Y | apply Y | reflexivity |]. intros s3 X3 _ _. cbn. apply wp_ret. split; [right; eauto|]. eapply U_K; eauto.
  - intros s1 X SC LN. contradiction.
Qed.

(** what a caller knows of the collections *)
Lemma gok_scores g s c : gok g s -> g_scores g = Some c -> c < next s.
Proof. intros [_ H] E. rewrite E in H. destruct (g_index g); intuition. Qed.
Lemma gok_index g s c : gok g s -> g_index g = Some c -> c < next s.
Proof. intros [_ H] E. rewrite E in H. destruct (g_scores g); intuition. Qed.
Ltac gk := match goal with
  | O : gok ?g ?s, E : g_scores ?g = Some ?c |- ?c < next _ => pose proof (gok_scores _ _ _ O E); nxt
  | O : gok ?g ?s, E : g_index ?g = Some ?c |- ?c < next _ => pose proof (gok_index _ _ _ O E); nxt
  end.
Ltac kq :=
  match goal with
  | |- keep _ _ _ (touch (KStats _) _) => apply keep_touch; [cbn [known]; gk | auto; fail]
  | |- keep _ _ _ (bind (need _) _) => apply keep_need_bind; [solve [auto | congruence | tauto] | intros]
  | _ => kp
  end.

Ltac flc := first
  [ match goal with X : K _ _ ?a ?b |- fl ?a ?b => exact (k_fl _ _ _ _ X) end
  | match goal with X : K _ _ ?a ?c |- fl ?a ?b => apply (fl_trans a c b (k_fl _ _ _ _ X)); flc end ].
Lemma keep_deferred_lock {A} p h s k w (m : M A) : known k s -> avail k w h = true ->
  (forall s', K None ((k, w) :: h) s s' -> keep p ((k, w) :: h) s' m) -> keep p h s (deferred (unlock k w) (lock k w;; m)).
Proof.
  intros N AV H I P. apply wp_deferred, wp_bind. eapply wp_lock; eauto. intros s1 X1. cbn [cont].
  eapply wp_mono; [apply H; [exact X1 | apply X1 | apply X1]|]. intros r s2 (E & X2). assert (Z := K_trans _ _ _ _ _ _ X1 X2).
  destruct E as [[-> ->] | [a ->]].
  - eapply wp_unlock; [apply X2 | apply X2 | reflexivity |]. intros s3 X3. cbn. unfold wp; cbn. split; [left; auto | eapply K_trans; eauto].
  - eapply wp_unlock; [apply X2 | apply X2 | reflexivity |]. intros s3 X3. cbn. apply wp_ret. split; [right; eauto | eapply K_trans; eauto].
Qed.
Lemma keep_verify p h g s : gok g s -> plain h -> avail KList false h = true -> (p = true \/ g_scores g <> None) -> keep p h s (verify g).
Proof.
  intros O N A NN.
  assert (NS : g_scores g = None -> p = true) by (intros E; destruct NN; auto; contradiction).
  assert (NI : g_index g = None -> p = true).
  { intros E. destruct NN as [|NN]; auto. destruct O as [_ O]. rewrite E in O. destruct (g_scores g); [contradiction | congruence]. }
  unfold verify. kq; [kq|]. kq.
  { apply keep_deferred_lock; auto; [exact Logic.I|]. intros s2 X2. kq. kq. kq. }
  kq; [|kq]. kq. kq; [apply keep_verify_coll; [gk | auto]|]. kq; [|kq]. kq. kq.
  { apply keep_each. intros. kq; [kq | kq]. }
  kq; [|kq]. kq. kq; [apply keep_verify_coll; [gk | auto]|]. kq; [|kq]. kq. apply keep_each. intros. kq; [kq | kq].
Qed.
Lemma keep_insert_all p h g s : gok g s -> plain h -> (p = true \/ g_scores g <> None) -> keep p h s (insert_all g).
Proof.
  intros O N NN.
  assert (NS : g_scores g = None -> p = true) by (intros E; destruct NN; auto; contradiction).
  assert (NI : g_index g = None -> p = true).
  { intros E. destruct NN as [|NN]; auto. destruct O as [_ O]. rewrite E in O. destruct (g_scores g); [contradiction | congruence]. }
  unfold insert_all. kq; [kq|]. kq; [kq|]. apply keep_times. intros s1 X1. kq. kq; [apply keep_insert_sorted; [gk | auto]|].
  kq; [|kq]. kq. apply keep_insert_sorted; [gk | auto].
Qed.
Lemma keep_check_split p h g s : gok g s -> plain h -> avail KList false h = true -> keep p h s (check_split g).
Proof.
  intros O N A. unfold check_split. destruct (g_scores g) eqn:E, (g_index g) eqn:E'; try kq.
  - kq.
  - kq; [kq|]. kq; [kq|]. kq; [kq | kq].
Qed.

Section calls.
Variable s : st.
Hypothesis I : INV s.
Hypothesis H0 : held s = [].

Lemma fine_len : wp do_len s (fine false s).
Proof. apply wp_with_keep; auto. intros g s1 [] I1. repeat kq. Qed.
Lemma keep_top_body h g s1 : gok g s1 -> plain h -> avail KList false h = true ->
  keep true h s1 (touch KList false;; c <- need (g_scores g);; touch (KStats c) false;;
                  out <- pickb;; if out : bool then ret false else get_elements_offset c).
Proof.
  intros O N A. kq; [kq|]. kq. kq; [kq|]. kq; [kq|]. kq; [kq|].
  apply keep_get_elements_offset; [gk|]. apply readable_plain; auto.
Qed.
Lemma fine_top : wp do_top s (fine false s).
Proof. apply wp_with_keep; auto. intros g s1 [] I1. apply keep_top_body; auto; reflexivity. Qed.
Lemma keep_top_in s1 : l_sc s1 <> None -> keep true (lks true false) s1 do_top.
Proof.
  intros L. apply keep_with_in; auto; try reflexivity. intros g s2 X []. apply keep_top_body; auto; reflexivity.
Qed.
Lemma fine_score : wp do_score s (fine false s).
Proof.
  apply wp_with_keep; auto. intros g s1 [] I1. kq; [kq|]. kq. kq; [kq|]. kq; [kq|]. kq; [kq|].
  apply keep_get_elements_from_score; [auto | gk | reflexivity].
Qed.
Lemma fine_percentile : wp do_percentile s (fine false s).
Proof.
  apply wp_with_keep; auto. intros g s1 [] I1. kq; [kq|]. kq. kq; [kq|].
  apply keep_get_element_index; [auto | gk | reflexivity].
Qed.
Lemma keep_stats_body b g s1 : loaded g true false s1 ->
  keep true (lks true false) s1 (c <- need (g_scores g);; touch (KStats c) false;; x <- need (g_index g);;
    if b : bool then do_top;; do_top;; ret true else ret true).
Proof.
  intros [O M _ _ _]. kq. kq; [kq|]. kq. kq; [|kq].
  assert (L : l_sc s' <> None). { destruct M as (M & _). destruct (k_fl _ _ _ _ H1) as (F & _). rewrite F, M, H. discriminate. }
  kq; [apply keep_top_in; auto|]. kq; [|kq]. apply keep_top_in. destruct (k_fl _ _ _ _ H3) as (F & _). rewrite F; auto.
Qed.
Lemma fine_stats b : wp (do_stats b) s (fine false s).
Proof. apply wp_with_keep; auto. intros g s1 LD I1. apply keep_stats_body; auto. Qed.
Lemma keep_get_index_elements h g s1 : gok g s1 -> plain h -> avail KList false h = true -> keep true h s1 (get_index_elements g).
Proof. intros O N A. unfold get_index_elements. kq; [kq|]. kq. apply keep_get_first; [gk | auto]. Qed.
Lemma keep_get_elements h g s1 : gok g s1 -> plain h -> avail KList false h = true -> keep true h s1 (get_elements g).
Proof.
  intros O N A. unfold get_elements. kq; [kq|]. kq; [apply keep_get_index_elements; auto; eapply gok_mono; eauto; nxt|].
  kq; [|kq]. kq. apply keep_find_elements; [gk | auto].
Qed.
Lemma fine_get : wp do_get s (fine false s).
Proof. apply wp_with_keep; auto. intros g s1 [] I1. apply keep_get_elements; auto; reflexivity. Qed.
Lemma fine_verify : wp do_verify s (fine false s).
Proof. apply wp_with_keep; auto. intros g s1 [] I1. apply keep_verify; auto; reflexivity. Qed.
Lemma fine_insert : wp do_insert s (fine true s).
Proof.
  apply wp_with_keep; auto. intros g s1 [] I1. kq; [apply keep_insert_all; auto; reflexivity|]. kq; [|kq].
  kq; [apply keep_check_split; try reflexivity; eapply gok_mono; eauto; nxt|].
  apply keep_save_segments; try reflexivity; [eapply gok_mono; eauto; nxt|]. right.
  eapply gmatch_fl; [eauto|]. eapply fl_trans; [apply H | apply H1].
Qed.
Lemma fine_delete : wp do_delete s (fine true s).
Proof.
  apply wp_with_keep; auto. intros g s1 [] I1. kq; [kq|]. kq; [apply keep_get_index_elements; try reflexivity; eapply gok_mono; eauto; nxt|].
  kq; [|kq]. kq. kq; [apply keep_delete_idx; [gk | reflexivity]|]. kq; [|kq]. kq; [kq|]. kq.
  { kq; [kq|]. kq. apply keep_delete_sorted; [gk | reflexivity]. }
  kq; [|kq]. kq; [apply keep_check_split; try reflexivity; eapply gok_mono; eauto; nxt|].
  apply keep_save_segments; try reflexivity; [eapply gok_mono; eauto; nxt|]. right.
  eapply gmatch_fl; [eauto | flc].
Qed.
Lemma fine_verify_elements : wp do_verify_elements s (fine true s).
Proof.
  apply wp_bind. eapply (wp_touch []); [auto | rewrite H0; auto | exact Logic.I | reflexivity|]. intros s1 X1. cbn [cont].
  eapply wp_mono; [apply wp_with_keep|].
  - apply X1.
  - apply Permutation_nil, Permutation_sym, X1.
  - auto.
  - intros g s2 [] I1. unfold verify_elements. kq; [kq|]. kq. kq; [apply keep_read_all; [gk | reflexivity]|]. kq; [|kq]. kq.
    kq; [apply keep_read_all; [gk | reflexivity]|]. kq; kq.
  - intros r s2 [(E & X) | (_ & -> & F)]; [left; split; auto; eapply J_trans; [apply G_J, K_G; eauto | auto] | right; split; auto; split; auto].
    eapply fr_trans; [apply X1 | auto].
Qed.
Lemma fine_release : wp do_release s (fine false s).
Proof.
  apply wp_bind. eapply (wp_touch []); [auto | rewrite H0; auto | exact Logic.I | reflexivity|]. intros s1 X1. cbn [cont].
  apply wp_bind. eapply wp_lock; [apply X1 | apply X1 | exact Logic.I | reflexivity|]. intros s2 X2. cbn [cont].
  apply wp_bind. eapply wp_lock; [apply X2 | apply X2 | exact Logic.I | reflexivity|]. intros s3 X3. cbn [cont].
  apply wp_bind, wp_put. cbn [cont].
  assert (Y3 := K_trans _ _ _ _ _ _ (K_trans _ _ _ _ _ _ X1 X2) X3).
  assert (Y : J None [(KSegs, true); (KLoading, true)] s (set_list s3 None None (scset s3) (ixset s3))).
  { destruct Y3 as [[] ? [] ? ? ?]. split; auto; [split; auto; cbn | split; auto].
    destruct (l_sc s3), (l_ix s3); intuition congruence. }
  apply wp_bind. eapply wp_unlock; [apply Y | apply Y | reflexivity|]. intros s4 X4. cbn [cont].
  apply wp_bind. eapply wp_unlock; [apply X4 | apply X4 | reflexivity|]. intros s5 X5. cbn [cont]. apply wp_ret.
  left. split; [right; eauto|]. eapply J_trans; [exact Y|]. eapply J_trans; [apply G_J, K_G; exact X4 | apply G_J, K_G; exact X5].
Qed.
Lemma G_set_list t h s1 : G t h s s1 -> G t h s (set_list s1 None None false false).
Proof. clear. intros [[] ? [] ?]. split; [split; cbn; auto | auto | split; auto | auto]. Qed.
End calls.

(** ** updating *)
Definition segw (l : list nat) : list (lk * bool) := map (fun i => (KSeg i, true)) l.
Lemma avail_segw h l i w : plain h -> ~ In i l -> avail (KSeg i) w (segw l ++ h) = true.
Proof.
  intros N NI. apply avail_none. intros w' J. apply in_app_iff in J as [J | J].
  - apply in_map_iff in J as (j & [= -> _] & J). contradiction.
  - unfold plain in N. rewrite forallb_forall in N. specialize (N _ J). discriminate.
Qed.
Lemma avail_segw_stat h l c w : plain h -> avail (KStats c) w (segw l ++ h) = true.
Proof.
  intros N. apply avail_none. intros w' J. apply in_app_iff in J as [J | J].
  - apply in_map_iff in J as (j & [=] & _).
  - unfold plain in N. rewrite forallb_forall in N. specialize (N _ J). discriminate.
Qed.
Lemma avail_segw_other h l k w : match k with KSeg _ => False | _ => True end -> avail k w h = true -> avail k w (segw l ++ h) = true.
Proof.
  intros D A. induction l as [|i l IH]; auto. cbn [segw map app]. apply avail_other; auto. intros <-. contradiction.
Qed.
Lemma existsb_eqb i l : existsb (Nat.eqb i) l = true <-> In i l.
Proof.
  rewrite existsb_exists. split.
  - intros (j & J & E). apply Nat.eqb_eq in E. subst; auto.
  - intros J. exists i. split; auto. apply Nat.eqb_refl.
Qed.
Section updating.
Variables (c x : nat) (h : list (lk * bool)).
Hypothesis N : plain h.
Hypothesis D : c <> x.

Lemma wp_scores_load ix i ld s (Q : res _ -> st -> Prop) : INV s -> Permutation (held s) (segw (ix ++ ld) ++ h) ->
  incl ix (coll s x) -> incl ld (coll s c) -> In i (coll s c) -> NoDup ld ->
  (forall ld' s', K None (segw (ix ++ ld') ++ h) s s' -> incl ld' (coll s c) -> NoDup ld' -> Q (Ret ld') s') ->
  wp (scores_load i ld) s Q.
Proof.
  intros I P J1 J2 J ND H. unfold scores_load. destruct (existsb (Nat.eqb i) ld) eqn:E.
  - apply wp_ret. apply H; auto. apply K_refl; auto.
  - assert (NI : ~ In i ld) by (intros F; apply existsb_eqb in F; congruence).
    apply wp_bind. eapply wp_elem_full; [auto | exact P | eapply i_known; eauto | |  | ].
    + apply avail_segw; auto. rewrite in_app_iff. intros [F | F]; auto. apply D. eapply i_own; eauto.
    + intros s1 X1. cbn [cont]. apply wp_ret. apply H.
      * eapply K_perm; [|exact X1]. cbn [negb]. unfold segw. rewrite !map_app. cbn [map].
        rewrite <- !app_assoc. cbn [app]. apply Permutation_middle.
      * intros j [<- | F]; auto.
      * constructor; auto.
    + intros s1 X1. cbn [cont]. apply wp_ret. apply H; auto.
Qed.
Lemma wp_scores_loads ix n : forall ld s (Q : res _ -> st -> Prop), INV s -> Permutation (held s) (segw (ix ++ ld) ++ h) ->
  c < next s -> x < next s -> incl ix (coll s x) -> incl ld (coll s c) -> NoDup ld ->
  (forall ld' s', K None (segw (ix ++ ld') ++ h) s s' -> incl ld' (coll s c) -> NoDup ld' -> Q (Ret ld') s') ->
  wp (scores_loads n c ld) s Q.
Proof.
  induction n as [|n IH]; intros ld s Q I P L Lx J1 J2 ND H; cbn [scores_loads].
  - apply wp_ret. apply H; auto. apply K_refl; auto.
  - apply wp_bind. eapply wp_touch; [auto | exact P | auto | apply avail_segw_stat; auto |]. intros s1 X1. cbn [cont].
    assert (C1 : coll s1 c = coll s c) by (eapply K_coll; eauto).
    apply wp_bind, wp_get. cbn [cont]. rewrite C1.
    apply wp_bind. eapply wp_one_of; [apply X1 | apply X1 |]. intros o s2 X2 O. cbn [cont].
    assert (Y2 := K_trans _ _ _ _ _ _ X1 X2).
    assert (REST : forall ld' s3, K None (segw (ix ++ ld') ++ h) s s3 -> incl ld' (coll s c) -> NoDup ld' -> wp (scores_loads n c ld') s3 Q).
    { intros ld' s3 X3 J3 N3. assert (C3 : coll s3 c = coll s c) by (eapply K_coll; eauto).
      apply IH; auto; [apply X3 | apply X3 | nxt | nxt | rewrite (K_coll _ _ _ _ x X3); auto | rewrite C3; auto |].
      intros ld'' s4 X4 J4 N4. rewrite C3 in J4. apply H; auto. eapply K_trans; eauto. }
    assert (C2 : coll s2 c = coll s c) by (eapply K_coll; eauto).
    apply wp_bind. destruct o as [i|].
    + eapply wp_scores_load; [apply X2 | apply X2 | rewrite (K_coll _ _ _ _ x Y2); auto | rewrite C2; auto | rewrite C2; auto | auto |].
      intros ld' s3 X3 J3 N3. cbn [cont]. rewrite C2 in J3. apply REST; auto. eapply K_trans; eauto.
    + apply wp_ret. cbn [cont]. apply REST; auto.
Qed.
Lemma wp_index_loads l : forall ix ld s (Q : res _ -> st -> Prop), INV s -> Permutation (held s) (segw (ix ++ ld) ++ h) ->
  c < next s -> x < next s -> incl l (coll s x) -> NoDup l -> (forall i, In i l -> ~ In i ix) ->
  incl ix (coll s x) -> incl ld (coll s c) -> NoDup ld ->
  (forall ix' ld' ok s', K None (segw (ix' ++ ld') ++ h) s s' -> incl ix' (coll s x) -> incl ld' (coll s c) -> NoDup ld' ->
     Q (Ret (ix', ld', ok)) s') ->
  wp (index_loads l c ix ld) s Q.
Proof.
  induction l as [|i l IH]; intros ix ld s Q I P L Lx JL NL DI J1 J2 ND H; cbn [index_loads].
  - apply wp_ret. apply H; auto. apply K_refl; auto.
  - inversion NL as [|? ? NI NL']; subst.
    assert (JL' : incl l (coll s x)) by (intros j Jj; apply JL; right; auto).
    assert (DI' : forall j, In j l -> ~ In j ix) by (intros j Jj; apply DI; right; auto).
    apply wp_bind. eapply wp_elem_full; [auto | exact P | eapply i_known; [eauto | apply JL; left; auto] | | |].
    + apply avail_segw; auto. rewrite in_app_iff. intros [F | F]; [eapply DI; eauto; left; auto|]. apply D.
      apply (i_own s I c x i); [apply J2; auto | apply JL; left; auto].
    + intros s1 X1. cbn [cont negb] in *. change ((KSeg i, true) :: segw (ix ++ ld) ++ h) with (segw ((i :: ix) ++ ld) ++ h) in X1.
      apply wp_bind. eapply wp_pick; [apply X1 | apply X1 |]. intros n s2 X2. cbn [cont]. assert (Y2 := K_trans _ _ _ _ _ _ X1 X2).
      assert (C2 : coll s2 c = coll s c) by (eapply K_coll; eauto). assert (Cx2 : coll s2 x = coll s x) by (eapply K_coll; eauto).
      assert (J1' : incl (i :: ix) (coll s x)) by (intros j [<- | Jj]; [apply JL; left; auto | auto]).
      apply wp_bind. eapply (wp_scores_loads (i :: ix)); [apply X2 | apply X2 | nxt | nxt | rewrite Cx2; auto | rewrite C2; auto | auto |].
      intros ld' s3 X3 J3 N3. cbn [cont]. rewrite C2 in J3. assert (Y3 := K_trans _ _ _ _ _ _ Y2 X3).
      assert (C3 : coll s3 c = coll s c) by (eapply K_coll; eauto). assert (Cx3 : coll s3 x = coll s x) by (eapply K_coll; eauto).
      apply IH; rewrite ?C3, ?Cx3; auto; [apply X3 | apply X3 | nxt | nxt | |].
      * intros j Jj [<- | F]; [contradiction | eapply DI'; eauto].
      * intros ix' ld'' ok s4 X4 A B C. apply H; auto. eapply K_trans; eauto.
    + intros s1 X1. cbn [cont].
      assert (C3 : coll s1 c = coll s c) by (eapply K_coll; eauto). assert (Cx3 : coll s1 x = coll s x) by (eapply K_coll; eauto).
      apply wp_bind. apply IH; rewrite ?C3, ?Cx3; auto; [apply X1 | apply X1 | nxt | nxt |].
      intros ix' ld' ok s2 X2 A B C. cbn [cont]. apply wp_ret. apply H; auto. eapply K_trans; eauto.
Qed.
End updating.
Lemma wp_unlock_all h' l : forall s (Q : res _ -> st -> Prop), INV s -> Permutation (held s) (segw l ++ h') ->
  (forall s', K None h' s s' -> Q (Ret tt) s') -> wp (unlock_all l) s Q.
Proof.
  induction l as [|i l IH]; intros s Q I P H; cbn [unlock_all].
  - apply wp_ret. apply H. apply K_refl; auto.
  - apply wp_bind. eapply wp_unlock with (h := segw l ++ h'); [auto | exact P | reflexivity |]. intros s1 X1. cbn [cont].
    apply IH; [apply X1 | apply X1 |]. intros s2 X2. apply H. eapply K_trans; eauto.
Qed.
Lemma wp_replace_all h' y l : forall s (Q : res _ -> st -> Prop), INV s -> Permutation (held s) (segw l ++ h') -> y < next s ->
  (forall l', avail (KStats y) true (segw l' ++ h') = true) ->
  (forall s', K None h' s s' -> Q (Ret tt) s') -> wp (replace_all y l) s Q.
Proof.
  induction l as [|i l IH]; intros s Q I P L A H; cbn [replace_all].
  - apply wp_ret. apply H. apply K_refl; auto.
  - apply wp_bind. eapply wp_replace_seg with (h := segw l ++ h'); [auto | exact P | reflexivity | auto | auto |].
    intros ok s1 X1. cbn [cont costly] in *. rewrite andb_false_r in X1.
    apply IH; [apply X1 | apply X1 | nxt | auto |]. intros s2 X2. apply H. eapply K_trans; eauto.
Qed.
Lemma segw_app a b h : segw (a ++ b) ++ h = segw a ++ segw b ++ h.
Proof. unfold segw. rewrite map_app, app_assoc. reflexivity. Qed.
Lemma fine_update b s : INV s -> held s = [] -> wp (do_update b) s (fine true s).
Proof.
  intros I H0. apply wp_with_keep; auto. intros g s1 [O M _ _ _] I1. kq; [kq|]. kq. kq; [apply keep_reindex_map; [gk | reflexivity]|]. kq.
  assert (O' := O). destruct O' as [_ O']. rewrite H1, H3 in O'. destruct O' as (L1 & L2 & D).
  eapply keep_bindr; [apply keepr_split_by_score; [nxt | reflexivity]|]. intros l s2 X2 (JL & NL).
  set (c := a0) in *. set (x := a2) in *. set (h := lks true true) in *.
  assert (N : plain h) by reflexivity.
  apply keep_intro. intros I2 P2. intros _ _.
  assert (Cx : coll s2 x = coll s'0 x) by (eapply K_coll; eauto; nxt).
  apply wp_bind. eapply (wp_index_loads c x h); auto; [nxt | nxt | rewrite Cx; auto | intros ? [] | intros ? [] | constructor |].
  intros ix ld ok s3 X3 J1 J2 ND. cbn [cont].
  apply wp_bind. eapply wp_pickb; [apply X3 | apply X3 |]. intros cn s4 X4. cbn [cont]. assert (Y4 := K_trans _ _ _ _ _ _ X3 X4).
  destruct (ok && negb cn).
  - apply wp_bind. eapply wp_pick; [apply X4 | apply X4 |]. intros n s5 X5. cbn [cont]. assert (Y5 := K_trans _ _ _ _ _ _ Y4 X5).
    assert (Cx5 : coll s5 x = coll s2 x) by (eapply K_coll; eauto; nxt). assert (C5 : coll s5 c = coll s2 c) by (eapply K_coll; eauto; nxt).
    apply wp_bind. eapply (wp_scores_loads c x h); auto; [apply X5 | apply X5 | nxt | nxt | rewrite Cx5; auto | rewrite C5; auto |].
    intros ld' s6 X6 J3 N3. cbn [cont]. assert (Y6 := K_trans _ _ _ _ _ _ Y5 X6). rewrite segw_app in X6, Y6.
    apply wp_bind. eapply wp_replace_all with (h' := segw ld' ++ h); [apply X6 | apply X6 | nxt | |].
    { intros l'. rewrite <- segw_app. apply avail_segw_stat; auto. }
    intros s7 X7. cbn [cont]. assert (Y7 := K_trans _ _ _ _ _ _ Y6 X7).
    apply wp_bind. eapply wp_replace_all with (h' := h); [apply X7 | apply X7 | nxt | |].
    { intros l'. apply avail_segw_stat; auto. }
    intros s8 X8. cbn [cont]. assert (Y8 := K_trans _ _ _ _ _ _ Y7 X8).
    assert (R : keep true h s8 (ok <- (if b : bool then get_elements g else ret true);;
                 if ok : bool then check_split g;; save_segments SetMeta g else ret false)).
    { assert (O8 : gok g s8) by (eapply gok_mono; eauto; nxt).
      kq; [kq; [apply keep_get_elements; auto; reflexivity | kq]|]. kq; [|kq].
      kq; [apply keep_check_split; try reflexivity; eapply gok_mono; eauto; nxt|].
      apply keep_save_segments; try reflexivity; [eapply gok_mono; eauto; nxt|]. right.
      eapply gmatch_fl; [eauto | flc]. }
    eapply wp_mono; [apply R; [apply X8 | apply X8]|]. intros r s9 (E & X9). split; auto. eapply K_trans; eauto.
  - apply wp_bind. rewrite segw_app in X4, Y4. eapply wp_unlock_all with (h' := segw ld ++ h); [apply X4 | apply X4 |]. intros s5 X5. cbn [cont].
    apply wp_bind. eapply wp_unlock_all with (h' := h); [apply X5 | apply X5 |]. intros s6 X6. cbn [cont]. apply wp_ret.
    split; [right; eauto|]. eapply K_trans; [exact Y4|]. eapply K_trans; eauto.
Qed.
