(** Proofs for Spec/UnlockSpec.v: loading segments and giving them back. *)
From Coq Require Import List Bool Arith Lia Permutation.
From Verif.Model Require Import Unlock.
From Verif.Spec Require Import UnlockSpec.
From Verif.Proof Require Import UnlockP UnlockP2.
Import ListNotations.
Open Scope nat_scope.

Definition lks (ro u : bool) : list (lk * bool) := (KSegs, negb ro) :: (if u then [(KUpdate, true)] else []).
(** nothing but locks and the function in [unlock] of [o] *)
Record U (o : nat) (h : list (lk * bool)) (s s' : st) : Prop := {
  u_j : J None h s s'; u_next : next s' = next s; u_coll : coll s' = coll s; u_fl : fl s s';
  u_unl : forall o', o' <> o -> unl s' o' = unl s o'
}.
Lemma U_K o h h' s0 s s' : K None h' s0 s -> next s0 <= o -> U o h s s' -> K None h s0 s'.
Proof.
  intros X L []. destruct X, u_j0. pose proof (f_next _ _ _ k_fr). split; auto.
  - eapply fr_trans; eauto.
  - intros o' L'. rewrite u_unl0 by lia. apply k_fu; auto.
  - intros c L'. rewrite u_coll0. apply k_fc; auto.
  - eapply fl_trans; eauto.
Qed.
Lemma unlock_same k w h h' s (Q : res _ -> st -> Prop) : INV s -> Permutation (held s) h' -> Permutation h' ((k, w) :: h) ->
  (forall s', K None h s s' -> next s' = next s -> coll s' = coll s -> unl s' = unl s -> Q (Ret tt) s') -> wp (unlock k w) s Q.
Proof.
  intros I P P' H.
  assert (W : wp (unlock k w) s (fun r s' => next s' = next s -> coll s' = coll s -> unl s' = unl s -> Q r s'))
    by (eapply wp_unlock; eauto).
  revert W. unfold wp, unlock. destruct (drop k w (held s)); cbn; auto.
Qed.
Lemma wp_call_unlock h h' g ro u rm s (Q : res _ -> st -> Prop) : INV s -> Permutation (held s) h' -> Permutation h' (lks ro u ++ h) ->
  (forall s', U (g_obj g) h s s' -> (rm = true -> unl s' (g_obj g) = CLog) -> (rm = false -> unl s' = unl s) -> Q (Ret tt) s') ->
  wp (call_unlock g (CRel ro u rm)) s Q.
Proof.
  intros I P P' H. cbn [call_unlock]. apply wp_bind.
  eapply unlock_same with (h := (if u then [(KUpdate, true)] else []) ++ h); [auto | exact P | exact P' |].
  intros s1 X1 E1 C1 U1. cbn [cont]. apply wp_bind.
  assert (W : forall s2, K None h s s2 -> next s2 = next s -> coll s2 = coll s -> unl s2 = unl s ->
              wp (if rm then put (fun s => set_unl_of s (g_obj g) CLog) else ret tt) s2 Q).
  { intros s2 X2 E2 C2 U2. destruct rm.
    - apply wp_put. apply H; [|intros _; cbn; apply upd_eq | discriminate].
      destruct X2 as [[] ? [] ? ? ?]. split; auto.
      + split; auto; split; auto.
      + intros o' D. cbn. rewrite upd_neq by auto. congruence.
    - apply wp_ret. apply H; [|discriminate | auto]. split; auto; [apply G_J, K_G; auto | apply X2 | congruence]. }
  destruct u.
  - eapply unlock_same with (h := h); [apply X1 | apply X1 | reflexivity|]. intros s2 X2 E2 C2 U2. cbn [cont]. apply W; try congruence. eapply K_trans; eauto.
  - apply wp_ret. cbn [cont]. apply W; auto.
Qed.
Lemma wp_unlock_segs h h' g ro u rm s (Q : res _ -> st -> Prop) : INV s -> Permutation (held s) h' -> Permutation h' (lks ro u ++ h) ->
  unl s (g_obj g) = CRel ro u rm ->
  (forall s', U (g_obj g) h s s' -> (rm = true -> unl s' (g_obj g) = CLog) -> (rm = false -> unl s' = unl s) -> Q (Ret tt) s') ->
  wp (unlock_segs g) s Q.
Proof. intros I P P' E H. apply wp_bind, wp_get. cbn [cont]. rewrite E. eapply wp_call_unlock; eauto. Qed.

(** what loadSegments returns *)
Record loaded (g : segs) (ro u : bool) (s : st) : Prop := {
  ld_ok : gok g s; ld_match : gmatch g s; ld_unl : unl s (g_obj g) = CRel ro u true; ld_upd : g_upd g = u;
  ld_ro : ro = false -> g_ro g = false
}.
Lemma set_unl_G t h s0 s o v : G t h s0 s -> next s0 <= o -> G t h s0 (set_unl_of s o v).
Proof.
  intros [[] ? [] ?] L. split; auto.
  - split; auto.
  - split; auto.
  - intros o' L'. cbn. rewrite upd_neq by lia. apply g_fu; auto.
Qed.
Lemma wp_deferred_unlock {A} (m : M A) k w s Q :
  wp m s (fun r s' => match r with
                      | Ret a => wp (unlock k w) s' (cont (fun _ => ret a) Q)
                      | Raise => wp (unlock k w) s' (cont (fun _ => raise) Q)
                      | Dead => Q Dead s' | Stuck => Q Stuck s' end) -> wp (deferred (unlock k w) m) s Q.
Proof. apply wp_deferred. Qed.
Lemma plain_cons k w h : plain h -> match k with KSeg _ | KStats _ => False | _ => True end -> plain ((k, w) :: h).
Proof. unfold plain. cbn. intros -> H. destruct k; auto; contradiction. Qed.

Ltac perm := cbn [lks app negb]; first
  [ reflexivity | assumption | apply perm_skip; perm
  | eapply (Permutation_cons_app [_]); cbn [app]; perm
  | eapply (Permutation_cons_app [_; _]); cbn [app]; perm
  | eapply (Permutation_cons_app [_; _; _]); cbn [app]; perm ].

Lemma avail_weak k w h : avail k true h = true -> avail k w h = true.
Proof.
  unfold avail. rewrite !forallb_forall. intros A x J. specialize (A x J). destruct (lk_eqb (fst x) k); auto. discriminate.
Qed.
Section load.
Variables (ro u : bool) (h : list (lk * bool)) (s0 : st).
Definition hu : list (lk * bool) := (if u then [(KUpdate, true)] else []) ++ h.
Lemma hu_avail k w : k <> KUpdate -> avail k w h = true -> avail k w hu = true.
Proof. intros D A. unfold hu. destruct u; auto. apply avail_other; auto. Qed.
Lemma hu_lks b : Permutation ((KSegs, b) :: (KLoading, true) :: hu) (lks (negb b) u ++ (KLoading, true) :: h).
Proof. unfold hu, lks. rewrite negb_involutive. destruct u; perm. Qed.
Lemma hu_plain : plain h -> plain hu.
Proof. unfold hu. destruct u; auto. Qed.

(** how the part under loadingLock ends *)
Definition body (r : res (option segs)) (s' : st) : Prop :=
  (exists g, r = Ret (Some g) /\ G None (lks ro u ++ (KLoading, true) :: h) s0 s' /\ loaded g ro u s' /\ next s0 <= g_obj g /\
             (scset s0 = true -> g_scores g <> None) /\
             (l_sc s0 <> None -> K None (lks ro u ++ (KLoading, true) :: h) s0 s' /\ g_ro g = ro))
  \/ (r = Ret None /\ J None ((KLoading, true) :: h) s0 s' /\ scset s0 = true /\ l_sc s0 = None /\ unread s0 s' /\ (u = false -> fl s0 s'))
  \/ (r = Dead /\ ro = true /\ u = true /\ fr (Some (SetReindexed ByRead)) s0 s').
Lemma load_tail g s : G None ((KSegs, true) :: (KLoading, true) :: hu) s0 s -> gok g s -> g_ro g = false -> g_upd g = u ->
  next s0 <= g_obj g -> unl s (g_obj g) = CRel false u (negb ro) -> avail KSegs true h = true -> (scset s0 = true -> g_scores g <> None) ->
  l_sc s0 = None ->
  wp (update_segments g;;
      (if ro then unlock KSegs true;; lock KSegs false;; put (fun s => set_unl_of s (g_obj g) (CRel true u true)) else ret tt);;
      ret (Some g)) s body.
Proof.
  intros X O R E L UN A SC N0. unfold body. apply wp_bind. eapply wp_update_segments; [apply X | apply X | auto | auto |]. intros s1 X1 E1 C1 M1. cbn [cont].
  assert (Y1 := G_trans _ _ _ _ _ _ X X1).
  assert (O1 : gok g s1) by (eapply gok_mono; eauto; lia).
  assert (AS : forall w, avail KSegs w ((KLoading, true) :: hu) = true).
  { intros w. apply avail_other; [discriminate|]. apply hu_avail; [discriminate|]. apply avail_weak; auto. }
  apply wp_bind. destruct ro eqn:RO.
  - apply wp_bind. eapply wp_unlock; [apply X1 | apply X1 | reflexivity|]. intros s2 X2. cbn [cont].
    apply wp_bind. eapply wp_lock; [apply X2 | apply X2 | exact Logic.I | apply AS |]. intros s3 X3. cbn [cont].
    apply wp_put. cbn [cont]. apply wp_ret. left. exists g.
    assert (Y3 : K None ((KSegs, false) :: (KLoading, true) :: hu) s1 s3) by (eapply K_trans; eauto).
    assert (Z3 := GK_trans _ _ _ _ _ _ Y1 Y3).
    split; auto. split; [|split; [|split; [auto | split; [auto|]]]].
    + apply set_unl_G; auto. eapply G_perm; [|exact Z3]. apply (hu_lks false).
    + split; auto.
      * eapply gok_mono; eauto. cbn. nxt.
      * eapply gmatch_fl; [exact M1 | apply Y3].
      * cbn. apply upd_eq.
    + intros D. contradiction.
  - apply wp_ret. cbn [cont]. apply wp_ret. left. exists g. split; auto. split; [|split; [|split; [auto | split; [auto|]]]].
    + eapply G_perm; [|exact Y1]. apply (hu_lks true).
    + split; auto. rewrite (g_fu _ _ _ _ X1); auto. apply O.
    + intros D. contradiction.
Qed.
Lemma load_fail g s : G None ((KSegs, true) :: (KLoading, true) :: hu) s0 s -> unl s (g_obj g) = CRel false u (negb ro) ->
  scset s0 = true -> l_sc s0 = None -> unread s0 s -> (u = false -> fl s0 s) -> wp (unlock_segs g;; ret None) s body.
Proof.
  intros X E SC N UR FL. apply wp_bind. eapply (wp_unlock_segs ((KLoading, true) :: h)); [apply X | apply X | apply (hu_lks true) | exact E|].
  intros s1 [] _ _. cbn [cont]. apply wp_ret. right; left. split; auto. split; [|split; [auto | split; [auto | split]]].
  - eapply J_trans; [apply G_J; eauto | auto].
  - eapply unread_more; eauto. apply u_j0.
  - intros F. eapply fl_trans; eauto.
Qed.
End load.

Lemma wp_load h ro u s (Q : res _ -> st -> Prop) :
  INV s -> Permutation (held s) h -> plain h -> (u = true -> avail KUpdate true h = true) -> avail KLoading true h = true ->
  avail KSegs (negb ro) h = true -> (l_sc s = None -> avail KSegs true h = true /\ avail KList false h = true) -> ro = true \/ u = true ->
  (forall g s', G None (lks ro u ++ h) s s' -> loaded g ro u s' -> next s <= g_obj g -> (scset s = true -> g_scores g <> None) ->
      (l_sc s <> None -> K None (lks ro u ++ h) s s' /\ g_ro g = ro) -> Q (Ret (Some g)) s') ->
  (forall s', J None h s s' -> scset s = true -> l_sc s = None -> unread s s' -> (u = false -> fl s s') -> Q (Ret None) s') ->
  (ro = true -> u = true -> forall s', fr (Some (SetReindexed ByRead)) s s' -> Q Dead s') ->
  wp (load_segments ro u) s Q.
Proof.
  intros I P N AU AL AS AN RU H1 H2 H3. unfold load_segments. apply wp_bind.
  eapply wp_mono with (Q := fun r s1 => r = Ret tt /\ K None (hu u h) s s1).
  { unfold hu. destruct u; [|apply wp_ret; split; auto; apply K_refl; auto]. eapply wp_lock; eauto. exact Logic.I. }
  intros r s1 (-> & X1). cbn [cont]. apply wp_bind.
  eapply wp_lock; [apply X1 | apply X1 | exact Logic.I | apply hu_avail; [discriminate | auto] |]. intros s2 X2. cbn [cont].
  assert (Y2 := K_trans _ _ _ _ _ _ X1 X2). apply wp_deferred.
  eapply wp_mono with (Q := body ro u h s).
  2: { intros r s' [(g & -> & GG & LD & LO & SC & KK) | [(-> & JJ & SC & LN & UR & FL) | (-> & -> & -> & F)]].
    - eapply unlock_same with (h := lks ro u ++ h); [apply GG | apply GG | symmetry; apply Permutation_middle|].
      intros s3 X3 E3 C3 U3. cbn. apply wp_ret. apply H1; auto.
      + eapply GK_trans; eauto.
      + destruct LD. split; auto.
        * eapply gok_mono; eauto; lia.
        * eapply gmatch_fl; eauto. apply X3.
        * rewrite U3; auto.
      + intros D. destruct (KK D). split; auto. eapply K_trans; eauto.
    - eapply unlock_same; [apply JJ | apply JJ | reflexivity|]. intros s3 X3 E3 C3 U3. cbn. apply wp_ret. apply H2; auto.
      + eapply J_trans; [eauto | apply G_J, K_G; eauto].
      + eapply unread_more; eauto. apply X3.
      + intros F. eapply fl_trans; [auto | apply X3].
    - auto. }
  apply wp_bind. eapply wp_fresh; [apply X2 | apply X2 |]. intros o s3 X3 -> E3. cbn [cont].
  assert (Y3 := K_trans _ _ _ _ _ _ Y2 X3). set (o := next s2) in *.
  assert (LO : next s <= o) by (unfold o; nxt).
  apply wp_bind. eapply wp_lock; [apply X3 | apply X3 | exact Logic.I | apply avail_other; [discriminate | apply hu_avail; [discriminate | auto]] |].
  intros s4 X4. cbn [cont]. assert (Y4 := K_trans _ _ _ _ _ _ Y3 X4).
  apply wp_bind, wp_put. cbn [cont]. set (s5 := set_unl_of s4 o (CRel ro u true)).
  assert (Y5 : K None ((KSegs, negb ro) :: (KLoading, true) :: hu u h) s s5) by (apply set_unl_K; auto; nxt).
  assert (L5 : o < next s5) by (cbn; unfold o in *; nxt).
  assert (U5 : unl s5 o = CRel ro u true) by (cbn; apply upd_eq).
  clearbody s5. clear X4 Y4 Y3 X3 Y2 X2 X1. clearbody o. clear E3.
  apply wp_bind, wp_get. cbn [cont]. apply wp_bind, wp_get. cbn [cont].
  assert (F5 := k_fl _ _ _ _ Y5). destruct F5 as (F1 & F2 & F3 & F4).
  assert (IL := i_list _ I). rewrite F1, F2.
  destruct (l_sc s) as [c|] eqn:Ec, (l_ix s) as [x|] eqn:Ex; try contradiction.
  - apply wp_ret. left. eexists; split; [reflexivity|].
    assert (Y5' : K None (lks ro u ++ (KLoading, true) :: h) s s5).
    { eapply K_perm; [|exact Y5]. rewrite <- (negb_involutive ro) at 2. apply hu_lks. }
    assert (NX := K_next _ _ _ _ Y5).
    split; [apply K_G; auto|]. split; [|split; [auto | split; [discriminate | split; auto]]].
    split; cbn; auto; [split; cbn; [auto|]; destruct IL as (? & ? & ? & _); repeat split; auto; lia|].
    destruct IL as (? & ? & ? & ? & ?). repeat split; cbn; congruence.
  - destruct (AN eq_refl) as [ASW AK].
    assert (ASA : forall w, avail KSegs w ((KLoading, true) :: hu u h) = true).
    { intros w. apply avail_other; [discriminate|]. apply hu_avail; [discriminate|]. apply avail_weak; auto. }
    apply wp_bind.
    eapply wp_mono with (Q := fun r s6 => r = Ret tt /\ K None ((KSegs, true) :: (KLoading, true) :: hu u h) s s6 /\
                                         o < next s6 /\ unl s6 o = CRel false u (negb ro)).
    { destruct ro; [|apply wp_ret; auto].
      apply wp_bind. eapply wp_unlock; [apply Y5 | apply Y5 | reflexivity|]. intros s6 X6. cbn [cont].
      apply wp_bind. eapply wp_lock; [apply X6 | apply X6 | exact Logic.I | apply ASA |]. intros s7 X7. cbn [cont].
      apply wp_put. split; auto. split; [|split].
      - apply set_unl_K; auto. eapply K_trans; [exact Y5 | eapply K_trans; eauto].
      - cbn. nxt.
      - cbn. apply upd_eq. }
    intros r s6 (-> & Y6 & L6 & U6). cbn [cont]. clear Y5 U5 L5 F1 F2 F3 F4 s5.
    assert (F6 := k_fl _ _ _ _ Y6). destruct F6 as (F1 & F2 & F3 & F4).
    apply wp_bind, wp_get. cbn [cont]. apply wp_bind, wp_get. cbn [cont]. rewrite F3, F4, IL.
    assert (PL : plain ((KSegs, true) :: (KLoading, true) :: hu u h)) by (repeat apply plain_cons; auto; apply hu_plain; auto).
    assert (AKL : avail KList false ((KSegs, true) :: (KLoading, true) :: hu u h) = true)
      by (repeat (apply avail_other; [discriminate|]); apply hu_avail; [discriminate | auto]).
    apply wp_bind. destruct (ixset s) eqn:BX.
    2: { apply wp_ret. cbn [cont]. apply wp_bind, wp_ret. cbn [cont].
         apply (load_tail ro u h s (mkG None None false u o) s6); auto; try exact (conj L6 Logic.I); try (cbn; congruence).
         apply K_G; auto. }
    apply wp_bind. eapply wp_load_coll; [apply Y6 | apply Y6 | auto | |].
    2: { intros s7 X7 UR. cbn [cont]. apply wp_ret. cbn [cont].
         apply load_fail; auto; cbn [g_obj].
         - eapply GK_trans; [apply K_G; eauto | eauto].
         - rewrite (k_fu _ _ _ _ X7); auto.
         - eapply unread_after; [apply Y6 | eauto].
         - intros _. eapply fl_trans; [apply Y6 | apply X7]. }
    intros c s7 X7 L7 L7'. cbn [cont]. apply wp_ret. cbn [cont]. assert (Y7 := K_trans _ _ _ _ _ _ Y6 X7).
    assert (U7 : unl s7 o = CRel false u (negb ro)) by (rewrite (k_fu _ _ _ _ X7); auto).
    apply wp_bind. apply wp_bind. eapply wp_load_coll; [apply X7 | apply X7 | auto | |].
    { intros x s8 X8 L8 L8'. cbn [cont]. apply wp_ret. cbn [cont].
      apply (load_tail ro u h s (mkG (Some c) (Some x) false u o) s8); auto; cbn; try discriminate.
      - eapply GK_trans; [apply K_G; eauto | eauto].
      - split; cbn; [nxt | repeat split; nxt].
      - rewrite (k_fu _ _ _ _ X8); auto. nxt. }
    intros s8 X8 UR. cbn [cont]. assert (Y8 := K_trans _ _ _ _ _ _ Y7 X8).
    apply wp_bind. eapply wp_new_coll; [apply X8 | apply X8 |]. intros stub s9 X9 -> L9 _. cbn [cont].
    assert (Y9 := K_trans _ _ _ _ _ _ Y8 X9).
    assert (U9 : unl s9 o = CRel false u (negb ro)) by (rewrite (k_fu _ _ _ _ X9), (k_fu _ _ _ _ X8); auto; nxt).
    assert (UR9 : unread s s9) by (eapply unread_more; [eapply unread_after; [apply Y7 | exact UR] | apply X9]).
    assert (O9 : gok (mkG (Some c) (Some (next s8)) false u o) s9) by (split; cbn; [nxt | repeat split; nxt]).
    eapply wp_reindex; [apply X9 | apply X9 | exact O9 | reflexivity | reflexivity | reflexivity | auto | auto | | |]; cbn [g_upd g_obj].
    + intros x s10 X10 L10 L10' M10 UT. cbn [cont].
      apply (load_tail ro u h s (mkG (Some c) (Some x) false u o) s10); auto; cbn; try discriminate.
      * eapply G_trans; [apply K_G; exact Y9 | exact X10].
      * split; cbn; [nxt | repeat split; nxt].
      * rewrite (g_fu _ _ _ _ X10); auto. nxt.
    + intros s10 X10. cbn [cont].
      apply load_fail; auto; cbn [g_obj].
      * eapply GK_trans; [apply K_G; exact Y9 | exact X10].
      * rewrite (k_fu _ _ _ _ X10); auto. nxt.
      * eapply unread_more; eauto. apply X10.
      * intros _. eapply fl_trans; [apply Y9 | apply X10].
    + intros x s10 X10 UT. cbv zeta. subst u. apply wp_bind.
      assert (U10 : unl s10 o = CRel false true (negb ro)) by (rewrite (g_fu _ _ _ _ X10); auto; nxt).
      eapply (wp_unlock_segs ((KLoading, true) :: h)); [apply X10 | apply X10 | apply (hu_lks true h true) | exact U10 |].
      intros s11 [] UC US. cbn [cont]. apply wp_ret. cbn [cont].
      destruct ro; cbn [negb costly] in *.
      * apply wp_bind. apply wp_bind, wp_get. cbn [cont g_obj]. rewrite US, U10 by auto. cbn [call_unlock].
        apply wp_bind. eapply wp_unlock_dead; [apply u_j0 | |].
        { intros [J | J]; [discriminate|]. revert J. clear - ASW. intros J. unfold avail in ASW. rewrite forallb_forall in ASW.
          specialize (ASW _ J). discriminate. }
        cbn [cont]. right; right. split; auto. split; auto. split; auto.
        eapply fr_trans; [apply Y9|]. eapply fr_trans'; [apply X10 | apply u_j0].
      * apply wp_bind. apply wp_bind, wp_get. cbn [cont g_obj]. cbn [g_obj] in UC. rewrite UC by auto. cbn [call_unlock]. apply wp_ret. cbn [cont].
        apply wp_ret. right; left. split; auto. split; [|split; [auto | split; [auto | split; [|discriminate]]]].
        -- eapply J_trans; [apply G_J, K_G; exact Y9|]. eapply J_trans; [apply G_J; exact X10 | auto].
        -- eapply unread_more; [eapply unread_more; [exact UR9 | apply X10] | apply u_j0].
Qed.
