(** Proofs for Spec/UnlockSpec.v: splitting, Populate and Repair. *)
From Coq Require Import List Bool Arith Lia Permutation.
From Verif.Model Require Import Unlock.
From Verif.Spec Require Import UnlockSpec.
From Verif.Proof Require Import UnlockP UnlockP2 UnlockP3 UnlockP4 UnlockP5.
Import ListNotations.
Open Scope nat_scope.

(** ** the split pass *)
Lemma remove_inv s c i a : INV s -> nth_error (coll s c) i = Some a ->
  INV (set_coll_of s c (firstn i (coll s c) ++ skipn (S i) (coll s c))).
Proof.
  intros I E. apply nth_error_split in E as (l1 & l2 & E & L). rewrite E, <- L.
  rewrite firstn_app, firstn_all, Nat.sub_diag, skipn_app. cbn [firstn]. rewrite app_nil_r.
  rewrite skipn_all2 by lia. replace (S (length l1) - length l1) with 1 by lia. cbn [skipn app].
  assert (J : forall j, In j (l1 ++ l2) -> In j (coll s c)).
  { intros j. rewrite E, !in_app_iff. cbn. tauto. }
  apply set_coll_inv; auto.
  - apply NoDup_remove_1 with (a := a). rewrite <- E. apply I.
  - intros j Jj. eapply i_known; eauto.
  - intros j c' D Jj Jj'. apply D. eapply i_own; eauto.
Qed.
Lemma wp_merge_at h c i s (Q : res _ -> st -> Prop) : INV s -> Permutation (held s) h -> plain h -> c < next s ->
  (forall ok s', G None h s s' -> fl s s' -> Q (Ret ok) s') -> wp (merge_at c i) s Q.
Proof.
  intros I P N L H. apply wp_bind, wp_get. cbn [cont].
  assert (SKIP : wp (ret true) s Q).
  { apply wp_ret. apply H; [apply G_refl; auto | red; auto]. }
  destruct i as [|i]; auto. destruct (nth_error (coll s c) (S i)) as [a|] eqn:Ea; auto.
  destruct (nth_error (coll s c) (S i - 1)) as [p|] eqn:Ep; auto. clear SKIP.
  assert (D : a <> p).
  { intros ->. rewrite <- Ep in Ea. apply (proj1 (NoDup_nth_error _) (i_nodup _ I c)) in Ea; [lia|]. apply nth_error_Some. congruence. }
  assert (La : a < next s) by (eapply i_known; [eauto | eapply nth_error_In; eauto]).
  assert (Lp : p < next s) by (eapply i_known; [eauto | eapply nth_error_In; eauto]).
  apply wp_bind. eapply wp_elem_full; eauto; cbn [negb cont].
  2: { intros s1 X1. apply wp_ret. apply H; [apply K_G; auto | apply X1]. }
  intros s1 X1. apply wp_deferred.
  assert (FIN : forall ok s2, G None ((KSeg a, true) :: h) s s2 -> fl s s2 -> wp (unlock (KSeg a) true) s2 (cont (fun _ => ret ok) Q)).
  { intros ok s2 X2 F2. eapply wp_unlock; [apply X2 | apply X2 | reflexivity|]. intros s3 X3. cbn. apply wp_ret. apply H.
    - eapply GK_trans; eauto.
    - eapply fl_trans; [eauto | apply X3]. }
  apply wp_bind. eapply wp_elem_full; [apply X1 | apply X1 | nxt | apply avail_other; [congruence | auto] | |]; cbn [negb cont].
  2: { intros s2 X2. assert (Y2 := K_trans _ _ _ _ _ _ X1 X2). apply wp_ret. apply FIN; [apply K_G; auto | apply Y2]. }
  intros s2 X2. assert (Y2 := K_trans _ _ _ _ _ _ X1 X2).
  apply wp_bind. eapply wp_touch; [apply X2 | apply X2 | nxt | repeat (apply avail_other; [discriminate|]); auto |]. intros s3 X3. cbn [cont].
  assert (Y3 := K_trans _ _ _ _ _ _ Y2 X3).
  assert (C3 : coll s3 c = coll s c) by (eapply K_coll; eauto).
  apply wp_bind, wp_put. cbn [cont]. set (s4 := set_coll_of _ _ _).
  assert (I4 : INV s4) by (eapply remove_inv; [apply X3 | rewrite C3; eauto]).
  assert (Y4 : G None ((KSeg p, true) :: (KSeg a, true) :: h) s s4) by (apply set_coll_G; [apply K_G; auto | auto]).
  assert (F4 : fl s s4) by exact (k_fl _ _ _ _ Y3).
  apply wp_bind. eapply wp_replace_seg; [auto | apply Y4 | reflexivity | nxt | apply avail_other; [discriminate | auto] |].
  intros ok s5 X5. cbn [cont costly] in *. rewrite andb_false_r in X5. assert (Y5 := GK_trans _ _ _ _ _ _ Y4 X5).
  assert (F5 : fl s s5) by (eapply fl_trans; [eauto | apply X5]).
  destruct ok; [|apply wp_ret; auto].
  apply wp_bind. eapply wp_io; [apply X5 | apply X5 |]. intros ok s6 X6 _. cbn [cont costly] in *. rewrite andb_false_r in X6. apply wp_ret.
  apply FIN; [eapply GK_trans; eauto | eapply fl_trans; [eauto | apply X6]].
Qed.
Lemma wp_split_at h c i isidx s (Q : res _ -> st -> Prop) : INV s -> Permutation (held s) h -> plain h -> c < next s ->
  (forall ok s', G None h s s' -> fl s s' -> Q (Ret ok) s') ->
  (forall j s', G (Some SetFirst) ((KSeg j, true) :: h) s s' -> fl s s' -> In j (coll s' c) -> Q (Ret false) s') ->
  wp (split_at c i isidx) s Q.
Proof.
  intros I P N L H H'. apply wp_bind, wp_get. cbn [cont].
  destruct (nth_error (coll s c) i) as [a|] eqn:Ea.
  2: { apply wp_ret. apply H; [apply G_refl; auto | red; auto]. }
  assert (Ja : In a (coll s c)) by (eapply nth_error_In; eauto).
  assert (La : a < next s) by (eapply i_known; eauto).
  apply wp_bind. eapply wp_elem_full; eauto; cbn [negb cont].
  2: { intros s1 X1. apply wp_ret. apply H; [apply K_G; auto | apply X1]. }
  intros s1 X1. apply wp_bind. eapply wp_pickb; [apply X1 | apply X1 |]. intros can s2 X2. cbn [cont].
  assert (Y2 := K_trans _ _ _ _ _ _ X1 X2). destruct can.
  2: { apply wp_bind. eapply wp_unlock; [apply X2 | apply X2 | reflexivity |]. intros s3 X3. cbn [cont]. apply wp_ret.
       assert (Y3 := K_trans _ _ _ _ _ _ Y2 X3). apply H; [apply K_G; auto | apply Y3]. }
  eapply wp_new_locked; [apply X2 | apply X2 | nxt | apply avail_other; [discriminate | auto] |]. intros b s3 X3 EB L3 C3.
  assert (Y3 := K_trans _ _ _ _ _ _ Y2 X3). apply wp_bind, wp_put. cbn [cont]. set (s4 := set_coll_of _ _ _).
  assert (NB : forall c', ~ In b (coll s3 c')).
  { intros c' J. rewrite C3 in J. apply (i_known _ (k_inv _ _ _ _ X2)) in J. lia. }
  assert (I4 : INV s4) by (apply ins_inv; [apply X3 | auto | auto | apply firstn_skipn]).
  assert (Y4 : G None ((KSeg b, true) :: (KSeg a, true) :: h) s s4) by (apply set_coll_G; [apply K_G; auto | auto]).
  assert (F4 : fl s s4) by exact (k_fl _ _ _ _ Y3).
  assert (EC : coll s4 c = firstn (S i) (coll s3 c) ++ b :: skipn (S i) (coll s3 c)) by (cbn; apply upd_eq).
  assert (Ja4 : In a (coll s4 c)).
  { rewrite EC. rewrite C3, (K_coll _ _ _ _ c Y2 L). rewrite <- (firstn_skipn (S i)), in_app_iff in Ja.
    rewrite in_app_iff. cbn [In]. tauto. }
  assert (Jb4 : In b (coll s4 c)) by (rewrite EC, in_app_iff; cbn; auto).
  clearbody s4. clear EC.
  set (x1 := if isidx then b else a). set (x2 := if isidx then a else b).
  assert (P4 : Permutation ((KSeg b, true) :: (KSeg a, true) :: h) ((KSeg x1, true) :: (KSeg x2, true) :: h)).
  { unfold x1, x2. destruct isidx; [reflexivity | apply perm_swap]. }
  apply wp_bind. eapply wp_replace_seg with (h := (KSeg x2, true) :: h); [auto | apply Y4 | exact P4 | nxt | apply avail_other; [discriminate | auto] |].
  intros ok s5 X5. cbn [cont costly] in *. assert (F5 : fl s s5) by (eapply fl_trans; [eauto | apply X5]).
  destruct ok; cbn [negb andb] in X5; assert (Y5 := GK_trans _ _ _ _ _ _ Y4 X5).
  - eapply wp_replace_seg with (h := h); [apply X5 | apply X5 | reflexivity | nxt | auto |].
    intros ok s6 X6. cbn [costly] in X6. rewrite andb_false_r in X6.
    apply H; [eapply GK_trans; eauto | eapply fl_trans; [eauto | apply X6]].
  - apply wp_ret. apply (H' x2); auto. rewrite (K_coll _ _ _ _ c X5) by nxt. unfold x2; destruct isidx; auto.
Qed.
Lemma wp_split_loop h c isidx n : forall i s (Q : res _ -> st -> Prop), INV s -> Permutation (held s) h -> plain h -> c < next s ->
  (forall ok s', G None h s s' -> fl s s' -> Q (Ret ok) s') ->
  (forall j s', G (Some SetFirst) ((KSeg j, true) :: h) s s' -> fl s s' -> In j (coll s' c) -> Q (Ret false) s') ->
  wp (split_loop n c i isidx) s Q.
Proof.
  induction n as [|n IH]; intros i s Q I P N L H H'.
  - apply wp_ret. apply H; [apply G_refl; auto | red; auto].
  - cbn [split_loop]. apply wp_bind. eapply wp_pick; eauto. intros w s1 X1. cbn [cont]. apply wp_bind.
    assert (NEXT : forall (ok : bool) s2, G None h s1 s2 -> fl s1 s2 -> cont (fun ok : bool => skip <- pickb;;
       (if ok then split_loop n c (if skip : bool then S (S i) else S i) isidx else ret false)) Q (Ret ok) s2).
    { intros ok s2 X2 F2. cbn [cont]. apply wp_bind. eapply wp_pickb; [apply X2 | apply X2 |]. intros sk s3 X3. cbn [cont].
      assert (Y3 : G None h s s3) by (eapply KG_trans; [eauto | eapply GK_trans; eauto]).
      assert (F3 : fl s s3) by (eapply fl_trans; [apply X1 | eapply fl_trans; [eauto | apply X3]]).
      destruct ok; [|apply wp_ret; auto]. apply IH; auto; [apply X3 | apply X3 | nxt | |].
      - intros ok s4 X4 F4. apply H; [eapply G_trans; eauto | eapply fl_trans; eauto].
      - intros j s4 X4 F4 J4. apply (H' j); auto; [eapply G_trans; eauto | eapply fl_trans; eauto]. }
    destruct w as [|[|w]].
    + apply wp_ret. apply NEXT; [apply G_refl; apply X1 | red; auto].
    + eapply wp_merge_at; [apply X1 | apply X1 | auto | nxt | auto].
    + eapply wp_split_at; [apply X1 | apply X1 | auto | nxt | auto |]. intros j s2 X2 F2 J2. cbn [cont].
      apply wp_bind. eapply wp_pickb; [apply X2 | apply X2 |]. intros sk s3 X3. cbn [cont]. apply wp_ret. apply (H' j).
      * eapply KG_trans; [eauto|]. destruct X2, X3. split; auto.
        -- eapply fr_trans'; eauto.
        -- eapply fu_trans; [apply g_fr | eauto | eauto].
      * eapply fl_trans; [apply X1 | eapply fl_trans; [eauto | apply X3]].
      * rewrite (K_coll _ _ _ _ c X3) by nxt. auto.
Qed.
Definition post_split (s : st) (r : res bool) (s' : st) : Prop :=
  fine false s r s' \/ (r = Ret false /\ exists k j, J (Some SetFirst) [(KSeg j, true)] s s' /\ (l_sc s' = Some k \/ l_ix s' = Some k) /\ In j (coll s' k)).
Lemma wp_do_split s : INV s -> held s = [] -> wp do_split s (post_split s).
Proof.
  intros I H0. apply wp_with; auto.
  2: { intros s1 X _ _ _ _. left; left. split; auto. right; eauto. }
  2: { discriminate. }
  intros g s1 X [O M UN UP RO] SC. specialize (RO eq_refl). set (h := lks false true) in *.
  match goal with |- wp _ _ ?Q => set (QQ := Q) end.
  assert (GOOD : forall r s2, endp true r -> G None h s1 s2 -> QQ r s2).
  { intros r s2 E Y. left. split; auto. exists []. rewrite app_nil_r. split; [apply Y|]. split; [apply Y|]. intros s3 Z.
    left; left. split; [eapply endp_ends; eauto|]. eapply after_U; [|exact Z]. eapply J_trans; [apply G_J; exact X | apply G_J; exact Y]. }
  assert (BAD : forall k j s2, G (Some SetFirst) ((KSeg j, true) :: h) s1 s2 -> fl s1 s2 -> In j (coll s2 k) -> (g_scores g = Some k \/ g_index g = Some k) ->
            QQ (Ret false) s2).
  { intros k j s2 Y F Jj E. left. split; [right; eauto|]. exists [(KSeg j, true)]. split; [apply Y|]. split; [rewrite (g_held _ _ _ _ Y); unfold h; perm|].
    intros s3 Z. right. split; auto. exists k, j. destruct (U_fl _ _ _ _ Z) as (F1 & F2 & F3). destruct F as (F4 & F5 & _).
    destruct M as (M1 & M2 & _). split; [|split].
    - eapply after_U; [|exact Z]. eapply J_trans; apply G_J; eauto.
    - rewrite F1, F2, F4, F5, M1, M2. auto.
    - rewrite F3. auto. }
  assert (NO : forall s2, G None h s1 s2 -> wp (ret false) s2 QQ) by (intros; apply wp_ret; apply GOOD; auto; right; eauto).
  assert (N : plain h) by reflexivity.
  apply wp_bind. eapply wp_touch; [apply X | apply X | exact Logic.I | reflexivity |]. intros s2 X2. cbn [cont].
  destruct (g_scores g) as [c|] eqn:EC.
  2: { apply wp_bind. unfold wp at 1; cbn. apply GOOD; [left; auto | apply K_G; auto]. }
  assert (exists x, g_index g = Some x) as [x EX].
  { destruct O as [_ O]. rewrite EC in O. destruct (g_index g); [eauto | contradiction]. }
  rewrite EX in *. cbn [need]. apply wp_bind, wp_ret. cbn [cont]. apply wp_bind, wp_ret. cbn [cont].
  assert (Lc := gok_scores _ _ _ O EC). assert (Lx := gok_index _ _ _ O EX).
  apply wp_bind. eapply wp_pick; [apply X2 | apply X2 |]. intros n s3 X3. cbn [cont]. assert (Y3 := K_trans _ _ _ _ _ _ X2 X3).
  apply wp_bind. eapply (wp_split_loop h); [apply X3 | apply X3 | auto | nxt | |].
  2: { intros j s4 X4 F4 J4. cbn [cont]. apply wp_ret. apply (BAD c j); auto; [eapply KG_trans; eauto | eapply fl_trans; [apply Y3 | auto]]. }
  intros ok s4 X4 F4. cbn [cont]. assert (Y4 := KG_trans _ _ _ _ _ _ Y3 X4). assert (E4 : fl s1 s4) by (eapply fl_trans; [apply Y3 | auto]).
  destruct ok; [|auto].
  apply wp_bind. eapply (wp_keep h). { apply (keep_update_index false); [nxt | auto]. } 1,2: apply X4. intros ok s5 X5. cbn [cont].
  assert (Y5 := GK_trans _ _ _ _ _ _ Y4 X5). assert (E5 : fl s1 s5) by (eapply fl_trans; [eauto | apply X5]).
  destruct ok; [|auto].
  apply wp_bind. eapply (wp_keep h). { apply (keep_verify_coll false); [nxt | auto]. } 1,2: apply X5. intros b1 s6 X6. cbn [cont].
  apply wp_bind. eapply (wp_keep h). { apply (keep_verify_coll false); [nxt | auto]. } 1,2: apply X6. intros b2 s7 X7. cbn [cont].
  apply wp_bind. eapply wp_pick; [apply X7 | apply X7 |]. intros n' s8 X8. cbn [cont].
  assert (Z8 : K None h s5 s8) by (eapply K_trans; [exact X6 | eapply K_trans; eauto]).
  assert (Y8 := GK_trans _ _ _ _ _ _ Y5 Z8). assert (E8 : fl s1 s8) by (eapply fl_trans; [eauto | apply Z8]).
  apply wp_bind. eapply (wp_split_loop h); [apply X8 | apply X8 | auto | nxt | |].
  2: { intros j s9 X9 F9 J9. cbn [cont]. apply wp_ret. apply (BAD x j); auto; [eapply G_trans; eauto | eapply fl_trans; eauto]. }
  intros ok s9 X9 F9. cbn [cont]. assert (Y9 := G_trans _ _ _ _ _ _ Y8 X9).
  destruct ok; [|auto].
  apply wp_bind. eapply wp_pickb; [apply X9 | apply X9 |]. intros up s10 X10. cbn [cont]. assert (Y10 := GK_trans _ _ _ _ _ _ Y9 X10).
  destruct up; [|apply wp_ret; apply GOOD; auto; right; eauto].
  eapply wp_save_segments; [apply X10 | apply X10 | eapply gok_mono; [eauto | nxt] | auto | auto | reflexivity |].
  intros ok s11 X11 _. cbn [costly] in X11. rewrite andb_false_r in X11. apply GOOD; [right; eauto | eapply G_trans; eauto].
Qed.
