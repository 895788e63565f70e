(** Proofs for Spec/UnlockSpec.v: the calls that may leave a lock. *)
From Coq Require Import List Bool Arith Lia Permutation.
From Verif.Model Require Import Unlock.
From Verif.Spec Require Import UnlockSpec.
From Verif.Proof Require Import UnlockP UnlockP2 UnlockP3 UnlockP4.
Import ListNotations.
Open Scope nat_scope.

Lemma after_U t h h2 o s s2 s3 : J t h s s2 -> U o h2 s2 s3 -> J t h2 s s3.
Proof. intros X []. destruct t; [eapply J_trans'; eauto | eapply J_trans; eauto]. Qed.
Lemma U_fl o h s s' : U o h s s' -> l_sc s' = l_sc s /\ l_ix s' = l_ix s /\ coll s' = coll s.
Proof. intros [? ? ? (? & ? & _)]. auto. Qed.

(** ** Backup *)
Definition post_backup (s : st) (r : res bool) (s' : st) : Prop :=
  fine true s r s' \/ (r = Ret false /\ exists k, J (Some PutScores) [(KStats k, false)] s s' /\ l_sc s' = Some k).
Lemma wp_backup s : INV s -> held s = [] -> wp do_backup s (post_backup s).
Proof.
  intros I H0. apply wp_with; auto.
  2: { intros s1 X _ _ _ _. left; left. split; auto. right; eauto. }
  2: { intros _ _ s' F. left; right; auto. }
  intros g s1 X [O M UN _ _] SC. set (h := lks true true) in *.
  assert (GOOD : forall r s2, endp true r -> K None h s1 s2 ->
     (endp true r /\ exists h2, INV s2 /\ Permutation (held s2) (h ++ h2) /\ forall s3, U (g_obj g) h2 s2 s3 -> post_backup s r s3)
     \/ (endp true r /\ ~ In (KSegs, negb true) (held s2) /\ post_backup s Dead s2)).
  { intros r s2 E Y. left. split; auto. exists []. rewrite app_nil_r. split; [apply Y|]. split; [apply Y|]. intros s3 Z.
    left; left. split; [eapply endp_ends; eauto|]. eapply after_U; [|exact Z]. eapply J_trans; [apply G_J; exact X | apply G_J, K_G; exact Y]. }
  assert (NO : forall s2, K None h s1 s2 -> wp (ret false) s2 (fun r s2 =>
     (endp true r /\ exists h2, INV s2 /\ Permutation (held s2) (h ++ h2) /\ forall s3, U (g_obj g) h2 s2 s3 -> post_backup s r s3)
     \/ (endp true r /\ ~ In (KSegs, negb true) (held s2) /\ post_backup s Dead s2))).
  { intros s2 Y. apply wp_ret. apply GOOD; auto. right; eauto. }
  apply wp_bind. eapply wp_io; [apply X | apply X |]. intros ok s2 X2 _. cbn [cont costly] in *. rewrite andb_false_r in X2.
  destruct ok; [|auto].
  apply wp_bind. eapply wp_lock; [apply X2 | apply X2 | exact Logic.I | reflexivity |]. intros s3 X3. cbn [cont].
  apply wp_bind. eapply wp_io; [apply X3 | apply X3 |]. intros ok s4 X4 _. cbn [cont costly] in *. rewrite andb_false_r in X4.
  apply wp_bind. eapply wp_unlock; [apply X4 | apply X4 | reflexivity |]. intros s5 X5. cbn [cont].
  assert (Y5 : K None h s1 s5) by (eapply K_trans; [exact X2 | eapply K_trans; [exact X3 | eapply K_trans; eauto]]).
  destruct ok; [|auto].
  apply wp_bind. eapply wp_io; [apply X5 | apply X5 |]. intros ok s6 X6 _. cbn [cont costly] in *. rewrite andb_false_r in X6.
  assert (Y6 := K_trans _ _ _ _ _ _ Y5 X6). destruct ok; [|auto].
  destruct (g_scores g) as [c|] eqn:EC; cbn [need].
  2: { apply wp_bind. unfold wp at 1. cbn. apply GOOD; auto. left; auto. }
  apply wp_bind, wp_ret. cbn [cont]. assert (L : c < next s6) by (pose proof (gok_scores _ _ _ O EC); nxt).
  apply wp_bind. eapply wp_lock; [apply X6 | apply X6 | exact L | reflexivity |]. intros s7 X7. cbn [cont].
  apply wp_bind. eapply wp_io; [apply X7 | apply X7 |]. intros ok s8 X8 _. cbn [cont costly] in *.
  assert (Y7 := K_trans _ _ _ _ _ _ Y6 X7). assert (Y8 := K_trans _ _ _ _ _ _ Y7 X8).
  destruct ok; cbn [negb andb] in *.
  - apply wp_bind, wp_get. cbn [cont]. apply wp_bind. eapply wp_unlock; [apply X8 | apply X8 | reflexivity |]. intros s9 X9. cbn [cont].
    assert (Y9 := K_trans _ _ _ _ _ _ Y8 X9).
    assert (EC9 : coll s8 c = coll s9 c) by (symmetry; eapply K_coll; [exact X9|]; nxt). rewrite EC9.
    apply wp_bind. eapply wp_io; [apply X9 | apply X9 |]. intros ok s10 X10 _. cbn [cont costly] in *. rewrite andb_false_r in X10.
    assert (Y10 := K_trans _ _ _ _ _ _ Y9 X10). destruct ok; [|auto].
    assert (KP : keep true h s10 (each (coll s9 c) (fun i => reading i (ok <- io PutElems;; if ok : bool then io PutElems else ret false)))).
    { apply keep_each. intros i s11 X11 J1. apply keep_reading; [|reflexivity|].
      - pose proof (i_known _ (k_inv _ _ _ _ X9) c i J1). nxt.
      - intros. kq; [kq|]. kq; kq. }
    eapply wp_mono; [apply KP; [apply X10 | apply X10]|]. intros r s11 (E & X11). apply GOOD; auto. eapply K_trans; eauto.
  - apply wp_ret. left. split; [right; eauto|]. exists [(KStats c, false)]. split; [apply X8|]. split.
    + rewrite (k_held _ _ _ _ X8). unfold h. perm.
    + intros s9 Z. right. split; auto. exists c. destruct (U_fl _ _ _ _ Z) as (F & _). split.
      * eapply after_U; [|exact Z]. eapply J_trans; [apply G_J; exact X | apply G_J, K_G; exact Y8].
      * rewrite F. destruct (k_fl _ _ _ _ Y8) as (F' & _). rewrite F'. destruct M as (M & _). congruence.
Qed.

(** ** Reindex, DeleteAll *)
Definition post_reindex (s : st) (r : res bool) (s' : st) : Prop :=
  fine false s r s' \/ (r = Dead /\ fr (Some (SetReindexed ByReindex)) s s').
Lemma wp_do_reindex s : INV s -> held s = [] -> wp do_reindex s (post_reindex s).
Proof.
  intros I H0. apply wp_with; auto.
  2: { intros s1 X _ _ _ _. left; left. split; auto. right; eauto. }
  2: { discriminate. }
  intros g s1 X [O M UN UP RO] SC. specialize (RO eq_refl). set (h := lks false true) in *.
  assert (GOOD : forall r s2, endp true r -> G None h s1 s2 ->
     (endp true r /\ exists h2, INV s2 /\ Permutation (held s2) (h ++ h2) /\ forall s3, U (g_obj g) h2 s2 s3 -> post_reindex s r s3)).
  { intros r s2 E Y. split; auto. exists []. rewrite app_nil_r. split; [apply Y|]. split; [apply Y|]. intros s3 Z.
    left; left. split; [eapply endp_ends; eauto|]. eapply after_U; [|exact Z]. eapply J_trans; [apply G_J; exact X | apply G_J; exact Y]. }
  apply wp_bind. destruct (g_scores g) as [c|] eqn:EC.
  2: { unfold reindex. rewrite RO, UP, EC. cbn [negb]. apply wp_bind.
       eapply wp_touch; [apply X | apply X | exact Logic.I | reflexivity |]. intros s2 X2. cbn [cont need]. apply wp_bind.
       unfold wp; cbn. left. apply (GOOD Raise); [left; auto | apply K_G; auto]. }
  assert (exists old, g_index g = Some old) as [old EX].
  { destruct O as [_ O]. rewrite EC in O. destruct (g_index g); [eauto | contradiction]. }
  eapply wp_reindex; [apply X | apply X | exact O | auto | exact EC | exact EX | reflexivity | reflexivity | | |].
  - intros x s2 X2 _ _ _ _. cbn [cont]. apply wp_ret. left. apply GOOD; auto. right; eauto.
  - intros s2 X2. cbn [cont]. apply wp_ret. left. apply GOOD; [right; eauto | apply K_G; auto].
  - intros x s2 X2 _. cbv zeta. apply wp_bind.
    eapply (wp_unlock_segs [] h _ false true true); [apply X2 | apply X2 | rewrite app_nil_r; reflexivity | |].
    { cbn [g_obj]. rewrite (g_fu _ _ _ _ X2); auto. apply O. }
    intros s3 X3 _ _. cbn [cont]. apply wp_ret. cbn [cont]. apply wp_ret. right. split; [right; eauto|].
    assert (HE : held s3 = []) by (apply Permutation_nil, Permutation_sym, (j_held _ _ _ _ (u_j _ _ _ _ X3))).
    split; [rewrite HE; auto|]. right. split; auto.
    eapply fr_trans; [apply X|]. cbn [costly] in X2. eapply fr_trans'; [apply X2 | apply X3].
Qed.
Lemma wp_delete_all h g s (Q : res _ -> st -> Prop) : INV s -> Permutation (held s) h -> avail KList true h = true ->
  g_ro g = false -> g_upd g = true ->
  (forall s', G None h s s' -> scset s' = false -> ixset s' = false -> Q (Ret true) s') -> wp (delete_all g) s Q.
Proof.
  intros I P A R UP H. unfold delete_all. rewrite R, UP. cbn [negb orb]. apply wp_deferred, wp_bind.
  eapply wp_lock; eauto; [exact Logic.I|]. intros s1 X1. cbn [cont].
  apply wp_bind. eapply wp_mono with (Q := fun r s2 => exists b, r = Ret b /\ G None ((KList, true) :: h) s s2).
  { destruct (g_scores g).
    - eapply wp_delete_coll; [apply X1 | apply X1|]. intros b s2 X2 _. exists b. split; auto. eapply KG_trans; eauto.
    - apply wp_ret. exists true. split; auto. apply K_G; auto. }
  intros r s2 (b & -> & X2). cbn [cont].
  apply wp_bind. eapply wp_mono with (Q := fun r s3 => exists b, r = Ret b /\ G None ((KList, true) :: h) s s3).
  { destruct (g_index g).
    - eapply wp_delete_coll; [apply X2 | apply X2|]. intros b' s3 X3 _. exists b'. split; auto. eapply G_trans; eauto.
    - apply wp_ret. exists true. split; auto. }
  intros r s3 (b' & -> & X3). cbn [cont]. apply wp_bind, wp_put. cbn [cont]. apply wp_ret.
  assert (X4 := G_set_list s None _ s3 X3).
  eapply wp_unlock; [apply X4 | apply X4 | reflexivity|]. intros s5 X5. cbn. apply wp_ret. destruct (k_fl _ _ _ _ X5) as (_ & _ & F1 & F2).
  apply H; [eapply GK_trans; eauto | rewrite F1; auto | rewrite F2; auto].
Qed.
Lemma fine_delete_all s : INV s -> held s = [] -> wp do_delete_all s (fine false s).
Proof.
  intros I H0. apply wp_bind. eapply wp_mono with (Q := fun r s' => (exists b, r = Ret b) /\ J None [] s s').
  2: { intros r s' ([b ->] & X). cbn [cont]. apply wp_ret. left. split; auto. right; eauto. }
  apply wp_with; auto.
  2: { intros s1 X _ _ _ _. split; eauto. }
  2: { discriminate. }
  intros g s1 X [O M UN UP RO] SC. specialize (RO eq_refl). set (h := lks false true) in *.
  eapply wp_delete_all; [apply X | apply X | reflexivity | auto | auto |]. intros s2 X2 _ _. left. split; [right; eauto|].
  exists []. rewrite app_nil_r. split; [apply X2|]. split; [apply X2|]. intros s3 Z. split; eauto.
  eapply after_U; [|exact Z]. eapply J_trans; apply G_J; eauto.
Qed.
