(** Proofs for Spec/UnlockSpec.v: Populate and Repair, and all calls together. *)
From Coq Require Import List Bool Arith Lia Permutation.
From Verif.Model Require Import Unlock.
From Verif.Spec Require Import UnlockSpec.
From Verif.Proof Require Import UnlockP UnlockP2 UnlockP3 UnlockP4 UnlockP5 UnlockP6.
Import ListNotations.
Open Scope nat_scope.

(** what newSegments is given, and the locks that come with it *)
Definition xl (o : option segs) : list (lk * bool) := match o with Some _ => lks false true | None => [] end.
Definition xok (o : option segs) : Prop := match o with Some g => g_upd g = true /\ g_ro g = false | None => True end.
Record made (g : segs) (s : st) : Prop := {
  m_ro : g_ro g = false; m_upd : g_upd g = true; m_obj : g_obj g < next s; m_unl : unl s (g_obj g) = CRel false true true
}.
Lemma wp_new_segments h wi xfer s (Q : res _ -> st -> Prop) : INV s -> Permutation (held s) (xl xfer ++ h) -> xok xfer ->
  avail KUpdate true h = true -> avail KSegs true h = true ->
  (forall g sc s', K None (lks false true ++ h) s s' -> made g s' -> next s <= g_obj g -> g_scores g = Some sc -> next s <= sc < next s' ->
     (if wi : bool then exists x, g_index g = Some x /\ next s <= x < next s' /\ x <> sc else g_index g = None) -> Q (Ret g) s') ->
  wp (new_segments wi xfer) s Q.
Proof.
  intros I P O A1 A2 H. unfold new_segments. apply wp_bind.
  eapply wp_mono with (Q := fun r s1 => s1 = s /\ r = Ret xfer).
  { destruct xfer as [g|]; [destruct O as [-> _]|]; apply wp_ret; auto. }
  intros r s1 (-> & ->). cbn [cont].
  apply wp_bind. eapply wp_new_coll; eauto. intros sc s1 X1 -> L1 _. cbn [cont].
  apply wp_bind. eapply wp_mono with (Q := fun r s2 => exists ix, r = Ret ix /\ K None (xl xfer ++ h) s s2 /\ next s1 <= next s2 /\
     if wi then exists x, ix = Some x /\ next s <= x < next s2 /\ x <> next s else ix = None).
  { destruct wi.
    - apply wp_bind. eapply wp_new_coll; [apply X1 | apply X1 |]. intros x s2 X2 -> L2 _. cbn [cont]. apply wp_ret.
      eexists; split; eauto. split; [eapply K_trans; eauto|]. split; [nxt|]. eexists; split; eauto. split; [nxt | lia].
    - apply wp_ret. exists None. auto. }
  intros r s2 (ix & -> & X2 & L2 & E2). cbn [cont].
  apply wp_bind. eapply wp_fresh; [apply X2 | apply X2 |]. intros o s3 X3 -> L3. cbn [cont].
  assert (Y3 := K_trans _ _ _ _ _ _ X2 X3). apply wp_bind, wp_put. cbn [cont]. set (s4 := set_unl_of _ _ _).
  assert (LS : next s <= next s2) by nxt.
  assert (Y4 : K None (xl xfer ++ h) s s4) by (apply set_unl_K; auto).
  assert (U4 : unl s4 (next s2) = CRel false true true) by (cbn; apply upd_eq).
  assert (N4 : next s4 = S (next s2)) by auto. clearbody s4.
  apply wp_bind.
  assert (FIN : forall s5, K None (lks false true ++ h) s s5 -> next s5 = next s4 -> unl s5 = unl s4 ->
                wp (ret (mkG (Some (next s)) ix false true (next s2))) s5 Q).
  { intros s5 X5 N5 U5. apply wp_ret. apply (H _ (next s)); auto.
    - split; cbn; auto; [lia | congruence].
    - split; auto. lia.
    - destruct wi; auto. destruct E2 as (x & -> & ? & ?). exists x. split; auto. split; auto. lia. }
  destruct xfer as [g|].
  - destruct O as [_ ->]. apply wp_ret. cbn [cont]. apply FIN; auto.
  - cbn [xl app] in Y4. apply wp_bind.
    assert (W : forall k w hh s (Q' : res unit -> st -> Prop), INV s -> Permutation (held s) hh -> match k with KSeg _ | KStats _ => False | _ => True end ->
      avail k w hh = true -> (forall s', K None ((k, w) :: hh) s s' -> next s' = next s -> unl s' = unl s -> Q' (Ret tt) s') -> wp (lock k w) s Q').
    { intros k w hh t Q' It Pt Kt At Ht. assert (W : wp (lock k w) t (fun r s' => next s' = next t -> unl s' = unl t -> Q' r s')).
      { eapply wp_lock; eauto. destruct k; try exact Logic.I; contradiction. }
      revert W. unfold wp, lock. destruct (avail k w (held t)); cbn; auto. }
    eapply W; [apply Y4 | apply Y4 | exact Logic.I | auto |]. intros s5 X5 N5 U5. cbn [cont].
    eapply W; [apply X5 | apply X5 | exact Logic.I | apply avail_other; [discriminate | auto] |]. intros s6 X6 N6 U6. cbn [cont].
    apply FIN; try congruence. eapply K_trans; [exact Y4|]. eapply K_trans; [exact X5|]. eapply K_perm; [|exact X6]. perm.
Qed.
Lemma wp_new_seg_G h s c (Q : res _ -> st -> Prop) : INV s -> Permutation (held s) h -> c < next s -> avail (KStats c) true h = true ->
  (forall i s', G None ((KSeg i, true) :: h) s s' -> Q (Ret i) s') -> wp (new_seg c) s Q.
Proof.
  intros I P L A H. eapply wp_new_locked; [auto | exact P | auto | auto |]. intros i s1 X1 -> E1 EC.
  apply wp_bind, wp_put. cbn [cont]. apply wp_ret. apply H.
  assert (NI : forall c', ~ In (next s) (coll s1 c')) by (intros c' J; rewrite EC in J; apply (i_known _ I) in J; lia).
  apply set_coll_G; [apply K_G; auto|]. apply ins_inv; auto; [apply X1 | apply app_nil_r].
Qed.
Lemma made_G t h g s s' : made g s -> G t h s s' -> made g s'.
Proof. intros [] X. pose proof (G_next _ _ _ _ X). split; auto; [lia|]. rewrite (g_fu _ _ _ _ X); auto. Qed.
Lemma wp_init_empty xfer s (Q : res _ -> st -> Prop) : INV s -> Permutation (held s) (xl xfer) -> xok xfer ->
  (forall g ok s', G None (lks false true) s s' -> made g s' -> Q (Ret (g, ok)) s') -> wp (init_empty xfer) s Q.
Proof.
  intros I P O H. unfold init_empty. apply wp_bind. eapply (wp_new_segments []); [auto | rewrite app_nil_r; auto | auto | auto | auto |].
  intros g sc s1 X1 M1 LO ES LS (x & EX & LX & NX). rewrite app_nil_r in X1. cbn [cont]. rewrite ES, EX. cbn [need].
  set (h := lks false true) in *. assert (N : plain h) by reflexivity.
  assert (FIN : forall ok s2, G None h s1 s2 -> wp (ret (g, ok)) s2 Q).
  { intros ok s2 X2. apply wp_ret. apply H; [eapply KG_trans; eauto | eapply made_G; eauto]. }
  apply wp_bind, wp_ret. cbn [cont].
  apply wp_bind. eapply (wp_new_seg_G h); [apply X1 | apply X1 | lia | auto |]. intros i s2 X2. cbn [cont].
  apply wp_bind. eapply wp_replace_seg; [apply X2 | apply X2 | reflexivity | nxt | auto |]. intros ok s3 X3. cbn [cont costly] in *.
  rewrite andb_false_r in X3. assert (Y3 := GK_trans _ _ _ _ _ _ X2 X3). destruct ok; [|auto].
  apply wp_bind, wp_ret. cbn [cont].
  apply wp_bind. eapply (wp_new_seg_G h); [apply X3 | apply X3 | nxt | auto |]. intros i' s4 X4. cbn [cont].
  apply wp_bind. eapply wp_replace_seg; [apply X4 | apply X4 | reflexivity | nxt | auto |]. intros ok s5 X5. cbn [cont costly] in *.
  rewrite andb_false_r in X5. assert (Y5 := G_trans _ _ _ _ _ _ Y3 (GK_trans _ _ _ _ _ _ X4 X5)). destruct ok; [|auto].
  assert (O5 : gok g s5). { split; [destruct M1; nxt|]. rewrite ES, EX. repeat split; try nxt; auto. }
  apply wp_bind. eapply wp_save_segments; [apply X5 | apply X5 | auto | apply M1 | auto | reflexivity |]. intros ok s6 X6 _. cbn [cont costly] in *.
  rewrite andb_false_r in X6. assert (Y6 := G_trans _ _ _ _ _ _ Y5 X6). destruct ok; [|auto].
  apply wp_bind. eapply (wp_keep h). { apply keep_verify; auto; [eapply gok_mono; eauto; nxt | right; congruence]. } 1,2: apply X6.
  intros ok s7 X7. cbn [cont]. apply FIN. eapply GK_trans; eauto.
Qed.
Lemma wp_populate o s (Q : res _ -> st -> Prop) : INV s -> Permutation (held s) (xl o) -> xok o ->
  (forall g ok s', G None (lks false true) s s' -> made g s' -> Q (Ret (Some g, ok)) s') ->
  (forall g s', J (Some SetPopIndex) [(KList, true)] s s' -> unl s' (g_obj g) = CLog -> Q (Ret (Some g, false)) s') ->
  wp (populate o) s Q.
Proof.
  intros I P O H1 H2. unfold populate.
  assert (AL : forall w, avail KList w (xl o) = true) by (destruct o; reflexivity).
  apply wp_bind. eapply wp_touch; [auto | exact P | exact Logic.I | auto |]. intros s1 X1. cbn [cont].
  apply wp_bind, wp_get. cbn [cont]. apply wp_bind, wp_get. cbn [cont]. apply wp_bind.
  eapply wp_mono with (Q := fun r s2 => r = Ret true /\ G None (xl o) s s2).
  { destruct o as [g|].
    - destruct (scset s1 || ixset s1).
      + eapply wp_delete_all; [apply X1 | apply X1 | reflexivity | apply O | apply O |]. intros s2 X2 _ _. split; auto. eapply KG_trans; eauto.
      + apply wp_ret. split; auto. apply K_G; auto.
    - apply wp_ret. split; auto. apply K_G; auto. }
  intros r s2 (-> & X2). cbn [cont]. clear X1 s1.
  apply wp_bind. eapply wp_pickb; [apply X2 | apply X2 |]. intros none s3 X3. cbn [cont]. assert (Y3 := GK_trans _ _ _ _ _ _ X2 X3).
  destruct none.
  { apply wp_bind. eapply wp_init_empty; [apply X3 | apply X3 | auto |]. intros g ok s4 X4 M4. cbn [cont fst snd]. apply wp_ret.
    apply H1; auto. eapply G_trans; eauto. }
  apply wp_bind. eapply wp_lock; [apply X3 | apply X3 | exact Logic.I | auto |]. intros s4 X4. cbn [cont]. assert (Y4 := GK_trans _ _ _ _ _ _ Y3 X4).
  apply wp_bind. eapply (wp_new_segments [(KList, true)]); [apply X4 | | auto | reflexivity | reflexivity |].
  { rewrite (k_held _ _ _ _ X4). apply Permutation_cons_append. }
  intros g sc s5 X5 M5 LO ES LS EI. cbn [cont]. assert (Y5 := GK_trans _ _ _ _ _ _ Y4 X5).
  set (h := lks false true) in *. assert (N : plain h) by reflexivity.
  assert (N' : plain (h ++ [(KList, true)])) by reflexivity.
  assert (PH : Permutation (h ++ [(KList, true)]) ((KList, true) :: h)) by (symmetry; apply Permutation_cons_append).
  apply wp_bind. eapply (wp_nse (h ++ [(KList, true)])); [apply X5 | apply X5 | auto | |].
  2: { intros s6 X6. cbn [cont costly] in *. apply wp_bind. eapply wp_unlock; [apply X6 | apply X6 | exact PH |]. intros s7 X7. cbn [cont].
       apply wp_ret. assert (Z7 := K_trans _ _ _ _ _ _ X6 X7). apply H1; [eapply GK_trans; eauto|]. eapply made_G; [eauto|]. apply K_G; eauto. }
  intros c s6 X6 L6 L6'. cbn [cont]. cbv zeta. destruct M5 as [M5 M5' M5a M5b].
  apply wp_bind. eapply (wp_nse (h ++ [(KList, true)])); [apply X6 | apply X6 | auto | |].
  2: { intros s7 X7. cbn [cont costly] in *. apply wp_bind. assert (Z7 := K_trans _ _ _ _ _ _ X6 X7).
       eapply (wp_unlock_segs [(KList, true)] _ _ false true true); [apply X7 | apply X7 | reflexivity | |].
       { cbn [g_obj]. rewrite (k_fu _ _ _ _ Z7); auto. }
       intros s8 X8 C8 _. cbn [cont]. apply wp_ret. apply H2; [|apply C8; auto].
       eapply J_trans'; [|apply X8]. eapply J_trans; [apply G_J; exact Y5 | apply G_J, K_G; exact Z7]. }
  intros x s7 X7 L7 L7'. cbn [cont]. cbv zeta. assert (Z7 := K_trans _ _ _ _ _ _ X6 X7).
  apply wp_bind. eapply wp_unlock; [apply X7 | apply X7 | exact PH |]. intros s8 X8. cbn [cont].
  set (g2 := mkG (Some c) (Some x) (g_ro g) (g_upd g) (g_obj g)).
  assert (Z8 := K_trans _ _ _ _ _ _ Z7 X8). assert (Y8 := GK_trans _ _ _ _ _ _ Y5 Z8).
  assert (M8 : made g2 s8). { apply made_G with (t := None) (h := h) (s := s5); [split; auto | apply K_G; auto]. }
  assert (O8 : gok g2 s8). { split; [apply M8|]. cbn. repeat split; nxt. }
  assert (FIN : forall ok s9, G None h s8 s9 -> wp (ret (Some g2, ok)) s9 Q).
  { intros ok s9 X9. apply wp_ret. apply H1; [eapply G_trans; eauto | eapply made_G; eauto]. }
  apply wp_bind. eapply wp_pickb; [apply X8 | apply X8 |]. intros more s9 X9. cbn [cont].
  apply wp_bind. eapply wp_mono with (Q := fun r s10 => exists ok, r = Ret ok /\ G None h s8 s10).
  { destruct more; [|apply wp_ret; exists true; split; auto; apply K_G; auto].
    apply wp_bind. eapply wp_update_segments; [apply X9 | apply X9 | eapply gok_mono; eauto; nxt | auto |]. intros s10 X10 N10 _ _. cbn [cont].
    eapply (wp_keep h). { apply keep_insert_all; auto; [eapply gok_mono; eauto; nxt | right; discriminate]. } 1,2: apply X10.
    intros ok s11 X11. exists ok. split; auto. eapply KG_trans; [eauto|]. eapply GK_trans; eauto. }
  intros r s10 (ok & -> & X10). cbn [cont]. destruct ok; [|auto].
  apply wp_bind. eapply wp_update_segments; [apply X10 | apply X10 | eapply gok_mono; eauto; nxt | auto |]. intros s11 X11 N11 _ _. cbn [cont].
  assert (Y11 := G_trans _ _ _ _ _ _ X10 X11).
  apply wp_bind. eapply wp_save_segments; [apply X11 | apply X11 | eapply gok_mono; eauto; nxt | auto | auto | reflexivity |].
  intros ok s12 X12 _. cbn [cont costly] in *. rewrite andb_false_r in X12. assert (Y12 := G_trans _ _ _ _ _ _ Y11 X12). destruct ok; [|auto].
  apply wp_bind. eapply (wp_keep h). { apply keep_verify; auto; [eapply gok_mono; eauto; nxt | right; discriminate]. } 1,2: apply X12.
  intros ok s13 X13. cbn [cont]. apply FIN. eapply GK_trans; eauto.
Qed.
Definition post_pop (s : st) (r : res bool) (s' : st) : Prop :=
  fine false s r s' \/ (r = Ret false /\ J (Some SetPopIndex) [(KList, true)] s s').
(** the end of Populate and Repair *)
Lemma wp_pop_end o s0 h0 s (Q : res _ -> st -> Prop) : J None h0 s0 s -> Permutation h0 (xl o) -> xok o ->
  (forall r s', post_pop s0 r s' -> Q r s') ->
  wp (r <- populate o;; match fst r with Some g => unlock_segs g | None => ret tt end;; ret (snd r)) s Q.
Proof.
  intros X P O H. apply wp_bind. eapply wp_populate; [apply X | rewrite (j_held _ _ _ _ X); exact P | auto | |].
  - intros g ok s1 X1 M1. cbn [cont fst snd]. apply wp_bind.
    eapply (wp_unlock_segs [] _ _ false true true); [apply X1 | apply X1 | rewrite app_nil_r; reflexivity | apply M1 |].
    intros s2 X2 _ _. cbn [cont]. apply wp_ret. apply H. left; left. split; [right; eauto|].
    eapply J_trans; [exact X|]. eapply J_trans; [apply G_J; exact X1 | apply X2].
  - intros g s1 X1 U1. cbn [cont fst snd]. apply wp_bind. apply wp_bind, wp_get. cbn [cont]. rewrite U1. apply wp_ret. cbn [cont].
    apply wp_ret. apply H. right. split; auto. eapply J_trans; eauto.
Qed.
Lemma wp_do_populate s : INV s -> held s = [] -> wp do_populate s (post_pop s).
Proof.
  intros I H0. unfold do_populate. apply wp_bind.
  eapply (wp_load []); [auto | rewrite H0; auto | reflexivity | reflexivity | reflexivity | reflexivity | auto | auto | | |].
  - intros g s1 X1 LD _ _ _. cbn [cont]. rewrite app_nil_r in X1.
    eapply (wp_pop_end (Some g)); [apply G_J; exact X1 | reflexivity | split; apply LD; auto | auto].
  - intros s1 X1 _ _ _ _. cbn [cont]. eapply (wp_pop_end None); [exact X1 | reflexivity | exact Logic.I | auto].
  - discriminate.
Qed.
Definition post_repair (s : st) (r : res bool) (s' : st) : Prop :=
  post_pop s r s' \/ (r = Raise /\ exists k, l_sc s' = Some k /\ J None [(KList, true); (KStats k, true)] s s' /\ unread s s').
(** what Stats tells Repair *)
Lemma wp_stats_told s : INV s -> held s = [] ->
  wp (do_stats false) s (fun r s' => J None [] s s' /\
     ((r = Ret true /\ l_sc s' <> None) \/ (r = Ret false /\ scset s' = true /\ unread s s') \/ r = Raise)).
Proof.
  intros I H0. apply wp_with; auto.
  - intros g s1 X1 LD SC. assert (LD' := LD). destruct LD as [O M _ _ _].
    destruct (g_scores g) as [c|] eqn:EC; cbn [need].
    2: { apply wp_bind. unfold wp at 1; cbn. left. split; [left; auto|]. exists []. split; [apply X1|]. split; [apply X1|].
         intros s2 X2. split; auto. eapply J_trans; [apply G_J; exact X1 | apply X2]. }
    assert (exists x, g_index g = Some x) as [x EX].
    { destruct O as [_ O]. rewrite EC in O. destruct (g_index g); [eauto | contradiction]. }
    apply wp_bind, wp_ret. cbn [cont]. apply wp_bind.
    eapply wp_touch; [apply X1 | apply X1 | apply (gok_scores _ _ _ O EC) | reflexivity |]. intros s2 X2. cbn [cont]. rewrite EX. cbn [need].
    apply wp_bind, wp_ret. cbn [cont]. apply wp_ret. left. split; [right; eauto|]. exists []. rewrite app_nil_r. split; [apply X2|]. split; [apply X2|].
    intros s3 X3. split.
    + eapply J_trans; [apply G_J; exact X1|]. eapply J_trans; [apply G_J, K_G; exact X2 | apply X3].
    + left. split; auto. destruct (U_fl _ _ _ _ X3) as (F & _). destruct (k_fl _ _ _ _ X2) as (F' & _). destruct M as (M & _).
      rewrite F, F', M, EC. discriminate.
  - intros s1 X1 SC LN UR FL. split; auto. right; left. split; auto. destruct (FL eq_refl) as (_ & _ & F & _). rewrite F. auto.
  - discriminate.
Qed.
Lemma wp_do_repair s : INV s -> held s = [] -> wp do_repair s (post_repair s).
Proof.
  intros I H0. unfold do_repair. apply wp_bind. eapply wp_mono; [apply wp_stats_told; auto|].
  intros r s1 (X1 & T). destruct T as [(-> & T) | [T | ->]].
  3: { cbn [cont]. left; left; left. split; auto. left; auto. }
  1: assert (exists st0 : bool, Ret true = Ret st0 /\ ((st0 = true /\ l_sc s1 <> None) \/ (st0 = false /\ scset s1 = true /\ unread s s1))) as (b & E & TT)
    by (exists true; auto); rewrite E; clear E T.
  2: assert (exists st0 : bool, r = Ret st0 /\ ((st0 = true /\ l_sc s1 <> None) \/ (st0 = false /\ scset s1 = true /\ unread s s1))) as (b & -> & TT)
    by (exists false; intuition); clear T.
  1, 2: cbn [cont]; apply wp_bind; eapply wp_touch; [apply X1 | apply X1 | exact Logic.I | reflexivity |]; intros s2 X2; cbn [cont];
    assert (Y2 : J None [] s s2) by (eapply J_trans; [exact X1 | apply G_J, K_G; exact X2]);
    assert (FL2 := k_fl _ _ _ _ X2); destruct FL2 as (F1 & F2 & F3 & F4);
    apply wp_bind; eapply (wp_load []); [apply X2 | apply X2 | reflexivity | reflexivity | reflexivity | reflexivity | auto | auto | | | discriminate].
  2, 4: intros s3 X3 _ _ _ _; cbn [cont]; apply wp_bind; eapply wp_pickb; [apply X3 | apply X3 |]; intros cl s4 X4; cbn [cont];
    assert (Y4 : J None [] s s4) by (eapply J_trans; [exact Y2 | eapply J_trans; [exact X3 | apply G_J, K_G; exact X4]]);
    apply wp_bind, wp_get; cbn [cont];
    (destruct (cl && match l_sc s4 with None => true | Some _ => false end); [|apply wp_ret; left; left; left; split; [right; eauto | auto]]);
    apply wp_bind; eapply (wp_init_empty None); [apply X4 | apply X4 | exact Logic.I |]; intros g ok s5 X5 M5; cbn [cont fst snd];
    apply wp_bind; eapply (wp_unlock_segs [] _ _ false true true); [apply X5 | apply X5 | rewrite app_nil_r; reflexivity | apply M5 |];
    intros s6 X6 _ _; cbn [cont]; apply wp_ret; left; left; left; split; [right; eauto|];
    eapply J_trans; [exact Y4|]; eapply J_trans; [apply G_J; exact X5 | apply X6].
  1, 2: intros g s3 X3 LD LO SC KK; rewrite app_nil_r in X3; cbn [cont];
    assert (Y3 : J None (lks false true) s s3) by (eapply J_trans; [exact Y2 | apply G_J; exact X3]);
    assert (exists c, g_scores g = Some c) as [c EC].
  1, 3: destruct TT as [(_ & TT) | (_ & TT & _)];
    [ destruct (g_scores g) eqn:E; eauto; exfalso; rewrite F1 in KK; destruct (KK TT) as (KX & _); destruct (k_fl _ _ _ _ KX) as (FF & _);
      destruct (ld_match _ _ _ _ LD) as (MM & _); congruence
    | rewrite F3 in SC; destruct (g_scores g) eqn:E; eauto; exfalso; apply SC; auto ].
  1, 2: match goal with |- wp (fun s => match ?m s with _ => _ end) _ _ => set (mm := m) end;
    assert (Lc := gok_scores _ _ _ (ld_ok _ _ _ _ LD) EC);
    (assert (W : wp mm s3 (fun r s4 =>
       (exists g' ok, r = Ret (Some g', ok) /\ G None (lks false true) s3 s4 /\ made g' s4)
       \/ (exists g', r = Ret (Some g', false) /\ J (Some SetPopIndex) [(KList, true)] s3 s4 /\ unl s4 (g_obj g') = CLog)
       \/ (r = Raise /\ b = false /\ K None ((KStats c, true) :: (KList, true) :: lks false true) s3 s4))));
    [ unfold mm; clear mm; apply wp_bind; eapply wp_lock; [apply X3 | apply X3 | exact Logic.I | reflexivity |]; intros s4 X4; cbn [cont];
      rewrite EC; cbn [need]; apply wp_bind, wp_ret; cbn [cont];
      apply wp_bind; eapply wp_lock; [apply X4 | apply X4 | cbn [known]; nxt | reflexivity |]; intros s5 X5; cbn [cont];
      assert (Y5 := K_trans _ _ _ _ _ _ X4 X5);
      apply wp_bind; destruct b; [| unfold wp; cbn; right; right; auto ];
      apply wp_ret; cbn [cont]; apply wp_bind, wp_get; cbn [cont]; apply wp_bind;
      eapply (wp_keep ((KStats c, true) :: (KList, true) :: lks false true));
      [ apply keep_all_of; intros i s6 X6 J6; apply keep_reading; [pose proof (i_known _ (k_inv _ _ _ _ X5) _ _ J6); nxt | reflexivity | intros; kp]
      | apply X5 | apply X5 | ];
      intros u6 s6 X6; cbn [cont]; assert (Y6 := K_trans _ _ _ _ _ _ Y5 X6);
      apply wp_bind; eapply (wp_unlock KList true ((KStats c, true) :: lks false true)); [apply X6 | apply X6 | apply perm_swap |]; intros s7 X7; cbn [cont];
      apply wp_bind; eapply wp_unlock; [apply X7 | apply X7 | reflexivity |]; intros s8 X8; cbn [cont];
      assert (Y8 := K_trans _ _ _ _ _ _ Y6 (K_trans _ _ _ _ _ _ X7 X8));
      eapply (wp_populate (Some g)); [apply X8 | apply X8 | split; apply LD; auto | | ];
      [ intros g' ok s9 X9 M9; left; exists g', ok; split; auto; split; auto; eapply KG_trans; eauto
      | intros g' s9 X9 U9; right; left; exists g'; split; auto; split; auto; eapply J_trans; [apply G_J, K_G; exact Y8 | auto] ]
    | ].
  1, 2: clearbody mm; revert W; unfold wp; destruct (mm s3) as [r4 s4] eqn:EM; cbn [fst snd];
    intros [(g' & ok & -> & X4 & M4) | [(g' & -> & X4 & U4) | (-> & -> & X4)]].
  1, 4: change (wp (unlock_segs g';; ret ok) s4 (post_repair s)); apply wp_bind;
    eapply (wp_unlock_segs [] _ _ false true true); [apply X4 | apply X4 | rewrite app_nil_r; reflexivity | apply M4 |];
    intros s5 X5 _ _; cbn [cont]; apply wp_ret; left; left; left; split; [right; eauto|];
    eapply J_trans; [exact Y3|]; eapply J_trans; [apply G_J; exact X4 | apply X5].
  1, 3: change (wp (unlock_segs g';; ret false) s4 (post_repair s)); apply wp_bind, wp_bind, wp_get; cbn [cont]; rewrite U4; apply wp_ret; cbn [cont];
    apply wp_ret; left; right; split; auto; eapply J_trans; [exact Y3 | exact X4].
  1, 2: change (wp (unlock_segs g;; raise) s4 (post_repair s)); apply wp_bind;
    eapply (wp_unlock_segs [(KList, true); (KStats c, true)] _ _ false true true); [apply X4 | apply X4 | | | ];
    [ perm
    | rewrite (k_fu _ _ _ _ X4); [apply LD | apply LD]
    | intros s5 X5 _ _; cbn [cont]; unfold wp; cbn; right; split; auto; exists c;
      destruct (U_fl _ _ _ _ X5) as (F5 & _); destruct (k_fl _ _ _ _ X4) as (F5' & _); destruct (ld_match _ _ _ _ LD) as (MM & _);
      split; [congruence|]; split;
      [ eapply J_trans; [exact Y3|]; eapply J_trans; [apply G_J, K_G; exact X4 | apply X5]
      | destruct TT as [(TT & _) | (_ & _ & TT)]; [discriminate|];
        eapply unread_more; [exact TT|]; eapply fr_trans; [apply X2|]; eapply fr_trans; [apply X3|]; eapply fr_trans; [apply X4 | apply X5] ] ].
Qed.

(** ** all calls *)
Lemma since_app a b : since b (a ++ b) = a.
Proof. unfold since. rewrite app_length, Nat.add_sub, firstn_app, Nat.sub_diag, firstn_all. cbn. apply app_nil_r. Qed.
Lemma fr_lost t s s' : fr t s s' -> lost (since (acc s) (acc s')) = t.
Proof. intros [_ _ _ (n & E & L)]. rewrite E, since_app. exact L. Qed.
Lemma unread_in s s' : unread s s' -> In (GetScores, false) (since (acc s) (acc s')) \/ In (GetIndex, false) (since (acc s) (acc s')).
Proof. intros (n & E & L). rewrite E, since_app. exact L. Qed.
Lemma J_settled s s' : J None [] s s' -> settled s'.
Proof. intros [[] P _]. apply Permutation_sym, Permutation_nil in P. split; auto. Qed.
Lemma settled_INV s : settled s -> INV s.
Proof. intros []. split; auto; rewrite s_free; intros ? ? []. Qed.
Lemma perm_one {A} (l : list A) x : Permutation l [x] -> l = [x].
Proof. intros P. apply Permutation_sym, Permutation_length_1_inv in P. auto. Qed.

Definition told (c : call) (s : st) (r : res bool) (s' : st) : Prop := (exists t, fr t s s') /\ leaves c s r s'.
Lemma fine_leaves c u s r s' : (u = true -> costs c (SetReindexed ByRead) = true) -> fine u s r s' -> told c s r s'.
Proof.
  intros U [(E & X) | (-> & -> & F)]; (split; [eexists; first [apply X | apply F]|]); unfold leaves.
  - rewrite (fr_lost _ _ _ (j_fr _ _ _ _ X)). left. split; auto. eapply J_settled; eauto.
  - rewrite (fr_lost _ _ _ F). auto.
Qed.
Lemma pop_leaves c s r s' : c = Populate \/ c = Repair -> post_pop s r s' -> told c s r s'.
Proof.
  intros C [F | (-> & X)]; [apply (fine_leaves _ false); [discriminate | exact F]|]. split; [eexists; apply X|]. unfold leaves.
  rewrite (fr_lost _ _ _ (j_fr _ _ _ _ X)). split; [destruct C as [-> | ->]; reflexivity|]. split; auto. apply perm_one, X.
Qed.
Lemma run_told c s : settled s -> told c s (fst (run c s)) (snd (run c s)).
Proof.
  intros S. assert (I := settled_INV _ S). assert (H0 := s_free _ S).
  change (wp (run c) s (told c s)).
  assert (F0 : forall m, wp m s (fine false s) -> wp m s (told c s)) by (intros m W; eapply wp_mono; [exact W|]; intros r s'; apply fine_leaves; discriminate).
  assert (F1 : costs c (SetReindexed ByRead) = true -> forall m, wp m s (fine true s) -> wp m s (told c s))
    by (intros U m W; eapply wp_mono; [exact W|]; intros r s'; apply fine_leaves; auto).
  destruct c; cbn [run].
  - eapply wp_mono; [apply wp_do_populate; auto|]. intros r s'. apply pop_leaves; auto.
  - apply F0, fine_len; auto.
  - apply F0, fine_stats; auto.
  - apply F0, fine_top; auto.
  - apply F0, fine_score; auto.
  - apply F0, fine_percentile; auto.
  - apply F0, fine_get; auto.
  - apply F1; [reflexivity|]; apply fine_update; auto.
  - apply F1; [reflexivity|]; apply fine_delete; auto.
  - apply F1; [reflexivity|]; apply fine_insert; auto.
  - apply F0, fine_verify; auto.
  - apply F1; [reflexivity|]; apply fine_verify_elements; auto.
  - eapply wp_mono; [apply wp_do_reindex; auto|]. intros r s' [F | (-> & F)]; [apply (fine_leaves _ false); [discriminate | exact F]|].
    split; [eexists; apply F|]. unfold leaves. rewrite (fr_lost _ _ _ F). auto.
  - apply F0, fine_delete_all; auto.
  - apply F0, fine_release; auto.
  - eapply wp_mono; [apply wp_do_repair; auto|]. intros r s' [F | (-> & k & E & X & UR)]; [apply pop_leaves; auto|].
    split; [eexists; apply X|].
    unfold leaves. rewrite (fr_lost _ _ _ (j_fr _ _ _ _ X)). right. split; auto. split; auto. split; [exists k; split; auto; apply X|].
    apply unread_in; auto.
  - eapply wp_mono; [apply wp_backup; auto|]. intros r s' [F | (-> & k & X & E)]; [apply (fine_leaves _ true); [auto | exact F]|].
    split; [eexists; apply X|].
    unfold leaves. rewrite (fr_lost _ _ _ (j_fr _ _ _ _ X)). split; auto. split; auto. exists k. split; auto. apply perm_one, X.
  - eapply wp_mono; [apply wp_do_split; auto|]. intros r s' [F | (-> & k & j & X & E & Jj)]; [apply (fine_leaves _ false); [discriminate | exact F]|].
    split; [eexists; apply X|].
    unfold leaves. rewrite (fr_lost _ _ _ (j_fr _ _ _ _ X)). split; auto. split; auto. exists k, j. split; auto. split; auto. apply perm_one, X.
Qed.
Lemma run_leaves c s : settled s -> leaves c s (fst (run c s)) (snd (run c s)).
Proof. intros S. apply run_told; auto. Qed.

(** ** one call after the other *)
Lemma calls_run l : forall s, settled s -> calm l s -> ends (fst (run_calls l s)) /\ settled (snd (run_calls l s)).
Proof.
  induction l as [|c l IH]; intros s S C.
  - cbn. split; auto. right; eauto.
  - destruct C as (C1 & C2 & C3). pose proof (run_leaves c s S) as L. unfold leaves in L. rewrite C1 in L.
    destruct L as [(E & S') | (-> & _ & _ & X)]; [|destruct (C2 eq_refl), X; contradiction].
    cbn [run_calls]. destruct (run c s) as [r s'] eqn:ER. cbn [fst snd] in *.
    destruct E as [-> | [a ->]]; apply IH; auto.
Qed.
