(** What a server keeps of its lists: the theorems of C62. *)
From Coq Require Import Strings.String Strings.Ascii.
From Verif.Lib Require Import Prelude ListAux ListLemmas Perm Bytes.
From Verif.Model Require Import Element Elements Segment List Msgp Codec Keys Storage ListFile.
From Verif.Spec Require Import RankSpec QuerySpec HistorySpec AnswerSpec KeySpec CodecSpec StorageSpec ListFileSpec.
From Verif.Proof Require Import InvDef SplitP HistoryP ListThm StoreP StoreOps StoreBuild StoreWorld StoreThm StoreFinal ListFileCore ListFileP.
Open Scope N_scope.

Lemma sys_eta s : s = mkY (y_st s) (y_c s) (y_open s) (y_cold s) (y_file s) (y_save s).
Proof. destruct s; reflexivity. Qed.

(** ** reading *)
Lemma ok_readable cfg s id d y : In (id, d) (y_open s) -> ok_at cfg (y_st s) (y_c s) d y -> fit_entry (snd y) ->
  readable s id (fst (fst (snd y))) (snd (fst (snd y))) (snd (snd y)).
Proof.
  destruct y as (l & e). intros Hin (A & B & C) F. exists d, l. split; [exact Hin|]. split; [eapply ok_view; eauto|]. split; [exact A|].
  intros r Hr. eapply reach_answers; eauto.
Qed.
Lemma open_readable cfg s sp id : serves cfg s sp -> In id (map fst (y_open s)) -> exists g z m, sp id = Some (g, z, m) /\ readable s id g z m.
Proof.
  intros HS Hid. destruct (serves_inv _ _ _ HS) as (G & ys & HI). apply in_map_iff in Hid as ((id' & d) & E & Hp). cbn [fst] in E. subst id'.
  destruct (Forall2_In_l _ _ _ _ (inv_opens _ _ _ _ _ HI) Hp) as ((l & ((g & z) & m)) & _ & (H1 & (H2 & _) & H3)). exists g, z, m. split; [exact H2|].
  apply (ok_readable _ _ _ _ _ Hp H1 H3).
Qed.
Lemma next_open cfg s id lock n0 ni now sc : next cfg s (EOpen id lock n0 ni now sc) =
  match find_desc id (y_cold s) with
  | Some x =>
    match open_list cfg (y_st s) x with
    | Ready d => Some (mkY (y_st s) (y_c s) (y_open s ++ [(id, d)]) (drop_cold id (y_cold s)) (y_file s) (y_save s))
    | NoIndex ss =>
      if lock then match rebuild cfg (y_st s) (y_c s) x ss n0 ni now sc with
                   | Some (st, c, d) => Some (mkY st c (y_open s ++ [(id, d)]) (drop_cold id (y_cold s)) (y_file s) (y_save s))
                   | None => None
                   end
      else Some s
    | Failed | Nil => Some s
    end
  | None => None
  end.
Proof. destruct s; reflexivity. Qed.

Theorem c62_current cfg s sp id g z m : serves cfg s sp -> sp id = Some (g, z, m) ->
  readable s id g z m \/
  forall n0 ni now sc, event_ok s sp (EOpen id true n0 ni now sc) ->
    (exists s', next cfg s (EOpen id true n0 ni now sc) = Some s' /\ serves cfg s' sp /\ readable s' id g z m) \/
    exists l, reachable g z l m /\ step l (OReindex ni now sc) = Exhausted.
Proof.
  intros HS Es. destruct (in_dec string_dec id (map fst (y_open s))) as [Hi|Hi].
  { left. destruct (open_readable _ _ _ _ HS Hi) as (g' & z' & m' & E & H). rewrite Es in E. injection E as <- <- <-. exact H. }
  right. intros n0 ni now sc Hok. destruct (serves_inv _ _ _ HS) as (G & ys & HI).
  assert (Hc : exists x, In x (y_cold s) /\ ds_id x = id).
  { destruct (in_dec string_dec id (ids s)) as [H|H]; [|destruct (v_none _ _ _ _ _ HI id H); congruence].
    rewrite ids_split in H. apply in_app_iff in H as [H|H]; [contradiction|]. apply in_map_iff in H as (x & E & Hx). eauto. }
  destruct Hc as (x & Hx & <-).
  assert (Ef : find_desc (ds_id x) (y_cold s) = Some x).
  { apply find_desc_of; [|exact Hx]. pose proof (c_ids _ _ (v_core _ _ _ _ _ HI)) as H. rewrite ids_split in H. apply NoDup_app_iff in H. tauto. }
  assert (Hend : forall s', next cfg s (EOpen (ds_id x) true n0 ni now sc) = Some s' -> In (ds_id x) (map fst (y_open s')) ->
    exists s', next cfg s (EOpen (ds_id x) true n0 ni now sc) = Some s' /\ serves cfg s' sp /\ readable s' (ds_id x) g z m).
  { intros s' E Hin. assert (HS' : serves cfg s' sp) by (eapply (V_next cfg cfg s sp (EOpen (ds_id x) true n0 ni now sc)); eauto).
    exists s'. split; [exact E|]. split; [exact HS'|]. destruct (open_readable _ _ _ _ HS' Hin) as (g' & z' & m' & E' & H). rewrite Es in E'. injection E' as <- <- <-. exact H. }
  pose proof (v_cold _ _ _ _ _ HI x Hx) as Hc. unfold cold_ok in Hc. destruct (G (ds_id x)) as [([|] & l)|] eqn:Eg; [| |congruence]; destruct Hc as (e & Es' & Ht).
  - left. eapply Hend; [rewrite next_open, Ef, (open_full _ _ _ _ _ _ Ht); reflexivity|]. cbn [y_open]. rewrite map_app. apply in_or_app. right. left. reflexivity.
  - rewrite Es in Es'. injection Es' as <-. destruct (c_bare _ _ (v_core _ _ _ _ _ HI) x l (cold_desc _ _ Hx) Eg) as (P & Ei & _).
    pose proof (open_bare _ _ _ _ _ _ Ht P Ei) as Eo. pose proof Hok as (_ & _ & _ & Hop). specialize (Hop _ _ _ Es).
    pose proof (reach_reload _ _ _ _ (t_reach _ _ _ _ _ _ _ Ht)) as HR. cbn [fst snd] in HR.
    destruct (step_ok _ _ _ _ _ (reach_inv _ _ _ _ HR) Hop) as [C|(l' & El & _)]; [right; eauto|]. left.
    eapply Hend; [rewrite next_open, Ef, Eo, (rebuild_result _ _ _ _ _ _ _ _ _ _ Ht), El; reflexivity|]. cbn [y_open]. rewrite map_app. apply in_or_app. right. left. reflexivity.
Qed.

(** a reader without the update lock *)
Theorem c62_read cfg s sp id g z m n0 ni now sc : serves cfg s sp -> sp id = Some (g, z, m) -> ~ In id (map fst (y_open s)) ->
  exists s', next cfg s (EOpen id false n0 ni now sc) = Some s' /\ serves cfg s' sp /\
    (readable s' id g z m \/ s' = s /\ exists x, In x (y_cold s) /\ ds_id x = id /\ y_st s (lit (ds_index x)) = None).
Proof.
  intros HS Es Hi. destruct (serves_inv _ _ _ HS) as (G & ys & HI).
  assert (Hc : exists x, In x (y_cold s) /\ ds_id x = id).
  { destruct (in_dec string_dec id (ids s)) as [H|H]; [|destruct (v_none _ _ _ _ _ HI id H); congruence].
    rewrite ids_split in H. apply in_app_iff in H as [H|H]; [contradiction|]. apply in_map_iff in H as (x & E & Hx). eauto. }
  destruct Hc as (x & Hx & <-).
  assert (Ef : find_desc (ds_id x) (y_cold s) = Some x).
  { apply find_desc_of; [|exact Hx]. pose proof (c_ids _ _ (v_core _ _ _ _ _ HI)) as H. rewrite ids_split in H. apply NoDup_app_iff in H. tauto. }
  assert (Hn : forall s', next cfg s (EOpen (ds_id x) false n0 ni now sc) = Some s' -> serves cfg s' sp).
  { intros s' E. eapply (V_next cfg cfg s sp (EOpen (ds_id x) false n0 ni now sc)); eauto. exact Logic.I. }
  pose proof (v_cold _ _ _ _ _ HI x Hx) as Hc. unfold cold_ok in Hc. destruct (G (ds_id x)) as [([|] & l)|] eqn:Eg; [| |congruence]; destruct Hc as (e & Es' & Ht).
  - eexists. split; [rewrite next_open, Ef, (open_full _ _ _ _ _ _ Ht); reflexivity|].
    match goal with |- serves _ ?s0 _ /\ _ => assert (HS' : serves cfg s0 sp) by (apply Hn; rewrite next_open, Ef, (open_full _ _ _ _ _ _ Ht); reflexivity) end.
    split; [exact HS'|]. left. destruct (open_readable _ _ _ (ds_id x) HS') as (g' & z' & m' & E' & H).
    { cbn [y_open]. rewrite map_app. apply in_or_app. right. left. reflexivity. }
    rewrite Es in E'. injection E' as <- <- <-. exact H.
  - destruct (c_bare _ _ (v_core _ _ _ _ _ HI) x l (cold_desc _ _ Hx) Eg) as (P & Ei & _). exists s.
    split; [rewrite next_open, Ef, (open_bare _ _ _ _ _ _ Ht P Ei); reflexivity|]. split; [exact HS|]. right. split; [reflexivity|]. exists x. auto.
Qed.

(** lists that are lost *)
Theorem c62_gone cfg s sp id : serves cfg s sp -> sp id = None ->
  ~ In id (map fst (y_open s)) /\
  forall x lock n0 ni now sc, In x (y_cold s) -> ds_id x = id ->
    (open_list cfg (y_st s) x = Failed \/ open_list cfg (y_st s) x = Nil) /\ next cfg s (EOpen id lock n0 ni now sc) = Some s.
Proof.
  intros HS Es. destruct (serves_inv _ _ _ HS) as (G & ys & HI). split.
  - intros C. destruct (open_readable _ _ _ _ HS C) as (g & z & m & E & _). congruence.
  - intros x lock n0 ni now sc Hx <-.
    assert (Ef : find_desc (ds_id x) (y_cold s) = Some x).
    { apply find_desc_of; [|exact Hx]. pose proof (c_ids _ _ (v_core _ _ _ _ _ HI)) as H. rewrite ids_split in H. apply NoDup_app_iff in H. tauto. }
    pose proof (v_cold _ _ _ _ _ HI x Hx) as Hc. unfold cold_ok in Hc. destruct (G (ds_id x)) as [(b & l)|] eqn:Eg; [destruct Hc as (e & C & _); congruence|].
    pose proof (open_dead cfg (y_st s) x G s eq_refl (c_cold _ _ (v_core _ _ _ _ _ HI) x (cold_desc _ _ Hx) Eg)) as Hd. split; [exact Hd|].
    rewrite next_open, Ef. destruct Hd as [-> | ->]; reflexivity.
Qed.

(** ** stops *)
Lemma next_stop cfg s : next cfg s EStop = Some (stopped s).
Proof. destruct s; reflexivity. Qed.
Theorem c62_restart cfg cfg' s sp id x y : serves cfg s sp -> In x (y_file s) -> In y (descs s) -> ds_id x = id -> ds_id y = id ->
  exists s' sp', next cfg s EStop = Some s' /\ serves cfg' s' sp' /\
    sp' id = if String.eqb (ds_scores x) (ds_scores y) then sp id else None.
Proof.
  intros HS Hx Hy <- Ey. destruct (serves_inv _ _ _ HS) as (G & ys & HI). exists (stopped s), (survives s sp). split; [apply next_stop|]. split.
  - eapply (V_next cfg cfg' s sp EStop); eauto; [exact Logic.I|apply next_stop|intros C; contradiction].
  - unfold survives. rewrite (find_desc_of _ _ (v_file _ _ _ _ _ HI) Hx). rewrite <- Ey, (find_desc_of _ _ (c_ids _ _ (v_core _ _ _ _ _ HI)) Hy). reflexivity.
Qed.
Theorem c62_unknown cfg cfg' s sp id : serves cfg s sp -> ~ In id (map ds_id (y_file s)) ->
  exists s' sp', next cfg s EStop = Some s' /\ serves cfg' s' sp' /\ ~ In id (ids s') /\ sp' id = None.
Proof.
  intros HS Hx. exists (stopped s), (survives s sp). split; [apply next_stop|]. split; [|split].
  - eapply (V_next cfg cfg' s sp EStop); eauto; [exact Logic.I|apply next_stop|intros C; contradiction].
  - unfold ids, descs, stopped. cbn. exact Hx.
  - unfold survives. destruct (find_desc id (y_file s)) as [x|] eqn:E; [|reflexivity]. apply find_desc_In in E as (Hin & <-). exfalso. apply Hx, in_map, Hin.
Qed.

(** ** what a save writes *)
Definition ok_entry (h : list sys) (x : desc) : Prop :=
  exists t, In t h /\ In (ds_id x) (ids t) /\ (In x (descs t) \/ ds_scores x = ""%string /\ ds_index x = ""%string).
Definition save_ok (h : list sys) (sv : option (list string * list desc)) : Prop :=
  exists todo buf, sv = Some (todo, buf) /\ (forall id, (forall t, In t h -> In id (ids t)) -> In id todo) /\ Forall (ok_entry h) buf.
Lemma ok_entry_more h t x : ok_entry h x -> ok_entry (t :: h) x.
Proof. intros (t0 & A & B). exists t0. split; [right; exact A|exact B]. Qed.
Lemma save_more h t sv : save_ok h sv -> save_ok (t :: h) sv.
Proof.
  intros (todo & buf & E & A & B). exists todo, buf. split; [exact E|]. split.
  - intros id H. apply A. intros t' Ht. apply H. right. exact Ht.
  - eapply Forall_impl; [|exact B]. intros x. apply ok_entry_more.
Qed.
Lemma save_visit h s x sv : save_ok h sv -> In s h -> In (ds_id x) (ids s) -> (In x (descs s) \/ ds_scores x = ""%string /\ ds_index x = ""%string) -> save_ok h (visit x sv).
Proof.
  intros H Hs Hi Hx. pose proof H as (todo & buf & E & A & B). rewrite E in *. cbn [visit]. destruct (has (ds_id x) (map ds_id buf)); [exact H|].
  exists todo, (buf ++ [x]). split; [reflexivity|]. split; [exact A|]. apply Forall_app. split; [exact B|]. constructor; [|constructor]. exists s. auto.
Qed.
Lemma save_forget h t id sv : save_ok h sv -> In t h -> ~ In id (ids t) -> save_ok h (forget id sv).
Proof.
  intros (todo & buf & E & A & B) Ht Hn. rewrite E. cbn [forget]. eexists _, buf. split; [reflexivity|]. split; [|exact B].
  intros j Hj. apply filter_In. split; [apply A, Hj|]. destruct (String.eqb_spec j id) as [->|]; [|reflexivity]. exfalso. apply Hn, Hj, Ht.
Qed.
Lemma saving_serves cfg h s sp : saving cfg h s sp -> serves cfg s sp.
Proof.
  induction 1 as [s sp s' HS E|h s sp e s' _ IH Hok E He].
  - eapply (V_next cfg cfg s sp EBegin); eauto. exact Logic.I.
  - eapply V_next; eauto.
Qed.
Lemma saving_head cfg h s sp : saving cfg h s sp -> In s h.
Proof. destruct 1; left; reflexivity. Qed.
Lemma open_id s i p : nth_error (y_open s) i = Some p -> In (fst p) (ids s).
Proof. intros E. rewrite ids_split. apply in_or_app. left. apply in_map. eapply nth_error_In, E. Qed.
Lemma saving_inv cfg h s sp : saving cfg h s sp -> save_ok h (y_save s).
Proof.
  induction 1 as [s sp s' HS E|h s sp e s' HG IH Hok E He].
  { rewrite (sys_eta s) in E. cbn [next] in E. rewrite <- sys_eta in E. destruct (y_save s); [discriminate|]. injection E as <-. eexists _, []. split; [reflexivity|]. split; [|constructor].
    intros id Hid. specialize (Hid _ (or_introl eq_refl)). exact Hid. }
  pose proof (saving_serves _ _ _ _ HG) as HS. pose proof (saving_head _ _ _ _ HG) as Hin. destruct (serves_inv _ _ _ HS) as (G & ys & HI).
  pose proof (c_ids _ _ (v_core _ _ _ _ _ HI)) as Hnd.
  destruct e as [nid a seen|id lock n0 ni now sc|i|id|id ns ni now| |id| | |]; try contradiction.
  - assert (En : exists w', act_on cfg (lists_of s) a = Some w' /\
       s' = mkY (w_st w') (w_c w') (combine (ids_after s nid a) (w_ls w')) (y_cold s) (y_file s) (save_after s a seen)).
    { destruct s as [st c op cold file sv]. cbn [next] in E. destruct (act_on cfg _ a) as [w'|]; [|discriminate]. injection E as <-. eauto. }
    destruct En as (w' & Ea & Es'). assert (Esv : y_save s' = save_after s a seen) by (subst s'; reflexivity).
    unfold save_after in Esv. destruct (blanks a) as [i|] eqn:Eb; [|rewrite Esv; apply save_more, IH].
    destruct (nth_error (y_open s) i) as [(id & d)|] eqn:Ei; [|rewrite Esv; apply save_more, IH].
    set (x := mkD id _ _ "" "") in Esv.
    assert (Hsv : save_ok (s' :: h) (if seen then visit x (y_save s) else y_save s)).
    { destruct seen; apply save_more; [|exact IH]. apply (save_visit h s); auto. apply (open_id s i (id, d) Ei). }
    destruct a as [merge split ns ni now sc sch want e ord|j merge split ns ni now|j o ord|j ord|keep|j isidx k]; try discriminate Eb.
    + destruct o; try discriminate Eb; rewrite Esv; exact Hsv.
    + injection Eb as ->. rewrite Esv. apply (save_forget _ s'); [exact Hsv|left; reflexivity|].
        subst s'. rewrite ids_split. cbn [y_open y_cold ids_after].
        cbn [act_on] in Ea. destruct (nth_error (w_ls (lists_of s)) i) as [d0|] eqn:Ed; [|discriminate]. injection Ea as <-. cbn [w_ls lists_of].
        apply nth_error_split in Ei as (pa & pb & E1 & L1). rewrite ids_split, E1, map_app in Hnd. cbn [map fst] in Hnd.
        assert (El : del_nth i (map snd (y_open s)) = map snd pa ++ map snd pb) by (rewrite E1, map_app; cbn [map]; rewrite <- L1, <- (map_length snd pa); apply del_nth_mid).
        assert (Ek : del_nth i (map fst (y_open s)) = map fst pa ++ map fst pb) by (rewrite E1, map_app; cbn [map]; rewrite <- L1, <- (map_length fst pa); apply del_nth_mid).
        rewrite El, Ek, <- !map_app, combine_parts.
        apply NoDup_app_iff in Hnd as (N1 & _ & N3). pose proof (NoDup_remove_2 _ _ _ N1) as N2. intros C. apply in_app_iff in C as [C|C].
        * rewrite map_app in C. contradiction.
        * apply (N3 id); [apply in_elt|exact C].
  - rewrite next_open in E. apply save_more. enough (Es : y_save s' = y_save s) by (rewrite Es; exact IH). destruct (find_desc id (y_cold s)) as [x|]; [|discriminate]. destruct (open_list cfg (y_st s) x); [injection E as <-; reflexivity| |injection E as <-; reflexivity..].
    destruct lock; [|injection E as <-; reflexivity]. destruct (rebuild _ _ _ _ _ _ _ _ _) as [((st' & c') & d)|]; [|discriminate]. injection E as <-. reflexivity.
  - rewrite (sys_eta s) in E. cbn [next] in E. destruct (nth_error (y_open s) i); [|discriminate]. injection E as <-. apply save_more, IH.
  - rewrite (sys_eta s) in E. cbn [next] in E. destruct (find_desc id (y_cold s)) as [x|] eqn:Ef; [|discriminate]. apply find_desc_In in Ef as (Hx & <-).
    assert (Es' : s' = mkY (y_st s) (y_c s) (y_open s) (drop_cold (ds_id x) (y_cold s)) (y_file s) (forget (ds_id x) (y_save s))) by (destruct (open_list cfg (y_st s) x); congruence).
    replace (y_save s') with (forget (ds_id x) (y_save s)) by (subst s'; reflexivity). apply (save_forget _ s'); [apply save_more, IH|left; reflexivity|].
    rewrite ids_split, Es'. cbn [y_open y_cold]. intros C. apply in_app_iff in C as [C|C].
      * apply (cold_not_open _ _ _ _ _ _ HI Hx C).
      * apply in_map_iff in C as (z & Ez & Hz). apply drop_cold_In in Hz. tauto.
  - rewrite (sys_eta s) in E. cbn [next] in E. rewrite <- sys_eta in E. destruct (find_desc id (y_cold s)) as [x|]; [|discriminate]. destruct (open_list cfg (y_st s) x); try discriminate.
    destruct (act_on cfg (lists_of s) _); [|discriminate]. injection E as <-. apply save_more, IH.
  - rewrite (sys_eta s) in E. cbn [next] in E. destruct IH as (todo & buf & Es & _). rewrite Es in E. discriminate.
  - rewrite (sys_eta s) in E. cbn [next] in E. rewrite <- sys_eta in E. destruct (find_desc id (descs s)) as [x|] eqn:Ef; [|discriminate]. injection E as <-. apply find_desc_In in Ef as (Hx & _).
    apply save_more, (save_visit h s); auto. apply in_map, Hx.
Qed.
Theorem c62_save cfg h s sp s' : saving cfg h s sp -> next cfg s EEnd = Some s' ->
  (forall id, (forall t, In t h -> In id (ids t)) -> In id (map ds_id (y_file s'))) /\
  NoDup (map ds_id (y_file s')) /\
  (forall x, In x (y_file s') -> exists t, In t h /\ In (ds_id x) (ids t) /\ (In x (descs t) \/ ds_scores x = ""%string /\ ds_index x = ""%string)).
Proof.
  intros HG E. destruct (saving_inv _ _ _ _ HG) as (todo & buf & Es & A & B).
  destruct (serves_inv _ _ _ (saving_serves _ _ _ _ HG)) as (G & ys & HI). pose proof (v_enc _ _ _ _ _ HI) as Hn. unfold encoded in Hn. rewrite Es in Hn.
  rewrite (sys_eta s) in E. cbn [next] in E. rewrite Es in E. destruct (forallb _ todo) eqn:Ef; [|discriminate]. injection E as <-. cbn [y_file].
  split; [|split; [exact Hn|]].
  - intros id Hid. rewrite forallb_forall in Ef. specialize (Ef id (A id Hid)). apply existsb_exists in Ef as (j & Hj & Ej). apply String.eqb_eq in Ej. subst j. exact Hj.
  - intros x Hx. rewrite Forall_forall in B. exact (B x Hx).
Qed.

(** ** an orderly stop *)
Definition same_scores (s s' : sys) : Prop :=
  forall y', In y' (descs s') -> exists y, In y (descs s) /\ ds_id y = ds_id y' /\ ds_scores y = ds_scores y'.
Lemma same_refl s s' : descs s' = descs s -> same_scores s s'.
Proof. intros E y' H. rewrite E in H. eauto. Qed.
Lemma rebuild_scores cfg st c x ss n0 ni now sc st' c' d : rebuild cfg st c x ss n0 ni now sc = Some (st', c', d) -> l_scores_id (d_l d) = ss_id ss.
Proof.
  unfold rebuild, reindex_list, fetch_segs. destruct (all_some _) as [s|]; [|discriminate]. cbn [l_scores l_merge l_split]. intros E.
  destruct (split_size _ _) as [parts|]; [|discriminate]. destruct (new_segments_elements ni now parts true) as (index & x').
  unfold guard_ids in E. destruct (ids_ok _); [|discriminate]. injection E as <- <- <-. reflexivity.
Qed.
Lemma bare_scores cfg s sp G ys x ss : inv cfg s sp G ys -> In x (y_cold s) -> open_list cfg (y_st s) x = NoIndex ss -> ss_id ss = ds_scores x.
Proof.
  intros HI Hx E. pose proof (v_cold _ _ _ _ _ HI x Hx) as Hc. unfold cold_ok in Hc. destruct (G (ds_id x)) as [([|] & l)|] eqn:Eg.
  - destruct Hc as (e & Es & HS). rewrite (open_full _ _ _ _ _ _ HS) in E. discriminate.
  - destruct Hc as (e & Es & HS). destruct (c_bare _ _ (v_core _ _ _ _ _ HI) x l (cold_desc _ _ Hx) Eg) as (P & Ei & _).
    rewrite (open_bare _ _ _ _ _ _ HS P Ei) in E. injection E as <-. cbn. rewrite (n_s _ (t_named _ _ _ _ _ _ _ HS)). symmetry. apply (t_scores _ _ _ _ _ _ _ HS).
  - destruct (open_dead cfg (y_st s) x G s eq_refl (c_cold _ _ (v_core _ _ _ _ _ HI) x (cold_desc _ _ Hx) Eg)) as [F|F]; rewrite F in E; discriminate.
Qed.
Lemma ready_scores cfg st x d : open_list cfg st x = Ready d -> l_scores_id (d_l d) = ds_scores x.
Proof. unfold open_list. destruct (unset _); [discriminate|]. destruct (load_segs _ _); [|discriminate]. destruct (unset _); [discriminate|]. destruct (load_segs _ _); [|discriminate]. intros [= <-]. reflexivity. Qed.
Lemma opened_scores s x d st c file sv : In x (y_cold s) -> l_scores_id (d_l d) = ds_scores x ->
  same_scores s (mkY st c (y_open s ++ [(ds_id x, d)]) (drop_cold (ds_id x) (y_cold s)) file sv).
Proof.
  intros Hx E y' H. unfold descs in *. cbn [y_open y_cold] in H. rewrite map_app in H. apply in_app_iff in H as [H|H]; [apply in_app_iff in H as [H|[<-|[]]]|].
  - exists y'. split; [apply in_or_app; auto|auto].
  - exists x. split; [apply in_or_app; auto|]. split; [reflexivity|]. symmetry. exact E.
  - apply drop_cold_In in H as (H & _). exists y'. split; [apply in_or_app; auto|auto].
Qed.
Lemma steady_call cfg s sp G ys nid i o ord seen s' : inv cfg s sp G ys -> call_ok s sp nid (AOp i o ord) -> next cfg s (ECall nid (AOp i o ord) seen) = Some s' ->
  match o with ORepair _ _ _ _ _ _ _ _ | OPopulate _ _ _ _ _ _ _ => False | _ => True end -> same_scores s s'.
Proof.
  intros HI (ms & Hms & Hok & Hnew & _ & HF) E Ho. rewrite (inv_ms _ _ _ _ _ _ HI Hms) in *.
  pose proof (v_open _ _ _ _ _ HI) as HW.
  assert (En : exists w', act_on cfg (lists_of s) (AOp i o ord) = Some w' /\
     s' = mkY (w_st w') (w_c w') (combine (map fst (y_open s)) (w_ls w')) (y_cold s) (y_file s) (save_after s (AOp i o ord) seen)).
  { destruct s as [st c op cold file sv]. cbn [next] in E. destruct (act_on cfg _ _) as [w'|]; [|discriminate]. injection E as <-. eauto. }
  destruct En as (w' & Ea & ->). pose proof (upd_ok _ _ _ _ _ HW Hok Ea HF) as (ys' & es & _ & _ & _ & _ & _ & _ & _ & _ & Hmv).
  cbn [moves] in Hmv. destruct Hmv as (d & d' & Ei & Ew & Ed).
  unfold lists_of in Ei. cbn [w_ls] in Ei. rewrite nth_error_map in Ei. destruct (nth_error (y_open s) i) as [p|] eqn:Ep; [|discriminate]. injection Ei as Ei.
  apply nth_error_split in Ep as (pa & pb & E1 & L1).
  assert (El : w_ls w' = map snd pa ++ d' :: map snd pb).
  { rewrite Ew. unfold lists_of. cbn [w_ls]. rewrite E1, map_app. cbn [map]. rewrite <- L1, <- (map_length snd pa), upd_nth_mid. reflexivity. }
  assert (Eids : combine (map fst (y_open s)) (w_ls w') = pa ++ [(fst p, d')] ++ pb) by (rewrite El, E1; apply combine_mid).
  assert (Es : l_scores_id (d_l d') = l_scores_id (d_l d)).
  { unfold names in Ed. destruct o; cbn [renamed] in Ed; try contradiction; congruence. }
  intros y' H. unfold descs in *. cbn [y_open y_cold] in H. rewrite Eids in H. rewrite E1. rewrite !map_app in *. cbn [map app] in *. rewrite !in_app_iff in H. cbn [In] in H.
  destruct H as [[H|[H|H]]|H].
  - exists y'. rewrite !in_app_iff. auto.
  - exists (desc_of p). rewrite !in_app_iff. cbn [In]. split; [auto|]. subst y'. unfold desc_of. cbn. rewrite Ei. auto.
  - exists y'. rewrite !in_app_iff. cbn [In]. auto.
  - exists y'. rewrite !in_app_iff. auto.
Qed.
Lemma steady_scores cfg s sp e s' : serves cfg s sp -> event_ok s sp e -> next cfg s e = Some s' -> steady e -> same_scores s s'.
Proof.
  intros HS Hok E He. destruct (serves_inv _ _ _ HS) as (G & ys & HI).
  destruct e as [nid a seen|id lock n0 ni now sc|i|id|id ns ni now| |id| | |]; cbn [steady] in He; try contradiction.
  - destruct a as [merge split ns ni now sc sch want e ord|j merge split ns ni now|j o ord|j ord|keep|j isidx k]; try contradiction.
    + eapply steady_call; eauto.
    + rewrite (sys_eta s) in E. cbn [next] in E. rewrite <- sys_eta in E. cbn [act_on] in E. injection E as <-. apply same_refl. unfold descs. cbn [y_open y_cold ids_after w_ls lists_of]. rewrite combine_parts. reflexivity.
    + rewrite (sys_eta s) in E. cbn [next] in E. rewrite <- sys_eta in E. destruct (act_on cfg (lists_of s) _) as [w'|] eqn:Ea; [|discriminate]. injection E as <-. apply same_refl. unfold descs. cbn [y_open y_cold ids_after].
      assert (w_ls w' = w_ls (lists_of s)) as ->; [|cbn [w_ls lists_of]; rewrite combine_parts; reflexivity].
      cbn [act_on] in Ea. destruct (nth_error (w_ls (lists_of s)) j); [|discriminate]. destruct (nth_error _ k); [|discriminate].
      repeat (match type of Ea with context [if ?b then _ else _] => destruct b | context [match ?o with Some _ => _ | None => _ end] => destruct o end; try discriminate); injection Ea as <-; reflexivity.
  - rewrite next_open in E. destruct (find_desc id (y_cold s)) as [x|] eqn:Ef; [|discriminate]. apply find_desc_In in Ef as (Hx & <-).
    destruct (open_list cfg (y_st s) x) as [d|ss| |] eqn:Eo; [|destruct lock; [|injection E as <-; apply same_refl; reflexivity]|injection E as <-; apply same_refl; reflexivity..].
    + injection E as <-. eapply opened_scores, ready_scores; eauto.
    + destruct (rebuild _ _ _ _ _ _ _ _ _) as [((st' & c') & d)|] eqn:Er; [|discriminate]. injection E as <-. apply opened_scores; [exact Hx|]. rewrite (rebuild_scores _ _ _ _ _ _ _ _ _ _ _ _ Er). eapply bare_scores; eauto.
  - rewrite (sys_eta s) in E. cbn [next] in E. destruct (nth_error (y_open s) i) as [p|] eqn:Ep; [|discriminate]. injection E as <-.
    apply nth_error_split in Ep as (pa & pb & E1 & L1). intros y' H. exists y'. split; [|auto]. unfold descs in *. cbn [y_open y_cold] in H. rewrite E1 in *. rewrite <- L1, del_nth_mid in H.
    rewrite !map_app in *. cbn [map]. rewrite !in_app_iff in *. cbn [In] in *. tauto.
  - rewrite (sys_eta s) in E. cbn [next] in E. destruct (find_desc id (y_cold s)) as [x|]; [|discriminate].
    assert (Es' : s' = mkY (y_st s) (y_c s) (y_open s) (drop_cold id (y_cold s)) (y_file s) (forget id (y_save s))) by (destruct (open_list cfg (y_st s) x); congruence).
    subst s'. intros y' H. exists y'. split; [|auto]. unfold descs in *. cbn [y_open y_cold] in H. rewrite !in_app_iff, drop_cold_In in *. tauto.
  - rewrite (sys_eta s) in E. cbn [next] in E. destruct (y_save s); [discriminate|]. injection E as <-. apply same_refl. reflexivity.
  - rewrite (sys_eta s) in E. cbn [next] in E. destruct (find_desc id _); [|discriminate]. injection E as <-. apply same_refl. reflexivity.
  - rewrite (sys_eta s) in E. cbn [next] in E. destruct (y_save s); [|discriminate]. injection E as <-. apply same_refl. reflexivity.
Qed.
(** descriptors that still fit: every list that is not lost has one, with the name of its scores *)
Definition current (s : sys) (b : list desc) : Prop :=
  forall x y, In x b -> In y (descs s) -> ds_id x = ds_id y -> ds_scores x = ds_scores y.
Definition saver_ok (s : sys) (sp : holdings) : Prop :=
  match y_save s with Some (todo, buf) => current s buf /\ forall id, sp id <> None -> In id todo | None => True end.
Definition file_ok (s : sys) (sp : holdings) : Prop := current s (y_file s) /\ forall id, sp id <> None -> In id (map ds_id (y_file s)).
Lemma current_step s s' b : same_scores s s' -> current s b -> current s' b.
Proof. intros H C x y' Hx Hy E. destruct (H y' Hy) as (y & A & B & D). rewrite <- D. apply C; congruence. Qed.
Lemma steady_live s e sp id : steady e -> spec_next s e sp id <> None -> sp id <> None.
Proof.
  destruct e as [nid a seen| | | | | | | | |]; cbn [steady spec_next]; try contradiction; auto.
  destruct a; cbn [call_spec]; try contradiction; auto. intros _. destruct (nth_error (y_open s) i) as [(j & d)|]; [|auto].
  unfold set. destruct (String.eqb_spec id j) as [->|]; [|auto]. destruct (sp j) as [((g & z) & m)|]; [discriminate|auto].
Qed.
Lemma live_in cfg s sp id : serves cfg s sp -> sp id <> None -> In id (ids s).
Proof.
  intros HS Hs. destruct (serves_inv _ _ _ HS) as (G & ys & HI). destruct (in_dec string_dec id (ids s)) as [H|H]; [exact H|]. destruct (v_none _ _ _ _ _ HI id H) as (C & _). contradiction.
Qed.
Lemma steady_file cfg s e s' : next cfg s e = Some s' -> steady e -> y_file s' = y_file s.
Proof.
  intros E He. rewrite (sys_eta s) in E. destruct e as [nid a seen|id lock n0 ni now sc|i|id|id ns ni now| |id| | |]; cbn [steady] in He; try contradiction; cbn [next] in E;
    repeat (match type of E with context [if ?b then _ else _] => destruct b | context [match ?o with _ => _ end] => destruct o end; try discriminate); injection E as <-; reflexivity.
Qed.
Lemma steady_saver cfg s sp e s' : serves cfg s sp -> event_ok s sp e -> next cfg s e = Some s' -> steady e -> saver_ok s sp -> saver_ok s' (spec_next s e sp).
Proof.
  intros HS Hok E He H. pose proof (steady_scores _ _ _ _ _ HS Hok E He) as Hsc.
  assert (Keep : y_save s' = y_save s -> saver_ok s' (spec_next s e sp)).
  { unfold saver_ok. intros ->. unfold saver_ok in H. destruct (y_save s) as [(todo & buf)|]; [|auto]. destruct H as (A & B). split; [eapply current_step; eauto|].
    intros id Hid. eapply B, steady_live; eauto. }
  destruct e as [nid a seen|id lock n0 ni now sc|i|id|id ns ni now| |id| | |]; cbn [steady] in He; try contradiction.
  - apply Keep. rewrite (sys_eta s) in E. cbn [next] in E. rewrite <- sys_eta in E. destruct (act_on cfg (lists_of s) a); [|discriminate]. injection E as <-. cbn [y_save]. unfold save_after.
    destruct a; try contradiction; cbn [blanks]; auto. destruct o; try contradiction; reflexivity.
  - apply Keep. rewrite next_open in E. destruct (find_desc id (y_cold s)) as [x|]; [|discriminate]. destruct (open_list cfg (y_st s) x); [injection E as <-; reflexivity| |injection E as <-; reflexivity..].
    destruct lock; [|injection E as <-; reflexivity]. destruct (rebuild _ _ _ _ _ _ _ _ _) as [((st' & c') & d)|]; [|discriminate]. injection E as <-. reflexivity.
  - apply Keep. rewrite (sys_eta s) in E. cbn [next] in E. destruct (nth_error (y_open s) i); [|discriminate]. injection E as <-. reflexivity.
  - pose proof (live_in cfg s' sp) as Hl. assert (HS' : serves cfg s' sp) by exact (V_next cfg cfg s sp _ s' HS Hok E (fun _ => eq_refl)).
    rewrite (sys_eta s) in E. cbn [next] in E. destruct (find_desc id (y_cold s)) as [x|] eqn:Ef; [|discriminate]. apply find_desc_In in Ef as (Hx & <-).
    assert (Es' : s' = mkY (y_st s) (y_c s) (y_open s) (drop_cold (ds_id x) (y_cold s)) (y_file s) (forget (ds_id x) (y_save s))) by (destruct (open_list cfg (y_st s) x); congruence).
    unfold saver_ok in *. subst s'. cbn [y_save spec_next]. destruct (y_save s) as [(todo & buf)|]; [|exact Logic.I]. cbn [forget]. destruct H as (A & B). split; [eapply current_step; eauto|].
    intros id Hid. apply filter_In. split; [apply B, Hid|]. destruct (String.eqb_spec id (ds_id x)) as [->|]; [|reflexivity]. exfalso.
    specialize (Hl _ HS' Hid). rewrite ids_split in Hl. cbn [y_open y_cold] in Hl. destruct (serves_inv _ _ _ HS) as (G & ys & HI). apply in_app_iff in Hl as [C|C].
    + apply (cold_not_open _ _ _ _ _ _ HI Hx C).
    + apply in_map_iff in C as (z & Ez & Hz). apply drop_cold_In in Hz. tauto.
  - rewrite (sys_eta s) in E. cbn [next] in E. rewrite <- sys_eta in E. destruct (y_save s); [discriminate|]. injection E as <-. unfold saver_ok. cbn [y_save spec_next]. split; [intros x y []|]. intros id. apply live_in with cfg. exact HS.
  - rewrite (sys_eta s) in E. cbn [next] in E. rewrite <- sys_eta in E. destruct (find_desc id (descs s)) as [x|] eqn:Ef; [|discriminate]. injection E as <-. apply find_desc_In in Ef as (Hx & <-).
    unfold saver_ok in *. cbn [y_save spec_next]. destruct (y_save s) as [(todo & buf)|]; [|exact Logic.I]. cbn [visit]. destruct H as (A & B).
    destruct (has (ds_id x) (map ds_id buf)); [split; assumption|]. split; [|exact B]. intros a b Ha Hb Eab. apply in_app_iff in Ha as [Ha|[<-|[]]]; [exact (A a b Ha Hb Eab)|].
    destruct (serves_inv _ _ _ HS) as (G & ys & HI). f_equal. apply (descs_uniq s G); [apply HI|exact Hx|exact Hb|exact Eab].
  - rewrite (sys_eta s) in E. cbn [next] in E. destruct (y_save s); [|discriminate]. injection E as <-. exact Logic.I.
Qed.
Lemma steadily_serves cfg s sp s' sp' : steadily cfg s sp s' sp' -> serves cfg s sp -> serves cfg s' sp'.
Proof. induction 1 as [|s sp s1 sp1 e s2 _ IH Hok E He]; [auto|]. intros H. exact (V_next cfg cfg s1 sp1 e s2 (IH H) Hok E (fun _ => eq_refl)). Qed.
Lemma steadily_saver cfg s sp s' sp' : steadily cfg s sp s' sp' -> serves cfg s sp -> saver_ok s sp -> saver_ok s' sp'.
Proof. induction 1 as [|s sp s1 sp1 e s2 HT IH Hok E He]; [auto|]. intros H1 H2. eapply steady_saver; eauto. eapply steadily_serves; eauto. Qed.
Lemma steadily_file cfg s sp s' sp' : steadily cfg s sp s' sp' -> serves cfg s sp -> file_ok s sp -> file_ok s' sp'.
Proof.
  induction 1 as [|s sp s1 sp1 e s2 HT IH Hok E He]; [auto|]. intros H1 H2. destruct (IH H1 H2) as (A & B). pose proof (steadily_serves _ _ _ _ _ HT H1) as H3.
  unfold file_ok. rewrite (steady_file _ _ _ _ E He). split; [eapply current_step; [eapply steady_scores; eauto|exact A]|]. intros id Hid. eapply B, steady_live; eauto.
Qed.
Theorem c62_orderly cfg cfg' s0 sp0 s1 s2 sp2 s3 s4 sp4 : serves cfg s0 sp0 -> next cfg s0 EBegin = Some s1 -> steadily cfg s1 sp0 s2 sp2 ->
  next cfg s2 EEnd = Some s3 -> steadily cfg s3 sp2 s4 sp4 ->
  exists s5 sp5, next cfg s4 EStop = Some s5 /\ serves cfg' s5 sp5 /\ forall id, sp5 id = sp4 id.
Proof.
  intros HS Eb T1 Ee T2. pose proof (V_next cfg cfg s0 sp0 EBegin s1 HS Logic.I Eb (fun _ => eq_refl)) as S1. cbn [spec_next] in S1.
  assert (K1 : saver_ok s1 sp0).
  { rewrite (sys_eta s0) in Eb. cbn [next] in Eb. rewrite <- sys_eta in Eb. destruct (y_save s0); [discriminate|]. injection Eb as <-. unfold saver_ok. cbn [y_save]. split; [intros x y []|]. intros id. apply live_in with cfg. exact HS. }
  pose proof (steadily_serves _ _ _ _ _ T1 S1) as S2. pose proof (steadily_saver _ _ _ _ _ T1 S1 K1) as K2.
  pose proof (V_next cfg cfg s2 sp2 EEnd s3 S2 Logic.I Ee (fun _ => eq_refl)) as S3. cbn [spec_next] in S3.
  assert (F3 : file_ok s3 sp2).
  { unfold saver_ok in K2. rewrite (sys_eta s2) in Ee. cbn [next] in Ee. destruct (y_save s2) as [(todo & buf)|]; [|discriminate]. destruct (forallb _ todo) eqn:Ef; [|discriminate]. injection Ee as <-.
    destruct K2 as (A & B). split; [exact A|]. cbn [y_file]. intros id Hid. rewrite forallb_forall in Ef. specialize (Ef id (B id Hid)). apply existsb_exists in Ef as (j & Hj & Ej). apply String.eqb_eq in Ej. subst j. exact Hj. }
  pose proof (steadily_serves _ _ _ _ _ T2 S3) as S4. destruct (steadily_file _ _ _ _ _ T2 S3 F3) as (A & B).
  exists (stopped s4), (survives s4 sp4). split; [apply next_stop|]. split; [eapply (V_next cfg cfg' s4 sp4 EStop); eauto; [exact Logic.I|apply next_stop|intros C; contradiction]|].
  intros id. unfold survives. destruct (sp4 id) as [v|] eqn:Ev.
  - assert (Hl : sp4 id <> None) by congruence. destruct (find_desc id (y_file s4)) as [x|] eqn:Ex; [|apply find_desc_none in Ex; destruct (Ex (B id Hl))].
    pose proof (live_in _ _ _ _ S4 Hl) as Hi. destruct (find_desc id (descs s4)) as [y|] eqn:Ey; [|apply find_desc_none in Ey; destruct (Ey Hi)].
    apply find_desc_In in Ex as (Hx & Ix). apply find_desc_In in Ey as (Hy & Iy). rewrite (A x y Hx Hy) by congruence. rewrite String.eqb_refl. reflexivity.
  - destruct (find_desc id (y_file s4)); [|reflexivity]. destruct (find_desc id (descs s4)); [|reflexivity]. destruct (String.eqb _ _); reflexivity.
Qed.
