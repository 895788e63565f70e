(** Calls during which writes fail. *)
From Coq Require Import Strings.String Strings.Ascii.
From Verif.Lib Require Import Prelude ListAux ListLemmas Perm Bytes.
From Verif.Model Require Import Element Elements Segment List Msgp Codec Keys Storage Fails.
From Verif.Spec Require Import RankSpec QuerySpec HistorySpec AnswerSpec KeySpec CodecSpec StorageSpec FailsSpec.
From Verif.Proof Require Import ElementP ElementsP SegP InvDef KeysP MsgpP CodecP ChangeP UpdateP UpdateInv DeleteP InsertP BuildP BuildInv RepairP SplitP HistoryP QueryP ListThm StoreP StoreOps StoreBuild StoreWorld StoreThm StoreFinal LeftOutP CrashP CrashSplitP.
Open Scope N_scope.

Definition flat (gs : list group) : list ev := flat_map fst gs.
Lemma flat_app a b : flat (a ++ b) = flat a ++ flat b.
Proof. apply flat_map_app. Qed.
Lemma flat_each es : flat (each es) = es.
Proof. induction es as [|e es IH]; [reflexivity|]. change (flat (each (e :: es))) with (e :: flat (each es)). rewrite IH. reflexivity. Qed.
Lemma flat_save l : flat (save_groups l) = save_evs l.
Proof. apply flat_each. Qed.
Lemma flat_delete c ord s : flat (delete_groups c ord s) = delete_evs c ord s.
Proof. reflexivity. Qed.

Lemma flat_insert_one ord hs hi now sc l e : flat (insert_one_groups ord hs hi now sc l e) = insert_one_evs ord hs hi now sc l e.
Proof.
  unfold insert_one_groups, insert_one_evs. destruct (segs_insert now sc (l_scores l) (sort_elems e)) as (s' & ix).
  cbn [flat flat_map fst]. rewrite app_nil_r. reflexivity.
Qed.
Lemma flat_insert limit ord hs hi now sch : forall fuel e l,
  flat (insert_loop_groups fuel limit ord hs hi now sch e l) = insert_loop_evs fuel limit ord hs hi now sch e l.
Proof.
  induction fuel as [|f IH]; intros e l; cbn [insert_loop_groups insert_loop_evs]; (destruct (Nat.ltb limit (length e)); [|apply flat_insert_one]); [reflexivity|].
  rewrite flat_app, flat_insert_one, IH. reflexivity.
Qed.

Lemma flat_built ord cfg ns ni now sc sch want e l l' : flat (built_groups ord cfg ns ni now sc sch want e l l') = built_evs ord cfg ns ni now sc sch want e l l'.
Proof.
  unfold built_groups, built_evs. rewrite flat_app, flat_save. f_equal. destruct e as [|e0 er]; [rewrite flat_app, !flat_each; reflexivity|].
  destruct (split_size _ _) as [parts|]; [|reflexivity]. destruct (new_segments_elements ns now parts false) as (scores & ids).
  destruct (split_size (sort_elems ids) _) as [iparts|]; [|reflexivity]. destruct (new_segments_elements ni now iparts true) as (index & x).
  rewrite !flat_app, !flat_each. do 2 f_equal. match goal with |- context [match ?d with _ => _ end] => destruct d end; [reflexivity|apply flat_insert].
Qed.
Lemma op_flat ord cfg hs hi l o l' : flat (op_groups ord cfg hs hi l o l') = op_evs ord cfg hs hi l o l'.
Proof.
  destruct o as [clk clki now sc e|now sch e|now sc1 sc2 ids|mg now|ni now sc|ns ni now scd sca sc sch want|ns ni now sc sch want e|]; cbn [op_groups op_evs].
  - unfold update_groups, update_evs. destruct (update_core clk clki sc e l) as (x & (ts & ti)). rewrite flat_app, flat_save. cbn [flat flat_map fst]. rewrite app_nil_r, <- app_assoc. reflexivity.
  - rewrite flat_app, flat_save. f_equal. apply flat_insert.
  - unfold delete_elements_groups, delete_elements_evs. destruct (delete_elements_idx _ _ _ _) as (s' & deleted). rewrite flat_app, flat_save. cbn [flat flat_map fst]. rewrite app_nil_r, <- app_assoc. reflexivity.
  - unfold split_groups, split_evs. rewrite flat_app, flat_each. f_equal.
    destruct (split_loop_segs _ _ _ _ _ _ _ _ _ _ _) as [[[[a b] us] upd]| | |]; [|reflexivity..].
    change (flat (?g :: ?r)) with (fst g ++ flat r). rewrite flat_app, flat_each. cbn [fst]. do 2 f_equal.
    destruct (split_loop_segs _ _ _ _ _ _ _ _ _ _ upd) as [[[[a2 b2] us2] [|]]| | |]; [|reflexivity..]. destruct (split_pass mg now l); [apply flat_save|reflexivity..].
  - unfold reindex_groups, reindex_evs. rewrite !flat_app, !flat_each, flat_save, flat_delete. reflexivity.
  - unfold delete_all_groups, delete_all_evs. rewrite !flat_app, !flat_delete, flat_built. reflexivity.
  - unfold delete_all_groups, delete_all_evs. rewrite !flat_app, !flat_delete, flat_built. reflexivity.
  - reflexivity.
Qed.

Lemma tries_dropped fs (P : ev -> Prop) : forall es n, (forall e, In e es -> P e) -> dropped P es (fst (tries fs n es)).
Proof.
  induction es as [|e es IH]; intros n HP; [constructor|]. cbn [tries]. specialize (IH (S n) (fun x Hx => HP x (or_intror Hx))).
  destruct (tries fs (S n) es) as (w & ok). cbn [fst] in *. destruct (reaches (fs n)); [constructor 2; exact IH|constructor 3; [apply HP; left; reflexivity|exact IH]].
Qed.
Lemma tries_ok fs : forall es n, snd (tries fs n es) = true -> fst (tries fs n es) = es.
Proof.
  induction es as [|e es IH]; intros n H; [reflexivity|]. cbn [tries] in *. specialize (IH (S n)). destruct (tries fs (S n) es) as (w & ok). cbn [fst snd] in *.
  apply andb_true_iff in H as (H1 & H2). rewrite (IH H2). destruct (fs n); try discriminate. reflexivity.
Qed.
Lemma tries_kept fs : (forall n, fs n = Kept) -> forall es n, tries fs n es = (es, true).
Proof. intros H. induction es as [|e es IH]; intros n; [reflexivity|]. cbn [tries]. rewrite IH, H. reflexivity. Qed.

Lemma call_incl fs : forall gs n, incl (fst (call fs n gs)) (flat gs).
Proof.
  induction gs as [|(es & r) gs IH]; intros n; [intros x []|]. cbn [call].
  pose proof (dropped_incl _ _ _ (tries_dropped fs (fun _ => True) es n (fun _ _ => I))) as H.
  destruct (tries fs n es) as (w & ok). cbn [fst] in H. change (flat ((es, r) :: gs)) with (es ++ flat gs). destruct (r && negb ok); [intros x Hx; apply in_or_app; left; apply H, Hx|].
  specialize (IH (n + length es)%nat). destruct (call fs (n + length es) gs) as (w' & ok'). cbn [fst] in *. intros x Hx. apply in_app_iff in Hx as [Hx|Hx]; apply in_or_app; auto.
Qed.
Lemma call_ok fs (P : ev -> Prop) : forall gs n, (forall es, In (es, false) gs -> forall e, In e es -> P e) -> snd (call fs n gs) = true ->
  dropped P (flat gs) (fst (call fs n gs)).
Proof.
  induction gs as [|(es & r) gs IH]; intros n HP H; [constructor|]. cbn [call] in *. change (flat ((es, r) :: gs)) with (es ++ flat gs).
  assert (D : r = false -> dropped P es (fst (tries fs n es))) by (intros ->; apply tries_dropped, HP; left; reflexivity).
  pose proof (tries_ok fs es n) as T. destruct (tries fs n es) as (w & ok). cbn [fst snd] in *. destruct (r && negb ok) eqn:E; [discriminate|].
  specialize (IH (n + length es)%nat). destruct (call fs (n + length es) gs) as (w' & ok'). cbn [fst snd] in *. apply dropped_app.
  - destruct r; [|apply D; reflexivity]. destruct ok; [|discriminate]. rewrite T by reflexivity. apply dropped_refl.
  - apply IH; [|exact H]. intros es' He. apply HP. right. exact He.
Qed.
Lemma call_kept fs : (forall n, fs n = Kept) -> forall gs n, call fs n gs = (flat gs, true).
Proof.
  intros H. induction gs as [|(es & r) gs IH]; intros n; [reflexivity|]. cbn [call]. rewrite (tries_kept fs H), IH. destruct r; reflexivity.
Qed.
Lemma call_app fs : forall a b n, call fs n (a ++ b) =
  let '(w, ok) := call fs n a in if ok then let '(w', ok') := call fs (n + length (flat a)) b in (w ++ w', ok') else (w, false).
Proof.
  induction a as [|(es & r) a IH]; intros b n.
  - cbn [app call flat flat_map length]. rewrite Nat.add_0_r. destruct (call fs n b); reflexivity.
  - cbn [app call]. destruct (tries fs n es) as (w & ok). destruct (r && negb ok); [reflexivity|]. rewrite IH.
    destruct (call fs (n + length es) a) as (w1 & [|]); [|reflexivity].
    change (flat ((es, r) :: a)) with (es ++ flat a). rewrite app_length, Nat.add_assoc. destruct (call fs _ b) as (w2 & ok2). rewrite app_assoc. reflexivity.
Qed.

Lemma rep_le cfg hs hi st st' c l : le_store st st' -> rep cfg hs hi st c l -> rep cfg hs hi st' c l.
Proof.
  intros H [(A & B) M1 M2 HN HC].
  assert (X : forall h n l, coll h st c n l -> coll h st' c n l).
  { intros h n l0 [X1 X2 X3 X4]. split; auto. eapply Forall_impl; [|exact X1]. intros s (S1 & S2). split; [apply H, S1|exact S2]. }
  split; auto. split; apply X; assumption.
Qed.

(** ** the calls whose only swallowed errors are those of deletes *)
Definition silent_ok (gs : list group) : Prop := forall x, In (x, false) gs -> forall e, In e x -> deletes e.
Lemma each_silent es : silent_ok (each es).
Proof.
  intros x Hx e He. apply in_map_iff in Hx as (e0 & E & _). injection E as <- E. destruct He as [<-|[]]. destruct e0; try discriminate; exact I.
Qed.
Lemma delete_silent c ord s : silent_ok (delete_groups c ord s).
Proof.
  intros x [E|[E|[]]] e He; injection E as <-.
  - apply permute_In in He. apply in_map_iff in He as (s0 & <- & _). exact I.
  - destruct He as [<-|[]]. exact I.
Qed.
Lemma silent_app a b : silent_ok a -> silent_ok b -> silent_ok (a ++ b).
Proof. intros A B x Hx. apply in_app_iff in Hx as [Hx|Hx]; [apply A, Hx|apply B, Hx]. Qed.
Lemma insert_silent limit ord hs hi now sch : forall fuel e l, silent_ok (insert_loop_groups fuel limit ord hs hi now sch e l).
Proof.
  assert (One : forall ord now sc l e, silent_ok (insert_one_groups ord hs hi now sc l e)).
  { intros ord0 now0 sc l e x Hx. unfold insert_one_groups in Hx. destruct (segs_insert _ _ _ _). destruct Hx as [E|[E|[]]]; discriminate. }
  induction fuel as [|f IH]; intros e l; cbn [insert_loop_groups]; (destruct (Nat.ltb limit (length e)); [|apply One]); [intros x []|].
  apply silent_app; [apply One|apply IH].
Qed.
Lemma built_silent ord cfg ns ni now sc sch want e l l' : silent_ok (built_groups ord cfg ns ni now sc sch want e l l').
Proof.
  unfold built_groups. apply silent_app; [|apply each_silent]. destruct e as [|e0 er]; [apply silent_app; apply each_silent|].
  destruct (split_size _ _) as [parts|]; [|intros x []]. destruct (new_segments_elements ns now parts false) as (scores & ids).
  destruct (split_size (sort_elems ids) _) as [iparts|]; [|intros x []]. destruct (new_segments_elements ni now iparts true) as (index & y).
  apply silent_app; [apply each_silent|]. apply silent_app; [apply each_silent|].
  match goal with |- context [match ?d with _ => _ end] => destruct d end; [intros x []|apply insert_silent].
Qed.
Lemma op_silent ord cfg hs hi l o l' : sure o -> silent_ok (op_groups ord cfg hs hi l o l').
Proof.
  destruct o as [clk clki now sc e|now sch e|now sc1 sc2 ids|mg now|ni now sc|ns ni now scd sca sc sch want|ns ni now sc sch want e|]; cbn [sure op_groups]; try contradiction; intros _.
  - apply silent_app; [apply insert_silent|apply each_silent].
  - unfold split_groups. apply silent_app; [apply each_silent|].
    destruct (split_loop_segs _ _ _ _ _ _ _ _ _ _ _) as [[[[a b] us] upd]| | |]; [|intros x []..].
    intros x [E|Hx]; [discriminate|]. revert x Hx. apply silent_app; [apply each_silent|].
    destruct (split_loop_segs _ _ _ _ _ _ _ _ _ _ upd) as [[[[a2 b2] us2] [|]]| | |]; [|intros x []..]. destruct (split_pass mg now l); [apply each_silent|intros x []..].
  - unfold reindex_groups. repeat apply silent_app; try apply each_silent. apply delete_silent.
  - unfold delete_all_groups. apply silent_app; [apply silent_app; apply delete_silent|apply built_silent].
  - unfold delete_all_groups. apply silent_app; [apply silent_app; apply delete_silent|apply built_silent].
Qed.

Lemma at_world cfg w ms i o ord d g s m l l' : runs cfg w ms -> nth_error (w_ls w) i = Some d -> nth_error ms i = Some (g, s, m) ->
  act_ok w ms (AOp i o ord) -> Storage.view (w_st w) (w_c w) d = Some l -> step l o = Done l' -> o <> OReload ->
  reachable g s l m /\ op_ok g s m o /\ bare (d_l d) = bare l /\ map_fits m /\ rep cfg (d_hs d) (d_hi d) (w_st w) (w_c w) l /\
  Forall (fun n => plain n /\ ~ In n (names l) /\ unused (w_c w) n) (new_names o) /\ NoDup (new_names o) /\
  let es := op_evs ord cfg (d_hs d) (d_hi d) l o l' in
  let f := op_flags cfg (d_hs d) (d_hi d) l o in
  rep cfg (fst f) (snd f) (evs_store es (w_st w)) (evs_cache es (w_c w)) l' /\ reachable g s l' (spec_step m o).
Proof.
  intros HR Ei Em Hok Hv E Ho. destruct (runs_winv _ _ _ HR) as (ys & <- & (A & B & C)).
  destruct (Forall2_nth _ _ _ A i d Ei) as ((l0 & x) & Ey & (H1 & H2 & H3)).
  rewrite (map_nth_error snd _ _ Ey) in Em. injection Em as Ex. cbn [snd] in Ex. subst x. cbn [fst snd] in *.
  assert (Hf : map_fits m). { rewrite Forall_forall in C. apply (C (g, s, m)). apply nth_error_In in Ey. apply (in_map snd) in Ey. exact Ey. }
  rewrite (ok_view _ _ _ _ (g, s, m) l0 Hf H1 H2 H3) in Hv. injection Hv as <-.
  destruct (new_names_ok _ _ _ _ _ Hok) as (Hnew & Hnd). destruct (bare_eq_fields _ _ H2) as (_ & _ & E3 & _).
  assert (Hnew' : Forall (fun n => plain n /\ ~ In n (names l0) /\ unused (w_c w) n) (new_names o)).
  { eapply Forall_impl; [|exact Hnew]. intros n (X & Y & Z). split; [exact X|]. split; [|exact Z]. intros K. apply Y. rewrite <- E3 in K.
    apply in_flat_map. exists d. split; [eapply nth_error_In, Ei|exact K]. }
  pose proof (proj1 Hok g s m (map_nth_error snd _ _ Ey)) as Hop.
  destruct (op_rep cfg (d_hs d) (d_hi d) (w_st w) (w_c w) g s m l0 o l' ord (reach_inv _ _ _ _ H1) Hop E Ho H3 Hnew' Hnd) as (HRep & _).
  do 7 (split; [assumption|]). cbn zeta. split; [exact HRep|]. eapply R_step; eauto.
Qed.

(** a list held by the store is read, and read again after a restart *)
Lemma rep_reads cfg hs hi st c g s l m cfg' : reachable g s l m -> map_fits m -> rep cfg hs hi st c l ->
  Storage.view st c (mkLd l hs hi) = Some l /\
  exists d2, reopen cfg' st (mkLd l hs hi) = Some d2 /\ Storage.view st (fun _ => None) d2 = Some (reload l).
Proof.
  intros HR HF Hrep. assert (Hfl : fits l) by (eapply inv_fits; [eapply reach_Inv, HR|apply Hrep|exact HF]).
  split; [eapply (ok_view cfg st c (mkLd l hs hi) (g, s, m)); eauto|].
  exists (mkLd (bare (reload l)) cfg' cfg'). split.
  - unfold reopen. cbn [d_l]. rewrite (load_rep _ _ _ _ _ _ Hrep Hfl). reflexivity.
  - unfold Storage.view. eapply fetch_both; [apply (rep_restart _ cfg' _ _ _ _ _ Hrep)|exact Hfl|apply bare_bare].
Qed.

Lemma c61_done cfg w ms i o ord d g s m l l' fs st' cfg' : runs cfg w ms -> nth_error (w_ls w) i = Some d -> nth_error ms i = Some (g, s, m) ->
  act_ok w ms (AOp i o ord) -> Storage.view (w_st w) (w_c w) d = Some l -> step l o = Done l' -> map_fits (spec_step m o) -> sure o ->
  op_fails fs ord cfg (d_hs d) (d_hi d) l o l' (w_st w) = (st', true) ->
  let c' := evs_cache (op_evs ord cfg (d_hs d) (d_hi d) l o l') (w_c w) in
  let f := op_flags cfg (d_hs d) (d_hi d) l o in
  reachable g s l' (spec_step m o) /\ Storage.view st' c' (mkLd l' (fst f) (snd f)) = Some l' /\
  exists d2, reopen cfg' st' (mkLd l' (fst f) (snd f)) = Some d2 /\ Storage.view st' (fun _ => None) d2 = Some (reload l').
Proof.
  intros HR Ei Em Hok Hv E HF Hs Hc c' f.
  assert (Ho : o <> OReload) by (intros ->; exact Hs).
  destruct (at_world _ _ _ _ _ _ _ _ _ _ _ _ HR Ei Em Hok Hv E Ho) as (_ & _ & _ & _ & _ & _ & _ & HRep & HR'). cbn zeta in HRep.
  split; [exact HR'|]. eapply rep_reads; [exact HR'|exact HF|]. eapply rep_le; [|exact HRep].
  unfold op_fails in Hc. pose proof (call_ok fs deletes (op_groups ord cfg (d_hs d) (d_hi d) l o l') 0 (op_silent _ _ _ _ _ _ _ Hs)) as H.
  destruct (call fs 0 _) as (w0 & ok). injection Hc as <- ->. cbn [fst snd] in H. rewrite op_flat in H.
  eapply dropped_le; [apply H; reflexivity|]. intros k v Hk. exact Hk.
Qed.

Lemma c61_recovers cfg w ms i o ord d g s m l l' fs st' ok : runs cfg w ms -> nth_error (w_ls w) i = Some d -> nth_error ms i = Some (g, s, m) ->
  act_ok w ms (AOp i o ord) -> in_place o -> Storage.view (w_st w) (w_c w) d = Some l -> step l o = Done l' -> map_fits (spec_step m o) ->
  op_fails fs ord cfg (d_hs d) (d_hi d) l o l' (w_st w) = (st', ok) ->
  recovers g s st' (d_l d) (fun x => sin m x /\ sin (spec_step m o) x) (fun x => sin m x \/ sin (spec_step m o) x).
Proof.
  intros HR Ei Em Hok Hp Hv E HF Hc. unfold op_fails in Hc. pose proof (call_incl fs (op_groups ord cfg (d_hs d) (d_hi d) l o l') 0) as H.
  rewrite op_flat in H. destruct (call fs 0 _) as (w0 & ok0). injection Hc as <- _. eapply c25_recovers; eauto.
Qed.
Lemma c61_others cfg w ms i j o ord d d' l l' fs st' ok cfg' : runs cfg w ms -> nth_error (w_ls w) i = Some d -> nth_error (w_ls w) j = Some d' -> i <> j ->
  act_ok w ms (AOp i o ord) -> o <> OReload -> Storage.view (w_st w) (w_c w) d = Some l -> step l o = Done l' ->
  op_fails fs ord cfg (d_hs d) (d_hi d) l o l' (w_st w) = (st', ok) ->
  exists d2 l1 l2, reopen cfg' st' d' = Some d2 /\ Storage.view (w_st w) (w_c w) d' = Some l1 /\ Storage.view st' (fun _ => None) d2 = Some l2 /\
    stored_in l2 = stored_in l1 /\ indexed_in l2 = indexed_in l1.
Proof.
  intros HR Ei Ej Hij Hok Ho Hv E Hc. unfold op_fails in Hc. pose proof (call_incl fs (op_groups ord cfg (d_hs d) (d_hi d) l o l') 0) as H.
  rewrite op_flat in H. destruct (call fs 0 _) as (w0 & ok0). injection Hc as <- _. cbn [fst] in H. exact (c25_others cfg w ms i j o ord d d' l l' w0 cfg' HR Ei Ej Hij Hok Ho Hv E H).
Qed.

(** ** a delete that reports success *)
Lemma dropped_key (P : ev -> Prop) k : (forall e st, P e -> ev_store e st k = st k) -> forall es w, dropped P es w -> forall a b, a k = b k -> evs_store es a k = evs_store w b k.
Proof.
  intros HP es w H. induction H as [|e es w _ IH|e es w He _ IH]; intros a b Hk; [exact Hk| |]; rewrite ?evs_store_cons; apply IH.
  - destruct e; cbn [ev_store]; unfold put; (destruct (beq k _); [reflexivity|exact Hk]).
  - rewrite HP by exact He. exact Hk.
Qed.
Lemma c61_deleted cfg w ms i now sc1 sc2 ids ord d g s m l l' fs st' : let o := ODelete now sc1 sc2 ids in
  runs cfg w ms -> nth_error (w_ls w) i = Some d -> nth_error ms i = Some (g, s, m) ->
  act_ok w ms (AOp i o ord) -> Storage.view (w_st w) (w_c w) d = Some l -> step l o = Done l' -> map_fits (spec_step m o) ->
  op_fails fs ord cfg (d_hs d) (d_hi d) l o l' (w_st w) = (st', true) ->
  recovers g s st' (d_l d) (fun x => sin m x /\ ~ In (e_id x) ids) (fun x => sin m x /\ ~ In (e_id x) ids).
Proof.
  intros o HR Ei Em Hok Hv E HF Hc.
  assert (Ho : o <> OReload) by discriminate.
  destruct (at_world _ _ _ _ _ _ _ _ _ _ _ _ HR Ei Em Hok Hv E Ho) as (H1 & Hop & HB & Hf & Hr0 & _ & _ & HRep & HR'). cbn zeta in HRep.
  cbn [op_flags o fst snd] in HRep. pose proof HRep as [(A & B) M1 M2 HN HC]. pose proof HN as [N1 N2 N3 N4 N5].
  pose proof (reach_Inv _ _ _ _ HR') as HI'.
  assert (Al : alike l l') by (cbn [step o] in E; injection E as <-; apply delete_alike, Hr0).
  assert (EN : l_scores_id (d_l d) = l_scores_id l' /\ l_index_id (d_l d) = l_index_id l').
  { destruct (bare_eq_fields _ _ HB) as (_ & _ & E3 & _). rewrite <- (al_names _ _ Al) in E3. unfold names in E3. injection E3 as E3 E4. auto. }
  destruct EN as (EN1 & EN2). unfold recovers. rewrite EN1, EN2.
  eapply (recovers_weaken g s st' l' _ _ _ _ _ _ (kept_recovers g s (spec_step m o) (sin (spec_step m o)) l' st' HR' _ _)); clear EN1 EN2.
  (* the store *)
  Unshelve.
  - cbn beta. intros x (Hx & Hn). assert (sin (spec_step m o) x) by (cbn [spec_step o]; apply sin_sdel; auto). auto.
  - cbn beta. intros x Hx. assert (K : sin (spec_step m o) x) by tauto. cbn [spec_step o] in K. apply sin_sdel in K. tauto.
  - split; [apply alike_refl, HN|exists (sin (spec_step m o)); auto|eapply inv_fits; eauto].
  - unfold op_fails in Hc. cbn [op_groups o] in Hc.
    set (Pd := fun e => exists c s0, e = EPut c s0 /\ sg_parent s0 = l_index_id l').
    assert (D : dropped Pd (op_evs ord cfg (d_hs d) (d_hi d) l o l') (fst (call fs 0 (op_groups ord cfg (d_hs d) (d_hi d) l o l')))).
    { rewrite <- op_flat. apply call_ok; [|cbn [op_groups o]; destruct (call fs 0 _); injection Hc as _ ->; reflexivity].
      cbn [op_groups o]. unfold delete_elements_groups. cbn [step o] in E. injection E as <-.
      pose proof (co_par _ _ _ _ _ B) as PI. rewrite N2 in PI.
      destruct (delete_elements_idx now sc2 (l_scores l) _) as (s' & deleted) eqn:Ed.
      intros x Hx e He. apply in_app_iff in Hx as [[Hx|[Hx|[]]]|Hx].
      - discriminate.
      - injection Hx as <-. destruct deleted as [|d0 dr]; [destruct He|]. apply puts_In in He as (i0 & s0 & _ & Hs0 & ->).
        exists (d_hi d), s0. split; [reflexivity|]. rewrite Forall_forall in PI. apply PI. eapply nth_error_In, Hs0.
      - apply (each_silent _ x Hx) in He as Hd. apply in_map_iff in Hx as (e1 & E1 & H1'). injection E1 as <- E1. destruct He as [<-|[]].
        destruct H1' as [<-|[<-|[]]]; destruct Hd. }
    cbn [op_groups o] in D. destruct (call fs 0 _) as (w0 & ok0). injection Hc as <- _. cbn [fst] in D.
    assert (Km : forall n, plain n -> evs_store w0 (w_st w) (lit n) = evs_store (op_evs ord cfg (d_hs d) (d_hi d) l o l') (w_st w) (lit n)).
    { intros n Hn. symmetry. apply (dropped_key Pd _ ltac:(intros e st (c0 & s0 & -> & _); apply ev_store_meta; [exact Hn|intros []]) _ _ D). reflexivity. }
    assert (Ks : forall id, evs_store w0 (w_st w) (segment_key (lit (l_scores_id l')) id) = evs_store (op_evs ord cfg (d_hs d) (d_hi d) l o l') (w_st w) (segment_key (lit (l_scores_id l')) id)).
    { intros id. symmetry. refine (dropped_key Pd _ _ _ _ D _ _ eq_refl). intros e st (c0 & s0 & -> & Hp). apply ev_store_seg; cbn [ev_name touches].
      - rewrite Hp. exact N4.
      - intros (X & _). congruence. }
    assert (V : variant (sin (spec_step m o)) (sin (spec_step m o)) l' l').
    { split; [apply alike_refl, HN|exists (sin (spec_step m o)); auto|eapply inv_fits; eauto]. }
    split.
    + intros j Hj. destruct (nth_error (ss_segs (l_scores l')) j) as [t|] eqn:Et; [|apply nth_error_None in Et; lia].
      exists l', t. split; [exact V|]. split; [exact Et|]. pose proof (co_held _ _ _ _ _ A) as Hh. rewrite Forall_forall in Hh.
      destruct (Hh t (nth_error_In _ _ Et)) as (K & _). pose proof (co_par _ _ _ _ _ A) as Pp. rewrite Forall_forall in Pp.
      unfold key_of in *. rewrite (Pp t (nth_error_In _ _ Et)), N1 in *. rewrite Ks. exact K.
    + exists l'. split; [exact V|]. rewrite Km by exact N3. exact M1.
    + exists l'. split; [exact V|]. rewrite Km by exact N4. exact M2.
Qed.

(** ** Reindex never loses anything *)
Lemma same_meta st s : st (lit (ss_id s)) = Some (meta_blob s) -> forall k, ev_store (EMeta s) st k = st k.
Proof. intros H k. cbn [ev_store]. unfold put. destruct (beq k (lit (ss_id s))) eqn:E; [|reflexivity]. apply beq_true in E as ->. symmetry. exact H. Qed.
Lemma rep_ext cfg hs hi st st' c l : (forall k, st' k = st k) -> rep cfg hs hi st c l -> rep cfg hs hi st' c l.
Proof. intros H. apply rep_le. intros k v Hk. rewrite H. exact Hk. Qed.
Lemma rep_rest cfg hs hi c l n : plain n -> ~ In n (names l) -> forall es st,
  (forall e, In e es -> ev_name e = n \/ e = EMeta (l_scores l) \/ e = EMeta (l_index l)) ->
  rep cfg hs hi st c l -> rep cfg hs hi (evs_store es st) c l.
Proof.
  intros Hp Hn. induction es as [|e es IH]; intros st He HR; [exact HR|]. rewrite evs_store_cons. apply IH; [intros x Hx; apply He; right; exact Hx|].
  pose proof HR as [(A & B) M1 M2 HN HC]. pose proof HN as [N1 N2 N3 N4 N5]. destruct (He e (or_introl eq_refl)) as [E|[->| ->]].
  - assert (X : forall h n0 l0, n0 <> n -> coll h st c n0 l0 -> coll h (ev_store e st) c n0 l0).
    { intros h n0 l0 Hne [X1 X2 X3 X4]. split; auto. rewrite Forall_forall in *. intros t Ht. destruct (X1 t Ht) as (S1 & S2). split; [|exact S2].
      unfold key_of in *. rewrite ev_store_seg; [exact S1|rewrite E; exact Hp|]. intros K. apply touches_name in K. rewrite (X3 t Ht) in K. congruence. }
    assert (D1 : l_scores_id l <> n) by (intros K; apply Hn; left; exact K).
    assert (D2 : l_index_id l <> n) by (intros K; apply Hn; right; left; exact K).
    split; auto.
    + split; apply X; try assumption; congruence.
    + rewrite ev_store_meta; [exact M1|exact N3|]. intros K. apply meta_touches_name in K. congruence.
    + rewrite ev_store_meta; [exact M2|exact N4|]. intros K. apply meta_touches_name in K. congruence.
  - eapply rep_ext; [|exact HR]. apply same_meta. rewrite N1. exact M1.
  - eapply rep_ext; [|exact HR]. apply same_meta. rewrite N2. exact M2.
Qed.
Lemma reindex_start cfg hs hi st c P l l' ni now sc : Inv P l -> rep cfg hs hi st c l -> Inv P l' ->
  reindex_list ni now sc l = Done l' -> plain ni -> ~ In ni (names l) -> unused c ni ->
  let es := Storage.put_all false (ss_segs (l_index l')) ++ [EMeta (l_index l')] in
  rep cfg hs false (evs_store es st) (evs_cache es c) l' /\ (forall e, In e es -> ev_name e = ni) /\ names l' = [l_scores_id l; ni] /\ l_scores l' = l_scores l.
Proof.
  intros HI [(B1 & B2) R1 _ HN HC] HI' E Hpn Hfr Hun. cbn zeta. pose proof HN as [M1 M2 M3 M4 M5].
  assert (EL : l_scores l' = l_scores l /\ ss_id (l_index l') = ni).
  { unfold reindex_list in E. destruct (split_size _ _) as [parts|]; [|discriminate].
    pose proof (nse_name ni now parts true) as Hn. destruct (new_segments_elements ni now parts true) as (index & x).
    unfold guard_ids in E. destruct (ids_ok _); [|discriminate]. injection E as <-. cbn in *. auto. }
  destruct EL as (EL1 & EL2).
  pose proof (i_ns _ _ HI') as NS'. pose proof (i_ni _ _ HI') as NI'. rewrite EL1, M1 in NS'. rewrite EL2 in NI'.
  destruct (meta_nd_par _ _ (i_mi _ _ HI') EL2) as (PI & NI).
  assert (Hne : l_scores_id l <> ni) by (intros C; apply Hfr; rewrite <- C; cbn; auto).
  pose proof (put_all_names false _ _ PI) as W1.
  assert (HN' : named l') by (split; rewrite ?EL1, ?EL2, <- ?NS', <- ?NI'; auto).
  assert (Hall : forall e, In e (Storage.put_all false (ss_segs (l_index l')) ++ [EMeta (l_index l')]) -> ev_name e = ni).
  { intros e He. apply in_app_iff in He as [He|[<-|[]]]; [apply W1, He|exact EL2]. }
  split; [|split; [exact Hall|split; [unfold names; rewrite <- NS', <- NI'; reflexivity|exact EL1]]].
  split; auto.
  - unfold both. rewrite EL1, M1, EL2. rewrite M1 in B1. rewrite !evs_store_app, !evs_cache_app.
    split; (apply coll_meta; [constructor; [cbn; rewrite EL2; exact Hpn|constructor]|repeat constructor|]).
    + apply coll_frame; [apply names_plain with ni; assumption|intros e He; rewrite (W1 e He); congruence|exact B1].
    + apply coll_put_all; assumption.
  - rewrite <- NS', EL1. rewrite evs_store_meta; [exact R1|exact M3|]. intros e He K. apply meta_touches_name in K. rewrite (Hall e He) in K. congruence.
  - rewrite <- NI'. rewrite evs_store_app. cbn [evs_store fold_left ev_store]. rewrite EL2. apply put_same.
  - intros X. split; [apply HC, X|reflexivity].
Qed.
Lemma c61_reindex cfg w ms i ni now sc ord d g s m l l' fs st' ok cfg' : let o := OReindex ni now sc in
  runs cfg w ms -> nth_error (w_ls w) i = Some d -> nth_error ms i = Some (g, s, m) ->
  act_ok w ms (AOp i o ord) -> Storage.view (w_st w) (w_c w) d = Some l -> step l o = Done l' ->
  op_fails fs ord cfg (d_hs d) (d_hi d) l o l' (w_st w) = (st', ok) ->
  exists d2 l2, reopen cfg' st' (mkLd (reindex_left fs l l') (d_hs d) (d_hi d)) = Some d2 /\ Storage.view st' (fun _ => None) d2 = Some l2 /\
    reachable g s l2 m /\ (ok = true -> reindex_left fs l l' = l').
Proof.
  intros o HR Ei Em Hok Hv E Hc.
  destruct (at_world _ _ _ _ _ _ _ _ _ _ _ _ HR Ei Em Hok Hv E ltac:(discriminate)) as (H1 & Hop & HB & Hf & Hr0 & Hnew & _ & _ & HR'). cbn [spec_step o] in HR'.
  cbn [new_names o] in Hnew. apply Forall_cons_iff in Hnew as ((Hpn & Hfr & Hun) & _). cbn [step o] in E.
  destruct (reindex_start _ _ _ _ _ _ _ _ _ _ _ (reach_Inv _ _ _ _ H1) Hr0 (reach_Inv _ _ _ _ HR') E Hpn Hfr Hun) as (HS & Hall & Hnm & _). cbn zeta in *.
  pose proof Hr0 as [_ _ _ [N1 N2 N3 N4 N5] _].
  unfold op_fails in Hc. cbn [op_groups o] in Hc. unfold reindex_groups in Hc. rewrite (app_assoc (each _)) in Hc. rewrite call_app in Hc.
  unfold reindex_left. set (G1 := each (Storage.put_all false (ss_segs (l_index l'))) ++ each [EMeta (l_index l')]) in *.
  assert (F1 : flat G1 = Storage.put_all false (ss_segs (l_index l')) ++ [EMeta (l_index l')]) by (unfold G1; rewrite flat_app, !flat_each; reflexivity).
  pose proof (call_incl fs G1 0) as I1. pose proof (call_ok fs (fun _ => False) G1 0) as O1. rewrite F1 in *.
  assert (S1 : forall es, In (es, false) G1 -> forall e, In e es -> False).
  { intros es Hes e He. unfold G1 in Hes. apply in_app_iff in Hes as [Hes|[Hes|[]]]; [|discriminate].
    apply in_map_iff in Hes as (e1 & X & He1). apply in_map_iff in He1 as (t & <- & _). discriminate. }
  specialize (O1 S1).
  assert (Reload : forall h1 h2 st c lx, reachable g s lx m -> rep cfg h1 h2 st c lx -> exists d2 l2, reopen cfg' st (mkLd lx (d_hs d) (d_hi d)) = Some d2 /\
            Storage.view st (fun _ => None) d2 = Some l2 /\ reachable g s l2 m).
  { intros h1 h2 st c lx Hrx Hx. destruct (rep_reads _ _ _ _ _ _ _ _ _ cfg' Hrx Hf Hx) as (_ & d2 & X1 & X2). exists d2, (reload lx). split; [exact X1|]. split; [exact X2|].
    refine (R_step g s lx m OReload (reload lx) Hrx _ eq_refl). exact I. }
  destruct (call fs 0 G1) as (w1 & [|]) eqn:Ec; cbn [fst snd] in *.
  - assert (w1 = Storage.put_all false (ss_segs (l_index l')) ++ [EMeta (l_index l')]) as ->.
    { specialize (O1 eq_refl). clear - O1. induction O1 as [|e a b _ IH|e a b []]; [reflexivity|]. rewrite IH. reflexivity. }
    destruct (call fs _ _) as (w2 & ok2) eqn:E2. injection Hc as <- <-.
    assert (I2 : incl w2 (delete_evs (d_hi d) (ord 0%nat 0%nat) (l_index l) ++ save_evs l')).
    { pose proof (call_incl fs (delete_groups (d_hi d) (ord 0%nat 0%nat) (l_index l) ++ save_groups l') (0 + length (flat G1))) as X.
      rewrite F1 in X. rewrite E2 in X. cbn [fst] in X. rewrite flat_app, flat_delete, flat_save in X. exact X. }
    rewrite evs_store_app.
    destruct (Reload (d_hs d) false (evs_store w2 (evs_store (Storage.put_all false (ss_segs (l_index l')) ++ [EMeta (l_index l')]) (w_st w))) (evs_cache (Storage.put_all false (ss_segs (l_index l')) ++ [EMeta (l_index l')]) (w_c w)) l' HR') as (d2 & l2 & X1 & X2 & X3).
    { apply (rep_rest _ _ _ _ _ (l_index_id l)); [exact N4| | |exact HS].
      - rewrite Hnm. intros [K|[K|[]]]; [congruence|]. apply Hfr. rewrite K. right. left. reflexivity.
      - intros e He. apply I2 in He. apply in_app_iff in He as [He|[<-|[<-|[]]]]; auto. left. rewrite <- N2.
        eapply delete_names; [|exact He]. apply meta_par; [reflexivity|apply (reach_Inv _ _ _ _ H1)]. }
    exists d2, l2. auto.
  - injection Hc as <- <-.
    destruct (Reload (d_hs d) (d_hi d) (evs_store w1 (w_st w)) (evs_cache w1 (w_c w)) l H1) as (d2 & l2 & X1 & X2 & X3).
    { apply (rep_frame _ _ _ _ _ _ _ [ni] Hr0); [|constructor; [exact Hpn|constructor]|].
      - intros e He. left. symmetry. apply Hall, I1, He.
      - intros n [<-|[]]. exact Hfr. }
    exists d2, l2. repeat split; auto. discriminate.
Qed.
Lemma c61_clean fs ord cfg hs hi l o l' st : (forall n, fs n = Kept) -> op_fails fs ord cfg hs hi l o l' st = (evs_store (op_evs ord cfg hs hi l o l') st, true).
Proof. intros H. unfold op_fails. rewrite (call_kept fs H), op_flat. reflexivity. Qed.

(** writes that all reach the store, some answered with an error *)
Lemma tries_all fs : (forall n, fs n <> Refused) -> forall es n, fst (tries fs n es) = es.
Proof.
  intros H. induction es as [|e es IH]; intros n; [reflexivity|]. cbn [tries]. specialize (IH (S n)). destruct (tries fs (S n) es) as (w & ok).
  cbn [fst] in *. subst w. specialize (H n). destruct (fs n); [reflexivity|contradiction|reflexivity].
Qed.
Lemma call_all fs : (forall n, fs n <> Refused) -> forall gs n, snd (call fs n gs) = true -> fst (call fs n gs) = flat gs.
Proof.
  intros H. induction gs as [|(es & r) gs IH]; intros n; [reflexivity|]. cbn [call]. pose proof (tries_all fs H es n) as Ht.
  destruct (tries fs n es) as (w & ok). cbn [fst] in Ht. subst w. destruct (r && negb ok); [discriminate|].
  specialize (IH (n + length es)%nat). destruct (call fs (n + length es) gs) as (w' & ok'). cbn [fst snd] in *. intros E. rewrite (IH E). reflexivity.
Qed.
Lemma c61_unsure fs ord cfg hs hi l o l' st st' : (forall n, fs n <> Refused) -> op_fails fs ord cfg hs hi l o l' st = (st', true) ->
  st' = evs_store (op_evs ord cfg hs hi l o l') st.
Proof.
  intros H. unfold op_fails. pose proof (call_all fs H (op_groups ord cfg hs hi l o l') 0) as Hc.
  destruct (call fs 0 (op_groups ord cfg hs hi l o l')) as (w & ok). cbn [fst snd] in Hc. intros E. injection E as <- ->. rewrite Hc, op_flat by reflexivity. reflexivity.
Qed.

(** ** a pass of Split *)
Lemma call_each fs : forall es n, exists k, dropped deletes (firstn k es) (fst (call fs n (each es))).
Proof.
  induction es as [|e es IH]; intros n; [exists 0%nat; constructor|].
  change (each (e :: es)) with (([e], match e with EPut _ _ | EMeta _ => true | EDel _ _ | EMetaDel _ => false end) :: each es).
  cbn [call tries length]. destruct (IH (n + 1)%nat) as (k & Hk). destruct (call fs (n + 1) (each es)) as (w' & ok') eqn:Ec. cbn [fst] in *.
  assert (Hd : forall x, dropped deletes (firstn k es) w' -> x = true \/ deletes e -> dropped deletes (firstn (S k) (e :: es)) ((if x : bool then [e] else []) ++ w')).
  { intros x H Hx. cbn [firstn]. destruct x; [constructor 2; exact H|]. constructor 3; [|exact H]. destruct Hx as [Hx|Hx]; [discriminate|exact Hx]. }
  destruct e as [b s|b s|s|id]; destruct (fs n); cbn [reaches is_ok andb negb fst app];
    try (exists (S k); first [apply (Hd true Hk); auto|apply (Hd false Hk); right; exact I]; fail);
    try (exists 1%nat; cbn [firstn]; apply dropped_refl); exists 0%nat; constructor.
Qed.
Lemma dropped_none (P : ev -> Prop) es w : (forall e, In e es -> ~ P e) -> dropped P es w -> w = es.
Proof.
  intros H D. induction D as [|e a b _ IH|e a b He _ IH]; [reflexivity| |].
  - rewrite IH; [reflexivity|]. intros x Hx. apply H. right. exact Hx.
  - exfalso. apply (H e); [left; reflexivity|exact He].
Qed.
Lemma split_written fs ord hs hi merge now l : forall n,
  let p1 := split_part1 hs merge now l in let p2 := split_part2 ord hi merge now l in let p3 := split_part3 merge now l in
  let es := fst (call fs n (split_groups ord hs hi merge now l)) in
  (exists k, dropped deletes (firstn k p1) es) \/ (exists w1 t q, es = w1 ++ t ++ firstn q p3 /\ dropped deletes p1 w1 /\ incl t p2).
Proof.
  intros n p1 p2 p3. unfold split_groups. fold (split_part1 hs merge now l). fold p1. cbn zeta. rewrite call_app.
  destruct (call_each fs p1 n) as (k & Hk). pose proof (call_ok fs deletes (each p1) n (each_silent p1)) as Ho. rewrite flat_each in Ho.
  destruct (call fs n (each p1)) as (w1 & [|]); cbn [fst snd] in *; [|left; exists k; exact Hk]. specialize (Ho eq_refl). rewrite flat_each.
  generalize (n + length p1)%nat. clear n k Hk. intros n. right.
  unfold split_part2 in p2. unfold split_part3 in p3.
  destruct (split_loop_segs _ false merge _ _ _ _ _ _ _ _) as [(((ss & nx) & us) & upd)| | |];
    try (exists w1, [], 0%nat; cbn [call fst firstn app]; split; [reflexivity|split; [exact Ho|intros x []]]; fail).
  set (xs := update_index_elements now us (ss_segs (l_index l))) in *. cbn zeta in p2, p3.
  set (es2 := puts hi xs (permute (ord 0%nat) (updated_idx us (ss_segs (l_index l))))) in *.
  set (es3 := split_loop_evs (length xs) hi true true (l_merge l) (l_split l) now 0 xs (ss_next (l_index l))) in *.
  set (G3 := match split_loop_segs (length xs) true true _ _ _ _ _ _ _ _ with Done (_, _, _, true) => _ | _ => [] end).
  assert (E3 : G3 = each p3).
  { unfold G3, p3. destruct (split_loop_segs (length xs) true true _ _ _ _ _ _ _ _) as [(((is & nxi) & us2) & [|])| | |]; try reflexivity.
    destruct (split_pass merge now l); reflexivity. }
  rewrite E3. clearbody G3. change ((es2, true) :: each es3 ++ each p3) with (((es2, true) :: each es3) ++ each p3). rewrite call_app.
  assert (F2 : flat ((es2, true) :: each es3) = p2).
  { change (flat ((es2, true) :: each es3)) with (es2 ++ flat (each es3)). rewrite flat_each. reflexivity. }
  pose proof (call_incl fs ((es2, true) :: each es3) n) as I2. rewrite F2 in *.
  destruct (call fs n ((es2, true) :: each es3)) as (t & [|]); cbn [fst] in *.
  - destruct (call_each fs p3 (n + length p2)%nat) as (q & Hq). destruct (call fs (n + length p2) (each p3)) as (w3 & ok3). cbn [fst] in *.
    apply dropped_none in Hq as ->; [|].
    + exists w1, t, q. auto.
    + intros e He. apply In_firstn in He. unfold p3 in He. destruct (split_loop_segs (length xs) true true _ _ _ _ _ _ _ _) as [(((is & nxi) & us2) & [|])| | |]; try contradiction.
      destruct (split_pass merge now l) as [l'| | |]; try contradiction. destruct He as [<-|[<-|[]]]; exact (fun x => x).
  - exists w1, t, 0%nat. cbn [firstn]. rewrite app_nil_r. auto.
Qed.
Lemma c61_split cfg w ms i merge now ord d g s m l l' fs st' ok : let o := OSplit merge now in
  runs cfg w ms -> nth_error (w_ls w) i = Some d -> nth_error ms i = Some (g, s, m) ->
  act_ok w ms (AOp i o ord) -> Storage.view (w_st w) (w_c w) d = Some l -> step l o = Done l' ->
  op_fails fs ord cfg (d_hs d) (d_hi d) l o l' (w_st w) = (st', ok) ->
  merge = false \/ Forall (fun t => (length (sg_elems t) < s)%nat) (ss_segs (l_scores l)) ->
  recovers g s st' (d_l d)
    (fun x => sin m x /\ forall t, In t (ss_segs (l_scores l)) -> In x (sg_elems t) -> (length (sg_elems t) < s)%nat) (sin m).
Proof.
  intros o HR Ei Em Hok Hv E Hc Hno. unfold op_fails in Hc.
  pose proof (split_written fs (ord 0%nat) (d_hs d) (d_hi d) merge now l 0) as Hw. cbn zeta in Hw.
  cbn [o op_groups] in Hc. destruct (call fs 0 _) as (es & ok'). injection Hc as <- <-. cbn [fst] in Hw.
  exact (split_left_out cfg w ms i merge now ord d g s m l l' HR Ei Em Hok Hv E Hno es Hw).
Qed.
