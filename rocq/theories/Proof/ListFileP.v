(** What a server keeps of its lists: the invariant of its executions. *)
From Coq Require Import Strings.String Strings.Ascii.
From Verif.Lib Require Import Prelude ListAux ListLemmas Perm Bytes.
From Verif.Model Require Import Element Elements Segment List Msgp Codec Keys Storage ListFile.
From Verif.Spec Require Import RankSpec QuerySpec HistorySpec KeySpec CodecSpec StorageSpec ListFileSpec.
From Verif.Proof Require Import ElementP ElementsP SegP InvDef KeysP MsgpP CodecP ChangeP UpdateP BuildP BuildInv SplitP HistoryP StoreP StoreOps StoreBuild StoreWorld StoreThm StoreFinal ListFileCore.
Open Scope N_scope.

(** ** a list of which only the descriptor is in memory *)
Record stored (cfg : bool) (st : store) (c : cache) (x : desc) (b : bool) (l : lst) (e : entry) : Prop := {
  t_reach : reachable (fst (fst e)) (snd (fst e)) l (snd e);
  t_fit : fit_entry e;
  t_sizes : ds_merge x = fst (fst e) /\ ds_split x = snd (fst e);
  t_named : named l;
  t_scores : ds_scores x = l_scores_id l;
  t_body : if b then ds_index x = l_index_id l /\ StoreOps.rep cfg cfg cfg st c l
           else coll false st c (l_scores_id l) (ss_segs (l_scores l)) /\ st (lit (l_scores_id l)) = Some (meta_blob (l_scores l))
}.
Definition still (st : store) (c : cache) (st' : store) (c' : cache) (n : string) : Prop :=
  st' (lit n) = st (lit n) /\ (forall id, st' (segment_key (lit n) id) = st (segment_key (lit n) id)) /\ forall id, quiet c c' n id.
Lemma coll_still h st c st' c' n l : still st c st' c' n -> coll h st c n l -> coll h st' c' n l.
Proof.
  intros (_ & S & Q) [A B C D]. split; auto.
  - rewrite Forall_forall in *. intros s Hs. destruct (A s Hs) as (X & Y). unfold held, key_of, ckey_of in *. rewrite (C s Hs) in *.
    split; [rewrite S; exact X|]. destruct (Q (sg_id s)) as [-> | ->]; auto.
  - intros E id. destruct (Q id) as [-> | ->]; [apply B, E|reflexivity].
Qed.
Lemma rep_still cfg hs hi st c st' c' l : (forall n, In n (names l) -> still st c st' c' n) -> StoreOps.rep cfg hs hi st c l -> StoreOps.rep cfg hs hi st' c' l.
Proof.
  intros H [(A & B) M1 M2 HN HC]. pose proof HN as [N1 N2 _ _ _]. assert (H1 : still st c st' c' (l_scores_id l)) by (apply H; cbn; auto).
  assert (H2 : still st c st' c' (l_index_id l)) by (apply H; cbn; auto). split; auto.
  - split; eapply coll_still; eauto; rewrite ?N1, ?N2; assumption.
  - destruct H1 as (-> & _). exact M1.
  - destruct H2 as (-> & _). exact M2.
Qed.
Lemma stored_still cfg st c st' c' x (b : bool) l e : (forall n, In n (if b then names_of x else [ds_scores x]) -> still st c st' c' n) ->
  stored cfg st c x b l e -> stored cfg st' c' x b l e.
Proof.
  intros H [A B C D E F]. split; auto. destruct b.
  - destruct F as (F1 & F2). split; [exact F1|]. apply (rep_still _ _ _ st c); [|exact F2]. unfold names. rewrite <- E, <- F1. exact H.
  - rewrite E in H. destruct F as (F1 & F2). assert (H1 : still st c st' c' (l_scores_id l)) by (apply H; cbn; auto).
    split; [eapply coll_still; eauto|]. destruct H1 as (-> & _). exact F2.
Qed.

(** ** the invariant *)
Definition aligned (sp : holdings) (G : ghost) (p : string * loaded) (y : known) : Prop := sp (fst p) = Some (snd y) /\ G (fst p) = Some (true, fst y).
Definition cold_ok (cfg : bool) (s : sys) (sp : holdings) (G : ghost) (x : desc) : Prop :=
  match G (ds_id x) with
  | Some (b, l) => exists e, sp (ds_id x) = Some e /\ stored cfg (y_st s) (y_c s) x b l e
  | None => sp (ds_id x) = None
  end.
Record inv (cfg : bool) (s : sys) (sp : holdings) (G : ghost) (ys : list known) : Prop := {
  v_core : core s G;
  v_open : winv cfg (lists_of s) ys;
  v_ys : Forall2 (aligned sp G) (y_open s) ys;
  v_cold : forall x, In x (y_cold s) -> cold_ok cfg s sp G x;
  v_file : NoDup (map ds_id (y_file s));
  v_enc : NoDup (map ds_id (encoded s));
  v_none : forall id, ~ In id (ids s) -> sp id = None /\ G id = None
}.

Lemma Forall2_In_l {A B} (R : A -> B -> Prop) l m x : Forall2 R l m -> In x l -> exists y, In y m /\ R x y.
Proof. induction 1 as [|a b l m Hab _ IH]; intros [ ]; subst; [exists b; cbn; auto|]. destruct (IH H) as (y & Hy & Hr). exists y. cbn. auto. Qed.
Lemma Forall2_both {A B} (R S : A -> B -> Prop) l m : Forall2 R l m -> Forall2 S l m -> Forall2 (fun x y => R x y /\ S x y) l m.
Proof. induction 1; inversion 1; subst; constructor; auto. Qed.
Lemma Forall2_map_l {A B C} (f : A -> B) (R : B -> C -> Prop) l m : Forall2 R (map f l) m <-> Forall2 (fun x y => R (f x) y) l m.
Proof.
  split.
  - revert m. induction l as [|x l IH]; intros m H; inversion H; subst; constructor; auto.
  - induction 1; constructor; auto.
Qed.

(** what is known of a list in memory *)
Definition opens (cfg : bool) (st : store) (c : cache) (sp : holdings) (G : ghost) (p : string * loaded) (y : known) : Prop :=
  ok_at cfg st c (snd p) y /\ aligned sp G p y /\ fit_entry (snd y).
Lemma inv_opens cfg s sp G ys : inv cfg s sp G ys -> Forall2 (opens cfg (y_st s) (y_c s) sp G) (y_open s) ys.
Proof.
  intros [_ (A & _ & C) B _ _ _ _]. cbn [lists_of w_ls w_st w_c] in A. apply (Forall2_map_l snd) in A. pose proof (Forall2_both _ _ _ _ A B) as H. clear A B.
  revert C. induction H as [|p y op ys (H1 & H2) _ IH]; intros C; constructor; cbn [map] in C; apply Forall_cons_iff in C as (C1 & C2); auto. split; [exact H1|]. auto.
Qed.
Lemma opens_desc cfg st c sp G p y : opens cfg st c sp G p y ->
  names_of (desc_of p) = names (fst y) /\ ds_merge (desc_of p) = fst (fst (snd y)) /\ ds_split (desc_of p) = snd (fst (snd y)) /\ named (fst y).
Proof.
  destruct y as (l & ((g & z) & m)). intros ((HR & HB & Hr) & _ & _). cbn [fst snd] in *. destruct (bare_eq_fields _ _ HB) as (E1 & E2 & E3 & _).
  destruct (reach_inv _ _ _ _ HR) as (_ & M & S). unfold names_of, desc_of. cbn [ds_scores ds_index ds_merge ds_split fst snd]. unfold names in *.
  split; [exact E3|]. split; [congruence|]. split; [congruence|]. apply Hr.
Qed.
Lemma opens_lives cfg st c sp G p y n : opens cfg st c sp G p y -> (lives G (desc_of p) n <-> In n (names (d_l (snd p)))).
Proof.
  intros (_ & (_ & Hg) & _). unfold lives. cbn [desc_of ds_id fst snd ds_scores ds_index]. rewrite Hg. unfold names. cbn. split.
  - intros (b & l & X & [->|(_ & ->)]); auto.
  - intros [<-|[<-|[]]]; exists true, (fst y); auto.
Qed.
Lemma open_desc s p : In p (y_open s) -> In (desc_of p) (descs s).
Proof. intros H. apply in_or_app. left. apply in_map, H. Qed.
Lemma cold_desc s x : In x (y_cold s) -> In x (descs s).
Proof. intros H. apply in_or_app. auto. Qed.
Lemma inv_taken cfg s sp G ys n : inv cfg s sp G ys -> In n (taken (lists_of s)) <-> exists p, In p (y_open s) /\ lives G (desc_of p) n.
Proof.
  intros H. pose proof (inv_opens _ _ _ _ _ H) as HO. unfold taken, lists_of. cbn [w_ls]. rewrite in_flat_map. split.
  - intros (d & Hd & Hn). apply in_map_iff in Hd as (p & <- & Hp). exists p. split; [exact Hp|].
    destruct (Forall2_In_l _ _ _ _ HO Hp) as (y & _ & Ho). apply (opens_lives _ _ _ _ _ _ _ _ Ho), Hn.
  - intros (p & Hp & Hl). destruct (Forall2_In_l _ _ _ _ HO Hp) as (y & _ & Ho). apply (opens_lives _ _ _ _ _ _ _ _ Ho) in Hl.
    exists (snd p). split; [apply in_map, Hp|exact Hl].
Qed.
Lemma desc_cases s x : In x (descs s) -> (exists p, In p (y_open s) /\ x = desc_of p) \/ In x (y_cold s).
Proof. intros H. apply in_app_iff in H as [H|H]; [|auto]. apply in_map_iff in H as (p & <- & Hp). left. eauto. Qed.
(** a name of a list that is not in memory is not a name of one that is *)
Lemma cold_apart cfg s sp G ys x n : inv cfg s sp G ys -> In x (y_cold s) -> lives G x n -> ~ In n (taken (lists_of s)).
Proof.
  intros H Hx Hl C. apply (inv_taken _ _ _ _ _ _ H) in C as (p & Hp & Hlp).
  pose proof (c_apart _ _ (v_core _ _ _ _ _ H) x (desc_of p) n (cold_desc _ _ Hx) (open_desc _ _ Hp) Hl Hlp) as E.
  pose proof (c_ids _ _ (v_core _ _ _ _ _ H)) as Hn. unfold ids, descs in Hn. rewrite map_app in Hn. apply NoDup_app_iff in Hn as (_ & _ & Hn).
  apply (Hn (ds_id x)); [rewrite E; apply in_map, in_map, Hp|apply in_map, Hx].
Qed.

(** one list changes *)
Lemma inv_change cfg s sp G ys s' sp' G' ys' i0 T : inv cfg s sp G ys -> change s G s' G' i0 T ->
  winv cfg (lists_of s') ys' -> Forall2 (aligned sp' G') (y_open s') ys' ->
  (forall x, In x (y_cold s') -> ds_id x <> i0 -> In x (y_cold s)) ->
  (forall x, In x (y_cold s') -> ds_id x = i0 -> cold_ok cfg s' sp' G' x) ->
  (forall x n, In x (y_cold s) -> ds_id x <> i0 -> lives G x n -> still (y_st s) (y_c s) (y_st s') (y_c s') n) ->
  (forall i, i <> i0 -> sp' i = sp i) -> (~ In i0 (ids s') -> sp' i0 = None /\ G' i0 = None) ->
  y_file s' = y_file s -> NoDup (map ds_id (encoded s')) ->
  inv cfg s' sp' G' ys'.
Proof.
  intros HI HH Hw Hys Hc1 Hc2 Hst Hsp Hno Hf He. split; auto.
  - eapply core_change; [apply HI|exact HH].
  - intros x Hx. destruct (string_dec (ds_id x) i0) as [E|E]; [auto|]. pose proof (Hc1 x Hx E) as Hx0. pose proof (v_cold _ _ _ _ _ HI x Hx0) as H. unfold cold_ok in *.
    rewrite (h_ghost _ _ _ _ _ _ HH _ E), (Hsp _ E). destruct (G (ds_id x)) as [(b & l)|] eqn:Eg; [|exact H]. destruct H as (e & H1 & H2).
    exists e. split; [exact H1|]. eapply stored_still; [|exact H2]. intros n Hn. apply (Hst x n Hx0 E). exists b, l. split; [exact Eg|].
    destruct b; cbn in Hn; intuition.
  - rewrite Hf. apply HI.
  - intros i Hi. destruct (string_dec i i0) as [->|E]; [auto|]. rewrite (Hsp _ E), (h_ghost _ _ _ _ _ _ HH _ E). apply (v_none _ _ _ _ _ HI).
    intros C. apply Hi. unfold ids in *. apply in_map_iff in C as (x & <- & Hx). apply in_map_iff. exists x. split; [reflexivity|].
    apply (h_descs _ _ _ _ _ _ HH x E), Hx.
Qed.

(** ** frames *)
Lemma ok_at_plain cfg st c d y : ok_at cfg st c d y -> Forall plain (names (d_l d)).
Proof.
  destruct y as (l & e). intros (_ & HB & Hr). destruct (bare_eq_fields _ _ HB) as (_ & _ & -> & _). apply names_plain2, Hr.
Qed.
Lemma winv_plain cfg w ys : winv cfg w ys -> Forall plain (taken w).
Proof.
  intros (A & _). unfold taken. induction A as [|d y ls ys H _ IH]; [constructor|]. cbn [flat_map]. apply Forall_app. split; [eapply ok_at_plain, H|exact IH].
Qed.
Lemma taken_nth w i d n : nth_error (w_ls w) i = Some d -> In n (names (d_l d)) -> In n (taken w).
Proof. intros E Hn. unfold taken. apply in_flat_map. exists d. split; [eapply nth_error_In, E|exact Hn]. Qed.
Lemma own_cases w a n : In n (own w a) -> In n (taken w) \/ In n (takes a).
Proof.
  assert (Hof : forall i, In n (match nth_error (w_ls w) i with Some d => names (d_l d) | None => [] end) -> In n (taken w)).
  { intros i H. destruct (nth_error (w_ls w) i) as [d|] eqn:E; [|destruct H]. eapply taken_nth; eauto. }
  destruct a as [merge split ns ni now sc sch want e ord|i merge split ns ni now|i o ord|i ord|keep|i isidx j]; cbn [own takes]; auto.
  - intros H. apply in_app_iff in H as [H|H]; [left; eauto|]. right. destruct o; auto.
  - intros H. left. eauto.
Qed.
Definition moved_frame (T U : list string) (st : store) (c : cache) (st' : store) (c' : cache) : Prop :=
  (forall n, plain n -> ~ In n T -> st' (lit n) = st (lit n) /\ forall id, st' (segment_key (lit n) id) = st (segment_key (lit n) id)) /\
  (forall n id, ~ In n T -> ~ In n U -> quiet c c' n id).
Lemma frame_still T U st c st' c' n : moved_frame T U st c st' c' -> plain n -> ~ In n T -> ~ In n U -> still st c st' c' n.
Proof. intros (A & B) P H1 H2. destruct (A n P H1). repeat split; auto. Qed.
Lemma frame_evs es T st n : within es T -> Forall plain T -> plain n -> ~ In n T ->
  evs_store es st (lit n) = st (lit n) /\ forall id, evs_store es st (segment_key (lit n) id) = st (segment_key (lit n) id).
Proof.
  intros W HT Hp Hn. rewrite Forall_forall in HT. split; [|intros id]; apply (evs_store_key T); auto; intros m Hm [E|(id' & E)].
  - apply lit_inj in E. subst. contradiction.
  - apply (plain_not_key _ _ _ Hp E).
  - apply (plain_not_key m n id); [apply HT, Hm|auto].
  - apply c24_segment in E as (E & _). apply lit_inj in E. subst. contradiction.
Qed.
Lemma after_frame cfg w ys a w' : winv cfg w ys -> Forall plain (takes a) -> after cfg w ys a w' ->
  moved_frame (own w a) (taken w) (w_st w) (w_c w) (w_st w') (w_c w').
Proof.
  intros HW Ht (ys' & es & _ & _ & _ & Es & W & _ & Q & _). split; [|auto]. intros n Hp Hn. rewrite Es. apply (frame_evs es (own w a)); auto.
  apply Forall_forall. intros m Hm. apply own_cases in Hm as [Hm|Hm]; [|rewrite Forall_forall in Ht; auto].
  pose proof (winv_plain _ _ _ HW) as H. rewrite Forall_forall in H. auto.
Qed.

(** ** what the saver has *)
Definition enc (sv : option (list string * list desc)) : list desc := match sv with Some (_, b) => b | None => [] end.
Lemma has_In id l : has id l = true <-> In id l.
Proof.
  unfold has. rewrite existsb_exists. split; [intros (x & Hx & E); apply String.eqb_eq in E; subst; exact Hx|]. intros H. exists id. split; [exact H|apply String.eqb_refl].
Qed.
Lemma visit_enc x sv : NoDup (map ds_id (enc sv)) -> NoDup (map ds_id (enc (visit x sv))) /\ forall y, In y (enc (visit x sv)) -> In y (enc sv) \/ y = x.
Proof.
  intros H. destruct sv as [(todo & buf)|]; [|auto]. cbn [visit enc] in *. destruct (has (ds_id x) (map ds_id buf)) eqn:E; [auto|]. cbn [enc]. split.
  - rewrite map_app. apply NoDup_app_iff. split; [exact H|]. split; [repeat constructor; intros []|]. intros i Hi [<-|[]]. apply has_In in Hi. congruence.
  - intros y Hy. apply in_app_iff in Hy as [Hy|[<-|[]]]; auto.
Qed.
Lemma forget_enc id sv : enc (forget id sv) = enc sv.
Proof. destruct sv as [(todo & buf)|]; reflexivity. Qed.
Lemma save_after_enc s a seen : NoDup (map ds_id (encoded s)) -> NoDup (map ds_id (enc (save_after s a seen))) /\
  forall x, In x (enc (save_after s a seen)) -> In x (encoded s) \/ ds_scores x = ""%string.
Proof.
  intros H. change (encoded s) with (enc (y_save s)) in *. unfold save_after. destruct (blanks a) as [i|]; [|auto]. destruct (nth_error (y_open s) i) as [(id & d)|]; [|auto].
  set (x0 := mkD id _ _ "" ""). set (sv := if seen then visit x0 (y_save s) else y_save s).
  assert (Hs : NoDup (map ds_id (enc sv)) /\ forall x, In x (enc sv) -> In x (enc (y_save s)) \/ ds_scores x = ""%string).
  { unfold sv. destruct seen; [|auto]. destruct (visit_enc x0 _ H) as (A & B). split; [exact A|]. intros x Hx. destruct (B x Hx) as [C| ->]; auto. }
  destruct a; try exact Hs. rewrite forget_enc. exact Hs.
Qed.

(** ** a list comes into memory *)
Definition gset (id : string) (v : option (bool * lst)) (G : ghost) : ghost := fun j => if String.eqb j id then v else G j.
Lemma gset_same id v G : gset id v G id = v.
Proof. unfold gset. rewrite String.eqb_refl. reflexivity. Qed.
Lemma gset_other id v G j : j <> id -> gset id v G j = G j.
Proof. unfold gset. intros H. destruct (String.eqb_spec j id); [contradiction|reflexivity]. Qed.
Lemma set_same id v sp : set id v sp id = v.
Proof. unfold set. rewrite String.eqb_refl. reflexivity. Qed.
Lemma set_other id v sp j : j <> id -> set id v sp j = sp j.
Proof. unfold set. intros H. destruct (String.eqb_spec j id); [contradiction|reflexivity]. Qed.
Lemma drop_cold_In id l x : In x (drop_cold id l) <-> In x l /\ ds_id x <> id.
Proof.
  unfold drop_cold. rewrite filter_In. destruct (String.eqb_spec (ds_id x) id); cbn; intuition discriminate.
Qed.
Lemma drop_cold_ids id l : NoDup (map ds_id l) -> NoDup (map ds_id (drop_cold id l)).
Proof.
  intros H. unfold drop_cold. induction l as [|x l IH]; [constructor|]. cbn [map filter] in *. apply NoDup_cons_iff in H as (H1 & H2).
  destruct (negb _); [|auto]. cbn [map]. constructor; [|auto]. intros C. apply H1. apply in_map_iff in C as (y & E & Hy). apply filter_In in Hy as (Hy & _).
  rewrite <- E. apply in_map, Hy.
Qed.
Lemma drop_cold_none id l : ~ In id (map ds_id l) -> drop_cold id l = l.
Proof.
  intros H. unfold drop_cold. induction l as [|x l IH]; [reflexivity|]. cbn [map filter] in *. destruct (String.eqb_spec (ds_id x) id) as [E|E]; [exfalso; apply H; cbn; auto|].
  cbn [negb]. rewrite IH; [reflexivity|]. intros C. apply H. right. exact C.
Qed.
Lemma aligned_keep sp G sp' G' i0 : (forall i, i <> i0 -> sp' i = sp i) -> (forall i, i <> i0 -> G' i = G i) -> forall op ys, ~ In i0 (map fst op) ->
  Forall2 (aligned sp G) op ys -> Forall2 (aligned sp' G') op ys.
Proof.
  intros Hs Hg op ys Hi H. induction H as [|p y op ys (A & B) _ IH]; constructor.
  - cbn [map] in Hi. split; [rewrite Hs|rewrite Hg]; auto; intros E; apply Hi; left; exact E.
  - apply IH. intros C. apply Hi. right. exact C.
Qed.
Lemma ids_split s : ids s = map fst (y_open s) ++ map ds_id (y_cold s).
Proof. unfold ids, descs. rewrite map_app, map_map. reflexivity. Qed.

Section Append.
  Context (cfg : bool) (s : sys) (sp : holdings) (G : ghost) (ys : list known) (HI : inv cfg s sp G ys).
  Context (id : string) (d : loaded) (y : known) (st' : store) (c' : cache) (T : list string) (sv : option (list string * list desc)).
  Let s' := mkY st' c' (y_open s ++ [(id, d)]) (drop_cold id (y_cold s)) (y_file s) sv.
  Context (Hid : ~ In id (map fst (y_open s))).
  Context (Hfr : moved_frame T (taken (lists_of s)) (y_st s) (y_c s) st' c').
  Context (HT : forall n, In n T -> ~ In n (known_names s) \/ exists z, In z (y_cold s) /\ ds_id z = id /\ lives G z n).
  Context (Hnm : forall n, In n (names (d_l d)) -> ~ In n (known_names s) \/ exists z, In z (y_cold s) /\ ds_id z = id /\ lives G z n).
  Context (Hgo : forall z n, In z (y_cold s) -> ds_id z = id -> lives G z n -> ~ In n (names (d_l d)) -> st' (lit n) = None).
  Context (Hsm : forall z, In z (y_cold s) -> ds_id z = id -> G id <> None -> In (ds_scores z) (names (d_l d)) -> same z (desc_of (id, d))).
  Context (Hw : winv cfg (lists_of s') (ys ++ [y])).
  Context (Hen : NoDup (map ds_id (enc sv))).
  Context (Has : forall x, In x (enc sv) -> In x (encoded s) \/ ds_scores x = ""%string).

  Lemma inv_append : inv cfg s' (set id (Some (snd y)) sp) (gset id (Some (true, fst y)) G) (ys ++ [y]).
  Proof using All.
    pose proof (v_core _ _ _ _ _ HI) as HC.
    assert (Hod : ok_at cfg st' c' d y).
    { destruct Hw as (A & _). unfold lists_of, s' in A. cbn [w_st w_c w_ls y_st y_c y_open] in A. rewrite map_app in A. cbn [map snd] in A.
      apply Forall2_app_inv_l in A as (l1 & l2 & A1 & A2 & E). inversion A2 as [|? y0 ? l3 Hok Hn]; subst. inversion Hn; subst.
      apply app_inj_tail in E as (_ & <-). exact Hok. }
    assert (Hpl : Forall plain (names (d_l d))) by (eapply ok_at_plain, Hod). rewrite Forall_forall in Hpl.
    assert (Hdid : In (desc_of (id, d)) (descs s')).
    { apply open_desc. unfold s'. cbn [y_open]. apply in_or_app. right. left. reflexivity. }
    assert (Hds : forall x, In x (descs s') <-> x = desc_of (id, d) \/ In x (descs s) /\ ds_id x <> id).
    { intros x. unfold descs, s'. cbn [y_open y_cold]. rewrite map_app. rewrite !in_app_iff, drop_cold_In. cbn [map In]. split.
      - intros [[H|[<-|[]]]|(H & E)]; auto. right. split; [auto|]. intros E. apply Hid. apply in_map_iff in H as (p & <- & Hp). rewrite <- E. apply (in_map fst) in Hp. exact Hp.
      - intros [->|([H|H] & E)]; auto. }
    assert (Hnd : NoDup (ids s')).
    { rewrite ids_split. unfold s'. cbn [y_open y_cold]. rewrite map_app. cbn [map fst]. pose proof (c_ids _ _ HC) as H. rewrite ids_split in H.
      apply NoDup_app_iff in H as (N1 & N2 & N3). apply NoDup_app_iff. split; [apply NoDup_app_iff; split; [exact N1|split; [repeat constructor; intros []|intros i Hi [<-|[]]; auto]]|].
      split; [apply drop_cold_ids, N2|]. intros i Hi C. apply in_map_iff in C as (x & <- & Hx). apply drop_cold_In in Hx as (Hx & Hne).
      apply in_app_iff in Hi as [Hi|[Hi|[]]]; [|congruence]. apply (N3 _ Hi). apply in_map, Hx. }
    assert (Hlv : forall n, lives (gset id (Some (true, fst y)) G) (desc_of (id, d)) n <-> In n (names (d_l d))).
    { intros n. unfold lives. cbn [desc_of ds_id fst snd ds_scores ds_index]. rewrite gset_same. unfold names. cbn. split.
      - intros (b & l & X & [->|(_ & ->)]); auto.
      - intros [<-|[<-|[]]]; exists true, (fst y); auto. }
    assert (Huq : forall z, In z (descs s') -> ds_id z = id -> z = desc_of (id, d)).
    { intros z Hz E. apply (nodup_desc _ _ _ Hnd Hz Hdid). exact E. }
    assert (Hcd : forall z, In z (descs s) -> ds_id z = id -> In z (y_cold s)).
    { intros z Hz E. apply desc_cases in Hz as [(p & Hp & ->)|Hz]; [|exact Hz]. exfalso. apply Hid. rewrite <- E. apply (in_map fst) in Hp. exact Hp. }
    assert (HH : change s G s' (gset id (Some (true, fst y)) G) id T).
    { split.
      - intros x E. rewrite Hds. split; [intros [->|H]; [exfalso; apply E; reflexivity|tauto]|tauto].
      - intros i E. apply gset_other, E.
      - exact Hnd.
      - intros n P Hn. destruct Hfr as (F & _). apply (F n P Hn).
      - intros n Hn. destruct (HT n Hn) as [H|(z & Hz & E & L)]; [auto|]. right. exists z. split; [apply cold_desc, Hz|auto].
      - intros z n Hz E L. rewrite (Huq z Hz E) in L. apply Hlv in L. split; [apply Hpl, L|].
        destruct (Hnm n L) as [H|(x & Hx & Ex & Lx)]; [auto|]. right. exists x. split; [apply cold_desc, Hx|auto].
      - intros z n Hz E L Hno. apply (Hgo z n (Hcd z Hz E) E L). intros C. apply (Hno _ Hdid eq_refl). apply Hlv, C.
      - intros x z Hx Hz Ex Ez Hg L. rewrite (Huq z Hz Ez) in *. apply Hlv in L. apply (Hsm x (Hcd x Hx Ex) Ex Hg L).
      - intros z Hz E. split; [rewrite gset_same; eauto|]. rewrite (Huq z Hz E). destruct y as (l & e). destruct Hod as (_ & HB & Hr).
        destruct (bare_eq_fields _ _ HB) as (_ & _ & En & _). unfold names in En. injection En as E1 E2. cbn [desc_of ds_scores ds_index snd]. rewrite E1, E2. apply Hr.
      - intros x Hx. unfold aside, encoded, s' in Hx. cbn [y_file y_save] in Hx. apply in_app_iff in Hx as [Hx|Hx]; [left; apply in_or_app; auto|].
        destruct (Has x Hx) as [H|H]; [left; apply in_or_app; auto|auto]. }
    eapply inv_change; [exact HI|exact HH|exact Hw| | | | | | | |].
    - unfold s'. cbn [y_open]. apply Forall2_app.
      + eapply (aligned_keep sp G); [intros i E; apply set_other, E|intros i E; apply gset_other, E|exact Hid|apply HI].
      + constructor; [|constructor]. split; cbn [fst]; [apply set_same|apply gset_same].
    - intros x Hx _. unfold s' in Hx. cbn [y_cold] in Hx. apply drop_cold_In in Hx. tauto.
    - intros x Hx E. unfold s' in Hx. cbn [y_cold] in Hx. apply drop_cold_In in Hx. tauto.
    - intros x n Hx E L. unfold s'. cbn [y_st y_c]. apply (frame_still _ _ _ _ _ _ _ Hfr); [apply (c_plain _ _ HC x n (cold_desc _ _ Hx) L)| |eapply cold_apart; eauto].
      intros C. destruct (HT n C) as [H|(z & Hz & Ez & Lz)]; [apply H; eapply lives_known; [apply cold_desc, Hx|exact L]|].
      apply E. rewrite <- Ez. apply (c_apart _ _ HC x z n); auto using cold_desc.
    - intros i E. apply set_other, E.
    - intros C. exfalso. apply C. rewrite ids_split. unfold s'. cbn [y_open]. rewrite map_app. apply in_or_app. left. apply in_or_app. right. left. reflexivity.
    - reflexivity.
    - exact Hen.
  Qed.
End Append.

Lemma perm_replace {A} (a r b c k : list A) : Permutation ((a ++ r ++ b) ++ c ++ k) ((r ++ k) ++ (a ++ b) ++ c).
Proof.
  transitivity (((r ++ (a ++ b)) ++ c) ++ k).
  - rewrite !app_assoc. do 2 apply Permutation_app_tail. rewrite <- !app_assoc. apply Permutation_app_swap_app.
  - rewrite <- !app_assoc. apply Permutation_app_head. rewrite !app_assoc. rewrite (Permutation_app_comm _ k). rewrite <- !app_assoc. reflexivity.
Qed.

(** ** a list in memory changes, is released or goes *)
Section Replace.
  Context (cfg : bool) (s : sys) (sp : holdings) (G : ghost) (ys : list known) (HI : inv cfg s sp G ys).
  Context (a b : list (string * loaded)) (p : string * loaded) (Hop : y_open s = a ++ p :: b).
  Context (r : list (string * loaded)) (k : list desc) (v : option entry) (g : option (bool * lst)) (ys' : list known).
  Context (st' : store) (c' : cache) (T : list string) (sv : option (list string * list desc)).
  Let s' := mkY st' c' (a ++ r ++ b) (y_cold s ++ k) (y_file s) sv.
  Let D' := map desc_of r ++ k.
  Context (Hone : D' = [] /\ g = None /\ v = None \/ exists z l, D' = [z] /\ ds_id z = fst p /\ g = Some (true, l)).
  Context (Hfr : moved_frame T (taken (lists_of s)) (y_st s) (y_c s) st' c').
  Context (HT : forall n, In n T -> ~ In n (known_names s) \/ In n (names (d_l (snd p)))).
  Context (Hnm : forall z n, In z D' -> In n (names_of z) -> plain n /\ (~ In n (known_names s) \/ In n (names (d_l (snd p))))).
  Context (Htw : forall z, In z D' -> ds_scores z <> ds_index z).
  Context (Hgo : forall n, In n (names (d_l (snd p))) -> (forall z, In z D' -> ~ In n (names_of z)) -> st' (lit n) = None).
  Context (Hsm : forall z, In z D' -> In (ds_scores (desc_of p)) (names_of z) -> same (desc_of p) z).
  Context (Hw : winv cfg (lists_of s') ys').
  Context (Hys : forall sp' G', (forall i, i <> fst p -> sp' i = sp i) -> (forall i, i <> fst p -> G' i = G i) -> sp' (fst p) = v -> G' (fst p) = g ->
    Forall2 (aligned sp' G') (a ++ r ++ b) ys').
  Context (Hk : forall x, In x k -> exists l e, g = Some (true, l) /\ v = Some e /\ stored cfg st' c' x true l e).
  Context (Hen : NoDup (map ds_id (enc sv))).
  Context (Has : forall x, In x (enc sv) -> In x (encoded s) \/ ds_scores x = ""%string).

  Lemma inv_replace : inv cfg s' (set (fst p) v sp) (gset (fst p) g G) ys'.
  Proof using All.
    pose proof (v_core _ _ _ _ _ HI) as HC. pose proof (inv_opens _ _ _ _ _ HI) as HO.
    assert (Hp : In p (y_open s)) by (rewrite Hop; apply in_elt).
    destruct (Forall2_In_l _ _ _ _ HO Hp) as (y & _ & Hoy). set (id := fst p) in *. set (G' := gset id g G) in *.
    pose proof (c_ids _ _ HC) as Hn. rewrite ids_split, Hop, map_app in Hn. cbn [map] in Hn. fold id in Hn.
    apply NoDup_app_iff in Hn as (N1 & N2 & N3).
    assert (Nab : NoDup (map fst a ++ map fst b) /\ ~ In id (map fst a ++ map fst b)).
    { split; [eapply NoDup_remove_1, N1|eapply NoDup_remove_2, N1]. }
    destruct Nab as (Nab & Nid). assert (Nc : ~ In id (map ds_id (y_cold s))) by (apply N3, in_elt).
    assert (Hids : forall z, In z D' -> ds_id z = id).
    { intros z Hz. destruct Hone as [(E & _)|(z' & l & E & Ez & _)]; rewrite E in Hz; [destruct Hz|]. destruct Hz as [<-|[]]. exact Ez. }
    assert (Hds : forall x, In x (descs s') <-> In x D' \/ In x (descs s) /\ ds_id x <> id).
    { intros x. unfold descs, s', D'. cbn [y_open y_cold]. rewrite Hop, !map_app. cbn [map]. rewrite !in_app_iff. cbn [In]. split.
      - assert (Ha : In x (map desc_of a) -> ds_id x <> id).
        { intros H E. apply Nid. apply in_or_app. left. rewrite <- E. apply in_map_iff in H as (q & <- & Hq). apply (in_map fst) in Hq. exact Hq. }
        assert (Hb : In x (map desc_of b) -> ds_id x <> id).
        { intros H E. apply Nid. apply in_or_app. right. rewrite <- E. apply in_map_iff in H as (q & <- & Hq). apply (in_map fst) in Hq. exact Hq. }
        assert (Hc : In x (y_cold s) -> ds_id x <> id) by (intros H E; apply Nc; rewrite <- E; apply in_map, H).
        tauto.
      - intros [H|(H & E)]; [tauto|]. assert (desc_of p <> x) by (intros <-; apply E; reflexivity). tauto. }
    assert (Hlv : forall z n, In z D' -> (lives G' z n <-> In n (names_of z))).
    { intros z n Hz. unfold lives, G'. rewrite (Hids z Hz), gset_same. destruct Hone as [(E & _)|(z' & l & E & _ & ->)]; [rewrite E in Hz; destruct Hz|].
      unfold names_of. cbn. split; [intros (b' & l' & X & [->|(_ & ->)]); auto|]. intros [<-|[<-|[]]]; exists true, l; auto. }
    assert (Hpd : forall x, In x (descs s) -> ds_id x = id -> x = desc_of p).
    { intros x Hx E. apply (descs_uniq s G); auto. apply open_desc, Hp. }
    assert (Hnd : NoDup (ids s')).
    { assert (Hperm : Permutation (ids s') (map ds_id D' ++ (map fst a ++ map fst b) ++ map ds_id (y_cold s))).
      { rewrite ids_split. unfold s', D'. cbn [y_open y_cold]. rewrite !map_app. rewrite map_map.
        change (map (fun x => ds_id (desc_of x)) r) with (map fst r). apply perm_replace. }
      eapply Permutation_NoDup; [symmetry; exact Hperm|]. apply NoDup_app_iff. split; [|split].
      - destruct Hone as [(-> & _)|(z & l & -> & _)]; repeat constructor. intros [].
      - apply NoDup_app_iff. split; [exact Nab|]. split; [exact N2|]. intros i Hi. apply N3. apply in_app_iff in Hi as [Hi|Hi]; apply in_or_app; [auto|right; right; exact Hi].
      - intros i Hi C. apply in_map_iff in Hi as (z & <- & Hz). rewrite (Hids z Hz) in C. apply in_app_iff in C as [C|C]; auto. }
    assert (HH : change s G s' G' id T).
    { split.
      - intros x E. rewrite Hds. split; [intros [H|H]; [exfalso; apply E, Hids, H|tauto]|tauto].
      - intros i E. apply gset_other, E.
      - exact Hnd.
      - intros n P Hn. destruct Hfr as (F & _). apply (F n P Hn).
      - intros n Hn. destruct (HT n Hn) as [H|H]; [auto|]. right. exists (desc_of p). split; [apply open_desc, Hp|]. split; [reflexivity|].
        apply (opens_lives _ _ _ _ _ _ _ _ Hoy), H.
      - intros z n Hz E L. apply Hds in Hz as [Hz|(_ & C)]; [|contradiction]. apply Hlv in L; [|exact Hz]. destruct (Hnm z n Hz L) as (P & [H|H]); [auto|].
        split; [exact P|]. right. exists (desc_of p). split; [apply open_desc, Hp|]. split; [reflexivity|]. apply (opens_lives _ _ _ _ _ _ _ _ Hoy), H.
      - intros x n Hx E L Hno. rewrite (Hpd x Hx E) in L. apply (opens_lives _ _ _ _ _ _ _ _ Hoy) in L. apply (Hgo n L).
        intros z Hz C. apply (Hno z); [apply Hds; auto|apply Hids, Hz|apply Hlv; assumption].
      - intros x z Hx Hz Ex Ez _ L. rewrite (Hpd x Hx Ex) in *. apply Hds in Hz as [Hz|(_ & C)]; [|contradiction]. apply Hlv in L; [|exact Hz]. apply (Hsm z Hz L).
      - intros z Hz E. apply Hds in Hz as [Hz|(_ & C)]; [|contradiction]. split; [|apply Htw, Hz].
        destruct Hone as [(E0 & _)|(z' & l & _ & _ & Eg)]; [rewrite E0 in Hz; destruct Hz|]. exists l. unfold G'. rewrite gset_same. exact Eg.
      - intros x Hx. unfold aside, encoded, s' in Hx. cbn [y_file y_save] in Hx. apply in_app_iff in Hx as [Hx|Hx]; [left; apply in_or_app; auto|].
        destruct (Has x Hx) as [H|H]; [left; apply in_or_app; auto|auto]. }
    eapply inv_change; [exact HI|exact HH|exact Hw| | | | | | | |].
    - unfold s'. cbn [y_open]. apply Hys; [intros i E; apply set_other, E|intros i E; apply gset_other, E|apply set_same|apply gset_same].
    - intros x Hx E. unfold s' in Hx. cbn [y_cold] in Hx. apply in_app_iff in Hx as [Hx|Hx]; [exact Hx|]. exfalso. apply E, Hids. apply in_or_app. auto.
    - intros x Hx E. unfold s' in Hx. cbn [y_cold] in Hx. apply in_app_iff in Hx as [Hx|Hx]; [exfalso; apply Nc; rewrite <- E; apply in_map, Hx|].
      destruct (Hk x Hx) as (l & e & Eg & Ev & Hs). unfold cold_ok, G', s'. cbn [y_st y_c]. rewrite E, gset_same, set_same, Eg. eauto.
    - intros x n Hx E L. unfold s'. cbn [y_st y_c]. pose proof (cold_apart _ _ _ _ _ _ _ HI Hx L) as Hna.
      apply (frame_still _ _ _ _ _ _ _ Hfr); [apply (c_plain _ _ HC x n (cold_desc _ _ Hx) L)| |exact Hna].
      intros C. destruct (HT n C) as [H|H]; [apply H; eapply lives_known; [apply cold_desc, Hx|exact L]|].
      apply Hna. apply (inv_taken _ _ _ _ _ _ HI). exists p. split; [exact Hp|]. apply (opens_lives _ _ _ _ _ _ _ _ Hoy), H.
    - intros i E. apply set_other, E.
    - intros C. unfold G'. rewrite set_same, gset_same. destruct Hone as [(_ & -> & ->)|(z & l & E & Ez & _)]; [auto|]. exfalso. apply C.
      unfold ids. apply in_map_iff. exists z. split; [exact Ez|]. apply Hds. left. rewrite E. left. reflexivity.
    - reflexivity.
    - exact Hen.
  Qed.
End Replace.

(** ** calls *)
Lemma combine_parts {A B} (l : list (A * B)) : combine (map fst l) (map snd l) = l.
Proof. induction l as [|(x & y) l IH]; cbn; [reflexivity|]. rewrite IH. reflexivity. Qed.
Lemma combine_tail {A B} (l : list (A * B)) x y : combine (map fst l ++ [x]) (map snd l ++ [y]) = l ++ [(x, y)].
Proof. induction l as [|(u & v) l IH]; cbn; [reflexivity|]. rewrite IH. reflexivity. Qed.
Lemma combine_mid {A B} (a b : list (A * B)) p y : combine (map fst (a ++ p :: b)) (map snd a ++ y :: map snd b) = a ++ (fst p, y) :: b.
Proof.
  induction a as [|(u & v) a IH]; cbn.
  - rewrite combine_parts. reflexivity.
  - rewrite IH. reflexivity.
Qed.
Lemma some_map {A B} (f : A -> option B) l m : map f l = map Some m -> Forall2 (fun x y => f x = Some y) l m.
Proof. revert m. induction l as [|x l IH]; intros [|y m] E; cbn in E; try discriminate; constructor; [congruence|apply IH; congruence]. Qed.
Lemma inv_ms cfg s sp G ys ms : inv cfg s sp G ys -> map (fun p => sp (fst p)) (y_open s) = map Some ms -> ms = map snd ys.
Proof.
  intros H E. apply some_map in E. pose proof (v_ys _ _ _ _ _ H) as A. clear H. revert ms E. induction A as [|p y op ys (A1 & _) _ IH]; intros ms E; inversion E; subst; [reflexivity|].
  cbn [map]. rewrite (IH l' H3). congruence.
Qed.
Lemma Forall2_mid {A B} (R : A -> B -> Prop) a x b c y d : length a = length c -> Forall2 R (a ++ x :: b) (c ++ y :: d) -> R x y.
Proof.
  revert c. induction a as [|u a IH]; intros [|v c] E H; try discriminate; inversion H; subst; auto. eapply IH; eauto.
Qed.
Lemma world_eta w : mkW (w_st w) (w_c w) (w_ls w) = w.
Proof. destruct w; reflexivity. Qed.
Lemma known_taken cfg s sp G ys n : inv cfg s sp G ys -> In n (taken (lists_of s)) -> In n (known_names s).
Proof. intros H Hn. apply (inv_taken _ _ _ _ _ _ H) in Hn as (p & Hp & L). eapply lives_known; [apply open_desc, Hp|exact L]. Qed.

Lemma takes_plain s a : Forall (new_name s) (takes a) -> Forall plain (takes a).
Proof. apply Forall_impl. intros n (P & _). exact P. Qed.
Lemma takes_new s T n : Forall (new_name s) T -> In n T -> ~ In n (known_names s).
Proof. intros H Hn. rewrite Forall_forall in H. destruct (H n Hn) as (_ & X & _). exact X. Qed.

(** a new list *)
Lemma inv_new cfg s sp G ys a w' id ns ni sv d v : inv cfg s sp G ys ->
  act_ok (lists_of s) (map snd ys) a -> act_on cfg (lists_of s) a = Some w' -> Forall (new_name s) (takes a) ->
  Forall fit_entry (act_spec (map snd ys) a) -> takes a = [ns; ni] -> own (lists_of s) a = [ns; ni] ->
  w_ls w' = map snd (y_open s) ++ [d] -> names (d_l d) = [ns; ni] -> (forall ys', rel a ys ys' -> exists y, ys' = ys ++ [y]) ->
  act_spec (map snd ys) a = map snd ys ++ [v] ->
  ~ In id (map fst (y_open s)) -> G id = None ->
  NoDup (map ds_id (enc sv)) -> (forall x, In x (enc sv) -> In x (encoded s) \/ ds_scores x = ""%string) ->
  exists G' ys', inv cfg (mkY (w_st w') (w_c w') (y_open s ++ [(id, d)]) (drop_cold id (y_cold s)) (y_file s) sv) (set id (Some v) sp) G' ys'.
Proof.
  intros HI Hok E Hnew HF Et Eo Ew Ed Hrel Hspec Hid Hg Hen Has.
  pose proof (v_open _ _ _ _ _ HI) as HW. pose proof (upd_ok _ _ _ _ _ HW Hok E HF) as HA.
  pose proof (after_frame _ _ _ _ _ HW (takes_plain _ _ Hnew) HA) as Hfr.
  destruct HA as (ys' & es & HW' & Hsp & Hr & _). destruct (Hrel ys' Hr) as (y & ->). rewrite Hspec, map_app in Hsp. apply app_inj_tail in Hsp as (_ & Hv). cbn [map] in Hv.
  exists (gset id (Some (true, fst y)) G), (ys ++ [y]). replace v with (snd y).
  assert (Hdead : forall z n, In z (y_cold s) -> ds_id z = id -> ~ lives G z n).
  { intros z n _ Ez (b & l & X & _). rewrite Ez in X. congruence. }
  eapply (inv_append cfg s sp G ys HI id d y (w_st w') (w_c w') (own (lists_of s) a)); auto.
  - intros n Hn. left. apply (takes_new s _ n Hnew). rewrite Et, <- Eo. exact Hn.
  - intros n Hn. left. apply (takes_new s _ n Hnew). rewrite Et, <- Ed. exact Hn.
  - intros z n Hz Ez L. exfalso. apply (Hdead z n Hz Ez L).
  - intros z _ _ C. contradiction.
  - unfold lists_of. cbn [y_st y_c y_open]. rewrite map_app. cbn [map snd]. rewrite <- Ew, world_eta. exact HW'.
Qed.

(** names of a list in memory are not those of the others *)
Lemma names_others cfg s sp G ys pa pb p n : inv cfg s sp G ys -> y_open s = pa ++ p :: pb -> In n (names (d_l (snd p))) ->
  forall q, In q (pa ++ pb) -> ~ In n (names (d_l (snd q))).
Proof.
  intros HI E1 Hn q Hq C. destruct (v_open _ _ _ _ _ HI) as (_ & HN & _). unfold taken, lists_of in HN. cbn [w_ls] in HN. rewrite E1, map_app in HN. cbn [map] in HN.
  rewrite flat_map_app in HN. cbn [flat_map] in HN. apply NoDup_app_iff in HN as (N1 & N2 & N3). apply NoDup_app_iff in N2 as (N4 & N5 & N6).
  apply in_app_iff in Hq as [Hq|Hq].
  - apply (N3 n); [|apply in_or_app; auto]. apply in_flat_map. exists (snd q). split; [apply in_map, Hq|exact C].
  - apply (N6 n Hn). apply in_flat_map. exists (snd q). split; [apply in_map, Hq|exact C].
Qed.

(** no list changes *)
Lemma inv_idle cfg s sp G ys s' : inv cfg s sp G ys -> winv cfg (lists_of s') ys ->
  y_st s' = y_st s -> y_open s' = y_open s -> y_cold s' = y_cold s -> (forall n id, ~ In n (taken (lists_of s)) -> quiet (y_c s) (y_c s') n id) ->
  (forall x, In x (aside s') -> In x (aside s) \/ In x (descs s)) -> NoDup (map ds_id (y_file s')) -> NoDup (map ds_id (encoded s')) ->
  inv cfg s' sp G ys.
Proof.
  intros HI Hw Es Eo Ec Hq Ha Hf He. assert (Ed : descs s' = descs s) by (unfold descs; rewrite Eo, Ec; reflexivity).
  split; auto.
  - eapply core_saves; eauto. apply HI.
  - rewrite Eo. apply HI.
  - rewrite Ec. intros x Hx. pose proof (v_cold _ _ _ _ _ HI x Hx) as H. unfold cold_ok in *. destruct (G (ds_id x)) as [(b & l)|] eqn:Eg; [|exact H].
    destruct H as (e & H1 & H2). exists e. split; [exact H1|]. eapply stored_still; [|exact H2]. intros n Hn. rewrite Es. split; [reflexivity|]. split; [reflexivity|].
    intros id. apply Hq. eapply cold_apart; [exact HI|exact Hx|]. exists b, l. split; [exact Eg|]. destruct b; cbn in Hn; intuition.
  - unfold ids. rewrite Ed. apply HI.
Qed.

Lemma inv_call cfg s sp G ys nid a seen s' : inv cfg s sp G ys -> call_ok s sp nid a -> next cfg s (ECall nid a seen) = Some s' ->
  exists G' ys', inv cfg s' (call_spec s nid a sp) G' ys'.
Proof.
  intros HI (ms & Hms & Hok & Hnew & Hnid & HF) E. rewrite (inv_ms _ _ _ _ _ _ HI Hms) in *. clear ms Hms.
  pose proof (v_open _ _ _ _ _ HI) as HW. destruct (save_after_enc s a seen (v_enc _ _ _ _ _ HI)) as (Hen & Has).
  assert (En : exists w', act_on cfg (lists_of s) a = Some w' /\
     s' = mkY (w_st w') (w_c w') (combine (ids_after s nid a) (w_ls w')) (y_cold s) (y_file s) (save_after s a seen)).
  { destruct s as [st c op cold file sv]. cbn [next] in E. destruct (act_on cfg _ a) as [w'|]; [|discriminate]. injection E as <-. eauto. }
  destruct En as (w' & Ea & ->). clear E.
  pose proof (upd_ok _ _ _ _ _ HW Hok Ea HF) as HA.
  pose proof (after_frame _ _ _ _ _ HW (takes_plain _ _ Hnew) HA) as Hfr.
  pose proof HA as (ys' & es & HW' & Hsp & Hrel & Est & W & _ & Hqt & Hgone & Hmv).
  assert (Hcreate : creates a = true -> ~ In nid (map fst (y_open s)) /\ G nid = None /\ drop_cold nid (y_cold s) = y_cold s).
  { intros Hc. specialize (Hnid Hc). split; [|split].
    - intros C. apply Hnid. rewrite ids_split. apply in_or_app. auto.
    - apply (v_none _ _ _ _ _ HI nid Hnid).
    - apply drop_cold_none. intros C. apply Hnid. rewrite ids_split. apply in_or_app. auto. }
  (* calls on one list *)
  assert (Hone : forall i d, nth_error (w_ls (lists_of s)) i = Some d -> exists pa pb p ya yb y, y_open s = pa ++ p :: pb /\ snd p = d /\ length pa = i /\
     ys = ya ++ y :: yb /\ length ya = i /\ nth_error (y_open s) i = Some p /\ Forall2 (aligned sp G) pa ya /\ opens cfg (y_st s) (y_c s) sp G p y /\ Forall2 (aligned sp G) pb yb /\
     ~ In (fst p) (map fst pa) /\ ~ In (fst p) (map fst pb)).
  { intros i d Ei. unfold lists_of in Ei. cbn [w_ls] in Ei. rewrite nth_error_map in Ei. destruct (nth_error (y_open s) i) as [p|] eqn:Ep; [|discriminate]. injection Ei as Ei.
    destruct (Forall2_at _ _ _ _ _ (inv_opens _ _ _ _ _ HI) Ep) as (pa & pb & ya & y & yb & E1 & E2 & L1 & L2 & H1 & H2 & H3).
    exists pa, pb, p, ya, yb, y. repeat (split; [reflexivity || assumption || (eapply Forall2_weaken; [|eassumption]; intros q x (_ & X & _); exact X)|]).
    pose proof (c_ids _ _ (v_core _ _ _ _ _ HI)) as Hn. rewrite ids_split, E1, map_app in Hn. cbn [map] in Hn. apply NoDup_app_iff in Hn as (Hn & _).
    pose proof (NoDup_remove_2 _ _ _ Hn) as Hx. split; intros C; apply Hx, in_or_app; auto. }
  destruct a as [merge split ns ni now sc sch want e ord|i merge split ns ni now|i o ord|i ord|keep|i isidx j].
  - cbn [moves] in Hmv. destruct Hmv as (d & Ew & Ed). destruct (Hcreate eq_refl) as (H1 & H2 & H3). cbn [ids_after]. rewrite Ew. cbn [lists_of w_ls]. rewrite combine_tail, <- H3.
    cbn [call_spec]. eapply (inv_new cfg s sp G ys _ w' nid ns ni); eauto; try reflexivity. 
  - cbn [moves] in Hmv. destruct Hmv as (d & Ew & Ed). destruct (Hcreate eq_refl) as (H1 & H2 & H3). cbn [ids_after]. rewrite Ew. cbn [lists_of w_ls]. rewrite combine_tail, <- H3.
    assert (Ei : exists d0, nth_error (w_ls (lists_of s)) i = Some d0).
    { cbn [act_on] in Ea. destruct (nth_error (w_ls (lists_of s)) i) as [d0|]; [eauto|discriminate]. }
    destruct Ei as (d0 & Ei). destruct (Hone i d0 Ei) as (pa & pb & (pid & pd) & ya & yb & (l & ((g & z) & m)) & E1 & E2 & L1 & E3 & L2 & Ep & A1 & (A2 & (A3 & _) & _) & A4 & _).
    cbn [call_spec]. rewrite Ep. cbn [fst snd] in A3. rewrite A3.
    assert (Em : nth_error (map snd ys) i = Some (g, z, m)). { rewrite nth_error_map, E3, <- L2, nth_mid. reflexivity. }
    eapply (inv_new cfg s sp G ys _ w' nid ns ni); eauto; try reflexivity. cbn [act_spec]. rewrite Em. reflexivity.
  - cbn [moves] in Hmv. destruct Hmv as (d & d' & Ei & Ew & Ed).
    destruct (Hone i d Ei) as (pa & pb & p & ya & yb & y & E1 & E2 & L1 & E3 & L2 & Ep & A1 & A2 & A4 & N1 & N2).
    destruct y as (l & ((g & z) & m)). pose proof A2 as (_ & (A3 & _) & _). cbn [fst snd] in A3.
    cbn [rel] in Hrel. destruct Hrel as (y' & ->). rewrite E3, <- L2, upd_nth_mid in HW', Hsp. cbn [act_spec] in Hsp.
    rewrite !map_app in Hsp. cbn [map] in Hsp. assert (Lm : length (map snd ya) = length ya) by apply map_length. rewrite <- Lm, upd_nth_mid in Hsp. apply app_inv_head in Hsp. injection Hsp as Hsp.
    assert (El : w_ls w' = map snd pa ++ d' :: map snd pb).
    { rewrite Ew. unfold lists_of. cbn [w_ls]. rewrite E1, map_app. cbn [map]. rewrite <- L1, <- (map_length snd pa), upd_nth_mid. reflexivity. }
    assert (Eids : combine (ids_after s nid (AOp i o ord)) (w_ls w') = pa ++ [(fst p, d')] ++ pb) by (cbn [ids_after]; rewrite El, E1; apply combine_mid).
    assert (Hod : ok_at cfg (w_st w') (w_c w') d' y').
    { destruct HW' as (A & _). rewrite El in A. eapply (Forall2_mid _ (map snd pa)); [|exact A]. rewrite map_length. congruence. }
    rewrite Eids. cbn [call_spec]. rewrite Ep. destruct p as (pid & pd). cbn [fst snd] in *. subst pd. rewrite A3.
    set (sp' := set pid _ sp). exists (gset pid (Some (true, fst y')) G), (ya ++ y' :: yb). unfold sp'. rewrite <- Hsp. clear sp'.
    assert (Hnames : names (d_l d') = renamed o (names (d_l d))) by exact Ed.
    assert (Hcase : forall n, In n (names (d_l d')) -> ~ In n (known_names s) \/ In n (names (d_l d))).
    { intros n Hn. rewrite Hnames in Hn. destruct o; cbn [renamed names] in Hn; auto; cbn [takes] in Hnew.
      - destruct Hn as [<-|[<-|[]]]; [right; left; reflexivity|left]. apply (takes_new s _ _ Hnew). left. reflexivity.
      - left. apply (takes_new s _ _ Hnew). exact Hn.
      - left. apply (takes_new s _ _ Hnew). exact Hn. }
    rewrite <- (app_nil_r (y_cold s)).
    apply (inv_replace cfg s sp G ys HI pa pb (pid, d) E1 [(pid, d')] [] (Some (snd y')) (Some (true, fst y')) (ya ++ y' :: yb) (w_st w') (w_c w') (own (lists_of s) (AOp i o ord))); auto.
    + right. exists (desc_of (pid, d')), (fst y'). auto.
    + intros n Hn. cbn [own] in Hn. rewrite Ei in Hn. apply in_app_iff in Hn as [Hn|Hn]; [auto|]. left. apply (takes_new s _ n Hnew). exact Hn.
    + intros x n [<-|[]] Hn. cbn [desc_of names_of ds_scores ds_index fst snd] in Hn. split; [|apply Hcase, Hn].
      pose proof (ok_at_plain _ _ _ _ _ Hod) as Hp. rewrite Forall_forall in Hp. apply Hp, Hn.
    + intros x [<-|[]]. destruct y' as (l' & e'). destruct Hod as (_ & HB & Hr). destruct (bare_eq_fields _ _ HB) as (_ & _ & En & _). unfold names in En. injection En as B1 B2.
      cbn [desc_of ds_scores ds_index snd]. rewrite B1, B2. apply Hr.
    + intros n Hn Hno. cbn [snd] in Hn. apply Hgone; [eapply taken_nth; eauto|]. intros C. unfold taken in C. rewrite El in C. rewrite flat_map_app in C. cbn [flat_map] in C. rewrite !in_app_iff in C.
      pose proof (names_others cfg s sp G ys pa pb (pid, d) n HI E1 Hn) as Hoth.
      destruct C as [C|[C|C]].
      * apply in_flat_map in C as (x & Hx & C). apply in_map_iff in Hx as (q & <- & Hq). apply (Hoth q); [apply in_or_app; auto|exact C].
      * apply (Hno (desc_of (pid, d'))); [left; reflexivity|]. exact C.
      * apply in_flat_map in C as (x & Hx & C). apply in_map_iff in Hx as (q & <- & Hq). apply (Hoth q); [apply in_or_app; auto|exact C].
    + intros x [<-|[]] Hsc. change (In (l_scores_id (d_l d)) (names (d_l d'))) in Hsc.
      destruct (opens_desc _ _ _ _ _ _ _ A2) as (_ & M1 & M2 & _). cbn [fst snd] in M1, M2.
      assert (M' : l_merge (d_l d') = g /\ l_split (d_l d') = z).
      { destruct y' as (l' & e'). cbn [snd] in Hsp. subst e'. destruct Hod as (HR' & HB' & _). cbn [fst snd] in HR'. destruct (reach_inv _ _ _ _ HR') as (_ & X & Y).
        destruct (bare_eq_fields _ _ HB') as (X' & Y' & _). split; congruence. }
      split; [reflexivity|]. cbn [desc_of ds_merge ds_split ds_scores fst snd] in *. split; [|split]; try (destruct M'; congruence).
      unfold names in Hnames. destruct o; cbn [renamed] in Hnames; try congruence; exfalso; cbn [takes] in Hnew;
        unfold names in Hsc; rewrite Hnames in Hsc; apply (takes_new s _ _ Hnew Hsc); eapply known_taken; eauto; eapply taken_nth; eauto; left; reflexivity.
    + unfold lists_of. cbn [y_st y_c y_open]. rewrite !map_app. cbn [map snd]. change ([d'] ++ map snd pb) with (d' :: map snd pb). rewrite <- El, world_eta. exact HW'.
    + intros sp' G' Hs Hg Hsv Hgv. cbn [app]. apply Forall2_app; [eapply (aligned_keep sp G); eauto|]. constructor; [split; [exact Hsv|exact Hgv]|eapply (aligned_keep sp G); eauto].
    + intros x [].
  - cbn [moves rel] in Hmv, Hrel. subst ys'.
    assert (Ei : exists d0, nth_error (w_ls (lists_of s)) i = Some d0).
    { cbn [act_on] in Ea. destruct (nth_error (w_ls (lists_of s)) i) as [d0|]; [eauto|discriminate]. }
    destruct Ei as (d & Ei).
    destruct (Hone i d Ei) as (pa & pb & p & ya & yb & y & E1 & E2 & L1 & E3 & L2 & Ep & A1 & A2 & A4 & N1 & N2).
    rewrite E3, <- L2, del_nth_mid in HW'.
    assert (El : w_ls w' = map snd pa ++ map snd pb).
    { rewrite Hmv. unfold lists_of. cbn [w_ls]. rewrite E1, map_app. cbn [map]. rewrite <- L1, <- (map_length snd pa), del_nth_mid. reflexivity. }
    assert (Eids : combine (ids_after s nid (ARemove i ord)) (w_ls w') = pa ++ [] ++ pb).
    { cbn [ids_after]. rewrite El, E1, map_app. cbn [map]. rewrite <- L1, <- (map_length fst pa), del_nth_mid, <- !map_app, combine_parts. reflexivity. }
    rewrite Eids. cbn [call_spec]. rewrite Ep. destruct p as (pid & pd). cbn [fst snd] in *. subst pd.
    exists (gset pid None G), (ya ++ yb). rewrite <- (app_nil_r (y_cold s)).
    apply (inv_replace cfg s sp G ys HI pa pb (pid, d) E1 [] [] None None (ya ++ yb) (w_st w') (w_c w') (own (lists_of s) (ARemove i ord))); auto.
    + intros n Hn. cbn [own] in Hn. rewrite Ei in Hn. auto.
    + intros x n [].
    + intros n Hn _. cbn [snd] in Hn. apply Hgone; [eapply taken_nth; eauto|]. intros C. unfold taken in C. rewrite El, <- map_app in C.
      apply in_flat_map in C as (x & Hx & C). apply in_map_iff in Hx as (q & <- & Hq). apply (names_others cfg s sp G ys pa pb (pid, d) n HI E1 Hn q Hq C).
    + intros x [].
    + unfold lists_of. cbn [y_st y_c y_open app]. rewrite map_app, <- El, world_eta. exact HW'.
    + intros sp' G' Hs Hg Hsv Hgv. cbn [app]. apply Forall2_app; eapply (aligned_keep sp G); eauto.
    + intros x [].
  - cbn [moves rel] in Hmv, Hrel. cbn [own] in W. assert (es = []) by (destruct es as [|e0 es]; [reflexivity|destruct (W e0); left; reflexivity]). subst es.
    subst ys'. exists G, ys. cbn [call_spec]. eapply inv_idle; eauto.
    + unfold lists_of. cbn [y_st y_c y_open ids_after]. rewrite Hmv. cbn [w_ls lists_of]. rewrite combine_parts. change (map snd (y_open s)) with (w_ls (lists_of s)). rewrite <- Hmv, world_eta. exact HW'.
    + cbn [ids_after y_open]. rewrite Hmv. apply combine_parts.
    + apply HI.
  - cbn [moves rel] in Hmv, Hrel. cbn [own] in W. assert (es = []) by (destruct es as [|e0 es]; [reflexivity|destruct (W e0); left; reflexivity]). subst es.
    subst ys'. exists G, ys. cbn [call_spec]. eapply inv_idle; eauto.
    + unfold lists_of. cbn [y_st y_c y_open ids_after]. rewrite Hmv. cbn [w_ls lists_of]. rewrite combine_parts. change (map snd (y_open s)) with (w_ls (lists_of s)). rewrite <- Hmv, world_eta. exact HW'.
    + cbn [ids_after y_open]. rewrite Hmv. apply combine_parts.
    + apply HI.
Qed.

(** ** loading a list *)
Lemma plain_unset n : plain n -> unset n = false.
Proof. intros (H & _). unfold unset. destruct (String.eqb_spec n ""); [contradiction|reflexivity]. Qed.
Lemma open_dead cfg st x G s : y_st s = st -> dead s G x -> open_list cfg st x = Failed \/ open_list cfg st x = Nil.
Proof.
  intros <- [E|(P & E & _)]; unfold open_list.
  - rewrite E. auto.
  - rewrite (plain_unset _ P). unfold load_segs. rewrite E. auto.
Qed.
Lemma stored_fits cfg st c x b l e : stored cfg st c x b l e -> fits l.
Proof. intros [A B C D _ _]. eapply inv_fits; [eapply reach_Inv, A|exact D|exact B]. Qed.
Lemma reach_reload g z l m : reachable g z l m -> reachable g z (reload l) m.
Proof. intros H. eapply (R_step g z l m OReload); [exact H|exact Logic.I|reflexivity]. Qed.
Lemma open_full cfg st c x l e : stored cfg st c x true l e -> open_list cfg st x = Ready (mkLd (bare (reload l)) cfg cfg).
Proof.
  intros H. pose proof (stored_fits _ _ _ _ _ _ _ H) as HF. destruct H as [A B (C1 & C2) D E (F1 & F2)]. pose proof HF as (_ & _ & F3 & F4 & F5 & F6).
  unfold open_list. rewrite E, F1, (plain_unset _ (n_ps _ D)), (plain_unset _ (n_pi _ D)).
  rewrite (load_segs_meta _ _ _ (r_ms _ _ _ _ _ _ F2) F3 F5), (load_segs_meta _ _ _ (r_mi _ _ _ _ _ _ F2) F4 F6).
  destruct (reach_inv _ _ _ _ A) as (_ & X & Y). rewrite C1, C2, <- X, <- Y. reflexivity.
Qed.
Lemma open_bare cfg st c x l e : stored cfg st c x false l e -> plain (ds_index x) -> st (lit (ds_index x)) = None ->
  open_list cfg st x = NoIndex (bare_segs (clear_idx (l_scores l))).
Proof.
  intros H P Ei. pose proof (stored_fits _ _ _ _ _ _ _ H) as HF. destruct H as [A B C D E (F1 & F2)]. pose proof HF as (_ & _ & F3 & F4 & F5 & F6).
  unfold open_list. rewrite E, (plain_unset _ (n_ps _ D)), (plain_unset _ P), (load_segs_meta _ _ _ F2 F3 F5). unfold load_segs. rewrite Ei. reflexivity.
Qed.

(** the index is rebuilt *)
Lemma bare_bare_segs s : bare_segs (bare_segs s) = bare_segs s.
Proof. unfold bare_segs, set_segs. cbn. rewrite map_map. f_equal. Qed.
Lemma rebuild_result cfg st c x l e n0 ni now sc : stored cfg st c x false l e ->
  rebuild cfg st c x (bare_segs (clear_idx (l_scores l))) n0 ni now sc =
  match step (reload l) (OReindex ni now sc) with
  | Done l' => let es := reindex_evs (fun _ => []) false (mkL (ds_merge x) (ds_split x) (ds_scores x) (ds_index x) (clear_idx (l_scores l)) (mkSegs n0 [] 1 true [])) l' in
               Some (evs_store es st, evs_cache es c, mkLd l' cfg false)
  | _ => None
  end.
Proof.
  intros H. pose proof (stored_fits _ _ _ _ _ _ _ H) as HF. destruct H as [A B (C1 & C2) D E (F1 & F2)]. destruct HF as (F3 & _).
  destruct (reach_inv _ _ _ _ A) as (_ & X & Y). unfold rebuild.
  rewrite (fetch_segs_coll cfg st c (l_scores_id l) (bare_segs (clear_idx (l_scores l))) (clear_idx (l_scores l))); [|apply coll_raise; exact F1|exact F3|apply bare_bare_segs].
  cbn [step]. unfold reindex_list. cbn [reload l_scores l_merge l_split]. rewrite C1, C2, <- X, <- Y. reflexivity.
Qed.
Lemma rebuild_ok cfg st c x l e n0 ni now sc st' c' d : stored cfg st c x false l e -> op_ok (fst (fst e)) (snd (fst e)) (snd e) (OReindex ni now sc) ->
  plain n0 -> plain ni -> n0 <> ni -> ds_scores x <> n0 -> ds_scores x <> ni -> unused c ni ->
  rebuild cfg st c x (bare_segs (clear_idx (l_scores l))) n0 ni now sc = Some (st', c', d) ->
  exists es, ok_at cfg st' c' d (d_l d, e) /\ names (d_l d) = [ds_scores x; ni] /\ st' = evs_store es st /\ c' = evs_cache es c /\ within es [ds_scores x; n0; ni].
Proof.
  intros H Hop P0 Pi N0 S0 Si Hu E. rewrite (rebuild_result _ _ _ _ _ _ _ _ _ _ H) in E. destruct H as [A B (C1 & C2) D ES (F1 & F2)].
  destruct (step (reload l) (OReindex ni now sc)) as [l'| | |] eqn:El; try discriminate. cbn zeta in E.
  set (L0 := mkL _ _ _ _ _ _) in E. set (es := reindex_evs _ _ _ _) in E. injection E as <- <- <-. exists es. cbn [d_l].
  assert (HR : reachable (fst (fst e)) (snd (fst e)) l' (snd e)) by exact (R_step _ _ _ _ _ _ (reach_reload _ _ _ _ A) Hop El).
  pose proof (reach_Inv _ _ _ _ HR) as HI'. rewrite ES in *.
  assert (EL : l_scores l' = clear_idx (l_scores l) /\ ss_id (l_index l') = ni).
  { cbn [step] in El. unfold reindex_list in El. destruct (split_size _ _) as [parts|]; [|discriminate].
    pose proof (nse_name ni now parts true) as Hn. destruct (new_segments_elements ni now parts true) as (index & x').
    unfold guard_ids in El. destruct (ids_ok _); [|discriminate]. injection El as <-. cbn in *. auto. }
  destruct EL as (EL1 & EL2). pose proof D as [M1 M2 M3 M4 M5].
  pose proof (i_ns _ _ HI') as NS'. pose proof (i_ni _ _ HI') as NI'. rewrite EL1 in NS'. cbn [clear_idx ss_id] in NS'. rewrite M1 in NS'. rewrite EL2 in NI'.
  destruct (meta_nd_par _ _ (i_mi _ _ HI') EL2) as (PI & NI).
  pose proof (put_all_names false _ _ PI) as W1.
  assert (W2 : forall e0, In e0 (delete_evs false [] (l_index L0)) -> ev_name e0 = n0) by (apply delete_names; constructor).
  assert (HN' : named l').
  { split; rewrite ?EL1, ?EL2, <- ?NS', <- ?NI'; auto. }
  assert (Hnm : names l' = [l_scores_id l; ni]) by (unfold names; rewrite <- NS', <- NI'; reflexivity).
  split; [|split; [exact Hnm|split; [reflexivity|split; [reflexivity|]]]].
  - split; [exact HR|]. split; [reflexivity|]. cbn [d_hs d_hi]. unfold es, reindex_evs. rewrite !evs_store_app, !evs_cache_app. apply rep_save; [|exact HN'|intros ->; auto].
    unfold both. rewrite EL1, EL2. cbn [clear_idx ss_id]. rewrite M1.
    split; (apply coll_frame; [apply names_plain with n0; assumption|intros e0 He; rewrite (W2 e0 He); congruence|]);
      (apply coll_meta; [constructor; [cbn; rewrite EL2; exact Pi|constructor]|repeat constructor|]).
    + apply coll_frame; [apply names_plain with ni; assumption|intros e0 He; rewrite (W1 e0 He); congruence|]. apply coll_raise. exact F1.
    + apply coll_put_all; assumption.
  - apply within_app; [eapply within_one; [exact W1|cbn; auto]|]. apply within_app.
    + intros e0 [<-|[]]. cbn. rewrite EL2. auto.
    + apply within_app; [eapply within_one; [exact W2|cbn; auto]|].
      eapply within_incl; [|apply save_within, HN']. rewrite Hnm. cbn. intuition.
Qed.

Lemma winv_append cfg w ys es T d y : winv cfg w ys -> within es T -> Forall plain T -> (forall n, In n T -> ~ In n (taken w)) ->
  ok_at cfg (evs_store es (w_st w)) (evs_cache es (w_c w)) d y -> (forall n, In n (names (d_l d)) -> ~ In n (taken w)) -> fit_entry (snd y) ->
  winv cfg (mkW (evs_store es (w_st w)) (evs_cache es (w_c w)) (w_ls w ++ [d])) (ys ++ [y]).
Proof.
  intros (A & B & C) W Hp Hf Ho Hn HF. assert (E1 : nm [d] = names (d_l d)) by (unfold nm; cbn [flat_map]; apply app_nil_r).
  destruct (change_ok cfg (w_st w) (w_c w) (w_ls w) [] [] ys [] [d] [y] es T) as (X & Y); auto.
  - cbn [app]. rewrite app_nil_r. exact B.
  - intros n Hin. right. cbn [app]. rewrite app_nil_r. apply Hf, Hin.
  - rewrite E1. intros n Hin. right. cbn [app]. rewrite app_nil_r. apply Hn, Hin.
  - rewrite E1. destruct y as (l & e). destruct Ho as (_ & HB & Hr). destruct (bare_eq_fields _ _ HB) as (_ & _ & -> & _).
    pose proof (r_named _ _ _ _ _ _ Hr) as [_ _ _ _ N]. unfold names. repeat constructor; cbn; intuition.
  - rewrite !app_nil_r in *. split; [exact X|]. split; [exact Y|]. rewrite map_app. apply Forall_app. split; [exact C|]. constructor; [exact HF|constructor].
Qed.
Lemma set_id id v sp : sp id = v -> forall j, set id v sp j = sp j.
Proof. intros E j. unfold set. destruct (String.eqb_spec j id); [congruence|reflexivity]. Qed.
(** the invariant looks at contents and ghosts pointwise *)
Lemma inv_ext cfg s sp sp' G ys : (forall j, sp' j = sp j) -> inv cfg s sp G ys -> inv cfg s sp' G ys.
Proof.
  intros E [A B C D F H K]. split; auto.
  - eapply Forall2_weaken; [|exact C]. intros p y (X & Y). split; [rewrite E; exact X|exact Y].
  - intros x Hx. specialize (D x Hx). unfold cold_ok in *. rewrite E. exact D.
  - intros id Hi. rewrite E. auto.
Qed.

Lemma cold_not_open cfg s sp G ys x : inv cfg s sp G ys -> In x (y_cold s) -> ~ In (ds_id x) (map fst (y_open s)).
Proof.
  intros HI Hx C. pose proof (c_ids _ _ (v_core _ _ _ _ _ HI)) as H. rewrite ids_split in H. apply NoDup_app_iff in H as (_ & _ & H). apply (H _ C). apply in_map, Hx.
Qed.
Lemma cold_uniq cfg s sp G ys x z : inv cfg s sp G ys -> In x (y_cold s) -> In z (y_cold s) -> ds_id z = ds_id x -> z = x.
Proof. intros HI Hx Hz E. eapply descs_uniq; eauto using cold_desc. apply HI. Qed.

Lemma inv_ready cfg s sp G ys x l e : inv cfg s sp G ys -> In x (y_cold s) -> G (ds_id x) = Some (true, l) -> sp (ds_id x) = Some e ->
  stored cfg (y_st s) (y_c s) x true l e ->
  exists G' ys', inv cfg (mkY (y_st s) (y_c s) (y_open s ++ [(ds_id x, mkLd (bare (reload l)) cfg cfg)]) (drop_cold (ds_id x) (y_cold s)) (y_file s) (y_save s)) sp G' ys'.
Proof.
  intros HI Hx Eg Es HS. pose proof HS as [A B (C1 & C2) D E (F1 & F2)]. pose proof (v_core _ _ _ _ _ HI) as HC.
  set (id := ds_id x) in *. set (d := mkLd (bare (reload l)) cfg cfg). set (y := (reload l, e) : known).
  assert (En : names (d_l d) = names_of x) by (unfold names_of; rewrite E, F1; reflexivity).
  assert (Hl : forall n, In n (names_of x) -> lives G x n).
  { intros n [<-|[<-|[]]]; exists true, l; auto. }
  assert (Ho : ok_at cfg (y_st s) (y_c s) d y).
  { split; [apply reach_reload, A|]. split; [apply bare_bare|]. eapply rep_reload, F2. }
  exists (gset id (Some (true, fst y)) G), (ys ++ [y]). apply (inv_ext _ _ (set id (Some (snd y)) sp)); [intros j; symmetry; apply set_id, Es|].
  apply (inv_append cfg s sp G ys HI id d y (y_st s) (y_c s) []).
  - eapply cold_not_open; eauto.
  - split; [auto|]. intros n i _ _. left. reflexivity.
  - intros n [].
  - intros n Hn. right. exists x. split; [exact Hx|]. split; [reflexivity|]. apply Hl. rewrite <- En. exact Hn.
  - intros z n Hz Ez L Hno. exfalso. apply Hno. rewrite (cold_uniq _ _ _ _ _ _ _ HI Hx Hz Ez) in L. rewrite En. destruct L as (b & l' & _ & [->|(_ & ->)]); cbn; auto.
  - intros z Hz Ez _ _. rewrite (cold_uniq _ _ _ _ _ _ _ HI Hx Hz Ez). destruct (reach_inv _ _ _ _ A) as (_ & X & Y). repeat split; cbn; congruence.
  - unfold lists_of. cbn [y_st y_c y_open]. rewrite map_app.
    apply (winv_append cfg (lists_of s) ys [] [] d y (v_open _ _ _ _ _ HI)); auto.
    + intros e0 [].
    + rewrite En. intros n Hn. eapply cold_apart; [exact HI|exact Hx|apply Hl, Hn].
  - apply HI.
  - auto.
Qed.

Lemma inv_rebuilt cfg s sp G ys x l e n0 ni now sc st' c' d : inv cfg s sp G ys -> In x (y_cold s) -> G (ds_id x) = Some (false, l) -> sp (ds_id x) = Some e ->
  stored cfg (y_st s) (y_c s) x false l e -> new_name s n0 -> new_name s ni -> n0 <> ni ->
  op_ok (fst (fst e)) (snd (fst e)) (snd e) (OReindex ni now sc) ->
  rebuild cfg (y_st s) (y_c s) x (bare_segs (clear_idx (l_scores l))) n0 ni now sc = Some (st', c', d) ->
  exists G' ys', inv cfg (mkY st' c' (y_open s ++ [(ds_id x, d)]) (drop_cold (ds_id x) (y_cold s)) (y_file s) (y_save s)) sp G' ys'.
Proof.
  intros HI Hx Eg Es HS (P0 & K0 & U0) (Pi & Ki & Ui) Hne Hop E. pose proof (v_core _ _ _ _ _ HI) as HC.
  assert (Hk : In (ds_scores x) (known_names s)) by (apply (known_desc s x); [left; apply cold_desc, Hx|cbn; auto]).
  assert (Hl : lives G x (ds_scores x)) by (exists false, l; auto).
  assert (Ps : plain (ds_scores x)) by (eapply c_plain; [exact HC|apply cold_desc, Hx|exact Hl]).
  assert (S0 : ds_scores x <> n0) by congruence. assert (Si : ds_scores x <> ni) by congruence.
  destruct (rebuild_ok _ _ _ _ _ _ _ _ _ _ _ _ _ HS Hop P0 Pi Hne S0 Si Ui E) as (es & Ho & En & -> & -> & W).
  assert (PT : Forall plain [ds_scores x; n0; ni]) by auto.
  assert (Htk : forall n, In n [ds_scores x; n0; ni] -> ~ In n (taken (lists_of s))).
  { intros n [<-|[<-|[<-|[]]]]; [eapply cold_apart; eauto| |]; intros C; apply (known_taken _ _ _ _ _ _ HI) in C; contradiction. }
  set (id := ds_id x) in *. set (y := (d_l d, e) : known).
  exists (gset id (Some (true, fst y)) G), (ys ++ [y]). apply (inv_ext _ _ (set id (Some (snd y)) sp)); [intros j; symmetry; apply set_id, Es|].
  assert (Hc : forall n, In n [ds_scores x; n0; ni] -> ~ In n (known_names s) \/ exists z, In z (y_cold s) /\ ds_id z = id /\ lives G z n).
  { intros n [<-|[<-|[<-|[]]]]; auto. right. exists x. auto. }
  apply (inv_append cfg s sp G ys HI id d y (evs_store es (y_st s)) (evs_cache es (y_c s)) [ds_scores x; n0; ni]).
  - eapply cold_not_open; eauto.
  - split; [intros n P Hn; apply (frame_evs es [ds_scores x; n0; ni]); auto|]. intros n i Hn _. eapply within_quiet; eauto.
  - exact Hc.
  - intros n Hn. apply Hc. rewrite En in Hn. cbn in *. intuition.
  - intros z n Hz Ez L Hno. exfalso. apply Hno. rewrite (cold_uniq _ _ _ _ _ _ _ HI Hx Hz Ez) in L. rewrite En. destruct L as (b & l' & Eb & [->|(Et & _)]); [cbn; auto|].
    fold id in Eb. congruence.
  - intros z Hz Ez _ _. rewrite (cold_uniq _ _ _ _ _ _ _ HI Hx Hz Ez). unfold names in En. injection En as En _. destruct Ho as (HR & _). destruct (reach_inv _ _ _ _ HR) as (_ & X & Y).
    destruct (t_sizes _ _ _ _ _ _ _ HS). cbn [fst snd] in X, Y. repeat split; cbn; congruence.
  - unfold lists_of. cbn [y_st y_c y_open]. rewrite map_app.
    apply (winv_append cfg (lists_of s) ys es [ds_scores x; n0; ni] d y (v_open _ _ _ _ _ HI)); auto.
    + intros n Hn. apply Htk. rewrite En in Hn. cbn in *. intuition.
    + apply (t_fit _ _ _ _ _ _ _ HS).
  - apply HI.
  - auto.
Qed.

Lemma inv_open_list cfg s sp G ys id lock n0 ni now sc s' : inv cfg s sp G ys -> event_ok s sp (EOpen id lock n0 ni now sc) ->
  next cfg s (EOpen id lock n0 ni now sc) = Some s' -> exists G' ys', inv cfg s' sp G' ys'.
Proof.
  intros HI Hok E. assert (Eq : s = mkY (y_st s) (y_c s) (y_open s) (y_cold s) (y_file s) (y_save s)) by (destruct s; reflexivity).
  rewrite Eq in E. cbn [next] in E. rewrite <- Eq in E. destruct (find_desc id (y_cold s)) as [x|] eqn:Ef; [|discriminate]. apply find_desc_In in Ef as (Hx & <-).
  pose proof (v_cold _ _ _ _ _ HI x Hx) as Hc. unfold cold_ok in Hc. destruct (G (ds_id x)) as [([|] & l)|] eqn:Eg.
  - destruct Hc as (e & Es & HS). rewrite (open_full _ _ _ _ _ _ HS) in E. injection E as <-. eapply inv_ready; eauto.
  - destruct Hc as (e & Es & HS). destruct (c_bare _ _ (v_core _ _ _ _ _ HI) x l (cold_desc _ _ Hx) Eg) as (P & Ei & _).
    rewrite (open_bare _ _ _ _ _ _ HS P Ei) in E. destruct lock; [|injection E as <-; eauto].
    destruct (rebuild _ _ _ _ _ _ _ _ _) as [((st' & c') & d)|] eqn:Er; [|discriminate]. injection E as <-. destruct Hok as (H1 & H2 & H3 & H4).
    destruct e as ((g & z) & m). apply (inv_rebuilt cfg s sp G ys x l (g, z, m) n0 ni now sc st' c' d); auto.
  - destruct (open_dead cfg (y_st s) x G s eq_refl (c_cold _ _ (v_core _ _ _ _ _ HI) x (cold_desc _ _ Hx) Eg)) as [F|F]; rewrite F in E; injection E as <-; eauto.
Qed.

(** ** a list leaves memory *)
Lemma inv_release cfg s sp G ys i s' : inv cfg s sp G ys -> next cfg s (ERelease i) = Some s' -> exists G' ys', inv cfg s' sp G' ys'.
Proof.
  intros HI E. assert (Eq : s = mkY (y_st s) (y_c s) (y_open s) (y_cold s) (y_file s) (y_save s)) by (destruct s; reflexivity).
  rewrite Eq in E. cbn [next] in E. destruct (nth_error (y_open s) i) as [p|] eqn:Ep; [|discriminate]. injection E as <-.
  destruct (Forall2_at _ _ _ _ _ (inv_opens _ _ _ _ _ HI) Ep) as (pa & pb & ya & y & yb & E1 & E2 & L1 & L2 & H1 & H2 & H3).
  assert (Ed : del_nth i (y_open s) = pa ++ [] ++ pb) by (rewrite E1, <- L1; apply del_nth_mid). rewrite Ed.
  pose proof (c_ids _ _ (v_core _ _ _ _ _ HI)) as Hn. rewrite ids_split, E1, map_app in Hn. cbn [map] in Hn. apply NoDup_app_iff in Hn as (Hn & _).
  pose proof (NoDup_remove_2 _ _ _ Hn) as Hni.
  destruct (opens_desc _ _ _ _ _ _ _ H2) as (D1 & D2 & D3 & D4). destruct y as (l & e). pose proof H2 as ((O1 & O2 & O3) & (O4 & O5) & O6). cbn [fst snd] in *.
  exists (gset (fst p) (Some (true, reload l)) G), (ya ++ yb). apply (inv_ext _ _ (set (fst p) (Some e) sp)); [intros j; symmetry; apply set_id, O4|].
  pose proof (v_open _ _ _ _ _ HI) as (W1 & W2 & W3). cbn [lists_of w_st w_c w_ls] in W1.
  apply (inv_replace cfg s sp G ys HI pa pb p E1 [] [desc_of p] (Some e) (Some (true, reload l)) (ya ++ yb) (y_st s) (y_c s) []).
  - right. exists (desc_of p), (reload l). auto.
  - split; [auto|]. intros n j _ _. left. reflexivity.
  - intros n [].
  - intros z n [<-|[]] Hz. split; [|right; exact Hz]. rewrite D1 in Hz. pose proof (names_plain2 _ D4) as Hp. rewrite Forall_forall in Hp. auto.
  - intros z [<-|[]]. cbn [desc_of ds_scores ds_index]. unfold names_of, names in D1. injection D1 as -> ->. apply D4.
  - intros n Hin Hno. exfalso. apply (Hno (desc_of p)); [left; reflexivity|exact Hin].
  - intros z [<-|[]] _. repeat split.
  - unfold lists_of. cbn [y_st y_c y_open app]. split; [|split].
    + cbn [w_ls w_st w_c]. apply (Forall2_map_l snd). apply Forall2_app; eapply Forall2_weaken; try eassumption; intros q yq (Q & _); exact Q.
    + unfold taken, lists_of in *. cbn [w_ls] in *. rewrite E1, map_app in W2. cbn [map] in W2. rewrite map_app. rewrite flat_map_app in *. cbn [flat_map] in W2.
      apply NoDup_app_iff in W2 as (X1 & X2 & X3). apply NoDup_app_iff in X2 as (_ & X4 & _). apply NoDup_app_iff. split; [exact X1|]. split; [exact X4|].
      intros n Hn1 Hn2. apply (X3 n Hn1). apply in_or_app. auto.
    + rewrite E2, map_app in W3. cbn [map] in W3. apply Forall_app in W3 as (X1 & X2). apply Forall_cons_iff in X2 as (_ & X2). rewrite map_app. apply Forall_app. auto.
  - intros sp' G' Hs Hg _ _. cbn [app]. apply Forall2_app; (eapply (aligned_keep sp G); [exact Hs|exact Hg| |eapply Forall2_weaken; [|eassumption]; intros q yq (_ & Q & _); exact Q]);
      intros C; apply Hni, in_or_app; auto.
  - intros x [<-|[]]. exists (reload l), e. split; [reflexivity|]. split; [reflexivity|]. unfold names_of, names in D1. injection D1 as D1 D1'. split.
    + apply reach_reload, O1.
    + exact O6.
    + auto.
    + eapply r_named, rep_reload, O3.
    + exact D1.
    + split; [exact D1'|]. eapply rep_reload, O3.
  - apply HI.
  - auto.
Qed.

(** ** lists that do not load *)
Lemma inv_dead cfg s sp G ys x : inv cfg s sp G ys -> In x (y_cold s) -> open_list cfg (y_st s) x = Failed \/ open_list cfg (y_st s) x = Nil -> G (ds_id x) = None /\ sp (ds_id x) = None.
Proof.
  intros HI Hx H. pose proof (v_cold _ _ _ _ _ HI x Hx) as Hc. unfold cold_ok in Hc. destruct (G (ds_id x)) as [([|] & l)|] eqn:Eg; [| |auto]; exfalso; destruct Hc as (e & Es & HS).
  - rewrite (open_full _ _ _ _ _ _ HS) in H. destruct H; discriminate.
  - destruct (c_bare _ _ (v_core _ _ _ _ _ HI) x l (cold_desc _ _ Hx) Eg) as (P & Ei & _). rewrite (open_bare _ _ _ _ _ _ HS P Ei) in H. destruct H; discriminate.
Qed.
Lemma inv_none cfg s sp G ys id : inv cfg s sp G ys -> G id = None -> sp id = None.
Proof.
  intros HI Eg. destruct (in_dec string_dec id (ids s)) as [H|H]; [|apply (v_none _ _ _ _ _ HI id H)].
  rewrite ids_split in H. apply in_app_iff in H as [H|H]; apply in_map_iff in H as (x & <- & Hx).
  - destruct (Forall2_In_l _ _ _ _ (v_ys _ _ _ _ _ HI) Hx) as (y & _ & (_ & C)). congruence.
  - pose proof (v_cold _ _ _ _ _ HI x Hx) as Hc. unfold cold_ok in Hc. rewrite Eg in Hc. exact Hc.
Qed.
Lemma inv_drop cfg s sp G ys id s' : inv cfg s sp G ys -> next cfg s (EDrop id) = Some s' -> inv cfg s' sp G ys.
Proof.
  intros HI E. assert (Eq : s = mkY (y_st s) (y_c s) (y_open s) (y_cold s) (y_file s) (y_save s)) by (destruct s; reflexivity).
  rewrite Eq in E. cbn [next] in E. destruct (find_desc id (y_cold s)) as [x|] eqn:Ef; [|discriminate]. apply find_desc_In in Ef as (Hx & <-).
  assert (Hd : open_list cfg (y_st s) x = Failed \/ open_list cfg (y_st s) x = Nil) by (destruct (open_list cfg (y_st s) x); auto; discriminate).
  destruct (inv_dead _ _ _ _ _ _ HI Hx Hd) as (Eg & Es).
  assert (E' : s' = mkY (y_st s) (y_c s) (y_open s) (drop_cold (ds_id x) (y_cold s)) (y_file s) (forget (ds_id x) (y_save s))) by (destruct Hd as [F|F]; rewrite F in E; congruence).
  subst s'. clear E. pose proof (v_core _ _ _ _ _ HI) as HC. set (s' := mkY _ _ _ _ _ _).
  assert (Ho : forall p, In p (y_open s) -> fst p <> ds_id x).
  { intros p Hp C. apply (cold_not_open _ _ _ _ _ _ HI Hx). rewrite <- C. apply in_map, Hp. }
  assert (Hds : forall z, In z (descs s') <-> In z (descs s) /\ ds_id z <> ds_id x).
  { intros z. unfold descs, s'. cbn [y_open y_cold]. rewrite !in_app_iff, drop_cold_In. split.
    - intros [H|H]; [split; [auto|]|tauto]. apply in_map_iff in H as (p & <- & Hp). apply Ho, Hp.
    - tauto. }
  assert (Hnid : ~ In (ds_id x) (ids s')).
  { intros C. unfold ids in C. apply in_map_iff in C as (z & Ez & Hz). apply Hds in Hz as (_ & Hz). congruence. }
  eapply (inv_change cfg s sp G ys s' sp G ys (ds_id x) []); auto.
  - split; auto.
    + intros z Hz. rewrite Hds. tauto.
    + rewrite ids_split. unfold s'. cbn [y_open y_cold]. pose proof (c_ids _ _ HC) as H. rewrite ids_split in H. apply NoDup_app_iff in H as (N1 & N2 & N3).
      apply NoDup_app_iff. split; [exact N1|]. split; [apply drop_cold_ids, N2|]. intros i Hi C. apply in_map_iff in C as (z & <- & Hz). apply drop_cold_In in Hz as (Hz & _).
      apply (N3 _ Hi). apply in_map, Hz.
    + intros y n Hy Ey. apply Hds in Hy. tauto.
    + intros y n Hy Ey (b & l & C & _) _. rewrite Ey in C. congruence.
    + intros y z _ _ _ _ C. contradiction.
    + intros y Hy Ey. apply Hds in Hy. tauto.
    + intros z Hz. left. unfold aside, encoded, s' in *. cbn [y_file y_save] in Hz. change (match forget (ds_id x) (y_save s) with Some (_, b) => b | None => [] end) with (enc (forget (ds_id x) (y_save s))) in Hz. rewrite forget_enc in Hz. exact Hz.
  - unfold lists_of, s'. cbn [y_st y_c y_open]. apply HI.
  - apply HI.
  - intros z Hz _. unfold s' in Hz. cbn [y_cold] in Hz. apply drop_cold_In in Hz. tauto.
  - intros z Hz C. unfold s' in Hz. cbn [y_cold] in Hz. apply drop_cold_In in Hz. tauto.
  - intros z n _ _ _. unfold s'. cbn [y_st y_c]. repeat split. intros i. left. reflexivity.
  - unfold encoded, s'. cbn [y_save]. change (NoDup (map ds_id (enc (forget (ds_id x) (y_save s))))). rewrite forget_enc. apply HI.
Qed.
Lemma fits_empty : map_fits sempty.
Proof.
  split; [intros x H; discriminate|]. intros [|x r] (_ & H); [reflexivity|]. exfalso. assert (C : sin sempty x) by (apply H; left; reflexivity). discriminate.
Qed.
Lemma inv_clear cfg s sp G ys id ns ni now s' : inv cfg s sp G ys -> event_ok s sp (EClear id ns ni now) -> next cfg s (EClear id ns ni now) = Some s' ->
  exists G' ys', inv cfg s' (spec_next s (EClear id ns ni now) sp) G' ys'.
Proof.
  intros HI Hok E. assert (Eq : s = mkY (y_st s) (y_c s) (y_open s) (y_cold s) (y_file s) (y_save s)) by (destruct s; reflexivity).
  rewrite Eq in E. cbn [next] in E. rewrite <- Eq in E. cbn [spec_next event_ok] in *. destruct (find_desc id (y_cold s)) as [x|] eqn:Ef; [|discriminate].
  destruct (Hok x eq_refl) as (ms & Hms & Ha & Hn). rewrite (inv_ms _ _ _ _ _ _ HI Hms) in *. clear Hok. apply find_desc_In in Ef as (Hx & <-).
  destruct (open_list cfg (y_st s) x) eqn:Eo; try discriminate. destruct (act_on cfg (lists_of s) (empty_list x ns ni now)) as [w'|] eqn:Ea; [|discriminate]. injection E as <-.
  destruct (inv_dead _ _ _ _ _ _ HI Hx (or_introl Eo)) as (Eg & Es).
  assert (HF : Forall fit_entry (act_spec (map snd ys) (empty_list x ns ni now))).
  { cbn [empty_list act_spec]. apply Forall_app. split; [apply (v_open _ _ _ _ _ HI)|]. constructor; [exact fits_empty|constructor]. }
  pose proof (upd_ok _ _ _ _ _ (v_open _ _ _ _ _ HI) Ha Ea HF) as HA. destruct HA as (_ & _ & _ & _ & _ & _ & _ & _ & _ & _ & Hmv).
  cbn [moves empty_list] in Hmv. destruct Hmv as (d & Ew & Ed). rewrite Ew. cbn [lists_of w_ls]. rewrite combine_tail.
  eapply (inv_new cfg s sp G ys (empty_list x ns ni now) w' (ds_id x) ns ni (y_save s) d); eauto; try reflexivity.
  - eapply cold_not_open; eauto.
  - apply HI.
Qed.

(** ** the saver *)
Lemma inv_saves cfg s sp G ys s' : inv cfg s sp G ys -> y_st s' = y_st s -> y_c s' = y_c s -> y_open s' = y_open s -> y_cold s' = y_cold s ->
  (forall x, In x (aside s') -> In x (aside s) \/ In x (descs s)) -> NoDup (map ds_id (y_file s')) -> NoDup (map ds_id (encoded s')) -> inv cfg s' sp G ys.
Proof.
  intros HI E1 E2 E3 E4 Ha Hf He. eapply inv_idle; eauto.
  - unfold lists_of. rewrite E1, E2, E3. apply HI.
  - intros n id _. rewrite E2. left. reflexivity.
Qed.
Lemma inv_saver cfg s sp G ys e s' : inv cfg s sp G ys -> e = EBegin \/ (exists id, e = EVisit id) \/ e = EEnd \/ e = EFail -> next cfg s e = Some s' -> inv cfg s' sp G ys.
Proof.
  intros HI He E. pose proof (v_file _ _ _ _ _ HI) as Nf. pose proof (v_enc _ _ _ _ _ HI) as Ne.
  assert (Eq : s = mkY (y_st s) (y_c s) (y_open s) (y_cold s) (y_file s) (y_save s)) by (destruct s; reflexivity).
  rewrite Eq in E. destruct He as [-> | [(id & ->) | [-> | ->]]]; cbn [next] in E; rewrite <- ?Eq in E.
  - destruct (y_save s) eqn:Es; [discriminate|]. injection E as <-. apply (inv_saves cfg s); auto; cbn; [|constructor]. intros x Hx. rewrite app_nil_r in Hx. left. apply in_or_app. auto.
  - destruct (find_desc id (descs s)) as [x|] eqn:Ef; [|discriminate]. injection E as <-. apply find_desc_In in Ef as (Hx & _).
    destruct (visit_enc x (y_save s) Ne) as (V1 & V2). apply (inv_saves cfg s); auto. intros z Hz. unfold aside in *. cbn [y_file] in Hz. apply in_app_iff in Hz as [Hz|Hz]; [left; apply in_or_app; auto|].
    destruct (V2 z Hz) as [H| ->]; [left; apply in_or_app; auto|auto].
  - destruct (y_save s) as [(todo & buf)|] eqn:Es; [|discriminate]. destruct (forallb _ todo); [|discriminate]. injection E as <-.
    assert (Eb : encoded s = buf) by (unfold encoded; rewrite Es; reflexivity). rewrite Eb in Ne.
    apply (inv_saves cfg s); auto; cbn; [|constructor]. intros x Hx. rewrite app_nil_r in Hx. left. apply in_or_app. right. rewrite Eb. exact Hx.
  - destruct (y_save s) eqn:Es; [|discriminate]. injection E as <-. apply (inv_saves cfg s); auto; cbn; [|constructor]. intros x Hx. rewrite app_nil_r in Hx. left. apply in_or_app. auto.
Qed.

(** ** a stop *)
Lemma coll_restart h st c n l : coll h st c n l -> coll false st (fun _ => None) n l.
Proof. intros [X Y Z W]. split; auto; [|intros _ id; reflexivity]. eapply Forall_impl; [|exact X]. intros s (S1 & _). split; [exact S1|auto]. Qed.
Lemma named_reload l : named l -> named (reload l).
Proof. intros [A B C D E]. split; assumption. Qed.
Lemma inv_stop cfg cfg' s sp G ys : inv cfg s sp G ys -> inv cfg' (stopped s) (survives s sp) (ghost_stop s G) [].
Proof.
  intros HI. pose proof (v_core _ _ _ _ _ HI) as HC. pose proof (v_file _ _ _ _ _ HI) as Nf. split.
  - apply core_stop; assumption.
  - apply winv_start.
  - constructor.
  - unfold stopped. cbn [y_cold]. intros x Hx. unfold cold_ok. cbn [y_st y_c]. destruct (ghost_stop s G (ds_id x)) as [(b & l)|] eqn:Eg.
    + destruct (stop_back s G x b l HC Nf Hx Eg) as (y & b0 & l0 & Hy & (S1 & S2 & S3 & S4) & E0 & -> & Ef & Hi).
      assert (Hs : exists e, sp (ds_id x) = Some e /\ reachable (fst (fst e)) (snd (fst e)) l0 (snd e) /\ fit_entry e /\ (ds_merge y = fst (fst e) /\ ds_split y = snd (fst e)) /\ named l0 /\ ds_scores y = l_scores_id l0 /\
         coll false (y_st s) (fun _ => None) (l_scores_id l0) (ss_segs (l_scores l0)) /\ y_st s (lit (l_scores_id l0)) = Some (meta_blob (l_scores l0)) /\
         (b0 = true -> ds_index y = l_index_id l0 /\ StoreOps.rep cfg' cfg' cfg' (y_st s) (fun _ => None) (reload l0))).
      { apply desc_cases in Hy as [(p & Hp & ->)|Hy].
        - destruct (Forall2_In_l _ _ _ _ (inv_opens _ _ _ _ _ HI) Hp) as (q & _ & Ho). destruct (opens_desc _ _ _ _ _ _ _ Ho) as (D1 & D2 & D3 & D4).
          destruct q as (lq & e). pose proof Ho as ((O1 & O2 & O3) & (O4 & O5) & O6). cbn [fst snd] in *. rewrite S1 in *. change (ds_id (desc_of p)) with (fst p) in *. rewrite O5 in E0. injection E0 as <- <-.
          unfold names_of, names in D1. injection D1 as D1 D1'. exists e. split; [exact O4|]. split; [exact O1|]. split; [exact O6|]. split; [auto|]. split; [exact D4|]. split; [exact D1|].
          pose proof O3 as [(B1 & _) R1 R2 _ _]. rewrite (n_s _ D4) in B1. split; [eapply coll_restart, B1|]. split; [exact R1|]. intros _. split; [exact D1'|]. eapply rep_restart, O3.
        - pose proof (v_cold _ _ _ _ _ HI y Hy) as Hcy. unfold cold_ok in Hcy. rewrite <- S1, E0 in Hcy. destruct Hcy as (e & He & [T1 T2 T3 T4 T5 T6]). exists e.
          split; [exact He|]. split; [exact T1|]. split; [exact T2|]. split; [exact T3|]. split; [exact T4|]. split; [exact T5|]. destruct b0.
          + destruct T6 as (T6 & T7). pose proof T7 as [(B1 & _) R1 R2 _ _]. rewrite (n_s _ T4) in B1. split; [eapply coll_restart, B1|]. split; [exact R1|]. intros _. split; [exact T6|]. eapply rep_restart, T7.
          + destruct T6 as (T6 & T7). split; [eapply coll_restart, T6|]. split; [exact T7|discriminate]. }
      destruct Hs as (e & He & T1 & T2 & (T3 & T3') & T4 & T5 & T6 & T7 & T8). exists e. split.
      { unfold survives. rewrite (find_desc_of _ _ Nf Hx), Ef, S4, String.eqb_refl. exact He. }
      split; auto.
      * apply reach_reload, T1.
      * split; congruence.
      * apply named_reload, T4.
      * cbn [reload l_scores_id]. congruence.
      * destruct Hi as [(Hi & ->)|(_ & -> & _)]; [destruct b0|].
        -- destruct (T8 eq_refl) as (X & Y). split; [cbn [reload l_index_id]; congruence|exact Y].
        -- split; [exact T6|exact T7].
        -- split; [exact T6|exact T7].
    + unfold survives. rewrite (find_desc_of _ _ Nf Hx). destruct (find_desc (ds_id x) (descs s)) as [y|] eqn:Ey; [|reflexivity].
      destruct (String.eqb_spec (ds_scores x) (ds_scores y)) as [E|E]; [|reflexivity]. unfold ghost_stop in Eg. rewrite (find_desc_of _ _ Nf Hx), Ey, E, String.eqb_refl in Eg.
      apply (inv_none _ _ _ _ _ _ HI). destruct (G (ds_id x)) as [(b & l)|]; [discriminate|reflexivity].
  - exact Nf.
  - constructor.
  - intros id Hid. unfold survives, ghost_stop. destruct (find_desc id (y_file s)) as [x|] eqn:Ef; [|auto]. exfalso. apply Hid. apply find_desc_In in Ef as (Hx & <-).
    unfold ids, descs, stopped. cbn. apply in_map, Hx.
Qed.

(** ** executions *)
Lemma serves_inv cfg s sp : serves cfg s sp -> exists G ys, inv cfg s sp G ys.
Proof.
  induction 1 as [cfg st c|cfg cfg' s sp e s' HS (G & ys & HI) Hok E Hcfg].
  - exists (fun _ => None), []. split; [|apply winv_start|constructor| |constructor|constructor|auto].
    + split; cbn; [constructor|intros; tauto..].
    + intros x [].
  - destruct e as [nid a seen|id lock n0 ni now sc|i|id|id ns ni now| |id| | |]; try (rewrite (Hcfg ltac:(discriminate)); clear Hcfg; cbn [spec_next]).
    + eapply inv_call; eauto.
    + eapply inv_open_list; eauto.
    + eapply inv_release; eauto.
    + exists G, ys. eapply inv_drop; eauto.
    + eapply inv_clear; eauto.
    + exists G, ys. eapply (inv_saver cfg s sp G ys _ s' HI); [|exact E]; eauto.
    + exists G, ys. eapply (inv_saver cfg s sp G ys _ s' HI); [|exact E]; eauto.
    + exists G, ys. eapply (inv_saver cfg s sp G ys _ s' HI); [|exact E]; eauto.
    + exists G, ys. eapply (inv_saver cfg s sp G ys _ s' HI); [|exact E]; eauto.
    + assert (s' = stopped s) by (destruct s; cbn [next] in E; injection E as <-; reflexivity). subst s'. exists (ghost_stop s G), []. apply (inv_stop cfg cfg' s sp G ys HI).
Qed.
