(** Lemmas on Model/Alias.v: inserts, calls without failing writes, what is written. *)
From Coq Require Import Strings.String.
From Verif.Lib Require Import Prelude ListAux ListLemmas Perm.
From Verif.Model Require Import Element Elements Segment List Storage Fails Alias.
From Verif.Spec Require Import RankSpec QuerySpec HistorySpec AnswerSpec AliasSpec.
From Verif.Proof Require Import ElementP ElementsP SegP InvDef ChangeP UpdateP UpdateInv DeleteP InsertP HistoryP StoreOps AliasP AliasP2 AliasP3 AliasP4 AliasP5.
Open Scope nat_scope.

Lemma insert_one_form now sc l e : let ix := snd (segs_insert now sc (l_scores l) (sort_elems e)) in
  insert_one now sc l e =
  set_both l (set_segs (l_scores l) (fst (insert_sorted now (ss_segs (l_scores l)) (sort_elems (sort_elems e)))))
             (set_segs (l_index l) (fst (insert_sorted now (ss_segs (l_index l)) (sort_elems (sort_elems ix))))).
Proof.
  cbv zeta. unfold insert_one, segs_insert. destruct (insert_sorted now (ss_segs (l_scores l)) _) as [a b]. cbn [snd].
  destruct (insert_sorted now (ss_segs (l_index l)) _) as [c d]. reflexivity.
Qed.
Lemma insert_one_ok hs hi f r now sc l e : distinct_ids e ->
  snd (insert_one_live hs hi f r now sc l e) = true -> fst (fst (insert_one_live hs hi f r now sc l e)) = insert_one now sc l e.
Proof.
  intros Hd. pose proof (insert_one_mixed hs hi f r now sc l e Hd) as H. pose proof (insert_one_form now sc l e) as E. cbv zeta in E.
  unfold insert_one_live in *. cbv zeta in *. destruct (save_ok (f_scores f) _) eqn:Eo; cbn [fst snd] in *; [|discriminate].
  intros Ei. destruct H as (_ & H & _). destruct (H Ei) as [H1 H2]. cbn [set_both l_scores l_index set_segs ss_segs] in H1, H2.
  rewrite H1, H2, E. reflexivity.
Qed.
Lemma insert_loop_mixed hs hi f r now sch limit : 0 < limit -> (0 < now < max_u32)%N -> forall fuel e (P : element -> Prop) l, length e <= fuel ->
  Inv P l -> distinct_ids e -> Forall good e -> (forall x y, In x e -> P y -> e_id x <> e_id y) ->
  let '(l', _, ok) := insert_loop_live fuel limit hs hi f r now sch e l in
  (ok = true -> insert_loop fuel limit now sch e l = Done l') /\
  (ok = false -> exists a c b l1 l2, e = a ++ c ++ b /\ length c <= limit /\ Inv (fun x => In x a \/ P x) l1 /\ Inv (fun x => In x (a ++ c) \/ P x) l2 /\
     chunk_mixed hs hi (f (length (c ++ b))) (r (length (c ++ b))) l1 l2 l' false).
Proof.
  intros Hlim Hnow. 
  assert (One : forall e b (P : element -> Prop) l n, length e <= limit -> n = length (e ++ b) ->
    Inv P l -> distinct_ids e -> Forall good e -> (forall x y, In x e -> P y -> e_id x <> e_id y) ->
    let '(l', _, ok) := insert_one_live hs hi (f n) (r n) now (sch n) l e in
    (ok = true -> l' = insert_one now (sch n) l e) /\
    (ok = false -> exists a c b' l1 l2, e ++ b = a ++ c ++ b' /\ length c <= limit /\ Inv (fun x => In x a \/ P x) l1 /\ Inv (fun x => In x (a ++ c) \/ P x) l2 /\
       chunk_mixed hs hi (f (length (c ++ b'))) (r (length (c ++ b'))) l1 l2 l' false)).
  { intros e b P l n Hl -> HI Hd Hg Hn.
    pose proof (insert_one_mixed hs hi (f (length (e ++ b))) (r (length (e ++ b))) now (sch (length (e ++ b))) l e Hd) as M.
    pose proof (insert_one_ok hs hi (f (length (e ++ b))) (r (length (e ++ b))) now (sch (length (e ++ b))) l e Hd) as K.
    destruct (insert_one_live _ _ _ _ _ _ _ _) as [[l' w] ok]. cbn [fst snd] in K. split; [exact K|]. intros ->.
    destruct (insert_one_inv P l now (sch (length (e ++ b))) e HI Hd Hg Hn Hnow) as (HI' & _).
    exists [], e, b, l, (insert_one now (sch (length (e ++ b))) l e). split; [reflexivity|]. split; [exact Hl|]. split.
    { eapply Inv_ext; [|exact HI]. intros x. cbn. tauto. }
    split; [exact HI'|]. exact M. }
  induction fuel as [|fu IH]; intros e P l Hlen HI Hd Hg Hn.
  - destruct e as [|x e]; [|cbn in Hlen; lia]. cbn [insert_loop_live insert_loop length]. destruct (Nat.ltb_spec limit 0); [lia|].
    specialize (One [] [] P l 0 (Nat.le_0_l _) eq_refl HI Hd Hg Hn). destruct (insert_one_live _ _ _ _ _ _ _ _) as [[l' w] ok].
    destruct One as [O1 O2]. split; [intros H1; rewrite (O1 H1); reflexivity|exact O2].
  - cbn [insert_loop_live insert_loop]. destruct (Nat.ltb_spec limit (length e)) as [Hlt|Hge].
    + pose proof Hd as Hd0. pose proof Hg as Hg0. rewrite <- (firstn_skipn limit e) in Hd, Hg.
      unfold distinct_ids in Hd. rewrite map_app in Hd. apply NoDup_app_iff in Hd as (D1 & D2 & D3). apply Forall_app in Hg as (G1 & G2).
      assert (Hn1 : forall x y, In x (firstn limit e) -> P y -> e_id x <> e_id y) by (intros x y Hx; apply Hn; eapply In_firstn; eauto).
      destruct (insert_one_inv P l now (sch (length e)) (firstn limit e) HI D1 G1 Hn1 Hnow) as (HI' & _).
      specialize (One (firstn limit e) (skipn limit e) P l (length e)). 
      specialize (One ltac:(rewrite firstn_length; lia) ltac:(rewrite firstn_skipn; reflexivity) HI D1 G1 Hn1).
      destruct (insert_one_live _ _ _ _ _ _ _ _) as [[l1 w] ok] eqn:E1. destruct One as [O1 O2]. destruct ok.
      * rewrite <- (O1 eq_refl) in *. specialize (IH (skipn limit e) (fun x => In x (firstn limit e) \/ P x) l1).
        specialize (IH ltac:(rewrite skipn_length; lia) HI' D2 G2).
        destruct (insert_loop_live _ _ _ _ _ _ _ _ _ _) as [[l2 w2] ok2]. destruct IH as [I1 I2].
        { intros x y Hx [Hy|Hy]; [|apply Hn; auto; eapply In_skipn; eauto]. intros C. apply (D3 (e_id y)); [apply in_map, Hy|rewrite <- C; apply in_map, Hx]. }
        split; [exact I1|]. intros Ho. destruct (I2 Ho) as (a & c & b & k1 & k2 & Ee & Hc & HA & HB & HM).
        exists (firstn limit e ++ a), c, b, k1, k2. split; [rewrite <- app_assoc, <- Ee, firstn_skipn; reflexivity|]. split; [exact Hc|].
        split; [eapply Inv_ext; [|exact HA]; intros x; cbn beta; rewrite in_app_iff; tauto|].
        split; [eapply Inv_ext; [|exact HB]; intros x; cbn beta; rewrite !in_app_iff; tauto|exact HM].
      * split; [discriminate|]. rewrite firstn_skipn in O2. exact O2.
    + specialize (One e [] P l (length e) Hge ltac:(rewrite app_nil_r; reflexivity) HI Hd Hg Hn).
      destruct (insert_one_live _ _ _ _ _ _ _ _) as [[l' w] ok]. rewrite app_nil_r in One.
      destruct One as [O1 O2]. split; [intros H1; rewrite (O1 H1); reflexivity|exact O2].
Qed.

Lemma good_stored e : Forall stored e -> Forall good e.
Proof. intros H. exact H. Qed.
Lemma chunk_app m a c : distinct_ids (a ++ c) -> (forall x, In x (a ++ c) -> m (e_id x) = None) -> forall x, (In x (a ++ c) \/ sin m x) <-> sin (sputs m (a ++ c)) x.
Proof.
  intros Hd Hn x. rewrite sin_sputs by exact Hd. split; [|tauto]. intros [H|H]; [auto|]. right. split; [exact H|]. intros C.
  apply in_map_iff in C as (y & Ey & Hy). specialize (Hn y Hy). unfold sin in H. rewrite Ey in Hn. congruence.
Qed.
Lemma distinct_prefix (a b : elements) : distinct_ids (a ++ b) -> distinct_ids a.
Proof. unfold distinct_ids. rewrite map_app, NoDup_app_iff. tauto. Qed.
Lemma limit_pos merge split l m now sch e : reachable merge split l m -> op_ok merge split m (OInsert now sch e) -> 0 < want_limit l.
Proof.
  intros HR (_ & _ & _ & _ & H4). pose proof (reach_inv _ _ _ _ HR) as (HI & _ & HS). rewrite <- HS in H4.
  eapply want_limit_pos; eauto.
Qed.
Lemma c70_insert merge split l m hs hi f fm r now sch e : reachable merge split l m -> op_ok merge split m (OInsert now sch e) ->
  let '(l', _, ok) := insert_live hs hi f fm r now sch e l in
  insert now sch e l = Done l' \/
  ok = false /\ exists a c b l1 l2, e = a ++ c ++ b /\ length c <= want_limit l /\
    ranking_of (sin (sputs m a)) (stored_in l1) /\ ranking_of (sin (sputs m (a ++ c))) (stored_in l2) /\
    let fs := f (length (c ++ b)) in let rs := r (length (c ++ b)) in
    mixed hs (f_scores fs) (part_insert (r_scores rs)) (ss_segs (l_scores l1)) (ss_segs (l_scores l2)) (ss_segs (l_scores l')) /\
    (l_index l' = l_index l1 \/
     mixed hi (f_index fs) (part_insert (r_index rs)) (ss_segs (l_index l1)) (ss_segs (l_index l2)) (ss_segs (l_index l'))).
Proof.
  intros HR Hok. pose proof (limit_pos _ _ _ _ _ _ _ HR Hok) as HL. destruct Hok as (Hd & Hg & Hn & Hnow & H4).
  pose proof (reach_Inv _ _ _ _ HR) as HI.
  assert (Hn' : forall x y, In x e -> sin m y -> e_id x <> e_id y).
  { intros x y Hx Hy C. specialize (Hn x Hx). unfold sin in Hy. rewrite <- C in Hy. congruence. }
  pose proof (insert_loop_mixed hs hi f r now sch (want_limit l) HL Hnow (length e) e (sin m) l (le_n _) HI Hd (good_stored _ Hg) Hn') as H.
  unfold insert_live, insert. destruct (insert_loop_live _ _ _ _ _ _ _ _ _ _) as [[l' w] ok]. destruct H as [H1 H2]. destruct ok.
  - destruct (save_metas fm l') as [mm ok']. left. apply H1. reflexivity.
  - right. split; [reflexivity|]. destruct (H2 eq_refl) as (a & c & b & l1 & l2 & E & Hc & A & B & M1 & _ & M2).
    exists a, c, b, l1, l2. split; [exact E|]. split; [exact Hc|]. rewrite E in Hd, Hn.
    assert (Dac : distinct_ids (a ++ c)) by (apply (distinct_prefix _ b); rewrite <- app_assoc; exact Hd).
    split; [|split; [|split; [exact M1|destruct M2 as [[_ M2]|M2]; auto]]].
    + destruct (contents_ranking _ _ A) as [K1 K2]. split; [exact K1|]. intros x. rewrite (K2 x).
      pose proof (chunk_app m a [] ltac:(rewrite app_nil_r; eapply distinct_prefix; exact Dac)) as Q. rewrite !app_nil_r in Q. apply Q.
      intros y Hy. apply Hn. apply in_or_app. auto.
    + destruct (contents_ranking _ _ B) as [K1 K2]. split; [exact K1|]. intros x. rewrite (K2 x). apply chunk_app; [exact Dac|].
      intros y Hy. apply Hn. rewrite app_assoc. apply in_or_app. auto.
Qed.

(** nothing fails *)
Definition all_kept (f : fates) : Prop := (forall i, f_scores f i = Kept) /\ (forall i, f_index f i = Kept) /\ f_smeta f = Kept /\ f_imeta f = Kept.
Lemma metas_ok f l : all_kept f -> save_metas f l = ([EMeta (l_scores l); EMeta (l_index l)], true).
Proof. intros (_ & _ & H1 & H2). unfold save_metas. rewrite H1, H2. reflexivity. Qed.
Lemma save_ok_all fs ts : (forall i, fs i = Kept) -> save_ok fs ts = true.
Proof. intros H. apply forallb_forall. intros i _. rewrite H. reflexivity. Qed.
Lemma update_names P l clk clki now sc e : Inv P l -> let full := update_elements clk clki now sc e l in
  full = set_both l (set_segs (reindex (l_scores l)) (ss_segs (l_scores full))) (set_segs (l_index l) (ss_segs (l_index full))).
Proof.
  intros HI. cbv zeta. unfold update_elements. destruct (update_core clk clki sc e l) as [[ss is] [ts ti]]. reflexivity.
Qed.
Lemma update_clean merge split l m hs hi f r clk clki now sc e : reachable merge split l m -> op_ok merge split m (OUpdate clk clki now sc e) -> all_kept f ->
  exists w, update_live hs hi f r clk clki now sc e l = (update_elements clk clki now sc e l, w, true).
Proof.
  intros HR (Hd & Hs & Hc & Hci & Hn) Hf. pose proof (reach_Inv _ _ _ _ HR) as HI.
  pose proof (update_live_eq (sin m) l hs hi f r clk clki now sc e HI (op_batch _ Hd Hs) Hc Hci Hn) as H. cbv zeta in H.
  pose proof (update_names _ l clk clki now sc e HI) as E0. cbv zeta in E0.
  destruct (update_core clk clki sc e l) as (w & (ts & ti)). destruct H as (xs & ys & M1 & M2 & _ & _ & E).
  cbv zeta in E. rewrite E, metas_ok by exact Hf. cbn [fst snd]. eexists. f_equal. f_equal. rewrite E0. f_equal; f_equal; (apply save_clean; [assumption|intros; apply Hf]).
Qed.
Lemma delete_clean l hs hi f r now sc1 sc2 ids : all_kept f ->
  exists w, delete_live hs hi f r now sc1 sc2 ids l = (delete_elements now sc1 sc2 ids l, w, true).
Proof.
  intros Hf. unfold delete_live. cbv zeta. rewrite save_ok_all by apply Hf. rewrite metas_ok by exact Hf. eexists. f_equal. f_equal.
  pose proof (delete_idx_makes now sc2 (r_scores r) (l_scores l) (get_index_elements sc1 l ids)) as M. cbv zeta in M.
  unfold delete_elements. set (e := get_index_elements sc1 l ids) in *.
  rewrite reindex_segs in *. rewrite (save_clean _ _ _ _ _ _ _ M) by (intros; apply Hf).
  replace (set_segs (reindex (l_scores l)) (ss_segs (fst (delete_elements_idx now sc2 (l_scores l) e)))) with (fst (delete_elements_idx now sc2 (l_scores l) e)) by (unfold delete_elements_idx; rewrite reindex_segs; reflexivity).
  destruct (delete_elements_idx now sc2 (l_scores l) e) as [s' deleted]. cbn [fst snd].
  pose proof (delete_sorted_makes now (r_index r) (ss_segs (l_index l)) deleted) as M2.
  destruct deleted as [|d0 dr].
  - rewrite touched_none in M2. rewrite deleted_none in M2. rewrite (save_clean _ _ _ _ _ _ _ M2) by (intros; apply Hf). destruct (l_index l); reflexivity.
  - rewrite (save_clean _ _ _ _ _ _ _ M2) by (intros; apply Hf). reflexivity.
Qed.
Lemma insert_clean merge split l m hs hi f fm r now sch e : reachable merge split l m -> op_ok merge split m (OInsert now sch e) ->
  (forall n, all_kept (f n)) -> all_kept fm -> exists l' w, insert_live hs hi f fm r now sch e l = (l', w, true) /\ insert now sch e l = Done l'.
Proof.
  intros HR Hok Hf Hfm. pose proof (limit_pos _ _ _ _ _ _ _ HR Hok) as HL. destruct Hok as (Hd & Hg & Hn & Hnow & H4).
  pose proof (reach_Inv _ _ _ _ HR) as HI.
  assert (Hn' : forall x y, In x e -> sin m y -> e_id x <> e_id y).
  { intros x y Hx Hy C. specialize (Hn x Hx). unfold sin in Hy. rewrite <- C in Hy. congruence. }
  assert (K : forall lim, 0 < lim -> forall fuel e l, length e <= fuel -> snd (insert_loop_live fuel lim hs hi f r now sch e l) = true).
  { intros lim Hlim. assert (O : forall n sc l e, snd (insert_one_live hs hi (f n) (r n) now sc l e) = true).
    { intros n sc l0 e0. unfold insert_one_live. cbv zeta. rewrite save_ok_all by apply Hf. cbn [snd]. apply save_ok_all. apply Hf. }
    induction fuel as [|fu IH]; intros e0 l0 Hl; cbn [insert_loop_live].
    - destruct e0; [|cbn in Hl; lia]. cbn [length]. destruct (Nat.ltb_spec lim 0); [lia|apply O].
    - destruct (Nat.ltb_spec lim (length e0)); [|apply O]. specialize (O (length e0) (sch (length e0)) l0 (firstn lim e0)).
      destruct (insert_one_live _ _ _ _ _ _ _ _) as [[l1 w1] ok1]. cbn [snd] in O. subst ok1.
      specialize (IH (skipn lim e0) l1 ltac:(rewrite skipn_length; lia)). destruct (insert_loop_live _ _ _ _ _ _ _ _ _ _) as [[l2 w2] ok2]. exact IH. }
  pose proof (insert_loop_mixed hs hi f r now sch (want_limit l) HL Hnow (length e) e (sin m) l (le_n _) HI Hd (good_stored _ Hg) Hn') as H.
  specialize (K (want_limit l) HL (length e) e l (le_n _)). unfold insert_live, insert.
  destruct (insert_loop_live _ _ _ _ _ _ _ _ _ _) as [[l' w] ok]. cbn [snd] in K. subst ok. destruct H as [H _]. rewrite metas_ok by exact Hfm. do 2 eexists. split; [reflexivity|auto].
Qed.

(** the writes *)
Lemma saves_in h fs now xs old new ts : makes now ts xs old new -> forall k n, In (EPut k n) (save_writes h fs now ts xs old) -> k = h /\ written fs new n.
Proof.
  intros M k n Hn. rewrite (save_puts h fs now xs old new ts ts M (incl_refl _)) in Hn. apply in_flat_map in Hn as (i & Hi & Hn).
  destruct (nth_error new i) as [x|] eqn:E; [|destruct Hn]. destruct (reaches (fs i)) eqn:Er; [|destruct Hn].
  destruct Hn as [Hn|[]]. inv Hn. split; [reflexivity|]. exists i. auto.
Qed.
Lemma saves_all h fs now xs old new ts : makes now ts xs old new -> forall n, rewritten fs old new n -> In (EPut h n) (save_writes h fs now ts xs old).
Proof.
  intros M n (i & E & C & Hr). rewrite (save_puts h fs now xs old new ts ts M (incl_refl _)). apply in_flat_map. exists i. split.
  - destruct (in_dec Nat.eq_dec i ts) as [Hi|Hi]; [exact Hi|]. exfalso. apply C. rewrite <- (mk_out _ _ _ _ _ M i Hi). exact E.
  - rewrite E, Hr. left. reflexivity.
Qed.
Lemma metas_puts f l k n : ~ In (EPut k n) (fst (save_metas f l)).
Proof.
  unfold save_metas. destruct (f_smeta f), (f_imeta f); cbn; intuition discriminate.
Qed.
Lemma c70_written_update merge split l m hs hi f r clk clki now sc e : reachable merge split l m -> op_ok merge split m (OUpdate clk clki now sc e) ->
  let full := update_elements clk clki now sc e l in
  let w := snd (fst (update_live hs hi f r clk clki now sc e l)) in
  (forall k n, In (EPut k n) w -> k = hs /\ written (f_scores f) (ss_segs (l_scores full)) n \/ k = hi /\ written (f_index f) (ss_segs (l_index full)) n) /\
  (forall n, rewritten (f_scores f) (ss_segs (l_scores l)) (ss_segs (l_scores full)) n -> In (EPut hs n) w) /\
  (forall n, rewritten (f_index f) (ss_segs (l_index l)) (ss_segs (l_index full)) n -> In (EPut hi n) w).
Proof.
  intros HR (Hd & Hs & Hc & Hci & Hn). cbv zeta. pose proof (reach_Inv _ _ _ _ HR) as HI.
  pose proof (update_live_eq (sin m) l hs hi f r clk clki now sc e HI (op_batch _ Hd Hs) Hc Hci Hn) as H. cbv zeta in H.
  destruct (update_core clk clki sc e l) as (w & (ts & ti)). destruct H as (xs & ys & M1 & M2 & _ & _ & E).
  cbv zeta in E. rewrite E. cbn [fst snd]. split; [|split].
  - intros k n Hk. rewrite !in_app_iff in Hk. destruct Hk as [Hk|[Hk|Hk]].
    + right. eapply saves_in; eauto.
    + left. eapply saves_in; eauto.
    + apply metas_puts in Hk. destruct Hk.
  - intros n Hk. rewrite !in_app_iff. right. left. eapply saves_all; eauto.
  - intros n Hk. rewrite !in_app_iff. left. eapply saves_all; eauto.
Qed.
Lemma c70_written_delete l hs hi f r now sc1 sc2 ids :
  let full := delete_elements now sc1 sc2 ids l in
  let w := snd (fst (delete_live hs hi f r now sc1 sc2 ids l)) in
  (forall k n, In (EPut k n) w -> k = hs /\ written (f_scores f) (ss_segs (l_scores full)) n \/ k = hi /\ written (f_index f) (ss_segs (l_index full)) n) /\
  (forall n, rewritten (f_scores f) (ss_segs (l_scores l)) (ss_segs (l_scores full)) n -> In (EPut hs n) w).
Proof.
  cbv zeta. destruct (delete_full_eq now sc1 sc2 ids l) as [-> ->]. cbv zeta. unfold delete_live. cbv zeta.
  set (e := get_index_elements sc1 l ids).
  pose proof (delete_idx_makes now sc2 (r_scores r) (l_scores l) e) as M. cbv zeta in M.
  rewrite !reindex_segs in *.
  set (ts := touched_idx (ss_idx (reindex (l_scores l))) (ss_segs (l_scores l)) e) in *.
  set (deleted := snd (delete_elements_idx now sc2 (l_scores l) e)).
  destruct (save_ok (f_scores f) ts) eqn:Eo.
  - pose proof (metas_puts f (set_both l (set_segs (reindex (l_scores l)) (save_at hs (f_scores f) now ts (delete_idx_sl (r_scores r) (reindex (l_scores l)) e) (ss_segs (l_scores l))))
      (set_segs (l_index l) (save_at hi (f_index f) now (match deleted with [] => [] | _ :: _ => touched_from 0 (ss_segs (l_index l)) deleted end) (delete_sorted_sl (r_index r) 0 (ss_segs (l_index l)) deleted) (ss_segs (l_index l)))))) as Mp.
    destruct (save_metas _ _) as [mm ok]. cbn [fst snd] in *. split.
    + intros k n Hk. rewrite !in_app_iff in Hk. destruct Hk as [Hk|[Hk|Hk]].
      * left. eapply saves_in; eauto.
      * right. replace (match deleted with [] => [] | _ :: _ => touched_from 0 (ss_segs (l_index l)) deleted end) with (touched_from 0 (ss_segs (l_index l)) deleted) in Hk
          by (destruct deleted; [apply touched_none|reflexivity]).
        eapply saves_in; [apply delete_sorted_makes|exact Hk].
      * apply Mp in Hk. destruct Hk.
    + intros n Hk. apply in_or_app. left. eapply saves_all; eauto.
  - cbn [fst snd]. split; [|intros n Hk; eapply saves_all; eauto]. intros k n Hk. left. eapply saves_in; eauto.
Qed.

(** what is shown *)
Lemma mixed_in h fs part old new got (A : element -> Prop) x : length new = length old -> mixed h fs part old new got ->
  (forall i o n p, part i o n p -> In x p -> In x o \/ In x n \/ A x) ->
  In x (concat (map sg_elems got)) -> In x (concat (map sg_elems old)) \/ In x (concat (map sg_elems new)) \/ A x.
Proof.
  intros L (L2 & M) HP Hx. rewrite <- flat_map_concat_map in Hx. apply in_flat_map in Hx as (s & Hs & Hx).
  apply In_nth_error in Hs as (i & Hi). assert (i < length new) by (rewrite <- L2; apply nth_error_Some; congruence).
  destruct (nth_error new i) as [n|] eqn:En; [|apply nth_error_None in En; lia].
  destruct (nth_error old i) as [o|] eqn:Eo; [|apply nth_error_None in Eo; lia].
  destruct (M i o n Eo En) as (p & Hp & E). rewrite Hi in E. inv E. cbn [set_elems sg_elems] in Hx.
  assert (Io : In x (sg_elems o) -> In x (concat (map sg_elems old))) by (intros K; rewrite <- flat_map_concat_map; apply in_flat_map; exists o; split; [eapply nth_error_In; eauto|exact K]).
  assert (In' : In x (sg_elems n) -> In x (concat (map sg_elems new))) by (intros K; rewrite <- flat_map_concat_map; apply in_flat_map; exists n; split; [eapply nth_error_In; eauto|exact K]).
  unfold shown in Hx. destruct (fs i), h; auto; (destruct (HP _ _ _ _ Hp Hx) as [K|[K|K]]; auto).
Qed.
Lemma c70_shown_update merge split l m hs hi f r clk clki now sc e x :
  reachable merge split l m -> op_ok merge split m (OUpdate clk clki now sc e) ->
  In x (stored_in (fst (fst (update_live hs hi f r clk clki now sc e l)))) -> sin m x \/ In x (map (stamp clk) e).
Proof.
  intros HR Hok Hx. pose proof (c70_update merge split l m hs hi f r clk clki now sc e HR Hok) as (M & _).
  pose proof Hok as (Hd & Hs & Hc & Hci & Hn). pose proof (reach_Inv _ _ _ _ HR) as HI.
  pose proof (update_inv (sin m) l clk clki now sc e HI (conj Hd Hs) Hc Hci Hn) as HI'.
  assert (L : length (ss_segs (l_scores (update_elements clk clki now sc e l))) = length (ss_segs (l_scores l))).
  { pose proof (update_live_eq (sin m) l hs hi f r clk clki now sc e HI (op_batch _ Hd Hs) Hc Hci Hn) as H. cbv zeta in H.
    destruct (update_core clk clki sc e l) as (w & (ts & ti)). destruct H as (xs & ys & M1 & _). apply (makes_len _ _ _ _ _ M1). }
  eapply (mixed_in _ _ _ _ _ _ (fun x => exists y, In y e /\ x = stamp clk y) x L) in M; [|intros i o n p (_ & H) K; destruct (H _ K); auto|exact Hx].
  destruct M as [M|[M|(y & M & ->)]].
  - left. apply (proj2 (contents_ranking _ _ HI)). exact M.
  - apply (proj2 (contents_ranking _ _ HI')) in M. cbn beta in M. destruct M as [(y & Hy & E)|(M & _)]; [right; subst x; exact (in_map (stamp clk) _ _ Hy)|left; exact M].
  - right. apply in_map, M.
Qed.
Lemma filtered_in now s (i : nat) e sc : forall o n x, nth_error (ss_segs s) i = Some o -> nth_error (ss_segs (fst (delete_elements_idx now sc s e))) i = Some n ->
  In x (sg_elems n) -> In x (sg_elems o).
Proof.
  intros o n x Ho Hn Hx. unfold delete_elements_idx in Hn. cbn [fst set_segs ss_segs] in Hn. rewrite reindex_segs, nth_error_mapi, Ho in Hn. cbn in Hn. inv Hn.
  destruct (ids_for _ i e); [exact Hx|]. cbn [touch set_elems sg_elems] in Hx. apply filter_In in Hx. apply Hx.
Qed.
Lemma c70_shown_delete l hs hi f r now sc1 sc2 ids x :
  let l' := fst (fst (delete_live hs hi f r now sc1 sc2 ids l)) in
  (In x (stored_in (delete_elements now sc1 sc2 ids l)) -> In x (stored_in l')) /\ (In x (stored_in l') -> In x (stored_in l)).
Proof.
  cbv zeta. pose proof (c70_delete hs hi f r now sc1 sc2 ids l) as H. cbv zeta in H.
  destruct (delete_live hs hi f r now sc1 sc2 ids l) as [[l' w] ok]. destruct H as (M & _). cbn [fst].
  destruct (delete_full_eq now sc1 sc2 ids l) as [E _]. cbv zeta in E.
  set (e := get_index_elements sc1 l ids) in *.
  pose proof (delete_idx_makes now sc2 (r_scores r) (l_scores l) e) as Mk. cbv zeta in Mk. apply makes_len in Mk as [L _]. rewrite reindex_segs in L.
  unfold stored_in. rewrite E in *. rewrite <- !flat_map_concat_map. split.
  - intros Hx. apply in_flat_map in Hx as (n & Hn & Hx). apply In_nth_error in Hn as (i & Hn).
    assert (i < length (ss_segs (l_scores l))) by (rewrite <- L; apply nth_error_Some; congruence).
    destruct (nth_error (ss_segs (l_scores l)) i) as [o|] eqn:Eo; [|apply nth_error_None in Eo; lia].
    destruct M as (_ & M). destruct (M i o n Eo Hn) as (p & Hp & Eg). apply in_flat_map. eexists. split; [eapply nth_error_In; exact Eg|].
    cbn [set_elems sg_elems]. pose proof (filtered_in now (l_scores l) i e sc2 o n x Eo Hn Hx) as Ho.
    unfold shown. destruct (f_scores f i), hs; auto; rewrite Hp; apply in_or_app; auto.
  - rewrite !flat_map_concat_map. intros Hx. destruct (mixed_in _ _ _ _ _ _ (fun _ => False) x L M) as [K|[K|[]]]; auto.
    + intros i o n p Hp K. rewrite Hp in K. apply in_app_or in K as [K|K]; [auto|left; eapply In_skipn; eauto].
    + rewrite <- flat_map_concat_map in K. apply in_flat_map in K as (n & Hn & K). apply In_nth_error in Hn as (i & Hn).
      assert (i < length (ss_segs (l_scores l))) by (rewrite <- L; apply nth_error_Some; congruence).
      destruct (nth_error (ss_segs (l_scores l)) i) as [o|] eqn:Eo; [|apply nth_error_None in Eo; lia].
      rewrite <- flat_map_concat_map. apply in_flat_map. exists o. split; [eapply nth_error_In; eauto|]. eapply filtered_in; eauto.
Qed.
Lemma c70_clean merge split l m hs hi f r : reachable merge split l m -> (forall n, all_kept (f n)) ->
  (forall clk clki now sc e, op_ok merge split m (OUpdate clk clki now sc e) ->
     exists w, update_live hs hi (f 0%nat) (r 0%nat) clk clki now sc e l = (update_elements clk clki now sc e l, w, true)) /\
  (forall now sc1 sc2 ids, exists w, delete_live hs hi (f 0%nat) (r 0%nat) now sc1 sc2 ids l = (delete_elements now sc1 sc2 ids l, w, true)) /\
  (forall now sch e, op_ok merge split m (OInsert now sch e) ->
     exists l' w, insert_live hs hi f (f 0%nat) r now sch e l = (l', w, true) /\ insert now sch e l = Done l').
Proof.
  intros HR Hf. split; [|split].
  - intros. eapply update_clean; eauto.
  - intros. apply delete_clean, Hf.
  - intros. eapply insert_clean; eauto.
Qed.
Lemma c70_written merge split l m hs hi f r : reachable merge split l m ->
  (forall clk clki now sc e, op_ok merge split m (OUpdate clk clki now sc e) ->
   let full := update_elements clk clki now sc e l in
   let w := snd (fst (update_live hs hi f r clk clki now sc e l)) in
   (forall k n, In (EPut k n) w -> k = hs /\ written (f_scores f) (ss_segs (l_scores full)) n \/ k = hi /\ written (f_index f) (ss_segs (l_index full)) n) /\
   (forall n, rewritten (f_scores f) (ss_segs (l_scores l)) (ss_segs (l_scores full)) n -> In (EPut hs n) w) /\
   (forall n, rewritten (f_index f) (ss_segs (l_index l)) (ss_segs (l_index full)) n -> In (EPut hi n) w)) /\
  (forall now sc1 sc2 ids,
   let full := delete_elements now sc1 sc2 ids l in
   let w := snd (fst (delete_live hs hi f r now sc1 sc2 ids l)) in
   (forall k n, In (EPut k n) w -> k = hs /\ written (f_scores f) (ss_segs (l_scores full)) n \/ k = hi /\ written (f_index f) (ss_segs (l_index full)) n) /\
   (forall n, rewritten (f_scores f) (ss_segs (l_scores l)) (ss_segs (l_scores full)) n -> In (EPut hs n) w)).
Proof. intros HR. split; intros; [eapply c70_written_update; eauto|apply c70_written_delete]. Qed.
Lemma c70_shown merge split l m hs hi f r : reachable merge split l m ->
  (forall clk clki now sc e x, op_ok merge split m (OUpdate clk clki now sc e) ->
     In x (stored_in (fst (fst (update_live hs hi f r clk clki now sc e l)))) -> sin m x \/ In x (map (stamp clk) e)) /\
  (forall now sc1 sc2 ids x, let l' := fst (fst (delete_live hs hi f r now sc1 sc2 ids l)) in
     (In x (stored_in (delete_elements now sc1 sc2 ids l)) -> In x (stored_in l')) /\ (In x (stored_in l') -> In x (stored_in l))).
Proof. intros HR. split; intros; [eapply c70_shown_update; eauto|apply c70_shown_delete]. Qed.

(** ** what is reported: a call without error has saved the metadata; of an update nothing else is reported *)
Lemma metas_saved f l a : save_metas f l = (a, true) -> f_smeta f = Kept /\ f_imeta f = Kept /\ a = [EMeta (l_scores l); EMeta (l_index l)].
Proof. unfold save_metas. destruct (f_smeta f), (f_imeta f); cbn; intros E; inversion E; auto. Qed.
Lemma metas_snd f l : snd (save_metas f l) = true <-> f_smeta f = Kept /\ f_imeta f = Kept.
Proof. unfold save_metas. destruct (f_smeta f), (f_imeta f); cbn; intuition congruence. Qed.
Lemma c70_reported hs hi f r l :
  (forall clk clki now sc e, let '(l', w, ok) := update_live hs hi f r clk clki now sc e l in
     (ok = true <-> f_smeta f = Kept /\ f_imeta f = Kept) /\
     (ok = true -> exists w0, w = w0 ++ [EMeta (l_scores l'); EMeta (l_index l')])) /\
  (forall now sc1 sc2 ids, let '(l', w, ok) := delete_live hs hi f r now sc1 sc2 ids l in
     ok = true -> f_smeta f = Kept /\ f_imeta f = Kept /\ exists w0, w = w0 ++ [EMeta (l_scores l'); EMeta (l_index l')]) /\
  (forall fs rs now sch e, let '(l', w, ok) := insert_live hs hi fs f rs now sch e l in
     ok = true -> f_smeta f = Kept /\ f_imeta f = Kept /\ exists w0, w = w0 ++ [EMeta (l_scores l'); EMeta (l_index l')]).
Proof.
  repeat split.
  - intros clk clki now sc e. unfold update_live. destruct (update_loop_sl _ _ _ _ _ _ _ _ _) as [xs ys]. cbn zeta. set (l' := set_both _ _ _).
    pose proof (metas_snd f l') as Hs. pose proof (metas_saved f l') as Hm. destruct (save_metas f l') as [m ok]. cbn [snd] in Hs. split; [exact Hs|].
    intros ->. destruct (Hm m eq_refl) as (_ & _ & ->). eexists. rewrite app_assoc. reflexivity.
  - intros now sc1 sc2 ids. unfold delete_live. cbn zeta. destruct (save_ok _ _); [|discriminate]. set (l' := set_both _ _ _).
    pose proof (metas_saved f l') as Hm. destruct (save_metas f l') as [m ok]. intros ->. destruct (Hm m eq_refl) as (A & B & ->). split; [exact A|]. split; [exact B|].
    eexists. rewrite app_assoc. reflexivity.
  - intros fs rs now sch e. unfold insert_live. destruct (insert_loop_live _ _ _ _ _ _ _ _ _ _) as [[l' w] ok]. destruct ok; [|discriminate].
    pose proof (metas_saved f l') as Hm. destruct (save_metas f l') as [m ok']. intros ->. destruct (Hm m eq_refl) as (A & B & ->). split; [exact A|]. split; [exact B|].
    eexists. reflexivity.
Qed.
