(** Backups are read back (C46). *)
From Coq Require Import Strings.Byte Strings.String.
From Verif.Lib Require Import Prelude ListAux ListLemmas.
From Verif.Model Require Import Element Elements Segment List Msgp Codec Storage Backup.
From Verif.Spec Require Import RankSpec QuerySpec HistorySpec AnswerSpec CodecSpec StorageSpec BackupSpec.
From Verif.Proof Require Import MsgpP CodecP SegP InvDef QueryP ListThm BuildInv HistoryP StoreP StoreOps StoreBuild StoreWorld.
Open Scope N_scope.

Lemma reads_ver v : v < 255 -> reads (r_ver v) (w_version v) tt.
Proof. intros H r. unfold r_ver. rewrite version_reads by exact H. rewrite N.eqb_refl. reflexivity. Qed.
Lemma mono_ver v : v < 255 -> mono (r_ver v).
Proof.
  intros H b a r s E. unfold r_ver, r_version in *. destruct (r_uint 8 b) as [(x, q)|] eqn:Er.
  - rewrite (mono_uint 8 _ _ _ s Er). destruct (x =? v); [|discriminate]. injection E as <- <-. reflexivity.
  - replace (255 =? v) with false in E by lia. discriminate.
Qed.
Lemma mono_full n : mono (r_full n).
Proof.
  induction n as [|n IH]; cbn [r_full]; [apply mono_ret|]. apply mono_bind; [apply mono_segment|intros w].
  apply mono_if; [apply mono_ret|]. apply mono_bind; [apply mono_elements|intros e]. apply mono_bind; [apply IH|intros o]. apply mono_ret.
Qed.
Lemma mono_restore newid ni now sc : mono (restore_list newid ni now sc).
Proof.
  unfold restore_list. apply mono_bind; [apply mono_ver; reflexivity|intros _]. apply mono_bind; [apply mono_list|intros w].
  apply mono_bind; [apply mono_ver; reflexivity|intros _]. apply mono_bind; [apply mono_segments|intros ws].
  apply mono_bind; [apply mono_ver; reflexivity|intros _]. apply mono_bind; [apply mono_int|intros n].
  apply mono_if; [apply mono_ret|]. apply mono_bind; [apply mono_full|intros o]. apply mono_ret.
Qed.

Lemma of_to_wseg s : of_wseg (to_wseg s) (sg_elems s) = s.
Proof. destruct s. unfold of_wseg, to_wseg. cbn. rewrite Nat2Z.id, N2Z.id. reflexivity. Qed.
Lemma full_reads l : Forall (fun s => segment_fits (to_wseg s) /\ elements_fit (sg_elems s)) l ->
  reads (r_full (length l)) (flat_map w_full l) (Done l).
Proof.
  induction l as [|s l IH]; intros H; cbn [r_full length flat_map]; [apply reads_ret|].
  apply Forall_cons_iff in H as ((H1 & H2) & H3). unfold w_full at 1. rewrite <- app_assoc.
  eapply reads_bind; [apply segment_reads, H1|]. replace (w_n (to_wseg s) <? 0)%Z with false.
  2: { symmetry. apply Z.ltb_ge. cbn [to_wseg w_n]. lia. }
  eapply reads_bind; [apply elements_reads, H2|]. intros r. unfold bind. rewrite (IH H3 r). unfold ret. rewrite of_to_wseg. reflexivity.
Qed.

Lemma restore_parts newid ni now sc d l w1 w2 n o :
  reads r_list (w_list (desc_wlist d l)) w1 -> reads r_segments (w_segments (to_wsegs (l_scores l))) w2 ->
  reads r_int (w_int (Z.of_nat (length (ss_segs (l_scores l))))) (Z.of_nat n) -> reads (r_full n) (flat_map w_full (ss_segs (l_scores l))) (Done o) ->
  reads (restore_list newid ni now sc) (backup d l)
   (let ns := match newid with Some (_, s) => s | None => ws_id w2 end in
    let d := mkBD (match newid with Some (i, _) => i | None => wl_id w1 end) (wl_set w1) (wl_meta w1) (wl_load w1) in
    let scores := mkSegs ns (map (fun s => touch now (set_parent ns s)) o) (next_of (ws_next w2)) (ws_index w2) [] in
    let sid := match newid with Some (_, s) => s | None => wl_scores w1 end in
    match reindex_list ni now sc (mkL (Z.to_nat (wl_merge w1)) (Z.to_nat (wl_split w1)) sid ni scores (mkSegs ni [] 1 true [])) with
    | Done l => Done (d, l) | Panic => Panic | Diverge => Diverge | Exhausted => Exhausted end).
Proof.
  intros H1 H2 H3 H4. unfold backup, restore_list.
  eapply reads_bind; [apply reads_ver; reflexivity|]. eapply reads_bind; [exact H1|].
  eapply reads_bind; [apply reads_ver; reflexivity|]. eapply reads_bind; [exact H2|].
  eapply reads_bind; [apply reads_ver; reflexivity|]. eapply reads_bind; [exact H3|].
  replace (Z.of_nat n <? 0)%Z with false by (symmetry; apply Z.ltb_ge; lia). rewrite Nat2Z.id.
  intros r. unfold bind at 1. rewrite (H4 r). reflexivity.
Qed.

Lemma sound_fits g s d l m : sound g s d l m ->
  list_fits (desc_wlist d l) /\ segments_fit (to_wsegs (l_scores l)) /\ 0 < ss_next (l_scores l) <= 2 ^ 32 /\
  Forall (fun s => segment_fits (to_wseg s) /\ elements_fit (sg_elems s)) (ss_segs (l_scores l)).
Proof.
  intros (HR & (F1 & F2) & S1 & S2 & S3 & S4 & S5 & S6 & S7 & _). destruct (reach_inv _ _ _ _ HR) as (HI & Eg & Es). subst g s.
  split; [repeat (split; [assumption|]); assumption|]. destruct (i_core _ _ HI) as (Q & HC).
  assert (HL : N.of_nat (length (elems_of (ss_segs (l_scores l)))) < 2 ^ 32) by (apply F2, (contents_ranking _ _ HI)).
  rewrite <- (i_ns _ _ HI) in S6. destruct (segs_fit_meta _ _ (i_ms _ _ HI) (c_s _ _ _ _ HC) S6 HL) as (F3 & N1).
  split; [exact F3|]. split; [exact N1|].
  pose proof (elems_fit_all _ _ (c_s _ _ _ _ HC) F1 HL) as HE. destruct F3 as (_ & _ & F3 & _). cbn [to_wsegs ws_segs] in F3.
  rewrite Forall_map in F3. rewrite Forall_forall in *. intros x Hx. split; [apply F3, Hx|apply HE, Hx].
Qed.

Lemma next_mod n : 0 < n <= 2 ^ 32 -> next_of (n mod 2 ^ 32) = n.
Proof.
  intros H. unfold next_of. destruct (N.eq_dec n (2 ^ 32)) as [->|Hn]; [reflexivity|].
  rewrite N.mod_small by lia. replace (n =? 0) with false by lia. reflexivity.
Qed.
Lemma reindex_index ni now sc l i : reindex_list ni now sc (mkL (l_merge l) (l_split l) (l_scores_id l) ni (l_scores l) i) = reindex_list ni now sc l.
Proof. reflexivity. Qed.

Lemma nse_name ni now parts b index e : new_segments_elements ni now parts b = (index, e) -> ss_id index = ni.
Proof.
  unfold new_segments_elements. destruct (nse_loop _ _ _ _ _) as [[l id] ix]. destruct l; intros E; injection E as <- <-; reflexivity.
Qed.
Lemma c46_restore g s d l m newid ni now sc : sound g s d l m -> (forall i ns, newid = Some (i, ns) -> ns <> ""%string) ->
  ni <> ""%string -> tick now ->
  exists d' l', reads (restore_list newid ni now sc) (backup d l) (Done (d', l')) /\
    same_list (match newid with Some (i, _) => i | None => bd_id d end) d l d' l' /\
    l_scores_id l' = (match newid with Some (_, ns) => ns | None => l_scores_id l end) /\ l_index_id l' = ni /\ stored_in l' = stored_in l.
Proof.
  intros HS Hnew Hni Hnow. pose proof (sound_fits _ _ _ _ _ HS) as (F1 & F2 & F3 & F4).
  destruct HS as (HR & Hf & S1 & S2 & S3 & S4 & S5 & S6 & S7 & S8 & S9).
  destruct (reach_inv _ _ _ _ HR) as (HI & Eg & Es).
  set (ns := match newid with Some (_, s) => s | None => ss_id (l_scores l) end).
  assert (Hns : ns <> ""%string).
  { unfold ns. destruct newid as [(i & x)|]; [apply (Hnew i x eq_refl)|]. apply (m_name _ (i_ms _ _ HI)). }
  assert (HlE : N.of_nat (length (contents l)) < max_u32) by (apply S9, (contents_ranking _ _ HI)).
  destruct (restored_inv (sin m) l ns ni now sc HI ltac:(lia) Hnow Hns Hni HlE) as (l' & E & HI' & HC & HM & HSp).
  exists (mkBD (match newid with Some (i, _) => i | None => bd_id d end) (bd_set d) (Some (meta_of (bd_meta d))) (bd_load d)), l'.
  assert (Hn : N.of_nat (length (ss_segs (l_scores l))) < 2 ^ 32).
  { destruct F2 as (_ & F2 & _). unfold short in F2. cbn [to_wsegs ws_segs] in F2. rewrite map_length in F2. exact F2. }
  assert (Hi : (- 2 ^ 63 <= Z.of_nat (length (ss_segs (l_scores l))) < 2 ^ 63)%Z).
  { change (2 ^ 32) with 4294967296 in Hn. change (2 ^ 63)%Z with 9223372036854775808%Z. lia. }
  pose proof (restore_parts newid ni now sc d l _ _ _ _ (list_reads _ F1) (segments_reads _ F2) (reads_int _ Hi) (full_reads _ F4)) as HP.
  cbn zeta in HP. cbn [to_wsegs ws_id ws_next ws_index with_map desc_wlist wl_id wl_set wl_meta wl_split wl_merge wl_load wl_scores] in HP.
  rewrite !Nat2Z.id, (next_mod _ F3) in HP. fold ns in HP.
  replace (match newid with Some (_, s0) => s0 | None => l_scores_id l end) with ns in * by (unfold ns; destruct newid as [(? & ?)|]; [reflexivity|apply (i_ns _ _ HI)]).
  pose proof E as E0. unfold restored in E. unfold reindex_list in E, HP. cbn [l_scores l_merge l_split ss_segs] in E, HP.
  destruct (split_size _ _) as [parts|]; [|discriminate]. destruct (new_segments_elements ni now parts true) as (index & ?) eqn:En.
  unfold set_both in E, HP. cbn [l_merge l_split] in E, HP. rewrite E in HP. split; [exact HP|].
  assert (Hres : forall g s m, reachable g s l m -> reachable g s l' m).
  { intros g0 s0 m0 HR0. destruct (reach_inv _ _ _ _ HR0) as (_ & Eg0 & Es0).
    refine (R_restore g0 s0 l m0 ns ni now sc l' HR0 _ Hns Hni Hnow _ _); [lia| |].
    - intros r Hr. rewrite (ranking_unique _ _ _ Hr (reach_ranking _ _ _ _ HR0)). rewrite <- (ranking_unique _ _ _ (contents_ranking _ _ HI) (reach_ranking _ _ _ _ HR)). exact HlE.
    - exact E0. }
  split; [split; [reflexivity|]; split; [reflexivity|]; split; [reflexivity|]; split; [reflexivity|exact Hres]|].
  unfold guard_ids in E. destruct (ids_ok _); [|discriminate]. injection E as <-. split; [reflexivity|]. split; [|exact HC].
  cbn [l_index_id]. eapply nse_name; exact En.
Qed.

Lemma c46_truncated g s d l m newid ni now sc b c : sound g s d l m -> backup d l = b ++ c -> c <> [] ->
  restore_list newid ni now sc b = None.
Proof.
  intros HS E Hc. pose proof (sound_fits _ _ _ _ _ HS) as (F1 & F2 & _ & F4).
  assert (Hi : (- 2 ^ 63 <= Z.of_nat (length (ss_segs (l_scores l))) < 2 ^ 63)%Z).
  { destruct F2 as (_ & F2 & _). unfold short in F2. cbn [to_wsegs ws_segs] in F2. rewrite map_length in F2.
    change (2 ^ 32) with 4294967296 in F2. change (2 ^ 63)%Z with 9223372036854775808%Z. lia. }
  eapply truncated; [apply mono_restore| |exact E|exact Hc].
  exact (restore_parts newid ni now sc d l _ _ _ _ (list_reads _ F1) (segments_reads _ F2) (reads_int _ Hi) (full_reads _ F4)).
Qed.

(** ** the stream *)
Lemma append_assoc a b c : ((a ++ b) ++ c)%string = (a ++ (b ++ c))%string.
Proof. induction a as [|x a IH]; cbn; [reflexivity|]. rewrite IH. reflexivity. Qed.
Lemma append_pre a : forall b c, (a ++ b)%string = (a ++ c)%string -> b = c.
Proof. induction a as [|x a IH]; intros b c E; cbn in E; [exact E|]. injection E as E. apply IH, E. Qed.
Lemma append_len a b : String.length (a ++ b) = (String.length a + String.length b)%nat.
Proof. induction a as [|x a IH]; cbn; [reflexivity|]. rewrite IH. reflexivity. Qed.
Lemma append_suf s : forall a b, (a ++ s)%string = (b ++ s)%string -> a = b.
Proof.
  induction a as [|x a IH]; intros [|y b] E.
  - reflexivity.
  - apply (f_equal String.length) in E. cbn in E. rewrite append_len in E. lia.
  - apply (f_equal String.length) in E. cbn in E. rewrite append_len in E. lia.
  - cbn in E. injection E as <- E. f_equal. apply IH, E.
Qed.
Lemma dst_inj pre suf a b : (pre ++ a ++ suf)%string = (pre ++ b ++ suf)%string -> a = b.
Proof. intros E. apply append_pre in E. apply append_suf in E. exact E. Qed.

Definition rest_bytes (d : bdesc) (l : lst) : wire := w_version backup_list_version ++ w_str (bd_id d) ++ w_bin (backup d l).
Lemma record_reads d l : short_str (bd_id d) -> short (backup d l) -> reads r_record (rest_bytes d l) (bd_id d, backup d l).
Proof.
  intros H1 H2. unfold rest_bytes, r_record. eapply reads_bind; [apply reads_ver; reflexivity|].
  eapply reads_bind; [apply reads_str, H1|]. apply (reads_end r_bin (fun p => (bd_id d, p))). apply reads_bin, H2.
Qed.
Lemma mono_record : mono r_record.
Proof.
  apply mono_bind; [apply mono_ver; reflexivity|intros _]. apply mono_bind; [apply mono_str|intros id]. apply mono_bind; [apply mono_bin|intros p]. apply mono_ret.
Qed.

(** one list *)
Lemma brought_refl src pre suf rep m : brought_back src [] pre suf rep m m.
Proof. split; [intros id d l []|reflexivity]. Qed.
Lemma brought_missing src id ids pre suf rep m m' : src id = None -> brought_back src ids pre suf rep m m' -> brought_back src (id :: ids) pre suf rep m m'.
Proof.
  intros En (A & B). split.
  - intros x d l [<-|Hx] E; [congruence|]. apply A; assumption.
  - intros k [H|H]; apply B; [left|right; exact H]. intros x Hx. apply H. right. exact Hx.
Qed.
Lemma brought_kept src id ids pre suf m m' : m (pre ++ id ++ suf)%string <> None -> brought_back src ids pre suf false m m' -> brought_back src (id :: ids) pre suf false m m'.
Proof.
  intros En (A & B). split.
  - intros x d l [<-|Hx] E [H|H]; try discriminate; [contradiction|]. apply A; auto.
  - intros k [H|H]; apply B; [left|right; exact H]. intros x Hx. apply H. right. exact Hx.
Qed.
Lemma brought_put src id ids pre suf rep m m' d l d' l' m1 : src id = Some (d, l) -> rep = true \/ m (pre ++ id ++ suf)%string = None ->
  same_list (pre ++ id ++ suf) d l d' l' ->
  m1 (pre ++ id ++ suf)%string = Some (d', l') -> (forall k, k <> (pre ++ id ++ suf)%string -> m1 k = m k) -> brought_back src ids pre suf rep m1 m' ->
  brought_back src (id :: ids) pre suf rep m m'.
Proof.
  intros Es Hr Hsame Same Other (A & B). set (dst := (pre ++ id ++ suf)%string) in *.
  assert (Head : exists d' l', m' dst = Some (d', l') /\ same_list dst d l d' l').
  { destruct (In_dec string_dec id ids) as [Hin|Hin].
    - destruct rep; [apply (A id d l Hin Es); left; reflexivity|].
      exists d', l'. split; [|exact Hsame]. rewrite <- Same. apply B. right. split; [reflexivity|]. rewrite Same. discriminate.
    - exists d', l'. split; [|exact Hsame]. rewrite <- Same. apply B. left. intros x Hx _ E. apply dst_inj in E. subst x. contradiction. }
  split.
  - intros x d2 l2 Hx E2 H2. destruct (string_dec x id) as [->|Hn].
    + rewrite Es in E2. injection E2 as <- <-. exact Head.
    + destruct Hx as [->|Hx]; [contradiction|]. apply A; [exact Hx|exact E2|]. destruct H2 as [H2|H2]; [left; exact H2|right].
      rewrite Other; [exact H2|]. intros C. apply dst_inj in C. contradiction.
  - intros k Hk. assert (Hkd : k <> dst).
    { intros ->. destruct Hk as [Hk|(-> & Hk)]; [apply (Hk id (or_introl eq_refl)); [congruence|reflexivity]|]. destruct Hr as [Hr|Hr]; [discriminate|contradiction]. }
    rewrite <- (Other k Hkd). apply B. destruct Hk as [Hk|Hk]; [left; intros x Hx; apply Hk; right; exact Hx|right]. rewrite (Other k Hkd). exact Hk.
Qed.

Lemma restore_one d l dst ns ni now sc : (exists g s x, sound g s d l x) -> ns <> ""%string -> ni <> ""%string -> tick now ->
  exists d' l', restore_list (Some (dst, ns)) ni now sc (backup d l) = Some (Done (d', l'), []) /\ same_list dst d l d' l'.
Proof.
  intros (g & s & x & HS) Hns Hni Hnow.
  destruct (c46_restore g s d l x (Some (dst, ns)) ni now sc HS) as (d' & l' & HR & Hsame & _); auto.
  - intros i n E. injection E as <- <-. exact Hns.
  - exists d', l'. split; [|exact Hsame]. specialize (HR []). rewrite app_nil_r in HR. exact HR.
Qed.

Lemma db_put_same m k v : db_put m k v k = v.
Proof. unfold db_put. rewrite String.eqb_refl. reflexivity. Qed.
Lemma db_put_other m k v x : x <> k -> db_put m k v x = m x.
Proof. intros H. unfold db_put. apply String.eqb_neq in H. rewrite H. reflexivity. Qed.

(** the record at the head of the stream *)
Lemma loop_record f fr pre suf rep r s m d l b src : sound_db src -> src (bd_id d) = Some (d, l) -> (forall n, given_ok (fr n)) ->
  let dst := (pre ++ bd_id d ++ suf)%string in
  (rep = false /\ m dst <> None /\ restore_loop (S f) fr pre suf rep r s m (record_bytes d l ++ b) = restore_loop f fr pre suf rep r (S s) m b) \/
  ((rep = true \/ m dst = None) /\ exists d' l' m1, same_list dst d l d' l' /\ m1 dst = Some (d', l') /\ (forall k, k <> dst -> m1 k = m k) /\
    restore_loop (S f) fr pre suf rep r s m (record_bytes d l ++ b) = restore_loop f fr pre suf rep (S r) s m1 b).
Proof.
  intros HS Es Hfr dst. destruct (HS _ _ _ Es) as (_ & Hsh & Hg). pose proof Hg as (g0 & s0 & x0 & Hg0). destruct Hg0 as (_ & _ & Hid & _).
  assert (EU : restore_loop (S f) fr pre suf rep r s m (record_bytes d l ++ b) =
    match m dst, rep with
    | Some _, false => restore_loop f fr pre suf rep r (S s) m b
    | _, _ => let m := db_put m dst None in let '(ns, ni, now, sc) := fr (r + s)%nat in
      match restore_list (Some (dst, ns)) ni now sc (backup d l) with
      | None => (JPanic, m)
      | Some (Done x, _) => restore_loop f fr pre suf rep (S r) s (db_put m dst (Some x)) b
      | Some (_, _) => (JPanic, m)
      end
    end).
  { cbn [restore_loop]. unfold record_bytes. rewrite <- app_assoc. rewrite (reads_bool true).
    fold (rest_bytes d l). rewrite (record_reads d l Hid Hsh b). reflexivity. }
  rewrite EU. clear EU.
  specialize (Hfr (r + s)%nat). destruct (fr (r + s)%nat) as [[[ns ni] now] sc] eqn:Efr. destruct Hfr as (N1 & N2 & N3).
  destruct (restore_one d l dst ns ni now sc Hg N1 N2 N3) as (d' & l' & HR & Hsame).
  destruct (m dst) as [old|] eqn:Em; [destruct rep|].
  - right. split; [left; reflexivity|]. exists d', l', (db_put (db_put m dst None) dst (Some (d', l'))).
    split; [exact Hsame|]. split; [apply db_put_same|]. split; [intros k Hk; rewrite !db_put_other by exact Hk; reflexivity|]. rewrite HR. reflexivity.
  - left. split; [reflexivity|]. split; [discriminate|reflexivity].
  - right. split; [right; reflexivity|]. exists d', l', (db_put (db_put m dst None) dst (Some (d', l'))).
    split; [exact Hsame|]. split; [apply db_put_same|]. split; [intros k Hk; rewrite !db_put_other by exact Hk; reflexivity|]. destruct rep; rewrite HR; reflexivity.
Qed.

Lemma records_cons src id ids : records src (id :: ids) = (match src id with Some (d, l) => record_bytes d l | None => [] end) ++ records src ids.
Proof. reflexivity. Qed.
Lemma record_len d l : (0 < length (record_bytes d l))%nat.
Proof. unfold record_bytes. rewrite app_length. cbn. lia. Qed.

Lemma loop_all src fr pre suf rep rest : sound_db src -> (forall n, given_ok (fr n)) -> forall ids fuel r s m,
  (length (records src ids ++ w_bool false ++ rest) < fuel)%nat ->
  exists r' s' m', restore_loop fuel fr pre suf rep r s m (records src ids ++ w_bool false ++ rest) = (JDone r' s', m') /\
    brought_back src ids pre suf rep m m' /\ (r' + s' = r + s + found src ids)%nat /\ (rep = true -> s' = s).
Proof.
  intros HS Hfr. induction ids as [|id ids IH]; intros fuel r s m Hlen.
  - destruct fuel as [|f]; [lia|]. cbn [records flat_map app]. cbn [restore_loop]. rewrite (reads_bool false).
    exists r, s, m. split; [reflexivity|]. split; [apply brought_refl|]. split; [cbn; lia|auto].
  - rewrite records_cons in *. unfold found in *. cbn [filter]. destruct (src id) as [(d & l)|] eqn:Es.
    + destruct (HS _ _ _ Es) as (Eid & _). subst id. rewrite <- !app_assoc in *. rewrite app_length in Hlen. pose proof (record_len d l).
      destruct fuel as [|f]; [lia|].
      destruct (loop_record f fr pre suf rep r s m d l (records src ids ++ w_bool false ++ rest) src HS Es Hfr)
        as [(-> & Hm & ->)|(Hr & d' & l' & m1 & Hsame & Hm1 & Hm2 & ->)].
      * destruct (IH f r (S s) m) as (r' & s' & m' & E & HB & HN & _); [lia|]. exists r', s', m'. split; [exact E|].
        split; [apply brought_kept; assumption|]. split; [cbn [length]; lia|discriminate].
      * destruct (IH f (S r) s m1) as (r' & s' & m' & E & HB & HN & HZ); [lia|]. exists r', s', m'. split; [exact E|].
        split; [eapply brought_put; eauto|]. split; [cbn [length]; lia|exact HZ].
    + cbn [app] in *. destruct (IH fuel r s m Hlen) as (r' & s' & m' & E & HB & HN). exists r', s', m'. split; [exact E|].
      split; [apply brought_missing; assumption|exact HN].
Qed.
Lemma c46_job src ids fr pre suf rep m rest : sound_db src -> (forall n, given_ok (fr n)) ->
  exists r s m', restore_all fr pre suf rep m (job_bytes src ids ++ rest) = (JDone r s, m') /\
    brought_back src ids pre suf rep m m' /\ (r + s = found src ids)%nat /\ (rep = true -> s = 0%nat).
Proof.
  intros HS Hfr. unfold restore_all, job_bytes. rewrite <- app_assoc.
  destruct (loop_all src fr pre suf rep rest HS Hfr ids (S (length (records src ids ++ w_bool false ++ rest))) 0 0 m) as (r & s & m' & E & HB & HN & HZ); [lia|].
  exists r, s, m'. auto.
Qed.

(** cut short *)
Lemma loop_cut src fr pre suf rep : sound_db src -> (forall n, given_ok (fr n)) -> forall ids fuel r s m b c,
  records src ids ++ w_bool false = b ++ c -> c <> [] ->
  exists ids1 ids2 m', ids = ids1 ++ ids2 /\ restore_loop fuel fr pre suf rep r s m b = (JErr, m') /\ brought_back src ids1 pre suf rep m m'.
Proof.
  intros HS Hfr. induction ids as [|id ids IH]; intros fuel r s m b c E Hc.
  - exists [], [], m. split; [reflexivity|]. split; [|apply brought_refl]. destruct fuel as [|f]; [reflexivity|]. cbn [restore_loop].
    cbn [records flat_map app] in E. rewrite (truncated r_bool (w_bool false) false b c mono_bool (reads_bool false) E Hc). reflexivity.
  - rewrite records_cons in E. destruct (src id) as [(d & l)|] eqn:Es.
    + destruct (HS _ _ _ Es) as (Eid & Hsh & (g0 & s0 & x0 & Hg0)). subst id. destruct Hg0 as (_ & _ & Hid & _). rewrite <- app_assoc in E.
      destruct fuel as [|f]; [exists [], (bd_id d :: ids), m; split; [reflexivity|]; split; [reflexivity|apply brought_refl]|].
      apply app_eq_app in E as (z & [(E1 & E2)|(E1 & E2)]).
      * (* the cut is inside this record, or at its end *)
        destruct z as [|z0 z].
        -- rewrite app_nil_r in E1. subst b. cbn [app] in E2. subst c.
           rewrite <- (app_nil_r (record_bytes d l)).
           destruct (loop_record f fr pre suf rep r s m d l [] src HS Es Hfr) as [(-> & Hm & ->)|(Hr & d' & l' & m1 & Hsame & Hm1 & Hm2 & ->)].
           ++ destruct (IH f r (S s) m [] _ eq_refl Hc) as (ids1 & ids2 & m' & -> & E' & HB).
              exists (bd_id d :: ids1), ids2, m'. split; [reflexivity|]. split; [exact E'|apply brought_kept; assumption].
           ++ destruct (IH f (S r) s m1 [] _ eq_refl Hc) as (ids1 & ids2 & m' & -> & E' & HB).
              exists (bd_id d :: ids1), ids2, m'. split; [reflexivity|]. split; [exact E'|eapply brought_put; eauto].
        -- exists [], (bd_id d :: ids), m. split; [reflexivity|]. split; [|apply brought_refl]. cbn [restore_loop].
           unfold record_bytes in E1. fold (rest_bytes d l) in E1. apply app_eq_app in E1 as (y & [(E3 & E4)|(E3 & E4)]).
           ++ destruct y as [|y0 y].
              ** rewrite app_nil_r in E3. subst b. rewrite <- (app_nil_r (w_bool true)), (reads_bool true []). cbn [app] in E4.
                 rewrite (truncated r_record (rest_bytes d l) _ [] (z0 :: z) mono_record (record_reads d l Hid Hsh) (eq_sym E4)); [reflexivity|discriminate].
              ** rewrite (truncated r_bool (w_bool true) true b (y0 :: y) mono_bool (reads_bool true) E3); [reflexivity|discriminate].
           ++ subst b. rewrite (reads_bool true y).
              rewrite (truncated r_record (rest_bytes d l) _ y (z0 :: z) mono_record (record_reads d l Hid Hsh) E4); [reflexivity|discriminate].
      * subst b.
        destruct (loop_record f fr pre suf rep r s m d l z src HS Es Hfr) as [(-> & Hm & ->)|(Hr & d' & l' & m1 & Hsame & Hm1 & Hm2 & ->)].
        -- destruct (IH f r (S s) m z c E2 Hc) as (ids1 & ids2 & m' & -> & E' & HB).
           exists (bd_id d :: ids1), ids2, m'. split; [reflexivity|]. split; [exact E'|apply brought_kept; assumption].
        -- destruct (IH f (S r) s m1 z c E2 Hc) as (ids1 & ids2 & m' & -> & E' & HB).
           exists (bd_id d :: ids1), ids2, m'. split; [reflexivity|]. split; [exact E'|eapply brought_put; eauto].
    + cbn [app] in E. destruct (IH fuel r s m b c E Hc) as (ids1 & ids2 & m' & -> & E' & HB).
      exists (id :: ids1), ids2, m'. split; [reflexivity|]. split; [exact E'|apply brought_missing; assumption].
Qed.
Lemma c46_cut src ids fr pre suf rep m b c : sound_db src -> (forall n, given_ok (fr n)) -> job_bytes src ids = b ++ c -> c <> [] ->
  exists ids1 ids2 m', ids = ids1 ++ ids2 /\ restore_all fr pre suf rep m b = (JErr, m') /\ brought_back src ids1 pre suf rep m m'.
Proof. intros HS Hfr E Hc. apply (loop_cut src fr pre suf rep HS Hfr ids _ 0 0 m b c E Hc). Qed.
Lemma c46_list g s d l m newid ni now sc rest : sound g s d l m -> (forall i ns, newid = Some (i, ns) -> ns <> ""%string) ->
  ni <> ""%string -> tick now ->
  exists d' l', restore_list newid ni now sc (backup d l ++ rest) = Some (Done (d', l'), rest) /\
    same_list (match newid with Some (i, _) => i | None => bd_id d end) d l d' l' /\ reachable g s l' m /\
    l_scores_id l' = (match newid with Some (_, ns) => ns | None => l_scores_id l end) /\ l_index_id l' = ni /\ stored_in l' = stored_in l.
Proof.
  intros HS H1 H2 H3. destruct (c46_restore g s d l m newid ni now sc HS H1 H2 H3) as (d' & l' & HR & Hs & R).
  exists d', l'. split; [apply HR|]. split; [exact Hs|]. split; [|exact R]. apply Hs, HS.
Qed.
