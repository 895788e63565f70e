(** The Badger store: what calls return. *)
From Coq Require Import Strings.String Strings.Ascii Strings.Byte.
From Verif.Lib Require Import Prelude ListAux Perm.
From Verif.Model Require Import KV MaxSize Badger Lazy.
From Verif.Spec Require Import LazySpec BadgerSpec.
From Verif.Proof Require Import LazyP BadgerP.
Open Scope nat_scope.
Local Arguments string_dec : simpl never.

Lemma apart_pre a b : apart (a ++ b) -> apart a.
Proof. intros H a' e b' ->. apply (H a' e (b' ++ b)). rewrite <- app_assoc. reflexivity. Qed.

Lemma bfire_hit c x k v c' : bfire c x = Some (BHit k v, c') -> x = B_get k /\ q_get (b_q c) (bname k) = Some v /\ c' = c.
Proof.
  destruct x as [k0 v0 f|k0|n ok|k0|n f|f ok|o f]; cbn [bfire]; intros H.
  - destruct (queue_size <=? _); [destruct (flush _ _ _) as [[? ?] ?]|]; discriminate.
  - destruct (q_get _ _) eqn:E; [|discriminate]. injection H as <- <- <-. auto.
  - destruct (at_n _ _); discriminate.
  - discriminate.
  - destruct (at_n _ _); discriminate.
  - destruct (flush _ _ _) as [[? ?] ?]. discriminate.
  - discriminate.
Qed.
Lemma bfire_ask c x n k c' : bfire c x = Some (BAsk n k, c') -> x = B_get k /\ q_get (b_q c) (bname k) = None /\ n = b_next c /\
  c' = mkB (b_db c) (b_q c) ((b_next c, k) :: b_ask c) (b_rem c) (S (b_next c)).
Proof.
  destruct x as [k0 v0 f|k0|m ok|k0|m f|f ok|o f]; cbn [bfire]; intros H.
  - destruct (queue_size <=? _); [destruct (flush _ _ _) as [[? ?] ?]|]; discriminate.
  - destruct (q_get _ _) eqn:E; [discriminate|]. injection H as <- <- <-. auto.
  - destruct (at_n _ _); discriminate.
  - discriminate.
  - destruct (at_n _ _); discriminate.
  - destruct (flush _ _ _) as [[? ?] ?]. discriminate.
  - discriminate.
Qed.
Lemma bfire_ans c x n k r c' : bfire c x = Some (BAns n k r, c') -> exists ok, x = B_ans n ok /\ at_n (b_ask c) n = Some k /\
  r = (if ok then Some (b_db c (bname k)) else None) /\ c' = mkB (b_db c) (b_q c) (drop_n (b_ask c) n) (b_rem c) (b_next c).
Proof.
  destruct x as [k0 v0 f|k0|m ok|k0|m f|f ok|o f]; cbn [bfire]; intros H.
  - destruct (queue_size <=? _); [destruct (flush _ _ _) as [[? ?] ?]|]; discriminate.
  - destruct (q_get _ _); discriminate.
  - destruct (at_n (b_ask c) m) eqn:E; [|discriminate]. injection H as <- <- <- <-. exists ok. auto.
  - discriminate.
  - destruct (at_n _ _); discriminate.
  - destruct (flush _ _ _) as [[? ?] ?]. discriminate.
  - discriminate.
Qed.

Lemma c59_hit K d tr c : plain_sets K -> bexec (okc K) d tr c -> apart tr -> forall t1 k v t2, tr = t1 ++ BHit k v :: t2 ->
  latest (held d) t1 k = Some v.
Proof.
  intros HK E Ha t1 k v t2 ->. destruct (bexec_at _ _ _ _ E t1 _ t2 eq_refl) as (c1 & x & c2 & E1 & (_ & Hn & _) & F).
  apply bfire_hit in F as (-> & Hq & _). destruct (binv_exec K d t1 c1 HK E1) as (Inv & _); [eapply apart_pre, Ha|].
  pose proof (bi_map _ _ _ _ Inv k Hn (Ha t1 _ t2 eq_refl)) as M. rewrite Hq in M. exact M.
Qed.
Lemma c59_ans K d tr c : plain_sets K -> bexec (okc K) d tr c -> apart tr -> forall t1 n k r t2, tr = t1 ++ BAns n k r :: t2 ->
  exists v, r = Some v /\ current (held d) t1 n k v.
Proof.
  intros HK E Ha t1 n k r t2 ->. destruct (bexec_at _ _ _ _ E t1 _ t2 eq_refl) as (c1 & x & c2 & E1 & (Hf & _) & F).
  apply bfire_ans in F as (ok & -> & Hat & -> & _). destruct (binv_exec K d t1 c1 HK E1) as (Inv & _); [eapply apart_pre, Ha|].
  cbn in Hf. subst ok. eexists. split; [reflexivity|]. apply (bi_cur _ _ _ _ Inv), at_n_in, Hat.
Qed.
Lemma c59_alone K d tr c : plain_sets K -> bexec (okc K) d tr c -> apart tr -> forall t1 n k r t2, tr = t1 ++ BAsk n k :: BAns n k r :: t2 ->
  r = Some (latest (held d) t1 k).
Proof.
  intros HK E Ha t1 n k r t2 ->.
  destruct (bexec_prefix _ _ _ _ E ((t1 ++ [BAsk n k]) ++ [BAns n k r]) t2) as (c2 & E2); [rewrite <- !app_assoc; reflexivity|].
  inversion E2 as [E0|t c0 x e0 c0' E0 E1 E3 E4]; [destruct t1; discriminate|]. apply snoc_inv in E4 as (-> & ->). subst c0'.
  inversion E0 as [E5|t c3 x3 e3 c3' E5 E6 E7 E8]; [destruct t1; discriminate|]. apply snoc_inv in E8 as (-> & ->). subst c3'.
  destruct (binv_exec K d t1 c3 HK E5) as (Inv & _); [eapply apart_pre, Ha|].
  destruct E6 as (_ & Hn & _). apply bfire_ask in E7 as (-> & Hq & -> & ->). apply bfire_ans in E3 as (ok & -> & Hat & -> & ->).
  destruct E1 as (Hf & _). cbn in Hf. subst ok. cbn [b_db]. f_equal. pose proof (bi_map _ _ _ _ Inv k Hn (Ha t1 _ _ eq_refl)) as M. rewrite Hq in M. exact M.
Qed.
Lemma c59_ok K d tr c : plain_sets K -> bexec (okc K) d tr c -> apart tr -> Forall fine_event tr.
Proof.
  intros HK. induction 1 as [|tr c x e c' E IH Ho F]; intros Hap; [constructor|].
  destruct (apart_app _ _ Hap) as (Ha & _). destruct (binv_exec K d tr c HK E Ha) as (Inv & L).
  apply Forall_app. split; [apply IH, Ha|]. constructor; [|constructor]. eapply (binv_step K (held d) tr c x e c' HK Hap Inv L Ho F).
Qed.

(** a state read alone *)
Lemma reads_iff c k r : reads c k r <-> r = match q_get (b_q c) (bname k) with Some v => Some v | None => b_db c (bname k) end.
Proof.
  unfold reads. destruct (q_get (b_q c) (bname k)) as [v|] eqn:Hq; cbn [bfire]; rewrite Hq; split.
  - intros [(w & c' & H & ->)|(n & c1 & c2 & H & _)]; congruence.
  - intros ->. left. eauto.
  - intros [(w & c' & H & ->)|(n & c1 & c2 & H & H2)]; [discriminate|]. injection H as <- <-. cbn [b_ask] in H2. unfold at_n in H2. cbn [find fst] in H2. rewrite Nat.eqb_refl in H2.
    cbn [snd b_db] in H2. injection H2 as E _. congruence.
  - intros ->. right. eexists _, _, _. split; [reflexivity|]. cbn [b_ask]. unfold at_n. cbn [find fst]. rewrite Nat.eqb_refl. reflexivity.
Qed.
Lemma c59_settled K d tr c : plain_sets K -> bexec (okc K) d tr c -> apart tr -> forall k, K k -> ~ In k (map snd (dels tr)) -> reads c k (latest (held d) tr k).
Proof.
  intros HK E Ha k Hk Hd. destruct (binv_exec K d tr c HK E Ha) as (Inv & _). apply reads_iff. pose proof (bi_map _ _ _ _ Inv k Hk Hd) as M.
  destruct (q_get (b_q c) (bname k)); congruence.
Qed.

Lemma names_of (K : skey -> Prop) (q : bqueue) : (forall p, In p q -> exists k, K k /\ fst p = bname k) ->
  exists L, length L = length q /\ forall n, In n (qnames q) -> exists k, K k /\ n = bname k /\ In k L.
Proof.
  induction q as [|p q IH]; intros H.
  - exists []. split; [reflexivity|]. intros n [].
  - destruct IH as (L & E & HL); [intros x Hx; apply H; right; exact Hx|]. destruct (H p (or_introl eq_refl)) as (k & Hk & Hp).
    exists (k :: L). split; [cbn; lia|]. intros n [<-|Hn]; [exists k; cbn; auto|]. destruct (HL n Hn) as (k' & A & B & C). exists k'. cbn. auto.
Qed.

Lemma c59_crash K d tr c o f e c' : plain_sets K -> bexec (okc K) d tr c -> apart tr -> names_in K (B_crash o f) -> bfire c (B_crash o f) = Some (e, c') ->
  (forall k, K k -> exists r, reads c' k r /\ ((exists a b, tr = a ++ b /\ r = latest (held d) a k) \/ (exists v, o = Some (k, v) /\ r = Some v))) /\
  (exists L, length L <= 99 /\ forall k, K k -> ~ In k (map snd (dels tr)) -> (forall v, o <> Some (k, v)) -> ~ In k L -> reads c' k (latest (held d) tr k)).
Proof.
  intros HK E Ha Hn Hfire. destruct (binv_exec K d tr c HK E Ha) as (Inv & Len). cbn [bfire] in Hfire.
  set (q := match o with Some (k, v) => q_put (b_q c) (bname k) v | None => b_q c end) in *.
  set (d' := match f with Some f => fst (fst (flush f (b_db c) q)) | None => b_db c end) in *. injection Hfire as <- <-.
  assert (Hd : forall n, d' n = b_db c n \/ exists v, In (n, v) q /\ d' n = Some v).
  { intros n. subst d'. destruct f as [f|]; [|auto]. destruct (flush f (b_db c) q) as [[d2 q2] ok] eqn:Hfl. apply flush_some in Hfl as (Hfl & _). apply Hfl. }
  assert (Hqn : forall k v, K k -> In (bname k, v) q -> (o = Some (k, v)) \/ (In (bname k, v) (b_q c))).
  { intros k v Hk Hi. subst q. destruct o as [(k0 & v0)|]; [|auto]. cbn in Hn. unfold q_put in Hi. destruct Hi as [[= E1 <-]|Hi].
    - apply (bname_inj K) in E1; [|assumption..]. subst. auto.
    - right. apply q_del_in in Hi. tauto. }
  split.
  - intros k Hk. exists (d' (bname k)). split; [apply reads_iff; reflexivity|].
    destruct (Hd (bname k)) as [->|(v & Hi & ->)]; [left; apply (bi_old _ _ _ _ Inv k Hk)|].
    destruct (Hqn k v Hk Hi) as [->|Hi2]; [right; eauto|]. left. exists tr, []. rewrite app_nil_r. split; [reflexivity|].
    apply q_get_some in Hi2; [|apply (bi_nodup _ _ _ _ Inv)]. destruct (in_dec skey_dec k (map snd (dels tr))) as [Hin|Hin].
    + rewrite (bi_del _ _ _ _ Inv k Hk Hin) in Hi2. discriminate.
    + pose proof (bi_map _ _ _ _ Inv k Hk Hin) as M. rewrite Hi2 in M. auto.
  - destruct (names_of K (b_q c) (bi_names _ _ _ _ Inv)) as (L & HL & HLn). exists L. split; [unfold queue_size in Len; lia|].
    intros k Hk Hdel Ho HkL. apply reads_iff. cbn [b_q b_db]. change (q_get [] (bname k)) with (@None bytes). cbn match.
    assert (Hno : ~ In (bname k) (qnames (b_q c))).
    { intros Hi. apply HLn in Hi as (k' & Hk' & E1 & Hi). apply (bname_inj K) in E1; [|assumption..]. subst. contradiction. }
    assert (Hqg : q_get (b_q c) (bname k) = None).
    { destruct (q_get (b_q c) (bname k)) as [v|] eqn:Hq; [|reflexivity]. destruct Hno. apply in_map_iff. exists (bname k, v). split; [reflexivity|apply q_get_in, Hq]. }
    pose proof (bi_map _ _ _ _ Inv k Hk Hdel) as M. rewrite Hqg in M.
    destruct (Hd (bname k)) as [->|(v & Hi & _)]; [congruence|].
    destruct (Hqn k v Hk Hi) as [E1|E1]; [destruct (Ho v E1)|]. destruct Hno. apply in_map_iff. exists (bname k, v). auto.
Qed.

(** ** any failures, crashes and overlaps *)
Definition any (x : bchoice) : Prop := True.
Definition put_before (tr : list bevent) (n : string) (v : bytes) : Prop :=
  exists k, bname k = n /\ ((exists ok, In (BSet k v ok) tr) \/ In (BCrash (Some (k, v))) tr).
Definition del_before (tr : list bevent) (n : string) : Prop := exists i k, bname k = n /\ In (BDel i k) tr.
Record AInv (d : bdb) (tr : list bevent) (c : bcfg) : Prop := mkAInv {
  ai_q : forall n v, In (n, v) (b_q c) -> put_before tr n v;
  ai_some : forall n v, b_db c n = Some v -> d n = Some v \/ put_before tr n v;
  ai_none : forall n, b_db c n = None -> d n = None \/ del_before tr n;
  ai_rem : forall i k, In (i, k) (b_rem c) -> In (BDel i k) tr }.
Lemma pb_more tr n v e : put_before tr n v -> put_before (tr ++ e) n v.
Proof. intros (k & E & [(ok & H)|H]); exists k; (split; [exact E|]); [left; exists ok|right]; apply in_or_app; auto. Qed.
Lemma db_more tr n e : del_before tr n -> del_before (tr ++ e) n.
Proof. intros (i & k & E & H). exists i, k. split; [exact E|]. apply in_or_app; auto. Qed.
Lemma ainv_flush d tr d0 q0 f d1 q1 ok (P : string -> bytes -> Prop) :
  (forall n v, d0 n = Some v -> d n = Some v \/ P n v) -> (forall n, d0 n = None -> d n = None \/ del_before tr n) ->
  (forall n v, In (n, v) q0 -> P n v) -> flush f d0 q0 = (d1, q1, ok) ->
  (forall n v, d1 n = Some v -> d n = Some v \/ P n v) /\ (forall n, d1 n = None -> d n = None \/ del_before tr n) /\ (forall n v, In (n, v) q1 -> P n v).
Proof.
  intros A B C E. apply flush_some in E as (F & G). split; [|split].
  - intros n v H. destruct (F n) as [E|(w & Hi & E)]; rewrite E in H; [auto|]. injection H as <-. right. apply C, Hi.
  - intros n H. destruct (F n) as [E|(w & Hi & E)]; rewrite E in H; [auto|discriminate].
  - intros n v H. apply C, G, H.
Qed.
Lemma ainv_step d tr c x e c' : AInv d tr c -> bfire c x = Some (e, c') -> AInv d (tr ++ [e]) c'.
Proof.
  intros [A B C D] F.
  assert (A' : forall n v, In (n, v) (b_q c) -> put_before (tr ++ [e]) n v) by (intros; apply pb_more; auto).
  assert (B' : forall n v, b_db c n = Some v -> d n = Some v \/ put_before (tr ++ [e]) n v) by (intros n v H; destruct (B n v H); [auto|right; apply pb_more; auto]).
  assert (C' : forall n, b_db c n = None -> d n = None \/ del_before (tr ++ [e]) n) by (intros n H; destruct (C n H); [auto|right; apply db_more; auto]).
  assert (D' : forall i k, In (i, k) (b_rem c) -> In (BDel i k) (tr ++ [e])) by (intros; apply in_or_app; auto).
  destruct x as [k v f|k|n ok|k|n f|f ok|o f]; cbn [bfire] in F.
  - assert (Q : forall ok, e = BSet k v ok -> forall n w, In (n, w) (q_put (b_q c) (bname k) v) -> put_before (tr ++ [e]) n w).
    { intros ok He n w [[= <- <-]|Hi]; [|apply q_del_in in Hi as (Hi & _); auto]. exists k. split; [reflexivity|]. left. exists ok. apply in_or_app. right. left. exact He. }
    destruct (queue_size <=? _).
    + destruct (flush f (b_db c) _) as [[d1 q1] ok] eqn:Hfl. injection F as <- <-.
      destruct (ainv_flush d (tr ++ [BSet k v ok]) _ _ _ _ _ _ (put_before (tr ++ [BSet k v ok])) B' C' (Q ok eq_refl) Hfl) as (X & Y & Z). constructor; assumption.
    + injection F as <- <-. constructor; cbn [b_db b_q b_ask b_rem b_next]; try assumption. apply (Q true eq_refl).
  - destruct (q_get (b_q c) (bname k)); injection F as <- <-; constructor; assumption.
  - destruct (at_n (b_ask c) n); [|discriminate]. injection F as <- <-; constructor; assumption.
  - injection F as <- <-. constructor; cbn [b_db b_q b_ask b_rem b_next]; try assumption.
    + intros n v H. apply q_del_in in H as (H & _). auto.
    + intros i k' [[= <- <-]|H]; [|auto]. apply in_or_app. right. left. reflexivity.
  - destruct (at_n (b_rem c) n) as [k|] eqn:Hat; [|discriminate]. apply at_n_in in Hat. injection F as <- <-.
    constructor; cbn [b_db b_q b_ask b_rem b_next]; try assumption.
    + destruct (takes f); [|exact B']. intros m v H. unfold db_put in H. destruct (string_dec (bname k) m); [discriminate|auto].
    + destruct (takes f); [|exact C']. intros m H. unfold db_put in H. destruct (string_dec (bname k) m) as [<-|]; [|auto]. right. exists n, k. auto.
    + intros i k' H. apply drop_n_in in H as (H & _). auto.
  - destruct (flush f (b_db c) (b_q c)) as [[d1 q1] ok1] eqn:Hfl. injection F as <- <-.
    destruct (ainv_flush d (tr ++ [BClose (close_ok ok1 ok)]) _ _ _ _ _ _ (put_before (tr ++ [BClose (close_ok ok1 ok)])) B' C' A' Hfl) as (X & Y & Z).
    constructor; try assumption; intros ? ? [].
  - injection F as <- <-.
    assert (Q : forall n w, In (n, w) (match o with Some (k, v) => q_put (b_q c) (bname k) v | None => b_q c end) -> put_before (tr ++ [BCrash o]) n w).
    { destruct o as [(k & v)|]; [|exact A']. intros n w [[= <- <-]|Hi]; [|apply q_del_in in Hi as (Hi & _); auto].
      exists k. split; [reflexivity|]. right. apply in_or_app. right. left. reflexivity. }
    destruct f as [f|]; [|constructor; try assumption; intros ? ? []].
    destruct (flush f (b_db c) (match o with Some (k, v) => q_put (b_q c) (bname k) v | None => b_q c end)) as [[d1 q1] ok1] eqn:Hfl. cbn [fst].
    destruct (ainv_flush d (tr ++ [BCrash o]) _ _ _ _ _ _ (put_before (tr ++ [BCrash o])) B' C' Q Hfl) as (X & Y & Z).
    constructor; try assumption; intros ? ? [].
Qed.
Lemma ainv_exec d tr c : bexec any d tr c -> AInv d tr c.
Proof.
  induction 1 as [|tr c x e c' E IH Ho F]; [|eapply ainv_step; eauto]. constructor; cbn; try contradiction; auto.
Qed.
Lemma handed_of tr k v : put_before tr (bname k) v -> handed tr k v.
Proof. intros (k' & E & H). exists k'. split; [symmetry; exact E|exact H]. Qed.

Lemma c59_handed d tr c k v : bexec any d tr c -> reads c k (Some v) -> held d k = Some v \/ handed tr k v.
Proof.
  intros E R. pose proof (ainv_exec _ _ _ E) as [A B C D]. apply reads_iff in R. destruct (q_get (b_q c) (bname k)) as [w|] eqn:Hq.
  - injection R as ->. right. apply handed_of, A, q_get_in, Hq.
  - symmetry in R. destruct (B _ _ R); [auto|right; apply handed_of; assumption].
Qed.
Lemma c59_answer d tr c t1 n k v t2 : bexec any d tr c -> tr = t1 ++ BAns n k (Some (Some v)) :: t2 -> held d k = Some v \/ handed t1 k v.
Proof.
  intros E ->. destruct (bexec_at _ _ _ _ E t1 _ t2 eq_refl) as (c1 & x & c2 & E1 & _ & F). apply bfire_ans in F as (ok & _ & _ & R & _).
  destruct ok; [|discriminate]. injection R as R. pose proof (ainv_exec _ _ _ E1) as [A B C D]. symmetry in R. destruct (B _ _ R); [auto|right; apply handed_of; assumption].
Qed.
Lemma c59_missing d tr c t1 n k t2 : bexec any d tr c -> tr = t1 ++ BAns n k (Some None) :: t2 -> held d k = None \/
  exists i k', (fst k' ++ "/" ++ snd k' = fst k ++ "/" ++ snd k)%string /\ In (BDel i k') t1.
Proof.
  intros E ->. destruct (bexec_at _ _ _ _ E t1 _ t2 eq_refl) as (c1 & x & c2 & E1 & _ & F). apply bfire_ans in F as (ok & _ & _ & R & _).
  destruct ok; [|discriminate]. injection R as R. pose proof (ainv_exec _ _ _ E1) as [A B C D]. symmetry in R. destruct (C _ R); auto.
Qed.
