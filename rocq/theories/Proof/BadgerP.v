(** The Badger store: flushing, the map invariant, crashes. *)
From Coq Require Import Strings.String Strings.Ascii Strings.Byte.
From Verif.Lib Require Import Prelude ListAux Perm.
From Verif.Model Require Import KV MaxSize Badger Lazy.
From Verif.Spec Require Import LazySpec BadgerSpec.
From Verif.Proof Require Import LazyP.
Open Scope nat_scope.
Local Arguments string_dec : simpl never.

Lemma bname_inj K k1 k2 : plain_sets K -> K k1 -> K k2 -> bname k1 = bname k2 -> k1 = k2.
Proof. exact (lazy_inj K k1 k2). Qed.

(** ** the queue *)
Definition qnames (q : bqueue) := map fst q.
Lemma q_get_in q n v : q_get q n = Some v -> In (n, v) q.
Proof.
  unfold q_get. destruct (find _ q) as [[m w]|] eqn:E; [|discriminate]. cbn [snd]. intros H. injection H as ->.
  apply find_some in E as (A & B). cbn [fst] in B. destruct (string_dec m n) as [->|]; [exact A|discriminate B].
Qed.
Lemma q_get_none q n : q_get q n = None -> ~ In n (qnames q).
Proof.
  unfold q_get. destruct (find _ q) as [[m w]|] eqn:E; [discriminate|]. intros _ H.
  apply in_map_iff in H as ((m & w) & <- & H). pose proof (find_none _ _ E _ H) as X. cbn [fst] in X. destruct (string_dec m m); [discriminate|congruence].
Qed.
Lemma q_get_some q n v : NoDup (qnames q) -> In (n, v) q -> q_get q n = Some v.
Proof.
  intros ND H. destruct (q_get q n) as [w|] eqn:E.
  - apply q_get_in in E. f_equal. clear - ND H E. induction q as [|[m x] q IH]; [contradiction|]. cbn in ND. inversion ND as [|? ? A B]; subst.
    destruct H as [H|H], E as [E|E].
    + congruence.
    + injection H as -> ->. destruct A. apply in_map_iff. exists (n, w). auto.
    + injection E as -> ->. destruct A. apply in_map_iff. exists (n, v). auto.
    + auto.
  - apply q_get_none in E. destruct E. apply in_map_iff. exists (n, v). auto.
Qed.
Lemma q_get_perm q q' n : NoDup (qnames q) -> Permutation q q' -> q_get q n = q_get q' n.
Proof.
  intros ND P. destruct (q_get q n) as [v|] eqn:E.
  - symmetry. apply q_get_some; [eapply Permutation_NoDup; [apply Permutation_map, P|exact ND]|]. eapply Permutation_in; [exact P|apply q_get_in, E].
  - apply q_get_none in E. destruct (q_get q' n) as [w|] eqn:F; [|reflexivity]. apply q_get_in in F. destruct E.
    apply in_map_iff. exists (n, w). split; [reflexivity|]. eapply Permutation_in; [symmetry; exact P|exact F].
Qed.
Lemma q_del_in q n p : In p (q_del q n) <-> In p q /\ fst p <> n.
Proof.
  unfold q_del. rewrite filter_In. destruct (string_dec (fst p) n); intuition congruence.
Qed.
Lemma q_del_nodup q n : NoDup (qnames q) -> NoDup (qnames (q_del q n)).
Proof.
  induction q as [|[m v] q IH]; intros ND; [exact ND|]. cbn in ND. inversion ND as [|? ? A B]; subst. unfold q_del. cbn.
  destruct (string_dec m n); [apply IH, B|]. cbn. constructor; [|apply IH, B].
  intros H. apply A. apply in_map_iff in H as (p & <- & H). apply filter_In in H as (H & _). apply in_map, H.
Qed.
Lemma q_put_nodup q n v : NoDup (qnames q) -> NoDup (qnames (q_put q n v)).
Proof.
  intros ND. unfold q_put. cbn. constructor; [|apply q_del_nodup, ND].
  intros H. apply in_map_iff in H as (p & E & H). apply q_del_in in H as (_ & H). congruence.
Qed.
Lemma q_get_del q n m : q_get (q_del q n) m = if string_dec n m then None else q_get q m.
Proof.
  unfold q_get, q_del. induction q as [|[a v] q IH]; cbn; [destruct (string_dec n m); reflexivity|].
  destruct (string_dec a n) as [->|Hn]; cbn.
  - rewrite IH. destruct (string_dec n m); reflexivity.
  - destruct (string_dec a m) as [->|Hm]; cbn; [|exact IH]. destruct (string_dec n m); [congruence|reflexivity].
Qed.
Lemma q_get_put q n v m : q_get (q_put q n v) m = if string_dec n m then Some v else q_get q m.
Proof.
  unfold q_put. change (q_get ((n, v) :: q_del q n) m) with
    (match (if (if string_dec n m then true else false) then Some (n, v) else find (fun p => if string_dec (fst p) m then true else false) (q_del q n)) with Some p => Some (snd p) | None => None end).
  destruct (string_dec n m) as [->|Hn]; [reflexivity|]. fold (q_get (q_del q n) m). rewrite q_get_del. destruct (string_dec n m); [congruence|reflexivity].
Qed.
Lemma q_del_len q n : length (q_del q n) <= length q.
Proof. unfold q_del. induction q as [|p q IH]; cbn; [lia|]. destruct (string_dec _ n); cbn; lia. Qed.

(** ** flush *)
Lemma commit_cons d n v l : commit d ((n, v) :: l) = commit (db_put d n (Some v)) l.
Proof. reflexivity. Qed.
Lemma commit_app d a b : commit d (a ++ b) = commit (commit d a) b.
Proof. apply fold_left_app. Qed.
Lemma commit_out d l n : ~ In n (qnames l) -> commit d l n = d n.
Proof.
  revert d; induction l as [|[m v] l IH]; intros d H; [reflexivity|]. rewrite commit_cons. cbn in H. rewrite IH by tauto. unfold db_put. cbn. destruct (string_dec m n); [tauto|reflexivity].
Qed.
Lemma commit_get d l n : NoDup (qnames l) -> commit d l n = match q_get l n with Some v => Some v | None => d n end.
Proof.
  intros ND. destruct (q_get l n) as [v|] eqn:E.
  - apply q_get_in in E. revert d ND. induction l as [|[m w] l IH]; intros d ND; [contradiction|]. cbn in ND. inversion ND as [|? ? A B]; subst.
    destruct E as [[= -> ->]|E]; [|rewrite commit_cons; apply IH; assumption].
    rewrite commit_cons, commit_out by exact A. unfold db_put. destruct (string_dec n n); congruence.
  - apply commit_out, q_get_none, E.
Qed.
Lemma commit_any d l n : commit d l n = d n \/ exists v, In (n, v) l /\ commit d l n = Some v.
Proof.
  revert d; induction l as [|[m v] l IH]; intros d; [left; reflexivity|]. rewrite commit_cons.
  destruct (IH (db_put d m (Some v))) as [E|(w & A & E)]; [|right; exists w; split; [right; exact A|exact E]].
  rewrite E. unfold db_put. destruct (string_dec m n) as [->|]; [right; exists v; split; [left; reflexivity|reflexivity]|auto].
Qed.
Lemma flush_fine last todo : forall sets txn d q, last = true -> Forall (fun x => x = TOk \/ x = TBig true true) sets ->
  flush_loop last todo sets txn d q = (commit d (txn ++ todo), fold_left (fun q p => q_del q (fst p)) todo q, true).
Proof.
  induction todo as [|[n v] todo IH]; intros sets txn d q -> F; cbn [flush_loop fold_left].
  - rewrite app_nil_r. reflexivity.
  - assert (Ht : Forall (fun x => x = TOk \/ x = TBig true true) (tl sets)) by (destruct F; [constructor|assumption]).
    assert (Hh : hd TOk sets = TOk \/ hd TOk sets = TBig true true) by (destruct F; [left; reflexivity|assumption]).
    destruct Hh as [->| ->]; rewrite IH by auto.
    + rewrite <- app_assoc. reflexivity.
    + rewrite <- commit_app. reflexivity.
Qed.
Lemma flush_any last todo : forall sets txn d q d' q' ok, flush_loop last todo sets txn d q = (d', q', ok) ->
  (forall n, d' n = d n \/ exists v, In (n, v) (txn ++ todo) /\ d' n = Some v) /\ (forall p, In p q' -> In p q).
Proof.
  induction todo as [|[n v] todo IH]; intros sets txn d q d' q' ok E; cbn [flush_loop] in E.
  - destruct last; injection E as <- <- <-; (split; [|auto]); intros n; [|auto]. rewrite app_nil_r. apply commit_any.
  - destruct (hd TOk sets) as [|c again|].
    + apply IH in E as (A & B). split; [|intros p H; apply B, q_del_in in H; tauto].
      intros m. rewrite <- app_assoc in A. apply A.
    + destruct again.
      * apply IH in E as (A & B). split; [|intros p H; apply B, q_del_in in H; tauto].
        intros m. destruct (A m) as [->|(w & H & ->)].
        -- destruct c; [|auto]. destruct (commit_any d txn m) as [->|(w & H & ->)]; [auto|right; exists w; rewrite in_app_iff; auto].
        -- right. exists w. rewrite in_app_iff. auto.
      * injection E as <- <- <-. split; [|auto]. intros m. destruct c; [|auto].
        destruct (commit_any d txn m) as [->|(w & H & ->)]; [auto|right; exists w; rewrite in_app_iff; auto].
    + injection E as <- <- <-. split; auto.
Qed.
Lemma del_all todo : forall q : bqueue, (forall p, In p q -> In (fst p) (qnames todo)) -> fold_left (fun q p => q_del q (fst p)) todo q = [].
Proof.
  induction todo as [|p todo IH]; intros q H; cbn.
  - destruct q as [|x q]; [reflexivity|]. destruct (H x (or_introl eq_refl)).
  - apply IH. intros x Hx. apply q_del_in in Hx as (A & B). destruct (H x A) as [E|E]; [congruence|exact E].
Qed.
Lemma flush_ok f d q : NoDup (qnames q) -> fine_flush f ->
  exists d', flush f d q = (d', [], true) /\ forall n, d' n = match q_get q n with Some v => Some v | None => d n end.
Proof.
  intros ND (A & B). unfold flush. rewrite flush_fine by assumption.
  pose proof (permute_perm (f_ord f) q) as P. cbn [app]. eexists. split.
  - rewrite del_all; [reflexivity|]. intros p H. apply in_map. eapply Permutation_in; [symmetry; exact P|exact H].
  - intros n. rewrite commit_get by (eapply Permutation_NoDup; [apply Permutation_map; symmetry; exact P|exact ND]).
    rewrite (q_get_perm q (permute (f_ord f) q)); [reflexivity|exact ND|symmetry; exact P].
Qed.
Lemma flush_some f d q d' q' ok : flush f d q = (d', q', ok) ->
  (forall n, d' n = d n \/ exists v, In (n, v) q /\ d' n = Some v) /\ (forall p, In p q' -> In p q).
Proof.
  intros E. apply flush_any in E as (A & B). split; [|exact B]. intros n. destruct (A n) as [->|(v & H & ->)]; [auto|].
  right. exists v. split; [|reflexivity]. eapply Permutation_in; [apply permute_perm|exact H].
Qed.

(** ** traces *)
Lemma latest_app s a b : latest s (a ++ b) = latest (latest s a) b.
Proof. apply fold_left_app. Qed.
Lemma dels_app a e : dels (a ++ [e]) = match e with BDel n k => (n, k) :: dels a | BDeld n _ _ => away n (dels a) | BClose _ | BCrash _ => [] | _ => dels a end.
Proof. unfold dels. rewrite fold_left_app. reflexivity. Qed.
Lemma gets_app a e : gets (a ++ [e]) = match e with BAsk n k => (n, k) :: gets a | BAns n _ _ => away n (gets a) | BClose _ | BCrash _ => [] | _ => gets a end.
Proof. unfold gets. rewrite fold_left_app. reflexivity. Qed.
Lemma apart_app a e : apart (a ++ [e]) -> apart a /\ clear_for a e.
Proof.
  intros H. split; [|apply (H a e []); reflexivity]. intros a' e' b' ->. apply (H a' e' (b' ++ [e])). rewrite <- app_assoc. reflexivity.
Qed.
Lemma snoc_inv {A} (a : list A) x b y : a ++ [x] = b ++ [y] -> a = b /\ x = y.
Proof. apply app_inj_tail. Qed.
Lemma bexec_prefix ok d tr c : bexec ok d tr c -> forall a b, tr = a ++ b -> exists c1, bexec ok d a c1.
Proof.
  induction 1 as [|tr c x e c' E IH Ho F]; intros a b H.
  - symmetry in H. apply app_eq_nil in H as (-> & ->). eexists. constructor.
  - destruct b as [|y b _] using rev_ind.
    + rewrite app_nil_r in H. subst. eexists. econstructor; eauto.
    + rewrite app_assoc in H. apply snoc_inv in H as (-> & ->). eapply IH. reflexivity.
Qed.
Lemma bexec_at ok d tr c : bexec ok d tr c -> forall a e b, tr = a ++ e :: b ->
  exists c1 x c2, bexec ok d a c1 /\ ok x /\ bfire c1 x = Some (e, c2).
Proof.
  intros H a e b ->. change (e :: b) with ([e] ++ b) in H. destruct (bexec_prefix _ _ _ _ H (a ++ [e]) b) as (c1 & E); [apply app_assoc|].
  inversion E as [E0|t c0 x e0 c0' E0 E1 E2 E3]; [destruct a; discriminate|]. apply snoc_inv in E3 as (-> & ->). eauto 7.
Qed.

(** ** the map invariant *)
Definition okc (K : skey -> Prop) (x : bchoice) : Prop := fine x /\ names_in K x /\ no_crash x.
Record BInv (K : skey -> Prop) (s : kv) (tr : list bevent) (c : bcfg) : Prop := mkBInv {
  bi_nodup : NoDup (qnames (b_q c));
  bi_names : forall p, In p (b_q c) -> exists k, K k /\ fst p = bname k;
  bi_rem : b_rem c = dels tr;
  bi_ask : b_ask c = gets tr;
  bi_remK : forall n k, In (n, k) (b_rem c) -> K k;
  bi_askK : forall n k, In (n, k) (b_ask c) -> K k;
  bi_map : forall k, K k -> ~ In k (map snd (dels tr)) -> match q_get (b_q c) (bname k) with Some v => latest s tr k = Some v | None => b_db c (bname k) = latest s tr k end;
  bi_del : forall k, K k -> In k (map snd (dels tr)) -> q_get (b_q c) (bname k) = None;
  bi_cur : forall n k, In (n, k) (b_ask c) -> current s tr n k (b_db c (bname k));
  bi_old : forall k, K k -> exists a b, tr = a ++ b /\ b_db c (bname k) = latest s a k;
  bi_fresh : forall n k, In (n, k) (b_ask c) \/ In (n, k) (b_rem c) -> n < b_next c;
  bi_used : forall n k, In (BAsk n k) tr -> n < b_next c;
  bi_nd : NoDup (map fst (b_ask c)) /\ NoDup (map fst (b_rem c)) }.

Lemma current_more s tr n k v e : current s tr n k v -> current s (tr ++ e) n k v.
Proof. intros (a & b & t & -> & ->). exists a, b, (t ++ e). split; [|reflexivity]. rewrite <- !app_assoc. cbn. rewrite <- !app_assoc. reflexivity. Qed.
Lemma current_now s tr n k v : In (n, k) (gets tr) -> v = latest s tr k -> current s tr n k v.
Proof.
  intros H ->. assert (Hin : In (BAsk n k) tr).
  { revert H. induction tr as [|e tr IH] using rev_ind; [intros []|]. rewrite gets_app, in_app_iff. unfold away.
    destruct e; cbn [In]; intros H; try tauto; rewrite ?filter_In in H; try tauto.
    destruct H as [[= -> ->]|H]; tauto. }
  apply in_split in Hin as (a & b & ->). exists a, b, []. rewrite app_nil_r. auto.
Qed.
Lemma old_more (K : skey -> Prop) s tr (v : option bytes) k e : (exists a b, tr = a ++ b /\ v = latest s a k) -> exists a b, tr ++ e = a ++ b /\ v = latest s a k.
Proof. intros (a & b & -> & ->). exists a, (b ++ e). rewrite app_assoc. auto. Qed.
Lemma at_n_in l n k : at_n l n = Some k -> In (n, k) l.
Proof.
  unfold at_n. destruct (find _ l) as [[m w]|] eqn:E; [|discriminate]. cbn [snd]. intros H. injection H as ->. apply find_some in E as (A & B). cbn in B. apply Nat.eqb_eq in B. subst. exact A.
Qed.
Lemma drop_n_in l n p : In p (drop_n l n) <-> In p l /\ fst p <> n.
Proof. unfold drop_n. rewrite filter_In, negb_true_iff, Nat.eqb_neq. tauto. Qed.
Lemma drop_n_nodup l n : NoDup (map fst l) -> NoDup (map fst (drop_n l n)).
Proof.
  induction l as [|[m v] q IH]; intros ND; [exact ND|]. cbn in ND. inversion ND as [|? ? A B]; subst. unfold drop_n. cbn.
  destruct (Nat.eqb m n); cbn; [apply IH, B|]. constructor; [|apply IH, B].
  intros H. apply A. apply in_map_iff in H as (p & <- & H). apply filter_In in H as (H & _). apply in_map, H.
Qed.
Lemma nodup_fst {A B} (l : list (A * B)) a x y : NoDup (map fst l) -> In (a, x) l -> In (a, y) l -> x = y.
Proof.
  induction l as [|[b z] l IH]; intros ND H1 H2; [contradiction|]. cbn in ND. inversion ND as [|? ? P Q]; subst.
  destruct H1 as [[= -> ->]|H1], H2 as [H2|H2]; try congruence.
  - destruct P. apply in_map_iff. exists (a, y). auto.
  - injection H2 as -> ->. destruct P. apply in_map_iff. exists (a, x). auto.
  - auto.
Qed.

Lemma binv_start (K : skey -> Prop) d : BInv K (held d) [] (bstart d).
Proof.
  constructor; cbn; try solve [constructor | contradiction | reflexivity | tauto].
  - intros k _. exists [], []. auto.
  - split; constructor.
Qed.

Lemma inv_set K s tr c k v ok : plain_sets K -> BInv K s tr c -> K k -> ~ In k (map snd (dels tr)) ->
  BInv K s (tr ++ [BSet k v ok]) (mkB (b_db c) (q_put (b_q c) (bname k) v) (b_ask c) (b_rem c) (b_next c)).
Proof.
  intros HK [A B C D E F G H I J L M N] Hk Hd.
  constructor; cbn [b_db b_q b_ask b_rem b_next]; rewrite ?dels_app, ?gets_app; try assumption.
  - apply q_put_nodup, A.
  - intros p [<-|Hp]; [exists k; auto|]. apply B. apply q_del_in in Hp. tauto.
  - intros k' Hk' Hd'. rewrite q_get_put, latest_app. cbn. unfold kv_put. destruct (string_dec (bname k) (bname k')) as [e|e].
    + apply (bname_inj K) in e; [|assumption..]. subst k'. destruct (skey_dec k k); [reflexivity|congruence].
    + destruct (skey_dec k k') as [->|]; [congruence|]. apply G; assumption.
  - intros k' Hk' Hd'. rewrite q_get_put. destruct (string_dec (bname k) (bname k')) as [e|e]; [|auto].
    apply (bname_inj K) in e; [|assumption..]. subst k'. contradiction.
  - intros n k' Hn. apply current_more. auto.
  - intros k' Hk'. apply (old_more K). auto.
  - intros n k' Hn. apply in_app_or in Hn as [Hn|[Hn|[]]]; [eauto|discriminate].
Qed.

Lemma inv_flush K s tr c f d' q' ok : BInv K s tr c -> (forall n k, In (n, k) (b_ask c) -> ~ In k (map snd (dels tr))) -> fine_flush f ->
  flush f (b_db c) (b_q c) = (d', q', ok) -> q' = [] /\ ok = true /\ BInv K s tr (mkB d' q' (b_ask c) (b_rem c) (b_next c)).
Proof.
  intros [A B C D E F G H I J L M N] Hap Hf Hfl. destruct (flush_ok f (b_db c) (b_q c) A Hf) as (d2 & E2 & Hd). rewrite E2 in Hfl. injection Hfl as <- <- <-.
  split; [reflexivity|]. split; [reflexivity|].
  constructor; cbn [b_db b_q b_ask b_rem b_next]; try assumption.
  - constructor.
  - intros p [].
  - intros k Hk Hn. change (q_get [] (bname k)) with (@None bytes). cbn match. rewrite Hd. specialize (G k Hk Hn). destruct (q_get (b_q c) (bname k)); [symmetry|]; exact G.
  - reflexivity.
  - intros n k Hin. rewrite Hd. specialize (G k (F _ _ Hin) (Hap _ _ Hin)). destruct (q_get (b_q c) (bname k)) as [v|]; [|apply I; exact Hin].
    apply current_now; [rewrite <- D; exact Hin|auto].
  - intros k Hk. rewrite Hd. destruct (in_dec skey_dec k (map snd (dels tr))) as [Hin|Hin].
    + rewrite (H k Hk Hin). apply J; exact Hk.
    + specialize (G k Hk Hin). destruct (q_get (b_q c) (bname k)) as [v|]; [|apply J, Hk]. exists tr, []. rewrite app_nil_r. auto.
Qed.

(** reads never overlap Deletes of their key *)
Lemma apart_gets tr : apart tr -> forall n k, In (n, k) (gets tr) -> ~ In k (map snd (dels tr)).
Proof.
  induction tr as [|e tr IH] using rev_ind; intros Ha n k; [intros []|]. apply apart_app in Ha as (Ha & He). specialize (IH Ha).
  rewrite dels_app, gets_app. destruct e; cbn in He; try solve [apply IH | intros []].
  - intros [[= -> ->]|H]; [exact He|eapply IH, H].
  - unfold away. intros H. apply filter_In in H as (H & _). eapply IH, H.
  - intros H [<-|Hc]; [|eapply IH; eassumption]. destruct He as (_ & He). apply He. cbn. apply in_map_iff. exists (n, k0). auto.
  - intros H Hc. eapply IH; [exact H|]. apply in_map_iff in Hc as (p & <- & Hp). apply filter_In in Hp as (Hp & _). apply in_map, Hp.
Qed.

Lemma binv_step K s tr c x e c' : plain_sets K -> apart (tr ++ [e]) -> BInv K s tr c -> length (b_q c) < queue_size -> okc K x ->
  bfire c x = Some (e, c') -> BInv K s (tr ++ [e]) c' /\ length (b_q c') < queue_size /\ fine_event e.
Proof.
  intros HK Hap Inv Hlen (Hfine & Hnames & Hcrash) Hfire. destruct (apart_app _ _ Hap) as (Hap0 & Hcl). pose proof (apart_gets _ Hap) as Hg. pose proof (apart_gets _ Hap0) as Hg0.
  destruct x as [k v f|k|n ok|k|n f|f ok|o f]; cbn [fine names_in no_crash] in *; [| | | | | |contradiction].
  - unfold bfire in Hfire. cbn [bfire] in Hfire. set (q := q_put (b_q c) (bname k) v) in *.
    destruct (queue_size <=? length q) eqn:Hq.
    + destruct (flush f (b_db c) q) as [[d' q'] ok] eqn:Hfl. injection Hfire as <- <-.
      pose proof (inv_set K s tr c k v ok HK Inv Hnames Hcl) as I2.
      destruct (inv_flush K s _ _ f d' q' ok I2) as (-> & -> & I3); [|exact Hfine|exact Hfl|].
      * intros n k' Hn. apply (Hg n). rewrite gets_app. cbn [b_ask] in Hn. rewrite (bi_ask _ _ _ _ Inv) in Hn. exact Hn.
      * split; [exact I3|]. split; [cbn; unfold queue_size; lia|reflexivity].
    + injection Hfire as <- <-. split; [apply inv_set; assumption|]. split; [cbn [b_q]; apply Nat.leb_gt in Hq; exact Hq|reflexivity].
  - cbn [bfire] in Hfire. destruct Inv as [A B C D E F G H I J L M N].
    destruct (q_get (b_q c) (bname k)) as [v|] eqn:Hq; injection Hfire as <- <-; cbn in Hcl.
    + split; [|split; [exact Hlen|exact Logic.I]]. constructor; rewrite ?dels_app, ?gets_app; try assumption.
      * intros k' Hk' Hd. rewrite latest_app. cbn. apply G; assumption.
      * intros n k' Hn. apply current_more. auto.
      * intros k' Hk'. apply (old_more K). auto.
      * intros n k' Hn. apply in_app_or in Hn as [Hn|[Hn|[]]]; [eauto|discriminate].
    + split; [|split; [exact Hlen|exact Logic.I]]. constructor; cbn [b_db b_q b_ask b_rem b_next]; rewrite ?dels_app, ?gets_app; try assumption.
      * rewrite D. reflexivity.
      * intros n k' [[= <- <-]|Hn]; eauto.
      * intros k' Hk' Hd. rewrite latest_app. cbn. apply G; assumption.
      * intros n k' [[= <- <-]|Hn]; [|apply current_more; auto].
        apply current_now; [rewrite gets_app; left; reflexivity|]. rewrite latest_app. cbn. specialize (G k Hnames Hcl). rewrite Hq in G. exact G.
      * intros k' Hk'. apply (old_more K). auto.
      * intros n k' [[[= <- <-]|Hn]|Hn]; [lia| |]; (assert (n < b_next c) by eauto; lia).
      * intros n k' Hn. apply in_app_or in Hn as [Hn|[[= <- <-]|[]]]; [|lia]. assert (n < b_next c) by eauto. lia.
      * destruct N as (N1 & N2). split; [|exact N2]. cbn. constructor; [|exact N1]. intros Hi. apply in_map_iff in Hi as ((m & k') & E1 & Hi). cbn in E1. subst m.
        assert (b_next c < b_next c) by eauto. lia.
  - cbn [bfire] in Hfire. destruct (at_n (b_ask c) n) as [k|] eqn:Hat; [|discriminate]. injection Hfire as <- <-. destruct Inv as [A B C D E F G H I J L M N].
    split; [|split; [exact Hlen|subst ok; cbn; discriminate]]. constructor; cbn [b_db b_q b_ask b_rem b_next]; rewrite ?dels_app, ?gets_app; try assumption.
    * rewrite D. reflexivity.
    * intros m k' Hm. apply drop_n_in in Hm as (Hm & _). eauto.
    * intros k' Hk' Hd. rewrite latest_app. cbn. apply G; assumption.
    * intros m k' Hm. apply drop_n_in in Hm as (Hm & _). apply current_more. auto.
    * intros k' Hk'. apply (old_more K). auto.
    * intros m k' [Hm|Hm]; [apply drop_n_in in Hm as (Hm & _)|]; eauto.
    * intros m k' Hm. apply in_app_or in Hm as [Hm|[Hm|[]]]; [eauto|discriminate].
    * destruct N as (N1 & N2). split; [apply drop_n_nodup, N1|exact N2].
  - cbn [bfire] in Hfire. injection Hfire as <- <-. cbn in Hcl. destruct Hcl as (Hcl & Hcg). destruct Inv as [A B C D E F G H I J L M N].
    split; [|split; [cbn; pose proof (q_del_len (b_q c) (bname k)); lia|exact Logic.I]]. constructor; cbn [b_db b_q b_ask b_rem b_next]; rewrite ?dels_app, ?gets_app; try assumption.
    * apply q_del_nodup, A.
    * intros p Hp. apply q_del_in in Hp as (Hp & _). auto.
    * rewrite C. reflexivity.
    * intros m k' [[= <- <-]|Hm]; eauto.
    * intros k' Hk' Hd. cbn in Hd. rewrite latest_app. cbn. rewrite q_get_del. destruct (string_dec (bname k) (bname k')) as [e|e].
      -- apply (bname_inj K) in e; [|assumption..]. tauto.
      -- apply G; tauto.
    * intros k' Hk' Hd. rewrite q_get_del. destruct (string_dec (bname k) (bname k')) as [e|e]; [reflexivity|]. cbn in Hd. destruct Hd as [->|Hd]; [congruence|auto].
    * intros m k' Hm. apply current_more. auto.
    * intros k' Hk'. apply (old_more K). auto.
    * intros m k' [Hm|[[= <- <-]|Hm]]; [|lia|]; (assert (m < b_next c) by eauto; lia).
    * intros m k' Hm. apply in_app_or in Hm as [Hm|[Hm|[]]]; [|discriminate]. assert (m < b_next c) by eauto. lia.
    * destruct N as (N1 & N2). split; [exact N1|]. cbn. constructor; [|exact N2]. intros Hi. apply in_map_iff in Hi as ((m & k') & E1 & Hi). cbn in E1. subst m.
      assert (b_next c < b_next c) by eauto. lia.
  - cbn [bfire] in Hfire. destruct (at_n (b_rem c) n) as [k|] eqn:Hat; [|discriminate]. injection Hfire as <- <-. destruct Inv as [A B C D E F G H I J L M N].
    apply at_n_in in Hat. assert (HkK : K k) by eauto. assert (Hkd : In k (map snd (dels tr))) by (apply in_map_iff; exists (n, k); rewrite <- C; auto).
    assert (Ht : takes f = true) by (destruct f; cbn in *; congruence). rewrite Ht.
    assert (Hdb : forall k', K k' -> db_put (b_db c) (bname k) None (bname k') = if skey_dec k k' then None else b_db c (bname k')).
    { intros k' Hk'. unfold db_put. destruct (string_dec (bname k) (bname k')) as [e|e], (skey_dec k k') as [e'|e']; try reflexivity; [|congruence].
      apply (bname_inj K) in e; [|assumption..]. congruence. }
    split; [|split; [exact Hlen|exact Hfine]]. constructor; cbn [b_db b_q b_ask b_rem b_next]; rewrite ?dels_app, ?gets_app; try assumption.
    * rewrite C. reflexivity.
    * intros m k' Hm. apply drop_n_in in Hm as (Hm & _). eauto.
    * intros k' Hk' Hd. rewrite latest_app, Hdb by exact Hk'. cbn. unfold kv_put. destruct (skey_dec k k') as [<-|Hne].
      -- rewrite (H k HkK Hkd). reflexivity.
      -- apply G; [exact Hk'|]. intros Hi. apply Hd. apply in_map_iff in Hi as ((m & k2) & E1 & Hi). cbn in E1. subst k2. apply in_map_iff. exists (m, k'). split; [reflexivity|].
         unfold away. apply filter_In. split; [exact Hi|]. cbn. apply negb_true_iff, Nat.eqb_neq. intros ->. apply Hne. rewrite <- C in Hi. eapply nodup_fst; [exact (proj2 N)|exact Hat|exact Hi].
    * intros k' Hk' Hd. apply H; [exact Hk'|]. apply in_map_iff in Hd as (p & E1 & Hd). unfold away in Hd. apply filter_In in Hd as (Hd & _). apply in_map_iff. eauto.
    * intros m k' Hm. rewrite Hdb by eauto. destruct (skey_dec k k') as [<-|Hne]; [|apply current_more; auto].
      destruct (Hg0 m k); [rewrite <- D; exact Hm|exact Hkd].
    * intros k' Hk'. rewrite Hdb by exact Hk'. destruct (skey_dec k k') as [<-|Hne]; [|apply (old_more K); auto].
      exists (tr ++ [BDeld n k (works f)]), []. rewrite app_nil_r. split; [reflexivity|]. rewrite latest_app. cbn. unfold kv_put. destruct (skey_dec k k); congruence.
    * intros m k' [Hm|Hm]; [|apply drop_n_in in Hm as (Hm & _)]; eauto.
    * intros m k' Hm. apply in_app_or in Hm as [Hm|[Hm|[]]]; [eauto|discriminate].
    * destruct N as (N1 & N2). split; [exact N1|apply drop_n_nodup, N2].
  - cbn [bfire] in Hfire. destruct Hfine as (Hfine & ->). destruct (flush f (b_db c) (b_q c)) as [[d' q'] fl] eqn:Hfl. injection Hfire as <- <-. cbn in Hcl.
    destruct (inv_flush K s tr c f d' q' fl Inv) as (-> & -> & Inv2); [intros n k Hn; rewrite (bi_ask _ _ _ _ Inv) in Hn; eauto|exact Hfine|exact Hfl|].
    destruct Inv2 as [A B C D E F G H I J L M N]. cbn [b_db b_q b_ask b_rem b_next] in *.
    split; [|split; [cbn; unfold queue_size; lia|reflexivity]]. constructor; cbn [b_db b_q b_ask b_rem b_next]; rewrite ?dels_app, ?gets_app; try assumption; try solve [intros ? ? []].
    * reflexivity.
    * reflexivity.
    * intros k' Hk' Hd. rewrite latest_app. cbn [latest fold_left]. apply G; [exact Hk'|]. rewrite Hcl. intros [].
    * intros k' Hk'. apply (old_more K). auto.
    * intros n k [[]|[]].
    * intros n k Hm. apply in_app_or in Hm as [Hm|[Hm|[]]]; [eauto|discriminate].
    * split; constructor.
Qed.

Lemma binv_exec K d tr c : plain_sets K -> bexec (okc K) d tr c -> apart tr -> BInv K (held d) tr c /\ length (b_q c) < queue_size.
Proof.
  intros HK. induction 1 as [|tr c x e c' E IH Ho F]; intros Hap.
  - split; [apply binv_start|cbn; unfold queue_size; lia].
  - destruct (apart_app _ _ Hap) as (Ha & _). destruct (IH Ha) as (I & L). destruct (binv_step K (held d) tr c x e c' HK Hap I L Ho F) as (P & Q & _). auto.
Qed.
