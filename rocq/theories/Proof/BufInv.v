From Coq Require Import Strings.String Strings.Byte Sorting.Permutation.
From Verif.Lib Require Import Prelude ListAux.
From Verif.Model Require Import KV MaxSize Lazy LazyBuf.
From Verif.Spec Require Import LazySpec BufSpec.
From Verif.Proof Require Import BufP.

(** ** The queue *)
Definition opt (a : option nat) : list nat := match a with Some a => [a] | None => [] end.
Lemma bufs_cons e q : bufs (e :: q) = opt (bi_b e) ++ bufs q. Proof. reflexivity. Qed.
Lemma bufs_app q q' : bufs (q ++ q') = bufs q ++ bufs q'. Proof. apply flat_map_app. Qed.
Lemma bput_other id a : forall q, ~ In id (map bi_id q) -> bput id a q = q.
Proof.
  induction q as [|e q IH]; intros H; cbn; [reflexivity|]. cbn in H. destruct (Nat.eqb_spec (bi_id e) id); [exfalso; auto|].
  f_equal. apply IH. auto.
Qed.
Lemma bput_cnt e a x : forall q, NoDup (map bi_id q) -> In e q ->
  (cnt (bufs (bput (bi_id e) a q)) x + cnt (opt (bi_b e)) x = cnt (bufs q) x + cnt (opt a) x)%nat.
Proof.
  induction q as [|y q IH]; intros N I; [destruct I|]. cbn [map] in N. apply NoDup_cons_iff in N as (N1 & N2).
  unfold bput. cbn [map]. fold (bput (bi_id e) a q). destruct I as [->|I].
  - rewrite Nat.eqb_refl, !bufs_cons, !count_occ_app. cbn [bi_b]. rewrite bput_other by exact N1. lia.
  - destruct (Nat.eqb_spec (bi_id y) (bi_id e)) as [E|E].
    + exfalso. apply N1. rewrite E. apply in_map, I.
    + rewrite !bufs_cons, !count_occ_app. specialize (IH N2 I). lia.
Qed.
Lemma bput_ids id a q : map bi_id (bput id a q) = map bi_id q.
Proof. unfold bput. rewrite map_map. apply map_ext. intros e. destruct (Nat.eqb _ _); reflexivity. Qed.
Lemma bmark_ids id q : map bi_id (bmark id q) = map bi_id q.
Proof. unfold bmark. rewrite map_map. apply map_ext. intros e. destruct (Nat.eqb _ _); reflexivity. Qed.
Lemma bmark_bufs id q : bufs (bmark id q) = bufs q.
Proof. unfold bmark, bufs. induction q as [|e q IH]; cbn; [reflexivity|]. rewrite IH. destruct (Nat.eqb _ _); reflexivity. Qed.
Lemma bdrop_other id : forall q, ~ In id (map bi_id q) -> bdrop id q = q.
Proof.
  induction q as [|e q IH]; intros H; cbn; [reflexivity|]. cbn in H. destruct (Nat.eqb_spec (bi_id e) id); [exfalso; auto|].
  cbn. f_equal. apply IH. auto.
Qed.
Lemma bdrop_cnt e x : forall q, NoDup (map bi_id q) -> In e q ->
  (cnt (bufs (bdrop (bi_id e) q)) x + cnt (opt (bi_b e)) x = cnt (bufs q) x)%nat.
Proof.
  induction q as [|y q IH]; intros N I; [destruct I|]. cbn [map] in N. apply NoDup_cons_iff in N as (N1 & N2).
  unfold bdrop. cbn [filter]. fold (bdrop (bi_id e) q). destruct I as [->|I].
  - rewrite Nat.eqb_refl. cbn [negb]. rewrite bdrop_other by exact N1. rewrite bufs_cons, count_occ_app. lia.
  - destruct (Nat.eqb_spec (bi_id y) (bi_id e)) as [E|E].
    + exfalso. apply N1. rewrite E. apply in_map, I.
    + cbn [negb]. rewrite !bufs_cons, !count_occ_app. specialize (IH N2 I). lia.
Qed.
Lemma same_id q e f : NoDup (map bi_id q) -> In e q -> In f q -> bi_id e = bi_id f -> e = f.
Proof.
  induction q as [|y q IH]; intros N I J E; [destruct I|]. cbn [map] in N. apply NoDup_cons_iff in N as (N1 & N2).
  destruct I as [->|I], J as [->|J]; auto.
  - exfalso. apply N1. rewrite E. apply in_map, J.
  - exfalso. apply N1. rewrite <- E. apply in_map, I.
Qed.
Lemma bfind_in id q e : bfind id q = Some e -> In e q /\ bi_id e = id.
Proof. unfold bfind. intros H. apply find_some in H as (I & H). apply Nat.eqb_eq in H. auto. Qed.
Lemma bpending_in c k e : bpending c k = Some e -> In e (b_q c).
Proof. unfold bpending. destruct (b_idx c (lazy_key k)); [|discriminate]. intros H. apply bfind_in in H. tauto. Qed.
Lemma in_bput_other id a q f : In f q -> bi_id f <> id -> In f (bput id a q).
Proof. intros I N. unfold bput. apply in_map_iff. exists f. split; [|exact I]. destruct (Nat.eqb_spec (bi_id f) id); [congruence|reflexivity]. Qed.
Lemma in_bmark_other id q f : In f q -> bi_id f <> id -> In f (bmark id q).
Proof. intros I N. unfold bmark. apply in_map_iff. exists f. split; [|exact I]. destruct (Nat.eqb_spec (bi_id f) id); [congruence|reflexivity]. Qed.
Lemma in_bdrop_other id q f : In f q -> bi_id f <> id -> In f (bdrop id q).
Proof. intros I N. unfold bdrop. apply filter_In. split; [exact I|]. destruct (Nat.eqb_spec (bi_id f) id); [congruence|reflexivity]. Qed.
Lemma in_bufs q e a : In e q -> bi_b e = Some a -> In a (bufs q).
Proof. intros I E. apply in_flat_map. exists e. split; [exact I|]. rewrite E. left. reflexivity. Qed.

(** ** Savers *)
Definition sv_id (o : option (bitem * bool)) : list nat := match o with Some (e, _) => [bi_id e] | None => [] end.
Definition hs (h : option nat) (sv : list (option (bitem * bool))) : list nat := opt h ++ flat_map sv_id sv.
Definition sv_ok (q : list bitem) (sv : list (option (bitem * bool))) : Prop :=
  forall e d, In (Some (e, d)) sv -> In e q /\ bi_saving e = true.
Definition hand_ok (q : list bitem) (h : option nat) : Prop :=
  forall id, h = Some id -> exists e, In e q /\ bi_id e = id /\ bi_saving e = true.

Lemma upd_split {A} : forall (l : list A) j x y, nth_error l j = Some x ->
  exists l1 l2, l = l1 ++ x :: l2 /\ upd_nth j (fun _ => y) l = l1 ++ y :: l2.
Proof.
  induction l as [|a l IH]; intros [|j] x y H; cbn in H; try discriminate.
  - injection H as ->. exists [], l. split; reflexivity.
  - destruct (IH j x y H) as (l1 & l2 & E & U). exists (a :: l1), l2. cbn. rewrite U, E. split; reflexivity.
Qed.
Lemma map_upd {A B} (f : A -> B) : forall l j x, map f (upd_nth j (fun _ => x) l) = upd_nth j (fun _ => f x) (map f l).
Proof. induction l as [|a l IH]; intros [|j] x; cbn; [reflexivity..|]. rewrite IH. reflexivity. Qed.

Record inv (K : skey -> Prop) (c : bcfg) : Prop := mkInv {
  i_good : good (cnt (used c)) (mem_of c);
  i_calls : forall k v a, In (k, v, a) (b_calls c) -> K k /\ b_mem c a = v;
  i_ids : NoDup (map bi_id (b_q c));
  i_lt : forall e, In e (b_q c) -> (bi_id e < b_next c)%nat;
  i_sv : sv_ok (b_q c) (b_sav c);
  i_hand : hand_ok (b_q c) (b_hand c);
  i_hs : NoDup (hs (b_hand c) (b_sav c)) }.

Lemma used_cnt c x : cnt (used c) x = (cnt (map snd (b_calls c)) x + cnt (b_out c) x + cnt (b_env c) x + cnt (bufs (b_q c)) x)%nat.
Proof. unfold used. rewrite !count_occ_app. lia. Qed.
Lemma with_mem_used c m : used (with_mem c m) = used c. Proof. destruct m as [[[? ?] ?] ?]. reflexivity. Qed.
Lemma with_mem_of c m : mem_of (with_mem c m) = m. Proof. destruct m as [[[? ?] ?] ?]. reflexivity. Qed.
Lemma with_mem_mem c m : b_mem (with_mem c m) = m_mem m. Proof. destruct m as [[[? ?] ?] ?]. reflexivity. Qed.
Lemma in_used_q c e a : In e (b_q c) -> bi_b e = Some a -> (1 <= cnt (used c) a)%nat.
Proof. intros I E. rewrite used_cnt. pose proof (in_bufs _ _ _ I E) as Q. apply cnt_in in Q. lia. Qed.
Lemma in_used_call c k v a : In (k, v, a) (b_calls c) -> (1 <= cnt (used c) a)%nat.
Proof. intros I. rewrite used_cnt. assert (Q : In a (map snd (b_calls c))) by (apply in_map_iff; exists (k, v, a); auto). apply cnt_in in Q. lia. Qed.

(** the same values while only memory that no value uses changes *)
Lemma reads_ext mm mm' q sv : (forall a, In a (bufs q) -> mm' a = mm a) -> sv_ok q sv ->
  map (reads mm') q = map (reads mm) q /\
  map (option_map (fun x => (reads mm' (fst x), snd x))) sv = map (option_map (fun x : bitem * bool => (reads mm (fst x), snd x))) sv.
Proof.
  intros E S. assert (R : forall e, In e q -> reads mm' e = reads mm e).
  { intros e I. unfold reads. destruct (bi_b e) as [a|] eqn:B; [|reflexivity]. cbn. rewrite E; [reflexivity|]. eapply in_bufs; eauto. }
  split; [apply map_ext_in, R|]. apply map_ext_in. intros [(e & d)|] I; [|reflexivity]. cbn. rewrite R; [reflexivity|]. apply (S e d I).
Qed.

Section step.
Context (mf : bool) (K : skey -> Prop).
(** a step of the machine with values, or nothing to be seen *)
Definition sim (l : lcfg) (ev : option levent) (l' : lcfg) : Prop := lstep mf K l ev l' \/ ev = None /\ l' = l.

(** memory steps *)
Lemma mem_inv c m : inv K c -> good (cnt (used c)) m -> (forall x, (1 <= cnt (map snd (b_calls c)) x + cnt (bufs (b_q c)) x)%nat -> m_mem m x = b_mem c x) ->
  inv K (with_mem c m) /\ as_values (with_mem c m) = as_values c.
Proof.
  intros [G Cl Id Lt Sv Hd Hs] Gm Mm. split.
  - destruct m as [[[mm cp] po] fr]. constructor; try assumption.
    intros k v a I. cbn in *. destruct (Cl k v a I) as (Kk & Ev). split; [exact Kk|]. rewrite Mm; [exact Ev|].
    assert (Q : In a (map snd (b_calls c))) by (apply in_map_iff; exists (k, v, a); auto). apply cnt_in in Q. lia.
  - destruct m as [[[mm cp] po] fr]. unfold as_values. cbn [with_mem b_mem b_kv b_q b_idx b_next b_hand b_sav b_ask b_nask].
    destruct (reads_ext (b_mem c) mm (b_q c) (b_sav c)) as (E1 & E2); [|exact Sv|].
    + intros a I. apply Mm. apply cnt_in in I. lia.
    + rewrite E1, E2. reflexivity.
Qed.

Lemma abs_find mm id q : find_item id (map (reads mm) q) = option_map (reads mm) (bfind id q).
Proof. unfold find_item, bfind. induction q as [|e q IH]; cbn; [reflexivity|]. destruct (Nat.eqb (bi_id e) id); [reflexivity|apply IH]. Qed.
Lemma abs_pending c k : pending (as_values c) k = option_map (reads (b_mem c)) (bpending c k).
Proof. unfold pending, bpending. cbn. destruct (b_idx c (lazy_key k)); [apply abs_find|reflexivity]. Qed.
Lemma abs_bput mm id a q : map (reads mm) (bput id a q) = put_b id (option_map mm a) (map (reads mm) q).
Proof. unfold bput, put_b. rewrite !map_map. apply map_ext. intros e. cbn. destruct (Nat.eqb (bi_id e) id); reflexivity. Qed.
Lemma abs_bmark mm id q : map (reads mm) (bmark id q) = mark id (map (reads mm) q).
Proof. unfold bmark, mark. rewrite !map_map. apply map_ext. intros e. cbn. destruct (Nat.eqb (bi_id e) id); reflexivity. Qed.
Lemma abs_bdrop mm id q : map (reads mm) (bdrop id q) = drop id (map (reads mm) q).
Proof.
  unfold bdrop, drop. induction q as [|e q IH]; cbn; [reflexivity|]. destruct (Nat.eqb (bi_id e) id); cbn; rewrite IH; reflexivity.
Qed.

Lemma put_opt_ok own m a : good (fun x => cnt (opt a) x + own x)%nat m -> good own (put_chunk a m) /\ m_mem (put_chunk a m) = m_mem m.
Proof.
  destruct a as [a|]; cbn [opt]; intros G.
  - apply put_ok. eapply good_ext; [|exact G]. intros x. cbn beta. rewrite cnt_cons. cbn [count_occ]. lia.
  - split; [exact G|reflexivity].
Qed.

(** Set and Delete behind the lock: [a] is owned by nobody in [c] but counted *)
Lemma bset_ok c k a : K k -> good (fun x => cnt (opt a) x + cnt (used c) x)%nat (mem_of c) ->
  (forall k v a, In (k, v, a) (b_calls c) -> K k /\ b_mem c a = v) -> NoDup (map bi_id (b_q c)) ->
  (forall e, In e (b_q c) -> (bi_id e < b_next c)%nat) -> sv_ok (b_q c) (b_sav c) -> hand_ok (b_q c) (b_hand c) ->
  NoDup (hs (b_hand c) (b_sav c)) ->
  inv K (bset c k a) /\ as_values (bset c k a) = do_set (as_values c) k (option_map (b_mem c) a).
Proof.
  intros Kk G Cl Id Lt Sv Hd Hs. unfold bset, do_set. rewrite abs_pending.
  assert (ADD : let c' := mkBC (b_mem c) (b_cap c) (b_pool c) (b_fresh c) (b_calls c) (b_out c) (b_env c) (b_kv c)
                  (b_q c ++ [mkB (b_next c) k a false]) (set_at (b_idx c) (lazy_key k) (Some (b_next c))) (S (b_next c))
                  (b_hand c) (b_sav c) (b_ask c) (b_nask c) in
    inv K c' /\ as_values c' = mkL (l_kv (as_values c)) (l_q (as_values c) ++ [mkI (l_next (as_values c)) k (option_map (b_mem c) a) false])
                 (set_at (l_idx (as_values c)) (lazy_key k) (Some (l_next (as_values c)))) (S (l_next (as_values c)))
                 (l_hand (as_values c)) (l_sav (as_values c)) (l_ask (as_values c)) (l_nask (as_values c))).
  { cbn zeta. split.
    - constructor; cbn [b_mem b_calls b_q b_next b_sav b_hand]; try assumption.
      + eapply good_ext; [|exact G]. intros x. rewrite !used_cnt. cbn [b_calls b_out b_env b_q]. rewrite bufs_app, count_occ_app.
        cbn [bufs flat_map bi_b]. rewrite app_nil_r. unfold opt. lia.
      + rewrite map_app. cbn [map]. apply (Permutation_NoDup (l := bi_id (mkB (b_next c) k a false) :: map bi_id (b_q c))); [apply Permutation_cons_append|]. constructor; [|exact Id]. intros I. apply in_map_iff in I as (e & E & I).
        specialize (Lt e I). cbn in E. lia.
      + intros e I. apply in_app_iff in I as [I|[<-|[]]]; [specialize (Lt e I); lia|cbn; lia].
      + intros e d I. destruct (Sv e d I) as (I1 & I2). split; [apply in_or_app; left; exact I1|exact I2].
      + intros id E. destruct (Hd id E) as (e & I & R). exists e. split; [apply in_or_app; left; exact I|exact R].
    - unfold as_values. cbn. rewrite map_app. reflexivity. }
  destruct (bpending c k) as [e|] eqn:P; cbn [option_map]; [|exact ADD].
  cbn [i_saving reads]. destruct (bi_saving e) eqn:S; [exact ADD|]. clear ADD.
  pose proof (bpending_in _ _ _ P) as Ie.
  set (m1 := put_chunk (bi_b e) (mem_of c)).
  destruct (put_opt_ok (fun x => cnt (opt a) x + (cnt (used c) x - cnt (opt (bi_b e)) x))%nat (mem_of c) (bi_b e)) as (G1 & M1).
  { eapply good_ext; [|exact G]. intros x. cbn beta. assert (cnt (opt (bi_b e)) x <= cnt (used c) x)%nat; [|lia].
    rewrite used_cnt. pose proof (bdrop_cnt e x (b_q c) Id Ie). lia. }
  fold m1 in G1, M1.
  assert (F : b_mem (with_mem c m1) = b_mem c) by (rewrite with_mem_mem; exact M1).
  assert (NE : forall f, In f (b_q c) -> bi_saving f = true -> bi_id f <> bi_id e).
  { intros f If Sf E. rewrite (same_id _ _ _ Id If Ie E) in Sf. congruence. }
  destruct m1 as [[[mm cp] po] fr] eqn:Em. cbn in F. subst mm. cbn [with_mem b_mem b_cap b_pool b_fresh b_calls b_out b_env b_kv b_q b_idx b_next b_hand b_sav b_ask b_nask].
  split.
  - constructor; cbn [b_mem b_calls b_q b_next b_sav b_hand]; try assumption.
    + cbn [mem_of b_mem b_cap b_pool b_fresh]. eapply good_ext; [|exact G1]. intros x. cbn beta. rewrite !used_cnt. cbn [b_calls b_out b_env b_q].
      pose proof (bput_cnt e a x (b_q c) Id Ie). pose proof (bdrop_cnt e x (b_q c) Id Ie). lia.
    + rewrite bput_ids. exact Id.
    + intros f I. assert (Q : In (bi_id f) (map bi_id (b_q c))) by (rewrite <- (bput_ids (bi_id e) a); apply in_map, I).
      apply in_map_iff in Q as (f' & E & I'). rewrite <- E. apply Lt, I'.
    + intros f d I. destruct (Sv f d I) as (I1 & I2). split; [|exact I2]. apply in_bput_other; [exact I1|]. apply NE; assumption.
    + intros id E. destruct (Hd id E) as (f & I & E2 & S2). exists f. split; [|split; assumption]. apply in_bput_other; [exact I|]. apply NE; assumption.
  - unfold as_values. cbn [b_mem b_cap b_pool b_fresh b_calls b_out b_env b_kv b_q b_idx b_next b_hand b_sav b_ask b_nask l_kv l_q l_idx l_next l_hand l_sav l_ask l_nask i_id].
    rewrite abs_bput. reflexivity.
Qed.

Lemma front_find mm q : find (fun e => negb (i_saving e)) (map (reads mm) q) = option_map (reads mm) (find (fun e => negb (bi_saving e)) q).
Proof. induction q as [|e q IH]; cbn; [reflexivity|]. destruct (bi_saving e); cbn; [apply IH|reflexivity]. Qed.

Lemma step_ok c x : inv K c -> bchoice_ok mf K x ->
  inv K (fst (bstep c x)) /\ sim (as_values c) (snd (bstep c x)) (as_values (fst (bstep c x))).
Proof.
  intros I Ok. pose proof I as [G Cl Id Lt Sv Hd Hs]. destruct x as [k v p g|n|k|k p g|n f| |j|j f|j|n v|i n|v p g|n]; cbn [bstep bchoice_ok] in *.
  - (* copy *)
    destruct (copy_of (mem_of c) v p g) as [[a m]|] eqn:C; cbn [fst snd]; [|split; [exact I|right; auto]].
    destruct (copy_ok _ _ _ _ _ _ _ G C) as (G1 & O1 & M1 & V1).
    destruct m as [[[mm cp] po] fr] eqn:Em. cbn [m_mem] in M1, V1. split.
    + constructor; cbn [with_calls with_mem b_mem b_calls b_q b_next b_sav b_hand]; try assumption.
      * cbn [mem_of with_calls with_mem b_mem b_cap b_pool b_fresh]. eapply good_ext; [|exact G1]. intros y. rewrite !used_cnt.
        cbn [with_calls with_mem b_calls b_out b_env b_q map snd]. rewrite cnt_cons. lia.
      * intros k' v' a' [E|I']; [injection E as <- <- <-; split; [exact Ok|exact V1]|]. destruct (Cl _ _ _ I') as (K' & E'). split; [exact K'|].
        rewrite M1; [exact E'|]. eapply in_used_call; eauto.
    + right. split; [reflexivity|]. unfold as_values. cbn [with_calls with_mem b_mem b_kv b_q b_idx b_next b_hand b_sav b_ask b_nask].
      destruct (reads_ext (b_mem c) mm (b_q c) (b_sav c)) as (E1 & E2); [|exact Sv|rewrite E1, E2; reflexivity].
      intros b Ib. apply M1. rewrite used_cnt. apply cnt_in in Ib. lia.
  - (* set *)
    destruct (nth_error (b_calls c) n) as [[[k v] a]|] eqn:E; cbn [fst snd]; [|split; [exact I|right; auto]].
    pose proof (nth_error_In _ _ E) as In0. destruct (Cl _ _ _ In0) as (Kk & Ev).
    assert (En : nth_error (map snd (b_calls c)) n = Some a) by (rewrite nth_error_map, E; reflexivity).
    destruct (bset_ok (with_calls c (del_nth n (b_calls c))) k (Some a)) as (Iv & A); try assumption.
    + eapply good_ext; [|exact G]. intros y. rewrite !used_cnt. cbn [with_calls b_calls b_out b_env b_q opt]. rewrite (cnt_del _ _ _ y En), map_del.
      rewrite cnt_cons. cbn. lia.
    + cbn [with_calls b_calls b_mem]. intros k' v' a' I'. apply in_del in I'. apply Cl, I'.
    + split; [exact Iv|]. left. rewrite A. cbn [option_map with_calls b_mem]. rewrite Ev.
      change (as_values (with_calls c (del_nth n (b_calls c)))) with (as_values c). apply Lz_set, Kk.
  - (* delete *)
    destruct (bset_ok c k None) as (Iv & A); try assumption. cbn [fst snd]. split; [exact Iv|]. left. rewrite A. apply Lz_set, Ok.
  - (* get *)
    assert (ASK : (forall e, bpending c k = Some e -> bi_key e <> k) ->
      inv K (with_ask c ((b_nask c, k) :: b_ask c) (S (b_nask c))) /\
      sim (as_values c) (Some (LAsk (b_nask c) k)) (as_values (with_ask c ((b_nask c, k) :: b_ask c) (S (b_nask c))))).
    { intros H. split; [constructor; assumption|]. left. apply (Lz_ask mf K (as_values c) k Ok). intros e0 P. rewrite abs_pending in P.
      destruct (bpending c k) as [e|] eqn:P'; [|discriminate]. injection P as <-. cbn. apply H. reflexivity. }
    destruct (bpending c k) as [e|] eqn:P; [|cbn [fst snd]; apply ASK; discriminate].
    destruct (skey_dec (bi_key e) k) as [Ek|Nk]; [|cbn [fst snd]; apply ASK; intros e' Q; injection Q as <-; exact Nk]. clear ASK.
    assert (HIT : lstep mf K (as_values c) (Some (LHit k (option_map (b_mem c) (bi_b e)))) (as_values c)).
    { apply (Lz_hit mf K (as_values c) k (reads (b_mem c) e) Ok); [|exact Ek]. rewrite abs_pending, P. reflexivity. }
    destruct (bi_b e) as [b|] eqn:Be; cbn [fst snd option_map] in *; [|split; [exact I|left; exact HIT]].
    destruct (copy_of (mem_of c) (b_mem c b) p g) as [[a m]|] eqn:C; cbn [fst snd]; [|split; [exact I|right; auto]].
    destruct (copy_ok _ _ _ _ _ _ _ G C) as (G1 & O1 & M1 & V1).
    destruct m as [[[mm cp] po] fr] eqn:Em. cbn [m_mem] in M1, V1. cbn [with_mem b_mem b_out]. rewrite V1. split.
    + constructor; cbn [with_out b_mem b_calls b_q b_next b_sav b_hand]; try assumption.
      * cbn [mem_of with_out b_mem b_cap b_pool b_fresh]. eapply good_ext; [|exact G1]. intros y. rewrite !used_cnt.
        cbn [with_out b_calls b_out b_env b_q map snd]. rewrite cnt_cons. lia.
      * intros k' v' a' I'. destruct (Cl _ _ _ I') as (K' & E'). split; [exact K'|]. rewrite M1; [exact E'|]. eapply in_used_call; eauto.
    + left. assert (EQ : forall o, as_values (with_out (mkBC mm cp po fr (b_calls c) (b_out c) (b_env c) (b_kv c) (b_q c) (b_idx c) (b_next c) (b_hand c) (b_sav c) (b_ask c) (b_nask c)) o) = as_values c).
      { intros o. unfold as_values. cbn [with_out b_mem b_kv b_q b_idx b_next b_hand b_sav b_ask b_nask].
        destruct (reads_ext (b_mem c) mm (b_q c) (b_sav c)) as (E1 & E2); [|exact Sv|rewrite E1, E2; reflexivity].
        intros y Iy. apply M1. rewrite used_cnt. apply cnt_in in Iy. lia. }
      rewrite EQ. exact HIT.
  - (* answer *)
    destruct (find (fun y => Nat.eqb (fst y) n) (b_ask c)) as [[n' k]|] eqn:F; cbn [fst snd]; [|split; [exact I|right; auto]].
    apply find_some in F as (F1 & F2). apply Nat.eqb_eq in F2. cbn in F2. subst n'. split; [constructor; assumption|]. left.
    apply (Lz_ans mf K (as_values c) n k f); assumption.
  - (* front *)
    destruct (b_hand c) as [h|] eqn:H; cbn [fst snd]; [split; [exact I|right; auto]|].
    destruct (find (fun e => negb (bi_saving e)) (b_q c)) as [e|] eqn:F; cbn [fst snd]; [|split; [exact I|right; auto]].
    pose proof (find_some _ _ F) as (Ie & Se). apply negb_true_iff in Se.
    assert (NE : forall f, In f (b_q c) -> bi_saving f = true -> bi_id f <> bi_id e).
    { intros f If Sf E. rewrite (same_id _ _ _ Id If Ie E) in Sf. congruence. }
    split.
    + constructor; cbn [with_save b_mem b_calls b_q b_next b_sav b_hand]; try assumption.
      * eapply good_ext; [|exact G]. intros y. rewrite !used_cnt. cbn [with_save b_calls b_out b_env b_q]. rewrite bmark_bufs. reflexivity.
      * rewrite bmark_ids. exact Id.
      * intros f If. assert (Q : In (bi_id f) (map bi_id (b_q c))) by (rewrite <- (bmark_ids (bi_id e)); apply in_map, If).
        apply in_map_iff in Q as (f' & E & I'). rewrite <- E. apply Lt, I'.
      * intros f d If. destruct (Sv f d If) as (I1 & I2). split; [|exact I2]. apply in_bmark_other; [exact I1|]. apply NE; assumption.
      * intros id E. injection E as <-. exists (mkB (bi_id e) (bi_key e) (bi_b e) true). split; [|auto]. apply in_map_iff. exists e. rewrite Nat.eqb_refl. auto.
      * cbn [hs opt app]. constructor; [|exact Hs]. intros Q. apply in_flat_map in Q as ([(f & d)|] & Q1 & Q2); [|destruct Q2].
        cbn in Q2. destruct Q2 as [Q2|[]]. destruct (Sv f d Q1) as (I1 & I2). exact (NE f I1 I2 Q2).
    + left. unfold as_values. cbn [with_save b_mem b_kv b_q b_idx b_next b_hand b_sav b_ask b_nask]. rewrite abs_bmark, H.
      apply (Lz_front mf K (mkL (b_kv c) (map (reads (b_mem c)) (b_q c)) (b_idx c) (b_next c) None _ (b_ask c) (b_nask c)) (reads (b_mem c) e)); [reflexivity|].
      cbn [l_q]. rewrite front_find, F. reflexivity.
  - (* send *)
    destruct (b_hand c) as [id|] eqn:H; cbn [fst snd]; [|split; [exact I|right; auto]].
    destruct (nth_error (b_sav c) j) as [[o|]|] eqn:N; cbn [fst snd]; [split; [exact I|right; auto]| |split; [exact I|right; auto]].
    destruct (bfind id (b_q c)) as [e|] eqn:F; cbn [fst snd]; [|split; [exact I|right; auto]].
    destruct (bfind_in _ _ _ F) as (Ie & Eid). destruct (Hd id eq_refl) as (e' & Ie' & Eid' & Se').
    assert (e' = e) by (apply (same_id (b_q c)); auto; congruence). subst e'.
    destruct (upd_split (b_sav c) j None (Some (e, false)) N) as (l1 & l2 & El & Eu).
    split.
    + constructor; cbn [with_save b_mem b_calls b_q b_next b_sav b_hand]; try assumption.
      * rewrite Eu. intros f d If. apply in_app_iff in If as [If|[If|If]].
        -- apply (Sv f d). rewrite El. apply in_or_app. auto.
        -- injection If as <- <-. auto.
        -- apply (Sv f d). rewrite El. apply in_or_app. right. right. exact If.
      * discriminate.
      * rewrite Eu. rewrite El in Hs. unfold hs in *. cbn [opt app] in *. rewrite !flat_map_app in *. cbn [flat_map sv_id app] in *.
        rewrite Eid. apply (Permutation_NoDup (l := id :: flat_map sv_id l1 ++ flat_map sv_id l2)); [|exact Hs]. apply Permutation_middle.
    + left. unfold as_values. cbn [with_save b_mem b_kv b_q b_idx b_next b_hand b_sav b_ask b_nask]. rewrite map_upd, H. cbn [option_map fst snd].
      apply (Lz_send mf K (mkL (b_kv c) (map (reads (b_mem c)) (b_q c)) (b_idx c) (b_next c) (Some id) (map (option_map (fun x => (reads (b_mem c) (fst x), snd x))) (b_sav c)) (b_ask c) (b_nask c)) id); [reflexivity| |].
      * cbn [l_q]. rewrite abs_find, F. reflexivity.
      * cbn [l_sav]. rewrite nth_error_map, N. reflexivity.
  - (* write *)
    destruct (nth_error (b_sav c) j) as [[(e & [|])|]|] eqn:N; cbn [fst snd]; try (split; [exact I|right; auto]).
    destruct (upd_split (b_sav c) j _ (Some (e, true)) N) as (l1 & l2 & El & Eu).
    split.
    + constructor; cbn [with_save b_mem b_calls b_q b_next b_sav b_hand]; try assumption.
      * rewrite Eu. intros f' d If. apply in_app_iff in If as [If|[If|If]].
        -- apply (Sv f' d). rewrite El. apply in_or_app. auto.
        -- injection If as <- <-. apply (Sv e false). eapply nth_error_In; eauto.
        -- apply (Sv f' d). rewrite El. apply in_or_app. right. right. exact If.
      * rewrite Eu. rewrite El in Hs. unfold hs in *. rewrite !flat_map_app in *. exact Hs.
    + left. unfold as_values. cbn [with_save b_mem b_kv b_q b_idx b_next b_hand b_sav b_ask b_nask]. rewrite map_upd. cbn [option_map fst snd].
      apply (Lz_write mf K (as_values c) j (reads (b_mem c) e) f); [|exact Ok].
      cbn [as_values l_sav]. rewrite nth_error_map, N. reflexivity.
  - (* done *)
    destruct (nth_error (b_sav c) j) as [[(e & [|])|]|] eqn:N; cbn [fst snd]; try (split; [exact I|right; auto]).
    pose proof (nth_error_In _ _ N) as In0. destruct (Sv e true In0) as (Ie & Se).
    destruct (upd_split (b_sav c) j _ None N) as (l1 & l2 & El & Eu).
    match goal with |- inv K (with_mem ?cc _) /\ _ => set (c1 := cc) end.
    assert (NE : forall f d, In (Some (f, d)) (l1 ++ l2) -> bi_id f <> bi_id e).
    { intros f d If E. rewrite El in Hs. unfold hs in Hs. rewrite flat_map_app in Hs. cbn [flat_map sv_id app] in Hs.
      rewrite app_assoc in Hs. apply NoDup_remove_2 in Hs. apply Hs. rewrite <- app_assoc. apply in_or_app. right. rewrite <- flat_map_app.
      apply in_flat_map. exists (Some (f, d)). split; [exact If|]. cbn. auto. }
    assert (Gb : good (fun x => cnt (opt (bi_b e)) x + cnt (used c1) x)%nat (mem_of c1)).
    { eapply good_ext; [|exact G]. intros y. rewrite !used_cnt. subst c1. cbn [with_save b_calls b_out b_env b_q]. pose proof (bdrop_cnt e y (b_q c) Id Ie). lia. }
    destruct (put_opt_ok _ _ _ Gb) as (G1 & M1).
    assert (SV1 : sv_ok (b_q c1) (b_sav c1)).
    { subst c1. cbn [with_save b_q b_sav]. rewrite Eu. intros f d If. apply in_app_iff in If as [If|[If|If]]; [|discriminate|].
      - destruct (Sv f d) as (I1 & I2); [rewrite El; apply in_or_app; auto|]. split; [|exact I2]. apply in_bdrop_other; [exact I1|]. apply (NE f d). apply in_or_app. auto.
      - destruct (Sv f d) as (I1 & I2); [rewrite El; apply in_or_app; right; right; exact If|]. split; [|exact I2]. apply in_bdrop_other; [exact I1|]. apply (NE f d). apply in_or_app. auto. }
    assert (STEP : lstep mf K (as_values c) None (as_values c1)).
    { subst c1. unfold as_values. cbn [with_save b_mem b_kv b_q b_idx b_next b_hand b_sav b_ask b_nask]. rewrite map_upd, abs_bdrop. cbn [option_map].
      apply (Lz_done mf K (as_values c) j (reads (b_mem c) e)). cbn [as_values l_sav]. rewrite nth_error_map, N. reflexivity. }
    assert (IV : inv K (with_mem c1 (put_chunk (bi_b e) (mem_of c1))) /\ as_values (with_mem c1 (put_chunk (bi_b e) (mem_of c1))) = as_values c1).
    { destruct (put_chunk (bi_b e) (mem_of c1)) as [[[mm cp] po] fr] eqn:Em. cbn [m_mem] in M1. change (m_mem (mem_of c1)) with (b_mem c) in M1. subst mm. split.
      - constructor; try assumption.
        + subst c1. cbn [with_mem with_save b_q]. unfold bdrop. clear - Id. induction (b_q c) as [|y q IH]; cbn; [constructor|].
          cbn in Id. apply NoDup_cons_iff in Id as (N1 & N2). destruct (Nat.eqb _ _); cbn; [apply IH, N2|]. constructor; [|apply IH, N2].
          intros Q. apply N1. apply in_map_iff in Q as (z & E & Q). apply filter_In in Q as (Q & _). rewrite <- E. apply in_map, Q.
        + subst c1. cbn [with_mem with_save b_q b_next]. intros f If. apply filter_In in If as (If & _). apply Lt, If.
        + subst c1. cbn [with_mem with_save b_q b_hand]. intros id E. destruct (Hd id E) as (f & I1 & I2 & I3). exists f. split; [|auto].
          apply in_bdrop_other; [exact I1|]. intros Q. unfold hs in Hs. rewrite E in Hs. cbn [opt app] in Hs. apply NoDup_cons_iff in Hs as (H1 & _).
          apply H1. apply in_flat_map. exists (Some (e, true)). split; [exact In0|]. cbn. left. congruence.
        + subst c1. cbn [with_mem with_save b_hand b_sav]. rewrite Eu. rewrite El in Hs. unfold hs in *. rewrite !flat_map_app in *. cbn [flat_map sv_id app] in *.
          rewrite app_assoc in *. apply NoDup_remove_1 in Hs. exact Hs.
      - reflexivity. }
    destruct IV as (IV1 & IV2). split; [exact IV1|]. left. rewrite IV2. exact STEP.
  - (* a caller writes *)
    destruct (nth_error (b_out c) n) as [a|] eqn:N; cbn [fst snd]; [|split; [exact I|right; auto]].
    pose proof (nth_error_In _ _ N) as Ia. apply cnt_in in Ia.
    destruct (mem_inv c (at_nat (b_mem c) a v, b_cap c, b_pool c, b_fresh c) I G) as (I1 & A1).
    { intros y Hy. cbn. apply at_other. intros <-. destruct G as (G1 & _). specialize (G1 a). rewrite used_cnt in G1. lia. }
    split; [exact I1|]. right. split; [reflexivity|exact A1].
  - (* the pool drops one *)
    destruct (mem_inv c (b_mem c, b_cap c, at_nat (b_pool c) i (del_nth n (b_pool c i)), b_fresh c) I) as (I1 & A1).
    { destruct G as (G1 & G2 & G3 & G4).
      assert (PC : forall y, (cnt (pooled (at_nat (b_pool c) i (del_nth n (b_pool c i)))) y <= cnt (pooled (b_pool c)) y)%nat).
      { intros y. destruct (Nat.le_gt_cases i 10) as [Li|Li].
        - pose proof (pooled_at (b_pool c) i (del_nth n (b_pool c i)) y Li) as Q. destruct (nth_error (b_pool c i) n) as [z|] eqn:Z.
          + rewrite (cnt_del _ _ _ y Z) in Q. lia.
          + assert (E : del_nth n (b_pool c i) = b_pool c i); [|rewrite E in *; lia]. clear - Z. revert n Z.
            induction (b_pool c i) as [|u l IH]; intros [|n] Z; cbn in *; try reflexivity; [discriminate|]. rewrite IH by exact Z. reflexivity.
        - rewrite (pooled_ext _ (b_pool c)); [lia|]. intros u Hu. apply at_other. lia. }
      split; [|split; [|split]].
      - intros y. specialize (PC y). specialize (G1 y). lia.
      - intros y Hy. apply G2. specialize (PC y). lia.
      - intros u y Hy. unfold at_nat in Hy. destruct (Nat.eqb_spec i u) as [<-|]; [apply in_del in Hy|]; apply G3, Hy.
      - exact G4. }
    { intros y _. reflexivity. }
    split; [exact I1|]. right. split; [reflexivity|exact A1].
  - (* somebody else takes *)
    destruct (copy_of (mem_of c) v p g) as [[a m]|] eqn:C; cbn [fst snd]; [|split; [exact I|right; auto]].
    destruct (copy_ok _ _ _ _ _ _ _ G C) as (G1 & O1 & M1 & V1).
    destruct m as [[[mm cp] po] fr] eqn:Em. cbn [m_mem] in M1, V1. split.
    + constructor; cbn [with_env with_mem b_mem b_calls b_q b_next b_sav b_hand]; try assumption.
      * cbn [mem_of with_env with_mem b_mem b_cap b_pool b_fresh]. eapply good_ext; [|exact G1]. intros y. rewrite !used_cnt.
        cbn [with_env with_mem b_calls b_out b_env b_q map snd]. rewrite cnt_cons. lia.
      * intros k' v' a' I'. destruct (Cl _ _ _ I') as (K' & E'). split; [exact K'|]. rewrite M1; [exact E'|]. eapply in_used_call; eauto.
    + right. split; [reflexivity|]. unfold as_values. cbn [with_env with_mem b_mem b_kv b_q b_idx b_next b_hand b_sav b_ask b_nask].
      destruct (reads_ext (b_mem c) mm (b_q c) (b_sav c)) as (E1 & E2); [|exact Sv|rewrite E1, E2; reflexivity].
      intros b Ib. apply M1. rewrite used_cnt. apply cnt_in in Ib. lia.
  - (* somebody else gives *)
    destruct (nth_error (b_env c) n) as [a|] eqn:N; cbn [fst snd]; [|split; [exact I|right; auto]].
    set (c1 := with_env c (del_nth n (b_env c))).
    assert (Gb : good (fun x => cnt (opt (Some a)) x + cnt (used c1) x)%nat (mem_of c1)).
    { eapply good_ext; [|exact G]. intros y. rewrite !used_cnt. subst c1. cbn [with_env b_calls b_out b_env b_q opt]. rewrite (cnt_del _ _ _ y N), cnt_cons. cbn. lia. }
    destruct (put_opt_ok _ _ _ Gb) as (G1 & M1).
    assert (IV : inv K (with_mem c1 (put_chunk (Some a) (mem_of c1))) /\ as_values (with_mem c1 (put_chunk (Some a) (mem_of c1))) = as_values c).
    { destruct (put_chunk (Some a) (mem_of c1)) as [[[mm cp] po] fr] eqn:Em. cbn [m_mem] in M1. change (m_mem (mem_of c1)) with (b_mem c) in M1. subst mm.
      split; [constructor; assumption|reflexivity]. }
    destruct IV as (IV1 & IV2). split; [exact IV1|]. right. split; [reflexivity|exact IV2].
Qed.
End step.

(** ** Runs *)
Lemma start_inv K s nsav : inv K (bstart s nsav).
Proof.
  assert (R : forall x, In (Some x) (repeat (@None (bitem * bool)) nsav) -> False) by (intros x I; apply repeat_spec in I; discriminate).
  constructor; cbn; try contradiction; try (constructor; fail).
  - split; [|split; [|split]].
    + intros x. unfold pooled. cbn. lia.
    + intros x H. unfold pooled in H. cbn in H. lia.
    + intros i a [].
    + intros x H. lia.
  - intros e d I. destruct (R _ I).
  - intros id E. discriminate.
  - unfold hs. cbn. induction nsav as [|n IH]; cbn; [constructor|]. apply IH. intros x I. apply (R x). right. exact I.
Qed.
Lemma start_values s nsav : as_values (bstart s nsav) = lstart s nsav.
Proof. unfold as_values, lstart. cbn. f_equal. induction nsav as [|n IH]; cbn; [reflexivity|]. rewrite IH. reflexivity. Qed.

Lemma run_ok mf K s nsav : forall l c tr0, Forall (bchoice_ok mf K) l -> inv K c -> lexec nsav mf K s tr0 (as_values c) ->
  inv K (snd (brun c l)) /\ lexec nsav mf K s (tr0 ++ fst (brun c l)) (as_values (snd (brun c l))).
Proof.
  induction l as [|x l IH]; intros c tr0 F I X; cbn [brun].
  - cbn. rewrite app_nil_r. auto.
  - apply Forall_cons_iff in F as (F1 & F2). destruct (step_ok mf K c x I F1) as (I1 & S1). destruct (bstep c x) as [c1 ev]. cbn [fst snd] in *.
    specialize (IH c1). destruct (brun c1 l) as [tr c2]. cbn [fst snd] in *. destruct S1 as [S1|(-> & E)].
    + pose proof (Lx_step _ _ _ _ _ _ _ _ X S1) as X1. destruct ev as [ev|].
      * destruct (IH _ F2 I1 X1) as (I2 & X2). split; [exact I2|]. rewrite <- app_assoc in X2. exact X2.
      * rewrite app_nil_r in X1. apply IH; assumption.
    + apply IH; [assumption..|]. rewrite E. exact X.
Qed.

Definition any (k : skey) : Prop := True.
Lemma any_ok l : Forall (bchoice_ok true any) l.
Proof. apply Forall_forall. intros x _. destruct x; cbn; unfold any; auto. Qed.
Lemma run_inv s nsav l : inv any (snd (brun (bstart s nsav) l)).
Proof.
  apply (run_ok true any s nsav l (bstart s nsav) []); [apply any_ok|apply start_inv|]. rewrite start_values. constructor.
Qed.

Theorem c76_values mf K s nsav l tr c : Forall (bchoice_ok mf K) l -> brun (bstart s nsav) l = (tr, c) -> lexec nsav mf K s tr (as_values c).
Proof.
  intros F E. destruct (run_ok mf K s nsav l (bstart s nsav) []) as (_ & X); [exact F|apply start_inv| |].
  - rewrite start_values. constructor.
  - rewrite E in X. exact X.
Qed.
Theorem c76_owners s nsav l tr c : brun (bstart s nsav) l = (tr, c) -> NoDup (pooled (b_pool c) ++ used c).
Proof.
  intros E. pose proof (run_inv s nsav l) as I. rewrite E in I. cbn [snd] in I. destruct (i_good _ _ I) as (G & _).
  apply (NoDup_count_occ Nat.eq_dec). intros x. rewrite count_occ_app. apply G.
Qed.
(** a Get's slice belongs to its caller *)
Theorem c76_out s nsav l tr c x a : brun (bstart s nsav) l = (tr, c) -> In a (b_out c) ->
  (forall n v, x = BScribble n v -> nth_error (b_out c) n <> Some a) ->
  b_mem (fst (bstep c x)) a = b_mem c a /\ In a (b_out (fst (bstep c x))).
Proof.
  intros E Ia Nx. pose proof (run_inv s nsav l) as I. rewrite E in I. cbn [snd] in I. pose proof (i_good _ _ I) as G.
  assert (U : (1 <= cnt (used c) a)%nat) by (rewrite used_cnt; apply cnt_in in Ia; lia).
  assert (CO : forall v p g b m, copy_of (mem_of c) v p g = Some (b, m) -> m_mem m a = b_mem c a).
  { intros v p g b m C. destruct (copy_ok _ _ _ _ _ _ _ G C) as (_ & _ & M & _). apply M, U. }
  assert (PU : forall o m, m_mem (put_chunk o m) = m_mem m).
  { intros [o|] [[[mm cp] po] fr]; cbn; [destruct (N.eqb _ _)|]; reflexivity. }
  assert (BS : forall c' k o, b_mem (bset c' k o) = b_mem c' /\ b_out (bset c' k o) = b_out c').
  { intros c' k o. unfold bset. destruct (bpending c' k) as [e|]; [|auto]. destruct (bi_saving e); [auto|].
    pose proof (PU (bi_b e) (mem_of c')) as P. destruct (put_chunk (bi_b e) (mem_of c')) as [[[mm cp] po] fr]. cbn in *. auto. }
  destruct x as [k v p g|n|k|k p g|n f| |j|j f|j|n v|i n|v p g|n]; cbn [bstep].
  - destruct (copy_of _ _ _ _) as [[b m]|] eqn:C; [|auto]. specialize (CO _ _ _ _ _ C). destruct m as [[[mm cp] po] fr]. cbn in *. auto.
  - destruct (nth_error _ _) as [[[k v] b]|]; [|auto]. cbn [fst]. destruct (BS (with_calls c (del_nth n (b_calls c))) k (Some b)) as (-> & ->). auto.
  - cbn [fst]. destruct (BS c k None) as (-> & ->). auto.
  - destruct (bpending c k) as [e|]; [|auto]. destruct (skey_dec _ _); [|auto]. destruct (bi_b e) as [b|]; [|auto].
    destruct (copy_of _ _ _ _) as [[y m]|] eqn:C; [|auto]. specialize (CO _ _ _ _ _ C). destruct m as [[[mm cp] po] fr]. cbn in *. auto.
  - destruct (find _ _) as [[n' k]|]; auto.
  - destruct (b_hand c); [auto|]. destruct (find _ _); auto.
  - destruct (b_hand c); [|auto]. destruct (nth_error _ _) as [[|]|]; auto. destruct (bfind _ _); auto.
  - destruct (nth_error _ _) as [[(e & [|])|]|]; auto.
  - destruct (nth_error _ _) as [[(e & [|])|]|]; auto. cbn [fst]. rewrite with_mem_mem, PU. cbn. split; [reflexivity|].
    destruct (put_chunk _ _) as [[[mm cp] po] fr]. exact Ia.
  - destruct (nth_error (b_out c) n) as [b|] eqn:N; [|auto]. cbn. split; [|exact Ia]. apply at_other. intros ->. exact (Nx n v eq_refl N).
  - auto.
  - destruct (copy_of _ _ _ _) as [[b m]|] eqn:C; [|auto]. specialize (CO _ _ _ _ _ C). destruct m as [[[mm cp] po] fr]. cbn in *. auto.
  - destruct (nth_error _ _) as [b|]; [|auto]. cbn [fst]. rewrite with_mem_mem, PU. cbn. split; [reflexivity|].
    destruct (N.eqb _ _); exact Ia.
Qed.
Theorem c76_capacity s nsav l tr c size p a m : brun (bstart s nsav) l = (tr, c) -> get_chunk (mem_of c) size p = Some (a, m) ->
  1024 <= m_cap m a /\ (size <= 2 ^ 20 -> size <= m_cap m a) /\ (1024 < size <= 2 ^ 19 -> m_cap m a < 2 * size).
Proof.
  intros E C. pose proof (run_inv s nsav l) as I. rewrite E in I. cbn [snd] in I.
  destruct (chunk_ok _ _ _ _ _ _ (i_good _ _ I) C) as (_ & _ & _ & F). apply get_pool_cap, F.
Qed.

Theorem c76_large cap : 2 ^ 20 < cap -> exists l tr c a m, brun (bstart kv_empty 1) l = (tr, c) /\
  get_chunk (mem_of c) 600000 (POld 0) = Some (a, m) /\ m_cap m a = cap.
Proof.
  intros H. assert (V : exists v : bytes, N.of_nat (length v) = 2 ^ 20 + 1).
  { exists (repeat x00 (N.to_nat (2 ^ 20 + 1))). rewrite repeat_length, N2Nat.id. reflexivity. }
  destruct V as (v & V). exists [BEnvGet v PNew cap; BEnvPut 0].
  assert (C : copy_of (mem_of (bstart kv_empty 1)) v PNew cap =
    Some (1%nat, (at_nat (at_nat (fun _ => []) 0 []) 1 v, at_nat (at_nat (fun _ => 0) 0 (new_cap 10)) 1 cap, fun _ => [], 2%nat))).
  { unfold copy_of. rewrite V. cbn [get_chunk mem_of bstart b_mem b_cap b_pool b_fresh]. change (get_pool (2 ^ 20 + 1)) with 10%nat.
    unfold append_to. rewrite V, at_same. change (2 ^ 20 + 1 <=? new_cap 10) with false. cbv iota. rewrite N.max_l by lia. reflexivity. }
  cbn [brun bstep]. rewrite C. cbn [with_env with_mem b_env nth_error mem_of b_mem b_cap b_pool b_fresh put_chunk]. rewrite at_same.
  destruct (N.eqb_spec cap 0); [lia|]. unfold put_pool. destruct (N.leb_spec (2 ^ 20) cap); [|lia].
  eexists _, _, _, _. split; [reflexivity|]. split; reflexivity.
Qed.
