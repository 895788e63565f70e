(** Shutting down the delayed-write store: counting items and tokens. *)
From Coq Require Import Strings.String Strings.Ascii Strings.Byte.
From Verif.Lib Require Import Prelude ListAux.
From Verif.Model Require Import KV MaxSize Lazy LazyStop.
From Verif.Spec Require Import LazySpec LazyStopSpec.
From Verif.Proof Require Import KVP MaxSizeP MaxSizeRun LazyP LazyOne.
Open Scope nat_scope.

(** ** sums over lists *)
Fixpoint wsum {A} (f : A -> nat) (l : list A) : nat := match l with [] => 0 | x :: l => f x + wsum f l end.
Lemma wsum_upd {A} (f : A -> nat) l j x y : nth_error l j = Some x ->
  wsum f (upd_nth j (fun _ => y) l) + f x = wsum f l + f y.
Proof.
  revert j. induction l as [|a l IH]; intros [|j] E; cbn in *; try discriminate.
  - injection E as ->. lia.
  - apply IH in E. lia.
Qed.
Lemma wsum_app {A} (f : A -> nat) l x : wsum f (l ++ [x]) = wsum f l + f x.
Proof. induction l as [|a l IH]; cbn; lia. Qed.
Lemma wsum_repeat {A} (f : A -> nat) x n : wsum f (repeat x n) = n * f x.
Proof. induction n as [|n IH]; cbn; lia. Qed.
Lemma wsum_ge {A} (f : A -> nat) l j x : nth_error l j = Some x -> f x <= wsum f l.
Proof. revert j. induction l as [|a l IH]; intros [|j] E; cbn in *; try discriminate; [injection E as ->; lia|apply IH in E; lia]. Qed.
Lemma wsum_pos {A} (f : A -> nat) l : 0 < wsum f l -> exists j x, nth_error l j = Some x /\ 0 < f x.
Proof.
  induction l as [|a l IH]; cbn; [lia|]. intros H. destruct (f a) eqn:E.
  - destruct IH as (j & x & Hj & Hx); [lia|]. exists (S j), x. auto.
  - exists 0, a. split; [reflexivity|lia].
Qed.
Lemma wsum_filter {A} (f : A -> bool) l : length (filter f l) = wsum (fun x => if f x then 1 else 0) l.
Proof. induction l as [|a l IH]; cbn; [reflexivity|]. destruct (f a); cbn; lia. Qed.
Lemma wsum_map {A B} (f : B -> nat) (g : A -> B) l : wsum f (map g l) = wsum (fun x => f (g x)) l.
Proof. induction l as [|a l IH]; cbn; lia. Qed.
Lemma wsum_ext {A} (f g : A -> nat) l : (forall x, In x l -> f x = g x) -> wsum f l = wsum g l.
Proof. induction l as [|a l IH]; cbn; intros H; [reflexivity|]. rewrite IH, (H a) by auto. reflexivity. Qed.

(** items not marked *)
Definition un (e : item) : nat := if i_saving e then 0 else 1.
Definition fresh_items (l : lcfg) : nat := wsum un (l_q l).
Definition hand_n (l : lcfg) : nat := match l_hand l with Some _ => 1 | None => 0 end.
Definition busy1 (x : option (item * bool)) : nat := match x with Some _ => 1 | None => 0 end.
Definition busy (l : lcfg) : nat := wsum busy1 (l_sav l).

Lemma mark_len id q : length (mark id q) = length q. Proof. apply map_length. Qed.
Lemma put_len id v q : length (put_b id v q) = length q. Proof. apply map_length. Qed.
Lemma put_un id v q : wsum un (put_b id v q) = wsum un q.
Proof. unfold put_b. rewrite wsum_map. apply wsum_ext. intros x _. unfold un. destruct (Nat.eqb _ _); reflexivity. Qed.
Lemma mark_other id q : ~ In id (map i_id q) -> mark id q = q.
Proof.
  induction q as [|x q IH]; cbn; [reflexivity|]. intros H. fold (mark id q). rewrite IH by tauto. destruct (Nat.eqb_spec (i_id x) id); [tauto|reflexivity].
Qed.
Lemma mark_un e q : NoDup (map i_id q) -> In e q -> i_saving e = false -> wsum un (mark (i_id e) q) + 1 = wsum un q.
Proof.
  induction q as [|x q IH]; [contradiction|]. cbn [map wsum mark In]. intros Hd [->|Hin] Hs; inversion Hd as [|? ? Hn Hd']; subst.
  - fold (mark (i_id e) q). rewrite (mark_other _ _ Hn). unfold un at 1 3. rewrite Nat.eqb_refl. cbn. rewrite Hs. lia.
  - fold (mark (i_id e) q). specialize (IH Hd' Hin Hs). destruct (Nat.eqb_spec (i_id x) (i_id e)) as [C|C]; [|lia].
    destruct Hn. rewrite C. apply in_map, Hin.
Qed.
Lemma drop_other id q : ~ In id (map i_id q) -> drop id q = q.
Proof.
  induction q as [|x q IH]; cbn; [reflexivity|]. intros H. destruct (Nat.eqb_spec (i_id x) id); [tauto|]. cbn. f_equal. apply IH. tauto.
Qed.
Lemma drop_count e q : NoDup (map i_id q) -> In e q -> i_saving e = true ->
  length (drop (i_id e) q) + 1 = length q /\ wsum un (drop (i_id e) q) = wsum un q.
Proof.
  induction q as [|x q IH]; [contradiction|]. intros Hd [->|Hin] Hs; inversion Hd as [|? ? Hn Hd']; subst.
  - change (drop (i_id e) (e :: q)) with (if negb (Nat.eqb (i_id e) (i_id e)) then e :: drop (i_id e) q else drop (i_id e) q).
    rewrite Nat.eqb_refl. cbn [negb]. rewrite (drop_other _ _ Hn). cbn. unfold un at 2. rewrite Hs. lia.
  - specialize (IH Hd' Hin Hs). change (drop (i_id e) (x :: q)) with (if negb (Nat.eqb (i_id x) (i_id e)) then x :: drop (i_id e) q else drop (i_id e) q).
    destruct (Nat.eqb_spec (i_id x) (i_id e)) as [C|C]; [destruct Hn; rewrite C; apply in_map, Hin|]. cbn. lia.
Qed.
Lemma unsaved_none l : unsaved l = None -> fresh_items l = 0.
Proof.
  unfold unsaved, fresh_items. induction (l_q l) as [|x q IH]; cbn; [reflexivity|]. unfold un at 1. destruct (i_saving x); cbn; [exact IH|discriminate].
Qed.
Lemma unsaved_some l e : unsaved l = Some e -> In e (l_q l) /\ i_saving e = false /\ 0 < fresh_items l.
Proof.
  unfold unsaved, fresh_items. intros E. apply find_some in E as (A & B). apply negb_true_iff in B. split; [exact A|split; [exact B|]].
  induction (l_q l) as [|x q IH]; [contradiction|]. cbn. destruct A as [->|A]; [unfold un at 1; rewrite B; lia|]. specialize (IH A). lia.
Qed.
Lemma fresh_unsaved l : 0 < fresh_items l -> exists e, unsaved l = Some e.
Proof. intros H. destruct (unsaved l) eqn:E; [eauto|]. apply unsaved_none in E. lia. Qed.

(** ** every step is one of Model/Lazy.v, or leaves the data alone *)
Lemma l_get_step mf (K : skey -> Prop) l k e l' : K k -> l_get l k = (e, l') -> lstep mf K l (Some e) l'.
Proof.
  intros Hk. unfold l_get. destruct (pending l k) as [x|] eqn:Ep; [destruct (skey_dec (i_key x) k) as [Q|Q]|]; intros E; injection E as <- <-.
  - apply Lz_hit; assumption.
  - apply Lz_ask; [exact Hk|]. congruence.
  - apply Lz_ask; [exact Hk|]. congruence.
Qed.
Lemma l_ans_step mf K l n f e l' : (works f = false -> mf = true) -> l_ans l n f = Some (e, l') -> lstep mf K l (Some e) l'.
Proof.
  intros Hf. unfold l_ans. destruct (find _ (l_ask l)) as [(n' & k)|] eqn:Ef; [|discriminate]. apply find_some in Ef as (Ef & _).
  intros E. injection E as <- <-. apply Lz_ans; assumption.
Qed.
Definition named (K : skey -> Prop) (c : vcfg) : Prop := forall i k v, nth_error (v_calls c) i = Some (CNew k v) -> K k.
Lemma fire_call_inv c i e c' : fire_call c i = Some (e, c') ->
  (exists k v, nth_error (v_calls c) i = Some (CNew k v) /\ e = Some (LSet k v) /\
     c' = mkV (do_set (v_l c) k v) (pc_at c i (if adds (v_l c) k then CSig else CEnd)) (v_tok c) (v_sig c) (v_h c) (v_sv c) (v_stop c)) \/
  (nth_error (v_calls c) i = Some CSig /\ e = None /\ c' = mkV (v_l c) (pc_at c i CTok) (v_tok c) true (v_h c) (v_sv c) (v_stop c)) \/
  (exists t, nth_error (v_calls c) i = Some CTok /\ v_tok c = S t /\ e = None /\ c' = mkV (v_l c) (pc_at c i CEnd) t (v_sig c) (v_h c) (v_sv c) (v_stop c)).
Proof.
  unfold fire_call. destruct (nth_error (v_calls c) i) as [[k v| | |]|] eqn:E; intros H; try discriminate.
  - injection H as <- <-. left. eauto.
  - injection H as <- <-. right. left. auto.
  - destruct (v_tok c) as [|t] eqn:Et; [discriminate|]. injection H as <- <-. right. right. eauto.
Qed.

Lemma nth_upd_cases {A} j (y : A) l i x : nth_error (upd_nth j (fun _ => y) l) i = Some x ->
  (i = j /\ x = y /\ exists z, nth_error l j = Some z) \/ (i <> j /\ nth_error l i = Some x).
Proof.
  rewrite nth_set. destruct (Nat.eq_dec j i) as [<-|Hn]; [|right; auto]. destruct (nth_error l j) eqn:E; cbn; [|discriminate].
  intros H. injection H as <-. left. eauto.
Qed.
Lemma len_upd {A} j (f : A -> A) l : length (upd_nth j f l) = length l.
Proof. revert j. induction l as [|a l IH]; intros [|j]; cbn; auto. Qed.


(** ** the queue, whatever the keys *)
Record QInv (c : lcfg) : Prop := {
  q_nd : NoDup (map i_id (l_q c));
  q_lt : forall e, In e (l_q c) -> i_id e < l_next c;
  q_sav : forall j e w, nth_error (l_sav c) j = Some (Some (e, w)) -> In e (l_q c) /\ i_saving e = true;
  q_sj : forall i j e w e' w', nth_error (l_sav c) i = Some (Some (e, w)) -> nth_error (l_sav c) j = Some (Some (e', w')) ->
     i_id e = i_id e' -> i = j;
  q_hand : forall id, l_hand c = Some id -> (exists e, In e (l_q c) /\ i_id e = id /\ i_saving e = true) /\
     forall j e w, nth_error (l_sav c) j = Some (Some (e, w)) -> i_id e <> id
}.
Lemma q_start s n : QInv (lstart s n).
Proof.
  constructor; cbn; auto; try contradiction; try discriminate.
  - constructor.
  - intros j e w E. destruct (nth_repeat_none _ _ _ E).
  - intros i j e w e' w' E. destruct (nth_repeat_none _ _ _ E).
Qed.
Lemma q_step mf K c e c' : QInv c -> lstep mf K c e c' -> QInv c'.
Proof.
  intros [G1 G2 G6 G7 G8] S.
  inversion S as [c0 k v Kk|c0 k x Kk Hp Hk|c0 k Kk Hp|c0 n k f Hin Hf|c0 x Hh Hfd|c0 id x j Hh Hfd Hj|c0 j x f Hj Hf|c0 j x Hj]; subst; clear S.
  - assert (Add : QInv (mkL (l_kv c) (l_q c ++ [mkI (l_next c) k v false]) (set_at (l_idx c) (lazy_key k) (Some (l_next c))) (S (l_next c))
                 (l_hand c) (l_sav c) (l_ask c) (l_nask c))).
    { constructor; cbn.
      - rewrite map_app. cbn. apply Permutation_NoDup with (l := l_next c :: map i_id (l_q c)); [apply Permutation_cons_append|].
        constructor; [|exact G1]. intros C. apply in_map_iff in C as (y & E & He). apply G2 in He. lia.
      - intros y He. apply in_app_or in He as [He|[<-|[]]]; [apply G2 in He; lia|cbn; lia].
      - intros j y w E. destruct (G6 _ _ _ E). split; [apply in_or_app; auto|assumption].
      - exact G7.
      - intros id E. destruct (G8 _ E) as ((y & A & B) & C). split; [exists y; split; [apply in_or_app; auto|exact B]|exact C]. }
    unfold do_set. destruct (pending c k) as [y|] eqn:Ep; [|exact Add]. destruct (i_saving y) eqn:Es; [exact Add|].
    unfold pending in Ep. destruct (l_idx c (lazy_key k)) as [id0|]; [|discriminate]. apply find_item_spec in Ep as (Hin & _).
    constructor; cbn; change (put_b (i_id y) v (l_q c)) with (map (setb (i_id y) v) (l_q c)).
    + rewrite map_ids by apply setb_id. exact G1.
    + intros z Hz. apply in_map_iff in Hz as (u & <- & Hu). rewrite setb_id. auto.
    + intros j z w E. destruct (G6 _ _ _ E) as (A & B). split; [|exact B]. apply in_map_iff. exists z. split; [|exact A].
      unfold setb. destruct (Nat.eqb_spec (i_id z) (i_id y)) as [C|C]; [|reflexivity]. rewrite (ids_inj _ _ _ G1 A Hin C) in B. congruence.
    + exact G7.
    + intros id E. destruct (G8 _ E) as ((z & A & B1 & B2) & C). split; [|exact C]. exists (setb (i_id y) v z). rewrite setb_id, setb_sv. split; [apply in_map, A|auto].
  - constructor; auto.
  - constructor; auto.
  - constructor; auto.
  - apply find_some in Hfd as (Hx & Hsv). apply negb_true_iff in Hsv.
    constructor; cbn; change (mark (i_id x) (l_q c)) with (map (setm (i_id x)) (l_q c)); auto.
    + rewrite map_ids by apply setm_id. exact G1.
    + intros y Hy. apply in_map_iff in Hy as (z & <- & Hz). rewrite setm_id. auto.
    + intros j y w E. destruct (G6 _ _ _ E) as (A & B). split; [|exact B]. apply in_map_iff. exists y. split; [|exact A].
      unfold setm. destruct (Nat.eqb _ _); [|reflexivity]. rewrite <- B. destruct y; reflexivity.
    + intros id E. injection E as <-. split.
      * exists (setm (i_id x) x). split; [apply in_map, Hx|]. split; [apply setm_id|]. unfold setm. rewrite Nat.eqb_refl. reflexivity.
      * intros j y w E C. destruct (G6 _ _ _ E) as (A & B). rewrite (ids_inj _ _ _ G1 A Hx C) in B. congruence.
  - apply find_item_spec in Hfd as (Hx & Hid).
    destruct (G8 _ Hh) as ((y & Y1 & Y2 & Y3) & Y4). assert (y = x) by (eapply ids_inj; eauto; congruence). subst y.
    constructor; cbn; auto.
    + intros i y w E. apply nth_upd_cases in E as [(-> & E & _)|(_ & E)]; [injection E as -> ->; auto|eapply G6; eauto].
    + intros a b ea wa eb wb Ea Eb E. apply nth_upd_cases in Ea as [(-> & Ea & _)|(Na & Ea)], Eb as [(-> & Eb & _)|(Nb & Eb)]; auto.
      * injection Ea as -> ->. exfalso. apply (Y4 _ _ _ Eb). congruence.
      * injection Eb as -> ->. exfalso. apply (Y4 _ _ _ Ea). congruence.
      * eapply G7; eauto.
    + discriminate.
  - destruct (G6 _ _ _ Hj) as (Hx & Hsv). constructor; cbn; auto.
    + intros i y w E. apply nth_upd_cases in E as [(-> & E & _)|(_ & E)]; [injection E as -> ->; auto|eapply G6; eauto].
    + intros a b ea wa eb wb Ea Eb E. apply nth_upd_cases in Ea as [(-> & Ea & _)|(Na & Ea)], Eb as [(-> & Eb & _)|(Nb & Eb)]; auto.
      * injection Ea as -> ->. eapply G7; eauto.
      * injection Eb as -> ->. eapply G7; eauto.
      * eapply G7; eauto.
    + intros id E. destruct (G8 _ E) as (A & B). split; [exact A|]. intros i y w E'.
      apply nth_upd_cases in E' as [(-> & E' & _)|(_ & E')]; [injection E' as -> ->|]; eapply B; eauto.
  - destruct (G6 _ _ _ Hj) as (Hx & Hsv). constructor; cbn; auto.
    + apply nodup_drop, G1.
    + intros y Hy. apply drop_in in Hy as (Hy & _). auto.
    + intros i y w E. apply nth_upd_cases in E as [(-> & E & _)|(Hne & E)]; [discriminate|].
      destruct (G6 _ _ _ E) as (A & B). split; [|exact B]. apply drop_in. split; [exact A|]. intros C. apply Hne. eapply G7; eauto.
    + intros a b ea wa eb wb Ea Eb E. apply nth_upd_cases in Ea as [(-> & Ea & _)|(Na & Ea)], Eb as [(-> & Eb & _)|(Nb & Eb)]; auto; try discriminate.
      eapply G7; eauto.
    + intros id E. destruct (G8 _ E) as ((y & Y1 & Y2 & Y3) & B). split.
      * exists y. split; [|auto]. apply drop_in. split; [exact Y1|]. rewrite Y2. intros C. apply (B _ _ _ Hj). congruence.
      * intros i z w E'. apply nth_upd_cases in E' as [(-> & E' & _)|(_ & E')]; [discriminate|eapply B; eauto].
Qed.

Definition drained (s : spc) : nat -> nat := fun m => match s with SNone | SClose => 0 | STake n => n | _ => m end.
Definition ret1 (x : sph) : nat := match x with SvRet => 1 | _ => 0 end.
Definition wait1 (x : cpc) : nat := match x with CSig | CTok => 1 | _ => 0 end.

Record VInv (p : vpar) (c : vcfg) : Prop := {
  w_items : length (l_q (v_l c)) = fresh_items (v_l c) + hand_n (v_l c) + busy (v_l c);
  w_tok : v_tok c + drained (v_stop c) (p_max p) + length (l_q (v_l c)) = p_max p + wsum wait1 (v_calls c) + wsum ret1 (v_sv c);
  w_cap : v_tok c <= p_max p;
  w_take : drained (v_stop c) (p_max p) <= p_max p;
  w_hand : (exists b n, v_h c = HSend b n) <-> l_hand (v_l c) <> None;
  w_len : length (l_sav (v_l c)) = p_sav p /\ length (v_sv c) = p_sav p;
  w_sv : forall j x, nth_error (v_sv c) j = Some x ->
     match x with
     | SvRun => True
     | SvRet => exists e, nth_error (l_sav (v_l c)) j = Some (Some (e, true))
     | SvGone => nth_error (l_sav (v_l c)) j = Some None /\ v_h c = HExit
     end;
  w_exit : v_h c = HExit -> v_stop c <> SNone;
  w_wait : match v_stop c with SWait2 => v_h c = HExit | SRet => v_h c = HExit /\ forall j x, nth_error (v_sv c) j = Some x -> x = SvGone | _ => True end;
  w_sel : v_h c = HSel -> v_stop c = SNone -> v_sig c = false -> (forall i, nth_error (v_calls c) i <> Some CSig) ->
     length (l_q (v_l c)) <= p_flush p
}.

Lemma v_start p s : VInv p (vstart p s).
Proof.
  constructor; cbn.
  - unfold fresh_items, hand_n, busy. cbn. rewrite wsum_repeat. cbn. lia.
  - rewrite wsum_repeat. cbn. lia.
  - lia.
  - lia.
  - split; [intros (b & n & E); discriminate|intros C; destruct (C eq_refl)].
  - rewrite !repeat_length. auto.
  - intros j x E. apply nth_error_In, repeat_spec in E. subst x. exact I.
  - discriminate.
  - exact I.
  - discriminate.
Qed.

(** a call *)
Lemma v_call p c i e c' : QInv (v_l c) -> VInv p c -> fire_call c i = Some (e, c') -> VInv p c'.
Proof.
  intros G [I1 I2 I3 I4 I5 I6 I7 I8 I9 I10] F. apply fire_call_inv in F as [(k & v & E & -> & ->)|[(E & -> & ->)|(t & E & Et & -> & ->)]].
  - (* the locked section *)
    assert (Q : hand_n (do_set (v_l c) k v) = hand_n (v_l c) /\ busy (do_set (v_l c) k v) = busy (v_l c) /\
                l_hand (do_set (v_l c) k v) = l_hand (v_l c) /\ l_sav (do_set (v_l c) k v) = l_sav (v_l c) /\
                (if adds (v_l c) k then length (l_q (do_set (v_l c) k v)) = S (length (l_q (v_l c))) /\ fresh_items (do_set (v_l c) k v) = S (fresh_items (v_l c))
                else length (l_q (do_set (v_l c) k v)) = length (l_q (v_l c)) /\ fresh_items (do_set (v_l c) k v) = fresh_items (v_l c))).
    { unfold do_set, adds. destruct (pending (v_l c) k) as [x|]; [destruct (i_saving x)|]; cbn; repeat split; auto;
        unfold fresh_items; cbn; rewrite ?app_length, ?wsum_app, ?put_len, ?put_un; cbn; unfold un; cbn; lia. }
    destruct Q as (Q1 & Q2 & Q3 & Q4 & Q5). pose proof (wsum_upd wait1 _ _ _ (if adds (v_l c) k then CSig else CEnd) E) as W. cbn [wait1] in W.
    constructor; cbn [v_l v_calls v_tok v_sig v_h v_sv v_stop]; unfold pc_at; rewrite ?Q1, ?Q2, ?Q3, ?Q4; auto.
    + destruct (adds (v_l c) k); lia.
    + destruct (adds (v_l c) k); cbn in W; lia.
    + intros Hh Hs Hg Hn. destruct (adds (v_l c) k) eqn:Ea.
      * exfalso. apply (Hn i). rewrite nth_set. destruct (Nat.eq_dec i i); [|congruence]. rewrite E. reflexivity.
      * destruct Q5 as (-> & _). apply I10; auto. intros j C. apply (Hn j). rewrite nth_set. destruct (Nat.eq_dec i j) as [<-|]; [congruence|exact C].
  - pose proof (wsum_upd wait1 _ _ _ CTok E) as W. cbn [wait1] in W.
    constructor; cbn [v_l v_calls v_tok v_sig v_h v_sv v_stop]; unfold pc_at; auto; try lia; try discriminate.
  - pose proof (wsum_upd wait1 _ _ _ CEnd E) as W. cbn [wait1] in W.
    constructor; cbn [v_l v_calls v_tok v_sig v_h v_sv v_stop]; unfold pc_at; auto; try lia.
    intros Hh Hs Hg Hn. apply I10; auto. intros j C. apply (Hn j). rewrite nth_set. destruct (Nat.eq_dec i j) as [<-|]; [congruence|exact C].
Qed.

Ltac vfields := cbn [v_l v_calls v_tok v_sig v_h v_sv v_stop set_l set_h set_lh set_stop].

(** the handler *)
Lemma v_hand p c j c' : QInv (v_l c) -> VInv p c -> fire_hand p c j = Some c' -> VInv p c'.
Proof.
  intros G [I1 I2 I3 I4 I5 I6 I7 I8 I9 I10] F. unfold fire_hand in F.
  assert (NH : (forall b n, v_h c <> HSend b n) -> l_hand (v_l c) = None).
  { intros H. destruct (l_hand (v_l c)) eqn:E; [|reflexivity]. destruct I5 as (_ & I5). destruct I5 as (b & n0 & C); [congruence|]. destruct (H _ _ C). }
  (* a step that changes the handler's position only *)
  assert (Pos : forall h', v_h c <> HExit -> (forall b n, v_h c <> HSend b n) -> (forall b n, h' <> HSend b n) ->
      (h' = HExit -> v_stop c <> SNone) -> (h' = HSel -> v_stop c = SNone -> length (l_q (v_l c)) <= p_flush p) -> VInv p (set_h c h')).
  { intros h' N0 N1 N2 N3 N4. constructor; vfields; auto.
    - rewrite (NH N1). split; [intros (b & n & C); destruct (N2 _ _ C)|congruence].
    - intros i x E. specialize (I7 i x E). destruct x; auto. destruct I7. contradiction.
    - destruct (v_stop c); auto; try tauto; try contradiction. }
  destruct (v_h c) as [|b|b n| |n| |] eqn:Eh; try discriminate.
  - injection F as <-. apply Pos; try discriminate.
    + intros b n. destruct (down c); [destruct (unsaved (v_l c))|destruct (_ <? _)]; discriminate.
    + unfold down. destruct (v_stop c); try discriminate. destruct (_ <? _); discriminate.
    + unfold down. destruct (v_stop c) eqn:Es; try discriminate. destruct (p_flush p <? _) eqn:El; [discriminate|]. intros _ _. apply Nat.ltb_ge in El. exact El.
  - destruct (unsaved (v_l c)) as [x|] eqn:Eu; injection F as <-.
    + destruct (unsaved_some _ _ Eu) as (A & B & _). pose proof (mark_un _ _ (q_nd _ G) A B) as M.
      assert (Hn : l_hand (v_l c) = None) by (apply NH; discriminate).
      constructor; vfields; unfold l_front; cbn [l_q l_sav l_hand]; auto.
      * unfold fresh_items, hand_n, busy in *. cbn [l_q l_hand l_sav]. rewrite Hn in I1. rewrite mark_len. lia.
      * rewrite mark_len. exact I2.
      * split; [discriminate|eauto].
      * intros i y E. specialize (I7 i y E). destruct y; auto. destruct I7. discriminate.
      * discriminate.
      * destruct (v_stop c); auto; try discriminate I9; try (destruct I9; discriminate).
      * discriminate.
    + apply Pos; try discriminate; destruct b; discriminate.
  - destruct (l_hand (v_l c)) as [id|] eqn:Ehd; [|discriminate]. destruct (find_item id _) as [x|] eqn:Ef; [|discriminate].
    destruct (nth_error (l_sav (v_l c)) j) as [[|]|] eqn:Ej; try discriminate. destruct (nth_error (v_sv c) j) as [[| |]|] eqn:Es; try discriminate.
    injection F as <-. pose proof (wsum_upd busy1 _ _ _ (Some (x, false)) Ej) as W. cbn [busy1] in W.
    constructor; vfields; unfold l_send; cbn [l_q l_sav l_hand]; auto.
    + unfold fresh_items, hand_n, busy in *. cbn [l_q l_hand l_sav]. rewrite Ehd in I1. lia.
    + split; [|congruence]. intros (b' & n' & C). destruct b; discriminate.
    + rewrite len_upd. exact I6.
    + intros i y E. specialize (I7 i y E). destruct y; auto.
      * destruct I7 as (z & Z). exists z. rewrite nth_set. destruct (Nat.eq_dec j i) as [<-|]; [congruence|exact Z].
      * destruct I7. discriminate.
    + destruct b; discriminate.
    + destruct (v_stop c); auto; try discriminate I9; try (destruct I9; discriminate).
    + destruct b; discriminate.
  - injection F as <-. apply Pos; discriminate.
  - injection F as <-. apply Pos; try discriminate; destruct (_ <? _); discriminate.
Qed.

(** a saver *)
Lemma v_saver p c j f c' : QInv (v_l c) -> VInv p c -> fire_sav p c j f = Some c' -> VInv p c'.
Proof.
  intros G [I1 I2 I3 I4 I5 I6 I7 I8 I9 I10] F. unfold fire_sav in F.
  destruct (nth_error (l_sav (v_l c)) j) as [[(x & [|])|]|] eqn:Ej; try discriminate;
  destruct (nth_error (v_sv c) j) as [[| |]|] eqn:Es; try discriminate.
  - (* token *)
    destruct (v_tok c <? p_max p) eqn:El; [|discriminate]. apply Nat.ltb_lt in El. injection F as <-.
    pose proof (wsum_upd ret1 _ _ _ SvRet Es) as W. cbn [ret1] in W.
    constructor; vfields; auto; try lia.
    + rewrite len_upd. exact I6.
    + intros i y E. apply nth_upd_cases in E as [(-> & -> & _)|(_ & E)]; [eauto|exact (I7 i y E)].
    + destruct (v_stop c); auto. destruct I9 as (A & B). apply B in Es. discriminate.
  - (* remove *)
    injection F as <-. pose proof (wsum_upd ret1 _ _ _ SvRun Es) as W. cbn [ret1] in W.
    pose proof (wsum_upd busy1 _ _ _ None Ej) as W2. cbn [busy1] in W2.
    destruct (q_sav _ G _ _ _ Ej) as (Hx & Hsv). destruct (drop_count _ _ (q_nd _ G) Hx Hsv) as (D1 & D2).
    constructor; vfields; unfold l_done; cbn [l_q l_sav l_hand]; auto; try lia.
    + unfold fresh_items, hand_n, busy in *. cbn [l_q l_hand l_sav]. lia.
    + rewrite !len_upd. exact I6.
    + intros i y E. apply nth_upd_cases in E as [(-> & -> & _)|(Hne & E)]; [exact I|]. specialize (I7 i y E).
      destruct y; auto; rewrite nth_set; destruct (Nat.eq_dec j i); try congruence; exact I7.
    + destruct (v_stop c); auto. destruct I9 as (A & B). apply B in Es. discriminate.
  - (* store call *)
    injection F as <-. pose proof (wsum_upd busy1 _ _ _ (Some (x, true)) Ej) as W. cbn [busy1] in W.
    constructor; vfields; unfold l_write; cbn [l_q l_sav l_hand]; auto.
    + unfold fresh_items, hand_n, busy in *. cbn [l_q l_hand l_sav]. lia.
    + rewrite len_upd. exact I6.
    + intros i y E. specialize (I7 i y E). destruct y; auto; rewrite nth_set; destruct (Nat.eq_dec j i) as [<-|]; try congruence; exact I7.
  - (* leaves *)
    destruct (v_h c) eqn:Eh; try discriminate. injection F as <-.
    pose proof (wsum_upd ret1 _ _ _ SvGone Es) as W. cbn [ret1] in W.
    constructor; vfields; rewrite ?Eh; auto; try lia.
    + rewrite len_upd. exact I6.
    + intros i y E. apply nth_upd_cases in E as [(-> & -> & _)|(_ & E)]; [auto|exact (I7 i y E)].
    + destruct (v_stop c); auto. split; [reflexivity|]. intros i y E. apply nth_upd_cases in E as [(-> & -> & _)|(_ & E)]; [auto|destruct I9 as (_ & B); eauto].
Qed.

(** Shutdown *)
Lemma v_stopping p c c' : VInv p c -> fire_stop p c = Some c' -> VInv p c'.
Proof.
  intros [I1 I2 I3 I4 I5 I6 I7 I8 I9 I10] F. unfold fire_stop in F.
  destruct (v_stop c) as [| |n| | |] eqn:Es; try discriminate.
  - injection F as <-. constructor; vfields; auto; try discriminate.
  - injection F as <-. constructor; vfields; auto; try discriminate.
  - cbn in I2, I4. destruct (n <? p_max p) eqn:El.
    + apply Nat.ltb_lt in El. destruct (v_tok c) as [|t] eqn:Et; [discriminate|]. injection F as <-.
      constructor; vfields; cbn [drained]; auto; try lia; discriminate.
    + apply Nat.ltb_ge in El. injection F as <-. constructor; vfields; cbn [drained]; auto; try lia; discriminate.
  - destruct (v_h c) eqn:Eh; try discriminate. injection F as <-. constructor; vfields; rewrite ?Eh; auto; discriminate.
  - destruct (forallb is_gone (v_sv c)) eqn:Eg; [|discriminate]. injection F as <-. constructor; vfields; auto; try discriminate.
    split; [exact I9|]. intros j x E. apply nth_error_In in E. rewrite forallb_forall in Eg. apply Eg in E. destruct x; try discriminate. reflexivity.
Qed.

Lemma v_step p mf K c x e c' : QInv (v_l c) -> VInv p c -> may mf K x -> vfire p c x = Some (e, c') -> VInv p c'.
Proof.
  intros G I M F. destruct x as [k v|i|k|n f|j| | | |j f|]; cbn [vfire] in F.
  - destruct (down c) eqn:Ed; [discriminate|]. injection F as <- <-. destruct I as [I1 I2 I3 I4 I5 I6 I7 I8 I9 I10].
    constructor; vfields; auto.
    + rewrite wsum_app. cbn. lia.
    + intros H1 H2 H3 H4. apply I10; auto. intros i C. apply (H4 i). rewrite nth_error_app1; [exact C|]. apply nth_error_Some. congruence.
  - eapply v_call; eauto.
  - destruct (l_get (v_l c) k) as (y & l) eqn:El. injection F as <- <-. 
    assert (L : l_q l = l_q (v_l c) /\ l_hand l = l_hand (v_l c) /\ l_sav l = l_sav (v_l c)).
    { unfold l_get in El. destruct (pending _ _) as [z|]; [destruct (skey_dec _ _)|]; injection El as <- <-; auto. }
    destruct L as (L1 & L2 & L3). destruct I as [I1 I2 I3 I4 I5 I6 I7 I8 I9 I10].
    constructor; vfields; unfold fresh_items, hand_n, busy in *; rewrite ?L1, ?L2, ?L3; auto.
  - destruct (l_ans (v_l c) n f) as [(y & l)|] eqn:El; [|discriminate]. injection F as <- <-.
    assert (L : l_q l = l_q (v_l c) /\ l_hand l = l_hand (v_l c) /\ l_sav l = l_sav (v_l c)).
    { unfold l_ans in El. destruct (find _ _) as [(a & b)|]; [|discriminate]. injection El as <- <-. auto. }
    destruct L as (L1 & L2 & L3). destruct I as [I1 I2 I3 I4 I5 I6 I7 I8 I9 I10].
    constructor; vfields; unfold fresh_items, hand_n, busy in *; rewrite ?L1, ?L2, ?L3; auto.
  - destruct (fire_hand p c j) eqn:E; [|discriminate]. injection F as <- <-. eapply v_hand; eauto.
  - destruct (v_h c) eqn:Eh; try discriminate. injection F as <- <-. destruct I as [I1 I2 I3 I4 I5 I6 I7 I8 I9 I10].
    constructor; vfields; auto; try discriminate.
    + rewrite <- I5, Eh. split; intros (b & n & C); discriminate.
    + intros i y E. specialize (I7 i y E). destruct y; auto. rewrite Eh in I7. destruct I7. discriminate.
    + rewrite Eh in I9. destruct (v_stop c); auto; try discriminate I9; try (destruct I9; discriminate).
  - destruct (v_h c) eqn:Eh; try discriminate. destruct (v_sig c) eqn:Eg; [|discriminate]. injection F as <- <-. destruct I as [I1 I2 I3 I4 I5 I6 I7 I8 I9 I10].
    constructor; vfields; auto; try discriminate.
    + rewrite <- I5, Eh. split; intros (b & n & C); discriminate.
    + intros i y E. specialize (I7 i y E). destruct y; auto. rewrite Eh in I7. destruct I7. discriminate.
    + rewrite Eh in I9. destruct (v_stop c); auto; try discriminate I9; try (destruct I9; discriminate).
  - destruct (v_h c) eqn:Eh; try discriminate. destruct (closed c) eqn:Eg; [|discriminate]. injection F as <- <-. destruct I as [I1 I2 I3 I4 I5 I6 I7 I8 I9 I10].
    constructor; vfields; auto; try discriminate.
    + rewrite <- I5, Eh. split; intros (b & n & C); discriminate.
    + intros i y E. specialize (I7 i y E). destruct y; auto. rewrite Eh in I7. destruct I7. discriminate.
    + rewrite Eh in I9. destruct (v_stop c); auto; try discriminate I9; try (destruct I9; discriminate).
  - destruct (fire_sav p c j f) eqn:E; [|discriminate]. injection F as <- <-. eapply v_saver; eauto.
  - destruct (fire_stop p c) eqn:E; [|discriminate]. injection F as <- <-. eapply v_stopping; eauto.
Qed.
