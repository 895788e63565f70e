(** The delayed-write store: invariants over all schedules. *)
From Coq Require Import Strings.String Strings.Ascii Strings.Byte.
From Verif.Lib Require Import Prelude ListAux.
From Verif.Model Require Import KV MaxSize Lazy.
From Verif.Spec Require Import LazySpec.
From Verif.Proof Require Import KVP MaxSizeP MaxSizeRun.
Open Scope nat_scope.

Lemma first_sep c : forall a b u v, ~ In c (list_ascii_of_string a) -> ~ In c (list_ascii_of_string b) ->
  (a ++ String c u)%string = (b ++ String c v)%string -> a = b /\ u = v.
Proof.
  induction a as [|x a IH]; intros [|y b] u v Ha Hb E; cbn in *.
  - injection E as ->. auto.
  - injection E as E1 E2. exfalso. apply Hb. auto.
  - injection E as E1 E2. exfalso. apply Ha. auto.
  - injection E as E1 E2. destruct (IH b u v) as (-> & ->); auto. subst. auto.
Qed.
Lemma lazy_inj K k1 k2 : plain_sets K -> K k1 -> K k2 -> lazy_key k1 = lazy_key k2 -> k1 = k2.
Proof.
  intros HK H1 H2 E. destruct k1 as [s1 n1], k2 as [s2 n2]. unfold lazy_key in E. cbn in E.
  apply first_sep in E as (-> & ->); [reflexivity|apply (HK _ H1)|apply (HK _ H2)].
Qed.

(** ** the queue *)
Fixpoint lastk (k : skey) (q : list item) : option item :=
  match q with
  | [] => None
  | e :: q => match lastk k q with Some x => Some x | None => if skey_dec (i_key e) k then Some e else None end
  end.
Lemma lastk_app k q e : lastk k (q ++ [e]) = if skey_dec (i_key e) k then Some e else lastk k q.
Proof.
  induction q as [|x q IH]; cbn; [reflexivity|]. rewrite IH. destruct (skey_dec (i_key e) k); reflexivity.
Qed.
Lemma lastk_map k f q : (forall e, i_key (f e) = i_key e) -> lastk k (map f q) = option_map f (lastk k q).
Proof.
  intros H. induction q as [|x q IH]; cbn; [reflexivity|]. rewrite IH, H. destruct (lastk k q); cbn; [reflexivity|].
  destruct (skey_dec (i_key x) k); reflexivity.
Qed.
Lemma lastk_in k q e : lastk k q = Some e -> In e q /\ i_key e = k.
Proof.
  induction q as [|x q IH]; cbn; [discriminate|]. destruct (lastk k q); intros E.
  - destruct (IH E). auto.
  - destruct (skey_dec (i_key x) k); [|discriminate]. injection E as <-. auto.
Qed.
Lemma lastk_none k q : lastk k q = None -> forall e, In e q -> i_key e <> k.
Proof.
  induction q as [|x q IH]; cbn; [intros _ e []|]. destruct (lastk k q); [discriminate|]. intros E e [<-|H].
  - destruct (skey_dec (i_key x) k); [discriminate|assumption].
  - apply IH; auto.
Qed.
Lemma lastk_none_iff k q : (forall e, In e q -> i_key e <> k) -> lastk k q = None.
Proof.
  intros H. destruct (lastk k q) as [e|] eqn:E; [|reflexivity]. apply lastk_in in E as (E1 & E2). destruct (H e E1 E2).
Qed.
Lemma ids_inj q a b : NoDup (map i_id q) -> In a q -> In b q -> i_id a = i_id b -> a = b.
Proof.
  induction q as [|x q IH]; cbn; [contradiction|]. intros Hd [->|Ha] [->|Hb] E; inversion Hd as [|? ? Hn Hd']; subst; auto.
  - destruct Hn. rewrite E. apply in_map, Hb.
  - destruct Hn. rewrite <- E. apply in_map, Ha.
Qed.
Lemma find_item_in q e : NoDup (map i_id q) -> In e q -> find_item (i_id e) q = Some e.
Proof.
  intros Hd He. unfold find_item. destruct (find _ q) as [x|] eqn:E.
  - apply find_some in E as (Hx & E). apply Nat.eqb_eq in E. f_equal. eapply ids_inj; eauto.
  - apply (find_none _ _ E) in He. rewrite Nat.eqb_refl in He. discriminate.
Qed.
Lemma find_item_spec q id e : find_item id q = Some e -> In e q /\ i_id e = id.
Proof. intros E. apply find_some in E as (A & B). apply Nat.eqb_eq in B. auto. Qed.
Lemma lastk_drop k id q e : lastk k q = Some e -> i_id e <> id -> lastk k (drop id q) = Some e.
Proof.
  intros H Hne. induction q as [|x q IH]; [discriminate|].
  change (drop id (x :: q)) with (if negb (Nat.eqb (i_id x) id) then x :: drop id q else drop id q). cbn [lastk] in H.
  destruct (lastk k q) as [y|] eqn:E.
  - injection H as ->. destruct (negb (Nat.eqb (i_id x) id)); cbn [lastk]; rewrite (IH eq_refl); reflexivity.
  - destruct (skey_dec (i_key x) k) as [Ek|]; [|discriminate]. injection H as ->.
    destruct (Nat.eqb_spec (i_id e) id); [congruence|]. cbn [negb lastk].
    rewrite lastk_none_iff; [destruct (skey_dec (i_key e) k); congruence|].
    intros z Hz. apply filter_In in Hz as (Hz & _). eapply lastk_none; eauto.
Qed.
Lemma drop_in id q e : In e (drop id q) <-> In e q /\ i_id e <> id.
Proof.
  unfold drop. rewrite filter_In. destruct (Nat.eqb_spec (i_id e) id); cbn; intuition congruence.
Qed.
Lemma nodup_drop id q : NoDup (map i_id q) -> NoDup (map i_id (drop id q)).
Proof.
  induction q as [|x q IH]; cbn; [auto|]. intros Hd. inversion Hd as [|? ? Hn Hd']; subst.
  destruct (negb _); cbn; [|auto]. constructor; [|auto]. intros C. apply Hn. apply in_map_iff in C as (y & E & Hy).
  apply drop_in in Hy as (Hy & _). rewrite <- E. apply in_map, Hy.
Qed.

Definition setb id v := fun e => if Nat.eqb (i_id e) id then mkI (i_id e) (i_key e) v (i_saving e) else e.
Definition setm id := fun e => if Nat.eqb (i_id e) id then mkI (i_id e) (i_key e) (i_b e) true else e.
Lemma setb_key id v e : i_key (setb id v e) = i_key e. Proof. unfold setb. destruct (Nat.eqb _ _); reflexivity. Qed.
Lemma setb_id id v e : i_id (setb id v e) = i_id e. Proof. unfold setb. destruct (Nat.eqb _ _); reflexivity. Qed.
Lemma setb_sv id v e : i_saving (setb id v e) = i_saving e. Proof. unfold setb. destruct (Nat.eqb _ _); reflexivity. Qed.
Lemma setm_key id e : i_key (setm id e) = i_key e. Proof. unfold setm. destruct (Nat.eqb _ _); reflexivity. Qed.
Lemma setm_id id e : i_id (setm id e) = i_id e. Proof. unfold setm. destruct (Nat.eqb _ _); reflexivity. Qed.
Lemma setm_b id e : i_b (setm id e) = i_b e. Proof. unfold setm. destruct (Nat.eqb _ _); reflexivity. Qed.
Lemma map_ids (f : item -> item) q : (forall e, i_id (f e) = i_id e) -> map i_id (map f q) = map i_id q.
Proof. intros H. rewrite map_map. apply map_ext, H. Qed.

(** ** any number of savers, failures allowed *)
Definition was_set (tr : list levent) (k : skey) (v : option bytes) : Prop := In (LSet k v) tr.
Record GInv (K : skey -> Prop) (s : kv) (tr : list levent) (c : lcfg) : Prop := {
  g_nd : NoDup (map i_id (l_q c));
  g_lt : forall e, In e (l_q c) -> i_id e < l_next c;
  g_k : forall e, In e (l_q c) -> K (i_key e);
  g_idx : forall k id, K k -> l_idx c (lazy_key k) = Some id ->
     exists e, lastk k (l_q c) = Some e /\ i_id e = id /\ i_b e = after s tr k;
  g_val : forall e, In e (l_q c) -> was_set tr (i_key e) (i_b e);
  g_sav : forall j e w, nth_error (l_sav c) j = Some (Some (e, w)) -> In e (l_q c) /\ i_saving e = true;
  g_sj : forall i j e w e' w', nth_error (l_sav c) i = Some (Some (e, w)) -> nth_error (l_sav c) j = Some (Some (e', w')) ->
     i_id e = i_id e' -> i = j;
  g_hand : forall id, l_hand c = Some id -> (exists e, In e (l_q c) /\ i_id e = id /\ i_saving e = true) /\
     forall j e w, nth_error (l_sav c) j = Some (Some (e, w)) -> i_id e <> id;
  g_kv : forall k, l_kv c k = s k \/ was_set tr k (l_kv c k)
}.

Lemma after_app s tr e : after s (tr ++ [e]) = match e with LSet k v => kv_put (after s tr) k v | _ => after s tr end.
Proof. unfold after. rewrite fold_left_app. reflexivity. Qed.

Lemma pending_last K s tr c k e : GInv K s tr c -> K k -> pending c k = Some e ->
  lastk k (l_q c) = Some e /\ i_b e = after s tr k /\ i_key e = k /\ In e (l_q c) /\ l_idx c (lazy_key k) = Some (i_id e).
Proof.
  intros G Kk. unfold pending. destruct (l_idx c (lazy_key k)) as [id|] eqn:E; [|discriminate].
  destruct (g_idx _ _ _ _ G k id Kk E) as (x & Hx & <- & Hb). destruct (lastk_in _ _ _ Hx) as (Hin & Hk).
  rewrite (find_item_in _ _ (g_nd _ _ _ _ G) Hin). intros H. injection H as ->. auto.
Qed.
Lemma pending_none K s tr c k : GInv K s tr c -> K k -> pending c k = None -> l_idx c (lazy_key k) = None.
Proof.
  intros G Kk. unfold pending. destruct (l_idx c (lazy_key k)) as [id|] eqn:E; [|reflexivity].
  destruct (g_idx _ _ _ _ G k id Kk E) as (x & Hx & <- & Hb). destruct (lastk_in _ _ _ Hx) as (Hin & Hk).
  rewrite (find_item_in _ _ (g_nd _ _ _ _ G) Hin). discriminate.
Qed.
Lemma was_mono tr e k v : was_set tr k v -> was_set (tr ++ e) k v.
Proof. intros H. apply in_or_app. auto. Qed.
Lemma set_at_eq {A} (f : string -> A) h v : set_at f h v h = v.
Proof. unfold set_at. destruct (string_dec h h); congruence. Qed.
Lemma set_at_ne {A} (f : string -> A) h v h' : h <> h' -> set_at f h v h' = f h'.
Proof. unfold set_at. destruct (string_dec h h'); congruence. Qed.

Lemma g_add K s tr c k v : plain_sets K -> GInv K s tr c -> K k ->
  GInv K s (tr ++ [LSet k v]) (mkL (l_kv c) (l_q c ++ [mkI (l_next c) k v false])
                 (set_at (l_idx c) (lazy_key k) (Some (l_next c))) (S (l_next c)) (l_hand c) (l_sav c) (l_ask c) (l_nask c)).
Proof.
  intros HK G Kk. destruct G as [G1 G2 G3 G4 G5 G6 G7 G8 G9]. constructor; cbn.
  - rewrite map_app. cbn. apply Permutation_NoDup with (l := l_next c :: map i_id (l_q c)); [apply Permutation_cons_append|].
    constructor; [|exact G1]. intros C. apply in_map_iff in C as (e & E & He). apply G2 in He. lia.
  - intros e He. apply in_app_or in He as [He|[<-|[]]]; [apply G2 in He; lia|cbn; lia].
  - intros e He. apply in_app_or in He as [He|[<-|[]]]; [auto|exact Kk].
  - intros k' id Kk' E. rewrite lastk_app, after_app. cbn. destruct (skey_dec k k') as [<-|Hne].
    + rewrite set_at_eq in E. injection E as <-. eexists. split; [reflexivity|]. cbn. split; [reflexivity|]. symmetry. apply kv_put_eq.
    + rewrite set_at_ne in E by (intros C; apply Hne; eapply lazy_inj; eauto). rewrite kv_put_ne by exact Hne. apply G4; assumption.
  - intros e He. apply in_app_or in He as [He|[<-|[]]]; [apply was_mono; auto|]. cbn. apply in_or_app. right. left. reflexivity.
  - intros j e w E. destruct (G6 _ _ _ E). split; [apply in_or_app; auto|assumption].
  - exact G7.
  - intros id E. destruct (G8 _ E) as ((e & A & B) & C). split; [exists e; split; [apply in_or_app; auto|exact B]|exact C].
  - intros k'. destruct (G9 k') as [A|A]; [auto|right; apply was_mono, A].
Qed.

Lemma g_step K s tr c mf e c' : plain_sets K -> GInv K s tr c -> lstep mf K c e c' ->
  GInv K s (tr ++ match e with Some x => [x] | None => [] end) c'.
Proof.
  intros HK G S.
  assert (NoSet : forall x, (forall k v, x <> LSet k v) -> forall c', l_kv c' = l_kv c -> l_q c' = l_q c -> l_idx c' = l_idx c ->
     l_next c' = l_next c -> l_hand c' = l_hand c -> l_sav c' = l_sav c -> GInv K s (tr ++ [x]) c').
  { intros x Hx c2 E1 E2 E3 E4 E5 E6. destruct G as [G1 G2 G3 G4 G5 G6 G7 G8 G9]. constructor; rewrite ?E1, ?E2, ?E3, ?E4, ?E5, ?E6; auto.
    - intros k id Kk E. rewrite after_app. destruct x; try (apply G4; assumption). exfalso. eapply Hx; reflexivity.
    - intros y Hy. apply was_mono; auto.
    - intros k. destruct (G9 k) as [A|A]; [auto|right; apply was_mono, A]. }
  inversion S as [c0 k v Kk|c0 k x Kk Hp Hk|c0 k Kk Hp|c0 n k f Hin Hf|c0 x Hh Hfd|c0 id x j Hh Hfd Hj|c0 j x f Hj Hf|c0 j x Hj]; subst; clear S.
  - unfold do_set. destruct (pending c k) as [e|] eqn:Ep; [|apply g_add; assumption].
    destruct (i_saving e) eqn:Es; [apply g_add; assumption|].
    destruct (pending_last _ _ _ _ _ _ G Kk Ep) as (Hl & Hb & Hk & Hin & Hidx).
    destruct G as [G1 G2 G3 G4 G5 G6 G7 G8 G9]. constructor; cbn; fold (setb (i_id e) v); change (put_b (i_id e) v (l_q c)) with (map (setb (i_id e) v) (l_q c)).
    + rewrite map_ids by apply setb_id. exact G1.
    + intros y Hy. apply in_map_iff in Hy as (z & <- & Hz). rewrite setb_id. auto.
    + intros y Hy. apply in_map_iff in Hy as (z & <- & Hz). rewrite setb_key. auto.
    + intros k' id Kk' E. rewrite lastk_map by apply setb_key. rewrite after_app. destruct (skey_dec k k') as [<-|Hne].
      * rewrite Hl. cbn. exists (setb (i_id e) v e). split; [reflexivity|]. rewrite setb_id. split; [congruence|].
        rewrite kv_put_eq. unfold setb. rewrite Nat.eqb_refl. reflexivity.
      * rewrite kv_put_ne by exact Hne. destruct (G4 _ _ Kk' E) as (y & Y1 & Y2 & Y3). rewrite Y1. cbn.
        assert (i_id y <> i_id e). { intros C. destruct (lastk_in _ _ _ Y1) as (Y4 & Y5). apply Hne. rewrite <- Hk, <- Y5. f_equal. symmetry. eapply ids_inj; eauto. }
        exists y. unfold setb. destruct (Nat.eqb_spec (i_id y) (i_id e)); [congruence|]. auto.
    + intros y Hy. apply in_map_iff in Hy as (z & <- & Hz). rewrite setb_key. unfold setb. destruct (Nat.eqb_spec (i_id z) (i_id e)) as [C|C]; cbn.
      * rewrite (ids_inj _ _ _ G1 Hz Hin C), Hk. apply in_or_app. right. left. reflexivity.
      * apply was_mono. auto.
    + intros j y w E. destruct (G6 _ _ _ E) as (A & B). split; [|exact B]. apply in_map_iff. exists y. split; [|exact A].
      unfold setb. destruct (Nat.eqb_spec (i_id y) (i_id e)) as [C|C]; [|reflexivity]. rewrite (ids_inj _ _ _ G1 A Hin C) in B. congruence.
    + exact G7.
    + intros id E. destruct (G8 _ E) as ((y & A & B1 & B2) & C). split; [|exact C]. exists (setb (i_id e) v y). rewrite setb_id, setb_sv. split; [apply in_map, A|auto].
    + intros k'. destruct (G9 k') as [A|A]; [auto|right; apply was_mono, A].
  - apply NoSet; try reflexivity. discriminate.
  - apply NoSet; try reflexivity. discriminate.
  - apply NoSet; try reflexivity. discriminate.
  - rewrite app_nil_r. apply find_some in Hfd as (Hx & Hsv). apply negb_true_iff in Hsv.
    destruct G as [G1 G2 G3 G4 G5 G6 G7 G8 G9]. constructor; cbn; change (mark (i_id x) (l_q c)) with (map (setm (i_id x)) (l_q c)); auto.
    + rewrite map_ids by apply setm_id. exact G1.
    + intros y Hy. apply in_map_iff in Hy as (z & <- & Hz). rewrite setm_id. auto.
    + intros y Hy. apply in_map_iff in Hy as (z & <- & Hz). rewrite setm_key. auto.
    + intros k' id Kk' E. rewrite lastk_map by apply setm_key. destruct (G4 _ _ Kk' E) as (y & Y1 & Y2 & Y3). rewrite Y1. cbn.
      exists (setm (i_id x) y). rewrite setm_id, setm_b. auto.
    + intros y Hy. apply in_map_iff in Hy as (z & <- & Hz). rewrite setm_key, setm_b. auto.
    + intros j y w E. destruct (G6 _ _ _ E) as (A & B). split; [|exact B]. apply in_map_iff. exists y. split; [|exact A].
      unfold setm. destruct (Nat.eqb _ _); [|reflexivity]. rewrite <- B. destruct y; reflexivity.
    + intros id E. injection E as <-. split.
      * exists (setm (i_id x) x). split; [apply in_map, Hx|]. split; [apply setm_id|]. unfold setm. rewrite Nat.eqb_refl. reflexivity.
      * intros j y w E C. destruct (G6 _ _ _ E) as (A & B). rewrite (ids_inj _ _ _ G1 A Hx C) in B. congruence.
  - rewrite app_nil_r. apply find_item_spec in Hfd as (Hx & Hid). destruct G as [G1 G2 G3 G4 G5 G6 G7 G8 G9].
    destruct (G8 _ Hh) as ((y & Y1 & Y2 & Y3) & Y4). assert (y = x) by (eapply ids_inj; eauto; congruence). subst y.
    constructor; cbn; auto.
    + intros i y w E. rewrite nth_set in E. destruct (Nat.eq_dec j i) as [<-|]; [|eapply G6; eauto].
      rewrite Hj in E. cbn in E. injection E as <- <-. auto.
    + intros a b ea wa eb wb Ea Eb E. rewrite nth_set in Ea, Eb. rewrite Hj in Ea, Eb. cbn in Ea, Eb.
      destruct (Nat.eq_dec j a) as [<-|], (Nat.eq_dec j b) as [<-|]; try reflexivity.
      * injection Ea as <- <-. exfalso. apply (Y4 _ _ _ Eb). congruence.
      * injection Eb as <- <-. exfalso. apply (Y4 _ _ _ Ea). congruence.
      * eapply G7; eauto.
    + discriminate.
  - rewrite app_nil_r. destruct G as [G1 G2 G3 G4 G5 G6 G7 G8 G9]. destruct (G6 _ _ _ Hj) as (Hx & Hsv). constructor; cbn; auto.
    + intros i y w E. rewrite nth_set in E. destruct (Nat.eq_dec j i) as [<-|]; [|eapply G6; eauto].
      rewrite Hj in E. cbn in E. injection E as <- <-. auto.
    + intros a b ea wa eb wb Ea Eb E. rewrite nth_set in Ea, Eb. rewrite Hj in Ea, Eb. cbn in Ea, Eb.
      destruct (Nat.eq_dec j a) as [<-|], (Nat.eq_dec j b) as [<-|]; try reflexivity.
      * injection Ea as <- <-. eapply G7; eauto.
      * injection Eb as <- <-. eapply G7; eauto.
      * eapply G7; eauto.
    + intros id E. destruct (G8 _ E) as (A & B). split; [exact A|]. intros i y w E'. rewrite nth_set in E'. rewrite Hj in E'. cbn in E'.
      destruct (Nat.eq_dec j i) as [<-|]; [|eapply B; eauto]. injection E' as <- <-. eapply B; eauto.
    + intros k. destruct (takes f); [|apply G9]. destruct (skey_dec (i_key x) k) as [<-|Hne].
      * rewrite kv_put_eq. right. auto.
      * rewrite kv_put_ne by exact Hne. apply G9.
  - rewrite app_nil_r. destruct G as [G1 G2 G3 G4 G5 G6 G7 G8 G9]. destruct (G6 _ _ _ Hj) as (Hx & Hsv). constructor; cbn; auto.
    + apply nodup_drop, G1.
    + intros y Hy. apply drop_in in Hy as (Hy & _). auto.
    + intros y Hy. apply drop_in in Hy as (Hy & _). auto.
    + intros k id Kk E. assert (E' : l_idx c (lazy_key k) = Some id /\ id <> i_id x).
      { destruct (l_idx c (lazy_key (i_key x))) as [id0|] eqn:E0.
        - destruct (Nat.eqb_spec id0 (i_id x)) as [C|C].
          + destruct (string_dec (lazy_key (i_key x)) (lazy_key k)) as [Ek|Ek]; [rewrite Ek, set_at_eq in E; discriminate|].
            rewrite set_at_ne in E by exact Ek. split; [exact E|]. intros ->. destruct (G4 _ _ Kk E) as (y & Y1 & Y2 & _).
            destruct (lastk_in _ _ _ Y1) as (Y3 & Y4). apply Ek. f_equal. rewrite <- Y4. f_equal. eapply ids_inj; eauto.
          + split; [exact E|]. intros ->. destruct (G4 _ _ Kk E) as (y & Y1 & Y2 & _).
            destruct (lastk_in _ _ _ Y1) as (Y3 & Y4). assert (x = y) by (eapply ids_inj; eauto). subst y. rewrite Y4 in E0. congruence.
        - split; [exact E|]. intros ->. destruct (G4 _ _ Kk E) as (y & Y1 & Y2 & _).
          destruct (lastk_in _ _ _ Y1) as (Y3 & Y4). assert (x = y) by (eapply ids_inj; eauto). subst y. rewrite Y4 in E0. congruence. }
      destruct E' as (E1 & Hne). destruct (G4 _ _ Kk E1) as (y & Y1 & Y2 & Y3). exists y. split; [|auto]. apply lastk_drop; [exact Y1|congruence].
    + intros y Hy. apply drop_in in Hy as (Hy & _). auto.
    + intros i y w E. rewrite nth_set in E. rewrite Hj in E. cbn in E. destruct (Nat.eq_dec j i) as [<-|Hne]; [discriminate|].
      destruct (G6 _ _ _ E) as (A & B). split; [|exact B]. apply drop_in. split; [exact A|]. intros C. apply Hne. eapply G7; eauto.
    + intros a b ea wa eb wb Ea Eb E. rewrite nth_set in Ea, Eb. rewrite Hj in Ea, Eb. cbn in Ea, Eb.
      destruct (Nat.eq_dec j a) as [<-|], (Nat.eq_dec j b) as [<-|]; try discriminate. eapply G7; eauto.
    + intros id E. destruct (G8 _ E) as ((y & Y1 & Y2 & Y3) & B). split.
      * exists y. split; [|auto]. apply drop_in. split; [exact Y1|]. rewrite Y2. intros C. apply (B _ _ _ Hj). congruence.
      * intros i z w E'. rewrite nth_set in E'. rewrite Hj in E'. cbn in E'. destruct (Nat.eq_dec j i); [discriminate|]. eapply B; eauto.
Qed.

Lemma nth_repeat_none {A} n j (e : A) : nth_error (repeat None n) j = Some (Some e) -> False.
Proof. revert j. induction n as [|n IH]; intros [|j]; cbn; try discriminate. apply IH. Qed.
Lemma g_start K s n : GInv K s [] (lstart s n).
Proof.
  constructor; cbn; auto; try contradiction; try discriminate.
  - constructor.
  - intros j e w E. destruct (nth_repeat_none _ _ _ E).
  - intros i j e w e' w' E. destruct (nth_repeat_none _ _ _ E).
Qed.
Lemma g_exec n mf K s tr c : plain_sets K -> lexec n mf K s tr c -> GInv K s tr c.
Proof.
  intros HK E. induction E as [|tr c e c' E IH S]; [apply g_start|]. eapply g_step; eauto.
Qed.
