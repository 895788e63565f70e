(** The delayed-write store with one saver and no failures. *)
From Coq Require Import Strings.String Strings.Ascii Strings.Byte.
From Verif.Lib Require Import Prelude ListAux.
From Verif.Model Require Import KV MaxSize Lazy.
From Verif.Spec Require Import LazySpec.
From Verif.Proof Require Import KVP MaxSizeP MaxSizeRun LazyP.
Open Scope nat_scope.

Record SInv (K : skey -> Prop) (s : kv) (tr : list levent) (c : lcfg) : Prop := {
  s_ord : exists x h rest, l_sav c = [x] /\
     l_q c = match x with Some (e, _) => [e] | None => [] end ++ h ++ rest /\
     match l_hand c with Some id => exists e, h = [e] /\ i_id e = id | None => h = [] end /\
     Forall (fun e => i_saving e = false) rest /\
     match x with Some (e, true) => l_kv c (i_key e) = i_b e | _ => True end;
  s_none : forall k, K k -> l_idx c (lazy_key k) = None -> lastk k (l_q c) = None /\ l_kv c k = after s tr k;
  s_ask : forall n k, In (n, k) (l_ask c) -> K k /\ had s tr n k (l_kv c k) /\
     forall e, In e (l_q c) -> i_key e = k -> had s tr n k (i_b e)
}.

Lemma had_mono s tr t n k v : had s tr n k v -> had s (tr ++ t) n k v.
Proof. intros (t1 & t2 & t3 & -> & H). exists t1, t2, (t3 ++ t). split; [|exact H]. rewrite <- !app_assoc. cbn. rewrite <- app_assoc. reflexivity. Qed.
Lemma had_now s tr n k v0 : had s tr n k v0 -> had s tr n k (after s tr k).
Proof. intros (t1 & t2 & t3 & -> & _). exists t1, (t2 ++ t3), []. rewrite app_nil_r. auto. Qed.
Lemma had_set s tr n k v0 v : had s tr n k v0 -> had s (tr ++ [LSet k v]) n k v.
Proof.
  intros H. apply (had_mono _ _ [LSet k v]) in H. apply had_now in H. rewrite after_app, kv_put_eq in H. exact H.
Qed.
Lemma s_add K s tr c k v : plain_sets K -> SInv K s tr c -> K k ->
  SInv K s (tr ++ [LSet k v]) (mkL (l_kv c) (l_q c ++ [mkI (l_next c) k v false])
                 (set_at (l_idx c) (lazy_key k) (Some (l_next c))) (S (l_next c)) (l_hand c) (l_sav c) (l_ask c) (l_nask c)).
Proof.
  intros HK [S1 S2 S3] Kk. constructor; cbn.
  - destruct S1 as (x & h & rest & A & B & C & D & E). exists x, h, (rest ++ [mkI (l_next c) k v false]).
    split; [exact A|]. split; [rewrite B, <- !app_assoc; reflexivity|]. split; [exact C|]. split; [|exact E].
    apply Forall_app. split; [exact D|]. constructor; [reflexivity|constructor].
  - intros k' Kk' E. destruct (skey_dec k k') as [<-|Hne]; [rewrite set_at_eq in E; discriminate|].
    rewrite set_at_ne in E by (intros C; apply Hne; eapply lazy_inj; eauto). rewrite lastk_app, after_app, kv_put_ne by exact Hne. cbn.
    destruct (skey_dec k k'); [congruence|]. auto.
  - intros n k' Hn. destruct (S3 _ _ Hn) as (A & B & C). split; [exact A|]. split; [apply had_mono, B|].
    intros e He. apply in_app_or in He as [He|[<-|[]]]; intros Ek; [apply had_mono; auto|]. cbn in *. subst k'. eapply had_set; eauto.
Qed.

Lemma s_step K s tr c e c' : plain_sets K -> GInv K s tr c -> SInv K s tr c -> lstep false K c e c' ->
  SInv K s (tr ++ match e with Some x => [x] | None => [] end) c'.
Proof.
  intros HK G I S.
  inversion S as [c0 k v Kk|c0 k x Kk Hp Hk|c0 k Kk Hp|c0 n k f Hin Hf|c0 x Hh Hfd|c0 id x j Hh Hfd Hj|c0 j x f Hj Hf|c0 j x Hj]; subst; clear S.
  - unfold do_set. destruct (pending c k) as [e|] eqn:Ep; [|apply s_add; assumption].
    destruct (i_saving e) eqn:Es; [apply s_add; assumption|].
    destruct (pending_last _ _ _ _ _ _ G Kk Ep) as (Hl & Hb & Hk & Hin & Hidx). pose proof (g_nd _ _ _ _ G) as G1.
    destruct I as [S1 S2 S3]. constructor; cbn; change (put_b (i_id e) v (l_q c)) with (map (setb (i_id e) v) (l_q c)).
    + destruct S1 as (x & h & rest & A & B & C & D & E). exists x, h, (map (setb (i_id e) v) rest).
      assert (Hid : forall y, In y (l_q c) -> i_saving y = true -> setb (i_id e) v y = y).
      { intros y Hy Hsy. unfold setb. destruct (Nat.eqb_spec (i_id y) (i_id e)) as [Q|Q]; [|reflexivity].
        rewrite (ids_inj _ _ _ G1 Hy Hin Q) in Hsy. congruence. }
      split; [exact A|]. split; [|split; [exact C|split; [|exact E]]].
      * rewrite B, !map_app. f_equal; [|f_equal].
        -- destruct x as [(y & w)|]; [|reflexivity]. cbn. rewrite Hid; [reflexivity| |].
           ++ rewrite B. cbn. auto.
           ++ apply (g_sav _ _ _ _ G 0 y w). rewrite A. reflexivity.
        -- destruct (l_hand c) as [id|] eqn:Eh; [|subst h; reflexivity]. destruct C as (y & -> & Hy). cbn. rewrite Hid; [reflexivity| |].
           ++ rewrite B. apply in_or_app. right. cbn. auto.
           ++ destruct (g_hand _ _ _ _ G id Eh) as ((z & Z1 & Z2 & Z3) & _). replace y with z; [exact Z3|]. eapply ids_inj; eauto; [|congruence].
              rewrite B. apply in_or_app. right. cbn. auto.
      * apply Forall_forall. intros y Hy. apply in_map_iff in Hy as (z & <- & Hz). rewrite setb_sv. rewrite Forall_forall in D. auto.
    + intros k' Kk' E. destruct (skey_dec k k') as [<-|Hne]; [congruence|]. destruct (S2 _ Kk' E) as (A & B).
      rewrite lastk_map by apply setb_key. rewrite A, after_app, kv_put_ne by exact Hne. auto.
    + intros n k' Hn. destruct (S3 _ _ Hn) as (A & B & C). split; [exact A|]. split; [apply had_mono, B|].
      intros y Hy. apply in_map_iff in Hy as (z & <- & Hz). rewrite setb_key. intros <-. unfold setb.
      destruct (Nat.eqb_spec (i_id z) (i_id e)) as [Q|Q]; [|apply had_mono; auto].
      rewrite (ids_inj _ _ _ G1 Hz Hin Q) in *. cbn. rewrite Hk in *. eapply had_set; eauto.
  - destruct I as [S1 S2 S3]. constructor; auto.
    + intros k' Kk' E. rewrite after_app. auto.
    + intros n k' Hn. destruct (S3 _ _ Hn) as (A & B & C). split; [exact A|]. split; [apply had_mono, B|]. intros y Hy Ey. apply had_mono. auto.
  - destruct I as [S1 S2 S3]. constructor; cbn; auto.
    + intros k' Kk' E. rewrite after_app. auto.
    + intros n k' [E|Hn].
      * injection E as <- <-.
        assert (Hnone : l_idx c (lazy_key k) = None).
        { eapply pending_none; eauto. destruct (pending c k) as [y|] eqn:Ey; [|reflexivity]. exfalso. apply (Hp y eq_refl).
          eapply pending_last; eauto. }
        destruct (S2 _ Kk Hnone) as (A & B). split; [exact Kk|]. split.
        -- exists tr, [], []. split; [reflexivity|]. rewrite B. unfold after. rewrite fold_left_app. reflexivity.
        -- intros y Hy Ey. destruct (lastk_none _ _ A _ Hy Ey).
      * destruct (S3 _ _ Hn) as (A & B & C). split; [exact A|]. split; [apply had_mono, B|]. intros y Hy Ey. apply had_mono. auto.
  - destruct I as [S1 S2 S3]. constructor; cbn; auto.
    + intros k' Kk' E. rewrite after_app. auto.
    + intros n' k' Hn. apply filter_In in Hn as (Hn & _). destruct (S3 _ _ Hn) as (A & B & C). split; [exact A|]. split; [apply had_mono, B|]. intros y Hy Ey. apply had_mono. auto.
  - rewrite app_nil_r. destruct I as [S1 S2 S3]. pose proof (g_nd _ _ _ _ G) as G1.
    destruct S1 as (y & h & rest & A & B & C & D & E). rewrite Hh in C. subst h. cbn [app] in B.
    assert (Er : exists r2, rest = x :: r2).
    { assert (Hsv : forall z w, y = Some (z, w) -> i_saving z = true). { intros z w ->. apply (g_sav _ _ _ _ G 0 z w). rewrite A. reflexivity. }
      rewrite B in Hfd. destruct y as [(z & w)|]; cbn in Hfd; [rewrite (Hsv z w eq_refl) in Hfd; cbn in Hfd|].
      - destruct rest as [|r rest]; [discriminate|]. cbn in Hfd. inversion D as [|? ? D1 D2]; subst. rewrite D1 in Hfd. injection Hfd as ->. eauto.
      - destruct rest as [|r rest]; [discriminate|]. cbn in Hfd. inversion D as [|? ? D1 D2]; subst. rewrite D1 in Hfd. injection Hfd as ->. eauto. }
    destruct Er as (r2 & ->). inversion D as [|? ? D1 D2]; subst. 
    assert (Hoth : forall z, In z (match y with Some (e, _) => [e] | None => [] end ++ r2) -> setm (i_id x) z = z).
    { intros z Hz. unfold setm. destruct (Nat.eqb_spec (i_id z) (i_id x)) as [Q|Q]; [|reflexivity]. exfalso.
      rewrite B, map_app in G1. cbn in G1. apply NoDup_remove_2 in G1. apply G1. rewrite <- Q, <- map_app. apply in_map, Hz. }
    constructor; cbn; change (mark (i_id x) (l_q c)) with (map (setm (i_id x)) (l_q c)).
    + exists y, [setm (i_id x) x], r2. split; [exact A|]. split; [|split; [|split; [exact D2|exact E]]].
      * rewrite B, map_app. cbn. f_equal; [|f_equal].
        -- destruct y as [(z & w)|]; [|reflexivity]. cbn. rewrite Hoth; [reflexivity|]. cbn. auto.
        -- rewrite <- (map_id r2) at 2. apply map_ext_in. intros z Hz. apply Hoth. apply in_or_app. auto.
      * eexists. split; [reflexivity|apply setm_id].
    + intros k Kk Ek. rewrite lastk_map by apply setm_key. destruct (S2 _ Kk Ek) as (P & Q). rewrite P. auto.
    + intros n k Hn. destruct (S3 _ _ Hn) as (P & Q & R). split; [exact P|]. split; [exact Q|].
      intros z Hz. apply in_map_iff in Hz as (w & <- & Hw). rewrite setm_key, setm_b. auto.
  - rewrite app_nil_r. destruct I as [S1 S2 S3]. destruct S1 as (y & h & rest & A & B & C & D & E). rewrite Hh in C. destruct C as (z & -> & Hz).
    rewrite A in Hj. destruct j as [|[|]]; try discriminate. cbn in Hj. injection Hj as ->. constructor; cbn; auto.
    apply find_item_spec in Hfd as (Hx & Hid). assert (z = x). { eapply (ids_inj _ _ _ (g_nd _ _ _ _ G)); eauto; [|congruence]. rewrite B. cbn. auto. }
    subst z. exists (Some (x, false)), [], rest. rewrite A, B. cbn. auto.
  - rewrite app_nil_r. destruct I as [S1 S2 S3]. destruct S1 as (y & h & rest & A & B & C & D & E).
    rewrite A in Hj. destruct j as [|[|]]; try discriminate. cbn in Hj. injection Hj as ->.
    assert (Ef : takes f = true) by (destruct f; try reflexivity; discriminate (Hf eq_refl)). rewrite Ef.
    constructor; cbn; auto.
    + exists (Some (x, true)), h, rest. rewrite A, B. cbn. split; [reflexivity|]. split; [reflexivity|]. split; [exact C|]. split; [exact D|]. apply kv_put_eq.
    + intros k Kk Ek. destruct (S2 _ Kk Ek) as (P & Q). split; [exact P|]. rewrite kv_put_ne; [exact Q|]. eapply lastk_none; eauto. rewrite B. cbn. auto.
    + intros n k Hn. destruct (S3 _ _ Hn) as (P & Q & R). split; [exact P|]. split; [|exact R].
      destruct (skey_dec (i_key x) k) as [<-|Hne].
      * rewrite kv_put_eq. apply R; [|reflexivity]. rewrite B. cbn. auto.
      * rewrite kv_put_ne by exact Hne. exact Q.
  - rewrite app_nil_r. destruct I as [S1 S2 S3]. destruct S1 as (y & h & rest & A & B & C & D & E). pose proof (g_nd _ _ _ _ G) as G1.
    rewrite A in Hj. destruct j as [|[|]]; try discriminate. cbn in Hj. injection Hj as ->. cbn [app] in B.
    assert (Ed : drop (i_id x) (l_q c) = h ++ rest).
    { rewrite B. cbn. rewrite Nat.eqb_refl. cbn. rewrite B in G1. cbn in G1. inversion G1 as [|? ? Hn Hd]; subst.
      clear - Hn. induction (h ++ rest) as [|z q IH]; [reflexivity|]. cbn in *. destruct (Nat.eqb_spec (i_id z) (i_id x)) as [Q|Q]; [exfalso; auto|]. cbn. f_equal. auto. }
    constructor; cbn; rewrite ?Ed.
    + exists None, h, rest. rewrite A. cbn. auto.
    + intros k Kk Ek.
      assert (Hx : In x (l_q c)) by (rewrite B; cbn; auto). pose proof (g_k _ _ _ _ G _ Hx) as Kx.
      destruct (string_dec (lazy_key (i_key x)) (lazy_key k)) as [El|El].
      * assert (i_key x = k) by (eapply lazy_inj; eauto). subst k.
        destruct (l_idx c (lazy_key (i_key x))) as [id|] eqn:E0.
        -- destruct (Nat.eqb_spec id (i_id x)) as [Q|Q].
           ++ destruct (g_idx _ _ _ _ G _ _ Kx E0) as (z & Z1 & Z2 & Z3). destruct (lastk_in _ _ _ Z1) as (Z4 & _).
              assert (z = x) by (eapply ids_inj; eauto; congruence). subst z. split; [|congruence].
              rewrite B in Z1. cbn [lastk] in Z1. destruct (lastk (i_key x) (h ++ rest)) as [z|] eqn:Ez; [|reflexivity]. exfalso.
              injection Z1 as ->. apply lastk_in in Ez as (Ez & _). rewrite B in G1. cbn in G1. inversion G1 as [|? ? Hn _]; subst. apply Hn, in_map, Ez.
           ++ congruence.
        -- destruct (S2 _ Kx E0) as (P & _). destruct (lastk_none _ _ P _ Hx eq_refl).
      * assert (E0 : l_idx c (lazy_key k) = None).
        { destruct (match l_idx c (lazy_key (i_key x)) with Some id => Nat.eqb id (i_id x) | None => false end); [rewrite set_at_ne in Ek by exact El|]; exact Ek. }
        destruct (S2 _ Kk E0) as (P & Q). split; [|exact Q]. apply lastk_none_iff. intros z Hz. eapply lastk_none; eauto. rewrite B. cbn. auto.
    + intros n k Hn. destruct (S3 _ _ Hn) as (P & Q & R). split; [exact P|]. split; [exact Q|]. intros z Hz. apply R. rewrite B. cbn. auto.
Qed.
Lemma s_exec K s tr c : plain_sets K -> lexec 1 false K s tr c -> SInv K s tr c.
Proof.
  intros HK E. induction E as [|tr c e c' E IH S].
  - constructor; cbn.
    + exists None, [], []. repeat split; constructor.
    + auto.
    + contradiction.
  - eapply s_step; eauto. eapply g_exec; eauto.
Qed.

(** ** what is seen *)
Lemma exec_split n mf K s tr c : lexec n mf K s tr c -> forall t1 e t2, tr = t1 ++ e :: t2 ->
  exists c1 c2, lexec n mf K s t1 c1 /\ lstep mf K c1 (Some e) c2.
Proof.
  induction 1 as [|tr c x c' E IH S]; intros t1 e t2 Et; [destruct t1; discriminate|].
  destruct x as [x|]; [|rewrite app_nil_r in Et; eapply IH; eauto].
  destruct t2 as [|y t2] using rev_ind.
  - apply app_inj_tail in Et as (-> & ->). eauto.
  - clear IHt2. change (e :: t2 ++ [y]) with ((e :: t2) ++ [y]) in Et. rewrite app_assoc in Et. apply app_inj_tail in Et as (-> & ->). eapply IH; eauto.
Qed.

Lemma ask_fresh n mf K s tr c : lexec n mf K s tr c -> NoDup (asks tr) /\ forall i, In i (asks tr) -> i < l_nask c.
Proof.
  induction 1 as [|tr c x c' E IH S]; [split; [constructor|contradiction]|].
  destruct IH as (A & B). unfold asks. rewrite flat_map_app. fold (asks tr).
  inversion S; subst; cbn; rewrite ?app_nil_r; try (split; assumption).
  - unfold do_set. destruct (pending c k); [destruct (i_saving i)|]; cbn; auto.
  - split.
    + apply Permutation_NoDup with (l := l_nask c :: asks tr); [apply Permutation_cons_append|]. constructor; [|exact A].
      intros C. apply B in C. lia.
    + intros i Hi. apply in_app_or in Hi as [Hi|[<-|[]]]; [apply B in Hi; lia|lia].
Qed.

Lemma c37_hit n mf K s tr c t1 k v t2 : plain_sets K -> lexec n mf K s tr c -> tr = t1 ++ LHit k v :: t2 -> v = after s t1 k.
Proof.
  intros HK E Et. destruct (exec_split _ _ _ _ _ _ E _ _ _ Et) as (c1 & c2 & E1 & S).
  inversion S; subst. eapply pending_last; eauto. eapply g_exec; eauto.
Qed.
Lemma c37_store n mf K s tr c k : plain_sets K -> lexec n mf K s tr c -> l_kv c k = s k \/ In (LSet k (l_kv c k)) tr.
Proof. intros HK E. apply (g_kv _ _ _ _ (g_exec _ _ _ _ _ _ HK E)). Qed.
Lemma ans_inv mf K c i k r c2 : lstep mf K c (Some (LAns i k r)) c2 ->
  exists f, In (i, k) (l_ask c) /\ (works f = false -> mf = true) /\ r = if works f then Some (l_kv c k) else None.
Proof. intros S. inversion S; subst. eauto. Qed.
Lemma c37_ans n mf K s tr c t1 i k v t2 : plain_sets K -> lexec n mf K s tr c -> tr = t1 ++ LAns i k (Some v) :: t2 ->
  v = s k \/ In (LSet k v) t1.
Proof.
  intros HK E Et. destruct (exec_split _ _ _ _ _ _ E _ _ _ Et) as (c1 & c2 & E1 & S).
  apply ans_inv in S as (f & _ & _ & Ev). destruct (works f); [|discriminate]. injection Ev as ->. eapply c37_store; eauto.
Qed.
Lemma c36_ans K s tr c t1 i k r t2 : plain_sets K -> lexec 1 false K s tr c -> tr = t1 ++ LAns i k r :: t2 ->
  exists v, r = Some v /\ had s t1 i k v /\ NoDup (asks t1).
Proof.
  intros HK E Et. destruct (exec_split _ _ _ _ _ _ E _ _ _ Et) as (c1 & c2 & E1 & S).
  apply ans_inv in S as (f & Hin & Hf & Ev). subst r. assert (Ew : works f = true) by (destruct f; [reflexivity|discriminate (Hf eq_refl)..]).
  rewrite Ew. eexists. split; [reflexivity|]. split; [|apply (ask_fresh _ _ _ _ _ _ E1)]. eapply (s_ask _ _ _ _ (s_exec _ _ _ _ HK E1)). exact Hin.
Qed.
Lemma c36_drained K s tr c : plain_sets K -> lexec 1 false K s tr c -> l_q c = [] -> forall k, K k -> l_kv c k = after s tr k.
Proof.
  intros HK E Hq k Kk. apply (s_none _ _ _ _ (s_exec _ _ _ _ HK E)); [exact Kk|].
  destruct (l_idx c (lazy_key k)) as [id|] eqn:Ei; [|reflexivity].
  destruct (g_idx _ _ _ _ (g_exec _ _ _ _ _ _ HK E) _ _ Kk Ei) as (x & Hx & _). rewrite Hq in Hx. discriminate.
Qed.

(** ** running a schedule, for examples *)
Inductive lchoice := CSet (k : skey) (v : option bytes) | CGet (k : skey) | CAns (n : nat) | CFront | CSend (j : nat) | CWrite (j : nat) (f : fate) | CDone (j : nat).
Definition lrun1 (c : lcfg) (x : lchoice) : option (option levent * lcfg) :=
  match x with
  | CSet k v => Some (Some (LSet k v), do_set c k v)
  | CGet k => match pending c k with
              | Some e => if skey_dec (i_key e) k then Some (Some (LHit k (i_b e)), c) else
                 Some (Some (LAsk (l_nask c) k), mkL (l_kv c) (l_q c) (l_idx c) (l_next c) (l_hand c) (l_sav c) ((l_nask c, k) :: l_ask c) (S (l_nask c)))
              | None => Some (Some (LAsk (l_nask c) k), mkL (l_kv c) (l_q c) (l_idx c) (l_next c) (l_hand c) (l_sav c) ((l_nask c, k) :: l_ask c) (S (l_nask c)))
              end
  | CAns n => match find (fun x => Nat.eqb (fst x) n) (l_ask c) with
              | Some (n', k) => Some (Some (LAns n' k (Some (l_kv c k))),
                  mkL (l_kv c) (l_q c) (l_idx c) (l_next c) (l_hand c) (l_sav c) (filter (fun x => negb (Nat.eqb (fst x) n')) (l_ask c)) (l_nask c))
              | None => None
              end
  | CFront => match l_hand c, find (fun e => negb (i_saving e)) (l_q c) with
              | None, Some e => Some (None, mkL (l_kv c) (mark (i_id e) (l_q c)) (l_idx c) (l_next c) (Some (i_id e)) (l_sav c) (l_ask c) (l_nask c))
              | _, _ => None
              end
  | CSend j => match l_hand c with
               | Some id => match find_item id (l_q c), nth_error (l_sav c) j with
                            | Some e, Some None => Some (None, mkL (l_kv c) (l_q c) (l_idx c) (l_next c) None (upd_nth j (fun _ => Some (e, false)) (l_sav c)) (l_ask c) (l_nask c))
                            | _, _ => None
                            end
               | None => None
               end
  | CWrite j f => match nth_error (l_sav c) j with
                  | Some (Some (e, false)) => Some (None, mkL (if takes f then kv_put (l_kv c) (i_key e) (i_b e) else l_kv c) (l_q c) (l_idx c) (l_next c)
                       (l_hand c) (upd_nth j (fun _ => Some (e, true)) (l_sav c)) (l_ask c) (l_nask c))
                  | _ => None
                  end
  | CDone j => match nth_error (l_sav c) j with
               | Some (Some (e, true)) => Some (None, mkL (l_kv c) (drop (i_id e) (l_q c))
           (if match l_idx c (lazy_key (i_key e)) with Some id => Nat.eqb id (i_id e) | None => false end
            then set_at (l_idx c) (lazy_key (i_key e)) None else l_idx c)
           (l_next c) (l_hand c) (upd_nth j (fun _ => None) (l_sav c)) (l_ask c) (l_nask c))
               | _ => None
               end
  end.
Definition lrun (s : kv) (nsav : nat) (xs : list lchoice) : list levent * lcfg :=
  fold_left (fun '(tr, c) x => match lrun1 c x with
                               | Some (e, c') => (tr ++ match e with Some x => [x] | None => [] end, c')
                               | None => (tr, c)
                               end) xs ([], lstart s nsav).
Definition choice_ok (mf : bool) (K : skey -> Prop) (x : lchoice) : Prop :=
  match x with CSet k _ | CGet k => K k | CWrite _ f => works f = false -> mf = true | _ => True end.
Lemma lrun_ok s nsav mf K xs : Forall (choice_ok mf K) xs -> lexec nsav mf K s (fst (lrun s nsav xs)) (snd (lrun s nsav xs)).
Proof.
  unfold lrun. intros H. assert (L : forall tr c, lexec nsav mf K s tr c -> 
    let p := fold_left (fun '(tr, c) x => match lrun1 c x with
                               | Some (e, c') => (tr ++ match e with Some x => [x] | None => [] end, c')
                               | None => (tr, c) end) xs (tr, c) in lexec nsav mf K s (fst p) (snd p)).
  { induction H as [|x xs Hx Hxs IH]; intros tr c E; [exact E|]. cbn [fold_left].
    destruct (lrun1 c x) as [(e & c')|] eqn:Er; [|apply IH, E]. apply IH. apply (Lx_step nsav mf K s tr c e c' E). clear - Er Hx.
    destruct x as [k v|k|n| |j|j f|j]; cbn in Er, Hx.
    - injection Er as <- <-. constructor. exact Hx.
    - destruct (pending c k) as [x|] eqn:Ep; [destruct (skey_dec (i_key x) k) as [Q|Q]|]; injection Er as <- <-.
      + apply Lz_hit; assumption.
      + apply Lz_ask; [exact Hx|]. congruence.
      + apply Lz_ask; [exact Hx|]. congruence.
    - destruct (find _ (l_ask c)) as [(n' & k)|] eqn:Ef; [|discriminate]. apply find_some in Ef as (Ef & _).
      injection Er as <- <-. apply (Lz_ans mf K c n' k Good Ef). discriminate.
    - destruct (l_hand c) eqn:Eh; [discriminate|]. destruct (find _ (l_q c)) eqn:Ef; [|discriminate]. injection Er as <- <-. constructor; assumption.
    - destruct (l_hand c) eqn:Eh; [|discriminate]. destruct (find_item _ _) eqn:Ef; [|discriminate]. destruct (nth_error _ j) as [[|]|] eqn:En; try discriminate.
      injection Er as <- <-. econstructor; eauto.
    - destruct (nth_error _ j) as [[(x & [|])|]|] eqn:En; try discriminate. injection Er as <- <-. apply Lz_write; assumption.
    - destruct (nth_error _ j) as [[(x & [|])|]|] eqn:En; try discriminate. injection Er as <- <-. apply Lz_done; assumption. }
  apply L. constructor.
Qed.
