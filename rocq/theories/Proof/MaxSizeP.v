(** The size-limiting store refines the map of Spec/MaxSizeSpec.v. *)
From Coq Require Import Strings.String Strings.Ascii Strings.Byte.
From Verif.Lib Require Import Prelude.
From Verif.Model Require Import KV MaxSize.
From Verif.Spec Require Import MaxSizeSpec.
From Verif.Proof Require Import KVP.
Open Scope N_scope.

Definition fp (k x : skey) : Prop := exists j, x = part_key k j.
Lemma plus_not_digit : ~ In "+"%char ["0"; "1"; "2"; "3"; "4"; "5"; "6"; "7"; "8"; "9"]%char.
Proof. cbn. intros H. repeat (destruct H as [H|H]; [discriminate|]). exact H. Qed.
Lemma ext_inj k1 k2 n m : ext_key k1 n = ext_key k2 m -> k1 = k2 /\ n = m.
Proof.
  unfold ext_key. destruct k1 as [s1 k1], k2 as [s2 k2]; cbn. intros E. injection E as -> E.
  destruct (last_sep "+" _ _ _ _ (itoa_no_char _ n plus_not_digit) (itoa_no_char _ m plus_not_digit) E) as (-> & E').
  apply itoa_inj in E'. auto.
Qed.
Lemma str_len_app a b : String.length (a ++ b) = (String.length a + String.length b)%nat.
Proof. induction a as [|x a IH]; cbn; [reflexivity|]. rewrite IH. reflexivity. Qed.
Lemma ext_ne k n : k <> ext_key k n.
Proof.
  destruct k as [s k]. unfold ext_key. cbn. intros E. injection E as E. apply (f_equal String.length) in E.
  rewrite !str_len_app in E. cbn in E. lia.
Qed.
Lemma part_inj k i j : part_key k i = part_key k j -> i = j.
Proof.
  destruct i as [|i], j as [|j]; cbn [part_key]; intros E.
  - reflexivity.
  - exfalso. exact (ext_ne _ _ E).
  - exfalso. exact (ext_ne _ _ (eq_sym E)).
  - apply ext_inj in E as (_ & E). lia.
Qed.
Lemma fp_disjoint (K : skey -> Prop) k1 k2 x : no_clash K -> K k1 -> K k2 -> fp k1 x -> fp k2 x -> k1 = k2.
Proof.
  intros HK H1 H2 (i & E1) (j & E2). subst x. destruct i as [|i], j as [|j]; cbn [part_key] in E2.
  - exact E2.
  - exfalso. destruct k1 as [s1 k1], k2 as [s2 k2]. unfold ext_key in E2; cbn in E2. injection E2 as E3 E4.
    exact (HK _ _ (N.of_nat j) H1 H2 E3 E4).
  - exfalso. destruct k1 as [s1 k1], k2 as [s2 k2]. unfold ext_key in E2; cbn in E2. injection E2 as E3 E4.
    exact (HK _ _ (N.of_nat i) H2 H1 (eq_sym E3) (eq_sym E4)).
  - apply ext_inj in E2 as (E & _). exact E.
Qed.
Lemma fp_ext k n : fp k (ext_key k n).
Proof. exists (S (N.to_nat n)). cbn [part_key]. rewrite N2Nat.id. reflexivity. Qed.
Lemma fp_self k : fp k k.
Proof. exists O. reflexivity. Qed.

(** ** weakest preconditions of a program that stays within the keys of [k] *)
Fixpoint wp (maxsize : nat) (k : skey) (J : kv -> Prop) (p : prog mres) (s : kv) (fl : bool) (Q : mres -> kv -> bool -> Prop) : Prop :=
  J s /\
  match p with
  | Ret r => Q r s fl
  | SGet x c => fp k x /\ wp maxsize k J (c (Some (s x))) s fl Q /\ wp maxsize k J (c None) s true Q
  | SPut x v c => fp k x /\ (length v <= maxsize)%nat /\ wp maxsize k J (c true) (kv_put s x (Some v)) fl Q /\
                  wp maxsize k J (c false) s true Q /\ wp maxsize k J (c false) (kv_put s x (Some v)) true Q
  | SDel x c => fp k x /\ wp maxsize k J (c true) (kv_put s x None) fl Q /\
                wp maxsize k J (c false) s true Q /\ wp maxsize k J (c false) (kv_put s x None) true Q
  | HGet h c => h = map_key k /\ forall n, wp maxsize k J (c n) s fl Q
  | HPut h _ c => h = map_key k /\ wp maxsize k J c s fl Q
  end.
Definition same_on (k : skey) (s s' : kv) : Prop := forall x, fp k x -> s x = s' x.
Definition local (k : skey) (J : kv -> Prop) : Prop := forall s s', same_on k s s' -> J s -> J s'.
Lemma same_put k s s' x v : same_on k s s' -> same_on k (kv_put s x v) (kv_put s' x v).
Proof. intros H y Hy. unfold kv_put. destruct (skey_dec x y); [reflexivity|]. apply H, Hy. Qed.

Lemma wp_local ms k J Q : local k J -> (forall r fl, local k (fun s => Q r s fl)) ->
  forall p s s' fl, same_on k s s' -> wp ms k J p s fl Q -> wp ms k J p s' fl Q.
Proof.
  intros LJ LQ. induction p as [r|x c IH|x v c IH|x c IH|h c IH|h n c IH]; intros s s' fl E H; cbn [wp] in *;
    destruct H as (HJ & H); (split; [eapply LJ; eauto|]).
  - eapply LQ; eauto.
  - destruct H as (F & H1 & H2). rewrite <- (E x F). repeat split; eauto.
  - destruct H as (F & L & H1 & H2 & H3). repeat split; eauto using same_put.
  - destruct H as (F & H1 & H2 & H3). repeat split; eauto using same_put.
  - destruct H as (Eh & H). split; [exact Eh|]. intros n. eauto.
  - destruct H as (Eh & H). split; [exact Eh|]. eauto.
Qed.
Lemma wp_J ms k J p s fl Q : wp ms k J p s fl Q -> J s.
Proof. destruct p; cbn [wp]; tauto. Qed.

(** ** what Get sees *)
Fixpoint collect (s : kv) (k : skey) (cnt i : nat) : option bytes :=
  match cnt with
  | O => Some []
  | S c => match s (ext_key k (N.of_nat i)) with
           | None => None
           | Some b => option_map (app b) (collect s k c (S i))
           end
  end.
Definition view (s : kv) (k : skey) : option bytes :=
  match s k with
  | None => None
  | Some f => match uvarint f with
              | None => None
              | Some (n, size) => option_map (app (skipn size f)) (collect s k (N.to_nat n) 0)
              end
  end.
Definition fresh (s : kv) (k : skey) : Prop := forall x, fp k x -> s x = None.
Definition agree (s : kv) (k : skey) (a : aval) : Prop :=
  match a with
  | Fresh => fresh s k
  | Known v => view s k = v
  | Torn b => view s k = None \/ view s k = Some b
  | Unknown => True
  end.
(** what is under a main key was written by Set *)
Definition wf (ms : nat) (s : kv) (k : skey) : Prop :=
  (forall f, s k = Some f -> exists n size, uvarint f = Some (n, size) /\ n < 65535) /\
  (forall x b, fp k x -> s x = Some b -> (length b <= ms)%nat).

Lemma collect_local s s' k : same_on k s s' -> forall cnt i, collect s k cnt i = collect s' k cnt i.
Proof.
  intros E. induction cnt as [|c IH]; intros i; cbn [collect]; [reflexivity|].
  rewrite <- (E _ (fp_ext k (N.of_nat i))), IH. reflexivity.
Qed.
Lemma view_local s s' k : same_on k s s' -> view s k = view s' k.
Proof.
  intros E. unfold view. rewrite <- (E k (fp_self k)). destruct (s k); [|reflexivity]. destruct (uvarint b) as [(? & ?)|]; [|reflexivity].
  rewrite (collect_local _ _ _ E). reflexivity.
Qed.
Lemma agree_local k a : local k (fun s => agree s k a).
Proof.
  intros s s' E. destruct a; cbn; rewrite ?(view_local _ _ _ E); auto.
  intros H x Hx. rewrite <- (E x Hx). auto.
Qed.
Lemma wf_local ms k : local k (fun s => wf ms s k).
Proof.
  intros s s' E (H1 & H2). split.
  - intros f. rewrite <- (E k (fp_self k)). apply H1.
  - intros x b Hx. rewrite <- (E x Hx). apply H2, Hx.
Qed.

Definition cr (ms : nat) (o : mop) (a : aval) (s : kv) : Prop :=
  wf ms s (op_key o) /\ agree s (op_key o) (torn o a).
Definition post (ms : nat) (o : mop) (a : aval) (r : mres) (s : kv) (fl : bool) : Prop :=
  exists a', may_return ms o a r fl a' /\ agree s (op_key o) a'.
Lemma cr_local ms o a : local (op_key o) (cr ms o a).
Proof. intros s s' E (W & A). split; [eapply wf_local; eauto|eapply agree_local; eauto]. Qed.
Lemma agree_torn s o a k : agree s k a -> agree s k (torn o a).
Proof.
  destruct o, a; cbn; auto. intros H. left. unfold view. rewrite (H k (fp_self k)). reflexivity.
Qed.
Lemma post_local ms o a r fl : local (op_key o) (fun s => post ms o a r s fl).
Proof. intros s s' E (a' & M & A). exists a'. split; [exact M|]. eapply agree_local; eauto. Qed.

(** ** Get *)
Lemma wp_get_parts ms k (J : kv -> Prop) (Q : mres -> kv -> bool -> Prop) s : J s -> Q RErr s true -> forall cnt i b fl,
  match collect s k cnt i with Some r => Q (RFound (b ++ r)) s fl | None => Q RNotFound s fl end ->
  wp ms k J (get_parts k cnt i b) s fl Q.
Proof.
  intros HJ HE. induction cnt as [|c IH]; intros i b fl H; cbn [get_parts collect wp] in *.
  - rewrite app_nil_r in H. auto.
  - split; [exact HJ|]. split; [apply fp_ext|]. split; [|cbn; auto].
    destruct (s (ext_key k (N.of_nat i))) as [b2|]; [|cbn; auto]. apply IH.
    destruct (collect s k c (S i)) as [r|]; cbn in H; [rewrite <- app_assoc|]; exact H.
Qed.
Lemma agree_find s k a b : agree s k a -> view s k = Some b -> may_find a b.
Proof.
  destruct a; cbn; intros H E; unfold may_find; auto.
  - exfalso. unfold view in E. rewrite (H k (fp_self k)) in E. discriminate.
  - left. congruence.
  - right; left. destruct H; congruence.
Qed.
Lemma agree_miss s k a : agree s k a -> view s k = None -> may_miss a.
Proof. intros H E b ->. cbn in H. congruence. Qed.

Lemma get_ok ms k a s : wf ms s k -> agree s k a -> wp ms k (cr ms (MGet k) a) (ms_get k) s false (post ms (MGet k) a).
Proof.
  intros W A. assert (HJ : cr ms (MGet k) a s) by (split; [exact W|apply agree_torn, A]).
  assert (HE : post ms (MGet k) a RErr s true) by (exists a; cbn; auto).
  assert (HF : forall b fl, view s k = Some b -> post ms (MGet k) a (RFound b) s fl).
  { intros b fl E. exists (Known (Some b)). cbn. split; [split; [eapply agree_find; eauto|reflexivity]|exact E]. }
  assert (HN : forall fl, view s k = None -> post ms (MGet k) a RNotFound s fl).
  { intros fl E. eexists. cbn. split; [split; [eapply agree_miss; eauto|reflexivity]|]. destruct a; cbn in *; auto. }
  unfold ms_get. cbn [wp]. split; [exact HJ|]. split; [apply fp_self|]. split; [|cbn; auto].
  destruct (s k) as [f|] eqn:Ef.
  2:{ cbn. split; [exact HJ|]. apply HN. unfold view. rewrite Ef. reflexivity. }
  destruct W as (W & _). destruct (W f Ef) as (n & size & Hu & Hn). rewrite Hu.
  assert (V : view s k = option_map (app (skipn size f)) (collect s k (N.to_nat n) 0)) by (unfold view; rewrite Ef, Hu; reflexivity).
  destruct (N.eqb_spec n 0) as [->|Hz].
  - cbn. repeat split; auto; try apply HJ. apply HF. rewrite V. cbn. rewrite app_nil_r. reflexivity.
  - cbn [wp]. split; [exact HJ|]. split; [reflexivity|]. apply wp_get_parts; auto. destruct (collect s k (N.to_nat n) 0); auto.
Qed.

(** ** Delete *)
Lemma view_main_none s k : s k = None -> view s k = None.
Proof. unfold view. intros ->. reflexivity. Qed.
Lemma wf_del ms s k x : wf ms s k -> wf ms (kv_put s x None) k.
Proof.
  intros (H1 & H2). split.
  - intros f. unfold kv_put. destruct (skey_dec x k); [discriminate|apply H1].
  - intros y b. unfold kv_put. destruct (skey_dec x y); [discriminate|apply H2].
Qed.
Lemma fresh_del s k x : fresh s k -> fresh (kv_put s x None) k.
Proof. intros H y Hy. unfold kv_put. destruct (skey_dec x y); [reflexivity|auto]. Qed.
Lemma fresh_agree_torn_del s k a k' : (a = Fresh -> fresh s k) -> agree s k (torn (MDel k') a).
Proof. destruct a; cbn; auto. Qed.

Lemma wp_del_parts ms k a : forall cnt i s,
  wf ms s k -> (a = Fresh -> fresh s k) -> (i = O -> agree s k a) -> (cnt = O -> i <> O) -> (i <> O -> s k = None) ->
  wp ms k (cr ms (MDel k) a) (del_parts k cnt i (HPut (map_key k) 0 (Ret ROk))) s false (post ms (MDel k) a).
Proof.
  induction cnt as [|c IH]; intros i s W F A H0 Hi; cbn [del_parts].
  - assert (C : cr ms (MDel k) a s) by (split; [exact W|apply fresh_agree_torn_del, F]).
    cbn. repeat split; auto; try apply C. specialize (Hi (H0 eq_refl)).
    destruct a; (eexists; cbn; split; [reflexivity|]); cbn; auto using view_main_none.
  - assert (C : cr ms (MDel k) a s).
    { split; [exact W|]. apply fresh_agree_torn_del, F. }
    assert (C' : cr ms (MDel k) a (kv_put s (part_key k i) None)).
    { split; [apply wf_del, W|]. apply fresh_agree_torn_del. intros E. apply fresh_del, F, E. }
    assert (P : forall s', cr ms (MDel k) a s' -> (a = Fresh -> fresh s' k) -> post ms (MDel k) a RErr s' true).
    { intros s' _ F'. exists (torn (MDel k) a). split; [cbn; auto|]. apply fresh_agree_torn_del, F'. }
    cbn [wp]. split; [exact C|]. split; [exists i; reflexivity|]. split; [|cbn; repeat split; auto; try apply C; try apply C'].
    + apply IH; try lia.
      * apply wf_del, W.
      * intros E. apply fresh_del, F, E.
      * intros _. destruct i as [|i]; cbn [part_key]; [apply kv_put_eq|].
        unfold kv_put. destruct (skey_dec _ k); [reflexivity|]. apply Hi. lia.
    + apply P; [exact C'|]. intros E. apply fresh_del, F, E.
Qed.

Lemma del_ok ms k a s : wf ms s k -> agree s k a -> wp ms k (cr ms (MDel k) a) (ms_del k) s false (post ms (MDel k) a).
Proof.
  intros W A. assert (HJ : cr ms (MDel k) a s) by (split; [exact W|apply agree_torn, A]).
  assert (F : a = Fresh -> fresh s k) by (intros ->; exact A).
  unfold ms_del. cbn [wp]. split; [exact HJ|]. split; [reflexivity|]. intros n. destruct n as [|n].
  - cbn [wp]. split; [exact HJ|]. split; [apply fp_self|]. split.
    + destruct (s k) as [f|] eqn:Ef.
      * pose proof W as (W1 & _). destruct (W1 f Ef) as (n & size & -> & Hn). apply wp_del_parts; auto; try congruence.
        intros E. exfalso. unfold loop_bound in E. rewrite N.mod_small in E by lia.
        destruct (N.ltb_spec (n + 1) (2 ^ 63)); [|lia]. assert (n + 1 = 0) by lia. lia.
      * cbn. split; [exact HJ|]. eexists. split; [reflexivity|]. destruct a; cbn; auto using view_main_none.
    + cbn. split; [exact HJ|]. exists a. split; [|exact A]. cbn. destruct a; reflexivity.
  - apply wp_del_parts; auto; congruence.
Qed.

(** ** Set *)
Fixpoint chunks (ms cnt : nat) (b : bytes) : list bytes :=
  match cnt with
  | O => []
  | S n => let l := Nat.min ms (length b) in firstn l b :: chunks ms n (skipn l b)
  end.
Lemma chunks_len ms : forall cnt b, length (chunks ms cnt b) = cnt.
Proof. induction cnt as [|n IH]; intros b; cbn; [reflexivity|]. rewrite IH. reflexivity. Qed.
Lemma chunks_concat ms : forall cnt b, (length b <= cnt * ms)%nat -> concat (chunks ms cnt b) = b.
Proof.
  induction cnt as [|n IH]; intros b H; cbn [chunks concat].
  - destruct b; [reflexivity|cbn in H; lia].
  - rewrite IH; [apply firstn_skipn|]. rewrite skipn_length. lia.
Qed.
Lemma chunks_size ms : forall cnt b, Forall (fun c => length c <= ms)%nat (chunks ms cnt b).
Proof. induction cnt as [|n IH]; intros b; cbn [chunks]; constructor; [|apply IH]. rewrite firstn_length. lia. Qed.

Definition written (k : skey) (s0 : kv) (ch : list bytes) (i : nat) (s : kv) : Prop :=
  (forall j, (j < i)%nat -> s (part_key k j) = nth_error ch j) /\
  (forall j, (i <= j)%nat -> s (part_key k j) = s0 (part_key k j)).

Lemma written_next k s0 ch i s v : written k s0 ch i s -> nth_error ch i = Some v ->
  written k s0 ch (S i) (kv_put s (part_key k i) (Some v)).
Proof.
  intros (H1 & H2) Hv. split; intros j Hj; unfold kv_put; destruct (skey_dec (part_key k i) (part_key k j)) as [E|E].
  - apply part_inj in E. subst j. symmetry. exact Hv.
  - apply H1. assert (i <> j) by (intros ->; congruence). lia.
  - apply part_inj in E. lia.
  - apply H2. lia.
Qed.

Lemma skipn_S_tl {A} : forall i (l : list A), skipn (S i) l = tl (skipn i l).
Proof. induction i as [|i IH]; intros [|x l]; try reflexivity. cbn [skipn] in *. apply IH. Qed.

Lemma wp_put_parts ms k (J : kv -> Prop) (Q : mres -> kv -> bool -> Prop) c s0 ch :
  (forall i s, (i <= length ch)%nat -> written k s0 ch i s -> J s) ->
  (forall i s, (i <= length ch)%nat -> written k s0 ch i s -> Q RErr s true) ->
  (forall s fl, written k s0 ch (length ch) s -> wp ms k J c s fl Q) ->
  forall cnt i b s fl, (i + cnt = length ch)%nat -> skipn i ch = chunks ms cnt b -> written k s0 ch i s ->
    wp ms k J (put_parts ms k cnt i b c) s fl Q.
Proof.
  intros HJ HE HC. induction cnt as [|n IH]; intros i b s fl Hi Hs W; cbn [put_parts].
  - apply HC. replace (length ch) with i by lia. exact W.
  - cbn [chunks] in Hs. set (l := Nat.min ms (length b)) in *.
    assert (Hn : nth_error ch i = Some (firstn l b)).
    { rewrite <- (firstn_skipn i ch), Hs, nth_error_app2 by (rewrite firstn_length; lia).
      rewrite firstn_length. replace (i - Nat.min i (length ch))%nat with O by lia. reflexivity. }
    assert (Hs' : skipn (S i) ch = chunks ms n (skipn l b)).
    { rewrite skipn_S_tl, Hs. reflexivity. }
    pose proof (written_next _ _ _ _ _ _ W Hn) as W'.
    cbn [wp]. split; [apply (HJ i); [lia|exact W]|]. split; [exists i; reflexivity|].
    split; [rewrite firstn_length; lia|]. split; [apply IH; auto; lia|].
    split; (split; [|]).
    + apply (HJ i); [lia|exact W].
    + apply (HE i); [lia|exact W].
    + apply (HJ (S i)); [lia|exact W'].
    + apply (HE (S i)); [lia|exact W'].
Qed.

Lemma wp_del_extra ms k (J : kv -> Prop) (Q : mres -> kv -> bool -> Prop) (Hp : kv -> Prop) c :
  (forall s, Hp s -> J s) -> (forall s x, Hp s -> Hp (kv_put s x None)) ->
  (forall s fl, Hp s -> wp ms k J c s fl Q) ->
  forall cnt i s fl, Hp s -> wp ms k J (del_extra k cnt i c) s fl Q.
Proof.
  intros HJ HD HC. induction cnt as [|n IH]; intros i s fl H; cbn [del_extra]; [auto|].
  cbn [wp]. split; [auto|]. split; [apply fp_ext|]. auto.
Qed.

Lemma too_big_iff ms b : (3 <= ms)%nat -> 65535 <= N.of_nat (total_parts ms b) <-> too_big ms b.
Proof.
  intros H. unfold total_parts, too_big. rewrite Nat2N.inj_div.
  set (q := N.of_nat (length b + 3 + ms - 1)). assert (Hq : q = N.of_nat (length b) + 2 + N.of_nat ms) by lia.
  set (m := N.of_nat ms) in *. assert (Hm : 0 < m) by lia. clearbody q m. split; intros H1.
  - assert (65535 * m <= q); [|lia]. pose proof (N.mul_div_le q m ltac:(lia)). nia.
  - apply N.div_le_lower_bound; nia.
Qed.

Lemma collect_written k s0 ch s : written k s0 ch (length ch) s -> forall cnt i, (S i + cnt = length ch)%nat ->
  collect s k cnt i = Some (concat (skipn (S i) ch)).
Proof.
  intros (W & _). induction cnt as [|n IH]; intros i Hi; cbn [collect].
  - rewrite skipn_all2 by lia. reflexivity.
  - change (ext_key k (N.of_nat i)) with (part_key k (S i)). rewrite W by lia.
    destruct (nth_error ch (S i)) as [v|] eqn:Ev; [|apply nth_error_None in Ev; lia].
    rewrite IH by lia. cbn [option_map]. f_equal.
    destruct (nth_error_split ch (S i) Ev) as (l1 & l2 & E & L). rewrite E.
    rewrite !skipn_app, (skipn_all2 (n := S i) l1), (skipn_all2 (n := S (S i)) l1) by lia. replace (S i - length l1)%nat with O by lia.
    replace (S (S i) - length l1)%nat with 1%nat by lia. reflexivity.
Qed.

Lemma collect_missing k s : forall cnt i j, (i <= j < i + cnt)%nat -> s (ext_key k (N.of_nat j)) = None ->
  collect s k cnt i = None.
Proof.
  induction cnt as [|n IH]; intros i j Hj H; [lia|]. cbn [collect]. destruct (Nat.eq_dec i j) as [->|Hne].
  - rewrite H. reflexivity.
  - destruct (s (ext_key k (N.of_nat i))); [|reflexivity]. rewrite (IH (S i) j); [reflexivity|lia|exact H].
Qed.

Lemma set_ok ms k b a s : (3 <= ms)%nat -> wf ms s k -> agree s k a ->
  wp ms k (cr ms (MSet k b) a) (ms_set ms k b) s false (post ms (MSet k b) a).
Proof.
  intros Hms W A. unfold ms_set. set (total := total_parts ms b).
  assert (HJ : cr ms (MSet k b) a s) by (split; [exact W|apply agree_torn, A]).
  pose proof (too_big_iff ms b Hms) as TB. fold total in TB.
  destruct (N.leb_spec 65535 (N.of_nat total)) as [L|L].
  { cbn. split; [exact HJ|]. exists a. cbn. tauto. }
  assert (HT : ~ too_big ms b) by (intros C; apply TB in C; lia). clear TB.
  assert (Ht1 : (1 <= total)%nat).
  { unfold total, total_parts. apply Nat.div_le_lower_bound; lia. }
  set (uv := put_uvarint 10 (N.of_nat (total - 1))).
  assert (Huv : (length uv <= 3)%nat).
  { apply (put_uvarint_len 2). change (128 ^ N.of_nat 3) with 2097152. lia. }
  assert (Hlen : (length (uv ++ b) <= total * ms)%nat).
  { rewrite app_length. unfold total, total_parts.
    pose proof (Nat.div_mod (length b + 3 + ms - 1) ms ltac:(lia)).
    pose proof (Nat.mod_upper_bound (length b + 3 + ms - 1) ms ltac:(lia)). nia. }
  set (ch := chunks ms total (uv ++ b)).
  assert (Hcl : length ch = total) by apply chunks_len.
  assert (Hcc : concat ch = uv ++ b) by (apply chunks_concat, Hlen).
  assert (Hfirst : exists f rest, ch = (uv ++ f) :: rest /\ f ++ concat rest = b).
  { destruct ch as [|c0 rest] eqn:Ech; [cbn in Hcl; lia|]. destruct total as [|t]; [lia|].
    unfold ch in *. cbn [chunks] in Ech. injection Ech as E0 E1. cbn [concat] in Hcc.
    assert (E : c0 = uv ++ firstn (Nat.min ms (length (uv ++ b)) - length uv) b).
    { rewrite <- E0, firstn_app. f_equal. apply firstn_all2. rewrite app_length. lia. }
    eexists _, rest. split; [f_equal; exact E|]. rewrite E, <- app_assoc in Hcc. apply app_inv_head in Hcc. exact Hcc. }
  destruct Hfirst as (f & rest & Ech & Eb).
  assert (Hdec : uvarint (uv ++ f) = Some (N.of_nat (total - 1), length uv)).
  { apply uvarint_ok. lia. }
  assert (Hwf : forall s0 i s', wf ms s0 k -> written k s0 ch i s' -> wf ms s' k).
  { intros s0 i s' (W1 & W2) (H1 & H2). split.
    - intros g Hg. destruct i as [|i].
      + apply W1. assert (E : s' k = s0 k) by (apply (H2 0%nat); lia). congruence.
      + assert (E : s' k = nth_error ch 0) by (apply (H1 0%nat); lia). rewrite E in Hg. clear E. rewrite Ech in Hg. injection Hg as <-.
        rewrite Hdec. eexists _, _. split; [reflexivity|]. lia.
    - intros x g (j & ->) Hg. destruct (Nat.lt_ge_cases j i) as [Hj|Hj].
      + rewrite H1 in Hg by exact Hj. apply nth_error_In in Hg. pose proof (chunks_size ms total (uv ++ b)) as F.
        rewrite Forall_forall in F. apply F, Hg.
      + rewrite H2 in Hg by exact Hj. apply (W2 _ _ (ex_intro _ j eq_refl) Hg). }
  assert (Hview : forall s0 s', written k s0 ch (length ch) s' -> view s' k = Some b).
  { intros s0 s' Wr. pose proof Wr as (H1 & _). unfold view.
    assert (E : s' k = nth_error ch 0) by (apply (H1 0%nat); lia). rewrite E. clear E. rewrite Ech at 1. cbn [nth_error].
    rewrite Hdec, Nat2N.id. rewrite (collect_written _ _ _ _ Wr) by lia. rewrite Ech. cbn [skipn option_map].
    rewrite skipn_app, skipn_all, Nat.sub_diag. cbn [skipn app]. rewrite Eb. reflexivity. }
  assert (Hpart : forall s0 i s', fresh s0 k -> (i <= length ch)%nat -> written k s0 ch i s' -> agree s' k (Torn b)).
  { intros s0 i s' F Hi Wr. cbn. destruct (Nat.eq_dec i (length ch)) as [->|Hne]; [right; eapply Hview; eauto|left].
    pose proof Wr as (H1 & H2). unfold view. destruct i as [|i].
    - assert (E : s' k = s0 k) by (apply (H2 0%nat); lia). rewrite E. rewrite (F k (fp_self k)). reflexivity.
    - assert (E : s' k = nth_error ch 0) by (apply (H1 0%nat); lia). rewrite E. clear E. rewrite Ech. cbn [nth_error]. rewrite Hdec, Nat2N.id.
      rewrite (collect_missing k s' _ _ i); [reflexivity|lia|].
      change (ext_key k (N.of_nat i)) with (part_key k (S i)). rewrite H2 by lia. apply F. exists (S i). reflexivity. }
  assert (Htorn : forall s0 i s', (a = Fresh -> fresh s0 k) -> (i <= length ch)%nat -> written k s0 ch i s' ->
                  agree s' k (torn (MSet k b) a)).
  { intros s0 i s' F Hi Wr. destruct a; cbn [torn]; try exact I. exact (Hpart _ _ _ (F eq_refl) Hi Wr). }
  cbn [wp]. split; [exact HJ|]. split; [reflexivity|]. intros prev.
  apply (wp_del_extra ms k _ _ (fun s => wf ms s k /\ (a = Fresh -> fresh s k))).
  - intros s' (W' & F'). split; [exact W'|]. destruct a; cbn [torn]; try exact I. apply (agree_torn _ (MSet k b) Fresh). exact (F' eq_refl).
  - intros s' x (W' & F'). split; [apply wf_del, W'|]. intros E. apply fresh_del, F', E.
  - intros s0 fl (W0 & F0). rewrite <- Hcl at 1. apply (wp_put_parts ms k _ _ _ s0 ch).
    + intros i s' Hi Wr. split; [eapply Hwf; eauto|]. eapply Htorn; eauto.
    + intros i s' Hi Wr. exists (torn (MSet k b) a). split; [cbn; auto|]. eapply Htorn; eauto.
    + intros s' fl' Wr. cbn [wp].
      assert (C : cr ms (MSet k b) a s') by (split; [eapply Hwf; eauto|eapply Htorn; eauto]).
      repeat split; try apply C. exists (Known (Some b)). split; [cbn; auto|]. cbn. eapply Hview; eauto.
    + reflexivity.
    + cbn [skipn]. rewrite Hcl. reflexivity.
    + split; [lia|reflexivity].
  - split; [exact W|]. intros ->. exact A.
Qed.

Lemma op_wp ms o a s : (3 <= ms)%nat -> wf ms s (op_key o) -> agree s (op_key o) a ->
  wp ms (op_key o) (cr ms o a) (op_prog ms o) s false (post ms o a).
Proof. intros H W A. destruct o; cbn [op_key op_prog] in *; [apply get_ok|apply set_ok|apply del_ok]; auto. Qed.
