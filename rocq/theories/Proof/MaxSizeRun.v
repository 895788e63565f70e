(** Any interleaving of calls with failures and crashes refines the map. *)
From Coq Require Import Strings.String Strings.Ascii Strings.Byte.
From Verif.Lib Require Import Prelude ListAux.
From Verif.Model Require Import KV MaxSize.
From Verif.Spec Require Import MaxSizeSpec.
From Verif.Proof Require Import KVP MaxSizeP.
Open Scope N_scope.

Lemma nth_set {A} (t : A) i j : forall l,
  nth_error (upd_nth i (fun _ => t) l) j = if Nat.eq_dec i j then option_map (fun _ => t) (nth_error l i) else nth_error l j.
Proof.
  revert j. induction i as [|i IH]; intros [|j] [|x l]; cbn -[Nat.eq_dec]; try reflexivity.
  - destruct (Nat.eq_dec (S i) (S j)); reflexivity.
  - rewrite IH. destruct (Nat.eq_dec i j); destruct (Nat.eq_dec (S i) (S j)); congruence || reflexivity.
Qed.

Definition active (c : config) (i : nat) (o : mop) (p : prog mres) (fl : bool) : Prop :=
  exists todo, nth_error (c_thr c) i = Some (mkT todo (Some (o, p, fl))).
Record MInv (ms : nat) (K : skey -> Prop) (c : config) (m : amap) : Prop := {
  mi_todo : forall i t, nth_error (c_thr c) i = Some t -> Forall (fun o => K (op_key o)) (t_todo t);
  mi_act : forall i o p fl, active c i o p fl -> K (op_key o) /\ c_locked c (map_key (op_key o)) = true /\
     wp ms (op_key o) (cr ms o (m (op_key o))) p (c_kv c) fl (post ms o (m (op_key o)));
  mi_one : forall i j o p fl o' p' fl', active c i o p fl -> active c j o' p' fl' ->
     map_key (op_key o) = map_key (op_key o') -> i = j;
  mi_idle : forall k, K k -> (forall i o p fl, active c i o p fl -> op_key o <> k) -> wf ms (c_kv c) k /\ agree (c_kv c) k (m k)
}.

Lemma active_set c c' i o p fl j o' p' fl' t :
  c_thr c' = set_thr c i t -> t_cur t = Some (o, p, fl) -> nth_error (c_thr c) i <> None ->
  active c' j o' p' fl' -> (i = j /\ (o', p', fl') = (o, p, fl)) \/ (i <> j /\ active c j o' p' fl').
Proof.
  intros E Et Hi (todo & H). rewrite E in H. unfold set_thr in H. rewrite nth_set in H. destruct (Nat.eq_dec i j) as [->|Hne].
  - left. split; [reflexivity|]. destruct (nth_error (c_thr c) j); [|congruence]. cbn in H. injection H as ->. cbn in Et. congruence.
  - right. split; [exact Hne|]. exists todo. exact H.
Qed.

(** a step inside a call *)
Lemma inner ms K c m i o p fl todo p' fl' s' h' : no_clash K -> MInv ms K c m ->
  nth_error (c_thr c) i = Some (mkT todo (Some (o, p, fl))) ->
  (forall x, ~ fp (op_key o) x -> s' x = c_kv c x) ->
  wp ms (op_key o) (cr ms o (m (op_key o))) p' s' fl' (post ms o (m (op_key o))) ->
  MInv ms K (mkC s' h' (c_locked c) (set_thr c i (mkT todo (Some (o, p', fl'))))) m.
Proof.
  intros HK [I1 I2 I3 I4] Hi Hs Hw. set (c' := mkC _ _ _ _).
  assert (Ha : active c i o p fl) by (exists todo; exact Hi).
  destruct (I2 _ _ _ _ Ha) as (Ko & Lo & _).
  assert (AS : forall j o' p2 fl2, active c' j o' p2 fl2 -> (i = j /\ (o', p2, fl2) = (o, p', fl')) \/ (i <> j /\ active c j o' p2 fl2)).
  { intros j o' p2 fl2. apply (active_set c c' i o p' fl' j o' p2 fl2 (mkT todo (Some (o, p', fl')))); try reflexivity. rewrite Hi. discriminate. }
  assert (SO : forall k, K k -> k <> op_key o -> same_on k (c_kv c) s').
  { intros k Kk Hne x Hx. symmetry. apply Hs. intros Hx'. apply Hne. eapply fp_disjoint; eauto. }
  constructor.
  - intros j t Hj. cbn in Hj. unfold set_thr in Hj. rewrite nth_set in Hj. destruct (Nat.eq_dec i j) as [->|Hne].
    + rewrite Hi in Hj. cbn in Hj. injection Hj as <-. cbn. apply (I1 j _ Hi).
    + apply (I1 j t Hj).
  - intros j o' p2 fl2 Hj. destruct (AS _ _ _ _ Hj) as [(<- & E)|(Hne & Hj')].
    + injection E as -> -> ->. auto.
    + destruct (I2 _ _ _ _ Hj') as (K' & L' & W'). split; [exact K'|]. split; [exact L'|].
      eapply wp_local; [apply cr_local|intros; apply post_local| |exact W'].
      apply SO; [exact K'|]. intros E. apply Hne. eapply I3; eauto. rewrite E. reflexivity.
  - intros a b oa pa fa ob pb fb Ha' Hb' E.
    destruct (AS _ _ _ _ Ha') as [(<- & Ea)|(Na & Ha2)], (AS _ _ _ _ Hb') as [(<- & Eb)|(Nb & Hb2)]; try reflexivity.
    + injection Ea as -> -> ->. eapply I3; eauto.
    + injection Eb as -> -> ->. eapply I3; eauto.
    + eapply I3; eauto.
  - intros k Kk Hidle. assert (Hidle' : forall j o2 p2 fl2, active c j o2 p2 fl2 -> op_key o2 <> k).
    { intros j o2 p2 fl2 Hj. destruct (Nat.eq_dec i j) as [<-|Hne].
      - assert (o2 = o) by (destruct Ha as (? & Ha), Hj as (? & Hj); congruence). subst o2.
        apply (Hidle i o p' fl'). exists todo. cbn. unfold set_thr. rewrite nth_set, Hi. destruct (Nat.eq_dec i i); [reflexivity|congruence].
      - destruct Hj as (td & Hj). apply (Hidle j o2 p2 fl2). exists td. cbn. unfold set_thr. rewrite nth_set. destruct (Nat.eq_dec i j); [congruence|exact Hj]. }
    destruct (I4 k Kk Hidle') as (W & A).
    assert (Hne : k <> op_key o) by (intros ->; apply (Hidle' _ _ _ _ Ha); reflexivity).
    split; [eapply wf_local|eapply agree_local]; eauto.
Qed.

Lemma aput_eq m k v : aput m k v k = v.
Proof. unfold aput. destruct (skey_dec k k); congruence. Qed.
Lemma aput_ne m k v k' : k <> k' -> aput m k v k' = m k'.
Proof. unfold aput. destruct (skey_dec k k'); congruence. Qed.

Lemma crash_map l : forall m, NoDup (map op_key l) ->
  let m1 := fold_left (fun m o => aput m (op_key o) (torn o (m (op_key o)))) l m in
  (forall o, In o l -> m1 (op_key o) = torn o (m (op_key o))) /\ (forall k, ~ In k (map op_key l) -> m1 k = m k).
Proof.
  induction l as [|o l IH]; intros m Hd; cbn [fold_left]; [split; [intros ? []|reflexivity]|].
  cbn [map] in Hd. inversion Hd as [|? ? Hn Hd']; subst. destruct (IH (aput m (op_key o) (torn o (m (op_key o)))) Hd') as (A & B). split.
  - intros o' [<-|H].
    + rewrite B by exact Hn. apply aput_eq.
    + rewrite A by exact H. rewrite aput_ne; [reflexivity|]. intros E. apply Hn. rewrite E. apply in_map, H.
  - intros k Hk. cbn in Hk. rewrite B by tauto. apply aput_ne. tauto.
Qed.

Lemma running_active c o : In o (running c) <-> exists i p fl, active c i o p fl.
Proof.
  unfold running. rewrite in_flat_map. split.
  - intros ([todo [((o' & p) & fl)|]] & Ht & Ho); cbn in Ho; [|contradiction]. destruct Ho as [->|[]].
    apply In_nth_error in Ht as (i & Hi). exists i, p, fl, todo. exact Hi.
  - intros (i & p & fl & todo & Hi). eexists. split; [eapply nth_error_In, Hi|]. cbn. auto.
Qed.
Lemma running_nodup c : (forall i j o p fl o' p' fl', active c i o p fl -> active c j o' p' fl' ->
     op_key o = op_key o' -> i = j) -> NoDup (map op_key (running c)).
Proof.
  unfold running, active. generalize (c_thr c). clear. induction l as [|t l IH]; intros H; cbn; [constructor|].
  assert (IH' : NoDup (map op_key (flat_map (fun t => match t_cur t with Some (o, _, _) => [o] | None => [] end) l))).
  { apply IH. intros i j o p fl o' p' fl' (a & Hi) (b & Hj) E. assert (S i = S j); [|lia].
    apply (H (S i) (S j) o p fl o' p' fl'); [exists a; exact Hi|exists b; exact Hj|exact E]. }
  destruct t as [todo [((o & p) & fl)|]]; cbn; [|exact IH']. constructor; [|exact IH'].
  intros C. apply in_map_iff in C as (o' & E & Ho'). apply in_flat_map in Ho' as ([todo' [((o2 & p') & fl')|]] & Ht & Ho'); cbn in Ho'; [|contradiction].
  destruct Ho' as [->|[]]. apply In_nth_error in Ht as (j & Hj).
  assert (0%nat = S j); [|lia]. apply (H 0%nat (S j) o p fl o' p' fl'); [exists todo; reflexivity|exists todo'; exact Hj|congruence].
Qed.

Definition eff (m : amap) (ms : nat) (e : option event) (m' : amap) : Prop :=
  match e with
  | None => m' = m
  | Some (Fin o r fl) => exists v, may_return ms o (m (op_key o)) r fl v /\ m' = aput m (op_key o) v
  | Some (Crash l) => NoDup (map op_key l) /\ m' = fold_left (fun m o => aput m (op_key o) (torn o (m (op_key o)))) l m
  end.

Lemma start_inv ms K s todo m : only_keys K todo -> (forall k, K k -> wf ms s k /\ agree s k (m k)) -> MInv ms K (start s todo) m.
Proof.
  intros HT H. assert (NA : forall i o p fl, ~ active (start s todo) i o p fl).
  { intros i o p fl (td & E). cbn in E. rewrite nth_error_map in E. destruct (nth_error todo i); discriminate. }
  constructor.
  - intros i t E. cbn in E. rewrite nth_error_map in E. destruct (nth_error todo i) as [l|] eqn:El; [|discriminate].
    injection E as <-. cbn. unfold only_keys in HT. rewrite Forall_forall in HT. apply HT. eapply nth_error_In, El.
  - intros i o p fl C. destruct (NA _ _ _ _ C).
  - intros i j o p fl o' p' fl' C. destruct (NA _ _ _ _ C).
  - intros k Kk _. apply H, Kk.
Qed.

Lemma step_inv ms K c e c' m : (3 <= ms)%nat -> no_clash K -> MInv ms K c m -> mstep ms K c e c' ->
  exists m', eff m ms e m' /\ MInv ms K c' m'.
Proof.
  intros Hms HK HI S. pose proof HI as [I1 I2 I3 I4].
  inversion S as [c0 i o todo Hi Hl|c0 i o todo r fl Hi|c0 i o todo k p fl f Hi|c0 i o todo k v p fl f Hi|c0 i o todo k p fl f Hi|
                  c0 i o todo h p fl Hi|c0 i o todo h n p fl Hi|c0 todo Ht]; subst; clear S.
  - (* start *)
    exists m. split; [reflexivity|]. set (c' := mkC _ _ _ _).
    assert (Ko : K (op_key o)) by (pose proof (I1 i _ Hi) as F; cbn in F; inversion F; assumption).
    assert (NA : forall j o' p' fl', active c j o' p' fl' -> map_key (op_key o') <> map_key (op_key o)).
    { intros j o' p' fl' Hj E. destruct (I2 _ _ _ _ Hj) as (_ & L & _). rewrite E in L. congruence. }
    assert (AS : forall j o' p2 fl2, active c' j o' p2 fl2 -> (i = j /\ (o', p2, fl2) = (o, op_prog ms o, false)) \/ (i <> j /\ active c j o' p2 fl2)).
    { intros j o' p2 fl2. apply (active_set c c' i o (op_prog ms o) false j o' p2 fl2 (mkT todo (Some (o, op_prog ms o, false)))); try reflexivity. rewrite Hi. discriminate. }
    constructor.
    + intros j t Hj. cbn in Hj. unfold set_thr in Hj. rewrite nth_set in Hj. destruct (Nat.eq_dec i j) as [->|Hne].
      * rewrite Hi in Hj. cbn in Hj. injection Hj as <-. cbn. pose proof (I1 j _ Hi) as F; cbn in F; inversion F; assumption.
      * apply (I1 j t Hj).
    + intros j o' p2 fl2 Hj. destruct (AS _ _ _ _ Hj) as [(<- & E)|(Hne & Hj')].
      * injection E as -> -> ->. split; [exact Ko|]. split; [cbn; unfold set_at; destruct (string_dec _ _); congruence|].
        destruct (I4 (op_key o) Ko) as (W & A). { intros j o' p' fl' Hj' E. apply (NA _ _ _ _ Hj'). congruence. }
        apply op_wp; assumption.
      * destruct (I2 _ _ _ _ Hj') as (K' & L' & W'). split; [exact K'|]. split; [|exact W'].
        cbn. unfold set_at. destruct (string_dec _ _); [reflexivity|exact L'].
    + intros a b oa pa fa ob pb fb Ha' Hb' E.
      destruct (AS _ _ _ _ Ha') as [(<- & Ea)|(Na & Ha2)], (AS _ _ _ _ Hb') as [(<- & Eb)|(Nb & Hb2)]; try reflexivity.
      * injection Ea as -> -> ->. exfalso. apply (NA _ _ _ _ Hb2). congruence.
      * injection Eb as -> -> ->. exfalso. apply (NA _ _ _ _ Ha2). congruence.
      * eapply I3; eauto.
    + intros k Kk Hidle. apply I4; [exact Kk|]. intros j o2 p2 fl2 Hj. destruct (Nat.eq_dec i j) as [<-|Hne].
      * destruct Hj as (? & Hj). congruence.
      * destruct Hj as (td & Hj). apply (Hidle j o2 p2 fl2). exists td. cbn. unfold set_thr. rewrite nth_set. destruct (Nat.eq_dec i j); [congruence|exact Hj].
  - (* end *)
    assert (Ha : active c i o (Ret r) fl) by (exists todo; exact Hi).
    destruct (I2 _ _ _ _ Ha) as (Ko & Lo & Wo). cbn in Wo. destruct Wo as ((Wf & _) & (v & Hv & Av)).
    exists (aput m (op_key o) v). split; [exists v; auto|]. set (c' := mkC _ _ _ _).
    assert (AS : forall j o' p2 fl2, active c' j o' p2 fl2 -> i <> j /\ active c j o' p2 fl2).
    { intros j o' p2 fl2 (td & Hj). cbn in Hj. unfold set_thr in Hj. rewrite nth_set in Hj. destruct (Nat.eq_dec i j) as [->|Hne].
      - rewrite Hi in Hj. discriminate.
      - split; [exact Hne|]. exists td. exact Hj. }
    assert (NK : forall j o' p2 fl2, active c' j o' p2 fl2 -> map_key (op_key o) <> map_key (op_key o')).
    { intros j o' p2 fl2 Hj E. destruct (AS _ _ _ _ Hj) as (Hne & Hj'). apply Hne. eapply I3; eauto. }
    constructor.
    + intros j t Hj. cbn in Hj. unfold set_thr in Hj. rewrite nth_set in Hj. destruct (Nat.eq_dec i j) as [->|Hne].
      * rewrite Hi in Hj. cbn in Hj. injection Hj as <-. cbn. apply (I1 j _ Hi).
      * apply (I1 j t Hj).
    + intros j o' p2 fl2 Hj. pose proof (NK _ _ _ _ Hj) as Hk. destruct (AS _ _ _ _ Hj) as (Hne & Hj').
      destruct (I2 _ _ _ _ Hj') as (K' & L' & W'). split; [exact K'|]. split.
      * cbn. unfold set_at. destruct (string_dec _ _); [congruence|exact L'].
      * rewrite aput_ne by congruence. exact W'.
    + intros a b oa pa fa ob pb fb Ha' Hb' E. destruct (AS _ _ _ _ Ha') as (_ & Ha2), (AS _ _ _ _ Hb') as (_ & Hb2). eapply I3; eauto.
    + intros k Kk Hidle. destruct (skey_dec (op_key o) k) as [<-|Hne].
      * rewrite aput_eq. split; [exact Wf|exact Av].
      * rewrite aput_ne by exact Hne. apply I4; [exact Kk|]. intros j o2 p2 fl2 Hj. destruct (Nat.eq_dec i j) as [<-|Hij].
        -- assert (o2 = o) by (destruct Ha as (? & Ha), Hj as (? & Hj); congruence). congruence.
        -- destruct Hj as (td & Hj). apply (Hidle j o2 p2 fl2). exists td. cbn. unfold set_thr. rewrite nth_set. destruct (Nat.eq_dec i j); [congruence|exact Hj].
  - exists m. split; [reflexivity|]. destruct (I2 i o _ fl (ex_intro _ todo Hi)) as (_ & _ & W). cbn in W. destruct W as (_ & _ & W1 & W2).
    eapply inner; [exact HK|exact HI|exact Hi|reflexivity|]. destruct f; cbn [works negb]; rewrite ?orb_false_r, ?orb_true_r; assumption.
  - exists m. split; [reflexivity|]. destruct (I2 i o _ fl (ex_intro _ todo Hi)) as (_ & _ & W). cbn in W. destruct W as (_ & F & _ & W1 & W2 & W3).
    eapply inner; [exact HK|exact HI|exact Hi| |].
    + intros x Hx. destruct (takes f); [|reflexivity]. apply kv_put_ne. congruence.
    + destruct f; cbn [works negb takes]; rewrite ?orb_false_r, ?orb_true_r; assumption.
  - exists m. split; [reflexivity|]. destruct (I2 i o _ fl (ex_intro _ todo Hi)) as (_ & _ & W). cbn in W. destruct W as (_ & F & W1 & W2 & W3).
    eapply inner; [exact HK|exact HI|exact Hi| |].
    + intros x Hx. destruct (takes f); [|reflexivity]. apply kv_put_ne. congruence.
    + destruct f; cbn [works negb takes]; rewrite ?orb_false_r, ?orb_true_r; assumption.
  - exists m. split; [reflexivity|]. destruct (I2 i o _ fl (ex_intro _ todo Hi)) as (_ & _ & W). cbn in W. destruct W as (_ & _ & W).
    eapply inner; [exact HK|exact HI|exact Hi|reflexivity|apply W].
  - exists m. split; [reflexivity|]. destruct (I2 i o _ fl (ex_intro _ todo Hi)) as (_ & _ & W). cbn in W. destruct W as (_ & _ & W).
    eapply inner; [exact HK|exact HI|exact Hi|reflexivity|exact W].
  - assert (ND : NoDup (map op_key (running c))) by (apply running_nodup; intros; eapply I3; eauto; congruence).
    eexists. split; [split; [exact ND|reflexivity]|]. apply start_inv; [exact Ht|]. intros k Kk.
    destruct (crash_map (running c) m ND) as (A & B).
    destruct (in_dec skey_dec k (map op_key (running c))) as [Hin|Hout].
    + apply in_map_iff in Hin as (o & <- & Ho). rewrite A by exact Ho. apply running_active in Ho as (i & p & fl & Ha).
      destruct (I2 _ _ _ _ Ha) as (_ & _ & W). apply wp_J in W. exact W.
    + rewrite B by exact Hout. apply I4; [exact Kk|]. intros i o p fl Ha E. apply Hout. rewrite <- E. apply in_map, running_active. eauto.
Qed.

Lemma exec_inv ms K c tr c' m : (3 <= ms)%nat -> no_clash K -> mexec ms K c tr c' -> MInv ms K c m ->
  exists m', replay ms m tr m' /\ MInv ms K c' m'.
Proof.
  intros Hms HK E. revert m. induction E as [c|c e c1 tr c2 S E IH]; intros m HI; [exists m; split; [constructor|exact HI]|].
  destruct (step_inv _ _ _ _ _ _ Hms HK HI S) as (m1 & He & HI1). destruct (IH m1 HI1) as (m' & HR & HI'). exists m'. split; [|exact HI'].
  destruct e as [[o r fl|l]|]; cbn in He.
  - destruct He as (v & Hv & ->). econstructor; eauto.
  - destruct He as (ND & ->). constructor; [exact ND|exact HR].
  - subst m1. exact HR.
Qed.

Lemma empty_inv ms K todo : only_keys K todo -> MInv ms K (start kv_empty todo) nothing.
Proof.
  intros H. apply start_inv; [exact H|]. intros k _. split; [split; discriminate|]. intros x _. reflexivity.
Qed.

Lemma c34_refines ms K todo tr c : (1024 <= ms)%nat -> no_clash K -> only_keys K todo ->
  mexec ms K (start kv_empty todo) tr c ->
  (exists m, replay ms nothing tr m) /\ forall k b, K k -> forall i, c_kv c (part_key k i) = Some b -> (length b <= ms)%nat.
Proof.
  intros Hms HK HT E. destruct (exec_inv ms K _ _ _ nothing ltac:(lia) HK E (empty_inv _ _ _ HT)) as (m & HR & HI).
  split; [exists m; exact HR|]. intros k b Kk i Hb.
  assert (W : wf ms (c_kv c) k).
  { destruct (in_dec skey_dec k (map op_key (running c))) as [Hin|Hout].
    - apply in_map_iff in Hin as (o & <- & Ho). apply running_active in Ho as (j & p & fl & Ha).
      destruct (mi_act _ _ _ _ HI _ _ _ _ Ha) as (_ & _ & W). apply wp_J in W. apply W.
    - apply (mi_idle _ _ _ _ HI); [exact Kk|]. intros j o p fl Ha E'. apply Hout. rewrite <- E'. apply in_map, running_active. eauto. }
  destruct W as (_ & W). apply (W (part_key k i)); [exists i; reflexivity|exact Hb].
Qed.

Definition concr (m : amap) (f : skey -> option bytes) : Prop :=
  forall k, (m k = Fresh /\ f k = None) \/ m k = Known (f k).
Lemma concr_put m f k v : concr m f -> concr (aput m k (Known v)) (fun k' => if skey_dec k k' then v else f k').
Proof. intros H k'. unfold aput. destruct (skey_dec k k'); [right; reflexivity|apply H]. Qed.
Lemma concr_same m f k a : concr m f -> a = m k -> concr (aput m k a) f.
Proof. intros H -> k'. unfold aput. destruct (skey_dec k k') as [<-|]; apply H. Qed.
Lemma replay_plain ms m tr m' : replay ms m tr m' -> forall f, concr m f -> plain ms f tr.
Proof.
  induction 1 as [m|m o r fl v tr m' Hr Hp IH|m l tr m' ND Hp IH]; intros f Hc; [exact I| |exact I].
  destruct fl; [destruct o; exact I|]. destruct o as [k|k b|k]; cbn [op_key] in *; cbn [plain]; destruct r; cbn in Hr; try contradiction.
  - destruct Hr as (Hf & ->). destruct (Hc k) as [(E & Ef)|E]; rewrite E in Hf; unfold may_find in Hf.
    + destruct Hf as [C|[C|C]]; discriminate.
    + destruct Hf as [C|[C|C]]; try discriminate. injection C as C. rewrite C. split; [reflexivity|]. apply IH, concr_same; [exact Hc|congruence].
  - destruct Hr as (Hm & ->). assert (Ef : f k = None).
    { destruct (Hc k) as [(E & Ef)|E]; [exact Ef|]. rewrite E in Hm. destruct (f k) as [b|]; [destruct (Hm b); reflexivity|reflexivity]. }
    rewrite Ef. split; [reflexivity|]. apply IH, concr_same; [exact Hc|]. destruct (Hc k) as [(E & _)|E]; rewrite E; [reflexivity|congruence].
  - destruct Hr; discriminate.
  - left. destruct Hr as (Hb & ->). split; [exact Hb|]. split; [reflexivity|]. apply IH, concr_same; auto.
  - right. destruct Hr as (Hb & ->). split; [exact Hb|]. split; [reflexivity|]. apply IH, concr_put, Hc.
  - destruct Hr as (_ & C & _). discriminate.
  - split; [reflexivity|]. apply IH. subst v. destruct (Hc k) as [(E & Ef)|E]; rewrite E.
    + intros k'. unfold aput. destruct (skey_dec k k'); [left; auto|apply Hc].
    + apply concr_put, Hc.
  - destruct Hr; discriminate.
Qed.
Lemma c34_plain ms K todo tr c : (1024 <= ms)%nat -> no_clash K -> only_keys K todo ->
  mexec ms K (start kv_empty todo) tr c -> plain ms (fun _ => None) tr.
Proof.
  intros Hms HK HT E. destruct (c34_refines ms K todo tr c Hms HK HT E) as ((m & HR) & _).
  eapply replay_plain; [exact HR|]. intros k. left. auto.
Qed.

(** *** a call cut short on a fresh key *)
Lemma replay_app ms tr1 : forall m tr2 m', replay ms m (tr1 ++ tr2) m' -> exists m1, replay ms m tr1 m1 /\ replay ms m1 tr2 m'.
Proof.
  induction tr1 as [|e tr1 IH]; intros m tr2 m' H; [exists m; split; [constructor|exact H]|].
  cbn [app] in H. inversion H as [|? o r fl v ? ? Hr Hp|? l ? ? ND Hp]; subst; destruct (IH _ _ _ Hp) as (m1 & A & B); exists m1; (split; [|exact B]).
  - econstructor; eauto.
  - constructor; assumption.
Qed.
Lemma replay_untouched ms k m tr m' : replay ms m tr m' -> untouched k tr -> m' k = m k.
Proof.
  induction 1 as [m|m o r fl v tr m' Hr Hp IH|m l tr m' ND Hp IH]; intros U; [reflexivity| |]; inversion U as [|? ? U1 U2]; subst; rewrite (IH U2).
  - apply aput_ne. exact U1.
  - apply (crash_map l m ND). exact U1.
Qed.
Lemma c35_fresh ms K todo tr0 l tr1 k b r fl tr2 c : (1024 <= ms)%nat -> no_clash K -> only_keys K todo ->
  mexec ms K (start kv_empty todo) (tr0 ++ Crash l :: tr1 ++ Fin (MGet k) r fl :: tr2) c ->
  untouched k tr0 -> In (MSet k b) l -> untouched k tr1 ->
  r = RFound b \/ r = RNotFound \/ (r = RErr /\ fl = true).
Proof.
  intros Hms HK HT E U0 Hl U1. destruct (c34_refines ms K todo _ c Hms HK HT E) as ((m & HR) & _).
  apply replay_app in HR as (m0 & A & HR). pose proof (replay_untouched _ _ _ _ _ A U0) as E0.
  inversion HR as [| |? ? ? ? ND HR1]; subst. destruct (crash_map l m0 ND) as (B & _). specialize (B _ Hl). cbn [op_key] in B.
  rewrite E0 in B. cbn in B.
  apply replay_app in HR1 as (m1 & A1 & HR1). pose proof (replay_untouched _ _ _ _ _ A1 U1) as E1. rewrite B in E1.
  inversion HR1 as [|? ? ? ? v ? ? Hr HR2|]; subst. cbn [op_key] in Hr. rewrite E1 in Hr. destruct r; cbn in Hr; try contradiction.
  - destruct Hr as ([C|[C|C]] & _); try discriminate. injection C as <-. auto.
  - auto.
  - right. right. tauto.
Qed.
Lemma c35_failed ms K todo tr0 tr1 k b r fl tr2 c : (1024 <= ms)%nat -> no_clash K -> only_keys K todo ->
  mexec ms K (start kv_empty todo) (tr0 ++ Fin (MSet k b) RErr true :: tr1 ++ Fin (MGet k) r fl :: tr2) c ->
  untouched k tr0 -> untouched k tr1 ->
  r = RFound b \/ r = RNotFound \/ (r = RErr /\ fl = true).
Proof.
  intros Hms HK HT E U0 U1. destruct (c34_refines ms K todo _ c Hms HK HT E) as ((m & HR) & _).
  apply replay_app in HR as (m0 & A & HR). pose proof (replay_untouched _ _ _ _ _ A U0) as E0.
  inversion HR as [|? ? ? ? v0 ? ? Hr0 HR1|]; subst. cbn [op_key] in *. rewrite E0 in Hr0. cbn in Hr0. destruct Hr0 as (_ & _ & ->).
  apply replay_app in HR1 as (m1 & A1 & HR1). pose proof (replay_untouched _ _ _ _ _ A1 U1) as E1. rewrite aput_eq in E1.
  inversion HR1 as [|? ? ? ? v ? ? Hr HR2|]; subst. cbn [op_key] in Hr. rewrite E1 in Hr. destruct r; cbn in Hr; try contradiction.
  - destruct Hr as ([C|[C|C]] & _); try discriminate. injection C as <-. auto.
  - auto.
  - right. right. tauto.
Qed.
Lemma c34_refuses ms k b : too_big ms b -> (1 <= ms)%nat -> op_prog ms (MSet k b) = Ret RTooBig.
Proof.
  intros H Hms. unfold too_big in H. cbn. unfold ms_set.
  assert (E : 65535 <=? N.of_nat (total_parts ms b) = true); [|rewrite E; reflexivity].
  apply N.leb_le. unfold total_parts. rewrite Nat2N.inj_div. apply N.div_le_lower_bound; [lia|].
  replace (length b + 3 + ms - 1)%nat with (length b + 2 + ms)%nat by lia. rewrite !Nat2N.inj_add. 
  change (N.of_nat 2) with 2. nia.
Qed.

(** *** running a schedule, for examples *)
Inductive choice := Go (i : nat) (f : fate) | Boom (todo : list (list mop)).
Definition sstep (ms : nat) (c : config) (x : choice) : option (option event * config) :=
  match x with
  | Boom todo => Some (Some (Crash (running c)), start (c_kv c) todo)
  | Go i f =>
    match nth_error (c_thr c) i with
    | Some (mkT (o :: todo) None) =>
      if c_locked c (map_key (op_key o)) then None else
      Some (None, mkC (c_kv c) (c_parts c) (set_at (c_locked c) (map_key (op_key o)) true)
           (set_thr c i (mkT todo (Some (o, op_prog ms o, false)))))
    | Some (mkT todo (Some (o, p, fl))) =>
      match p with
      | Ret r => Some (Some (Fin o r fl), mkC (c_kv c) (c_parts c) (set_at (c_locked c) (map_key (op_key o)) false)
           (set_thr c i (mkT todo None)))
      | SGet k p => Some (None, mkC (c_kv c) (c_parts c) (c_locked c)
           (set_thr c i (mkT todo (Some (o, p (if works f then Some (c_kv c k) else None), fl || negb (works f))))))
      | SPut k v p => Some (None, mkC (if takes f then kv_put (c_kv c) k (Some v) else c_kv c) (c_parts c) (c_locked c)
           (set_thr c i (mkT todo (Some (o, p (works f), fl || negb (works f))))))
      | SDel k p => Some (None, mkC (if takes f then kv_put (c_kv c) k None else c_kv c) (c_parts c) (c_locked c)
           (set_thr c i (mkT todo (Some (o, p (works f), fl || negb (works f))))))
      | HGet h p => Some (None, mkC (c_kv c) (c_parts c) (c_locked c) (set_thr c i (mkT todo (Some (o, p (c_parts c h), fl)))))
      | HPut h n p => Some (None, mkC (c_kv c) (set_at (c_parts c) h n) (c_locked c) (set_thr c i (mkT todo (Some (o, p, fl)))))
      end
    | _ => None
    end
  end.
Fixpoint sched (ms : nat) (c : config) (xs : list choice) : list event :=
  match xs with
  | [] => []
  | x :: xs => match sstep ms c x with
               | None => sched ms c xs
               | Some (e, c') => match e with Some e => e :: sched ms c' xs | None => sched ms c' xs end
               end
  end.
Definition keys_ok (K : skey -> Prop) (xs : list choice) : Prop :=
  Forall (fun x => match x with Boom todo => only_keys K todo | _ => True end) xs.
Lemma sched_ok ms K xs : forall c, keys_ok K xs -> exists c', mexec ms K c (sched ms c xs) c'.
Proof.
  induction xs as [|x xs IH]; intros c HK; [exists c; constructor|]. inversion HK as [|? ? H1 H2]; subst. cbn [sched].
  destruct (sstep ms c x) as [(e & c1)|] eqn:E; [|apply IH, H2].
  destruct (IH c1 H2) as (c' & X). exists c'. apply (Ex_step ms K c e c1); [|exact X]. clear X IH.
  destruct x as [i f|todo]; cbn in E.
  - destruct (nth_error (c_thr c) i) as [[[|o todo] [((o' & p) & fl)|]]|] eqn:En; try discriminate.
    + destruct p; injection E as <- <-; econstructor; eauto.
    + destruct p; injection E as <- <-; econstructor; eauto.
    + destruct (c_locked c (map_key (op_key o))) eqn:El; [discriminate|]. injection E as <- <-. econstructor; eauto.
  - injection E as <- <-. constructor. exact H1.
Qed.
Lemma same_len_no_clash (K : skey -> Prop) n : (forall k, K k -> String.length (snd k) = n) -> no_clash K.
Proof.
  intros H k1 k2 j H1 H2 _ E. apply (f_equal String.length) in E. rewrite !str_len_app, (H _ H1), (H _ H2) in E. cbn in E. lia.
Qed.
