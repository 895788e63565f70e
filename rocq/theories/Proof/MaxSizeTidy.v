(** The size-limiting store leaves no parts behind. *)
From Coq Require Import Strings.String Strings.Ascii Strings.Byte.
From Verif.Lib Require Import Prelude ListAux.
From Verif.Model Require Import KV MaxSize.
From Verif.Spec Require Import MaxSizeSpec.
From Verif.Proof Require Import KVP MaxSizeP MaxSizeRun.
Open Scope N_scope.

Definition counter (ms : nat) (b : bytes) : bytes := put_uvarint 10 (N.of_nat (total_parts ms b - 1)).
Definition parts (ms : nat) (b : bytes) : list bytes := chunks ms (total_parts ms b) (counter ms b ++ b).
Definition memo (n : nat) : nat := if Nat.eqb n 1 then O else n.
Definition laid (ms : nat) (s : kv) (k : skey) (v : option bytes) (h : nat) : Prop :=
  match v with
  | None => (forall j, s (part_key k j) = None) /\ h = O
  | Some b => (forall j, s (part_key k j) = nth_error (parts ms b) j) /\ h = memo (total_parts ms b) /\ ~ too_big ms b
  end.

Lemma total_pos ms b : (3 <= ms)%nat -> (1 <= total_parts ms b)%nat.
Proof. intros H. unfold total_parts. apply Nat.div_le_lower_bound; lia. Qed.
Lemma parts_len ms b : length (parts ms b) = total_parts ms b.
Proof. apply chunks_len. Qed.
Lemma parts_head ms b : (3 <= ms)%nat -> ~ too_big ms b ->
  exists f rest size, parts ms b = f :: rest /\ uvarint f = Some (N.of_nat (total_parts ms b - 1), size).
Proof.
  intros Hms HT. pose proof (total_pos ms b Hms) as Ht1. pose proof (too_big_iff ms b Hms) as TB.
  assert (L : N.of_nat (total_parts ms b) < 65535). { destruct (N.lt_ge_cases (N.of_nat (total_parts ms b)) 65535); tauto. }
  unfold parts, counter. set (total := total_parts ms b) in *. set (uv := put_uvarint 10 (N.of_nat (total - 1))).
  assert (Huv : (length uv <= 3)%nat).
  { apply (put_uvarint_len 2). change (128 ^ N.of_nat 3) with 2097152. lia. }
  destruct total as [|t] eqn:Et; [lia|]. cbn [chunks].
  assert (E : firstn (Nat.min ms (length (uv ++ b))) (uv ++ b) = uv ++ firstn (Nat.min ms (length (uv ++ b)) - length uv) b).
  { rewrite firstn_app. f_equal. apply firstn_all2. rewrite app_length. lia. }
  eexists _, _, _. split; [reflexivity|]. rewrite E. apply uvarint_ok. lia.
Qed.

(** ** a call that meets no failure *)
Fixpoint tw (k : skey) (p : prog mres) (s : kv) (h : nat) (R : mres -> kv -> nat -> Prop) : Prop :=
  match p with
  | Ret r => R r s h
  | SGet x c => tw k (c (Some (s x))) s h R
  | SPut x v c => tw k (c true) (kv_put s x (Some v)) h R
  | SDel x c => tw k (c true) (kv_put s x None) h R
  | HGet _ c => tw k (c h) s h R
  | HPut _ n c => tw k c s n R
  end.
Definition next (o : mop) (r : mres) (v : option bytes) : option bytes :=
  match o, r with
  | MSet _ b, ROk => Some b
  | MDel _, ROk => None
  | _, _ => v
  end.
Definition done (ms : nat) (o : mop) (v : option bytes) (r : mres) (s : kv) (h : nat) : Prop :=
  laid ms s (op_key o) (next o r v) h.
Lemma laid_local ms s s' k v h : same_on k s s' -> laid ms s k v h -> laid ms s' k v h.
Proof.
  intros E. assert (E' : forall j, s (part_key k j) = s' (part_key k j)) by (intros j; apply E; exists j; reflexivity).
  destruct v as [b|]; cbn.
  - intros (A & B). split; [|exact B]. intros j. rewrite <- E'. apply A.
  - intros (A & B). split; [|exact B]. intros j. rewrite <- E'. apply A.
Qed.
Fixpoint within (k : skey) (p : prog mres) : Prop :=
  match p with
  | Ret _ => True
  | SGet x c => fp k x /\ forall r, within k (c r)
  | SPut x _ c | SDel x c => fp k x /\ forall r, within k (c r)
  | HGet h c => h = map_key k /\ forall n, within k (c n)
  | HPut h _ c => h = map_key k /\ within k c
  end.
Lemma tw_local ms o v : forall p s s' h, within (op_key o) p -> same_on (op_key o) s s' ->
  tw (op_key o) p s h (done ms o v) -> tw (op_key o) p s' h (done ms o v).
Proof.
  induction p as [r|x c IH|x w c IH|x c IH|y c IH|y n c IH]; intros s s' h W E H; cbn [tw within] in *.
  - eapply laid_local; eauto.
  - destruct W as (F & W). rewrite <- (E x F). eapply IH; eauto.
  - destruct W as (F & W). eapply IH; eauto using same_put.
  - destruct W as (F & W). eapply IH; eauto using same_put.
  - destruct W as (F & W). eapply IH; eauto.
  - destruct W as (F & W). eapply IH; eauto.
Qed.

Lemma within_get_parts k : forall cnt i b, within k (get_parts k cnt i b).
Proof.
  induction cnt as [|n IH]; intros i b; cbn [get_parts within]; [exact I|]. split; [apply fp_ext|].
  intros [[b2|]|]; [apply IH|exact I|exact I].
Qed.
Lemma within_del_parts k c : within k c -> forall cnt i, within k (del_parts k cnt i c).
Proof.
  intros H. induction cnt as [|n IH]; intros i; cbn [del_parts within]; [exact H|]. split; [exists i; reflexivity|].
  intros [|]; [apply IH|exact I].
Qed.
Lemma within_del_extra k c : within k c -> forall cnt i, within k (del_extra k cnt i c).
Proof.
  intros H. induction cnt as [|n IH]; intros i; cbn [del_extra within]; [exact H|]. split; [apply fp_ext|]. intros _. apply IH.
Qed.
Lemma within_put_parts ms k c : within k c -> forall cnt i b, within k (put_parts ms k cnt i b c).
Proof.
  intros H. induction cnt as [|n IH]; intros i b; cbn [put_parts within]; [exact H|]. split; [exists i; reflexivity|].
  intros [|]; [apply IH|exact I].
Qed.
Lemma op_within ms o : within (op_key o) (op_prog ms o).
Proof.
  destruct o as [k|k b|k]; cbn [op_key op_prog].
  - unfold ms_get. cbn [within]. split; [apply fp_self|]. intros [[b|]|]; try exact I.
    destruct (uvarint b) as [(n & size)|]; [|exact I]. destruct (n =? 0); cbn [within]; (split; [reflexivity|]); [exact I|apply within_get_parts].
  - unfold ms_set. destruct (65535 <=? _); [exact I|]. cbn [within]. split; [reflexivity|]. intros n.
    apply within_del_extra, within_put_parts. cbn. auto.
  - unfold ms_del. cbn [within]. split; [reflexivity|]. intros [|n].
    + cbn [within]. split; [apply fp_self|]. intros [[b|]|]; try exact I. apply within_del_parts. cbn. auto.
    + apply within_del_parts. cbn. auto.
Qed.

(** ** Get *)
Lemma tw_get_parts ms k v s h : laid ms s k v h -> forall cnt i b, tw k (get_parts k cnt i b) s h (done ms (MGet k) v).
Proof.
  intros L. induction cnt as [|n IH]; intros i b; cbn [get_parts tw]; [exact L|].
  destruct (s (ext_key k (N.of_nat i))); [apply IH|exact L].
Qed.
Lemma get_tidy ms k v s h : (3 <= ms)%nat -> laid ms s k v h -> tw k (ms_get k) s h (done ms (MGet k) v).
Proof.
  intros Hms L. unfold ms_get. cbn [tw]. destruct v as [b|].
  - pose proof L as (A & B & HT). destruct (parts_head ms b Hms HT) as (f & rest & size & E & U).
    pose proof (A O) as A0. cbn [part_key] in A0. rewrite E in A0. cbn [nth_error] in A0. rewrite A0, U.
    pose proof (total_pos ms b Hms) as T.
    destruct (N.eqb_spec (N.of_nat (total_parts ms b - 1)) 0) as [Hz|Hz].
    + cbn [tw]. unfold done. cbn. split; [exact A|]. split; [|exact HT]. unfold memo. destruct (Nat.eqb_spec (total_parts ms b) 1); lia.
    + cbn [tw]. rewrite Nat2N.id. apply tw_get_parts. cbn. split; [exact A|]. split; [|exact HT].
      unfold memo. destruct (Nat.eqb_spec (total_parts ms b) 1); lia.
  - pose proof L as (A & B). pose proof (A O) as A0. cbn [part_key] in A0. rewrite A0. exact L.
Qed.

(** ** Delete *)
Lemma put_part_none s k i j : kv_put s (part_key k i) None (part_key k j) = if Nat.eq_dec i j then None else s (part_key k j).
Proof.
  unfold kv_put. destruct (Nat.eq_dec i j) as [->|Hne].
  - destruct (skey_dec _ _); congruence.
  - destruct (skey_dec _ _) as [E|E]; [apply part_inj in E; congruence|reflexivity].
Qed.
Lemma tw_del_parts k c h (R : mres -> kv -> nat -> Prop) : forall cnt i s,
  (forall s', (forall j, s' (part_key k j) = if (Nat.leb i j && Nat.ltb j (i + cnt))%bool then None else s (part_key k j)) -> tw k c s' h R) ->
  tw k (del_parts k cnt i c) s h R.
Proof.
  induction cnt as [|n IH]; intros i s H; cbn [del_parts tw].
  - apply H. intros j. destruct (Nat.leb_spec i j), (Nat.ltb_spec j (i + 0)); cbn; try reflexivity; lia.
  - apply IH. intros s' E. apply H. intros j. rewrite E, put_part_none.
    destruct (Nat.leb_spec (S i) j), (Nat.ltb_spec j (S i + n)), (Nat.leb_spec i j), (Nat.ltb_spec j (i + S n)), (Nat.eq_dec i j); cbn; try reflexivity; lia.
Qed.
Lemma del_tidy ms k v s h : (3 <= ms)%nat -> laid ms s k v h -> tw k (ms_del k) s h (done ms (MDel k) v).
Proof.
  intros Hms L. unfold ms_del. cbn [tw].
  assert (G : forall n s0, (forall j, (n <= j)%nat -> s0 (part_key k j) = None) ->
     tw k (del_parts k n 0 (HPut (map_key k) 0 (Ret ROk))) s0 h (done ms (MDel k) v)).
  { intros n s0 E. apply tw_del_parts. intros s' E'. cbn [tw]. unfold done. cbn. split; [|reflexivity].
    intros j. rewrite E'. destruct (Nat.leb_spec 0 j), (Nat.ltb_spec j (0 + n)); cbn; try reflexivity; try lia. apply E. lia. }
  destruct v as [b|].
  - pose proof L as (A & B & HT). pose proof (total_pos ms b Hms) as T.
    assert (O : forall j, (total_parts ms b <= j)%nat -> s (part_key k j) = None).
    { intros j Hj. rewrite A. apply nth_error_None. rewrite parts_len. exact Hj. }
    destruct h as [|h'].
    + cbn [tw]. destruct (parts_head ms b Hms HT) as (f & rest & size & E & U).
      pose proof (A 0%nat) as A0. cbn [part_key] in A0. rewrite E in A0. cbn [nth_error] in A0. rewrite A0, U.
      unfold memo in B. destruct (Nat.eqb_spec (total_parts ms b) 1) as [E1|E1]; [|lia].
      rewrite E1. apply G. intros j Hj. apply O. rewrite E1. exact Hj.
    + unfold memo in B. destruct (Nat.eqb_spec (total_parts ms b) 1) as [E1|E1]; [lia|]. apply G. rewrite B. exact O.
  - pose proof L as (A & B). subst h. cbn [tw]. pose proof (A 0%nat) as A0. cbn [part_key] in A0. rewrite A0. exact L.
Qed.

(** ** Set *)
Lemma tw_del_extra k c h (R : mres -> kv -> nat -> Prop) : forall cnt i s, (1 <= i)%nat ->
  (forall s', (forall j, s' (part_key k j) = if (Nat.leb i j && Nat.ltb j (i + cnt))%bool then None else s (part_key k j)) -> tw k c s' h R) ->
  tw k (del_extra k cnt i c) s h R.
Proof.
  induction cnt as [|n IH]; intros i s Hi H; cbn [del_extra tw].
  - apply H. intros j. destruct (Nat.leb_spec i j), (Nat.ltb_spec j (i + 0)); cbn; try reflexivity; lia.
  - assert (Ek : ext_key k (N.of_nat (i - 1)) = part_key k i) by (destruct i as [|i]; [lia|]; cbn [part_key]; do 2 f_equal; lia).
    rewrite Ek. apply IH; [lia|]. intros s' E. apply H. intros j. rewrite E, put_part_none.
    destruct (Nat.leb_spec (S i) j), (Nat.ltb_spec j (S i + n)), (Nat.leb_spec i j), (Nat.ltb_spec j (i + S n)), (Nat.eq_dec i j); cbn; try reflexivity; lia.
Qed.
Lemma tw_put_parts ms k c h (R : mres -> kv -> nat -> Prop) s0 ch :
  (forall s, written k s0 ch (length ch) s -> tw k c s h R) ->
  forall cnt i b s, (i + cnt = length ch)%nat -> skipn i ch = chunks ms cnt b -> written k s0 ch i s ->
    tw k (put_parts ms k cnt i b c) s h R.
Proof.
  intros HC. induction cnt as [|n IH]; intros i b s Hi Hs W; cbn [put_parts].
  - apply HC. replace (length ch) with i by lia. exact W.
  - cbn [chunks] in Hs. set (l := Nat.min ms (length b)) in *.
    assert (Hn : nth_error ch i = Some (firstn l b)).
    { rewrite <- (firstn_skipn i ch), Hs, nth_error_app2 by (rewrite firstn_length; lia).
      rewrite firstn_length. replace (i - Nat.min i (length ch))%nat with O by lia. reflexivity. }
    cbn [tw]. apply IH; [lia| |apply written_next; assumption]. rewrite skipn_S_tl, Hs. reflexivity.
Qed.
Lemma set_tidy ms k b v s h : (3 <= ms)%nat -> laid ms s k v h -> tw k (ms_set ms k b) s h (done ms (MSet k b) v).
Proof.
  intros Hms L. unfold ms_set. pose proof (too_big_iff ms b Hms) as TB. pose proof (total_pos ms b Hms) as T.
  destruct (N.leb_spec 65535 (N.of_nat (total_parts ms b))) as [Lt|Lt]; [exact L|].
  assert (HT : ~ too_big ms b) by (intros C; apply TB in C; lia).
  cbn [tw]. apply tw_del_extra; [exact T|]. intros s0 E0.
  assert (C0 : forall j, (total_parts ms b <= j)%nat -> s0 (part_key k j) = None).
  { intros j Hj. rewrite E0. destruct (Nat.leb_spec (total_parts ms b) j); [|lia]. cbn [andb].
    destruct (Nat.ltb_spec j (total_parts ms b + (h - total_parts ms b))) as [?|Hh]; [reflexivity|].
    destruct v as [b0|]; cbn in L.
    - destruct L as (A & B & HT0). rewrite A. apply nth_error_None. rewrite parts_len.
      unfold memo in B. destruct (Nat.eqb_spec (total_parts ms b0) 1); lia.
    - destruct L as (A & _). apply A. }
  apply (tw_put_parts ms k _ h _ s0 (parts ms b)).
  - intros s1 (W1 & W2). cbn [tw]. unfold done. cbn. rewrite parts_len in *. split; [|split; [reflexivity|exact HT]].
    intros j. destruct (Nat.lt_ge_cases j (total_parts ms b)) as [Hj|Hj]; [apply W1, Hj|].
    rewrite W2 by exact Hj. rewrite C0 by exact Hj. symmetry. apply nth_error_None. rewrite parts_len. exact Hj.
  - rewrite parts_len. reflexivity.
  - reflexivity.
  - split; [lia|reflexivity].
Qed.
Lemma op_tidy ms o v s h : (3 <= ms)%nat -> laid ms s (op_key o) v h -> tw (op_key o) (op_prog ms o) s h (done ms o v).
Proof. destruct o; cbn [op_key op_prog]; [apply get_tidy|apply set_tidy|apply del_tidy]. Qed.

(** ** executions *)
Record TInv (ms : nat) (K : skey -> Prop) (k : skey) (v : option bytes) (c : config) : Prop := {
  ti_todo : forall i t, nth_error (c_thr c) i = Some t -> Forall (fun o => K (op_key o)) (t_todo t);
  ti_act : forall i o p fl, active c i o p fl -> K (op_key o) /\ c_locked c (map_key (op_key o)) = true /\ within (op_key o) p /\
     (op_key o = k -> fl = false -> tw k p (c_kv c) (c_parts c (map_key k)) (done ms o v));
  ti_one : forall i j o p fl o' p' fl', active c i o p fl -> active c j o' p' fl' ->
     map_key (op_key o) = map_key (op_key o') -> i = j;
  ti_idle : (forall i o p fl, active c i o p fl -> op_key o <> k) -> laid ms (c_kv c) k v (c_parts c (map_key k))
}.

Lemma tidy_inner ms K k v c i o p fl todo p' fl' s' h' : no_clash K -> K k ->
  (forall k', K k' -> map_key k' = map_key k -> k' = k) -> TInv ms K k v c ->
  nth_error (c_thr c) i = Some (mkT todo (Some (o, p, fl))) ->
  (forall x, ~ fp (op_key o) x -> s' x = c_kv c x) ->
  (forall y, y <> map_key (op_key o) -> h' y = c_parts c y) ->
  within (op_key o) p' ->
  (op_key o = k -> fl' = false -> tw k p' s' (h' (map_key k)) (done ms o v)) ->
  TInv ms K k v (mkC s' h' (c_locked c) (set_thr c i (mkT todo (Some (o, p', fl'))))).
Proof.
  intros HK Kk HM [I1 I2 I3 I4] Hi Hs Hh Hw Ht. set (c' := mkC _ _ _ _).
  assert (Ha : active c i o p fl) by (exists todo; exact Hi).
  destruct (I2 _ _ _ _ Ha) as (Ko & Lo & _).
  assert (AS : forall j o' p2 fl2, active c' j o' p2 fl2 -> (i = j /\ (o', p2, fl2) = (o, p', fl')) \/ (i <> j /\ active c j o' p2 fl2)).
  { intros j o' p2 fl2. apply (active_set c c' i o p' fl' j o' p2 fl2 (mkT todo (Some (o, p', fl')))); try reflexivity. rewrite Hi. discriminate. }
  assert (SO : op_key o <> k -> same_on k (c_kv c) s' /\ h' (map_key k) = c_parts c (map_key k)).
  { intros Hne. split.
    - intros x Hx. symmetry. apply Hs. intros Hx'. apply Hne. eapply fp_disjoint; eauto.
    - apply Hh. intros E. apply Hne. apply HM; [exact Ko|]. congruence. }
  constructor.
  - intros j t Hj. cbn in Hj. unfold set_thr in Hj. rewrite nth_set in Hj. destruct (Nat.eq_dec i j) as [->|Hne].
    + rewrite Hi in Hj. cbn in Hj. injection Hj as <-. cbn. apply (I1 j _ Hi).
    + apply (I1 j t Hj).
  - intros j o' p2 fl2 Hj. destruct (AS _ _ _ _ Hj) as [(<- & E)|(Hne & Hj')].
    + injection E as -> -> ->. repeat split; auto.
    + destruct (I2 _ _ _ _ Hj') as (K' & L' & W' & T'). split; [exact K'|]. split; [exact L'|]. split; [exact W'|].
      intros Ek Ef. specialize (T' Ek Ef). destruct SO as (S1 & S2).
      { intros E. apply Hne. eapply I3; eauto. congruence. }
      cbn. rewrite S2. revert S1 T'. rewrite <- Ek. intros S1 T'. eapply tw_local; eauto.
  - intros a b oa pa fa ob pb fb Ha' Hb' E.
    destruct (AS _ _ _ _ Ha') as [(<- & Ea)|(Na & Ha2)], (AS _ _ _ _ Hb') as [(<- & Eb)|(Nb & Hb2)]; try reflexivity.
    + injection Ea as -> -> ->. eapply I3; eauto.
    + injection Eb as -> -> ->. eapply I3; eauto.
    + eapply I3; eauto.
  - intros Hidle. assert (Hidle' : forall j o2 p2 fl2, active c j o2 p2 fl2 -> op_key o2 <> k).
    { intros j o2 p2 fl2 Hj. destruct (Nat.eq_dec i j) as [<-|Hne].
      - assert (o2 = o) by (destruct Ha as (? & Ha), Hj as (? & Hj); congruence). subst o2.
        apply (Hidle i o p' fl'). exists todo. cbn. unfold set_thr. rewrite nth_set, Hi. destruct (Nat.eq_dec i i); [reflexivity|congruence].
      - destruct Hj as (td & Hj). apply (Hidle j o2 p2 fl2). exists td. cbn. unfold set_thr. rewrite nth_set. destruct (Nat.eq_dec i j); [congruence|exact Hj]. }
    destruct (SO (Hidle' _ _ _ _ Ha)) as (S1 & S2). cbn. rewrite S2. eapply laid_local; [exact S1|]. apply I4, Hidle'.
Qed.

Definition quiet (k : skey) (e : option event) : Prop :=
  match e with None => True | Some (Fin o _ fl) => op_key o = k -> fl = false | Some (Crash _) => False end.
Definition value1 (k : skey) (v : option bytes) (e : option event) : option bytes :=
  match e with
  | Some (Fin o r _) => if skey_dec (op_key o) k then next o r v else v
  | _ => v
  end.
Lemma value_step k v e tr : value_after k v (match e with Some x => x :: tr | None => tr end) = value_after k (value1 k v e) tr.
Proof.
  destruct e as [[o r fl|l]|]; cbn; [|reflexivity|reflexivity].
  destruct o as [k'|k' b|k'], r; cbn; destruct (skey_dec k' k); reflexivity.
Qed.

Lemma tidy_step ms K k v c e c' : (3 <= ms)%nat -> no_clash K -> K k ->
  (forall k', K k' -> map_key k' = map_key k -> k' = k) ->
  TInv ms K k v c -> mstep ms K c e c' -> quiet k e -> TInv ms K k (value1 k v e) c'.
Proof.
  intros Hms HK Kk HM HI S Hq. pose proof HI as [I1 I2 I3 I4].
  inversion S as [c0 i o todo Hi Hl|c0 i o todo r fl Hi|c0 i o todo x p fl f Hi|c0 i o todo x w p fl f Hi|c0 i o todo x p fl f Hi|
                  c0 i o todo y p fl Hi|c0 i o todo y n p fl Hi|c0 todo Ht]; subst; clear S; cbn [value1].
  - set (c' := mkC _ _ _ _).
    assert (Ko : K (op_key o)) by (pose proof (I1 i _ Hi) as F; cbn in F; inversion F; assumption).
    assert (NA : forall j o' p' fl', active c j o' p' fl' -> map_key (op_key o') <> map_key (op_key o)).
    { intros j o' p' fl' Hj E. destruct (I2 _ _ _ _ Hj) as (_ & L & _). rewrite E in L. congruence. }
    assert (AS : forall j o' p2 fl2, active c' j o' p2 fl2 -> (i = j /\ (o', p2, fl2) = (o, op_prog ms o, false)) \/ (i <> j /\ active c j o' p2 fl2)).
    { intros j o' p2 fl2. apply (active_set c c' i o (op_prog ms o) false j o' p2 fl2 (mkT todo (Some (o, op_prog ms o, false)))); try reflexivity. rewrite Hi. discriminate. }
    constructor.
    + intros j t Hj. cbn in Hj. unfold set_thr in Hj. rewrite nth_set in Hj. destruct (Nat.eq_dec i j) as [->|Hne].
      * rewrite Hi in Hj. cbn in Hj. injection Hj as <-. cbn. pose proof (I1 j _ Hi) as F; cbn in F; inversion F; assumption.
      * apply (I1 j t Hj).
    + intros j o' p2 fl2 Hj. destruct (AS _ _ _ _ Hj) as [(<- & E)|(Hne & Hj')].
      * injection E as -> -> ->. split; [exact Ko|]. split; [cbn; unfold set_at; destruct (string_dec _ _); congruence|].
        split; [apply op_within|]. intros Ek _. cbn. rewrite <- Ek. apply op_tidy; [exact Hms|]. rewrite Ek. apply I4.
        intros j o' p' fl' Hj' E. apply (NA _ _ _ _ Hj'). congruence.
      * destruct (I2 _ _ _ _ Hj') as (K' & L' & W'). split; [exact K'|]. split; [|exact W'].
        cbn. unfold set_at. destruct (string_dec _ _); [reflexivity|exact L'].
    + intros a b oa pa fa ob pb fb Ha' Hb' E.
      destruct (AS _ _ _ _ Ha') as [(<- & Ea)|(Na & Ha2)], (AS _ _ _ _ Hb') as [(<- & Eb)|(Nb & Hb2)]; try reflexivity.
      * injection Ea as -> -> ->. exfalso. apply (NA _ _ _ _ Hb2). congruence.
      * injection Eb as -> -> ->. exfalso. apply (NA _ _ _ _ Ha2). congruence.
      * eapply I3; eauto.
    + intros Hidle. apply I4. intros j o2 p2 fl2 Hj. destruct (Nat.eq_dec i j) as [<-|Hne].
      * destruct Hj as (? & Hj). congruence.
      * destruct Hj as (td & Hj). apply (Hidle j o2 p2 fl2). exists td. cbn. unfold set_thr. rewrite nth_set. destruct (Nat.eq_dec i j); [congruence|exact Hj].
  - assert (Ha : active c i o (Ret r) fl) by (exists todo; exact Hi).
    destruct (I2 _ _ _ _ Ha) as (Ko & Lo & _ & To). cbn in Hq. set (c' := mkC _ _ _ _).
    assert (AS : forall j o' p2 fl2, active c' j o' p2 fl2 -> i <> j /\ active c j o' p2 fl2).
    { intros j o' p2 fl2 (td & Hj). cbn in Hj. unfold set_thr in Hj. rewrite nth_set in Hj. destruct (Nat.eq_dec i j) as [->|Hne].
      - rewrite Hi in Hj. discriminate.
      - split; [exact Hne|]. exists td. exact Hj. }
    assert (NK : forall j o' p2 fl2, active c' j o' p2 fl2 -> map_key (op_key o) <> map_key (op_key o')).
    { intros j o' p2 fl2 Hj E. destruct (AS _ _ _ _ Hj) as (Hne & Hj'). apply Hne. eapply I3; eauto. }
    constructor.
    + intros j t Hj. cbn in Hj. unfold set_thr in Hj. rewrite nth_set in Hj. destruct (Nat.eq_dec i j) as [->|Hne].
      * rewrite Hi in Hj. cbn in Hj. injection Hj as <-. cbn. apply (I1 j _ Hi).
      * apply (I1 j t Hj).
    + intros j o' p2 fl2 Hj. pose proof (NK _ _ _ _ Hj) as Hk. destruct (AS _ _ _ _ Hj) as (Hne & Hj').
      destruct (I2 _ _ _ _ Hj') as (K' & L' & W' & T'). split; [exact K'|]. split; [|split; [exact W'|]].
      * cbn. unfold set_at. destruct (string_dec _ _); [congruence|exact L'].
      * intros Ek Ef. destruct (skey_dec (op_key o) k) as [E|_]; [exfalso; apply Hk; congruence|]. apply T'; assumption.
    + intros a b oa pa fa ob pb fb Ha' Hb' E. destruct (AS _ _ _ _ Ha') as (_ & Ha2), (AS _ _ _ _ Hb') as (_ & Hb2). eapply I3; eauto.
    + intros Hidle. destruct (skey_dec (op_key o) k) as [Ek|Hne].
      * specialize (To Ek (Hq Ek)). cbn in To. unfold done in To. rewrite Ek in To. exact To.
      * apply I4. intros j o2 p2 fl2 Hj. destruct (Nat.eq_dec i j) as [<-|Hij].
        -- assert (o2 = o) by (destruct Ha as (? & Ha), Hj as (? & Hj); congruence). congruence.
        -- destruct Hj as (td & Hj). apply (Hidle j o2 p2 fl2). exists td. cbn. unfold set_thr. rewrite nth_set. destruct (Nat.eq_dec i j); [congruence|exact Hj].
  - destruct (I2 i o _ fl (ex_intro _ todo Hi)) as (_ & _ & (F & W) & T).
    eapply tidy_inner; [exact HK|exact Kk|exact HM|exact HI|exact Hi|reflexivity|reflexivity|apply W|].
    destruct f; cbn [works negb]; rewrite ?orb_false_r, ?orb_true_r; try (intros _ C; discriminate). exact T.
  - destruct (I2 i o _ fl (ex_intro _ todo Hi)) as (_ & _ & (F & W) & T).
    eapply tidy_inner; [exact HK|exact Kk|exact HM|exact HI|exact Hi| |reflexivity|apply W|].
    + intros z Hz. destruct (takes f); [|reflexivity]. apply kv_put_ne. congruence.
    + destruct f; cbn [works negb takes]; rewrite ?orb_false_r, ?orb_true_r; try (intros _ C; discriminate). exact T.
  - destruct (I2 i o _ fl (ex_intro _ todo Hi)) as (_ & _ & (F & W) & T).
    eapply tidy_inner; [exact HK|exact Kk|exact HM|exact HI|exact Hi| |reflexivity|apply W|].
    + intros z Hz. destruct (takes f); [|reflexivity]. apply kv_put_ne. congruence.
    + destruct f; cbn [works negb takes]; rewrite ?orb_false_r, ?orb_true_r; try (intros _ C; discriminate). exact T.
  - destruct (I2 i o _ fl (ex_intro _ todo Hi)) as (_ & _ & (F & W) & T).
    eapply tidy_inner; [exact HK|exact Kk|exact HM|exact HI|exact Hi|reflexivity|reflexivity|apply W|].
    intros Ek Ef. specialize (T Ek Ef). cbn in T. rewrite F, Ek. exact T.
  - destruct (I2 i o _ fl (ex_intro _ todo Hi)) as (_ & _ & (F & W) & T).
    eapply tidy_inner; [exact HK|exact Kk|exact HM|exact HI|exact Hi|reflexivity| |exact W|].
    + intros z Hz. unfold set_at. destruct (string_dec y z); congruence.
    + intros Ek Ef. specialize (T Ek Ef). cbn in T. rewrite F, Ek. unfold set_at. destruct (string_dec _ _); [exact T|congruence].
  - destruct Hq.
Qed.

Lemma tidy_exec ms K k c tr c' : (3 <= ms)%nat -> no_clash K -> K k ->
  (forall k', K k' -> map_key k' = map_key k -> k' = k) ->
  mexec ms K c tr c' -> forall v, TInv ms K k v c -> calm k tr -> TInv ms K k (value_after k v tr) c'.
Proof.
  intros Hms HK Kk HM E. induction E as [c|c e c1 tr c2 S E IH]; intros v HI C; [exact HI|].
  rewrite value_step. assert (C' : quiet k e /\ calm k tr).
  { destruct e as [x|]; [|split; [exact I|exact C]]. inversion C; subst. destruct x; auto. }
  destruct C' as (Q & C'). apply IH; [|exact C']. eapply tidy_step; eauto.
Qed.
Lemma tidy_start ms K k todo : only_keys K todo -> TInv ms K k None (start kv_empty todo).
Proof.
  intros HT. assert (NA : forall i o p fl, ~ active (start kv_empty todo) i o p fl).
  { intros i o p fl (td & E). cbn in E. rewrite nth_error_map in E. destruct (nth_error todo i); discriminate. }
  constructor.
  - intros i t E. cbn in E. rewrite nth_error_map in E. destruct (nth_error todo i) as [l|] eqn:El; [|discriminate].
    injection E as <-. cbn. unfold only_keys in HT. rewrite Forall_forall in HT. apply HT. eapply nth_error_In, El.
  - intros i o p fl C. destruct (NA _ _ _ _ C).
  - intros i j o p fl o' p' fl' C. destruct (NA _ _ _ _ C).
  - intros _. split; reflexivity.
Qed.
Lemma total_needed ms b : (1 <= ms)%nat -> parts_needed ms b (total_parts ms b).
Proof.
  intros H. unfold parts_needed, total_parts. set (q := (length b + 3)%nat).
  pose proof (Nat.div_mod (q + ms - 1) ms ltac:(lia)). pose proof (Nat.mod_upper_bound (q + ms - 1) ms ltac:(lia)). split; [nia|].
  intros n' Hn. assert ((q + ms - 1) / ms < S n')%nat; [|lia]. apply Nat.div_lt_upper_bound; nia.
Qed.
Lemma c34_no_leak ms K todo tr c k : (1024 <= ms)%nat -> no_clash K -> only_keys K todo ->
  mexec ms K (start kv_empty todo) tr c -> K k -> (forall k', K k' -> map_key k' = map_key k -> k' = k) ->
  calm k tr -> ~ In k (map op_key (running c)) ->
  match value_after k None tr with
  | None => stored (c_kv c) k 0
  | Some b => exists n, parts_needed ms b n /\ stored (c_kv c) k n
  end.
Proof.
  intros Hms HK HT E Kk HM C Hr.
  pose proof (tidy_exec ms K k _ _ _ ltac:(lia) HK Kk HM E None (tidy_start ms K k todo HT) C) as [_ _ _ I4].
  assert (NA : forall i o p fl, active c i o p fl -> op_key o <> k) by (intros i o p fl Ha Eo; apply Hr; rewrite <- Eo; apply in_map, running_active; eauto). specialize (I4 NA).
  destruct (value_after k None tr) as [b|]; cbn in I4.
  - destruct I4 as (A & _). exists (total_parts ms b). split; [apply total_needed; lia|]. intros i. rewrite A, nth_error_Some, parts_len. reflexivity.
  - destruct I4 as (A & _). intros i. rewrite A. split; [congruence|lia].
Qed.

(** nothing else is ever written *)
Lemma c34_only_parts ms K todo tr c x : (1024 <= ms)%nat -> no_clash K -> only_keys K todo ->
  mexec ms K (start kv_empty todo) tr c -> (forall k i, K k -> x <> part_key k i) -> c_kv c x = None.
Proof.
  intros Hms HK HT E Hx.
  assert (G : forall c tr c', mexec ms K c tr c' -> forall m, MInv ms K c m -> c_kv c x = None -> c_kv c' x = None).
  { clear c tr E. induction 1 as [c|c e c1 tr c2 S E IH]; intros m HI H0; [exact H0|].
    destruct (step_inv ms K c e c1 m ltac:(lia) HK HI S) as (m1 & _ & HI1). apply (IH m1 HI1). clear IH E.
    destruct S as [c i o todo' Hi Hl|c i o todo' r fl Hi|c i o todo' y p fl f Hi|c i o todo' y w p fl f Hi|c i o todo' y p fl f Hi|
                  c i o todo' y p fl Hi|c i o todo' y n p fl Hi|c todo' Ht]; cbn; try exact H0.
    - destruct (mi_act _ _ _ _ HI i o _ fl (ex_intro _ todo' Hi)) as (Ko & _ & _ & (j & F) & _).
      destruct (takes f); [|exact H0]. rewrite kv_put_ne; [exact H0|]. intros ->. apply (Hx (op_key o) j Ko). congruence.
    - destruct (mi_act _ _ _ _ HI i o _ fl (ex_intro _ todo' Hi)) as (Ko & _ & _ & (j & F) & _).
      destruct (takes f); [|exact H0]. rewrite kv_put_ne; [exact H0|]. intros ->. apply (Hx (op_key o) j Ko). congruence. }
  eapply G; [exact E|apply empty_inv, HT|reflexivity].
Qed.

(** *** the state after a schedule, for examples *)
Fixpoint sched_end (ms : nat) (c : config) (xs : list choice) : config :=
  match xs with
  | [] => c
  | x :: xs => match sstep ms c x with None => sched_end ms c xs | Some (_, c') => sched_end ms c' xs end
  end.
Lemma sched_end_ok ms K xs : forall c, keys_ok K xs -> mexec ms K c (sched ms c xs) (sched_end ms c xs).
Proof.
  induction xs as [|x xs IH]; intros c HK; [constructor|]. inversion HK as [|? ? H1 H2]; subst. cbn [sched sched_end].
  destruct (sstep ms c x) as [(e & c1)|] eqn:E; [|apply IH, H2].
  apply (Ex_step ms K c e c1); [|apply IH, H2]. clear IH.
  destruct x as [i f|todo]; cbn in E.
  - destruct (nth_error (c_thr c) i) as [[[|o todo] [((o' & p) & fl)|]]|] eqn:En; try discriminate.
    + destruct p; injection E as <- <-; econstructor; eauto.
    + destruct p; injection E as <- <-; econstructor; eauto.
    + destruct (c_locked c (map_key (op_key o))) eqn:El; [discriminate|]. injection E as <- <-. econstructor; eauto.
  - injection E as <- <-. constructor. exact H1.
Qed.
