From Coq Require Import Strings.String Strings.Byte.
From Verif.Lib Require Import Prelude ListAux.
From Verif.Model Require Import KV MaxSize Wiring.
From Verif.Spec Require Import MaxSizeSpec WiringSpec.
From Verif.Proof Require Import KVP MaxSizeP.
Open Scope Z_scope.

Definition core (c : settings) (w : who) (b : base) : stack :=
  match b with Aero => MaxSize (block_of c - 1024) (Base w Aero) | _ => Base w b end.
Definition core_cl (w : who) (b : base) : list closer := match file_of b with Some _ => [CloseBase w] | None => [] end.

Lemma block_eq c : (if c_block c =? 0 then 1048576 else c_block c) = block_of c. Proof. reflexivity. Qed.
Lemma nb_ok c w opens s b : usable c opens s b -> new_blobstore c w opens s = inl (core c w b, core_cl w b).
Proof.
  unfold new_blobstore. rewrite block_eq. intros [(-> & ->)|[(-> & -> & O & B)|[(-> & -> & O)|(-> & -> & O)]]]; cbn.
  - reflexivity.
  - rewrite O. destruct (Z.ltb_spec (block_of c - 1024) 1024); [lia|]. reflexivity.
  - rewrite O. reflexivity.
  - rewrite O. reflexivity.
Qed.
Lemma nb_inv c w opens s x : new_blobstore c w opens s = inl x -> exists b, usable c opens s b.
Proof.
  unfold new_blobstore, usable. rewrite block_eq.
  destruct (String.eqb_spec s "Badger") as [->|_].
  { destruct (opens _) eqn:O; [|discriminate]. intros _. eexists. right. right. right. split; [reflexivity|]. split; [reflexivity|exact O]. }
  destruct (String.eqb_spec s "BoltDB") as [->|_].
  { destruct (opens _) eqn:O; [|discriminate]. intros _. eexists. right. right. left. split; [reflexivity|]. split; [reflexivity|exact O]. }
  destruct (String.eqb_spec s "Memory") as [->|_].
  { intros _. eexists. left. split; reflexivity. }
  destruct (String.eqb_spec s "Aerospike") as [->|_]; [|discriminate].
  destruct (opens Aero) eqn:O; [|discriminate]. destruct (Z.ltb_spec (block_of c - 1024) 1024); [discriminate|].
  intros _. exists Aero. right. left. repeat split; try reflexivity; try exact O. lia.
Qed.
Lemma bases_core c w b : bases (core c w b) = [b].
Proof. destruct b; reflexivity. Qed.
Lemma usable_fun c opens s b b' : usable c opens s b -> usable c opens s b' -> b = b'.
Proof. unfold usable. intuition (subst; try discriminate; reflexivity). Qed.

Lemma wants_dec c : (negb (c_backup c =? "")%string && (0 <? c_backup_every c) = true) <-> wants_backup c.
Proof.
  unfold wants_backup. rewrite andb_true_iff, negb_true_iff, Z.ltb_lt, String.eqb_neq. tauto.
Qed.
Lemma lazy_dec c : lazy_ok c = true <-> good_lazy c.
Proof. unfold lazy_ok, good_lazy. rewrite !andb_true_iff, !Z.leb_le, !Z.ltb_lt. lia. Qed.
Lemma cache_dec c : cache_ok c = true <-> good_cache c.
Proof.
  unfold cache_ok, good_cache. destruct (Z.ltb_spec 0 (c_entries c)) as [L|L].
  - cbn [existsb]. rewrite !orb_true_iff, !String.eqb_eq. split; [intros H _; intuition congruence|intros H; destruct (H L) as [E|[E|[E|E]]]; auto 6].
  - split; [lia|reflexivity].
Qed.

(** everything [wire_up] gives, in one description *)
Definition top (c : settings) (s : stack) : stack := if c_lazy c then Lazy s else s.
Definition top_cl (c : settings) : list closer := if c_lazy c then [CloseLazy] else [].
Inductive gives (c : settings) (opens : list base -> base -> bool) : wired -> Prop :=
| g_none b : usable c (opens []) (c_storage c) b -> ~ wants_backup c ->
    gives c opens (mkWired (top c (wrap_retry c (core c Main b))) None (top_cl c ++ core_cl Main b))
| g_master b : usable c (opens []) (c_storage c) b -> wants_backup c -> c_backup_set c <> ""%string -> c_backup c = "Master"%string ->
    gives c opens (mkWired (top c (wrap_retry c (core c Main b))) (Some (wrap_retry c (core c Main b), c_backup_set c)) (top_cl c ++ core_cl Main b))
| g_two b b2 : usable c (opens []) (c_storage c) b -> wants_backup c -> c_backup_set c <> ""%string -> c_backup c <> "Master"%string ->
    usable c (opens [b]) (c_backup c) b2 ->
    gives c opens (mkWired (top c (wrap_retry c (core c Main b))) (Some (wrap_retry c (core c Back b2), c_backup_set c))
                           (top_cl c ++ core_cl Back b2 ++ core_cl Main b)).
Definition rest_ok (c : settings) : Prop := (c_lazy c = true -> good_lazy c) /\ good_cache c /\ c_master c <> ""%string.

Lemma rest_dec c : (c_lazy c && negb (lazy_ok c) = false /\ negb (cache_ok c) = false /\ (c_master c =? "")%string = false) <-> rest_ok c.
Proof.
  unfold rest_ok. rewrite <- lazy_dec, <- cache_dec, andb_false_iff, !negb_false_iff, String.eqb_neq.
  destruct (c_lazy c), (lazy_ok c); intuition congruence.
Qed.
Lemma rev_cl w b : rev (core_cl w b) = core_cl w b. Proof. unfold core_cl. destruct (file_of b); reflexivity. Qed.

Lemma wire_gives c opens w : wire_up c opens = inl w <-> rest_ok c /\ gives c opens w.
Proof.
  unfold wire_up. split.
  - destruct (new_blobstore c Main (opens []) (c_storage c)) as [[s cl]|e] eqn:N1; [|discriminate].
    destruct (nb_inv _ _ _ _ _ N1) as (b & U). rewrite (nb_ok _ _ _ _ _ U) in N1. injection N1 as <- <-. rewrite bases_core.
    assert (FIN : forall bk cl W, (if c_lazy c && negb (lazy_ok c) then inr ELazy else if negb (cache_ok c) then inr ECache
        else if (c_master c =? "")%string then inr ENoSet
        else let '(store, cl0) := if c_lazy c then (Lazy (wrap_retry c (core c Main b)), cl ++ [CloseLazy]) else (wrap_retry c (core c Main b), cl) in
             inl (mkWired store bk (rev cl0))) = inl W ->
        rest_ok c /\ W = mkWired (top c (wrap_retry c (core c Main b))) bk (top_cl c ++ rev cl)).
    { intros bk cl W H. rewrite <- rest_dec. destruct (c_lazy c && negb (lazy_ok c)); [discriminate|].
      destruct (negb (cache_ok c)); [discriminate|]. destruct (c_master c =? "")%string; [discriminate|]. split; [auto|].
      unfold top, top_cl. destruct (c_lazy c); injection H as <-; [rewrite rev_app_distr|]; reflexivity. }
    destruct (negb (c_backup c =? "")%string && (0 <? c_backup_every c)) eqn:Wb.
    + apply wants_dec in Wb. destruct (String.eqb_spec (c_backup_set c) "") as [|Ns]; [discriminate|].
      destruct (String.eqb_spec (c_backup c) "Master") as [M|M]; cbn [negb].
      * intros H. destruct (FIN _ _ _ H) as (R & ->). split; [exact R|]. rewrite rev_cl. apply g_master; assumption.
      * destruct (new_blobstore c Back (opens [b]) (c_backup c)) as [[s2 cl2]|e] eqn:N2; [|discriminate].
        destruct (nb_inv _ _ _ _ _ N2) as (b2 & U2). rewrite (nb_ok _ _ _ _ _ U2) in N2. injection N2 as <- <-.
        intros H. destruct (FIN _ _ _ H) as (R & ->). split; [exact R|]. rewrite rev_app_distr, !rev_cl. apply g_two; assumption.
    + intros H. destruct (FIN _ _ _ H) as (R & ->). split; [exact R|]. rewrite rev_cl. apply g_none; [exact U|].
      rewrite <- wants_dec. congruence.
  - intros (R & G). apply rest_dec in R. destruct R as (R1 & R2 & R3).
    destruct G as [b U Nw|b U Wb Ns M|b b2 U Wb Ns M U2]; rewrite (nb_ok _ _ _ _ _ U), ?bases_core.
    + destruct (negb (c_backup c =? "")%string && (0 <? c_backup_every c)) eqn:E; [apply wants_dec in E; tauto|].
      rewrite R1, R2, R3. unfold top, top_cl. destruct (c_lazy c); cbn; rewrite ?rev_app_distr, rev_cl; reflexivity.
    + apply wants_dec in Wb. rewrite Wb. apply String.eqb_neq in Ns. rewrite Ns. rewrite M, String.eqb_refl. cbn [negb].
      rewrite R1, R2, R3. unfold top, top_cl. destruct (c_lazy c); cbn; rewrite ?rev_app_distr, rev_cl; reflexivity.
    + apply wants_dec in Wb. rewrite Wb. apply String.eqb_neq in Ns. rewrite Ns. apply String.eqb_neq in M. rewrite M. cbn [negb].
      rewrite (nb_ok _ _ _ _ _ U2), R1, R2, R3. unfold top, top_cl. destruct (c_lazy c); cbn; rewrite ?rev_app_distr, !rev_cl; reflexivity.
Qed.

Theorem c75_starts c opens : (exists w, wire_up c opens = inl w) <-> startable c opens.
Proof.
  split.
  - intros (w & H). apply wire_gives in H as (R & G). split; [|exact R].
    destruct G as [b U Nw|b U Wb Ns M|b b2 U Wb Ns M U2]; exists b; (split; [exact U|]); intros Wb'; [tauto| |].
    + split; [exact Ns|tauto].
    + split; [exact Ns|]. intros _. exists b2. exact U2.
  - intros ((b & U & Bk) & R).
    destruct (negb (c_backup c =? "")%string && (0 <? c_backup_every c)) eqn:E.
    + apply wants_dec in E. destruct (Bk E) as (Ns & H). destruct (string_dec (c_backup c) "Master") as [M|M].
      * eexists. apply wire_gives. split; [exact R|]. eapply g_master; eauto.
      * destruct (H M) as (b2 & U2). eexists. apply wire_gives. split; [exact R|]. eapply g_two; eauto.
    + eexists. apply wire_gives. split; [exact R|]. eapply g_none; [exact U|]. rewrite <- wants_dec. congruence.
Qed.

Lemma usable_not_master c opens b : ~ usable c opens "Master" b.
Proof. unfold usable. intuition discriminate. Qed.

Lemma on_core c w b w' b' : on (core c w b) w' b' <-> w' = w /\ b' = b.
Proof.
  split.
  - destruct b; cbn; intros H; repeat match goal with H : on _ _ _ |- _ => inversion H; subst; clear H end; auto.
  - intros (-> & ->). destruct b; cbn; repeat constructor.
Qed.
Lemma on_retry_iff c s w b : on (wrap_retry c s) w b <-> on s w b.
Proof. unfold wrap_retry. destruct (c_retry c); [|tauto]. split; intros H; [inversion H; auto|constructor; auto]. Qed.
Lemma on_top c s w b : on (top c s) w b <-> on s w b.
Proof. unfold top. destruct (c_lazy c); [|tauto]. split; intros H; [inversion H; auto|constructor; auto]. Qed.

Theorem c75_stores c opens w : wire_up c opens = inl w ->
  (exists b, usable c (opens []) (c_storage c) b /\ on (w_store w) Main b) /\
  match w_backup w with
  | None => ~ wants_backup c
  | Some (s, set) => wants_backup c /\ set = c_backup_set c /\ set <> ""%string /\
      if string_dec (c_backup c) "Master" then exists b, on (w_store w) Main b /\ on s Main b
      else exists b b2, on (w_store w) Main b /\ usable c (opens [b]) (c_backup c) b2 /\ on s Back b2
  end.
Proof.
  intros H. apply wire_gives in H as (R & G). destruct G as [b U Nw|b U Wb Ns M|b b2 U Wb Ns M U2]; cbn [w_store w_backup].
  - split; [|exact Nw]. exists b. split; [exact U|]. apply on_top, on_retry_iff, on_core. auto.
  - split; [exists b; split; [exact U|]; apply on_top, on_retry_iff, on_core; auto|].
    split; [exact Wb|]. split; [reflexivity|]. split; [exact Ns|]. destruct (string_dec _ _); [|tauto].
    exists b. rewrite on_top, !on_retry_iff, !on_core. auto.
  - split; [exists b; split; [exact U|]; apply on_top, on_retry_iff, on_core; auto|].
    split; [exact Wb|]. split; [reflexivity|]. split; [exact Ns|]. destruct (string_dec _ _); [tauto|].
    exists b, b2. rewrite on_top, !on_retry_iff, !on_core. auto.
Qed.

Lemma core_is_ok c w b : core_ok c (core c w b).
Proof. exists w, b. destruct b; [left|left|left|right]; split; try discriminate; reflexivity. Qed.
Lemma tried_is_ok c w b : tried_ok c (wrap_retry c (core c w b)).
Proof. unfold tried_ok, wrap_retry. destruct (c_retry c); [|apply core_is_ok]. eexists _, _. split; [reflexivity|]. split; [apply core_is_ok|reflexivity]. Qed.
Theorem c75_layers c opens w : wire_up c opens = inl w ->
  stack_ok c (w_store w) /\ forall s set, w_backup w = Some (s, set) -> tried_ok c s.
Proof.
  intros H. apply wire_gives in H as (R & G).
  assert (T : forall b, stack_ok c (top c (wrap_retry c (core c Main b)))).
  { intros b. unfold stack_ok, top. destruct (c_lazy c); [|apply tried_is_ok]. eexists. split; [reflexivity|apply tried_is_ok]. }
  destruct G; cbn [w_store w_backup]; (split; [apply T|]); intros s set E; try discriminate; injection E as <- _; apply tried_is_ok.
Qed.

Theorem c75_close c opens w : wire_up c opens = inl w ->
  NoDup (w_close w) /\ (forall x, In (CloseBase x) (w_close w) <-> keeps_open w x) /\
  (In CloseLazy (w_close w) <-> c_lazy c = true) /\ (c_lazy c = true -> exists l, w_close w = CloseLazy :: l) /\
  (forall l1 l2, w_close w = l1 ++ CloseBase Main :: l2 -> l2 = []).
Proof.
  intros H. apply wire_gives in H as (R & G).
  assert (CB : forall x b, In (CloseBase x) (core_cl x b) <-> file_of b <> None).
  { intros x b. unfold core_cl. destruct (file_of b); cbn; intuition congruence. }
  assert (CN : forall x y b, In (CloseBase x) (core_cl y b) -> x = y).
  { intros x y b. unfold core_cl. destruct (file_of b); cbn; intuition congruence. }
  assert (CT : forall x, ~ In (CloseBase x) (top_cl c)).
  { intros x. unfold top_cl. destruct (c_lazy c); cbn; intuition congruence. }
  destruct G as [b U Nw|b U Wb Ns M|b b2 U Wb Ns M U2].
  1, 2: split; [unfold top_cl, core_cl; destruct (c_lazy c), (file_of b); repeat constructor; cbn; intuition discriminate|];
    split; [intros x; cbn [w_close]; rewrite in_app_iff; split;
      [intros [HI|HI]; [destruct (CT _ HI)|]; pose proof (CN _ _ _ HI); subst x; apply CB in HI;
       exists b, (top c (wrap_retry c (core c Main b))); split; [left; reflexivity|]; split; [|exact HI]; apply on_top, on_retry_iff, on_core; auto
      |intros (b0 & s & Hs & O & F); right; assert (E : x = Main /\ b0 = b) by
        (destruct Hs as [->|(set & Hs)]; cbn in *; [apply on_top, on_retry_iff, on_core in O; exact O
          |first [discriminate|injection Hs as <- _; apply on_retry_iff, on_core in O; exact O]]);
       destruct E as (-> & ->); apply CB, F]|];
    cbn [w_close]; unfold top_cl, core_cl; destruct (c_lazy c), (file_of b); cbn;
    (split; [intuition congruence|]); (split; [intros Q; first [discriminate Q|eauto]|]);
    intros [|x1 [|x2 [|]]] l2 Q; cbn in Q; try discriminate; injection Q; intros; subst; congruence || discriminate.
  split; [unfold top_cl, core_cl; destruct (c_lazy c), (file_of b), (file_of b2); repeat constructor; cbn; intuition discriminate|].
  split.
  { intros x. cbn [w_close]. rewrite !in_app_iff. split.
    - intros [HI|[HI|HI]]; [destruct (CT _ HI)| |]; pose proof (CN _ _ _ HI); subst x; apply CB in HI.
      + exists b2, (wrap_retry c (core c Back b2)). split; [right; eexists; reflexivity|]. split; [|exact HI]. apply on_retry_iff, on_core; auto.
      + exists b, (top c (wrap_retry c (core c Main b))). split; [left; reflexivity|]. split; [|exact HI]. apply on_top, on_retry_iff, on_core; auto.
    - intros (b0 & s & [->|(set & Hs)] & O & F); cbn in *.
      + apply on_top, on_retry_iff, on_core in O as (-> & ->). right. right. apply CB, F.
      + injection Hs as <- _. apply on_retry_iff, on_core in O as (-> & ->). right. left. apply CB, F. }
  cbn [w_close]. unfold top_cl, core_cl. destruct (c_lazy c), (file_of b), (file_of b2); cbn;
    (split; [intuition congruence|]); (split; [intros Q; first [discriminate Q|eauto]|]);
    intros [|x1 [|x2 [|x3 [|]]]] l2 Q; cbn in Q; try discriminate; injection Q; intros; subst; congruence || discriminate.
Qed.

Theorem c75_twice c opens : exclusive opens -> wants_backup c ->
  c_storage c = c_backup c -> c_storage c = "BoltDB"%string \/ c_storage c = "Badger"%string -> forall w, wire_up c opens <> inl w.
Proof.
  intros Ex Wb E K w H. apply wire_gives in H as (R & G). destruct G as [b U Nw|b U _ Ns M|b b2 U _ Ns M U2]; [tauto| |].
  - rewrite <- E in M. destruct K as [K|K]; rewrite K in M; discriminate.
  - rewrite <- E in U2. destruct K as [K|K]; rewrite K in U, U2; unfold usable in U, U2;
      destruct U as [(? & _)|[(? & _)|[(? & -> & O)|(? & -> & O)]]]; try discriminate;
      destruct U2 as [(? & _)|[(? & _)|[(? & -> & O2)|(? & -> & O2)]]]; try discriminate;
      (erewrite Ex in O2; [discriminate O2|left; reflexivity|cbn; discriminate|reflexivity]).
Qed.

(** ** Values *)
Lemma set_retry lib h c s k v : stack_set lib h (wrap_retry c s) k v = stack_set lib h s k v.
Proof. unfold wrap_retry. destruct (c_retry c); reflexivity. Qed.
Lemma run_del put h {k} c : forall cnt i, run_put put h (del_extra k cnt i c) = run_put put h c.
Proof. induction cnt as [|n IH]; intros i; cbn [del_extra run_put]; [reflexivity|apply IH]. Qed.
Fixpoint number (k : skey) (i : nat) (l : list bytes) : list (skey * bytes) :=
  match l with [] => [] | b :: r => (part_key k i, b) :: number k (S i) r end.
Lemma run_parts put h ms k c : forall cnt i b,
  Forall (fun x => forall i, put (part_key k i) x = (ROk, [(part_key k i, x)])) (chunks ms cnt b) ->
  run_put put h (put_parts ms k cnt i b c) =
  (fst (run_put put h c), number k i (chunks ms cnt b) ++ snd (run_put put h c)).
Proof.
  induction cnt as [|n IH]; intros i b F; cbn [put_parts chunks number app run_put] in *.
  - apply surjective_pairing.
  - apply Forall_cons_iff in F as (F1 & F2). rewrite F1. rewrite (IH _ _ F2). reflexivity.
Qed.
Lemma number_fst k : forall l i, map fst (number k i l) = map (part_key k) (seq i (length l)).
Proof. induction l as [|b r IH]; intros i; cbn; [reflexivity|]. rewrite IH. reflexivity. Qed.
Lemma number_snd k : forall l i, map snd (number k i l) = l.
Proof. induction l as [|b r IH]; intros i; cbn; [reflexivity|]. rewrite IH. reflexivity. Qed.
Lemma number_len k l i : length (number k i l) = length l.
Proof. rewrite <- (number_snd k l i) at 2. rewrite map_length. reflexivity. Qed.

Lemma put_aero lib h w k v : Z.of_nat (length v) <= MB -> stack_set lib h (Base w Aero) k v = (ROk, [(k, v)]).
Proof. intros L. cbn. unfold MB in L. destruct (Z.ltb_spec 1048576 (Z.of_nat (length v))); [lia|reflexivity]. Qed.

Lemma set_parts lib h w n k v : (1024 <= n)%nat -> ~ too_big n v ->
  (forall x, In x (chunks n (total_parts n v) (put_uvarint 10 (N.of_nat (total_parts n v - 1)) ++ v)) -> Z.of_nat (length x) <= MB) ->
  fst (run_put (stack_set lib h (Base w Aero)) h (ms_set n k v)) = ROk /\
  cut k v (snd (run_put (stack_set lib h (Base w Aero)) h (ms_set n k v))).
Proof.
  intros Hn TB Hp. unfold ms_set. set (total := total_parts n v) in *.
  assert (L : (N.of_nat total < 65535)%N).
  { destruct (N.leb_spec 65535 (N.of_nat total)) as [L|L]; [|exact L]. apply too_big_iff in L; [tauto|lia]. }
  destruct (N.leb_spec 65535 (N.of_nat total)); [lia|]. cbn [run_put]. rewrite run_del.
  set (uv := put_uvarint 10 (N.of_nat (total - 1))) in *.
  assert (Huv : (length uv <= 3)%nat).
  { apply (put_uvarint_len 2). change (128 ^ N.of_nat 3)%N with 2097152%N. lia. }
  assert (Hlen : (length (uv ++ v) <= total * n)%nat).
  { rewrite app_length. unfold total, total_parts.
    pose proof (Nat.div_mod (length v + 3 + n - 1) n ltac:(lia)).
    pose proof (Nat.mod_upper_bound (length v + 3 + n - 1) n ltac:(lia)). nia. }
  rewrite run_parts.
  2:{ apply Forall_forall. intros x Hx i. apply put_aero, Hp, Hx. }
  cbn [run_put fst snd]. rewrite app_nil_r. split; [reflexivity|]. split.
  - rewrite number_fst, number_len. reflexivity.
  - exists uv. split; [exact Huv|]. rewrite number_snd, chunks_concat by exact Hlen. reflexivity.
Qed.

Lemma core_set_aero lib h c w k v : 2048 <= block_of c ->
  let n := block_of c - 1024 in
  let r := stack_set lib h (core c w Aero) k v in
  (fst r = ROk <-> if n <=? MB then Z.of_nat (length v) + 3 <= 65534 * n else Z.of_nat (length v) < MB) /\
  (fst r = ROk -> cut k v (snd r)) /\ (fst r <> ROk -> fst r = RTooBig /\ snd r = []).
Proof.
  intros Hb. cbn [core stack_set]. set (nz := block_of c - 1024). set (n := Z.to_nat nz).
  assert (Hn : (1024 <= n)%nat) by (unfold n, nz; lia). assert (Hz : Z.of_nat n = nz) by (unfold n, nz; lia).
  assert (TBz : too_big n v <-> 65534 * nz < Z.of_nat (length v) + 3) by (unfold too_big; rewrite <- Hz; lia).
  set (total := total_parts n v). set (uv := put_uvarint 10 (N.of_nat (total - 1))).
  assert (Big : too_big n v -> run_put (stack_set lib h (Base w Aero)) h (ms_set n k v) = (RTooBig, [])).
  { intros TB. unfold ms_set. apply too_big_iff in TB; [|lia]. fold total in TB |- *. destruct (N.leb_spec 65535 (N.of_nat total)); [reflexivity|lia]. }
  assert (Ok : ~ too_big n v -> (forall x, In x (chunks n total (uv ++ v)) -> Z.of_nat (length x) <= MB) ->
    fst (run_put (stack_set lib h (Base w Aero)) h (ms_set n k v)) = ROk /\
    cut k v (snd (run_put (stack_set lib h (Base w Aero)) h (ms_set n k v)))).
  { intros TB Hp. apply set_parts; assumption. }
  destruct (Z.leb_spec nz MB) as [Ln|Ln].
  - assert (D : too_big n v \/ ~ too_big n v) by (rewrite TBz; lia). destruct D as [TB|TB].
    + pose proof (Big TB) as E. cbn [stack_set] in E |- *. rewrite E. cbn [fst snd]. split; [|split].
      * split; [discriminate|]. intros Q. apply TBz in TB. lia.
      * discriminate.
      * auto.
    + destruct (Ok TB) as (O1 & O2).
      { intros x Hx. pose proof (chunks_size n total (uv ++ v)) as F. rewrite Forall_forall in F. specialize (F x Hx). lia. }
      split; [|split].
      * split; [intros _; rewrite TBz in TB; lia|intros _; exact O1].
      * intros _. exact O2.
      * intros Q. exfalso. exact (Q O1).
  - destruct (Z.lt_ge_cases (Z.of_nat (length v)) MB) as [Lv|Lv].
    + assert (TB : ~ too_big n v) by (rewrite TBz; unfold MB in *; lia).
      assert (T2 : (total <= 2)%nat).
      { unfold total, total_parts. apply Nat.lt_succ_r, Nat.div_lt_upper_bound; [lia|]. unfold MB in *. lia. }
      assert (U1 : (length uv <= 1)%nat).
      { unfold uv. apply (put_uvarint_len 0). change (128 ^ N.of_nat 1)%N with 128%N. lia. }
      destruct (Ok TB) as (O1 & O2).
      { intros x Hx. assert (length x <= length (uv ++ v))%nat; [|rewrite app_length in *; unfold MB in *; lia].
        clear - Hx. revert Hx. generalize (uv ++ v) as b. revert x. induction total as [|t IH]; intros x b Hx; [destruct Hx|].
        cbn [chunks] in Hx. destruct Hx as [<-|Hx]; [rewrite firstn_length; lia|]. apply IH in Hx. rewrite skipn_length in Hx. lia. }
      split; [|split].
      * split; [intros _; lia|intros _; exact O1].
      * intros _. exact O2.
      * intros Q. exfalso. exact (Q O1).
    + assert (E : run_put (stack_set lib h (Base w Aero)) h (ms_set n k v) = (RTooBig, [])).
      { assert (D : too_big n v \/ ~ too_big n v) by (rewrite TBz; lia). destruct D as [TB|TB]; [apply Big, TB|].
        unfold ms_set. fold total.
        assert (L : (N.of_nat total < 65535)%N).
        { destruct (N.leb_spec 65535 (N.of_nat total)) as [L|L]; [|exact L]. apply too_big_iff in L; [tauto|lia]. }
        destruct (N.leb_spec 65535 (N.of_nat total)); [lia|]. cbn [run_put]. rewrite run_del. fold uv.
        assert (T1 : (1 <= total)%nat). { unfold total, total_parts. apply Nat.div_le_lower_bound; lia. }
        assert (U1 : (1 <= length uv)%nat).
        { unfold uv. rewrite (put_S 9). destruct (N.ltb_spec (N.of_nat (total - 1)) 128).
          - destruct (Byte.of_N (N.of_nat (total - 1))) eqn:EB; [cbn; lia|]. apply Byte.of_N_None_iff in EB. lia.
          - destruct (Byte.of_N (N.of_nat (total - 1) mod 128 + 128)) eqn:EB; [cbn; lia|]. apply Byte.of_N_None_iff in EB.
            pose proof (N.mod_upper_bound (N.of_nat (total - 1)) 128 ltac:(lia)). lia. }
        destruct total as [|t]; [lia|]. cbn [put_parts run_put]. cbn [stack_set takes].
        rewrite firstn_length, app_length. unfold MB in *.
        destruct (Z.ltb_spec 1048576 (Z.of_nat (Nat.min (Nat.min n (length uv + length v)) (length uv + length v)))); [reflexivity|lia]. }
      cbn [stack_set] in E |- *. rewrite E. cbn [fst snd]. split; [|split].
      * split; [discriminate|lia].
      * discriminate.
      * auto.
Qed.

Lemma used_base c opens w : wire_up c opens = inl w ->
  exists b, usable c (opens []) (c_storage c) b /\ w_store w = top c (wrap_retry c (core c Main b)).
Proof. intros H. apply wire_gives in H as (R & G). destruct G as [b U|b U|b b2 U]; exists b; split; auto. Qed.

Theorem c75_aero c opens w lib h k v : wire_up c opens = inl w -> c_storage c = "Aerospike"%string -> c_lazy c = false ->
  let r := stack_set lib h (w_store w) k v in let n := block_of c - 1024 in
  (fst r = ROk <-> if n <=? MB then Z.of_nat (length v) + 3 <= 65534 * n else Z.of_nat (length v) < MB) /\
  (fst r = ROk -> cut k v (snd r)) /\ (fst r <> ROk -> fst r = RTooBig /\ snd r = []).
Proof.
  intros H E L. destruct (used_base _ _ _ H) as (b & U & ->). unfold top. rewrite L, set_retry. rewrite E in U.
  destruct U as [(? & _)|[(_ & -> & _ & B)|[(? & _)|(? & _)]]]; try discriminate. apply core_set_aero, B.
Qed.
Theorem c75_memory c opens w lib h k v : wire_up c opens = inl w -> c_storage c = "Memory"%string -> c_lazy c = false ->
  let r := stack_set lib h (w_store w) k v in
  (fst r = ROk <-> Z.of_nat (length v) <= MB /\ (2 <= String.length (snd k))%nat) /\
  (fst r = ROk -> snd r = [(k, v)]) /\ (fst r <> ROk -> snd r = []).
Proof.
  intros H E L. destruct (used_base _ _ _ H) as (b & U & ->). unfold top. rewrite L, set_retry. rewrite E in U.
  destruct U as [(_ & ->)|[(? & _)|[(? & _)|(? & _)]]]; try discriminate. cbn [core stack_set takes]. unfold MB.
  destruct (Z.ltb_spec 1048576 (Z.of_nat (length v))); [|destruct (String.length (snd k) <? 2)%nat eqn:Q];
    [| apply Nat.ltb_lt in Q | apply Nat.ltb_ge in Q]; cbn [fst snd].
  - (split; [split; [discriminate|lia]|]). split; [discriminate|reflexivity].
  - (split; [split; [discriminate|lia]|]). split; [discriminate|reflexivity].
  - split; [split; [intros _; lia|reflexivity]|]. split; [reflexivity|]. intros F. congruence.
Qed.
Theorem c75_file c opens w lib h k v b : wire_up c opens = inl w -> on (w_store w) Main b -> file_of b <> None -> c_lazy c = false ->
  stack_set lib h (w_store w) k v = if lib b v then (ROk, [(k, v)]) else (RErr, []).
Proof.
  intros H O F L. destruct (used_base _ _ _ H) as (b' & U & E). rewrite E in *. unfold top in *. rewrite L in *. rewrite set_retry.
  apply on_retry_iff, on_core in O as (_ & <-). destruct b; cbn in *; try congruence; destruct (lib _ v); reflexivity.
Qed.
(** waiting values: always accepted, written as if there were no waiting *)
Theorem c75_lazy c opens w lib h k v : wire_up c opens = inl w -> c_lazy c = true ->
  fst (stack_set lib h (w_store w) k v) = ROk /\
  exists s, w_store w = Lazy s /\ snd (stack_set lib h (w_store w) k v) = snd (stack_set lib h s k v).
Proof.
  intros H L. destruct (used_base _ _ _ H) as (b & U & ->). unfold top. rewrite L. split; [reflexivity|]. eexists. split; reflexivity.
Qed.
Theorem c75_badger c opens w p sync trunc : wire_up c opens = inl w -> on (w_store w) Main (Badger p sync trunc) ->
  sync = c_badger_nosync c /\ trunc = c_badger_nosync c.
Proof.
  intros H O. destruct (used_base _ _ _ H) as (b & U & E). rewrite E, on_top, on_retry_iff, on_core in O.
  destruct O as (_ & <-). destruct U as [(_ & Q)|[(_ & Q & _)|[(_ & Q & _)|(_ & Q & _)]]]; try discriminate. injection Q. auto.
Qed.
