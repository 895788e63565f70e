(** The encoders that are recycled have one user at a time. *)
From Verif.Lib Require Import Prelude ListAux.
From Verif.Model Require Import Encoder.
From Verif.Spec Require Import EncoderSpec.
From Verif.Proof Require Import LoaderP.
Open Scope nat_scope.

Lemma drop_in {A} (x : A) : forall l n, In x (drop_nth n l) -> In x l.
Proof. induction l as [|y l IH]; intros [|n] H; [exact H|exact H|right; exact H|]. destruct H as [H|H]; [left; exact H|right; exact (IH n H)]. Qed.
Lemma drop_nodup {A} : forall (l : list A) n, NoDup l -> NoDup (drop_nth n l).
Proof.
  induction l as [|y l IH]; intros [|n] H; [exact H|exact H|inversion H; assumption|]. inversion H; subst. cbn [drop_nth]. constructor; [|apply IH; assumption].
  intro Q. apply drop_in in Q. contradiction.
Qed.
Lemma drop_not {A} (a : A) : forall l n, NoDup l -> nth_error l n = Some a -> ~ In a (drop_nth n l).
Proof.
  induction l as [|y l IH]; intros [|n] H E; cbn in E; [discriminate|discriminate| |].
  - injection E as ->. inversion H; assumption.
  - inversion H; subst. intros [Q|Q]; [subst y; apply nth_error_In in E; contradiction|exact (IH n H3 E Q)].
Qed.
Lemma at_same {A} (f : nat -> A) n v : at_n f n v n = v.
Proof. unfold at_n. rewrite Nat.eqb_refl. reflexivity. Qed.
Lemma at_other {A} (f : nat -> A) n v m : n <> m -> at_n f n v m = f m.
Proof. intro H. unfold at_n. apply Nat.eqb_neq in H. rewrite H. reflexivity. Qed.
Lemma over_len n v l : n + length v <= length l -> length (over_at n v l) = length l.
Proof. intro H. unfold over_at. rewrite !app_length, firstn_length, skipn_length. lia. Qed.
Lemma over_first n v l : n + length v <= length l -> firstn (n + length v) (over_at n v l) = firstn n l ++ v.
Proof.
  intro H. unfold over_at. rewrite app_assoc. rewrite firstn_app.
  assert (E : length (firstn n l ++ v) = n + length v) by (rewrite app_length, firstn_length; lia).
  rewrite E, Nat.sub_diag, firstn_O, app_nil_r. rewrite <- E. apply firstn_all.
Qed.

(** one call *)
Definition call_ok (mem : nat -> list N) (es : list encoder) (file : list N) (i : nat) (x : call) : Prop :=
  match c_pc x with
  | SNew => file = []
  | SEnc a r => exists pre e, pieces (c_job x) = pre ++ r /\ nth_error es a = Some e /\
      (if is_blob (c_job x) then file = [] /\ e_to e = TBuf /\ e_len e <= length (mem (e_arr e)) /\ firstn (e_len e) (mem (e_arr e)) ++ e_pend e = concat pre
       else e_to e = TFile i /\ file ++ e_pend e = concat pre)
  | SSet a => is_blob (c_job x) = true /\ file = [] /\ exists e, nth_error es a = Some e /\ c_slice x = Some (e_arr e, e_len e) /\ firstn (e_len e) (mem (e_arr e)) = content (c_job x)
  | SClose _ ok | SEnd ok => prefix file (content (c_job x)) /\ (is_blob (c_job x) = true -> file = []) /\ (is_blob (c_job x) = false -> ok = true -> file = content (c_job x))
  end.
Definition arrs (es : list encoder) (fresh : nat) : Prop :=
  (forall a e, nth_error es a = Some e -> e_arr e < fresh) /\
  (forall a b e f, nth_error es a = Some e -> nth_error es b = Some f -> e_arr e = e_arr f -> a = b).
Definition owns (pool : list nat) (cs : list call) (n : nat) : Prop :=
  NoDup pool /\ (forall a, In a pool -> a < n) /\
  (forall i x a, nth_error cs i = Some x -> uses x = Some a -> a < n /\ ~ In a pool) /\
  (forall i j x y a, nth_error cs i = Some x -> nth_error cs j = Some y -> uses x = Some a -> uses y = Some a -> i = j).
Definition log_ok (c : scfg) : Prop :=
  forall i b, In (i, b) (s_log c) -> exists x, nth_error (s_calls c) i = Some x /\ is_blob (c_job x) = true /\ b = content (c_job x).
Record einv (c : scfg) : Prop := mkEI {
  ei_arr : arrs (s_enc c) (s_fresh c);
  ei_own : owns (s_pool c) (s_calls c) (length (s_enc c));
  ei_call : forall i x, nth_error (s_calls c) i = Some x -> call_ok (s_mem c) (s_enc c) (s_file c i) i x;
  ei_file : forall i, length (s_calls c) <= i -> s_file c i = [];
  ei_log : log_ok c;
  ei_bad : s_bad c = false }.

(** what others do to a call *)
Lemma call_frame mem mem' es es' file i x :
  (forall a e, uses x = Some a -> nth_error es a = Some e -> nth_error es' a = Some e /\ mem' (e_arr e) = mem (e_arr e)) ->
  call_ok mem es file i x -> call_ok mem' es' file i x.
Proof.
  intros HF H. unfold call_ok in *. unfold uses in HF. destruct (c_pc x) as [|a r|a|a ok|ok]; [exact H| | |exact H|exact H].
  - destruct H as (pre & e & E & Ee & H). destruct (HF a e eq_refl Ee) as (E1 & E2). exists pre, e. split; [exact E|]. split; [exact E1|].
    destruct (is_blob (c_job x)); [|exact H]. rewrite E2. exact H.
  - destruct H as (Eb & Ef & e & Ee & Es & H). destruct (HF a e eq_refl Ee) as (E1 & E2). split; [exact Eb|]. split; [exact Ef|]. exists e.
    split; [exact E1|]. split; [exact Es|]. rewrite E2. exact H.
Qed.

(** a step of a call at its own encoder *)
Lemma own_step c c' i y x a e e' : einv c -> nth_error (s_calls c) i = Some y -> uses y = Some a -> uses x = Some a -> c_job x = c_job y ->
  nth_error (s_enc c) a = Some e -> s_enc c' = upd_nth a (fun _ => e') (s_enc c) -> s_calls c' = upd_nth i (fun _ => x) (s_calls c) ->
  s_pool c' = s_pool c -> s_fresh c <= s_fresh c' ->
  (e_arr e' = e_arr e \/ (s_fresh c <= e_arr e' /\ e_arr e' < s_fresh c')) ->
  (forall n, n < s_fresh c -> n <> e_arr e -> s_mem c' n = s_mem c n) ->
  (forall k, k <> i -> s_file c' k = s_file c k) -> s_log c' = s_log c -> s_bad c' = false ->
  call_ok (s_mem c') (s_enc c') (s_file c' i) i x -> einv c'.
Proof.
  intros [IA IO IC IF IL IB] Ey Uy Ux EJ Ee EE EC EP HF HA HM HX EL EB HC. destruct IA as (A1 & A2). destruct IO as (O1 & O2 & O3 & O4).
  assert (Ha : a < length (s_enc c)) by (apply nth_error_Some; rewrite Ee; discriminate).
  assert (Hi : i < length (s_calls c)) by (apply nth_error_Some; rewrite Ey; discriminate).
  constructor.
  - split.
    + intros b f Eb. rewrite EE in Eb. apply upd_at_inv in Eb as [(<- & ->)|(Hb & Eb)].
      * pose proof (A1 _ _ Ee) as Q. destruct HA as [HA|HA]; [rewrite HA; lia|lia].
      * pose proof (A1 _ _ Eb). lia.
    + intros b b' f f' E1 E2 E. rewrite EE in E1, E2.
      apply upd_at_inv in E1 as [(<- & ->)|(Hb & E1)]; apply upd_at_inv in E2 as [(<- & ->)|(Hb' & E2)]; [reflexivity| | |].
      * exfalso. pose proof (A1 _ _ E2). destruct HA as [HA|HA]; [|lia]. apply Hb'. refine (A2 _ _ _ _ Ee E2 _). congruence.
      * exfalso. pose proof (A1 _ _ E1). destruct HA as [HA|HA]; [|lia]. apply Hb. symmetry. refine (A2 _ _ _ _ E1 Ee _). congruence.
      * exact (A2 _ _ _ _ E1 E2 E).
  - rewrite EP, EC, EE, upd_at_len. split; [exact O1|]. split; [exact O2|]. split.
    + intros k z b Ek Ub. apply upd_at_inv in Ek as [(<- & ->)|(Hk & Ek)]; [|exact (O3 _ _ _ Ek Ub)]. apply (O3 i y b Ey). congruence.
    + intros k k' z z' b Ek Ek' U U'. apply upd_at_inv in Ek as [(<- & ->)|(Hk & Ek)]; apply upd_at_inv in Ek' as [(<- & ->)|(Hk' & Ek')]; [reflexivity| | |].
      * apply (O4 i k' y z' b Ey Ek'); [congruence|exact U'].
      * apply (O4 k i z y b Ek Ey); [exact U|congruence].
      * exact (O4 _ _ _ _ _ Ek Ek' U U').
  - intros k z Ek. rewrite EC in Ek. apply upd_at_inv in Ek as [(<- & ->)|(Hk & Ek)]; [exact HC|]. rewrite HX by congruence.
    apply (call_frame (s_mem c) _ (s_enc c)); [|exact (IC _ _ Ek)]. intros b f U Ef.
    assert (Hb : a <> b) by (intro Q; subst b; apply Hk; exact (O4 _ _ _ _ _ Ey Ek Uy U)).
    split; [rewrite EE, upd_at_other by exact Hb; exact Ef|]. apply HM; [exact (A1 _ _ Ef)|]. intro Q. apply Hb. symmetry. exact (A2 _ _ _ _ Ef Ee Q).
  - intros k Hk. rewrite EC, upd_at_len in Hk. rewrite HX by lia. apply IF. exact Hk.
  - intros k b Hk. rewrite EL in Hk. destruct (IL _ _ Hk) as (z & Ez & Bz & Cz). rewrite EC. destruct (Nat.eq_dec i k) as [Q|Q].
    + subst k. exists x. rewrite upd_at_same by exact Hi. rewrite Ey in Ez. injection Ez as <-. rewrite EJ. split; [reflexivity|split; assumption].
    + exists z. rewrite upd_at_other by exact Q. split; [exact Ez|split; assumption].
  - exact EB.
Qed.

(** what [flush] does for the user of an encoder *)
Lemma flush_own c i x a e room c' : einv c -> nth_error (s_calls c) i = Some x -> nth_error (s_enc c) a = Some e ->
  (e_to e = TBuf \/ e_to e = TFile i) -> flush c a room = Some c' -> (e_to e = TBuf -> e_len e <= length (s_mem c (e_arr e))) ->
  exists e', s_enc c' = upd_nth a (fun _ => e') (s_enc c) /\ s_calls c' = s_calls c /\ s_pool c' = s_pool c /\ s_fresh c <= s_fresh c' /\
  (e_arr e' = e_arr e \/ (s_fresh c <= e_arr e' /\ e_arr e' < s_fresh c')) /\
  (forall n, n < s_fresh c -> n <> e_arr e -> s_mem c' n = s_mem c n) /\ (forall k, k <> i -> s_file c' k = s_file c k) /\
  s_log c' = s_log c /\ s_bad c' = s_bad c /\ e_to e' = e_to e /\ e_pend e' = [] /\
  (e_to e = TBuf -> s_file c' i = s_file c i /\ e_len e' <= length (s_mem c' (e_arr e')) /\
     firstn (e_len e') (s_mem c' (e_arr e')) = firstn (e_len e) (s_mem c (e_arr e)) ++ e_pend e) /\
  (e_to e = TFile i -> s_file c' i = s_file c i ++ e_pend e).
Proof.
  intros HI Ex Ee HT HF HL. unfold flush in HF. rewrite Ee in HF. destruct HT as [HT|HT]; rewrite HT in HF; injection HF as <-.
  - specialize (HL HT). unfold buf_write. destruct (e_len e + length (e_pend e) <=? length (s_mem c (e_arr e))) eqn:Q.
    + apply Nat.leb_le in Q. eexists. cbn [with_enc s_enc s_calls s_pool s_fresh s_mem s_file s_log s_bad]. split; [reflexivity|]. cbn [e_arr e_len e_to e_pend].
      repeat split; auto.
      * intros n Hn Hne. apply at_other. congruence.
      * rewrite at_same, over_len by exact Q. lia.
      * rewrite at_same. apply over_first. exact Q.
      * congruence.
    + apply Nat.leb_gt in Q. eexists. cbn [with_enc s_enc s_calls s_pool s_fresh s_mem s_file s_log s_bad]. split; [reflexivity|]. cbn [e_arr e_len e_to e_pend].
      repeat split; auto.
      * intros n Hn Hne. apply at_other. lia.
      * rewrite at_same, !app_length, firstn_length. lia.
      * rewrite at_same, app_assoc, firstn_app.
        assert (E : length (firstn (e_len e) (s_mem c (e_arr e)) ++ e_pend e) = e_len e + length (e_pend e)) by (rewrite app_length, firstn_length; lia).
        rewrite E, Nat.sub_diag, firstn_O, app_nil_r, <- E. apply firstn_all.
      * congruence.
  - eexists. cbn [with_enc s_enc s_calls s_pool s_fresh s_mem s_file s_log s_bad]. split; [reflexivity|]. cbn [e_arr e_len e_to e_pend].
    repeat split; auto; try congruence.
    + intros k Hk. apply at_other. congruence.
    + intros _. apply at_same.
Qed.

Lemma upd_id {A} (x : A) : forall l i, nth_error l i = Some x -> upd_nth i (fun _ => x) l = l.
Proof. induction l as [|y l IH]; intros [|i] E; cbn in *; [discriminate|discriminate|injection E as ->; reflexivity|rewrite (IH _ E); reflexivity]. Qed.

Lemma spill_inv c i j a r s room c' : einv c -> nth_error (s_calls c) i = Some (mkC j (SEnc a r) s) -> flush c a room = Some c' ->
  einv c' /\ s_calls c' = s_calls c /\ exists e', nth_error (s_enc c') a = Some e' /\ e_pend e' = [].
Proof.
  intros HI Ex HF. pose proof (ei_call _ HI _ _ Ex) as HC. unfold call_ok in HC. cbn [c_pc c_job] in HC. destruct HC as (pre & e & Ep & Ee & HC).
  assert (HT : e_to e = TBuf \/ e_to e = TFile i) by (destruct (is_blob j); tauto).
  assert (HL : e_to e = TBuf -> e_len e <= length (s_mem c (e_arr e))) by (intro Q; destruct (is_blob j); [tauto|destruct HC as (Q' & _); congruence]).
  destruct (flush_own _ _ _ _ _ _ _ HI Ex Ee HT HF HL) as (e' & E1 & E2 & E3 & E4 & E5 & E6 & E7 & E8 & E9 & E10 & E11 & E12 & E13).
  assert (Ee' : nth_error (s_enc c') a = Some e') by (rewrite E1; apply upd_at_same; apply nth_error_Some; rewrite Ee; discriminate).
  split; [|split; [exact E2|exists e'; split; assumption]].
  apply (own_step c c' i _ (mkC j (SEnc a r) s) a e e' HI Ex); auto.
  - rewrite E2. symmetry. apply upd_id. exact Ex.
  - rewrite E9. apply ei_bad. exact HI.
  - unfold call_ok. cbn [c_pc c_job]. exists pre, e'. split; [exact Ep|]. split; [exact Ee'|]. rewrite E10, E11, app_nil_r. destruct (is_blob j).
    + destruct HC as (F & T & L & C). destruct (E12 T) as (G1 & G2 & G3). rewrite G1, G3. auto.
    + destruct HC as (T & C). rewrite (E13 T), app_nil_r. auto.
Qed.

Lemma einv_start : einv sstart.
Proof.
  constructor; cbn [sstart s_enc s_fresh s_pool s_calls s_mem s_file s_log s_bad]; try reflexivity.
  - split; intros [|a]; discriminate.
  - split; [constructor|]. split; [intros a []|]. split; intros [|i]; discriminate.
  - intros [|i]; discriminate.
  - intros i b [].
Qed.

(** an encoder with the calls as they are *)
Lemma inv_calls c c' : einv c -> s_enc c' = s_enc c -> s_fresh c' = s_fresh c -> s_pool c' = s_pool c -> s_calls c' = s_calls c -> s_mem c' = s_mem c ->
  s_file c' = s_file c -> s_bad c' = s_bad c -> log_ok c' -> einv c'.
Proof. intros [A B C D E F] E1 E2 E3 E4 E5 E6 E7 HL. constructor; rewrite ?E1, ?E2, ?E3, ?E4, ?E5, ?E6, ?E7; assumption. Qed.
(** a call gives its encoder back; its own state does not depend on it any more *)
Lemma pool_owns pool cs n : owns pool cs n -> forall k, owns (drop_nth k pool) cs n.
Proof.
  intros (O1 & O2 & O3 & O4) k. split; [apply drop_nodup; exact O1|]. split; [intros a H; apply O2; exact (drop_in _ _ _ H)|]. split; [|exact O4].
  intros i x a E U. destruct (O3 _ _ _ E U) as (H & H'). split; [exact H|]. intro Q. apply H'. exact (drop_in _ _ _ Q).
Qed.

Lemma get_inv c p room a c1 : einv c -> pool_get c p room = Some (a, c1) ->
  arrs (s_enc c1) (s_fresh c1) /\ owns (s_pool c1) (s_calls c1) (length (s_enc c1)) /\ a < length (s_enc c1) /\ ~ In a (s_pool c1) /\
  (forall i x, nth_error (s_calls c1) i = Some x -> uses x <> Some a) /\ s_calls c1 = s_calls c /\ s_file c1 = s_file c /\ s_log c1 = s_log c /\ s_bad c1 = s_bad c /\
  (forall i x, nth_error (s_calls c1) i = Some x -> call_ok (s_mem c1) (s_enc c1) (s_file c1 i) i x).
Proof.
  intros HI E. destruct HI as [(A1 & A2) (O1 & O2 & O3 & O4) IC IF IL IB]. destruct p as [n|]; cbn [pool_get] in E.
  - destruct (nth_error (s_pool c) n) as [b|] eqn:En; [|discriminate]. injection E as -> <-. cbn [s_enc s_fresh s_pool s_calls s_mem s_file s_log s_bad].
    assert (Hin : In a (s_pool c)) by (eapply nth_error_In; exact En).
    split; [split; assumption|]. split; [apply pool_owns; repeat split; auto; intros; eapply O3; eassumption|]. split; [exact (O2 _ Hin)|]. split; [exact (drop_not _ _ _ O1 En)|].
    split; [|repeat split; auto]. intros i x Ex U. destruct (O3 _ _ _ Ex U). contradiction.
  - unfold new_enc in E. injection E as <- <-. cbn [s_enc s_fresh s_pool s_calls s_mem s_file s_log s_bad]. rewrite app_length. cbn [length].
    split; [split|].
    + intros b e Eb. destruct (Nat.lt_ge_cases b (length (s_enc c))) as [H|H].
      * rewrite nth_error_app1 in Eb by exact H. pose proof (A1 _ _ Eb). lia.
      * rewrite nth_error_app2 in Eb by exact H. destruct (b - length (s_enc c)) as [|[|?]]; cbn in Eb; try discriminate. injection Eb as <-. cbn [e_arr]. lia.
    + assert (W : forall b f, nth_error (s_enc c ++ [mkE (s_fresh c) 0 TBuf []]) b = Some f -> (b < length (s_enc c) /\ nth_error (s_enc c) b = Some f) \/ (b = length (s_enc c) /\ e_arr f = s_fresh c)).
      { intros b f Eb. destruct (Nat.lt_ge_cases b (length (s_enc c))) as [H|H].
        - rewrite nth_error_app1 in Eb by exact H. left. auto.
        - rewrite nth_error_app2 in Eb by exact H. destruct (b - length (s_enc c)) as [|[|?]] eqn:Q; cbn in Eb; try discriminate. injection Eb as <-. right. split; [lia|reflexivity]. }
      intros b b' f f' E1 E2 E. apply W in E1, E2. destruct E1 as [(H1 & E1)|(H1 & E1)], E2 as [(H2 & E2)|(H2 & E2)].
      * exact (A2 _ _ _ _ E1 E2 E).
      * pose proof (A1 _ _ E1). lia.
      * pose proof (A1 _ _ E2). lia.
      * lia.
    + split; [split; [exact O1|]; split; [intros b Hb; pose proof (O2 _ Hb); lia|]; split; [intros i x b Ex U; destruct (O3 _ _ _ Ex U); split; [lia|assumption]|exact O4]|].
      split; [lia|]. split; [intro Q; pose proof (O2 _ Q); lia|]. split; [intros i x Ex U; destruct (O3 _ _ _ Ex U); lia|].
      repeat (split; [reflexivity|]). intros i x Ex. apply (call_frame (s_mem c) _ (s_enc c)); [|exact (IC _ _ Ex)].
      intros b f U Eb. split; [rewrite nth_error_app1; [exact Eb|apply nth_error_Some; rewrite Eb; discriminate]|]. apply at_other. pose proof (A1 _ _ Eb). lia.
Qed.

Lemma take_inv c i j s p room c' : einv c -> nth_error (s_calls c) i = Some (mkC j SNew s) -> take c i j p room = Some c' -> einv c'.
Proof.
  intros HI Ex E. unfold take in E. destruct (pool_get c p room) as [[a c1]|] eqn:Eg; [|discriminate].
  destruct (get_inv _ _ _ _ _ HI Eg) as ((A1 & A2) & (O1 & O2 & O3 & O4) & Ha & Hp & Hu & EC & EF & EL & EB & HC).
  destruct (nth_error (s_enc c1) a) as [e|] eqn:Ee; [|discriminate]. injection E as <-.
  rewrite <- EC in Ex. assert (Hi : i < length (s_calls c1)) by (apply nth_error_Some; rewrite Ex; discriminate).
  constructor; cbn [with_call with_enc s_enc s_fresh s_pool s_calls s_mem s_file s_log s_bad].
  - split.
    + intros b f Eb. apply upd_at_inv in Eb as [(<- & ->)|(Hb & Eb)]; [cbn [e_arr]|]; eapply A1; eassumption.
    + intros b b' f f' E1 E2 E. apply upd_at_inv in E1 as [(<- & ->)|(Hb & E1)]; apply upd_at_inv in E2 as [(<- & ->)|(Hb' & E2)]; cbn [e_arr] in E; [reflexivity| | |];
        eapply A2; eassumption.
  - rewrite upd_at_len. split; [exact O1|]. split; [exact O2|]. split.
    + intros k z b Ek U. apply upd_at_inv in Ek as [(<- & ->)|(Hk & Ek)]; [|exact (O3 _ _ _ Ek U)]. cbn in U. injection U as <-. split; assumption.
    + intros k k' z z' b Ek Ek' U U'. apply upd_at_inv in Ek as [(<- & ->)|(Hk & Ek)]; apply upd_at_inv in Ek' as [(<- & ->)|(Hk' & Ek')]; [reflexivity| | |exact (O4 _ _ _ _ _ Ek Ek' U U')].
      * cbn in U. injection U as <-. exfalso. exact (Hu _ _ Ek' U').
      * cbn in U'. injection U' as <-. exfalso. exact (Hu _ _ Ek U).
  - intros k z Ek. apply upd_at_inv in Ek as [(<- & ->)|(Hk & Ek)].
    + pose proof (HC _ _ Ex) as F. unfold call_ok in F. cbn [c_pc] in F. unfold call_ok. cbn [c_pc c_job]. exists [], (mkE (e_arr e) 0 (match j with JBlob _ => TBuf | JFile _ => TFile i end) []).
      split; [reflexivity|]. split; [apply upd_at_same; apply nth_error_Some; rewrite Ee; discriminate|]. rewrite F.
      destruct j; cbn [is_blob e_to e_len e_pend e_arr]; repeat split; try lia.
    + apply (call_frame (s_mem c1) _ (s_enc c1)); [|exact (HC _ _ Ek)]. intros b f U Eb.
      assert (Hb : a <> b) by (intro Q; subst b; exact (Hu _ _ Ek U)). split; [rewrite upd_at_other by exact Hb; exact Eb|reflexivity].
  - intros k Hk. rewrite upd_at_len, EC in Hk. rewrite EF. apply (ei_file _ HI). exact Hk.
  - intros k b Hk. cbn [with_call with_enc s_log s_calls] in *. rewrite EL in Hk. destruct (ei_log _ HI _ _ Hk) as (z & Ez & Bz & Cz). rewrite <- EC in Ez.
    destruct (Nat.eq_dec i k) as [Q|Q].
    + subst k. eexists. split; [apply upd_at_same; exact Hi|]. rewrite Ex in Ez. injection Ez as <-. split; assumption.
    + exists z. split; [rewrite upd_at_other by exact Q; exact Ez|split; assumption].
  - rewrite EB. exact (ei_bad _ HI).
Qed.

Lemma close_inv c i j a ok s c1 : einv c -> nth_error (s_calls c) i = Some (mkC j (SClose a ok) s) -> close c a = Some c1 ->
  einv (with_call c1 i (mkC j (SEnd ok) s)).
Proof.
  intros HI Ex E. unfold close in E. destruct (nth_error (s_enc c) a) as [e|] eqn:Ee; [|discriminate]. injection E as <-.
  destruct HI as [(A1 & A2) (O1 & O2 & O3 & O4) IC IF IL IB].
  assert (Hi : i < length (s_calls c)) by (apply nth_error_Some; rewrite Ex; discriminate).
  destruct (O3 _ _ _ Ex eq_refl) as (Ha & Hp).
  constructor; cbn [with_call with_enc s_enc s_fresh s_pool s_calls s_mem s_file s_log s_bad].
  - split.
    + intros b f Eb. apply upd_at_inv in Eb as [(<- & ->)|(Hb & Eb)]; [cbn [e_arr]|]; eapply A1; eassumption.
    + intros b b' f f' E1 E2 E. apply upd_at_inv in E1 as [(<- & ->)|(Hb & E1)]; apply upd_at_inv in E2 as [(<- & ->)|(Hb' & E2)]; cbn [e_arr] in E; [reflexivity| | |];
        eapply A2; eassumption.
  - rewrite upd_at_len. split; [constructor; assumption|]. split; [intros b [<-|Hb]; [exact Ha|exact (O2 _ Hb)]|]. split.
    + intros k z b Ek U. apply upd_at_inv in Ek as [(<- & ->)|(Hk & Ek)]; [cbn in U; discriminate|]. destruct (O3 _ _ _ Ek U) as (H1 & H2). split; [exact H1|].
      intros [Q|Q]; [|contradiction]. subst b. apply Hk. exact (O4 _ _ _ _ _ Ex Ek eq_refl U).
    + intros k k' z z' b Ek Ek' U U'. apply upd_at_inv in Ek as [(<- & ->)|(Hk & Ek)]; [cbn in U; discriminate|]. apply upd_at_inv in Ek' as [(<- & ->)|(Hk' & Ek')]; [cbn in U'; discriminate|].
      exact (O4 _ _ _ _ _ Ek Ek' U U').
  - intros k z Ek. apply upd_at_inv in Ek as [(<- & ->)|(Hk & Ek)]; [exact (IC _ _ Ex)|]. apply (call_frame (s_mem c) _ (s_enc c)); [|exact (IC _ _ Ek)].
    intros b f U Eb. assert (Hb : a <> b) by (intro Q; subst b; apply Hk; exact (O4 _ _ _ _ _ Ex Ek eq_refl U)).
    split; [rewrite upd_at_other by exact Hb; exact Eb|reflexivity].
  - intros k Hk. rewrite upd_at_len in Hk. exact (IF _ Hk).
  - intros k b Hk. cbn [with_call with_enc s_log s_calls] in *. destruct (IL _ _ Hk) as (z & Ez & Bz & Cz). destruct (Nat.eq_dec i k) as [Q|Q].
    + subst k. eexists. split; [apply upd_at_same; exact Hi|]. rewrite Ex in Ez. injection Ez as <-. split; assumption.
    + exists z. split; [rewrite upd_at_other by exact Q; exact Ez|split; assumption].
  - exact IB.
Qed.

(** a step that changes only the state of a call that keeps its encoder *)
Lemma only_call c i y x a : einv c -> nth_error (s_calls c) i = Some y -> uses y = Some a -> uses x = Some a -> c_job x = c_job y ->
  call_ok (s_mem c) (s_enc c) (s_file c i) i x -> einv (with_call c i x).
Proof.
  intros HI Ey Uy Ux EJ HC. destruct (nth_error (s_enc c) a) as [e|] eqn:Ee.
  - apply (own_step c (with_call c i x) i y x a e e HI Ey Uy Ux EJ Ee); cbn [with_call s_enc s_fresh s_pool s_calls s_mem s_file s_log s_bad]; auto.
    + symmetry. apply upd_id. exact Ee.
    + exact (ei_bad _ HI).
  - exfalso. destruct (ei_own _ HI) as (_ & _ & O3 & _). destruct (O3 _ _ _ Ey Uy) as (H & _). apply nth_error_Some in H. congruence.
Qed.

Lemma prefix_self a : prefix a a.
Proof. exists []. symmetry. apply app_nil_r. Qed.
Lemma concat_prefix (pre r : list (list N)) x y : x ++ y = concat pre -> prefix x (concat (pre ++ r)).
Proof. intro E. exists (y ++ concat r). rewrite concat_app, <- E, app_assoc. reflexivity. Qed.
Lemma nil_prefix b : prefix [] b.
Proof. exists b. reflexivity. Qed.

Lemma einv_step c x c' : einv c -> proper x -> estep c x = Some c' -> einv c'.
Proof.
  intros HI HP E. destruct x as [j|i p room|i|i room|i|i room|i|i ok|i|n|i|i a]; cbn [estep] in E; [..|destruct HP|destruct HP].
  - (* call *) injection E as <-. destruct HI as [IA (O1 & O2 & O3 & O4) IC IF IL IB].
    assert (W : forall k z, nth_error (s_calls c ++ [mkC j SNew None]) k = Some z -> nth_error (s_calls c) k = Some z \/ (k = length (s_calls c) /\ z = mkC j SNew None)).
    { intros k z Ek. destruct (Nat.lt_ge_cases k (length (s_calls c))) as [H|H].
      - rewrite nth_error_app1 in Ek by exact H. left. exact Ek.
      - rewrite nth_error_app2 in Ek by exact H. destruct (k - length (s_calls c)) as [|[|?]] eqn:Q; cbn in Ek; try discriminate. injection Ek as <-. right. split; [lia|reflexivity]. }
    constructor; cbn [s_enc s_fresh s_pool s_calls s_mem s_file s_log s_bad]; [exact IA| | | | |exact IB].
    + split; [exact O1|]. split; [exact O2|]. split.
      * intros k z b Ek U. apply W in Ek as [Ek|(_ & ->)]; [exact (O3 _ _ _ Ek U)|discriminate].
      * intros k k' z z' b Ek Ek' U U'. apply W in Ek as [Ek|(_ & ->)]; [|discriminate]. apply W in Ek' as [Ek'|(_ & ->)]; [|discriminate]. exact (O4 _ _ _ _ _ Ek Ek' U U').
    + intros k z Ek. apply W in Ek as [Ek|(-> & ->)]; [exact (IC _ _ Ek)|]. unfold call_ok. cbn [c_pc]. apply IF. lia.
    + intros k Hk. rewrite app_length in Hk. apply IF. lia.
    + intros k b Hk. cbn [s_log s_calls] in *. destruct (IL _ _ Hk) as (z & Ez & Q). exists z. split; [|exact Q]. rewrite nth_error_app1; [exact Ez|apply nth_error_Some; rewrite Ez; discriminate].
  - (* take *) destruct (nth_error (s_calls c) i) as [[j [| | | |] s]|] eqn:Ex; try discriminate. exact (take_inv _ _ _ _ _ _ _ HI Ex E).
  - (* write *) destruct (nth_error (s_calls c) i) as [[j [|a [|v r]| | |] s]|] eqn:Ex; try discriminate.
    destruct (nth_error (s_enc c) a) as [e|] eqn:Ee; [|discriminate]. injection E as <-.
    pose proof (ei_call _ HI _ _ Ex) as HC. unfold call_ok in HC. cbn [c_pc c_job] in HC. destruct HC as (pre & e0 & Ep & Ee0 & HC). rewrite Ee in Ee0. injection Ee0 as <-.
    eapply (own_step c _ i _ (mkC j (SEnc a r) s) a e _ HI Ex eq_refl eq_refl eq_refl Ee);
      cbn [with_call with_enc s_enc s_fresh s_pool s_calls s_mem s_file s_log s_bad]; try reflexivity; auto.
    + exact (ei_bad _ HI).
    + unfold call_ok. cbn [c_pc c_job]. exists (pre ++ [v]), (mkE (e_arr e) (e_len e) (e_to e) (e_pend e ++ v)).
      split; [rewrite <- app_assoc; exact Ep|]. split; [apply upd_at_same; apply nth_error_Some; rewrite Ee; discriminate|].
      cbn [e_arr e_len e_to e_pend]. rewrite concat_app. cbn [concat]. rewrite app_nil_r, !app_assoc. destruct (is_blob j).
      * destruct HC as (F & T & L & C). rewrite C. auto.
      * destruct HC as (T & C). rewrite C. auto.
  - (* spill *) destruct (nth_error (s_calls c) i) as [[j [|a r| | |] s]|] eqn:Ex; try discriminate. exact (proj1 (spill_inv _ _ _ _ _ _ _ _ HI Ex E)).
  - (* fail *) destruct (nth_error (s_calls c) i) as [[j [|a r| | |] s]|] eqn:Ex; try discriminate. injection E as <-.
    eapply only_call; [exact HI|exact Ex|reflexivity|reflexivity|reflexivity|]. pose proof (ei_call _ HI _ _ Ex) as HC. unfold call_ok in *. cbn [c_pc c_job] in *.
    destruct HC as (pre & e & Ep & Ee & HC). unfold content. rewrite Ep. destruct (is_blob j).
    + destruct HC as (-> & _). split; [apply nil_prefix|]. split; [reflexivity|discriminate].
    + destruct HC as (_ & C). split; [exact (concat_prefix _ _ _ _ C)|]. split; discriminate.
  - (* flush *) destruct (nth_error (s_calls c) i) as [[j [|a [|v r]| | |] s]|] eqn:Ex; try discriminate.
    destruct (flush c a room) as [c1|] eqn:Ef; [|discriminate]. destruct (spill_inv _ _ _ _ _ _ _ _ HI Ex Ef) as (HI1 & EC & e & Ee & Epd).
    rewrite Ee in E. rewrite <- EC in Ex. pose proof (ei_call _ HI1 _ _ Ex) as HC. unfold call_ok in HC. cbn [c_pc c_job] in HC. destruct HC as (pre & e0 & Ep & Ee0 & HC).
    rewrite Ee in Ee0. injection Ee0 as <-. rewrite app_nil_r in Ep. rewrite Epd, !app_nil_r in HC. destruct j as [ps|ps]; injection E as <-.
    + eapply only_call; [exact HI1|exact Ex|reflexivity|reflexivity|reflexivity|]. unfold call_ok. cbn [c_pc c_job is_blob c_slice]. cbn [is_blob] in HC. destruct HC as (F & T & L & C).
      split; [reflexivity|]. split; [exact F|]. exists e. split; [exact Ee|]. split; [reflexivity|]. unfold content. rewrite Ep. exact C.
    + eapply only_call; [exact HI1|exact Ex|reflexivity|reflexivity|reflexivity|]. unfold call_ok. cbn [c_pc c_job is_blob c_slice]. cbn [is_blob] in HC. destruct HC as (T & C).
      unfold content. rewrite Ep, C. split; [apply prefix_self|]. split; [discriminate|reflexivity].
  - (* store *) destruct (nth_error (s_calls c) i) as [[j [| |a| |] [s|]]|] eqn:Ex; try discriminate. injection E as <-.
    apply (inv_calls c); try reflexivity; [exact HI|]. pose proof (ei_call _ HI _ _ Ex) as HC. unfold call_ok in HC. cbn [c_pc c_job c_slice] in HC.
    destruct HC as (Bj & _ & e & Ee & Es & C). injection Es as ->. intros k b [Q|Q].
    + injection Q as <- <-. exists (mkC j (SSet a) (Some (e_arr e, e_len e))). cbn [s_calls c_job]. split; [exact Ex|]. split; [exact Bj|exact C].
    + exact (ei_log _ HI _ _ Q).
  - (* ret *) destruct (nth_error (s_calls c) i) as [[j [| |a| |] s]|] eqn:Ex; try discriminate. injection E as <-.
    eapply only_call; [exact HI|exact Ex|reflexivity|reflexivity|reflexivity|]. pose proof (ei_call _ HI _ _ Ex) as HC. unfold call_ok in *. cbn [c_pc c_job] in *.
    destruct HC as (Bj & -> & _). split; [apply nil_prefix|]. split; [reflexivity|congruence].
  - (* close *) destruct (nth_error (s_calls c) i) as [[j [| | |a ok|] s]|] eqn:Ex; try discriminate.
    destruct (close c a) as [c1|] eqn:Ec; [|discriminate]. injection E as <-. exact (close_inv _ _ _ _ _ _ _ HI Ex Ec).
  - (* gc *) destruct (n <? length (s_pool c)); [|discriminate]. injection E as <-. destruct HI as [IA IO IC IF IL IB].
    constructor; cbn [s_enc s_fresh s_pool s_calls s_mem s_file s_log s_bad]; try assumption. apply pool_owns. exact IO.
Qed.
Lemma encs_inv c : encs proper c -> einv c.
Proof. induction 1 as [|c x c' _ IH Hx E]; [exact einv_start|exact (einv_step _ _ _ IH Hx E)]. Qed.

(** ** final forms *)
Lemma c84_blob c i b : encs proper c -> In (i, b) (s_log c) -> exists x, nth_error (s_calls c) i = Some x /\ is_blob (c_job x) = true /\ b = content (c_job x).
Proof. intro H. exact (ei_log _ (encs_inv _ H) i b). Qed.
Lemma c84_file c i x : encs proper c -> nth_error (s_calls c) i = Some x ->
  prefix (s_file c i) (content (c_job x)) /\ (is_blob (c_job x) = true -> s_file c i = []) /\
  (is_blob (c_job x) = false -> has_ended x true -> s_file c i = content (c_job x)).
Proof.
  intros H Ex. pose proof (ei_call _ (encs_inv _ H) _ _ Ex) as HC. unfold call_ok in HC. unfold has_ended. destruct (c_pc x) as [|a r|a|a ok|ok].
  - rewrite HC. split; [apply nil_prefix|]. split; [reflexivity|discriminate].
  - destruct HC as (pre & e & Ep & Ee & HC). unfold content. rewrite Ep. destruct (is_blob (c_job x)).
    + destruct HC as (-> & _). split; [apply nil_prefix|]. split; [reflexivity|discriminate].
    + destruct HC as (_ & C). split; [exact (concat_prefix _ _ _ _ C)|]. split; discriminate.
  - destruct HC as (Bj & -> & _). split; [apply nil_prefix|]. split; [reflexivity|discriminate].
  - destruct HC as (P & B & _). split; [exact P|]. split; [exact B|discriminate].
  - destruct HC as (P & B & F). split; [exact P|]. split; [exact B|]. intros Q E. injection E as ->. exact (F Q eq_refl).
Qed.
Lemma c84_one c : encs proper c -> NoDup (s_pool c) /\
  (forall i x a, nth_error (s_calls c) i = Some x -> uses x = Some a -> ~ In a (s_pool c)) /\
  (forall i j x y a, nth_error (s_calls c) i = Some x -> nth_error (s_calls c) j = Some y -> uses x = Some a -> uses y = Some a -> i = j).
Proof.
  intro H. destruct (ei_own _ (encs_inv _ H)) as (O1 & O2 & O3 & O4). split; [exact O1|]. split; [|exact O4]. intros i x a Ex U. exact (proj2 (O3 _ _ _ Ex U)).
Qed.
Lemma c84_no_panic c : encs proper c -> s_bad c = false.
Proof. intro H. exact (ei_bad _ (encs_inv _ H)). Qed.
