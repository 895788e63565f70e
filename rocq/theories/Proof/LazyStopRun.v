(** Shutting down the delayed-write store: it ends, and nothing is left. *)
From Coq Require Import Strings.String Strings.Ascii Strings.Byte.
From Verif.Lib Require Import Prelude ListAux.
From Verif.Model Require Import KV MaxSize Lazy LazyStop.
From Verif.Spec Require Import LazySpec LazyStopSpec.
From Verif.Proof Require Import KVP MaxSizeP MaxSizeRun LazyP LazyOne LazyStopP.
Open Scope nat_scope.

Lemma nth_app_new {A} (l : list A) x i y : nth_error (l ++ [x]) i = Some y -> nth_error l i = Some y \/ y = x.
Proof.
  revert i. induction l as [|a l IH]; intros [|i] E; cbn in *.
  - injection E as ->. auto.
  - destruct i; discriminate.
  - auto.
  - apply IH, E.
Qed.

(** ** runs of this model are runs of Model/Lazy.v *)
Lemma vfire_data p mf K c x e c' : VInv p c -> named K c -> may mf K x -> vfire p c x = Some (e, c') ->
  named K c' /\ (lstep mf K (v_l c) e (v_l c') \/ (e = None /\ v_l c' = v_l c)).
Proof.
  intros V N M F.
  assert (Same : forall c2, v_calls c2 = v_calls c -> named K c2) by (intros c2 E i k v; rewrite E; apply N).
  destruct x as [k v|i|k|n f|j| | | |j f|]; cbn [vfire] in F.
  - destruct (down c); [discriminate|]. injection F as <- <-. split; [|right; auto]. intros i k' v' E. cbn in E.
    apply nth_app_new in E as [E|E]; [eapply N; eauto|]. injection E as -> ->. exact M.
  - apply fire_call_inv in F as [(k & v & E & -> & ->)|[(E & -> & ->)|(t & E & Et & -> & ->)]].
    + split; [|left; constructor; eapply N; eauto]. intros i' k' v' E'. cbn in E'. apply nth_upd_cases in E' as [(_ & C & _)|(_ & E')]; [|eapply N; eauto].
      destruct (adds _ _); discriminate.
    + split; [|right; auto]. intros i' k' v' E'. cbn in E'. apply nth_upd_cases in E' as [(_ & C & _)|(_ & E')]; [discriminate|eapply N; eauto].
    + split; [|right; auto]. intros i' k' v' E'. cbn in E'. apply nth_upd_cases in E' as [(_ & C & _)|(_ & E')]; [discriminate|eapply N; eauto].
  - destruct (l_get (v_l c) k) as (y & l) eqn:El. injection F as <- <-. split; [apply Same; reflexivity|]. left. cbn. eapply l_get_step; eauto.
  - destruct (l_ans (v_l c) n f) as [(y & l)|] eqn:El; [|discriminate]. injection F as <- <-. split; [apply Same; reflexivity|]. left. cbn. eapply l_ans_step; eauto.
  - destruct (fire_hand p c j) as [c2|] eqn:E; [|discriminate]. injection F as <- <-. unfold fire_hand in E.
    destruct (v_h c) as [|b|b n| |n| |] eqn:Eh; try discriminate; try (injection E as <-; split; [apply Same; reflexivity|right; auto]; fail).
    + destruct (unsaved (v_l c)) as [x|] eqn:Eu; injection E as <-; (split; [apply Same; reflexivity|]); [|right; auto]. left. cbn.
      apply Lz_front; [|exact Eu]. destruct (l_hand (v_l c)) eqn:Ehd; [|reflexivity]. destruct (w_hand _ _ V) as (_ & W).
      destruct W as (b' & n' & W); [congruence|]. congruence.
    + destruct (l_hand (v_l c)) as [id|] eqn:Ehd; [|discriminate]. destruct (find_item id _) as [x|] eqn:Ef; [|discriminate].
      destruct (nth_error (l_sav (v_l c)) j) as [[|]|] eqn:Ej; try discriminate. destruct (nth_error (v_sv c) j) as [[| |]|] eqn:Es; try discriminate.
      injection E as <-. split; [apply Same; reflexivity|]. left. cbn. eapply Lz_send; eauto.
  - destruct (v_h c); try discriminate. injection F as <- <-. split; [apply Same; reflexivity|right; auto].
  - destruct (v_h c); try discriminate. destruct (v_sig c); [|discriminate]. injection F as <- <-. split; [apply Same; reflexivity|right; auto].
  - destruct (v_h c); try discriminate. destruct (closed c); [|discriminate]. injection F as <- <-. split; [apply Same; reflexivity|right; auto].
  - destruct (fire_sav p c j f) as [c2|] eqn:E; [|discriminate]. injection F as <- <-. unfold fire_sav in E.
    destruct (nth_error (l_sav (v_l c)) j) as [[(x & [|])|]|] eqn:Ej; try discriminate;
    destruct (nth_error (v_sv c) j) as [[| |]|] eqn:Es; try discriminate.
    + destruct (_ <? _); [|discriminate]. injection E as <-. split; [apply Same; reflexivity|right; auto].
    + injection E as <-. split; [apply Same; reflexivity|]. left. cbn. apply Lz_done. exact Ej.
    + injection E as <-. split; [apply Same; reflexivity|]. left. cbn. apply Lz_write; [exact Ej|exact M].
    + destruct (v_h c); try discriminate. injection E as <-. split; [apply Same; reflexivity|right; auto].
  - destruct (fire_stop p c) as [c2|] eqn:E; [|discriminate]. injection F as <- <-. unfold fire_stop in E.
    assert (R : v_calls c2 = v_calls c /\ v_l c2 = v_l c).
    { destruct (v_stop c) as [| |n| | |]; try discriminate; try (injection E as <-; split; reflexivity).
      - destruct (_ <? _); [|injection E as <-; split; reflexivity]. destruct (v_tok c); [discriminate|]. injection E as <-. split; reflexivity.
      - destruct (v_h c); try discriminate. injection E as <-. split; reflexivity.
      - destruct (forallb _ _); [|discriminate]. injection E as <-. split; reflexivity. }
    destruct R as (R1 & R2). split; [apply Same, R1|right; auto].
Qed.

Definition VAll (p : vpar) (mf : bool) (K : skey -> Prop) (s : kv) (tr : list levent) (c : vcfg) : Prop :=
  lexec (p_sav p) mf K s tr (v_l c) /\ named K c /\ QInv (v_l c) /\ VInv p c.
Lemma all_step p mf K s tr c x e c' : VAll p mf K s tr c -> may mf K x -> vfire p c x = Some (e, c') ->
  VAll p mf K s (tr ++ match e with Some y => [y] | None => [] end) c'.
Proof.
  intros (L & N & Q & V) M F. destruct (vfire_data _ _ _ _ _ _ _ V N M F) as (N' & D). pose proof (v_step _ _ _ _ _ _ _ Q V M F) as V'.
  split; [|split; [exact N'|split; [|exact V']]].
  - destruct D as [D|(-> & ->)]; [econstructor; eauto|]. rewrite app_nil_r. exact L.
  - destruct D as [D|(_ & ->)]; [eapply q_step; eauto|exact Q].
Qed.
Lemma all_exec p mf K s tr c : vexec p mf K s tr c -> VAll p mf K s tr c.
Proof.
  induction 1 as [|tr c x e c' E IH M F]; [|eapply all_step; eauto].
  split; [constructor|split; [|split; [apply q_start|apply v_start]]]. intros i k v C. destruct i; discriminate.
Qed.

(** ** once the flag is set with no late call *)
Definition quiet (c : vcfg) : Prop := v_stop c <> SNone /\ no_late c /\ (v_h c = HExit -> fresh_items (v_l c) = 0).
Definition loaded (l : lcfg) : nat := fresh_items l.

(** rank of the handler's position when [u] items are not marked *)
Definition hrank (fl u : nat) (h : hpc) : nat :=
  match h with
  | HExit => 0
  | HTop => if u =? 0 then 2 else 5
  | HSave false => if u =? 0 then 3 else 4
  | HSave true => 4
  | HLoop n => if fl <? n then 7 else if u =? 0 then 3 else 6
  | HLen => 8
  | HSel => 9
  | HSend _ _ => 12
  end.
Definition rank1 (x : option (item * bool)) : nat := match x with None => 1 | Some (_, false) => 5 | Some (_, true) => 4 end.
Definition rank2 (x : sph) : nat := match x with SvRun => 2 | SvRet => 1 | SvGone => 0 end.
Definition rankc (x : cpc) : nat := match x with CNew _ _ => 40 | CSig => 2 | CTok => 1 | CEnd => 0 end.
Definition ranks (m : nat) (x : spc) : nat :=
  match x with SNone => m + 6 | SClose => m + 5 | STake n => (m - n) + 4 | SWait1 => 3 | SWait2 => 2 | SRet => 0 end.
Definition mu (p : vpar) (c : vcfg) : nat :=
  30 * fresh_items (v_l c) + hrank (p_flush p) (fresh_items (v_l c)) (v_h c) + wsum rank1 (l_sav (v_l c)) +
  wsum rank2 (v_sv c) + wsum rankc (v_calls c) + ranks (p_max p) (v_stop c).

(** steps after which nothing is undone: all work steps, except the handler looking at the
    top of its loop while Shutdown has not been called *)
Lemma mu_call p c i e c' : (forall k v, nth_error (v_calls c) i <> Some (CNew k v)) -> fire_call c i = Some (e, c') -> mu p c' < mu p c.
Proof.
  intros N F. apply fire_call_inv in F as [(k & v & E & -> & ->)|[(E & -> & ->)|(t & E & Et & -> & ->)]].
  - destruct (N _ _ E).
  - unfold mu. vfields. unfold pc_at. pose proof (wsum_upd rankc _ _ _ CTok E) as W. cbn [rankc] in W. lia.
  - unfold mu. vfields. unfold pc_at. pose proof (wsum_upd rankc _ _ _ CEnd E) as W. cbn [rankc] in W. lia.
Qed.
Lemma mu_hand p c j c' : QInv (v_l c) -> (v_h c = HTop -> down c = true \/ (0 < fresh_items (v_l c) /\ p_flush p < length (l_q (v_l c)))) ->
  fire_hand p c j = Some c' -> mu p c' < mu p c.
Proof.
  intros Q T F. unfold fire_hand in F. unfold mu. destruct (v_h c) as [|b|b n| |n| |] eqn:Eh; try discriminate.
  - injection F as <-. vfields. specialize (T eq_refl). destruct (down c) eqn:Ed.
    + destruct (unsaved (v_l c)) as [x|] eqn:Eu.
      * apply unsaved_some in Eu as (_ & _ & U). unfold hrank. destruct (Nat.eqb_spec (fresh_items (v_l c)) 0); [lia|]. cbn. lia.
      * apply unsaved_none in Eu. rewrite Eu. cbn. lia.
    + destruct T as [T|(T1 & T2)]; [discriminate|]. apply Nat.ltb_lt in T2. rewrite T2. unfold hrank.
      destruct (Nat.eqb_spec (fresh_items (v_l c)) 0); [lia|]. cbn. lia.
  - destruct (unsaved (v_l c)) as [x|] eqn:Eu; injection F as <-; vfields.
    + destruct (unsaved_some _ _ Eu) as (A & B & U). pose proof (mark_un _ _ (q_nd _ Q) A B) as M. unfold l_front. cbn [l_sav l_q].
      unfold fresh_items in *. cbn [l_q]. set (u := wsum un (l_q (v_l c))) in *. set (u' := wsum un (mark (i_id x) (l_q (v_l c)))) in *.
      assert (H : hrank (p_flush p) u (HSave b) = 4) by (unfold hrank; destruct b; [reflexivity|]; destruct (Nat.eqb_spec u 0); [lia|reflexivity]).
      rewrite H. cbn [hrank]. lia.
    + apply unsaved_none in Eu. rewrite Eu. destruct b; cbn [resume hrank Nat.eqb]; [|lia]. destruct (p_flush p <? 0) eqn:C; [apply Nat.ltb_lt in C; lia|lia].
  - destruct (l_hand (v_l c)) as [id|] eqn:Ehd; [|discriminate]. destruct (find_item id _) as [x|] eqn:Ef; [|discriminate].
    destruct (nth_error (l_sav (v_l c)) j) as [[|]|] eqn:Ej; try discriminate. destruct (nth_error (v_sv c) j) as [[| |]|] eqn:Es; try discriminate.
    injection F as <-. vfields. unfold l_send, fresh_items. cbn [l_sav l_q]. pose proof (wsum_upd rank1 _ _ _ (Some (x, false)) Ej) as W. cbn [rank1] in W.
    assert (H : hrank (p_flush p) (wsum un (l_q (v_l c))) (resume b n) <= 7).
    { unfold resume, hrank. destruct b; [destruct (p_flush p <? n); [lia|]|]; destruct (wsum un (l_q (v_l c)) =? 0); lia. }
    cbn [hrank]. lia.
  - injection F as <-. vfields. cbn [hrank]. destruct (p_flush p <? _); [lia|]. destruct (fresh_items (v_l c) =? 0); lia.
  - injection F as <-. vfields. destruct (p_flush p <? n) eqn:El; cbn [hrank]; rewrite ?El; [lia|]. destruct (fresh_items (v_l c) =? 0); lia.
Qed.
Lemma mu_sav p c j f c' : QInv (v_l c) -> fire_sav p c j f = Some c' -> mu p c' < mu p c.
Proof.
  intros Q F. unfold fire_sav in F. unfold mu.
  destruct (nth_error (l_sav (v_l c)) j) as [[(x & [|])|]|] eqn:Ej; try discriminate;
  destruct (nth_error (v_sv c) j) as [[| |]|] eqn:Es; try discriminate.
  - destruct (_ <? _); [|discriminate]. injection F as <-. vfields. pose proof (wsum_upd rank2 _ _ _ SvRet Es) as W. cbn [rank2] in W. lia.
  - injection F as <-. vfields. unfold l_done, fresh_items. cbn [l_q l_sav].
    destruct (q_sav _ Q _ _ _ Ej) as (Hx & Hsv). destruct (drop_count _ _ (q_nd _ Q) Hx Hsv) as (D1 & D2). rewrite D2.
    pose proof (wsum_upd rank2 _ _ _ SvRun Es) as W. pose proof (wsum_upd rank1 _ _ _ None Ej) as W2. cbn [rank1 rank2] in W, W2. lia.
  - injection F as <-. vfields. unfold l_write, fresh_items. cbn [l_q l_sav]. pose proof (wsum_upd rank1 _ _ _ (Some (x, true)) Ej) as W2. cbn [rank1] in W2. lia.
  - destruct (v_h c) eqn:Eh; try discriminate. injection F as <-. vfields. rewrite ?Eh. pose proof (wsum_upd rank2 _ _ _ SvGone Es) as W. cbn [rank2] in W. lia.
Qed.
Lemma mu_stop p c c' : VInv p c -> fire_stop p c = Some c' -> mu p c' < mu p c.
Proof.
  intros V F. unfold fire_stop in F. unfold mu. destruct (v_stop c) as [| |n| | |] eqn:Es; try discriminate.
  - injection F as <-. vfields. cbn [ranks]. lia.
  - injection F as <-. vfields. cbn [ranks]. lia.
  - destruct (n <? p_max p) eqn:El.
    + apply Nat.ltb_lt in El. destruct (v_tok c); [discriminate|]. injection F as <-. vfields. cbn [ranks]. lia.
    + injection F as <-. vfields. cbn [ranks]. lia.
  - destruct (v_h c) eqn:Eh; try discriminate. injection F as <-. vfields. rewrite Eh. cbn [ranks]. lia.
  - destruct (forallb _ _); [|discriminate]. injection F as <-. vfields. cbn [ranks]. lia.
Qed.

Lemma quiet_step p mf K s tr c x e c' : VAll p mf K s tr c -> quiet c -> may mf K x -> vfire p c x = Some (e, c') ->
  quiet c' /\ if is_work x then mu p c' < mu p c else mu p c' = mu p c.
Proof.
  intros (L & N & Q & V) (Q1 & Q2 & Q3) M F.
  assert (Dn : down c = true) by (unfold down; destruct (v_stop c); congruence).
  destruct x as [k v|i|k|n f|j| | | |j f|]; cbn [vfire is_work] in *.
  - rewrite Dn in F. discriminate.
  - pose proof (mu_call p _ _ _ _ (Q2 i) F) as Mu. split; [|exact Mu].
    apply fire_call_inv in F as [(k & v & E & -> & ->)|[(E & -> & ->)|(t & E & Et & -> & ->)]]; [destruct (Q2 _ _ _ E)| |];
      (split; [exact Q1|split; [|exact Q3]]); intros i' k' v' E'; cbn in E'; apply nth_upd_cases in E' as [(_ & C & _)|(_ & E')]; try discriminate; eapply Q2; eauto.
  - destruct (l_get (v_l c) k) as (y & l) eqn:El. injection F as <- <-.
    assert (X : l_q l = l_q (v_l c) /\ l_sav l = l_sav (v_l c)).
    { unfold l_get in El. destruct (pending _ _) as [z|]; [destruct (skey_dec _ _)|]; injection El as <- <-; auto. }
    destruct X as (X1 & X2). unfold quiet, mu, fresh_items in *. vfields. rewrite X1, X2. auto.
  - destruct (l_ans (v_l c) n f) as [(y & l)|] eqn:El; [|discriminate]. injection F as <- <-.
    assert (X : l_q l = l_q (v_l c) /\ l_sav l = l_sav (v_l c)).
    { unfold l_ans in El. destruct (find _ _) as [(a & b)|]; [|discriminate]. injection El as <- <-. auto. }
    destruct X as (X1 & X2). unfold quiet, mu, fresh_items in *. vfields. rewrite X1, X2. auto.
  - destruct (fire_hand p c j) as [c2|] eqn:E; [|discriminate]. injection F as <- <-. split; [|eapply mu_hand; eauto].
    unfold fire_hand in E. rewrite Dn in E. destruct (v_h c) as [|b|b n| |n| |] eqn:Eh; try discriminate.
    + injection E as <-. split; [exact Q1|split; [exact Q2|]]. vfields. destruct (unsaved (v_l c)) eqn:Eu; [discriminate|]. intros _. apply unsaved_none, Eu.
    + destruct (unsaved (v_l c)); injection E as <-; (split; [exact Q1|split; [exact Q2|]]); vfields; [discriminate|destruct b; discriminate].
    + destruct (l_hand (v_l c)) as [id|] eqn:Ehd; [|discriminate]. destruct (find_item id _) as [x|] eqn:Ef; [|discriminate].
      destruct (nth_error (l_sav (v_l c)) j) as [[|]|] eqn:Ej; try discriminate. destruct (nth_error (v_sv c) j) as [[| |]|] eqn:Es; try discriminate.
      injection E as <-. split; [exact Q1|split; [exact Q2|]]. vfields. destruct b; discriminate.
    + injection E as <-. split; [exact Q1|split; [exact Q2|]]. vfields. discriminate.
    + injection E as <-. split; [exact Q1|split; [exact Q2|]]. vfields. destruct (_ <? _); discriminate.
  - destruct (v_h c) eqn:Eh; try discriminate. injection F as <- <-. split; [split; [exact Q1|split; [exact Q2|vfields; discriminate]]|].
    unfold mu. vfields. rewrite Eh. cbn [hrank]. destruct (_ =? 0); lia.
  - destruct (v_h c) eqn:Eh; try discriminate. destruct (v_sig c); [|discriminate]. injection F as <- <-. split; [split; [exact Q1|split; [exact Q2|vfields; discriminate]]|].
    unfold mu. vfields. rewrite Eh. cbn [hrank]. lia.
  - destruct (v_h c) eqn:Eh; try discriminate. destruct (closed c); [|discriminate]. injection F as <- <-. split; [split; [exact Q1|split; [exact Q2|vfields; discriminate]]|].
    unfold mu. vfields. rewrite Eh. cbn [hrank]. destruct (_ =? 0); lia.
  - destruct (fire_sav p c j f) as [c2|] eqn:E; [|discriminate]. injection F as <- <-. split; [|eapply mu_sav; eauto].
    unfold fire_sav in E. destruct (nth_error (l_sav (v_l c)) j) as [[(x & [|])|]|] eqn:Ej; try discriminate;
    destruct (nth_error (v_sv c) j) as [[| |]|] eqn:Es; try discriminate.
    + destruct (_ <? _); [|discriminate]. injection E as <-. split; [exact Q1|split; [exact Q2|exact Q3]].
    + injection E as <-. split; [exact Q1|split; [exact Q2|]]. vfields. unfold l_done, fresh_items. cbn [l_q].
      destruct (q_sav _ Q _ _ _ Ej) as (Hx & Hsv). destruct (drop_count _ _ (q_nd _ Q) Hx Hsv) as (D1 & D2). rewrite D2. exact Q3.
    + injection E as <-. split; [exact Q1|split; [exact Q2|exact Q3]].
    + destruct (v_h c); try discriminate. injection E as <-. split; [exact Q1|split; [exact Q2|exact Q3]].
  - destruct (fire_stop p c) as [c2|] eqn:E; [|discriminate]. injection F as <- <-. split; [|eapply mu_stop; eauto].
    unfold fire_stop in E. destruct (v_stop c) as [| |n| | |] eqn:Es; try discriminate; try (injection E as <-; split; [discriminate|split; [exact Q2|exact Q3]]; fail).
    + destruct (_ <? _); [destruct (v_tok c); [discriminate|]|]; injection E as <-; (split; [discriminate|split; [exact Q2|exact Q3]]).
    + destruct (v_h c) eqn:Eh; try discriminate. injection E as <-. split; [discriminate|split; [exact Q2|]]. vfields. rewrite Eh. exact Q3.
    + destruct (forallb _ _); [|discriminate]. injection E as <-. split; [discriminate|split; [exact Q2|exact Q3]].
Qed.

Lemma shut_inv p mf K s c0 n tr c : shut p mf K s c0 n tr c ->
  VAll p mf K s tr c /\ quiet c /\ mu p c + n <= mu p c0.
Proof.
  intros (t1 & c1 & e & t2 & E & S0 & NL & F & G & ->). pose proof (all_exec _ _ _ _ _ _ E) as A1.
  assert (E0 : e = None /\ c0 = set_stop c1 SClose).
  { cbn in F. unfold fire_stop in F. rewrite S0 in F. injection F as <- <-. auto. }
  destruct E0 as (-> & ->).
  assert (A0 : VAll p mf K s t1 (set_stop c1 SClose)) by (pose proof (all_step _ _ _ _ _ _ _ _ _ A1 (I : may mf K V_stop_) F) as A; rewrite app_nil_r in A; exact A).
  assert (Q0 : quiet (set_stop c1 SClose)).
  { split; [discriminate|split; [exact NL|]]. vfields. intros C. destruct A1 as (_ & _ & _ & V). destruct (w_exit _ _ V C S0). }
  clear F. revert A0 Q0. induction G as [c|c n tr c2 x e c3 G IH M F]; intros A0 Q0.
  - rewrite app_nil_r. split; [exact A0|split; [exact Q0|lia]].
  - destruct (IH A0 Q0) as (A & Q & Le). rewrite app_assoc. split; [eapply all_step; eauto|].
    destruct (quiet_step _ _ _ _ _ _ _ _ _ A Q M F) as (Q' & D). split; [exact Q'|]. destruct (is_work x); lia.
Qed.

Lemma c58_ends p mf K s c0 n tr c : shut p mf K s c0 n tr c -> n <= mu p c0.
Proof. intros H. apply shut_inv in H as (_ & _ & H). lia. Qed.

(** ** something can always move *)
Lemma sv_exists p c j : VInv p c -> j < p_sav p -> (exists x, nth_error (l_sav (v_l c)) j = Some x) /\ exists y, nth_error (v_sv c) j = Some y.
Proof.
  intros V H. destruct (w_len _ _ V) as (L1 & L2). split.
  - destruct (nth_error (l_sav (v_l c)) j) eqn:E; [eauto|]. apply nth_error_None in E. lia.
  - destruct (nth_error (v_sv c) j) eqn:E; [eauto|]. apply nth_error_None in E. lia.
Qed.
Lemma busy_moves p c j x : VInv p c -> 1 <= p_max p -> nth_error (l_sav (v_l c)) j = Some (Some x) ->
  (exists j2 c', fire_sav p c j2 Good = Some c') \/ (v_tok c = p_max p /\ exists i c', (forall k v, nth_error (v_calls c) i <> Some (CNew k v)) /\ fire_call c i = Some (None, c')).
Proof.
  intros V Hm E. destruct x as (e & w). destruct (w_len _ _ V) as (L1 & L2).
  assert (Hj : j < p_sav p) by (rewrite <- L1; apply nth_error_Some; congruence).
  destruct (sv_exists _ _ _ V Hj) as (_ & y & Es). pose proof (w_sv _ _ V _ _ Es) as W. destruct y.
  - destruct w; [|left; exists j; unfold fire_sav; rewrite E, Es; eauto]. destruct (v_tok c <? p_max p) eqn:El; [left; exists j; unfold fire_sav; rewrite E, Es, El; eauto|].
    apply Nat.ltb_ge in El. pose proof (w_cap _ _ V). pose proof (w_tok _ _ V) as T. pose proof (w_items _ _ V) as I.
    pose proof (wsum_ge busy1 _ _ _ E) as B. cbn in B. fold (busy (v_l c)) in B.
    destruct (wsum ret1 (v_sv c)) eqn:Er.
    + right. split; [lia|]. assert (P : 0 < wsum wait1 (v_calls c)) by lia. apply wsum_pos in P as (i & z & Ez & Hz).
      exists i. unfold fire_call. rewrite Ez. destruct z; cbn in Hz; try lia.
      * eexists. split; [discriminate|reflexivity].
      * destruct (v_tok c) eqn:Et; [lia|]. eexists. split; [discriminate|reflexivity].
    + left. assert (P : 0 < wsum ret1 (v_sv c)) by lia. apply wsum_pos in P as (j2 & z & Ez & Hz). destruct z; cbn in Hz; try lia.
      destruct (w_sv _ _ V _ _ Ez) as (e2 & E2). exists j2. unfold fire_sav. rewrite E2, Ez. eauto.
  - destruct W as (e' & W). rewrite E in W. injection W as -> ->. left. exists j. unfold fire_sav. rewrite E, Es. eauto.
  - destruct W as (W & _). rewrite E in W. discriminate.
Qed.
Lemma idle_or_busy l : (exists j x, nth_error l j = Some (Some x)) \/ (wsum busy1 l = 0 /\ forall j x, nth_error l j = Some x -> x = None).
Proof.
  destruct (wsum busy1 l) eqn:E.
  - right. split; [reflexivity|]. intros j [x|] Ex; [|reflexivity]. pose proof (wsum_ge busy1 _ _ _ Ex) as B. cbn in B. lia.
  - left. assert (P : 0 < wsum busy1 l) by lia. apply wsum_pos in P as (j & [x|] & Ex & Hx); cbn in Hx; [|lia]. eauto.
Qed.
Lemma hand_find c id : QInv c -> l_hand c = Some id -> exists e, find_item id (l_q c) = Some e.
Proof. intros Q E. destruct (q_hand _ Q _ E) as ((e & A & B & _) & _). exists e. rewrite <- B. apply find_item_in; [apply (q_nd _ Q)|exact A]. Qed.

(** a handler that is sending, with no saver busy, can send *)
Lemma send_moves p c b n : par_ok p -> QInv (v_l c) -> VInv p c -> v_h c = HSend b n -> busy (v_l c) = 0 ->
  exists c', fire_hand p c 0 = Some c'.
Proof.
  intros (P1 & P2 & P3) Q V Eh B. unfold fire_hand. rewrite Eh.
  destruct (l_hand (v_l c)) as [id|] eqn:E; [|destruct (proj1 (w_hand _ _ V)); eauto].
  destruct (hand_find _ _ Q E) as (e & ->). destruct (sv_exists p c 0 V) as ((x & Ex) & y & Ey); [lia|]. rewrite Ex, Ey.
  destruct x as [x|]; [pose proof (wsum_ge busy1 _ _ _ Ex) as W; cbn in W; unfold busy in B; lia|].
  pose proof (w_sv _ _ V _ _ Ey) as W. destruct y; [eauto| |].
  - destruct W as (e' & W). congruence.
  - destruct W as (_ & W). congruence.
Qed.

Lemma c58_moves p mf K s c0 n tr c : par_ok p -> shut p mf K s c0 n tr c -> ~ finished c ->
  exists x e c', is_work x = true /\ x <> V_timer /\ may false K x /\ vfire p c x = Some (e, c').
Proof.
  intros P H NF. apply shut_inv in H as ((_ & _ & Q & V) & (Q1 & Q2 & Q3) & _). pose proof P as (P1 & P2 & P3).
  assert (Sav : (exists j2 c', fire_sav p c j2 Good = Some c') -> exists x e c', is_work x = true /\ x <> V_timer /\ may false K x /\ vfire p c x = Some (e, c')).
  { intros (j & c' & F). exists (V_sav j Good), None, c'. split; [reflexivity|split; [discriminate|split; [discriminate|]]]. cbn. rewrite F. reflexivity. }
  assert (Han : (exists c', fire_hand p c 0 = Some c') -> exists x e c', is_work x = true /\ x <> V_timer /\ may false K x /\ vfire p c x = Some (e, c')).
  { intros (c' & F). exists (V_hand 0), None, c'. split; [reflexivity|split; [discriminate|split; [exact I|]]]. cbn. rewrite F. reflexivity. }
  assert (Stp : (exists c', fire_stop p c = Some c') -> exists x e c', is_work x = true /\ x <> V_timer /\ may false K x /\ vfire p c x = Some (e, c')).
  { intros (c' & F). exists V_stop_, None, c'. split; [reflexivity|split; [discriminate|split; [exact I|]]]. cbn. rewrite F. reflexivity. }
  destruct (idle_or_busy (l_sav (v_l c))) as [(j & x & Ej)|(B0 & Idle)].
  { destruct (busy_moves p c j x V ltac:(lia) Ej) as [Hs|(_ & i & c' & _ & F)]; [auto|]. exists (V_adv i), None, c'. cbn. repeat split; try discriminate; auto. }
  destruct (v_h c) as [|b|b m| |m| |] eqn:Eh.
  - apply Han. unfold fire_hand. rewrite Eh. eauto.
  - apply Han. unfold fire_hand. rewrite Eh. eauto.
  - apply Han. eapply send_moves; eauto.
  - apply Han. unfold fire_hand. rewrite Eh. eauto.
  - apply Han. unfold fire_hand. rewrite Eh. eauto.
  - (* waiting: the channel is closed, or about to be *)
    pose proof (w_wait _ _ V) as W. destruct (v_stop c) as [| |k| | |] eqn:Es.
    + congruence.
    + apply Stp. unfold fire_stop. rewrite Es. eauto.
    + exists V_closed, None, (set_h c HTop). repeat split; try discriminate. cbn. rewrite Eh. unfold closed. rewrite Es. reflexivity.
    + exists V_closed, None, (set_h c HTop). repeat split; try discriminate. cbn. rewrite Eh. unfold closed. rewrite Es. reflexivity.
    + congruence.
    + destruct W. congruence.
  - (* the handler has returned *)
    destruct (wsum rank2 (v_sv c)) eqn:Eg.
    2:{ assert (Pg : 0 < wsum rank2 (v_sv c)) by lia. apply wsum_pos in Pg as (j & y & Ey & Hy). apply Sav. exists j. unfold fire_sav.
        destruct (w_len _ _ V) as (L1 & L2). assert (Hj : j < p_sav p) by (rewrite <- L2; apply nth_error_Some; congruence).
        destruct (sv_exists _ _ _ V Hj) as ((x & Ex) & _). rewrite Ex, Ey, (Idle _ _ Ex), Eh. pose proof (w_sv _ _ V _ _ Ey) as W.
        destruct y; [eauto| |cbn in Hy; lia]. destruct W as (e' & W). rewrite Ex in W. injection W as ->. pose proof (Idle _ _ Ex). discriminate. }
    assert (Gone : forall j y, nth_error (v_sv c) j = Some y -> y = SvGone).
    { intros j y Ey. pose proof (wsum_ge rank2 _ _ _ Ey) as W. destruct y; cbn in W; try lia. reflexivity. }
    assert (R0 : wsum ret1 (v_sv c) = 0).
    { destruct (wsum ret1 (v_sv c)) eqn:Er; [reflexivity|]. assert (Pr : 0 < wsum ret1 (v_sv c)) by lia. apply wsum_pos in Pr as (j & y & Ey & Hy).
      rewrite (Gone _ _ Ey) in Hy. cbn in Hy. lia. }
    pose proof (w_items _ _ V) as I1. pose proof (w_tok _ _ V) as I2. rewrite (Q3 eq_refl) in I1. unfold busy in I1. rewrite B0 in I1.
    assert (H0 : hand_n (v_l c) = 0).
    { unfold hand_n. destruct (l_hand (v_l c)) eqn:E; [|reflexivity]. destruct (proj2 (w_hand _ _ V)) as (b & m & C); congruence. }
    destruct (v_tok c) as [|t] eqn:Et.
    + (* no token left: Shutdown has them all *)
      pose proof (w_take _ _ V) as I4. assert (Wz : wsum wait1 (v_calls c) = 0) by lia.
      destruct (v_stop c) as [| |k| | |] eqn:Es; cbn in I2, I4.
      * congruence.
      * apply Stp. unfold fire_stop. rewrite Es. eauto.
      * apply Stp. unfold fire_stop. rewrite Es. destruct (k <? p_max p) eqn:El; [|eauto]. apply Nat.ltb_lt in El. lia.
      * apply Stp. unfold fire_stop. rewrite Es, Eh. eauto.
      * apply Stp. unfold fire_stop. rewrite Es. assert (forallb is_gone (v_sv c) = true) as ->; [|eauto].
        apply forallb_forall. intros y Hy. apply In_nth_error in Hy as (j & Hy). rewrite (Gone _ _ Hy). reflexivity.
      * exfalso. apply NF. split; [exact Es|]. intros i y Ey. pose proof (wsum_ge wait1 _ _ _ Ey) as W.
        destruct y; cbn in W; try lia; [destruct (Q2 _ _ _ Ey)|reflexivity].
    + (* a token: a waiting call, or Shutdown *)
      destruct (wsum wait1 (v_calls c)) eqn:Ew.
      * destruct (v_stop c) as [| |k| | |] eqn:Es; cbn in I2; try lia; [congruence| |].
        -- apply Stp. unfold fire_stop. rewrite Es. eauto.
        -- apply Stp. unfold fire_stop. rewrite Es. destruct (k <? p_max p); [rewrite Et|]; eauto.
      * assert (Pw : 0 < wsum wait1 (v_calls c)) by lia. apply wsum_pos in Pw as (i & z & Ez & Hz).
        destruct z; cbn in Hz; try lia; eexists (V_adv i), None, _; (split; [reflexivity|split; [discriminate|split; [exact I|]]]); cbn; unfold fire_call; rewrite Ez, ?Et; reflexivity.
Qed.

Lemma c58_nothing_left p mf K s c0 n tr c : shut p mf K s c0 n tr c -> v_stop c = SRet -> l_q (v_l c) = [].
Proof.
  intros H E. apply shut_inv in H as ((_ & _ & Q & V) & (Q1 & Q2 & Q3) & _). pose proof (w_wait _ _ V) as W. rewrite E in W. destruct W as (W1 & W2).
  pose proof (w_items _ _ V) as I1. rewrite (Q3 W1) in I1.
  assert (H0 : hand_n (v_l c) = 0).
  { unfold hand_n. destruct (l_hand (v_l c)) eqn:Eh; [|reflexivity]. destruct (proj2 (w_hand _ _ V)) as (b & m & C); congruence. }
  assert (B0 : busy (v_l c) = 0).
  { destruct (idle_or_busy (l_sav (v_l c))) as [(j & x & Ej)|(B & _)]; [|exact B]. destruct (w_len _ _ V) as (L1 & L2).
    assert (Hj : j < p_sav p) by (rewrite <- L1; apply nth_error_Some; congruence). destruct (sv_exists _ _ _ V Hj) as (_ & y & Ey).
    pose proof (w_sv _ _ V _ _ Ey) as S. rewrite (W2 _ _ Ey) in S. destruct S as (S & _). congruence. }
  destruct (l_q (v_l c)); [reflexivity|]. cbn in I1. lia.
Qed.
Lemma c58_stored m f K s c0 n tr c : plain_sets K -> shut (mkVP m f 1) false K s c0 n tr c -> v_stop c = SRet ->
  forall k, K k -> l_kv (v_l c) k = after s tr k.
Proof.
  intros HK H E. pose proof (c58_nothing_left _ _ _ _ _ _ _ _ H E) as Z. apply shut_inv in H as ((L & _) & _).
  eapply c36_drained; eauto.
Qed.
Lemma returned_idle p c : VInv p c -> v_stop c = SRet -> (forall j x, nth_error (v_sv c) j = Some x -> x = SvGone) /\ v_h c = HExit.
Proof. intros V E. pose proof (w_wait _ _ V) as W. rewrite E in W. tauto. Qed.
Lemma ret_step p c x e c' : VInv p c -> v_stop c = SRet -> vfire p c x = Some (e, c') -> l_kv (v_l c') = l_kv (v_l c) /\ v_stop c' = SRet.
Proof.
  intros V E F. destruct (returned_idle _ _ V E) as (W1 & W2). destruct x as [k v|i|k|m f|j| | | |j f|]; cbn [vfire] in F.
  - unfold down in F. rewrite E in F. discriminate.
  - apply fire_call_inv in F as [(k & v & Ei & -> & ->)|[(Ei & -> & ->)|(t & Ei & Et & -> & ->)]]; cbn; auto.
    split; [|exact E]. unfold do_set. destruct (pending (v_l c) k) as [z|]; [destruct (i_saving z)|]; reflexivity.
  - destruct (l_get (v_l c) k) as (y & l) eqn:El. injection F as <- <-. unfold l_get in El.
    destruct (pending _ _) as [z|]; [destruct (skey_dec _ _)|]; injection El as <- <-; auto.
  - destruct (l_ans (v_l c) m f) as [(y & l)|] eqn:El; [|discriminate]. injection F as <- <-. unfold l_ans in El.
    destruct (find _ _) as [(a & b)|]; [|discriminate]. injection El as <- <-. auto.
  - unfold fire_hand in F. rewrite W2 in F. discriminate.
  - rewrite W2 in F. discriminate.
  - rewrite W2 in F. discriminate.
  - rewrite W2 in F. discriminate.
  - unfold fire_sav in F. destruct (nth_error (v_sv c) j) as [y|] eqn:Ey.
    + rewrite (W1 _ _ Ey) in F. destruct (nth_error (l_sav (v_l c)) j) as [[(z & [|])|]|]; discriminate.
    + destruct (nth_error (l_sav (v_l c)) j) as [[(z & [|])|]|]; discriminate.
  - unfold fire_stop in F. rewrite E in F. discriminate.
Qed.
Lemma c58_still p mf K s tr c n tr2 c' : vexec p mf K s tr c -> v_stop c = SRet -> goes p mf K c n tr2 c' -> l_kv (v_l c') = l_kv (v_l c).
Proof.
  intros E0 E G. apply all_exec in E0. assert (R : (exists t, VAll p mf K s t c') /\ v_stop c' = SRet /\ l_kv (v_l c') = l_kv (v_l c)); [|apply R].
  induction G as [c|c n tr' c2 x e c3 G IH M F]; [eauto|]. destruct (IH E0 E) as ((t & A) & B & C). pose proof A as (_ & _ & _ & V).
  destruct (ret_step _ _ _ _ _ V B F) as (D1 & D2). split; [|split; [exact D2|congruence]].
  eexists. eapply all_step; eauto.
Qed.

(** ** the number of unwritten items *)
Lemma ret_written p c : VInv p c -> wsum ret1 (v_sv c) <= savers_done c.
Proof.
  intros V. unfold savers_done. rewrite wsum_filter. destruct (w_len _ _ V) as (L1 & L2). pose proof (w_sv _ _ V) as W.
  assert (Len : length (v_sv c) = length (l_sav (v_l c))) by lia. clear L1 L2. revert W Len. generalize (l_sav (v_l c)) as l. induction (v_sv c) as [|y v IH]; intros l W Len.
  - cbn. lia.
  - destruct l as [|x l]; [discriminate|]. cbn in Len. assert (H : wsum ret1 v <= wsum (fun x => if match x with Some (_, b) => b | None => false end then 1 else 0) l).
    { apply IH; [|lia]. intros j z Ez. exact (W (S j) z Ez). }
    pose proof (W 0 y eq_refl) as W0. cbn in W0. cbn. destruct y; cbn; try lia. destruct W0 as (e & E). injection E as ->. lia.
Qed.
Lemma c58_backlog p mf K s tr c : vexec p mf K s tr c -> length (l_q (v_l c)) <= p_max p + blocked c + savers_done c.
Proof.
  intros E. apply all_exec in E as (_ & _ & _ & V). pose proof (ret_written _ _ V) as R. pose proof (w_tok _ _ V) as T.
  unfold blocked. rewrite wsum_filter. rewrite (wsum_ext _ wait1); [lia|]. intros [| | |] _; reflexivity.
Qed.

(** ** a Set that waits is not stuck *)
Lemma helps_trans p a b c : helps p a b -> helps p b c -> helps p a c.
Proof. intros A. induction A; intros B; [exact B|]. econstructor; eauto. Qed.

Lemma wait_moves p K mf s tr c i : par_ok p -> VAll p mf K s tr c -> v_stop c = SNone -> nth_error (v_calls c) i = Some CTok -> v_tok c = 0 ->
  exists x e c', is_own x = true /\ may false (fun _ => True) x /\ may mf K x /\ vfire p c x = Some (e, c') /\ mu p c' < mu p c /\
    v_stop c' = SNone /\ nth_error (v_calls c') i = Some CTok.
Proof.
  intros P (L & N & Q & V) Sn Ei Et. pose proof P as (P1 & P2 & P3). pose proof (w_tok _ _ V) as T. rewrite Sn, Et in T. cbn in T.
  pose proof (wsum_ge wait1 _ _ _ Ei) as W1. cbn in W1. assert (Hl : p_flush p < length (l_q (v_l c))) by lia. pose proof (w_items _ _ V) as I1.
  destruct (idle_or_busy (l_sav (v_l c))) as [(j & x & Ej)|(B0 & Idle)].
  { destruct (busy_moves p c j x V ltac:(lia) Ej) as [(j2 & c' & F)|(C & _)]; [|lia].
    exists (V_sav j2 Good), None, c'. split; [reflexivity|split; [discriminate|split; [discriminate|split; [cbn; rewrite F; reflexivity|split; [eapply mu_sav; eauto|]]]]].
    unfold fire_sav in F. destruct (nth_error (l_sav (v_l c)) j2) as [[(z & [|])|]|]; try discriminate;
      destruct (nth_error (v_sv c) j2) as [[| |]|]; try discriminate; try (injection F as <-; split; assumption).
    - destruct (_ <? _); [|discriminate]. injection F as <-. split; assumption.
    - destruct (v_h c); try discriminate. injection F as <-. split; assumption. }
  fold (busy (v_l c)) in B0.
  assert (Han : (v_h c = HTop -> down c = true \/ (0 < fresh_items (v_l c) /\ p_flush p < length (l_q (v_l c)))) -> (exists c', fire_hand p c 0 = Some c') ->
    exists x e c', is_own x = true /\ may false (fun _ => True) x /\ may mf K x /\ vfire p c x = Some (e, c') /\ mu p c' < mu p c /\ v_stop c' = SNone /\ nth_error (v_calls c') i = Some CTok).
  { intros Ht (c' & F). exists (V_hand 0), None, c'. split; [reflexivity|split; [exact I|split; [exact I|split; [cbn; rewrite F; reflexivity|split; [eapply mu_hand; eauto|]]]]].
    unfold fire_hand in F. destruct (v_h c) as [|b|b m| |m| |]; try discriminate; try (injection F as <-; split; assumption).
    - destruct (unsaved (v_l c)); injection F as <-; split; assumption.
    - destruct (l_hand (v_l c)) as [id|]; [|discriminate]. destruct (find_item id _); [|discriminate].
      destruct (nth_error (l_sav (v_l c)) 0) as [[|]|]; try discriminate. destruct (nth_error (v_sv c) 0) as [[| |]|]; try discriminate.
      injection F as <-. split; assumption. }
  assert (NoH : (forall b m, v_h c <> HSend b m) -> 0 < fresh_items (v_l c)).
  { intros H. assert (hand_n (v_l c) = 0); [|lia]. unfold hand_n. destruct (l_hand (v_l c)) eqn:E; [|reflexivity].
    destruct (proj2 (w_hand _ _ V)) as (b & m & C); [congruence|destruct (H _ _ C)]. }
  destruct (v_h c) as [|b|b m| |m| |] eqn:Eh.
  - apply Han; [|unfold fire_hand; rewrite Eh; eauto]. intros _. right. split; [apply NoH; discriminate|exact Hl].
  - apply Han; [discriminate|unfold fire_hand; rewrite Eh; eauto].
  - apply Han; [discriminate|eapply send_moves; eauto].
  - apply Han; [discriminate|unfold fire_hand; rewrite Eh; eauto].
  - apply Han; [discriminate|unfold fire_hand; rewrite Eh; eauto].
  - destruct (v_sig c) eqn:Eg.
    + eexists V_item, None, _. split; [reflexivity|split; [exact I|split; [exact I|split; [cbn; rewrite Eh, Eg; reflexivity|]]]]. unfold mu. vfields. rewrite Eh. cbn [hrank]. split; [lia|auto].
    + destruct (existsb (fun x => match x with CSig => true | _ => false end) (v_calls c)) eqn:Ex.
      * apply existsb_exists in Ex as (z & Hz & Bz). destruct z; try discriminate. apply In_nth_error in Hz as (i2 & Hz).
        assert (F : fire_call c i2 = Some (None, mkV (v_l c) (pc_at c i2 CTok) (v_tok c) true (v_h c) (v_sv c) (v_stop c))) by (unfold fire_call; rewrite Hz; reflexivity).
        eexists (V_adv i2), None, _. split; [reflexivity|split; [exact I|split; [exact I|split; [exact F|split; [eapply mu_call; [|exact F]; congruence|]]]]]. cbn. split; [exact Sn|].
        unfold pc_at. rewrite nth_set. destruct (Nat.eq_dec i2 i) as [<-|]; [congruence|exact Ei].
      * exfalso. pose proof (w_sel _ _ V Eh Sn Eg) as Wl. assert (length (l_q (v_l c)) <= p_flush p); [|lia]. apply Wl. intros i2 C.
        apply nth_error_In in C. assert (existsb (fun x => match x with CSig => true | _ => false end) (v_calls c) = true); [|congruence].
        apply existsb_exists. exists CSig. auto.
  - destruct (w_exit _ _ V Eh Sn).
Qed.
Lemma c58_not_stuck p mf K s tr c i : par_ok p -> vexec p mf K s tr c -> v_stop c = SNone -> nth_error (v_calls c) i = Some CTok ->
  exists c', helps p c c' /\ nth_error (v_calls c') i = Some CEnd.
Proof.
  intros P E. apply all_exec in E. remember (mu p c) as m eqn:Em. revert tr c E Em. induction m as [m IH] using lt_wf_ind. intros tr c E -> Sn Ei.
  destruct (v_tok c) as [|t] eqn:Et.
  - destruct (wait_moves _ _ _ _ _ _ _ P E Sn Ei Et) as (x & e & c1 & Ow & M1 & M2 & F & D & Sn1 & Ei1).
    destruct (IH _ D _ _ (all_step _ _ _ _ _ _ _ _ _ E M2 F) eq_refl Sn1 Ei1) as (c2 & H2 & E2).
    exists c2. split; [econstructor; eauto|exact E2].
  - eexists. split; [eapply (Hp_step p c (V_adv i)); [reflexivity|exact I|cbn; unfold fire_call; rewrite Ei, Et; reflexivity|apply Hp_nil]|].
    cbn. unfold pc_at. rewrite nth_set. destruct (Nat.eq_dec i i); [|congruence]. rewrite Ei. reflexivity.
Qed.

(** ** a Set that is late *)
Definition late (c : vcfg) : Prop := v_h c = HExit /\ 0 < fresh_items (v_l c).
Lemma late_step p mf K s tr c x e c' : VAll p mf K s tr c -> late c -> may mf K x -> vfire p c x = Some (e, c') -> late c'.
Proof.
  intros (L & N & Q & V) (H1 & H2) M F. unfold late. destruct x as [k v|i|k|m f|j| | | |j f|]; cbn [vfire] in F.
  - destruct (down c); [discriminate|]. injection F as <- <-. auto.
  - apply fire_call_inv in F as [(k & v & Ei & -> & ->)|[(Ei & -> & ->)|(t & Ei & Et & -> & ->)]]; cbn; auto. split; [exact H1|].
    unfold do_set, fresh_items in *. destruct (pending (v_l c) k) as [z|]; [destruct (i_saving z)|]; cbn; rewrite ?wsum_app, ?put_un; lia.
  - destruct (l_get (v_l c) k) as (y & l) eqn:El. injection F as <- <-. unfold l_get in El.
    destruct (pending _ _) as [z|]; [destruct (skey_dec _ _)|]; injection El as <- <-; auto.
  - destruct (l_ans (v_l c) m f) as [(y & l)|] eqn:El; [|discriminate]. injection F as <- <-. unfold l_ans in El.
    destruct (find _ _) as [(a & b)|]; [|discriminate]. injection El as <- <-. auto.
  - unfold fire_hand in F. rewrite H1 in F. discriminate.
  - rewrite H1 in F. discriminate.
  - rewrite H1 in F. discriminate.
  - rewrite H1 in F. discriminate.
  - destruct (fire_sav p c j f) as [c2|] eqn:E; [|discriminate]. injection F as <- <-. unfold fire_sav in E.
    destruct (nth_error (l_sav (v_l c)) j) as [[(x & [|])|]|] eqn:Ej; try discriminate;
    destruct (nth_error (v_sv c) j) as [[| |]|] eqn:Es; try discriminate.
    + destruct (_ <? _); [|discriminate]. injection E as <-. auto.
    + injection E as <-. vfields. unfold l_done, fresh_items. cbn [l_q].
      destruct (q_sav _ Q _ _ _ Ej) as (Hx & Hsv). destruct (drop_count _ _ (q_nd _ Q) Hx Hsv) as (D1 & D2). rewrite D2. auto.
    + injection E as <-. auto.
    + rewrite H1 in E. injection E as <-. auto.
  - destruct (fire_stop p c) as [c2|] eqn:E; [|discriminate]. injection F as <- <-. unfold fire_stop in E.
    destruct (v_stop c) as [| |m| | |] eqn:Es; try discriminate; try solve [injection E as <-; auto].
    + destruct (_ <? _); [destruct (v_tok c); [discriminate|]|]; injection E as <-; auto.
    + rewrite H1 in E. injection E as <-. auto.
    + destruct (forallb _ _); [|discriminate]. injection E as <-. auto.
Qed.
Lemma c58_late p mf K s tr c n tr2 c' : vexec p mf K s tr c -> v_h c = HExit -> (exists e, In e (l_q (v_l c)) /\ i_saving e = false) ->
  goes p mf K c n tr2 c' -> ~ finished c' /\ exists e, In e (l_q (v_l c')) /\ i_saving e = false.
Proof.
  intros E0 Eh (e0 & In0 & Sv0) G. apply all_exec in E0.
  assert (L0 : late c). { split; [exact Eh|]. unfold fresh_items. apply In_nth_error in In0 as (i & Hi). pose proof (wsum_ge un _ _ _ Hi) as W. unfold un at 1 in W. rewrite Sv0 in W. lia. }
  assert (R : (exists t, VAll p mf K s t c') /\ late c').
  { clear Eh In0. induction G as [c|c n tr' c2 x e c3 G IH M F]; [eauto|]. destruct (IH E0 L0) as ((t & A) & B).
    split; [eexists; eapply all_step; eauto|eapply late_step; eauto]. }
  destruct R as ((t & (_ & _ & Q & V)) & (H1 & H2)). split.
  - intros (F1 & F2). destruct (returned_idle _ _ V F1) as (G1 & _). pose proof (w_tok _ _ V) as T. rewrite F1 in T. cbn in T. pose proof (w_items _ _ V) as I1.
    assert (R0 : wsum ret1 (v_sv c') = 0).
    { destruct (wsum ret1 (v_sv c')) eqn:Er; [reflexivity|]. assert (Pr : 0 < wsum ret1 (v_sv c')) by lia. apply wsum_pos in Pr as (j & y & Ey & Hy).
      rewrite (G1 _ _ Ey) in Hy. cbn in Hy. lia. }
    assert (W0 : wsum wait1 (v_calls c') = 0).
    { destruct (wsum wait1 (v_calls c')) eqn:Er; [reflexivity|]. assert (Pr : 0 < wsum wait1 (v_calls c')) by lia. apply wsum_pos in Pr as (j & y & Ey & Hy).
      rewrite (F2 _ _ Ey) in Hy. cbn in Hy. lia. }
    lia.
  - apply wsum_pos in H2 as (i & e & Ee & He). exists e. split; [eapply nth_error_In; eauto|]. unfold un in He. destruct (i_saving e); [lia|reflexivity].
Qed.

(** ** with the handler gone and no saver busy, the store never changes *)
Definition dead (c : vcfg) : Prop := v_h c = HExit /\ forall j x, nth_error (l_sav (v_l c)) j = Some x -> x = None.
Lemma dead_step p c x e c' : dead c -> vfire p c x = Some (e, c') -> dead c' /\ l_kv (v_l c') = l_kv (v_l c).
Proof.
  intros (H1 & H2) F. unfold dead. destruct x as [k v|i|k|m f|j| | | |j f|]; cbn [vfire] in F.
  - destruct (down c); [discriminate|]. injection F as <- <-. auto.
  - apply fire_call_inv in F as [(k & v & Ei & -> & ->)|[(Ei & -> & ->)|(t & Ei & Et & -> & ->)]]; cbn; auto.
    unfold do_set. destruct (pending (v_l c) k) as [z|]; [destruct (i_saving z)|]; auto.
  - destruct (l_get (v_l c) k) as (y & l) eqn:El. injection F as <- <-. unfold l_get in El.
    destruct (pending _ _) as [z|]; [destruct (skey_dec _ _)|]; injection El as <- <-; auto.
  - destruct (l_ans (v_l c) m f) as [(y & l)|] eqn:El; [|discriminate]. injection F as <- <-. unfold l_ans in El.
    destruct (find _ _) as [(a & b)|]; [|discriminate]. injection El as <- <-. auto.
  - unfold fire_hand in F. rewrite H1 in F. discriminate.
  - rewrite H1 in F. discriminate.
  - rewrite H1 in F. discriminate.
  - rewrite H1 in F. discriminate.
  - unfold fire_sav in F. rewrite H1 in F. destruct (nth_error (l_sav (v_l c)) j) as [x|] eqn:Ex; [|discriminate]. pose proof (H2 _ _ Ex) as ->.
    destruct (nth_error (v_sv c) j) as [[| |]|]; try discriminate. cbn in F. injection F as <- <-. auto.
  - destruct (fire_stop p c) as [c2|] eqn:E; [|discriminate]. injection F as <- <-. unfold fire_stop in E.
    destruct (v_stop c) as [| |m| | |] eqn:Es; try discriminate; try solve [injection E as <-; auto].
    + destruct (_ <? _); [destruct (v_tok c); [discriminate|]|]; injection E as <-; auto.
    + rewrite H1 in E. injection E as <-. auto.
    + destruct (forallb _ _); [|discriminate]. injection E as <-. auto.
Qed.
Lemma dead_goes p mf K c n tr c' : dead c -> goes p mf K c n tr c' -> l_kv (v_l c') = l_kv (v_l c).
Proof.
  intros D G. assert (R : dead c' /\ l_kv (v_l c') = l_kv (v_l c)); [|apply R].
  induction G as [c|c n tr' c2 x e c3 G IH M F]; [auto|]. destruct (IH D) as (A & B). destruct (dead_step _ _ _ _ _ A F) as (A' & B'). split; [exact A'|congruence].
Qed.
Lemma ended_goes p mf K c n tr c' : v_stop c <> SNone -> calls_done c -> goes p mf K c n tr c' -> calls_done c'.
Proof.
  intros D0 D1 G. assert (R : v_stop c' <> SNone /\ calls_done c'); [|apply R].
  induction G as [c|c n tr' c2 x e c3 G IH M F]; [auto|]. destruct (IH D0 D1) as (A & B). clear - A B F. destruct x as [k v|i|k|m f|j| | | |j f|]; cbn [vfire] in F.
  - unfold down in F. destruct (v_stop c2); [congruence|discriminate..].
  - apply fire_call_inv in F as [(k & v & Ei & -> & ->)|[(Ei & -> & ->)|(t & Ei & Et & -> & ->)]]; apply B in Ei; discriminate.
  - destruct (l_get (v_l c2) k) as (y & l) eqn:El. injection F as <- <-. auto.
  - destruct (l_ans (v_l c2) m f) as [(y & l)|] eqn:El; [|discriminate]. injection F as <- <-. auto.
  - destruct (fire_hand p c2 j) as [c3'|] eqn:E; [|discriminate]. injection F as <- <-. unfold fire_hand in E.
    destruct (v_h c2) as [|b|b m| |m| |]; try discriminate; try solve [injection E as <-; auto].
    + destruct (unsaved (v_l c2)); injection E as <-; auto.
    + destruct (l_hand (v_l c2)) as [id|]; [|discriminate]. destruct (find_item id _); [|discriminate].
      destruct (nth_error (l_sav (v_l c2)) j) as [[|]|]; try discriminate. destruct (nth_error (v_sv c2) j) as [[| |]|]; try discriminate.
      injection E as <-. auto.
  - destruct (v_h c2); try discriminate. injection F as <- <-. auto.
  - destruct (v_h c2); try discriminate. destruct (v_sig c2); [|discriminate]. injection F as <- <-. auto.
  - destruct (v_h c2); try discriminate. destruct (closed c2); [|discriminate]. injection F as <- <-. auto.
  - destruct (fire_sav p c2 j f) as [c3'|] eqn:E; [|discriminate]. injection F as <- <-. unfold fire_sav in E.
    destruct (nth_error (l_sav (v_l c2)) j) as [[(x & [|])|]|] eqn:Ej; try discriminate;
    destruct (nth_error (v_sv c2) j) as [[| |]|] eqn:Es; try discriminate; try solve [injection E as <-; auto].
    + destruct (_ <? _); [|discriminate]. injection E as <-. auto.
    + destruct (v_h c2); try discriminate. injection E as <-. auto.
  - destruct (fire_stop p c2) as [c3'|] eqn:E; [|discriminate]. injection F as <- <-. unfold fire_stop in E.
    destruct (v_stop c2) as [| |m| | |] eqn:Es; try discriminate; try (injection E as <-; split; [discriminate|exact B]).
    + destruct (_ <? _); [destruct (v_tok c2); [discriminate|]|]; injection E as <-; (split; [discriminate|exact B]).
    + destruct (v_h c2); try discriminate. injection E as <-. split; [discriminate|exact B].
    + destruct (forallb _ _); [|discriminate]. injection E as <-. split; [discriminate|exact B].
Qed.
Lemma ret_goes p mf K s tr c n tr2 c' : VAll p mf K s tr c -> v_stop c = SRet -> goes p mf K c n tr2 c' -> v_stop c' = SRet.
Proof.
  intros A E G. assert (R : (exists t, VAll p mf K s t c') /\ v_stop c' = SRet); [|apply R].
  induction G as [c|c n tr' c2 x e c3 G IH M F]; [eauto|]. destruct (IH A E) as ((t & A') & B). pose proof A' as (_ & _ & _ & V).
  split; [eexists; eapply all_step; eauto|]. destruct (ret_step _ _ _ _ _ V B F). assumption.
Qed.

(** ** running a list of choices *)
Fixpoint play (p : vpar) (c : vcfg) (xs : list vchoice) : option (nat * list levent * vcfg) :=
  match xs with
  | [] => Some (0, [], c)
  | x :: xs => match vfire p c x with
               | Some (e, c1) => match play p c1 xs with
                                 | Some (n, tr, c2) => Some (if is_work x then S n else n, match e with Some y => [y] | None => [] end ++ tr, c2)
                                 | None => None
                                 end
               | None => None
               end
  end.
Lemma goes_front p mf K c x e c1 n tr c2 : may mf K x -> vfire p c x = Some (e, c1) -> goes p mf K c1 n tr c2 ->
  goes p mf K c (if is_work x then S n else n) (match e with Some y => [y] | None => [] end ++ tr) c2.
Proof.
  intros M F G. induction G as [c1|c1 n tr c2 x2 e2 c3 G IH M2 F2].
  - rewrite app_nil_r. pose proof (Go_step p mf K c 0 [] c x e c1 (Go_nil p mf K c) M F) as H. exact H.
  - specialize (IH F). rewrite app_assoc. pose proof (Go_step _ _ _ _ _ _ _ _ _ _ IH M2 F2) as H.
    destruct (is_work x), (is_work x2); exact H.
Qed.
Lemma play_goes p mf K xs : forall c n tr c', Forall (may mf K) xs -> play p c xs = Some (n, tr, c') -> goes p mf K c n tr c'.
Proof.
  induction xs as [|x xs IH]; intros c n tr c' H E; cbn [play] in E.
  - injection E as <- <- <-. constructor.
  - inversion H as [|? ? H1 H2]; subst. destruct (vfire p c x) as [(e & c1)|] eqn:F; [|discriminate].
    destruct (play p c1 xs) as [((n2 & t2) & c2)|] eqn:E2; [|discriminate]. injection E as <- <- <-. eapply goes_front; eauto.
Qed.
Lemma goes_exec p mf K s tr c n tr2 c' : vexec p mf K s tr c -> goes p mf K c n tr2 c' -> vexec p mf K s (tr ++ tr2) c'.
Proof.
  intros E G. induction G as [c|c n tr' c2 x e c3 G IH M F]; [rewrite app_nil_r; exact E|]. rewrite app_assoc. econstructor; eauto.
Qed.
Lemma play_exec p mf K s xs n tr c : Forall (may mf K) xs -> play p (vstart p s) xs = Some (n, tr, c) -> vexec p mf K s tr c.
Proof. intros H E. apply (goes_exec p mf K s [] (vstart p s) n tr c); [constructor|eapply play_goes; eauto]. Qed.
