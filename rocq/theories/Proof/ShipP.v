(** The way of a backup to its destination. *)
From Coq Require Import Strings.Byte Strings.String.
From Verif.Lib Require Import Prelude ListAux.
From Verif.Model Require Import Element Elements Segment List Msgp Codec Storage Backup Job Ship.
From Verif.Spec Require Import BackupSpec JobSpec ShipSpec.
From Verif.Proof Require Import BackupP JobP.
Open Scope nat_scope.

Definition sj (P : schoice -> Prop) (x : jchoice) : Prop := P (S_job x).
Ltac scbn := cbn [s_job s_open s_far s_end s_dead] in *.
Lemma sfire_job k ids c x e c' : sfire k ids c x = Some (e, c') ->
  (s_job c' = s_job c /\ e = None) \/ exists y, x = S_job y /\ allowed k c y = true /\ jfire ids (has_ch k) (s_job c) y = Some (e, s_job c').
Proof.
  destruct x as [y|n| | |]; cbn [sfire].
  - destruct (allowed k c y) eqn:A; [|discriminate]. destruct (jfire _ _ _ y) as [[e1 j]|] eqn:F; [|discriminate]. intros [= <- <-]. right. exists y. scbn. auto.
  - destruct (_ || _); [discriminate|]. intros [= <- <-]. left. auto.
  - destruct (_ || _); [discriminate|]. intros [= <- <-]. left. auto.
  - destruct (_ || _); [discriminate|]. intros [= <- <-]. left. auto.
  - destruct (_ || _); [discriminate|]. destruct k; try discriminate; intros [= <- <-]; left; auto.
Qed.
Lemma sexec_job ok k ids m tr c : sexec ok k ids m tr c -> jexec (sj ok) ids (has_ch k) m tr (s_job c).
Proof.
  induction 1 as [|tr c x e c' H IH Hx Hf]; [constructor|].
  destruct (sfire_job _ _ _ _ _ _ Hf) as [[E ->]|(y & -> & _ & F)].
  - rewrite E. cbn [jev]. rewrite app_nil_r. exact IH.
  - econstructor; eassumption.
Qed.
Lemma jexec_mono (P Q : jchoice -> Prop) ids ch m tr c : (forall x, P x -> Q x) -> jexec P ids ch m tr c -> jexec Q ids ch m tr c.
Proof. intros HI. induction 1; econstructor; eauto. Qed.

(** what a step of the job can do to what the far end depends on *)
Lemma jfire_out ids ch c x e c' : jfire ids ch c x = Some (e, c') -> exists b, j_out c' = j_out c ++ b /\
  (closed c = true -> closed c' = true /\ (j_pend c = [] -> b = [] /\ j_pend c' = [])) /\ (j_bad c = true -> j_bad c' = true) /\
  (j_bad c' = true -> j_bad c = true \/ x = J_break) /\ (t_cancelled (j_st c) = true -> t_cancelled (j_st c') = true) /\
  (j_pc c' = JSave -> j_pc c = JSave).
Proof.
  assert (N : forall (l : wire), exists b, l = l ++ b) by (intros l; exists []; rewrite app_nil_r; reflexivity).
  jp c. destruct x as [ok n|n| |failed|m'| | |]; cbn [jfire j_pc j_st j_db j_out j_pend j_bad j_cut j_hook]; intros E.
  - exists []. destruct pc as [|[|id rest]|id rest|id rest| | | |]; unfold closed; cbn [j_pc].
    + destruct ok; injection E as <- <-; jcbn; rewrite app_nil_r; repeat split; try discriminate; auto.
    + injection E as <- <-; jcbn; rewrite app_nil_r; repeat split; try discriminate; auto.
    + destruct cut; injection E as <- <-; jcbn; rewrite app_nil_r; repeat split; try discriminate; auto.
    + destruct (m id) as [[d l]|]; [destruct ok|]; injection E as <- <-; jcbn; rewrite app_nil_r; repeat split; try discriminate; auto.
    + destruct ok; [|destruct bad; [|discriminate]]; injection E as <- <-; jcbn; rewrite app_nil_r; repeat split; try discriminate; auto.
    + destruct ok; [|destruct bad; [|discriminate]]; injection E as <- <-; jcbn; rewrite app_nil_r; repeat split; try discriminate; auto.
    + destruct pend, bad; try discriminate; injection E as <- <-; jcbn; rewrite app_nil_r; repeat split; try discriminate; auto.
    + destruct ch; try discriminate; injection E as <- <-; jcbn; rewrite app_nil_r; repeat split; try discriminate; auto.
    + discriminate.
  - destruct bad; try discriminate; injection E as <- <-. exists (firstn n pend). jcbn. unfold closed. cbn [j_pc].
    repeat split; try discriminate; auto; subst; [apply firstn_nil|apply skipn_nil].
  - injection E as <- <-. exists []. jcbn. rewrite app_nil_r. repeat split; auto.
  - exists []. destruct pc, ch; try discriminate; injection E as <- <-; jcbn; rewrite app_nil_r; unfold closed; cbn [j_pc]; repeat split; try discriminate; auto;
      destruct failed; auto.
  - injection E as <- <-. exists []. jcbn. rewrite app_nil_r. repeat split; auto.
  - injection E as <- <-. exists []. jcbn. rewrite app_nil_r. repeat split; auto.
  - injection E as <- <-. exists []. jcbn. rewrite app_nil_r. repeat split; auto.
  - injection E as <- <-. exists []. jcbn. rewrite app_nil_r. repeat split; auto.
Qed.

Record SI (k : carrier) (tr : list jevent) (c : scfg) : Prop := mkSI {
  si_pre : exists b, j_out (s_job c) = s_far c ++ b;
  si_end : s_end c = true -> s_dead c = false /\ s_open c = true /\ closed (s_job c) = true /\ s_far c = j_out (s_job c);
  si_bad : j_bad (s_job c) = true -> s_dead c = true;
  si_open : if s_open c then j_pc (s_job c) <> JSave else j_pc (s_job c) = JSave \/ (k = ByServer /\ closed (s_job c) = true);
  si_dead : s_dead c = true -> s_open c = true;
  si_all : s_open c = true -> j_bad (s_job c) = false -> early (j_pc (s_job c)) = false -> t_cancelled (j_st (s_job c)) = false ->
           recs tr ++ w_bool false = j_out (s_job c) ++ j_pend (s_job c);
  si_can : t_cancelled (j_st (s_job c)) = true -> exists b, recs tr = j_out (s_job c) ++ j_pend (s_job c) ++ b;
  si_s3 : k = ByS3 -> j_pc (s_job c) = JOver -> s_end c = true \/ In "delayed_error"%string (t_errs (j_st (s_job c))) }.

Lemma si_start k m : SI k [] (sstart m).
Proof. split; cbn; try discriminate; auto. exists []. reflexivity. Qed.

(** the clauses that speak of the job alone *)
Lemma all_step ids ch tr c x e c' :
  JS tr c -> jfire ids ch c x = Some (e, c') -> j_pc c <> JSave ->
  (j_bad c = false -> early (j_pc c) = false -> t_cancelled (j_st c) = false -> recs tr ++ w_bool false = j_out c ++ j_pend c) ->
  j_bad c' = false -> early (j_pc c') = false -> t_cancelled (j_st c') = false ->
  recs (tr ++ jev e) ++ w_bool false = j_out c' ++ j_pend c'.
Proof.
  intros HS Hf Hop Hall. pose proof (js_eq _ _ HS) as HE.
  clear HS. jp c.
  destruct x as [ok n|n| |failed|m'| | |]; cbn [jfire j_pc j_st j_db j_out j_pend j_bad j_cut j_hook] in Hf.
  - destruct pc as [|[|id rest]|id rest|id rest| | | |]; [congruence| | | | | | | |].
    + injection Hf as <- <-. jcbn. intros -> _ _. rewrite app_nil_r, HE by reflexivity. rewrite <- app_assoc. reflexivity.
    + destruct cut; injection Hf as <- <-; jcbn; discriminate.
    + destruct (m id) as [[d l]|]; [destruct ok|]; injection Hf as <- <-; jcbn; discriminate.
    + destruct ok; [|destruct bad; [|discriminate]]; injection Hf as <- <-; jcbn; discriminate.
    + destruct ok; [|destruct bad; [|discriminate]]; injection Hf as <- <-; jcbn; rewrite app_nil_r; auto.
    + destruct pend, bad; try discriminate; injection Hf as <- <-; jcbn; rewrite app_nil_r; auto.
    + destruct ch; try discriminate; injection Hf as <- <-; jcbn; rewrite app_nil_r; auto.
    + discriminate.
  - destruct bad; [discriminate|]. injection Hf as <- <-. jcbn. rewrite app_nil_r. intros _ A B. rewrite <- app_assoc, firstn_skipn. auto.
  - injection Hf as <- <-. jcbn. discriminate.
  - destruct pc, ch; try discriminate; injection Hf as <- <-; jcbn; rewrite app_nil_r; destruct failed; auto.
  - injection Hf as <- <-. jcbn. rewrite app_nil_r. auto.
  - injection Hf as <- <-. jcbn. rewrite app_nil_r. auto.
  - injection Hf as <- <-. jcbn. rewrite app_nil_r. auto.
  - injection Hf as <- <-. jcbn. rewrite app_nil_r. auto.
Qed.
Lemma can_step ids ch tr c x e c' :
  JS tr c -> JT ids tr c -> jfire ids ch c x = Some (e, c') ->
  (t_cancelled (j_st c) = true -> exists b, recs tr = j_out c ++ j_pend c ++ b) ->
  t_cancelled (j_st c') = true -> exists b, recs (tr ++ jev e) = j_out c' ++ j_pend c' ++ b.
Proof.
  intros HS HT Hf Hall. destruct (js_pre _ _ HS) as [b0 HP]. pose proof (jt_can _ _ _ HT) as HC.
  clear HS HT. jp c.
  destruct x as [ok n|n| |failed|m'| | |]; cbn [jfire j_pc j_st j_db j_out j_pend j_bad j_cut j_hook] in Hf.
  - destruct pc as [|[|id rest]|id rest|id rest| | | |].
    + destruct ok; injection Hf as <- <-; jcbn; intros E; cbn in E; rewrite (HC (or_introl eq_refl)) in E; discriminate.
    + injection Hf as <- <-. jcbn. intros E. rewrite (HC (or_introl eq_refl)) in E. discriminate.
    + destruct cut; injection Hf as <- <-; jcbn; intros E; [|rewrite (HC (or_introl eq_refl)) in E; discriminate].
      rewrite ?app_nil_r in *. exists (skipn n pend ++ b0). rewrite HP. f_equal. rewrite (app_assoc (firstn n pend)), firstn_skipn. reflexivity.
    + destruct (m id) as [[d l]|]; [destruct ok|]; injection Hf as <- <-; jcbn; intros E; cbn in E; rewrite (HC (or_introl eq_refl)) in E; discriminate.
    + destruct ok; [|destruct bad; [|discriminate]]; injection Hf as <- <-; jcbn; intros E; cbn in E; rewrite (HC (or_introl eq_refl)) in E; discriminate.
    + destruct ok; [|destruct bad; [|discriminate]]; injection Hf as <- <-; jcbn; intros E; cbn in E; rewrite (HC (or_intror eq_refl)) in E; discriminate.
    + destruct pend, bad; try discriminate; injection Hf as <- <-; jcbn; rewrite app_nil_r; auto.
    + destruct ch; try discriminate; injection Hf as <- <-; jcbn; rewrite app_nil_r; auto.
    + discriminate.
  - destruct bad; [discriminate|]. injection Hf as <- <-. jcbn. rewrite app_nil_r. intros E. destruct (Hall E) as [b ->]. exists b.
    rewrite <- app_assoc, (app_assoc (firstn n pend)), firstn_skipn. reflexivity.
  - injection Hf as <- <-. jcbn. rewrite app_nil_r. intros E. destruct (Hall E) as [b ->]. exists (pend ++ b). reflexivity.
  - destruct pc, ch; try discriminate; injection Hf as <- <-; jcbn; rewrite app_nil_r; destruct failed; auto.
  - injection Hf as <- <-. jcbn. rewrite app_nil_r. auto.
  - injection Hf as <- <-. jcbn. rewrite app_nil_r. auto.
  - injection Hf as <- <-. jcbn. rewrite app_nil_r. auto.
  - injection Hf as <- <-. jcbn. rewrite app_nil_r. auto.
Qed.
(** from the start to the end of the job *)
Lemma pc_step ids ch c x e c' : jfire ids ch c x = Some (e, c') ->
  (j_pc c = JSave -> j_pc c' = JSave \/ opens c x = true \/ (closed c' = true /\ exists n, x = J_go false n)) /\
  (opens c x = true -> j_pc c' <> JSave) /\
  (j_pc c' = JOver -> j_pc c = JOver /\ j_st c' = j_st c \/ j_pc c = JWait /\ (ch = true -> exists f, x = J_result f /\ (f = true -> In "delayed_error"%string (t_errs (j_st c'))))) /\
  (incl (t_errs (j_st c)) (t_errs (j_st c'))).
Proof.
  jp c. unfold opens, closed. cbn [j_pc].
  destruct x as [ok n|n| |failed|m'| | |]; cbn [jfire j_pc j_st j_db j_out j_pend j_bad j_cut j_hook]; intros E.
  - destruct pc as [|[|id rest]|id rest|id rest| | | |].
    + destruct ok; injection E as <- <-; jcbn; repeat split; try discriminate; auto; try (intros ? H; try apply err_more; exact H). intros _. right. right. eauto.
    + injection E as <- <-; jcbn; repeat split; try discriminate; auto; try (intros ? H; try apply err_more; exact H).
    + destruct cut; injection E as <- <-; jcbn; repeat split; try discriminate; auto; try (intros ? H; try apply err_more; exact H).
    + destruct (m id) as [[d l]|]; [destruct ok|]; injection E as <- <-; jcbn; repeat split; try discriminate; auto; try (intros ? H; try apply err_more; exact H).
    + destruct ok; [|destruct bad; [|discriminate]]; injection E as <- <-; jcbn; repeat split; try discriminate; auto; try (intros ? H; try apply err_more; exact H).
    + destruct ok; [|destruct bad; [|discriminate]]; injection E as <- <-; jcbn; repeat split; try discriminate; auto; try (intros ? H; try apply err_more; exact H).
    + destruct pend, bad; try discriminate; injection E as <- <-; jcbn; repeat split; try discriminate; auto; try (intros ? H; try apply err_more; exact H).
    + destruct ch; try discriminate; injection E as <- <-; jcbn; repeat split; try discriminate; auto; try (intros ? H; try apply err_more; exact H).
      intros _. right. split; [reflexivity|discriminate].
    + discriminate.
  - destruct bad; try discriminate; injection E as <- <-; jcbn; (repeat split; auto; try (intros ? H; exact H); destruct pc; discriminate).
  - injection E as <- <-; jcbn; (repeat split; auto; try (intros ? H; exact H); destruct pc; discriminate).
  - destruct pc, ch; try discriminate; injection E as <- <-; jcbn; repeat split; try discriminate; auto.
    + intros _. right. split; [reflexivity|]. intros _. exists failed. split; [reflexivity|]. intros ->. apply in_err.
    + intros k Hk. destruct failed; [apply err_more, Hk|exact Hk].
  - injection E as <- <-; jcbn; (repeat split; auto; try (intros ? H; exact H); destruct pc; discriminate).
  - injection E as <- <-; jcbn; (repeat split; auto; try (intros ? H; exact H); destruct pc; discriminate).
  - injection E as <- <-; jcbn; (repeat split; auto; try (intros ? H; exact H); destruct pc; discriminate).
  - injection E as <- <-; jcbn; (repeat split; auto; try (intros ? H; exact H); destruct pc; discriminate).
Qed.

Lemma si_step k ids tr c x e c' : JS tr (s_job c) -> JT ids tr (s_job c) -> SI k tr c -> sfire k ids c x = Some (e, c') -> SI k (tr ++ jev e) c'.
Proof.
  intros HS HT [[b0 I1] I2 I3 I4 I4d I5 I6 I7] Hf.
  destruct x as [y|n| | |]; cbn [sfire] in Hf.
  - destruct (allowed k c y) eqn:HA; [|discriminate]. destruct (jfire _ _ _ y) as [[e1 j]|] eqn:F; [|discriminate]. injection Hf as <- <-.
    destruct (jfire_out _ _ _ _ _ _ F) as (b & F1 & F2 & F3 & F4 & F5 & F6). destruct (pc_step _ _ _ _ _ _ F) as (P1 & P2 & P3 & P4).
    assert (HJ : s_open c = false -> j_pc (s_job c) = JSave \/ (k = ByServer /\ closed (s_job c) = true)) by (intros E; rewrite E in I4; exact I4).
    split; scbn.
    + exists (b0 ++ b). rewrite F1, I1, <- app_assoc. reflexivity.
    + intros E. destruct (I2 E) as (A & B & C & D). rewrite B. destruct (F2 C) as [C' Z].
      assert (EP : j_pend (s_job c) = []). { apply (js_late _ _ HS). unfold closed in C. destruct (j_pc (s_job c)); try discriminate; reflexivity. }
      destruct (Z EP) as [-> _]. rewrite app_nil_r in F1. rewrite F1. auto.
    + intros E. destruct (F4 E) as [E'| ->]; [auto|exact HA].
    + destruct (s_open c) eqn:EO; cbn [orb].
      * intros E. exact (I4 (F6 E)).
      * destruct (opens (s_job c) y) eqn:EQ; [exact (P2 eq_refl)|].
        destruct (HJ eq_refl) as [E|[E1 E2]].
        -- destruct (P1 E) as [X|[X|[X (n & ->)]]]; [left; exact X|congruence|].
           right. split; [|exact X]. cbn [allowed] in HA. rewrite E in HA. destruct k; try discriminate; reflexivity.
        -- right. split; [exact E1|]. apply F2, E2.
    + intros E. rewrite (I4d E). reflexivity.
    + intros HO. destruct (s_open c) eqn:EO.
      * exact (all_step _ _ _ _ _ _ _ HS F I4 (I5 eq_refl)).
      * cbn [orb] in HO. unfold opens in HO. destruct (j_pc (s_job c)) eqn:EP; try discriminate. destruct y as [[|] n| | | | | | |]; try discriminate.
        cbn [jfire] in F. rewrite EP in F. injection F as <- <-. cbn. discriminate.
    + exact (can_step _ _ _ _ _ _ _ HS HT F I6).
    + intros Hk E. destruct (P3 E) as [[X1 X2]|[X1 X2]].
      * destruct (I7 Hk X1) as [H|H]; [left; exact H|right; apply P4, H].
      * subst k. destruct (X2 eq_refl) as (f & -> & Hd). cbn [allowed] in HA. destruct f; [right; auto|left; exact HA].
  - destruct (s_end c || s_dead c) eqn:ED; [discriminate|]. apply orb_false_iff in ED as [E1 E2]. injection Hf as <- <-. cbn [jev]. rewrite app_nil_r.
    split; scbn; auto; try discriminate.
    + exists (skipn n b0). rewrite <- app_assoc, I1, skipn_app, skipn_all, Nat.sub_diag. cbn [app skipn]. rewrite firstn_skipn. reflexivity.
    + intros E. specialize (I3 E). congruence.
    + intros Hk E. destruct (I7 Hk E) as [H|H]; [congruence|right; exact H].
  - destruct (s_end c || s_dead c || negb (s_open c) || negb (closed (s_job c)) || negb (length (s_far c) =? length (j_out (s_job c)))) eqn:ED; [discriminate|].
    rewrite !orb_false_iff, !negb_false_iff in ED. destruct ED as ((((E1 & E2) & E3) & E4) & E5). apply Nat.eqb_eq in E5.
    injection Hf as <- <-. cbn [jev]. rewrite app_nil_r. split; scbn; auto; try discriminate.
    + exists b0. exact I1.
    + intros _. repeat split; auto. rewrite I1 in *. rewrite app_length in E5. assert (b0 = []) by (destruct b0; [reflexivity|cbn in E5; lia]). subst. rewrite app_nil_r. reflexivity.
    + intros E. specialize (I3 E). congruence.
  - destruct (s_end c || negb (s_open c)) eqn:ED; [discriminate|]. rewrite orb_false_iff, negb_false_iff in ED. destruct ED as [E1 E2].
    injection Hf as <- <-. cbn [jev]. rewrite app_nil_r. split; scbn; auto; try discriminate.
    + exists b0. exact I1.
    + intros Hk E. destruct (I7 Hk E) as [H|H]; [congruence|right; exact H].
  - destruct (s_end c || negb (s_open c) || negb (j_cut (s_job c))) eqn:ED; [discriminate|]. rewrite !orb_false_iff, !negb_false_iff in ED. destruct ED as [[E1 E2] E3].
    assert (G : SI k tr (mkS (s_job c) (s_open c) (s_far c) false true)).
    { split; scbn; auto; try discriminate.
      + exists b0. exact I1.
      + intros Hk E. destruct (I7 Hk E) as [H|H]; [congruence|right; exact H]. }
    destruct k; try discriminate; injection Hf as <- <-; cbn [jev]; rewrite app_nil_r; exact G.
Qed.
Lemma sinv ok k ids m tr c : sexec ok k ids m tr c -> JS tr (s_job c) /\ JT ids tr (s_job c) /\ SI k tr c.
Proof.
  induction 1 as [|tr c x e c' H (IS & IT & I) Hx Hf]; [split; [apply js_start|split; [apply jt_start|apply si_start]]|].
  assert (X : sexec ok k ids m (tr ++ jev e) c') by (econstructor; eassumption).
  destruct (jinv _ _ _ _ _ _ (sexec_job _ _ _ _ _ _ X)) as [A B]. split; [exact A|]. split; [exact B|]. eapply si_step; eassumption.
Qed.

(** ** what the far end has *)
Lemma c77_far ok k ids m tr c : sexec ok k ids m tr c -> exists b, full_stream tr = s_far c ++ b.
Proof.
  intros H. destruct (sinv _ _ _ _ _ _ H) as (_ & _ & I). destruct (si_pre _ _ _ I) as [b1 E1].
  destruct (c60_stream _ _ _ _ _ (jexec_any _ _ _ _ _ _ (sexec_job _ _ _ _ _ _ H))) as [b2 E2]. exists (b1 ++ b2). rewrite E2, E1, <- app_assoc. reflexivity.
Qed.
Lemma sound_job k ids m tr c : sexec sound_way k ids m tr c -> jexec sound_lists ids (has_ch k) m tr (s_job c).
Proof. intros H. eapply jexec_mono; [|exact (sexec_job _ _ _ _ _ _ H)]. intros x Hx. exact Hx. Qed.
Lemma far_whole k ids m tr c fr : NoDup ids -> sound_db m -> (forall n, given_ok (fr n)) -> sexec sound_way k ids m tr c ->
  s_far c = full_stream tr -> restores fr (s_far c) (as_read tr) (read_ids tr).
Proof.
  intros ND Hm Hfr H E pre suf rep m0. destruct (sinv _ _ _ _ _ _ H) as (_ & T & _). pose proof (sound_job _ _ _ _ _ H) as HJ.
  assert (NR : NoDup (read_ids tr)) by (eapply sub_nodup; [exact (reads_sub _ _ _ T)|exact ND]).
  rewrite E, <- (job_read tr NR).
  destruct (c46_job (as_read tr) (read_ids tr) fr pre suf rep m0 [] (as_read_sound _ _ _ _ _ Hm HJ) Hfr) as (r & s & m' & E1 & B & N & _).
  rewrite app_nil_r in E1. exists r, s, m'. rewrite (found_all tr (read_ids tr) (as_read_some tr)) in N. auto.
Qed.
Lemma far_part k ids m tr c fr b : NoDup ids -> sound_db m -> (forall n, given_ok (fr n)) -> sexec sound_way k ids m tr c ->
  full_stream tr = s_far c ++ b -> b <> [] -> stops fr (s_far c) (as_read tr) (read_ids tr).
Proof.
  intros ND Hm Hfr H E Hb pre suf rep m0. destruct (sinv _ _ _ _ _ _ H) as (_ & T & _). pose proof (sound_job _ _ _ _ _ H) as HJ.
  assert (NR : NoDup (read_ids tr)) by (eapply sub_nodup; [exact (reads_sub _ _ _ T)|exact ND]).
  rewrite <- (job_read tr NR) in E.
  exact (c46_cut (as_read tr) (read_ids tr) fr pre suf rep m0 _ _ (as_read_sound _ _ _ _ _ Hm HJ) Hfr E Hb).
Qed.
Lemma c77_restore k ids m tr c fr : NoDup ids -> sound_db m -> (forall n, given_ok (fr n)) -> sexec sound_way k ids m tr c ->
  restores fr (s_far c) (as_read tr) (read_ids tr) \/ stops fr (s_far c) (as_read tr) (read_ids tr).
Proof.
  intros ND Hm Hfr H. destruct (c77_far _ _ _ _ _ _ H) as [[|y b] E].
  - left. rewrite app_nil_r in E. eapply far_whole; eauto.
  - right. eapply far_part; eauto. discriminate.
Qed.
Lemma closed_late c : closed c = true -> late (j_pc c) = true /\ early (j_pc c) = false.
Proof. unfold closed. destruct (j_pc c); try discriminate; auto. Qed.
Lemma c77_end k ids m tr c fr : NoDup ids -> sound_db m -> (forall n, given_ok (fr n)) -> sexec sound_way k ids m tr c -> s_end c = true ->
  t_success (j_st (s_job c)) = read_ids tr /\
  if t_cancelled (j_st (s_job c)) then stops fr (s_far c) (as_read tr) (t_success (j_st (s_job c)))
  else restores fr (s_far c) (as_read tr) (t_success (j_st (s_job c))).
Proof.
  intros ND Hm Hfr H HE. destruct (sinv _ _ _ _ _ _ H) as (S & T & I). destruct (si_end _ _ _ I HE) as (E1 & E2 & E3 & E4).
  destruct (closed_late _ E3) as [L1 L2].
  assert (HB : j_bad (s_job c) = false). { destruct (j_bad (s_job c)) eqn:E; [|reflexivity]. rewrite (si_bad _ _ _ I E) in E1. discriminate. }
  assert (ES : t_success (j_st (s_job c)) = read_ids tr).
  { pose proof (jt_succ _ _ _ T) as H8. unfold closed in E3. destruct (j_pc (s_job c)); try discriminate; apply H8, HB. }
  split; [exact ES|]. rewrite ES. destruct (t_cancelled (j_st (s_job c))) eqn:EC.
  - destruct (si_can _ _ _ I EC) as [b E]. rewrite (js_late _ _ S L1) in E. cbn [app] in E.
    apply far_part with (b := b ++ w_bool false) (k := k) (ids := ids) (m := m); auto.
    + change (full_stream tr) with (recs tr ++ w_bool false). rewrite E, E4, <- app_assoc. reflexivity.
    + intros X. apply app_eq_nil in X as [_ X]. discriminate X.
  - apply far_whole with (k := k) (ids := ids) (m := m); auto. change (full_stream tr) with (recs tr ++ w_bool false).
    rewrite (si_all _ _ _ I E2 HB L2 EC), (js_late _ _ S L1), app_nil_r. exact E4.
Qed.
Lemma c77_s3 ok ids m tr c : sexec ok ByS3 ids m tr c -> over (s_job c) -> ~ In "delayed_error"%string (t_errs (j_st (s_job c))) -> s_end c = true.
Proof.
  intros H HO HE. destruct (sinv _ _ _ _ _ _ H) as (_ & T & I). destruct (si_s3 _ _ _ I eq_refl (over_pc _ _ _ T HO)) as [X|X]; [exact X|contradiction].
Qed.
Lemma c77_s3_all ids m tr c fr : NoDup ids -> sound_db m -> (forall n, given_ok (fr n)) -> sexec sound_way ByS3 ids m tr c ->
  over (s_job c) -> t_errs (j_st (s_job c)) = [] -> t_cancelled (j_st (s_job c)) = false ->
  t_success (j_st (s_job c)) = ids /\ restores fr (s_far c) (as_read tr) ids.
Proof.
  intros ND Hm Hfr H HO HE HC. assert (HX : s_end c = true) by (eapply c77_s3; eauto; rewrite HE; intros []).
  destruct (c77_end _ _ _ _ _ fr ND Hm Hfr H HX) as [ES R]. rewrite HC in R.
  destruct (c60_status _ _ _ _ _ (jexec_any _ _ _ _ _ _ (sexec_job _ _ _ _ _ _ H))) as (_ & _ & Q).
  destruct (Q HO HC) as [_ Q2]; [unfold opened; rewrite HE; intros []|]. rewrite (Q2 HE) in *. auto.
Qed.

(** ** progress *)
Lemma sgoes_trans k ids a b c t1 t2 : sgoes k ids a t1 b -> sgoes k ids b t2 c -> sgoes k ids a (t1 ++ t2) c.
Proof. intros H1. induction 1; [rewrite app_nil_r; exact H1|]. rewrite app_assoc. econstructor; eauto. Qed.
Lemma sgoes_one k ids c x e c' : honest x = true -> sfire k ids c x = Some (e, c') -> sgoes k ids c (jev e) c'.
Proof. intros H1 H2. change (jev e) with ([] ++ jev e). econstructor; [constructor|exact H1|exact H2]. Qed.
Lemma sgoes_exec k ids m tr c t c' : sexec any_way k ids m tr c -> sgoes k ids c t c' -> sexec any_way k ids m (tr ++ t) c'.
Proof. intros H. induction 1; [rewrite app_nil_r; exact H|]. rewrite app_assoc. econstructor; eauto. exact Logic.I. Qed.
Lemma sgoes_dead k ids c t c' : sgoes k ids c t c' -> s_dead c' = s_dead c.
Proof.
  induction 1 as [c|c tr c1 x e c2 H IH Hx Hf]; [reflexivity|]. rewrite <- IH. destruct x as [y|n| | |]; try discriminate; cbn [sfire] in Hf.
  - destruct (allowed _ _ _); [|discriminate]. destruct (jfire _ _ _ _) as [[? ?]|]; [|discriminate]. injection Hf as <- <-. reflexivity.
  - destruct (s_end c1); [discriminate|]. destruct (s_dead c1); [discriminate|]. injection Hf as <- <-. reflexivity.
  - destruct (s_end c1); [discriminate|]. destruct (s_dead c1); [discriminate|]. cbn [orb] in Hf. destruct (_ || _); [discriminate|]. injection Hf as <- <-. reflexivity.
Qed.
Lemma job_go k ids c x e j : honest (S_job x) = true -> allowed k c x = true -> jfire ids (has_ch k) (s_job c) x = Some (e, j) ->
  exists c', sgoes k ids c (jev e) c' /\ s_job c' = j.
Proof.
  intros H1 H2 H3. eexists. split; [eapply sgoes_one with (x := S_job x); [exact H1|]; cbn [sfire]; rewrite H2, H3; reflexivity|reflexivity].
Qed.
(** the far end gets the rest *)
Lemma settle k ids m tr c : sexec any_way k ids m tr c -> s_open c = true -> closed (s_job c) = true -> s_dead c = false ->
  exists c', sgoes k ids c [] c' /\ s_end c' = true /\ s_job c' = s_job c.
Proof.
  intros H HO HC HD. destruct (s_end c) eqn:HE; [exists c; split; [constructor|auto]|].
  destruct (sinv _ _ _ _ _ _ H) as (_ & _ & I). destruct (si_pre _ _ _ I) as [b E].
  exists (mkS (s_job c) (s_open c) (s_far c ++ b) true false). split; [|auto].
  change (@nil jevent) with (([] ++ jev None) ++ jev None). econstructor; [econstructor; [constructor| |]| |].
  - instantiate (1 := S_send (length b)). reflexivity.
  - cbn [sfire]. rewrite HE, HD. cbn [orb]. rewrite E, skipn_app, skipn_all, Nat.sub_diag. cbn [app skipn]. rewrite firstn_all. reflexivity.
  - instantiate (1 := S_eof). reflexivity.
  - cbn [sfire s_job s_open s_far s_end s_dead]. rewrite HO, HC, E, Nat.eqb_refl. reflexivity.
Qed.
Lemma step_on k ids m tr c : sexec any_way k ids m tr c -> ~ over (s_job c) ->
  exists t c', sgoes k ids c t c' /\ mu ids (j_pc (s_job c')) < mu ids (j_pc (s_job c)).
Proof.
  intros H HO. destruct (sinv _ _ _ _ _ _ H) as (S & T & I). pose proof (jt_done _ _ _ T) as D. pose proof (js_bad _ _ S) as B. unfold over in HO.
  assert (G : forall c0 t0 x e j, sgoes k ids c t0 c0 -> j_pc (s_job c0) = j_pc (s_job c) -> is_job x = true -> allowed k c0 x = true ->
            jfire ids (has_ch k) (s_job c0) x = Some (e, j) -> exists t c', sgoes k ids c t c' /\ mu ids (j_pc (s_job c')) < mu ids (j_pc (s_job c))).
  { intros c0 t0 x e j H0 Hpc Hx Ha Hf. destruct (job_go k ids c0 x e j) as (c' & G1 & G2); auto; [destruct x; try discriminate; reflexivity|].
    exists (t0 ++ jev e), c'. split; [eapply sgoes_trans; eassumption|]. pose proof (mu_step _ _ _ _ _ _ Hf) as M. rewrite Hx in M. rewrite G2, <- Hpc. lia. }
  assert (Gs : forall x, is_job x = true -> allowed k c x = true -> jfire ids (has_ch k) (s_job c) x <> None ->
            exists t c', sgoes k ids c t c' /\ mu ids (j_pc (s_job c')) < mu ids (j_pc (s_job c))).
  { intros x Hx Ha Hf. destruct (jfire ids (has_ch k) (s_job c) x) as [[e j]|] eqn:F; [|congruence]. eapply (G c [] x); eauto. constructor. }
  destruct (j_pc (s_job c)) as [|[|id rest]|id rest|id rest| | | |] eqn:EP; try (apply (Gs (J_go true 0)); [reflexivity|reflexivity|cbn [jfire]; rewrite EP; discriminate]).
  - apply (Gs (J_go true 0)); [reflexivity|reflexivity|]. cbn [jfire]. rewrite EP. destruct (j_cut (s_job c)); discriminate.
  - apply (Gs (J_go true 0)); [reflexivity|reflexivity|]. cbn [jfire]. rewrite EP. destruct (j_db (s_job c) id) as [[d l]|]; discriminate.
  - (* the closes *)
    destruct (j_pend (s_job c)) as [|y pd] eqn:EN; [apply (Gs (J_go true 0)); [reflexivity|reflexivity|]; cbn [jfire]; rewrite EP, EN; discriminate|].
    assert (HO1 : s_open c = true). { pose proof (si_open _ _ _ I) as Q. destruct (s_open c); [reflexivity|]. destruct Q as [Q|[_ Q]]; [congruence|]. unfold closed in Q. rewrite EP in Q. discriminate. }
    destruct (s_dead c) eqn:ED.
    + (* the pipe is broken *)
      destruct (job_go k ids c J_break None (mkJ (j_pc (s_job c)) (j_st (s_job c)) (j_db (s_job c)) (j_out (s_job c)) [] true (j_cut (s_job c)) (j_hook (s_job c)))) as (c' & G1 & G2); [reflexivity|exact ED|reflexivity|].
      eapply (G c' _ (J_go true 0)); [exact G1|rewrite G2; exact EP|reflexivity|reflexivity|]. rewrite G2. cbn [jfire j_pc j_pend j_bad]. rewrite EP. reflexivity.
    + assert (EB : j_bad (s_job c) = false). { destruct (j_bad (s_job c)) eqn:E; [|reflexivity]. rewrite (si_bad _ _ _ I E) in ED. discriminate. }
      destruct (job_go k ids c (J_flow (length (j_pend (s_job c)))) None (mkJ (j_pc (s_job c)) (j_st (s_job c)) (j_db (s_job c)) (j_out (s_job c) ++ j_pend (s_job c)) [] false (j_cut (s_job c)) (j_hook (s_job c)))) as (c' & G1 & G2).
      * reflexivity.
      * cbn [allowed]. rewrite HO1, ED. reflexivity.
      * cbn [jfire]. rewrite EB, firstn_all, skipn_all. reflexivity.
      * eapply (G c' _ (J_go true 0)); [exact G1|rewrite G2; exact EP|reflexivity|reflexivity|]. rewrite G2. cbn [jfire j_pc j_pend j_bad]. rewrite EP. reflexivity.
  - (* the result of the upload *)
    destruct (has_ch k) eqn:EK; [|apply (Gs (J_go true 0)); [reflexivity|reflexivity|]; cbn [jfire]; rewrite EP; discriminate].
    destruct (s_dead c) eqn:ED; [apply (Gs (J_result true)); [reflexivity|exact ED|]; cbn [jfire]; rewrite EP; discriminate|].
    assert (HO1 : s_open c = true). { pose proof (si_open _ _ _ I) as Q. destruct (s_open c); [reflexivity|]. destruct Q as [Q|[-> _]]; [congruence|discriminate EK]. }
    destruct (settle _ _ _ _ _ H HO1) as (c' & G1 & G2 & G3); [unfold closed; rewrite EP; reflexivity|exact ED|].
    eapply (G c' [] (J_result false)); [exact G1|rewrite G3; exact EP|reflexivity|exact G2|]. rewrite G3. cbn [jfire]. rewrite EP. reflexivity.
  - exfalso. apply HO. exact D.
Qed.
Lemma c77_ends k ids m tr c : sexec any_way k ids m tr c -> exists t c', sgoes k ids c t c' /\ over (s_job c') /\
  (s_dead c = false -> s_open c' = true -> s_end c' = true).
Proof.
  remember (mu ids (j_pc (s_job c))) as n eqn:En. revert tr c En. induction n as [n IH] using lt_wf_ind. intros tr c En H.
  destruct (t_done (j_st (s_job c))) eqn:HO.
  - destruct (s_open c && negb (s_dead c)) eqn:EO.
    + apply andb_true_iff in EO as [E1 E2]. apply negb_true_iff in E2. destruct (sinv _ _ _ _ _ _ H) as (_ & T & _).
      destruct (settle _ _ _ _ _ H E1) as (c' & G1 & G2 & G3); [|exact E2|].
      * unfold closed. rewrite (over_pc _ _ _ T HO). reflexivity.
      * exists [], c'. split; [exact G1|]. split; [unfold over; rewrite G3; exact HO|auto].
    + exists [], c. split; [constructor|]. split; [exact HO|]. intros E1 E2. rewrite E1, E2 in EO. discriminate.
  - destruct (step_on _ _ _ _ _ H) as (t & c1 & G1 & G2); [unfold over; congruence|]. subst n.
    destruct (IH _ G2 _ _ eq_refl (sgoes_exec _ _ _ _ _ _ _ H G1)) as (t2 & c2 & G3 & G4 & G5). exists (t ++ t2), c2. split; [eapply sgoes_trans; eassumption|].
    split; [exact G4|]. rewrite <- (sgoes_dead _ _ _ _ _ G1). exact G5.
Qed.

(** ** runs *)
Lemma splay_exec ok k ids m l : Forall ok l -> forall tr0 c tr c', sexec ok k ids m tr0 c -> splay k ids c l = Some (tr, c') -> sexec ok k ids m (tr0 ++ tr) c'.
Proof.
  induction 1 as [|x l Hx HF IH]; cbn [splay]; intros tr0 c tr c' H E; [injection E as <- <-; rewrite app_nil_r; exact H|].
  destruct (sfire k ids c x) as [[e c1]|] eqn:F; [|discriminate]. destruct (splay k ids c1 l) as [[t c2]|] eqn:G; [|discriminate]. injection E as <- <-.
  rewrite app_assoc. eapply IH; [|exact G]. econstructor; eassumption.
Qed.
Lemma splay_see {A} (f : list jevent * scfg -> A) k ids c l a : option_map f (splay k ids c l) = Some a -> exists tr c', splay k ids c l = Some (tr, c') /\ f (tr, c') = a.
Proof. destruct (splay k ids c l) as [[tr c']|]; [|discriminate]. intros [= E]. eauto. Qed.

(** ** places *)
Lemma path_some d p : path_of d = Some p -> de_path d = Some p /\ String.eqb p "" = false.
Proof. unfold path_of. destruct (de_path d) as [q|]; [|discriminate]. destruct (String.eqb q "") eqn:E; [discriminate|]. intros [= <-]. auto. Qed.
Lemma c77_back aws url up d t op : backup_dst aws url up d = Some t ->
  match t with
  | ToFile p => de_path d = Some p /\ (op p = true -> restore_src aws url op "" p = Some (FromFile p))
  | ToS3 b k => exists p, de_path d = Some p /\ (prefix "s3://" p = true -> restore_src aws url op p "" = Some (FromS3 b k))
  | ToServer h pre suf => de_path d = Some h /\ up h = true /\ de_prefix d = pre /\ de_suffix d = suf
  | ToClient => de_type d = "download"%string
  end.
Proof.
  unfold backup_dst. destruct (String.eqb (de_type d) "file") eqn:E1.
  { destruct (path_of d) as [p|] eqn:EP; [|discriminate]. intros [= <-]. destruct (path_some _ _ EP) as [A B]. split; [exact A|]. intros HO. unfold restore_src. cbn [String.eqb]. rewrite B, HO. reflexivity. }
  destruct (String.eqb (de_type d) "download") eqn:E2.
  { intros [= <-]. apply String.eqb_eq. exact E2. }
  destruct (String.eqb (de_type d) "s3") eqn:E3.
  { destruct aws; [|discriminate]. destruct (path_of d) as [p|] eqn:EP; [|discriminate]. destruct (url p) as [[h q]|] eqn:EU; [|discriminate]. intros [= <-].
    destruct (path_some _ _ EP) as [A B]. exists p. split; [exact A|]. intros HP. unfold restore_src. rewrite B, HP, EU. reflexivity. }
  destruct (String.eqb (de_type d) "server") eqn:E4; [|discriminate].
  destruct (path_of d) as [p|] eqn:EP; [|discriminate]. destruct (up p) eqn:EU; [|discriminate]. intros [= <-]. destruct (path_some _ _ EP) as [A B]. auto.
Qed.
Lemma c77_src aws url op src file s : restore_src aws url op src file = Some s ->
  (s = FromBody <-> src = ""%string /\ file = ""%string) /\ (file <> ""%string <-> s = FromFile file) /\
  (file = ""%string -> forall u, s = FromURL u <-> src = u /\ src <> ""%string /\ prefix "s3://" src = false).
Proof.
  unfold restore_src. destruct (String.eqb src "") eqn:E1; [apply String.eqb_eq in E1; subst src|assert (N1 : src <> ""%string) by (intros ->; discriminate E1)].
  - destruct (String.eqb file "") eqn:E2; [apply String.eqb_eq in E2; subst file|assert (N2 : file <> ""%string) by (intros ->; discriminate E2)].
    + intros [= <-]. repeat split; try discriminate; try congruence; intros; intuition congruence.
    + destruct (op file); [|discriminate]. intros [= <-]. repeat split; try discriminate; try congruence; intros; intuition congruence.
  - destruct (prefix "s3://" src) eqn:EP.
    + destruct aws; [|discriminate]. destruct (url src) as [[h q]|]; [|discriminate].
      destruct (String.eqb file "") eqn:E2; [apply String.eqb_eq in E2; subst file|assert (N2 : file <> ""%string) by (intros ->; discriminate E2)].
      * intros [= <-]. repeat split; try discriminate; try congruence; intros; intuition congruence.
      * destruct (op file); [|discriminate]. intros [= <-]. repeat split; try discriminate; try congruence; intros; intuition congruence.
    + destruct (String.eqb file "") eqn:E2; [apply String.eqb_eq in E2; subst file|assert (N2 : file <> ""%string) by (intros ->; discriminate E2)].
      * intros [= <-]. repeat split; try discriminate; try congruence; intros; intuition congruence.
      * destruct (op file); [|discriminate]. intros [= <-]. repeat split; try discriminate; try congruence; intros; intuition congruence.
Qed.
