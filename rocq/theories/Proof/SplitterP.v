(** Proofs for background splitting (C63). *)
From Coq Require Import Strings.String.
From Verif.Lib Require Import Prelude ListAux.
From Verif.Model Require Import Element Elements Segment List Splitter.
From Verif.Spec Require Import RankSpec QuerySpec HistorySpec AnswerSpec SplitterSpec.
From Verif.Proof Require Import InvDef HistoryP ListThm LocksP SettleP.
Open Scope nat_scope.

(** ** The test *)
Lemma should_spec g z : forall l first prev, cnt_ok l ->
  should_split g z first prev l = true <->
  Exists (fun e => z < length e) (map sg_elems l) \/
  (exists a p e b, map sg_elems l = a ++ p :: e :: b /\ length p + length e < g) \/
  (first = false /\ exists e r, map sg_elems l = e :: r /\ length e + prev < g).
Proof.
  induction l as [|s l IH]; intros first prev HC; cbn [should_split map].
  - split; [discriminate|]. intros [H|[(a & p & e & b & H & _)|(_ & e & r & H & _)]];
      [inversion H|destruct a; discriminate|discriminate].
  - inversion HC as [|? ? Hn HC']; subst. rewrite !orb_true_iff, IH by exact HC'. rewrite Hn, Nat.ltb_lt, andb_true_iff, Nat.ltb_lt, negb_true_iff.
    split.
    + intros [[H|(F & H)]|[H|[(a & p & e & b & E & H)|(_ & e & r & E & H)]]].
      * left. left. exact H.
      * right. right. split; [exact F|]. exists (sg_elems s), (map sg_elems l). auto.
      * left. right. exact H.
      * right. left. exists (sg_elems s :: a), p, e, b. rewrite E. auto.
      * right. left. exists [], (sg_elems s), e, r. rewrite E. split; [reflexivity|lia].
    + intros [H|[(a & p & e & b & E & H)|(F & e & r & E & H)]].
      * apply Exists_cons in H as [H|H]; [left; left; exact H|right; left; exact H].
      * destruct a as [|x a]; cbn in E; injection E as E1 E2.
        -- right. right. right. split; [reflexivity|]. exists e, b. rewrite E1. split; [exact E2|lia].
        -- right. right. left. exists a, p, e, b. auto.
      * injection E as E1 E2. left. right. rewrite E1. auto.
Qed.

Lemma wants_spec g z l m : reachable g z l m ->
  (wants l = true <-> misfit g z (score_parts l) \/ misfit g z (index_parts l)).
Proof.
  intros HR. destruct (reach_inv _ _ _ _ HR) as (HI & HM & HS). unfold wants. rewrite HM, HS, orb_true_iff.
  rewrite !should_spec by (apply meta_cnt, HI). unfold misfit, score_parts, index_parts.
  intuition discriminate.
Qed.

(** ** Objects *)
Lemma agree_put os b i l v : Forall2 agree os b -> agree l v -> Forall2 agree (put i l os) (upd_nth i (fun _ => v) b).
Proof.
  intros H A. unfold put. revert i. induction H as [|x y os b Hxy H IH]; intros i; [destruct i; constructor|].
  destruct i; cbn [upd_nth]; constructor; auto.
Qed.
Lemma agree_upd os b i l f : Forall2 agree os b -> (forall v, nth_error b i = Some v -> agree l (f v)) ->
  Forall2 agree (put i l os) (upd_nth i f b).
Proof.
  intros H A. unfold put. revert i A. induction H as [|x y os b Hxy H IH]; intros i A; [destruct i; constructor|].
  destruct i; cbn [upd_nth] in *; constructor; auto.
Qed.
Lemma agree_get os b q up i : Forall2 agree os b -> agree (obj (mkB os q up) i) (book b i).
Proof.
  unfold obj, book. cbn [b_objs]. intros H. revert i. induction H as [|x y os b Hxy H IH]; intros [|i]; cbn [nth_error]; auto; exact Logic.I.
Qed.
Lemma agree_keep os b i l q up : Forall2 agree os b -> agree (Some l) (book b i) -> obj (mkB os q up) i <> None ->
  Forall2 agree (put i (Some l) os) b.
Proof.
  unfold put, obj, book. cbn [b_objs]. intros H. revert i. induction H as [|x y os b Hxy H IH]; intros i A O; [destruct i; constructor|].
  destruct i; cbn [upd_nth nth_error] in *; constructor; auto.
Qed.

Lemma c63_agree tr s b : bexec tr s b -> Forall2 agree (b_objs s) b.
Proof.
  induction 1 as [os b H _|tr s b e s' HX IH He E]; [exact H|]. destruct s as [os q up]. cbn [b_objs] in *.
  destruct up; [|discriminate]. cbn [negb bnext] in E.
  destruct e as [merge split ns ni now sc sch want e|i merge split ns ni now|i o|i|i|now]; cbn [bevent_ok bspec] in *.
  - destruct (new_list merge split ns ni now sc sch want e) as [l| | |] eqn:En; try discriminate. injection E as <-. cbn [b_objs].
    apply Forall2_app; [exact IH|]. constructor; [|constructor]. unfold agree. destruct He as (A1 & A2 & A3 & A4 & A5 & A6 & A7 & A8).
    apply (R_new merge split ns ni now sc sch want e l); assumption.
  - pose proof (agree_get _ _ q true i IH) as A. destruct (obj (mkB os q true) i) as [org|]; [|discriminate].
    destruct (clone_elements merge split ns ni now org) as [l| | |] eqn:En; try discriminate. injection E as <-. cbn [b_objs].
    apply Forall2_app; [exact IH|]. constructor; [|constructor]. destruct (book b i) as [[[g z] m]|]; [|contradiction].
    unfold agree in *. destruct He as (A1 & A2 & A3 & A4 & A5 & A6).
    apply (R_clone g z org m merge split ns ni now l); auto. apply (A6 g z m eq_refl).
  - pose proof (agree_get _ _ q true i IH) as A. destruct (obj (mkB os q true) i) as [l|]; [|discriminate].
    destruct (step l o) as [l'| | |] eqn:En; try discriminate. injection E as <-. cbn [b_objs].
    apply agree_upd; [exact IH|]. intros v Hv. unfold book in A, He. rewrite Hv in A, He. destruct v as [[[g z] m]|]; [|contradiction].
    cbn in *. eapply R_step; [exact A| |exact En]. apply He. reflexivity.
  - destruct (obj (mkB os q true) i) as [l|]; [|discriminate]. injection E as <-. exact IH.
  - destruct (obj (mkB os q true) i) as [l|]; [|discriminate]. injection E as <-. cbn [b_objs].
    apply agree_put; [exact IH|exact Logic.I].
  - destruct q as [|i r]; [discriminate|]. pose proof (agree_get _ _ (i :: r) true i IH) as A.
    destruct (obj (mkB os (i :: r) true) i) as [l|] eqn:Eo; [|injection E as <-; exact IH].
    destruct (split_pass true now l) as [l'| | |] eqn:En; try discriminate. injection E as <-. cbn [b_objs].
    apply (agree_keep _ _ _ _ (i :: r) true IH); [|congruence]. destruct (book b i) as [[[g z] m]|]; [|contradiction].
    cbn in *. apply (R_step g z l m (OSplit true now) l' A He En).
Qed.

(** contents *)
Lemma c63_contents tr s b i l : bexec tr s b -> obj s i = Some l ->
  exists g z m, book b i = Some (g, z, m) /\ reachable g z l m /\ forall r, ranking_of (sin m) r -> stored_in l = r.
Proof.
  intros HX Ho. apply c63_agree in HX. destruct s as [os q up]. cbn [b_objs] in HX. pose proof (agree_get _ _ q up i HX) as A. rewrite Ho in A.
  destruct (book b i) as [[[g z] m]|]; [|contradiction]. exists g, z, m. split; [reflexivity|]. split; [exact A|].
  intros r Hr. apply (reach_stored _ _ _ _ _ A Hr).
Qed.

(** ** The queue *)
Lemma check_grows i l q : check i l q = q \/ check i l q = q ++ [i].
Proof. unfold check, request. destruct (wants l); [|auto]. destruct (length q <? room); auto. Qed.
Lemma check_bound i l q : length q <= room -> length (check i l q) <= room.
Proof.
  unfold check, request. destruct (wants l); [|auto]. destruct (length q <? room) eqn:E; [|auto].
  apply Nat.ltb_lt in E. rewrite app_length. cbn [length]. lia.
Qed.

(** what an event does to the queue *)
Lemma queue_step s e s' : bnext s e = Some s' ->
  b_queue s' = b_queue s \/
  (exists i l, obj s i <> None /\ obj s' i = Some l /\ on s e i /\ asking e /\ b_queue s' = check i l (b_queue s)) \/
  (exists now i, e = BSplit now /\ b_queue s = i :: b_queue s').
Proof.
  destruct s as [os q up]. destruct up; [|discriminate]. cbn [negb bnext].
  destruct e as [merge split ns ni now sc sch want e|i merge split ns ni now|i o|i|i|now]; intros E.
  - destruct (new_list merge split ns ni now sc sch want e); try discriminate. injection E as <-. auto.
  - destruct (obj (mkB os q true) i) as [org|]; [|discriminate]. destruct (clone_elements merge split ns ni now org); try discriminate. injection E as <-. auto.
  - destruct (obj (mkB os q true) i) as [l|] eqn:Eo; [|discriminate]. destruct (step l o) as [l'| | |]; try discriminate. injection E as <-. cbn [b_queue].
    destruct (asks o) eqn:Ea; [|auto]. right. left. exists i, l'. split; [congruence|]. split.
    + unfold obj, put in *. cbn [b_objs] in *. destruct (nth_error os i) as [x|] eqn:En; [|discriminate]. rewrite (nth_upd_same os i (Some l') x En). reflexivity.
    + split; [reflexivity|]. split; [destruct o; try discriminate; exact Logic.I|reflexivity].
  - destruct (obj (mkB os q true) i) as [l|] eqn:Eo; [|discriminate]. injection E as <-. right. left. exists i, l.
    split; [congruence|]. split; [exact Eo|]. split; [reflexivity|]. split; [exact Logic.I|reflexivity].
  - destruct (obj (mkB os q true) i) as [l|]; [|discriminate]. injection E as <-. auto.
  - destruct q as [|i r]; [discriminate|]. right. right. exists now, i. split; [reflexivity|]. cbn [b_queue].
    destruct (obj (mkB os (i :: r) true) i) as [l|]; [destruct (split_pass true now l); try discriminate|]; injection E as <-; reflexivity.
Qed.

Lemma c63_bound tr s b : bexec tr s b -> length (b_queue s) <= 1000.
Proof.
  induction 1 as [os b H _|tr s b e s' HX IH He E]; [cbn; lia|].
  destruct (queue_step _ _ _ E) as [->|[(i & l & _ & _ & _ & _ & ->)|(now & i & _ & Eq)]]; [exact IH|apply check_bound, IH|].
  rewrite Eq in IH. cbn [length] in IH. lia.
Qed.

(** an event that is not on a list leaves it alone, and in the queue *)
Lemma off_obj s e s' i : bnext s e = Some s' -> ~ on s e i -> obj s' i = obj s i.
Proof.
  destruct s as [os q up]. destruct up; [|discriminate]. cbn [negb bnext on b_objs b_queue]. unfold obj. cbn [b_objs].
  assert (HA : forall x : option lst, i <> length os ->
    match nth_error (os ++ [x]) i with Some o => o | None => None end = match nth_error os i with Some o => o | None => None end).
  { intros x H. destruct (Nat.lt_ge_cases i (length os)) as [L|L]; [rewrite nth_error_app1 by exact L; reflexivity|].
    rewrite nth_error_app2 by exact L. destruct (i - length os) as [|[|k]] eqn:Ek; [lia| |];
      cbn [nth_error]; (replace (nth_error os i) with (@None (option lst)) by (symmetry; apply nth_error_None; exact L)); reflexivity. }
  assert (HP : forall j (x : option lst), i <> j -> nth_error (put j x os) i = nth_error os i).
  { intros j x H. unfold put. apply nth_upd_other. intros C. apply H. symmetry. exact C. }
  destruct e as [merge split ns ni now sc sch want e|j merge split ns ni now|j o|j|j|now]; intros E Hn.
  - destruct (new_list merge split ns ni now sc sch want e); try discriminate. injection E as <-. apply HA, Hn.
  - destruct (match nth_error os j with Some o => o | None => None end) as [org|]; [|discriminate].
    destruct (clone_elements merge split ns ni now org); try discriminate. injection E as <-. apply HA, Hn.
  - destruct (match nth_error os j with Some o => o | None => None end) as [l|]; [|discriminate].
    destruct (step l o); try discriminate. injection E as <-. cbn [b_objs]. rewrite HP by exact Hn. reflexivity.
  - destruct (match nth_error os j with Some o => o | None => None end) as [l|]; [|discriminate]. injection E as <-. reflexivity.
  - destruct (match nth_error os j with Some o => o | None => None end) as [l|]; [|discriminate]. injection E as <-. cbn [b_objs]. rewrite HP by exact Hn. reflexivity.
  - destruct q as [|j r]; [discriminate|]. assert (i <> j) by (intros C; apply Hn; exists r; rewrite C; reflexivity).
    destruct (match nth_error os j with Some o => o | None => None end) as [l|]; [|injection E as <-; reflexivity].
    destruct (split_pass true now l); try discriminate. injection E as <-. cbn [b_objs]. rewrite HP by assumption. reflexivity.
Qed.
Lemma off_queue s e s' i : bnext s e = Some s' -> ~ on s e i -> In i (b_queue s) -> In i (b_queue s').
Proof.
  intros E Hn Hi. destruct (queue_step _ _ _ E) as [->|[(j & l & _ & _ & _ & _ & ->)|(now & j & -> & Eq)]]; [exact Hi| |].
  - destruct (check_grows j l (b_queue s)) as [->| ->]; [exact Hi|apply in_app_iff; auto].
  - rewrite Eq in Hi. destruct Hi as [->|Hi]; [|exact Hi]. exfalso. apply Hn. cbn. eauto.
Qed.

Lemma on_dec s e i : on s e i \/ ~ on s e i.
Proof.
  destruct e as [? ? ? ? ? ? ? ? ?|? ? ? ? ? ?|j o|j|j|now]; cbn [on]; try (destruct (Nat.eq_dec i (length (b_objs s))); tauto);
    try (destruct (Nat.eq_dec i j); tauto).
  destruct (b_queue s) as [|j q]; [right; intros (? & H); discriminate|]. destruct (Nat.eq_dec j i) as [->|H]; [left; eauto|].
  right. intros (? & E). injection E as -> _. auto.
Qed.
Lemma asking_dec e : asking e \/ ~ asking e.
Proof. destruct e as [? ? ? ? ? ? ? ? ?|? ? ? ? ? ?|j o|j|j|now]; cbn [asking]; try tauto. destruct o; tauto. Qed.

(** what asking calls do *)
Lemma ask_step s e s' i l : bnext s e = Some s' -> on s e i -> asking e -> match e with BCall _ (OSplit _ _) => False | _ => True end ->
  obj s' i = Some l -> b_queue s' = check i l (b_queue s).
Proof.
  destruct s as [os q up]. destruct up; [|discriminate]. cbn [negb bnext on b_objs b_queue].
  destruct e as [? ? ? ? ? ? ? ? ?|? ? ? ? ? ?|j o|j|j|now]; cbn [asking]; try contradiction; intros E -> Ha Hs Hl.
  - destruct (obj (mkB os q true) j) as [l0|] eqn:Eo; [|discriminate]. destruct (step l0 o) as [l'| | |]; try discriminate. injection E as <-.
    assert (l' = l) as ->.
    { unfold obj, put in *. cbn [b_objs] in *. destruct (nth_error os j) as [x|] eqn:En; [|discriminate].
      rewrite (nth_upd_same os j (Some l') x En) in Hl. congruence. }
    destruct o; try contradiction; reflexivity.
  - destruct (obj (mkB os q true) j) as [l0|] eqn:Eo; [|discriminate]. injection E as <-.
    change (obj (mkB os (check j l0 q) true) j) with (obj (mkB os q true) j) in Hl. rewrite Eo in Hl. injection Hl as ->. reflexivity.
Qed.

Lemma last_cons i tr s e t x : ~ on s e i -> last_on i tr t x -> last_on i ((s, e) :: tr) t x.
Proof.
  intros Hn (a & b & E & H1 & H2). exists ((s, e) :: a), b. rewrite E. split; [reflexivity|]. split; [exact H1|].
  intros t0 x0 [H|H]; [injection H as <- <-; exact Hn|apply (H2 _ _ H)].
Qed.

Lemma asked tr s b i l : bexec tr s b -> obj s i = Some l -> wants l = true ->
  In i (b_queue s) \/ (forall t e, In (t, e) tr -> ~ on t e i) \/
  exists t e, last_on i tr t e /\ (~ asking e \/ length (b_queue t) = 1000).
Proof.
  intros HX. revert l. induction HX as [os b H _|tr s b e s' HX IH He E]; intros l Ho Hw.
  - right. left. intros t e [].
  - destruct (on_dec s e i) as [Hon|Hoff].
    + assert (HL : last_on i ((s, e) :: tr) s e) by (exists [], tr; split; [reflexivity|]; split; [exact Hon|intros t x []]).
      destruct (asking_dec e) as [Ha|Ha]; [|right; right; exists s, e; auto].
      assert (Hs : match e with BCall _ (OSplit _ _) => False | _ => True end).
      { destruct e as [? ? ? ? ? ? ? ? ?|? ? ? ? ? ?|j o|j|j|now]; try exact Logic.I. destruct o; try exact Logic.I. apply He. }
      rewrite (ask_step _ _ _ _ _ E Hon Ha Hs Ho). unfold check, request. rewrite Hw.
      destruct (length (b_queue s) <? room) eqn:Eq.
      * left. apply in_app_iff. cbn. auto.
      * right. right. exists s, e. split; [exact HL|]. right. apply Nat.ltb_ge in Eq. apply c63_bound in HX. unfold room in Eq. lia.
    + rewrite (off_obj _ _ _ _ E Hoff) in Ho. destruct (IH l Ho Hw) as [H|[H|(t & x & H1 & H2)]].
      * left. apply (off_queue _ _ _ _ E Hoff H).
      * right. left. intros t x [H1|H1]; [injection H1 as <- <-; exact Hoff|apply (H _ _ H1)].
      * right. right. exists t, x. split; [apply (last_cons _ _ _ _ _ _ Hoff H1)|exact H2].
Qed.

Lemma c63_asked tr s b i l g z m : bexec tr s b -> obj s i = Some l -> book b i = Some (g, z, m) ->
  misfit g z (score_parts l) \/ misfit g z (index_parts l) ->
  In i (b_queue s) \/ (forall t e, In (t, e) tr -> ~ on t e i) \/
  exists t e, last_on i tr t e /\ (~ asking e \/ length (b_queue t) = 1000).
Proof.
  intros HX Ho Hb Hm. apply (asked _ _ _ _ _ HX Ho). destruct (c63_contents _ _ _ _ _ HX Ho) as (g' & z' & m' & Hb' & HR & _).
  rewrite Hb in Hb'. injection Hb' as <- <- <-. apply (wants_spec _ _ _ _ HR). exact Hm.
Qed.

(** first in, first out *)
Lemma served s : forall since s', goes s since s' -> forall k i, nth_error (b_queue s) k = Some i ->
  (k < splits since /\ exists u now q, In (u, BSplit now) since /\ b_queue u = i :: q) \/
  (splits since <= k /\ nth_error (b_queue s') (k - splits since) = Some i).
Proof.
  induction 1 as [|tr t e t' HG IH E]; intros k i Hk.
  - right. cbn. split; [lia|]. rewrite Nat.sub_0_r. exact Hk.
  - assert (Hsp : splits ((t, e) :: tr) = match e with BSplit _ => S (splits tr) | _ => splits tr end) by (unfold splits; cbn [filter snd]; destruct e; reflexivity).
    destruct (IH k i Hk) as [(L & u & now & q & H1 & H2)|(L & Hn)].
    + left. split; [rewrite Hsp; destruct e; lia|]. exists u, now, q. split; [right; exact H1|exact H2].
    + destruct (queue_step _ _ _ E) as [Eq|[(j & l & _ & _ & _ & Ha & Eq)|(now & j & -> & Eq)]].
      * rewrite Hsp. destruct e as [? ? ? ? ? ? ? ? ?|? ? ? ? ? ?|? ?|?|?|now]; try (right; split; [exact L|rewrite Eq; exact Hn]).
        exfalso. destruct t as [os q up]. destruct up; [|discriminate]. cbn [negb bnext b_queue] in *. destruct q as [|j r]; [discriminate|].
        destruct (obj (mkB os (j :: r) true) j) as [l|]; [destruct (split_pass true now l); try discriminate|]; injection E as <-;
          cbn [b_queue] in Eq; apply (f_equal (@length nat)) in Eq; cbn in Eq; lia.
      * rewrite Hsp. destruct e as [? ? ? ? ? ? ? ? ?|? ? ? ? ? ?|? ?|?|?|now]; try contradiction; right; (split; [exact L|]);
          rewrite Eq; (destruct (check_grows j l (b_queue t)) as [->| ->]; [exact Hn|]);
          (rewrite nth_error_app1; [exact Hn|apply nth_error_Some; congruence]).
      * rewrite Hsp. rewrite Eq in Hn. destruct (k - splits tr) as [|d] eqn:Ed; cbn [nth_error] in Hn.
        -- injection Hn as ->. left. split; [lia|]. exists t, now, (b_queue t'). split; [left; reflexivity|exact Eq].
        -- right. split; [lia|]. replace (k - S (splits tr)) with d by lia. exact Hn.
Qed.
Lemma c63_served s since s' k i : goes s since s' -> nth_error (b_queue s) k = Some i -> k < splits since ->
  exists u now q, In (u, BSplit now) since /\ b_queue u = i :: q.
Proof. intros HG Hk L. destruct (served _ _ _ HG _ _ Hk) as [(_ & H)|(H & _)]; [exact H|lia]. Qed.

(** ** The process *)
Lemma up_step s e s' : bnext s e = Some s' -> b_up s = true.
Proof. destruct s as [os q up]. destruct up; [reflexivity|discriminate]. Qed.
Lemma down_step s e s' : bnext s e = Some s' -> b_up s' = false -> exists now i q, e = BSplit now /\ b_queue s = i :: q /\ obj s i = None.
Proof.
  destruct s as [os q up]. destruct up; [|discriminate]. cbn [negb bnext].
  destruct e as [merge split ns ni now sc sch want e|i merge split ns ni now|i o|i|i|now]; intros E D.
  - destruct (new_list merge split ns ni now sc sch want e); try discriminate. injection E as <-. discriminate.
  - destruct (obj (mkB os q true) i) as [org|]; [|discriminate]. destruct (clone_elements merge split ns ni now org); try discriminate. injection E as <-. discriminate.
  - destruct (obj (mkB os q true) i) as [l|]; [|discriminate]. destruct (step l o); try discriminate. injection E as <-. discriminate.
  - destruct (obj (mkB os q true) i) as [l|]; [|discriminate]. injection E as <-. discriminate.
  - destruct (obj (mkB os q true) i) as [l|]; [|discriminate]. injection E as <-. discriminate.
  - destruct q as [|i r]; [discriminate|]. destruct (obj (mkB os (i :: r) true) i) as [l|] eqn:Eo.
    + destruct (split_pass true now l); try discriminate. injection E as <-. discriminate.
    + exists now, i, r. auto.
Qed.

(** a deleted list in the queue was there when it was deleted *)
Lemma queued_deleted tr s b : bexec tr s b -> forall i, In i (b_queue s) -> obj s i = None -> exists t, In (t, BDelete i) tr /\ In i (b_queue t).
Proof.
  induction 1 as [os b H _|tr s b e s' HX IH He E]; intros i Hi Ho; [destruct Hi|].
  assert (HK : In i (b_queue s) -> obj s i = None -> exists t, In (t, BDelete i) ((s, e) :: tr) /\ In i (b_queue t)).
  { intros H1 H2. destruct (IH i H1 H2) as (t & A & B). exists t. split; [right; exact A|exact B]. }
  assert (HQ : In i (b_queue s)).
  { destruct (queue_step _ _ _ E) as [Eq|[(j & l & _ & H2 & _ & _ & Eq)|(now & j & _ & Eq)]].
    - rewrite <- Eq. exact Hi.
    - rewrite Eq in Hi. destruct (check_grows j l (b_queue s)) as [Ec|Ec]; rewrite Ec in Hi; [exact Hi|].
      apply in_app_iff in Hi as [Hi|[->|[]]]; [exact Hi|congruence].
    - rewrite Eq. right. exact Hi. }
  destruct (obj s i) as [l|] eqn:Eo; [|auto].
  destruct (on_dec s e i) as [Hon|Hoff]; [|rewrite (off_obj _ _ _ _ E Hoff) in Ho; congruence].
  assert (e = BDelete i) as ->; [|exists s; split; [left; reflexivity|exact HQ]].
  destruct s as [os q up]. destruct up; [|discriminate]. cbn [negb bnext on b_objs b_queue] in *.
  assert (HP : forall x, obj (mkB (put i (Some x) os) q true) i <> None).
  { intros x C. unfold obj, put in *. cbn [b_objs] in *. destruct (nth_error os i) as [y|] eqn:En; [|discriminate].
    rewrite (nth_upd_same os i (Some x) y En) in C. discriminate. }
  destruct e as [? ? ? ? ? ? ? ? ?|? ? ? ? ? ?|j o|j|j|now]; cbn [on b_objs b_queue] in Hon.
  - exfalso. subst i. unfold obj in Eo. cbn [b_objs] in Eo. assert (HN : nth_error os (length os) = None) by (apply nth_error_None; lia). rewrite HN in Eo. discriminate.
  - exfalso. subst i. unfold obj in Eo. cbn [b_objs] in Eo. assert (HN : nth_error os (length os) = None) by (apply nth_error_None; lia). rewrite HN in Eo. discriminate.
  - exfalso. subst j. rewrite Eo in E. destruct (step l o) as [l'| | |]; try discriminate. injection E as <-. exact (HP l' Ho).
  - exfalso. subst j. rewrite Eo in E. injection E as <-. unfold obj in *. cbn [b_objs] in *. congruence.
  - subst j. reflexivity.
  - exfalso. destruct Hon as (r & ->). rewrite Eo in E. destruct (split_pass true now l) as [l'| | |]; try discriminate. injection E as <-. exact (HP l' Ho).
Qed.

Lemma c63_alive tr s b : bexec tr s b -> b_up s = false -> exists t i, In (t, BDelete i) tr /\ In i (b_queue t).
Proof.
  intros HX D. inversion HX as [os b0 H H0|tr0 s0 b0 e s' HX0 He E]; subst; [discriminate|].
  destruct (down_step _ _ _ E D) as (now & i & q & -> & Eq & Eo).
  destruct (queued_deleted _ _ _ HX0 i ltac:(rewrite Eq; left; reflexivity) Eo) as (t & A & B). exists t, i. split; [right; exact A|exact B].
Qed.

Lemma gone_stays s since s' i : goes s since s' -> i < length (b_objs s) -> obj s i = None -> obj s' i = None /\ i < length (b_objs s').
Proof.
  intros HG Hi Ho. induction HG as [|tr t e t' HG (IH & IL) E]; [auto|].
  assert (HL : length (b_objs t) <= length (b_objs t')).
  { destruct t as [os q up]. destruct up; [|discriminate]. cbn [negb bnext] in E. destruct e as [merge split ns ni now sc sch want e|j merge split ns ni now|j o|j|j|now].
    - destruct (new_list merge split ns ni now sc sch want e); try discriminate. injection E as <-. cbn [b_objs]. rewrite app_length. lia.
    - destruct (obj (mkB os q true) j) as [org|]; [|discriminate]. destruct (clone_elements merge split ns ni now org); try discriminate. injection E as <-. cbn [b_objs]. rewrite app_length. lia.
    - destruct (obj (mkB os q true) j) as [l|]; [|discriminate]. destruct (step l o); try discriminate. injection E as <-. cbn [b_objs]. unfold put. rewrite ChangeP.upd_nth_length. lia.
    - destruct (obj (mkB os q true) j) as [l|]; [|discriminate]. injection E as <-. cbn [b_objs]. lia.
    - destruct (obj (mkB os q true) j) as [l|]; [|discriminate]. injection E as <-. cbn [b_objs]. unfold put. rewrite ChangeP.upd_nth_length. lia.
    - destruct q as [|j r]; [discriminate|]. destruct (obj (mkB os (j :: r) true) j) as [l|]; [destruct (split_pass true now l); try discriminate|]; injection E as <-; cbn [b_objs]; unfold put; rewrite ?ChangeP.upd_nth_length; lia. }
  split; [|lia]. destruct (on_dec t e i) as [Hon|Hoff]; [|rewrite (off_obj _ _ _ _ E Hoff); exact IH].
  destruct t as [os q up]. destruct up; [|discriminate]. cbn [negb bnext on b_objs b_queue] in *.
  destruct e as [? ? ? ? ? ? ? ? ?|? ? ? ? ? ?|j o|j|j|now]; cbn [on b_objs b_queue] in Hon; try (exfalso; lia); try (subst j; rewrite IH in E; discriminate).
  destruct Hon as (r & ->). rewrite IH in E. injection E as <-. exact IH.
Qed.

(** deleted while it waits, a list takes the process down when its turn comes *)
Lemma c63_falls s i q1 t since s' : bnext s (BDelete i) = Some t -> In i (firstn q1 (b_queue s)) -> goes t since s' ->
  splits since < q1 \/ b_up s' = false.
Proof.
  intros E Hi HG. apply In_nth_error in Hi as (k & Hk).
  assert (Lk : k < q1). { assert (k < length (firstn q1 (b_queue s))) by (apply nth_error_Some; congruence). rewrite firstn_length in *. lia. }
  assert (Hk' : nth_error (b_queue s) k = Some i).
  { rewrite <- (firstn_skipn q1 (b_queue s)). rewrite nth_error_app1; [exact Hk|apply nth_error_Some; congruence]. }
  assert (Hq : b_queue t = b_queue s /\ obj t i = None /\ i < length (b_objs t)).
  { destruct s as [os q up]. destruct up; [|discriminate]. cbn [negb bnext] in E. destruct (obj (mkB os q true) i) as [l|] eqn:Eo; [|discriminate]. injection E as <-.
    split; [reflexivity|]. unfold obj, put in *. cbn [b_objs] in *. destruct (nth_error os i) as [y|] eqn:En; [|discriminate].
    rewrite (nth_upd_same os i None y En). split; [reflexivity|]. rewrite ChangeP.upd_nth_length. apply nth_error_Some. congruence. }
  destruct Hq as (Eq & Eo & Ei). rewrite <- Eq in Hk'.
  destruct (Nat.lt_ge_cases (splits since) q1) as [L|L]; [left; exact L|right].
  destruct (c63_served _ _ _ k i HG Hk' ltac:(lia)) as (u & now & q & Hin & Hu).
  clear - HG Hin Hu Eo Ei. induction HG as [|tr a e a' HG IH E]; [destruct Hin|].
  destruct Hin as [Hin|Hin]; [|specialize (IH Hin); apply up_step in E; congruence].
  injection Hin as -> ->. destruct (gone_stays _ _ _ _ HG Ei Eo) as (Ho & _). destruct u as [os q' up]. cbn [b_queue] in Hu. subst q'.
  destruct up; [|discriminate]. cbn [negb bnext] in E. rewrite Ho in E. injection E as <-. reflexivity.
Qed.

(** the splitter always goes on, up to segment IDs running out *)
Lemma c63_goes_on tr s b i q now : bexec tr s b -> b_up s = true -> b_queue s = i :: q -> tick now ->
  (exists s', bnext s (BSplit now) = Some s' /\ b_queue s' = q) \/
  exists l, obj s i = Some l /\ (2 ^ 32 < ss_next (l_scores l) + N.of_nat (length (ss_segs (l_scores l))) \/
                                 2 ^ 32 < ss_next (l_index l) + N.of_nat (length (ss_segs (l_index l))))%N.
Proof.
  intros HX Hu Hq Hn. destruct s as [os q' up]. cbn [b_up b_queue] in *. subst up q'. cbn [negb bnext].
  destruct (obj (mkB os (i :: q) true) i) as [l|] eqn:Eo; [|left; eauto].
  destruct (c63_contents _ _ _ _ _ HX Eo) as (g & z & m & _ & HR & _).
  destruct (c14_split _ _ _ _ true now HR Hn) as [(l' & -> & _)|(_ & H)]; [left; eauto|right; eauto].
Qed.

(** ** Rest *)
Lemma reach_lt merge split l m : reachable merge split l m -> merge < split.
Proof. induction 1; assumption. Qed.
Lemma unmergeable_fit g z ls : g < z -> unmergeable g z ls -> misfit g z ls -> Exists (fun e => z < length e) ls.
Proof.
  intros L H [M|(a & p & e & b & E & M)]; [exact M|]. exfalso. specialize (H a p e b E ltac:(lia)). lia.
Qed.
Lemma c63_rests g z l m nows l' : reachable g z l m -> Forall tick nows ->
  4 * length (stored_in l) + length (ss_segs (l_scores l)) + length (ss_segs (l_index l)) <= length nows ->
  splitter_passes nows l = Done l' -> misfit g z (score_parts l') \/ misfit g z (index_parts l') ->
  Exists (fun e => z < length e /\ ~ can_split e) (score_parts l').
Proof.
  intros HR Hn HL E Hm. pose proof (reach_lt _ _ _ _ HR) as Lt. destruct (c15_rests _ _ _ _ _ _ HR Hn HL E) as (A & B & C & D & _).
  destruct Hm as [Hm|Hm]; apply (unmergeable_fit _ _ _ Lt) in Hm; try assumption.
  - apply Exists_exists in Hm as (e & He & Hz). apply Exists_exists. exists e. split; [exact He|]. split; [exact Hz|].
    rewrite Forall_forall in A. destruct (A e He) as [H|H]; [lia|exact H].
  - exfalso. apply Exists_exists in Hm as (e & He & Hz). rewrite Forall_forall in C. specialize (C e He). cbn in C. lia.
Qed.

(** ** Nothing else is asked for *)
Lemma c63_needed tr s b e s' : bexec tr s b -> bevent_ok b e -> bnext s e = Some s' -> length (b_queue s) < length (b_queue s') ->
  exists i l g z m, b_queue s' = b_queue s ++ [i] /\ on s e i /\ asking e /\ obj s' i = Some l /\ book (bspec b e) i = Some (g, z, m) /\
    (misfit g z (score_parts l) \/ misfit g z (index_parts l)).
Proof.
  intros HX He E L. assert (HX' := X_next _ _ _ _ _ HX He E).
  destruct (queue_step _ _ _ E) as [Eq|[(i & l & _ & Ho & Hon & Ha & Eq)|(now & i & _ & Eq)]].
  - rewrite Eq in L. lia.
  - destruct (c63_contents _ _ _ _ _ HX' Ho) as (g & z & m & Hb & HR & _). exists i, l, g, z, m.
    unfold check in Eq. destruct (wants l) eqn:W; [|rewrite Eq in L; lia]. unfold request in Eq.
    destruct (length (b_queue s) <? room); [|rewrite Eq in L; lia].
    split; [exact Eq|]. split; [exact Hon|]. split; [exact Ha|]. split; [exact Ho|]. split; [exact Hb|].
    apply (wants_spec _ _ _ _ HR). exact W.
  - rewrite Eq in L. cbn [length] in L. lia.
Qed.

(** ** Rest, in executions *)
Lemma passes_snoc now l2 : forall nows l l1, splitter_passes nows l = Done l1 -> split_pass true now l1 = Done l2 -> splitter_passes (nows ++ [now]) l = Done l2.
Proof.
  induction nows as [|n r IH]; intros l l1 E1 E2; cbn [splitter_passes app] in *.
  - injection E1 as ->. rewrite E2. reflexivity.
  - destruct (split_pass true n l) as [x| | |]; try discriminate. apply (IH x l1 E1 E2).
Qed.
Lemma turns_passes s since s' i l : goes s since s' -> obj s i = Some l ->
  (forall t e, In (t, e) since -> on t e i -> exists now, e = BSplit now /\ tick now) ->
  exists nows l', length nows = turns i since /\ Forall tick nows /\ obj s' i = Some l' /\ splitter_passes nows l = Done l'.
Proof.
  intros HG Ho Hs. induction HG as [|tr t e t' HG IH E].
  - exists [], l. split; [reflexivity|]. split; [constructor|]. split; [exact Ho|reflexivity].
  - destruct IH as (nows & l1 & Hn & Ht & Ho1 & Hp); [intros u x H; apply (Hs u x); right; exact H|].
    destruct (on_dec t e i) as [Hon|Hoff].
    + destruct (Hs t e (or_introl eq_refl) Hon) as (now & -> & Hk). destruct Hon as (q & Hq).
      destruct t as [os q' up]. destruct up; [|discriminate]. cbn [b_queue] in Hq. subst q'. cbn [negb bnext] in E. rewrite Ho1 in E.
      destruct (split_pass true now l1) as [l2| | |] eqn:E2; try discriminate. injection E as <-.
      exists (nows ++ [now]), l2. split.
      { unfold turns in *. cbn [filter turn snd fst b_queue]. rewrite Nat.eqb_refl, app_length. cbn [length]. lia. }
      split; [apply Forall_app; auto|]. split; [|apply (passes_snoc now l2 nows l l1 Hp E2)].
      unfold obj, put in *. cbn [b_objs] in *. destruct (nth_error os i) as [y|] eqn:En; [|discriminate].
      rewrite (nth_upd_same os i (Some l2) y En). reflexivity.
    + exists nows, l1. split; [|split; [exact Ht|split; [rewrite (off_obj _ _ _ _ E Hoff); exact Ho1|exact Hp]]].
      unfold turns in *. cbn [filter]. destruct (turn i (t, e)) eqn:Et; [|exact Hn]. exfalso. apply Hoff.
      unfold turn in Et. cbn [snd fst] in Et. destruct e as [? ? ? ? ? ? ? ? ?|? ? ? ? ? ?|? ?|?|?|now]; try discriminate.
      destruct (b_queue t) as [|j q] eqn:Eq; [discriminate|]. apply Nat.eqb_eq in Et as ->. cbn. eauto.
Qed.
Lemma c63_settles tr s b since s' i l g z m : bexec tr s b -> obj s i = Some l -> book b i = Some (g, z, m) -> goes s since s' ->
  (forall t e, In (t, e) since -> on t e i -> exists now, e = BSplit now /\ tick now) ->
  4 * length (stored_in l) + length (ss_segs (l_scores l)) + length (ss_segs (l_index l)) <= turns i since ->
  exists l', obj s' i = Some l' /\ stored_in l' = stored_in l /\
    (misfit g z (score_parts l') \/ misfit g z (index_parts l') -> Exists (fun e => z < length e /\ ~ can_split e) (score_parts l')).
Proof.
  intros HX Ho Hb HG Hs HL. destruct (c63_contents _ _ _ _ _ HX Ho) as (g' & z' & m' & Hb' & HR & _).
  rewrite Hb in Hb'. injection Hb' as <- <- <-.
  destruct (turns_passes _ _ _ _ _ HG Ho Hs) as (nows & l' & Hn & Ht & Ho' & Hp). rewrite <- Hn in HL.
  exists l'. split; [exact Ho'|]. split; [apply (c15_rests _ _ _ _ _ _ HR Ht HL Hp)|]. apply (c63_rests _ _ _ _ _ _ HR Ht HL Hp).
Qed.
