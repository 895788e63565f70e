(** Which keys an operation leaves in the store. *)
From Coq Require Import Strings.String Strings.Ascii.
From Verif.Lib Require Import Prelude ListAux ListLemmas Perm Bytes.
From Verif.Model Require Import Element Elements Segment List Keys Storage.
From Verif.Spec Require Import RankSpec QuerySpec HistorySpec KeySpec CodecSpec StorageSpec TidySpec.
From Verif.Proof Require Import ElementP ElementsP SegP InvDef KeysP ChangeP UpdateP UpdateInv DeleteP InsertP BuildP BuildInv RepairP SplitP IdxUpdP SplitInv HistoryP StoreP StoreOps StoreBuild StoreWorld.
Open Scope N_scope.

(** the segments under the name [n] are those of [l], or were allowed from the start *)
Definition cov (F : bytes -> Prop) (st : store) (n : string) (l : list seg) : Prop :=
  forall id, st (segment_key (lit n) id) <> None -> F (segment_key (lit n) id) \/ In id (map sg_id l).

Lemma touch_dec n id e : touches n id e \/ ~ touches n id e.
Proof.
  destruct e as [b x|b x|x|m]; cbn [touches]; try tauto;
  destruct (string_dec (sg_parent x) n) as [E1|]; try tauto; destruct (N.eq_dec (sg_id x) id) as [E2|]; tauto.
Qed.
Lemma present n id : forall es st, plain_evs es -> evs_store es st (segment_key (lit n) id) <> None ->
  st (segment_key (lit n) id) <> None \/ exists h s, In (EPut h s) es /\ sg_parent s = n /\ sg_id s = id.
Proof.
  induction es as [|e es IH]; intros st Hp H; [left; exact H|]. apply Forall_cons_iff in Hp as (H1 & H2). rewrite evs_store_cons in H.
  destruct (IH _ H2 H) as [A|(h & s & A & B & C)]; [|right; exists h, s; split; [right; exact A|auto]].
  destruct (touch_dec n id e) as [T|T]; [|left; rewrite ev_store_seg in A; assumption].
  destruct e as [b x|b x|x|m]; cbn [touches] in T; try contradiction.
  - right. exists b, x. split; [left; reflexivity|exact T].
  - exfalso. apply A. cbn [ev_store]. unfold key_of. destruct T as (-> & ->). apply put_same.
Qed.
Lemma gone n id : forall es st, plain_evs es -> (exists h s, In (EDel h s) es /\ sg_parent s = n /\ sg_id s = id) ->
  (forall h s, In (EPut h s) es -> sg_parent s = n -> sg_id s <> id) -> evs_store es st (segment_key (lit n) id) = None.
Proof.
  induction es as [|e es IH]; intros st Hp (h & s & Hin & Hs) Hn; [destruct Hin|]. apply Forall_cons_iff in Hp as (H1 & H2). rewrite evs_store_cons.
  assert (Hn' : forall h s, In (EPut h s) es -> sg_parent s = n -> sg_id s <> id) by (intros h0 s0 H0; apply (Hn h0 s0); right; exact H0).
  destruct Hin as [->|Hin]; [|apply IH; eauto].
  destruct (evs_store es (ev_store (EDel h s) st) (segment_key (lit n) id)) eqn:E; [|reflexivity]. exfalso.
  destruct (present n id es (ev_store (EDel h s) st) H2) as [A|(h' & s' & A & B & C)]; [congruence| |eapply Hn'; eauto].
  apply A. cbn [ev_store]. unfold key_of. destruct Hs as (-> & ->). apply put_same.
Qed.
Lemma cov_evs F es st n l l' : plain_evs es -> cov F st n l ->
  (forall h s, In (EPut h s) es -> sg_parent s = n -> In (sg_id s) (map sg_id l')) ->
  (forall id, In id (map sg_id l) -> In id (map sg_id l') \/ exists h s, In (EDel h s) es /\ sg_parent s = n /\ sg_id s = id) ->
  cov F (evs_store es st) n l'.
Proof.
  intros Hp Hc Hput Hdel id Hid. destruct (in_dec N.eq_dec id (map sg_id l')) as [Hi|Hi]; [right; exact Hi|left].
  destruct (present n id es st Hp Hid) as [A|(h & s & A & B & C)]; [|exfalso; apply Hi; rewrite <- C; eapply Hput; eauto].
  destruct (Hc id A) as [B|B]; [exact B|]. exfalso. destruct (Hdel id B) as [C|C]; [contradiction|].
  apply Hid, gone; [exact Hp|exact C|]. intros h s X Y Z. apply Hi. rewrite <- Z. eapply Hput; eauto.
Qed.
Lemma cov_frame F es st n l : plain_evs es -> (forall e, In e es -> ev_name e <> n) -> cov F st n l -> cov F (evs_store es st) n l.
Proof.
  intros Hp Hn Hc. apply cov_evs with l; auto. intros h s Hin Hs. exfalso. apply (Hn _ Hin). exact Hs.
Qed.
Lemma cov_ids F st n l l' : map sg_id l' = map sg_id l -> cov F st n l -> cov F st n l'.
Proof. unfold cov. intros ->. auto. Qed.
Lemma kept_ids ts a b : kept ts a b -> map sg_id b = map sg_id a.
Proof.
  intros (H & _). assert (E : map (fun x => fst (fst x)) (map frame b) = map (fun x => fst (fst x)) (map frame a)) by (rewrite H; reflexivity).
  rewrite !map_map in E. exact E.
Qed.

(** the split loop *)
Lemma split_loop_cov F h isidx merge ms sz now name P : 0 < now < max_u32 -> plain name ->
  forall fuel i l next us upd l' next' us' upd' st,
  0 < next -> sok isidx name P l next ->
  split_loop_segs fuel isidx merge ms sz now i l next us upd = Done (l', next', us', upd') ->
  cov F st name l ->
  cov F (evs_store (split_loop_evs fuel h isidx merge ms sz now i l next) st) name l'.
Proof.
  intros Hnow Hpl. induction fuel as [|f IH]; intros i l next us upd l' next' us' upd' st Hnx HK E HC; cbn [split_loop_segs split_loop_evs] in *.
  { destruct (nth_error l i); [discriminate|]. injection E as <- <- <- <-. exact HC. }
  destruct (nth_error l i) as [s|] eqn:Hs.
  2: { injection E as <- <- <- <-. exact HC. }
  destruct (Nat.ltb (sg_n s) sz).
  - destruct (if merge then i else O) as [|j] eqn:Ej; [eapply IH; eauto|].
    destruct (nth_error l (i - 1)) as [p|] eqn:Hp; [|eapply IH; eauto].
    destruct (Nat.ltb ms (sg_n s + sg_n p)); [eapply IH; eauto|].
    assert (Hi : i = S j) by (destruct merge; [exact Ej|discriminate]).
    rewrite Hi in Hp, Hs. replace (S j - 1)%nat with j in Hp by lia.
    apply nth_split_eq in Hp as (a & b & El & La).
    destruct b as [|s' b].
    { rewrite El in Hs. rewrite nth_error_app2 in Hs by lia. replace (S j - length a)%nat with 1%nat in Hs by lia. discriminate. }
    assert (s' = s).
    { rewrite El in Hs. rewrite nth_error_app2 in Hs by lia. replace (S j - length a)%nat with 1%nat in Hs by lia. cbn in Hs. congruence. }
    subst s'. destruct (merge_segs now p s) as (m & ch) eqn:Em.
    assert (Em1 : m = fst (merge_segs now p s)) by (rewrite Em; reflexivity).
    assert (El' : del_nth i (upd_nth (i - 1) (fun _ => m) l) = a ++ m :: b).
    { rewrite El, Hi. replace (S j - 1)%nat with (length a) by lia. rewrite upd_nth_mid.
      replace (S j) with (length (a ++ [m])) by (rewrite app_length; cbn; lia).
      replace (a ++ m :: s :: b) with ((a ++ [m]) ++ s :: b) by (rewrite <- app_assoc; reflexivity).
      rewrite del_nth_mid, <- app_assoc. reflexivity. }
    rewrite El' in *. rewrite El in HK, HC.
    assert (Hpar : Forall (fun t => sg_parent t = name) (a ++ p :: s :: b)).
    { eapply Forall_impl; [|apply (k_meta _ _ _ _ _ HK)]. unfold seg_meta. tauto. }
    destruct (sok_merge _ _ _ _ _ _ _ _ now Hnow HK) as (HK2 & _).
    rewrite <- Em1 in HK2.
    assert (Hm : sg_id m = sg_id p /\ sg_parent m = sg_parent p) by (rewrite Em1; cbn; auto).
    assert (Ps : sg_parent s = name /\ sg_parent p = name).
    { rewrite Forall_forall in Hpar. split; apply Hpar; rewrite in_app_iff; cbn; auto. }
    change (EPut h m :: EDel false s :: ?r) with ([EPut h m; EDel false s] ++ r). rewrite evs_store_app.
    eapply IH; [exact Hnx|exact HK2|exact E|].
    apply cov_evs with (a ++ p :: s :: b); [|exact HC| |].
    + constructor; [cbn; rewrite (proj2 Hm), (proj2 Ps); exact Hpl|]. constructor; [cbn; rewrite (proj1 Ps); exact Hpl|constructor].
    + intros h0 s0 [X|[X|[]]] _; [|discriminate]. injection X as _ <-. apply in_map, in_or_app. right. left. reflexivity.
    + intros id Hid. rewrite map_app, in_app_iff in *. cbn [map In] in *. destruct Hid as [A|[A|[A|A]]]; auto.
      * left. right. left. rewrite (proj1 Hm). exact A.
      * right. exists false, s. split; [right; left; reflexivity|]. split; [apply Ps|exact A].
  - assert (Hself : upd_nth i set_n l = l).
    { eapply upd_nth_self; [exact Hs|]. eapply set_n_same. pose proof (k_meta _ _ _ _ _ HK) as HM. rewrite Forall_forall in HM.
      apply HM. eapply nth_error_In; eauto. }
    rewrite Hself in *. apply nth_split_eq in Hs as (a & b & El & La).
    destruct (split_seg isidx next now s) as [((s1 & s2) & ch)|] eqn:Es.
    + rewrite El in HK, HC.
      destruct (sok_split _ _ _ _ _ _ _ _ _ _ _ Hnow Hnx HK Es) as (HK2 & _ & _ & _ & I1 & I2).
      assert (El' : ins_nth (S i) (touch now s2) (upd_nth i (fun _ => touch now s1) l) = a ++ touch now s1 :: touch now s2 :: b).
      { rewrite El, <- La, upd_nth_mid.
        replace (S (length a)) with (length (a ++ [touch now s1])) by (rewrite app_length; cbn; lia).
        replace (a ++ touch now s1 :: b) with ((a ++ [touch now s1]) ++ b) by (rewrite <- app_assoc; reflexivity).
        rewrite ins_nth_mid, <- app_assoc. reflexivity. }
      rewrite El' in *.
      assert (Hpar : Forall (fun t => sg_parent t = name) (a ++ touch now s1 :: touch now s2 :: b)).
      { eapply Forall_impl; [|apply (k_meta _ _ _ _ _ HK2)]. unfold seg_meta. tauto. }
      assert (P12 : sg_parent (touch now s1) = name /\ sg_parent (touch now s2) = name).
      { rewrite Forall_forall in Hpar. split; apply Hpar; rewrite in_app_iff; cbn; auto. }
      set (es1 := if isidx then [EPut h (touch now s2); EPut h (touch now s1)] else [EPut h (touch now s1); EPut h (touch now s2)]).
      assert (Hes : forall e, In e es1 <-> e = EPut h (touch now s1) \/ e = EPut h (touch now s2)).
      { intros e. unfold es1. destruct isidx; cbn; intuition congruence. }
      assert (Hnx2 : 0 < next + 1) by lia.
      rewrite evs_store_app. eapply IH; [exact Hnx2|exact HK2|exact E|].
      apply cov_evs with (a ++ s :: b); [|exact HC| |].
      * apply Forall_forall. intros e He. apply Hes in He as [->| ->]; cbn [ev_name]; rewrite ?(proj1 P12), ?(proj2 P12); exact Hpl.
      * intros h0 s0 X _. rewrite map_app, in_app_iff. cbn [map In]. apply Hes in X as [X|X]; injection X as _ ->; auto.
      * intros id Hid. left. rewrite map_app, in_app_iff in *. cbn [map In] in *. destruct Hid as [A|[A|A]]; auto.
        cbn [touch sg_id] in *. rewrite I1, I2 in *. subst id. auto.
    + destruct isidx; eapply IH; eauto.
Qed.

(** ** a list *)
Definition cov2 (F : bytes -> Prop) (st : store) (l : lst) : Prop :=
  cov F st (l_scores_id l) (ss_segs (l_scores l)) /\ cov F st (l_index_id l) (ss_segs (l_index l)).
Definition bare_of (F : bytes -> Prop) (st : store) (n : string) : Prop := forall id, st (segment_key (lit n) id) <> None -> F (segment_key (lit n) id).
Lemma bare_cov F st n : bare_of F st n <-> cov F st n [].
Proof. unfold bare_of, cov. cbn. split; intros H id Hid; specialize (H id Hid); tauto. Qed.
(** every segment written is one of the list *)
Definition puts_of (es : list ev) (l : lst) : Prop := forall h s, In (EPut h s) es ->
  (sg_parent s = l_scores_id l /\ In (sg_id s) (map sg_id (ss_segs (l_scores l)))) \/
  (sg_parent s = l_index_id l /\ In (sg_id s) (map sg_id (ss_segs (l_index l)))).
Definition same_ids (l l' : lst) : Prop := names l' = names l /\
  map sg_id (ss_segs (l_scores l')) = map sg_id (ss_segs (l_scores l)) /\ map sg_id (ss_segs (l_index l')) = map sg_id (ss_segs (l_index l)).
Lemma same_refl l : same_ids l l.
Proof. repeat split. Qed.
Lemma same_trans a b c : same_ids a b -> same_ids b c -> same_ids a c.
Proof. intros (A & B & C) (D & E & G). repeat split; congruence. Qed.
Lemma puts_of_app a b l : puts_of a l -> puts_of b l -> puts_of (a ++ b) l.
Proof. intros A B h s H. apply in_app_iff in H as [H|H]; eauto. Qed.
Lemma puts_of_same es l l' : same_ids l l' -> puts_of es l' -> puts_of es l.
Proof. intros (A & B & C) H h s Hin. unfold names in A. injection A as A1 A2. specialize (H h s Hin). rewrite A1, A2, B, C in H. exact H. Qed.
Lemma puts_of_save l l' : puts_of (save_evs l') l.
Proof. intros h s [H|[H|[]]]; discriminate. Qed.
Lemma puts_of_nil l : puts_of [] l.
Proof. intros h s []. Qed.
Lemma puts_of_scores h l is : Forall (fun s => sg_parent s = l_scores_id l) (ss_segs (l_scores l)) -> puts_of (puts h (ss_segs (l_scores l)) is) l.
Proof.
  intros P h0 s H. apply puts_In in H as (i & s0 & _ & Hn & X). injection X as _ ->. apply nth_error_In in Hn. left.
  rewrite Forall_forall in P. split; [apply P, Hn|apply in_map, Hn].
Qed.
Lemma puts_of_index h l is : Forall (fun s => sg_parent s = l_index_id l) (ss_segs (l_index l)) -> puts_of (puts h (ss_segs (l_index l)) is) l.
Proof.
  intros P h0 s H. apply puts_In in H as (i & s0 & _ & Hn & X). injection X as _ ->. apply nth_error_In in Hn. right.
  rewrite Forall_forall in P. split; [apply P, Hn|apply in_map, Hn].
Qed.
Lemma puts_of_all_s h l : Forall (fun s => sg_parent s = l_scores_id l) (ss_segs (l_scores l)) -> puts_of (Storage.put_all h (ss_segs (l_scores l))) l.
Proof.
  intros P h0 s H. apply in_map_iff in H as (s0 & X & Hn). injection X as _ ->. left. rewrite Forall_forall in P. split; [apply P, Hn|apply in_map, Hn].
Qed.
Lemma puts_of_all_i h l : Forall (fun s => sg_parent s = l_index_id l) (ss_segs (l_index l)) -> puts_of (Storage.put_all h (ss_segs (l_index l))) l.
Proof.
  intros P h0 s H. apply in_map_iff in H as (s0 & X & Hn). injection X as _ ->. right. rewrite Forall_forall in P. split; [apply P, Hn|apply in_map, Hn].
Qed.

Lemma within_plain es ns : within es ns -> Forall plain ns -> plain_evs es.
Proof. intros W H. apply Forall_forall. intros e He. rewrite Forall_forall in H. apply H, W, He. Qed.

Lemma cov2_same F es st l l' : named l -> plain_evs es -> puts_of es l' -> same_ids l l' -> cov2 F st l -> cov2 F (evs_store es st) l'.
Proof.
  intros [_ _ _ _ Hne] Hp Hput (En & E1 & E2) (C1 & C2). unfold names in En. injection En as En1 En2.
  split; rewrite ?En1, ?En2.
  - apply cov_evs with (ss_segs (l_scores l)); auto.
    + intros h s H Hs. destruct (Hput h s H) as [(_ & X)|(X & _)]; [exact X|]. congruence.
    + intros id Hid. left. rewrite E1. exact Hid.
  - apply cov_evs with (ss_segs (l_index l)); auto.
    + intros h s H Hs. destruct (Hput h s H) as [(X & _)|(_ & X)]; [|exact X]. congruence.
    + intros id Hid. left. rewrite E2. exact Hid.
Qed.
Lemma cov2_new F es st l' : l_scores_id l' <> l_index_id l' -> plain_evs es -> puts_of es l' ->
  bare_of F st (l_scores_id l') -> bare_of F st (l_index_id l') -> cov2 F (evs_store es st) l'.
Proof.
  intros Hne Hp Hput B1 B2. apply bare_cov in B1, B2. split; (eapply cov_evs; [exact Hp|eassumption| |intros id []]); intros h s H Hs;
    destruct (Hput h s H) as [(X & Y)|(X & Y)]; auto; congruence.
Qed.
