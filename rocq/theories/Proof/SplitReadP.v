(** The split pass while reads fail. *)
From Coq Require Import Strings.String.
From Verif.Lib Require Import Prelude ListAux ListLemmas SortLemmas Perm.
From Verif.Model Require Import Element Elements Segment List ReadFail.
From Verif.Spec Require Import RankSpec QuerySpec HistorySpec AnswerSpec ReadFailSpec.
From Verif.Proof Require Import ElementP ElementsP ElementsThm SegP InvDef QueryP LookupP ChangeP UpdateP UpdateInv DeleteP BuildP
  SplitP IdxUpdP SplitInv AnswerP HistoryP ListThm ReadFailP UpdateReadP SkewP DeleteReadP InsertReadP DelInsThm VerifyP.
Open Scope N_scope.

(** ** the loops *)
Lemma split_loop_r_full rd isidx merge ms sz now : forall fuel i l next us upd l' next' us' upd',
  split_loop_r rd fuel isidx merge ms sz now i l next us upd = Done (l', next', us', upd', true) ->
  split_loop_segs fuel isidx merge ms sz now i l next us upd = Done (l', next', us', upd').
Proof.
  induction fuel as [|f IH]; intros i l next us upd l' next' us' upd' E; cbn [split_loop_r split_loop_segs] in *.
  - destruct (nth_error l i); [discriminate|]. congruence.
  - destruct (nth_error l i) as [s|]; [|congruence].
    destruct (Nat.ltb (sg_n s) sz).
    + destruct (if merge then i else O) as [|j]; [auto|]. destruct (nth_error l (i - 1)) as [p|]; [|auto].
      destruct (Nat.ltb ms (sg_n s + sg_n p)); [auto|]. destruct (rd i); [|discriminate]. destruct (merge_segs now p s) as (m & ch). auto.
    + destruct (rd i); [|discriminate]. destruct (split_seg isidx next now s) as [((s1 & s2) & ch)|]; [auto|]. destruct isidx; auto.
Qed.
Lemma split_loop_r_all rd isidx merge ms sz now : (forall i, rd i = true) -> forall fuel i l next us upd l' next' us' upd' ok',
  split_loop_r rd fuel isidx merge ms sz now i l next us upd = Done (l', next', us', upd', ok') -> ok' = true.
Proof.
  intros Hrd. induction fuel as [|f IH]; intros i l next us upd l' next' us' upd' ok' E; cbn [split_loop_r] in *.
  - destruct (nth_error l i); [discriminate|]. congruence.
  - destruct (nth_error l i) as [s|]; [|congruence]. rewrite Hrd in E.
    destruct (Nat.ltb (sg_n s) sz).
    + destruct (if merge then i else O) as [|j]; [eauto|]. destruct (nth_error l (i - 1)) as [p|]; [|eauto].
      destruct (Nat.ltb ms (sg_n s + sg_n p)); [eauto|]. destruct (merge_segs now p s) as (m & ch). eauto.
    + destruct (split_seg isidx next now s) as [((s1 & s2) & ch)|]; [eauto|]. destruct isidx; eauto.
Qed.

Lemma split_loop_r_done rd isidx merge ms sz now : forall fuel i l next us upd,
  (length l <= i + fuel)%nat ->
  exists l' next' us' upd' ok', split_loop_r rd fuel isidx merge ms sz now i l next us upd = Done (l', next', us', upd', ok') /\
    next <= next' <= next + N.of_nat (length l - i).
Proof.
  induction fuel as [|f IH]; intros i l next us upd Hf; cbn [split_loop_r].
  - destruct (nth_error l i) eqn:E; [|do 5 eexists; split; [reflexivity|lia]].
    assert (i < length l)%nat by (apply nth_error_Some; congruence). lia.
  - destruct (nth_error l i) as [s|] eqn:E; [|do 5 eexists; split; [reflexivity|lia]].
    assert (Hi : (i < length l)%nat) by (apply nth_error_Some; congruence).
    assert (H1 : exists l' next' us' upd' ok', split_loop_r rd f isidx merge ms sz now (S i) l next us upd = Done (l', next', us', upd', ok') /\
                 next <= next' <= next + N.of_nat (length l - i)).
    { destruct (IH (S i) l next us upd) as (l' & n' & u' & b' & o' & A & B); [lia|]. do 5 eexists; split; [exact A|lia]. }
    assert (Hdef : forall l2 us2 upd2 i2, (length l2 <= length l)%nat -> (S i <= i2)%nat ->
      exists l' next' us' upd' ok', split_loop_r rd f isidx merge ms sz now i2 l2 next us2 upd2 = Done (l', next', us', upd', ok') /\
                 next <= next' <= next + N.of_nat (length l - i)).
    { intros l2 us2 upd2 i2 L2 I2. destruct (IH i2 l2 next us2 upd2) as (l' & n' & u' & b' & o' & A & B); [lia|]. do 5 eexists; split; [exact A|lia]. }
    destruct (Nat.ltb (sg_n s) sz).
    + destruct (if merge then i else O) as [|j]; [exact H1|].
      destruct (nth_error l (i - 1)) as [p|]; [|exact H1].
      destruct (Nat.ltb ms (sg_n s + sg_n p)); [exact H1|].
      destruct (rd i); [|do 5 eexists; split; [reflexivity|lia]]. destruct (merge_segs now p s) as (m & ch).
      apply Hdef; [|lia]. rewrite del_nth_length; rewrite upd_nth_length; lia.
    + destruct (rd i); [|do 5 eexists; split; [reflexivity|lia]]. destruct (split_seg isidx next now s) as [((s1 & s2) & ch)|].
      * edestruct IH as (l' & n' & u' & b' & o' & A & B).
        2: { do 5 eexists. split; [exact A|]. rewrite ins_nth_length, upd_nth_length in B. lia. }
        rewrite ins_nth_length, upd_nth_length. lia.
      * destruct isidx; apply Hdef; rewrite ?upd_nth_length; lia.
Qed.

Lemma split_loop_r_ok rd isidx merge ms sz now name P l0 : 0 < now < max_u32 -> forall fuel i l next us upd l' next' us' upd' ok',
  0 < next -> sok isidx name P l next -> moved l0 i l us ->
  split_loop_r rd fuel isidx merge ms sz now i l next us upd = Done (l', next', us', upd', ok') ->
  sok isidx name P l' next' /\ (exists k, moved l0 k l' us') /\ elems_of l' = elems_of l /\
  (upd' = false -> upd = false /\ l' = l /\ us' = us).
Proof.
  intros Hnow. induction fuel as [|f IH]; intros i l next us upd l' next' us' upd' ok' Hnx HK HJ E; cbn [split_loop_r] in E.
  { destruct (nth_error l i); [discriminate|]. injection E as <- <- <- <- <-.
    split; [exact HK|]. split; [eauto|]. split; [reflexivity|]. auto. }
  destruct (nth_error l i) as [s|] eqn:Hs.
  2: { injection E as <- <- <- <- <-. split; [exact HK|]. split; [eauto|]. split; [reflexivity|]. auto. }
  assert (Hskip : split_loop_r rd f isidx merge ms sz now (S i) l next us upd = Done (l', next', us', upd', ok') ->
     sok isidx name P l' next' /\ (exists k, moved l0 k l' us') /\ elems_of l' = elems_of l /\
     (upd' = false -> upd = false /\ l' = l /\ us' = us)).
  { intros E1. eapply IH; [exact Hnx|exact HK| |exact E1]. eapply moved_weaken; [exact HJ|lia]. }
  pose proof (score_ok_distinct _ _ (SplitP.k_s _ _ _ _ _ HK)) as HD.
  destruct (Nat.ltb (sg_n s) sz).
  - destruct (if merge then i else O) as [|j] eqn:Ej; [auto|].
    destruct (nth_error l (i - 1)) as [p|] eqn:Hp; [|auto].
    destruct (Nat.ltb ms (sg_n s + sg_n p)); [auto|].
    destruct (rd i); [|injection E as <- <- <- <- <-; (split; [exact HK|]); (split; [eauto|]); (split; [reflexivity|]); auto].
    assert (Hi : i = S j) by (destruct merge; [exact Ej|discriminate]).
    rewrite Hi in Hp, Hs. replace (S j - 1)%nat with j in Hp by lia.
    apply nth_split_eq in Hp as (a & c & El & La). 
    destruct c as [|s' b].
    { rewrite El in Hs. rewrite nth_error_app2 in Hs by lia. replace (S j - length a)%nat with 1%nat in Hs by lia. discriminate. }
    assert (s' = s).
    { rewrite El in Hs. rewrite nth_error_app2 in Hs by lia. replace (S j - length a)%nat with 1%nat in Hs by lia. cbn in Hs. congruence. }
    subst s'. destruct (merge_segs now p s) as (m & ch) eqn:Em.
    assert (Em1 : m = fst (merge_segs now p s)) by (rewrite Em; reflexivity).
    assert (Em2 : ch = snd (merge_segs now p s)) by (rewrite Em; reflexivity).
    assert (El' : del_nth i (upd_nth (i - 1) (fun _ => m) l) = a ++ m :: b).
    { rewrite El, Hi. replace (S j - 1)%nat with (length a) by lia. rewrite upd_nth_mid.
      replace (S j) with (length (a ++ [m])) by (rewrite app_length; cbn; lia).
      replace (a ++ m :: s :: b) with ((a ++ [m]) ++ s :: b) by (rewrite <- app_assoc; reflexivity).
      rewrite del_nth_mid, <- app_assoc. reflexivity. }
    rewrite El' in E. rewrite El in HK, HD, HJ. destruct (sok_merge _ _ _ _ _ _ _ _ now Hnow HK) as (HK2 & HE2).
    rewrite Em1, Em2 in E.
    edestruct IH as (R1 & R2 & R3 & R4); [exact Hnx|exact HK2| |exact E|].
    + rewrite Hi, <- La. apply moved_merge; [|exact HD]. rewrite Hi, <- La in HJ. exact HJ.
    + split; [exact R1|]. split; [exact R2|]. split; [rewrite R3, El; exact HE2|]. intros C. destruct (R4 C); discriminate.
  - destruct (rd i); [|injection E as <- <- <- <- <-; (split; [exact HK|]); (split; [eauto|]); (split; [reflexivity|]); auto].
    assert (Hself : upd_nth i set_n l = l).
    { eapply upd_nth_self; [exact Hs|]. eapply set_n_same. pose proof (k_meta _ _ _ _ _ HK) as HM. rewrite Forall_forall in HM.
      apply HM. eapply nth_error_In; eauto. }
    rewrite Hself in E. apply nth_split_eq in Hs as (a & b & El & La).
    destruct (split_seg isidx next now s) as [((s1 & s2) & ch)|] eqn:Es.
    + rewrite El in HK, HD, HJ.
      destruct (sok_split _ _ _ _ _ _ _ _ _ _ _ Hnow Hnx HK Es) as (HK2 & HE2 & Ee & Ec & I1 & I2).
      assert (El' : ins_nth (S i) (touch now s2) (upd_nth i (fun _ => touch now s1) l) = a ++ touch now s1 :: touch now s2 :: b).
      { rewrite El, <- La, upd_nth_mid.
        replace (S (length a)) with (length (a ++ [touch now s1])) by (rewrite app_length; cbn; lia).
        replace (a ++ touch now s1 :: b) with ((a ++ [touch now s1]) ++ b) by (rewrite <- app_assoc; reflexivity).
        rewrite ins_nth_mid, <- app_assoc. reflexivity. }
      rewrite El', Ec in E.
      edestruct IH as (R1 & R2 & R3 & R4); [|exact HK2| |exact E|].
      * lia.
      * apply moved_split with (s := s); auto.
      * split; [exact R1|]. split; [exact R2|]. split; [rewrite R3, El; exact HE2|]. intros C. destruct (R4 C); discriminate.
    + destruct isidx; [|auto].
      edestruct IH as (R1 & R2 & R3 & R4); [exact Hnx|exact HK| |exact E|].
      * eapply moved_weaken; [exact HJ|lia].
      * split; [exact R1|]. split; [exact R2|]. split; [exact R3|]. intros C. destruct (R4 C); discriminate.
Qed.

(** ** the index update *)
Lemma upd_groups_nth now : forall gs l j, nth_error (upd_groups now gs l) j = nth_error (upd_groups now (filter (fun g => Nat.eqb (fst g) j) gs) l) j.
Proof.
  assert (Hc : forall gs l l' j, nth_error l j = nth_error l' j -> nth_error (upd_groups now gs l) j = nth_error (upd_groups now gs l') j).
  { induction gs as [|g gs IH]; intros l l' j H; [exact H|]. cbn [upd_groups fold_left]. apply IH. unfold upd_group. destruct (snd g); [exact H|].
    rewrite !upd_nth_nth, H. reflexivity. }
  induction gs as [|g gs IH]; intros l j; [reflexivity|]. cbn [filter]. destruct (Nat.eqb (fst g) j) eqn:E.
  - cbn [upd_groups fold_left]. apply IH.
  - rewrite <- IH. cbn [upd_groups fold_left]. apply Hc. unfold upd_group. destruct (snd g); [reflexivity|]. rewrite upd_nth_nth, E. reflexivity.
Qed.
Lemma upd_groups_read rd now gs l : upd_groups now (filter (fun g => rd (fst g)) gs) l = mix rd l (upd_groups now gs l).
Proof.
  apply nth_ext_error. intros j. rewrite upd_groups_nth. pose proof (upd_groups_length now gs l) as HL.
  destruct (nth_error l j) as [s|] eqn:Es.
  - assert (exists s', nth_error (upd_groups now gs l) j = Some s') as (s' & Es').
    { destruct (nth_error (upd_groups now gs l) j) eqn:E; [eauto|]. apply nth_error_None in E. assert (j < length l)%nat by (apply nth_error_Some; congruence). lia. }
    rewrite (mix_nth rd l _ j s s' HL Es Es').
    destruct (rd j) eqn:Er.
    + rewrite <- Es', (upd_groups_nth now gs l j). f_equal. f_equal. clear -Er. induction gs as [|g gs IH]; [reflexivity|]. cbn [filter].
      destruct (rd (fst g)) eqn:Eg; cbn [filter]; destruct (Nat.eqb_spec (fst g) j) as [E|E]; rewrite ?IH; try reflexivity. congruence.
    + assert (filter (fun g => Nat.eqb (fst g) j) (filter (fun g => rd (fst g)) gs) = []) as ->; [|exact Es].
      clear -Er. induction gs as [|g gs IH]; [reflexivity|]. cbn [filter]. destruct (rd (fst g)) eqn:Eg; cbn [filter]; [|exact IH].
      destruct (Nat.eqb_spec (fst g) j) as [E|E]; [congruence|exact IH].
  - assert (nth_error (mix rd l (upd_groups now gs l)) j = None) as -> by (apply nth_error_None; rewrite mix_length; apply nth_error_None; exact Es).
    apply nth_error_None. rewrite upd_groups_length. apply nth_error_None. exact Es.
Qed.
Lemma update_index_r_mix rd now us l : fst (update_index_r rd now us l) = mix rd l (update_index_elements now us l) /\
  (snd (update_index_r rd now us l) = true -> fst (update_index_r rd now us l) = update_index_elements now us l) /\
  ((forall i, rd i = true) -> snd (update_index_r rd now us l) = true).
Proof.
  unfold update_index_r, update_index_elements. destruct us as [|u0 ur] eqn:Eus.
  { cbn [fst snd]. split; [|auto]. symmetry. apply mix_same; [reflexivity|]. intros i s s' A B _. congruence. }
  rewrite <- Eus. clear Eus u0 ur. cbn zeta. set (vs := sort_by (fun a b : upd_entry => fst b <? fst a) us). set (gs := cut_groups vs (split_scores l (map fst vs))). cbn [fst snd].
  assert (E : forall gs l, fold_left (fun l g => match snd g with
                           | [] => l
                           | in_ => if rd (fst g) then upd_nth (fst g) (fun s =>
                               touch now (set_elems (fun e => fold_left (fun e u => apply_upd now u e) in_ e) s)) l
                             else l
                           end) gs l = upd_groups now (filter (fun g => rd (fst g)) gs) l).
  { clear. induction gs as [|g gs IH]; intros l; [reflexivity|]. cbn [fold_left filter]. rewrite IH. destruct (rd (fst g)).
    - cbn [upd_groups fold_left]. unfold upd_groups. f_equal.
    - f_equal. destruct (snd g); reflexivity. }
  rewrite E. split; [rewrite upd_groups_read; reflexivity|]. split.
  - intros H. change (upd_groups now (filter (fun g => rd (fst g)) gs) l = upd_groups now gs l). change (forallb (fun g : nat * list upd_entry => match snd g with [] => true | _ => rd (fst g) end) gs = true) in H.
    clearbody gs. clear -H. revert l. induction gs as [|g gs IH]; intros l; [reflexivity|].
    cbn [forallb] in H. apply andb_true_iff in H as (H1 & H2). cbn [filter]. destruct (rd (fst g)) eqn:Er.
    + cbn [upd_groups fold_left]. apply IH. exact H2.
    + destruct (snd g) eqn:Eg; [|discriminate]. cbn [upd_groups fold_left]. unfold upd_group at 2. rewrite Eg. apply IH. exact H2.
  - intros H. apply forallb_forall. intros g _. destruct (snd g); auto.
Qed.

(** ** who is still found *)
Definition stays (ss0 ss : list seg) (x : element) : Prop :=
  exists s t, In s ss0 /\ In x (sg_elems s) /\ In t ss /\ In x (sg_elems t) /\
    (sg_id t = sg_id s \/ (~ In (sg_id s) (map sg_id ss) /\ nth_error ss 0 = Some t)).

Lemma idx_get_here l i s : NoDup (map sg_id l) -> nth_error l i = Some s -> idx_get (build_idx l) (sg_id s) = i.
Proof.
  intros Hn Hi. unfold idx_get, build_idx, mapi.
  assert (H : forall l k i, NoDup (map sg_id l) -> nth_error l i = Some s -> assoc (sg_id s) (mapi_from k (fun i s => (sg_id s, i)) l) = Some (k + i)%nat).
  { clear. induction l as [|y r IH]; intros k i Hn Hi; [destruct i; discriminate|]. cbn [mapi_from assoc map] in *. apply NoDup_cons_iff in Hn as (Hy & Hn).
    destruct i as [|i]; cbn in Hi.
    - injection Hi as ->. rewrite N.eqb_refl. f_equal. lia.
    - destruct (N.eqb_spec (sg_id y) (sg_id s)) as [E|_].
      + exfalso. apply Hy. rewrite E. apply in_map. eapply nth_error_In; eauto.
      + rewrite (IH (S k) i Hn Hi). f_equal. lia. }
  rewrite (H l 0%nat i Hn Hi). reflexivity.
Qed.
Lemma idx_get_gone l t : ~ In t (map sg_id l) -> idx_get (build_idx l) t = 0%nat.
Proof.
  intros H. unfold idx_get. replace (assoc t (build_idx l)) with (@None nat); [reflexivity|]. symmetry. apply assoc_not_in. intros C. apply H.
  unfold build_idx, mapi in C. clear H. revert C. generalize 0%nat. induction l as [|s r IH]; intros k C; [contradiction|].
  cbn [mapi_from map fst] in C. destruct C as [C|C]; [left; exact C|right; eapply IH; exact C].
Qed.

Lemma leads_moved now P Q ss0 ss is us (f : N -> bool) k : core P Q ss0 is -> score_ok P ss -> NoDup (map sg_id ss) -> elems_of ss = elems_of ss0 ->
  moved ss0 k ss us -> forall x, In x (elems_of ss) ->
  leads (fun q' => exists q, Q q /\ q' = upd1 now (filter (fun u : upd_entry => f (fst u)) us) q) ss x <-> stays ss0 ss x \/ f (e_id x) = true.
Proof.
  intros HC HS Hnd EE HM x Hx. pose proof (c_link _ _ _ _ HC) as HL. pose proof (c_s _ _ _ _ HC) as HS0.
  assert (HF : forall q, Q q -> e_score q = e_id q) by (intros q Hq; apply (c_form _ _ _ _ HC q Hq)).
  assert (Hx0 := Hx). rewrite EE in Hx0. apply elems_of_In in Hx0 as (s0 & Hs0 & Hxs0). apply elems_of_In in Hx as (t & Ht & Hxt).
  destruct (proj2 (HL (e_id x) (sg_id s0))) as (q & Qq & Eq & Etq); [exists s0, x; auto|].
  assert (Hq1 : forall q', Q q' -> e_id q' = e_id x -> q' = q) by (intros q' Q' E'; apply (so_uniq _ _ (c_i _ _ _ _ HC)); auto; congruence).
  assert (Hs1 : forall s, In s ss0 -> In x (sg_elems s) -> s = s0).
  { intros s Hs Hxs. apply In_nth_error in Hs as (i & Hi). assert (Hs0' := Hs0). apply In_nth_error in Hs0' as (j & Hj).
    assert (i = j) by exact (NoDup_elems_segs _ _ _ _ _ x (score_ok_nodup _ _ HS0) Hi Hj Hxs Hxs0). congruence. }
  apply In_nth_error in Ht as Ht'. destruct Ht' as (n & Hn).
  assert (Ht1 : forall i s, nth_error ss i = Some s -> In x (sg_elems s) -> i = n) by (intros i s Hi Hxs; exact (NoDup_elems_segs _ _ _ _ _ x (score_ok_nodup _ _ HS) Hi Hn Hxs Hxt)).
  set (us' := filter (fun u : upd_entry => f (fst u)) us).
  assert (Hlead : leads (fun q' => exists q, Q q /\ q' = upd1 now us' q) ss x <-> idx_get (build_idx ss) (e_tie (upd1 now us' q)) = n).
  { split.
    - intros (q' & s & (q2 & Q2 & ->) & E & Hi & Hxs). rewrite upd1_id in E. rewrite (Hq1 q2 Q2 E) in Hi. exact (Ht1 _ _ Hi Hxs).
    - intros E. exists (upd1 now us' q), t. split; [eauto|]. split; [rewrite upd1_id; exact Eq|]. rewrite E. auto. }
  rewrite Hlead. clear Hlead.
  assert (Hold : e_tie (upd1 now us' q) = sg_id s0 -> idx_get (build_idx ss) (e_tie (upd1 now us' q)) = n <-> stays ss0 ss x).
  { intros ->. split.
    - intros E. exists s0, t. split; [exact Hs0|]. split; [exact Hxs0|]. split; [exact Ht|]. split; [exact Hxt|].
      destruct (in_dec N.eq_dec (sg_id s0) (map sg_id ss)) as [Hin|Hno].
      + left. apply in_map_iff in Hin as (s & Es & Hs). apply In_nth_error in Hs as (i & Hi). rewrite <- Es, (idx_get_here _ _ _ Hnd Hi) in E. congruence.
      + right. split; [exact Hno|]. rewrite (idx_get_gone _ _ Hno) in E. rewrite E. exact Hn.
    - intros (s & t' & Hs & Hxs & Ht' & Hxt' & H). rewrite (Hs1 s Hs Hxs) in H. apply In_nth_error in Ht' as (i & Hi). assert (i = n) by exact (Ht1 i t' Hi Hxt'). subst i.
      assert (t' = t) by congruence. subst t'. destruct H as [E|(Hno & H0)].
      + rewrite <- E. apply idx_get_here; auto.
      + rewrite (idx_get_gone _ _ Hno). exact (Ht1 0%nat t H0 Hxt). }
  destruct (f (e_id x)) eqn:Ef.
  - split; [auto|]. intros _. assert (Etie : e_tie (upd1 now us' q) = sg_id t); [|rewrite Etie; apply idx_get_here; auto].
    unfold upd1. rewrite (HF q Qq), Eq.
    assert (Hf : assoc (e_id x) us' = assoc (e_id x) us).
    { unfold us'. clear -Ef. induction us as [|u r IH]; [reflexivity|]. cbn [filter]. destruct (N.eqb_spec (fst u) (e_id x)) as [E|E].
      - rewrite E, Ef. destruct u as (a & b). cbn in *. subst a. rewrite N.eqb_refl. reflexivity.
      - destruct u as (a & b). cbn [fst] in *. cbn [assoc]. apply N.eqb_neq in E. rewrite E. destruct (f a); [cbn [assoc]; rewrite E|]; exact IH. }
    rewrite Hf. destruct (j_at _ _ _ _ HM t x Ht Hxt) as [H|(H & s1 & Hs1' & Hx1 & E1)].
    + rewrite (assoc_in _ (sg_id t) us (j_nd _ _ _ _ HM) H). reflexivity.
    + rewrite assoc_not_in by exact H. rewrite Etq. rewrite <- E1. rewrite (Hs1 s1 Hs1' Hx1). reflexivity.
  - rewrite Hold; [intuition discriminate|]. unfold upd1. rewrite (HF q Qq), Eq.
    rewrite assoc_not_in; [exact Etq|]. intros C. apply in_map_iff in C as (u & Eu & Hu). apply filter_In in Hu as (_ & Hu). congruence.
Qed.

(** ** the pass *)
Definition rdb (rd : nat -> bool) (is : list seg) (id : N) : bool :=
  forallb (fun b : bool => b) (mapi (fun i s => negb ((sg_min s <=? id) && (id <=? sg_max s)) || rd i) is).
Lemma rdb_spec rd is id : rdb rd is id = true <-> id_readable rd is id.
Proof.
  unfold rdb, id_readable, files. rewrite forallb_forall. split.
  - intros H i s Hs (A & B). assert (Hin : In (negb ((sg_min s <=? id) && (id <=? sg_max s)) || rd i) (mapi (fun i s => negb ((sg_min s <=? id) && (id <=? sg_max s)) || rd i) is)).
    { apply (nth_error_In _ i). rewrite mapi_nth, Hs. reflexivity. }
    specialize (H _ Hin). apply N.leb_le in A, B. rewrite A, B in H. exact H.
  - intros H b Hb. apply In_nth_error in Hb as (i & Hi). rewrite mapi_nth in Hi. destruct (nth_error is i) as [s|] eqn:Es; [|discriminate].
    cbn in Hi. injection Hi as <-. destruct ((sg_min s <=? id) && (id <=? sg_max s)) eqn:E; [|reflexivity]. cbn. apply (H i s Es). lia.
Qed.

Definition reached (e : split_end) (rdx : nat -> bool) (is : list seg) (id : N) : bool :=
  match e with ScoresCut => false | UpdateCut => rdb rdx is id | _ => true end.
Definition relabel (now : N) (us : list upd_entry) (Q : element -> Prop) (q' : element) : Prop := exists q, Q q /\ q' = upd1 now us q.

Lemma split_loop_meta P s (ss : list seg) nx (upd : bool) : meta s -> score_ok P (ss_segs s) -> sok false (ss_id s) P ss nx \/ sok true (ss_id s) P ss nx ->
  (upd = false -> ss = ss_segs s) -> nx <= 4294967296 -> meta (mkSegs (ss_id s) ss nx (ss_index s) (if upd then [] else ss_idx s)).
Proof.
  intros HM HS HK Hu Hn. split; cbn [ss_id ss_segs ss_next ss_index ss_idx]; try (destruct HK as [HK|HK]; apply HK); try exact Hn; [|apply HM].
  destruct upd; [auto|]. rewrite (Hu eq_refl). apply HM.
Qed.

Lemma split_r_skew P Q l rds rdx rdi mg now : skew P Q l -> 0 < now < max_u32 ->
  (split_r rds rdx rdi mg now l = Exhausted /\
   (4294967296 < ss_next (l_scores l) + N.of_nat (length (ss_segs (l_scores l))) \/
    4294967296 < ss_next (l_index l) + N.of_nat (length (ss_segs (l_index l))))) \/
  exists l' e, split_r rds rdx rdi mg now l = Done (l', e) /\ contents l' = contents l /\
    (e = Full -> split_pass mg now l = Done l') /\
    ((forall i, rds i = true) -> (forall i, rdx i = true) -> (forall i, rdi i = true) -> e = Full) /\
    (ss_index (l_scores l') = ss_index (l_scores l) /\ l_merge l' = l_merge l /\ l_split l' = l_split l) /\
    exists us k, moved (ss_segs (l_scores l)) k (ss_segs (l_scores l')) us /\
      skew P (relabel now (filter (fun u : upd_entry => reached e rdx (ss_segs (l_index l)) (fst u)) us) Q) l'.
Proof.
  intros [HS HI HMs HMi] Hnow. pose proof (ic_i _ _ HI) as HQ.
  pose proof (meta_next_pos _ _ HMs HS) as Hps. pose proof (meta_next_pos _ _ HMi HQ) as Hpi.
  unfold split_r, split_pass. set (s := l_scores l) in *. set (x := l_index l) in *.
  destruct (split_loop_r_done rds false mg (l_merge l) (l_split l) now (length (ss_segs s)) 0 (ss_segs s) (ss_next s) [] false)
    as (ss & nx & us & upd & ok & E1 & B1); [lia|]. rewrite E1.
  assert (K0 : sok false (ss_id s) P (ss_segs s) (ss_next s)) by (apply meta_sok; auto; discriminate).
  destruct (split_loop_r_ok rds _ _ _ _ _ _ _ (ss_segs s) Hnow _ _ _ _ _ _ _ _ _ _ _ Hps K0 (moved_init _) E1)
    as (K1 & (k & M1) & EE1 & U1).
  assert (Hids : forall id, In id (map fst us) -> id <= max_u64).
  { intros id Hid. apply in_map_iff in Hid as ((i & t) & <- & H).
    destruct (moved_us _ _ _ _ _ _ M1 (score_ok_distinct _ _ (SplitP.k_s _ _ _ _ _ K1)) H) as (g & y & Hg & Hy & <- & _).
    destruct (score_ok_seg _ _ _ _ (SplitP.k_s _ _ _ _ _ K1) Hg Hy) as (Py & _). pose proof (good_ok _ (so_good _ _ HS y Py)) as Ho.
    unfold elem_ok in Ho. cbn. tauto. }
  assert (Hus : nx <= 4294967296 -> forall (f : upd_entry -> bool) id t, In (id, t) (filter f us) -> id <= max_u64 /\ t <= max_u32).
  { intros Hnx f id t H. apply filter_In in H as (H & _). split; [apply Hids; apply in_map_iff; exists (id, t); auto|].
    destruct (moved_us _ _ _ _ _ _ M1 (score_ok_distinct _ _ (SplitP.k_s _ _ _ _ _ K1)) H) as (g & y & Hg & Hy & _ & <-).
    pose proof (k_id _ _ _ _ _ K1) as Hk. rewrite Forall_forall in Hk. specialize (Hk g Hg). unfold max_u32. lia. }
  assert (Hfull : ok = true -> split_loop_segs (length (ss_segs s)) false mg (l_merge l) (l_split l) now 0 (ss_segs s) (ss_next s) [] false = Done (ss, nx, us, upd)).
  { intros ->. exact (split_loop_r_full _ _ _ _ _ _ _ _ _ _ _ _ _ _ _ _ E1). }
  assert (Hms : nx <= 4294967296 -> meta (mkSegs (ss_id s) ss nx (ss_index s) (if upd then [] else ss_idx s))).
  { intros Hnx. apply (split_loop_meta P); auto. intros ->. apply U1. reflexivity. }
  destruct (update_index_spec now us (ss_segs x) Q HQ (ic_al _ _ HI) (ic_form _ _ HI) (j_nd _ _ _ _ M1) Hids) as (F1 & F2 & F3).
  destruct (update_index_r_mix rdx now us (ss_segs x)) as (Y1 & Y2 & Y3).
  assert (Hform : forall us' q, relabel now us' Q q -> idx_elem q).
  { intros us' q (q0 & H0 & ->). unfold idx_elem. rewrite upd1_score, upd1_id, upd1_payload. apply (ic_form _ _ HI q0 H0). }
  assert (Hal : forall xs, map frame xs = map frame (ss_segs x) -> aligned xs).
  { intros xs Fx. unfold aligned. apply Forall_forall. intros g Hg. apply In_nth_error in Hg as (j & Hj).
    destruct (frames_nth _ _ _ _ Fx Hj) as (g0 & Hg0 & Fg). destruct (frame_eq _ _ Fg) as (_ & _ & _ & _ & _ & -> & ->).
    pose proof (ic_al _ _ HI) as HA. unfold aligned in HA. rewrite Forall_forall in HA. apply HA. eapply nth_error_In; eauto. }
  unfold guard_ids, ids_ok.
  destruct ok.
  2:{ (* scores cut *)
    cbn [set_both l_scores l_index ss_next]. destruct ((nx <=? 4294967296) && (ss_next x <=? 4294967296)) eqn:EG.
    2:{ left. split; [reflexivity|]. pose proof (m_next _ HMi). lia. }
    right. eexists _, ScoresCut. split; [reflexivity|]. split; [exact EE1|]. split; [discriminate|].
    split.
    { intros A _ _. exfalso. pose proof (split_loop_r_all rds _ _ _ _ _ A _ _ _ _ _ _ _ _ _ _ _ E1). discriminate. }
    split; [auto|]. apply andb_true_iff in EG as (EG1 & EG2). apply N.leb_le in EG1. exists us, k. split; [exact M1|]. cbn [reached]. split; cbn [set_both l_scores l_index ss_segs].
    - apply K1.
    - assert (Ef : filter (fun _ : upd_entry => false) us = []) by (clear; induction us; auto). rewrite Ef. split; [|apply (ic_al _ _ HI)|apply Hform].
      apply (relabel_ok now [] (ss_segs x) (ss_segs x) Q HQ (ic_al _ _ HI) (ic_form _ _ HI)); auto; [intros id t []|]. intros j g g' A B. replace g' with g by congruence.
      rewrite <- (map_id (sg_elems g)) at 1. reflexivity.
    - auto.
    - exact HMi. }
  destruct (update_index_r rdx now us (ss_segs x)) as (xs & ok2). cbn [fst snd] in *. destruct ok2.
  2:{ (* update cut *)
    cbn [set_both l_scores l_index ss_next set_segs]. destruct ((nx <=? 4294967296) && (ss_next x <=? 4294967296)) eqn:EG.
    2:{ left. split; [reflexivity|]. pose proof (m_next _ HMi). lia. }
    right. eexists _, UpdateCut. split; [reflexivity|]. split; [exact EE1|]. split; [discriminate|].
    split; [intros _ A _; specialize (Y3 A); discriminate|].
    split; [auto|]. apply andb_true_iff in EG as (EG1 & EG2). apply N.leb_le in EG1. exists us, k. split; [exact M1|]. cbn [reached].
    assert (HFx : map frame xs = map frame (ss_segs x)) by (rewrite Y1; apply mix_frame; exact F1).
    split; cbn [set_both l_scores l_index ss_segs set_segs].
    - apply K1.
    - split; [|apply Hal; exact HFx|apply Hform].
      apply (relabel_ok now _ (ss_segs x) xs Q HQ (ic_al _ _ HI) (ic_form _ _ HI)); auto; [apply Hus; exact EG1|]. intros j g g' A B.
      destruct (frames_sym_nth _ _ _ _ F1 A) as (g2 & Hg2 & _). rewrite Y1, (mix_nth rdx _ _ j g g2 (frames_length _ _ F1) A Hg2) in B. injection B as <-.
      assert (Hj : forall q, In q (sg_elems g) -> rdb rdx (ss_segs x) (e_score q) = rdx j).
      { intros q Hq. destruct (score_ok_seg _ _ _ _ HQ (nth_error_In _ _ A) Hq) as (Qq & Rq).
        destruct (ic_form _ _ HI q Qq) as (Es & _). pose proof (so_good _ _ HQ q Qq) as Gq.
        assert (Hb : rdb rdx (ss_segs x) (e_score q) = true <-> rdx j = true).
        { rewrite rdb_spec, Es, <- (to_read_id Q rdx (ss_segs x) q HI); [|apply good_good_in; exact Gq|exact Es]. split.
          - intros (i & t & Ht & Rt & Hr). rewrite (seg_unique _ _ j i g t q HQ A Ht Rq Rt). exact Hr.
          - intros Hr. exists j, g. auto. }
        destruct (rdb rdx (ss_segs x) (e_score q)), (rdx j); intuition congruence. }
      assert (Hup : forall q, In q (sg_elems g) -> upd1 now (filter (fun u : upd_entry => rdb rdx (ss_segs x) (fst u)) us) q = if rdx j then upd1 now us q else q).
      { intros q Hq. specialize (Hj q Hq). unfold upd1. destruct (rdx j).
        - replace (assoc (e_score q) (filter (fun u : upd_entry => rdb rdx (ss_segs x) (fst u)) us)) with (assoc (e_score q) us); [reflexivity|].
          clear -Hj. induction us as [|(a & b) r IH]; [reflexivity|]. cbn [filter assoc fst]. destruct (N.eqb_spec a (e_score q)) as [E|E].
          + subst a. rewrite Hj. cbn [assoc]. rewrite N.eqb_refl. reflexivity.
          + apply N.eqb_neq in E. destruct (rdb rdx (ss_segs x) a); [cbn [assoc]; rewrite E|]; exact IH.
        - rewrite assoc_not_in; [reflexivity|]. intros C. apply in_map_iff in C as (u & Eu & Hu). apply filter_In in Hu as (_ & Hu). congruence. }
      destruct (rdx j).
      + rewrite (F3 j g g2 A Hg2). apply map_ext_in. intros q Hq. symmetry. apply Hup. exact Hq.
      + rewrite <- (map_id (sg_elems g)) at 1. apply map_ext_in. intros q Hq. symmetry. apply Hup. exact Hq.
    - auto.
    - apply meta_step with now; auto; [rewrite Y1; apply mix_stepped; auto|apply HMi]. }
  specialize (Y2 eq_refl). assert (Lx : length xs = length (ss_segs x)) by (rewrite Y2; apply frames_length; exact F1).
  destruct (split_loop_r_done rdi true true (l_merge l) (l_split l) now (length xs) 0 xs (ss_next x) [] upd)
    as (is & nxi & us2 & updi & ok3 & E2 & B2); [lia|]. rewrite E2. cbn [set_both l_scores l_index ss_next].
  destruct ((nx <=? 4294967296) && (nxi <=? 4294967296)) eqn:EG.
  2:{ left. split; [reflexivity|]. lia. }
  right. eexists _, _. split; [reflexivity|]. split; [exact EE1|].
  split.
  { intros Ef. destruct ok3; [|discriminate]. rewrite (Hfull eq_refl), <- Y2, (split_loop_r_full _ _ _ _ _ _ _ _ _ _ _ _ _ _ _ _ E2).
    unfold guard_ids, ids_ok. cbn [set_both l_scores l_index ss_next]. rewrite EG. reflexivity. }
  split.
  { intros _ _ A. rewrite (split_loop_r_all rdi _ _ _ _ _ A _ _ _ _ _ _ _ _ _ _ _ E2). reflexivity. }
  split; [auto|]. apply andb_true_iff in EG as (EG1 & EG2). apply N.leb_le in EG1, EG2. exists us, k. split; [exact M1|].
  assert (Ef : filter (fun u : upd_entry => reached (if ok3 then Full else IndexCut) rdx (ss_segs x) (fst u)) us = us).
  { destruct ok3; cbn [reached]; clear; induction us as [|u r IH]; cbn; congruence. }
  rewrite Ef.
  assert (HQ' : score_ok (relabel now us Q) xs).
  { rewrite Y2. apply update_index_ok; auto; try apply HI; [apply (j_nd _ _ _ _ M1)|]. intros id t H. apply (Hus EG1 (fun _ => true)). apply filter_In. auto. }
  assert (HM' : meta (mkSegs (ss_id x) xs (ss_next x) (ss_index x) (ss_idx x))).
  { rewrite Y2. apply meta_step with now; auto. apply HMi. }
  assert (K2 : sok true (ss_id x) (relabel now us Q) xs (ss_next x)).
  { apply (meta_sok true _ _ HM'); auto. intros _. split; [apply Hal; rewrite Y2; exact F1|apply Hform]. }
  destruct (split_loop_r_ok rdi _ _ _ _ _ _ _ xs Hnow _ _ _ _ _ _ _ _ _ _ _ Hpi K2 (moved_init _) E2) as (K3 & _ & EE3 & U3).
  split; cbn [set_both l_scores l_index ss_segs].
  - apply K1.
  - split; [apply K3|apply (k_al _ _ _ _ _ K3 eq_refl)|apply Hform].
  - auto.
  - split; cbn [ss_id ss_segs ss_next ss_index ss_idx]; try apply K3; try apply HMi; [|exact EG2].
    destruct updi; [auto|]. destruct (U3 eq_refl) as (-> & -> & _). destruct (U1 eq_refl) as (_ & _ & Eus).
    assert (Exs : xs = ss_segs x) by (rewrite Y2, Eus; reflexivity). rewrite Exs. apply HMi.
Qed.

(** ** final forms *)
Lemma split_r_inv P l rds rdx rdi mg now l' e : Inv P l -> 0 < now < max_u32 -> split_r rds rdx rdi mg now l = Done (l', e) ->
  e = Full \/ e = IndexCut -> Inv P l'.
Proof.
  intros HI Hnow E He. destruct (inv_skew _ _ HI) as (Q & HC & HK).
  destruct (split_r_skew P Q l rds rdx rdi mg now HK Hnow) as [(E' & _)|(l1 & e1 & E' & EE & _ & _ & (S1 & S2 & S3) & us & k & HM & HK')]; [congruence|].
  rewrite E in E'. injection E' as <- <-.
  assert (Ef : filter (fun u : upd_entry => reached e rdx (ss_segs (l_index l)) (fst u)) us = us).
  { destruct He as [-> | ->]; cbn [reached]; clear; induction us as [|u r IH]; cbn; congruence. }
  rewrite Ef in HK'. destruct HK' as [HS' HI' HMs HMi].
  assert (Hn : l_scores_id l' = l_scores_id l /\ l_index_id l' = l_index_id l /\ ss_id (l_scores l') = ss_id (l_scores l) /\ ss_id (l_index l') = ss_id (l_index l) /\
     ss_index (l_index l') = ss_index (l_index l)).
  { clear - E HI. unfold split_r in E. destruct (split_loop_r rds _ _ _ _ _ _ _ _ _ _ _) as [((((ss & nx) & us) & upd) & ok)| | |]; try discriminate.
    destruct ok.
    - destruct (update_index_r rdx now us _) as (xs & ok2). destruct ok2.
      + destruct (split_loop_r rdi _ _ _ _ _ _ _ _ _ _ _) as [((((is & nxi) & us2) & updi) & ok3)| | |]; try discriminate.
        unfold guard_ids in E. destruct (ids_ok _); [|discriminate]. injection E as <- _. cbn. repeat split; apply HI.
      + unfold guard_ids in E. destruct (ids_ok _); [|discriminate]. injection E as <- _. cbn. repeat split; apply HI.
    - unfold guard_ids in E. destruct (ids_ok _); [|discriminate]. injection E as <- _. cbn. repeat split; apply HI. }
  destruct Hn as (N1 & N2 & N3 & N4 & N5).
  split; try assumption.
  - exists (relabel now us Q). split; try assumption; try apply HI'; [apply HMs|apply meta_ids; exact HMs|].
    eapply linked_moved; [exact HC|exact HS'|exact EE|exact HM].
  - rewrite S1. apply HI.
  - rewrite N5. apply HI.
  - rewrite N1, N3. apply HI.
  - rewrite N2, N4. apply HI.
  - rewrite S2, S3. apply HI.
Qed.

Lemma c68_split merge split l m rds rdx rdi mg now : reachable merge split l m -> tick now ->
  (exists l' e, split_r rds rdx rdi mg now l = Done (l', e) /\
     (e = Full -> step l (OSplit mg now) = Done l') /\
     ((forall i, rds i = true) -> (forall i, rdx i = true) -> (forall i, rdi i = true) -> e = Full) /\
     stored_in l' = stored_in l /\ heals l' /\
     ranks_all_finds (fun x => match e with
                               | ScoresCut => stays_led l l' x
                               | UpdateCut => stays_led l l' x \/ id_readable rdx (ss_segs (l_index l)) (e_id x)
                               | Full | IndexCut => True
                               end) l' (stored_in l')) \/
  (split_r rds rdx rdi mg now l = Exhausted /\
   (2 ^ 32 < ss_next (l_scores l) + N.of_nat (length (ss_segs (l_scores l))) \/
    2 ^ 32 < ss_next (l_index l) + N.of_nat (length (ss_segs (l_index l))))).
Proof.
  intros HR Hnow. pose proof (reach_Inv _ _ _ _ HR) as HI. destruct (inv_skew _ _ HI) as (Q & HC & HK).
  destruct (split_r_skew _ Q l rds rdx rdi mg now HK Hnow) as [(E' & H)|(l1 & e1 & E' & EE & HF & HA & (S1 & S2 & S3) & us & k & HM & HK')].
  { right. split; [exact E'|]. exact H. }
  left. exists l1, e1. split; [exact E'|]. split; [exact HF|]. split; [exact HA|]. rewrite !stored_contents. split; [exact EE|].
  split.
  { eapply skew_heals; [exact HK'|rewrite S1; apply HI|rewrite S2, S3; apply HI]. }
  rewrite EE. eapply finds_iff; [|rewrite <- EE; exact (skew_answers _ _ _ HK')]. intros x Hx. rewrite <- EE in Hx.
  pose proof (leads_moved now _ Q (ss_segs (l_scores l)) (ss_segs (l_scores l1)) _ us (fun id => reached e1 rdx (ss_segs (l_index l)) id) k HC
    (k_s _ _ _ HK') (m_nd _ (k_ms _ _ _ HK')) EE HM x Hx) as HL.
  fold (relabel now (filter (fun u : upd_entry => reached e1 rdx (ss_segs (l_index l)) (fst u)) us) Q) in HL.
  change (leads (relabel now (filter (fun u : upd_entry => reached e1 rdx (ss_segs (l_index l)) (fst u)) us) Q) (ss_segs (l_scores l1)) x <->
          match e1 with ScoresCut => stays_led l l1 x | UpdateCut => stays_led l l1 x \/ id_readable rdx (ss_segs (l_index l)) (e_id x) | Full | IndexCut => True end).
  etransitivity; [exact HL|]. unfold stays_led, stays. destruct e1; cbn [reached].
  - tauto.
  - intuition discriminate.
  - rewrite rdb_spec. tauto.
  - tauto.
Qed.

Lemma skew_reindex P Q l ni now sc l2 : skew P Q l -> ss_index (l_scores l) = false -> ss_id (l_scores l) = l_scores_id l -> (l_merge l < l_split l)%nat ->
  (2 <= l_merge l + l_split l)%nat -> ni <> ""%string -> 0 < now < max_u32 -> reindex_list ni now sc l = Done l2 ->
  Inv P l2 /\ contents l2 = contents l /\ l_merge l2 = l_merge l /\ l_split l2 = l_split l.
Proof.
  intros [HS HI HMs HMi] Hfs Hns Hms Hsz Hni Hnow E. unfold reindex_list in E.
  assert (Hszp : (0 < (l_merge l + l_split l) / 2)%nat) by (apply Nat.div_str_pos; lia).
  destruct (index_build P (ss_segs (l_scores l)) ni now ((l_merge l + l_split l) / 2)%nat
     (concat (permute sc (map (fun s => element_ids (sg_elems s) (sg_id s)) (ss_segs (l_scores l))))) HS (m_nd _ HMs) (meta_ids _ HMs))
    as (parts & s & ix & E1 & E2 & HB & HI2 & HC' & HN).
  { rewrite flat_map_concat_map. apply Permutation_concat, permute_perm. }
  { exact Hszp. }
  unfold element_index_all in E. rewrite E1, E2 in E. unfold guard_ids in E. destruct (ids_ok _) eqn:EG; [|discriminate]. injection E as <-.
  unfold ids_ok in EG. cbn [set_both l_scores l_index] in EG. apply andb_true_iff in EG as (_ & EG). apply N.leb_le in EG.
  split; [|cbn; auto].
  split; cbn [set_both l_scores l_index l_scores_id l_index_id l_merge l_split]; auto.
  - eexists. exact HC'.
  - eapply built_meta; eauto.
Qed.
Lemma split_r_ids rds rdx rdi mg now l l' e : split_r rds rdx rdi mg now l = Done (l', e) -> ss_id (l_scores l') = l_scores_id l'.
Proof.
  intros E. unfold split_r in E. destruct (split_loop_r rds _ _ _ _ _ _ _ _ _ _ _) as [((((ss & nx) & us) & upd) & ok)| | |]; try discriminate.
  destruct ok.
  - destruct (update_index_r rdx now us _) as (xs & ok2). destruct ok2.
    + destruct (split_loop_r rdi _ _ _ _ _ _ _ _ _ _ _) as [((((is & nxi) & us2) & updi) & ok3)| | |]; try discriminate.
      unfold guard_ids in E. destruct (ids_ok _); [|discriminate]. injection E as <- _. reflexivity.
    + unfold guard_ids in E. destruct (ids_ok _); [|discriminate]. injection E as <- _. reflexivity.
  - unfold guard_ids in E. destruct (ids_ok _); [|discriminate]. injection E as <- _. reflexivity.
Qed.

Definition kept_up (P : element -> Prop) (sound : bool) (l : lst) : Prop :=
  (if sound then Inv P l else exists Q, skew P Q l) /\ ss_index (l_scores l) = false /\ ss_id (l_scores l) = l_scores_id l.
Lemma kept_up_skew P b l : kept_up P b l -> exists Q, skew P Q l.
Proof. intros (H & _). destruct b; [|exact H]. destruct (inv_skew _ _ H) as (Q & _ & HK). eauto. Qed.

Lemma run_upkeep_ok P calls : Forall upkeep_ok calls -> forall sound l l' b, kept_up P sound l -> (l_merge l < l_split l)%nat -> (2 <= l_merge l + l_split l)%nat ->
  run_upkeep calls sound l = Done (l', b) -> kept_up P b l' /\ contents l' = contents l /\ l_merge l' = l_merge l /\ l_split l' = l_split l.
Proof.
  induction 1 as [|u r Hu Hr IH]; intros sound l l' b HK Hms Hsz E; cbn [run_upkeep] in E; [injection E as <- <-; auto|].
  destruct (kept_up_skew _ _ _ HK) as (Q & HQ). destruct HK as (HK & Hf & Hn). destruct u as [rds rdx rdi mg now|rd ni now sc]; cbn [upkeep_ok] in Hu.
  - destruct (split_r rds rdx rdi mg now l) as [(l1 & e)| | |] eqn:E1; try discriminate.
    destruct (split_r_skew P Q l rds rdx rdi mg now HQ Hu) as [(E' & _)|(l2 & e2 & E' & EE & _ & _ & (S1 & S2 & S3) & us & k & _ & HK')]; [congruence|].
    rewrite E1 in E'. injection E' as <- <-.
    assert (HK1 : kept_up P (match e with Full | IndexCut => sound | _ => false end) l1).
    { split; [|split; [congruence|exact (split_r_ids _ _ _ _ _ _ _ _ E1)]].
      destruct e, sound; try (eexists; exact HK'); eapply split_r_inv; eauto. }
    destruct (IH _ _ _ _ HK1 ltac:(lia) ltac:(lia) E) as (A & B & C & D). split; [exact A|]. split; [congruence|]. split; congruence.
  - destruct Hu as (Hni & Hnow). unfold reindex_r in E. destruct (forallb rd _).
    + destruct (reindex_list ni now sc l) as [l1| | |] eqn:E1; try discriminate.
      destruct (skew_reindex P Q l ni now sc l1 HQ Hf Hn Hms Hsz Hni Hnow E1) as (HI1 & EE & S2 & S3). rewrite orb_true_r in E.
      destruct (IH true l1 l' b) as (A & B & C & D); [split; [exact HI1|split; apply HI1]|lia|lia|exact E|]. split; [exact A|]. split; [congruence|]. split; congruence.
    + rewrite orb_false_r in E. apply (IH sound l l' b); auto. split; auto.
Qed.

Lemma c68_upkeep merge split l m calls l' sound : reachable merge split l m -> (2 <= merge + split)%nat -> Forall upkeep_ok calls ->
  run_upkeep calls true l = Done (l', sound) ->
  stored_in l' = stored_in l /\ (exists found, ranks_all_finds found l' (stored_in l')) /\ heals l' /\ (sound = true -> answers l' (stored_in l') /\ verify l' = true /\ verify_elements l' = true).
Proof.
  intros HR Hsz Hc E. destruct (reach_inv _ _ _ _ HR) as (HI & Em & Es).
  assert (HK : kept_up (sin m) true l) by (split; [exact HI|split; apply HI]).
  destruct (run_upkeep_ok _ _ Hc _ _ _ _ HK (i_sz _ _ HI) ltac:(lia) E) as (HK' & EE & S2 & S3).
  rewrite !stored_contents. split; [exact EE|]. destruct (kept_up_skew _ _ _ HK') as (Q & HQ). split; [eexists; apply (skew_answers _ _ _ HQ)|].
  split.
  { eapply skew_heals; [exact HQ|apply HK'|rewrite S2, S3; apply HI]. }
  intros ->. destruct HK' as (HI' & _). split; [|apply (verify_complete _ _ HI')]. apply (inv_answers _ _ _ HI'). exact (contents_ranking _ _ HI').
Qed.
