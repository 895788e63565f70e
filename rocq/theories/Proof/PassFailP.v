(** Split passes while writes fail. *)
From Coq Require Import Strings.String.
From Verif.Lib Require Import Prelude ListAux ListLemmas SortLemmas Perm.
From Verif.Model Require Import Element Elements Segment List Fails ReadFail PassFail.
From Verif.Spec Require Import RankSpec QuerySpec HistorySpec AnswerSpec ReadFailSpec PassSpec.
From Verif.Proof Require Import ElementP ElementsP ElementsThm SegP InvDef QueryP LookupP ChangeP UpdateP UpdateInv DeleteP BuildP
  SplitP IdxUpdP SplitInv AnswerP HistoryP ListThm ReadFailP UpdateReadP SkewP DeleteReadP InsertReadP DelInsThm VerifyP SplitReadP.
Open Scope N_scope.

Definition but (k : nat) (i : nat) : bool := negb (Nat.eqb i k).
Lemma but_lt k i : (i < k)%nat -> but k i = true.
Proof. intros H. unfold but. destruct (Nat.eqb_spec i k); [lia|reflexivity]. Qed.
Lemma but_eq k : but k k = false.
Proof. unfold but. rewrite Nat.eqb_refl. reflexivity. Qed.

(** ** a loop that ends early is a loop whose reads fail there, and the failing step *)
Definition stopped (h isidx : bool) (fa fb : nat -> fate) (now : N) (lb : list seg) (nb : N) (w : wstop) (l' : list seg) (n' : N) : Prop :=
  match w with
  | WAll => False
  | WMerge k => exists p s, (1 <= k)%nat /\ nth_error lb (k - 1) = Some p /\ nth_error lb k = Some s /\ is_ok (fa k) = false /\
      l' = merge_cut h (fa k) now k p s lb /\ n' = nb
  | WSplit k sec _ _ => exists s s1 s2 ch f, nth_error lb k = Some s /\ split_seg isidx nb now s = Some (s1, s2, ch) /\
      f = (if sec then fb k else fa k) /\ is_ok f = false /\ (l', w) = split_cut h isidx (negb sec) f now k s s1 s2 lb /\ n' = nb + 1
  end.
Definition stop_at (w : wstop) : nat := match w with WAll => 0%nat | WMerge k | WSplit k _ _ _ => k end.

Lemma split_loop_w_ok h fa fb isidx merge ms sz now : forall fuel i l next us upd l' n' us' upd' w,
  split_loop_w h fa fb fuel isidx merge ms sz now i l next us upd = Done (l', n', us', upd', w) ->
  (w = WAll /\ split_loop_segs fuel isidx merge ms sz now i l next us upd = Done (l', n', us', upd')) \/
  (w <> WAll /\ (i <= stop_at w)%nat /\ exists lb nb usb ub,
     split_loop_r (but (stop_at w)) fuel isidx merge ms sz now i l next us upd = Done (lb, nb, usb, ub, false) /\
     stopped h isidx fa fb now lb nb w l' n').
Proof.
  induction fuel as [|f IH]; intros i l next us upd l' n' us' upd' w E; cbn [split_loop_w split_loop_segs split_loop_r] in *.
  - destruct (nth_error l i); [discriminate|]. left. split; congruence.
  - destruct (nth_error l i) as [s|] eqn:Es; [|left; split; congruence].
    assert (Hgo : forall i2 l2 next2 us2 upd2, (i < i2)%nat ->
      split_loop_w h fa fb f isidx merge ms sz now i2 l2 next2 us2 upd2 = Done (l', n', us', upd', w) ->
      (w = WAll /\ split_loop_segs f isidx merge ms sz now i2 l2 next2 us2 upd2 = Done (l', n', us', upd')) \/
      (w <> WAll /\ (i < stop_at w)%nat /\ exists lb nb usb ub,
         split_loop_r (but (stop_at w)) f isidx merge ms sz now i2 l2 next2 us2 upd2 = Done (lb, nb, usb, ub, false) /\
         stopped h isidx fa fb now lb nb w l' n')).
    { intros i2 l2 next2 us2 upd2 Hi E2. destruct (IH _ _ _ _ _ _ _ _ _ _ E2) as [H|(A & B & C)]; [left; exact H|right]. split; [exact A|]. split; [lia|exact C]. }
    destruct (Nat.ltb (sg_n s) sz).
    + destruct (if merge then i else O) as [|j] eqn:Ej.
      { apply Hgo in E; [|lia]. destruct E as [E|(A & B & C)]; [left; exact E|right; split; [exact A|split; [lia|exact C]]]. }
      destruct (nth_error l (i - 1)) as [p|] eqn:Ep.
      2:{ apply Hgo in E; [|lia]. destruct E as [E|(A & B & C)]; [left; exact E|right; split; [exact A|split; [lia|exact C]]]. }
      destruct (Nat.ltb ms (sg_n s + sg_n p)).
      { apply Hgo in E; [|lia]. destruct E as [E|(A & B & C)]; [left; exact E|right; split; [exact A|split; [lia|exact C]]]. }
      destruct (is_ok (fa i)) eqn:Ef.
      * destruct (merge_segs now p s) as (m & ch).
        apply Hgo in E; [|lia]. destruct E as [E|(A & B & C)]; [left; exact E|right; split; [exact A|split; [lia|]]].
        rewrite but_lt by lia. exact C.
      * injection E as <- <- <- <- <-. right. split; [discriminate|]. cbn [stop_at]. split; [lia|]. rewrite but_eq.
        do 4 eexists. split; [reflexivity|]. cbn [stopped]. exists p, s. assert (1 <= i)%nat by (destruct merge; [lia|discriminate]). auto 10.
    + destruct (split_seg isidx next now s) as [((s1 & s2) & ch)|] eqn:Esp.
      * destruct (is_ok (fa i)) eqn:Ea; [destruct (is_ok (fb i)) eqn:Eb|].
        -- apply Hgo in E; [|lia]. destruct E as [E|(A & B & C)]; [left; exact E|right; split; [exact A|split; [lia|]]].
           rewrite but_lt by lia. exact C.
        -- right. destruct (split_cut h isidx false (fb i) now i s s1 s2 l) as (lc & wc) eqn:Ec. injection E as <- <- <- <- <-.
           assert (Hw : exists lk ms0, wc = WSplit i true lk ms0) by (unfold split_cut in Ec; destruct isidx; injection Ec as _ <-; eauto).
           destruct Hw as (lk & ms0 & ->). split; [discriminate|]. cbn [stop_at]. split; [lia|]. rewrite but_eq. do 4 eexists. split; [reflexivity|].
           cbn [stopped negb]. exists s, s1, s2, ch, (fb i). auto 10.
        -- right. destruct (split_cut h isidx true (fa i) now i s s1 s2 l) as (lc & wc) eqn:Ec. injection E as <- <- <- <- <-.
           assert (Hw : exists lk ms0, wc = WSplit i false lk ms0) by (unfold split_cut in Ec; destruct isidx; injection Ec as _ <-; eauto).
           destruct Hw as (lk & ms0 & ->). split; [discriminate|]. cbn [stop_at]. split; [lia|]. rewrite but_eq. do 4 eexists. split; [reflexivity|].
           cbn [stopped negb]. exists s, s1, s2, ch, (fa i). auto 10.
      * destruct isidx.
        -- apply Hgo in E; [|lia]. destruct E as [E|(A & B & C)]; [left; exact E|right; split; [exact A|split; [lia|]]].
           rewrite but_lt by lia. exact C.
        -- apply Hgo in E; [|lia]. destruct E as [E|(A & B & C)]; [left; exact E|right; split; [exact A|split; [lia|]]].
           rewrite but_lt by lia. exact C.
Qed.

Lemma split_loop_w_done h fa fb isidx merge ms sz now : forall fuel i l next us upd,
  (length l <= i + fuel)%nat ->
  exists l' next' us' upd' w, split_loop_w h fa fb fuel isidx merge ms sz now i l next us upd = Done (l', next', us', upd', w) /\
    next <= next' <= next + N.of_nat (length l - i).
Proof.
  induction fuel as [|f IH]; intros i l next us upd Hf; cbn [split_loop_w].
  - destruct (nth_error l i) eqn:E; [|do 5 eexists; split; [reflexivity|lia]].
    assert (i < length l)%nat by (apply nth_error_Some; congruence). lia.
  - destruct (nth_error l i) as [s|] eqn:E; [|do 5 eexists; split; [reflexivity|lia]].
    assert (Hi : (i < length l)%nat) by (apply nth_error_Some; congruence).
    assert (Hdef : forall l2 us2 upd2 i2, (length l2 <= length l)%nat -> (S i <= i2)%nat ->
      exists l' next' us' upd' ok', split_loop_w h fa fb f isidx merge ms sz now i2 l2 next us2 upd2 = Done (l', next', us', upd', ok') /\
                 next <= next' <= next + N.of_nat (length l - i)).
    { intros l2 us2 upd2 i2 L2 I2. destruct (IH i2 l2 next us2 upd2) as (l' & n' & u' & b' & o' & A & B); [lia|]. do 5 eexists; split; [exact A|lia]. }
    destruct (Nat.ltb (sg_n s) sz).
    + destruct (if merge then i else O) as [|j]; [apply Hdef; lia|].
      destruct (nth_error l (i - 1)) as [p|]; [|apply Hdef; lia].
      destruct (Nat.ltb ms (sg_n s + sg_n p)); [apply Hdef; lia|].
      destruct (is_ok (fa i)); [|do 5 eexists; split; [reflexivity|lia]]. destruct (merge_segs now p s) as (m & ch).
      apply Hdef; [|lia]. rewrite del_nth_length; rewrite upd_nth_length; lia.
    + destruct (split_seg isidx next now s) as [((s1 & s2) & ch)|].
      * destruct (is_ok (fa i)); [destruct (is_ok (fb i))|].
        -- edestruct IH as (l' & n' & u' & b' & o' & A & B).
           2: { do 5 eexists. split; [exact A|]. rewrite ins_nth_length, upd_nth_length in B. lia. }
           rewrite ins_nth_length, upd_nth_length. lia.
        -- destruct (split_cut _ _ _ _ _ _ _ _ _ _) as (lc & wc). do 5 eexists; split; [reflexivity|lia].
        -- destruct (split_cut _ _ _ _ _ _ _ _ _ _) as (lc & wc). do 5 eexists; split; [reflexivity|lia].
      * destruct isidx; apply Hdef; rewrite ?upd_nth_length; lia.
Qed.
Lemma split_loop_w_kept h fa fb isidx merge ms sz now : (forall i, fa i = Kept) -> (forall i, fb i = Kept) -> forall fuel i l next us upd l' n' us' upd' w,
  split_loop_w h fa fb fuel isidx merge ms sz now i l next us upd = Done (l', n', us', upd', w) -> w = WAll.
Proof.
  intros Ha Hb fuel i l next us upd l' n' us' upd' w E. destruct (split_loop_w_ok _ _ _ _ _ _ _ _ _ _ _ _ _ _ _ _ _ _ _ E) as [(H & _)|(A & B & lb & nb & usb & ub & _ & C)]; [exact H|].
  destruct w as [|k|k sec lk m0]; cbn [stopped] in C; [reflexivity| |].
  - destruct C as (p & s & _ & _ & _ & C & _). rewrite Ha in C. discriminate.
  - destruct C as (s & s1 & s2 & ch & f & _ & _ & Ef & C & _). rewrite Ha, Hb in Ef. destruct sec; subst f; discriminate.
Qed.

(** ** the failing step *)
Lemma merge_cut_form h f now a p s b : merge_cut h f now (S (length a)) p s (a ++ p :: s :: b) =
  a ++ set_elems (left_in h f (sg_elems p)) (fst (merge_segs now p s)) :: b.
Proof.
  unfold merge_cut. replace (S (length a) - 1)%nat with (length a) by lia. rewrite upd_nth_mid. set (m := set_elems _ _).
  replace (S (length a)) with (length (a ++ [m])) by (rewrite app_length; cbn; lia).
  replace (a ++ m :: s :: b) with ((a ++ [m]) ++ s :: b) by (rewrite <- app_assoc; reflexivity).
  rewrite del_nth_mid, <- app_assoc. reflexivity.
Qed.
Lemma split_ins_form (a b : list seg) s x1 x2 : ins_nth (S (length a)) x2 (upd_nth (length a) (fun _ => x1) (a ++ s :: b)) = a ++ x1 :: x2 :: b.
Proof.
  rewrite upd_nth_mid. replace (S (length a)) with (length (a ++ [x1])) by (rewrite app_length; cbn; lia).
  replace (a ++ x1 :: b) with ((a ++ [x1]) ++ b) by (rewrite <- app_assoc; reflexivity). rewrite ins_nth_mid, <- app_assoc. reflexivity.
Qed.

Lemma split_seg_halves isidx id now s s1 s2 ch : split_seg isidx id now s = Some (s1, s2, ch) ->
  sg_elems s = sg_elems s1 ++ sg_elems s2 /\ sg_n s1 = length (sg_elems s1) /\ sg_n s2 = length (sg_elems s2).
Proof.
  unfold split_seg. intros E. assert (Hpos : sg_elems s <> [] -> (0 < (length (sg_elems s) + 1) / 2)%nat).
  { intros H. apply Nat.div_str_pos. destruct (sg_elems s); cbn in *; [congruence|lia]. }
  destruct (sg_elems s) as [|x r] eqn:Ee; [cbn in E; discriminate|]. rewrite <- Ee in *. assert (Hne : sg_elems s <> []) by (rewrite Ee; discriminate).
  destruct (split_size_spec (sg_elems s) _ (Hpos Hne)) as (parts & E1 & E2 & _). rewrite E1 in E.
  destruct parts as [|p [|q [|? ?]]]; try discriminate. destruct q as [|e q]; [discriminate|].
  destruct (min_max (e :: q)) as (((mn & mx) & mnt) & mxt). destruct (if isidx then _ else _) as (a & b). destruct (above_this _ _) as (c & d).
  injection E as <- <- _. cbn [sg_elems sg_n]. rewrite <- E2. cbn [concat]. rewrite app_nil_r. auto.
Qed.

Lemma not_kept f : is_ok f = false -> f = Refused \/ f = Unsure.
Proof. destruct f; [discriminate|auto|auto]. Qed.

Lemma stopped_scores h fa fb now lb nb w l' n' : stopped h false fa fb now lb nb w l' n' -> cnt_ok lb ->
  is_ok (ended_by fa fb w) = false /\ n' <= nb + 1 /\ nb <= n' /\
  exists u v x, elems_of lb = u ++ v ++ x /\ elems_of l' = u ++ (if misses h (ended_by fa fb w) w then [] else v) ++ x /\ count l' = count lb /\
    forall k, In k (locked_at w) \/ In k (missing_at w) -> exists s, nth_error l' k = Some s /\ sg_n s = length v /\ sg_elems s = [].
Proof.
  intros H Hc. destruct w as [|k|k sec lk ms]; cbn [stopped] in H; [contradiction| |].
  - destruct H as (p & s & Hk & Hp & Hs & Hf & -> & ->). cbn [ended_by]. split; [exact Hf|]. split; [lia|]. split; [lia|].
    destruct k as [|k]; [lia|]. replace (S k - 1)%nat with k in Hp by lia. apply nth_split_eq in Hp as (a & c & El & La). subst k lb.
    rewrite nth_error_app2 in Hs by lia. replace (S (length a) - length a)%nat with 1%nat in Hs by lia. destruct c as [|s0 b]; [discriminate|]. cbn in Hs. injection Hs as ->.
    rewrite merge_cut_form. exists (elems_of a ++ sg_elems p), (sg_elems s), (elems_of b).
    rewrite !elems_of_app, !elems_of_cons, !count_app, !count_cons. cbn [set_elems sg_elems sg_n merge_segs fst touch].
    apply Forall_app in Hc as (_ & Hc). inversion Hc as [|? ? Hc1 Hc2]; subst. inversion Hc2 as [|? ? Hc3 _]; subst.
    split; [rewrite <- !app_assoc; reflexivity|]. split.
    { destruct (not_kept _ Hf) as [E|E]; rewrite E; cbn [left_in is_ok reaches misses]; destruct h; rewrite <- ?app_assoc; reflexivity. }
    split; [rewrite app_length; lia|]. cbn. intuition.
  - destruct H as (s & s1 & s2 & ch & f & Hs & Hsp & Ef & Hf & Ew & ->).
    destruct (split_seg_halves _ _ _ _ _ _ _ Hsp) as (Ee & N1 & N2). apply nth_split_eq in Hs as (a & b & -> & <-).
    apply Forall_app in Hc as (_ & Hc). inversion Hc as [|? ? Hc1 _]; subst.
    assert (Een : ended_by fa fb (WSplit (length a) sec lk ms) = if sec then fb (length a) else fa (length a)) by (destruct sec; reflexivity).
    rewrite Een. split; [exact Hf|]. split; [lia|]. split; [lia|]. clear Een.
    exists (elems_of a ++ sg_elems s1), (sg_elems s2), (elems_of b).
    split; [rewrite elems_of_app, elems_of_cons, Ee, <- !app_assoc; reflexivity|]. rewrite count_app, count_cons.
    unfold split_cut in Ew. destruct sec; cbn [negb] in Ew; cbv beta iota zeta in Ew.
    + rewrite split_ins_form in Ew; injection Ew as -> -> ->. rewrite elems_of_app, !elems_of_cons, count_app, !count_cons. cbn [sg_elems touch].
      destruct (not_kept _ Hf) as [E|E]; rewrite E; cbn [reaches misses locked_at missing_at set_elems sg_elems touch sg_n].
      * split; [rewrite <- !app_assoc; reflexivity|]. split; [rewrite Hc1, Ee, app_length; lia|]. intros k [[]|[<-|[]]].
        rewrite nth_error_app2 by lia. replace (S (length a) - length a)%nat with 1%nat by lia. cbn. eauto.
      * split; [rewrite <- !app_assoc; reflexivity|]. split; [rewrite Hc1, Ee, app_length; lia|]. intros k [[]|[]].
    + rewrite split_ins_form in Ew; injection Ew as -> -> ->. rewrite elems_of_app, !elems_of_cons, count_app, !count_cons. cbn [sg_elems touch set_elems].
      cbn [locked_at missing_at misses sg_n touch set_elems]. split.
      { destruct (not_kept _ Hf) as [E|E]; rewrite E; cbn [left_in is_ok reaches misses]; destruct h; cbn [negb]; rewrite ?Ee, <- !app_assoc; reflexivity. }
      split; [rewrite Hc1, Ee, app_length; lia|]. intros k [[<-|[]]|[]].
      rewrite nth_error_app2 by lia. replace (S (length a) - length a)%nat with 1%nat by lia. cbn. eauto.
Qed.

(** ** the index update *)
Lemma update_index_w_frame h fs now us l : length (fst (update_index_w h fs now us l)) = length l.
Proof.
  unfold update_index_w. destruct us as [|u r] eqn:E; [reflexivity|]. rewrite <- E. cbn zeta. cbn [fst]. set (gs := cut_groups _ _). clearbody gs. revert l. induction gs as [|g gs IH]; intros l; cbn [fold_left]; [reflexivity|].
  rewrite IH. destruct (snd g); [reflexivity|apply upd_nth_length].
Qed.
Lemma update_index_w_kept h fs now us l : snd (update_index_w h fs now us l) = true -> fst (update_index_w h fs now us l) = update_index_elements now us l.
Proof.
  unfold update_index_w, update_index_elements. destruct us as [|u r] eqn:E; [reflexivity|]. rewrite <- E. cbn zeta. cbn [fst snd].
  set (gs := cut_groups _ _). clearbody gs. revert l. induction gs as [|g gs IH]; intros l H; cbn [fold_left forallb] in *; [reflexivity|].
  apply andb_true_iff in H as (H1 & H2). rewrite IH by exact H2. f_equal. destruct (snd g); [reflexivity|].
  assert (Hr : reaches (fs (fst g)) = true) by (destruct (fs (fst g)); [reflexivity|discriminate|reflexivity]). rewrite Hr, orb_true_r. reflexivity.
Qed.
Lemma update_index_w_all h fs now us l : (forall i, fs i = Kept) -> snd (update_index_w h fs now us l) = true.
Proof.
  intros H. unfold update_index_w. destruct us; [reflexivity|]. cbn [snd]. apply forallb_forall. intros g _. destruct (snd g); [reflexivity|]. rewrite H. reflexivity.
Qed.

(** ** a list with good scores and any index is healed by Reindex *)
Lemma reindex_any ni now sc l s a b : reindex_list ni now sc (set_both l s a) = reindex_list ni now sc (set_both l s b).
Proof. reflexivity. Qed.
Lemma heals_any l s a b : heals (set_both l s a) -> heals (set_both l s b).
Proof. intros H ni now sc A B C D. exact (H ni now sc A B C D). Qed.

(** a split pass up to the index *)
Definition none_r (_ : nat) : bool := false.
Lemma split_loop_r_none isidx merge ms sz now : forall fuel i l next us upd,
  (length l <= i + fuel)%nat -> exists l' ok, split_loop_r none_r fuel isidx merge ms sz now i l next us upd = Done (l', next, us, upd, ok).
Proof.
  induction fuel as [|f IH]; intros i l next us upd Hf; cbn [split_loop_r].
  - destruct (nth_error l i) eqn:E; [|eauto]. assert (i < length l)%nat by (apply nth_error_Some; congruence). lia.
  - destruct (nth_error l i) as [s|] eqn:E; [|eauto]. cbn [none_r].
    destruct (Nat.ltb (sg_n s) sz); [|eauto]. destruct (if merge then i else O) as [|j]; [apply IH; lia|].
    destruct (nth_error l (i - 1)) as [p|]; [|apply IH; lia]. destruct (Nat.ltb ms (sg_n s + sg_n p)); [apply IH; lia|eauto].
Qed.

Definition all_r (_ : nat) : bool := true.
Lemma split_loop_segs_r isidx merge ms sz now fuel i l next us upd l' n' us' upd' : (length l <= i + fuel)%nat ->
  split_loop_segs fuel isidx merge ms sz now i l next us upd = Done (l', n', us', upd') ->
  split_loop_r all_r fuel isidx merge ms sz now i l next us upd = Done (l', n', us', upd', true).
Proof.
  intros Hf E. destruct (split_loop_r_done all_r isidx merge ms sz now fuel i l next us upd Hf) as (l2 & n2 & u2 & b2 & ok & E2 & _).
  pose proof (split_loop_r_all all_r _ _ _ _ _ (fun _ => eq_refl) _ _ _ _ _ _ _ _ _ _ _ E2) as ->.
  pose proof (split_loop_r_full _ _ _ _ _ _ _ _ _ _ _ _ _ _ _ _ E2) as E3. congruence.
Qed.

(** good scores after the first loop, whole or cut by a read, with an index that is good for itself *)
Lemma scores_loop P Q l rds mg now ss nx us upd ok : skew P Q l -> 0 < now < max_u32 ->
  split_loop_r rds (length (ss_segs (l_scores l))) false mg (l_merge l) (l_split l) now 0 (ss_segs (l_scores l)) (ss_next (l_scores l)) [] false = Done (ss, nx, us, upd, ok) ->
  nx <= 4294967296 ->
  let s' := mkSegs (ss_id (l_scores l)) ss nx (ss_index (l_scores l)) (if upd then [] else ss_idx (l_scores l)) in
  elems_of ss = contents l /\ cnt_ok ss /\ score_ok P ss /\ exists x Q', skew P Q' (set_both l s' x).
Proof.
  intros HK Hnow E Hnx. cbn zeta. set (s' := mkSegs _ ss nx _ _).
  assert (H : exists x e, split_r rds none_r none_r mg now l = Done (set_both l s' x, e)).
  { unfold split_r. rewrite E. fold s'. pose proof (m_next _ (k_mi _ _ _ HK)) as Hi. destruct ok.
    - destruct (update_index_r none_r now us (ss_segs (l_index l))) as (xs & ok2) eqn:Eu. destruct ok2.
      + destruct (split_loop_r_none true true (l_merge l) (l_split l) now (length xs) 0 xs (ss_next (l_index l)) [] upd) as (is & ok3 & E2); [lia|].
        rewrite E2. unfold guard_ids, ids_ok. cbn [set_both l_scores l_index ss_next s']. rewrite (proj2 (N.leb_le _ _) Hnx), (proj2 (N.leb_le _ _) Hi). cbn. eauto.
      + unfold guard_ids, ids_ok. cbn [set_both l_scores l_index ss_next s' set_segs]. rewrite (proj2 (N.leb_le _ _) Hnx), (proj2 (N.leb_le _ _) Hi). cbn. eauto.
    - unfold guard_ids, ids_ok. cbn [set_both l_scores l_index ss_next s']. rewrite (proj2 (N.leb_le _ _) Hnx), (proj2 (N.leb_le _ _) Hi). cbn. eauto. }
  destruct H as (x & e & H).
  destruct (split_r_skew P Q l rds none_r none_r mg now HK Hnow) as [(E' & _)|(l1 & e1 & E' & EE & _ & _ & _ & us1 & k & _ & HK')]; [congruence|].
  rewrite H in E'. injection E' as <- <-. split; [exact EE|]. split; [exact (meta_cnt _ (k_ms _ _ _ HK'))|]. split; [exact (k_s _ _ _ HK')|]. eauto.
Qed.

Lemma split_w_ok P Q l hs hx f mg now : Inv P l -> skew P Q l -> 0 < now < max_u32 ->
  (split_w hs hx f mg now l = Exhausted /\
   (4294967296 < ss_next (l_scores l) + N.of_nat (length (ss_segs (l_scores l))) \/
    4294967296 < ss_next (l_index l) + N.of_nat (length (ss_segs (l_index l))))) \/
  exists l' e, split_w hs hx f mg now l = Done (l', e) /\ (all_kept f -> e = PAll) /\
    l_merge l' = l_merge l /\ l_split l' = l_split l /\
    match e with
    | PAll => split_pass mg now l = Done l'
    | PMeta => split_pass mg now l = Done l' /\ (p_ms f <> Kept \/ p_mx f <> Kept)
    | PUpdate => contents l' = contents l /\ heals l' /\ exists i, p_upd f i <> Kept
    | PIndex w => contents l' = contents l /\ heals l' /\ ended_by (p_xa f) (p_xb f) w <> Kept
    | PScores w => l_index l' = l_index l /\ ended_by (p_sa f) (p_sb f) w <> Kept /\ len l' = len l /\
        exists u v x, contents l = u ++ v ++ x /\ contents l' = u ++ (if misses hs (ended_by (p_sa f) (p_sb f) w) w then [] else v) ++ x /\
          forall k, In k (locked_at w) \/ In k (missing_at w) -> exists s, nth_error (ss_segs (l_scores l')) k = Some s /\ sg_n s = length v /\ sg_elems s = []
    end.
Proof.
  intros HI HK Hnow. pose proof (m_next _ (k_mi _ _ _ HK)) as Hmi.
  assert (Hheal : forall ss nx us upd x, split_loop_segs (length (ss_segs (l_scores l))) false mg (l_merge l) (l_split l) now 0 (ss_segs (l_scores l)) (ss_next (l_scores l)) [] false = Done (ss, nx, us, upd) ->
     nx <= 4294967296 -> let l' := set_both l (mkSegs (ss_id (l_scores l)) ss nx (ss_index (l_scores l)) (if upd then [] else ss_idx (l_scores l))) x in
     contents l' = contents l /\ heals l').
  { intros ss nx us upd x E Hnx. cbn zeta. apply split_loop_segs_r in E; [|lia]. destruct (scores_loop P Q l all_r mg now ss nx us upd true HK Hnow E Hnx) as (A & _ & _ & x0 & Q' & HK').
    split; [exact A|]. apply (heals_any _ _ x0). eapply skew_heals; [exact HK'|apply HI|apply HI]. }
  unfold split_w. cbn zeta.
  destruct (split_loop_w_done hs (p_sa f) (p_sb f) false mg (l_merge l) (l_split l) now (length (ss_segs (l_scores l))) 0 (ss_segs (l_scores l)) (ss_next (l_scores l)) [] false)
    as (ss & nx & us & upd & w & E1 & B1); [lia|]. rewrite E1.
  pose proof (split_loop_w_ok _ _ _ _ _ _ _ _ _ _ _ _ _ _ _ _ _ _ _ E1) as [(-> & Es)|(Hw & _ & lb & nb & usb & ub & Er & Hst)].
  - specialize (Hheal ss nx us upd).
    destruct (update_index_w hx (p_upd f) now us (ss_segs (l_index l))) as (xs & ok) eqn:Eu.
    pose proof (update_index_w_kept hx (p_upd f) now us (ss_segs (l_index l))) as U1. pose proof (update_index_w_all hx (p_upd f) now us (ss_segs (l_index l))) as U2.
    pose proof (update_index_w_frame hx (p_upd f) now us (ss_segs (l_index l))) as U3. rewrite Eu in U1, U2, U3. cbn [fst snd] in U1, U2, U3. destruct ok.
    + destruct (split_loop_w_done hx (p_xa f) (p_xb f) true true (l_merge l) (l_split l) now (length xs) 0 xs (ss_next (l_index l)) [] upd)
        as (is & nxi & us2 & updi & w2 & E2 & B2); [lia|]. rewrite E2. unfold guard_ids, ids_ok. cbn [set_both l_scores l_index ss_next].
      destruct ((nx <=? 4294967296) && (nxi <=? 4294967296)) eqn:EG; [|left; split; [reflexivity|lia]]. right.
      apply andb_true_iff in EG as EG'. destruct EG' as (EG1 & EG2). apply N.leb_le in EG1.
      pose proof (split_loop_w_ok _ _ _ _ _ _ _ _ _ _ _ _ _ _ _ _ _ _ _ E2) as [(-> & Ei)|(Hw & _ & lb & nb & usb & ub & Er & Hst)].
      * assert (Hp : split_pass mg now l = Done (set_both l (mkSegs (ss_id (l_scores l)) ss nx (ss_index (l_scores l)) (if upd then [] else ss_idx (l_scores l)))
            (mkSegs (ss_id (l_index l)) is nxi (ss_index (l_index l)) (if updi then [] else ss_idx (l_index l))))).
        { unfold split_pass. rewrite Es. rewrite <- (U1 eq_refl), Ei. unfold guard_ids, ids_ok. cbn [set_both l_scores l_index ss_next]. rewrite EG. reflexivity. }
        eexists _, _. split; [reflexivity|]. split.
        { intros (_ & -> & ->). cbn [is_ok andb negb]. rewrite andb_false_r. reflexivity. }
        split; [reflexivity|]. split; [reflexivity|]. destruct (updi && negb (is_ok (p_ms f) && is_ok (p_mx f))) eqn:Em; [|exact Hp]. split; [exact Hp|].
        destruct (p_ms f); cbn in Em; [|left; discriminate|left; discriminate]. destruct (p_mx f); [|right; discriminate|right; discriminate]. rewrite andb_false_r in Em. discriminate.
      * assert (Hf : ended_by (p_xa f) (p_xb f) w2 <> Kept).
        { destruct w2 as [|k|k sec lk ms]; cbn [stopped] in Hst; [contradiction| |].
          - destruct Hst as (p & s & _ & _ & _ & Hf & _). cbn. intros C. rewrite C in Hf. discriminate.
          - destruct Hst as (s & s1 & s2 & ch & f0 & _ & _ & Ef & Hf & _). cbn. intros C. destruct sec; subst f0; rewrite C in Hf; discriminate. }
        destruct w2 as [|k|k sec lk ms]; [congruence| |]; (eexists _, _; split; [reflexivity|]; split;
          [intros (A & _); exfalso; apply Hf; cbn; try destruct sec; apply A|]; split; [reflexivity|]; split; [reflexivity|];
          destruct (Hheal (mkSegs (ss_id (l_index l)) is nxi (ss_index (l_index l)) []) Es EG1) as (A & B); auto).
    + unfold guard_ids, ids_ok. cbn [set_both l_scores l_index ss_next set_segs].
      destruct ((nx <=? 4294967296) && (ss_next (l_index l) <=? 4294967296)) eqn:EG; [|left; split; [reflexivity|lia]]. right.
      apply andb_true_iff in EG as (EG1 & EG2). apply N.leb_le in EG1. destruct (Hheal (set_segs (l_index l) xs) Es EG1) as (A & B).
      eexists _, _. split; [reflexivity|]. split; [intros (K & _); assert (false = true) by (apply U2; intros i; apply K); discriminate|]. split; [reflexivity|]. split; [reflexivity|].
      split; [exact A|]. split; [exact B|].
      unfold update_index_w in Eu. destruct us as [|u0 ur]; [discriminate|]. cbn zeta in Eu. injection Eu as _ Ef.
      apply not_true_iff_false in Ef. rewrite forallb_forall in Ef. set (gs := cut_groups _ _) in Ef. clearbody gs. clear -Ef.
      induction gs as [|g gs IH]; [exfalso; apply Ef; intros ? []|].
      destruct (is_ok (p_upd f (fst g))) eqn:Eg.
      * apply IH. intros H. apply Ef. intros y [<-|Hy]; [destruct (snd g); [reflexivity|exact Eg]|auto].
      * exists (fst g). intros C. rewrite C in Eg. discriminate.
  - assert (Hgd : match w with WAll => False | _ => True end) by (destruct w; [congruence|exact Logic.I|exact Logic.I]).
    destruct ((nx <=? 4294967296) && (ss_next (l_index l) <=? 4294967296)) eqn:EG.
    + right. apply andb_true_iff in EG as EG'. destruct EG' as (EG1 & EG2). apply N.leb_le in EG1.
      assert (Hnb : nb <= 4294967296).
      { destruct w; cbn [stopped] in Hst; [contradiction| |].
        - destruct Hst as (p & s & _ & _ & _ & _ & _ & ->). exact EG1.
        - destruct Hst as (s & s1 & s2 & ch & f0 & _ & _ & _ & _ & _ & ->). lia. }
      destruct (scores_loop P Q l _ mg now lb nb usb ub false HK Hnow Er Hnb) as (A & Hc & _ & _).
      destruct (stopped_scores _ _ _ _ _ _ _ _ _ Hst Hc) as (Hf & _ & _ & u & v & x & H1 & H2 & H3 & H4).
      exists (set_both l (mkSegs (ss_id (l_scores l)) ss nx (ss_index (l_scores l)) []) (l_index l)), (PScores w). split.
      { destruct w; [contradiction| |]; unfold guard_ids, ids_ok; cbn [set_both l_scores l_index ss_next]; rewrite EG; reflexivity. }
      split.
      { intros (K & _). exfalso. destruct w as [|k|k sec lk ms]; [contradiction| |]; cbn [ended_by] in Hf.
        - destruct (K k) as (K1 & _). rewrite K1 in Hf. discriminate.
        - destruct (K k) as (K1 & K2 & _). destruct sec; [rewrite K2 in Hf|rewrite K1 in Hf]; discriminate. }
      split; [reflexivity|]. split; [reflexivity|]. split; [reflexivity|]. split; [intros C; rewrite C in Hf; discriminate|]. split.
      { unfold len. cbn [set_both l_scores ss_segs]. rewrite H3. rewrite (count_elems _ Hc), A. rewrite (count_elems _ (meta_cnt _ (k_ms _ _ _ HK))). reflexivity. }
      exists u, v, x. split; [rewrite <- A; exact H1|]. split; [exact H2|]. exact H4.
    + left. split; [|lia]. destruct w; [contradiction| |]; unfold guard_ids, ids_ok; cbn [set_both l_scores l_index ss_next]; rewrite EG; reflexivity.
Qed.
