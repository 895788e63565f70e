(** Split passes that merge as well: they come to rest, and what they leave. *)
From Coq Require Import Strings.String.
From Verif.Lib Require Import Prelude ListAux ListLemmas SortLemmas Perm.
From Verif.Model Require Import Element Elements Segment List.
From Verif.Spec Require Import RankSpec QuerySpec AnswerSpec HistorySpec.
From Verif.Proof Require Import ElementP ElementsP SegP InvDef LookupP QueryP ChangeP UpdateP DeleteP SplitP IdxUpdP SplitInv HistoryP ListThm ProgressP.
Open Scope nat_scope.

Definition calm (ms sz : nat) (ls : list elements) (j : nat) : Prop := forall e, nth_error ls j = Some e ->
  settled sz e /\ (length e < sz -> forall k p, j = S k -> nth_error ls k = Some p -> ms < length e + length p).
Definition calm_from ms sz ls i : Prop := forall j, i <= j -> calm ms sz ls j.
(** what is left to do, at most *)
Definition big (sz : nat) (e : elements) : nat := if Nat.ltb (length e) sz then 0 else 2 * (length e - 1).
Definition todo (sz : nat) (ls : list elements) : nat := list_sum (map (big sz) ls) + length ls.
Lemma todo_app sz a b : todo sz (a ++ b) = todo sz a + todo sz b.
Proof. unfold todo. rewrite map_app, list_sum_app, app_length. lia. Qed.
Lemma todo_cons sz e b : todo sz (e :: b) = big sz e + 1 + todo sz b.
Proof. unfold todo. cbn [map length]. change (list_sum (big sz e :: map (big sz) b)) with (big sz e + list_sum (map (big sz) b)). lia. Qed.

(** no two neighbours at the same place *)
Definition apart (e : elements) : Prop := forall a x y b, e = a ++ x :: y :: b -> ~ same_place x y.
Lemma apart_mid a e b : apart (a ++ e ++ b) -> apart e.
Proof. intros H c x y d ->. apply (H (a ++ c) x y (d ++ b)). rewrite <- !app_assoc. reflexivity. Qed.
Lemma apart_splits e : apart e -> 2 <= length e -> can_split e.
Proof.
  intros H L. destruct (rev e) as [|y [|x r]] eqn:E.
  - apply (f_equal (@length element)) in E. rewrite rev_length in E. cbn in E. lia.
  - apply (f_equal (@length element)) in E. rewrite rev_length in E. cbn in E. lia.
  - apply (f_equal (@rev element)) in E. rewrite rev_involutive in E. cbn in E. rewrite <- app_assoc in E. cbn in E.
    exists (rev r), x, y, []. split; [exact E|]. split; [|apply (H _ _ _ _ E)].
    assert (Hl : length e = length (rev r) + 2) by (rewrite E, app_length; reflexivity). rewrite Hl.
    apply Nat.lt_succ_r. apply Nat.div_lt_upper_bound; lia.
Qed.

Lemma split_seg_any isidx id now s :
  match split_seg isidx id now s with
  | None => halves (sg_elems s) = [sg_elems s]
  | Some (s1, s2, _) => halves (sg_elems s) = [sg_elems s1; sg_elems s2] /\
                        sg_n s1 = length (sg_elems s1) /\ sg_n s2 = length (sg_elems s2)
  end.
Proof.
  unfold split_seg, halves. destruct (split_size _ _) as [[|p [|q [|? ?]]]|]; try reflexivity.
  - destruct q as [|y q]; [reflexivity|]. destruct (min_max (y :: q)) as (((? & ?) & ?) & ?).
    destruct (if isidx then _ else _). destruct (above_this _ _). cbn. auto.
  - destruct q; reflexivity.
Qed.

Lemma loop_calm isidx ms sz now : ms < sz -> forall fuel i l next us upd l' next' us' upd',
  cnt_ok l -> (isidx = true -> 2 <= sz /\ apart (concat (map sg_elems l))) ->
  split_loop_segs fuel isidx true ms sz now i l next us upd = Done (l', next', us', upd') ->
  (todo sz (map sg_elems l') < todo sz (map sg_elems l) /\ ~ calm_from ms sz (map sg_elems l) i) \/
  (map sg_elems l' = map sg_elems l /\ calm_from ms sz (map sg_elems l) i).
Proof.
  intros Hms. induction fuel as [|f IH]; intros i l next us upd l' next' us' upd' Hc Hx E; cbn [split_loop_segs] in E;
    destruct (nth_error l i) as [s|] eqn:Hs; try discriminate.
  1, 3: injection E as <- <- <- <-; right; split; [reflexivity|]; intros j Hj e He;
    apply nth_error_None in Hs; assert (j < length (map sg_elems l)) by (apply nth_error_Some; congruence); rewrite map_length in *; lia.
  assert (Hse : nth_error (map sg_elems l) i = Some (sg_elems s)) by (rewrite nth_error_map, Hs; reflexivity).
  assert (Hcs : sg_n s = length (sg_elems s)) by (unfold cnt_ok in Hc; rewrite Forall_forall in Hc; apply Hc; eapply nth_error_In; eauto).
  (* nothing happens to segment i *)
  assert (Hstay : forall l1 us1 upd1, map sg_elems l1 = map sg_elems l -> cnt_ok l1 -> calm ms sz (map sg_elems l) i ->
    split_loop_segs f isidx true ms sz now (S i) l1 next us1 upd1 = Done (l', next', us', upd') ->
    (todo sz (map sg_elems l') < todo sz (map sg_elems l) /\ ~ calm_from ms sz (map sg_elems l) i) \/
    (map sg_elems l' = map sg_elems l /\ calm_from ms sz (map sg_elems l) i)).
  { intros l1 us1 upd1 Hm Hc1 Hi E1. rewrite <- Hm in Hx.
    destruct (IH _ _ _ _ _ _ _ _ _ Hc1 Hx E1) as [(A & B)|(A & B)]; rewrite Hm in *; [left|right]; (split; [exact A|]).
    - intros C. apply B. intros j Hj. apply C. lia.
    - intros j Hj. destruct (Nat.eq_dec j i) as [->|]; [exact Hi|apply B; lia]. }
  (* something happens, and the rest cannot undo it *)
  assert (Hdo : forall i1 l1 next1 us1 upd1, concat (map sg_elems l1) = concat (map sg_elems l) -> cnt_ok l1 ->
    todo sz (map sg_elems l1) < todo sz (map sg_elems l) -> ~ calm ms sz (map sg_elems l) i ->
    split_loop_segs f isidx true ms sz now i1 l1 next1 us1 upd1 = Done (l', next', us', upd') ->
    (todo sz (map sg_elems l') < todo sz (map sg_elems l) /\ ~ calm_from ms sz (map sg_elems l) i) \/
    (map sg_elems l' = map sg_elems l /\ calm_from ms sz (map sg_elems l) i)).
  { intros i1 l1 next1 us1 upd1 Hm Hc1 Ht Hi E1. rewrite <- Hm in Hx. left. split; [|intros C; apply Hi; apply C; lia].
    destruct (IH _ _ _ _ _ _ _ _ _ Hc1 Hx E1) as [(A & _)|(A & _)]; [lia|rewrite A; exact Ht]. }
  destruct (nth_error_split l i Hs) as (a & b & Hl & Hi).
  destruct (Nat.ltb_spec (sg_n s) sz) as [L|L].
  - destruct i as [|j].
    + cbn in E. destruct l as [|l0 lr]; [discriminate|]. apply (Hstay _ us upd eq_refl Hc); [|exact E].
      intros e He. assert (e = sg_elems s) by congruence. subst e. split; [left; lia|]. intros _ k p C. discriminate.
    + cbn [Nat.sub] in E. rewrite Nat.sub_0_r in E. destruct (nth_error l j) as [p|] eqn:Hp.
      2:{ apply nth_error_None in Hp. assert (S j < length l) by (apply nth_error_Some; congruence). lia. }
      assert (Hpe : nth_error (map sg_elems l) j = Some (sg_elems p)) by (rewrite nth_error_map, Hp; reflexivity).
      assert (Hcp : sg_n p = length (sg_elems p)) by (unfold cnt_ok in Hc; rewrite Forall_forall in Hc; apply Hc; eapply nth_error_In; eauto).
      destruct (Nat.ltb_spec ms (sg_n s + sg_n p)) as [M|M].
      * apply (Hstay _ us upd eq_refl Hc); [|exact E]. intros e He. assert (e = sg_elems s) by congruence. subst e. split; [left; lia|].
        intros _ k q C Hq. injection C as <-. assert (q = sg_elems p) by congruence. subst q. lia.
      * assert (Ha : exists a0, a = a0 ++ [p]).
        { destruct (rev a) as [|q r] eqn:Er.
          - apply (f_equal (@rev seg)) in Er. rewrite rev_involutive in Er. subst a. discriminate.
          - apply (f_equal (@rev seg)) in Er. rewrite rev_involutive in Er. cbn in Er. exists (rev r). rewrite Er. f_equal. f_equal.
            rewrite Hl, Er in Hp. rewrite Er, app_length in Hi. cbn in Hi. rewrite <- app_assoc in Hp. cbn [app] in Hp.
            replace j with (length (rev r)) in Hp by lia. rewrite nth_app_mid in Hp. congruence. }
        destruct Ha as (a0 & ->). rewrite app_length in Hi. cbn in Hi. assert (Ej : j = length a0) by lia.
        unfold merge_segs in E. cbv zeta beta iota in E.
        set (m := touch now _) in E.
        assert (Em : sg_elems m = sg_elems p ++ sg_elems s) by reflexivity.
        assert (Hl2 : del_nth (S j) (upd_nth j (fun _ => m) l) = a0 ++ m :: b).
        { rewrite Hl, <- app_assoc. cbn [app]. rewrite Ej, upd_nth_mid.
          change (a0 ++ m :: s :: b) with (a0 ++ [m] ++ s :: b). rewrite app_assoc.
          replace (S (length a0)) with (length (a0 ++ [m])) by (rewrite app_length; cbn; lia). rewrite del_nth_mid, <- app_assoc. reflexivity. }
        rewrite Hl2 in E. apply (Hdo _ _ _ _ _) in E; [exact E| | | |].
        -- rewrite Hl, <- !app_assoc. rewrite !map_app, !concat_app. cbn [map concat app]. rewrite Em, app_nil_r, <- app_assoc. reflexivity.
        -- unfold cnt_ok in *. rewrite Hl, <- app_assoc, Forall_app in Hc. destruct Hc as (H1 & H2). apply Forall_app. split; [exact H1|].
           constructor; [reflexivity|]. cbn in H2. apply Forall_inv_tail, Forall_inv_tail in H2. exact H2.
        -- rewrite Hl, <- app_assoc, !map_app, !todo_app. cbn [map app]. rewrite !todo_cons, Em. unfold big at 1.
           rewrite app_length. replace (length (sg_elems p) + length (sg_elems s) <? sz) with true by (symmetry; apply Nat.ltb_lt; lia). lia.
        -- intros C. destruct (C _ Hse) as (_ & C2). specialize (C2 ltac:(lia) j _ eq_refl Hpe). lia.
  - pose proof (split_seg_any isidx next now s) as HH. destruct (halves_spec (sg_elems s)) as [(Hn & Hh)|(j & Hh & Hj & Hj1 & HC & _)].
    + assert (HN : split_seg isidx next now s = None).
      { destruct (split_seg isidx next now s) as [((s1 & s2) & ch)|]; [|reflexivity]. destruct HH as (HH & _). congruence. }
      rewrite HN in E. destruct isidx.
      * exfalso. destruct (Hx eq_refl) as (Hz & Hap). apply Hn. apply apart_splits; [|lia].
        rewrite Hl, map_app, concat_app in Hap. cbn [map concat] in Hap. apply (apart_mid _ _ _ Hap).
      * apply (Hstay (upd_nth i set_n l) us upd) in E; [exact E| | |].
        -- apply map_upd_nth. reflexivity.
        -- unfold cnt_ok in *. rewrite Hl. rewrite <- Hi. rewrite upd_nth_mid. rewrite Hl in Hc.
           rewrite Forall_app in *. destruct Hc as (H1 & H2). apply Forall_inv_tail in H2. split; [exact H1|]. constructor; [reflexivity|assumption].
        -- intros e He. assert (e = sg_elems s) by congruence. subst e. split; [right; exact Hn|]. intros C. lia.
    + destruct (split_seg isidx next now s) as [((s1 & s2) & ch)|]; [|rewrite Hh in HH; discriminate].
      destruct HH as (HH & N1 & N2). rewrite Hh in HH. injection HH as H1 H2.
      assert (L1 : length (sg_elems s1) = j) by (rewrite <- H1, firstn_length; lia).
      assert (L2 : length (sg_elems s2) = length (sg_elems s) - j) by (rewrite <- H2, skipn_length; reflexivity).
      assert (Hl2 : ins_nth (S i) (touch now s2) (upd_nth i (fun _ => touch now s1) l) = a ++ touch now s1 :: touch now s2 :: b).
      { rewrite Hl. rewrite <- Hi at 2. rewrite upd_nth_mid.
        change (a ++ touch now s1 :: b) with (a ++ [touch now s1] ++ b).
        rewrite app_assoc. replace (S i) with (length (a ++ [touch now s1])) by (rewrite app_length; cbn; lia).
        rewrite ins_nth_mid, <- app_assoc. reflexivity. }
      rewrite Hl2 in E. apply (Hdo _ _ _ _ _) in E; [exact E| | | |].
      * rewrite Hl, !map_app, !concat_app. cbn [map concat]. change (sg_elems (touch now s1)) with (sg_elems s1). change (sg_elems (touch now s2)) with (sg_elems s2).
        rewrite <- H1, <- H2, (app_assoc (firstn j _)), firstn_skipn. reflexivity.
      * unfold cnt_ok in *. rewrite Hl in Hc. rewrite Forall_app in *. destruct Hc as (A & B). apply Forall_inv_tail in B.
        split; [exact A|]. repeat constructor; assumption.
      * rewrite Hl, !map_app, !todo_app. cbn [map]. rewrite !todo_cons.
        change (sg_elems (touch now s1)) with (sg_elems s1). change (sg_elems (touch now s2)) with (sg_elems s2).
        unfold big. rewrite L1, L2. replace (length (sg_elems s) <? sz) with false by (symmetry; apply Nat.ltb_ge; lia).
        destruct (j <? sz) eqn:?, (length (sg_elems s) - j <? sz) eqn:?; lia.
      * intros C. destruct (C _ Hse) as ([C1|C1] & _); [lia|]. apply C1. apply can_split_at. exists j. repeat split; try assumption; lia.
Qed.

(** ** The index, by the sizes of its segments *)
Definition idle (ms sz : nat) (ns : list nat) : Prop := forall j n, nth_error ns j = Some n ->
  n < sz /\ forall k p, j = S k -> nth_error ns k = Some p -> ms < n + p.
Lemma nth_ext {A} : forall l l' : list A, (forall j, nth_error l j = nth_error l' j) -> l = l'.
Proof.
  induction l as [|x l IH]; intros [|y l'] H; [reflexivity|specialize (H 0); discriminate|specialize (H 0); discriminate|].
  pose proof (H 0) as H0. cbn in H0. injection H0 as ->. f_equal. apply IH. intros j. apply (H (S j)).
Qed.
Notation sizes := (map (@length element)).
Lemma todo_sizes sz a b : sizes a = sizes b -> todo sz a = todo sz b.
Proof.
  revert b. induction a as [|x a IH]; intros [|y b] E; try discriminate; [reflexivity|]. injection E as E1 E2.
  rewrite !todo_cons. unfold big. rewrite E1, (IH b E2). reflexivity.
Qed.
Lemma todo_le sz ls : todo sz ls <= 2 * length (concat ls) + length ls.
Proof.
  induction ls as [|e r IH]; [cbn; lia|]. rewrite todo_cons. cbn [concat length]. rewrite app_length. unfold big. destruct (length e <? sz); lia.
Qed.
Lemma calm_idle ms sz ls : 2 <= sz -> apart (concat ls) -> calm_from ms sz ls 0 <-> idle ms sz (sizes ls).
Proof.
  intros Hz Ha.
  assert (HS : forall e, In e ls -> settled sz e <-> length e < sz).
  { intros e He. split; [|left; assumption]. intros [H|H]; [exact H|]. destruct (Nat.lt_ge_cases (length e) sz) as [|L]; [assumption|].
    exfalso. apply H. apply apart_splits; [|lia]. apply in_split in He as (a & b & ->). rewrite concat_app in Ha. cbn [concat] in Ha. apply (apart_mid _ _ _ Ha). }
  split.
  - intros H j n Hn. rewrite nth_error_map in Hn. destruct (nth_error ls j) as [e|] eqn:He; [|discriminate]. injection Hn as <-.
    destruct (H j (Nat.le_0_l _) e He) as (A & B). apply HS in A; [|eapply nth_error_In; eauto]. split; [exact A|].
    intros k p Ek Hp. rewrite nth_error_map in Hp. destruct (nth_error ls k) as [q|] eqn:Hq; [|discriminate]. injection Hp as <-. apply (B A k q Ek Hq).
  - intros H j _ e He. assert (Hn : nth_error (sizes ls) j = Some (length e)) by exact (map_nth_error (@length element) j ls He).
    destruct (H j _ Hn) as (A & B). split; [left; exact A|]. intros _ k p Ek Hp. apply (B k (length p) Ek). exact (map_nth_error (@length element) k ls Hp).
Qed.

Lemma strict_apart (e : elements) : ranked e -> distinct_ids e -> (forall x, In x e -> e_score x = e_id x) -> apart e.
Proof.
  intros HR HD HF a x y b -> (E & _). apply distinct_ids_app_r in HD. unfold distinct_ids in HD. cbn in HD.
  apply NoDup_cons_iff in HD as (H & _). apply H. left. rewrite <- !HF by (apply in_app_iff; cbn; auto). auto.
Qed.

Lemma pass_calm P now l l' : Inv P l -> (0 < now < max_u32)%N -> 2 <= l_split l -> split_pass true now l = Done l' ->
  ((todo (l_split l) (score_parts l') < todo (l_split l) (score_parts l) /\ ~ calm_from (l_merge l) (l_split l) (score_parts l) 0) \/
   (score_parts l' = score_parts l /\ calm_from (l_merge l) (l_split l) (score_parts l) 0)) /\
  ((todo (l_split l) (index_parts l') < todo (l_split l) (index_parts l) /\ ~ idle (l_merge l) (l_split l) (sizes (index_parts l))) \/
   (sizes (index_parts l') = sizes (index_parts l) /\ idle (l_merge l) (l_split l) (sizes (index_parts l)))).
Proof.
  intros HI Hnow Hsz E. unfold score_parts, index_parts. destruct (i_core _ _ HI) as (Q & HC).
  pose proof (i_ms _ _ HI) as HMs. pose proof (i_mi _ _ HI) as HMi.
  pose proof (c_s _ _ _ _ HC) as HS. pose proof (c_i _ _ _ _ HC) as HQ.
  pose proof (meta_next_pos _ _ HMs HS) as Hps.
  unfold split_pass in E. set (s := l_scores l) in *. set (x := l_index l) in *.
  destruct (split_loop_segs (length (ss_segs s)) false true _ _ _ _ _ _ _ _) as [(((ss & nx) & us) & upd)| | |] eqn:E1; try discriminate.
  set (xs := update_index_elements now us (ss_segs x)) in *.
  destruct (split_loop_segs (length xs) true true _ _ _ _ _ _ _ _) as [(((is & nxi) & ui) & updi)| | |] eqn:E2; try discriminate.
  unfold guard_ids in E. destruct (ids_ok _); [|discriminate]. injection E as <-.
  cbn [l_scores l_index ss_segs set_both].
  assert (K0 : sok false (ss_id s) P (ss_segs s) (ss_next s)) by (apply meta_sok; auto; discriminate).
  destruct (split_loop_ok _ _ _ _ _ _ _ (ss_segs s) Hnow _ _ _ _ _ _ _ _ _ _ Hps K0 (moved_init _) E1)
    as (K1 & (k & M1) & _).
  assert (Hus : forall id t, In (id, t) us -> (id <= max_u64 /\ True)%N).
  { intros id t H. destruct (moved_us _ _ _ _ _ _ M1 (score_ok_distinct _ _ (k_s _ _ _ _ _ K1)) H) as (g & y & Hg & Hy & <- & _).
    destruct (score_ok_seg _ _ _ _ (k_s _ _ _ _ _ K1) Hg Hy) as (Py & _). pose proof (good_ok _ (so_good _ _ HS y Py)) as Ho.
    unfold elem_ok in Ho. tauto. }
  assert (Hids : forall id, In id (map fst us) -> (id <= max_u64)%N).
  { intros id Hid. apply in_map_iff in Hid as ((i & t) & <- & H). apply (Hus i t H). }
  destruct (update_index_spec now us (ss_segs x) Q HQ (c_al _ _ _ _ HC) (c_form _ _ _ _ HC) (j_nd _ _ _ _ M1) Hids) as (F1 & F2 & F3).
  fold xs in F1, F2, F3.
  assert (Lx : length xs = length (ss_segs x)) by (rewrite <- (map_length frame xs), F1, map_length; reflexivity).
  assert (Ex : map sg_elems xs = map (map (upd1 now us)) (map sg_elems (ss_segs x))).
  { apply nth_ext. intros j. rewrite !nth_error_map. destruct (nth_error xs j) as [t|] eqn:Ht.
    - assert (exists t0, nth_error (ss_segs x) j = Some t0) as (t0 & Ht0).
      { destruct (nth_error (ss_segs x) j) as [t0|] eqn:E; [eauto|]. apply nth_error_None in E. assert (j < length xs) by (apply nth_error_Some; congruence). lia. }
      rewrite Ht0. cbn. f_equal. apply (F3 j t0 t Ht0 Ht).
    - apply nth_error_None in Ht. rewrite Lx in Ht. apply nth_error_None in Ht. rewrite Ht. reflexivity. }
  assert (Hz : sizes (map sg_elems xs) = sizes (map sg_elems (ss_segs x))).
  { rewrite Ex, map_map. apply map_ext. intros e. apply map_length. }
  assert (Hap : apart (concat (map sg_elems xs))).
  { rewrite Ex, <- concat_map. intros a p q b Eq (C & _).
    assert (A : apart (concat (map sg_elems (ss_segs x)))).
    { apply strict_apart; [apply (score_ok_ranked _ _ HQ)|apply (score_ok_distinct _ _ HQ)|].
      intros y Hy. apply (c_form _ _ _ _ HC). apply (score_ok_In _ _ _ HQ). exact Hy. }
    apply map_eq_app in Eq as (a1 & r1 & E3 & Ea & Er). destruct r1 as [|p1 [|q1 r1]]; try discriminate. injection Er as Ep Eq Eb.
    assert (Hs : e_score p1 = e_score q1) by (rewrite <- (upd1_score now us p1), <- (upd1_score now us q1); congruence).
    assert (HD : distinct_ids (concat (map sg_elems (ss_segs x)))) by apply (score_ok_distinct _ _ HQ).
    assert (HF : forall y, In y (concat (map sg_elems (ss_segs x))) -> e_score y = e_id y).
    { intros y Hy. apply (c_form _ _ _ _ HC). apply (score_ok_In _ _ _ HQ). exact Hy. }
    rewrite E3 in HD, HF. apply distinct_ids_app_r in HD. unfold distinct_ids in HD. cbn in HD.
    apply NoDup_cons_iff in HD as (H & _). apply H. left. rewrite <- !HF by (apply in_app_iff; cbn; auto). auto. }
  assert (Hcx : cnt_ok xs).
  { assert (HM' : meta (mkSegs (ss_id x) xs (ss_next x) (ss_index x) (ss_idx x))) by (apply meta_step with now; auto; apply HMi). apply (meta_cnt _ HM'). }
  split.
  - apply (loop_calm false (l_merge l) (l_split l) now (i_sz _ _ HI) _ _ _ _ _ _ _ _ _ _ (meta_cnt _ HMs)) in E1; [exact E1|discriminate].
  - apply (loop_calm true (l_merge l) (l_split l) now (i_sz _ _ HI) _ _ _ _ _ _ _ _ _ _ Hcx) in E2; [|auto].
    rewrite (calm_idle _ _ _ Hsz Hap), (todo_sizes _ _ _ Hz), Hz in E2.
    destruct E2 as [E2|(A & B)]; [left; exact E2|right]. split; [rewrite A; exact Hz|exact B].
Qed.

(** ** Repetition *)
Definition left (l : lst) : nat := todo (l_split l) (score_parts l) + todo (l_split l) (index_parts l).
Definition rests (l : lst) : Prop := calm_from (l_merge l) (l_split l) (score_parts l) 0 /\ idle (l_merge l) (l_split l) (sizes (index_parts l)).
Lemma reach_split merge split l m : reachable merge split l m -> 2 <= split.
Proof. induction 1; try assumption; unfold build_sizes in *; lia. Qed.

Lemma passes_rest merge split m : forall nows l l', reachable merge split l m -> Forall tick nows -> splitter_passes nows l = Done l' ->
  reachable merge split l' m /\ stored_in l' = stored_in l /\
  (rests l -> rests l' /\ score_parts l' = score_parts l /\ sizes (index_parts l') = sizes (index_parts l)) /\
  (rests l' \/ left l' + length nows <= left l).
Proof.
  induction nows as [|now r IH]; intros l l' HR Hn E; cbn [splitter_passes] in E.
  - injection E as <-. split; [exact HR|]. split; [reflexivity|]. split; [auto|]. right. cbn. lia.
  - inversion Hn as [|? ? H1 H2]; subst. destruct (split_pass true now l) as [l1| | |] eqn:E1; try discriminate.
    assert (HR1 : reachable merge split l1 m) by (apply (R_step merge split l m (OSplit true now) l1 HR H1 E1)).
    destruct (reach_inv _ _ _ _ HR) as (HI & HM & HS). pose proof (reach_split _ _ _ _ HR) as Hz. rewrite <- HS in Hz.
    destruct (reach_inv _ _ _ _ HR1) as (_ & HM1 & HS1).
    pose proof (pass_calm _ _ _ _ HI H1 Hz E1) as HP.
    assert (Hst : stored_in l1 = stored_in l).
    { destruct (split_inv _ true now l HI H1) as [(C & _)|(l2 & E2 & _ & C & _)]; [congruence|]. rewrite E1 in E2. injection E2 as <-. exact C. }
    destruct (IH l1 l' HR1 H2 E) as (A & B & C & D).
    assert (Hr : rests l -> rests l1 /\ score_parts l1 = score_parts l /\ sizes (index_parts l1) = sizes (index_parts l)).
    { intros (R1 & R2). destruct HP as ([(_ & C1)|(S1 & _)] & [(_ & C2)|(S2 & _)]); try contradiction.
      unfold rests. rewrite HM1, HS1, S1, S2, <- HM, <- HS. auto. }
    split; [exact A|]. split; [congruence|]. split.
    + intros R. destruct (Hr R) as (R1 & S1 & S2). destruct (C R1) as (R2 & S3 & S4). split; [exact R2|]. split; congruence.
    + destruct HP as ([(T1 & _)|(S1 & C1)] & [(T2 & _)|(S2 & C2)]).
      * destruct D as [D|D]; [left; exact D|right]. unfold left in *. rewrite HS1, HS in *. cbn [length]. lia.
      * destruct D as [D|D]; [left; exact D|right]. unfold left in *. rewrite HS1, HS in *. cbn [length].
        rewrite (todo_sizes split _ _ S2) in D. lia.
      * destruct D as [D|D]; [left; exact D|right]. unfold left in *. rewrite HS1, HS in *. cbn [length]. rewrite S1 in D. lia.
      * left. apply C. apply Hr. split; assumption.
Qed.

Lemma todo_pos sz ls : ls <> [] -> 0 < todo sz ls.
Proof. destruct ls; [congruence|]. intros _. rewrite todo_cons. lia. Qed.
Lemma calm_parts ms sz ls : calm_from ms sz ls 0 -> Forall (settled sz) ls /\ unmergeable ms sz ls.
Proof.
  intros H. split.
  - apply Forall_forall. intros e He. apply In_nth_error in He as (j & Hj). apply (H j (Nat.le_0_l _) e Hj).
  - intros a p e b -> L. destruct (H (S (length a)) (Nat.le_0_l _) e) as (_ & B).
    + rewrite nth_app_mid1. reflexivity.
    + specialize (B L (length a) p eq_refl). rewrite nth_app_mid in B. specialize (B eq_refl). lia.
Qed.
Lemma idle_parts ms sz (ls : list elements) : idle ms sz (sizes ls) -> Forall (fun e => length e < sz) ls /\ unmergeable ms sz ls.
Proof.
  intros H. split.
  - apply Forall_forall. intros e He. apply In_nth_error in He as (j & Hj). apply (H j (length e)). exact (map_nth_error (@length element) j ls Hj).
  - intros a p e b -> L. destruct (H (S (length a)) (length e)) as (_ & B).
    + exact (map_nth_error (@length element) (S (length a)) (a ++ p :: e :: b) (nth_app_mid1 _ _ _ _)).
    + specialize (B (length a) (length p) eq_refl). rewrite Nat.add_comm. apply B.
      exact (map_nth_error (@length element) (length a) (a ++ p :: e :: b) (nth_app_mid _ _ _)).
Qed.
Lemma left_le merge split l m : reachable merge split l m ->
  left l <= 4 * length (stored_in l) + length (ss_segs (l_scores l)) + length (ss_segs (l_index l)).
Proof.
  intros HR. destruct (reach_inv _ _ _ _ HR) as (HI & _ & _). pose proof (perm_count_index _ _ HI) as HC.
  rewrite count_elems in HC by (apply meta_cnt, HI). unfold left.
  pose proof (todo_le (l_split l) (score_parts l)) as A. pose proof (todo_le (l_split l) (index_parts l)) as B.
  unfold score_parts, index_parts in *. rewrite map_length in A, B.
  change (concat (map sg_elems (ss_segs (l_scores l)))) with (stored_in l) in A.
  change (concat (map sg_elems (ss_segs (l_index l)))) with (elems_of (ss_segs (l_index l))) in B.
  change (contents l) with (stored_in l) in HC. lia.
Qed.
Lemma left_pos merge split l m : reachable merge split l m -> 0 < left l.
Proof.
  intros HR. destruct (reach_inv _ _ _ _ HR) as (HI & _ & _). destruct (i_core _ _ HI) as (Q & HC).
  pose proof (tile_nonempty _ (so_tile _ _ (c_s _ _ _ _ HC))) as Hne. unfold left, score_parts.
  pose proof (todo_pos (l_split l) (map sg_elems (ss_segs (l_scores l)))) as H. destruct (ss_segs (l_scores l)); [congruence|].
  specialize (H ltac:(discriminate)). lia.
Qed.

Lemma c15_rests merge split l m nows l' : reachable merge split l m -> Forall tick nows ->
  4 * length (stored_in l) + length (ss_segs (l_scores l)) + length (ss_segs (l_index l)) <= length nows ->
  splitter_passes nows l = Done l' ->
  Forall (settled split) (score_parts l') /\ unmergeable merge split (score_parts l') /\
  Forall (fun e => length e < split) (index_parts l') /\ unmergeable merge split (index_parts l') /\
  stored_in l' = stored_in l.
Proof.
  intros HR Hn HL E. destruct (passes_rest _ _ _ _ _ _ HR Hn E) as (HR' & Hst & _ & D).
  destruct (reach_inv _ _ _ _ HR') as (_ & HM & HS).
  assert (R : rests l').
  { destruct D as [D|D]; [exact D|]. pose proof (left_le _ _ _ _ HR). pose proof (left_pos _ _ _ _ HR'). lia. }
  destruct R as (R1 & R2). rewrite HM, HS in *. apply calm_parts in R1 as (A1 & A2). apply idle_parts in R2 as (B1 & B2). auto.
Qed.
