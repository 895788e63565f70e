(** Queries while reads fail. *)
From Coq Require Import Strings.String.
From Verif.Lib Require Import Prelude ListAux ListLemmas SortLemmas Perm.
From Verif.Model Require Import Element Elements Segment List ReadFail.
From Verif.Spec Require Import RankSpec QuerySpec HistorySpec AnswerSpec ReadFailSpec.
From Verif.Proof Require Import ElementP ElementsP SegP InvDef QueryP LookupP PctP HistoryP AnswerP.
Open Scope N_scope.

(** ** windows *)
Lemma elems_offset_r_or rd : forall l i first n,
  elems_offset_r rd i l first n = Unread \/ elems_offset_r rd i l first n = Answer (elems_offset l first n).
Proof.
  induction l as [|s r IH]; intros i first n; destruct n as [|n]; auto.
  cbn [elems_offset_r elems_offset]. destruct (rd i); [|auto].
  destruct (Nat.leb (length (sg_elems s)) first); [apply IH|].
  destruct (Nat.ltb (S n) (length (skipn first (sg_elems s)))); [auto|].
  destruct (IH (S i) 0%nat (S n - length (skipn first (sg_elems s)))%nat) as [E|E]; rewrite E; cbn; auto.
Qed.
Lemma geo_r_or rd l i first n :
  get_elements_offset_r rd l i first n = Unread \/ get_elements_offset_r rd l i first n = Answer (get_elements_offset l i first n).
Proof. apply elems_offset_r_or. Qed.

(** segments that hold nothing of the window are not read *)
Lemma elems_offset_r_why rd : forall l i first n,
  (first = 0%nat \/ (first < length (sg_elems (hd max_segment l)))%nat) -> elems_offset_r rd i l first n = Unread ->
  exists k s, nth_error l k = Some s /\ wanted (firstn n (skipn first (elems_of l))) s /\ rd (i + k)%nat = false.
Proof.
  induction l as [|s r IH]; intros i first n Hf EU; destruct n as [|n]; try discriminate.
  cbn [elems_offset_r hd] in *.
  destruct (sg_elems s) as [|y ys] eqn:Es.
  - cbn [length] in *. assert (first = 0%nat) by lia. subst first.
    destruct (rd i) eqn:Er.
    + cbn [Nat.leb Nat.sub] in EU. destruct (IH (S i) 0%nat (S n) (or_introl eq_refl) EU) as (k & t & Hk & Hw & Hr).
      exists (S k), t. rewrite elems_of_cons, Es. split; [exact Hk|]. split; [exact Hw|]. rewrite <- Hr. f_equal. lia.
    + exists 0%nat, s. split; [reflexivity|]. split; [left; exact Es|]. rewrite Nat.add_0_r. exact Er.
  - rewrite <- Es in *. assert (Hlt : (first < length (sg_elems s))%nat) by (rewrite Es in *; cbn [length] in *; lia).
    destruct (rd i) eqn:Er.
    + destruct (Nat.leb_spec (length (sg_elems s)) first); [lia|].
      destruct (Nat.ltb_spec (S n) (length (skipn first (sg_elems s)))) as [L|L]; [discriminate|].
      destruct (elems_offset_r rd (S i) r 0 (S n - length (skipn first (sg_elems s)))) as [z|] eqn:Ez; [discriminate|].
      destruct (IH _ _ _ (or_introl eq_refl) Ez) as (k & t & Hk & Hw & Hr).
      exists (S k), t. split; [exact Hk|]. split; [|rewrite <- Hr; f_equal; lia].
      destruct Hw as [Hw|(x & Hx & Hxt)]; [left; exact Hw|]. right. exists x. split; [|exact Hxt].
      rewrite elems_of_cons, skipn_app_lt by lia. rewrite firstn_app, firstn_all2 by lia. apply in_or_app. right. exact Hx.
    + exists 0%nat, s. split; [reflexivity|]. split; [|rewrite Nat.add_0_r; exact Er]. right.
      destruct (nth_error (sg_elems s) first) as [x|] eqn:Ex; [|apply nth_error_None in Ex; lia].
      exists x. split; [|eapply nth_error_In; eauto].
      rewrite elems_of_cons, skipn_app_lt by lia.
      assert (Ek : skipn first (sg_elems s) = x :: skipn (S first) (sg_elems s)).
      { clear - Ex. revert first Ex. induction (sg_elems s) as [|z zs IHz]; intros [|f] Ex; try discriminate; [inv Ex; reflexivity|].
        cbn. apply IHz. exact Ex. }
      rewrite Ek. left. reflexivity.
Qed.

(** ** neighbours *)
Lemma firstn_le_firstn {A} (l : list A) n a : (a <= n)%nat -> firstn a l = firstn a (firstn n l).
Proof. intros H. rewrite firstn_firstn, Nat.min_l by exact H. reflexivity. Qed.

Lemma walk_below_r_cut nb : forall n cur i rest,
  exists a, (a <= n)%nat /\ walk_below_r nb n cur i rest = firstn a (cur ++ elems_of rest).
Proof.
  induction n as [|n IH]; intros cur i rest; [exists 0%nat; split; [lia|reflexivity]|].
  revert cur i. induction rest as [|s r IHr]; intros cur i.
  - destruct cur as [|x cur]; [exists 0%nat; split; [lia|reflexivity]|].
    destruct (IH cur i []) as (a & Ha & E). exists (S a). split; [lia|]. cbn [app firstn]. rewrite <- E. reflexivity.
  - destruct cur as [|x cur].
    + cbn [walk_below_r]. destruct (nb i); [|exists 0%nat; split; [lia|reflexivity]].
      destruct (IHr (sg_elems s) (S i)) as (a & Ha & E). exists a. split; [exact Ha|]. rewrite elems_of_cons. cbn [app]. rewrite <- E. reflexivity.
    + destruct (IH cur i (s :: r)) as (a & Ha & E). exists (S a). split; [lia|]. cbn [app firstn]. rewrite <- E. reflexivity.
Qed.
Lemma walk_above_r_cut nb : forall n cur rest,
  exists a, (a <= n)%nat /\ walk_above_r nb n cur rest = firstn a (cur ++ concat (map (fun s => rev (sg_elems s)) rest)).
Proof.
  induction n as [|n IH]; intros cur rest; [exists 0%nat; split; [lia|reflexivity]|].
  revert cur. induction rest as [|s r IHr]; intros cur.
  - destruct cur as [|x cur]; [exists 0%nat; split; [lia|reflexivity]|].
    destruct (IH cur []) as (a & Ha & E). exists (S a). split; [lia|]. cbn [app firstn]. rewrite <- E. reflexivity.
  - destruct cur as [|x cur].
    + cbn [walk_above_r]. destruct (nb (length r)); [|exists 0%nat; split; [lia|reflexivity]].
      destruct (IHr (rev (sg_elems s))) as (a & Ha & E). exists a. split; [exact Ha|]. cbn [map concat app]. rewrite <- E. reflexivity.
    + destruct (IH cur (s :: r)) as (a & Ha & E). exists (S a). split; [lia|]. cbn [app firstn]. rewrite <- E. reflexivity.
Qed.
Lemma walk_below_r_all nb : (forall i, nb i = true) -> forall n cur i rest, walk_below_r nb n cur i rest = walk_below n cur rest.
Proof.
  intros H. induction n as [|n IH]; intros cur i rest; [reflexivity|].
  revert cur i. induction rest as [|s r IHr]; intros cur i; destruct cur as [|x cur]; cbn [walk_below_r walk_below].
  - reflexivity.
  - rewrite IH. reflexivity.
  - rewrite H. apply IHr.
  - rewrite IH. reflexivity.
Qed.
Lemma walk_above_r_all nb : (forall i, nb i = true) -> forall n cur rest, walk_above_r nb n cur rest = walk_above n cur rest.
Proof.
  intros H. induction n as [|n IH]; intros cur rest; [reflexivity|].
  revert cur. induction rest as [|s r IHr]; intros cur; destruct cur as [|x cur]; cbn [walk_above_r walk_above].
  - reflexivity.
  - rewrite IH. reflexivity.
  - rewrite H. apply IHr.
  - rewrite IH. reflexivity.
Qed.

(** the same answer with at most as many neighbours *)
Definition cut_of (re re' : ranked_element) : Prop :=
  re_elem re' = re_elem re /\ re_top re' = re_top re /\ re_bottom re' = re_bottom re /\ re_before re' = re_before re /\
  (exists a, re_above re' = firstn a (re_above re)) /\ (exists b, re_below re' = firstn b (re_below re)).
Lemma find_ranked_r_cut nb l i id off radius :
  match find_ranked l i id off radius, find_ranked_r nb l i id off radius with
  | Some re, Some re' => cut_of re re'
  | None, None => True
  | _, _ => False
  end.
Proof.
  unfold find_ranked, find_ranked_r. destruct (nth_error l i) as [s|]; [|exact Logic.I].
  destruct (find_idx_id (sg_elems s) id) as [k|]; [|exact Logic.I].
  destruct (nth_error (sg_elems s) k) as [e|]; [|exact Logic.I].
  unfold cut_of. cbn [re_elem re_top re_bottom re_before re_above re_below]. repeat split.
  - destruct (walk_above_r_cut nb radius (rev (firstn k (sg_elems s))) (rev (firstn i l))) as (a & Ha & ->).
    exists a. rewrite walk_above_spec. apply firstn_le_firstn. exact Ha.
  - destruct (walk_below_r_cut nb radius (skipn (S k) (sg_elems s)) (S i) (skipn (S i) l)) as (a & Ha & ->).
    exists a. rewrite walk_below_spec. apply firstn_le_firstn. exact Ha.
Qed.
Lemma find_ranked_r_all nb l i id off radius : (forall i, nb i = true) -> find_ranked_r nb l i id off radius = find_ranked l i id off radius.
Proof.
  intros H. unfold find_ranked, find_ranked_r. destruct (nth_error l i) as [s|]; [|reflexivity].
  destruct (find_idx_id (sg_elems s) id) as [k|]; [|reflexivity].
  destruct (nth_error (sg_elems s) k) as [e|]; [|reflexivity].
  rewrite walk_above_r_all, walk_below_r_all by exact H. reflexivity.
Qed.
Lemma cut_calc re re' t : cut_of re re' -> cut_of (calc_bottom t re) (calc_bottom t re').
Proof.
  intros (A & B & C & D & E & F). unfold cut_of, calc_bottom. cbn [re_elem re_top re_bottom re_before re_above re_below].
  rewrite A, B, D. auto 10.
Qed.
Lemma cut_rank r re re' : cut_of re re' -> true_rank r re -> true_rank r re'.
Proof. intros (A & B & C & _) (i & H1 & H2 & H3). exists i. rewrite A, B, C. auto. Qed.
Lemma cut_neighbours r radius re re' : cut_of re re' -> true_neighbours r radius re -> some_neighbours r radius re'.
Proof.
  intros (A & B & C & D & (a & E) & (b & F)) H i Hi. destruct (H i ltac:(congruence)) as (H1 & H2).
  exists (Nat.min a radius), (Nat.min b radius). rewrite E, F, H1, H2, !firstn_firstn. repeat split; lia.
Qed.

(** ** lookups by ID *)
Lemma nth_map_in {A B} (f : A -> B) l c x : nth c (map f l) (f x) = f (nth c l x).
Proof. revert c. induction l as [|y r IH]; intros [|c]; cbn; auto. Qed.
Lemma del_nth_map {A B} (f : A -> B) : forall l c, del_nth c (map f l) = map f (del_nth c l).
Proof. induction l as [|y r IH]; intros [|c]; cbn; try reflexivity. rewrite IH. reflexivity. Qed.
Lemma permute_map {A B} (f : A -> B) sc l : permute sc (map f l) = map f (permute sc l).
Proof.
  unfold permute. rewrite map_length. generalize (length l) at 1 2. intros n. revert sc l.
  induction n as [|n IH]; intros sc l; [reflexivity|]. destruct l as [|x r]; [reflexivity|].
  cbn [map permute_aux]. change (f x :: map f r) with (map f (x :: r)).
  rewrite nth_map_in, del_nth_map, IH, map_length. reflexivity.
Qed.

Lemma forall2_flat_map {A B} (R : B -> B -> Prop) (f g : A -> list B) l :
  (forall x, In x l -> Forall2 R (f x) (g x)) -> Forall2 R (flat_map f l) (flat_map g l).
Proof.
  induction l as [|x l IH]; intros H; [constructor|]. cbn. apply Forall2_app; [apply H; left; reflexivity|].
  apply IH. intros y Hy. apply H. right; exact Hy.
Qed.
Lemma find_elements_r_cut rd nb sc s ids radius :
  find_elements_r rd nb sc s ids radius = Unread \/
  exists res, find_elements_r rd nb sc s ids radius = Answer res /\ Forall2 cut_of (find_elements sc s ids radius) res.
Proof.
  unfold find_elements_r. cbn zeta. match goal with |- context [if ?b then _ else _] => destruct b; [right|auto] end.
  eexists. split; [reflexivity|]. unfold find_elements. cbn zeta. rewrite !permute_map, <- !flat_map_concat_map.
  apply forall2_flat_map. intros g _. apply forall2_flat_map. intros id _.
  pose proof (find_ranked_r_cut (nb id) (ss_segs (reindex s)) (fst g) id (nth (fst g) (top_offsets (ss_segs (reindex s))) 0%nat) radius) as H.
  destruct (find_ranked (ss_segs (reindex s)) (fst g) id _ radius), (find_ranked_r (nb id) (ss_segs (reindex s)) (fst g) id _ radius); try contradiction; [|constructor].
  constructor; [|constructor]. apply cut_calc. exact H.
Qed.
Lemma get_elements_r_cut rdi rd nb sc1 sc2 l ids radius :
  get_elements_r rdi rd nb sc1 sc2 l ids radius = Unread \/
  exists res, get_elements_r rdi rd nb sc1 sc2 l ids radius = Answer res /\ Forall2 cut_of (get_elements sc1 sc2 l ids radius) res.
Proof.
  unfold get_elements_r, get_index_elements_r, get_first_with_score_r.
  destruct (forallb _ (split_scores _ _)); [|auto]. cbn [on_reply]. apply find_elements_r_cut.
Qed.

Lemma cut_elems a b : Forall2 cut_of a b -> map re_elem b = map re_elem a.
Proof. induction 1 as [|x y a b H _ IH]; [reflexivity|]. cbn. destruct H as (-> & _). rewrite IH. reflexivity. Qed.
Lemma cut_lookup r ids radius a b : exact_lookup r ids radius a -> Forall2 cut_of a b -> rank_lookup r ids radius b.
Proof.
  intros (H1 & H2 & H3) HF. pose proof (cut_elems _ _ HF) as E. split; [|split].
  - rewrite <- (map_map re_elem e_id), E, map_map. exact H1.
  - intros x. rewrite E. apply H2.
  - clear - H3 HF. induction HF as [|x y a b H _ IH]; [constructor|]. inversion H3 as [|? ? (A & B & C) HR]; subst.
    constructor; [|auto]. split; [eapply cut_rank; eauto|]. split; [eapply cut_neighbours; eauto|].
    destruct H as (_ & _ & _ & D & _). congruence.
Qed.

(** ** percentiles *)
Lemma get_element_index_r_cut rd nb l i eoff off radius :
  get_element_index_r rd nb l i eoff off radius = Done Unread \/
  match get_element_index l i eoff off radius with
  | Done o => exists o', get_element_index_r rd nb l i eoff off radius = Done (Answer o') /\
                match o, o' with Some re, Some re' => cut_of re re' | None, None => True | _, _ => False end
  | _ => get_element_index_r rd nb l i eoff off radius = Panic
  end.
Proof.
  unfold get_element_index_r, get_element_index. destruct (nth_error l i) as [s|]; [|auto].
  destruct (rd i); [|auto]. right. destruct (nth_error (sg_elems s) _) as [e|]; [|reflexivity].
  eexists. split; [reflexivity|]. apply find_ranked_r_cut.
Qed.
Lemma pct_at_r_cut rd nb l want radius :
  pct_at_r rd nb l want radius = Done Unread \/
  match pct_at l want radius with
  | Done o => exists o', pct_at_r rd nb l want radius = Done (Answer o') /\
                match o, o' with Some re, Some re' => cut_of re re' | None, None => True | _, _ => False end
  | _ => pct_at_r rd nb l want radius = Panic
  end.
Proof.
  unfold pct_at_r, pct_at. cbn zeta.
  assert (Hfin : forall si so,
    match get_element_index_r rd nb (ss_segs (l_scores l)) si (want - so) so radius with
    | Done (Answer (Some e)) => Done (Answer (Some (calc_bottom (count (ss_segs (l_scores l))) e)))
    | x => x end = Done Unread \/
    match match get_element_index (ss_segs (l_scores l)) si (want - so) so radius with
          | Done (Some e) => Done (Some (calc_bottom (count (ss_segs (l_scores l))) e))
          | x => x end with
    | Done o => exists o', match get_element_index_r rd nb (ss_segs (l_scores l)) si (want - so) so radius with
                           | Done (Answer (Some e)) => Done (Answer (Some (calc_bottom (count (ss_segs (l_scores l))) e)))
                           | x => x end = Done (Answer o') /\
                match o, o' with Some re, Some re' => cut_of re re' | None, None => True | _, _ => False end
    | _ => match get_element_index_r rd nb (ss_segs (l_scores l)) si (want - so) so radius with
                           | Done (Answer (Some e)) => Done (Answer (Some (calc_bottom (count (ss_segs (l_scores l))) e)))
                           | x => x end = Panic
    end).
  { intros si so. destruct (get_element_index_r_cut rd nb (ss_segs (l_scores l)) si (want - so)%nat so radius) as [E|E]; [rewrite E; auto|].
    right. destruct (get_element_index (ss_segs (l_scores l)) si (want - so) so radius) as [[re|]| | |]; try (rewrite E; reflexivity).
    - destruct E as ([re'|] & E & H); [|contradiction]. rewrite E. eexists. split; [reflexivity|]. apply cut_calc. exact H.
    - destruct E as ([re'|] & E & H); [contradiction|]. rewrite E. exists None. auto. }
  destruct (pct_find 0 None (top_offsets (ss_segs (l_scores l))) want) as [[si so]|]; [apply Hfin|].
  destruct (top_offsets (ss_segs (l_scores l))) as [|o offs]; [auto|apply Hfin].
Qed.

(** ** all queries *)
Lemma qok_answers_or_fails P l r : Qok P l -> ranking_of P r -> answers_or_fails l r.
Proof.
  intros HQ Hr. pose proof (qok_answers P l r HQ Hr) as HA. split.
  - intros rd off n. rewrite <- (a_top _ _ HA). unfold get_rank_top_r, get_rank_top.
    destruct (seg_idx_top (ss_segs (l_scores l)) off) as [[i eo]|]; [|auto].
    destruct (geo_r_or rd (ss_segs (l_scores l)) i eo n) as [E|E]; rewrite E; auto.
  - intros rd off n. rewrite <- (a_bottom _ _ HA). unfold get_rank_bottom_r, get_rank_bottom.
    destruct (seg_idx_bottom (ss_segs (l_scores l)) off) as [[i eo]|]; [|auto].
    destruct (geo_r_or rd (ss_segs (l_scores l)) i eo n) as [E|E]; rewrite E; auto.
  - intros rd0 rd score n Hs. destruct (a_score _ _ HA score n Hs) as (res & E & H1 & H2).
    revert E. unfold get_rank_score_desc_r, get_rank_score_desc, get_elements_from_score_r, get_elements_from_score. cbn zeta.
    destruct (seg_idx_score (ss_segs (l_scores l)) score) as [[i ab]|]; [|discriminate].
    destruct (nth_error (ss_segs (l_scores l)) i) as [s|]; [|discriminate].
    destruct (rd0 i); [|auto].
    destruct (find_idx (fun e => e_score e <=? score) (sg_elems s)) as [k|]; intros E.
    + destruct (geo_r_or rd (ss_segs (l_scores l)) i k n) as [E'|E']; rewrite E'; [auto|]. right. exists res. cbn [on_reply]. injection E as <-. auto.
    + destruct (geo_r_or rd (ss_segs (l_scores l)) (S i) 0 n) as [E'|E']; rewrite E'; [auto|]. right. exists res. cbn [on_reply]. injection E as <-. auto.
  - intros rdi rd nb sc1 sc2 ids radius Hids. destruct (get_elements_r_cut rdi rd nb sc1 sc2 l ids radius) as [E|(res & E & HF)]; [auto|].
    right. exists res. split; [exact E|]. eapply cut_lookup; [|exact HF]. apply (a_get _ _ HA). exact Hids.
  - intros rd nb m k radius Hne Hm. destruct (a_pct _ _ HA m k radius Hne Hm) as (i & re & E & H1 & H2 & H3 & H4).
    unfold get_percentile_r. unfold get_percentile in E.
    destruct (pct_at_r_cut rd nb l (N.to_nat (want_off (N.of_nat (len l)) m k)) radius) as [E'|E']; [auto|]. right.
    rewrite E in E'. destruct E' as ([re'|] & E' & HC); [|contradiction]. exists i, re'.
    split; [exact E'|]. split; [exact H1|]. split; [destruct HC as (_ & -> & _); exact H2|].
    split; [eapply cut_rank; eauto|eapply cut_neighbours; eauto].
Qed.

(** ** when a call fails *)
Lemma elems_offset_r_reads rd : forall l i first n x, NoDup (elems_of l) -> elems_offset_r rd i l first n = Answer x ->
  forall k s y, nth_error l k = Some s -> In y (sg_elems s) -> In y x -> rd (i + k)%nat = true.
Proof.
  induction l as [|s0 r IH]; intros i first n x Hnd E k s y Hk Hy Hx; [destruct k; discriminate|].
  destruct n as [|n]; [injection E as <-; destruct Hx|].
  cbn [elems_offset_r] in E. destruct (rd i) eqn:Ei; [|discriminate].
  destruct k as [|k]; [rewrite Nat.add_0_r; exact Ei|]. cbn [nth_error] in Hk.
  rewrite elems_of_cons in Hnd. apply NoDup_app_iff in Hnd as (_ & Hndr & Hdis). replace (i + S k)%nat with (S i + k)%nat by lia.
  assert (Hyr : In y (elems_of r)) by (apply elems_of_In; exists s; split; [eapply nth_error_In; eauto|exact Hy]).
  assert (Hy0 : ~ In y (sg_elems s0)) by (intros C; apply (Hdis y); auto).
  destruct (Nat.leb (length (sg_elems s0)) first); [eapply IH; eauto|].
  assert (Hsk : ~ In y (skipn first (sg_elems s0))).
  { intros C. apply Hy0. rewrite <- (firstn_skipn first (sg_elems s0)). apply in_or_app; auto. }
  destruct (Nat.ltb (S n) (length (skipn first (sg_elems s0)))).
  - injection E as <-. exfalso. apply Hsk. rewrite <- (firstn_skipn (S n) (skipn first (sg_elems s0))). apply in_or_app; auto.
  - destruct (elems_offset_r rd (S i) r 0 (S n - length (skipn first (sg_elems s0)))) as [z|] eqn:Ez; [|discriminate].
    injection E as <-. apply in_app_or in Hx as [Hx|Hx]; [contradiction|]. eapply IH; eauto.
Qed.

Lemma hd_nth L j s : nth_error L j = Some s -> hd max_segment (skipn j L) = s.
Proof. revert j. induction L as [|x L IH]; intros [|j] H; try discriminate; [injection H as ->; reflexivity|]. cbn. apply IH, H. Qed.
Lemma nth_skipn_add {A} (L : list A) j k : nth_error (skipn j L) k = nth_error L (j + k).
Proof. revert L. induction j as [|j IH]; intros L; [reflexivity|]. destruct L as [|x L]; [destruct k; reflexivity|]. apply IH. Qed.
Lemma geo_r_why rd L j eo n w : (eo = 0%nat \/ exists s, nth_error L j = Some s /\ (eo < length (sg_elems s))%nat) ->
  get_elements_offset L j eo n = w -> get_elements_offset_r rd L j eo n = Unread -> unreadable rd (wanted w) L.
Proof.
  intros Hf Ew EU. unfold get_elements_offset in Ew. rewrite elems_offset_spec in Ew.
  destruct (elems_offset_r_why rd (skipn j L) j eo n) as (k & s & Hk & Hw & Hr); [|exact EU|].
  - destruct Hf as [->|(s & Hs & Hlt)]; [auto|]. right. rewrite (hd_nth _ _ _ Hs). exact Hlt.
  - rewrite Ew in Hw. rewrite nth_skipn_add in Hk. exists (j + k)%nat, s. auto.
Qed.
Lemma in_skipn_segs L j x : In x (elems_of (skipn j L)) -> In x (elems_of L).
Proof. intros H. rewrite <- (firstn_skipn j L), elems_of_app. apply in_or_app; auto. Qed.
Lemma geo_r_reads rd L j eo n w : NoDup (elems_of L) -> get_elements_offset L j eo n = w ->
  unreadable rd (holds_one (fun x => In x w)) L -> get_elements_offset_r rd L j eo n = Unread.
Proof.
  intros Hnd Ew (i & s & Hi & (x & Hx & Hxs) & Hr). destruct (geo_r_or rd L j eo n) as [E|E]; [exact E|exfalso].
  unfold get_elements_offset_r in E. rewrite Ew in E.
  assert (Hxk : In x (elems_of (skipn j L))).
  { rewrite <- Ew in Hx. unfold get_elements_offset in Hx. rewrite elems_offset_spec in Hx.
    rewrite <- (firstn_skipn eo (elems_of (skipn j L))). apply in_or_app. right.
    rewrite <- (firstn_skipn n). apply in_or_app. left. exact Hx. }
  apply elems_of_In in Hxk as (t & Ht & Hxt). apply In_nth_error in Ht as (k & Hk). pose proof Hk as Hk'.
  rewrite nth_skipn_add in Hk'.
  assert (i = (j + k)%nat) by (eapply NoDup_elems_segs; eauto). subst i. assert (s = t) by congruence. subst t.
  rewrite <- (firstn_skipn j L), elems_of_app in Hnd. apply NoDup_app_iff in Hnd as (_ & Hnd & _).
  rewrite (elems_offset_r_reads rd _ _ _ _ _ Hnd E k s x Hk Hxs Hx) in Hr. discriminate.
Qed.
Lemma on_some_unread {A} (x : reply A) : on_reply (fun x => Answer (Some x)) x = Unread <-> x = Unread.
Proof. destruct x; cbn; split; congruence. Qed.
Lemma top_at L off j eo : cnt_ok L -> seg_idx_top L off = Some (j, eo) ->
  (exists s, nth_error L j = Some s /\ (eo < length (sg_elems s))%nat).
Proof.
  intros Hc E. unfold seg_idx_top in E. pose proof (seg_idx_top_from_spec L 0 0 off Hc ltac:(lia)) as H. rewrite E in H.
  destruct H as (_ & _ & a & s & b & -> & Hla & He & _). exists s. split; [|exact He].
  rewrite Nat.sub_0_r in Hla. rewrite <- Hla, nth_error_app2, Nat.sub_diag by lia. reflexivity.
Qed.
Lemma bottom_at L off j eo : cnt_ok L -> seg_idx_bottom L off = Some (j, eo) ->
  (exists s, nth_error L j = Some s /\ (eo < length (sg_elems s))%nat).
Proof.
  intros Hc E. unfold seg_idx_bottom in E.
  pose proof (seg_idx_bottom_from_spec (rev L) 0 off (Forall_rev Hc) ltac:(lia)) as H. rewrite E in H.
  destruct H as (_ & a & s & b & El & Hla & He & _). exists s. split; [|exact He].
  rewrite <- (rev_involutive L), El, rev_app_distr. cbn [rev]. rewrite <- app_assoc. cbn [app].
  rewrite <- Hla, <- (rev_length b), nth_error_app2, Nat.sub_diag by lia. reflexivity.
Qed.
Lemma score_at L score : tile L -> score <= max_u64 ->
  exists i s c, seg_idx_score L score = Some (i, c) /\ nth_error L i = Some s /\ covers s score max_u32 /\
    forall j t, nth_error L j = Some t -> covers t score max_u32 -> j = i.
Proof.
  intros HT Hs. destruct (seg_idx_score_spec score L HT Hs) as (a & s & b & E & EL & Hm & HF).
  assert (Hn : nth_error L (length a) = Some s) by (rewrite EL, nth_error_app2, Nat.sub_diag by lia; reflexivity).
  pose proof (tile_from_widths _ _ HT) as Hw. rewrite Forall_forall in Hw.
  destruct (tile_from_locate L topk (kk score max_u32) HT) as (j & t & Hj & Ht).
  { unfold topk, kk, max_u64, max_u32 in *. lia. }
  assert (j = length a).
  { destruct (Nat.lt_trichotomy j (length a)) as [Lt|[Eq|Gt]]; [exfalso|exact Eq|exfalso].
    - rewrite EL, nth_error_app1 in Hj by exact Lt. apply nth_error_In in Hj. rewrite Forall_forall in HF. specialize (HF t Hj).
      unfold kmin, kk, max_u32 in Ht. lia.
    - pose proof (tile_from_order _ _ _ _ _ _ HT Hn Hj Gt) as Ho. pose proof (Hw s (nth_error_In _ _ Hn)) as Hws.
      unfold kmin, kmax, kk, widths, max_u32 in *. lia. }
  subst j. assert (t = s) by congruence. subst t.
  assert (Hcov : forall u, In u L -> (covers u score max_u32 <-> kmin u <= kk score max_u32 <= kmax u)).
  { intros u Hu. specialize (Hw u Hu). unfold covers, kmin, kmax, kk, widths, max_u32 in *. lia. }
  exists (length a), s, (count a). split; [exact E|]. split; [exact Hn|]. split; [apply Hcov; [eapply nth_error_In; eauto|exact Ht]|].
  intros j u Hu Hcu. apply Hcov in Hcu; [|eapply nth_error_In; eauto]. eapply tile_from_unique; eauto.
Qed.
Lemma unread_group rd (g : list (nat * list N)) : forallb (fun p => rd (fst p)) g = false ->
  exists p, In p g /\ rd (fst p) = false.
Proof.
  induction g as [|p g IH]; [discriminate|]. cbn. destruct (rd (fst p)) eqn:E; [|eauto]. cbn. intros H.
  destruct (IH H) as (q & Hq & Hr). eauto.
Qed.

Lemma read_group rd (g : list (nat * list N)) p : forallb (fun p => rd (fst p)) g = true -> In p g -> rd (fst p) = true.
Proof. rewrite forallb_forall. auto. Qed.

(** lookups by ID *)
Lemma get_elements_r_why P l rdi rd nb sc1 sc2 ids radius : Qok P l -> Forall (fun v => v <= max_u64) ids ->
  get_elements_r rdi rd nb sc1 sc2 l ids radius = Unread <->
  unreadable rdi (fun s => exists id, In id ids /\ files s id) (ss_segs (l_index l)) \/
  unreadable rd (holds_one (fun x => In (e_id x) ids)) (ss_segs (l_scores l)).
Proof.
  intros HQ Hb. destruct (q_core _ _ HQ) as (Q & HC). pose proof (c_s _ _ _ _ HC) as HS. pose proof (c_i _ _ _ _ HC) as HI.
  assert (Hb' : Forall (fun v => v <= max_u64) (nodup N.eq_dec ids)).
  { rewrite Forall_forall in *. intros v Hv. apply nodup_In in Hv. auto. }
  destruct (split_scores_spec (ss_segs (l_index l)) (nodup N.eq_dec ids) (so_tile _ _ HI) (c_al _ _ _ _ HC) Hb') as (G1 & _ & G3). cbn zeta in *.
  set (g := split_scores (ss_segs (l_index l)) (nodup N.eq_dec ids)) in *.
  assert (Hidx : forallb (fun p => rdi (fst p)) g = false <-> unreadable rdi (fun s => exists id, In id ids /\ files s id) (ss_segs (l_index l))).
  { split.
    - intros H. apply unread_group in H as (p & Hp & Hr). rewrite Forall_forall in G3. destruct (G3 p Hp) as (Hne & s & Hs & Ho).
      exists (fst p), s. split; [exact Hs|]. split; [|exact Hr]. destruct (snd p) as [|id rest] eqn:E; [congruence|].
      exists id. split; [|inversion Ho; assumption]. apply (nodup_In N.eq_dec), sort_ids_desc_In. rewrite <- G1.
      apply in_concat. exists (snd p). split; [apply in_map, Hp|]. rewrite E. left; reflexivity.
    - intros (i & s & Hi & (id & Hid & Ho) & Hr). apply not_true_is_false. intros C.
      apply (nodup_In N.eq_dec), sort_ids_desc_In in Hid. rewrite <- G1 in Hid. apply in_concat in Hid as (ids' & Hids & Hin).
      apply in_map_iff in Hids as (p & <- & Hp). rewrite Forall_forall in G3. destruct (G3 p Hp) as (_ & t & Ht & Hot).
      rewrite Forall_forall in Hot. specialize (Hot id Hin).
      assert (fst p = i).
      { pose proof (c_al _ _ _ _ HC) as HA. pose proof (tile_from_widths _ _ (so_tile _ _ HI)) as Hw. rewrite Forall_forall in Hw.
        pose proof (aligned_one _ s HA (nth_error_In _ _ Hi)) as As. pose proof (aligned_one _ t HA (nth_error_In _ _ Ht)) as At.
        pose proof (Hw s (nth_error_In _ _ Hi)) as Ws. pose proof (Hw t (nth_error_In _ _ Ht)) as Wt.
        destruct (Nat.lt_trichotomy (fst p) i) as [Lt|[Eq|Gt]]; [exfalso|exact Eq|exfalso].
        - pose proof (tile_from_order _ _ _ _ _ _ (so_tile _ _ HI) Ht Hi Lt) as O.
          unfold aligned, owns, files, kmin, kmax, kk, widths, max_u32 in *. inversion As; inversion At; subst. lia.
        - pose proof (tile_from_order _ _ _ _ _ _ (so_tile _ _ HI) Hi Ht Gt) as O.
          unfold aligned, owns, files, kmin, kmax, kk, widths, max_u32 in *. inversion As; inversion At; subst. lia. }
      pose proof (read_group _ _ _ C Hp) as Hrt. congruence. }
  unfold get_elements_r, get_index_elements_r, get_first_with_score_r. fold g.
  destruct (forallb (fun p => rdi (fst p)) g) eqn:Eg.
  2:{ cbn [on_reply]. split; [intros _; left; apply Hidx; reflexivity|auto]. }
  cbn [on_reply]. change (filter (fun e => mem_id (e_score e) ids) (get_first_with_score sc1 (ss_segs (l_index l)) (nodup N.eq_dec ids))) with (get_index_elements sc1 l ids).
  destruct (index_elements_spec _ _ _ sc1 _ HC Hb) as (Hd & Hiff).
  destruct (reindex_idx (l_scores l) (tile_nonempty _ (so_tile _ _ HS)) (q_idx _ _ HQ)) as (Ei & Es & _).
  pose proof (c_nd _ _ _ _ HC) as Hnd. unfold find_elements_r. rewrite Es, Ei. set (L := ss_segs (l_scores l)) in *. cbn zeta.
  match goal with |- (if forallb _ ?gr then _ else _) = _ <-> _ => set (G := gr) end.
  assert (HG : forall i (d : list N), In (i, d) G <-> (i < length L)%nat /\ d <> [] /\ d = ids_for (build_idx L) i (get_index_elements sc1 l ids)).
  { intros i d. unfold G. rewrite filter_In. unfold mapi. rewrite mapi_seq with (g := fun i => (i, ids_for (build_idx L) i (get_index_elements sc1 l ids))) by reflexivity.
    rewrite in_map_iff. cbn [snd]. split.
    - intros ((j & E & Hj) & Hl). injection E as -> <-. apply in_seq in Hj. split; [lia|]. split; [|reflexivity]. intros C. rewrite C in Hl. discriminate.
    - intros (Hi & Hne & ->). split; [|destruct (ids_for (build_idx L) i _); [congruence|reflexivity]]. exists i. split; [reflexivity|]. apply in_seq. lia. }
  assert (Hsc : forallb (fun p : nat * list N => rd (fst p)) G = false <-> unreadable rd (holds_one (fun x => In (e_id x) ids)) L).
  { split.
    - intros H. apply unread_group in H as ((i & d) & Hp & Hr). cbn [fst] in Hr. apply HG in Hp as (Hi & Hne & Ed).
      destruct d as [|id d]; [congruence|]. assert (Hin : In id (ids_for (build_idx L) i (get_index_elements sc1 l ids))) by (rewrite <- Ed; left; reflexivity).
      unfold ids_for in Hin. apply in_map_iff in Hin as (q & Eq & Hq). apply filter_In in Hq as (Hq & Et). apply Nat.eqb_eq in Et.
      apply Hiff in Hq as (HqQ & Hqi).
      destruct (linked_at _ _ _ _ q HC HqQ) as (a & s & b & k & x & El & Hk & Ex & Esg & _). fold L in El.
      assert (Hn : nth_error L (length a) = Some s) by (rewrite El, nth_error_app2, Nat.sub_diag by lia; reflexivity).
      rewrite <- Esg, (idx_get_build _ _ _ Hnd Hn) in Et. exists i, s. rewrite <- Et at 1. split; [exact Hn|]. split; [|exact Hr].
      exists x. split; [rewrite Ex; exact Hqi|eapply nth_error_In; eauto].
    - intros (i & s & Hi & (x & Hx & Hxs) & Hr). apply not_true_is_false. intros C.
      destruct (proj2 (c_link _ _ _ _ HC (e_id x) (sg_id s))) as (q & Hq & Eq & Et); [exists s, x; split; [eapply nth_error_In; eauto|auto]|].
      assert (Hin : In (e_id x) (ids_for (build_idx L) i (get_index_elements sc1 l ids))).
      { unfold ids_for. apply in_map_iff. exists q. split; [exact Eq|]. apply filter_In. split; [apply Hiff; split; [exact Hq|rewrite Eq; exact Hx]|].
        apply Nat.eqb_eq. rewrite Et. apply idx_get_build; assumption. }
      assert (Hp : In (i, ids_for (build_idx L) i (get_index_elements sc1 l ids)) G).
      { apply HG. split; [apply nth_error_Some; congruence|]. split; [|reflexivity]. intros C0. rewrite C0 in Hin. destruct Hin. }
      pose proof (read_group _ _ _ C Hp) as Hrt. cbn [fst] in Hrt. congruence. }
  destruct (forallb (fun p : nat * list N => rd (fst p)) G) eqn:EG.
  - split; [discriminate|]. intros [H|H]; [apply Hidx in H; discriminate|apply Hsc in H; discriminate].
  - split; [|reflexivity]. intros _. right. apply Hsc. reflexivity.
Qed.

Lemma qok_fails_exactly P l r : Qok P l -> ranking_of P r -> fails_exactly l r.
Proof.
  intros HQ Hr. pose proof (qok_answers P l r HQ Hr) as HA. pose proof (contents_ranking_q _ _ HQ) as Hc.
  rewrite (ranking_unique _ _ _ Hr Hc) in *. clear r Hr.
  destruct (q_core _ _ HQ) as (Q & HC). pose proof (c_s _ _ _ _ HC) as HS. pose proof (q_cnt _ _ HQ) as Hcnt.
  assert (Hnd : NoDup (elems_of (ss_segs (l_scores l)))) by (apply ranked_NoDup; eapply score_ok_ranked; eauto).
  split.
  - intros rd off n. pose proof (a_top _ _ HA off n) as E. unfold get_rank_top in E. unfold get_rank_top_r.
    destruct (seg_idx_top (ss_segs (l_scores l)) off) as [[i eo]|] eqn:Es.
    + rewrite on_some_unread. destruct (Nat.ltb off (length (contents l))); [|discriminate].
      assert (Ew : get_elements_offset (ss_segs (l_scores l)) i eo n = window (contents l) off n) by (unfold window; congruence).
      split; [apply geo_r_reads; assumption|]. apply geo_r_why; [right; eapply top_at; eauto|exact Ew].
    + destruct (Nat.ltb_spec off (length (contents l))) as [Hl|Hl]; [discriminate|]. split; [|discriminate].
      intros (i & s & _ & (x & Hx & _) & _). unfold window in Hx. rewrite skipn_all2, firstn_nil in Hx by exact Hl. destruct Hx.
  - intros rd off n Hoff. pose proof (a_bottom _ _ HA off n) as E. unfold get_rank_bottom in E. unfold get_rank_bottom_r.
    destruct (Nat.ltb_spec off (length (contents l))) as [_|Hl]; [|lia].
    destruct (seg_idx_bottom (ss_segs (l_scores l)) off) as [[i eo]|] eqn:Es; [|discriminate].
    rewrite on_some_unread.
    assert (Ew : get_elements_offset (ss_segs (l_scores l)) i eo n = window (contents l) (length (contents l) - 1 - off) n) by (unfold window; congruence).
    split; [apply geo_r_reads; assumption|]. apply geo_r_why; [right; eapply bottom_at; eauto|exact Ew].
  - intros rd off n Hoff. pose proof (a_bottom _ _ HA off n) as E. unfold get_rank_bottom in E. unfold get_rank_bottom_r.
    destruct (Nat.ltb_spec off (length (contents l))) as [Hl|_]; [lia|].
    destruct (seg_idx_bottom (ss_segs (l_scores l)) off) as [[i eo]|]; [discriminate|reflexivity].
  - intros rd0 rd score n Hs w. destruct (a_score _ _ HA score n Hs) as (res & E & H1 & _).
    destruct (score_at (ss_segs (l_scores l)) score (so_tile _ _ HS) Hs) as (i & s & c & Ei & Hi & Hcov & Huniq).
    assert (H0 : unreadable rd0 (fun s => covers s score max_u32) (ss_segs (l_scores l)) <-> rd0 i = false).
    { split; [|intros H; exists i, s; auto]. intros (j & t & Hj & Ht & Hr). rewrite <- (Huniq j t Hj Ht). exact Hr. }
    rewrite H0. revert E. unfold get_rank_score_desc_r, get_rank_score_desc, get_elements_from_score_r, get_elements_from_score. cbn zeta.
    rewrite Ei, Hi. destruct (rd0 i); [|intros _; split; auto].
    assert (Hww : forall tot o x, res = map (fun r => re_offset c (calc_bottom tot r)) (to_ranked o (sg_n s) x) -> x = w).
    { intros tot o x ->. unfold w. rewrite <- H1, map_map. cbn. symmetry. etransitivity; [|apply (to_ranked_elems o (sg_n s))]. reflexivity. }
    destruct (find_idx (fun e => e_score e <=? score) (sg_elems s)) as [k|] eqn:Ek; intros E; injection E as E; symmetry in E; apply Hww in E.
    + assert (Hk : (k < length (sg_elems s))%nat).
      { apply find_idx_some in Ek as (p & x & q & -> & <- & _). rewrite app_length. cbn. lia. }
      destruct (get_elements_offset_r rd (ss_segs (l_scores l)) i k n) as [z|] eqn:Ez; cbn [on_reply].
      * split; [|discriminate]. intros [C|C]; [discriminate|]. rewrite (geo_r_reads rd _ i k n w Hnd E C) in Ez. discriminate.
      * split; [reflexivity|]. intros _. right. eapply geo_r_why; [|exact E|exact Ez]. right. exists s. auto.
    + destruct (get_elements_offset_r rd (ss_segs (l_scores l)) (S i) 0 n) as [z|] eqn:Ez; cbn [on_reply].
      * split; [|discriminate]. intros [C|C]; [discriminate|]. rewrite (geo_r_reads rd _ (S i) 0 n w Hnd E C) in Ez. discriminate.
      * split; [reflexivity|]. intros _. right. eapply geo_r_why; [|exact E|exact Ez]. auto.
  - intros rdi rd nb sc1 sc2 ids radius Hids. apply (get_elements_r_why P); assumption.
  - intros rd nb m k radius re E. unfold get_percentile in E. unfold get_percentile_r.
    set (want := N.to_nat (want_off (N.of_nat (len l)) m k)) in *. unfold pct_at in E. unfold pct_at_r. cbn zeta in *.
    assert (Hfin : forall si so,
      match get_element_index (ss_segs (l_scores l)) si (want - so) so radius with
      | Done (Some e) => Done (Some (calc_bottom (count (ss_segs (l_scores l))) e)) | x => x end = Done (Some re) ->
      (match get_element_index_r rd nb (ss_segs (l_scores l)) si (want - so) so radius with
       | Done (Answer (Some e)) => Done (Answer (Some (calc_bottom (count (ss_segs (l_scores l))) e))) | x => x end = Done Unread <->
       unreadable rd (holds_one (eq (re_elem re))) (ss_segs (l_scores l)))).
    { clear E. intros si so E. unfold get_element_index in E. unfold get_element_index_r.
      destruct (nth_error (ss_segs (l_scores l)) si) as [s|] eqn:Hsi; [|discriminate].
      set (eo := if Nat.leb (length (sg_elems s)) (want - so) then (length (sg_elems s) - 1)%nat else (want - so)%nat) in *. cbn zeta in *.
      destruct (nth_error (sg_elems s) eo) as [e|] eqn:He; [|discriminate].
      assert (Hin : In (re_elem re) (sg_elems s)).
      { unfold find_ranked in E. rewrite Hsi in E. destruct (find_idx_id (sg_elems s) (e_id e)) as [j|]; [|discriminate].
        destruct (nth_error (sg_elems s) j) as [y|] eqn:Ey; [|discriminate]. injection E as <-. cbn. eapply nth_error_In; eauto. }
      destruct (rd si) eqn:Er.
      - split.
        + destruct (find_ranked_r nb (ss_segs (l_scores l)) si (e_id e) so radius); discriminate.
        + intros (j & t & Hj & (x & <- & Hx) & Hrj). assert (j = si) by (eapply NoDup_elems_segs; eauto). congruence.
      - split; [|reflexivity]. intros _. exists si, s. split; [exact Hsi|]. split; [|exact Er]. exists (re_elem re). auto. }
    destruct (pct_find 0 None (top_offsets (ss_segs (l_scores l))) want) as [[si so]|]; [apply Hfin, E|].
    destruct (top_offsets (ss_segs (l_scores l))) as [|o offs]; [discriminate|apply Hfin, E].
Qed.

Lemma find_elements_r_all rd nb sc s ids radius res : (forall id i, nb id i = true) ->
  find_elements_r rd nb sc s ids radius = Answer res -> res = find_elements sc s ids radius.
Proof.
  intros H. unfold find_elements_r. cbn zeta. match goal with |- context [if ?b then _ else _] => destruct b; [|discriminate] end.
  intros E. injection E as <-. unfold find_elements. cbn zeta. f_equal. f_equal. apply map_ext. intros g. apply flat_map_ext. intros id.
  rewrite find_ranked_r_all by (apply H). reflexivity.
Qed.
Lemma get_elements_r_all rdi rd nb sc1 sc2 l ids radius res : (forall id i, nb id i = true) ->
  get_elements_r rdi rd nb sc1 sc2 l ids radius = Answer res -> res = get_elements sc1 sc2 l ids radius.
Proof.
  intros H. unfold get_elements_r, get_index_elements_r, get_first_with_score_r.
  destruct (forallb _ (split_scores _ _)); [|discriminate]. cbn [on_reply]. apply find_elements_r_all. exact H.
Qed.
