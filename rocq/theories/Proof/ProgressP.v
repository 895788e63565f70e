(** Split passes make progress. *)
From Coq Require Import Strings.String.
From Verif.Lib Require Import Prelude ListAux ListLemmas SortLemmas Perm.
From Verif.Model Require Import Element Elements Segment List.
From Verif.Spec Require Import RankSpec QuerySpec AnswerSpec HistorySpec.
From Verif.Proof Require Import ElementP ElementsP SegP InvDef LookupP SplitP HistoryP ListThm.
Open Scope nat_scope.

Definition halves (e : elements) : list elements :=
  match split_size e ((length e + 1) / 2) with
  | Some [p; y :: q] => [p; y :: q]
  | _ => [e]
  end.
Definition cut (sz : nat) (e : elements) : list elements := if Nat.ltb (length e) sz then [e] else halves e.

Lemma same_key_place x y : same_key x y = true <-> same_place x y.
Proof. unfold same_key, same_place. lia. Qed.
Lemma same_place_trans x y z : same_place x y -> same_place y z -> same_place x z.
Proof. unfold same_place. intros (-> & ->) (-> & ->). auto. Qed.

Lemma tie_ext_le : forall l p, tie_ext p l <= length l.
Proof. induction l as [|x r IH]; intros p; cbn; [lia|]. destruct (same_key p x); [|lia]. specialize (IH x). lia. Qed.
Lemma tie_ext_spec : forall l p, 
  (forall k x y, k < tie_ext p l -> nth_error (p :: l) k = Some x -> nth_error (p :: l) (S k) = Some y -> same_place x y) /\
  (forall x y, nth_error (p :: l) (tie_ext p l) = Some x -> nth_error (p :: l) (S (tie_ext p l)) = Some y -> ~ same_place x y).
Proof.
  induction l as [|z r IH]; intros p; cbn [tie_ext].
  - split; [intros; lia|]. intros x y _ H. discriminate.
  - destruct (same_key p z) eqn:E.
    + destruct (IH z) as (A & B). split.
      * intros k x y Hk Hx Hy. destruct k as [|k].
        -- cbn in Hx, Hy. injection Hx as <-. injection Hy as <-. apply same_key_place. exact E.
        -- apply (A k x y); [lia| |]; assumption.
      * exact B.
    + split; [intros; lia|]. cbn. intros x y Hx Hy. injection Hx as <-. injection Hy as <-. rewrite <- same_key_place. congruence.
Qed.

Lemma nth_app_mid {A} (a b : list A) x : nth_error (a ++ x :: b) (length a) = Some x.
Proof. rewrite nth_error_app2, Nat.sub_diag by lia. reflexivity. Qed.
Lemma nth_app_mid1 {A} (a b : list A) x y : nth_error (a ++ x :: y :: b) (S (length a)) = Some y.
Proof. rewrite nth_error_app2 by lia. replace (S (length a) - length a) with 1 by lia. reflexivity. Qed.

(** a position where the cut may be *)
Definition cut_at (e : elements) (j : nat) : Prop :=
  exists x y, nth_error e (j - 1) = Some x /\ nth_error e j = Some y /\ ~ same_place x y.
Lemma can_split_at e : can_split e <-> exists j, (length e + 1) / 2 <= j /\ 1 <= j /\ cut_at e j.
Proof.
  split.
  - intros (a & x & y & b & E & H & Hn). exists (S (length a)). split; [exact H|]. split; [lia|]. exists x, y.
    replace (S (length a) - 1) with (length a) by lia.
    rewrite E at 1. rewrite nth_app_mid. rewrite E. rewrite nth_app_mid1. auto.
  - intros (j & Hj & Hj1 & x & y & Hx & Hy & Hn).
    apply nth_error_split in Hy as (l1 & b & E & L1). subst e.
    rewrite nth_error_app1 in Hx by lia. apply nth_error_split in Hx as (a & c & E2 & L2). subst l1.
    rewrite app_length in L1. cbn [length] in L1.
    assert (c = []) by (destruct c; [reflexivity|cbn in L1; lia]). subst c.
    exists a, x, y, b. rewrite <- app_assoc. cbn [app]. split; [reflexivity|]. split; [|exact Hn].
    rewrite <- app_assoc in Hj. cbn [app] in Hj. lia.
Qed.

Lemma slice_0 {A} (l : list A) n : slice l 0 n = firstn n l.
Proof. unfold slice. rewrite Nat.sub_0_r. reflexivity. Qed.
Lemma slice_to_end {A} (l : list A) n : slice l n (length l) = skipn n l.
Proof. unfold slice. apply firstn_all2. rewrite skipn_length. lia. Qed.
Lemma split_end_all e start elems : 0 < length e -> length e <= start + elems -> split_end e start elems = length e.
Proof.
  intros H1 H2. unfold split_end.
  replace (if length e <? start + elems then length e else start + elems) with (length e) by (destruct (Nat.ltb_spec (length e) (start + elems)); lia).
  destruct (length e) as [|p] eqn:E; [lia|]. destruct (nth_error e p); [|reflexivity].
  rewrite <- E, skipn_all. cbn. lia.
Qed.

Lemma halves_spec e : (~ can_split e /\ halves e = [e]) \/
  (exists j, halves e = [firstn j e; skipn j e] /\ (length e + 1) / 2 <= j < length e /\ 1 <= j /\ cut_at e j /\
     forall j', (length e + 1) / 2 <= j' -> 1 <= j' -> cut_at e j' -> j <= j').
Proof.
  assert (Hlt : forall j, cut_at e j -> j < length e).
  { intros j (x & y & _ & Hy & _). apply nth_error_Some. congruence. }
  destruct (Nat.le_gt_cases (length e) 1) as [Hs|Hs].
  - left. split.
    + intros C. apply can_split_at in C as (j & Hj & H1 & HC). apply Hlt in HC. lia.
    + unfold halves, split_size. destruct e as [|x [|? ?]]; [reflexivity|reflexivity|cbn in Hs; lia].
  - unfold halves. set (h := (length e + 1) / 2).
    assert (Hh : 1 <= h /\ h < length e /\ length e <= h + h).
    { assert (length e + 1 = 2 * h + (length e + 1) mod 2) by (apply Nat.div_mod_eq).
      pose proof (Nat.mod_upper_bound (length e + 1) 2 ltac:(lia)). lia. }
    destruct Hh as (Hh1 & Hh2 & Hh3).
    unfold split_size. destruct (Nat.leb_spec (length e) h); [lia|].
    assert (Hh2e : (length e + 2 - 1) / 2 = h) by (unfold h; f_equal; lia).
    assert (Hhd : (length e + 1) / 2 = h) by reflexivity. clearbody h.
    assert (Eh : exists h', h = S h') by (destruct h; [lia|eauto]). destruct Eh as (h' & Eh).
    rewrite Eh at 1. cbv beta iota.
    assert (Hn : (length e + h - 1) / h = 2).
    { symmetry. apply (Nat.div_unique _ h 2 (length e - h - 1)); lia. }
    rewrite Hn. rewrite Hh2e.
    destruct (nth_error e h') as [p|] eqn:Ep; [|apply nth_error_None in Ep; lia].
    set (t := tie_ext p (skipn h e)).
    assert (Hsk : skipn h' e = p :: skipn h e).
    { rewrite Eh. clear - Ep. revert e Ep. induction h' as [|k IH]; intros [|z e] Ep; try discriminate.
      - cbn in Ep. injection Ep as ->. reflexivity.
      - cbn in Ep. cbn [skipn]. rewrite (IH e Ep). reflexivity. }
    assert (Hnth : forall k, nth_error (p :: skipn h e) k = nth_error e (h' + k)).
    { intros k. rewrite <- Hsk. clear. revert e. induction h' as [|m IH]; intros e; [reflexivity|].
      destruct e as [|z e]; [destruct k; reflexivity|]. cbn [skipn Nat.add nth_error]. apply IH. }
    destruct (tie_ext_spec (skipn h e) p) as (A & B). fold t in A, B.
    pose proof (tie_ext_le (skipn h e) p) as Ht. fold t in Ht. rewrite skipn_length in Ht.
    assert (Hse : split_end e 0 h = h + t).
    { unfold split_end. cbn [Nat.add]. destruct (Nat.ltb_spec (length e) h); [lia|]. rewrite Eh at 1. rewrite Ep. reflexivity. }
    assert (Hmin : forall j', h <= j' -> cut_at e j' -> h + t <= j').
    { intros j' Hj' (x & y & Hx & Hy & Hn'). destruct (Nat.le_gt_cases (h + t) j') as [|L]; [assumption|exfalso].
      apply Hn'. apply (A (j' - h) x y); [lia| |]; rewrite Hnth.
      - replace (h' + (j' - h)) with (j' - 1) by lia. exact Hx.
      - replace (h' + S (j' - h)) with j' by lia. exact Hy. }
    cbn [split_loop]. cbn zeta. rewrite Hse. destruct (Nat.eqb_spec 0 (h + t)); [lia|]. rewrite (split_end_all e (h + t) h) by lia. 
    destruct (Nat.eqb_spec (h + t) (length e)) as [Ej|Ej].
    + left. split.
      * intros C. apply can_split_at in C as (j & Hj & H1 & HC). rewrite Hhd in Hj. pose proof (Hlt j HC). specialize (Hmin j Hj HC). lia.
      * reflexivity.
    + right. exists (h + t). rewrite slice_0, slice_to_end.
      assert (Hne : exists y q, skipn (h + t) e = y :: q).
      { destruct (skipn (h + t) e) as [|y q] eqn:E; [|eauto]. apply (f_equal (@length element)) in E. rewrite skipn_length in E. cbn in E. lia. }
      destruct Hne as (y & q & Eq). rewrite Eq. split; [destruct h; [lia|reflexivity]|]. split; [lia|]. split; [lia|]. split; [|auto].
      unfold cut_at.
      destruct (nth_error e (h + t - 1)) as [x|] eqn:Ex; [|apply nth_error_None in Ex; lia].
      destruct (nth_error e (h + t)) as [z|] eqn:Ez; [|apply nth_error_None in Ez; lia].
      exists x, z. split; [reflexivity|]. split; [reflexivity|]. apply B; rewrite Hnth.
      * replace (h' + t) with (h + t - 1) by lia. exact Ex.
      * replace (h' + S t) with (h + t) by lia. exact Ez.
Qed.

Lemma cut_cut_spec sz e : cut_spec sz e (cut sz e).
Proof.
  unfold cut, cut_spec. destruct (Nat.ltb_spec (length e) sz) as [L|L]; [left; auto|].
  destruct (halves_spec e) as [(Hn & ->)|(j & -> & Hj & Hj1 & HC & Hmin)]; [left; auto|right].
  split; [exact L|]. split; [apply can_split_at; exists j; repeat split; auto; lia|].
  destruct HC as (x & y & Hx & Hy & Hn).
  assert (Hf : firstn j e = firstn (j - 1) e ++ [x]).
  { clear - Hx Hj1. replace j with (S (j - 1)) at 1 by lia. revert Hx. generalize (j - 1). clear.
    intros n. revert e. induction n as [|n IH]; intros [|z e] H; try discriminate.
    - cbn in H. injection H as ->. reflexivity.
    - cbn in H. cbn [firstn app]. rewrite <- (IH e H). reflexivity. }
  assert (Hs : skipn j e = y :: skipn (S j) e).
  { clear - Hy. revert e Hy. induction j as [|k IH]; intros [|z e] Hy; try discriminate.
    - cbn in Hy. injection Hy as ->. reflexivity.
    - cbn in Hy. cbn [skipn]. rewrite (IH e Hy). reflexivity. }
  assert (Hla : length (firstn (j - 1) e) = j - 1) by (rewrite firstn_length; lia).
  exists (firstn (j - 1) e), x, y, (skipn (S j) e). split; [congruence|]. split.
  { rewrite <- (firstn_skipn j e) at 1. rewrite Hf, Hs, <- app_assoc. reflexivity. }
  split; [exact Hn|]. split; [lia|]. intros a' x' y' b' E H' N'. rewrite Hla.
  assert (cut_at e (S (length a'))).
  { exists x', y'. replace (S (length a') - 1) with (length a') by lia. rewrite E.
    rewrite nth_app_mid, nth_app_mid1. auto. }
  specialize (Hmin (S (length a')) ltac:(lia) ltac:(lia) H). lia.
Qed.

(** ** the loop without merging *)
Lemma split_seg_halves id now s :
  match split_seg false id now s with
  | None => halves (sg_elems s) = [sg_elems s]
  | Some (s1, s2, _) => halves (sg_elems s) = [sg_elems s1; sg_elems s2] /\
                        sg_n s1 = length (sg_elems s1) /\ sg_n s2 = length (sg_elems s2)
  end.
Proof.
  unfold split_seg, halves. destruct (split_size _ _) as [[|p [|q [|? ?]]]|]; try reflexivity.
  - destruct q as [|y q]; [reflexivity|]. destruct (min_max (y :: q)) as (((? & ?) & ?) & ?).
    destruct (above_this _ _). cbn. auto.
  - destruct q; reflexivity.
Qed.

Lemma map_upd_nth {A B} (g : A -> B) (f : A -> A) i : forall l, (forall x, g (f x) = g x) -> map g (upd_nth i f l) = map g l.
Proof.
  induction i as [|i IH]; intros [|x l] H; cbn; try reflexivity; f_equal; auto.
Qed.

Lemma loop_cut ms sz now : forall fuel i l next us upd l' next' us' upd',
  cnt_ok l -> split_loop_segs fuel false false ms sz now i l next us upd = Done (l', next', us', upd') ->
  cnt_ok l' /\
  map sg_elems l' = map sg_elems (firstn i l) ++ flat_map (cut sz) (map sg_elems (skipn i l)).
Proof.
  induction fuel as [|f IH]; intros i l next us upd l' next' us' upd' Hc E; cbn [split_loop_segs] in E;
    destruct (nth_error l i) as [s|] eqn:Hs; try discriminate.
  - injection E as <- <- <- <-. split; [exact Hc|]. apply nth_error_None in Hs.
    rewrite (skipn_all2 l) by lia. rewrite (firstn_all2 l) by lia. cbn. rewrite app_nil_r. reflexivity.
  - destruct (nth_error_split l i Hs) as (a & b & Hl & Hi).
    assert (Hsk : skipn i l = s :: b) by (rewrite Hl, skipn_app, <- Hi, skipn_all, Nat.sub_diag; reflexivity).
    assert (Hfi : firstn i l = a) by (rewrite Hl, firstn_app, <- Hi, firstn_all, Nat.sub_diag; cbn; apply app_nil_r).
    assert (Hsk1 : skipn (S i) l = b) by (rewrite Hl, skipn_app, (skipn_all2 a) by lia; replace (S i - length a) with 1 by lia; reflexivity).
    rewrite Hsk, Hfi. cbn [map flat_map].
    assert (Hcs : sg_n s = length (sg_elems s)).
    { unfold cnt_ok in Hc. rewrite Forall_forall in Hc. apply Hc. eapply nth_error_In; eauto. }
    assert (Hstay : forall l1 us1 upd1, map sg_elems l1 = map sg_elems l -> cnt_ok l1 -> cut sz (sg_elems s) = [sg_elems s] ->
       split_loop_segs f false false ms sz now (S i) l1 next us1 upd1 = Done (l', next', us', upd') ->
       cnt_ok l' /\ map sg_elems l' = map sg_elems a ++ cut sz (sg_elems s) ++ flat_map (cut sz) (map sg_elems b)).
    { intros l1 us1 upd1 Hm Hc1 Hcut E1. destruct (IH _ _ _ _ _ _ _ _ _ Hc1 E1) as (C & M). split; [exact C|]. rewrite M.
      rewrite <- firstn_map, <- skipn_map, Hm, firstn_map, skipn_map, Hcut.
      replace (firstn (S i) l) with (a ++ [s]).
      2:{ rewrite Hl at 1. rewrite firstn_app. rewrite (firstn_all2 a) by lia. replace (S i - length a) with 1 by lia. reflexivity. }
      rewrite Hsk1, map_app. cbn [map]. rewrite <- !app_assoc. reflexivity. }
    destruct (Nat.ltb_spec (sg_n s) sz) as [L|L].
    + assert (Hcut : cut sz (sg_elems s) = [sg_elems s]) by (unfold cut; destruct (Nat.ltb_spec (length (sg_elems s)) sz); [reflexivity|lia]).
      cbn in E. apply (Hstay l us upd); auto.
    + assert (Hcut : cut sz (sg_elems s) = halves (sg_elems s)) by (unfold cut; destruct (Nat.ltb_spec (length (sg_elems s)) sz); [lia|reflexivity]).
      pose proof (split_seg_halves next now s) as HH. destruct (split_seg false next now s) as [((s1 & s2) & ch)|].
      * destruct HH as (HH & N1 & N2).
        assert (Hl2 : ins_nth (S i) (touch now s2) (upd_nth i (fun _ => touch now s1) l) = a ++ touch now s1 :: touch now s2 :: b).
        { rewrite Hl. rewrite <- Hi at 2. rewrite upd_nth_mid.
          change (a ++ touch now s1 :: b) with (a ++ [touch now s1] ++ b).
          rewrite app_assoc. replace (S i) with (length (a ++ [touch now s1])) by (rewrite app_length; cbn; lia).
          rewrite ins_nth_mid, <- app_assoc. reflexivity. }
        rewrite Hl2 in E.
        assert (Hc2 : cnt_ok (a ++ touch now s1 :: touch now s2 :: b)).
        { unfold cnt_ok in *. rewrite Hl in Hc. rewrite Forall_app in *. destruct Hc as (Ha & Hb). apply Forall_inv_tail in Hb.
          split; [exact Ha|]. repeat constructor; assumption. }
        destruct (IH _ _ _ _ _ _ _ _ _ Hc2 E) as (C & M). split; [exact C|]. rewrite M, Hcut, HH.
        replace (a ++ touch now s1 :: touch now s2 :: b) with ((a ++ [touch now s1; touch now s2]) ++ b) by (rewrite <- app_assoc; reflexivity).
        rewrite firstn_app, skipn_app, app_length. cbn [length]. replace (S (S i) - (length a + 2)) with 0 by lia.
        rewrite firstn_all2, skipn_all2 by (rewrite app_length; cbn; lia). cbn [firstn skipn app]. rewrite app_nil_r, map_app.
        cbn [map]. rewrite <- app_assoc. reflexivity.
      * apply (Hstay (upd_nth i set_n l) us upd); auto.
        -- apply map_upd_nth. reflexivity.
        -- unfold cnt_ok in *. rewrite Hl. rewrite <- Hi at 1. rewrite upd_nth_mid. rewrite Hl in Hc.
           rewrite Forall_app in *. destruct Hc as (Ha & Hb). apply Forall_inv_tail in Hb. split; [exact Ha|]. constructor; [reflexivity|assumption].
        -- congruence.
  - injection E as <- <- <- <-. split; [exact Hc|]. apply nth_error_None in Hs.
    rewrite (skipn_all2 l) by lia. rewrite (firstn_all2 l) by lia. cbn. rewrite app_nil_r. reflexivity.
Qed.

Lemma pass_cut P now l l' : Inv P l -> split_pass false now l = Done l' ->
  map sg_elems (ss_segs (l_scores l')) = flat_map (cut (l_split l)) (map sg_elems (ss_segs (l_scores l))).
Proof.
  intros HI E. unfold split_pass in E.
  destruct (split_loop_segs _ false false _ _ _ _ _ _ _ _) as [(((ss & nx) & us) & upd)| | |] eqn:E1; try discriminate.
  apply loop_cut in E1 as (_ & M); [|apply meta_cnt, HI]. cbn [firstn skipn map app] in M.
  destruct (split_loop_segs _ true true _ _ _ _ _ _ _ _) as [(((is & nxi) & ui) & updi)| | |] eqn:E2; try discriminate.
  unfold guard_ids in E. destruct (ids_ok _); [|discriminate]. injection E as <-. exact M.
Qed.

(** ** repetition *)
Definition mu (ls : list elements) : nat := list_sum (map (fun e => length e - 1) ls).
Lemma mu_app a b : mu (a ++ b) = mu a + mu b.
Proof. unfold mu. rewrite map_app, list_sum_app. reflexivity. Qed.
Lemma cut_mu sz e : settled sz e /\ cut sz e = [e] \/ mu (cut sz e) < mu [e].
Proof.
  destruct (cut_cut_spec sz e) as [(H & ->)|(_ & _ & a & x & y & b & -> & -> & _)]; [left; auto|right].
  unfold mu. cbn. rewrite !app_length. cbn [length]. lia.
Qed.
Lemma cuts_mu sz ls : Forall (settled sz) ls /\ flat_map (cut sz) ls = ls \/ mu (flat_map (cut sz) ls) < mu ls.
Proof.
  induction ls as [|e r IH]; [left; split; [constructor|reflexivity]|]. cbn [flat_map]. rewrite mu_app.
  change (e :: r) with ([e] ++ r). rewrite mu_app.
  destruct (cut_mu sz e) as [(H1 & ->)|H1], IH as [(H2 & E2)|H2].
  - left. rewrite E2. split; [constructor; assumption|reflexivity].
  - right. lia.
  - right. rewrite E2. lia.
  - right. lia.
Qed.
Lemma cut_elems sz ls : concat (flat_map (cut sz) ls) = concat ls.
Proof.
  induction ls as [|e r IH]; [reflexivity|]. cbn [flat_map concat]. rewrite concat_app, IH. f_equal.
  destruct (cut_cut_spec sz e) as [(_ & ->)|(_ & _ & a & x & y & b & -> & -> & _)]; cbn; rewrite ?app_nil_r, <- ?app_assoc; reflexivity.
Qed.
Lemma mu_le ls : mu ls <= length (concat ls).
Proof. induction ls as [|e r IH]; [reflexivity|]. change (e :: r) with ([e] ++ r). rewrite mu_app. unfold mu at 1. cbn. rewrite app_length. lia. Qed.

Lemma settled_stays merge split m : forall nows l l', reachable merge split l m -> Forall tick nows ->
  Forall (settled split) (map sg_elems (ss_segs (l_scores l))) -> split_passes nows l = Done l' ->
  Forall (settled split) (map sg_elems (ss_segs (l_scores l'))).
Proof.
  induction nows as [|now r IH]; intros l1 l' HR Hn A E; cbn [split_passes] in E; [injection E as <-; exact A|].
  inversion Hn as [|? ? H1 H2]; subst. destruct (split_pass false now l1) as [l2| | |] eqn:E1; try discriminate.
  assert (HR1 : reachable merge split l2 m) by (apply (R_step merge split l1 m (OSplit false now) l2 HR H1 E1)).
  apply (IH l2 l' HR1 H2); [|exact E]. destruct (reach_inv _ _ _ _ HR) as (HI & _ & HS).
  rewrite (pass_cut _ _ _ _ HI E1), HS.
  apply Forall_forall. intros x Hx. apply in_flat_map in Hx as (e & He & Hx).
  rewrite Forall_forall in A. specialize (A e He). destruct (cut_cut_spec split e) as [(_ & E2)|(L & C & _)].
  - rewrite E2 in Hx. destruct Hx as [<-|[]]. exact A.
  - destruct A; [lia|contradiction].
Qed.

Lemma passes_ok merge split m : forall nows l l', reachable merge split l m -> Forall tick nows ->
  split_passes nows l = Done l' ->
  Forall (settled split) (map sg_elems (ss_segs (l_scores l'))) \/
   mu (map sg_elems (ss_segs (l_scores l'))) + length nows <= mu (map sg_elems (ss_segs (l_scores l))).
Proof.
  induction nows as [|now r IH]; intros l l' HR Hn E; cbn [split_passes] in E.
  - injection E as <-. right. cbn. lia.
  - inversion Hn as [|? ? H1 H2]; subst. destruct (split_pass false now l) as [l1| | |] eqn:E1; try discriminate.
    assert (HR1 : reachable merge split l1 m) by (apply (R_step merge split l m (OSplit false now) l1 HR H1 E1)).
    destruct (reach_inv _ _ _ _ HR) as (HI & _ & HS).
    pose proof (pass_cut _ _ _ _ HI E1) as HC. rewrite HS in HC.
    destruct (cuts_mu split (map sg_elems (ss_segs (l_scores l)))) as [(A & B)|A].
    + left. rewrite B in HC. rewrite <- HC in A. exact (settled_stays _ _ _ _ _ _ HR1 H2 A E).
    + destruct (IH l1 l' HR1 H2 E) as [HH|HH]; [left; exact HH|right]. rewrite HC in HH. cbn [length]. lia.
Qed.

Lemma c15_pass merge split l m now l' : reachable merge split l m -> split_pass false now l = Done l' ->
  exists parts, Forall2 (cut_spec split) (map sg_elems (ss_segs (l_scores l))) parts /\
                map sg_elems (ss_segs (l_scores l')) = concat parts.
Proof.
  intros HR E. destruct (reach_inv _ _ _ _ HR) as (HI & _ & HS).
  rewrite (pass_cut _ _ _ _ HI E), HS. exists (map (cut split) (map sg_elems (ss_segs (l_scores l)))).
  split; [|symmetry; symmetry; apply flat_map_concat_map].
  induction (map sg_elems (ss_segs (l_scores l))) as [|e r IH]; constructor; [apply cut_cut_spec|exact IH].
Qed.

Lemma mu_0_settled sz ls : mu ls = 0 -> Forall (settled sz) ls.
Proof.
  induction ls as [|e r IH]; intros H; constructor.
  - right. intros (a & x & y & b & E & _). change (e :: r) with ([e] ++ r) in H. rewrite mu_app in H.
    unfold mu at 1 in H. cbn in H. rewrite E, app_length in H. cbn in H. lia.
  - apply IH. change (e :: r) with ([e] ++ r) in H. rewrite mu_app in H. lia.
Qed.

Lemma c15_converges merge split l m nows l' : reachable merge split l m -> Forall tick nows ->
  length (stored_in l) <= length nows -> split_passes nows l = Done l' ->
  Forall (settled split) (map sg_elems (ss_segs (l_scores l'))) /\ stored_in l' = stored_in l.
Proof.
  intros HR Hn HL E. split.
  - destruct (passes_ok _ _ _ _ _ _ HR Hn E) as [H|H]; [exact H|]. apply mu_0_settled.
    pose proof (mu_le (map sg_elems (ss_segs (l_scores l)))) as H1. unfold stored_in in HL. lia.
  - clear HL. revert l HR E. induction Hn as [|now r H1 H2 IH]; intros l HR E; cbn [split_passes] in E; [congruence|].
    destruct (split_pass false now l) as [l1| | |] eqn:E1; try discriminate.
    assert (HR1 : reachable merge split l1 m) by (apply (R_step merge split l m (OSplit false now) l1 HR H1 E1)).
    rewrite (IH l1 HR1 E). destruct (reach_inv _ _ _ _ HR) as (HI & _ & HS).
    unfold stored_in. rewrite (pass_cut _ _ _ _ HI E1). apply cut_elems.
Qed.
