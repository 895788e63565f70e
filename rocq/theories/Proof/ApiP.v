(** Ranks in responses. *)
From Coq Require Import Strings.String ZArith.
From Verif.Lib Require Import Prelude ListAux ListLemmas SortLemmas.
From Verif.Model Require Import Element Elements Segment List Api.
From Verif.Spec Require Import RankSpec QuerySpec HistorySpec AnswerSpec ShownSpec.
From Verif.Proof Require Import ElementP ListThm.
Open Scope N_scope.

Lemma to_ranked_elems t b l : map sh_elem (to_ranked t b l) = l.
Proof. revert t b. induction l as [|e l IH]; intros t b; cbn; [reflexivity|]. rewrite IH. reflexivity. Qed.
Lemma to_ranked_nth : forall l t b k, nth_error (to_ranked t b l) k = option_map (fun e => mkSh e (t + Z.of_nat k) (b - Z.of_nat k)) (nth_error l k).
Proof.
  induction l as [|e l IH]; intros t b [|k]; try reflexivity.
  - cbn. rewrite Z.add_0_r, Z.sub_0_r. reflexivity.
  - cbn [to_ranked nth_error]. rewrite IH. destruct (nth_error l k); [|reflexivity]. cbn [option_map]. do 2 f_equal; lia.
Qed.
Lemma window_nth (r : list element) off n k x : nth_error (firstn n (skipn off r)) k = Some x -> nth_error r (off + k) = Some x /\ (k < n)%nat.
Proof.
  intros E. assert (K : (k < n)%nat).
  { destruct (Nat.lt_ge_cases k n); [assumption|]. rewrite (proj2 (nth_error_None _ _)) in E; [discriminate|]. rewrite firstn_length. lia. }
  split; [|exact K]. rewrite nth_error_firstn in E by exact K. rewrite nth_error_skipn in E. exact E.
Qed.
Lemma window_shown r off n k s : nth_error (to_ranked (Z.of_nat off) (Z.of_nat (length r) - Z.of_nat off - 1) (firstn n (skipn off r))) k = Some s ->
  shown_at r (off + k) s.
Proof.
  rewrite to_ranked_nth. destruct (nth_error (firstn n (skipn off r)) k) as [x|] eqn:E; [|discriminate]. cbn [option_map]. intros H. injection H as <-.
  apply window_nth in E as (E & _). repeat split; cbn; [exact E|lia|lia].
Qed.
Lemma c44_range_top merge split l m r off n res : reachable merge split l m -> ranking_of (sin m) r -> range_top l off n = Some res ->
  map sh_elem res = firstn n (skipn off r) /\ forall k s, nth_error res k = Some s -> shown_at r (off + k) s.
Proof.
  intros H Hr. pose proof (reach_answers _ _ _ _ _ H Hr) as A. unfold range_top. rewrite (a_top _ _ A), (a_len _ _ A).
  destruct (Nat.ltb off (length r)); [|discriminate]. unfold answer. intros E.
  assert (Er : res = to_ranked (Z.of_nat off) (Z.of_nat (length r) - Z.of_nat off - 1) (firstn n (skipn off r))).
  { destruct (to_ranked _ _ _); [discriminate|]. congruence. }
  subst res. split; [apply to_ranked_elems|]. intros k s. apply window_shown.
Qed.
Lemma c44_range_bottom merge split l m r off n res : reachable merge split l m -> ranking_of (sin m) r -> range_bottom l off n = Some res ->
  (off < length r)%nat /\ map sh_elem res = firstn n (skipn (length r - 1 - off) r) /\
  forall k s, nth_error res k = Some s -> shown_at r (length r - 1 - off + k) s.
Proof.
  intros H Hr. pose proof (reach_answers _ _ _ _ _ H Hr) as A. unfold range_bottom. rewrite (a_bottom _ _ A), (a_len _ _ A).
  destruct (Nat.ltb_spec off (length r)) as [L|]; [|discriminate]. unfold answer. intros E.
  assert (Er : res = to_ranked (Z.of_nat (length r - 1 - off)) (Z.of_nat (length r) - Z.of_nat (length r - 1 - off) - 1) (firstn n (skipn (length r - 1 - off) r))).
  { replace (Z.of_nat (length r - 1 - off)) with (Z.of_nat (length r) - Z.of_nat off - 1)%Z by lia.
    replace (Z.of_nat (length r) - (Z.of_nat (length r) - Z.of_nat off - 1) - 1)%Z with (Z.of_nat off) by lia.
    destruct (to_ranked _ _ _); [discriminate|]. congruence. }
  subst res. split; [exact L|]. split; [apply to_ranked_elems|]. intros k s. apply window_shown.
Qed.
Lemma c44_range_none merge split l m r off n : reachable merge split l m -> ranking_of (sin m) r ->
  (range_top l off n = None <-> (length r <= off \/ n = 0)%nat) /\ (range_bottom l off n = None <-> (length r <= off \/ n = 0)%nat).
Proof.
  intros H Hr. pose proof (reach_answers _ _ _ _ _ H Hr) as A. unfold range_top, range_bottom. rewrite (a_top _ _ A), (a_bottom _ _ A).
  assert (W : forall a b (w : list element), answer (to_ranked a b w) = None <-> w = []) by (intros a b [|x w]; cbn; split; congruence).
  assert (V : forall o, (o < length r)%nat -> firstn n (skipn o r) = [] <-> n = 0%nat).
  { intros o Ho. split; [|intros ->; reflexivity]. intros E. apply (f_equal (@length _)) in E. rewrite firstn_length, skipn_length in E. cbn in E. lia. }
  destruct (Nat.ltb_spec off (length r)) as [L|L].
  - rewrite !W, !V by lia. split; split; intros; try lia; auto.
  - split; split; intros; auto; lia.
Qed.

(** neighbours *)
Lemma c44_below r radius re k s i : true_rank r re -> true_neighbours r radius re -> re_top re = Z.of_nat i ->
  nth_error (snd (full re)) k = Some s -> shown_at r (i + 1 + k) s.
Proof.
  intros (j & E & Et & Eb) Hn Hi. assert (j = i) by lia. subst j. destruct (Hn i Hi) as (Hb & _).
  unfold full. cbn [snd]. rewrite to_ranked_nth, Hb.
  destruct (nth_error (firstn radius (skipn (S i) r)) k) as [x|] eqn:Ex; [|discriminate]. cbn [option_map]. intros H. injection H as <-.
  apply window_nth in Ex as (Ex & _). split; [|split]; cbn.
  - replace (i + 1 + k)%nat with (S i + k)%nat by lia. exact Ex.
  - lia.
  - lia.
Qed.
Lemma rev_nth_error {A} (l : list A) k : (k < length l)%nat -> nth_error (rev l) k = nth_error l (length l - 1 - k).
Proof.
  induction l as [|x l IH]; cbn [rev length]; intros H; [lia|].
  destruct (Nat.eq_dec k (length l)) as [->|Hk].
  - rewrite nth_error_app2 by (rewrite rev_length; lia). rewrite rev_length, Nat.sub_diag. replace (S (length l) - 1 - length l)%nat with 0%nat by lia. reflexivity.
  - rewrite nth_error_app1 by (rewrite rev_length; lia). rewrite IH by lia. replace (S (length l) - 1 - k)%nat with (S (length l - 1 - k)) by lia. reflexivity.
Qed.
(** the k-th nearest of c neighbours above, at position i-1-k, is shown with the ranks of
    position i-c+k *)
Lemma c44_above r radius re k s i : true_rank r re -> true_neighbours r radius re -> re_top re = Z.of_nat i ->
  nth_error (fst (full re)) k = Some s ->
  let c := length (re_above re) in
  c = Nat.min radius i /\ (k < c)%nat /\ nth_error r (i - 1 - k) = Some (sh_elem s) /\ sh_top s = Z.of_nat (i - c + k) /\
  sh_bottom s = (Z.of_nat (length r) - 1 - Z.of_nat (i - c + k))%Z.
Proof.
  intros (j & E & Et & Eb) Hn Hi. assert (j = i) by lia. subst j. destruct (Hn i Hi) as (_ & Ha).
  unfold full. cbn [fst]. rewrite to_ranked_nth. cbv zeta.
  assert (Li : (i < length r)%nat) by (apply nth_error_Some; congruence).
  assert (Lc : length (re_above re) = Nat.min radius i) by (rewrite Ha, firstn_length, rev_length, firstn_length; lia).
  destruct (nth_error (re_above re) k) as [x|] eqn:Ex; [|discriminate]. cbn [option_map]. intros H. injection H as <-.
  assert (Lk : (k < length (re_above re))%nat) by (apply nth_error_Some; congruence). 
  split; [exact Lc|]. split; [exact Lk|]. split; [|cbn [sh_top sh_bottom]; rewrite Et, Eb; lia].
  rewrite Ha in Ex. rewrite nth_error_firstn in Ex by lia. rewrite rev_nth_error in Ex by (rewrite firstn_length; lia).
  rewrite firstn_length in Ex. rewrite Nat.min_l in Ex by lia. rewrite nth_error_firstn in Ex by lia. exact Ex.
Qed.
Lemma ranked_nodup r : ranked r -> NoDup r.
Proof.
  induction 1 as [|x r _ IH Hx]; constructor; [|exact IH]. intros Hi. rewrite Forall_forall in Hx. exact (Above_irrefl _ (Hx _ Hi)).
Qed.
Lemma c44_above_true r radius re k s i : ranked r -> true_rank r re -> true_neighbours r radius re -> re_top re = Z.of_nat i ->
  nth_error (fst (full re)) k = Some s ->
  (truly_shown r s <-> length (re_above re) = (2 * k + 1)%nat).
Proof.
  intros Hr H1 H2 H3 H4. destruct (c44_above r radius re k s i H1 H2 H3 H4) as (Ec & Lk & En & Et & Eb). split.
  - intros (p & Ep & Ept & _). assert (p = i - 1 - k)%nat.
    { eapply (proj1 (NoDup_nth_error r)); [apply ranked_nodup, Hr|apply nth_error_Some; congruence|congruence]. }
    lia.
  - intros E. exists (i - 1 - k)%nat. split; [exact En|]. rewrite Et, Eb. lia.
Qed.

(** ** several elements *)
Lemma sort_ranked_perm l : Permutation (sort_ranked l) l.
Proof. apply sort_by_perm. Qed.
Lemma exact_sorted r ids radius res : ranked r -> exact_lookup r ids radius res ->
  map re_elem (sort_ranked res) = filter (fun e => existsb (N.eqb (e_id e)) ids) r.
Proof.
  intros Hr (Hnd & Hin & _). apply (sorted_unique Above).
  - apply Above_irrefl.
  - apply Above_asym'.
  - assert (S1 : StronglySorted (fun a b => above (re_elem b) (re_elem a) = false) (sort_ranked res)).
    { apply (sort_by_sorted (fun a b => above (re_elem a) (re_elem b))).
      - intros x y. rewrite above_spec, above_false. apply Above_asym.
      - intros x y z. rewrite !above_false. intros H1 H2 H3.
        revert H1 H2 H3. unfold Above. lia. }
    assert (S2 : NoDup (map (fun re => e_id (re_elem re)) (sort_ranked res))).
    { eapply Permutation_NoDup; [|exact Hnd]. apply Permutation_map. symmetry. apply sort_ranked_perm. }
    induction S1 as [|x l S1 IH Hx]; [constructor|]. cbn in S2 |- *. inversion S2; subst. constructor; [apply IH; assumption|].
    apply Forall_forall. intros y Hy. apply in_map_iff in Hy as (z & <- & Hz). rewrite Forall_forall in Hx. specialize (Hx z Hz). apply above_false in Hx.
    assert (e_id (re_elem x) <> e_id (re_elem z)). { intros C. apply H1. rewrite C. apply (in_map (fun re => e_id (re_elem re))), Hz. }
    revert Hx H. unfold Above. lia.
  - apply ListThm.filter_ranked, Hr.
  - intros x. rewrite filter_In. assert (E : In x (map re_elem (sort_ranked res)) <-> In x (map re_elem res)).
    { split; apply Permutation_in; [|symmetry]; apply Permutation_map, sort_ranked_perm. }
    rewrite E, Hin, existsb_exists. split.
    + intros (A & B). split; [exact A|]. exists (e_id x). rewrite N.eqb_refl. auto.
    + intros (A & (v & Hv & Ev)). apply N.eqb_eq in Ev. rewrite Ev. auto.
Qed.
Lemma dedup_In v ids : In v (dedup_ids ids) <-> In v ids.
Proof. unfold dedup_ids, sort_ids_desc. rewrite sort_by_In. apply nodup_In. Qed.
Lemma dedup_nodup ids : NoDup (dedup_ids ids).
Proof. unfold dedup_ids, sort_ids_desc. eapply Permutation_NoDup; [symmetry; apply sort_by_perm|apply NoDup_nodup]. Qed.
Lemma dedup_filter ids r : filter (fun e => existsb (N.eqb (e_id e)) (dedup_ids ids)) r = filter (fun e => existsb (N.eqb (e_id e)) ids) r.
Proof.
  apply filter_ext. intros e. apply Bool.eq_iff_eq_true. rewrite !existsb_exists. split; intros (v & Hv & Ev); exists v; split; auto; apply dedup_In; auto.
Qed.
Lemma dedup_bound ids : Forall (fun v => v <= max_u64) ids -> Forall (fun v => v <= max_u64) (dedup_ids ids).
Proof. rewrite !Forall_forall. intros H v Hv. apply H, dedup_In, Hv. Qed.

Lemma sort_ranked_shown r ids radius res : exact_lookup r ids radius res ->
  Forall (truly_shown r) (map show (sort_ranked res)).
Proof.
  intros (_ & _ & H). apply Forall_forall. intros s Hs. apply in_map_iff in Hs as (re & <- & Hre).
  rewrite Forall_forall in H. destruct (H re) as ((i & A & B & C) & _); [eapply Permutation_in; [apply sort_ranked_perm|exact Hre]|].
  exists i. repeat split; assumption.
Qed.
Lemma show_elem l : map sh_elem (map show l) = map re_elem l.
Proof. rewrite map_map. reflexivity. Qed.

Lemma c51_multi merge split l m r sc1 sc2 ids found missing : reachable merge split l m -> ranking_of (sin m) r ->
  Forall (fun v => v <= max_u64) ids -> get_multi sc1 sc2 l ids = (found, missing) ->
  map sh_elem found = filter (fun e => existsb (N.eqb (e_id e)) ids) r /\ Forall (truly_shown r) found /\
  StronglySorted N.lt missing /\ forall v, In v missing <-> In v ids /\ forall e, In e r -> e_id e <> v.
Proof.
  intros H Hr Hi. pose proof (reach_answers _ _ _ _ _ H Hr) as A. unfold get_multi. cbv zeta.
  destruct (dedup_ids ids) as [|v0 vs] eqn:Ed.
  - intros E. injection E as <- <-. assert (ids = []).
    { destruct ids as [|v ids]; [reflexivity|]. exfalso. assert (C : In v (dedup_ids (v :: ids))) by (apply dedup_In; left; reflexivity). rewrite Ed in C. destruct C. }
    subst ids. split; [|split; [constructor|split; [constructor|intros v; split; [intros []|intros ([] & _)]]]].
    cbn. clear. induction r; [reflexivity|assumption].
  - rewrite <- Ed. set (re := get_elements sc1 sc2 l (dedup_ids ids) 0). intros E. injection E as E1 E2.
    pose proof (a_get _ _ A sc1 sc2 (dedup_ids ids) 0 (dedup_bound _ Hi)) as X. fold re in X.
    split; [|split; [|]].
    + subst found. rewrite show_elem, (exact_sorted r _ _ _ (proj1 Hr) X). apply dedup_filter.
    + subst found. eapply sort_ranked_shown, X.
    + destruct X as (X1 & X2 & _).
      assert (Xr : forall v, In v (map (fun x => e_id (re_elem x)) re) <-> In v ids /\ exists e, In e r /\ e_id e = v).
      { intros v. split.
        - intros Hv. apply in_map_iff in Hv as (y & <- & Hy). apply (in_map re_elem), X2 in Hy as (Y1 & Y2). split; [apply dedup_In; exact Y2|eauto].
        - intros (Hv & e & He & <-). assert (Y : In e (map re_elem re)) by (apply X2; split; [exact He|apply dedup_In; exact Hv]).
          apply in_map_iff in Y as (y & <- & Hy). apply (in_map (fun x => e_id (re_elem x))), Hy. }
      destruct (Nat.eqb_spec (length re) (length (dedup_ids ids))) as [L|L].
      * subst missing. split; [constructor|]. intros v. split; [intros []|]. intros (Hv & Hn). exfalso.
        assert (Inc : incl (dedup_ids ids) (map (fun x => e_id (re_elem x)) re)).
        { apply NoDup_length_incl; [exact X1|rewrite map_length; lia|]. intros w Hw. apply Xr in Hw as (Hw & _). apply dedup_In, Hw. }
        destruct (proj1 (Xr v) (Inc v (proj2 (dedup_In v ids) Hv))) as (_ & e & He & Ee). exact (Hn e He Ee).
      * subst missing. assert (Nd : NoDup (sort_by N.ltb (not_in (dedup_ids ids) (map (fun x => e_id (re_elem x)) re)))).
        { eapply Permutation_NoDup; [symmetry; apply sort_by_perm|]. unfold not_in. apply NoDup_filter, NoDup_nodup. }
        split.
        -- assert (Ss : StronglySorted (fun a b => (b <? a) = false) (sort_by N.ltb (not_in (dedup_ids ids) (map (fun x => e_id (re_elem x)) re)))).
           { apply (sort_by_sorted N.ltb).
             - intros x y. rewrite N.ltb_lt, N.ltb_ge. lia.
             - intros x y z. rewrite !N.ltb_ge. lia. }
           revert Nd. induction Ss as [|x q Ss IH Hx]; intros Nd; constructor; inversion Nd; subst; [auto|].
           rewrite Forall_forall in *. intros y Hy. specialize (Hx y Hy). apply N.ltb_ge in Hx. assert (x <> y) by congruence. lia.
        -- intros v. rewrite sort_by_In. unfold not_in. rewrite filter_In, nodup_In, dedup_In, negb_true_iff.
           split.
           ++ intros (Hv & Hb). split; [exact Hv|]. intros e He Ee. assert (C : existsb (N.eqb v) (map (fun x => e_id (re_elem x)) re) = true).
              { apply existsb_exists. exists v. split; [apply Xr; eauto|apply N.eqb_refl]. }
              congruence.
           ++ intros (Hv & Hn). split; [exact Hv|]. destruct (existsb _ _) eqn:Eb; [|reflexivity]. exfalso.
              apply existsb_exists in Eb as (w & Hw & Ew). apply N.eqb_eq in Ew. subst w. apply Xr in Hw as (_ & e & He & Ee). exact (Hn e He Ee).
Qed.

Lemma find_pos_spec id : forall l, match find_pos id l with
  | None => forall x, In x l -> e_id (re_elem x) <> id
  | Some f => exists a x b, l = a ++ x :: b /\ length a = f /\ e_id (re_elem x) = id end.
Proof.
  induction l as [|y l IH]; cbn [find_pos]; [intros x []|]. destruct (N.eqb_spec (e_id (re_elem y)) id) as [E|E].
  - exists [], y, l. auto.
  - destruct (find_pos id l) as [f|]; cbn [option_map].
    + destruct IH as (a & x & b & -> & <- & Ex). exists (y :: a), x, b. auto.
    + intros x [<-|Hx]; auto.
Qed.
Lemma c51_around merge split l m r sc1 sc2 id ids range : reachable merge split l m -> ranking_of (sin m) r ->
  Forall (fun v => v <= max_u64) (id :: ids) ->
  let chosen := filter (fun e => existsb (N.eqb (e_id e)) (id :: ids)) r in
  match get_around sc1 sc2 l id ids range with
  | None => forall e, In e r -> e_id e <> id
  | Some (c, ab, be, lt, lb) =>
      exists a x b, chosen = a ++ x :: b /\ e_id x = id /\ sh_elem c = x /\
        map sh_elem ab = skipn (length a - range) a /\ map sh_elem be = firstn range b /\ lt = length a /\ lb = length b /\
        Forall (truly_shown r) (c :: ab ++ be)
  end.
Proof.
  intros H Hr Hi chosen. pose proof (reach_answers _ _ _ _ _ H Hr) as A. unfold get_around. cbv zeta.
  set (re0 := get_elements sc1 sc2 l (dedup_ids (ids ++ [id])) 0). set (re := sort_ranked re0).
  assert (Hi' : Forall (fun v => v <= max_u64) (ids ++ [id])).
  { inversion Hi; subst. apply Forall_app. split; [assumption|repeat constructor; assumption]. }
  pose proof (a_get _ _ A sc1 sc2 (dedup_ids (ids ++ [id])) 0 (dedup_bound _ Hi')) as X. fold re0 in X.
  assert (Ec : map re_elem re = chosen).
  { unfold re, chosen. rewrite (exact_sorted r _ _ _ (proj1 Hr) X), dedup_filter. apply filter_ext. intros e. rewrite existsb_app. cbn. rewrite orb_false_r. apply orb_comm. }
  pose proof (sort_ranked_shown _ _ _ _ X) as Sh. fold re in Sh.
  pose proof (find_pos_spec id re) as F. destruct (find_pos id re) as [f|].
  - destruct F as (a & x & b & E & <- & Ex). rewrite E. rewrite nth_error_app2 by lia. rewrite Nat.sub_diag. cbn [nth_error].
    exists (map re_elem a), (re_elem x), (map re_elem b). split; [rewrite <- Ec, E, map_app; reflexivity|].
    assert (Sk : skipn (S (length a)) (a ++ x :: b) = b).
    { rewrite skipn_app. replace (S (length a) - length a)%nat with 1%nat by lia. rewrite skipn_all2 by lia. reflexivity. }
    assert (Fi : firstn (length a) (a ++ x :: b) = a) by (rewrite firstn_app, Nat.sub_diag, firstn_all; cbn; apply app_nil_r).
    rewrite Sk, Fi. rewrite E in Sh.
    assert (Wb : (if Nat.ltb range (length b) then firstn range b else b) = firstn range b).
    { destruct (Nat.ltb_spec range (length b)); [reflexivity|]. rewrite firstn_all2 by lia. reflexivity. }
    assert (Wa : (if Nat.ltb range (length a) then skipn (length a - range) a else a) = skipn (length a - range) a).
    { destruct (Nat.ltb_spec range (length a)); [reflexivity|]. replace (length a - range)%nat with 0%nat by lia. reflexivity. }
    rewrite Wa, Wb, !show_elem.
    split; [exact Ex|]. split; [reflexivity|]. split; [rewrite skipn_map, map_length; reflexivity|]. split; [rewrite firstn_map; reflexivity|].
    split; [rewrite map_length; reflexivity|]. split; [rewrite map_length, app_length; cbn; lia|].
    rewrite Forall_forall in Sh |- *. intros s Hs. apply Sh. rewrite map_app. cbn [map]. apply in_app_iff.
    destruct Hs as [<-|Hs]; [right; left; reflexivity|]. apply in_app_iff in Hs as [Hs|Hs]; apply in_map_iff in Hs as (y & <- & Hy).
    + left. apply in_map. rewrite <- (firstn_skipn (length a - range) a). apply in_app_iff. auto.
    + right. right. apply in_map. rewrite <- (firstn_skipn range b). apply in_app_iff. auto.
  - intros e He Ee. assert (In e chosen).
    { unfold chosen. apply filter_In. split; [exact He|]. apply existsb_exists. exists id. split; [left; reflexivity|]. rewrite Ee. apply N.eqb_refl. }
    rewrite <- Ec in H0. apply in_map_iff in H0 as (y & <- & Hy). exact (F y Hy Ee).
Qed.

Lemma c44_neighbours merge split l m r sc1 sc2 ids radius re : reachable merge split l m -> ranking_of (sin m) r ->
  Forall (fun v => v <= max_u64) ids -> In re (get_elements sc1 sc2 l ids radius) ->
  Forall (truly_shown r) (snd (full re)) /\
  (forall k s, nth_error (fst (full re)) k = Some s -> (truly_shown r s <-> length (fst (full re)) = (2 * k + 1)%nat)).
Proof.
  intros H Hr Hi Hre. pose proof (reach_answers _ _ _ _ _ H Hr) as A. destruct (a_get _ _ A sc1 sc2 ids radius Hi) as (_ & _ & F).
  rewrite Forall_forall in F. destruct (F re Hre) as (T & Nb & _). pose proof T as (i & _ & Et & _). split.
  - apply Forall_forall. intros s Hs. apply In_nth_error in Hs as (k & Hk). eexists. eapply c44_below; eauto.
  - intros k s Hk. rewrite (c44_above_true r radius re k s i (proj1 Hr) T Nb Et Hk). unfold full. cbn [fst].
    rewrite <- (to_ranked_elems (re_top re - Z.of_nat (length (re_above re))) (re_bottom re + Z.of_nat (length (re_above re))) (re_above re)) at 1.
    rewrite map_length. reflexivity.
Qed.
