(** Lemmas for elements.go: deduplicate, merge, insert, delete, split, sort. *)
From Verif.Lib Require Import Prelude ListAux ListLemmas SortLemmas Perm.
From Verif.Model Require Import Element Elements.
From Verif.Spec Require Import RankSpec.
From Verif.Proof Require Import ElementP.
Open Scope N_scope.

(** ** Deduplicate *)

(** [x] is at least as good a survivor as [y]. *)
Definition better (x y : element) : Prop :=
  e_upd y < e_upd x \/ (e_upd x = e_upd y /\ e_score x <= e_score y).

Lemma better_refl x : better x x.
Proof. unfold better; lia. Qed.
Lemma better_trans x y z : better x y -> better y z -> better x z.
Proof. unfold better; lia. Qed.

Definition idsorted (l : elements) : Prop := StronglySorted (fun a b => e_id a <= e_id b) l.

Lemma dedup_scan_spec : forall rest dn prev out ch,
  dedup_scan dn prev rest = (out, ch) ->
  idsorted (prev :: rest) ->
  Forall (fun x => e_id x < e_id prev) dn -> distinct_ids dn ->
  distinct_ids out /\
  (forall e, In e out -> In e dn \/ In e (prev :: rest)) /\
  (forall e, In e dn -> In e out) /\
  (forall x, In x (prev :: rest) -> exists e, In e out /\ e_id e = e_id x /\ better e x) /\
  (ch = true <-> ~ distinct_ids (prev :: rest)).
Proof.
  induction rest as [|e r IH]; intros dn prev out ch Hs Hsort Hdn Hdd; cbn [dedup_scan] in Hs.
  - inv Hs.
    assert (HP : Permutation (rev (prev :: dn)) (prev :: dn)) by (symmetry; apply Permutation_rev).
    repeat split.
    + eapply distinct_ids_perm; [symmetry; exact HP|]. unfold distinct_ids; cbn. constructor; [|exact Hdd].
      intros Hin. apply in_map_iff in Hin as (y & Hy & Hiny).
      rewrite Forall_forall in Hdn. specialize (Hdn y Hiny). lia.
    + intros x Hx. eapply Permutation_in in Hx; [|exact HP]. destruct Hx; [right; left|left]; auto.
    + intros x Hx. eapply Permutation_in; [symmetry; exact HP|]. right; auto.
    + intros x [<-|[]]. exists prev. repeat split; [|apply better_refl].
      eapply Permutation_in; [symmetry; exact HP|]. left; auto.
    + discriminate.
    + intros C. exfalso. apply C. unfold distinct_ids; cbn. constructor; [intros []|constructor].
  - assert (Hsort' := Hsort). inv Hsort'. rewrite Forall_forall in H2.
    assert (Hle : e_id prev <= e_id e) by (apply H2; left; reflexivity).
    destruct (N.eqb_spec (e_id prev) (e_id e)) as [Heq|Hne]; cbn [negb] in Hs.
    + set (dp := if e_upd prev =? e_upd e then e_score e <? e_score prev else e_upd prev <? e_upd e) in Hs.
      destruct (dedup_scan dn (if dp then e else prev) r) as [o c] eqn:Ed. inv Hs.
      set (w := if dp then e else prev) in *.
      assert (Hw : w = e \/ w = prev) by (unfold w; destruct dp; auto).
      assert (Hwid : e_id w = e_id prev) by (destruct Hw as [->| ->]; lia).
      assert (Hbp : better w prev /\ better w e).
      { unfold w, dp, better. destruct (N.eqb_spec (e_upd prev) (e_upd e)).
        - destruct (N.ltb_spec (e_score e) (e_score prev)); lia.
        - destruct (N.ltb_spec (e_upd prev) (e_upd e)); lia. }
      assert (Hws : idsorted (w :: r)).
      { apply StronglySorted_inv in H1 as [Hr Hf]. rewrite Forall_forall in Hf. constructor; [exact Hr|].
        apply Forall_forall; intros z Hz. specialize (Hf z Hz). lia. }
      destruct (IH dn w out c Ed Hws) as (A1 & A2 & A3 & A4 & A5); auto.
      { eapply Forall_impl; [|exact Hdn]. cbn; intros; lia. }
      repeat split; auto.
      * intros x Hx. destruct (A2 x Hx) as [|[<-|]]; auto; [|right; right; right; auto].
        destruct Hw as [->| ->]; right; [right; left|left]; auto.
      * intros x Hx.
        destruct (A4 w (or_introl eq_refl)) as (y & Hy & Hyid & Hyb).
        destruct Hx as [<-|[<-|Hx]].
        -- exists y; repeat split; auto; [lia|]. eapply better_trans; [exact Hyb|tauto].
        -- exists y; repeat split; auto; [lia|]. eapply better_trans; [exact Hyb|tauto].
        -- apply A4. right; exact Hx.
      * intros _ C. unfold distinct_ids in C; cbn in C. apply NoDup_cons_iff in C as [C _]. apply C. left; lia.
    + destruct (IH (prev :: dn) e out ch Hs) as (A1 & A2 & A3 & A4 & A5); auto.
      { constructor; [lia|]. eapply Forall_impl; [|exact Hdn]. cbn; intros; lia. }
      { unfold distinct_ids; cbn; constructor; [|exact Hdd].
        intros Hin. apply in_map_iff in Hin as (y & Hy & Hiny).
        rewrite Forall_forall in Hdn. specialize (Hdn y Hiny). lia. }
      assert (Hlt : forall z, In z (e :: r) -> e_id prev < e_id z).
      { intros z [<-|Hz]; [lia|]. apply StronglySorted_inv in H1 as [_ Hf]. rewrite Forall_forall in Hf. specialize (Hf z Hz). lia. }
      repeat split; auto.
      * intros x Hx. destruct (A2 x Hx) as [[<-|]|]; auto; right; [left|right]; auto.
      * intros x Hx. apply A3. right; auto.
      * intros x [<-|Hx]; [|apply A4; exact Hx].
        exists prev; repeat split; [apply A3; left; auto|apply better_refl].
      * intros Hc C. apply A5 in Hc. apply Hc. unfold distinct_ids in *; cbn in *. inv C; auto.
      * intros C. apply A5. intros C'. apply C. unfold distinct_ids in *; cbn in *. constructor; auto.
        intros Hin. assert (In (e_id prev) (map e_id (e :: r))) as Hin' by exact Hin.
        apply in_map_iff in Hin' as (y & Hy & Hiny). specialize (Hlt y Hiny). lia.
Qed.

Lemma sort_id_sorted l : idsorted (sort_by id_lt l).
Proof.
  eapply StronglySorted_impl_In; [|apply (sort_by_sorted id_lt)].
  - unfold lep, id_lt. intros x y _ _ H. lia.
  - unfold id_lt; intros; lia.
  - unfold id_lt; intros; lia.
Qed.

Lemma deduplicate_spec sc l out ch :
  deduplicate sc l = (out, ch) ->
  ranked out /\ distinct_ids out /\
  (forall e, In e out -> In e l) /\
  (forall x, In x l -> exists e, In e out /\ e_id e = e_id x /\ better e x) /\
  (ch = true <-> ~ distinct_ids l).
Proof.
  unfold deduplicate. intros H.
  assert (HP : Permutation (sort_by id_lt (permute sc l)) l)
    by (rewrite sort_by_perm; apply permute_perm).
  pose proof (sort_id_sorted (permute sc l)) as Hs.
  destruct (sort_by id_lt (permute sc l)) as [|x r] eqn:E.
  - inv H. apply Permutation_nil in HP. subst l.
    repeat split; try constructor; try contradiction; try discriminate.
    intros C. exfalso. apply C. constructor.
  - destruct (dedup_scan [] x r) as [o c] eqn:Ed. inv H.
    destruct (dedup_scan_spec r [] x o ch Ed Hs) as (A1 & A2 & A3 & A4 & A5).
    { constructor. } { constructor. }
    repeat split.
    + apply sort_elems_ranked; exact A1.
    + eapply distinct_ids_perm; [|exact A1]. symmetry; apply sort_elems_perm.
    + intros e He. apply (proj1 (sort_elems_In _ _)) in He.
      destruct (A2 e He) as [[]|He']. eapply Permutation_in; [exact HP|exact He'].
    + intros y Hy. eapply Permutation_in in Hy; [|symmetry; exact HP].
      destruct (A4 y Hy) as (e & He & Hr). exists e; split; [|exact Hr].
      apply sort_elems_In; exact He.
    + intros Hc C. apply A5 in Hc. apply Hc. eapply distinct_ids_perm; [symmetry; exact HP|exact C].
    + intros C. apply A5. intros C'. apply C. eapply distinct_ids_perm; [exact HP|exact C'].
Qed.

(** ** Merge *)

Lemma merge_copy_nil_r l : merge_copy l [] = l.
Proof. destruct l; reflexivity. Qed.

Lemma merge_copy_cons a l b ins :
  merge_copy (a :: l) (b :: ins) =
  if aboveP a b then a :: merge_copy l (b :: ins) else b :: merge_copy (a :: l) ins.
Proof. reflexivity. Qed.

Lemma merge_copy_perm : forall l ins, Permutation (merge_copy l ins) (l ++ ins).
Proof.
  induction l as [|a l IH]; intros ins; [destruct ins; reflexivity|].
  induction ins as [|b ins IH2]; [rewrite merge_copy_nil_r, app_nil_r; reflexivity|].
  rewrite merge_copy_cons. destruct (aboveP a b).
  - cbn. rewrite IH. reflexivity.
  - rewrite IH2. cbn. rewrite (Permutation_middle (a :: l) ins b). reflexivity.
Qed.

Lemma merge_copy_weak : forall l ins,
  weakly_ranked l -> weakly_ranked ins -> weakly_ranked (merge_copy l ins).
Proof.
  induction l as [|a l IH]; intros ins Hl Hi; [destruct ins; assumption|].
  induction ins as [|b ins IH2]; [rewrite merge_copy_nil_r; assumption|].
  rewrite merge_copy_cons. rewrite aboveP_above. destruct (above a b) eqn:E.
  - inv Hl. constructor; [apply IH; assumption|].
    rewrite Forall_forall in *. intros z Hz.
    eapply Permutation_in in Hz; [|apply merge_copy_perm].
    apply in_app_or in Hz as [Hz|[<-|Hz]]; auto.
    + apply above_spec in E. apply Above_asym; exact E.
    + apply above_spec in E. inv Hi. rewrite Forall_forall in H4.
      eapply notAbove_trans; [apply Above_asym; exact E|auto].
  - inv Hi. constructor; [apply IH2; assumption|].
    rewrite Forall_forall in *. intros z Hz.
    eapply Permutation_in in Hz; [|apply merge_copy_perm].
    apply above_false in E.
    apply in_app_or in Hz as [[<-|Hz]|Hz]; auto.
    inv Hl. rewrite Forall_forall in H4. eapply notAbove_trans; [exact E|auto].
Qed.

Lemma merge_inplace_copy : forall fuel l next ins,
  ranked (next :: ins) ->
  (length l + 2 * length (next :: ins) <= fuel)%nat ->
  merge_inplace fuel l next ins = Some (merge_copy l (next :: ins)).
Proof.
  induction fuel as [|f IH]; intros l next ins Hr Hf; [cbn in Hf; lia|].
  cbn [merge_inplace]. destruct l as [|x l']; [reflexivity|].
  rewrite merge_copy_cons. destruct (aboveP x next) eqn:E.
  - rewrite IH; [reflexivity|exact Hr|cbn in *; lia].
  - destruct ins as [|n' ins'].
    + rewrite merge_copy_nil_r. reflexivity.
    + inv Hr. rewrite Forall_forall in H2. assert (Hn : Above next n') by (apply H2; left; reflexivity).
      destruct f as [|f']; [cbn in Hf; lia|].
      rewrite IH; [|exact H1|cbn in *; lia].
      rewrite merge_copy_cons, aboveP_above.
      apply above_spec in Hn. rewrite Hn. reflexivity.
Qed.

Lemma merge_elems_eq copying l ins :
  ranked ins -> merge_elems copying l ins = Some (merge_copy l ins).
Proof.
  intros Hr. unfold merge_elems. destruct ins as [|n ins]; [rewrite merge_copy_nil_r; reflexivity|].
  destruct copying; [reflexivity|].
  apply merge_inplace_copy; [exact Hr|]. cbn [length]. lia.
Qed.

(** ** Insert, delete *)

Lemma insert_elem_spec e : forall l l' i,
  insert_elem e l = (l', i) ->
  exists a b, l = a ++ b /\ l' = a ++ e :: b /\ length a = i /\
    Forall (fun x => above x e = true) a /\
    match b with [] => True | y :: _ => above y e = false end.
Proof.
  induction l as [|x r IH]; cbn; intros l' i H.
  - inv H. exists [], []. repeat split; constructor.
  - destruct (above x e) eqn:E.
    + destruct (insert_elem e r) as [r' k] eqn:Ei. inv H.
      destruct (IH r' k eq_refl) as (a & b & -> & -> & <- & Ha & Hb).
      exists (x :: a), b. repeat split; auto.
    + inv H. exists [], (x :: r). repeat split; auto.
Qed.

Lemma insert_elem_perm e l l' i : insert_elem e l = (l', i) -> Permutation l' (e :: l).
Proof.
  intros H. destruct (insert_elem_spec _ _ _ _ H) as (a & b & -> & -> & _).
  symmetry. apply Permutation_middle.
Qed.

Lemma insert_elem_ranked e l l' i :
  insert_elem e l = (l', i) -> weakly_ranked l ->
  weakly_ranked l' /\ nth_error l' i = Some e /\
  i = length (filter (fun x => above x e) l).
Proof.
  intros H Hl. destruct (insert_elem_spec _ _ _ _ H) as (a & b & -> & -> & <- & Ha & Hb).
  unfold weakly_ranked in *. apply StronglySorted_app in Hl as (H1 & H2 & H3).
  assert (Hb' : Forall (fun y => above y e = false) b).
  { destruct b as [|y b]; [constructor|]. constructor; [exact Hb|].
    inv H2. rewrite Forall_forall in *. intros z Hz. specialize (H6 z Hz).
    rewrite above_false in *. eapply notAbove_trans; eauto. }
  split; [|split].
  - apply StronglySorted_app. split; [exact H1|]. split.
    + constructor; [exact H2|]. rewrite Forall_forall in *.
      intros z Hz. apply above_false; auto.
    + intros x y Hx [<-|Hy]; [|auto]. rewrite Forall_forall in Ha. specialize (Ha x Hx).
      apply above_spec in Ha. apply Above_asym; exact Ha.
  - rewrite nth_error_app2, Nat.sub_diag by lia. reflexivity.
  - rewrite filter_app, app_length.
    assert (E1 : filter (fun x => above x e) a = a).
    { clear -Ha. induction Ha as [|x r Hx _ IH]; cbn; [reflexivity|]. rewrite Hx, IH; reflexivity. }
    assert (E2 : filter (fun x => above x e) b = []).
    { clear -Hb'. induction Hb' as [|x r Hx _ IH]; cbn; [reflexivity|]. rewrite Hx, IH; reflexivity. }
    rewrite E1, E2. cbn; lia.
Qed.

Lemma delete_elem_notfound id l : delete_elem id l = NotFound <-> ~ In id (map e_id l).
Proof.
  induction l as [|x r IH]; cbn; [tauto|].
  destruct (N.eqb_spec (e_id x) id); [split; [discriminate|tauto]|].
  destruct (delete_elem id r); [|tauto].
  split; [discriminate|]. intros H. exfalso.
  assert (~ In id (map e_id r)) as H' by tauto. apply IH in H'. discriminate.
Qed.

Lemma delete_elem_ok id l l' : delete_elem id l = Ok l' ->
  exists a e b, l = a ++ e :: b /\ l' = a ++ b /\ e_id e = id /\ ~ In id (map e_id a).
Proof.
  revert l'; induction l as [|x r IH]; cbn; intros l' H; [discriminate|].
  destruct (N.eqb_spec (e_id x) id).
  - inv H. exists [], x, l'. repeat split; auto.
  - destruct (delete_elem id r) as [r'|] eqn:E; [|discriminate]. inv H.
    destruct (IH r' eq_refl) as (a & e & b & -> & -> & <- & Hn).
    exists (x :: a), e, b. repeat split; auto. cbn. tauto.
Qed.

Lemma delete_elem_filter id l l' :
  distinct_ids l -> delete_elem id l = Ok l' -> l' = filter (fun e => negb (e_id e =? id)) l.
Proof.
  intros Hd H. destruct (delete_elem_ok _ _ _ H) as (a & e & b & -> & -> & He & Hna).
  assert (Hnb : ~ In id (map e_id b)).
  { unfold distinct_ids in Hd. rewrite map_app in Hd. cbn in Hd. apply NoDup_remove_2 in Hd.
    rewrite He in Hd. intros C; apply Hd, in_or_app; auto. }
  assert (F : forall l, ~ In id (map e_id l) -> filter (fun e => negb (e_id e =? id)) l = l).
  { clear. induction l as [|x r IH]; cbn; intros H; [reflexivity|].
    destruct (N.eqb_spec (e_id x) id); [exfalso; tauto|]. cbn. rewrite IH by tauto. reflexivity. }
  rewrite filter_app. cbn [filter]. rewrite He, N.eqb_refl. cbn [negb].
  rewrite !F by assumption. reflexivity.
Qed.

Lemma distinct_ids_filter p l : distinct_ids l -> distinct_ids (filter p l).
Proof.
  unfold distinct_ids. induction l as [|x r IH]; cbn; intros H; [constructor|].
  inv H. destruct (p x); cbn; [constructor|]; auto.
  intros C. apply H2. apply in_map_iff in C as (y & <- & Hy).
  apply filter_In in Hy as [Hy _]. apply in_map; exact Hy.
Qed.

Lemma find_idx_id_none l id : find_idx_id l id = None <-> ~ In id (map e_id l).
Proof.
  unfold find_idx_id. rewrite find_idx_none, in_map_iff. split.
  - intros H (x & E & Hx). specialize (H x Hx). lia.
  - intros H x Hx. destruct (N.eqb_spec (e_id x) id); [|reflexivity]. exfalso; eauto.
Qed.

(** ** MergeDeduplicate *)

Lemma merge_deduplicate_spec l ins :
  distinct_ids l -> distinct_ids ins ->
  distinct_ids (merge_deduplicate l ins) /\
  (ins <> [] \/ ranked l -> ranked (merge_deduplicate l ins)) /\
  (forall e, In e (merge_deduplicate l ins) <->
     In e ins \/ (In e l /\ ~ In (e_id e) (map e_id ins))).
Proof.
  intros Hl Hi. unfold merge_deduplicate. destruct ins as [|x ins'].
  - split; [exact Hl|]. split; [intros [C|H]; [congruence|exact H]|].
    intros e; cbn; tauto.
  - set (ins := x :: ins') in *.
    set (f := fun e : element => negb (existsb (N.eqb (e_id e)) (map e_id ins))).
    assert (Hf : forall e, f e = true <-> ~ In (e_id e) (map e_id ins)).
    { intros e. unfold f. rewrite negb_true_iff, <- not_true_iff_false, existsb_exists.
      split; intros H C; apply H.
      - exists (e_id e); split; [exact C|apply N.eqb_refl].
      - destruct C as (y & Hy & E). apply N.eqb_eq in E. rewrite E. exact Hy. }
    assert (Hd : distinct_ids (ins ++ filter f l)).
    { unfold distinct_ids. rewrite map_app. 
      assert (G : forall a b : list N, NoDup a -> NoDup b -> (forall z, In z b -> ~ In z a) -> NoDup (a ++ b)).
      { induction a as [|y a IH]; cbn; intros b Ha Hb Hab; [exact Hb|]. inv Ha. constructor.
        - rewrite in_app_iff. intros [C|C]; [auto|]. apply (Hab y C). left; auto.
        - apply IH; auto. intros z Hz C. apply (Hab z Hz). right; exact C. }
      apply G; [exact Hi|apply distinct_ids_filter, Hl|].
      intros z Hz. apply in_map_iff in Hz as (e & <- & He). apply filter_In in He as [_ He].
      apply Hf; exact He. }
    repeat split.
    + eapply distinct_ids_perm; [|exact Hd]. symmetry; apply sort_elems_perm.
    + intros _. apply sort_elems_ranked; exact Hd.
    + rewrite sort_elems_In, in_app_iff, filter_In, Hf. tauto.
    + rewrite sort_elems_In, in_app_iff, filter_In, Hf. tauto.
Qed.

(** ** SplitSize *)

Lemma tie_ext_le : forall l p, (tie_ext p l <= length l)%nat.
Proof. induction l as [|x r IH]; cbn; intros p; [lia|]. destruct (same_key p x); [|lia]. specialize (IH x). lia. Qed.

(** [cut l k]: position k does not separate two tied neighbours. *)
Definition cut_ok (l : elements) (k : nat) : Prop :=
  forall x y, nth_error l (k - 1) = Some x -> nth_error l k = Some y -> (0 < k)%nat ->
              same_key x y = false.

Lemma cut_ok_0 l : cut_ok l 0.
Proof. intros x y _ _ C. exfalso; lia. Qed.

Lemma tie_ext_cut : forall r p x y,
  nth_error (p :: r) (tie_ext p r) = Some x -> nth_error r (tie_ext p r) = Some y ->
  same_key x y = false.
Proof.
  induction r as [|z r IH]; intros p x y Hx Hy; cbn in *; [discriminate|].
  destruct (same_key p z) eqn:E; cbn in *.
  - apply (IH z); assumption.
  - inv Hx. inv Hy. exact E.
Qed.

Lemma split_end_spec l start elems e :
  split_end l start elems = e -> (start <= length l)%nat ->
  (start <= e <= length l)%nat /\ (Nat.min (length l) (start + elems) <= e)%nat /\
  (e = length l \/ cut_ok l e).
Proof.
  unfold split_end. intros H Hs.
  set (e0 := if Nat.ltb (length l) (start + elems) then length l else (start + elems)%nat) in H.
  assert (He0 : e0 = Nat.min (length l) (start + elems)) by (unfold e0; destruct (Nat.ltb_spec (length l) (start + elems)); lia).
  clearbody e0. destruct e0 as [|p].
  - subst e. repeat split; try lia. right. apply cut_ok_0.
  - assert (Hp : (p < length l)%nat) by lia.
    destruct (nth_error l p) as [x|] eqn:Ex; [|apply nth_error_None in Ex; lia].
    pose proof (tie_ext_le (skipn (S p) l) x) as Hle. rewrite skipn_length in Hle.
    repeat split; try lia.
    right. unfold cut_ok. intros a b Ha Hb Hk. subst e.
    apply (tie_ext_cut (skipn (S p) l) x).
    + rewrite <- (skipn_cons_nth l p x Ex). rewrite nth_error_skipn.
      rewrite <- Ha. f_equal. lia.
    + rewrite nth_error_skipn. exact Hb.
Qed.

(** Cut positions of a list of parts. *)
Fixpoint cuts_ok (l : elements) (pos : nat) (parts : list elements) : Prop :=
  match parts with
  | [] => True
  | p :: r => cut_ok l pos /\ cuts_ok l (pos + length p) r
  end.

Lemma split_loop_spec l elems : (0 < elems)%nat -> forall n start,
  (start <= length l)%nat -> (start = length l \/ cut_ok l start) ->
  let parts := split_loop n l start elems in
  (length l <= start + n * elems -> concat parts = skipn start l)%nat /\
  Forall (fun p => p <> []) parts /\
  cuts_ok l start parts /\ (length parts <= n)%nat.
Proof.
  intros He. induction n as [|n IH]; intros start Hs Hc; cbn [split_loop].
  - cbn. repeat split; auto. intros. rewrite skipn_all2 by lia. reflexivity.
  - destruct (split_end_spec l start elems _ eq_refl Hs) as (A1 & A2 & A3).
    set (e := split_end l start elems) in *. cbv zeta.
    destruct (Nat.eqb_spec start e) as [E|E].
    + assert (start = length l) by lia. cbn. repeat split; auto; [|lia].
      intros. rewrite skipn_all2 by lia. reflexivity.
    + assert (Hcs : cut_ok l start) by (destruct Hc; [lia|auto]).
      destruct (IH e) as (B1 & B2 & B3 & B4); [lia|exact A3|].
      cbn [concat cuts_ok length]. rewrite slice_length by lia.
      repeat split; auto.
      * intros Hn. rewrite B1; [apply slice_app_skipn; lia|].
        cbn in Hn. assert (e = length l \/ start + elems <= e)%nat by lia. nia.
      * constructor; [|exact B2]. intros C. apply (f_equal (@length _)) in C.
        rewrite slice_length in C by lia. cbn in C. lia.
      * replace (start + (e - start))%nat with e by lia. exact B3.
      * lia.
Qed.

Lemma ceil_div_mul len k : (0 < k)%nat -> (len <= (len + k - 1) / k * k)%nat.
Proof. intros H. pose proof (Nat.div_mod (len + k - 1) k ltac:(lia)).
  pose proof (Nat.mod_upper_bound (len + k - 1) k ltac:(lia)). nia. Qed.

Lemma split_size_spec l k : (0 < k)%nat ->
  exists parts, split_size l k = Some parts /\
    concat parts = l /\ (l <> [] -> Forall (fun p => p <> []) parts) /\
    cuts_ok l 0 parts /\ (1 <= length parts)%nat /\
    (length l <= k \/ length parts <= (length l + k - 1) / k)%nat.
Proof.
  intros Hk. unfold split_size. destruct (Nat.leb_spec (length l) k) as [Hle|Hgt].
  - exists [l]. split; [reflexivity|]. split; [cbn; apply app_nil_r|].
    split; [intros; constructor; auto|].
    split; [split; [apply cut_ok_0|exact I]|]. cbn; lia.
  - destruct k as [|k']; [lia|]. set (k := S k') in *.
    set (n := ((length l + k - 1) / k)%nat).
    set (elems := ((length l + n - 1) / n)%nat).
    pose proof (ceil_div_mul (length l) k Hk) as Hn. fold n in Hn.
    assert (Hn0 : (0 < n)%nat) by (destruct n; lia).
    pose proof (ceil_div_mul (length l) n Hn0) as Hel. fold elems in Hel.
    assert (He0 : (0 < elems)%nat) by (destruct elems; lia).
    destruct (split_loop_spec l elems He0 n 0%nat) as (B1 & B2 & B3 & B4); [lia|right; apply cut_ok_0|].
    exists (split_loop n l 0 elems). repeat split; auto.
    + apply B1. lia.
    + destruct (split_loop n l 0 elems) as [|p0 ps0] eqn:E; [|clear; cbn; lia].
      specialize (B1 ltac:(lia)). cbn [concat skipn] in B1. rewrite <- B1 in Hgt. cbn in Hgt. lia.
Qed.

(** Part sizes: no part is longer than [elems] plus the longest tied run. *)
Definition tied_run_le (l : elements) (r : nat) : Prop :=
  forall a n, (a + n <= length l)%nat ->
    (forall i x y, (a <= i)%nat -> (S i < a + n)%nat -> nth_error l i = Some x ->
       nth_error l (S i) = Some y -> same_key x y = true) -> (n <= r)%nat.

Lemma tie_ext_run : forall r p, forall i x y, (i < tie_ext p r)%nat ->
  nth_error (p :: r) i = Some x -> nth_error r i = Some y -> same_key x y = true.
Proof.
  induction r as [|z r IH]; cbn; intros p i x y Hi Hx Hy; [lia|].
  destruct (same_key p z) eqn:E; [|lia]. destruct i as [|i]; cbn in *.
  - inv Hx; inv Hy; exact E.
  - apply (IH z i x y); auto; lia.
Qed.

Lemma split_end_bound l start elems r : (start <= length l)%nat -> (0 < elems)%nat -> (1 <= r)%nat ->
  tied_run_le l r -> (split_end l start elems <= start + elems + r - 1)%nat.
Proof.
  intros Hs He Hr HT. unfold split_end.
  set (e0 := if Nat.ltb (length l) (start + elems) then length l else (start + elems)%nat).
  assert (He0 : e0 = Nat.min (length l) (start + elems)) by (unfold e0; destruct (Nat.ltb_spec (length l) (start + elems)); lia).
  clearbody e0. destruct e0 as [|p]; [lia|].
  destruct (nth_error l p) as [x|] eqn:Ex; [|lia].
  set (t := tie_ext x (skipn (S p) l)).
  pose proof (tie_ext_le (skipn (S p) l) x) as Hle. fold t in Hle. rewrite skipn_length in Hle.
  assert (S t <= r)%nat; [|lia].
  apply (HT p). { lia. }
  intros i a b H1 H2 Ha Hb.
  apply (tie_ext_run (skipn (S p) l) x (i - p) a b).
  - fold t. lia.
  - rewrite <- (skipn_cons_nth l p x Ex), nth_error_skipn. rewrite <- Ha. f_equal; lia.
  - rewrite nth_error_skipn. rewrite <- Hb. f_equal; lia.
Qed.

Lemma split_loop_sizes l elems r : (0 < elems)%nat -> (1 <= r)%nat -> tied_run_le l r -> forall n start,
  (start <= length l)%nat ->
  Forall (fun p => length p <= elems + r - 1)%nat (split_loop n l start elems).
Proof.
  intros He Hr HT. induction n as [|n IH]; intros start Hs; cbn [split_loop]; [constructor|].
  cbv zeta. pose proof (split_end_bound l start elems r Hs He Hr HT) as Hb.
  destruct (split_end_spec l start elems _ eq_refl Hs) as (A1 & _).
  destruct (Nat.eqb_spec start (split_end l start elems)); [constructor|].
  constructor; [rewrite slice_length; lia|]. apply IH. lia.
Qed.

Lemma split_size_sizes l k r parts : (0 < k)%nat -> (1 <= r)%nat -> tied_run_le l r ->
  split_size l k = Some parts -> Forall (fun p => length p <= k + r - 1)%nat parts.
Proof.
  intros Hk Hr HT. unfold split_size. destruct (Nat.leb_spec (length l) k) as [Hle|Hgt].
  - intros H; inv H. constructor; [lia|constructor].
  - destruct k as [|k']; [lia|]. set (k := S k') in *. intros H; injection H as <-.
    set (n := ((length l + k - 1) / k)%nat).
    set (elems := ((length l + n - 1) / n)%nat).
    pose proof (ceil_div_mul (length l) k Hk) as Hn. fold n in Hn.
    assert (Hn0 : (0 < n)%nat) by (destruct n; lia).
    pose proof (ceil_div_mul (length l) n Hn0) as Hel. fold elems in Hel.
    assert (He0 : (0 < elems)%nat) by (destruct elems; lia).
    assert (Hek : (elems <= k)%nat).
    { unfold elems. apply Nat.lt_succ_r. apply Nat.div_lt_upper_bound; [lia|]. nia. }
    eapply Forall_impl; [|apply (split_loop_sizes l elems r He0 Hr HT n 0%nat); lia].
    cbn. intros; lia.
Qed.

(** ** Sort *)

Lemma merge_round_perm : forall n ps, (length ps <= n)%nat ->
  Permutation (concat (merge_round ps)) (concat ps).
Proof.
  induction n as [|n IH]; intros ps Hn; [destruct ps; [reflexivity|cbn in Hn; lia]|].
  destruct ps as [|a [|b r]]; try reflexivity. cbn [merge_round concat].
  rewrite IH by (cbn in Hn; lia).
  destruct b; [cbn; reflexivity|]. rewrite merge_copy_perm, app_assoc. reflexivity.
Qed.

Lemma merge_round_weak : forall n ps, (length ps <= n)%nat ->
  Forall weakly_ranked ps -> Forall weakly_ranked (merge_round ps).
Proof.
  induction n as [|n IH]; intros ps Hn HF; [destruct ps; [constructor|cbn in Hn; lia]|].
  destruct ps as [|a [|b r]]; try exact HF. cbn [merge_round].
  inv HF. inv H2. constructor; [|apply IH; [cbn in Hn; lia|assumption]].
  destruct b; [assumption|]. apply merge_copy_weak; assumption.
Qed.

Lemma merge_round_length : forall n ps, (length ps <= n)%nat ->
  (length (merge_round ps) <= length ps)%nat /\
  (2 <= length ps -> length (merge_round ps) < length ps)%nat /\
  (ps <> [] -> merge_round ps <> []).
Proof.
  induction n as [|n IH]; intros ps Hn; [destruct ps; [repeat split; cbn; auto; lia|cbn in Hn; lia]|].
  destruct ps as [|a [|b r]]; try (repeat split; cbn; auto; lia). cbn [merge_round length].
  destruct (IH r) as (A & _ & _); [cbn in Hn; lia|].
  repeat split; [lia|lia|congruence].
Qed.

Lemma merge_rounds_spec : forall f ps, (length ps <= f)%nat -> (0 < f)%nat -> ps <> [] ->
  exists r, merge_rounds f ps = Some r /\ Permutation r (concat ps) /\
            (Forall weakly_ranked ps -> weakly_ranked r).
Proof.
  induction f as [|f IH]; intros ps Hf H0 Hne; [lia|].
  destruct ps as [|a [|b r]]; [congruence| |].
  - exists a. cbn. rewrite app_nil_r. repeat split; auto. intros H; inv H; assumption.
  - destruct (merge_round_length (length (a :: b :: r)) (a :: b :: r) (le_n _)) as (_ & L & N).
    specialize (L ltac:(cbn; lia)). specialize (N ltac:(congruence)).
    cbn [merge_rounds].
    destruct (IH (merge_round (a :: b :: r))) as (x & E & P & W);
      [lia|cbn [length] in *; lia|exact N|].
    exists x. split; [exact E|]. split.
    + rewrite P. apply (merge_round_perm (length (a :: b :: r))). lia.
    + intros HF. apply W. eapply merge_round_weak; [apply le_n|exact HF].
Qed.

Lemma map_opt_spec {A B} (f : A -> option B) l r :
  map_opt f l = Some r -> Forall2 (fun x y => f x = Some y) l r.
Proof.
  revert r; induction l as [|x l IH]; cbn; intros r H; [inv H; constructor|].
  destruct (f x) eqn:E; [|discriminate]. destruct (map_opt f l); [|discriminate].
  inv H. constructor; auto.
Qed.

Lemma map_opt_total {A B} (f : A -> option B) l :
  Forall (fun x => exists y, f x = Some y) l -> exists r, map_opt f l = Some r.
Proof.
  induction 1 as [|x l (y & Hy) _ (r & IH)]; cbn; [eauto|]. rewrite Hy, IH. eauto.
Qed.

(** Partial correctness for every schedule, size and fuel. *)
Lemma sort_full_correct sch thr chunk : (0 < chunk)%nat -> forall fuel l out ch,
  sort_full sch thr chunk fuel l = Some (out, ch) ->
  weakly_ranked out /\ Permutation out l /\ (ch = true <-> ~ weakly_ranked l).
Proof.
  intros Hc. induction fuel as [|f IH]; intros l out ch H; [discriminate|].
  cbn [sort_full] in H. destruct (is_sorted_elems l) eqn:Es.
  - inv H. apply is_sorted_elems_spec in Es. split; [exact Es|].
    split; [reflexivity|]. split; [discriminate|contradiction].
  - assert (Hns : ~ weakly_ranked l) by (rewrite <- is_sorted_elems_spec; congruence).
    destruct (Nat.ltb (length l) thr).
    + inv H. split; [apply sort_elems_weak|]. split; [|tauto].
      rewrite sort_by_perm. apply permute_perm.
    + destruct (split_size_spec l chunk Hc) as (parts & E & Cc & Hne & _ & L & _).
      rewrite E in H. destruct (map_opt _ parts) as [ps|] eqn:Em; [|discriminate].
      apply map_opt_spec in Em.
      assert (HP : Forall weakly_ranked ps /\ Permutation (concat ps) (concat parts)).
      { clear -Em IH. induction Em as [|x y r1 r2 Hxy _ (W & P)]; [split; constructor|].
        destruct (sort_full sch thr chunk f x) as [[o c]|] eqn:Ex; [|discriminate].
        inv Hxy. destruct (IH _ _ _ Ex) as (Wo & Po & _). split; [constructor; auto|].
        cbn. rewrite Po, P. reflexivity. }
      destruct HP as (W & P).
      assert (Lps : length ps = length parts) by (apply Forall2_length in Em; auto).
      destruct (merge_rounds_spec (S (length ps)) ps) as (r & Er & Pr & Wr);
        [lia|lia|destruct ps; cbn in *; [lia|congruence]|].
      rewrite Er in H. inv H. split; [auto|]. split; [|tauto]. rewrite Pr, P. exact (Permutation_refl _).
Qed.

Lemma sort_full_small_terminates sch thr chunk l f :
  (length l < thr)%nat -> exists r, sort_full sch thr chunk (S f) l = Some r.
Proof.
  intros H. cbn [sort_full]. destruct (is_sorted_elems l); [eauto|].
  destruct (Nat.ltb_spec (length l) thr); [eauto|lia].
Qed.

Lemma sort_full_terminates sch thr chunk l r f :
  (0 < chunk)%nat -> (1 <= r)%nat -> (chunk + r <= thr)%nat -> tied_run_le l r ->
  exists o, sort_full sch thr chunk (S (S f)) l = Some o.
Proof.
  intros Hc Hr Ht HT. cbn [sort_full].
  destruct (is_sorted_elems l); [eauto|]. destruct (Nat.ltb (length l) thr); [eauto|].
  destruct (split_size_spec l chunk Hc) as (parts & E & Cc & Hne & _ & L & _).
  pose proof (split_size_sizes l chunk r parts Hc Hr HT E) as Hsz. rewrite E.
  destruct (map_opt_total (fun p => option_map fst (sort_full sch thr chunk (S f) p)) parts) as (ps & Em).
  { eapply Forall_impl; [|exact Hsz]. intros p Hp. cbv beta in Hp.
    destruct (sort_full_small_terminates sch thr chunk p f) as (o & Eo); [lia|].
    rewrite Eo. eexists; reflexivity. }
  cbn [sort_full] in Em. rewrite Em. apply map_opt_spec, Forall2_length in Em.
  destruct (merge_rounds_spec (S (length ps)) ps) as (x & Er & _);
    [lia|lia|destruct ps; cbn in *; [lia|congruence]|].
  rewrite Er. eexists; reflexivity.
Qed.

(** Divergence: an unsorted large slice that SplitSize cannot split. *)
Lemma sort_full_diverges sch thr chunk l :
  is_sorted_elems l = false -> (thr <= length l)%nat -> split_size l chunk = Some [l] ->
  forall fuel, sort_full sch thr chunk fuel l = None.
Proof.
  intros Hs Hl Hp. induction fuel as [|f IH]; [reflexivity|].
  cbn [sort_full]. rewrite Hs, Hp.
  destruct (Nat.ltb_spec (length l) thr); [lia|].
  cbn [map_opt]. rewrite IH. reflexivity.
Qed.

Lemma tie_ext_all s t : forall r p,
  e_score p = s -> e_tie p = t -> Forall (fun x => e_score x = s /\ e_tie x = t) r ->
  tie_ext p r = length r.
Proof.
  induction r as [|x r IH]; cbn; intros p Hs Ht HF; [reflexivity|].
  inv HF. destruct H1 as [A B]. unfold same_key. rewrite A, B, !N.eqb_refl. cbn.
  rewrite IH; auto.
Qed.

Lemma split_size_all_tied s t l k : (0 < k)%nat -> (k < length l)%nat ->
  Forall (fun x => e_score x = s /\ e_tie x = t) l ->
  split_size l k = Some [l].
Proof.
  intros Hk Hl HF. unfold split_size.
  destruct (Nat.leb_spec (length l) k); [lia|]. destruct k as [|k']; [lia|]. set (k := S k') in *.
  set (n := ((length l + k - 1) / k)%nat).
  set (elems := ((length l + n - 1) / n)%nat).
  pose proof (ceil_div_mul (length l) k Hk) as Hn. fold n in Hn.
  assert (Hn0 : (0 < n)%nat) by (destruct n; lia).
  pose proof (ceil_div_mul (length l) n Hn0) as Hel. fold elems in Hel.
  assert (He0 : (0 < elems)%nat) by (destruct elems; lia).
  assert (E1 : split_end l 0 elems = length l).
  { unfold split_end. cbn [plus].
    set (e0 := if Nat.ltb (length l) elems then length l else elems).
    assert (He : e0 = Nat.min (length l) elems) by (unfold e0; destruct (Nat.ltb_spec (length l) elems); lia).
    clearbody e0. destruct e0 as [|p]; [lia|].
    destruct (nth_error l p) as [x|] eqn:Ex; [|apply nth_error_None in Ex; lia].
    assert (Hx : e_score x = s /\ e_tie x = t) by (rewrite Forall_forall in HF; apply HF; eapply nth_error_In; eauto).
    rewrite (tie_ext_all s t) by (try tauto;
      rewrite <- (firstn_skipn (S p) l) in HF; apply Forall_app in HF; tauto).
    rewrite skipn_length. lia. }
  assert (E2 : split_end l (length l) elems = length l).
  { destruct (split_end_spec l (length l) elems _ eq_refl (le_n _)) as (A & _). lia. }
  destruct n as [|n']; [lia|]. cbn [split_loop]. cbv zeta. rewrite E1.
  destruct (Nat.eqb_spec 0 (length l)); [lia|].
  unfold slice. rewrite Nat.sub_0_r. cbn [skipn]. rewrite firstn_all.
  destruct n' as [|n'']; cbn [split_loop]; [reflexivity|]. cbv zeta. rewrite E2, Nat.eqb_refl. reflexivity.
Qed.
