(** Final forms of the element slice theorems (C01-C05). *)
From Verif.Lib Require Import Prelude ListAux ListLemmas SortLemmas Perm.
From Verif.Model Require Import Element Elements.
From Verif.Spec Require Import RankSpec.
From Verif.Proof Require Import ElementP ElementsP.
Open Scope N_scope.

Lemma c01_order :
  (forall a b, above a b = true <-> Above a b) /\
  (forall a b, aboveP a b = above a b) /\
  (forall a, ~ Above a a) /\
  (forall a b c, Above a b -> Above b c -> Above a c) /\
  (forall a b, e_id a <> e_id b -> Above a b \/ Above b a).
Proof.
  repeat split; try (apply above_spec).
  - apply Above_irrefl. - apply Above_trans. - apply Above_total.
Qed.

Lemma c01_unique l : distinct_ids l ->
  exists r, (ranked r /\ forall e, In e r <-> In e l) /\
  forall r', (ranked r' /\ forall e, In e r' <-> In e l) -> r' = r.
Proof.
  intros Hd. exists (sort_elems l). split.
  - split; [apply sort_elems_ranked; exact Hd|intros e; apply sort_elems_In].
  - intros r' [H1 H2]. apply ranked_unique; auto; [apply sort_elems_ranked; exact Hd|].
    intros x. rewrite H2, sort_elems_In. tauto.
Qed.

Lemma c02_dedup sc l out ch : deduplicate sc l = (out, ch) ->
  ranked out /\ distinct_ids out /\
  (forall e, In e out -> In e l) /\
  (forall i, In i (map e_id l) <-> In i (map e_id out)) /\
  (forall e x, In e out -> In x l -> e_id x = e_id e ->
     e_upd x <= e_upd e /\ (e_upd x = e_upd e -> e_score e <= e_score x)) /\
  (ch = true <-> ~ distinct_ids l).
Proof.
  intros H. destruct (deduplicate_spec _ _ _ _ H) as (A & B & C & D & E).
  split; [exact A|]. split; [exact B|]. split; [exact C|]. split; [|split; [|exact E]].
  - intros i. rewrite !in_map_iff. split.
    + intros (x & <- & Hx). destruct (D x Hx) as (e & He & Hi & _). exists e; auto.
    + intros (e & <- & He). exists e; auto.
  - intros e x He Hx Hid. destruct (D x Hx) as (e' & He' & Hi & Hb).
    assert (e' = e) as ->.
    { assert (Hinj : forall l (a b : element), NoDup (map e_id l) -> In a l -> In b l -> e_id a = e_id b -> a = b).
      { clear. induction l as [|y r IH]; cbn; intros a b Hn Ha Hb E; [contradiction|].
        inv Hn. destruct Ha as [<-|Ha], Hb as [<-|Hb]; auto.
        - exfalso. apply H1. rewrite E. apply in_map; exact Hb.
        - exfalso. apply H1. rewrite <- E. apply in_map; exact Ha. }
      apply (Hinj out); auto. congruence. }
    unfold better in Hb. lia.
Qed.

Lemma sort_chunk_pos : (0 < sort_chunk)%nat.
Proof. unfold sort_chunk. lia. Qed.

Lemma c03_correct sch fuel l out ch : sort_go sch fuel l = Some (out, ch) ->
  weakly_ranked out /\ Permutation out l /\ (ch = true <-> ~ weakly_ranked l) /\
  (distinct_ids l -> ranked out).
Proof.
  intros H. destruct (sort_full_correct _ _ _ sort_chunk_pos _ _ _ _ H) as (A & B & C).
  repeat split; auto; try tauto. intros Hd. apply weakly_ranked_distinct; auto.
  eapply distinct_ids_perm; [symmetry; exact B|exact Hd].
Qed.

Lemma c03_terminates sch l :
  (length l < N.to_nat 25000)%nat \/ tied_run_le l (N.to_nat 22500) ->
  exists o, sort_go sch 2 l = Some o.
Proof.
  intros [H|H]; unfold sort_go.
  - apply sort_full_small_terminates. exact H.
  - apply (sort_full_terminates _ _ _ _ (N.to_nat 22500)); [apply sort_chunk_pos|lia| |exact H].
    unfold sort_chunk, sort_thr. lia.
Qed.

Lemma c03_diverges sch s t l :
  (N.to_nat 25000 <= length l)%nat -> Forall (fun e => e_score e = s /\ e_tie e = t) l ->
  ~ weakly_ranked l -> forall fuel, sort_go sch fuel l = None.
Proof.
  intros Hl HF Hn. apply sort_full_diverges.
  - rewrite <- is_sorted_elems_spec in Hn. destruct (is_sorted_elems l); congruence.
  - exact Hl.
  - apply (split_size_all_tied s t); auto; [apply sort_chunk_pos|]. unfold sort_chunk. lia.
Qed.

Lemma c03_diverging_exists : exists l s t,
  (N.to_nat 25000 <= length l)%nat /\ Forall (fun e => e_score e = s /\ e_tie e = t) l /\
  distinct_ids l /\ ~ weakly_ranked l.
Proof.
  set (n := N.to_nat 25000).
  exists (map (fun k => mkE 0 (N.of_nat (n - k)) [] 0 1) (seq 0 n)), 0, 0.
  split; [rewrite map_length, seq_length; lia|].
  split; [apply Forall_forall; intros e He; apply in_map_iff in He as (k & <- & _); auto|].
  split.
  - unfold distinct_ids. rewrite map_map. cbn [e_id].
    assert (Hn : NoDup (seq 0 n)) by apply seq_NoDup.
    assert (Hb : forall k, In k (seq 0 n) -> (k < n)%nat) by (intros k Hk; apply in_seq in Hk; lia).
    revert Hb Hn. generalize (seq 0 n) as ks. clearbody n. induction ks as [|k ks IH]; cbn; intros Hb Hn; [constructor|].
    inv Hn. constructor; [|apply IH; auto].
    rewrite in_map_iff. intros (j & Hj & Hin). assert (j = k) as ->; [|contradiction].
    pose proof (Hb k (or_introl eq_refl)). pose proof (Hb j (or_intror Hin)). lia.
  - assert (Hn2 : exists m, n = S (S m)) by (exists (N.to_nat 24998); unfold n; lia).
    clearbody n. destruct Hn2 as (m & ->). cbn [seq map].
    intros C. unfold weakly_ranked in C. apply StronglySorted_inv in C as [_ C]. apply Forall_inv in C.
    apply C. unfold Above; cbn [e_score e_tie e_upd e_id]. lia.
Qed.

Lemma c04_merge copying l ins : ranked l -> ranked ins ->
  exists r, merge_elems copying l ins = Some r /\ weakly_ranked r /\ Permutation r (l ++ ins) /\
    merge_elems (negb copying) l ins = Some r /\
    (distinct_ids (l ++ ins) -> ranked r).
Proof.
  intros Hl Hi. exists (merge_copy l ins). rewrite !merge_elems_eq by exact Hi.
  assert (P : Permutation (merge_copy l ins) (l ++ ins)) by apply merge_copy_perm.
  assert (W : weakly_ranked (merge_copy l ins)) by (apply merge_copy_weak; apply ranked_weakly; assumption).
  repeat split; auto.
  intros Hd. apply weakly_ranked_distinct; auto. eapply distinct_ids_perm; [symmetry; exact P|exact Hd].
Qed.

Lemma c04_insert e l l' i : weakly_ranked l -> insert_elem e l = (l', i) ->
  weakly_ranked l' /\ Permutation l' (e :: l) /\ nth_error l' i = Some e /\
  i = length (filter (fun x => above x e) l).
Proof.
  intros Hw H. destruct (insert_elem_ranked _ _ _ _ H Hw) as (A & B & C).
  repeat split; auto. eapply insert_elem_perm; eauto.
Qed.

Lemma c04_delete id l : distinct_ids l ->
  (~ In id (map e_id l) -> delete_elem id l = NotFound) /\
  (In id (map e_id l) -> exists l', delete_elem id l = Ok l' /\
     l' = filter (fun e => negb (e_id e =? id)) l /\ (ranked l -> ranked l')).
Proof.
  intros Hd. split; [apply delete_elem_notfound|].
  intros Hin. destruct (delete_elem id l) as [l'|] eqn:E.
  - exists l'. rewrite (delete_elem_filter _ _ _ Hd E). repeat split. apply StronglySorted_filter.
  - apply delete_elem_notfound in E. contradiction.
Qed.

Lemma distinct_replace e l l' i :
  distinct_ids l -> insert_elem e (filter (fun x => negb (e_id x =? e_id e)) l) = (l', i) ->
  distinct_ids l'.
Proof.
  intros Hd H. eapply distinct_ids_perm; [symmetry; eapply insert_elem_perm; exact H|].
  unfold distinct_ids. cbn. constructor.
  - intros C. apply in_map_iff in C as (y & Hy & Hin). apply filter_In in Hin as [_ Hin].
    rewrite Hy, N.eqb_refl in Hin. discriminate.
  - apply distinct_ids_filter, Hd.
Qed.

Lemma with_time_id now e : e_id (with_time now e) = e_id e.
Proof. unfold with_time. destruct (e_upd e =? 0); reflexivity. Qed.

Lemma with_time_idem now e : now <> 0 -> with_time now (with_time now e) = with_time now e.
Proof.
  intros H. unfold with_time. destruct (N.eqb_spec (e_upd e) 0); cbn [e_upd].
  - destruct (N.eqb_spec now 0); [contradiction|reflexivity].
  - destruct (N.eqb_spec (e_upd e) 0); [contradiction|reflexivity].
Qed.

Lemma insert_rank e l l' i : insert_elem e l = (l', i) -> weakly_ranked l ->
  idx_rank l' i = Some (i, (length l' - i - 1)%nat).
Proof.
  intros H Hw. destruct (insert_elem_ranked _ _ _ _ H Hw) as (_ & B & _).
  assert (i < length l')%nat by (apply nth_error_Some; congruence).
  unfold idx_rank. destruct (Nat.leb_spec (length l') i); [lia|reflexivity].
Qed.

(** Update and Add: the named ID is replaced, everything else is kept, and the
    returned rank is the position in the new slice. *)
Lemma c04_update now e l : ranked l -> distinct_ids l -> 
  (~ In (e_id e) (map e_id l) -> update_elem now e l = NotFound) /\
  (In (e_id e) (map e_id l) -> exists l' i,
     update_elem now e l = Ok (l', Some (i, (length l' - i - 1)%nat)) /\
     ranked l' /\ nth_error l' i = Some (with_time now e) /\
     (forall x, In x l' <-> x = with_time now e \/ (In x l /\ e_id x <> e_id e))).
Proof.
  intros Hr Hd. unfold update_elem. rewrite with_time_id. split.
  - intros H. apply delete_elem_notfound in H. rewrite H. reflexivity.
  - intros H. destruct (delete_elem (e_id e) l) as [d|] eqn:Ed;
      [|apply delete_elem_notfound in Ed; contradiction].
    rewrite (delete_elem_filter _ _ _ Hd Ed).
    destruct (insert_elem (with_time now e) (filter (fun x => negb (e_id x =? e_id e)) l)) as [l' i] eqn:Ei.
    assert (Hw : weakly_ranked (filter (fun x => negb (e_id x =? e_id e)) l))
      by (apply ranked_weakly, StronglySorted_filter, Hr).
    destruct (c04_insert _ _ _ _ Hw Ei) as (A & B & C & _).
    exists l', i. rewrite (insert_rank _ _ _ _ Ei Hw).
    repeat split; auto.
    + apply weakly_ranked_distinct; auto. eapply (distinct_replace (with_time now e) l); [exact Hd|].
      rewrite with_time_id. exact Ei.
    + intros Hx. eapply Permutation_in in Hx; [|exact B]. destruct Hx as [<-|Hx]; [auto|].
      apply filter_In in Hx as [Hx Hn]. right; split; auto. lia.
    + intros Hx. eapply Permutation_in; [symmetry; exact B|]. destruct Hx as [->|[Hx Hn]]; [left; auto|].
      right. apply filter_In. split; auto. lia.
Qed.

Lemma c04_add now e l : now <> 0 -> ranked l -> distinct_ids l -> 
  exists l' i, add_elem now e l = Ok (l', Some (i, (length l' - i - 1)%nat)) /\
     ranked l' /\ nth_error l' i = Some (with_time now e) /\
     (forall x, In x l' <-> x = with_time now e \/ (In x l /\ e_id x <> e_id e)).
Proof.
  intros Hnow Hr Hd. unfold add_elem. rewrite with_time_id.
  destruct (find_idx_id l (e_id e)) as [k|] eqn:Ef.
  - assert (Hin : In (e_id (with_time now e)) (map e_id l)).
    { rewrite with_time_id. destruct (in_dec N.eq_dec (e_id e) (map e_id l)) as [H|H]; [exact H|].
      apply find_idx_id_none in H. congruence. }
    destruct (proj2 (c04_update now (with_time now e) l Hr Hd) Hin) as (l' & i & A & B & C & D).
    rewrite with_time_idem in * by exact Hnow.
    exists l', i. repeat split; auto.
    + intros Hx; apply D in Hx. rewrite with_time_id in Hx. exact Hx.
    + intros Hx; apply D. rewrite with_time_id. exact Hx.
  - apply find_idx_id_none in Ef.
    destruct (insert_elem (with_time now e) l) as [l' i] eqn:Ei.
    assert (Hw : weakly_ranked l) by (apply ranked_weakly, Hr).
    destruct (c04_insert _ _ _ _ Hw Ei) as (A & B & C & _).
    exists l', i. rewrite (insert_rank _ _ _ _ Ei Hw).
    repeat split; auto.
    + apply weakly_ranked_distinct; auto. eapply distinct_ids_perm; [symmetry; exact B|].
      unfold distinct_ids; cbn. constructor; [rewrite with_time_id; exact Ef|exact Hd].
    + intros Hx. eapply Permutation_in in Hx; [|exact B]. destruct Hx as [<-|Hx]; [auto|].
      right; split; auto. intros E. apply Ef. rewrite <- E. apply in_map; exact Hx.
    + intros Hx. eapply Permutation_in; [symmetry; exact B|]. destruct Hx as [->|[Hx Hn]]; [left|right]; auto.
Qed.

Lemma c04_merge_dedup l ins : distinct_ids l -> distinct_ids ins -> ranked l ->
  ranked (merge_deduplicate l ins) /\ distinct_ids (merge_deduplicate l ins) /\
  (forall e, In e (merge_deduplicate l ins) <->
     In e ins \/ (In e l /\ ~ In (e_id e) (map e_id ins))).
Proof.
  intros Hl Hi Hr. destruct (merge_deduplicate_spec l ins Hl Hi) as (A & B & C).
  repeat split; auto; apply C.
Qed.

Lemma cuts_ok_app l a : forall pos b, cuts_ok l pos (a ++ b) -> cuts_ok l (pos + length (concat a)) b.
Proof.
  induction a as [|p a IH]; cbn; intros pos b H; [rewrite Nat.add_0_r; exact H|].
  destruct H as [_ H]. apply IH in H. rewrite app_length, Nat.add_assoc. exact H.
Qed.

Lemma c05_split l k : (0 < k)%nat -> exists parts, split_size l k = Some parts /\
  concat parts = l /\
  (l <> [] -> Forall (fun p => p <> []) parts) /\
  (forall a b p q, parts = a ++ p :: q :: b -> forall x y,
      nth_error p (length p - 1) = Some x -> nth_error q 0 = Some y ->
      e_score x <> e_score y \/ e_tie x <> e_tie y).
Proof.
  intros Hk. destruct (split_size_spec l k Hk) as (parts & E & Hc & Hne & Hcut & _).
  exists parts. repeat split; auto.
  intros a b p q -> x y Hx Hy.
  assert (Hcut' : cuts_ok l 0 ((a ++ [p]) ++ q :: b)) by (rewrite <- app_assoc; exact Hcut).
  apply cuts_ok_app in Hcut'.
  destruct Hcut' as [Hq _].
  assert (Hl : l = concat a ++ p ++ q ++ concat b).
  { rewrite <- Hc. rewrite concat_app. cbn. reflexivity. }
  rewrite concat_app in Hq. cbn [concat] in Hq. rewrite app_nil_r in Hq.
  rewrite app_length in Hq. cbn [plus] in Hq.
  assert (Hp0 : (0 < length p)%nat) by (destruct p; cbn in *; [discriminate|lia]).
  assert (same_key x y = false) as Hk'.
  { apply Hq; [| |cbn; lia].
    - rewrite Hl. rewrite nth_error_app2 by lia.
      rewrite nth_error_app1 by lia. rewrite <- Hx. f_equal. lia.
    - rewrite Hl. rewrite nth_error_app2 by lia. rewrite nth_error_app2 by lia.
      rewrite nth_error_app1; [rewrite <- Hy; f_equal; lia|].
      destruct q; cbn in *; [discriminate|lia]. }
  unfold same_key in Hk'. lia.
Qed.

Lemma c05_halves l : (2 <= length l)%nat -> exists parts,
  split_size l ((length l + 1) / 2) = Some parts /\ (1 <= length parts <= 2)%nat.
Proof.
  intros Hl. assert (Hk : (0 < (length l + 1) / 2)%nat) by (apply Nat.div_str_pos; lia).
  destruct (split_size_spec l _ Hk) as (parts & E & _ & _ & _ & L1 & L2).
  exists parts. split; [exact E|]. split; [exact L1|].
  set (k := ((length l + 1) / 2)%nat) in *.
  assert (Hk2 : (length l <= 2 * k /\ k <= length l - 1)%nat) by (unfold k; lia).
  destruct L2 as [L2|L2]; [lia|].
  etransitivity; [exact L2|]. apply Nat.lt_succ_r. apply Nat.div_lt_upper_bound; lia.
Qed.

Lemma c02_has_duplicates l : has_duplicates l = true <-> ~ distinct_ids l.
Proof.
  unfold has_duplicates, ids_set, distinct_ids. rewrite negb_true_iff, Nat.eqb_neq. rewrite <- (map_length e_id l). split.
  - intros H D. apply H. rewrite nodup_fixed_point by exact D. reflexivity.
  - intros H E. apply H. apply (NoDup_incl_NoDup (l := nodup N.eq_dec (map e_id l))).
    + apply NoDup_nodup.
    + rewrite E. apply le_n.
    + intros x Hx. eapply nodup_In, Hx.
Qed.
