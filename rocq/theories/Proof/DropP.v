(** An element at (0,0) with the maximal update time belongs to no segment. *)
From Coq Require Import Strings.String.
From Verif.Lib Require Import Prelude ListAux ListLemmas SortLemmas Perm.
From Verif.Model Require Import Element Elements Segment List.
From Verif.Spec Require Import RankSpec QuerySpec AnswerSpec HistorySpec.
From Verif.Proof Require Import ElementP ElementsP SegP InvDef LookupP ChangeP UpdateP UpdateInv InsertP HistoryP ListThm.
Open Scope N_scope.

Definition dead (e : element) : Prop := e_score e = 0 /\ e_tie e = 0 /\ e_upd e = max_u32.

Lemma drop_filter e s : dead e -> filter_idx s [e] = (0, 0)%nat.
Proof.
    intros (Hs & Ht & Hu). unfold filter_idx.
    assert (H1 : aboveP e (mkE (sg_max s) 0 [] (sg_maxtie s) 0) = false).
    { rewrite aboveP_above. apply above_false. unfold Above. cbn. rewrite Hs, Ht, Hu. unfold max_u32. lia. }
    assert (H2 : aboveP e (mkE (sg_min s) 0 [] (sg_mintie s) max_u32) = false).
    { rewrite aboveP_above. apply above_false. unfold Above. cbn. rewrite Hs, Ht, Hu. lia. }
    cbn. rewrite H1. cbn. rewrite H2. reflexivity.
Qed.
Lemma drop_split e : dead e -> forall l i, split_elements_from i l [e] = [].
Proof. intros He. induction l as [|s r IH]; intros i; [reflexivity|]. cbn [split_elements_from]. rewrite drop_filter by exact He. cbn. apply IH. Qed.
Lemma drop_insert e now : dead e -> forall l, insert_sorted now l [e] = (l, []).
Proof. intros He. induction l as [|s r IH]; [reflexivity|]. cbn [insert_sorted]. rewrite drop_filter by exact He. cbn. rewrite IH. reflexivity. Qed.
Lemma insert_sorted_nil now : forall l, insert_sorted now l [] = (l, []).
Proof. induction l as [|s r IH]; [reflexivity|]. cbn [insert_sorted]. unfold filter_idx. cbn. rewrite IH. reflexivity. Qed.

Lemma drop_update e clk clki now sc l : dead e -> stored_in (update_elements clk clki now sc [e] l) = stored_in l.
Proof.
    intros He. unfold update_elements, update_core. cbn zeta. change (sort_elems [e]) with [e].
    unfold split_elements_idx. rewrite drop_split by exact He.
    assert (E : permute sc (@nil (nat * elements)) = []) by (apply Permutation_nil; symmetry; apply permute_perm). rewrite E.
    unfold update_loop. cbn [fold_left]. unfold stored_in, set_both. cbn [l_scores set_segs ss_segs].
    pose proof (touch_at_view now (map (fun p : N * element => idx_get (ss_idx (reindex (l_scores l))) (e_tie (snd p)))
       (existing_idx (ss_segs (l_index l)) (index_groups (ss_segs (l_index l)) (sort_ids_desc (map e_id [e])))) ++ map fst (@nil (nat * elements)))
       (ss_segs (reindex (l_scores l)))) as H.
    assert (HH : forall a b, map view a = map view b -> map sg_elems a = map sg_elems b).
    { induction a as [|x a IH]; intros [|y b] Hab; try discriminate; [reflexivity|]. cbn [map] in *.
      assert (H1 : view x = view y) by congruence. assert (H2 : map view a = map view b) by congruence.
      rewrite (IH b H2). f_equal. unfold view in H1. congruence. }
    rewrite (HH _ _ H). unfold reindex. destruct (Nat.eqb _ _); reflexivity.
Qed.

Lemma drop_insert_list e P l now sch : dead e -> Inv P l -> (4 <= l_split l)%nat ->
    exists l', insert now sch [e] l = Done l' /\ stored_in l' = stored_in l.
Proof.
    intros He HI H4. apply (want_limit_pos _ _ HI) in H4. unfold insert. cbn [length insert_loop].
    destruct (Nat.ltb_spec (want_limit l) 1); [lia|]. eexists. split; [reflexivity|].
    unfold insert_one, segs_insert. change (sort_elems (sort_elems [e])) with [e]. rewrite drop_insert by exact He.
    assert (E : permute (sch 1%nat) (@nil elements) = []) by (apply Permutation_nil; symmetry; apply permute_perm). rewrite E.
    match goal with |- context [insert_sorted now ?L ?M] => destruct (insert_sorted now L M) as (a & b) end. reflexivity.
Qed.

Lemma c49_dropped merge split l m e : reachable merge split l m ->
  e_score e = 0 -> e_tie e = 0 -> e_upd e = max_u32 ->
  (forall clk clki now sc, stored_in (update_elements clk clki now sc [e] l) = stored_in l) /\
  ((4 <= split)%nat -> forall now sch, exists l', insert now sch [e] l = Done l' /\ stored_in l' = stored_in l).
Proof.
  intros HR Hs Ht Hu. destruct (reach_inv _ _ _ _ HR) as (HI & _ & HS). split.
  - intros. apply drop_update; repeat split; assumption.
  - intros H4 now sch. apply (drop_insert_list e (sin m)); [repeat split; assumption|exact HI|lia].
Qed.

Lemma c49_stored merge split l m clk clki now sc e : reachable merge split l m ->
  op_ok merge split m (OUpdate clk clki now sc e) ->
  forall x, In x e -> In (stamp clk x) (stored_in (update_elements clk clki now sc e l)).
Proof.
  intros HR Hok x Hx. destruct (c06_step _ _ _ _ _ HR Hok) as [(l' & E & _ & Hr)|(E & _)]; [|discriminate].
  cbn [step] in E. injection E as <-. apply Hr. cbn [spec_step].
  destruct Hok as (Hd & _). apply sin_sputs.
  - unfold distinct_ids. rewrite stamp_ids. exact Hd.
  - left. apply in_map. exact Hx.
Qed.
