(** No call stores an element that was not stored before and was not given to it, whatever state the list is in. *)
From Coq Require Import Strings.String.
From Verif.Lib Require Import Prelude ListAux ListLemmas SortLemmas Perm.
From Verif.Model Require Import Element Elements Segment List Fails PassFail.
From Verif.Spec Require Import RankSpec QuerySpec HistorySpec AnswerSpec PassSpec.
From Verif.Proof Require Import ElementP ElementsP SegP InvDef SplitP ListThm PassFailP.
Open Scope N_scope.

Definition within (A : element -> Prop) (l : list seg) : Prop := forall s x, In s l -> In x (sg_elems s) -> A x.
Lemma within_app A a b : within A (a ++ b) <-> within A a /\ within A b.
Proof.
  unfold within. split.
  - intros H. split; intros s x Hs; apply H; apply in_or_app; auto.
  - intros (H1 & H2) s x Hs. apply in_app_iff in Hs as [Hs|Hs]; eauto.
Qed.
Lemma within_cons A s b : within A (s :: b) <-> (forall x, In x (sg_elems s) -> A x) /\ within A b.
Proof.
  unfold within. split.
  - intros H. split; intros; eapply H; cbn; eauto.
  - intros (H1 & H2) t x [<-|Ht]; eauto.
Qed.
Lemma within_upd (A : element -> Prop) i f : forall l, (forall s, (forall x, In x (sg_elems s) -> A x) -> forall x, In x (sg_elems (f s)) -> A x) -> within A l -> within A (upd_nth i f l).
Proof.
  intros l Hf. revert i. induction l as [|s l IH]; intros [|i] H; cbn [upd_nth]; auto; apply within_cons in H as (H1 & H2); apply within_cons.
  - split; [apply Hf; exact H1|exact H2].
  - split; [exact H1|apply IH; exact H2].
Qed.
Lemma within_mapi (A : element -> Prop) f : forall l k, (forall i s, (forall x, In x (sg_elems s) -> A x) -> forall x, In x (sg_elems (f i s)) -> A x) -> within A l -> within A (mapi_from k f l).
Proof.
  induction l as [|s l IH]; intros k Hf H; cbn [mapi_from]; auto. apply within_cons in H as (H1 & H2). apply within_cons. split; auto. apply Hf. exact H1.
Qed.

(** ** elements *)
Lemma insert_elem_In e x : forall l, In x (fst (insert_elem e l)) -> x = e \/ In x l.
Proof.
  induction l as [|y l IH]; cbn [insert_elem]; [cbn; intuition|]. destruct (above y e); [|cbn; intuition].
  destruct (insert_elem e l) as (r & i). cbn [fst] in *. cbn. intuition.
Qed.
Lemma delete_elem_In id x : forall l l', delete_elem id l = Ok l' -> In x l' -> In x l.
Proof.
  induction l as [|y l IH]; intros l' E H; cbn [delete_elem] in E; [discriminate|]. destruct (e_id y =? id).
  - injection E as ->. right. exact H.
  - destruct (delete_elem id l) as [r|]; [|discriminate]. injection E as <-. destruct H as [H|H]; [left; exact H|right; eauto].
Qed.
Lemma update_elem_In now e x l : In x (res_or l (update_elem now e l)) -> x = with_time now e \/ In x l.
Proof.
  unfold update_elem. destruct (delete_elem _ l) as [r|] eqn:E; [|cbn; auto]. pose proof (insert_elem_In (with_time now e) x r) as H.
  destruct (insert_elem _ r) as (r' & i). cbn [res_or fst] in *. intros Hx. destruct (H Hx) as [H1|H1]; [auto|right]. eapply delete_elem_In; eauto.
Qed.
Lemma with_time_twice now e : with_time now (with_time now e) = with_time now e.
Proof. unfold with_time. destruct (e_upd e =? 0) eqn:E; cbn; [destruct (now =? 0); reflexivity|rewrite E; reflexivity]. Qed.
Lemma add_elem_In now e x l : In x (res_or l (add_elem now e l)) -> x = with_time now e \/ In x l.
Proof.
  unfold add_elem. destruct (find_idx_id l _).
  - intros H. destruct (update_elem_In now _ x l H) as [H1|H1]; [left; rewrite with_time_twice in H1; exact H1|auto].
  - pose proof (insert_elem_In (with_time now e) x l) as H. destruct (insert_elem _ l) as (r' & i). cbn [res_or fst] in *. exact H.
Qed.

(** ** updates *)
Lemma update_step_within (A : element -> Prop) clk clki idxm exi eidx sidx w e : A (with_time (clk (e_id e)) e) -> within A (fst w) ->
  within A (fst (update_step clk clki idxm exi eidx sidx w e)).
Proof.
  intros Ha H. destruct w as (ss & is). cbn [fst] in *. unfold update_step. destruct (nth_error ss sidx) as [dst|]; [|exact H].
  assert (Hadd : within A (upd_nth sidx (set_elems (fun l => res_or l (add_elem (clk (e_id e)) e l))) ss)).
  { apply within_upd; [|exact H]. intros s Hs x Hx. cbn [set_elems sg_elems] in Hx. destruct (add_elem_In _ _ _ _ Hx) as [-> |H1]; auto. }
  destruct (assoc (e_id e) exi) as [ex|]; [|exact Hadd]. destruct (e_tie ex =? sg_id dst).
  - cbn [fst]. apply within_upd; [|exact H]. intros s Hs x Hx. cbn [set_elems sg_elems] in Hx. destruct (update_elem_In _ _ _ _ Hx) as [-> |H1]; auto.
  - destruct (nth_error is (idx_get eidx (e_id e))) as [iseg|]; [|exact Hadd]. destruct (List.is_ok _); [|exact Hadd].
    cbn [fst]. apply within_upd; [|exact Hadd]. intros s Hs x Hx. cbn [set_elems sg_elems] in Hx.
    destruct (delete_elem (e_id e) (sg_elems s)) as [r|] eqn:E; [|auto]. apply Hs. eapply delete_elem_In; eauto.
Qed.
Lemma update_loop_within (A : element -> Prop) clk clki idxm exi eidx : forall groups w,
  (forall p e, In p groups -> In e (snd p) -> A (with_time (clk (e_id e)) e)) -> within A (fst w) ->
  within A (fst (update_loop clk clki idxm exi eidx groups w)).
Proof.
  unfold update_loop. induction groups as [|g groups IH]; intros w Ha H; cbn [fold_left]; [exact H|].
  apply IH; [intros p e Hp; apply Ha; right; exact Hp|].
  assert (Hg : forall e, In e (snd g) -> A (with_time (clk (e_id e)) e)) by (intros e; apply Ha; left; reflexivity).
  clear Ha IH. revert w H. induction (snd g) as [|e el IHe]; intros w H; cbn [fold_left]; [exact H|].
  apply IHe; [intros y Hy; apply Hg; right; exact Hy|]. apply update_step_within; [apply Hg; left; reflexivity|exact H].
Qed.
Lemma slice_In {T} (l : list T) a b x : In x (slice l a b) -> In x l.
Proof. unfold slice. intros H. apply In_firstn in H. apply In_skipn in H. exact H. Qed.
Lemma split_elements_In l e : forall i p x, In p (split_elements_from i l e) -> In x (snd p) -> In x e.
Proof.
  induction l as [|s l IH]; intros i p x Hp Hx; cbn [split_elements_from] in Hp; [contradiction|]. destruct (filter_idx s e) as (a & b).
  destruct (Nat.eqb a b); [eauto|]. destruct Hp as [<-|Hp]; [exact (slice_In _ _ _ _ Hx)|eauto].
Qed.
Lemma touch_at_within A now ts l : within A l -> within A (touch_at now ts l).
Proof. intros H. unfold touch_at, mapi. apply within_mapi; [|exact H]. intros i s Hs x. destruct (existsb _ ts); auto. Qed.
Lemma reindex_segs s : ss_segs (reindex s) = ss_segs s.
Proof. unfold reindex. destruct (Nat.eqb _ _); reflexivity. Qed.
Lemma update_within (A : element -> Prop) clk clki now sc e l : (forall x, In x e -> A (stamp clk x)) -> within A (ss_segs (l_scores l)) ->
  within A (ss_segs (l_scores (update_elements clk clki now sc e l))).
Proof.
  intros Ha H. unfold update_elements, update_core.
  pose proof (update_loop_within A clk clki (ss_idx (reindex (l_scores l))) (existing_idx (ss_segs (l_index l)) (index_groups (ss_segs (l_index l)) (sort_ids_desc (map e_id (sort_elems e)))))
    (elements_idx (index_groups (ss_segs (l_index l)) (sort_ids_desc (map e_id (sort_elems e))))) (permute sc (split_elements_idx (ss_segs (reindex (l_scores l))) (sort_elems e)))
    (ss_segs (reindex (l_scores l)), ss_segs (l_index l))) as HL.
  destruct (update_loop _ _ _ _ _ _ _) as (ss & is). cbn [fst] in HL. cbn [set_both l_scores set_segs ss_segs]. apply touch_at_within. apply HL; [|rewrite reindex_segs; exact H].
  intros p y Hp Hy. apply (Permutation_in _ (permute_perm _ _)) in Hp. pose proof (split_elements_In _ _ _ _ _ Hp Hy) as Hin.
  apply Ha. exact (proj1 (sort_elems_In _ _) Hin).
Qed.

(** ** deletes and inserts *)
Lemma delete_within (A : element -> Prop) now sc1 sc2 ids l : within A (ss_segs (l_scores l)) -> within A (ss_segs (l_scores (delete_elements now sc1 sc2 ids l))).
Proof.
  intros H. unfold delete_elements, delete_elements_idx. cbn zeta.
  assert (Hs : forall ids', within A (mapi (fun i x => match ids_for (ss_idx (reindex (l_scores l))) i ids' with
                             | [] => x
                             | d => touch now (set_elems (filter (fun e => negb (mem_id (e_id e) d))) x)
                             end) (ss_segs (reindex (l_scores l))))).
  { intros ids'. unfold mapi. apply within_mapi; [|rewrite reindex_segs; exact H]. intros i s Hs x. destruct (ids_for _ i ids'); [auto|].
    cbn [touch set_elems sg_elems]. intros Hx. apply filter_In in Hx as (Hx & _). auto. }
  destruct (fold_left _ _ _); cbn [set_both l_scores set_segs ss_segs]; apply Hs.
Qed.
Lemma insert_sorted_within (A : element -> Prop) now : forall l ins, (forall x, In x ins -> A x) -> within A l -> within A (fst (insert_sorted now l ins)).
Proof.
  induction l as [|s l IH]; intros ins Hi H; cbn [insert_sorted]; [exact H|]. apply within_cons in H as (H1 & H2). destruct (filter_idx s ins) as (a & b).
  destruct (Nat.eqb a b).
  - pose proof (IH ins Hi H2) as HI. destruct (insert_sorted now l ins) as (r & ix). cbn [fst] in *. apply within_cons. auto.
  - assert (Hi2 : forall x, In x (skipn b ins) -> A x) by (intros x Hx; apply Hi; eapply In_skipn; eauto).
    pose proof (IH _ Hi2 H2) as HI. destruct (insert_sorted now l (skipn b ins)) as (r & ix). cbn [fst] in *. apply within_cons. split; [|exact HI].
    cbn [touch set_elems sg_elems]. intros x Hx. apply (Permutation_in _ (merge_copy_perm _ _)) in Hx. apply in_app_iff in Hx as [Hx|Hx]; [auto|].
    apply Hi. exact (slice_In _ _ _ _ Hx).
Qed.
Lemma insert_one_within (A : element -> Prop) now sc l e : (forall x, In x e -> A x) -> within A (ss_segs (l_scores l)) -> within A (ss_segs (l_scores (insert_one now sc l e))).
Proof.
  intros Ha H. unfold insert_one, segs_insert.
  pose proof (insert_sorted_within A now (ss_segs (l_scores l)) (sort_elems (sort_elems e))) as HI. destruct (insert_sorted now (ss_segs (l_scores l)) _) as (r & ix).
  destruct (insert_sorted now (ss_segs (l_index l)) _) as (r2 & ix2). cbn [set_both l_scores set_segs ss_segs fst] in *. apply HI; [|exact H].
  intros x Hx. apply Ha. exact (proj1 (sort_elems_In _ _) (proj1 (sort_elems_In _ _) Hx)).
Qed.
Lemma insert_loop_within (A : element -> Prop) now sch limit : forall fuel e l l', (forall x, In x e -> A x) -> within A (ss_segs (l_scores l)) ->
  insert_loop fuel limit now sch e l = Done l' -> within A (ss_segs (l_scores l')).
Proof.
  induction fuel as [|f IH]; intros e l l' Ha H E; cbn [insert_loop] in E.
  - destruct (Nat.ltb limit (length e)); [discriminate|]. injection E as <-. apply insert_one_within; auto.
  - destruct (Nat.ltb limit (length e)).
    + eapply IH; [| |exact E]; [intros x Hx; apply Ha; eapply In_skipn; eauto|]. apply insert_one_within; [|exact H]. intros x Hx. apply Ha. eapply In_firstn; eauto.
    + injection E as <-. apply insert_one_within; auto.
Qed.

(** ** new lists *)
Lemma split_loop_In n l elems : forall start p x, In p (split_loop n l start elems) -> In x p -> In x l.
Proof.
  induction n as [|n IH]; intros start p x Hp Hx; cbn [split_loop] in Hp; [contradiction|]. destruct (Nat.eqb start _); [contradiction|].
  destruct Hp as [<-|Hp]; [exact (slice_In _ _ _ _ Hx)|eauto].
Qed.
Lemma split_size_In l k parts p x : split_size l k = Some parts -> In p parts -> In x p -> In x l.
Proof.
  unfold split_size. destruct (Nat.leb (length l) k).
  - intros E Hp Hx. injection E as <-. destruct Hp as [<-|[]]. exact Hx.
  - destruct k; [discriminate|]. intros E Hp Hx. injection E as <-. eapply split_loop_In; eauto.
Qed.
Lemma nse_loop_within (A : element -> Prop) name now : forall parts mx id, (forall p x, In p parts -> In x p -> A x) -> within A (fst (fst (nse_loop name now mx id parts))).
Proof.
  induction parts as [|p parts IH]; intros mx id Ha; cbn [nse_loop]; [intros s x []|]. destruct p as [|y p']; [apply IH; intros q x Hq; apply Ha; right; exact Hq|].
  destruct (min_max (y :: p')) as (((mn & a) & mnt) & b). destruct (match parts with [] => _ | _ => _ end) as (mn' & mnt').
  match goal with |- context [nse_loop name now ?m ?i parts] => pose proof (IH m i) as HI; destruct (nse_loop name now m i parts) as ((r & id') & ix) end.
  cbn [fst] in *. apply within_cons. split; [cbn [sg_elems]; intros x Hx; apply (Ha (y :: p')); [left; reflexivity|exact Hx]|]. apply HI. intros q x Hq. apply Ha. right. exact Hq.
Qed.
Lemma new_segments_within (A : element -> Prop) name now parts : (forall p x, In p parts -> In x p -> A x) -> within A (ss_segs (fst (new_segments_elements name now parts false))).
Proof.
  intros Ha. unfold new_segments_elements. pose proof (nse_loop_within A name now parts (max_u64, max_u32) 1 Ha) as H.
  destruct (nse_loop _ _ _ _ _) as ((l & id) & ix). cbn [fst] in H. destruct l as [|s l]; cbn [fst ss_segs]; [|exact H]. intros s x [<-|[]] [].
Qed.
Lemma populate_within (A : element -> Prop) ns ni now sc sch want e l l' : (forall x, In x e -> A x) -> populate ns ni now sc sch want e l = Done l' -> within A (ss_segs (l_scores l')).
Proof.
  intros Ha E. unfold populate in E. destruct e as [|e0 er] eqn:Ee.
  { injection E as <-. cbn. intros s x [<-|[]] []. }
  rewrite <- Ee in *. clear Ee. cbn zeta in E.
  set (df := Nat.ltb insert_limit (length e) && negb (is_sorted_elems e)) in *. set (e' := if df then permute sc e else e) in *.
  assert (He' : forall x, In x e' -> A x). { unfold e'. intros x Hx. destruct df; [apply (Permutation_in _ (permute_perm _ _)) in Hx|]; auto. }
  destruct (split_size (sort_elems _) _) as [parts|] eqn:Ep in E; [|discriminate].
  pose proof (new_segments_within A ns now parts) as HN. destruct (new_segments_elements ns now parts false) as (scores & ids).
  destruct (split_size (sort_elems ids) _) as [iparts|]; [|discriminate]. destruct (new_segments_elements ni now iparts true) as (index & ix).
  cbn [fst] in HN. assert (HS : within A (ss_segs scores)).
  { apply HN. intros p x Hp Hx. pose proof (split_size_In _ _ _ _ _ Ep Hp Hx) as Hi. apply (proj1 (sort_elems_In _ _)) in Hi. apply He'. destruct df; [eapply In_firstn; eauto|exact Hi]. }
  assert (Hd : forall x, In x (if df then skipn insert_limit e' else []) -> A x) by (intros x Hx; destruct df; [apply He'; eapply In_skipn; eauto|contradiction]).
  destruct (if df then skipn insert_limit e' else []) as [|d0 dr] eqn:Ed.
  - unfold guard_ids in E. destruct (ids_ok _); [|discriminate]. injection E as <-. exact HS.
  - destruct (insert now sch (d0 :: dr) _) as [l2| | |] eqn:Ei; try discriminate. unfold guard_ids in E. destruct (ids_ok l2); [|discriminate]. injection E as <-.
    unfold insert in Ei. eapply insert_loop_within; [exact Hd| |exact Ei]. exact HS.
Qed.

(** ** split passes *)
Lemma within_nth A l i s : within A l -> nth_error l i = Some s -> forall x, In x (sg_elems s) -> A x.
Proof. intros H Hs x. apply H. eapply nth_error_In; eauto. Qed.
Lemma within_del A i l : within A l -> within A (del_nth i l).
Proof.
  revert i. induction l as [|s l IH]; intros [|i] H; cbn [del_nth]; auto; apply within_cons in H as (H1 & H2); [exact H2|]. apply within_cons. auto.
Qed.
Lemma within_ins (A : element -> Prop) i s : forall l, (forall x, In x (sg_elems s) -> A x) -> within A l -> within A (ins_nth i s l).
Proof.
  intros l Hs. revert i. induction l as [|y l IH]; intros [|i] H; cbn [ins_nth]; try (apply within_cons; split; [exact Hs|exact H]).
  apply within_cons in H as (H1 & H2). apply within_cons. auto.
Qed.
Lemma split_segs_within A isidx merge ms sz now : forall fuel i l next us upd l' n' us' upd', within A l ->
  split_loop_segs fuel isidx merge ms sz now i l next us upd = Done (l', n', us', upd') -> within A l'.
Proof.
  induction fuel as [|f IH]; intros i l next us upd l' n' us' upd' H E; cbn [split_loop_segs] in E.
  { destruct (nth_error l i); [discriminate|]. injection E as <- _ _ _. exact H. }
  destruct (nth_error l i) as [s|] eqn:Es; [|injection E as <- _ _ _; exact H].
  assert (Hset : within A (upd_nth i set_n l)) by (apply within_upd; [|exact H]; auto).
  destruct (Nat.ltb (sg_n s) sz).
  - destruct (if merge then i else O) as [|j]; [exact (IH _ _ _ _ _ _ _ _ _ H E)|]. destruct (nth_error l (i - 1)) as [p|] eqn:Ep; [|exact (IH _ _ _ _ _ _ _ _ _ H E)].
    destruct (Nat.ltb ms _); [exact (IH _ _ _ _ _ _ _ _ _ H E)|].
    destruct (merge_segs now p s) as (m & ch) eqn:Em. assert (Hm : sg_elems m = sg_elems p ++ sg_elems s) by (unfold merge_segs in Em; injection Em as <- _; reflexivity).
    eapply IH; [|exact E]. apply within_del. apply within_upd; [|exact H]. intros _ _ x Hx. rewrite Hm in Hx. apply in_app_iff in Hx as [Hx|Hx]; [exact (within_nth A l _ p H Ep x Hx)|exact (within_nth A l _ s H Es x Hx)].
  - destruct (split_seg isidx next now s) as [((s1 & s2) & ch)|] eqn:Esp.
    + destruct (split_seg_halves _ _ _ _ _ _ _ Esp) as (Ee & _). pose proof (within_nth A l i s H Es) as Hw. rewrite Ee in Hw.
      eapply IH; [|exact E]. apply within_ins; [intros x Hx; apply Hw; apply in_or_app; right; exact Hx|]. apply within_upd; [|exact H].
      intros _ _ x Hx. apply Hw. apply in_or_app. left. exact Hx.
    + destruct isidx; exact (IH _ _ _ _ _ _ _ _ _ Hset E).
Qed.

Lemma step_within (A : element -> Prop) l o l' : (forall x, In x (given o) -> A x) -> within A (ss_segs (l_scores l)) -> step l o = Done l' -> within A (ss_segs (l_scores l')).
Proof.
  intros Ha H E. destruct o; cbn [step given] in *.
  - injection E as <-. apply update_within; [|exact H]. intros x Hx. apply Ha. apply in_map. exact Hx.
  - unfold insert in E. eapply insert_loop_within; eauto.
  - injection E as <-. apply delete_within. exact H.
  - unfold split_pass in E. destruct (split_loop_segs _ _ _ _ _ _ _ _ _ _ _) as [(((ss & nx) & us) & upd)| | |] eqn:E1; try discriminate.
    destruct (split_loop_segs _ true _ _ _ _ _ _ _ _ _) as [(((is & nxi) & us2) & updi)| | |]; try discriminate.
    unfold guard_ids in E. destruct (ids_ok _); [|discriminate]. injection E as <-. cbn [set_both l_scores ss_segs]. eapply split_segs_within; eauto.
  - unfold reindex_list in E. destruct (split_size _ _) as [parts|]; [|discriminate]. destruct (new_segments_elements _ _ _ _) as (index & ix).
    unfold guard_ids in E. destruct (ids_ok _); [|discriminate]. injection E as <-. exact H.
  - unfold repair in E. eapply populate_within; [|exact E]. intros x Hx. unfold repair_elements in Hx.
    destruct (deduplicate sca _) as (out & ch) eqn:Ed. destruct (deduplicate_spec _ _ _ _ Ed) as (_ & _ & Hd & _). cbn [fst] in Hx. apply Hd in Hx.
    apply in_concat in Hx as (q & Hq & Hx). apply In_nth_error in Hq as (i & Hi). rewrite mapi_nth in Hi. destruct (nth_error (ss_segs (l_scores l)) i) as [s|] eqn:Es; [|discriminate].
    cbn in Hi. injection Hi as <-. destruct (deduplicate (scd i) (sg_elems s)) as (o2 & c2) eqn:Ed2. destruct (deduplicate_spec _ _ _ _ Ed2) as (_ & _ & Hd2 & _).
    cbn [fst] in Hx. eapply within_nth; eauto.
  - eapply populate_within; eauto.
  - injection E as <-. unfold reload, clear_idx. cbn [l_scores ss_segs]. exact H.
Qed.
Lemma run_within (A : element -> Prop) : forall ops l l', (forall o x, In o ops -> In x (given o) -> A x) -> within A (ss_segs (l_scores l)) -> run l ops = Done l' -> within A (ss_segs (l_scores l')).
Proof.
  induction ops as [|o ops IH]; intros l l' Ha H E; cbn [run] in E; [injection E as <-; exact H|].
  destruct (step l o) as [l1| | |] eqn:E1; try discriminate. eapply IH; [| |exact E]; [intros o' x Ho; apply Ha; right; exact Ho|].
  eapply step_within; [|exact H|exact E1]. intros x. apply Ha. left. reflexivity.
Qed.
Lemma within_stored A l : within A (ss_segs (l_scores l)) <-> forall x, In x (stored_in l) -> A x.
Proof.
  rewrite stored_contents. unfold contents, within. split.
  - intros H x Hx. apply elems_of_In in Hx as (s & Hs & Hx). eauto.
  - intros H s x Hs Hx. apply H. apply elems_of_In. eauto.
Qed.
Lemma c71_nothing_new ops l l' x : run l ops = Done l' -> In x (stored_in l') -> In x (stored_in l) \/ exists o, In o ops /\ In x (given o).
Proof.
  intros E Hx. pose proof (run_within (fun x => In x (stored_in l) \/ exists o, In o ops /\ In x (given o)) ops l l') as H. rewrite !within_stored in H.
  apply H; auto. intros o y Ho Hy. right. eauto.
Qed.
