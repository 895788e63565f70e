(** What every operation leaves in the store and the cache. *)
From Coq Require Import Strings.String Strings.Ascii.
From Verif.Lib Require Import Prelude ListAux ListLemmas Perm Bytes.
From Verif.Model Require Import Element Elements Segment List Keys Storage.
From Verif.Spec Require Import RankSpec QuerySpec HistorySpec KeySpec CodecSpec StorageSpec.
From Verif.Proof Require Import ElementP ElementsP SegP InvDef KeysP ChangeP UpdateP UpdateInv DeleteP InsertP BuildP BuildInv RepairP SplitP IdxUpdP SplitInv HistoryP StoreP.
Open Scope N_scope.

Lemma coll_step h st c n l l' es : plain n -> coll h st c n l ->
  Forall (fun s => sg_parent s = n) l' -> NoDup (map sg_id l') ->
  (forall e, In e es -> ev_name e = n) -> Forall (flagged h n) es ->
  (forall s, In s l' -> (In (EPut h s) es \/ In s l) /\ forall e, In e es -> touches n (sg_id s) e -> e = EPut h s) ->
  coll h (evs_store es st) (evs_cache es c) n l'.
Proof.
  intros Hn [A B C D] Hpar Hnd Hnm Hfl Hs. split; auto.
  - rewrite Forall_forall. intros s Hin. destruct (Hs s Hin) as (H1 & H2).
    rewrite Forall_forall in Hpar. pose proof (Hpar s Hin) as Ps.
    apply (held_evs h).
    + apply names_plain with n; assumption.
    + intros E. apply (clean_key h); [rewrite Ps; exact B|exact E].
    + destruct H1 as [H1|H1]; [left; exact H1|right; rewrite Forall_forall in A; apply A, H1].
    + rewrite Ps. exact H2.
  - apply clean_evs; assumption.
Qed.

(** two collections *)
Definition two hs hi st c n1 n2 S I := coll hs st c n1 S /\ coll hi st c n2 I.
Definition parents (l : list seg) := map sg_parent l.
Lemma parents_Forall n l l' : parents l' = parents l -> Forall (fun s => sg_parent s = n) l -> Forall (fun s => sg_parent s = n) l'.
Proof.
  intros E H. apply Forall_forall. intros s Hs. rewrite Forall_forall in H.
  assert (Hp : In (sg_parent s) (parents l)) by (rewrite <- E; apply in_map, Hs).
  apply in_map_iff in Hp as (t & <- & Ht). apply H, Ht.
Qed.

Lemma two_scores hs hi st c n1 n2 S S' I is : plain n1 -> n1 <> n2 -> two hs hi st c n1 n2 S I ->
  kept is S S' -> Forall (fun s => sg_parent s = n1) S' ->
  two hs hi (evs_store (puts hs S' is) st) (evs_cache (puts hs S' is) c) n1 n2 S' I.
Proof.
  intros Hp Hne (A & B) K P. split; [eapply coll_puts; eauto|]. apply coll_frame; [|intros e He; rewrite (puts_names _ _ _ _ P e He); exact Hne|exact B].
  apply names_plain with n1; [exact Hp|apply puts_names, P].
Qed.
Lemma two_index hs hi st c n1 n2 S I I' is : plain n2 -> n1 <> n2 -> two hs hi st c n1 n2 S I ->
  kept is I I' -> Forall (fun s => sg_parent s = n2) I' ->
  two hs hi (evs_store (puts hi I' is) st) (evs_cache (puts hi I' is) c) n1 n2 S I'.
Proof.
  intros Hp Hne (A & B) K P. split; [|eapply coll_puts; eauto]. apply coll_frame; [| |exact A].
  - apply names_plain with n2; [exact Hp|apply puts_names, P].
  - intros e He. rewrite (puts_names _ _ _ _ P e He). congruence.
Qed.

(** ** which segments change *)
Lemma kept_nodup (ord : list nat) ts a b : kept ts a b -> kept (permute ord (nodup Nat.eq_dec ts)) a b.
Proof. apply kept_incl. intros i Hi. apply permute_In. apply nodup_In. exact Hi. Qed.
Lemma kept_perm (ord : list nat) ts a b : kept ts a b -> kept (permute ord ts) a b.
Proof. apply kept_incl. intros i Hi. apply permute_In. exact Hi. Qed.

Lemma touched_from_ge : forall l i ins j, In j (touched_from i l ins) -> (i <= j)%nat.
Proof.
  induction l as [|s r IH]; intros i ins j; cbn [touched_from]; [contradiction|].
  destruct (filter_idx s ins) as (a & b). destruct (Nat.eqb a b).
  - intros H. apply IH in H. lia.
  - intros [->|H]; [lia|]. apply IH in H. lia.
Qed.
(** a walk that changes the segments of [touched_from] *)
Lemma walk_kept (f : list seg -> elements -> list seg) (g : seg -> elements -> nat -> nat -> seg) :
  (forall ins, f [] ins = []) ->
  (forall s r ins, f (s :: r) ins = let '(a, b) := filter_idx s ins in
     if Nat.eqb a b then s :: f r ins else g s ins a b :: f r (skipn b ins)) ->
  (forall s ins a b, frame (g s ins a b) = frame s /\ sg_parent (g s ins a b) = sg_parent s) ->
  forall l i ins, map frame (f l ins) = map frame l /\ parents (f l ins) = parents l /\
    forall j, ~ In (i + j)%nat (touched_from i l ins) -> nth_error (f l ins) j = nth_error l j.
Proof.
  intros F0 F1 G. induction l as [|s r IH]; intros i ins.
  - rewrite F0. auto.
  - rewrite F1. cbn [touched_from]. destruct (filter_idx s ins) as (a & b). destruct (Nat.eqb a b).
    + destruct (IH (S i) ins) as (A & B & C). split; [cbn; f_equal; exact A|]. split; [cbn; f_equal; exact B|].
      intros [|j] Hj; [reflexivity|]. cbn. apply C. replace (S i + j)%nat with (i + S j)%nat by lia. exact Hj.
    + destruct (IH (S i) (skipn b ins)) as (A & B & C). destruct (G s ins a b) as (G1 & G2).
      split; [cbn [map]; f_equal; assumption|]. split; [cbn; f_equal; assumption|].
      intros [|j] Hj; [exfalso; apply Hj; left; lia|]. cbn. apply C. intros D. apply Hj. right.
      replace (S i + j)%nat with (i + S j)%nat in D by lia. exact D.
Qed.
Lemma delete_sorted_kept now l ins : kept (touched_from 0 l ins) l (delete_sorted now l ins) /\ parents (delete_sorted now l ins) = parents l.
Proof.
  destruct (walk_kept (delete_sorted now) (fun s ins a b => touch now (set_elems (filter (fun e => negb (mem_id (e_id e) (map e_id (slice ins a b))))) s)))
    with (l := l) (i := 0%nat) (ins := ins) as (A & B & C); [reflexivity|reflexivity|intros; split; reflexivity|].
  split; [split; [exact A|exact C]|exact B].
Qed.
Lemma insert_sorted_kept now l ins : kept (touched_from 0 l ins) l (fst (insert_sorted now l ins)) /\ parents (fst (insert_sorted now l ins)) = parents l.
Proof.
  destruct (walk_kept (fun l ins => fst (insert_sorted now l ins)) (fun s ins a b => touch now (set_elems (fun old => merge_copy old (slice ins a b)) s)))
    with (l := l) (i := 0%nat) (ins := ins) as (A & B & C); [reflexivity| |intros; split; reflexivity|].
  - intros s r ins0. cbn [insert_sorted]. destruct (filter_idx s ins0) as (a & b). destruct (Nat.eqb a b).
    + destruct (insert_sorted now r ins0). reflexivity.
    + destruct (insert_sorted now r (skipn b ins0)). reflexivity.
  - split; [split; [exact A|exact C]|exact B].
Qed.
Lemma nth_error_mapi {A B} (f : nat -> A -> B) l i : nth_error (mapi f l) i = option_map (f i) (nth_error l i).
Proof.
  unfold mapi. assert (H : forall l k i, nth_error (mapi_from k f l) i = option_map (f (k + i)%nat) (nth_error l i)).
  { clear. induction l as [|x r IH]; intros k [|i]; cbn; try reflexivity; [rewrite Nat.add_0_r; reflexivity|].
    rewrite IH. replace (S k + i)%nat with (k + S i)%nat by lia. reflexivity. }
  apply (H l 0%nat i).
Qed.
Lemma delete_idx_kept now sc s ids : let s1 := reindex s in let s' := fst (delete_elements_idx now sc s ids) in
  kept (touched_idx (ss_idx s1) (ss_segs s1) ids) (ss_segs s1) (ss_segs s') /\ parents (ss_segs s') = parents (ss_segs s1) /\ ss_id s' = ss_id s.
Proof.
  cbn zeta. unfold delete_elements_idx. cbn [fst set_segs ss_segs ss_id].
  split; [|split; [|unfold reindex; destruct (Nat.eqb _ _); reflexivity]].
  - split.
    + apply mapi_same. intros i x. destruct (ids_for _ i ids); reflexivity.
    + intros i Hi. rewrite nth_error_mapi. destruct (nth_error (ss_segs (reindex s)) i) as [x|] eqn:E; [|reflexivity]. cbn [option_map].
      destruct (ids_for (ss_idx (reindex s)) i ids) as [|d0 dr] eqn:Ed; [reflexivity|]. exfalso. apply Hi.
      unfold touched_idx. apply filter_In. split; [|rewrite Ed; reflexivity]. apply in_seq.
      assert (i < length (ss_segs (reindex s)))%nat by (apply nth_error_Some; congruence). lia.
  - apply mapi_same. intros i x. destruct (ids_for _ i ids); reflexivity.
Qed.
Lemma reindex_segs s : ss_segs (reindex s) = ss_segs s.
Proof. unfold reindex. destruct (Nat.eqb _ _); reflexivity. Qed.
Lemma reindex_id s : ss_id (reindex s) = ss_id s.
Proof. unfold reindex. destruct (Nat.eqb _ _); reflexivity. Qed.

Lemma upd_groups_kept now : forall gs l,
  kept (map fst (filter (fun g : nat * list upd_entry => negb (Nat.eqb (length (snd g)) 0)) gs)) l (upd_groups now gs l) /\
  parents (upd_groups now gs l) = parents l.
Proof.
  induction gs as [|g gs IH]; intros l; cbn [upd_groups fold_left].
  - split; [apply kept_refl|reflexivity].
  - change (fold_left (upd_group now) gs (upd_group now l g)) with (upd_groups now gs (upd_group now l g)).
    destruct (IH (upd_group now l g)) as ((A & B) & C). unfold upd_group in *. cbn [filter]. destruct (snd g) as [|u ur] eqn:Eg.
    + cbn [length Nat.eqb negb]. split; [split; assumption|exact C].
    + cbn [length Nat.eqb negb map]. split; [split|].
      * rewrite A. apply upd_nth_map. intros x. reflexivity.
      * intros i Hi. rewrite B by (intros D; apply Hi; right; exact D). rewrite upd_nth_nth.
        destruct (Nat.eqb_spec (fst g) i); [exfalso; apply Hi; left; assumption|reflexivity].
      * rewrite C. apply upd_nth_map. intros x. reflexivity.
Qed.
Lemma update_index_kept now us l : kept (updated_idx us l) l (update_index_elements now us l) /\ parents (update_index_elements now us l) = parents l.
Proof.
  unfold updated_idx, update_index_elements. destruct us as [|u ur]; [split; [apply kept_refl|reflexivity]|].
  apply upd_groups_kept.
Qed.

(** ** the split loop *)
Lemma split_loop_upd isidx merge ms sz now : forall fuel i l next us l' next' us',
  split_loop_segs fuel isidx merge ms sz now i l next us true = Done (l', next', us', false) -> False.
Proof.
  induction fuel as [|f IH]; intros i l next us l' next' us' E; cbn [split_loop_segs] in E.
  { destruct (nth_error l i); [discriminate|]. congruence. }
  destruct (nth_error l i) as [s|]; [|congruence].
  destruct (Nat.ltb (sg_n s) sz).
  - destruct (if merge then i else O); [eapply IH; eauto|]. destruct (nth_error l (i - 1)); [|eapply IH; eauto].
    destruct (Nat.ltb ms _); [eapply IH; eauto|]. destruct (merge_segs now s0 s). eapply IH; eauto.
  - destruct (split_seg isidx next now s) as [((s1 & s2) & ch)|]; [eapply IH; eauto|]. destruct isidx; eapply IH; eauto.
Qed.

Lemma split_loop_coll h isidx merge ms sz now name P : 0 < now < max_u32 -> plain name ->
  forall fuel i l next us upd l' next' us' upd' st c,
  0 < next -> sok isidx name P l next ->
  split_loop_segs fuel isidx merge ms sz now i l next us upd = Done (l', next', us', upd') ->
  coll h st c name l ->
  let es := split_loop_evs fuel h isidx merge ms sz now i l next in
  coll h (evs_store es st) (evs_cache es c) name l' /\ (forall e, In e es -> ev_name e = name) /\
  (upd' = false -> es = [] /\ next' = next).
Proof.
  intros Hnow Hpl. induction fuel as [|f IH]; intros i l next us upd l' next' us' upd' st c Hnx HK E HC; cbn [split_loop_segs split_loop_evs] in *.
  { destruct (nth_error l i); [discriminate|]. injection E as <- <- <- <-. split; [exact HC|]. split; [contradiction|auto]. }
  destruct (nth_error l i) as [s|] eqn:Hs.
  2: { injection E as <- <- <- <-. split; [exact HC|]. split; [contradiction|auto]. }
  destruct (Nat.ltb (sg_n s) sz).
  - destruct (if merge then i else O) as [|j] eqn:Ej; [eapply IH; eauto|].
    destruct (nth_error l (i - 1)) as [p|] eqn:Hp; [|eapply IH; eauto].
    destruct (Nat.ltb ms (sg_n s + sg_n p)); [eapply IH; eauto|].
    assert (Hi : i = S j) by (destruct merge; [exact Ej|discriminate]).
    rewrite Hi in Hp, Hs. replace (S j - 1)%nat with j in Hp by lia.
    apply nth_split_eq in Hp as (a & b & El & La).
    destruct b as [|s' b].
    { rewrite El in Hs. rewrite nth_error_app2 in Hs by lia. replace (S j - length a)%nat with 1%nat in Hs by lia. discriminate. }
    assert (s' = s).
    { rewrite El in Hs. rewrite nth_error_app2 in Hs by lia. replace (S j - length a)%nat with 1%nat in Hs by lia. cbn in Hs. congruence. }
    subst s'. destruct (merge_segs now p s) as (m & ch) eqn:Em.
    assert (Em1 : m = fst (merge_segs now p s)) by (rewrite Em; reflexivity).
    assert (El' : del_nth i (upd_nth (i - 1) (fun _ => m) l) = a ++ m :: b).
    { rewrite El, Hi. replace (S j - 1)%nat with (length a) by lia. rewrite upd_nth_mid.
      replace (S j) with (length (a ++ [m])) by (rewrite app_length; cbn; lia).
      replace (a ++ m :: s :: b) with ((a ++ [m]) ++ s :: b) by (rewrite <- app_assoc; reflexivity).
      rewrite del_nth_mid, <- app_assoc. reflexivity. }
    rewrite El' in *. rewrite El in HK, HC. pose proof (k_nd _ _ _ _ _ HK) as Hnd.
    destruct (sok_merge _ _ _ _ _ _ _ _ now Hnow HK) as (HK2 & _).
    rewrite <- Em1 in HK2.
    assert (Hm : sg_id m = sg_id p /\ sg_parent m = sg_parent p) by (rewrite Em1; cbn; auto).
    assert (Ps : sg_parent s = name /\ sg_parent p = name).
    { pose proof (co_par _ _ _ _ _ HC) as Hq. rewrite Forall_forall in Hq. split; apply Hq; rewrite in_app_iff; cbn; auto. }
    assert (HC2 : coll h (evs_store [EPut h m; EDel false s] st) (evs_cache [EPut h m; EDel false s] c) name (a ++ m :: b)).
    { eapply coll_step; [exact Hpl|exact HC| |apply HK2| | |].
      - eapply Forall_impl; [|apply (k_meta _ _ _ _ _ HK2)]. unfold seg_meta. tauto.
      - intros e [<-|[<-|[]]]; cbn; [rewrite (proj2 Hm)|]; apply Ps.
      - constructor; [cbn; auto|]. constructor; [cbn; auto|constructor].
      - intros t Ht. rewrite map_app in Hnd. cbn [map] in Hnd. split.
        + rewrite in_app_iff in Ht. cbn in Ht |- *. rewrite in_app_iff. cbn. intuition congruence.
        + assert (Hts : sg_id t <> sg_id s).
          { intros C. rewrite in_app_iff in Ht. cbn in Ht.
            assert (Hnd2 : NoDup (sg_id s :: map sg_id a ++ sg_id p :: map sg_id b)).
            { apply Permutation_NoDup with (map sg_id a ++ sg_id p :: sg_id s :: map sg_id b); [|exact Hnd].
              transitivity (map sg_id a ++ sg_id s :: sg_id p :: map sg_id b); [apply Permutation_app_head, perm_swap|].
              symmetry. apply Permutation_middle. }
            apply NoDup_cons_iff in Hnd2 as (Hnd2 & _). apply Hnd2. rewrite <- C, in_app_iff. cbn.
            destruct Ht as [Ht|[Ht|Ht]]; [left; apply in_map, Ht| |right; right; apply in_map, Ht].
            right; left. rewrite <- Ht. symmetry. apply Hm. }
          intros e [<-|[<-|[]]] (Ta & Tb); cbn in *; [|congruence].
          f_equal. eapply NoDup_id_eq; [apply (k_nd _ _ _ _ _ HK2)|apply in_or_app; cbn; auto|exact Ht|exact Tb]. }
    destruct (IH _ _ _ _ _ _ _ _ _ _ _ Hnx HK2 E HC2) as (R1 & R2 & R3).
    split; [exact R1|]. split.
    + intros e [<-|[<-|He]]; [cbn; rewrite (proj2 Hm); apply Ps|apply Ps|apply R2, He].
    + intros ->. exfalso. eapply split_loop_upd, E.
  - assert (Hself : upd_nth i set_n l = l).
    { eapply upd_nth_self; [exact Hs|]. eapply set_n_same. pose proof (k_meta _ _ _ _ _ HK) as HM. rewrite Forall_forall in HM.
      apply HM. eapply nth_error_In; eauto. }
    rewrite Hself in *. apply nth_split_eq in Hs as (a & b & El & La).
    destruct (split_seg isidx next now s) as [((s1 & s2) & ch)|] eqn:Es.
    + rewrite El in HK, HC. pose proof (k_nd _ _ _ _ _ HK) as Hnd. pose proof (k_id _ _ _ _ _ HK) as Hid.
      destruct (sok_split _ _ _ _ _ _ _ _ _ _ _ Hnow Hnx HK Es) as (HK2 & _ & _ & _ & I1 & I2).
      assert (El' : ins_nth (S i) (touch now s2) (upd_nth i (fun _ => touch now s1) l) = a ++ touch now s1 :: touch now s2 :: b).
      { rewrite El, <- La, upd_nth_mid.
        replace (S (length a)) with (length (a ++ [touch now s1])) by (rewrite app_length; cbn; lia).
        replace (a ++ touch now s1 :: b) with ((a ++ [touch now s1]) ++ b) by (rewrite <- app_assoc; reflexivity).
        rewrite ins_nth_mid, <- app_assoc. reflexivity. }
      rewrite El' in *.
      assert (Hpar : Forall (fun t => sg_parent t = name) (a ++ touch now s1 :: touch now s2 :: b)).
      { eapply Forall_impl; [|apply (k_meta _ _ _ _ _ HK2)]. unfold seg_meta. tauto. }
      assert (P12 : sg_parent (touch now s1) = name /\ sg_parent (touch now s2) = name).
      { rewrite Forall_forall in Hpar. split; apply Hpar; rewrite in_app_iff; cbn; auto. }
      set (es1 := if isidx then [EPut h (touch now s2); EPut h (touch now s1)] else [EPut h (touch now s1); EPut h (touch now s2)]).
      assert (Hes : forall e, In e es1 <-> e = EPut h (touch now s1) \/ e = EPut h (touch now s2)).
      { intros e. unfold es1. destruct isidx; cbn; intuition congruence. }
      assert (HC2 : coll h (evs_store es1 st) (evs_cache es1 c) name (a ++ touch now s1 :: touch now s2 :: b)).
      { eapply coll_step; [exact Hpl|exact HC|exact Hpar|apply HK2| | |].
        - intros e He. apply Hes in He as [->| ->]; apply P12.
        - apply Forall_forall. intros e He. apply Hes in He as [->| ->]; cbn; auto.
        - intros t Ht. split.
          + rewrite in_app_iff in Ht. cbn [In] in Ht. rewrite Hes, in_app_iff. cbn [In]. intuition congruence.
          + intros e He Te. apply Hes in He as [->| ->]; cbn [touches] in Te; destruct Te as (_ & Te); f_equal;
              (eapply NoDup_id_eq; [apply (k_nd _ _ _ _ _ HK2)|apply in_or_app; cbn [In]; auto|exact Ht|exact Te]). }
      assert (Hnx2 : 0 < next + 1) by lia.
      destruct (IH _ _ _ _ _ _ _ _ _ _ _ Hnx2 HK2 E HC2) as (R1 & R2 & R3).
      split; [rewrite evs_store_app, evs_cache_app; exact R1|]. split.
      * intros e He. apply in_app_iff in He as [He|He]; [|apply R2, He]. apply Hes in He as [->| ->]; apply P12.
      * intros ->. exfalso. eapply split_loop_upd, E.
    + destruct isidx.
      * destruct (IH _ _ _ _ _ _ _ _ _ _ _ Hnx HK E HC) as (R1 & R2 & R3). split; [exact R1|]. split; [exact R2|].
        intros ->. exfalso. eapply split_loop_upd, E.
      * eapply IH; eauto.
Qed.

(** ** a list as stored *)
Definition both hs hi st c (l : lst) : Prop :=
  two hs hi st c (ss_id (l_scores l)) (ss_id (l_index l)) (ss_segs (l_scores l)) (ss_segs (l_index l)).
Record named (l : lst) : Prop := {
  n_s : ss_id (l_scores l) = l_scores_id l;
  n_i : ss_id (l_index l) = l_index_id l;
  n_ps : plain (l_scores_id l);
  n_pi : plain (l_index_id l);
  n_ne : l_scores_id l <> l_index_id l
}.
Record rep (cfg hs hi : bool) (st : store) (c : cache) (l : lst) : Prop := {
  r_both : both hs hi st c l;
  r_ms : st (lit (l_scores_id l)) = Some (meta_blob (l_scores l));
  r_mi : st (lit (l_index_id l)) = Some (meta_blob (l_index l));
  r_named : named l;
  r_cfg : cfg = false -> hs = false /\ hi = false
}.
Definition within (es : list ev) (ns : list string) : Prop := forall e, In e es -> In (ev_name e) ns.
Lemma within_app a b ns : within a ns -> within b ns -> within (a ++ b) ns.
Proof. intros A B e He. apply in_app_iff in He as [He|He]; auto. Qed.
Lemma within_incl a ns ns' : (forall n, In n ns -> In n ns') -> within a ns -> within a ns'.
Proof. intros H A e He. apply H, A, He. Qed.
Lemma within_one es n ns : (forall e, In e es -> ev_name e = n) -> In n ns -> within es ns.
Proof. intros H Hn e He. rewrite (H e He). exact Hn. Qed.

Lemma save_within l : named l -> within (save_evs l) (names l).
Proof. intros [A B _ _ _] e [<-|[<-|[]]]; cbn; [rewrite A|rewrite B]; auto. Qed.

Lemma rep_save cfg hs hi st c l : both hs hi st c l -> named l -> (cfg = false -> hs = false /\ hi = false) ->
  rep cfg hs hi (evs_store (save_evs l) st) (evs_cache (save_evs l) c) l.
Proof.
  intros (A & B) [N1 N2 N3 N4 N5] Hc.
  assert (Hp : plain_evs (save_evs l)).
  { constructor; [cbn; rewrite N1; exact N3|]. constructor; [cbn; rewrite N2; exact N4|constructor]. }
  assert (Hm : Forall meta_ev (save_evs l)) by (repeat constructor).
  split.
  - split; apply coll_meta; assumption.
  - cbn [save_evs evs_store fold_left ev_store]. rewrite put_other.
    + rewrite N1. apply put_same.
    + rewrite N2. intros E. apply lit_inj in E. auto.
  - cbn [save_evs evs_store fold_left ev_store]. rewrite N2. apply put_same.
  - split; assumption.
  - exact Hc.
Qed.

Lemma meta_par n s : ss_id s = n -> meta s -> Forall (fun g => sg_parent g = n) (ss_segs s).
Proof. intros <- H. eapply Forall_impl; [|apply (m_segs _ H)]. unfold seg_meta. tauto. Qed.

Lemma set_both_named l s i : named l -> ss_id s = ss_id (l_scores l) -> ss_id i = ss_id (l_index l) -> named (set_both l s i).
Proof.
  intros [A B C D E] Hs Hi. split; cbn [set_both l_scores l_index l_scores_id l_index_id]; try rewrite Hs; try rewrite Hi; try rewrite A; try rewrite B; auto.
Qed.
Lemma set_both_names l s i : named l -> ss_id s = ss_id (l_scores l) -> ss_id i = ss_id (l_index l) -> names (set_both l s i) = names l.
Proof. intros [A B C D E] Hs Hi. unfold names. cbn. rewrite Hs, Hi, A, B. reflexivity. Qed.

Lemma update_rep cfg hs hi st c P l ord clk clki now sc elems : Inv P l -> rep cfg hs hi st c l ->
  batch_ok elems -> clock_ok clk -> clock_ok clki -> 0 < now < max_u32 ->
  let l' := update_elements clk clki now sc elems l in
  let es := update_evs ord hs hi clk clki now sc elems l in
  rep cfg hs hi (evs_store es st) (evs_cache es c) l' /\ within es (names l) /\ names l' = names l.
Proof.
  intros HI [HB _ _ HN HC] Hb Hc Hci Hnow. cbn zeta.
  destruct (update_full P l clk clki now sc elems HI Hb Hc Hci Hnow) as (HI' & K1 & K2). cbn zeta in *.
  unfold update_evs.
  assert (EN : exists s i, update_elements clk clki now sc elems l = set_both l s i /\ ss_id s = ss_id (l_scores l) /\ ss_id i = ss_id (l_index l)).
  { unfold update_elements. destruct (update_core clk clki sc elems l) as ((ss & is) & (ts & ti)).
    eexists _, _. split; [reflexivity|]. cbn [set_segs ss_id]. split; [apply reindex_id|reflexivity]. }
  destruct EN as (s & i & EN & Es & Ei).
  destruct (update_core clk clki sc elems l) as ((ss & is) & (ts & ti)) eqn:Eu. cbn [snd fst] in *.
  set (l' := update_elements clk clki now sc elems l) in *.
  assert (HN' : named l') by (rewrite EN; apply set_both_named; assumption).
  assert (Hnm : names l' = names l) by (rewrite EN; apply set_both_names; assumption).
  assert (E1 : ss_id (l_scores l') = ss_id (l_scores l)) by (rewrite EN; exact Es).
  assert (E2 : ss_id (l_index l') = ss_id (l_index l)) by (rewrite EN; exact Ei).
  pose proof (meta_par _ _ E1 (i_ms _ _ HI')) as P1. pose proof (meta_par _ _ E2 (i_mi _ _ HI')) as P2.
  destruct HN as [M1 M2 M3 M4 M5].
  split; [|split; [|exact Hnm]].
  - rewrite !evs_store_app, !evs_cache_app. apply rep_save; [|exact HN'|exact HC].
    unfold both. rewrite E1, E2. rewrite M1, M2 in *. apply two_scores with (ss_segs (l_scores l)); auto.
    + apply two_index with (ss_segs (l_index l)); auto.
      * unfold both in HB. rewrite M1, M2 in HB. exact HB.
      * apply kept_nodup, K2.
    + apply kept_nodup, K1.
  - apply within_app; [|apply within_app].
    + eapply within_one; [apply puts_names, P2|]. rewrite M2. cbn. auto.
    + eapply within_one; [apply puts_names, P1|]. rewrite M1. cbn. auto.
    + rewrite <- Hnm. apply save_within, HN'.
Qed.

Lemma delete_rep cfg hs hi st c l ord now sc1 sc2 ids : rep cfg hs hi st c l ->
  let l' := delete_elements now sc1 sc2 ids l in
  let es := delete_elements_evs ord hs hi now sc1 sc2 ids l in
  rep cfg hs hi (evs_store es st) (evs_cache es c) l' /\ within es (names l) /\ names l' = names l.
Proof.
  intros [HB _ _ HN HC]. cbn zeta. unfold delete_elements_evs, delete_elements.
  set (e := get_index_elements sc1 l ids).
  destruct (delete_idx_kept now sc2 (l_scores l) e) as (K1 & P1 & N1).
  destruct (delete_elements_idx now sc2 (l_scores l) e) as (s' & deleted) eqn:Ed. cbn [fst] in *.
  rewrite reindex_segs in *.
  pose proof (co_par _ _ _ _ _ (proj1 HB)) as Q1. pose proof (co_par _ _ _ _ _ (proj2 HB)) as Q2.
  pose proof (parents_Forall _ _ _ P1 Q1) as Q1'.
  destruct (delete_sorted_kept now (ss_segs (l_index l)) deleted) as (K2 & P2).
  pose proof (parents_Forall _ _ _ P2 Q2) as Q2'.
  pose proof HN as [M1 M2 M3 M4 M5].
  assert (H1 : two hs hi (evs_store (puts hs (ss_segs s') (permute (ord 0%nat) (touched_idx (ss_idx (reindex (l_scores l))) (ss_segs (l_scores l)) e))) st)
    (evs_cache (puts hs (ss_segs s') (permute (ord 0%nat) (touched_idx (ss_idx (reindex (l_scores l))) (ss_segs (l_scores l)) e))) c)
    (ss_id (l_scores l)) (ss_id (l_index l)) (ss_segs s') (ss_segs (l_index l))).
  { apply two_scores with (ss_segs (l_scores l)); try rewrite M1; try rewrite M2; auto.
    - rewrite <- M1, <- M2. exact HB.
    - apply kept_perm, K1.
    - rewrite <- M1. exact Q1'. }
  assert (W1 : within (puts hs (ss_segs s') (permute (ord 0%nat) (touched_idx (ss_idx (reindex (l_scores l))) (ss_segs (l_scores l)) e))) (names l)).
  { eapply within_one; [apply puts_names, Q1'|]. rewrite M1. cbn. auto. }
  destruct deleted as [|d0 dr].
  - set (l' := set_both l s' (l_index l)).
    assert (HN' : named l') by (apply set_both_named; auto).
    split; [|split; [|apply set_both_names; auto]].
    + rewrite !evs_store_app, !evs_cache_app. apply rep_save; [|exact HN'|exact HC].
      unfold both. cbn [l' set_both l_scores l_index]. rewrite N1. exact H1.
    + apply within_app; [exact W1|]. cbn [app]. eapply within_incl; [|apply save_within, HN'].
      intros n Hn. unfold l' in Hn. rewrite set_both_names in Hn; auto.
  - set (l' := set_both l s' (set_segs (l_index l) (delete_sorted now (ss_segs (l_index l)) (d0 :: dr)))).
    assert (HN' : named l') by (apply set_both_named; auto).
    split; [|split; [|apply set_both_names; auto]].
    + rewrite !evs_store_app, !evs_cache_app. apply rep_save; [|exact HN'|exact HC].
      unfold both. cbn [l' set_both l_scores l_index set_segs ss_segs ss_id]. rewrite N1.
      apply two_index with (ss_segs (l_index l)); try rewrite M1; try rewrite M2; auto.
      * rewrite <- M1, <- M2. exact H1.
      * apply kept_perm, K2.
      * rewrite <- M2. exact Q2'.
    + apply within_app; [exact W1|]. apply within_app.
      * eapply within_one; [apply puts_names, Q2'|]. rewrite M2. cbn. auto.
      * eapply within_incl; [|apply save_within, HN']. intros n Hn. unfold l' in Hn. rewrite set_both_names in Hn; auto.
Qed.

Lemma insert_one_both hs hi st c l ord now sc e : both hs hi st c l -> named l ->
  let l' := insert_one now sc l e in
  let es := insert_one_evs ord hs hi now sc l e in
  both hs hi (evs_store es st) (evs_cache es c) l' /\ named l' /\ within es (names l) /\ names l' = names l.
Proof.
  intros HB HN. cbn zeta. unfold insert_one_evs, insert_one, segs_insert.
  destruct (insert_sorted_kept now (ss_segs (l_scores l)) (sort_elems (sort_elems e))) as (K1 & P1).
  destruct (insert_sorted now (ss_segs (l_scores l)) (sort_elems (sort_elems e))) as (s' & ixs). cbn [fst] in *.
  set (ix := sort_elems (concat (permute sc ixs))).
  destruct (insert_sorted_kept now (ss_segs (l_index l)) (sort_elems (sort_elems ix))) as (K2 & P2).
  destruct (insert_sorted now (ss_segs (l_index l)) (sort_elems (sort_elems ix))) as (i' & x). cbn [fst] in *.
  pose proof (parents_Forall _ _ _ P1 (co_par _ _ _ _ _ (proj1 HB))) as Q1.
  pose proof (parents_Forall _ _ _ P2 (co_par _ _ _ _ _ (proj2 HB))) as Q2.
  pose proof HN as [M1 M2 M3 M4 M5].
  set (l' := set_both l (set_segs (l_scores l) s') (set_segs (l_index l) i')).
  split; [|split; [apply set_both_named; auto|split; [|apply set_both_names; auto]]].
  - rewrite !evs_store_app, !evs_cache_app. unfold both. cbn [l' set_both l_scores l_index set_segs ss_segs ss_id].
    apply two_index with (ss_segs (l_index l)); try rewrite M1; try rewrite M2; auto; [|apply kept_perm, K2|rewrite <- M2; exact Q2].
    apply two_scores with (ss_segs (l_scores l)); auto; [|apply kept_perm, K1|rewrite <- M1; exact Q1].
    unfold both in HB. rewrite M1, M2 in HB. exact HB.
  - apply within_app.
    + eapply within_one; [apply puts_names, Q1|]. rewrite M1. cbn. auto.
    + eapply within_one; [apply puts_names, Q2|]. rewrite M2. cbn. auto.
Qed.
Lemma insert_loop_both hs hi now sch limit ord : forall fuel e l l' st c, both hs hi st c l -> named l ->
  insert_loop fuel limit now sch e l = Done l' ->
  let es := insert_loop_evs fuel limit ord hs hi now sch e l in
  both hs hi (evs_store es st) (evs_cache es c) l' /\ named l' /\ within es (names l) /\ names l' = names l.
Proof.
  induction fuel as [|f IH]; intros e l l' st c HB HN E; cbn [insert_loop insert_loop_evs] in *.
  - destruct (Nat.ltb limit (length e)); [discriminate|]. injection E as <-. apply insert_one_both; assumption.
  - destruct (Nat.ltb limit (length e)); [|injection E as <-; apply insert_one_both; assumption].
    destruct (insert_one_both hs hi st c l (ord (length e)) now (sch (length e)) (firstn limit e) HB HN) as (B1 & N1 & W1 & Q1). cbn zeta in *.
    destruct (IH _ _ _ _ _ B1 N1 E) as (B2 & N2 & W2 & Q2). cbn zeta in *.
    rewrite evs_store_app, evs_cache_app. split; [exact B2|]. split; [exact N2|]. split; [|congruence].
    apply within_app; [exact W1|]. rewrite <- Q1. exact W2.
Qed.
Lemma insert_rep cfg hs hi st c l l' ord now sch e : rep cfg hs hi st c l -> insert now sch e l = Done l' ->
  let es := insert_evs ord hs hi now sch e l ++ save_evs l' in
  rep cfg hs hi (evs_store es st) (evs_cache es c) l' /\ within es (names l) /\ names l' = names l.
Proof.
  intros [HB _ _ HN HC] E. cbn zeta.
  destruct (insert_loop_both hs hi now sch (want_limit l) ord _ _ _ _ _ _ HB HN E) as (B & N & W & Q). cbn zeta in *.
  rewrite evs_store_app, evs_cache_app. split; [apply rep_save; assumption|]. split; [|exact Q].
  apply within_app; [exact W|]. rewrite <- Q. apply save_within, N.
Qed.

(** the state between the two loops of a split pass *)
Lemma split_mid P merge now l : Inv P l -> 0 < now < max_u32 -> forall ss nx us upd,
  split_loop_segs (length (ss_segs (l_scores l))) false merge (l_merge l) (l_split l) now 0 (ss_segs (l_scores l)) (ss_next (l_scores l)) [] false = Done (ss, nx, us, upd) ->
  nx <= 4294967296 ->
  exists Q', sok true (ss_id (l_index l)) Q' (update_index_elements now us (ss_segs (l_index l))) (ss_next (l_index l)).
Proof.
  intros HI Hnow ss nx us upd E1 Hnx. destruct (i_core _ _ HI) as (Q & HC).
  pose proof (i_ms _ _ HI) as HMs. pose proof (i_mi _ _ HI) as HMi.
  pose proof (c_s _ _ _ _ HC) as HS. pose proof (c_i _ _ _ _ HC) as HQ.
  pose proof (meta_next_pos _ _ HMs HS) as Hps.
  set (s := l_scores l) in *. set (x := l_index l) in *.
  assert (K0 : sok false (ss_id s) P (ss_segs s) (ss_next s)) by (apply meta_sok; auto; discriminate).
  destruct (split_loop_ok _ _ _ _ _ _ _ (ss_segs s) Hnow _ _ _ _ _ _ _ _ _ _ Hps K0 (moved_init _) E1)
    as (K1 & (k & M1) & EE1 & U1).
  assert (Hus : forall id t, In (id, t) us -> id <= max_u64 /\ t <= max_u32).
  { intros id t H.
    destruct (moved_us _ _ _ _ _ _ M1 (score_ok_distinct _ _ (k_s _ _ _ _ _ K1)) H) as (g & y & Hg & Hy & <- & <-).
    destruct (score_ok_seg _ _ _ _ (k_s _ _ _ _ _ K1) Hg Hy) as (Py & _). pose proof (good_ok _ (so_good _ _ HS y Py)) as Ho.
    pose proof (k_id _ _ _ _ _ K1) as Hk. rewrite Forall_forall in Hk. specialize (Hk g Hg).
    unfold elem_ok in Ho. unfold max_u32 in *. split; [tauto|lia]. }
  assert (Hids : forall id, In id (map fst us) -> id <= max_u64).
  { intros id Hid. apply in_map_iff in Hid as ((i & t) & <- & H). apply (Hus i t H). }
  destruct (update_index_spec now us (ss_segs x) Q HQ (c_al _ _ _ _ HC) (c_form _ _ _ _ HC) (j_nd _ _ _ _ M1) Hids) as (F1 & F2 & F3).
  pose proof (update_index_ok now us (ss_segs x) Q HQ (c_al _ _ _ _ HC) (c_form _ _ _ _ HC) (j_nd _ _ _ _ M1) Hus Hnow) as HQ'.
  set (xs := update_index_elements now us (ss_segs x)) in *.
  exists (fun q' => exists q, Q q /\ q' = upd1 now us q).
  assert (HA' : aligned xs).
  { unfold aligned. apply Forall_forall. intros g Hg. apply In_nth_error in Hg as (j & Hj).
    destruct (frames_nth _ _ _ _ F1 Hj) as (g0 & Hg0 & Fg). destruct (frame_eq _ _ Fg) as (_ & _ & _ & _ & _ & -> & ->).
    pose proof (c_al _ _ _ _ HC) as HA. unfold aligned in HA. rewrite Forall_forall in HA. apply HA. eapply nth_error_In; eauto. }
  assert (HM' : meta (mkSegs (ss_id x) xs (ss_next x) (ss_index x) (ss_idx x))).
  { apply meta_step with now; auto. apply HMi. }
  apply (meta_sok true _ _ HM' HQ'). intros _. split; [exact HA'|].
  intros q (q0 & H0 & ->). unfold idx_elem. rewrite upd1_score, upd1_id, upd1_payload. apply (c_form _ _ _ _ HC q0 H0).
Qed.

Lemma split_rep cfg hs hi st c P l l' ord merge now : Inv P l -> 0 < now < max_u32 -> rep cfg hs hi st c l ->
  split_pass merge now l = Done l' ->
  let es := split_evs ord hs hi merge now l in
  rep cfg hs hi (evs_store es st) (evs_cache es c) l' /\ within es (names l) /\ names l' = names l.
Proof.
  intros HI Hnow [HB Hms Hmi HN HC] E. cbn zeta. unfold split_evs. pose proof E as E0. unfold split_pass in E.
  pose proof HN as [M1 M2 M3 M4 M5]. pose proof HB as (B1 & B2). rewrite M1 in B1. rewrite M2 in B2.
  destruct (i_core _ _ HI) as (Q & HCo).
  destruct (split_loop_segs (length (ss_segs (l_scores l))) false merge (l_merge l) (l_split l) now 0 (ss_segs (l_scores l)) (ss_next (l_scores l)) [] false)
    as [(((ss & nx) & us) & upd)| | |] eqn:E1; try discriminate.
  set (xs := update_index_elements now us (ss_segs (l_index l))) in *.
  destruct (split_loop_segs (length xs) true true (l_merge l) (l_split l) now 0 xs (ss_next (l_index l)) [] upd)
    as [(((is & nxi) & us2) & updi)| | |] eqn:E2; try discriminate.
  unfold guard_ids, ids_ok in E. cbn [set_both l_scores l_index ss_next] in E.
  destruct ((nx <=? 4294967296) && (nxi <=? 4294967296)) eqn:EG; [|discriminate]. apply andb_true_iff in EG as (EG1 & EG2).
  injection E as E.
  assert (Hps : 0 < ss_next (l_scores l)) by (eapply meta_next_pos; [apply HI|apply HCo]).
  assert (Hpi : 0 < ss_next (l_index l)) by (eapply meta_next_pos; [apply HI|apply HCo]).
  assert (K0 : sok false (l_scores_id l) P (ss_segs (l_scores l)) (ss_next (l_scores l))).
  { rewrite <- M1. apply meta_sok; [apply HI|apply HCo|discriminate]. }
  destruct (split_mid P merge now l HI Hnow _ _ _ _ E1) as (Q' & K2); [lia|]. fold xs in K2. rewrite M2 in K2.
  destruct (split_loop_ok _ _ _ _ _ _ _ _ Hnow _ _ _ _ _ _ _ _ _ _ Hps K0 (moved_init _) E1) as (_ & _ & _ & U1).
  destruct (split_loop_ok _ _ _ _ _ _ _ _ Hnow _ _ _ _ _ _ _ _ _ _ Hpi K2 (moved_init _) E2) as (_ & _ & _ & U2).
  (* scores loop *)
  destruct (split_loop_coll hs _ _ _ _ _ _ _ Hnow M3 _ _ _ _ _ _ _ _ _ _ st c Hps K0 E1 B1) as (C1 & W1 & V1). cbn zeta in *.
  set (es1 := split_loop_evs (length (ss_segs (l_scores l))) hs false merge (l_merge l) (l_split l) now 0 (ss_segs (l_scores l)) (ss_next (l_scores l))) in *.
  assert (D1 : coll hi (evs_store es1 st) (evs_cache es1 c) (l_index_id l) (ss_segs (l_index l))).
  { apply coll_frame; [apply names_plain with (l_scores_id l); assumption| |exact B2]. intros e He. rewrite (W1 e He). exact M5. }
  (* index updates *)
  destruct (update_index_kept now us (ss_segs (l_index l))) as (K & Pa). fold xs in K, Pa.
  assert (Px : Forall (fun g => sg_parent g = l_index_id l) xs).
  { eapply parents_Forall; [exact Pa|]. apply B2. }
  set (es2 := puts hi xs (permute (ord 0%nat) (updated_idx us (ss_segs (l_index l))))) in *.
  destruct (two_index hs hi (evs_store es1 st) (evs_cache es1 c) (l_scores_id l) (l_index_id l) ss (ss_segs (l_index l)) xs _ M4 M5 (conj C1 D1)
     (kept_perm (ord 0%nat) _ _ _ K) Px) as (C2 & D2). fold es2 in C2, D2.
  assert (W2 : forall e, In e es2 -> ev_name e = l_index_id l) by (apply puts_names, Px).
  (* index loop *)
  destruct (split_loop_coll hi _ _ _ _ _ _ _ Hnow M4 _ _ _ _ _ _ _ _ _ _ _ _ Hpi K2 E2 D2) as (D3 & W3 & V3). cbn zeta in *.
  set (es3 := split_loop_evs (length xs) hi true true (l_merge l) (l_split l) now 0 xs (ss_next (l_index l))) in *.
  match type of D3 with coll _ ?a ?b _ _ =>
    assert (C3 : coll hs a b (l_scores_id l) ss) by
      (apply coll_frame; [apply names_plain with (l_index_id l); assumption|intros e He; rewrite (W3 e He); congruence|exact C2]) end.
  assert (HN' : named l') by (rewrite <- E; apply set_both_named; auto).
  assert (Hnm : names l' = names l) by (rewrite <- E; apply set_both_names; auto).
  assert (HB' : both hs hi (evs_store es3 (evs_store es2 (evs_store es1 st))) (evs_cache es3 (evs_cache es2 (evs_cache es1 c))) l').
  { unfold both. rewrite <- E. cbn [set_both l_scores l_index ss_id ss_segs]. rewrite M1, M2. split; assumption. }
  split; [|split; [|exact Hnm]].
  - rewrite !evs_store_app, !evs_cache_app. fold es1 es2 es3. rewrite E0. destruct updi.
    + apply rep_save; assumption.
    + destruct (U2 eq_refl) as (Eu & Eis & _). destruct (U1 Eu) as (_ & Ess & Eus).
      destruct (V3 eq_refl) as (V3a & V3b). destruct (V1 Eu) as (V1a & V1b).
      assert (Exs : xs = ss_segs (l_index l)) by (unfold xs; rewrite Eus; reflexivity).
      assert (E2n : es2 = []) by (unfold es2; rewrite Eus; unfold updated_idx, split_scores;
        destruct (ss_segs (l_index l)); reflexivity).
      rewrite V1a, E2n, V3a in *. cbn [evs_store evs_cache fold_left] in *.
      split; auto.
      * rewrite <- E. cbn [set_both l_scores l_index l_scores_id ss_id]. rewrite M1, Hms. f_equal. unfold meta_blob, to_wsegs. cbn [ss_id ss_segs ss_next ss_index].
        rewrite <- Ess, <- V1b, ?M1. reflexivity.
      * rewrite <- E. cbn [set_both l_scores l_index l_index_id ss_id]. rewrite M2, Hmi. f_equal. unfold meta_blob, to_wsegs. cbn [ss_id ss_segs ss_next ss_index].
        rewrite <- Exs, <- Eis, <- V3b, ?M2. reflexivity.
  - apply within_app; [eapply within_one; [exact W1|cbn; auto]|]. apply within_app; [eapply within_one; [exact W2|cbn; auto]|].
    apply within_app; [eapply within_one; [exact W3|cbn; auto]|]. rewrite E0.
    destruct updi; [rewrite <- Hnm; apply save_within, HN'|intros e []].
Qed.
