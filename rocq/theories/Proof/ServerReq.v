(** The element requests and cross-list requests of a server (C54). *)
From Coq Require Import Strings.String Strings.Ascii Strings.Byte ZArith.
From Verif.Lib Require Import Prelude ListAux ListLemmas SortLemmas Perm Bytes.
From Verif.Model Require Import Element Elements Segment List Access Api Server.
From Verif.Model Require Lists.
From Verif.Spec Require Import RankSpec QuerySpec HistorySpec AnswerSpec AccessSpec ListsSpec ShownSpec ServerSpec.
From Verif.Proof Require Import BuildInv ElementP ElementsP ElementsThm HistoryP ListThm AnswerP ResultP ApiP AccessP ServerP ServerOps ServerStep.
Open Scope N_scope.

Lemma single_ok now a : elem_sent a -> tick now -> distinct_ids [sent now a] /\ Forall stored [sent now a].
Proof. intros H T. split; [repeat constructor; intros []|repeat constructor; apply sent_ok; assumption]. Qed.
Lemma put_single m x : sputs m [x] (e_id x) = Some x.
Proof. unfold sputs, sput. cbn. rewrite N.eqb_refl. reflexivity. Qed.
Lemma ok_parse1 n d s eid o (M : sdb -> resp -> N -> Prop) (rest : N -> outcome (db * resp)) : tracks n d s ->
  (o = match parse_uint eid with None => keep d Bad | Some x => rest x end) ->
  (forall x, denotes eid x -> ok n (rest x) (fun s' a => M s' a x)) ->
  ok n o (fun s' a => (~ (exists x, denotes eid x) /\ refuse s s' a Bad) \/ exists x, denotes eid x /\ M s' a x).
Proof.
  intros T -> H. destruct (parse_uint eid) as [x|] eqn:E.
  - apply denotes_spec in E. eapply ok_impl; [apply H, E|]. intros s' a Hm. right. eauto.
  - eapply ok_keep; [exact T|]. left. split; [apply parse_none, E|split; reflexivity].
Qed.
Lemma in_filter_ids r ids x : In x (filter (fun e => existsb (N.eqb (e_id e)) ids) r) <-> In x r /\ In (e_id x) ids.
Proof.
  rewrite filter_In, existsb_exists. split.
  - intros (A & v & Hv & E). apply N.eqb_eq in E. subst v. auto.
  - intros (A & B). split; [exact A|]. exists (e_id x). rewrite N.eqb_refl. auto.
Qed.
Lemma absent_spec m r v : (forall k x, m k = Some x -> e_id x = k) -> ranking_of (sin m) r -> (forall e, In e r -> e_id e <> v) <-> m v = None.
Proof.
  intros K Hr. split.
  - intros H. destruct (m v) as [x|] eqn:E; [|reflexivity]. pose proof (K _ _ E) as Ek. exfalso. apply (H x); [|exact Ek]. apply Hr. unfold sin. rewrite Ek. exact E.
  - intros H e He Ee. apply Hr in He. unfold sin in He. rewrite Ee in He. congruence.
Qed.

Lemma sv_create n n' d s v w t id a radius : serves n n' d s v w t (Q_create id a radius).
Proof.
  intros T L V W He C B. cbn [carried request_ok] in *. cbn [handle meaning]. eapply ok_list; [exact T|exact L|]. intros e sl Ee Es O.
  apply (tracks_mono n n') in T; [|exact L]. pose proof He as (Hid & _).
  apply ok_guard; [exact T|apply has_elem_one, Hid|]. intros _.
  pose proof (lookup_one _ _ _ _ (o_reach _ _ _ O) v (in_id a) radius Hid) as K. destruct (do_get v (n_list e) [in_id a] radius) as [|re rest].
  - pose proof V as (Tn & _). destruct (single_ok (v_now v) a He Tn) as (Hd & Hs).
    destruct (one_insert _ _ _ v [sent (v_now v) a] O V Hd Hs) as (l & E & O'); [intros x [<-|[]]; exact K|].
    change (update_time (v_now v) (to_elements [Some a])) with [sent (v_now v) a]. rewrite E. cbn [bind].
    apply (one_mono _ n') in O'; [|cbn [length]; lia].
    eapply ok_put; [exact T|exact O'|]. right. split; [intros X; apply X, K|]. split; [reflexivity|].
    pose proof (o_reach _ _ _ O') as HR. exists (stored_in l). split; [exact (the_ranking _ _ _ _ HR)|].
    pose proof (lookup_one _ _ _ _ HR v (in_id a) radius Hid) as K'. cbn [n_list with_list] in K'. cbn [s_map with_map] in K'.
    pose proof (put_single (s_map sl) (sent (v_now v) a)) as Ep. change (e_id (sent (v_now v) a)) with (in_id a) in Ep. rewrite Ep in K'.
    destruct (do_get v l [in_id a] radius) as [|re [|? ?]]; [discriminate| |contradiction]. destruct K' as (Ex & Tr & Nb & Eb). injection Ex as ->.
    apply shows_full_ok; auto. rewrite Eb. reflexivity.
  - eapply ok_keep; [exact T|]. left. split; [|split; reflexivity]. destruct rest; [destruct K as (-> & _); discriminate|contradiction].
Qed.
Lemma sv_delete n n' d s v w t id eid : serves n n' d s v w t (Q_delete id eid).
Proof.
  intros T L V W _ C B. cbn [handle meaning]. eapply ok_list; [exact T|exact L|]. intros e sl Ee Es O.
  apply (tracks_mono n n') in T; [|exact L]. apply (one_mono n n') in O; [|exact L].
  eapply (ok_parse1 _ _ _ _ _ (fun s' a x => unless s s' a (~ may_elem t x) Unauthorized (sets_map s s' id sl (sdel (s_map sl) [x]) /\ a = Done_empty))
    (fun x => if negb (has_elem t [x]) then keep d Unauthorized else Done (dput d id (with_list e (do_delete v [x] (n_list e))), Done_empty))); [exact T| |].
  { rewrite parse_ids_one. destruct (parse_uint eid); reflexivity. }
  intros x Hx. apply ok_guard; [exact T|apply has_elem_one, Hx|]. intros _.
  eapply ok_put; [exact T|apply one_delete; [exact O|exact V|repeat constructor; apply Hx]|]. split; reflexivity.
Qed.
Lemma sv_delete_multi n n' d s v w t id eids : serves n n' d s v w t (Q_delete_multi id eids).
Proof.
  intros T L V W _ C B. cbn [handle meaning]. eapply ok_list; [exact T|exact L|]. intros e sl Ee Es O.
  apply (tracks_mono n n') in T; [|exact L]. apply (one_mono n n') in O; [|exact L].
  destruct (parse_ids eids) as [ids|] eqn:E.
  - apply parse_ids_some in E. pose proof (denotes_all _ _ E) as Hb.
    enough (K : ok n' (if negb (has_elem t ids) then keep d Unauthorized else Done (dput d id (with_list e (do_delete v ids (n_list e))), Done_empty))
       (fun s' a => unless s s' a (~ may_elems t (fun x => In x ids)) Unauthorized (sets_map s s' id sl (sdel (s_map sl) ids) /\ a = Done_empty))).
    { eapply ok_impl; [exact K|]. intros s' a H. right. exists ids. auto. }
    apply ok_guard; [exact T|apply has_elem_spec, Hb|]. intros _.
    eapply ok_put; [exact T|apply one_delete; [exact O|exact V|exact Hb]|]. split; reflexivity.
  - eapply ok_keep; [exact T|]. left. split; [apply parse_ids_none, E|split; reflexivity].
Qed.
Lemma sv_get n n' d s v w t id eid radius : serves n n' d s v w t (Q_get id eid radius).
Proof.
  intros T L V W _ C B. cbn [handle meaning]. eapply ok_list; [exact T|exact L|]. intros e sl Ee Es O.
  apply (tracks_mono n n') in T; [|exact L].
  eapply (ok_parse1 _ _ _ _ _ (fun s' a x => unless s s' a (~ may_elem t x) Unauthorized (
        (s_map sl x = None /\ refuse s s' a Missing) \/
        exists y, s_map sl x = Some y /\ s' = s /\ with_ranking (s_map sl) (fun r => shows_one r radius y None a)))
    (fun x => if negb (has_elem t [x]) then keep d Unauthorized else match do_get v (n_list e) [x] radius with [] => keep d Missing | re :: _ => keep d (show_full re) end)); [exact T| |].
  { rewrite parse_ids_one. destruct (parse_uint eid); reflexivity. }
  intros x Hx. apply ok_guard; [exact T|apply has_elem_one, Hx|]. intros _. pose proof (o_reach _ _ _ O) as HR.
  pose proof (lookup_one _ _ _ _ HR v x radius (proj2 Hx)) as K. destruct (do_get v (n_list e) [x] radius) as [|re rest].
  - eapply ok_keep; [exact T|]. left. split; [exact K|split; reflexivity].
  - destruct rest; [|contradiction]. destruct K as (Em & Tr & Nb & Eb). eapply ok_keep; [exact T|]. right. exists (re_elem re). split; [exact Em|].
    split; [reflexivity|]. eexists. split; [exact (the_ranking _ _ _ _ HR)|]. apply shows_full_ok; auto. rewrite Eb. reflexivity.
Qed.
Lemma sv_get_multi n n' d s v w t id ids : serves n n' d s v w t (Q_get_multi id ids).
Proof.
  intros T L V W Hb C B. cbn [request_ok] in Hb. cbn [handle meaning]. eapply ok_list; [exact T|exact L|]. intros e sl Ee Es O.
  apply (tracks_mono n n') in T; [|exact L].
  destruct (dedup_ids ids) as [|i0 is] eqn:Ed.
  - eapply ok_keep; [exact T|]. left. split; [|split; reflexivity]. destruct ids as [|x ids]; [reflexivity|].
    exfalso. assert (X : In x (dedup_ids (x :: ids))) by (apply dedup_In; left; reflexivity). rewrite Ed in X. destruct X.
  - assert (Hne : ids <> []) by (intros ->; discriminate). rewrite <- Ed.
    eapply ok_impl; [|intros s' a H; right; split; [exact Hne|exact H]].
    apply ok_guard; [exact T| |].
    { rewrite has_elem_spec; [apply may_elems_ext; intros x; apply dedup_In|]. apply Forall_forall. intros x Hx. rewrite dedup_In in Hx. rewrite Forall_forall in Hb. apply Hb, Hx. }
    intros _. destruct (get_multi (v_sc1 v) (v_sc2 v) (n_list e) ids) as (f, nf) eqn:E. eapply ok_keep; [exact T|]. split; [reflexivity|].
    pose proof (o_reach _ _ _ O) as HR. pose proof (the_ranking _ _ _ _ HR) as Hr. set (r := stored_in (n_list e)) in *.
    destruct (c51_multi _ _ _ _ r _ _ _ _ _ HR Hr (u64_le _ Hb) E) as (Ef & Sh & Sm & Hm). pose proof (reach_key _ _ _ _ HR) as Hk.
    exists f, nf. split; [reflexivity|]. split; [|split; [exact Sm|]].
    + exists r. split; [exact Hr|]. split; [split; [|split]|].
      * rewrite <- (map_map sh_elem e_id), Ef. pose proof (keyed_nodup _ _ Hk Hr) as Nd. clear - Nd.
        induction r as [|x r IH]; cbn [filter map] in *; [constructor|]. apply NoDup_cons_iff in Nd as (A & Nd). destruct (existsb _ ids); [|apply IH, Nd].
        cbn [map]. constructor; [|apply IH, Nd]. intros X. apply A. apply in_map_iff in X as (y & <- & Hy). apply filter_In in Hy. apply in_map, Hy.
      * exact Sh.
      * intros x. rewrite Ef. apply in_filter_ids.
      * rewrite Ef. apply filter_ranked, Hr.
    + intros x. rewrite Hm, (absent_spec _ _ x Hk Hr). reflexivity.
Qed.
Lemma sv_around n n' d s v w t id eid ids radius : serves n n' d s v w t (Q_around id eid ids radius).
Proof.
  intros T L V W Hb C B. cbn [request_ok] in Hb. cbn [handle meaning]. eapply ok_list; [exact T|exact L|]. intros e sl Ee Es O.
  apply (tracks_mono n n') in T; [|exact L]. pose proof (o_reach _ _ _ O) as HR. pose proof (the_ranking _ _ _ _ HR) as Hr.
  pose proof (reach_key _ _ _ _ HR) as Hk.
  eapply ok_parse1; [exact T|reflexivity|]. intros x Hx.
  assert (Hb' : Forall (fun k => k < 2 ^ 64) (x :: ids)) by (constructor; [apply Hx|exact Hb]).
  apply ok_guard; [exact T| |].
  { rewrite has_elem_spec.
    - apply may_elems_ext. intros k. rewrite dedup_In, in_app_iff. cbn [In]. split; [intros [A|[A|[]]]; auto|intros [A|A]; auto].
    - apply Forall_forall. intros k Hx'. rewrite dedup_In, in_app_iff in Hx'. rewrite Forall_forall in Hb'. apply Hb'. destruct Hx' as [A|[A|[]]]; [right; exact A|left; exact A]. }
  intros _. pose proof (c51_around _ _ _ _ (stored_in (n_list e)) (v_sc1 v) (v_sc2 v) x ids radius HR Hr (u64_le _ Hb')) as K. cbv zeta in K.
  destruct (get_around (v_sc1 v) (v_sc2 v) (n_list e) x ids radius) as [((((c & ab) & be) & lt) & lb)|].
  - destruct K as (p & y & q & Ech & Ey & Ec & Eab & Ebe & Elt & Elb & Sh). eapply ok_keep; [exact T|]. right. exists y.
    set (r := stored_in (n_list e)) in *. set (chosen := filter (fun e => existsb (N.eqb (e_id e)) (x :: ids)) r) in *.
    assert (Hy : In y r). { assert (X : In y chosen) by (rewrite Ech; apply in_app_iff; right; left; reflexivity). apply in_filter_ids in X. apply X. }
    split. { apply Hr in Hy. unfold sin in Hy. rewrite Ey in Hy. exact Hy. }
    split; [reflexivity|]. exists r. split; [exact Hr|]. exists chosen, (length p), c, ab, be.
    assert (Lc : length chosen = (length p + S (length q))%nat) by (rewrite Ech, app_length; reflexivity).
    split; [rewrite Elt, Elb; repeat f_equal; lia|]. split; [apply filter_ranked, Hr|]. split.
    { intros z. unfold chosen. rewrite in_filter_ids. cbn [In]. split; intros (A & [X|X]); auto. }
    split. { rewrite Ech, nth_error_app2, Nat.sub_diag by lia. reflexivity. }
    split; [exact Ec|]. split; [exact Sh|]. split.
    + rewrite Ebe, Ech. f_equal. rewrite skipn_app, skipn_all2 by lia. replace (S (length p) - length p)%nat with 1%nat by lia. reflexivity.
    + rewrite Eab, Ech. rewrite firstn_app, firstn_all, Nat.sub_diag, firstn_O, app_nil_r.
      rewrite firstn_rev, rev_involutive. reflexivity.
  - eapply ok_keep; [exact T|]. left. split; [|split; reflexivity]. apply (absent_spec _ _ x Hk Hr), K.
Qed.
Lemma sv_put n n' d s v w t id eid a radius : serves n n' d s v w t (Q_put id eid a radius).
Proof.
  intros T L V W He C B. cbn [carried request_ok] in *. cbn [handle meaning]. eapply ok_list; [exact T|exact L|]. intros e sl Ee Es O.
  apply (tracks_mono n n') in T; [|exact L]. pose proof He as (Hid & _).
  destruct (parse_uint eid) as [x|] eqn:E.
  - apply denotes_spec in E. apply ok_guard; [exact T| |].
    { rewrite N.eqb_eq. split; [intros <-; exact E|]. intros X. eapply denotes_fun; eauto. }
    intros X. assert (x = in_id a) by (eapply denotes_fun; eauto). subst x. apply ok_guard; [exact T|apply has_elem_one, Hid|]. intros _.
    pose proof V as (Tn & _). destruct (single_ok (v_now v) a He Tn) as (Hd & Hs).
    change (update_time (v_now v) (to_elements [Some a])) with [sent (v_now v) a]. cbv zeta.
    destruct (one_update _ _ _ v _ O V Hd Hs) as (_ & O'). apply (one_mono _ n') in O'; [|cbn [length]; lia].
    eapply ok_put; [exact T|exact O'|]. split; [reflexivity|].
    exists (stored_in (do_update v [sent (v_now v) a] (n_list e))). split; [exact (updated_ranking _ _ _ _ _ O V Hd Hs)|].
    destruct (update_res _ _ _ _ _ O V Hd Hs radius) as (_ & R2 & R3).
    destruct (update_results (v_sc1 v) (v_sc2 v) (n_list e) (do_update v [sent (v_now v) a] (n_list e)) [sent (v_now v) a] radius) as [|re rest].
    + exfalso. destruct (R2 (sent (v_now v) a)) as (_ & X'). destruct X'. left; reflexivity.
    + assert (Ex : re_elem re = sent (v_now v) a). { destruct (R2 (re_elem re)) as (X' & _). destruct X' as [X'|[]]; [left; reflexivity|auto]. }
      apply Forall_inv in R3. destruct R3 as (Tr & Nb & Eb). pose proof (shows_full_ok _ radius re (s_map sl (in_id a)) Tr Nb) as Sx. rewrite Ex in Sx. apply Sx. rewrite Eb, Ex. reflexivity.
  - eapply ok_keep; [exact T|]. left. split; [|split; reflexivity]. intros X. apply denotes_spec in X. congruence.
Qed.
Lemma sv_put_multi n n' d s v w t id es results : serves n n' d s v w t (Q_put_multi id es results).
Proof.
  intros T L V W He C B. cbn [carried request_ok] in *. cbn [handle meaning]. eapply ok_list; [exact T|exact L|]. intros e sl Ee Es O.
  apply (tracks_mono n n') in T; [|exact L]. pose proof V as (Tn & _). cbv zeta.
  destruct (put_batch_spec v es) as (Hb & Hl). set (b := put_batch v es) in *.
  pose proof (batch_stored _ _ _ Hb He Tn) as Hs. pose proof (proj1 Hb) as Hd.
  apply ok_guard; [exact T| |].
  { rewrite has_elem_spec by (eapply batch_bound; eauto). apply may_elems_ext. intros x. eapply batch_ids, Hb. }
  intros _. destruct (one_update _ _ _ v b O V Hd Hs) as (_ & O'). apply (one_mono _ n') in O'; [|lia].
  eapply ok_put; [exact T|exact O'|]. exists b. split; [exact Hb|]. split; [reflexivity|]. eexists. split; [reflexivity|].
  exists (stored_in (do_update v b (n_list e))). split; [exact (updated_ranking _ _ _ _ _ O V Hd Hs)|]. destruct results; [|reflexivity].
  pose proof (update_shown _ _ _ _ _ O V Hd Hs 0) as (A1 & A2 & A3). destruct (update_res _ _ _ _ _ O V Hd Hs 0) as (R1 & _).
  set (res := update_results _ _ _ _ _ _) in *.
  assert (Pm : Permutation (map show (sort_ranked res)) (map show res)) by (apply Permutation_map, sort_ranked_perm).
  split; [split; [|split]|].
  - eapply Permutation_NoDup; [apply Permutation_map; symmetry; exact Pm|exact A1].
  - eapply Permutation_Forall; [symmetry; exact Pm|exact A2].
  - intros x. rewrite <- A3. split; apply Permutation_in; [|symmetry]; apply Permutation_map; exact Pm.
  - rewrite show_elem. apply sort_ranked_sorted, R1.
Qed.

(** ** Cross-list requests *)
Lemma every_same f (P : slist -> mres -> Prop) n d s ids eo : tracks n d s -> NoDup ids ->
  (forall id e sl, one n e sl -> exists l r, f id e = Done (l, r) /\ one n (with_list e l) sl /\ P sl r) ->
  ok n (bind (every_list f d ids) (fun p => Done (fst p, report eo (snd p))))
     (fun s' a => s' = s /\ reports ids eo (fun id r => match s id with None => r = M_missing | Some sl => P sl r end) a).
Proof.
  intros T Nd Hf. apply (every_tracks f (fun m => m) P n n d s ids eo); auto.
  - intros id e sl O. destruct (Hf id e sl O) as (l & r & E & O' & Hp). exists l, r. rewrite with_map_same. auto.
  - intros s' a Es Hr. exists s. split; [|auto]. intros k. rewrite Es. unfold change_lists. destruct (existsb (beq k) ids); [|reflexivity].
    destruct (s k) as [sl|]; cbn [option_map]; [rewrite with_map_same|]; reflexivity.
Qed.
Lemma every_change f g (P : slist -> mres -> Prop) n n' d s ids eo : tracks n d s -> (n <= n')%nat -> NoDup ids ->
  (forall id e sl, one n e sl -> exists l r, f id e = Done (l, r) /\ one n' (with_list e l) (with_map sl (g (s_map sl))) /\ P sl r) ->
  ok n' (bind (every_list f d ids) (fun p => Done (fst p, report eo (snd p))))
     (fun s' a => s' = change_lists s ids g /\ reports ids eo (fun id r => match s id with None => r = M_missing | Some sl => P sl r end) a).
Proof.
  intros T L Nd Hf. apply (every_tracks f g P n n' d s ids eo); auto. intros s' a Es Hr. exists (change_lists s ids g). auto.
Qed.
Lemma reports_impl ids eo (P Q : bytes -> mres -> Prop) a : (forall id r, P id r -> Q id r) -> reports ids eo P a -> reports ids eo Q a.
Proof.
  intros I (l & E & Nd & H1 & H2). exists l. split; [exact E|]. split; [exact Nd|]. split.
  - intros id r Hp. destruct (H1 id r Hp). auto.
  - intros id Hid. destruct (H2 id Hid) as [X|(X & x & Hx)]; [auto|right; eauto].
Qed.
Lemma ok_ids n o ids (P : bytes -> Prop) (M : sdb -> resp -> list bytes -> Prop) : lists_of P ids -> ok n o (fun s' a => M s' a ids) ->
  ok n o (fun s' a => exists ids, lists_of P ids /\ M s' a ids).
Proof. intros H K. eapply ok_impl; [exact K|]. intros s' a Hm. eauto. Qed.

Lemma sv_m_create n n' d s v w t q es results eo : serves n n' d s v w t (Q_m_create q es results eo).
Proof.
  intros T L V W He C B. cbn [carried request_ok] in *. pose proof (tracks_mono n n' _ _ L T) as T'. cbn [handle meaning].
  pose proof (select_write_spec (v_sc v) _ _ _ q T) as Hsel. eapply ok_ids; [exact Hsel|]. set (ids := select_write (v_sc v) d q) in *.
  apply ok_guard; [exact T'|apply has_list_spec|]. intros _. cbv zeta.
  destruct (create_batch_spec v es) as (Hb & Hl). set (b := create_batch v es) in *. pose proof V as (Tn & _).
  pose proof (batch_stored _ _ _ Hb He Tn) as Hs. pose proof (proj1 Hb) as Hd. pose proof (batch_bound _ _ _ Hb He) as Hbd.
  apply ok_guard; [exact T'| |].
  { rewrite has_elem_spec by exact Hbd. apply may_elems_ext. intros x. eapply batch_ids, Hb. }
  intros _. set (free := fun m : smap => forallb (fun x => match m (e_id x) with None => true | Some _ => false end) b).
  eapply ok_impl.
  - apply (every_change _ (fun m => if free m then sputs m b else m)
      (fun sl r => if free (s_map sl) then exists l, r = M_ok l /\
          if results then with_ranking (sputs (s_map sl) b) (fun k => shows_all k (map e_id b) l) else l = [] else r = M_conflict) n n' d s ids eo T L (proj1 Hsel)).
    intros id e sl O. unfold m_create. cbv zeta. pose proof (o_reach _ _ _ O) as HR.
    pose proof (lookup_none _ _ _ _ HR (w id) (map e_id b) Hbd) as Hno.
    assert (Hfree : free (s_map sl) = true <-> do_get (w id) (n_list e) (map e_id b) 0 = []).
    { rewrite Hno. unfold free. rewrite forallb_forall. split.
      - intros H k Hk. apply in_map_iff in Hk as (x & <- & Hx). specialize (H x Hx). cbv beta in H. destruct (s_map sl (e_id x)); [discriminate|reflexivity].
      - intros H x Hx. rewrite (H (e_id x)) by (apply in_map, Hx). reflexivity. }
    destruct (do_get (w id) (n_list e) (map e_id b) 0) as [|re rest] eqn:Eg.
    + assert (Ef : free (s_map sl) = true) by (apply Hfree; reflexivity). rewrite Ef.
      destruct (one_insert _ _ _ (w id) b O (W id) Hd Hs) as (l & E & O').
      { intros x Hx. destruct Hno as (Hno & _). apply Hno; [reflexivity|apply in_map, Hx]. }
      rewrite E. cbn [bind]. eexists _, _. split; [reflexivity|]. split; [eapply one_mono; [|exact O']; lia|]. eexists. split; [reflexivity|].
      destruct results; [|reflexivity]. pose proof (o_reach _ _ _ O') as HR'. exists (stored_in l). split; [exact (the_ranking _ _ _ _ HR')|].
      eapply shows_all_ok. exact (lookup_exact _ _ _ _ HR' (w id) (map e_id b) 0 Hbd).
    + assert (Ef : free (s_map sl) = false) by (destruct (free (s_map sl)); [destruct Hfree as (X & _); discriminate (X eq_refl)|reflexivity]). rewrite Ef.
      eexists _, _. split; [reflexivity|]. split; [|reflexivity]. rewrite with_map_same. destruct e; cbn. eapply one_mono; [exact L|exact O].
  - intros s' a (A1 & A2). exists b. split; [exact Hb|]. split; [exact A1|exact A2].
Qed.
Lemma sv_m_put n n' d s v w t q es results eo : serves n n' d s v w t (Q_m_put q es results eo).
Proof.
  intros T L V W He C B. cbn [carried request_ok] in *. pose proof (tracks_mono n n' _ _ L T) as T'. cbn [handle meaning].
  pose proof (select_write_spec (v_sc v) _ _ _ q T) as Hsel. eapply ok_ids; [exact Hsel|]. set (ids := select_write (v_sc v) d q) in *.
  apply ok_guard; [exact T'|apply has_list_spec|]. intros _. cbv zeta.
  destruct (put_batch_spec v es) as (Hb & Hl). set (b := put_batch v es) in *. pose proof V as (Tn & _).
  pose proof (batch_stored _ _ _ Hb He Tn) as Hs. pose proof (proj1 Hb) as Hd. pose proof (batch_bound _ _ _ Hb He) as Hbd.
  apply ok_guard; [exact T'| |].
  { rewrite has_elem_spec by exact Hbd. apply may_elems_ext. intros x. eapply batch_ids, Hb. }
  intros _. eapply ok_impl.
  - apply (every_change _ (fun m => sputs m b)
      (fun sl r => exists l, r = M_ok l /\ if results then with_ranking (sputs (s_map sl) b) (fun k => shows_all k (map e_id b) l) else l = []) n n' d s ids eo T L (proj1 Hsel)).
    intros id e sl O. unfold m_put. cbv zeta. eexists _, _. split; [reflexivity|].
    destruct (one_update _ _ _ (w id) b O (W id) Hd Hs) as (_ & O'). split; [eapply one_mono; [|exact O']; lia|].
    eexists. split; [reflexivity|]. destruct results; [|reflexivity].
    eexists. split; [exact (updated_ranking _ _ _ _ _ O (W id) Hd Hs)|]. exact (update_shown _ _ _ _ _ O (W id) Hd Hs 0).
  - intros s' a (A1 & A2). exists b. split; [exact Hb|]. split; [exact A1|exact A2].
Qed.
Lemma sv_m_delete n n' d s v w t q eid eo : serves n n' d s v w t (Q_m_delete q eid eo).
Proof.
  intros T L V W _ C B. pose proof (tracks_mono n n' _ _ L T) as T'. cbn [handle meaning].
  pose proof (select_read_spec (v_sc v) _ _ _ q T) as Hsel. eapply ok_ids; [exact Hsel|]. set (ids := select_read (v_sc v) d q) in *.
  apply ok_guard; [exact T'|apply has_list_spec|]. intros _.
  eapply (ok_parse1 _ _ _ _ _ (fun s' a x => unless s s' a (~ may_elem t x) Unauthorized (
      s' = change_lists s ids (fun m => sdel m [x]) /\ reports ids eo (fun id r => r = match s id with None => M_missing | Some _ => M_ok [] end) a))
    (fun x => if negb (has_elem t [x]) then keep d Unauthorized
              else bind (every_list (fun id => m_delete (w id) [x]) d ids) (fun p => Done (fst p, report eo (snd p))))); [exact T'| |].
  { rewrite parse_ids_one. destruct (parse_uint eid); reflexivity. }
  intros x Hx. apply ok_guard; [exact T'|apply has_elem_one, Hx|]. intros _. eapply ok_impl.
  - apply (every_change _ (fun m => sdel m [x]) (fun _ r => r = M_ok []) n n' d s ids eo T L (proj1 Hsel)).
    intros id e sl O. eexists _, _. split; [reflexivity|]. split; [|reflexivity]. eapply one_mono; [exact L|]. apply one_delete; [exact O|apply W|repeat constructor; apply Hx].
  - intros s' a (A1 & A2). split; [exact A1|]. eapply reports_impl; [|exact A2]. intros id r. cbv beta. destruct (s id); auto.
Qed.
Lemma sv_m_get n n' d s v w t q eid : serves n n' d s v w t (Q_m_get q eid).
Proof.
  intros T L V W _ C B. apply (tracks_mono n n') in T; [|exact L]. cbn [handle meaning].
  pose proof (select_read_spec (v_sc v) _ _ _ q T) as Hsel. eapply ok_ids; [exact Hsel|]. set (ids := select_read (v_sc v) d q) in *.
  apply ok_guard; [exact T|apply has_list_spec|]. intros _.
  eapply (ok_parse1 _ _ _ _ _ (fun s' a x => unless s s' a (~ may_elem t x) Unauthorized (
      s' = s /\ reports ids false (fun id r => match s id with None => r = M_missing
          | Some sl => exists l, r = M_ok l /\ with_ranking (s_map sl) (fun k => shows_all k [x] l) end) a))
    (fun x => if negb (has_elem t [x]) then keep d Unauthorized
              else bind (every_list (fun id => m_get (w id) [x]) d ids) (fun p => Done (fst p, report false (snd p))))); [exact T| |].
  { rewrite parse_ids_one. destruct (parse_uint eid); reflexivity. }
  intros x Hx. apply ok_guard; [exact T|apply has_elem_one, Hx|]. intros _. apply every_same; [exact T|apply Hsel|].
  intros id e sl O. pose proof (o_reach _ _ _ O) as HR. eexists _, _. split; [reflexivity|]. split; [eapply one_same; eauto|].
  eexists. split; [reflexivity|]. eexists. split; [exact (the_ranking _ _ _ _ HR)|]. eapply shows_all_ok.
  apply (lookup_exact _ _ _ _ HR (w id) [x] 0). repeat constructor. apply Hx.
Qed.
Lemma sv_m_verify n n' d s v w t q rep elems eo : serves n n' d s v w t (Q_m_verify q rep elems eo).
Proof.
  intros T L V W _ C B. apply (tracks_mono n n') in T; [|exact L]. cbn [handle meaning].
  pose proof (select_manage_spec (v_sc v) _ _ _ q T) as Hsel. eapply ok_ids; [exact Hsel|]. set (ids := select_manage (v_sc v) d q) in *.
  eapply ok_impl.
  - apply (every_same _ (fun _ r => r = M_ok []) n' d s ids eo T (proj1 Hsel)). intros id e sl O. pose proof (o_reach _ _ _ O) as HR.
    destruct (c16_verify _ _ _ _ HR) as (V1 & V2). exists (n_list e), (M_ok []). split; [|split; [eapply one_same; eauto|reflexivity]].
    unfold m_verify, m_check. rewrite V1. destruct elems; [rewrite V2|]; reflexivity.
  - intros s' a (A1 & A2). split; [exact A1|]. eapply reports_impl; [|exact A2]. intros id r. cbv beta. destruct (s id); auto.
Qed.
Lemma sv_m_reindex n n' d s v w t q eo : serves n n' d s v w t (Q_m_reindex q eo).
Proof.
  intros T L V W _ C B. apply (tracks_mono n n') in T; [|exact L]. cbn [handle meaning].
  pose proof (select_manage_spec (v_sc v) _ _ _ q T) as Hsel. eapply ok_ids; [exact Hsel|]. set (ids := select_manage (v_sc v) d q) in *.
  eapply ok_impl.
  - apply (every_same _ (fun _ r => r = M_ok []) n' d s ids eo T (proj1 Hsel)). intros id e sl O.
    destruct (one_reindex _ _ _ (w id) O (W id) B) as (l & E & O'). exists l, (M_ok []). split; [|split; [exact O'|reflexivity]].
    unfold m_reindex. rewrite E. reflexivity.
  - intros s' a (A1 & A2). split; [exact A1|]. eapply reports_impl; [|exact A2]. intros id r. cbv beta. destruct (s id); auto.
Qed.

Lemma serve n n' d s v w t q : serves n n' d s v w t q.
Proof.
  destruct q.
  - apply sv_create_list.
  - apply sv_delete_list.
  - apply sv_clone.
  - apply sv_get_list.
  - apply sv_pct.
  - apply sv_range.
  - apply sv_reindex.
  - apply sv_repair.
  - apply sv_verify.
  - apply sv_create.
  - apply sv_delete.
  - apply sv_delete_multi.
  - apply sv_get.
  - apply sv_get_multi.
  - apply sv_around.
  - apply sv_put.
  - apply sv_put_multi.
  - apply sv_m_create.
  - apply sv_m_put.
  - apply sv_m_delete.
  - apply sv_m_get.
  - apply sv_m_verify.
  - apply sv_m_reindex.
Qed.

(** ** Events and runs *)
Lemma sstep_ok n d s ev : tracks n d s -> event_ok ev -> N.of_nat (n + carried ev) < max_u32 ->
  (is_split ev /\ sstep d ev = Exhausted) \/
  exists d' a s', sstep d ev = Done (d', a) /\ tracks (n + carried ev) d' s' /\ history s [ev] [a] s'.
Proof.
  intros T Hok B. destruct ev as [v w t q|id mg now|id].
  - right. destruct Hok as (V & W & Hq). destruct (serve n (n + carried (E_request v w t q)) d s v w t q T) as (d' & a & s' & E & T' & M); auto; [lia|].
    exists d', (Some a), s'. cbn [sstep]. rewrite E. cbn [bind fst snd]. split; [reflexivity|]. split; [exact T'|].
    eapply H_request; [exact M|constructor].
  - cbn [carried sstep is_split] in *. rewrite Nat.add_0_r in *. unfold apply_list. destruct (dget d id) as [e|] eqn:E.
    + destruct (tracks_get _ _ _ _ _ T E) as (sl & Es & O). destruct (c06_step _ _ _ _ (OSplit mg now) (o_reach _ _ _ O) Hok) as [(l' & E' & HR & _)|(E' & _)]; cbn [step] in E'; rewrite E'.
      * right. cbn [bind]. eexists _, _, s. split; [reflexivity|]. split; [|apply H_background; [exact I|constructor]].
        split; [apply dput_keys, T|]. intros k. rewrite dget_dput. destruct (beq id k) eqn:Ek; [|apply T].
        apply beq_true in Ek. subst k. rewrite Es. eapply one_same; [exact O|exact HR].
      * left. auto.
    + right. exists d, None, s. split; [reflexivity|]. split; [exact T|]. apply H_background; [exact I|constructor].
  - right. cbn [carried sstep] in *. rewrite Nat.add_0_r in *. unfold apply_list. destruct (dget d id) as [e|] eqn:E.
    + destruct (tracks_get _ _ _ _ _ T E) as (sl & Es & O). cbn [bind]. eexists _, _, s. split; [reflexivity|]. split; [|apply H_background; [exact I|constructor]].
      split; [apply dput_keys, T|]. intros k. rewrite dget_dput. destruct (beq id k) eqn:Ek; [|apply T].
      apply beq_true in Ek. subst k. rewrite Es. eapply one_same; [exact O|].
      exact (R_step _ _ _ _ OReload _ (o_reach _ _ _ O) I eq_refl).
    + exists d, None, s. split; [reflexivity|]. split; [exact T|]. apply H_background; [exact I|constructor].
Qed.
Lemma history_cons s ev a s1 evs rs s2 : history s [ev] [a] s1 -> history s1 evs rs s2 -> history s (ev :: evs) (a :: rs) s2.
Proof.
  intros H K. inversion H; subst.
  - match goal with X : history _ [] [] _ |- _ => inversion X; subst end. eapply H_request; eauto.
  - match goal with X : history _ [] [] _ |- _ => inversion X; subst end. eapply H_background; eauto.
Qed.
Lemma srun_ok : forall evs n d s, tracks n d s -> Forall event_ok evs -> N.of_nat (n + all_carried evs) < max_u32 ->
  (Exists is_split evs /\ srun d evs = Exhausted) \/
  exists d' rs s', srun d evs = Done (d', rs) /\ tracks (n + all_carried evs) d' s' /\ history s evs rs s'.
Proof.
  unfold all_carried. induction evs as [|ev evs IH]; intros n d s T Hok B; cbn [map list_sum fold_right srun] in *.
  - right. exists d, [], s. rewrite Nat.add_0_r. split; [reflexivity|]. split; [exact T|constructor].
  - change (fold_right Nat.add 0%nat (map carried evs)) with (list_sum (map carried evs)) in *.
    pose proof (Forall_inv Hok) as H1. pose proof (Forall_inv_tail Hok) as H2.
    destruct (sstep_ok n d s ev T H1) as [(Sp & E)|(d1 & a & s1 & E & T1 & Hh)]; [lia| |]; rewrite E; cbn [bind fst snd].
    + left. split; [left; exact Sp|reflexivity].
    + destruct (IH (n + carried ev)%nat d1 s1 T1 H2) as [(Sp & E2)|(d2 & rs & s2 & E2 & T2 & Hh2)]; [lia| |]; rewrite E2; cbn [bind fst snd].
      * left. split; [right; exact Sp|reflexivity].
      * right. exists d2, (a :: rs), s2. split; [reflexivity|]. rewrite Nat.add_assoc. split; [exact T2|]. eapply history_cons; eauto.
Qed.
Lemma tracks_empty : tracks 0 [] sdb_empty.
Proof. split; [constructor|]. intros id. exact I. Qed.

Lemma c54_run evs : Forall event_ok evs -> N.of_nat (all_carried evs) < max_u32 ->
  (Exists is_split evs /\ srun [] evs = Exhausted) \/
  exists d rs s, srun [] evs = Done (d, rs) /\ history sdb_empty evs rs s /\
    forall id, match dget d id, s id with
               | None, None => True
               | Some e, Some sl => n_set e = s_set sl /\ n_meta e = s_meta sl /\ l_merge (n_list e) = s_merge sl /\ l_split (n_list e) = s_split sl /\
                                    ranking_of (sin (s_map sl)) (stored_in (n_list e))
               | _, _ => False
               end.
Proof.
  intros Hok B. destruct (srun_ok evs 0 [] sdb_empty tracks_empty Hok B) as [H|(d & rs & s & E & T & H)]; [left; exact H|right].
  exists d, rs, s. split; [exact E|]. split; [exact H|]. intros id. destruct T as (_ & T). specialize (T id). unfold rel in T.
  destruct (dget d id) as [e|], (s id) as [sl|]; auto. destruct (reach_inv _ _ _ _ (o_reach _ _ _ T)) as (_ & HM & HS).
  split; [apply (o_set _ _ _ T)|]. split; [apply (o_meta _ _ _ T)|]. split; [exact HM|]. split; [exact HS|]. exact (the_ranking _ _ _ _ (o_reach _ _ _ T)).
Qed.
(** an accepted Put is read back *)
Lemma c54_read_back evs d rs v w v' w' id eid a radius e : Forall event_ok evs -> N.of_nat (all_carried evs + 1) < max_u32 ->
  srun [] evs = Done (d, rs) -> dget d id = Some e -> env_ok v -> (forall k, env_ok (w k)) -> env_ok v' -> (forall k, env_ok (w' k)) -> elem_sent a ->
  denotes eid (in_id a) ->
  exists d' r1 r2 c1 ab1 be1 prev c2 ab2 be2, srun d [E_request v w NoToken (Q_put id eid a radius); E_request v' w' NoToken (Q_get id eid radius)] = Done (d', [Some r1; Some r2]) /\
    r1 = A_elem c1 ab1 be1 prev /\ r2 = A_elem c2 ab2 be2 None /\ c1 = c2 /\ sh_elem c1 = sent (v_now v) a /\
    map sh_elem ab1 = map sh_elem ab2 /\ map sh_elem be1 = map sh_elem be2.
Proof.
  intros Hok B E Ed V W V' W' Ha Hden. destruct (srun_ok evs 0 [] sdb_empty tracks_empty Hok) as [(_ & X)|(d0 & rs0 & s & E0 & T & _)]; [lia|congruence|].
  rewrite E in E0. injection E0 as <- <-. cbn [Nat.add] in T. destruct (tracks_get _ _ _ _ _ T Ed) as (sl & Es & O).
  destruct (serve (all_carried evs) (all_carried evs + 1) d s v w NoToken (Q_put id eid a radius) T) as (d1 & r1 & s1 & E1 & T1 & M1); auto; try (cbn [carried]; lia).
  destruct (serve (all_carried evs + 1) (all_carried evs + 1) d1 s1 v' w' NoToken (Q_get id eid radius) T1) as (d2 & r2 & s2 & E2 & T2 & M2); auto; try exact I; try (cbn [carried]; lia).
  cbn [meaning] in M1, M2. unfold for_list, at_list, unless in M1, M2. cbn [may_list may_elem] in M1, M2.
  destruct M1 as [(X & _)|(_ & [(X & _)|(sl0 & Es0 & M1)])]; [exfalso; tauto|congruence|]. rewrite Es in Es0. injection Es0 as <-.
  destruct M1 as [(X & _)|(_ & [(X & _)|(_ & Hs1 & M1)])]; [contradiction|exfalso; tauto|]. unfold sets_map in Hs1. subst s1.
  destruct M2 as [(X & _)|(_ & [(X & _)|(sl1 & Es1 & M2)])]; [exfalso; tauto|unfold put_list in X; rewrite beq_refl in X; discriminate|].
  unfold put_list in Es1. rewrite beq_refl in Es1. injection Es1 as <-.
  destruct M2 as [(X & _)|(k & Hk & [(X & _)|(_ & M2)])]; [exfalso; eauto|exfalso; tauto|]. assert (k = in_id a) by (eapply denotes_fun; eauto). subst k.
  cbn [s_map with_map] in M2. pose proof (put_single (s_map sl) (sent (v_now v) a)) as Ep. change (e_id (sent (v_now v) a)) with (in_id a) in Ep.
  change (sput (s_map sl) (sent (v_now v) a)) with (sputs (s_map sl) [sent (v_now v) a]) in M2.
  destruct M2 as [(X & _)|(y & Ey & _ & r' & Hr' & M2)]; [congruence|]. assert (y = sent (v_now v) a) by congruence. subst y.
  destruct M1 as (r & Hr & M1). assert (r' = r) by (eapply ranking_unique; eauto). subst r'.
  destruct M1 as (c1 & ab1 & be1 & p1 & i1 & A1 & B1 & C1 & D1 & _ & F1 & _). destruct M2 as (c2 & ab2 & be2 & p2 & i2 & A2 & B2 & C2 & D2 & _ & F2 & G2).
  destruct p2; [discriminate|]. destruct C1 as (X1 & Y1 & Z1), C2 as (X2 & Y2 & Z2).
  assert (i1 = i2). { eapply (proj1 (NoDup_nth_error r)); [eapply ranking_nodup, Hr|apply nth_error_Some; congruence|congruence]. } subst i2.
  exists d2, r1, r2, c1, ab1, be1, p1, c2, ab2, be2. cbn [srun sstep]. rewrite E1. cbn [bind fst snd]. rewrite E2. cbn [bind fst snd].
  split; [reflexivity|]. split; [exact A1|]. split; [exact A2|]. split; [|split; [exact B1|split; congruence]].
  destruct c1, c2; cbn in *. congruence.
Qed.
Lemma c55_selection evs d rs sc q : Forall event_ok evs -> N.of_nat (all_carried evs) < max_u32 -> srun [] evs = Done (d, rs) ->
  exists s, (forall id, match dget d id, s id with
             | None, None => True
             | Some e, Some sl => n_set e = s_set sl /\ n_meta e = s_meta sl
             | _, _ => False
             end) /\ lists_of (chosen_read s q) (select_read sc d q) /\ lists_of (chosen_write s q) (select_write sc d q) /\
    lists_of (chosen_manage s q) (select_manage sc d q).
Proof.
  intros Hok B E. destruct (srun_ok evs 0 [] sdb_empty tracks_empty Hok B) as [(_ & X)|(d0 & rs0 & s & E0 & T & _)]; [congruence|].
  rewrite E in E0. injection E0 as <- <-. exists s. split.
  - intros id. pose proof (proj2 T id) as R. unfold rel in R. destruct (dget d id), (s id); auto. split; apply R.
  - split; [eapply select_read_spec, T|]. split; [eapply select_write_spec, T|eapply select_manage_spec, T].
Qed.
Lemma c57_payload evs d rs v w v' w' id eid a radius e : Forall event_ok evs -> N.of_nat (all_carried evs + 1) < max_u32 ->
  srun [] evs = Done (d, rs) -> dget d id = Some e -> env_ok v -> (forall k, env_ok (w k)) -> env_ok v' -> (forall k, env_ok (w' k)) -> elem_sent a ->
  denotes eid (in_id a) ->
  exists d' r1 c ab be, srun d [E_request v w NoToken (Q_put id eid a radius); E_request v' w' NoToken (Q_get id eid radius)] =
      Done (d', [Some r1; Some (A_elem c ab be None)]) /\ e_payload (sh_elem c) = in_payload a.
Proof.
  intros Hok B E Ed V W V' W' Ha Hden.
  destruct (c54_read_back evs d rs v w v' w' id eid a radius e Hok B E Ed V W V' W' Ha Hden) as (d' & r1 & r2 & c1 & ab1 & be1 & p & c2 & ab2 & be2 & E1 & _ & E2 & Ec & Es & _).
  subst r2. exists d', r1, c2, ab2, be2. split; [exact E1|]. rewrite <- Ec, Es. reflexivity.
Qed.
