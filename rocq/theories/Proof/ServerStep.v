(** One event of a server (C54). *)
From Coq Require Import Strings.String Strings.Ascii Strings.Byte ZArith.
From Verif.Lib Require Import Prelude ListAux ListLemmas SortLemmas Perm Bytes.
From Verif.Model Require Import Element Elements Segment List Access Api Server.
From Verif.Model Require Lists.
From Verif.Spec Require Import RankSpec QuerySpec HistorySpec AnswerSpec AccessSpec ListsSpec ShownSpec ServerSpec.
From Verif.Proof Require Import BuildInv ElementP ElementsP ElementsThm HistoryP ListThm AnswerP ResultP ApiP AccessP ServerP ServerOps.
Open Scope N_scope.

(** ** Results of updates *)
Lemma sort_ranked_sorted res : NoDup (map (fun re => e_id (re_elem re)) res) -> ranked (map re_elem (sort_ranked res)).
Proof.
  intros Hnd.
  assert (S1 : StronglySorted (fun a b => above (re_elem b) (re_elem a) = false) (sort_ranked res)).
  { apply (sort_by_sorted (fun a b => above (re_elem a) (re_elem b))).
    - intros x y. rewrite above_spec, above_false. apply Above_asym.
    - intros x y z. rewrite !above_false. intros H1 H2 H3. revert H1 H2 H3. unfold Above. lia. }
  assert (S2 : NoDup (map (fun re => e_id (re_elem re)) (sort_ranked res))).
  { eapply Permutation_NoDup; [|exact Hnd]. apply Permutation_map. symmetry. apply sort_ranked_perm. }
  induction S1 as [|x l S1 IH Hx]; [constructor|]. cbn in S2 |- *. inversion S2; subst. constructor; [apply IH; assumption|].
  apply Forall_forall. intros y Hy. apply in_map_iff in Hy as (z & <- & Hz). rewrite Forall_forall in Hx. specialize (Hx z Hz). apply above_false in Hx.
  assert (e_id (re_elem x) <> e_id (re_elem z)). { intros C. apply H1. rewrite C. apply (in_map (fun re => e_id (re_elem re))), Hz. }
  revert Hx H. unfold Above. lia.
Qed.
Lemma keyed_nodup m r : (forall k x, m k = Some x -> e_id x = k) -> ranking_of (sin m) r -> NoDup (map e_id r).
Proof.
  intros K Hr. pose proof (ranking_nodup _ _ Hr) as Nd. assert (H : forall x, In x r -> m (e_id x) = Some x) by (intros x Hx; apply Hr, Hx).
  clear Hr. induction Nd as [|x r Hx _ IH]; cbn [map]; [constructor|]. constructor; [|apply IH; intros y Hy; apply H; right; exact Hy].
  intros C. apply in_map_iff in C as (y & E & Hy). apply Hx. pose proof (H x (or_introl eq_refl)) as A. pose proof (H y (or_intror Hy)) as B.
  rewrite E in B. congruence.
Qed.

Section Update.
  Variables (n : nat) (e : entry) (sl : slist) (v : env) (b : elements).
  Hypotheses (O : one n e sl) (V : env_ok v) (Hd : distinct_ids b) (Hs : Forall stored b).
  Let l' := do_update v b (n_list e).
  Let m' := sputs (s_map sl) b.
  Lemma updated_ranking : ranking_of (sin m') (stored_in l').
  Proof. destruct (one_update _ _ _ _ _ O V Hd Hs) as (_ & O'). exact (the_ranking _ _ _ _ (o_reach _ _ _ O')). Qed.
  Lemma update_res radius : let res := update_results (v_sc1 v) (v_sc2 v) (n_list e) l' b radius in
    NoDup (map (fun re => e_id (re_elem re)) res) /\
    (forall x, In x (map re_elem res) <-> In x b) /\
    Forall (fun re => true_rank (stored_in l') re /\ true_neighbours (stored_in l') radius re /\
       option_map re_elem (re_before re) = s_map sl (e_id (re_elem re))) res.
  Proof.
    destruct (one_update _ _ _ _ _ O V Hd Hs) as (Hok & _). pose proof updated_ranking as Hr. unfold m' in Hr.
    assert (Est : map (stamp (fun _ => v_seg v)) b = b) by (apply stamp_set_all, Hs).
    destruct (update_results_spec _ _ _ _ (fun _ => v_seg v) (fun _ => v_seg v) (v_seg v) (v_sc v) b (v_sc1 v) (v_sc2 v) radius (stored_in l') (o_reach _ _ _ O) Hok) as (A & B & C).
    { cbn [spec_step]. rewrite Est. exact Hr. }
    cbv zeta. split; [exact A|]. split; [intros x; rewrite <- Est at 2; apply B|].
    eapply Forall_impl; [|exact C]. intros re (T & Nb & H). split; [exact T|]. split; [exact Nb|].
    destruct (s_map sl (e_id (re_elem re))) as [old|]; [destruct H as (p & i & a & s & c & -> & <- & _); reflexivity|rewrite H; reflexivity].
  Qed.
  Lemma update_shown radius : let res := update_results (v_sc1 v) (v_sc2 v) (n_list e) l' b radius in
    shows_all (stored_in l') (map e_id b) (map show res).
  Proof.
    cbv zeta. destruct (update_res radius) as (A & B & C). split; [|split].
    - rewrite map_map. exact A.
    - apply Forall_forall. intros x Hx. apply in_map_iff in Hx as (re & <- & Hre). rewrite Forall_forall in C. apply show_ok, (C re Hre).
    - intros x. rewrite show_elem, B. rewrite (proj2 updated_ranking x). unfold m'. rewrite (sin_sputs _ _ _ Hd). split.
      + intros Hx. split; [left; exact Hx|apply in_map, Hx].
      + intros ([Hx|(_ & H)] & Hi); [exact Hx|]. contradiction.
  Qed.
End Update.

(** ** Answers of a server *)
Definition ok (n : nat) (o : outcome (db * resp)) (M : sdb -> resp -> Prop) : Prop :=
  exists d' a s', o = Done (d', a) /\ tracks n d' s' /\ M s' a.
Lemma ok_keep n d s a (M : sdb -> resp -> Prop) : tracks n d s -> M s a -> ok n (keep d a) M.
Proof. intros T H. exists d, a, s. auto. Qed.
Lemma ok_impl n o (M N : sdb -> resp -> Prop) : ok n o M -> (forall s' a, M s' a -> N s' a) -> ok n o N.
Proof. intros (d' & a & s' & E & T & H) I. exists d', a, s'. auto. Qed.
Lemma ok_guard n d s (b : bool) (G : Prop) r o (M : sdb -> resp -> Prop) : tracks n d s -> (b = true <-> G) -> (G -> ok n o M) ->
  ok n (if negb b then keep d r else o) (fun s' a => unless s s' a (~ G) r (M s' a)).
Proof.
  intros T H I. destruct b; cbn [negb].
  - assert (HG : G) by (apply H; reflexivity). eapply ok_impl; [apply I, HG|]. intros s' a Hm. right. split; [tauto|exact Hm].
  - apply (ok_keep n d s); [exact T|]. left. split; [intros C; apply H in C; discriminate|split; reflexivity].
Qed.
Lemma ok_cond n d s (b : bool) (C : Prop) r o (M : sdb -> resp -> Prop) : tracks n d s -> (b = true <-> C) -> (~ C -> ok n o M) ->
  ok n (if b then keep d r else o) (fun s' a => unless s s' a C r (M s' a)).
Proof.
  intros T H I. destruct b.
  - apply (ok_keep n d s); [exact T|]. left. split; [apply H; reflexivity|split; reflexivity].
  - assert (HC : ~ C) by (intros X; apply H in X; discriminate). eapply ok_impl; [apply I, HC|]. intros s' a Hm. right. auto.
Qed.
Lemma ok_any n n' d s id f (rest : sdb -> resp -> slist -> Prop) : tracks n d s -> (n <= n')%nat ->
  (forall e sl, dget d id = Some e -> s id = Some sl -> one n e sl -> ok n' (f e) (fun s' a => rest s' a sl)) ->
  ok n' (on_any_list d id f) (fun s' a => at_list s s' a id (rest s' a)).
Proof.
  intros T L H. unfold on_any_list. destruct (dget d id) as [e|] eqn:E.
  - destruct (tracks_get _ _ _ _ _ T E) as (sl & Es & O). eapply ok_impl; [apply (H e sl); auto|]. intros s' a Hm. right. eauto.
  - apply (ok_keep n' d s); [eapply tracks_mono; eauto|]. left. split; [apply (tracks_none _ _ _ _ T), E|split; reflexivity].
Qed.
Lemma ok_list n n' d s t id f (rest : sdb -> resp -> slist -> Prop) : tracks n d s -> (n <= n')%nat ->
  (forall e sl, dget d id = Some e -> s id = Some sl -> one n e sl -> ok n' (f e) (fun s' a => rest s' a sl)) ->
  ok n' (on_list d t id f) (fun s' a => for_list t s s' a id (rest s' a)).
Proof.
  intros T L H. unfold on_list, for_list. apply (ok_guard n' d s); [eapply tracks_mono; eauto|apply has_list_one|]. intros _.
  exact (ok_any n n' d s id f rest T L H).
Qed.
Lemma ok_put n d s id e sl a (M : sdb -> resp -> Prop) : tracks n d s -> one n e sl -> M (put_list s id (Some sl)) a -> ok n (Done (dput d id e, a)) M.
Proof. intros T O H. exists (dput d id e), a, (put_list s id (Some sl)). split; [reflexivity|]. split; [apply tracks_put; assumption|exact H]. Qed.

(** ** Work on every list *)
Lemma every_ok f (g : smap -> smap) (P : slist -> mres -> Prop) n n' s : (n <= n')%nat ->
  (forall id e sl, one n e sl -> exists l r, f id e = Done (l, r) /\ one n' (with_list e l) (with_map sl (g (s_map sl))) /\ P sl r) ->
  forall ids d, NoDup ids -> NoDup (map fst d) -> (forall id, In id ids -> rel n (dget d id) (s id)) ->
  exists d' rs, every_list f d ids = Done (d', rs) /\ NoDup (map fst d') /\
    (forall id, ~ In id ids -> dget d' id = dget d id) /\
    (forall id, In id ids -> rel n' (dget d' id) (option_map (fun sl => with_map sl (g (s_map sl))) (s id))) /\
    map fst rs = ids /\
    (forall id r, In (id, r) rs -> match s id with None => r = M_missing | Some sl => P sl r end).
Proof.
  intros L Hf. induction ids as [|id ids IH]; intros d Nd Nk Hr.
  - exists d, []. split; [reflexivity|]. split; [exact Nk|]. split; [reflexivity|]. split; [intros ? []|]. split; [reflexivity|intros ? ? []].
  - inversion Nd as [|? ? Nin Nd']; subst.
    assert (One : exists d1 r, one_list d id (f id) = Done (d1, r) /\ NoDup (map fst d1) /\ (forall k, k <> id -> dget d1 k = dget d k) /\
              rel n' (dget d1 id) (option_map (fun sl => with_map sl (g (s_map sl))) (s id)) /\
              match s id with None => r = M_missing | Some sl => P sl r end).
    { specialize (Hr id (or_introl eq_refl)). unfold one_list. destruct (dget d id) as [e|] eqn:E, (s id) as [sl|] eqn:Es; try contradiction.
      - destruct (Hf id e sl Hr) as (l & r & El & O & Hp). rewrite El. cbn [bind fst snd]. eexists _, _. split; [reflexivity|].
        split; [apply dput_keys, Nk|]. split; [|split].
        + intros k Hk. rewrite dget_dput. rewrite (proj2 (beq_neq id k)) by congruence. reflexivity.
        + rewrite dget_dput, beq_refl. exact O.
        + exact Hp.
      - eexists _, _. split; [reflexivity|]. split; [exact Nk|]. split; [reflexivity|]. rewrite E. split; [exact I|reflexivity]. }
    destruct One as (d1 & r & E1 & K1 & F1 & R1 & P1).
    destruct (IH d1 Nd' K1) as (d2 & rs & E2 & K2 & F2 & R2 & M2 & P2).
    { intros k Hk. rewrite F1 by (intros ->; contradiction). apply Hr. right; exact Hk. }
    exists d2, ((id, r) :: rs). cbn [every_list]. rewrite E1. cbn [bind fst snd]. rewrite E2. cbn [bind fst snd].
    split; [reflexivity|]. split; [exact K2|]. split; [|split; [|split]].
    + intros k Hk. rewrite F2 by (intros C; apply Hk; right; exact C). apply F1. intros ->. apply Hk. left; reflexivity.
    + intros k [<-|Hk]; [|apply R2, Hk]. rewrite F2 by exact Nin. exact R1.
    + cbn [map fst]. rewrite M2. reflexivity.
    + intros k x [C|C]; [injection C as <- <-; exact P1|apply (P2 _ _ C)].
Qed.
Lemma existsb_beq k ids : existsb (beq k) ids = true <-> In k ids.
Proof.
  rewrite existsb_exists. split; [intros (x & Hx & E); apply beq_true in E; congruence|]. intros H. exists k. split; [exact H|apply beq_refl].
Qed.
Lemma reports_ok ids eo rs (P : bytes -> mres -> Prop) : NoDup ids -> map fst rs = ids -> (forall id r, In (id, r) rs -> P id r) ->
  reports ids eo P (report eo rs).
Proof.
  intros Nd E H. unfold reports, report. eexists. split; [reflexivity|].
  assert (Sub : forall p, In p (if eo then filter (fun p => is_error (snd p)) rs else rs) -> In p rs).
  { intros p. destruct eo; [|auto]. intros Hp. apply filter_In in Hp. apply Hp. }
  split; [|split].
  - destruct eo; [|rewrite E; exact Nd]. rewrite <- E in Nd. clear - Nd. induction rs as [|p rs IH]; cbn [filter map] in *; [constructor|].
    apply NoDup_cons_iff in Nd as (A & B). destruct (is_error (snd p)); [|apply IH, B]. cbn [map]. constructor; [|apply IH, B].
    intros C. apply A. apply in_map_iff in C as (q & <- & Hq). apply filter_In in Hq. apply in_map, Hq.
  - intros id r Hp. apply Sub in Hp. split; [rewrite <- E; apply (in_map fst _ _ Hp)|apply H, Hp].
  - intros id Hid. rewrite <- E in Hid. apply in_map_iff in Hid as ((k & r) & <- & Hp). cbn [fst]. destruct eo.
    + destruct r as [x| | |] eqn:Er; [right; split; [reflexivity|exists x; apply H; exact Hp]| | |];
        left; apply (in_map fst) with (x := (k, r)); subst r; apply filter_In; auto.
    + left. apply (in_map fst) with (x := (k, r)). exact Hp.
Qed.
Lemma every_tracks f (g : smap -> smap) (P : slist -> mres -> Prop) n n' d s ids eo (M : sdb -> resp -> Prop) : tracks n d s -> (n <= n')%nat -> NoDup ids ->
  (forall id e sl, one n e sl -> exists l r, f id e = Done (l, r) /\ one n' (with_list e l) (with_map sl (g (s_map sl))) /\ P sl r) ->
  (forall s' a, (forall k, s' k = change_lists s ids g k) -> reports ids eo (fun id r => match s id with None => r = M_missing | Some sl => P sl r end) a ->
     exists s'', (forall k, s'' k = s' k) /\ M s'' a) ->
  ok n' (bind (every_list f d ids) (fun p => Done (fst p, report eo (snd p)))) M.
Proof.
  intros (Nk & Hr) L Nd Hf HM. destruct (every_ok f g P n n' s L Hf ids d Nd Nk) as (d' & rs & E & K & F & R & Em & Hp); [auto|].
  rewrite E. cbn [bind fst snd]. destruct (HM (change_lists s ids g) (report eo rs)) as (s'' & Es & H); [reflexivity|apply reports_ok; assumption|].
  exists d', (report eo rs), s''. split; [reflexivity|]. split; [|exact H]. split; [exact K|]. intros k. rewrite Es. unfold change_lists.
  destruct (existsb (beq k) ids) eqn:Ek.
  - apply R. apply existsb_beq, Ek.
  - rewrite F; [eapply rel_mono; [exact L|apply Hr]|]. intros C. apply existsb_beq in C. congruence.
Qed.

(** ** Requests *)
Definition serves (n n' : nat) (d : db) (s : sdb) (v : env) (w : bytes -> env) (t : token) (q : request) : Prop :=
  tracks n d s -> (n <= n')%nat -> env_ok v -> (forall id, env_ok (w id)) -> request_ok q ->
  (n + carried (E_request v w t q) <= n')%nat -> N.of_nat n' < max_u32 ->
  ok n' (handle d v w t q) (fun s' a => meaning (v_now v) (v_seg v) t s s' a q).

Lemma bad_options_spec set merge split : bad_options set merge split = true <-> set = [] \/ (split <= merge)%nat.
Proof.
  unfold bad_options, sizes_ok. rewrite orb_true_iff, negb_true_iff, Nat.ltb_ge, beq_true. tauto.
Qed.
Lemma found_before l si k o radius re : get_element_index l si k o radius = Done (Some re) -> re_before re = None.
Proof.
  unfold get_element_index, find_ranked. destruct (nth_error l si) as [sg|]; [|discriminate]. cbv zeta.
  match goal with |- context [nth_error (sg_elems sg) ?i] => destruct (nth_error (sg_elems sg) i) as [x|]; [|discriminate] end.
  destruct (find_idx_id (sg_elems sg) (e_id x)) as [j|]; [|discriminate]. destruct (nth_error (sg_elems sg) j); [|discriminate].
  intros E. injection E as <-. reflexivity.
Qed.
Lemma pct_before l m k radius re : get_percentile l m k radius = Done (Some re) -> re_before re = None.
Proof.
  unfold get_percentile, pct_at. cbv zeta.
  assert (F : forall segs si j so total, match get_element_index segs si j so radius with Done (Some e) => Done (Some (calc_bottom total e)) | x => x end = Done (Some re) -> re_before re = None).
  { intros segs si j so total. destruct (get_element_index segs si j so radius) as [[re'|]| | |] eqn:E; try discriminate.
    intros H. injection H as <-. cbn. eapply found_before, E. }
  destruct (pct_find 0 None _ _) as [(si & so)|]; [apply F|]. destruct (top_offsets _); [discriminate|apply F].
Qed.

Lemma sv_create_list n n' d s v w t id set m merge split load replace pop :
  serves n n' d s v w t (Q_create_list id set m merge split load replace pop).
Proof.
  intros T L V W (Sz & Hm & He) C B. cbn [carried] in C. apply (tracks_mono n n') in T; [|exact L]. cbn [handle meaning].
  assert (K : ok n' (if bad_options set merge split then keep d Bad else
      bind (new_list merge split (v_ns v) (v_ni v) (v_seg v) (v_sc v) (v_sch v) (v_want v) (put_batch v pop)) (fun l =>
           let e := Entry set m load l in Done (dput d id e, list_info id e true)))
      (fun s' a => unless s s' a (set = [] \/ (split <= merge)%nat) Bad
         (exists b, batch_of (v_seg v) pop b /\ new_list_at s s' a id (SL set m load merge split (sputs sempty b))))).
  { apply ok_cond; [exact T|apply bad_options_spec|]. intros Hb. destruct (put_batch_spec v pop) as (Hbt & Hl). pose proof V as (Tn & _).
    destruct (one_new n' v set m load merge split (put_batch v pop) V) as (l & E & O); auto; [lia|apply Hbt| |lia|].
    { eapply Forall_impl; [|eapply batch_stored; eauto]. intros x (A & _). exact A. }
    rewrite E. cbn [bind]. cbv zeta. eapply ok_put; [exact T|exact O|].
    exists (map (restamp (v_seg v)) (put_batch v pop)). split; [eapply batch_restamp, Hbt|]. split; [reflexivity|]. eapply shown_ends, O. }
  pose proof (tracks_none _ _ _ id T) as Hn. unfold unless at 1.
  destruct (dget d id) as [e|] eqn:E; [destruct replace|].
  - eapply ok_impl; [exact K|]. intros s' a H. right. split; [intros (_ & X); discriminate|exact H].
  - eapply ok_keep; [exact T|]. left. split; [|split; reflexivity]. split; [|reflexivity]. intros X. apply Hn in X. discriminate.
  - eapply ok_impl; [exact K|]. intros s' a H. right. split; [intros (X & _); apply X, Hn; reflexivity|exact H].
Qed.
Lemma sv_delete_list n n' d s v w t id : serves n n' d s v w t (Q_delete_list id).
Proof.
  intros T L V W _ C B. apply (tracks_mono n n') in T; [|exact L]. exists (ddel d id), Done_empty, (put_list s id None).
  split; [reflexivity|]. split; [apply tracks_del, T|]. split; reflexivity.
Qed.
Lemma sv_clone n n' d s v w t src id set m merge split load pop : serves n n' d s v w t (Q_clone src id set m merge split load pop).
Proof.
  intros T L V W (Sz & Hm) C B. apply (tracks_mono n n') in T; [|exact L]. cbn [handle meaning].
  eapply (ok_any n' n' d s); [exact T|lia|]. intros e sl Ee Es O.
  assert (K : ok n' (if pop then keep d Bad else if bad_options set merge split then keep d Failed
        else bind (clone_elements merge split (v_ns v) (v_ni v) (v_seg v) (n_list e)) (fun l =>
             let e := Entry set m load l in Done (dput d id e, list_info id e true)))
     (fun s' a => unless s s' a (pop = true) Bad (unless s s' a (set = [] \/ (split <= merge)%nat) Failed
        (new_list_at s s' a id (SL set m load merge split (s_map sl)))))).
  { apply ok_cond; [exact T|reflexivity|]. intros _. apply ok_cond; [exact T|apply bad_options_spec|]. intros Hb.
    destruct (one_clone n' e sl v set m load merge split O V) as (l & E & O'); auto; [lia|].
    rewrite E. cbn [bind]. cbv zeta. eapply ok_put; [exact T|exact O'|]. split; [reflexivity|]. eapply shown_ends, O'. }
  pose proof (tracks_none _ _ _ id T) as Hn. unfold unless at 1. destruct (dget d id) as [e'|].
  - eapply ok_keep; [exact T|]. left. split; [|split; reflexivity]. intros X. apply Hn in X. discriminate.
  - eapply ok_impl; [exact K|]. intros s' a H. right. split; [intros X; apply X, Hn; reflexivity|exact H].
Qed.
Lemma sv_get_list n n' d s v w t id tb : serves n n' d s v w t (Q_get_list id tb).
Proof.
  intros T L V W _ C B. cbn [handle meaning]. eapply ok_list; [exact T|exact L|]. intros e sl Ee Es O. apply (tracks_mono n n') in T; [|exact L].
  eapply ok_keep; [exact T|]. split; [reflexivity|]. eapply shown_ends, O.
Qed.
Lemma sv_pct n n' d s v w t id p k radius : serves n n' d s v w t (Q_pct id p k radius).
Proof.
  intros T L V W Hp C B. cbn [handle meaning]. eapply ok_list; [exact T|exact L|]. intros e sl Ee Es O. apply (tracks_mono n n') in T; [|exact L].
  pose proof (o_reach _ _ _ O) as HR. pose proof (the_ranking _ _ _ _ HR) as Hr. pose proof (reach_answers _ _ _ _ _ HR Hr) as A.
  pose proof (o_len _ _ _ O _ Hr) as Hlen.
  assert (Dec : stored_in (n_list e) = [] \/ stored_in (n_list e) <> []) by (destruct (stored_in (n_list e)); [left; reflexivity|right; discriminate]).
  destruct Dec as [Er|Hne].
  - rewrite Er in Hr. rewrite (c12_empty _ _ _ _ k p radius HR); [|intros x Hx; apply Hr in Hx; destruct Hx].
    eapply ok_keep; [exact T|]. split; [reflexivity|]. exists []. split; [exact Hr|]. left. auto.
  - set (r := stored_in (n_list e)) in *.
    cbn [request_ok] in Hp. destruct Hp as [->|Hp].
    + destruct (c12_one _ _ _ _ r k radius HR Hr) as (P1 & P2).
      { unfold max_u32 in B. change (2 ^ 64) with 18446744073709551616. lia. }
      destruct (sg_elems (last (ss_segs (l_scores (n_list e))) max_segment)) as [|y ys] eqn:El.
      * rewrite P1 by reflexivity. eapply ok_keep; [exact T|]. split; [reflexivity|]. exists r. split; [exact Hr|]. right. right. auto.
      * destruct P2 as (re & E & Eb & Tr & Nb); [discriminate|]. rewrite E. eapply ok_keep; [exact T|]. split; [reflexivity|]. exists r. split; [exact Hr|].
        right. right. split; [exact Hne|]. split; [reflexivity|]. right. exists (re_elem re). split.
        -- pose proof Tr as (i & Ei & Et & Eb'). replace (length r - 1)%nat with i by lia. exact Ei.
        -- apply shows_full_ok; auto. rewrite (pct_before _ _ _ _ _ E). reflexivity.
    + destruct (a_pct _ _ A p k radius Hne Hp) as (i & re & E & Hi & Et & Tr & Nb). rewrite E.
      eapply ok_keep; [exact T|]. split; [reflexivity|]. exists r. split; [exact Hr|]. right. left. split; [exact Hne|]. split.
      * pose proof (N.pow_nonzero 2 k ltac:(discriminate)). change (2 ^ 53) with 9007199254740992 in Hp. nia.
      * exists i, (re_elem re). split; [exact Hi|]. split.
        -- pose proof Tr as (j & Ej & Etj & _). replace (N.to_nat i) with j by lia. exact Ej.
        -- apply shows_full_ok; auto. rewrite (pct_before _ _ _ _ _ E). reflexivity.
Qed.
Lemma sv_range n n' d s v w t id ft fb k : serves n n' d s v w t (Q_range id ft fb k).
Proof.
  intros T L V W _ C B. apply (tracks_mono n n') in T; [|exact L]. cbn [handle meaning]. apply ok_guard; [exact T|apply has_list_one|]. intros _.
  destruct ft as [o|], fb as [o'|]; try (eapply ok_keep; [exact T|split; reflexivity]).
  - eapply (ok_any n' n' d s); [exact T|lia|]. intros e sl Ee Es O. pose proof (o_reach _ _ _ O) as HR. pose proof (the_ranking _ _ _ _ HR) as Hr.
    set (r := stored_in (n_list e)) in *.
    eapply ok_keep; [exact T|]. split; [reflexivity|]. exists r. split; [exact Hr|]. destruct (c44_range_none _ _ _ _ r o k HR Hr) as (Hno & _).
    destruct (range_top (n_list e) o k) as [l|] eqn:E; [|left; split; [apply Hno; reflexivity|reflexivity]]. right.
    destruct (c44_range_top _ _ _ _ r o k l HR Hr E) as (A1 & A2). split.
    + destruct (Nat.le_gt_cases (length r) o) as [X|X]; [|exact X]. destruct Hno as (_ & Hno). specialize (Hno (or_introl X)). discriminate.
    + exists l. split; [reflexivity|]. split; [exact A1|]. apply Forall_forall. intros x Hx. apply In_nth_error in Hx as (j & Hj). eexists. eapply A2, Hj.
  - eapply (ok_any n' n' d s); [exact T|lia|]. intros e sl Ee Es O. pose proof (o_reach _ _ _ O) as HR. pose proof (the_ranking _ _ _ _ HR) as Hr.
    set (r := stored_in (n_list e)) in *.
    eapply ok_keep; [exact T|]. split; [reflexivity|]. exists r. split; [exact Hr|]. destruct (c44_range_none _ _ _ _ r o' k HR Hr) as (_ & Hno).
    destruct (range_bottom (n_list e) o' k) as [l|] eqn:E; [|left; split; [apply Hno; reflexivity|reflexivity]]. right.
    destruct (c44_range_bottom _ _ _ _ r o' k l HR Hr E) as (A0 & A1 & A2). split; [exact A0|].
    exists l. split; [reflexivity|]. split; [exact A1|]. apply Forall_forall. intros x Hx. apply In_nth_error in Hx as (j & Hj). eexists. eapply A2, Hj.
Qed.
Lemma sv_reindex n n' d s v w t id : serves n n' d s v w t (Q_reindex id).
Proof.
  intros T L V W _ C B. apply (tracks_mono n n') in T; [|exact L]. cbn [handle meaning]. eapply (ok_any n' n' d s); [exact T|lia|]. intros e sl Ee Es O.
  destruct (one_reindex _ _ _ v O V B) as (l & E & O'). rewrite E. cbn [bind]. cbv zeta. eapply ok_put; [exact T|exact O'|].
  split; [reflexivity|]. eapply shown_ends, O'.
Qed.
Lemma sv_repair n n' d s v w t id : serves n n' d s v w t (Q_repair id).
Proof.
  intros T L V W _ C B. apply (tracks_mono n n') in T; [|exact L]. cbn [handle meaning]. eapply (ok_any n' n' d s); [exact T|lia|]. intros e sl Ee Es O.
  destruct (one_repair _ _ _ v O V B) as (l & E & O'). rewrite E. cbn [bind]. eapply ok_put; [exact T|exact O'|].
  split; [|reflexivity]. unfold sets_map. rewrite with_map_same. reflexivity.
Qed.
Lemma sv_verify n n' d s v w t id rep : serves n n' d s v w t (Q_verify id rep).
Proof.
  intros T L V W _ C B. apply (tracks_mono n n') in T; [|exact L]. cbn [handle meaning]. eapply (ok_any n' n' d s); [exact T|lia|]. intros e sl Ee Es O.
  destruct (c16_verify _ _ _ _ (o_reach _ _ _ O)) as (-> & ->). cbn [andb]. eapply ok_keep; [exact T|]. split; reflexivity.
Qed.
