(** Handlers against the map of maps (C54). *)
From Coq Require Import Strings.String Strings.Ascii Strings.Byte ZArith.
From Verif.Lib Require Import Prelude ListAux ListLemmas SortLemmas Perm Bytes.
From Verif.Model Require Import Element Elements Segment List Access Api Server.
From Verif.Model Require Lists.
From Verif.Spec Require Import RankSpec QuerySpec HistorySpec AnswerSpec AccessSpec ListsSpec ShownSpec ServerSpec.
From Verif.Proof Require Import BuildInv ElementP ElementsP ElementsThm HistoryP ListThm AnswerP ResultP ApiP AccessP.
From Verif.Proof Require ListsP ListsBack.
Open Scope N_scope.

(** ** The collection *)
Lemma beq_sym a b : beq a b = beq b a.
Proof. unfold beq. destruct (list_eq_dec ascii_dec a b), (list_eq_dec ascii_dec b a); congruence. Qed.
Lemma beq_neq a b : beq a b = false <-> a <> b.
Proof. unfold beq. destruct (list_eq_dec ascii_dec a b); split; congruence. Qed.
Lemma dget_ddel d id k : dget (ddel d id) k = if beq id k then None else dget d k.
Proof.
  unfold dget, ddel. induction d as [|(x & e) d IH]; cbn [filter find fst].
  - destruct (beq id k); reflexivity.
  - destruct (beq id x) eqn:E; cbn [negb].
    + rewrite IH. apply beq_true in E. subst x. destruct (beq id k) eqn:E1; [reflexivity|].
      cbn [find fst]. rewrite (beq_sym k id), E1. reflexivity.
    + cbn [find fst]. destruct (beq k x) eqn:E2; [|exact IH].
      apply beq_true in E2. subst x. rewrite E. reflexivity.
Qed.
Lemma dget_dput d id e k : dget (dput d id e) k = if beq id k then Some e else dget d k.
Proof.
  unfold dput. unfold dget at 1. cbn [find fst snd]. rewrite (beq_sym k id).
  pose proof (dget_ddel d id k) as H. destruct (beq id k); [reflexivity|]. exact H.
Qed.
Lemma ddel_keys d id : NoDup (map fst d) -> NoDup (map fst (ddel d id)) /\ ~ In id (map fst (ddel d id)).
Proof.
  intros H. unfold ddel. induction d as [|(x & e) d IH]; cbn [filter fst map] in *; [split; [constructor|intros []]|].
  inv H. destruct (IH H3) as (A & B). destruct (beq id x) eqn:E; cbn [negb]; [auto|]. cbn [map fst]. split.
  - constructor; [|exact A]. intros C. apply H2. apply in_map_iff in C as (p & <- & Hp). apply filter_In in Hp. apply in_map, Hp.
  - intros [C|C]; [subst x; rewrite beq_refl in E; discriminate|auto].
Qed.
Lemma dput_keys d id e : NoDup (map fst d) -> NoDup (map fst (dput d id e)).
Proof. intros H. destruct (ddel_keys d id H) as (A & B). cbn [dput map fst]. constructor; assumption. Qed.
Lemma dget_In d id e : NoDup (map fst d) -> dget d id = Some e <-> In (id, e) d.
Proof.
  unfold dget. induction d as [|(x & f) d IH]; cbn [map fst find]; intros H; [split; [discriminate|intros []]|].
  inv H. destruct (beq id x) eqn:E.
  - apply beq_true in E. subst x. cbn [snd]. split; [intros C; injection C as <-; left; reflexivity|].
    intros [C|C]; [congruence|]. exfalso. apply H2. apply (in_map fst) in C. exact C.
  - rewrite IH by assumption. apply beq_neq in E. split; [right; assumption|]. intros [C|C]; [congruence|exact C].
Qed.

(** ** The relation *)
Record one (n : nat) (e : entry) (sl : slist) : Prop := {
  o_set : n_set e = s_set sl;
  o_meta : n_meta e = s_meta sl;
  o_load : n_load e = s_load sl;
  o_reach : reachable (s_merge sl) (s_split sl) (n_list e) (s_map sl);
  o_sizes : (10 <= s_merge sl /\ 10 <= s_split sl)%nat;
  o_keys : meta_sent (s_meta sl);
  o_len : forall r, ranking_of (sin (s_map sl)) r -> (length r <= n)%nat
}.
Definition rel (n : nat) (oe : option entry) (os : option slist) : Prop :=
  match oe, os with Some e, Some sl => one n e sl | None, None => True | _, _ => False end.
Definition tracks (n : nat) (d : db) (s : sdb) : Prop := NoDup (map fst d) /\ forall id, rel n (dget d id) (s id).

Lemma one_mono n n' e sl : (n <= n')%nat -> one n e sl -> one n' e sl.
Proof. intros L []. constructor; auto. intros r Hr. specialize (o_len0 r Hr). lia. Qed.
Lemma rel_mono n n' oe os : (n <= n')%nat -> rel n oe os -> rel n' oe os.
Proof. unfold rel. destruct oe, os; auto. apply one_mono. Qed.
Lemma tracks_mono n n' d s : (n <= n')%nat -> tracks n d s -> tracks n' d s.
Proof. intros L (A & B). split; [exact A|]. intros id. eapply rel_mono; [exact L|apply B]. Qed.
Lemma tracks_put n d s id e sl : tracks n d s -> one n e sl -> tracks n (dput d id e) (put_list s id (Some sl)).
Proof.
  intros (A & B) H. split; [apply dput_keys, A|]. intros k. rewrite dget_dput. unfold put_list. destruct (beq id k); [exact H|apply B].
Qed.
Lemma tracks_del n d s id : tracks n d s -> tracks n (ddel d id) (put_list s id None).
Proof.
  intros (A & B). split; [apply ddel_keys, A|]. intros k. rewrite dget_ddel. unfold put_list. destruct (beq id k); [exact I|apply B].
Qed.
Lemma tracks_get n d s id e : tracks n d s -> dget d id = Some e -> exists sl, s id = Some sl /\ one n e sl.
Proof. intros (_ & B) E. specialize (B id). rewrite E in B. destruct (s id) as [sl|]; [eauto|contradiction]. Qed.
Lemma tracks_none n d s id : tracks n d s -> dget d id = None <-> s id = None.
Proof. intros (_ & B). specialize (B id). unfold rel in B. destruct (dget d id), (s id); split; congruence || contradiction. Qed.

(** ** Sizes *)
Lemma ranking_nodup P r : ranking_of P r -> NoDup r.
Proof. intros (A & _). apply ranked_nodup, A. Qed.
Lemma puts_len m b n : distinct_ids b -> (forall r, ranking_of (sin m) r -> (length r <= n)%nat) ->
  (exists r, ranking_of (sin m) r) -> forall r, ranking_of (sin (sputs m b)) r -> (length r <= n + length b)%nat.
Proof.
  intros Hd Hn (r0 & Hr0) r Hr. specialize (Hn r0 Hr0).
  assert (H : (length r <= length (r0 ++ b))%nat).
  { apply NoDup_incl_length; [eapply ranking_nodup, Hr|]. intros x Hx. apply Hr in Hx. apply sin_sputs in Hx; [|exact Hd].
    apply in_app_iff. destruct Hx as [Hx|(Hx & _)]; [right; exact Hx|left; apply Hr0, Hx]. }
  rewrite app_length in H. lia.
Qed.
Lemma del_len m ids n : (forall r, ranking_of (sin m) r -> (length r <= n)%nat) ->
  (exists r, ranking_of (sin m) r) -> forall r, ranking_of (sin (sdel m ids)) r -> (length r <= n)%nat.
Proof.
  intros Hn (r0 & Hr0) r Hr. specialize (Hn r0 Hr0). enough (length r <= length r0)%nat by lia.
  apply NoDup_incl_length; [eapply ranking_nodup, Hr|]. intros x Hx. apply Hr in Hx. apply sin_sdel in Hx. apply Hr0. tauto.
Qed.
Lemma new_len b r : distinct_ids b -> ranking_of (sin (sputs sempty b)) r -> (length r <= length b)%nat.
Proof.
  intros Hd Hr. apply NoDup_incl_length; [eapply ranking_nodup, Hr|]. intros x Hx. apply Hr in Hx.
  apply sin_sputs in Hx; [|exact Hd]. destruct Hx as [Hx|(Hx & _)]; [exact Hx|]. apply sin_sempty in Hx. contradiction.
Qed.

(** ** Access *)
Lemma has_list_spec t ids : has_list t ids = true <-> may_lists t (fun id => In id ids).
Proof.
  unfold may_lists, may_list. destruct t as [| |ol oe].
  - cbn. split; [intros _; split; [discriminate|auto]|auto].
  - cbn. split; [discriminate|intros (H & _); congruence].
  - rewrite c45_list. destruct ol; split; first [intros (_ & H); exact H|intros H; split; [discriminate|exact H]|intros _; split; [discriminate|intros; exact I]|intros _; exact I].
Qed.
Lemma has_list_one t id : has_list t [id] = true <-> may_list t id.
Proof.
  rewrite has_list_spec. unfold may_lists. split.
  - intros (_ & H). apply H. left; reflexivity.
  - intros H. split; [intros ->; exact H|]. intros k [<-|[]]. exact H.
Qed.
Lemma has_elem_spec t ids : Forall (fun v => v < 2 ^ 64) ids -> has_elem t ids = true <-> may_elems t (fun v => In v ids).
Proof.
  intros Hb. unfold may_elems, may_elem. destruct t as [| |ol oe].
  - cbn. split; [intros _; split; [discriminate|auto]|auto].
  - cbn. split; [discriminate|intros (H & _); congruence].
  - rewrite c45_elem by exact Hb. destruct oe; split; first [intros (_ & H); exact H|intros H; split; [discriminate|exact H]|intros _; split; [discriminate|intros; exact I]|intros _; exact I].
Qed.
Lemma has_elem_one t v : v < 2 ^ 64 -> has_elem t [v] = true <-> may_elem t v.
Proof.
  intros Hb. rewrite has_elem_spec by (repeat constructor; exact Hb). unfold may_elems. split.
  - intros (_ & H). apply H. left; reflexivity.
  - intros H. split; [intros ->; exact H|]. intros k [<-|[]]. exact H.
Qed.
Lemma may_elems_ext t P Q : (forall v, P v <-> Q v) -> may_elems t P <-> may_elems t Q.
Proof. intros H. unfold may_elems. split; intros (A & B); (split; [exact A|]); intros v Hv; apply B, H, Hv. Qed.

(** ** Parsing *)
Lemma denotes_spec s v : parse_uint s = Some v <-> denotes s v.
Proof. unfold denotes. change (2 ^ 64) with B64. apply parse_spec. Qed.
Lemma denotes_fun s v w : denotes s v -> denotes s w -> v = w.
Proof. intros A B. apply denotes_spec in A. apply denotes_spec in B. congruence. Qed.
Lemma parse_none s : parse_uint s = None -> ~ exists v, denotes s v.
Proof. intros H (v & Hv). apply denotes_spec in Hv. congruence. Qed.
Lemma parse_ids_some : forall l vs, parse_ids l = Some vs <-> Forall2 denotes l vs.
Proof.
  induction l as [|s l IH]; intros vs; cbn [parse_ids].
  - split; [intros C; injection C as <-; constructor|intros C; inv C; reflexivity].
  - destruct (parse_uint s) as [v|] eqn:E; [destruct (parse_ids l) as [ws|] eqn:F|].
    + apply denotes_spec in E. split.
      * intros C; injection C as <-. constructor; [exact E|apply IH; reflexivity].
      * intros C. inv C. apply IH in H3. rewrite (denotes_fun _ _ _ E H1). congruence.
    + split; [discriminate|]. intros C. inv C. apply IH in H3. discriminate.
    + split; [discriminate|]. intros C. inv C. apply denotes_spec in H1. congruence.
Qed.
Lemma parse_ids_none l : parse_ids l = None -> ~ exists vs, Forall2 denotes l vs.
Proof. intros H (vs & Hv). apply parse_ids_some in Hv. congruence. Qed.
Lemma parse_ids_one s : parse_ids [s] = match parse_uint s with Some v => Some [v] | None => None end.
Proof. reflexivity. Qed.
Lemma denotes_all l vs : Forall2 denotes l vs -> Forall (fun v => v < 2 ^ 64) vs.
Proof. induction 1 as [|s v l vs H _ IH]; constructor; [apply H|exact IH]. Qed.
Lemma u64_le vs : Forall (fun v => v < 2 ^ 64) vs -> Forall (fun v => v <= max_u64) vs.
Proof. apply Forall_impl. intros v. unfold max_u64. change (2 ^ 64) with 18446744073709551616. lia. Qed.

(** ** Batches *)
Lemma to_elements_In es x : In x (to_elements es) <-> exists a, In (Some a) es /\ x = to_elem a.
Proof.
  unfold to_elements. rewrite in_flat_map. split.
  - intros ([a|] & Ha & Hx); [|contradiction]. destruct Hx as [<-|[]]. eauto.
  - intros (a & Ha & ->). exists (Some a). split; [exact Ha|left; reflexivity].
Qed.
Lemma to_elements_len es : (length (to_elements es) <= length es)%nat.
Proof. unfold to_elements. induction es as [|[a|] es IH]; cbn [flat_map app length]; lia. Qed.
Lemma update_time_In now l x : In x (update_time now l) <-> exists y, In y l /\ x = restamp now y.
Proof. unfold update_time. rewrite in_map_iff. split; intros (y & A & B); exists y; auto. Qed.
Lemma sent_restamp now a : sent now a = restamp now (to_elem a).
Proof. reflexivity. Qed.
Lemma restamp_twice a b e : restamp a (restamp b e) = restamp a e.
Proof. reflexivity. Qed.
Lemma restamp_id now e : e_id (restamp now e) = e_id e.
Proof. reflexivity. Qed.
Lemma dedup_spec sc l : let out := fst (deduplicate sc l) in
  ranked out /\ distinct_ids out /\ (forall e, In e out -> In e l) /\
  (forall i, In i (map e_id l) <-> In i (map e_id out)) /\
  (forall e x, In e out -> In x l -> e_id x = e_id e -> e_upd x <= e_upd e /\ (e_upd x = e_upd e -> e_score e <= e_score x)).
Proof.
  destruct (deduplicate sc l) as (out & ch) eqn:E. cbn [fst]. destruct (c02_dedup _ _ _ _ E) as (A & B & C & D & F & _). auto.
Qed.
Lemma nodup_ids_len (l k : list element) : distinct_ids l -> (forall e, In e l -> In e k) -> (length l <= length k)%nat.
Proof. intros Hd Hi. apply NoDup_incl_length; [eapply NoDup_map_inv, Hd|exact Hi]. Qed.

Lemma put_batch_spec v es : let b := put_batch v es in
  batch_of (v_now v) es b /\ (length b <= length es)%nat.
Proof.
  cbv zeta. unfold put_batch. destruct (dedup_spec (v_scd v) (update_time (v_now v) (to_elements es))) as (_ & A & B & C & D).
  set (out := fst _) in *. split; [split; [exact A|split]|].
  - intros x Hx. pose proof (B x Hx) as Hin. apply update_time_In in Hin as (y & Hy & Ey). apply to_elements_In in Hy as (a & Ha & Ea).
    exists a. split; [exact Ha|]. subst y. split; [exact Ey|]. intros a' Ha' Eid.
    assert (Hin' : In (sent (v_now v) a') (update_time (v_now v) (to_elements es))).
    { apply update_time_In. exists (to_elem a'). split; [apply to_elements_In; eauto|reflexivity]. }
    destruct (D x _ Hx Hin') as (_ & H); [subst x; exact Eid|]. subst x. exact (H eq_refl).
  - intros a Ha. apply C. apply in_map_iff. exists (sent (v_now v) a). split; [reflexivity|]. apply update_time_In. exists (to_elem a).
    split; [apply to_elements_In; eauto|reflexivity].
  - assert (length out <= length (update_time (v_now v) (to_elements es)))%nat by (apply nodup_ids_len; assumption).
    unfold update_time in H. rewrite map_length in H. pose proof (to_elements_len es). lia.
Qed.
Lemma create_batch_spec v es : let b := create_batch v es in
  batch_of (v_now v) es b /\ (length b <= length es)%nat.
Proof.
  cbv zeta. unfold create_batch. destruct (dedup_spec (v_scd v) (to_elements es)) as (_ & A & B & C & D).
  set (out := fst _) in *. split; [split; [|split]|].
  - unfold distinct_ids. rewrite update_time_ids. exact A.
  - intros x Hx. apply update_time_In in Hx as (y & Hy & ->). pose proof (B y Hy) as Hin. apply to_elements_In in Hin as (a & Ha & Ea).
    exists a. split; [exact Ha|]. subst y. split; [reflexivity|]. intros a' Ha' Eid.
    destruct (D _ (to_elem a') Hy) as (_ & H); [apply to_elements_In; eauto|exact Eid|]. exact (H eq_refl).
  - intros a Ha. rewrite update_time_ids. apply C. apply in_map_iff. exists (to_elem a). split; [reflexivity|]. apply to_elements_In; eauto.
  - unfold update_time. rewrite map_length. assert (length out <= length (to_elements es))%nat by (apply nodup_ids_len; assumption).
    pose proof (to_elements_len es). lia.
Qed.
Lemma batch_ids now es b v : batch_of now es b -> In v (map e_id b) <-> exists a, In (Some a) es /\ in_id a = v.
Proof.
  intros (_ & A & B). split.
  - intros H. apply in_map_iff in H as (x & <- & Hx). destruct (A x Hx) as (a & Ha & -> & _). exists a. auto.
  - intros (a & Ha & <-). apply B, Ha.
Qed.
Lemma sent_ok now a : elem_sent a -> tick now -> stored (sent now a).
Proof.
  intros (A & B & C) T. split; [|exact T]. unfold elem_ok, sent; cbn. unfold tick, max_u32, max_u64 in *.
  change (2 ^ 64) with 18446744073709551616 in *. change (2 ^ 32) with 4294967296 in *. destruct (in_tie a); repeat split; lia.
Qed.
Lemma batch_stored now es b : batch_of now es b -> elems_sent es -> tick now -> Forall stored b.
Proof.
  intros (_ & A & _) H T. apply Forall_forall. intros x Hx. destruct (A x Hx) as (a & Ha & -> & _). apply sent_ok; auto.
Qed.
Lemma batch_bound now es b : batch_of now es b -> elems_sent es -> Forall (fun v => v < 2 ^ 64) (map e_id b).
Proof.
  intros Hb H. apply Forall_forall. intros v Hv. apply (batch_ids _ _ _ _ Hb) in Hv as (a & Ha & <-). apply (H a Ha).
Qed.
Lemma batch_restamp now seg es b : batch_of now es b -> batch_of seg es (map (restamp seg) b).
Proof.
  intros (A & B & C). split; [|split].
  - unfold distinct_ids. rewrite map_map. exact A.
  - intros x Hx. apply in_map_iff in Hx as (y & <- & Hy). destruct (B y Hy) as (a & Ha & -> & H). exists a. auto.
  - intros a Ha. rewrite map_map. exact (C a Ha).
Qed.
Lemma stamp_set clk e : stored e -> stamp clk e = e.
Proof. intros (_ & T). unfold stamp. destruct (N.eqb_spec (e_upd e) 0) as [E|]; [unfold tick in T; lia|reflexivity]. Qed.
Lemma stamp_set_all clk b : Forall stored b -> map (stamp clk) b = b.
Proof. induction 1 as [|e b H _ IH]; [reflexivity|]. cbn [map]. rewrite IH, stamp_set by exact H. reflexivity. Qed.

(** ** Choosing lists *)
Lemma drop_equal_cons a b r : drop_equal (a :: b :: r) = if beq a b then drop_equal (b :: r) else a :: drop_equal (b :: r).
Proof. reflexivity. Qed.
Lemma drop_equal_In : forall l x, In x (drop_equal l) <-> In x l.
Proof.
  induction l as [|a [|b r] IH]; intros x; try reflexivity. cbn [drop_equal] in *. destruct (beq a b) eqn:E.
  - apply beq_true in E. subst b. rewrite IH. cbn. tauto.
  - cbn [In] in *. rewrite IH. cbn. tauto.
Qed.
Lemma drop_equal_NoDup : forall l, StronglySorted (lep Lists.blt) l -> NoDup (drop_equal l).
Proof.
  induction l as [|a [|b r] IH]; intros H; [constructor|repeat constructor; intros []|]. rewrite drop_equal_cons.
  apply StronglySorted_inv in H as (H & Ha).
  destruct (beq a b) eqn:E; [apply IH; assumption|]. constructor; [|apply IH; assumption].
  rewrite drop_equal_In. rewrite Forall_forall in Ha. intros C.
  apply StronglySorted_inv in H as (_ & Hb). rewrite Forall_forall in Hb. apply beq_neq in E.
  destruct C as [C|C]; [congruence|]. apply E. apply ListsP.blt_total.
  - apply Hb, C.
  - apply (Ha b). left; reflexivity.
Qed.
Lemma dedup_lids_In l x : In x (dedup_lids l) <-> In x l.
Proof. unfold dedup_lids. rewrite drop_equal_In. apply sort_by_In. Qed.
Lemma dedup_lids_NoDup l : NoDup (dedup_lids l).
Proof.
  unfold dedup_lids. apply drop_equal_NoDup, sort_by_sorted.
  - apply ListsP.blt_asym.
  - intros x y z A B. unfold lep in *. eapply ListsP.ble_trans; eauto.
Qed.
Lemma api_ids_In l id : In id (api_ids l) <-> id <> [] /\ exists p, In p l /\ trimmed p id.
Proof.
  unfold api_ids. rewrite dedup_lids_In, filter_In, in_map_iff, negb_true_iff, beq_neq. split.
  - intros ((p & E & Hp) & N). split; [exact N|]. exists p. split; [exact Hp|]. apply trim_spec, E.
  - intros (N & p & Hp & E). split; [|exact N]. exists p. split; [apply trim_spec, E|exact Hp].
Qed.
Lemma enum_In sc d x : In x (enum sc d) <-> exists id e, In (id, e) d /\ x = Lists.Lst id (n_set e) (n_meta e) 0.
Proof.
  unfold enum. rewrite in_map_iff. split.
  - intros ((id & e) & <- & H). apply permute_In in H. exists id, e. auto.
  - intros (id & e & H & ->). exists (id, e). split; [reflexivity|]. apply permute_In, H.
Qed.
Lemma enum_distinct sc d : NoDup (map fst d) -> distinct (enum sc d).
Proof.
  intros H. unfold distinct, enum. rewrite map_map. cbn. eapply Permutation_NoDup; [|exact H]. apply Permutation_map. symmetry. apply permute_perm.
Qed.
Lemma matched_spec sc n d s q id : tracks n d s ->
  In id (Lists.match_all (enum sc d) (q_meta q) (q_sets q)) <-> matching s q id.
Proof.
  intros T. pose proof T as (Hk & _).
  destruct (ListsBack.c31_exact (enum sc d) (q_meta q) (q_sets q) (enum_distinct sc d Hk)) as (H & _).
  { intros l m Hl Em. apply enum_In in Hl as (k & e & Hi & ->). cbn in Em. apply (dget_In d k e Hk) in Hi.
    destruct (tracks_get _ _ _ _ _ T Hi) as (sl & _ & O). pose proof (o_keys _ _ _ O) as K. rewrite <- (o_meta _ _ _ O), Em in K. exact K. }
  rewrite H. unfold matching, described. split.
  - intros (l & Hl & <- & Hs). apply enum_In in Hl as (k & e & Hi & ->). cbn [Lists.lid]. apply (dget_In d k e Hk) in Hi.
    destruct (tracks_get _ _ _ _ _ T Hi) as (sl & E & O). exists sl. split; [exact E|]. rewrite <- (o_set _ _ _ O), <- (o_meta _ _ _ O). exact Hs.
  - intros (sl & E & Hs). pose proof (proj2 T id) as R. rewrite E in R. destruct (dget d id) as [e|] eqn:G; [|contradiction].
    exists (Lists.Lst id (n_set e) (n_meta e) 0). split; [|split; [reflexivity|]].
    + apply enum_In. exists id, e. split; [|reflexivity]. apply dget_In; assumption.
    + rewrite (o_set _ _ _ R), (o_meta _ _ _ R). exact Hs.
Qed.
Lemma select_read_spec sc n d s q : tracks n d s -> lists_of (chosen_read s q) (select_read sc d q).
Proof.
  intros T. unfold select_read. split; [apply dedup_lids_NoDup|]. intros id. rewrite dedup_lids_In, in_app_iff, api_ids_In, (matched_spec _ _ _ _ _ _ T).
  reflexivity.
Qed.
Lemma select_write_spec sc n d s q : tracks n d s -> lists_of (chosen_write s q) (select_write sc d q).
Proof.
  intros T. unfold select_write, chosen_write. split; [apply dedup_lids_NoDup|]. intros id. rewrite dedup_lids_In.
  pose proof (matched_spec sc _ _ _ q id T) as M. destruct (q_meta q) as [|p r].
  - rewrite api_ids_In. unfold named. split; [auto|]. intros [H|(C & _)]; [exact H|congruence].
  - rewrite in_app_iff, api_ids_In, M. unfold named. split; [intros [H|H]; [auto|right; split; [discriminate|exact H]]|].
    intros [H|(_ & H)]; auto.
Qed.
Lemma select_manage_spec sc n d s q : tracks n d s -> lists_of (chosen_manage s q) (select_manage sc d q).
Proof.
  intros T. pose proof (select_write_spec sc _ _ _ q T) as W. unfold select_manage, chosen_manage.
  assert (G : ~ (q_lists q = [] /\ q_meta q = []) -> lists_of (fun id => (q_lists q = [] /\ q_meta q = [] /\ s id <> None) \/
     (~ (q_lists q = [] /\ q_meta q = []) /\ chosen_write s q id)) (select_write sc d q)).
  { intros N. destruct W as (A & B). split; [exact A|]. intros id. rewrite B. tauto. }
  destruct (q_lists q) as [|x l] eqn:E1; [destruct (q_meta q) as [|p r] eqn:E2|]; [|apply G; intros (_ & C); discriminate|apply G; intros (C & _); discriminate].
  pose proof T as (Hk & Hr). split.
  - apply (enum_distinct sc d Hk).
  - intros id. unfold Lists.all_ids. rewrite in_map_iff. split.
    + intros (l & <- & Hl). left. split; [reflexivity|]. split; [reflexivity|]. apply enum_In in Hl as (k & e & Hi & ->). cbn [Lists.lid].
      apply (dget_In d k e Hk) in Hi. destruct (tracks_get _ _ _ _ _ T Hi) as (sl & E & _). congruence.
    + intros [(_ & _ & H)|(C & _)]; [|exfalso; apply C; auto]. specialize (Hr id). destruct (dget d id) as [e|] eqn:G'; [|destruct (s id); [contradiction|congruence]].
      exists (Lists.Lst id (n_set e) (n_meta e) 0). split; [reflexivity|]. apply enum_In. exists id, e. split; [|reflexivity]. apply dget_In; assumption.
Qed.
