(** The handlers of one list (C54). *)
From Coq Require Import Strings.String Strings.Ascii Strings.Byte ZArith.
From Verif.Lib Require Import Prelude ListAux ListLemmas SortLemmas Perm Bytes.
From Verif.Model Require Import Element Elements Segment List Access Api Server.
From Verif.Model Require Lists.
From Verif.Spec Require Import RankSpec QuerySpec HistorySpec AnswerSpec AccessSpec ListsSpec ShownSpec ServerSpec.
From Verif.Proof Require Import BuildInv ElementP ElementsP ElementsThm HistoryP ListThm AnswerP ResultP ApiP AccessP ServerP.
Open Scope N_scope.

(** ** What answers show *)
Lemma shows_full_ok r radius re before : true_rank r re -> true_neighbours r radius re ->
  option_map re_elem (re_before re) = before -> shows_one r radius (re_elem re) before (show_full re).
Proof.
  intros T Hn Hb. pose proof T as (i & Ei & Et & Eb). destruct (Hn i Et) as (Bl & Ab).
  unfold shows_one, show_full. destruct (full re) as (ab, be) eqn:F.
  exists (show re), ab, be, (option_map show (re_before re)), i. split; [reflexivity|]. split; [reflexivity|].
  split; [split; [exact Ei|split; [exact Et|exact Eb]]|].
  assert (Eab : ab = fst (full re)) by (rewrite F; reflexivity). assert (Ebe : be = snd (full re)) by (rewrite F; reflexivity).
  split; [|split; [|split]].
  - rewrite Ebe. unfold full. cbn [snd]. rewrite to_ranked_elems. exact Bl.
  - rewrite Ebe. apply Forall_forall. intros x Hx. apply In_nth_error in Hx as (k & Hk).
    exists (i + 1 + k)%nat. eapply c44_below; eauto.
  - rewrite Eab. unfold full. cbn [fst]. rewrite to_ranked_elems. exact Ab.
  - rewrite <- Hb. destruct (re_before re); reflexivity.
Qed.
Lemma show_ok r re : true_rank r re -> truly_shown r (show re).
Proof. intros (i & A & B & C). exists i. repeat split; assumption. Qed.
Lemma shows_all_ok r ids radius res : exact_lookup r ids radius res -> shows_all r ids (map show res).
Proof.
  intros (A & B & C). split; [|split].
  - rewrite map_map. exact A.
  - apply Forall_forall. intros x Hx. apply in_map_iff in Hx as (re & <- & Hre). rewrite Forall_forall in C. apply show_ok, (C re Hre).
  - intros x. rewrite show_elem. apply B.
Qed.
Lemma NoDup_id_fst {A} (f : A -> N) l x y : NoDup (map f l) -> In x l -> In y l -> f x = f y -> x = y.
Proof.
  induction l as [|z l IH]; cbn [map In]; intros H Hx Hy E; [contradiction|]. inv H.
  destruct Hx as [<-|Hx], Hy as [<-|Hy]; auto.
  - exfalso. apply H2. rewrite E. apply in_map, Hy.
  - exfalso. apply H2. rewrite <- E. apply in_map, Hx.
Qed.

Section L.
  Variables (merge split : nat) (l : lst) (m : smap).
  Hypothesis HR : reachable merge split l m.
  Lemma the_ranking : ranking_of (sin m) (stored_in l).
  Proof. eapply reach_ranking, HR. Qed.
  Lemma lookup_exact v ids radius : Forall (fun x => x < 2 ^ 64) ids -> exact_lookup (stored_in l) ids radius (do_get v l ids radius).
  Proof. intros H. apply (a_get _ _ (reach_answers _ _ _ _ _ HR the_ranking)). apply u64_le, H. Qed.
  Lemma key k x : m k = Some x -> e_id x = k.
  Proof. apply (reach_key _ _ _ _ HR). Qed.
  Lemma stored_in_map x : In x (stored_in l) <-> sin m x.
  Proof. apply the_ranking. Qed.
  (** the lookup of one ID finds the element of the map or nothing *)
  Lemma lookup_one v k radius : k < 2 ^ 64 ->
    match do_get v l [k] radius with
    | [] => m k = None
    | [re] => m k = Some (re_elem re) /\ true_rank (stored_in l) re /\ true_neighbours (stored_in l) radius re /\ re_before re = None
    | _ => False
    end.
  Proof.
    intros Hk. destruct (lookup_exact v [k] radius) as (A & B & C); [repeat constructor; exact Hk|].
    assert (Hid : forall re, In re (do_get v l [k] radius) -> m k = Some (re_elem re)).
    { intros re Hre. destruct (B (re_elem re)) as (B1 & _). destruct B1 as (B1 & B2); [apply in_map, Hre|].
      apply stored_in_map in B1. unfold sin in B1. destruct B2 as [E|[]]. rewrite E. exact B1. }
    destruct (do_get v l [k] radius) as [|re [|re2 rest]] eqn:E.
    - destruct (m k) as [x|] eqn:G; [|reflexivity]. exfalso. apply (B x). pose proof (key _ _ G) as Ek.
      split; [apply stored_in_map; unfold sin; rewrite Ek; exact G|left; symmetry; exact Ek].
    - split; [apply Hid; left; reflexivity|]. inv C. tauto.
    - pose proof (Hid re (or_introl eq_refl)) as H1. pose proof (Hid re2 (or_intror (or_introl eq_refl))) as H2.
      cbn [map] in A. inv A. apply H3. left. congruence.
  Qed.
  (** the lookup of several IDs finds nothing iff none is there *)
  Lemma lookup_none v ids : Forall (fun x => x < 2 ^ 64) ids ->
    do_get v l ids 0 = [] <-> forall k, In k ids -> m k = None.
  Proof.
    intros Hb. destruct (lookup_exact v ids 0 Hb) as (A & B & C). split.
    - intros E k Hk. destruct (m k) as [x|] eqn:G; [|reflexivity]. exfalso. rewrite E in B. apply (B x). pose proof (key _ _ G) as Ek.
      split; [apply stored_in_map; unfold sin; rewrite Ek; exact G|rewrite Ek; exact Hk].
    - intros H. destruct (do_get v l ids 0) as [|re rest] eqn:E; [reflexivity|]. exfalso.
      destruct (B (re_elem re)) as (B1 & _). destruct B1 as (B1 & B2); [left; reflexivity|].
      apply stored_in_map in B1. unfold sin in B1. rewrite (H _ B2) in B1. discriminate.
  Qed.
End L.

Lemma skipn_at {A} n : forall (l : list A) y, nth_error l n = Some y -> exists t, skipn n l = y :: t.
Proof.
  induction n as [|n IH]; intros [|x l] y; cbn [nth_error skipn]; try discriminate; [intros E; injection E as ->; eauto|apply IH].
Qed.
Lemma shown_ends id e sl ends n : one n e sl -> with_ranking (s_map sl) (fun r => describes id sl r ends (list_info id e ends)).
Proof.
  intros O. pose proof (o_reach _ _ _ O) as HR. pose proof (the_ranking _ _ _ _ HR) as Hr.
  exists (stored_in (n_list e)). split; [exact Hr|].
  pose proof (reach_answers _ _ _ _ _ HR Hr) as A. destruct (reach_inv _ _ _ _ HR) as (_ & HM & HS).
  set (r := stored_in (n_list e)) in *. unfold describes, list_info.
  rewrite (a_len _ _ A), (a_top _ _ A), (a_bottom _ _ A), HM, HS, (o_set _ _ _ O), (o_meta _ _ _ O), (o_load _ _ _ O).
  eexists _, _. split; [reflexivity|]. destruct ends; [|auto].
  destruct r as [|x r0] eqn:Er; [cbn; reflexivity|].
  replace (Nat.ltb 0 (length (x :: r0))) with true by reflexivity. cbn [skipn firstn].
  replace (length (x :: r0) - 1 - 0)%nat with (length r0) by (cbn; lia).
  assert (L : exists y, nth_error (x :: r0) (length r0) = Some y).
  { destruct (nth_error (x :: r0) (length r0)) eqn:E; [eauto|]. apply nth_error_None in E. cbn in E. lia. }
  destruct L as (y & Hy).
  assert (S : exists t, skipn (length r0) (x :: r0) = y :: t).
  { apply skipn_at, Hy. }
  destruct S as (t & ->). cbn [firstn]. split; (split; [|split]); cbn [sh_elem sh_top sh_bottom].
  - reflexivity.
  - reflexivity.
  - cbn [length]. lia.
  - cbn [length]. rewrite Nat.sub_succ, Nat.sub_0_r. exact Hy.
  - cbn [length]. lia.
  - cbn [length]. lia.
Qed.

(** ** Changing one list *)
Lemma one_len_ex n e sl : one n e sl -> exists r, ranking_of (sin (s_map sl)) r.
Proof. intros O. eexists. eapply the_ranking, (o_reach _ _ _ O). Qed.
Lemma one_step n n' e sl l' m' : one n e sl -> reachable (s_merge sl) (s_split sl) l' m' ->
  (forall r, ranking_of (sin m') r -> (length r <= n')%nat) -> one n' (with_list e l') (with_map sl m').
Proof. intros O HR Hl. destruct O. constructor; auto. Qed.
Lemma with_map_same sl : with_map sl (s_map sl) = sl.
Proof. destruct sl; reflexivity. Qed.
Lemma one_same n e sl l' : one n e sl -> reachable (s_merge sl) (s_split sl) l' (s_map sl) -> one n (with_list e l') sl.
Proof. intros O HR. destruct O. constructor; auto. Qed.

Lemma one_update n e sl v b : one n e sl -> env_ok v -> distinct_ids b -> Forall stored b ->
  op_ok (s_merge sl) (s_split sl) (s_map sl) (OUpdate (fun _ => v_seg v) (fun _ => v_seg v) (v_seg v) (v_sc v) b) /\
  one (n + length b) (with_list e (do_update v b (n_list e))) (with_map sl (sputs (s_map sl) b)).
Proof.
  intros O (_ & T & _) Hd Hs.
  assert (Hok : op_ok (s_merge sl) (s_split sl) (s_map sl) (OUpdate (fun _ => v_seg v) (fun _ => v_seg v) (v_seg v) (v_sc v) b)).
  { cbn. split; [exact Hd|]. split; [eapply Forall_impl; [|exact Hs]; intros x (A & B); split; [exact A|apply B]|]. auto. }
  split; [exact Hok|]. eapply one_step; [exact O| |].
  - pose proof (R_step _ _ _ _ _ _ (o_reach _ _ _ O) Hok eq_refl) as H. cbn [spec_step] in H. rewrite stamp_set_all in H by exact Hs. exact H.
  - apply puts_len; [exact Hd|apply (o_len _ _ _ O)|eapply one_len_ex, O].
Qed.
Lemma one_insert n e sl v b : one n e sl -> env_ok v -> distinct_ids b -> Forall stored b ->
  (forall x, In x b -> s_map sl (e_id x) = None) ->
  exists l', insert (v_seg v) (v_sch v) b (n_list e) = Done l' /\
    one (n + length b) (with_list e l') (with_map sl (sputs (s_map sl) b)).
Proof.
  intros O (_ & T & _) Hd Hs Hn. pose proof (o_sizes _ _ _ O) as (_ & S10).
  destruct (c21_insert _ _ _ _ (v_seg v) (v_sch v) b (o_reach _ _ _ O) Hd Hs Hn T ltac:(lia)) as (l' & E & HR & _).
  exists l'. split; [exact E|]. eapply one_step; [exact O|exact HR|].
  apply puts_len; [exact Hd|apply (o_len _ _ _ O)|eapply one_len_ex, O].
Qed.
Lemma one_delete n e sl v ids : one n e sl -> env_ok v -> Forall (fun x => x < 2 ^ 64) ids ->
  one n (with_list e (do_delete v ids (n_list e))) (with_map sl (sdel (s_map sl) ids)).
Proof.
  intros O (_ & T & _) Hb. eapply one_step; [exact O| |].
  - apply (c20_delete _ _ _ _ _ (v_seg v) (v_sc1 v) (v_sc2 v) ids (o_reach _ _ _ O) (the_ranking _ _ _ _ (o_reach _ _ _ O)) (u64_le _ Hb) T).
  - apply del_len; [apply (o_len _ _ _ O)|eapply one_len_ex, O].
Qed.
Lemma one_sized n e sl : one n e sl -> N.of_nat n < max_u32 -> sized (s_map sl) (fun k => N.of_nat k < max_u32).
Proof. intros O H r Hr. pose proof (o_len _ _ _ O r Hr). lia. Qed.
Lemma one_reindex n e sl v : one n e sl -> env_ok v -> N.of_nat n < max_u32 ->
  exists l', reindex_list (v_ni v) (v_seg v) (v_sc v) (n_list e) = Done l' /\ one n (with_list e l') sl.
Proof.
  intros O (_ & T & _ & Hni) Hn. pose proof (o_sizes _ _ _ O) as (S1 & S2). destruct (reach_inv _ _ _ _ (o_reach _ _ _ O)) as (_ & HM & HS).
  destruct (c18_reindex _ _ _ _ (v_ni v) (v_seg v) (v_sc v) (n_list e) (o_reach _ _ _ O)) as (l' & E & HR & _); auto.
  { cbn. split; [exact Hni|]. split; [exact T|]. split; [lia|eapply one_sized; eauto]. }
  exists l'. split; [exact E|]. eapply one_same; eauto.
Qed.
Lemma big_sizes merge split want k : (10 <= merge -> 10 <= split -> build_sizes merge split want k)%nat.
Proof. intros A B. unfold build_sizes. split; [lia|]. intros _. lia. Qed.
Lemma one_repair n e sl v : one n e sl -> env_ok v -> N.of_nat n < max_u32 ->
  exists l', do_repair v (n_list e) = Done l' /\ one n (with_list e l') sl.
Proof.
  intros O (_ & T & Hns & Hni) Hn. pose proof (o_sizes _ _ _ O) as (S1 & S2).
  assert (Hok : op_ok (s_merge sl) (s_split sl) (s_map sl) (ORepair (v_ns v) (v_ni v) (v_seg v) (v_scds v) (v_scd v) (v_sc v) (v_sch v) (v_want v))).
  { cbn. split; [exact Hns|]. split; [exact Hni|]. split; [exact T|]. intros r Hr. split; [pose proof (o_len _ _ _ O r Hr); lia|apply big_sizes; assumption]. }
  destruct (c06_step _ _ _ _ _ (o_reach _ _ _ O) Hok) as [(l' & E & HR & _)|(_ & (mg & k & C) & _)]; [|discriminate].
  exists l'. split; [exact E|]. eapply one_same; eauto.
Qed.
Lemma one_new n v set m load merge split b : env_ok v -> set <> [] -> (merge < split)%nat -> sizes_sent merge split -> meta_sent m ->
  distinct_ids b -> Forall elem_ok b -> (length b <= n)%nat -> N.of_nat n < max_u32 ->
  exists l, new_list merge split (v_ns v) (v_ni v) (v_seg v) (v_sc v) (v_sch v) (v_want v) b = Done l /\
    one n (Entry set m load l) (SL set m load merge split (sputs sempty (map (restamp (v_seg v)) b))).
Proof.
  intros (_ & T & Hns & Hni) Hset Hms (S1 & S2) Hm Hd Ho Hl Hn.
  destruct (c22_new merge split (v_ns v) (v_ni v) (v_seg v) (v_sc v) (v_sch v) (v_want v) b) as (l & E & _); auto; [apply big_sizes; assumption|lia|].
  exists l. split; [exact E|]. constructor; auto; cbn [s_merge s_split s_map s_meta].
  - apply (R_new merge split (v_ns v) (v_ni v) (v_seg v) (v_sc v) (v_sch v) (v_want v) b l); auto; [apply big_sizes; assumption|lia].
  - intros r Hr. apply new_len in Hr; [rewrite map_length in Hr; lia|]. unfold distinct_ids. rewrite map_map. exact Hd.
Qed.
Lemma one_clone n e sl v set m load merge split : one n e sl -> env_ok v -> set <> [] -> (merge < split)%nat -> sizes_sent merge split -> meta_sent m ->
  N.of_nat n < max_u32 ->
  exists l, clone_elements merge split (v_ns v) (v_ni v) (v_seg v) (n_list e) = Done l /\
    one n (Entry set m load l) (SL set m load merge split (s_map sl)).
Proof.
  intros O (_ & T & Hns & Hni) Hset Hms (S1 & S2) Hm Hn.
  destruct (c22_clone _ _ _ _ merge split (v_ns v) (v_ni v) (v_seg v) (o_reach _ _ _ O)) as (l & E & HR & _); auto; [lia|eapply one_sized; eauto|].
  exists l. split; [exact E|]. constructor; auto. apply (o_len _ _ _ O).
Qed.
