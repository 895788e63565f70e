(** What callers see of lists over one store and cache. *)
From Coq Require Import Strings.String Strings.Ascii.
From Verif.Lib Require Import Prelude ListAux ListLemmas Perm Bytes.
From Verif.Model Require Import Element Elements Segment List Msgp Codec Keys Storage.
From Verif.Spec Require Import RankSpec QuerySpec HistorySpec AnswerSpec KeySpec CodecSpec StorageSpec.
From Verif.Proof Require Import InvDef KeysP SplitP HistoryP BuildInv ListThm StoreP StoreOps StoreBuild StoreWorld StoreThm.
Open Scope N_scope.

Lemma Forall2_nth {A B} (R : A -> B -> Prop) l m : Forall2 R l m -> forall i d, nth_error l i = Some d -> exists y, nth_error m i = Some y /\ R d y.
Proof.
  induction 1 as [|x y l m H _ IH]; intros [|i] d E; try discriminate; cbn in *.
  - injection E as <-. eauto.
  - apply IH, E.
Qed.

Lemma c27_current cfg w ms i d : runs cfg w ms -> nth_error (w_ls w) i = Some d ->
  exists g s m l, nth_error ms i = Some (g, s, m) /\ Storage.view (w_st w) (w_c w) d = Some l /\ reachable g s l m /\
    forall r, ranking_of (sin m) r -> answers l r.
Proof.
  intros HR E. destruct (runs_winv _ _ _ HR) as (ys & <- & (A & B & C)).
  destruct (Forall2_nth _ _ _ A i d E) as ((l & ((g & s) & m)) & Ey & (H1 & H2 & H3)).
  exists g, s, m, l. split; [apply (map_snd_nth ys i (l, (g, s, m)) Ey)|].
  assert (Hf : fit_entry (g, s, m)).
  { rewrite Forall_forall in C. apply C. apply nth_error_In in Ey. apply (in_map snd) in Ey. exact Ey. }
  split; [eapply ok_view; [exact Hf|exact H1|exact H2|exact H3]|]. split; [exact H1|].
  intros r Hr. eapply reach_answers; [exact H1|exact Hr].
Qed.

Lemma all_some_nth {A B} (f : A -> option B) : forall l l', all_some (map f l) = Some l' -> forall i d, nth_error l i = Some d ->
  exists d', f d = Some d' /\ nth_error l' i = Some d'.
Proof.
  induction l as [|x l IH]; intros l' E i d Ei; [destruct i; discriminate|].
  cbn [map all_some] in E. destruct (f x) as [y|] eqn:Ex; [|discriminate].
  destruct (all_some (map f l)) as [r|] eqn:Er; [|discriminate]. injection E as <-.
  destruct i as [|i]; cbn in *; [injection Ei as <-; eauto|]. apply (IH r eq_refl i d Ei).
Qed.

Lemma c27_restart cfg w ms cfg' : runs cfg w ms ->
  exists w', restart cfg' w = Some w' /\ runs cfg' w' ms /\ length (w_ls w') = length (w_ls w) /\
  forall i d d', nth_error (w_ls w) i = Some d -> nth_error (w_ls w') i = Some d' ->
  exists l l', Storage.view (w_st w) (w_c w) d = Some l /\ Storage.view (w_st w') (w_c w') d' = Some l' /\
    stored_in l' = stored_in l /\ indexed_in l' = indexed_in l /\
    l_merge l' = l_merge l /\ l_split l' = l_split l /\ names l' = names l.
Proof.
  intros HR. destruct (runs_winv _ _ _ HR) as (ys & <- & HW). destruct (winv_restart _ cfg' _ _ HW) as (w' & E & HW').
  exists w'. split; [exact E|]. split; [eapply W_restart; eauto|]. destruct HW as (A & B & C). destruct HW' as (A' & B' & C').
  assert (L1 := A). apply Forall2_length in L1. assert (L2 := A'). apply Forall2_length in L2. rewrite map_length in L2. split; [congruence|].
  intros i d d' Ei Ei'.
  destruct (Forall2_nth _ _ _ A i d Ei) as ((l & x) & Ey & (H1 & H2 & H3)).
  destruct (Forall2_nth _ _ _ A' i d' Ei') as ((l' & x') & Ey' & (H1' & H2' & H3')).
  rewrite (map_nth_error reloaded _ _ Ey) in Ey'. injection Ey' as <- <-.
  assert (Hf : fit_entry x). { rewrite Forall_forall in C. apply C. apply nth_error_In in Ey. apply (in_map snd) in Ey. exact Ey. }
  exists l, (reload l). split; [eapply ok_view; eauto|]. split; [eapply ok_view; eauto|]. repeat split; reflexivity.
Qed.

(** an allowed call succeeds; only a pass that would need more than 2^32 segment IDs does not *)
Lemma c27_progress cfg w ms i o ord d : runs cfg w ms -> nth_error (w_ls w) i = Some d -> act_ok w ms (AOp i o ord) ->
  exists l, Storage.view (w_st w) (w_c w) d = Some l /\ (step l o = Exhausted \/ exists w', act_on cfg w (AOp i o ord) = Some w').
Proof.
  intros HR E (Hok & _). destruct (runs_winv _ _ _ HR) as (ys & <- & (A & B & C)).
  destruct (Forall2_nth _ _ _ A i d E) as ((l & ((g & s) & m)) & Ey & (H1 & H2 & H3)).
  specialize (Hok g s m (map_snd_nth ys i (l, (g, s, m)) Ey)).
  assert (Hf : fit_entry (g, s, m)). { rewrite Forall_forall in C. apply C. apply nth_error_In in Ey. apply (in_map snd) in Ey. exact Ey. }
  pose proof (ok_view _ _ _ _ (g, s, m) _ Hf H1 H2 H3) as HV. exists l. split; [exact HV|].
  destruct (step_ok g s l m o (reach_inv _ _ _ _ H1) Hok) as [X|(l' & X & _)]; [auto|]. right.
  cbn [act_on]. rewrite E. unfold run_op. rewrite HV, X, (ok_reopen _ _ _ _ (g, s, m) _ Hf H1 H2 H3).
  destruct (op_flags cfg (d_hs d) (d_hi d) l o). destruct o; eexists; reflexivity.
Qed.

(** a call on one list leaves the others *)
Lemma del_nth_lt {A} : forall (l : list A) i j, (j < i)%nat -> nth_error (del_nth i l) j = nth_error l j.
Proof. induction l as [|x l IH]; intros [|i] [|j] H; cbn; try reflexivity; try lia. apply IH. lia. Qed.
Lemma del_nth_gt {A} : forall (l : list A) i j, (i <= j)%nat -> nth_error (del_nth i l) j = nth_error l (S j).
Proof.
  induction l as [|x l IH]; intros [|i] [|j] H; try lia; try reflexivity. cbn [del_nth]. cbn [nth_error]. rewrite IH by lia. reflexivity.
Qed.
Lemma upd_nth_ne {A} (f : A -> A) : forall (l : list A) i j, i <> j -> nth_error (upd_nth i f l) j = nth_error l j.
Proof. induction l as [|x l IH]; intros [|i] [|j] H; cbn; try reflexivity; try lia. apply IH. lia. Qed.

Lemma stays_keeps {A} (a : act) j j' (l l' : list A) : stays a j = Some j' ->
  match a with
  | ANew _ _ _ _ _ _ _ _ _ _ | AClone _ _ _ _ _ _ => exists y, l' = l ++ [y]
  | AOp i _ _ => exists y, l' = upd_nth i (fun _ => y) l
  | ARemove i _ => l' = del_nth i l
  | AEvict _ | AFill _ _ _ => l' = l
  end -> forall d, nth_error l j = Some d -> nth_error l' j' = Some d.
Proof.
  intros Hm H d E. destruct a as [merge split ns ni now sc sch want e ord|i merge split ns ni now|i o ord|i ord|keep|i isidx k]; cbn [stays] in Hm.
  - injection Hm as <-. destruct H as (y & ->). rewrite nth_error_app1; [exact E|]. apply nth_error_Some. congruence.
  - injection Hm as <-. destruct H as (y & ->). rewrite nth_error_app1; [exact E|]. apply nth_error_Some. congruence.
  - destruct (Nat.eqb_spec i j) as [|Hn]; [discriminate|]. injection Hm as <-. destruct H as (y & ->). rewrite upd_nth_ne; assumption.
  - subst l'. destruct (Nat.ltb_spec j i); [injection Hm as <-; rewrite del_nth_lt; assumption|].
    destruct (Nat.eqb_spec j i); [discriminate|]. injection Hm as <-. destruct j as [|j]; [lia|].
    rewrite del_nth_gt by lia. replace (S (S j - 1)) with (S j) by lia. exact E.
  - injection Hm as <-. subst. exact E.
  - injection Hm as <-. subst. exact E.
Qed.
Lemma act_lists cfg w a w' : act_on cfg w a = Some w' ->
  match a with
  | ANew _ _ _ _ _ _ _ _ _ _ | AClone _ _ _ _ _ _ => exists y, w_ls w' = w_ls w ++ [y]
  | AOp i _ _ => exists y, w_ls w' = upd_nth i (fun _ => y) (w_ls w)
  | ARemove i _ => w_ls w' = del_nth i (w_ls w)
  | AEvict _ | AFill _ _ _ => w_ls w' = w_ls w
  end.
Proof.
  intros E. destruct a as [merge split ns ni now sc sch want e ord|i merge split ns ni now|i o ord|i ord|keep|i isidx j]; cbn [act_on] in E.
  - destruct (new_list merge split ns ni now sc sch want e); try discriminate. injection E as <-. eexists. reflexivity.
  - destruct (nth_error (w_ls w) i); [|discriminate]. destruct (Storage.view _ _ _); [|discriminate].
    destruct (clone_elements _ _ _ _ _ _); try discriminate. injection E as <-. eexists. reflexivity.
  - destruct (nth_error (w_ls w) i); [|discriminate]. destruct (run_op _ _ _ _ _ _) as [((st' & c') & d')|]; [|discriminate].
    injection E as <-. eexists. reflexivity.
  - destruct (nth_error (w_ls w) i); [|discriminate]. injection E as <-. reflexivity.
  - injection E as <-. reflexivity.
  - destruct (nth_error (w_ls w) i); [|discriminate]. destruct (nth_error _ j); [|discriminate].
    destruct (if isidx then _ else _); [|injection E as <-; reflexivity]. destruct (read_elems _ _ _ _); [|discriminate]. injection E as <-. reflexivity.
Qed.

Lemma c28_others cfg w ms a w' j j' d : runs cfg w ms -> act_ok w ms a -> act_on cfg w a = Some w' ->
  Forall (fun x => map_fits (snd x)) (act_spec ms a) -> stays a j = Some j' -> nth_error (w_ls w) j = Some d ->
  nth_error (w_ls w') j' = Some d /\
  (exists l, Storage.view (w_st w) (w_c w) d = Some l /\ Storage.view (w_st w') (w_c w') d = Some l) /\
  forall cfg', exists d', reopen cfg' (w_st w) d = Some d' /\ reopen cfg' (w_st w') d = Some d'.
Proof.
  intros HR Hok E HF Hm Ej. destruct (runs_winv _ _ _ HR) as (ys & <- & HW).
  pose proof HW as (A & B & C). destruct (upd_ok _ _ _ _ _ HW Hok E HF) as (ys' & es & (A' & B' & C') & _ & Hrel & _).
  pose proof (stays_keeps a j j' _ _ Hm (act_lists _ _ _ _ E) d Ej) as Ej'. split; [exact Ej'|].
  destruct (Forall2_nth _ _ _ A j d Ej) as ((l & x) & Ey & (H1 & H2 & H3)).
  pose proof (stays_keeps a j j' _ _ Hm Hrel (l, x) Ey) as Ey'.
  destruct (Forall2_nth _ _ _ A' j' d Ej') as ((l2 & x2) & Ey2 & (H1' & H2' & H3')). rewrite Ey' in Ey2. injection Ey2 as <- <-.
  assert (Hf : fit_entry x). { rewrite Forall_forall in C. apply C. apply nth_error_In in Ey. apply (in_map snd) in Ey. exact Ey. }
  split; [exists l; split; eapply ok_view; eauto|].
  intros cfg'. destruct (bare_eq_fields _ _ H2) as (E1 & E2 & E3 & _). unfold names in E3. injection E3 as E3 E4.
  assert (Hfl : fits l) by (eapply inv_fits; [eapply reach_Inv, H1|apply H3|exact Hf]).
  exists (mkLd (bare (reload l)) cfg' cfg'). unfold reopen. rewrite E1, E2, E3, E4, (load_rep _ _ _ _ _ _ H3 Hfl), (load_rep _ _ _ _ _ _ H3' Hfl). auto.
Qed.

Lemma ev_store_key e st k : (forall n, n = ev_name e -> ~ key_in n k) -> ev_store e st k = st k.
Proof.
  intros H. destruct e as [b s|b s|s|m]; cbn [ev_store ev_name] in *; apply put_other; intros ->; apply (H _ eq_refl); unfold key_in, key_of; eauto.
Qed.
Lemma evs_store_key ns k : (forall n, In n ns -> ~ key_in n k) -> forall es st, within es ns -> evs_store es st k = st k.
Proof.
  intros Hk. induction es as [|e es IH]; intros st W; [reflexivity|]. rewrite evs_store_cons, IH by (intros x Hx; apply W; right; exact Hx).
  apply ev_store_key. intros n ->. apply Hk, W. left. reflexivity.
Qed.
Lemma c28_keys cfg w ms a w' k : runs cfg w ms -> act_ok w ms a -> act_on cfg w a = Some w' ->
  Forall (fun x => map_fits (snd x)) (act_spec ms a) ->
  (forall n, In n (own w a) -> ~ key_in n k) -> w_st w' k = w_st w k.
Proof.
  intros HR Hok E HF Hk. destruct (runs_winv _ _ _ HR) as (ys & <- & HW).
  destruct (upd_ok _ _ _ _ _ HW Hok E HF) as (ys' & es & _ & _ & _ & -> & W & _). eapply evs_store_key; eauto.
Qed.
Lemma c28_names cfg w ms : runs cfg w ms -> NoDup (taken w) /\ Forall plain (taken w).
Proof.
  intros HR. destruct (runs_winv _ _ _ HR) as (ys & _ & (A & B & _)). split; [exact B|]. clear HR B. unfold taken.
  induction A as [|d (l & x) ls ys (_ & H2 & H3) _ IH]; [constructor|]. cbn [flat_map]. apply Forall_app. split; [|exact IH].
  destruct (bare_eq_fields _ _ H2) as (_ & _ & -> & _). apply names_plain2, H3.
Qed.

(** a call that takes no new names leaves old descriptors good *)
Lemma act_one cfg w i o ord w' d : act_on cfg w (AOp i o ord) = Some w' -> nth_error (w_ls w) i = Some d -> exists d', nth_error (w_ls w') i = Some d'.
Proof.
  intros E Ei. destruct (act_lists _ _ _ _ E) as (y & ->). exists y. apply nth_split_eq in Ei as (a & b & -> & <-). rewrite upd_nth_mid. apply nth_mid.
Qed.
Lemma c27_descriptor cfg w ms i o ord w' d cfg' : runs cfg w ms -> act_ok w ms (AOp i o ord) -> act_on cfg w (AOp i o ord) = Some w' ->
  Forall (fun x => map_fits (snd x)) (act_spec ms (AOp i o ord)) -> nth_error (w_ls w) i = Some d ->
  match o with OReindex _ _ _ | ORepair _ _ _ _ _ _ _ _ | OPopulate _ _ _ _ _ _ _ => False | _ => True end ->
  exists d1 l1 d2 l2, nth_error (w_ls w') i = Some d1 /\ Storage.view (w_st w') (w_c w') d1 = Some l1 /\
    reopen cfg' (w_st w') d = Some d2 /\ Storage.view (w_st w') (fun _ => None) d2 = Some l2 /\
    stored_in l2 = stored_in l1 /\ indexed_in l2 = indexed_in l1.
Proof.
  intros HR Hok E HF Ei Ho. destruct (runs_winv _ _ _ HR) as (ys & <- & HW).
  pose proof HW as (A & B & C). destruct (upd_ok _ _ _ _ _ HW Hok E HF) as (ys' & es & (A' & B' & C') & Hsp & Hrel & _ & _ & Hn & _).
  destruct (act_one _ _ _ _ _ _ _ E Ei) as (d1 & Ei1).
  assert (Hnn : new_names o = []) by (destruct o; try contradiction; reflexivity). specialize (Hn Hnn).
  assert (En : names (d_l d) = names (d_l d1)).
  { apply (f_equal (fun z => nth_error z i)) in Hn. rewrite (map_nth_error _ _ _ Ei), (map_nth_error _ _ _ Ei1) in Hn. congruence. }
  destruct (Forall2_nth _ _ _ A i d Ei) as ((l & ((g & s) & m)) & Ey & (H1 & H2 & H3)).
  destruct (Forall2_nth _ _ _ A' i d1 Ei1) as ((l1 & ((g1 & s1) & mm1)) & Ey1 & (H1' & H2' & H3')). cbn [fst snd] in *.
  assert (Es : g1 = g /\ s1 = s).
  { apply (map_nth_error snd) in Ey1. rewrite Hsp in Ey1. cbn [act_spec] in Ey1. apply (map_nth_error snd) in Ey. cbn [snd] in *.
    apply nth_split_eq in Ey as (a & b & Ea & La). rewrite Ea, <- La, upd_nth_mid in Ey1. rewrite nth_mid in Ey1. injection Ey1 as <- <- _. auto. }
  destruct Es as (-> & ->).
  assert (Hf : fit_entry (g, s, mm1)). { rewrite Forall_forall in C'. apply C'. apply nth_error_In in Ey1. apply (in_map snd) in Ey1. exact Ey1. }
  destruct (reach_inv _ _ _ _ H1) as (_ & Z1 & Z2). destruct (reach_inv _ _ _ _ H1') as (_ & Z1' & Z2').
  destruct (bare_eq_fields _ _ H2) as (E1 & E2 & _). destruct (bare_eq_fields _ _ H2') as (E1' & E2' & _).
  destruct (reloaded_ok cfg cfg' _ _ d1 (l1, (g, s, mm1)) Hf (conj H1' (conj H2' H3'))) as (d2 & X & Y & _).
  destruct Y as (Y1 & Y2 & Y3).
  exists d1, l1, d2, (reload l1). split; [exact Ei1|]. split; [eapply (ok_view cfg _ _ d1 (g, s, mm1)); eauto|].
  split; [|split; [eapply (ok_view cfg' _ _ d2 (g, s, mm1)); eauto|split; reflexivity]].
  rewrite <- X. unfold reopen. unfold names in En. injection En as -> ->. rewrite E1, E2, E1', E2', Z1, Z2, Z1', Z2'. reflexivity.
Qed.
