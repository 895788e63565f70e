(** Every reachable list satisfies the invariant; no allowed call panics or hangs. *)
From Coq Require Import Strings.String.
From Verif.Lib Require Import Prelude ListAux ListLemmas SortLemmas Perm.
From Verif.Model Require Import Element Elements Segment List.
From Verif.Spec Require Import RankSpec QuerySpec HistorySpec.
From Verif.Proof Require Import ElementP ElementsP ElementsThm SegP InvDef QueryP LookupP ChangeP UpdateP UpdateInv
  DeleteP InsertP BuildP BuildInv RepairP SplitP IdxUpdP SplitInv.
Open Scope N_scope.

Lemma sputs_other : forall l m k, ~ In k (map e_id l) -> sputs m l k = m k.
Proof.
  induction l as [|x r IH]; intros m k H; [reflexivity|]. change (sputs m (x :: r)) with (sputs (sput m x) r).
  rewrite IH by (cbn in H; tauto). unfold sput. cbn in H. destruct (N.eqb_spec k (e_id x)); [exfalso; auto|reflexivity].
Qed.
Lemma sputs_in : forall l m x, distinct_ids l -> In x l -> sputs m l (e_id x) = Some x.
Proof.
  induction l as [|y r IH]; intros m x Hd Hx; [contradiction|]. change (sputs m (y :: r)) with (sputs (sput m y) r).
  unfold distinct_ids in Hd. cbn in Hd. apply NoDup_cons_iff in Hd as (H1 & H2). destruct Hx as [->|Hx].
  - rewrite sputs_other by exact H1. unfold sput. rewrite N.eqb_refl. reflexivity.
  - apply IH; assumption.
Qed.
Lemma sin_sputs m l x : distinct_ids l -> sin (sputs m l) x <-> In x l \/ (sin m x /\ ~ In (e_id x) (map e_id l)).
Proof.
  intros Hd. unfold sin. destruct (in_dec N.eq_dec (e_id x) (map e_id l)) as [Hi|Hn].
  - apply in_map_iff in Hi as (y & Ey & Hy). rewrite <- Ey, (sputs_in l m y Hd Hy). split.
    + intros E. injection E as ->. auto.
    + intros [Hx|(_ & C)]; [|exfalso; apply C; apply in_map; exact Hy].
      f_equal. unfold distinct_ids in Hd. clear - Hd Hy Hx Ey. induction l as [|z r IH]; [contradiction|].
      cbn in Hd. apply NoDup_cons_iff in Hd as (N1 & N2). destruct Hy as [->|Hy], Hx as [->|Hx]; auto.
      * exfalso. apply N1. rewrite Ey. apply in_map. exact Hx.
      * exfalso. apply N1. rewrite <- Ey. apply in_map. exact Hy.
  - rewrite sputs_other by exact Hn. split; [auto|]. intros [Hx|(H & _)]; [|exact H].
    exfalso. apply Hn. apply in_map. exact Hx.
Qed.
Lemma sin_sempty x : sin sempty x <-> False.
Proof. unfold sin, sempty. split; [discriminate|contradiction]. Qed.
Lemma sin_sdel m ids x : sin (sdel m ids) x <-> sin m x /\ ~ In (e_id x) ids.
Proof.
  unfold sin, sdel. destruct (existsb (N.eqb (e_id x)) ids) eqn:E.
  - apply existsb_exists in E as (k & Hk & Ek). apply N.eqb_eq in Ek. subst k. split; [discriminate|tauto].
  - split; [|tauto]. intros H. split; [exact H|]. intros C.
    assert (existsb (N.eqb (e_id x)) ids = true) by (apply existsb_exists; exists (e_id x); rewrite N.eqb_refl; auto). congruence.
Qed.

Lemma stamp_new_of clk e : stamp clk e = new_of clk e.
Proof. reflexivity. Qed.
Lemma stamp_ids clk l : map e_id (map (stamp clk) l) = map e_id l.
Proof. rewrite map_map. apply map_ext. intros x. rewrite stamp_new_of. apply with_time_id. Qed.
Lemma restamp_eq now e : map (restamp now) e = update_time now e.
Proof. reflexivity. Qed.
Lemma build_sizes_safe m s w n : build_sizes m s w n -> size_safe m s w n.
Proof. intros H. exact H. Qed.
Lemma stored_good e : Forall stored e -> Forall good e.
Proof. intros H. exact H. Qed.

Lemma update_sizes clk clki now sc e l :
  l_merge (update_elements clk clki now sc e l) = l_merge l /\ l_split (update_elements clk clki now sc e l) = l_split l.
Proof. unfold update_elements. destruct (update_core clk clki sc e l) as ((ss & is) & (ts & ti)). split; reflexivity. Qed.
Lemma delete_sizes now sc1 sc2 ids l :
  l_merge (delete_elements now sc1 sc2 ids l) = l_merge l /\ l_split (delete_elements now sc1 sc2 ids l) = l_split l.
Proof.
  unfold delete_elements. destruct (delete_elements_idx now sc2 (l_scores l) (get_index_elements sc1 l ids)) as (s' & d).
  destruct d; split; reflexivity.
Qed.

Definition at_map (merge split : nat) (l : lst) (m : smap) : Prop :=
  Inv (sin m) l /\ l_merge l = merge /\ l_split l = split.

Lemma step_ok merge split l m o : at_map merge split l m -> op_ok merge split m o ->
  step l o = Exhausted \/ exists l', step l o = Done l' /\ at_map merge split l' (spec_step m o).
Proof.
  intros (HI & HM & HS) Hok. unfold at_map. destruct o as [clk clki now sc e|now sch e|now sc1 sc2 ids|mg now|ni now sc|ns ni now scd sca sc sch want|ns ni now sc sch want e|];
    cbn [op_ok step spec_step] in *.
  - right. destruct Hok as (Hd & Hg & Hc & Hci & Hnow). eexists. split; [reflexivity|].
    destruct (update_sizes clk clki now sc e l) as (-> & ->). split; [|auto].
    eapply Inv_ext; [|apply (update_inv (sin m)); [exact HI|split; [exact Hd|exact Hg]|exact Hc|exact Hci|apply Hnow]].
    intros x. cbn beta. rewrite sin_sputs by (unfold distinct_ids; rewrite stamp_ids; exact Hd).
    rewrite (in_map_iff (stamp clk)), stamp_ids. split; (intros [(y & A & B)|H]; [left; exists y; auto|auto]).
  - right. destruct Hok as (Hd & Hg & Hn & Hnow & H4). rewrite <- HS in H4.
    destruct (insert_inv (sin m) l now sch e HI Hd Hg) as (l' & E & HI'); auto.
    { intros x y Hx Hy C. specialize (Hn x Hx). unfold sin in Hy. rewrite <- C in Hy. congruence. }
    exists l'. split; [exact E|]. destruct (insert_sizes _ _ _ _ _ E) as (-> & ->). split; [|auto].
    eapply Inv_ext; [|exact HI']. intros x. cbn beta. rewrite sin_sputs by exact Hd. split.
    + intros [H|H]; [auto|]. right. split; [exact H|]. intros C. apply in_map_iff in C as (y & Ey & Hy).
      specialize (Hn y Hy). unfold sin in H. rewrite Ey in Hn. congruence.
    + tauto.
  - right. destruct Hok as (Hb & Hnow). eexists. split; [reflexivity|].
    destruct (delete_sizes now sc1 sc2 ids l) as (-> & ->). split; [|auto].
    eapply Inv_ext; [|apply (delete_inv (sin m)); [exact HI|exact Hb|apply Hnow]].
    intros x. cbn beta. rewrite sin_sdel. tauto.
  - destruct (split_inv (sin m) mg now l HI Hok) as [(E & _)|(l' & E & HI' & _ & A & B)]; [auto|].
    right. exists l'. split; [exact E|]. split; [exact HI'|]. split; congruence.
  - right. destruct Hok as (Hni & Hnow & Hsz & Hlen). rewrite <- HM, <- HS in Hsz.
    destruct (reindex_inv (sin m) l ni now sc HI Hsz Hnow Hni) as (l' & E & HI' & _ & A & B).
    { apply Hlen. apply (contents_ranking _ _ HI). }
    exists l'. split; [exact E|]. split; [exact HI'|]. split; congruence.
  - right. destruct Hok as (Hns & Hni & Hnow & Hlen).
    destruct (Hlen (contents l) (contents_ranking _ _ HI)) as (H1 & H2). unfold contents in *.
    rewrite <- HM, <- HS in H2.
    destruct (repair_inv ns ni now (fun _ => true) scd sca sc sch want l (i_sz _ _ HI) H2) as (l' & E & HI' & A & B); auto.
    { intros x (i & s & Hi & _ & Hx). destruct (i_core _ _ HI) as (Q & HC).
      apply (so_good _ _ (c_s _ _ _ _ HC)). eapply score_ok_seg; [apply HC|eapply nth_error_In; eauto|exact Hx]. }
    exists l'. split; [exact E|]. split; [|split; congruence].
    eapply Inv_ext; [|exact HI']. intros x. cbn beta. apply (repair_valid (sin m) l); auto.
  - right. destruct Hok as (Hns & Hni & Hnow & Hd & Hg & Hlen & Hsz). rewrite <- HM, <- HS in Hsz.
    destruct (populate_inv ns ni now sc sch want e l (i_sz _ _ HI) Hsz Hd Hg Hnow Hns Hni Hlen) as (l' & E & HI' & A & B).
    exists l'. split; [exact E|]. split; [|split; congruence].
    eapply Inv_ext; [|exact HI']. intros x. cbn beta. rewrite sin_sputs by exact Hd. rewrite sin_sempty. tauto.
  - right. eexists. split; [reflexivity|]. split; [apply reload_inv, HI|]. split; [exact HM|exact HS].
Qed.

Lemma reach_inv merge split l m : reachable merge split l m -> at_map merge split l m.
Proof.
  induction 1 as [merge split ns ni now sc sch want e l Hms Hsz Hns Hni Hnow Hd Hok Hlen E
                 |merge0 split0 org m merge split ns ni now l HR IH Hms Hsz Hns Hni Hnow Hlen E
                 |merge split org m ns ni now sc l HR IH Hsz Hns Hni Hnow Hlen E
                 |merge split l m o l' HR IH Hok E].
  - destruct (new_list_inv merge split ns ni now sc sch want e Hms Hsz Hd Hok Hnow Hns Hni Hlen) as (l' & E' & HI & A & B).
    assert (l' = l) by congruence. subst l'. split; [|auto]. eapply Inv_ext; [|exact HI]. intros x. cbn beta.
    rewrite restamp_eq, sin_sputs by (unfold distinct_ids; rewrite update_time_ids; exact Hd). rewrite sin_sempty. tauto.
  - destruct IH as (HI & _ & _).
    destruct (clone_inv (sin m) org merge split ns ni now HI Hms Hsz Hnow Hns Hni) as (l' & E' & HI' & _ & A & B).
    { apply Hlen. apply (contents_ranking _ _ HI). }
    assert (l' = l) by congruence. subst l'. split; auto.
  - destruct IH as (HI & HM & HS). rewrite <- HM, <- HS in Hsz.
    destruct (restored_inv (sin m) org ns ni now sc HI Hsz Hnow Hns Hni) as (l' & E' & HI' & _ & A & B).
    { apply Hlen. apply (contents_ranking _ _ HI). }
    assert (l' = l) by congruence. subst l'. split; [exact HI'|]. split; congruence.
  - destruct (step_ok merge split l m o IH Hok) as [C|(l2 & E2 & H)]; [congruence|].
    assert (l2 = l') by congruence. subst l2. exact H.
Qed.

Lemma reach_Inv merge split l m : reachable merge split l m -> Inv (sin m) l.
Proof. intros H. apply (reach_inv _ _ _ _ H). Qed.

Lemma run_ok merge split : forall ops l m, at_map merge split l m -> ops_ok merge split m ops ->
  run l ops = Exhausted \/ exists l', run l ops = Done l' /\ at_map merge split l' (spec_run m ops).
Proof.
  induction ops as [|o r IH]; intros l m H Hok; cbn [run spec_run].
  - right. exists l. auto.
  - destruct Hok as (H1 & H2). destruct (step_ok merge split l m o H H1) as [->|(l' & -> & H')]; [auto|]. apply IH; assumption.
Qed.

(** a ranking determines its set and vice versa *)
Lemma ranking_unique P r r' : ranking_of P r -> ranking_of P r' -> r = r'.
Proof.
  intros (A & B) (A' & B'). eapply sorted_unique; [apply Above_irrefl| |exact A|exact A'|].
  - intros x y H1 H2. apply (Above_irrefl x). eapply Above_trans; eauto.
  - intros x. rewrite B, B'. tauto.
Qed.

(** maps of reachable lists store elements under their own ID *)
Definition keyed (m : smap) : Prop := forall k x, m k = Some x -> e_id x = k.
Lemma keyed_sputs : forall l m, keyed m -> keyed (sputs m l).
Proof.
  induction l as [|x r IH]; intros m H; [exact H|]. apply (IH (sput m x)). intros k y. unfold sput.
  destruct (N.eqb_spec k (e_id x)) as [->|]; [congruence|apply H].
Qed.
Lemma reach_keyed merge split l m : reachable merge split l m -> keyed m.
Proof.
  induction 1 as [| | |merge split l m o l' HR IH Hok E]; auto.
  - apply keyed_sputs. intros k x. discriminate.
  - destruct o; cbn [spec_step]; auto using keyed_sputs.
    + intros k x. unfold sdel. destruct (existsb _ _); [discriminate|apply IH].
    + apply keyed_sputs. intros k x. discriminate.
Qed.
Lemma reach_key merge split l m : reachable merge split l m -> forall k x, m k = Some x -> e_id x = k.
Proof. apply reach_keyed. Qed.
