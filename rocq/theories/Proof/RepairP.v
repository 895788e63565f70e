(** Repair rebuilds a valid list from whatever elements can be read. *)
From Coq Require Import Strings.String.
From Verif.Lib Require Import Prelude ListAux ListLemmas SortLemmas Perm.
From Verif.Model Require Import Element Elements Segment List.
From Verif.Spec Require Import RankSpec QuerySpec.
From Verif.Proof Require Import ElementP ElementsP ElementsThm SegP InvDef QueryP LookupP ChangeP UpdateP UpdateInv DeleteP InsertP BuildP BuildInv.
Open Scope N_scope.

(** the elements Repair can read *)
Definition readable (rd : nat -> bool) (l : list seg) (x : element) : Prop :=
  exists i s, nth_error l i = Some s /\ rd i = true /\ In x (sg_elems s).

Lemma repair_elements_spec rd scd sca l :
  distinct_ids (repair_elements rd scd sca l) /\
  (forall x, In x (repair_elements rd scd sca l) -> readable rd l x) /\
  (forall x, readable rd l x -> exists y, In y (repair_elements rd scd sca l) /\ e_id y = e_id x /\ better y x).
Proof.
  unfold repair_elements.
  set (c := concat (mapi (fun i s => if rd i then fst (deduplicate (scd i) (sg_elems s)) else []) l)).
  destruct (deduplicate sca c) as (out & ch) eqn:E. cbn [fst].
  destruct (deduplicate_spec _ _ _ _ E) as (_ & A & B & C & _). split; [exact A|]. split.
  - intros x Hx. apply B in Hx. unfold c in Hx. apply in_concat in Hx as (v & Hv & Hx).
    apply mapi_In in Hv as (i & s & Hi & ->). destruct (rd i) eqn:Er; [|contradiction].
    exists i, s. split; [exact Hi|]. split; [exact Er|].
    destruct (deduplicate (scd i) (sg_elems s)) as (o & c0) eqn:E0. cbn [fst] in Hx.
    destruct (deduplicate_spec _ _ _ _ E0) as (_ & _ & B0 & _). auto.
  - intros x (i & s & Hi & Er & Hx).
    destruct (deduplicate (scd i) (sg_elems s)) as (o & c0) eqn:E0.
    destruct (deduplicate_spec _ _ _ _ E0) as (_ & _ & _ & C0 & _). destruct (C0 x Hx) as (y & Hy & Ey & By).
    destruct (C y) as (z & Hz & Ez & Bz).
    { unfold c. apply in_concat. exists o. split; [|exact Hy]. apply mapi_In. exists i, s. split; [exact Hi|].
      rewrite Er, E0. reflexivity. }
    exists z. split; [exact Hz|]. split; [congruence|]. eapply better_trans; eauto.
Qed.

Lemma repair_length rd scd sca l : (length (repair_elements rd scd sca l) <= length (elems_of l))%nat.
Proof.
  destruct (repair_elements_spec rd scd sca l) as (A & B & _).
  unfold distinct_ids in A. rewrite <- (map_length e_id), <- (map_length e_id (elems_of l)).
  apply NoDup_incl_length; [exact A|]. intros v Hv. apply in_map_iff in Hv as (x & <- & Hx).
  apply B in Hx as (i & s & Hi & _ & Hx). apply in_map. apply elems_of_In. exists s. split; [eapply nth_error_In; eauto|exact Hx].
Qed.

Lemma repair_inv ns ni now rd scd sca sc sch want l : (l_merge l < l_split l)%nat ->
  size_safe (l_merge l) (l_split l) want (length (elems_of (ss_segs (l_scores l)))) ->
  (forall x, readable rd (ss_segs (l_scores l)) x -> good x) ->
  0 < now < max_u32 -> ns <> ""%string -> ni <> ""%string ->
  N.of_nat (length (elems_of (ss_segs (l_scores l)))) < max_u32 ->
  exists l', repair ns ni now rd scd sca sc sch want l = Done l' /\
    Inv (fun x => In x (repair_elements rd scd sca (ss_segs (l_scores l)))) l' /\
    l_merge l' = l_merge l /\ l_split l' = l_split l.
Proof.
  intros Hms Hsz Hg Hnow Hns Hni Hlen. unfold repair.
  destruct (repair_elements_spec rd scd sca (ss_segs (l_scores l))) as (A & B & _).
  pose proof (repair_length rd scd sca (ss_segs (l_scores l))) as HL.
  apply populate_inv; auto; try lia.
  - unfold size_safe in *. destruct Hsz as (S1 & S2). split; [exact S1|]. intros H. apply S2. lia.
  - apply Forall_forall. intros x Hx. apply Hg, B, Hx.
Qed.

Lemma repair_valid P l rd scd sca : Inv P l -> (forall i, rd i = true) ->
  forall x, In x (repair_elements rd scd sca (ss_segs (l_scores l))) <-> P x.
Proof.
  intros HInv Hrd x. destruct (i_core _ _ HInv) as (Q & HC). pose proof (c_s _ _ _ _ HC) as HS.
  destruct (repair_elements_spec rd scd sca (ss_segs (l_scores l))) as (_ & B & C).
  assert (HR : forall y, readable rd (ss_segs (l_scores l)) y <-> P y).
  { intros y. rewrite <- (score_ok_In _ _ y HS), elems_of_In. split.
    - intros (i & s & Hi & _ & Hy). exists s. split; [eapply nth_error_In; eauto|exact Hy].
    - intros (s & Hs & Hy). apply In_nth_error in Hs as (i & Hi). exists i, s. auto. }
  split.
  - intros Hx. apply HR, B, Hx.
  - intros Hx. destruct (C x) as (y & Hy & Ey & _); [apply HR; exact Hx|].
    assert (y = x) by (apply (so_uniq _ _ HS); auto; apply HR, B, Hy). subst y. exact Hy.
Qed.
