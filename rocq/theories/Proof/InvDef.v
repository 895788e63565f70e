(** The invariant of loaded lists. *)
From Coq Require Import Strings.String.
From Verif.Lib Require Import Prelude ListAux ListLemmas SortLemmas Perm.
From Verif.Model Require Import Element Elements Segment List.
From Verif.Spec Require Import RankSpec QuerySpec.
From Verif.Proof Require Import ElementP ElementsP SegP.
Open Scope N_scope.

Definition idx_elem (q : element) : Prop := e_score q = e_id q /\ e_payload q = [].

Definition linked (Q : element -> Prop) (ss : list seg) : Prop :=
  forall id t, (exists q, Q q /\ e_id q = id /\ e_tie q = t) <->
               (exists s x, In s ss /\ In x (sg_elems s) /\ e_id x = id /\ sg_id s = t).

Definition uniq (P : element -> Prop) : Prop := forall x y, P x -> P y -> e_id x = e_id y -> x = y.

Record score_ok (P : element -> Prop) (ss : list seg) : Prop := {
  so_tile : tile ss;
  so_holds : holds P ss;
  so_good : forall x, P x -> good x;
  so_uniq : uniq P
}.

Record core (P Q : element -> Prop) (ss is : list seg) : Prop := {
  c_s : score_ok P ss;
  c_i : score_ok Q is;
  c_al : aligned is;
  c_form : forall q, Q q -> idx_elem q;
  c_nd : NoDup (map sg_id ss);
  c_id : Forall (fun s => sg_id s <= max_u32) ss;
  c_link : linked Q ss
}.

Definition seg_meta (name : string) (s : seg) : Prop :=
  sg_n s = length (sg_elems s) /\ 0 < sg_upd s < max_u32 /\ sg_parent s = name.
Definition cnt_ok (l : list seg) : Prop := Forall (fun s => sg_n s = length (sg_elems s)) l.

Record meta (s : segs) : Prop := {
  m_segs : Forall (seg_meta (ss_id s)) (ss_segs s);
  m_nd : NoDup (map sg_id (ss_segs s));
  m_id : Forall (fun g => 0 < sg_id g < ss_next s) (ss_segs s);
  m_idx : ss_idx s = [] \/ ss_idx s = build_idx (ss_segs s);
  m_next : ss_next s <= 4294967296;
  m_name : ss_id s <> ""%string
}.

Record Inv (P : element -> Prop) (l : lst) : Prop := {
  i_core : exists Q, core P Q (ss_segs (l_scores l)) (ss_segs (l_index l));
  i_ms : meta (l_scores l);
  i_mi : meta (l_index l);
  i_fs : ss_index (l_scores l) = false;
  i_fi : ss_index (l_index l) = true;
  i_ns : ss_id (l_scores l) = l_scores_id l;
  i_ni : ss_id (l_index l) = l_index_id l;
  i_sz : (l_merge l < l_split l)%nat
}.

Definition contents (l : lst) : elements := elems_of (ss_segs (l_scores l)).

Lemma good_ok x : good x -> elem_ok x.
Proof. unfold good. tauto. Qed.

Lemma score_ok_In P ss x : score_ok P ss -> In x (elems_of ss) <-> P x.
Proof. intros H. apply holds_elems_In; [apply H|apply H|]. intros y Hy. apply good_ok. eapply so_good; eauto. Qed.
Lemma score_ok_ranked P ss : score_ok P ss -> ranked (elems_of ss).
Proof. intros H. eapply holds_ranked; [apply H|apply H|]. intros y Hy. apply good_ok. eapply so_good; eauto. Qed.
Lemma score_ok_seg P ss s x : score_ok P ss -> In s ss -> In x (sg_elems s) -> P x /\ in_range s x.
Proof. intros H Hs Hx. pose proof (so_holds _ _ H) as HH. unfold holds in HH. rewrite Forall_forall in HH. apply (HH s Hs). exact Hx. Qed.

Lemma ranked_elems_distinct P l : ranked l -> uniq P -> (forall x, In x l -> P x) -> distinct_ids l.
Proof.
  intros Hr Hu HP. unfold distinct_ids.
  induction Hr as [|x r Hr IH HF]; cbn; constructor.
  - intros C. apply in_map_iff in C as (y & E & Hy). rewrite Forall_forall in HF.
    assert (x = y) by (apply Hu; [apply HP; left; reflexivity|apply HP; right; exact Hy|congruence]).
    subst y. apply (Above_irrefl x). auto.
  - apply IH. intros y Hy. apply HP. right; exact Hy.
Qed.

Lemma score_ok_distinct P ss : score_ok P ss -> distinct_ids (elems_of ss).
Proof.
  intros H. eapply ranked_elems_distinct; [eapply score_ok_ranked; eauto|eapply so_uniq; eauto|].
  intros x Hx. eapply score_ok_In; eauto.
Qed.

Lemma contents_ranking P l : Inv P l -> ranking_of P (contents l).
Proof.
  intros H. destruct (i_core _ _ H) as (Q & HC). split.
  - eapply score_ok_ranked, (c_s _ _ _ _ HC).
  - intros e. apply score_ok_In, (c_s _ _ _ _ HC).
Qed.

Lemma meta_cnt s : meta s -> cnt_ok (ss_segs s).
Proof. intros H. eapply Forall_impl; [|apply (m_segs _ H)]. unfold seg_meta. tauto. Qed.

Lemma core_ext P P' Q ss is : (forall x, P x <-> P' x) -> core P Q ss is -> core P' Q ss is.
Proof.
  intros E [[T H G U] Ci A F N I L]. split; auto. split; auto.
  - unfold holds in *. eapply Forall_impl; [|exact H]. intros s (Hr & Hx). split; [exact Hr|].
    intros x. rewrite <- E. apply Hx.
  - intros x Hx. apply G. apply E. exact Hx.
  - intros x y Hx Hy. apply U; apply E; assumption.
Qed.
Lemma Inv_ext P P' l : (forall x, P x <-> P' x) -> Inv P l -> Inv P' l.
Proof. intros E [(Q & C) ? ? ? ? ? ? ?]. split; auto. exists Q. eapply core_ext; eauto. Qed.

(** The part of the invariant that answers to queries depend on. *)
Record Qok (P : element -> Prop) (l : lst) : Prop := {
  q_core : exists Q, core P Q (ss_segs (l_scores l)) (ss_segs (l_index l));
  q_cnt : cnt_ok (ss_segs (l_scores l));
  q_idx : ss_idx (l_scores l) = [] \/ ss_idx (l_scores l) = build_idx (ss_segs (l_scores l))
}.
Lemma Inv_Qok P l : Inv P l -> Qok P l.
Proof. intros [C M _ _ _ _ _ _]. split; [exact C|apply meta_cnt, M|apply M]. Qed.
