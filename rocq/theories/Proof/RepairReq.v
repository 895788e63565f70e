(** Verify with repair, on a server with damaged lists. *)
From Coq Require Import Strings.String Strings.Byte.
From Verif.Lib Require Import Prelude ListAux Bytes.
From Verif.Model Require Import Element Elements Segment List Access Server.
From Verif.Spec Require Import RankSpec QuerySpec HistorySpec AnswerSpec RepairSpec.
From Verif.Proof Require Import ListThm ResultP DropP ProgressP ServerP.
Open Scope N_scope.

Lemma loadable_all l x : loadable (fun _ => true) (ss_segs (l_scores l)) x <-> In x (stored_in l).
Proof.
  unfold stored_in, loadable. rewrite in_concat. split.
  - intros (i & s & Hs & _ & Hx). exists (sg_elems s). split; [apply in_map; eapply nth_error_In; eauto|exact Hx].
  - intros (q & Hs & Hx). apply in_map_iff in Hs as (s & <- & Hs). apply In_nth_error in Hs as (i & Hi). exists i, s. auto.
Qed.
Lemma repair_mends v l : repairable v l -> exists l', do_repair v l = Done l' /\ mended l l'.
Proof.
  intros (H1 & H2 & H3 & H4 & H5 & H6 & H7). unfold do_repair.
  destruct (c19_repair l (fun _ => true) (v_ns v) (v_ni v) (v_seg v) (v_scds v) (v_scd v) (v_sc v) (v_sch v) (v_want v) H1 H2) as (l' & E & V1 & V2 & R); auto.
  - intros x Hx. apply H3, loadable_all, Hx.
  - exists l'. split; [exact E|]. destruct R as (_ & _ & _ & R1 & R2). split; [exact V1|split; [exact V2|split]].
    + intros x Hx. apply loadable_all, R1, Hx.
    + intros x Hx. apply R2, loadable_all, Hx.
Qed.
Lemma mended_self l : verify l = true -> verify_elements l = true -> mended l l.
Proof. intros A B. split; [exact A|split; [exact B|split; [auto|]]]. intros x Hx. exists x. split; [exact Hx|split; [reflexivity|lia]]. Qed.

Lemma c19_verify_request d v w t id e : dget d id = Some e -> repairable v (n_list e) ->
  exists d' e', handle d v w t (Q_verify id true) = Done (d', A_verified true) /\ dget d' id = Some e' /\
    mended (n_list e) (n_list e') /\ n_set e' = n_set e /\ n_meta e' = n_meta e /\
    (forall k, k <> id -> dget d' k = dget d k).
Proof.
  intros G R. cbn [handle]. unfold on_any_list. rewrite G. destruct (verify (n_list e) && verify_elements (n_list e)) eqn:V.
  - apply andb_true_iff in V as (V1 & V2). exists d, e. split; [reflexivity|]. split; [exact G|]. split; [apply mended_self; assumption|]. auto.
  - destruct (repair_mends _ _ R) as (l' & E & M). rewrite E. cbn [bind]. eexists _, (with_list e l'). split; [reflexivity|].
    rewrite dget_dput, beq_refl. split; [reflexivity|]. split; [exact M|]. split; [reflexivity|]. split; [reflexivity|].
    intros k K. rewrite dget_dput. destruct (beq id k) eqn:B; [apply beq_true in B; congruence|reflexivity].
Qed.
Lemma c19_m_verify v e elems : repairable v (n_list e) ->
  exists l', m_verify v true elems e = Done (l', M_ok []) /\ verify l' = true /\ (elems = true -> mended (n_list e) l').
Proof.
  intros R. unfold m_verify, m_check. destruct (repair_mends _ _ R) as (l' & E & M). destruct (verify (n_list e)) eqn:V.
  - destruct elems; [|exists (n_list e); split; [reflexivity|split; [exact V|discriminate]]].
    destruct (verify_elements (n_list e)) eqn:V2.
    + exists (n_list e). split; [reflexivity|]. split; [exact V|]. intros _. apply mended_self; assumption.
    + rewrite E. cbn [bind]. destruct M as (M1 & M2 & M3). rewrite M2. exists l'. split; [reflexivity|]. split; [exact M1|]. intros _. split; auto.
  - rewrite E. cbn [bind]. destruct M as (M1 & M2 & M3). rewrite M1. destruct elems.
    + rewrite M2. exists l'. split; [reflexivity|]. split; [exact M1|]. intros _. split; auto.
    + exists l'. split; [reflexivity|]. split; [exact M1|discriminate].
Qed.
