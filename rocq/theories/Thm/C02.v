(** C02: deduplication. *)
From Verif.Lib Require Import Prelude ListAux ListLemmas SortLemmas Perm.
From Verif.Model Require Import Element Elements.
From Verif.Spec Require Import RankSpec.
From Verif.Proof Require Import ElementP ElementsP ElementsThm.
Open Scope N_scope.

(** For every tie order [sc] left by the unstable sort. *)
Theorem C02_dedup_keeps_latest : forall sc l out ch, deduplicate sc l = (out, ch) ->
  ranked out /\ distinct_ids out /\
  (forall e, In e out -> In e l) /\
  (forall i, In i (map e_id l) <-> In i (map e_id out)) /\
  (forall e x, In e out -> In x l -> e_id x = e_id e ->
     e_upd x <= e_upd e /\ (e_upd x = e_upd e -> e_score e <= e_score x)) /\
  (ch = true <-> ~ distinct_ids l).
Proof. exact c02_dedup. Qed.
Print Assumptions C02_dedup_keeps_latest.

(** HasDuplicates reports an error exactly when an ID occurs twice. *)
Theorem C02_has_duplicates : forall l, has_duplicates l = true <-> ~ distinct_ids l.
Proof. exact c02_has_duplicates. Qed.
Print Assumptions C02_has_duplicates.
Example C02_has_duplicates_ex : map has_duplicates [[]; [mkE 5 1 [] 0 10; mkE 5 2 [] 0 10]; [mkE 5 1 [] 0 10; mkE 6 2 [] 0 1; mkE 9 1 [] 0 11]] = [false; false; true].
Proof. vm_compute. reflexivity. Qed.

(** elements.go:71 "If update time is equal, the one with the highest score is
    kept" is false. *)
Theorem C02_highest_score_refuted : exists sc l out ch e x,
  deduplicate sc l = (out, ch) /\ In e out /\ In x l /\
  e_id x = e_id e /\ e_upd x = e_upd e /\ e_score e < e_score x.
Proof.
  exists [], [mkE 5 1 [] 0 10; mkE 9 1 [] 0 10; mkE 6 2 [] 0 1].
  eexists _, _, (mkE 5 1 [] 0 10), (mkE 9 1 [] 0 10).
  split; [vm_compute; reflexivity|]. cbn. repeat split; auto.
Qed.
Print Assumptions C02_highest_score_refuted.

Example C02_ex : deduplicate [2; 0; 1]%nat [mkE 5 1 [] 0 10; mkE 9 1 [] 0 11; mkE 6 2 [] 0 1; mkE 7 2 [] 0 1]
  = ([mkE 9 1 [] 0 11; mkE 6 2 [] 0 1], true).
Proof. vm_compute. reflexivity. Qed.
