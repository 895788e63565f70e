(** C48: segments tile the score space. *)
From Coq Require Import Strings.String.
From Verif.Lib Require Import Prelude ListAux.
From Verif.Model Require Import Element Elements Segment List.
From Verif.Spec Require Import RankSpec QuerySpec HistorySpec AnswerSpec.
From Verif.Proof Require Import ListThm ResultP DropP ProgressP.
From Verif.Thm Require Import Sample.
Open Scope N_scope.

Theorem C48_tile : forall merge split l m, reachable merge split l m ->
  covered_once (ss_segs (l_scores l)) /\ covered_once (ss_segs (l_index l)) /\
  (forall s x, In s (ss_segs (l_scores l)) -> In x (sg_elems s) -> covers s (e_score x) (e_tie x)) /\
  (forall s q, In s (ss_segs (l_index l)) -> In q (sg_elems s) -> covers s (e_score q) (e_tie q) /\ e_score q = e_id q).
Proof. exact c48_tile. Qed.
Print Assumptions C48_tile.

Example C48_ex : reachable 2 4 l3 m1 /\
  map (fun s => (sg_max s, sg_maxtie s, sg_min s, sg_mintie s)) (ss_segs (l_scores l3)) =
  [(max_u64, max_u32, 80, 3); (80, 2, 50, 1); (50, 0, 50, 0); (49, max_u32, 5, 1); (5, 0, 0, 0)].
Proof. split; [exact l3_reach|vm_compute; reflexivity]. Qed.
