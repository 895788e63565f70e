(** C01: the ranking order and uniqueness of rankings. *)
From Verif.Lib Require Import Prelude ListAux ListLemmas SortLemmas Perm.
From Verif.Model Require Import Element Elements.
From Verif.Spec Require Import RankSpec.
From Verif.Proof Require Import ElementP ElementsP ElementsThm.
Open Scope N_scope.

Theorem C01_order_strict_total :
  (forall a b, above a b = true <-> Above a b) /\
  (forall a b, aboveP a b = above a b) /\
  (forall a, ~ Above a a) /\
  (forall a b c, Above a b -> Above b c -> Above a c) /\
  (forall a b, e_id a <> e_id b -> Above a b \/ Above b a).
Proof. exact c01_order. Qed.
Print Assumptions C01_order_strict_total.

(** Every finite set of elements with distinct IDs has exactly one ranking. *)
Theorem C01_ranking_unique : forall l, distinct_ids l ->
  exists r, (ranked r /\ forall e, In e r <-> In e l) /\
  forall r', (ranked r' /\ forall e, In e r' <-> In e l) -> r' = r.
Proof. exact c01_unique. Qed.
Print Assumptions C01_ranking_unique.

Example C01_ex_distinct :
  distinct_ids [mkE 5 1 [] 0 3; mkE 5 2 [] 0 3; mkE 7 9 [] 2 1] /\
  Above (mkE 5 1 [] 0 3) (mkE 5 2 [] 0 3) /\ Above (mkE 5 9 [] 0 2) (mkE 5 1 [] 0 3).
Proof. split; [repeat constructor; cbn; lia|]. unfold Above; cbn; lia. Qed.
