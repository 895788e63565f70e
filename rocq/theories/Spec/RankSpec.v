(** Independent specification of rankings. *)
From Verif.Lib Require Import Prelude.
From Verif.Model Require Import Element.
Open Scope N_scope.

(** [a] ranks before [b]: score descending, tie breaker descending, update time
    ascending, ID ascending. *)
Definition Above (a b : element) : Prop :=
  e_score a > e_score b \/
  (e_score a = e_score b /\
   (e_tie a > e_tie b \/
    (e_tie a = e_tie b /\
     (e_upd a < e_upd b \/ (e_upd a = e_upd b /\ e_id a < e_id b))))).

(** A ranking: every element ranks before all later ones. *)
Definition ranked (l : list element) : Prop := StronglySorted Above l.

(** Weak form: no element is preceded by one it ranks before. *)
Definition weakly_ranked (l : list element) : Prop :=
  StronglySorted (fun a b => ~ Above b a) l.

Definition distinct_ids (l : list element) : Prop := NoDup (map e_id l).

(** [l] is the ranking of the set [P]. *)
Definition ranking_of (P : element -> Prop) (l : list element) : Prop :=
  ranked l /\ forall e, In e l <-> P e.
