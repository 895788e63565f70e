(** C53: the collection of lists is a map. *)
From Coq Require Import Strings.String Strings.Ascii.
From Verif.Lib Require Import Prelude ListAux Bytes.
From Verif.Model Require Import Lists.
From Verif.Spec Require Import ListsSpec.
From Verif.Proof Require Import ListsP ListsBack.
Open Scope nat_scope.

(** ByID returns the list that the last change to this ID put there. *)
Theorem C53_latest : forall cs id l, by_id (fold_left ListsSpec.apply cs []) id = Some l <-> latest cs id l.
Proof. exact c53_map. Qed.
Print Assumptions C53_latest.

(** Every ID occurs once, so All lists each ID once. *)
Theorem C53_distinct : forall cs, NoDup (all_ids (fold_left ListsSpec.apply cs [])).
Proof. exact c53_distinct. Qed.
Print Assumptions C53_distinct.

(** ByIDs answers position by position; Exists keeps the known IDs in their order. *)
Theorem C53_many : forall m ids, distinct m ->
  Forall2 (fun id o => match o with Some l => In l m /\ lid l = id | None => forall l, In l m -> lid l <> id end) ids (by_ids m ids) /\
  exist m ids = filter (fun id => if in_dec (list_eq_dec ascii_dec) id (map lid m) then true else false) ids.
Proof. exact c53_lookup. Qed.
Print Assumptions C53_many.

(** ListToListID does not ignore nil entries as documented. *)
Theorem C53_nil_refuted : exists ls, In None ls /\ to_ids ls = [lit "a"; lit "<nil>"].
Proof. exists [Some (Lst (lit "a") [] None 0); None]. cbn. auto. Qed.
Print Assumptions C53_nil_refuted.

Definition v1 : lst := Lst (lit "a") (lit "s1") None 1. Definition v2 : lst := Lst (lit "a") (lit "s1") None 2.
Definition w : lst := Lst (lit "b") (lit "s1") None 3.
Example C53_ex1 : latest [Put v1; Put w; Put v2; Drop (lit "b")] (lit "a") v2.
Proof. exists [Put v1; Put w], [Drop (lit "b")]. split; [reflexivity|]. split; [reflexivity|]. intros c [<-|[]]. discriminate. Qed.
Example C53_ex2 : let m := fold_left ListsSpec.apply [Put v1; Put w; Put v2; Drop (lit "b")] [] in
  by_ids m [lit "a"; lit "b"] = [Some v2; None] /\ exist m [lit "b"; lit "a"; lit "a"] = [lit "a"; lit "a"].
Proof. vm_compute. auto. Qed.
