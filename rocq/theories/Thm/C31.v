(** C31: matching lists by metadata and set. *)
From Coq Require Import Strings.String Strings.Ascii.
From Verif.Lib Require Import Prelude ListAux Bytes.
From Verif.Model Require Import Lists.
From Verif.Spec Require Import ListsSpec.
From Verif.Proof Require Import ListsP ListsBack.
Open Scope nat_scope.

(** MatchAll returns the selected lists, each once. *)
Theorem C31_exact : forall enum q sets, distinct enum ->
  (forall l meta, In l enum -> lmeta l = Some meta -> NoDup (map fst meta)) ->
  (forall id, In id (match_all enum q sets) <-> exists l, In l enum /\ lid l = id /\ selected q sets l) /\
  NoDup (match_all enum q sets).
Proof. exact c31_exact. Qed.
Print Assumptions C31_exact.

Theorem C31_nothing : forall enum, match_all enum [] [] = [].
Proof. exact c31_nothing. Qed.
Print Assumptions C31_nothing.

(** "All metadata fields match" does not mean that the list has the field: asking for the
    empty string also finds lists without it. *)
Theorem C31_missing_refuted : exists l q, lmeta l = Some [] /\ q = [(lit "country", [])] /\ match_all [l] q [] = [lid l].
Proof. exists (Lst (lit "a") (lit "s") (Some []) 0), [(lit "country", [])]. auto. Qed.
Print Assumptions C31_missing_refuted.

Definition k1 : bytes := lit "country". Definition k2 : bytes := lit "game".
Definition la : lst := Lst (lit "a") (lit "s1") (Some [(k1, lit "dk"); (k2, lit "go")]) 0.
Definition lb : lst := Lst (lit "b") (lit "s2") (Some [(k1, lit "dk")]) 0.
Definition lc : lst := Lst (lit "c") (lit "s2") None 0.
Example C31_ex1 : match_all [la; lb; lc] [(k1, lit "dk")] [] = [lit "a"; lit "b"] /\
  match_all [la; lb; lc] [(k1, lit "dk"); (k2, lit "go")] [] = [lit "a"] /\
  match_all [la; lb; lc] [(k1, lit "us")] [lit "s2"; lit "s3"] = [lit "b"; lit "c"].
Proof. vm_compute. auto. Qed.
Example C31_ex2 : distinct [la; lb; lc] /\ (forall l meta, In l [la; lb; lc] -> lmeta l = Some meta -> NoDup (map fst meta)).
Proof.
  split.
  - unfold distinct. vm_compute. repeat (apply NoDup_cons; [intros H; repeat (destruct H as [H|H]; [discriminate|]); exact H|]). apply NoDup_nil.
  - intros l meta [<-|[<-|[<-|[]]]] E; first [discriminate E|injection E as <-]; vm_compute;
      repeat (apply NoDup_cons; [intros H; repeat (destruct H as [H|H]; [discriminate|]); exact H|]); apply NoDup_nil.
Qed.
