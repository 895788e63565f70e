(** C45: restrictions carried by a token. *)
From Coq Require Import Strings.String Strings.Ascii.
From Verif.Lib Require Import Prelude ListAux.
From Verif.Model Require Import Access.
From Verif.Spec Require Import AccessSpec.
From Verif.Proof Require Import AccessP.
Open Scope N_scope.

(** Access to lists is granted iff every ID is one of the comma separated names, blanks
    around the names not counting. *)
Theorem C45_lists : forall only_lists only_elements ids, has_list (Claims only_lists only_elements) ids = true <->
  match only_lists with CText v => forall id, In id ids -> names_list v id | CNone => True end.
Proof. exact c45_list. Qed.
Print Assumptions C45_lists.

(** Access to elements likewise, comparing numbers. *)
Theorem C45_elements : forall only_lists only_elements ids, Forall (fun id => id < 2 ^ 64) ids ->
  has_elem (Claims only_lists only_elements) ids = true <->
  match only_elements with CText v => forall id, In id ids -> names_element v id | CNone => True end.
Proof. exact c45_elem. Qed.
Print Assumptions C45_elements.

(** No token: no restriction.  Claims of an unknown shape: nothing is granted. *)
Theorem C45_other : forall lids eids, has_list NoToken lids = true /\ has_elem NoToken eids = true /\
  has_list BadClaims lids = false /\ has_elem BadClaims eids = false.
Proof. intros. repeat split. Qed.
Print Assumptions C45_other.

Definition str (s : string) : bytes := list_ascii_of_string s.
Definition tok : token := Claims (CText (str " a, my list ,b")) (CText (str "7, 007 ,x,18446744073709551616, 42")).
Example C45_ex1 : has_list tok [str "a"; str "my list"; str "b"] = true /\ has_list tok [str "a"; str "my"] = false /\
  has_list tok [str " a"] = false /\ has_list tok [] = true.
Proof. vm_compute. auto. Qed.
Example C45_ex2 : has_elem tok [7; 42] = true /\ has_elem tok [7; 0] = false /\ has_elem tok [70] = false.
Proof. vm_compute. auto. Qed.
