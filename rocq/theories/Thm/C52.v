(** C52: which requests a restricted token can make. *)
From Coq Require Import Strings.String Strings.Ascii.
From Verif.Lib Require Import Prelude ListAux.
From Verif.Model Require Import Access.
From Verif.Spec Require Import AccessSpec.
From Verif.Proof Require Import AccessP.
Open Scope N_scope.

(** requests whose handler calls the checks *)
Definition checked (r : request) : bool :=
  match r with R_elements _ _ | R_multi _ _ _ | R_list_read _ => true | _ => false end.
Definition elements_ok (r : request) : Prop :=
  match r with R_elements _ es | R_multi _ _ es => Forall (fun id => id < 2 ^ 64) es | _ => True end.

(** An element, multi-list element or list reading request is carried out only on lists
    and elements the token names. *)
Theorem C52_checked : forall ol oe r lids eids, checked r = true -> elements_ok r ->
  handle (Claims ol oe) r = Some (lids, eids) ->
  match ol with CText v => forall id, In id lids -> names_list v id | CNone => True end /\
  match oe with CText v => forall id, In id eids -> names_element v id | CNone => True end.
Proof.
  intros ol oe r lids eids Hc Hok.
  destruct r as [lid es|ls ms es|lid|lid|s d|ls ms]; cbn [checked] in Hc; try discriminate; cbn [handle elements_ok] in *.
  - destruct (has_list _ _) eqn:E1; [|discriminate]. destruct (has_elem _ _) eqn:E2; [|discriminate]. cbn [andb].
    intros E. injection E as <- <-. split; [exact (proj1 (c45_list ol oe _) E1)|exact (proj1 (c45_elem ol oe _ Hok) E2)].
  - destruct (has_list _ _) eqn:E1; [|discriminate]. destruct (has_elem _ _) eqn:E2; [|discriminate]. cbn [andb].
    intros E. injection E as <- <-. split; [exact (proj1 (c45_list ol oe _) E1)|exact (proj1 (c45_elem ol oe _ Hok) E2)].
  - destruct (has_list _ _) eqn:E1; [|discriminate]. intros E. injection E as <- <-. split; [exact (proj1 (c45_list ol oe _) E1)|].
    destruct oe; [intros id []|exact I].
Qed.
Print Assumptions C52_checked.

(** And it is carried out whenever the token names them all. *)
Theorem C52_allowed : forall (v w lid : bytes) eids, Forall (fun id => id < 2 ^ 64) eids -> names_list v lid ->
  (forall id, In id eids -> names_element w id) -> handle (Claims (CText v) (CText w)) (R_elements lid eids) = Some ([lid], eids).
Proof.
  intros v w lid eids B Hl He. cbn [handle].
  rewrite (proj2 (c45_list (CText v) (CText w) [lid])) by (intros id [<-|[]]; exact Hl).
  rewrite (proj2 (c45_elem (CText v) (CText w) eids B) He). reflexivity.
Qed.
Print Assumptions C52_allowed.

(** Creating (replacing), deleting, repairing, reindexing, cloning and backing up lists is
    not covered by the restriction. *)
Theorem C52_manage_refuted : exists v r lids eids lid, handle (Claims (CText v) CNone) r = Some (lids, eids) /\
  In lid lids /\ ~ names_list v lid.
Proof.
  exists (list_ascii_of_string "mine"), (R_list_manage (list_ascii_of_string "yours")), [list_ascii_of_string "yours"], [], (list_ascii_of_string "yours").
  split; [reflexivity|]. split; [left; reflexivity|]. intros H.
  assert (E : has_list (Claims (CText (list_ascii_of_string "mine")) CNone) [list_ascii_of_string "yours"] = true).
  { apply c45_list. intros id [<-|[]]. exact H. }
  vm_compute in E. discriminate.
Qed.
Print Assumptions C52_manage_refuted.

Definition str (s : string) : bytes := list_ascii_of_string s.
Definition t52 : token := Claims (CText (str "mine, ours")) (CText (str "1,2")).
Example C52_ex : handle t52 (R_elements (str "ours") [2; 1]) = Some ([str "ours"], [2; 1]) /\
  handle t52 (R_elements (str "ours") [2; 3]) = None /\ handle t52 (R_multi [str "mine"] [str "yours"] [1]) = None /\
  handle t52 (R_list_read (str "yours")) = None /\ handle t52 (R_list_manage (str "yours")) = Some ([str "yours"], []).
Proof. vm_compute. auto. Qed.
