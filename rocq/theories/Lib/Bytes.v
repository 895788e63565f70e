(** Byte strings. No model content. *)
From Coq Require Import Strings.String.
From Coq Require Export Strings.Ascii.
From Verif.Lib Require Import Prelude.

Definition bytes := list ascii.
Definition beq (a b : bytes) : bool := if list_eq_dec ascii_dec a b then true else false.
(** a string literal as bytes *)
Definition lit (s : string) : bytes := list_ascii_of_string s.

Lemma beq_true : forall a b, beq a b = true <-> a = b.
Proof. intros. unfold beq. destruct (list_eq_dec _ _ _); split; congruence. Qed.
Lemma beq_refl : forall a, beq a a = true.
Proof. intros. apply beq_true. reflexivity. Qed.
